(** Average orientations in double precision: defdap/quat.py 731-767 and defdap/ebsd.py 1287-1311 when
    the grain has no reference orientation yet, every operation rounded as IEEE 754 prescribes. *)
From Coq Require Import String.
From Coq Require Import List ZArith Bool.
From Flocq Require Import IEEE754.BinarySingleNaN.
From Verif Require Import Py Double_Model Kam64_Model.
Import ListNotations.

Section Average.
(** The sum of products (np.einsum) of a point and a symmetry; that of the norm (np.dot); np.arccos. *)
Variable dot_f : nat -> nat -> fquat -> fquat -> f64.
Variable dot4 : fquat -> fquat -> f64.
Variable arccos : f64 -> f64.

(** defdap/quat.py 759: the sum of arrays. *)
Definition add_f (a b : fquat) : fquat := F4 (fadd (fw a) (fw b)) (fadd (fx a) (fx b)) (fadd (fy a) (fy b)) (fadd (fz a) (fz b)).
(** 750-759 for point [i]: the equivalent of [q] that is added to [av]. *)
Definition chosen_f (i : nat) (g : string) (av q : fquat) : fquat :=
  let col := eqvs_f g q in
  nth (argmax_f (map (fun jc => fabs (dot_f i (fst jc) (snd jc) av)) (combine (seq 0 (List.length col)) col))) col (F4 f0 f0 f0 f0).
(** 747-759 *)
Definition sum_f (g : string) (q0 : fquat) (rest : list fquat) : fquat :=
  fold_left (fun av iq => add_f av (chosen_f (fst iq) g av (snd iq))) (combine (seq 1 (List.length rest)) rest) q0.
(** 761-763: the constructor (59-63) moves the sum to the northern hemisphere. *)
Definition north_f (q : fquat) : fquat := if flt (fw q) f0 then fqneg q else q.
(** 731-767 [calc_average_ori] of the equivalents (702-728) of [qs]. *)
Definition average_f (g : string) (qs : list fquat) : res fquat :=
  match qs with
  | [] => Err IndexError
  | q0 :: rest => Ok (normalise_f dot4 (north_f (sum_f g q0 rest)))
  end.
(** defdap/ebsd.py 1287-1311 [calc_grod]: the reference orientation is the average if there is none. *)
Definition grod_f (r : option fquat) (qs : list fquat) (g : string) : res (fquat * list (f64 * (f64 * f64 * f64))) :=
  do r <- match r with Some r => Ok r | None => average_f g qs end;
  Ok (r, calc_grod_f dot_f arccos r qs g).
End Average.
