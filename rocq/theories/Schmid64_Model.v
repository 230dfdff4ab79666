(** Schmid factors in double precision: defdap/quat.py 330-363, defdap/ebsd.py 1438-1474 and
    defdap/crystal.py 245-247, every operation rounded as IEEE 754 prescribes. *)
From Coq Require Import String.
From Coq Require Import List ZArith Bool.
From Flocq Require Import IEEE754.BinarySingleNaN.
From Verif Require Import Py Double_Model Kam64_Model Average64_Model.
Import ListNotations.

(** An array of three numbers. *)
Record fvec := F3 { f_x : f64; f_y : f64; f_z : f64 }.
Definition pairs3 (a b : fvec) : list (f64 * f64) := [(f_x a, f_x b); (f_y a, f_y b); (f_z a, f_z b)].

Section Schmid.
(** Sums of products: np.dot in [__mul__] (quat.py 245) and of vectors; those of the average. *)
Variable dot3 : fquat -> fquat -> f64.
Variable dotv : fvec -> fvec -> f64.
Variable dot_f : nat -> nat -> fquat -> fquat -> f64.
Variable dot4 : fquat -> fquat -> f64.

(** defdap/quat.py 240-254 [__mul__] with allow_southern. *)
Definition mul_south_f (a b : fquat) : fquat := F4
  (fsub (fmul (fw a) (fw b)) (dot3 a b))
  (fadd (fadd (fmul (fw a) (fx b)) (fmul (fw b) (fx a))) (fsub (fmul (fy a) (fz b)) (fmul (fz a) (fy b))))
  (fadd (fadd (fmul (fw a) (fy b)) (fmul (fw b) (fy a))) (fsub (fmul (fz a) (fx b)) (fmul (fx a) (fz b))))
  (fadd (fadd (fmul (fw a) (fz b)) (fmul (fw b) (fz a))) (fsub (fmul (fx a) (fy b)) (fmul (fy a) (fx b)))).
(** 330-363 [transform_vector] *)
Definition transform_f (q : fquat) (v : fvec) : fvec :=
  let p := mul_south_f q (mul_south_f (F4 f0 (f_x v) (f_y v) (f_z v)) (conjugate_f q)) in
  F3 (fx p) (fy p) (fz p).
(** defdap/ebsd.py 1458-1472 for a slip system with the given plane normal and direction. *)
Definition schmid_f (q : fquat) (load : fvec) (plane dir : fvec) : f64 :=
  let lc := transform_f q load in fabs (fmul (dotv lc plane) (dotv lc dir)).
(** 1450-1474 [calc_average_schmid_factors]: the reference orientation is the average if there is none. *)
Definition schmid_factors_f (ref : option fquat) (g : string) (qs : list fquat) (load : fvec) (groups : list (list (fvec * fvec))) : res (list (list f64)) :=
  do r <- match ref with Some r => Ok r | None => average_f dot_f dot4 g qs end;
  Ok (map (map (fun s => schmid_f r load (fst s) (snd s))) groups).
(** defdap/crystal.py 246-247 for three indices of a cubic crystal, as numbers: norm is the root of np.dot. *)
Definition unit_f (v : fvec) : fvec :=
  let n := fsqrt (dotv v v) in F3 (fdiv (f_x v) n) (fdiv (f_y v) n) (fdiv (f_z v) n).
End Schmid.
