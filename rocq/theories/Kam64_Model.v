(** Kernel average misorientation and misorientations within grains in double precision:
    defdap/ebsd.py 403-449, 1287-1311 and defdap/quat.py 702-728, 770-806, every operation rounded as
    IEEE 754 prescribes. *)
From Coq Require Import String.
From Coq Require Import List ZArith Bool.
From Flocq Require Import IEEE754.BinarySingleNaN.
From Verif Require Import Py Grid Double_Model.
Import ListNotations.
Open Scope Z_scope.

Section Kam.
(** Library functions: the sum of products (np.einsum) of an axis, a pixel and a side; np.arccos. *)
Variable dot_f : Z -> pix -> nat -> fquat -> fquat -> f64.
Variable arccos : f64 -> f64.

(** defdap/ebsd.py 418-428 (rows) and 433-443 (columns) at position [i] of a line of [n]. *)
Definition kam_line_f (d : Z) (p : pix) (n : Z) (q : Z -> fquat) (i : Z) : f64 :=
  if i =? 0 then fabs (dot_f d p 0 (q 0) (q 1))
  else if i =? n - 1 then fabs (dot_f d p 0 (q (n - 1)) (q (n - 2)))
  else fdiv (fadd (fabs (dot_f d p 0 (q i) (q (i + 1)))) (fabs (dot_f d p 1 (q i) (q (i - 1))))) f2.
(** 403-449 [calc_kam]; 429 and 446 are [clip_f]. *)
Definition calc_kam_f (W H : Z) (ori : pix -> fquat) : res (pix -> f64) :=
  if (H <? 2) || (W <? 2) then Err IndexError
  else Ok (fun p =>
    let rows := clip_f (kam_line_f 0 p H (fun y => ori (fst p, y)) (snd p)) in
    let kam := fdiv (fadd rows (kam_line_f 1 p W (fun x => ori (x, snd p)) (fst p))) f2 in
    fmul f2 (arccos (clip_f kam))).
End Kam.

(** np.argmax: the first maximum, or the first nan. *)
Fixpoint argmax_from_f (best : f64) (bi i : nat) (l : list f64) : nat :=
  match l with
  | [] => bi
  | a :: l => if is_nan best then bi else if is_nan a || flt best a then argmax_from_f a i (S i) l else argmax_from_f best bi (S i) l
  end.
Definition argmax_f (l : list f64) : nat := match l with [] => 0%nat | a :: l => argmax_from_f a 0 1 l end.

Section Grod.
(** The sum of products of a point and a symmetry; np.arccos. *)
Variable dot_f : nat -> nat -> fquat -> fquat -> f64.
Variable arccos : f64 -> f64.

(** defdap/quat.py 702-728 for one point: the sums are in the order of [comps_f]. *)
Definition eqvs_f (g : string) (q : fquat) : list fquat := q :: map (fun s => comps_f s q) (tl (syms_f g)).
(** defdap/quat.py 793-806 for point [i]. *)
Definition point_f (i : nat) (g : string) (q r : fquat) : f64 * fquat :=
  let col := eqvs_f g q in
  let mis := map (fun jc => fabs (dot_f i (fst jc) (snd jc) r)) (combine (seq 0 (List.length col)) col) in
  let k := argmax_f mis in
  (clip_f (nth k mis f0), nth k col (F4 f0 f0 f0 f0)).
(** defdap/quat.py 319-328 [conjugate], into the northern hemisphere. *)
Definition conjugate_f (q : fquat) : fquat :=
  let c := F4 (fw q) (fneg (fx q)) (fneg (fy q)) (fneg (fz q)) in
  if flt (fw c) f0 then fqneg c else c.
(** defdap/ebsd.py 1300-1307 *)
Definition dq_f (r c : fquat) : fquat := F4
  (fsub (fsub (fsub (fmul (fw r) (fw c)) (fmul (fx r) (fx c))) (fmul (fy r) (fy c))) (fmul (fz r) (fz c)))
  (fsub (fadd (fadd (fmul (fx r) (fw c)) (fmul (fw r) (fx c))) (fmul (fz r) (fy c))) (fmul (fy r) (fz c)))
  (fsub (fadd (fadd (fmul (fy r) (fw c)) (fmul (fw r) (fy c))) (fmul (fx r) (fz c))) (fmul (fz r) (fx c)))
  (fsub (fadd (fadd (fmul (fz r) (fw c)) (fmul (fw r) (fz c))) (fmul (fy r) (fx c))) (fmul (fx r) (fy c))).
(** defdap/ebsd.py 1309 for a component [d] where [t] is the scalar part; [**2] is a product. *)
Definition axis_f (t d : f64) : f64 := fdiv (fmul (fmul f2 d) (arccos t)) (fsqrt (fsub f1 (fmul t t))).
(** defdap/ebsd.py 1298-1309; multiplication by -1 is [fneg]. *)
Definition grod_axis_f (r m : fquat) : f64 * f64 * f64 :=
  let dq := dq_f (conjugate_f r) m in
  let dq := if flt (fw dq) f0 then fqneg dq else dq in
  (axis_f (fw dq) (fx dq), axis_f (fw dq) (fy dq), axis_f (fw dq) (fz dq)).
(** defdap/ebsd.py 1287-1311 [calc_grod] when there is a reference orientation: the angle and the axis
    of each point. *)
Definition grod_point_f (i : nat) (g : string) (r q : fquat) : f64 * (f64 * f64 * f64) :=
  let '(m, c) := point_f i g q r in (fmul f2 (arccos m), grod_axis_f r c).
Definition calc_grod_f (r : fquat) (qs : list fquat) (g : string) : list (f64 * (f64 * f64 * f64)) :=
  map (fun iq => grod_point_f (fst iq) g r (snd iq)) (combine (seq 0 (List.length qs)) qs).
End Grod.
