(** Slip traces in double precision: defdap/ebsd.py 1522-1570, every operation rounded as IEEE 754
    prescribes. *)
From Coq Require Import String.
From Coq Require Import List ZArith Bool.
From Flocq Require Import IEEE754.BinarySingleNaN.
From Verif Require Import Py Double_Model Kam64_Model Average64_Model Schmid64_Model.
Import ListNotations.

(** np.cross of vectors. *)
Definition cross_f (a b : fvec) : fvec := F3
  (fsub (fmul (f_y a) (f_z b)) (fmul (f_z a) (f_y b)))
  (fsub (fmul (f_z a) (f_x b)) (fmul (f_x a) (f_z b)))
  (fsub (fmul (f_x a) (f_y b)) (fmul (f_y a) (f_x b))).

Section Trace.
(** As in Schmid64_Model; np.arccos. *)
Variable dot3 : fquat -> fquat -> f64.
Variable dotv : fvec -> fvec -> f64.
Variable dot_f : nat -> nat -> fquat -> fquat -> f64.
Variable dot4 : fquat -> fquat -> f64.
Variable arccos : f64 -> f64.

(** 1553-1555 *)
Definition inclination_f (screen n : fvec) : f64 :=
  let i := arccos (dotv screen n) in if flt (fdiv fpi f2) i then fsub fpi i else i.
(** 1559-1566; multiplication by -1 is [fneg]. *)
Definition angle_f (q : fquat) (cross : fvec) : f64 :=
  let i := unit_f dotv (transform_f dot3 (conjugate_f q) cross) in
  let i := if flt f0 (f_x i) then F3 (fneg (f_x i)) (fneg (f_y i)) (fneg (f_z i)) else i in
  arccos (dotv i (F3 f0 f1 f0)).
(** 1539-1570 for one plane normal: (trace angle, inclination). *)
Definition trace_f (q : fquat) (n : fvec) : f64 * f64 :=
  let screen := transform_f dot3 q (F3 f0 f0 f1) in
  (angle_f q (cross_f screen n), inclination_f screen n).
(** 1530-1570 [calc_slip_traces], for the plane normal of the first system of each group; the reference
    orientation is the average if there is none. *)
Definition traces_f (ref : option fquat) (g : string) (qs : list fquat) (groups : list (list (fvec * fvec))) : res (list (f64 * f64)) :=
  do r <- match ref with Some r => Ok r | None => average_f dot_f dot4 g qs end;
  for_each (fun done grp => match grp with [] => Err IndexError | s :: _ => Ok (done ++ [trace_f r (fst s)]) end) groups [].
End Trace.
