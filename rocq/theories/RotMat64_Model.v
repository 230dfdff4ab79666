(** Rotation matrices in double precision: defdap/quat.py 179-215, every operation rounded as IEEE 754
    prescribes. *)
From Coq Require Import List ZArith Bool.
From Flocq Require Import IEEE754.BinarySingleNaN.
From Verif Require Import Py Double_Model Schmid64_Model.
Import ListNotations.

(** A 3x3 array of doubles, by rows. *)
Record fmat := FM { row0 : fvec; row1 : fvec; row2 : fvec }.

Section Matrix.
(** [x**2] of a numpy number: the pow of the C library, which need not round correctly. *)
Variable sq : f64 -> f64.
(** 200-201 *)
Definition qbar_f (q : fquat) : f64 := fsub (fsub (fsub (sq (fw q)) (sq (fx q))) (sq (fy q))) (sq (fz q)).
(** 198-215 [rot_matrix] *)
Definition rot_matrix_f (q : fquat) : fmat :=
  FM (F3 (fadd (qbar_f q) (fmul f2 (sq (fx q)))) (fmul f2 (fsub (fmul (fx q) (fy q)) (fmul (fw q) (fz q)))) (fmul f2 (fadd (fmul (fx q) (fz q)) (fmul (fw q) (fy q)))))
     (F3 (fmul f2 (fadd (fmul (fx q) (fy q)) (fmul (fw q) (fz q)))) (fadd (qbar_f q) (fmul f2 (sq (fy q)))) (fmul f2 (fsub (fmul (fy q) (fz q)) (fmul (fw q) (fx q)))))
     (F3 (fmul f2 (fsub (fmul (fx q) (fz q)) (fmul (fw q) (fy q)))) (fmul f2 (fadd (fmul (fy q) (fz q)) (fmul (fw q) (fx q)))) (fadd (qbar_f q) (fmul f2 (sq (fz q))))).
End Matrix.
