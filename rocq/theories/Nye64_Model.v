(** The lattice distortion between neighbouring pixels and the density of dislocations from it, in double precision:
    defdap/ebsd.py 512-566, every operation rounded as IEEE 754 prescribes. *)
From Coq Require Import List ZArith Bool.
From Flocq Require Import IEEE754.BinarySingleNaN.
From Verif Require Import Py Double_Model Kam64_Model Schmid64_Model RotMat64_Model.
Import ListNotations.

(** 1e-6 (524, 533), 1.4e-10 (537), and 30 / 20. (554) *)
Definition f1e_6 : f64 := number 4722366482869645 (-72) eq_refl.
Definition f_bavg : f64 := number 5415987671873539 (-85) eq_refl.
Definition f3half : f64 := number 6755399441055744 (-52) eq_refl.

Section Nye.
Variable sq : f64 -> f64.
(** np.dot in [__mul__], as in Schmid64_Model. *)
Variable dot3 : fquat -> fquat -> f64.
(** defdap/quat.py 240-252 [__mul__]; the constructor moves the product to the northern hemisphere. *)
Definition times_f (a b : fquat) : fquat := let c := mul_south_f dot3 a b in if flt (fw c) f0 then fqneg c else c.
Definition entrywise (f : f64 -> f64 -> f64) (a : fmat) (on off : f64) : fmat :=
  FM (F3 (f (f_x (row0 a)) on) (f (f_y (row0 a)) off) (f (f_z (row0 a)) off))
     (F3 (f (f_x (row1 a)) off) (f (f_y (row1 a)) on) (f (f_z (row1 a)) off))
     (F3 (f (f_x (row2 a)) off) (f (f_y (row2 a)) off) (f (f_z (row2 a)) on)).
(** 525-533 for a pixel with orientation [q] and the equivalent [p] chosen for its neighbour: (rot_matrix - np.eye(3)) / step /
    1e-6.  Which equivalent is chosen is left open; both are in the northern hemisphere (484), where the constructor
    leaves them. *)
Definition distortion_f (step : f64) (q p : fquat) : fmat :=
  entrywise (fun m i => fdiv (fdiv (fsub m i) step) f1e_6) (rot_matrix_f sq (times_f (conjugate_f p) q)) f1 f0.
(** 536-542: both names are one array (513), so the Nye tensor is of one distortion. *)
Definition nye_f (b : fmat) : fmat :=
  let c x y := fdiv (fsub x y) f_bavg in let d x := fdiv x f_bavg in let e x := fdiv (fmul (fneg f1) x) f_bavg in
  FM (F3 (e (f_z (row0 b))) (d (f_z (row0 b))) (c (f_x (row0 b)) (f_y (row0 b))))
     (F3 (e (f_z (row1 b))) (d (f_z (row1 b))) (c (f_x (row1 b)) (f_y (row1 b))))
     (F3 (e (f_z (row2 b))) (d (f_z (row2 b))) (c (f_x (row2 b)) (f_y (row2 b)))).
(** 554-558 [alpha_total9].  The assignment at 561 has no effect: line 559 has made every entry of [alpha_total3] at least one,
    and comparisons with nan are false. *)
Definition gnd_f (a : fmat) : f64 :=
  fmul f3half (fold_left (fun s x => fadd s (fabs x))
    [f_z (row1 a); f_z (row2 a); f_x (row0 a); f_x (row1 a); f_x (row2 a); f_y (row0 a); f_y (row1 a); f_y (row2 a)] (fabs (f_z (row0 a)))).
End Nye.
