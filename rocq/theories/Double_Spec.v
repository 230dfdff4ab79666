(** Vocabulary for orientations in double precision. *)
From Coq Require Import String Reals.
From Coq Require Import List ZArith Bool.
From Flocq Require Core.
From Flocq Require Import IEEE754.BinarySingleNaN.
From Verif Require Import Grid Quat_Model Boundary_Model Double_Model.
Import ListNotations.
Open Scope R_scope.

(** The real numbers that numbers in double precision stand for. *)
Definition value (q : fquat) : quat := Q4 (B2R (fw q)) (B2R (fx q)) (B2R (fy q)) (B2R (fz q)).
Definition finite4 (q : fquat) : Prop := is_finite (fw q) = true /\ is_finite (fx q) = true /\ is_finite (fy q) = true /\ is_finite (fz q) = true.
(** Finite numbers whose squares sum to about one, or less. *)
Definition sound (q : fquat) : Prop := finite4 q /\ dot (value q) (value q) <= 5/4.
(** What is asked of np.arccos: finite and within 2^-50 of the arc cosine, and 0 at 1. *)
Definition good_arccos (f : f64 -> f64) : Prop :=
  (forall x, is_finite x = true -> 0 <= B2R x <= 1 -> is_finite (f x) = true /\ Rabs (B2R (f x) - acos (B2R x)) <= / 2 ^ 50) /\ B2R (f f1) = 0.
(** Sums in any order. *)
Definition any_order (d : fquat -> fquat -> f64) : Prop := forall a b, sums (pairs a b) (d a b).
Definition any_order3 (d : fquat -> fquat -> f64) : Prop := forall a b, sums (tl (pairs a b)) (d a b).
(** The misorientation of neighbours, without rounding, is not within 1/1000 degree of the tolerance. *)
Definition clear_of (g : string) (q n : fquat) (tol : f64) : Prop :=
  / 1000 < Rabs (neighbour_misori (sym_eqv g) (value q) (value n) * (180 / PI) - B2R tol).
(** One of the orders: from left to right. *)
Definition left_to_right (a b : fquat) : f64 := fadd (fadd (fadd (fmul (fw a) (fw b)) (fmul (fx a) (fx b))) (fmul (fy a) (fy b))) (fmul (fz a) (fz b)).
Definition left_to_right3 (a b : fquat) : f64 := fadd (fadd (fmul (fx a) (fx b)) (fmul (fy a) (fy b))) (fmul (fz a) (fz b)).
(** One of the arc cosines: the nearest number. *)
Definition nearest_arccos (x : f64) : f64 :=
  let fexp := SpecFloat.fexp 53 1024 in
  let r := Core.Generic_fmt.round Core.Zaux.radix2 fexp (Core.Round_NE.ZnearestE) (acos (B2R x)) in
  binary_normalize 53 1024 _ _ mode_NE (Core.Raux.Ztrunc (Core.Generic_fmt.scaled_mantissa Core.Zaux.radix2 fexp r)) (Core.Generic_fmt.cexp Core.Zaux.radix2 fexp r) false.
(** Integers. *)
Definition f_of_Z (z : Z) : f64 := binary_normalize 53 1024 _ _ mode_NE z 0 false.
Definition unit_of (a b c d : Z) : fquat := normalise_f left_to_right (F4 (f_of_Z a) (f_of_Z b) (f_of_Z c) (f_of_Z d)).
