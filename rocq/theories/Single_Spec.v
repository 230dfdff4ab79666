(** Vocabulary for orientations from Euler angles in single precision. *)
From Coq Require Import String Reals.
From Coq Require Import List ZArith Bool.
From Flocq Require Core.
From Flocq Require Import IEEE754.BinarySingleNaN.
From Verif Require Import Grid Quat_Model Boundary_Model Double_Model Double_Spec Single_Model.
Import ListNotations.
Open Scope R_scope.

(** What is asked of np.cos and np.sin: finite and within 2^-23, on angles up to 9 radians. *)
Definition good_trig (f : f32 -> f32) (g : R -> R) : Prop :=
  forall x, is_finite x = true -> Rabs (B2R x) <= 9 -> is_finite (f x) = true /\ Rabs (B2R (f x) - g (B2R x)) <= / 2 ^ 23.
(** Euler angles of at most a turn and a quarter. *)
Definition some_angles (e : f32 * f32 * f32) : Prop :=
  let '(a, b, c) := e in (is_finite a = true /\ Rabs (B2R a) <= 7.9) /\ (is_finite b = true /\ Rabs (B2R b) <= 7.9) /\ (is_finite c = true /\ Rabs (B2R c) <= 7.9).
(** The orientation that Euler angles stand for. *)
Definition true_orientation (e : f32 * f32 * f32) : quat := let '(a, b, c) := e in from_euler_angles (B2R a) (B2R b) (B2R c).
(** The misorientation of neighbours, in degrees. *)
Definition true_angle (g : string) (e e' : f32 * f32 * f32) : R := neighbour_misori (sym_eqv g) (true_orientation e) (true_orientation e') * (180 / PI).
(** The nearest number. *)
Definition nearest32 (f : R -> R) (x : f32) : f32 :=
  let fexp := SpecFloat.fexp 24 128 in
  let r := Core.Generic_fmt.round Core.Zaux.radix2 fexp (Core.Round_NE.ZnearestE) (f (B2R x)) in
  binary_normalize 24 128 _ _ mode_NE (Core.Raux.Ztrunc (Core.Generic_fmt.scaled_mantissa Core.Zaux.radix2 fexp r)) (Core.Generic_fmt.cexp Core.Zaux.radix2 fexp r) false.
