(** Vocabulary for Schmid factors in double precision. *)
From Coq Require Import Reals.
From Coq Require Import List ZArith Bool.
From Flocq Require Import IEEE754.BinarySingleNaN.
From Verif Require Import Quat_Model Double_Model Double_Spec Schmid64_Model.
Import ListNotations.
Open Scope R_scope.

Definition vvalue (v : fvec) : vec3 := V3 (B2R (f_x v)) (B2R (f_y v)) (B2R (f_z v)).
Definition finite3 (v : fvec) : Prop := is_finite (f_x v) = true /\ is_finite (f_y v) = true /\ is_finite (f_z v) = true.
(** Numbers whose squares sum to about one, or less; to one, within [e]. *)
Definition sound3 (v : fvec) : Prop := finite3 v /\ vdot (vvalue v) (vvalue v) <= 5/4.
Definition near_unit3 (e : R) (v : fvec) : Prop := finite3 v /\ Rabs (vdot (vvalue v) (vvalue v) - 1) <= e.
(** Every coefficient is a number within [e] of that of [n]. *)
Definition near3 (e : R) (v : fvec) (n : vec3) : Prop :=
  finite3 v /\ Rabs (B2R (f_x v) - vx n) <= e /\ Rabs (B2R (f_y v) - vy n) <= e /\ Rabs (B2R (f_z v) - vz n) <= e.
(** Sums in any order. *)
Definition any_order_v (d : fvec -> fvec -> f64) : Prop := forall a b, sums (pairs3 a b) (d a b).
Definition left_to_right_v (a b : fvec) : f64 := fadd (fadd (fmul (f_x a) (f_x b)) (fmul (f_y a) (f_y b))) (fmul (f_z a) (f_z b)).
(** The product of the cosines, for vectors in the coordinates of the crystal. *)
Definition cosines (l p d : vec3) : R := Rabs (vdot l p * vdot l d).
(** Vectors of length one at a right angle, within [e]. *)
Definition square_on (e : R) (p d : fvec) : Prop := near_unit3 e p /\ near_unit3 e d /\ Rabs (vdot (vvalue p) (vvalue d)) <= e.
(** A vector of whole numbers. *)
Definition fvec_of_Z (a b c : Z) : fvec := F3 (f_of_Z a) (f_of_Z b) (f_of_Z c).
