(** Vocabulary for slip traces in double precision. *)
From Coq Require Import Reals.
From Coq Require Import List ZArith Bool.
From Flocq Require Import IEEE754.BinarySingleNaN.
From Verif Require Import Quat_Model Double_Model Double_Spec Schmid64_Model Schmid64_Spec Trace64_Model.
Import ListNotations.
Open Scope R_scope.

(** np.arccos: an angle for numbers from -1 to 1, with an error of at most 2^-50, otherwise nan. *)
Definition full_arccos (f : f64 -> f64) : Prop :=
  (forall x, is_finite x = true -> -1 <= B2R x <= 1 -> is_finite (f x) = true /\ Rabs (B2R (f x) - acos (B2R x)) <= / 2 ^ 50) /\
  (forall x, is_finite x = true -> 1 < Rabs (B2R x) -> f x = B754_nan) /\ f B754_nan = B754_nan.
(** One of them. *)
Definition some_arccos (x : f64) : f64 := if is_finite x then (if flt f1 (fabs x) then B754_nan else nearest_arccos x) else B754_nan.
(** The plane normal in the coordinates of the sample, and the sine of the angle of the plane to the screen. *)
Definition in_sample (q : quat) (n : vec3) : vec3 := transform_vector (conjugate q) n.
Definition across (s : vec3) : R := sqrt (vx s * vx s + vy s * vy s).
