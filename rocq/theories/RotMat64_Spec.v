(** What is said of rotation matrices in double precision. *)
From Coq Require Import Reals.
From Coq Require Import List ZArith.
From Flocq Require Import Core IEEE754.BinarySingleNaN.
From Verif Require Import Quat_Model Quat_Spec Double_Model Double_Spec Schmid64_Model Schmid64_Spec RotMat64_Model.
Import ListNotations.
Open Scope R_scope.

(** What is asked of squaring: within one unit in the last place; the same for a number and its opposite; exact for one and
    zero; nan for nan. *)
Definition good_square (sq : f64 -> f64) : Prop :=
  (forall x, is_finite x = true -> Rabs (B2R x) <= 2 -> is_finite (sq x) = true /\ Rabs (B2R (sq x) - B2R x * B2R x) <= / 2 ^ 52 * (B2R x * B2R x) + / 2 ^ 1000) /\
  (forall x, sq (fneg x) = sq x) /\ (forall x, B2R x = 1 -> B2R (sq x) = 1) /\ (forall x, is_finite x = true -> B2R x = 0 -> B2R (sq x) = 0) /\ sq B754_nan = B754_nan.

Definition mvalue (m : fmat) : mat3 := M3 (vvalue (row0 m)) (vvalue (row1 m)) (vvalue (row2 m)).
Definition finite_m (m : fmat) : Prop := finite3 (row0 m) /\ finite3 (row1 m) /\ finite3 (row2 m).
(** Every entry is nan. *)
Definition all_nan (m : fmat) : Prop := let n := F3 B754_nan B754_nan B754_nan in m = FM n n n.
(** Entry by entry within [e]. *)
Definition close3 (e : R) (a b : vec3) : Prop := Rabs (vx a - vx b) <= e /\ Rabs (vy a - vy b) <= e /\ Rabs (vz a - vz b) <= e.
Definition close_m (e : R) (a b : mat3) : Prop := close3 e (r0 a) (r0 b) /\ close3 e (r1 a) (r1 b) /\ close3 e (r2 a) (r2 b).
