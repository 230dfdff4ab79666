(** Vocabulary for misorientations of grains and kernels in double precision. *)
From Coq Require Import String Reals.
From Coq Require Import List ZArith Bool.
From Flocq Require Import IEEE754.BinarySingleNaN.
From Verif Require Import Quat_Model Quat_Spec Double_Model Double_Spec.
Import ListNotations.
Open Scope R_scope.

Definition degrees (a : R) : R := a * (180 / PI).
(** Numbers, each within a millionth of the component of a vector. *)
Definition near_axis (v : f64 * f64 * f64) (a : vec3) : Prop :=
  let '(x, y, z) := v in
  (is_finite x = true /\ is_finite y = true /\ is_finite z = true) /\
  Rabs (B2R x - vx a) <= / 1000000 /\ Rabs (B2R y - vy a) <= / 1000000 /\ Rabs (B2R z - vz a) <= / 1000000.
(** Among the equivalents of [q], none is closer to [r] than [c] by more than rounding. *)
Definition closest (g : string) (r q c : quat) : Prop :=
  equivalent (sym_eqv g) q c /\ forall c2, equivalent (sym_eqv g) q c2 -> Rabs (inner c2 r) <= Rabs (inner c r) + / 2 ^ 40.
(** Only one rotation is. *)
Definition clear_choice (g : string) (r q : quat) : Prop :=
  forall c1 c2, closest g r q c1 -> closest g r q c2 -> same_rot c1 c2.
