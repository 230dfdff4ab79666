(** Vocabulary for averages in double precision. *)
From Coq Require Import String Reals.
From Coq Require Import List ZArith Bool.
From Flocq Require Import IEEE754.BinarySingleNaN.
From Verif Require Import Quat_Model Quat_Spec Double_Model Double_Spec.
Import ListNotations.
Open Scope R_scope.

(** Every coefficient of [q] is a number within [e] of that of [n]. *)
Definition near_quat (e : R) (q : fquat) (n : quat) : Prop :=
  finite4 q /\ Rabs (B2R (fw q) - qw n) <= e /\ Rabs (B2R (fx q) - qx n) <= e /\ Rabs (B2R (fy q) - qy n) <= e /\ Rabs (B2R (fz q) - qz n) <= e.
(** Numbers whose squares sum to one, within [e]. *)
Definition near_unit (e : R) (q : fquat) : Prop := finite4 q /\ Rabs (dot (value q) (value q) - 1) <= e.
(** The coefficients of [q], in any order. *)
Definition coefs (q : fquat) : list f64 := [fw q; fx q; fy q; fz q].
(** Neither huge nor, all of them, tiny. *)
Definition in_range (q : fquat) : Prop :=
  finite4 q /\ (forall c, In c (coefs q) -> Rabs (B2R c) <= 2 ^ 400) /\ exists c, In c (coefs q) /\ / 2 ^ 400 <= Rabs (B2R c).
(** Starting from [av], each orientation in turn has an equivalent that is nearer to the sum than any other
    rotation, by a margin, and whose scalar part is not about zero; adding them gives [r]. *)
Inductive clear_sum (syms : list quat) : quat -> list quat -> quat -> Prop :=
| clear_nil : forall av, clear_sum syms av [] av
| clear_cons : forall av q qs c r, equivalent syms q c -> / 2 ^ 40 <= qw c ->
    (forall c', equivalent syms q c' -> same_rot c' c \/ Rabs (inner c' av) + / 100 <= Rabs (inner c av)) ->
    clear_sum syms (qsum av c) qs r -> clear_sum syms av (q :: qs) r.
