(** Vocabulary for equality of quaternions. *)
From Coq Require Import Reals List ZArith Bool.
Import ListNotations.
From Verif Require Import QuatEq_Model.
Open Scope Z_scope.

(** Two floats of the same value; no float has the value of nan. *)
Definition same_value (a b : fl) : Prop :=
  match a, b with
  | Num x, Num y => x = y
  | Num x, NegZero | NegZero, Num x => x = 0%R
  | NegZero, NegZero | PInf, PInf | MInf, MInf => True
  | _, _ => False
  end.
Definition no_nan (l : list fl) : Prop := ~ In NaN l.

(** The classes form a tree: [sub] is reflexive and antisymmetric. *)
Definition class_order (sub : nat -> nat -> bool) : Prop :=
  (forall a, sub a a = true) /\ (forall a b, sub a b = true -> sub b a = true -> a = b).
