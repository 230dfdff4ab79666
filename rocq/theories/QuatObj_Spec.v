(** Vocabulary for quaternion objects. *)
From Coq Require Import Reals List ZArith Bool.
Import ListNotations.
From Verif Require Import Py Quat_Model QuatObj_Model.

(** The object a statement may change. *)
Definition changes (o : op) : option nat :=
  match o with IAdd a _ | Normalise a | SetItem a _ _ => Some a | _ => None end.
(** The scalar part is nan or not negative. *)
Definition northern (c : coefs) : Prop := match cw c with Some w => (0 <= w)%R | None => True end.
(** Neither asks for a southern quaternion nor sets a component. *)
Definition plain (o : op) : Prop :=
  match o with New _ s | Mul _ _ s => s = false | SetItem _ _ _ => False | _ => True end.
(** The same components, or all of the other sign. *)
Definition up_to_sign (q c : quat) : Prop := q = c \/ q = Q4 (- qw c) (- qx c) (- qy c) (- qz c).
(** The components in order. *)
Definition in_order (c : coefs) : list comp := [cw c; cx c; cy c; cz c].
