(** Equivalent indices, in words. *)
From Coq Require Import String Ascii Reals ZArith.
From Coq Require Import List Permutation.
From Verif Require Import Py Base_Model Quat_Model Crystal_Model Crystal_Spec Text_Model Eqv_Model.
Import ListNotations.
Open Scope Z_scope.

(** Cubic: the same three numbers in any order and with any signs, the last not negative. *)
Definition cubic_equivalent (v m : list Z) : Prop :=
  List.length m = 3%nat /\ Permutation (map Z.abs m) (map Z.abs v) /\ 0 <= last m 0.
(** Hexagonal: the first three in any order, all three with either sign, and the last with
    either sign but not negative. *)
Definition hex_equivalent (v m : list Z) : Prop :=
  match v, m with
  | [h; k; i; l], [a; b; c; d] =>
      (Permutation [a; b; c] [h; k; i] \/ Permutation [a; b; c] [- h; - k; - i]) /\ Z.abs d = Z.abs l /\ 0 <= d
  | _, _ => False
  end.
(** Indices of one digit. *)
Definition digit_index (x : Z) : Prop := -9 <= x <= 9.
(** The vector of some indices: in the cubic cell, or of a hexagonal direction of four. *)
Definition direction_of (conv crystal : string) (m : list Z) : res vec3 :=
  if String.eqb crystal "hexagonal" then project_to_orth (8165 / 10000) (Some (IntArr m)) None "mb" conv
  else vec_of (map IZR m).
Definition same_ray (u v : vec3) : Prop := exists k, (0 < k)%R /\ u = vscale k v.
