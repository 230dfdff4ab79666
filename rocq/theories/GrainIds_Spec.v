(** Which grain an id means. *)
From Coq Require Import List ZArith.
Import ListNotations.
From Verif Require Import Py Grid Base_Model.
Open Scope Z_scope.

(** Ids count from 0, or from the end from -1 downwards. *)
Definition meant {A} (l : list A) (i : Z) (g : A) : Prop :=
  0 <= i /\ nth_error l (Z.to_nat i) = Some g \/ i < 0 /\ - i <= Z.of_nat (length l) /\ nth_error (rev l) (Z.to_nat (- i - 1)) = Some g.
Definition on_list {A} (l : list A) (i : Z) : Prop := - Z.of_nat (length l) <= i < Z.of_nat (length l).
(** Rows of one or three numbers as data of the call. *)
Definition given_as (rows : list (list num)) (data : gvals) (depth : nat) : Prop :=
  data = GNums (map (fun r => nth 0 r NaN) rows) /\ depth = 1%nat /\ Forall (fun r => length r = 1%nat) rows \/ data = GRows 3 rows /\ depth = 3%nat.
