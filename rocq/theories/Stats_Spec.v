(** Vocabulary for statistics tables. *)
From Coq Require Import Ascii Reals ZArith Bool.
From Coq Require Import List.
From Verif Require Import Py Base_Model Text_Model Stats_Model.
Import ListNotations.
Open Scope Z_scope.

(** How many values are below [x], and how many are not above it. *)
Definition below (l : list R) (x : R) : nat := List.length (filter (fun y => if Rlt_dec y x then true else false) l).
Definition upto (l : list R) (x : R) : nat := List.length (filter (fun y => if Rle_dec y x then true else false) l).
(** [x] is the value of rank [k], from 0. *)
Definition ranked (l : list R) (k : nat) (x : R) : Prop := In x l /\ (below l x <= k < upto l x)%nat.
(** [v] is on the straight line between the values of the two ranks around [p] percent of the
    way from the first rank to the last. *)
Definition is_percentile (l : list R) (p v : R) : Prop :=
  exists k t lo hi, (0 <= t < 1)%R /\ (INR k + t = p / 100 * (INR (List.length l) - 1))%R /\ ranked l k lo /\
    (t = 0%R \/ ranked l (k + 1) hi) /\ v = ((1 - t) * lo + t * hi)%R.
(** The values of the pixels of one component. *)
Definition pixels (a : darray) (i : list Z) (h w : Z) : list num :=
  flat_map (fun r => map (fun c => da_at a (i ++ [r; c])) (zseq 0 (Z.to_nat w))) (zseq 0 (Z.to_nat h)).
Definition valid_index (shape i : list Z) : Prop := Forall2 (fun n k => 0 <= k < n) shape i.
(** Order of indices: the first that differs decides. *)
Inductive before : list Z -> list Z -> Prop :=
| before_here : forall a b l m, a < b -> before (a :: l) (b :: m)
| before_later : forall a l m, before l m -> before (a :: l) (a :: m).
Fixpoint in_order (l : list (list Z)) : Prop :=
  match l with [] => True | i :: l => (forall j, In j l -> before i j) /\ in_order l end.
