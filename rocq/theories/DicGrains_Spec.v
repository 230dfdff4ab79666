(** Vocabulary for linking DIC grains with EBSD grains. *)
From Coq Require Import List ZArith.
Open Scope Z_scope.

(** [m] is the most frequent value of [l], the least one on ties. *)
Definition modal (l : list Z) (m : Z) : Prop :=
  In m l /\ forall v, In v l ->
    (count_occ Z.eq_dec l v <= count_occ Z.eq_dec l m)%nat /\
    (count_occ Z.eq_dec l v = count_occ Z.eq_dec l m -> m <= v).
