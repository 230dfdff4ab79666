(** Vocabulary for the properties of grains as point sets. *)
From Coq Require Import Reals List ZArith.
Import ListNotations.
From Verif Require Import Py Grid Base_Model.
Open Scope Z_scope.

(** Grains of a map: points inside the map, no point twice, no common points. *)
Definition within_map (W H : Z) (pts : list pix) : Prop :=
  NoDup pts /\ forall p, In p pts -> inside W H p.
Definition disjoint {A} (a b : list A) : Prop := forall p, In p a -> ~ In p b.
Definition good_grains (W H : Z) (grains : list (list pix)) : Prop :=
  Forall (within_map W H) grains /\ ForallOrdPairs disjoint grains.

(** The value at the k-th point is the k-th value. *)
Definition holds_at {A} (im : pix -> A) (pts : list pix) (vals : list A) : Prop :=
  Forall2 (fun p v => im p = v) pts vals.

(** The least box containing the points: sides are attained. *)
Definition bounding_box (pts : list pix) (x0 y0 x1 y1 : Z) : Prop :=
  (forall p, In p pts -> x0 <= fst p <= x1 /\ y0 <= snd p <= y1) /\
  (exists p, In p pts /\ fst p = x0) /\ (exists p, In p pts /\ fst p = x1) /\
  (exists p, In p pts /\ snd p = y0) /\ (exists p, In p pts /\ snd p = y1).

(** Sum and mean of reals. *)
Fixpoint total (l : list R) : R := match l with [] => 0%R | x :: l => (x + total l)%R end.
Definition mean_of (l : list R) : R := (total l / INR (length l))%R.

(** Points of a list at most [k] rows and columns away from [p]. *)
Definition nearb (k : Z) (p q : pix) : bool :=
  (Z.abs (fst p - fst q) <=? k) && (Z.abs (snd p - snd q) <=? k).

(** Euclidean distance between points of the plane. *)
Definition plane_dist (x y x' y' : R) : R := sqrt ((x - x') ^ 2 + (y - y') ^ 2).

(** [v] is the least of [cap] and the values of [f] on [l]. *)
Definition least_of {A} (cap : R) (f : A -> R) (l : list A) (v : R) : Prop :=
  (v <= cap)%R /\ (forall a, In a l -> (v <= f a)%R) /\
  (v = cap \/ exists a, In a l /\ v = f a).

(** A point counted from the corner of its box; an index counted from the end when
    negative. *)
Definition moved (x0 y0 : Z) (p : pix) : pix := (fst p - x0, snd p - y0).
Definition from_end (n i : Z) : Z := if i <? 0 then n + i else i.

(** The numbers 0, ..., n - 1. *)
Definition upto (n : Z) : list Z := map Z.of_nat (seq 0 (Z.to_nat n)).

(** The grains an id argument stands for: -1 is all of them. *)
Definition chosen_ids (grains : list (list pix)) (ids : gids) : list Z :=
  match ids with
  | IdInt i => if i =? -1 then upto (Z.of_nat (length grains)) else [i]
  | IdSeq l => l
  end.

(** matplotlib draws pixel [n] of an image around the coordinate [n]. *)
Definition drawn_at (x : R) (n : Z) : Prop := (IZR n - 1 / 2 <= x < IZR n + 1 / 2)%R.

(** What a label means: a grain or nothing. *)
Definition grain_of_label (l : Z) : option Z := if 0 <? l then Some (l - 1) else None.
