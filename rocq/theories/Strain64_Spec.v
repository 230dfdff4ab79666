(** Vocabulary for strains in double precision. *)
From Coq Require Import Reals List ZArith Bool.
From Flocq Require Import IEEE754.BinarySingleNaN.
From Verif Require Import Py Grid Dic_Model Dic_Spec Double_Model Strain64_Model.
Import ListNotations.
Open Scope Z_scope.

(** Pixels on the rim of a map. *)
Definition on_rim (W H : Z) (p : pix) : Prop := fst p = 0 \/ fst p = W - 1 \/ snd p = 0 \/ snd p = H - 1.
(** The strain at [q] is made from the displacements of the neighbours of [q] in its row and in its
    column, and from its own only on the rim. *)
Definition reads (W H : Z) (q p : pix) : Prop := inside W H p /\ (taxi q p = 1 \/ q = p /\ on_rim W H p).
(** Sums in any order. *)
Definition any_sum (d : Z -> Z -> pix -> list (f64 * f64) -> f64) : Prop := forall i j p l, sums l (d i j p l).
(** One of the orders: from left to right. *)
Definition in_order (i j : Z) (p : pix) (l : list (f64 * f64)) : f64 :=
  match l with [] => f0 | a :: l => fold_left (fun s b => fadd s (fmul (fst b) (snd b))) l (fmul (fst a) (snd a)) end.
(** The numbers that a map of displacements stands for. *)
Definition real_map (u : Z -> pix -> f64) (c : Z) (p : pix) : R := B2R (u c p).
(** A sub-window size: from one pixel. *)
Definition some_size (h : f64) : Prop := is_finite h = true /\ (1 <= B2R h <= 2 ^ 100)%R.
