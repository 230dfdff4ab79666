(** Vocabulary for neighbours on maps with boundary pixels. *)
From Coq Require Import List ZArith Bool.
From Verif Require Import Py Grid DicNet_Model.
Import ListNotations.
Open Scope Z_scope.

Definition joined (es : edges) (a b : Z) : Prop := In (a, b) es \/ In (b, a) es.
(** Not in the outermost rows and columns. *)
Definition interior (W H : Z) (p : pix) : Prop := 0 < fst p < W - 1 /\ 0 < snd p < H - 1.
(** [q] is above, below, left or right of [p]. *)
Definition beside (p q : pix) : Prop := Z.abs (fst p - fst q) + Z.abs (snd p - snd q) = 1.
(** Pixels of both grains (whose labels are one more) are beside one boundary pixel. *)
Definition meet (W H : Z) (lab : pix -> Z) (bnd : pix -> bool) (a b : Z) : Prop :=
  exists p q r, interior W H p /\ bnd p = true /\ beside p q /\ beside p r /\ lab q = a + 1 /\ lab r = b + 1.
(** Labels of grains, boundary pixels (-1) and small regions (-2). *)
Definition labelled (n : Z) (v : Z) : Prop := v = -1 \/ v = -2 \/ 1 <= v <= n.
