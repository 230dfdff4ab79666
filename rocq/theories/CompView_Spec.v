(** Vocabulary for pictures of one grain. *)
From Coq Require Import Reals ZArith.
From Coq Require Import List.
From Verif Require Import Py Grid Base_Model Base_Spec.
Import ListNotations.
Open Scope Z_scope.

(** The image is the grain's box, with [f p] at each of its points and [bg] elsewhere. *)
Definition cut_out {A} (pts : list pix) (f : pix -> A) (bg : A) (im : image A) : Prop :=
  exists x0 y0 x1 y1, bounding_box pts x0 y0 x1 y1 /\ im_w im = x1 - x0 + 1 /\ im_h im = y1 - y0 + 1 /\
    (forall p, In p pts -> im_at im (moved x0 y0 p) = f p) /\
    (forall q, (forall p, In p pts -> q <> moved x0 y0 p) -> im_at im q = bg).
