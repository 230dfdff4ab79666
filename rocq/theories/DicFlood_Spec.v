(** Vocabulary for flood filled grains of linked maps. *)
From Coq Require Import String Reals.
From Coq Require Import List ZArith Bool.
From Verif Require Import Py Grid Base_Model Dic_Model Dic_Spec DicGrains_Model DicLink_Model DicLink_Spec.
Import ListNotations.
Open Scope Z_scope.

(** What is asked of the inverse of a transform: it undoes an affine map that keeps areas from vanishing. *)
Definition undoes (inv : (R * R -> R * R) -> R * R -> R * R) : Prop := forall t a,
  (forall p, t p = aff a p) -> (a11 a * a22 a - a12 a * a21 a <> 0)%R -> forall p, inv t (aff a p) = p.
(** A place on the DIC map, between the centres of its outer pixels, whose nearest pixel is among given
    ones. *)
Definition in_pixels (m : dic_map) (pts : list pix) (d : R * R) : Prop :=
  (0 <= fst d <= IZR (snd (d_shape m) - 1) /\ 0 <= snd d <= IZR (fst (d_shape m) - 1))%R /\
  exists p, nearest d p /\ In p pts.
(** A pixel of the EBSD map lies in given pixels of the DIC map: its place is where the affine map takes a
    place in them, positions being those of the data. *)
Definition lies_in (a : affine) (m : dic_map) (pts : list pix) (q : pix) : Prop :=
  exists d, aff a (moved (IZR (c_left (d_crops m)), IZR (c_top (d_crops m))) d) = place q /\ in_pixels m pts d.
(** The pixels with a property, each once. *)
Definition exactly (l : list pix) (P : pix -> Prop) : Prop := NoDup l /\ forall q, In q l <-> P q.
