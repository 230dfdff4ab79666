(** What a grain is: vocabulary for the grain finding properties, independent
    of how the code finds grains. *)
From Coq Require Import List ZArith Relations.
Import ListNotations.
From Verif Require Import Py Grid.
Open Scope Z_scope.

(** One step between 4-neighbouring pixels of a W x H map that does not cross
    a marked boundary.  [bx (x, y)] marks the boundary between (x, y) and
    (x+1, y); [by_ (x, y)] the one between (x, y) and (x, y+1). *)
Inductive open_step (W H : Z) (bx by_ : pix -> bool) : pix -> pix -> Prop :=
| step_right x y : inside W H (x, y) -> inside W H (x + 1, y) ->
    bx (x, y) = false -> open_step W H bx by_ (x, y) (x + 1, y)
| step_left x y : inside W H (x, y) -> inside W H (x + 1, y) ->
    bx (x, y) = false -> open_step W H bx by_ (x + 1, y) (x, y)
| step_down x y : inside W H (x, y) -> inside W H (x, y + 1) ->
    by_ (x, y) = false -> open_step W H bx by_ (x, y) (x, y + 1)
| step_up x y : inside W H (x, y) -> inside W H (x, y + 1) ->
    by_ (x, y) = false -> open_step W H bx by_ (x, y + 1) (x, y).

(** Joined by a path of such steps. *)
Definition connected (W H : Z) (bx by_ : pix -> bool) : pix -> pix -> Prop :=
  clos_refl_trans pix (open_step W H bx by_).

(** The region of [p] has exactly [n] pixels. *)
Definition region_size (W H : Z) (bx by_ : pix -> bool) (p : pix) (n : nat)
  : Prop :=
  exists l, NoDup l /\ (forall q, In q l <-> connected W H bx by_ p q) /\
            length l = n.

(** Some pixel of the region of [p] is indexed (has a non-zero phase). *)
Definition region_indexed (W H : Z) (bx by_ : pix -> bool) (phase : pix -> Z)
  (p : pix) : Prop :=
  exists q, inside W H q /\ connected W H bx by_ p q /\ phase q <> 0.

(** ** DIC maps: one boundary image, boundary pixels are not part of regions *)

(** A step between 4-neighbouring pixels that are both off the boundary. *)
Definition neighbours (p q : pix) : Prop :=
  Z.abs (fst p - fst q) + Z.abs (snd p - snd q) = 1.

Definition dic_step (W H : Z) (bnd : pix -> bool) (p q : pix) : Prop :=
  inside W H p /\ inside W H q /\ neighbours p q /\
  bnd p = false /\ bnd q = false.

Definition dic_connected (W H : Z) (bnd : pix -> bool) : pix -> pix -> Prop :=
  clos_refl_trans pix (dic_step W H bnd).

(** The pixels left of and above a boundary pixel [b] that are off the
    boundary: the regions that may take [b]. *)
Definition dic_candidate (W H : Z) (bnd : pix -> bool) (b c : pix) : Prop :=
  inside W H c /\ bnd c = false /\
  (b = (fst c + 1, snd c) \/ b = (fst c, snd c + 1)).

(** [c] belongs to the region that takes the boundary pixel [b]: among the
    candidates' regions, the one that comes first in raster order. *)
Definition dic_owner (W H : Z) (bnd : pix -> bool) (b c : pix) : Prop :=
  inside W H b /\ bnd b = true /\ dic_candidate W H bnd b c /\
  exists f, dic_connected W H bnd c f /\
    forall c' q, dic_candidate W H bnd b c' -> dic_connected W H bnd c' q ->
      flat W f <= flat W q.

(** The pixels that end up with the region of the non-boundary pixel [p]. *)
Definition dic_territory (W H : Z) (bnd : pix -> bool) (p q : pix) : Prop :=
  dic_connected W H bnd p q \/
  (exists c, dic_owner W H bnd q c /\ dic_connected W H bnd p c).

Definition dic_territory_size (W H : Z) (bnd : pix -> bool) (p : pix) (n : nat)
  : Prop :=
  exists l, NoDup l /\ (forall q, In q l <-> dic_territory W H bnd p q) /\
            length l = n.
