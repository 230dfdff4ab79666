(** Vocabulary for map plots. *)
From Coq Require Import String Ascii Reals.
From Coq Require Import List ZArith Bool.
Import ListNotations.
From Verif Require Import Py Grid Ebsd_Model Text_Model MapPlot_Model.
Open Scope Z_scope.

(** [gs] are the grains that the ids stand for, in order: each has pixels, all inside
    the map, and no two share one. *)
Definition chosen (W H : Z) (grains : list (list pix)) (ids : list Z) (gs : list (list pix)) : Prop :=
  Forall2 (fun i g => py_get grains i = Ok g) ids gs /\
  (forall g, In g gs -> g <> [] /\ forall p, In p g -> inside W H p) /\
  (forall i j a b p, nth_error gs i = Some a -> nth_error gs j = Some b -> In p a -> In p b -> i = j).

(** The colour asked for at position [i] of the grains: the colour at that position or
    the last one. *)
Definition asked (colours : list txt) (i : nat) : option txt := nth_error colours (Nat.min i (List.length colours - 1)).

Definition is_highlight (l : layer) : Prop := match l with LHighlight _ _ => True | _ => False end.
Definition is_points (l : layer) : Prop := match l with LPoints _ _ => True | _ => False end.

(** The bookkeeping is right: the highlight layer noted is one, and the point layers
    noted are, in order, all layers of points. *)
Definition sound (p : mplot) : Prop :=
  (forall k, highlights_layer_id p = Some k -> exists l, nth_error (img_layers p) k = Some l /\ is_highlight l) /\
  (highlights_layer_id p = None -> forall l, In l (img_layers p) -> ~ is_highlight l) /\
  points_layer_ids p = map fst (filter (fun kl => match snd kl with LPoints _ _ => true | _ => false end)
                                       (combine (seq 0 (List.length (img_layers p))) (img_layers p))).

(** The layer that a call of [add_grain_highlights] draws on. *)
Definition drawn_layer (new_layer : bool) (p : mplot) : nat :=
  match highlights_layer_id p with
  | Some k => if new_layer then List.length (img_layers p) else k
  | None => List.length (img_layers p)
  end.
(** What is seen of layer [k] at a pixel; nothing if it is no highlight layer. *)
Definition seen (W H : Z) (p : mplot) (k : nat) (x : pix) : option txt :=
  match nth_error (img_layers p) k with Some (LHighlight im cs) => shown_colour W H im cs x | _ => None end.

(** Which of [n] colours grain [i] of [k] is drawn in, both counted from 1: the colours
    are spread from the background to the last grain. *)
Definition spread (n k i : Z) : Z :=
  if Z.min i n =? Z.min k n then n else Z.min i n * (n + 1) / Z.min k n.

(** How often the calls highlight with the caller's list [k]. *)
Definition uses (k : nat) (cs : list call) : nat :=
  List.length (filter (fun c => match c with Highlight _ (Some j) _ => Nat.eqb j k | _ => false end) cs).

(** [s] is a neighbour of a neighbour, and neither the grain nor a neighbour. *)
Definition second_neighbour (nb : Z -> list Z) (g s : Z) : Prop :=
  (exists f, In f (nb g) /\ In s (nb f)) /\ s <> g /\ ~ In s (nb g).
