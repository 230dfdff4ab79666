(** Vocabulary for making plots. *)
From Coq Require Import String Ascii Reals ZArith Bool.
From Coq Require Import List.
From Verif Require Import Py Text_Model PlotBuild_Model.
Import ListNotations.
Open Scope Z_scope.

Section Words.
Variables M D : Type.
Variable scale_of : M -> option R.
Variable grains_of : M -> nat.
Variable alpha_of : M -> R.
Notation artist := (artist M D). Notation world := (world M D).

(** What is on some axes, and the colour bars to be seen. *)
Definition on_axes (w : world) (x : nat) : list artist := match nth_error (w_axes M D w) x with Some y => snd y | None => [] end.
Definition bars (w : world) : list (artist * txt) := flat_map (fun b => match b with Some b => [b] | None => [] end) (w_bars M D w).

(** The images asked for, lowest first. *)
Definition asked_map (data : option D) (a : args) : list artist :=
  match data with Some d => [Image M D d (a_vmin a) (a_vmax a) (a_cmap a)] | None => [] end.
Definition asked_boundaries (m : M) (a : args) : list artist :=
  match a_gbs a with Some lines => [Boundaries M D m lines (a_dilate a) (match a_colour a with Some c => c | None => lit "white" end)] | None => [] end.
Definition asked_highlights (m : M) (a : args) : list artist :=
  match a_ids a with Some ids => [Highlights M D m ids (a_colours a) (match a_alpha a with Some r => r | None => alpha_of m end)] | None => [] end.
Definition asked_images (m : M) (data : option D) (a : args) : list artist := asked_map data a ++ asked_boundaries m a ++ asked_highlights m a.
Definition the_scale (m : M) (a : args) : option R := match a_scale a with Some s => Some s | None => scale_of m end.
Definition asked_scale (m : M) (a : args) : list artist :=
  if a_scale_bar a then match the_scale m a with Some s => [Scale M D s] | None => [] end else [].
Definition asked_bar (data : option D) (a : args) : list (artist * txt) :=
  if a_bar a then map (fun i => (i, a_label a)) (asked_map data a) else [].
(** It can be drawn: a colour bar needs data, a scale bar a scale, highlights need grains. *)
Definition possible (m : M) (data : option D) (a : args) : Prop :=
  (a_bar a = true -> data <> None) /\ (a_scale_bar a = true -> the_scale m a <> None) /\
  forall ids i, a_ids a = Some ids -> In i ids -> - Z.of_nat (grains_of m) <= i < Z.of_nat (grains_of m).
(** Axes are given with their figure or not at all. *)
Definition places (a : args) (w : world) : Prop :=
  match a_fig a, a_ax a with
  | Some f, Some x => exists l, nth_error (w_axes M D w) x = Some (f, l)
  | Some _, None | None, None => True
  | None, Some _ => False
  end.
End Words.
