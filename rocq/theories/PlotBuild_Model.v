(** Making map and grain plots: defdap/plotting.py 41-72, 288-311, 318-391, 411-558, 633-968. *)
From Coq Require Import String Ascii Reals ZArith Bool.
From Coq Require Import List.
From Verif Require Import Py Text_Model.
Import ListNotations.
Open Scope Z_scope.

Section Plots.
(** Maps (or grains, for their plots) and data are not looked into here; a map has a scale or
    none, a number of grains and an own transparency. *)
Variables M D : Type.
Variable scale_of : M -> option R.
Variable grains_of : M -> nat.
Variable alpha_of : M -> R.

(** What is drawn: an image of data with limits and colour map, the boundaries of a map,
    highlighted grains of a map, a scale bar (micrometres per pixel), slip traces, slip bands. *)
Inductive artist :=
| Image (d : D) (vmin vmax : option R) (cmap : option txt)
| Boundaries (m : M) (lines dilate : bool) (colour : txt)
| Highlights (m : M) (ids : list Z) (colours : option (list txt)) (alpha : R)
| Scale (s : R)
| Traces (m : M) | Bands (m : M) (d : D).
(** Axes have the number of their place in the list: their figure and what is on them.  Colour
    bars: image and label, [None] once removed. *)
Record world := World { w_figs : nat; w_axes : list (nat * list artist); w_bars : list (option (artist * txt)) }.
Record plot := Plot {
  p_map : M; p_interactive : bool; p_fig : option nat; p_ax : nat;
  p_layers : list artist;
  p_high : option (nat * nat);   (* the highlights: layer, and place on the axes *)
  p_bar : option nat
}.
Definition state := (world * plot)%type.
Definition op := state -> state * option exn.
Definition seq (f g : op) : op := fun s => match f s with (s, None) => g s | (s, Some e) => (s, Some e) end.
Definition skip : op := fun s => (s, None).
Notation "f ;; g" := (seq f g) (at level 61, right associativity).

Fixpoint set_at {A} (l : list A) (n : nat) (f : A -> A) : list A :=
  match l, n with [], _ => [] | a :: l, O => f a :: l | a :: l, S n => a :: set_at l n f end.
Definition put (ax : nat) (a : artist) (w : world) : world :=
  World (w_figs w) (set_at (w_axes w) ax (fun x => (fst x, snd x ++ [a]))) (w_bars w).
Definition set_layers (p : plot) (l : list artist) : plot := Plot (p_map p) (p_interactive p) (p_fig p) (p_ax p) l (p_high p) (p_bar p).
Definition set_high (p : plot) (h : option (nat * nat)) : plot := Plot (p_map p) (p_interactive p) (p_fig p) (p_ax p) (p_layers p) h (p_bar p).
Definition set_bar (p : plot) (b : option nat) : plot := Plot (p_map p) (p_interactive p) (p_fig p) (p_ax p) (p_layers p) (p_high p) b.

(** 288-311 [draw]: the figure's canvas *)
Definition draw : op := fun s => (s, match p_fig (snd s) with Some _ => None | None => Some AttributeError end).
(** An image drawn on the axes; then [draw]; then it is noted as a layer. *)
Definition show (a : artist) : op := fun '(w, p) => ((put (p_ax p) a w, p), None).
Definition note (a : artist) : op := fun '(w, p) => ((w, set_layers p (p_layers p ++ [a])), None).
(** 356-383 [add_map], 745-772 [addMap] *)
Definition add_map (d : D) (vmin vmax : option R) (cmap : option txt) : op :=
  let a := Image d vmin vmax cmap in show a ;; draw ;; note a.
(** 385-400 [add_colour_bar], layer 0 *)
Definition add_colour_bar (label : txt) : op := fun '(w, p) =>
  match p_layers p with
  | [] => ((w, p), Some IndexError)
  | a :: _ => ((World (w_figs w) (w_axes w) (w_bars w ++ [Some (a, label)]), set_bar p (Some (List.length (w_bars w)))), None)
  end.
(** 402-411 [add_scale_bar]; [None * 1e-6] *)
Definition add_scale_bar (scale : option R) : op := fun '(w, p) =>
  match (match scale with Some s => Some s | None => scale_of (p_map p) end) with
  | None => ((w, p), Some TypeError)
  | Some s => ((put (p_ax p) (Scale s) w, p), None)
  end.
(** 413-494 [add_grain_boundaries] of the plot's map *)
Definition add_grain_boundaries (lines dilate : bool) (colour : option txt) : op := fun s =>
  let a := Boundaries (p_map (snd s)) lines dilate (match colour with Some c => c | None => lit "white" end) in
  (show a ;; draw ;; note a) s.
(** 496-557 [add_grain_highlights] (see MapPlot_Model for the image and the caller's list) *)
Definition add_grain_highlights (ids : list Z) (colours : option (list txt)) (alpha : option R) : op := fun '(w, p) =>
  if negb (forallb (fun i => (- Z.of_nat (grains_of (p_map p)) <=? i) && (i <? Z.of_nat (grains_of (p_map p)))) ids) then ((w, p), Some IndexError)
  else
    let a := Highlights (p_map p) ids colours (match alpha with Some r => r | None => alpha_of (p_map p) end) in
    match p_high p with
    | None =>
        let place := match nth_error (w_axes w) (p_ax p) with Some x => List.length (snd x) | None => O end in
        (show a ;; note a ;; draw) (w, set_high p (Some (List.length (p_layers p), place)))
    | Some (h, place) =>
        (* the image is changed where it is *)
        draw (World (w_figs w) (set_at (w_axes w) (p_ax p) (fun x => (fst x, set_at (snd x) place (fun _ => a)))) (w_bars w),
              set_layers p (set_at (p_layers p) h (fun _ => a)))
    end.

(** The arguments: [a_gbs] is [Some true] for lines. *)
Record args := Args {
  a_fig : option nat; a_ax : option nat; a_interactive : bool;
  a_bar : bool; a_vmin : option R; a_vmax : option R; a_cmap : option txt; a_label : txt;
  a_gbs : option bool; a_dilate : bool; a_colour : option txt;
  a_scale_bar : bool; a_scale : option R;
  a_ids : option (list Z); a_colours : option (list txt); a_alpha : option R
}.
(** 41-72, 318-337: a new plot.  Figure and axis parameters are left out. *)
Definition new_figure (w : world) : world * nat * nat :=
  (World (S (w_figs w)) (w_axes w ++ [(w_figs w, [])]) (w_bars w), w_figs w, List.length (w_axes w)).
Definition new_plot (m : M) (fig ax : option nat) (interactive : bool) (w : world) : world * plot :=
  let fresh := let '(w, f, x) := new_figure w in (w, Plot m interactive (Some f) x [] None None) in
  match interactive, fig, ax with
  | true, Some f, Some x => (w, Plot m true (Some f) x [] None None)
  | true, _, _ => fresh
  | false, _, None => fresh
  | false, f, Some x => (w, Plot m false f x [] None None)
  end.
Definition when (c : bool) (f : op) : op := if c then f else skip.
(** 697-721 [MapPlot.create] *)
Definition create (m : M) (data : option D) (a : args) (given : option plot) (w : world) : state * option exn :=
  let s := match given with Some p => (w, p) | None => new_plot m (a_fig a) (a_ax a) (a_interactive a) w end in
  (match data with Some d => add_map d (a_vmin a) (a_vmax a) (a_cmap a) | None => skip end ;;
   when (a_bar a) (add_colour_bar (a_label a)) ;;
   match a_gbs a with Some lines => add_grain_boundaries lines (a_dilate a) (a_colour a) | None => skip end ;;
   match a_ids a with Some ids => add_grain_highlights ids (a_colours a) (a_alpha a) | None => skip end ;;
   when (a_scale_bar a) (add_scale_bar (a_scale a))) s.
(** 951-968 [GrainPlot.create]; [scale_of] is that of the grain's map.  Traces are drawn
    arrow by arrow (C89). *)
Definition draw_artist (a : artist) : op := show a ;; draw.
Definition create_grain (m : M) (d : D) (a : args) (traces bands : bool) (given : option plot) (w : world) : state * option exn :=
  let s := match given with Some p => (w, p) | None => new_plot m (a_fig a) (a_ax a) (a_interactive a) w end in
  (add_map d (a_vmin a) (a_vmax a) (a_cmap a) ;;
   when (a_bar a) (add_colour_bar (a_label a)) ;;
   when (a_scale_bar a) (add_scale_bar (a_scale a)) ;;
   when traces (fun s => draw_artist (Traces (p_map (snd s))) s) ;;
   when bands (fun s => draw_artist (Bands (p_map (snd s)) d) s)) s.
(** 295-306 [clear] *)
Definition clear : op := fun '(w, p) =>
  if negb (p_interactive p) then ((w, p), Some GenericException)
  else
    let w := match p_bar p with Some b => World (w_figs w) (w_axes w) (set_at (w_bars w) b (fun _ => None)) | None => w end in
    let w := World (w_figs w) (set_at (w_axes w) (p_ax p) (fun x => (fst x, []))) (w_bars w) in
    draw (w, Plot (p_map p) true (p_fig p) (p_ax p) [] None None).
(** ebsd.py 829-851 [plot_boundary_map] without arguments: [boundaryColour] is no parameter of
    [create] and [add_map] is not called, so the boundary colour is not given. *)
Definition boundary_map (m : M) (w : world) : state * option exn :=
  create m None (Args None None false false None None None [] (Some false) false None false None None None None) None w.
End Plots.
