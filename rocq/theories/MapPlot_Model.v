(** Layers and grain highlights of [MapPlot], defdap/plotting.py 296-635. *)
From Coq Require Import String Ascii Reals.
From Coq Require Import List ZArith Bool.
Import ListNotations.
From Verif Require Import Py Grid Boundary_Model Base_Model Ebsd_Model Text_Model Insp_Model.
Open Scope Z_scope.

(** What a layer shows.  Maps and boundaries are not looked into; a highlight image has
    integers and the colours of its colour map, the first for the background; points have
    coordinates (None and nan are not modelled). *)
Inductive layer :=
| LMap | LBoundaries
| LHighlight (im : pix -> Z) (colours : list txt)
| LPoints (x y : list R).

(** 331-337: the plot's bookkeeping. *)
Record mplot := mkPlot { img_layers : list layer; highlights_layer_id : option nat; points_layer_ids : list nat }.
Definition empty_plot : mplot := mkPlot [] None [].

(** Lists of colours belong to the caller, who may pass one list to several calls: they
    are kept here and passed by number. *)
Record world := mkWorld { colour_lists : list (list txt); plot : mplot }.

(** ** Highlights *)

Definition num_int (x : num) : Z := match x with Fin r => trunc r | NaN => 0 end.
(** 524-530: the outline of a grain is added to the part of the image where it is.  A
    grain that reaches outside the map does not fit the slice. *)
Definition add_outline (W H : Z) (out : pix -> Z) (pts : list pix) (i : Z) : res (pix -> Z) :=
  do im <- grain_outline pts (Fin 0) (Fin (IZR i));
  do e <- extreme_coords pts;
  let '(x0, y0, xm, ym) := e in
  if (0 <=? x0) && (0 <=? y0) && (xm <? W) && (ym <? H) then
    Ok (fun p => if (x0 <=? fst p) && (fst p <=? xm) && (y0 <=? snd p) && (snd p <=? ym)
                 then out p + num_int (im_at im (fst p - x0, snd p - y0)) else out p)
  else Err ValueError.
(** 519-530: [grains] are the pixels of the map's grains. *)
Definition highlight_image (W H : Z) (grains : list (list pix)) (ids : list Z) (ncolours : Z) : res (pix -> Z) :=
  for_each (fun out (ik : Z * Z) =>
              do g <- py_get grains (snd ik);
              add_outline W H out g (if ncolours <? fst ik then ncolours else fst ik))
           (combine (zseq 1 (List.length ids)) ids) (fun _ => 0).

(** matplotlib: an image is scaled from its least value to its greatest to [0, 1] (0 if
    they are equal); a list of [N] colours maps x to number floor (x N), and 1 to the
    last. *)
Definition least (l : list Z) : Z := match l with [] => 0 | a :: l => zmin a l end.
Definition greatest_of (l : list Z) : Z := match l with [] => 0 | a :: l => zmax a l end.
Definition cmap_index (N lo hi v : Z) : Z :=
  if lo =? hi then 0 else if v =? hi then N - 1 else (v - lo) * N / (hi - lo).
(** What a highlight layer shows at a pixel: nothing or a colour; the first colour is
    transparent (538-540). *)
Definition shown_colour (W H : Z) (im : pix -> Z) (colours : list txt) (p : pix) : option txt :=
  let vs := map im (all_pix W H) in
  let k := cmap_index (Z.of_nat (List.length colours)) (least vs) (greatest_of vs) (im p) in
  if k =? 0 then None else nth_error colours (Z.to_nat k).

(** 496-557 [add_grain_highlights]: [colours] is the number of the caller's list, [None]
    if not given.  The list is changed in place after the image is made. *)
Definition add_grain_highlights (W H : Z) (grains : list (list pix)) (ids : list Z) (colours : option nat)
    (new_layer : bool) (w : world) : world * option exn :=
  match match colours with
        | None => Some [lit "white"]
        | Some k => nth_error (colour_lists w) k
        end with
  | None => (w, Some KeyError)
  | Some cs =>
      match highlight_image W H grains ids (Z.of_nat (List.length cs)) with
      | Err e => (w, Some e)
      | Ok im =>
          let cs' := lit "white" :: cs in
          let lists := match colours with
                       | None => colour_lists w
                       | Some k => change_nth k (fun _ => cs') (colour_lists w)
                       end in
          let l := LHighlight im cs' in
          let p := plot w in
          let p' :=
            match highlights_layer_id p, new_layer with
            | Some k, false => mkPlot (change_nth k (fun _ => l) (img_layers p)) (Some k) (points_layer_ids p)
            | h, _ =>
                mkPlot (img_layers p ++ [l])
                  (match h with None => Some (List.length (img_layers p)) | _ => h end) (points_layer_ids p)
            end in
          (mkWorld lists p', None)
      end
  end.

(** 604-635 [add_points] *)
Definition add_points (x y : list R) (update : option Z) (p : mplot) : mplot * option exn :=
  match points_layer_ids p, update with
  | (_ :: _) as ids, Some k =>
      match py_get ids k with
      | Err e => (p, Some e)
      | Ok i =>
          if (List.length x =? List.length y)%nat
          then (mkPlot (change_nth i (fun _ => LPoints x y) (img_layers p)) (highlights_layer_id p) ids, None)
          else (p, Some ValueError)
      end
  | ids, _ =>
      if (List.length x =? List.length y)%nat
      then (mkPlot (img_layers p ++ [LPoints x y]) (highlights_layer_id p) (ids ++ [List.length (img_layers p)]), None)
      else (p, Some ValueError)
  end.

(** The calls of a session; [NewList] is the caller making a list of colours. *)
Inductive call :=
| AddMap | AddBoundaries
| Highlight (ids : list Z) (colours : option nat) (new_layer : bool)
| AddPoints (x y : list R) (update : option Z)
| Clear
| NewList (l : list txt).
Definition do_call (W H : Z) (grains : list (list pix)) (c : call) (w : world) : world * option exn :=
  let p := plot w in
  let set q := mkWorld (colour_lists w) q in
  match c with
  | AddMap => (set (mkPlot (img_layers p ++ [LMap]) (highlights_layer_id p) (points_layer_ids p)), None)
  | AddBoundaries => (set (mkPlot (img_layers p ++ [LBoundaries]) (highlights_layer_id p) (points_layer_ids p)), None)
  | Highlight ids cs new => add_grain_highlights W H grains ids cs new w
  | AddPoints x y u => let '(q, e) := add_points x y u p in (set q, e)
  | Clear => (set empty_plot, None)
  | NewList l => (mkWorld (colour_lists w ++ [l]) p, None)
  end.
Definition session (W H : Z) (grains : list (list pix)) (cs : list call) (w : world) : world :=
  fold_left (fun w c => fst (do_call W H grains c w)) cs w.

(** ** Neighbours *)

(** defdap/base.py 355-380: the grains highlighted for grain [g] and their colours, from
    the neighbours of each grain in the network. *)
Definition second_neighbours (nb : Z -> list Z) (g : Z) : list Z :=
  let hl := g :: nb g in
  fold_left (fun sn f =>
    fold_left (fun sn s => if existsb (Z.eqb s) hl || existsb (Z.eqb s) sn then sn else sn ++ [s]) (nb f) sn)
    (nb g) [].
Definition neighbour_highlights (nb : Z -> list Z) (g : Z) : list Z * list txt :=
  (g :: nb g ++ second_neighbours nb g,
   lit "white" :: repeat (lit "yellow") (List.length (nb g)) ++ [lit "green"]).
