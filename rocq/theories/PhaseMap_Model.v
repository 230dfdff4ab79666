(** Labels on maps: defdap/plotting.py 356-383, 559-602, defdap/base.py 128-150 and
    defdap/ebsd.py 226-227, 373-400, 798-827, 946-967. *)
From Coq Require Import String Reals.
From Coq Require Import List ZArith Bool.
Import ListNotations.
From Verif Require Import Py Grid Base_Model Dic_Model.
Open Scope Z_scope.

Section Colours.
Variable C : Type.
(** An image on the axes, as matplotlib keeps it: the data, the limits, the table of colours. *)
Record layer := Layer { l_data : pix -> R; l_min : R; l_max : R; l_table : list C }.
(** matplotlib: the least and the greatest value of the data, for limits not given. *)
Definition lowest (W H : Z) (d : pix -> R) : R := match all_pix W H with [] => 0%R | p :: l => fold_left (fun m q => Rmin m (d q)) l (d p) end.
Definition highest (W H : Z) (d : pix -> R) : R := match all_pix W H with [] => 0%R | p :: l => fold_left (fun m q => Rmax m (d q)) l (d p) end.
(** plotting.py 356-383 [add_map] *)
Definition add_image (W H : Z) (d : pix -> R) (vmin vmax : option R) (table : list C) (layers : list layer) : list layer :=
  layers ++ [Layer d (match vmin with Some x => x | None => lowest W H d end) (match vmax with Some x => x | None => highest W H d end) table].
(** matplotlib [cmap(norm(value))]: the colour of a value. *)
Definition colour_of (l : layer) (v : R) : res C :=
  if Rlt_dec (l_max l) (l_min l) then Err ValueError
  else
    let x := if Req_EM_T (l_min l) (l_max l) then 0%R else ((v - l_min l) / (l_max l - l_min l))%R in
    let n := Z.of_nat (List.length (l_table l)) in
    let i := if Rlt_dec x 0 then 0 else if Rlt_dec x 1 then Int_part (x * IZR n) else n - 1 in
    match nth_error (l_table l) (Z.to_nat i) with Some c => Ok c | None => Err IndexError end.
(** The colour in which a pixel is drawn. *)
Definition drawn (l : layer) (p : pix) : res C := colour_of l (l_data l p).
(** plotting.py 578-602 [add_legend], layer 0: colours and labels *)
Definition add_legend (values : list R) (labels : list string) (layers : list layer) : res (list (C * string)) :=
  match layers with
  | [] => Err IndexError
  | l :: _ =>
      do colours <- map_res (colour_of l) values;
      map_res (fun i => match nth_error colours i, nth_error labels i with Some c, Some s => Ok (c, s) | _, _ => Err IndexError end)
              (seq 0 (List.length values))
  end.

(** ebsd.py 373-400 [plot_phase_map]: limits are those of the caller if there are any ([Some None] is
    None as argument); [layers] are the images of a plot that was given.  The images, and the legend
    or the error.  226-227: the number of phases is None if there are none. *)
Definition plot_phase_map (W H : Z) (names : list string) (phase : pix -> Z) (vmin vmax : option (option R)) (table : list C) (layers : list layer)
  : list layer * res (list (C * string)) :=
  let num_phases := match names with [] => None | _ => Some (List.length names) end in
  let vmin := match vmin with Some x => x | None => Some 0%R end in
  let vmax := match vmax with Some x => x | None => option_map INR num_phases end in
  let layers := add_image W H (fun p => IZR (phase p)) vmin vmax table layers in
  (layers,
   match num_phases with
   | None => Err TypeError
   | Some n => add_legend (map INR (seq 0 (n + 1))) ("Non-indexed"%string :: names) layers
   end).
End Colours.
Arguments Layer {C}. Arguments l_data {C}. Arguments l_min {C}. Arguments l_max {C}. Arguments l_table {C}.
Arguments add_image {C}. Arguments colour_of {C}. Arguments drawn {C}. Arguments add_legend {C}. Arguments plot_phase_map {C}.

(** ebsd.py 798-827 [plot_phase_boundary_map]: the values plotted, from the image of the phase
    boundaries.  [mph.binary_dilation] by its default cross. *)
Definition phase_boundary_map (W H : Z) (boundary : pix -> bool) (dilated : bool) : pix -> Z :=
  let b := if dilated then dilate1 W H boundary else boundary in fun p => if b p then 1 else 0.
(** ebsd.py 946-967 [plot_grain_map]: the values plotted, with a bar labelled "Grain number". *)
Definition plot_grain_map (labels : pix -> Z) : pix -> Z := labels.
(** plotting.py 559-576 [add_grain_numbers] (base.py 128-150 draws the boundaries first): where each
    number is written. *)
Definition add_grain_numbers (grains : list (list pix)) : res (list (Z * Z * Z)) :=
  map_res (fun ig => do c <- centre_coords (snd ig) "com" false; Ok (fst c, snd c, fst ig))
          (combine (map Z.of_nat (seq 0 (List.length grains))) grains).
