(** Plots of inverse pole figures: the frame of [PolePlot] (defdap/plotting.py 971-1142) and
    [Quat.plot_ipf] (defdap/quat.py 436-509), over the real numbers. *)
From Coq Require Import String Ascii.
From Coq Require Import Reals ZArith Bool.
From Coq Require Import List.
From Verif Require Import Py Base_Model Quat_Model Crystal_Model Pole_Model Ipf_Model Text_Model Eqv_Model.
Import ListNotations.
Open Scope R_scope.

(** A place on the axes; [None] are nans, which are not drawn. *)
Definition place := option (R * R).
Definition projector := list R -> res place.

(** What a plot has: crystal type and projection (976-988), the polylines and texts on its
    axes, the scatter layers ([img_layers]) with their colours, and the layers that colour
    bars were made for.  Line styles, text alignment and figure are left out. *)
Record pole := Pole {
  p_sym : string; p_proj : projector;
  p_lines : list (list place); p_texts : list (place * list glyph);
  p_layers : list (list place * option txt); p_bars : list nat }.

(** defdap/plotting.py 1083-1085: the ends of a line; hexagonal indices are projected with
    a ratio c/a of 0.8165, and [conv] is the configured convention.  Cubic indices are used
    as they are (a length other than three is refused here as [vec_of] does). *)
Definition line_end (conv g : string) (point : list Z) : res vec3 :=
  if String.eqb g "hexagonal" then project_to_orth (8165 / 10000) (Some (IntArr point)) None "mb" conv
  else vec_of (map IZR point).
(** 1064-1111 [add_line] *)
Definition add_line (conv : string) (n : nat) (plot_syms : bool) (plot : pole) (l : list Z * list Z) : res pole :=
  do s <- line_end conv (p_sym plot) (fst l);
  do e <- line_end conv (p_sym plot) (snd l);
  do ls <- map_res (fun l => map_res (fun v => p_proj plot [vx v; vy v; vz v]) (line_points (fst l) (snd l) n))
                   (lines_drawn (sym_eqv (p_sym plot)) plot_syms s e);
  Ok (Pole (p_sym plot) (p_proj plot) (p_lines plot ++ ls) (p_texts plot) (p_layers plot) (p_bars plot)).
(** 1113-1160 [label_point], with the directions and texts of [Eqv_Model.label_point]. *)
Definition add_label (conv : string) (label : option (list glyph)) (plot_syms : bool) (pad_x : R) (plot : pole) (l : list Z * R) : res pole :=
  do vts <- label_point conv (p_sym plot) (fst l) label plot_syms;
  do ts <- map_res (fun vt => do P <- p_proj plot [vx (fst vt); vy (fst vt); vz (fst vt)];
                              Ok (option_map (fun P => (fst P + pad_x, snd P + snd l)) P, snd vt)) vts;
  Ok (Pole (p_sym plot) (p_proj plot) (p_lines plot) (p_texts plot ++ ts) (p_layers plot) (p_bars plot)).

(** 1000-1037: the lines, and the labels with their vertical pads; [triangle] is the
    configured convention of the triangle. *)
Definition ipf_axes (triangle plot_type g : string) : res (list (list Z * list Z) * list (list Z * R)) :=
  if String.eqb plot_type "IPF" && String.eqb g "cubic" then
    Ok ([([0; 0; 1], [0; 1; 1]); ([0; 0; 1], [-1; 1; 1]); ([0; 1; 1], [-1; 1; 1])]%Z,
        [([0; 0; 1]%Z, -5 / 1000); ([0; 1; 1]%Z, -5 / 1000); ([-1; 1; 1]%Z, 5 / 1000)])
  else if String.eqb plot_type "IPF" && String.eqb g "hexagonal" then
    if String.eqb triangle "down" then
      Ok ([([0; 0; 0; 1], [-1; 2; -1; 0]); ([0; 0; 0; 1], [0; 1; -1; 0]); ([-1; 2; -1; 0], [0; 1; -1; 0])]%Z,
          [([0; 0; 0; 1]%Z, 12 / 1000); ([-1; 2; -1; 0]%Z, 12 / 1000); ([0; 1; -1; 0]%Z, -12 / 1000)])
    else
      Ok ([([0; 0; 0; 1], [-1; 2; -1; 0]); ([0; 0; 0; 1], [-1; 1; 0; 0]); ([-1; 2; -1; 0], [-1; 1; 0; 0])]%Z,
          [([0; 0; 0; 1]%Z, -12 / 1000); ([-1; 2; -1; 0]%Z, -12 / 1000); ([-1; 1; 0; 0]%Z, 12 / 1000)])
  else Err NotImplementedError.
Fixpoint each {A} (f : pole -> A -> res pole) (l : list A) (plot : pole) : res pole :=
  match l with [] => Ok plot | x :: l => do plot <- f plot x; each f l plot end.
(** 976-1047: a new plot; [p] is the projection that [_validateProjection] gave.  Lines have
    100 points (1064). *)
Definition new_pole (conv triangle plot_type g : string) (p : projector) : res pole :=
  do a <- ipf_axes triangle plot_type g;
  do plot <- each (add_line conv 100 false) (fst a) (Pole g p [] [] [] []);
  each (add_label conv None false 0) (snd a) plot.

(** 1190-1238 [add_points]: all markers show the same points. *)
Definition add_points (colour : colour_arg) (sized marker : bool) (angles : list (option (R * R))) (plot : pole) : res pole :=
  do ps <- map_res (fun o => match o with Some (a, b) => p_proj plot [a; b] | None => Ok None end) angles;
  do ms <- markers colour sized marker;
  Ok (Pole (p_sym plot) (p_proj plot) (p_lines plot) (p_texts plot)
           (p_layers plot ++ map (fun c => (ps, c)) ms) (p_bars plot)).
(** 1240-1254 [add_colour_bar] for layer number [layer] >= 0. *)
Definition add_bar (layer : nat) (plot : pole) : res pole :=
  match nth_error (p_layers plot) layer with
  | None => Err IndexError
  | Some _ => Ok (Pole (p_sym plot) (p_proj plot) (p_lines plot) (p_texts plot) (p_layers plot) (p_bars plot ++ [layer]))
  end.

(** defdap/quat.py 483-509 [plot_ipf]: a marker is always passed on and the size has a
    default; the bar is for layer 0.  [given] is the plot passed, if any. *)
Definition plot_ipf (conv triangle : string) (quats : list quat) (d : vec3) (g : string) (p : projector)
    (given : option pole) (colour : colour_arg) (bar : bool) : res pole :=
  do angles <- calc_fund_dirs quats d g None triangle;
  do plot <- match given with Some plot => Ok plot | None => new_pole conv triangle "IPF" g p end;
  do plot <- add_points colour true true angles plot;
  if bar then add_bar 0 plot else Ok plot.
