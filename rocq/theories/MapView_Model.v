(** What maps of grains and of orientations show: defdap/ebsd.py 293-314, 969-1047 and
    defdap/base.py 539-590, 673-769, 1158-1209. *)
From Coq Require Import String Ascii Reals ZArith Bool.
From Coq Require Import List.
From Verif Require Import Py Grid Base_Model Quat_Model Pole_Model Ipf_Model Text_Model Ebsd_Model GrainState_Model.
Import ListNotations.
Open Scope Z_scope.

(** ** Misorientation maps *)
(** A grain of the map: what does not change, its points, what it keeps. *)
Definition mgrain : Type := consts * list pix * grain.
(** ebsd.py 970-979, 982-996 *)
Definition each_grain (o : op) (gs : list mgrain) : list mgrain :=
  map (fun x : mgrain => (fst x, step (fst (fst x)) (snd x) o)) gs.
(** [for point, v in zip(points, values): im[point[1], point[0]] = v] *)
Definition put_zip {A} (W H : Z) (im : pix -> A) (pts : list pix) (vals : list A) : res (pix -> A) :=
  for_each (fun im pv => put W H im (fst pv) (snd pv)) (combine pts vals) im.
(** 998-1036: the values plotted.  Components that are none of 1, 2, 3 are taken as 0. *)
Definition plot_mis_map (W H : Z) (component : Z) (gs : list mgrain) : list mgrain * res (pix -> option R) :=
  if (1 <=? component) && (component <=? 3) then
    let gs := if existsb (fun x : mgrain => match g_axes (snd x) with None => true | Some _ => false end) gs
              then each_grain (BuildMis true) gs else gs in
    (gs,
     do im <- for_each (fun im (x : mgrain) =>
                match g_axes (snd x) with
                | Some l => put_zip W H im (snd (fst x)) (map (option_map (comp component)) l)
                | None => Err TypeError
                end) gs (fun _ => Some 0%R);
     Ok (fun p => option_map (fun v => v * 180 / PI)%R (im p)))
  else
    let gs := if existsb (fun x : mgrain => match g_mis (snd x) with None => true | Some _ => false end) gs
              then each_grain (BuildMis false) gs else gs in
    (gs,
     do im <- for_each (fun im (x : mgrain) =>
                match g_mis (snd x) with
                | Some l => put_zip W H im (snd (fst x)) l
                | None => Err TypeError
                end) gs (fun _ => Some 1%R);
     Ok (fun p => option_map (fun m => acos m * 360 / PI)%R (im p))).

(** ** Colours of orientation maps *)
Definition colour : Type := num * num * num.
Definition num3 (c : option (R * R * R)) : colour :=
  match c with Some (r, g, b) => (Fin r, Fin g, Fin b) | None => (NaN, NaN, NaN) end.
(** Values stored in the array of colours get its number type, that of the background. *)
Definition cast3 (d : dtype) (c : colour) : colour := let '(r, g, b) := c in (cast d r, cast d g, cast d b).
Definition background (bg : option (dtype * (R * R * R))) : dtype * (R * R * R) :=
  match bg with Some b => b | None => (DFloat, (0, 0, 0)%R) end.
(** ebsd.py 293-314; [default] is the package default for the triangle.  [calc_ipf_colours]
    works on the orientations of a phase in the order of the pixels. *)
Definition calc_ipf_colour (names : list string) (phases : option (list Z)) (bg : option (dtype * (R * R * R)))
    (W H : Z) (phase : pix -> Z) (ori : pix -> quat) (direction : vec3) (default : string) : res (pix -> colour) :=
  do chosen <- phase_choice names phases;
  let '(d, bg) := background bg in
  for_each (fun im np =>
      let phase_mask := filter (fun p => phase p =? snd np + 1) (all_pix W H) in
      do cols <- calc_ipf_colours (map ori phase_mask) direction (fst np) default;
      Ok (fold_left (fun im pc => upd im (fst pc) (cast3 d (num3 (snd pc)))) (combine phase_mask cols) im))
    chosen (fun _ => num3 (Some bg)).
(** ebsd.py 266-291 again, with the number type of the array. *)
Definition euler_colour_typed (names : list string) (phases : option (list Z)) (bg : option (dtype * (R * R * R)))
    (phase : pix -> Z) (euler : pix -> R * R * R) : res (pix -> colour) :=
  let '(d, b) := background bg in
  do f <- calc_euler_colour names phases (Some b) phase euler;
  Ok (fun p => cast3 d (num3 (Some (f p)))).

(** ** One value per grain *)
(** base.py 705-713: the map; given data has a number type, averages are floats. *)
Definition plot_grain_data_map (W H : Z) (grains : list (list pix)) (map_data : option (pix -> num))
    (grain_data : option (dtype * gvals)) (ids : gids) (bg : num) : res (pix -> list num) :=
  do v <- match grain_data with
          | Some v => Ok v
          | None => match map_data with
                    | None => Err ValueError
                    | Some m => do l <- calc_grain_average W H grains m ids; Ok (DFloat, GNums l)
                    end
          end;
  grain_data_to_map_data W H grains (fst v) (snd v) ids bg.
(** base.py 747-766 for one number per grain: the markers, each the angles of the direction
    and the value.  [refs] are the reference orientations, [None] if not calculated;
    [sym] is the structure of the primary phase. *)
Definition plot_grain_data_ipf (W H : Z) (grains : list (list pix)) (refs : list (option quat)) (sym : string)
    (direction : vec3) (map_data : option (pix -> num)) (grain_data : option (list num)) (ids : gids) (default : string)
    : res (list (option (R * R) * num)) :=
  do v <- match grain_data with
          | Some v => Ok v
          | None => match map_data with
                    | None => Err ValueError
                    | Some m => calc_grain_average W H grains m ids
                    end
          end;
  do l <- match ids with
          | IdInt i => if i =? -1 then Ok (zseq 0 (List.length grains)) else Err TypeError
          | IdSeq l => Ok l
          end;
  if negb (Nat.eqb (List.length v) (List.length l)) then Err GenericException
  else
    do rs <- map_res (py_nth refs) l;
    do qs <- map_res (fun r => match r with Some q => Ok q | None => Err AttributeError end) rs;
    do angles <- calc_fund_dirs qs direction sym None default;
    Ok (combine angles v).

(** ** Labels and scales *)
(** What is stored with the data. *)
Record meta := Meta { m_clabel : option txt; m_unit : option txt; m_binning : option R; m_scale : option R }.
(** base.py 566-580; [comp] was validated *)
Definition spaced (t : txt) : txt := map (fun a => if Ascii.eqb a "_" then " "%char else a) t.
Definition colour_label (m : meta) (c : Base_Model.comp) : option txt :=
  match m_clabel m with
  | None => None
  | Some clabel =>
      let part := match c with
                  | CTuple l => lit " (" ++ concat (map (fun i => fmt_int (i + 1)) l) ++ lit ")"
                  | CStr s => lit " (" ++ spaced (list_ascii_of_string s) ++ lit ")"
                  | _ => []
                  end in
      let unit := match m_unit m with
                  | Some (a :: u) => lit " (" ++ (a :: u) ++ lit ")"
                  | _ => []
                  end in
      Some (clabel ++ part ++ unit)
  end.
(** base.py 582-584, 1201-1203: the scale of the map over the binning of the data *)
Definition plot_scale (m : meta) (scale : option R) : option R :=
  match scale with
  | Some s => Some (s / match m_binning m with Some b => b | None => 1 end)%R
  | None => m_scale m
  end.
(** base.py 539-590 and 1158-1209: the arguments [clabel] and [scale] of the plot; those given
    by the caller go first. *)
Definition plot_args (order : Z) (default : Base_Model.comp) (m : meta) (scale : option R) (c : Base_Model.comp)
    (given_label : option txt) (given_scale : option R) : res (option txt * option R) :=
  do c <- validate_component order default c;
  Ok (match given_label with Some t => Some t | None => colour_label m c end,
      match given_scale with Some s => Some s | None => plot_scale m scale end).
