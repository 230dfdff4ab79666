(** The window that shows a relative displacement ratio: defdap/inspector.py 336-588.  The
    regression is in Insp_Model, what an EBSD grain keeps is in GrainState_Model. *)
From Coq Require Import String Ascii Reals.
From Coq Require Import List ZArith Bool.
Import ListNotations.
From Verif Require Import Py Grid Boundary_Model Base_Model Quat_Model Crystal_Model Text_Model Eqv_Model Ebsd_Model Insp_Model.
From Verif Require GrainState_Model.
Open Scope Z_scope.

(** 403-424: the sampled pixels, the rows of [x_list] and [y_list] (positions in the grain's
    picture), and the rows of [u_list] and [v_list]. *)
Definition samples (e : rdr_env) (g : grain) (k : Z) : res (list (list (Z * Z)) * list (list R) * list (list R)) :=
  match pts g with
  | [] => Err IndexError
  | _ =>
      let lines := filter (fun l => l_grp l =? k) (pts g) in
      do grp <- py_get (grps g) k;
      do offs <- offsets (g_ang grp) (r_len e);
      do rows <- map_res (fun l => sample_rows e offs (l_pts l)) lines;
      do us <- map_res (map_res (fetch (r_W e) (r_H e) (r_u e))) (concat rows);
      do vs <- map_res (map_res (fetch (r_W e) (r_H e) (r_v e))) (concat rows);
      Ok (map (map (fun p => (fst p - fst (r_ext e), snd p - snd (r_ext e)))) (concat rows), map centred us, map centred vs)
  end.

(** A row of the table 516-538: place on the axes, bold, label of the plane, angle in degrees
    ([None] is nan), and each direction with its Schmid factor and ratio. *)
Record plane_row := PlaneRow {
  p_at : R; p_bold : bool; p_label : list glyph; p_angle : option R;
  p_systems : list (list glyph * option R * option R) }.
(** What is drawn.  Number formats, the standard error and R are left out, and so is the strain
    in the picture of the grain.  A ratio that is not finite is [None] and is not drawn. *)
Record window := Window {
  w_marks : list (list (Z * Z));            (** 488-490: crosses, and a line through each row *)
  w_scatter : list (R * R);                 (** 498: v and u *)
  w_fit : (R * R) * (R * R);                (** 499-501 *)
  w_slope : R; w_count : nat;               (** 504-506, and the red point 553 *)
  w_angle : Z; w_eulers : option (R * R * R);
  w_rows : list plane_row;
  w_points : list R;                        (** 541-550 *)
  w_labels : list (R * list (list glyph * list glyph))   (** 559-575: height, names of systems *)
}.

(** [np.min], [np.max] of a non-empty list. *)
Definition least (l : list R) : R := match l with [] => 0%R | a :: r => fold_left Rmin r a end.
Definition greatest (l : list R) : R := match l with [] => 0%R | a :: r => fold_left Rmax r a end.

(** 526-531 *)
Fixpoint system_texts (grp : list slip_system) (sfs rdrs : list (option R)) : res (list (list glyph * option R * option R)) :=
  match grp with
  | [] => Ok []
  | s :: grp =>
      match sfs with
      | [] => Err IndexError
      | f :: sfs =>
          do d <- slip_dir_label s;
          match rdrs with
          | [] => Err IndexError
          | r :: rdrs => do l <- system_texts grp sfs rdrs; Ok ((d, f, r) :: l)
          end
      end
  end.
(** 516-540: plane [i]; [above] lines of text are above. *)
Fixpoint plane_texts (planes : list Z) (i : Z) (above : nat) (groups : list (list slip_system)) (angles : list (option R))
    (sfs rdrs : list (list (option R))) : res (list plane_row) :=
  match groups with
  | [] => Ok []
  | grp :: groups =>
      match angles with
      | [] => Err IndexError
      | a :: angles =>
          match grp with
          | [] => Err IndexError
          | s :: _ =>
              do lab <- slip_plane_label s;
              match sfs, rdrs with
              | f :: sfs, r :: rdrs =>
                  do ss <- system_texts grp f r;
                  do l <- plane_texts planes (i + 1) (above + S (List.length grp)) groups angles sfs rdrs;
                  Ok (PlaneRow (9 / 10 - 275 / 10000 * INR above) (existsb (Z.eqb i) planes) lab (option_map rad2deg a) ss :: l)
              | _, _ => Err IndexError
              end
          end
      end
  end.
(** 541: the finite values, each once; the order of a set is not specified. *)
Fixpoint finite (l : list (option R)) : list R :=
  match l with [] => [] | Some x :: l => x :: finite l | None :: l => finite l end.
Definition unique (l : list R) : list R := nodup Req_EM_T l.
(** 566-573 *)
Definition same_value (r : option R) (x : R) : bool :=
  match r with Some y => if Req_EM_T y x then true else false | None => false end.
Fixpoint names_in (grp : list slip_system) (rdrs : list (option R)) (x : R) : res (list (list glyph * list glyph)) :=
  match grp with
  | [] => Ok []
  | s :: grp =>
      match rdrs with
      | [] => Err IndexError
      | r :: rdrs =>
          if same_value r x then
            do p <- slip_plane_label s;
            do d <- slip_dir_label s;
            do l <- names_in grp rdrs x;
            Ok ((p, d) :: l)
          else names_in grp rdrs x
      end
  end.
Fixpoint names (groups : list (list slip_system)) (rdrs : list (list (option R))) (x : R) : res (list (list glyph * list glyph)) :=
  match groups with
  | [] => Ok []
  | grp :: groups =>
      match rdrs with
      | [] => match grp with [] => names groups [] x | _ => Err IndexError end
      | r :: rdrs => do a <- names_in grp r x; do b <- names groups rdrs x; Ok (a ++ b)
      end
  end.
(** 559 *)
Definition close (x s : R) : bool := if Rlt_dec (s - 3 / 2) x then if Rlt_dec x (s + 3 / 2) then true else false else false.

(** 438-588 [plot_rdr] for the group [x], samples as above and the slope [s]: what the EBSD grain
    keeps, and the window.  On an error the window stays open, unfinished; what it shows is left
    out then. *)
Definition plot_rdr (K : GrainState_Model.consts) (x : group) (marks : list (list (Z * Z))) (us vs : list (list R)) (s : R)
    (eg : GrainState_Model.grain) : GrainState_Model.grain * res window :=
  let v := concat vs in
  let u := concat us in
  let intercept := (mean u - s * mean v)%R in
  let fit := ((least v, s * least v + intercept), (greatest v, s * greatest v + intercept))%R in
  let '(eg, r1) := GrainState_Model.calc_traces K None eg in
  match r1 with
  | Err z => (eg, Err z)
  | Ok _ =>
      let '(eg, r2) := GrainState_Model.calc_grain_rdr K eg in
      (eg,
       do _ <- r2;
       match GrainState_Model.g_sfs eg with
       | None => Err GenericException
       | Some sfs =>
           match GrainState_Model.c_systems K, GrainState_Model.g_angles eg, GrainState_Model.g_rdr eg, GrainState_Model.g_ref eg with
           | Some groups, Some angles, Some rdrs, Some ref =>
               let eulers := match ref with
                             | Some q => let '(a, b, c) := euler_angles q in Some (rad2deg a, rad2deg b, rad2deg c)
                             | None => None
                             end in
               do rows <- plane_texts (g_planes x) 0 0 groups angles sfs rdrs;
               let points := unique (finite (concat rdrs)) in
               do labels <- map_res (fun y => do l <- names groups rdrs y; Ok (y, l)) (filter (fun y => close y s) points);
               Ok (Window marks (combine v u) fit s (List.length us) (g_ang x) eulers rows points labels)
           | _, _, _, _ => Err TypeError
           end
       end)
  end.

(** 374-436 [calc_rdr] of group [k] of the grain [g] shown, with the plot or without: the lines and
    groups, what the EBSD grain keeps, and the window or the error. *)
Definition show_rdr (e : rdr_env) (K : GrainState_Model.consts) (show_plot : bool) (g : grain) (k : Z) (eg : GrainState_Model.grain)
  : (grain * GrainState_Model.grain) * res (option window) :=
  match calc_rdr e g k, samples e g k, py_get (grps g) k with
  | Ok g', Ok (marks, us, vs), Ok x =>
      if show_plot then
        match slope (concat vs) (concat us) with
        | Ok s => let '(eg', w) := plot_rdr K x marks us vs s eg in ((g', eg'), do w <- w; Ok (Some w))
        | Err z => ((g, eg), Err z)
        end
      else ((g', eg), Ok None)
  | Err z, _, _ | _, Err z, _ | _, _, Err z => ((g, eg), Err z)
  end.
