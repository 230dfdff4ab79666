(** What an EBSD grain keeps between calls: defdap/ebsd.py 1183-1570 (the calculations
    themselves are in Ebsd_Model and Crystal_Model) and Linker 1919-1941. *)
From Coq Require Import String Ascii Reals ZArith Bool.
From Coq Require Import List.
From Verif Require Import Py Base_Model Quat_Model Crystal_Model Text_Model Eqv_Model Ebsd_Model.
Import ListNotations.
Open Scope Z_scope.

(** What does not change: the orientations of the grain's points, its crystal structure, and
    the slip systems and trace colours of its phase ([None] if the phase has none). *)
Record consts := Consts {
  c_oris : list quat;
  c_name : string;
  c_systems : option (list (list slip_system));
  c_colours : list string
}.
(** 1187-1221: attributes start as None; [g_rdr] is absent until 1478, [g_grod] is the stored
    output of the generator 1202-1221.  An orientation or value [None] inside is nan. *)
Record grain := Grain {
  g_ref : option (option quat);
  g_mis : option (list (option R));
  g_axes : option (list (option vec3));
  g_sfs : option (list (list (option R)));
  g_rdr : option (list (list (option R)));
  g_angles : option (list (option R));
  g_incls : option (list (option R));
  g_grod : option (list (option R) * list (option vec3))
}.
Definition new_grain : grain := Grain None None None None None None None None.

(** quat.py [calc_average_ori] of the points; [None] is a nan quaternion. *)
Definition average (K : consts) : option quat := calc_average_ori (calc_sym_eqvs (c_oris K) (c_name K)).
(** 1250, 1293 [calcMisOri] with the reference; every value from a nan reference is nan. *)
Definition mis_from (K : consts) (r : option quat) : list (option (R * quat)) :=
  match r with
  | Some r => map Some (calcMisOri (calc_sym_eqvs (c_oris K) (c_name K)) r)
  | None => map (fun _ => None) (c_oris K)
  end.
Definition axis_from (r : option quat) (m : option (R * quat)) : option vec3 :=
  match r, m with Some r, Some m => grod_axis r (snd m) | _, _ => None end.

Definition with_ref (g : grain) r := Grain r (g_mis g) (g_axes g) (g_sfs g) (g_rdr g) (g_angles g) (g_incls g) (g_grod g).
(** 1247-1248, 1290-1291, 1452-1453, 1532-1533 *)
Definition ensure_ref (K : consts) (g : grain) : grain * option quat :=
  match g_ref g with Some r => (g, r) | None => (with_ref g (Some (average K)), average K) end.

(** 1236-1285 (without the mean) *)
Definition build_mis (K : consts) (calc_axis : bool) (g : grain) : grain :=
  let '(g, r) := ensure_ref K g in
  let m := mis_from K r in
  Grain (g_ref g) (Some (map (option_map fst) m))
        (if calc_axis then Some (map (axis_from r) m) else g_axes g)
        (g_sfs g) (g_rdr g) (g_angles g) (g_incls g) (g_grod g).
(** reading [data.GROD] and [data.GROD_axis]: 1287-1311, once *)
Definition read_grod (K : consts) (g : grain) : grain * (list (option R) * list (option vec3)) :=
  match g_grod g with
  | Some d => (g, d)
  | None =>
      let '(g, r) := ensure_ref K g in
      let m := mis_from K r in
      let d := (map (option_map (fun mq => (2 * acos (fst mq))%R)) m, map (axis_from r) m) in
      (Grain (g_ref g) (g_mis g) (g_axes g) (g_sfs g) (g_rdr g) (g_angles g) (g_incls g) (Some d), d)
  end.
(** 1438-1474; without slip systems the loop fails after the list was emptied (1461) *)
Definition calc_schmid (K : consts) (load : vec3) (systems : option (list (list slip_system))) (g : grain) : grain * res unit :=
  let systems := match systems with Some s => Some s | None => c_systems K end in
  let '(g, r) := ensure_ref K g in
  let set l := Grain (g_ref g) (g_mis g) (g_axes g) (Some l) (g_rdr g) (g_angles g) (g_incls g) (g_grod g) in
  match systems with
  | None => (set [], Err TypeError)
  | Some groups =>
      (set (match r with
            | Some r => map (map Some) (schmid_factors r load groups)
            | None => map (map (fun _ => None)) groups
            end), Ok tt)
  end.
(** 1476-1486; without a reference the first slip system fails *)
Fixpoint rdr_no_ref (groups : list (list slip_system)) : list (list (option R)) * res unit :=
  match groups with
  | [] => ([], Ok tt)
  | [] :: groups => let '(l, e) := rdr_no_ref groups in ([] :: l, e)
  | _ :: _ => ([[]], Err AttributeError)
  end.
Definition calc_grain_rdr (K : consts) (g : grain) : grain * res unit :=
  let set l := Grain (g_ref g) (g_mis g) (g_axes g) (g_sfs g) (Some l) (g_angles g) (g_incls g) (g_grod g) in
  match c_systems K with
  | None => (set [], Err TypeError)
  | Some groups =>
      match g_ref g with
      | None => let '(l, e) := rdr_no_ref groups in (set l, e)
      | Some (Some r) => (set (map (map (fun s => grain_rdr r (slip_dir s))) groups), Ok tt)
      | Some None => (set (map (map (fun _ => None)) groups), Ok tt)
      end
  end.
(** 1541-1570: an empty group fails when its turn comes *)
Fixpoint trace_loop (r : option quat) (groups : list (list slip_system)) : list (option (R * R)) * res unit :=
  match groups with
  | [] => ([], Ok tt)
  | [] :: _ => ([], Err IndexError)
  | (s :: _) :: groups =>
      let '(l, e) := trace_loop r groups in
      (match r with Some r => slip_trace r (slip_plane s) | None => None end :: l, e)
  end.
(** 1522-1570 *)
Definition calc_traces (K : consts) (systems : option (list (list slip_system))) (g : grain) : grain * res unit :=
  let systems := match systems with Some s => Some s | None => c_systems K end in
  let '(g, r) := ensure_ref K g in
  let set l := Grain (g_ref g) (g_mis g) (g_axes g) (g_sfs g) (g_rdr g)
                     (Some (map (option_map fst) l)) (Some (map (option_map snd) l)) (g_grod g) in
  match systems with
  | None => (set [], Err TypeError)
  | Some groups => let '(l, e) := trace_loop r groups in (set l, e)
  end.
(** 1488-1501 [slip_traces] *)
Definition read_traces (K : consts) (g : grain) : grain * res (list (option R)) :=
  let '(g, e) := match g_angles g with Some _ => (g, Ok tt) | None => calc_traces K None g end in
  (g, do _ <- e; match g_angles g with Some l => Ok l | None => Err TypeError end).
(** numpy rad2deg *)
Definition deg (x : R) : R := (x * 180 / PI)%R.
Definition comp (c : Z) (v : vec3) : R := if c =? 1 then vx v else if c =? 2 then vy v else vz v.
(** 1395-1435: the values plotted *)
Definition plot_mis (K : consts) (component : Z) (g : grain) : grain * res (list (option R)) :=
  if component =? 0 then
    let g := match g_mis g with Some _ => g | None => build_mis K false g end in
    (g, match g_mis g with
        | Some l => Ok (map (option_map (fun m => deg (2 * acos m))) l)
        | None => Err TypeError
        end)
  else if (0 <? component) && (component <? 4) then
    let g := match g_axes g with Some _ => g | None => build_mis K true g end in
    (g, match g_axes g with
        | Some l => Ok (map (option_map (fun v => deg (comp component v))) l)
        | None => Err TypeError
        end)
  else (g, Err ValueError).
(** 1503-1520: per plane its label, colour, angle in degrees, and its directions with their
    factors. *)
Definition row : Type := res (list glyph) * string * option R * list (res (list glyph) * option R).
Fixpoint table (groups : list (list slip_system)) (colours : list string) (sfs : list (list (option R)))
    (angles : list (option R)) : res (list row) :=
  match groups, colours, sfs, angles with
  | grp :: groups, c :: colours, sf :: sfs, a :: angles =>
      match grp with
      | [] => Err IndexError
      | s :: _ =>
          do l <- table groups colours sfs angles;
          Ok ((slip_plane_label s, c, option_map deg a, combine (map slip_dir_label grp) sf) :: l)
      end
  | _, _, _, _ => Ok []
  end.
Definition print_traces (K : consts) (g : grain) : grain * res (list row) :=
  let '(g, e) := calc_traces K None g in
  (g, do _ <- e;
      match g_sfs g with
      | None => Err GenericException
      | Some sfs =>
          match c_systems K, g_angles g with
          | Some groups, Some angles => table groups (c_colours K) sfs angles
          | _, _ => Err TypeError
          end
      end).

(** What can be done with a grain.  [SetRef] is the Linker's assignment 1926-1928. *)
Inductive op :=
| CalcAverage | BuildMis (calc_axis : bool) | ReadGrod
| CalcSchmid (load : vec3) (systems : option (list (list slip_system)))
| CalcRdr | CalcTraces (systems : option (list (list slip_system))) | ReadTraces
| PlotMis (component : Z) | PrintTraces | SetRef (r : option (option quat)).
Definition step (K : consts) (g : grain) (o : op) : grain :=
  match o with
  | CalcAverage => with_ref g (Some (average K))
  | BuildMis a => build_mis K a g
  | ReadGrod => fst (read_grod K g)
  | CalcSchmid v s => fst (calc_schmid K v s g)
  | CalcRdr => fst (calc_grain_rdr K g)
  | CalcTraces s => fst (calc_traces K s g)
  | ReadTraces => fst (read_traces K g)
  | PlotMis c => fst (plot_mis K c g)
  | PrintTraces => fst (print_traces K g)
  | SetRef r => with_ref g r
  end.
Definition run (K : consts) (ops : list op) (g : grain) : grain := fold_left (step K) ops g.

(** *** Linked maps: grain [g] of map [i] *)
Definition maps := Z -> Z -> grain.
Definition set_grain (m : maps) (i g : Z) (v : grain) : maps :=
  fun i' g' => if (i' =? i) && (g' =? g) then v else m i' g'.
Definition for_links (n : nat) (links : list (list Z)) (f : Z -> Z -> Z -> maps -> maps) (m : maps) : maps :=
  fold_left (fun m i =>
    fold_left (fun m link =>
      match nth_error link i, nth_error link 0 with
      | Some g, Some g0 => f (Z.of_nat i) g g0 m
      | _, _ => m
      end) links m) (seq 1 (n - 1)) m.
(** 1919-1928, for links of existing grains, one of each of the [n] maps *)
Definition link_refs (n : nat) (links : list (list Z)) : maps -> maps :=
  for_links n links (fun i g g0 m => set_grain m i g (with_ref (m i g) (g_ref (m 0 g0)))).
(** 1930-1941 *)
Definition update_misori (K : Z -> Z -> consts) (n : nat) (links : list (list Z)) (calc_axis : bool) : maps -> maps :=
  for_links n links (fun i g _ m => set_grain m i g (build_mis (K i g) calc_axis (m i g))).
