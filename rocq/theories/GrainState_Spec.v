(** What a grain should report, computed from its points and a reference without any memory. *)
From Coq Require Import String Ascii Reals ZArith Bool.
From Coq Require Import List.
From Verif Require Import Py Base_Model Quat_Model Crystal_Model Text_Model Eqv_Model Ebsd_Model GrainState_Model.
Import ListNotations.
Open Scope Z_scope.

(** The reference in force: the one set, else the average of the points. *)
Definition reference (K : consts) (g : grain) : option quat := match g_ref g with Some r => r | None => average K end.
(** The deviation of every point from the reference (the theorems on [calc_grod] say what it
    is): angles for component 0, else rotations about x, y, z, in degrees. *)
Definition grod_from (K : consts) (r : option quat) : list (option R) * list (option vec3) :=
  match r with
  | None => (map (fun _ => None) (c_oris K), map (fun _ => None) (c_oris K))
  | Some q => match calc_grod (Some q) (c_oris K) (c_name K) with
              | Some l => (map (fun d => Some (fst d)) l, map snd l)
              | None => ([], [])
              end
  end.
Definition deviation (K : consts) (r : option quat) (c : Z) : list (option R) :=
  if c =? 0 then map (option_map (fun a => a * 180 / PI)%R) (fst (grod_from K r))
  else map (option_map (fun v => (if c =? 1 then vx v else if c =? 2 then vy v else vz v) * 180 / PI)%R) (snd (grod_from K r)).
(** Trace angles, one per plane. *)
Definition trace_of (r : option quat) (group : list slip_system) : option R :=
  match r, group with Some q, s :: _ => option_map fst (slip_trace q (slip_plane s)) | _, _ => None end.
Definition factor_of (r : option quat) (load : vec3) (s : slip_system) : option R :=
  match r with Some q => Some (schmid_factor q load s) | None => None end.
(** The printed table: every plane with its colour and angle, every direction with its factor. *)
Definition table_row (r : option quat) (load : vec3) (group : list slip_system) (colour : string) (out : row) : Prop :=
  exists s l, group = s :: l /\
  out = (slip_plane_label s, colour, option_map (fun a => a * 180 / PI)%R (trace_of r group),
         map (fun s => (slip_dir_label s, factor_of r load s)) group).
Definition filled (K : consts) (groups : list (list slip_system)) : Prop :=
  c_systems K = Some groups /\ forall grp, In grp groups -> grp <> [].
(** Calls that leave the reference alone once it is there. *)
Definition sets_ref (o : op) : bool := match o with SetRef _ => true | _ => false end.
Definition keeps_ref (o : op) : bool := match o with SetRef _ | CalcAverage => false | _ => true end.
Definition own_traces (o : op) : bool := match o with CalcTraces (Some _) => false | _ => true end.
Definition is_schmid (o : op) : bool := match o with CalcSchmid _ _ => true | _ => false end.
