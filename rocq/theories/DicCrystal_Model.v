(** What DIC grains say about their crystal: defdap/hrdic.py 568-703 (links to EBSD grains), 757-814 (the
    grain's properties), defdap/base.py 98-109 and defdap/ebsd.py 918-1075 (loops over the grains). *)
From Coq Require Import String Ascii Reals.
From Coq Require Import List ZArith Bool.
From Verif Require Import Py Grid Base_Model Quat_Model Crystal_Model Text_Model GrainState_Model DicGrains_Model.
Import ListNotations.
Open Scope Z_scope.

(** An EBSD grain: its points, what does not change and what it keeps.  Its phase is known (defdap/ebsd.py
    911-922 may leave it unset with a warning: not modelled). *)
Record ebsd_grain := EG { o_points : list pix; o_consts : consts; o_state : grain }.
(** What a call of the EBSD map's [find_grains] finds: labels, and the grains with their points
    (defdap/ebsd.py 840-937 is modelled elsewhere). *)
Record found := Found { f_labels : pix -> Z; f_grains : list (list pix * consts) }.
(** How the DIC map finds grains.  Warp: its width, height, and the pixel of the EBSD map whose label a
    pixel gets (none if it is moved outside).  Flood: for each grain its points and the pixels of the
    EBSD map that are under it when the labels are warped (defdap/hrdic.py 673-682). *)
Inductive method :=
| Warp (W H : Z) (sample : pix -> option pix)
| Flood (grains : list (list pix * list pix)).

(** Grain objects are numbered in the order of their creation.  [e_store] and [d_store] tell whether
    [data.grains] is stored; [e_list] and [d_list] are the [_grains] of the maps. *)
Record world := World {
  heap : list ebsd_grain;
  e_store : option (pix -> Z); e_list : option (list nat);
  d_store : bool; d_list : option (list (list pix * nat))
}.
Definition start : world := World [] None None false None.

(** Answers of calls. *)
Definition phase_of (K : consts) := (c_name K, c_systems K, c_colours K).
Inductive answer :=
| Nothing
| Labels (l : pix -> Z)
| Points (l : list pix)
| RefOri (r : option (option quat))
| PhaseIs (p : string * option (list (list slip_system)) * list string)
| Values (l : list (option R))
| Rows (l : list row)
| Grod (d : list (option R) * list (option vec3)).

(** Calls on an EBSD grain: those of GrainState_Model, and attributes. *)
Inductive ecall := Do (o : op) | GetRef | GetPhase | GetPoints.
Definition outcome (K : consts) (g : grain) (o : op) : res answer :=
  match o with
  | CalcAverage | BuildMis _ | SetRef _ => Ok Nothing
  | ReadGrod => Ok (Grod (snd (read_grod K g)))
  | CalcSchmid v s => do _ <- snd (calc_schmid K v s g); Ok Nothing
  | CalcRdr => do _ <- snd (calc_grain_rdr K g); Ok Nothing
  | CalcTraces s => do _ <- snd (calc_traces K s g); Ok Nothing
  | ReadTraces => do l <- snd (read_traces K g); Ok (Values l)
  | PlotMis c => do l <- snd (plot_mis K c g); Ok (Values l)
  | PrintTraces => do l <- snd (print_traces K g); Ok (Rows l)
  end.
Definition on_grain (c : ecall) (g : ebsd_grain) : ebsd_grain * res answer :=
  match c with
  | Do o => (EG (o_points g) (o_consts g) (GrainState_Model.step (o_consts g) (o_state g) o), outcome (o_consts g) (o_state g) o)
  | GetRef => (g, Ok (RefOri (g_ref (o_state g))))
  | GetPhase => (g, Ok (PhaseIs (phase_of (o_consts g))))
  | GetPoints => (g, Ok (Points (o_points g)))
  end.
(** The object with a number; every number in a list is that of an object. *)
Definition put {A} (i : nat) (v : A) (l : list A) : list A :=
  map (fun '(j, a) => if (j =? i)%nat then v else a) (combine (seq 0 (List.length l)) l).
Definition at_object (i : nat) (c : ecall) (w : world) : world * res answer :=
  match nth_error (heap w) i with
  | None => (w, Err OutOfBounds)
  | Some g => let '(g, a) := on_grain c g in
              (World (put i g (heap w)) (e_store w) (e_list w) (d_store w) (d_list w), a)
  end.

(** defdap/ebsd.py 924-937: new objects; without grains line 926 fails.  [stored] when called by the data
    store, which keeps the labels. *)
Definition e_find (stored : bool) (f : found) (w : world) : world * res answer :=
  match f_grains f with
  | [] => (w, Err IndexError)
  | gs => (World (heap w ++ map (fun g => EG (fst g) (snd g) new_grain) gs)
                 (if stored then Some (f_labels f) else e_store w)
                 (Some (seq (List.length (heap w)) (List.length gs))) (d_store w) (d_list w), Ok (Labels (f_labels f)))
  end.

Section Maps.
(** What finding EBSD grains with the defaults gives, and how DIC grains are found by default. *)
Variable e_default : found.
Variable d_default : method.

(** reading [ebsd_map.data.grains] *)
Definition e_labels (w : world) : world * res answer :=
  match e_store w with Some l => (w, Ok (Labels l)) | None => e_find true e_default w end.
(** defdap/base.py 98-109, [ebsd_map[i]] *)
Definition e_item (i : Z) (w : world) : world * res nat :=
  let '(w, a) := e_labels w in
  (w, do _ <- a; match e_list w with Some l => py_index l i | None => Err TypeError end).
(** [dic_map.find_grains]: defdap/hrdic.py 589-621, 671-686, 693, 702; the check that a map is linked is
    left out. *)
Definition linked_list (m : method) (lab : pix -> Z) (l : list nat) : res (list (list pix * nat)) :=
  match m with
  | Warp W H sample =>
      do r <- warp_find_grains W H (fun p => match sample p with Some q => lab q | None => 0 end) (List.length l);
      map_res (fun g => match nth_error l (snd g) with Some i => Ok (fst g, i) | None => Err IndexError end) (snd r)
  | Flood gs =>
      map_res (fun g => do n <- link_dic_grain (map lab (snd g)) (List.length l);
                        match nth_error l n with Some i => Ok (fst g, i) | None => Err IndexError end) gs
  end.
Definition d_find (stored : bool) (m : method) (w : world) : world * res answer :=
  match m with
  | Flood [] => (w, Err IndexError)
  | _ =>
      let '(w, a) := e_labels w in
      match a, e_list w with
      | Err x, _ => (w, Err x)
      | Ok (Labels lab), Some l =>
          match linked_list m lab l with
          | Err x => (w, Err x)
          | Ok gl => (World (heap w) (e_store w) (e_list w) (stored || d_store w) (Some gl), Ok Nothing)
          end
      | Ok _, _ => (w, Err TypeError)
      end
  end.
(** [dic_map[i]], likewise *)
Definition d_item (i : Z) (w : world) : world * res (list pix * nat) :=
  let '(w, a) := if d_store w then (w, Ok Nothing) else d_find true d_default w in
  (w, do _ <- a; match d_list w with Some l => py_index l i | None => Err TypeError end).

(** Calls on a DIC grain: 773-814, and its points. *)
Inductive dcall := DRef | DPhase | DTraces | DCalc (systems : option (list (list slip_system))) | DPoints.
Definition delegate (c : dcall) : option ecall :=
  match c with
  | DRef => Some GetRef | DPhase => Some GetPhase | DTraces => Some (Do ReadTraces)
  | DCalc s => Some (Do (CalcTraces s)) | DPoints => None
  end.
(** A loop over all grains, which ends at the first exception: defdap/ebsd.py 964-1075. *)
Fixpoint over (l : list nat) (o : op) (w : world) : world * res answer :=
  match l with
  | [] => (w, Ok Nothing)
  | i :: l => match at_object i (Do o) w with
              | (w, Ok _) => over l o w
              | (w, Err x) => (w, Err x)
              end
  end.

(** Calls: [ebsd_map.find_grains] and [dic_map.find_grains] with arguments, directly (Find) or by
    [data.generate('grains', ...)]; reading the labels; calls on a grain or on all of them. *)
Inductive event :=
| EFind (f : found) | EGenerate (f : found) | ELabels
| DFind (m : method) | DGenerate (m : method)
| ECall (i : Z) (c : ecall) | EAll (o : op) | DCall (i : Z) (c : dcall).
Definition step (w : world) (e : event) : world * res answer :=
  match e with
  | EFind f => e_find false f w
  | EGenerate f => e_find true f w
  | ELabels => e_labels w
  | DFind m => d_find false m w
  | DGenerate m => d_find true m w
  | ECall i c => match e_item i w with (w, Ok g) => at_object g c w | (w, Err x) => (w, Err x) end
  | EAll o => match e_labels w with
              | (w, Err x) => (w, Err x)
              | (w, Ok _) => match e_list w with Some l => over l o w | None => (w, Err TypeError) end
              end
  | DCall i c => match d_item i w with
                 | (w, Err x) => (w, Err x)
                 | (w, Ok (pts, g)) => match delegate c with Some c => at_object g c w | None => (w, Ok (Points pts)) end
                 end
  end.
Definition run (w : world) (es : list event) : world := fold_left (fun w e => fst (step w e)) es w.
End Maps.
