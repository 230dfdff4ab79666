(** Picking homologous points on a plot, defdap/experiment.py 172-311, and the registry of
    experiments, increments and maps, defdap/experiment.py 21-39, 158-172 and
    defdap/base.py 46-89. *)
From Coq Require Import String Ascii Reals.
From Coq Require Import List ZArith Bool.
Import ListNotations.
From Verif Require Import Py Base_Model Crystal_Model Text_Model Insp_Model Io_Model.
Open Scope Z_scope.

(** ** The plot *)
(** The layers, only points are looked into: matplotlib keeps None as nan. *)
Record pplot := PPlot { layers : list (list (num * num)); ids : list nat }.
(** defdap/plotting.py 604-630 [add_points] with as many x as y; the layers shown otherwise
    (maps, boundaries) are kept as lists of points too. *)
Definition put_points (ps : list (num * num)) (update : option nat) (p : pplot) : res pplot :=
  match ids p, update with
  | (_ :: _) as l, Some k =>
      match nth_error l k with
      | Some i => Ok (PPlot (change_nth i (fun _ => ps) (layers p)) l)
      | None => Err IndexError
      end
  | l, _ => Ok (PPlot (layers p ++ [ps]) (l ++ [List.length (layers p)]))
  end.
(** [plot.img_layers[plot.points_layer_ids[1]].get_offsets()[0]]: 268, 298. *)
Definition sel_point (p : pplot) : res (num * num) :=
  match nth_error (ids p) 1 with
  | Some i => match nth_error (layers p) i with Some (a :: _) => Ok a | _ => Err IndexError end
  | None => Err IndexError
  end.

(** ** The frame and its plot *)
(** The points of the frame are a list or, if set so, an array. *)
Record picker := Picker { points : list (R * R); is_list : bool; shown : pplot }.
Definition scaled (b : R) (p : R * R) : num * num := (Fin (fst p * b), Fin (snd p * b)).
Definition nothing : num * num := (NaN, NaN).
(** 205-219: [base] are the layers of the map plot, which has no points yet; [b] is the
    binning. *)
Definition open_picker (base : list (list (num * num))) (b : R) (pts : list (R * R)) (isl : bool) : res picker :=
  do p <- put_points (match pts with [] => [nothing] | _ => map (scaled b) pts end) None (PPlot base []);
  do p <- put_points [nothing] None p;
  Ok (Picker pts isl p).

Inductive event :=
| Click (inaxes : bool) (button : Z) (key : option txt) (x y : R)
| Key (key : option txt)
| Save.
Definition is_shift (k : option txt) : bool := match k with Some t => txt_eqb t (lit "shift") | None => false end.
(** 227-247 *)
Definition homog_click (inaxes : bool) (button : Z) (key : option txt) (x y : R) (s : picker) : picker * option exn :=
  if negb inaxes then (s, None)
  else if (button =? 3) || ((button =? 1) && is_shift key) then
    match put_points [(Fin (IZR (trunc x)), Fin (IZR (trunc y)))] (Some 1%nat) (shown s) with
    | Ok p => (Picker (points s) (is_list s) p, None)
    | Err e => (s, Some e)
    end
  else (s, None).
Definition num_plus (a : num) (d : Z) : num := match a with Fin r => Fin (r + IZR d) | NaN => NaN end.
Definition move_by (key : txt) (m : Z) (p : num * num) : num * num :=
  if txt_eqb key (lit "left") then (num_plus (fst p) (- m), snd p)
  else if txt_eqb key (lit "right") then (num_plus (fst p) m, snd p)
  else if txt_eqb key (lit "up") then (fst p, num_plus (snd p) (- m))
  else (fst p, num_plus (snd p) m).
Definition is_arrow (key : txt) : bool := existsb (txt_eqb key) [lit "left"; lit "right"; lit "up"; lit "down"].
(** 249-282; a key matplotlib does not know is None.  Offsets are never None. *)
Definition homog_key (key : option txt) (s : picker) : picker * option exn :=
  match key with
  | None => (s, Some AttributeError)
  | Some t =>
      let keys := split_on "+" t in
      let key := last keys [] in
      if negb (is_arrow key) then (s, None)
      else
        match sel_point (shown s) with
        | Err e => (s, Some e)
        | Ok sel =>
            let m := match keys with [k; _] => if txt_eqb k (lit "shift") then 10 else 1 | _ => 1 end in
            match put_points [move_by key m sel] (Some 1%nat) (shown s) with
            | Ok p => (Picker (points s) (is_list s) p, None)
            | Err e => (s, Some e)
            end
        end
  end.
(** 284-311; an array has no [append]. *)
Definition homog_save (b : R) (s : picker) : picker * option exn :=
  match sel_point (shown s) with
  | Err e => (s, Some e)
  | Ok (Fin x, Fin y) =>
      match put_points [nothing] (Some 1%nat) (shown s) with
      | Err e => (s, Some e)
      | Ok p =>
          if negb (is_list s) then (Picker (points s) (is_list s) p, Some AttributeError)
          else
            let pts := points s ++ [(IZR (rint (x / b)), IZR (rint (y / b)))] in
            match put_points (map (scaled b) pts) (Some 0%nat) p with
            | Ok p => (Picker pts (is_list s) p, None)
            | Err e => (Picker pts (is_list s) p, Some e)
            end
      end
  | Ok _ => (s, None)
  end.
Definition on_event (b : R) (e : event) (s : picker) : picker * option exn :=
  match e with
  | Click i bt k x y => homog_click i bt k x y s
  | Key k => homog_key k s
  | Save => homog_save b s
  end.
(** matplotlib reports an exception of a handler and goes on. *)
Definition session (b : R) (es : list event) (s : picker) : picker := fold_left (fun s e => fst (on_event b e s)) es s.

(** ** Experiments: objects are numbered *)
Record increment := Increment { i_exp : nat; i_maps : dict nat }.
(** Experiment 0 is [defdap.anonymous_experiment]; each has its list of increments; the
    objects' other attributes are left out.  [n_maps] maps were made. *)
Record registry := Registry { exps : list (list nat); incs : list increment; n_maps : nat }.
Definition registry0 : registry := Registry [[]] [] 0.
(** defdap/experiment.py 21-25 *)
Definition new_experiment (r : registry) : nat * registry := (List.length (exps r), Registry (exps r ++ [[]]) (incs r) (n_maps r)).
(** 30-33, 158-169; [e] is an experiment. *)
Definition add_increment (e : nat) (r : registry) : nat * registry :=
  let i := List.length (incs r) in
  (i, Registry (change_nth e (fun l => l ++ [i]) (exps r)) (incs r ++ [Increment e []]) (n_maps r)).
(** 171-172 *)
Definition add_map (i : nat) (name : txt) (m : nat) (r : registry) : registry :=
  Registry (exps r) (change_nth i (fun inc => Increment (i_exp inc) (dset name m (i_maps inc))) (incs r)) (n_maps r).
(** defdap/base.py 46-89: [loads] says whether loading succeeds; [mapname] is MAPNAME of the
    class.  The result is the map and its increment. *)
Definition new_map (experiment increment : option nat) (name : option txt) (mapname : txt) (loads : res unit) (r : registry)
    : res (nat * nat) * registry :=
  let name := match name with Some n => n | None => mapname end in
  let finish i r :=
    let m := n_maps r in
    let r := add_map i name m (Registry (exps r) (incs r) (S m)) in
    (match loads with Ok _ => Ok (m, i) | Err e => Err e end, r) in
  match increment with
  | Some i =>
      match nth_error (incs r) i with
      | None => (Err AttributeError, r)
      | Some inc =>
          match experiment with
          | Some e => if negb (e =? i_exp inc)%nat then (Err AssertionError, r) else finish i r
          | None => finish i r
          end
      end
  | None =>
      let '(i, r) := add_increment (match experiment with Some e => e | None => 0%nat end) r in
      finish i r
  end.
(** defdap/experiment.py 27-28: index from either end. *)
Definition exp_get (e : nat) (k : Z) (r : registry) : res nat :=
  match nth_error (exps r) e with Some l => py_nth l k | None => Err AttributeError end.
(** 35-40: the generator keeps its place in the live list, [None] when it has ended; one
    [next] gives the place and map, or StopIteration. *)
Fixpoint next_from (name : txt) (incs : list increment) (l : list nat) (k : nat) : option (nat * nat) :=
  match l with
  | [] => None
  | i :: l =>
      match nth_error incs i with
      | Some inc => match dget name (i_maps inc) with Some m => Some (k, m) | None => next_from name incs l (S k) end
      | None => next_from name incs l (S k)
      end
  end.
Definition gen_next (e : nat) (name : txt) (g : option nat) (r : registry) : res (nat * nat) * option nat :=
  match g, nth_error (exps r) e with
  | Some k, Some l =>
      match next_from name (incs r) (skipn k l) k with
      | Some (i, m) => (Ok (i, m), Some (S i))
      | None => (Err StopIteration, None)
      end
  | _, _ => (Err StopIteration, None)
  end.
Fixpoint drain (fuel : nat) (e : nat) (name : txt) (g : option nat) (r : registry) : list (nat * nat) :=
  match fuel with
  | O => []
  | S fuel => match gen_next e name g r with (Ok x, g) => x :: drain fuel e name g r | (Err _, _) => [] end
  end.
(** [list(experiment.iter_over_maps(name))] *)
Definition iter_over_maps (e : nat) (name : txt) (r : registry) : list (nat * nat) :=
  drain (S (match nth_error (exps r) e with Some l => List.length l | None => 0%nat end)) e name (Some 0%nat) r.
