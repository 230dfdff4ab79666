(** Picking points and looking up maps, in words. *)
From Coq Require Import String Ascii Reals.
From Coq Require Import List ZArith Bool.
Import ListNotations.
From Verif Require Import Py Base_Model Crystal_Model Text_Model Io_Model Homog_Model.
Open Scope Z_scope.

(** The points on the k-th layer of points of a plot. *)
Definition layer_of (k : nat) (p : pplot) : option (list (num * num)) :=
  match nth_error (ids p) k with Some i => nth_error (layers p) i | None => None end.
(** What shows the points of the frame: at their places times the binning, or nothing. *)
Definition shows (b : R) (pts : list (R * R)) : list (num * num) :=
  match pts with [] => [(NaN, NaN)] | _ => map (fun p => (Fin (fst p * b), Fin (snd p * b))) pts end.

(** A right click, or a left click with shift. *)
Definition selects (button : Z) (key : option txt) : Prop := button = 3 \/ button = 1 /\ key = Some (lit "shift").

(** An arrow key pressed with modifiers. *)
Inductive arrow := ALeft | ARight | AUp | ADown.
Definition arrow_text (a : arrow) : txt :=
  lit (match a with ALeft => "left" | ARight => "right" | AUp => "up" | ADown => "down" end).
Record press := Press { mods : list txt; arr : arrow }.
Definition press_text (p : press) : txt := join "+" (mods p ++ [arrow_text (arr p)]).
Definition proper (p : press) : Prop := forall m, In m (mods p) -> ~ In "+"%char m.
(** Ten pixels with shift alone, one otherwise. *)
Definition amount (p : press) : Z := if list_eq_dec (list_eq_dec ascii_dec) (mods p) [lit "shift"] then 10 else 1.
Definition go_x (p : press) : Z := match arr p with ALeft => - amount p | ARight => amount p | _ => 0 end.
Definition go_y (p : press) : Z := match arr p with AUp => - amount p | ADown => amount p | _ => 0 end.
Definition total (f : press -> Z) (ps : list press) : Z := fold_right Z.add 0 (map f ps).
Definition press_event (p : press) : event := Key (Some (press_text p)).

(** The exceptions of a session. *)
Fixpoint complaints (b : R) (es : list event) (s : picker) : list exn :=
  match es with
  | [] => []
  | e :: es => (match snd (on_event b e s) with Some x => [x] | None => [] end) ++ complaints b es (fst (on_event b e s))
  end.

(** The pixel drawn at a position: pixel i is drawn from i - 1/2 to i + 1/2. *)
Definition drawn_at (x : R) (i : Z) : Prop := (IZR i - 1 / 2 <= x < IZR i + 1 / 2)%R.

(** ** Maps *)
Definition has_map (r : registry) (i : nat) (name : txt) (m : nat) : Prop :=
  exists inc, nth_error (incs r) i = Some inc /\ dget name (i_maps inc) = Some m.
(** The registries a program can make. *)
Inductive made : registry -> Prop :=
| made_start : made registry0
| made_exp : forall r, made r -> made (snd (new_experiment r))
| made_inc : forall r e, made r -> (e < List.length (exps r))%nat -> made (snd (add_increment e r))
| made_map : forall r e i name mn loads, made r -> (forall e', e = Some e' -> (e' < List.length (exps r))%nat) ->
    made (snd (new_map e i name mn loads r)).
