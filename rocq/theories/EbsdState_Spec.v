(** Vocabulary for histories of calls on an EBSD map. *)
From Coq Require Import String Reals.
From Coq Require Import List ZArith Bool.
From Verif Require Import Py Grid Quat_Model Boundary_Model Base_Model Ebsd_Model EbsdState_Model DicState_Spec.
Import ListNotations.
Open Scope Z_scope.

Section Words.
Variables W H : Z.
Variable names : list string.
Variables K G T : Type.
Variable kam_of : oimage -> res K.
Variable nye_of : string -> oimage -> res (G * T).
Variable filtered : R -> oimage -> oimage.
Notation emap := (emap K G).

(** What a user of the map can see, reading everything. *)
Record view := View {
  v_euler : pix -> R * R * R; v_bc : option (pix -> Z); v_bs : option (pix -> Z); v_phase : pix -> Z;
  v_ori : oimage; v_bounds : res (bset * bset); v_labels : res (pix -> Z); v_list : res glist;
  v_kam : res K; v_gnd : res G; v_nye : res T; v_prox : res (pix -> R); v_net : option (list seg)
}.
Definition shows (s : emap) : view :=
  View (em_euler K G s) (em_bc K G s) (em_bs K G s) (em_phase K G s) (ori_of K G s)
    (snd (read_bounds W H names K G s)) (snd (read_labels W H names K G s)) (snd (read_list W H names K G s))
    (snd (read_kam K G kam_of s)) (snd (read_gnd names K G T nye_of s)) (snd (read_nye names K G T nye_of s))
    (snd (read_prox W H names K G s)) (em_net K G s).

(** Calls that only read. *)
Definition reads (c : call) : Prop :=
  match c with ReadOri | ReadBounds | ReadGrains | ReadKam | ReadGnd | ReadNye | ReadProx => True | _ => False end.

(** Orientations, phases and primary phase come first (0); boundaries, KAM and GND follow from
    them (1), grains and proxigram from the boundaries (2), the network from the grains (3).
    How far down a call calculates: *)
Definition calculates (c : call) : nat :=
  match c with
  | ReadOri | GenOri | Rotate | Filter _ | SetPrimary _ => 0
  | ReadBounds | GenBounds _ | ReadKam | GenKam | ReadGnd | ReadNye | GenNye => 1
  | ReadGrains | GenGrains _ | FindGrains _ | ReadProx | GenProx _ => 2
  | BuildNet => 3
  end.
(** And at which place it may put something other than what is there: *)
Definition changes (c : call) : nat :=
  match c with
  | GenOri | Rotate | Filter _ | SetPrimary _ => 0
  | GenBounds _ => 1
  | GenGrains _ => 2
  | _ => 3
  end.
(** Nothing is changed once something that follows from it has been calculated. *)
Fixpoint downwards (h : list call) : Prop :=
  match h with [] => True | c :: h => (forall d, In d h -> (calculates c <= changes d)%nat) /\ downwards h end.
Definition no_direct (h : list call) : Prop := forall n, ~ In (FindGrains n) h.

(** The tolerance asked for last; 10 degrees otherwise. *)
Definition tolerance (h : list call) : R :=
  match last_of (fun c => match c with GenBounds t => Some t | _ => None end) h with Some t => t | None => 10%R end.

(** All that is stored follows from the orientations, phases and primary phase the map has now. *)
Record current (tol : R) (s : emap) : Prop := {
  cur_bounds : forall b, em_bounds K G s = Some b ->
    exists g, structure names K G s = Ok g /\ b = bounds_of W H g (ori_of K G s) (em_phase K G s) tol;
  cur_grains : forall lab, em_labels K G s = Some lab -> exists b n gl, em_bounds K G s = Some b /\
    grains_of W H (Z.of_nat (List.length names)) b (em_phase K G s) n = Ok (lab, gl) /\ em_list K G s = Some gl;
  cur_kam : forall k, em_kam K G s = Some k -> kam_of (ori_of K G s) = Ok k;
  cur_gnd : forall d, em_gnd K G s = Some d -> exists g t, structure names K G s = Ok g /\ nye_of g (ori_of K G s) = Ok (d, t);
  cur_prox : forall d, em_prox K G s = Some d -> exists b n, em_bounds K G s = Some b /\ calc_proxigram (bs_points (snd b)) n = Ok d;
  cur_net : forall net, em_net K G s = Some net -> exists b lab gl, em_bounds K G s = Some b /\ em_labels K G s = Some lab /\
    em_list K G s = Some gl /\ network_of W H b lab gl = Ok net
}.

(** Calls made one after the other, none of which raises. *)
Inductive succeed : list call -> emap -> emap -> Prop :=
| succeed_nil : forall s, succeed [] s s
| succeed_cons : forall c cs s s1 s2, step W H names K G T kam_of nye_of filtered s c = (s1, Ok tt) -> succeed cs s1 s2 -> succeed (c :: cs) s s2.
End Words.
