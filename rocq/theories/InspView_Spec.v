(** Vocabulary for the inspector's window. *)
From Coq Require Import String Ascii Reals.
From Coq Require Import List ZArith Bool.
Import ListNotations.
From Verif Require Import Py Text_Model Insp_Model Insp_Spec InspView_Model.
Open Scope Z_scope.

(** The grain [j] is the one whose lines are edited, and its id is the one asked for last. *)
Definition on_grain (s : insp) (j : nat) (g : grain) : Prop :=
  i_sel s = j /\ place (List.length (i_grains s)) (i_id s) j /\ nth_error (i_grains s) j = Some g.
(** The number and ends of each line. *)
Definition numbered_lines (g : grain) : list (nat * list Z) := combine (seq 0 (List.length (pts g))) (map l_pts (pts g)).
(** The window is about grain [j]: id, picture, unit cell and slip traces are its own. *)
Definition about (v : view) (s : insp) (j : nat) : Prop :=
  v_id v = i_id s /\ v_picture v = Some j /\ v_cell v = j /\ v_traces v = Some j.
(** Files that are loaded are for the grains of the map. *)
Fixpoint fits (n : nat) (evs : list event) : Prop :=
  match evs with [] => True | Load gs :: evs => List.length gs = n /\ fits n evs | _ :: evs => fits n evs end.
(** Events after which the picture has been drawn anew. *)
Definition draws_anew (ev : event) : bool :=
  match ev with Load _ | Do (ARemove _) | Do AClear | Do APrev | Do ANext | Do (AGoto _) => true | _ => false end.
