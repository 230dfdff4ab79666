(** Vocabulary for what maps show. *)
From Coq Require Import String Ascii Reals ZArith Bool.
From Coq Require Import List.
From Verif Require Import Py Grid Base_Model Base_Spec Quat_Model Pole_Model Ipf_Model Text_Model Ebsd_Model GrainState_Model GrainState_Spec MapView_Model.
Import ListNotations.
Open Scope Z_scope.

(** The parts of a grain of the map. *)
Definition gconst (x : mgrain) : consts := fst (fst x).
Definition gpoints (x : mgrain) : list pix := snd (fst x).
Definition gstate (x : mgrain) : grain := snd x.
(** A map of grains: the points lie on the map, no point is in two grains or twice in one, and
    each point has an orientation. *)
Definition good_map (W H : Z) (gs : list mgrain) : Prop :=
  good_grains W H (map gpoints gs) /\ forall x, In x gs -> List.length (gpoints x) = List.length (c_oris (gconst x)).
(** A grain on which anything was called, but whose reference was not set from outside. *)
Definition used (x : mgrain) : Prop :=
  exists ops, (forall o, In o ops -> sets_ref o = false) /\ gstate x = run (gconst x) ops new_grain.
(** The phases asked for. *)
Definition phase_wanted (names : list string) (phases : option (list Z)) (i : Z) : Prop :=
  match phases with Some ids => In i ids | None => 0 <= i < Z.of_nat (List.length names) end.
Definition phases_ok (names : list string) (phases : option (list Z)) : Prop :=
  (forall ids i, phases = Some ids -> In i ids -> 0 <= i < Z.of_nat (List.length names)) /\
  forall n, In n names -> n = "cubic"%string \/ n = "hexagonal"%string.
(** The colour of one orientation on its own. *)
Definition own_colour (n : string) (d : vec3) (default : string) (q : quat) (c : option (R * R * R)) : Prop :=
  calc_ipf_colours [q] d n default = Ok [c].
(** Component numbers whose labels have one digit. *)
Definition one_digit (l : list Z) : Prop := forall i, In i l -> 0 <= i <= 8.
(** [u] is [t] with spaces for underscores. *)
Definition spaces_for_underscores (t u : txt) : Prop :=
  Forall2 (fun a b => (a = "_"%char -> b = " "%char) /\ (a <> "_"%char -> b = a)) t u.
(** The label of a component, between the name of the data and the unit. *)
Definition in_brackets (t : txt) : txt := lit " (" ++ t ++ lit ")".
