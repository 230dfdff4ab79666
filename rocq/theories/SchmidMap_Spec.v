(** Vocabulary for maps of Schmid factors. *)
From Coq Require Import String Ascii Reals ZArith Bool.
From Coq Require Import List.
From Verif Require Import Py Grid Base_Model Quat_Model Crystal_Model Ebsd_Model GrainState_Model GrainState_Spec MapView_Model MapView_Spec.
Import ListNotations.
Open Scope Z_scope.

(** The slip systems used for a grain: those given, else those of its phase. *)
Definition systems_for (given : option (list (list slip_system))) (x : mgrain) : option (list (list slip_system)) :=
  match given with Some s => Some s | None => c_systems (gconst x) end.
(** Position [i] of a list, negative positions counted from the end. *)
Definition at_position {A} (l : list A) (i : Z) (a : A) : Prop :=
  exists k, (i = Z.of_nat k \/ i = Z.of_nat k - Z.of_nat (List.length l)) /\ nth_error l k = Some a.
(** The slip system is in a plane of the list of planes, all if there is none, and at a position
    in the list of directions, all if there is none. *)
Definition asked (groups : list (list slip_system)) (planes directions : option (list Z)) (s : slip_system) : Prop :=
  exists p d grp, (forall ps, planes = Some ps -> In p ps) /\ (forall ds, directions = Some ds -> In d ds) /\
    at_position groups p grp /\ at_position grp d s.
(** All positions in the lists exist. *)
Definition choices_exist (groups : list (list slip_system)) (planes directions : option (list Z)) : Prop :=
  forall ps p, planes = Some ps -> In p ps -> exists grp, at_position groups p grp /\
    forall ds d, directions = Some ds -> In d ds -> exists s, at_position grp d s.
(** The greatest Schmid factor of the systems asked for. *)
Definition greatest_factor (q : quat) (load : vec3) (groups : list (list slip_system)) (planes directions : option (list Z)) (m : R) : Prop :=
  (exists s, asked groups planes directions s /\ schmid_factor q load s = m) /\
  forall s, asked groups planes directions s -> (schmid_factor q load s <= m)%R.
(** Two states of a grain agree but for the reference and the factors. *)
Definition other_data (g g' : grain) : Prop :=
  g_mis g' = g_mis g /\ g_axes g' = g_axes g /\ g_rdr g' = g_rdr g /\ g_angles g' = g_angles g /\ g_incls g' = g_incls g /\ g_grod g' = g_grod g.
(** The table of factors of a grain for a direction of load. *)
Definition factors_for (load : vec3) (r : option quat) (groups : list (list slip_system)) : list (list (option R)) :=
  map (map (factor_of r load)) groups.
(** The ratio of a slip system for a reference orientation. *)
Definition ratio_at (r : option quat) (s : slip_system) : option R := match r with Some q => grain_rdr q (slip_dir s) | None => None end.
