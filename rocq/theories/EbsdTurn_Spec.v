(** Vocabulary for maps described in another way, and for turned maps. *)
From Coq Require Import String Reals.
From Coq Require Import List ZArith Bool.
From Verif Require Import Py Grid Quat_Model Quat_Spec Boundary_Model Ebsd_Model Ebsd_Spec EbsdState_Model EbsdLoad_Model EbsdLoad_Spec.
Import ListNotations.
Open Scope Z_scope.

Section Words.
Variables K G : Type.
Notation ebsd := (ebsd K G).
Notation inmap e p := (inside (e_cols K G e) (e_rows K G e) p).

(** Two maps of the same size and phases. *)
Definition same_phases (e e' : ebsd) : Prop :=
  e_rows K G e' = e_rows K G e /\ e_cols K G e' = e_cols K G e /\ e_phases K G e' = e_phases K G e /\
  em_primary K G (e_map K G e') = em_primary K G (e_map K G e) /\
  forall p, inmap e p -> em_phase K G (e_map K G e') p = em_phase K G (e_map K G e) p.
(** The second describes the crystals of the first in axes of the sample that differ by the
    rotation [r], and each by any of its symmetric equivalents. *)
Definition described (g : string) (r : quat) (e e' : ebsd) : Prop :=
  exists ori ori', shows_ori K G e ori /\ shows_ori K G e' ori' /\
  forall p, inmap e p -> equivalent (sym_eqv g) (hprod (ori p) r) (ori' p).

(** What is on the map, and what [rotate_data] raises. *)
Definition rotated (e : ebsd) : ebsd * res unit :=
  let '(m, x) := rotate (e_cols K G e) (e_rows K G e) K G (e_map K G e) in
  (EBSD K G (e_rows K G e) (e_cols K G e) (e_step K G e) (e_phases K G e) m, x).
(** Loaded with band contrast and band slope, and orientations not yet read. *)
Definition unread (e : ebsd) : Prop :=
  (exists bc bs, em_bc K G (e_map K G e) = Some bc /\ em_bs K G (e_map K G e) = Some bs) /\ em_ori K G (e_map K G e) = None.
End Words.

(** Labels, and grains with their phases, that are those of another map turned by 180 degrees. *)
Definition turned_grains (W H : Z) (lab : pix -> Z) (gl : glist) (lab' : pix -> Z) (gl' : glist) : Prop :=
  (forall p, inside W H p -> (0 < lab p <-> 0 < lab' (turned W H p)) /\ (lab p <= 0 -> lab' (turned W H p) = lab p)) /\
  (forall p q, inside W H p -> inside W H q -> 0 < lab p -> (lab q = lab p <-> lab' (turned W H q) = lab' (turned W H p))) /\
  (forall k pts, nth_error (fst gl) k = Some pts -> exists k' pts', nth_error (fst gl') k' = Some pts' /\
     List.length pts' = List.length pts /\ (forall p, In p pts <-> inside W H p /\ In (turned W H p) pts') /\
     nth_error (snd gl') k' = nth_error (snd gl) k) /\
  List.length (fst gl') = List.length (fst gl).
