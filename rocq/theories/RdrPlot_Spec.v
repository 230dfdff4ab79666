(** Vocabulary for the window of a relative displacement ratio. *)
From Coq Require Import String Ascii Reals.
From Coq Require Import List ZArith Bool.
Import ListNotations.
From Verif Require Import Py Grid Quat_Model Crystal_Model Eqv_Model Ebsd_Model Insp_Model Insp_Spec GrainState_Spec RdrPlot_Model.
Open Scope Z_scope.

(** The ratio of a slip system for the orientation [r], if both are defined. *)
Definition ratio_of (r : option quat) (s : slip_system) : option R :=
  match r with Some q => grain_rdr q (slip_dir s) | None => None end.
Definition has_ratio (r : option quat) (y : R) (s : slip_system) : bool :=
  match ratio_of r s with Some z => if Req_EM_T z y then true else false | None => false end.
(** The names of a slip system. *)
Definition named (s : slip_system) (pd : list glyph * list glyph) : Prop :=
  slip_plane_label s = Ok (fst pd) /\ slip_dir_label s = Ok (snd pd).
(** The row for plane [i] of the phase: its first system names the plane; bold if the plane is one of
    the [planes] of the group; every system with its direction, Schmid factor and ratio. *)
Definition row_shows (r : option quat) (load : vec3) (planes : list Z) (i : nat) (grp : list slip_system) (row : plane_row) : Prop :=
  (exists s, hd_error grp = Some s /\ slip_plane_label s = Ok (p_label row)) /\
  (p_bold row = true <-> In (Z.of_nat i) planes) /\
  p_angle row = option_map (fun a => a * 180 / PI)%R (trace_of r grp) /\
  Forall2 (fun s t => let '(d, f, y) := t in slip_dir_label s = Ok d /\ f = factor_of r load s /\ y = ratio_of r s) grp (p_systems row).
(** The number of lines of text of the planes before plane [i]. *)
Fixpoint lines_above (groups : list (list slip_system)) (i : nat) : nat :=
  match groups, i with grp :: groups, S i => (1 + List.length grp + lines_above groups i)%nat | _, _ => O end.
(** The height in the window, of which the text's axes take the part from 5% to 90%. *)
Definition window_height (y : R) : R := (5 / 100 + 85 / 100 * y)%R.
(** The deviations of the samples from the mean of their row: v and u. *)
Definition deviations (u v : pix -> R) (rows : list (list pix)) : list (R * R) :=
  concat (map (fun row => map (fun p => (row_dev v row p, row_dev u row p)) row) rows).
