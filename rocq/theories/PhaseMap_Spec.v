(** Vocabulary for labels on maps. *)
From Coq Require Import String Reals.
From Coq Require Import List ZArith Bool.
Import ListNotations.
From Verif Require Import Py Grid Base_Model Base_Spec PhaseMap_Model.
Open Scope Z_scope.

(** The name of phase [i] of the map; 0 is no phase. *)
Definition phase_name (names : list string) (i : nat) (s : string) : Prop :=
  match i with O => s = "Non-indexed"%string | S i => nth_error names i = Some s end.
(** Limits as the caller gave them: the lower is not above the upper (limits not given are 0 and the
    number of phases; None stands for the least and greatest phase). *)
Definition limit_low (W H : Z) (phase : pix -> Z) (vmin : option (option R)) (x : R) : Prop :=
  match vmin with
  | None => x = 0%R
  | Some (Some y) => x = y
  | Some None => (exists p, inside W H p /\ x = IZR (phase p)) /\ forall p, inside W H p -> (x <= IZR (phase p))%R
  end.
Definition limit_high (W H : Z) (names : list string) (phase : pix -> Z) (vmax : option (option R)) (x : R) : Prop :=
  match vmax with
  | None => x = INR (List.length names)
  | Some (Some y) => x = y
  | Some None => (exists p, inside W H p /\ x = IZR (phase p)) /\ forall p, inside W H p -> (IZR (phase p) <= x)%R
  end.
(** Grain labels of a map: grain [k] has label [k + 1] at its pixels. *)
Definition labelled (grains : list (list pix)) (labels : pix -> Z) : Prop :=
  forall k g p, nth_error grains k = Some g -> In p g -> labels p = Z.of_nat k + 1.
(** The sides of a pixel. *)
Definition next_to (p q : pix) : Prop := Z.abs (fst p - fst q) + Z.abs (snd p - snd q) = 1.
