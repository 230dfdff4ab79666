(** Vocabulary for histories of calls on a DIC map. *)
From Coq Require Import String Reals ZArith.
From Coq Require Import List.
From Verif Require Import Py Grid Base_Model Dic_Model Dic_Spec DicState_Model.
Import ListNotations.
Open Scope Z_scope.

(** The last value that the calls give, if any gives one. *)
Fixpoint last_of {K B : Type} (f : K -> option B) (calls : list K) : option B :=
  match calls with
  | [] => None
  | c :: calls => match last_of f calls with Some b => Some b | None => f c end
  end.
Definition or0 (o : option Z) : Z := match o with Some z => z | None => 0 end.

(** What single calls give. *)
Definition left_of {X C E} (c : call X C E) := match c with SetCrop _ _ _ l _ _ _ _ => l | _ => None end.
Definition right_of {X C E} (c : call X C E) := match c with SetCrop _ _ _ _ r _ _ _ => r | _ => None end.
Definition top_of {X C E} (c : call X C E) := match c with SetCrop _ _ _ _ _ t _ _ => t | _ => None end.
Definition bottom_of {X C E} (c : call X C E) := match c with SetCrop _ _ _ _ _ _ b _ => b | _ => None end.
Definition pattern_of {X C E} (c : call X C E) := match c with SetPattern _ _ _ i w => Some (i, w) | _ => None end.
Definition linked_of {X C E} (c : call X C E) := match c with LinkEbsd _ _ _ e => Some e | _ => None end.
Definition corr_of {X C E} (c : call X C E) := match c with LoadCorr _ _ _ i => Some i | _ => None end.

(** Kinds of calls. *)
Definition sets_mask {X C E} (c : call X C E) : Prop := match c with SetMask _ _ _ _ _ => True | _ => False end.
Definition sets_crop {X C E} (c : call X C E) : Prop := match c with SetCrop _ _ _ _ _ _ _ _ => True | _ => False end.
(** The call may change where grains are. *)
Definition moves_grains {X C E} (c : call X C E) : Prop :=
  match c with SetCrop _ _ _ _ _ _ _ _ => True | LinkEbsd _ _ _ _ => True | SetPoints _ _ _ _ => True | _ => False end.
(** Homologous points are given as pairs. *)
Definition good_points {X C E} (c : call X C E) : Prop :=
  match c with SetPoints _ _ _ pts => pairs pts | _ => True end.

(** Distances cut from the four sides of a map [w] by [h] that leave something or nothing. *)
Definition fits (w h l r t b : Z) : Prop := 0 <= l /\ 0 <= r /\ l + r <= w /\ 0 <= t /\ 0 <= b /\ t + b <= h.
