(** Vocabulary for what DIC grains say about their crystal. *)
From Coq Require Import String Ascii Reals.
From Coq Require Import List ZArith Bool.
From Verif Require Import Py Grid Base_Model Quat_Model Crystal_Model GrainState_Model DicGrains_Model DicCrystal_Model.
Import ListNotations.
Open Scope Z_scope.

(** Calls that find no grains anew. *)
Definition finds_e (e : event) : bool := match e with EFind _ | EGenerate _ => true | _ => false end.
Definition finds_d (e : event) : bool := match e with DFind _ | DGenerate _ => true | _ => false end.
Definition quiet (es : list event) : Prop := forall e, In e es -> finds_e e = false /\ finds_d e = false.
(** The same call on an EBSD grain. *)
Definition same_call (c : dcall) (c' : ecall) : Prop :=
  match c with
  | DRef => c' = GetRef | DPhase => c' = GetPhase | DTraces => c' = Do ReadTraces
  | DCalc s => c' = Do (CalcTraces s) | DPoints => False
  end.
(** Grains found so that the grain at position k has the pixels with label k + 1. *)
Definition labelled (f : found) : Prop := forall k pts K, nth_error (f_grains f) k = Some (pts, K) ->
  forall q, In q pts <-> f_labels f q = Z.of_nat k + 1.
(** Grains found directly, not through the data of the map. *)
Definition direct (e : event) : bool := match e with EFind _ => true | _ => false end.
Definition all_labelled (es : list event) : Prop := forall f, In (EGenerate f) es -> labelled f.
(** Nothing sets a reference orientation by hand. *)
Definition sets (e : event) : bool := match e with ECall _ (Do (SetRef _)) | EAll (SetRef _) => true | _ => false end.
