(** Theorems about histories of calls on an EBSD map. *)
From Coq Require Import String Reals.
From Coq Require Import List ZArith Bool Lia Lra.
From Verif Require Import Py Grid Quat_Model Boundary_Model Base_Model Ebsd_Model EbsdState_Model DicState_Spec EbsdState_Spec
  Quat_Spec Quat_Proofs Boundary_Proofs BoundaryOri_Proofs Ebsd_Proofs Boundary_Props QuatEuler_Proofs Base_Proofs.
Import ListNotations.
Open Scope Z_scope.

Section Props.
Variables W H : Z.
Variable names : list string.
Variables K G T : Type.
Variable kam_of : oimage -> res K.
Variable nye_of : string -> oimage -> res (G * T).
Variable filtered : R -> oimage -> oimage.
Notation emap := (emap K G).
Notation step := (step W H names K G T kam_of nye_of filtered).
Notation run := (run W H names K G T kam_of nye_of filtered).
Notation shows := (shows W H names K G T kam_of nye_of).
Notation current := (current W H names K G T kam_of nye_of).
Notation succeed := (succeed W H names K G T kam_of nye_of filtered).


Notation em_euler := (em_euler K G). Notation em_bc := (em_bc K G). Notation em_bs := (em_bs K G). Notation em_phase := (em_phase K G).
Notation em_primary := (em_primary K G). Notation em_ori := (em_ori K G). Notation em_bounds := (em_bounds K G). Notation em_labels := (em_labels K G).
Notation em_list := (em_list K G). Notation em_kam := (em_kam K G). Notation em_gnd := (em_gnd K G). Notation em_prox := (em_prox K G). Notation em_net := (em_net K G).
Notation ori_of := (ori_of K G). Notation keep_ori := (keep_ori K G). Notation structure := (structure names K G).
Notation read_bounds := (read_bounds W H names K G). Notation gen_bounds := (gen_bounds W H names K G).
Notation call_find_grains := (call_find_grains W H names K G). Notation gen_grains := (gen_grains W H names K G).
Notation read_labels := (read_labels W H names K G). Notation read_list := (read_list W H names K G).
Notation gen_kam := (gen_kam K G kam_of). Notation read_kam := (read_kam K G kam_of).
Notation gen_nye := (gen_nye names K G T nye_of). Notation read_gnd := (read_gnd names K G T nye_of). Notation read_nye := (read_nye names K G T nye_of).
Notation gen_prox := (gen_prox W H names K G). Notation read_prox := (read_prox W H names K G). Notation build_net := (build_net W H names K G).
Notation np := (Z.of_nat (List.length names)).

(** What reading gives, without what it stores. *)
Definition rb (s : emap) : res (bset * bset) :=
  match em_bounds s with Some b => Ok b | None => do g <- structure s; Ok (bounds_of W H g (ori_of s) (em_phase s) 10) end.
Definition rg (n : Z) (s : emap) : res ((pix -> Z) * glist) := do b <- rb s; grains_of W H np b (em_phase s) n.
Definition rl (s : emap) : res (pix -> Z) := match em_labels s with Some l => Ok l | None => do r <- rg 10 s; Ok (fst r) end.
Definition ri (s : emap) : res glist :=
  match em_labels s with Some _ => match em_list s with Some gl => Ok gl | None => Err TypeError end | None => do r <- rg 10 s; Ok (snd r) end.
Definition rk (s : emap) : res K := match em_kam s with Some k => Ok k | None => kam_of (ori_of s) end.
Definition rn (s : emap) : res (G * T) := do g <- structure s; nye_of g (ori_of s).
Definition rd (s : emap) : res G := match em_gnd s with Some d => Ok d | None => do r <- rn s; Ok (fst r) end.
Definition rp (s : emap) : res (pix -> R) := match em_prox s with Some d => Ok d | None => do b <- rb s; calc_proxigram (bs_points (snd b)) (Z.to_nat 500) end.

(** Nothing differs but what was not stored and is now stored as it was read before. *)
Definition same_base (s s' : emap) : Prop :=
  em_euler s' = em_euler s /\ em_bc s' = em_bc s /\ em_bs s' = em_bs s /\ em_phase s' = em_phase s /\ em_primary s' = em_primary s /\ ori_of s' = ori_of s.
Record settled (s s' : emap) : Prop := {
  st_base : same_base s s';
  st_bounds : em_bounds s' = em_bounds s \/ em_bounds s = None /\ exists b, rb s = Ok b /\ em_bounds s' = Some b;
  st_grains : (em_labels s' = em_labels s /\ (em_labels s = None \/ em_list s' = em_list s)) \/
    (em_labels s = None /\ em_bounds s' <> None /\ exists r, rg 10 s = Ok r /\ em_labels s' = Some (fst r) /\ em_list s' = Some (snd r));
  st_kam : em_kam s' = em_kam s \/ em_kam s = None /\ exists k, rk s = Ok k /\ em_kam s' = Some k;
  st_gnd : em_gnd s' = em_gnd s \/ em_gnd s = None /\ exists d, rd s = Ok d /\ em_gnd s' = Some d;
  st_prox : em_prox s' = em_prox s \/ em_prox s = None /\ em_bounds s' <> None /\ exists d, rp s = Ok d /\ em_prox s' = Some d;
  st_net : em_net s' = em_net s
}.
Lemma settled_reads : forall s s', settled s s' -> rb s' = rb s /\ rg 10 s' = rg 10 s /\ rl s' = rl s /\ ri s' = ri s /\ rk s' = rk s /\ rn s' = rn s /\ rd s' = rd s /\ rp s' = rp s.
Proof.
  intros s s' [(B1 & B2 & B3 & B4 & B5 & B6) SB SG SK SD SP SN].
  assert (ES : structure s' = structure s) by (unfold EbsdState_Model.structure; now rewrite B5).
  assert (EB : rb s' = rb s).
  { unfold rb. rewrite ES, B6, B4. destruct SB as [->|(E & b & R & ->)]; [reflexivity|]. unfold rb in R. rewrite E in R |- *. now rewrite R. }
  assert (EG : forall n, rg n s' = rg n s) by (intros n; unfold rg; now rewrite EB, B4).
  assert (EN : rn s' = rn s) by (unfold rn; now rewrite ES, B6).
  split; [exact EB|]. split; [apply EG|]. split; [|split; [|split; [|split; [exact EN|split]]]].
  - unfold rl. rewrite EG. destruct SG as [[-> _]|(E & _ & r & R & -> & _)]; [reflexivity|]. now rewrite E, R.
  - unfold ri. rewrite EG. destruct SG as [[-> [E| ->]]|(E & _ & r & R & -> & ->)]; [now rewrite E|reflexivity|]. now rewrite E, R.
  - unfold rk. rewrite B6. destruct SK as [->|(E & k & R & ->)]; [reflexivity|]. unfold rk in R. rewrite E in R |- *. now rewrite R.
  - unfold rd. rewrite EN. destruct SD as [->|(E & k & R & ->)]; [reflexivity|]. unfold rd in R. rewrite E in R |- *. now rewrite R.
  - unfold rp. rewrite EB. destruct SP as [->|(E & _ & k & R & ->)]; [reflexivity|]. unfold rp in R. rewrite E in R |- *. now rewrite R.
Qed.
Lemma settled_refl : forall s, settled s s.
Proof. intros s. constructor; auto. repeat split; reflexivity. Qed.
Lemma settled_trans : forall s s1 s2, settled s s1 -> settled s1 s2 -> settled s s2.
Proof.
  intros s s1 s2 A B. destruct (settled_reads _ _ A) as (E1 & E2 & _ & _ & E3 & _ & E4 & E5).
  destruct A as [(B1 & B2 & B3 & B4 & B5 & B6) SB SG SK SD SP SN], B as [(B1' & B2' & B3' & B4' & B5' & B6') SB' SG' SK' SD' SP' SN'].
  assert (SBN : em_bounds s1 <> None -> em_bounds s2 <> None) by (destruct SB' as [->|(E & b & _ & ->)]; congruence).
  constructor.
  - repeat split; congruence.
  - destruct SB' as [E|(E & b & R & F)]; [rewrite E; exact SB|]. right. destruct SB as [E0|(E0 & b0 & R0 & F0)]; [|congruence].
    split; [congruence|]. exists b. split; [congruence|exact F].
  - destruct SG' as [[E D]|(E & NB & r & R & F & F')].
    + rewrite E. destruct SG as [[E0 D0]|(E0 & NB & r0 & R0 & F0 & F0')].
      * left. split; [exact E0|]. destruct D0 as [D0|D0]; [auto|]. destruct D as [D|D]; [left; congruence|right; congruence].
      * right. split; [exact E0|]. split; [auto|]. exists r0. split; [exact R0|]. split; [exact F0|]. destruct D as [D|D]; [congruence|congruence].
    + destruct SG as [[E0 D0]|(E0 & NB0 & r0 & R0 & F0 & F0')]; [|congruence]. right. split; [congruence|]. split; [exact NB|]. exists r. split; [congruence|auto].
  - destruct SK' as [E|(E & b & R & F)]; [rewrite E; exact SK|]. right. destruct SK as [E0|(E0 & b0 & R0 & F0)]; [|congruence].
    split; [congruence|]. exists b. split; [congruence|exact F].
  - destruct SD' as [E|(E & b & R & F)]; [rewrite E; exact SD|]. right. destruct SD as [E0|(E0 & b0 & R0 & F0)]; [|congruence].
    split; [congruence|]. exists b. split; [congruence|exact F].
  - destruct SP' as [E|(E & NB & b & R & F)].
    { rewrite E. destruct SP as [E0|(E0 & NB & b0 & R0 & F0)]; [now left|]. right. eauto 6. }
    right. destruct SP as [E0|(E0 & NB0 & b0 & R0 & F0)]; [|congruence]. split; [congruence|]. split; [exact NB|]. exists b. split; [congruence|exact F].
  - congruence.
Qed.

(** * What the functions store and return *)
Lemma keep_ok : forall s, ori_of (keep_ori s) = ori_of s /\ settled s (keep_ori s).
Proof. intros s. split; [reflexivity|]. constructor; cbn; auto. repeat split; reflexivity. Qed.
Definition rest (s s' : emap) : Prop :=
  same_base s s' /\ em_labels s' = em_labels s /\ em_list s' = em_list s /\ em_kam s' = em_kam s /\ em_gnd s' = em_gnd s /\ em_prox s' = em_prox s /\ em_net s' = em_net s.
Lemma bounds_ok : forall s, exists s', read_bounds s = (s', rb s) /\ rest s s' /\ settled s s' /\
  (em_bounds s' = match rb s with Ok b => Some b | Err _ => None end).
Proof.
  intros s. unfold EbsdState_Model.read_bounds, EbsdState_Model.gen_bounds, rb. destruct (em_bounds s) as [b|] eqn:E.
  - exists s. split; [reflexivity|]. split; [repeat split; reflexivity|]. split; [apply settled_refl|exact E].
  - destruct (structure s) as [g|e] eqn:ES; cbn [bind].
    + eexists. split; [reflexivity|]. split; [repeat split; reflexivity|]. split; [|reflexivity].
      constructor; cbn; auto; [repeat split; reflexivity|]. right. split; [exact E|]. eexists. split; [|reflexivity]. unfold rb. now rewrite E, ES.
    + exists s. split; [reflexivity|]. split; [repeat split; reflexivity|]. split; [apply settled_refl|exact E].
Qed.
Lemma find_ok : forall n s, exists s1, rest s s1 /\ settled s s1 /\ (em_bounds s1 = match rb s with Ok b => Some b | Err _ => None end) /\
  call_find_grains n s = match rg n s with Ok r => (set_grains K G s1 (em_labels s) (Some (snd r)), Ok (fst r)) | Err e => (s1, Err e) end.
Proof.
  intros n s. destruct (bounds_ok s) as (s1 & E & R & S1 & F). exists s1. split; [exact R|]. split; [exact S1|]. split; [exact F|].
  unfold EbsdState_Model.call_find_grains. rewrite E. unfold rg. destruct R as ((_ & _ & _ & P & _) & L & _). rewrite P.
  destruct (rb s) as [b|e]; cbn [bind]; [|reflexivity]. destruct (grains_of W H np b (em_phase s) n) as [[lab gl]|e]; [|reflexivity]. rewrite L. reflexivity.
Qed.
Lemma gen_grains_ok : forall n s, exists s1, rest s s1 /\ settled s s1 /\ (em_bounds s1 = match rb s with Ok b => Some b | Err _ => None end) /\
  gen_grains n s = match rg n s with Ok r => (set_grains K G s1 (Some (fst r)) (Some (snd r)), Ok (fst r)) | Err e => (s1, Err e) end.
Proof.
  intros n s. destruct (find_ok n s) as (s1 & R & S1 & F & E). exists s1. split; [exact R|]. split; [exact S1|]. split; [exact F|].
  unfold EbsdState_Model.gen_grains. rewrite E. destruct (rg n s) as [r|e]; reflexivity.
Qed.
Lemma grains_settled : forall s s1 r, rest s s1 -> settled s s1 -> (em_bounds s1 = match rb s with Ok b => Some b | Err _ => None end) -> em_labels s = None -> rg 10 s = Ok r -> settled s (set_grains K G s1 (Some (fst r)) (Some (snd r))).
Proof.
  intros s s1 r R S1 F E Er. apply (settled_trans _ _ _ S1). destruct (settled_reads _ _ S1) as (_ & Eg & _). destruct R as (_ & L & _).
  constructor; cbn; auto; [repeat split; reflexivity|]. right. split; [congruence|]. split; [rewrite F; unfold rg in Er; destruct (rb s); [discriminate|discriminate Er]|]. exists r. split; [congruence|auto].
Qed.
Lemma labels_ok : forall s, exists s', read_labels s = (s', rl s) /\ settled s s' /\ ri s = (do _ <- rl s; match em_list s' with Some gl => Ok gl | None => Err TypeError end) /\ (forall l, rl s = Ok l -> em_labels s' = Some l).
Proof.
  intros s. unfold EbsdState_Model.read_labels, rl, ri. destruct (em_labels s) as [l|] eqn:E.
  - exists s. split; [reflexivity|]. split; [apply settled_refl|]. split; [reflexivity|]. intros l0 [= <-]. exact E.
  - destruct (gen_grains_ok 10 s) as (s1 & R & S1 & F & ->). destruct (rg 10 s) as [r|e] eqn:Er; cbn [bind].
    + eexists. split; [reflexivity|]. split; [now apply grains_settled|]. split; [reflexivity|]. intros l [= <-]. reflexivity.
    + exists s1. split; [reflexivity|]. split; [exact S1|]. split; [reflexivity|discriminate].
Qed.
Lemma list_ok : forall s, exists s', read_list s = (s', ri s) /\ settled s s' /\ (forall gl, ri s = Ok gl -> em_list s' = Some gl /\ exists l, rl s = Ok l /\ em_labels s' = Some l).
Proof.
  intros s. destruct (labels_ok s) as (s' & E & S1 & R & L). exists s'. split; [|split; [exact S1|]].
  - unfold EbsdState_Model.read_list. rewrite E, R. reflexivity.
  - intros gl Eg. rewrite R in Eg. destruct (rl s) as [l|]; [|discriminate Eg]. cbn [bind] in Eg. destruct (em_list s') as [gl'|]; [|discriminate Eg]. split; [congruence|eauto].
Qed.
Lemma gen_kam_ok : forall s, gen_kam s = match kam_of (ori_of s) with Ok k => (set_kam K G (keep_ori s) (Some k), Ok k) | Err e => (keep_ori s, Err e) end.
Proof. intros s. unfold EbsdState_Model.gen_kam. change (ori_of (keep_ori s)) with (ori_of s). destruct (kam_of (ori_of s)); reflexivity. Qed.
Lemma kam_settled : forall s k, em_kam s = None -> kam_of (ori_of s) = Ok k -> settled s (set_kam K G (keep_ori s) (Some k)).
Proof.
  intros s k E F. constructor; cbn; auto; [repeat split; reflexivity|]. right. split; [exact E|]. exists k. split; [|reflexivity]. unfold rk. now rewrite E.
Qed.
Lemma kam_ok : forall s, exists s', read_kam s = (s', rk s) /\ settled s s'.
Proof.
  intros s. unfold EbsdState_Model.read_kam, rk. destruct (em_kam s) as [k|] eqn:E; [exists s; split; [reflexivity|apply settled_refl]|].
  rewrite gen_kam_ok. destruct (kam_of (ori_of s)) as [k|e] eqn:F; eexists; (split; [reflexivity|]); [now apply kam_settled|apply keep_ok].
Qed.
Lemma gen_nye_ok : forall s, exists s1, settled s s1 /\ rest s s1 /\ em_bounds s1 = em_bounds s /\
  gen_nye s = match rn s with Ok r => (set_gnd K G s1 (Some (fst r)), Ok r) | Err e => (s1, Err e) end.
Proof.
  intros s. unfold EbsdState_Model.gen_nye, rn. destruct (structure s) as [g|e]; cbn [bind].
  - exists (keep_ori s). split; [apply keep_ok|]. split; [repeat split; reflexivity|]. split; [reflexivity|]. change (ori_of (keep_ori s)) with (ori_of s). destruct (nye_of g (ori_of s)) as [[d t]|e]; reflexivity.
  - exists s. split; [apply settled_refl|]. split; [repeat split; reflexivity|]. split; reflexivity.
Qed.
Lemma gnd_settled : forall s s1 r, settled s s1 -> rest s s1 -> em_gnd s = None -> rn s = Ok r -> settled s (set_gnd K G s1 (Some (fst r))).
Proof.
  intros s s1 r S1 R E F. apply (settled_trans _ _ _ S1). destruct (settled_reads _ _ S1) as (_ & _ & _ & _ & _ & En & _). destruct R as (_ & _ & _ & _ & Eg & _).
  constructor; cbn; auto; [repeat split; reflexivity|]. right. split; [congruence|]. exists (fst r). split; [|reflexivity]. unfold rd. rewrite Eg, E, En, F. reflexivity.
Qed.
Lemma gnd_ok : forall s, exists s', read_gnd s = (s', rd s) /\ settled s s'.
Proof.
  intros s. unfold EbsdState_Model.read_gnd, rd. destruct (em_gnd s) as [d|] eqn:E; [exists s; split; [reflexivity|apply settled_refl]|].
  destruct (gen_nye_ok s) as (s1 & S1 & R & _ & ->). destruct (rn s) as [r|e] eqn:F; eexists; (split; [reflexivity|]); [now apply gnd_settled|exact S1].
Qed.
Lemma gen_prox_ok : forall n s, exists s1, rest s s1 /\ settled s s1 /\ (em_bounds s1 = match rb s with Ok b => Some b | Err _ => None end) /\
  gen_prox n s = match (do b <- rb s; calc_proxigram (bs_points (snd b)) n) with Ok d => (set_prox K G s1 (Some d), Ok d) | Err e => (s1, Err e) end.
Proof.
  intros n s. destruct (bounds_ok s) as (s1 & E & R & S1 & F). exists s1. split; [exact R|]. split; [exact S1|]. split; [exact F|].
  unfold EbsdState_Model.gen_prox. rewrite E. destruct (do b <- rb s; calc_proxigram (bs_points (snd b)) n); reflexivity.
Qed.
Lemma prox_settled : forall s s1 d, settled s s1 -> rest s s1 -> (em_bounds s1 = match rb s with Ok b => Some b | Err _ => None end) -> em_prox s = None -> rp s = Ok d -> settled s (set_prox K G s1 (Some d)).
Proof.
  intros s s1 d S1 R FB E F. apply (settled_trans _ _ _ S1). destruct (settled_reads _ _ S1) as (_ & _ & _ & _ & _ & _ & _ & Ep). destruct R as (_ & _ & _ & _ & _ & Eg & _).
  constructor; cbn; auto; [repeat split; reflexivity|]. right. split; [congruence|]. split; [rewrite FB; unfold rp in F; rewrite E in F; destruct (rb s); [discriminate|discriminate F]|].
  exists d. split; [congruence|reflexivity].
Qed.
Lemma prox_ok : forall s, exists s', read_prox s = (s', rp s) /\ settled s s'.
Proof.
  intros s. unfold EbsdState_Model.read_prox. destruct (em_prox s) as [d|] eqn:E; [exists s; unfold rp; rewrite E; split; [reflexivity|apply settled_refl]|].
  destruct (gen_prox_ok (Z.to_nat 500) s) as (s1 & R & S1 & FB & ->). assert (P : rp s = (do b <- rb s; calc_proxigram (bs_points (snd b)) (Z.to_nat 500))) by (unfold rp; now rewrite E).
  rewrite <- P. destruct (rp s) as [d|e] eqn:F; eexists; (split; [reflexivity|]); [now apply prox_settled|exact S1].
Qed.
Lemma shows_eq : forall s, shows s = View K G T (em_euler s) (em_bc s) (em_bs s) (em_phase s) (ori_of s) (rb s) (rl s) (ri s) (rk s) (rd s) (do r <- rn s; Ok (snd r)) (rp s) (em_net s).
Proof.
  intros s. unfold EbsdState_Spec.shows.
  destruct (bounds_ok s) as (s1 & -> & _). destruct (labels_ok s) as (s2 & -> & _ & _). destruct (list_ok s) as (s3 & -> & _ & _).
  destruct (kam_ok s) as (s4 & -> & _). destruct (gnd_ok s) as (s5 & -> & _). destruct (prox_ok s) as (s6 & -> & _). cbn [snd]. f_equal.
  unfold EbsdState_Model.read_nye. destruct (gen_nye_ok s) as (s7 & _ & _ & _ & ->). destruct (rn s); reflexivity.
Qed.
Lemma settled_shows : forall s s', settled s s' -> shows s' = shows s.
Proof.
  intros s s' S1. rewrite !shows_eq. destruct (settled_reads _ _ S1) as (-> & _ & -> & -> & -> & -> & -> & ->).
  destruct S1 as [(-> & -> & -> & -> & _ & ->) _ _ _ _ _ ->]. reflexivity.
Qed.
(** Building the network *)
Lemma build_ok : forall s, exists s1, settled s s1 /\
  match (do gl <- ri s; do b <- rb s; do lab <- rl s; network_of W H b lab gl) with
  | Ok net => build_net s = (set_net K G s1 (Some net), Ok tt) /\
      exists b lab gl, em_bounds s1 = Some b /\ em_labels s1 = Some lab /\ em_list s1 = Some gl /\ network_of W H b lab gl = Ok net
  | Err e => build_net s = (s1, Err e)
  end.
Proof.
  intros s. unfold EbsdState_Model.build_net. destruct (list_ok s) as (s1 & -> & S1 & L1). destruct (ri s) as [gl|e] eqn:Ei; cbn [bind]; [|eauto].
  destruct (L1 gl eq_refl) as (L2 & l & L3 & L4).
  destruct (bounds_ok s1) as (s2 & -> & (_ & RL & RI & _) & S2 & F). assert (E0 : read_labels s2 = (s2, Ok l)) by (unfold EbsdState_Model.read_labels; now rewrite RL, L4). rewrite E0.
  destruct (settled_reads _ _ S1) as (E1 & _). rewrite E1 in F |- *. rewrite L3. exists s2. split; [eapply settled_trans; eassumption|].
  destruct (rb s) as [b|e]; cbn [bind]; [|reflexivity]. destruct (network_of W H b l gl) as [net|e] eqn:EN; [|reflexivity].
  split; [reflexivity|]. exists b, l, gl. split; [exact F|]. split; [congruence|]. split; [congruence|exact EN].
Qed.

(** * C108 *)
(** Reading changes nothing that can be seen.  (Reading the Nye tensor calculates GND anew.) *)
Theorem C108_reads : forall s c, reads c -> (c = ReadNye -> em_gnd s = None) -> shows (fst (step s c)) = shows s.
Proof.
  intros s c Rc N. apply settled_shows. destruct c; try (destruct Rc); cbn [EbsdState_Model.step]; unfold done; cbn [fst].
  - apply keep_ok.
  - destruct (bounds_ok s) as (s1 & -> & _ & S1 & _). exact S1.
  - destruct (list_ok s) as (s1 & -> & S1 & _). exact S1.
  - destruct (kam_ok s) as (s1 & -> & S1). exact S1.
  - destruct (gnd_ok s) as (s1 & -> & S1). exact S1.
  - unfold EbsdState_Model.read_nye. destruct (gen_nye_ok s) as (s1 & S1 & R & _ & ->). destruct (rn s) as [r|e] eqn:F; cbn [fst]; [|exact S1].
    apply gnd_settled; auto.
  - destruct (prox_ok s) as (s1 & -> & S1). exact S1.
Qed.

(** A call that raises changes nothing that can be seen, except [rotate_data] and [filter_data]. *)
Theorem C108_failed_partial : forall s c e, (forall tol, c <> Filter tol) -> c <> Rotate -> snd (step s c) = Err e -> shows (fst (step s c)) = shows s.
Proof.
  intros s c e NF NR E. apply settled_shows. destruct c; cbn [EbsdState_Model.step] in *; unfold done in *; cbn [fst snd] in *; try discriminate E; try congruence; try (now exfalso; apply (NF tol)).
  - destruct (bounds_ok s) as (s1 & -> & _ & S1 & _). exact S1.
  - destruct (list_ok s) as (s1 & -> & S1 & _). exact S1.
  - destruct (kam_ok s) as (s1 & -> & S1). exact S1.
  - destruct (gnd_ok s) as (s1 & -> & S1). exact S1.
  - unfold EbsdState_Model.read_nye in *. destruct (gen_nye_ok s) as (s1 & S1 & R & _ & Eq). rewrite Eq in *. destruct (rn s) as [r|e0]; [discriminate E|exact S1].
  - destruct (prox_ok s) as (s1 & -> & S1). exact S1.
  - unfold EbsdState_Model.gen_bounds in *. destruct (structure s); [discriminate E|apply settled_refl].
  - destruct (gen_grains_ok min_size s) as (s1 & _ & S1 & _ & Eq). rewrite Eq in *. destruct (rg min_size s); [discriminate E|exact S1].
  - rewrite gen_kam_ok in *. destruct (kam_of (ori_of s)); [discriminate E|apply keep_ok].
  - destruct (gen_nye_ok s) as (s1 & S1 & R & _ & Eq). rewrite Eq in *. destruct (rn s) as [r|e0]; [discriminate E|exact S1].
  - destruct (gen_prox_ok trials s) as (s1 & _ & S1 & _ & Eq). rewrite Eq in *. destruct (do b <- rb s; calc_proxigram (bs_points (snd b)) trials); [discriminate E|exact S1].
  - destruct (find_ok min_size s) as (s1 & _ & S1 & _ & Eq). rewrite Eq in *. destruct (rg min_size s); [discriminate E|exact S1].
  - destruct (build_ok s) as (s1 & S1 & Eq). destruct (do gl <- ri s; do b <- rb s; do lab <- rl s; network_of W H b lab gl).
    + destruct Eq as [Eq _]. rewrite Eq in E. discriminate E.
    + rewrite Eq. exact S1.
Qed.

(** * Data that follow from each other *)
Definition unless_ten (tol : R) (s : emap) : Prop := em_bounds s = None -> tol = 10%R \/ exists e, structure s = Err e.
Lemma settled_current : forall tol s s', current tol s -> unless_ten tol s -> settled s s' -> current tol s' /\ unless_ten tol s'.
Proof.
  intros tol s s' [CB CG CK CD CP CN] U [(B1 & B2 & B3 & B4 & B5 & B6) SB SG SK SD SP SN].
  assert (ES : structure s' = structure s) by (unfold EbsdState_Model.structure; now rewrite B5).
  assert (NB : forall b, em_bounds s = Some b -> em_bounds s' = Some b) by (intros b E; destruct SB as [->|(E0 & _)]; congruence).
  assert (RB : em_bounds s' <> None -> exists b, rb s = Ok b /\ em_bounds s' = Some b).
  { intros N. destruct SB as [E|(E & b & R & F)]; [|eauto]. destruct (em_bounds s') as [b|] eqn:Eb; [|congruence]. exists b. split; [|reflexivity]. unfold rb. now rewrite <- E. }
  split.
  - constructor.
    + intros b E. rewrite ES, B6, B4. destruct SB as [E0|(E0 & b0 & R & F)]; [apply CB; congruence|]. unfold rb in R. rewrite E0 in R.
      destruct (structure s) as [g|] eqn:Eg; [|discriminate R]. exists g. split; [reflexivity|]. cbn [bind] in R. injection R as R.
      destruct (U E0) as [->|(e & U')]; congruence.
    + intros lab E. rewrite B4. destruct SG as [[E0 [D|D]]|(E0 & N & r & R & F & F')]; [congruence| |].
      * rewrite E0 in E. destruct (CG lab E) as (b & n & gl & X1 & X2 & X3). exists b, n, gl. split; [auto|]. split; [exact X2|congruence].
      * destruct (RB N) as (b & Rb & Eb). exists b, 10, (snd r). split; [exact Eb|]. unfold rg in R. rewrite Rb in R. cbn [bind] in R. rewrite R.
        split; [|exact F']. destruct r. cbn in *. congruence.
    + intros k E. rewrite B6. destruct SK as [E0|(E0 & k0 & R & F)]; [apply CK; congruence|]. unfold rk in R. rewrite E0 in R. congruence.
    + intros d E. rewrite ES, B6. destruct SD as [E0|(E0 & d0 & R & F)]; [apply CD; congruence|]. unfold rd in R. rewrite E0 in R. unfold rn in R.
      destruct (structure s) as [g|]; [|discriminate R]. cbn [bind] in R. destruct (nye_of g (ori_of s)) as [[d1 t1]|] eqn:EN; [|discriminate R]. cbn in R. exists g, t1.
      split; [reflexivity|]. congruence.
    + intros d E. destruct SP as [E0|(E0 & N & d0 & R & F)].
      * rewrite E0 in E. destruct (CP d E) as (b & n & X & Y). exists b, n. auto.
      * destruct (RB N) as (b & Rb & Eb). exists b, (Z.to_nat 500). split; [exact Eb|]. unfold rp in R. rewrite E0, Rb in R. cbn [bind] in R. congruence.
    + intros net E. rewrite SN in E. destruct (CN net E) as (b & lab & gl & X1 & X2 & X3 & X4). exists b, lab, gl. split; [auto|].
      destruct SG as [[E0 [D|D]]|(E0 & _)]; [congruence| |congruence]. split; [congruence|]. split; [congruence|exact X4].
  - intros E. rewrite ES. apply U. destruct SB as [<-|(E0 & _)]; [exact E|exact E0].
Qed.

(** What is not touched. *)
Lemma touched : forall s c, (forall n, c <> FindGrains n) ->
  ((calculates c < 1)%nat -> em_bounds (fst (step s c)) = em_bounds s /\ em_kam (fst (step s c)) = em_kam s /\ em_gnd (fst (step s c)) = em_gnd s) /\
  ((calculates c < 2)%nat -> em_labels (fst (step s c)) = em_labels s /\ em_prox (fst (step s c)) = em_prox s) /\
  ((calculates c < 3)%nat -> em_net (fst (step s c)) = em_net s).
Proof.
  intros s c NF. destruct c; cbn [calculates]; cbn [EbsdState_Model.step]; unfold done; cbn [fst];
    (split; [try (intros X; exfalso; lia)|split; [try (intros X; exfalso; lia)|try (intros X; exfalso; lia)]]); try (intros _); try (repeat split; reflexivity).
  - destruct (bounds_ok s) as (s1 & -> & (_ & E1 & _ & _ & _ & E2 & _) & _). auto.
  - destruct (bounds_ok s) as (s1 & -> & (_ & _ & _ & _ & _ & _ & E) & _). exact E.
  - destruct (list_ok s) as (s1 & -> & S1 & _). apply S1.
  - unfold EbsdState_Model.read_kam. destruct (em_kam s); [auto|]. rewrite gen_kam_ok. destruct (kam_of (ori_of s)); auto.
  - destruct (kam_ok s) as (s1 & -> & S1). apply S1.
  - unfold EbsdState_Model.read_gnd. destruct (em_gnd s); [auto|]. destruct (gen_nye_ok s) as (s1 & _ & (_ & E1 & _ & _ & _ & E2 & _) & _ & ->). destruct (rn s); auto.
  - destruct (gnd_ok s) as (s1 & -> & S1). apply S1.
  - unfold EbsdState_Model.read_nye. destruct (gen_nye_ok s) as (s1 & _ & (_ & E1 & _ & _ & _ & E2 & _) & _ & ->). destruct (rn s); auto.
  - unfold EbsdState_Model.read_nye. destruct (gen_nye_ok s) as (s1 & _ & (_ & _ & _ & _ & _ & _ & E) & _ & ->). destruct (rn s); auto.
  - destruct (prox_ok s) as (s1 & -> & S1). apply S1.
  - unfold EbsdState_Model.gen_bounds. destruct (structure s); auto.
  - unfold EbsdState_Model.gen_bounds. destruct (structure s); auto.
  - destruct (gen_grains_ok min_size s) as (s1 & (_ & _ & _ & _ & _ & _ & E) & _ & _ & ->). destruct (rg min_size s); exact E.
  - rewrite gen_kam_ok. destruct (kam_of (ori_of s)); auto.
  - rewrite gen_kam_ok. destruct (kam_of (ori_of s)); auto.
  - destruct (gen_nye_ok s) as (s1 & _ & (_ & E1 & _ & _ & _ & E2 & _) & _ & ->). destruct (rn s); auto.
  - destruct (gen_nye_ok s) as (s1 & _ & (_ & _ & _ & _ & _ & _ & E) & _ & ->). destruct (rn s); auto.
  - destruct (gen_prox_ok trials s) as (s1 & (_ & _ & _ & _ & _ & _ & E) & _ & _ & ->). destruct (do b <- rb s; calc_proxigram (bs_points (snd b)) trials); exact E.
  - exfalso. now apply (NF min_size).
  - unfold rotate. cbv zeta. destruct (em_bc s); [|auto]. destruct (em_bs s); [|auto]. destruct half_turn; auto.
  - unfold rotate. cbv zeta. destruct (em_bc s); [|auto]. destruct (em_bs s); [|auto]. destruct half_turn; auto.
  - unfold rotate. cbv zeta. destruct (em_bc s); [|auto]. destruct (em_bs s); [|auto]. destruct half_turn; auto.
Qed.

Definition invariant (m : nat) (tol : R) (s : emap) : Prop :=
  current tol s /\ unless_ten tol s /\
  ((m < 1)%nat -> em_bounds s = None /\ em_kam s = None /\ em_gnd s = None /\ tol = 10%R) /\
  ((m < 2)%nat -> em_labels s = None /\ em_prox s = None) /\ ((m < 3)%nat -> em_net s = None).
Definition asks (tol : R) (c : call) : R := match c with GenBounds t => t | _ => tol end.

Lemma nothing_current : forall tol s, em_bounds s = None -> em_labels s = None -> em_kam s = None -> em_gnd s = None -> em_prox s = None -> em_net s = None -> current tol s.
Proof. intros tol s E1 E2 E3 E4 E5 E6. constructor; intros x E; congruence. Qed.

Lemma one_call : forall m tol s c, invariant m tol s -> (m <= changes c)%nat -> (forall n, c <> FindGrains n) ->
  invariant (Nat.max m (calculates c)) (asks tol c) (fst (step s c)).
Proof.
  intros m tol s c (C & U & I1 & I2 & I3) M NF. destruct (touched s c NF) as (T1 & T2 & T3).
  assert (X : current (asks tol c) (fst (step s c)) /\ unless_ten (asks tol c) (fst (step s c))).
  { assert (ZERO : (m < 1)%nat -> (calculates c < 1)%nat -> current (asks tol c) (fst (step s c)) /\ unless_ten (asks tol c) (fst (step s c))).
    { intros M1 L. destruct (I1 M1) as (X1 & X2 & X3 & X4). destruct I2 as [X5 X6]; [lia|]. assert (X7 := I3 ltac:(lia)).
      destruct (T1 L) as (Y1 & Y2 & Y3). destruct T2 as [Y4 Y5]; [lia|]. assert (Y6 := T3 ltac:(lia)). split; [apply nothing_current; congruence|].
      intros _. left. destruct c; cbn [calculates] in L; try lia; exact X4. }
    destruct c; cbn [changes] in M; try (apply ZERO; [lia|cbn; lia]); clear ZERO; cbn [asks]; clear T1 T2 T3; cbn [EbsdState_Model.step]; unfold done; cbn [fst].
    - apply (settled_current tol s); auto. apply keep_ok.
    - destruct (bounds_ok s) as (s1 & -> & _ & S1 & _). apply (settled_current tol s); auto.
    - destruct (list_ok s) as (s1 & -> & S1 & _). apply (settled_current tol s); auto.
    - destruct (kam_ok s) as (s1 & -> & S1). apply (settled_current tol s); auto.
    - destruct (gnd_ok s) as (s1 & -> & S1). apply (settled_current tol s); auto.
    - unfold EbsdState_Model.read_nye. destruct (gen_nye_ok s) as (s1 & S1 & R & _ & ->). destruct (settled_current tol s s1 C U S1) as [C1 U1].
      destruct (settled_reads _ _ S1) as (_ & _ & _ & _ & _ & En & _). rewrite <- En. destruct (rn s1) as [[d t]|e] eqn:Er; cbn [fst]; [|auto].
      split; [|exact U1]. destruct C1 as [CB CG CK CD CP CN]. constructor; cbn [em_gnd set_gnd]; auto. cbn. intros d0 [= <-]. unfold rn in Er.
      change (structure (set_gnd K G s1 (Some d))) with (structure s1). change (ori_of (set_gnd K G s1 (Some d))) with (ori_of s1).
      destruct (structure s1) as [g|]; [|discriminate Er]. eauto.
    - destruct (prox_ok s) as (s1 & -> & S1). apply (settled_current tol s); auto.
    - destruct I2 as [X5 X6]; [lia|]. assert (X7 := I3 ltac:(lia)). unfold EbsdState_Model.gen_bounds. destruct (structure s) as [g|e] eqn:Eg; cbn [fst].
      + split; [|intros X; discriminate X]. destruct C as [CB CG CK CD CP CN]. constructor; cbn; try congruence; auto.
        intros b [= <-]. exists g. split; [exact Eg|reflexivity].
      + split; [|intros _; right; eauto]. destruct C as [CB CG CK CD CP CN]. constructor; auto; try congruence. intros b Eb. destruct (CB b Eb) as (g & Y & _). congruence.
    - assert (X7 := I3 ltac:(lia)). destruct (gen_grains_ok min_size s) as (s1 & R & S1 & F & ->). destruct (settled_current tol s s1 C U S1) as [C1 U1].
      destruct (rg min_size s) as [[lab gl]|e] eqn:Er; cbn [fst snd]; [|auto]. split; [|exact U1]. unfold rg in Er. destruct (rb s) as [b|]; [|discriminate Er]. cbn [bind] in Er.
      destruct R as ((_ & _ & _ & Rp & _) & _ & _ & _ & _ & _ & Rn). destruct C1 as [CB CG CK CD CP CN]. constructor; cbn; auto.
      * intros lab0 [= <-]. exists b, min_size, gl. split; [exact F|]. split; [congruence|reflexivity].
      * intros net En. congruence.
    - rewrite gen_kam_ok. destruct (settled_current tol s _ C U (proj2 (keep_ok s))) as [C1 U1]. destruct (kam_of (ori_of s)) as [k|] eqn:Ek; cbn [fst]; [|auto].
      split; [|exact U1]. destruct C1 as [CB CG CK CD CP CN]. constructor; cbn; auto. intros k0 [= <-]. exact Ek.
    - destruct (gen_nye_ok s) as (s1 & S1 & R & _ & ->). destruct (settled_current tol s s1 C U S1) as [C1 U1].
      destruct (settled_reads _ _ S1) as (_ & _ & _ & _ & _ & En & _). rewrite <- En. destruct (rn s1) as [[d t]|e] eqn:Er; cbn [fst]; [|auto].
      split; [|exact U1]. destruct C1 as [CB CG CK CD CP CN]. constructor; cbn [em_gnd set_gnd]; auto. cbn. intros d0 [= <-]. unfold rn in Er.
      change (structure (set_gnd K G s1 (Some d))) with (structure s1). change (ori_of (set_gnd K G s1 (Some d))) with (ori_of s1).
      destruct (structure s1) as [g|]; [|discriminate Er]. eauto.
    - destruct (gen_prox_ok trials s) as (s1 & R & S1 & F & ->). destruct (settled_current tol s s1 C U S1) as [C1 U1].
      destruct (do b <- rb s; calc_proxigram (bs_points (snd b)) trials) as [d|] eqn:Ed; cbn [fst]; [|auto]. split; [|exact U1].
      destruct (rb s) as [b|]; [|discriminate Ed]. cbn [bind] in Ed. destruct C1 as [CB CG CK CD CP CN]. constructor; cbn; auto.
      intros d0 [= <-]. exists b, trials. auto.
    - exfalso. now apply (NF min_size).
    - destruct (build_ok s) as (s1 & S1 & Eq). destruct (settled_current tol s s1 C U S1) as [C1 U1].
      destruct (do gl <- ri s; do b <- rb s; do lab <- rl s; network_of W H b lab gl) as [net|e].
      + destruct Eq as (-> & b & lab & gl & X1 & X2 & X3 & X4). cbn [fst]. split; [|exact U1]. destruct C1 as [CB CG CK CD CP CN]. constructor; cbn; auto.
        intros net0 [= <-]. exists b, lab, gl. auto.
      + rewrite Eq. auto. }
  destruct X as [X1 X2]. split; [exact X1|]. split; [exact X2|]. split; [|split].
  - intros L. destruct I1 as (Y1 & Y2 & Y3 & Y4); [lia|]. destruct T1 as (Z1 & Z2 & Z3); [lia|]. repeat split; try congruence.
    destruct c; cbn [asks calculates] in *; try exact Y4; lia.
  - intros L. destruct I2 as (Y1 & Y2); [lia|]. destruct T2 as (Z1 & Z2); [lia|]. split; congruence.
  - intros L. rewrite T3 by lia. apply I3. lia.
Qed.

(** A map that was just loaded shows what follows from its Euler angles and phases with the
    default settings, for its first phase. *)
Theorem C108_loaded : forall euler bc bs phase, let v := shows (loaded K G euler bc bs phase) in
  let first := match names with g :: _ => Ok g | [] => Err IndexError end in
  let b := do g <- first; Ok (bounds_of W H g (v_ori K G T v) phase 10) in
  v_euler K G T v = euler /\ v_bc K G T v = bc /\ v_bs K G T v = bs /\ v_phase K G T v = phase /\
  v_ori K G T v = (fun p => Some (quat_of_euler (euler p))) /\ v_bounds K G T v = b /\
  v_labels K G T v = (do b <- b; do r <- grains_of W H np b phase 10; Ok (fst r)) /\
  v_list K G T v = (do b <- b; do r <- grains_of W H np b phase 10; Ok (snd r)) /\
  v_kam K G T v = kam_of (v_ori K G T v) /\ v_gnd K G T v = (do g <- first; do r <- nye_of g (v_ori K G T v); Ok (fst r)) /\
  v_prox K G T v = (do b <- b; calc_proxigram (bs_points (snd b)) (Z.to_nat 500)) /\ v_net K G T v = None.
Proof.
  intros euler bc bs phase v first b. unfold v. rewrite shows_eq. cbn [v_euler v_bc v_bs v_phase v_ori v_bounds v_labels v_list v_kam v_gnd v_prox v_net].
  unfold b, v. rewrite shows_eq. cbn [v_ori].
  assert (F : structure (loaded K G euler bc bs phase) = first) by (unfold first, EbsdState_Model.structure; cbn; destruct names; reflexivity).
  assert (B : rb (loaded K G euler bc bs phase) = do g <- first; Ok (bounds_of W H g (ori_of (loaded K G euler bc bs phase)) phase 10)) by (unfold rb; rewrite F; reflexivity).
  repeat (split; [reflexivity|]). split; [exact B|]. unfold rl, ri, rd, rp, rg, rn. rewrite B, F. cbn [EbsdState_Model.em_labels EbsdState_Model.em_gnd EbsdState_Model.em_prox EbsdState_Model.em_phase loaded].
  destruct first as [g|e]; cbn [bind]; repeat (split; [reflexivity|]); reflexivity.
Qed.
(** If nothing is changed once something that follows from it has been calculated, then all
    that is stored follows from the present data, with the tolerance asked for last. *)
Theorem C108_current_partial : forall h euler bc bs phase, downwards h -> no_direct h ->
  current (tolerance h) (run h (loaded K G euler bc bs phase)).
Proof.
  intros h euler bc bs phase D N. unfold tolerance.
  assert (GEN : forall h m tol s, downwards h -> no_direct h -> (forall d, In d h -> (m <= changes d)%nat) -> invariant m tol s ->
    current (match last_of (fun c => match c with GenBounds t => Some t | _ => None end) h with Some t => t | None => tol end) (run h s)).
  { clear. induction h as [|c h IH]; intros m tol s D N M I; [apply I|]. destruct D as [D1 D2]. cbn [EbsdState_Model.run fold_left].
    change (fold_left (fun s c => fst (step s c)) h (fst (step s c))) with (run h (fst (step s c))).
    assert (I' := one_call m tol s c I (M c (or_introl eq_refl)) (fun n E => N n (or_introl E))).
    assert (C := IH _ _ _ D2 (fun n X => N n (or_intror X)) (fun d X => Nat.max_lub _ _ _ (M d (or_intror X)) (D1 d X)) I').
    cbn [last_of]. destruct (last_of _ h); [exact C|]. destruct c; exact C. }
  apply (GEN h 0%nat 10%R); auto; [intros; lia|]. split; [apply nothing_current; reflexivity|]. split; [intros _; now left|]. repeat split; reflexivity.
Qed.

(** After any history, generating in order brings everything to the present data. *)
Theorem C108_refresh : forall s s' tol n t, succeed [GenBounds tol; GenGrains n; GenKam; GenNye; GenProx t; BuildNet] s s' ->
  exists g b lab gl d ty k p net,
    structure s = Ok g /\ b = bounds_of W H g (ori_of s) (em_phase s) tol /\
    grains_of W H np b (em_phase s) n = Ok (lab, gl) /\ kam_of (ori_of s) = Ok k /\ nye_of g (ori_of s) = Ok (d, ty) /\
    calc_proxigram (bs_points (snd b)) t = Ok p /\ network_of W H b lab gl = Ok net /\
    shows s' = View K G T (em_euler s) (em_bc s) (em_bs s) (em_phase s) (ori_of s) (Ok b) (Ok lab) (Ok gl) (Ok k) (Ok d) (Ok ty) (Ok p) (Some net).
Proof.
  intros s s' tol n t X.
  inversion X as [|? ? ? s1 ? E1 X1]; subst; clear X. inversion X1 as [|? ? ? s2 ? E2 X2]; subst; clear X1. inversion X2 as [|? ? ? s3 ? E3 X3]; subst; clear X2.
  inversion X3 as [|? ? ? s4 ? E4 X4]; subst; clear X3. inversion X4 as [|? ? ? s5 ? E5 X5]; subst; clear X4. inversion X5 as [|? ? ? s6 ? E6 X6]; subst; clear X5.
  inversion X6; subst; clear X6. cbn [EbsdState_Model.step] in *. unfold done in *.
  unfold EbsdState_Model.gen_bounds in E1. destruct (structure s) as [g|e] eqn:Eg; [|discriminate E1]. injection E1 as <-.
  change (ori_of (keep_ori s)) with (ori_of s) in E2. set (b := bounds_of W H g (ori_of s) (em_phase s) tol) in *.
  destruct (gen_grains_ok n (set_bounds K G (keep_ori s) (Some b))) as (s2' & R2 & _ & F2 & Eq). rewrite Eq in E2. clear Eq.
  change (rb (set_bounds K G (keep_ori s) (Some b))) with (@Ok (bset * bset) b) in F2. change (rg n (set_bounds K G (keep_ori s) (Some b))) with (grains_of W H np b (em_phase s) n) in E2.
  destruct (grains_of W H np b (em_phase s) n) as [[lab gl]|e] eqn:EG; [|discriminate E2]. cbn [fst snd bind] in E2. injection E2 as <-.
  destruct R2 as ((Q1 & Q2 & Q3 & Q4 & Q5 & Q6) & _ & _ & Q7 & Q8 & Q9 & Q10). cbn in Q1, Q2, Q3, Q4, Q5, Q7, Q8, Q9, Q10. change (ori_of s2' = ori_of s) in Q6.
  rewrite gen_kam_ok in E3. change (ori_of (set_grains K G s2' (Some lab) (Some gl))) with (ori_of s2') in E3. rewrite Q6 in E3.
  destruct (kam_of (ori_of s)) as [k|e] eqn:EK; [|discriminate E3]. cbn [fst snd bind] in E3. injection E3 as <-.
  set (s3 := set_kam K G (keep_ori (set_grains K G s2' (Some lab) (Some gl))) (Some k)) in *.
  assert (B3 : em_euler s3 = em_euler s /\ em_bc s3 = em_bc s /\ em_bs s3 = em_bs s /\ em_phase s3 = em_phase s /\ em_primary s3 = em_primary s /\ ori_of s3 = ori_of s /\
    em_bounds s3 = Some b /\ em_labels s3 = Some lab /\ em_list s3 = Some gl /\ em_kam s3 = Some k) by (repeat split; assumption).
  clearbody s3. clear Q1 Q2 Q3 Q4 Q5 Q6 Q7 Q8 Q9 Q10 F2 s2'. destruct B3 as (Q1 & Q2 & Q3 & Q4 & Q5 & Q6 & Q7 & Q8 & Q9 & Q10).
  destruct (gen_nye_ok s3) as (s4' & _ & ((P1 & P2 & P3 & P4 & P5 & P6) & P7 & P8 & P9 & _) & P10 & Eq). rewrite Eq in E4. clear Eq.
  assert (En : rn s3 = nye_of g (ori_of s)) by (unfold rn, EbsdState_Model.structure in *; rewrite Q5, Eg, Q6; reflexivity). rewrite En in E4.
  destruct (nye_of g (ori_of s)) as [[d ty]|e] eqn:EN; [|discriminate E4]. cbn [fst snd bind] in E4. injection E4 as <-.
  destruct (gen_prox_ok t (set_gnd K G s4' (Some d))) as (s5' & ((O1 & O2 & O3 & O4 & O5 & O6) & O7 & O8 & O9 & O10 & _) & _ & F5 & Eq). rewrite Eq in E5. clear Eq.
  assert (Erb : rb (set_gnd K G s4' (Some d)) = Ok b) by (unfold rb; cbn; now rewrite P10, Q7). rewrite Erb in E5, F5. cbn [bind] in E5.
  destruct (calc_proxigram (bs_points (snd b)) t) as [p|e] eqn:EP; [|discriminate E5]. cbn [fst snd bind] in E5. injection E5 as <-.
  set (s5 := set_prox K G s5' (Some p)) in *. cbn in O1, O2, O3, O4, O5, O7, O8, O9, O10. change (ori_of s5' = ori_of s4') in O6.
  assert (B5 : em_euler s5 = em_euler s /\ em_bc s5 = em_bc s /\ em_bs s5 = em_bs s /\ em_phase s5 = em_phase s /\ em_primary s5 = em_primary s /\ ori_of s5 = ori_of s /\
    em_bounds s5 = Some b /\ em_labels s5 = Some lab /\ em_list s5 = Some gl /\ em_kam s5 = Some k /\ em_gnd s5 = Some d /\ em_prox s5 = Some p).
  { unfold s5. change (ori_of (set_prox K G s5' (Some p))) with (ori_of s5'). cbn. repeat split; congruence. }
  clearbody s5. destruct B5 as (Y1 & Y2 & Y3 & Y4 & Y5 & Y6 & Y7 & Y8 & Y9 & Y10 & Y11 & Y12).
  destruct (build_ok s5) as (s6 & [(Z1 & Z2 & Z3 & Z4 & Z5 & Z6) ZB ZG ZK ZD ZP ZN] & Eq).
  assert (ER : rb s5 = Ok b /\ rl s5 = Ok lab /\ ri s5 = Ok gl) by (unfold rb, rl, ri; rewrite Y7, Y8, Y9; auto). destruct ER as (ER1 & ER2 & ER3).
  rewrite ER1, ER2, ER3 in Eq. cbn [bind] in Eq. destruct (network_of W H b lab gl) as [net|e] eqn:EW; [|rewrite Eq in E6; discriminate E6].
  destruct Eq as (Eq & _). rewrite Eq in E6. injection E6 as <-.
  exists g, b, lab, gl, d, ty, k, p, net. do 7 (split; [first [reflexivity|assumption]|]).
  assert (V : em_bounds s6 = Some b /\ em_labels s6 = Some lab /\ em_list s6 = Some gl /\ em_kam s6 = Some k /\ em_gnd s6 = Some d /\ em_prox s6 = Some p).
  { split; [destruct ZB as [->|(V & _)]; congruence|]. split; [destruct ZG as [[-> _]|(V & _)]; congruence|]. split; [destruct ZG as [[_ [V| ->]]|(V & _)]; congruence|].
    split; [destruct ZK as [->|(V & _)]; congruence|]. split; [destruct ZD as [->|(V & _)]; congruence|destruct ZP as [->|(V & _)]; congruence]. }
  destruct V as (V1 & V2 & V3 & V4 & V5 & V6). rewrite shows_eq. unfold rb, rl, ri, rk, rd, rn, rp, EbsdState_Model.structure. cbn.
  change (ori_of (set_net K G s6 (Some net))) with (ori_of s6). rewrite V1, V2, V3, V4, V5, V6, Z1, Z2, Z3, Z4, Z5, Z6, Y1, Y2, Y3, Y4, Y5, Y6.
  unfold EbsdState_Model.structure in Eg. rewrite Eg. cbn [bind]. now rewrite EN.
Qed.
End Props.

Print Assumptions C108_reads.
Print Assumptions C108_failed_partial.
Print Assumptions C108_loaded.
Print Assumptions C108_current_partial.
Print Assumptions C108_refresh.

(** For orientations without nan the boundaries are those of [Boundary_Model]. *)
Lemma bounds_plain : forall W H g (ori : pix -> quat) phase tol, bounds_of W H g (fun p => Some (ori p)) phase tol = find_boundaries W H g ori phase tol.
Proof.
  intros W H g ori phase tol. unfold bounds_of, find_boundaries. f_equal. unfold from_image, nonzero_T. f_equal; apply filter_ext; intros p.
  - unfold grain_bx. destruct (fst p <? W - 1); reflexivity.
  - unfold grain_by. destruct (snd p <? H - 1); reflexivity.
Qed.
Lemma bounds_uniform : forall W H g q phase tol, unitq q -> (0 <= tol)%R ->
  bounds_of W H g (fun _ => Some q) phase tol = (from_image W H (phase_x W phase) (phase_y H phase), from_image W H (phase_x W phase) (phase_y H phase)).
Proof.
  intros W H g q phase tol U Ht.
  assert (N : forall c : bool, exceeds tol (if c then pair_misori g (Some q) (Some q) else Some edge_misori) = false).
  { intros c. assert (E : (if c then pair_misori g (Some q) (Some q) else Some edge_misori) = Some 0%R).
    { destruct c; cbn [pair_misori]; [rewrite neighbour_misori_spec, misori_refl by exact U|unfold edge_misori]; rewrite acos_1; f_equal; lra. }
    rewrite E. cbn [exceeds]. unfold gtb. destruct (Rlt_dec (tol * (PI / 180)) 0) as [L|]; [|reflexivity]. pose proof PI_RGT_0. assert (0 <= tol * (PI / 180))%R by (apply Rmult_le_pos; lra). lra. }
  unfold bounds_of. f_equal. unfold from_image, nonzero_T. f_equal; apply filter_ext; intros p; now rewrite N.
Qed.

(** A 2 x 2 map of one orientation with another phase in one corner. *)
Definition corner (p : pix) : Z := if pix_eqb p (1, 1) then 2 else 1.
Definition corner_bounds : bset * bset := (from_image 2 2 (phase_x 2 corner) (phase_y 2 corner), from_image 2 2 (phase_x 2 corner) (phase_y 2 corner)).
Definition two_phases : list string := ["cubic"; "cubic"]%string.
Definition flat_euler (p : pix) : R * R * R := (0, 0, 0)%R.
Lemma corner_grains : forall n, n = 1 \/ n = 2 -> exists lab gl, grains_of 2 2 2 corner_bounds corner n = Ok (lab, gl) /\ lab (0, 0) = 1 /\ lab (1, 0) = 1 /\ lab (1, 1) = (if n =? 1 then 2 else -2) /\
  List.length (fst gl) = (if (n =? 1)%Z then 2 else 1)%nat.
Proof. intros n [->| ->]; (eexists _, _; split; [vm_compute; reflexivity|]); vm_compute; auto. Qed.
Lemma turned_grains : exists lab gl, grains_of 2 2 2 (from_image 2 2 (phase_x 2 (flip 2 2 corner)) (phase_y 2 (flip 2 2 corner)), from_image 2 2 (phase_x 2 (flip 2 2 corner)) (phase_y 2 (flip 2 2 corner))) (flip 2 2 corner) 1 = Ok (lab, gl) /\
  lab (0, 0) = 1 /\ lab (1, 0) = 2.
Proof. eexists _, _. split; [vm_compute; reflexivity|]. vm_compute. auto. Qed.

Section Wrong.
Variables K G T : Type.
Variable kam_of : oimage -> res K.
Variable nye_of : string -> oimage -> res (G * T).
Variable filtered : R -> oimage -> oimage.
Notation step := (step 2 2 two_phases K G T kam_of nye_of filtered).
Notation succeed := (succeed 2 2 two_phases K G T kam_of nye_of filtered).
Notation shows := (shows 2 2 two_phases K G T kam_of nye_of).
Notation v_labels := (v_labels K G T). Notation v_list := (v_list K G T).
Definition corner_map := loaded K G flat_euler (Some (fun _ => 100)) (Some (fun _ => 100)) corner.

Lemma flat_unit : unitq (quat_of_euler (0, 0, 0)%R).
Proof. apply euler_unit. Qed.
Lemma corner_bounded : bounds_of 2 2 "cubic" (ori_of K G corner_map) corner 10 = corner_bounds.
Proof. apply (bounds_uniform 2 2 "cubic" (quat_of_euler (0, 0, 0)%R)); [apply flat_unit|lra]. Qed.
Lemma corner_step : forall n, n = 1 \/ n = 2 -> exists lab gl, grains_of 2 2 2 corner_bounds corner n = Ok (lab, gl) /\
  step corner_map (GenGrains n) = (set_grains K G (set_bounds K G (keep_ori K G corner_map) (Some corner_bounds)) (Some lab) (Some gl), Ok tt).
Proof.
  intros n N. destruct (corner_grains n N) as (lab & gl & E & _). exists lab, gl. split; [exact E|].
  cbn [EbsdState_Model.step]. unfold gen_grains, call_find_grains, read_bounds, gen_bounds. change (structure two_phases K G corner_map) with (@Ok string "cubic"%string).
  cbn [em_bounds corner_map loaded]. change (ori_of K G (keep_ori K G corner_map)) with (ori_of K G corner_map). change (em_phase K G (keep_ori K G corner_map)) with corner.
  rewrite corner_bounded. cbn [bind]. change (em_phase K G (set_bounds K G (keep_ori K G corner_map) (Some corner_bounds))) with corner.
  change (Z.of_nat (List.length two_phases)) with 2. rewrite E. reflexivity.
Qed.

(** After [rotate_data] the grains are still those found before. *)
Theorem C108_rotate_refuted : exists s lab lab' gl', succeed [GenGrains 1; Rotate] corner_map s /\ v_labels (shows s) = Ok lab /\
  grains_of 2 2 2 (bounds_of 2 2 "cubic" (ori_of K G s) (em_phase K G s) 10) (em_phase K G s) 1 = Ok (lab', gl') /\
  lab (0, 0) = lab (1, 0) /\ lab' (0, 0) <> lab' (1, 0).
Proof.
  destruct (corner_step 1 (or_introl eq_refl)) as (lab & gl & E & Es). destruct (corner_grains 1 (or_introl eq_refl)) as (lab0 & gl0 & E0 & L1 & L2 & _).
  rewrite E in E0. injection E0 as <- <-. destruct turned_grains as (lab' & gl' & E' & L1' & L2').
  eexists _, lab, lab', gl'. split.
  - eapply succeed_cons; [exact Es|]. eapply succeed_cons; [|apply succeed_nil]. cbn [EbsdState_Model.step]. unfold rotate. cbv zeta. rewrite half_turn_eq. reflexivity.
  - split; [reflexivity|]. split; [|split; [congruence|rewrite L1', L2'; discriminate]]. rewrite <- E'. f_equal.
    apply (bounds_uniform 2 2 "cubic" (quat_mul false (quat_of_euler (0, 0, 0)%R) (Q4 0 0 0 1))); [|lra].
    apply (same_rot_unit _ _ (quat_mul_same false _ _)). apply unitq_hprod; [apply euler_unit|]. unfold unitq. cbn [qw qx qy qz]. ring.
Qed.

Lemma find_step : forall s n b lab gl, em_bounds K G s = Some b -> grains_of 2 2 2 b (em_phase K G s) n = Ok (lab, gl) ->
  step s (FindGrains n) = (set_grains K G s (em_labels K G s) (Some gl), Ok tt).
Proof.
  intros s n b lab gl E1 E2. cbn [EbsdState_Model.step]. unfold done, call_find_grains, read_bounds. rewrite E1. cbn [bind].
  change (Z.of_nat (List.length two_phases)) with 2. rewrite E2. reflexivity.
Qed.
(** [find_grains] called directly leaves a list of grains that is not that of the label image. *)
Theorem C108_direct_refuted : exists s lab gl, succeed [GenGrains 1; FindGrains 2] corner_map s /\ v_labels (shows s) = Ok lab /\ v_list (shows s) = Ok gl /\
  lab (1, 1) = 2 /\ List.length (fst gl) = 1%nat.
Proof.
  destruct (corner_step 1 (or_introl eq_refl)) as (lab & gl & E & Es). destruct (corner_grains 1 (or_introl eq_refl)) as (lab0 & gl0 & E0 & _ & _ & L3 & _).
  rewrite E in E0. injection E0 as <- <-. destruct (corner_grains 2 (or_intror eq_refl)) as (lab2 & gl2 & E2 & _ & _ & _ & L5).
  eexists _, lab, gl2. split.
  - eapply succeed_cons; [exact Es|]. eapply succeed_cons; [|apply succeed_nil]. eapply find_step; [reflexivity|exact E2].
  - split; [reflexivity|]. split; [reflexivity|]. split; [exact L3|exact L5].
Qed.

(** A [rotate_data] that fails leaves half of the data turned. *)
Theorem C108_half_refuted : forall s, em_bc K G s = None \/ em_bs K G s = None -> exists s', step s Rotate = (s', Err KeyError) /\
  (forall p, em_euler K G s' p = em_euler K G s (1 - fst p, 1 - snd p)) /\ em_phase K G s' = em_phase K G s /\ em_bs K G s' = em_bs K G s /\
  (forall bc, em_bc K G s = Some bc -> exists bc', em_bc K G s' = Some bc' /\ forall p, bc' p = bc (1 - fst p, 1 - snd p)).
Proof.
  intros s E. cbn [EbsdState_Model.step]. unfold rotate. cbv zeta. destruct (em_bc K G s) as [bc|] eqn:E1.
  - destruct E as [E|E]; [discriminate E|]. rewrite E. eexists. split; [reflexivity|]. cbn. split; [intros p; unfold flip; f_equal|]. split; [reflexivity|]. split; [congruence|].
    intros bc0 [= <-]. eexists. split; [reflexivity|]. intros p. unfold flip. f_equal.
  - eexists. split; [reflexivity|]. cbn. split; [intros p; unfold flip; f_equal|]. split; [reflexivity|]. split; [reflexivity|discriminate].
Qed.
(** A [filter_data] that fails has changed the orientations. *)
Theorem C108_filter_refuted : forall s tol, exists s', step s (Filter tol) = (s', Err UnboundLocalError) /\ ori_of K G s' = filtered tol (ori_of K G s).
Proof. intros s tol. eexists. split; reflexivity. Qed.
(** Reading the Nye tensor replaces the GND that was shown. *)
Theorem C108_nye : forall s g d t, structure two_phases K G s = Ok g -> nye_of g (ori_of K G s) = Ok (d, t) ->
  v_gnd K G T (shows (fst (step s ReadNye))) = Ok d.
Proof.
  intros s g d t E1 E2. cbn [EbsdState_Model.step]. unfold done, read_nye, gen_nye. rewrite E1. change (ori_of K G (keep_ori K G s)) with (ori_of K G s). rewrite E2. reflexivity.
Qed.
End Wrong.
Print Assumptions C108_rotate_refuted.
Print Assumptions C108_direct_refuted.
Print Assumptions C108_half_refuted.
Print Assumptions C108_filter_refuted.
Print Assumptions C108_nye.

(** Generating everything in order succeeds on such a map. *)
Lemma corner_network : forall lab gl, grains_of 2 2 2 corner_bounds corner 1 = Ok (lab, gl) -> exists net, network_of 2 2 corner_bounds lab gl = Ok net.
Proof.
  assert (X : match grains_of 2 2 2 corner_bounds corner 1 with Ok (lab, gl) => exists net, network_of 2 2 corner_bounds lab gl = Ok net | Err _ => True end).
  { vm_compute. eexists. reflexivity. }
  intros lab gl E. rewrite E in X. exact X.
Qed.
Lemma prox_step : forall W H names K G T kam nye f s n b d, em_bounds K G s = Some b -> calc_proxigram (bs_points (snd b)) n = Ok d ->
  step W H names K G T kam nye f s (GenProx n) = (set_prox K G s (Some d), Ok tt).
Proof. intros W H names K G T kam nye f s n b d E1 E2. cbn [step]. unfold done, gen_prox, read_bounds. rewrite E1. cbn [bind]. rewrite E2. reflexivity. Qed.
Lemma net_step : forall W H names K G T kam nye f s b lab gl net, em_bounds K G s = Some b -> em_labels K G s = Some lab -> em_list K G s = Some gl ->
  network_of W H b lab gl = Ok net -> step W H names K G T kam nye f s BuildNet = (set_net K G s (Some net), Ok tt).
Proof.
  intros W H names K G T kam nye f s b lab gl net E1 E2 E3 E4. cbn [step]. unfold build_net, read_list, read_labels. rewrite E2. cbn [bind]. rewrite E3.
  unfold read_bounds. rewrite E1, E2. cbn [bind]. rewrite E4. reflexivity.
Qed.
Notation all_calls := [GenBounds 10; GenGrains 1; GenKam; GenNye; GenProx 1; BuildNet].
Example C108_refresh_met : exists s', succeed 2 2 two_phases unit unit unit (fun _ => Ok tt) (fun _ _ => Ok (tt, tt)) (fun _ o => o) all_calls (corner_map unit unit) s' /\ em_labels unit unit s' <> None.
Proof.
  destruct (corner_grains 1 (or_introl eq_refl)) as (lab & gl & E & _). destruct (corner_network lab gl E) as (net & En).
  destruct (proxigram_ok (bs_points (snd corner_bounds)) 1 ltac:(lia)) as (d & Ed & _).
  set (s1 := set_bounds unit unit (keep_ori unit unit (corner_map unit unit)) (Some corner_bounds)).
  eexists. split.
  - eapply succeed_cons with (s1 := s1).
    { cbn [step]. unfold gen_bounds. change (structure two_phases unit unit (corner_map unit unit)) with (@Ok string "cubic"%string).
      change (ori_of unit unit (keep_ori unit unit (corner_map unit unit))) with (ori_of unit unit (corner_map unit unit)). change (em_phase unit unit (keep_ori unit unit (corner_map unit unit))) with corner.
      cbv beta iota. rewrite corner_bounded. reflexivity. }
    eapply succeed_cons with (s1 := set_grains unit unit s1 (Some lab) (Some gl)).
    { cbn [step]. unfold gen_grains, call_find_grains, read_bounds. change (em_bounds unit unit s1) with (Some corner_bounds). cbn [bind]. change (em_phase unit unit s1) with corner.
      change (Z.of_nat (List.length two_phases)) with 2. rewrite E. reflexivity. }
    eapply succeed_cons; [reflexivity|]. eapply succeed_cons; [reflexivity|].
    eapply succeed_cons; [eapply prox_step; [reflexivity|exact Ed]|].
    eapply succeed_cons; [|apply succeed_nil]. eapply net_step; [reflexivity|reflexivity|reflexivity|exact En].
  - discriminate.
Qed.
(** So the hypotheses of [C108_current_partial] are met by these calls, after any change. *)
Example C108_current_met : downwards ([SetPrimary 0; Rotate] ++ all_calls ++ [ReadGrains; ReadProx]) /\ no_direct ([SetPrimary 0; Rotate] ++ all_calls ++ [ReadGrains; ReadProx]) /\
  ~ downwards [GenGrains 1; Rotate].
Proof.
  split; [|split].
  - cbn [downwards app]. repeat split; try exact I; intros d X; cbn [In calculates] in *; repeat (destruct X as [<-|X]; [cbn; lia|]); destruct X.
  - intros n X. cbn in X. repeat (destruct X as [X|X]; [discriminate X|]). exact X.
  - intros [D _]. specialize (D Rotate (or_introl eq_refl)). cbn in D. lia.
Qed.

(** Grains are not those of the present boundaries once another tolerance was asked for. *)
Definition tilt_euler (p : pix) : R * R * R := if pix_eqb p (1, 1) then (0, -2 * asin (3 / 5), 0)%R else (0, 0, 0)%R.
Lemma tilt_ori : forall p, quat_of_euler (tilt_euler p) = wit_ori p.
Proof.
  intros p. unfold tilt_euler, wit_ori. destruct (pix_eqb p (1, 1)); unfold quat_of_euler, from_euler_angles.
  - replace (-2 * asin (3 / 5) / 2)%R with (- asin (3 / 5))%R by lra. replace ((0 + 0) / 2)%R with 0%R by lra. replace ((0 - 0) / 2)%R with 0%R by lra.
    rewrite cos_neg, sin_neg, sin_0, cos_0, sin_asin, cos_asin by lra.
    replace (1 - (3 / 5)²)%R with ((4 / 5) * (4 / 5))%R by (unfold Rsqr; lra). rewrite sqrt_square by lra. unfold qB, Quat. cbn [qw].
    destruct (Rlt_dec (4 / 5 * 1) 0); [lra|]. f_equal; ring.
  - replace (0 / 2)%R with 0%R by lra. replace ((0 + 0) / 2)%R with 0%R by lra. replace ((0 - 0) / 2)%R with 0%R by lra.
    rewrite sin_0, cos_0. unfold qone, Quat. cbn [qw]. destruct (Rlt_dec (1 * 1) 0); [lra|]. f_equal; ring.
Qed.

Section Tolerance.
Variables K G T : Type.
Variable kam_of : oimage -> res K.
Variable nye_of : string -> oimage -> res (G * T).
Variable filtered : R -> oimage -> oimage.
Definition tilt_map := loaded K G tilt_euler None None (fun _ => 1).
Theorem C108_tolerance_refuted : exists s lab b, succeed 2 2 ["cubic"%string] K G T kam_of nye_of filtered [GenBounds 0; GenGrains 1; GenBounds 120] tilt_map s /\
  v_labels K G T (shows 2 2 ["cubic"%string] K G T kam_of nye_of s) = Ok lab /\ v_bounds K G T (shows 2 2 ["cubic"%string] K G T kam_of nye_of s) = Ok b /\
  lab (1, 0) = lab (0, 0) /\
  forall n lab' gl', grains_of 2 2 1 b (em_phase K G s) n = Ok (lab', gl') -> lab' (1, 0) <> lab' (0, 0).
Proof.
  assert (O : from_euler K G tilt_map = (fun p => Some (wit_ori p))).
  { apply FunctionalExtensionality.functional_extensionality. intros p. unfold from_euler. f_equal. apply tilt_ori. }
  destruct wit_run as (lab & gl & ph & E & P & Q). set (b t := find_boundaries 2 2 "cubic" wit_ori (fun _ => 1) t).
  assert (BO : forall t, bounds_of 2 2 "cubic" (from_euler K G tilt_map) (fun _ => 1) t = b t) by (intros t; rewrite O; apply bounds_plain).
  assert (E' : grains_of 2 2 1 (b 0%R) (fun _ => 1) 1 = Ok (lab, (gl, ph))).
  { unfold find_boundaries_then_grains in E. unfold grains_of. fold (b 0%R) in E.
    destruct (bs_image 2 2 (bs_x (snd (b 0%R)))) as [bx|]; [|discriminate E]. destruct (bs_image 2 2 (bs_y (snd (b 0%R)))) as [by_|]; [|discriminate E].
    cbn [bind] in *. rewrite E. reflexivity. }
  destruct (C04_marked_boundaries 2 2 "cubic" wit_ori (fun _ => 1) 120) as (X & Y & _);
    [lia | lia | lra | intros; apply wit_unit |].
  destruct (from_image_points 2 2 (grain_bx 2 "cubic" wit_ori (fun _ => 1) 120)
     (grain_by 2 "cubic" wit_ori (fun _ => 1) 120) ltac:(lia) ltac:(lia)) as (_ & _ & _ & Gx & Gy & _).
  assert (Bx : forall p, inside 2 2 p -> grain_bx 2 "cubic" wit_ori (fun _ => 1) 120 p = false).
  { intros p Hp. destruct (grain_bx _ _ _ _ _ p) eqn:Gp; auto. exfalso.
    assert (I : In p (bs_x (snd (find_boundaries 2 2 "cubic" wit_ori (fun _ => 1) 120)))) by (apply Gx; auto).
    apply X in I as (_ & _ & [KK|KK]); auto. revert KK. apply cubic_120; apply wit_unit. }
  assert (By : forall p, inside 2 2 p -> grain_by 2 "cubic" wit_ori (fun _ => 1) 120 p = false).
  { intros p Hp. destruct (grain_by _ _ _ _ _ p) eqn:Gp; auto. exfalso.
    assert (I : In p (bs_y (snd (find_boundaries 2 2 "cubic" wit_ori (fun _ => 1) 120)))) by (apply Gy; auto).
    apply Y in I as (_ & _ & [KK|KK]); auto. revert KK. apply cubic_120; apply wit_unit. }
  eexists _, lab, (b 120%R). split.
  - eapply succeed_cons with (s1 := set_bounds K G (keep_ori K G tilt_map) (Some (b 0%R))).
    { cbn [step]. unfold gen_bounds. change (structure ["cubic"%string] K G tilt_map) with (@Ok string "cubic"%string).
      change (ori_of K G (keep_ori K G tilt_map)) with (from_euler K G tilt_map). change (em_phase K G (keep_ori K G tilt_map)) with (fun _ : pix => 1). cbv beta iota. rewrite BO. reflexivity. }
    set (s1 := set_bounds K G (keep_ori K G tilt_map) (Some (b 0%R))).
    eapply succeed_cons with (s1 := set_grains K G s1 (Some lab) (Some (gl, ph))).
    { cbn [step]. unfold gen_grains, call_find_grains, read_bounds. change (em_bounds K G s1) with (Some (b 0%R)). cbn [bind]. change (em_phase K G s1) with (fun _ : pix => 1).
      change (Z.of_nat (List.length ["cubic"%string])) with 1. rewrite E'. reflexivity. }
    set (s2 := set_grains K G s1 (Some lab) (Some (gl, ph))).
    eapply succeed_cons with (s1 := set_bounds K G (keep_ori K G s2) (Some (b 120%R))); [|apply succeed_nil].
    cbn [step]. unfold gen_bounds. change (structure ["cubic"%string] K G s2) with (@Ok string "cubic"%string).
    change (ori_of K G (keep_ori K G s2)) with (from_euler K G tilt_map). change (em_phase K G (keep_ori K G s2)) with (fun _ : pix => 1). cbv beta iota. rewrite BO. reflexivity.
  - split; [reflexivity|]. split; [reflexivity|]. split; [exact Q|]. intros n lab' gl' F.
    change (grains_of 2 2 1 (b 120%R) (fun _ => 1) n = Ok (lab', gl')) in F.
    assert (F' : exists ph', find_boundaries_then_grains 2 2 "cubic" wit_ori (fun _ => 1) 120 1 n = Ok (lab', fst gl', ph')).
    { unfold find_boundaries_then_grains. unfold grains_of in F. fold (b 120%R).
      destruct (bs_image 2 2 (bs_x (snd (b 120%R)))) as [bx|]; [|discriminate F]. destruct (bs_image 2 2 (bs_y (snd (b 120%R)))) as [by_|]; [|discriminate F].
      cbn [bind] in *. destruct (Flood_Model.find_grains _ _ _ _ _ _ _) as [[[l0 g0] p0]|]; [|discriminate F]. cbn [bind] in F. injection F as <- <-. exists p0. reflexivity. }
    destruct F' as (ph' & F'). rewrite find_none in F' by (auto; lia).
    destruct (alltrue_grains 2 2 (fun _ => 1) 1 n ltac:(lia) ltac:(lia) ltac:(discriminate)) as [S1 S2].
    destruct (Z_le_gt_dec n 1) as [L|L]; [|rewrite S1 in F' by lia; discriminate F'].
    destruct (S2 L) as (lab2 & gl2 & ph2 & E2 & D). rewrite E2 in F'. injection F' as <- _ _.
    apply (D (1, 0) (0, 0)); [unfold inside; cbn; lia|unfold inside; cbn; lia|discriminate].
Qed.
End Tolerance.
Print Assumptions C108_tolerance_refuted.

(** In a session [rotate_data] does to the loaded data and orientations what C54 says, and leaves
    everything else that is kept alone. *)
Section Turned.
Variables W H : Z. Variable names : list string. Variables K G T : Type.
Variable kam_of : oimage -> res K. Variable nye_of : string -> oimage -> res (G * T). Variable filtered : R -> oimage -> oimage.
Notation em_ori := (em_ori K G). Notation em_euler := (em_euler K G). Notation em_phase := (em_phase K G).
Notation em_bc := (em_bc K G). Notation em_bs := (em_bs K G).
Definition without_nan (o : pix -> quat) : oimage := fun p => Some (o p).
Theorem C108_turned : forall s s' o e' x, em_ori s = option_map without_nan o ->
  rotate_data W H (Ebsd (em_euler s) (em_bc s) (em_bs s) (em_phase s) o) = (e', x) ->
  fst (step W H names K G T kam_of nye_of filtered s Rotate) = s' ->
  snd (step W H names K G T kam_of nye_of filtered s Rotate) = x /\
  (forall p, em_euler s' p = e_euler e' p /\ em_phase s' p = e_phase e' p) /\ em_bc s' = e_bc e' /\ em_bs s' = e_bs e' /\
  match e_ori e' with Some q => exists o', em_ori s' = Some o' /\ forall p, o' p = Some (q p) | None => em_ori s' = None end /\
  em_bounds K G s' = em_bounds K G s /\ em_labels K G s' = em_labels K G s /\ em_list K G s' = em_list K G s /\
  em_kam K G s' = em_kam K G s /\ em_gnd K G s' = em_gnd K G s /\ em_prox K G s' = em_prox K G s /\ em_net K G s' = em_net K G s /\
  em_primary K G s' = em_primary K G s.
Proof.
  intros s s' o e' x O R <-. cbn [EbsdState_Model.step]. unfold rotate_data in R. unfold rotate. cbv zeta in *. cbn [e_euler e_bc e_bs e_phase e_ori] in R.
  assert (N : match o with Some q => exists o', em_ori s = Some o' /\ forall p, o' p = Some (q p) | None => em_ori s = None end).
  { destruct o as [q|]; cbn [option_map] in O; [exists (without_nan q); auto|exact O]. }
  destruct (em_bc s) as [bc|].
  2: { injection R as <- <-. cbn. auto 20. }
  destruct (em_bs s) as [bs|].
  2: { injection R as <- <-. cbn. auto 20. }
  destruct half_turn as [t|].
  2: { injection R as <- <-. cbn. auto 20. }
  injection R as <- <-. cbn [fst snd e_euler e_bc e_bs e_phase e_ori]. split; [reflexivity|]. split; [split; reflexivity|]. split; [reflexivity|]. split; [reflexivity|].
  split; [|repeat split]. eexists. split; [reflexivity|]. intros p. unfold ori_of, read_ori. cbn [EbsdState_Model.em_ori set_ori e_ori e_euler]. rewrite O.
  destruct o as [q|]; reflexivity.
Qed.
End Turned.
Print Assumptions C108_turned.
(** It applies to maps just loaded, and to those whose orientations were read. *)
Example C108_turned_met : forall K G euler bc bs phase, exists s, em_ori K G s = option_map without_nan None /\ s = loaded K G euler bc bs phase /\
  em_ori K G (keep_ori K G s) = option_map without_nan (Some (fun p => quat_of_euler (euler p))).
Proof. intros. eexists. split; [|split; [reflexivity|]]; reflexivity. Qed.

(** What boundaries, grains and networks hold on maps without nan: those of [find_boundaries],
    [find_boundaries_then_grains] and [build_neighbour_network] of the other properties (C01 to C10) on the
    map's orientations. *)
Theorem C108_values : forall W H g q phase tol n_phases min_size,
  bounds_of W H g (without_nan q) phase tol = find_boundaries W H g q phase tol /\
  match find_boundaries_then_grains W H g q phase tol n_phases min_size with
  | Ok (labels, grains, phases) =>
      grains_of W H n_phases (bounds_of W H g (without_nan q) phase tol) phase min_size = Ok (labels, (grains, phases)) /\
      network_of W H (bounds_of W H g (without_nan q) phase tol) labels (grains, phases) =
      (let b := snd (find_boundaries W H g q phase tol) in build_neighbour_network W H (Z.of_nat (List.length grains)) labels (bs_x b) (bs_y b))
  | Err e => grains_of W H n_phases (bounds_of W H g (without_nan q) phase tol) phase min_size = Err e
  end.
Proof.
  intros W H g q phase tol np n.
  assert (B : bounds_of W H g (without_nan q) phase tol = find_boundaries W H g q phase tol).
  { unfold bounds_of, find_boundaries, without_nan, exceeds, pair_misori. f_equal. unfold from_image.
    match goal with |- boundary_set ?a ?b = boundary_set ?c ?d => assert (E1 : a = c); [|assert (E2 : b = d); [|now rewrite E1, E2]] end; unfold nonzero_T, grain_bx, grain_by; apply filter_ext; intros p; f_equal; [destruct (fst p <? W - 1)|destruct (snd p <? H - 1)]; reflexivity. }
  split; [exact B|]. rewrite B. unfold find_boundaries_then_grains, grains_of. destruct (bs_image W H (bs_x (snd (find_boundaries W H g q phase tol)))) as [bx|e]; cbn [bind]; [|reflexivity].
  destruct (bs_image W H (bs_y (snd (find_boundaries W H g q phase tol)))) as [by_|e]; cbn [bind]; [|reflexivity].
  destruct (Flood_Model.find_grains W H bx by_ phase np n) as [[[lab gl] ph]|e]; cbn [bind]; [|reflexivity]. split; reflexivity.
Qed.
Print Assumptions C108_values.
