(** C124: what a DIC grain says about its crystal is what the EBSD grain it lies on says. *)
From Coq Require Import String Ascii Reals.
From Coq Require Import List ZArith Bool Lia.
From Verif Require Import Py Grid Base_Model Quat_Model Crystal_Model GrainState_Model GrainState_Spec GrainState_Proofs
  DicGrains_Model DicGrains_Spec DicGrains_Proofs DicGrains_Props DicCrystal_Model DicCrystal_Spec DicCrystal_Proofs.
Import ListNotations.
Open Scope Z_scope.
Notation stepping := DicCrystal_Model.step.
Notation running := DicCrystal_Model.run.

Section Theorems.
Variables (e_default : found) (d_default : method).
Notation step := (stepping e_default d_default).
Notation run := (running e_default d_default).

Lemma same_delegate c c' : same_call c c' <-> delegate c = Some c'.
Proof. destruct c; cbn; split; intros E; try congruence; try contradiction; subst; auto; now injection E as <-. Qed.
Lemma shown_points w lab l gl d pts : shown w lab l gl -> snd (step w (DCall d DPoints)) = Ok (Points pts) ->
  exists i k, py_index gl d = Ok (pts, i) /\ nth_error gl k = Some (pts, i).
Proof.
  intros B E. rewrite (shown_call _ _ w lab l gl d DPoints B) in E. cbn [delegate] in E.
  destruct (py_index gl d) as [[pts' i]|] eqn:P; [|discriminate]. cbn [snd] in E. injection E as ->.
  destruct (py_index_nth _ _ _ P) as (k & N & _). exists i, k. auto.
Qed.
Lemma warp_linked W H sample lab l gl : 0 <= W -> 0 <= H -> linked_list (Warp W H sample) lab l = Ok gl ->
  (forall k pts i, nth_error gl k = Some (pts, i) -> forall p, In p pts -> exists q, sample p = Some q /\ 0 < lab q /\ py_index l (lab q - 1) = Ok i) /\
  (forall p q, inside W H p -> sample p = Some q -> 0 < lab q -> exists k pts i, nth_error gl k = Some (pts, i) /\ In p pts).
Proof.
  intros W0 H0 E. unfold linked_list in E. set (f := fun p => match sample p with Some q => lab q | None => 0 end) in E.
  destruct (warp_find_grains W H f (List.length l)) as [[lab' gl']|] eqn:F; [|discriminate]. cbn [bind snd] in E.
  destruct (map_res_nth _ _ _ E) as (LN & MN).
  pose proof (C08_grains_and_links W H f _ W0 H0 lab' gl' F) as GL. pose proof (C08_renumbering W H f _ W0 H0 lab' gl' F) as (_ & R2 & _). unfold dic_grain in *. split.
  - intros k pts i N p I. destruct (MN k _ N) as ([pts' g] & N' & M). cbn [fst snd] in M. destruct (nth_error l g) as [i'|] eqn:G; [|discriminate].
    injection M as -> ->. destruct (GL k pts g N') as (_ & _ & _ & L). specialize (L p I). unfold f in L.
    destruct (sample p) as [q|] eqn:SP; cbn beta in L; [|lia]. exists q. split; [reflexivity|]. split; [lia|].
    rewrite py_index_nonneg by lia. replace (Z.to_nat (lab q - 1)) with g by lia. now rewrite G.
  - intros p q I S' L. assert (FP : f p = lab q) by (unfold f; now rewrite S'). specialize (R2 p I ltac:(lia)).
    destruct (nth_error gl (Z.to_nat (lab' p - 1))) as [[pts i]|] eqn:N; [|apply nth_error_None in N; lia].
    exists (Z.to_nat (lab' p - 1)), pts, i. split; [exact N|]. destruct (MN _ _ N) as ([pts' g] & N' & M). cbn [fst snd] in M.
    destruct (nth_error l g); [|discriminate]. injection M as -> _. destruct (GL _ pts g N') as (_ & _ & IN & _). apply IN. split; [exact I|lia].
Qed.

(** Grains found by warping: a call on the DIC grain of a pixel does, and answers, what the same call on
    the EBSD grain does that is labelled at the pixel's place; whatever was called in between, on grains
    of either map. Every pixel that lies on an EBSD grain is in a DIC grain. *)
Theorem C124_warp : forall h W H sample a w1 later, 0 <= W -> 0 <= H ->
  step (run start h) (DGenerate (Warp W H sample)) = (w1, Ok a) -> quiet later ->
  let w := run w1 later in
  exists lab, snd (step w ELabels) = Ok (Labels lab) /\
  (forall d pts, snd (step w (DCall d DPoints)) = Ok (Points pts) -> forall p, In p pts ->
     exists q, sample p = Some q /\ 0 < lab q /\
     forall c c', same_call c c' -> step w (DCall d c) = step w (ECall (lab q - 1) c')) /\
  (forall p q, inside W H p -> sample p = Some q -> 0 < lab q ->
     exists d pts, 0 <= d /\ snd (step w (DCall d DPoints)) = Ok (Points pts) /\ In p pts).
Proof.
  intros h W H sample a w1 later W0 H0 E Q w.
  destruct (generated _ _ _ _ _ _ (run_sound _ _ h start start_sound) E) as (lab & l & gl & B & K & _).
  pose proof (shown_lists _ _ _ _ _ (quiet_run e_default d_default _ _ _ later w1 B Q) B) as B'. fold w in B'.
  destruct (warp_linked _ _ _ _ _ _ W0 H0 K) as (K1 & K2).
  exists lab. split; [exact (f_equal snd (settled_labels e_default _ _ _ (s_settled _ _ _ _ B')))|]. split.
  - intros d pts P p I. destruct (shown_points w lab l gl d pts B' P) as (i & k & PI & N). destruct (K1 k pts i N p I) as (q & S' & L & X).
    exists q. split; [exact S'|]. split; [exact L|]. intros c c' SC. apply same_delegate in SC.
    rewrite (shown_call _ _ w lab l gl d c B'), PI, SC. rewrite (settled_call _ _ w lab l _ c' (s_settled _ _ _ _ B')), X. reflexivity.
  - intros p q I S' L. destruct (K2 p q I S' L) as (k & pts & i & N & IP). exists (Z.of_nat k), pts. split; [lia|]. split; [|exact IP].
    rewrite (shown_call _ _ w lab l gl _ DPoints B'), py_index_nonneg by lia. now rewrite Nat2Z.id, N.
Qed.

(** Grains found by flood fill: likewise for the most frequent label under a grain, if it is that of a
    grain. *)
Theorem C124_flood : forall h gs a w1 later,
  step (run start h) (DGenerate (Flood gs)) = (w1, Ok a) -> quiet later ->
  let w := run w1 later in
  exists lab, snd (step w ELabels) = Ok (Labels lab) /\
  forall d pts under m, nth_error gs d = Some (pts, under) -> modal (map lab under) m -> 0 < m ->
  snd (step w (DCall (Z.of_nat d) DPoints)) = Ok (Points pts) /\
  forall c c', same_call c c' -> step w (DCall (Z.of_nat d) c) = step w (ECall (m - 1) c').
Proof.
  intros h gs a w1 later E Q w.
  destruct (generated _ _ _ _ _ _ (run_sound _ _ h start start_sound) E) as (lab & l & gl & B & K & _).
  pose proof (shown_lists _ _ _ _ _ (quiet_run e_default d_default _ _ _ later w1 B Q) B) as B'. fold w in B'.
  exists lab. split; [exact (f_equal snd (settled_labels e_default _ _ _ (s_settled _ _ _ _ B')))|].
  intros d pts under m N M M0. cbn [linked_list] in K. destruct (map_res_nth _ _ _ K) as (LN & MN).
  destruct (nth_error gl d) as [[pts' i]|] eqn:G; [|apply nth_error_None in G; assert (d < List.length gs)%nat by (apply nth_error_Some; congruence); lia].
  destruct (MN d _ G) as ([pts2 under2] & N2 & F). cbn [fst snd] in F. rewrite N in N2. injection N2 as <- <-.
  unfold link_dic_grain in F. rewrite (proj2 (mode_modal _ _) M) in F. rewrite py_index_nonneg in F by lia.
  destruct (nth_error (seq 0 (List.length l)) (Z.to_nat (m - 1))) as [n|] eqn:SN; [|discriminate]. cbn [bind] in F.
  assert (n = Z.to_nat (m - 1)) as ->.
  { assert (Z.to_nat (m - 1) < List.length l)%nat by (rewrite <- (seq_length (List.length l) 0); apply nth_error_Some; congruence).
    rewrite (nth_error_nth' _ 0%nat) in SN by (now rewrite seq_length). rewrite seq_nth in SN by assumption. now injection SN as <-. }
  destruct (nth_error l (Z.to_nat (m - 1))) as [i'|] eqn:X; [|discriminate]. injection F as <- ->.
  rewrite (shown_call _ _ w lab l gl _ DPoints B'), py_index_nonneg, Nat2Z.id, G by lia. split; [reflexivity|].
  intros c c' SC. apply same_delegate in SC.
  rewrite (shown_call _ _ w lab l gl _ c B'), py_index_nonneg, Nat2Z.id, G, SC by lia.
  rewrite (settled_call _ _ w lab l _ c' (s_settled _ _ _ _ B')), py_index_nonneg, X by lia. reflexivity.
Qed.

(** ** Labels and points *)
Definition lab_ok (w : world) : Prop := forall lab l, e_store w = Some lab -> e_list w = Some l ->
  forall k i, nth_error l k = Some i -> exists g, nth_error (heap w) i = Some g /\ forall q, In q (o_points g) <-> lab q = Z.of_nat k + 1.
Lemma lab_ok_kept w w' : same_lists w w' ->
  (forall i g, nth_error (heap w) i = Some g -> exists g', nth_error (heap w') i = Some g' /\ o_points g' = o_points g) -> lab_ok w -> lab_ok w'.
Proof.
  intros (A & B & _) P L lab l E F k i N. rewrite A in E. rewrite B in F. destruct (L lab l E F k i N) as (g & G & Q).
  destruct (P i g G) as (g' & G' & O). exists g'. rewrite O. auto.
Qed.
Lemma at_object_points i c w j g : nth_error (heap w) j = Some g -> exists g', nth_error (heap (fst (at_object i c w))) j = Some g' /\ o_points g' = o_points g.
Proof.
  intros N. destruct (Nat.eq_dec j i) as [->|D].
  - destruct (at_object_self i c w g N) as (E & _). exists (fst (on_grain c g)). split; [exact E|apply on_grain_keeps].
  - exists g. rewrite at_object_other by exact D. auto.
Qed.
Lemma over_points o : forall l w j g, nth_error (heap w) j = Some g -> exists g', nth_error (heap (fst (over l o w))) j = Some g' /\ o_points g' = o_points g.
Proof.
  induction l as [|i l IH]; intros w j g N; cbn [over]; [eauto|]. destruct (at_object_points i (Do o) w j g N) as (g' & N' & O).
  destruct (at_object i (Do o) w) as [w' [a|x]]; cbn [fst] in *; [|eauto]. destruct (IH w' j g' N') as (g2 & N2 & O2). exists g2. split; [exact N2|congruence].
Qed.
Lemma at_object_lab i c w : lab_ok w -> lab_ok (fst (at_object i c w)).
Proof. apply lab_ok_kept; [apply at_object_lists|apply at_object_points]. Qed.
Lemma over_lab l o w : lab_ok w -> lab_ok (fst (over l o w)).
Proof. apply lab_ok_kept; [apply over_lists|apply over_points]. Qed.
Lemma seq_nth_error s n k i : nth_error (seq s n) k = Some i -> i = (s + k)%nat /\ (k < n)%nat.
Proof.
  intros N. assert (K : (k < n)%nat) by (rewrite <- (seq_length n s); apply nth_error_Some; congruence).
  rewrite (nth_error_nth' _ 0%nat) in N by (now rewrite seq_length). rewrite seq_nth in N by assumption. injection N as <-. auto.
Qed.
Lemma e_find_new stored f w : f_grains f <> [] -> e_find stored f w = (World (heap w ++ map (fun g => EG (fst g) (snd g) new_grain) (f_grains f))
   (if stored then Some (f_labels f) else e_store w) (Some (seq (List.length (heap w)) (List.length (f_grains f)))) (d_store w) (d_list w), Ok (Labels (f_labels f))).
Proof. unfold e_find. destruct (f_grains f); [congruence|reflexivity]. Qed.
Lemma e_find_lab f w : labelled f -> lab_ok w -> lab_ok (fst (e_find true f w)).
Proof.
  intros LF L. destruct (f_grains f) as [|g0 gs] eqn:G; [unfold e_find; now rewrite G|]. rewrite e_find_new by congruence. cbn [fst].
  intros lab l E F k i N. cbn [e_store e_list heap] in *. injection E as <-.
  assert (N' : nth_error (seq (List.length (heap w)) (List.length (f_grains f))) k = Some i) by (injection F as <-; exact N).
  apply seq_nth_error in N' as (-> & K). rewrite nth_error_app2 by lia. replace (List.length (heap w) + k - List.length (heap w))%nat with k by lia.
  rewrite nth_error_map. destruct (nth_error (f_grains f) k) as [[pts C]|] eqn:X; [|apply nth_error_None in X; lia].
  cbn [option_map]. eexists. split; [reflexivity|]. cbn [o_points fst]. exact (LF k pts C X).
Qed.
Lemma e_labels_lab w : labelled e_default -> lab_ok w -> lab_ok (fst (e_labels e_default w)).
Proof. intros LF L. unfold e_labels. destruct (e_store w); [exact L|]. now apply e_find_lab. Qed.
Lemma d_find_lab s m w : labelled e_default -> lab_ok w -> lab_ok (fst (d_find e_default s m w)).
Proof.
  intros LF L. destruct (d_find_cases e_default s m w) as [->|(w' & E & C)]; [exact L|].
  pose proof (e_labels_lab w LF L) as L1. rewrite E in L1. cbn [fst] in L1. destruct C as [->|(lab & l & gl & _ & _ & _ & ->)]; [exact L1|]. exact L1.
Qed.
Lemma step_lab w e : labelled e_default -> direct e = false -> (forall f, e = EGenerate f -> labelled f) -> lab_ok w -> lab_ok (fst (step w e)).
Proof.
  intros LF D A L. destruct e as [f|f| |m|m|i c|o|i c]; cbn [DicCrystal_Model.step].
  - discriminate.
  - apply e_find_lab; auto.
  - now apply e_labels_lab.
  - now apply d_find_lab.
  - now apply d_find_lab.
  - unfold e_item. pose proof (e_labels_lab w LF L) as S1. destruct (e_labels e_default w) as [w1 a]. cbn [fst] in S1.
    destruct (bind _ _); [now apply at_object_lab|exact S1].
  - pose proof (e_labels_lab w LF L) as S1. destruct (e_labels e_default w) as [w1 a]. cbn [fst] in S1. destruct a; [|exact S1].
    destruct (e_list w1); [|exact S1]. now apply over_lab.
  - unfold d_item. assert (S1 : lab_ok (fst (if d_store w then (w, Ok Nothing) else d_find e_default true d_default w))).
    { destruct (d_store w); [exact L|now apply d_find_lab]. }
    destruct (if d_store w then _ else _) as [w1 a]. cbn [fst] in S1. destruct (bind _ _) as [[pts g]|]; [|exact S1].
    destruct (delegate c); [now apply at_object_lab|exact S1].
Qed.
Lemma run_lab : labelled e_default -> forall es w, (forall e, In e es -> direct e = false) -> all_labelled es -> lab_ok w -> lab_ok (run w es).
Proof.
  intros LF. induction es as [|e es IH]; intros w D A L; cbn [DicCrystal_Model.run fold_left]; [exact L|].
  apply IH; [intros e' I; apply D; now right|intros f I; apply A; now right|].
  apply step_lab; auto; [apply D; now left|]. intros f ->. apply A. now left.
Qed.
(** Grains found through the data of the map: the points of the EBSD grain at a position are the pixels
    labelled with it. *)
Theorem C124_points : forall h, labelled e_default -> all_labelled h -> (forall e, In e h -> direct e = false) ->
  let w := run start h in forall lab k pts, 0 <= k ->
  snd (step w ELabels) = Ok (Labels lab) -> snd (step w (ECall k GetPoints)) = Ok (Points pts) ->
  forall q, In q pts <-> lab q = k + 1.
Proof.
  intros h LF A D w lab k pts K E P q. pose proof (run_lab LF h start D A) as L. fold w in L.
  assert (L0 : lab_ok start) by (intros ? ? X; discriminate X). specialize (L L0).
  assert (SO : sound w) by (apply run_sound, start_sound). pose proof (e_labels_lab w LF L) as L1.
  change (snd (e_labels e_default w) = Ok (Labels lab)) in E.
  destruct (e_labels_settled e_default w lab (so_store _ SO) E) as (l & ST).
  cbn [DicCrystal_Model.step] in P. unfold e_item in P. destruct (e_labels e_default w) as [w1 a]. cbn [fst snd] in *. subst a. cbn [bind] in P.
  rewrite (s_list _ _ _ ST) in P. destruct (py_index l k) as [i|] eqn:PI; [|discriminate].
  rewrite py_index_nonneg in PI by exact K. destruct (nth_error l (Z.to_nat k)) as [i'|] eqn:N; [|discriminate]. injection PI as ->.
  destruct (L1 lab l (s_lab _ _ _ ST) (s_list _ _ _ ST) _ _ N) as (g & G & Q).
  destruct (at_object_self i GetPoints w1 g G) as (_ & X). rewrite X in P. cbn [on_grain snd] in P. injection P as <-.
  rewrite Q. rewrite Z2Nat.id by exact K. reflexivity.
Qed.

(** ** EBSD grains found anew *)
(** If EBSD grains are found anew after the DIC grains, no call on a DIC grain changes what EBSD grains
    answer, and no call on EBSD grains, one or all, changes what DIC grains answer. *)
Theorem C124_apart_refuted : forall h m a w1 f b w2 later,
  step (run start h) (DGenerate m) = (w1, Ok a) -> step w1 (EGenerate f) = (w2, Ok b) -> quiet later ->
  let w := run w2 later in forall d c k c' o,
  snd (step (fst (step w (DCall d c))) (ECall k c')) = snd (step w (ECall k c')) /\
  snd (step (fst (step w (ECall k c'))) (DCall d c)) = snd (step w (DCall d c)) /\
  snd (step (fst (step w (EAll o))) (DCall d c)) = snd (step w (DCall d c)).
Proof.
  intros h m a w1 f b w2 later E F Q w d c k c' o.
  destruct (generated _ _ _ _ _ _ (run_sound _ _ h start start_sound) E) as (lab & l & gl & B & K & SO & _).
  cbn [DicCrystal_Model.step] in F. destruct (f_grains f) as [|g0 gs] eqn:G; [unfold e_find in F; rewrite G in F; discriminate|].
  rewrite e_find_new in F by congruence. injection F as F _.
  set (n1 := List.length (heap w1)) in *. set (l2 := seq n1 (List.length (f_grains f))) in *.
  assert (B2 : shown w2 (f_labels f) l2 gl).
  { subst w2. split; [split; reflexivity|exact (s_stored _ _ _ _ B)|exact (s_grains _ _ _ _ B)]. }
  pose proof (shown_lists _ _ _ _ _ (quiet_run e_default d_default _ _ _ later w2 B2 Q) B2) as B'. fold w in B'.
  assert (OLD : forall d pts i, py_index gl d = Ok (pts, i) -> (i < n1)%nat).
  { intros d0 pts i P. destruct (py_index_nth _ _ _ P) as (k0 & N & _). apply nth_error_In in N. exact (so_d _ SO gl (s_grains _ _ _ _ B) _ N). }
  assert (NEW : forall k i, py_index l2 k = Ok i -> (n1 <= i)%nat).
  { intros k0 i P. destruct (py_index_nth _ _ _ P) as (k1 & N & _). apply nth_error_In, in_seq in N. lia. }
  assert (SND : forall (w w' : world) i c, nth_error (heap w') i = nth_error (heap w) i -> snd (at_object i c w') = snd (at_object i c w)).
  { intros u u' i c0 EQ. unfold at_object. rewrite EQ. destruct (nth_error (heap u) i) as [g|]; [|reflexivity]. now destruct (on_grain c0 g). }
  set (wd := fst (step w (DCall d c))). set (we := fst (step w (ECall k c'))). set (wa := fst (step w (EAll o))).
  assert (BD : shown wd (f_labels f) l2 gl) by (apply (shown_lists w); [apply (quiet_step e_default d_default _ _ _ _ (DCall d c) B' eq_refl eq_refl)|exact B']).
  assert (BE : shown we (f_labels f) l2 gl) by (apply (shown_lists w); [apply (quiet_step e_default d_default _ _ _ _ (ECall k c') B' eq_refl eq_refl)|exact B']).
  assert (BA : shown wa (f_labels f) l2 gl) by (apply (shown_lists w); [apply (quiet_step e_default d_default _ _ _ _ (EAll o) B' eq_refl eq_refl)|exact B']).
  split; [|split].
  - rewrite (settled_call _ _ wd _ _ _ _ (s_settled _ _ _ _ BD)), (settled_call _ _ w _ _ _ _ (s_settled _ _ _ _ B')).
    destruct (py_index l2 k) as [i|] eqn:PE; [|reflexivity]. apply SND. unfold wd. rewrite (shown_call _ _ w _ _ _ _ _ B').
    destruct (py_index gl d) as [[pts j]|] eqn:PD; [|reflexivity]. destruct (delegate c); [|reflexivity].
    apply at_object_other. specialize (OLD _ _ _ PD). specialize (NEW _ _ PE). lia.
  - rewrite (shown_call _ _ we _ _ _ _ _ BE), (shown_call _ _ w _ _ _ _ _ B').
    destruct (py_index gl d) as [[pts j]|] eqn:PD; [|reflexivity]. destruct (delegate c); [|reflexivity]. apply SND.
    unfold we. rewrite (settled_call _ _ w _ _ _ _ (s_settled _ _ _ _ B')). destruct (py_index l2 k) as [i|] eqn:PE; [|reflexivity].
    apply at_object_other. specialize (OLD _ _ _ PD). specialize (NEW _ _ PE). lia.
  - rewrite (shown_call _ _ wa _ _ _ _ _ BA), (shown_call _ _ w _ _ _ _ _ B').
    destruct (py_index gl d) as [[pts j]|] eqn:PD; [|reflexivity]. destruct (delegate c); [|reflexivity]. apply SND.
    unfold wa. rewrite (settled_all _ _ w _ _ _ (s_settled _ _ _ _ B')). apply over_other. intros I. apply in_seq in I.
    specialize (OLD _ _ _ PD). lia.
Qed.

(** ** The reference orientation *)
Lemma ref_angles K o g : sets_ref o = false -> (g_ref (GrainState_Model.step K g o) = None -> g_ref g = None /\ g_angles (GrainState_Model.step K g o) = g_angles g).
Proof.
  intros S'. assert (EN : forall g, g_ref (fst (ensure_ref K g)) <> None) by (intros g'; unfold ensure_ref; destruct (g_ref g') eqn:E; cbn; congruence).
  assert (CT : forall s, g_ref (fst (calc_traces K s g)) <> None).
  { intros s. unfold calc_traces. specialize (EN g). destruct (ensure_ref K g) as [g' r]. cbn [fst] in EN.
    destruct (match s with Some s => Some s | None => c_systems K end) as [gr|]; [destruct (trace_loop r gr)|]; exact EN. }
  assert (BM : forall a, g_ref (build_mis K a g) <> None).
  { intros a. unfold build_mis. specialize (EN g). destruct (ensure_ref K g) as [g' r]. exact EN. }
  destruct o as [|a| |v s| |s| |c| |q]; cbn [GrainState_Model.step]; try discriminate.
  - intros E. destruct (BM _ E).
  - unfold read_grod. destruct (g_grod g); [auto|]. specialize (EN g). destruct (ensure_ref K g) as [g' r]. cbn [fst g_ref] in *. intros E. now destruct EN.
  - unfold calc_schmid. specialize (EN g). destruct (ensure_ref K g) as [g' r]. cbn [fst] in EN.
    destruct (match s with Some s => Some s | None => c_systems K end); cbn [fst g_ref]; intros E; now destruct EN.
  - unfold calc_grain_rdr. destruct (c_systems K) as [gr|]; [|auto]. destruct (g_ref g) as [[q|]|] eqn:E; try (cbn; congruence).
    destruct (rdr_no_ref gr) as [l0 e]. cbn. auto.
  - intros E. now destruct (CT s).
  - unfold read_traces. destruct (g_angles g) eqn:A; cbn [fst]; [rewrite A; auto|]. specialize (CT None).
    destruct (calc_traces K None g) as [g' e]. cbn [fst] in *. intros E. now destruct CT.
  - unfold plot_mis. destruct (c =? 0); [destruct (g_mis g); cbn [fst]; [auto|intros E; now destruct (BM _ E)]|].
    destruct ((0 <? c) && (c <? 4)); [destruct (g_axes g)|]; cbn [fst]; auto. intros E; now destruct (BM _ E).
  - unfold print_traces. specialize (CT None). destruct (calc_traces K None g) as [g' e]. cbn [fst] in *. intros E. now destruct CT.
Qed.
Lemma traces_ref K g : (g_angles g <> None -> g_ref g <> None) -> at_ref K (average K) g ->
  (forall s, g_ref (GrainState_Model.step K g (CalcTraces s)) = Some (average K)) /\ g_ref (GrainState_Model.step K g ReadTraces) = Some (average K).
Proof.
  intros A R. assert (CT : forall s, g_ref (fst (calc_traces K s g)) = Some (average K)).
  { intros s. destruct (traces_step K s (average K) g R) as (l0 & -> & _). reflexivity. }
  split; [exact CT|]. cbn [GrainState_Model.step]. unfold read_traces. destruct (g_angles g) as [x|] eqn:E; cbn [fst].
  - destruct R as [R|[R _]]; [exact R|]. exfalso. apply A; [congruence|exact R].
  - specialize (CT None). destruct (calc_traces K None g) as [g' e]. exact CT.
Qed.
Definition fresh (f : found) (n0 i : nat) (g : ebsd_grain) : Prop := forall k, i = (n0 + k)%nat ->
  nth_error (f_grains f) k = Some (o_points g, o_consts g) /\
  at_ref (o_consts g) (average (o_consts g)) (o_state g) /\ (g_angles (o_state g) <> None -> g_ref (o_state g) <> None).
Lemma fresh_kept f n0 c i g : (forall r, c <> Do (SetRef r)) -> fresh f n0 i g -> fresh f n0 i (fst (on_grain c g)).
Proof.
  intros S' F k E. destruct (F k E) as (N & R & A). destruct c as [o| | |]; auto. cbn [on_grain fst o_points o_consts o_state].
  assert (SO : sets_ref o = false) by (destruct o; auto; now destruct (S' r)). split; [exact N|]. split.
  - apply one_step; [exact R|]. destruct o; cbn; auto. discriminate.
  - intros X Y. destruct (ref_angles _ o (o_state g) SO Y) as (Y1 & Y2). rewrite Y2 in X. now apply A in X.
Qed.

(** EBSD grains, then DIC grains by warping, then calls that set no reference by hand: the phase of a
    DIC grain is that of the EBSD grain found under its pixels; its reference orientation is not set, or
    the average over the points of that grain, and the latter once its slip traces were asked for. *)
Theorem C124_ref : forall h f b w0 W H sample a w1 later, 0 <= W -> 0 <= H ->
  step (run start h) (EGenerate f) = (w0, Ok b) -> step w0 (DGenerate (Warp W H sample)) = (w1, Ok a) ->
  quiet later -> (forall e, In e later -> sets e = false) ->
  let w := run w1 later in
  forall d pts p, snd (step w (DCall d DPoints)) = Ok (Points pts) -> In p pts ->
  exists q ebsd_pts K, sample p = Some q /\ nth_error (f_grains f) (Z.to_nat (f_labels f q - 1)) = Some (ebsd_pts, K) /\
  snd (step w (DCall d DPhase)) = Ok (PhaseIs (phase_of K)) /\
  (snd (step w (DCall d DRef)) = Ok (RefOri None) \/ snd (step w (DCall d DRef)) = Ok (RefOri (Some (average K)))) /\
  (later = [] -> snd (step w (DCall d DRef)) = Ok (RefOri None)) /\
  forall c, c = DTraces \/ (exists s, c = DCalc s) -> snd (step (fst (step w (DCall d c))) (DCall d DRef)) = Ok (RefOri (Some (average K))).
Proof.
  intros h f b w0 W H sample a w1 later W0 H0 F E Q SF w d pts p P I.
  assert (SO : sound (run start h)) by (apply run_sound, start_sound).
  assert (SO0 : sound w0) by (pose proof (step_sound e_default d_default _ (EGenerate f) SO) as X; rewrite F in X; exact X).
  destruct (generated _ _ _ _ _ _ SO0 E) as (lab & l & gl & B & K & SO1 & ST & HE).
  cbn [DicCrystal_Model.step] in F. destruct (f_grains f) as [|g0 gs] eqn:G; [unfold e_find in F; rewrite G in F; discriminate|].
  rewrite e_find_new in F by congruence. injection F as F _.
  set (n0 := List.length (heap (run start h))) in *.
  assert (EL : e_labels e_default w0 = (w0, Ok (Labels (f_labels f)))) by (unfold e_labels; subst w0; reflexivity).
  rewrite EL in ST, HE. cbn [fst] in ST, HE.
  assert (lab = f_labels f) as -> by (pose proof (s_lab _ _ _ ST) as X; subst w0; cbn [e_store] in X; congruence).
  assert (l = seq n0 (List.length (f_grains f))) as -> by (pose proof (s_list _ _ _ ST) as X; rewrite <- F in X; cbn [e_list] in X; now injection X as <-).
  assert (FR : holds (fresh f n0) w1).
  { intros i g N k ->. rewrite HE, <- F in N. cbn [heap] in N. rewrite nth_error_app2 in N by (fold n0; lia). fold n0 in N.
    replace (n0 + k - n0)%nat with k in N by lia. rewrite nth_error_map in N. destruct (nth_error (f_grains f) k) as [[pts' C]|] eqn:X; [|discriminate].
    cbn [option_map fst snd] in N. injection N as <-. cbn [o_points o_consts o_state]. split; [reflexivity|]. split; [right; auto|]. cbn. congruence. }
  assert (NONE : forall i g, nth_error (heap w1) i = Some g -> (n0 <= i)%nat -> g_ref (o_state g) = None).
  { intros i g N LE. rewrite HE, <- F in N. cbn [heap] in N. rewrite nth_error_app2 in N by (fold n0; lia). rewrite nth_error_map in N.
    destruct (nth_error (f_grains f) _); [|discriminate]. cbn [option_map] in N. injection N as <-. reflexivity. }
  pose proof (shown_lists _ _ _ _ _ (quiet_run e_default d_default _ _ _ later w1 B Q) B) as B'. fold w in B'.
  assert (FR' : holds (fresh f n0) w).
  { apply (quiet_holds e_default d_default (fresh f n0) _ _ _ later w1 B Q); [|exact FR]. intros e IE. specialize (SF e IE). destruct e as [f'|f'| |m|m|i c|o|i c]; auto; intros.
    - apply fresh_kept; [|assumption]. intros r ->. discriminate.
    - apply fresh_kept; [|assumption]. intros r X. injection X as ->. discriminate.
    - apply fresh_kept; [|assumption]. intros r ->. destruct c; discriminate. }
  destruct (shown_points w _ _ gl d pts B' P) as (i & k & PI & N). destruct (warp_linked _ _ _ _ _ _ W0 H0 K) as (K1 & _).
  destruct (K1 k pts i N p I) as (q & S' & L & X). rewrite py_index_nonneg in X by lia.
  destruct (nth_error (seq n0 _) (Z.to_nat (f_labels f q - 1))) as [i'|] eqn:SN; [|discriminate]. injection X as ->.
  apply seq_nth_error in SN as (IE & LT).
  assert (SW : sound w) by (apply run_sound; exact SO1).
  assert (IL : (i < List.length (heap w))%nat) by (apply (so_d _ SW gl (s_grains _ _ _ _ B') (pts, i)); now apply nth_error_In in N).
  destruct (nth_error (heap w) i) as [g|] eqn:HG; [|apply nth_error_None in HG; lia].
  destruct (FR' i g HG _ IE) as (FG & R & A).
  exists q, (o_points g), (o_consts g). split; [exact S'|]. split; [rewrite <- G; exact FG|].
  rewrite !(shown_call _ _ w _ _ _ d _ B'), PI. cbn [delegate].
  rewrite !(proj2 (at_object_self i _ w g HG)). cbn [on_grain snd]. split; [reflexivity|]. split; [|split].
  - destruct R as [R|[R _]]; rewrite R; auto.
  - intros ->. subst w. cbn [DicCrystal_Model.run fold_left] in HG. rewrite (NONE i g HG) by lia. reflexivity.
  - destruct (traces_ref (o_consts g) (o_state g) A R) as (T1 & T2). intros c C.
    assert (exists o, delegate c = Some (Do o) /\ g_ref (GrainState_Model.step (o_consts g) (o_state g) o) = Some (average (o_consts g))) as (o & DO & T).
    { destruct C as [->|(s & ->)]; cbn [delegate]; eauto. }
    rewrite (shown_call _ _ w _ _ _ d _ B'), PI, DO. pose proof (at_object_lists i (Do o) w) as SL.
    destruct (at_object_self i (Do o) w g HG) as (HG2 & _). cbn [on_grain fst] in HG2.
    rewrite (shown_call _ _ _ _ _ _ d _ (shown_lists _ _ _ _ _ SL B')), PI. cbn [delegate].
    rewrite (proj2 (at_object_self i _ _ _ HG2)). cbn [on_grain snd o_state]. now rewrite T.
Qed.

(** DIC grains that were found by calling [find_grains] on a new map are thrown away at the next access
    to a grain, which finds them with the defaults. *)
Theorem C124_direct_refuted : forall m w1, step start (DFind m) = (w1, Ok Nothing) ->
  forall d c, snd (step w1 (DCall d c)) = snd (step start (DCall d c)).
Proof.
  intros m w1 E d c. cbn [DicCrystal_Model.step] in E. destruct (d_find_cases e_default false m start) as [X|(w' & EL & C)].
  - rewrite E in X. cbn [fst] in X. now subst.
  - assert (SO : sound (fst (e_labels e_default start))) by (apply e_labels_sound, start_sound).
    destruct (e_labels_answer e_default start) as (w2 & [(lab & L)|(x & L)]).
    2: { exfalso. destruct m as [W H s|[|]]; cbn [d_find] in E; try discriminate; rewrite L in E; discriminate. }
    destruct (e_labels_settled e_default start lab (or_introl eq_refl) (f_equal snd L)) as (l & ST). rewrite L in EL, ST. cbn [fst snd] in *. injection EL as <-.
    assert (w1 = World (heap w2) (e_store w2) (e_list w2) false (d_list w1) /\ d_store w2 = false) as (-> & D2).
    { assert (d_store w2 = false) as D2 by (unfold e_labels in L; cbn [e_store start] in L; unfold e_find in L; destruct (f_grains e_default); [discriminate|]; injection L as <- _; reflexivity).
      split; [|exact D2]. destruct C as [X|(lab' & l' & gl & _ & _ & _ & X)].
      - rewrite E in X. cbn [fst] in X. subst w1. rewrite <- D2. now destruct w2.
      - rewrite E in X. injection X as ->. now rewrite D2. }
    assert (S1 : settled (World (heap w2) (e_store w2) (e_list w2) false (d_list w1)) lab l) by (destruct ST; split; assumption).
    assert (DF : forall u, u = start \/ u = World (heap w2) (e_store w2) (e_list w2) false (d_list w1) ->
       snd (step u (DCall d c)) = match d_default with Flood [] => Err IndexError | _ =>
         match linked_list d_default lab l with Err x => Err x | Ok gl =>
           snd (match py_index gl d with
             | Ok (pts, g) => match delegate c with Some c => at_object g c w2 | None => (w2, Ok (Points pts)) end
             | Err x => (w2, Err x) end) end end).
    { intros u U. cbn [DicCrystal_Model.step]. unfold d_item.
      assert (DU : d_store u = false) by (destruct U as [->| ->]; reflexivity).
      assert (EU : exists u2, e_labels e_default u = (u2, Ok (Labels lab)) /\ e_list u2 = Some l /\ heap u2 = heap w2).
      { destruct U as [->| ->]; [exists w2; split; [exact L|]; split; [apply (s_list _ _ _ ST)|reflexivity]|].
        eexists. split; [apply (settled_labels _ _ _ _ S1)|]. split; [apply (s_list _ _ _ S1)|reflexivity]. }
      rewrite DU. destruct EU as (u2 & EU & LU & HU).
      destruct (match d_default with Flood [] => true | _ => false end) eqn:T.
      { destruct d_default as [|[|]]; try discriminate. reflexivity. }
      transitivity (match linked_list d_default lab l with Err x => Err x | Ok gl =>
           snd (match py_index gl d with
             | Ok (pts, g) => match delegate c with Some c => at_object g c w2 | None => (w2, Ok (Points pts)) end
             | Err x => (w2, Err x) end) end); [|destruct d_default as [|[|]]; try discriminate; reflexivity].
      replace (d_find e_default true d_default u) with (match linked_list d_default lab l with
          | Err x => (u2, Err x)
          | Ok gl => (World (heap u2) (e_store u2) (e_list u2) true (Some gl), Ok Nothing) end)
        by (destruct d_default as [|[|]]; try discriminate; cbn [d_find]; rewrite EU, LU; reflexivity).
      destruct (linked_list d_default lab l) as [gl|x]; [|reflexivity]. cbn [bind d_list].
      destruct (py_index gl d) as [[pts g]|]; [|reflexivity]. destruct (delegate c) as [c'|]; [|reflexivity].
      unfold at_object. cbn [heap]. rewrite HU. destruct (nth_error (heap w2) g) as [g'|]; [|reflexivity]. now destruct (on_grain c' g'). }
    rewrite !DF; auto.
Qed.
End Theorems.
Print Assumptions C124_warp.
Print Assumptions C124_flood.
Print Assumptions C124_points.
Print Assumptions C124_apart_refuted.
Print Assumptions C124_ref.
Print Assumptions C124_direct_refuted.

(** EBSD grains found anew by calling [find_grains]: labels and grains no longer agree, and a DIC grain has
    the phase of an EBSD grain that lies elsewhere. *)
Definition alpha : consts := Consts [Q4 1 0 0 0]%R "hexagonal" None [].
Definition beta : consts := Consts [Q4 1 0 0 0]%R "cubic" None [].
(** Three pixels in a row: the first is one grain, the others are another; the first is too small at the
    second time. *)
Definition first_time : found := Found (fun p => if pix_in p [(0, 0)] then 1 else if pix_in p [(1, 0); (2, 0)] then 2 else 0) [([(0, 0)], alpha); ([(1, 0); (2, 0)], beta)].
Definition second_time : found := Found (fun p => if pix_in p [(0, 0)] then -2 else if pix_in p [(1, 0); (2, 0)] then 1 else 0) [([(1, 0); (2, 0)], beta)].
Definition left_pixel : method := Warp 1 1 (fun p => Some p).
Lemma pix_in_In p l : pix_in p l = true <-> In p l.
Proof.
  unfold pix_in. rewrite existsb_exists. split.
  - intros (q & I & E). unfold pix_eqb in E. apply andb_true_iff in E as (E1 & E2). apply Z.eqb_eq in E1, E2.
    replace p with q; [exact I|]. destruct p, q. cbn in *. congruence.
  - intros I. exists p. split; [exact I|]. unfold pix_eqb. now rewrite !Z.eqb_refl.
Qed.
Lemma first_labelled : labelled first_time.
Proof.
  assert (D : forall q, In q [(0, 0)] -> In q [(1, 0); (2, 0)] -> False).
  { intros q [<-|[]] [X|[X|[]]]; discriminate. }
  intros [|[|k]] pts K N; cbn [nth_error f_grains first_time] in N; [| |destruct k; discriminate]; injection N as <- <-; intros q; cbn [f_labels first_time].
  - rewrite <- pix_in_In. destruct (pix_in q [(0, 0)]); [split; auto|]. destruct (pix_in q [(1, 0); (2, 0)]); split; intros X; discriminate X.
  - specialize (D q). rewrite <- !pix_in_In in D. rewrite <- pix_in_In. destruct (pix_in q [(0, 0)]).
    + split; intros X; [now destruct D|discriminate X].
    + destruct (pix_in q [(1, 0); (2, 0)]); split; intros X; auto; discriminate X.
Qed.
Theorem C124_labels_refuted :
  labelled first_time /\ (forall pts K, In (pts, K) (f_grains second_time) -> ~ In (0, 0) pts) /\
  exists w w', running first_time left_pixel start [EGenerate first_time; EFind second_time] = w /\
  stepping first_time left_pixel w (DGenerate left_pixel) = (w', Ok Nothing) /\
  snd (stepping first_time left_pixel w' (DCall 0 DPoints)) = Ok (Points [(0, 0)]) /\
  snd (stepping first_time left_pixel w' (DCall 0 DPhase)) = Ok (PhaseIs (phase_of beta)) /\ phase_of alpha <> phase_of beta.
Proof.
  split; [exact first_labelled|split].
  - intros pts K [X|[]] I. injection X as <- <-. destruct I as [I|[I|[]]]; discriminate.
  - eexists. eexists. split; [reflexivity|]. split; [reflexivity|]. split; [reflexivity|]. split; [reflexivity|discriminate].
Qed.
Print Assumptions C124_labels_refuted.

(** Two DIC pixels over the first two EBSD pixels: grains, then factors for the whole EBSD map, which the
    DIC grain shows as its reference orientation; and the same with flood fill. *)
Definition two_pixels : method := Warp 2 1 (fun p => Some p).
Definition under_two : method := Flood [([(0, 0)], [(0, 0)]); ([(1, 0)], [(1, 0); (2, 0); (0, 0)])].
Example C124_met : labelled first_time /\
  (exists w1, stepping first_time two_pixels start (DGenerate two_pixels) = (w1, Ok Nothing) /\
   quiet [EAll CalcAverage; DCall 0 DRef] /\
   snd (stepping first_time two_pixels (running first_time two_pixels w1 [EAll CalcAverage]) (DCall 1 DPoints)) = Ok (Points [(1, 0)]) /\
   snd (stepping first_time two_pixels (running first_time two_pixels w1 [EAll CalcAverage]) (DCall 1 DRef)) = Ok (RefOri (Some (average beta)))) /\
  (exists w1, stepping first_time two_pixels start (DGenerate under_two) = (w1, Ok Nothing)) /\
  modal (map (f_labels first_time) [(1, 0); (2, 0); (0, 0)]) 2 /\
  (exists w1, stepping first_time two_pixels start (DFind under_two) = (w1, Ok Nothing)) /\
  (exists w0 w1 w2, stepping first_time two_pixels start (EGenerate first_time) = (w0, Ok (Labels (f_labels first_time))) /\
   stepping first_time two_pixels w0 (DGenerate two_pixels) = (w1, Ok Nothing) /\
   stepping first_time two_pixels w1 (EGenerate second_time) = (w2, Ok (Labels (f_labels second_time)))).
Proof.
  split; [exact first_labelled|]. split; [|split; [|split; [|split]]].
  - eexists. split; [reflexivity|]. split; [intros e [<-|[<-|[]]]; auto|]. split; reflexivity.
  - eexists. reflexivity.
  - split; [cbn; auto|]. intros v [<-|[<-|[<-|[]]]]; cbn; split; lia.
  - eexists. reflexivity.
  - do 3 eexists. split; [reflexivity|]. split; reflexivity.
Qed.
