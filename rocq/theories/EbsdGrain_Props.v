(** EBSD properties, second part: filtering, linking, slip traces, grain
    misorientation, Schmid factor maps, boundary segments, Euler colours. *)
From Coq Require Import String Reals Lra.
From Coq Require Import List ZArith Bool Lia Psatz.
Import ListNotations.
From Verif Require Import Py Grid Quat_Model Quat_Spec Quat_Proofs QuatSym_Proofs QuatMany_Proofs
  QuatEuler_Proofs Boundary_Model BoundaryOri_Proofs Ebsd_Model Ebsd_Spec EbsdKam_Proofs Ebsd_Proofs.
Open Scope Z_scope.

(** ** C55: the Kuwahara filter *)
(** Everything stored is a unit quaternion in the northern hemisphere, or nan. *)
Theorem C55_unit_northern : forall W H ori t p q, fst (filter_data W H ori t) p = Some q ->
  unitq q /\ (0 <= qw q)%R.
Proof. intros. eapply filter_result; eauto. Qed.
Print Assumptions C55_unit_northern.

(** Pixels within two of the edge keep their orientation. *)
Theorem C55_edges_kept : forall W H ori t p, on_map W H p -> unitq (ori p) ->
  fst p < 2 \/ W - 2 <= fst p \/ snd p < 2 \/ H - 2 <= snd p ->
  exists q, fst (filter_data W H ori t) p = Some q /\ same_rot q (ori p).
Proof.
  intros W H ori t p Hp U E. exists (Quat false (ori p)). split; [|apply Quat_same]. apply filter_edge; auto.
  destruct (in_filter W H p) eqn:F; auto. apply in_filter_iff in F. lia.
Qed.
Print Assumptions C55_edges_kept.

(** Only the 5x5 surroundings matter. *)
Theorem C55_local : forall W H ori ori' t p,
  (forall q, fst p - 2 <= fst q <= fst p + 2 -> snd p - 2 <= snd q <= snd p + 2 -> ori q = ori' q) ->
  fst (filter_data W H ori t) p = fst (filter_data W H ori' t) p.
Proof. intros. now apply filter_local. Qed.
Print Assumptions C55_local.

(** The value at an inner pixel: of the eight 3x3 blocks around it, the first whose
    orientations within the tolerance have the greatest mean half-angle cosine with
    it; the new orientation is the sum of these, scaled to length one, nan if that
    sum is zero. *)
Theorem C55_value : forall W H ori t p, (forall p, on_map W H p -> unitq (ori p)) -> (0 < t <= 360)%R ->
  2 <= fst p < W - 2 -> 2 <= snd p < H - 2 ->
  let near c := within (t * (PI / 180)) c (ori p) in
  let score s := mean (map (fun c => cos (rot_angle c (ori p) / 2)) s) in
  exists k b s, nth_error (blocks p) k = Some b /\ picked near (map ori b) s /\ In (ori p) s /\
    (forall j b' s', nth_error (blocks p) j = Some b' -> picked near (map ori b') s' ->
       (score s' <= score s)%R /\ ((j < k)%nat -> (score s' < score s)%R)) /\
    (total s = qzero -> fst (filter_data W H ori t) p = None) /\
    (total s <> qzero -> exists n q, fst (filter_data W H ori t) p = Some q /\ same_rot q n /\ scaled_to_unit (total s) n).
Proof.
  intros W H ori t p U Ht Hx Hy near score.
  assert (Hp : in_filter W H p = true) by (apply in_filter_iff; auto).
  destruct (filter_pixel W H ori t U (conj (Rlt_le _ _ (proj1 Ht)) (proj2 Ht)) p Hp (proj1 Ht))
    as (k & b & s & Eb & Ks & Best & V).
  exists k, b, s. split; auto. split; auto. split; [|split; [exact Best|split]].
  - apply (picked_In _ _ _ (ori p) Ks). split.
    + apply in_map, block_centre. eapply nth_error_In; eauto.
    + unfold within. rewrite rot_angle_self by (apply U; unfold on_map; lia). pose proof PI_RGT_0.
      apply Rmult_lt_0_compat; lra.
  - intros Z. rewrite V, Z. assert (N : normalise qzero = None) by now apply normalise_none. rewrite N. reflexivity.
  - intros N. rewrite V. destruct (normalise (total s)) as [n|] eqn:E.
    + exists n, (Quat false n). split; auto. split; [apply Quat_same | apply normalise_scaled; auto].
    + exfalso. apply N. now apply normalise_none in E.
Qed.
Print Assumptions C55_value.

(** A uniform neighbourhood is not changed. *)
Theorem C55_uniform : forall W H ori t p q0, (forall p, on_map W H p -> unitq (ori p)) -> (0 < t <= 360)%R ->
  on_map W H p ->
  (forall q, on_map W H q -> fst p - 2 <= fst q <= fst p + 2 -> snd p - 2 <= snd q <= snd p + 2 -> ori q = q0) ->
  exists q, fst (filter_data W H ori t) p = Some q /\ same_rot q q0.
Proof.
  intros W H ori t p q0 U Ht Hm A.
  destruct (in_filter W H p) eqn:Hp.
  - destruct (filter_pixel W H ori t U (conj (Rlt_le _ _ (proj1 Ht)) (proj2 Ht)) p Hp (proj1 Ht))
      as (k & b & s & Eb & Ks & _ & V).
    assert (Ib : In b (blocks p)) by (eapply nth_error_In; eauto).
    assert (S : forall c, In c s -> c = q0).
    { intros c Hc. apply (picked_In _ _ _ c Ks) in Hc as [Hc _]. apply in_map_iff in Hc as (x & <- & Hx).
      destruct (block_near p b x Ib Hx). apply A; auto. apply (filter_on W H ori U p Hp); auto. }
    assert (P : In (ori p) s).
    { apply (picked_In _ _ _ (ori p) Ks). split; [apply in_map, block_centre; auto|].
      unfold within. rewrite rot_angle_self by (apply U; auto). pose proof PI_RGT_0.
      apply Rmult_lt_0_compat; lra. }
    assert (UQ : unitq q0) by (rewrite <- (S _ P); apply U; auto).
    exists (Quat false q0). split; [|apply Quat_same]. rewrite V, (total_copies s q0 S), normalise_times; auto.
    apply len_pos. intros ->. destruct P.
  - exists (Quat false (ori p)). split; [apply filter_edge; auto|].
    rewrite (A p) by (auto; lia). apply Quat_same.
Qed.
Print Assumptions C55_uniform.

(** With tolerance 0 every inner pixel becomes nan; maps with a side under five
    store unchanged rotations and then raise. *)
Lemma zero_tol_close W H ori p o : (forall p, on_map W H p -> unitq (ori p)) -> in_filter W H p = true ->
  In o quadrants -> close_quats ori (cos (0 * (PI / 180) / 2)) p o = [].
Proof.
  intros U Hp Ho. assert (Z : (0 <= 0 <= 360)%R) by lra.
  pose proof (close_picked W H ori 0 U Z p Hp o Ho) as K.
  destruct (close_quats ori (cos (0 * (PI / 180) / 2)) p o) as [|c l]; auto. exfalso.
  assert (I : In c (c :: l)) by now left. apply (picked_In _ _ _ c K) in I as [I N].
  apply in_map_iff in I as (q & <- & Hq). unfold within in N.
  destruct (window_near p o q Ho Hq) as [A B].
  pose proof (rot_angle_range (ori q) (ori p)) as R.
  assert (unitq (ori q)) by (apply U, (filter_on W H ori U p Hp); auto).
  assert (unitq (ori p)) by (apply U, (filter_on W H ori U p Hp); lia).
  specialize (R H0 H1). lra.
Qed.
Theorem C55_zero_tolerance_refuted : forall W H ori p, (forall p, on_map W H p -> unitq (ori p)) ->
  2 <= fst p < W - 2 -> 2 <= snd p < H - 2 -> fst (filter_data W H ori 0) p = None.
Proof.
  intros W H ori p U Hx Hy. assert (Hp : in_filter W H p = true) by (apply in_filter_iff; auto).
  unfold filter_data. cbn [fst]. rewrite Hp. set (k := argmax_nan _).
  assert (E : close_quats ori (cos (0 * (PI / 180) / 2)) p (nth k quadrants (0, 0)) = []).
  { apply (zero_tol_close W H); auto. destruct (nth_in_or_default k quadrants (0, 0)) as [I| ->]; auto.
    right; right; right; right; left; reflexivity. }
  rewrite E. cbn [fold_left]. assert (N : normalise (Q4 0 0 0 0) = None) by now apply normalise_none.
  rewrite N. reflexivity.
Qed.
Print Assumptions C55_zero_tolerance_refuted.

Theorem C55_small_map_refuted : forall W H ori t, W < 5 \/ H < 5 ->
  snd (filter_data W H ori t) = Err UnboundLocalError /\
  forall p, on_map W H p -> unitq (ori p) ->
    exists q, fst (filter_data W H ori t) p = Some q /\ same_rot q (ori p).
Proof.
  intros W H ori t S. split.
  - unfold filter_data. cbn [snd]. replace ((5 <=? H) && (5 <=? W)) with false; auto.
    symmetry. apply andb_false_iff. rewrite !Z.leb_gt. tauto.
  - intros p Hp U. apply C55_edges_kept; auto. unfold on_map in Hp. lia.
Qed.
Print Assumptions C55_small_map_refuted.
Theorem C55_returns : forall W H ori t, 5 <= W -> 5 <= H -> snd (filter_data W H ori t) = Ok tt.
Proof.
  intros W H ori t A B. unfold filter_data. cbn [snd].
  replace ((5 <=? H) && (5 <=? W)) with true; auto. symmetry. apply andb_true_iff. rewrite !Z.leb_le. lia.
Qed.
Print Assumptions C55_returns.

(** Quaternions are added without regard to sign: on a chequerboard of two
    orientations 65 degrees apart, tolerance 90, the middle of a 5x5 map gets an
    orientation over 90 degrees from both. *)
Definition kq1 : quat := Q4 (7 / 25) (24 / 25) 0 0.
Definition kq2 : quat := Q4 (7 / 25) (- (24 / 25)) 0 0.
Definition chequer (p : pix) : quat := if Z.even (fst p + snd p) then kq1 else kq2.
Lemma kq_unit : unitq kq1 /\ unitq kq2.
Proof. unfold unitq, kq1, kq2. cbn [qw qx qy qz]. split; field. Qed.
Lemma chequer_unit p : unitq (chequer p).
Proof. unfold chequer. destruct (Z.even _); apply kq_unit. Qed.
Lemma kq_inner : inner kq1 kq2 = (- (527 / 625))%R.
Proof. unfold inner, kq1, kq2. cbn [qw qx qy qz]. field. Qed.
Lemma kq_angle a b : (a = kq1 \/ a = kq2) -> (b = kq1 \/ b = kq2) -> (rot_angle a b < 90 * (PI / 180))%R.
Proof.
  intros A B. destruct kq_unit as [U1 U2].
  assert (Ua : unitq a) by (destruct A as [->| ->]; auto). assert (Ub : unitq b) by (destruct B as [->| ->]; auto).
  pose proof PI_RGT_0 as P. pose proof (rot_angle_range a b Ua Ub) as R.
  destruct (Rlt_dec (rot_angle a b) (90 * (PI / 180))) as [L|L]; auto. exfalso.
  assert (C : (cos (rot_angle a b / 2) <= cos (PI / 4))%R) by (apply cos_decr_1; lra).
  rewrite cos_rot_angle in C by auto. rewrite cos_PI4 in C.
  assert (S : (sqrt 2 * sqrt 2 = 2)%R) by (apply sqrt_sqrt; lra). pose proof (sqrt_lt_R0 2 ltac:(lra)) as S0.
  assert (S1 : (1 / sqrt 2 < 0.72)%R).
  { apply Rmult_lt_reg_r with (sqrt 2); auto. unfold Rdiv. rewrite Rmult_1_l, Rinv_l by lra. nra. }
  assert (V : (527 / 625 <= Rabs (inner a b))%R).
  { destruct A as [->| ->], B as [->| ->].
    - rewrite (proj2 (inner_one _ _ U1 U1)) by (left; reflexivity). lra.
    - rewrite kq_inner, Rabs_Ropp, Rabs_right; lra.
    - replace (inner kq2 kq1) with (inner kq1 kq2) by (unfold inner; ring). rewrite kq_inner, Rabs_Ropp, Rabs_right; lra.
    - rewrite (proj2 (inner_one _ _ U2 U2)) by (left; reflexivity). lra. }
  lra.
Qed.
Lemma picked_all {A} (P : A -> Prop) l : (forall a, In a l -> P a) -> picked P l l.
Proof.
  induction l as [|a l IH]; intros F; constructor; [apply F; now left | apply IH; intros; apply F; now right].
Qed.
Definition kscore (s : list quat) : R := mean (map (fun c => cos (rot_angle c kq1 / 2)) s).
Lemma kcos1 : cos (rot_angle kq1 kq1 / 2) = 1%R.
Proof. rewrite rot_angle_self by apply kq_unit. replace (0 / 2)%R with 0%R by field. apply cos_0. Qed.
Lemma kcos2 : cos (rot_angle kq2 kq1 / 2) = (527 / 625)%R.
Proof.
  rewrite cos_rot_angle by apply kq_unit. replace (inner kq2 kq1) with (inner kq1 kq2) by (unfold inner; ring).
  rewrite kq_inner, Rabs_Ropp, Rabs_right; lra.
Qed.
Lemma chequer_blocks b : In b (blocks (2, 2)) ->
  map chequer b = [kq1; kq2; kq1; kq2; kq1; kq2; kq1; kq2; kq1] \/
  map chequer b = [kq2; kq1; kq2; kq1; kq2; kq1; kq2; kq1; kq2].
Proof.
  unfold blocks, block. cbn [In]. intros [<-|[<-|[<-|[<-|[<-|[<-|[<-|[<-|[]]]]]]]]]; [left|right|left|right|left|right|left|right]; reflexivity.
Qed.
Lemma kscore1 : kscore [kq1; kq2; kq1; kq2; kq1; kq2; kq1; kq2; kq1] = ((5 + 4 * (527 / 625)) / 9)%R.
Proof.
  unfold kscore, mean. cbn [map fold_right List.length]. rewrite kcos1, kcos2. rewrite !S_INR. cbn [INR]. field.
Qed.
Lemma kscore2 : kscore [kq2; kq1; kq2; kq1; kq2; kq1; kq2; kq1; kq2] = ((4 + 5 * (527 / 625)) / 9)%R.
Proof.
  unfold kscore, mean. cbn [map fold_right List.length]. rewrite kcos1, kcos2. rewrite !S_INR. cbn [INR]. field.
Qed.
Theorem C55_sign_refuted : exists q, fst (filter_data 5 5 chequer 90) (2, 2) = Some q /\
  (forall p p', (rot_angle (chequer p) (chequer p') < 90 * (PI / 180))%R) /\
  (forall p, (90 * (PI / 180) < rot_angle q (chequer p))%R).
Proof.
  destruct (C55_value 5 5 chequer 90 (2, 2)) as (k & b & s & Eb & Ks & _ & Best & _ & V);
    [intros; apply chequer_unit | lra | cbn [fst]; lia | cbn [snd]; lia |].
  change (chequer (2, 2)) with kq1 in *.
  assert (CH : forall p, chequer p = kq1 \/ chequer p = kq2).
  { intros p. unfold chequer. destruct (Z.even _); auto. }
  assert (AP : forall b', picked (fun c => within (90 * (PI / 180)) c kq1) (map chequer b') (map chequer b')).
  { intros b'. apply picked_all. intros a Ha. apply in_map_iff in Ha as (p & <- & _). apply kq_angle; auto. }
  assert (Es : s = map chequer b) by (apply (picked_det _ _ _ _ Ks (AP b))).
  assert (Ib : In b (blocks (2, 2))) by (eapply nth_error_In; eauto).
  assert (E1 : s = [kq1; kq2; kq1; kq2; kq1; kq2; kq1; kq2; kq1]).
  { rewrite Es. destruct (chequer_blocks b Ib) as [E|E]; auto. exfalso.
    destruct (Best 0%nat _ _ eq_refl (AP _)) as [B _].
    assert (F : kscore (map chequer (block (2 - 2) (2 - 2))) = kscore [kq1; kq2; kq1; kq2; kq1; kq2; kq1; kq2; kq1]) by reflexivity.
    fold (kscore (map chequer (block (2 - 2) (2 - 2)))) in B. fold (kscore s) in B.
    rewrite F, Es, E, kscore1, kscore2 in B. lra. }
  assert (T : total s = Q4 (63 / 25) (24 / 25) 0 0).
  { rewrite E1. unfold total, qzero, kq1, kq2, qsum. cbn [fold_right qw qx qy qz]. f_equal; field. }
  destruct V as (n & q & Eq & R & (Un & kk & Kp & S)).
  { rewrite T. intros X. apply (f_equal qw) in X. unfold qzero in X. cbn [qw] in X. lra. }
  exists q. split; auto. split; [intros p p'; apply kq_angle; auto|].
  rewrite T in S. injection S as S1 S2 S3 S4.
  assert (Kv : (kk * kk = 4545 / 625)%R).
  { unfold unitq in Un. assert (X : (kk * kk * (qw n * qw n + qx n * qx n + qy n * qy n + qz n * qz n) = kk * kk)%R) by (rewrite Un; ring).
    assert (Y : ((kk * qw n) * (kk * qw n) + (kk * qx n) * (kk * qx n) + (kk * qy n) * (kk * qy n) + (kk * qz n) * (kk * qz n) = kk * kk)%R) by lra.
    rewrite <- S1, <- S2, <- S3, <- S4 in Y. lra. }
  assert (Uq : unitq q) by (apply (same_rot_unit _ _ R); auto).
  intros p. pose proof PI_RGT_0 as P. pose proof (rot_angle_range q (chequer p) Uq (chequer_unit p)) as RA.
  destruct (Rlt_dec (90 * (PI / 180)) (rot_angle q (chequer p))) as [L|L]; auto. exfalso.
  assert (C : (cos (PI / 4) <= cos (rot_angle q (chequer p) / 2))%R) by (apply cos_decr_1; lra).
  rewrite cos_rot_angle in C by (auto using chequer_unit). rewrite cos_PI4 in C.
  assert (SS : (sqrt 2 * sqrt 2 = 2)%R) by (apply sqrt_sqrt; lra). pose proof (sqrt_lt_R0 2 ltac:(lra)) as S0.
  assert (S1' : (0.7 < 1 / sqrt 2)%R).
  { apply Rmult_lt_reg_r with (sqrt 2); auto. unfold Rdiv. rewrite Rmult_1_l, Rinv_l by lra. nra. }
  rewrite (Rabs_inner_same q n (chequer p) (chequer p)) in C by (auto; left; reflexivity).
  assert (I : (kk * Rabs (inner n (chequer p)) <= 1017 / 625)%R).
  { replace (kk * Rabs (inner n (chequer p)))%R with (Rabs (kk * inner n (chequer p))).
    2:{ rewrite Rabs_mult, (Rabs_right kk) by lra. reflexivity. }
    destruct (CH p) as [-> | ->]; unfold inner, kq1, kq2; cbn [qw qx qy qz].
    - replace (kk * (qw n * (7 / 25) + qx n * (24 / 25) + qy n * 0 + qz n * 0))%R
        with ((kk * qw n) * (7 / 25) + (kk * qx n) * (24 / 25))%R by ring.
      rewrite <- S1, <- S2. rewrite Rabs_right; lra.
    - replace (kk * (qw n * (7 / 25) + qx n * - (24 / 25) + qy n * 0 + qz n * 0))%R
        with ((kk * qw n) * (7 / 25) - (kk * qx n) * (24 / 25))%R by ring.
      rewrite <- S1, <- S2. rewrite Rabs_left; lra. }
  set (v := Rabs (inner n (chequer p))) in *. clearbody v.
  assert (0.7 <= v)%R by lra. assert (0.7 * kk <= 1017 / 625)%R by nra. nra.
Qed.
Print Assumptions C55_sign_refuted.
Example C55_case : exists q, fst (filter_data 5 5 chequer 90) (2, 2) = Some q.
Proof. destruct C55_sign_refuted as (q & E & _). eauto. Qed.

(** ** C56: linking grains between maps *)
Definition run_link (s : linker) (e : link_event) : linker :=
  match e with
  | ev_click b => fst (click_grain_guess s b)
  | ev_link => fst (make_link s)
  | ev_reset => reset_links s
  | ev_select i g =>
      Lk (firstn i (k_sel s) ++ match skipn i (k_sel s) with [] => [] | _ :: l => g :: l end) (k_links s)
  end.

(** Making a link needs a selection in every map; it is stored once. *)
Theorem C56_make_link : forall s,
  (forall gs, k_sel s = map Some gs ->
     let '(s', r) := make_link s in r = Ok tt /\ k_sel s' = k_sel s /\
       k_links s' = (if in_dec (list_eq_dec Z.eq_dec) gs (k_links s) then k_links s else k_links s ++ [gs])) /\
  ((exists i, nth_error (k_sel s) i = Some None) -> make_link s = (s, Err GenericException)).
Proof.
  intros s. unfold make_link. split.
  - intros gs E. rewrite (proj2 (all_selected_spec _ _) E).
    destruct (existsb (zlist_eqb gs) (k_links s)) eqn:X.
    + apply links_mem in X. split; auto. split; auto. destruct (in_dec _ _ _); auto. contradiction.
    + split; auto. split; auto. cbn [k_links]. destruct (in_dec _ _ _) as [I|I]; auto.
      apply links_mem in I. congruence.
  - intros (i & E). destruct (all_selected (k_sel s)) as [gs|] eqn:A; auto. exfalso.
    apply all_selected_spec in A. rewrite A, nth_error_map in E. destruct (nth_error gs i); discriminate.
Qed.
Print Assumptions C56_make_link.

(** After any history the links are distinct and have one grain per map. *)
Theorem C56_links_invariant : forall n es,
  let s := fold_left run_link es (Lk (repeat None n) []) in
  List.length (k_sel s) = n /\ NoDup (k_links s) /\ forall l, In l (k_links s) -> List.length l = n.
Proof.
  intros n es.
  assert (G : forall s, List.length (k_sel s) = n /\ NoDup (k_links s) /\ (forall l, In l (k_links s) -> List.length l = n) ->
     let s' := fold_left run_link es s in
     List.length (k_sel s') = n /\ NoDup (k_links s') /\ forall l, In l (k_links s') -> List.length l = n).
  { induction es as [|e es IH]; intros s I; cbn [fold_left]; auto. apply IH. clear IH.
    destruct I as (A & B & C). destruct e as [b| | |i g]; cbn [run_link].
    - destruct b; cbn; auto.
    - unfold make_link. destruct (all_selected (k_sel s)) as [gs|] eqn:E; [|cbn [fst]; auto].
      destruct (existsb (zlist_eqb gs) (k_links s)) eqn:X; cbn [fst k_sel k_links]; auto.
      split; auto. split.
      + apply NoDup_rev in B. rewrite <- (rev_involutive (k_links s ++ [gs])), rev_app_distr.
        apply NoDup_rev. cbn [rev app]. constructor; auto. rewrite <- in_rev. intros I. apply links_mem in I. congruence.
      + intros l Hl. apply in_app_or in Hl as [Hl|[<-|[]]]; auto. apply all_selected_spec in E.
        rewrite <- A, E, map_length. reflexivity.
    - cbn. split; auto. split; [constructor | intros l []].
    - cbn [k_sel k_links]. split; auto. rewrite app_length, firstn_length.
      pose proof (skipn_length i (k_sel s)) as L. destruct (skipn i (k_sel s)) as [|x l]; cbn [List.length] in *; lia. }
  apply G. cbn [k_sel k_links]. split; [apply repeat_length|]. split; [constructor | intros l []].
Qed.
Print Assumptions C56_links_invariant.

(** The linking plots themselves cannot select anything: a click on a map raises,
    and however often the user clicks and presses the button no link is made. *)
Theorem C56_clicks_refuted :
  (forall s, click_grain_guess s true = (s, Err AttributeError)) /\
  (forall n es, (0 < n)%nat -> (forall e, In e es -> forall i g, e <> ev_select i g) ->
     k_links (fold_left run_link es (Lk (repeat None n) [])) = []).
Proof.
  split; [reflexivity|]. intros n es Hn.
  assert (S : k_sel (Lk (repeat None n) []) = repeat None n) by reflexivity.
  assert (L : k_links (Lk (repeat None n) []) = []) by reflexivity.
  revert S L. generalize (Lk (repeat None n) []). induction es as [|e es IH]; intros s S L A; cbn [fold_left]; auto.
  assert (F : k_sel (run_link s e) = repeat None n /\ k_links (run_link s e) = []).
  { destruct e as [b| | |i g]; cbn [run_link].
    - destruct b; cbn; auto.
    - unfold make_link. rewrite S. destruct n as [|n]; [lia|]. cbn [repeat all_selected fst]. auto.
    - cbn. auto.
    - exfalso. apply (A (ev_select i g) (or_introl eq_refl) i g eq_refl). }
  destruct F as [F1 F2]. apply IH; auto. intros e' He'. apply A. now right.
Qed.
Print Assumptions C56_clicks_refuted.

(** Links need not be one to one: two links can share a grain. *)
Theorem C56_one_to_one_refuted : exists es,
  k_links (fold_left run_link es (Lk (repeat None 2) [])) = [[3; 5]; [3; 6]].
Proof.
  exists [ev_select 0 (Some 3); ev_select 1 (Some 5); ev_link; ev_select 1 (Some 6); ev_link]. reflexivity.
Qed.
Print Assumptions C56_one_to_one_refuted.

(** Reference orientations are taken from the first map: that of the last link
    naming the grain; all others are kept. *)
Theorem C56_reference : forall n links r, (1 <= n)%nat -> (forall l, In l links -> List.length l = n) ->
  let r' := set_ref_ori_from_master n links r in
  (forall g, r' 0 g = r 0 g) /\
  forall i g, (1 <= i < n)%nat ->
    (forall l g0, last_link i g links = Some l -> nth_error l 0 = Some g0 -> r' (Z.of_nat i) g = r 0 g0) /\
    ((forall l, In l links -> nth_error l i <> Some g) -> r' (Z.of_nat i) g = r (Z.of_nat i) g).
Proof.
  intros n links r Hn L.
  destruct (set_ref_all (n - 1) 1 links r) as [A B]; [lia | intros l Il; specialize (L l Il); lia |].
  cbv zeta. unfold set_ref_ori_from_master. split.
  - intros g. apply A. intros i Hi. lia.
  - intros i g Hi. split.
    + intros l g0 E0 E1. rewrite B by lia. rewrite E0, E1. reflexivity.
    + intros N. rewrite B by lia. destruct (last_link i g links) as [l|] eqn:E; auto.
      exfalso. apply last_link_In in E as [I X]. exact (N l I X).
Qed.
Print Assumptions C56_reference.

(** ** C70: slip traces *)
(** The trace, at the returned angle from the vertical axis of the map, is
    perpendicular to the plane normal turned into the map frame; the inclination is
    the acute angle of the plane to the map. *)
Theorem C70_perpendicular : forall q n th inc, unitq q -> (0 <= qw q)%R -> sprod n n = 1%R ->
  slip_trace q n = Some (th, inc) ->
  let s := mapply (transpose (rot_matrix q)) n in
  (0 <= th <= PI)%R /\ sprod (V3 (- sin th) (cos th) 0) s = 0%R /\
  (0 <= inc <= PI / 2)%R /\ cos inc = Rabs (vz s).
Proof.
  intros q n th inc Uq Nq Un E. destruct (slip_trace_line q n th inc Uq Nq Un E) as (A & B & C).
  cbv zeta. split; auto. split; auto. unfold sprod. cbn [vx vy vz]. rewrite Rmult_0_l, Rplus_0_r. exact B.
Qed.
Print Assumptions C70_perpendicular.
(** No trace (nan) exactly for a plane parallel to the map. *)
Theorem C70_nan : forall q n, unitq q -> (0 <= qw q)%R ->
  (slip_trace q n = None <->
   let s := mapply (transpose (rot_matrix q)) n in vx s = 0%R /\ vy s = 0%R).
Proof. intros. now apply slip_trace_nan. Qed.
Print Assumptions C70_nan.
(** A plane given by the opposite normal has the same inclination and the same trace
    line; a vertical line may be given as 0 or as pi. *)
Lemma mapply_neg m v : mapply m (vscale (-1) v) = vscale (-1) (mapply m v).
Proof. unfold mapply, sprod, vscale. cbn [vx vy vz]. f_equal; ring. Qed.
Theorem C70_opposite_normal : forall q n th inc, unitq q -> (0 <= qw q)%R -> sprod n n = 1%R ->
  slip_trace q n = Some (th, inc) ->
  exists th', slip_trace q (vscale (-1) n) = Some (th', inc) /\
    (th' = th \/ th = 0%R /\ th' = PI \/ th = PI /\ th' = 0%R).
Proof.
  intros q n th inc Uq Nq Un E.
  assert (Un' : sprod (vscale (-1) n) (vscale (-1) n) = 1%R) by (rewrite <- Un; unfold sprod, vscale; cbn [vx vy vz]; ring).
  destruct (slip_trace q (vscale (-1) n)) as [[th' inc']|] eqn:E'.
  2:{ exfalso. apply slip_trace_nan in E'; auto. cbv zeta in E'. rewrite mapply_neg in E'.
      assert (slip_trace q n = None); [|congruence]. apply slip_trace_nan; auto. cbv zeta.
      unfold vscale in E'. cbn [vx vy vz] in E'. lra. }
  destruct (slip_trace_line q n th inc Uq Nq Un E) as (A & B & C & D).
  destruct (slip_trace_line q _ th' inc' Uq Nq Un' E') as (A' & B' & C' & D').
  rewrite mapply_neg in B', D'. set (s := mapply (transpose (rot_matrix q)) n) in *.
  unfold vscale in B', D'. cbn [vx vy vz] in B', D'.
  assert (NZ : ~ (vx s = 0%R /\ vy s = 0%R)).
  { intros Z. assert (slip_trace q n = None); [|congruence]. apply slip_trace_nan; auto. }
  clearbody s. exists th'. split.
  - f_equal. f_equal. apply cos_inj; try lra. rewrite D, D'. replace (-1 * vz s)%R with (- vz s)%R by ring. apply Rabs_Ropp.
  - assert (Z : sin (th - th') = 0%R).
    { rewrite sin_minus.
      assert (X : ((sin th * cos th' - cos th * sin th') * vx s = 0)%R).
      { transitivity ((- cos th') * (- sin th * vx s + cos th * vy s) + cos th * (cos th' * vy s - sin th' * vx s))%R; [ring|].
        rewrite B. replace (cos th' * vy s - sin th' * vx s)%R with (- (- sin th' * (-1 * vx s) + cos th' * (-1 * vy s)))%R by ring.
        rewrite B'. ring. }
      assert (Y : ((sin th * cos th' - cos th * sin th') * vy s = 0)%R).
      { transitivity ((- sin th') * (- sin th * vx s + cos th * vy s) + sin th * (cos th' * vy s - sin th' * vx s))%R; [ring|].
        rewrite B. replace (cos th' * vy s - sin th' * vx s)%R with (- (- sin th' * (-1 * vx s) + cos th' * (-1 * vy s)))%R by ring.
        rewrite B'. ring. }
      apply Rmult_integral in X as [X|X]; auto. apply Rmult_integral in Y as [Y|Y]; auto. exfalso. auto. }
    pose proof PI_RGT_0 as P.
    destruct (Req_dec th th') as [->|N]; [left; reflexivity|right].
    destruct (Rlt_le_dec 0 (th - th')) as [L|L].
    + destruct (Rlt_le_dec (th - th') PI) as [L2|L2]; [pose proof (sin_gt_0 _ L L2); lra|]. lra.
    + destruct (Rlt_le_dec (th' - th) PI) as [L2|L2]; [|lra].
      assert (L3 : (0 < th' - th)%R) by lra. pose proof (sin_gt_0 _ L3 L2) as G.
      replace (th - th')%R with (- (th' - th))%R in Z by ring. rewrite sin_neg in Z. lra.
Qed.
Print Assumptions C70_opposite_normal.
Lemma rot_one : rot_matrix (Q4 1 0 0 0) = mone.
Proof. unfold rot_matrix, mone. cbn [qw qx qy qz]. f_equal; f_equal; ring. Qed.
(** Both values occur: the plane (1 0 0) and the same plane as (-1 0 0). *)
Theorem C70_vertical_ambiguous_refuted :
  slip_trace (Q4 1 0 0 0) (V3 1 0 0) = Some (0%R, (PI / 2)%R) /\
  slip_trace (Q4 1 0 0 0) (V3 (-1) 0 0) = Some (PI, (PI / 2)%R).
Proof.
  assert (U : unitq (Q4 1 0 0 0)) by (unfold unitq; cbn [qw qx qy qz]; ring).
  assert (N : (0 <= qw (Q4 1 0 0 0))%R) by (cbn [qw]; lra).
  assert (M : forall v, mapply (transpose (rot_matrix (Q4 1 0 0 0))) v = v).
  { intros v. rewrite rot_one. unfold transpose, mone, col0, col1, col2. cbn [r0 r1 r2 vx vy vz].
    destruct v as [a b c]. unfold mapply, sprod. cbn [r0 r1 r2 vx vy vz]. f_equal; ring. }
  pose proof PI_RGT_0 as P.
  split; rewrite (slip_trace_sample _ _ U N), M; cbv zeta; cbn [vx vy vz];
    rewrite acos_0; (destruct (Rlt_dec (PI / 2) (PI / 2)) as [L|_]; [lra|]).
  - replace (0 * 0 + 1 * 1)%R with 1%R by ring. rewrite sqrt_1. destruct (Req_EM_T 1 0) as [L|_]; [lra|].
    destruct (Rlt_dec 0 (- 0 / 1)) as [L|_]; [lra|]. unfold vdot. cbn [vx vy vz].
    f_equal. f_equal. replace (- 0 / 1 * 0 + 1 / 1 * 1 + 0 / 1 * 0)%R with 1%R by field. apply acos_1.
  - replace (0 * 0 + -1 * -1)%R with 1%R by ring. rewrite sqrt_1. destruct (Req_EM_T 1 0) as [L|_]; [lra|].
    destruct (Rlt_dec 0 (- 0 / 1)) as [L|_]; [lra|]. unfold vdot. cbn [vx vy vz].
    f_equal. f_equal. replace (- 0 / 1 * 0 + -1 / 1 * 1 + 0 / 1 * 0)%R with (- (1))%R by field. rewrite acos_opp, acos_1. ring.
Qed.
Print Assumptions C70_vertical_ambiguous_refuted.

(** ** C71: misorientation within a grain *)
Lemma closest_max g r q c : equivalent (sym_eqv g) q c -> Rabs (inner r c) = mis_ori r q g -> closest g r q c.
Proof.
  intros E M. split; auto. intros c' (s & Is & Es). rewrite M.
  destruct (mis_ori_greatest r q g) as [G _]. specialize (G s Is). cbv beta in G.
  rewrite (Rabs_inner_same r r c' (hprod s q)) by (auto; left; reflexivity). exact G.
Qed.
Lemma calcMisOri_length l g r : List.length (calcMisOri (calc_sym_eqvs l g) r) = List.length l.
Proof. unfold calcMisOri, calc_sym_eqvs. now rewrite map_length, seq_length. Qed.
Lemma equiv_unit g q c : unitq q -> equivalent (sym_eqv g) q c -> unitq c.
Proof.
  intros U (s & Is & Es). destruct (sym_group g) as (_ & V & _). apply (same_rot_unit _ _ Es). apply unitq_hprod; auto.
Qed.
(** For each point: the angle and the axis of the rotation from the reference (the
    stored one, else the average) to the closest equivalent of the point; the axis
    is nan when they coincide. *)
Theorem C71_grod : forall ref oris g out, (forall r, ref = Some r -> unitq r) -> (forall q, In q oris -> unitq q) ->
  calc_grod ref oris g = Some out ->
  exists r, unitq r /\ (ref = Some r \/ ref = None /\ calc_average_ori (calc_sym_eqvs oris g) = Some r) /\
  List.length out = List.length oris /\
  forall i q, nth_error oris i = Some q ->
    exists ang ax c, nth_error out i = Some (ang, ax) /\ closest g r q c /\ ang = rot_angle r c /\
      (ax = None <-> equivalent (sym_eqv g) q r) /\
      forall a, ax = Some a -> mapply (rot_matrix (hprod c (hconj r))) a = a /\ sqrt (sprod a a) = ang /\
        exists D, from_axis_angle a (- ang) = Some D /\ same_rot D (hprod c (hconj r)).
Proof.
  intros ref oris g out Ur Uo E. unfold calc_grod in E.
  destruct (ref_or_average ref oris g) as [r|] eqn:R; [|discriminate].
  remember (calcMisOri (calc_sym_eqvs oris g) r) as mm eqn:Emm. injection E as <-. subst mm.
  pose proof (ref_or_average_unit ref oris g r Ur R) as U. exists r. split; auto. split; [|split].
  - destruct ref as [r'|]; cbn [ref_or_average] in R; [left; congruence | right; auto].
  - rewrite map_length. apply calcMisOri_length.
  - intros i q Ei. pose proof (Uo q (nth_error_In _ _ Ei)) as Uq.
    destruct (calcMisOri_spec oris g r i q U Ei Uq) as (m & c & En & Em & Ec & Ia).
    pose proof (equiv_unit g q c Uq Ec) as Uc.
    exists (2 * acos m)%R, (grod_axis r c), c. rewrite nth_error_map, En. cbn [option_map fst snd].
    assert (An : (2 * acos m)%R = rot_angle r c) by (unfold rot_angle; congruence).
    split; auto. split; [apply closest_max; congruence|]. split; auto. rewrite grod_axis_eq. split.
    + rewrite mis_axis_none by auto. rewrite <- (inner_one r c U Uc), Ia, Em, (mis_ori_one r q g U Uq). reflexivity.
    + intros a Ea. rewrite An. apply mis_axis_some; auto.
Qed.
Print Assumptions C71_grod.

(** A grain of identical orientations: every angle is 0, and every axis nan. *)
Theorem C71_identical : forall q n g, unitq q -> (0 <= qw q)%R ->
  exists out, calc_grod None (repeat q (S n)) g = Some out /\ List.length out = S n /\
    forall x, In x out -> x = (0%R, None).
Proof.
  intros q n g U N.
  assert (Av : calc_average_ori (calc_sym_eqvs (repeat q (S n)) g) = Some q) by now apply average_copies.
  destruct (calc_grod None (repeat q (S n)) g) as [out|] eqn:E.
  2:{ exfalso. unfold calc_grod, ref_or_average in E. rewrite Av in E. discriminate. }
  exists out. split; auto.
  destruct (C71_grod None (repeat q (S n)) g out) as (r & Ur & Er & L & P); auto; [discriminate | intros q' Hq; apply repeat_spec in Hq; now subst |].
  rewrite repeat_length in L. split; auto.
  assert (r = q) as -> by (destruct Er as [X|[_ X]]; [discriminate | congruence]).
  intros x Hx. apply In_nth_error in Hx as (i & Hi).
  assert (Li : (i < S n)%nat) by (rewrite <- L; apply nth_error_Some; congruence).
  assert (Ei : nth_error (repeat q (S n)) i = Some q).
  { destruct (nth_error (repeat q (S n)) i) as [z|] eqn:Z.
    - f_equal. apply nth_error_In in Z. now apply repeat_spec in Z.
    - apply nth_error_None in Z. rewrite repeat_length in Z. lia. }
  destruct (P i q Ei) as (ang & ax & c & En & [Cq Cm] & Ea & Ax & _).
  rewrite Hi in En. injection En as ->. f_equal.
  - pose proof (Cm q (equivalent_refl g q)) as K. rewrite (proj2 (inner_one q q U U)) in K by (left; reflexivity).
    pose proof (inner_bound q c U (equiv_unit g q c U Cq)) as K2.
    rewrite Ea. unfold rot_angle. replace (Rabs (inner q c)) with 1%R by lra. rewrite acos_1. ring.
  - apply Ax. apply equivalent_refl.
Qed.
Print Assumptions C71_identical.

(** The misorientation list and its mean are cosines of half the angles, from the
    same reference. *)
Theorem C71_list : forall ref oris g ms axs av, (forall r, ref = Some r -> unitq r) -> (forall q, In q oris -> unitq q) ->
  build_mis_ori_list ref oris g = Some (ms, axs, av) ->
  exists out, calc_grod ref oris g = Some out /\ axs = map snd out /\
    ms = map (fun x => cos (fst x / 2)) out /\ av = mean ms.
Proof.
  intros ref oris g ms axs av Ur Uo E. unfold build_mis_ori_list in E. unfold calc_grod.
  destruct (ref_or_average ref oris g) as [r|] eqn:R; [|discriminate].
  remember (calcMisOri (calc_sym_eqvs oris g) r) as mm eqn:Emm. injection E as <- <- <-. subst mm.
  pose proof (ref_or_average_unit ref oris g r Ur R) as U. eexists. split; [reflexivity|].
  split; [rewrite map_map; reflexivity|]. split.
  - rewrite map_map. cbn [fst]. apply map_ext_in. intros mc Hm. apply In_nth_error in Hm as (i & Hi).
    assert (Li : (i < List.length oris)%nat).
    { rewrite <- (calcMisOri_length oris g r). apply nth_error_Some. congruence. }
    destruct (nth_error oris i) as [q|] eqn:Ei; [|apply nth_error_None in Ei; lia].
    pose proof (Uo q (nth_error_In _ _ Ei)) as Uq.
    destruct (calcMisOri_spec oris g r i q U Ei Uq) as (m & c & En & Em & _). rewrite Hi in En. injection En as ->.
    cbn [fst]. pose proof (mis_ori_range r q g U Uq) as Rg.
    replace (2 * acos m / 2)%R with (acos m) by field. rewrite cos_acos; lra.
  - unfold mean. rewrite fold_plus, map_length. f_equal. ring.
Qed.
Print Assumptions C71_list.
(** So the average "misorientation" of a grain of identical orientations is 1. *)
Theorem C71_average_refuted : forall q n g, unitq q -> (0 <= qw q)%R ->
  exists ms axs, build_mis_ori_list None (repeat q (S n)) g = Some (ms, axs, 1%R).
Proof.
  intros q n g U N. destruct (C71_identical q n g U N) as (out & E & L & Z).
  destruct (build_mis_ori_list None (repeat q (S n)) g) as [[[ms axs] av]|] eqn:B.
  2:{ exfalso. unfold build_mis_ori_list, ref_or_average in B. rewrite average_copies in B by auto. discriminate. }
  destruct (C71_list None (repeat q (S n)) g ms axs av) as (out' & E' & _ & Em & Ea); auto;
    [discriminate | intros q' Hq; apply repeat_spec in Hq; now subst |].
  assert (out' = out) by congruence. subst out'. exists ms, axs. do 3 f_equal.
  assert (O : forall v, In v ms -> v = 1%R).
  { rewrite Em. intros v Hv. apply in_map_iff in Hv as (x & <- & Hx). apply Z in Hx. subst x. cbn [fst].
    replace (0 / 2)%R with 0%R by field. apply cos_0. }
  assert (Lm : List.length ms = S n) by (rewrite Em, map_length; auto).
  rewrite Ea. unfold mean.
  assert (S : fold_right Rplus 0%R ms = INR (List.length ms)).
  { clear -O. induction ms as [|v ms IH]; cbn [fold_right List.length]; auto.
    rewrite IH by (intros; apply O; now right). rewrite (O v) by now left. rewrite S_INR. ring. }
  rewrite S, Lm. field. rewrite S_INR. pose proof (pos_INR n). lra.
Qed.
Print Assumptions C71_average_refuted.
Example C71_case : exists out, calc_grod None (repeat (Q4 1 0 0 0) 3) "cubic" = Some out /\ List.length out = 3%nat.
Proof.
  destruct (C71_identical (Q4 1 0 0 0) 2 "cubic") as (out & A & B & _);
    [unfold unitq; cbn [qw qx qy qz]; ring | cbn [qw]; lra | eauto].
Qed.

(** ** C82: the Schmid factor map *)
(** [a] is the element with Python index [i]. *)
Definition at_index {A} (l : list A) (i : Z) (a : A) : Prop :=
  exists k, (i = Z.of_nat k \/ i = Z.of_nat k - Z.of_nat (List.length l)) /\ nth_error l k = Some a.
(** [v] is the factor of a slip system the user asked for. *)
Definition wanted {A} (sfs : list (list A)) (planes directions : option (list Z)) (v : A) : Prop :=
  exists p d grp, (forall ps, planes = Some ps -> In p ps) /\ (forall ds, directions = Some ds -> In d ds) /\
    at_index sfs p grp /\ at_index grp d v.

Lemma py_get_at {A} (l : list A) i a : py_get l i = Ok a <-> at_index l i a.
Proof.
  unfold py_get, at_index, np_index. set (n := Z.of_nat (List.length l)).
  assert (B : forall k b, nth_error l k = Some b -> Z.of_nat k < n).
  { intros k b E. unfold n. assert (k < List.length l)%nat by (apply nth_error_Some; congruence). lia. }
  split.
  - destruct ((0 <=? i) && (i <? n)) eqn:C.
    + apply andb_true_iff in C as [C1 C2]. apply Z.leb_le in C1. apply Z.ltb_lt in C2.
      destruct (nth_error l (Z.to_nat i)) as [x|] eqn:E; [|discriminate]. intros [= <-].
      exists (Z.to_nat i). split; auto. left. lia.
    + destruct ((- n <=? i) && (i <? 0)) eqn:D; [|discriminate].
      apply andb_true_iff in D as [D1 D2]. apply Z.leb_le in D1. apply Z.ltb_lt in D2.
      destruct (nth_error l (Z.to_nat (i + n))) as [x|] eqn:E; [|discriminate]. intros [= <-].
      exists (Z.to_nat (i + n)). split; auto. right. lia.
  - intros (k & [->| ->] & E); pose proof (B k a E).
    + replace ((0 <=? Z.of_nat k) && (Z.of_nat k <? n)) with true
        by (symmetry; apply andb_true_iff; rewrite Z.leb_le, Z.ltb_lt; lia).
      rewrite Nat2Z.id, E. reflexivity.
    + replace ((0 <=? Z.of_nat k - n) && (Z.of_nat k - n <? n)) with false
        by (symmetry; apply andb_false_iff; rewrite Z.leb_gt, Z.ltb_ge; lia).
      replace ((- n <=? Z.of_nat k - n) && (Z.of_nat k - n <? 0)) with true
        by (symmetry; apply andb_true_iff; rewrite Z.leb_le, Z.ltb_lt; lia).
      replace (Z.of_nat k - n + n) with (Z.of_nat k) by lia. rewrite Nat2Z.id, E. reflexivity.
Qed.
Lemma at_index_In {A} (l : list A) a : In a l <-> exists i, at_index l i a.
Proof.
  split.
  - intros I. apply In_nth_error in I as (k & E). exists (Z.of_nat k), k. auto.
  - intros (i & k & _ & E). eapply nth_error_In; eauto.
Qed.

Lemma dirs_loop {A} (sfs : list (list A)) pl grp ds : at_index sfs pl grp -> forall acc l,
  for_each (fun (acc : list A) d => do grp <- py_get sfs pl; do v <- py_get grp d; Ok (acc ++ [v])) ds acc = Ok l ->
  forall v, @In A v l <-> @In A v acc \/ exists d, In d ds /\ at_index grp d v.
Proof.
  intros G. apply py_get_at in G. induction ds as [|d ds IH]; cbn [for_each]; intros acc l E v.
  - injection E as <-. split; auto. intros [I|(d & [] & _)]; auto.
  - rewrite G in E, IH. cbn [bind] in E, IH. destruct (py_get grp d) as [w|] eqn:D; [|discriminate]. cbn [bind] in E.
    rewrite (IH _ _ E v), in_app_iff. cbn [In]. apply py_get_at in D. split.
    + intros [[I|[<-|[]]]|(d' & I & X)]; eauto.
    + intros [I|(d' & [->|I] & X)]; eauto. left; right; left. apply py_get_at in D, X. congruence.
Qed.
Lemma dirs_index {A} (sfs : list (list A)) pl ds acc l : ds <> [] ->
  for_each (fun (acc : list A) d => do grp <- py_get sfs pl; do v <- py_get grp d; Ok (acc ++ [v])) ds acc = Ok l ->
  exists grp, at_index sfs pl grp.
Proof.
  destruct ds as [|d ds]; [congruence|]. intros _. cbn [for_each].
  destruct (py_get sfs pl) as [grp|] eqn:E; [|discriminate]. intros _. exists grp. now apply py_get_at.
Qed.
Lemma chosen_spec {A} (sfs : list (list A)) planes directions l : planes <> None \/ directions = None ->
  chosen_factors sfs planes directions = Ok l -> forall v, In v l <-> wanted sfs planes directions v.
Proof.
  intros C. unfold chosen_factors. destruct planes as [ps|].
  - assert (K : forall acc l,
      for_each (fun (acc : list A) pl =>
        match directions with
        | Some ds =>
            for_each (fun (acc : list A) d => do grp <- py_get sfs pl; do v <- py_get grp d; Ok (acc ++ [v])) ds acc
        | None => do grp <- py_get sfs pl; Ok (acc ++ grp)
        end) ps acc = Ok l ->
      forall v, In v l <-> In v acc \/ exists p d grp, In p ps /\ (forall ds, directions = Some ds -> In d ds) /\
        at_index sfs p grp /\ at_index grp d v).
    { clear C. induction ps as [|p ps IH]; cbn [for_each]; intros acc l' E v.
      - injection E as <-. split; auto. intros [I|(p & d & grp & [] & _)]; auto.
      - destruct directions as [ds|].
        + destruct (for_each _ ds acc) as [acc'|] eqn:F; [|discriminate]. cbn [bind] in E.
          rewrite (IH _ _ E v). clear IH E.
          destruct ds as [|d0 ds0].
          * cbn [for_each] in F. injection F as <-. split; intros [I|(p' & d & grp & I & D & X)]; auto;
              destruct (D [] eq_refl).
          * destruct (dirs_index sfs p (d0 :: ds0) acc acc' ltac:(congruence) F) as (grp & G).
            rewrite (dirs_loop sfs p grp (d0 :: ds0) G acc acc' F v). split.
            -- intros [[I|(d & I & X)]|(p' & d & grp' & I & D & X)]; auto.
               ++ right. exists p, d, grp. split; [now left|]. split; [intros ? [= <-]; auto|]. auto.
               ++ right. exists p', d, grp'. split; [now right|]. auto.
            -- intros [I|(p' & d & grp' & [->|I] & D & X1 & X2)]; auto.
               ++ left; right. exists d. split; [auto|]. apply py_get_at in G, X1.
                  assert (grp' = grp) by congruence. now subst.
               ++ right. exists p', d, grp'. auto.
        + destruct (py_get sfs p) as [grp|] eqn:G; [|discriminate]. cbn [bind] in E.
          rewrite (IH _ _ E v), in_app_iff. apply py_get_at in G. split.
          * intros [[I|I]|(p' & d & grp' & I & D & X)]; auto.
            -- right. apply at_index_In in I as (d & I). exists p, d, grp. split; [now left|]. split; [discriminate|]. auto.
            -- right. exists p', d, grp'. split; [now right|]. auto.
          * intros [I|(p' & d & grp' & [->|I] & D & X1 & X2)]; auto.
            -- left; right. apply py_get_at in G, X1. assert (grp' = grp) by congruence. subst.
               apply at_index_In. eauto.
            -- right. exists p', d, grp'. auto. }
    intros E v. rewrite (K [] l E v). split.
    + intros [[]|(p & d & grp & I & X)]. exists p, d, grp. split; auto. intros ? [= <-]. auto.
    + intros (p & d & grp & I & X). right. exists p, d, grp. split; auto.
  - destruct C as [C| ->]; [congruence|]. intros [= <-] v. rewrite in_concat. split.
    + intros (grp & I & J). apply at_index_In in I as (p & I), J as (d & J). exists p, d, grp.
      split; [discriminate|]. split; [discriminate|]. auto.
    + intros (p & d & grp & _ & _ & I & J). exists grp. split; apply at_index_In; eauto.
Qed.
Lemma fold_Rmax l : forall a, (a <= fold_left Rmax l a)%R /\ (forall x, In x l -> (x <= fold_left Rmax l a)%R) /\
  (fold_left Rmax l a = a \/ In (fold_left Rmax l a) l).
Proof.
  induction l as [|x l IH]; intros a; cbn [fold_left In]; [split; [lra|]; split; [intros _ []|auto]|].
  destruct (IH (Rmax a x)) as (A & B & C). pose proof (Rmax_l a x). pose proof (Rmax_r a x). split; [lra|]. split.
  - intros y [<-|I]; [lra|auto].
  - destruct C as [C|C]; auto. rewrite C. unfold Rmax. destruct (Rle_dec a x); auto.
Qed.

(** The value shown is the greatest of the factors asked for, unless directions are
    given without planes. *)
Theorem C82_greatest_partial : forall sfs planes directions m, planes <> None \/ directions = None ->
  shown_factor sfs planes directions = Ok m ->
  wanted sfs planes directions m /\ forall v, wanted sfs planes directions v -> (v <= m)%R.
Proof.
  intros sfs planes directions m C E. unfold shown_factor in E.
  destruct (chosen_factors sfs planes directions) as [l|] eqn:L; [|discriminate]. cbn [bind] in E.
  pose proof (chosen_spec _ _ _ _ C L) as S. destruct l as [|a l]; [discriminate|]. injection E as <-.
  destruct (fold_Rmax l a) as (A & B & D). split.
  - apply S. cbn [In]. destruct D as [->|D]; auto.
  - intros v W. apply S in W as [<-|I]; auto.
Qed.
Print Assumptions C82_greatest_partial.

Theorem C82_directions_ignored_refuted :
  (forall sfs ds, shown_factor sfs None (Some ds) = shown_factor sfs None None) /\
  exists sfs ds m, shown_factor sfs None (Some ds) = Ok m /\ ~ wanted sfs None (Some ds) m.
Proof.
  split; [reflexivity|]. exists [[1 / 10; 4 / 10]%R], [0], (Rmax (1 / 10) (4 / 10)). split; [reflexivity|].
  intros (p & d & grp & _ & D & (k & _ & G) & (j & J & V)). specialize (D _ eq_refl). destruct D as [<-|[]].
  destruct k as [|[|k]]; try discriminate. injection G as <-. cbn [List.length] in J.
  assert (j = 0%nat) as -> by lia || (destruct J as [J|J]; [lia|]; assert (j = 2%nat) by lia; subst j; discriminate).
  injection V as V. unfold Rmax in V. destruct (Rle_dec (1 / 10) (4 / 10)); lra.
Qed.
Print Assumptions C82_directions_ignored_refuted.

Lemma chosen_total {A} (sfs : list (list A)) planes directions :
  (forall ps p, planes = Some ps -> In p ps -> exists grp, at_index sfs p grp /\
      forall ds d, directions = Some ds -> In d ds -> exists v, at_index grp d v) ->
  exists l, chosen_factors sfs planes directions = Ok l.
Proof.
  intros V. unfold chosen_factors. destruct planes as [ps|]; [|eauto].
    assert (V' : forall p, In p ps -> exists grp, at_index sfs p grp /\
      forall ds d, directions = Some ds -> In d ds -> exists v, at_index grp d v) by (intros; eapply V; eauto).
    clear V. enough (G : forall acc, exists l, for_each (fun (acc : list A) pl =>
        match directions with
        | Some ds =>
            for_each (fun (acc : list A) d => do grp <- py_get sfs pl; do v <- py_get grp d; Ok (acc ++ [v])) ds acc
        | None => do grp <- py_get sfs pl; Ok (acc ++ grp)
        end) ps acc = Ok l) by apply G.
    induction ps as [|p ps IH]; cbn [for_each]; intros acc; eauto.
    destruct (V' p (or_introl eq_refl)) as (grp & G & D). apply py_get_at in G.
    assert (IH' : forall acc, exists l, for_each (fun (acc : list A) pl =>
        match directions with
        | Some ds =>
            for_each (fun (acc : list A) d => do grp <- py_get sfs pl; do v <- py_get grp d; Ok (acc ++ [v])) ds acc
        | None => do grp <- py_get sfs pl; Ok (acc ++ grp)
        end) ps acc = Ok l) by (apply IH; intros; apply V'; now right). clear IH V'.
    destruct directions as [ds|].
    - assert (exists l, for_each (fun (acc : list A) d => do grp <- py_get sfs p; do v <- py_get grp d; Ok (acc ++ [v])) ds acc = Ok l) as (l & ->).
      { assert (D' : forall d, In d ds -> exists v, at_index grp d v) by eauto. clear D IH'.
        revert acc. induction ds as [|d ds IH]; cbn [for_each]; eauto. intros acc. rewrite G in IH |- *. cbn [bind] in IH |- *.
        destruct (D' d (or_introl eq_refl)) as (v & X). apply py_get_at in X. rewrite X. cbn [bind].
        apply IH. intros; apply D'; now right. }
      cbn [bind]. apply IH'.
    - rewrite G. cbn [bind]. apply IH'.
Qed.
(** No factor, or an index out of range: an error, never a default. *)
Theorem C82_total : forall sfs planes directions, planes <> None \/ directions = None ->
  (forall ps p, planes = Some ps -> In p ps -> exists grp, at_index sfs p grp /\
      forall ds d, directions = Some ds -> In d ds -> exists v, at_index grp d v) ->
  ((exists v, wanted sfs planes directions v) <-> exists m, shown_factor sfs planes directions = Ok m).
Proof.
  intros sfs planes directions C V.
  destruct (chosen_total sfs planes directions V) as (l & L).
  pose proof (chosen_spec _ _ _ _ C L) as S. unfold shown_factor. rewrite L. cbn [bind]. split.
  - intros (v & X). apply S in X. destruct l; [destruct X | eauto].
  - intros (m & E). destruct l as [|a l]; [discriminate|]. exists a. apply S. now left.
Qed.
Print Assumptions C82_total.
Example C82_case : exists m, shown_factor [[1 / 10; 4 / 10]; [2 / 10]]%R (Some [0; 1]) (Some [0]) = Ok m.
Proof. eexists. reflexivity. Qed.

(** ** C83: misorientation across a grain boundary segment *)
Lemma unit_axis a D ang : from_axis_angle a ang = Some D ->
  let n := sqrt (vdot a a) in
  n <> 0%R /\ from_axis_angle (V3 (vx a / n) (vy a / n) (vz a / n)) ang = Some D /\
  sprod (V3 (vx a / n) (vy a / n) (vz a / n)) (V3 (vx a / n) (vy a / n) (vz a / n)) = 1%R.
Proof.
  intros E n. unfold from_axis_angle in E. fold n in E. destruct (Req_EM_T n 0) as [|N]; [discriminate|].
  split; auto.
  assert (S : sprod (V3 (vx a / n) (vy a / n) (vz a / n)) (V3 (vx a / n) (vy a / n) (vz a / n)) = 1%R).
  { assert (Q : (n * n = vdot a a)%R). { unfold n. apply sqrt_sqrt. unfold vdot. nra. }
    unfold sprod. cbn [vx vy vz]. transitivity (vdot a a / (n * n))%R; [unfold vdot; field; auto|].
    rewrite <- Q. field. auto. }
  split; auto. unfold from_axis_angle.
  rewrite vdot_sprod, S, sqrt_1. destruct (Req_EM_T 1 0) as [|_]; [lra|]. cbn [vx vy vz] in *.
  rewrite <- E. f_equal. f_equal. unfold vscale. cbn [vx vy vz]. f_equal; field; auto.
Qed.
Theorem C83_value : forall q1 q2 g, g = "cubic"%string \/ g = "hexagonal"%string -> unitq q1 -> unitq q2 ->
  exists ang ax c, seg_misorientation q1 q2 g = Ok (ang, ax) /\ closest g q1 q2 c /\ ang = rot_angle q1 c /\
    (ax = None <-> equivalent (sym_eqv g) q2 q1) /\
    forall a, ax = Some a -> sprod a a = 1%R /\ mapply (rot_matrix (hprod c (hconj q1))) a = a /\
      exists D, from_axis_angle a (- ang) = Some D /\ same_rot D (hprod c (hconj q1)).
Proof.
  intros q1 q2 g Hg U1 U2. destruct (mis_ori_full_total q1 q2 g Hg U1 U2) as (c & E).
  destruct (mis_ori_full_some q1 q2 g _ c E) as (_ & Ec & Ia & _).
  pose proof (equiv_unit g q2 c U2 Ec) as Uc. unfold seg_misorientation. rewrite E.
  eexists _, _, c. split; [reflexivity|]. split; [now apply closest_max|].
  assert (An : (2 * acos (mis_ori q1 q2 g))%R = rot_angle q1 c) by (unfold rot_angle; congruence). split; auto.
  assert (NN : mis_ori_axis q1 c = None <-> equivalent (sym_eqv g) q2 q1).
  { rewrite mis_axis_none by auto. rewrite <- (inner_one q1 c U1 Uc), Ia, (mis_ori_one q1 q2 g U1 U2). reflexivity. }
  destruct (mis_ori_axis q1 c) as [a|] eqn:A; [|split; [exact NN | discriminate]].
  destruct (mis_axis_some q1 c a U1 Uc A) as (Fx & Ln & D & ED & SD).
  destruct (unit_axis a D _ ED) as (N0 & F & S). cbv zeta in *.
  destruct (Req_EM_T (sqrt (vdot a a)) 0) as [Z|_]; [contradiction|]. split.
  - rewrite <- NN. split; discriminate.
  - intros b [= <-]. split; auto. split.
    + set (n := sqrt (vdot a a)) in *. clearbody n. set (M := rot_matrix (hprod c (hconj q1))) in *. clearbody M.
      assert (G : forall r, sprod r (V3 (vx a / n) (vy a / n) (vz a / n)) = (sprod r a / n)%R).
      { intros r. unfold sprod. cbn [vx vy vz]. field. auto. }
      unfold mapply in *. rewrite !G. rewrite <- Fx at 4 5 6. cbn [vx vy vz]. reflexivity.
    + exists D. rewrite An. split; auto.
Qed.
Print Assumptions C83_value.
(** Seen from the other side the angle is the same. *)
Theorem C83_symmetric : forall q1 q2 g ang ax ang' ax', g = "cubic"%string \/ g = "hexagonal"%string ->
  unitq q1 -> unitq q2 -> seg_misorientation q1 q2 g = Ok (ang, ax) -> seg_misorientation q2 q1 g = Ok (ang', ax') ->
  ang = ang'.
Proof.
  intros q1 q2 g ang ax ang' ax' Hg U1 U2 E E'. unfold seg_misorientation in *.
  destruct (mis_ori_full_total q1 q2 g Hg U1 U2) as (c & F). destruct (mis_ori_full_total q2 q1 g Hg U2 U1) as (c' & F').
  rewrite F in E. rewrite F' in E'. injection E as <- _. injection E' as <- _. rewrite (mis_ori_sym q1 q2 g); auto.
Qed.
Print Assumptions C83_symmetric.
(** For any other structure name a 180 degree misorientation is an error. *)
Theorem C83_other_structure_refuted :
  seg_misorientation (Q4 1 0 0 0) (Q4 0 1 0 0) "tetragonal" = Err UnboundLocalError.
Proof.
  unfold seg_misorientation. destruct (mis_ori_full (Q4 1 0 0 0) (Q4 0 1 0 0) "tetragonal") as [m [c|]] eqn:E; auto.
  exfalso. apply mis_ori_full_some in E as E'. destruct E' as (Em & _ & Ia & _).
  destruct (mis_ori_greatest (Q4 1 0 0 0) (Q4 0 1 0 0) "tetragonal") as [_ (s & [<-|[]] & V)].
  rewrite <- Em in V. rewrite Quat_id in V by (cbn [qw]; lra).
  unfold hprod, inner in V. cbn [qw qx qy qz] in V.
  match type of V with Rabs ?x = _ => replace x with 0%R in V by ring end. rewrite Rabs_R0 in V. subst m.
  unfold mis_ori_full in E. change (sym_eqv "tetragonal") with [Quat false (Q4 1 0 0 0)] in E. cbn [fold_left] in E.
  unfold mis_ori_step in E. cbn [fst] in E. set (v := Rabs (dot _ _)) in E. clearbody v.
  destruct (Rlt_dec 0 v) as [G|G]; [|discriminate]. injection E as E1 E2. lra.
Qed.
Print Assumptions C83_other_structure_refuted.
Example C83_case : exists r, seg_misorientation (Q4 1 0 0 0) qB "cubic" = Ok r.
Proof.
  destruct (C83_value (Q4 1 0 0 0) qB "cubic") as (a & x & c & E & _); eauto.
  - unfold unitq; cbn [qw qx qy qz]; ring.
  - apply qB_unit.
Qed.

(** ** C84: Euler colours *)
Lemma phase_choice_ids names ids : (forall i, In i ids -> 0 <= i < Z.of_nat (List.length names)) ->
  exists ch, phase_choice names (Some ids) = Ok ch /\ map snd ch = ids /\
    forall n i, In (n, i) ch -> nth_error names (Z.to_nat i) = Some n.
Proof.
  intros B. unfold phase_choice.
  assert (K : forall acc, (forall n i, In (n, i) acc -> nth_error names (Z.to_nat i) = Some n) ->
    exists ch, for_each (fun acc i => do n <- py_get names i; Ok (acc ++ [(n, i)])) ids acc = Ok ch /\
      map snd ch = map snd acc ++ ids /\ forall n i, In (n, i) ch -> nth_error names (Z.to_nat i) = Some n).
  { induction ids as [|i ids IH]; intros acc HA; cbn [for_each].
    - exists acc. rewrite app_nil_r. auto.
    - specialize (B i (or_introl eq_refl)) as Bi.
      destruct (nth_error names (Z.to_nat i)) as [n|] eqn:E; [|apply nth_error_None in E; lia].
      assert (G : py_get names i = Ok n) by (apply py_get_at; exists (Z.to_nat i); split; auto; left; lia).
      rewrite G. cbn [bind]. destruct (IH ltac:(intros; apply B; now right) (acc ++ [(n, i)])) as (ch & F & M & P).
      + intros n' i' I. apply in_app_or in I as [I|[[= <- <-]|[]]]; auto.
      + exists ch. split; auto. split; auto. rewrite M, map_app, <- app_assoc. reflexivity. }
  destruct (K [] ltac:(intros n i [])) as (ch & F & M & P). exists ch. auto.
Qed.
Lemma phase_choice_all (names : list string) :
  exists ch, phase_choice names None = Ok ch /\ map snd ch = map Z.of_nat (seq 0 (List.length names)) /\
    forall n i, In (n, i) ch -> nth_error names (Z.to_nat i) = Some n.
Proof.
  eexists. split; [reflexivity|].
  assert (K : forall (ns : list string) a, map snd (combine ns (map Z.of_nat (seq a (List.length ns)))) = map Z.of_nat (seq a (List.length ns)) /\
    forall n i, In (n, i) (combine ns (map Z.of_nat (seq a (List.length ns)))) -> exists k, i = Z.of_nat (a + k) /\ nth_error ns k = Some n).
  { induction ns as [|x ns IH]; intros a; cbn [List.length seq map combine]; [split; auto; intros n i []|].
    destruct (IH (S a)) as [A B]. split; [cbn [snd]; f_equal; auto|].
    intros n i [[= <- <-]|I]; [exists 0%nat; split; auto; f_equal; lia|].
    destruct (B n i I) as (k & -> & E). exists (S k). split; auto. f_equal. lia. }
  destruct (K names 0%nat) as [A B]. split; auto. intros n i I. destruct (B n i I) as (k & -> & E). now rewrite Nat2Z.id.
Qed.

Lemma colour_loop (phase : pix -> Z) (euler : pix -> R * R * R) (ch : list (string * Z)) : (forall n i, In (n, i) ch -> known n) ->
  forall norm f, exists norm' f',
    for_each (fun acc np =>
        let norm := euler_norm (fst np) (fst acc) in
        match norm with
        | None => Err UnboundLocalError
        | Some n => Ok (norm, fun p => if phase p =? snd np + 1 then div3 (euler p) n else snd acc p)
        end) ch (norm, f) = Ok (norm', f') /\
    forall p, (forall n i, In (n, i) ch -> phase p = i + 1 ->
                 (forall n', In (n', i) ch -> n' = n) -> f' p = over (euler p) (euler_range n)) /\
              (~ In (phase p - 1) (map snd ch) -> f' p = f p).
Proof.
  induction ch as [|[n i] ch IH]; intros K norm f; cbn [for_each].
  - exists norm, f. split; auto. intros p. split; [intros n i []|auto].
  - assert (N : euler_norm n norm = Some (euler_range n)).
    { destruct (K n i (or_introl eq_refl)) as [-> | ->]; reflexivity. }
    cbn [fst snd]. cbv zeta. rewrite N. cbn [bind].
    destruct (IH ltac:(intros; eapply K; right; eauto) (Some (euler_range n))
      (fun p => if phase p =? i + 1 then div3 (euler p) (euler_range n) else f p)) as (norm' & f' & F & P).
    exists norm', f'. split; auto. intros p. destruct (P p) as [P1 P2]. split.
    + intros n0 i0 I Hp Uq. destruct (in_dec Z.eq_dec i0 (map snd ch)) as [J|J].
      * apply in_map_iff in J as ([n1 i1] & E & J). cbn [snd] in E. subst i1.
        assert (n1 = n0) by (apply Uq; now right). subst n1. apply P1 with i0; auto. intros n' I'. apply Uq. now right.
      * destruct I as [[= <- <-]|I]; [|exfalso; apply J, in_map_iff; exists (n0, i0); auto].
        rewrite P2 by (rewrite Hp; replace (i + 1 - 1) with i by lia; auto).
        rewrite Hp, Z.eqb_refl. unfold div3, over. destruct (euler p) as [[e1 e2] e3].
        destruct (euler_range n) as [[n1 n2] n3]. reflexivity.
    + cbn [map snd In]. intros Q. rewrite P2 by tauto. destruct (phase p =? i + 1) eqn:X; auto.
      apply Z.eqb_eq in X. exfalso. apply Q. left. lia.
Qed.

(** Pixels of a chosen phase get their angles divided by that structure's range,
    the others the background colour (black if not given). *)
Theorem C84_value : forall names phases bg phase euler,
  (forall ids i, phases = Some ids -> In i ids -> 0 <= i < Z.of_nat (List.length names)) ->
  (forall i n, nth_error names i = Some n -> known n) ->
  let chosen i := match phases with Some ids => In i ids | None => 0 <= i < Z.of_nat (List.length names) end in
  exists f, calc_euler_colour names phases bg phase euler = Ok f /\
    forall p, (forall n, chosen (phase p - 1) -> nth_error names (Z.to_nat (phase p - 1)) = Some n ->
                 f p = over (euler p) (euler_range n)) /\
              (~ chosen (phase p - 1) -> f p = match bg with Some c => c | None => (0, 0, 0)%R end).
Proof.
  intros names phases bg phase euler B K chosen.
  assert (exists ch, phase_choice names phases = Ok ch /\ (forall i, In i (map snd ch) <-> chosen i) /\
    forall n i, In (n, i) ch -> nth_error names (Z.to_nat i) = Some n) as (ch & E & M & P).
  { unfold chosen. destruct phases as [ids|].
    - destruct (phase_choice_ids names ids) as (ch & E & M & P); [intros; eapply B; eauto|].
      exists ch. split; auto. split; auto. intros i. now rewrite M.
    - destruct (phase_choice_all names) as (ch & E & M & P). exists ch. split; auto. split; auto.
      intros i. rewrite M, in_map_iff. split.
      + intros (k & <- & I). apply in_seq in I. lia.
      + intros I. exists (Z.to_nat i). split; [lia|]. apply in_seq. lia. }
  unfold calc_euler_colour. rewrite E. cbn [bind].
  destruct (colour_loop phase euler ch ltac:(intros; eapply K; eauto) None
    (fun _ => match bg with Some c => c | None => (0, 0, 0)%R end)) as (norm' & f & F & Q).
  cbv zeta in F |- *. rewrite F. cbn [bind snd]. exists f. split; auto. intros p. destruct (Q p) as [Q1 Q2]. split.
  - intros n C N. apply M in C. apply in_map_iff in C as ([n' i] & Ei & I). cbn [snd] in Ei. subst i.
    pose proof (P _ _ I) as N'. assert (n' = n) by congruence. subst n'. apply Q1 with (phase p - 1); auto; [lia|].
    intros n' I'. apply P in I'. congruence.
  - intros C. apply Q2. now rewrite M.
Qed.
Print Assumptions C84_value.

(** An unsupported structure is never reported: as the first phase it ends in an
    unrelated error, later it is coloured by the previous phase's ranges.  Phase
    index -1 colours the non-indexed pixels.  Angles of the usual ranges give
    colour values over one. *)
Theorem C84_refuted : (forall bg phase euler, calc_euler_colour ["tetragonal"%string] None bg phase euler = Err UnboundLocalError) /\
  (forall bg phase euler, exists f, calc_euler_colour ["cubic"; "tetragonal"]%string None bg phase euler = Ok f /\
     forall p, phase p = 2 -> f p = over (euler p) (euler_range "cubic")) /\
  (forall bg phase euler, exists f, calc_euler_colour ["cubic"]%string (Some [-1]) bg phase euler = Ok f /\
     forall p, phase p = 0 -> f p = over (euler p) (euler_range "cubic")) /\
  (forall bg, exists f, calc_euler_colour ["cubic"]%string None bg (fun _ => 1) (fun _ => (0, 3 * PI / 4, 0)%R) = Ok f /\
     forall p, (1 < snd (fst (f p)))%R).
Proof.
  assert (D : forall a b, div3 a b = over a b).
  { intros [[a1 a2] a3] [[b1 b2] b3]. reflexivity. }
  split; [reflexivity|]. split; [|split].
  - intros bg phase euler. eexists. split; [reflexivity|]. cbv beta. intros p Hp. cbn [snd]. rewrite Hp.
    cbn [Z.add Z.eqb Pos.eqb Pos.add Pos.succ]. apply D.
  - intros bg phase euler. eexists. split; [reflexivity|]. cbv beta. intros p Hp. cbn [snd]. rewrite Hp.
    cbn [Z.add Z.eqb Pos.eqb Pos.add Pos.succ Z.pos_sub]. apply D.
  - intros bg. eexists. split; [reflexivity|]. intros p. cbn [snd fst div3].
    change (1 =? Z.of_nat 0 + 1) with true. cbv iota. unfold div3. cbn [fst snd]. pose proof PI_RGT_0.
    replace (3 * PI / 4 / (PI / 2))%R with (3 / 2)%R by (field; lra). lra.
Qed.
Print Assumptions C84_refuted.
Example C84_case : exists f, calc_euler_colour ["cubic"; "hexagonal"]%string (Some [1]) None (fun _ => 2) (fun _ => (0, 0, 0)%R) = Ok f.
Proof. eexists. reflexivity. Qed.
