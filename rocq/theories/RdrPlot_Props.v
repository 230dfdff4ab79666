(** Theorems about the window of a relative displacement ratio. *)
From Coq Require Import String Ascii Reals Lra.
From Coq Require Import List ZArith Bool Lia.
Import ListNotations.
From Verif Require Import Py Grid Grid_Lemmas Boundary_Model Base_Model Base_Proofs Quat_Model Crystal_Model Crystal_Spec SlipSys_Proofs CrystalData_Proofs Text_Model Eqv_Model Ebsd_Model Insp_Model Insp_Spec Insp_Proofs InspHist_Proofs InspRdr_Proofs Insp_Props.
From Verif Require GrainState_Model.
From Verif Require Import GrainState_Spec GrainState_Proofs GrainState_Props RdrPlot_Model RdrPlot_Spec.
Open Scope Z_scope.

Lemma plane_label_ok s : exists p, slip_plane_label s = Ok p.
Proof. eexists. reflexivity. Qed.
Lemma dir_label_ok s : exists p, slip_dir_label s = Ok p.
Proof. eexists. reflexivity. Qed.

Lemma system_texts_ok r load : forall grp, exists l, system_texts grp (map (factor_of r load) grp) (map (ratio_of r) grp) = Ok l /\
  Forall2 (fun s t => let '(d, f, y) := t in slip_dir_label s = Ok d /\ f = factor_of r load s /\ y = ratio_of r s) grp l.
Proof.
  induction grp as [|s grp (l & E & F)]; [exists []; split; [reflexivity|constructor]|].
  destruct (dir_label_ok s) as (d & D). cbn [system_texts map]. rewrite D. cbn [bind]. rewrite E. cbn [bind].
  eexists. split; [reflexivity|]. constructor; auto.
Qed.
Lemma plane_texts_ok r load planes : forall groups i above, (forall grp, In grp groups -> grp <> []) ->
  exists l, plane_texts planes (Z.of_nat i) above groups (map (trace_of r) groups) (map (map (factor_of r load)) groups) (map (map (ratio_of r)) groups) = Ok l /\
  List.length l = List.length groups /\
  forall j grp row, nth_error groups j = Some grp -> nth_error l j = Some row ->
    row_shows r load planes (i + j) grp row /\ p_at row = (9 / 10 - 275 / 10000 * INR (above + lines_above groups j))%R.
Proof.
  induction groups as [|grp groups IH]; intros i above N; [exists []; split; [reflexivity|]; split; [reflexivity|]; intros [|j]; discriminate|].
  destruct (IH (S i) (above + S (List.length grp))%nat) as (l & E & L & F); [intros; apply N; now right|].
  destruct (system_texts_ok r load grp) as (ss & SE & SF). cbn [plane_texts map].
  destruct grp as [|s0 grp0] eqn:EG; [elim (N [] (or_introl eq_refl)); reflexivity|]. rewrite <- EG in *.
  destruct (plane_label_ok s0) as (p & P). rewrite P. cbn [bind]. rewrite SE. cbn [bind].
  replace (Z.of_nat i + 1) with (Z.of_nat (S i)) by lia. rewrite E. cbn [bind]. eexists. split; [reflexivity|].
  split; [cbn [List.length]; congruence|]. intros [|j] grp' row G R.
  - cbn [nth_error] in G, R. injection G as <-. injection R as <-. rewrite !Nat.add_0_r. split.
    + split; [exists s0; rewrite EG; split; [reflexivity|exact P]|]. split; [|split; [reflexivity|exact SF]].
      cbn [p_bold]. rewrite existsb_exists. split; [intros (z & I & Z); apply Z.eqb_eq in Z; now subst|intros I; exists (Z.of_nat i); split; [exact I|apply Z.eqb_refl]].
    + cbn [lines_above p_at]. rewrite ?Nat.add_0_r. reflexivity.
  - cbn [nth_error] in G, R. destruct (F j grp' row G R) as (A & B). split; [now replace (i + S j)%nat with (S i + j)%nat by lia|].
    rewrite B. cbn [lines_above]. do 3 f_equal. lia.
Qed.
Lemma finite_In : forall l y, In y (finite l) <-> In (Some y) l.
Proof.
  induction l as [|[x|] l IH]; intros y; cbn [finite In]; [tauto| |].
  - rewrite IH. split; intros [A|A]; auto; [left; congruence|left; congruence].
  - rewrite IH. split; [auto|]. intros [A|A]; [discriminate|auto].
Qed.
Lemma same_has r y s : same_value (ratio_of r s) y = has_ratio r y s.
Proof. reflexivity. Qed.
Lemma names_in_ok r y : forall grp, exists l, names_in grp (map (ratio_of r) grp) y = Ok l /\ Forall2 named (filter (has_ratio r y) grp) l.
Proof.
  induction grp as [|s grp (l & E & F)]; [exists []; split; [reflexivity|constructor]|].
  cbn [names_in map filter]. rewrite same_has. destruct (has_ratio r y s); [|exists l; auto].
  destruct (plane_label_ok s) as (p & P). destruct (dir_label_ok s) as (d & D). rewrite P, D, E. cbn [bind].
  eexists. split; [reflexivity|]. constructor; [split; assumption|assumption].
Qed.
Lemma names_ok r y : forall groups, exists l, names groups (map (map (ratio_of r)) groups) y = Ok l /\ Forall2 named (filter (has_ratio r y) (concat groups)) l.
Proof.
  induction groups as [|grp groups (l & E & F)]; [exists []; split; [reflexivity|constructor]|].
  destruct (names_in_ok r y grp) as (a & EA & FA). cbn [names map concat]. rewrite EA, E. cbn [bind]. eexists. split; [reflexivity|].
  rewrite filter_app. now apply Forall2_app.
Qed.
Lemma close_iff x s : close x s = true <-> (Rabs (x - s) < 3 / 2)%R.
Proof.
  unfold close. split.
  - destruct (Rlt_dec (s - 3 / 2) x); [|discriminate]. destruct (Rlt_dec x (s + 3 / 2)); [|discriminate]. intros _. apply Rabs_def1; lra.
  - intros H. apply Rabs_def2 in H. destruct (Rlt_dec (s - 3 / 2) x); [|exfalso; lra]. destruct (Rlt_dec x (s + 3 / 2)); [reflexivity|exfalso; lra].
Qed.
Lemma labels_ok r groups : forall ys, exists l, map_res (fun y => do l <- names groups (map (map (ratio_of r)) groups) y; Ok (y, l)) ys = Ok l /\
  map fst l = ys /\ forall y t, In (y, t) l -> Forall2 named (filter (has_ratio r y) (concat groups)) t.
Proof.
  induction ys as [|y ys (l & E & M & F)]; [exists []; split; [reflexivity|]; split; [reflexivity|]; intros ? ? []|].
  destruct (names_ok r y groups) as (t & T & FT). cbn [map_res]. rewrite T. cbn [bind]. rewrite E. cbn [bind].
  eexists. split; [reflexivity|]. cbn [map fst]. split; [now rewrite M|]. intros y' t' [I|I]; [injection I as <- <-; exact FT|eauto].
Qed.

(** The EBSD grain at the reference [r], with the phase's own Schmid factors. *)
Definition with_rdr (eg : GrainState_Model.grain) (l : list (list (option R))) : GrainState_Model.grain :=
  GrainState_Model.Grain (GrainState_Model.g_ref eg) (GrainState_Model.g_mis eg) (GrainState_Model.g_axes eg) (GrainState_Model.g_sfs eg) (Some l)
    (GrainState_Model.g_angles eg) (GrainState_Model.g_incls eg) (GrainState_Model.g_grod eg).
Lemma rdr_filled K r groups eg : GrainState_Model.c_systems K = Some groups -> GrainState_Model.g_ref eg = Some r ->
  GrainState_Model.calc_grain_rdr K eg = (with_rdr eg (map (map (ratio_of r)) groups), Ok tt).
Proof. intros E R. unfold GrainState_Model.calc_grain_rdr. rewrite E, R. unfold with_rdr. rewrite R. destruct r as [q|]; reflexivity. Qed.
Lemma plot_ok K r groups load x marks us vs s eg : at_ref K r eg -> filled K groups ->
  GrainState_Model.g_sfs eg = Some (map (map (factor_of r load)) groups) ->
  exists eg' w, plot_rdr K x marks us vs s eg = (eg', Ok w) /\
    w_marks w = marks /\ w_scatter w = combine (concat vs) (concat us) /\ w_slope w = s /\ w_count w = List.length us /\ w_angle w = g_ang x /\
    w_fit w = (let i := (mean (concat us) - s * mean (concat vs))%R in ((least (concat vs), s * least (concat vs) + i), (greatest (concat vs), s * greatest (concat vs) + i)))%R /\
    w_eulers w = match r with Some q => let '(a, b, c) := euler_angles q in Some (rad2deg a, rad2deg b, rad2deg c) | None => None end /\
    (List.length (w_rows w) = List.length groups /\
     forall j grp row, nth_error groups j = Some grp -> nth_error (w_rows w) j = Some row ->
       row_shows r load (g_planes x) j grp row /\ p_at row = (9 / 10 - 275 / 10000 * INR (lines_above groups j))%R) /\
    (NoDup (w_points w) /\ forall y, In y (w_points w) <-> exists s, In s (concat groups) /\ ratio_of r s = Some y) /\
    (map fst (w_labels w) = filter (fun y => close y s) (w_points w) /\
     forall y t, In (y, t) (w_labels w) -> Forall2 named (filter (has_ratio r y) (concat groups)) t).
Proof.
  intros A F SF. unfold plot_rdr. destruct (calc_filled K r eg groups A F) as (incl & ->). destruct F as [E N].
  rewrite (rdr_filled K r groups) by (try exact E; reflexivity). unfold with_rdr.
  cbn [GrainState_Model.g_ref GrainState_Model.g_mis GrainState_Model.g_axes GrainState_Model.g_sfs GrainState_Model.g_rdr GrainState_Model.g_angles GrainState_Model.g_incls GrainState_Model.g_grod bind].
  rewrite SF, E. destruct (plane_texts_ok r load (g_planes x) groups 0 0 N) as (rows & RE & RL & RF). change (Z.of_nat 0) with 0 in RE. rewrite RE. cbn [bind].
  destruct (labels_ok r groups (filter (fun y => close y s) (unique (finite (concat (map (map (ratio_of r)) groups)))))) as (ll & LE & LM & LF).
  rewrite LE. cbn [bind]. eexists. eexists. split; [reflexivity|]. cbn [w_marks w_scatter w_slope w_count w_angle w_fit w_eulers w_rows w_points w_labels].
  do 7 (split; [reflexivity|]). split; [split; [exact RL|exact RF]|]. split; [|split; [exact LM|exact LF]].
  unfold unique. split; [apply NoDup_nodup|]. intros y. rewrite nodup_In, finite_In, <- concat_map, in_map_iff. split; intros (b & B1 & B2); exists b; auto.
Qed.

(** The state of a grain whose Schmid factors were calculated for the phase's own systems, some time
    in its history. *)
Lemma history K ops1 ops2 groups load : filled K groups ->
  (forall o, In o (ops1 ++ ops2) -> sets_ref o = false) -> (forall o, In o ops2 -> is_schmid o = false) ->
  let eg := GrainState_Model.run K (ops1 ++ GrainState_Model.CalcSchmid load None :: ops2) GrainState_Model.new_grain in
  at_ref K (GrainState_Model.average K) eg /\ GrainState_Model.g_sfs eg = Some (map (map (factor_of (GrainState_Model.average K) load)) groups).
Proof.
  intros F H NS eg.
  assert (H' : forall o, In o (ops1 ++ GrainState_Model.CalcSchmid load None :: ops2) -> sets_ref o = false).
  { intros o I. apply in_app_iff in I as [I|[<-|I]]; [apply H, in_app_iff; now left|reflexivity|apply H, in_app_iff; now right]. }
  destruct (many_steps K (GrainState_Model.average K) _ GrainState_Model.new_grain (new_at K) (gentle_average K _ H')) as (A & _). split; [exact A|].
  destruct (many_steps K (GrainState_Model.average K) ops1 GrainState_Model.new_grain (new_at K) (gentle_average K ops1 (fun o I => H o (in_or_app _ _ _ (or_introl I))))) as (A1 & _).
  unfold eg, GrainState_Model.run. rewrite fold_left_app. cbn [fold_left]. change (fold_left (GrainState_Model.step K)) with (GrainState_Model.run K). rewrite sfs_kept_many by exact NS.
  change (GrainState_Model.run K ops1 GrainState_Model.new_grain) with (GrainState_Model.run K ops1 GrainState_Model.new_grain) in A1.
  cbn [GrainState_Model.step]. unfold GrainState_Model.calc_schmid. rewrite (ensure_at K _ _ A1). destruct F as [E _]. rewrite E. cbn [fst GrainState_Model.g_sfs]. f_equal.
  destruct (GrainState_Model.average K) as [q|]; [|reflexivity]. unfold schmid_factors. rewrite map_map. apply map_ext. intros grp. rewrite map_map. reflexivity.
Qed.

(** The table has a row for every plane of the phase, in order: name, trace angle, directions with
    Schmid factors and ratios, bold for the planes of the group; each row starts below the lines of
    the rows before. *)
Theorem C114_table : forall K ops1 ops2 groups load x marks us vs s, filled K groups ->
  (forall o, In o (ops1 ++ ops2) -> sets_ref o = false) -> (forall o, In o ops2 -> is_schmid o = false) ->
  let r := GrainState_Model.average K in
  exists eg w, plot_rdr K x marks us vs s (GrainState_Model.run K (ops1 ++ GrainState_Model.CalcSchmid load None :: ops2) GrainState_Model.new_grain) = (eg, Ok w) /\
    w_angle w = g_ang x /\ w_eulers w = option_map (fun q => let '(a, b, c) := euler_angles q in (a * 180 / PI, b * 180 / PI, c * 180 / PI)%R) r /\
    List.length (w_rows w) = List.length groups /\
    forall j grp row, nth_error groups j = Some grp -> nth_error (w_rows w) j = Some row ->
      row_shows r load (g_planes x) j grp row /\ p_at row = (9 / 10 - 275 / 10000 * INR (lines_above groups j))%R.
Proof.
  intros K ops1 ops2 groups load x marks us vs s F H NS r. destruct (history K ops1 ops2 groups load F H NS) as (A & SF).
  destruct (plot_ok K r groups load x marks us vs s _ A F SF) as (eg & w & E & _ & _ & _ & _ & W1 & _ & W2 & (W3 & W4) & _).
  exists eg, w. split; [exact E|]. split; [exact W1|]. split; [|auto]. rewrite W2. destruct r as [q|]; [|reflexivity]. cbn [option_map]. destruct (euler_angles q) as [[a b] c]. reflexivity.
Qed.
(** The blue points are the finite ratios of the phase's slip systems, each once; a label stands at
    each of those less than 1.5 from the measured ratio, and names exactly the systems that have it. *)
Theorem C114_labels : forall K ops1 ops2 groups load x marks us vs s, filled K groups ->
  (forall o, In o (ops1 ++ ops2) -> sets_ref o = false) -> (forall o, In o ops2 -> is_schmid o = false) ->
  let r := GrainState_Model.average K in
  exists eg w, plot_rdr K x marks us vs s (GrainState_Model.run K (ops1 ++ GrainState_Model.CalcSchmid load None :: ops2) GrainState_Model.new_grain) = (eg, Ok w) /\
    w_slope w = s /\
    NoDup (w_points w) /\ (forall y, In y (w_points w) <-> exists b, In b (concat groups) /\ ratio_of r b = Some y) /\
    NoDup (map fst (w_labels w)) /\ (forall y, In y (map fst (w_labels w)) <-> In y (w_points w) /\ (Rabs (y - s) < 3 / 2)%R) /\
    forall y t, In (y, t) (w_labels w) -> Forall2 named (filter (has_ratio r y) (concat groups)) t.
Proof.
  intros K ops1 ops2 groups load x marks us vs s F H NS r. destruct (history K ops1 ops2 groups load F H NS) as (A & SF).
  destruct (plot_ok K r groups load x marks us vs s _ A F SF) as (eg & w & E & _ & _ & W0 & _ & _ & _ & _ & _ & (W1 & W2) & (W3 & W4)).
  exists eg, w. split; [exact E|]. split; [exact W0|]. split; [exact W1|]. split; [exact W2|]. rewrite W3. split; [now apply NoDup_filter|]. split; [|exact W4].
  intros y. rewrite filter_In, close_iff. tauto.
Qed.
(** So a system whose ratio is less than 1.5 from the measured one is named at its ratio, once. *)
Theorem C114_named : forall K ops1 ops2 groups load x marks us vs s b y, filled K groups ->
  (forall o, In o (ops1 ++ ops2) -> sets_ref o = false) -> (forall o, In o ops2 -> is_schmid o = false) ->
  In b (concat groups) -> ratio_of (GrainState_Model.average K) b = Some y -> (Rabs (y - s) < 3 / 2)%R ->
  exists eg w t pd, plot_rdr K x marks us vs s (GrainState_Model.run K (ops1 ++ GrainState_Model.CalcSchmid load None :: ops2) GrainState_Model.new_grain) = (eg, Ok w) /\
    In (y, t) (w_labels w) /\ (forall t', In (y, t') (w_labels w) -> t' = t) /\ named b pd /\ In pd t.
Proof.
  intros K ops1 ops2 groups load x marks us vs s b y F H NS B Y C.
  destruct (C114_labels K ops1 ops2 groups load x marks us vs s F H NS) as (eg & w & E & _ & _ & P & ND & L & T).
  assert (I : In y (map fst (w_labels w))) by (apply L; split; [apply P; eauto|exact C]).
  apply in_map_iff in I as ([y' t] & EY & I). cbn [fst] in EY. subst y'. specialize (T y t I).
  assert (IB : In b (filter (has_ratio (GrainState_Model.average K) y) (concat groups))).
  { apply filter_In. split; [exact B|]. unfold has_ratio. rewrite Y. destruct (Req_EM_T y y); congruence. }
  assert (X : exists pd, named b pd /\ In pd t).
  { clear - T IB. induction T as [|a c l l' N T IH]; [destruct IB|]. destruct IB as [->|IB]; [exists c; cbn; auto|]. destruct (IH IB) as (pd & A & C). exists pd. cbn. auto. }
  destruct X as (pd & X1 & X2). exists eg, w, t, pd. split; [exact E|]. split; [exact I|]. split; [|auto]. intros t' I'.
  clear - ND I I'. induction (w_labels w) as [|[a c] l IH]; [destruct I|]. cbn [map fst] in ND. apply NoDup_cons_iff in ND as [N1 N2].
  destruct I as [I|I], I' as [I'|I']; [congruence| | |auto].
  - injection I as -> ->. elim N1. apply in_map_iff. exists (y, t'). auto.
  - injection I' as -> ->. elim N1. apply in_map_iff. exists (y, t). auto.
Qed.

(** *** The fit *)
Lemma calc_samples e g k : calc_rdr e g k =
  (do d <- samples e g k; let '(_, us, vs) := d in
   do s <- slope (concat vs) (concat us);
   match np_index (Z.of_nat (List.length (grps g))) k with
   | Some i => Ok (mkGrain (pts g) (change_nth (Z.to_nat i) (fun x => set_rdr x s) (grps g)))
   | None => Err IndexError
   end).
Proof.
  unfold calc_rdr, samples. destruct (pts g); [reflexivity|]. destruct (py_get (grps g) k) as [x|]; [|reflexivity]. cbn [bind].
  destruct (offsets (g_ang x) (r_len e)) as [offs|]; [|reflexivity]. cbn [bind].
  destruct (map_res _ (filter _ _)) as [rows|]; [|reflexivity]. cbn [bind].
  destruct (map_res _ (concat rows)) as [us|]; [|reflexivity]. cbn [bind]. destruct (map_res _ (concat rows)) as [vs|]; reflexivity.
Qed.
Lemma samples_eq : forall e g k x, 0 <= k -> nth_error (grps g) (Z.to_nat k) = Some x -> 0 <= g_ang x <= 18000 ->
  3 <= r_len e -> (forall l, In l (pts g) -> four l) -> pts g <> [] ->
  exists n, perpendicular_step (g_ang x) n /\
    let rows := group_rows e n (Z.quot (r_len e - 1) 2) g k in
    (forall row p, In row rows -> In p row -> inside (r_W e) (r_H e) p) ->
    samples e g k = Ok (map (map (fun p => (fst p - fst (r_ext e), snd p - snd (r_ext e)))) rows, map centred (map (map (r_u e)) rows), map centred (map (map (r_v e)) rows)).
Proof.
  intros e g k x K X A L F NE. destruct (octants (g_ang x) A) as (n & xs & ys & GX & GY & LN & C & P).
  exists n. split; [exact P|]. intros rows I. unfold samples. destruct (pts g) as [|l0 ls0] eqn:EP; [congruence|].
  rewrite <- EP in *. rewrite (py_get_nth _ _ _ _ K X). cbn [bind].
  rewrite (offsets_steps _ _ _ _ _ GX GY LN C L). cbn [bind].
  set (h := Z.quot (r_len e - 1) 2) in *.
  rewrite (map_res_ok _ _ _ (fun l => map (across e n h) (line_pixels e l))).
  2:{ intros l LI. apply sample_rows_across. apply F. now apply filter_In in LI. }
  cbn [bind]. fold (group_rows e n h g k). fold rows.
  rewrite !map_res_rows by exact I. reflexivity.
Qed.
Lemma least_spec : forall l, l <> [] -> In (least l) l /\ forall y, In y l -> (least l <= y)%R.
Proof.
  intros [|a l] N; [congruence|]. clear N. cbn [least]. revert a. induction l as [|b l IH]; intros a; cbn [fold_left].
  - split; [now left|]. intros y [->|[]]. lra.
  - destruct (IH (Rmin a b)) as (A & B). split.
    + destruct A as [A|A]; [|right; now right]. unfold Rmin in A at 1. destruct (Rle_dec a b); [left; exact A|right; left; exact A].
    + intros y [->|[->|I]]; [| |apply B; now right]; (eapply Rle_trans; [apply B; now left|]); [apply Rmin_l|apply Rmin_r].
Qed.
Lemma greatest_spec : forall l, l <> [] -> In (greatest l) l /\ forall y, In y l -> (y <= greatest l)%R.
Proof.
  intros [|a l] N; [congruence|]. clear N. cbn [greatest]. revert a. induction l as [|b l IH]; intros a; cbn [fold_left].
  - split; [now left|]. intros y [->|[]]. lra.
  - destruct (IH (Rmax a b)) as (A & B). split.
    + destruct A as [A|A]; [|right; now right]. unfold Rmax in A at 1. destruct (Rle_dec a b); [right; left; exact A|left; exact A].
    + intros y [->|[->|I]]; [| |apply B; now right]; (eapply Rle_trans; [|apply B; now left]); [apply Rmax_l|apply Rmax_r].
Qed.
Lemma deviations_eq u v rows : combine (concat (map centred (map (map v) rows))) (concat (map centred (map (map u) rows))) = deviations u v rows.
Proof. rewrite combine_concat. reflexivity. Qed.
Lemma plot_parts K x marks us vs s eg eg' w : plot_rdr K x marks us vs s eg = (eg', Ok w) ->
  w_marks w = marks /\ w_scatter w = combine (concat vs) (concat us) /\ w_slope w = s /\ w_count w = List.length us /\ w_angle w = g_ang x /\
  w_fit w = (let i := (mean (concat us) - s * mean (concat vs))%R in ((least (concat vs), s * least (concat vs) + i), (greatest (concat vs), s * greatest (concat vs) + i)))%R.
Proof.
  unfold plot_rdr. destruct (GrainState_Model.calc_traces K None eg) as [e1 [t|]]; [|discriminate]. destruct (GrainState_Model.calc_grain_rdr K e1) as [e2 r2]. intros H. injection H as <- H.
  destruct r2 as [?|]; [|discriminate]. cbn [bind] in H. destruct (GrainState_Model.g_sfs e2) as [sfs|]; [|discriminate].
  destruct (GrainState_Model.c_systems K); [|discriminate]. destruct (GrainState_Model.g_angles e2); [|discriminate]. destruct (GrainState_Model.g_rdr e2); [|discriminate]. destruct (GrainState_Model.g_ref e2); [|discriminate].
  destruct (plane_texts _ _ _ _ _ _ _); [|discriminate]. cbn [bind] in H. destruct (map_res _ _); [|discriminate]. cbn [bind] in H. injection H as <-. repeat split; reflexivity.
Qed.

(** In every history without correction angle: the scatter plot has a cross for every sample of every
    row, at the deviations of v and u from the mean of the row, and the samples are marked in the
    picture of the grain where they were taken; the line drawn runs through the origin, has the slope
    that is recorded with the group and shown, and ends at the least and greatest v. *)
Theorem C114_fit_partial : forall e acts n i g k x K eg g' eg' w,
  e_corr e = 0%R -> 3 <= r_len (e_rdr e i) ->
  nth_error (i_grains (run e acts (opened n))) i = Some g ->
  0 <= k -> nth_error (grps g) (Z.to_nat k) = Some x ->
  let r := e_rdr e i in
  show_rdr r K true g k eg = ((g', eg'), Ok (Some w)) ->
  exists step, perpendicular_step (g_ang x) step /\
    let h := Z.quot (r_len r - 1) 2 in
    let rows := group_rows r step h g k in
    (forall row p, In row rows -> In p row -> inside (r_W r) (r_H r) p) ->
    g' = rdr_at g k (w_slope w) /\
    w_marks w = map (map (fun p => (fst p - fst (r_ext r), snd p - snd (r_ext r)))) rows /\
    w_scatter w = deviations (r_u r) (r_v r) rows /\
    (exists a b, w_fit w = ((a, w_slope w * a), (b, w_slope w * b))%R /\ In a (map fst (w_scatter w)) /\ In b (map fst (w_scatter w)) /\
       forall y, In y (map fst (w_scatter w)) -> (a <= y <= b)%R) /\
    w_count w = List.length rows /\ List.length (w_scatter w) = (w_count w * Z.to_nat (2 * h + 1))%nat.
Proof.
  intros e acts n i g k x K eg g' eg' w C L G K0 X r SH. destruct (range_run e acts n i g C G) as [A B].
  assert (NE : pts g <> []).
  { intros Z. destruct (numbered_run e acts n i g G) as ((_ & _ & W) & _).
    destruct (W 0) as (l & I & _); [|rewrite Z in I; easy]. apply nth_error_Some_len in X. lia. }
  destruct (samples_eq r g k x K0 X (B x (nth_error_In _ _ X)) L (fun l I => proj1 (A l I)) NE) as (st & P & H).
  exists st. split; [exact P|]. cbv zeta. intros I. specialize (H I). set (h := Z.quot (r_len r - 1) 2) in *. set (rows := group_rows r st h g k) in *.
  unfold show_rdr in SH. rewrite calc_samples, H in SH. cbn [bind] in SH.
  destruct (slope _ _) as [s|z] eqn:S; cbn [bind] in SH; [|discriminate].
  rewrite (py_get_nth _ _ _ _ K0 X) in SH. unfold np_index in SH. assert (LK := nth_error_Some_len _ _ _ _ X).
  destruct (Z.leb_spec 0 k); [|lia]. destruct (Z.ltb_spec k (Z.of_nat (List.length (grps g)))); [|lia]. cbn [andb] in SH. rewrite rdr_at_eq in SH.
  match type of SH with (let '(_, _) := ?p in _) = _ => destruct p as [eg2 rw] eqn:PW end. destruct rw as [w0|]; [|discriminate]. cbn [bind] in SH. injection SH as <- <- <-.
  destruct (plot_parts _ _ _ _ _ _ _ _ _ PW) as (W1 & W2 & W3 & W4 & _ & W6). rewrite deviations_eq in W2.
  assert (SN : concat (map centred (map (map (r_v r)) rows)) <> []). { unfold slope in S. destruct (all_same _) eqn:AS; [discriminate|]. intros Z. rewrite Z in AS. discriminate. }
  assert (FST : map fst (w_scatter w0) = concat (map centred (map (map (r_v r)) rows))). { rewrite W2, <- deviations_eq. apply combine_fst, concat_lengths. }
  rewrite W3. split; [reflexivity|]. split; [exact W1|]. split; [exact W2|]. split.
  - destruct (least_spec _ SN) as (L1 & L2). destruct (greatest_spec _ SN) as (G1 & G2). rewrite FST.
    exists (least (concat (map centred (map (map (r_v r)) rows)))), (greatest (concat (map centred (map (map (r_v r)) rows)))).
    split; [|split; [exact L1|split; [exact G1|intros y Y; auto]]]. rewrite W6. cbv zeta. rewrite !centred_mean. f_equal; f_equal; ring.
  - assert (W4' : w_count w0 = List.length rows) by now rewrite W4, !map_length. split; [exact W4'|].
    rewrite W4', W2. unfold deviations. assert (RL : forall row, In row rows -> List.length row = Z.to_nat (2 * h + 1)).
    { intros row R. unfold rows, group_rows in R. apply in_concat in R as (l & Rl & R). apply in_map_iff in Rl as (ln & <- & _). apply in_map_iff in R as (q & <- & _).
      unfold across. now rewrite map_length, zseq_length. }
    clear - RL. induction rows as [|row rows IH]; [reflexivity|]. cbn [map concat List.length]. rewrite app_length, map_length, IH by (intros; apply RL; now right). rewrite (RL row) by now left. lia.
Qed.
(** So the number n that is shown beside the fit is not the number of points fitted. *)
Theorem C114_count_refuted : forall e acts n i g k x K eg g' eg' w,
  e_corr e = 0%R -> 3 <= r_len (e_rdr e i) ->
  nth_error (i_grains (run e acts (opened n))) i = Some g ->
  0 <= k -> nth_error (grps g) (Z.to_nat k) = Some x ->
  let r := e_rdr e i in
  show_rdr r K true g k eg = ((g', eg'), Ok (Some w)) ->
  exists step, perpendicular_step (g_ang x) step /\
    ((forall row p, In row (group_rows r step (Z.quot (r_len r - 1) 2) g k) -> In p row -> inside (r_W r) (r_H r) p) ->
     (w_count w < List.length (w_scatter w))%nat).
Proof.
  intros e acts n i g k x K eg g' eg' w C L G K0 X r SH.
  destruct (C114_fit_partial e acts n i g k x K eg g' eg' w C L G K0 X SH) as (st & P & H). exists st. split; [exact P|]. intros I.
  destruct (H I) as (_ & _ & _ & (a & b & _ & IA & _) & _ & HL).
  assert (1 <= Z.quot (r_len r - 1) 2) by (fold r in L; pose proof (Z.quot_le_mono 2 (r_len r - 1) 2 ltac:(lia) ltac:(lia)) as Q; change (Z.quot 2 2) with 1 in Q; exact Q).
  assert (N : List.length (w_scatter w) <> O). { intros Z. apply length_zero_iff_nil in Z. rewrite Z in IA. destruct IA. }
  rewrite HL in *. destruct (w_count w) as [|c]; [cbn in N; lia|]. assert (2 <= Z.to_nat (2 * Z.quot (r_len r - 1) 2 + 1))%nat by lia. nia.
Qed.

(** *** Errors *)
(** The ratio is recorded once it is calculated, with the plot, without it, and when drawing the
    plot fails; if it cannot be calculated nothing is changed. *)
Theorem C114_recorded : forall e K b g k eg,
  (forall g', calc_rdr e g k = Ok g' -> fst (fst (show_rdr e K b g k eg)) = g') /\
  (forall z, calc_rdr e g k = Err z -> show_rdr e K b g k eg = ((g, eg), Err z)).
Proof.
  intros e K b g k eg. unfold show_rdr. split.
  - intros g' H. rewrite H. rewrite calc_samples in H. destruct (samples e g k) as [[[m us] vs]|] eqn:SE; [|discriminate]. cbn [bind] in H.
    destruct (slope (concat vs) (concat us)) as [s|]; [|discriminate]. cbn [bind] in H.
    destruct (py_get (grps g) k) as [x|] eqn:PE.
    + destruct b; [|reflexivity]. destruct (plot_rdr K x m us vs s eg). reflexivity.
    + unfold samples in SE. destruct (pts g); [discriminate|]. rewrite PE in SE. discriminate.
  - intros z H. rewrite H. reflexivity.
Qed.
(** Without Schmid factors there is an error, after the window was opened: the documented way of
    calculating a ratio needs them although the ratio does not. *)
Theorem C114_factors_refuted : forall e K g k eg g' groups, calc_rdr e g k = Ok g' -> GrainState_Model.g_sfs eg = None -> filled K groups ->
  (exists eg', show_rdr e K true g k eg = ((g', eg'), Err GenericException)) /\ show_rdr e K false g k eg = ((g', eg), Ok None).
Proof.
  intros e K g k eg g' groups H SF F.
  assert (P : forall x m us vs s, exists eg', plot_rdr K x m us vs s eg = (eg', Err GenericException)).
  { intros x m us vs s. unfold plot_rdr.
    assert (A : exists r, at_ref K r eg) by (unfold at_ref; destruct (GrainState_Model.g_ref eg) as [r|] eqn:E; [exists r; now left|eexists; right; split; reflexivity]).
    destruct A as (r & A). destruct (calc_filled K r eg groups A F) as (incl & ->). rewrite (rdr_filled K r groups) by (try reflexivity; apply F). cbn [bind with_rdr GrainState_Model.g_sfs]. rewrite SF. eauto. }
  unfold show_rdr. rewrite H. rewrite calc_samples in H. destruct (samples e g k) as [[[m us] vs]|] eqn:SE; [|discriminate]. cbn [bind] in H.
  destruct (slope (concat vs) (concat us)) as [s|]; [|discriminate]. cbn [bind] in H.
  destruct (py_get (grps g) k) as [x|] eqn:PE; [|unfold samples in SE; destruct (pts g); [discriminate|]; rewrite PE in SE; discriminate].
  split; [|reflexivity]. destruct (P x m us vs s) as (eg' & ->). exists eg'. reflexivity.
Qed.
(** Factors that were calculated for other slip systems are shown beside the phase's own, and if
    there are fewer of them there is an error. *)
Theorem C114_foreign_refuted : forall K b o load x marks us vs s, GrainState_Model.c_systems K = Some [[b]] ->
  let r := GrainState_Model.average K in
  (exists eg w row d, plot_rdr K x marks us vs s (GrainState_Model.run K [GrainState_Model.CalcSchmid load (Some [[o]])] GrainState_Model.new_grain) = (eg, Ok w) /\
     w_rows w = [row] /\ slip_dir_label b = Ok d /\ p_systems row = [(d, factor_of r load o, ratio_of r b)]) /\
  exists eg, plot_rdr K x marks us vs s (GrainState_Model.run K [GrainState_Model.CalcSchmid load (Some [])] GrainState_Model.new_grain) = (eg, Err IndexError).
Proof.
  intros K b o load x marks us vs s E r.
  assert (F : filled K [[b]]) by (split; [exact E|intros grp [<-|[]]; discriminate]).
  assert (R : forall sys, GrainState_Model.run K [GrainState_Model.CalcSchmid load (Some sys)] GrainState_Model.new_grain =
     GrainState_Model.Grain (Some r) None None (Some (map (map (factor_of r load)) sys)) None None None None).
  { intros sys. unfold GrainState_Model.run. cbn [fold_left GrainState_Model.step]. unfold GrainState_Model.calc_schmid, GrainState_Model.ensure_ref. cbn [GrainState_Model.g_ref GrainState_Model.new_grain].
    fold r. destruct r as [q|]; cbn; [|reflexivity]. unfold schmid_factors. rewrite map_map. do 2 f_equal. apply map_ext. intros grp. now rewrite map_map. }
  rewrite !R. unfold plot_rdr.
  assert (T : forall sfs, exists incl, GrainState_Model.calc_traces K None (GrainState_Model.Grain (Some r) None None (Some sfs) None None None None) =
     (GrainState_Model.Grain (Some r) None None (Some sfs) None (Some [trace_of r [b]]) (Some incl) None, Ok tt)).
  { intros sfs. exact (calc_filled K r (GrainState_Model.Grain (Some r) None None (Some sfs) None None None None) [[b]] (or_introl eq_refl) F). }
  destruct (T (map (map (factor_of r load)) [[o]])) as (i1 & ->). destruct (T (map (map (factor_of r load)) [])) as (i2 & ->).
  rewrite !(rdr_filled K r [[b]]) by (try exact E; reflexivity). cbn [bind with_rdr GrainState_Model.g_sfs GrainState_Model.g_angles GrainState_Model.g_rdr GrainState_Model.g_ref]. rewrite E.
  split; [|eexists; reflexivity]. destruct (dir_label_ok b) as (d & D). cbn [plane_texts map system_texts]. rewrite D. unfold slip_plane_label at 1. cbn [bind idc_to_string lit list_ascii_of_string].
  destruct (labels_ok r [[b]] (filter (fun y => close y s) (unique (finite (concat (map (map (ratio_of r)) [[b]])))))) as (ll & LE & _). cbn [map] in LE. rewrite LE. cbn [bind].
  eexists. eexists. eexists. exists d. split; [reflexivity|]. split; [reflexivity|]. split; reflexivity.
Qed.
Lemma lines_at_least groups : (forall grp, In grp groups -> grp <> []) -> forall j, (j <= List.length groups)%nat -> (2 * j <= lines_above groups j)%nat.
Proof.
  induction groups as [|grp groups IH]; intros N j J; [cbn in J; assert (j = O) by lia; subst; cbn; lia|].
  destruct j as [|j]; [lia|]. cbn [lines_above]. cbn [List.length] in J. specialize (IH (fun g I => N g (or_intror I)) j ltac:(lia)).
  assert (grp <> []) by (apply N; now left). destruct grp; [congruence|]. cbn [List.length]. lia.
Qed.
(** For a phase with the shipped slip systems of bcc crystals some rows of the table start below the
    lower edge of the window. *)
Theorem C114_below_refuted : forall conv, exists gs, load conv file_cubic_bcc "cubic" None = Ok (gs, ss_colours file_cubic_bcc) /\
  forall K ops1 ops2 axis x marks us vs s, GrainState_Model.c_systems K = Some gs ->
  (forall o, In o (ops1 ++ ops2) -> sets_ref o = false) -> (forall o, In o ops2 -> is_schmid o = false) ->
  exists eg w row, plot_rdr K x marks us vs s (GrainState_Model.run K (ops1 ++ GrainState_Model.CalcSchmid axis None :: ops2) GrainState_Model.new_grain) = (eg, Ok w) /\
    In row (w_rows w) /\ (window_height (p_at row) < 0)%R.
Proof.
  intros conv. destruct (cubic_load conv file_cubic_bcc) as (ss & gs & E & G & F); [vm_compute; lia|vm_compute; auto|].
  exists gs. split; [exact E|]. intros K ops1 ops2 axis x marks us vs s KE H NS.
  pose proof (group_planes _ _ G) as X. apply Forall2_planes in F as [F _]. rewrite F in X.
  assert (LG : List.length gs = 30%nat). { apply (f_equal (@List.length _)) in X. rewrite map_length in X. rewrite X. reflexivity. }
  assert (N : forall grp, In grp gs -> grp <> []).
  { intros grp I Z. subst grp. apply (in_map (map plane_idc)) in I. rewrite X in I. cbn [map] in I. revert I.
    assert (Q : forallb (fun l => match l with [] => false | _ => true end) (zgroups (map (row_plane 3) (ss_rows file_cubic_bcc))) = true) by (vm_compute; reflexivity).
    intros I. rewrite forallb_forall in Q. now specialize (Q [] I). }
  destruct (C114_table K ops1 ops2 gs axis x marks us vs s (conj KE N) H NS) as (eg & w & PE & _ & _ & WL & W).
  destruct (nth_error gs 18) as [grp|] eqn:GE; [|apply nth_error_None in GE; lia].
  destruct (nth_error (w_rows w) 18) as [row|] eqn:RE; [|apply nth_error_None in RE; lia].
  exists eg, w, row. split; [exact PE|]. split; [eapply nth_error_In; exact RE|]. destruct (W 18%nat grp row GE RE) as (_ & ->).
  assert (A : (2 * 18 <= lines_above gs 18)%nat) by (apply lines_at_least; [exact N|lia]). apply le_INR in A. change (2 * 18)%nat with 36%nat in A.
  replace (INR 36) with 36%R in A by (cbn; lra). unfold window_height. lra.
Qed.

(** A grain with two slip planes; a line on the map of five pixels in a row (Insp_Props) across which
    u is twice v. *)
Example C114_met : let b p d n v := SS p d n v "cubic"%string None in
  let groups := [[b [0; 0; 1] [1; 0; 0] (V3 0 0 1) (V3 1 0 0); b [0; 0; 1] [0; 1; 0] (V3 0 0 1) (V3 0 1 0)]; [b [1; 0; 0] [0; 1; 0] (V3 1 0 0) (V3 0 1 0)]] in
  let K := GrainState_Model.Consts [Q4 1 0 0 0] "cubic" (Some groups) ["red"; "green"]%string in
  let eg := GrainState_Model.run K ([] ++ GrainState_Model.CalcSchmid (V3 1 0 0) None :: [GrainState_Model.PlotMis 0]) GrainState_Model.new_grain in
  filled K groups /\
  exists g' eg' w, show_rdr (edge_rdr 1) K true edge_grain 0 eg = ((g', eg'), Ok (Some w)) /\ w_slope w = 2%R /\ List.length (w_rows w) = 2%nat /\ w_count w = 1%nat.
Proof.
  intros b groups K eg.
  assert (F : filled K groups) by (split; [reflexivity|]; intros grp [<-|[<-|[]]]; discriminate). split; [exact F|].
  destruct (history K [] [GrainState_Model.PlotMis 0] groups (V3 1 0 0) F) as (A & SF); [intros o [<-|[]]; reflexivity|intros o [<-|[]]; reflexivity|]. fold eg in A, SF.
  destruct C66_least_squares_met as (_ & _ & _ & _ & g' & C & M). 
  unfold show_rdr. rewrite C. rewrite calc_samples in C. destruct (samples (edge_rdr 1) edge_grain 0) as [[[m us] vs]|] eqn:SE; [|discriminate]. cbn [bind] in C.
  destruct (slope (concat vs) (concat us)) as [s|]; [|discriminate]. cbn [bind] in C. change (np_index _ _) with (Some 0) in C. cbn [bind] in C. injection C as <-.
  cbn [map grps g_rdr change_nth Z.to_nat] in M. cbn in M. injection M as ->.
  change (py_get (grps edge_grain) 0) with (Ok (new_group 0 0)).
  destruct (plot_ok K _ groups (V3 1 0 0) (new_group 0 0) m us vs 2 eg A F SF) as (eg' & w & -> & _ & _ & W1 & W2 & _ & _ & _ & (W3 & _) & _).
  eexists. exists eg', w. split; [reflexivity|]. split; [exact W1|]. split; [exact W3|]. rewrite W2.
  unfold samples in SE. cbn [pts edge_grain] in SE. change (py_get _ _) with (Ok (new_group 0 0)) in SE. cbn [bind] in SE.
  change (offsets (g_ang (new_group 0 0)) (r_len (edge_rdr 1))) with (@Ok (list (Z * Z)) [(-1, 0); (0, 0); (1, 0)]) in SE. cbn [bind] in SE.
  change (map_res _ (filter _ _)) with (@Ok (list (list (list pix))) [[[(0, 0); (1, 0); (2, 0)]]]) in SE. cbn [bind concat app] in SE.
  rewrite !map_res_rows in SE; try (intros row p [<-|[]] [<-|[<-|[<-|[]]]]; unfold inside; cbn; lia). cbn [bind] in SE. injection SE as _ <- _. reflexivity.
Qed.
Print Assumptions C114_table.
Print Assumptions C114_labels.
Print Assumptions C114_named.
Print Assumptions C114_fit_partial.
Print Assumptions C114_count_refuted.
Print Assumptions C114_recorded.
Print Assumptions C114_factors_refuted.
Print Assumptions C114_foreign_refuted.
Print Assumptions C114_below_refuted.
