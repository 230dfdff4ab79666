(** Histories of the grain inspector. *)
From Coq Require Import String Ascii Reals.
From Coq Require Import List ZArith Bool Lia Lra.
Import ListNotations.
From Verif Require Import Py Grid Grid_Lemmas Boundary_Model Base_Model Base_Proofs Quat_Model QuatEuler_Proofs
  Crystal_Model CrystalMat_Proofs Text_Model Ebsd_Model Insp_Model Insp_Spec Insp_Proofs.
Open Scope Z_scope.

Lemma Forall2_weaken : forall A B (P Q : A -> B -> Prop) l m, (forall a b, P a b -> Q a b) ->
  Forall2 P l m -> Forall2 Q l m.
Proof. intros A B P Q l m H F. induction F; constructor; auto. Qed.
Lemma nth_error_ext_len : forall A (l m : list A), List.length l = List.length m ->
  (forall k, nth_error l k = nth_error m k) -> l = m.
Proof.
  induction l as [|a l IH]; intros [|b m] L H; try discriminate; auto.
  assert (E := H O). cbn in E. injection E as ->. f_equal. apply IH; [now injection L|]. intros k. exact (H (S k)).
Qed.

(** ** Detection of planes *)
Lemma rint_err : forall x, (Rabs (IZR (rint x) - x) <= 1 / 2)%R.
Proof.
  intros x. unfold rint. destruct (base_Int_part x) as [A B]. set (m := Int_part x) in *.
  destruct (Rlt_dec (x - IZR m) (1/2)); [apply Rabs_le; lra|].
  destruct (Rlt_dec (1/2) (x - IZR m)); [rewrite plus_IZR; apply Rabs_le; lra|].
  destruct (Z.even m); [|rewrite plus_IZR]; apply Rabs_le; lra.
Qed.

Lemma detect_spec : forall ts a i ps ds, detect a i ts = (ps, ds) ->
  (forall j, In j ps <-> i <= j /\ exists d, plane_active ts a (j - i) d) /\ NoDup ps /\
  Forall2 (fun j v => exists d, plane_active ts a (j - i) d /\
             (Rabs (IZR v / 100 - (IZR a / 100 - d * 180 / PI)) <= 1 / 200)%R) ps ds.
Proof.
  induction ts as [|t ts IH]; intros a i ps ds H.
  - cbn [detect] in H. injection H as <- <-. split; [|split]; [|constructor|constructor].
    intros j. split; [easy|]. intros (_ & d & _ & N & _). destruct (Z.to_nat (j - i)); discriminate.
  - cbn [detect] in H. destruct (detect a (i + 1) ts) as [ps0 ds0] eqn:E.
    destruct (IH _ _ _ _ E) as (M & ND & F2).
    assert (UP : forall j d, i + 1 <= j -> (plane_active ts a (j - (i + 1)) d <-> plane_active (t :: ts) a (j - i) d)).
    { intros j d L. unfold plane_active. replace (Z.to_nat (j - i)) with (S (Z.to_nat (j - (i + 1)))) by lia.
      cbn [nth_error]. split; intros (_ & X); (split; [lia|exact X]). }
    assert (NI : ~ In i ps0) by (intro X; apply M in X as [X _]; lia).
    assert (F3 : Forall2 (fun j v => exists d, plane_active (t :: ts) a (j - i) d /\
             (Rabs (IZR v / 100 - (IZR a / 100 - d * 180 / PI)) <= 1 / 200)%R) ps0 ds0).
    { assert (G : forall j, In j ps0 -> i + 1 <= j) by (intros j J; apply M in J as [J _]; exact J).
      clear - F2 UP G. induction F2 as [|j v ps ds (d & A & B) F IHF]; constructor.
      - exists d. split; auto. apply UP; auto. apply G. now left.
      - apply IHF. intros j' J. apply G. now right. }
    set (x := (IZR a / 100)%R) in *.
    assert (YES : ((rad2deg t - 5 < x)%R /\ (x < rad2deg t + 5)%R) <-> plane_active (t :: ts) a (i - i) t).
    { unfold plane_active. rewrite Z.sub_diag. cbn [Z.to_nat nth_error]. fold x. unfold rad2deg. split.
      - intros [A B]. split; [lia|]. split; [reflexivity|]. apply Rabs_def1; lra.
      - intros (_ & _ & A). apply Rabs_def2 in A. lra. }
    assert (KEEP : plane_active (t :: ts) a (i - i) t \/ ~ plane_active (t :: ts) a (i - i) t ->
       ~ plane_active (t :: ts) a (i - i) t -> (ps0, ds0) = (ps, ds) ->
       (forall j, In j ps <-> i <= j /\ exists d, plane_active (t :: ts) a (j - i) d) /\ NoDup ps /\
       Forall2 (fun j v => exists d, plane_active (t :: ts) a (j - i) d /\
             (Rabs (IZR v / 100 - (IZR a / 100 - d * 180 / PI)) <= 1 / 200)%R) ps ds).
    { intros _ N Q. injection Q as <- <-. split; [|split]; auto. intros j. rewrite M. split.
      - intros (L & d & D). split; [lia|]. exists d. now apply UP.
      - intros (L & d & D). destruct (Z.eq_dec j i) as [->|X].
        + exfalso. apply N. pose proof D as (_ & Y & _). rewrite Z.sub_diag in Y. cbn in Y. injection Y as <-. exact D.
        + split; [lia|]. exists d. apply UP; auto. lia. }
    destruct (Rlt_dec (rad2deg t - 5) x) as [L1|L1].
    + destruct (Rlt_dec x (rad2deg t + 5)) as [L2|L2].
      * clear KEEP. injection H as <- <-. assert (PA : plane_active (t :: ts) a (i - i) t) by (apply YES; auto).
        split; [|split].
        -- intros j. split.
           ++ intros [<-|J]; [split; [lia|exists t; exact PA]|]. apply M in J as (L & d & D). split; [lia|].
              exists d. now apply UP.
           ++ intros (L & d & D). destruct (Z.eq_dec j i) as [->|X]; [now left|]. right. apply M. split; [lia|].
              exists d. apply UP; auto. lia.
        -- now constructor.
        -- constructor; auto. exists t. split; [exact PA|].
           pose proof (rint_err ((x - rad2deg t) * 100)) as RE. unfold rad2deg in RE.
           apply Rabs_le_between in RE || idtac.
           set (v := rint ((x - t * 180 / PI) * 100)) in *. change (rint ((x - rad2deg t) * 100)) with v.
           clearbody v. apply Rabs_le. unfold Rabs in RE. destruct (Rcase_abs _) in RE; lra.
      * apply KEEP; auto; try tauto.
    + apply KEEP; auto; tauto.
Qed.

Lemma detect_group_right : forall ts g, planes_right ts (detect_group ts g) /\
  g_id (detect_group ts g) = g_id g /\ g_ang (detect_group ts g) = g_ang g /\ g_rdr (detect_group ts g) = g_rdr g.
Proof.
  intros ts g. unfold detect_group. destruct (detect (g_ang g) 0 ts) as [ps ds] eqn:E.
  destruct (detect_spec _ _ _ _ _ E) as (M & ND & F2). split; [|auto].
  unfold planes_right. cbn [g_planes g_dev g_ang]. split; [|split]; auto.
  - intros i. rewrite M, Z.sub_0_r. split; [intros [_ H]; exact H|]. intros (d & D). split; [apply D|eauto].
  - eapply Forall2_weaken; [|exact F2]. cbv beta. intros j v. now rewrite Z.sub_0_r.
Qed.

(** ** group_lines *)
Lemma map_ang_content : forall a b, map content a = map content b -> map l_ang a = map l_ang b.
Proof.
  intros a b H. assert (E : forall l, map l_ang l = map snd (map content l)) by (intros; rewrite map_map; reflexivity).
  now rewrite !E, H.
Qed.

Lemma group_lines_wf : forall ts g,
  let g' := group_lines ts g in
  map content (pts g') = map content (pts g) /\ wf_groups (pts g') (grps g') /\
  (forall x, In x (grps g') -> planes_right ts x /\ g_rdr x = None).
Proof.
  intros ts g. unfold group_lines. destruct (pts g) as [|l ls] eqn:E.
  - cbn [pts grps]. split; [reflexivity|]. split; [|easy]. split; [reflexivity|]. split; [easy|].
    cbn [List.length]. intros; lia.
  - pose proof (loop_wf (l :: ls) ltac:(discriminate)) as W. destruct (group_loop [] [] 0 (l :: ls)) as [ls' gs'].
    destruct W as (A & B & (W1 & W2 & W3) & C & D). cbn [pts grps]. split; [exact C|]. split.
    + split; [|split].
      * rewrite map_map, map_length, <- W1. apply map_ext. intros x. apply detect_group_right.
      * now rewrite map_length.
      * now rewrite map_length.
    + intros x X. apply in_map_iff in X as (y & <- & Y). split; [apply detect_group_right|].
      destruct (detect_group_right ts y) as (_ & _ & _ & ->). now apply D.
Qed.

(** The lines are in their bundles and the recorded angles are the means. *)
Definition bundles_right (g : grain) : Prop :=
  let l0 := map l_ang (pts g) in
  (forall l, In l (pts g) -> bundle_no l0 (l_ang l) (l_grp l)) /\
  List.length (grps g) = List.length (leaders l0) /\
  (forall k x, nth_error (grps g) k = Some x -> g_ang x = average (members (pts g) (Z.of_nat k))).

Lemma group_lines_bundles : forall ts g, bundled (map l_ang (pts g)) ->
  (forall l, In l (pts g) -> stale_ok (map l_ang (pts g)) l) -> bundles_right (group_lines ts g).
Proof.
  intros ts g B ST. pose proof (group_lines_wf ts g) as (C & _). unfold bundles_right.
  rewrite (map_ang_content _ _ C). unfold group_lines. destruct (pts g) as [|l ls] eqn:E.
  - cbn [pts grps]. split; [easy|]. split; [reflexivity|]. intros [|k]; discriminate.
  - pose proof (Inv_loop (map l_ang (l :: ls)) B (l :: ls) ltac:(discriminate) eq_refl ST) as IV.
    destruct (group_loop [] [] 0 (l :: ls)) as [ls' gs']. cbn [pts grps].
    destruct IV as (_ & (rd & RL & RE) & DN & _ & G). split; [|split].
    + intros x X. now apply DN.
    + rewrite map_length, <- RL, <- RE. reflexivity.
    + intros k x X. rewrite nth_error_map in X. destruct (nth_error gs' k) as [y|] eqn:Y; [|discriminate].
      cbn [option_map] in X. injection X as <-. destruct (detect_group_right ts y) as (_ & _ & -> & _).
      destruct (G k y Y) as [_ [M|M]]; [now rewrite M, average_one|]. now rewrite app_nil_r in M.
Qed.

Lemma bundle_number_unique : forall l0 a k j, bundled l0 -> In a l0 -> bundle_no l0 a k -> bundle_no l0 a j -> k = j.
Proof. intros l0 a k j B A K J. eapply (bundle_unique l0 B a a); eauto using near_refl. Qed.

(** Two right grains with the same lines show the same. *)
Lemma same_view : forall g h, map content (pts g) = map content (pts h) -> bundled (map l_ang (pts g)) ->
  bundles_right g -> bundles_right h ->
  map line_view (pts g) = map line_view (pts h) /\ map g_ang (grps g) = map g_ang (grps h).
Proof.
  intros g h C B (G1 & G2 & G3) (H1 & H2 & H3). assert (AE := map_ang_content _ _ C). rewrite <- AE in *.
  assert (V : map line_view (pts g) = map line_view (pts h)).
  { assert (AG : forall l, In l (pts g) -> In (l_ang l) (map l_ang (pts g))) by (intros; now apply in_map).
    assert (AH : forall l, In l (pts h) -> In (l_ang l) (map l_ang (pts g))) by (intros; rewrite AE; now apply in_map).
    set (l0 := map l_ang (pts g)) in *. clearbody l0. clear AE G2 G3 H2 H3.
    revert C G1 H1 AG AH. generalize (pts g) (pts h). induction l as [|x xs IH]; intros [|y ys] C G1 H1 AG AH; try discriminate.
    - reflexivity.
    - cbn [map] in *. injection C as C1 C2 C3. rewrite (IH ys); auto;
        try (intros z Z; first [apply G1; now right|apply H1; now right|apply AG; now right|apply AH; now right]).
      f_equal. unfold line_view. rewrite C1, C2.
      assert (l_grp x = l_grp y) as ->; [|reflexivity].
      eapply (bundle_number_unique l0 (l_ang x)); eauto; [apply AG; now left|apply G1; now left|].
      rewrite C2. apply H1. now left. }
  split; [exact V|].
  assert (ML : forall k, members (pts g) k = members (pts h) k).
  { intros k. assert (E : forall ls, members ls k = map (fun v => snd (fst v)) (filter (fun v => snd v =? k) (map line_view ls))).
    { induction ls as [|x xs IH]; [reflexivity|]. rewrite members_cons. cbn [map filter line_view snd].
      destruct (l_grp x =? k); cbn [map]; now rewrite IH. }
    now rewrite !E, V. }
  assert (LE : List.length (grps g) = List.length (grps h)) by congruence.
  apply nth_error_ext_len; [now rewrite !map_length|]. intros k. rewrite !nth_error_map.
  destruct (nth_error (grps g) k) as [x|] eqn:X, (nth_error (grps h) k) as [y|] eqn:Y; cbn [option_map]; auto.
  - now rewrite (G3 k x X), (H3 k y Y), ML.
  - apply nth_error_Some_len in X. apply nth_error_None in Y. lia.
  - apply nth_error_Some_len in Y. apply nth_error_None in X. lia.
Qed.

(** ** Histories *)
Lemma at_grain_nth : forall s f i g, nth_error (i_grains (at_grain s f)) i = Some g ->
  exists g0, nth_error (i_grains s) i = Some g0 /\ g = (if Nat.eqb i (i_sel s) then f g0 else g0).
Proof.
  intros s f i g H. cbn [at_grain i_grains] in H. rewrite change_nth_nth in H.
  destruct (nth_error (i_grains s) i) as [g0|] eqn:E.
  - exists g0. split; auto. destruct (Nat.eqb i (i_sel s)); cbn [option_map] in H; congruence.
  - destruct (Nat.eqb i (i_sel s)); discriminate.
Qed.

Lemma sel_nth : forall s g, nth_error (i_grains s) (i_sel s) = Some g -> sel_grain s = g.
Proof. intros s g H. unfold sel_grain. now apply nth_error_nth. Qed.

Lemma redraw_grains : forall s, i_grains (fst (redraw s)) = i_grains s.
Proof. intros. unfold redraw. destruct (shown s); reflexivity. Qed.
Lemma goto_grains : forall k s, i_grains (fst (goto_grain k s)) = i_grains s.
Proof. intros. unfold goto_grain. destruct (np_index _ k); [now rewrite redraw_grains|reflexivity]. Qed.

Lemma run_rule : forall (e : env) (rm : bool) (P : nat -> grain -> Prop),
  (forall i, P i (mkGrain [] [])) ->
  (forall i g p q, P i g ->
     P i (group_lines (e_traces e i) (mkGrain (pts g ++ [saved_line (e_corr e) p q]) (grps g)))) ->
  (rm = true -> forall i g k ls, P i g -> del (pts g) k = Ok ls ->
     P i (group_lines (e_traces e i) (mkGrain ls (grps g)))) ->
  (forall i g k g', P i g -> calc_rdr (e_rdr e i) g k = Ok g' -> P i g') ->
  forall acts s, (rm = false -> existsb removes acts = false) ->
  (forall i g, nth_error (i_grains s) i = Some g -> P i g) ->
  forall i g, nth_error (i_grains (run e acts s)) i = Some g -> P i g.
Proof.
  intros e rm P H0 HS HR HC. induction acts as [|a acts IH]; intros s RM S0 i g G; [now apply (S0 i)|].
  cbn [run fold_left] in G. apply (IH (fst (step e a s))) with (i := i) in G; auto.
  { intros R. specialize (RM R). cbn [existsb] in RM. apply orb_false_elim in RM. tauto. }
  assert (ST : rm = false -> removes a = false).
  { intros R. specialize (RM R). cbn [existsb] in RM. apply orb_false_elim in RM. tauto. }
  clear IH RM G g i. intros i g G. destruct a as [p|p| |t| | | |t|t]; cbn [step] in G.
  - now apply S0.
  - now apply S0.
  - destruct (i_p1 s) as [p1|], (i_p2 s) as [p2|]; cbn [fst] in G; try now apply S0.
    apply at_grain_nth in G as (g0 & G0 & ->). destruct (Nat.eqb_spec i (i_sel s)) as [->|]; [|now apply S0].
    apply HS. now apply S0.
  - destruct (py_int t) as [k|x]; [|now apply S0].
    destruct (del (pts (sel_grain s)) k) as [ls|x] eqn:D; [|now apply S0].
    rewrite redraw_grains in G.
    apply at_grain_nth in G as (g0 & G0 & ->). destruct (Nat.eqb_spec i (i_sel s)) as [->|]; [|now apply S0].
    rewrite (sel_nth s g0 G0) in D. destruct rm; [|discriminate (ST eq_refl)].
    eapply (HR eq_refl); eauto.
  - rewrite redraw_grains in G. apply at_grain_nth in G as (g0 & G0 & ->).
    destruct (Nat.eqb_spec i (i_sel s)) as [->|]; [apply H0|now apply S0].
  - rewrite goto_grains in G. now apply S0.
  - rewrite goto_grains in G. now apply S0.
  - destruct (py_int t) as [k|x]; [rewrite goto_grains in G|]; now apply S0.
  - destruct t as [|c t]; [now apply S0|]. destruct (py_int (c :: t)) as [k|x]; cbn [fst] in G; [|now apply S0].
    destruct (calc_rdr (e_rdr e (i_sel s)) (sel_grain s) k) as [g1|x] eqn:C; cbn [fst] in G; [|now apply S0].
    apply at_grain_nth in G as (g0 & G0 & ->). destruct (Nat.eqb_spec i (i_sel s)) as [->|]; [|now apply S0].
    rewrite (sel_nth s g0 G0) in C. now apply (HC _ g0 k g1); [apply S0|].
Qed.

Lemma opened_nth : forall n i g, nth_error (i_grains (opened n)) i = Some g -> g = mkGrain [] [].
Proof. intros n i g H. cbn [opened i_grains] in H. apply nth_error_In in H. now apply repeat_spec in H. Qed.

Lemma calc_rdr_inv : forall e g k g', calc_rdr e g k = Ok g' ->
  pts g' = pts g /\ map group_view (grps g') = map group_view (grps g).
Proof.
  intros e g k g' H. unfold calc_rdr in H. destruct (pts g) as [|l ls] eqn:E; [discriminate|].
  unfold bind in H. repeat match type of H with
    | match ?x with Ok _ => _ | Err _ => _ end = _ => destruct x; [|discriminate]
    end.
  destruct (np_index _ k); [|discriminate]. injection H as <-. cbn [pts grps]. split; auto.
  apply change_nth_map. reflexivity.
Qed.

Lemma view_parts : forall gs hs, map group_view gs = map group_view hs ->
  map g_id gs = map g_id hs /\ map g_ang gs = map g_ang hs /\ List.length gs = List.length hs.
Proof.
  intros gs hs H. split; [|split].
  - assert (E : forall l, map g_id l = map (fun v => fst (fst (fst v))) (map group_view l)) by (intros; rewrite map_map; reflexivity).
    now rewrite !E, H.
  - assert (E : forall l, map g_ang l = map (fun v => snd (fst (fst v))) (map group_view l)) by (intros; rewrite map_map; reflexivity).
    now rewrite !E, H.
  - assert (E : forall l, List.length l = List.length (map group_view l)) by (intros; now rewrite map_length).
    now rewrite (E gs), (E hs), H.
Qed.

Lemma planes_view : forall ts g h, group_view g = group_view h -> planes_right ts g -> planes_right ts h.
Proof.
  intros ts [gi ga gp gd gr] [hi ha hp hd hr] E. unfold group_view in E. cbn in E. injection E as -> -> -> ->. auto.
Qed.

(** *** Numbering, in every history *)
Definition numbered (ts : list R) (g : grain) : Prop :=
  wf_groups (pts g) (grps g) /\ (forall x, In x (grps g) -> planes_right ts x).

Lemma numbered_run : forall e acts n i g, nth_error (i_grains (run e acts (opened n))) i = Some g ->
  numbered (e_traces e i) g.
Proof.
  intros e acts n.
  refine (run_rule e true (fun i g => numbered (e_traces e i) g) _ _ _ _ acts (opened n) _ _).
  - intros i. split; [|easy]. split; [reflexivity|]. split; [easy|]. cbn [grps List.length]. intros; lia.
  - intros i g p q _. destruct (group_lines_wf (e_traces e i) (mkGrain (pts g ++ [saved_line (e_corr e) p q]) (grps g))) as (_ & W & P).
    split; [exact W|]. intros x X. now apply P.
  - intros _ i g k ls _ _. destruct (group_lines_wf (e_traces e i) (mkGrain ls (grps g))) as (_ & W & P).
    split; [exact W|]. intros x X. now apply P.
  - intros i g k g' ((W1 & W2 & W3) & P) C. destruct (calc_rdr_inv _ _ _ _ C) as (E & V).
    destruct (view_parts _ _ V) as (V1 & V2 & V3). split; [split; [|split]|].
    + now rewrite V1, V3.
    + now rewrite E, V3.
    + now rewrite E, V3.
    + intros x X. apply In_nth_error in X as (j & J).
      assert (Y : nth_error (map group_view (grps g')) j = Some (group_view x)) by (rewrite nth_error_map, J; reflexivity).
      rewrite V, nth_error_map in Y. destruct (nth_error (grps g) j) as [y|] eqn:YJ; [|discriminate].
      cbn [option_map] in Y. injection Y as Y1 Y2 Y3 Y4. apply planes_view with y; [unfold group_view; congruence|].
      apply P. now apply nth_error_In with j.
  - discriminate.
  - intros i g G. apply opened_nth in G. subst g. split; [|easy]. split; [reflexivity|]. split; [easy|].
    cbn [grps List.length]. intros; lia.
Qed.

(** *** Bundles, in every history without removals *)
Lemma leaders_app : forall l rs m, leaders_from rs (l ++ m) = leaders_from (leaders_from rs l) m.
Proof. induction l as [|a l IH]; intros rs m; cbn [app leaders_from]; auto. Qed.

Lemma bundle_no_app : forall l m a k, bundle_no l a k -> bundle_no (l ++ m) a k.
Proof.
  intros l m a k (K & r & R & N). split; auto. exists r. split; auto. unfold leaders. rewrite leaders_app.
  destruct (leaders_prefix m (leaders_from [] l)) as (x & -> & _). rewrite nth_error_app1; auto.
  now apply nth_error_Some_len in R.
Qed.

Lemma bundles_run : forall e acts n i g, existsb removes acts = false ->
  nth_error (i_grains (run e acts (opened n))) i = Some g -> bundled (map l_ang (pts g)) -> bundles_right g.
Proof.
  intros e acts n i g NR.
  refine (run_rule e false (fun i g => bundled (map l_ang (pts g)) -> bundles_right g) _ _ _ _ acts (opened n) (fun _ => NR) _ i g).
  - intros _ _. split; [easy|]. split; [reflexivity|]. intros [|k]; discriminate.
  - clear i g. intros i g p q IH B. set (l := saved_line (e_corr e) p q) in *.
    destruct (group_lines_wf (e_traces e i) (mkGrain (pts g ++ [l]) (grps g))) as (C & _).
    rewrite (map_ang_content _ _ C) in B. cbn [pts] in B. apply group_lines_bundles; cbn [pts]; auto.
    rewrite map_app in *.
    assert (B0 : bundled (map l_ang (pts g))).
    { intros a b c A1 A2 A3. apply B; apply in_or_app; now left. }
    destruct (IH B0) as (G1 & _). intros x X. apply in_app_or in X as [X|[<-|[]]].
    + right. apply bundle_no_app. now apply G1.
    + left. reflexivity.
  - discriminate.
  - clear i g. intros i g k g' IH C B. destruct (calc_rdr_inv _ _ _ _ C) as (E & V). rewrite E in B.
    destruct (IH B) as (G1 & G2 & G3). destruct (view_parts _ _ V) as (V1 & V2 & V3). unfold bundles_right. rewrite E.
    split; [exact G1|]. split; [congruence|]. intros j x J.
    assert (Y : nth_error (map g_ang (grps g')) j = Some (g_ang x)) by (rewrite nth_error_map, J; reflexivity).
    rewrite V2, nth_error_map in Y. destruct (nth_error (grps g) j) as [y|] eqn:YJ; [|discriminate].
    cbn [option_map] in Y. injection Y as <-. now apply G3.
  - clear i g. intros i g G. apply opened_nth in G. subst g. intros _. split; [easy|]. split; [reflexivity|]. intros [|k]; discriminate.
Qed.
