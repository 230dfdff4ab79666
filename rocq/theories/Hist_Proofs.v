(** Lemmas about histograms. *)
From Coq Require Import String Reals List ZArith Bool Lia Lra.
Import ListNotations.
From Verif Require Import Py Crystal_Model Pole_Model Hist_Model Hist_Spec.
Open Scope R_scope.

(** ** Tallies *)
Lemma tally_test : forall (P : R -> Prop) (f : R -> bool), (forall x, f x = true <-> P x) -> forall d,
  tally P d (Z.of_nat (List.length (filter (fun v => match v with Some x => f x | None => false end) d))).
Proof.
  intros P f H. induction d as [|[x|] d IH]; cbn [filter List.length]; [constructor| |now constructor].
  destruct (f x) eqn:E; cbn [List.length]; [rewrite Nat2Z.inj_succ, <- Z.add_1_r; constructor; [now apply H|exact IH]|].
  constructor; [intros K; apply H in K; congruence|exact IH].
Qed.
Lemma tally_below : forall e d, tally (fun x => x < e) d (below e d).
Proof. intros e d. apply (tally_test (fun x => x < e) (fun x => if Rlt_dec x e then true else false)). intros x. destruct (Rlt_dec x e); split; auto; discriminate. Qed.
Lemma tally_upto : forall e d, tally (fun x => x <= e) d (upto e d).
Proof. intros e d. apply (tally_test (fun x => x <= e) (fun x => if Rle_dec x e then true else false)). intros x. destruct (Rle_dec x e); split; auto; discriminate. Qed.
Lemma tally_ext : forall (P Q : R -> Prop), (forall x, P x <-> Q x) -> forall d n, tally P d n -> tally Q d n.
Proof. intros P Q H d n T. induction T; constructor; auto; [now apply H|intros K; apply H in K; contradiction]. Qed.
Lemma tally_unique : forall P d n, tally P d n -> forall m, tally P d m -> n = m.
Proof. intros P d n T. induction T; intros m K; inversion K; subst; auto; try contradiction; f_equal; auto. Qed.
Lemma tally_nonneg : forall P d n, tally P d n -> (0 <= n)%Z.
Proof. intros P d n T. induction T; lia. Qed.
Lemma tally_sub : forall (P Q : R -> Prop), (forall x, P x -> Q x) -> forall d n m, tally P d n -> tally Q d m -> tally (fun x => Q x /\ ~ P x) d (m - n).
Proof.
  intros P Q H d n m T. revert m. induction T as [|x d n p T IH|x d n p T IH|d n T IH]; intros m K; inversion K as [|x' d' m' q K'|x' d' m' q K'|d' m' K']; subst.
  - constructor.
  - replace (m' + 1 - (n + 1))%Z with (m' - n)%Z by lia. apply tally_out; [tauto|auto].
  - now elim q; apply H.
  - replace (m' + 1 - n)%Z with (m' - n + 1)%Z by lia. apply tally_in; [tauto|auto].
  - apply tally_out; [tauto|auto].
  - apply tally_nan. auto.
Qed.

(** ** Edges *)
Lemma linspace_len : forall a b n, List.length (linspace a b n) = n.
Proof. intros a b n. unfold linspace. now rewrite map_length, seq_length. Qed.
Lemma linspace_nth : forall a b n i, (2 <= n)%nat -> (i < n)%nat -> nth_error (linspace a b n) i = Some (a + (b - a) * (INR i / INR (n - 1))).
Proof.
  intros a b n i N I. unfold linspace. rewrite nth_error_map, (nth_error_nth' _ 0%nat) by (rewrite seq_length; exact I). rewrite seq_nth by exact I.
  cbn [option_map]. destruct (Nat.eqb_spec n 1); [lia|]. reflexivity.
Qed.
Lemma nth_of : forall (l : list R) i x, nth_error l i = Some x -> nth i l 0 = x.
Proof. intros l i x H. now apply nth_error_nth. Qed.
Lemma linspace_steps : forall a b n, (2 <= n)%nat -> equal_steps a b (linspace a b n).
Proof.
  intros a b n N. unfold equal_steps. rewrite linspace_len. assert (P : INR (n - 1) <> 0) by (apply not_0_INR; lia).
  assert (E : forall i, (i < n)%nat -> nth i (linspace a b n) 0 = a + (b - a) * (INR i / INR (n - 1))) by (intros i I; apply nth_of; now apply linspace_nth).
  rewrite !E by lia. split; [cbn; field; exact P|]. split; [field; exact P|].
  intros i I. rewrite !E, S_INR by lia. field. exact P.
Qed.
Lemma steps_increasing : forall a b es, a < b -> equal_steps a b es -> increasing es.
Proof.
  intros a b es H (_ & _ & K) i I. specialize (K i I). assert (0 < INR (List.length es - 1)) by (apply lt_0_INR; lia).
  assert (0 < (b - a) / INR (List.length es - 1)) by (apply Rdiv_lt_0_compat; lra). lra.
Qed.
Lemma ln10 : 0 < ln 10.
Proof. rewrite <- ln_1. apply ln_increasing; lra. Qed.
Lemma power_log10 : forall x, 0 < x -> Rpower 10 (log10 x) = x.
Proof. intros x H. unfold Rpower, log10. pose proof ln10. replace (ln x / ln 10 * ln 10) with (ln x) by (field; lra). now apply exp_ln. Qed.
Lemma logspace_ok : forall a b n es, (2 <= n)%nat -> 0 < a -> 0 < b -> logspace a b n = Some es -> List.length es = n /\ equal_ratios a b es /\
  (a < b -> increasing es).
Proof.
  intros a b n es N A B H. unfold logspace in H. destruct (Rlt_dec 0 a); [|contradiction]. destruct (Rlt_dec 0 b); [|contradiction]. injection H as <-.
  rewrite map_length, linspace_len. split; [reflexivity|].
  assert (E : forall i, (i < n)%nat -> nth i (map (Rpower 10) (linspace (log10 a) (log10 b) n)) 0 = Rpower 10 (log10 a + (log10 b - log10 a) * (INR i / INR (n - 1)))).
  { intros i I. apply nth_of. rewrite nth_error_map, linspace_nth by assumption. reflexivity. }
  assert (P : INR (n - 1) <> 0) by (apply not_0_INR; lia). split.
  - unfold equal_ratios. rewrite map_length, linspace_len, !E by lia. split; [cbn; rewrite <- (power_log10 a A) at 3; f_equal; field; exact P|].
    split; [rewrite <- (power_log10 b B) at 2; f_equal; field; exact P|].
    exists (Rpower 10 ((log10 b - log10 a) / INR (n - 1))). split; [|split].
    + assert (PI : 0 < Rpower 10 ((log10 b - log10 a) / INR (n - 1))) by apply exp_pos. rewrite <- (Rpower_pow _ _ PI), Rpower_mult.
      replace ((log10 b - log10 a) / INR (n - 1) * INR (n - 1)) with (log10 b + - log10 a) by (field; exact P).
      rewrite Rpower_plus, Rpower_Ropp, !power_log10 by assumption. reflexivity.
    + apply exp_pos.
    + intros i I. rewrite !E by lia. rewrite <- Rpower_plus. f_equal. rewrite S_INR. field. exact P.
  - intros AB i I. rewrite map_length, linspace_len in I. rewrite !E by lia. apply Rpower_lt; [lra|]. rewrite S_INR.
    assert (0 < INR (n - 1)) by (apply lt_0_INR; lia). pose proof ln10. assert (ln a < ln b) by (now apply ln_increasing).
    assert (L : 0 < log10 b - log10 a) by (unfold log10; replace (ln b / ln 10 - ln a / ln 10) with ((ln b - ln a) / ln 10) by (field; lra); apply Rdiv_lt_0_compat; lra).
    replace ((INR i + 1) / INR (n - 1)) with (INR i / INR (n - 1) + / INR (n - 1)) by (field; exact P). assert (0 < / INR (n - 1)) by now apply Rinv_0_lt_compat.
    assert (0 < (log10 b - log10 a) * / INR (n - 1)) by now apply Rmult_lt_0_compat. lra.
Qed.

(** ** Increasing edges *)
Lemma inc_tl : forall a es, increasing (a :: es) -> increasing es.
Proof. intros a es H i I. apply (H (S i)). cbn [List.length]. lia. Qed.
Lemma inc_decreases : forall es, increasing es -> decreases es = false.
Proof.
  induction es as [|a [|b es] IH]; intros H; [reflexivity|reflexivity|]. change (decreases (a :: b :: es)) with ((if Rlt_dec b a then true else false) || decreases (b :: es)).
  rewrite (IH (inc_tl _ _ H)). pose proof (H 0%nat ltac:(cbn; lia)) as K. cbn in K. destruct (Rlt_dec b a); [lra|reflexivity].
Qed.
Lemma inc_le : forall es, increasing es -> forall j i, (i <= j < List.length es)%nat -> nth i es 0 <= nth j es 0.
Proof.
  intros es H. induction j as [|j IH]; intros i I; [replace i with 0%nat by lia; lra|]. destruct (Nat.eq_dec i (S j)) as [->|N]; [lra|].
  specialize (IH i ltac:(lia)). pose proof (H j ltac:(lia)). lra.
Qed.

(** ** Counts *)
Lemma cumulative_len : forall d es, List.length (cumulative d es) = List.length es.
Proof. induction es as [|a [|b es] IH]; [reflexivity|reflexivity|]. change (cumulative d (a :: b :: es)) with (below a d :: cumulative d (b :: es)). cbn [List.length] in *. now rewrite IH. Qed.
Lemma cumulative_nth : forall d es i, (i < List.length es)%nat ->
  nth_error (cumulative d es) i = Some (if (S i =? List.length es)%nat then upto (nth i es 0) d else below (nth i es 0) d).
Proof.
  induction es as [|a [|b es] IH]; intros i I; [cbn in I; lia| |].
  - assert (i = 0%nat) as -> by (cbn in I; lia). reflexivity.
  - change (cumulative d (a :: b :: es)) with (below a d :: cumulative d (b :: es)). destruct i as [|i]; [reflexivity|].
    change (nth_error (below a d :: cumulative d (b :: es)) (S i)) with (nth_error (cumulative d (b :: es)) i).
    rewrite IH by (cbn [List.length] in *; lia). reflexivity.
Qed.
Lemma diff_len : forall l, List.length (diff l) = (List.length l - 1)%nat.
Proof. induction l as [|a [|b l] IH]; [reflexivity|reflexivity|]. change (diff (a :: b :: l)) with ((b - a)%Z :: diff (b :: l)). cbn [List.length] in *. rewrite IH. lia. Qed.
Lemma diff_nth : forall l i a b, nth_error l i = Some a -> nth_error l (S i) = Some b -> nth_error (diff l) i = Some (b - a)%Z.
Proof.
  induction l as [|x [|y l] IH]; intros i a b A B; [destruct i; discriminate|destruct i as [|[|i]]; discriminate|].
  change (diff (x :: y :: l)) with ((y - x)%Z :: diff (y :: l)). destruct i as [|i]; [cbn in *; congruence|]. now apply (IH i).
Qed.
Lemma diff_sum : forall l a b, nth_error l 0 = Some a -> nth_error l (List.length l - 1) = Some b -> fold_right Z.add 0%Z (diff l) = (b - a)%Z.
Proof.
  induction l as [|x [|y l] IH]; intros a b A B; [discriminate|cbn in *; assert (a = b) by congruence; subst; cbn; lia|].
  change (diff (x :: y :: l)) with ((y - x)%Z :: diff (y :: l)). cbn [fold_right].
  rewrite (IH y b eq_refl); [cbn in A; injection A as ->; lia|]. cbn [List.length] in *. replace (S (S (List.length l)) - 1)%nat with (S (S (List.length l) - 1)) in B by lia. exact B.
Qed.
Lemma counts_ok : forall d es i, increasing es -> (S i < List.length es)%nat -> exists n, nth_error (diff (cumulative d es)) i = Some n /\ tally (in_bin es i) d n.
Proof.
  intros d es i H I. eexists. split; [apply diff_nth; apply cumulative_nth; lia|]. pose proof (H i I) as LT.
  destruct (Nat.eqb_spec (S i) (List.length es)); [lia|]. destruct (Nat.eqb_spec (S (S i)) (List.length es)) as [L|L].
  - eapply tally_ext; [|apply tally_sub; [|apply tally_below|apply tally_upto]]; cbn beta; [|intros x; lra].
    intros x. unfold in_bin. split; [intros (A & B); split; [lra|]; destruct (Rle_lt_or_eq_dec _ _ A); auto|intros (A & [B|(_ & B)]); split; lra].
  - eapply tally_ext; [|apply tally_sub; [|apply tally_below|apply tally_below]]; cbn beta; [|intros x; lra].
    intros x. unfold in_bin. split; [intros (A & B); split; [lra|]; auto|intros (A & [B|(B & _)]); [split; lra|contradiction]].
Qed.
Lemma total_ok : forall d es, increasing es -> (2 <= List.length es)%nat ->
  tally (fun x => nth 0 es 0 <= x <= nth (List.length es - 1) es 0) d (fold_right Z.add 0%Z (diff (cumulative d es))).
Proof.
  intros d es H L. rewrite (diff_sum _ (below (nth 0 es 0) d) (upto (nth (List.length es - 1) es 0) d)).
  - eapply tally_ext; [|apply tally_sub; [|apply tally_below|apply tally_upto]]; cbn beta.
    + intros x. lra.
    + intros x X. pose proof (inc_le es H (List.length es - 1) 0 ltac:(lia)). lra.
  - rewrite cumulative_nth by lia. destruct (Nat.eqb_spec 1 (List.length es)); [lia|reflexivity].
  - rewrite cumulative_len, cumulative_nth by lia. destruct (Nat.eqb_spec (S (List.length es - 1)) (List.length es)); [reflexivity|lia].
Qed.

(** ** Heights *)
Lemma widths_len : forall l, List.length (widths l) = (List.length l - 1)%nat.
Proof. induction l as [|a [|b l] IH]; [reflexivity|reflexivity|]. change (widths (a :: b :: l)) with ((b - a) :: widths (b :: l)). cbn [List.length] in *. rewrite IH. lia. Qed.
Lemma widths_nth : forall l i, (S i < List.length l)%nat -> nth_error (widths l) i = Some (nth (S i) l 0 - nth i l 0).
Proof.
  induction l as [|x [|y l] IH]; intros i I; [cbn in I; lia|cbn in I; lia|]. change (widths (x :: y :: l)) with ((y - x) :: widths (y :: l)).
  destruct i as [|i]; [reflexivity|]. apply (IH i). cbn [List.length] in *. lia.
Qed.
Lemma middles_len : forall l, List.length (middles l) = (List.length l - 1)%nat.
Proof. induction l as [|a [|b l] IH]; [reflexivity|reflexivity|]. change (middles (a :: b :: l)) with ((1 / 2 * (b + a)) :: middles (b :: l)). cbn [List.length] in *. rewrite IH. lia. Qed.
Lemma middles_nth : forall l i, (S i < List.length l)%nat -> nth_error (middles l) i = Some (1 / 2 * (nth (S i) l 0 + nth i l 0)).
Proof.
  induction l as [|x [|y l] IH]; intros i I; [cbn in I; lia|cbn in I; lia|]. change (middles (x :: y :: l)) with ((1 / 2 * (y + x)) :: middles (y :: l)).
  destruct i as [|i]; [reflexivity|]. apply (IH i). cbn [List.length] in *. lia.
Qed.
Lemma nth_error_combine : forall {A B} (l : list A) (m : list B) i a b, nth_error l i = Some a -> nth_error m i = Some b -> nth_error (combine l m) i = Some (a, b).
Proof. induction l as [|x l IH]; intros [|y m] [|i] a b H K; try discriminate; cbn in *; [congruence|now apply IH]. Qed.
Lemma heights_ok : forall dens d es, increasing es -> (2 <= List.length es)%nat -> shows dens es d (heights dens (diff (cumulative d es)) es).
Proof.
  intros dens d es H L. split.
  - unfold heights. destruct dens; rewrite map_length; [rewrite combine_length, widths_len|]; rewrite diff_len, cumulative_len; lia.
  - intros i I. destruct (counts_ok d es i H I) as (n & E & T). exists n. split; [exact T|]. destruct dens; unfold heights.
    + eexists. split; [exact (total_ok d es H L)|]. rewrite nth_error_map, (nth_error_combine _ _ i _ _ E (widths_nth es i I)). cbn [option_map fst snd]. f_equal.
      unfold per_width. pose proof (H i I). destruct (Req_EM_T _ 0); [lra|]. destruct (Z.eq_dec _ 0) as [Z0|Z0].
      * rewrite Z0. destruct (Req_EM_T _ 0) as [_|N]; [reflexivity|now elim N].
      * destruct (Req_EM_T _ 0) as [N|N]; [now elim Z0; apply eq_IZR|]. f_equal. field. split; [exact N|lra].
    + rewrite nth_error_map, E. reflexivity.
Qed.

Lemma histogram_ok : forall d es, increasing es -> histogram d es = Ok (diff (cumulative d es)).
Proof. intros d es H. unfold histogram. now rewrite inc_decreases. Qed.

(** ** Area *)
Lemma sum_Z : forall l, fold_right Rplus 0 (map IZR l) = IZR (fold_right Z.add 0%Z l).
Proof. induction l as [|a l IH]; [reflexivity|]. cbn [map fold_right]. now rewrite IH, plus_IZR. Qed.
Lemma area_diff : forall d es ys, increasing es -> (2 <= List.length es)%nat -> fold_right Z.add 0%Z (diff (cumulative d es)) <> 0%Z ->
  heights true (diff (cumulative d es)) es = map Some ys -> area es ys = 1.
Proof.
  intros d es ys H L N E. unfold area. assert (LY : List.length ys = (List.length es - 1)%nat).
  { rewrite <- (map_length Some ys), <- E. apply (heights_ok true d es H L). }
  set (T := fold_right Z.add 0%Z (diff (cumulative d es))) in *.
  assert (TN : IZR T <> 0) by (intros K; apply N; now apply eq_IZR).
  rewrite (map_ext_in _ (fun i => nth i (map IZR (diff (cumulative d es))) 0 * / IZR T)).
  - replace (fold_right Rplus 0 _) with (fold_right Rplus 0 (map IZR (diff (cumulative d es))) * / IZR T).
    + rewrite sum_Z. fold T. now apply Rinv_r.
    + replace (List.length ys) with (List.length (map IZR (diff (cumulative d es)))) by (rewrite map_length, diff_len, cumulative_len; lia).
      generalize (map IZR (diff (cumulative d es))). intros l. induction l as [|a l IH]; [cbn; ring|].
      cbn [List.length seq map fold_right]. rewrite <- seq_shift, map_map. change (nth 0 (a :: l) 0) with a. rewrite Rmult_plus_distr_r, IH. reflexivity.
  - intros i I. apply in_seq in I. assert (SI : (S i < List.length es)%nat) by lia. destruct (counts_ok d es i H SI) as (n & EN & _).
    pose proof (H i SI) as W. assert (Y : nth_error (map Some ys) i = Some (Some (IZR n / (nth (S i) es 0 - nth i es 0) / IZR T))).
    { rewrite <- E. unfold heights. rewrite nth_error_map, (nth_error_combine _ _ i _ _ EN (widths_nth es i SI)). cbn [option_map fst snd]. fold T. unfold per_width.
      destruct (Req_EM_T _ 0); [lra|]. destruct (Req_EM_T (IZR T) 0); [contradiction|]. reflexivity. }
    rewrite nth_error_map in Y. destruct (nth_error ys i) as [y|] eqn:YI; [|discriminate]. injection Y as ->. rewrite (nth_of _ _ _ YI).
    rewrite (nth_of (map IZR (diff (cumulative d es))) i (IZR n)) by (rewrite nth_error_map, EN; reflexivity). field. split; [exact TN|lra].
Qed.

(** ** Reversed range *)
Lemma dec_first : forall es, (2 <= List.length es)%nat -> nth 1 es 0 < nth 0 es 0 -> decreases es = true.
Proof. intros [|a [|b es]] L H; [cbn in L; lia|cbn in L; lia|]. cbn in H. cbn [decreases]. destruct (Rlt_dec b a); [reflexivity|contradiction]. Qed.
