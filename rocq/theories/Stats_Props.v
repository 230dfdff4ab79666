(** Theorems about statistics tables. *)
From Coq Require Import Ascii Reals ZArith Bool Lra Lia Permutation Sorted.
From Coq Require Import List.
From Verif Require Import Py Base_Model Base_Proofs Text_Model IoText_Proofs Stats_Model Stats_Spec.
Import ListNotations.
Open Scope Z_scope.

(** * Lemmas *)
Lemma insert_perm : forall x l, Permutation (x :: l) (insert x l).
Proof.
  intros x l. induction l as [|y l IH]; cbn [insert]; [reflexivity|]. destruct (Rle_dec x y); [reflexivity|].
  rewrite perm_swap. now constructor.
Qed.
Lemma sort_perm : forall l, Permutation l (sort l).
Proof. induction l as [|x l IH]; cbn [sort]; [constructor|]. rewrite <- insert_perm. now constructor. Qed.
Definition ordered := StronglySorted Rle.
Lemma insert_ordered : forall x l, ordered l -> ordered (insert x l).
Proof.
  intros x l O. induction O as [|y l O IH F]; cbn [insert]; [repeat constructor|]. destruct (Rle_dec x y) as [L|L].
  - constructor; [now constructor|]. constructor; [exact L|]. revert F. apply Forall_impl. intros a Ha. lra.
  - constructor; [exact IH|]. apply Forall_forall. intros z Iz. apply (Permutation_in _ (Permutation_sym (insert_perm x l))) in Iz as [<-|Iz]; [lra|].
    rewrite Forall_forall in F. auto.
Qed.
Lemma sort_ordered : forall l, ordered (sort l).
Proof. induction l as [|x l IH]; cbn [sort]; [constructor|]. now apply insert_ordered. Qed.
Lemma filter_perm : forall A (f : A -> bool) l m, Permutation l m -> Permutation (filter f l) (filter f m).
Proof.
  intros A f l m P. induction P as [|x l m P IH|x y l|l m n P1 IH1 P2 IH2]; cbn [filter]; auto.
  - destruct (f x); auto.
  - destruct (f x), (f y); auto. constructor.
  - now rewrite IH1.
Qed.
Lemma below_perm : forall l m x, Permutation l m -> below l x = below m x.
Proof. intros l m x P. unfold below. now apply Permutation_length, filter_perm. Qed.
Lemma upto_perm : forall l m x, Permutation l m -> upto l x = upto m x.
Proof. intros l m x P. unfold upto. now apply Permutation_length, filter_perm. Qed.
Lemma ranked_perm : forall l m k x, Permutation l m -> ranked l k x -> ranked m k x.
Proof. intros l m k x P [I B]. split; [now apply (Permutation_in _ P)|]. now rewrite <- (below_perm _ _ x P), <- (upto_perm _ _ x P). Qed.
Lemma count_all : forall A (f : A -> bool) l, (forall a, In a l -> f a = true) -> List.length (filter f l) = List.length l.
Proof.
  intros A f l H. induction l as [|a l IH]; [reflexivity|]. cbn [filter]. rewrite (H a (or_introl eq_refl)). cbn [List.length]. f_equal. apply IH.
  intros b Ib. apply H. now right.
Qed.
Lemma count_none : forall A (f : A -> bool) l, (forall a, In a l -> f a = false) -> filter f l = [].
Proof. intros A f l H. induction l as [|a l IH]; [reflexivity|]. cbn [filter]. rewrite (H a (or_introl eq_refl)). apply IH. intros b Ib. apply H. now right. Qed.
Lemma ordered_ranked : forall s k x, ordered s -> nth_error s k = Some x -> ranked s k x.
Proof.
  intros s k x O E. split; [exact (nth_error_In _ _ E)|]. destruct (nth_error_split _ _ E) as (a & b & -> & L). clear E.
  assert (A : forall y, In y a -> (y <= x)%R).
  { intros y Iy. clear L. induction a as [|z a IH]; [destruct Iy|]. cbn [app] in O. inversion O as [|? ? O1 F]; subst. destruct Iy as [->|Iy].
    - rewrite Forall_forall in F. apply F. apply in_or_app. right. now left.
    - now apply IH. }
  assert (B : forall y, In y b -> (x <= y)%R).
  { clear A L. induction a as [|z a IH]; cbn [app] in O; inversion O as [|? ? O1 F]; subst; [|auto]. now apply Forall_forall. }
  unfold below, upto. rewrite !filter_app, !app_length. split.
  - rewrite (count_none _ _ (x :: b)).
    + cbn [List.length]. rewrite Nat.add_0_r, <- L. clear. induction a as [|y a IH]; [reflexivity|]. cbn [filter].
      destruct (Rlt_dec y x); cbn [List.length]; lia.
    + intros y [<-|Iy]; [destruct (Rlt_dec x x); [lra|reflexivity]|]. specialize (B y Iy). destruct (Rlt_dec y x); [lra|reflexivity].
  - rewrite count_all by (intros y Iy; specialize (A y Iy); destruct (Rle_dec y x); [reflexivity|lra]).
    cbn [filter]. destruct (Rle_dec x x); [|lra]. cbn [List.length]. lia.
Qed.
Lemma ordered_le : forall s i j x y, ordered s -> (i <= j)%nat -> nth_error s i = Some x -> nth_error s j = Some y -> (x <= y)%R.
Proof.
  intros s i j x y O. revert i j. induction O as [|z s O IH F]; intros i j L E1 E2; [destruct i; discriminate|].
  destruct i as [|i], j as [|j]; cbn [nth_error] in E1, E2.
  - assert (x = y) by congruence. lra.
  - injection E1 as ->. rewrite Forall_forall in F. apply F. exact (nth_error_In _ _ E2).
  - lia.
  - apply (IH i j); [lia|assumption|assumption].
Qed.
(** The value of a rank is unique. *)
Lemma ranked_unique : forall l k x y, ranked l k x -> ranked l k y -> x = y.
Proof.
  assert (G : forall l k x y, ranked l k x -> ranked l k y -> ~ (x < y)%R).
  { intros l k x y [_ [_ A]] [_ [B _]] L. assert (upto l x <= below l y)%nat; [|lia]. clear A B. unfold upto, below.
    induction l as [|z l IH]; [auto|]. cbn [filter]. destruct (Rle_dec z x), (Rlt_dec z y); cbn [List.length]; try lia. lra. }
  intros l k x y A B. pose proof (G l k x y A B). pose proof (G l k y x B A). lra.
Qed.

Definition between (s : list R) (h : R) : num :=
  match nth_error s (Z.to_nat (Int_part h)) with
  | None => NaN
  | Some lo => Fin (lo + (h - IZR (Int_part h)) * ((match nth_error s (Z.to_nat (Int_part h) + 1) with Some v => v | None => lo end) - lo))%R
  end.
Lemma per_ok : forall l p, (0 <= p <= 100)%R -> nanpercentile l p = Ok (between (sort (numbers l)) (p / 100 * (INR (List.length (sort (numbers l))) - 1))).
Proof.
  intros l p P. unfold nanpercentile, between. destruct (Rlt_dec p 0); [lra|]. destruct (Rlt_dec 100 p); [lra|]. cbv zeta.
  destruct (nth_error (sort (numbers l)) (Z.to_nat (Int_part _))); reflexivity.
Qed.
Lemma pos_height : forall (s : list R) p, s <> [] -> (0 <= p <= 100)%R -> (0 <= p / 100 * (INR (List.length s) - 1) <= INR (List.length s) - 1)%R.
Proof.
  intros s p N P. assert (1 <= List.length s)%nat by (destruct s; [congruence|cbn; lia]).
  assert (I : (1 <= INR (List.length s))%R) by (change 1%R with (INR 1); now apply le_INR). split; [apply Rmult_le_pos; lra|].
  rewrite <- (Rmult_1_l (INR (List.length s) - 1)) at 2. apply Rmult_le_compat_r; lra.
Qed.
Lemma between_parts : forall (s : list R) h, s <> [] -> (0 <= h <= INR (List.length s) - 1)%R ->
  exists k t lo, (0 <= t < 1)%R /\ (INR k + t = h)%R /\ Int_part h = Z.of_nat k /\ nth_error s k = Some lo /\
    ((t = 0%R /\ between s h = Fin lo) \/ (exists hi, nth_error s (k + 1) = Some hi /\ between s h = Fin (lo + t * (hi - lo)))).
Proof.
  intros s h N H. destruct (base_Int_part h) as [A B]. assert (Z0 : -1 < Int_part h) by (apply lt_IZR; lra).
  exists (Z.to_nat (Int_part h)), (h - IZR (Int_part h))%R. assert (K : INR (Z.to_nat (Int_part h)) = IZR (Int_part h)) by (rewrite INR_IZR_INZ, Z2Nat.id by lia; reflexivity).
  assert (L : (Z.to_nat (Int_part h) < List.length s)%nat) by (apply INR_lt; lra).
  destruct (nth_error s (Z.to_nat (Int_part h))) as [lo|] eqn:E; [|apply nth_error_None in E; lia]. exists lo.
  split; [lra|]. split; [lra|]. split; [rewrite Z2Nat.id; lia|]. split; [reflexivity|]. unfold between. rewrite E.
  destruct (nth_error s (Z.to_nat (Int_part h) + 1)) as [hi|] eqn:E1; [right; exists hi; auto|]. left.
  apply nth_error_None in E1. assert (D : (INR (List.length s) <= INR (Z.to_nat (Int_part h)) + 1)%R) by (rewrite <- S_INR; apply le_INR; lia).
  assert (T : (h - IZR (Int_part h) = 0)%R) by lra. split; [exact T|]. rewrite T. f_equal. ring.
Qed.

(** * C107 *)
(** Nan are left out; the percentile is that of the numbers; of no numbers it is nan. *)
Theorem C107_percentile : forall l p, (0 <= p <= 100)%R ->
  (numbers l = [] -> nanpercentile l p = Ok NaN) /\
  (numbers l <> [] -> exists v, nanpercentile l p = Ok (Fin v) /\ is_percentile (numbers l) p v /\
     forall v', is_percentile (numbers l) p v' -> v' = v).
Proof.
  intros l p P. rewrite per_ok by exact P. pose proof (sort_perm (numbers l)) as SP. pose proof (sort_ordered (numbers l)) as SO. split; intros N.
  - rewrite N. unfold between. cbn [sort]. destruct (Z.to_nat _); reflexivity.
  - rewrite <- (Permutation_length SP).
    assert (N' : sort (numbers l) <> []) by (intros E; rewrite E in SP; apply Permutation_sym, Permutation_nil in SP; auto).
    remember (sort (numbers l)) as s eqn:Es. clear Es. remember (numbers l) as m eqn:Em. clear Em l.
    rewrite (Permutation_length SP). pose proof (pos_height s p N' P) as H.
    destruct (between_parts s _ N' H) as (k & t & lo & T & K & _ & E & D).
    assert (V : exists v hi, between s (p / 100 * (INR (List.length s) - 1)) = Fin v /\ (t = 0%R \/ nth_error s (k + 1) = Some hi) /\ v = ((1 - t) * lo + t * hi)%R).
    { destruct D as [[-> ->]|(hi & E1 & ->)]; [exists lo, 0%R|exists (lo + t * (hi - lo))%R, hi]; split; auto; split; auto; ring. }
    destruct V as (v & hi & -> & Hh & Ev). exists v. split; [reflexivity|].
    assert (RL : ranked m k lo) by (apply (ranked_perm s m); [now apply Permutation_sym|now apply ordered_ranked]).
    assert (RH : t = 0%R \/ ranked m (k + 1) hi) by (destruct Hh; [now left|right; apply (ranked_perm s m); [now apply Permutation_sym|now apply ordered_ranked]]).
    split.
    + exists k, t, lo, hi. rewrite (Permutation_length SP). auto.
    + intros v' (k' & t' & lo' & hi' & T' & K' & RL' & RH' & ->). rewrite (Permutation_length SP), <- K in K'.
      assert (EK : k' = k).
      { assert (k' < k + 1)%nat by (apply INR_lt; rewrite plus_INR; cbn [INR]; lra). assert (k < k' + 1)%nat by (apply INR_lt; rewrite plus_INR; cbn [INR]; lra). lia. }
      subst k'. assert (t' = t) by lra. subst t'. rewrite (ranked_unique _ _ _ _ RL' RL). rewrite Ev.
      destruct (Req_dec t 0) as [->|Nt]; [ring|]. destruct RH as [?|RH]; [lra|]. destruct RH' as [?|RH']; [lra|].
      now rewrite (ranked_unique _ _ _ _ RH' RH).
Qed.
Print Assumptions C107_percentile.
Example C107_percentile_met : numbers [Fin 3; NaN; Fin 1] = [3; 1]%R /\ is_percentile [3; 1]%R 50 2.
Proof.
  split; [reflexivity|]. exists 0%nat, (1 / 2)%R, 1%R, 3%R. split; [lra|]. split; [cbn [List.length INR]; lra|].
  unfold ranked, below, upto. cbn [filter In].
  destruct (Rlt_dec 3 1), (Rlt_dec 1 1), (Rle_dec 3 1), (Rle_dec 1 1), (Rlt_dec 3 3), (Rlt_dec 1 3), (Rle_dec 3 3), (Rle_dec 1 3); try lra.
  cbn [List.length Nat.add]. split; [split; [auto|lia]|]. split; [right; split; [auto|lia]|]. lra.
Qed.

(** 0 is the smallest number, 100 the largest, and percentiles never decrease. *)
Theorem C107_order : forall l p q v w, nanpercentile l p = Ok (Fin v) -> nanpercentile l q = Ok (Fin w) ->
  (p <= q -> v <= w)%R /\
  (p = 0%R -> In v (numbers l) /\ forall x, In x (numbers l) -> (v <= x)%R) /\
  (p = 100%R -> In v (numbers l) /\ forall x, In x (numbers l) -> (x <= v)%R) /\
  exists a b, In a (numbers l) /\ In b (numbers l) /\ (a <= v <= b)%R.
Proof.
  assert (R : forall l p v, nanpercentile l p = Ok (Fin v) -> (0 <= p <= 100)%R /\ numbers l <> []).
  { intros l p v E. assert (P : (0 <= p <= 100)%R) by (unfold nanpercentile in E; destruct (Rlt_dec p 0); [discriminate E|]; destruct (Rlt_dec 100 p); [discriminate E|]; lra).
    split; [exact P|]. intros N. rewrite (proj1 (C107_percentile l p P) N) in E. discriminate E. }
  intros l p q v w E1 E2. destruct (R _ _ _ E1) as [P N]. destruct (R _ _ _ E2) as [Q _]. rewrite per_ok in E1, E2 by assumption.
  pose proof (sort_perm (numbers l)) as SP. pose proof (sort_ordered (numbers l)) as SO.
  assert (N' : sort (numbers l) <> []) by (intros E; rewrite E in SP; apply Permutation_sym, Permutation_nil in SP; auto).
  remember (sort (numbers l)) as s eqn:Es. clear Es. pose proof (pos_height s p N' P) as Hp. pose proof (pos_height s q N' Q) as Hq.
  injection E1 as E1. injection E2 as E2.
  destruct (between_parts s _ N' Hp) as (k & t & lo & T & K & KI & E & D). destruct (between_parts s _ N' Hq) as (k' & t' & lo' & T' & K' & KI' & E' & D').
  rewrite E1 in D. rewrite E2 in D'.
  assert (B : (lo <= v)%R /\ (forall hi, nth_error s (k + 1) = Some hi -> v <= hi)%R /\ (t = 0%R -> v = lo)).
  { destruct D as [[-> D]|(hi & Eh & D)]; injection D as ->.
    - split; [lra|]. split; [|auto]. intros hi Eh. apply (ordered_le s k (k + 1)); auto; lia.
    - pose proof (ordered_le s k (k + 1) lo hi SO ltac:(lia) E Eh) as L. assert (Z : (0 <= t * (hi - lo))%R) by (apply Rmult_le_pos; lra).
      split; [lra|]. split; [|intros ->; ring]. intros hi' Eh'. assert (hi' = hi) by congruence. subst hi'.
      assert (t * (hi - lo) <= 1 * (hi - lo))%R by (apply Rmult_le_compat_r; lra). lra. }
  destruct B as (B1 & B2 & B3).
  assert (B' : (lo' <= w)%R).
  { destruct D' as [[-> D']|(hi & Eh & D')]; injection D' as ->; [lra|].
    pose proof (ordered_le s k' (k' + 1) lo' hi SO ltac:(lia) E' Eh) as L. assert (Z : (0 <= t' * (hi - lo'))%R) by (apply Rmult_le_pos; lra). lra. }
  assert (PI : forall x, In x s <-> In x (numbers l)) by (intros x; split; intros I; [apply (Permutation_in _ (Permutation_sym SP)); exact I|now apply (Permutation_in _ SP)]).
  split; [|split; [|split]].
  - intros L. assert (HL : (p / 100 * (INR (List.length s) - 1) <= q / 100 * (INR (List.length s) - 1))%R).
    { assert (1 <= List.length s)%nat by (destruct s; [congruence|cbn; lia]). assert (I : (1 <= INR (List.length s))%R) by (change 1%R with (INR 1); now apply le_INR).
      apply Rmult_le_compat_r; lra. }
    assert (LK : (k <= k')%nat) by (assert (k < k' + 1)%nat by (apply INR_lt; rewrite plus_INR; cbn [INR]; lra); lia).
    destruct (Nat.eq_dec k k') as [->|NK].
    + assert (lo' = lo) by congruence. subst lo'. assert (LT : (t <= t')%R) by lra.
      destruct D as [[Z D]|(hi & Eh & D)]; injection D as ->; [exact B'|].
      destruct D' as [[Z D']|(hi' & Eh' & D')]; injection D' as ->.
      * assert (t = 0%R) by lra. subst t. lra.
      * assert (hi' = hi) by congruence. subst hi'. pose proof (ordered_le s k' (k' + 1) lo hi SO ltac:(lia) E Eh) as LL.
        assert (t * (hi - lo) <= t' * (hi - lo))%R by (apply Rmult_le_compat_r; lra). lra.
    + assert (L1 : (k + 1 < List.length s)%nat) by (assert (nth_error s k' <> None) by congruence; apply nth_error_Some in H; lia).
      destruct (nth_error s (k + 1)) as [hi|] eqn:Eh; [|apply nth_error_None in Eh; lia].
      pose proof (B2 hi eq_refl). pose proof (ordered_le s (k + 1) k' hi lo' SO ltac:(lia) Eh E'). lra.
  - intros ->. assert (k = 0%nat /\ t = 0%R) as [-> ->].
    { assert (Z : (INR k + t = 0)%R) by (rewrite K; unfold Rdiv; ring). pose proof (pos_INR k) as PK. assert (t = 0%R) by lra. split; [|assumption].
      apply INR_eq. cbn [INR]. lra. }
    rewrite (B3 eq_refl) in *. split; [apply PI; exact (nth_error_In _ _ E)|]. intros x Ix. apply PI in Ix. apply In_nth_error in Ix as (j & Ej).
    apply (ordered_le s 0 j); auto; lia.
  - intros ->. assert (Z : (INR k + t = INR (List.length s) - 1)%R) by (rewrite K; field).
    assert (LN : (k < List.length s)%nat) by (apply nth_error_Some; congruence).
    assert (KN : k = (List.length s - 1)%nat) by (assert (List.length s < k + 2)%nat by (apply INR_lt; rewrite plus_INR; cbn [INR]; lra); lia).
    assert (TZ : t = 0%R) by (rewrite KN in Z; rewrite minus_INR in Z by lia; cbn [INR] in Z; lra).
    rewrite (B3 TZ) in *. split; [apply PI; exact (nth_error_In _ _ E)|]. intros x Ix. apply PI in Ix. apply In_nth_error in Ix as (j & Ej).
    apply (ordered_le s j k); auto. assert (j < List.length s)%nat by (apply nth_error_Some; congruence). lia.
  - exists lo. destruct (nth_error s (k + 1)) as [hi|] eqn:Eh.
    + exists hi. split; [apply PI; exact (nth_error_In _ _ E)|]. split; [apply PI; exact (nth_error_In _ _ Eh)|]. split; [exact B1|now apply B2].
    + exists lo. split; [apply PI; exact (nth_error_In _ _ E)|]. split; [apply PI; exact (nth_error_In _ _ E)|].
      destruct D as [[_ D]|(hi & X & _)]; [injection D as ->; lra|congruence].
Qed.
Print Assumptions C107_order.
Example C107_order_met : exists v w, nanpercentile [Fin 3; NaN; Fin 1] 20 = Ok (Fin v) /\ nanpercentile [Fin 3; NaN; Fin 1] 100 = Ok (Fin w) /\ w = 3%R.
Proof.
  destruct (proj2 (C107_percentile [Fin 3; NaN; Fin 1] 20 ltac:(lra)) ltac:(discriminate)) as (v & E & _).
  destruct (proj2 (C107_percentile [Fin 3; NaN; Fin 1] 100 ltac:(lra)) ltac:(discriminate)) as (w & E' & _).
  exists v, w. split; [exact E|]. split; [exact E'|]. destruct (C107_order _ _ _ _ _ E' E') as (_ & _ & O & _). destruct (O eq_refl) as [I M].
  specialize (M 3%R (or_introl eq_refl)). destruct I as [<-|[<-|[]]]; [reflexivity|lra].
Qed.

(** Percentages outside 0 to 100 are refused. *)
Theorem C107_refused : forall l p, (p < 0 \/ 100 < p)%R -> nanpercentile l p = Err ValueError.
Proof. intros l p [H|H]; unfold nanpercentile; destruct (Rlt_dec p 0); try reflexivity; [lra|]. destruct (Rlt_dec 100 p); [reflexivity|lra]. Qed.
Print Assumptions C107_refused.

Lemma range_In : forall n i, In i (range n) <-> 0 <= i < n.
Proof.
  intros n i. unfold range. assert (G : forall k a, In i (zseq a k) <-> a <= i < a + Z.of_nat k).
  { induction k as [|k IH]; intros a; cbn [zseq In]; [lia|]. rewrite IH. lia. }
  rewrite G. lia.
Qed.
Lemma in_order_app : forall l m, in_order l -> in_order m -> (forall i j, In i l -> In j m -> before i j) -> in_order (l ++ m).
Proof.
  induction l as [|i l IH]; intros m A B C; cbn [app in_order]; [exact B|]. destruct A as [A1 A2]. split.
  - intros j Ij. apply in_app_or in Ij as [Ij|Ij]; [auto|]. apply C; [now left|exact Ij].
  - apply IH; auto. intros i0 j0 I0 J0. apply C; [now right|exact J0].
Qed.
Lemma ndindex_ok : forall shape, (forall i, In i (ndindex shape) <-> valid_index shape i) /\ in_order (ndindex shape).
Proof.
  induction shape as [|n shape [IH IO]]; cbn [ndindex].
  - split; [|cbn; tauto]. intros i. split; [intros [<-|[]]; constructor|intros V; inversion V; now left].
  - split.
    + intros i. rewrite in_flat_map. split.
      * intros (k & Ik & Im). apply range_In in Ik. apply in_map_iff in Im as (j & <- & Ij). constructor; [exact Ik|now apply IH].
      * intros V. inversion V as [|? k ? j Hk Vj]; subst. exists k. split; [now apply range_In|]. apply in_map_iff. exists j. split; [reflexivity|now apply IH].
    + unfold range. generalize 0 (Z.to_nat n). intros a k. revert a. induction k as [|k IK]; intros a; cbn [zseq flat_map]; [exact I|]. apply in_order_app.
      * clear - IO. induction (ndindex shape) as [|i l IH]; [exact I|]. destruct IO as [O1 O2]. cbn [map in_order]. split; [|auto].
        intros j Ij. apply in_map_iff in Ij as (j' & <- & Ij'). apply before_later. auto.
      * apply IK.
      * intros i j Ii Ij. apply in_map_iff in Ii as (i' & <- & _). apply in_flat_map in Ij as (b & Ib & Ij). apply in_map_iff in Ij as (j' & <- & _).
        apply before_here. assert (G : forall k c, In b (zseq c k) -> c <= b) by (clear; induction k as [|k IH]; intros c; cbn [zseq In]; [tauto|intros [<-|H]; [lia|apply IH in H; lia]]).
        apply G in Ib. lia.
Qed.

Lemma flat_pixels : forall a i h w, map (fun q => da_at a (i ++ q)) (ndindex [h; w]) = pixels a i h w.
Proof.
  intros a i h w. unfold pixels. cbn [ndindex]. unfold range.
  assert (W : forall r (l : list Z), map (fun q => da_at a (i ++ q)) (map (cons r) (flat_map (fun c => map (cons c) [[]]) l)) = map (fun c => da_at a (i ++ [r; c])) l).
  { intros r l. induction l as [|c l IH]; [reflexivity|]. cbn in *. f_equal. exact IH. }
  induction (zseq 0 (Z.to_nat h)) as [|r l IH]; [reflexivity|]. cbn [flat_map]. rewrite map_app, IH. f_equal. apply W.
Qed.

(** The table: a column per percentage in the order given; for each component in the order
    given one row per index of its tensor, in the order of the indices, with the name of the
    component followed by the indices from 1, and the percentiles of its pixels. *)
Theorem C107_table : forall keys read ps components (arr : txt -> darray),
  (forall c, In c components -> In c keys /\ read c = Ok (arr c)) -> (forall p, In p ps -> (0 <= p <= 100)%R) ->
  (forall c, In c components -> exists dims h w, da_shape (arr c) = dims ++ [h; w]) ->
  exists rows, stats_table keys read ps components = Ok (ps, concat rows) /\
    Forall2 (fun c rs => forall dims h w, da_shape (arr c) = dims ++ [h; w] ->
      exists is, in_order is /\ (forall i, In i is <-> valid_index dims i) /\
        Forall2 (fun i (r : txt * list num) => fst r = c ++ concat (map (fun t => fmt_int (t + 1)) i) /\
          Forall2 (fun p v => nanpercentile (pixels (arr c) i h w) p = Ok v) ps (snd r)) is rs) components rows.
Proof.
  intros keys read ps components arr HC HP HS. unfold stats_table.
  assert (K : forallb (fun c => existsb (txt_eqb c) keys) components = true).
  { apply forallb_forall. intros c Ic. apply existsb_exists. exists c. split; [now apply HC|apply txt_eqb_refl]. }
  rewrite K. cbn [negb].
  assert (VP : forall l, exists g, map_res (nanpercentile l) ps = Ok g /\ Forall2 (fun p v => nanpercentile l p = Ok v) ps g).
  { intros l. clear - HP. induction ps as [|p ps IH]; [exists []; auto|]. cbn [map_res]. rewrite per_ok by (apply HP; now left). cbn [bind].
    destruct IH as (g & -> & F); [intros q Iq; apply HP; now right|]. cbn [bind]. eexists. split; [reflexivity|]. constructor; [|exact F].
    rewrite per_ok by (apply HP; now left). reflexivity. }
  assert (ROW : forall c, In c components -> exists rs, stats_rows read ps c = Ok rs /\
    forall dims h w, da_shape (arr c) = dims ++ [h; w] ->
      exists is, in_order is /\ (forall i, In i is <-> valid_index dims i) /\
        Forall2 (fun i (r : txt * list num) => fst r = c ++ concat (map (fun t => fmt_int (t + 1)) i) /\
          Forall2 (fun p v => nanpercentile (pixels (arr c) i h w) p = Ok v) ps (snd r)) is rs).
  { intros c Ic. destruct (HS c Ic) as (dims & h & w & SH). unfold stats_rows. rewrite (proj2 (HC c Ic)). cbn [bind].
    assert (OI : outer (arr c) = dims /\ inner (arr c) = [h; w]).
    { unfold outer, inner. rewrite SH, app_length. cbn [List.length]. replace (List.length dims + 2 - 2)%nat with (List.length dims) by lia.
      rewrite firstn_app, skipn_app, Nat.sub_diag, firstn_all, skipn_all. cbn. now rewrite app_nil_r. }
    destruct OI as [-> OI].
    assert (PX : forall i, part (arr c) i = pixels (arr c) i h w).
    { intros i. unfold part. rewrite OI. apply flat_pixels. }
    assert (G : forall is, exists rs, map_res (fun i => do per <- map_res (nanpercentile (part (arr c) i)) ps; Ok (c ++ concat (map (fun t => fmt_int (t + 1)) i), per)) is = Ok rs /\
      Forall2 (fun i (r : txt * list num) => fst r = c ++ concat (map (fun t => fmt_int (t + 1)) i) /\
          Forall2 (fun p v => nanpercentile (pixels (arr c) i h w) p = Ok v) ps (snd r)) is rs).
    { induction is as [|i is (rs & E & F)]; [exists []; auto|]. cbn [map_res]. destruct (VP (part (arr c) i)) as (g & -> & Fg). cbn [bind]. rewrite E. cbn [bind].
      eexists. split; [reflexivity|]. constructor; [|exact F]. cbn [fst snd]. split; [reflexivity|]. now rewrite <- PX. }
    destruct (G (ndindex dims)) as (rs & E & F). exists rs. split; [exact E|]. intros dims' h' w' SH'.
    rewrite SH in SH'. assert (X : rev (dims ++ [h; w]) = rev (dims' ++ [h'; w'])) by (now rewrite SH'). rewrite !rev_app_distr in X. cbn [rev app] in X.
    injection X as -> -> X. apply (f_equal (@rev Z)) in X. rewrite !rev_involutive in X. subst dims'.
    exists (ndindex dims). destruct (ndindex_ok dims) as [O1 O2]. auto. }
  clear K HC HS VP. induction components as [|c components IH]; [exists []; split; [reflexivity|constructor]|].
  destruct (ROW c (or_introl eq_refl)) as (rs & E & F). destruct IH as (rows & E' & F'); [intros d Id; apply ROW; now right|].
  exists (rs :: rows). cbn [map_res]. rewrite E. cbn [bind]. destruct (map_res (stats_rows read ps) components) as [r|]; cbn [bind] in E' |- *; [|discriminate E'].
  injection E' as E'. split; [|constructor; assumption]. cbn [concat]. now rewrite E'.
Qed.
Print Assumptions C107_table.
Example C107_table_met : let a := DA ([2; 2] ++ [5; 4]) (fun l => Fin (IZR (nth 0 l 0 + nth 3 l 0))) in
  exists dims h w, da_shape a = dims ++ [h; w] /\ valid_index dims [1; 0] /\ in_order [[0; 0]; [0; 1]; [1; 0]; [1; 1]].
Proof.
  exists [2; 2], 5, 4. split; [reflexivity|]. split; [repeat constructor; lia|]. cbn. repeat split; intros j H;
  repeat (destruct H as [<-|H]; [first [apply before_here; lia|apply before_later; apply before_here; lia]|]); destruct H.
Qed.

(** A name that is not in the data is refused. *)
Theorem C107_unknown : forall keys read ps components c, In c components -> ~ In c keys ->
  exists e, stats_table keys read ps components = Err e /\ (keys <> [] -> e = GenericException).
Proof.
  intros keys read ps components c Ic Nc. unfold stats_table.
  assert (K : forallb (fun c => existsb (txt_eqb c) keys) components = false).
  { destruct (forallb _ components) eqn:E; [|reflexivity]. rewrite forallb_forall in E. specialize (E c Ic). apply existsb_exists in E as (k & Ik & Ek).
    apply txt_eqb_eq in Ek. subst k. contradiction. }
  rewrite K. cbn [negb]. destruct keys as [|k keys]; eexists; (split; [reflexivity|congruence]).
Qed.
Print Assumptions C107_unknown.
