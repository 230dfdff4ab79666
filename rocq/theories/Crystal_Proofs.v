(** Index vectors: reduction, sign, equality and grouping. *)
From Coq Require Import String Reals ZArith Znumtheory Bool Lia Permutation.
From Coq Require Import List.
From Verif Require Import Py Quat_Model Quat_Spec Crystal_Model Crystal_Spec.
Import ListNotations.
Open Scope Z_scope.

Lemma int8_id : forall x, -128 <= x <= 127 -> int8 x = x.
Proof. intros; unfold int8. rewrite Z.mod_small; lia. Qed.

Lemma gcd_fold : forall l a, 0 <= a ->
  0 <= fold_left Z.gcd l a /\
  (fold_left Z.gcd l a | a) /\
  (forall x, In x l -> (fold_left Z.gcd l a | x)) /\
  (forall d, (d | a) -> (forall x, In x l -> (d | x)) -> (d | fold_left Z.gcd l a)).
Proof.
  induction l as [|y l IH]; intros a Ha; cbn.
  - repeat split; auto using Z.divide_refl. intros x [].
  - destruct (IH (Z.gcd a y) (Z.gcd_nonneg a y)) as (H0 & H1 & H2 & H3).
    split; [auto|]. split; [|split].
    + eapply Z.divide_trans; [apply H1|apply Z.gcd_divide_l].
    + intros x [->|Hx]; [|auto]. eapply Z.divide_trans; [apply H1|apply Z.gcd_divide_r].
    + intros d Hd Hall. apply H3; [|auto]. apply Z.gcd_greatest; auto.
Qed.

Lemma gcd_reduce_spec : forall l,
  0 <= gcd_reduce l /\ (forall x, In x l -> (gcd_reduce l | x)) /\
  (forall d, (forall x, In x l -> (d | x)) -> (d | gcd_reduce l)).
Proof.
  intros l; unfold gcd_reduce. destruct (gcd_fold l 0 ltac:(lia)) as (A & B & C & D).
  split; [auto|]. split; [auto|]. intros; apply D; auto. apply Z.divide_0_r.
Qed.

Lemma gcd_reduce_zero : forall l, gcd_reduce l = 0 <-> ~ nonzero l.
Proof.
  intros l; destruct (gcd_reduce_spec l) as (A & B & C). split; intros H.
  - intros (x & Hx & Hn). specialize (B x Hx). rewrite H in B.
    apply Z.divide_0_l in B; auto.
  - assert (D : (2 * gcd_reduce l + 2 | gcd_reduce l)).
    { apply C. intros x Hx. destruct (Z.eq_dec x 0) as [->|]; [apply Z.divide_0_r|].
      exfalso; apply H; exists x; auto. }
    destruct (Z.eq_dec (gcd_reduce l) 0); auto.
    apply Z.divide_pos_le in D; lia.
Qed.

Lemma scaled_In : forall k l x, In x (scaled k l) <-> exists y, In y l /\ x = k * y.
Proof. intros; unfold scaled; rewrite in_map_iff; split; intros (y & A & B); exists y; auto. Qed.

Lemma gcd_reduce_scaled : forall g r, 0 < g -> coprime r -> gcd_reduce (scaled g r) = g.
Proof.
  intros g r Hg Hc. destruct (gcd_reduce_spec (scaled g r)) as (A & B & C).
  assert (Dg : (g | gcd_reduce (scaled g r))).
  { apply C. intros x Hx. apply scaled_In in Hx as (y & _ & ->). apply Z.divide_factor_l. }
  destruct Dg as (q & Hq).
  assert (Hq0 : 0 <= q) by nia.
  assert (D1 : (q | 1)).
  { apply Hc. intros x Hx. specialize (B (g * x)). rewrite Hq in B.
    destruct B as (k & Hk); [apply scaled_In; eauto|].
    exists k. nia. }
  apply Z.divide_1_r_nonneg in D1; lia.
Qed.

Lemma map_scaled_div : forall g r, g <> 0 -> map (fun x => x / g) (scaled g r) = r.
Proof.
  intros; unfold scaled; rewrite map_map. rewrite <- (map_id r) at 2. apply map_ext.
  intros; rewrite Z.mul_comm, Z.div_mul; auto.
Qed.

Lemma map_int8_id : forall l, fits8 l -> map int8 l = l.
Proof.
  intros l H. rewrite <- (map_id l) at 2. apply map_ext_in. intros; apply int8_id; auto.
Qed.

Lemma reduce_scaled : forall g r, 0 < g -> coprime r -> fits8 r ->
  reduce_idc (IntArr (scaled g r)) = Ok r.
Proof.
  intros g r Hg Hc Hf. unfold reduce_idc. rewrite gcd_reduce_scaled by auto.
  destruct (Z.eqb_spec g 0); [lia|]. f_equal.
  rewrite <- (map_map (fun x => x / g) int8), map_scaled_div by auto.
  apply map_int8_id; auto.
Qed.

Lemma reduced_exists : forall l, nonzero l ->
  exists g r, 0 < g /\ l = scaled g r /\ coprime r.
Proof.
  intros l Hn. destruct (gcd_reduce_spec l) as (A & B & C).
  assert (Hg : gcd_reduce l <> 0) by (rewrite gcd_reduce_zero; tauto).
  set (g := gcd_reduce l) in *. exists g, (map (fun x => x / g) l).
  assert (HE : l = scaled g (map (fun x => x / g) l)).
  { unfold scaled; rewrite map_map. rewrite <- (map_id l) at 1. apply map_ext_in.
    intros x Hx. destruct (B x Hx) as (q & ->). rewrite Z.div_mul by auto. ring. }
  split; [lia|]. split; [exact HE|].
  intros d Hd. assert (D : (g * d | g)).
  { apply C. intros x Hx. rewrite HE in Hx. apply scaled_In in Hx as (y & Hy & ->).
    apply Z.mul_divide_mono_l. auto. }
  destruct D as (k & Hk). exists k. nia.
Qed.

Lemma reduced_unique : forall g r h s, 0 < g -> 0 < h -> coprime r -> coprime s ->
  scaled g r = scaled h s -> g = h /\ r = s.
Proof.
  intros g r h s Hg Hh Hr Hs E.
  assert (g = h) by (rewrite <- (gcd_reduce_scaled g r), E, gcd_reduce_scaled; auto).
  subst h. split; auto. rewrite <- (map_scaled_div g r), E, map_scaled_div by lia. auto.
Qed.

Lemma reduce_zero : forall l, ~ nonzero l -> reduce_idc (IntArr l) = Err ZeroDivisionError.
Proof.
  intros l H. unfold reduce_idc. rewrite (proj2 (gcd_reduce_zero l) H). reflexivity.
Qed.

(** ** [pos_idc] *)
Lemma first_nonzero_some : forall l x, first_nonzero l = Some x <->
  exists pre post, l = pre ++ x :: post /\ (forall y, In y pre -> y = 0) /\ x <> 0.
Proof.
  induction l as [|y l IH]; intros x; cbn.
  - split; [discriminate|]. intros ([|] & ? & E & _); discriminate E.
  - destruct (Z.eqb_spec y 0) as [->|Hy].
    + rewrite IH. split.
      * intros (pre & post & -> & A & B). exists (0 :: pre), post. cbn.
        split; [auto|]. split; [|auto]. intros z [<-|]; auto.
      * intros ([|z pre] & post & E & A & B); cbn in E; injection E as <- E.
        { congruence. }
        exists pre, post. split; [auto|]. split; [|auto]. intros; apply A; right; auto.
    + split.
      * intros [= <-]. exists [], l. repeat split; auto. intros ? [].
      * intros ([|z pre] & post & E & A & B); cbn in E; injection E as <- E; [auto|].
        exfalso; apply Hy; apply A; left; auto.
Qed.

Lemma first_nonzero_none : forall l, first_nonzero l = None <-> ~ nonzero l.
Proof.
  induction l as [|y l IH]; cbn.
  - split; auto. intros _ (x & [] & _).
  - destruct (Z.eqb_spec y 0) as [->|Hy].
    + rewrite IH. split; intros H (x & Hx & Hn); apply H.
      * destruct Hx as [<-|Hx]; [congruence|]. exists x; auto.
      * exists x; split; [right|]; auto.
    + split; [discriminate|]. intros H; exfalso; apply H; exists y; split; [left|]; auto.
Qed.

Lemma pos_zero : forall l, ~ nonzero l -> pos_idc l = None.
Proof. intros l H; unfold pos_idc. rewrite (proj2 (first_nonzero_none l) H). auto. Qed.

Lemma negated_negated : forall l, negated (negated l) = l.
Proof. intros; unfold negated; rewrite map_map. rewrite <- (map_id l) at 2. apply map_ext; lia. Qed.

Lemma first_nonzero_neg : forall l, first_nonzero (negated l) = option_map Z.opp (first_nonzero l).
Proof.
  induction l as [|y l IH]; cbn; auto.
  destruct (Z.eqb_spec y 0); destruct (Z.eqb_spec (- y) 0); try lia; auto.
Qed.

Lemma pos_spec : forall l, nonzero l ->
  exists r, pos_idc l = Some r /\ up_to_sign r l /\ leading_positive r.
Proof.
  intros l Hn. unfold pos_idc. destruct (first_nonzero l) as [x|] eqn:E.
  - destruct (x >? 0) eqn:Ex.
    + exists l. split; [auto|]. split; [left; auto|].
      apply first_nonzero_some in E as (pre & post & -> & A & B).
      exists pre, x, post. repeat split; auto. lia.
    + exists (negated l). split; [reflexivity|]. split; [right; auto|].
      assert (E' : first_nonzero (negated l) = Some (- x)) by (rewrite first_nonzero_neg, E; auto).
      apply first_nonzero_some in E' as (pre & post & -> & A & B).
      exists pre, (- x), post. repeat split; auto. lia.
  - apply first_nonzero_none in E; tauto.
Qed.

Lemma leading_positive_nonzero : forall l, leading_positive l -> nonzero l.
Proof.
  intros l (pre & x & post & -> & A & B). exists x. split; [apply in_or_app; right; left; auto|lia].
Qed.

Lemma leading_positive_first : forall l, leading_positive l <->
  exists x, first_nonzero l = Some x /\ 0 < x.
Proof.
  intros l; split.
  - intros (pre & x & post & -> & A & B). exists x. split; [|auto].
    apply first_nonzero_some. exists pre, post. repeat split; auto. lia.
  - intros (x & E & Hx). apply first_nonzero_some in E as (pre & post & -> & A & B).
    exists pre, x, post. auto.
Qed.

Lemma leading_positive_unique : forall l m, leading_positive l -> leading_positive m ->
  up_to_sign l m -> l = m.
Proof.
  intros l m Hl Hm [->| ->]; auto. exfalso.
  apply leading_positive_first in Hl as (x & E & Hx).
  apply leading_positive_first in Hm as (y & E' & Hy).
  rewrite first_nonzero_neg, E' in E. cbn in E. injection E as <-. lia.
Qed.

Lemma up_to_sign_refl : forall l, up_to_sign l l. Proof. left; auto. Qed.
Lemma up_to_sign_sym : forall l m, up_to_sign l m -> up_to_sign m l.
Proof. intros l m [->| ->]; [left|right; rewrite negated_negated]; auto. Qed.
Lemma up_to_sign_trans : forall l m n, up_to_sign l m -> up_to_sign m n -> up_to_sign l n.
Proof.
  intros l m n [->| ->] [->| ->]; [left|right|right|left]; rewrite ?negated_negated; auto.
Qed.
Lemma up_to_sign_nonzero : forall l m, up_to_sign l m -> nonzero m -> nonzero l.
Proof.
  intros l m [->| ->] (x & Hx & Hn); [exists x; auto|].
  exists (- x). split; [apply in_map_iff; exists x; auto|lia].
Qed.

Lemma pos_eq_iff : forall l m, nonzero l -> nonzero m ->
  (pos_idc l = pos_idc m <-> up_to_sign l m).
Proof.
  intros l m Hl Hm.
  destruct (pos_spec l Hl) as (r & E & Hr & Lr), (pos_spec m Hm) as (s & E' & Hs & Ls).
  rewrite E, E'. split.
  - intros [= ->]. eapply up_to_sign_trans; [apply up_to_sign_sym; eassumption|auto].
  - intros H. f_equal. apply leading_positive_unique; auto.
    eapply up_to_sign_trans; [eassumption|]. eapply up_to_sign_trans; [eassumption|].
    apply up_to_sign_sym; auto.
Qed.

Lemma nonzero_dec : forall l, nonzero l \/ ~ nonzero l.
Proof.
  intros l. destruct (first_nonzero l) eqn:E.
  - left. apply first_nonzero_some in E as (pre & post & -> & _ & B).
    exists z. split; [apply in_or_app; right; left; auto|auto].
  - right. apply first_nonzero_none; auto.
Qed.

Lemma pos_some_nonzero : forall l r, pos_idc l = Some r -> nonzero l.
Proof.
  intros l r E. destruct (nonzero_dec l) as [|N]; auto. rewrite pos_zero in E by auto. discriminate.
Qed.

Lemma pos_idem : forall l r, pos_idc l = Some r -> pos_idc r = Some r.
Proof.
  intros l r E. pose proof (pos_some_nonzero _ _ E) as Hn.
  destruct (pos_spec l Hn) as (r' & E' & Hs & Hl). rewrite E in E'. injection E' as <-.
  rewrite <- E. apply pos_eq_iff; auto using leading_positive_nonzero.
Qed.

(** ** Canonical forms and collinearity *)
Lemma scaled_scaled : forall a b l, scaled a (scaled b l) = scaled (a * b) l.
Proof. intros; unfold scaled; rewrite map_map; apply map_ext; intros; ring. Qed.
Lemma scaled_1 : forall l, scaled 1 l = l.
Proof. intros; unfold scaled; rewrite <- (map_id l) at 2; apply map_ext; intros; ring. Qed.
Lemma scaled_neg : forall a l, scaled (- a) l = scaled a (negated l).
Proof. intros; unfold scaled, negated; rewrite map_map; apply map_ext; intros; ring. Qed.
Lemma negated_scaled : forall a l, negated (scaled a l) = scaled a (negated l).
Proof. intros; unfold scaled, negated; rewrite !map_map; apply map_ext; intros; ring. Qed.
Lemma coprime_negated : forall l, coprime l -> coprime (negated l).
Proof.
  intros l H d Hd. apply H. intros x Hx. apply Z.divide_opp_r. apply Hd.
  apply in_map_iff. exists x; auto.
Qed.
Lemma scaled_inj : forall a l m, a <> 0 -> scaled a l = scaled a m -> l = m.
Proof.
  intros a l m Ha E. rewrite <- (map_scaled_div a l), E, map_scaled_div; auto.
Qed.

Lemma collinear_reduced : forall g r h s, 0 < g -> 0 < h -> coprime r -> coprime s ->
  (collinear (scaled g r) (scaled h s) <-> up_to_sign r s).
Proof.
  intros g r h s Hg Hh Hr Hs; split.
  - intros (a & b & Ha & Hb & E). rewrite !scaled_scaled in E.
    assert (AUX : forall a b, 0 < a -> b <> 0 -> scaled (a * g) r = scaled (b * h) s -> up_to_sign r s).
    { clear a b Ha Hb E. intros a b Ha Hb E. destruct (Z_lt_le_dec 0 b).
      - apply reduced_unique in E as [_ ->]; auto using up_to_sign_refl; nia.
      - replace (b * h) with (- (- b * h)) in E by ring. rewrite scaled_neg in E.
        apply reduced_unique in E as [_ ->]; auto using coprime_negated; try nia. right; auto. }
    destruct (Z_lt_le_dec 0 a).
    + eapply AUX; eauto.
    + apply (AUX (- a) (- b)); try lia.
      rewrite !Z.mul_opp_l, !scaled_neg, <- !negated_scaled, E. auto.
  - intros [->| ->].
    + exists h, g. repeat split; try lia. rewrite !scaled_scaled. f_equal; ring.
    + exists h, (- g). repeat split; try lia. rewrite !scaled_scaled.
      rewrite Z.mul_opp_l, scaled_neg. f_equal; ring.
Qed.

(** ** Equality of slip systems *)
Lemma zlist_eqb_eq : forall a b, zlist_eqb a b = true <-> a = b.
Proof.
  induction a as [|x a IH]; destruct b as [|y b]; cbn; split; try congruence; auto; intros H.
  - apply andb_true_iff in H as [A B]. apply Z.eqb_eq in A; apply IH in B; subst; auto.
  - injection H as -> ->. rewrite Z.eqb_refl. apply IH; auto.
Qed.
Lemma idc_eqb_eq : forall a b, idc_eqb a b = true <-> a = b.
Proof.
  destruct a, b; cbn; split; try congruence; auto.
  - intros H; apply zlist_eqb_eq in H; subst; auto.
  - intros [= ->]. apply zlist_eqb_eq; auto.
Qed.
Lemma ss_eqb_pos : forall a b, ss_eqb a b = true <->
  pos_idc (plane_idc a) = pos_idc (plane_idc b) /\ pos_idc (dir_idc a) = pos_idc (dir_idc b).
Proof. intros; unfold ss_eqb. rewrite andb_true_iff, !idc_eqb_eq. tauto. Qed.

Lemma ss_eqb_refl : forall a, ss_eqb a a = true.
Proof. intros; apply ss_eqb_pos; auto. Qed.
Lemma ss_eqb_sym : forall a b, ss_eqb a b = ss_eqb b a.
Proof. intros a b; apply eq_true_iff_eq; rewrite !ss_eqb_pos; intuition congruence. Qed.
Lemma ss_eqb_trans : forall a b c, ss_eqb a b = true -> ss_eqb b c = true -> ss_eqb a c = true.
Proof. intros a b c; rewrite !ss_eqb_pos; intuition congruence. Qed.
Lemma ss_eqb_hash : forall a b, ss_eqb a b = true -> ss_hash_key a = ss_hash_key b.
Proof. intros a b H; apply ss_eqb_pos in H as [A B]. unfold ss_hash_key; rewrite A, B; auto. Qed.

(** Indices of a constructed system are not zero. *)
Lemma vec_of_Ok : forall l v, vec_of l = Ok v -> l = [vx v; vy v; vz v].
Proof.
  intros l v H. destruct l as [|x [|y [|z [|]]]]; cbn in H; try discriminate.
  injection H as <-; auto.
Qed.

Lemma vunit_nonzero : forall v u, vunit v = Ok u -> v <> V3 0 0 0.
Proof.
  intros v u H ->. unfold vunit in H.
  replace (vdot (V3 0 0 0) (V3 0 0 0)) with 0%R in H by (unfold vdot; cbn [vx vy vz]; ring).
  rewrite sqrt_0 in H. destruct (Req_EM_T 0 0); [discriminate|congruence].
Qed.

Lemma matmul_zero : forall m, matmul m (V3 0 0 0) = V3 0 0 0.
Proof. intros m; unfold matmul, vdot; cbn [vx vy vz]; f_equal; ring. Qed.

Ltac bstep H :=
  match type of H with
  | bind ?x _ = Ok _ => let E := fresh "E" in destruct x eqn:E; cbn [bind] in H; [|discriminate H]
  end.

Lemma mk_nonzero : forall conv p d st ca s, mk_slip_system conv p d st ca = Ok s ->
  plane_idc s = p /\ dir_idc s = d /\ nonzero p /\ nonzero d.
Proof.
  intros conv p d st ca s H. unfold mk_slip_system in H.
  destruct (String.eqb st "cubic").
  - bstep H. bstep H. bstep H. bstep H. injection H as <-. cbn. split; [auto|]. split; [auto|].
    apply vunit_nonzero in E0. apply vunit_nonzero in E2.
    apply vec_of_Ok in E. apply vec_of_Ok in E1.
    split.
    + destruct (nonzero_dec p) as [|N]; auto. exfalso; apply E0.
      destruct p as [|x [|y [|z [|]]]]; try discriminate E. injection E as Ex Ey Ez.
      assert (forall w, In w [x; y; z] -> w = 0).
      { intros w Hw. destruct (Z.eq_dec w 0); auto. exfalso; apply N; exists w; auto. }
      rewrite (H x), (H y), (H z) in * by (cbn; auto). destruct a; cbn in *; subst; auto.
    + destruct (nonzero_dec d) as [|N]; auto. exfalso; apply E2.
      destruct d as [|x [|y [|z [|]]]]; try discriminate E1. injection E1 as Ex Ey Ez.
      assert (forall w, In w [x; y; z] -> w = 0).
      { intros w Hw. destruct (Z.eq_dec w 0); auto. exfalso; apply N; exists w; auto. }
      rewrite (H x), (H y), (H z) in * by (cbn; auto). destruct a1; cbn in *; subst; auto.
  - destruct (String.eqb st "hexagonal"); [|discriminate].
    destruct ca as [ca|]; [|discriminate].
    bstep H. bstep H. bstep H. destruct a1 as [l q]. bstep H. bstep H. bstep H. bstep H.
    injection H as <-. cbn. split; [auto|]. split; [auto|].
    apply vunit_nonzero in E3. apply vunit_nonzero in E5.
    apply vec_of_Ok in E2. apply vec_of_Ok in E4.
    cbn in E. cbn in E0. split.
    + destruct (nonzero_dec p) as [|N]; auto. exfalso; apply E3.
      destruct p as [|h [|k [|i [|m [|]]]]]; try discriminate E. injection E as <-.
      assert (forall w, In w [h; k; i; m] -> w = 0).
      { intros w Hw. destruct (Z.eq_dec w 0); auto. exfalso; apply N; exists w; auto. }
      rewrite (H h), (H k), (H m) in * by (cbn; auto). cbn in E2. destruct a1; cbn in *.
      injection E2 as <- <- <-. apply matmul_zero.
    + destruct (nonzero_dec d) as [|N]; auto. exfalso; apply E5.
      destruct d as [|h [|k [|i [|m [|]]]]]; try discriminate E0. injection E0 as <-.
      assert (forall w, In w [h; k; i; m] -> w = 0).
      { intros w Hw. destruct (Z.eq_dec w 0); auto. exfalso; apply N; exists w; auto. }
      rewrite (H h), (H k), (H i), (H m) in * by (cbn; auto). cbn in E4. destruct a3; cbn in *.
      injection E4 as <- <- <-. apply matmul_zero.
Qed.

Definition valid (s : slip_system) : Prop := nonzero (plane_idc s) /\ nonzero (dir_idc s).

Lemma ss_eqb_iff : forall a b, valid a -> valid b ->
  (ss_eqb a b = true <-> same_plane a b /\ same_dir a b).
Proof.
  intros a b [A1 A2] [B1 B2]. rewrite ss_eqb_pos, !pos_eq_iff by auto. reflexivity.
Qed.

(** ** Grouping *)
Section Group.
Context {A : Type} (same : A -> A -> bool).
Hypothesis same_refl : forall x, same x x = true.
Hypothesis same_sym : forall x y, same x y = same y x.
Hypothesis same_trans : forall x y z, same x y = true -> same y z = true -> same x z = true.

Definition head_of (g : list A) (y : A) : Prop := exists t, g = y :: t.

Definition good_groups (gs : list (list A)) : Prop :=
  (forall g, In g gs -> exists y t, g = y :: t /\ forall x, In x g -> same y x = true) /\
  ForallOrdPairs (fun g h => forall x y, In x g -> In y h -> same x y = false) gs.

Lemma sublist_refl : forall l : list A, sublist l l.
Proof. induction l; constructor; auto. Qed.
Lemma sublist_app_r : forall (l m : list A) x, sublist l m -> sublist l (m ++ [x]).
Proof.
  intros l m x H; induction H; cbn; constructor; auto. constructor.
Qed.
Lemma sublist_snoc : forall (l m : list A) x, sublist l m -> sublist (l ++ [x]) (m ++ [x]).
Proof.
  intros l m x H; induction H; cbn; try (constructor; auto). constructor.
Qed.
Lemma sublist_nil : forall l : list A, sublist [] l.
Proof. induction l; constructor; auto. Qed.

Lemma add_to_group_in : forall x gs g, In g (add_to_group (same x) x gs) ->
  (In g gs \/ (exists g', In g' gs /\ g = g' ++ [x] /\ exists y t, g' = y :: t /\ same x y = true) \/ g = [x]).
Proof.
  intros x gs; induction gs as [|h gs IH]; intros g; cbn.
  - intros [<-|[]]. auto.
  - destruct h as [|y t].
    + intros [<-|H]; [left; auto|]. destruct (IH g H) as [|[(g' & I & E & X)|]]; auto.
      right; left; exists g'; auto.
    + destruct (same x y) eqn:S.
      * intros [<-|H]; [|auto]. right; left. exists (y :: t). repeat split; auto. exists y, t; auto.
      * intros [<-|H]; [auto|]. destruct (IH g H) as [|[(g' & I & E & X)|]]; auto.
        right; left; exists g'; auto.
Qed.

Lemma add_to_group_perm : forall x gs,
  Permutation (concat (add_to_group (same x) x gs)) (x :: concat gs).
Proof.
  intros x gs; induction gs as [|h gs IH]; cbn; auto.
  destruct h as [|y t]; cbn [concat app]; auto.
  destruct (same x y); cbn.
  - transitivity (x :: (y :: t) ++ concat gs); [|reflexivity].
    rewrite <- app_assoc. cbn [app].
    change (y :: t ++ x :: concat gs) with ((y :: t) ++ x :: concat gs).
    symmetry. apply (Permutation_middle (y :: t)).
  - rewrite perm_swap. apply perm_skip.
    transitivity (t ++ x :: concat gs); [apply Permutation_app_head, IH|].
    symmetry; apply Permutation_middle.
Qed.

Lemma add_to_group_good : forall x gs, good_groups gs -> good_groups (add_to_group (same x) x gs).
Proof.
  intros x gs [G D]. split.
  - intros g Hg. apply add_to_group_in in Hg as [Hg|[(g' & I & -> & y & t & E & S)| ->]].
    + auto.
    + destruct (G g' I) as (y' & t' & E' & H). rewrite E in E'. injection E' as <- <-.
      exists y, (t ++ [x]). rewrite E. split; [auto|]. intros z Hz.
      change (In z ((y :: t) ++ [x])) in Hz. rewrite <- E in Hz.
      apply in_app_or in Hz as [Hz|[<-|[]]]; [auto|]. rewrite same_sym; auto.
    + exists x, []. split; [auto|]. intros z [<-|[]]; auto.
  - induction D as [|h gs' Hh D IH]; cbn.
    + repeat constructor.
    + assert (G' : forall g, In g gs' -> exists y t, g = y :: t /\ forall x, In x g -> same y x = true)
        by (intros; apply G; right; auto).
      specialize (IH G').
      destruct (G h (or_introl eq_refl)) as (y & t & -> & Hy).
      destruct (same x y) eqn:S.
      * constructor; [|auto]. apply Forall_forall. intros g Hg a b Ha Hb.
        rewrite Forall_forall in Hh. apply in_app_or in Ha as [Ha|[<-|[]]]; [eapply Hh; eauto|].
        destruct (same x b) eqn:Sb; auto. exfalso.
        assert (same y b = false) by (eapply Hh; [eassumption|left; auto|auto]).
        rewrite (same_trans y x b) in H; [discriminate|rewrite same_sym; auto|auto].
      * constructor; [|auto]. apply Forall_forall. intros g Hg a b Ha Hb.
        rewrite Forall_forall in Hh.
        assert (X : same a x = false).
        { destruct (same a x) eqn:Sa; auto. exfalso.
          rewrite (same_trans x a y) in S; [discriminate|rewrite same_sym; auto|].
          rewrite same_sym; apply Hy; auto. }
        apply add_to_group_in in Hg as [Hg|[(g' & I & -> & _)| ->]].
        { eapply Hh; eauto. }
        { apply in_app_or in Hb as [Hb|[<-|[]]]; [eapply Hh; eauto|auto]. }
        { destruct Hb as [<-|[]]; auto. }
Qed.

Definition fold_groups (l : list A) (gs : list (list A)) : list (list A) :=
  fold_left (fun groups x => add_to_group (same x) x groups) l gs.

Lemma fold_groups_spec : forall l done gs, good_groups gs ->
  Permutation (concat gs) done -> (forall g, In g gs -> sublist g done) ->
  good_groups (fold_groups l gs) /\ Permutation (concat (fold_groups l gs)) (done ++ l) /\
  (forall g, In g (fold_groups l gs) -> sublist g (done ++ l)).
Proof.
  induction l as [|x l IH]; intros done gs G P S; cbn.
  - rewrite app_nil_r; auto.
  - replace (done ++ x :: l) with ((done ++ [x]) ++ l) by (rewrite <- app_assoc; auto).
    apply IH.
    + apply add_to_group_good; auto.
    + rewrite add_to_group_perm, P. rewrite Permutation_app_comm. reflexivity.
    + intros g Hg. apply add_to_group_in in Hg as [Hg|[(g' & I & -> & _)| ->]].
      * apply sublist_app_r; auto.
      * apply sublist_snoc; auto.
      * change [x] with ([] ++ [x]). apply sublist_snoc, sublist_nil.
Qed.
End Group.

Definition plane_eqb (a b : slip_system) : bool :=
  idc_eqb (pos_idc (plane_idc a)) (pos_idc (plane_idc b)).

Lemma group_by_plane_spec : forall l gs, group_by_plane l = Ok gs ->
  good_groups plane_eqb gs /\ Permutation (concat gs) l /\ (forall g, In g gs -> sublist g l).
Proof.
  intros l gs H. destruct l as [|s l]; [discriminate|]. cbn in H. injection H as <-.
  change (s :: l) with ([s] ++ l).
  apply (fold_groups_spec plane_eqb).
  - intros x; apply idc_eqb_eq; auto.
  - intros x y; apply eq_true_iff_eq; unfold plane_eqb; rewrite !idc_eqb_eq; split; auto.
  - intros x y z; unfold plane_eqb; rewrite !idc_eqb_eq; congruence.
  - split.
    + intros g [<-|[]]. exists s, []. split; [auto|]. intros x [<-|[]]. apply idc_eqb_eq; auto.
    + repeat constructor.
  - reflexivity.
  - intros g [<-|[]]. apply sublist_refl.
Qed.

Lemma plane_eqb_iff : forall a b, nonzero (plane_idc a) -> nonzero (plane_idc b) ->
  (plane_eqb a b = true <-> same_plane a b).
Proof. intros a b A B; unfold plane_eqb. rewrite idc_eqb_eq, pos_eq_iff by auto. reflexivity. Qed.

Lemma group_plane_final : forall l gs, (forall s, In s l -> nonzero (plane_idc s)) ->
  group_by_plane l = Ok gs ->
  Permutation (concat gs) l /\
  (forall g, In g gs -> g <> [] /\ sublist g l) /\
  (forall g a b, In g gs -> In a g -> In b g -> same_plane a b) /\
  ForallOrdPairs (fun g h => forall a b, In a g -> In b h -> ~ same_plane a b) gs.
Proof.
  intros l gs Hn H. apply group_by_plane_spec in H as ([G D] & P & S).
  assert (HI : forall g a, In g gs -> In a g -> nonzero (plane_idc a)).
  { intros g a Hg Ha. apply Hn. eapply Permutation_in; [exact P|].
    apply in_concat. exists g; auto. }
  split; [auto|]. split; [|split].
  - intros g Hg. split; [|auto]. destruct (G g Hg) as (y & t & -> & _). discriminate.
  - intros g a b Hg Ha Hb. destruct (G g Hg) as (y & t & E & X).
    assert (Hy : In y g) by (rewrite E; left; auto).
    apply (up_to_sign_trans _ (plane_idc y)).
    + apply up_to_sign_sym. apply plane_eqb_iff; eauto.
    + apply plane_eqb_iff; eauto.
  - assert (AUX : forall gs', (forall g, In g gs' -> In g gs) ->
      ForallOrdPairs (fun g h => forall x y, In x g -> In y h -> plane_eqb x y = false) gs' ->
      ForallOrdPairs (fun g h => forall a b, In a g -> In b h -> ~ same_plane a b) gs').
    { intros gs' Hin D'. induction D' as [|g gs' Hg D' IH]; constructor.
      - apply Forall_forall. intros h Hh a b Ha Hb Hs.
        rewrite Forall_forall in Hg. specialize (Hg h Hh a b Ha Hb).
        rewrite <- plane_eqb_iff in Hs; [congruence| |].
        + eapply HI; [apply Hin; left; reflexivity|auto].
        + eapply HI; [apply Hin; right; eassumption|auto].
      - apply IH. intros; apply Hin; right; auto. }
    apply AUX; auto.
Qed.
