(** Facts about pixels, raster order and list search. *)
From Coq Require Import List ZArith Bool Lia Permutation.
Import ListNotations.
From Verif Require Import Py Grid.
From Coq Require Import ZifyBool ZifyNat.
Ltac Zify.zify_post_hook ::= Z.div_mod_to_equations.
Open Scope Z_scope.

Lemma pix_eqb_spec p q : reflect (p = q) (pix_eqb p q).
Proof.
  destruct p as [a b], q as [c d]; unfold pix_eqb; cbn [fst snd].
  destruct (Z.eqb_spec a c), (Z.eqb_spec b d); subst; constructor; congruence.
Qed.

Lemma pix_eqb_refl p : pix_eqb p p = true.
Proof. destruct (pix_eqb_spec p p); congruence. Qed.

Lemma pix_dec : forall p q : pix, {p = q} + {p <> q}.
Proof. decide equality; apply Z.eq_dec. Defined.

Lemma insideb_spec W H p : reflect (inside W H p) (insideb W H p).
Proof.
  apply iff_reflect. unfold insideb, inside. destruct p as [x y]; cbn [fst snd]. lia.
Qed.

Lemma inside_dec W H p : {inside W H p} + {~ inside W H p}.
Proof. destruct (insideb_spec W H p); auto. Qed.

Lemma aget_inside {A} W H (f : pix -> A) p :
  inside W H p -> aget W H f p = Ok (f p).
Proof. intros Hi; unfold aget; destruct (insideb_spec W H p); tauto. Qed.

Lemma upd_same {A} (f : pix -> A) p v : upd f p v p = v.
Proof. unfold upd; now rewrite pix_eqb_refl. Qed.

Lemma upd_other {A} (f : pix -> A) p q v : p <> q -> upd f p v q = f q.
Proof. intros Hn; unfold upd; destruct (pix_eqb_spec p q); congruence. Qed.

Lemma pix_in_spec p l : reflect (In p l) (pix_in p l).
Proof.
  unfold pix_in. destruct (existsb (pix_eqb p) l) eqn:E; constructor.
  - apply existsb_exists in E; destruct E as [q [Hq E]].
    destruct (pix_eqb_spec p q); subst; [assumption | discriminate].
  - intros Hin. assert (existsb (pix_eqb p) l = true) as E2.
    { apply existsb_exists; exists p; split; [assumption | apply pix_eqb_refl]. }
    congruence.
Qed.

(** ** zseq *)
Lemma zseq_length s n : length (zseq s n) = n.
Proof. revert s; induction n; intros; cbn [zseq length]; auto. Qed.

Lemma zseq_In s n i : In i (zseq s n) <-> s <= i < s + Z.of_nat n.
Proof.
  revert s; induction n as [|n IH]; intros s; cbn [zseq In].
  - lia.
  - rewrite IH. lia.
Qed.

Lemma zseq_NoDup s n : NoDup (zseq s n).
Proof.
  revert s; induction n as [|n IH]; intros s; cbn [zseq]; constructor; auto.
  rewrite zseq_In; lia.
Qed.

Lemma zseq_nth_error s n k : (k < n)%nat ->
  nth_error (zseq s n) k = Some (s + Z.of_nat k).
Proof.
  revert s k; induction n as [|n IH]; intros s k Hk; [lia|].
  destruct k as [|k]; cbn [zseq nth_error].
  - f_equal; lia.
  - rewrite IH by lia. f_equal; lia.
Qed.

(** ** raster order *)
Lemma flat_range W H p : inside W H p -> 0 <= flat W p < W * H.
Proof. unfold inside, flat; destruct p as [x y]; cbn [fst snd]; intros; nia. Qed.

Lemma unflat_inside W H i : 0 <= i < W * H -> 0 < W -> inside W H (unflat W i).
Proof.
  intros Hi HW. unfold inside, unflat; cbn [fst snd].
  split; [apply Z.mod_pos_bound; lia|].
  split; [apply Z.div_pos; lia|].
  apply Z.div_lt_upper_bound; lia.
Qed.

Lemma flat_unflat W i : 0 < W -> flat W (unflat W i) = i.
Proof.
  intros HW; unfold flat, unflat; cbn [fst snd].
  pose proof (Z.div_mod i W); lia.
Qed.

Lemma unflat_flat W H p : inside W H p -> unflat W (flat W p) = p.
Proof.
  unfold inside, flat, unflat; destruct p as [x y]; cbn [fst snd]; intros Hi.
  replace (y * W + x) with (x + y * W) by ring.
  rewrite Z.mod_add, Z.mod_small by lia.
  rewrite Z.div_add, Z.div_small by lia. f_equal.
Qed.

Lemma flat_inj W H p q : inside W H p -> inside W H q ->
  flat W p = flat W q -> p = q.
Proof.
  intros Hp Hq E. rewrite <- (unflat_flat W H p Hp), <- (unflat_flat W H q Hq).
  now rewrite E.
Qed.

Lemma inside_pos W H p : inside W H p -> 0 < W /\ 0 < H.
Proof. unfold inside; lia. Qed.


Lemma all_pix_In W H p : 0 <= W -> 0 <= H ->
  (In p (all_pix W H) <-> inside W H p).
Proof.
  intros HW HH. unfold all_pix. rewrite in_map_iff. split.
  - intros [i [E Hi]]. rewrite zseq_In in Hi. subst p.
    apply unflat_inside; nia.
  - intros Hi. exists (flat W p). split; [eapply unflat_flat; eauto|].
    apply zseq_In. pose proof (flat_range W H p Hi). lia.
Qed.

Lemma all_pix_length W H : 0 <= W -> 0 <= H ->
  length (all_pix W H) = Z.to_nat (W * H).
Proof. intros; unfold all_pix; now rewrite map_length, zseq_length. Qed.

Lemma NoDup_map_inj_in {A B} (f : A -> B) l :
  (forall a b, In a l -> In b l -> f a = f b -> a = b) -> NoDup l -> NoDup (map f l).
Proof.
  intros Hinj Hnd; induction Hnd as [|a l Ha Hnd IH]; cbn [map]; constructor.
  - rewrite in_map_iff; intros [b [E Hb]].
    assert (b = a) by (apply Hinj; cbn [In]; auto). now subst.
  - apply IH; intros; apply Hinj; cbn [In]; auto.
Qed.

Lemma all_pix_NoDup W H : 0 <= W -> 0 <= H -> NoDup (all_pix W H).
Proof.
  intros HW HH. unfold all_pix. apply NoDup_map_inj_in; [|apply zseq_NoDup].
  intros a b Ha Hb E. rewrite zseq_In in Ha, Hb.
  assert (0 < W) by nia.
  rewrite <- (flat_unflat W a), <- (flat_unflat W b) by assumption. now rewrite E.
Qed.

Lemma inside_NoDup_length W H l : NoDup l -> (forall p, In p l -> inside W H p) ->
  (length l <= Z.to_nat (W * H))%nat.
Proof.
  intros Hnd Hin. destruct l as [|p l]; [cbn; lia|].
  assert (0 < W /\ 0 < H) as [HW HH].
  { apply (inside_pos W H p). apply Hin; cbn; auto. }
  rewrite <- (all_pix_length W H) by lia.
  apply NoDup_incl_length; [assumption|].
  intros q Hq. apply all_pix_In; [lia|lia|]. auto.
Qed.

(** ** searching *)
Lemma find_true_from_spec l : forall k,
  (find_true_from k l = -1 /\ forall b, In b l -> b = false) \/
  (exists n, find_true_from k l = k + Z.of_nat n /\ (n < length l)%nat /\
     nth_error l n = Some true /\
     forall m, (m < n)%nat -> nth_error l m = Some false).
Proof.
  induction l as [|b l IH]; intros k; cbn [find_true_from].
  - left; split; [reflexivity|]. intros b [].
  - destruct b.
    + right; exists 0%nat; cbn [length nth_error]. repeat split; try lia.
    + destruct (IH (k + 1)) as [[E Hall]|[n [E [Hn [Ht Hf]]]]].
      * left; split; [assumption|]. intros b [<-|Hb]; auto.
      * right; exists (S n); cbn [length nth_error]. repeat split; try lia; auto.
        intros m Hm. destruct m as [|m]; cbn [nth_error]; auto. apply Hf; lia.
Qed.
