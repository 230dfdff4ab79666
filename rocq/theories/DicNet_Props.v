(** Theorems about neighbours on maps with boundary pixels. *)
From Coq Require Import List ZArith Bool Lia.
From Verif Require Import Py Grid Grid_Lemmas Base_Model Base_Proofs DicNet_Model DicNet_Spec.
Import ListNotations.
Open Scope Z_scope.

Lemma has_edge_iff : forall es a b, has_edge es a b = true <-> joined es a b.
Proof.
  intros es a b. unfold has_edge, joined. rewrite existsb_exists. split.
  - intros ([c d] & I & E). cbn [fst snd] in E. apply orb_true_iff in E. rewrite !andb_true_iff, !Z.eqb_eq in E. destruct E as [[-> ->]|[-> ->]]; auto.
  - intros [I|I]; eexists; (split; [exact I|]); cbn [fst snd]; rewrite !Z.eqb_refl; cbn; auto using orb_true_r.
Qed.
Lemma add_edge_joined : forall es a b c d, joined (add_edge es a b) c d <-> joined es c d \/ (c = a /\ d = b) \/ (c = b /\ d = a).
Proof.
  intros es a b c d. unfold add_edge. destruct (has_edge es a b) eqn:E.
  - apply has_edge_iff in E. split; [auto|]. intros [J|[[-> ->]|[-> ->]]]; auto. unfold joined in *. tauto.
  - unfold joined. rewrite !in_app_iff. cbn [In]. split.
    + intros [[I|[[= -> ->]|[]]]|[I|[[= -> ->]|[]]]]; auto.
    + intros [[I|I]|[[-> ->]|[-> ->]]]; auto.
Qed.
Lemma pairs_In : forall {A} (l : list A) a b, In (a, b) (pairs l) -> In a l /\ In b l.
Proof.
  induction l as [|x l IH]; intros a b I; [destruct I|]. cbn [pairs] in I. apply in_app_iff in I as [I|I].
  - apply in_map_iff in I as (y & [= -> ->] & I). cbn; auto.
  - apply IH in I. cbn; tauto.
Qed.
Lemma pairs_neq : forall {A} (l : list A) a b, NoDup l -> In (a, b) (pairs l) -> a <> b.
Proof.
  induction l as [|x l IH]; intros a b N I; [destruct I|]. inversion N as [|? ? N1 N2]; subst. cbn [pairs] in I. apply in_app_iff in I as [I|I].
  - apply in_map_iff in I as (y & [= -> ->] & I). intros ->. contradiction.
  - eauto.
Qed.
Lemma pairs_all : forall {A} (l : list A) a b, In a l -> In b l -> a <> b -> In (a, b) (pairs l) \/ In (b, a) (pairs l).
Proof.
  induction l as [|x l IH]; intros a b Ia Ib Nab; [destruct Ia|]. cbn [pairs]. rewrite !in_app_iff, !in_map_iff.
  destruct Ia as [<-|Ia], Ib as [<-|Ib]; [contradiction|left; left; eauto|right; left; eauto|]. destruct (IH a b Ia Ib Nab); auto.
Qed.
Lemma nth_zseq : forall n k, 0 <= k < Z.of_nat n -> py_nth (zseq 0 n) k = Ok k.
Proof.
  intros n k L. assert (E : forall m s j, (j < m)%nat -> nth_error (zseq s m) j = Some (s + Z.of_nat j)).
  { induction m as [|m IH]; intros s j Lj; [lia|]. destruct j as [|j]; cbn [zseq nth_error]; [f_equal; lia|]. rewrite IH by lia. f_equal. lia. }
  assert (Len : forall m s, List.length (zseq s m) = m) by (induction m as [|m IH]; intros s; cbn; auto).
  destruct (py_nth_range _ (zseq 0 n) k) as (a & Ea & ->); [now rewrite Len|]. rewrite E in Ea by lia. injection Ea as <-. f_equal. lia.
Qed.
Lemma pair_loop : forall n ps es, (forall a b, In (a, b) ps -> 0 <= a < Z.of_nat n /\ 0 <= b < Z.of_nat n) ->
  exists es', for_each (fun es ij => do a <- py_nth (zseq 0 n) (fst ij); do b <- py_nth (zseq 0 n) (snd ij); Ok (add_edge es a b)) ps es = Ok es' /\
    forall a b, joined es' a b <-> joined es a b \/ In (a, b) ps \/ In (b, a) ps.
Proof.
  induction ps as [|[c d] ps IH]; intros es B; [exists es; split; [reflexivity|intros; cbn; tauto]|].
  destruct (B c d (or_introl eq_refl)) as [Bc Bd]. destruct (IH (add_edge es c d)) as (es' & E & J); [intros; apply B; now right|].
  exists es'. split.
  - cbn [for_each fst snd]. rewrite !nth_zseq by assumption. cbn [bind]. exact E.
  - intros a b. rewrite J, add_edge_joined. cbn [In]. split.
    + intros [[X|[[-> ->]|[-> ->]]]|[X|X]]; auto.
    + intros [X|[[[= -> ->]|X]|[[= -> ->]|X]]]; auto.
Qed.
Lemma around_In : forall lab p k, In k (around lab p) <-> k <> -2 /\ k <> -3 /\ exists q, beside p q /\ lab q = k + 1.
Proof.
  intros lab [x y] k. unfold around. rewrite filter_In, nodup_In, andb_true_iff, !negb_true_iff, !Z.eqb_neq. split.
  - intros [I [N1 N2]]. repeat split; auto. cbn [In] in I.
    destruct I as [I|[I|[I|[I|[]]]]]; eexists; (split; [|rewrite <- I; symmetry; apply Z.sub_add]); unfold beside; cbn [fst snd]; lia.
  - intros (N1 & N2 & ([u v] & Bq & E)). split; [|auto]. unfold beside in Bq. cbn [fst snd] in Bq.
    assert (C : (u = x /\ v = y + 1) \/ (u = x /\ v = y - 1) \/ (u = x + 1 /\ v = y) \/ (u = x - 1 /\ v = y)) by lia.
    cbn [In]. destruct C as [[-> ->]|[[-> ->]|[[-> ->]|[-> ->]]]]; rewrite E; replace (k + 1 - 1) with k by lia; auto.
Qed.
Lemma around_NoDup : forall lab p, NoDup (around lab p).
Proof. intros lab [x y]. apply NoDup_filter, NoDup_nodup. Qed.

(** If every label is that of a grain, -1 or -2, the network joins exactly the different grains
    with pixels beside a common boundary pixel that is not at the edge of the map. *)
Theorem C109_network_partial : forall W H n lab bnd stored, 0 <= W -> 0 <= H ->
  (forall p, inside W H p -> labelled (Z.of_nat n) (lab p)) ->
  exists es, build_base_network W H n lab (Some bnd) stored = (Some es, Ok tt) /\
    forall a b, joined es a b <-> 0 <= a /\ 0 <= b /\ a <> b /\ meet W H lab bnd a b.
Proof.
  intros W H n lab bnd stored HW HH L. unfold build_base_network, base_network.
  assert (GEN : forall ps es, (forall p, In p ps -> inside W H p) ->
    exists es', for_each (net_point W H (zseq 0 n) lab) ps es = Ok es' /\
      forall a b, joined es' a b <-> joined es a b \/ exists p, In p ps /\ interior W H p /\ 0 <= a /\ 0 <= b /\ a <> b /\ exists q r, beside p q /\ beside p r /\ lab q = a + 1 /\ lab r = b + 1).
  { induction ps as [|p ps IH]; intros es I.
    { exists es. split; [reflexivity|]. intros a b. split; [auto|]. intros [X|(p & [] & _)]. exact X. }
    assert (Ip := I p (or_introl eq_refl)). cbn [for_each]. unfold net_point at 1.
    destruct ((fst p =? 0) || (snd p =? 0) || (fst p =? W - 1) || (snd p =? H - 1)) eqn:E.
    - cbn [bind]. destruct (IH es) as (es' & E' & J); [intros; apply I; now right|]. exists es'. split; [exact E'|]. intros a b. rewrite J. split.
      + intros [X|(q & Iq & X)]; [auto|]. right. exists q. split; [now right|exact X].
      + intros [X|(q & [<-|Iq] & X)]; [auto| |right; exists q; auto]. exfalso. destruct X as ((X1 & X2) & _). lia.
    - assert (Np : interior W H p) by (unfold interior, inside in *; lia).
      assert (AR : forall k, In k (around lab p) -> 0 <= k < Z.of_nat n).
      { intros k Ik. apply around_In in Ik as (N1 & N2 & q & Bq & Eq). assert (Iq : inside W H q) by (unfold interior, inside, beside in *; lia).
        destruct (L q Iq) as [X|[X|X]]; lia. }
      destruct (pair_loop n (pairs (around lab p)) es) as (es1 & E1 & J1).
      { intros a b Iab. apply pairs_In in Iab as [Ia Ib]. auto. }
      rewrite E1. cbn [bind]. destruct (IH es1) as (es' & E' & J); [intros; apply I; now right|]. exists es'. split; [exact E'|]. intros a b. rewrite J, J1.
      assert (PI : In (a, b) (pairs (around lab p)) \/ In (b, a) (pairs (around lab p)) <-> 0 <= a /\ 0 <= b /\ a <> b /\ exists q r, beside p q /\ beside p r /\ lab q = a + 1 /\ lab r = b + 1).
      { split.
        - intros X. assert (Y : In a (around lab p) /\ In b (around lab p) /\ a <> b).
          { destruct X as [X|X]; pose proof (pairs_In _ _ _ X); pose proof (pairs_neq _ _ _ (around_NoDup lab p) X); intuition. }
          destruct Y as (Ia & Ib & Nab). pose proof (AR a Ia). pose proof (AR b Ib). apply around_In in Ia as (_ & _ & q & Bq & Eq). apply around_In in Ib as (_ & _ & r & Br & Er).
          repeat split; try lia; try assumption. exists q, r. auto.
        - intros (La & Lb & Nab & q & r & Bq & Br & Eq & Er). apply pairs_all; [| |exact Nab]; apply around_In; (split; [lia|]); (split; [lia|]); eauto. }
      rewrite PI. split.
      + intros [[X|X]|(q & Iq & X)]; [auto| |].
        * right. exists p. split; [now left|]. split; [exact Np|exact X].
        * right. exists q. split; [now right|exact X].
      + intros [X|(q & [<-|Iq] & X)]; [auto| |].
        * left. right. apply X.
        * right. exists q. auto. }
  destruct (GEN (filter bnd (all_pix W H)) []) as (es & E & J).
  { intros p Ip. apply filter_In in Ip as [Ip _]. now apply all_pix_In in Ip. }
  rewrite E. exists es. split; [reflexivity|]. intros a b. rewrite J. unfold meet. split.
  - intros [[[]|[]]|(p & Ip & Np & La & Lb & Nab & q & r & X)]. apply filter_In in Ip as [_ Bp]. repeat split; auto. exists p, q, r. tauto.
  - intros (La & Lb & Nab & p & q & r & Np & Bp & X). right. exists p. split; [apply filter_In; split; [apply all_pix_In; auto; unfold interior, inside in *; lia|exact Bp]|].
    repeat split; try apply Np; auto. exists q, r. exact X.
Qed.
Print Assumptions C109_network_partial.
(** Two grains on either side of a column of boundary pixels. *)
Definition split_lab (p : pix) : Z := if fst p <? 2 then 1 else if fst p =? 2 then -1 else 2.
Definition column (p : pix) : bool := fst p =? 2.
Example C109_case : (forall p, inside 5 4 p -> labelled 2 (split_lab p)) /\ base_network 5 4 2 split_lab column = Ok [(1, 0)] /\ meet 5 4 split_lab column 0 1.
Proof.
  split; [|split; [reflexivity|]].
  - intros p _. unfold labelled, split_lab. destruct (fst p <? 2); [lia|]. destruct (fst p =? 2); lia.
  - exists (2, 1), (1, 1), (3, 1). unfold interior, beside. cbn. repeat split; lia.
Qed.

(** On a DIC map it always fails: there is no such attribute.  What was stored stays. *)
Theorem C109_dic_refuted : forall W H n lab stored, build_base_network W H n lab None stored = (stored, Err AttributeError).
Proof. reflexivity. Qed.
Print Assumptions C109_dic_refuted.
(** Where no grain was found, the label 0 stands for the last grain of the list: a grain is
    joined to one it is nowhere near. *)
Definition gap_lab (p : pix) : Z := if fst p <? 2 then 1 else if fst p =? 2 then -1 else if fst p <? 9 then 0 else 2.
Theorem C109_gap_refuted : exists es, build_base_network 12 4 2 gap_lab (Some column) None = (Some es, Ok tt) /\ joined es 0 1 /\ ~ meet 12 4 gap_lab column 0 1.
Proof.
  exists [(1, 0)]. split; [reflexivity|]. split; [right; now left|].
  intros (p & q & r & _ & Bp & _ & Br & _ & Er). unfold column, beside, gap_lab in *. apply Z.eqb_eq in Bp.
  destruct (fst r <? 2) eqn:E1; [discriminate Er|]. destruct (fst r =? 2) eqn:E2; [discriminate Er|]. destruct (fst r <? 9) eqn:E3; [discriminate Er|]. lia.
Qed.
Print Assumptions C109_gap_refuted.
