From Coq Require Import List Reals Lra Lia String Psatz Arith.
Import ListNotations.
From Verif Require Import Quat_Model Quat_Spec Quat_Proofs QuatEuler_Proofs QuatSym_Proofs.
Open Scope R_scope.
Local Arguments quat_mul : simpl never.
Local Arguments Quat : simpl never.

(** *** argmax *)
Lemma argmax_from_spec : forall l best bi i,
  (bi < i)%nat ->
  exists m, ((argmax_from best bi i l = bi /\ m = best) \/
             exists k, argmax_from best bi i l = (i + k)%nat /\ nth_error l k = Some m /\
               best < m /\ forall j x, (j < k)%nat -> nth_error l j = Some x -> x < m) /\
    best <= m /\ (forall x, In x l -> x <= m).
Proof.
  induction l as [|a l IH]; intros best bi i H; cbn [argmax_from].
  - exists best. split; [left; auto|]. split; [lra|]. intros x [].
  - destruct (Rlt_dec best a) as [L|L].
    + destruct (IH a i (S i)) as (m & C & B & F); [lia|]. exists m. split; [|split; [lra|]].
      * right. destruct C as [[E ->]|(k & E & N & Lt & Be)].
        -- exists 0%nat. split; [lia|]. split; [reflexivity|]. split; [auto|]. intros; lia.
        -- exists (S k). split; [lia|]. split; [exact N|]. split; [lra|].
           intros [|j] x Hj Hx; cbn in Hx; [injection Hx as <-; auto|]. apply (Be j); auto; lia.
      * intros x [<-|Hx]; auto.
    + destruct (IH best bi (S i)) as (m & C & B & F); [lia|]. exists m. split; [|split; [lra|]].
      * destruct C as [[E ->]|(k & E & N & Lt & Be)]; [left; auto|]. right.
        exists (S k). split; [lia|]. split; [exact N|]. split; [lra|].
        intros [|j] x Hj Hx; cbn in Hx; [injection Hx as <-; lra|]. apply (Be j); auto; lia.
      * intros x [<-|Hx]; auto. lra.
Qed.
Lemma argmax_spec : forall l, l <> [] ->
  exists m, nth_error l (argmax l) = Some m /\ (forall x, In x l -> x <= m) /\
    (forall j x, (j < argmax l)%nat -> nth_error l j = Some x -> x < m).
Proof.
  intros [|a l] H; [congruence|]. unfold argmax.
  destruct (argmax_from_spec l a 0 1) as (m & C & B & F); [lia|]. exists m.
  destruct C as [[-> ->]|(k & -> & N & Lt & Be)].
  - split; [reflexivity|]. split; [|intros; lia]. intros x [<-|Hx]; auto; lra.
  - split; [exact N|]. split.
    + intros x [<-|Hx]; auto.
    + intros [|j] x Hj Hx; cbn in Hx; [injection Hx as <-; auto|]. apply (Be j); auto; lia.
Qed.

(** *** Vectorised routines *)
Lemma create_many : forall l, create_many_quats l = map (fun '(a, b, c) => from_euler_angles a b c) l.
Proof. intros l. unfold create_many_quats. rewrite map_map. apply map_ext. intros [[a b] c]. reflexivity. Qed.
Lemma multiply_many : forall l r, multiply_many_quats l r = map (fun q => quat_mul false q r) l.
Proof.
  intros l r. unfold multiply_many_quats. rewrite map_map. apply map_ext. intros q.
  reflexivity.
Qed.
Lemma sym_comps_mul : forall s q, sym_comps s q = quat_mul false s q.
Proof.
  intros s q. unfold sym_comps. rewrite quat_mul_raw. unfold Quat.
  replace (Q4 _ _ _ _) with (hprod s q); [reflexivity|].
  destruct s, q; unfold hprod; cbn [Quat_Model.qw Quat_Model.qx Quat_Model.qy Quat_Model.qz]. f_equal; ring.
Qed.
Lemma calc_sym_eqvs_row0 : forall l g, nth_error (calc_sym_eqvs l g) 0 = Some l.
Proof. reflexivity. Qed.
Lemma calc_sym_eqvs_length : forall l g, List.length (calc_sym_eqvs l g) = List.length (sym_eqv g).
Proof.
  intros l g. unfold calc_sym_eqvs. destruct (sym_head g) as (t & ->). cbn. now rewrite map_length.
Qed.
Lemma calc_sym_eqvs_row : forall l g k s, (0 < k)%nat -> nth_error (sym_eqv g) k = Some s ->
  nth_error (calc_sym_eqvs l g) k = Some (map (fun q => quat_mul false s q) l).
Proof.
  intros l g k s Hk E. unfold calc_sym_eqvs. destruct (sym_head g) as (t & T). rewrite T in *.
  destruct k; [lia|]. cbn in *. rewrite nth_error_map, E. cbn. f_equal.
  apply map_ext. intros. apply sym_comps_mul.
Qed.
Lemma calc_sym_eqvs_north : forall l g k s, (forall q, In q l -> 0 <= qw q) ->
  nth_error (sym_eqv g) k = Some s ->
  nth_error (calc_sym_eqvs l g) k = Some (map (fun q => quat_mul false s q) l).
Proof.
  intros l g [|k] s N E; [|apply calc_sym_eqvs_row; auto; lia].
  rewrite calc_sym_eqvs_row0. f_equal. destruct (sym_head g) as (t & T). rewrite T in E.
  injection E as <-. rewrite <- (map_id l) at 1. apply map_ext_in. intros q Hq.
  rewrite quat_mul_raw, hprod_1_l, Quat_id; auto.
Qed.

(** The column of point [i]: the raw quaternion followed by the products. *)
Lemma column_eq : forall l g i q, nth_error l i = Some q ->
  column (calc_sym_eqvs l g) i = q :: map (fun s => quat_mul false s q) (tl (sym_eqv g)).
Proof.
  intros l g i q E. unfold column, calc_sym_eqvs. cbn [map]. f_equal.
  - now apply nth_error_nth.
  - rewrite map_map. apply map_ext. intros s. apply nth_error_nth.
    rewrite nth_error_map, E. cbn. f_equal. apply sym_comps_mul.
Qed.
Lemma column_equiv : forall l g i q c, nth_error l i = Some q ->
  In c (column (calc_sym_eqvs l g) i) -> equivalent (sym_eqv g) q c.
Proof.
  intros l g i q c E H. rewrite (column_eq l g i q E) in H. destruct (sym_head g) as (t & T).
  unfold equivalent. rewrite T in *. cbn in H. destruct H as [<-|H].
  - exists qone. split; [now left|]. left. now rewrite hprod_1_l.
  - apply in_map_iff in H. destruct H as (s & <- & Is). exists s. split; [now right|].
    apply quat_mul_same.
Qed.
Lemma column_covers : forall l g i q c', nth_error l i = Some q -> equivalent (sym_eqv g) q c' ->
  exists c, In c (column (calc_sym_eqvs l g) i) /\ same_rot c c'.
Proof.
  intros l g i q c' E (s & Is & Es). rewrite (column_eq l g i q E).
  destruct (sym_head g) as (t & T). rewrite T in *. destruct Is as [<-|Is].
  - exists q. split; [now left|]. rewrite hprod_1_l in Es. now apply same_rot_sym.
  - exists (quat_mul false s q). split; [right; apply in_map_iff; exists s; auto|].
    eapply same_rot_trans; [apply quat_mul_same | now apply same_rot_sym].
Qed.
Lemma column_north : forall l g i q c, nth_error l i = Some q -> 0 <= qw q ->
  In c (column (calc_sym_eqvs l g) i) -> 0 <= qw c.
Proof.
  intros l g i q c E N H. rewrite (column_eq l g i q E) in H. destruct H as [<-|H]; auto.
  apply in_map_iff in H. destruct H as (s & <- & Is). rewrite quat_mul_raw. apply Quat_north.
Qed.
Lemma column_nonempty : forall l g i q, nth_error l i = Some q -> column (calc_sym_eqvs l g) i <> [].
Proof. intros l g i q E. rewrite (column_eq l g i q E). discriminate. Qed.

(** Choosing by argmax picks a nearest equivalent. *)
Lemma pick_spec : forall l g i q av d, nth_error l i = Some q ->
  let col := column (calc_sym_eqvs l g) i in
  let c := nth (argmax (map (fun c => Rabs (dot c av)) col)) col d in
  In c col /\ equivalent (sym_eqv g) q c /\
  nth (argmax (map (fun c => Rabs (dot c av)) col)) (map (fun c => Rabs (dot c av)) col) 0
    = Rabs (inner c av) /\
  forall c', equivalent (sym_eqv g) q c' -> Rabs (inner c' av) <= Rabs (inner c av).
Proof.
  intros l g i q av d E col c.
  assert (NE : map (fun c => Rabs (dot c av)) col <> []).
  { pose proof (column_nonempty l g i q E) as N. fold col in N. destruct col; [congruence|discriminate]. }
  destruct (argmax_spec _ NE) as (m & Em & Mx & _).
  assert (E2 := Em). rewrite nth_error_map in Em. subst c.
  destruct (nth_error col (argmax _)) as [c|] eqn:Ec; [|discriminate]. cbn in Em.
  rewrite (nth_error_nth _ _ d Ec).
  assert (Ic : In c col) by now apply nth_error_In in Ec.
  split; auto. split; [now apply (column_equiv l g i q)|].
  split; [rewrite (nth_error_nth _ _ 0 E2); injection Em as <-; reflexivity|].
  intros c' H'. destruct (column_covers l g i q c' E H') as (c2 & I2 & S2).
  rewrite <- (Rabs_inner_same c2 c' av av S2 (same_rot_refl av)).
  injection Em as Em. change (Rabs (dot c2 av) <= Rabs (dot c av)). rewrite Em.
  apply Mx. apply in_map_iff. exists c2; auto.
Qed.

Lemma equivalent_greatest : forall g q p m,
  (exists c, equivalent (sym_eqv g) q c /\ Rabs (inner c p) = m) ->
  (forall c, equivalent (sym_eqv g) q c -> Rabs (inner c p) <= m) ->
  m = mis_ori p q g.
Proof.
  intros g q p m (c & (s & Is & Es) & Ec) H.
  apply (greatest_unique _ (sym_eqv g) (fun s => Rabs (inner p (hprod s q)))); [|apply mis_ori_greatest].
  split.
  - intros t It. rewrite inner_sym. apply H. exists t. split; auto. left; auto.
  - exists s. split; auto. rewrite inner_sym, <- Ec.
    apply Rabs_inner_same; [now apply same_rot_sym | left; auto].
Qed.

Lemma calcMisOri_spec : forall l g ref i q, unitq ref -> nth_error l i = Some q -> unitq q ->
  exists m c, nth_error (calcMisOri (calc_sym_eqvs l g) ref) i = Some (m, c) /\
    m = mis_ori ref q g /\ equivalent (sym_eqv g) q c /\ Rabs (inner ref c) = m.
Proof.
  intros l g ref i q Ur E Uq.
  destruct (pick_spec l g i q ref (Q4 0 0 0 0) E) as (I1 & I2 & I3 & I4).
  set (col := column (calc_sym_eqvs l g) i) in *.
  assert (Hi : (i < List.length l)%nat) by (apply nth_error_Some; congruence).
  assert (K : nth_error (calcMisOri (calc_sym_eqvs l g) ref) i = Some (calc_mis_ori_point col ref)).
  { unfold calcMisOri. change (calc_sym_eqvs l g) with (l :: tl (calc_sym_eqvs l g)) at 1. cbv iota.
    rewrite nth_error_map.
    assert (S : nth_error (seq 0 (List.length l)) i = Some i).
    { assert (forall n a i, (i < n)%nat -> nth_error (seq a n) i = Some (a + i)%nat) as Sq.
      { induction n; intros a j Hj; [lia|]. destruct j; cbn; [f_equal; lia|].
        rewrite IHn by lia. f_equal; lia. }
      rewrite Sq by auto. reflexivity. }
    rewrite S. reflexivity. }
  rewrite K. unfold calc_mis_ori_point. rewrite I3.
  set (c := nth _ col _) in *.
  assert (Uc : unitq c).
  { destruct I2 as (s & Is & Es). apply (same_rot_unit _ _ Es). destruct (sym_group g) as (_ & U & _).
    auto using unitq_hprod. }
  pose proof (inner_bound c ref Uc Ur) as B.
  destruct (Rlt_dec 1 (Rabs (inner c ref))); [lra|].
  do 2 eexists. split; [reflexivity|]. split; [|split; [auto | now rewrite inner_sym]].
  apply equivalent_greatest; eauto.
Qed.

(** *** Average *)
Lemma average_run : forall l g rest av n, 
  (forall k q, nth_error rest k = Some q -> nth_error l (n + k) = Some q) ->
  (forall q, In q rest -> 0 <= qw q) ->
  running_sum (sym_eqv g) av rest
    (fold_left average_step (map (column (calc_sym_eqvs l g)) (seq n (List.length rest))) av).
Proof.
  intros l g. induction rest as [|q rest IH]; intros av n Hn N; cbn [List.length seq map fold_left].
  - constructor.
  - assert (E : nth_error l n = Some q).
    { rewrite <- (Hn 0%nat q eq_refl). f_equal. lia. }
    apply rs_cons with (c := nth (argmax (map (fun c => Rabs (dot c av)) (column (calc_sym_eqvs l g) n)))
        (column (calc_sym_eqvs l g) n) (Q4 0 0 0 0)).
    + destruct (pick_spec l g n q av (Q4 0 0 0 0) E) as (I1 & I2 & I3 & I4).
      split; [exact I2|]. split; [|exact I4].
      apply (column_north l g n q); auto. apply N; now left.
    + apply IH.
      * intros k x Hk. rewrite <- (Hn (S k) x Hk). f_equal. lia.
      * intros x Hx. apply N; now right.
Qed.
Lemma average_spec : forall q0 rest g, (forall q, In q rest -> 0 <= qw q) ->
  exists r, running_sum (sym_eqv g) q0 rest r /\
    calc_average_ori (calc_sym_eqvs (q0 :: rest) g) = normalise (Quat false r).
Proof.
  intros q0 rest g N. eexists. split; [|reflexivity].
  apply average_run; auto.
Qed.
Lemma running_det : forall syms av qs r r', decisive syms av qs ->
  running_sum syms av qs r -> running_sum syms av qs r' -> r = r'.
Proof.
  intros syms av qs r r' D. revert r r'. induction D as [av|av q qs c N U D IH]; intros r r' R R'.
  - inversion R; inversion R'; subst; auto.
  - inversion R as [|? ? ? c1 ? N1 R1]; inversion R' as [|? ? ? c2 ? N2 R2]; subst.
    assert (c1 = c) by auto. assert (c2 = c) by auto. subst. auto.
Qed.
Lemma equivalent_trans : forall g q p c, equivalent (sym_eqv g) q p -> equivalent (sym_eqv g) p c ->
  equivalent (sym_eqv g) q c.
Proof.
  intros g q p c (s & Is & Es) (t & It & Et). destruct (sym_group g) as (_ & _ & Cl & _).
  destruct (Cl t s It Is) as (u & Iu & Eu). exists u. split; auto.
  eapply same_rot_trans; [exact Et|].
  eapply same_rot_trans; [apply same_rot_hprod; [apply same_rot_refl | exact Es]|].
  rewrite <- hprod_assoc. apply same_rot_hprod; [now apply same_rot_sym | apply same_rot_refl].
Qed.
Lemma equivalent_sym : forall g q p, equivalent (sym_eqv g) q p -> equivalent (sym_eqv g) p q.
Proof.
  intros g q p (t & It & Et). destruct (sym_group g) as (_ & U & _ & Inv).
  destruct (Inv t It) as (u & Iu & Eu). exists u. split; auto.
  apply same_rot_sym.
  eapply same_rot_trans; [apply same_rot_hprod; [exact Eu | exact Et]|].
  rewrite <- hprod_assoc, hprod_conj_l, hprod_1_l; auto. apply same_rot_refl.
Qed.
Lemma equivalent_refl : forall g q, equivalent (sym_eqv g) q q.
Proof.
  intros g q. destruct (sym_group g) as (O & _). exists qone. split; auto. left. now rewrite hprod_1_l.
Qed.
Lemma nearest_equiv : forall g av q p c, equivalent (sym_eqv g) q p ->
  nearest (sym_eqv g) av p c -> nearest (sym_eqv g) av q c.
Proof.
  intros g av q p c E (H1 & H2 & H3). split; [eapply equivalent_trans; eauto|]. split; auto.
  intros c' H'. apply H3. eapply equivalent_trans; [apply equivalent_sym|]; eauto.
Qed.
Lemma running_equiv : forall g av qs ps r, Forall2 (equivalent (sym_eqv g)) qs ps ->
  running_sum (sym_eqv g) av ps r -> running_sum (sym_eqv g) av qs r.
Proof.
  intros g av qs ps r F. revert av. induction F as [|q p qs ps E F IH]; intros av R.
  - exact R.
  - inversion R as [|? ? ? c ? N R1]; subst. apply rs_cons with c; auto.
    eapply nearest_equiv; eauto.
Qed.
Lemma average_invariant : forall g q0 qs ps, decisive (sym_eqv g) q0 qs ->
  (forall q, In q qs -> 0 <= qw q) -> (forall p, In p ps -> 0 <= qw p) ->
  Forall2 (equivalent (sym_eqv g)) qs ps ->
  calc_average_ori (calc_sym_eqvs (q0 :: ps) g) = calc_average_ori (calc_sym_eqvs (q0 :: qs) g).
Proof.
  intros g q0 qs ps D Nq Np F.
  destruct (average_spec q0 qs g Nq) as (r & R & ->).
  destruct (average_spec q0 ps g Np) as (r' & R' & ->).
  rewrite (running_det _ _ _ r r' D R); auto. eapply running_equiv; eauto.
Qed.
Lemma normalise_unit : forall q n, normalise q = Some n -> unitq n.
Proof.
  intros q n H. assert (NZ : q <> Q4 0 0 0 0).
  { intros ->. unfold normalise in H. destruct (Req_EM_T _ 0) as [|N]; [discriminate|].
    apply N. now apply norm_zero_iff. }
  destruct (normalise_spec q NZ) as (k & n' & E & _ & U & _). rewrite E in H. injection H as <-. auto.
Qed.
Lemma normalise_north : forall q n, 0 <= qw q -> normalise q = Some n -> 0 <= qw n.
Proof.
  intros q n N H. unfold normalise in H. destruct (Req_EM_T (norm q) 0) as [|K]; [discriminate|].
  assert (n = Q4 (qw q / norm q) (qx q / norm q) (qy q / norm q) (qz q / norm q)) as -> by congruence.
  cbn [qw]. apply Rmult_le_pos; auto. apply Rlt_le, Rinv_0_lt_compat. pose proof (norm_nonneg q). lra.
Qed.
Lemma average_unit : forall comps n, calc_average_ori comps = Some n -> unitq n /\ 0 <= qw n.
Proof.
  intros [|[|q rest] comps] n H; try discriminate. cbv beta iota delta [calc_average_ori] in H.
  split; [now apply normalise_unit in H|]. apply normalise_north in H; auto. apply Quat_north.
Qed.
Lemma normalise_none : forall q, normalise q = None <-> q = Q4 0 0 0 0.
Proof.
  intros q. unfold normalise. rewrite <- norm_zero_iff. destruct (Req_EM_T (norm q) 0); split; congruence.
Qed.
Lemma Quat_zero : forall q, Quat false q = Q4 0 0 0 0 <-> q = Q4 0 0 0 0.
Proof.
  intros q. split.
  - intros H. destruct (Quat_same false q) as [E|E].
    + congruence.
    + rewrite H in E. rewrite <- (opp_opp q), <- E. unfold opp; cbn. f_equal; ring.
  - intros ->. apply Quat_id. cbn; lra.
Qed.

(** Copies of one orientation. *)
Definition qscale (k : R) (q : quat) := Q4 (k * qw q) (k * qx q) (k * qy q) (k * qz q).
Lemma average_step_copies : forall l g i q k, nth_error l i = Some q -> k <> 0 -> unitq q ->
  average_step (qscale k q) (column (calc_sym_eqvs l g) i) = qscale (k + 1) q.
Proof.
  intros l g i q k E K U. unfold average_step.
  set (col := column (calc_sym_eqvs l g) i).
  set (vals := map (fun c => Rabs (dot c (qscale k q))) col).
  assert (A : argmax vals = 0%nat).
  { assert (NE : vals <> []).
    { pose proof (column_nonempty l g i q E) as N. fold col in N. unfold vals.
      destruct col; [congruence|discriminate]. }
    destruct (argmax_spec vals NE) as (m & Em & Mx & Be).
    destruct (argmax vals) as [|j] eqn:J; auto. exfalso.
    assert (V0 : nth_error vals 0 = Some (Rabs (dot q (qscale k q)))).
    { unfold vals, col. rewrite (column_eq l g i q E). reflexivity. }
    specialize (Be 0%nat _ ltac:(lia) V0).
    unfold vals in Em. rewrite nth_error_map in Em.
    destruct (nth_error col (S j)) as [c|] eqn:Ec; [|discriminate].
    injection Em as Em. rewrite <- Em in Be.
    assert (D : forall c, dot c (qscale k q) = k * inner c q).
    { intros. unfold dot, inner, qscale; cbn; ring. }
    rewrite !D, !Rabs_mult in Be.
    assert (inner q q = 1) as Q1 by exact U. rewrite Q1, Rabs_R1 in Be.
    apply nth_error_In in Ec. apply (column_equiv l g i q c E) in Ec.
    destruct Ec as (s & Is & Es). destruct (sym_group g) as (_ & Us & _).
    assert (Uc : unitq c) by (apply (same_rot_unit _ _ Es); auto using unitq_hprod).
    pose proof (inner_bound c q Uc U). pose proof (Rabs_pos_lt k K). nra. }
  rewrite A. unfold col. rewrite (column_eq l g i q E). cbn [nth].
  unfold quat_iadd, qscale; cbn. f_equal; ring.
Qed.
Lemma average_copies : forall q n g, unitq q -> 0 <= qw q ->
  calc_average_ori (calc_sym_eqvs (repeat q (S n)) g) = Some q.
Proof.
  intros q n g U N. set (l := repeat q (S n)).
  assert (H : forall m a k, (a + m <= S n)%nat -> 0 < k ->
    fold_left average_step (map (column (calc_sym_eqvs l g)) (seq a m)) (qscale k q)
      = qscale (k + INR m) q).
  { induction m as [|m IH]; intros a k Hm Hk; cbn [seq map fold_left].
    - f_equal. cbn. ring.
    - rewrite (average_step_copies l g a q k); auto; try lra.
      + rewrite IH by (lia || lra). f_equal. rewrite S_INR. ring.
      + unfold l. apply nth_error_repeat. lia. }
  assert (E : calc_average_ori (calc_sym_eqvs l g) =
    normalise (Quat false (fold_left average_step
       (map (column (calc_sym_eqvs l g)) (seq 1 (List.length (repeat q n)))) q))) by reflexivity.
  rewrite E, repeat_length.
  pose proof (H n 1%nat 1 ltac:(lia) ltac:(lra)) as H1.
  replace (qscale 1 q) with q in H1 by (destruct q; unfold qscale; cbn; f_equal; ring).
  rewrite H1. set (k := 1 + INR n).
  assert (K : 0 < k) by (unfold k; pose proof (pos_INR n); lra). clearbody k.
  rewrite Quat_id by (unfold qscale; cbn; apply Rmult_le_pos; lra).
  unfold normalise.
  assert (NN : norm (qscale k q) = k).
  { unfold norm. replace (dot (qscale k q) (qscale k q)) with (k * k).
    - apply sqrt_square. lra.
    - unfold dot, qscale; cbn. unfold unitq in U.
      transitivity (k * k * (qw q * qw q + qx q * qx q + qy q * qy q + qz q * qz q)); [rewrite U|]; ring. }
  rewrite NN. destruct (Req_EM_T k 0); [lra|]. f_equal. destruct q; unfold qscale; cbn. f_equal; field; lra.
Qed.

(** *** Witnesses against representation independence *)
Lemma nearest_pick : forall l g i q av, nth_error l i = Some q -> 0 <= qw q ->
  exists c, average_step av (column (calc_sym_eqvs l g) i) = qsum av c /\
    nearest (sym_eqv g) av q c.
Proof.
  intros l g i q av E N. destruct (pick_spec l g i q av (Q4 0 0 0 0) E) as (I1 & I2 & I3 & I4).
  eexists. split; [reflexivity|]. split; [exact I2|]. split; [|exact I4].
  now apply (column_north l g i q).
Qed.
Lemma s3b : 1.73 < sqrt 3 < 1.74.
Proof. assert (H : sqrt 3 * sqrt 3 = 3) by (apply sqrt_sqrt; lra). pose proof (sqrt_pos 3). split; nra. Qed.
Lemma s2b : 1.41 < sqrt 2 < 1.42.
Proof. assert (H : sqrt 2 * sqrt 2 = 2) by (apply sqrt_sqrt; lra). pose proof (sqrt_pos 2). split; nra. Qed.
Lemma hex_list : sym_eqv "hexagonal" =
  [ Q4 1 0 0 0; Q4 0 1 0 0; Q4 0 0 1 0; Q4 0 0 0 1;
    Q4 sqrt3over2 0 0 (/2); Q4 (/2) 0 0 sqrt3over2; Q4 (/2) 0 0 (- sqrt3over2); Q4 sqrt3over2 0 0 (-/2);
    Q4 0 (-/2) (- sqrt3over2) 0; Q4 0 (/2) (- sqrt3over2) 0; Q4 0 sqrt3over2 (-/2) 0; Q4 0 (- sqrt3over2) (-/2) 0 ].
Proof.
  change (sym_eqv "hexagonal") with hexagonal_symmetries. unfold hexagonal_symmetries. apply map_Quat_north.
  intros q H. pose proof sqrt_pos3. cbn [In] in H.
  repeat destruct H as [H|H]; try (subst q; cbn [qw]; lra). contradiction.
Qed.
Lemma cubic_list : sym_eqv "cubic" =
  [ Q4 1 0 0 0; Q4 over_root2 over_root2 0 0; Q4 0 1 0 0; Q4 over_root2 (- over_root2) 0 0;
    Q4 over_root2 0 over_root2 0; Q4 0 0 1 0; Q4 over_root2 0 (- over_root2) 0;
    Q4 over_root2 0 0 over_root2; Q4 0 0 0 1; Q4 over_root2 0 0 (- over_root2);
    Q4 0 over_root2 over_root2 0; Q4 0 (- over_root2) over_root2 0; Q4 0 over_root2 0 over_root2;
    Q4 0 (- over_root2) 0 over_root2; Q4 0 0 over_root2 over_root2; Q4 0 0 (- over_root2) over_root2;
    Q4 (/2) (/2) (/2) (/2); Q4 (/2) (-/2) (-/2) (-/2); Q4 (/2) (-/2) (/2) (/2); Q4 (/2) (/2) (-/2) (-/2);
    Q4 (/2) (/2) (-/2) (/2); Q4 (/2) (-/2) (/2) (-/2); Q4 (/2) (/2) (/2) (-/2); Q4 (/2) (-/2) (-/2) (/2) ].
Proof.
  change (sym_eqv "cubic") with cubic_symmetries. unfold cubic_symmetries. apply map_Quat_north.
  intros q H. pose proof sqrt_pos2. cbn [In] in H.
  repeat destruct H as [H|H]; try (subst q; cbn [qw]; lra). contradiction.
Qed.

(** Two orientations close to each other and to a half turn about
    (2/3, 1/3, 2/3). *)
Definition near1 : quat := Q4 (40/401) (399/401*(2/3)) (399/401*(1/3)) (399/401*(2/3)).
Definition near2 : quat := Q4 (40/401) (-(399/401*(2/3))) (-(399/401*(1/3))) (-(399/401*(2/3))).
Lemma near_unit : unitq near1 /\ unitq near2.
Proof. unfold unitq, near1, near2; cbn. lra. Qed.
Lemma near_pick : forall c, nearest (sym_eqv "hexagonal") near1 near2 c -> c = near2.
Proof.
  intros c (E & N & M).
  pose proof (M near2 (equivalent_refl _ _)) as M2.
  destruct E as (s & Is & Es).
  rewrite (Rabs_inner_same c _ near1 near1 Es (same_rot_refl _)) in M2.
  assert (A : Rabs (inner near2 near1) >= 0.98).
  { unfold inner, near1, near2; cbn. rewrite Rabs_left; lra. }
  assert (B : Rabs (inner (hprod s near2) near1) >= 0.98) by lra. clear M M2 A.
  rewrite hex_list in Is. pose proof s3b as S3.
  cbn [In] in Is.
  repeat destruct Is as [Is|Is]; try contradiction; subst s;
    try (exfalso; unfold inner, hprod, near1, near2, sqrt3over2 in B; cbn [qw qx qy qz] in B;
         revert B; apply Rlt_not_ge; apply Rabs_def1; lra).
  change (Q4 1 0 0 0) with qone in Es. rewrite hprod_1_l in Es. destruct Es as [->| ->]; auto.
  exfalso. unfold opp, near2 in N; cbn in N; lra.
Qed.
Lemma near_average : calc_average_ori (calc_sym_eqvs [near1; near2] "hexagonal") = Some qone.
Proof.
  destruct (average_spec near1 [near2] "hexagonal") as (r & R & ->).
  { intros q [<-|[]]. unfold near2; cbn; lra. }
  inversion R as [|? ? ? c ? Nc R1]; subst. inversion R1; subst.
  rewrite (near_pick c Nc).
  replace (qsum near1 near2) with (Q4 (80/401) 0 0 0).
  2:{ unfold qsum, near1, near2; cbn. f_equal; lra. }
  rewrite Quat_id by (cbn; lra). unfold normalise.
  assert (norm (Q4 (80/401) 0 0 0) = 80/401) as ->.
  { unfold norm, dot; cbn. replace (80/401*(80/401)+0*0+0*0+0*0) with (80/401*(80/401)) by ring.
    apply sqrt_square. lra. }
  destruct (Req_EM_T (80/401) 0); [lra|]. f_equal. unfold qone; cbn. f_equal; field.
Qed.
Lemma near_far : mis_ori qone near1 "hexagonal" <= 0.8 /\ 0.98 <= mis_ori near1 near2 "hexagonal".
Proof.
  split.
  - destruct (mis_ori_greatest qone near1 "hexagonal") as [_ (s & Is & <-)].
    rewrite hex_list in Is. pose proof s3b as S3. cbn [In] in Is.
    repeat destruct Is as [Is|Is]; try contradiction; subst s;
    unfold inner, hprod, near1, qone, sqrt3over2; cbn [qw qx qy qz]; apply Rabs_le; lra.
  - destruct (mis_ori_greatest near1 near2 "hexagonal") as [G _].
    assert (I : In qone (sym_eqv "hexagonal")) by (rewrite hex_list; now left).
    apply G in I. apply Rle_trans with (2 := I). rewrite hprod_1_l.
    unfold inner, near1, near2; cbn [qw qx qy qz]. rewrite Rabs_left; lra.
Qed.
(** A case where the choice is forced. *)
Definition tilt : quat := Q4 (4/5) (3/5) 0 0.
Lemma tilt_nearest : forall c, nearest (sym_eqv "cubic") qone tilt c <->
  c = hprod (Q4 over_root2 (- over_root2) 0 0) tilt.
Proof.
  pose proof s2b as S2.
  assert (Cand : forall c, equivalent (sym_eqv "cubic") tilt c -> 0 <= qw c ->
     c = hprod (Q4 over_root2 (- over_root2) 0 0) tilt \/ Rabs (inner c qone) < 0.985).
  { intros c (s & Is & Es) N.
    rewrite (Rabs_inner_same c _ qone qone Es (same_rot_refl _)).
    rewrite cubic_list in Is. cbn [In] in Is.
    repeat destruct Is as [Is|Is]; try contradiction; subst s;
    try (right; unfold inner, hprod, tilt, qone, over_root2; cbn [qw qx qy qz]; apply Rabs_def1; lra).
    left. destruct Es as [->| ->]; auto.
    exfalso. unfold opp, hprod, tilt, over_root2 in N; cbn in N; lra. }
  set (b := hprod (Q4 over_root2 (- over_root2) 0 0) tilt) in *.
  assert (Eb : equivalent (sym_eqv "cubic") tilt b).
  { exists (Q4 over_root2 (- over_root2) 0 0). split; [rewrite cubic_list; cbn [In]; tauto | left; auto]. }
  assert (Nb : 0 <= qw b) by (unfold b, hprod, tilt, over_root2; cbn; lra).
  assert (Vb : 0.985 < Rabs (inner b qone)).
  { rewrite Rabs_pos_eq; unfold inner, b, hprod, tilt, qone, over_root2; cbn; lra. }
  intros c. split.
  - intros (E & N & M). destruct (Cand c E N) as [|L]; auto. specialize (M b Eb). lra.
  - intros ->. split; auto. split; auto. intros c' E'.
    destruct (Rle_dec 0 (qw c')) as [N'|N'].
    + destruct (Cand c' E' N') as [->|L]; lra.
    + assert (E2 : equivalent (sym_eqv "cubic") tilt (opp c')).
      { destruct E' as (s & Is & Es). exists s. split; auto. apply same_rot_sym.
        eapply same_rot_trans; [apply same_rot_sym; exact Es|]. right. now rewrite opp_opp. }
      rewrite <- (Rabs_inner_same (opp c') c' qone qone); [|right; auto | left; auto].
      destruct (Cand (opp c') E2) as [->|L]; try lra.
      unfold opp; cbn; lra.
Qed.
Lemma tilt_decisive : decisive (sym_eqv "cubic") qone [tilt].
Proof.
  apply dec_cons with (c := hprod (Q4 over_root2 (- over_root2) 0 0) tilt).
  - now apply tilt_nearest.
  - intros c'. apply tilt_nearest.
  - constructor.
Qed.

(** *** Misorientation axis *)
Lemma vnorm_dq : forall w x y z, w*w + x*x + y*y + z*z = 1 -> 0 <= w -> w <> 1 ->
  0 < 1 - w ^ 2.
Proof. intros. assert (w <= 1) by nra. nra. Qed.
Lemma mis_axis_some : forall p q a, unitq p -> unitq q -> mis_ori_axis p q = Some a ->
  mapply (rot_matrix (hprod q (hconj p))) a = a /\
  sqrt (sprod a a) = rot_angle p q /\
  exists D, from_axis_angle a (- rot_angle p q) = Some D /\ same_rot D (hprod q (hconj p)).
Proof.
  intros p q a Up Uq. unfold mis_ori_axis.
  set (Dq := quat_mul false q (conjugate p)).
  assert (SD : same_rot Dq (hprod q (hconj p))).
  { eapply same_rot_trans; [apply quat_mul_same|]. apply same_rot_hprod; [left; auto|apply conjugate_same]. }
  assert (N : 0 <= qw Dq) by (unfold Dq; rewrite quat_mul_raw; apply Quat_north).
  assert (UD : unitq Dq) by (apply (same_rot_unit _ _ SD); auto using unitq_hprod, unitq_hconj).
  assert (Wi : qw Dq = Rabs (inner p q)).
  { transitivity (Rabs (qw Dq)); [now rewrite Rabs_pos_eq|].
    replace (inner p q) with (qw (hprod q (hconj p))) by (destruct p, q; unfold hprod, hconj, inner; cbn; ring).
    destruct SD as [-> | ->]; auto. unfold opp; cbn. apply Rabs_Ropp. }
  rewrite <- (rot_same _ _ SD). unfold rot_angle. rewrite <- Wi.
  assert (SD' : same_rot Dq (hprod q (hconj p))) by auto.
  destruct Dq as [w x y z] eqn:ED. cbn [qw qx qy qz] in *. clear SD.
  set (s := sqrt (1 - w ^ 2)).
  destruct (Req_EM_T s 0) as [|NZ]; [discriminate|]. intros E.
  unfold unitq in UD; cbn in UD.
  assert (W1 : w ^ 2 <= 1) by nra.
  assert (S2 : s * s = 1 - w ^ 2) by (apply sqrt_sqrt; lra).
  assert (S0 : 0 < s) by (pose proof (sqrt_pos (1 - w ^ 2)); unfold s in *; lra).
  assert (Wl : w < 1) by nra.
  set (t := acos w) in *.
  assert (T : 0 < t <= PI / 2).
  { unfold t. split; [apply acos_bound_lt; lra|]. rewrite <- acos_0. apply acos_decr; lra. }
  assert (Ct : cos t = w) by (apply cos_acos; lra).
  assert (St : sin t = s).
  { unfold t. rewrite sin_acos by lra. unfold s. f_equal. unfold Rsqr. ring. }
  assert (Ea : a = V3 (2 * t / s * x) (2 * t / s * y) (2 * t / s * z)).
  { assert (a = V3 (2 * x * t / s) (2 * y * t / s) (2 * z * t / s)) as -> by congruence.
    f_equal; field; lra. }
  set (k := 2 * t / s) in *.
  assert (K : 0 < k) by (unfold k; apply Rdiv_lt_0_compat; lra).
  assert (Len : sqrt (sprod a a) = 2 * t).
  { rewrite Ea. unfold sprod; cbn [vx vy vz].
    replace (k * x * (k * x) + k * y * (k * y) + k * z * (k * z)) with ((2 * t) * (2 * t)).
    - apply sqrt_square. lra.
    - transitivity (k * k * (s * s)).
      + unfold k. field. lra.
      + rewrite S2. replace (1 - w ^ 2) with (x*x+y*y+z*z) by lra. ring. }
  split; [|split; [exact Len|]].
  - rewrite Ea. unfold mapply, rot_matrix, sprod; cbn [vx vy vz r0 r1 r2]. f_equal.
    + transitivity (k * x * (w*w + x*x + y*y + z*z)); [ring | rewrite UD; ring].
    + transitivity (k * y * (w*w + x*x + y*y + z*z)); [ring | rewrite UD; ring].
    + transitivity (k * z * (w*w + x*x + y*y + z*z)); [ring | rewrite UD; ring].
  - exists (Q4 w x y z). split; [|exact SD']. unfold from_axis_angle.
    change (vdot a a) with (sprod a a). rewrite Len.
    destruct (Req_EM_T (2 * t) 0); [lra|]. f_equal.
    replace (- (2 * t) / 2) with (- t) by field. rewrite cos_neg, sin_neg, Ct, St.
    rewrite Ea. unfold vscale; cbn [vx vy vz]. rewrite Quat_id by (cbn; lra).
    f_equal; unfold k; field; lra.
Qed.
Lemma mis_axis_none : forall p q, unitq p -> unitq q ->
  (mis_ori_axis p q = None <-> same_rot p q).
Proof.
  intros p q Up Uq. rewrite <- (inner_one p q Up Uq). unfold mis_ori_axis.
  set (Dq := quat_mul false q (conjugate p)).
  assert (SD : same_rot Dq (hprod q (hconj p))).
  { eapply same_rot_trans; [apply quat_mul_same|]. apply same_rot_hprod; [left; auto|apply conjugate_same]. }
  assert (N : 0 <= qw Dq) by (unfold Dq; rewrite quat_mul_raw; apply Quat_north).
  assert (UD : unitq Dq) by (apply (same_rot_unit _ _ SD); auto using unitq_hprod, unitq_hconj).
  assert (Wi : qw Dq = Rabs (inner p q)).
  { transitivity (Rabs (qw Dq)); [now rewrite Rabs_pos_eq|].
    replace (inner p q) with (qw (hprod q (hconj p))) by (destruct p, q; unfold hprod, hconj, inner; cbn; ring).
    destruct SD as [-> | ->]; auto. unfold opp; cbn. apply Rabs_Ropp. }
  rewrite <- Wi. unfold unitq in UD.
  assert (W1 : qw Dq ^ 2 <= 1) by nra.
  destruct (Req_EM_T (sqrt (1 - qw Dq ^ 2)) 0) as [Z|NZ].
  - apply sqrt_eq_0 in Z; [|lra]. split; auto. intros _. nra.
  - split; [discriminate|]. intros Wo. exfalso. apply NZ. rewrite Wo.
    replace (1 - 1 ^ 2) with 0 by ring. apply sqrt_0.
Qed.
