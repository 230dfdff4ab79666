From Coq Require Import List Reals Lra Lia String Psatz.
Import ListNotations.
From Verif Require Import Quat_Model Quat_Spec.
Open Scope R_scope.

Ltac qdes := repeat match goal with q : quat |- _ => destruct q | v : vec3 |- _ => destruct v end.
Ltac qunf := unfold bunge, rotz, rotx, sqnorm, det, mapply, mprod, transpose, unitq, same_rot, opp,
  hprod, hconj, qone, inner, xprod, sprod, col0, col1, col2, mone, rot_matrix, vadd, vscale, vdot, vcross,
  qv, qneg, dot in *; cbn [qw qx qy qz vx vy vz r0 r1 r2] in *.
Ltac qring := qdes; qunf; f_equal; ring.

(** *** Constructor *)
Lemma Quat_same : forall b q, same_rot (Quat b q) q.
Proof.
  intros b q. unfold Quat. destruct b; [left; reflexivity|].
  destruct (Rlt_dec (qw q) 0); [right; destruct q; reflexivity | left; reflexivity].
Qed.
Lemma Quat_north : forall q, 0 <= qw (Quat false q).
Proof.
  intros q. unfold Quat. destruct (Rlt_dec (qw q) 0); [destruct q; cbn in *; lra | lra].
Qed.
Lemma Quat_id : forall b q, 0 <= qw q -> Quat b q = q.
Proof. intros b q H. unfold Quat. destruct b; auto. destruct (Rlt_dec (qw q) 0); [lra|auto]. Qed.

Lemma opp_opp : forall q, opp (opp q) = q.
Proof. intros. destruct q. unfold opp; cbn. f_equal; ring. Qed.
Lemma same_rot_refl : forall q, same_rot q q. Proof. left; auto. Qed.
Lemma same_rot_sym : forall p q, same_rot p q -> same_rot q p.
Proof. intros p q [->| ->]; [left|right]; auto. now rewrite opp_opp. Qed.
Lemma same_rot_trans : forall p q r, same_rot p q -> same_rot q r -> same_rot p r.
Proof. intros p q r [->| ->] [->| ->]; unfold same_rot; rewrite ?opp_opp; auto. Qed.
Lemma hprod_opp_l : forall a b, hprod (opp a) b = opp (hprod a b).
Proof. intros; qring. Qed.
Lemma hprod_opp_r : forall a b, hprod a (opp b) = opp (hprod a b).
Proof. intros; qring. Qed.
Lemma same_rot_hprod : forall a a' b b', same_rot a a' -> same_rot b b' ->
  same_rot (hprod a b) (hprod a' b').
Proof.
  intros a a' b b' [->| ->] [->| ->]; unfold same_rot;
  rewrite ?hprod_opp_l, ?hprod_opp_r, ?opp_opp; auto.
Qed.
Lemma hconj_opp : forall a, hconj (opp a) = opp (hconj a).
Proof. intros; qring. Qed.
Lemma same_rot_hconj : forall a b, same_rot a b -> same_rot (hconj a) (hconj b).
Proof. intros a b [->| ->]; unfold same_rot; rewrite ?hconj_opp; auto. Qed.
Lemma unitq_opp : forall a, unitq a -> unitq (opp a).
Proof. intros a H. qdes; qunf. lra. Qed.
Lemma same_rot_unit : forall a b, same_rot a b -> unitq b -> unitq a.
Proof. intros a b [->| ->]; auto using unitq_opp. Qed.

Lemma hprod_assoc : forall a b c, hprod (hprod a b) c = hprod a (hprod b c).
Proof. intros; qring. Qed.
Lemma hprod_1_l : forall a, hprod qone a = a.
Proof. intros; qring. Qed.
Lemma hprod_1_r : forall a, hprod a qone = a.
Proof. intros; qring. Qed.
Lemma hprod_conj_r : forall a, unitq a -> hprod a (hconj a) = qone.
Proof. intros a H; qdes; qunf. f_equal; lra. Qed.
Lemma hprod_conj_l : forall a, unitq a -> hprod (hconj a) a = qone.
Proof. intros a H; qdes; qunf. f_equal; lra. Qed.
Lemma hconj_hconj : forall a, hconj (hconj a) = a.
Proof. intros; qring. Qed.
Lemma hconj_hprod : forall a b, hconj (hprod a b) = hprod (hconj b) (hconj a).
Proof. intros; qring. Qed.
Lemma sqnorm_hprod : forall a b, sqnorm (hprod a b) = sqnorm a * sqnorm b.
Proof. intros; qdes; qunf; ring. Qed.
Lemma unitq_sqnorm : forall a, unitq a <-> sqnorm a = 1.
Proof. intros; reflexivity. Qed.
Lemma unitq_hprod : forall a b, unitq a -> unitq b -> unitq (hprod a b).
Proof. intros a b Ha Hb. rewrite unitq_sqnorm, sqnorm_hprod in *. rewrite Ha, Hb. ring. Qed.
Lemma unitq_hconj : forall a, unitq a -> unitq (hconj a).
Proof. intros a H; qdes; qunf; lra. Qed.
Lemma unitq_qone : unitq qone. Proof. qunf; ring. Qed.

Lemma dot_inner : forall a b, dot a b = inner a b. Proof. reflexivity. Qed.
Lemma inner_sym : forall a b, inner a b = inner b a. Proof. intros; qdes; qunf; ring. Qed.
Lemma inner_hprod_l : forall s a b, unitq s -> inner (hprod s a) (hprod s b) = inner a b.
Proof.
  intros s a b H.
  replace (inner (hprod s a) (hprod s b)) with (sqnorm s * inner a b)
    by (qdes; qunf; ring).
  rewrite unitq_sqnorm in H. rewrite H. ring.
Qed.
Lemma inner_hprod_r : forall s a b, unitq s -> inner (hprod a s) (hprod b s) = inner a b.
Proof.
  intros s a b H.
  replace (inner (hprod a s) (hprod b s)) with (sqnorm s * inner a b)
    by (qdes; qunf; ring).
  rewrite unitq_sqnorm in H. rewrite H. ring.
Qed.
Lemma inner_move : forall s a b, inner a (hprod s b) = inner (hprod (hconj s) a) b.
Proof. intros; qdes; qunf; ring. Qed.
Lemma inner_opp_l : forall a b, inner (opp a) b = - inner a b.
Proof. intros; qdes; qunf; ring. Qed.
Lemma inner_opp_r : forall a b, inner a (opp b) = - inner a b.
Proof. intros; qdes; qunf; ring. Qed.
Lemma Rabs_inner_same : forall a a' b b', same_rot a a' -> same_rot b b' ->
  Rabs (inner a b) = Rabs (inner a' b').
Proof.
  intros a a' b b' [->| ->] [->| ->];
  rewrite ?inner_opp_l, ?inner_opp_r, ?Rabs_Ropp; auto.
Qed.

Lemma quat_mul_raw : forall b p q, quat_mul b p q = Quat b (hprod p q).
Proof. intros. unfold quat_mul. f_equal. qring. Qed.
Lemma quat_mul_same : forall b p q, same_rot (quat_mul b p q) (hprod p q).
Proof. intros. rewrite quat_mul_raw. apply Quat_same. Qed.
Lemma conjugate_same : forall q, same_rot (conjugate q) (hconj q).
Proof. intros. apply Quat_same. Qed.
Lemma conjugate_north : forall q, 0 <= qw q -> conjugate q = hconj q.
Proof. intros q H. unfold conjugate. now rewrite Quat_id. Qed.
Lemma conjugate_south : forall q, qw q < 0 -> conjugate q = opp (hconj q).
Proof.
  intros q H. unfold conjugate, Quat. cbn. destruct (Rlt_dec (qw q) 0); [|lra].
  qdes; qunf. f_equal; ring.
Qed.

(** *** Rotation matrices *)
Lemma rot_opp : forall q, rot_matrix (opp q) = rot_matrix q.
Proof. intros [a b c d]; unfold rot_matrix, opp; cbn [qw qx qy qz vx vy vz r0 r1 r2]; f_equal; f_equal; ring. Qed.
Lemma rot_same : forall p q, same_rot p q -> rot_matrix p = rot_matrix q.
Proof. intros p q [->| ->]; auto using rot_opp. Qed.
Lemma rot_hconj : forall q, rot_matrix (hconj q) = transpose (rot_matrix q).
Proof. intros [a b c d]. unfold transpose, col0, col1, col2, rot_matrix, hconj; cbn [qw qx qy qz vx vy vz r0 r1 r2]. f_equal; f_equal; ring. Qed.
Lemma rot_orth : forall q, unitq q -> mprod (rot_matrix q) (transpose (rot_matrix q)) = mone.
Proof.
  intros [a b c d] H. unfold unitq in H; cbn in H.
  assert (E : (a*a+b*b+c*c+d*d)^2 = 1) by (rewrite H; ring).
  unfold mprod, transpose, mone, rot_matrix, col0, col1, col2, sprod; cbn [vx vy vz r0 r1 r2].
  f_equal; f_equal; try ring; rewrite <- E; ring.
Qed.
Lemma rot_orth' : forall q, unitq q -> mprod (transpose (rot_matrix q)) (rot_matrix q) = mone.
Proof.
  intros q H. rewrite <- (rot_orth (hconj q)) by now apply unitq_hconj.
  rewrite rot_hconj. f_equal; destruct (rot_matrix q) as [[? ? ?] [? ? ?] [? ? ?]]; reflexivity.
Qed.
Lemma rot_det : forall q, unitq q -> det (rot_matrix q) = 1.
Proof.
  intros [a b c d] H. unfold unitq in H; cbn in H.
  assert (E : (a*a+b*b+c*c+d*d)^3 = 1) by (rewrite H; ring).
  unfold det, rot_matrix, sprod, xprod; cbn [vx vy vz r0 r1 r2].
  rewrite <- E; ring.
Qed.
Lemma rot_hprod : forall p q, rot_matrix (hprod p q) = mprod (rot_matrix p) (rot_matrix q).
Proof.
  intros [a b c d] [e f g h].
  unfold mprod, rot_matrix, hprod, col0, col1, col2, sprod; cbn [vx vy vz r0 r1 r2 qw qx qy qz].
  f_equal; f_equal; ring.
Qed.
Lemma mat_ext : forall m n : mat3, r0 m = r0 n -> r1 m = r1 n -> r2 m = r2 n -> m = n.
Proof. intros [? ? ?] [? ? ?]; cbn; intros; subst; auto. Qed.

(** Two unit quaternions with the same matrix are equal up to sign. *)
Lemma rot_inj : forall p q, unitq p -> unitq q -> rot_matrix p = rot_matrix q -> same_rot p q.
Proof.
  intros p q Hp Hq H.
  assert (K : rot_matrix (hprod (hconj q) p) = mone).
  { rewrite rot_hprod, rot_hconj, H. now apply rot_orth'. }
  assert (U : unitq (hprod (hconj q) p)) by auto using unitq_hprod, unitq_hconj.
  assert (S : same_rot (hprod (hconj q) p) qone).
  { destruct (hprod (hconj q) p) as [a b c d]. unfold rot_matrix, mone in K.
    injection K as K1 K2 K3 K4 K5 K6 K7 K8 K9. unfold unitq in U; cbn in U.
    assert (b * b = 0) by nra. assert (c * c = 0) by nra. assert (d * d = 0) by nra.
    assert (b = 0) by nra. assert (c = 0) by nra. assert (d = 0) by nra. subst.
    assert ((a - 1) * (a + 1) = 0) by nra.
    apply Rmult_integral in H3. unfold same_rot, opp, qone; cbn.
    destruct H3; [left|right]; f_equal; lra. }
  apply (same_rot_hprod q q) in S; [|left; auto].
  rewrite <- hprod_assoc, hprod_conj_r, hprod_1_l, hprod_1_r in S; auto.
Qed.

(** *** transform_vector *)
Lemma sandwich : forall q v, qv (hprod q (hprod (Q4 0 (vx v) (vy v) (vz v)) (hconj q)))
  = mapply (rot_matrix q) v.
Proof.
  intros [a b c d] [x y z]. unfold qv, mapply, rot_matrix, hprod, hconj, sprod.
  cbn [vx vy vz r0 r1 r2 qw qx qy qz]. f_equal; ring.
Qed.
Lemma transform_north : forall q v, 0 <= qw q -> transform_vector q v = mapply (rot_matrix q) v.
Proof.
  intros q v H. unfold transform_vector. rewrite !quat_mul_raw. unfold Quat at 1 2 3.
  rewrite conjugate_north by auto. apply sandwich.
Qed.
Lemma transform_south : forall q v, qw q < 0 ->
  transform_vector q v = mapply (rot_matrix q) (V3 (- vx v) (- vy v) (- vz v)).
Proof.
  intros q v H. unfold transform_vector. rewrite !quat_mul_raw. unfold Quat at 1 2 3.
  rewrite conjugate_south by auto. rewrite <- sandwich. cbn [vx vy vz].
  rewrite hprod_opp_r.
  replace (Q4 0 (- vx v) (- vy v) (- vz v)) with (opp (Q4 0 (vx v) (vy v) (vz v)))
    by (unfold opp; cbn; f_equal; ring).
  now rewrite hprod_opp_l.
Qed.
Lemma mapply_mprod : forall a b v, mapply (mprod a b) v = mapply a (mapply b v).
Proof.
  intros [[? ? ?] [? ? ?] [? ? ?]] [[? ? ?] [? ? ?] [? ? ?]] [? ? ?].
  unfold mapply, mprod, sprod, col0, col1, col2; cbn. f_equal; ring.
Qed.
Lemma mapply_one : forall v, mapply mone v = v.
Proof. intros [x y z]. unfold mapply, mone, sprod; cbn. f_equal; ring. Qed.
Lemma rot_sprod : forall q u v, unitq q ->
  sprod (mapply (rot_matrix q) u) (mapply (rot_matrix q) v) = sprod u v.
Proof.
  intros q u v H.
  replace (sprod (mapply (rot_matrix q) u) (mapply (rot_matrix q) v))
    with (sprod u (mapply (transpose (rot_matrix q)) (mapply (rot_matrix q) v))).
  2:{ destruct (rot_matrix q) as [[? ? ?] [? ? ?] [? ? ?]], u, v.
      unfold sprod, mapply, transpose, col0, col1, col2, sprod; cbn. ring. }
  rewrite <- mapply_mprod, rot_orth', mapply_one; auto.
Qed.
Lemma rot_xprod : forall q u v, unitq q ->
  xprod (mapply (rot_matrix q) u) (mapply (rot_matrix q) v) = mapply (rot_matrix q) (xprod u v).
Proof.
  intros [a b c d] [x y z] [x' y' z'] H. unfold unitq in H; cbn in H.
  set (N := a*a+b*b+c*c+d*d) in H.
  assert (K : forall m : vec3, V3 (vx m) (vy m) (vz m) = V3 (N * vx m) (N * vy m) (N * vz m)).
  { intros m. rewrite H. f_equal; ring. }
  transitivity (let m := mapply (rot_matrix (Q4 a b c d)) (xprod (V3 x y z) (V3 x' y' z')) in
     V3 (N * vx m) (N * vy m) (N * vz m)).
  - unfold N, xprod, mapply, rot_matrix, sprod; cbn [vx vy vz r0 r1 r2]. f_equal; ring.
  - cbv zeta. rewrite H. unfold mapply. cbn [vx vy vz]. f_equal; ring.
Qed.

(** *** norm, normalise *)
Lemma inner_self_nonneg : forall q, 0 <= inner q q.
Proof. intros; qdes; qunf; nra. Qed.
Lemma norm_zero_iff : forall q, norm q = 0 <-> q = Q4 0 0 0 0.
Proof.
  intros q. unfold norm. rewrite dot_inner. split.
  - intros H. apply sqrt_eq_0 in H; [|apply inner_self_nonneg].
    qdes; qunf. f_equal; nra.
  - intros ->. unfold inner; cbn. replace (0*0+0*0+0*0+0*0) with 0 by ring. apply sqrt_0.
Qed.
Lemma norm_sq : forall q, norm q * norm q = inner q q.
Proof. intros. unfold norm. apply sqrt_sqrt, inner_self_nonneg. Qed.
Lemma norm_nonneg : forall q, 0 <= norm q.
Proof. intros; apply sqrt_pos. Qed.
Lemma norm_unit : forall q, unitq q -> norm q = 1.
Proof. intros q H. unfold norm. rewrite dot_inner. unfold inner. rewrite H. apply sqrt_1. Qed.
Lemma normalise_spec : forall q, q <> Q4 0 0 0 0 ->
  exists k n, normalise q = Some n /\ 0 < k /\ unitq n /\
    q = Q4 (k * qw n) (k * qx n) (k * qy n) (k * qz n).
Proof.
  intros q H. assert (N : norm q <> 0) by (rewrite norm_zero_iff; auto).
  assert (P : 0 < norm q) by (pose proof (norm_nonneg q); lra).
  exists (norm q). unfold normalise. destruct (Req_EM_T (norm q) 0); [lra|].
  eexists; split; [reflexivity|]. split; [auto|]. split.
  - pose proof (norm_sq q) as S. set (k := norm q) in *. clearbody k. destruct q as [a b c d]; qunf.
    replace (a / k * (a / k) + b / k * (b / k) + c / k * (c / k) + d / k * (d / k))
      with ((a * a + b * b + c * c + d * d) / (k * k)) by (field; auto).
    rewrite <- S. field. auto.
  - set (k := norm q) in *. clearbody k. qdes; cbn. f_equal; field; auto.
Qed.
