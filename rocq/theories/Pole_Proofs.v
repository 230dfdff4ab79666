(** Lemmas on pole figures. *)
From Coq Require Import String Ascii.
From Coq Require Import Reals List ZArith Bool Lia Lra Psatz.
Import ListNotations.
From Verif Require Import Py Quat_Model Quat_Spec QuatEuler_Proofs Text_Model Pole_Model Pole_Spec.
Open Scope R_scope.

Lemma sprod_nonneg : forall v, 0 <= sprod v v.
Proof. intros [x y z]. unfold sprod. cbn [vx vy vz]. nra. Qed.
Lemma vlen_pos : forall v, v <> vzero -> 0 < vlen v.
Proof.
  intros v N. apply sqrt_lt_R0. destruct (Rle_lt_or_eq_dec _ _ (sprod_nonneg v)) as [L|E]; [exact L|]. elim N.
  destruct v as [x y z]. unfold sprod in E. cbn [vx vy vz] in E. unfold vzero. f_equal; nra.
Qed.
Lemma vlen_sq : forall v, vlen v * vlen v = sprod v v.
Proof. intros v. unfold vlen. apply sqrt_sqrt. apply sprod_nonneg. Qed.
Lemma mod_vlen : forall v, sqrt (vx v ^ 2 + vy v ^ 2 + vz v ^ 2) = vlen v.
Proof. intros v. unfold vlen, sprod. f_equal. ring. Qed.

Lemma polar_ok : forall v, v <> vzero -> exists a b, polar_angles v = Some (a, b) /\ 0 <= a <= PI /\ - PI < b <= PI /\
  spherical a b = V3 (vx v / vlen v) (vy v / vlen v) (vz v / vlen v).
Proof.
  intros v N. pose proof (vlen_pos v N) as M. pose proof (vlen_sq v) as MS. unfold polar_angles. rewrite mod_vlen.
  destruct (Req_EM_T (vlen v) 0) as [E|_]; [lra|]. eexists _, _. split; [reflexivity|].
  set (x := vx v / vlen v) in *. set (y := vy v / vlen v) in *. set (z := vz v / vlen v) in *.
  assert (U : x * x + y * y + z * z = 1).
  { unfold x, y, z. replace (vx v / vlen v * (vx v / vlen v) + vy v / vlen v * (vy v / vlen v) + vz v / vlen v * (vz v / vlen v))
      with (sprod v v / (vlen v * vlen v)) by (unfold sprod; field; lra). rewrite MS. apply Rinv_r. rewrite <- MS. nra. }
  assert (Z : -1 <= z <= 1) by nra. split; [apply acos_bound|]. split; [apply arctan2_range|].
  unfold spherical. rewrite cos_acos by exact Z. rewrite sin_acos by exact Z.
  assert (Q : 0 <= 1 - z²) by (unfold Rsqr; nra).
  destruct (Rle_lt_or_eq_dec 0 (1 - z²) Q) as [L|E].
  - assert (SP : 0 < sqrt (1 - z²)) by now apply sqrt_lt_R0.
    destruct (arctan2_cs y x (sqrt (1 - z²)) SP) as (C & S).
    { rewrite sqrt_sqrt by exact Q. unfold Rsqr. lra. }
    rewrite C, S. f_equal; field; lra.
  - rewrite <- E, sqrt_0. assert (x = 0 /\ y = 0) as (-> & ->) by (unfold Rsqr in E; split; nra). f_equal; ring.
Qed.
Lemma polar_none : forall v, polar_angles v = None <-> v = vzero.
Proof.
  intros v. split.
  - intros H. destruct (Req_EM_T (vlen v) 0) as [E|E].
    + pose proof (vlen_sq v) as M. rewrite E in M. destruct v as [x y z]. unfold sprod in M. cbn [vx vy vz] in M. unfold vzero. f_equal; nra.
    + unfold polar_angles in H. rewrite mod_vlen in H. destruct (Req_EM_T (vlen v) 0); [lra|discriminate].
  - intros ->. unfold polar_angles, vzero. cbn [vx vy vz]. replace (0 ^ 2 + 0 ^ 2 + 0 ^ 2) with 0 by ring. rewrite sqrt_0.
    destruct (Req_EM_T 0 0); [reflexivity|lra].
Qed.

Lemma cos_turn : forall b, cos (b - PI / 2) = sin b.
Proof. intros b. rewrite cos_minus, cos_PI2, sin_PI2. ring. Qed.
Lemma sin_turn : forall b, sin (b - PI / 2) = - cos b.
Proof. intros b. rewrite sin_minus, cos_PI2, sin_PI2. ring. Qed.

Lemma half_sin : forall a, sin a = 2 * sin (a / 2) * cos (a / 2).
Proof. intros a. replace a with (2 * (a / 2)) at 1 by field. apply sin_2a. Qed.
Lemma half_cos : forall a, 1 + cos a = 2 * (cos (a / 2) * cos (a / 2)).
Proof. intros a. replace a with (2 * (a / 2)) at 1 by field. rewrite cos_2a_cos. ring. Qed.
Lemma tan_half : forall a, cos (a / 2) <> 0 -> tan (a / 2) = sin a / (1 + cos a).
Proof. intros a H. rewrite half_cos, half_sin. unfold tan. field. exact H. Qed.
Lemma half_pos : forall a, 0 <= a < PI -> 0 < cos (a / 2).
Proof. intros a A. apply cos_gt_0; lra. Qed.
Lemma chord : forall a, 0 <= a <= PI -> sqrt (2 * (1 - cos a)) = 2 * sin (a / 2).
Proof.
  intros a A. assert (S : 0 <= sin (a / 2)) by (apply sin_ge_0; lra).
  replace (2 * (1 - cos a)) with ((2 * sin (a / 2)) * (2 * sin (a / 2))).
  - apply sqrt_square. lra.
  - replace a with (2 * (a / 2)) at 3 by field. rewrite cos_2a_sin. ring.
Qed.

Lemma radius_polar : forall c t, 0 <= c -> radius (c * cos t, c * sin t) = c.
Proof.
  intros c t C. unfold radius. cbn [fst snd]. replace ((c * cos t) ^ 2 + (c * sin t) ^ 2) with (c * c * ((sin t)² + (cos t)²)) by (unfold Rsqr; ring).
  rewrite sin2_cos2, Rmult_1_r. now apply sqrt_square.
Qed.
Lemma stereo_ok : forall a b, 0 <= a < PI -> exists P, stereo a b = Some P /\ radius P = tan (a / 2) /\
  P = (radius P * cos (b - PI / 2), radius P * sin (b - PI / 2)).
Proof.
  intros a b A. unfold stereo. pose proof (half_pos a A) as C. destruct (Req_EM_T (cos (a / 2)) 0) as [E|_]; [lra|].
  assert (T : 0 <= tan (a / 2)).
  { unfold tan. apply Rmult_le_pos; [apply sin_ge_0; lra|]. left. now apply Rinv_0_lt_compat. }
  eexists. split; [reflexivity|]. rewrite radius_polar by exact T. split; reflexivity.
Qed.
Lemma lambert_ok : forall a b, 0 <= a <= PI -> exists P, lambert a b = Some P /\ radius P = 2 * sin (a / 2) /\
  P = (radius P * cos (b - PI / 2), radius P * sin (b - PI / 2)).
Proof.
  intros a b A. unfold lambert. eexists. split; [reflexivity|]. rewrite radius_polar by apply sqrt_pos.
  rewrite chord by exact A. split; reflexivity.
Qed.
Lemma down_pi : forall v a b, v <> vzero -> ~ straight_down v -> polar_angles v = Some (a, b) -> 0 <= a < PI.
Proof.
  intros v a b N D E. destruct (polar_ok v N) as (a' & b' & E' & A & _ & S). rewrite E in E'. injection E' as <- <-.
  split; [lra|]. destruct (Req_EM_T a PI) as [->|K]; [|lra]. elim D. pose proof (vlen_pos v N) as M. unfold spherical in S. injection S as X Y Z.
  rewrite sin_PI in X, Y. rewrite cos_PI in Z. unfold straight_down.
  assert (vx v = 0) by (replace (vx v) with (vx v / vlen v * vlen v) by (field; lra); rewrite <- X; ring).
  assert (vy v = 0) by (replace (vy v) with (vy v / vlen v * vlen v) by (field; lra); rewrite <- Y; ring).
  assert (vz v = - vlen v) by (replace (vz v) with (vz v / vlen v * vlen v) by (field; lra); rewrite <- Z; ring). repeat split; lra.
Qed.
Lemma below_len : forall v, - vlen v <= vz v.
Proof.
  intros v. pose proof (vlen_sq v) as M. assert (0 <= vlen v) by apply sqrt_pos. unfold sprod in M. 
  destruct (Rle_dec (- vlen v) (vz v)); [assumption|]. nra.
Qed.
Lemma above_south : forall v, v <> vzero -> ~ straight_down v -> 0 < vlen v + vz v.
Proof.
  intros v N D. pose proof (vlen_pos v N) as M. pose proof (vlen_sq v) as MS. pose proof (below_len v) as B. unfold sprod in MS.
  destruct (Req_EM_T (vlen v + vz v) 0) as [E|]; [|lra]. elim D. assert (E' : vz v = - vlen v) by lra. rewrite E' in MS.
  unfold straight_down. repeat split; nra.
Qed.

Lemma sq_one : forall u, 0 <= u -> u * u = 1 -> u = 1.
Proof. intros u A B. nra. Qed.

(** The stereographic image of a direction. *)
Lemma stereo_direction : forall v, v <> vzero -> ~ straight_down v ->
  stereo_project [vx v; vy v; vz v] = Ok (Some (vy v / (vlen v + vz v), - (vx v / (vlen v + vz v)))).
Proof.
  intros v N D. destruct (polar_ok v N) as (a & b & E & A & _ & S). pose proof (down_pi v a b N D E) as A'.
  pose proof (vlen_pos v N) as M. pose proof (above_south v N D) as Q.
  unfold stereo_project, project. destruct v as [x y z]. cbn [vx vy vz] in *. rewrite E. unfold stereo.
  pose proof (half_pos a A') as C. destruct (Req_EM_T (cos (a / 2)) 0) as [K|_]; [lra|].
  rewrite cos_turn, sin_turn, tan_half by lra. set (m := vlen (V3 x y z)) in *. unfold spherical in S. injection S as SX SY SZ.
  do 3 f_equal.
  - replace (sin a / (1 + cos a) * sin b) with (sin a * sin b / (1 + cos a)) by (unfold Rdiv; ring). rewrite SY, SZ. field. split; lra.
  - replace (sin a / (1 + cos a) * - cos b) with (- (sin a * cos b / (1 + cos a))) by (unfold Rdiv; ring). rewrite SX, SZ. field. split; lra.
Qed.
(** The equal-area image of a direction. *)
Lemma lambert_direction : forall v, v <> vzero -> ~ straight_down v ->
  lambert_project [vx v; vy v; vz v] =
  Ok (Some (vy v * sqrt (2 / (vlen v * (vlen v + vz v))), - (vx v * sqrt (2 / (vlen v * (vlen v + vz v)))))).
Proof.
  intros v N D. destruct (polar_ok v N) as (a & b & E & A & _ & S). pose proof (down_pi v a b N D E) as A'.
  pose proof (vlen_pos v N) as M. pose proof (above_south v N D) as Q.
  unfold lambert_project, project. destruct v as [x y z]. cbn [vx vy vz] in *. rewrite E. unfold lambert.
  pose proof (half_pos a A') as C. rewrite cos_turn, sin_turn, chord by lra. set (m := vlen (V3 x y z)) in *. unfold spherical in S. injection S as SX SY SZ.
  assert (R : 2 * sin (a / 2) = sin a * (m * sqrt (2 / (m * (m + z))))).
  { rewrite (half_sin a). assert (H : cos (a / 2) * (m * sqrt (2 / (m * (m + z)))) = 1); [|rewrite (Rmult_assoc (2 * sin (a / 2))), H; ring].
    assert (P : 0 <= cos (a / 2) * (m * sqrt (2 / (m * (m + z))))).
    { apply Rmult_le_pos; [lra|]. apply Rmult_le_pos; [lra|apply sqrt_pos]. }
    assert (Sq : (cos (a / 2) * (m * sqrt (2 / (m * (m + z))))) * (cos (a / 2) * (m * sqrt (2 / (m * (m + z))))) = 1); [|now apply sq_one].
    replace (_ * _) with (cos (a / 2) * cos (a / 2) * (m * m) * (sqrt (2 / (m * (m + z))) * sqrt (2 / (m * (m + z))))) by ring.
    rewrite sqrt_sqrt. 2:{ apply Rmult_le_pos; [lra|]. left. apply Rinv_0_lt_compat. nra. }
    replace (cos (a / 2) * cos (a / 2)) with ((1 + cos a) / 2) by (rewrite (half_cos a); field). rewrite SZ. field. split; lra. }
  rewrite R. do 3 f_equal.
  - replace (sin a * (m * sqrt (2 / (m * (m + z)))) * sin b) with (sin a * sin b * m * sqrt (2 / (m * (m + z)))) by ring.
    rewrite SY. field. lra.
  - replace (sin a * (m * sqrt (2 / (m * (m + z)))) * - cos b) with (- (sin a * cos b * m * sqrt (2 / (m * (m + z))))) by ring.
    rewrite SX. field. lra.
Qed.
