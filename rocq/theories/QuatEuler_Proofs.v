From Coq Require Import List Reals Lra Lia String Psatz.
Import ListNotations.
From Verif Require Import Quat_Model Quat_Spec Quat_Proofs.
Open Scope R_scope.

Lemma cs1 : forall x, cos x * cos x + sin x * sin x = 1.
Proof. intros. pose proof (sin2_cos2 x) as H. unfold Rsqr in H. lra. Qed.
Lemma cos_half : forall x, cos x = cos (x / 2) * cos (x / 2) - sin (x / 2) * sin (x / 2).
Proof. intros. rewrite <- cos_plus. f_equal. lra. Qed.
Lemma sin_half : forall x, sin x = 2 * (sin (x / 2) * cos (x / 2)).
Proof. intros. replace x with (x / 2 + x / 2) at 1 by lra. rewrite sin_plus. ring. Qed.

Definition hz (a : R) : quat := Q4 (cos (a / 2)) 0 0 (- sin (a / 2)).
Definition hx (a : R) : quat := Q4 (cos (a / 2)) (- sin (a / 2)) 0 0.
Lemma rot_hz : forall a, rot_matrix (hz a) = rotz a.
Proof.
  intros a. unfold rot_matrix, hz, rotz. rewrite (cos_half a), (sin_half a).
  pose proof (cs1 (a / 2)). f_equal; f_equal; try ring; lra.
Qed.
Lemma rot_hx : forall a, rot_matrix (hx a) = rotx a.
Proof.
  intros a. unfold rot_matrix, hx, rotx. rewrite (cos_half a), (sin_half a).
  pose proof (cs1 (a / 2)). f_equal; f_equal; try ring; lra.
Qed.
Lemma unit_hz : forall a, unitq (hz a).
Proof. intros. pose proof (cs1 (a / 2)). unfold hz, unitq; cbn; lra. Qed.
Lemma unit_hx : forall a, unitq (hx a).
Proof. intros. pose proof (cs1 (a / 2)). unfold hx, unitq; cbn; lra. Qed.

Definition raw_euler (ph1 phi ph2 : R) : quat :=
  Q4 (cos (phi / 2) * cos ((ph1 + ph2) / 2))
     (- sin (phi / 2) * cos ((ph1 - ph2) / 2))
     (- sin (phi / 2) * sin ((ph1 - ph2) / 2))
     (- cos (phi / 2) * sin ((ph1 + ph2) / 2)).
Lemma raw_euler_prod : forall a b c, raw_euler a b c = hprod (hz c) (hprod (hx b) (hz a)).
Proof.
  intros. unfold raw_euler, hprod, hz, hx; cbn [qw qx qy qz].
  replace ((a + c) / 2) with (a / 2 + c / 2) by lra.
  replace ((a - c) / 2) with (a / 2 - c / 2) by lra.
  rewrite cos_plus, sin_plus, cos_minus, sin_minus. f_equal; ring.
Qed.
Lemma euler_unit : forall a b c, unitq (from_euler_angles a b c).
Proof.
  intros. apply (same_rot_unit _ (raw_euler a b c)). { apply Quat_same. }
  rewrite raw_euler_prod. auto using unitq_hprod, unit_hz, unit_hx.
Qed.
Lemma euler_bunge : forall a b c, rot_matrix (from_euler_angles a b c) = bunge a b c.
Proof.
  intros. rewrite (rot_same _ (raw_euler a b c)) by apply Quat_same.
  rewrite raw_euler_prod, !rot_hprod, rot_hx, !rot_hz. reflexivity.
Qed.

(** *** arctan2 *)
Lemma arctan2_range : forall y x, - PI < arctan2 y x <= PI.
Proof.
  intros y x. pose proof PI_RGT_0. pose proof (atan_bound (y / x)) as B. unfold arctan2.
  destruct (Rlt_dec 0 x); [lra|].
  destruct (Rlt_dec x 0).
  - destruct (Rlt_dec y 0).
    + split; [|lra]. assert (0 < atan (y / x)); [|lra]. rewrite <- atan_0. apply atan_increasing.
      replace (y / x) with ((- y) * / (- x)) by (field; lra).
      apply Rmult_lt_0_compat; [lra|]. apply Rinv_0_lt_compat; lra.
    + split; [lra|]. assert (atan (y / x) <= 0); [|lra]. rewrite <- atan_0.
      assert (y / x <= 0).
      { replace (y / x) with (- (y * / (- x))) by (field; lra).
        assert (0 <= y * / (- x)); [|lra]. apply Rmult_le_pos; [lra|].
        apply Rlt_le, Rinv_0_lt_compat; lra. }
      destruct (Rle_lt_or_eq_dec _ _ H0) as [K|K].
      * left. now apply atan_increasing.
      * right. now rewrite K.
  - destruct (Rlt_dec 0 y); [lra|]. destruct (Rlt_dec y 0); lra.
Qed.
Lemma arctan2_cs : forall y x r, 0 < r -> r * r = x * x + y * y ->
  cos (arctan2 y x) = x / r /\ sin (arctan2 y x) = y / r.
Proof.
  intros y x r Hr E.
  assert (A : x <> 0 -> sqrt (1 + (y / x)²) = r / Rabs x).
  { intros Hx. replace (1 + (y / x)²) with ((r / Rabs x) * (r / Rabs x)).
    - apply sqrt_square. apply Rmult_le_pos; [lra|].
      apply Rlt_le, Rinv_0_lt_compat. now apply Rabs_pos_lt.
    - unfold Rsqr.
      replace (r / Rabs x * (r / Rabs x)) with (r * r / (Rabs x * Rabs x)).
      2:{ field. now apply Rabs_no_R0. }
      replace (Rabs x * Rabs x) with (x * x).
      2:{ rewrite <- Rabs_mult. symmetry. apply Rabs_pos_eq. nra. }
      rewrite E. field. auto. }
  unfold arctan2. destruct (Rlt_dec 0 x).
  { rewrite cos_atan, sin_atan, A by lra. rewrite (Rabs_pos_eq x) by lra. split; field; lra. }
  destruct (Rlt_dec x 0).
  { assert (cos (atan (y / x)) = - x / r /\ sin (atan (y / x)) = - y / r) as [C S].
    { rewrite cos_atan, sin_atan, A by lra. rewrite (Rabs_left x) by lra. split; field; lra. }
    destruct (Rlt_dec y 0).
    - replace (atan (y / x) - PI) with (- (PI - atan (y / x))) by lra.
      rewrite cos_neg, sin_neg, Rtrigo_facts.cos_pi_minus, Rtrigo_facts.sin_pi_minus, C, S.
      split; field; lra.
    - rewrite neg_cos, neg_sin, C, S. split; field; lra. }
  assert (x = 0) by lra. subst x.
  destruct (Rlt_dec 0 y).
  { assert (r = y) by nra. subst. rewrite cos_PI2, sin_PI2. split; field; lra. }
  destruct (Rlt_dec y 0).
  { assert (r = - y) by nra. subst. rewrite cos_neg, sin_neg, cos_PI2, sin_PI2. split; field; lra. }
  nra.
Qed.
Lemma arctan2_cs1 : forall y x, x * x + y * y = 1 ->
  cos (arctan2 y x) = x /\ sin (arctan2 y x) = y.
Proof.
  intros y x H. destruct (arctan2_cs y x 1) as [A B]; [lra|lra|].
  rewrite A, B. split; field.
Qed.

Definition wrap (e : R) := if Rlt_dec e 0 then e + 2 * PI else e.
Lemma wrap_cs : forall e, cos (wrap e) = cos e /\ sin (wrap e) = sin e.
Proof.
  intros e. unfold wrap. destruct (Rlt_dec e 0); auto.
  rewrite cos_plus, sin_plus, cos_2PI, sin_2PI. split; ring.
Qed.
Lemma wrap_range : forall e, - PI < e <= PI -> 0 <= wrap e < 2 * PI.
Proof. intros e H. pose proof PI_RGT_0. unfold wrap. destruct (Rlt_dec e 0); lra. Qed.

Definition raw_angles (q : quat) : R * R * R :=
  let '(Q4 q0 q1 q2 q3) := q in
  let chi := sqrt ((q0 ^ 2 + q3 ^ 2) * (q1 ^ 2 + q2 ^ 2)) in
  if Req_EM_T chi 0 then
    if Req_EM_T (q1 ^ 2 + q2 ^ 2) 0 then
      (arctan2 (-2 * q0 * q3) (q0 ^ 2 - q3 ^ 2), 0, 0)
    else (arctan2 (2 * q1 * q2) (q1 ^ 2 - q2 ^ 2), PI, 0)
  else
    (arctan2 ((- q0 * q2 + q1 * q3) / chi) ((- q0 * q1 - q2 * q3) / chi),
     arctan2 (2 * chi) (q0 ^ 2 + q3 ^ 2 - q1 ^ 2 - q2 ^ 2),
     arctan2 ((q1 * q3 + q0 * q2) / chi) ((- q0 * q1 + q2 * q3) / chi)).
Lemma euler_angles_raw : forall q, euler_angles q =
  let '(a, b, c) := raw_angles q in (wrap a, b, wrap c).
Proof. intros [q0 q1 q2 q3]. reflexivity. Qed.

Lemma bunge_entries : forall a b c a' b' c',
  cos a = cos a' -> sin a = sin a' -> cos b = cos b' -> sin b = sin b' ->
  cos c = cos c' -> sin c = sin c' -> bunge a b c = bunge a' b' c'.
Proof.
  intros. unfold bunge, rotz, rotx. rewrite H, H0, H1, H2, H3, H4. reflexivity.
Qed.
Lemma raw_angles_bunge : forall q a b c, unitq q -> raw_angles q = (a, b, c) ->
  bunge a b c = rot_matrix q /\ - PI < a <= PI /\ 0 <= b <= PI /\ - PI < c <= PI.
Proof.
  intros [q0 q1 q2 q3] a b c U. unfold raw_angles. unfold unitq in U; cbn [qw qx qy qz] in U.
  pose proof PI_RGT_0 as PI0.
  set (P := (q0 ^ 2 + q3 ^ 2) * (q1 ^ 2 + q2 ^ 2)).
  assert (P0 : 0 <= P) by (unfold P; apply Rmult_le_pos; nra).
  assert (S : sqrt P * sqrt P = P) by now apply sqrt_sqrt.
  assert (S0 : 0 <= sqrt P) by apply sqrt_pos.
  destruct (Req_EM_T (sqrt P) 0) as [Z|NZ].
  - assert (PZ : P = 0) by nra. clear S S0 P0 Z. unfold P in PZ.
    destruct (Req_EM_T (q1 ^ 2 + q2 ^ 2) 0) as [Z|NZ].
    + intros E; apply pair_equal_spec in E; destruct E as [E <-];
      apply pair_equal_spec in E; destruct E as [<- <-].
      assert (q1 = 0) by nra. assert (q2 = 0) by nra. subst q1 q2.
      destruct (arctan2_cs1 (-2 * q0 * q3) (q0 ^ 2 - q3 ^ 2)) as [C S].
      { transitivity ((q0*q0+0*0+0*0+q3*q3)^2); [ring | rewrite U; ring]. }
      split; [| split; [apply arctan2_range | split; lra]].
      unfold bunge, rotz, rotx, mprod, rot_matrix, col0, col1, col2, sprod; cbn [vx vy vz r0 r1 r2].
      rewrite C, S, cos_0, sin_0. f_equal; f_equal; lra.
    + intros E; apply pair_equal_spec in E; destruct E as [E <-];
      apply pair_equal_spec in E; destruct E as [<- <-].
      apply Rmult_integral in PZ. destruct PZ as [PZ|PZ]; [|lra].
      assert (q0 = 0) by nra. assert (q3 = 0) by nra. subst q0 q3.
      destruct (arctan2_cs1 (2 * q1 * q2) (q1 ^ 2 - q2 ^ 2)) as [C S].
      { transitivity ((0*0+q1*q1+q2*q2+0*0)^2); [ring | rewrite U; ring]. }
      split; [| split; [apply arctan2_range | split; lra]].
      unfold bunge, rotz, rotx, mprod, rot_matrix, col0, col1, col2, sprod; cbn [vx vy vz r0 r1 r2].
      rewrite C, S, cos_0, sin_0, cos_PI, sin_PI. f_equal; f_equal; lra.
  - intros E; apply pair_equal_spec in E; destruct E as [E <-];
      apply pair_equal_spec in E; destruct E as [<- <-].
    set (chi := sqrt P) in *. clearbody chi.
    assert (chi > 0) by lra.
    destruct (arctan2_cs1 ((- q0 * q2 + q1 * q3) / chi) ((- q0 * q1 - q2 * q3) / chi)) as [C1 S1].
    { transitivity (P / (chi * chi)); [unfold P; field; lra | rewrite S; field; nra]. }
    destruct (arctan2_cs1 (2 * chi) (q0 ^ 2 + q3 ^ 2 - q1 ^ 2 - q2 ^ 2)) as [C2 S2].
    { transitivity ((q0*q0+q1*q1+q2*q2+q3*q3)^2); [| rewrite U; ring].
      transitivity (4 * (chi * chi) + (q0 ^ 2 + q3 ^ 2 - q1 ^ 2 - q2 ^ 2)^2); [ring|].
      rewrite S. unfold P. ring. }
    destruct (arctan2_cs1 ((q1 * q3 + q0 * q2) / chi) ((- q0 * q1 + q2 * q3) / chi)) as [C3 S3].
    { transitivity (P / (chi * chi)); [unfold P; field; lra | rewrite S; field; nra]. }
    split; [| split; [apply arctan2_range | split; [| apply arctan2_range]]].
    + unfold bunge, rotz, rotx, mprod, rot_matrix, col0, col1, col2, sprod; cbn [vx vy vz r0 r1 r2].
      rewrite C1, S1, C2, S2, C3, S3.
      assert (NP : P <> 0) by nra.
      assert (D : forall A B C0, (A / chi) * (B / chi) = C0 <-> A * B = C0 * P).
      { intros A B C0. rewrite <- S. split; intros K.
        - rewrite <- K. field. lra.
        - apply (Rmult_eq_reg_r (chi * chi)); [|nra]. rewrite <- K. field. lra. }
      assert (D2 : forall A B A' B' k l C0,
        A * B * l + A' * B' * k = C0 * P -> (A / chi) * (B / chi) * l + (A' / chi) * (B' / chi) * k = C0).
      { intros. apply (Rmult_eq_reg_r P); [|auto]. rewrite <- H0. rewrite <- S. field. lra. }
      f_equal; f_equal.
      1: { match goal with |- ?l = ?r => transitivity
             ((- q0 * q1 + q2 * q3) / chi * ((- q0 * q1 - q2 * q3) / chi) * 1 +
              (q1 * q3 + q0 * q2) / chi * ((- q0 * q2 + q1 * q3) / chi) * (- (q0 ^ 2 + q3 ^ 2 - q1 ^ 2 - q2 ^ 2))) end; [ring|].
           apply D2. rewrite <- U. unfold P; ring. }
      1: { transitivity
             ((- q0 * q1 + q2 * q3) / chi * ((- q0 * q2 + q1 * q3) / chi) * 1 +
              (q1 * q3 + q0 * q2) / chi * ((- q0 * q1 - q2 * q3) / chi) * ((q0 ^ 2 + q3 ^ 2 - q1 ^ 2 - q2 ^ 2))); [ring|].
           apply D2. rewrite <- U. unfold P; ring. }
      1: { field; lra. }
      1: { transitivity
             ((q1 * q3 + q0 * q2) / chi * ((- q0 * q1 - q2 * q3) / chi) * (-(1)) +
              (- q0 * q1 + q2 * q3) / chi * ((- q0 * q2 + q1 * q3) / chi) * (- (q0 ^ 2 + q3 ^ 2 - q1 ^ 2 - q2 ^ 2))); [ring|].
           apply D2. rewrite <- U. unfold P; ring. }
      1: { transitivity
             ((q1 * q3 + q0 * q2) / chi * ((- q0 * q2 + q1 * q3) / chi) * (-(1)) +
              (- q0 * q1 + q2 * q3) / chi * ((- q0 * q1 - q2 * q3) / chi) * ((q0 ^ 2 + q3 ^ 2 - q1 ^ 2 - q2 ^ 2))); [ring|].
           apply D2. rewrite <- U. unfold P; ring. }
      all: try (field; lra).
    + pose proof (arctan2_range (2 * chi) (q0 ^ 2 + q3 ^ 2 - q1 ^ 2 - q2 ^ 2)) as Rg.
      split; [|lra]. set (t := arctan2 (2 * chi) _) in *.
      destruct (Rle_dec 0 t); auto. exfalso.
      assert (sin t < 0); [|lra]. rewrite <- (Ropp_involutive t), sin_neg.
      assert (0 < sin (- t)); [apply sin_gt_0; lra | lra].
Qed.

Lemma euler_angles_spec : forall q a b c, unitq q -> euler_angles q = (a, b, c) ->
  (0 <= a < 2 * PI /\ 0 <= b <= PI /\ 0 <= c < 2 * PI) /\
  same_rot (from_euler_angles a b c) q.
Proof.
  intros q a b c U E. rewrite euler_angles_raw in E.
  destruct (raw_angles q) as [[a' b'] c'] eqn:K. injection E as <- <- <-.
  destruct (raw_angles_bunge q a' b' c' U K) as (B & Ra & Rb & Rc).
  split; [auto using wrap_range|].
  apply rot_inj; auto using euler_unit. rewrite euler_bunge, <- B.
  destruct (wrap_cs a') as [A1 A2], (wrap_cs c') as [A3 A4].
  apply bunge_entries; auto.
Qed.

(** *** axis-angle *)
Lemma axis_angle_spec : forall v t, v <> V3 0 0 0 ->
  exists q, from_axis_angle v t = Some q /\ unitq q /\ qw q = Rabs (cos (t / 2)) /\
    mapply (rot_matrix q) v = v /\
    exists n, sprod n n = 1 /\ (exists k, 0 < k /\ v = V3 (k * vx n) (k * vy n) (k * vz n)) /\
      same_rot q (Q4 (cos (t / 2)) (- sin (t / 2) * vx n) (- sin (t / 2) * vy n) (- sin (t / 2) * vz n)).
Proof.
  intros [x y z] t NZ. unfold from_axis_angle.
  set (m := sqrt (vdot _ _)).
  assert (P : 0 < x * x + y * y + z * z).
  { destruct (Req_dec x 0), (Req_dec y 0), (Req_dec z 0); subst; try nra. congruence. }
  assert (M : m * m = x * x + y * y + z * z) by (apply sqrt_sqrt; unfold vdot; cbn; lra).
  assert (M0 : 0 < m) by (apply sqrt_lt_R0; unfold vdot; cbn; lra).
  destruct (Req_EM_T m 0); [lra|]. clearbody m.
  assert (N : sprod (V3 (x / m) (y / m) (z / m)) (V3 (x / m) (y / m) (z / m)) = 1).
  { unfold sprod; cbn. transitivity ((x*x+y*y+z*z)/(m*m)); [field; lra|]. rewrite <- M. field. lra. }
  eexists; split; [reflexivity|]. unfold vscale; cbn [vx vy vz].
  set (raw := Q4 _ _ _ _).
  assert (SR : same_rot (Quat false raw) raw) by apply Quat_same.
  assert (UR : unitq raw).
  { pose proof (cs1 (t / 2)) as CS. unfold raw, unitq; cbn [qw qx qy qz].
    unfold sprod in N; cbn in N.
    transitivity (cos (t / 2) * cos (t / 2) +
      (sin (t / 2) * sin (t / 2)) * (x / m * (x / m) + y / m * (y / m) + z / m * (z / m))); [ring|].
    rewrite N. lra. }
  split; [eauto using same_rot_unit|]. split; [|split].
  - unfold Quat. destruct (Rlt_dec (qw raw) 0) as [L|L]; unfold raw in *; cbn in *.
    + now rewrite Rabs_left.
    + rewrite Rabs_pos_eq; lra.
  - rewrite (rot_same _ _ SR).
    unfold unitq in UR. unfold raw in *. cbn [qw qx qy qz] in UR.
    set (C := cos (t / 2)) in *. set (S := - sin (t / 2)) in *.
    unfold mapply, rot_matrix, sprod; cbn [vx vy vz r0 r1 r2].
    set (X := x / m) in *. set (Y := y / m) in *. set (Z := z / m) in *.
    assert (x = X * m) by (unfold X; field; lra).
    assert (y = Y * m) by (unfold Y; field; lra).
    assert (z = Z * m) by (unfold Z; field; lra).
    clearbody X Y Z C S. subst x y z.
    f_equal.
    + transitivity (X * m * (C*C+S*X*(S*X)+S*Y*(S*Y)+S*Z*(S*Z))); [ring | rewrite UR; ring].
    + transitivity (Y * m * (C*C+S*X*(S*X)+S*Y*(S*Y)+S*Z*(S*Z))); [ring | rewrite UR; ring].
    + transitivity (Z * m * (C*C+S*X*(S*X)+S*Y*(S*Y)+S*Z*(S*Z))); [ring | rewrite UR; ring].
  - exists (V3 (x / m) (y / m) (z / m)). split; [exact N|]. split; [|exact SR].
    exists m. split; [lra|]. cbn. f_equal; field; lra.
Qed.

(** Angles to quaternion and back. *)
Lemma cs_inj : forall x y, 0 <= x < 2 * PI -> 0 <= y < 2 * PI ->
  cos x = cos y -> sin x = sin y -> x = y.
Proof.
  intros x y Hx Hy C S.
  assert (E : cos (x - y) = 1) by (rewrite cos_minus, C, S; pose proof (cs1 y); lra).
  set (d := (x - y) / 2).
  assert (Z : sin d * sin d = 0).
  { rewrite (cos_half (x - y)) in E. fold d in E. pose proof (cs1 d). lra. }
  assert (Z' : sin d = 0) by (apply Rmult_integral in Z; tauto).
  assert (d = 0); [|unfold d in *; lra].
  destruct (Rtotal_order d 0) as [L|[L|L]]; auto; exfalso.
  - assert (0 < sin (- d)) by (apply sin_gt_0; unfold d in *; lra). rewrite sin_neg in H. lra.
  - assert (0 < sin d) by (apply sin_gt_0; unfold d in *; lra). lra.
Qed.
Lemma bunge_last : forall a b c,
  vz (r2 (bunge a b c)) = cos b /\ vx (r2 (bunge a b c)) = sin b * sin a /\
  vy (r2 (bunge a b c)) = - sin b * cos a /\
  vz (r0 (bunge a b c)) = sin b * sin c /\ vz (r1 (bunge a b c)) = sin b * cos c.
Proof.
  intros. unfold bunge, rotz, rotx, mprod, col0, col1, col2, sprod; cbn [vx vy vz r0 r1 r2].
  repeat split; ring.
Qed.
Lemma bunge_inj : forall a b c a' b' c',
  0 <= a < 2 * PI -> 0 < b < PI -> 0 <= c < 2 * PI ->
  0 <= a' < 2 * PI -> 0 <= b' <= PI -> 0 <= c' < 2 * PI ->
  bunge a b c = bunge a' b' c' -> a = a' /\ b = b' /\ c = c'.
Proof.
  intros a b c a' b' c' Ha Hb Hc Ha' Hb' Hc' E.
  destruct (bunge_last a b c) as (E1 & E2 & E3 & E4 & E5).
  destruct (bunge_last a' b' c') as (F1 & F2 & F3 & F4 & F5).
  rewrite E in E1, E2, E3, E4, E5.
  assert (B : b = b') by (apply cos_inj; lra).
  subst b'. assert (S : 0 < sin b) by (apply sin_gt_0; lra).
  split; [apply cs_inj; auto; apply (Rmult_eq_reg_l (sin b)); lra|].
  split; auto. apply cs_inj; auto; apply (Rmult_eq_reg_l (sin b)); lra.
Qed.
Lemma euler_round : forall a b c,
  0 <= a < 2 * PI -> 0 < b < PI -> 0 <= c < 2 * PI ->
  euler_angles (from_euler_angles a b c) = (a, b, c).
Proof.
  intros a b c Ha Hb Hc.
  destruct (euler_angles (from_euler_angles a b c)) as [[a' b'] c'] eqn:E.
  destruct (euler_angles_spec _ a' b' c' (euler_unit a b c) E) as ((Ra & Rb & Rc) & S).
  apply rot_same in S. rewrite !euler_bunge in S.
  destruct (bunge_inj a b c a' b' c') as (-> & -> & ->); auto.
Qed.
