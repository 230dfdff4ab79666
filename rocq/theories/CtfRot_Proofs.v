(** Orientations whose Euler angles are close are close. *)
From Coq Require Import Reals Lra.
From Coq Require Import List ZArith Lia.
Import ListNotations.
From Verif Require Import Crystal_Model CrystalMat_Proofs Quat_Model Quat_Spec Quat_Proofs QuatSym_Proofs QuatEuler_Proofs
  Dic_Proofs Ctf_Model Ctf_Spec Ctf_Proofs.
Open Scope R_scope.

Lemma raw_inner a b c a' b' c' : inner (raw_euler a b c) (raw_euler a' b' c') =
  cos (b / 2) * cos (b' / 2) * cos ((a + c - (a' + c')) / 2) +
  sin (b / 2) * sin (b' / 2) * cos ((a - c - (a' - c')) / 2).
Proof.
  unfold inner, raw_euler. cbn [qw qx qy qz].
  replace ((a + c - (a' + c')) / 2) with ((a + c) / 2 - (a' + c') / 2) by field.
  replace ((a - c - (a' - c')) / 2) with ((a - c) / 2 - (a' - c') / 2) by field.
  rewrite !cos_minus. ring.
Qed.
Lemma cos_small x t : Rabs x <= t -> t <= PI / 2 -> cos t <= cos x.
Proof.
  intros A B. assert (E : cos x = cos (Rabs x)).
  { unfold Rabs. destruct (Rcase_abs x); [now rewrite cos_neg | auto]. }
  rewrite E. pose proof (Rabs_pos x). pose proof PI_RGT_0. apply cos_decr_1; lra.
Qed.

Theorem euler_close a b c a' b' c' t u : 0 <= b <= PI -> 0 <= b' <= PI ->
  Rabs (a - a') + Rabs (c - c') <= 2 * t -> Rabs (b - b') <= 2 * u -> t + u <= PI / 2 ->
  cos (t + u) <= Rabs (inner (from_euler_angles a b c) (from_euler_angles a' b' c')).
Proof.
  intros B B' T U TU. pose proof PI_RGT_0 as PP.
  assert (T0 : 0 <= t) by (pose proof (Rabs_pos (a - a')); pose proof (Rabs_pos (c - c')); lra).
  assert (U0 : 0 <= u) by (pose proof (Rabs_pos (b - b')); lra).
  rewrite (Rabs_inner_same _ (raw_euler a b c) _ (raw_euler a' b' c')) by apply Quat_same.
  apply Rle_trans with (2 := Rle_abs _). rewrite raw_inner.
  assert (C1 : cos t <= cos ((a + c - (a' + c')) / 2)).
  { apply cos_small; [|lra]. unfold Rdiv. rewrite Rabs_mult, (Rabs_right (/ 2)) by lra.
    replace (a + c - (a' + c')) with ((a - a') + (c - c')) by ring. pose proof (Rabs_triang (a - a') (c - c')). lra. }
  assert (C2 : cos t <= cos ((a - c - (a' - c')) / 2)).
  { apply cos_small; [|lra]. unfold Rdiv. rewrite Rabs_mult, (Rabs_right (/ 2)) by lra.
    replace (a - c - (a' - c')) with ((a - a') + - (c - c')) by ring. pose proof (Rabs_triang (a - a') (- (c - c'))) as H.
    rewrite Rabs_Ropp in H. lra. }
  assert (S1 : 0 <= cos (b / 2)) by (apply cos_ge_0; lra).
  assert (S2 : 0 <= cos (b' / 2)) by (apply cos_ge_0; lra).
  assert (S3 : 0 <= sin (b / 2)) by (apply sin_ge_0; lra).
  assert (S4 : 0 <= sin (b' / 2)) by (apply sin_ge_0; lra).
  assert (D : cos u <= cos (b / 2 - b' / 2)).
  { apply cos_small; [|lra]. replace (b / 2 - b' / 2) with ((b - b') * / 2) by field.
    rewrite Rabs_mult, (Rabs_right (/ 2)) by lra. lra. }
  rewrite cos_minus in D.
  assert (ct : 0 <= cos t) by (apply cos_ge_0; lra).
  assert (st : 0 <= sin t) by (apply sin_ge_0; lra). assert (su : 0 <= sin u) by (apply sin_ge_0; lra).
  rewrite cos_plus.
  apply Rle_trans with (cos t * cos u); [nra|].
  apply Rle_trans with (cos t * (cos (b / 2) * cos (b' / 2) + sin (b / 2) * sin (b' / 2))).
  { apply Rmult_le_compat_l; auto. }
  assert (0 <= cos (b / 2) * cos (b' / 2)) by nra. assert (0 <= sin (b / 2) * sin (b' / 2)) by nra. nra.
Qed.

(** *** Rounded angles *)
Lemma rounded_deg_close k x y : rounded_deg k x y -> Rabs (x - y) <= / 2 / 10 ^ k * (PI / 180).
Proof.
  intros (d & (_ & C) & ->). pose proof PI_RGT_0 as PP.
  replace (x - d * PI / 180) with ((d - x * 180 / PI) * - (PI / 180)) by (field; lra).
  rewrite Rabs_mult, Rabs_Ropp, (Rabs_right (PI / 180)) by lra.
  apply Rmult_le_compat_r; [lra|]. replace (1 / 2) with (/ 2) in C by lra. exact C.
Qed.
Lemma rounded_deg_range k x y : rounded_deg k x y -> 0 <= x <= PI -> 0 <= y <= PI.
Proof.
  intros (d & ((n & ->) & C) & ->) [A B]. pose proof PI_RGT_0 as PP.
  assert (P : 0 < 10 ^ k) by (apply pow_lt; lra).
  assert (X : 0 <= x * 180 / PI <= 180).
  { split; [apply Rmult_le_pos; [lra|apply Rlt_le, Rinv_0_lt_compat, PP]|].
    apply Rmult_le_reg_r with PI; auto. unfold Rdiv. rewrite Rmult_assoc, Rinv_l by lra. lra. }
  set (z := x * 180 / PI) in *. clearbody z.
  assert (C' : Rabs (IZR n - z * 10 ^ k) <= / 2).
  { replace (IZR n - z * 10 ^ k) with ((IZR n / 10 ^ k - z) * 10 ^ k) by (field; lra).
    rewrite Rabs_mult, (Rabs_right (10 ^ k)) by lra.
    replace (/ 2) with (1 / 2 / 10 ^ k * 10 ^ k) by (field; lra). apply Rmult_le_compat_r; lra. }
  assert (L : (0 <= n)%Z).
  { assert (-1 < n)%Z; [|lia]. apply lt_IZR. assert (0 <= z * 10 ^ k) by nra. unfold Rabs in C'. destruct (Rcase_abs _) in C'; lra. }
  assert (Hi : IZR n <= 180 * 10 ^ k).
  { assert (E : 180 * 10 ^ k = IZR (180 * 10 ^ Z.of_nat k)) by (rewrite mult_IZR, <- pow_IZR; reflexivity).
    rewrite E. apply IZR_le. assert (n < 180 * 10 ^ Z.of_nat k + 1)%Z; [|lia]. apply lt_IZR. rewrite plus_IZR, <- E.
    assert (z * 10 ^ k <= 180 * 10 ^ k) by nra. unfold Rabs in C'. destruct (Rcase_abs _) in C'; lra. }
  apply IZR_le in L. assert (D : 0 <= IZR n / 10 ^ k <= 180).
  { split; [apply Rmult_le_pos; auto; apply Rlt_le, Rinv_0_lt_compat, P|].
    apply Rmult_le_reg_r with (10 ^ k); auto. unfold Rdiv. rewrite Rmult_assoc, Rinv_l by lra. lra. }
  set (w := IZR n / 10 ^ k) in *. clearbody w. split; nra.
Qed.

(** Three angles kept to three decimals of a degree move an orientation by at most
    three half thousandths of a degree. *)
Theorem rounded_rotation q e1 e2 e3 f1 f2 f3 : unitq q -> euler_angles q = (e1, e2, e3) ->
  rounded_deg 3 e1 f1 -> rounded_deg 3 e2 f2 -> rounded_deg 3 e3 f3 ->
  rot_angle (from_euler_angles f1 f2 f3) q <= 3 * / 2000 * (PI / 180).
Proof.
  intros U E R1 R2 R3. destruct (euler_angles_spec q e1 e2 e3 U E) as ((A & B & C) & S).
  pose proof (rounded_deg_close 3 e1 f1 R1) as D1. pose proof (rounded_deg_close 3 e2 f2 R2) as D2.
  pose proof (rounded_deg_close 3 e3 f3 R3) as D3. pose proof (rounded_deg_range 3 e2 f2 R2 B) as B'.
  pose proof PI_RGT_0 as PP. pose proof PI_4 as P4.
  set (w := / 2 / 10 ^ 3 * (PI / 180)) in *.
  assert (W : w = / 2000 * (PI / 180)) by (unfold w; lra).
  assert (CC : cos (w + w / 2) <= Rabs (inner (from_euler_angles f1 f2 f3) (from_euler_angles e1 e2 e3))).
  { apply euler_close; auto; rewrite ?(Rabs_minus_sym f1), ?(Rabs_minus_sym f2), ?(Rabs_minus_sym f3); lra. }
  rewrite (Rabs_inner_same _ _ _ q (same_rot_refl _) S) in CC.
  unfold rot_angle. assert (acos (Rabs (inner (from_euler_angles f1 f2 f3) q)) <= w + w / 2); [|lra].
  rewrite <- (acos_cos (w + w / 2)) by lra. apply acos_decr; auto.
  - pose proof (COS_bound (w + w / 2)). lra.
  - apply inner_bound; auto using euler_unit.
Qed.
