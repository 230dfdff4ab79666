(** C135: rotation matrices in double precision. *)
From Coq Require Import String Reals Lra Psatz.
From Coq Require Import List ZArith Bool Lia.
From Flocq Require Import Core IEEE754.BinarySingleNaN.
From Verif Require Import Py Quat_Model Quat_Spec Quat_Proofs Double_Model Double_Spec Double_Proofs Double_Angle Double_Props Strain64_Proofs Kam64_Model Kam64_Proofs Grod64_Proofs
  Average64_Spec Average64_Proofs Schmid64_Model Schmid64_Spec Schmid64_Proofs Trace64_Proofs Trace64_Props RotMat64_Model RotMat64_Spec.
Import ListNotations.
Open Scope R_scope.

Lemma sq_near sq x : good_square sq -> is_finite x = true -> B2R x * B2R x <= 5 / 4 -> ap (sq x) (B2R x * B2R x) (w 3) 2.
Proof.
  intros (G & _) F N. assert (B : Rabs (B2R x) <= 2) by (apply square_bound; [exact N|reflexivity]). destruct (G x F B) as (FS & E). pose proof (Rle_0_sqr (B2R x)) as P. unfold Rsqr in P.
  assert (T : / 2 ^ 1000 <= / 2 ^ 60) by (apply Rinv_le_contravar; [apply pow_lt; lra|apply Rle_pow; [lra|lia]]). pose proof u53_is as U.
  assert (E' : Rabs (B2R (sq x) - B2R x * B2R x) <= w 3). { apply Rle_trans with (1 := E). set (t := / 2 ^ 1000) in *. rewrite U. cbn [pow] in *. lra. }
  split; [exact FS|]. split; [exact E'|]. rewrite U in E'. apply Rabs_le_inv in E'. apply Rabs_le. lra.
Qed.

(** Each entry is a number, within 2^-47 of the one without rounding. *)
Theorem C135_matrix : forall sq, good_square sq -> forall q, sound q -> finite_m (rot_matrix_f sq q) /\ close_m (/ 2 ^ 47) (mvalue (rot_matrix_f sq q)) (rot_matrix (value q)).
Proof.
  intros sq G q ((F1 & F2 & F3 & F4) & N). unfold dot, value in N. cbn [qw qx qy qz] in N. destruct us as (U2 & U1 & U0). pose proof u53_is as U.
  pose proof (Rle_0_sqr (B2R (fw q))) as P1. pose proof (Rle_0_sqr (B2R (fx q))) as P2. pose proof (Rle_0_sqr (B2R (fy q))) as P3. pose proof (Rle_0_sqr (B2R (fz q))) as P4. unfold Rsqr in *.
  assert (M : forall x y, is_finite x = true -> is_finite y = true -> B2R x * B2R x + B2R y * B2R y <= 5 / 4 -> ap (fmul x y) (B2R x * B2R y) (w 1) 2).
  { intros x y X Y L. pose proof (Rle_0_sqr (B2R x)) as Q1. pose proof (Rle_0_sqr (B2R y)) as Q2. unfold Rsqr in *. assert (B : Rabs (B2R x * B2R y) <= bpow radix2 0). { change (bpow radix2 0) with 1. pose proof (Rle_0_sqr (B2R x - B2R y)) as S1. pose proof (Rle_0_sqr (B2R x + B2R y)) as S2. unfold Rsqr in *. apply Rabs_le. lra. }
    destruct (fmul_in 0 x y ltac:(lia) X Y B) as (FF & _ & E & BB). split; [exact FF|]. change (bpow radix2 0) with 1 in BB. change (0 - 54)%Z with (-54)%Z in E.
    split; [apply Rle_trans with (1 := E); rewrite U; unfold bpow; cbn [radix2 radix_val Z.pow_pos Pos.iter Z.mul Pos.mul]; lra|lra]. }
  assert (T2 : ap f2 2 0 2) by (destruct f2_is as (V & FF); rewrite <- V at 1; apply ap_exact; [exact FF|rewrite V, Rabs_pos_eq; lra]).
  assert (OFF : forall (s : bool) x y z t, is_finite x = true -> is_finite y = true -> is_finite z = true -> is_finite t = true -> B2R x * B2R x + B2R y * B2R y <= 5 / 4 -> B2R z * B2R z + B2R t * B2R t <= 5 / 4 ->
    is_finite (fmul f2 ((if s then fadd else fsub) (fmul x y) (fmul z t))) = true /\ Rabs (B2R (fmul f2 ((if s then fadd else fsub) (fmul x y) (fmul z t))) - 2 * ((if s then Rplus else Rminus) (B2R x * B2R y) (B2R z * B2R t))) <= / 2 ^ 47).
  { intros s x y z t X Y Z T L1 L2. pose proof (M x y X Y L1) as A. pose proof (M z t Z T L2) as B.
    assert (D : ap ((if s then fadd else fsub) (fmul x y) (fmul z t)) ((if s then Rplus else Rminus) (B2R x * B2R y) (B2R z * B2R t)) (w 4) 4).
    { destruct s; [pose proof (ap_add 2 _ _ _ _ _ _ _ _ ltac:(lia) A B ltac:(change (bpow radix2 2) with 4; lra)) as C|pose proof (ap_sub 2 _ _ _ _ _ _ _ _ ltac:(lia) A B ltac:(change (bpow radix2 2) with 4; lra)) as C];
      (apply ap_weak with (1 := C); [change (2 - 54)%Z with (-52)%Z; lra|change (bpow radix2 2) with 4; lra]). }
    pose proof (ap_mul 3 _ _ _ _ _ _ _ _ ltac:(lia) T2 D ltac:(rewrite Rabs_pos_eq; lra) ltac:(change (bpow radix2 3) with 8; lra)) as (FF & E & _). split; [exact FF|].
    apply Rle_trans with (1 := E). change (3 - 54)%Z with (-51)%Z. rewrite U. unfold bpow. cbn [pow radix2 radix_val Z.pow_pos Pos.iter Z.mul Pos.mul]. lra. }
  pose proof (sq_near sq _ G F1 ltac:(lra)) as A1. pose proof (sq_near sq _ G F2 ltac:(lra)) as A2. pose proof (sq_near sq _ G F3 ltac:(lra)) as A3. pose proof (sq_near sq _ G F4 ltac:(lra)) as A4.
  assert (QB : ap (qbar_f sq q) (B2R (fw q) * B2R (fw q) - B2R (fx q) * B2R (fx q) - B2R (fy q) * B2R (fy q) - B2R (fz q) * B2R (fz q)) (w 26) 16).
  { pose proof (ap_sub 2 _ _ _ _ _ _ _ _ ltac:(lia) A1 A2 ltac:(change (bpow radix2 2) with 4; lra)) as B1. change (bpow radix2 2) with 4 in B1.
    pose proof (ap_sub 3 _ _ _ _ _ _ _ _ ltac:(lia) B1 A3 ltac:(change (bpow radix2 3) with 8; lra)) as B2. change (bpow radix2 3) with 8 in B2.
    pose proof (ap_sub 4 _ _ _ _ _ _ _ _ ltac:(lia) B2 A4 ltac:(change (bpow radix2 4) with 16; lra)) as B3. change (bpow radix2 4) with 16 in B3.
    apply ap_weak with (1 := B3); [|lra]. change (2 - 54)%Z with (-52)%Z. change (3 - 54)%Z with (-51)%Z. change (4 - 54)%Z with (-50)%Z. rewrite U. unfold bpow. cbn [radix2 radix_val Z.pow_pos Pos.iter Z.mul Pos.mul]. lra. }
  assert (DI : forall y, ap (sq y) (B2R y * B2R y) (w 3) 2 -> is_finite (fadd (qbar_f sq q) (fmul f2 (sq y))) = true /\
     Rabs (B2R (fadd (qbar_f sq q) (fmul f2 (sq y))) - (B2R (fw q) * B2R (fw q) - B2R (fx q) * B2R (fx q) - B2R (fy q) * B2R (fy q) - B2R (fz q) * B2R (fz q) + 2 * (B2R y * B2R y))) <= / 2 ^ 47).
  { intros y Y. pose proof (ap_mul 2 _ _ _ _ _ _ _ _ ltac:(lia) T2 Y ltac:(rewrite Rabs_pos_eq; lra) ltac:(change (bpow radix2 2) with 4; lra)) as D. change (bpow radix2 2) with 4 in D.
    pose proof (ap_add 5 _ _ _ _ _ _ _ _ ltac:(lia) QB D ltac:(change (bpow radix2 5) with 32; lra)) as (FF & E & _). split; [exact FF|]. apply Rle_trans with (1 := E).
    change (2 - 54)%Z with (-52)%Z. change (5 - 54)%Z with (-49)%Z. rewrite U. unfold bpow. cbn [pow radix2 radix_val Z.pow_pos Pos.iter Z.mul Pos.mul]. lra. }
  assert (S1 : forall x, x ^ 2 = x * x) by (intros; ring).
  unfold finite_m, close_m, finite3, close3, mvalue, vvalue, rot_matrix_f, rot_matrix, value. cbn [row0 row1 row2 f_x f_y f_z r0 r1 r2 vx vy vz]. rewrite !S1.
  pose proof (DI _ A2) as (X1 & Y1). pose proof (DI _ A3) as (X2 & Y2). pose proof (DI _ A4) as (X3 & Y3).
  destruct (OFF false (fx q) (fy q) (fw q) (fz q)) as (V1 & W1); try assumption; try lra. destruct (OFF true (fx q) (fz q) (fw q) (fy q)) as (V2 & W2); try assumption; try lra.
  destruct (OFF true (fx q) (fy q) (fw q) (fz q)) as (V3 & W3); try assumption; try lra. destruct (OFF false (fy q) (fz q) (fw q) (fx q)) as (V4 & W4); try assumption; try lra.
  destruct (OFF false (fx q) (fz q) (fw q) (fy q)) as (V5 & W5); try assumption; try lra. destruct (OFF true (fy q) (fz q) (fw q) (fx q)) as (V6 & W6); try assumption; try lra.
  tauto.
Qed.
Print Assumptions C135_matrix.

(** Products of nearby numbers. *)
Lemma prod_near a a' b b' c d e f : Rabs (a - a') <= e -> Rabs (b - b') <= f -> Rabs a <= c -> Rabs b' <= d -> Rabs (a * b - a' * b') <= c * f + d * e.
Proof.
  intros A B C D. replace (a * b - a' * b') with (a * (b - b') + b' * (a - a')) by ring. apply Rle_trans with (1 := Rabs_triang _ _). rewrite !Rabs_mult.
  apply Rplus_le_compat; apply Rmult_le_compat; auto using Rabs_pos.
Qed.
(** Scaled rotations: rows of length [dot q q]. *)
Lemma rows_exact q : let m := rot_matrix q in let n := dot q q in
  sprod (r0 m) (r0 m) = n * n /\ sprod (r1 m) (r1 m) = n * n /\ sprod (r2 m) (r2 m) = n * n /\ sprod (r0 m) (r1 m) = 0 /\ sprod (r0 m) (r2 m) = 0 /\ sprod (r1 m) (r2 m) = 0 /\ det m = n * n * n.
Proof.
  destruct q as [a b c d]. unfold det, xprod, sprod, dot, rot_matrix. cbn [qw qx qy qz r0 r1 r2 vx vy vz]. repeat split; ring.
Qed.
Lemma sprod_near a b a' b' : Rabs (vx a) <= 2 -> Rabs (vy a) <= 2 -> Rabs (vz a) <= 2 -> Rabs (vx b') <= 2 -> Rabs (vy b') <= 2 -> Rabs (vz b') <= 2 ->
  forall e, close3 e a a' -> close3 e b b' -> Rabs (sprod a b - sprod a' b') <= 12 * e.
Proof.
  intros A1 A2 A3 B1 B2 B3 e (E1 & E2 & E3) (D1 & D2 & D3). unfold sprod.
  pose proof (prod_near _ _ _ _ _ _ _ _ E1 D1 A1 B1) as X. pose proof (prod_near _ _ _ _ _ _ _ _ E2 D2 A2 B2) as Y. pose proof (prod_near _ _ _ _ _ _ _ _ E3 D3 A3 B3) as Z.
  apply Rabs_le_inv in X. apply Rabs_le_inv in Y. apply Rabs_le_inv in Z. apply Rabs_le. lra.
Qed.

(** For a quaternion of length one up to 2^-41 the matrix is a rotation up to 2^-38: rows are of length one and
    perpendicular, and the determinant is one. *)
Theorem C135_rotation : forall sq, good_square sq -> forall q, near_unit (/ 2 ^ 41) q ->
  let m := mvalue (rot_matrix_f sq q) in close_m (/ 2 ^ 38) (mprod m (transpose m)) mone /\ Rabs (det m - 1) <= / 2 ^ 38.
Proof.
  intros sq G q N m. assert (SQ : sound q) by (apply near_sound with (2 := N); cbn [pow]; lra). destruct (C135_matrix sq G q SQ) as (_ & (C0 & C1 & C2)). fold m in C0, C1, C2.
  destruct N as (_ & N). set (n := dot (value q) (value q)) in *. pose proof (rows_exact (value q)) as RE. cbv zeta in RE. fold n in RE. set (t := rot_matrix (value q)) in *.
  destruct RE as (L0 & L1 & L2 & O1 & O2 & O3 & D). apply Rabs_le_inv in N. set (e := / 2 ^ 47) in *. assert (E : / 2 ^ 41 = 64 * e) by (unfold e; cbn [pow]; lra). assert (E8 : / 2 ^ 38 = 512 * e) by (unfold e; cbn [pow]; lra).
  assert (E0 : 0 < e <= / 1000000) by (unfold e; cbn [pow]; lra). rewrite E in N. rewrite E8. assert (NN : Rabs (n * n - 1) <= 129 * e) by (apply Rabs_le; nra). assert (N3 : Rabs (n * n * n - 1) <= 194 * e) by (apply Rabs_le; nra).
  assert (BN : n * n <= 11 / 10 * (11 / 10)) by nra.
  assert (BR : forall v, sprod v v = n * n -> Rabs (vx v) <= 11 / 10 /\ Rabs (vy v) <= 11 / 10 /\ Rabs (vz v) <= 11 / 10) by (intros v H; apply comp_bound; [change (vdot v v) with (sprod v v); lra|lra]).
  assert (BM : forall v v', sprod v' v' = n * n -> close3 e v v' -> Rabs (vx v) <= 2 /\ Rabs (vy v) <= 2 /\ Rabs (vz v) <= 2).
  { intros v v' H (Q1 & Q2 & Q3). destruct (BR v' H) as (B1 & B2 & B3). apply Rabs_le_inv in Q1, Q2, Q3, B1, B2, B3. repeat split; apply Rabs_le; lra. }
  assert (SP : forall a a' b b', sprod a' a' = n * n -> sprod b' b' = n * n -> close3 e a a' -> close3 e b b' -> Rabs (sprod a b - sprod a' b') <= 12 * e).
  { intros a a' b b' HA HB CA CB. destruct (BM a a' HA CA) as (M1 & M2 & M3). destruct (BR b' HB) as (B1 & B2 & B3). apply sprod_near; try assumption; lra. }
  assert (SY : forall a b, sprod a b = sprod b a) by (intros; unfold sprod; ring).
  split.
  - assert (DG : forall a a', sprod a' a' = n * n -> close3 e a a' -> Rabs (sprod a a - 1) <= 512 * e).
    { intros a a' H C. pose proof (SP a a' a a' H H C C) as S1. rewrite H in S1. apply Rabs_le_inv in S1, NN. apply Rabs_le. lra. }
    assert (OD : forall a a' b b', sprod a' a' = n * n -> sprod b' b' = n * n -> sprod a' b' = 0 -> close3 e a a' -> close3 e b b' -> Rabs (sprod a b - 0) <= 512 * e).
    { intros a a' b b' HA HB Z CA CB. pose proof (SP a a' b b' HA HB CA CB) as S1. rewrite Z in S1. lra. }
    assert (T0 : col0 (transpose m) = r0 m) by (destruct m as [[? ? ?] [? ? ?] [? ? ?]]; reflexivity). assert (T1 : col1 (transpose m) = r1 m) by (destruct m as [[? ? ?] [? ? ?] [? ? ?]]; reflexivity).
    assert (T2 : col2 (transpose m) = r2 m) by (destruct m as [[? ? ?] [? ? ?] [? ? ?]]; reflexivity).
    unfold mprod, mone. rewrite T0, T1, T2. unfold close_m, close3 at 1 2 3. cbn [r0 r1 r2 vx vy vz].
    assert (O1' : sprod (r1 t) (r0 t) = 0) by now rewrite SY. assert (O2' : sprod (r2 t) (r0 t) = 0) by now rewrite SY. assert (O3' : sprod (r2 t) (r1 t) = 0) by now rewrite SY.
    repeat split; eauto.
  - assert (XP : forall a a' b b', sprod a' a' = n * n -> sprod b' b' = n * n -> close3 e a a' -> close3 e b b' -> close3 (8 * e) (xprod a b) (xprod a' b') /\ Rabs (vx (xprod a' b')) <= 3 /\ Rabs (vy (xprod a' b')) <= 3 /\ Rabs (vz (xprod a' b')) <= 3).
    { intros a a' b b' HA HB CA CB. destruct (BM a a' HA CA) as (M1 & M2 & M3'). destruct (BR b' HB) as (B1 & B2 & B3). destruct (BR a' HA) as (A1 & A2 & A3). destruct CA as (X1 & X2 & X3), CB as (Y1 & Y2 & Y3).
      assert (PP : forall u v, Rabs u <= 11 / 10 -> Rabs v <= 11 / 10 -> Rabs (u * v) <= 3 / 2) by (intros u v Hu Hv; rewrite Rabs_mult; apply Rle_trans with (11 / 10 * (11 / 10)); [apply Rmult_le_compat; auto using Rabs_pos|lra]).
      assert (DF : forall p p' r r', Rabs (p - p') <= 4 * e -> Rabs (r - r') <= 4 * e -> Rabs (p - r - (p' - r')) <= 8 * e) by (intros p p' r r' H1 H2; apply Rabs_le_inv in H1, H2; apply Rabs_le; lra).
      assert (DB : forall p r, Rabs p <= 3 / 2 -> Rabs r <= 3 / 2 -> Rabs (p - r) <= 3) by (intros p r H1 H2; apply Rabs_le_inv in H1, H2; apply Rabs_le; lra).
      assert (PN : forall u u' v v', Rabs (u - u') <= e -> Rabs (v - v') <= e -> Rabs u <= 2 -> Rabs v' <= 11 / 10 -> Rabs (u * v - u' * v') <= 4 * e).
      { intros u u' v v' H1 H2 H3 H4. assert (H5 : Rabs v' <= 2) by lra. pose proof (prod_near _ _ _ _ _ _ _ _ H1 H2 H3 H5). lra. }
      unfold close3, xprod. cbn [vx vy vz]. repeat split; first [apply DF; apply PN; assumption|apply DB; apply PP; assumption]. }
    destruct (XP _ _ _ _ L1 L2 C1 C2) as ((X1 & X2 & X3) & Y1 & Y2 & Y3). destruct (BM _ _ L0 C0) as (M1 & M2 & M3'). destruct C0 as (Z1 & Z2 & Z3). unfold det in *. unfold sprod in *.
    pose proof (prod_near _ _ _ _ _ _ _ _ Z1 X1 M1 Y1) as P1. pose proof (prod_near _ _ _ _ _ _ _ _ Z2 X2 M2 Y2) as P2. pose proof (prod_near _ _ _ _ _ _ _ _ Z3 X3 M3' Y3) as P3.
    apply Rabs_le_inv in P1, P2, P3, N3. apply Rabs_le. lra.
Qed.
Print Assumptions C135_rotation.

(** The matrix agrees with [transform_vector] of the same quaternion. *)
Theorem C135_transform : forall sq dot3, good_square sq -> any_order3 dot3 -> forall q v, sound q -> 0 <= B2R (fw q) -> sound3 v ->
  close3 (/ 2 ^ 43) (mapply (mvalue (rot_matrix_f sq q)) (vvalue v)) (vvalue (transform_f dot3 q v)).
Proof.
  intros sq dot3 G D q v SQ W SV. destruct (C135_matrix sq G q SQ) as (_ & (C0 & C1 & C2)). set (m := mvalue (rot_matrix_f sq q)) in *.
  destruct (transform_near dot3 q v D SQ SV) as (_ & (_ & X & _) & (_ & Y & _) & (_ & Z & _)). cbv zeta in X, Y, Z. rewrite (transform_north (value q) (vvalue v) W) in X, Y, Z. rewrite u53_is in *.
  set (t := rot_matrix (value q)) in *. set (u := vvalue v) in *. destruct SV as (_ & NV). fold u in NV. destruct (comp_bound u (3 / 2) ltac:(lra) ltac:(lra)) as (V1 & V2 & V3').
  assert (SP : forall a a', close3 (/ 2 ^ 47) a a' -> Rabs (sprod a u - sprod a' u) <= 9 / 2 * (/ 2 ^ 47)).
  { intros a a' (E1 & E2 & E3). replace (sprod a u - sprod a' u) with ((vx a - vx a') * vx u + (vy a - vy a') * vy u + (vz a - vz a') * vz u) by (unfold sprod; ring). set (e := / 2 ^ 47) in *.
    assert (P : forall x y, Rabs x <= e -> Rabs y <= 3 / 2 -> Rabs (x * y) <= e * (3 / 2)) by (intros x y H1 H2; rewrite Rabs_mult; apply Rmult_le_compat; auto using Rabs_pos).
    pose proof (P _ _ E1 V1) as Q1. pose proof (P _ _ E2 V2) as Q2. pose proof (P _ _ E3 V3') as Q3. apply Rabs_le_inv in Q1, Q2, Q3. apply Rabs_le. lra. }
  pose proof (SP _ _ C0) as S0. pose proof (SP _ _ C1) as S1. pose proof (SP _ _ C2) as S2. unfold mapply in *. cbn [vx vy vz] in *. unfold close3. cbn [vx vy vz vvalue]. cbn [pow] in *.
  apply Rabs_le_inv in S0, S1, S2, X, Y, Z. repeat split; apply Rabs_le; lra.
Qed.
Print Assumptions C135_transform.

(** A quaternion and its opposite, which is the same rotation, have the same matrix, to the last bit. *)
Lemma mul_opp a b : fmul (fneg a) (fneg b) = fmul a b.
Proof.
  apply B2SF_inj. unfold fmul, fneg. destruct a as [s|s| |s m e H], b as [t|t| |t n f K]; cbn [Bopp Bmult B2SF]; try reflexivity; rewrite ?B2SF_SF2B; try destruct s; try destruct t; reflexivity.
Qed.
Theorem C135_opposite : forall sq, good_square sq -> forall q, rot_matrix_f sq (fqneg q) = rot_matrix_f sq q.
Proof.
  intros sq (_ & G & _) q. unfold rot_matrix_f, qbar_f, fqneg. cbn [fw fx fy fz]. rewrite !G, !mul_opp. reflexivity.
Qed.
Print Assumptions C135_opposite.

(** The matrix of the inverse rotation has the entries of the transpose. *)
Theorem C135_inverse : forall sq, good_square sq -> forall q, sound q -> mvalue (rot_matrix_f sq (conjugate_f q)) = transpose (mvalue (rot_matrix_f sq q)).
Proof.
  intros sq G q SQ.
  assert (C : rot_matrix_f sq (conjugate_f q) = rot_matrix_f sq (F4 (fw q) (fneg (fx q)) (fneg (fy q)) (fneg (fz q)))).
  { unfold conjugate_f. cbv zeta. destruct (flt _ _); [apply (C135_opposite sq G)|reflexivity]. }
  rewrite C. destruct SQ as ((F1 & F2 & F3 & F4') & N). unfold dot, value in N. cbn [qw qx qy qz] in N.
  pose proof (Rle_0_sqr (B2R (fw q))) as P1. pose proof (Rle_0_sqr (B2R (fx q))) as P2. pose proof (Rle_0_sqr (B2R (fy q))) as P3. pose proof (Rle_0_sqr (B2R (fz q))) as P4. unfold Rsqr in *.
  destruct G as (_ & G & _).
  unfold rot_matrix_f, qbar_f, mvalue, vvalue, transpose, col0, col1, col2. cbn [row0 row1 row2 f_x f_y f_z r0 r1 r2 vx vy vz fw fx fy fz]. rewrite !G, !mul_opp.
  assert (M : forall x y, is_finite x = true -> is_finite y = true -> B2R x * B2R x + B2R y * B2R y <= 5 / 4 ->
    is_finite (fmul x y) = true /\ B2R (fmul x y) = rnd (B2R x * B2R y) /\ Rabs (B2R (fmul x y)) <= 1 /\ is_finite (fmul x (fneg y)) = true /\ B2R (fmul x (fneg y)) = - B2R (fmul x y)).
  { intros x y X Y L. pose proof (Rle_0_sqr (B2R x)) as Q1. pose proof (Rle_0_sqr (B2R y)) as Q2. unfold Rsqr in *. assert (B : Rabs (B2R x * B2R y) <= bpow radix2 0). { change (bpow radix2 0) with 1. pose proof (Rle_0_sqr (B2R x - B2R y)) as S1. pose proof (Rle_0_sqr (B2R x + B2R y)) as S2. unfold Rsqr in *. apply Rabs_le. lra. }
    destruct (fmul_in 0 x y ltac:(lia) X Y B) as (FF & V & _ & BB). assert (FY : is_finite (fneg y) = true) by (unfold fneg; now rewrite is_finite_Bopp). assert (VY : B2R (fneg y) = - B2R y) by (unfold fneg; now rewrite B2R_Bopp).
    destruct (fmul_in 0 x (fneg y) ltac:(lia) X FY) as (FF' & V' & _ & _); [rewrite VY, <- Ropp_mult_distr_r, Rabs_Ropp; exact B|]. split; [exact FF|]. split; [exact V|]. split; [exact BB|]. split; [exact FF'|].
    rewrite V', V, VY, <- Ropp_mult_distr_r. apply round_NE_opp. }
  assert (S1 : forall a b, is_finite a = true -> is_finite b = true -> Rabs (B2R a) <= 1 -> Rabs (B2R b) <= 1 ->
    is_finite (fadd a b) = true /\ is_finite (fsub a b) = true /\ B2R (fadd a b) = rnd (B2R a + B2R b) /\ B2R (fsub a b) = rnd (B2R a - B2R b) /\ Rabs (B2R (fadd a b)) <= 2 /\ Rabs (B2R (fsub a b)) <= 2).
  { intros a b A B HA HB. apply Rabs_le_inv in HA, HB. destruct (fadd_in 1 a b ltac:(lia) A B) as (X1 & X2 & _ & X3); [change (bpow radix2 1) with 2; apply Rabs_le; lra|]. destruct (fsub_in 1 a b ltac:(lia) A B) as (Y1 & Y2 & _ & Y3); [change (bpow radix2 1) with 2; apply Rabs_le; lra|]. repeat split; assumption. }
  assert (D : forall a b, is_finite a = true -> is_finite b = true -> B2R a = B2R b -> Rabs (B2R a) <= 2 -> B2R (fmul f2 a) = B2R (fmul f2 b)).
  { intros a b A B E L. destruct f2_is as (V & FV). assert (L' : Rabs (B2R f2 * B2R a) <= bpow radix2 2) by (rewrite V, Rabs_mult, (Rabs_pos_eq 2) by lra; change (bpow radix2 2) with 4; lra).
    destruct (fmul_in 2 f2 a ltac:(lia) FV A L') as (_ & V1 & _). rewrite E in L'. destruct (fmul_in 2 f2 b ltac:(lia) FV B L') as (_ & V2 & _). rewrite V1, V2, E. reflexivity. }
  assert (TW : forall x y z t, is_finite x = true -> is_finite y = true -> is_finite z = true -> is_finite t = true -> B2R x * B2R x + B2R y * B2R y <= 5 / 4 -> B2R z * B2R z + B2R t * B2R t <= 5 / 4 ->
    B2R (fmul f2 (fsub (fmul x y) (fmul z (fneg t)))) = B2R (fmul f2 (fadd (fmul x y) (fmul z t))) /\ B2R (fmul f2 (fadd (fmul x y) (fmul z (fneg t)))) = B2R (fmul f2 (fsub (fmul x y) (fmul z t)))).
  { intros x y z t X Y Z T L1 L2. destruct (M x y X Y L1) as (A1 & _ & A3 & _). destruct (M z t Z T L2) as (B1 & _ & B3 & B4 & B5).
    destruct (S1 _ _ A1 B1 A3 B3) as (C1 & C2 & C3 & C4 & C5 & C6). assert (B6 : Rabs (B2R (fmul z (fneg t))) <= 1) by (rewrite B5, Rabs_Ropp; exact B3). destruct (S1 _ _ A1 B4 A3 B6) as (D1 & D2 & D3 & D4 & D5 & D6).
    split; apply D; try assumption; rewrite ?C3, ?C4, ?D3, ?D4, B5; f_equal; ring. }
  destruct (TW (fx q) (fy q) (fw q) (fz q)) as (X1 & X2); try assumption; try lra. destruct (TW (fx q) (fz q) (fw q) (fy q)) as (X3 & X4); try assumption; try lra.
  destruct (TW (fy q) (fz q) (fw q) (fx q)) as (X5 & X6); try assumption; try lra. rewrite X1, X2, X3, X4, X5, X6. reflexivity.
Qed.
Print Assumptions C135_inverse.

(** Where one coefficient is nan, every entry is. *)
Theorem C135_nan : forall sq, good_square sq -> forall q, In B754_nan [fw q; fx q; fy q; fz q] -> all_nan (rot_matrix_f sq q).
Proof.
  intros sq (_ & _ & _ & _ & G) q H. unfold all_nan. cbv zeta.
  assert (A : forall x, fadd x B754_nan = B754_nan) by (intros; apply nan_add; now right). assert (A' : forall x, fadd B754_nan x = B754_nan) by (intros; apply nan_add; now left).
  assert (B : forall x, fsub x B754_nan = B754_nan) by (intros; apply nan_sub; now right). assert (B' : forall x, fsub B754_nan x = B754_nan) by (intros; apply nan_sub; now left).
  assert (C : forall x, fmul x B754_nan = B754_nan) by (intros; apply nan_mul; now right). assert (C' : forall x, fmul B754_nan x = B754_nan) by (intros; apply nan_mul; now left).
  destruct H as [H|[H|[H|[H|[]]]]]; unfold rot_matrix_f, qbar_f; rewrite H, ?G, ?C, ?C', ?A, ?A', ?B, ?B', ?A, ?A', ?C, ?C', ?A, ?A', ?B, ?B', ?A, ?A', ?C; reflexivity.
Qed.
Print Assumptions C135_nan.

(** No rotation gives the identity matrix, without error. *)
Theorem C135_identity : forall sq, good_square sq -> mvalue (rot_matrix_f sq (F4 f1 f0 f0 f0)) = mone.
Proof.
  intros sq (G & _ & G1 & G0 & _). destruct f1_is as (V1 & F1). pose proof (G1 f1 V1) as S1. pose proof (G0 f0 eq_refl eq_refl) as S0.
  destruct (G f1 F1 ltac:(rewrite V1, Rabs_pos_eq; lra)) as (FS1 & _). destruct (G f0 eq_refl ltac:(change (B2R f0) with 0; rewrite Rabs_R0; lra)) as (FS0 & _).
  assert (R1 : rnd 1 = 1) by (rewrite <- V1; apply rnd_id). assert (R0 : rnd 0 = 0) by (change 0 with (B2R f0); apply rnd_id).
  assert (QB : is_finite (qbar_f sq (F4 f1 f0 f0 f0)) = true /\ B2R (qbar_f sq (F4 f1 f0 f0 f0)) = 1).
  { unfold qbar_f. cbn [fw fx fy fz]. assert (ST : forall x, is_finite x = true -> B2R x = 1 -> is_finite (fsub x (sq f0)) = true /\ B2R (fsub x (sq f0)) = 1).
    { intros x X V. destruct (fsub_in 0 x (sq f0) ltac:(lia) X FS0) as (A & B & _); [rewrite V, S0, Rminus_0_r, Rabs_pos_eq; [change (bpow radix2 0) with 1|]; lra|]. split; [exact A|]. rewrite B, V, S0, Rminus_0_r. exact R1. }
    destruct (ST _ FS1 S1) as (A1 & B1). destruct (ST _ A1 B1) as (A2 & B2). exact (ST _ A2 B2). }
  destruct QB as (FQ & VQ). destruct f2_is as (V2 & F2).
  destruct (fmul_in 0 f2 (sq f0) ltac:(lia) F2 FS0) as (FD & VD & _); [rewrite S0, Rmult_0_r, Rabs_R0; change (bpow radix2 0) with 1; lra|]. rewrite S0, Rmult_0_r, R0 in VD.
  assert (DI : B2R (fadd (qbar_f sq (F4 f1 f0 f0 f0)) (fmul f2 (sq f0))) = 1).
  { destruct (fadd_in 0 _ _ ltac:(lia) FQ FD) as (_ & B & _); [rewrite VQ, VD, Rplus_0_r, Rabs_pos_eq; [change (bpow radix2 0) with 1|]; lra|]. rewrite B, VQ, VD, Rplus_0_r. exact R1. }
  unfold mvalue, vvalue, rot_matrix_f, mone. cbn [row0 row1 row2 f_x f_y f_z fw fx fy fz]. rewrite DI. f_equal; f_equal; (reflexivity || (vm_compute; reflexivity)).
Qed.
Print Assumptions C135_identity.

(** Squaring by one multiplication is good. *)
Lemma mul_square : good_square (fun x => fmul x x).
Proof.
  split; [|split; [intros; apply mul_opp|split; [|split]]].
  - intros x F B. assert (L : Rabs (B2R x * B2R x) <= bpow radix2 2) by (rewrite Rabs_mult; change (bpow radix2 2) with (2 * 2); apply Rmult_le_compat; auto using Rabs_pos).
    destruct (fmul_in 2 x x ltac:(lia) F F L) as (FF & V & _). split; [exact FF|]. rewrite V. apply Rle_trans with (1 := rnd_rel _). pose proof (Rle_0_sqr (B2R x)) as P. unfold Rsqr in P. rewrite (Rabs_pos_eq _ P), u53_is.
    assert (T : eta <= / 2 ^ 1000). { replace (/ 2 ^ 1000) with (bpow radix2 (-1000)); [apply bpow_le; lia|]. change (bpow radix2 (-1000)) with (bpow radix2 (Z.opp 1000)). rewrite bpow_opp. f_equal. rewrite (bpow_powerRZ radix2 1000). change (IZR radix2) with 2. change 1000%Z with (Z.of_nat 1000). symmetry. apply pow_powerRZ. }
    assert (E : / 9007199254740992 <= / 2 ^ 52) by (cbn [pow]; lra). apply Rplus_le_compat; [apply Rmult_le_compat_r; assumption|exact T].
  - intros x V. assert (F : is_finite x = true) by (destruct x; cbn in V; try lra; reflexivity). destruct (fmul_in 0 x x ltac:(lia) F F) as (_ & E & _); [rewrite V, Rmult_1_r, Rabs_R1; change (bpow radix2 0) with 1; lra|].
    rewrite E, V, Rmult_1_r, <- V. apply rnd_id.
  - intros x F V. destruct (fmul_in 0 x x ltac:(lia) F F) as (_ & E & _); [rewrite V, Rmult_0_r, Rabs_R0; change (bpow radix2 0) with 1; lra|]. rewrite E, V, Rmult_0_r, <- V. apply rnd_id.
  - reflexivity.
Qed.

Lemma unit_near_Z a b c d : (1 <= a <= 8)%Z -> (0 <= b <= 8)%Z -> (0 <= c <= 8)%Z -> (0 <= d <= 8)%Z -> near_unit (/ 2 ^ 41) (unit_of a b c d).
Proof.
  intros A B C D. destruct (normalise_near left_to_right (F4 (f_of_Z a) (f_of_Z b) (f_of_Z c) (f_of_Z d)) lr_any) as (m & E & NR & _).
  - assert (P400 : 2 ^ 3 <= 2 ^ 400) by (apply Rle_pow; [lra|lia]). assert (I400 : / 2 ^ 400 <= 1) by (rewrite <- Rinv_1; apply Rinv_le_contravar; lra).
    destruct (whole a ltac:(lia)) as (A1 & B1), (whole b ltac:(lia)) as (A2 & B2), (whole c ltac:(lia)) as (A3 & B3), (whole d ltac:(lia)) as (A4 & B4).
    assert (Z8 : forall z, (0 <= z <= 8)%Z -> Rabs (IZR z) <= 2 ^ 400). { intros z Hz. rewrite Rabs_pos_eq by (apply IZR_le; lia). apply Rle_trans with (IZR 8); [apply IZR_le; lia|lra]. }
    split; [repeat split; assumption|]. unfold coefs. cbn [fw fx fy fz]. split.
    + intros x [<-|[<-|[<-|[<-|[]]]]]; rewrite ?B1, ?B2, ?B3, ?B4; apply Z8; lia.
    + exists (f_of_Z a). split; [now left|]. rewrite B1, Rabs_pos_eq by (apply IZR_le; lia). apply Rle_trans with (1 := I400). apply IZR_le. lia.
  - apply near_is_unit with m; [|exact NR]. exact (unit_norm _ _ E).
Qed.

(** An entry can exceed one: a rotation about the vertical makes the vertical longer. *)
Theorem C135_above_refuted : exists sq q, good_square sq /\ near_unit (/ 2 ^ 41) q /\ vx (r2 (mvalue (rot_matrix_f sq q))) = 0 /\ vy (r2 (mvalue (rot_matrix_f sq q))) = 0 /\ 1 < vz (r2 (mvalue (rot_matrix_f sq q))).
Proof.
  exists (fun x => fmul x x), (unit_of 5 0 0 1). split; [exact mul_square|]. split.
  - apply unit_near_Z; lia.
  - unfold mvalue, vvalue. cbn [r2 vx vy vz]. split; [vm_compute; reflexivity|]. split; [vm_compute; reflexivity|].
    destruct (sf_value (f_z (row2 (rot_matrix_f (fun x => fmul x x) (unit_of 5 0 0 1)))) 4503599627370497 (-52) ltac:(vm_compute; reflexivity)) as (V & _). rewrite V. unfold bpow. cbn [radix2 radix_val Z.pow_pos Pos.iter Z.mul Pos.mul]. lra.
Qed.
Print Assumptions C135_above_refuted.

(** The rotation (1, 4, 1, 6) / sqrt 54. *)
Example C135_met : good_square (fun x => fmul x x) /\ near_unit (/ 2 ^ 41) (unit_of 1 4 1 6).
Proof. split; [exact mul_square|apply unit_near_Z; lia]. Qed.
