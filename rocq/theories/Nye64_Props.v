(** C136: lattice distortions and dislocation densities in double precision. *)
From Coq Require Import String Reals Lra Psatz.
From Coq Require Import List ZArith Bool Lia.
From Flocq Require Import Core IEEE754.BinarySingleNaN.
From Verif Require Import Py Quat_Model Quat_Spec Quat_Proofs Ebsd_Model Double_Model Double_Spec Double_Proofs Double_Angle Double_Props Strain64_Proofs Kam64_Model Kam64_Proofs Grod64_Proofs
  Average64_Spec Average64_Proofs Schmid64_Model Schmid64_Spec Schmid64_Proofs Trace64_Proofs Trace64_Props RotMat64_Model RotMat64_Spec RotMat64_Props Kam64_Props Nye64_Model.
Import ListNotations.
Open Scope R_scope.

(** One entry. *)
Lemma entry_near m i t s : is_finite m = true -> is_finite i = true -> Rabs (B2R m - t) <= 9 / 16 * / 2 ^ 43 -> Rabs t <= 3 / 2 -> 0 <= B2R i <= 1 -> / 2 ^ 100 <= B2R s <= 2 ^ 100 ->
  is_finite (fdiv (fdiv (fsub m i) s) f1e_6) = true /\ Rabs (B2R (fdiv (fdiv (fsub m i) s) f1e_6) - 10 ^ 6 / B2R s * (t - B2R i)) <= / 2 ^ 43 * (10 ^ 6 / B2R s).
Proof.
  intros FM FI EM BT BI BS. pose proof u53_is as U. assert (E43 : / 2 ^ 43 = 1024 * u53) by (rewrite U; cbn [pow]; lra). rewrite E43 in *.
  assert (UP : 0 < u53 <= / 1000000000) by (rewrite U; lra).
  assert (BM : Rabs (B2R m) <= 2) by (apply Rabs_le_inv in EM, BT; apply Rabs_le; lra).
  destruct (fsub_in 2 m i ltac:(lia) FM FI) as (FD & _ & ED & BD); [change (bpow radix2 2) with 4; apply Rabs_le_inv in BM; apply Rabs_le; lra|].
  change (2 - 54)%Z with (-52)%Z in ED. assert (U52 : bpow radix2 (-52) = 2 * u53) by (rewrite U; unfold bpow; cbn [radix2 radix_val Z.pow_pos Pos.iter Z.mul Pos.mul]; lra). rewrite U52 in ED. change (bpow radix2 2) with 4 in BD.
  set (d := fsub m i) in *. set (S1 := / B2R s). assert (P100 : 0 < / 2 ^ 100) by (apply Rinv_0_lt_compat, pow_lt; lra). assert (SP : 0 < B2R s) by lra. assert (SN : B2R s <> 0) by lra.
  assert (HS : / 2 ^ 100 <= S1 <= 2 ^ 100). { unfold S1. split; [apply Rinv_le_contravar; lra|]. rewrite <- (Rinv_inv (2 ^ 100)). apply Rinv_le_contravar; lra. }
  assert (ETA : eta <= u53 * S1 / 1000). { apply Rle_trans with (u53 * / 2 ^ 100 / 1000); [|unfold Rdiv; apply Rmult_le_compat_r; [lra|]; apply Rmult_le_compat_l; lra]. apply Rle_trans with (bpow radix2 (-200)); [apply bpow_le; lia|]. rewrite U. unfold bpow. cbn [pow radix2 radix_val Z.pow_pos Pos.iter Z.mul Pos.mul]. lra. }
  assert (Q1 : Rabs (B2R d / B2R s) <= 4 * S1). { unfold Rdiv. fold S1. rewrite Rabs_mult, (Rabs_pos_eq S1) by lra. apply Rmult_le_compat_r; lra. }
  assert (B110 : 4 * 2 ^ 100 <= bpow radix2 110) by (unfold bpow; cbn [pow radix2 radix_val Z.pow_pos Pos.iter Z.mul Pos.mul]; lra).
  destruct (fdiv_in 110 d s ltac:(lia) FD SN) as (FA & VA & _); [lra|]. pose proof (rnd_rel (B2R d / B2R s)) as RA. rewrite <- VA in RA. set (a := fdiv d s) in *.
  assert (EA : Rabs (B2R a - B2R d * S1) <= 5 * u53 * S1). { change (B2R d * S1) with (B2R d / B2R s). apply Rle_trans with (1 := RA). assert (0 <= u53 * S1) by (apply Rmult_le_pos; lra). assert (u53 * Rabs (B2R d / B2R s) <= u53 * (4 * S1)) by (apply Rmult_le_compat_l; lra). lra. }
  assert (BA : Rabs (B2R a) <= 5 * S1). { change (B2R d / B2R s) with (B2R d * S1) in Q1. apply Rabs_le_inv in EA, Q1. assert (5 * u53 * S1 <= 1 * S1) by (apply Rmult_le_compat_r; lra). apply Rabs_le. lra. }
  assert (VC : B2R f1e_6 = 4722366482869645 / 4722366482869645213696) by (destruct (sf_value f1e_6 4722366482869645 (-72) ltac:(vm_compute; reflexivity)) as (V & _); rewrite V; unfold bpow; cbn [radix2 radix_val Z.pow_pos Pos.iter Z.mul Pos.mul]; lra).
  set (c := / B2R f1e_6). assert (CN : B2R f1e_6 <> 0) by (rewrite VC; lra). assert (HC : 10 ^ 6 * (1 - u53) <= c <= 10 ^ 6 * (1 + u53)).
  { unfold c. rewrite VC, U. replace (/ (4722366482869645 / 4722366482869645213696)) with (4722366482869645213696 / 4722366482869645) by (field). cbn [pow]. lra. }
  assert (Q2 : Rabs (B2R a / B2R f1e_6) <= 5 * S1 * (10 ^ 6 * (1 + u53))). { unfold Rdiv. fold c. rewrite Rabs_mult, (Rabs_pos_eq c) by (cbn [pow] in *; lra). apply Rmult_le_compat; auto using Rabs_pos; [cbn [pow] in *; lra|lra]. }
  assert (Q3 : 5 * S1 * (10 ^ 6 * (1 + u53)) <= 11 / 2 * 10 ^ 6 * S1).
  { replace (5 * S1 * (10 ^ 6 * (1 + u53))) with (5 * (1 + u53) * 10 ^ 6 * S1) by ring. apply Rmult_le_compat_r; [lra|]. cbn [pow]. lra. }
  assert (B140 : 11 / 2 * 10 ^ 6 * 2 ^ 100 <= bpow radix2 140) by (unfold bpow; cbn [pow radix2 radix_val Z.pow_pos Pos.iter Z.mul Pos.mul]; lra).
  destruct (fdiv_in 140 a f1e_6 ltac:(lia) FA CN) as (FB & VB & _).
  { apply Rle_trans with (1 := Q2). apply Rle_trans with (1 := Q3). apply Rle_trans with (2 := B140). apply Rmult_le_compat_l; [cbn [pow]; lra|lra]. }
  split; [exact FB|]. pose proof (rnd_rel (B2R a / B2R f1e_6)) as RB. rewrite <- VB in RB. set (b := fdiv a f1e_6) in *.
  replace (10 ^ 6 / B2R s) with (10 ^ 6 * S1) by reflexivity. set (k := 10 ^ 6) in *. assert (K : k = 1000000) by (unfold k; ring). set (x := t - B2R i).
  assert (E1 : Rabs (B2R b - B2R a * c) <= 6 * u53 * (k * S1)). { change (B2R a * c) with (B2R a / B2R f1e_6). apply Rle_trans with (1 := RB). assert (0 <= u53 * S1) by (apply Rmult_le_pos; lra). assert (u53 * Rabs (B2R a / B2R f1e_6) <= u53 * (11 / 2 * k * S1)) by (apply Rmult_le_compat_l; lra). rewrite K in *. lra. }
  assert (E2 : Rabs (B2R a * c - B2R a * k) <= 5 * u53 * (k * S1)). { replace (B2R a * c - B2R a * k) with (B2R a * (c - k)) by ring. rewrite Rabs_mult. assert (DK : Rabs (c - k) <= k * u53) by (apply Rabs_le; lra).
    apply Rle_trans with (5 * S1 * (k * u53)); [apply Rmult_le_compat; auto using Rabs_pos|lra]. }
  assert (E3 : Rabs (B2R a * k - B2R d * S1 * k) <= 5 * u53 * (k * S1)). { replace (B2R a * k - B2R d * S1 * k) with ((B2R a - B2R d * S1) * k) by ring. rewrite Rabs_mult, (Rabs_pos_eq k) by lra. apply Rle_trans with (5 * u53 * S1 * k); [apply Rmult_le_compat_r; lra|lra]. }
  assert (E4 : Rabs (B2R d * S1 * k - k * S1 * x) <= (9 / 16 * 1024 + 2) * u53 * (k * S1)).
  { replace (B2R d * S1 * k - k * S1 * x) with ((B2R d - x) * (k * S1)) by ring. assert (KS : 0 <= k * S1) by (apply Rmult_le_pos; lra). rewrite Rabs_mult, (Rabs_pos_eq _ KS). apply Rmult_le_compat_r; [exact KS|]. unfold x. apply Rabs_le_inv in ED, EM. apply Rabs_le. lra. }
  assert (KS : 0 <= u53 * (k * S1)) by (apply Rmult_le_pos; [lra|apply Rmult_le_pos; lra]). apply Rabs_le_inv in E1, E2, E3, E4. apply Rabs_le. lra.
Qed.

(** The rotation of a product. *)
Lemma rot_times p q : rot_matrix (raw_mul (conjugate p) q) = mprod (transpose (rot_matrix p)) (rot_matrix q).
Proof.
  destruct p as [a b c d], q as [x y z t]. unfold conjugate, Quat. cbn [qw qx qy qz]. destruct (Rlt_dec a 0); unfold qneg, raw_mul, qv, vdot, mprod, transpose, col0, col1, col2, sprod, rot_matrix; cbn [qw qx qy qz r0 r1 r2 vx vy vz];
  apply (f_equal3 M3); apply (f_equal3 V3); ring.
Qed.
Lemma raw_norm p q : dot (raw_mul p q) (raw_mul p q) = dot p p * dot q q.
Proof. destruct p as [a b c d], q as [x y z t]. unfold raw_mul, qv, vdot, dot. cbn [qw qx qy qz vx vy vz]. ring. Qed.
Lemma rot_close a b e : (forall f, In f [qw; qx; qy; qz] -> Rabs (f a - f b) <= e /\ Rabs (f a) <= 11 / 10 /\ Rabs (f b) <= 11 / 10) -> close_m (66 / 5 * e) (rot_matrix a) (rot_matrix b).
Proof.
  intros H. assert (P : forall f g, In f [qw; qx; qy; qz] -> In g [qw; qx; qy; qz] -> - (11 / 5 * e) <= f a * g a - f b * g b <= 11 / 5 * e).
  { intros f g F G. destruct (H f F) as (E1 & A1 & _), (H g G) as (E2 & _ & B2). apply Rabs_le_inv. pose proof (prod_near _ _ _ _ _ _ _ _ E1 E2 A1 B2). lra. }
  assert (I0 : In qw [qw; qx; qy; qz]) by (cbn; tauto). assert (I1 : In qx [qw; qx; qy; qz]) by (cbn; tauto). assert (I2 : In qy [qw; qx; qy; qz]) by (cbn; tauto). assert (I3 : In qz [qw; qx; qy; qz]) by (cbn; tauto).
  pose proof (P _ _ I0 I0) as P00. pose proof (P _ _ I0 I1) as P01. pose proof (P _ _ I0 I2) as P02. pose proof (P _ _ I0 I3) as P03. pose proof (P _ _ I1 I1) as P11. pose proof (P _ _ I1 I2) as P12.
  pose proof (P _ _ I1 I3) as P13. pose proof (P _ _ I2 I2) as P22. pose proof (P _ _ I2 I3) as P23. pose proof (P _ _ I3 I3) as P33. clear P H. destruct a as [a0 a1 a2 a3], b as [b0 b1 b2 b3]. cbn [qw qx qy qz] in *.
  unfold rot_matrix, close_m, close3. cbn [r0 r1 r2 vx vy vz]. repeat split; apply Rabs_le; lra.
Qed.

(** The distortion to a neighbour with the equivalent orientation [p] is the matrix of the rotation between them
    less the identity, over the step in metres; each entry is a number and within 2^-43 of it, in the same unit. *)
Theorem C136_distortion : forall sq dot3, good_square sq -> any_order3 dot3 -> forall q p step, near_unit (/ 2 ^ 41) q -> near_unit (/ 2 ^ 41) p -> / 2 ^ 100 <= B2R step <= 2 ^ 100 ->
  let k := 10 ^ 6 / B2R step in let b := distortion_f sq dot3 step q p in
  finite_m b /\ close_m (/ 2 ^ 43 * k) (mvalue b) (mscale k (madd (mprod (transpose (rot_matrix (value p))) (rot_matrix (value q))) (mscale (-1) mone))).
Proof.
  intros sq dot3 G D q p step NQ NP ST k b. assert (E8 : / 2 ^ 41 <= / 8) by (cbn [pow]; lra). pose proof (near_sound _ _ E8 NQ) as SQ. pose proof (near_sound _ _ E8 NP) as SP.
  destruct (conj_is p SP) as (SC & VC). pose proof (first_product dot3 D _ _ (sound_near _ SC) (sound_near _ SQ)) as NE. rewrite VC in NE. rewrite <- rot_times. set (e := raw_mul (conjugate (value p)) (value q)) in *.
  set (c := mul_south_f dot3 (conjugate_f p) q) in *.
  assert (RC : rot_matrix_f sq (times_f dot3 (conjugate_f p) q) = rot_matrix_f sq c) by (unfold times_f; cbv zeta; fold c; destruct (flt _ _); [apply (C135_opposite sq G)|reflexivity]).
  assert (DC : dot (conjugate (value p)) (conjugate (value p)) = dot (value p) (value p)) by (unfold conjugate, Quat, qneg, dot; cbn [qw qx qy qz]; destruct (Rlt_dec _ _); cbn [qw qx qy qz]; ring).
  assert (NN : 0 <= dot e e <= 21 / 20). { unfold e. rewrite raw_norm, DC. destruct NQ as (_ & NQ), NP as (_ & NP). apply Rabs_le_inv in NQ, NP. assert (Z : / 2 ^ 41 <= / 1000) by (cbn [pow]; lra). set (x := dot (value p) (value p)) in *. set (y := dot (value q) (value q)) in *. split; [apply Rmult_le_pos; lra|]. apply Rle_trans with (1001 / 1000 * (1001 / 1000)); [apply Rmult_le_compat; lra|lra]. }
  assert (CB : forall f, In f [qw; qx; qy; qz] -> Rabs (f e) <= 21 / 20).
  { intros f F. unfold dot in NN. pose proof (Rle_0_sqr (qw e)). pose proof (Rle_0_sqr (qx e)). pose proof (Rle_0_sqr (qy e)). pose proof (Rle_0_sqr (qz e)). unfold Rsqr in *.
    assert (S1 : f e * f e <= 21 / 20) by (destruct F as [<-|[<-|[<-|[<-|[]]]]]; lra). apply Rabs_le. split; nra. }
  pose proof u53_is as U. assert (AP : forall (x : f64) y, ap x y (w 32) 16 -> Rabs y <= 21 / 20 -> Rabs (B2R x - y) <= w 32 /\ Rabs (B2R x) <= 11 / 10 /\ Rabs y <= 11 / 10).
  { intros x y (_ & E & _) B. split; [exact E|]. rewrite U in E. apply Rabs_le_inv in E. split; [|lra]. apply Rabs_le_inv in B. apply Rabs_le. lra. }
  destruct NE as (N1 & N2 & N3 & N4). pose proof (AP _ _ N1 (CB qw ltac:(cbn; tauto))) as A1. pose proof (AP _ _ N2 (CB qx ltac:(cbn; tauto))) as A2. pose proof (AP _ _ N3 (CB qy ltac:(cbn; tauto))) as A3. pose proof (AP _ _ N4 (CB qz ltac:(cbn; tauto))) as A4.
  assert (RCL : close_m (66 / 5 * w 32) (rot_matrix (value c)) (rot_matrix e)) by (apply rot_close; intros f [<-|[<-|[<-|[<-|[]]]]]; assumption).
  assert (SCC : sound c).
  { split; [repeat split; [apply N1|apply N2|apply N3|apply N4]|]. assert (Q : forall x y, Rabs (x - y) <= w 32 /\ Rabs x <= 11 / 10 /\ Rabs y <= 11 / 10 -> x * x <= y * y + / 1000).
    { intros x y (E & X & Y). pose proof (prod_near _ _ _ _ _ _ _ _ E E X Y) as P. rewrite U in P. apply Rabs_le_inv in P. lra. }
    pose proof (Q _ _ A1). pose proof (Q _ _ A2). pose proof (Q _ _ A3). pose proof (Q _ _ A4). unfold dot in *. unfold value. cbn [qw qx qy qz]. lra. }
  destruct (C135_matrix sq G c SCC) as (FM & CM). pose proof (rows_exact e) as RE. cbv zeta in RE. destruct RE as (L0 & L1 & L2 & _).
  assert (BR : forall v, sprod v v = dot e e * dot e e -> Rabs (vx v) <= 3 / 2 /\ Rabs (vy v) <= 3 / 2 /\ Rabs (vz v) <= 3 / 2).
  { intros v H. apply comp_bound; [change (vdot v v) with (sprod v v); rewrite H; apply Rle_trans with (21 / 20 * (21 / 20)); [apply Rmult_le_compat; lra|lra]|lra]. }
  pose proof (BR _ L0) as (T1 & T2 & T3). pose proof (BR _ L1) as (T4 & T5 & T6). pose proof (BR _ L2) as (T7 & T8 & T9).
  assert (TRI : forall x y z, Rabs (x - y) <= / 2 ^ 47 -> Rabs (y - z) <= 66 / 5 * w 32 -> Rabs (x - z) <= 9 / 16 * / 2 ^ 43).
  { intros x y z H1 H2. rewrite U in H2. apply Rabs_le_inv in H1, H2. apply Rabs_le. cbn [pow] in *. lra. }
  unfold b, distortion_f. rewrite RC. unfold entrywise, finite_m, finite3, close_m, close3, mvalue, vvalue, mscale, madd, vscale, vadd, mone. cbn [row0 row1 row2 f_x f_y f_z r0 r1 r2 vx vy vz].
  destruct FM as ((F1 & F2 & F3') & (F4' & F5 & F6) & (F7 & F8 & F9)). destruct CM as ((C1 & C2 & C3) & (C4 & C5 & C6) & (C7 & C8 & C9)). destruct RCL as ((D1 & D2 & D3) & (D4 & D5 & D6) & (D7 & D8 & D9)).
  unfold mvalue, vvalue in C1, C2, C3, C4, C5, C6, C7, C8, C9. cbn [r0 r1 r2 vx vy vz] in C1, C2, C3, C4, C5, C6, C7, C8, C9. destruct f1_is as (V1 & G1).
  assert (ON : forall m t, is_finite m = true -> Rabs (B2R m - t) <= 9 / 16 * / 2 ^ 43 -> Rabs t <= 3 / 2 -> is_finite (fdiv (fdiv (fsub m f1) step) f1e_6) = true /\ Rabs (B2R (fdiv (fdiv (fsub m f1) step) f1e_6) - k * (t + -1 * 1)) <= / 2 ^ 43 * k).
  { intros m t F E B. destruct (entry_near m f1 t step F G1 E B ltac:(rewrite V1; lra) ST) as (X & Y). split; [exact X|]. rewrite V1 in Y. replace (t + -1 * 1) with (t - 1) by ring. exact Y. }
  assert (OF : forall m t, is_finite m = true -> Rabs (B2R m - t) <= 9 / 16 * / 2 ^ 43 -> Rabs t <= 3 / 2 -> is_finite (fdiv (fdiv (fsub m f0) step) f1e_6) = true /\ Rabs (B2R (fdiv (fdiv (fsub m f0) step) f1e_6) - k * (t + -1 * 0)) <= / 2 ^ 43 * k).
  { intros m t F E B. destruct (entry_near m f0 t step F eq_refl E B ltac:(change (B2R f0) with 0; lra) ST) as (X & Y). split; [exact X|]. change (B2R f0) with 0 in Y. replace (t + -1 * 0) with (t - 0) by ring. exact Y. }
  pose proof (ON _ _ F1 (TRI _ _ _ C1 D1) T1) as (X1 & Y1). pose proof (OF _ _ F2 (TRI _ _ _ C2 D2) T2) as (X2 & Y2). pose proof (OF _ _ F3' (TRI _ _ _ C3 D3) T3) as (X3 & Y3).
  pose proof (OF _ _ F4' (TRI _ _ _ C4 D4) T4) as (X4 & Y4). pose proof (ON _ _ F5 (TRI _ _ _ C5 D5) T5) as (X5 & Y5). pose proof (OF _ _ F6 (TRI _ _ _ C6 D6) T6) as (X6 & Y6).
  pose proof (OF _ _ F7 (TRI _ _ _ C7 D7) T7) as (X7 & Y7). pose proof (OF _ _ F8 (TRI _ _ _ C8 D8) T8) as (X8 & Y8). pose proof (ON _ _ F9 (TRI _ _ _ C9 D9) T9) as (X9 & Y9).
  tauto.
Qed.
Print Assumptions C136_distortion.

(** Where the equivalent chosen is the orientation itself, as it should be on a uniform map, the distortion is about zero. *)
Lemma own_columns q : mprod (transpose (rot_matrix q)) (rot_matrix q) = mscale (dot q q * dot q q) mone.
Proof.
  destruct q as [a b c d]. unfold mprod, transpose, col0, col1, col2, sprod, rot_matrix, mscale, vscale, mone, dot. cbn [qw qx qy qz r0 r1 r2 vx vy vz]. apply (f_equal3 M3); apply (f_equal3 V3); ring.
Qed.
Theorem C136_uniform : forall sq dot3, good_square sq -> any_order3 dot3 -> forall q step, near_unit (/ 2 ^ 41) q -> / 2 ^ 100 <= B2R step <= 2 ^ 100 ->
  finite_m (distortion_f sq dot3 step q q) /\ close_m (/ 2 ^ 38 * (10 ^ 6 / B2R step)) (mvalue (distortion_f sq dot3 step q q)) mzero.
Proof.
  intros sq dot3 G D q step NQ ST. destruct (C136_distortion sq dot3 G D q q step NQ NQ ST) as (F & C). split; [exact F|]. rewrite own_columns in C. set (n := dot (value q) (value q)) in *. set (k := 10 ^ 6 / B2R step) in *.
  destruct NQ as (_ & N). fold n in N. apply Rabs_le_inv in N. set (e := / 2 ^ 47) in *. assert (E1 : / 2 ^ 41 = 64 * e) by (unfold e; cbn [pow]; lra). assert (E2 : / 2 ^ 43 = 16 * e) by (unfold e; cbn [pow]; lra). assert (E3 : / 2 ^ 38 = 512 * e) by (unfold e; cbn [pow]; lra).
  rewrite E1 in N. rewrite E2 in C. rewrite E3. assert (E0 : 0 < e <= / 1000000) by (unfold e; cbn [pow]; lra). assert (NN : - (129 * e) <= n * n - 1 <= 129 * e) by (split; nra).
  assert (P : 0 < / 2 ^ 100) by (apply Rinv_0_lt_compat, pow_lt; lra). assert (K0 : 0 < k) by (unfold k; apply Rdiv_lt_0_compat; [apply pow_lt; lra|lra]).
  assert (KE : - (129 * e * k) <= k * (n * n - 1) <= 129 * e * k) by (split; [replace (- (129 * e * k)) with (k * - (129 * e)) by ring|replace (129 * e * k) with (k * (129 * e)) by ring]; apply Rmult_le_compat_l; lra). assert (EK : 0 < e * k) by (apply Rmult_lt_0_compat; lra).
  unfold close_m, close3, mscale, madd, vscale, vadd, mone, mzero in *. cbn [r0 r1 r2 vx vy vz] in *. destruct C as ((C1 & C2 & C3) & (C4 & C5 & C6) & (C7 & C8 & C9)).
  apply Rabs_le_inv in C1, C2, C3, C4, C5, C6, C7, C8, C9. repeat split; apply Rabs_le; lra.
Qed.
Print Assumptions C136_uniform.

(** Numbers near [x] on the scale [K]. *)
Definition sp (K : R) (v : f64) (x e A : R) : Prop := is_finite v = true /\ Rabs (B2R v - x) <= e * u53 * K /\ Rabs (B2R v) <= A * K /\ 0 <= A <= 1000.
Section Scale.
Variables (K : R) (HK : / 2 ^ 200 <= K <= 2 ^ 200).
Let KP : 0 < K. Proof using HK. assert (0 < / 2 ^ 200) by (apply Rinv_0_lt_compat, pow_lt; lra). lra. Qed.
Lemma sp_round v z e A x : is_finite v = true -> B2R v = rnd z -> Rabs (z - x) <= e * u53 * K -> Rabs z <= A * K -> 0 <= A <= 999 -> sp K v x (e + A + 1) (A + 1).
Proof using HK KP.
  intros F V E B LA. pose proof (rnd_rel z) as RR. rewrite <- V in RR. assert (UP : 0 < u53 <= / 1000000000) by (rewrite u53_is; lra).
  assert (ET : eta <= u53 * K).
  { apply Rle_trans with (u53 * / 2 ^ 200); [|apply Rmult_le_compat_l; lra]. apply Rle_trans with (bpow radix2 (-400)); [apply bpow_le; lia|]. rewrite u53_is. unfold bpow. cbn [pow radix2 radix_val Z.pow_pos Pos.iter Z.mul Pos.mul]. lra. }
  assert (T : u53 * Rabs z <= u53 * (A * K)) by (apply Rmult_le_compat_l; lra). assert (UK : u53 * K <= / 1000000000 * K) by (apply Rmult_le_compat_r; lra).
  assert (UA : u53 * (A * K) <= / 1000000 * K). { replace (u53 * (A * K)) with (u53 * A * K) by ring. apply Rmult_le_compat_r; [lra|]. apply Rle_trans with (/ 1000000000 * 999); [apply Rmult_le_compat; lra|lra]. }
  split; [exact F|]. apply Rabs_le_inv in RR, E, B. split; [apply Rabs_le; lra|]. split; [apply Rabs_le; lra|lra].
Qed.
Lemma sp_big A : 0 <= A <= 1000 -> A * K <= bpow radix2 300.
Proof using HK KP. intros L. apply Rle_trans with (1000 * 2 ^ 200); [apply Rmult_le_compat; lra|]. unfold bpow. cbn [pow radix2 radix_val Z.pow_pos Pos.iter Z.mul Pos.mul]. lra. Qed.
Lemma sp_add v t x y e f A B : sp K v x e A -> sp K t y f B -> A + B <= 999 -> sp K (fadd v t) (x + y) (e + f + (A + B) + 1) (A + B + 1).
Proof using HK KP.
  intros (F1 & E1 & B1 & L1) (F2 & E2 & B2 & L2) L. assert (Z : Rabs (B2R v + B2R t) <= (A + B) * K) by (apply Rabs_le_inv in B1, B2; apply Rabs_le; lra).
  destruct (fadd_in 300 v t ltac:(lia) F1 F2) as (FF & V & _); [apply Rle_trans with (1 := Z); apply sp_big; lra|]. apply sp_round with (z := B2R v + B2R t); [exact FF|exact V| |exact Z|lra]. apply Rabs_le_inv in E1, E2. apply Rabs_le. lra.
Qed.
Lemma sp_sub v t x y e f A B : sp K v x e A -> sp K t y f B -> A + B <= 999 -> sp K (fsub v t) (x - y) (e + f + (A + B) + 1) (A + B + 1).
Proof using HK KP.
  intros (F1 & E1 & B1 & L1) (F2 & E2 & B2 & L2) L. assert (Z : Rabs (B2R v - B2R t) <= (A + B) * K) by (apply Rabs_le_inv in B1, B2; apply Rabs_le; lra).
  destruct (fsub_in 300 v t ltac:(lia) F1 F2) as (FF & V & _); [apply Rle_trans with (1 := Z); apply sp_big; lra|]. apply sp_round with (z := B2R v - B2R t); [exact FF|exact V| |exact Z|lra]. apply Rabs_le_inv in E1, E2. apply Rabs_le. lra.
Qed.
Lemma sp_times c v x e A : is_finite c = true -> Rabs (B2R c) <= 3 / 2 -> sp K v x e A -> 3 / 2 * A <= 999 -> sp K (fmul c v) (B2R c * x) (3 / 2 * e + 3 / 2 * A + 1) (3 / 2 * A + 1).
Proof using HK KP.
  intros FC BC (F1 & E1 & B1 & L1) L. assert (Z : Rabs (B2R c * B2R v) <= 3 / 2 * A * K) by (rewrite Rabs_mult, Rmult_assoc; apply Rmult_le_compat; auto using Rabs_pos).
  destruct (fmul_in 300 c v ltac:(lia) FC F1) as (FF & V & _); [apply Rle_trans with (1 := Z); apply sp_big; lra|]. apply sp_round with (z := B2R c * B2R v); [exact FF|exact V| |exact Z|lra].
  replace (B2R c * B2R v - B2R c * x) with (B2R c * (B2R v - x)) by ring. rewrite Rabs_mult. replace (3 / 2 * e * u53 * K) with (3 / 2 * (e * u53 * K)) by ring. apply Rmult_le_compat; auto using Rabs_pos.
Qed.
Lemma sp_abs v x e A : sp K v x e A -> sp K (fabs v) (Rabs x) e A.
Proof using HK.
  intros (F & E & B & L). unfold fabs. split; [now rewrite is_finite_Babs|]. rewrite B2R_Babs, Rabs_Rabsolu. split; [|split; assumption]. apply Rle_trans with (2 := E). apply Rabs_triang_inv2.
Qed.
End Scale.
Lemma sp_bavg K v x e A : / 2 ^ 150 <= K <= 2 ^ 150 -> sp K v x e A -> A <= 90 -> sp (K / bavg) (fdiv v f_bavg) (x / bavg) (e + 3 * A + 2) (A + 2).
Proof.
  intros HK (F & E & B & L) LA. assert (UP : 0 < u53 <= / 1000000000) by (rewrite u53_is; lra). assert (P150 : 0 < / 2 ^ 150) by (apply Rinv_0_lt_compat, pow_lt; lra).
  assert (VC : B2R f_bavg = 5415987671873539 / 38685626227668133590597632) by (destruct (sf_value f_bavg 5415987671873539 (-85) ltac:(vm_compute; reflexivity)) as (V & _); rewrite V; unfold bpow; cbn [radix2 radix_val Z.pow_pos Pos.iter Z.mul Pos.mul]; lra).
  assert (CN : B2R f_bavg <> 0) by (rewrite VC; lra). set (c := / B2R f_bavg). set (g := / bavg). assert (HG : g = 100000000000 / 14) by (unfold g, bavg; cbn [pow]; field).
  assert (HC : g * (1 - 2 * u53) <= c <= g * (1 + 2 * u53)).
  { unfold c. rewrite VC, HG, u53_is. replace (/ (5415987671873539 / 38685626227668133590597632)) with (38685626227668133590597632 / 5415987671873539) by field. lra. }
  change (K / bavg) with (K * g). change (x / bavg) with (x * g). assert (GP : 0 < g) by (rewrite HG; lra). assert (KG : 0 < K * g) by (apply Rmult_lt_0_compat; lra).
  assert (HK2 : / 2 ^ 200 <= K * g <= 2 ^ 200).
  { rewrite HG. split; [apply Rle_trans with (/ 2 ^ 150 * 1); [rewrite Rmult_1_r; apply Rinv_le_contravar; [apply pow_lt; lra|apply Rle_pow; [lra|lia]]|apply Rmult_le_compat; lra]|].
    apply Rle_trans with (2 ^ 150 * 2 ^ 50); [apply Rmult_le_compat; try lra; cbn [pow]; lra|rewrite <- pow_add; apply Rle_pow; [lra|lia]]. }
  assert (CK : Rabs (c - g) <= 2 * u53 * g) by (apply Rabs_le; lra). assert (CP : 0 < c <= 101 / 100 * g) by (split; [apply Rlt_le_trans with (g * (1 - 2 * u53)); [apply Rmult_lt_0_compat; lra|lra]|apply Rle_trans with (1 := proj2 HC); rewrite Rmult_comm; apply Rmult_le_compat_r; lra]).
  assert (Z : Rabs (B2R v / B2R f_bavg) <= (A + 1) * (K * g)).
  { unfold Rdiv. fold c. rewrite Rabs_mult, (Rabs_pos_eq c) by lra. apply Rle_trans with (A * K * (101 / 100 * g)); [apply Rmult_le_compat; auto using Rabs_pos; lra|]. replace (A * K * (101 / 100 * g)) with (101 / 100 * A * (K * g)) by ring. apply Rmult_le_compat_r; lra. }
  destruct (fdiv_in 300 v f_bavg ltac:(lia) F CN) as (FF & V & _); [apply Rle_trans with (1 := Z); apply sp_big; lra|].
  assert (D : Rabs (B2R v / B2R f_bavg - x * g) <= (e + 2 * A) * u53 * (K * g)).
  { unfold Rdiv. fold c. replace (B2R v * c - x * g) with (B2R v * (c - g) + (B2R v - x) * g) by ring. apply Rle_trans with (1 := Rabs_triang _ _). rewrite !Rabs_mult, (Rabs_pos_eq g) by lra.
    assert (Rabs (B2R v) * Rabs (c - g) <= A * K * (2 * u53 * g)) by (apply Rmult_le_compat; auto using Rabs_pos). assert (Rabs (B2R v - x) * g <= e * u53 * K * g) by (apply Rmult_le_compat_r; lra). lra. }
  pose proof (sp_round (K * g) HK2 _ _ _ _ _ FF V D Z ltac:(lra)) as (S1 & S2 & S3 & S4). split; [exact S1|]. split; [apply Rle_trans with (1 := S2); lra|]. split; [apply Rle_trans with (1 := S3); right; ring|lra].
Qed.

(** The density of dislocations at a pixel: within 2^-38 of 10^6 over the step and the Burgers vector of that without rounding. *)
Theorem C136_gnd : forall sq dot3, good_square sq -> any_order3 dot3 -> forall q p step, near_unit (/ 2 ^ 41) q -> near_unit (/ 2 ^ 41) p -> / 2 ^ 100 <= B2R step <= 2 ^ 100 ->
  let k := 10 ^ 6 / B2R step in let exact := mscale k (madd (mprod (transpose (rot_matrix (value p))) (rot_matrix (value q))) (mscale (-1) mone)) in let g := gnd_f (nye_f (distortion_f sq dot3 step q p)) in
  is_finite g = true /\ Rabs (B2R g - total9 (nye_of (exact, exact))) <= / 2 ^ 38 * (k / bavg).
Proof.
  intros sq dot3 G D q p step NQ NP ST k exact g. destruct (C136_distortion sq dot3 G D q p step NQ NP ST) as (F & C). fold k exact in C. set (b := distortion_f sq dot3 step q p) in *.
  assert (P : 0 < / 2 ^ 100) by (apply Rinv_0_lt_compat, pow_lt; lra).
  assert (HK : / 2 ^ 150 <= k <= 2 ^ 150).
  { unfold k, Rdiv. assert (S1 : / 2 ^ 100 <= / B2R step <= 2 ^ 100) by (split; [apply Rinv_le_contravar; lra|rewrite <- (Rinv_inv (2 ^ 100)); apply Rinv_le_contravar; lra]). split.
    - apply Rle_trans with (1 * / 2 ^ 100); [rewrite Rmult_1_l; apply Rinv_le_contravar; [apply pow_lt; lra|apply Rle_pow; [lra|lia]]|apply Rmult_le_compat; try lra; cbn [pow]; lra].
    - apply Rle_trans with (2 ^ 50 * 2 ^ 100); [apply Rmult_le_compat; try lra; cbn [pow]; lra|rewrite <- pow_add; apply Rle_pow; [lra|lia]]. }
  assert (K0 : 0 < k) by (assert (0 < / 2 ^ 150) by (apply Rinv_0_lt_compat, pow_lt; lra); lra).
  assert (HK1 : / 2 ^ 200 <= k <= 2 ^ 200). { split; [apply Rle_trans with (2 := proj1 HK); apply Rinv_le_contravar; [apply pow_lt; lra|apply Rle_pow; [lra|lia]]|apply Rle_trans with (1 := proj2 HK); apply Rle_pow; [lra|lia]]. }
  pose proof u53_is as U. assert (E43 : / 2 ^ 43 = 1024 * u53) by (rewrite U; cbn [pow]; lra).
  (* the exact entries are at most 5/2 k *)
  assert (BX : forall v, In v [r0 exact; r1 exact; r2 exact] -> Rabs (vx v) <= 5 / 2 * k /\ Rabs (vy v) <= 5 / 2 * k /\ Rabs (vz v) <= 5 / 2 * k).
  { unfold exact. rewrite <- rot_times. set (e := raw_mul (conjugate (value p)) (value q)). pose proof (rows_exact e) as RE. cbv zeta in RE. destruct RE as (L0 & L1 & L2 & _).
    assert (DC : dot (conjugate (value p)) (conjugate (value p)) = dot (value p) (value p)) by (unfold conjugate, Quat, qneg, dot; cbn [qw qx qy qz]; destruct (Rlt_dec _ _); cbn [qw qx qy qz]; ring).
    assert (NN : 0 <= dot e e <= 21 / 20). { unfold e. rewrite raw_norm, DC. destruct NQ as (_ & NQ), NP as (_ & NP). apply Rabs_le_inv in NQ, NP. assert (Z : / 2 ^ 41 <= / 1000) by (cbn [pow]; lra). set (x := dot (value p) (value p)) in *. set (y := dot (value q) (value q)) in *. split; [apply Rmult_le_pos; lra|]. apply Rle_trans with (1001 / 1000 * (1001 / 1000)); [apply Rmult_le_compat; lra|lra]. }
    assert (BR : forall v, sprod v v = dot e e * dot e e -> Rabs (vx v) <= 3 / 2 /\ Rabs (vy v) <= 3 / 2 /\ Rabs (vz v) <= 3 / 2).
    { intros v H. apply comp_bound; [change (vdot v v) with (sprod v v); rewrite H; apply Rle_trans with (21 / 20 * (21 / 20)); [apply Rmult_le_compat; lra|lra]|lra]. }
    assert (SC : forall t i, Rabs t <= 3 / 2 -> 0 <= i <= 1 -> Rabs (k * (t + -1 * i)) <= 5 / 2 * k). { intros t i T I. rewrite Rabs_mult, (Rabs_pos_eq k), Rmult_comm by lra. apply Rmult_le_compat_r; [lra|]. apply Rabs_le_inv in T. apply Rabs_le. lra. }
    pose proof (BR _ L0) as (T1 & T2 & T3). pose proof (BR _ L1) as (T4 & T5 & T6). pose proof (BR _ L2) as (T7 & T8 & T9).
    intros v [<-|[<-|[<-|[]]]]; unfold mscale, madd, vscale, vadd, mone; cbn [r0 r1 r2 vx vy vz]; repeat split; apply SC; try assumption; lra. }
  assert (BS : forall v x, is_finite v = true -> Rabs (B2R v - x) <= / 2 ^ 43 * k -> Rabs x <= 5 / 2 * k -> sp k v x 1024 3).
  { intros v x FV E X. rewrite E43 in E. split; [exact FV|]. split; [lra|]. split; [|lra]. assert (UK : 1024 * u53 * k <= / 2 * k) by (apply Rmult_le_compat_r; [lra|rewrite U; lra]). apply Rabs_le_inv in E, X. apply Rabs_le. lra. }
  assert (HG : / 2 ^ 200 <= k / bavg <= 2 ^ 200).
  { unfold Rdiv. assert (HB : / bavg = 100000000000 / 14) by (unfold bavg; cbn [pow]; field). rewrite HB. split; [apply Rle_trans with (/ 2 ^ 150 * 1); [rewrite Rmult_1_r; apply Rinv_le_contravar; [apply pow_lt; lra|apply Rle_pow; [lra|lia]]|apply Rmult_le_compat; lra]|].
    apply Rle_trans with (2 ^ 150 * 2 ^ 50); [apply Rmult_le_compat; try lra; cbn [pow]; lra|rewrite <- pow_add; apply Rle_pow; [lra|lia]]. }
  destruct f1_is as (V1 & G1). assert (FN : is_finite (fneg f1) = true) by reflexivity. assert (VN : B2R (fneg f1) = -1) by (unfold fneg; rewrite B2R_Bopp, V1; ring).
  assert (V3H : B2R f3half = 3 / 2) by (destruct (sf_value f3half 6755399441055744 (-52) ltac:(vm_compute; reflexivity)) as (V & _); rewrite V; unfold bpow; cbn [radix2 radix_val Z.pow_pos Pos.iter Z.mul Pos.mul]; lra).
  assert (ROW : forall (r : fvec) v, In v [r0 exact; r1 exact; r2 exact] -> finite3 r -> close3 (/ 2 ^ 43 * k) (vvalue r) v ->
    sp (k / bavg) (fabs (fdiv (fmul (fneg f1) (f_z r)) f_bavg)) (Rabs (-1 * vz v / bavg)) 1600 8 /\ sp (k / bavg) (fabs (fdiv (f_z r) f_bavg)) (Rabs (vz v / bavg)) 1600 8 /\
    sp (k / bavg) (fabs (fdiv (fsub (f_x r) (f_y r)) f_bavg)) (Rabs ((vx v - vy v) / bavg)) 2200 9).
  { intros r v I (F1 & F2 & F3') (C1 & C2 & C3). destruct (BX v I) as (X1 & X2 & X3). cbn [vvalue vx vy vz] in C1, C2, C3. pose proof (BS _ _ F1 C1 X1) as A1. pose proof (BS _ _ F2 C2 X2) as A2. pose proof (BS _ _ F3' C3 X3) as A3.
    assert (KB : 0 <= k / bavg) by (assert (0 < / 2 ^ 200) by (apply Rinv_0_lt_compat, pow_lt; lra); lra). assert (UK : 0 <= u53 * (k / bavg)) by (apply Rmult_le_pos; [rewrite U; lra|exact KB]).
    assert (WK : forall t x e A e' A', sp (k / bavg) t x e A -> e <= e' -> A <= A' -> A' <= 100 -> sp (k / bavg) t x e' A').
    { intros t x e A e' A' (S1 & S2 & S3 & S4) L1 L2 L3. split; [exact S1|]. split; [apply Rle_trans with (1 := S2); rewrite !Rmult_assoc; apply Rmult_le_compat_r; [exact UK|exact L1]|]. split; [apply Rle_trans with (1 := S3); apply Rmult_le_compat_r; assumption|lra]. }
    split; [|split]; apply (sp_abs _ HG).
    - assert (T : sp k (fmul (fneg f1) (f_z r)) (-1 * vz v) 1550 6). { rewrite <- VN. pose proof (sp_times k HK1 (fneg f1) _ _ _ _ FN ltac:(rewrite VN, Rabs_left; lra) A3 ltac:(lra)) as (S1 & S2 & S3 & S4). split; [exact S1|]. split; [apply Rle_trans with (1 := S2); rewrite !Rmult_assoc; apply Rmult_le_compat_r; [apply Rmult_le_pos; [rewrite U; lra|lra]|lra]|]. split; [apply Rle_trans with (1 := S3); apply Rmult_le_compat_r; lra|lra]. }
      apply WK with (1 := sp_bavg k _ _ _ _ HK T ltac:(lra)); lra.
    - apply WK with (1 := sp_bavg k _ _ _ _ HK A3 ltac:(lra)); lra.
    - apply WK with (1 := sp_bavg k _ _ _ _ HK (sp_sub k HK1 _ _ _ _ _ _ _ _ A1 A2 ltac:(lra)) ltac:(lra)); lra. }
  destruct F as (F0 & F1 & F2), C as (C0 & C1 & C2). destruct (ROW _ _ ltac:(now left) F0 C0) as (A00 & A01 & A02). destruct (ROW _ _ ltac:(right; now left) F1 C1) as (A10 & A11 & A12). destruct (ROW _ _ ltac:(right; right; now left) F2 C2) as (A20 & A21 & A22).
  pose proof (sp_add _ HG _ _ _ _ _ _ _ _ A02 A12 ltac:(lra)) as B1. pose proof (sp_add _ HG _ _ _ _ _ _ _ _ B1 A22 ltac:(lra)) as B2. pose proof (sp_add _ HG _ _ _ _ _ _ _ _ B2 A00 ltac:(lra)) as B3. pose proof (sp_add _ HG _ _ _ _ _ _ _ _ B3 A10 ltac:(lra)) as B4.
  pose proof (sp_add _ HG _ _ _ _ _ _ _ _ B4 A20 ltac:(lra)) as B5. pose proof (sp_add _ HG _ _ _ _ _ _ _ _ B5 A01 ltac:(lra)) as B6. pose proof (sp_add _ HG _ _ _ _ _ _ _ _ B6 A11 ltac:(lra)) as B7. pose proof (sp_add _ HG _ _ _ _ _ _ _ _ B7 A21 ltac:(lra)) as B8.
  pose proof (sp_times _ HG f3half _ _ _ _ eq_refl ltac:(rewrite V3H, Rabs_pos_eq; lra) B8 ltac:(lra)) as (S1 & S2 & _). split; [exact S1|].
  assert (E38 : / 2 ^ 38 = 32768 * u53) by (rewrite U; cbn [pow]; lra). rewrite E38. rewrite V3H in S2. match type of S2 with Rabs (B2R _ - ?x) <= ?y => assert (S2' : Rabs (B2R g - x) <= y) by exact S2 end. clear S2. rename S2' into S2.
  assert (KB : 0 <= k / bavg) by (assert (0 < / 2 ^ 200) by (apply Rinv_0_lt_compat, pow_lt; lra); lra). assert (UK : 0 <= u53 * (k / bavg)) by (apply Rmult_le_pos; [rewrite U; lra|exact KB]).
  unfold total9, nye_of, abs3. cbn [r0 r1 r2 vx vy vz]. replace (30 / 20) with (3 / 2) by lra.
  match type of S2 with Rabs (_ - ?x) <= _ => match goal with |- Rabs (_ - ?y) <= _ => replace y with x by ring end end.
  apply Rle_trans with (1 := S2). rewrite !Rmult_assoc. apply Rmult_le_compat_r; [exact UK|lra].
Qed.
Print Assumptions C136_gnd.

(** So on a uniform map the density is at most 2^-36 of 10^6 over the step and the Burgers vector, which for a step of one
    is about 10^5, where values of interest are about 10^12 and above. *)
Theorem C136_uniform_gnd : forall sq dot3, good_square sq -> any_order3 dot3 -> forall q step, near_unit (/ 2 ^ 41) q -> / 2 ^ 100 <= B2R step <= 2 ^ 100 ->
  let g := gnd_f (nye_f (distortion_f sq dot3 step q q)) in is_finite g = true /\ Rabs (B2R g) <= / 2 ^ 36 * (10 ^ 6 / B2R step / bavg).
Proof.
  intros sq dot3 G D q step NQ ST g. destruct (C136_gnd sq dot3 G D q q step NQ NQ ST) as (F & E). fold g in F, E. split; [exact F|]. rewrite own_columns in E. set (n := dot (value q) (value q)) in *. set (k := 10 ^ 6 / B2R step) in *.
  destruct NQ as (_ & N). fold n in N. apply Rabs_le_inv in N. set (e := / 2 ^ 47) in *. assert (E1 : / 2 ^ 41 = 64 * e) by (unfold e; cbn [pow]; lra). assert (E2 : / 2 ^ 38 = 512 * e) by (unfold e; cbn [pow]; lra). assert (E3 : / 2 ^ 36 = 2048 * e) by (unfold e; cbn [pow]; lra).
  rewrite E1 in N. rewrite E2 in E. rewrite E3. assert (E0 : 0 < e <= / 1000000) by (unfold e; cbn [pow]; lra). assert (NN : Rabs (n * n - 1) <= 129 * e) by (apply Rabs_le; split; nra).
  assert (P : 0 < / 2 ^ 100) by (apply Rinv_0_lt_compat, pow_lt; lra). assert (K0 : 0 < k) by (unfold k; apply Rdiv_lt_0_compat; [apply pow_lt; lra|lra]). assert (BP : 0 < / bavg) by (apply Rinv_0_lt_compat; unfold bavg; cbn [pow]; lra).
  assert (KB : 0 < k / bavg) by (apply Rmult_lt_0_compat; assumption).
  assert (T : total9 (nye_of (mscale k (madd (mscale (n * n) mone) (mscale (-1) mone)), mscale k (madd (mscale (n * n) mone) (mscale (-1) mone)))) = 6 * (Rabs (n * n - 1) * (k / bavg))).
  { unfold total9, nye_of, abs3, mscale, madd, vscale, vadd, mone. cbn [r0 r1 r2 vx vy vz]. assert (Z : forall x, x = 0 -> Rabs x = 0) by (intros ? ->; apply Rabs_R0). unfold Rdiv.
    assert (M : Rabs ((n * n - 1) * (k / bavg)) = Rabs (n * n - 1) * (k / bavg)) by (rewrite Rabs_mult, (Rabs_pos_eq (k / bavg)) by lra; reflexivity). unfold Rdiv in M.
    replace (-1 * (k * (n * n * 0 + -1 * 0)) * / bavg) with 0 by ring. replace (k * (n * n * 0 + -1 * 0) * / bavg) with 0 by ring. replace ((k * (n * n * 1 + -1 * 1) - k * (n * n * 0 + -1 * 0)) * / bavg) with ((n * n - 1) * (k * / bavg)) by ring.
    replace ((k * (n * n * 0 + -1 * 0) - k * (n * n * 1 + -1 * 1)) * / bavg) with (- ((n * n - 1) * (k * / bavg))) by ring. replace ((k * (n * n * 0 + -1 * 0) - k * (n * n * 0 + -1 * 0)) * / bavg) with 0 by ring.
    replace (-1 * (k * (n * n * 1 + -1 * 1)) * / bavg) with (- ((n * n - 1) * (k * / bavg))) by ring. replace (k * (n * n * 1 + -1 * 1) * / bavg) with ((n * n - 1) * (k * / bavg)) by ring. rewrite Rabs_Ropp, Rabs_R0, M. field. apply Rgt_not_eq. unfold bavg. cbn [pow]. lra. }
  rewrite T in E. assert (L : Rabs (n * n - 1) * (k / bavg) <= 129 * e * (k / bavg)) by (apply Rmult_le_compat_r; lra). assert (EK : 0 < e * (k / bavg)) by (apply Rmult_lt_0_compat; lra). assert (L0 : 0 <= Rabs (n * n - 1) * (k / bavg)) by (apply Rmult_le_pos; [apply Rabs_pos|lra]).
  apply Rabs_le_inv in E. apply Rabs_le. lra.
Qed.
Print Assumptions C136_uniform_gnd.

(** nan in either orientation makes the density nan. *)
Theorem C136_nan : forall sq dot3, good_square sq -> any_order3 dot3 -> forall q p step, In B754_nan [fw q; fx q; fy q; fz q; fw p; fx p; fy p; fz p] ->
  all_nan (distortion_f sq dot3 step q p) /\ gnd_f (nye_f (distortion_f sq dot3 step q p)) = B754_nan.
Proof.
  intros sq dot3 G D q p step H. assert (A : all_nan (distortion_f sq dot3 step q p)).
  { assert (R1 : all_nan (rot_matrix_f sq (times_f dot3 (conjugate_f p) q))).
    { apply C135_nan; [exact G|]. assert (N : mul_south_f dot3 (conjugate_f p) q = nan4).
      { assert (H' : has_nan4 q \/ has_nan4 p) by (unfold has_nan4; cbn in H; intuition congruence). destruct H' as [H'|H']; [apply nan_product; tauto|].
        apply nan_conj in H'. destruct H' as [H'|H']; [|apply nan_product; tauto]. unfold mul_south_f, nan4. rewrite H'. f_equal; seek. }
      unfold times_f. cbv zeta. rewrite N. now left. }
    unfold all_nan, distortion_f in *. cbv zeta in *. rewrite R1. unfold entrywise. cbn [row0 row1 row2 f_x f_y f_z].
    rewrite !(nan_sub B754_nan) by (now left). rewrite !nan_div. reflexivity. }
  split; [exact A|]. unfold all_nan in A. cbv zeta in A. rewrite A. reflexivity.
Qed.
Print Assumptions C136_nan.

(** Every symmetry equivalent the loop may choose (the first list entry is the orientation itself) meets the hypothesis on the neighbour, if the orientation it comes from is within 2^-42 of norm one. *)
Theorem C136_equivalents : forall g q c, near_unit (/ 2 ^ 42) q -> In c (eqvs_f g q) -> near_unit (/ 2 ^ 41) c.
Proof.
  intros g q c' (FQ & NQ) I. apply Rabs_le_inv in NQ. assert (P42 : / 2 ^ 42 <= / 8) by (apply Rinv_le_contravar; cbn [pow]; lra).
  assert (SQ : sound q) by (split; [exact FQ|lra]). pose proof (eqvs_near g q SQ) as EN. destruct (forall2_nth _ _ _ EN) as (_ & H & _). apply In_nth_error in I as (k & NK). destruct (H k c' NK) as (c & NC & c0 & C & NR).
  assert (D : dot c0 c0 = dot (value q) (value q)).
  { rewrite <- (column_norm g (value q) c (nth_error_In _ _ NC)). destruct C as [-> | ->]; [reflexivity|]. unfold dot, qneg; cbn [qw qx qy qz]; ring. }
  destruct NR as ((F1 & E1 & _) & (F2 & E2 & _) & (F3 & E3 & _) & (F4' & E4 & _)). split; [unfold finite4; auto|].
  assert (B : forall x y, Rabs (y - x) <= 28 * u53 -> x * x <= 5 / 4 -> - (113 * u53) <= y * y - x * x <= 113 * u53).
  { intros x y Y X. pose proof u53_is as U. assert (UP : 0 < u53 <= / 1000000000) by (rewrite U; lra). apply Rabs_le_inv.
    replace (y * y - x * x) with ((y - x) * (2 * x + (y - x))) by ring. rewrite Rabs_mult.
    assert (AX : Rabs (2 * x + (y - x)) <= 4 + 28 * u53). { assert (Rabs x <= 2) by (apply Rabs_le; split; nra). apply Rabs_le_inv in Y. apply Rabs_le_inv in H0. apply Rabs_le. lra. }
    apply Rle_trans with (28 * u53 * (4 + 28 * u53)); [apply Rmult_le_compat; auto using Rabs_pos|]. nra. }
  assert (ED : dot c0 c0 <= 5 / 4) by lra. unfold dot in ED.
  pose proof (Rle_0_sqr (qw c0)) as S1. pose proof (Rle_0_sqr (qx c0)) as S2. pose proof (Rle_0_sqr (qy c0)) as S3. pose proof (Rle_0_sqr (qz c0)) as S4. unfold Rsqr in *.
  pose proof (B _ _ E1 ltac:(lra)) as B1. pose proof (B _ _ E2 ltac:(lra)) as B2. pose proof (B _ _ E3 ltac:(lra)) as B3. pose proof (B _ _ E4 ltac:(lra)) as B4.
  rewrite <- D in NQ. unfold dot in NQ. unfold dot, value. cbn [qw qx qy qz]. assert (L : / 2 ^ 42 + 452 * u53 <= / 2 ^ 41) by (rewrite u53_is; cbn [pow]; lra).
  apply Rabs_le. lra.
Qed.
Print Assumptions C136_equivalents.

(** A uniform map has no dislocations, but by rounding a density above one is computed for it. *)
Theorem C136_uniform_refuted : exists sq dot3 q step, good_square sq /\ any_order3 dot3 /\ near_unit (/ 2 ^ 41) q /\ B2R step = 1 /\
  is_finite (gnd_f (nye_f (distortion_f sq dot3 step q q))) = true /\ 1 < B2R (gnd_f (nye_f (distortion_f sq dot3 step q q))).
Proof.
  exists (fun x => fmul x x), left_to_right3, (unit_of 5 0 0 1), f1. destruct f1_is as (V1 & F1). split; [exact mul_square|]. split; [exact lr_any3|]. split; [apply unit_near_Z; lia|]. split; [exact V1|].
  set (g := gnd_f _). assert (F : is_finite g = true) by (vm_compute; reflexivity). split; [exact F|]. assert (L : flt f1 g = true) by (vm_compute; reflexivity).
  rewrite flt_is in L by assumption. rewrite V1 in L. destruct (Rlt_bool_spec 1 (B2R g)); [assumption|discriminate].
Qed.
Print Assumptions C136_uniform_refuted.

(** The rotations (1, 4, 1, 6) / sqrt 54 and (1, 2, 3, 4) / sqrt 30, a step of one. *)
Example C136_met : good_square (fun x => fmul x x) /\ any_order3 left_to_right3 /\ near_unit (/ 2 ^ 41) (unit_of 1 4 1 6) /\ near_unit (/ 2 ^ 41) (unit_of 1 2 3 4) /\ / 2 ^ 100 <= B2R f1 <= 2 ^ 100.
Proof.
  split; [exact mul_square|]. split; [exact lr_any3|]. split; [apply unit_near_Z; lia|]. split; [apply unit_near_Z; lia|]. rewrite (proj1 f1_is). assert (1 <= 2 ^ 100) by (apply pow_R1_Rle; lra).
  split; [rewrite <- Rinv_1; apply Rinv_le_contravar; lra|assumption].
Qed.
