(** Rounding errors of orientations from Euler angles. *)
From Coq Require Import String Reals Lra Psatz.
From Coq Require Import List ZArith Bool Lia.
From Flocq Require Import Core IEEE754.BinarySingleNaN Mult_error.
From Verif Require Import Grid Quat_Model Quat_Spec Boundary_Model Double_Model Double_Spec Double_Proofs Double_Angle Single_Model Single_Spec.
Import ListNotations.
Open Scope R_scope.

Notation fexp32 := (SpecFloat.fexp 24 128).
Notation rnd32 := (round radix2 fexp32 ZnearestE).
Lemma fexp32_flt : fexp32 = FLT_exp (-149) 24.
Proof. reflexivity. Qed.
#[global] Instance valid_exp32 : Valid_exp fexp32.
Proof. apply (fexp_correct 24 128). reflexivity. Qed.
Lemma rnd32_err k x : (-100 <= k)%Z -> Rabs x <= bpow radix2 k -> Rabs (rnd32 x - x) <= bpow radix2 (k - 25).
Proof.
  intros K B. destruct (Req_dec x 0) as [->|NZ]; [rewrite round_0 by typeclasses eauto; rewrite Rminus_0_r, Rabs_R0; apply bpow_ge_0|].
  destruct B as [B|B].
  - apply Rle_trans with (1 := error_le_half_ulp radix2 fexp32 (fun z => negb (Z.even z)) x). rewrite ulp_neq_0 by exact NZ.
    apply Rle_trans with (/ 2 * bpow radix2 (k - 24)).
    + apply Rmult_le_compat_l; [lra|]. apply bpow_le. unfold cexp. rewrite fexp32_flt. unfold FLT_exp.
      assert (mag radix2 x <= k)%Z by (apply mag_le_bpow; assumption). lia.
    + replace (k - 24)%Z with (1 + (k - 25))%Z by lia. rewrite bpow_plus. simpl (bpow radix2 1). lra.
  - assert (G : generic_format radix2 fexp32 x).
    { apply generic_format_abs_inv. rewrite B. apply generic_format_bpow. rewrite fexp32_flt. unfold FLT_exp. lia. }
    rewrite round_generic by (assumption || typeclasses eauto). rewrite Rminus_eq_0, Rabs_R0. apply bpow_ge_0.
Qed.
Lemma small_rnd32 k x : (-100 <= k <= 100)%Z -> Rabs x <= bpow radix2 k -> Rlt_bool (Rabs (rnd32 x)) (bpow radix2 128) = true.
Proof.
  intros K B. apply Rlt_bool_true. apply Rle_lt_trans with (bpow radix2 k); [|apply bpow_lt; lia].
  apply abs_round_le_generic; [typeclasses eauto|typeclasses eauto|apply generic_format_bpow; rewrite fexp32_flt; unfold FLT_exp; lia|exact B].
Qed.
Definition within32 (k : Z) (v : f32) (x : R) : Prop := is_finite v = true /\ B2R v = rnd32 x /\ Rabs (B2R v - x) <= bpow radix2 (k - 25).
Lemma within32_rnd k v x : (-100 <= k)%Z -> Rabs x <= bpow radix2 k -> is_finite v = true -> B2R v = rnd32 x -> within32 k v x.
Proof. intros K B F E. split; [exact F|]. split; [exact E|]. rewrite E. now apply rnd32_err. Qed.
Lemma smul_in k x y : (-100 <= k <= 100)%Z -> is_finite x = true -> is_finite y = true -> Rabs (B2R x * B2R y) <= bpow radix2 k -> within32 k (smul x y) (B2R x * B2R y).
Proof.
  intros K FX FY B. pose proof (Bmult_correct 24 128 _ _ mode_NE x y) as C. rewrite round_mode_is, (small_rnd32 k _ K B) in C. destruct C as (C1 & C2 & _).
  apply within32_rnd; auto; try lia. unfold smul. rewrite C2. now rewrite FX, FY.
Qed.
Lemma sadd_in k x y : (-100 <= k <= 100)%Z -> is_finite x = true -> is_finite y = true -> Rabs (B2R x + B2R y) <= bpow radix2 k -> within32 k (sadd x y) (B2R x + B2R y).
Proof.
  intros K FX FY B. pose proof (Bplus_correct 24 128 _ _ mode_NE x y FX FY) as C. rewrite round_mode_is, (small_rnd32 k _ K B) in C. destruct C as (C1 & C2 & _).
  apply within32_rnd; auto; lia.
Qed.
Lemma ssub_in k x y : (-100 <= k <= 100)%Z -> is_finite x = true -> is_finite y = true -> Rabs (B2R x - B2R y) <= bpow radix2 k -> within32 k (ssub x y) (B2R x - B2R y).
Proof.
  intros K FX FY B. pose proof (Bminus_correct 24 128 _ _ mode_NE x y FX FY) as C. rewrite round_mode_is, (small_rnd32 k _ K B) in C. destruct C as (C1 & C2 & _).
  apply within32_rnd; auto; lia.
Qed.
Lemma s2_is : B2R s2 = 2.
Proof. unfold s2, number32. rewrite B2R_SF2B. unfold SF2R, F2R. cbn [Fnum Fexp cond_Zopp]. unfold bpow. cbn [radix2 radix_val Z.pow_pos Pos.iter Z.mul Pos.mul]. lra. Qed.
(** Halves. *)
Lemma half_in x : is_finite x = true -> Rabs (B2R x) <= 16 -> is_finite (sdiv x s2) = true /\ Rabs (B2R (sdiv x s2) - B2R x / 2) <= bpow radix2 (-60).
Proof.
  intros F B. assert (N : B2R s2 <> 0) by (rewrite s2_is; lra).
  assert (B2 : Rabs (B2R x / 2) <= bpow radix2 3) by (unfold Rdiv; rewrite Rabs_mult, (Rabs_pos_eq (/ 2)) by lra; change (bpow radix2 3) with 8; lra).
  pose proof (Bdiv_correct 24 128 _ _ mode_NE x s2 N) as C. rewrite s2_is, round_mode_is, (small_rnd32 3 _ ltac:(lia) B2) in C. destruct C as (C1 & C2 & _).
  unfold sdiv. rewrite C2. split; [exact F|]. rewrite C1.
  destruct (Rle_dec (Rabs (B2R x / 2)) (bpow radix2 (-35))) as [L|L]; [exact (rnd32_err (-35) _ ltac:(lia) L)|].
  assert (G : generic_format radix2 fexp32 (B2R x / 2)).
  { replace (B2R x / 2) with (B2R x * bpow radix2 (-1)) by (change (bpow radix2 (-1)) with (/ 2); reflexivity). rewrite fexp32_flt.
    apply (mult_bpow_exact_FLT radix2 (-149) 24); [rewrite <- fexp32_flt; apply (generic_format_B2R 24 128)|].
    assert (-35 < mag radix2 (B2R x))%Z; [|lia]. apply mag_gt_bpow. apply Rlt_le, Rnot_le_lt. intros H. apply L. unfold Rdiv. rewrite Rabs_mult, (Rabs_pos_eq (/ 2)) by lra. pose proof (bpow_gt_0 radix2 (-35)). lra. }
  rewrite round_generic by (assumption || typeclasses eauto). rewrite Rminus_eq_0, Rabs_R0. apply bpow_ge_0.
Qed.
(** Widening is exact. *)
Lemma widen_is x : is_finite x = true -> is_finite (widen x) = true /\ B2R (widen x) = B2R x.
Proof.
  destruct x as [s|s| |s m e B]; try discriminate; intros _; [split; reflexivity|]. cbn [widen].
  pose proof (binary_normalize_correct 53 1024 _ _ mode_NE (SpecFloat.cond_Zopp s (Zpos m)) e s) as C. cbv zeta in C. rewrite round_mode_is in C.
  assert (V : F2R (Float radix2 (SpecFloat.cond_Zopp s (Zpos m)) e) = B2R (B754_finite s m e B)) by reflexivity.
  assert (AB : Rabs (B2R (B754_finite s m e B)) < bpow radix2 128) by apply abs_B2R_lt_emax.
  assert (G : generic_format radix2 (SpecFloat.fexp 53 1024) (F2R (Float radix2 (SpecFloat.cond_Zopp s (Zpos m)) e))).
  { rewrite V. apply generic_inclusion_mag with fexp32; [|apply (generic_format_B2R 24 128)]. intros _. rewrite fexp_flt, fexp32_flt. unfold FLT_exp. lia. }
  rewrite (round_generic _ _ _ _ G) in C. rewrite V in C. rewrite Rlt_bool_true in C; [|apply Rlt_trans with (1 := AB); apply bpow_lt; lia].
  destruct C as (C1 & C2 & _). split; assumption.
Qed.

(** Sine and cosine do not spread. *)
Lemma sin_le_pos t : 0 < t -> Rabs (sin t) <= t.
Proof.
  intros P. destruct (Rle_dec t PI) as [Q|Q]; [rewrite Rabs_pos_eq by (apply sin_ge_0; lra); left; now apply sin_lt_x|].
  pose proof (SIN_bound t). pose proof PI2_1. apply Rabs_le. lra.
Qed.
Lemma sin_le_abs t : Rabs (sin t) <= Rabs t.
Proof.
  destruct (Rtotal_order t 0) as [L|[->|L]].
  - pose proof (sin_le_pos (- t) ltac:(lra)) as P. rewrite sin_neg, Rabs_Ropp in P. rewrite (Rabs_left t) by exact L. exact P.
  - rewrite sin_0. apply Rle_refl.
  - rewrite (Rabs_pos_eq t) by lra. now apply sin_le_pos.
Qed.
Lemma abs_sin1 t : Rabs (sin t) <= 1. Proof. apply Rabs_le. apply SIN_bound. Qed.
Lemma abs_cos1 t : Rabs (cos t) <= 1. Proof. apply Rabs_le. apply COS_bound. Qed.
Lemma cos_lip a b : Rabs (cos a - cos b) <= Rabs (a - b).
Proof.
  rewrite form2. rewrite !Rabs_mult. replace (Rabs (-2)) with 2 by (rewrite Rabs_left; lra).
  pose proof (sin_le_abs ((a - b) / 2)) as S1. pose proof (abs_sin1 ((a + b) / 2)) as S2. pose proof (Rabs_pos (sin ((a - b) / 2))). pose proof (Rabs_pos (sin ((a + b) / 2))).
  unfold Rdiv in S1 at 2. rewrite Rabs_mult, (Rabs_pos_eq (/ 2)) in S1 by lra. nra.
Qed.
Lemma sin_lip a b : Rabs (sin a - sin b) <= Rabs (a - b).
Proof.
  rewrite form4. rewrite !Rabs_mult. rewrite (Rabs_pos_eq 2) by lra.
  pose proof (sin_le_abs ((a - b) / 2)) as S1. pose proof (abs_cos1 ((a + b) / 2)) as S2. pose proof (Rabs_pos (sin ((a - b) / 2))). pose proof (Rabs_pos (cos ((a + b) / 2))).
  unfold Rdiv in S1 at 2. rewrite Rabs_mult, (Rabs_pos_eq (/ 2)) in S1 by lra. nra.
Qed.

(** One pixel. *)
Notation E32 := (11 / 20000000).
Lemma small_powers : bpow radix2 (-60) <= / 1000000000000 /\ bpow radix2 (-21) <= 476838/1000000000000 /\ bpow radix2 (-24) <= 59605/1000000000000 /\ / 2 ^ 23 <= 119210/1000000000000.
Proof. unfold bpow. cbn [radix2 radix_val Z.pow_pos Pos.iter Z.mul Pos.mul pow]. repeat split; lra. Qed.
Section Trig.
Variables cos_s sin_s : f32 -> f32.
Hypothesis COS : good_trig cos_s cos.
Hypothesis SIN : good_trig sin_s sin.
Definition near32 (v : f32) (x e : R) : Prop := is_finite v = true /\ Rabs (B2R v - x) <= e /\ Rabs x <= 1.
Lemma trig_near f g y t d : (good_trig f g) -> (forall a b, Rabs (g a - g b) <= Rabs (a - b)) -> (forall a, Rabs (g a) <= 1) ->
  is_finite y = true -> Rabs (B2R y) <= 9 -> Rabs (B2R y - t) <= d -> near32 (f y) (g t) (/ 2 ^ 23 + d).
Proof.
  intros G L O F B D. destruct (G y F B) as (F1 & E1). split; [exact F1|]. split; [|apply O].
  replace (B2R (f y) - g t) with ((B2R (f y) - g (B2R y)) + (g (B2R y) - g t)) by ring. apply Rle_trans with (1 := Rabs_triang _ _). pose proof (L (B2R y) t). lra.
Qed.
Lemma neg_near v x e : near32 v x e -> near32 (sneg v) (- x) e.
Proof.
  intros (F & E & B). unfold sneg. split; [now rewrite is_finite_Bopp|]. rewrite B2R_Bopp, Rabs_Ropp. split; [|exact B].
  replace (- B2R v - - x) with (- (B2R v - x)) by ring. now rewrite Rabs_Ropp.
Qed.
Lemma mul32_near v w x y e f : near32 v x e -> near32 w y f -> 0 <= e <= / 1000 -> 0 <= f <= / 1000 -> e + f + e * f + bpow radix2 (-24) <= E32 ->
  is_finite (widen (smul v w)) = true /\ Rabs (B2R (widen (smul v w)) - x * y) <= E32.
Proof.
  intros (FV & EV & BX) (FW & EW & BY) LE LF T.
  assert (AV : Rabs (B2R v) <= 1 + e) by (replace (B2R v) with (x + (B2R v - x)) by ring; apply Rle_trans with (1 := Rabs_triang _ _); lra).
  assert (AW : Rabs (B2R w) <= 1 + f) by (replace (B2R w) with (y + (B2R w - y)) by ring; apply Rle_trans with (1 := Rabs_triang _ _); lra).
  destruct (smul_in 1 v w ltac:(lia) FV FW) as (G1 & _ & G2).
  { rewrite Rabs_mult. change (bpow radix2 1) with 2. apply Rle_trans with ((1 + e) * (1 + f)); [apply Rmult_le_compat; auto using Rabs_pos|nra]. }
  change (1 - 25)%Z with (-24)%Z in G2. destruct (widen_is _ G1) as (W1 & W2). split; [exact W1|]. rewrite W2.
  replace (B2R (smul v w) - x * y) with ((B2R (smul v w) - B2R v * B2R w) + (B2R v * (B2R w - y) + y * (B2R v - x))) by ring.
  apply Rle_trans with (1 := Rabs_triang _ _). pose proof (Rabs_triang (B2R v * (B2R w - y)) (y * (B2R v - x))) as T2. rewrite !Rabs_mult in T2.
  assert (Rabs (B2R v) * Rabs (B2R w - y) <= (1 + e) * f) by (apply Rmult_le_compat; auto using Rabs_pos).
  assert (Rabs y * Rabs (B2R v - x) <= 1 * e) by (apply Rmult_le_compat; auto using Rabs_pos). lra.
Qed.
(** The components without the swap of hemispheres. *)
Definition raw_euler (e : f32 * f32 * f32) : quat := let '(p1, p, p2) := e in
  Q4 (cos (B2R p / 2) * cos ((B2R p1 + B2R p2) / 2)) (- sin (B2R p / 2) * cos ((B2R p1 - B2R p2) / 2))
     (- sin (B2R p / 2) * sin ((B2R p1 - B2R p2) / 2)) (- cos (B2R p / 2) * sin ((B2R p1 + B2R p2) / 2)).
Definition close32 (q : fquat) (x : quat) : Prop := finite4 q /\
  Rabs (B2R (fw q) - qw x) <= E32 /\ Rabs (B2R (fx q) - qx x) <= E32 /\ Rabs (B2R (fy q) - qy x) <= E32 /\ Rabs (B2R (fz q) - qz x) <= E32.
Lemma close32_neg q x : close32 q x -> close32 (fqneg q) (qneg x).
Proof.
  intros ((F1 & F2 & F3 & F4') & A & B & C & D). unfold close32, finite4, fqneg, qneg, fneg. cbn [fw fx fy fz qw qx qy qz]. rewrite !is_finite_Bopp, !B2R_Bopp.
  split; [auto|]. assert (N : forall u v, Rabs (u - v) <= E32 -> Rabs (- u - - v) <= E32) by (intros u v H; replace (- u - - v) with (- (u - v)) by ring; now rewrite Rabs_Ropp).
  split; [|split; [|split]]; now apply N.
Qed.
Lemma euler_near e : some_angles e -> exists x, (x = raw_euler e \/ x = qneg (raw_euler e)) /\ close32 (euler_quat cos_s sin_s e) x.
Proof.
  destruct e as ((p1, p), p2). intros ((F1 & B1) & (F & B) & (F2 & B2)). destruct small_powers as (P60 & P21 & P24 & P23).
  pose proof (bpow_gt_0 radix2 (-60)) as G60.
  destruct (half_in p F ltac:(lra)) as (FH & EH).
  assert (BH : Rabs (B2R (sdiv p s2)) <= 9).
  { apply Rabs_le_inv in EH. apply Rabs_le_inv in B. apply Rabs_le. lra. }
  assert (ARG : forall s x, is_finite s = true -> Rabs (B2R s - x) <= bpow radix2 (-21) -> Rabs x <= 15.8 -> is_finite (sdiv s s2) = true /\ Rabs (B2R (sdiv s s2)) <= 9 /\ Rabs (B2R (sdiv s s2) - x / 2) <= bpow radix2 (-21) / 2 + bpow radix2 (-60)).
  { intros s x FS ES BX. apply Rabs_le_inv in ES. apply Rabs_le_inv in BX. destruct (half_in s FS) as (G1 & G2); [apply Rabs_le; lra|]. split; [exact G1|]. apply Rabs_le_inv in G2. split; apply Rabs_le; lra. }
  assert (BB : Rabs (B2R p1 + B2R p2) <= 15.8 /\ Rabs (B2R p1 - B2R p2) <= 15.8).
  { apply Rabs_le_inv in B1. apply Rabs_le_inv in B2. split; apply Rabs_le; lra. }
  destruct (sadd_in 4 p1 p2 ltac:(lia) F1 F2) as (SF & _ & SE); [change (bpow radix2 4) with 16; lra|]. change (4 - 25)%Z with (-21)%Z in SE.
  destruct (ssub_in 4 p1 p2 ltac:(lia) F1 F2) as (DF & _ & DE); [change (bpow radix2 4) with 16; lra|]. change (4 - 25)%Z with (-21)%Z in DE.
  destruct (ARG _ _ SF SE (proj1 BB)) as (S1 & S2 & S3). destruct (ARG _ _ DF DE (proj2 BB)) as (D1 & D2 & D3).
  pose proof (trig_near cos_s cos _ _ _ COS cos_lip abs_cos1 FH BH EH) as CH. pose proof (trig_near sin_s sin _ _ _ SIN sin_lip abs_sin1 FH BH EH) as SH.
  pose proof (trig_near cos_s cos _ _ _ COS cos_lip abs_cos1 S1 S2 S3) as CS. pose proof (trig_near sin_s sin _ _ _ SIN sin_lip abs_sin1 S1 S2 S3) as SS.
  pose proof (trig_near cos_s cos _ _ _ COS cos_lip abs_cos1 D1 D2 D3) as CD. pose proof (trig_near sin_s sin _ _ _ SIN sin_lip abs_sin1 D1 D2 D3) as SD.
  assert (P0 : 0 <= / 2 ^ 23) by (cbn [pow]; lra). pose proof (bpow_gt_0 radix2 (-21)) as G21.
  assert (M : forall v w x y, near32 v x (/ 2 ^ 23 + bpow radix2 (-60)) -> near32 w y (/ 2 ^ 23 + (bpow radix2 (-21) / 2 + bpow radix2 (-60))) ->
     is_finite (widen (smul v w)) = true /\ Rabs (B2R (widen (smul v w)) - x * y) <= E32).
  { intros v w x y NV NW. apply (mul32_near v w x y _ _ NV NW); [lra|lra|].
    set (a := / 2 ^ 23 + bpow radix2 (-60)) in *. set (b := / 2 ^ 23 + (bpow radix2 (-21) / 2 + bpow radix2 (-60))) in *.
    assert (0 <= a <= (1193/10000000000)) by (unfold a; lra). assert (0 <= b <= (3577/10000000000)) by (unfold b; lra). assert (a * b <= (1193/10000000000) * (3577/10000000000)) by (apply Rmult_le_compat; lra). lra. }
  destruct (M _ _ _ _ CH CS) as (M1 & N1). destruct (M _ _ _ _ (neg_near _ _ _ SH) CD) as (M2 & N2).
  destruct (M _ _ _ _ (neg_near _ _ _ SH) SD) as (M3 & N3). destruct (M _ _ _ _ (neg_near _ _ _ CH) SS) as (M4 & N4).
  unfold euler_quat. cbv zeta. cbn [fw].
  match goal with |- context [if ?c then fqneg ?q else ?q] => assert (K : close32 q (raw_euler (p1, p, p2))) end.
  { unfold close32, finite4, raw_euler. cbn [fw fx fy fz qw qx qy qz]. repeat (split; [auto|]). exact N4. }
  match goal with |- context [if ?c then _ else _] => destruct c end.
  - exists (qneg (raw_euler (p1, p, p2))). split; [now right|]. now apply close32_neg.
  - exists (raw_euler (p1, p, p2)). split; [now left|exact K].
Qed.
End Trig.
