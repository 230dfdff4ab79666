(** Rounding in [calc_grod]. *)
From Coq Require Import String Reals Lra Psatz.
From Coq Require Import List ZArith Bool Lia.
From Flocq Require Import Core IEEE754.BinarySingleNaN.
From Verif Require Import Py Grid Quat_Model Boundary_Model Ebsd_Model Double_Model Double_Spec Double_Proofs Double_Angle Kam64_Model Kam64_Spec Kam64_Proofs.
Import ListNotations.
Open Scope R_scope.

(** ** The angle over its sine as a function of the cosine *)
Lemma sin_third a : 0 <= a <= PI / 2 -> a / 3 <= sin a.
Proof.
  intros A. pose proof PI_RGT_0 as P. pose proof PI_4 as P4. destruct (Rle_dec a (PI / 4)) as [L|L]; [pose proof (sin_half a ltac:(lra)); lra|].
  assert (S4 : sin (PI / 4) <= sin a) by (apply sin_incr_1; lra). pose proof (sin_half (PI / 4) ltac:(lra)) as _.
  assert (Q : 0.7 <= sin (PI / 4)).
  { rewrite sin_PI4. assert (1.4 <= sqrt 2 <= 1.42) by (split; [rewrite <- (sqrt_square 1.4) by lra|rewrite <- (sqrt_square 1.42) by lra]; apply sqrt_le_1; lra).
    apply Rmult_le_reg_r with (sqrt 2); [lra|]. unfold Rdiv. rewrite Rmult_assoc, Rinv_l by lra. lra. }
  lra.
Qed.
Lemma tan_above a : 0 <= a <= PI / 2 -> a * cos a <= sin a.
Proof.
  intros (A & B). destruct A as [A| <-]; [|rewrite sin_0; lra]. pose proof PI_RGT_0 as P.
  destruct (MVT_cor2 (fun x => sin x - x * cos x) (fun x => x * sin x) 0 a A) as (c & E & C1 & C2).
  { intros c C. replace (c * sin c) with (cos c - (1 * cos c + c * - sin c)) by ring.
    apply (derivable_pt_lim_minus sin (fun x => x * cos x)); [apply derivable_pt_lim_sin|].
    apply (derivable_pt_lim_mult (fun x => x) cos); [apply derivable_pt_lim_id|apply derivable_pt_lim_cos]. }
  cbv beta in E. rewrite sin_0 in E. pose proof (sin_ge_0 c ltac:(lra) ltac:(lra)) as S0. assert (0 <= c * sin c * (a - 0)) by (apply Rmult_le_pos; [apply Rmult_le_pos; lra|lra]). lra.
Qed.
Definition over_sine (t : R) : R := acos t / sqrt (1 - t * t).
Lemma sine_of t : 0 <= t < 1 -> 0 < sqrt (1 - t * t) /\ sin (acos t) = sqrt (1 - t * t) /\ sqrt (1 - t * t) * sqrt (1 - t * t) = 1 - t * t.
Proof.
  intros T. assert (0 < 1 - t * t) by nra. split; [now apply sqrt_lt_R0|]. split; [|apply sqrt_sqrt; lra]. rewrite sin_acos by lra. reflexivity.
Qed.
Lemma over_sine_range t : 0 <= t < 1 -> 1 <= over_sine t <= 3 /\ t * over_sine t <= 1.
Proof.
  intros T. destruct (sine_of t T) as (S0 & SE & _). pose proof (acos_range t ltac:(lra)) as A. unfold over_sine. rewrite <- SE in *.
  pose proof (sin_third _ A) as S3. pose proof (tan_above _ A) as TA. rewrite cos_acos in TA by lra.
  assert (A0 : 0 < acos t) by (destruct A as ([A|A] & _); [exact A|]; rewrite <- A, sin_0 in S0; lra).
  pose proof (sin_lt_x _ A0) as SL.
  split; [split|]; apply Rmult_le_reg_r with (sin (acos t)); try exact S0; unfold Rdiv; rewrite ?Rmult_assoc, ?Rinv_l by lra; lra.
Qed.
Lemma over_sine_deriv t : 0 <= t < 1 -> derivable_pt_lim over_sine t ((t * over_sine t - 1) / (1 - t * t)).
Proof.
  intros T. destruct (sine_of t T) as (S0 & _ & SS).
  assert (D1 : derivable_pt_lim acos t (-1 / sqrt (1 - t²))).
  { apply (proj1 (derive_pt_eq acos t _ (derivable_pt_acos t ltac:(lra)))). apply derive_pt_acos. }
  change (t²) with (t * t) in D1.
  assert (D2 : derivable_pt_lim (fun x => sqrt (1 - x * x)) t (/ (2 * sqrt (1 - t * t)) * (0 - (1 * t + t * 1)))).
  { apply (derivable_pt_lim_comp (fun x => 1 - x * x) sqrt); [|apply derivable_pt_lim_sqrt; nra].
    apply (derivable_pt_lim_minus (fun _ => 1) (fun x => x * x)); [apply derivable_pt_lim_const|].
    apply (derivable_pt_lim_mult (fun x => x) (fun x => x)); apply derivable_pt_lim_id. }
  pose proof (derivable_pt_lim_div acos (fun x => sqrt (1 - x * x)) t _ _ D1 D2 ltac:(lra)) as D. cbv beta in D.
  match type of D with derivable_pt_lim _ _ ?l => replace ((t * over_sine t - 1) / (1 - t * t)) with l; [exact D|] end.
  unfold over_sine, Rsqr. rewrite SS. set (s := sqrt (1 - t * t)) in *. rewrite <- SS. field. lra.
Qed.
Lemma over_sine_near t u : 0 <= t < 1 -> 0 <= u < 1 -> Rabs (over_sine t - over_sine u) <= Rabs (t - u).
Proof.
  assert (K : forall a b, 0 <= a < 1 -> 0 <= b < 1 -> a < b -> Rabs (over_sine b - over_sine a) <= Rabs (b - a)).
  { intros a b A B L. destruct (MVT_cor2 over_sine (fun t => (t * over_sine t - 1) / (1 - t * t)) a b L) as (c & E & C); [intros c C; apply over_sine_deriv; lra|].
    rewrite E, Rabs_mult. rewrite <- (Rmult_1_l (Rabs (b - a))) at 2. apply Rmult_le_compat_r; [apply Rabs_pos|].
    destruct (over_sine_range c ltac:(lra)) as (O1 & O2). assert (0 < 1 - c * c) by nra. assert (c * c <= c * over_sine c) by (apply Rmult_le_compat_l; lra).
    apply Rabs_le. split; apply Rmult_le_reg_r with (1 - c * c); try assumption; unfold Rdiv; rewrite ?Rmult_assoc, ?Rinv_l by lra; lra. }
  intros T U. destruct (Rtotal_order t u) as [L|[->|L]]; [rewrite Rabs_minus_sym, (Rabs_minus_sym t u); now apply K|rewrite !Rminus_eq_0; lra|now apply K].
Qed.

(** ** A component of the axis *)
Definition u25 := bpow radix2 (-25).
Lemma axis_near arccos t d T D : good_arccos arccos -> is_finite t = true -> is_finite d = true -> 0 <= B2R t <= 1 -> Rabs (B2R t - T) <= u44 -> 0 <= T <= 1 - u25 ->
  Rabs (B2R d - D) <= u44 -> Rabs D <= 2 ->
  is_finite (axis_f arccos t d) = true /\ Rabs (B2R (axis_f arccos t d) - 2 * D * over_sine T) <= / 1000000.
Proof.
  intros AC FT FD RT ET RT' ED BD. set (tv := B2R t) in *. set (dv := B2R d) in *. apply Rabs_le_inv in ET. apply Rabs_le_inv in ED. apply Rabs_le_inv in BD.
  assert (U25 : u25 = / 33554432) by (unfold u25; pows; lra). assert (U44 : u44 = / 17592186044416) by (pows; lra). rewrite U25, U44 in *.
  assert (T1 : tv <= 1 - / 67108864) by lra.
  destruct f1_is as (V1 & F1). destruct f2_is as (V2 & F2).
  (* 1 - t*t *)
  assert (TT : 0 <= tv * tv <= 1) by nra.
  destruct (fmul_in 0 t t ltac:(lia) FT FT) as (FQ & VQ & EQ & BQ); [fold tv; change (bpow radix2 0) with 1; apply Rabs_le; lra|]. fold tv in EQ, VQ.
  assert (PQ : 0 <= B2R (fmul t t)) by (rewrite VQ; apply rnd_pos; lra). change (bpow radix2 0) with 1 in BQ. apply Rabs_le_inv in BQ. apply Rabs_le_inv in EQ. change (0 - 54)%Z with (-54)%Z in EQ.
  destruct (fsub_in 0 f1 (fmul t t) ltac:(lia) F1 FQ) as (FW & VW & EW & _); [rewrite V1; change (bpow radix2 0) with 1; apply Rabs_le; lra|]. rewrite V1 in EW. apply Rabs_le_inv in EW. change (0 - 54)%Z with (-54)%Z in EW.
  set (w := fsub f1 (fmul t t)) in *. assert (U54 : bpow radix2 (-54) = / 18014398509481984) by (pows; lra). rewrite U54 in *.
  assert (W2 : / 67108864 <= 1 - tv * tv) by nra.
  assert (WE : Rabs (B2R w - (1 - tv * tv)) <= / 9007199254740992) by (apply Rabs_le; lra). apply Rabs_le_inv in WE.
  assert (WP : / 134217728 <= B2R w <= 2) by lra.
  destruct (sine_of tv ltac:(lra)) as (S0 & SE & SS). set (s := sqrt (1 - tv * tv)) in *.
  assert (SL : / 8192 <= s). { unfold s. rewrite <- (sqrt_square (/ 8192)) by lra. apply sqrt_le_1; lra. }
  assert (SU : s <= 1) by nra.
  (* the root *)
  destruct (Bsqrt_correct 53 1024 _ _ mode_NE w) as (VR & FR & _). rewrite round_mode_is in VR. fold (fsqrt w) in VR, FR.
  assert (FR' : is_finite (fsqrt w) = true).
  { rewrite FR. clear - WP FW. destruct w as [b|b| |b m e]; try reflexivity; try discriminate FW. destruct b; [|reflexivity].
    exfalso. cbn [B2R SpecFloat.cond_Zopp] in WP. assert (F2R (Float radix2 (Z.neg m) e) < 0) by (apply F2R_lt_0; cbn; lia). cbn in *. lra. }
  assert (RW : 0 <= sqrt (B2R w) <= 2). { split; [apply sqrt_pos|]. rewrite <- (sqrt_square 2) by lra. apply sqrt_le_1; lra. }
  pose proof (rnd_err 1 (sqrt (B2R w)) ltac:(lia) ltac:(change (bpow radix2 1) with 2; apply Rabs_le; lra)) as E4. rewrite <- VR in E4. change (1 - 54)%Z with (-53)%Z in E4.
  assert (U53 : u53 = / 9007199254740992) by (pows; lra). rewrite U53 in E4. apply Rabs_le_inv in E4.
  assert (RR : Rabs (sqrt (B2R w) - s) <= / 1099511627776).
  { assert (Q : (sqrt (B2R w) - s) * (sqrt (B2R w) + s) = B2R w - (1 - tv * tv)) by (rewrite <- SS; transitivity (sqrt (B2R w) * sqrt (B2R w) - s * s); [ring|]; rewrite sqrt_sqrt by lra; reflexivity).
    assert (Q2 : Rabs (sqrt (B2R w) - s) * (/ 8192) <= / 9007199254740992).
    { apply Rle_trans with (Rabs (sqrt (B2R w) - s) * (sqrt (B2R w) + s)); [apply Rmult_le_compat_l; [apply Rabs_pos|lra]|].
      rewrite <- (Rabs_pos_eq (sqrt (B2R w) + s)) by lra. rewrite <- Rabs_mult, Q. apply Rabs_le. lra. }
    lra. }
  apply Rabs_le_inv in RR.
  assert (RS : Rabs (B2R (fsqrt w) - s) <= / 549755813888) by (apply Rabs_le; lra). set (sv := B2R (fsqrt w)) in *.
  assert (SV : / 16384 <= sv) by (apply Rabs_le_inv in RS; lra).
  (* the numerator *)
  destruct (fmul_in 3 f2 d ltac:(lia) F2 FD) as (FN & _ & EN & BN); [rewrite V2; fold dv; change (bpow radix2 3) with 8; apply Rabs_le; lra|]. rewrite V2 in EN. fold dv in EN.
  change (3 - 54)%Z with (-51)%Z in EN. change (bpow radix2 3) with 8 in BN. set (n1 := fmul f2 d) in *.
  destruct (proj1 AC t FT RT) as (FA & EA). fold tv in EA. pose proof (acos_range tv RT) as RA. pose proof PI_4 as P4. set (av := B2R (arccos t)) in *.
  assert (P50 : / 2 ^ 50 = / 1125899906842624) by (cbn [pow]; lra). rewrite P50 in EA.
  assert (BA : Rabs av <= 3) by (apply Rabs_le_inv in EA; apply Rabs_le; lra).
  destruct (fmul_in 5 n1 (arccos t) ltac:(lia) FN FA) as (FM & _ & EM & _).
  { fold av. change (bpow radix2 5) with 32. rewrite Rabs_mult. apply Rle_trans with (8 * 3); [apply Rmult_le_compat; auto using Rabs_pos|lra]. }
  fold av in EM. change (5 - 54)%Z with (-49)%Z in EM. set (n2 := fmul n1 (arccos t)) in *.
  assert (U51 : bpow radix2 (-51) = / 2251799813685248) by (pows; lra). assert (U49 : bpow radix2 (-49) = / 562949953421312) by (pows; lra). rewrite U51 in EN. rewrite U49 in EM.
  assert (NE : Rabs (B2R n2 - 2 * dv * acos tv) <= / 35184372088832).
  { replace (B2R n2 - 2 * dv * acos tv) with ((B2R n2 - B2R n1 * av) + (B2R n1 - 2 * dv) * av + (2 * dv) * (av - acos tv)) by ring.
    assert (X1 : Rabs ((B2R n1 - 2 * dv) * av) <= / 2251799813685248 * 3) by (rewrite Rabs_mult; apply Rmult_le_compat; auto using Rabs_pos).
    assert (X2 : Rabs (2 * dv * (av - acos tv)) <= 5 * / 1125899906842624) by (rewrite Rabs_mult; apply Rmult_le_compat; auto using Rabs_pos; apply Rabs_le; lra).
    apply Rabs_le_inv in EM. apply Rabs_le_inv in X1. apply Rabs_le_inv in X2. apply Rabs_le. lra. }
  (* the quotient *)
  destruct (over_sine_range tv ltac:(lra)) as (O1 & _).
  assert (QE : Rabs (B2R n2 / sv - 2 * dv * over_sine tv) <= 4 / 10000000).
  { replace (B2R n2 / sv - 2 * dv * over_sine tv) with ((B2R n2 - 2 * dv * acos tv) * / sv + (2 * dv * over_sine tv) * ((s - sv) * / sv)) by (unfold over_sine; fold s; field; lra).
    assert (IV : 0 < / sv <= 16384) by (split; [apply Rinv_0_lt_compat; lra|rewrite <- (Rinv_inv 16384); apply Rinv_le_contravar; lra]).
    assert (X1 : Rabs ((B2R n2 - 2 * dv * acos tv) * / sv) <= / 35184372088832 * 16384) by (rewrite Rabs_mult, (Rabs_pos_eq (/ sv)) by lra; apply Rmult_le_compat; auto using Rabs_pos; lra).
    assert (X2 : Rabs ((s - sv) * / sv) <= / 549755813888 * 16384) by (rewrite Rabs_mult, (Rabs_pos_eq (/ sv)) by lra; apply Rmult_le_compat; auto using Rabs_pos; [lra|rewrite Rabs_minus_sym; exact RS|lra]).
    assert (X3 : Rabs (2 * dv * over_sine tv * ((s - sv) * / sv)) <= (4.1 * 3) * (/ 549755813888 * 16384)).
    { rewrite Rabs_mult. apply Rmult_le_compat; auto using Rabs_pos. rewrite Rabs_mult. apply Rmult_le_compat; auto using Rabs_pos; apply Rabs_le; lra. }
    apply Rabs_le_inv in X1. apply Rabs_le_inv in X3. apply Rabs_le. lra. }
  assert (M0 : Rabs (2 * dv * over_sine tv) <= 4.1 * 3) by (rewrite Rabs_mult; apply Rmult_le_compat; auto using Rabs_pos; apply Rabs_le; lra).
  destruct (fdiv_in 4 n2 (fsqrt w) ltac:(lia) FM) as (FZ & _ & EZ & _); [fold sv; lra| |].
  { fold sv. change (bpow radix2 4) with 16. apply Rabs_le_inv in QE. apply Rabs_le_inv in M0. apply Rabs_le. lra. }
  fold sv in EZ. change (4 - 54)%Z with (-50)%Z in EZ. assert (U50 : bpow radix2 (-50) = / 1125899906842624) by (pows; lra). rewrite U50 in EZ.
  assert (L1 : Rabs (over_sine tv - over_sine T) <= / 17592186044416) by (apply Rle_trans with (1 := over_sine_near tv T ltac:(lra) ltac:(lra)); apply Rabs_le; lra).
  assert (L2 : Rabs (2 * dv * over_sine tv - 2 * D * over_sine T) <= / 1000000000).
  { replace (2 * dv * over_sine tv - 2 * D * over_sine T) with (2 * (dv - D) * over_sine tv + 2 * D * (over_sine tv - over_sine T)) by ring.
    assert (X1 : Rabs (2 * (dv - D) * over_sine tv) <= 2 * / 17592186044416 * 3) by (rewrite Rabs_mult; apply Rmult_le_compat; auto using Rabs_pos; apply Rabs_le; lra).
    assert (X2 : Rabs (2 * D * (over_sine tv - over_sine T)) <= 4 * / 17592186044416) by (rewrite Rabs_mult; apply Rmult_le_compat; auto using Rabs_pos; apply Rabs_le; lra).
    apply Rabs_le_inv in X1. apply Rabs_le_inv in X2. apply Rabs_le. lra. }
  change (axis_f arccos t d) with (fdiv n2 (fsqrt w)). split; [exact FZ|].
  apply Rabs_le_inv in QE. apply Rabs_le_inv in EZ. apply Rabs_le_inv in L2. apply Rabs_le. lra.
Qed.

(** ** Products in the order of the reference *)
Lemma dot_comm a b : dot a b = dot b a.
Proof. unfold dot. ring. Qed.
Lemma dot_near_r q c' c v : sound q -> near4 c' c (28 * u53) 16 -> sums (pairs c' q) v ->
  is_finite v = true /\ Rabs (B2R (fabs v) - Rabs (dot c (value q))) <= u44.
Proof.
  intros SQ (C1 & C2 & C3 & C4) SM. destruct (sound_near q SQ) as (Q1 & Q2 & Q3 & Q4').
  assert (TI : forall a b x y, ap a x 0 2 -> ap b y (28 * u53) 16 -> term_in 5 (b, a)).
  { intros a b x y (FA & _ & BA) (FB & _ & BB). split; [exact FB|]. split; [exact FA|]. cbn [fst snd]. rewrite Rabs_mult, Rmult_comm. change (bpow radix2 5) with 32.
    apply Rle_trans with (2 * 16); [|lra]. apply Rmult_le_compat; auto using Rabs_pos. }
  destruct (sums_err 5 _ _ ltac:(lia) SM) as (F & _ & _ & E).
  { repeat (apply Forall_cons; [eapply TI; eassumption|]). apply Forall_nil. }
  { cbn. lia. }
  split; [exact F|]. unfold fabs. rewrite B2R_Babs.
  apply Rle_trans with (1 := Rabs_triang_inv2 _ _).
  replace (B2R v - dot c (value q)) with ((B2R v - total (pairs c' q)) + (total (pairs c' q) - dot c (value q))) by ring.
  apply Rle_trans with (1 := Rabs_triang _ _). unfold pairs in E at 2. cbn [List.length INR] in E. change (5 - 54)%Z with (4 + -53)%Z in E. rewrite bpow_plus in E. change (bpow radix2 4) with 16 in E.
  assert (T : Rabs (total (pairs c' q) - dot c (value q)) <= 224 * u53).
  { unfold total, pairs, dot. cbn [map fold_right fst snd].
    assert (M : forall a b x y, ap a x 0 2 -> ap b y (28 * u53) 16 -> Rabs (B2R b * B2R a - y * B2R a) <= 56 * u53).
    { intros a b x y (_ & _ & BA) (_ & EB & _). replace (B2R b * B2R a - y * B2R a) with (B2R a * (B2R b - y)) by ring. rewrite Rabs_mult.
      apply Rle_trans with (2 * (28 * u53)); [|lra]. apply Rmult_le_compat; auto using Rabs_pos. }
    pose proof (M _ _ _ _ Q1 C1) as M1. pose proof (M _ _ _ _ Q2 C2) as M2. pose proof (M _ _ _ _ Q3 C3) as M3. pose proof (M _ _ _ _ Q4' C4) as M4.
    unfold value. cbn [qw qx qy qz]. apply Rabs_le_inv in M1. apply Rabs_le_inv in M2. apply Rabs_le_inv in M3. apply Rabs_le_inv in M4. apply Rabs_le. lra. }
  rewrite u44_is. unfold pairs in E. cbv iota in E. change (total [(fw c', fw q); (fx c', fx q); (fy c', fy q); (fz c', fz q)]) with (total (pairs c' q)) in E.
  pose proof (bpow_gt_0 radix2 (-53)). lra.
Qed.

(** ** The largest *)
Definition finites (l : list f64) : Prop := Forall (fun v => is_finite v = true) l.
Lemma argmax_from_is l : finites l -> forall best bi i, is_finite best = true ->
  (argmax_from_f best bi i l = bi /\ (forall x, In x l -> B2R x <= B2R best)) \/
  (exists k m, argmax_from_f best bi i l = (i + k)%nat /\ nth_error l k = Some m /\ B2R best <= B2R m /\ forall x, In x l -> B2R x <= B2R m).
Proof.
  induction 1 as [|a l FA FL IH]; intros best bi i FB; cbn [argmax_from_f]; [left; split; [reflexivity|intros x []]|].
  rewrite (not_nan _ FB), (not_nan _ FA). cbn [orb]. rewrite flt_is by assumption. destruct (Rlt_bool_spec (B2R best) (B2R a)) as [L|L].
  - right. destruct (IH a i (S i) FA) as [(E & M)|(k & m & E & N & G & M)].
    + exists 0%nat, a. rewrite E. split; [lia|]. split; [reflexivity|]. split; [lra|]. intros x [<-|I]; [lra|now apply M].
    + exists (S k), m. rewrite E. split; [lia|]. split; [exact N|]. split; [lra|]. intros x [<-|I]; [lra|now apply M].
  - destruct (IH best bi (S i) FB) as [(E & M)|(k & m & E & N & G & M)].
    + left. split; [exact E|]. intros x [<-|I]; [lra|now apply M].
    + right. exists (S k), m. rewrite E. split; [lia|]. split; [exact N|]. split; [lra|]. intros x [<-|I]; [lra|now apply M].
Qed.
Lemma argmax_is l : finites l -> l <> [] -> exists m, nth_error l (argmax_f l) = Some m /\ forall x, In x l -> B2R x <= B2R m.
Proof.
  intros F NE. destruct F as [|a l FA FL]; [congruence|]. unfold argmax_f. destruct (argmax_from_is l FL a 0%nat 1%nat FA) as [(E & M)|(k & m & E & N & G & M)]; rewrite E.
  - exists a. split; [reflexivity|]. intros x [<-|I]; [lra|now apply M].
  - exists m. split; [exact N|]. intros x [<-|I]; [lra|now apply M].
Qed.

(** ** The equivalents *)
(** [c'] is near [c] or near its negative. *)
Definition eqv_near (c' : fquat) (c : quat) : Prop := exists c0, (c0 = c \/ c0 = qneg c) /\ near4 c' c0 (28 * u53) 16.
Lemma qneg2 c : qneg (qneg c) = c.
Proof. destruct c. unfold qneg. cbn. f_equal; ring. Qed.
Lemma comps_sign s q : sym_comps s q = raw s q \/ sym_comps s q = qneg (raw s q).
Proof. change (sym_comps s q) with (if Rlt_dec (qw (raw s q)) 0 then qneg (raw s q) else raw s q). destruct (Rlt_dec (qw (raw s q)) 0); auto. Qed.
Lemma eqvs_near g q : sound q -> Forall2 eqv_near (eqvs_f g q) (sym_column g (value q)).
Proof.
  intros SQ. unfold eqvs_f, sym_column. apply Forall2_cons; [exists (value q); split; [now left|now apply sound_near_self]|].
  assert (T : Forall2 close4 (tl (syms_f g)) (tl (sym_eqv g))) by (pose proof (syms_close g) as S0; destruct S0; [apply Forall2_nil|assumption]).
  induction T as [|s' s l' l H FO IH]; [apply Forall2_nil|]. cbn [map]. apply Forall2_cons; [|exact IH].
  destruct (comps_near s' s q H SQ) as (c & C & N). exists c. split; [|exact N].
  destruct (comps_sign s (value q)) as [-> | ->], C as [-> | ->]; rewrite ?qneg2; auto.
Qed.
Lemma forall2_nth {A B} (P : A -> B -> Prop) l m : Forall2 P l m -> List.length l = List.length m /\ (forall k a, nth_error l k = Some a -> exists b, nth_error m k = Some b /\ P a b) /\
  (forall k b, nth_error m k = Some b -> exists a, nth_error l k = Some a /\ P a b).
Proof.
  induction 1 as [|a b l m H FO (E & IH & IH')]; [split; [reflexivity|split; intros [|k] a; discriminate]|].
  split; [cbn; now rewrite E|]. split; intros [|k] x N; cbn [nth_error] in *; try (injection N as <-); eauto.
Qed.
Lemma dot_neg_l c q : Rabs (dot (qneg c) q) = Rabs (dot c q).
Proof. rewrite !(dot_comm _ q). apply dot_neg. Qed.

Definition cosines (g : string) (r q : fquat) : list R := map (fun c => Rabs (dot c (value r))) (sym_column g (value q)).
Section Point.
Variable dot_f : nat -> nat -> fquat -> fquat -> f64.
Hypothesis DOT : forall i j, any_order (dot_f i j).
Lemma mis_near i r : sound r -> forall cs' cs, Forall2 eqv_near cs' cs -> forall k,
  Forall2 (fun v x => is_finite v = true /\ Rabs (B2R v - x) <= u44) (map (fun jc => fabs (dot_f i (fst jc) (snd jc) r)) (combine (seq k (List.length cs')) cs')) (map (fun c => Rabs (dot c (value r))) cs).
Proof.
  intros SR cs' cs FO. induction FO as [|c' c cs' cs (c0 & C & N) FO IH]; intros k; [apply Forall2_nil|]. cbn [List.length seq combine map fst snd]. apply Forall2_cons; [|apply IH].
  destruct (dot_near_r r c' c0 _ SR N (DOT i k c' r)) as (F & E). split; [unfold fabs; now rewrite is_finite_Babs|].
  destruct C as [-> | ->]; [exact E|]. rewrite dot_neg_l in E. exact E.
Qed.
(** The chosen equivalent is one of the closest, up to rounding. *)
Lemma point_near i g q r : sound q -> sound r -> exists k c x, nth_error (sym_column g (value q)) k = Some c /\ x = Rabs (dot c (value r)) /\
  eqv_near (snd (point_f dot_f i g q r)) c /\
  (forall y, In y (cosines g r q) -> y <= x + 2 * u44) /\
  exists v, fst (point_f dot_f i g q r) = clip_f v /\ is_finite v = true /\ 0 <= B2R v /\ Rabs (B2R v - x) <= u44 /\ (forall y, In y (cosines g r q) -> y <= B2R v + u44).
Proof.
  intros SQ SR. pose proof (eqvs_near g q SQ) as EN. pose proof (mis_near i r SR _ _ EN 0%nat) as MN.
  unfold point_f. cbv zeta. cbn [fst snd]. set (col := eqvs_f g q) in *. set (mis := map (fun jc => fabs (dot_f i (fst jc) (snd jc) r)) (combine (seq 0 (List.length col)) col)) in *.
  fold (cosines g r q) in MN. destruct (forall2_nth _ _ _ MN) as (LM & MF & MB). destruct (forall2_nth _ _ _ EN) as (LE & EF & EB).
  assert (FM : finites mis). { clear - MN. induction MN as [|v x l m (F & _) FO IH]; constructor; auto. }
  assert (NE : mis <> []) by (unfold mis, col, eqvs_f; cbn [List.length seq combine map]; discriminate).
  destruct (argmax_is mis FM NE) as (m & NM & MX). set (k := argmax_f mis) in *.
  destruct (MF _ _ NM) as (x & NX & FX & EX).
  assert (KL : (k < List.length col)%nat). { assert (k < List.length mis)%nat by (apply nth_error_Some; congruence). unfold mis in H. rewrite map_length, combine_length, seq_length in H. lia. }
  destruct (nth_error col k) as [c'|] eqn:NC; [|apply nth_error_None in NC; lia]. destruct (EF _ _ NC) as (c & NK & EK).
  exists k, c, x. split; [exact NK|]. unfold cosines in NX. rewrite nth_error_map, NK in NX. cbn [option_map] in NX. injection NX as NX.
  split; [now symmetry|]. rewrite (nth_error_nth _ _ _ NC), (nth_error_nth _ _ _ NM). split; [exact EK|].
  assert (UP : forall y, In y (cosines g r q) -> y <= B2R m + u44).
  { intros y I. apply In_nth_error in I as (j & NJ). destruct (MB _ _ NJ) as (v & NV & _ & EV). apply nth_error_In in NV. apply MX in NV. apply Rabs_le_inv in EV. lra. }
  split.
  - intros y I. apply UP in I. apply Rabs_le_inv in EX. lra.
  - exists m. split; [reflexivity|]. split; [exact FX|]. split; [|split; [exact EX|exact UP]].
    unfold mis in NM. rewrite nth_error_map in NM. destruct (nth_error (combine (seq 0 (List.length col)) col) k); [|discriminate]. cbn [option_map] in NM. injection NM as <-. apply fabs_pos.
Qed.
End Point.

(** ** The axis *)
Definition dqx (r m : quat) : quat := Q4
  (qw r * qw m - qx r * qx m - qy r * qy m - qz r * qz m)
  (qx r * qw m + qw r * qx m + qz r * qy m - qy r * qz m)
  (qy r * qw m + qw r * qy m + qx r * qz m - qz r * qx m)
  (qz r * qw m + qw r * qz m + qy r * qx m - qx r * qy m).
Definition flip (q : quat) : quat := if Rlt_dec (qw q) 0 then qneg q else q.
Lemma grod_axis_is r m : grod_axis r m = let dq := flip (dqx (conjugate r) m) in
  let s := sqrt (1 - qw dq ^ 2) in
  if Req_EM_T s 0 then None
  else Some (V3 (2 * qx dq * acos (qw dq) / s) (2 * qy dq * acos (qw dq) / s) (2 * qz dq * acos (qw dq) / s)).
Proof. reflexivity. Qed.
Lemma dqx_neg r m : dqx r (qneg m) = qneg (dqx r m).
Proof. unfold dqx, qneg. cbn [qw qx qy qz]. f_equal; ring. Qed.
Lemma flip_neg q : qw q <> 0 -> flip (qneg q) = flip q.
Proof. intros N. unfold flip. change (qw (qneg q)) with (- qw q). destruct (Rlt_dec (qw q) 0), (Rlt_dec (- qw q) 0); try lra; try reflexivity. apply qneg2. Qed.
Lemma flip_w q : qw (flip q) = Rabs (qw q).
Proof. unfold flip. destruct (Rlt_dec (qw q) 0); [rewrite Rabs_left by lra; reflexivity|rewrite Rabs_pos_eq by lra; reflexivity]. Qed.
Lemma conj_dot r c : Rabs (qw (dqx (conjugate r) c)) = Rabs (dot c r).
Proof.
  unfold conjugate, Quat. cbn [qw]. destruct (Rlt_dec (qw r) 0); unfold dqx, dot, qneg; cbn [qw qx qy qz]; [rewrite <- Rabs_Ropp|]; f_equal; ring.
Qed.
Lemma conj_is r : sound r -> sound (conjugate_f r) /\ value (conjugate_f r) = conjugate (value r).
Proof.
  intros ((F1 & F2 & F3 & F4') & N). unfold conjugate_f, conjugate, Quat. cbv zeta. cbn [fw value qw]. rewrite flt_is by (assumption || reflexivity). change (B2R f0) with 0.
  unfold sound, finite4, value, dot, fqneg, qneg, fneg in *. cbn [qw qx qy qz] in N.
  destruct (Rlt_bool_spec (B2R (fw r)) 0), (Rlt_dec (B2R (fw r)) 0); try lra; cbn [fw fx fy fz qw qx qy qz]; rewrite ?is_finite_Bopp, ?B2R_Bopp, ?F1, ?F2, ?F3, ?F4';
    (split; [split; [auto|lra]|reflexivity]).
Qed.
Lemma prod32 a b x y : ap a x 0 2 -> ap b y (28 * u53) 16 -> ap (fmul a b) (x * y) (72 * u53) 32.
Proof.
  intros A B. pose proof (ap_bound _ _ _ A) as X. pose proof (ap_mul 5 a b x y _ _ _ _ ltac:(lia) A B X ltac:(change (bpow radix2 5) with 32; lra)) as P.
  change (bpow radix2 5) with 32 in P. change (5 - 54)%Z with (4 + -53)%Z in P. rewrite bpow_plus in P. change (bpow radix2 4) with 16 in P. apply ap_weak with (1 := P); lra.
Qed.
Lemma four (o1 o2 : bool) a b c d x y z t : ap a x (72 * u53) 32 -> ap b y (72 * u53) 32 -> ap c z (72 * u53) 32 -> ap d t (72 * u53) 32 ->
  ap (fsub (fsub (fsub a b) c) d) (x - y - z - t) u44 256 /\ ap (fsub (fadd (fadd a b) c) d) (x + y + z - t) u44 256.
Proof.
  intros A B C D. assert (P6 : bpow radix2 6 = 64) by reflexivity. assert (P7 : bpow radix2 7 = 128) by reflexivity. assert (P8 : bpow radix2 8 = 256) by reflexivity.
  assert (E6 : bpow radix2 (6 - 54) = 32 * u53) by (change (6 - 54)%Z with (5 + -53)%Z; rewrite bpow_plus; reflexivity).
  assert (E7 : bpow radix2 (7 - 54) = 64 * u53) by (change (7 - 54)%Z with (6 + -53)%Z; rewrite bpow_plus; reflexivity).
  assert (E8 : bpow radix2 (8 - 54) = 128 * u53) by (change (8 - 54)%Z with (7 + -53)%Z; rewrite bpow_plus; reflexivity).
  rewrite u44_is. split.
  - pose proof (ap_sub 6 _ _ _ _ _ _ _ _ ltac:(lia) A B ltac:(lra)) as S1. pose proof (ap_sub 7 _ _ _ _ _ _ _ _ ltac:(lia) S1 C ltac:(lra)) as S2.
    pose proof (ap_sub 8 _ _ _ _ _ _ _ _ ltac:(lia) S2 D ltac:(lra)) as S3. apply ap_weak with (1 := S3); lra.
  - pose proof (ap_add 6 _ _ _ _ _ _ _ _ ltac:(lia) A B ltac:(lra)) as S1. pose proof (ap_add 7 _ _ _ _ _ _ _ _ ltac:(lia) S1 C ltac:(lra)) as S2.
    pose proof (ap_sub 8 _ _ _ _ _ _ _ _ ltac:(lia) S2 D ltac:(lra)) as S3. apply ap_weak with (1 := S3); lra.
Qed.
Lemma dq_near r c' c : sound r -> near4 c' c (28 * u53) 16 -> near4 (dq_f r c') (dqx (value r) c) u44 256.
Proof.
  intros SR (C1 & C2 & C3 & C4). destruct (sound_near r SR) as (N1 & N2 & N3 & N4). unfold near4, dq_f, dqx. cbn [fw fx fy fz qw qx qy qz].
  split; [|split; [|split]]; [apply (four true true)|apply (four true true)|apply (four true true)|apply (four true true)]; apply prod32; assumption.
Qed.
Lemma dqx_norm r m : dot (dqx r m) (dqx r m) = dot r r * dot m m.
Proof. unfold dot, dqx. cbn [qw qx qy qz]. ring. Qed.
Lemma conj_norm r : dot (conjugate r) (conjugate r) = dot r r.
Proof. unfold conjugate, Quat. cbn [qw]. destruct (Rlt_dec (qw r) 0); unfold dot, qneg; cbn [qw qx qy qz]; ring. Qed.
Lemma parts_le q b : dot q q <= b * b -> 0 <= b -> Rabs (qx q) <= b /\ Rabs (qy q) <= b /\ Rabs (qz q) <= b.
Proof.
  unfold dot. intros N B. pose proof (Rle_0_sqr (qw q)) as S1. pose proof (Rle_0_sqr (qx q)) as S2. pose proof (Rle_0_sqr (qy q)) as S3. pose proof (Rle_0_sqr (qz q)) as S4. unfold Rsqr in *.
  assert (K : forall x, x * x <= b * b -> Rabs x <= b) by (intros x L; apply Rabs_le; split; nra). split; [|split]; apply K; lra.
Qed.
Lemma axis_eqv arccos r c' c : good_arccos arccos -> sound r -> eqv_near c' c -> dot c c <= 5 / 4 -> u44 < Rabs (dot c (value r)) <= 1 - u25 ->
  exists ax, grod_axis (value r) c = Some ax /\ near_axis (grod_axis_f arccos r c') ax.
Proof.
  intros AC SR (c0 & C & N) NC RT. destruct (conj_is r SR) as (SJ & VJ). pose proof (dq_near _ _ _ SJ N) as DN. rewrite VJ in DN.
  set (e0 := dqx (conjugate (value r)) c0) in *. set (e' := dq_f (conjugate_f r) c') in *. rewrite <- conj_dot in RT. set (e := dqx (conjugate (value r)) c) in *. set (T := Rabs (qw e)) in *.
  pose proof (bpow_gt_0 radix2 (-44)) as U.
  assert (W0 : qw e <> 0) by (intros Z; unfold T in RT; rewrite Z, Rabs_R0 in RT; lra).
  assert (EE : Rabs (qw e0) = T /\ flip e0 = flip e).
  { unfold e0. destruct C as [-> | ->]; [split; reflexivity|]. rewrite dqx_neg. fold e. split; [change (qw (qneg e)) with (- qw e); apply Rabs_Ropp|now apply flip_neg]. }
  destruct EE as (E1 & E2).
  assert (NE : dot e e <= 5 / 4 * (5 / 4)).
  { unfold e. rewrite dqx_norm, conj_norm. assert (PS : forall q, 0 <= dot q q) by (intros q; unfold dot; pose proof (Rle_0_sqr (qw q)); pose proof (Rle_0_sqr (qx q)); pose proof (Rle_0_sqr (qy q)); pose proof (Rle_0_sqr (qz q)); unfold Rsqr in *; lra).
    apply Rmult_le_compat; auto. apply SR. }
  assert (FN : dot (flip e) (flip e) <= 5 / 4 * (5 / 4)) by (unfold flip; destruct (Rlt_dec (qw e) 0); [replace (dot (qneg e) (qneg e)) with (dot e e) by (unfold dot, qneg; cbn [qw qx qy qz]; ring)|]; exact NE).
  destruct (parts_le _ _ FN ltac:(lra)) as (BX & BY & BZ).
  set (d' := if flt (fw e') f0 then fqneg e' else e').
  assert (DN' : near4 d' (flip e) u44 256 /\ 0 <= B2R (fw d')).
  { rewrite <- E2. unfold d'. pose proof DN as ((FW & EW & _) & _). rewrite flt_is by (assumption || reflexivity). change (B2R f0) with 0. apply Rabs_le_inv in EW.
    unfold flip. destruct (Rlt_bool_spec (B2R (fw e')) 0) as [L|L], (Rlt_dec (qw e0) 0) as [L'|L'].
    - split; [now apply near_neg|]. unfold fqneg, fneg. cbn [fw]. rewrite B2R_Bopp. lra.
    - exfalso. rewrite Rabs_pos_eq in E1 by lra. lra.
    - exfalso. rewrite Rabs_left in E1 by lra. lra.
    - split; [exact DN|exact L]. }
  destruct DN' as ((DW & DX & DY & DZ) & P).
  assert (QW : qw (flip e) = T) by apply flip_w. rewrite QW in DW. destruct DW as (FW & EW & _).
  assert (U25 : u25 = / 33554432) by (unfold u25; pows; lra). assert (U44 : u44 = / 17592186044416) by (pows; lra).
  assert (RW : 0 <= B2R (fw d') <= 1) by (split; [exact P|]; apply Rabs_le_inv in EW; lra).
  rewrite grod_axis_is. cbv zeta. fold e. rewrite QW. replace (T ^ 2) with (T * T) by ring.
  destruct (sine_of T ltac:(lra)) as (S0 & _). destruct (Req_EM_T (sqrt (1 - T * T)) 0) as [Z|_]; [lra|]. eexists. split; [reflexivity|].
  unfold grod_axis_f. cbv zeta. fold e'. fold d'. unfold near_axis. cbn [vx vy vz].
  assert (K : forall dv D, ap dv D u44 256 -> Rabs D <= 5 / 4 -> is_finite (axis_f arccos (fw d') dv) = true /\ Rabs (B2R (axis_f arccos (fw d') dv) - 2 * D * acos T / sqrt (1 - T * T)) <= / 1000000).
  { intros dv D (FD & ED & _) BD. destruct (axis_near arccos (fw d') dv T D AC FW FD RW EW ltac:(lra) ED ltac:(lra)) as (G & H). split; [exact G|].
    replace (2 * D * acos T / sqrt (1 - T * T)) with (2 * D * over_sine T) by (unfold over_sine; field; lra). exact H. }
  destruct (K _ _ DX BX) as (G1 & H1). destruct (K _ _ DY BY) as (G2 & H2). destruct (K _ _ DZ BZ) as (G3 & H3). auto.
Qed.

(** ** The exact model *)
Lemma exact_point l g r i q : nth_error l i = Some q -> nth_error (calcMisOri (calc_sym_eqvs l g) r) i = Some (calc_mis_ori_point (sym_column g q) r).
Proof.
  intros N. unfold calcMisOri. change (calc_sym_eqvs l g) with (l :: map (fun sym => map (sym_comps sym) l) (tl (sym_eqv g))) at 1. cbv iota.
  assert (I : (i < List.length l)%nat) by (apply nth_error_Some; congruence).
  rewrite nth_error_map, (nth_error_nth' _ 0%nat) by (now rewrite seq_length). rewrite seq_nth by exact I. cbn [option_map Nat.add]. f_equal. f_equal.
  unfold column, calc_sym_eqvs, sym_column. cbn [map]. f_equal; [now apply nth_error_nth|]. rewrite map_map. apply map_ext. intros s. apply nth_error_nth. now rewrite nth_error_map, N.
Qed.
