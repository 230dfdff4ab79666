(** Rounding of norms and sums. *)
From Coq Require Import String Reals Lra Psatz.
From Coq Require Import List ZArith Bool Lia.
From Flocq Require Import Core IEEE754.BinarySingleNaN.
From Verif Require Import Py Grid Quat_Model Quat_Spec Quat_Proofs QuatSym_Proofs QuatMany_Proofs Ebsd_Model Double_Model Double_Spec Double_Proofs Double_Angle Double_Props Double_Angle Strain64_Proofs Kam64_Model Kam64_Proofs Grod64_Proofs Kam64_Props Average64_Model Average64_Spec.
Import ListNotations.
Open Scope R_scope.

Notation u45 := (bpow radix2 (-45)).
Lemma pow400 : 2 ^ 400 = bpow radix2 400.
Proof. rewrite <- (IZR_Zpower radix2) by lia. change (Zpower (radix_val radix2) 400) with (2 ^ 400)%Z. rewrite (pow_IZR 2 400). reflexivity. Qed.
Lemma scale_of x : / 2 ^ 400 <= x <= 2 ^ 400 -> exists k, (-400 <= k <= 401)%Z /\ bpow radix2 (k - 1) <= x <= bpow radix2 k.
Proof.
  rewrite pow400, <- bpow_opp. intros (L & U). assert (P : 0 < x) by (pose proof (bpow_gt_0 radix2 (- (400))); lra).
  destruct (mag radix2 x) as (k & M). specialize (M ltac:(lra)). rewrite Rabs_pos_eq in M by lra. exists k. split; [|lra].
  split; [|]; cut (-400 < k /\ k - 1 <= 400)%Z; try lia; split; (apply (lt_bpow radix2) || apply (le_bpow radix2)); cbn [Z.opp] in *; lra.
Qed.
(** The norm, relative to itself. *)
Lemma norm_rel T v n : 0 < T -> Rabs (v - T) <= / 2 ^ 48 * T -> 0 <= v -> Rabs (n - sqrt v) <= / 2 ^ 52 * sqrt v -> Rabs (n - sqrt T) <= / 2 ^ 47 * sqrt T.
Proof.
  intros P E V EN. pose proof (sqrt_lt_R0 T P) as SP. pose proof (sqrt_pos v) as SV. pose proof (sqrt_sqrt T ltac:(lra)) as QT. pose proof (sqrt_sqrt v V) as QV.
  set (N := sqrt T) in *. set (m := sqrt v) in *. cbn [pow] in *. 
  assert (D : Rabs (m - N) <= / 281474976710656 * N).
  { apply Rmult_le_reg_r with (m + N); [lra|]. rewrite <- (Rabs_pos_eq (m + N)) at 1 by lra. rewrite <- Rabs_mult. replace ((m - N) * (m + N)) with (v - T) by (rewrite <- QT, <- QV; ring).
    apply Rle_trans with (1 := E). rewrite <- QT. assert (0 <= m * N) by (apply Rmult_le_pos; lra). lra. }
  apply Rabs_le_inv in D. apply Rabs_le_inv in EN. apply Rabs_le. lra.
Qed.
Lemma quotient_near x N n : 0 < N -> Rabs x <= N -> Rabs (n - N) <= / 2 ^ 47 * N -> Rabs (x / n - x / N) <= / 2 ^ 46 /\ Rabs (x / n) <= 2 /\ 0 < n.
Proof.
  intros P X E. cbn [pow] in *. apply Rabs_le_inv in E. assert (n0 : N / 2 < n) by lra. assert (Pn : 0 < n) by lra.
  assert (B : Rabs (x / n) <= 2).
  { unfold Rdiv. rewrite Rabs_mult, Rabs_inv, (Rabs_pos_eq n) by lra. apply Rmult_le_reg_r with n; [lra|]. rewrite Rmult_assoc, Rinv_l by lra. lra. }
  split; [|split; assumption]. replace (x / n - x / N) with (x / n * ((N - n) / N)) by (field; lra). rewrite Rabs_mult.
  apply Rle_trans with (2 * / 140737488355328); [|lra]. apply Rmult_le_compat; [apply Rabs_pos|apply Rabs_pos|exact B|].
  unfold Rdiv. rewrite Rabs_mult, Rabs_inv, (Rabs_pos_eq N) by lra. apply Rmult_le_reg_r with N; [lra|]. rewrite Rmult_assoc, Rinv_l, Rmult_1_r by lra. apply Rabs_le. lra.
Qed.
Lemma some_quotient x n N : is_finite x = true -> 0 < N -> Rabs (B2R x) <= N -> Rabs (B2R n - N) <= / 2 ^ 47 * N ->
  is_finite (fdiv x n) = true /\ Rabs (B2R (fdiv x n) - B2R x / N) <= / 2 ^ 45 /\ (0 <= B2R x -> 0 <= B2R (fdiv x n)).
Proof.
  intros F P X E. destruct (quotient_near _ _ _ P X E) as (D & B & Pn). destruct (fdiv_in 1 x n ltac:(lia) F ltac:(lra) B) as (G1 & V & G2 & _). split; [exact G1|].
  split; [|intros X0; rewrite V; apply rnd_pos; unfold Rdiv; apply Rmult_le_pos; [exact X0|left; now apply Rinv_0_lt_compat]].
  change (1 - 54)%Z with (-53)%Z in G2. assert (U : u53 = / 9007199254740992) by (pows; lra). rewrite U in G2. cbn [pow] in *. apply Rabs_le_inv in D. apply Rabs_le_inv in G2. apply Rabs_le. lra.
Qed.
Lemma largest q : in_range q -> exists c k, In c (coefs q) /\ (-400 <= k <= 401)%Z /\ bpow radix2 (k - 1) <= Rabs (B2R c) /\ forall d, In d (coefs q) -> Rabs (B2R d) <= bpow radix2 k.
Proof.
  intros (_ & UP & c0 & I0 & L0).
  assert (M : exists c, In c (coefs q) /\ forall d, In d (coefs q) -> Rabs (B2R d) <= Rabs (B2R c)).
  { unfold coefs. generalize (fx q) (fy q) (fz q) (fw q). intros x y z w.
    assert (K : forall (l : list f64) a, exists c, In c (a :: l) /\ forall d, In d (a :: l) -> Rabs (B2R d) <= Rabs (B2R c)).
    { induction l as [|b l IH]; intros a; [exists a; split; [now left|intros d [<-|[]]; lra]|]. destruct (IH b) as (c & I & MX).
      destruct (Rle_lt_dec (Rabs (B2R a)) (Rabs (B2R c))) as [L|L]; [exists c|exists a]; (split; [first [now left | now right]|]); intros d [<-|D]; try lra; pose proof (MX d D); lra. }
    apply K. }
  destruct M as (c & I & MX). destruct (scale_of (Rabs (B2R c))) as (k & K & KL & KU); [pose proof (MX _ I0); pose proof (UP _ I); lra|].
  exists c, k. split; [exact I|]. split; [exact K|]. split; [exact KL|]. intros d D. apply Rle_trans with (1 := MX d D). exact KU.
Qed.
Lemma normalise_near dot4 q : any_order dot4 -> in_range q -> exists n, normalise (value q) = Some n /\ near_quat (/ 2 ^ 45) (normalise_f dot4 q) n /\ (0 <= B2R (fw q) -> 0 <= B2R (fw (normalise_f dot4 q))).
Proof.
  intros DOT IR. destruct (largest q IR) as (c & k & I & K & KL & KU). destruct IR as ((F1 & F2 & F3 & F4') & _).
  assert (J : bpow radix2 (k + k) = bpow radix2 k * bpow radix2 k) by apply bpow_plus.
  assert (TI : forall x, In x (coefs q) -> is_finite x = true -> term_in (k + k) (x, x)).
  { intros x X FX. split; [exact FX|]. split; [exact FX|]. cbn [fst snd]. rewrite Rabs_mult, J. apply Rmult_le_compat; auto using Rabs_pos. }
  destruct (sums_err (k + k) _ _ ltac:(lia) (DOT q q)) as (FV & _ & _ & EV).
  { unfold pairs, coefs in *. repeat (apply Forall_cons; [apply TI; [cbn; tauto|assumption]|]). apply Forall_nil. }
  { cbn. lia. }
  set (v := dot4 q q) in *. set (T := dot (value q) (value q)).
  assert (TT : total (pairs q q) = T) by (unfold total, pairs, T, dot, value; cbn [map fold_right fst snd qw qx qy qz]; ring). rewrite TT in EV. unfold pairs in EV. cbv iota in EV. cbn [List.length INR] in EV.
  assert (SQ : forall x, In x (coefs q) -> B2R x * B2R x <= T).
  { intros x X. unfold T, dot, value. cbn [qw qx qy qz]. pose proof (Rle_0_sqr (B2R (fw q))) as S1. pose proof (Rle_0_sqr (B2R (fx q))) as S2. pose proof (Rle_0_sqr (B2R (fy q))) as S3. pose proof (Rle_0_sqr (B2R (fz q))) as S4.
    unfold Rsqr, coefs in *. destruct X as [<-|[<-|[<-|[<-|[]]]]]; lra. }
  assert (TL : bpow radix2 (k + k) <= 4 * T).
  { pose proof (SQ c I) as L. assert (E : bpow radix2 k = 2 * bpow radix2 (k - 1)) by (replace k with (k - 1 + 1)%Z at 1 by lia; apply u_step). rewrite J, E.
    pose proof (bpow_gt_0 radix2 (k - 1)) as P. assert (M : bpow radix2 (k - 1) * bpow radix2 (k - 1) <= Rabs (B2R c) * Rabs (B2R c)) by (apply Rmult_le_compat; lra).
    rewrite <- Rabs_mult, Rabs_pos_eq in M by (apply Rle_0_sqr). lra. }
  pose proof (bpow_gt_0 radix2 (k + k)) as PJ. assert (PT : 0 < T) by lra.
  assert (U : bpow radix2 (k + k - 54) = bpow radix2 (k + k) * / 18014398509481984).
  { unfold Z.sub. rewrite (bpow_plus _ (k + k)). f_equal. }
  rewrite U in EV. assert (EV' : Rabs (B2R v - T) <= / 2 ^ 48 * T) by (cbn [pow]; lra). assert (V0 : T / 2 < B2R v) by (cbn [pow] in EV'; apply Rabs_le_inv in EV'; lra).
  destruct (Bsqrt_correct 53 1024 _ _ mode_NE v) as (VR & FR & _). rewrite round_mode_is in VR. fold (fsqrt v) in VR, FR.
  assert (EN : Rabs (B2R (fsqrt v) - sqrt (B2R v)) <= / 2 ^ 52 * sqrt (B2R v)).
  { rewrite VR. apply Rle_trans with (1 := rnd_rel _). rewrite (Rabs_pos_eq (sqrt _)) by apply sqrt_pos.
    assert (L : bpow radix2 (k - 2) <= sqrt (B2R v)).
    { rewrite <- (sqrt_square (bpow radix2 (k - 2))) by apply bpow_ge_0. apply sqrt_le_1; [apply Rle_0_sqr|lra|]. rewrite <- bpow_plus. replace (k - 2 + (k - 2))%Z with (k + k + -4)%Z by lia.
      rewrite bpow_plus. change (bpow radix2 (-4)) with (/ 16). lra. }
    assert (E2 : eta <= u53 * sqrt (B2R v)).
    { apply Rle_trans with (u53 * bpow radix2 (k - 2)); [|apply Rmult_le_compat_l; [apply bpow_ge_0|exact L]]. rewrite <- bpow_plus. apply bpow_le. lia. }
    assert (U53 : u53 = / 9007199254740992) by (pows; lra). rewrite U53 in *. cbn [pow]. lra. }
  pose proof (norm_rel T (B2R v) _ PT EV' ltac:(lra) EN) as NR. pose proof (sqrt_lt_R0 T PT) as NP.
  assert (XN : forall x, In x (coefs q) -> Rabs (B2R x) <= sqrt T).
  { intros x X. rewrite <- (sqrt_square (Rabs (B2R x))) by apply Rabs_pos. apply sqrt_le_1; [apply Rle_0_sqr|lra|]. rewrite <- Rabs_mult, Rabs_pos_eq by apply Rle_0_sqr. auto. }
  unfold normalise. change (norm (value q)) with (sqrt T). cbv zeta. destruct (Req_EM_T (sqrt T) 0) as [Z|_]; [lra|]. eexists. split; [reflexivity|].
  unfold near_quat, finite4, normalise_f, value. cbv zeta. cbn [fw fx fy fz qw qx qy qz]. fold v.
  assert (Q : forall x, In x (coefs q) -> is_finite x = true -> is_finite (fdiv x (fsqrt v)) = true /\ Rabs (B2R (fdiv x (fsqrt v)) - B2R x / sqrt T) <= / 2 ^ 45 /\ (0 <= B2R x -> 0 <= B2R (fdiv x (fsqrt v)))) by (intros x X FX; apply some_quotient; auto).
  destruct (Q (fw q) ltac:(cbn; tauto) F1) as (? & ? & ?), (Q (fx q) ltac:(cbn; tauto) F2) as (? & ? & _), (Q (fy q) ltac:(cbn; tauto) F3) as (? & ? & _), (Q (fz q) ltac:(cbn; tauto) F4') as (? & ? & _). auto 10.
Qed.
Lemma near_is_unit q n : dot n n = 1 -> near_quat (/ 2 ^ 45) q n -> near_unit (/ 2 ^ 41) q.
Proof.
  intros U (F & E1 & E2 & E3 & E4). split; [exact F|]. unfold dot, value in *. cbn [qw qx qy qz].
  assert (B : forall x, x * x <= 1 -> -1 <= x <= 1) by (intros x X; split; nra).
  pose proof (Rle_0_sqr (qw n)) as S1. pose proof (Rle_0_sqr (qx n)) as S2. pose proof (Rle_0_sqr (qy n)) as S3. pose proof (Rle_0_sqr (qz n)) as S4. unfold Rsqr in *.
  assert (D : forall y x, -1 <= x <= 1 -> Rabs (y - x) <= / 2 ^ 45 -> Rabs (y * y - x * x) <= / 2 ^ 43).
  { intros y x X E. replace (y * y - x * x) with ((y - x) * (y + x)) by ring. rewrite Rabs_mult. apply Rle_trans with (/ 2 ^ 45 * 3); [|cbn [pow]; lra].
    apply Rmult_le_compat; [apply Rabs_pos|apply Rabs_pos|exact E|]. cbn [pow] in E. apply Rabs_le_inv in E. apply Rabs_le. lra. }
  pose proof (D _ _ (B (qw n) ltac:(lra)) E1) as D1. pose proof (D _ _ (B (qx n) ltac:(lra)) E2) as D2. pose proof (D _ _ (B (qy n) ltac:(lra)) E3) as D3. pose proof (D _ _ (B (qz n) ltac:(lra)) E4) as D4.
  cbn [pow] in *. apply Rabs_le_inv in D1. apply Rabs_le_inv in D2. apply Rabs_le_inv in D3. apply Rabs_le_inv in D4. apply Rabs_le. lra.
Qed.

(** ** Sums *)
(** Coefficients up to [M], none of the scalar parts negative. *)
Definition upto (M : R) (q : fquat) : Prop := finite4 q /\ forall c, In c (coefs q) -> Rabs (B2R c) <= M.
Lemma add_one M a b : (0 <= M < 2 ^ 52)%Z -> is_finite a = true -> is_finite b = true -> Rabs (B2R a) <= IZR M -> Rabs (B2R b) <= 2 ->
  is_finite (fadd a b) = true /\ B2R (fadd a b) = rnd (B2R a + B2R b) /\ Rabs (B2R (fadd a b)) <= IZR (M + 2).
Proof.
  intros HM FA FB BA BB. assert (S0 : Rabs (B2R a + B2R b) <= IZR (M + 2)) by (rewrite plus_IZR; apply Rle_trans with (1 := Rabs_triang _ _); lra).
  assert (P : IZR (M + 2) <= bpow radix2 53). { rewrite <- (IZR_Zpower radix2) by lia. apply IZR_le. change (Zpower (radix_val radix2) 53) with (2 ^ 53)%Z. lia. }
  destruct (fadd_in 53 a b ltac:(lia) FA FB ltac:(lra)) as (G1 & G2 & _). split; [exact G1|]. split; [exact G2|]. rewrite G2. apply rnd_bound; [apply format_int; lia|exact S0].
Qed.
Lemma near_two c' c : near4 c' c (28 * u53) 16 -> dot c c <= 5 / 4 -> upto 2 c'.
Proof.
  intros ((F1 & E1 & _) & (F2 & E2 & _) & (F3 & E3 & _) & (F4' & E4 & _)) N. split; [unfold finite4; auto|]. unfold dot in N.
  pose proof (Rle_0_sqr (qw c)) as S1. pose proof (Rle_0_sqr (qx c)) as S2. pose proof (Rle_0_sqr (qy c)) as S3. pose proof (Rle_0_sqr (qz c)) as S4. unfold Rsqr in *.
  assert (B : forall x y, x * x <= 5 / 4 -> Rabs (y - x) <= 28 * u53 -> Rabs y <= 2).
  { intros x y X E. assert (-1.5 <= x <= 1.5) by (split; nra). pose proof u_pos. apply Rabs_le_inv in E. apply Rabs_le. lra. }
  intros d [<-|[<-|[<-|[<-|[]]]]]; eapply B; try eassumption; lra.
Qed.
Lemma flt_zero x : is_finite x = true -> (flt x f0 = true -> B2R x < 0) /\ (flt x f0 = false -> 0 <= B2R x).
Proof. intros F. rewrite flt_is by (assumption || reflexivity). change (B2R f0) with 0. destruct (Rlt_bool_spec (B2R x) 0); split; intros; try discriminate; lra. Qed.
Lemma eqvs_up g q c' : sound q -> 0 <= B2R (fw q) -> In c' (eqvs_f g q) -> upto 2 c' /\ 0 <= B2R (fw c').
Proof.
  intros SQ N I. pose proof (eqvs_near g q SQ) as EN. destruct (forall2_nth _ _ _ EN) as (_ & H & _). apply In_nth_error in I as (k & NK). pose proof (nth_error_In _ _ NK) as I. destruct (H k c' NK) as (c & NC & c0 & C & NR).
  assert (D : dot c0 c0 <= 5 / 4).
  { pose proof (column_norm g (value q) c (nth_error_In _ _ NC)) as E. destruct SQ as (_ & SD). destruct C as [-> | ->]; [lra|]. replace (dot (qneg c) (qneg c)) with (dot c c) by (unfold dot, qneg; cbn [qw qx qy qz]; ring). lra. }
  pose proof (near_two _ _ NR D) as U. split; [exact U|]. destruct I as [<-|I]; [exact N|]. apply in_map_iff in I as (s & <- & _). destruct U as ((FW & _) & _). revert FW. unfold comps_f. cbv zeta.
  match goal with |- context [if flt (fw ?c) f0 then _ else _] => set (w := c) end. destruct (flt (fw w) f0) eqn:E; intros FW.
  - cbn [fqneg fw] in *. unfold fneg in *. rewrite is_finite_Bopp in FW. rewrite B2R_Bopp. destruct (flt_zero (fw w) FW) as (L & _). specialize (L E). lra.
  - now apply flt_zero.
Qed.
Lemma zero_up : upto 2 (F4 f0 f0 f0 f0) /\ 0 <= B2R (fw (F4 f0 f0 f0 f0)).
Proof. split; [split; [repeat split|]|cbn; lra]. intros c I. assert (E : c = f0) by (cbn [coefs fw fx fy fz In] in I; intuition congruence). subst c. change (B2R f0) with 0. rewrite Rabs_R0. lra. Qed.
Lemma chosen_up dot_f i g av q : sound q -> 0 <= B2R (fw q) -> upto 2 (chosen_f dot_f i g av q) /\ 0 <= B2R (fw (chosen_f dot_f i g av q)).
Proof.
  intros SQ N. unfold chosen_f. cbv zeta. match goal with |- context [nth ?k ?l ?d] => destruct (nth_in_or_default k l d) as [I| ->] end; [now apply (eqvs_up g q)|exact zero_up].
Qed.
Lemma add_up M a b : (0 <= M < 2 ^ 52)%Z -> upto (IZR M) a -> upto 2 b -> 0 <= B2R (fw b) -> upto (IZR (M + 2)) (add_f a b) /\ B2R (fw a) <= B2R (fw (add_f a b)).
Proof.
  intros HM ((A1 & A2 & A3 & A4) & UA) ((B1 & B2 & B3 & B4) & UB) P.
  destruct (add_one M (fw a) (fw b) HM A1 B1 (UA (fw a) ltac:(cbn; tauto)) (UB (fw b) ltac:(cbn; tauto))) as (C1 & V1 & D1).
  destruct (add_one M (fx a) (fx b) HM A2 B2 (UA (fx a) ltac:(cbn; tauto)) (UB (fx b) ltac:(cbn; tauto))) as (C2 & V2 & D2).
  destruct (add_one M (fy a) (fy b) HM A3 B3 (UA (fy a) ltac:(cbn; tauto)) (UB (fy b) ltac:(cbn; tauto))) as (C3 & V3 & D3).
  destruct (add_one M (fz a) (fz b) HM A4 B4 (UA (fz a) ltac:(cbn; tauto)) (UB (fz b) ltac:(cbn; tauto))) as (C4 & V4 & D4).
  split; [split; [repeat split; assumption|]|].
  - intros c [<-|[<-|[<-|[<-|[]]]]]; assumption.
  - cbn [add_f fw]. rewrite V1, <- (rnd_id (fw a)) at 1. apply round_le; [apply (fexp_correct 53 1024); reflexivity|typeclasses eauto|lra].
Qed.
Lemma sound_up q : sound q -> upto 2 q.
Proof. intros H. destruct (sound_near q H) as ((F1 & _ & B1) & (F2 & _ & B2) & (F3 & _ & B3) & (F4' & _ & B4)). split; [repeat split; assumption|]. intros c [<-|[<-|[<-|[<-|[]]]]]; assumption. Qed.
Lemma sum_up dot_f g : forall rest s av M, Forall (fun q => sound q /\ 0 <= B2R (fw q)) rest -> (0 <= M)%Z -> (M + 2 * Z.of_nat (List.length rest) < 2 ^ 52)%Z -> upto (IZR M) av ->
  let r := fold_left (fun av iq => add_f av (chosen_f dot_f (fst iq) g av (snd iq))) (combine (seq s (List.length rest)) rest) av in
  upto (IZR (M + 2 * Z.of_nat (List.length rest))) r /\ B2R (fw av) <= B2R (fw r).
Proof.
  induction rest as [|q rest IH]; intros s av M H M0 ML U; cbv zeta.
  - cbn [List.length seq combine fold_left]. rewrite Z.add_0_r. split; [exact U|lra].
  - inversion_clear H as [|? ? (SQ & N) H']. cbn [List.length seq combine fold_left fst snd]. destruct (chosen_up dot_f s g av q SQ N) as (U2 & P). cbn [List.length] in ML.
    destruct (add_up M av _ ltac:(lia) U U2 P) as (U3 & L). destruct (IH (S s) _ (M + 2)%Z H' ltac:(lia) ltac:(lia) U3) as (U4 & L4). cbv zeta in *.
    replace (M + 2 * Z.of_nat (S (List.length rest)))%Z with (M + 2 + 2 * Z.of_nat (List.length rest))%Z by lia. split; [exact U4|lra].
Qed.
Lemma sum_range dot_f g q0 rest : Forall (fun q => sound q /\ 0 <= B2R (fw q)) (q0 :: rest) -> / 2 ^ 400 <= B2R (fw q0) -> (Z.of_nat (List.length rest) < 2 ^ 50)%Z ->
  in_range (sum_f dot_f g q0 rest) /\ B2R (fw q0) <= B2R (fw (sum_f dot_f g q0 rest)).
Proof.
  intros H P L. inversion_clear H as [|? ? (SQ & N) H']. destruct (sum_up dot_f g rest 1 q0 2 H' ltac:(lia) ltac:(lia) (sound_up q0 SQ)) as ((F & U) & G). cbv zeta in *. fold (sum_f dot_f g q0 rest) in *.
  split; [|exact G]. split; [exact F|]. split.
  - intros c I. apply Rle_trans with (1 := U c I). rewrite pow400. apply Rle_trans with (bpow radix2 52); [|apply bpow_le; lia]. rewrite <- (IZR_Zpower radix2) by lia. apply IZR_le. change (Zpower (radix_val radix2) 52) with (2 ^ 52)%Z. lia.
  - exists (fw (sum_f dot_f g q0 rest)). split; [now left|]. apply Rle_trans with (1 := P). apply Rle_trans with (1 := G). apply Rle_abs.
Qed.

(** ** Clear choices *)
Lemma same_northern c c0 : / 2 ^ 40 <= qw c -> - / 2 ^ 41 <= qw c0 -> same_rot c0 c -> c0 = c.
Proof. intros P N [-> | ->]; [reflexivity|]. exfalso. unfold opp in N. cbn [qw] in N. cbn [pow] in *. lra. Qed.
Lemma clear_run syms av qs r : clear_sum syms av qs r -> forall r', running_sum syms av qs r' -> r' = r.
Proof.
  induction 1 as [av|av q qs c r EQ P CL CS IH]; intros r' RS; inversion RS as [|? ? ? c1 ? (E1 & N1 & M1) RS']; subst; [reflexivity|].
  apply IH. replace c with c1; [exact RS'|]. apply same_northern; [exact P|cbn [pow]; lra|]. destruct (CL c1 E1) as [SR|L]; [exact SR|]. pose proof (M1 c EQ). lra.
Qed.
Lemma clear_north syms av qs r : 0 <= qw av -> clear_sum syms av qs r -> 0 <= qw r.
Proof. intros N C. revert N. induction C as [av|av q qs c r EQ P CL CS IH]; intros N; [exact N|]. apply IH. unfold qsum. cbn [qw pow] in *. lra. Qed.
(** Every coefficient of [a] is within [e] of that of [r]. *)
Definition off (e : R) (a : fquat) (r : quat) : Prop :=
  Rabs (B2R (fw a) - qw r) <= e /\ Rabs (B2R (fx a) - qx r) <= e /\ Rabs (B2R (fy a) - qy r) <= e /\ Rabs (B2R (fz a) - qz r) <= e.
Lemma near_off c' c : near4 c' c (28 * u53) 16 -> off (28 * u53) c' c.
Proof. intros ((_ & E1 & _) & (_ & E2 & _) & (_ & E3 & _) & (_ & E4 & _)). repeat split; assumption. Qed.
Lemma term_near (c' : f64) c (a : f64) r e : Rabs (B2R c') <= 2 -> Rabs (B2R a) <= IZR (2 ^ 21) -> Rabs (B2R c' - c) <= 28 * u53 -> Rabs (B2R a - r) <= e -> e <= / 4096 ->
  Rabs (B2R c' * B2R a - c * r) <= / 2000.
Proof.
  intros C A EC EA E. replace (B2R c' * B2R a - c * r) with (B2R c' * (B2R a - r) + r * (B2R c' - c)) by ring. apply Rle_trans with (1 := Rabs_triang _ _). rewrite !Rabs_mult.
  assert (X1 : Rabs (B2R c') * Rabs (B2R a - r) <= 2 * / 4096) by (apply Rmult_le_compat; auto using Rabs_pos; lra).
  assert (X2 : Rabs r * Rabs (B2R c' - c) <= 2097153 * (28 * u53)).
  { apply Rmult_le_compat; auto using Rabs_pos. apply Rabs_le_inv in A. apply Rabs_le_inv in EA. change (2 ^ 21)%Z with 2097152%Z in A. apply Rabs_le. lra. }
  pose proof u_pos. lra.
Qed.
Lemma big_dot c' c a r e v : upto 2 c' -> off (28 * u53) c' c -> upto (IZR (2 ^ 21)) a -> off e a r -> e <= / 4096 -> sums (pairs c' a) v ->
  is_finite v = true /\ Rabs (B2R (fabs v) - Rabs (dot c r)) <= / 400.
Proof.
  intros ((C1 & C2 & C3 & C4) & UC) (E1 & E2 & E3 & E4) ((A1 & A2 & A3 & A4) & UA) (O1 & O2 & O3 & O4) E SM.
  assert (TI : forall x y, In x (coefs c') -> In y (coefs a) -> is_finite x = true -> is_finite y = true -> term_in 22 (x, y)).
  { intros x y IX IY FX FY. split; [exact FX|]. split; [exact FY|]. cbn [fst snd]. rewrite Rabs_mult. replace (bpow radix2 22) with (2 * IZR (2 ^ 21)) by (rewrite <- (IZR_Zpower radix2) by lia; rewrite <- mult_IZR; reflexivity).
    apply Rmult_le_compat; auto using Rabs_pos. }
  destruct (sums_err 22 _ _ ltac:(lia) SM) as (F & _ & _ & EV).
  { unfold pairs. repeat (apply Forall_cons; [apply TI; cbn; tauto|]). apply Forall_nil. }
  { cbn. lia. }
  split; [exact F|]. unfold fabs. rewrite B2R_Babs. apply Rle_trans with (1 := Rabs_triang_inv2 _ _). unfold pairs in EV. cbv iota in EV. cbn [List.length INR] in EV.
  assert (U : bpow radix2 (22 - 54) = / 4294967296) by (change (22 - 54)%Z with (-32)%Z; pows; lra). rewrite U in EV. unfold total in EV. cbn [map fold_right fst snd] in EV.
  pose proof (term_near _ _ _ _ e (UC (fw c') ltac:(cbn; tauto)) (UA (fw a) ltac:(cbn; tauto)) E1 O1 E) as T1.
  pose proof (term_near _ _ _ _ e (UC (fx c') ltac:(cbn; tauto)) (UA (fx a) ltac:(cbn; tauto)) E2 O2 E) as T2.
  pose proof (term_near _ _ _ _ e (UC (fy c') ltac:(cbn; tauto)) (UA (fy a) ltac:(cbn; tauto)) E3 O3 E) as T3.
  pose proof (term_near _ _ _ _ e (UC (fz c') ltac:(cbn; tauto)) (UA (fz a) ltac:(cbn; tauto)) E4 O4 E) as T4.
  unfold dot. apply Rabs_le_inv in T1. apply Rabs_le_inv in T2. apply Rabs_le_inv in T3. apply Rabs_le_inv in T4. apply Rabs_le_inv in EV. apply Rabs_le. lra.
Qed.
Lemma eqv_up g q c' c : sound q -> In c (sym_column g (value q)) -> eqv_near c' c -> upto 2 c' /\ exists c0, same_rot c0 c /\ off (28 * u53) c' c0.
Proof.
  intros (_ & SD) IC (c0 & C & N). assert (D : dot c0 c0 <= 5 / 4).
  { pose proof (column_norm g (value q) c IC) as E. destruct C as [-> | ->]; [lra|]. replace (dot (qneg c) (qneg c)) with (dot c c) by (unfold dot, qneg; cbn [qw qx qy qz]; ring). lra. }
  split; [exact (near_two _ _ N D)|]. exists c0. split; [exact C|now apply near_off].
Qed.
Section Steps.
Variable dot_f : nat -> nat -> fquat -> fquat -> f64.
Hypothesis DOT : forall i j, any_order (dot_f i j).
Lemma chosen_near i g q a r e c : sound q -> 0 <= B2R (fw q) -> upto (IZR (2 ^ 21)) a -> off e a r -> e <= / 4096 ->
  equivalent (sym_eqv g) (value q) c -> / 2 ^ 40 <= qw c ->
  (forall c', equivalent (sym_eqv g) (value q) c' -> same_rot c' c \/ Rabs (inner c' r) + / 100 <= Rabs (inner c r)) ->
  off (28 * u53) (chosen_f dot_f i g a q) c.
Proof.
  intros SQ NQ UA OA E EC PC CL. pose proof (eqvs_near g q SQ) as EN. destruct (forall2_nth _ _ _ EN) as (LE & EF & EB).
  assert (MN : forall cs' cs k, Forall2 eqv_near cs' cs -> (forall x, In x cs -> In x (sym_column g (value q))) ->
    Forall2 (fun v x => is_finite v = true /\ Rabs (B2R v - x) <= / 400) (map (fun jc => fabs (dot_f i (fst jc) (snd jc) a)) (combine (seq k (List.length cs')) cs')) (map (fun c => Rabs (dot c r)) cs)).
  { intros cs' cs k FO. revert k. induction FO as [|c' c2 cs' cs H FO IH]; intros k SUB; [apply Forall2_nil|]. cbn [List.length seq combine map fst snd].
    apply Forall2_cons; [|apply IH; intros x I; apply SUB; now right]. destruct (eqv_up g q c' c2 SQ (SUB _ (or_introl eq_refl)) H) as (U & c0 & S0 & O0).
    destruct (big_dot c' c0 a r e _ U O0 UA OA E (DOT i k c' a)) as (F & D). split; [unfold fabs; now rewrite is_finite_Babs|]. rewrite (same_dot _ _ r S0) in D. exact D. }
  specialize (MN _ _ 0%nat EN (fun x I => I)). unfold chosen_f. cbv zeta. set (col := eqvs_f g q) in *. set (mis := map (fun jc => fabs (dot_f i (fst jc) (snd jc) a)) (combine (seq 0 (List.length col)) col)) in *.
  destruct (forall2_nth _ _ _ MN) as (LM & MF & MB).
  assert (FM : finites mis). { clear - MN. induction MN as [|v x l m (F & _) FO IH]; constructor; auto. }
  assert (NE : mis <> []) by (unfold mis, col, eqvs_f; cbn [List.length seq combine map]; discriminate).
  destruct (argmax_is mis FM NE) as (m & NM & MX). set (k := argmax_f mis) in *. destruct (MF _ _ NM) as (x & NX & FX & EX).
  assert (KL : (k < List.length col)%nat). { assert (H : (k < List.length mis)%nat) by (apply nth_error_Some; congruence). unfold mis in H. rewrite map_length, combine_length, seq_length in H. lia. }
  destruct (nth_error col k) as [c'|] eqn:NC; [|apply nth_error_None in NC; lia]. rewrite (nth_error_nth _ _ _ NC). destruct (EF _ _ NC) as (ck & NK & EK).
  rewrite nth_error_map, NK in NX. cbn [option_map] in NX. injection NX as NX. pose proof (nth_error_In _ _ NK) as IK.
  assert (SR : same_rot ck c).
  { destruct (column_covers [value q] g 0 (value q) c eq_refl EC) as (c3 & I3 & S3). rewrite <- column_is in I3. apply In_nth_error in I3 as (j & NJ).
    destruct (MB j (Rabs (dot c3 r)) ltac:(rewrite nth_error_map, NJ; reflexivity)) as (v & NV & _ & EV). pose proof (MX _ (nth_error_In _ _ NV)) as L. rewrite (same_dot _ _ r S3) in EV.
    pose proof IK as IK2. rewrite column_is in IK2. destruct (CL ck (column_equiv [value q] g 0 (value q) ck eq_refl IK2)) as [SR|G]; [exact SR|]. exfalso. change (inner ck r) with (dot ck r) in G. change (inner c r) with (dot c r) in G. rewrite <- NX in EX.
    apply Rabs_le_inv in EX. apply Rabs_le_inv in EV. lra. }
  destruct (eqv_up g q c' ck SQ IK EK) as (_ & c0 & S0 & O0). replace c with c0; [exact O0|]. apply same_northern; [exact PC| |now apply same_rot_trans with ck].
  destruct (eqvs_up g q c' SQ NQ (nth_error_In _ _ NC)) as (_ & P). destruct O0 as (O0 & _). apply Rabs_le_inv in O0. assert (U53 : u53 = / 9007199254740992) by (pows; lra). rewrite U53 in O0. cbn [pow]. lra.
Qed.
Definition bound (k : R) : R := (k * k + 32 * k) * u53.
Lemma bound_small k : 0 <= k <= 1048576 -> 0 <= bound k <= / 4096.
Proof. intros K. unfold bound. assert (U53 : u53 = / 9007199254740992) by (pows; lra). rewrite U53. nra. Qed.
Lemma add_off k (a c : f64) e (a' : f64) r c0 : Rabs (B2R a) <= 2 * k -> Rabs (B2R c) <= 2 -> 1 <= k -> B2R a' = rnd (B2R a + B2R c) -> Rabs (B2R a - r) <= e -> Rabs (B2R c - c0) <= 28 * u53 -> e <= bound k ->
  Rabs (B2R (a' : f64) - (r + c0)) <= bound (k + 1).
Proof.
  intros A C K V EA EC E. pose proof (rnd_rel (B2R (a : f64) + B2R (c : f64))) as RR. rewrite <- V in RR. pose proof eta_pos as HE. pose proof u_pos as HU.
  assert (M : Rabs (B2R a + B2R c) <= 2 * k + 2) by (apply Rle_trans with (1 := Rabs_triang _ _); lra).
  assert (X : u53 * Rabs (B2R a + B2R c) <= u53 * (2 * k + 2)) by (apply Rmult_le_compat_l; lra).
  assert (B : bound (k + 1) = bound k + (2 * k + 33) * u53) by (unfold bound; ring). rewrite B.
  assert (Y : eta <= u53) by lra. apply Rabs_le_inv in RR. apply Rabs_le_inv in EA. apply Rabs_le_inv in EC. apply Rabs_le. lra.
Qed.
Lemma sum_near g : forall rest s a k r r', Forall (fun q => sound q /\ 0 <= B2R (fw q)) rest -> (1 <= k)%Z -> (k + Z.of_nat (List.length rest) <= 2 ^ 20)%Z -> upto (IZR (2 * k)) a -> off (bound (IZR k)) a r ->
  clear_sum (sym_eqv g) r (map value rest) r' ->
  let a' := fold_left (fun av iq => add_f av (chosen_f dot_f (fst iq) g av (snd iq))) (combine (seq s (List.length rest)) rest) a in
  let n := (k + Z.of_nat (List.length rest))%Z in upto (IZR (2 * n)) a' /\ off (bound (IZR n)) a' r'.
Proof.
  induction rest as [|q rest IH]; intros s a k r r' H K KL U O C; cbv zeta.
  - inversion C; subst. cbn [List.length seq combine fold_left]. rewrite Z.add_0_r. auto.
  - inversion_clear H as [|? ? (SQ & NQ) H']. cbn [map] in C. inversion C as [|? ? ? c ? EQ PC CL CS]; subst. cbn [List.length seq combine fold_left fst snd] in *.
    assert (KR : 1 <= IZR k <= 1048576) by (split; [apply (IZR_le 1); exact K|apply (IZR_le k 1048576); change (2 ^ 20)%Z with 1048576%Z in KL; lia]).
    assert (U21 : upto (IZR (2 ^ 21)) a). { destruct U as (F & U). split; [exact F|]. intros d I. apply Rle_trans with (1 := U d I). apply IZR_le. change (2 ^ 20)%Z with 1048576%Z in KL. change (2 ^ 21)%Z with 2097152%Z. lia. }
    pose proof (chosen_near s g q a r _ c SQ NQ U21 O (proj2 (bound_small (IZR k) ltac:(lra))) EQ PC CL) as OC. destruct (chosen_up dot_f s g a q SQ NQ) as (UC & NC). set (d := chosen_f dot_f s g a q) in *.
    change (2 ^ 20)%Z with 1048576%Z in *.
    destruct (add_up (2 * k) a d ltac:(change (2 ^ 52)%Z with 4503599627370496%Z; lia) U UC NC) as (U3 & _). replace (2 * k + 2)%Z with (2 * (k + 1))%Z in U3 by lia.
    assert (O3 : off (bound (IZR (k + 1))) (add_f a d) (qsum r c)).
    { destruct U as ((A1 & A2 & A3 & A4) & UA). destruct UC as ((B1 & B2 & B3 & B4) & UB). rewrite mult_IZR in UA. rewrite plus_IZR.
      assert (V : forall x y, In x (coefs a) -> In y (coefs d) -> is_finite x = true -> is_finite y = true -> B2R (fadd x y) = rnd (B2R x + B2R y)).
      { intros x1 y1 IX IY FX FY. refine (proj1 (proj2 (add_one (2 * k) x1 y1 _ FX FY _ (UB y1 IY)))); [change (2 ^ 52)%Z with 4503599627370496%Z; lia|rewrite mult_IZR; exact (UA x1 IX)]. }
      destruct O as (O1 & O2 & O3 & O4). destruct OC as (C1 & C2 & C3 & C4). unfold off, qsum, add_f. cbn [fw fx fy fz qw qx qy qz].
      split; [|split; [|split]]; (eapply add_off; [apply UA|apply UB|lra|apply V|eassumption|eassumption|apply Rle_refl]); try assumption; cbn; tauto. }
    destruct (IH (S s) (add_f a d) (k + 1)%Z (qsum r c) r' H' ltac:(lia) ltac:(lia) U3 O3 CS) as (U4 & O4). cbv zeta in *.
    replace (k + Z.of_nat (S (List.length rest)))%Z with (k + 1 + Z.of_nat (List.length rest))%Z by lia. auto.
Qed.
End Steps.

(** ** The direction of a sum *)
Lemma direction aw ax ay az r e : let N := sqrt (dot r r) in let A := sqrt (dot (Q4 aw ax ay az) (Q4 aw ax ay az)) in
  0 < N -> e <= N / 100 -> Rabs (aw - qw r) <= e -> Rabs (ax - qx r) <= e -> Rabs (ay - qy r) <= e -> Rabs (az - qz r) <= e ->
  0 < A /\ Rabs (aw / A - qw r / N) <= 10 * (e / N) /\ Rabs (ax / A - qx r / N) <= 10 * (e / N) /\ Rabs (ay / A - qy r / N) <= 10 * (e / N) /\ Rabs (az / A - qz r / N) <= 10 * (e / N).
Proof.
  destruct r as [rw rx ry rz]. unfold dot. cbn [qw qx qy qz]. cbv zeta. set (N2 := rw * rw + rx * rx + ry * ry + rz * rz). set (A2 := aw * aw + ax * ax + ay * ay + az * az).
  intros P E Ew Ex Ey Ez. pose proof (sqrt_pos A2) as AP. assert (E0 : 0 <= e) by (pose proof (Rabs_pos (aw - rw)); lra).
  assert (SQ : forall x, 0 <= x * x) by (intros x; exact (Rle_0_sqr x)). pose proof (SQ rw). pose proof (SQ rx). pose proof (SQ ry). pose proof (SQ rz). pose proof (SQ aw). pose proof (SQ ax). pose proof (SQ ay). pose proof (SQ az).
  assert (QN : sqrt N2 * sqrt N2 = N2) by (apply sqrt_sqrt; unfold N2; lra). assert (QA : sqrt A2 * sqrt A2 = A2) by (apply sqrt_sqrt; unfold A2; lra).
  assert (RN : forall x, x * x <= N2 -> Rabs x <= sqrt N2).
  { intros x X. rewrite <- (sqrt_square (Rabs x)) by apply Rabs_pos. apply sqrt_le_1; [apply SQ|unfold N2; lra|]. rewrite <- Rabs_mult, Rabs_pos_eq by apply SQ. exact X. }
  assert (RA : forall x, x * x <= A2 -> Rabs x <= sqrt A2).
  { intros x X. rewrite <- (sqrt_square (Rabs x)) by apply Rabs_pos. apply sqrt_le_1; [apply SQ|unfold A2; lra|]. rewrite <- Rabs_mult, Rabs_pos_eq by apply SQ. exact X. }
  set (N := sqrt N2) in *. set (A := sqrt A2) in *.
  assert (D : forall a x, x * x <= N2 -> Rabs (a - x) <= e -> Rabs (a * a - x * x) <= e * (2 * N + e)).
  { intros a x X D0. replace (a * a - x * x) with ((a - x) * (a + x)) by ring. rewrite Rabs_mult. apply Rmult_le_compat; [apply Rabs_pos|apply Rabs_pos|exact D0|].
    replace (a + x) with ((a - x) + 2 * x) by ring. apply Rle_trans with (1 := Rabs_triang _ _). rewrite Rabs_mult, (Rabs_pos_eq 2) by lra. pose proof (RN x X). lra. }
  pose proof (D aw rw ltac:(unfold N2; lra) Ew) as D1. pose proof (D ax rx ltac:(unfold N2; lra) Ex) as D2. pose proof (D ay ry ltac:(unfold N2; lra) Ey) as D3. pose proof (D az rz ltac:(unfold N2; lra) Ez) as D4.
  assert (DA : Rabs (A2 - N2) <= e * (8 * N + 4 * e)).
  { apply Rabs_le_inv in D1. apply Rabs_le_inv in D2. apply Rabs_le_inv in D3. apply Rabs_le_inv in D4. unfold A2, N2. apply Rabs_le. lra. }
  assert (EE : e * (8 * N + 4 * e) <= 9 * e * N). { assert (e * (4 * e) <= e * N) by (apply Rmult_le_compat_l; lra). lra. }
  assert (DN : Rabs (A - N) <= 9 * e).
  { apply Rmult_le_reg_r with (A + N); [lra|]. rewrite <- (Rabs_pos_eq (A + N)) at 1 by lra. rewrite <- Rabs_mult. replace ((A - N) * (A + N)) with (A2 - N2) by (rewrite <- QA, <- QN; ring).
    apply Rle_trans with (1 := DA). apply Rle_trans with (1 := EE). assert (0 <= e * A) by (apply Rmult_le_pos; lra). lra. }
  assert (A0 : 0 < A) by (apply Rabs_le_inv in DN; lra). split; [exact A0|].
  assert (F : forall a x, a * a <= A2 -> Rabs (a - x) <= e -> Rabs (a / A - x / N) <= 10 * (e / N)).
  { intros a x X D0. replace (a / A - x / N) with ((a - x) / N + a / A * ((N - A) / N)) by (field; lra). apply Rle_trans with (1 := Rabs_triang _ _).
    assert (I : forall y k, Rabs y <= k -> Rabs (y / N) <= k / N).
    { intros y k Y. unfold Rdiv. rewrite Rabs_mult, Rabs_inv, (Rabs_pos_eq N) by lra. apply Rmult_le_compat_r; [left; now apply Rinv_0_lt_compat|exact Y]. }
    assert (X1 : Rabs (a / A) <= 1). { unfold Rdiv. rewrite Rabs_mult, Rabs_inv, (Rabs_pos_eq A) by lra. apply Rmult_le_reg_r with A; [lra|]. rewrite Rmult_assoc, Rinv_l by lra. pose proof (RA a X). lra. }
    rewrite (Rabs_mult (a / A)). pose proof (I _ _ D0) as I1. rewrite Rabs_minus_sym in DN. pose proof (I _ _ DN) as I2. replace (9 * e / N) with (9 * (e / N)) in I2 by (unfold Rdiv; ring).
    assert (Rabs (a / A) * Rabs ((N - A) / N) <= 1 * (9 * (e / N))) by (apply Rmult_le_compat; auto using Rabs_pos). lra. }
  split; [|split; [|split]]; apply F; assumption || (unfold A2; lra).
Qed.
Lemma north_pos q : is_finite (fw q) = true -> 0 <= B2R (fw q) -> north_f q = q.
Proof. intros F P. unfold north_f. destruct (flt (fw q) f0) eqn:E; [|reflexivity]. destruct (flt_zero _ F) as (L & _). specialize (L E). lra. Qed.
Lemma average_near dot_f dot4 g q0 rest r : (forall i j, any_order (dot_f i j)) -> any_order dot4 ->
  Forall (fun q => sound q /\ 0 <= B2R (fw q)) (q0 :: rest) -> (Z.of_nat (List.length (q0 :: rest)) <= 2 ^ 20)%Z ->
  clear_sum (sym_eqv g) (value q0) (map value rest) r -> INR (List.length (q0 :: rest)) / 2 <= sqrt (inner r r) ->
  exists a n, average_f dot_f dot4 g (q0 :: rest) = Ok a /\ calc_average_ori (calc_sym_eqvs (map value (q0 :: rest)) g) = Some n /\ near_quat (INR (List.length (q0 :: rest)) / 2 ^ 42) a n.
Proof.
  intros DOT DOT4 H L C NR. inversion_clear H as [|? ? (S0 & N0) H']. set (n := List.length (q0 :: rest)) in *.
  assert (L1 : (1 + Z.of_nat (List.length rest))%Z = Z.of_nat n) by (unfold n; cbn [List.length]; lia).
  assert (O0 : off (bound 1) q0 (value q0)).
  { unfold off, value. cbn [qw qx qy qz]. rewrite !Rminus_eq_0, Rabs_R0. pose proof (bound_small 1 ltac:(lra)). repeat split; lra. }
  destruct (sum_near dot_f DOT g rest 1 q0 1 (value q0) r H' ltac:(lia) ltac:(lia) (sound_up q0 S0) O0 C) as ((FA & UA) & OA). cbv zeta in UA, OA, FA. fold (sum_f dot_f g q0 rest) in *. rewrite L1 in *.
  set (s := sum_f dot_f g q0 rest) in *. rewrite <- INR_IZR_INZ in OA.
  assert (NB : 1 <= INR n <= 1048576) by (rewrite INR_IZR_INZ; change (2 ^ 20)%Z with 1048576%Z in L; split; [apply (IZR_le 1)|apply (IZR_le _ 1048576)]; lia).
  assert (BN : bound (INR n) <= 33 * u53 * (INR n * INR n)) by (unfold bound; pose proof u_pos; assert (INR n <= INR n * INR n) by nra; nra).
  assert (U53 : u53 = / 9007199254740992) by (pows; lra). rewrite U53 in BN. set (N := INR n) in *. set (e := bound N) in *.
  assert (NN : 0 <= N * N <= 1048576 * N) by nra.
  change (inner r r) with (dot r r) in NR. set (D := sqrt (dot r r)) in *. assert (EQ : e <= D / 100) by lra.
  assert (PD : 0 < D) by lra.
  destruct OA as (O1 & O2 & O3 & O4).
  destruct (direction _ _ _ _ r e PD EQ O1 O2 O3 O4) as (PA & X1 & X2 & X3 & X4). cbv zeta in *. fold D in PA, X1, X2, X3, X4. change (Q4 (B2R (fw s)) (B2R (fx s)) (B2R (fy s)) (B2R (fz s))) with (value s) in *.
  set (A := sqrt (dot (value s) (value s))) in *.
  assert (IR : in_range s).
  { split; [exact FA|]. split.
    - intros c I. apply Rle_trans with (1 := UA c I). rewrite pow400. apply Rle_trans with (bpow radix2 52); [|apply bpow_le; lia]. rewrite <- (IZR_Zpower radix2) by lia. apply IZR_le.
      change (Zpower (radix_val radix2) 52) with (2 ^ 52)%Z. change (2 ^ 20)%Z with 1048576%Z in L. change (2 ^ 52)%Z with 4503599627370496%Z. lia.
    - assert (B : exists b, In b (coefs s) /\ / 64 <= B2R b * B2R b).
      { destruct (Rle_lt_dec (/ 64) (B2R (fw s) * B2R (fw s))) as [G|G1]; [exists (fw s); cbn; tauto|]. destruct (Rle_lt_dec (/ 64) (B2R (fx s) * B2R (fx s))) as [G|G2]; [exists (fx s); cbn; tauto|].
        destruct (Rle_lt_dec (/ 64) (B2R (fy s) * B2R (fy s))) as [G|G3]; [exists (fy s); cbn; tauto|]. destruct (Rle_lt_dec (/ 64) (B2R (fz s) * B2R (fz s))) as [G|G4]; [exists (fz s); cbn; tauto|].
        exfalso. assert (R2 : / 4 <= dot r r).
        { assert (QD : D * D = dot r r) by (apply sqrt_sqrt; unfold dot; pose proof (Rle_0_sqr (qw r)); pose proof (Rle_0_sqr (qx r)); pose proof (Rle_0_sqr (qy r)); pose proof (Rle_0_sqr (qz r)); unfold Rsqr in *; lra).
          rewrite <- QD. assert (H2 : / 2 <= D) by lra. replace (/ 4) with (/ 2 * / 2) by lra. apply Rmult_le_compat; lra. }
        assert (E3 : e <= / 4096) by exact (proj2 (bound_small N ltac:(lra))).
        assert (K : forall b x1, Rabs (b - x1) <= e -> b * b < / 64 -> x1 * x1 < / 64 + / 1000).
        { intros b x1 Y1 Y2. assert (B8 : -/8 < b < /8) by (destruct (Rlt_dec (-/8) b), (Rlt_dec b (/8)); try lra; nra). apply Rabs_le_inv in Y1. assert (Y3 : - (/ 8 + / 4096) < x1 < / 8 + / 4096) by lra. nra. }
        pose proof (K _ _ O1 G1). pose proof (K _ _ O2 G2). pose proof (K _ _ O3 G3). pose proof (K _ _ O4 G4). unfold dot in R2. lra. }
      destruct B as (b & IB & LB). exists b. split; [exact IB|]. apply Rle_trans with (/ 8).
      + rewrite pow400, <- bpow_opp. apply Rle_trans with (bpow radix2 (-3)); [apply bpow_le; lia|change (bpow radix2 (-3)) with (/ 8); lra].
      + destruct (Rle_lt_dec (/ 8) (Rabs (B2R b))) as [G|G]; [exact G|]. exfalso. rewrite <- (Rabs_pos_eq (B2R b * B2R b)) in LB by apply Rle_0_sqr. rewrite Rabs_mult in LB.
        pose proof (Rabs_pos (B2R b)). assert (Rabs (B2R b) * Rabs (B2R b) < / 8 * / 8) by (apply Rmult_le_0_lt_compat; lra). lra. }
  destruct (normalise_near dot4 s DOT4 IR) as (n1 & E1 & (F1 & Y1 & Y2 & Y3 & Y4) & _).
  destruct (average_spec (value q0) (map value rest) g) as (r1 & RS & EA).
  { intros q I. apply in_map_iff in I as (q1 & <- & I). rewrite Forall_forall in H'. exact (proj2 (H' q1 I)). }
  rewrite (clear_run _ _ _ _ C _ RS) in EA. pose proof (clear_north _ (value q0) _ _ N0 C) as NP.
  assert (Q : Quat false r = r) by (unfold Quat; destruct (Rlt_dec (qw r) 0); [lra|reflexivity]). rewrite Q in EA.
  unfold normalise in EA, E1. change (norm r) with D in EA. change (norm (value s)) with A in E1. cbv zeta in EA, E1. destruct (Req_EM_T D 0) as [Z|_]; [lra|]. destruct (Req_EM_T A 0) as [Z|_]; [lra|]. apply some_inj in E1. subst n1. cbn [value qw qx qy qz] in Y1, Y2, Y3, Y4.
  eexists. eexists. split; [reflexivity|]. split; [exact EA|]. fold s.
  assert (NS : north_f s = s).
  { apply north_pos; [apply FA|]. destruct (sum_up dot_f g rest 1 q0 2 H' ltac:(lia) ltac:(change (2 ^ 20)%Z with 1048576%Z in L; change (2 ^ 52)%Z with 4503599627370496%Z; lia) (sound_up q0 S0)) as (_ & G). cbv zeta in G. fold (sum_f dot_f g q0 rest) in G. fold s in G. lra. }
  rewrite NS. split; [exact F1|]. cbn [qw qx qy qz].
  assert (ED : 10 * (e / D) <= 660 * / 9007199254740992 * N).
  { unfold Rdiv. rewrite <- Rmult_assoc. apply Rmult_le_reg_r with D; [exact PD|]. rewrite Rmult_assoc, Rinv_l by lra. assert (N * (N / 2) <= N * D) by (apply Rmult_le_compat_l; lra). lra. }
  assert (T : forall y z w : R, Rabs (y - z) <= / 2 ^ 45 -> Rabs (z - w) <= 10 * (e / D) -> Rabs (y - w) <= N / 2 ^ 42).
  { intros y z w G1 G2. replace (y - w) with ((y - z) + (z - w)) by ring. apply Rle_trans with (1 := Rabs_triang _ _). cbn [pow] in *. lra. }
  split; [|split; [|split]]; eapply T; eassumption.
Qed.
