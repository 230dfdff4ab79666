(** Rounding errors of strains. *)
From Coq Require Import Reals Lra Psatz.
From Coq Require Import List ZArith Bool Lia Permutation.
From Flocq Require Import Core IEEE754.BinarySingleNaN.
From Verif Require Import Py Grid Dic_Model Dic_Spec Double_Model Double_Proofs Strain64_Model Strain64_Spec.
Import ListNotations.
Open Scope R_scope.
#[local] Instance valid_exp64' : Valid_exp fexp64.
Proof. apply (fexp_correct 53 1024). reflexivity. Qed.

Notation eta := (bpow radix2 (-1054)).
Lemma u_pos : 0 < u53 <= / 1000000000000000.
Proof. split; [apply bpow_gt_0|]. unfold bpow. cbn [radix2 radix_val Z.pow_pos Pos.iter Z.mul Pos.mul]. apply Rinv_le; lra. Qed.
Lemma eta_pos : 0 < eta <= u53 / 1000000000000000.
Proof.
  split; [apply bpow_gt_0|]. apply Rle_trans with (bpow radix2 (-53 + -53)); [apply bpow_le; lia|]. rewrite bpow_plus. pose proof u_pos.
  unfold Rdiv. apply Rmult_le_compat_l; lra.
Qed.
(** Rounding, relative to the number. *)
Lemma rnd_rel x : Rabs (rnd x - x) <= u53 * Rabs x + eta.
Proof.
  pose proof u_pos as U. pose proof eta_pos as N. pose proof (Rabs_pos x) as P.
  destruct (Rle_lt_dec (Rabs x) (bpow radix2 (-1000))) as [L|L].
  - pose proof (rnd_err (-1000) x ltac:(lia) L) as E. change (-1000 - 54)%Z with (-1054)%Z in E. nra.
  - assert (NZ : x <> 0) by (intros ->; rewrite Rabs_R0 in L; pose proof (bpow_gt_0 radix2 (-1000)); lra).
    destruct (mag radix2 x) as (k & M). specialize (M NZ). assert (K : (-1000 < k)%Z) by (apply (lt_bpow radix2); lra).
    pose proof (rnd_err k x ltac:(lia) ltac:(lra)) as E. replace (k - 54)%Z with (-53 + (k - 1))%Z in E by lia. rewrite bpow_plus in E. nra.
Qed.

(** The scale of a calculation. *)
Lemma scale_ge k : (0 <= k)%Z -> 1 <= bpow radix2 k.
Proof. intros K. change 1 with (bpow radix2 0). apply bpow_le. exact K. Qed.
Lemma scale_up k n : (0 <= n)%Z -> bpow radix2 (k + n) = bpow radix2 k * IZR (2 ^ n).
Proof. intros N. rewrite bpow_plus. f_equal. rewrite <- IZR_Zpower by exact N. reflexivity. Qed.
Lemma scale_u k : bpow radix2 (k - 54) = bpow radix2 k * u53 / 2.
Proof. replace (k - 54)%Z with (k + (-53 + -1))%Z by lia. rewrite !bpow_plus. change (bpow radix2 (-1)) with (/ 2). lra. Qed.
Lemma scale_sq k : bpow radix2 (2 * k) = bpow radix2 k * bpow radix2 k.
Proof. replace (2 * k)%Z with (k + k)%Z by lia. apply bpow_plus. Qed.

(** One difference quotient. *)
Lemma quotient_ap a b h k : (0 <= k <= 200)%Z -> is_finite a = true -> is_finite b = true -> 1 <= B2R h <= bpow radix2 101 ->
  Rabs ((B2R a - B2R b) / B2R h) <= bpow radix2 k ->
  ap (fdiv (fsub a b) h) ((B2R a - B2R b) / B2R h) (3 * u53 * bpow radix2 k) (2 * bpow radix2 k).
Proof.
  intros K FA FB HB G. pose proof u_pos as U. pose proof eta_pos as N. pose proof (scale_ge k ltac:(lia)) as B1.
  set (B := bpow radix2 k) in *. set (d := B2R a - B2R b) in *. set (h' := B2R h) in *.
  assert (I : 0 < / h' <= 1) by (split; [apply Rinv_0_lt_compat; lra|rewrite <- Rinv_1; apply Rinv_le; lra]).
  assert (GD : Rabs d = Rabs (d / h') * h').
  { unfold Rdiv. rewrite Rabs_mult, (Rabs_pos_eq (/ h')) by lra. field. lra. }
  assert (D : Rabs d <= bpow radix2 301).
  { rewrite GD. change 301%Z with (200 + 101)%Z. rewrite bpow_plus. apply Rmult_le_compat; [apply Rabs_pos|lra| |lra].
    apply Rle_trans with (1 := G). apply bpow_le. lia. }
  destruct (fsub_in 301 a b ltac:(lia) FA FB D) as (F1 & V & _). pose proof (rnd_rel d) as E1. fold d in V. rewrite <- V in E1.
  set (v := B2R (fsub a b)) in *.
  assert (EV : Rabs (v / h' - d / h') <= u53 * Rabs (d / h') + eta).
  { replace (v / h' - d / h') with ((v - d) * / h') by (unfold Rdiv; ring). rewrite Rabs_mult, (Rabs_pos_eq (/ h')) by lra.
    apply Rle_trans with ((u53 * Rabs d + eta) * / h'); [apply Rmult_le_compat_r; lra|]. rewrite GD.
    replace ((u53 * (Rabs (d / h') * h') + eta) * / h') with (u53 * Rabs (d / h') + eta * / h') by (field; lra). nra. }
  pose proof (Rabs_pos (d / h')) as P.
  assert (VB : Rabs (v / h') <= B + u53 * B + eta).
  { replace (v / h') with (v / h' - d / h' + d / h') by ring. apply Rle_trans with (1 := Rabs_triang _ _). nra. }
  destruct (fdiv_in (k + 1) (fsub a b) h ltac:(lia) F1) as (F2 & Q & _ & M).
  { fold h'. lra. }
  { fold v h'. rewrite (scale_up k 1) by lia. fold B. change (IZR (2 ^ 1)) with 2. nra. }
  rewrite (scale_up k 1) in M by lia. fold B in M. change (IZR (2 ^ 1)) with 2 in M.
  pose proof (rnd_rel (v / h')) as E2. fold v h' in Q. rewrite <- Q in E2.
  split; [exact F2|]. split; [|lra].
  set (q := B2R (fdiv (fsub a b) h)) in *.
  replace (q - d / h') with ((q - v / h') + (v / h' - d / h')) by ring. apply Rle_trans with (1 := Rabs_triang _ _).
  assert (u53 * Rabs (v / h') <= u53 * (B + u53 * B + eta)) by (apply Rmult_le_compat_l; lra). assert (u53 * Rabs (d / h') <= u53 * B) by (apply Rmult_le_compat_l; lra).
  assert (u53 * (u53 * B) <= / 4 * (u53 * B)) by (apply Rmult_le_compat_r; [apply Rmult_le_pos|]; lra).
  assert (u53 * eta <= 1 * eta) by (apply Rmult_le_compat_r; lra). assert (u53 * 1 <= u53 * B) by (apply Rmult_le_compat_l; lra). lra.
Qed.

(** Twice a sub-window size. *)
Lemma double_exact h : is_finite h = true -> 1 <= B2R h <= bpow radix2 100 -> B2R (fmul f2 h) = 2 * B2R h.
Proof.
  intros F B. destruct f2_is as (V & F2). destruct (fmul_in 101 f2 h ltac:(lia) F2 F) as (_ & E & _).
  { rewrite V, Rabs_pos_eq by lra. change 101%Z with (1 + 100)%Z. rewrite bpow_plus. change (bpow radix2 1) with 2. lra. }
  rewrite E, V. apply round_generic; [typeclasses eauto|]. pose proof (generic_format_B2R 53 1024 h) as G. rewrite fexp_flt in *.
  apply FLT_format_generic in G; [|reflexivity]. destruct G as [[m e] X M L]. cbn [Fnum Fexp] in M, L. apply generic_format_FLT. exists (Float radix2 m (e + 1)); cbn [Fnum Fexp]; [|exact M|lia].
  rewrite X. unfold F2R. cbn [Fnum Fexp]. rewrite bpow_plus. change (bpow radix2 1) with 2. ring.
Qed.

(** The deformation gradient at a pixel. *)
Definition grad_real (W H : Z) (h : R) (u : Z -> pix -> R) (i j : Z) (p : pix) : R :=
  if (j =? 1)%Z then grad1 H h (fun y => u i (fst p, y)) (snd p) else grad1 W h (fun x => u i (x, snd p)) (fst p).
Lemma grad1_ap n h f i k : (0 <= k <= 200)%Z -> some_size h ->
  (forall x, (0 <= x < n)%Z -> (Z.abs (i - x) = 1 \/ i = x /\ (x = 0 \/ x = n - 1))%Z -> is_finite (f x) = true) -> (2 <= n)%Z -> (0 <= i < n)%Z ->
  Rabs (grad1 n (B2R h) (fun x => B2R (f x)) i) <= bpow radix2 k ->
  ap (grad1_f n h f i) (grad1 n (B2R h) (fun x => B2R (f x)) i) (3 * u53 * bpow radix2 k) (2 * bpow radix2 k).
Proof.
  intros K (FH & HB) FU N I. assert (HB' : 1 <= B2R h <= bpow radix2 100) by (rewrite <- (IZR_Zpower radix2) by lia; cbn in HB |- *; lra).
  unfold grad1, grad1_f. destruct (Z.eqb_spec i 0) as [E|E]; [|destruct (Z.eqb_spec i (n - 1)) as [E'|E']].
  - apply quotient_ap; try assumption; [apply FU; lia|apply FU; lia|]. split; [lra|]. apply Rle_trans with (1 := proj2 HB'). apply bpow_le. lia.
  - apply quotient_ap; try assumption; [apply FU; lia|apply FU; lia|]. split; [lra|]. apply Rle_trans with (1 := proj2 HB'). apply bpow_le. lia.
  - pose proof (double_exact h FH HB') as D. rewrite <- D. apply quotient_ap; try assumption; [apply FU; lia|apply FU; lia|].
    rewrite D. split; [lra|]. change 101%Z with (1 + 100)%Z. rewrite bpow_plus. change (bpow radix2 1) with 2. lra.
Qed.

Lemma F_is W H (h : f64) u p (F : tensor) i j : (2 <= W)%Z -> (2 <= H)%Z -> deformation_gradient W H (B2R h) (real_map u) = Ok F -> axis j -> F i j p = grad_real W H (B2R h) (real_map u) i j p + delta i j.
Proof.
  intros HW HH EF J. unfold deformation_gradient in EF. destruct (Z.ltb_spec W 2); [lia|]. destruct (Z.ltb_spec H 2); [lia|]. cbn [orb] in EF. injection EF as <-.
  unfold grad_real, delta, real_map. destruct J as [->| ->]; cbn [Z.eqb Z.sub Pos.eqb Z.opp Z.add Z.pos_sub]; destruct (_ =? _)%Z; lra.
Qed.

Section At.
Variables (W H : Z) (h : f64) (u : Z -> pix -> f64) (k : Z) (p : pix).
Hypothesis HW : (2 <= W)%Z.
Hypothesis HH : (2 <= H)%Z.
Hypothesis HK : (0 <= k <= 200)%Z.
Hypothesis HS : some_size h.
Hypothesis HP : inside W H p.
Hypothesis HF : forall c q, axis c -> reads W H p q -> is_finite (u c q) = true.
Notation B := (bpow radix2 k).
Variables (F : tensor) (f : tensor_f).
Hypothesis EF : deformation_gradient W H (B2R h) (real_map u) = Ok F.
Hypothesis Ef : gradient_f W H h u = Ok f.
Hypothesis HB : forall i j, axis i -> axis j -> Rabs (F i j p - delta i j) <= B.

Lemma f_ap i j : axis i -> axis j -> ap (f i j p) (F i j p) (5 * u53 * B) (4 * B).
Proof.
  intros I J. pose proof (F_is W H h u p F i j HW HH EF J) as X. pose proof (HB i j I J) as Y. rewrite X in *. pose proof u_pos as U. pose proof (scale_ge k ltac:(lia)) as B1.
  assert (G : ap (if (j =? 1)%Z then grad1_f H h (fun y => u i (fst p, y)) (snd p) else grad1_f W h (fun x => u i (x, snd p)) (fst p))
    (grad_real W H (B2R h) (real_map u) i j p) (3 * u53 * B) (2 * B)).
  { replace (grad_real W H (B2R h) (real_map u) i j p + delta i j - delta i j) with (grad_real W H (B2R h) (real_map u) i j p) in Y by ring.
    destruct HP as (P1 & P2). unfold grad_real in *. destruct J as [->| ->]; cbn [Z.eqb Pos.eqb] in *.
    - unfold real_map in *. apply (grad1_ap W h (fun x => u i (x, snd p)) (fst p) k); auto. intros x X1 X2. apply HF; [exact I|]. unfold reads, on_rim, taxi, inside. destruct p as (px, py). cbn [fst snd] in *.
      split; [lia|]. destruct X2 as [X2|(-> & X2)]; [left; lia|right; split; [reflexivity|lia]].
    - unfold real_map in *. apply (grad1_ap H h (fun y => u i (fst p, y)) (snd p) k); auto. intros x X1 X2. apply HF; [exact I|]. unfold reads, on_rim, taxi, inside. destruct p as (px, py). cbn [fst snd] in *.
      split; [lia|]. destruct X2 as [X2|(-> & X2)]; [left; lia|right; split; [reflexivity|lia]]. }
  unfold gradient_f in Ef. destruct (Z.ltb_spec W 2); [lia|]. destruct (Z.ltb_spec H 2); [lia|]. cbn [orb] in Ef. injection Ef as <-. cbv zeta.
  unfold delta. destruct (Z.eqb_spec i j).
  - destruct f1_is as (V & F1). assert (A1 : ap f1 1 0 1) by (rewrite <- V; apply ap_exact; [exact F1|rewrite V, Rabs_pos_eq; lra]).
    pose proof (ap_add (k + 2) _ _ _ _ _ _ _ _ ltac:(lia) G A1) as A. rewrite scale_u, (scale_up k 2) in A by lia. change (IZR (2 ^ 2)) with 4 in A.
    apply ap_weak with (1 := A ltac:(lra)); lra.
  - rewrite Rplus_0_r. apply ap_weak with (1 := G); nra.
Qed.
Lemma F_bound i j : axis i -> axis j -> Rabs (F i j p) <= 2 * B.
Proof.
  intros I J. pose proof (HB i j I J) as Y. pose proof (scale_ge k ltac:(lia)) as B1. replace (F i j p) with (F i j p - delta i j + delta i j) by ring.
  apply Rle_trans with (1 := Rabs_triang _ _). assert (Rabs (delta i j) <= 1) by (unfold delta; destruct (i =? j)%Z; [rewrite Rabs_R1|rewrite Rabs_R0]; lra). lra.
Qed.

Lemma product_near a b x y : ap a x (5 * u53 * B) (4 * B) -> ap b y (5 * u53 * B) (4 * B) -> Rabs x <= 2 * B -> Rabs (B2R a * B2R b - x * y) <= 30 * u53 * (B * B).
Proof.
  intros (_ & E1 & M1) (_ & E2 & M2) X. replace (B2R a * B2R b - x * y) with (x * (B2R b - y) + B2R b * (B2R a - x)) by ring.
  apply Rle_trans with (1 := Rabs_triang _ _). rewrite !Rabs_mult.
  assert (Rabs x * Rabs (B2R b - y) <= 2 * B * (5 * u53 * B)) by (apply Rmult_le_compat; auto using Rabs_pos).
  assert (Rabs (B2R b) * Rabs (B2R a - x) <= 4 * B * (5 * u53 * B)) by (apply Rmult_le_compat; auto using Rabs_pos). lra.
Qed.
Variable dot2 : Z -> Z -> pix -> list (f64 * f64) -> f64.
Hypothesis HD : any_sum dot2.
Lemma e_ap i j : axis i -> axis j -> ap (green_f dot2 f i j p) (green_strain F i j p) (78 * u53 * (B * B)) (32 * (B * B)).
Proof.
  intros I J. pose proof u_pos as U. pose proof (scale_ge k ltac:(lia)) as B1. assert (BB : 1 <= B * B) by nra.
  assert (A0 : axis 0) by (left; reflexivity). assert (A1 : axis 1) by (right; reflexivity).
  assert (TI : forall c, axis c -> term_in (2 * k + 4) (f c i p, f c j p)).
  { intros c C. destruct (f_ap c i C I) as (F1 & _ & M1). destruct (f_ap c j C J) as (F2 & _ & M2). split; [exact F1|split; [exact F2|]]. cbn [fst snd].
    rewrite (scale_up (2 * k) 4), scale_sq, Rabs_mult by lia. change (IZR (2 ^ 4)) with 16.
    apply Rle_trans with (4 * B * (4 * B)); [apply Rmult_le_compat; auto using Rabs_pos|lra]. }
  pose proof (HD i j p [(f 0%Z i p, f 0%Z j p); (f 1%Z i p, f 1%Z j p)]) as SM.
  set (v := dot2 i j p [(f 0%Z i p, f 0%Z j p); (f 1%Z i p, f 1%Z j p)]) in *.
  destruct (sums_err (2 * k + 4) _ v ltac:(lia) SM) as (FV & MV & _ & EV); [constructor; [apply TI, A0|constructor; [apply TI, A1|constructor]]|cbn; lia|].
  rewrite scale_u in EV. rewrite (scale_up (2 * k) 4), scale_sq in MV, EV by lia. change (IZR (2 ^ 4)) with 16 in MV, EV. cbn [List.length INR] in MV, EV.
  unfold total in EV. cbn [map fold_right fst snd] in EV.
  pose proof (product_near _ _ _ _ (f_ap 0 i A0 I) (f_ap 0 j A0 J) (F_bound 0 i A0 I)) as P0.
  pose proof (product_near _ _ _ _ (f_ap 1 i A1 I) (f_ap 1 j A1 J) (F_bound 1 i A1 I)) as P1.
  set (S := F 0%Z i p * F 0%Z j p + F 1%Z i p * F 1%Z j p).
  assert (AV : ap v S (108 * u53 * (B * B)) (32 * (B * B))).
  { split; [exact FV|]. split; [|lra].
    replace (B2R v - S) with ((B2R v - (B2R (f 0%Z i p) * B2R (f 0%Z j p) + (B2R (f 1%Z i p) * B2R (f 1%Z j p) + 0)))
      + ((B2R (f 0%Z i p) * B2R (f 0%Z j p) - F 0%Z i p * F 0%Z j p) + (B2R (f 1%Z i p) * B2R (f 1%Z j p) - F 1%Z i p * F 1%Z j p))) by (unfold S; ring).
    apply Rle_trans with (1 := Rabs_triang _ _). pose proof (Rabs_triang (B2R (f 0%Z i p) * B2R (f 0%Z j p) - F 0%Z i p * F 0%Z j p) (B2R (f 1%Z i p) * B2R (f 1%Z j p) - F 1%Z i p * F 1%Z j p)). lra. }
  destruct fhalf_is as (V & F1). assert (AH : ap fhalf (/ 2) 0 (/ 2)) by (rewrite <- V at 1; apply ap_exact; [exact F1|rewrite V, Rabs_pos_eq; lra]).
  pose proof (ap_mul (2 * k + 4) _ _ _ _ _ _ _ _ ltac:(lia) AH AV) as A. rewrite scale_u, (scale_up (2 * k) 4), scale_sq in A by lia. change (IZR (2 ^ 4)) with 16 in A.
  specialize (A ltac:(rewrite Rabs_pos_eq; lra) ltac:(lra)).
  unfold green_f, green_strain. cbv zeta. fold v. fold S. replace (1 / 2) with (/ 2) by lra. destruct (Z.eqb_spec i j).
  - assert (A' : ap (fmul fhalf v) (/ 2 * S) (62 * u53 * (B * B)) (16 * (B * B))) by (apply ap_weak with (1 := A); lra).
    pose proof (ap_sub (2 * k + 5) _ _ _ _ _ _ _ _ ltac:(lia) A' AH) as D. rewrite scale_u, (scale_up (2 * k) 5), scale_sq in D by lia. change (IZR (2 ^ 5)) with 32 in D.
    apply ap_weak with (1 := D ltac:(lra)); lra.
  - apply ap_weak with (1 := A); nra.
Qed.
End At.

(** Lengths. *)
Lemma norm_near x y X Y : Rabs (sqrt (x ^ 2 + y ^ 2) - sqrt (X ^ 2 + Y ^ 2)) <= Rabs (x - X) + Rabs (y - Y).
Proof.
  assert (H : forall x y X Y, sqrt (x ^ 2 + y ^ 2) <= sqrt (X ^ 2 + Y ^ 2) + (Rabs (x - X) + Rabs (y - Y))).
  { clear. intros x y X Y. set (N := sqrt (X ^ 2 + Y ^ 2)). assert (N0 : 0 <= N) by apply sqrt_pos.
    assert (NN : N * N = X ^ 2 + Y ^ 2) by (apply sqrt_sqrt; nra).
    assert (NX : Rabs X <= N) by (apply Rsqr_incr_0_var; [|exact N0]; rewrite <- Rsqr_abs; unfold Rsqr; nra).
    assert (NY : Rabs Y <= N) by (apply Rsqr_incr_0_var; [|exact N0]; rewrite <- Rsqr_abs; unfold Rsqr; nra).
    pose proof (Rabs_pos (x - X)) as PA. pose proof (Rabs_pos (y - Y)) as PB.
    rewrite <- (sqrt_square (N + (Rabs (x - X) + Rabs (y - Y)))) by lra. apply sqrt_le_1; [nra|nra|].
    assert (AX : x ^ 2 <= (Rabs X + Rabs (x - X)) ^ 2).
    { replace (x ^ 2) with (Rabs x * Rabs x) by (rewrite <- Rabs_mult, Rabs_pos_eq; nra). assert (Rabs x <= Rabs X + Rabs (x - X)) by (replace x with (X + (x - X)) at 1 by ring; apply Rabs_triang).
      pose proof (Rabs_pos x). nra. }
    assert (AY : y ^ 2 <= (Rabs Y + Rabs (y - Y)) ^ 2).
    { replace (y ^ 2) with (Rabs y * Rabs y) by (rewrite <- Rabs_mult, Rabs_pos_eq; nra). assert (Rabs y <= Rabs Y + Rabs (y - Y)) by (replace y with (Y + (y - Y)) at 1 by ring; apply Rabs_triang).
      pose proof (Rabs_pos y). nra. }
    assert (XX : Rabs X ^ 2 = X ^ 2) by (rewrite pow2_abs; reflexivity). assert (YY : Rabs Y ^ 2 = Y ^ 2) by (rewrite pow2_abs; reflexivity).
    set (a := Rabs (x - X)) in *. set (b := Rabs (y - Y)) in *. nra. }
  apply Rabs_le. pose proof (H x y X Y). pose proof (H X Y x y) as H2. rewrite (Rabs_minus_sym X x), (Rabs_minus_sym Y y) in H2. lra.
Qed.
Lemma root_near t S : 0 <= t -> 0 <= S -> Rabs (t - S) <= 4 * u53 * S + 4 * eta -> Rabs (sqrt t - sqrt S) <= 4 * u53 * sqrt S + bpow radix2 (-400).
Proof.
  intros T0 S0 E. pose proof u_pos as U. pose proof eta_pos as N. pose proof (sqrt_pos t) as PT. pose proof (sqrt_pos S) as PS.
  assert (Q400 : bpow radix2 (-800) = bpow radix2 (-400) * bpow radix2 (-400)) by (change (-800)%Z with (2 * -400)%Z; apply scale_sq).
  assert (Q0 : 0 < bpow radix2 (-400)) by apply bpow_gt_0.
  assert (QE : 4 * eta <= bpow radix2 (-800) / 4).
  { apply Rle_trans with (4 * bpow radix2 (-804)); [apply Rmult_le_compat_l; [lra|apply bpow_le; lia]|]. change (-800)%Z with (-804 + 4)%Z. rewrite scale_up by lia. change (IZR (2 ^ 4)) with 16. lra. }
  destruct (Rle_lt_dec S (bpow radix2 (-800) / 2)) as [L|L].
  - assert (T1 : t <= bpow radix2 (-800)) by (apply Rabs_le_inv in E; nra).
    assert (sqrt t <= bpow radix2 (-400)) by (rewrite <- (sqrt_square (bpow radix2 (-400))) by lra; apply sqrt_le_1; lra).
    assert (sqrt S <= bpow radix2 (-400)) by (rewrite <- (sqrt_square (bpow radix2 (-400))) by lra; apply sqrt_le_1; lra).
    apply Rle_trans with (bpow radix2 (-400)); [apply Rabs_le; lra|nra].
  - assert (SS : sqrt S * sqrt S = S) by (apply sqrt_sqrt; exact S0). assert (TT : sqrt t * sqrt t = t) by (apply sqrt_sqrt; exact T0).
    assert (PS' : 0 < sqrt S) by (apply sqrt_lt_R0; lra).
    assert (LS : bpow radix2 (-400) / 2 <= sqrt S).
    { rewrite <- (sqrt_square (bpow radix2 (-400) / 2)) by lra. apply sqrt_le_1; nra. }
    apply Rmult_le_reg_r with (sqrt S); [exact PS'|].
    apply Rle_trans with (Rabs (sqrt t - sqrt S) * (sqrt t + sqrt S)); [apply Rmult_le_compat_l; [apply Rabs_pos|lra]|].
    rewrite <- (Rabs_pos_eq (sqrt t + sqrt S)), <- Rabs_mult by lra. replace ((sqrt t - sqrt S) * (sqrt t + sqrt S)) with (t - S) by nra.
    apply Rle_trans with (1 := E). assert (4 * eta <= bpow radix2 (-400) * sqrt S) by nra. nra.
Qed.
Lemma shear_ap x y A : 1 <= A <= bpow radix2 420 -> is_finite x = true -> is_finite y = true -> Rabs (B2R x) <= A -> Rabs (B2R y) <= A ->
  is_finite (fsqrt (fadd (fmul x x) (fmul y y))) = true /\ 0 <= B2R (fsqrt (fadd (fmul x x) (fmul y y))) /\
  Rabs (B2R (fsqrt (fadd (fmul x x) (fmul y y))) - sqrt (B2R x ^ 2 + B2R y ^ 2)) <= 12 * u53 * A.
Proof.
  intros (A1 & A2) FX FY BX BY. pose proof u_pos as U. pose proof eta_pos as N. set (a := B2R x) in *. set (b := B2R y) in *.
  assert (SQ : forall z M, Rabs z <= M -> 0 <= z * z <= M * M) by (intros z M Z; apply Rabs_le_inv in Z; nra).
  assert (T840 : bpow radix2 840 = bpow radix2 420 * bpow radix2 420) by (change 840%Z with (2 * 420)%Z; apply scale_sq).
  pose proof (SQ a A BX) as QA. pose proof (SQ b A BY) as QB.
  assert (AA : A * A <= bpow radix2 840) by (rewrite T840; nra).
  destruct (fmul_in 840 x x ltac:(lia) FX FX) as (F1 & V1 & _ & M1); [fold a; rewrite Rabs_pos_eq; lra|]. fold a in V1.
  destruct (fmul_in 840 y y ltac:(lia) FY FY) as (F2 & V2 & _ & M2); [fold b; rewrite Rabs_pos_eq; lra|]. fold b in V2.
  assert (P1 : 0 <= B2R (fmul x x)) by (rewrite V1; rewrite <- (round_0 radix2 fexp64 ZnearestE); apply round_le; [typeclasses eauto|typeclasses eauto|lra]).
  assert (P2 : 0 <= B2R (fmul y y)) by (rewrite V2; rewrite <- (round_0 radix2 fexp64 ZnearestE); apply round_le; [typeclasses eauto|typeclasses eauto|lra]).
  pose proof (rnd_rel (a * a)) as E1. rewrite <- V1, (Rabs_pos_eq (a * a)) in E1 by lra. pose proof (rnd_rel (b * b)) as E2. rewrite <- V2, (Rabs_pos_eq (b * b)) in E2 by lra.
  set (p := fmul x x) in *. set (q := fmul y y) in *.
  destruct (fadd_in 841 p q ltac:(lia) F1 F2) as (F3 & V3 & _ & M3).
  { change 841%Z with (840 + 1)%Z. rewrite scale_up by lia. change (IZR (2 ^ 1)) with 2. apply Rle_trans with (1 := Rabs_triang _ _). lra. }
  pose proof (rnd_rel (B2R p + B2R q)) as E3. rewrite <- V3, (Rabs_pos_eq (B2R p + B2R q)) in E3 by lra.
  assert (P3 : 0 <= B2R (fadd p q)) by (rewrite V3; rewrite <- (round_0 radix2 fexp64 ZnearestE); apply round_le; [typeclasses eauto|typeclasses eauto|lra]).
  set (t := fadd p q) in *. set (S := a ^ 2 + b ^ 2). assert (S0 : 0 <= S) by (unfold S; nra).
  apply Rabs_le_inv in E1. apply Rabs_le_inv in E2. apply Rabs_le_inv in E3.
  assert (ES : Rabs (B2R t - S) <= 4 * u53 * S + 4 * eta).
  { assert (SE : S = a * a + b * b) by (unfold S; ring). assert (US : 0 <= u53 * S <= S) by nra. assert (UE : 0 <= u53 * eta <= eta / 4) by nra.
    assert (X : - (u53 * S + 2 * eta) <= B2R p + B2R q - S <= u53 * S + 2 * eta) by (rewrite SE; lra).
    assert (u53 * (B2R p + B2R q) <= u53 * (2 * S + 2 * eta)) by (apply Rmult_le_compat_l; lra). apply Rabs_le. lra. }
  pose proof (root_near (B2R t) S P3 S0 ES) as ER.
  destruct (Bsqrt_correct 53 1024 _ _ mode_NE t) as (VR & FR & _). rewrite round_mode_is in VR. fold (fsqrt t) in VR, FR.
  assert (FR' : is_finite (fsqrt t) = true).
  { rewrite FR. clear - P3 F3. destruct t as [s|s| |s m e]; try reflexivity; try discriminate F3. destruct s; [|reflexivity].
    exfalso. cbn [B2R SpecFloat.cond_Zopp] in P3. assert (F2R (Float radix2 (Z.neg m) e) < 0) by (apply F2R_lt_0; cbn; lia). cbn in *. lra. }
  pose proof (rnd_rel (sqrt (B2R t))) as E4. rewrite <- VR, (Rabs_pos_eq (sqrt (B2R t))) in E4 by apply sqrt_pos.
  split; [exact FR'|]. split; [rewrite VR; rewrite <- (round_0 radix2 fexp64 ZnearestE); apply round_le; [typeclasses eauto|typeclasses eauto|apply sqrt_pos]|].
  assert (SA : sqrt S <= 2 * A).
  { rewrite <- (sqrt_square (2 * A)) by lra. apply sqrt_le_1; [exact S0|nra|unfold S; nra]. }
  assert (B400 : bpow radix2 (-400) <= u53 / 1000).
  { apply Rle_trans with (bpow radix2 (-63)); [apply bpow_le; lia|]. change (-53)%Z with (-63 + 10)%Z. rewrite scale_up by lia. change (IZR (2 ^ 10)) with 1024. pose proof (bpow_gt_0 radix2 (-63)). lra. }
  apply Rabs_le_inv in ER. apply Rabs_le_inv in E4. pose proof (sqrt_pos S) as PS. fold S.
  assert (US : u53 * sqrt S <= u53 * (2 * A)) by (apply Rmult_le_compat_l; lra).
  assert (UA : u53 * A <= / 100 * A) by (apply Rmult_le_compat_r; lra). assert (U1 : u53 * 1 <= u53 * A) by (apply Rmult_le_compat_l; lra).
  assert (TA : sqrt (B2R t) <= 3 * A) by lra.
  assert (u53 * sqrt (B2R t) <= u53 * (3 * A)) by (apply Rmult_le_compat_l; lra).
  apply Rabs_le. lra.
Qed.

(** ** Missing numbers *)
Lemma nan_add a b : a = B754_nan \/ b = B754_nan -> fadd a b = B754_nan.
Proof. intros [->| ->]; [destruct b|destruct a]; reflexivity. Qed.
Lemma nan_sub a b : a = B754_nan \/ b = B754_nan -> fsub a b = B754_nan.
Proof. intros [->| ->]; [destruct b|destruct a]; reflexivity. Qed.
Lemma nan_mul a b : a = B754_nan \/ b = B754_nan -> fmul a b = B754_nan.
Proof. intros [->| ->]; [destruct b|destruct a]; reflexivity. Qed.
Lemma nan_div b : fdiv B754_nan b = B754_nan.
Proof. destruct b; reflexivity. Qed.
Lemma nan_fma a b c : a = B754_nan \/ b = B754_nan \/ c = B754_nan -> ffma a b c = B754_nan.
Proof. intros [->|[->| ->]]; [destruct b; reflexivity|destruct a; reflexivity|]. destruct a as [s|s| |s m e B], b as [s'|s'| |s' m' e' B']; try reflexivity; destruct s, s'; reflexivity. Qed.
Definition nan_term (t : f64 * f64) : Prop := fst t = B754_nan \/ snd t = B754_nan.
Lemma nan_sums l v : sums l v -> Exists nan_term l -> v = B754_nan.
Proof.
  induction 1 as [|x y|l1 l2 a b S1 IH1 S2 IH2|x y l a SM IH|l l' a P SM IH]; intros E.
  - inversion E.
  - inversion_clear E as [? ? N|? ? N]; [|inversion N]. apply nan_mul. exact N.
  - apply Exists_app in E as [E|E]; apply nan_add; [left|right]; auto.
  - inversion_clear E as [? ? N|? ? N]; apply nan_fma; [destruct N; auto|auto].
  - apply IH. apply Exists_exists in E as (t & I & N). apply Exists_exists. exists t. split; [|exact N]. now apply (Permutation_in _ (Permutation_sym P)).
Qed.

(** ** Whole displacements *)
Definition term_int (t : f64 * f64) : Prop := is_finite (fst t) = true /\ is_finite (snd t) = true /\ (B2R (fst t) * B2R (snd t) = 0 \/ B2R (fst t) * B2R (snd t) = 1).
Lemma sums_int l v : sums l v -> Forall term_int l -> (List.length l <= 4)%nat ->
  is_finite v = true /\ B2R v = total l /\ exists n, total l = IZR n /\ (0 <= n <= Z.of_nat (List.length l))%Z.
Proof.
  intros SM. assert (RI : forall n, (0 <= n <= 4)%Z -> rnd (IZR n) = IZR n).
  { intros n I. apply round_generic; [typeclasses eauto|]. apply format_int. lia. }
  assert (BI : forall n, (0 <= n <= 4)%Z -> Rabs (IZR n) <= bpow radix2 2).
  { intros n I. change (bpow radix2 2) with 4. rewrite Rabs_pos_eq by (apply IZR_le; lia). apply IZR_le. lia. }
  induction SM as [|x y|l1 l2 a b S1 IH1 S2 IH2|x y l a SM IH|l l' a P SM IH]; intros F L.
  - split; [reflexivity|]. split; [reflexivity|]. exists 0%Z. split; [reflexivity|cbn; lia].
  - inversion_clear F as [|? ? (FX & FY & V) _]. cbn [fst snd] in *.
    assert (E : exists n, B2R x * B2R y = IZR n /\ (0 <= n <= 1)%Z) by (destruct V as [V|V]; [exists 0%Z|exists 1%Z]; split; (lra || lia)). destruct E as (n & E & I).
    destruct (fmul_in 2 x y ltac:(lia) FX FY) as (F1 & V1 & _); [rewrite E; apply BI; lia|]. rewrite E, RI in V1 by lia.
    change (total [(x, y)]) with (B2R x * B2R y + 0). rewrite Rplus_0_r. split; [exact F1|]. split; [congruence|]. exists n. cbn [List.length]. split; [exact E|lia].
  - apply Forall_app in F as (F1 & F2). rewrite app_length in *. destruct (IH1 F1 ltac:(lia)) as (A1 & A2 & n & A3 & A4). destruct (IH2 F2 ltac:(lia)) as (B1 & B2 & m & B3 & B4).
    rewrite total_app. destruct (fadd_in 2 a b ltac:(lia) A1 B1) as (C1 & C2 & _); rewrite A2, B2, A3, B3, <- plus_IZR in *; [apply BI; lia|]. rewrite RI in C2 by lia.
    split; [exact C1|]. split; [exact C2|]. exists (n + m)%Z. split; [reflexivity|lia].
  - inversion_clear F as [|? ? (FX & FY & V) F']. cbn [fst snd List.length] in *. destruct (IH F' ltac:(lia)) as (A1 & A2 & m & A3 & A4).
    assert (E : exists n, B2R x * B2R y = IZR n /\ (0 <= n <= 1)%Z) by (destruct V as [V|V]; [exists 0%Z|exists 1%Z]; split; (lra || lia)). destruct E as (n & E & I).
    change (total ((x, y) :: l)) with (B2R x * B2R y + total l).
    destruct (ffma_in 2 x y a ltac:(lia) FX FY A1) as (C1 & C2 & _); rewrite E, A2, A3, <- plus_IZR in *; [apply BI; lia|]. rewrite RI in C2 by lia.
    split; [exact C1|]. split; [exact C2|]. exists (n + m)%Z. split; [reflexivity|lia].
  - rewrite <- (Permutation_length P), <- (total_perm _ _ P). rewrite <- (Permutation_length P) in L. apply IH; [|exact L].
    rewrite Forall_forall in *. intros t I. apply F. now apply (Permutation_in _ P).
Qed.
