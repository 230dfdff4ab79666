(** Rounding in [calc_slip_traces]. *)
From Coq Require Import String Reals Lra Psatz.
From Coq Require Import List ZArith Bool Lia Permutation.
From Flocq Require Import Core IEEE754.BinarySingleNaN.
From Verif Require Import Py Quat_Model Crystal_Model Ebsd_Model Double_Model Double_Spec Double_Proofs Double_Angle Double_Props Strain64_Proofs Kam64_Model Kam64_Proofs Grod64_Proofs
  Average64_Model Average64_Spec Average64_Proofs Single_Proofs Schmid64_Model Schmid64_Spec Schmid64_Proofs Trace64_Model Trace64_Spec.
Import ListNotations.
Open Scope R_scope.

(** ** Sums with a single product that is not zero are exact *)
Definition absolute (l : list (f64 * f64)) : R := fold_right Rplus 0 (map (fun p => Rabs (B2R (fst p) * B2R (snd p))) l).
Lemma absolute_pos l : 0 <= absolute l.
Proof. induction l as [|p l IH]; [apply Rle_refl|]. unfold absolute in *. cbn [map fold_right]. pose proof (Rabs_pos (B2R (fst p) * B2R (snd p))). lra. Qed.
Lemma absolute_app l l' : absolute (l ++ l') = absolute l + absolute l'.
Proof. unfold absolute. induction l as [|p l IH]; cbn [app map fold_right]; [ring|]. rewrite IH. ring. Qed.
Lemma absolute_perm l l' : Permutation l l' -> absolute l = absolute l'.
Proof. unfold absolute. induction 1; cbn [map fold_right]; lra. Qed.
Definition none_or (y : R) (p : f64 * f64) : Prop :=
  is_finite (fst p) = true /\ is_finite (snd p) = true /\ (B2R (fst p) * B2R (snd p) = 0 \/ B2R (fst p) * B2R (snd p) = y).
Lemma one_total y l : Forall (none_or y) l -> absolute l <= Rabs y -> total l = 0 \/ total l = y.
Proof.
  induction 1 as [|p l (_ & _ & V) F IH]; intros A; [left; reflexivity|]. unfold absolute in A. cbn [map fold_right] in A. fold (absolute l) in A. pose proof (absolute_pos l) as P.
  change (total (p :: l)) with (B2R (fst p) * B2R (snd p) + total l). destruct V as [V|V]; rewrite V in *.
  - rewrite Rabs_R0 in A. rewrite Rplus_0_l. apply IH. lra.
  - assert (Z : total l = 0); [|rewrite Z; right; ring]. assert (A0 : absolute l <= 0) by lra. clear - A0.
    induction l as [|p l IH]; [reflexivity|]. unfold absolute in A0. cbn [map fold_right] in A0. fold (absolute l) in A0. pose proof (absolute_pos l). pose proof (Rabs_pos (B2R (fst p) * B2R (snd p))) as Q.
    change (total (p :: l)) with (B2R (fst p) * B2R (snd p) + total l). rewrite IH by lra. assert (Z : Rabs (B2R (fst p) * B2R (snd p)) = 0) by lra.
    destruct (Req_dec (B2R (fst p) * B2R (snd p)) 0) as [->|N]; [ring|]. apply Rabs_pos_lt in N. lra.
Qed.
Lemma sums_single y l v : rnd y = y -> Rabs y <= bpow radix2 1 -> sums l v -> Forall (none_or y) l -> absolute l <= Rabs y -> is_finite v = true /\ B2R v = total l.
Proof.
  intros RY BY SM. assert (Z : rnd 0 = 0) by (apply round_0; typeclasses eauto).
  assert (OK : forall t, t = 0 \/ t = y -> rnd t = t /\ Rabs t <= bpow radix2 1) by (intros t [-> | ->]; split; auto; rewrite Rabs_R0; apply bpow_ge_0).
  induction SM as [|x z|l1 l2 a b S1 IH1 S2 IH2|x z l a SM IH|l l' a P SM IH]; intros F A.
  - split; reflexivity.
  - pose proof (one_total y _ F A) as T. change (total [(x, z)]) with (B2R x * B2R z + 0) in *. rewrite Rplus_0_r in *. inversion_clear F as [|? ? (FX & FZ & _) _]. cbn [fst snd] in *.
    destruct (OK _ T) as (RT & BT). destruct (fmul_in 1 x z ltac:(lia) FX FZ BT) as (F1 & V1 & _). split; [exact F1|congruence].
  - pose proof (one_total y _ F A) as T. rewrite total_app in *. rewrite absolute_app in A. apply Forall_app in F as (F1 & F2). pose proof (absolute_pos l1). pose proof (absolute_pos l2).
    destruct (IH1 F1 ltac:(lra)) as (G1 & V1). destruct (IH2 F2 ltac:(lra)) as (G2 & V2). destruct (OK _ T) as (RT & BT).
    destruct (fadd_in 1 a b ltac:(lia) G1 G2) as (G & V & _); [now rewrite V1, V2|]. split; [exact G|]. rewrite V, V1, V2. exact RT.
  - pose proof (one_total y _ F A) as T. change (total ((x, z) :: l)) with (B2R x * B2R z + total l) in *. inversion_clear F as [|? ? (FX & FZ & _) F']. cbn [fst snd] in *.
    unfold absolute in A. cbn [map fold_right fst snd] in A. fold (absolute l) in A. pose proof (Rabs_pos (B2R x * B2R z)). destruct (IH F' ltac:(lra)) as (G & V). destruct (OK _ T) as (RT & BT).
    destruct (ffma_in 1 x z a ltac:(lia) FX FZ G) as (G1 & V1 & _); [now rewrite V|]. split; [exact G1|]. rewrite V1, V. exact RT.
  - rewrite <- (total_perm _ _ P). rewrite <- (absolute_perm _ _ P) in A. apply IH; [|exact A]. rewrite Forall_forall in *. intros p I. apply F. now apply (Permutation_in _ P).
Qed.
(** The product with (0, 1, 0) is the second coefficient. *)
Lemma second_only dotv v : any_order_v dotv -> finite3 v -> Rabs (B2R (f_y v)) <= 2 -> is_finite (dotv v (F3 f0 f1 f0)) = true /\ B2R (dotv v (F3 f0 f1 f0)) = B2R (f_y v).
Proof.
  intros D (F1 & F2 & F3') B. destruct f1_is as (V1 & G1).
  destruct (sums_single (B2R (f_y v)) _ _ (rnd_id _) ltac:(change (bpow radix2 1) with 2; exact B) (D v (F3 f0 f1 f0))) as (F & E).
  - unfold pairs3, none_or. cbn [f_x f_y f_z]. repeat apply Forall_cons; try apply Forall_nil; cbn [fst snd]; change (B2R f0) with 0; rewrite ?V1, ?Rmult_0_r, ?Rmult_1_r; auto.
  - unfold pairs3, absolute. cbn [map fold_right fst snd f_x f_y f_z]. change (B2R f0) with 0. rewrite V1, !Rmult_0_r, Rmult_1_r, Rabs_R0. lra.
  - split; [exact F|]. rewrite E. unfold pairs3, total. cbn [map fold_right fst snd f_x f_y f_z]. change (B2R f0) with 0. rewrite V1. ring.
Qed.

(** ** The root of a sum of squares is at least each of the numbers *)
Lemma rnd_mono x y : x <= y -> rnd x <= rnd y.
Proof. intros L. apply round_le; [apply (fexp_correct 53 1024); reflexivity|typeclasses eauto|exact L]. Qed.
Definition square_in (j : Z) (p : f64 * f64) : Prop := term_in j p /\ fst p = snd p.
Lemma sums_least j l v : (-900 <= j <= 900)%Z -> sums l v -> Forall (square_in j) l -> (List.length l <= 4)%nat ->
  is_finite v = true /\ 0 <= B2R v <= INR (List.length l) * bpow radix2 j /\ forall p, In p l -> rnd (B2R (fst p) * B2R (fst p)) <= B2R v.
Proof.
  intros J SM F L. assert (T : Forall (term_in j) l) by (revert F; apply Forall_impl; intros p P; apply P).
  destruct (sums_err j l v J SM T L) as (FV & BV & _). pose proof (bpow_gt_0 radix2 j) as PJ.
  assert (K : 0 <= B2R v /\ forall p, In p l -> rnd (B2R (fst p) * B2R (fst p)) <= B2R v); [|destruct K as (K0 & K); rewrite Rabs_pos_eq in BV by exact K0; repeat split; auto].
  clear FV BV. induction SM as [|x z|l1 l2 a b S1 IH1 S2 IH2|x z l a SM IH|l l' a P SM IH].
  - split; [apply Rle_refl|intros p []].
  - inversion_clear F as [|? ? (T1 & E) _]. cbn [fst snd] in E. subst z. inversion_clear T as [|? ? (FX & _ & B) _]. cbn [fst snd] in *. destruct (fmul_in j x x ltac:(lia) FX FX B) as (_ & V & _). rewrite V.
    split; [apply rnd_pos, Rle_0_sqr|]. intros p [<-|[]]. apply Rle_refl.
  - rewrite app_length in L. apply Forall_app in F as (F1 & F2). apply Forall_app in T as (T1 & T2). destruct (IH1 F1 ltac:(lia) T1) as (P1 & Q1). destruct (IH2 F2 ltac:(lia) T2) as (P2 & Q2).
    destruct (sums_err j l1 a J S1 T1 ltac:(lia)) as (A1 & A2 & _). destruct (sums_err j l2 b J S2 T2 ltac:(lia)) as (B1 & B2 & _).
    destruct (fadd_in (j + 2) a b ltac:(lia) A1 B1) as (_ & V & _).
    { apply Rle_trans with (1 := Rabs_triang _ _). apply Rle_trans with (INR (List.length l1 + List.length l2) * bpow radix2 j); [rewrite plus_INR; lra|]. rewrite bpow_2. apply Rmult_le_compat_r; [lra|]. apply le_INR in L. cbn in L. lra. }
    assert (V1 : B2R a <= B2R (fadd a b)) by (rewrite V, <- (rnd_id a) at 1; apply rnd_mono; lra). assert (V2 : B2R b <= B2R (fadd a b)) by (rewrite V, <- (rnd_id b) at 1; apply rnd_mono; lra).
    split; [lra|]. intros p I. apply in_app_or in I as [I|I]; [pose proof (Q1 p I); lra|pose proof (Q2 p I); lra].
  - inversion_clear F as [|? ? (TX & E) F']. cbn [fst snd] in E. subst z. inversion_clear T as [|? ? (FX & _ & B) T']. cbn [fst snd List.length] in *. destruct (IH F' ltac:(lia) T') as (P1 & Q1).
    destruct (sums_err j l a J SM T' ltac:(lia)) as (A1 & A2 & _). pose proof (Rle_0_sqr (B2R x)) as SQ. unfold Rsqr in SQ.
    destruct (ffma_in (j + 2) x x a ltac:(lia) FX FX A1) as (_ & V & _).
    { apply Rle_trans with (1 := Rabs_triang _ _). apply Rle_trans with (INR (S (List.length l)) * bpow radix2 j); [rewrite S_INR; lra|]. rewrite bpow_2. apply Rmult_le_compat_r; [lra|]. apply le_INR in L. cbn [INR] in L |- *. lra. }
    assert (V1 : B2R a <= B2R (ffma x x a)) by (rewrite V, <- (rnd_id a) at 1; apply rnd_mono; lra). assert (V2 : rnd (B2R x * B2R x) <= B2R (ffma x x a)) by (rewrite V; apply rnd_mono; lra).
    split; [lra|]. intros p [<-|I]; [exact V2|pose proof (Q1 p I); lra].
  - rewrite <- (Permutation_length P) in L. assert (F' : Forall (square_in j) l) by (rewrite Forall_forall in *; intros p I; apply F; now apply (Permutation_in _ P)).
    assert (T' : Forall (term_in j) l) by (rewrite Forall_forall in *; intros p I; apply T; now apply (Permutation_in _ P)). destruct (IH F' L T') as (P1 & Q1).
    split; [exact P1|]. intros p I. apply Q1. apply (Permutation_in _ (Permutation_sym P)), I.
Qed.
Lemma root_square (y : f64) : bpow radix2 (-410) <= B2R y <= bpow radix2 410 -> B2R y <= rnd (sqrt (rnd (B2R y * B2R y))).
Proof.
  intros (L & U). set (x := B2R y) in *. assert (V : Valid_exp fexp64) by (apply (fexp_correct 53 1024); reflexivity).
  assert (P : 0 < x) by (pose proof (bpow_gt_0 radix2 (-410)); lra). assert (FX : generic_format radix2 fexp64 x) by apply generic_format_B2R.
  destruct (mag radix2 x) as (e & M) eqn:EM. assert (M1 := M ltac:(lra)). rewrite Rabs_pos_eq in M1 by lra. assert (EMv : mag radix2 x = e :> Z) by now rewrite EM.
  assert (E1 : (-410 < e)%Z) by (apply (lt_bpow radix2); lra). assert (E2 : (e - 1 <= 410)%Z) by (apply (le_bpow radix2); lra).
  assert (FE : fexp64 e = (e - 53)%Z) by (unfold fexp64, SpecFloat.fexp, SpecFloat.emin; lia).
  destruct (Req_dec x (bpow radix2 (e - 1))) as [X|X].
  - rewrite X. rewrite <- bpow_plus. rewrite (round_generic _ _ _ (bpow radix2 (e - 1 + (e - 1)))) by (apply format_bpow; lia). rewrite bpow_plus, sqrt_square by apply bpow_ge_0.
    rewrite round_generic; [apply Rle_refl|typeclasses eauto|apply format_bpow; lia].
  - assert (G : bpow radix2 (e - 1) + bpow radix2 (e - 53) <= x).
    { assert (S : succ radix2 fexp64 (bpow radix2 (e - 1)) <= x) by (apply succ_le_lt; [exact V|apply format_bpow; lia|exact FX|lra]).
      rewrite succ_eq_pos, ulp_bpow in S by apply bpow_ge_0. replace (e - 1 + 1)%Z with e in S by lia. rewrite FE in S. exact S. }
    assert (PX : pred radix2 fexp64 x = x - bpow radix2 (e - 53)).
    { rewrite pred_eq_pos by lra. unfold pred_pos. rewrite EMv. rewrite Req_bool_false by exact X. rewrite ulp_neq_0 by lra. unfold cexp. now rewrite EMv, FE. }
    apply round_N_ge_midp; [exact V|exact FX|]. rewrite PX. set (h := bpow radix2 (e - 54)).
    assert (H : bpow radix2 (e - 53) = 2 * h) by (unfold h; rewrite <- u_step; f_equal; lia). rewrite H in *. assert (HP : 0 < h) by apply bpow_gt_0.
    assert (B : bpow radix2 (e - 1) = 9007199254740992 * h). { unfold h. replace (e - 1)%Z with (53 + (e - 54))%Z by lia. rewrite bpow_plus. f_equal. }
    assert (BE : bpow radix2 e = 18014398509481984 * h). { unfold h. replace e with (54 + (e - 54))%Z at 1 by lia. rewrite bpow_plus. f_equal. }
    pose proof (rnd_err (e + e) (x * x) ltac:(lia)) as R. rewrite Rabs_pos_eq in R by nra. assert (RB : x * x <= bpow radix2 (e + e)) by (rewrite bpow_plus; nra). specialize (R RB).
    assert (RE : bpow radix2 (e + e - 54) = 18014398509481984 * h * h). { replace (e + e - 54)%Z with (e + (e - 54))%Z by lia. rewrite bpow_plus, BE. fold h. ring. }
    rewrite RE in R. apply Rabs_le_inv in R. replace ((x + (x - 2 * h)) / 2) with (x - h) by field. rewrite B in G.
    rewrite <- (sqrt_square (x - h)) by nra. apply sqrt_lt_1; [nra|nra|]. nra.
Qed.
Lemma unit_bound dotv v : any_order_v dotv -> in_range (F4 f0 (f_x v) (f_y v) (f_z v)) -> Rabs (B2R (f_y (unit_f dotv v))) <= 1.
Proof.
  intros D IR. destruct (largest _ IR) as (c & k & I & K & KL & KU). destruct IR as ((_ & F1 & F2 & F3') & _). unfold coefs in *. cbn [fw fx fy fz] in *.
  assert (J : bpow radix2 (k + k) = bpow radix2 k * bpow radix2 k) by apply bpow_plus.
  assert (TI : forall x, In x [f0; f_x v; f_y v; f_z v] -> is_finite x = true -> square_in (k + k) (x, x)).
  { intros x X FX. split; [|reflexivity]. split; [exact FX|]. split; [exact FX|]. cbn [fst snd]. rewrite Rabs_mult, J. apply Rmult_le_compat; auto using Rabs_pos. }
  destruct (sums_least (k + k) _ _ ltac:(lia) (D v v)) as (FS & (S0 & _) & LS).
  { unfold pairs3. repeat (apply Forall_cons; [apply TI; [cbn; tauto|assumption]|]). apply Forall_nil. }
  { cbn. lia. }
  set (S := dotv v v) in *. destruct (Bsqrt_correct 53 1024 _ _ mode_NE S) as (VR & _). rewrite round_mode_is in VR. fold (fsqrt S) in VR.
  assert (P1 : bpow radix2 (k - 1) <= bpow radix2 410) by (apply bpow_le; lia). assert (PK : bpow radix2 k <= bpow radix2 410) by (apply bpow_le; lia). assert (P2 : bpow radix2 (-410) < bpow radix2 (k - 1)) by (apply bpow_lt; lia).
  pose proof (bpow_gt_0 radix2 (-410)) as PP.
  assert (N : forall x, In x [f_x v; f_y v; f_z v] -> bpow radix2 (-410) <= Rabs (B2R x) -> Rabs (B2R x) <= B2R (fsqrt S)).
  { intros x X B. rewrite VR. pose proof (root_square (fabs x)) as RS. unfold fabs in RS. rewrite B2R_Babs in RS.
    assert (U : Rabs (B2R x) <= bpow radix2 k) by (apply KU; right; exact X). apply Rle_trans with (1 := RS ltac:(lra)). apply rnd_mono, sqrt_le_1_alt. rewrite <- Rabs_mult, Rabs_pos_eq by apply Rle_0_sqr.
    apply (LS (x, x)). unfold pairs3. cbn. cbn in X. intuition congruence. }
  assert (NC : Rabs (B2R c) <= B2R (fsqrt S)).
  { apply N; [|lra]. destruct I as [<-|I]; [|exact I]. exfalso. change (B2R f0) with 0 in KL. rewrite Rabs_R0 in KL. lra. }
  assert (NY : Rabs (B2R (f_y v)) <= B2R (fsqrt S)).
  { destruct (Rle_lt_dec (bpow radix2 (-410)) (Rabs (B2R (f_y v)))) as [L|L]; [apply N; [cbn; tauto|exact L]|lra]. }
  assert (NP : 0 < B2R (fsqrt S)) by lra.
  assert (Q : Rabs (B2R (f_y v) / B2R (fsqrt S)) <= bpow radix2 0).
  { change (bpow radix2 0) with 1. unfold Rdiv. rewrite Rabs_mult, Rabs_inv, (Rabs_pos_eq (B2R (fsqrt S))) by lra. apply Rmult_le_reg_r with (B2R (fsqrt S)); [exact NP|]. rewrite Rmult_assoc, Rinv_l by lra. lra. }
  destruct (fdiv_in 0 (f_y v) (fsqrt S) ltac:(lia) F2 ltac:(lra) Q) as (_ & _ & _ & B). exact B.
Qed.

(** ** Geometry *)
Lemma transform_less q a b : let c := V3 (vx a - vx b) (vy a - vy b) (vz a - vz b) in
  vx (transform_vector q a) - vx (transform_vector q b) = vx (transform_vector q c) /\ vy (transform_vector q a) - vy (transform_vector q b) = vy (transform_vector q c) /\
  vz (transform_vector q a) - vz (transform_vector q b) = vz (transform_vector q c).
Proof.
  cbv zeta. rewrite !transform_is. unfold conjugate, Quat. cbn [qw]. destruct (Rlt_dec (qw q) 0); unfold raw_mul, as_quat, qneg, vdot, qv; cbn [qw qx qy qz vx vy vz]; repeat split; ring.
Qed.
Lemma turned q v : 0 <= qw q -> let a := qw q in let b := qx q in let c := qy q in let d := qz q in transform_vector q v = V3
  ((a * a + b * b - c * c - d * d) * vx v + 2 * (b * c - a * d) * vy v + 2 * (b * d + a * c) * vz v)
  (2 * (b * c + a * d) * vx v + (a * a - b * b + c * c - d * d) * vy v + 2 * (c * d - a * b) * vz v)
  (2 * (b * d - a * c) * vx v + 2 * (c * d + a * b) * vy v + (a * a - b * b - c * c + d * d) * vz v).
Proof.
  intros W. cbv zeta. rewrite transform_is. unfold conjugate, Quat. cbn [qw]. destruct (Rlt_dec (qw q) 0); [lra|]. unfold raw_mul, as_quat, vdot, qv; cbn [qw qx qy qz vx vy vz]; apply (f_equal3 V3); ring.
Qed.
Lemma conj_north q : 0 <= qw q -> conjugate q = Q4 (qw q) (- qx q) (- qy q) (- qz q).
Proof. intros W. unfold conjugate, Quat. cbn [qw]. destruct (Rlt_dec (qw q) 0); [lra|reflexivity]. Qed.
Lemma line_is q n : 0 <= qw q -> let s := in_sample q n in let z := transform_vector q (V3 0 0 1) in
  vdot z n = vz s /\ transform_vector (conjugate q) (vcross z n) = V3 (- (dot q q * vy s)) (dot q q * vx s) 0.
Proof.
  intros W. cbv zeta. unfold in_sample. rewrite conj_north by exact W. rewrite !turned by (cbn [qw]; exact W). cbv zeta. unfold vdot, vcross, dot. cbn [qw qx qy qz vx vy vz]. split; [ring|]. apply (f_equal3 V3); ring.
Qed.
Lemma cross_near r e n : vdot e e <= 2 -> ap (f_x r) (vx e) (w 448) 2 -> ap (f_y r) (vy e) (w 448) 2 -> ap (f_z r) (vz e) (w 448) 2 -> sound3 n ->
  let c := cross_f r n in let x := vcross e (vvalue n) in ap (f_x c) (vx x) (w 1800) 8 /\ ap (f_y c) (vy x) (w 1800) 8 /\ ap (f_z c) (vz x) (w 1800) 8.
Proof.
  intros E X Y Z ((N1 & N2 & N3) & NN). cbv zeta. destruct (comp_bound e (3 / 2) ltac:(lra) ltac:(lra)) as (E1 & E2 & E3). destruct (comp_bound (vvalue n) 2 ltac:(lra) ltac:(lra)) as (B1 & B2 & B3).
  unfold vvalue in B1, B2, B3. cbn [vx vy vz] in B1, B2, B3. destruct us as (U2 & U1 & _).
  pose proof (ap_exact _ N1 2 B1) as P1. pose proof (ap_exact _ N2 2 B2) as P2. pose proof (ap_exact _ N3 2 B3) as P3.
  assert (M : forall a x b y, ap a x (w 448) 2 -> Rabs x <= 3 / 2 -> ap b y 0 2 -> ap (fmul a b) (x * y) (w 898) 4).
  { intros a x b y A L B. apply ap_weak with (1 := ap_mul 2 _ _ _ _ _ _ _ _ ltac:(lia) A B ltac:(lra) ltac:(change (bpow radix2 2) with 4; lra)); [change (2 - 54)%Z with (-52)%Z; lra|change (bpow radix2 2) with 4; lra]. }
  assert (K : forall a x b y, ap a x (w 898) 4 -> ap b y (w 898) 4 -> ap (fsub a b) (x - y) (w 1800) 8).
  { intros a x b y A B. apply ap_weak with (1 := ap_sub 3 _ _ _ _ _ _ _ _ ltac:(lia) A B ltac:(change (bpow radix2 3) with 8; lra)); [change (3 - 54)%Z with (-51)%Z; lra|change (bpow radix2 3) with 8; lra]. }
  unfold cross_f, vcross, vvalue. cbn [f_x f_y f_z vx vy vz]. split; [|split]; apply K; apply M; assumption.
Qed.
Definition e41 : R := / 2 ^ 41.
Lemma e41_is : e41 = 4096 * u53.
Proof. rewrite u53_is. unfold e41. cbn [pow]. lra. Qed.
Lemma vdot_pos v : 0 <= vdot v v.
Proof. unfold vdot. pose proof (Rle_0_sqr (vx v)). pose proof (Rle_0_sqr (vy v)). pose proof (Rle_0_sqr (vz v)). unfold Rsqr in *. lra. Qed.
Lemma line_near dot3 q n : any_order3 dot3 -> near_unit e41 q -> near_unit3 e41 n ->
  let i := transform_f dot3 (conjugate_f q) (cross_f (transform_f dot3 q (F3 f0 f0 f1)) n) in
  let e := transform_vector (conjugate (value q)) (vcross (transform_vector (value q) (V3 0 0 1)) (vvalue n)) in near3 e41 i e.
Proof.
  intros D Q N. cbv zeta. assert (E8 : e41 <= / 8) by (unfold e41; cbn [pow]; lra). pose proof (near_sound _ _ E8 Q) as SQ. pose proof (near_sound3 _ _ E8 N) as SN. destruct f1_is as (V1 & G1).
  assert (VZ : vvalue (F3 f0 f0 f1) = V3 0 0 1) by (unfold vvalue; cbn [f_x f_y f_z]; rewrite V1; reflexivity).
  assert (SZ : sound3 (F3 f0 f0 f1)) by (split; [repeat split; auto|rewrite VZ; unfold vdot; cbn [vx vy vz]; lra]).
  destruct (transform_near dot3 q _ D SQ SZ) as (EB & X & Y & Z). rewrite VZ in EB, X, Y, Z. set (r := transform_f dot3 q (F3 f0 f0 f1)) in *. set (z := transform_vector (value q) (V3 0 0 1)) in *.
  destruct (cross_near r z n EB X Y Z SN) as (CX & CY & CZ). set (c := cross_f r n) in *. set (x := vcross z (vvalue n)) in *.
  pose proof u53_is as U. destruct Q as (FQ & NQ), N as (FN & NN). unfold e41 in NQ, NN. cbn [pow] in NQ, NN. apply Rabs_le_inv in NQ. apply Rabs_le_inv in NN.
  assert (ZZ : vdot z z <= 101 / 100). { unfold z. rewrite transform_norm. unfold vdot at 1. cbn [vx vy vz]. set (a := dot _ _) in *. nra. }
  assert (XX : vdot x x <= 103 / 100).
  { assert (L : vdot x x = vdot z z * vdot (vvalue n) (vvalue n) - vdot z (vvalue n) * vdot z (vvalue n)) by (unfold x, vdot, vcross; cbn [vx vy vz]; ring).
    pose proof (Rle_0_sqr (vdot z (vvalue n))) as S. unfold Rsqr in S. pose proof (vdot_pos z) as ZP. rewrite L. assert (vdot z z * vdot (vvalue n) (vvalue n) <= 101 / 100 * (101 / 100)) by (apply Rmult_le_compat; lra). lra. }
  destruct (comp_bound x (11 / 10) ltac:(lra) ltac:(lra)) as (X1 & X2 & X3).
  destruct CX as (CX1 & CX2 & _), CY as (CY1 & CY2 & _), CZ as (CZ1 & CZ2 & _).
  assert (SC : sound3 c).
  { split; [repeat split; assumption|]. unfold vdot, vvalue. cbn [vx vy vz]. rewrite U in *.
    assert (K : forall f t : R, Rabs (f - t) <= 1800 * / 9007199254740992 -> Rabs t <= 11 / 10 -> f * f <= t * t + / 100).
    { intros f t A B. apply Rabs_le_inv in A. apply Rabs_le_inv in B. replace (f * f) with (t * t + (f - t) * (f + t)) by ring. assert ((f - t) * (f + t) <= / 100); [|lra]. assert (H : Rabs ((f - t) * (f + t)) <= / 100 * / 100 * 3).
      { rewrite Rabs_mult. apply Rmult_le_compat; try apply Rabs_pos; apply Rabs_le; lra. } apply Rabs_le_inv in H. lra. }
    pose proof (K _ _ CX2 X1) as K1. pose proof (K _ _ CY2 X2) as K2. pose proof (K _ _ CZ2 X3) as K3. unfold vdot in XX. lra. }
  destruct (conj_is q SQ) as (SCQ & VC). destruct (transform_near dot3 _ c D SCQ SC) as (_ & (I1 & J1 & _) & (I2 & J2 & _) & (I3 & J3 & _)). rewrite VC in J1, J2, J3.
  destruct (transform_less (conjugate (value q)) (vvalue c) x) as (T1 & T2 & T3).
  set (d := V3 (vx (vvalue c) - vx x) (vy (vvalue c) - vy x) (vz (vvalue c) - vz x)) in *.
  assert (DD : vdot (transform_vector (conjugate (value q)) d) (transform_vector (conjugate (value q)) d) <= w 3200 * w 3200).
  { rewrite transform_norm. assert (ND : dot (conjugate (value q)) (conjugate (value q)) = dot (value q) (value q)) by (unfold conjugate, Quat; cbn [qw]; destruct (Rlt_dec _ _); unfold dot, qneg; cbn [qw qx qy qz]; ring). rewrite ND.
    assert (S : vdot d d <= 3 * (w 1800 * w 1800)).
    { unfold vdot, d, vvalue. cbn [vx vy vz]. assert (K : forall t, Rabs t <= w 1800 -> t * t <= w 1800 * w 1800) by (intros t L; apply Rabs_le_inv in L; nra).
      pose proof (K _ CX2). pose proof (K _ CY2). pose proof (K _ CZ2). lra. }
    pose proof (vdot_pos d) as P. set (a := dot (value q) (value q)) in *. assert (A : 0 <= a * a <= 101 / 100) by nra.
    apply Rle_trans with (101 / 100 * (3 * (w 1800 * w 1800))); [apply Rmult_le_compat; lra|]. rewrite U. lra. }
  destruct (comp_bound _ _ DD ltac:(rewrite U; lra)) as (B1 & B2 & B3). rewrite <- T1 in B1. rewrite <- T2 in B2. rewrite <- T3 in B3.
  split; [repeat split; assumption|]. rewrite e41_is. 
  assert (K : forall a b c, Rabs (a - b) <= w 448 -> Rabs (b - c) <= w 3200 -> Rabs (a - c) <= 4096 * u53) by (intros a b c' A B; rewrite U in *; apply Rabs_le_inv in A; apply Rabs_le_inv in B; apply Rabs_le; lra).
  split; [|split]; eapply K; eassumption.
Qed.
(** Normalised vectors *)
Lemma length_near (v i : vec3) e : 0 <= e -> Rabs (vx v - vx i) <= e -> Rabs (vy v - vy i) <= e -> Rabs (vz v - vz i) <= e -> Rabs (sqrt (vdot v v) - sqrt (vdot i i)) <= 3 * e.
Proof.
  intros E A B C. set (N := sqrt (vdot v v)). set (L := sqrt (vdot i i)). pose proof (sqrt_pos (vdot v v)) as P1. pose proof (sqrt_pos (vdot i i)) as P2. fold N in P1. fold L in P2.
  pose proof (sqrt_sqrt _ (vdot_pos v)) as Q1. pose proof (sqrt_sqrt _ (vdot_pos i)) as Q2. fold N in Q1. fold L in Q2.
  destruct (comp_bound v N ltac:(lra) P1) as (V1 & V2 & V3'). destruct (comp_bound i L ltac:(lra) P2) as (I1 & I2 & I3).
  destruct (Req_dec (N + L) 0) as [Z|Z]; [assert (N = 0) by lra; assert (L = 0) by lra; replace (N - L) with 0 by lra; rewrite Rabs_R0; lra|].
  apply Rmult_le_reg_r with (N + L); [lra|]. rewrite <- (Rabs_pos_eq (N + L)) at 1 by lra. rewrite <- Rabs_mult.
  replace ((N - L) * (N + L)) with ((vx v - vx i) * (vx v + vx i) + (vy v - vy i) * (vy v + vy i) + (vz v - vz i) * (vz v + vz i)) by (transitivity (N * N - L * L); [rewrite Q1, Q2; unfold vdot; ring|ring]).
  assert (K : forall a b, Rabs (a - b) <= e -> Rabs a <= N -> Rabs b <= L -> Rabs ((a - b) * (a + b)) <= e * (N + L)).
  { intros a b H HA HB. rewrite Rabs_mult. apply Rmult_le_compat; try apply Rabs_pos; [exact H|]. apply Rle_trans with (1 := Rabs_triang _ _). lra. }
  pose proof (K _ _ A V1 I1) as K1. pose proof (K _ _ B V2 I2) as K2. pose proof (K _ _ C V3' I3) as K3. apply Rabs_le_inv in K1. apply Rabs_le_inv in K2. apply Rabs_le_inv in K3. apply Rabs_le. lra.
Qed.
Lemma shrink v i N L e : 0 < N -> 0 < L -> Rabs v <= N -> Rabs (v - i) <= e -> Rabs (N - L) <= 3 * e -> Rabs (v / N - i / L) <= 4 * e / L.
Proof.
  intros N0 L0 V E D. replace (v / N - i / L) with (((v - i) + v / N * (L - N)) / L) by (field; lra). unfold Rdiv at 1. rewrite Rabs_mult, Rabs_inv, (Rabs_pos_eq L) by lra.
  apply Rmult_le_compat_r; [left; now apply Rinv_0_lt_compat|]. apply Rle_trans with (1 := Rabs_triang _ _). rewrite Rabs_mult, (Rabs_minus_sym L).
  assert (Q : Rabs (v / N) <= 1). { unfold Rdiv. rewrite Rabs_mult, Rabs_inv, (Rabs_pos_eq N) by lra. apply Rmult_le_reg_r with N; [exact N0|]. rewrite Rmult_assoc, Rinv_l by lra. lra. }
  assert (M : Rabs (v / N) * Rabs (N - L) <= 1 * (3 * e)) by (apply Rmult_le_compat; auto using Rabs_pos). lra.
Qed.
Lemma unit_near dotv v i : any_order_v dotv -> near3 e41 v i -> / 2 ^ 39 <= sqrt (vdot i i) <= 2 ->
  let r := unit_f dotv v in let L := sqrt (vdot i i) in finite3 r /\ Rabs (B2R (f_x r) - vx i / L) <= 9 / 16 * / 2 ^ 38 / L /\ Rabs (B2R (f_y r) - vy i / L) <= 9 / 16 * / 2 ^ 38 / L /\ Rabs (B2R (f_y r)) <= 1.
Proof.
  intros D ((F1 & F2 & F3') & E1 & E2 & E3) (LL & LU). cbv zeta. set (L := sqrt (vdot i i)) in *.
  assert (e0 : 0 <= e41) by (unfold e41; left; apply Rinv_0_lt_compat, pow_lt; lra).
  assert (E : e41 = / 4 * / 2 ^ 39) by (unfold e41; cbn [pow]; lra).
  pose proof (length_near (vvalue v) i e41 e0 E1 E2 E3) as LN. fold L in LN. set (N := sqrt (vdot (vvalue v) (vvalue v))) in *.
  assert (P39 : 0 < / 2 ^ 39) by (apply Rinv_0_lt_compat, pow_lt; lra). assert (L0 : 0 < L) by lra. apply Rabs_le_inv in LN as LN'. assert (N0 : / 4 * / 2 ^ 39 <= N) by lra. assert (NP : 0 < N) by lra.
  pose proof (sqrt_sqrt _ (vdot_pos (vvalue v))) as QN. fold N in QN. destruct (comp_bound (vvalue v) N ltac:(lra) ltac:(lra)) as (V1 & V2 & V3').
  assert (UP : forall x, Rabs x <= N -> Rabs x <= 2 ^ 400).
  { intros x X. apply Rle_trans with (1 := X). apply Rle_trans with (2 ^ 2); [|apply Rle_pow; [lra|lia]]. assert (/ 2 ^ 39 <= 1) by (cbn [pow]; lra). lra. }
  assert (IR : in_range (F4 f0 (f_x v) (f_y v) (f_z v))).
  { split; [repeat split; assumption|]. unfold coefs. cbn [fw fx fy fz]. split.
    - intros x [<-|[<-|[<-|[<-|[]]]]]; apply UP; try assumption. change (B2R f0) with 0. rewrite Rabs_R0. lra.
    - assert (T : / 2 ^ 400 <= / 16 * / 2 ^ 39).
      { replace (/ 16 * / 2 ^ 39) with (/ 2 ^ 43) by (cbn [pow]; lra). apply Rinv_le_contravar; [apply pow_lt; lra|]. apply Rle_pow; [lra|lia]. }
      destruct (Rle_lt_dec (/ 16 * / 2 ^ 39) (Rabs (B2R (f_x v)))) as [A|A]; [exists (f_x v); split; [cbn; tauto|lra]|].
      destruct (Rle_lt_dec (/ 16 * / 2 ^ 39) (Rabs (B2R (f_y v)))) as [B|B]; [exists (f_y v); split; [cbn; tauto|lra]|].
      destruct (Rle_lt_dec (/ 16 * / 2 ^ 39) (Rabs (B2R (f_z v)))) as [C|C]; [exists (f_z v); split; [cbn; tauto|lra]|]. exfalso.
      assert (K : forall t, Rabs t < / 16 * / 2 ^ 39 -> t * t <= / 256 * (/ 2 ^ 39 * / 2 ^ 39)) by (intros t H; apply Rabs_def2 in H; nra).
      pose proof (K _ A) as K1. pose proof (K _ B) as K2. pose proof (K _ C) as K3. unfold vdot, vvalue in QN. cbn [vx vy vz] in QN. assert (/ 4 * / 2 ^ 39 * (/ 4 * / 2 ^ 39) <= N * N) by (apply Rmult_le_compat; lra).
      assert (0 < / 2 ^ 39 * / 2 ^ 39) by (apply Rmult_lt_0_compat; lra). lra. }
  assert (NE : normalise (as_quat (vvalue v)) = Some (Q4 (0 / N) (B2R (f_x v) / N) (B2R (f_y v) / N) (B2R (f_z v) / N))).
  { unfold normalise, norm, dot, as_quat. cbn [qw qx qy qz]. replace (0 * 0 + vx (vvalue v) * vx (vvalue v) + vy (vvalue v) * vy (vvalue v) + vz (vvalue v) * vz (vvalue v)) with (vdot (vvalue v) (vvalue v)) by (unfold vdot; ring). fold N. cbv zeta.
    destruct (Req_EM_T N 0) as [Z|_]; [lra|]. reflexivity. }
  destruct (near_v dotv v _ D IR NE) as (FF & R1 & R2 & _). cbn [qx qy qz] in R1, R2. split; [exact FF|].
  assert (K : forall f x t, Rabs (f - x / N) <= / 2 ^ 45 -> Rabs x <= N -> Rabs (x - t) <= e41 -> Rabs (f - t / L) <= 9 / 16 * / 2 ^ 38 / L).
  { intros f x t R X T. pose proof (shrink x t N L e41 NP L0 X T LN) as H. replace (f - t / L) with ((f - x / N) + (x / N - t / L)) by ring. apply Rle_trans with (1 := Rabs_triang _ _).
    assert (S : / 2 ^ 45 <= / 16 * / 2 ^ 38 / L). { apply Rmult_le_reg_r with L; [exact L0|]. unfold Rdiv. rewrite Rmult_assoc, Rinv_l by lra. apply Rle_trans with (/ 2 ^ 45 * 2); [apply Rmult_le_compat_l; [left; apply Rinv_0_lt_compat, pow_lt; lra|lra]|]. cbn [pow]. lra. }
    replace (4 * e41 / L) with (/ 2 * / 2 ^ 38 / L) in H by (unfold e41; cbn [pow]; field; lra). unfold Rdiv in *. lra. }
  split; [exact (K _ _ _ R1 V1 E1)|]. split; [exact (K _ _ _ R2 V2 E2)|]. now apply unit_bound.
Qed.

(** ** Angles *)
Lemma exact_trace q n : 0 <= qw q -> 0 < dot q q -> 0 < across (in_sample q n) -> let s := in_sample q n in exists th inc, slip_trace q n = Some (th, inc) /\
  cos th = (if Rlt_dec (vy s) 0 then - (vx s / across s) else vx s / across s) /\
  inc = (if Rlt_dec (PI / 2) (acos (vz s)) then PI - acos (vz s) else acos (vz s)).
Proof.
  intros W D A. cbv zeta. destruct (line_is q n W) as (VZ & LI). unfold slip_trace. cbv zeta. rewrite VZ, LI. set (s := in_sample q n) in *. set (d := dot q q) in *.
  assert (L : sqrt (vdot (V3 (- (d * vy s)) (d * vx s) 0) (V3 (- (d * vy s)) (d * vx s) 0)) = d * across s).
  { unfold vdot, across. cbn [vx vy vz]. replace (- (d * vy s) * - (d * vy s) + d * vx s * (d * vx s) + 0 * 0) with (d * d * (vx s * vx s + vy s * vy s)) by ring.
    pose proof (Rle_0_sqr (vx s)). pose proof (Rle_0_sqr (vy s)). unfold Rsqr in *. rewrite sqrt_mult_alt by nra. rewrite sqrt_square by lra. reflexivity. }
  rewrite L. assert (P : 0 < d * across s) by (apply Rmult_lt_0_compat; assumption). destruct (Req_EM_T (d * across s) 0) as [Z|_]; [lra|]. cbn [vx vy vz].
  eexists. eexists. split; [reflexivity|]. split; [|reflexivity].
  assert (X1 : - (d * vy s) / (d * across s) = - (vy s / across s)) by (field; lra). assert (X2 : d * vx s / (d * across s) = vx s / across s) by (field; lra).
  assert (B : -1 <= vx s / across s <= 1).
  { assert (SQ : across s * across s = vx s * vx s + vy s * vy s) by (unfold across; apply sqrt_sqrt; nra).
    assert (K : Rabs (vx s) <= across s) by (apply Rabs_le; split; nra). apply Rabs_le_inv in K. split; apply Rmult_le_reg_r with (across s); try assumption; unfold Rdiv; rewrite Rmult_assoc, Rinv_l; lra. }
  rewrite X1, X2. assert (IP : 0 < / across s) by now apply Rinv_0_lt_compat.
  destruct (Rlt_dec 0 (- (vy s / across s))) as [L1|L1], (Rlt_dec (vy s) 0) as [L2|L2]; unfold vscale, vdot; cbn [vx vy vz].
  - rewrite cos_acos; [ring|]. lra.
  - exfalso. apply Rnot_lt_le in L2. unfold Rdiv in L1. assert (0 <= vy s * / across s) by (apply Rmult_le_pos; lra). lra.
  - exfalso. apply L1. unfold Rdiv. assert (0 < - vy s * / across s) by (apply Rmult_lt_0_compat; lra). lra.
  - rewrite cos_acos; [ring|]. lra.
Qed.
Lemma sample_bound q n : near_unit e41 q -> near_unit3 e41 n -> across (in_sample (value q) (vvalue n)) <= 11 / 10 /\ Rabs (vz (in_sample (value q) (vvalue n))) <= 11 / 10.
Proof.
  intros (_ & Q) (_ & N). unfold e41 in Q, N. cbn [pow] in Q, N. apply Rabs_le_inv in Q. apply Rabs_le_inv in N.
  pose proof (transform_norm (conjugate (value q)) (vvalue n)) as T. fold (in_sample (value q) (vvalue n)) in T. set (s := in_sample _ _) in *.
  assert (ND : dot (conjugate (value q)) (conjugate (value q)) = dot (value q) (value q)) by (unfold conjugate, Quat; cbn [qw]; destruct (Rlt_dec _ _); unfold dot, qneg; cbn [qw qx qy qz]; ring). rewrite ND in T.
  set (a := dot (value q) (value q)) in *. set (b := vdot (vvalue n) (vvalue n)) in *. assert (A : 0 <= a * a <= 101 / 100) by nra.
  assert (S : vdot s s <= 11 / 10 * (11 / 10)). { rewrite T. apply Rle_trans with (101 / 100 * (101 / 100)); [apply Rmult_le_compat; lra|lra]. }
  split; [|apply (comp_bound s); lra]. unfold across. rewrite <- (sqrt_square (11 / 10)) by lra. apply sqrt_le_1_alt. unfold vdot in S. pose proof (Rle_0_sqr (vz s)) as Z. unfold Rsqr in Z. lra.
Qed.
Definition minus3 (v : fvec) : fvec := F3 (fneg (f_x v)) (fneg (f_y v)) (fneg (f_z v)).
Lemma angle_near dot3 dotv arccos q n : any_order3 dot3 -> any_order_v dotv -> full_arccos arccos -> near_unit e41 q -> 0 <= B2R (fw q) -> near_unit3 e41 n ->
  let s := in_sample (value q) (vvalue n) in / 2 ^ 38 <= across s ->
  let t := fst (trace_f dot3 dotv arccos q n) in is_finite t = true /\ - / 2 ^ 50 <= B2R t <= PI + / 2 ^ 50 /\
  exists c, (c = vx s / across s \/ c = - (vx s / across s)) /\ Rabs (cos (B2R t) - c) <= / 2 ^ 38 / across s /\
  (/ 2 ^ 38 <= Rabs (vy s) -> c = if Rlt_dec (vy s) 0 then - (vx s / across s) else vx s / across s).
Proof.
  intros D3 DV (AC & _) Q W N s A t. destruct (sample_bound q n Q N) as (UB & _). fold s in UB. destruct (line_is (value q) (vvalue n) W) as (_ & LI). fold s in LI.
  pose proof (line_near dot3 q n D3 Q N) as NR. cbv zeta in NR. rewrite LI in NR. assert (DQ : 1 - / 100 <= dot (value q) (value q) <= 1 + / 100) by (destruct Q as (_ & Q); unfold e41 in Q; cbn [pow] in Q; apply Rabs_le_inv in Q; lra).
  set (d := dot (value q) (value q)) in *. set (I := V3 (- (d * vy s)) (d * vx s) 0) in *. assert (P38 : 0 < / 2 ^ 38) by (apply Rinv_0_lt_compat, pow_lt; lra). assert (A0 : 0 < across s) by lra.
  assert (L : sqrt (vdot I I) = d * across s).
  { unfold vdot, across, I. cbn [vx vy vz]. replace (- (d * vy s) * - (d * vy s) + d * vx s * (d * vx s) + 0 * 0) with (d * d * (vx s * vx s + vy s * vy s)) by ring.
    pose proof (Rle_0_sqr (vx s)). pose proof (Rle_0_sqr (vy s)). unfold Rsqr in *. rewrite sqrt_mult_alt by nra. rewrite sqrt_square by lra. reflexivity. }
  unfold t, trace_f. cbn [fst]. unfold angle_f. set (v := transform_f dot3 (conjugate_f q) _) in *.
  assert (H39 : / 2 ^ 39 = / 2 * / 2 ^ 38) by (cbn [pow]; lra). assert (DL : / 2 ^ 39 <= d * across s <= 2) by (rewrite H39; split; nra).
  destruct (unit_near dotv v I DV NR ltac:(rewrite L; exact DL)) as (FF & EX & EY & B1). rewrite L in EX, EY. unfold I in EX, EY. cbn [vx vy] in EX, EY.
  assert (X1 : - (d * vy s) / (d * across s) = - (vy s / across s)) by (field; lra). assert (X2 : d * vx s / (d * across s) = vx s / across s) by (field; lra). rewrite X1 in EX. rewrite X2 in EY.
  set (i := unit_f dotv v) in *. cbv zeta. set (g := / 2 ^ 38 / across s).
  assert (SL : 9 / 16 * / 2 ^ 38 / (d * across s) <= 10 / 16 * g).
  { unfold g. apply Rmult_le_reg_r with (d * across s); [nra|]. unfold Rdiv. rewrite (Rmult_assoc _ (/ (d * across s))), Rinv_l by nra.
    replace (10 * / 16 * (/ 2 ^ 38 * / across s) * (d * across s)) with (10 * / 16 * / 2 ^ 38 * d) by (field; lra). nra. }
  assert (EX' := Rle_trans _ _ _ EX SL). assert (EY' := Rle_trans _ _ _ EY SL). clear EX EY SL.
  set (j := if flt f0 (f_x i) then _ else i). destruct FF as (F1 & F2 & F3').
  assert (J : finite3 j /\ (B2R (f_y j) = if Rlt_bool 0 (B2R (f_x i)) then - B2R (f_y i) else B2R (f_y i))).
  { unfold j. rewrite flt_is by (assumption || reflexivity). change (B2R f0) with 0. destruct (Rlt_bool 0 (B2R (f_x i))); [|split; [repeat split; assumption|reflexivity]].
    unfold finite3, fneg. cbn [f_x f_y f_z]. rewrite !is_finite_Bopp, B2R_Bopp. auto. }
  destruct J as (FJ & VJ). assert (BJ : -1 <= B2R (f_y j) <= 1) by (apply Rabs_le_inv in B1; rewrite VJ; destruct (Rlt_bool 0 (B2R (f_x i))); lra).
  destruct (second_only dotv j DV FJ ltac:(apply Rabs_le; lra)) as (FD & VD). destruct (AC _ FD ltac:(rewrite VD; exact BJ)) as (FA & EA). rewrite VD in EA. split; [exact FA|].
  pose proof (acos_bound (B2R (f_y j))) as AB. split; [apply Rabs_le_inv in EA; lra|].
  assert (G : / 2 ^ 50 <= 1 / 16 * g).
  { unfold g. apply Rmult_le_reg_r with (across s); [exact A0|]. replace (1 / 16 * (/ 2 ^ 38 / across s) * across s) with (1 / 16 * / 2 ^ 38) by (field; lra). apply Rle_trans with (/ 2 ^ 50 * (11 / 10)); [|cbn [pow]; lra].
    apply Rmult_le_compat_l; [left; apply Rinv_0_lt_compat, pow_lt; lra|exact UB]. }
  assert (CJ : Rabs (cos (B2R (arccos (dotv j (F3 f0 f1 f0)))) - B2R (f_y j)) <= 1 / 16 * g).
  { pose proof (cos_acos _ BJ) as CA. pose proof (cos_lip (B2R (arccos (dotv j (F3 f0 f1 f0)))) (acos (B2R (f_y j)))) as CL. rewrite CA in CL. lra. }
  set (x := vx s / across s) in *. exists (if Rlt_bool 0 (B2R (f_x i)) then - x else x). split; [destruct (Rlt_bool 0 (B2R (f_x i))); tauto|]. split.
  - fold g. rewrite VJ in CJ. destruct (Rlt_bool 0 (B2R (f_x i))); apply Rabs_le_inv in CJ; apply Rabs_le_inv in EY'; assert (0 < g) by (unfold g; apply Rmult_lt_0_compat; [exact P38|now apply Rinv_0_lt_compat]); apply Rabs_le; lra.
  - intros Y. assert (G0 : 0 < g) by (unfold g; apply Rmult_lt_0_compat; [exact P38|now apply Rinv_0_lt_compat]). assert (IP : 0 < / across s) by now apply Rinv_0_lt_compat.
    assert (YG : g <= Rabs (vy s / across s)). { unfold Rdiv. rewrite Rabs_mult, (Rabs_pos_eq (/ across s)) by lra. apply Rmult_le_compat_r; lra. }
    apply Rabs_le_inv in EX'. destruct (Rlt_dec (vy s) 0) as [L2|L2].
    + assert (vy s / across s < 0) by (unfold Rdiv; nra). rewrite Rabs_left in YG by assumption. rewrite Rlt_bool_true by lra. reflexivity.
    + assert (0 <= vy s / across s) by (unfold Rdiv; apply Rmult_le_pos; lra). rewrite Rabs_pos_eq in YG by assumption. rewrite Rlt_bool_false by lra. reflexivity.
Qed.
Lemma fpi_near : Rabs (B2R fpi - PI) <= / 2 ^ 50 /\ is_finite fpi = true.
Proof. split; [|reflexivity]. pose proof (proj1 C126_constants) as C. cbn [pow] in *. lra. Qed.
Lemma inclination_near dot3 dotv arccos q n : any_order3 dot3 -> any_order_v dotv -> full_arccos arccos -> near_unit e41 q -> 0 <= B2R (fw q) -> near_unit3 e41 n ->
  let s := in_sample (value q) (vvalue n) in Rabs (vz s) <= 1 - / 2 ^ 41 ->
  let t := snd (trace_f dot3 dotv arccos q n) in is_finite t = true /\ - / 2 ^ 48 <= B2R t <= PI / 2 + / 2 ^ 48 /\ Rabs (cos (B2R t) - Rabs (vz s)) <= / 2 ^ 40.
Proof.
  intros D3 DV (AC & _) Q W N s A t. assert (E8 : e41 <= / 8) by (unfold e41; cbn [pow]; lra). pose proof (near_sound _ _ E8 Q) as SQ. pose proof (near_sound3 _ _ E8 N) as SN. destruct f1_is as (V1 & G1).
  assert (VZ : vvalue (F3 f0 f0 f1) = V3 0 0 1) by (unfold vvalue; cbn [f_x f_y f_z]; rewrite V1; reflexivity).
  assert (SZ : sound3 (F3 f0 f0 f1)) by (split; [repeat split; auto|rewrite VZ; unfold vdot; cbn [vx vy vz]; lra]).
  destruct (transform_near dot3 q _ D3 SQ SZ) as (EB & X & Y & Z). rewrite VZ in EB, X, Y, Z. unfold t, trace_f. cbn [snd]. unfold inclination_f. set (r := transform_f dot3 q (F3 f0 f0 f1)) in *.
  destruct (dot_of dotv r _ n DV EB X Y Z SN) as (_ & FD & ED & _). destruct (line_is (value q) (vvalue n) W) as (LZ & _). fold s in LZ. cbv zeta in LZ. rewrite LZ in ED.
  set (x := dotv r n) in *. rewrite u53_is in ED. cbn [pow] in A. apply Rabs_le_inv in ED. apply Rabs_le_inv in A as A'. assert (BX : -1 <= B2R x <= 1) by lra.
  destruct (AC x FD BX) as (FA & EA). cbv zeta. set (i := arccos x) in *. destruct fpi_near as (EP & FP). destruct f2_is as (V2 & F2). pose proof PI_4 as P4. pose proof (acos_bound (B2R x)) as AB. pose proof (cos_acos _ BX) as CA.
  set (a := acos (B2R x)) in *. cbn [pow] in EA, EP. apply Rabs_le_inv in EA. apply Rabs_le_inv in EP. pose proof PI2_3_2 as P3. pose proof (cos_lip (B2R i) a) as CI. rewrite CA in CI. assert (CI' : Rabs (cos (B2R i) - B2R x) <= / 1125899906842624) by (apply Rle_trans with (1 := CI); apply Rabs_le; lra). clear CI. apply Rabs_le_inv in CI'.
  destruct (fdiv_in 2 fpi f2 ltac:(lia) FP ltac:(lra)) as (FH & _ & EH & _); [rewrite V2; change (bpow radix2 2) with 4; apply Rabs_le; lra|]. rewrite V2 in EH. change (2 - 54)%Z with (-52)%Z in EH. rewrite (proj1 us), u53_is in EH. apply Rabs_le_inv in EH.
  assert (HALF : Rabs (B2R (fdiv fpi f2) - PI / 2) <= / 1125899906842624) by (apply Rabs_le; lra). apply Rabs_le_inv in HALF.
  rewrite flt_is by assumption. cbn [pow]. destruct (Rlt_bool_spec (B2R (fdiv fpi f2)) (B2R i)) as [L|L].
  - assert (BS : Rabs (B2R fpi - B2R i) <= bpow radix2 2) by (change (bpow radix2 2) with 4; apply Rabs_le; lra). destruct (fsub_in 2 fpi i ltac:(lia) FP FA BS) as (FS & _ & ES & _). split; [exact FS|].
    change (2 - 54)%Z with (-52)%Z in ES. destruct us as (U2 & _). rewrite U2, u53_is in ES. apply Rabs_le_inv in ES. split; [lra|].
    assert (C : Rabs (cos (B2R (fsub fpi i)) - cos (PI - B2R i)) <= 2 * / 1125899906842624) by (apply Rle_trans with (1 := cos_lip _ _); apply Rabs_le; lra).
    assert (CP : cos (PI - B2R i) = - cos (B2R i)) by (rewrite cos_minus, cos_PI, sin_PI; ring). rewrite CP in C. apply Rabs_le_inv in C.
    assert (XN : B2R x <= 3 * / 1125899906842624).
    { pose proof (cos_lip (B2R i) (PI / 2)) as K. destruct (Rle_lt_dec (B2R i) (PI / 2)) as [M|M].
      - rewrite cos_PI2, Rminus_0_r in K. assert (Rabs (cos (B2R i)) <= / 1125899906842624) by (apply Rle_trans with (1 := K); apply Rabs_le; lra). apply Rabs_le_inv in H. lra.
      - destruct (Rle_lt_dec (B2R x) 0) as [X0|X0]; [lra|]. assert (a <= PI / 2) by (rewrite <- acos_0; unfold a; apply acos_le; lra).
        rewrite cos_PI2, Rminus_0_r in K. assert (Rabs (cos (B2R i)) <= / 1125899906842624) by (apply Rle_trans with (1 := K); apply Rabs_le; lra). apply Rabs_le_inv in H0. lra. }
    apply Rabs_le. unfold Rabs. destruct (Rcase_abs (vz s)); lra.
  - split; [exact FA|]. split; [lra|]. assert (XN : - (3 * / 1125899906842624) <= B2R x).
    { destruct (Rle_lt_dec 0 (B2R x)) as [X0|X0]; [lra|]. assert (PI / 2 <= a) by (rewrite <- acos_0; unfold a; apply acos_le; lra).
      pose proof (cos_lip (B2R i) (PI / 2)) as K. rewrite cos_PI2, Rminus_0_r in K. assert (Rabs (cos (B2R i)) <= / 1125899906842624) by (apply Rle_trans with (1 := K); apply Rabs_le; lra). apply Rabs_le_inv in H0. lra. }
    apply Rabs_le. unfold Rabs. destruct (Rcase_abs (vz s)); lra.
Qed.
