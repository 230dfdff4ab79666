(** C129: strains of DIC maps in double precision. *)
From Coq Require Import Reals Lra.
From Coq Require Import List ZArith Bool Lia.
From Flocq Require Import Core IEEE754.BinarySingleNaN.
From Verif Require Import Py Grid Dic_Model Dic_Spec Double_Model Double_Spec Double_Proofs Strain64_Model Strain64_Spec Strain64_Proofs.
Import ListNotations.
Open Scope Z_scope.

Lemma pow_bpow k : bpow radix2 (Z.of_nat k) = (2 ^ k)%R.
Proof. rewrite <- IZR_Zpower by lia. change (radix_val radix2) with 2. now rewrite pow_IZR. Qed.
Lemma axis0 : axis 0. Proof. left. reflexivity. Qed.
Lemma axis1 : axis 1. Proof. right. reflexivity. Qed.

(** Every component of the deformation gradient and of the strain, and the effective shear, is a
    finite number close to the exact one, wherever no gradient is above 2^k; the effective shear is
    never negative.  Only the displacements that the pixel reads need to be there. *)
Theorem C129_accurate : forall dot2 W H h u k q, any_sum dot2 -> 2 <= W -> 2 <= H -> (k <= 200)%nat -> some_size h -> inside W H q ->
  (forall c p, axis c -> reads W H q p -> is_finite (u c p) = true) ->
  exists F f, deformation_gradient W H (B2R h) (real_map u) = Ok F /\ gradient_f W H h u = Ok f /\
    ((forall i j, axis i -> axis j -> Rabs (F i j q - delta i j) <= 2 ^ k)%R ->
     (forall i j, axis i -> axis j -> is_finite (f i j q) = true /\ (Rabs (B2R (f i j q) - F i j q) <= 2 ^ k / 2 ^ 50)%R) /\
     (forall i j, axis i -> axis j -> is_finite (green_f dot2 f i j q) = true /\
        (Rabs (B2R (green_f dot2 f i j q) - green_strain F i j q) <= 2 ^ (2 * k) / 2 ^ 46)%R) /\
     is_finite (max_shear_f (green_f dot2 f) q) = true /\ (0 <= B2R (max_shear_f (green_f dot2 f) q))%R /\
     (Rabs (B2R (max_shear_f (green_f dot2 f) q) - max_shear (green_strain F) q) <= 2 ^ (2 * k) / 2 ^ 43)%R).
Proof.
  intros dot2 W H h u k q HD HW HH HK HS HQ HF.
  assert (EF : exists F, deformation_gradient W H (B2R h) (real_map u) = Ok F).
  { unfold deformation_gradient. destruct (Z.ltb_spec W 2); [lia|]. destruct (Z.ltb_spec H 2); [lia|]. cbn [orb]. eexists. reflexivity. }
  assert (Ef : exists f, gradient_f W H h u = Ok f).
  { unfold gradient_f. destruct (Z.ltb_spec W 2); [lia|]. destruct (Z.ltb_spec H 2); [lia|]. cbn [orb]. eexists. reflexivity. }
  destruct EF as (F & EF). destruct Ef as (f & Ef). exists F, f. split; [exact EF|]. split; [exact Ef|]. intros HB. rewrite <- pow_bpow in HB.
  assert (HK' : 0 <= Z.of_nat k <= 200) by lia.
  pose proof (f_ap W H h u (Z.of_nat k) q HW HH HK' HS HQ HF F f EF Ef HB) as FA.
  pose proof (e_ap W H h u (Z.of_nat k) q HW HH HK' HS HQ HF F f EF Ef HB dot2 HD) as EA.
  pose proof u_pos as U. pose proof (scale_ge (Z.of_nat k) ltac:(lia)) as B1. rewrite (Nat.mul_comm 2 k), pow_mult, <- pow_bpow. set (B := bpow radix2 (Z.of_nat k)) in *.
  assert (BB : (1 <= B * B)%R) by nra. assert (UB : (0 < u53 * (B * B))%R) by nra. assert (UB' : (0 < u53 * B)%R) by nra.
  assert (U50 : (B / 2 ^ 50 = 8 * (u53 * B))%R) by (unfold bpow; cbn [radix2 radix_val Z.pow_pos Pos.iter Z.mul Pos.mul]; lra).
  assert (U46 : (B ^ 2 / 2 ^ 46 = 128 * (u53 * (B * B)))%R) by (unfold bpow; cbn [radix2 radix_val Z.pow_pos Pos.iter Z.mul Pos.mul]; lra).
  assert (U43 : (B ^ 2 / 2 ^ 43 = 1024 * (u53 * (B * B)))%R) by (unfold bpow; cbn [radix2 radix_val Z.pow_pos Pos.iter Z.mul Pos.mul]; lra).
  rewrite U50, U46, U43.
  split; [intros i j I J; destruct (FA i j I J) as (A1 & A2 & _); split; [exact A1|lra]|].
  split; [intros i j I J; destruct (EA i j I J) as (A1 & A2 & _); split; [exact A1|lra]|].
  pose proof (EA 0 0 axis0 axis0) as A00. pose proof (EA 1 1 axis1 axis1) as A11. destruct (EA 0 1 axis0 axis1) as (FY & EY & MY).
  pose proof (ap_sub (2 * Z.of_nat k + 6) _ _ _ _ _ _ _ _ ltac:(lia) A00 A11) as D. rewrite scale_u, (scale_up (2 * Z.of_nat k) 6), scale_sq in D by lia. fold B in D. change (IZR (2 ^ 6)) with 64%R in D.
  destruct (D ltac:(lra)) as (FD & ED & MD). destruct f2_is as (V2 & _).
  destruct (fdiv_in (2 * Z.of_nat k + 5) (fsub (green_f dot2 f 0 0 q) (green_f dot2 f 1 1 q)) f2 ltac:(lia) FD) as (FX & _ & EX & MX).
  { lra. }
  { rewrite V2, (scale_up (2 * Z.of_nat k) 5), scale_sq by lia. fold B. change (IZR (2 ^ 5)) with 32%R. unfold Rdiv. rewrite Rabs_mult, (Rabs_pos_eq (/ 2)) by lra. lra. }
  rewrite V2, scale_u in EX. rewrite (scale_up (2 * Z.of_nat k) 5), scale_sq in EX, MX by lia. fold B in EX, MX. change (IZR (2 ^ 5)) with 32%R in EX, MX.
  set (x := fdiv (fsub (green_f dot2 f 0 0 q) (green_f dot2 f 1 1 q)) f2) in *. set (y := green_f dot2 f 0 1 q) in *.
  assert (A420 : (1 <= 32 * (B * B) <= bpow radix2 420)%R).
  { split; [lra|]. replace (32 * (B * B))%R with (bpow radix2 (2 * Z.of_nat k + 5)); [apply bpow_le; lia|]. rewrite (scale_up (2 * Z.of_nat k) 5), scale_sq by lia. fold B. change (IZR (2 ^ 5)) with 32%R. ring. }
  destruct (shear_ap x y (32 * (B * B)) A420 FX FY ltac:(lra) ltac:(lra)) as (S1 & S2 & S3).
  unfold max_shear_f. cbv zeta. fold x. fold y. split; [exact S1|]. split; [exact S2|]. unfold max_shear.
  pose proof (norm_near (B2R x) (B2R y) ((green_strain F 0 0 q - green_strain F 1 1 q) / 2) (green_strain F 0 1 q)) as NN.
  assert (EX' : (Rabs (B2R x - (green_strain F 0%Z 0%Z q - green_strain F 1%Z 1%Z q) / 2) <= 110 * (u53 * (B * B)))%R).
  { apply Rabs_le_inv in EX. apply Rabs_le_inv in ED. apply Rabs_le. lra. }
  apply Rabs_le_inv in S3. apply Rabs_le_inv in NN. apply Rabs_le. lra.
Qed.
Print Assumptions C129_accurate.

(** Numbers that are exactly a value. *)
Definition is_val (v : f64) (x : R) : Prop := is_finite v = true /\ B2R v = x.
Lemma rnd_int n : 0 <= n <= 4 -> rnd (IZR n) = IZR n.
Proof. intros N. apply round_generic; [apply valid_rnd_N|]. apply format_int. lia. Qed.
Lemma val_0 (v : f64) x : within 2 v x -> x = 0%R -> is_val v 0.
Proof. intros (F & V & _) ->. split; [exact F|]. rewrite V. exact (rnd_int 0 ltac:(lia)). Qed.
Lemma small0 : (Rabs 0 <= bpow radix2 2)%R. Proof. rewrite Rabs_R0. apply bpow_ge_0. Qed.
Lemma zero_sub v w x : is_val v x -> is_val w x -> is_val (fsub v w) 0.
Proof.
  intros (F1 & V1) (F2 & V2). apply val_0 with (B2R v - B2R w)%R; [|lra]. apply fsub_in; [lia|exact F1|exact F2|].
  replace (B2R v - B2R w)%R with 0%R by lra. apply small0.
Qed.
Lemma zero_div v w : is_val v 0 -> B2R w <> 0%R -> is_val (fdiv v w) 0.
Proof.
  intros (F1 & V1) N. assert (E : (B2R v / B2R w = 0)%R) by (rewrite V1; unfold Rdiv; ring). apply val_0 with (B2R v / B2R w)%R; [|exact E].
  apply fdiv_in; [lia|exact F1|exact N|]. rewrite E. apply small0.
Qed.
Lemma zero_mul v w : is_val v 0 -> is_val w 0 -> is_val (fmul v w) 0.
Proof.
  intros (F1 & V1) (F2 & V2). assert (E : (B2R v * B2R w = 0)%R) by (rewrite V1; ring). apply val_0 with (B2R v * B2R w)%R; [|exact E].
  apply fmul_in; [lia|exact F1|exact F2|]. rewrite E. apply small0.
Qed.
Lemma zero_add v w : is_val v 0 -> is_val w 0 -> is_val (fadd v w) 0.
Proof.
  intros (F1 & V1) (F2 & V2). assert (E : (B2R v + B2R w = 0)%R) by lra. apply val_0 with (B2R v + B2R w)%R; [|exact E].
  apply fadd_in; [lia|exact F1|exact F2|]. rewrite E. apply small0.
Qed.
Lemma zero_sqrt v : is_val v 0 -> is_val (fsqrt v) 0.
Proof.
  intros (F1 & V1). destruct (Bsqrt_correct 53 1024 _ _ mode_NE v) as (B & FS & _). fold (fsqrt v) in B, FS. split.
  - rewrite FS. destruct v as [s|s| |s m e E]; try reflexivity; try discriminate F1. exfalso. cbn [B2R] in V1. apply eq_0_F2R in V1. destruct s; discriminate V1.
  - rewrite B, V1, sqrt_0. exact (rnd_int 0 ltac:(lia)).
Qed.
Lemma zero_quotient n h g i x : some_size h -> 2 <= n -> 0 <= i < n -> (forall j, 0 <= j < n -> is_val (g j) x) -> is_val (grad1_f n h g i) 0.
Proof.
  intros (FH & HB) N I A. assert (HB' : (1 <= B2R h <= bpow radix2 100)%R) by (rewrite <- (IZR_Zpower radix2) by lia; cbn in HB |- *; lra).
  unfold grad1_f. destruct (Z.eqb_spec i 0); [|destruct (Z.eqb_spec i (n - 1))]; apply zero_div; try (apply zero_sub with x; apply A; lia); [lra|lra|].
  rewrite double_exact by assumption. lra.
Qed.

(** Where a whole map moved by the same displacement, however large, nothing is strained, exactly. *)
Theorem C129_shift : forall dot2 W H h u s, any_sum dot2 -> 2 <= W -> 2 <= H -> some_size h ->
  (forall c, axis c -> is_finite (s c) = true) -> (forall c p, axis c -> inside W H p -> u c p = s c) ->
  exists f, gradient_f W H h u = Ok f /\ forall q, inside W H q ->
    (forall i j, axis i -> axis j -> is_finite (f i j q) = true /\ B2R (f i j q) = delta i j) /\
    (forall i j, axis i -> axis j -> is_finite (green_f dot2 f i j q) = true /\ B2R (green_f dot2 f i j q) = 0%R) /\
    is_finite (max_shear_f (green_f dot2 f) q) = true /\ B2R (max_shear_f (green_f dot2 f) q) = 0%R.
Proof.
  intros dot2 W H h u s HD HW HH HS FS US.
  assert (Ef : exists f, gradient_f W H h u = Ok f).
  { unfold gradient_f. destruct (Z.ltb_spec W 2); [lia|]. destruct (Z.ltb_spec H 2); [lia|]. cbn [orb]. eexists. reflexivity. }
  destruct Ef as (f & Ef). exists f. split; [exact Ef|]. intros q Q. destruct f1_is as (V1 & F1). destruct fhalf_is as (VH & FH). destruct f2_is as (V2 & F2).
  assert (FA : forall i j, axis i -> axis j -> is_val (f i j q) (delta i j)).
  { intros i j I J. destruct q as (x, y). destruct Q as (Q1 & Q2). cbn [fst snd] in Q1, Q2.
    assert (G : is_val (if j =? 1 then grad1_f H h (fun y0 => u i (x, y0)) y else grad1_f W h (fun x0 => u i (x0, y)) x) 0).
    { destruct (j =? 1); apply zero_quotient with (B2R (s i)); try assumption; intros z Z; rewrite US; try assumption; try (split; [apply FS; assumption|reflexivity]); split; cbn [fst snd]; lia. }
    unfold gradient_f in Ef. destruct (Z.ltb_spec W 2); [lia|]. destruct (Z.ltb_spec H 2); [lia|]. cbn [orb] in Ef. injection Ef as <-. cbv zeta. cbn [fst snd].
    unfold delta. destruct (i =? j); [|exact G]. destruct G as (G1 & G2).
    destruct (fadd_in 2 _ f1 ltac:(lia) G1 F1) as (A1 & A2 & _); rewrite G2, V1, Rplus_0_l in *; [rewrite Rabs_R1; change (bpow radix2 2) with 4%R; lra|].
    split; [exact A1|]. rewrite A2. exact (rnd_int 1 ltac:(lia)). }
  assert (EA : forall i j, axis i -> axis j -> is_val (green_f dot2 f i j q) 0).
  { intros i j I J. set (l := [(f 0 i q, f 0 j q); (f 1 i q, f 1 j q)]).
    pose proof (HD i j q l) as SM.
    assert (TI : forall c, axis c -> (B2R (f c i q) * B2R (f c j q) = delta c i * delta c j)%R /\ term_int (f c i q, f c j q)).
    { intros c C. destruct (FA c i C I) as (X1 & X2). destruct (FA c j C J) as (Y1 & Y2). split; [now rewrite X2, Y2|]. split; [exact X1|split; [exact Y1|]]. cbn [fst snd]. rewrite X2, Y2.
      unfold delta. destruct (c =? i), (c =? j); lra. }
    destruct (sums_int l _ SM) as (S1 & S2 & _); [constructor; [apply TI, axis0|constructor; [apply TI, axis1|constructor]]|cbn; lia|].
    assert (TV : total l = delta i j).
    { unfold l, total. cbn [map fold_right fst snd]. rewrite (proj1 (TI 0 axis0)), (proj1 (TI 1 axis1)). destruct I as [->| ->], J as [->| ->]; unfold delta; cbn [Z.eqb Pos.eqb]; lra. }
    rewrite TV in S2. unfold green_f. fold l. cbv zeta. set (v := dot2 i j q l) in *. unfold delta in S2. destruct (i =? j).
    - destruct (fmul_in 2 fhalf v ltac:(lia) FH S1) as (M1 & M2 & _); rewrite VH, S2, Rmult_1_r in *; [rewrite Rabs_pos_eq by lra; change (bpow radix2 2) with 4%R; lra|].
      rewrite <- VH in M2. rewrite rnd_id in M2. apply zero_sub with (B2R fhalf); split; assumption || reflexivity.
    - assert (E : (B2R fhalf * B2R v = 0)%R) by (rewrite S2; ring). apply val_0 with (B2R fhalf * B2R v)%R; [|exact E]. apply fmul_in; [lia|exact FH|exact S1|]. rewrite E. apply small0. }
  split; [exact FA|]. split; [exact EA|].
  assert (Z : is_val (max_shear_f (green_f dot2 f) q) 0).
  { unfold max_shear_f. cbv zeta. pose proof (EA 0 1 axis0 axis1) as Y.
    assert (X : is_val (fdiv (fsub (green_f dot2 f 0 0 q) (green_f dot2 f 1 1 q)) f2) 0) by (apply zero_div; [apply zero_sub with 0%R; [exact (EA 0 0 axis0 axis0)|exact (EA 1 1 axis1 axis1)]|lra]).
    apply zero_sqrt, zero_add; apply zero_mul; assumption. }
  exact Z.
Qed.
Print Assumptions C129_shift.

(** One missing displacement. *)
Lemma grad1_nan n h g i x : 0 <= x < n -> 2 <= n -> 0 <= i < n -> g x = B754_nan -> (Z.abs (i - x) = 1 \/ i = x /\ (x = 0 \/ x = n - 1)) -> grad1_f n h g i = B754_nan.
Proof.
  intros X N I E O. unfold grad1_f. destruct (Z.eqb_spec i 0); [|destruct (Z.eqb_spec i (n - 1))].
  - rewrite nan_sub; [apply nan_div|]. assert (O' : x = 1 \/ x = 0) by lia. destruct O' as [->| ->]; auto.
  - rewrite nan_sub; [apply nan_div|]. assert (O' : x = n - 1 \/ x = n - 2) by lia. destruct O' as [->| ->]; auto.
  - rewrite nan_sub; [apply nan_div|]. assert (O' : x = i + 1 \/ x = i - 1) by lia. destruct O' as [->| ->]; auto.
Qed.
Lemma quotient_bound n (h : R) (g : Z -> R) i M : (1 <= h)%R -> 2 <= n -> 0 <= i < n -> (forall x, (0 <= x < n)%Z -> (Rabs (g x) <= M)%R) -> (Rabs (grad1 n h g i) <= 2 * M)%R.
Proof.
  intros HH N I B. assert (D : forall a b h', 0 <= a < n -> 0 <= b < n -> (1 <= h')%R -> (Rabs ((g a - g b) / h') <= 2 * M)%R).
  { intros a b h' A B' H'. unfold Rdiv. rewrite Rabs_mult. pose proof (B a A) as BA. pose proof (B b B') as BB.
    assert (I' : (0 < / h' <= 1)%R) by (split; [apply Rinv_0_lt_compat; lra|rewrite <- Rinv_1; apply Rinv_le; lra]). rewrite (Rabs_pos_eq (/ h')) by lra.
    assert (X : (Rabs (g a - g b) <= 2 * M)%R) by (unfold Rminus; apply Rle_trans with (1 := Rabs_triang _ _); rewrite Rabs_Ropp; lra). pose proof (Rabs_pos (g a - g b)). nra. }
  unfold grad1. destruct (Z.eqb_spec i 0); [|destruct (Z.eqb_spec i (n - 1))]; apply D; lia || lra.
Qed.
Theorem C129_missing : forall dot2 W H h u c p, any_sum dot2 -> 2 <= W -> 2 <= H -> some_size h -> axis c -> inside W H p -> u c p = B754_nan ->
  (forall d q, axis d -> inside W H q -> q <> p -> is_finite (u d q) = true) ->
  (forall d q, axis d -> inside W H q -> (Rabs (B2R (u d q)) <= 2 ^ 100)%R) ->
  exists f, gradient_f W H h u = Ok f /\ forall q, inside W H q ->
    (reads W H q p -> max_shear_f (green_f dot2 f) q = B754_nan) /\
    (~ reads W H q p -> is_finite (max_shear_f (green_f dot2 f) q) = true).
Proof.
  intros dot2 W H h u c p HD HW HH HS C P UN UF UB.
  assert (Ef : exists f, gradient_f W H h u = Ok f).
  { unfold gradient_f. destruct (Z.ltb_spec W 2); [lia|]. destruct (Z.ltb_spec H 2); [lia|]. cbn [orb]. eexists. reflexivity. }
  destruct Ef as (f & Ef). exists f. split; [exact Ef|]. intros q Q. split.
  - intros (_ & RD).
    assert (FN : exists j, axis j /\ f c j q = B754_nan).
    { destruct q as (x, y), p as (px, py). destruct Q as (Q1 & Q2), P as (P1 & P2). cbn [fst snd] in Q1, Q2, P1, P2.
      assert (O : (py = y /\ (Z.abs (x - px) = 1 \/ x = px /\ (px = 0 \/ px = W - 1))) \/ (px = x /\ (Z.abs (y - py) = 1 \/ y = py /\ (py = 0 \/ py = H - 1)))).
      { destruct RD as [RD|(RD & RR)]; [unfold taxi in RD; cbn [fst snd] in RD; lia|]. injection RD as <- <-. unfold on_rim in RR. cbn [fst snd] in RR. lia. }
      unfold gradient_f in Ef. destruct (Z.ltb_spec W 2); [lia|]. destruct (Z.ltb_spec H 2); [lia|]. cbn [orb] in Ef. injection Ef as <-. cbv zeta. cbn [fst snd].
      destruct O as [(-> & O)|(-> & O)].
      - exists 0. split; [exact axis0|]. cbn [Z.eqb]. rewrite (grad1_nan W h (fun x0 => u c (x0, y)) x px); auto. destruct (c =? 0); [apply nan_add; auto|reflexivity].
      - exists 1. split; [exact axis1|]. cbn [Z.eqb Pos.eqb]. rewrite (grad1_nan H h (fun y0 => u c (x, y0)) y py); auto. destruct (c =? 1); [apply nan_add; auto|reflexivity]. }
    destruct FN as (j & J & FN).
    assert (E : green_f dot2 f 0 1 q = B754_nan).
    { unfold green_f. cbv zeta. cbn [Z.eqb]. apply nan_mul. right. apply nan_sums with (1 := HD _ _ _ _).
      assert (T : nan_term (f c 0 q, f c 1 q)) by (destruct J as [->| ->]; [left|right]; exact FN).
      destruct C as [->| ->]; [apply Exists_cons_hd; exact T|apply Exists_cons_tl, Exists_cons_hd; exact T]. }
    unfold max_shear_f. cbv zeta. rewrite E. rewrite (nan_add _ (fmul B754_nan B754_nan)); [reflexivity|right; reflexivity].
  - intros NR. destruct (C129_accurate dot2 W H h u 101 q HD HW HH ltac:(repeat constructor) HS Q) as (F & f' & EF & Ef' & A).
    { intros d q' D R'. apply UF; [exact D|exact (proj1 R')|]. intros ->. exact (NR R'). }
    assert (f' = f) by congruence. subst f'. destruct A as (_ & _ & A & _); [|exact A].
    intros i j I J. rewrite (F_is W H h u q F i j HW HH EF J). replace (grad_real W H (B2R h) (real_map u) i j q + delta i j - delta i j)%R with (grad_real W H (B2R h) (real_map u) i j q) by ring.
    change (2 ^ 101)%R with (2 * 2 ^ 100)%R. destruct q as (x, y). destruct Q as (Q1 & Q2). cbn [fst snd] in Q1, Q2. destruct HS as (_ & HS). unfold grad_real, real_map. cbn [fst snd].
    destruct (j =? 1); apply quotient_bound; try lia; try lra; intros z Z; apply UB; try assumption; split; cbn [fst snd]; lia.
Qed.
Print Assumptions C129_missing.

(** A pixel without displacement does not lose its strain, unless it is on the rim. *)
Theorem C129_missing_refuted : forall dot2 W H h u c p, any_sum dot2 -> 2 <= W -> 2 <= H -> some_size h -> axis c -> inside W H p -> ~ on_rim W H p -> u c p = B754_nan ->
  (forall d q, axis d -> inside W H q -> q <> p -> is_finite (u d q) = true) ->
  (forall d q, axis d -> inside W H q -> (Rabs (B2R (u d q)) <= 2 ^ 100)%R) ->
  exists f, gradient_f W H h u = Ok f /\ is_finite (max_shear_f (green_f dot2 f) p) = true.
Proof.
  intros dot2 W H h u c p HD HW HH HS C P NR UN UF UB. destruct (C129_missing dot2 W H h u c p HD HW HH HS C P UN UF UB) as (f & E & A).
  exists f. split; [exact E|]. apply A; [exact P|]. intros (_ & [T|(_ & R')]); [unfold taxi in T; lia|exact (NR R')].
Qed.
Print Assumptions C129_missing_refuted.

(** A map needs two rows and two columns. *)
Theorem C129_small : forall W H h u, W < 2 \/ H < 2 -> gradient_f W H h u = Err ValueError.
Proof. intros W H h u S. unfold gradient_f. destruct (Z.ltb_spec W 2), (Z.ltb_spec H 2); reflexivity || lia. Qed.
Print Assumptions C129_small.

(** Displacements of more than 2^600 pixels give no shear: the bound cannot be left out. *)
Theorem C129_huge_refuted : exists u, (forall c p, is_finite (u c p) = true) /\
  exists f, gradient_f 2 2 f1 u = Ok f /\ max_shear_f (green_f in_order f) (0, 0) = B754_nan.
Proof.
  exists (fun c p => if (fst p + snd p) mod 2 =? 0 then f0 else number 4503599627370496 600 eq_refl). split.
  - intros c p. destruct (_ =? 0); reflexivity.
  - eexists. split; [reflexivity|]. vm_compute. reflexivity.
Qed.
Print Assumptions C129_huge_refuted.

Lemma in_order_any : any_sum in_order.
Proof.
  intros i j p l. unfold in_order. destruct l as [|a l]; [constructor|].
  assert (G : forall l m s, sums m s -> sums (m ++ l) (fold_left (fun s b => fadd s (fmul (fst b) (snd b))) l s)).
  { clear. induction l as [|b l IH]; intros m s S; cbn [fold_left]; [now rewrite app_nil_r|].
    replace (m ++ b :: l) with ((m ++ [b]) ++ l) by (rewrite <- app_assoc; reflexivity). apply IH. apply sums_add; [exact S|]. destruct b as (x, y). apply sums_one. }
  apply (G l [a]). destruct a as (x, y). apply sums_one.
Qed.
(** A map of three by three, sheared by a quarter with sub-windows of two pixels: the gradient is 1/4 and the strain 1/8, exactly. *)
Definition sheared (c : Z) (p : pix) : f64 := if c =? 0 then fmul fhalf (f_of_Z (snd p)) else f_of_Z 7.
Example C129_met : any_sum in_order /\ some_size f2 /\ (forall c p, axis c -> reads 3 3 (1, 1) p -> is_finite (sheared c p) = true) /\
  exists f, gradient_f 3 3 f2 sheared = Ok f /\ B2SF (f 0 1 (1, 1)) = SpecFloat.S754_finite false 4503599627370496 (-54) /\
    B2SF (green_f in_order f 0 1 (1, 1)) = SpecFloat.S754_finite false 4503599627370496 (-55).
Proof.
  split; [exact in_order_any|]. split; [split; [reflexivity|rewrite (proj1 f2_is); split; [lra|cbn; lra]]|]. split.
  - intros c (x, y) _ ((I & J) & _). cbn [fst snd] in I, J. assert (y = 0 \/ y = 1 \/ y = 2) as [->|[->| ->]] by lia; unfold sheared; destruct (c =? 0); reflexivity.
  - eexists. split; [reflexivity|]. split; vm_compute; reflexivity.
Qed.
(** A map that moved by 1e300 or so, and one with a missing displacement. *)
Example C129_met_shift : (forall c, axis c -> is_finite ((fun _ : Z => number 4503599627370496 950 eq_refl) c) = true) /\
  exists f, gradient_f 2 2 f1 (fun _ _ => number 4503599627370496 950 eq_refl) = Ok f /\ max_shear_f (green_f in_order f) (1, 0) = f0.
Proof. split; [reflexivity|]. eexists. split; [reflexivity|]. vm_compute. reflexivity. Qed.
Example C129_met_missing : exists f, gradient_f 3 3 f2 (fun c p => if (c =? 0) && (fst p =? 1) && (snd p =? 1) then B754_nan else f_of_Z (fst p)) = Ok f /\
  map (fun q => is_nan (max_shear_f (green_f in_order f) q)) [(0, 0); (1, 0); (0, 1); (1, 1); (2, 1); (1, 2)] = [false; true; true; false; true; true].
Proof. eexists. split; [reflexivity|]. vm_compute. reflexivity. Qed.
