(** Rounding errors. *)
From Coq Require Import String Reals Lra Psatz.
From Coq Require Import List ZArith Bool Lia Permutation.
From Flocq Require Import Core IEEE754.BinarySingleNaN.
From Verif Require Import Grid Quat_Model Boundary_Model Double_Model Double_Spec.
Import ListNotations.
Open Scope R_scope.

Notation fexp64 := (SpecFloat.fexp 53 1024).
Notation rnd := (round radix2 fexp64 ZnearestE).
Lemma round_mode_is : round_mode mode_NE = ZnearestE.
Proof. reflexivity. Qed.
Lemma fexp_flt : fexp64 = FLT_exp (-1074) 53.
Proof. reflexivity. Qed.
#[local] Instance valid_exp64 : Valid_exp fexp64.
Proof. apply (fexp_correct 53 1024). reflexivity. Qed.

(** Half a unit in the last place. *)
Lemma rnd_err k x : (-1000 <= k)%Z -> Rabs x <= bpow radix2 k -> Rabs (rnd x - x) <= bpow radix2 (k - 54).
Proof.
  intros K B. destruct (Req_dec x 0) as [->|NZ]; [rewrite round_0 by typeclasses eauto; rewrite Rminus_0_r, Rabs_R0; apply bpow_ge_0|].
  destruct B as [B|B].
  - apply Rle_trans with (1 := error_le_half_ulp radix2 fexp64 (fun z => negb (Z.even z)) x). rewrite ulp_neq_0 by exact NZ.
    apply Rle_trans with (/ 2 * bpow radix2 (k - 53)).
    + apply Rmult_le_compat_l; [lra|]. apply bpow_le. unfold cexp. rewrite fexp_flt. unfold FLT_exp.
      assert (mag radix2 x <= k)%Z by (apply mag_le_bpow; assumption). lia.
    + replace (k - 53)%Z with (1 + (k - 54))%Z by lia. rewrite bpow_plus. simpl (bpow radix2 1). lra.
  - assert (G : generic_format radix2 fexp64 x).
    { apply generic_format_abs_inv. rewrite B. apply generic_format_bpow. rewrite fexp_flt. unfold FLT_exp. lia. }
    rewrite round_generic by (assumption || typeclasses eauto). rewrite Rminus_eq_0, Rabs_R0. apply bpow_ge_0.
Qed.
Lemma rnd_bound M x : generic_format radix2 fexp64 M -> Rabs x <= M -> Rabs (rnd x) <= M.
Proof. intros G B. apply abs_round_le_generic; first [assumption | typeclasses eauto]. Qed.
Lemma format_int n : (0 <= n < 2 ^ 53)%Z -> generic_format radix2 fexp64 (IZR n).
Proof.
  intros N. rewrite fexp_flt. apply generic_format_FLT. exists (Float radix2 n 0); [unfold F2R; cbn; lra|cbn [Fnum]; change (Zpower (radix_val radix2) 53) with (2 ^ 53)%Z; lia|cbn [Fexp]; lia].
Qed.
Lemma format_bpow k : (-1000 <= k)%Z -> generic_format radix2 fexp64 (bpow radix2 k).
Proof. intros K. apply generic_format_bpow. rewrite fexp_flt. unfold FLT_exp. lia. Qed.

(** Operations on finite numbers with a result within 2^k. *)
Definition within (k : Z) (v : f64) (x : R) : Prop :=
  is_finite v = true /\ B2R v = rnd x /\ Rabs (B2R v - x) <= bpow radix2 (k - 54) /\ Rabs (B2R v) <= bpow radix2 k.
Lemma small_rnd k x : (-1000 <= k <= 1000)%Z -> Rabs x <= bpow radix2 k -> Rlt_bool (Rabs (rnd x)) (bpow radix2 1024) = true.
Proof.
  intros K B. apply Rlt_bool_true. apply Rle_lt_trans with (bpow radix2 k); [apply rnd_bound; [apply format_bpow; lia|exact B]|apply bpow_lt; lia].
Qed.
Lemma within_rnd k v x : (-1000 <= k <= 1000)%Z -> Rabs x <= bpow radix2 k -> is_finite v = true -> B2R v = rnd x -> within k v x.
Proof. intros K B F E. split; [exact F|]. split; [exact E|]. rewrite E. split; [apply rnd_err; [lia|exact B]|apply rnd_bound; [apply format_bpow; lia|exact B]]. Qed.
Lemma fmul_in k x y : (-1000 <= k <= 1000)%Z -> is_finite x = true -> is_finite y = true -> Rabs (B2R x * B2R y) <= bpow radix2 k -> within k (fmul x y) (B2R x * B2R y).
Proof.
  intros K FX FY B. pose proof (Bmult_correct 53 1024 _ _ mode_NE x y) as C. rewrite round_mode_is, (small_rnd k _ K B) in C. destruct C as (C1 & C2 & _).
  apply within_rnd; auto. unfold fmul. rewrite C2. now rewrite FX, FY.
Qed.
Lemma fadd_in k x y : (-1000 <= k <= 1000)%Z -> is_finite x = true -> is_finite y = true -> Rabs (B2R x + B2R y) <= bpow radix2 k -> within k (fadd x y) (B2R x + B2R y).
Proof.
  intros K FX FY B. pose proof (Bplus_correct 53 1024 _ _ mode_NE x y FX FY) as C. rewrite round_mode_is, (small_rnd k _ K B) in C. destruct C as (C1 & C2 & _).
  apply within_rnd; auto.
Qed.
Lemma fsub_in k x y : (-1000 <= k <= 1000)%Z -> is_finite x = true -> is_finite y = true -> Rabs (B2R x - B2R y) <= bpow radix2 k -> within k (fsub x y) (B2R x - B2R y).
Proof.
  intros K FX FY B. pose proof (Bminus_correct 53 1024 _ _ mode_NE x y FX FY) as C. rewrite round_mode_is, (small_rnd k _ K B) in C. destruct C as (C1 & C2 & _).
  apply within_rnd; auto.
Qed.
Lemma ffma_in k x y z : (-1000 <= k <= 1000)%Z -> is_finite x = true -> is_finite y = true -> is_finite z = true ->
  Rabs (B2R x * B2R y + B2R z) <= bpow radix2 k -> within k (ffma x y z) (B2R x * B2R y + B2R z).
Proof.
  intros K FX FY FZ B. pose proof (Bfma_correct 53 1024 _ _ mode_NE x y z FX FY FZ) as C. cbv zeta in C. rewrite round_mode_is, (small_rnd k _ K B) in C.
  destruct C as (C1 & C2 & _). apply within_rnd; auto.
Qed.
Lemma fdiv_in k x y : (-1000 <= k <= 1000)%Z -> is_finite x = true -> B2R y <> 0 -> Rabs (B2R x / B2R y) <= bpow radix2 k -> within k (fdiv x y) (B2R x / B2R y).
Proof.
  intros K FX NZ B. pose proof (Bdiv_correct 53 1024 _ _ mode_NE x y NZ) as C. rewrite round_mode_is, (small_rnd k _ K B) in C. destruct C as (C1 & C2 & _).
  apply within_rnd; auto. unfold fdiv. now rewrite C2.
Qed.

(** Sums of at most four products, in any order. *)
Definition total (l : list (f64 * f64)) : R := fold_right Rplus 0 (map (fun p => B2R (fst p) * B2R (snd p)) l).
Lemma total_app l l' : total (l ++ l') = total l + total l'.
Proof. induction l as [|a l IH]; [unfold total; cbn; lra|]. change (total ((a :: l) ++ l')) with (B2R (fst a) * B2R (snd a) + total (l ++ l')).
  change (total (a :: l)) with (B2R (fst a) * B2R (snd a) + total l). lra. Qed.
Lemma total_perm l l' : Permutation l l' -> total l = total l'.
Proof.
  induction 1 as [|a l l' _ IH|a b l|l l' l'' _ IH _ IH']; [reflexivity| | |congruence].
  - change (B2R (fst a) * B2R (snd a) + total l = B2R (fst a) * B2R (snd a) + total l'). lra.
  - change (B2R (fst b) * B2R (snd b) + (B2R (fst a) * B2R (snd a) + total l) = B2R (fst a) * B2R (snd a) + (B2R (fst b) * B2R (snd b) + total l)). lra.
Qed.
Definition term_in (j : Z) (p : f64 * f64) : Prop :=
  is_finite (fst p) = true /\ is_finite (snd p) = true /\ Rabs (B2R (fst p) * B2R (snd p)) <= bpow radix2 j.
Lemma format_scaled n j : (0 <= n < 2 ^ 53)%Z -> (-900 <= j)%Z -> generic_format radix2 fexp64 (IZR n * bpow radix2 j).
Proof.
  intros N J. rewrite fexp_flt. apply generic_format_FLT. exists (Float radix2 n j); [reflexivity|cbn [Fnum]; change (Zpower (radix_val radix2) 53) with (2 ^ 53)%Z; lia|cbn [Fexp]; lia].
Qed.
Lemma rnd_id v : rnd (B2R (v : f64)) = B2R v.
Proof. apply round_generic; [typeclasses eauto|]. apply (generic_format_B2R 53 1024). Qed.
Lemma bpow_2 j : bpow radix2 (j + 2) = 4 * bpow radix2 j.
Proof. rewrite bpow_plus. change (bpow radix2 2) with 4. lra. Qed.
Lemma sums_err j l v : (-900 <= j <= 900)%Z -> sums l v -> Forall (term_in j) l -> (List.length l <= 4)%nat ->
  is_finite v = true /\ Rabs (B2R v) <= INR (List.length l) * bpow radix2 j /\
  (l = [] -> B2R v = 0) /\ Rabs (B2R v - total l) <= (5 * INR (List.length l) - (match l with [] => 0 | _ => 4 end)) * bpow radix2 (j - 54).
Proof.
  intros J SM. pose proof (bpow_gt_0 radix2 j) as PJ. pose proof (bpow_gt_0 radix2 (j - 54)) as PU.
  assert (P2 : bpow radix2 (j + 2 - 54) = 4 * bpow radix2 (j - 54)) by (replace (j + 2 - 54)%Z with (j - 54 + 2)%Z by lia; apply bpow_2).
  assert (NB : forall n x, (n <= 4)%nat -> Rabs x <= INR n * bpow radix2 j -> Rabs (rnd x) <= INR n * bpow radix2 j).
  { intros n x N B. apply rnd_bound; [|exact B]. rewrite INR_IZR_INZ. apply format_scaled; lia. }
  assert (N4 : forall n : nat, (n <= 4)%nat -> INR n * bpow radix2 j <= bpow radix2 (j + 2)).
  { intros n N. rewrite bpow_2. apply Rmult_le_compat_r; [lra|]. apply le_INR in N. cbn in N. lra. }
  induction SM as [|x y|l1 l2 a b S1 IH1 S2 IH2|x y l a SM IH|l l' a P SM IH]; intros F L.
  - cbn [List.length INR]. change (B2R f0) with 0. change (total []) with 0. rewrite Rminus_0_r, Rabs_R0. repeat split; lra.
  - inversion_clear F as [|? ? (FX & FY & B) _]. cbn [fst snd] in *. destruct (fmul_in j x y ltac:(lia) FX FY B) as (F1 & _ & E & M).
    change (total [(x, y)]) with (B2R x * B2R y + 0). rewrite Rplus_0_r. cbn [List.length INR]. repeat split; try assumption; try discriminate; lra.
  - apply Forall_app in F as (F1 & F2). rewrite app_length in *. destruct (IH1 F1 ltac:(lia)) as (A1 & A2 & A3 & A4). destruct (IH2 F2 ltac:(lia)) as (B1 & B2 & B3 & B4).
    assert (BD : Rabs (B2R a + B2R b) <= INR (List.length l1 + List.length l2) * bpow radix2 j).
    { rewrite plus_INR. apply Rle_trans with (1 := Rabs_triang _ _). lra. }
    destruct (fadd_in (j + 2) a b ltac:(lia) A1 B1) as (C1 & C2 & C3 & _); [apply Rle_trans with (1 := BD); apply N4; lia|].
    rewrite P2 in C3. split; [exact C1|]. split; [rewrite C2; apply NB; [lia|exact BD]|]. rewrite total_app.
    destruct l1 as [|p1 l1].
    { rewrite (A3 eq_refl), Rplus_0_l, rnd_id in C2. cbn [app List.length Nat.add] in *. change (total []) with 0. rewrite C2, Rplus_0_l. split; [exact B3|exact B4]. }
    destruct l2 as [|p2 l2].
    { rewrite (B3 eq_refl), Rplus_0_r, rnd_id in C2. rewrite app_nil_r. change (total []) with 0. rewrite C2, Rplus_0_r, Nat.add_0_r. split; [exact A3|exact A4]. }
    split; [discriminate|]. change ((p1 :: l1) ++ p2 :: l2) with (p1 :: (l1 ++ p2 :: l2)). cbv iota. rewrite plus_INR.
    replace (B2R (fadd a b) - (total (p1 :: l1) + total (p2 :: l2))) with ((B2R (fadd a b) - (B2R a + B2R b)) + ((B2R a - total (p1 :: l1)) + (B2R b - total (p2 :: l2)))) by ring.
    apply Rle_trans with (1 := Rabs_triang _ _). pose proof (Rabs_triang (B2R a - total (p1 :: l1)) (B2R b - total (p2 :: l2))). cbv iota in A4, B4. lra.
  - inversion_clear F as [|? ? (FX & FY & B) F']. cbn [fst snd List.length] in *. destruct (IH F' ltac:(lia)) as (A1 & A2 & A3 & A4).
    assert (BD : Rabs (B2R x * B2R y + B2R a) <= INR (S (List.length l)) * bpow radix2 j).
    { rewrite S_INR. apply Rle_trans with (1 := Rabs_triang _ _). lra. }
    destruct (ffma_in (j + 2) x y a ltac:(lia) FX FY A1) as (C1 & C2 & C3 & _); [apply Rle_trans with (1 := BD); apply N4; lia|].
    rewrite P2 in C3. split; [exact C1|]. split; [rewrite C2; apply NB; [lia|exact BD]|]. split; [discriminate|].
    change (total ((x, y) :: l)) with (B2R x * B2R y + total l).
    destruct l as [|p l].
    { rewrite (A3 eq_refl), Rplus_0_r in C2. change (total []) with 0. rewrite Rplus_0_r, C2. cbn [List.length INR].
      apply Rle_trans with (1 := rnd_err j _ ltac:(lia) B). lra. }
    cbv iota in A4. rewrite S_INR.
    replace (B2R (ffma x y a) - (B2R x * B2R y + total (p :: l))) with ((B2R (ffma x y a) - (B2R x * B2R y + B2R a)) + (B2R a - total (p :: l))) by ring.
    apply Rle_trans with (1 := Rabs_triang _ _). lra.
  - rewrite <- (Permutation_length P), <- (total_perm _ _ P). rewrite <- (Permutation_length P) in L.
    destruct IH as (A1 & A2 & A3 & A4); [|exact L|].
    { rewrite Forall_forall in *. intros p I. apply F. now apply (Permutation_in _ P). }
    split; [exact A1|]. split; [exact A2|]. split.
    + intros ->. apply A3. now apply Permutation_nil, Permutation_sym.
    + destruct l, l'; [exact A4|apply Permutation_nil_cons in P; destruct P|apply Permutation_sym, Permutation_nil_cons in P; destruct P|exact A4].
Qed.

(** A finite number near a real number, with a bound. *)
Definition ap (v : f64) (x e A : R) : Prop := is_finite v = true /\ Rabs (B2R v - x) <= e /\ Rabs (B2R v) <= A.
Lemma ap_weak v x e A e' A' : ap v x e A -> e <= e' -> A <= A' -> ap v x e' A'.
Proof. intros (F & E & B) L M. repeat split; [exact F|lra|lra]. Qed.
Lemma ap_add k v w x y e f A B : (-1000 <= k <= 1000)%Z -> ap v x e A -> ap w y f B -> A + B <= bpow radix2 k ->
  ap (fadd v w) (x + y) (e + f + bpow radix2 (k - 54)) (bpow radix2 k).
Proof.
  intros K (F1 & E1 & B1) (F2 & E2 & B2) L. destruct (fadd_in k v w K F1 F2) as (G1 & _ & G2 & G3); [apply Rle_trans with (1 := Rabs_triang _ _); lra|].
  split; [exact G1|]. split; [|exact G3]. replace (B2R (fadd v w) - (x + y)) with ((B2R (fadd v w) - (B2R v + B2R w)) + ((B2R v - x) + (B2R w - y))) by ring.
  apply Rle_trans with (1 := Rabs_triang _ _). pose proof (Rabs_triang (B2R v - x) (B2R w - y)). lra.
Qed.
Lemma ap_sub k v w x y e f A B : (-1000 <= k <= 1000)%Z -> ap v x e A -> ap w y f B -> A + B <= bpow radix2 k ->
  ap (fsub v w) (x - y) (e + f + bpow radix2 (k - 54)) (bpow radix2 k).
Proof.
  intros K (F1 & E1 & B1) (F2 & E2 & B2) L.
  destruct (fsub_in k v w K F1 F2) as (G1 & _ & G2 & G3); [apply Rle_trans with (1 := Rabs_triang _ _); rewrite Rabs_Ropp; lra|].
  split; [exact G1|]. split; [|exact G3]. replace (B2R (fsub v w) - (x - y)) with ((B2R (fsub v w) - (B2R v - B2R w)) + ((B2R v - x) + - (B2R w - y))) by ring.
  apply Rle_trans with (1 := Rabs_triang _ _). pose proof (Rabs_triang (B2R v - x) (- (B2R w - y))) as T. rewrite Rabs_Ropp in T. lra.
Qed.
Lemma ap_mul k v w x y e f A B : (-1000 <= k <= 1000)%Z -> ap v x e A -> ap w y f B -> Rabs x <= A -> A * B <= bpow radix2 k ->
  ap (fmul v w) (x * y) (A * f + B * e + bpow radix2 (k - 54)) (bpow radix2 k).
Proof.
  intros K (F1 & E1 & B1) (F2 & E2 & B2) X L. assert (0 <= A) by (pose proof (Rabs_pos x); lra). assert (0 <= B) by (pose proof (Rabs_pos (B2R w)); lra).
  destruct (fmul_in k v w K F1 F2) as (G1 & _ & G2 & G3).
  { rewrite Rabs_mult. apply Rle_trans with (A * B); [|exact L]. apply Rmult_le_compat; auto using Rabs_pos. }
  split; [exact G1|]. split; [|exact G3].
  replace (B2R (fmul v w) - x * y) with ((B2R (fmul v w) - B2R v * B2R w) + (x * (B2R w - y) + B2R w * (B2R v - x))) by ring.
  apply Rle_trans with (1 := Rabs_triang _ _). pose proof (Rabs_triang (x * (B2R w - y)) (B2R w * (B2R v - x))) as T. rewrite !Rabs_mult in T.
  assert (Rabs x * Rabs (B2R w - y) <= A * f) by (apply Rmult_le_compat; auto using Rabs_pos).
  assert (Rabs (B2R w) * Rabs (B2R v - x) <= B * e) by (apply Rmult_le_compat; auto using Rabs_pos). lra.
Qed.
Lemma ap_neg v x e A : ap v x e A -> ap (fneg v) (- x) e A.
Proof.
  intros (F & E & B). unfold fneg. split; [now rewrite is_finite_Bopp|]. rewrite B2R_Bopp, Rabs_Ropp. split; [|exact B].
  replace (- B2R v - - x) with (- (B2R v - x)) by ring. now rewrite Rabs_Ropp.
Qed.
Lemma ap_exact v : is_finite v = true -> forall A, Rabs (B2R v) <= A -> ap v (B2R v) 0 A.
Proof. intros F A B. split; [exact F|]. rewrite Rminus_eq_0, Rabs_R0. lra. Qed.

(** Constants. *)
Lemma number_value m e H : B2R (number m e H) = IZR (Zpos m) * bpow radix2 e /\ is_finite (number m e H) = true.
Proof. unfold number. rewrite B2R_SF2B, is_finite_SF2B. split; reflexivity. Qed.
Ltac constant := split; [|reflexivity]; unfold f1, f2, f3, fhalf, f180; rewrite (proj1 (number_value _ _ _)); unfold bpow; cbn [radix2 radix_val Z.pow_pos Pos.iter Z.mul Pos.mul]; lra.
Lemma f1_is : B2R f1 = 1 /\ is_finite f1 = true. Proof. constant. Qed.
Lemma f2_is : B2R f2 = 2 /\ is_finite f2 = true. Proof. constant. Qed.
Lemma f3_is : B2R f3 = 3 /\ is_finite f3 = true. Proof. constant. Qed.
Lemma fhalf_is : B2R fhalf = / 2 /\ is_finite fhalf = true. Proof. constant. Qed.
Lemma f180_is : B2R f180 = 180 /\ is_finite f180 = true. Proof. constant. Qed.

Notation u53 := (bpow radix2 (-53)).
Lemma root_half f n H x : B2R f = x -> is_finite f = true -> f = number n (-51) H -> 0 < x <= 4 -> ap (fdiv (fsqrt f) f2) (sqrt x / 2) u53 1.
Proof.
  intros V F N X. assert (S2 : 0 <= sqrt x <= 2).
  { split; [apply sqrt_pos|]. rewrite <- (sqrt_square 2) by lra. apply sqrt_le_1; lra. }
  destruct (Bsqrt_correct 53 1024 _ _ mode_NE f) as (B & FS & _). rewrite round_mode_is, V in B. fold (fsqrt f) in B, FS.
  assert (FS' : is_finite (fsqrt f) = true) by (rewrite FS, N; reflexivity).
  assert (W : within 1 (fsqrt f) (sqrt x)) by (apply within_rnd; [lia|rewrite Rabs_pos_eq by lra; change (bpow radix2 1) with 2; lra|exact FS'|exact B]).
  destruct W as (_ & _ & E & M). change (bpow radix2 1) with 2 in M. change (1 - 54)%Z with (-53)%Z in E.
  destruct f2_is as (T & FT).
  destruct (fdiv_in 0 (fsqrt f) f2 ltac:(lia) FS') as (G1 & _ & G2 & G3); [lra|rewrite T; unfold Rdiv; rewrite Rabs_mult, (Rabs_pos_eq (/ 2)) by lra; cbn; lra|].
  rewrite T in G2. change (bpow radix2 0) with 1 in G3. change (0 - 54)%Z with (-54)%Z in G2. repeat split; [exact G1| |exact G3].
  replace (B2R (fdiv (fsqrt f) f2) - sqrt x / 2) with ((B2R (fdiv (fsqrt f) f2) - B2R (fsqrt f) / 2) + (B2R (fsqrt f) - sqrt x) * / 2) by lra.
  apply Rle_trans with (1 := Rabs_triang _ _). rewrite Rabs_mult, (Rabs_pos_eq (/ 2)) by lra.
  assert (U : u53 = 2 * bpow radix2 (-54)) by (change (-53)%Z with (1 + -54)%Z; rewrite bpow_plus; reflexivity). lra.
Qed.
Definition close4 (s' : fquat) (s : quat) : Prop := ap (fw s') (qw s) u53 1 /\ ap (fx s') (qx s) u53 1 /\ ap (fy s') (qy s) u53 1 /\ ap (fz s') (qz s) u53 1.
Lemma ap_f0 : ap f0 0 u53 1.
Proof. split; [reflexivity|]. change (B2R f0) with 0. rewrite Rminus_eq_0, Rabs_R0. split; [apply bpow_ge_0|lra]. Qed.
Lemma ap_f1 : ap f1 1 u53 1.
Proof. destruct f1_is as (V & F). split; [exact F|split]; [rewrite V, Rminus_eq_0, Rabs_R0; apply bpow_ge_0|rewrite V, Rabs_pos_eq; lra]. Qed.
Lemma ap_half : ap fhalf (/ 2) u53 1.
Proof. destruct fhalf_is as (V & F). split; [exact F|split]; [rewrite V, Rminus_eq_0, Rabs_R0; apply bpow_ge_0|rewrite V, Rabs_pos_eq; lra]. Qed.
Lemma ap_r2 : ap over_root2_f over_root2 u53 1.
Proof. exact (root_half f2 4503599627370496%positive eq_refl 2 (proj1 f2_is) (proj2 f2_is) eq_refl ltac:(lra)). Qed.
Lemma ap_r3 : ap sqrt3over2_f sqrt3over2 u53 1.
Proof. exact (root_half f3 6755399441055744%positive eq_refl 3 (proj1 f3_is) (proj2 f3_is) eq_refl ltac:(lra)). Qed.

(** The symmetries. *)
Lemma Quat_pos w x y z : 0 <= w -> Quat false (Q4 w x y z) = Q4 w x y z.
Proof. intros P. unfold Quat. cbn [qw]. destruct (Rlt_dec w 0); [lra|reflexivity]. Qed.
Lemma root2_pos : 0 <= over_root2.
Proof. unfold over_root2. pose proof (sqrt_pos 2). lra. Qed.
Lemma root3_pos : 0 <= sqrt3over2.
Proof. unfold sqrt3over2. pose proof (sqrt_pos 3). lra. Qed.
Lemma syms_close g : Forall2 close4 (syms_f g) (sym_eqv g).
Proof.
  pose proof ap_f0 as A0. pose proof ap_f1 as A1. pose proof ap_half as AH. pose proof ap_r2 as A2. pose proof ap_r3 as A3.
  pose proof (ap_neg _ _ _ _ AH) as NH. pose proof (ap_neg _ _ _ _ A2) as N2. pose proof (ap_neg _ _ _ _ A3) as N3.
  pose proof root2_pos as P2. pose proof root3_pos as P3.
  unfold syms_f, sym_eqv. destruct (String.eqb g "cubic"); [|destruct (String.eqb g "hexagonal")].
  - unfold cubic_f, cubic_symmetries. cbv zeta. cbn [map]. rewrite !Quat_pos by lra.
    repeat (apply Forall2_cons; [repeat (split; [assumption|]); assumption|]). apply Forall2_nil.
  - unfold hexagonal_f, hexagonal_symmetries. cbv zeta. cbn [map]. rewrite !Quat_pos by lra.
    repeat (apply Forall2_cons; [repeat (split; [assumption|]); assumption|]). apply Forall2_nil.
  - rewrite Quat_pos by lra. apply Forall2_cons; [|apply Forall2_nil]. repeat (split; [assumption|]); assumption.
Qed.

(** Quaternions near quaternions. *)
Definition near4 (c' : fquat) (c : quat) (e A : R) : Prop := ap (fw c') (qw c) e A /\ ap (fx c') (qx c) e A /\ ap (fy c') (qy c) e A /\ ap (fz c') (qz c) e A.
Lemma sound_near q : sound q -> near4 q (value q) 0 2.
Proof.
  intros ((F1 & F2 & F3 & F4) & N). unfold dot, value in N. cbn [qw qx qy qz] in N.
  assert (B : forall r, r * r <= 5 / 4 -> Rabs r <= 2) by (intros r L; apply Rabs_le; split; nra).
  unfold near4, value. cbn [qw qx qy qz].
  pose proof (Rle_0_sqr (B2R (fw q))) as S1. pose proof (Rle_0_sqr (B2R (fx q))) as S2. pose proof (Rle_0_sqr (B2R (fy q))) as S3. pose proof (Rle_0_sqr (B2R (fz q))) as S4.
  unfold Rsqr in *. split; [|split; [|split]]; apply ap_exact; try assumption; apply B; lra.
Qed.
Lemma near_neg c' c e A : near4 c' c e A -> near4 (fqneg c') (qneg c) e A.
Proof. intros (A1 & A2 & A3 & A4). unfold near4, fqneg, qneg. cbn [fw fx fy fz qw qx qy qz]. split; [|split; [|split]]; apply ap_neg; assumption. Qed.
Definition raw (s q : quat) : quat := Q4
    (qw q * qw s - qx q * qx s - qy q * qy s - qz q * qz s)
    (qw q * qx s + qx q * qw s - qy q * qz s + qz q * qy s)
    (qw q * qy s + qy q * qw s - qz q * qx s + qx q * qz s)
    (qw q * qz s + qz q * qw s - qx q * qy s + qy q * qx s).
Lemma u_step k : bpow radix2 (k + 1) = 2 * bpow radix2 k.
Proof. rewrite bpow_plus. change (bpow radix2 1) with 2. lra. Qed.
Lemma us : bpow radix2 (-52) = 2 * u53 /\ bpow radix2 (-51) = 4 * u53 /\ bpow radix2 (-50) = 8 * u53.
Proof. pose proof (u_step (-53)) as A. pose proof (u_step (-52)) as B. pose proof (u_step (-51)) as C. cbn [Z.add Z.pos_sub Pos.pred_double] in A, B, C. lra. Qed.
Lemma prod_ap a s x y : ap a x 0 2 -> Rabs x <= 2 -> ap s y u53 1 -> ap (fmul a s) (x * y) (3 * u53) 2.
Proof.
  intros A X B. pose proof (ap_mul 1 a s x y _ _ _ _ ltac:(lia) A B X ltac:(cbn; lra)) as P. change (bpow radix2 1) with 2 in P. change (1 - 54)%Z with (-53)%Z in P.
  apply ap_weak with (1 := P); lra.
Qed.
Lemma ap_bound v x A : ap v x 0 A -> Rabs x <= A.
Proof. intros (_ & E & B). pose proof (Rabs_pos (B2R v - x)) as P. replace x with (B2R v); [exact B|]. destruct (Req_dec (B2R v - x) 0) as [Z|NZ]; [lra|]. apply Rabs_pos_lt in NZ. lra. Qed.
Lemma add3 a b c d x y z t (o1 o2 : bool) :
  ap a x (3 * u53) 2 -> ap b y (3 * u53) 2 -> ap c z (3 * u53) 2 -> ap d t (3 * u53) 2 ->
  ap (fsub (fsub (fsub a b) c) d) (x - y - z - t) (28 * u53) 16 /\ ap (fadd (fsub (fadd a b) c) d) (x + y - z + t) (28 * u53) 16.
Proof.
  intros A B C D. destruct us as (U2 & U1 & U0).
  assert (P2 : bpow radix2 2 = 4) by reflexivity. assert (P3 : bpow radix2 3 = 8) by reflexivity. assert (P4 : bpow radix2 4 = 16) by reflexivity.
  split.
  - pose proof (ap_sub 2 _ _ _ _ _ _ _ _ ltac:(lia) A B ltac:(lra)) as S1. pose proof (ap_sub 3 _ _ _ _ _ _ _ _ ltac:(lia) S1 C ltac:(lra)) as S2.
    pose proof (ap_sub 4 _ _ _ _ _ _ _ _ ltac:(lia) S2 D ltac:(lra)) as S3. apply ap_weak with (1 := S3); cbn [Z.sub Z.add Z.opp Z.pos_sub Pos.pred_double Pos.succ Pos.add Z.succ_double Z.pred_double Z.double]; try lra.
    change (2 - 54)%Z with (-52)%Z. change (3 - 54)%Z with (-51)%Z. change (4 - 54)%Z with (-50)%Z. pose proof (bpow_gt_0 radix2 (-53)). lra.
  - pose proof (ap_add 2 _ _ _ _ _ _ _ _ ltac:(lia) A B ltac:(lra)) as S1. pose proof (ap_sub 3 _ _ _ _ _ _ _ _ ltac:(lia) S1 C ltac:(lra)) as S2.
    pose proof (ap_add 4 _ _ _ _ _ _ _ _ ltac:(lia) S2 D ltac:(lra)) as S3. apply ap_weak with (1 := S3); try lra.
    change (2 - 54)%Z with (-52)%Z. change (3 - 54)%Z with (-51)%Z. change (4 - 54)%Z with (-50)%Z. pose proof (bpow_gt_0 radix2 (-53)). lra.
Qed.
Lemma comps_near s' s n : close4 s' s -> sound n -> exists c, (c = raw s (value n) \/ c = qneg (raw s (value n))) /\ near4 (comps_f s' n) c (28 * u53) 16.
Proof.
  intros (S1 & S2 & S3 & S4) N. destruct (sound_near n N) as (N1 & N2 & N3 & N4).
  set (R1 := ap_bound _ _ _ N1). set (R2 := ap_bound _ _ _ N2). set (R3 := ap_bound _ _ _ N3). set (R4 := ap_bound _ _ _ N4).
  set (P := prod_ap).
  assert (Q : near4 (F4
    (fsub (fsub (fsub (fmul (fw n) (fw s')) (fmul (fx n) (fx s'))) (fmul (fy n) (fy s'))) (fmul (fz n) (fz s')))
    (fadd (fsub (fadd (fmul (fw n) (fx s')) (fmul (fx n) (fw s'))) (fmul (fy n) (fz s'))) (fmul (fz n) (fy s')))
    (fadd (fsub (fadd (fmul (fw n) (fy s')) (fmul (fy n) (fw s'))) (fmul (fz n) (fx s'))) (fmul (fx n) (fz s')))
    (fadd (fsub (fadd (fmul (fw n) (fz s')) (fmul (fz n) (fw s'))) (fmul (fx n) (fy s'))) (fmul (fy n) (fx s')))) (raw s (value n)) (28 * u53) 16).
  { unfold near4, raw. cbn [fw fx fy fz qw qx qy qz].
    split; [|split; [|split]]; (eapply (fun a b c d x y z t h1 h2 h3 h4 => proj1 (add3 a b c d x y z t true true h1 h2 h3 h4)) || eapply (fun a b c d x y z t h1 h2 h3 h4 => proj2 (add3 a b c d x y z t true true h1 h2 h3 h4))); apply P; assumption. }
  unfold comps_f. cbv zeta. cbn [fw]. match goal with |- context [if ?b then _ else _] => destruct b end.
  - exists (qneg (raw s (value n))). split; [now right|]. now apply near_neg.
  - exists (raw s (value n)). split; [now left|exact Q].
Qed.
Lemma dot_neg q c : Rabs (dot q (qneg c)) = Rabs (dot q c).
Proof. rewrite <- (Rabs_Ropp (dot q c)). f_equal. unfold dot, qneg. cbn [qw qx qy qz]. ring. Qed.
Lemma dot_comps q s n : Rabs (dot q (sym_comps s n)) = Rabs (dot q (raw s n)).
Proof. change (sym_comps s n) with (if Rlt_dec (qw (raw s n)) 0 then qneg (raw s n) else raw s n). destruct (Rlt_dec (qw (raw s n)) 0); [apply dot_neg|reflexivity]. Qed.

Notation u44 := (bpow radix2 (-44)).
Lemma u44_is : u44 = 512 * u53.
Proof. change (-44)%Z with (9 + -53)%Z. rewrite bpow_plus. reflexivity. Qed.
(** A sum of products with a quaternion near another. *)
Lemma dot_near q c' c v : sound q -> near4 c' c (28 * u53) 16 -> sums (pairs q c') v ->
  is_finite v = true /\ Rabs (B2R (fabs v) - Rabs (dot (value q) c)) <= u44.
Proof.
  intros SQ (C1 & C2 & C3 & C4) SM. destruct (sound_near q SQ) as (Q1 & Q2 & Q3 & Q4').
  pose proof (ap_bound _ _ _ Q1) as R1. pose proof (ap_bound _ _ _ Q2) as R2. pose proof (ap_bound _ _ _ Q3) as R3. pose proof (ap_bound _ _ _ Q4') as R4.
  assert (TI : forall a b x y, ap a x 0 2 -> ap b y (28 * u53) 16 -> term_in 5 (a, b)).
  { intros a b x y (FA & _ & BA) (FB & _ & BB). split; [exact FA|]. split; [exact FB|]. cbn [fst snd]. rewrite Rabs_mult. change (bpow radix2 5) with 32.
    apply Rle_trans with (2 * 16); [|lra]. apply Rmult_le_compat; auto using Rabs_pos. }
  destruct (sums_err 5 _ _ ltac:(lia) SM) as (F & _ & _ & E).
  { repeat (apply Forall_cons; [eapply TI; eassumption|]). apply Forall_nil. }
  { cbn. lia. }
  split; [exact F|]. unfold fabs. rewrite B2R_Babs.
  apply Rle_trans with (1 := Rabs_triang_inv2 _ _).
  replace (B2R v - dot (value q) c) with ((B2R v - total (pairs q c')) + (total (pairs q c') - dot (value q) c)) by ring.
  apply Rle_trans with (1 := Rabs_triang _ _). unfold pairs in E at 2. cbn [List.length INR] in E. change (5 - 54)%Z with (4 + -53)%Z in E. rewrite bpow_plus in E. change (bpow radix2 4) with 16 in E.
  assert (T : Rabs (total (pairs q c') - dot (value q) c) <= 224 * u53).
  { unfold total, pairs, dot. cbn [map fold_right fst snd].
    assert (M : forall a b x y, ap a x 0 2 -> ap b y (28 * u53) 16 -> Rabs (B2R a * B2R b - B2R a * y) <= 56 * u53).
    { intros a b x y (_ & _ & BA) (_ & EB & _). replace (B2R a * B2R b - B2R a * y) with (B2R a * (B2R b - y)) by ring. rewrite Rabs_mult.
      apply Rle_trans with (2 * (28 * u53)); [|lra]. apply Rmult_le_compat; auto using Rabs_pos. }
    pose proof (M _ _ _ _ Q1 C1) as M1. pose proof (M _ _ _ _ Q2 C2) as M2. pose proof (M _ _ _ _ Q3 C3) as M3. pose proof (M _ _ _ _ Q4' C4) as M4.
    unfold value. cbn [qw qx qy qz]. apply Rabs_le_inv in M1. apply Rabs_le_inv in M2. apply Rabs_le_inv in M3. apply Rabs_le_inv in M4. apply Rabs_le. lra. }
  rewrite u44_is. unfold pairs in E. cbv iota in E. change (total [(fw q, fw c'); (fx q, fx c'); (fy q, fy c'); (fz q, fz c')]) with (total (pairs q c')) in E.
  pose proof (bpow_gt_0 radix2 (-53)). lra.
Qed.
