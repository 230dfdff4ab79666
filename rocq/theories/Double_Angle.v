(** From sums of products to misorientations. *)
From Coq Require Import String Reals Lra Psatz Machin.
From Coq Require Import List ZArith Bool Lia Permutation.
From Flocq Require Import Core IEEE754.BinarySingleNaN.
From Verif Require Import Grid Quat_Model Boundary_Model Double_Model Double_Spec Double_Proofs.
Import ListNotations.
Open Scope R_scope.

(** Clipping and maxima. *)
Lemma flt_is a b : is_finite a = true -> is_finite b = true -> flt a b = Rlt_bool (B2R a) (B2R b).
Proof. apply Bltb_correct. Qed.
Lemma clip_is c : is_finite c = true -> is_finite (clip_f c) = true /\ B2R (clip_f c) = clip1 (B2R c).
Proof.
  intros F. destruct f1_is as (V & F1). unfold clip_f, clip1. rewrite flt_is, V by assumption.
  destruct (Rlt_bool_spec 1 (B2R c)) as [L|L]; destruct (Rlt_dec 1 (B2R c)) as [L'|L']; try lra; auto.
Qed.
Lemma clip_near a b e : Rabs (a - b) <= e -> Rabs (clip1 a - clip1 b) <= e.
Proof.
  intros B. apply Rabs_le_inv in B. apply Rabs_le. unfold clip1. destruct (Rlt_dec 1 a), (Rlt_dec 1 b); lra.
Qed.
Lemma not_nan (a : f64) : is_finite a = true -> is_nan a = false.
Proof. destruct a; auto; discriminate. Qed.
Lemma fmax2_is a b : is_finite a = true -> is_finite b = true -> is_finite (fmax2 a b) = true /\ B2R (fmax2 a b) = Rmax (B2R a) (B2R b).
Proof.
  intros FA FB. unfold fmax2. rewrite (not_nan _ FA), (not_nan _ FB), flt_is by assumption.
  destruct (Rlt_bool_spec (B2R a) (B2R b)) as [L|L]; [rewrite Rmax_right by lra|rewrite Rmax_left by lra]; auto.
Qed.
Definition tight (e : R) (v : f64) (x : R) : Prop := is_finite v = true /\ Rabs (B2R v - x) <= e /\ 0 <= B2R v <= 1 /\ 0 <= x <= 1.
Lemma fmax_near e l m : Forall2 (tight e) l m -> m <> [] -> tight e (fmax l) (rmax m).
Proof.
  intros FO NE. destruct FO as [|a x l m H FO]; [congruence|]. clear NE. unfold fmax, rmax. revert a x H. induction FO as [|b y l m HB FO IH]; intros a x H; [exact H|].
  cbn [fold_left]. apply IH. destruct H as (FA & EA & BA & XA). destruct HB as (FB & EB & BB & XB). destruct (fmax2_is a b FA FB) as (F & E).
  split; [exact F|]. rewrite E. apply Rabs_le_inv in EA. apply Rabs_le_inv in EB. split; [apply Rabs_le|]; unfold Rmax; destruct (Rle_dec (B2R a) (B2R b)), (Rle_dec x y); lra.
Qed.

(** The arc cosine. *)
Lemma cos_small t : 0 <= t <= PI / 4 -> / 2 <= cos t.
Proof.
  intros (A & B). pose proof PI_RGT_0. apply Rle_trans with (cos (PI / 3)); [rewrite cos_PI3; lra|]. apply cos_decr_1; lra.
Qed.
Lemma sin_half t : 0 <= t <= PI / 4 -> t / 2 <= sin t.
Proof.
  intros (A & B). destruct A as [A| <-]; [|rewrite sin_0; lra].
  destruct (MVT_cor2 sin cos 0 t A) as (c & E & C1 & C2); [intros; apply derivable_pt_lim_sin|]. rewrite sin_0 in E.
  pose proof (cos_small c ltac:(lra)). nra.
Qed.
Lemma acos_le a b : -1 <= b -> b <= a -> a <= 1 -> acos a <= acos b.
Proof.
  intros B L A. destruct (Rle_dec (acos a) (acos b)) as [O|O]; [exact O|exfalso]. pose proof (acos_bound a). pose proof (acos_bound b).
  pose proof (cos_decreasing_1 (acos b) (acos a) ltac:(lra) ltac:(lra) ltac:(lra) ltac:(lra) ltac:(lra)) as D. rewrite !cos_acos in D by lra. lra.
Qed.
Lemma acos_range x : 0 <= x <= 1 -> 0 <= acos x <= PI / 2.
Proof. intros (A & B). split; [apply acos_bound|]. rewrite <- acos_0. apply acos_le; lra. Qed.
Lemma acos_near1 a b d : 0 <= b <= 1 -> 0 <= a <= 1 -> b <= a -> a - b <= d -> (acos b - acos a) * (acos b - acos a) <= 8 * d /\ acos a <= acos b.
Proof.
  intros RB RA L D. pose proof (acos_range a RA) as A. pose proof (acos_range b RB) as B. pose proof PI_RGT_0 as P.
  assert (O : acos a <= acos b) by (apply acos_le; lra).
  split; [|exact O].
  pose proof (cos_acos a ltac:(lra)) as CA. pose proof (cos_acos b ltac:(lra)) as CB.
  set (x := acos a) in *. set (y := acos b) in *.
  set (t := (y - x) / 2). pose proof (sin_half t ltac:(unfold t; lra)) as T.
  assert (F : cos x - cos y = 2 * sin t * sin ((x + y) / 2)).
  { unfold t. rewrite (form2 x y). replace ((y - x) / 2) with (- ((x - y) / 2)) by field. rewrite sin_neg. ring. }
  assert (S2 : sin t <= sin ((x + y) / 2)). { apply sin_incr_1; unfold t; lra. }
  assert (T0 : 0 <= t) by (unfold t; lra). assert (2 * (t / 2) * (t / 2) <= 2 * sin t * sin ((x + y) / 2)) by nra.
  assert (2 * (t / 2) * (t / 2) <= d) by lra. unfold t in *. nra.
Qed.
Lemma acos_near a b : 0 <= b <= 1 -> 0 <= a <= 1 -> Rabs (a - b) <= u44 -> Rabs (acos a - acos b) <= bpow radix2 (-20).
Proof.
  intros RB RA D. apply Rabs_le_inv in D. assert (K : 8 * u44 <= bpow radix2 (-20) * bpow radix2 (-20)).
  { rewrite <- bpow_plus. change 8 with (bpow radix2 3). rewrite <- bpow_plus. apply bpow_le. lia. }
  pose proof (bpow_gt_0 radix2 (-20)) as P.
  destruct (Rle_dec b a) as [L|L].
  - destruct (acos_near1 a b u44 RB RA L ltac:(lra)) as (E & O). apply Rabs_le. split; nra.
  - destruct (acos_near1 b a u44 RA RB ltac:(lra) ltac:(lra)) as (E & O). apply Rabs_le. split; nra.
Qed.

(** The number pi. *)
Lemma pi_near : Rabs (B2R fpi - PI) <= / 1000000.
Proof.
  unfold fpi. rewrite (proj1 (number_value _ _ _)). pose proof (PI_2_3_7_ineq 3) as (A & B).
  cbn [Nat.mul Nat.add sum_f_R0] in A, B. unfold tg_alt, PI_2_3_7_tg, Ratan_seq in A, B. cbn [Nat.mul Nat.add INR pow] in A, B.
  unfold bpow. cbn [radix2 radix_val Z.pow_pos Pos.iter Z.mul Pos.mul]. apply Rabs_le. lra.
Qed.

(** Neighbours. *)
Lemma tight_of q c' c v : sound q -> sums (pairs q c') v -> (exists c0, near4 c' c0 (28 * u53) 16 /\ Rabs (dot (value q) c0) = Rabs (dot (value q) c)) ->
  tight u44 (clip_f (fabs v)) (clip1 (Rabs (dot (value q) c))).
Proof.
  intros SQ SM (c0 & N & E). destruct (dot_near q c' c0 v SQ N SM) as (F & D). rewrite E in D.
  assert (FA : is_finite (fabs v) = true) by (unfold fabs; now rewrite is_finite_Babs).
  destruct (clip_is _ FA) as (FC & VC). split; [exact FC|]. rewrite VC. split; [now apply clip_near|].
  pose proof (Rabs_pos (dot (value q) c)) as P1. assert (P2 : 0 <= B2R (fabs v)) by (unfold fabs; rewrite B2R_Babs; apply Rabs_pos).
  unfold clip1. destruct (Rlt_dec 1 (B2R (fabs v))), (Rlt_dec 1 (Rabs (dot (value q) c))); lra.
Qed.
Lemma sound_near_self n : sound n -> near4 n (value n) (28 * u53) 16.
Proof.
  intros N. destruct (sound_near n N) as (A & B & C & D). pose proof (bpow_gt_0 radix2 (-53)). split; [|split; [|split]]; (eapply ap_weak; [eassumption|lra|lra]).
Qed.
Section Angles.
Variable dot_f : Z -> pix -> nat -> fquat -> fquat -> f64.
Variable arccos : f64 -> f64.
Hypothesis DOT : forall d p i, any_order (dot_f d p i).
Hypothesis ACOS : good_arccos arccos.
Lemma row_tight d p q (SQ : sound q) cs' cs : Forall2 (fun c' c => exists c0, near4 c' c0 (28 * u53) 16 /\ Rabs (dot (value q) c0) = Rabs (dot (value q) c)) cs' cs ->
  forall k, Forall2 (tight u44) (map (fun ic => clip_f (fabs (dot_f d p (fst ic) q (snd ic)))) (combine (seq k (List.length cs')) cs')) (map (fun c => clip1 (Rabs (dot (value q) c))) cs).
Proof.
  induction 1 as [|c' c cs' cs H FO IH]; intros k; [apply Forall2_nil|]. cbn [List.length seq combine map fst snd]. apply Forall2_cons; [|apply IH].
  apply tight_of with (c' := c'); [exact SQ|apply DOT|exact H].
Qed.
Lemma group_row g n (SN : sound n) q : Forall2 (fun c' c => exists c0, near4 c' c0 (28 * u53) 16 /\ Rabs (dot (value q) c0) = Rabs (dot (value q) c))
  (n :: map (fun s => comps_f s n) (tl (syms_f g))) (value n :: map (fun s => sym_comps s (value n)) (tl (sym_eqv g))).
Proof.
  apply Forall2_cons; [exists (value n); split; [now apply sound_near_self|reflexivity]|].
  assert (T : Forall2 close4 (tl (syms_f g)) (tl (sym_eqv g))) by (pose proof (syms_close g) as S0; destruct S0; [apply Forall2_nil|assumption]).
  induction T as [|s' s l' l H FO IH]; [apply Forall2_nil|]. cbn [map]. apply Forall2_cons; [|exact IH].
  destruct (comps_near s' s n H SN) as (c & C & N). exists c. split; [exact N|]. rewrite dot_comps. destruct C as [-> | ->]; [reflexivity|apply dot_neg].
Qed.
Lemma syms_len g : List.length (syms_f g) = S (List.length (tl (syms_f g))).
Proof. unfold syms_f. destruct (String.eqb g "cubic"); [reflexivity|]. destruct (String.eqb g "hexagonal"); reflexivity. Qed.
Lemma powers : / 2 ^ 50 <= / 1000000000 /\ bpow radix2 (-20) <= / 1000000 /\ bpow radix2 (-52) <= / 1000000000 /\ bpow radix2 (-50) <= / 1000000000 /\ bpow radix2 (-59) <= / 1000000000000.
Proof. unfold bpow. cbn [radix2 radix_val Z.pow_pos Pos.iter Z.mul Pos.mul pow]. lra. Qed.
(** The argument of arccos. *)
Definition cosine_f d p g q n := fmax (map (fun ic => clip_f (fabs (dot_f d p (fst ic) q (snd ic))))
    (combine (seq 0 (List.length (syms_f g))) (n :: map (fun s => comps_f s n) (tl (syms_f g))))).
Lemma cosine_tight d p g q n : sound q -> sound n ->
  tight u44 (cosine_f d p g q n) (rmax (map (fun c => clip1 (Rabs (dot (value q) c))) (value n :: map (fun s => sym_comps s (value n)) (tl (sym_eqv g))))).
Proof.
  intros SQ SN. unfold cosine_f. apply fmax_near; [|discriminate]. rewrite syms_len.
  replace (S (List.length (tl (syms_f g)))) with (List.length (n :: map (fun s => comps_f s n) (tl (syms_f g)))) by (cbn [List.length]; now rewrite map_length).
  apply row_tight; [exact SQ|]. now apply group_row.
Qed.
Lemma misori_near d p g q n : sound q -> sound n ->
  is_finite (misori_f dot_f arccos d p (syms_f g) q n) = true /\
  Rabs (B2R (misori_f dot_f arccos d p (syms_f g) q n) - neighbour_misori (sym_eqv g) (value q) (value n)) <= / 400000.
Proof.
  intros SQ SN. destruct (cosine_tight d p g q n SQ SN) as (F & E & B & B'). change (misori_f dot_f arccos d p (syms_f g) q n) with (fmul f2 (arccos (cosine_f d p g q n))).
  unfold neighbour_misori. match type of E with Rabs (_ - ?m) <= _ => set (x := m) in * end.
  destruct (proj1 ACOS _ F B) as (FA & EA). pose proof (acos_near _ _ B' B E) as EC. destruct powers as (P1 & P2 & P3 & _).
  pose proof (acos_range _ B) as RG. pose proof PI2_3_2 as _. pose proof PI_4 as P4. destruct f2_is as (V2 & F2).
  apply Rabs_le_inv in EA. apply Rabs_le_inv in EC.
  destruct (fmul_in 2 f2 (arccos (cosine_f d p g q n)) ltac:(lia) F2 FA) as (G1 & _ & G2 & _).
  { rewrite V2. change (bpow radix2 2) with 4. pose proof pi_near as PN. apply Rabs_le_inv in PN.
    assert (B2R fpi <= 3.1416) by (unfold fpi; rewrite (proj1 (number_value _ _ _)); unfold bpow; cbn [radix2 radix_val Z.pow_pos Pos.iter Z.mul Pos.mul]; lra).
    apply Rabs_le. lra. }
  split; [exact G1|]. rewrite V2 in G2. change (2 - 54)%Z with (-52)%Z in G2. apply Rabs_le_inv in G2. apply Rabs_le. lra.
Qed.
Lemma tol_near tol : is_finite tol = true -> 0 <= B2R tol <= 360 ->
  is_finite (tol_f tol) = true /\ 0 <= B2R (tol_f tol) /\ Rabs (B2R (tol_f tol) - B2R tol * (PI / 180)) <= / 400000.
Proof.
  intros FT RT. destruct f180_is as (V & F). pose proof pi_near as PN. apply Rabs_le_inv in PN.
  assert (PV : 3.1415 <= B2R fpi <= 3.1416) by (unfold fpi; rewrite (proj1 (number_value _ _ _)); unfold bpow; cbn [radix2 radix_val Z.pow_pos Pos.iter Z.mul Pos.mul]; lra).
  destruct (fdiv_in (-5) fpi f180 ltac:(lia) eq_refl) as (G1 & G0 & G2 & G3); [lra|rewrite V; apply Rabs_le; change (bpow radix2 (-5)) with (/ 32); lra|].
  rewrite V in G0, G2. change (-5 - 54)%Z with (-59)%Z in G2. change (bpow radix2 (-5)) with (/ 32) in G3. apply Rabs_le_inv in G2. apply Rabs_le_inv in G3.
  destruct powers as (_ & _ & _ & P3 & P4). set (k := B2R (fdiv fpi f180)) in *.
  destruct (fmul_in 4 tol (fdiv fpi f180) ltac:(lia) FT G1) as (H1 & H0 & H2 & _).
  { fold k. change (bpow radix2 4) with 16. apply Rabs_le. assert (0 <= k) by lra. nra. }
  fold k in H0, H2. change (4 - 54)%Z with (-50)%Z in H2. apply Rabs_le_inv in H2. unfold tol_f. split; [exact H1|]. split.
  - rewrite H0. rewrite <- (round_0 radix2 (SpecFloat.fexp 53 1024) ZnearestE). apply round_le; [apply (fexp_correct 53 1024); reflexivity|typeclasses eauto|]. assert (0 <= k) by lra. nra.
  - apply Rabs_le. assert (Rabs (B2R tol * k - B2R tol * (PI / 180)) <= 360 * / 160000000).
    { replace (B2R tol * k - B2R tol * (PI / 180)) with (B2R tol * (k - PI / 180)) by ring. rewrite Rabs_mult. apply Rmult_le_compat; [apply Rabs_pos|apply Rabs_pos|rewrite Rabs_pos_eq; lra|].
      apply Rabs_le. lra. }
    apply Rabs_le_inv in H. lra.
Qed.
Lemma edge_zero g : is_finite (edge_f arccos (syms_f g)) = true /\ B2R (edge_f arccos (syms_f g)) = 0.
Proof.
  assert (M : fmax (map (fun _ => f1) (syms_f g)) = f1) by (unfold syms_f; destruct (String.eqb g "cubic"); [vm_compute; reflexivity|]; destruct (String.eqb g "hexagonal"); vm_compute; reflexivity).
  unfold edge_f. rewrite M. destruct f1_is as (V & F). destruct f2_is as (V2 & F2). destruct (proj1 ACOS f1 F ltac:(lra)) as (FA & _). pose proof (proj2 ACOS) as Z.
  destruct (fmul_in 2 f2 (arccos f1) ltac:(lia) F2 FA) as (G1 & G0 & _ & _); [rewrite Z, Rmult_0_r, Rabs_R0; apply bpow_ge_0|].
  split; [exact G1|]. rewrite G0, Z, Rmult_0_r. apply round_0. typeclasses eauto.
Qed.
Lemma compare d p g q n tol : sound q -> sound n -> is_finite tol = true -> 0 <= B2R tol <= 360 -> clear_of g q n tol ->
  flt (tol_f tol) (misori_f dot_f arccos d p (syms_f g) q n) = gtb (neighbour_misori (sym_eqv g) (value q) (value n)) (B2R tol * (PI / 180)).
Proof.
  intros SQ SN FT RT CL. destruct (misori_near d p g q n SQ SN) as (FM & EM). destruct (tol_near tol FT RT) as (FL & _ & EL).
  rewrite flt_is by assumption. unfold clear_of in CL. set (m := neighbour_misori _ _ _) in *. set (m' := B2R (misori_f _ _ _ _ _ _ _)) in *. set (t' := B2R (tol_f tol)) in *.
  pose proof pi_near as PN. apply Rabs_le_inv in PN.
  assert (PV : 3.1415 <= B2R fpi <= 3.1416) by (unfold fpi; rewrite (proj1 (number_value _ _ _)); unfold bpow; cbn [radix2 radix_val Z.pow_pos Pos.iter Z.mul Pos.mul]; lra).
  assert (C' : / 60000 <= Rabs (m - B2R tol * (PI / 180))).
  { replace (m - B2R tol * (PI / 180)) with ((m * (180 / PI) - B2R tol) * (PI / 180)) by (field; lra). rewrite Rabs_mult, (Rabs_pos_eq (PI / 180)) by lra.
    apply Rle_trans with (/ 1000 * (PI / 180)); [lra|]. apply Rmult_le_compat_r; lra. }
  apply Rabs_le_inv in EM. apply Rabs_le_inv in EL. unfold gtb. destruct (Rlt_dec (B2R tol * (PI / 180)) m) as [L|L].
  - rewrite Rabs_pos_eq in C' by lra. apply Rlt_bool_true. lra.
  - rewrite Rabs_left1 in C' by lra. apply Rlt_bool_false. lra.
Qed.
Lemma edge_compare g tol : is_finite tol = true -> 0 <= B2R tol <= 360 -> flt (tol_f tol) (edge_f arccos (syms_f g)) = gtb edge_misori (B2R tol * (PI / 180)).
Proof.
  intros FT RT. destruct (edge_zero g) as (FE & VE). destruct (tol_near tol FT RT) as (FL & PL & _). rewrite flt_is, VE by assumption. rewrite Rlt_bool_false by lra.
  unfold gtb, edge_misori. rewrite acos_1. pose proof PI_RGT_0. destruct (Rlt_dec (B2R tol * (PI / 180)) (2 * 0)) as [L|L]; [|reflexivity].
  exfalso. assert (0 <= B2R tol * (PI / 180)) by (apply Rmult_le_pos; lra). lra.
Qed.
End Angles.

(** The scalar functions. *)
Lemma prod_ap2 s a x y : ap s y u53 1 -> ap a x 0 2 -> ap (fmul s a) (y * x) (3 * u53) 2.
Proof.
  intros (FS & ES & BS) A. pose proof (ap_bound _ _ _ A) as X. destruct A as (FA & EA & BA).
  destruct (fmul_in 1 s a ltac:(lia) FS FA) as (G1 & _ & G2 & G3).
  { rewrite Rabs_mult. change (bpow radix2 1) with 2. apply Rle_trans with (1 * 2); [|lra]. apply Rmult_le_compat; auto using Rabs_pos. }
  change (bpow radix2 1) with 2 in G3. change (1 - 54)%Z with (-53)%Z in G2. split; [exact G1|]. split; [|exact G3].
  replace (B2R (fmul s a) - y * x) with ((B2R (fmul s a) - B2R s * B2R a) + (B2R s * (B2R a - x) + x * (B2R s - y))) by ring.
  apply Rle_trans with (1 := Rabs_triang _ _). pose proof (Rabs_triang (B2R s * (B2R a - x)) (x * (B2R s - y))) as T. rewrite !Rabs_mult in T.
  assert (Rabs (B2R s) * Rabs (B2R a - x) <= 1 * 0) by (apply Rmult_le_compat; auto using Rabs_pos).
  assert (Rabs x * Rabs (B2R s - y) <= 2 * u53) by (apply Rmult_le_compat; auto using Rabs_pos). lra.
Qed.
Lemma dot3_ap s' s b v : close4 s' s -> sound b -> sums (tl (pairs s' b)) v -> ap v (vdot (qv s) (qv (value b))) (17 * u53) 6.
Proof.
  intros (_ & S2 & S3 & S4) SB SM. destruct (sound_near b SB) as (_ & N2 & N3 & N4). unfold pairs in SM. cbn [tl] in SM.
  assert (TI : forall a b x y, ap a x u53 1 -> ap b y 0 2 -> term_in 1 (a, b)).
  { intros a b0 x y (FA & _ & BA) (FB & _ & BB). split; [exact FA|]. split; [exact FB|]. cbn [fst snd]. rewrite Rabs_mult. change (bpow radix2 1) with 2.
    apply Rle_trans with (1 * 2); [|lra]. apply Rmult_le_compat; auto using Rabs_pos. }
  destruct (sums_err 1 _ _ ltac:(lia) SM) as (F & B & _ & E).
  { repeat (apply Forall_cons; [eapply TI; eassumption|]). apply Forall_nil. }
  { cbn. lia. }
  cbn [List.length INR] in B, E. change (bpow radix2 1) with 2 in B. change (1 - 54)%Z with (-53)%Z in E.
  split; [exact F|]. split; [|lra].
  assert (M : forall a b x y, ap a x u53 1 -> ap b y 0 2 -> Rabs (B2R a * B2R b - x * y) <= 2 * u53).
  { intros a b0 x y (_ & EA & _) HB. pose proof (ap_bound _ _ _ HB) as Y. destruct HB as (_ & EB & _).
    assert (B2R b0 = y). { pose proof (Rabs_pos (B2R b0 - y)). destruct (Req_dec (B2R b0 - y) 0) as [Z|NZ]; [lra|]. apply Rabs_pos_lt in NZ. lra. }
    rewrite H. replace (B2R a * y - x * y) with ((B2R a - x) * y) by ring. rewrite Rabs_mult. pose proof (bpow_gt_0 radix2 (-53)).
    apply Rle_trans with (u53 * 2); [|lra]. apply Rmult_le_compat; auto using Rabs_pos. }
  pose proof (M _ _ _ _ S2 N2) as M2. pose proof (M _ _ _ _ S3 N3) as M3. pose proof (M _ _ _ _ S4 N4) as M4.
  unfold total in E. cbn [map fold_right fst snd] in E. unfold vdot, qv. cbn [vx vy vz].
  apply Rabs_le_inv in M2. apply Rabs_le_inv in M3. apply Rabs_le_inv in M4. apply Rabs_le_inv in E. apply Rabs_le. lra.
Qed.
Definition raw_mul (a b : quat) : quat := Q4 (qw a * qw b - vdot (qv a) (qv b))
  ((qw a * qx b + qw b * qx a) + (qy a * qz b - qz a * qy b)) ((qw a * qy b + qw b * qy a) + (qz a * qx b - qx a * qz b)) ((qw a * qz b + qw b * qz a) + (qx a * qy b - qy a * qx b)).
Lemma dot_mul q a b : Rabs (dot q (quat_mul false a b)) = Rabs (dot q (raw_mul a b)).
Proof.
  change (quat_mul false a b) with (if Rlt_dec (qw (raw_mul a b)) 0 then qneg (raw_mul a b) else raw_mul a b).
  destruct (Rlt_dec (qw (raw_mul a b)) 0); [apply dot_neg|reflexivity].
Qed.
Lemma four a b c d x y z t : ap a x (3 * u53) 2 -> ap b y (3 * u53) 2 -> ap c z (3 * u53) 2 -> ap d t (3 * u53) 2 ->
  ap (fadd (fadd a b) (fsub c d)) ((x + y) + (z - t)) (28 * u53) 16.
Proof.
  intros A B C D. destruct us as (U2 & U1 & U0). assert (P2 : bpow radix2 2 = 4) by reflexivity. assert (P3 : bpow radix2 3 = 8) by reflexivity.
  pose proof (ap_add 2 _ _ _ _ _ _ _ _ ltac:(lia) A B ltac:(lra)) as S1. pose proof (ap_sub 2 _ _ _ _ _ _ _ _ ltac:(lia) C D ltac:(lra)) as S2.
  pose proof (ap_add 3 _ _ _ _ _ _ _ _ ltac:(lia) S1 S2 ltac:(lra)) as S3. apply ap_weak with (1 := S3); [|lra].
  change (2 - 54)%Z with (-52)%Z. change (3 - 54)%Z with (-51)%Z. pose proof (bpow_gt_0 radix2 (-53)). lra.
Qed.
Section Mis.
Variables dot3 dot4 : fquat -> fquat -> f64.
Hypothesis DOT3 : any_order3 dot3.
Hypothesis DOT4 : any_order dot4.
Lemma mul_near s' s b : close4 s' s -> sound b -> exists c, (c = raw_mul s (value b) \/ c = qneg (raw_mul s (value b))) /\ near4 (mul_f dot3 s' b) c (28 * u53) 16.
Proof.
  intros CS SB. pose proof (dot3_ap s' s b _ CS SB (DOT3 s' b)) as D. destruct CS as (S1 & S2 & S3 & S4). destruct (sound_near b SB) as (N1 & N2 & N3 & N4).
  pose proof (ap_bound _ _ _ N1) as R1. pose proof (ap_bound _ _ _ N2) as R2. pose proof (ap_bound _ _ _ N3) as R3. pose proof (ap_bound _ _ _ N4) as R4.
  assert (W : ap (fsub (fmul (fw s') (fw b)) (dot3 s' b)) (qw s * qw (value b) - vdot (qv s) (qv (value b))) (28 * u53) 16).
  { pose proof (prod_ap2 _ _ _ _ S1 N1) as P. destruct us as (U2 & U1 & U0). assert (P3 : bpow radix2 3 = 8) by reflexivity.
    pose proof (ap_sub 3 _ _ _ _ _ _ _ _ ltac:(lia) P D ltac:(lra)) as X. apply ap_weak with (1 := X); [|lra]. change (3 - 54)%Z with (-51)%Z. pose proof (bpow_gt_0 radix2 (-53)). lra. }
  assert (Q : near4 (F4 (fsub (fmul (fw s') (fw b)) (dot3 s' b))
    (fadd (fadd (fmul (fw s') (fx b)) (fmul (fw b) (fx s'))) (fsub (fmul (fy s') (fz b)) (fmul (fz s') (fy b))))
    (fadd (fadd (fmul (fw s') (fy b)) (fmul (fw b) (fy s'))) (fsub (fmul (fz s') (fx b)) (fmul (fx s') (fz b))))
    (fadd (fadd (fmul (fw s') (fz b)) (fmul (fw b) (fz s'))) (fsub (fmul (fx s') (fy b)) (fmul (fy s') (fx b))))) (raw_mul s (value b)) (28 * u53) 16).
  { unfold near4, raw_mul. cbn [fw fx fy fz qw qx qy qz]. split; [exact W|]. split; [|split]; apply four; first [apply prod_ap2; assumption | apply prod_ap; assumption]. }
  unfold mul_f. cbv zeta. cbn [fw]. match goal with |- context [if ?b then _ else _] => destruct b end.
  - exists (qneg (raw_mul s (value b))). split; [now right|]. now apply near_neg.
  - exists (raw_mul s (value b)). split; [now left|exact Q].
Qed.
Lemma mis_ori_near g a b : sound a -> sound b ->
  is_finite (mis_ori_f dot3 dot4 g a b) = true /\ 0 <= B2R (mis_ori_f dot3 dot4 g a b) /\ Rabs (B2R (mis_ori_f dot3 dot4 g a b) - mis_ori (value a) (value b) g) <= u44.
Proof.
  intros SA SB. unfold mis_ori_f, mis_ori, mis_ori_full.
  assert (I : forall l' l, Forall2 close4 l' l -> forall m' m, is_finite m' = true -> 0 <= B2R m' -> Rabs (B2R m' - fst m) <= u44 ->
    let r' := fold_left (fun m s => let c := fabs (dot4 a (mul_f dot3 s b)) in if flt m c then c else m) l' m' in
    let r := fold_left (mis_ori_step (value a) (value b)) l m in is_finite r' = true /\ 0 <= B2R r' /\ Rabs (B2R r' - fst r) <= u44).
  2:{ apply (I _ _ (syms_close g) f0 (0, None)); [reflexivity|cbn; lra|]. cbn [fst]. change (B2R f0) with 0. rewrite Rminus_0_r, Rabs_R0. apply bpow_ge_0. }
  induction 1 as [|s' s l' l C FO IH]; intros m' m F P E; [cbn [fold_left]; auto|]. cbn [fold_left]. cbv zeta in IH |- *.
  destruct (mul_near s' s b C SB) as (c & CC & N). destruct (dot_near a _ c _ SA N (DOT4 a (mul_f dot3 s' b))) as (FD & ED).
  assert (EQ : Rabs (dot (value a) c) = Rabs (dot (value a) (quat_mul false s (value b)))) by (rewrite dot_mul; destruct CC as [-> | ->]; [reflexivity|apply dot_neg]).
  rewrite EQ in ED. set (v := fabs (dot4 a (mul_f dot3 s' b))) in *. assert (FV : is_finite v = true) by (unfold v, fabs; now rewrite is_finite_Babs).
  assert (PV : 0 <= B2R v) by (unfold v, fabs; rewrite B2R_Babs; apply Rabs_pos).
  rewrite flt_is by assumption. unfold mis_ori_step at 2. cbv zeta. set (d := Rabs (dot (value a) (quat_mul false s (value b)))) in *.
  apply IH; destruct (Rlt_bool_spec (B2R m') (B2R v)), (Rlt_dec (fst m) d); cbn [fst]; try assumption; apply Rabs_le_inv in E; apply Rabs_le_inv in ED; apply Rabs_le; lra.
Qed.
End Mis.
