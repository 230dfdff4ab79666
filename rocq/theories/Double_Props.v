(** C126: misorientations, boundaries and grains in double precision. *)
From Coq Require Import String Reals Lra Psatz.
From Coq Require Import List ZArith Bool Lia.
From Flocq Require Import Core IEEE754.BinarySingleNaN.
From Verif Require Import Py Grid Quat_Model Boundary_Model Grid_Lemmas Boundary_Spec Boundary_Proofs Flood_Model Double_Model Double_Spec Double_Proofs Double_Angle.
Import ListNotations.
Open Scope R_scope.

(** The angle found for two neighbours is a number, not nan, and within 1/5000 degree of the angle
    without rounding, whatever the order of the sums. *)
Theorem C126_number : forall dot_f arccos, (forall d p i, any_order (dot_f d p i)) -> good_arccos arccos ->
  forall d p g q n, sound q -> sound n ->
  is_finite (misori_f dot_f arccos d p (syms_f g) q n) = true /\
  Rabs (B2R (misori_f dot_f arccos d p (syms_f g) q n) * (180 / PI) - neighbour_misori (sym_eqv g) (value q) (value n) * (180 / PI)) <= / 5000.
Proof.
  intros dot_f arccos DOT AC d p g q n SQ SN. destruct (misori_near dot_f arccos DOT AC d p g q n SQ SN) as (F & E). split; [exact F|].
  rewrite <- Rmult_minus_distr_r, Rabs_mult. pose proof pi_near as PN. apply Rabs_le_inv in PN.
  assert (PV : 3.1415 <= B2R fpi <= 3.1416) by (unfold fpi; rewrite (proj1 (number_value _ _ _)); unfold bpow; cbn [radix2 radix_val Z.pow_pos Pos.iter Z.mul Pos.mul]; lra).
  assert (D : 0 < 180 / PI <= 60).
  { split; [apply Rdiv_lt_0_compat; lra|]. apply Rmult_le_reg_r with PI; [lra|]. unfold Rdiv. rewrite Rmult_assoc, Rinv_l by lra. lra. }
  rewrite (Rabs_pos_eq (180 / PI)) by lra. apply Rle_trans with (/ 400000 * 60); [apply Rmult_le_compat; [apply Rabs_pos|lra|exact E|lra]|lra].
Qed.
Print Assumptions C126_number.

(** Boundaries are those of exact arithmetic wherever the angle is not within 1/1000 degree of the
    tolerance. *)
Theorem C126_pixel : forall dot_f arccos, (forall d p i, any_order (dot_f d p i)) -> good_arccos arccos ->
  forall W H g ori phase tol p, (forall p, inside W H p -> sound (ori p)) -> is_finite tol = true -> 0 <= B2R tol <= 360 -> inside W H p ->
  ((inside W H (next_pix 0 p) -> clear_of g (ori p) (ori (next_pix 0 p)) tol) ->
     bx_f dot_f arccos W g ori phase tol p = grain_bx W g (fun p => value (ori p)) phase (B2R tol) p) /\
  ((inside W H (next_pix 1 p) -> clear_of g (ori p) (ori (next_pix 1 p)) tol) ->
     by_f dot_f arccos H g ori phase tol p = grain_by H g (fun p => value (ori p)) phase (B2R tol) p).
Proof.
  intros dot_f arccos DOT AC W H g ori phase tol p SO FT RT IN. unfold bx_f, by_f, grain_bx, grain_by. unfold inside, next_pix in *. cbn [Z.eqb] in *.
  destruct p as (x, y). cbn [fst snd] in *. split; intros CL; f_equal.
  - destruct (Z.ltb_spec x (W - 1)).
    + apply compare; try assumption; [apply SO; exact IN|apply SO; cbn [fst snd]; lia|apply CL; cbn [fst snd]; lia].
    + now apply edge_compare.
  - destruct (Z.ltb_spec y (H - 1)).
    + apply compare; try assumption; [apply SO; exact IN|apply SO; cbn [fst snd]; lia|apply CL; cbn [fst snd]; lia].
    + now apply edge_compare.
Qed.
Print Assumptions C126_pixel.

Lemma nonzero_ext W H a b : (0 <= W)%Z -> (0 <= H)%Z -> (forall p, inside W H p -> a p = b p) -> nonzero_T W H a = nonzero_T W H b.
Proof.
  intros HW HH E. unfold nonzero_T. apply filter_ext_in. intros p I. apply E. apply in_flat_map in I as (x & Hx & Hp). apply in_map_iff in Hp as (y & <- & Hy).
  apply zseq_In in Hx, Hy. unfold inside. cbn [fst snd]. lia.
Qed.
(** So are the sets of boundaries, and so are the grains. *)
Theorem C126_grains : forall dot_f arccos, (forall d p i, any_order (dot_f d p i)) -> good_arccos arccos ->
  forall W H g ori phase tol, (1 <= W)%Z -> (1 <= H)%Z -> (forall p, inside W H p -> sound (ori p)) -> is_finite tol = true -> 0 <= B2R tol <= 360 ->
  (forall k p, (k = 0 \/ k = 1)%Z -> inside W H p -> inside W H (next_pix k p) -> clear_of g (ori p) (ori (next_pix k p)) tol) ->
  boundaries_f dot_f arccos W H g ori phase tol = find_boundaries W H g (fun p => value (ori p)) phase (B2R tol) /\
  forall num_phases min_size,
    grains_f dot_f arccos W H g ori phase tol num_phases min_size = find_boundaries_then_grains W H g (fun p => value (ori p)) phase (B2R tol) num_phases min_size.
Proof.
  intros dot_f arccos DOT AC W H g ori phase tol HW HH SO FT RT CL.
  assert (B : boundaries_f dot_f arccos W H g ori phase tol = find_boundaries W H g (fun p => value (ori p)) phase (B2R tol)).
  { unfold boundaries_f, find_boundaries. f_equal. unfold from_image.
    rewrite (nonzero_ext W H (bx_f dot_f arccos W g ori phase tol) (grain_bx W g (fun p => value (ori p)) phase (B2R tol))),
      (nonzero_ext W H (by_f dot_f arccos H g ori phase tol) (grain_by H g (fun p => value (ori p)) phase (B2R tol))); try lia; [reflexivity| |];
      intros p IN; destruct (C126_pixel dot_f arccos DOT AC W H g ori phase tol p SO FT RT IN) as (X & Y); [apply Y|apply X]; intros I; apply CL; auto. }
  split; [exact B|]. intros np ms. unfold grains_f, find_boundaries_then_grains. now rewrite B.
Qed.
Print Assumptions C126_grains.

(** [mis_ori] is a number within 2^-44 of the value without rounding. *)
Theorem C126_scalar : forall dot3 dot4, any_order3 dot3 -> any_order dot4 -> forall g a b, sound a -> sound b ->
  is_finite (mis_ori_f dot3 dot4 g a b) = true /\ Rabs (B2R (mis_ori_f dot3 dot4 g a b) - mis_ori (value a) (value b) g) <= / 2 ^ 44.
Proof.
  intros dot3 dot4 D3 D4 g a b SA SB. destruct (mis_ori_near dot3 dot4 D3 D4 g a b SA SB) as (F & _ & E). split; [exact F|].
  replace (/ 2 ^ 44) with (bpow radix2 (-44)); [exact E|]. unfold bpow. cbn [radix2 radix_val Z.pow_pos Pos.iter Z.mul Pos.mul pow]. lra.
Qed.
Print Assumptions C126_scalar.
(** The constants: no number in double precision is nearer to pi; 180 is exact. *)
Theorem C126_constants : Rabs (B2R fpi - PI) <= / 2 ^ 52 /\ B2R f180 = 180.
Proof.
  split; [|exact (proj1 f180_is)]. unfold fpi. rewrite (proj1 (number_value _ _ _)). pose proof (PI_2_3_7_ineq 8) as (A & B).
  cbn [Nat.mul Nat.add sum_f_R0] in A, B. unfold tg_alt, PI_2_3_7_tg, Ratan_seq in A, B. cbn [Nat.mul Nat.add INR pow] in A, B.
  unfold bpow. cbn [radix2 radix_val Z.pow_pos Pos.iter Z.mul Pos.mul pow]. apply Rabs_le. lra.
Qed.
Print Assumptions C126_constants.

Lemma lr_any : any_order left_to_right.
Proof.
  intros a b. unfold left_to_right, pairs. apply (sums_add [(fw a, fw b); (fx a, fx b); (fy a, fy b)] [(fz a, fz b)]); [|apply sums_one].
  apply (sums_add [(fw a, fw b); (fx a, fx b)] [(fy a, fy b)]); [|apply sums_one]. apply (sums_add [(fw a, fw b)] [(fx a, fx b)]); apply sums_one.
Qed.
Lemma lr_any3 : any_order3 left_to_right3.
Proof.
  intros a b. unfold left_to_right3, pairs. cbn [tl]. apply (sums_add [(fx a, fx b); (fy a, fy b)] [(fz a, fz b)]); [|apply sums_one].
  apply (sums_add [(fx a, fx b)] [(fy a, fy b)]); apply sums_one.
Qed.
Lemma nearest_good : good_arccos nearest_arccos.
Proof.
  assert (V : Valid_exp (SpecFloat.fexp 53 1024)) by (apply (fexp_correct 53 1024); reflexivity).
  assert (N : forall x : f64, is_finite x = true -> 0 <= B2R x <= 1 -> is_finite (nearest_arccos x) = true /\ B2R (nearest_arccos x) = rnd (acos (B2R x))).
  { intros x F X. unfold nearest_arccos. cbv zeta. set (r := rnd (acos (B2R x))).
    pose proof (binary_normalize_correct 53 1024 _ _ mode_NE (Ztrunc (scaled_mantissa radix2 (SpecFloat.fexp 53 1024) r)) (cexp radix2 (SpecFloat.fexp 53 1024) r) false) as C.
    cbv zeta in C. rewrite round_mode_is in C.
    assert (G : generic_format radix2 (SpecFloat.fexp 53 1024) r) by (apply generic_format_round; [exact V|typeclasses eauto]).
    rewrite <- G in C. rewrite round_generic in C by (assumption || typeclasses eauto).
    pose proof (acos_range _ X) as A. pose proof PI_4.
    assert (B : Rabs (acos (B2R x)) <= bpow radix2 2) by (change (bpow radix2 2) with 4; rewrite Rabs_pos_eq; lra).
    assert (S0 : Rlt_bool (Rabs r) (bpow radix2 1024) = true).
    { apply Rlt_bool_true. apply Rle_lt_trans with (bpow radix2 2); [apply rnd_bound; [apply format_bpow; lia|exact B]|apply bpow_lt; lia]. }
    rewrite S0 in C. destruct C as (C1 & C2 & _). split; assumption. }
  split.
  - intros x F X. destruct (N x F X) as (FN & VN). split; [exact FN|]. rewrite VN. pose proof (acos_range _ X) as A. pose proof PI_4.
    apply Rle_trans with (1 := rnd_err 2 (acos (B2R x)) ltac:(lia) ltac:(change (bpow radix2 2) with 4; rewrite Rabs_pos_eq; lra)).
    change (2 - 54)%Z with (-52)%Z. unfold bpow. cbn [radix2 radix_val Z.pow_pos Pos.iter Z.mul Pos.mul pow]. lra.
  - destruct f1_is as (V1 & F1). destruct (N f1 F1 ltac:(lra)) as (_ & VN). rewrite VN, V1, acos_1. apply round_0. typeclasses eauto.
Qed.

Definition between0 (v b : f64) : bool := is_finite v && negb (flt v f0) && flt v b.
Lemma between0_is v b : is_finite b = true -> between0 v b = true -> is_finite v = true /\ 0 <= B2R v < B2R b.
Proof.
  intros FB T. unfold between0 in T. apply andb_true_iff in T as (T & L). apply andb_true_iff in T as (F & P). split; [exact F|].
  rewrite flt_is in L, P by (assumption || reflexivity). change (B2R f0) with 0 in P.
  destruct (Rlt_bool_spec (B2R v) 0); [discriminate|]. destruct (Rlt_bool_spec (B2R v) (B2R b)); [|discriminate]. lra.
Qed.
Definition eighth : f64 := number 4503599627370496 (-55) eq_refl.
Definition eighths3 : f64 := number 6755399441055744 (-54) eq_refl.
Lemma unit_sound : sound (unit_of 1 3 1 9).
Proof.
  assert (E1 : B2R eighth = / 8) by (unfold eighth; rewrite (proj1 (number_value _ _ _)); unfold bpow; cbn [radix2 radix_val Z.pow_pos Pos.iter Z.mul Pos.mul]; lra).
  assert (E3 : B2R eighths3 = 3 / 8) by (unfold eighths3; rewrite (proj1 (number_value _ _ _)); unfold bpow; cbn [radix2 radix_val Z.pow_pos Pos.iter Z.mul Pos.mul]; lra).
  destruct (between0_is (fw (unit_of 1 3 1 9)) eighth eq_refl ltac:(vm_compute; reflexivity)) as (F1 & B1).
  destruct (between0_is (fx (unit_of 1 3 1 9)) eighths3 eq_refl ltac:(vm_compute; reflexivity)) as (F2 & B2).
  destruct (between0_is (fy (unit_of 1 3 1 9)) eighth eq_refl ltac:(vm_compute; reflexivity)) as (F3 & B3).
  destruct (between0_is (fz (unit_of 1 3 1 9)) f1 eq_refl ltac:(vm_compute; reflexivity)) as (F4' & B4).
  rewrite E1 in B1, B3. rewrite E3 in B2. rewrite (proj1 f1_is) in B4. split; [repeat (split; [assumption|]); assumption|].
  unfold dot, value. cbn [qw qx qy qz]. nra.
Qed.
(** The number [mis_ori] gives can be above one for a quaternion that [normalise] gave: 2*arccos(output),
    as documented and as done for segments of boundaries, is then nan. *)
Theorem C126_above_one_refuted : exists q, q = unit_of 1 3 1 9 /\ sound q /\ any_order left_to_right /\ any_order3 left_to_right3 /\
  1 < B2R (mis_ori_f left_to_right3 left_to_right "cubic" q q).
Proof.
  exists (unit_of 1 3 1 9). split; [reflexivity|].
  pose proof unit_sound as S1.
  split; [exact S1|]. split; [exact lr_any|]. split; [exact lr_any3|].
  destruct (mis_ori_near left_to_right3 left_to_right lr_any3 lr_any "cubic" _ _ S1 S1) as (F & _ & _). destruct f1_is as (V & F1). rewrite <- V.
  assert (T : flt f1 (mis_ori_f left_to_right3 left_to_right "cubic" (unit_of 1 3 1 9) (unit_of 1 3 1 9)) = true) by (vm_compute; reflexivity).
  rewrite flt_is in T by assumption. destruct (Rlt_bool_spec (B2R f1) (B2R (mis_ori_f left_to_right3 left_to_right "cubic" (unit_of 1 3 1 9) (unit_of 1 3 1 9)))); [assumption|discriminate].
Qed.
Print Assumptions C126_above_one_refuted.

Lemma acos_pos x : 0 <= x -> x <= 1 - / 2 ^ 53 -> / 2 ^ 27 <= acos x.
Proof.
  intros P L. assert (Q : 0 < / 2 ^ 53 < 1) by (cbn [pow]; lra). pose proof (acos_range x ltac:(lra)) as R. pose proof PI_RGT_0.
  destruct (Rle_dec (/ 2 ^ 27) (acos x)) as [O|O]; [exact O|exfalso].
  assert (C : cos (acos x) = x) by (apply cos_acos; lra). set (t := acos x) in *.
  assert (S0 : 0 <= sin (t / 2) <= t / 2).
  { split; [apply sin_ge_0; lra|]. destruct (Req_dec t 0) as [->|NZ]; [replace (0 / 2) with 0 by field; rewrite sin_0; lra|]. left. apply sin_lt_x. lra. }
  assert (E : cos t = 1 - 2 * sin (t / 2) * sin (t / 2)) by (replace t with (2 * (t / 2)) at 1 by field; apply cos_2a_sin).
  assert (2 * sin (t / 2) * sin (t / 2) <= t * t / 2) by nra.
  assert (t * t <= / 2 ^ 27 * / 2 ^ 27) by nra.
  assert (/ 2 ^ 27 * / 2 ^ 27 = / 2 ^ 53 / 2) by (cbn [pow]; field; lra). lra.
Qed.
Lemma sf_value (v : f64) m e : B2SF v = SpecFloat.S754_finite false m e -> B2R v = IZR (Zpos m) * bpow radix2 e /\ is_finite v = true.
Proof. destruct v as [| | |b m' e' B]; try discriminate. cbn [B2SF]. intros E. injection E as -> -> ->. split; reflexivity. Qed.
Lemma fold_ge l : forall a, a <= fold_left Rmax l a.
Proof. induction l as [|b l IH]; intros a; [apply Rle_refl|]. cbn [fold_left]. apply Rle_trans with (Rmax a b); [apply Rmax_l|apply IH]. Qed.
Lemma unit146 : sound (unit_of 1 4 1 6) /\ 1 <= dot (value (unit_of 1 4 1 6)) (value (unit_of 1 4 1 6)).
Proof.
  destruct (sf_value (fw (unit_of 1 4 1 6)) 4902898263487188 (-55) ltac:(vm_compute; reflexivity)) as (E1 & F1).
  destruct (sf_value (fx (unit_of 1 4 1 6)) 4902898263487188 (-53) ltac:(vm_compute; reflexivity)) as (E2 & F2).
  destruct (sf_value (fy (unit_of 1 4 1 6)) 4902898263487188 (-55) ltac:(vm_compute; reflexivity)) as (E3 & F3).
  destruct (sf_value (fz (unit_of 1 4 1 6)) 7354347395230782 (-53) ltac:(vm_compute; reflexivity)) as (E4 & F4').
  unfold sound. assert (B : 1 <= dot (value (unit_of 1 4 1 6)) (value (unit_of 1 4 1 6)) <= 5 / 4).
  { unfold dot, value. cbn [qw qx qy qz]. rewrite E1, E2, E3, E4. unfold bpow. cbn [radix2 radix_val Z.pow_pos Pos.iter Z.mul Pos.mul]. lra. }
  split; [|lra]. split; [repeat (split; [assumption|]); assumption|lra].
Qed.
(** At tolerance zero the sums decide: in a map with one orientation throughout, which exact arithmetic
    finds no boundaries in, every pixel can be cut off from the next. *)
Theorem C126_uniform_refuted : forall arccos, good_arccos arccos -> let q := unit_of 1 4 1 6 in let dot_f := fun (_ : Z) (_ : pix) (_ : nat) => left_to_right in
  sound q /\ 1 <= dot (value q) (value q) /\
  forall W H p, inside W H p -> inside W H (next_pix 0 p) ->
    bx_f dot_f arccos W "cubic" (fun _ => q) (fun _ => 1%Z) f0 p = true /\
    grain_bx W "cubic" (fun _ => value q) (fun _ => 1%Z) (B2R f0) p = false.
Proof.
  intros arccos AC q dot_f. destruct unit146 as (SQ & N1). split; [exact SQ|]. split; [exact N1|]. intros W H p IN IN2.
  assert (LT : (fst p <? W - 1)%Z = true) by (apply Z.ltb_lt; unfold inside, next_pix in IN2; cbn in IN2; lia).
  assert (DOT : forall d p i, any_order (dot_f d p i)) by (intros; exact lr_any).
  assert (P0 : phase_x W (fun _ => 1%Z) p = false) by (unfold phase_x; destruct (fst p =? W - 1)%Z; reflexivity).
  unfold bx_f, grain_bx. rewrite LT, P0, !orb_false_r.
  destruct (cosine_tight dot_f DOT 0 p "cubic" q q SQ SQ) as (FC & _ & BC & BR).
  split.
  - destruct (tol_near f0 eq_refl ltac:(change (B2R f0) with 0; lra)) as (FT & PT & _).
    assert (T0 : B2R (tol_f f0) = 0) by reflexivity.
    assert (V : B2SF (cosine_f dot_f 0 p "cubic" q q) = SpecFloat.S754_finite false 9007199254740991 (-53)) by (vm_compute; reflexivity).
    destruct (sf_value _ _ _ V) as (VC & _). destruct (proj1 AC _ FC BC) as (FA & EA).
    assert (LE : B2R (cosine_f dot_f 0 p "cubic" q q) <= 1 - / 2 ^ 53) by (rewrite VC; unfold bpow; cbn [radix2 radix_val Z.pow_pos Pos.iter Z.mul Pos.mul pow]; lra).
    pose proof (acos_pos _ (proj1 BC) LE) as AP. pose proof (acos_range _ BC) as AR. destruct (misori_near dot_f arccos DOT AC 0 p "cubic" q q SQ SQ) as (FM & _).
    rewrite flt_is, T0 by assumption. apply Rlt_bool_true. change (misori_f dot_f arccos 0 p (syms_f "cubic") q q) with (fmul f2 (arccos (cosine_f dot_f 0 p "cubic" q q))).
    apply Rabs_le_inv in EA. destruct f2_is as (V2 & F2). pose proof PI_4 as P4.
    destruct (fmul_in 3 f2 (arccos (cosine_f dot_f 0 p "cubic" q q)) ltac:(lia) F2 FA) as (_ & _ & G2 & _).
    { rewrite V2. change (bpow radix2 3) with 8. assert (/ 2 ^ 50 <= 1) by (cbn [pow]; lra). apply Rabs_le. lra. }
    rewrite V2 in G2. apply Rabs_le_inv in G2. assert (K : bpow radix2 (3 - 54) <= / 2 ^ 50) by (unfold bpow; cbn; lra). assert (/ 2 ^ 50 < / 2 ^ 30) by (cbn [pow]; lra). assert (/ 2 ^ 27 = 8 * / 2 ^ 30) by (cbn [pow]; lra). lra.
  - unfold neighbour_misori. match goal with |- context [rmax ?l] => set (x := rmax l) in * end.
    assert (X : x = 1).
    { apply Rle_antisym; [apply BR|]. unfold x, rmax. cbn [map]. apply Rle_trans with (clip1 (Rabs (dot (value q) (value q)))); [|apply fold_ge].
      unfold clip1. fold q in N1. rewrite Rabs_pos_eq by lra. destruct (Rlt_dec 1 (dot (value q) (value q))); lra. }
    rewrite X, acos_1. unfold gtb. change (B2R f0) with 0. destruct (Rlt_dec (0 * (PI / 180)) (2 * 0)); [lra|reflexivity].
Qed.
Print Assumptions C126_uniform_refuted.

(** A hexagonal map of two pixels and a tolerance of ten degrees. *)
Definition met_ori (p : pix) : fquat := if (fst p =? 0)%Z then F4 f1 f0 f0 f0 else F4 fhalf fhalf fhalf fhalf.
Definition ten : f64 := number 5629499534213120 (-49) eq_refl.
Lemma rmax_le l : forall a b, a <= b -> Forall (fun x => x <= b) l -> fold_left Rmax l a <= b.
Proof. induction l as [|x l IH]; intros a b A F; [exact A|]. inversion_clear F. cbn [fold_left]. apply IH; [|assumption]. now apply Rmax_lub. Qed.
Example C126_met : any_order left_to_right /\ any_order3 left_to_right3 /\ good_arccos nearest_arccos /\
  (forall p, sound (met_ori p)) /\ is_finite ten = true /\ 0 <= B2R ten <= 360 /\
  (forall k p, (k = 0 \/ k = 1)%Z -> inside 2 1 p -> inside 2 1 (next_pix k p) -> clear_of "hexagonal" (met_ori p) (met_ori (next_pix k p)) ten) /\
  In (0, 0)%Z (bs_x (snd (boundaries_f (fun _ _ _ => left_to_right) nearest_arccos 2 1 "hexagonal" met_ori (fun _ => 1%Z) ten))).
Proof.
  split; [exact lr_any|]. split; [exact lr_any3|]. split; [exact nearest_good|].
  destruct f1_is as (V1 & F1). destruct fhalf_is as (VH & FH).
  assert (SO : forall p, sound (met_ori p)).
  { intros p. unfold met_ori, sound, finite4, dot, value. destruct (fst p =? 0)%Z; cbn [fw fx fy fz qw qx qy qz]; (split; [auto|]); change (B2R f0) with 0; rewrite ?V1, ?VH; lra. }
  assert (VT : B2R ten = 10 /\ is_finite ten = true).
  { split; [|reflexivity]. unfold ten. rewrite (proj1 (number_value _ _ _)). unfold bpow. cbn [radix2 radix_val Z.pow_pos Pos.iter Z.mul Pos.mul]. lra. }
  split; [exact SO|]. split; [apply VT|]. split; [rewrite (proj1 VT); lra|].
  pose proof PI_RGT_0 as PP.
  assert (S3 : 1.7 <= sqrt 3 <= 1.74).
  { split; [rewrite <- (sqrt_square 1.7) by lra|rewrite <- (sqrt_square 1.74) by lra]; apply sqrt_le_1; lra. }
  assert (ANG : PI / 2 <= neighbour_misori (sym_eqv "hexagonal") (value (met_ori (0, 0)%Z)) (value (met_ori (1, 0)%Z))).
  { unfold neighbour_misori. assert (PI / 4 <= acos (rmax (map (fun c => clip1 (Rabs (dot (value (met_ori (0, 0)%Z)) c))) (value (met_ori (1, 0)%Z) :: map (fun s => sym_comps s (value (met_ori (1, 0)%Z))) (tl (sym_eqv "hexagonal")))))); [|lra].
    assert (A4 : acos (/ sqrt 2) = PI / 4) by (replace (/ sqrt 2) with (cos (PI / 4)) by (rewrite cos_PI4; field; apply Rgt_not_eq, sqrt_lt_R0; lra); apply acos_cos; lra).
    assert (S2 : 0.7 <= / sqrt 2 <= 1).
    { assert (Q : 1.4 <= sqrt 2 <= 1.42) by (split; [rewrite <- (sqrt_square 1.4) by lra|rewrite <- (sqrt_square 1.42) by lra]; apply sqrt_le_1; lra).
      split; apply Rmult_le_reg_r with (sqrt 2); try lra; rewrite Rinv_l by lra; lra. }
    assert (C1 : forall c, Rabs c <= 0.7 -> clip1 (Rabs c) <= 0.7) by (intros c L; unfold clip1; destruct (Rlt_dec 1 (Rabs c)); lra).
    assert (C0 : forall c, -1 <= clip1 (Rabs c)) by (intros c; unfold clip1; pose proof (Rabs_pos c); destruct (Rlt_dec 1 (Rabs c)); lra).
    rewrite <- A4. apply acos_le; [| |lra].
    - unfold rmax. cbn [map]. apply Rle_trans with (2 := fold_ge _ _). apply C0.
    - apply Rle_trans with 0.7; [|lra]. unfold rmax. cbn [map]. unfold met_ori, value. cbn [fst Z.eqb fw fx fy fz]. change (B2R f0) with 0. rewrite V1, VH. apply rmax_le.
      + apply C1. unfold dot. cbn [qw qx qy qz]. apply Rabs_le. lra.
      + rewrite Forall_forall. intros x I. apply in_map_iff in I as (c & <- & I). apply in_map_iff in I as (s & <- & I). apply C1. rewrite dot_comps. unfold dot, raw. cbn [qw qx qy qz].
        unfold sym_eqv, hexagonal_symmetries in I. cbn [String.eqb Ascii.eqb Bool.eqb map tl] in I. rewrite !Quat_pos in I by (unfold sqrt3over2; lra).
        repeat (destruct I as [<- |I]; [cbn [qw qx qy qz]; unfold sqrt3over2; apply Rabs_le; lra|]). destruct I. }
  assert (CL : forall k p, (k = 0 \/ k = 1)%Z -> inside 2 1 p -> inside 2 1 (next_pix k p) -> clear_of "hexagonal" (met_ori p) (met_ori (next_pix k p)) ten).
  { intros k (x, y) K I1 I2. unfold inside, next_pix in *. destruct K as [-> | ->]; cbn [Z.eqb fst snd] in *; [|lia]. assert (x = 0%Z) as -> by lia. assert (y = 0%Z) as -> by lia.
    unfold clear_of. change (0 + 1, 0)%Z with (1, 0)%Z. rewrite (proj1 VT).
    assert (90 <= neighbour_misori (sym_eqv "hexagonal") (value (met_ori (0, 0)%Z)) (value (met_ori (1, 0)%Z)) * (180 / PI)).
    { apply Rle_trans with (PI / 2 * (180 / PI)); [right; field; lra|]. apply Rmult_le_compat_r; [apply Rlt_le, Rdiv_lt_0_compat; lra|exact ANG]. }
    rewrite Rabs_pos_eq; lra. }
  split; [exact CL|].
  destruct (C126_grains (fun _ _ _ => left_to_right) nearest_arccos ltac:(intros; exact lr_any) nearest_good 2 1 "hexagonal" met_ori (fun _ => 1%Z) ten ltac:(lia) ltac:(lia)) as (B & _);
    [intros; apply SO|apply VT|rewrite (proj1 VT); lra|exact CL|]. rewrite B. unfold find_boundaries. cbn [snd].
  destruct (from_image_points 2 1 (grain_bx 2 "hexagonal" (fun p => value (met_ori p)) (fun _ => 1%Z) (B2R ten)) (grain_by 1 "hexagonal" (fun p => value (met_ori p)) (fun _ => 1%Z) (B2R ten)) ltac:(lia) ltac:(lia)) as (_ & _ & _ & PX & _).
  apply PX. split; [unfold inside; cbn; lia|]. unfold grain_bx. apply orb_true_intro. left. cbn [fst snd]. change (0 <? 2 - 1)%Z with true. cbv iota. change (0 + 1)%Z with 1%Z.
  unfold gtb. rewrite (proj1 VT). destruct (Rlt_dec _ _) as [L|L]; [reflexivity|exfalso; apply L]. lra.
Qed.
