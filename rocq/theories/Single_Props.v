(** C127: orientations, misorientations and grains from Euler angles in single precision. *)
From Coq Require Import String Reals Lra Psatz Machin.
From Coq Require Import List ZArith Bool Lia.
From Flocq Require Import Core IEEE754.BinarySingleNaN.
From Verif Require Import Py Grid Quat_Model Quat_Spec Boundary_Model Grid_Lemmas Boundary_Spec Boundary_Proofs Flood_Model Double_Model Double_Spec Double_Proofs Double_Angle Double_Props
  Single_Model Single_Spec Single_Proofs Single_Angle.
Import ListNotations.
Open Scope R_scope.

(** The orientation of a pixel is four numbers, never nan, whose squares sum to within 23/10^7 of one, and
    which are, up to one common sign, within 11/10^7 of those the Euler angles stand for. *)
Theorem C127_orientation : forall cos_s sin_s, good_trig cos_s cos -> good_trig sin_s sin -> forall e, some_angles e ->
  let q := euler_quat cos_s sin_s e in let o := true_orientation e in
  sound q /\ Rabs (dot (value q) (value q) - 1) <= 23 / 10000000 /\
  exists s, (s = 1 \/ s = -1) /\ forall f, In f [qw; qx; qy; qz] -> Rabs (f (value q) - s * f o) <= 11 / 10000000.
Proof.
  intros cos_s sin_s C S0 e A q o. destruct (euler_sound cos_s sin_s C S0 e A) as (H1 & H2). split; [exact H1|]. split; [exact H2|].
  destruct (euler_either cos_s sin_s C S0 e A) as (x & X & _ & E). fold q o in E, X.
  assert (K : forall f, In f [qw; qx; qy; qz] -> Rabs (f (value q) - f x) <= 11 / 10000000).
  { unfold dot, qsub in E. cbn [qw qx qy qz] in E. intros f I. rewrite <- (Rabs_pos_eq (11 / 10000000)) by lra. apply Rsqr_le_abs_0. unfold Rsqr.
    pose proof (Rle_0_sqr (qw (value q) - qw x)). pose proof (Rle_0_sqr (qx (value q) - qx x)). pose proof (Rle_0_sqr (qy (value q) - qy x)). pose proof (Rle_0_sqr (qz (value q) - qz x)).
    unfold Rsqr in *. destruct I as [<- |[<- |[<- |[<- |[]]]]]; lra. }
  destruct X as [-> | ->].
  - exists 1. split; [now left|]. intros f I. rewrite Rmult_1_l. now apply K.
  - exists (-1). split; [now right|]. intros f I. replace (-1 * f o) with (f (qneg o)); [now apply K|]. destruct I as [<- |[<- |[<- |[<- |[]]]]]; unfold qneg; cbn [qw qx qy qz]; ring.
Qed.
Print Assumptions C127_orientation.

(** The angle found for neighbours is within 2/5 degree of the angle between the orientations their Euler
    angles stand for. *)
Theorem C127_angle : forall dot_f arccos, (forall d p i, any_order (dot_f d p i)) -> good_arccos arccos ->
  forall cos_s sin_s, good_trig cos_s cos -> good_trig sin_s sin -> forall d p g e e', some_angles e -> some_angles e' ->
  let m := misori_f dot_f arccos d p (syms_f g) (euler_quat cos_s sin_s e) (euler_quat cos_s sin_s e') in
  is_finite m = true /\ Rabs (B2R m * (180 / PI) - true_angle g e e') <= 2 / 5.
Proof.
  intros dot_f arccos DOT AC cos_s sin_s C S0 d p g e e' A A' m. destruct (euler_sound cos_s sin_s C S0 e A) as (SQ & _). destruct (euler_sound cos_s sin_s C S0 e' A') as (SN & _).
  destruct (C126_number dot_f arccos DOT AC d p g _ _ SQ SN) as (F & E). fold m in F, E. split; [exact F|].
  pose proof (single_degrees cos_s sin_s C S0 e e' g A A') as B. apply Rabs_le_inv in E. apply Rabs_le_inv in B. apply Rabs_le. lra.
Qed.
Print Assumptions C127_angle.

Lemma gtb_degrees m t : gtb m (t * (PI / 180)) = if Rlt_dec t (m * (180 / PI)) then true else false.
Proof.
  destruct pi_tight as (P & D). unfold gtb. assert (E1 : t * (PI / 180) * (180 / PI) = t) by (field; lra).
  destruct (Rlt_dec (t * (PI / 180)) m) as [L|L], (Rlt_dec t (m * (180 / PI))) as [L'|L']; try reflexivity; exfalso.
  - apply L'. rewrite <- E1. apply Rmult_lt_compat_r; lra.
  - apply L. apply Rmult_lt_reg_r with (180 / PI); [lra|]. now rewrite E1.
Qed.
Lemma same_side a b t : Rabs (a - b) <= 36 / 100 -> / 2 < Rabs (b - t) -> (if Rlt_dec t a then true else false) = (if Rlt_dec t b then true else false) /\ / 1000 < Rabs (a - t).
Proof.
  intros D C. apply Rabs_le_inv in D. destruct (Rle_dec b t) as [L|L].
  - rewrite Rabs_left1 in C by lra. rewrite Rabs_left1 by lra. destruct (Rlt_dec t a), (Rlt_dec t b); split; try lra; reflexivity.
  - rewrite Rabs_pos_eq in C by lra. rewrite Rabs_pos_eq by lra. destruct (Rlt_dec t a), (Rlt_dec t b); split; try lra; reflexivity.
Qed.
(** Where no misorientation of neighbours is within half a degree of the tolerance, the boundaries and the
    grains are those of the orientations the Euler angles stand for, in exact arithmetic. *)
Theorem C127_grains : forall dot_f arccos, (forall d p i, any_order (dot_f d p i)) -> good_arccos arccos ->
  forall cos_s sin_s, good_trig cos_s cos -> good_trig sin_s sin ->
  forall W H g euler phase tol, (1 <= W)%Z -> (1 <= H)%Z -> (forall p, inside W H p -> some_angles (euler p)) -> is_finite tol = true -> 0 <= B2R tol <= 360 ->
  (forall k p, (k = 0 \/ k = 1)%Z -> inside W H p -> inside W H (next_pix k p) -> / 2 < Rabs (true_angle g (euler p) (euler (next_pix k p)) - B2R tol)) ->
  let ori := fun p => euler_quat cos_s sin_s (euler p) in let exact := fun p => true_orientation (euler p) in
  boundaries_f dot_f arccos W H g ori phase tol = find_boundaries W H g exact phase (B2R tol) /\
  forall num_phases min_size,
    grains_f dot_f arccos W H g ori phase tol num_phases min_size = find_boundaries_then_grains W H g exact phase (B2R tol) num_phases min_size.
Proof.
  intros dot_f arccos DOT AC cos_s sin_s C S0 W H g euler phase tol HW HH SO FT RT CL ori exact.
  assert (SD : forall k p, (k = 0 \/ k = 1)%Z -> inside W H p -> inside W H (next_pix k p) ->
     gtb (neighbour_misori (sym_eqv g) (value (ori p)) (value (ori (next_pix k p)))) (B2R tol * (PI / 180)) = gtb (neighbour_misori (sym_eqv g) (exact p) (exact (next_pix k p))) (B2R tol * (PI / 180)) /\
     clear_of g (ori p) (ori (next_pix k p)) tol).
  { intros k p K I1 I2. rewrite !gtb_degrees. apply same_side; [|now apply CL]. apply single_degrees; auto. }
  destruct (C126_grains dot_f arccos DOT AC W H g ori phase tol HW HH) as (B & _); auto.
  { intros p I. now apply (euler_sound cos_s sin_s C S0 (euler p) (SO p I)). }
  { intros k p K I1 I2. now apply SD. }
  assert (E : boundaries_f dot_f arccos W H g ori phase tol = find_boundaries W H g exact phase (B2R tol)).
  { rewrite B. unfold find_boundaries. f_equal. unfold from_image.
    rewrite (nonzero_ext W H (grain_bx W g (fun p => value (ori p)) phase (B2R tol)) (grain_bx W g exact phase (B2R tol))),
      (nonzero_ext W H (grain_by H g (fun p => value (ori p)) phase (B2R tol)) (grain_by H g exact phase (B2R tol))); try lia; [reflexivity| |].
    - intros (x, y) IN. unfold grain_by. f_equal. cbn [fst snd]. destruct (Z.ltb_spec y (H - 1)); [|reflexivity].
      apply (SD 1%Z (x, y)); auto. unfold inside, next_pix in *. cbn [Z.eqb fst snd] in *. lia.
    - intros (x, y) IN. unfold grain_bx. f_equal. cbn [fst snd]. destruct (Z.ltb_spec x (W - 1)); [|reflexivity].
      apply (SD 0%Z (x, y)); auto. unfold inside, next_pix in *. cbn [Z.eqb fst snd] in *. lia. }
  split; [exact E|]. intros np ms. unfold grains_f, find_boundaries_then_grains. now rewrite E.
Qed.
Print Assumptions C127_grains.

(** Nearest numbers. *)
Lemma nearest32_is f x : is_finite x = true -> Rabs (f (B2R x)) <= 1 -> is_finite (nearest32 f x) = true /\ B2R (nearest32 f x) = rnd32 (f (B2R x)).
Proof.
  intros F X. unfold nearest32. cbv zeta. set (r := rnd32 (f (B2R x))).
  pose proof (binary_normalize_correct 24 128 _ _ mode_NE (Ztrunc (scaled_mantissa radix2 fexp32 r)) (cexp radix2 fexp32 r) false) as C.
  cbv zeta in C. rewrite round_mode_is in C.
  assert (G : generic_format radix2 fexp32 r) by (apply generic_format_round; typeclasses eauto).
  rewrite <- G in C. rewrite round_generic in C by (assumption || typeclasses eauto).
  assert (S0 : Rlt_bool (Rabs r) (bpow radix2 128) = true) by exact (small_rnd32 0 (f (B2R x)) ltac:(lia) X). rewrite S0 in C. destruct C as (C1 & C2 & _). split; assumption.
Qed.
Lemma nearest32_good f : (forall t, Rabs (f t) <= 1) -> good_trig (nearest32 f) f.
Proof.
  intros B x F X. destruct (nearest32_is f x F (B _)) as (G & V). split; [exact G|]. rewrite V.
  apply Rle_trans with (1 := rnd32_err 0 (f (B2R x)) ltac:(lia) (B _)). change (0 - 25)%Z with (-25)%Z. unfold bpow. cbn [radix2 radix_val Z.pow_pos Pos.iter Z.mul Pos.mul pow]. lra.
Qed.

(** The number nearest to pi / 2, its half, and the number nearest to the cosine and the sine of that. *)
Definition s_half_pi : f32 := number32 13176795 (-23) eq_refl.
Definition s_quarter_pi : f32 := number32 13176795 (-24) eq_refl.
Definition s_root : f32 := number32 11863283 (-24) eq_refl.
Definition s_one : f32 := number32 8388608 (-23) eq_refl.
Definition s_zero : f32 := B754_zero false.
Lemma number32_value m e V : B2R (number32 m e V) = IZR (Zpos m) * bpow radix2 e /\ is_finite (number32 m e V) = true.
Proof. unfold number32. rewrite B2R_SF2B, is_finite_SF2B. split; reflexivity. Qed.
Lemma root_near : 0.70710678118 <= / sqrt 2 <= 0.70710678119.
Proof.
  assert (Q : 1.41421356236 <= sqrt 2 <= 1.41421356238) by (split; [rewrite <- (sqrt_square 1.41421356236) by lra|rewrite <- (sqrt_square 1.41421356238) by lra]; apply sqrt_le_1; lra).
  assert (S0 : sqrt 2 * sqrt 2 = 2) by (apply sqrt_sqrt; lra). assert (E : / sqrt 2 = sqrt 2 / 2) by (apply Rmult_eq_reg_r with (sqrt 2); [rewrite Rinv_l by lra; lra|lra]). rewrite E. lra.
Qed.
Lemma quarter_near : 0 <= B2R s_quarter_pi - PI / 4 <= 219 / 10000000000.
Proof.
  unfold s_quarter_pi. rewrite (proj1 (number32_value _ _ _)). pose proof (PI_2_3_7_ineq 4) as (A & B).
  cbn [Nat.mul Nat.add sum_f_R0] in A, B. unfold tg_alt, PI_2_3_7_tg, Ratan_seq in A, B. cbn [Nat.mul Nat.add INR pow] in A, B.
  unfold bpow. cbn [radix2 radix_val Z.pow_pos Pos.iter Z.mul Pos.mul]. lra.
Qed.
Lemma trig_quarter : 0.70710675 <= cos (B2R s_quarter_pi) <= 0.70710679 /\ 0.70710675 <= sin (B2R s_quarter_pi) <= 0.7071067968.
Proof.
  pose proof quarter_near as Q. set (d := B2R s_quarter_pi - PI / 4) in *. replace (B2R s_quarter_pi) with (PI / 4 + d) by (unfold d; ring).
  rewrite cos_plus, sin_plus, cos_PI4, sin_PI4. unfold Rdiv. rewrite !Rmult_1_l. pose proof root_near as N.
  pose proof (cos_lip d 0) as C. rewrite cos_0, Rminus_0_r, (Rabs_pos_eq d) in C by lra. apply Rabs_le_inv in C. pose proof (COS_bound d).
  pose proof (sin_le_abs d) as S0. rewrite (Rabs_pos_eq d) in S0 by lra. apply Rabs_le_inv in S0. pose proof PI2_3_2.
  assert (0 <= sin d) by (apply sin_ge_0; lra). set (r := / sqrt 2) in *. split; split; nra.
Qed.
Lemma round_root x : 0.70710675 <= x <= 0.7071067968 -> rnd32 x = B2R s_root.
Proof.
  intros X. assert (V : B2R s_root = 11863283 * bpow radix2 (-24)) by apply number32_value. unfold bpow in V. cbn [radix2 radix_val Z.pow_pos Pos.iter Z.mul Pos.mul] in V.
  assert (G : generic_format radix2 fexp32 (B2R s_root)) by (apply (generic_format_B2R 24 128)).
  assert (M : mag radix2 (B2R s_root) = 0%Z :> Z). { apply mag_unique. rewrite V. unfold bpow. cbn [Z.sub Z.add Z.opp radix2 radix_val Z.pow_pos Pos.iter Z.mul Pos.mul]. rewrite Rabs_pos_eq; lra. }
  assert (U : ulp radix2 fexp32 (B2R s_root) = / 16777216).
  { rewrite ulp_neq_0 by (rewrite V; lra). unfold cexp. rewrite M. reflexivity. }
  apply Rle_antisym.
  - apply round_N_le_midp; [typeclasses eauto|exact G|]. rewrite succ_eq_pos by (rewrite V; lra). rewrite U, V. lra.
  - apply round_N_ge_midp; [typeclasses eauto|exact G|]. rewrite pred_eq_pos by (rewrite V; lra). unfold pred_pos. rewrite M. rewrite Req_bool_false.
    + rewrite U, V. lra.
    + rewrite V. unfold bpow. cbn [Z.sub Z.add Z.opp radix2 radix_val Z.pow_pos Pos.iter Z.mul Pos.mul]. lra.
Qed.
Lemma pos32_eq (a b : f32) : is_finite a = true -> is_finite b = true -> 0 < B2R b -> B2R a = B2R b -> a = b.
Proof.
  intros FA FB P E. apply B2R_Bsign_inj; [exact FA|exact FB|exact E|]. destruct a as [| | |[] ma ea Ba], b as [| | |[] mb eb Bb]; try discriminate; try reflexivity; exfalso.
  all: cbn [B2R] in P, E; try lra.
  - rewrite <- E in P. apply (Rlt_irrefl 0), (Rlt_trans _ _ _ P), F2R_lt_0. reflexivity.
  - apply (Rlt_irrefl 0), (Rlt_trans _ _ _ P), F2R_lt_0. reflexivity.
Qed.
Definition uniform_angles : f32 * f32 * f32 := (s_half_pi, s_zero, s_zero).
Definition uniform_quat : fquat :=
  F4 (widen (smul s_one s_root)) (widen (smul (sneg s_zero) s_root)) (widen (smul (sneg s_zero) s_root)) (widen (smul (sneg s_one) s_root)).
Lemma uniform_is : euler_quat (nearest32 cos) (nearest32 sin) uniform_angles = uniform_quat.
Proof.
  assert (H0 : sdiv s_zero s2 = s_zero) by (apply B2SF_inj; vm_compute; reflexivity).
  assert (H1 : sdiv (sadd s_half_pi s_zero) s2 = s_quarter_pi) by (apply B2SF_inj; vm_compute; reflexivity).
  assert (H2 : sdiv (ssub s_half_pi s_zero) s2 = s_quarter_pi) by (apply B2SF_inj; vm_compute; reflexivity).
  destruct trig_quarter as (TC & TS).
  assert (C1 : nearest32 cos s_quarter_pi = s_root).
  { destruct (nearest32_is cos s_quarter_pi eq_refl (abs_cos1 _)) as (F & V). apply pos32_eq; [exact F|reflexivity| |rewrite V; apply round_root; lra].
    unfold s_root. rewrite (proj1 (number32_value _ _ _)). unfold bpow. cbn [radix2 radix_val Z.pow_pos Pos.iter Z.mul Pos.mul]. lra. }
  assert (S1 : nearest32 sin s_quarter_pi = s_root).
  { destruct (nearest32_is sin s_quarter_pi eq_refl (abs_sin1 _)) as (F & V). apply pos32_eq; [exact F|reflexivity| |rewrite V; apply round_root; lra].
    unfold s_root. rewrite (proj1 (number32_value _ _ _)). unfold bpow. cbn [radix2 radix_val Z.pow_pos Pos.iter Z.mul Pos.mul]. lra. }
  assert (VO : B2R s_one = 1) by (unfold s_one; rewrite (proj1 (number32_value _ _ _)); unfold bpow; cbn [radix2 radix_val Z.pow_pos Pos.iter Z.mul Pos.mul]; lra).
  assert (C0 : nearest32 cos s_zero = s_one).
  { destruct (nearest32_is cos s_zero eq_refl (abs_cos1 _)) as (F & V). apply pos32_eq; [exact F|reflexivity|rewrite VO; lra|]. rewrite V. change (B2R s_zero) with 0. rewrite cos_0, <- VO.
    apply round_generic; [typeclasses eauto|apply (generic_format_B2R 24 128)]. }
  assert (S0 : nearest32 sin s_zero = s_zero).
  { unfold nearest32. cbv zeta. change (B2R s_zero) with 0. rewrite sin_0, round_0 by typeclasses eauto. unfold scaled_mantissa. rewrite Rmult_0_l, Ztrunc_IZR. reflexivity. }
  unfold euler_quat, uniform_angles. rewrite H0, H1, H2, C0, C1, S0, S1. reflexivity.
Qed.

Lemma acos_low x : 0 <= x -> x <= 1 - 34 / 1000000000 -> 26 / 100000 <= acos x.
Proof.
  intros P L. pose proof (acos_range x ltac:(lra)) as R. pose proof PI_RGT_0.
  destruct (Rle_dec (26 / 100000) (acos x)) as [O|O]; [exact O|exfalso].
  assert (C : cos (acos x) = x) by (apply cos_acos; lra). set (t := acos x) in *.
  assert (S0 : 0 <= sin (t / 2) <= t / 2).
  { split; [apply sin_ge_0; lra|]. destruct (Req_dec t 0) as [->|NZ]; [replace (0 / 2) with 0 by field; rewrite sin_0; lra|]. left. apply sin_lt_x. lra. }
  assert (E : cos t = 1 - 2 * sin (t / 2) * sin (t / 2)) by (replace t with (2 * (t / 2)) at 1 by field; apply cos_2a_sin).
  assert (2 * sin (t / 2) * sin (t / 2) <= t * t / 2) by nra. assert (t * t <= 26 / 100000 * (26 / 100000)) by nra. lra.
Qed.
Definition below_one : f64 := number 9007198948484989 (-53) eq_refl.
Lemma uniform_cosine d p : is_finite (cosine_f (fun _ _ _ => left_to_right) d p "cubic" uniform_quat uniform_quat) = true ->
  B2R (cosine_f (fun _ _ _ => left_to_right) d p "cubic" uniform_quat uniform_quat) <= 1 - 34 / 1000000000.
Proof.
  intros F. assert (L : flt (cosine_f (fun _ _ _ => left_to_right) d p "cubic" uniform_quat uniform_quat) below_one = true) by (vm_compute; reflexivity).
  rewrite flt_is in L by (assumption || reflexivity). destruct (Rlt_bool_spec (B2R (cosine_f (fun _ _ _ => left_to_right) d p "cubic" uniform_quat uniform_quat)) (B2R below_one)) as [L'|L']; [|discriminate].
  apply Rlt_le, Rlt_le_trans with (1 := L'). unfold below_one. rewrite (proj1 (number_value _ _ _)). unfold bpow. cbn [radix2 radix_val Z.pow_pos Pos.iter Z.mul Pos.mul]. lra.
Qed.
Lemma uniform_some : some_angles uniform_angles.
Proof.
  unfold some_angles, uniform_angles. change (B2R s_zero) with 0. rewrite Rabs_R0. split; [|split; (split; [reflexivity|lra])]. split; [reflexivity|].
  unfold s_half_pi. rewrite (proj1 (number32_value _ _ _)). unfold bpow. cbn [radix2 radix_val Z.pow_pos Pos.iter Z.mul Pos.mul]. rewrite Rabs_pos_eq; lra.
Qed.
Lemma true_self g e : neighbour_misori (sym_eqv g) (true_orientation e) (true_orientation e) = 0.
Proof.
  unfold neighbour_misori. cbn [map]. set (l := map _ (map _ (tl (sym_eqv g)))). rewrite true_unit. rewrite Rabs_R1. replace (clip1 1) with 1 by (unfold clip1; destruct (Rlt_dec 1 1); lra).
  replace (rmax (1 :: l)) with 1; [rewrite acos_1; ring|]. symmetry. apply Rle_antisym; [|apply fold_ge]. apply rmax_le; [lra|]. rewrite Forall_forall. intros x I.
  unfold l in I. apply in_map_iff in I as (c & <- & _). unfold clip1. destruct (Rlt_dec 1 _); lra.
Qed.
(** A map with the same Euler angles in every pixel, made with the most accurate sines and cosines there
    are: at a tolerance of 1/50 degree or less every pixel is cut off from the next, though neighbours are
    identical. *)
Theorem C127_uniform_refuted : forall arccos, good_arccos arccos -> let dot_f := fun (_ : Z) (_ : pix) (_ : nat) => left_to_right in
  let ori := fun p : pix => euler_quat (nearest32 cos) (nearest32 sin) uniform_angles in
  good_trig (nearest32 cos) cos /\ good_trig (nearest32 sin) sin /\ some_angles uniform_angles /\
  forall W H tol p, is_finite tol = true -> 0 <= B2R tol <= / 50 -> inside W H p ->
    (inside W H (next_pix 0 p) -> bx_f dot_f arccos W "cubic" ori (fun _ => 1%Z) tol p = true) /\
    (inside W H (next_pix 1 p) -> by_f dot_f arccos H "cubic" ori (fun _ => 1%Z) tol p = true) /\
    grain_bx W "cubic" (fun _ => true_orientation uniform_angles) (fun _ => 1%Z) (B2R tol) p = false /\
    grain_by H "cubic" (fun _ => true_orientation uniform_angles) (fun _ => 1%Z) (B2R tol) p = false.
Proof.
  intros arccos AC dot_f ori. pose proof (nearest32_good cos abs_cos1) as GC. pose proof (nearest32_good sin abs_sin1) as GS.
  split; [exact GC|]. split; [exact GS|]. split; [exact uniform_some|]. intros W H tol p FT RT IN.
  assert (DOT : forall d p i, any_order (dot_f d p i)) by (intros; exact lr_any).
  destruct (euler_sound _ _ GC GS uniform_angles uniform_some) as (SQ & _). rewrite uniform_is in SQ.
  destruct (tol_near tol FT ltac:(lra)) as (FF & _ & ET). destruct pi_tight as (PI1 & _).
  assert (CUT : forall d, flt (tol_f tol) (misori_f dot_f arccos d p (syms_f "cubic") uniform_quat uniform_quat) = true).
  { intros d. destruct (cosine_tight dot_f DOT d p "cubic" _ _ SQ SQ) as (FC & _ & BC & _). pose proof (uniform_cosine d p FC) as UC. change (fun _ _ _ => left_to_right) with dot_f in UC.
    pose proof (acos_low _ (proj1 BC) UC) as AL. destruct (proj1 AC _ FC BC) as (FA & EA). destruct (misori_near dot_f arccos DOT AC d p "cubic" _ _ SQ SQ) as (FM & _).
    rewrite flt_is by assumption. apply Rlt_bool_true. change (misori_f dot_f arccos d p (syms_f "cubic") uniform_quat uniform_quat) with (fmul f2 (arccos (cosine_f dot_f d p "cubic" uniform_quat uniform_quat))) in *.
    pose proof (acos_range _ BC) as AR. destruct f2_is as (V2 & F2). apply Rabs_le_inv in EA. assert (SM : / 2 ^ 50 <= / 1000000000) by apply powers.
    destruct (fmul_in 3 f2 (arccos (cosine_f dot_f d p "cubic" uniform_quat uniform_quat)) ltac:(lia) F2 FA) as (_ & _ & G2 & _).
    { rewrite V2. change (bpow radix2 3) with 8. apply Rabs_le. lra. }
    rewrite V2 in G2. change (3 - 54)%Z with (-51)%Z in G2. assert (K : bpow radix2 (-51) <= / 1000000000) by (unfold bpow; cbn [radix2 radix_val Z.pow_pos Pos.iter Z.mul Pos.mul]; lra).
    apply Rabs_le_inv in G2. apply Rabs_le_inv in ET. assert (B2R tol * (PI / 180) <= / 50 * (3.1417 / 180)) by (apply Rmult_le_compat; lra). lra. }
  unfold ori. rewrite uniform_is. unfold bx_f, by_f, grain_bx, grain_by. unfold inside, next_pix in *. cbn [Z.eqb fst snd] in *.
  assert (PX : phase_x W (fun _ => 1%Z) p = false) by (unfold phase_x; destruct (fst p =? W - 1)%Z; reflexivity).
  assert (PY : phase_y H (fun _ => 1%Z) p = false) by (unfold phase_y; destruct (snd p =? H - 1)%Z; reflexivity).
  assert (Z0 : gtb 0 (B2R tol * (PI / 180)) = false) by (unfold gtb; destruct (Rlt_dec (B2R tol * (PI / 180)) 0); [nra|reflexivity]).
  assert (ED : edge_misori = 0) by (unfold edge_misori; rewrite acos_1; ring).
  rewrite PX, PY, !orb_false_r, true_self, ED. split; [|split; [|split]].
  - intros I. replace (fst p <? W - 1)%Z with true by (symmetry; apply Z.ltb_lt; lia). apply CUT.
  - intros I. replace (snd p <? H - 1)%Z with true by (symmetry; apply Z.ltb_lt; lia). apply CUT.
  - destruct (fst p <? W - 1)%Z; exact Z0.
  - destruct (snd p <? H - 1)%Z; exact Z0.
Qed.
Print Assumptions C127_uniform_refuted.

(** Two pixels half a radian apart and a tolerance of ten degrees. *)
Definition s_half : f32 := number32 8388608 (-24) eq_refl.
Definition met_euler (p : pix) : f32 * f32 * f32 := if (fst p =? 0)%Z then (s_zero, s_zero, s_zero) else (s_zero, s_half, s_zero).
Lemma met_some p : some_angles (met_euler p).
Proof.
  assert (V : B2R s_half = / 2) by (unfold s_half; rewrite (proj1 (number32_value _ _ _)); unfold bpow; cbn [radix2 radix_val Z.pow_pos Pos.iter Z.mul Pos.mul]; lra).
  unfold met_euler, some_angles. destruct (fst p =? 0)%Z; change (B2R s_zero) with 0; rewrite ?V, ?Rabs_R0, ?(Rabs_pos_eq (/ 2)) by lra; (split; [|split]); (split; [reflexivity|lra]).
Qed.
Lemma met_angle : 12 <= true_angle "cubic" (met_euler (0, 0)%Z) (met_euler (1, 0)%Z).
Proof.
  assert (V : B2R s_half = / 2) by (unfold s_half; rewrite (proj1 (number32_value _ _ _)); unfold bpow; cbn [radix2 radix_val Z.pow_pos Pos.iter Z.mul Pos.mul]; lra).
  destruct pi_tight as (PP & D). unfold true_angle, met_euler, true_orientation. cbn [fst Z.eqb]. change (B2R s_zero) with 0. rewrite V.
  assert (O0 : from_euler_angles 0 0 0 = Q4 1 0 0 0).
  { unfold from_euler_angles. replace ((0 + 0) / 2) with 0 by field. replace ((0 - 0) / 2) with 0 by field. replace (0 / 2) with 0 by field. rewrite cos_0, sin_0, Quat_pos by lra. f_equal; ring. }
  assert (C4 : 0 <= cos (/ 4)) by (apply cos_ge_0; lra).
  assert (O1 : from_euler_angles 0 (/ 2) 0 = Q4 (cos (/ 4)) (- sin (/ 4)) 0 0).
  { unfold from_euler_angles. replace ((0 + 0) / 2) with 0 by field. replace ((0 - 0) / 2) with 0 by field. replace (/ 2 / 2) with (/ 4) by field. rewrite cos_0, sin_0, Quat_pos by lra. f_equal; ring. }
  rewrite O0, O1.
  assert (S4 : 0 <= sin (/ 4) <= / 4). { split; [apply sin_ge_0; lra|left; apply sin_lt_x; lra]. }
  assert (CU : cos (/ 4) <= 985 / 1000).
  { replace (/ 4) with (2 * / 8) by field. rewrite cos_2a_sin. pose proof (sin_7 (/ 8) ltac:(lra)). nra. }
  assert (AC : 11 / 100 <= acos (985 / 1000)).
  { pose proof (acos_range (985 / 1000) ltac:(lra)) as R0. destruct (Rle_dec (11 / 100) (acos (985 / 1000))) as [O|O]; [exact O|exfalso].
    pose proof (cos_acos (985 / 1000) ltac:(lra)) as E. set (t := acos (985 / 1000)) in *.
    assert (S0 : 0 <= sin (t / 2) <= 55 / 1000).
    { split; [apply sin_ge_0; lra|]. pose proof (sin_le_abs (t / 2)) as SA. rewrite (Rabs_pos_eq (t / 2)) in SA by lra. apply Rabs_le_inv in SA. lra. }
    assert (E2 : cos t = 1 - 2 * sin (t / 2) * sin (t / 2)) by (replace t with (2 * (t / 2)) at 1 by field; apply cos_2a_sin). nra. }
  unfold neighbour_misori. match goal with |- context [acos (rmax ?l)] => assert (AA : 11 / 100 <= acos (rmax l)) end.
  { apply Rle_trans with (1 := AC). assert (C1 : forall c, Rabs c <= 985 / 1000 -> clip1 (Rabs c) <= 985 / 1000) by (intros c L; unfold clip1; destruct (Rlt_dec 1 (Rabs c)); lra).
    assert (C0 : forall c, -1 <= clip1 (Rabs c)) by (intros c; unfold clip1; pose proof (Rabs_pos c); destruct (Rlt_dec 1 (Rabs c)); lra).
    apply acos_le; [| |lra].
    - unfold rmax. cbn [map]. apply Rle_trans with (2 := fold_ge _ _). apply C0.
    - unfold rmax. cbn [map]. apply rmax_le.
      + apply C1. unfold dot. cbn [qw qx qy qz]. apply Rabs_le. lra.
      + rewrite Forall_forall. intros x I. apply in_map_iff in I as (c & <- & I). apply in_map_iff in I as (s & <- & I). apply C1. rewrite dot_comps. unfold dot, raw. cbn [qw qx qy qz].
        assert (R2 : 0.7 <= over_root2 <= 0.71) by (unfold over_root2; assert (1.41 <= sqrt 2 <= 1.42) by (split; [rewrite <- (sqrt_square 1.41) by lra|rewrite <- (sqrt_square 1.42) by lra]; apply sqrt_le_1; lra); lra).
        unfold sym_eqv, cubic_symmetries in I. cbn [String.eqb Ascii.eqb Bool.eqb map tl] in I. rewrite !Quat_pos in I by lra.
        repeat (destruct I as [<- |I]; [cbn [qw qx qy qz]; apply Rabs_le; split; nra|]). destruct I. }
  apply Rle_trans with (2 * (11 / 100) * (180 / PI)); [|apply Rmult_le_compat_r; lra].
  apply Rmult_le_reg_r with PI; [lra|]. unfold Rdiv. rewrite !Rmult_assoc, Rinv_l by lra. lra.
Qed.
Example C127_met : good_trig (nearest32 cos) cos /\ good_trig (nearest32 sin) sin /\ (forall p, some_angles (met_euler p)) /\ is_finite ten = true /\ 0 <= B2R ten <= 360 /\
  (forall k p, (k = 0 \/ k = 1)%Z -> inside 2 1 p -> inside 2 1 (next_pix k p) -> / 2 < Rabs (true_angle "cubic" (met_euler p) (met_euler (next_pix k p)) - B2R ten)) /\
  In (0, 0)%Z (bs_x (snd (boundaries_f (fun _ _ _ => left_to_right) nearest_arccos 2 1 "cubic" (fun p => euler_quat (nearest32 cos) (nearest32 sin) (met_euler p)) (fun _ => 1%Z) ten))).
Proof.
  pose proof (nearest32_good cos abs_cos1) as GC. pose proof (nearest32_good sin abs_sin1) as GS.
  assert (VT : B2R ten = 10) by (unfold ten; rewrite (proj1 (number_value _ _ _)); unfold bpow; cbn [radix2 radix_val Z.pow_pos Pos.iter Z.mul Pos.mul]; lra).
  split; [exact GC|]. split; [exact GS|]. split; [exact met_some|]. split; [reflexivity|]. split; [rewrite VT; lra|]. pose proof met_angle as MA.
  assert (CL : forall k p, (k = 0 \/ k = 1)%Z -> inside 2 1 p -> inside 2 1 (next_pix k p) -> / 2 < Rabs (true_angle "cubic" (met_euler p) (met_euler (next_pix k p)) - B2R ten)).
  { intros k (x, y) K I1 I2. unfold inside, next_pix in *. destruct K as [-> | ->]; cbn [Z.eqb fst snd] in *; [|lia]. assert (x = 0%Z) as -> by lia. assert (y = 0%Z) as -> by lia.
    change (0 + 1, 0)%Z with (1, 0)%Z. rewrite VT, Rabs_pos_eq; lra. }
  split; [exact CL|].
  destruct (C127_grains (fun _ _ _ => left_to_right) nearest_arccos ltac:(intros; exact lr_any) nearest_good _ _ GC GS 2 1 "cubic" met_euler (fun _ => 1%Z) ten ltac:(lia) ltac:(lia)) as (B & _);
    [intros; apply met_some|reflexivity|rewrite VT; lra|exact CL|]. rewrite B. unfold find_boundaries. cbn [snd].
  destruct (from_image_points 2 1 (grain_bx 2 "cubic" (fun p => true_orientation (met_euler p)) (fun _ => 1%Z) (B2R ten)) (grain_by 1 "cubic" (fun p => true_orientation (met_euler p)) (fun _ => 1%Z) (B2R ten)) ltac:(lia) ltac:(lia)) as (_ & _ & _ & PX & _).
  apply PX. split; [unfold inside; cbn; lia|]. unfold grain_bx. apply orb_true_intro. left. cbn [fst snd]. change (0 <? 2 - 1)%Z with true. cbv iota. change (0 + 1)%Z with 1%Z.
  rewrite gtb_degrees, VT. unfold true_angle in MA. destruct (Rlt_dec _ _) as [L|L]; [reflexivity|exfalso; apply L]. lra.
Qed.
