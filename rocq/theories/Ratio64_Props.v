(** C134: theoretical relative displacement ratios in double precision. *)
From Coq Require Import String Reals Lra Psatz.
From Coq Require Import List ZArith Bool Lia.
From Flocq Require Import Core IEEE754.BinarySingleNaN.
From Verif Require Import Py Quat_Model Quat_Spec Ebsd_Model Double_Model Double_Spec Double_Proofs Double_Angle Double_Props Strain64_Proofs Kam64_Model Kam64_Proofs Grod64_Proofs
  Average64_Model Average64_Spec Average64_Proofs Average64_Props Single_Model Single_Spec Single_Angle Single_Props Schmid64_Model Schmid64_Spec Schmid64_Proofs Schmid64_Props Trace64_Model Trace64_Spec Trace64_Proofs Trace64_Props Ratio64_Model.
Import ListNotations.
Open Scope R_scope.

(** For a slip direction whose vertical coefficient in the sample is at least 2^-42, the ratio is a number, and differs from
    that without rounding by at most 2^-42 (1 + |ratio|) over this coefficient. *)
Theorem C134_ratio : forall dot3, any_order3 dot3 -> forall q d, sound q -> sound3 d ->
  let s := in_sample (value q) (vvalue d) in / 2 ^ 42 <= Rabs (vy s) ->
  exists r, grain_rdr (value q) (vvalue d) = Some r /\ r * vy s = - vx s /\ is_finite (ratio_f dot3 q d) = true /\
  Rabs (B2R (ratio_f dot3 q d) - r) <= / 2 ^ 42 * (1 + Rabs r) / Rabs (vy s).
Proof.
  intros dot3 D q d SQ SD s A. destruct (conj_is q SQ) as (SC & VC). destruct (transform_near dot3 _ d D SC SD) as (_ & (FX & EX & BX) & (FY & EY & BY) & _). rewrite VC in EX, EY.
  fold (in_sample (value q) (vvalue d)) in EX, EY. fold s in EX, EY. assert (P42 : 0 < / 2 ^ 42) by (apply Rinv_0_lt_compat, pow_lt; lra). assert (Y0 : 0 < Rabs (vy s)) by lra.
  assert (YN : vy s <> 0) by (intros Z; rewrite Z, Rabs_R0 in Y0; lra). exists (- vx s / vy s).
  split; [unfold grain_rdr; cbv zeta; fold (in_sample (value q) (vvalue d)); fold s; destruct (Req_EM_T (vy s) 0); [contradiction|reflexivity]|]. split; [field; exact YN|].
  unfold ratio_f. cbv zeta. set (v := transform_f dot3 (conjugate_f q) d) in *. set (x := B2R (f_x v)) in *. set (y := B2R (f_y v)) in *.
  assert (U : 448 * u53 = 7 / 32 * (/ 2 ^ 42)) by (rewrite u53_is; cbn [pow]; lra). rewrite U in EX, EY. set (e := / 2 ^ 42) in *.
  assert (YL : 25 / 32 * Rabs (vy s) <= Rabs y).
  { pose proof (Rabs_triang_inv (vy s) (vy s - y)) as T. replace (vy s - (vy s - y)) with y in T by ring. rewrite (Rabs_minus_sym (vy s) y) in T. lra. }
  assert (YP : 0 < Rabs y) by lra. assert (yN : y <> 0) by (intros Z; rewrite Z, Rabs_R0 in YP; lra). set (r := - vx s / vy s).
  assert (DQ : Rabs (- x / y - r) <= 1 / 3 * (e * (1 + Rabs r) / Rabs (vy s))).
  { replace (- x / y - r) with (- ((x - vx s) + r * (y - vy s)) / y) by (unfold r; field; split; assumption). unfold Rdiv at 1. rewrite Rabs_mult, Rabs_Ropp, Rabs_inv.
    assert (N : Rabs ((x - vx s) + r * (y - vy s)) <= 7 / 32 * e * (1 + Rabs r)).
    { apply Rle_trans with (1 := Rabs_triang _ _). rewrite Rabs_mult. assert (Rabs r * Rabs (y - vy s) <= Rabs r * (7 / 32 * e)) by (apply Rmult_le_compat_l; [apply Rabs_pos|exact EY]). lra. }
    assert (I : / Rabs y <= 32 / 25 * / Rabs (vy s)). { replace (32 / 25 * / Rabs (vy s)) with (/ (25 / 32 * Rabs (vy s))) by (field; lra). apply Rinv_le_contravar; lra. }
    apply Rle_trans with (7 / 32 * e * (1 + Rabs r) * (32 / 25 * / Rabs (vy s))); [apply Rmult_le_compat; auto using Rabs_pos; left; now apply Rinv_0_lt_compat|].
    assert (0 <= e * (1 + Rabs r) / Rabs (vy s)) by (apply Rmult_le_pos; [apply Rmult_le_pos; [lra|pose proof (Rabs_pos r); lra]|left; now apply Rinv_0_lt_compat]).
    replace (7 / 32 * e * (1 + Rabs r) * (32 / 25 * / Rabs (vy s))) with (7 / 25 * (e * (1 + Rabs r) / Rabs (vy s))) by (field; lra). lra. }
  set (g := e * (1 + Rabs r) / Rabs (vy s)) in *.
  assert (VB : Rabs (vy s) <= 2).
  { apply Rabs_le. apply Rabs_le_inv in BY. apply Rabs_le_inv in EY. fold y in BY. assert (YB : Rabs (vy s) <= 3 / 2). { destruct (comp_bound s (3 / 2)) as (_ & C & _); [|lra|exact C]. unfold s, in_sample. pose proof (transform_near dot3 _ d D SC SD) as (N & _). rewrite VC in N. lra. } apply Rabs_le_inv in YB. lra. }
  assert (G : e / 2 * (1 + Rabs r) <= g).
  { unfold g. apply Rmult_le_reg_r with (Rabs (vy s)); [exact Y0|]. unfold Rdiv. rewrite (Rmult_assoc _ (/ Rabs (vy s))), Rinv_l by lra. pose proof (Rabs_pos r). assert (0 <= e * (1 + Rabs r)) by (apply Rmult_le_pos; lra). nra. }
  assert (BQ : Rabs (- x / y) <= bpow radix2 50).
  { unfold Rdiv. rewrite Rabs_mult, Rabs_Ropp, Rabs_inv. apply Rle_trans with (2 * (32 / 25 * 2 ^ 42)); [|unfold bpow; cbn [radix2 radix_val Z.pow_pos Pos.iter Z.mul Pos.mul pow]; lra].
    apply Rmult_le_compat; auto using Rabs_pos; [left; now apply Rinv_0_lt_compat|]. replace (32 / 25 * 2 ^ 42) with (/ (25 / 32 * e)) by (unfold e; cbn [pow]; field). apply Rinv_le_contravar; lra. }
  assert (FN : is_finite (fneg (f_x v)) = true) by (unfold fneg; now rewrite is_finite_Bopp). assert (VN : B2R (fneg (f_x v)) = - x) by (unfold fneg; now rewrite B2R_Bopp).
  destruct (fdiv_in 50 (fneg (f_x v)) (f_y v) ltac:(lia) FN yN) as (FF & VV & _); [rewrite VN; exact BQ|]. split; [exact FF|]. rewrite VV, VN. fold y.
  pose proof (rnd_rel (- x / y)) as RR.
  assert (ET : eta <= u53 * / 4) by (apply Rle_trans with (bpow radix2 (-60)); [apply bpow_le; lia|]; rewrite u53_is; unfold bpow; cbn [radix2 radix_val Z.pow_pos Pos.iter Z.mul Pos.mul]; lra).
  assert (QR : Rabs (- x / y) <= Rabs r + 1 / 3 * g) by (pose proof (Rabs_triang_inv (- x / y) r); lra). rewrite u53_is in *. assert (E : / 9007199254740992 = e / 2048) by (unfold e; cbn [pow]; lra). rewrite E in *.
  assert (EV : 0 < e <= / 1024) by (split; [exact P42|unfold e; cbn [pow]; lra]). pose proof (Rabs_pos r) as R0. pose proof (Rabs_pos (- x / y)) as R1.
  assert (G0 : 0 <= g) by nra. assert (EG : e * g <= g) by nra.
  replace (rnd (- x / y) - r) with ((rnd (- x / y) - - x / y) + (- x / y - r)) by ring. apply Rle_trans with (1 := Rabs_triang _ _).
  assert (M : e / 2048 * Rabs (- x / y) <= e / 2048 * (Rabs r + 1 / 3 * g)) by (apply Rmult_le_compat_l; lra). nra.
Qed.
Print Assumptions C134_ratio.

(** One for each slip system, in the order of the systems, if there is a reference orientation; otherwise an
    AttributeError as soon as there is a system. *)
Theorem C134_all : forall dot3 groups,
  (forall q, ratios_f dot3 (Some q) groups = Ok (map (map (fun s => ratio_f dot3 q (snd s))) groups)) /\
  ratios_f dot3 None groups = if forallb (fun g => match g with [] => true | _ => false end) groups then Ok (map (fun _ => []) groups) else Err AttributeError.
Proof.
  intros dot3 groups. split.
  - intros q. unfold ratios_f. cbv beta.
    assert (ROW : forall grp row, for_each (fun row (s : fvec * fvec) => Ok (row ++ [ratio_f dot3 q (snd s)])) grp row = Ok (row ++ map (fun s => ratio_f dot3 q (snd s)) grp)).
    { induction grp as [|s grp IH]; intros row; cbn [for_each map bind]; [now rewrite app_nil_r|]. now rewrite IH, <- app_assoc. }
    assert (ALL : forall groups done, for_each (fun done grp => do row <- for_each (fun row (s : fvec * fvec) => Ok (row ++ [ratio_f dot3 q (snd s)])) grp []; Ok (done ++ [row])) groups done = Ok (done ++ map (map (fun s => ratio_f dot3 q (snd s))) groups)).
    { clear groups. induction groups as [|grp gs IH]; intros done; cbn [for_each map bind]; [now rewrite app_nil_r|]. rewrite ROW. cbn [bind app]. now rewrite IH, <- app_assoc. }
    apply (ALL groups []).
  - unfold ratios_f. cbv beta.
    assert (ALL : forall groups (done : list (list f64)), for_each (fun done grp => do row <- for_each (fun (row : list f64) (s : fvec * fvec) => Err AttributeError) grp []; Ok (done ++ [row])) groups done =
      if forallb (fun g : list (fvec * fvec) => match g with [] => true | _ => false end) groups then Ok (done ++ map (fun _ => []) groups) else Err AttributeError).
    { clear groups. induction groups as [|grp gs IH]; intros done; cbn [for_each forallb map bind]; [now rewrite app_nil_r|].
      destruct grp as [|s grp]; cbn [for_each bind andb]; [|reflexivity]. now rewrite IH, <- app_assoc. }
    apply (ALL groups []).
Qed.
Print Assumptions C134_all.

(** From the Euler angles of a file: the reference orientation of a grain whose first pixel has a rotation of less than
    180 degrees by a margin gives a ratio for each slip system, a number unless the slip direction is about horizontal. *)
Theorem C134_loaded : forall cos_s sin_s, good_trig cos_s cos -> good_trig sin_s sin ->
  forall dot3 dot_f dot4, any_order3 dot3 -> any_order dot4 ->
  forall g e0 es groups, Forall some_angles (e0 :: es) -> 2 / 1000000 <= Rabs (qw (true_orientation e0)) -> (Z.of_nat (List.length es) < 2 ^ 50)%Z ->
  exists r rs, average_f dot_f dot4 g (map (euler_quat cos_s sin_s) (e0 :: es)) = Ok r /\ ratios_f dot3 (Some r) groups = Ok rs /\
  Forall2 (Forall2 (fun s x => near_unit3 (/ 2 ^ 41) (snd s) -> / 2 ^ 42 <= Rabs (vy (in_sample (value r) (vvalue (snd s)))) ->
    is_finite x = true /\ exists t, grain_rdr (value r) (vvalue (snd s)) = Some t /\ Rabs (B2R x - t) <= / 2 ^ 42 * (1 + Rabs t) / Rabs (vy (in_sample (value r) (vvalue (snd s)))))) groups rs.
Proof.
  intros cos_s sin_s C S0 dot3 dot_f dot4 D3 D4 g e0 es groups A H L.
  destruct (C133_loaded cos_s sin_s C S0 dot3 left_to_right_v dot_f dot4 some_arccos D3 lr_any_v D4 some_full g e0 es [] A H L) as (r & ts & E & N & _); [intros ? []|].
  exists r, (map (map (fun s => ratio_f dot3 r (snd s))) groups). split; [exact E|]. split; [apply C134_all|].
  assert (P : / 2 ^ 41 <= / 8) by (cbn [pow]; lra). assert (SR : sound r) by exact (near_sound _ _ P N).
  induction groups as [|grp gs IH]; [apply Forall2_nil|]. cbn [map]. apply Forall2_cons; [|exact IH]. clear IH.
  induction grp as [|s grp IH]; [apply Forall2_nil|]. cbn [map]. apply Forall2_cons; [|exact IH]. intros NS Y.
  destruct (C134_ratio dot3 D3 r (snd s) SR (near_sound3 _ _ P NS) Y) as (t & G & _ & F & B). split; [exact F|]. exists t. split; [exact G|exact B].
Qed.
Print Assumptions C134_loaded.

(** A direction along the horizontal has no ratio; the number computed may be some ratio, one of the infinities, or nan
    (and numpy warns). *)
Theorem C134_horizontal_refuted : forall ratio, ratio = ratio_f left_to_right3 ->
  (grain_rdr (Q4 (5 / 6) (1 / 6) (1 / 6) (3 / 6)) (V3 (16 / 36) (32 / 36) (-4 / 36)) = None /\
   B2R (ratio (unit_of 5 1 1 3) (unit_f left_to_right_v (fvec_of_Z 16 32 (-4)))) = - 18014398509481984) /\
  (grain_rdr (Q4 1 0 0 0) (V3 1 0 0) = None /\ is_finite (ratio (F4 f1 f0 f0 f0) (F3 f1 f0 f0)) = false /\ ratio (F4 f1 f0 f0 f0) (F3 f1 f0 f0) <> B754_nan) /\
  (grain_rdr (Q4 1 0 0 0) (V3 0 0 1) = None /\ ratio (F4 f1 f0 f0 f0) (F3 f0 f0 f1) = B754_nan).
Proof.
  intros ratio ->. assert (NONE : forall q d, 0 <= qw q -> vy (in_sample q d) = 0 -> grain_rdr q d = None).
  { intros q d _ Z. unfold grain_rdr. cbv zeta. fold (in_sample q d). rewrite Z. destruct (Req_EM_T 0 0); [reflexivity|congruence]. }
  assert (YS : forall q d, 0 <= qw q -> vy (in_sample q d) = 2 * (qx q * qy q - qw q * qz q) * vx d + (qw q * qw q - qx q * qx q + qy q * qy q - qz q * qz q) * vy d + 2 * (qy q * qz q + qw q * qx q) * vz d).
  { intros q d W. unfold in_sample. rewrite conj_north by exact W. rewrite turned by exact W. cbv zeta. cbn [qw qx qy qz vy]. ring. }
  split; [|split].
  - split; [apply NONE; [cbn; lra|]; rewrite YS by (cbn; lra); cbn [qw qx qy qz vx vy vz]; field|].
    destruct (sf_value (fneg (ratio_f left_to_right3 (unit_of 5 1 1 3) (unit_f left_to_right_v (fvec_of_Z 16 32 (-4))))) 4503599627370496 2 ltac:(vm_compute; reflexivity)) as (V & _).
    unfold fneg in V at 1. rewrite B2R_Bopp in V. unfold bpow in V. cbn [radix2 radix_val Z.pow_pos Pos.iter Z.mul Pos.mul] in V. lra.
  - split; [apply NONE; [cbn; lra|]; rewrite YS by (cbn; lra); cbn [qw qx qy qz vx vy vz]; ring|].
    split; [vm_compute; reflexivity|]. intros E. apply (f_equal is_nan) in E. vm_compute in E. discriminate E.
  - split; [apply NONE; [cbn; lra|]; rewrite YS by (cbn; lra); cbn [qw qx qy qz vx vy vz]; ring|]. vm_compute. reflexivity.
Qed.
Print Assumptions C134_horizontal_refuted.

(** Where a coefficient of the orientation or of the direction is nan, so is the ratio. *)
Theorem C134_nan : forall dot3, any_order3 dot3 -> forall q d, In B754_nan [fw q; fx q; fy q; fz q; f_x d; f_y d; f_z d] -> ratio_f dot3 q d = B754_nan.
Proof.
  intros dot3 D q d H. assert (H' : has_nan4 q \/ has_nan3 d) by (unfold has_nan4, has_nan3; cbn in H; intuition congruence). unfold ratio_f, transform_f. cbv zeta.
  assert (P : mul_south_f dot3 (F4 f0 (f_x d) (f_y d) (f_z d)) (conjugate_f (conjugate_f q)) = nan4).
  { apply nan_product; [exact D|]. cbn [fx fy fz]. destruct H' as [H'|[H'|[H'|H']]]; auto. do 3 right. now apply nan_conj, nan_conj. }
  rewrite P. rewrite (nan_product dot3 _ nan4 D) by (do 3 right; left; reflexivity). reflexivity.
Qed.
Print Assumptions C134_nan.

(** The direction [0 1 0] in the orientation (1, 4, 1, 6) / sqrt 54. *)
Example C134_met : let q := unit_of 1 4 1 6 in let d := F3 f0 f1 f0 in sound q /\ sound3 d /\ / 2 ^ 42 <= Rabs (vy (in_sample (value q) (vvalue d))).
Proof.
  intros q d. destruct f1_is as (V1 & F1). assert (SQ : sound q) by exact (proj1 unit146).
  assert (VD : vvalue d = V3 0 1 0) by (unfold vvalue, d; cbn [f_x f_y f_z]; rewrite V1; reflexivity).
  assert (SD : sound3 d) by (split; [repeat split; auto|rewrite VD; unfold vdot; cbn [vx vy vz]; lra]). split; [exact SQ|]. split; [exact SD|].
  destruct (conj_is q SQ) as (SC & VC). destruct (transform_near left_to_right3 _ d lr_any3 SC SD) as (_ & _ & (_ & EY & _) & _). rewrite VC in EY. unfold in_sample. rewrite u53_is in EY.
  match type of EY with Rabs (B2R ?t - _) <= _ => destruct (sf_value (fneg t) 8339999309945362 (-53) ltac:(vm_compute; reflexivity)) as (V & _) end. unfold fneg in V at 1. rewrite B2R_Bopp in V.
  unfold bpow in V. cbn [radix2 radix_val Z.pow_pos Pos.iter Z.mul Pos.mul] in V. apply Rabs_le_inv in EY. rewrite Rabs_left; cbn [pow]; lra.
Qed.
