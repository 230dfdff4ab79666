(** C132: Schmid factors in double precision. *)
From Coq Require Import String Reals Lra Psatz.
From Coq Require Import List ZArith Bool Lia.
From Flocq Require Import Core IEEE754.BinarySingleNaN.
From Verif Require Import Py Quat_Model Quat_Spec Crystal_Model Double_Model Double_Spec Double_Proofs Double_Angle Double_Props Kam64_Model Kam64_Proofs
  Average64_Model Average64_Spec Average64_Proofs Average64_Props Single_Model Single_Spec Single_Angle Single_Props Schmid64_Model Schmid64_Spec Schmid64_Proofs.
Import ListNotations.
Open Scope R_scope.

(** A factor is a number, not negative, and within 2^-39 of what it would be without rounding, whatever
    the order of the sums; so is each coefficient of the transformed vector. *)
Theorem C132_factor : forall dot3 dotv, any_order3 dot3 -> any_order_v dotv -> forall q l, sound q -> sound3 l ->
  (let v := transform_f dot3 q l in let v' := transform_vector (value q) (vvalue l) in
   finite3 v /\ Rabs (B2R (f_x v) - vx v') <= / 2 ^ 44 /\ Rabs (B2R (f_y v) - vy v') <= / 2 ^ 44 /\ Rabs (B2R (f_z v) - vz v') <= / 2 ^ 44) /\
  forall s p d, sound3 p -> sound3 d -> slip_plane s = vvalue p -> slip_dir s = vvalue d ->
  let f := schmid_f dot3 dotv q l p d in is_finite f = true /\ 0 <= B2R f /\ Rabs (B2R f - schmid_factor (value q) (vvalue l) s) <= / 2 ^ 39.
Proof.
  intros dot3 dotv D3 DV q l SQ SL. split.
  - destruct (transform_near dot3 q l D3 SQ SL) as (_ & (F1 & E1 & _) & (F2 & E2 & _) & (F3' & E3 & _)). cbv zeta. rewrite u53_is in *.
    split; [repeat split; assumption|]. cbn [pow]. split; [|split]; lra.
  - intros s p d SP SD PE DE. unfold schmid_factor. cbv zeta. rewrite PE, DE. exact (factor_near dot3 dotv q l p d D3 DV SQ SL SP SD).
Qed.
Print Assumptions C132_factor.
(** For directions of length one up to 2^-41 it is at most 1/2 + 2^-38. *)
Theorem C132_half : forall dot3 dotv, any_order3 dot3 -> any_order_v dotv ->
  forall q l p d, near_unit (/ 2 ^ 41) q -> near_unit3 (/ 2 ^ 41) l -> square_on (/ 2 ^ 41) p d ->
  let f := schmid_f dot3 dotv q l p d in is_finite f = true /\ 0 <= B2R f <= 1 / 2 + / 2 ^ 38.
Proof.
  intros dot3 dotv D3 DV q l p d Q L S. cbv zeta. pose proof (half_near q l p d Q L S) as H. assert (E8 : / 2 ^ 41 <= / 8) by (cbn [pow]; lra).
  destruct S as (P & D & _).
  destruct (factor_near dot3 dotv q l p d D3 DV (near_sound _ _ E8 Q) (near_sound3 _ _ E8 L) (near_sound3 _ _ E8 P) (near_sound3 _ _ E8 D)) as (F & B & E).
  split; [exact F|]. split; [exact B|]. cbn [pow] in *. apply Rabs_le_inv in E. lra.
Qed.
Print Assumptions C132_half.
Lemma forty_five r : schmid_factor (Q4 1 0 0 0) (V3 r r 0) (SS [] [] (V3 1 0 0) (V3 0 1 0) "cubic"%string None) = Rabs (r * r).
Proof.
  unfold schmid_factor. cbv zeta. rewrite transform_is. cbn [slip_plane slip_dir]. unfold conjugate, Quat. cbn [qw qx qy qz]. destruct (Rlt_dec 1 0); [lra|].
  unfold raw_mul, as_quat, qv, vdot. cbn [qw qx qy qz vx vy vz]. f_equal. ring.
Qed.
(** It may be above one half, although no product of cosines is: loading along (1, 1, 0) / sqrt 2 as numpy
    computes the coefficients, plane (1, 0, 0) and direction (0, 1, 0). *)
Theorem C132_half_refuted : let q := F4 f1 f0 f0 f0 in let l := F3 over_root2_f over_root2_f f0 in let p := F3 f1 f0 f0 in let d := F3 f0 f1 f0 in
  near_unit3 (/ 2 ^ 41) l /\ 1 / 2 < B2R (schmid_f left_to_right3 left_to_right_v q l p d) /\
  schmid_factor (value q) (V3 over_root2 over_root2 0) (SS [] [] (vvalue p) (vvalue d) "cubic"%string None) = 1 / 2.
Proof.
  intros q l p d. split; [|split].
  - destruct ap_r2 as (F & E & _). split; [repeat split; exact F|]. unfold vdot, vvalue, l. cbn [f_x f_y f_z vx vy vz]. change (B2R f0) with 0.
    assert (R2 : over_root2 * over_root2 = / 2) by (unfold over_root2; pose proof (sqrt_sqrt 2 ltac:(lra)); lra). pose proof root2_pos as P. assert (over_root2 <= 1) by nra.
    set (x := B2R over_root2_f) in *. rewrite u53_is in E. apply Rabs_le_inv in E.
    replace (x * x + x * x + 0 * 0 - 1) with (2 * ((x - over_root2) * (x - over_root2 + 2 * over_root2))) by (rewrite <- (Rmult_1_r 1) at 1; nra).
    apply Rabs_le. cbn [pow]. split; nra.
  - destruct (sf_value (schmid_f left_to_right3 left_to_right_v q l p d) 4503599627370497 (-53) ltac:(vm_compute; reflexivity)) as (E & _).
    rewrite E. unfold bpow. cbn [radix2 radix_val Z.pow_pos Pos.iter Z.mul Pos.mul]. lra.
  - assert (VQ : value q = Q4 1 0 0 0 /\ vvalue p = V3 1 0 0 /\ vvalue d = V3 0 1 0).
    { unfold value, vvalue, q, p, d. cbn [fw fx fy fz f_x f_y f_z]. rewrite (proj1 f1_is). repeat split. }
    destruct VQ as (-> & -> & ->). clear. rewrite forty_five. assert (R2 : over_root2 * over_root2 = 1 / 2) by (unfold over_root2; pose proof (sqrt_sqrt 2 ltac:(lra)); lra).
    rewrite R2. apply Rabs_pos_eq. lra.
Qed.
Print Assumptions C132_half_refuted.

(** The vectors of slip systems of cubic crystals: for Miller indices below 2^53, not all zero, they are those
    without rounding up to 2^-45 in each coefficient; if the direction is in the plane, they are of length
    one and at a right angle up to 2^-41. *)
Lemma vunit_whole dotv a b c : any_order_v dotv -> (Z.abs a < 2 ^ 53)%Z -> (Z.abs b < 2 ^ 53)%Z -> (Z.abs c < 2 ^ 53)%Z -> (a <> 0 \/ b <> 0 \/ c <> 0)%Z ->
  exists v, vunit (V3 (IZR a) (IZR b) (IZR c)) = Ok v /\ near3 (/ 2 ^ 45) (unit_f dotv (fvec_of_Z a b c)) v.
Proof.
  intros D A B C N. destruct (unit_whole dotv a b c D A B C N) as (s & S0 & SS & F & E1 & E2 & E3).
  unfold vunit, vdot. cbn [vx vy vz]. replace (IZR a * IZR a + IZR b * IZR b + IZR c * IZR c) with (s * s) by (rewrite SS, !plus_IZR, !mult_IZR; ring). rewrite sqrt_square by lra. cbv zeta.
  destruct (Req_EM_T s 0); [lra|]. eexists. split; [reflexivity|]. unfold Rdiv in *. unfold vscale. split; [exact F|]. cbn [vx vy vz]. rewrite !(Rmult_comm (/ s)). auto.
Qed.
Theorem C132_cubic : forall dotv, any_order_v dotv -> forall a b c a' b' c', (forall z, In z [a; b; c; a'; b'; c'] -> Z.abs z < 2 ^ 53)%Z ->
  (a <> 0 \/ b <> 0 \/ c <> 0)%Z -> (a' <> 0 \/ b' <> 0 \/ c' <> 0)%Z ->
  let p := unit_f dotv (fvec_of_Z a b c) in let d := unit_f dotv (fvec_of_Z a' b' c') in
  (forall conv ca, exists s, mk_slip_system conv [a; b; c] [a'; b'; c'] "cubic"%string ca = Ok s /\ near3 (/ 2 ^ 45) p (slip_plane s) /\ near3 (/ 2 ^ 45) d (slip_dir s)) /\
  ((a * a' + b * b' + c * c' = 0)%Z -> square_on (/ 2 ^ 41) p d).
Proof.
  intros dotv D a b c a' b' c' L N N'. cbv zeta. split; [|intros O; now apply whole_square].
  intros conv ca. destruct (vunit_whole dotv a b c D) as (v & E & V); [apply L; cbn; tauto|apply L; cbn; tauto|apply L; cbn; tauto|exact N|].
  destruct (vunit_whole dotv a' b' c' D) as (v' & E' & V'); [apply L; cbn; tauto|apply L; cbn; tauto|apply L; cbn; tauto|exact N'|].
  unfold mk_slip_system. cbn [String.eqb Ascii.eqb Bool.eqb map vec_of bind]. rewrite E. cbn [bind]. rewrite E'. cbn [bind]. eexists. split; [reflexivity|]. split; assumption.
Qed.
Print Assumptions C132_cubic.

(** So the factors of a grain: there is one for each system, in the order of the systems, and all are numbers from
    0 to 1/2 + 2^-38, for the average orientation of any number (below 2^50) of orientations, the first
    of which is no half turn.  A reference orientation that is there is used instead. *)
Theorem C132_grain : forall dot3 dotv dot_f dot4, any_order3 dot3 -> any_order_v dotv -> any_order dot4 ->
  forall g q0 rest l groups, Forall (fun q => sound q /\ 0 <= B2R (fw q)) (q0 :: rest) -> / 2 ^ 400 <= B2R (fw q0) -> (Z.of_nat (List.length rest) < 2 ^ 50)%Z ->
  near_unit3 (/ 2 ^ 41) l -> Forall (Forall (fun s => square_on (/ 2 ^ 41) (fst s) (snd s))) groups ->
  exists r fs, average_f dot_f dot4 g (q0 :: rest) = Ok r /\ schmid_factors_f dot3 dotv dot_f dot4 None g (q0 :: rest) l groups = Ok fs /\
  Forall2 (Forall2 (fun s f => f = schmid_f dot3 dotv r l (fst s) (snd s) /\ is_finite f = true /\ 0 <= B2R f <= 1 / 2 + / 2 ^ 38)) groups fs /\
  forall ref qs, schmid_factors_f dot3 dotv dot_f dot4 (Some ref) g qs l groups = Ok (map (map (fun s => schmid_f dot3 dotv ref l (fst s) (snd s))) groups).
Proof.
  intros dot3 dotv dot_f dot4 D3 DV D4 g q0 rest l groups H P L NL G. destruct (C131_average dot_f dot4 D4 g q0 rest H P L) as (r & E & U & _).
  exists r. eexists. split; [exact E|]. unfold schmid_factors_f. rewrite E. cbn [bind]. split; [reflexivity|]. split; [|reflexivity].
  induction G as [|gr gs K _ IH]; [apply Forall2_nil|]. cbn [map]. apply Forall2_cons; [|exact IH]. clear IH.
  induction K as [|s ss Q _ IH]; [apply Forall2_nil|]. cbn [map]. apply Forall2_cons; [|exact IH]. split; [reflexivity|]. exact (C132_half dot3 dotv D3 DV r l _ _ U NL Q).
Qed.
Print Assumptions C132_grain.

(** From Euler angles in single precision, as they are loaded, to the factors of a grain. *)
Lemma euler_north cos_s sin_s e : finite4 (euler_quat cos_s sin_s e) -> 0 <= B2R (fw (euler_quat cos_s sin_s e)).
Proof.
  destruct e as ((a, b), c). unfold euler_quat. cbv zeta. cbn [fw]. match goal with |- context [flt ?x f0] => set (w := x) end. intros F. destruct (flt w f0) eqn:E.
  - destruct F as (F & _). cbn [fqneg fw] in F |- *. fold w in F |- *. unfold fneg in F |- *. rewrite B2R_Bopp. rewrite is_finite_Bopp in F. pose proof (proj1 (flt_zero _ F) E). lra.
  - destruct F as (F & _). cbn [fw] in F |- *. fold w in F |- *. now apply flt_zero.
Qed.
Theorem C132_loaded : forall cos_s sin_s, good_trig cos_s cos -> good_trig sin_s sin ->
  forall dot3 dotv dot_f dot4, any_order3 dot3 -> any_order_v dotv -> any_order dot4 ->
  forall g e0 es l groups, Forall some_angles (e0 :: es) -> 2 / 1000000 <= Rabs (qw (true_orientation e0)) -> (Z.of_nat (List.length es) < 2 ^ 50)%Z ->
  near_unit3 (/ 2 ^ 41) l -> Forall (Forall (fun s => square_on (/ 2 ^ 41) (fst s) (snd s))) groups ->
  exists fs, schmid_factors_f dot3 dotv dot_f dot4 None g (map (euler_quat cos_s sin_s) (e0 :: es)) l groups = Ok fs /\
  Forall2 (Forall2 (fun _ f => is_finite f = true /\ 0 <= B2R f <= 1 / 2 + / 2 ^ 38)) groups fs.
Proof.
  intros cos_s sin_s C S0 dot3 dotv dot_f dot4 D3 DV D4 g e0 es l groups A H L NL G.
  assert (K : forall e, some_angles e -> sound (euler_quat cos_s sin_s e) /\ 0 <= B2R (fw (euler_quat cos_s sin_s e))).
  { intros e E. destruct (euler_sound cos_s sin_s C S0 e E) as (Q & _). split; [exact Q|]. apply euler_north, Q. }
  inversion_clear A as [|? ? A0 A1].
  destruct (C132_grain dot3 dotv dot_f dot4 D3 DV D4 g (euler_quat cos_s sin_s e0) (map (euler_quat cos_s sin_s) es) l groups) as (r & fs & _ & E & F & _); try assumption.
  - apply Forall_cons; [now apply K|]. rewrite Forall_map. revert A1. apply Forall_impl. exact K.
  - destruct (C127_orientation cos_s sin_s C S0 e0 A0) as (_ & _ & s & SG & N). specialize (N qw ltac:(cbn; tauto)). destruct (K e0 A0) as (_ & P). cbn [value qw] in N. apply Rabs_le_inv in N.
    assert (B : 9 / 10000000 <= B2R (fw (euler_quat cos_s sin_s e0))).
    { revert H N. unfold Rabs. destruct (Rcase_abs _), SG as [-> | ->]; intros; lra. }
    apply Rle_trans with (2 := B). apply Rle_trans with (/ 2 ^ 40); [|cbn [pow]; lra]. apply Rinv_le_contravar; [apply pow_lt; lra|]. apply Rle_pow; [lra|lia].
  - now rewrite map_length.
  - exists fs. split; [exact E|]. clear - F. induction F as [|x y xs ys X _ IH]; [apply Forall2_nil|]. apply Forall2_cons; [|exact IH]. clear IH.
    induction X as [|u v us vs U _ IH]; [apply Forall2_nil|]. apply Forall2_cons; [apply U|exact IH].
Qed.
Print Assumptions C132_loaded.

(** Where a coefficient of the orientation or of the load is nan, so is every factor. *)
Theorem C132_nan : forall dot3 dotv dot_f dot4, any_order3 dot3 -> any_order_v dotv -> forall q g qs l groups fs,
  In B754_nan [fw q; fx q; fy q; fz q; f_x l; f_y l; f_z l] -> schmid_factors_f dot3 dotv dot_f dot4 (Some q) g qs l groups = Ok fs ->
  List.length fs = List.length groups /\ Forall (Forall (fun f => f = B754_nan)) fs.
Proof.
  intros dot3 dotv dot_f dot4 D3 DV q g qs l groups fs N E. assert (H : has_nan4 q \/ has_nan3 l) by (unfold has_nan4, has_nan3; cbn in N; intuition congruence).
  unfold schmid_factors_f in E. cbn [bind] in E. injection E as <-. split; [apply map_length|]. rewrite Forall_map. apply Forall_forall. intros gr _. rewrite Forall_map. apply Forall_forall. intros s _. now apply nan_factor.
Qed.
Print Assumptions C132_nan.

(** Two orientations, load along (1, 4, 8) / 9, the system (1 1 1)[1 -1 0]. *)
Lemma lr_any_v : any_order_v left_to_right_v.
Proof. intros a b. unfold left_to_right_v, pairs3. change [(f_x a, f_x b); (f_y a, f_y b); (f_z a, f_z b)] with (([(f_x a, f_x b)] ++ [(f_y a, f_y b)]) ++ [(f_z a, f_z b)]). repeat constructor. Qed.
Example C132_met : let q := unit_of 1 4 1 6 in let l := unit_f left_to_right_v (fvec_of_Z 1 4 8) in
  let s := (unit_f left_to_right_v (fvec_of_Z 1 1 1), unit_f left_to_right_v (fvec_of_Z 1 (-1) 0)) in
  exists f, schmid_factors_f left_to_right3 left_to_right_v (fun _ _ => left_to_right) left_to_right None "cubic"%string [q; q] l [[s]] = Ok [[f]] /\ is_finite f = true /\ 0 <= B2R f <= 1 / 2 + / 2 ^ 38.
Proof.
  intros q l s. assert (W : 0 <= B2R (fw q) /\ / 2 ^ 400 <= B2R (fw q)).
  { destruct (sf_value (fw q) 4902898263487188 (-55) ltac:(vm_compute; reflexivity)) as (E & _). rewrite E.
    assert (K : / 16 <= 4902898263487188 * bpow radix2 (-55)) by (unfold bpow; cbn [radix2 radix_val Z.pow_pos Pos.iter Z.mul Pos.mul]; lra). split; [lra|]. apply Rle_trans with (2 := K). apply Rinv_le_contravar; [lra|].
    apply Rle_trans with (2 ^ 4); [lra|]. apply Rle_pow; [lra|lia]. }
  assert (Q : sound q /\ 0 <= B2R (fw q)) by (split; [exact (proj1 unit146)|apply W]).
  assert (L : near_unit3 (/ 2 ^ 41) l).
  { apply (C132_cubic left_to_right_v lr_any_v 1 4 8 4 (-1) 0); [|lia|lia|reflexivity]. intros z I. cbn in I. lia. }
  assert (S : square_on (/ 2 ^ 41) (fst s) (snd s)).
  { apply (C132_cubic left_to_right_v lr_any_v 1 1 1 1 (-1) 0); [|lia|lia|reflexivity]. intros z I. cbn in I. lia. }
  destruct (C132_grain left_to_right3 left_to_right_v (fun _ _ => left_to_right) left_to_right lr_any3 lr_any_v lr_any "cubic"%string q [q] l [[s]]) as (r & fs & _ & E & A & _);
    [repeat apply Forall_cons; try exact Q; apply Forall_nil|apply W|reflexivity|exact L|repeat apply Forall_cons; try apply Forall_nil; exact S|].
  destruct fs as [|gr fs]; [inversion A|]. inversion_clear A as [|? ? ? ? A1 A']. destruct fs; [|inversion A'].
  destruct gr as [|f gr]; [inversion A1|]. inversion_clear A1 as [|? ? ? ? A2 A3]. destruct gr; [|inversion A3]. exists f. split; [exact E|apply A2].
Qed.
