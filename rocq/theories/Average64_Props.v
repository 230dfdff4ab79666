(** C131: normalised quaternions, average orientations and misorientations to them in double precision. *)
From Coq Require Import String Reals Lra Psatz.
From Coq Require Import List ZArith Bool Lia.
From Flocq Require Import Core IEEE754.BinarySingleNaN.
From Verif Require Import Py Quat_Model Quat_Spec Quat_Proofs QuatSym_Proofs QuatMany_Proofs Ebsd_Model Double_Model Double_Spec Double_Proofs Double_Angle Double_Props
  Strain64_Proofs Kam64_Model Kam64_Spec Kam64_Proofs Grod64_Proofs Kam64_Props Average64_Model Average64_Spec Average64_Proofs.
Import ListNotations.
Open Scope R_scope.

(** Quaternions that are neither huge nor tiny are normalised as without rounding, up to 2^-45 in each
    coefficient, whatever the order of the sum; the result has length one up to 2^-41. *)
Theorem C131_normalise : forall dot4 q, any_order dot4 -> in_range q ->
  (exists n, normalise (value q) = Some n /\ near_quat (/ 2 ^ 45) (normalise_f dot4 q) n) /\ near_unit (/ 2 ^ 41) (normalise_f dot4 q).
Proof.
  intros dot4 q DOT IR. destruct (normalise_near dot4 q DOT IR) as (n & E & N & _). split; [eauto|]. apply near_is_unit with n; [|exact N].
  assert (NZ : value q <> Q4 0 0 0 0). { intros Z. unfold normalise in E. rewrite Z in E. unfold norm, dot in E. cbn [qw qx qy qz] in E. replace (0 * 0 + 0 * 0 + 0 * 0 + 0 * 0) with 0 in E by ring. rewrite sqrt_0 in E. destruct (Req_EM_T 0 0); [discriminate|congruence]. }
  destruct (normalise_spec _ NZ) as (k & n' & E' & _ & U & _). rewrite E in E'. apply some_inj in E'. subst n'. exact U.
Qed.
Print Assumptions C131_normalise.
(** Of others the squares are lost: (2^-600, 0, 0, 0) becomes infinity and nan, (2^600, 0, 0, 0) becomes 0. *)
Definition tiny_f : f64 := number 4503599627370496 (-652) eq_refl.
Definition huge_f : f64 := number 4503599627370496 548 eq_refl.
Theorem C131_normalise_refuted : let t := F4 tiny_f f0 f0 f0 in let h := F4 huge_f f0 f0 f0 in
  (finite4 t /\ normalise (value t) = Some (Q4 1 0 0 0) /\ normalise_f left_to_right t = F4 (B754_infinity false) B754_nan B754_nan B754_nan) /\
  (finite4 h /\ normalise (value h) = Some (Q4 1 0 0 0) /\ normalise_f left_to_right h = F4 f0 f0 f0 f0).
Proof.
  assert (N : forall x : f64, 0 < B2R x -> normalise (value (F4 x f0 f0 f0)) = Some (Q4 1 0 0 0)).
  { intros x P. unfold normalise, value, norm, dot. cbn [fw fx fy fz qw qx qy qz]. change (B2R f0) with 0. replace (B2R x * B2R x + 0 * 0 + 0 * 0 + 0 * 0) with (B2R x * B2R x) by ring. rewrite sqrt_square by lra. cbv zeta.
    destruct (Req_EM_T (B2R x) 0); [lra|]. f_equal. f_equal; field; lra. }
  assert (P : forall m e H, 0 < B2R (number m e H)). { intros m e H. rewrite (proj1 (number_value m e H)). apply Rmult_lt_0_compat; [apply (IZR_lt 0); lia|apply bpow_gt_0]. }
  intros t h. split; (split; [repeat split|split; [apply N, P|vm_compute; reflexivity]]).
Qed.
Print Assumptions C131_normalise_refuted.

(** The average of any number (below 2^50) of orientations in the northern hemisphere, the first of which
    is no half turn, consists of numbers and is of length one up to 2^-41, for every crystal symmetry. *)
Theorem C131_average : forall dot_f dot4, any_order dot4 ->
  forall g q0 rest, Forall (fun q => sound q /\ 0 <= B2R (fw q)) (q0 :: rest) -> / 2 ^ 400 <= B2R (fw q0) -> (Z.of_nat (List.length rest) < 2 ^ 50)%Z ->
  exists a, average_f dot_f dot4 g (q0 :: rest) = Ok a /\ near_unit (/ 2 ^ 41) a /\ 0 <= B2R (fw a).
Proof.
  intros dot_f dot4 DOT4 g q0 rest H P L. destruct (sum_range dot_f g q0 rest H P L) as (IR & G). eexists. split; [reflexivity|].
  assert (P0 : 0 < / 2 ^ 400) by (apply Rinv_0_lt_compat, pow_lt; lra).
  rewrite north_pos; [|apply IR|lra]. set (s := sum_f dot_f g q0 rest) in *. split; [exact (proj2 (C131_normalise dot4 s DOT4 IR))|].
  destruct (normalise_near dot4 s DOT4 IR) as (_ & _ & _ & S0). apply S0. lra.
Qed.
Print Assumptions C131_average.
(** No average has a negative scalar part, whatever the orientations; without any there is none. *)
Lemma quotient_pos x n : 0 <= B2R x -> 0 <= B2R n -> is_finite (fdiv x n) = true -> 0 <= B2R (fdiv x n).
Proof.
  intros X N F. destruct (Req_dec (B2R n) 0) as [Z|NZ].
  - assert (B : B2R (fdiv x n) = 0); [|lra]. destruct n as [s|s| |s m e B]; cbn [B2R] in Z.
    + exfalso. destruct x as [b|b| |b m e B]; discriminate F.
    + destruct x as [b|b| |b m e B]; try discriminate F; reflexivity.
    + exfalso. destruct x as [b|b| |b m e B]; discriminate F.
    + exfalso. apply eq_0_F2R in Z. destruct s; discriminate Z.
  - pose proof (Bdiv_correct 53 1024 _ _ mode_NE x n NZ) as C. fold (fdiv x n) in C. rewrite round_mode_is in C. destruct (Rlt_bool _ _).
    + destruct C as (-> & _). apply rnd_pos. unfold Rdiv. apply Rmult_le_pos; [exact X|left; apply Rinv_0_lt_compat; lra].
    + exfalso. revert F C. destruct (fdiv x n); try discriminate; cbn; intros; discriminate.
Qed.
Theorem C131_northern : forall dot_f dot4 g qs,
  match average_f dot_f dot4 g qs with
  | Ok a => qs <> [] /\ (is_finite (fw a) = true -> 0 <= B2R (fw a))
  | Err e => qs = [] /\ e = IndexError
  end.
Proof.
  intros dot_f dot4 g [|q0 rest]; [split; reflexivity|]. cbn [average_f]. split; [discriminate|]. unfold normalise_f. cbv zeta. cbn [fw]. intros F. apply quotient_pos; [| |exact F].
  - unfold north_f. set (s := sum_f dot_f g q0 rest). destruct (flt (fw s) f0) eqn:E.
    + cbn [fqneg fw]. unfold fneg. rewrite B2R_Bopp. destruct (is_finite (fw s)) eqn:FS; [pose proof (proj1 (flt_zero _ FS) E); lra|]. destruct (fw s); try discriminate FS; cbn [B2R]; lra.
    + destruct (is_finite (fw s)) eqn:FS; [now apply flt_zero|]. destruct (fw s); try discriminate FS; cbn [B2R]; lra.
  - destruct (Bsqrt_correct 53 1024 _ _ mode_NE (dot4 (north_f (sum_f dot_f g q0 rest)) (north_f (sum_f dot_f g q0 rest)))) as (V & _). fold (fsqrt (dot4 (north_f (sum_f dot_f g q0 rest)) (north_f (sum_f dot_f g q0 rest)))) in V.
    rewrite V, round_mode_is. apply rnd_pos, sqrt_pos.
Qed.
Print Assumptions C131_northern.

(** Where every choice among equivalents is clear and the orientations do not cancel, the average of up to
    2^20 of them is that without rounding, up to 2^-42 per orientation in each coefficient. *)
Theorem C131_near : forall dot_f dot4, (forall i j, any_order (dot_f i j)) -> any_order dot4 ->
  forall g q0 rest r, Forall (fun q => sound q /\ 0 <= B2R (fw q)) (q0 :: rest) -> (Z.of_nat (List.length (q0 :: rest)) <= 2 ^ 20)%Z ->
  clear_sum (sym_eqv g) (value q0) (map value rest) r -> INR (List.length (q0 :: rest)) / 2 <= sqrt (inner r r) ->
  exists a n, average_f dot_f dot4 g (q0 :: rest) = Ok a /\ calc_average_ori (calc_sym_eqvs (map value (q0 :: rest)) g) = Some n /\
    near_quat (INR (List.length (q0 :: rest)) / 2 ^ 42) a n.
Proof. intros dot_f dot4 DOT DOT4 g q0 rest r H L C N. now apply average_near with r. Qed.
Print Assumptions C131_near.

(** Then a grain with no reference orientation gets one, and the misorientation of every point to it is a
    number within 1/3000 degree of the angle without rounding. *)
Theorem C131_grod : forall dot_f dot4 arccos, (forall i j, any_order (dot_f i j)) -> any_order dot4 -> good_arccos arccos ->
  forall g q0 rest, Forall (fun q => sound q /\ 0 <= B2R (fw q)) (q0 :: rest) -> / 2 ^ 400 <= B2R (fw q0) -> (Z.of_nat (List.length rest) < 2 ^ 50)%Z ->
  exists r l exact, grod_f dot_f dot4 arccos None (q0 :: rest) g = Ok (r, l) /\ average_f dot_f dot4 g (q0 :: rest) = Ok r /\ near_unit (/ 2 ^ 41) r /\
    calc_grod (Some (value r)) (map value (q0 :: rest)) g = Some exact /\ List.length l = List.length (q0 :: rest) /\ List.length exact = List.length (q0 :: rest) /\
    forall i a v a' v', nth_error l i = Some (a, v) -> nth_error exact i = Some (a', v') -> is_finite a = true /\ Rabs (degrees (B2R a) - degrees a') <= / 3000.
Proof.
  intros dot_f dot4 arccos DOT DOT4 AC g q0 rest H P L. destruct (C131_average dot_f dot4 DOT4 g q0 rest H P L) as (r & E & U & _).
  assert (SR : sound r). { destruct U as (F & U). split; [exact F|]. cbn [pow] in U. apply Rabs_le_inv in U. lra. }
  assert (SQ : Forall sound (q0 :: rest)). { rewrite Forall_forall in *. intros q I. exact (proj1 (H q I)). }
  exists r, (calc_grod_f dot_f arccos r (q0 :: rest) g). destruct (calc_grod (Some (value r)) (map value (q0 :: rest)) g) as [exact|] eqn:EX; [|unfold calc_grod, ref_or_average in EX; discriminate]. exists exact.
  destruct (C130_angle dot_f arccos DOT AC r (q0 :: rest) g exact SR SQ EX) as (LE & A).
  assert (LL : List.length (calc_grod_f dot_f arccos r (q0 :: rest) g) = List.length (q0 :: rest)) by (unfold calc_grod_f; rewrite map_length, combine_length, seq_length; lia).
  split; [unfold grod_f; rewrite E; reflexivity|]. split; [exact E|]. split; [exact U|]. split; [reflexivity|]. split; [exact LL|]. split; [congruence|exact A].
Qed.
Print Assumptions C131_grod.
(** A reference orientation that is there is kept, also for no points at all. *)
Theorem C131_kept : forall dot_f dot4 arccos r qs g, exists l, grod_f dot_f dot4 arccos (Some r) qs g = Ok (r, l) /\ l = calc_grod_f dot_f arccos r qs g /\
  grod_f dot_f dot4 arccos None [] g = Err IndexError.
Proof. intros dot_f dot4 arccos r qs g. eexists. split; [reflexivity|]. split; reflexivity. Qed.
Print Assumptions C131_kept.

(** Not so for half turns: twice the same rotation, written with both signs, has no average, and every angle
    and axis of the grain is nan. *)
Theorem C131_average_refuted : forall arccos, arccos B754_nan = B754_nan -> let a := F4 f0 f1 f0 f0 in let b := F4 f0 (fneg f1) f0 f0 in let nan3 := (B754_nan, (B754_nan, B754_nan, B754_nan)) in
  Forall (fun q => sound q /\ 0 <= B2R (fw q)) [a; b] /\ same_rot (value b) (value a) /\
  grod_f (fun _ _ => left_to_right) left_to_right arccos None [a; b] "cubic" = Ok (F4 B754_nan B754_nan B754_nan B754_nan, [nan3; nan3]).
Proof.
  intros arccos AN a b nan3. destruct f1_is as (V1 & F1). split; [|split].
  - repeat apply Forall_cons; try apply Forall_nil; (split; [split; [repeat split|]|cbn; lra]); unfold dot, value, a, b, fneg; cbn [fw fx fy fz qw qx qy qz]; rewrite ?B2R_Bopp, V1; change (B2R f0) with 0; lra.
  - right. unfold value, a, b, opp, fneg. cbn [fw fx fy fz qw qx qy qz]. rewrite B2R_Bopp. change (B2R f0) with 0. f_equal; ring.
  - unfold grod_f. assert (E : average_f (fun _ _ => left_to_right) left_to_right "cubic" [a; b] = Ok (F4 B754_nan B754_nan B754_nan B754_nan)) by (vm_compute; reflexivity). rewrite E. cbn [bind]. f_equal. f_equal.
    assert (K : forall i q, In q [a; b] -> grod_point_f (fun _ _ => left_to_right) arccos i "cubic" (F4 B754_nan B754_nan B754_nan B754_nan) q = nan3).
    { intros i q I. unfold grod_point_f. assert (PF : point_f (fun _ _ => left_to_right) i "cubic" q (F4 B754_nan B754_nan B754_nan B754_nan) = (B754_nan, q)) by (destruct I as [<-|[<-|[]]]; vm_compute; reflexivity).
      rewrite PF. rewrite AN. unfold grod_axis_f. cbv zeta. assert (DQ : dq_f (conjugate_f (F4 B754_nan B754_nan B754_nan B754_nan)) q = F4 B754_nan B754_nan B754_nan B754_nan) by (destruct I as [<-|[<-|[]]]; vm_compute; reflexivity).
      rewrite DQ. cbn [fw fx fy fz]. change (flt B754_nan f0) with false. cbv iota. cbn [fw fx fy fz]. unfold axis_f. rewrite AN. vm_compute. reflexivity. }
    unfold calc_grod_f. cbn [List.length seq combine map fst snd]. rewrite !K; cbn; tauto.
Qed.
Print Assumptions C131_average_refuted.

(** Two cubic orientations, the second of which is nearest to the first after a half turn. *)
Definition f128th : f64 := number 4503599627370496 (-59) eq_refl.
Example C131_met : let q0 := F4 f1 f0 f0 f0 in let q := F4 f128th f0 f0 (fneg f1) in
  Forall (fun q => sound q /\ 0 <= B2R (fw q)) [q0; q] /\ / 2 ^ 400 <= B2R (fw q0) /\ in_range q /\
  exists r, clear_sum (sym_eqv "cubic") (value q0) (map value [q]) r /\ INR (List.length [q0; q]) / 2 <= sqrt (inner r r) /\ r = Q4 2 0 0 (/ 128).
Proof.
  intros q0 q. destruct f1_is as (V1 & F1).
  assert (V128 : B2R f128th = / 128) by (unfold f128th; rewrite (proj1 (number_value _ _ _)); unfold bpow; cbn [radix2 radix_val Z.pow_pos Pos.iter Z.mul Pos.mul]; lra).
  assert (VR : value q0 = Q4 1 0 0 0) by (unfold value, q0; cbn [fw fx fy fz]; change (B2R f0) with 0; now rewrite V1).
  assert (VQ : value q = Q4 (/ 128) 0 0 (-1)) by (unfold value, q, fneg; cbn [fw fx fy fz]; change (B2R f0) with 0; rewrite B2R_Bopp, V1, V128; f_equal; lra).
  split; [|split; [|split]].
  - repeat apply Forall_cons; try apply Forall_nil; (split; [split; [repeat split|]|]); rewrite ?VR, ?VQ; unfold dot; cbn [qw qx qy qz]; try lra; unfold q0, q; cbn [fw]; lra.
  - unfold q0. cbn [fw]. rewrite V1, <- Rinv_1. apply Rinv_le_contravar; [lra|]. apply pow_R1_Rle. lra.
  - split; [repeat split|]. assert (P1 : 1 <= 2 ^ 400) by (apply pow_R1_Rle; lra). split.
    + intros c I. apply Rle_trans with 1; [|exact P1]. unfold coefs, q, fneg in I. cbn [fw fx fy fz] in I.
      destruct I as [<-|[<-|[<-|[<-|[]]]]]; rewrite ?B2R_Bopp, ?V1, ?V128; change (B2R f0) with 0; apply Rabs_le; lra.
    + exists (fz q). split; [cbn; tauto|]. unfold q, fneg. cbn [fz]. rewrite B2R_Bopp, V1, Rabs_Ropp, Rabs_R1, <- Rinv_1. apply Rinv_le_contravar; lra.
  - exists (Q4 2 0 0 (/ 128)). cbn [map]. rewrite VR, VQ. split; [|split; [|reflexivity]].
    + replace (Q4 2 0 0 (/ 128)) with (qsum (Q4 1 0 0 0) (Q4 1 0 0 (/ 128))) by (unfold qsum; cbn [qw qx qy qz]; f_equal; lra).
      assert (HI : hprod (Q4 0 0 0 1) (Q4 (/ 128) 0 0 (-1)) = Q4 1 0 0 (/ 128)) by (unfold hprod; cbn [qw qx qy qz]; f_equal; lra).
      apply clear_cons with (c := Q4 1 0 0 (/ 128)); [| | |apply clear_nil].
      * exists (Q4 0 0 0 1). split; [|left; now rewrite HI]. unfold sym_eqv, cubic_symmetries. cbn [String.eqb Ascii.eqb Bool.eqb map]. assert (P2 := root2_pos). rewrite !Quat_pos by lra. cbn. tauto.
      * cbn [qw pow]. lra.
      * intros c' (s & IS & SR).
        assert (P2 : 0 <= over_root2 <= 3 / 4). { unfold over_root2. pose proof (sqrt_pos 2). assert (sqrt 2 <= 3 / 2) by (rewrite <- (sqrt_square (3 / 2)) by lra; apply sqrt_le_1; lra). lra. }
        assert (W : s = Q4 0 0 0 1 \/ -0.8 <= qw (hprod s (Q4 (/ 128) 0 0 (-1))) <= 0.8).
        { unfold sym_eqv, cubic_symmetries in IS. cbn [String.eqb Ascii.eqb Bool.eqb map] in IS. rewrite !Quat_pos in IS by lra. unfold hprod. cbn [In] in IS.
          repeat (destruct IS as [<-|IS]; [first [left; reflexivity | right; cbn [qw qx qy qz]; lra]|]). destruct IS. }
        destruct W as [-> |W]; [left; now rewrite HI in SR|]. right. set (h := hprod s (Q4 (/ 128) 0 0 (-1))) in *.
        assert (I1 : Rabs (inner c' (Q4 1 0 0 0)) = Rabs (qw h)).
        { unfold inner. cbn [qw qx qy qz]. destruct SR as [-> | ->]; [|rewrite <- (Rabs_Ropp (qw h))]; f_equal; unfold opp; cbn [qw qx qy qz]; ring. }
        rewrite I1. assert (Rabs (qw h) <= 0.8) by (apply Rabs_le; lra). unfold inner. cbn [qw qx qy qz]. rewrite (Rabs_pos_eq (_ + _)); lra.
    + unfold inner. cbn [qw qx qy qz List.length INR]. rewrite <- (sqrt_square ((1 + 1) / 2)) by lra. apply sqrt_le_1; lra.
Qed.
