(** C133: slip traces in double precision. *)
From Coq Require Import String Reals Lra Psatz.
From Coq Require Import List ZArith Bool Lia.
From Flocq Require Import Core IEEE754.BinarySingleNaN.
From Verif Require Import Py Quat_Model Quat_Spec Ebsd_Model Double_Model Double_Spec Double_Proofs Double_Angle Double_Props Strain64_Proofs Kam64_Model Kam64_Proofs Grod64_Proofs
  Average64_Model Average64_Spec Average64_Proofs Average64_Props Single_Model Single_Spec Single_Proofs Single_Angle Single_Props Schmid64_Model Schmid64_Spec Schmid64_Proofs Schmid64_Props Trace64_Model Trace64_Spec Trace64_Proofs.
Import ListNotations.
Open Scope R_scope.

(** The trace angle of a plane at an angle to the screen is a number from 0 to pi, whatever the order of
    the sums: rounding never makes the cosine exceed one.  Its cosine is the one without rounding, within 2^-38
    over the sine of the angle to the screen, unless the trace is within 2^-38 of vertical: then the angle may be
    the one at the other end of the range, whose cosine has the other sign. *)
Theorem C133_trace : forall dot3 dotv arccos, any_order3 dot3 -> any_order_v dotv -> full_arccos arccos ->
  forall q n, near_unit (/ 2 ^ 41) q -> 0 <= B2R (fw q) -> near_unit3 (/ 2 ^ 41) n ->
  let s := in_sample (value q) (vvalue n) in / 2 ^ 38 <= across s ->
  let t := fst (trace_f dot3 dotv arccos q n) in exists th inc, slip_trace (value q) (vvalue n) = Some (th, inc) /\
  is_finite t = true /\ - / 2 ^ 50 <= B2R t <= PI + / 2 ^ 50 /\
  (Rabs (cos (B2R t) - cos th) <= / 2 ^ 38 / across s \/ Rabs (cos (B2R t) + cos th) <= / 2 ^ 38 / across s) /\
  (/ 2 ^ 38 <= Rabs (vy s) -> Rabs (cos (B2R t) - cos th) <= / 2 ^ 38 / across s).
Proof.
  intros dot3 dotv arccos D3 DV AC q n Q W N s A t. destruct (angle_near dot3 dotv arccos q n D3 DV AC Q W N A) as (F & R & c & C & E & Y). fold s in C, E, Y.
  assert (P : 0 < across s) by (assert (0 < / 2 ^ 38) by (apply Rinv_0_lt_compat, pow_lt; lra); lra).
  assert (DQ : 0 < dot (value q) (value q)) by (destruct Q as (_ & Q); cbn [pow] in Q; apply Rabs_le_inv in Q; lra).
  destruct (exact_trace (value q) (vvalue n) W DQ P) as (th & inc & S & CT & _). fold s in CT. exists th, inc. split; [exact S|]. split; [exact F|]. split; [exact R|]. fold t in E. split.
  - rewrite CT. destruct (Rlt_dec (vy s) 0), C as [-> | ->]; try (left; exact E); right; unfold Rminus in E; rewrite ?Ropp_involutive in E; exact E.
  - intros L. rewrite CT, <- (Y L). exact E.
Qed.
Print Assumptions C133_trace.
(** The angle to the screen is a number from 0 to pi / 2, with the cosine it would have without rounding, within 2^-40, if
    the plane is not about parallel to the screen. *)
Theorem C133_inclination : forall dot3 dotv arccos, any_order3 dot3 -> any_order_v dotv -> full_arccos arccos ->
  forall q n, near_unit (/ 2 ^ 41) q -> 0 <= B2R (fw q) -> near_unit3 (/ 2 ^ 41) n ->
  let s := in_sample (value q) (vvalue n) in 0 < across s -> Rabs (vz s) <= 1 - / 2 ^ 41 ->
  let t := snd (trace_f dot3 dotv arccos q n) in exists th inc, slip_trace (value q) (vvalue n) = Some (th, inc) /\
  is_finite t = true /\ - / 2 ^ 48 <= B2R t <= PI / 2 + / 2 ^ 48 /\ 0 <= inc <= PI / 2 /\ cos inc = Rabs (vz s) /\ Rabs (cos (B2R t) - cos inc) <= / 2 ^ 40.
Proof.
  intros dot3 dotv arccos D3 DV AC q n Q W N s P A t. destruct (inclination_near dot3 dotv arccos q n D3 DV AC Q W N A) as (F & R & E). fold s in E. fold t in E, F, R.
  assert (DQ : 0 < dot (value q) (value q)) by (destruct Q as (_ & Q); cbn [pow] in Q; apply Rabs_le_inv in Q; lra).
  destruct (exact_trace (value q) (vvalue n) W DQ P) as (th & inc & S & _ & CI). fold s in CI. exists th, inc. split; [exact S|]. split; [exact F|]. split; [exact R|].
  assert (B : -1 <= vz s <= 1) by (cbn [pow] in A; apply Rabs_le_inv in A; lra). pose proof (cos_acos _ B) as CA. pose proof (acos_bound (vz s)) as AB. pose proof PI_RGT_0 as PP.
  assert (K : 0 <= inc <= PI / 2 /\ cos inc = Rabs (vz s)).
  { rewrite CI. destruct (Rlt_dec (PI / 2) (acos (vz s))) as [L|L].
    - split; [lra|]. rewrite cos_minus, cos_PI, sin_PI, CA. assert (vz s < 0); [|rewrite Rabs_left by assumption; ring]. destruct (Rlt_le_dec (vz s) 0) as [V|V]; [exact V|]. assert (acos (vz s) <= PI / 2) by (rewrite <- acos_0; apply acos_le; lra). lra.
    - split; [lra|]. rewrite CA. rewrite Rabs_pos_eq; [reflexivity|]. rewrite <- CA. apply cos_ge_0; lra. }
  destruct K as (K1 & K2). split; [exact K1|]. split; [exact K2|]. rewrite K2. exact E.
Qed.
Print Assumptions C133_inclination.

(** If it is parallel, the angle to the screen may be nan: after a turn about the normal of the screen, the plane of the screen. *)
Lemma some_full : full_arccos some_arccos.
Proof.
  assert (V : Valid_exp (SpecFloat.fexp 53 1024)) by (apply (fexp_correct 53 1024); reflexivity). destruct f1_is as (V1 & F1).
  assert (FA : forall x : f64, is_finite x = true -> flt f1 (fabs x) = Rlt_bool 1 (Rabs (B2R x))) by (intros x F; unfold fabs; rewrite flt_is by (rewrite ?is_finite_Babs; assumption); now rewrite V1, B2R_Babs).
  unfold full_arccos, some_arccos. split; [|split; [|reflexivity]]; intros x F X; rewrite F, FA by exact F.
  - rewrite Rlt_bool_false by (apply Rabs_le; lra). unfold nearest_arccos. cbv zeta. set (r := rnd (acos (B2R x))).
    pose proof (binary_normalize_correct 53 1024 _ _ mode_NE (Ztrunc (scaled_mantissa radix2 (SpecFloat.fexp 53 1024) r)) (cexp radix2 (SpecFloat.fexp 53 1024) r) false) as C.
    cbv zeta in C. rewrite round_mode_is in C.
    assert (G : generic_format radix2 (SpecFloat.fexp 53 1024) r) by (apply generic_format_round; [exact V|typeclasses eauto]).
    rewrite <- G in C. rewrite round_generic in C by (assumption || typeclasses eauto). pose proof (acos_bound (B2R x)) as A. pose proof PI_4.
    assert (B : Rabs (acos (B2R x)) <= bpow radix2 2) by (change (bpow radix2 2) with 4; rewrite Rabs_pos_eq; lra).
    assert (S0 : Rlt_bool (Rabs r) (bpow radix2 1024) = true).
    { apply Rlt_bool_true. apply Rle_lt_trans with (bpow radix2 2); [apply rnd_bound; [apply format_bpow; lia|exact B]|apply bpow_lt; lia]. }
    rewrite S0 in C. destruct C as (C1 & C2 & _). split; [exact C2|]. match type of C1 with B2R ?t = _ => change (Rabs (B2R t - acos (B2R x)) <= / 2 ^ 50) end. rewrite C1.
    apply Rle_trans with (1 := rnd_err 2 (acos (B2R x)) ltac:(lia) B). change (2 - 54)%Z with (-52)%Z. rewrite (proj1 us), u53_is. cbn [pow]. lra.
  - rewrite Rlt_bool_true by exact X. reflexivity.
Qed.
Theorem C133_inclination_refuted : forall arccos, full_arccos arccos -> let q := unit_of 1 0 0 5 in let n := F3 f0 f0 f1 in
  near_unit (/ 2 ^ 41) q /\ 0 <= B2R (fw q) /\ near_unit3 (/ 2 ^ 41) n /\ vz (in_sample (Q4 (1 / sqrt 26) 0 0 (5 / sqrt 26)) (vvalue n)) = 1 /\ snd (trace_f left_to_right3 left_to_right_v arccos q n) = B754_nan.
Proof.
  intros arccos (_ & AC & AN) q n. destruct f1_is as (V1 & F1).
  assert (Q : exists m, normalise (Q4 1 0 0 5) = Some m /\ near_quat (/ 2 ^ 45) q m).
  { destruct (normalise_near left_to_right (F4 (f_of_Z 1) (f_of_Z 0) (f_of_Z 0) (f_of_Z 5)) lr_any) as (m & E & NR & _).
    - assert (P400 : 2 ^ 3 <= 2 ^ 400) by (apply Rle_pow; [lra|lia]). assert (I400 : / 2 ^ 400 <= 1) by (rewrite <- Rinv_1; apply Rinv_le_contravar; lra).
      destruct (whole 1 ltac:(lia)) as (A1 & B1), (whole 0 ltac:(lia)) as (A0 & B0), (whole 5 ltac:(lia)) as (A5 & B5).
      split; [repeat split; assumption|]. unfold coefs. cbn [fw fx fy fz]. split; [|exists (f_of_Z 1); split; [now left|rewrite B1, Rabs_R1; exact I400]].
      intros c [<-|[<-|[<-|[<-|[]]]]]; rewrite ?B1, ?B0, ?B5; apply Rabs_le; lra.
    - exists m. split; [|exact NR]. rewrite <- E. unfold value. cbn [fw fx fy fz]. rewrite (proj2 (whole 1 ltac:(lia))), (proj2 (whole 0 ltac:(lia))), (proj2 (whole 5 ltac:(lia))). reflexivity. }
  destruct Q as (m & E & NR). assert (N26 : norm (Q4 1 0 0 5) = sqrt 26) by (unfold norm, dot; cbn [qw qx qy qz]; f_equal; ring).
  assert (S26 : 0 < sqrt 26) by (apply sqrt_lt_R0; lra). pose proof (sqrt_sqrt 26 ltac:(lra)) as Q26.
  assert (DM : dot m m = 1).
  { unfold normalise in E. rewrite N26 in E. cbv zeta in E. destruct (Req_EM_T (sqrt 26) 0); [lra|]. injection E as <-. unfold dot. cbn [qw qx qy qz]. apply Rmult_eq_reg_r with (sqrt 26 * sqrt 26); [|nra]. transitivity 26; [field; lra|lra]. }
  split; [now apply near_is_unit with m|]. split.
  { destruct (sf_value (fw q) 7065828425037340 (-55) ltac:(vm_compute; reflexivity)) as (V & _). rewrite V. apply Rmult_le_pos; [lra|apply bpow_ge_0]. }
  assert (VN : vvalue n = V3 0 0 1) by (unfold vvalue, n; cbn [f_x f_y f_z]; rewrite V1; reflexivity).
  split; [|split].
  - split; [repeat split; auto|]. rewrite VN. unfold vdot. cbn [vx vy vz]. replace (0 * 0 + 0 * 0 + 1 * 1 - 1) with 0 by ring. rewrite Rabs_R0. left. apply Rinv_0_lt_compat, pow_lt. lra.
  - rewrite VN. unfold in_sample. assert (P : 0 <= 1 / sqrt 26) by (left; apply Rdiv_lt_0_compat; lra). rewrite conj_north by exact P. rewrite turned by exact P. cbv zeta. cbn [qw qx qy qz vx vy vz].
    apply Rmult_eq_reg_r with (sqrt 26 * sqrt 26); [|nra]. transitivity 26; [field; lra|lra].
  - unfold trace_f. cbn [snd]. unfold inclination_f. assert (X : arccos (left_to_right_v (transform_f left_to_right3 q (F3 f0 f0 f1)) n) = B754_nan).
    { destruct (sf_value (left_to_right_v (transform_f left_to_right3 q (F3 f0 f0 f1)) n) 4503599627370497 (-52) ltac:(vm_compute; reflexivity)) as (V & F). apply AC; [exact F|]. rewrite V.
      unfold bpow. cbn [radix2 radix_val Z.pow_pos Pos.iter Z.mul Pos.mul]. rewrite Rabs_pos_eq; lra. }
    rewrite X. reflexivity.
Qed.
Print Assumptions C133_inclination_refuted.
(** And its trace, which there is none of, may be some angle. *)
Theorem C133_parallel_refuted : forall arccos, full_arccos arccos -> let q := unit_of 1 2 2 0 in let n := unit_f left_to_right_v (fvec_of_Z 4 (-4) (-7)) in
  slip_trace (Q4 (1 / 3) (2 / 3) (2 / 3) 0) (V3 (4 / 9) (-4 / 9) (-7 / 9)) = None /\ is_finite (fst (trace_f left_to_right3 left_to_right_v arccos q n)) = true.
Proof.
  intros arccos (AC & _) q n. split.
  - unfold slip_trace. cbv zeta. assert (W : 0 <= qw (Q4 (1 / 3) (2 / 3) (2 / 3) 0)) by (cbn [qw]; lra). destruct (line_is _ (V3 (4 / 9) (-4 / 9) (-7 / 9)) W) as (_ & L). rewrite L.
    unfold in_sample. rewrite conj_north by exact W. rewrite turned by exact W. cbv zeta. cbn [qw qx qy qz vx vy vz].
    match goal with |- context [vdot (V3 ?a ?b 0) _] => replace a with 0 by field; replace b with 0 by field end.
    unfold vdot. cbn [vx vy vz]. replace (0 * 0 + 0 * 0 + 0 * 0) with 0 by ring. rewrite sqrt_0. destruct (Req_EM_T 0 0); [reflexivity|congruence].
  - unfold trace_f. cbn [fst]. unfold angle_f. cbv zeta. match goal with |- context [arccos ?x] => set (c := x) end.
    destruct (sf_value (fneg c) 6369051672525772 (-53) ltac:(vm_compute; reflexivity)) as (V & F). unfold fneg in V, F. rewrite is_finite_Bopp in F. rewrite B2R_Bopp in V. apply AC; [exact F|].
    unfold bpow in V. cbn [radix2 radix_val Z.pow_pos Pos.iter Z.mul Pos.mul] in V. lra.
Qed.
Print Assumptions C133_parallel_refuted.

(** Where a coefficient of the orientation or of the normal is nan, so are both angles. *)
Theorem C133_nan : forall dot3 dotv arccos, any_order3 dot3 -> any_order_v dotv -> full_arccos arccos -> forall q n,
  In B754_nan [fw q; fx q; fy q; fz q; f_x n; f_y n; f_z n] -> trace_f dot3 dotv arccos q n = (B754_nan, B754_nan).
Proof.
  intros dot3 dotv arccos D3 DV (_ & _ & AN) q n H. set (z := F3 f0 f0 f1).
  assert (K : (has_nan4 q /\ transform_f dot3 q z = F3 B754_nan B754_nan B754_nan) \/ has_nan3 n).
  { assert (H' : has_nan4 q \/ has_nan3 n) by (unfold has_nan4, has_nan3; cbn in H; intuition congruence). destruct H' as [H'|H']; [left|now right]. split; [exact H'|]. unfold transform_f. cbv zeta.
    rewrite (nan_product dot3 (F4 f0 _ _ _) (conjugate_f q) D3) by (do 3 right; now apply nan_conj). rewrite (nan_product dot3 q nan4 D3) by (do 3 right; left; reflexivity). reflexivity. }
  assert (SN : forall a b, has_nan3 a \/ has_nan3 b -> dotv a b = B754_nan).
  { intros a b N. apply (nan_sums _ _ (DV a b)). unfold pairs3, nan_term, has_nan3 in *. destruct N as [[N|[N|N]]|[N|[N|N]]]; rewrite N;
      first [apply Exists_cons_hd; cbn [fst snd]; tauto | apply Exists_cons_tl, Exists_cons_hd; cbn [fst snd]; tauto | apply Exists_cons_tl, Exists_cons_tl, Exists_cons_hd; cbn [fst snd]; tauto]. }
  set (sc := transform_f dot3 q z) in *.
  assert (I : dotv sc n = B754_nan) by (apply SN; destruct K as [(_ & K)|K]; [left; rewrite K; left; reflexivity|now right]).
  assert (C : has_nan3 (cross_f sc n)).
  { unfold has_nan3, cross_f. cbn [f_x f_y f_z]. destruct K as [(_ & K)|[K|[K|K]]]; rewrite K; cbn [f_x f_y f_z]; [left|right; left|left|left]; seek. }
  unfold trace_f. fold z sc. f_equal.
  - unfold angle_f, transform_f. cbv zeta. rewrite (nan_product dot3 (F4 f0 _ _ _) _ D3) by (cbn [fx fy fz]; unfold has_nan3 in C; tauto). rewrite (nan_product dot3 _ nan4 D3) by (do 3 right; left; reflexivity).
    assert (U : unit_f dotv (F3 (fx nan4) (fy nan4) (fz nan4)) = F3 B754_nan B754_nan B754_nan) by (unfold unit_f; cbv zeta; rewrite SN by (left; left; reflexivity); reflexivity).
    rewrite U. cbn [f_x]. change (flt f0 B754_nan) with false. cbv iota. rewrite SN; [exact AN|]. left. left. reflexivity.
  - unfold inclination_f. cbv zeta. rewrite I, AN. reflexivity.
Qed.
Print Assumptions C133_nan.

(** All of them: one pair of angles for each group, for the plane of the first system of the group; of no system it is an
    IndexError. *)
Lemma traces_list dot3 dotv arccos r (groups : list (list (fvec * fvec))) : (forall g, In g groups -> g <> []) -> forall done,
  exists ts, for_each (fun done grp => match grp with [] => Err IndexError | s :: _ => Ok (done ++ [trace_f dot3 dotv arccos r (fst s)]) end) groups done = Ok (done ++ ts) /\
  Forall2 (fun g t => exists s rest, g = s :: rest /\ t = trace_f dot3 dotv arccos r (fst s)) groups ts.
Proof.
  induction groups as [|g gs IH]; intros NE done; [exists []; cbn [for_each]; rewrite app_nil_r; split; [reflexivity|apply Forall2_nil]|]. cbn [for_each].
  destruct g as [|s rest]; [exfalso; exact (NE [] (or_introl eq_refl) eq_refl)|]. cbn [bind]. destruct (IH (fun g I => NE g (or_intror I)) (done ++ [trace_f dot3 dotv arccos r (fst s)])) as (ts & E & F).
  exists (trace_f dot3 dotv arccos r (fst s) :: ts). rewrite E, <- app_assoc. split; [reflexivity|]. apply Forall2_cons; [now exists s, rest|exact F].
Qed.
Theorem C133_grain : forall dot3 dotv dot_f dot4 arccos, any_order3 dot3 -> any_order_v dotv -> any_order dot4 -> full_arccos arccos ->
  forall g q0 rest groups, Forall (fun q => sound q /\ 0 <= B2R (fw q)) (q0 :: rest) -> / 2 ^ 400 <= B2R (fw q0) -> (Z.of_nat (List.length rest) < 2 ^ 50)%Z ->
  (forall grp, In grp groups -> grp <> []) ->
  exists r ts, average_f dot_f dot4 g (q0 :: rest) = Ok r /\ near_unit (/ 2 ^ 41) r /\ 0 <= B2R (fw r) /\
  traces_f dot3 dotv dot_f dot4 arccos None g (q0 :: rest) groups = Ok ts /\
  Forall2 (fun grp t => exists s others, grp = s :: others /\ t = trace_f dot3 dotv arccos r (fst s) /\
    (near_unit3 (/ 2 ^ 41) (fst s) -> / 2 ^ 38 <= across (in_sample (value r) (vvalue (fst s))) -> is_finite (fst t) = true)) groups ts.
Proof.
  intros dot3 dotv dot_f dot4 arccos D3 DV D4 AC g q0 rest groups H P L NE. destruct (C131_average dot_f dot4 D4 g q0 rest H P L) as (r & E & U & W).
  destruct (traces_list dot3 dotv arccos r groups NE []) as (ts & T & F). exists r, ts.
  split; [exact E|]. split; [exact U|]. split; [exact W|]. split; [unfold traces_f; rewrite E; exact T|]. clear - F D3 DV AC U W.
  induction F as [|grp t gs ts (s & others & -> & ->) _ IH]; [apply Forall2_nil|]. apply Forall2_cons; [|exact IH]. exists s, others. split; [reflexivity|]. split; [reflexivity|]. intros N A.
  destruct (C133_trace dot3 dotv arccos D3 DV AC r (fst s) U W N A) as (th & inc & _ & FT & _). exact FT.
Qed.
Print Assumptions C133_grain.

(** From the Euler angles of a file: for a grain whose first pixel has a rotation of less than 180 degrees by a margin, there
    is a pair of angles for each group of slip systems, and the trace angle is a number unless the plane is about parallel to the
    screen. *)
Theorem C133_loaded : forall cos_s sin_s, good_trig cos_s cos -> good_trig sin_s sin ->
  forall dot3 dotv dot_f dot4 arccos, any_order3 dot3 -> any_order_v dotv -> any_order dot4 -> full_arccos arccos ->
  forall g e0 es groups, Forall some_angles (e0 :: es) -> 2 / 1000000 <= Rabs (qw (true_orientation e0)) -> (Z.of_nat (List.length es) < 2 ^ 50)%Z ->
  (forall grp, In grp groups -> grp <> []) ->
  exists r ts, average_f dot_f dot4 g (map (euler_quat cos_s sin_s) (e0 :: es)) = Ok r /\ near_unit (/ 2 ^ 41) r /\
  traces_f dot3 dotv dot_f dot4 arccos None g (map (euler_quat cos_s sin_s) (e0 :: es)) groups = Ok ts /\
  Forall2 (fun grp t => exists s others, grp = s :: others /\ t = trace_f dot3 dotv arccos r (fst s) /\
    (near_unit3 (/ 2 ^ 41) (fst s) -> / 2 ^ 38 <= across (in_sample (value r) (vvalue (fst s))) -> is_finite (fst t) = true)) groups ts.
Proof.
  intros cos_s sin_s C S0 dot3 dotv dot_f dot4 arccos D3 DV D4 AC g e0 es groups A H L G.
  assert (K : forall e, some_angles e -> sound (euler_quat cos_s sin_s e) /\ 0 <= B2R (fw (euler_quat cos_s sin_s e))).
  { intros e E. destruct (euler_sound cos_s sin_s C S0 e E) as (Q & _). split; [exact Q|]. apply euler_north, Q. }
  inversion_clear A as [|? ? A0 A1].
  destruct (C133_grain dot3 dotv dot_f dot4 arccos D3 DV D4 AC g (euler_quat cos_s sin_s e0) (map (euler_quat cos_s sin_s) es) groups) as (r & ts & E0 & N & _ & E & F); try assumption.
  - apply Forall_cons; [now apply K|]. rewrite Forall_map. revert A1. apply Forall_impl. exact K.
  - destruct (C127_orientation cos_s sin_s C S0 e0 A0) as (_ & _ & s & SG & N). specialize (N qw ltac:(cbn; tauto)). destruct (K e0 A0) as (_ & P). cbn [value qw] in N. apply Rabs_le_inv in N.
    assert (B : 9 / 10000000 <= B2R (fw (euler_quat cos_s sin_s e0))).
    { revert H N. unfold Rabs. destruct (Rcase_abs _), SG as [-> | ->]; intros; lra. }
    apply Rle_trans with (2 := B). apply Rle_trans with (/ 2 ^ 40); [|cbn [pow]; lra]. apply Rinv_le_contravar; [apply pow_lt; lra|]. apply Rle_pow; [lra|lia].
  - now rewrite map_length.
  - exists r, ts. cbn [map]. auto.
Qed.
Print Assumptions C133_loaded.
Theorem C133_groups : forall dot3 dotv dot_f dot4 arccos g qs,
  (forall r groups, (forall grp, In grp groups -> grp <> []) -> exists ts, traces_f dot3 dotv dot_f dot4 arccos (Some r) g qs groups = Ok ts /\
     Forall2 (fun grp t => exists s others, grp = s :: others /\ t = trace_f dot3 dotv arccos r (fst s)) groups ts) /\
  (forall r groups, In [] groups -> traces_f dot3 dotv dot_f dot4 arccos (Some r) g qs groups = Err IndexError).
Proof.
  intros dot3 dotv dot_f dot4 arccos g qs. split; intros r groups H.
  - destruct (traces_list dot3 dotv arccos r groups H []) as (ts & T & F). exists ts. split; [exact T|exact F].
  - unfold traces_f. cbn [bind]. match goal with |- for_each ?f _ _ = _ => set (body := f) end. generalize (@nil (f64 * f64)) as done. induction groups as [|grp gs IH]; intros done; [destruct H|]. destruct H as [->|H]; [reflexivity|]. cbn [for_each]. destruct grp; [reflexivity|]. cbn [bind]. now apply IH.
Qed.
Print Assumptions C133_groups.

Lemma unit_norm v m : normalise v = Some m -> dot m m = 1.
Proof.
  intros E. unfold normalise in E. cbv zeta in E. destruct (Req_EM_T _ 0) as [Z|Z]; [discriminate|]. injection E as <-. unfold dot at 1. cbn [qw qx qy qz].
  unfold norm in *. set (N := sqrt (dot v v)) in *. assert (D : N * N = dot v v). { unfold N. apply sqrt_sqrt. unfold dot. pose proof (Rle_0_sqr (qw v)). pose proof (Rle_0_sqr (qx v)). pose proof (Rle_0_sqr (qy v)). pose proof (Rle_0_sqr (qz v)). unfold Rsqr in *. lra. }
  apply Rmult_eq_reg_r with (N * N); [|now apply Rmult_integral_contrapositive]. transitivity (dot v v); [clearbody N; clear D; unfold dot; field; exact Z|]. rewrite D. ring.
Qed.
(** The plane (1 -1 -1) in the orientation (1, 4, 1, 6) / sqrt 54. *)
Lemma met_sample q n e : Rabs (dot q q - 1) <= e -> Rabs (vdot n n - 1) <= e -> 0 <= e <= / 8 -> let s := in_sample q n in Rabs (vz s) <= 1 / 2 -> 1 / 2 <= across s.
Proof.
  intros Q N E s Z. apply Rabs_le_inv in Q. apply Rabs_le_inv in N. apply Rabs_le_inv in Z. pose proof (transform_norm (conjugate q) n) as T. fold (in_sample q n) in T. fold s in T.
  assert (ND : dot (conjugate q) (conjugate q) = dot q q) by (unfold conjugate, Quat; cbn [qw]; destruct (Rlt_dec _ _); unfold dot, qneg; cbn [qw qx qy qz]; ring). rewrite ND in T.
  assert (A : 7 / 8 * (7 / 8) <= dot q q * dot q q) by (apply Rmult_le_compat; lra). assert (B : 7 / 8 * (7 / 8) * (7 / 8) <= vdot s s) by (rewrite T; apply Rmult_le_compat; lra).
  unfold across. rewrite <- (sqrt_square (1 / 2)) by lra. apply sqrt_le_1_alt. unfold vdot in B. assert (vz s * vz s <= 1 / 4) by nra. lra.
Qed.
Example C133_met : let q := unit_of 1 4 1 6 in let n := unit_f left_to_right_v (fvec_of_Z 1 (-1) (-1)) in full_arccos some_arccos /\
  near_unit (/ 2 ^ 41) q /\ 0 <= B2R (fw q) /\ near_unit3 (/ 2 ^ 41) n /\ / 2 ^ 38 <= across (in_sample (value q) (vvalue n)) /\ Rabs (vz (in_sample (value q) (vvalue n))) <= 1 - / 2 ^ 41.
Proof.
  intros q n. split; [exact some_full|].
  assert (W : 0 <= B2R (fw q)).
  { destruct (sf_value (fw q) 4902898263487188 (-55) ltac:(vm_compute; reflexivity)) as (E & _). rewrite E. apply Rmult_le_pos; [lra|apply bpow_ge_0]. }
  assert (Q : near_unit (/ 2 ^ 41) q).
  { destruct (normalise_near left_to_right (F4 (f_of_Z 1) (f_of_Z 4) (f_of_Z 1) (f_of_Z 6)) lr_any) as (m & E & NR & _).
    - assert (P400 : 2 ^ 3 <= 2 ^ 400) by (apply Rle_pow; [lra|lia]). assert (I400 : / 2 ^ 400 <= 1) by (rewrite <- Rinv_1; apply Rinv_le_contravar; lra).
      destruct (whole 1 ltac:(lia)) as (A1 & B1), (whole 4 ltac:(lia)) as (A0 & B0), (whole 6 ltac:(lia)) as (A5 & B5).
      split; [repeat split; assumption|]. unfold coefs. cbn [fw fx fy fz]. split; [|exists (f_of_Z 1); split; [now left|rewrite B1, Rabs_R1; exact I400]].
      intros c [<-|[<-|[<-|[<-|[]]]]]; rewrite ?B1, ?B0, ?B5; apply Rabs_le; lra.
    - apply near_is_unit with m; [|exact NR]. exact (unit_norm _ _ E). }
  assert (N : near_unit3 (/ 2 ^ 41) n).
  { apply (C132_cubic left_to_right_v lr_any_v 1 (-1) (-1) 1 1 0); [|lia|lia|reflexivity]. intros z I. cbn in I. lia. }
  split; [exact Q|]. split; [exact W|]. split; [exact N|].
  assert (Z : Rabs (vz (in_sample (value q) (vvalue n))) <= 1 / 2).
  { destruct (line_is (value q) (vvalue n) W) as (LZ & _). cbv zeta in LZ. rewrite <- LZ. assert (E8 : / 2 ^ 41 <= / 8) by (cbn [pow]; lra). destruct f1_is as (V1 & G1).
    assert (VZ : vvalue (F3 f0 f0 f1) = V3 0 0 1) by (unfold vvalue; cbn [f_x f_y f_z]; rewrite V1; reflexivity).
    assert (SZ : sound3 (F3 f0 f0 f1)) by (split; [repeat split; auto|rewrite VZ; unfold vdot; cbn [vx vy vz]; lra]).
    destruct (transform_near left_to_right3 q _ lr_any3 (near_sound _ _ E8 Q) SZ) as (EB & X & Y & Z). rewrite VZ in EB, X, Y, Z.
    destruct (dot_of left_to_right_v _ _ n lr_any_v EB X Y Z (near_sound3 _ _ E8 N)) as (_ & _ & ED & _). rewrite u53_is in ED. apply Rabs_le_inv in ED.
    match type of ED with _ <= B2R ?x - _ <= _ => destruct (sf_value x 5007704880503779 (-54) ltac:(vm_compute; reflexivity)) as (V & _) end. rewrite V in ED. unfold bpow in ED. cbn [radix2 radix_val Z.pow_pos Pos.iter Z.mul Pos.mul] in ED. apply Rabs_le. lra. }
  split; [|cbn [pow]; lra]. apply Rle_trans with (1 / 2); [cbn [pow]; lra|]. destruct Q as (_ & Q), N as (_ & N). apply (met_sample _ _ (/ 2 ^ 41)); try assumption. split; [left; apply Rinv_0_lt_compat, pow_lt; lra|cbn [pow]; lra].
Qed.
