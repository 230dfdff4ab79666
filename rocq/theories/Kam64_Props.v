(** C130: kernel average misorientations and misorientations within grains in double precision. *)
From Coq Require Import String Reals Lra Psatz.
From Coq Require Import List ZArith Bool Lia.
From Flocq Require Import Core IEEE754.BinarySingleNaN.
From Verif Require Import Py Grid Quat_Model Quat_Spec Quat_Proofs QuatSym_Proofs QuatMany_Proofs Boundary_Model Ebsd_Model Double_Model Double_Spec Double_Proofs Double_Angle Double_Props
  Kam64_Model Kam64_Spec Kam64_Proofs Grod64_Proofs.
Import ListNotations.
Open Scope R_scope.

Lemma pi_about : 3.1415 <= PI <= 3.1417.
Proof.
  pose proof pi_near as PN. apply Rabs_le_inv in PN.
  assert (PV : 3.14159 <= B2R fpi <= 3.1416) by (unfold fpi; rewrite (proj1 (number_value _ _ _)); unfold bpow; cbn [radix2 radix_val Z.pow_pos Pos.iter Z.mul Pos.mul]; lra). lra.
Qed.
Lemma degrees_near a b : Rabs (a - b) <= / 200000 -> Rabs (degrees a - degrees b) <= / 3000.
Proof.
  intros E. unfold degrees. rewrite <- Rmult_minus_distr_r, Rabs_mult. pose proof pi_about as P.
  assert (D : 0 < 180 / PI <= 60).
  { split; [apply Rdiv_lt_0_compat; lra|]. apply Rmult_le_reg_r with PI; [lra|]. unfold Rdiv. rewrite Rmult_assoc, Rinv_l by lra. lra. }
  rewrite (Rabs_pos_eq (180 / PI)) by lra. apply Rle_trans with (/ 200000 * 60); [apply Rmult_le_compat; [apply Rabs_pos|lra|exact E|lra]|lra].
Qed.

(** Every pixel gets a number, not nan, within 1/3000 degree of the angle without rounding, whatever the
    order of the sums; a map with one row or one column is refused as without rounding. *)
Theorem C130_kam : forall dot_f arccos, (forall d p i, any_order (dot_f d p i)) -> good_arccos arccos ->
  forall W H ori, (forall p, inside W H p -> sound (ori p)) ->
  match calc_kam_f dot_f arccos W H ori, calc_kam W H (fun p => value (ori p)) with
  | Ok k, Ok k' => (2 <= W)%Z /\ (2 <= H)%Z /\ forall p, inside W H p -> is_finite (k p) = true /\ Rabs (degrees (B2R (k p)) - degrees (k' p)) <= / 3000
  | Err e, Err e' => e = IndexError /\ e' = IndexError /\ ((W < 2)%Z \/ (H < 2)%Z)
  | _, _ => False
  end.
Proof.
  intros dot_f arccos DOT AC W H ori SO. pose proof (fun p I1 I2 IN => kam_near dot_f arccos DOT AC W H ori p I1 I2 IN SO) as K. unfold calc_kam_f, calc_kam in *.
  destruct ((H <? 2) || (W <? 2))%Z eqn:E.
  - split; [reflexivity|]. split; [reflexivity|]. apply orb_true_iff in E as [E|E]; apply Z.ltb_lt in E; auto.
  - apply orb_false_iff in E as (E1 & E2). apply Z.ltb_ge in E1, E2. split; [exact E2|]. split; [exact E1|]. intros p IN. destruct (K p E2 E1 IN) as (F & D). split; [exact F|now apply degrees_near].
Qed.
Print Assumptions C130_kam.

(** ** Misorientations to the reference orientation of a grain *)
Lemma some_inj {A} (a b : A) : Some a = Some b -> a = b.
Proof. congruence. Qed.
Lemma exact_nth g r l exact i q a v : calc_grod (Some r) l g = Some exact -> nth_error l i = Some q -> nth_error exact i = Some (a, v) ->
  exists m c, calc_mis_ori_point (sym_column g q) r = (m, c) /\ a = 2 * acos m /\ v = grod_axis r c.
Proof.
  intros E N NE. unfold calc_grod, ref_or_average in E. apply some_inj in E. subst exact. rewrite nth_error_map, (exact_point _ _ _ _ _ N) in NE. cbn [option_map] in NE.
  destruct (calc_mis_ori_point (sym_column g q) r) as (m, c). cbn [fst snd] in NE. injection NE as <- <-. exists m, c. auto.
Qed.
Lemma exact_closest g r q m c : calc_mis_ori_point (sym_column g q) r = (m, c) ->
  In c (sym_column g q) /\ m = clip1 (Rabs (dot c r)) /\ forall c2, In c2 (sym_column g q) -> Rabs (dot c2 r) <= Rabs (dot c r).
Proof.
  unfold calc_mis_ori_point. intros E. destruct (argmax_spec (map (fun c => Rabs (dot c r)) (sym_column g q)) ltac:(unfold sym_column; discriminate)) as (x & NX & MX & _).
  set (k := argmax _) in *. rewrite nth_error_map in NX. destruct (nth_error (sym_column g q) k) as [c1|] eqn:NC; [|discriminate]. cbn [option_map] in NX. injection NX as <-.
  rewrite (nth_error_nth _ _ _ NC) in E. rewrite (nth_error_nth (map (fun c => Rabs (dot c r)) (sym_column g q)) k 0 (x := Rabs (dot c1 r))) in E by (rewrite nth_error_map, NC; reflexivity).
  injection E as <- <-. split; [eapply nth_error_In; eassumption|]. split; [reflexivity|]. intros c2 I. apply MX. apply in_map_iff. exists c2. auto.
Qed.
Lemma float_nth dot_f arccos g r qs i o : nth_error (calc_grod_f dot_f arccos r qs g) i = Some o -> exists q, nth_error qs i = Some q /\ o = grod_point_f dot_f arccos i g r q.
Proof.
  unfold calc_grod_f. rewrite nth_error_map. intros E. destruct (nth_error (combine (seq 0 (List.length qs)) qs) i) as [(j, q)|] eqn:N; [|discriminate]. cbn [option_map fst snd] in E. injection E as <-.
  assert (K : forall (l : list fquat) s i j q, nth_error (combine (seq s (List.length l)) l) i = Some (j, q) -> nth_error l i = Some q /\ j = (s + i)%nat).
  { induction l as [|x l IH]; intros s [|i'] j' q' E; cbn [List.length seq combine nth_error] in *; try discriminate; [injection E as <- <-; split; [reflexivity|lia]|].
    destruct (IH _ _ _ _ E) as (A & B). split; [exact A|lia]. }
  destruct (K _ _ _ _ _ N) as (A & ->). exists q. auto.
Qed.
(** The angle of every point is a number within 1/3000 degree of the angle without rounding. *)
Theorem C130_angle : forall dot_f arccos, (forall i j, any_order (dot_f i j)) -> good_arccos arccos ->
  forall r qs g exact, sound r -> Forall sound qs -> calc_grod (Some (value r)) (map value qs) g = Some exact ->
  List.length (calc_grod_f dot_f arccos r qs g) = List.length exact /\
  forall i a v a' v', nth_error (calc_grod_f dot_f arccos r qs g) i = Some (a, v) -> nth_error exact i = Some (a', v') ->
  is_finite a = true /\ Rabs (degrees (B2R a) - degrees a') <= / 3000.
Proof.
  intros dot_f arccos DOT AC r qs g exact SR SQ E. split.
  - unfold calc_grod, ref_or_average in E. apply some_inj in E. subst exact. unfold calc_grod_f, calcMisOri, calc_sym_eqvs. rewrite !map_length, combine_length, !seq_length, ?map_length. lia.
  - intros i a v a' v' N N'. destruct (float_nth _ _ _ _ _ _ _ N) as (q & NQ & EQ). rewrite Forall_forall in SQ. pose proof (SQ q (nth_error_In _ _ NQ)) as Sq.
    destruct (exact_nth _ _ _ _ _ (value q) _ _ E ltac:(rewrite nth_error_map, NQ; reflexivity) N') as (m & c & EM & -> & _). destruct (exact_closest _ _ _ _ _ EM) as (IC & -> & MX).
    destruct (point_near dot_f DOT i g q r Sq SR) as (k & c1 & x & NC & -> & _ & _ & w & EF & FW & PW & EW & UW).
    unfold grod_point_f in EQ. destruct (point_f dot_f i g q r) as (m', c'). cbn [fst] in EF. injection EQ as -> _. rewrite EF.
    assert (T : tight u42 (clip_f w) (clip1 (Rabs (dot c (value r))))).
    { destruct (clip_is w FW) as (FC & VC). split; [exact FC|]. rewrite VC. split; [|split; apply clip_range; [exact PW|apply Rabs_pos]]. apply clip_near.
      pose proof (UW _ (in_map (fun c => Rabs (dot c (value r))) _ _ IC)) as U1. pose proof (MX _ (nth_error_In _ _ NC)) as U2. cbv beta in U1. apply Rabs_le_inv in EW. apply Rabs_le.
      assert (u44 <= u42) by (apply bpow_le; lia). pose proof (bpow_gt_0 radix2 (-44)). lra. }
    destruct (angle_near arccos AC _ _ _ T (Rle_refl _)) as (FA & EA). split; [exact FA|now apply degrees_near].
Qed.
Print Assumptions C130_angle.

Lemma column_is g q : sym_column g q = column (calc_sym_eqvs [q] g) 0.
Proof. unfold column, calc_sym_eqvs, sym_column. cbn [map nth]. f_equal. rewrite map_map. reflexivity. Qed.
Lemma same_dot c c2 r : same_rot c c2 -> Rabs (dot c r) = Rabs (dot c2 r).
Proof. intros [-> | ->]; [reflexivity|]. change (opp c2) with (qneg c2). apply dot_neg_l. Qed.
Lemma dot_is a b : dot a b = inner a b.
Proof. reflexivity. Qed.
Lemma close_of g r q c e : In c (sym_column g q) -> e <= / 2 ^ 40 -> (forall c2, In c2 (sym_column g q) -> Rabs (dot c2 r) <= Rabs (dot c r) + e) -> closest g r q c.
Proof.
  intros I L MX. rewrite column_is in I. split; [apply (column_equiv [q] g 0 q c eq_refl I)|]. intros c2 E2. destruct (column_covers [q] g 0 q c2 eq_refl E2) as (c3 & I3 & S3).
  rewrite <- column_is in I3. pose proof (MX _ I3) as M. rewrite (same_dot _ _ r S3), !dot_is in M. apply Rle_trans with (1 := M). apply Rplus_le_compat_l. exact L.
Qed.
Lemma column_norm g q c : In c (sym_column g q) -> dot c c = dot q q.
Proof.
  intros I. rewrite column_is in I. destruct (column_equiv [q] g 0 q c eq_refl I) as (s & IS & SR). destruct (sym_group g) as (_ & U & _). pose proof (U s IS) as US.
  transitivity (dot (hprod s q) (hprod s q)); [destruct SR as [-> | ->]; [reflexivity|unfold dot, opp; cbn [qw qx qy qz]; ring]|]. rewrite !dot_is. now apply inner_hprod_l.
Qed.
Lemma cos_gap t : / 1500 <= t <= PI / 2 -> cos t <= 1 - u25.
Proof.
  intros T. pose proof pi_about as P. assert (E : cos t = 1 - 2 * sin (t / 2) * sin (t / 2)) by (replace t with (2 * (t / 2)) at 1 by field; apply cos_2a_sin).
  pose proof (sin_half (t / 2) ltac:(lra)) as S0. rewrite E. unfold u25. assert (/ 6000 * / 6000 <= sin (t / 2) * sin (t / 2)) by (apply Rmult_le_compat; lra). pows. lra.
Qed.
(** Where the angle without rounding is neither below a tenth of a degree nor above 179 degrees, the axis
    consists of numbers near that of an equivalent orientation which is, up to rounding, the closest to the
    reference; where that choice is clear, it is near the axis found without rounding. *)
Theorem C130_axis : forall dot_f arccos, (forall i j, any_order (dot_f i j)) -> good_arccos arccos ->
  forall r qs g exact, sound r -> Forall sound qs -> calc_grod (Some (value r)) (map value qs) g = Some exact ->
  forall i q a v a' v', nth_error qs i = Some q -> nth_error (calc_grod_f dot_f arccos r qs g) i = Some (a, v) -> nth_error exact i = Some (a', v') ->
  / 10 <= degrees a' <= 179 ->
  exists c ax, closest g (value r) (value q) c /\ grod_axis (value r) c = Some ax /\ near_axis v ax /\
    (clear_choice g (value r) (value q) -> v' = Some ax).
Proof.
  intros dot_f arccos DOT AC r qs g exact SR SQ E i q a v a' v' NQ N N' RA. destruct (float_nth _ _ _ _ _ _ _ N) as (q' & NQ' & EQ). rewrite NQ in NQ'. injection NQ' as <-.
  rewrite Forall_forall in SQ. pose proof (SQ q (nth_error_In _ _ NQ)) as Sq.
  destruct (exact_nth _ _ _ _ _ (value q) _ _ E ltac:(rewrite nth_error_map, NQ; reflexivity) N') as (m & c & EM & -> & ->). destruct (exact_closest _ _ _ _ _ EM) as (IC & -> & MX).
  destruct (point_near dot_f DOT i g q r Sq SR) as (k & c1 & x & NC & -> & EV & UX & _).
  unfold grod_point_f in EQ. destruct (point_f dot_f i g q r) as (m', c'). cbn [snd] in EV. injection EQ as _ ->.
  pose proof (nth_error_In _ _ NC) as IC1. pose proof (MX _ IC1) as X1. pose proof (UX _ (in_map (fun c => Rabs (dot c (value r))) _ _ IC)) as X2. cbv beta in X2.
  pose proof pi_about as P. set (M := Rabs (dot c (value r))) in *. pose proof (Rabs_pos (dot c (value r))) as M0. fold M in M0. pose proof (clip_range M M0) as CR. pose proof (acos_range _ CR) as AR.
  assert (RD : / 1500 <= acos (clip1 M) <= 179 / 360 * PI).
  { unfold degrees in RA. assert (Q : acos (clip1 M) = 2 * acos (clip1 M) * (180 / PI) * (PI / 360)) by (field; lra). rewrite Q. set (z := 2 * acos (clip1 M) * (180 / PI)) in *. split; [|].
    - apply Rle_trans with (/ 10 * (PI / 360)); [lra|apply Rmult_le_compat_r; lra].
    - apply Rle_trans with (179 * (PI / 360)); [apply Rmult_le_compat_r; lra|lra]. }
  pose proof (cos_gap (acos (clip1 M)) ltac:(lra)) as UP. rewrite cos_acos in UP by lra.
  assert (U25 : u25 = / 33554432) by (unfold u25; pows; lra). assert (U44 : u44 = / 17592186044416) by (pows; lra).
  assert (CM : clip1 M = M) by (unfold clip1 in *; destruct (Rlt_dec 1 M); lra). rewrite CM in *.
  assert (LO : / 1000 <= M).
  { assert (L : cos (179 / 360 * PI) <= cos (acos M)) by (apply cos_decr_1; lra). rewrite cos_acos in L by lra. replace (179 / 360 * PI) with (PI / 2 - PI / 360) in L by field. rewrite cos_shift in L.
    pose proof (sin_half (PI / 360) ltac:(lra)). lra. }
  assert (D5 : forall c, In c (sym_column g (value q)) -> dot c c <= 5 / 4) by (intros c2 I2; rewrite (column_norm _ _ _ I2); apply Sq).
  destruct (axis_eqv arccos r c' c1 AC SR EV (D5 _ IC1) ltac:(lra)) as (ax & GA & NA). exists c1, ax.
  assert (K : 2 * u44 <= / 2 ^ 40) by (rewrite U44; cbn [pow]; lra).
  assert (C1 : closest g (value r) (value q) c1) by (apply close_of with (2 * u44); [exact IC1|exact K|]; intros c2 I2; pose proof (MX _ I2); lra).
  split; [exact C1|]. split; [exact GA|]. split; [exact NA|]. intros CL.
  assert (C0 : closest g (value r) (value q) c) by (apply close_of with 0; [exact IC|cbn [pow]; lra|]; intros c2 I2; pose proof (MX _ I2); fold M; lra).
  rewrite <- GA. destruct (CL c c1 C0 C1) as [-> | ->]; [reflexivity|]. change (opp c1) with (qneg c1). rewrite !grod_axis_is. rewrite dqx_neg, flip_neg; [reflexivity|].
  intros Z. pose proof (conj_dot (value r) c1) as CD. rewrite Z, Rabs_R0 in CD. lra.
Qed.
Print Assumptions C130_axis.

(** A map with one orientation throughout, where there is no misorientation without rounding, can get
    one everywhere. *)
Lemma line_const dot_f d p n q i : (forall i, dot_f d p i q q = left_to_right q q) ->
  kam_line_f dot_f d p n (fun _ => q) i = fabs (left_to_right q q) \/
  kam_line_f dot_f d p n (fun _ => q) i = fdiv (fadd (fabs (left_to_right q q)) (fabs (left_to_right q q))) f2.
Proof. intros E. unfold kam_line_f. rewrite !E. destruct (i =? 0)%Z; [now left|]. destruct (i =? n - 1)%Z; [now left|now right]. Qed.
Lemma line_const_r n q i : 1 <= dot q q -> 1 <= kam_line n (fun _ => q) i.
Proof. intros D. unfold kam_line. rewrite Rabs_pos_eq by lra. destruct (i =? 0)%Z; [lra|]. destruct (i =? n - 1)%Z; lra. Qed.
Theorem C130_uniform_refuted : forall arccos, good_arccos arccos -> let q := unit_of 1 4 1 6 in let dot_f := fun (_ : Z) (_ : pix) (_ : nat) => left_to_right in
  sound q /\ forall W H, (2 <= W)%Z -> (2 <= H)%Z -> exists k k',
    calc_kam_f dot_f arccos W H (fun _ => q) = Ok k /\ calc_kam W H (fun _ => value q) = Ok k' /\
    forall p, 0 < B2R (k p) /\ k' p = 0.
Proof.
  intros arccos AC q dot_f. destruct unit146 as (SQ & N1). fold q in SQ, N1. split; [exact SQ|]. intros W H HW HH. unfold calc_kam_f, calc_kam.
  replace ((H <? 2) || (W <? 2))%Z with false by (symmetry; apply orb_false_iff; split; apply Z.ltb_ge; lia). eexists. eexists. split; [reflexivity|]. split; [reflexivity|]. intros p. split.
  - pose proof (line_const dot_f 0 p H q (snd p) (fun _ => eq_refl)) as LR. pose proof (line_const dot_f 1 p W q (fst p) (fun _ => eq_refl)) as LC.
    set (rf := kam_line_f dot_f 0 p H (fun _ => q) (snd p)) in *. set (cf := kam_line_f dot_f 1 p W (fun _ => q) (fst p)) in *.
    assert (V : B2SF (clip_f (fdiv (fadd (clip_f rf) cf) f2)) = SpecFloat.S754_finite false 9007199254740991 (-53)) by (destruct LR as [-> | ->], LC as [-> | ->]; vm_compute; reflexivity).
    destruct (sf_value _ _ _ V) as (VC & FC). set (t := clip_f (fdiv (fadd (clip_f rf) cf) f2)) in *. change (0 < B2R (fmul f2 (arccos t))).
    assert (LE : 0 <= B2R t <= 1 - / 2 ^ 53) by (rewrite VC; unfold bpow; cbn [radix2 radix_val Z.pow_pos Pos.iter Z.mul Pos.mul pow]; lra). assert (BC : 0 <= B2R t <= 1) by (cbn [pow] in LE; lra).
    destruct (proj1 AC _ FC BC) as (FA & EA). pose proof (acos_pos _ (proj1 LE) (proj2 LE)) as AP. pose proof (acos_range _ BC) as AR.
    apply Rabs_le_inv in EA. destruct f2_is as (V2 & F2). pose proof PI_4 as P4.
    destruct (fmul_in 3 f2 (arccos t) ltac:(lia) F2 FA) as (_ & _ & G2 & _).
    { rewrite V2. change (bpow radix2 3) with 8. assert (/ 2 ^ 50 <= 1) by (cbn [pow]; lra). apply Rabs_le. lra. }
    rewrite V2 in G2. apply Rabs_le_inv in G2. assert (K : bpow radix2 (3 - 54) <= / 2 ^ 50) by (unfold bpow; cbn; lra). assert (/ 2 ^ 50 < / 2 ^ 30) by (cbn [pow]; lra). assert (/ 2 ^ 27 = 8 * / 2 ^ 30) by (cbn [pow]; lra). lra.
  - pose proof (line_const_r H (value q) (snd p) N1) as L1. pose proof (line_const_r W (value q) (fst p) N1) as L2. cbv beta.
    assert (C1 : forall x, 1 <= x -> clip1 x = 1) by (intros x X; unfold clip1; destruct (Rlt_dec 1 x); lra). rewrite (C1 _ L1), C1, acos_1 by lra. lra.
Qed.
Print Assumptions C130_uniform_refuted.

(** The scalar part is not cut at one before the arc cosine and the root of the axis: for a small
    misorientation, whose axis is well defined, every component can be nan. *)
Lemma pair7 : let r := unit_of 7 3 3 4 in let q := unit_of 70000000 30000000 30000000 40000002 in
  sound r /\ sound q /\ 0 < dot (value q) (value r) < 1.
Proof.
  intros r q.
  destruct (sf_value (fw r) 6920679925434347 (-53) ltac:(vm_compute; reflexivity)) as (E1 & F1). destruct (sf_value (fx r) 5932011364658012 (-54) ltac:(vm_compute; reflexivity)) as (E2 & F2).
  destruct (sf_value (fy r) 5932011364658012 (-54) ltac:(vm_compute; reflexivity)) as (E3 & F3). destruct (sf_value (fz r) 7909348486210683 (-54) ltac:(vm_compute; reflexivity)) as (E4 & F4').
  destruct (sf_value (fw q) 6920679858728999 (-53) ltac:(vm_compute; reflexivity)) as (G1 & H1). destruct (sf_value (fx q) 5932011307481999 (-54) ltac:(vm_compute; reflexivity)) as (G2 & H2).
  destruct (sf_value (fy q) 5932011307481999 (-54) ltac:(vm_compute; reflexivity)) as (G3 & H3). destruct (sf_value (fz q) 7909348805443419 (-54) ltac:(vm_compute; reflexivity)) as (G4 & H4).
  assert (B : dot (value r) (value r) <= 5 / 4 /\ dot (value q) (value q) <= 5 / 4 /\ 0 < dot (value q) (value r) < 1).
  { unfold dot, value. cbn [qw qx qy qz]. rewrite E1, E2, E3, E4, G1, G2, G3, G4. unfold bpow. cbn [radix2 radix_val Z.pow_pos Pos.iter Z.mul Pos.mul]. lra. }
  destruct B as (B1 & B2 & B3). unfold sound, finite4. auto 10.
Qed.
Lemma nan_axis arccos t d : good_arccos arccos -> t = f1 -> is_finite (fmul f2 d) = true -> axis_f arccos t d = B754_nan.
Proof.
  intros AC -> FD. destruct f1_is as (V1 & F1). destruct (proj1 AC f1 F1 ltac:(lra)) as (FA & _). pose proof (proj2 AC) as Z. unfold axis_f.
  assert (S0 : fsqrt (fsub f1 (fmul f1 f1)) = B754_zero false) by (vm_compute; reflexivity). rewrite S0.
  destruct (arccos f1) as [s|s| |s m e B]; try discriminate FA.
  - destruct (fmul f2 d) as [s'|s'| |s' m' e' B']; try discriminate FD; reflexivity.
  - exfalso. cbn [B2R] in Z. apply eq_0_F2R in Z. destruct s; discriminate Z.
Qed.
Theorem C130_axis_refuted : forall arccos, good_arccos arccos -> let r := unit_of 7 3 3 4 in let q := unit_of 70000000 30000000 30000000 40000002 in
  sound r /\ sound q /\ any_order left_to_right /\
  snd (grod_point_f (fun _ _ => left_to_right) arccos 0 "cubic" r q) = (B754_nan, B754_nan, B754_nan) /\
  exists ax, grod_axis (value r) (value q) = Some ax.
Proof.
  intros arccos AC r q. destruct pair7 as (SR & SQ & D). fold r in SR, D. fold q in SQ, D. split; [exact SR|]. split; [exact SQ|]. split; [exact lr_any|]. split.
  - unfold grod_point_f, point_f. cbv zeta. cbn [snd].
    match goal with |- context [argmax_f ?l] => assert (K : argmax_f l = 0%nat) by (vm_compute; reflexivity); rewrite K end. cbn [nth eqvs_f snd].
    unfold grod_axis_f. cbv zeta. assert (L : flt (fw (dq_f (conjugate_f r) q)) f0 = false) by (vm_compute; reflexivity). rewrite L.
    assert (T : fw (dq_f (conjugate_f r) q) = f1) by (apply B2SF_inj; vm_compute; reflexivity).
    rewrite !nan_axis; [reflexivity|exact AC|exact T|vm_compute; reflexivity|exact AC|exact T|vm_compute; reflexivity|exact AC|exact T|vm_compute; reflexivity].
  - rewrite grod_axis_is. cbv zeta. rewrite flip_w, conj_dot, Rabs_pos_eq by lra. set (T := dot (value q) (value r)) in *. replace (T ^ 2) with (T * T) by ring.
    destruct (sine_of T ltac:(lra)) as (S0 & _). destruct (Req_EM_T (sqrt (1 - T * T)) 0); [lra|]. eexists. reflexivity.
Qed.
Print Assumptions C130_axis_refuted.

(** A point turned by 120 degrees from its reference. *)
Example C130_met : exists exact v', sound (F4 f1 f0 f0 f0) /\ Forall sound [F4 fhalf fhalf fhalf fhalf] /\
  calc_grod (Some (value (F4 f1 f0 f0 f0))) (map value [F4 fhalf fhalf fhalf fhalf]) "triclinic" = Some exact /\
  nth_error exact 0 = Some (2 * (PI / 3), v') /\ / 10 <= degrees (2 * (PI / 3)) <= 179 /\
  clear_choice "triclinic" (value (F4 f1 f0 f0 f0)) (value (F4 fhalf fhalf fhalf fhalf)).
Proof.
  destruct f1_is as (V1 & F1). destruct fhalf_is as (VH & FH). set (q := F4 fhalf fhalf fhalf fhalf). set (r := F4 f1 f0 f0 f0).
  assert (VR : value r = Q4 1 0 0 0) by (unfold value, r; cbn [fw fx fy fz]; change (B2R f0) with 0; now rewrite V1).
  assert (VQ : value q = Q4 (/ 2) (/ 2) (/ 2) (/ 2)) by (unfold value, q; cbn [fw fx fy fz]; now rewrite VH).
  assert (SE : sym_eqv "triclinic" = [Q4 1 0 0 0]) by (unfold sym_eqv; cbn [String.eqb Ascii.eqb Bool.eqb]; rewrite Quat_pos by lra; reflexivity).
  exists [(2 * (PI / 3), grod_axis (value r) (value q))], (grod_axis (value r) (value q)). split; [|split; [|split; [|split; [|split]]]].
  - unfold sound, finite4, dot. rewrite VR. cbn [qw qx qy qz]. split; [auto|lra].
  - apply Forall_cons; [|apply Forall_nil]. unfold sound, finite4, dot. rewrite VQ. cbn [qw qx qy qz]. split; [auto|lra].
  - unfold calc_grod, ref_or_average. f_equal. unfold calcMisOri, calc_sym_eqvs. rewrite SE. cbn [tl map List.length seq column nth]. unfold calc_mis_ori_point. cbn [map argmax argmax_from nth fst snd].
    assert (D : Rabs (dot (value q) (value r)) = / 2) by (rewrite VQ, VR; unfold dot; cbn [qw qx qy qz]; rewrite Rabs_pos_eq; lra). rewrite D. destruct (Rlt_dec 1 (/ 2)); [lra|].
    replace (/ 2) with (cos (PI / 3)) by (rewrite cos_PI3; lra). rewrite acos_cos by (pose proof PI_RGT_0; lra). reflexivity.
  - reflexivity.
  - unfold degrees. pose proof PI_RGT_0. replace (2 * (PI / 3) * (180 / PI)) with 120 by (field; lra). lra.
  - intros c1 c2 ((s1 & I1 & R1) & _) ((s2 & I2 & R2) & _). rewrite SE in I1, I2. destruct I1 as [<-|[]]. destruct I2 as [<-|[]].
    destruct R1 as [-> | ->], R2 as [-> | ->]; [now left|right|now right|now left]. unfold opp. cbn [qw qx qy qz]. destruct (hprod _ _) as [a b c d]. cbn [qw qx qy qz]. f_equal; ring.
Qed.
