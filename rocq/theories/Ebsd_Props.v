(** EBSD map properties: KAM, Nye tensor, rotation, filter, linking, slip traces,
    grain misorientation, Schmid factor maps, boundary segments, Euler colours. *)
From Coq Require Import String Reals Lra.
From Coq Require Import List ZArith Bool Lia Psatz.
Import ListNotations.
From Verif Require Import Py Grid Quat_Model Quat_Spec Quat_Proofs QuatSym_Proofs QuatMany_Proofs
  QuatEuler_Proofs Boundary_Model BoundaryOri_Proofs Ebsd_Model Ebsd_Spec EbsdKam_Proofs Ebsd_Proofs.
Open Scope Z_scope.

(** ** C52: KAM *)
Definition hcos (ori : pix -> quat) (p q : pix) : R := cos (rot_angle (ori p) (ori q) / 2).

Lemma cross_hcos W H ori p : 2 <= W -> 2 <= H -> (forall p, on_map W H p -> unitq (ori p)) -> on_map W H p ->
  cross_mean W H p (fun q => Rabs (inner (ori p) (ori q))) = cross_mean W H p (hcos ori p).
Proof.
  intros HW HH U Hp. unfold cross_mean. f_equal. f_equal; f_equal; apply map_ext_in; intros q Hq;
  unfold hcos; rewrite cos_rot_angle; auto; apply U; auto;
  [eapply vertical_on | eapply horizontal_on]; eauto.
Qed.

(** The value at a pixel: half its cosine is the mean, over the vertical and
    horizontal neighbours, of those of the misorientations. *)
Theorem C52_value : forall W H ori, 2 <= W -> 2 <= H -> (forall p, on_map W H p -> unitq (ori p)) ->
  exists k, calc_kam W H ori = Ok k /\ forall p, on_map W H p ->
    (0 <= k p <= PI)%R /\
    cos (k p / 2) = cross_mean W H p (fun q => cos (rot_angle (ori p) (ori q) / 2)).
Proof.
  intros W H ori HW HH U. destruct (kam_ok W H ori HW HH U) as (k & E & K). exists k. split; auto.
  intros p Hp. rewrite K by auto. pose proof (cross_range W H ori HW HH U p Hp) as R. fold (hcos ori p).
  rewrite <- (cross_hcos W H ori p) by auto. set (m := cross_mean _ _ _ _) in *. clearbody m.
  replace (2 * acos m / 2)%R with (acos m) by field. rewrite cos_acos by lra. split; auto.
  assert (acos m <= PI / 2)%R by (rewrite <- acos_0; apply acos_decr; lra).
  pose proof (acos_bound m). lra.
Qed.
Print Assumptions C52_value.

(** Zero exactly where all existing neighbours have the same orientation. *)
Theorem C52_zero_iff : forall W H ori k, 2 <= W -> 2 <= H -> (forall p, on_map W H p -> unitq (ori p)) ->
  calc_kam W H ori = Ok k -> forall p, on_map W H p ->
  (k p = 0%R <-> forall q, In q (four_neighbours W H p) -> same_rot (ori p) (ori q)).
Proof.
  intros W H ori k HW HH U E p Hp. destruct (kam_ok W H ori HW HH U) as (k' & E' & K).
  assert (k' = k) by congruence. subst k'. rewrite <- (cross_one W H ori HW HH U p Hp), K by auto.
  pose proof (cross_range W H ori HW HH U p Hp) as R. set (m := cross_mean _ _ _ _) in *. clearbody m. split.
  - intros Z. assert (A : acos m = 0%R) by lra. rewrite <- (cos_acos m) by lra. rewrite A. apply cos_0.
  - intros ->. rewrite acos_1. ring.
Qed.
Print Assumptions C52_zero_iff.

(** Between the smallest and the largest misorientation to a neighbour, and at
    least the weighted mean of them. *)
Theorem C52_bounds : forall W H ori k, 2 <= W -> 2 <= H -> (forall p, on_map W H p -> unitq (ori p)) ->
  calc_kam W H ori = Ok k -> forall p a b, on_map W H p ->
  (forall q, In q (four_neighbours W H p) -> (a <= rot_angle (ori p) (ori q) <= b)%R) -> (a <= k p <= b)%R.
Proof.
  intros W H ori k HW HH U E p a b Hp A. destruct (C52_value W H ori HW HH U) as (k' & E' & K).
  assert (k' = k) by congruence. subst k'. destruct (K p Hp) as [R V]. fold (hcos ori p) in V.
  assert (RA : forall q, In q (four_neighbours W H p) -> (0 <= rot_angle (ori p) (ori q) <= PI)%R).
  { intros q Hq. apply rot_angle_range; apply U; auto. eapply four_on; eauto. }
  pose proof PI_RGT_0 as P0.
  assert (NE : exists q, In q (four_neighbours W H p)).
  { pose proof (vertical_ne W H HH p Hp) as N. destruct (vertical H p) as [|q l] eqn:Ev; [congruence|].
    exists q. unfold four_neighbours. rewrite Ev. now left. }
  destruct NE as (q0 & Hq0). pose proof (A q0 Hq0) as A0. pose proof (RA q0 Hq0) as R0.
  set (a' := Rmax a 0). set (b' := Rmin b PI).
  assert (HB : forall q, In q (four_neighbours W H p) -> (cos (b' / 2) <= hcos ori p q <= cos (a' / 2))%R).
  { intros q Hq. specialize (A q Hq). specialize (RA q Hq). unfold hcos.
    assert (a' <= rot_angle (ori p) (ori q) <= b')%R.
    { unfold a', b'. split; [apply Rmax_lub; lra | apply Rmin_glb; lra]. }
    assert (0 <= a')%R by apply Rmax_r. assert (b' <= PI)%R by apply Rmin_r.
    split; apply cos_decr_1; lra. }
  assert (MV : (cos (b' / 2) <= mean (map (hcos ori p) (vertical H p)) <= cos (a' / 2))%R).
  { apply mean_bounds; [apply map_ne, (vertical_ne W H HH p Hp)|]. intros x Hx. apply in_map_iff in Hx as (q & <- & Hq).
    apply HB, in_or_app. auto. }
  assert (MH : (cos (b' / 2) <= mean (map (hcos ori p) (horizontal W p)) <= cos (a' / 2))%R).
  { apply mean_bounds; [apply map_ne, (horizontal_ne W H HW p Hp)|]. intros x Hx. apply in_map_iff in Hx as (q & <- & Hq).
    apply HB, in_or_app. auto. }
  assert (0 <= a')%R by apply Rmax_r. assert (b' <= PI)%R by apply Rmin_r.
  assert (a' <= b')%R by (unfold a', b'; apply Rmax_lub; apply Rmin_glb; lra).
  assert (C1 : (cos (b' / 2) <= cos (k p / 2) <= cos (a' / 2))%R) by (rewrite V; unfold cross_mean; lra).
  assert (a' <= k p)%R by (apply angle_le; lra). assert (k p <= b')%R by (apply angle_le; lra).
  assert (a <= a')%R by apply Rmax_l. assert (b' <= b)%R by apply Rmin_l. lra.
Qed.
Print Assumptions C52_bounds.

Theorem C52_at_least_mean : forall W H ori k, 2 <= W -> 2 <= H -> (forall p, on_map W H p -> unitq (ori p)) ->
  calc_kam W H ori = Ok k -> forall p, on_map W H p ->
  (cross_mean W H p (fun q => rot_angle (ori p) (ori q)) <= k p)%R.
Proof.
  intros W H ori k HW HH U E p Hp. destruct (C52_value W H ori HW HH U) as (k' & E' & K).
  assert (k' = k) by congruence. subst k'. destruct (K p Hp) as [R V]. pose proof PI_RGT_0 as P0.
  assert (RA : forall q, In q (four_neighbours W H p) -> (0 <= rot_angle (ori p) (ori q) <= PI)%R).
  { intros q Hq. apply rot_angle_range; apply U; auto. eapply four_on; eauto. }
  set (t := fun q => rot_angle (ori p) (ori q)) in *.
  destruct Hp as [Hx Hy]. 
  assert (TW : forall l (g : Z -> pix), (exists a, l = [a]) \/ (exists a b, l = [a; b]) ->
     (exists a, map g l = [a]) \/ (exists a b, map g l = [a; b])).
  { intros l g [(a & ->)|(a & b & ->)]; cbn [map]; eauto. }
  destruct (mean_cos (vertical H p) t) as [A1 A2].
  { apply TW, beside_cases; lia. } { intros q Hq. apply RA, in_or_app. auto. }
  destruct (mean_cos (horizontal W p) t) as [B1 B2].
  { apply TW, beside_cases; lia. } { intros q Hq. apply RA, in_or_app. auto. }
  unfold cross_mean in *. set (mv := mean (map t (vertical H p))) in *. set (mh := mean (map t (horizontal W p))) in *.
  pose proof (cos_mid (mv / 2) (mh / 2)) as CM.
  apply angle_le; [lra | lra |]. rewrite V.
  replace ((mv + mh) / 2 / 2)%R with ((mv / 2 + mh / 2) / 2)%R by field.
  change (fun q => cos (rot_angle (ori p) (ori q) / 2)) with (fun q => cos (t q / 2)).
  assert (CM' := CM ltac:(lra) ltac:(lra)). lra.
Qed.
Print Assumptions C52_at_least_mean.

(** Only the pixel and its existing neighbours matter, and only their rotations,
    seen from any frame. *)
Theorem C52_local_and_invariant : forall W H ori ori' r s k k', 2 <= W -> 2 <= H ->
  (forall p, on_map W H p -> unitq (ori p)) -> (forall p, on_map W H p -> unitq (ori' p)) -> unitq r -> unitq s ->
  calc_kam W H ori = Ok k -> calc_kam W H ori' = Ok k' -> forall p, on_map W H p ->
  (forall q, q = p \/ In q (four_neighbours W H p) -> same_rot (ori' q) (hprod r (hprod (ori q) s))) ->
  k' p = k p.
Proof.
  intros W H ori ori' r s k k' HW HH U U' Ur Us E E' p Hp A.
  destruct (kam_ok W H ori HW HH U) as (k1 & E1 & K1). assert (k1 = k) by congruence. subst k1.
  destruct (kam_ok W H ori' HW HH U') as (k1 & E2 & K2). assert (k1 = k') by congruence. subst k1.
  rewrite K1, K2 by auto. f_equal. f_equal.
  assert (F : forall q, In q (four_neighbours W H p) -> Rabs (inner (ori' p) (ori' q)) = Rabs (inner (ori p) (ori q))).
  { intros q Hq. rewrite (Rabs_inner_same _ _ _ _ (A p (or_introl eq_refl)) (A q (or_intror Hq))).
    rewrite inner_hprod_l, inner_hprod_r by auto. reflexivity. }
  unfold cross_mean. f_equal. f_equal; f_equal; apply map_ext_in; intros q Hq; apply F; apply in_or_app; auto.
Qed.
Print Assumptions C52_local_and_invariant.

Theorem C52_too_small : forall W H ori, W < 2 \/ H < 2 -> calc_kam W H ori = Err IndexError.
Proof.
  intros W H ori S. unfold calc_kam. replace ((H <? 2) || (W <? 2)) with true; auto.
  symmetry. apply orb_true_iff. rewrite !Z.ltb_lt. tauto.
Qed.
Print Assumptions C52_too_small.

(** It is not the mean misorientation: a pixel with one neighbour like it and one
    120 degrees away. *)
Definition kam_map (p : pix) : quat := if snd p =? 1 then Q4 (1 / 2) (sqrt 3 / 2) 0 0 else Q4 1 0 0 0.
Lemma kam_map_unit p : unitq (kam_map p).
Proof.
  unfold kam_map, unitq. destruct (snd p =? 1); cbn [qw qx qy qz]; [|lra].
  replace (sqrt 3 / 2 * (sqrt 3 / 2))%R with (sqrt 3 * sqrt 3 / 4)%R by field. rewrite sqrt_sqrt; lra.
Qed.
Theorem C52_not_the_mean_refuted : exists ori k,
  (forall p, unitq (ori p)) /\ calc_kam 2 2 ori = Ok k /\
  four_neighbours 2 2 (0, 0) = [(0, 1); (1, 0)] /\
  k (0, 0) <> mean (map (fun q => rot_angle (ori (0, 0)) (ori q)) [(0, 1); (1, 0)]).
Proof.
  exists kam_map. destruct (C52_value 2 2 kam_map) as (k & E & K); [lia | lia | intros; apply kam_map_unit |].
  exists k. split; [apply kam_map_unit|]. split; auto. split; [reflexivity|]. intros Q.
  destruct (K (0, 0)) as [_ V]; [split; cbn; lia|]. rewrite Q in V.
  unfold cross_mean in V. change (vertical 2 (0, 0)) with [(0, 1)] in V. change (horizontal 2 (0, 0)) with [(1, 0)] in V.
  cbn [map] in V. rewrite mean2, !mean1 in V.
  assert (I1 : inner (kam_map (0, 0)) (kam_map (0, 1)) = (1 / 2)%R).
  { unfold kam_map, inner. cbn [snd Z.eqb Pos.eqb qw qx qy qz]. field. }
  assert (I2 : inner (kam_map (0, 0)) (kam_map (1, 0)) = 1%R).
  { unfold kam_map, inner. cbn [snd Z.eqb Pos.eqb qw qx qy qz]. field. }
  rewrite !cos_rot_angle in V by apply kam_map_unit. rewrite I1, I2 in V.
  rewrite !Rabs_right in V by lra.
  assert (A1 : acos (1 / 2) = (PI / 3)%R).
  { rewrite <- cos_PI3. apply acos_cos. pose proof PI_RGT_0. lra. }
  unfold rot_angle in V. rewrite I1, I2 in V. rewrite !Rabs_right in V by lra. rewrite A1, acos_1 in V.
  replace ((2 * (PI / 3) + 2 * 0) / 2 / 2)%R with (PI / 6)%R in V by field. rewrite cos_PI6 in V.
  assert (S : (sqrt 3 * sqrt 3 = 3)%R) by (apply sqrt_sqrt; lra). nra.
Qed.
Print Assumptions C52_not_the_mean_refuted.

Example C52_case : exists k, calc_kam 2 2 kam_map = Ok k /\ k (0, 0) <> 0%R.
Proof.
  destruct (C52_value 2 2 kam_map) as (k & E & K); [lia | lia | intros; apply kam_map_unit |].
  exists k. split; auto. intros Z.
  pose proof (proj1 (C52_zero_iff 2 2 kam_map k ltac:(lia) ltac:(lia) (fun p _ => kam_map_unit p) E (0, 0) ltac:(split; cbn; lia)) Z (0, 1)) as A.
  destruct A as [A|A]; [left; reflexivity | |]; apply (f_equal qw) in A; unfold kam_map in A; cbn in A; lra.
Qed.

(** ** C53: Nye tensor *)
Theorem C53_uniform_zero : forall W H g step ori,
  (forall p, on_map W H p -> unitq (ori p)) ->
  (forall p q, on_map W H p -> on_map W H q -> equivalent (sym_eqv g) (ori p) (ori q)) ->
  forall p, on_map W H p ->
  fst (calc_nye W H g step ori) p = 0%R /\ snd (calc_nye W H g step ori) p = no_tensor.
Proof.
  intros W H g step ori U E p Hp. unfold calc_nye. cbn [fst snd].
  assert (B : betas W H g step ori p = (mzero, mzero)).
  { unfold betas. destruct ((fst p <? W - 1) && (snd p <? H - 1)) eqn:L; auto.
    apply andb_true_iff in L. rewrite !Z.ltb_lt in L. unfold on_map in *.
    assert (Hq : on_map W H (fst p, snd p + 1)) by (unfold on_map; cbn [fst snd]; lia).
    rewrite distortion_zero; auto. }
  rewrite B, nye_zero, gnd_total9, total9_zero. split; reflexivity.
Qed.
Print Assumptions C53_uniform_zero.

(** Inside the map the tensor is that of the gradient along y taken for both
    directions; the density is 1.5 times the sum of the absolute components.  A
    correct tensor would have the gradient along x as its first argument. *)
Theorem C53_value_partial : forall W H g step ori p, step <> 0%R ->
  on_map (W - 1) (H - 1) p -> unitq (ori p) -> unitq (ori (fst p, snd p + 1)) ->
  exists c, closest g (ori p) (ori (fst p, snd p + 1)) c /\
    snd (calc_nye W H g step ori) p =
      nye_tensor (14 / 10 ^ 11) (gradient step (ori p) c) (gradient step (ori p) c) /\
    fst (calc_nye W H g step ori) p =
      (3 / 2 * fold_right Rplus 0 (map Rabs (mentry (snd (calc_nye W H g step ori) p))))%R /\
    (0 <= fst (calc_nye W H g step ori) p)%R.
Proof.
  intros W H g step ori p Ns Hp U1 U2.
  exists (nearest_comp g (ori p) (ori (fst p, snd p + 1))).
  destruct (nearest_comp_spec g (ori p) (ori (fst p, snd p + 1)) U1 U2) as [A B].
  unfold calc_nye. cbn [fst snd]. rewrite gnd_total9, total9_entries.
  split; [split; auto|]. split; [|split; [reflexivity | rewrite <- total9_entries; apply total9_nonneg]].
  unfold betas. destruct Hp as [Hx Hy].
  replace ((fst p <? W - 1) && (snd p <? H - 1)) with true
    by (symmetry; apply andb_true_iff; rewrite !Z.ltb_lt; lia).
  assert (D : distortion g step (ori p) (ori (fst p, snd p + 1)) =
              gradient step (ori p) (nearest_comp g (ori p) (ori (fst p, snd p + 1)))).
  { unfold distortion. cbv zeta. rewrite miso_rot, minus_one. unfold gradient, less_one.
    set (m := mprod _ _). clearbody m. destruct m as [[a1 a2 a3] [a4 a5 a6] [a7 a8 a9]].
    unfold mscale, vscale. cbn [r0 r1 r2 vx vy vz].
    assert (E : (/ step / (1 / 10 ^ 6) = / (step / 10 ^ 6))%R).
    { field. auto. }
    rewrite E. reflexivity. }
  rewrite D. set (G := gradient _ _ _). clearbody G. unfold nye_of, nye_tensor.
  fold bavg. pose proof bavg_pos. destruct G as [[a1 a2 a3] [a4 a5 a6] [a7 a8 a9]]. cbn [r0 r1 r2 vx vy vz].
  f_equal; f_equal; field; lra.
Qed.
Print Assumptions C53_value_partial.

(** The last row and column. *)
Theorem C53_edge : forall W H g step ori p, fst p = W - 1 \/ snd p = H - 1 ->
  fst (calc_nye W H g step ori) p = 0%R /\ snd (calc_nye W H g step ori) p = no_tensor.
Proof.
  intros W H g step ori p E. unfold calc_nye, betas. cbn [fst snd].
  replace ((fst p <? W - 1) && (snd p <? H - 1)) with false.
  - rewrite nye_zero, gnd_total9, total9_zero. split; reflexivity.
  - symmetry. apply andb_false_iff. rewrite !Z.ltb_ge. lia.
Qed.
Print Assumptions C53_edge.

(** The gradient along x plays no part: maps that agree at a pixel and the one
    below it have the same tensor there; a map that varies along x only has none. *)
Theorem C53_x_gradient_refuted :
  (forall W H g step ori ori' p, ori p = ori' p -> ori (fst p, snd p + 1) = ori' (fst p, snd p + 1) ->
     fst (calc_nye W H g step ori) p = fst (calc_nye W H g step ori') p /\
     snd (calc_nye W H g step ori) p = snd (calc_nye W H g step ori') p) /\
  (forall W H g step ori, (forall p, on_map W H p -> unitq (ori p)) ->
     (forall x y y', ori (x, y) = ori (x, y')) -> forall p, on_map W H p ->
     fst (calc_nye W H g step ori) p = 0%R /\ snd (calc_nye W H g step ori) p = no_tensor) /\
  exists ori, (forall p, unitq (ori p)) /\ (forall x y y', ori (x, y) = ori (x, y')) /\
    ~ equivalent (sym_eqv "cubic") (ori (0, 0)) (ori (1, 0)).
Proof.
  split; [|split].
  - intros W H g step ori ori' p E1 E2. unfold calc_nye, betas. cbn [fst snd].
    destruct ((fst p <? W - 1) && (snd p <? H - 1)); auto. rewrite E1, E2. split; reflexivity.
  - intros W H g step ori U C p Hp. unfold calc_nye. cbn [fst snd].
    assert (B : betas W H g step ori p = (mzero, mzero)).
    { unfold betas. destruct ((fst p <? W - 1) && (snd p <? H - 1)) eqn:L; auto.
      apply andb_true_iff in L. rewrite !Z.ltb_lt in L. unfold on_map in *.
      assert (Hq : on_map W H (fst p, snd p + 1)) by (unfold on_map; cbn [fst snd]; lia).
      rewrite distortion_zero; auto. replace (ori p) with (ori (fst p, snd p + 1)).
      - apply equivalent_refl.
      - destruct p as [x y]. apply C. }
    rewrite B, nye_zero, gnd_total9, total9_zero. split; reflexivity.
  - exists (fun p => if fst p =? 0 then qB else qone). split; [|split].
    + intros p. destruct (fst p =? 0); [apply qB_unit|]. unfold unitq, qone. cbn [qw qx qy qz]. lra.
    + reflexivity.
    + cbn [fst Z.eqb]. exact qB_inequiv.
Qed.
Print Assumptions C53_x_gradient_refuted.
Example C53_case : on_map (3 - 1) (3 - 1) (1, 1).
Proof. split; cbn; lia. Qed.

(** ** C54: rotating the map *)
(** Every scalar is moved to the turned position and two calls put it back. *)
Theorem C54_scalars_partial : forall W H s bc bs, e_bc s = Some bc -> e_bs s = Some bs ->
  exists s1 s2, rotate_data W H s = (s1, Ok tt) /\ rotate_data W H s1 = (s2, Ok tt) /\
  exists bc1 bs1 bc2 bs2, e_bc s1 = Some bc1 /\ e_bs s1 = Some bs1 /\ e_bc s2 = Some bc2 /\ e_bs s2 = Some bs2 /\
  (forall p, e_euler s1 p = e_euler s (turned W H p) /\ e_phase s1 p = e_phase s (turned W H p) /\
     bc1 p = bc (turned W H p) /\ bs1 p = bs (turned W H p)) /\
  (forall p, e_euler s2 p = e_euler s p /\ e_phase s2 p = e_phase s p /\ bc2 p = bc p /\ bs2 p = bs p).
Proof.
  intros W H s bc bs E1 E2. eexists _, _. split; [apply rotate_eq; eauto|].
  split; [apply rotate_eq; reflexivity|]. cbn [e_euler e_bc e_bs e_phase e_ori].
  eexists _, _, _, _. split; [reflexivity|]. split; [reflexivity|]. split; [reflexivity|]. split; [reflexivity|].
  split; intros p; [repeat split|]. rewrite !flip_flip. auto.
Qed.
Print Assumptions C54_scalars_partial.

(** Orientations not read before: those of the turned position, in the turned
    frame. *)
Theorem C54_orientation_partial : forall W H s bc bs, e_bc s = Some bc -> e_bs s = Some bs -> e_ori s = None ->
  exists s1 o, rotate_data W H s = (s1, Ok tt) /\ e_ori s1 = Some o /\
  forall p a b c, e_euler s (turned W H p) = (a, b, c) ->
    rot_matrix (o p) = mprod (bunge a b c) (rotz PI) /\ unitq (o p).
Proof.
  intros W H s bc bs E1 E2 E3. eexists _, _. split; [apply rotate_eq; eauto|]. cbn [e_ori].
  split; [reflexivity|]. intros p a b c E. rewrite E3, E, rot_turn. unfold quat_of_euler.
  rewrite euler_bunge. split; auto.
  apply (same_rot_unit _ _ (quat_mul_same false _ _)). apply unitq_hprod; [apply euler_unit|].
  unfold unitq. cbn [qw qx qy qz]. ring.
Qed.
Print Assumptions C54_orientation_partial.

(** Orientations read before stay at their old positions, so the outcome depends on
    the history; two calls then return every orientation to its place only in that
    case; afterwards the Euler angles never agree with the orientations. *)
Theorem C54_history_refuted :
  (forall W H s bc bs o, e_bc s = Some bc -> e_bs s = Some bs -> e_ori s = Some o ->
     exists s1 o1, rotate_data W H s = (s1, Ok tt) /\ e_ori s1 = Some o1 /\
       forall p, same_rot (o1 p) (hprod (o p) (Q4 0 0 0 1))) /\
  (forall W H s bc bs s1 s2 o2, e_bc s = Some bc -> e_bs s = Some bs ->
     rotate_data W H s = (s1, Ok tt) -> rotate_data W H s1 = (s2, Ok tt) -> e_ori s2 = Some o2 ->
     forall p, same_rot (o2 p)
       (match e_ori s with Some o => o p | None => quat_of_euler (e_euler s (turned W H p)) end)) /\
  (forall W H s bc bs s1 o1, e_bc s = Some bc -> e_bs s = Some bs -> e_ori s = None ->
     rotate_data W H s = (s1, Ok tt) -> e_ori s1 = Some o1 ->
     forall p, rot_matrix (o1 p) <> rot_matrix (quat_of_euler (e_euler s1 p))) /\
  exists s bc bs s1 s2 o2, e_bc s = Some bc /\ e_bs s = Some bs /\ e_ori s = None /\
     rotate_data 2 1 s = (s1, Ok tt) /\ rotate_data 2 1 s1 = (s2, Ok tt) /\ e_ori s2 = Some o2 /\
     ~ same_rot (o2 (0, 0)) (quat_of_euler (e_euler s2 (0, 0))).
Proof.
  assert (T2 : forall W H s bc bs s1 s2 o2, e_bc s = Some bc -> e_bs s = Some bs ->
     rotate_data W H s = (s1, Ok tt) -> rotate_data W H s1 = (s2, Ok tt) -> e_ori s2 = Some o2 ->
     forall p, same_rot (o2 p)
       (match e_ori s with Some o => o p | None => quat_of_euler (e_euler s (turned W H p)) end)).
  { intros W H s bc bs s1 s2 o2 E1 E2 R1 R2 Ho p.
    rewrite (rotate_eq W H s bc bs) in R1 by auto. injection R1 as <-.
    erewrite rotate_eq in R2 by reflexivity. injection R2 as <-. cbn [e_ori] in Ho. injection Ho as <-.
    apply turn_turn. }
  split; [|split; [exact T2|split]].
  - intros W H s bc bs o E1 E2 E3. eexists _, _. split; [apply rotate_eq; eauto|]. cbn [e_ori].
    split; [reflexivity|]. intros p. rewrite E3. apply quat_mul_same.
  - intros W H s bc bs s1 o1 E1 E2 E3 R1 Ho p. rewrite (rotate_eq W H s bc bs) in R1 by auto. injection R1 as <-.
    cbn [e_ori e_euler] in *. injection Ho as <-. rewrite E3.
    change (flip W H (e_euler s) p) with (e_euler s (turned W H p)). apply turn_differs.
    unfold quat_of_euler. destruct (e_euler s (turned W H p)) as [[a b] c]. apply euler_unit.
  - set (e := fun p : pix => if fst p =? 0 then (0, 0, 0)%R else (0, PI, 0)%R).
    set (s := Ebsd e (Some (fun _ => 0)) (Some (fun _ => 0)) (fun _ => 1) None).
    exists s, (fun _ => 0), (fun _ => 0). eexists _, _, _. split; [reflexivity|]. split; [reflexivity|].
    split; [reflexivity|]. split; [apply rotate_eq; reflexivity|]. split; [apply rotate_eq; reflexivity|].
    cbn [e_ori]. split; [reflexivity|]. cbn [e_euler]. rewrite flip_flip. intros S.
    change (e_euler s (0, 0)) with ((0, 0, 0)%R) in S.
    pose proof (same_rot_trans _ _ _ (same_rot_sym _ _ (turn_turn (quat_of_euler (e (turned 2 1 (0, 0)))))) S) as S'.
    unfold quat_of_euler, e, turned in S'. cbn [fst snd Z.eqb Z.sub Z.add Z.opp Z.pos_sub] in S'.
    change (from_euler_angles 0 PI 0) with
      (Quat false (Q4 (cos (PI / 2) * cos ((0 + 0) / 2)) (- sin (PI / 2) * cos ((0 - 0) / 2))
                      (- sin (PI / 2) * sin ((0 - 0) / 2)) (- cos (PI / 2) * sin ((0 + 0) / 2)))) in S'.
    change (from_euler_angles 0 0 0) with
      (Quat false (Q4 (cos (0 / 2) * cos ((0 + 0) / 2)) (- sin (0 / 2) * cos ((0 - 0) / 2))
                      (- sin (0 / 2) * sin ((0 - 0) / 2)) (- cos (0 / 2) * sin ((0 + 0) / 2)))) in S'.
    replace (0 / 2)%R with 0%R in S' by field. replace ((0 + 0) / 2)%R with 0%R in S' by field.
    replace ((0 - 0) / 2)%R with 0%R in S' by field.
    rewrite cos_PI2, sin_PI2, cos_0, sin_0 in S'. rewrite !Quat_id in S' by (cbn [qw]; lra).
    destruct S' as [S'|S']; apply (f_equal qw) in S'; unfold opp in S'; cbn [qw] in S'; lra.
Qed.
Print Assumptions C54_history_refuted.

(** Maps without band slope (all but Oxford files): an error after part of the map
    was turned. *)
Theorem C54_no_band_slope_refuted : forall W H s bc, e_bc s = Some bc -> e_bs s = None ->
  exists s1 bc1, rotate_data W H s = (s1, Err KeyError) /\ e_bc s1 = Some bc1 /\
  (forall p, e_euler s1 p = e_euler s (turned W H p) /\ bc1 p = bc (turned W H p)) /\
  e_phase s1 = e_phase s /\ e_ori s1 = e_ori s.
Proof.
  intros W H s bc E1 E2. unfold rotate_data. cbn [e_euler e_bc e_bs e_phase e_ori]. rewrite E1, E2.
  eexists _, _. split; [reflexivity|]. cbn [e_euler e_bc e_bs e_phase e_ori]. split; [reflexivity|].
  split; [|auto]. intros p. split; reflexivity.
Qed.
Print Assumptions C54_no_band_slope_refuted.
Example C54_case : exists s1, rotate_data 2 1 (Ebsd (fun p => if fst p =? 0 then (0, 0, 0)%R else (0, PI, 0)%R)
   (Some fst) (Some snd) (fun _ => 1) None) = (s1, Ok tt) /\ exists bc, e_bc s1 = Some bc /\ bc (0, 0) = 1.
Proof. eexists. split; [apply rotate_eq; reflexivity|]. cbn [e_bc]. eexists. split; [reflexivity|]. reflexivity. Qed.
