(** Proofs about finding boundaries from orientations, and about finding grains
    from those boundaries. *)
From Coq Require Import String Reals Lra Psatz.
From Coq Require Import List ZArith Bool Lia Relations.
Import ListNotations.
From Verif Require Import Py Grid Grid_Lemmas Flood_Model Flood_Spec Flood_Proofs
  Quat_Model Quat_Spec Quat_Proofs QuatSym_Proofs QuatMany_Proofs
  Boundary_Model Boundary_Spec Boundary_Proofs.
Open Scope R_scope.
Local Arguments quat_mul : simpl never.
Local Arguments Quat : simpl never.

Lemma rmax_fold l : forall a, a <= fold_left Rmax l a /\
  (forall x, In x l -> x <= fold_left Rmax l a) /\
  (fold_left Rmax l a = a \/ In (fold_left Rmax l a) l).
Proof.
  induction l as [|b l IH]; intros a; cbn [fold_left].
  - split; [lra|]. split; [intros x []|]. now left.
  - destruct (IH (Rmax a b)) as (A & B & C). pose proof (Rmax_l a b). pose proof (Rmax_r a b).
    split; [lra|]. split.
    + intros x [<-|Hx]; [lra|auto].
    + destruct C as [C|C]; [|right; now right]. rewrite C.
      unfold Rmax. destruct (Rle_dec a b); [right; now left | now left].
Qed.

Lemma rmax_spec l : l <> [] -> In (rmax l) l /\ forall x, In x l -> x <= rmax l.
Proof.
  destruct l as [|a l]; [congruence|]. intros _. unfold rmax.
  destruct (rmax_fold l a) as (A & B & C). split.
  - destruct C as [C|C]; [left; congruence | now right].
  - intros x [<-|Hx]; auto.
Qed.

Lemma clip1_id c : c <= 1 -> clip1 c = c.
Proof. intros Hc. unfold clip1. destruct (Rlt_dec 1 c); lra. Qed.

Lemma neighbour_misori_spec g q p : unitq q -> unitq p ->
  neighbour_misori (sym_eqv g) q p = 2 * acos (mis_ori q p g).
Proof.
  intros Hq Hp. unfold neighbour_misori. f_equal. f_equal.
  destruct (sym_head g) as (t & T). destruct (sym_group g) as (_ & U & _).
  destruct (mis_ori_greatest q p g) as [G (s & Is & Es)].
  set (l := map _ _).
  assert (L : forall v, In v l <-> exists s, In s (sym_eqv g) /\ v = Rabs (inner q (hprod s p))).
  { intros v. unfold l. rewrite T. cbn [tl map].
    assert (E0 : clip1 (Rabs (dot q p)) = Rabs (inner q (hprod qone p))).
    { rewrite clip1_id; [|rewrite dot_inner; now apply inner_bound].
      rewrite hprod_1_l. reflexivity. }
    assert (E1 : forall s, In s t -> clip1 (Rabs (dot q (sym_comps s p))) = Rabs (inner q (hprod s p))).
    { intros s' Is'. assert (Us : unitq s') by (apply U; rewrite T; now right).
      assert (R : same_rot (sym_comps s' p) (hprod s' p)) by (rewrite sym_comps_mul; apply quat_mul_same).
      rewrite dot_inner. rewrite (Rabs_inner_same q q (sym_comps s' p) (hprod s' p)) by (auto using same_rot_refl).
      apply clip1_id. apply inner_bound; auto using unitq_hprod. }
    split.
    - intros [E|E].
      + exists qone. split; [now left|]. congruence.
      + rewrite map_map in E. apply in_map_iff in E as (s' & E & Is'). exists s'. split; [now right|].
        rewrite <- E1 by auto. congruence.
    - intros (s' & [<-|Is'] & ->).
      + left. congruence.
      + right. rewrite map_map. apply in_map_iff. exists s'. split; auto. }
  destruct (rmax_spec l) as [I M].
  { unfold l. cbn [map]. discriminate. }
  apply Rle_antisym.
  - apply L in I as (s' & Is' & ->). now apply G.
  - rewrite <- Es. apply M, L. eauto.
Qed.

Lemma gtb_spec a b : gtb a b = true <-> b < a.
Proof. unfold gtb. destruct (Rlt_dec b a); split; intros; try congruence; auto; lra. Qed.

Lemma above_iff m tol : above_tolerance m tol <-> tol * (PI / 180) < 2 * acos m.
Proof.
  unfold above_tolerance. pose proof PI_RGT_0 as P.
  set (x := 2 * acos m). clearbody x.
  assert (A : 180 / PI * x * (PI / 180) = x) by (field; lra).
  assert (B : 0 < PI / 180) by lra. split; intros K.
  - rewrite <- A. apply Rmult_lt_compat_r; auto.
  - rewrite <- A in K. apply Rmult_lt_reg_r in K; auto.
Qed.

Lemma edge_zero : edge_misori = 0.
Proof. unfold edge_misori. rewrite acos_1. ring. Qed.

Lemma tol_nonneg tol : 0 <= tol -> 0 <= tol * (PI / 180).
Proof. intros. pose proof PI_RGT_0. apply Rmult_le_pos; lra. Qed.

Lemma grain_bx_spec W H g ori phase tol p :
  (forall p, inside W H p -> unitq (ori p)) -> 0 <= tol -> inside W H p ->
  (grain_bx W g ori phase tol p = true <->
   (fst p + 1 < W)%Z /\ (phase p <> phase (next_pix 0 p) \/
     above_tolerance (mis_ori (ori p) (ori (next_pix 0 p)) g) tol)).
Proof.
  intros U Ht Hp. unfold grain_bx, phase_x. rewrite orb_true_iff, gtb_spec, above_iff.
  apply tol_nonneg in Ht. unfold next_pix; cbn [Z.eqb]. unfold inside in Hp.
  destruct (Z.ltb_spec (fst p) (W - 1)).
  - rewrite neighbour_misori_spec; [| apply U; unfold inside; lia | apply U; unfold inside; cbn [fst snd]; lia].
    destruct (Z.eqb_spec (fst p) (W - 1)); [lia|]. rewrite Z.mod_small by lia.
    rewrite negb_true_iff, Z.eqb_neq. split; [intuition lia | tauto].
  - rewrite edge_zero. destruct (Z.eqb_spec (fst p) (W - 1)); [|lia].
    split; [intros [K|K]; [lra|discriminate] | intros [K _]; lia].
Qed.

Lemma grain_by_spec W H g ori phase tol p :
  (forall p, inside W H p -> unitq (ori p)) -> 0 <= tol -> inside W H p ->
  (grain_by H g ori phase tol p = true <->
   (snd p + 1 < H)%Z /\ (phase p <> phase (next_pix 1 p) \/
     above_tolerance (mis_ori (ori p) (ori (next_pix 1 p)) g) tol)).
Proof.
  intros U Ht Hp. unfold grain_by, phase_y. rewrite orb_true_iff, gtb_spec, above_iff.
  apply tol_nonneg in Ht. unfold next_pix; cbn [Z.eqb]. unfold inside in Hp.
  destruct (Z.ltb_spec (snd p) (H - 1)).
  - rewrite neighbour_misori_spec; [| apply U; unfold inside; lia | apply U; unfold inside; cbn [fst snd]; lia].
    destruct (Z.eqb_spec (snd p) (H - 1)); [lia|]. rewrite Z.mod_small by lia.
    rewrite negb_true_iff, Z.eqb_neq. split; [intuition lia | tauto].
  - rewrite edge_zero. destruct (Z.eqb_spec (snd p) (H - 1)); [|lia].
    split; [intros [K|K]; [lra|discriminate] | intros [K _]; lia].
Qed.

Lemma phase_x_spec W H phase p : inside W H p ->
  (phase_x W phase p = true <-> (fst p + 1 < W)%Z /\ phase p <> phase (next_pix 0 p)).
Proof.
  unfold inside, phase_x, next_pix. cbn [Z.eqb]. intros Hp.
  destruct (Z.eqb_spec (fst p) (W - 1)).
  - split; [discriminate | lia].
  - rewrite Z.mod_small by lia. rewrite negb_true_iff, Z.eqb_neq. split; [intuition lia | tauto].
Qed.
Lemma phase_y_spec W H phase p : inside W H p ->
  (phase_y H phase p = true <-> (snd p + 1 < H)%Z /\ phase p <> phase (next_pix 1 p)).
Proof.
  unfold inside, phase_y, next_pix. cbn [Z.eqb]. intros Hp.
  destruct (Z.eqb_spec (snd p) (H - 1)).
  - split; [discriminate | lia].
  - rewrite Z.mod_small by lia. rewrite negb_true_iff, Z.eqb_neq. split; [intuition lia | tauto].
Qed.

(** ** Tolerances *)
Lemma gtb_mono a t1 t2 : t1 <= t2 -> gtb a (t2 * (PI / 180)) = true -> gtb a (t1 * (PI / 180)) = true.
Proof.
  intros Ht. rewrite !gtb_spec. intros. pose proof PI_RGT_0.
  assert (t1 * (PI / 180) <= t2 * (PI / 180)) by (apply Rmult_le_compat_r; lra). lra.
Qed.
Lemma grain_bx_mono W g ori phase t1 t2 p : t1 <= t2 ->
  grain_bx W g ori phase t2 p = true -> grain_bx W g ori phase t1 p = true.
Proof.
  intros Ht. unfold grain_bx. rewrite !orb_true_iff. intros [K|K]; auto.
  left. revert K. now apply gtb_mono.
Qed.
Lemma grain_by_mono H g ori phase t1 t2 p : t1 <= t2 ->
  grain_by H g ori phase t2 p = true -> grain_by H g ori phase t1 p = true.
Proof.
  intros Ht. unfold grain_by. rewrite !orb_true_iff. intros [K|K]; auto.
  left. revert K. now apply gtb_mono.
Qed.

Lemma connected_mono W H bx1 by1 bx2 by2 :
  (forall p, inside W H p -> bx2 p = true -> bx1 p = true) ->
  (forall p, inside W H p -> by2 p = true -> by1 p = true) ->
  forall p q, connected W H bx1 by1 p q -> connected W H bx2 by2 p q.
Proof.
  intros Hx Hy p q C. induction C as [p q S|p|p q r C1 IH1 C2 IH2].
  - apply rt_step.
    assert (Fx : forall u, inside W H u -> bx1 u = false -> bx2 u = false).
    { intros u Iu E. destruct (bx2 u) eqn:E2; auto. apply Hx in E2; auto. congruence. }
    assert (Fy : forall u, inside W H u -> by1 u = false -> by2 u = false).
    { intros u Iu E. destruct (by2 u) eqn:E2; auto. apply Hy in E2; auto. congruence. }
    destruct S; constructor; auto.
  - apply rt_refl.
  - eapply rt_trans; eauto.
Qed.

(** The images that find_grains reads, when both point sets have a point. *)
Lemma images_ok W H g ori phase tol : (0 <= W)%Z -> (0 <= H)%Z ->
  let gb := snd (find_boundaries W H g ori phase tol) in
  bs_x gb <> [] -> bs_y gb <> [] ->
  exists bx by_, bs_image W H (bs_x gb) = Ok bx /\ bs_image W H (bs_y gb) = Ok by_ /\
    (forall p, inside W H p -> bx p = grain_bx W g ori phase tol p) /\
    (forall p, inside W H p -> by_ p = grain_by H g ori phase tol p).
Proof.
  intros HW HH gb Nx Ny.
  destruct (from_image_points W H (grain_bx W g ori phase tol) (grain_by H g ori phase tol) HW HH)
    as (_ & _ & _ & Px & Py & _). fold (snd (find_boundaries W H g ori phase tol)) in *.
  change (from_image W H (grain_bx W g ori phase tol) (grain_by H g ori phase tol)) with gb in *.
  destruct (bs_image_exact W H (bs_x gb) Nx) as (bx & Ex & Sx); [intros p Hp; now apply Px in Hp|].
  destruct (bs_image_exact W H (bs_y gb) Ny) as (by_ & Ey & Sy); [intros p Hp; now apply Py in Hp|].
  exists bx, by_. split; auto. split; auto. split; intros p Hp.
  - apply eq_true_iff_eq. rewrite Sx, Px. tauto.
  - apply eq_true_iff_eq. rewrite Sy, Py. tauto.
Qed.

Lemma region_size_le W H bx1 by1 bx2 by2 p n m :
  (forall q, connected W H bx1 by1 p q -> connected W H bx2 by2 p q) ->
  region_size W H bx1 by1 p n -> region_size W H bx2 by2 p m -> (n <= m)%nat.
Proof.
  intros C (l & Nl & Il & <-) (k & Nk & Ik & <-). apply NoDup_incl_length; auto.
  intros q Hq. apply Ik, C, Il, Hq.
Qed.

Lemma regions_refine W H g ori phase t1 t2 np ms lab1 gl1 ph1 lab2 gl2 ph2 :
  (2 <= W)%Z -> (2 <= H)%Z -> t1 <= t2 ->
  let gb := snd (find_boundaries W H g ori phase t2) in
  bs_x gb <> [] -> bs_y gb <> [] ->
  find_boundaries_then_grains W H g ori phase t1 np ms = Ok (lab1, gl1, ph1) ->
  find_boundaries_then_grains W H g ori phase t2 np ms = Ok (lab2, gl2, ph2) ->
  forall p q, inside W H p -> inside W H q -> (0 < lab1 p)%Z -> lab1 q = lab1 p ->
  (0 < lab2 p)%Z /\ lab2 q = lab2 p.
Proof.
  intros HW HH Ht gb2 Nx2 Ny2 E1 E2 p q Hp Hq L1 Lq.
  destruct (images_ok W H g ori phase t2 ltac:(lia) ltac:(lia) Nx2 Ny2) as (bx2 & by2 & I1 & I2 & S2x & S2y).
  set (gb1 := snd (find_boundaries W H g ori phase t1)).
  assert (Sub : (forall u, In u (bs_x gb2) -> In u (bs_x gb1)) /\ (forall u, In u (bs_y gb2) -> In u (bs_y gb1))).
  { destruct (from_image_points W H (grain_bx W g ori phase t1) (grain_by H g ori phase t1) ltac:(lia) ltac:(lia))
      as (_ & _ & _ & Px1 & Py1 & _).
    destruct (from_image_points W H (grain_bx W g ori phase t2) (grain_by H g ori phase t2) ltac:(lia) ltac:(lia))
      as (_ & _ & _ & Px2 & Py2 & _).
    split; intros u Hu.
    - apply Px1. apply Px2 in Hu as [A B]. split; auto. revert B. now apply grain_bx_mono.
    - apply Py1. apply Py2 in Hu as [A B]. split; auto. revert B. now apply grain_by_mono. }
  assert (Nx1 : bs_x gb1 <> []).
  { destruct (bs_x gb2) as [|u l] eqn:E; [congruence|]. destruct Sub as [S _].
    specialize (S u (or_introl eq_refl)). intros K. rewrite K in S. destruct S. }
  assert (Ny1 : bs_y gb1 <> []).
  { destruct (bs_y gb2) as [|u l] eqn:E; [congruence|]. destruct Sub as [_ S].
    specialize (S u (or_introl eq_refl)). intros K. rewrite K in S. destruct S. }
  destruct (images_ok W H g ori phase t1 ltac:(lia) ltac:(lia) Nx1 Ny1) as (bx1 & by1 & J1 & J2 & S1x & S1y).
  unfold find_boundaries_then_grains in E1, E2.
  fold gb1 in E1, J1, J2. fold gb2 in E2, I1, I2.
  rewrite J1, J2 in E1. rewrite I1, I2 in E2. cbn [bind] in E1, E2.
  assert (Cm : forall u v, connected W H bx1 by1 u v -> connected W H bx2 by2 u v).
  { apply connected_mono; intros u Hu; rewrite ?S1x, ?S1y, ?S2x, ?S2y by auto;
    [now apply grain_bx_mono | now apply grain_by_mono]. }
  assert (C2 : connected W H bx2 by2 p q).
  { apply Cm. apply (fg_same _ _ _ _ _ _ _ _ _ _ HW HH E1 p q Hp Hq L1). exact Lq. }
  destruct (fg_values _ _ _ _ _ _ _ _ _ _ HW HH E1 p Hp) as [V1 V1'].
  destruct (fg_values _ _ _ _ _ _ _ _ _ _ HW HH E2 p Hp) as [V2 _].
  assert (P2 : (0 < lab2 p)%Z).
  { destruct (Classical_Prop.classic (region_indexed W H bx1 by1 phase p)) as [R1|R1].
    - destruct (V1 R1) as (n & Sn & [[A B]|[A B]]); [|lia].
      assert (R2 : region_indexed W H bx2 by2 phase p).
      { destruct R1 as (u & Iu & Cu & Pu). exists u; auto. }
      destruct (V2 R2) as (m & Sm & [[A' B']|[A' B']]); auto. exfalso.
      pose proof (region_size_le _ _ _ _ _ _ _ _ _ (Cm p) Sn Sm). lia.
    - rewrite V1' in L1 by auto. lia. }
  split; auto. apply (fg_same _ _ _ _ _ _ _ _ _ _ HW HH E2 p q Hp Hq P2). exact C2.
Qed.

(** ** No boundary at all *)
Lemma find_none W H g ori phase tol : (1 <= W)%Z -> (1 <= H)%Z ->
  (forall p, inside W H p -> grain_bx W g ori phase tol p = false) ->
  (forall p, inside W H p -> grain_by H g ori phase tol p = false) ->
  forall np ms, find_boundaries_then_grains W H g ori phase tol np ms =
    find_grains W H (fun _ => true) (fun _ => true) phase np ms.
Proof.
  intros HW HH Bx By np ms. unfold find_boundaries_then_grains, find_boundaries. cbn [snd].
  destruct (from_image_points W H (grain_bx W g ori phase tol) (grain_by H g ori phase tol) ltac:(lia) ltac:(lia))
    as (_ & _ & _ & Px & Py & _).
  destruct (bs_x (from_image W H (grain_bx W g ori phase tol) (grain_by H g ori phase tol))) as [|u l].
  2:{ exfalso. destruct (proj1 (Px u) (or_introl eq_refl)) as [A B]. rewrite Bx in B by auto. discriminate. }
  destruct (bs_y (from_image W H (grain_bx W g ori phase tol) (grain_by H g ori phase tol))) as [|u l].
  2:{ exfalso. destruct (proj1 (Py u) (or_introl eq_refl)) as [A B]. rewrite By in B by auto. discriminate. }
  reflexivity.
Qed.

Lemma connected_alltrue W H p q : connected W H (fun _ => true) (fun _ => true) p q -> p = q.
Proof.
  intros C. induction C as [p q S|p|p q r C1 IH1 C2 IH2]; [destruct S; discriminate | auto | congruence].
Qed.

Lemma alltrue_grains W H phase np ms : (2 <= W)%Z -> (2 <= H)%Z ->
  (forall p, inside W H p -> phase p <> 0%Z) ->
  ((2 <= ms)%Z -> find_grains W H (fun _ => true) (fun _ => true) phase np ms = Err IndexError) /\
  ((ms <= 1)%Z -> exists lab gl ph,
     find_grains W H (fun _ => true) (fun _ => true) phase np ms = Ok (lab, gl, ph) /\
     forall p q, inside W H p -> inside W H q -> p <> q -> (0 < lab p)%Z /\ lab p <> lab q).
Proof.
  intros HW HH Hph.
  assert (Sz : forall p, region_size W H (fun _ => true) (fun _ => true) p 1).
  { intros p. exists [p]. split; [constructor; [intros [] | constructor]|]. split; auto.
    intros q. cbn [In]. split.
    - intros [<-|[]]. apply rt_refl.
    - intros C. left. now apply connected_alltrue in C. }
  assert (Ri : forall p, inside W H p -> region_indexed W H (fun _ => true) (fun _ => true) phase p).
  { intros p Hp. exists p. split; auto. split; [apply rt_refl | auto]. }
  assert (I0 : inside W H (0, 0)%Z) by (unfold inside; cbn [fst snd]; lia).
  destruct (fg_outcome W H (fun _ => true) (fun _ => true) phase np ms HW HH) as (O1 & O2 & _).
  split; intros Hms.
  - apply O2.
    + exists (0, 0)%Z. auto.
    + intros (p & n & Hp & _ & Sn & Hn). pose proof (region_size_fun _ _ _ _ _ _ _ Sn (Sz p)). lia.
  - destruct O1 as ([[lab gl] ph] & E).
    { exists (0, 0)%Z, 1%nat. split; [auto|]. split; [auto|]. split; [auto|]. lia. }
    exists lab, gl, ph. split; auto. intros p q Hp Hq Hne.
    destruct (fg_values _ _ _ _ _ _ _ _ _ _ HW HH E p Hp) as [V _].
    destruct (V (Ri p Hp)) as (n & Sn & V').
    pose proof (region_size_fun _ _ _ _ _ _ _ Sn (Sz p)). subst n.
    assert (P : (0 < lab p)%Z) by (destruct V' as [[A B]|[A B]]; lia). split; auto.
    intros El. symmetry in El. apply (fg_same _ _ _ _ _ _ _ _ _ _ HW HH E p q Hp Hq P) in El.
    apply connected_alltrue in El. auto.
Qed.

Lemma misori_refl g q : unitq q -> mis_ori q q g = 1.
Proof. intros Hq. apply mis_ori_one; auto. apply equivalent_refl. Qed.

Lemma uniform_no_boundary W H g ori phase tol : (1 <= W)%Z -> (1 <= H)%Z -> 0 <= tol ->
  (forall p, inside W H p -> unitq (ori p)) ->
  (forall p q, inside W H p -> inside W H q -> ori p = ori q /\ phase p = phase q) ->
  (forall p, inside W H p -> grain_bx W g ori phase tol p = false) /\
  (forall p, inside W H p -> grain_by H g ori phase tol p = false).
Proof.
  intros HW HH Ht U E. split; intros p Hp.
  - destruct (grain_bx W g ori phase tol p) eqn:K; auto. exfalso.
    apply (grain_bx_spec W H) in K; auto. destruct K as [L K].
    assert (Hn : inside W H (next_pix 0 p)) by (unfold inside, next_pix in *; cbn [Z.eqb fst snd]; lia).
    destruct (E p _ Hp Hn) as [Eo Ep]. rewrite <- Eo, <- Ep in K. destruct K as [K|K]; [congruence|].
    apply above_iff in K. rewrite misori_refl in K by auto. rewrite acos_1 in K.
    pose proof (tol_nonneg tol Ht). lra.
  - destruct (grain_by H g ori phase tol p) eqn:K; auto. exfalso.
    apply (grain_by_spec W H) in K; auto. destruct K as [L K].
    assert (Hn : inside W H (next_pix 1 p)) by (unfold inside, next_pix in *; cbn [Z.eqb fst snd]; lia).
    destruct (E p _ Hp Hn) as [Eo Ep]. rewrite <- Eo, <- Ep in K. destruct K as [K|K]; [congruence|].
    apply above_iff in K. rewrite misori_refl in K by auto. rewrite acos_1 in K.
    pose proof (tol_nonneg tol Ht). lra.
Qed.

(** ** A map on which raising the tolerance splits a grain *)
Definition qB := Q4 (4 / 5) (3 / 5) 0 0.
Definition wit_ori (p : pix) : quat :=
  if pix_eqb p (1, 1)%Z then qB else qone.

Lemma qB_unit : unitq qB.
Proof. unfold unitq, qB. cbn [qw qx qy qz]. field. Qed.

Lemma qB_inequiv : ~ equivalent (sym_eqv "cubic") qB qone.
Proof.
  intros (s & Is & E). rewrite cubic_list in Is.
  pose proof s2b as S2. assert (Q : over_root2 * over_root2 = / 2).
  { unfold over_root2. assert (sqrt 2 * sqrt 2 = 2) by (apply sqrt_sqrt; lra).
    nra. }
  cbn [In] in Is.
  repeat (destruct Is as [<-|Is];
    [destruct E as [E|E]; apply (f_equal qw) in E; unfold opp, hprod, qone, qB in E;
     cbn [qw qx qy qz] in E; nra|]).
  destruct Is.
Qed.

Lemma acos_half_bound m : / 2 <= m -> m <= 1 -> 2 * acos m <= 120 * (PI / 180).
Proof.
  intros A B. assert (acos m <= PI / 3); [|lra].
  rewrite <- (acos_cos (PI / 3)) by (pose proof PI_RGT_0; lra).
  rewrite cos_PI3. apply acos_decr; lra.
Qed.

Lemma cubic_120 q p : unitq q -> unitq p -> ~ above_tolerance (mis_ori q p "cubic") 120.
Proof.
  intros Hq Hp K. apply above_iff in K.
  pose proof (mis_ori_half q p "cubic" (or_introl eq_refl) Hq Hp).
  pose proof (mis_ori_range q p "cubic" Hq Hp).
  pose proof (acos_half_bound (mis_ori q p "cubic")). lra.
Qed.

Lemma acos_pos m : m < 1 -> -1 <= m -> 0 < acos m.
Proof.
  intros A B. destruct (Rle_lt_or_eq_dec 0 (acos m)) as [L|E]; [apply acos_bound | auto |].
  exfalso. assert (cos (acos m) = 1) by (rewrite <- E; apply cos_0). rewrite cos_acos in H; lra.
Qed.
Lemma inequiv_above q p g : unitq q -> unitq p -> ~ equivalent (sym_eqv g) p q ->
  above_tolerance (mis_ori q p g) 0.
Proof.
  intros Hq Hp N. apply above_iff. pose proof (mis_ori_range q p g Hq Hp) as R.
  assert (mis_ori q p g <> 1) by (intros E; apply N; apply mis_ori_one; auto).
  pose proof (acos_pos (mis_ori q p g)). lra.
Qed.
