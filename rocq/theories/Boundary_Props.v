(** Properties of grain boundaries and the neighbour network. *)
From Coq Require Import String Reals Lra.
From Coq Require Import List ZArith Bool Lia Relations.
Import ListNotations.
From Verif Require Import Py Grid Grid_Lemmas Flood_Model Flood_Spec Flood_Proofs
  Quat_Model Quat_Spec Quat_Proofs QuatSym_Proofs QuatMany_Proofs
  Boundary_Model Boundary_Spec Boundary_Proofs BoundaryOri_Proofs.
From Coq Require Import ZifyBool ZifyNat.
Open Scope Z_scope.

(** C04: which boundaries are marked.  A boundary between a pixel and its next
    neighbour in x (or y) is marked exactly if the phases differ or the
    misorientation exceeds the tolerance; so none on the last column (row). *)
Theorem C04_marked_boundaries :
  forall W H g ori phase tol,
  1 <= W -> 1 <= H -> (0 <= tol)%R -> (forall p, inside W H p -> unitq (ori p)) ->
  let gb := snd (find_boundaries W H g ori phase tol) in
  let pb := fst (find_boundaries W H g ori phase tol) in
  (forall p, In p (bs_x gb) <-> inside W H p /\ inside W H (next_pix 0 p) /\
     (phase p <> phase (next_pix 0 p) \/
      above_tolerance (mis_ori (ori p) (ori (next_pix 0 p)) g) tol)) /\
  (forall p, In p (bs_y gb) <-> inside W H p /\ inside W H (next_pix 1 p) /\
     (phase p <> phase (next_pix 1 p) \/
      above_tolerance (mis_ori (ori p) (ori (next_pix 1 p)) g) tol)) /\
  (forall p, In p (bs_x pb) <-> inside W H p /\ inside W H (next_pix 0 p) /\
     phase p <> phase (next_pix 0 p)) /\
  (forall p, In p (bs_y pb) <-> inside W H p /\ inside W H (next_pix 1 p) /\
     phase p <> phase (next_pix 1 p)).
Proof.
  intros W H g ori phase tol HW HH Ht U gb pb.
  destruct (from_image_points W H (grain_bx W g ori phase tol) (grain_by H g ori phase tol)
    ltac:(lia) ltac:(lia)) as (_ & _ & _ & Gx & Gy & _).
  destruct (from_image_points W H (phase_x W phase) (phase_y H phase)
    ltac:(lia) ltac:(lia)) as (_ & _ & _ & Qx & Qy & _).
  assert (N0 : forall p, inside W H p -> (inside W H (next_pix 0 p) <-> fst p + 1 < W))
    by (intros p; unfold inside, next_pix; cbn [Z.eqb fst snd]; lia).
  assert (N1 : forall p, inside W H p -> (inside W H (next_pix 1 p) <-> snd p + 1 < H))
    by (intros p; unfold inside, next_pix; cbn [Z.eqb fst snd]; lia).
  split; [|split; [|split]]; intros p.
  - unfold gb, find_boundaries. cbn [snd]. rewrite Gx.
    split; intros [A B]; split; auto.
    + apply (grain_bx_spec W H) in B; auto. rewrite N0; auto.
    + apply (grain_bx_spec W H); auto. rewrite <- N0; auto.
  - unfold gb, find_boundaries. cbn [snd]. rewrite Gy.
    split; intros [A B]; split; auto.
    + apply (grain_by_spec W H) in B; auto. rewrite N1; auto.
    + apply (grain_by_spec W H); auto. rewrite <- N1; auto.
  - unfold pb, find_boundaries. cbn [fst]. rewrite Qx.
    split; intros [A B]; split; auto.
    + apply (phase_x_spec W H) in B; auto. rewrite N0; auto.
    + apply (phase_x_spec W H); auto. rewrite <- N0; auto.
  - unfold pb, find_boundaries. cbn [fst]. rewrite Qy.
    split; intros [A B]; split; auto.
    + apply (phase_y_spec W H) in B; auto. rewrite N1; auto.
    + apply (phase_y_spec W H); auto. rewrite <- N1; auto.
Qed.
Print Assumptions C04_marked_boundaries.

Example C04_marked_hypotheses_met :
  1 <= 2 /\ (0 <= 10)%R /\ (forall p, inside 2 2 p -> unitq (wit_ori p)) /\
  wit_ori (1, 1) <> wit_ori (0, 1).
Proof.
  split; [lia|]. split; [lra|]. split.
  - intros p _. unfold wit_ori. destruct (pix_eqb p (1, 1)); [apply qB_unit | apply unitq_qone].
  - unfold wit_ori. cbn. unfold qB, qone. intros E. apply (f_equal qx) in E. cbn [qx] in E. lra.
Qed.

(** C04: a boundary marked at a tolerance is marked at every lower one (even a
    negative one), and phase boundaries are marked at every tolerance. *)
Theorem C04_tolerance_monotone :
  forall W H g ori phase t1 t2, 0 <= W -> 0 <= H -> (t1 <= t2)%R ->
  let b1 := find_boundaries W H g ori phase t1 in
  let b2 := find_boundaries W H g ori phase t2 in
  (forall p, In p (bs_x (snd b2)) -> In p (bs_x (snd b1))) /\
  (forall p, In p (bs_y (snd b2)) -> In p (bs_y (snd b1))) /\
  (forall p, In p (bs_x (fst b2)) -> In p (bs_x (snd b1))) /\
  (forall p, In p (bs_y (fst b2)) -> In p (bs_y (snd b1))).
Proof.
  intros W H g ori phase t1 t2 HW HH Ht b1 b2.
  destruct (from_image_points W H (grain_bx W g ori phase t1) (grain_by H g ori phase t1) HW HH)
    as (_ & _ & _ & Gx & Gy & _).
  destruct (from_image_points W H (grain_bx W g ori phase t2) (grain_by H g ori phase t2) HW HH)
    as (_ & _ & _ & Kx & Ky & _).
  destruct (from_image_points W H (phase_x W phase) (phase_y H phase) HW HH)
    as (_ & _ & _ & Qx & Qy & _).
  unfold b1, b2, find_boundaries; cbn [fst snd].
  split; [|split; [|split]]; intros p; rewrite ?Gx, ?Gy, ?Kx, ?Ky, ?Qx, ?Qy; intros [A B]; split; auto.
  - revert B. now apply grain_bx_mono.
  - revert B. now apply grain_by_mono.
  - unfold grain_bx. rewrite B. apply orb_true_r.
  - unfold grain_by. rewrite B. apply orb_true_r.
Qed.
Print Assumptions C04_tolerance_monotone.

(** C04: pixels of one grain stay in one grain when the tolerance is raised,
    provided that at the higher tolerance there is still some boundary in x and
    some boundary in y. *)
Theorem C04_regions_refine_partial :
  forall W H g ori phase t1 t2 np ms lab1 gl1 ph1 lab2 gl2 ph2,
  2 <= W -> 2 <= H -> (t1 <= t2)%R ->
  bs_x (snd (find_boundaries W H g ori phase t2)) <> [] ->
  bs_y (snd (find_boundaries W H g ori phase t2)) <> [] ->
  find_boundaries_then_grains W H g ori phase t1 np ms = Ok (lab1, gl1, ph1) ->
  find_boundaries_then_grains W H g ori phase t2 np ms = Ok (lab2, gl2, ph2) ->
  forall p q, inside W H p -> inside W H q -> 0 < lab1 p -> lab1 q = lab1 p ->
  0 < lab2 p /\ lab2 q = lab2 p.
Proof.
  intros W H g ori phase t1 t2 np ms lab1 gl1 ph1 lab2 gl2 ph2 HW HH Ht Nx Ny E1 E2.
  exact (regions_refine W H g ori phase t1 t2 np ms lab1 gl1 ph1 lab2 gl2 ph2 HW HH Ht Nx Ny E1 E2).
Qed.
Print Assumptions C04_regions_refine_partial.

(** The situation in which the previous theorem applies, and the one in which
    it does not: a 2 x 2 cubic map with one pixel turned. *)
Lemma wit_above : above_tolerance (mis_ori qone qB "cubic") 0.
Proof. apply inequiv_above; [apply unitq_qone | apply qB_unit | apply qB_inequiv]. Qed.
Lemma wit_unit p : unitq (wit_ori p).
Proof. unfold wit_ori. destruct (pix_eqb p (1, 1)); [apply qB_unit | apply unitq_qone]. Qed.
Lemma wit_points :
  In (0, 1) (bs_x (snd (find_boundaries 2 2 "cubic" wit_ori (fun _ => 1) 0))) /\
  In (1, 0) (bs_y (snd (find_boundaries 2 2 "cubic" wit_ori (fun _ => 1) 0))) /\
  ~ In (0, 0) (bs_x (snd (find_boundaries 2 2 "cubic" wit_ori (fun _ => 1) 0))).
Proof.
  destruct (C04_marked_boundaries 2 2 "cubic" wit_ori (fun _ => 1) 0) as (X & Y & _);
    [lia | lia | lra | intros; apply wit_unit |].
  rewrite (X (0, 1)), (X (0, 0)), (Y (1, 0)).
  assert (E : forall k p, (k, p) = (0, (0, 1)) \/ (k, p) = (1, (1, 0)) ->
    wit_ori p = qone /\ wit_ori (next_pix k p) = qB /\ inside 2 2 p /\ inside 2 2 (next_pix k p)).
  { intros k p [E|E]; injection E as -> ->; cbn; repeat split; cbn; lia. }
  destruct (E 0 (0, 1)) as (E1 & E2 & E3 & E4); auto.
  destruct (E 1 (1, 0)) as (E1' & E2' & E3' & E4'); auto.
  split; [|split].
  - split; auto. split; auto. right. rewrite E1, E2. apply wit_above.
  - split; auto. split; auto. right. rewrite E1', E2'. apply wit_above.
  - intros (_ & _ & [K|K]); [auto|].
    change (wit_ori (0, 0)) with qone in K. change (wit_ori (next_pix 0 (0, 0))) with qone in K.
    apply above_iff in K. rewrite misori_refl in K by apply unitq_qone. rewrite acos_1 in K. lra.
Qed.
Lemma wit_run : exists lab gl ph,
  find_boundaries_then_grains 2 2 "cubic" wit_ori (fun _ => 1) 0 1 1 = Ok (lab, gl, ph) /\
  0 < lab (0, 0) /\ lab (1, 0) = lab (0, 0).
Proof.
  destruct wit_points as (A & B & C).
  destruct (images_ok 2 2 "cubic" wit_ori (fun _ => 1) 0) as (bx & by_ & I1 & I2 & Sx & Sy); try lia.
  { intros E. rewrite E in A. destruct A. }
  { intros E. rewrite E in B. destruct B. }
  unfold find_boundaries_then_grains. rewrite I1, I2. cbn [bind].
  assert (I : inside 2 2 (0, 0)) by (unfold inside; cbn; lia).
  assert (I' : inside 2 2 (1, 0)) by (unfold inside; cbn; lia).
  assert (D : exists p, inside 2 2 p /\ (fun _ : pix => 1) p <> 0) by (exists (0, 0); split; [auto | discriminate]).
  destruct (find_grains_indexed 2 2 bx by_ (fun _ => 1) 1 1 ltac:(lia) ltac:(lia) D)
    as [(lab & gl & ph & E & _)|(_ & F)].
  2:{ exfalso. assert (R : region_indexed 2 2 bx by_ (fun _ => 1) (0, 0)).
      { exists (0, 0). split; auto. split; [apply rt_refl | discriminate]. }
      destruct (F (0, 0) I R) as (m & Sm & Lm).
      destruct Sm as (l & _ & Il & El). assert (In (0, 0) l) as Q by (apply Il, rt_refl).
      destruct l; [destruct Q | cbn [List.length] in El; lia]. }
  exists lab, gl, ph. split; auto. assert (T2 : 2 <= 2) by lia.
  assert (P : 0 < lab (0, 0)).
  { destruct (fg_values _ _ _ _ _ _ _ _ _ _ T2 T2 E (0, 0) I) as [V _].
    assert (R : region_indexed 2 2 bx by_ (fun _ => 1) (0, 0)).
    { exists (0, 0). split; auto. split; [apply rt_refl | discriminate]. }
    destruct (V R) as (n & Sn & [[V1 V2]|[V1 V2]]); auto.
    destruct Sn as (l & _ & Il & El). assert (In (0, 0) l) as Q by (apply Il, rt_refl).
    destruct l; [destruct Q | cbn [List.length] in El; lia]. }
  split; auto. apply (fg_same _ _ _ _ _ _ _ _ _ _ T2 T2 E (0, 0) (1, 0) I I' P).
  apply rt_step. apply (step_right 2 2 bx by_ 0 0); auto. rewrite Sx by auto.
  destruct (grain_bx 2 "cubic" wit_ori (fun _ => 1) 0 (0, 0)) eqn:G; auto.
  exfalso. apply C.
  destruct (from_image_points 2 2 (grain_bx 2 "cubic" wit_ori (fun _ => 1) 0)
     (grain_by 2 "cubic" wit_ori (fun _ => 1) 0) ltac:(lia) ltac:(lia)) as (_ & _ & _ & X & _).
  apply X. auto.
Qed.

(** The hypotheses of the partial theorem hold, for tolerances 0 and 0 on this
    map (its boundary sets are non-empty and the run succeeds). *)
Example C04_refine_hypotheses_met :
  bs_x (snd (find_boundaries 2 2 "cubic" wit_ori (fun _ => 1) 0)) <> [] /\
  bs_y (snd (find_boundaries 2 2 "cubic" wit_ori (fun _ => 1) 0)) <> [] /\
  exists r, find_boundaries_then_grains 2 2 "cubic" wit_ori (fun _ => 1) 0 1 1 = Ok r.
Proof.
  destruct wit_points as (A & B & _). destruct wit_run as (lab & gl & ph & E & _).
  split; [intros K; rewrite K in A; destruct A|].
  split; [intros K; rewrite K in B; destruct B|]. eauto.
Qed.

(** C04 fails in general: when the higher tolerance removes the last boundary,
    every pixel becomes a grain of its own. *)
Theorem C04_regions_refine_refuted :
  exists W H g ori phase t1 t2 np ms lab1 gl1 ph1 lab2 gl2 ph2 p q,
  2 <= W /\ 2 <= H /\ (0 <= t1 <= t2)%R /\ (forall p, unitq (ori p)) /\
  find_boundaries_then_grains W H g ori phase t1 np ms = Ok (lab1, gl1, ph1) /\
  find_boundaries_then_grains W H g ori phase t2 np ms = Ok (lab2, gl2, ph2) /\
  inside W H p /\ inside W H q /\ 0 < lab1 p /\ lab1 q = lab1 p /\ lab2 q <> lab2 p.
Proof.
  destruct wit_run as (lab & gl & ph & E & P & Q).
  destruct (C04_marked_boundaries 2 2 "cubic" wit_ori (fun _ => 1) 120) as (X & Y & _);
    [lia | lia | lra | intros; apply wit_unit |].
  destruct (from_image_points 2 2 (grain_bx 2 "cubic" wit_ori (fun _ => 1) 120)
     (grain_by 2 "cubic" wit_ori (fun _ => 1) 120) ltac:(lia) ltac:(lia)) as (_ & _ & _ & Gx & Gy & _).
  assert (Bx : forall p, inside 2 2 p -> grain_bx 2 "cubic" wit_ori (fun _ => 1) 120 p = false).
  { intros p Hp. destruct (grain_bx _ _ _ _ _ p) eqn:G; auto. exfalso.
    assert (I : In p (bs_x (snd (find_boundaries 2 2 "cubic" wit_ori (fun _ => 1) 120)))) by (apply Gx; auto).
    apply X in I as (_ & _ & [K|K]); auto. revert K. apply cubic_120; apply wit_unit. }
  assert (By : forall p, inside 2 2 p -> grain_by 2 "cubic" wit_ori (fun _ => 1) 120 p = false).
  { intros p Hp. destruct (grain_by _ _ _ _ _ p) eqn:G; auto. exfalso.
    assert (I : In p (bs_y (snd (find_boundaries 2 2 "cubic" wit_ori (fun _ => 1) 120)))) by (apply Gy; auto).
    apply Y in I as (_ & _ & [K|K]); auto. revert K. apply cubic_120; apply wit_unit. }
  destruct (alltrue_grains 2 2 (fun _ => 1) 1 1 ltac:(lia) ltac:(lia) ltac:(discriminate)) as [_ S].
  destruct (S ltac:(lia)) as (lab2 & gl2 & ph2 & E2 & D).
  exists 2, 2, "cubic"%string, wit_ori, (fun _ => 1), 0%R, 120%R, 1, 1, lab, gl, ph, lab2, gl2, ph2, (0, 0), (1, 0).
  split; [lia|]. split; [lia|]. split; [lra|]. split; [apply wit_unit|]. split; [exact E|].
  split; [rewrite find_none by (auto; lia); exact E2|].
  assert (I : inside 2 2 (0, 0)) by (unfold inside; cbn; lia).
  assert (I' : inside 2 2 (1, 0)) by (unfold inside; cbn; lia).
  split; auto. split; auto. split; auto. split; auto.
  destruct (D (1, 0) (0, 0) I' I ltac:(discriminate)) as [_ N]. exact N.
Qed.
Print Assumptions C04_regions_refine_refuted.

(** C05: the points of a set made from images are the marked pixels, once
    each. *)
Theorem C05_points_exact :
  forall W H imx imy, 0 <= W -> 0 <= H ->
  let b := from_image W H imx imy in
  NoDup (bs_x b) /\ NoDup (bs_y b) /\ NoDup (bs_points b) /\
  (forall p, In p (bs_x b) <-> inside W H p /\ imx p = true) /\
  (forall p, In p (bs_y b) <-> inside W H p /\ imy p = true) /\
  (forall p, In p (bs_points b) <-> inside W H p /\ (imx p = true \/ imy p = true)).
Proof. exact from_image_points. Qed.
Print Assumptions C05_points_exact.

(** C05: the images rebuilt from a set are the images it was made from, if
    these mark at least one pixel. *)
Theorem C05_image_roundtrip_partial :
  forall W H imx imy, 0 <= W -> 0 <= H ->
  let b := from_image W H imx imy in
  ((exists p, inside W H p /\ imx p = true) ->
     exists im, bs_image W H (bs_x b) = Ok im /\ forall p, inside W H p -> im p = imx p) /\
  ((exists p, inside W H p /\ imy p = true) ->
     exists im, bs_image W H (bs_y b) = Ok im /\ forall p, inside W H p -> im p = imy p) /\
  ((exists p, inside W H p /\ (imx p = true \/ imy p = true)) ->
     exists im, bs_image W H (bs_points b) = Ok im /\
       forall p, inside W H p -> im p = imx p || imy p).
Proof.
  intros W H imx imy HW HH b.
  destruct (from_image_points W H imx imy HW HH) as (_ & _ & _ & X & Y & U).
  fold b in X, Y, U.
  assert (G : forall pts (im0 : pix -> bool), (forall p, In p pts <-> inside W H p /\ im0 p = true) ->
    (exists p, inside W H p /\ im0 p = true) ->
    exists im, bs_image W H pts = Ok im /\ forall p, inside W H p -> im p = im0 p).
  { intros pts im0 E (p & Hp). destruct (bs_image_exact W H pts) as (im & Ei & Si).
    - intros K. apply E in Hp. rewrite K in Hp. destruct Hp.
    - intros q Hq. now apply E in Hq.
    - exists im. split; auto. intros q Hq. apply eq_true_iff_eq. rewrite Si, E. tauto. }
  split; [|split]; intros Hex; apply G; auto.
  - intros p. rewrite U, orb_true_iff. tauto.
  - destruct Hex as (p & Hp). exists p. rewrite orb_true_iff. tauto.
Qed.
Print Assumptions C05_image_roundtrip_partial.

Example C05_hypotheses_met :
  let imx := fun p : pix => fst p =? 1 in
  (exists p, inside 3 2 p /\ imx p = true) /\
  bs_x (from_image 3 2 imx imx) = [(1, 0); (1, 1)].
Proof. split; [exists (1, 0); cbn; unfold inside; cbn; lia | vm_compute; reflexivity]. Qed.

(** C05 fails: an image without marks comes back with every pixel marked. *)
Theorem C05_empty_image_refuted :
  forall W H imx imy, 0 <= W -> 0 <= H -> (forall p, inside W H p -> imx p = false) ->
  exists im, bs_image W H (bs_x (from_image W H imx imy)) = Ok im /\ forall p, im p = true.
Proof.
  intros W H imx imy HW HH E.
  destruct (from_image_points W H imx imy HW HH) as (_ & _ & _ & X & _).
  destruct (bs_x (from_image W H imx imy)) as [|p l].
  - eexists; split; reflexivity.
  - exfalso. destruct (proj1 (X p) (or_introl eq_refl)) as [A B]. rewrite E in B by auto. discriminate.
Qed.
Print Assumptions C05_empty_image_refuted.

(** ... with the effect that on a map of one single crystal no two pixels are
    in one grain, and looking for grains of two or more pixels raises. *)
Theorem C05_single_crystal_refuted :
  forall W H g ori phase tol np ms,
  2 <= W -> 2 <= H -> (0 <= tol)%R ->
  (forall p, inside W H p -> unitq (ori p) /\ phase p <> 0) ->
  (forall p q, inside W H p -> inside W H q -> ori p = ori q /\ phase p = phase q) ->
  (2 <= ms -> find_boundaries_then_grains W H g ori phase tol np ms = Err IndexError) /\
  (ms <= 1 -> exists lab gl ph,
     find_boundaries_then_grains W H g ori phase tol np ms = Ok (lab, gl, ph) /\
     forall p q, inside W H p -> inside W H q -> p <> q -> 0 < lab p /\ lab p <> lab q).
Proof.
  intros W H g ori phase tol np ms HW HH Ht U E.
  destruct (uniform_no_boundary W H g ori phase tol) as [Bx By]; auto; try lia.
  { intros p Hp. now apply U. }
  rewrite find_none by (auto; lia). apply alltrue_grains; auto. intros p Hp. now apply U.
Qed.
Print Assumptions C05_single_crystal_refuted.

Example C05_single_crystal_hypotheses_met :
  (forall p, inside 5 4 p -> unitq ((fun _ => qB) p) /\ (fun _ : pix => 1) p <> 0).
Proof. intros p _. split; [apply qB_unit | discriminate]. Qed.

(** C09: the network exists, has an edge between two different grains exactly
    if they lie either side of a boundary point that is not on the rim of the
    map, has at most one edge per pair, none from a grain to itself, and each
    segment's pairs are adjacent pixels, the first in grain1 and the second in
    grain2. *)
Theorem C09_network :
  forall W H n lab px py,
  (forall p, In p px \/ In p py -> inside W H p) ->
  (forall p, inside W H p -> lab p <= n) ->
  exists segs, build_neighbour_network W H n lab px py = Ok segs /\
  (forall a b, a <> b -> 0 <= a -> 0 <= b ->
     ((exists s, In s segs /\ ((sg1 s = a /\ sg2 s = b) \/ (sg1 s = b /\ sg2 s = a))) <->
      (exists p, In p px /\ interior W H p /\ sides lab 0 p a b) \/
      (exists p, In p py /\ interior W H p /\ sides lab 1 p a b))) /\
  (forall i j s t, nth_error segs i = Some s -> nth_error segs j = Some t ->
     ((sg1 s = sg1 t /\ sg2 s = sg2 t) \/ (sg1 s = sg2 t /\ sg2 s = sg1 t)) -> i = j) /\
  (forall s, In s segs -> sg1 s <> sg2 s /\ 0 <= sg1 s < n /\ 0 <= sg2 s < n /\
     forall kind p q, kind = 0 \/ kind = 1 -> In (p, q) (boundary_point_pairs s kind) ->
       (q = next_pix kind p \/ p = next_pix kind q) /\
       lab p = sg1 s + 1 /\ lab q = sg2 s + 1).
Proof.
  intros W H n lab px py Hin Hlab.
  destruct (network_inv W H n lab Hlab px py Hin) as (segs & E & I1 & I2 & I3).
  exists segs. split; auto.
  assert (Hk : forall s a b, skey s = key a b <->
    ((sg1 s = a /\ sg2 s = b) \/ (sg1 s = b /\ sg2 s = a))).
  { intros s a b. unfold skey, key. rewrite pair_equal_spec. lia. }
  split; [|split].
  - intros a b Hab Ha Hb. split.
    + intros (s & Hs & Ks).
      destruct (I2 s Hs) as (A & B & C & D & F & _ & _ & K).
      assert (Sw : forall kind p, sides lab kind p (sg1 s) (sg2 s) -> sides lab kind p a b).
      { intros kind p. unfold sides. destruct Ks as [[-> ->]|[-> ->]]; tauto. }
      destruct K as [K|K].
      * left. destruct (seg_px s) as [|p l] eqn:Ep; [congruence|].
        assert (Ip : In p (filter (cnt W H lab 0 (sg1 s) (sg2 s)) px)) by (rewrite <- D; now left).
        apply filter_In in Ip as [Ip Cp]. apply cnt_spec in Cp as [Cp Sp]. eauto.
      * right. destruct (seg_py s) as [|p l] eqn:Ep; [congruence|].
        assert (Ip : In p (filter (cnt W H lab 1 (sg1 s) (sg2 s)) py)) by (rewrite <- F; now left).
        apply filter_In in Ip as [Ip Cp]. apply cnt_spec in Cp as [Cp Sp]. eauto.
    + intros [(p & Ip & Cp)|(p & Ip & Cp)]; apply cnt_spec in Cp;
      [destruct (I3 0 p a b) as (s & Hs & Ks) | destruct (I3 1 p a b) as (s & Hs & Ks)]; auto;
      exists s; split; auto; now apply Hk.
  - intros i j s t Hi Hj K.
    assert (K' : skey s = skey t) by (apply (Hk s (sg1 t) (sg2 t)); tauto).
    pose proof (map_nth_error skey i segs Hi) as Mi.
    pose proof (map_nth_error skey j segs Hj) as Mj.
    rewrite <- K' in Mj. rewrite NoDup_nth_error in I1. apply I1; [|congruence].
    apply nth_error_Some. congruence.
  - intros s Hs. pose proof (I2 s Hs) as Sok. destruct (I2 s Hs) as (A & B & C & D & F & G & J & _).
    split; auto. split; auto. split; auto.
    intros kind p q Hkind Hpq. rewrite (seg_pairs_spec W H n lab s px py Sok kind Hkind) in Hpq.
    apply in_map_iff in Hpq as (u & Eu & Iu).
    assert (Cu : sides lab kind u (sg1 s) (sg2 s)).
    { destruct Hkind as [-> | ->]; cbn [Z.eqb] in Iu; rewrite ?D, ?F in Iu;
      apply filter_In in Iu as [_ Cu]; now apply cnt_spec in Cu. }
    unfold sides in Cu. destruct (lab u =? sg1 s + 1) eqn:El; injection Eu as <- <-.
    + split; auto. lia.
    + split; auto. lia.
Qed.
Print Assumptions C09_network.

(** Example: three columns of grains in a 5 x 3 map. *)
Definition ex_lab (p : pix) : Z := if fst p <? 2 then 1 else if fst p <? 4 then 2 else 3.
Example C09_hypotheses_met :
  match build_neighbour_network 5 3 3 ex_lab
          [(1, 0); (1, 1); (1, 2); (3, 0); (3, 1); (3, 2)] [] with
  | Ok [s; t] => (sg1 s, sg2 s, seg_px s) = (0, 1, [(1, 1)]) /\
                 (sg1 t, sg2 t, seg_px t) = (1, 2, [(3, 1)])
  | _ => False
  end /\ (forall p, inside 5 3 p -> ex_lab p <= 3).
Proof.
  split; [vm_compute; auto|]. intros p _. unfold ex_lab.
  destruct (fst p <? 2), (fst p <? 4); lia.
Qed.

(** C09: on labels made by find_grains from the same boundaries, two grains are
    joined exactly if somewhere off the rim a pixel of one is left of or above
    a pixel of the other. *)
Theorem C09_edge_iff_grains_adjacent :
  forall W H bx by_ phase np ms lab gl ph px py,
  2 <= W -> 2 <= H -> find_grains W H bx by_ phase np ms = Ok (lab, gl, ph) ->
  (forall p, In p px <-> inside W H p /\ bx p = true) ->
  (forall p, In p py <-> inside W H p /\ by_ p = true) ->
  exists segs,
    build_neighbour_network W H (Z.of_nat (List.length gl)) lab px py = Ok segs /\
    forall a b, a <> b -> 0 <= a -> 0 <= b ->
      ((exists s, In s segs /\ ((sg1 s = a /\ sg2 s = b) \/ (sg1 s = b /\ sg2 s = a))) <->
       exists p kind, (kind = 0 \/ kind = 1) /\ interior W H p /\ sides lab kind p a b).
Proof.
  intros W H bx by_ phase np ms lab gl ph px py HW HH E Px Py.
  destruct (C09_network W H (Z.of_nat (List.length gl)) lab px py) as (segs & Es & A & _).
  - intros p [Hp|Hp]; [now apply Px in Hp | now apply Py in Hp].
  - intros p Hp. destruct (fg_list _ _ _ _ _ _ _ _ _ _ HW HH E) as (_ & _ & L).
    destruct (Z_lt_le_dec 0 (lab p)) as [Q|Q]; [|lia].
    destruct (L p Hp Q) as (pts & N & _).
    assert (Z.to_nat (lab p - 1) < List.length gl)%nat by (apply nth_error_Some; congruence). lia.
  - exists segs. split; auto. intros a b Hab Ha Hb. rewrite (A a b Hab Ha Hb).
    assert (In0 : forall p, interior W H p -> inside W H p) by (intros p; unfold interior, inside; lia).
    split.
    + intros [(p & _ & I & S)|(p & _ & I & S)]; [exists p, 0 | exists p, 1]; auto.
    + intros (p & kind & Hk & I & S).
      assert (B : (if kind =? 0 then bx p else by_ p) = true).
      { apply (lab_boundary _ _ _ _ _ _ _ _ _ _ HW HH E kind p Hk); auto;
        unfold sides in S; try lia.
        destruct Hk as [-> | ->]; unfold interior, inside, next_pix in *; cbn [Z.eqb fst snd]; lia. }
      destruct Hk as [-> | ->]; cbn [Z.eqb] in B; [left|right]; exists p; split; auto;
      [apply Px | apply Py]; auto.
Qed.
Print Assumptions C09_edge_iff_grains_adjacent.

(** C09 fails as a statement about touching grains: contacts on the rim do not
    count, so on a map two pixels wide or high no grains are neighbours. *)
Theorem C09_rim_contacts_refuted :
  (forall W H n lab px py, W <= 2 \/ H <= 2 ->
     (forall p, In p px \/ In p py -> inside W H p) ->
     (forall p, inside W H p -> lab p <= n) ->
     build_neighbour_network W H n lab px py = Ok []) /\
  (let lab := fun p : pix => fst p + 1 in
   inside 2 3 (0, 1) /\ inside 2 3 (1, 1) /\ adjacent (0, 1) (1, 1) /\
   lab (0, 1) = 1 /\ lab (1, 1) = 2 /\
   build_neighbour_network 2 3 2 lab [(0, 0); (0, 1); (0, 2)] [] = Ok []).
Proof.
  split.
  - intros W H n lab px py Hs Hin Hlab.
    destruct (C09_network W H n lab px py Hin Hlab) as (segs & E & A & _ & S).
    rewrite E. destruct segs as [|s segs]; auto. exfalso.
    destruct (S s (or_introl eq_refl)) as (N & R1 & R2 & _).
    destruct (proj1 (A (sg1 s) (sg2 s) N ltac:(lia) ltac:(lia))) as [(p & _ & I & _)|(p & _ & I & _)];
      [exists s; split; [now left | auto] | |]; unfold interior in I; lia.
  - cbn. unfold inside, adjacent; cbn. split; [lia|]. split; [lia|]. split; [lia|].
    split; [lia|]. split; [lia|]. vm_compute. reflexivity.
Qed.
Print Assumptions C09_rim_contacts_refuted.

(** C10: after any sequence of calls on a fresh segment, the points are those
    added, in order, and the pairs are oriented from grain1 to grain2. *)
Definition the_calls (kind : Z) (calls : list (pix * Z * Z)) : list (pix * Z) :=
  flat_map (fun c : pix * Z * Z =>
    let '(p, k, o) := c in if k =? kind then [(p, o)] else []) calls.
Definition add_calls (s : seg) (calls : list (pix * Z * Z)) : res seg :=
  for_each (fun s (c : pix * Z * Z) => let '(p, k, o) := c in add_boundary_point s p k o) calls s.

Lemma add_calls_spec a b calls : forall s cx cy,
  (forall c, In c calls -> (snd (fst c) = 0 \/ snd (fst c) = 1)) ->
  s = Seg a b (map fst cx) (map fst cy)
        (map (fun c => snd c =? a) cx) (map (fun c => snd c =? a) cy) ->
  exists s', add_calls s calls = Ok s' /\
    s' = Seg a b (map fst (cx ++ the_calls 0 calls)) (map fst (cy ++ the_calls 1 calls))
          (map (fun c => snd c =? a) (cx ++ the_calls 0 calls))
          (map (fun c => snd c =? a) (cy ++ the_calls 1 calls)).
Proof.
  induction calls as [|[[p k] o] calls IH]; intros s cx cy Hk ->.
  - eexists; split; [reflexivity|]. cbn [the_calls flat_map]. now rewrite !app_nil_r.
  - assert (K : k = 0 \/ k = 1) by (apply (Hk (p, k, o)); now left).
    assert (Hk' : forall c, In c calls -> (snd (fst c) = 0 \/ snd (fst c) = 1))
      by (intros c Hc; apply Hk; now right).
    unfold add_calls in *. cbn [for_each].
    rewrite add_point_spec by auto. cbn [bind sg1 sg2 seg_px seg_py seg_ox seg_oy].
    destruct K as [-> | ->]; cbn [Z.eqb Pos.eqb].
    + destruct (IH (Seg a b (map fst (cx ++ [(p, o)])) (map fst cy)
        (map (fun c => snd c =? a) (cx ++ [(p, o)])) (map (fun c => snd c =? a) cy))
        (cx ++ [(p, o)]) cy Hk' eq_refl) as (s' & E & ->).
      change (the_calls 0 ((p, 0, o) :: calls)) with ([(p, o)] ++ the_calls 0 calls).
      change (the_calls 1 ((p, 0, o) :: calls)) with (the_calls 1 calls).
      rewrite app_assoc. eexists. split; [|reflexivity]. rewrite <- E.
      f_equal. rewrite !map_app. reflexivity.
    + destruct (IH (Seg a b (map fst cx) (map fst (cy ++ [(p, o)]))
        (map (fun c => snd c =? a) cx) (map (fun c => snd c =? a) (cy ++ [(p, o)])))
        cx (cy ++ [(p, o)]) Hk' eq_refl) as (s' & E & ->).
      change (the_calls 1 ((p, 1, o) :: calls)) with ([(p, o)] ++ the_calls 1 calls).
      change (the_calls 0 ((p, 1, o) :: calls)) with (the_calls 0 calls).
      rewrite app_assoc. eexists. split; [|reflexivity]. rewrite <- E.
      f_equal. rewrite !map_app. reflexivity.
Qed.

Theorem C10_segment_history :
  forall a b calls, a <> b ->
  (forall c, In c calls -> (snd (fst c) = 0 \/ snd (fst c) = 1) /\ (snd c = a \/ snd c = b)) ->
  exists s, add_calls (new_seg a b) calls = Ok s /\ sg1 s = a /\ sg2 s = b /\
    seg_px s = map fst (the_calls 0 calls) /\ seg_py s = map fst (the_calls 1 calls) /\
    seg_len s = List.length calls /\
    forall kind, kind = 0 \/ kind = 1 ->
    boundary_point_pairs s kind =
      map (fun c => if snd c =? a then (fst c, next_pix kind (fst c))
                    else (next_pix kind (fst c), fst c)) (the_calls kind calls).
Proof.
  intros a b calls Hab Hc.
  destruct (add_calls_spec a b calls (new_seg a b) [] []) as (s & E & ->);
    [intros c Hi; now apply Hc | reflexivity |].
  eexists. split; [exact E|]. cbn [app sg1 sg2 seg_px seg_py]. do 4 (split; [reflexivity|]).
  split.
  - unfold seg_len; cbn [seg_px seg_py]. rewrite !map_length. clear -Hc.
    induction calls as [|[[p k] o] calls IH]; auto.
    cbn [the_calls flat_map]. unfold the_calls in IH. rewrite !app_length.
    cbn [List.length]. rewrite <- IH by (intros c Hi; apply Hc; now right).
    destruct (Hc (p, k, o) (or_introl eq_refl)) as [[K|K] _]; cbn in K; subst k; cbn; lia.
  - intros kind Hk. unfold boundary_point_pairs. cbn [seg_px seg_py seg_ox seg_oy].
    assert (Q : forall (l : list (pix * Z)) (d : pix) k,
      (forall p, next_pix k p = (fst p + fst d, snd p + snd d)) ->
      map (fun po : pix * bool => let (point, owner) := po in
         let other := (fst point + fst d, snd point + snd d) in
         if owner then (point, other) else (other, point))
        (combine (map fst l) (map (fun c => snd c =? a) l)) =
      map (fun c => if snd c =? a then (fst c, next_pix k (fst c)) else (next_pix k (fst c), fst c)) l).
    { intros l d k Hd. induction l as [|c l IH]; auto. cbn [map combine].
      f_equal; [now rewrite Hd | exact IH]. }
    destruct Hk as [-> | ->]; cbn [Z.eqb];
    [apply (Q _ (1, 0) 0) | apply (Q _ (0, 1) 1)]; intros [u v]; unfold next_pix; cbn [Z.eqb fst snd]; f_equal; lia.
Qed.
Print Assumptions C10_segment_history.

Example C10_hypotheses_met :
  match add_calls (new_seg 4 7) [((2, 3), 0, 7); ((5, 5), 1, 4); ((2, 4), 0, 4)] with
  | Ok s => boundary_point_pairs s 0 = [((3, 3), (2, 3)); ((2, 4), (3, 4))] /\
            boundary_point_pairs s 1 = [((5, 5), (5, 6))]
  | Err _ => False
  end.
Proof. vm_compute. auto. Qed.

(** C10: any other kind is refused. *)
Theorem C10_bad_kind_refused :
  forall s p kind o, kind <> 0 -> kind <> 1 -> add_boundary_point s p kind o = Err ValueError.
Proof.
  intros s p kind o H0 H1. unfold add_boundary_point.
  destruct (Z.eqb_spec kind 0); [lia|]. destruct (Z.eqb_spec kind 1); [lia|]. reflexivity.
Qed.
Print Assumptions C10_bad_kind_refused.

(** C10: in the network, a boundary point off the rim with a grain on either
    side is in exactly one segment, exactly once, and segments contain nothing
    else. *)
Theorem C10_points_once :
  forall W H n lab px py,
  NoDup px -> NoDup py -> (forall p, In p px \/ In p py -> inside W H p) ->
  (forall p, inside W H p -> lab p <= n) ->
  exists segs, build_neighbour_network W H n lab px py = Ok segs /\
  (forall s, In s segs -> NoDup (seg_px s) /\ NoDup (seg_py s) /\
     (forall p, In p (seg_px s) <->
        In p px /\ interior W H p /\ sides lab 0 p (sg1 s) (sg2 s)) /\
     (forall p, In p (seg_py s) <->
        In p py /\ interior W H p /\ sides lab 1 p (sg1 s) (sg2 s))) /\
  (forall p, In p px -> interior W H p -> 0 < lab p -> 0 < lab (next_pix 0 p) ->
     lab p <> lab (next_pix 0 p) -> exists! k, exists s, nth_error segs k = Some s /\ In p (seg_px s)) /\
  (forall p, In p py -> interior W H p -> 0 < lab p -> 0 < lab (next_pix 1 p) ->
     lab p <> lab (next_pix 1 p) -> exists! k, exists s, nth_error segs k = Some s /\ In p (seg_py s)).
Proof.
  intros W H n lab px py Nx Ny Hin Hlab.
  destruct (network_inv W H n lab Hlab px py Hin) as (segs & E & I1 & I2 & I3).
  exists segs. split; auto.
  assert (P : forall s, In s segs ->
     (forall p, In p (seg_px s) <-> In p px /\ interior W H p /\ sides lab 0 p (sg1 s) (sg2 s)) /\
     (forall p, In p (seg_py s) <-> In p py /\ interior W H p /\ sides lab 1 p (sg1 s) (sg2 s))).
  { intros s Hs. destruct (I2 s Hs) as (_ & _ & _ & D & F & _).
    split; intros p; [rewrite D | rewrite F]; rewrite filter_In, cnt_spec; tauto. }
  assert (U : forall kind p k1 k2 s t, nth_error segs k1 = Some s -> nth_error segs k2 = Some t ->
    sides lab kind p (sg1 s) (sg2 s) -> sides lab kind p (sg1 t) (sg2 t) -> k1 = k2).
  { intros kind p k1 k2 s t E1 E2 S1 S2.
    assert (K : skey s = skey t).
    { unfold skey, key, sides in *. rewrite pair_equal_spec. lia. }
    pose proof (map_nth_error skey k1 segs E1) as M1.
    pose proof (map_nth_error skey k2 segs E2) as M2.
    rewrite <- K in M2. rewrite NoDup_nth_error in I1. apply I1; [|congruence].
    apply nth_error_Some. congruence. }
  split; [|split].
  - intros s Hs. destruct (I2 s Hs) as (_ & _ & _ & D & F & _).
    split; [rewrite D; now apply NoDup_filter|]. split; [rewrite F; now apply NoDup_filter|]. now apply P.
  - intros p Ip Hi L1 L2 Ne.
    destruct (I3 0 p (lab p - 1) (lab (next_pix 0 p) - 1)) as (s & Hs & Ks); auto; try lia.
    { apply cnt_spec. split; auto. unfold sides. lia. }
    apply In_nth_error in Hs as Hk. destruct Hk as (k & Hk). exists k. split.
    + exists s. split; auto. apply (P s Hs). split; auto. split; auto.
      unfold skey, key in Ks. rewrite pair_equal_spec in Ks. unfold sides. lia.
    + intros k' (s' & Hk' & Ip'). apply (P s') in Ip' as (_ & _ & S'); [|eapply nth_error_In; eauto].
      eapply (U 0 p); eauto. unfold skey, key in Ks. rewrite pair_equal_spec in Ks. unfold sides. lia.
  - intros p Ip Hi L1 L2 Ne.
    destruct (I3 1 p (lab p - 1) (lab (next_pix 1 p) - 1)) as (s & Hs & Ks); auto; try lia.
    { apply cnt_spec. split; auto. unfold sides. lia. }
    apply In_nth_error in Hs as Hk. destruct Hk as (k & Hk). exists k. split.
    + exists s. split; auto. apply (P s Hs). split; auto. split; auto.
      unfold skey, key in Ks. rewrite pair_equal_spec in Ks. unfold sides. lia.
    + intros k' (s' & Hk' & Ip'). apply (P s') in Ip' as (_ & _ & S'); [|eapply nth_error_In; eauto].
      eapply (U 1 p); eauto. unfold skey, key in Ks. rewrite pair_equal_spec in Ks. unfold sides. lia.
Qed.
Print Assumptions C10_points_once.

(** C10: a boundary set made from segments has exactly their points; there
    must be at least one segment. *)
Theorem C10_from_segments :
  from_boundary_segments [] = Err IndexError /\
  forall segs, segs <> [] -> exists b, from_boundary_segments segs = Ok b /\
    NoDup (bs_x b) /\ NoDup (bs_y b) /\
    (forall p, In p (bs_x b) <-> exists s, In s segs /\ In p (seg_px s)) /\
    (forall p, In p (bs_y b) <-> exists s, In s segs /\ In p (seg_py s)).
Proof.
  split; [reflexivity|]. intros segs Hne. destruct segs as [|s l] eqn:E; [congruence|].
  rewrite <- E. exists (boundary_set (flat_map seg_px segs) (flat_map seg_py segs)).
  split; [subst segs; reflexivity|]. cbn [boundary_set bs_x bs_y].
  split; [apply py_set_NoDup|]. split; [apply py_set_NoDup|].
  split; intros p; rewrite py_set_In, in_flat_map; tauto.
Qed.
Print Assumptions C10_from_segments.

Example C10_from_segments_example :
  match from_boundary_segments [Seg 0 1 [(1, 1); (1, 2)] [] [true; true] [];
                                Seg 1 2 [(1, 2)] [(4, 4)] [true] [false]] with
  | Ok b => bs_x b = [(1, 1); (1, 2)] /\ bs_y b = [(4, 4)]
  | Err _ => False
  end.
Proof. vm_compute. auto. Qed.

(** C74: the lines of a boundary set are, for each point once, the edge shared
    by the pixel and its next neighbour in x or y. *)
Theorem C74_lines_are_pixel_edges :
  forall px py, NoDup px -> NoDup py ->
  exists ls, bs_lines px py = Ok ls /\ NoDup ls /\
    (List.length ls = List.length px + List.length py)%nat /\
    (forall p, In p px -> exists l, In l ls /\ common_edge l p (next_pix 0 p)) /\
    (forall p, In p py -> exists l, In l ls /\ common_edge l p (next_pix 1 p)) /\
    (forall l, In l ls -> (exists p, In p px /\ common_edge l p (next_pix 0 p)) \/
                          (exists p, In p py /\ common_edge l p (next_pix 1 p))).
Proof.
  intros px py Nx Ny. destruct (bs_lines_spec px py Nx Ny) as (ls & E & N & L & I).
  exists ls. split; auto. split; auto. split; auto. split; [|split].
  - intros p Hp. exists (line_x p). split; [apply I; eauto | apply line_x_edge].
  - intros p Hp. exists (line_y p). split; [apply I; eauto | apply line_y_edge].
  - intros l Hl. apply I in Hl as [(p & Hp & ->)|(p & Hp & ->)];
    [left | right]; exists p; split; auto using line_x_edge, line_y_edge.
Qed.
Print Assumptions C74_lines_are_pixel_edges.

(** C74: what boundary_points_to_lines returns for each way of calling it. *)
Theorem C74_return_shapes :
  boundary_points_to_lines None None = Err ValueError /\
  (forall px, exists l, boundary_points_to_lines (Some px) None = Ok (OneList l) /\
     Forall2 (fun p l => common_edge l p (next_pix 0 p)) px l) /\
  (forall py, exists l, boundary_points_to_lines None (Some py) = Ok (OneList l) /\
     Forall2 (fun p l => common_edge l p (next_pix 1 p)) py l) /\
  (forall px py, exists lx ly,
     boundary_points_to_lines (Some px) (Some py) = Ok (ThreeLists lx ly (lx ++ ly)) /\
     Forall2 (fun p l => common_edge l p (next_pix 0 p)) px lx /\
     Forall2 (fun p l => common_edge l p (next_pix 1 p)) py ly).
Proof.
  assert (Fx : forall l, Forall2 (fun p l => common_edge l p (next_pix 0 p)) l (map line_x l))
    by (induction l; constructor; auto using line_x_edge).
  assert (Fy : forall l, Forall2 (fun p l => common_edge l p (next_pix 1 p)) l (map line_y l))
    by (induction l; constructor; auto using line_y_edge).
  split; [reflexivity|]. split; [|split].
  - intros px. eexists; split; [reflexivity | apply Fx].
  - intros py. eexists; split; [reflexivity | apply Fy].
  - intros px py. do 2 eexists. split; [reflexivity|]. split; [apply Fx | apply Fy].
Qed.
Print Assumptions C74_return_shapes.

Example C74_hypotheses_met : NoDup [(0, 0); (2, 1)] /\
  bs_lines [(0, 0); (2, 1)] [(1, 1)] =
  Ok [((1, -1), (1, 1)); ((5, 1), (5, 3)); ((1, 3), (3, 3))].
Proof.
  split; [|reflexivity]. constructor; [intros [E|[]]; discriminate|].
  constructor; [intros []|constructor].
Qed.
