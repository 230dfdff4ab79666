(** DIC maps and frames: C46 to C51, C79 to C81. *)
From Coq Require Import String Reals Lra Lia.
From Coq Require Import List ZArith Bool.
Import ListNotations.
From Verif Require Import Py Grid Grid_Lemmas Crystal_Model CrystalMat_Proofs Base_Model Base_Spec Base_Proofs Dic_Model Dic_Spec Dic_Proofs.
Open Scope Z_scope.

(** * C46: crops *)

(** After any calls of [set_crop], each distance is the last one given for its
    side, and the shape is the size of the data less the distances. *)
Theorem C46_shape : forall calls m m', run_crops m calls = Ok m' ->
  d_xdim m' = d_xdim m /\ d_ydim m' = d_ydim m /\
  c_left (d_crops m') = last_given (c_left (d_crops m)) (map k_left calls) /\
  c_right (d_crops m') = last_given (c_right (d_crops m)) (map k_right calls) /\
  c_top (d_crops m') = last_given (c_top (d_crops m)) (map k_top calls) /\
  c_bottom (d_crops m') = last_given (c_bottom (d_crops m)) (map k_bottom calls) /\
  (consistent m \/ calls <> [] -> consistent m').
Proof.
  unfold run_crops. induction calls as [|c calls IH]; intros m m' E; cbn [for_each map] in *.
  - injection E as <-. do 6 (split; [reflexivity|]). intros [H|H]; [auto|congruence].
  - destruct (set_crop m (k_left c) (k_right c) (k_top c) (k_bottom c) (k_update c)) as [m1|] eqn:E1; [|discriminate E].
    cbn [bind] in E. apply set_crop_inv in E1 as (A1 & A2 & A3 & A4 & A5 & A6 & A7 & _).
    apply IH in E as (B1 & B2 & B3 & B4 & B5 & B6 & B7). unfold last_given in *. cbn [fold_left].
    rewrite <- A3, <- A4, <- A5, <- A6. rewrite B1, B2, A1, A2. do 6 (split; [auto|]). auto.
Qed.
Print Assumptions C46_shape.

(** Cropped data: for crops that fit, data of [b] values per pixel and axis has the
    shape of the map times [b], and holds the values at the shifted position. *)
Theorem C46_crop_partial : forall (A : Type) m (data : image A) b, fitting m -> consistent m -> 0 <= b ->
  im_w data = d_xdim m * b -> im_h data = d_ydim m * b ->
  im_h (crop m data b) = fst (d_shape m) * b /\ im_w (crop m data b) = snd (d_shape m) * b /\
  forall x y, im_at (crop m data b) (x, y) =
              im_at data (x + c_left (d_crops m) * b, y + c_top (d_crops m) * b).
Proof.
  intros A m data b F C Hb EW EH. rewrite (crop_ok A m data b F Hb EW EH). rewrite C.
  cbn [im_w im_h im_at fst snd]. auto.
Qed.
Print Assumptions C46_crop_partial.

(** A pattern is accepted exactly when it has the size of the data times the
    binning. *)
Theorem C46_pattern : forall (A : Type) m (img : image A) b r,
  load_pattern m img b = Ok r <-> r = img /\ im_w img = d_xdim m * b /\ im_h img = d_ydim m * b.
Proof.
  intros A m img b r. unfold load_pattern.
  destruct (Z.eqb_spec (im_w img) (d_xdim m * b)), (Z.eqb_spec (im_h img) (d_ydim m * b)); cbn [andb]; split;
    try (intros X; discriminate X); try (intros (_ & X & Y); lia).
  - intros X. injection X as <-. auto.
  - intros (-> & _). auto.
Qed.
Print Assumptions C46_pattern.

(** Crops that do not fit are accepted and break the agreement: a negative distance
    promises a wider map but returns one column, from the far side; distances
    beyond the size give a negative shape. *)
Theorem C46_unchecked_refuted : exists m data (m1 m2 : dic_map),
  consistent m /\ fitting m /\ im_w data = d_xdim m /\ im_h data = d_ydim m /\
  set_crop m (Some (-1)) None None None false = Ok m1 /\ snd (d_shape m1) = 5 /\
  im_w (crop m1 data 1) = 1 /\ im_at (crop m1 data 1) (0, 0) = 3 /\
  set_crop m (Some 3) (Some 3) None None false = Ok m2 /\ snd (d_shape m2) = -2.
Proof.
  exists (Dic 4 2 (Crops 0 0 0 0) (2, 4) []), (Image 4 2 (fun p => fst p)). do 2 eexists.
  split; [reflexivity|]. split; [unfold fitting; cbn; lia|].
  do 3 (split; [reflexivity|]). repeat split.
Qed.
Print Assumptions C46_unchecked_refuted.

Example C46_example : match run_crops (Dic 10 8 (Crops 0 0 0 0) (8, 10) [])
    [Call (Some 1) (Some 2) None None false; Call None None (Some 3) None true; Call (Some 2) None None (Some 1) false] with
  | Ok m => d_shape m = (4, 6) /\ fitting m
  | Err _ => False end.
Proof. vm_compute. repeat split; discriminate. Qed.

(** * C47: homologous points follow the crop *)

(** After any calls of [set_crop] with update_homog_points, every homologous point
    is on the same material point. *)
Theorem C47_material_points : forall calls m xys, on_material m xys ->
  Forall (fun c => k_update c = true) calls ->
  exists m', run_crops m calls = Ok m' /\ on_material m' xys.
Proof.
  unfold run_crops. induction calls as [|c calls IH]; intros m xys HM HU; cbn [for_each].
  - eauto.
  - inversion HU as [|? ? U1 U2]; subst. rewrite U1.
    destruct (set_crop_homog m (k_left c) (k_right c) (k_top c) (k_bottom c) xys HM) as (m1 & -> & HM1).
    cbn [bind]. apply IH; auto.
Qed.
Print Assumptions C47_material_points.

(** Without it the stored points are left alone. *)
Theorem C47_not_updated : forall calls m m', Forall (fun c => k_update c = false) calls ->
  run_crops m calls = Ok m' -> d_homog m' = d_homog m.
Proof.
  unfold run_crops. induction calls as [|c calls IH]; intros m m' HU E; cbn [for_each] in E.
  - congruence.
  - inversion HU as [|? ? U1 U2]; subst. rewrite U1 in E.
    destruct (set_crop m (k_left c) (k_right c) (k_top c) (k_bottom c) false) as [m1|] eqn:E1; [|discriminate E].
    cbn [bind] in E. apply set_crop_inv in E1 as (_ & _ & _ & _ & _ & _ & _ & H).
    rewrite (IH _ _ U2 E). auto.
Qed.
Print Assumptions C47_not_updated.

Example C47_example : on_material (Dic 10 8 (Crops 2 0 1 0) (7, 8) [PTuple [3; 4]%R; PSeq [0; 1]%R]) [(5, 5)%R; (2, 2)%R].
Proof.
  apply Forall2_cons; [left|apply Forall2_cons; [right|apply Forall2_nil]]; cbn [fst snd d_crops c_left c_top];
    repeat f_equal; lra.
Qed.

(** * C48: strain *)

(** Linear displacements: the deformation gradient is exactly the gradient plus the
    identity, at every pixel. *)
Theorem C48_linear : forall W H b g k u, 2 <= W -> 2 <= H -> b <> 0%R -> linear_field b g k u ->
  exists f, deformation_gradient W H b u = Ok f /\
    forall i j p, axis i -> axis j -> inside W H p -> f i j p = (g i j + delta i j)%R.
Proof.
  intros W H b g k u HW HH Hb L. destruct (dgrad_ok W H b u HW HH) as (f & E & F).
  exists f. split; [auto|]. intros i j p _ Hj [I1 I2]. destruct (F i p) as [F0 F1]. revert j Hj. apply axis_cases.
  - rewrite F0. f_equal. apply grad1_linear with (a := (k i + g i 1%Z * (b * IZR (snd p)))%R); auto.
    intros x. rewrite (L i (x, snd p)). cbn [fst snd]. ring.
  - rewrite F1. f_equal. apply grad1_linear with (a := (k i + g i 0%Z * (b * IZR (fst p)))%R); auto.
    intros y. rewrite (L i (fst p, y)). cbn [fst snd]. ring.
Qed.
Print Assumptions C48_linear.

(** A constant displacement added to any field changes nothing. *)
Theorem C48_translation : forall W H b u k f f',
  deformation_gradient W H b u = Ok f -> deformation_gradient W H b (fun c p => u c p + k c)%R = Ok f' ->
  forall i j p, axis i -> axis j -> f' i j p = f i j p.
Proof.
  intros W H b u k f f' E E' i j p _ Hj.
  assert (HW : 2 <= W /\ 2 <= H).
  { unfold deformation_gradient in E. destruct (Z.ltb_spec W 2), (Z.ltb_spec H 2); cbn [orb] in E; try discriminate E. lia. }
  destruct HW as [HW HH].
  destruct (dgrad_ok W H b u HW HH) as (f0 & E0 & F0).
  destruct (dgrad_ok W H b (fun c p => u c p + k c)%R HW HH) as (f1 & E1 & F1).
  assert (f = f0) by congruence. assert (f' = f1) by congruence. subst.
  revert j Hj. apply axis_cases.
  - rewrite (proj1 (F0 i p)), (proj1 (F1 i p)). now rewrite grad1_shift.
  - rewrite (proj2 (F0 i p)), (proj2 (F1 i p)). now rewrite grad1_shift.
Qed.
Print Assumptions C48_translation.

(** Displacements at other pixels than the row and column neighbours do not matter. *)
Theorem C48_local : forall W H b u u' f f' x y, inside W H (x, y) ->
  deformation_gradient W H b u = Ok f -> deformation_gradient W H b u' = Ok f' ->
  (forall c q, inside W H q -> taxi (x, y) q <= 1 -> u c q = u' c q) ->
  forall i j, axis i -> axis j -> f i j (x, y) = f' i j (x, y).
Proof.
  intros W H b u u' f f' x y [I1 I2] E E' S i j _ Hj. cbn [fst snd] in I1, I2.
  assert (HW : 2 <= W /\ 2 <= H).
  { unfold deformation_gradient in E. destruct (Z.ltb_spec W 2), (Z.ltb_spec H 2); cbn [orb] in E; try discriminate E. lia. }
  destruct HW as [HW HH].
  destruct (dgrad_ok W H b u HW HH) as (f0 & E0 & F0). destruct (dgrad_ok W H b u' HW HH) as (f1 & E1 & F1).
  assert (f = f0) by congruence. assert (f' = f1) by congruence. subst.
  revert j Hj. apply axis_cases.
  - rewrite (proj1 (F0 i (x, y))), (proj1 (F1 i (x, y))). cbn [fst snd]. f_equal. unfold grad1.
    destruct (Z.eqb_spec x 0); [|destruct (Z.eqb_spec x (W - 1))];
      rewrite !S by (unfold inside, taxi; cbn [fst snd]; lia); reflexivity.
  - rewrite (proj2 (F0 i (x, y))), (proj2 (F1 i (x, y))). cbn [fst snd]. f_equal. unfold grad1.
    destruct (Z.eqb_spec y 0); [|destruct (Z.eqb_spec y (H - 1))];
      rewrite !S by (unfold inside, taxi; cbn [fst snd]; lia); reflexivity.
Qed.
Print Assumptions C48_local.

(** A rigid rotation has no strain. *)
Theorem C48_rigid_rotation : forall W H b t k u, 2 <= W -> 2 <= H -> b <> 0%R ->
  linear_field b (fun i j => rot t i j - delta i j)%R k u ->
  exists f, deformation_gradient W H b u = Ok f /\
    forall p, inside W H p ->
      (forall i j, axis i -> axis j -> green_strain f i j p = 0%R) /\ max_shear (green_strain f) p = 0%R.
Proof.
  intros W H b t k u HW HH Hb L. destruct (C48_linear W H b _ k u HW HH Hb L) as (f & E & F).
  exists f. split; [auto|]. intros p Hp.
  assert (T : (cos t * cos t + sin t * sin t = 1)%R) by (pose proof (sin2_cos2 t); unfold Rsqr in *; lra).
  assert (Ax : axis 0 /\ axis 1) by (split; [left|right]; auto). destruct Ax as [A0 A1].
  assert (G : forall i j, axis i -> axis j -> green_strain f i j p = 0%R).
  { intros i j Hi Hj. unfold green_strain. rewrite !F by auto.
    destruct Hi as [->| ->], Hj as [->| ->]; unfold rot, delta; cbn [Z.eqb Pos.eqb]; lra. }
  split; [auto|]. unfold max_shear. rewrite !G by auto.
  replace (((0 - 0) / 2) ^ 2 + 0 ^ 2)%R with 0%R by (field). apply sqrt_0.
Qed.
Print Assumptions C48_rigid_rotation.

(** Green strain is symmetric, for any deformation gradient. *)
Theorem C48_symmetric : forall f i j p, green_strain f i j p = green_strain f j i p.
Proof.
  intros f i j p. unfold green_strain. rewrite (Z.eqb_sym j i). destruct (Z.eqb_spec i j) as [->|]; [auto|]. ring.
Qed.
Print Assumptions C48_symmetric.

(** A rotation of the deformed body does not change the strain. *)
Theorem C48_frame_indifferent : forall f q p, orthogonal q ->
  forall i j, axis i -> axis j ->
  green_strain (fun i j p => q i 0%Z * f 0%Z j p + q i 1%Z * f 1%Z j p)%R i j p = green_strain f i j p.
Proof.
  intros f q p O i j Hi Hj. unfold green_strain.
  pose proof (O 0 0 (or_introl eq_refl) (or_introl eq_refl)) as O00.
  pose proof (O 1 1 (or_intror eq_refl) (or_intror eq_refl)) as O11.
  pose proof (O 0 1 (or_introl eq_refl) (or_intror eq_refl)) as O01.
  unfold delta in *. cbn [Z.eqb Pos.eqb] in *.
  assert (X : ((q 0%Z 0%Z * f 0%Z i p + q 0%Z 1%Z * f 1%Z i p) * (q 0%Z 0%Z * f 0%Z j p + q 0%Z 1%Z * f 1%Z j p) +
     (q 1%Z 0%Z * f 0%Z i p + q 1%Z 1%Z * f 1%Z i p) * (q 1%Z 0%Z * f 0%Z j p + q 1%Z 1%Z * f 1%Z j p) =
     f 0%Z i p * f 0%Z j p + f 1%Z i p * f 1%Z j p)%R).
  { transitivity ((q 0%Z 0%Z * q 0%Z 0%Z + q 1%Z 0%Z * q 1%Z 0%Z) * (f 0%Z i p * f 0%Z j p)
      + (q 0%Z 1%Z * q 0%Z 1%Z + q 1%Z 1%Z * q 1%Z 1%Z) * (f 1%Z i p * f 1%Z j p)
      + (q 0%Z 0%Z * q 0%Z 1%Z + q 1%Z 0%Z * q 1%Z 1%Z) * (f 0%Z i p * f 1%Z j p + f 1%Z i p * f 0%Z j p))%R; [ring|].
    rewrite O00, O11, O01. ring. }
  rewrite X. reflexivity.
Qed.
Print Assumptions C48_frame_indifferent.

(** The maximum shear is never negative and does not depend on the axes. *)
Theorem C48_max_shear : forall e p, (0 <= max_shear e p)%R /\
  forall t, (forall p, e 0 1 p = e 1 0 p) ->
    max_shear (fun i j p => rot t 0%Z i * (e 0%Z 0%Z p * rot t 0%Z j + e 0%Z 1%Z p * rot t 1%Z j)
                          + rot t 1%Z i * (e 1%Z 0%Z p * rot t 0%Z j + e 1%Z 1%Z p * rot t 1%Z j))%R p = max_shear e p.
Proof.
  intros e p. split; [apply sqrt_pos|]. intros t S. unfold max_shear. f_equal.
  assert (T : (cos t * cos t + sin t * sin t = 1)%R) by (pose proof (sin2_cos2 t); unfold Rsqr in *; lra).
  rewrite <- S. unfold rot. cbn [Z.eqb Pos.eqb].
  set (a := e 0 0 p). set (b := e 0 1 p). set (d := e 1 1 p). set (c := cos t) in *. set (s := sin t) in *.
  transitivity (((((a - d) / 2) ^ 2 + b ^ 2) * (c * c + s * s) * (c * c + s * s))%R); [field|].
  rewrite T. ring.
Qed.
Print Assumptions C48_max_shear.

(** One row or one column is rejected. *)
Theorem C48_too_small : forall W H b u, W < 2 \/ H < 2 -> deformation_gradient W H b u = Err ValueError.
Proof.
  intros W H b u S. unfold deformation_gradient. destruct (Z.ltb_spec W 2), (Z.ltb_spec H 2); try lia; reflexivity.
Qed.
Print Assumptions C48_too_small.

Example C48_example : linear_field 12 (fun i j => if (i =? 0) && (j =? 1) then 1/10 else 0)%R (fun _ => 3)%R
  (fun c p => if c =? 0 then 3 + 12/10 * IZR (snd p) else 3)%R /\
  orthogonal (rot 1).
Proof.
  split.
  - intros c p. destruct (c =? 0); cbn [andb Z.eqb Pos.eqb]; lra.
  - assert (T : (cos 1 * cos 1 + sin 1 * sin 1 = 1)%R) by (pose proof (sin2_cos2 1); unfold Rsqr in *; lra).
    intros i j [->| ->] [->| ->]; unfold rot, delta; cbn [Z.eqb Pos.eqb]; lra.
Qed.

(** * C49: masks *)

(** A mask hides exactly its pixels and leaves the other values. *)
Theorem C49_hides : forall (A : Type) (k : image bool) (data : image A), im_w k = im_w data -> im_h k = im_h data ->
  exists r, apply_mask (Some k) data = Ok r /\ im_w r = im_w data /\ im_h r = im_h data /\
    forall p, im_at r p = if im_at k p then None else Some (im_at data p).
Proof.
  intros A k data EW EH. unfold apply_mask, broadcast. rewrite EW, EH, !Z.eqb_refl. eexists. split; [reflexivity|].
  split; [auto|]. split; [auto|]. intros [x y]. reflexivity.
Qed.
Print Assumptions C49_hides.

(** A mask of another size: one column stands for all columns and one row for all rows, as in numpy;
    others are refused. *)
Theorem C49_other_size : forall (A : Type) (k : image bool) (data : image A),
  ((im_w k = im_w data \/ im_w k = 1) -> (im_h k = im_h data \/ im_h k = 1) ->
     exists r, apply_mask (Some k) data = Ok r /\ im_w r = im_w data /\ im_h r = im_h data /\
       forall x y, 0 <= x < im_w data -> 0 <= y < im_h data ->
         im_at r (x, y) = if im_at k (if im_w k =? 1 then 0 else x, if im_h k =? 1 then 0 else y) then None else Some (im_at data (x, y))) /\
  (im_w k <> im_w data -> im_w k <> 1 -> apply_mask (Some k) data = Err ValueError) /\
  (im_h k <> im_h data -> im_h k <> 1 -> apply_mask (Some k) data = Err ValueError).
Proof.
  intros A k data. assert (B : forall n w, n = w \/ n = 1 -> exists f, broadcast n w = Some f /\ forall i, 0 <= i < w -> f i = if n =? 1 then 0 else i).
  { intros n w O. unfold broadcast. destruct (Z.eqb_spec n w) as [->|N].
    - eexists. split; [reflexivity|]. intros i I. destruct (Z.eqb_spec w 1); lia.
    - destruct O as [O| ->]; [congruence|]. cbn [Z.eqb]. eexists. split; [reflexivity|]. auto. }
  assert (C : forall n w, n <> w -> n <> 1 -> broadcast n w = None).
  { intros n w N1 N2. unfold broadcast. apply Z.eqb_neq in N1, N2. now rewrite N1, N2. }
  unfold apply_mask. split; [|split].
  - intros OW OH. destruct (B _ _ OW) as (fx & -> & FX). destruct (B _ _ OH) as (fy & -> & FY). eexists. split; [reflexivity|]. cbn [im_w im_h im_at]. split; [reflexivity|]. split; [reflexivity|].
    intros x y X Y. cbn [fst snd]. now rewrite FX, FY by assumption.
  - intros N1 N2. now rewrite (C _ _ N1 N2).
  - intros N1 N2. rewrite (C _ _ N1 N2). now destruct (broadcast (im_w k) (im_w data)).
Qed.
Print Assumptions C49_other_size.
Example C49_other_size_met : exists r, apply_mask (Some (Image 1 2 (fun p => snd p =? 1))) (Image 3 2 (fun p => fst p)) = Ok r /\ im_at r (2, 0) = Some 2 /\ im_at r (2, 1) = None.
Proof. eexists. split; [reflexivity|]. split; reflexivity. Qed.

(** No mask: all values. *)
Theorem C49_no_mask : forall (A : Type) (data : image A), exists r, apply_mask None data = Ok r /\
  im_w r = im_w data /\ im_h r = im_h data /\ forall p, im_at r p = Some (im_at data p).
Proof. intros. eexists. split; [reflexivity|]. auto. Qed.
Print Assumptions C49_no_mask.

(** What is seen does not depend on the values under the mask. *)
Theorem C49_independent : forall (A : Type) (k : image bool) (data data' : image A) r r',
  im_w data = im_w data' -> im_h data = im_h data' -> im_w k = im_w data -> im_h k = im_h data ->
  (forall p, im_at k p = false -> im_at data p = im_at data' p) ->
  apply_mask (Some k) data = Ok r -> apply_mask (Some k) data' = Ok r' ->
  im_w r = im_w r' /\ im_h r = im_h r' /\ forall p, im_at r p = im_at r' p.
Proof.
  intros A k data data' r r' EW EH KW KH S E E'.
  destruct (C49_hides A k data KW KH) as (r0 & F & F1 & F2 & F3).
  destruct (C49_hides A k data') as (r1 & G & G1 & G2 & G3); [congruence|congruence|].
  assert (r = r0) by congruence. assert (r' = r1) by congruence. subst.
  split; [congruence|]. split; [congruence|]. intros p. rewrite F3, G3.
  destruct (im_at k p) eqn:K; [auto|]. now rewrite S.
Qed.
Print Assumptions C49_independent.

(** The stored mask: the given one grown by [n] steps along rows and columns. *)
Theorem C49_dilation : forall m k n, im_h k = fst (d_shape m) -> im_w k = snd (d_shape m) ->
  exists r, calc_mask m (Some k) n = Ok (Some r) /\ im_w r = im_w k /\ im_h r = im_h k /\
    forall p, inside (im_w k) (im_h k) p ->
      (im_at r p = true <-> exists q, inside (im_w k) (im_h k) q /\ taxi p q <= Z.of_nat n /\ im_at k q = true).
Proof.
  intros m k n EH EW. unfold calc_mask. rewrite <- EH, <- EW, !Z.eqb_refl. cbn [andb negb]. eexists. split; [reflexivity|].
  split; [auto|]. split; [auto|]. intros p Hp. cbn [im_at]. now apply dilate_iff.
Qed.
Print Assumptions C49_dilation.

(** A mask of another shape is rejected; None removes the mask. *)
Theorem C49_shape_checked : forall m k n,
  (im_h k <> fst (d_shape m) \/ im_w k <> snd (d_shape m) -> calc_mask m (Some k) n = Err ValueError) /\
  calc_mask m None n = Ok None.
Proof.
  intros m k n. split; [|reflexivity]. intros D. unfold calc_mask.
  destruct (Z.eqb_spec (im_h k) (fst (d_shape m))), (Z.eqb_spec (im_w k) (snd (d_shape m))); try lia; reflexivity.
Qed.
Print Assumptions C49_shape_checked.

(** Reading a map: with crops that fit and a mask of the cropped shape, pixel (x, y)
    shows the data at (x + left, y + top), unless the mask is set at (x, y). *)
Theorem C49_read_partial : forall (A : Type) m (k : image bool) (data : image A), fitting m -> consistent m ->
  im_w data = d_xdim m -> im_h data = d_ydim m -> im_h k = fst (d_shape m) -> im_w k = snd (d_shape m) ->
  exists r, read_map m (Some k) data = Ok r /\ im_h r = fst (d_shape m) /\ im_w r = snd (d_shape m) /\
    forall x y, im_at r (x, y) = if im_at k (x, y) then None
                else Some (im_at data (x + c_left (d_crops m), y + c_top (d_crops m))).
Proof.
  intros A m k data F C EW EH KH KW.
  destruct (C46_crop_partial A m data 1 F C) as (B1 & B2 & B3); [lia|lia|lia|].
  destruct (C49_hides A k (crop m data 1)) as (r & E & W1 & H1 & V); [lia|lia|].
  exists r. split; [exact E|]. split; [lia|]. split; [lia|]. intros x y. rewrite V, B3, !Z.mul_1_r. reflexivity.
Qed.
Print Assumptions C49_read_partial.

(** The mask is not moved when the crop changes: material that was hidden is shown
    and another pixel hidden; or, when the size changes, reading fails. *)
Theorem C49_recrop_refuted : exists m k (data : image Z) m1 m2 r r1,
  fitting m /\ consistent m /\ calc_mask m (Some k) 0 = Ok (Some k) /\
  read_map m (Some k) data = Ok r /\ im_at r (1, 0) = None /\
  set_crop m (Some 1) (Some 0) None None true = Ok m1 /\ read_map m1 (Some k) data = Ok r1 /\
  im_at r1 (0, 0) = Some 1 /\ im_at data (1, 0) = 1 /\ im_at r1 (1, 0) = None /\
  set_crop m (Some 1) None None None true = Ok m2 /\ read_map m2 (Some k) data = Err ValueError.
Proof.
  exists (Dic 4 1 (Crops 0 1 0 0) (1, 3) []), (Image 3 1 (fun p => fst p =? 1)), (Image 4 1 (fun p => fst p)).
  do 4 eexists. split; [unfold fitting; cbn; lia|]. split; [reflexivity|]. split; [reflexivity|].
  split; [reflexivity|]. split; [reflexivity|]. split; [reflexivity|]. split; [reflexivity|].
  split; [reflexivity|]. split; [reflexivity|]. split; [reflexivity|]. split; reflexivity.
Qed.
Print Assumptions C49_recrop_refuted.

(** * C50: frames *)

(** Linking makes the transform from the first to the second frame the estimate
    from the current homologous points with the last properties given. *)
Theorem C50_linked_partial : forall (T P : Type) est (inv : T -> T) (pts : frame -> P) r f1 f2 c props,
  f1 <> f2 -> rel_get r (f2, f1) = None -> transform_lookup (l_type props) = Some c ->
  get_frame_transform est inv pts (link_frames r f1 f2 props) f1 f2 = Ok (est c (pts f1) (pts f2) (l_args props)) /\
  (c <> Polynomial ->
   get_frame_transform est inv pts (link_frames r f1 f2 props) f2 f1
     = Ok (inv (est c (pts f1) (pts f2) (l_args props)))) /\
  (c = Polynomial ->
   get_frame_transform est inv pts (link_frames r f1 f2 props) f2 f1
     = Ok (est c (pts f2) (pts f1) (l_args props))).
Proof.
  intros T P est inv pts r f1 f2 c props N No L. unfold get_frame_transform, link_frames.
  rewrite rel_get_set_same, rel_get_set_other by (intros X; injection X; congruence).
  rewrite No, L. split; [reflexivity|].
  assert (Po : String.eqb (l_type props) "polynomial" = true <-> c = Polynomial).
  { unfold transform_lookup in L. destruct (String.eqb_spec (l_type props) "polynomial") as [E|E].
    - rewrite E in L. cbn in L. split; [congruence|auto].
    - split; [discriminate|]. intros ->.
      destruct (String.eqb (l_type props) "piecewise_affine"); [discriminate L|].
      destruct (String.eqb (l_type props) "projective"); [discriminate L|].
      destruct (String.eqb (l_type props) "affine"); discriminate L. }
  split; intros Hc; destruct (String.eqb (l_type props) "polynomial").
  - exfalso. apply Hc, Po; auto.
  - reflexivity.
  - reflexivity.
  - apply Po in Hc. discriminate Hc.
Qed.
Print Assumptions C50_linked_partial.

(** Other pairs of frames keep their transform, and so their failure. *)
Theorem C50_others_unchanged : forall (T P : Type) est (inv : T -> T) (pts : frame -> P) r f1 f2 props g1 g2,
  (g1, g2) <> (f1, f2) -> (g1, g2) <> (f2, f1) ->
  get_frame_transform est inv pts (link_frames r f1 f2 props) g1 g2 = get_frame_transform est inv pts r g1 g2.
Proof.
  intros T P est inv pts r f1 f2 props g1 g2 N1 N2. unfold get_frame_transform, link_frames.
  rewrite !rel_get_set_other; auto. congruence. 
Qed.
Print Assumptions C50_others_unchanged.

(** Frames never linked are rejected: in any history of links, a pair linked in
    neither sense. *)
Theorem C50_unlinked : forall (T P : Type) est (inv : T -> T) (pts : frame -> P) (ops : list (frame * frame * link)) g1 g2,
  (forall f1 f2 props, In (f1, f2, props) ops -> (f1, f2) <> (g1, g2) /\ (f1, f2) <> (g2, g1)) ->
  get_frame_transform est inv pts (fold_left (fun r o => link_frames r (fst (fst o)) (snd (fst o)) (snd o)) ops []) g1 g2
    = Err ValueError.
Proof.
  intros T P est inv pts ops g1 g2 Hn.
  assert (G : forall ops r, (forall f1 f2 props, In (f1, f2, props) ops -> (f1, f2) <> (g1, g2) /\ (f1, f2) <> (g2, g1)) ->
    get_frame_transform est inv pts r g1 g2 = Err ValueError ->
    get_frame_transform est inv pts (fold_left (fun r o => link_frames r (fst (fst o)) (snd (fst o)) (snd o)) ops r) g1 g2
      = Err ValueError).
  { clear. induction ops as [|[[f1 f2] props] ops IH]; intros r Hn H; cbn [fold_left fst snd]; auto.
    apply IH; [intros; apply Hn with props0; right; auto|].
    destruct (Hn f1 f2 props (or_introl eq_refl)) as [A B]. rewrite C50_others_unchanged; auto; congruence. }
  apply G; auto.
Qed.
Print Assumptions C50_unlinked.

(** Linking again in the other sense is accepted, and then neither sense works, for
    good: links are never removed.  A frame linked to itself never works. *)
Theorem C50_both_senses_refuted : forall (T P : Type) est (inv : T -> T) (pts : frame -> P) r f1 f2 p1 p2
  (more : list (frame * frame * link)),
  let r' := fold_left (fun r o => link_frames r (fst (fst o)) (snd (fst o)) (snd o)) more
              (link_frames (link_frames r f1 f2 p1) f2 f1 p2) in
  get_frame_transform est inv pts r' f1 f2 = Err ValueError /\
  get_frame_transform est inv pts r' f2 f1 = Err ValueError.
Proof.
  intros T P est inv pts r f1 f2 p1 p2 more r'.
  assert (K : forall more r k, rel_get r k <> None ->
     rel_get (fold_left (fun r o => link_frames r (fst (fst o)) (snd (fst o)) (snd o)) more r) k <> None).
  { clear. induction more as [|[[g1 g2] p] more IH]; intros r k H; cbn [fold_left fst snd]; auto.
    apply IH. unfold link_frames. destruct (fpair_eqb (g1, g2) k) eqn:E.
    - apply fpair_eqb_spec in E. subst k. rewrite rel_get_set_same. discriminate.
    - rewrite rel_get_set_other; auto. intros X. rewrite (proj2 (fpair_eqb_spec _ _) X) in E. discriminate E. }
  assert (A : rel_get r' (f2, f1) <> None).
  { apply K. unfold link_frames. rewrite rel_get_set_same. discriminate. }
  assert (B : rel_get r' (f1, f2) <> None).
  { apply K. unfold link_frames. destruct (fpair_eqb (f2, f1) (f1, f2)) eqn:E.
    - apply fpair_eqb_spec in E. rewrite E. rewrite rel_get_set_same. discriminate.
    - rewrite rel_get_set_other.
      + rewrite rel_get_set_same. discriminate.
      + intros X. rewrite (proj2 (fpair_eqb_spec _ _) X) in E. discriminate E. }
  unfold get_frame_transform. destruct (rel_get r' (f1, f2)); [|congruence]. destruct (rel_get r' (f2, f1)); [|congruence].
  auto.
Qed.
Print Assumptions C50_both_senses_refuted.

Theorem C50_self_link : forall (T P : Type) est (inv : T -> T) (pts : frame -> P) r f props,
  get_frame_transform est inv pts (link_frames r f f props) f f = Err ValueError.
Proof. intros. unfold get_frame_transform, link_frames. rewrite rel_get_set_same. reflexivity. Qed.
Print Assumptions C50_self_link.

(** The documented type 'piecewiseAffine' is put in lower case and then not known. *)
Theorem C50_piecewise_refuted : forall (T P : Type) est (inv : T -> T) (pts : frame -> P) dic ebsd args, dic <> ebsd ->
  get_frame_transform est inv pts (link_ebsd_map [] dic ebsd "piecewiseAffine" args) ebsd dic = Err KeyError.
Proof.
  intros T P est inv pts dic ebsd args N. unfold get_frame_transform, link_ebsd_map, link_frames.
  rewrite rel_get_set_same, rel_get_set_other by (intros X; injection X; congruence). reflexivity.
Qed.
Print Assumptions C50_piecewise_refuted.

Example C50_example : (1 <> 2)%Z /\ rel_get [] (2, 1) = None /\ transform_lookup "affine" = Some Affine /\
  transform_lookup "polynomial" = Some Polynomial /\ transform_lookup (lower "Projective") = Some Projective.
Proof. repeat split; lia. Qed.

(** * C51: updating homologous points *)

(** An index and a new point: that point is replaced, the others stay. *)
Theorem C51_replace_partial : forall pts k x y np d, (k < List.length pts)%nat -> at_xy np x y ->
  exists pts', update_homog_points pts (Some (Z.of_nat k)) (Some np) d = Ok pts' /\
    nth_error pts' k = Some np /\ (forall j, j <> k -> nth_error pts' j = nth_error pts j) /\
    List.length pts' = List.length pts.
Proof.
  intros pts k x y np d Hk Hp. destruct (set_nth_ok _ pts k np Hk) as (l & E).
  exists l. split; [|now apply set_nth_same].
  unfold update_homog_points. destruct (Z.leb_spec (Z.of_nat (List.length pts)) (Z.of_nat k)); [lia|].
  destruct (Z.ltb_spec (Z.of_nat k) 0); [lia|]. rewrite Nat2Z.id. unfold update_one, set_point.
  destruct Hp as [-> | ->]; cbn [is_tuple negb plen bind List.length Nat.eqb]; rewrite E; reflexivity.
Qed.
Print Assumptions C51_replace_partial.

(** An index and increments: that point is moved, the others stay. *)
Theorem C51_move : forall pts k p x y d dx dy, nth_error pts k = Some p -> at_xy p x y -> at_xy d dx dy ->
  exists pts', update_homog_points pts (Some (Z.of_nat k)) None (Some d) = Ok pts' /\
    nth_error pts' k = Some (PTuple [x + dx; y + dy]%R) /\ (forall j, j <> k -> nth_error pts' j = nth_error pts j) /\
    List.length pts' = List.length pts.
Proof.
  intros pts k p x y d dx dy Ek Hp Hd.
  assert (Hk : (k < List.length pts)%nat) by (apply nth_error_Some; congruence).
  destruct (set_nth_ok _ pts k (PTuple [x + dx; y + dy]%R) Hk) as (l & E).
  exists l. split; [|now apply set_nth_same].
  unfold update_homog_points. destruct (Z.leb_spec (Z.of_nat (List.length pts)) (Z.of_nat k)); [lia|].
  destruct (Z.ltb_spec (Z.of_nat k) 0); [lia|]. rewrite Nat2Z.id. unfold update_one, set_point. rewrite Ek.
  destruct Hd as [-> | ->], Hp as [-> | ->]; cbn [is_tuple negb plen bind List.length Nat.eqb add_pair]; rewrite E; reflexivity.
Qed.
Print Assumptions C51_move.

(** Index -1 and increments: every point is moved. *)
Theorem C51_move_all : forall pts d dx dy, pairs pts -> at_xy d dx dy ->
  exists pts', update_homog_points pts (Some (-1)) None (Some d) = Ok pts' /\
    Forall2 (fun p p' => forall x y, at_xy p x y -> p' = PTuple [x + dx; y + dy]%R) pts pts'.
Proof.
  intros pts d dx dy HP Hd. destruct (update_all_ok d pts HP dx dy Hd) as (l & E & F). exists l. split; [|auto].
  unfold update_homog_points. destruct (Z.leb_spec (Z.of_nat (List.length pts)) (-1)); [lia|]. exact E.
Qed.
Print Assumptions C51_move_all.

(** Not an integer, or beyond the list: rejected, whatever else is given. *)
Theorem C51_bad_index : forall pts k np d, 
  update_homog_points pts None np d = Err GenericException /\
  (Z.of_nat (List.length pts) <= k -> update_homog_points pts (Some k) np d = Err GenericException).
Proof.
  intros pts k np d. split; [reflexivity|]. intros H. unfold update_homog_points.
  destruct (Z.leb_spec (Z.of_nat (List.length pts)) k); [reflexivity|lia].
Qed.
Print Assumptions C51_bad_index.

(** A list of the wrong length is rejected as point or increment. *)
Theorem C51_bad_sequence_partial : forall pts k l, (k < List.length pts)%nat -> List.length l <> 2%nat ->
  (forall d, update_homog_points pts (Some (Z.of_nat k)) (Some (PSeq l)) d = Err GenericException) /\
  update_homog_points pts (Some (Z.of_nat k)) None (Some (PSeq l)) = Err GenericException.
Proof.
  intros pts k l Hk Hl.
  assert (G : forall np d, update_homog_points pts (Some (Z.of_nat k)) np d = update_one pts k np d).
  { intros np d. unfold update_homog_points. destruct (Z.leb_spec (Z.of_nat (List.length pts)) (Z.of_nat k)); [lia|].
    destruct (Z.ltb_spec (Z.of_nat k) 0); [lia|]. now rewrite Nat2Z.id. }
  apply Nat.eqb_neq in Hl.
  split; [intros d|]; rewrite G; unfold update_one; cbn [is_tuple negb plen bind]; rewrite Hl; reflexivity.
Qed.
Print Assumptions C51_bad_sequence_partial.

(** A tuple of the wrong length is accepted; a new point with index -1 is dropped
    and all points are lost; so is a point updated with nothing. *)
Theorem C51_accepted_refuted :
  (forall pts k l, (k < List.length pts)%nat -> exists pts',
     update_homog_points pts (Some (Z.of_nat k)) (Some (PTuple l)) None = Ok pts' /\ nth_error pts' k = Some (PTuple l)) /\
  (forall pts np, update_homog_points pts (Some (-1)) (Some np) None = Ok (map (fun _ => PNone) pts)) /\
  (forall pts k, (k < List.length pts)%nat -> exists pts',
     update_homog_points pts (Some (Z.of_nat k)) None None = Ok pts' /\ nth_error pts' k = Some PNone).
Proof.
  assert (G : forall pts k np d, (k < List.length pts)%nat -> update_homog_points pts (Some (Z.of_nat k)) np d = update_one pts k np d).
  { intros pts k np d Hk. unfold update_homog_points. destruct (Z.leb_spec (Z.of_nat (List.length pts)) (Z.of_nat k)); [lia|].
    destruct (Z.ltb_spec (Z.of_nat k) 0); [lia|]. now rewrite Nat2Z.id. }
  split; [|split].
  - intros pts k l Hk. destruct (set_nth_ok _ pts k (PTuple l) Hk) as (r & E). exists r.
    rewrite G by auto. unfold update_one, set_point. cbn [is_tuple negb]. rewrite E. split; [reflexivity|].
    now apply set_nth_same in E.
  - intros pts np. unfold update_homog_points. destruct (Z.leb_spec (Z.of_nat (List.length pts)) (-1)); [lia|].
    cbn [Z.ltb Z.compare].
    assert (K : forall rest done, for_each (fun pts i => update_one pts i None None) (seq (List.length done) (List.length rest)) (done ++ rest)
                = Ok (done ++ map (fun _ => PNone) rest)).
    { induction rest as [|p rest IH]; intros done; cbn [List.length seq for_each map]; [reflexivity|].
      unfold update_one at 1, set_point. rewrite set_nth_mid. cbn [bind].
      specialize (IH (done ++ [PNone])). rewrite app_length in IH. cbn [List.length] in IH. rewrite Nat.add_1_r in IH.
      rewrite <- !app_assoc in IH. exact IH. }
    apply (K pts []).
  - intros pts k Hk. destruct (set_nth_ok _ pts k PNone Hk) as (r & E). exists r.
    rewrite G by auto. unfold update_one, set_point. rewrite E. split; [reflexivity|]. now apply set_nth_same in E.
Qed.
Print Assumptions C51_accepted_refuted.

Example C51_example : at_xy (PTuple [1; 2]%R) 1 2 /\ pairs [PTuple [1; 2]; PSeq [3; 4]]%R.
Proof. split; [left; auto|]. repeat constructor; do 2 eexists; [left|right]; reflexivity. Qed.

(** * C79: warped lines *)

(** Warped lines end at half-integer positions, at most half a pixel from the
    transformed ends on each axis; lines already there, under the identity, stay. *)
Theorem C79_warp_lines : forall t lines,
  Forall2 (fun l r =>
    half_integer (fst (fst r)) /\ half_integer (snd (fst r)) /\ half_integer (fst (snd r)) /\ half_integer (snd (snd r)) /\
    (Rabs (fst (fst r) - fst (t (fst l))) <= 1/2 /\ Rabs (snd (fst r) - snd (t (fst l))) <= 1/2 /\
     Rabs (fst (snd r) - fst (t (snd l))) <= 1/2 /\ Rabs (snd (snd r) - snd (t (snd l))) <= 1/2)%R)
    lines (warp_lines t lines) /\
  (Forall (fun l => half_integer (fst (fst l)) /\ half_integer (snd (fst l)) /\
                    half_integer (fst (snd l)) /\ half_integer (snd (snd l))) lines ->
   warp_lines (fun p => p) lines = lines).
Proof.
  intros t lines. split.
  - unfold warp_lines. induction lines as [|l lines IH]; cbn [map]; constructor; auto. cbn [fst snd].
    pose proof (half_round_half (fst (t (fst l)))) as [A1 A2]. pose proof (half_round_half (snd (t (fst l)))) as [B1 B2].
    pose proof (half_round_half (fst (t (snd l)))) as [C1 C2]. pose proof (half_round_half (snd (t (snd l)))) as [D1 D2].
    tauto.
  - intros F. unfold warp_lines. rewrite <- (map_id lines) at 2. apply map_ext_in. intros [[a b] [c d]] I.
    rewrite Forall_forall in F. specialize (F _ I). cbn [fst snd] in *.
    destruct F as ((n1 & ->) & (n2 & ->) & (n3 & ->) & (n4 & ->)). unfold half_round.
    assert (G : forall n, (IZR (rint (IZR n + 1/2 - 1/2)) + 1/2 = IZR n + 1/2)%R).
    { intros n. replace (IZR n + 1/2 - 1/2)%R with (IZR n) by ring. now rewrite rint_int. }
    now rewrite !G.
Qed.
Print Assumptions C79_warp_lines.

Example C79_example : half_integer (7/2) /\ half_integer (- (1/2)).
Proof. split; [exists 3|exists (-1)]; lra. Qed.

(** * C80: warped points *)

(** With an invertible affine transform, the pixel [p] of the cropped image and the
    pixel [p + crop] of the uncropped one are warped from the same position. *)
Theorem C80_same_position : forall a rows cols p, (a11 a * a22 a - a12 a * a21 a <> 0)%R ->
  aff (uncropped a rows cols) (fst p + fst (crop_start a rows cols), snd p + snd (crop_start a rows cols))%R = aff a p.
Proof.
  intros a rows cols [x y] D. unfold aff, uncropped, crop_start. cbn [fst snd a11 a12 a21 a22 tx ty].
  f_equal; field; auto.
Qed.
Print Assumptions C80_same_position.

(** The crop used is that one to the nearest pixel; when it starts inside and ends
    inside the image, the points are those of the cropped image. *)
Theorem C80_slice_partial : forall (A : Type) a rows cols (img : image A) out_rows out_cols,
  let c := crop_start_int a rows cols in
  0 <= fst c -> 0 <= snd c -> 0 <= out_rows -> 0 <= out_cols ->
  fst c + out_cols <= im_w img -> snd c + out_rows <= im_h img ->
  (Rabs (IZR (fst c) - fst (crop_start a rows cols)) <= 1/2 /\ Rabs (IZR (snd c) - snd (crop_start a rows cols)) <= 1/2)%R /\
  im_w (warp_slice c out_rows out_cols img) = out_cols /\ im_h (warp_slice c out_rows out_cols img) = out_rows /\
  forall x y, im_at (warp_slice c out_rows out_cols img) (x, y) = im_at img (x + fst c, y + snd c).
Proof.
  intros A a rows cols img out_rows out_cols c H1 H2 H3 H4 H5 H6.
  split; [split; apply rint_close|]. unfold warp_slice.
  rewrite (slice_ok (im_h img)), (slice_ok (im_w img)) by lia. cbn [im_w im_h im_at fst snd].
  split; [lia|]. split; [lia|]. reflexivity.
Qed.
Print Assumptions C80_slice_partial.

(** When the DIC map reaches more than 5% outside the EBSD map, the crop starts at a
    negative pixel, which numpy counts from the far end: the boundary points are
    lost. *)
Theorem C80_negative_crop_refuted : exists a rows cols (img : image Z) p,
  a = Aff 1 0 0 1 (-20) 0 /\ crop_start_int a rows cols = (-15, 5) /\ im_w img = 140 /\ im_h img = 140 /\
  inside 50 100 p /\ inside (im_w img) (im_h img) (fst p - 15, snd p + 5) /\
  im_at img (fst p - 15, snd p + 5) = 1 /\
  im_w (warp_slice (-15, 5) 100 50 img) = 0.
Proof.
  exists (Aff 1 0 0 1 (-20) 0), 100, 100, (Image 140 140 (fun _ => 1)), (20, 0).
  split; [reflexivity|]. split.
  { unfold crop_start_int, crop_start. cbn [fst snd a11 a12 a21 a22 tx ty]. f_equal.
    - replace ((1 * (-20 + 5 / 100 * 100) - 0 * (0 + 5 / 100 * 100)) / (1 * 1 - 0 * 0))%R with (IZR (-15)) by field.
      apply rint_int.
    - replace ((- 0 * (-20 + 5 / 100 * 100) + 1 * (0 + 5 / 100 * 100)) / (1 * 1 - 0 * 0))%R with (IZR 5) by field.
      apply rint_int. }
  repeat split; cbn; lia.
Qed.
Print Assumptions C80_negative_crop_refuted.

Example C80_example : (a11 (Aff 2 1 0 2 10 20) * a22 (Aff 2 1 0 2 10 20) - a12 (Aff 2 1 0 2 10 20) * a21 (Aff 2 1 0 2 10 20) <> 0)%R.
Proof. cbn [a11 a12 a21 a22]. lra. Qed.

(** * C81: saving a picked point *)

(** The saved point, times the binning, is within half the binning of the picked
    position on each axis; the points saved before are kept. *)
Theorem C81_saved_point : forall pts sel b, 0 < b ->
  exists x y, save_point pts sel b = pts ++ [PTuple [IZR x; IZR y]] /\
    (Rabs (IZR x * IZR b - fst sel) <= IZR b / 2 /\ Rabs (IZR y * IZR b - snd sel) <= IZR b / 2)%R.
Proof.
  intros pts sel b Hb. assert (B : (0 < IZR b)%R) by now apply IZR_lt.
  assert (G : forall z, (Rabs (IZR (rint (z / IZR b)) * IZR b - z) <= IZR b / 2)%R).
  { intros z. pose proof (rint_close (z / IZR b)) as C.
    replace (IZR (rint (z / IZR b)) * IZR b - z)%R with ((IZR (rint (z / IZR b)) - z / IZR b) * IZR b)%R by (field; lra).
    rewrite Rabs_mult, (Rabs_right (IZR b)) by lra.
    apply Rmult_le_compat_r with (r := IZR b) in C; lra. }
  eexists _, _. split; [reflexivity|]. auto.
Qed.
Print Assumptions C81_saved_point.

Example C81_example : exists pts, save_point [PTuple [1; 2]%R] (24, 36)%R 12 = pts /\ pts = [PTuple [1; 2]%R; PTuple [2; 3]%R].
Proof.
  eexists. split; [reflexivity|]. unfold save_point. cbn [app fst snd].
  replace (24 / 12)%R with (IZR 2) by lra. replace (36 / 12)%R with (IZR 3) by lra. now rewrite !rint_int.
Qed.
