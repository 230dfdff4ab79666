(** C61, C62: DIC loaders, loader choice and data checks. *)
From Coq Require Import String Ascii Reals.
From Coq Require Import List ZArith Bool Lia Lra.
Import ListNotations.
From Verif Require Import Py Base_Model Text_Model Text_Proofs Ctf_Model Ctf_Spec Ctf_Proofs Io_Model Io_Spec IoText_Proofs IoDic_Proofs IoGrid_Proofs.
Open Scope Z_scope.

(** ** C61: PyVale *)
Lemma box_extent rows x0 x1 y0 y1 : box rows x0 x1 y0 y1 -> extent rows x0 x1 y0 y1.
Proof.
  intros B. split; [intros w I; exact (box_bounds _ _ _ _ _ w B I)|]. destruct B as (A & B & C & D).
  apply z_least in A as [A _], C as [C _]. apply z_largest in B as [B _], D as [D _].
  apply in_map_iff in A as (a & A & IA), B as (b & B & IB), C as (c & C & IC), D as (d & D & ID).
  split; [exists a; auto|]. split; [exists b; auto|]. split; [exists c; auto|exists d; auto].
Qed.

(** What was loaded is a grid over the rectangle of the rows; a pixel shows the last
    row of its cell, or 0 without one. *)
Theorem C61_pyvale : forall ft rows b d, load_pyvale ft rows = Ok (b, d) -> 0 < b /\ exists x0 x1 y0 y1, extent rows x0 x1 y0 y1 /\
  on_grid_map (IZR b) (IZR x0) (IZR y0) d /\ x1 = x0 + (d_cols d - 1) * b /\ y1 = y0 + (d_rows d - 1) * b /\
  forall c r, 0 <= c < d_cols d -> 0 <= r < d_rows d ->
    (forall before w after, rows = before ++ w :: after -> in_cell b x0 y0 c r w ->
       (forall x, In x after -> ~ in_cell b x0 y0 c r x) ->
       at_pixel (d_u d) (d_cols d) c r = Some (pv_u w) /\ at_pixel (d_v d) (d_cols d) c r = Some (pv_v w)) /\
    ((forall w, In w rows -> ~ in_cell b x0 y0 c r w) ->
       at_pixel (d_u d) (d_cols d) c r = Some 0%R /\ at_pixel (d_v d) (d_cols d) c r = Some 0%R).
Proof.
  intros ft rows b d L. destruct (pyvale_loaded ft rows b d L) as (B & x0 & x1 & y0 & y1 & BX & H).
  split; auto. exists x0, x1, y0, y1. split; [now apply box_extent|exact H].
Qed.
Print Assumptions C61_pyvale.
(** If all rows lie on one grid of the found step, each is at its own coordinates. *)
Theorem C61_pyvale_own_pixel_partial : forall ft rows b d before w after, load_pyvale ft rows = Ok (b, d) -> rows = before ++ w :: after ->
  (forall x, In x rows -> (b | pv_x x - pv_x w) /\ (b | pv_y x - pv_y w)) ->
  (forall x, In x after -> (pv_x x, pv_y x) <> (pv_x w, pv_y w)) ->
  measured d (IZR (pv_x w)) (IZR (pv_y w)) (pv_u w) (pv_v w).
Proof. exact pyvale_measured. Qed.
Print Assumptions C61_pyvale_own_pixel_partial.
(** Complete rasters of at least two rows and columns, written row by row, load. *)
Theorem C61_pyvale_raster : forall ft rows b x0 y0 nx ny, ft = lit "csv" \/ ft = lit "binary" -> 0 < b -> 2 <= nx -> 2 <= ny ->
  raster_rows b x0 y0 nx ny rows ->
  exists d, load_pyvale ft rows = Ok (b, d) /\ d_cols d = nx /\ d_rows d = ny /\ on_grid_map (IZR b) (IZR x0) (IZR y0) d /\
    forall c r w, 0 <= c < nx -> 0 <= r < ny -> at_pixel rows nx c r = Some w ->
      at_pixel (d_u d) nx c r = Some (pv_u w) /\ at_pixel (d_v d) nx c r = Some (pv_v w).
Proof. exact pyvale_raster. Qed.
Print Assumptions C61_pyvale_raster.
Theorem C61_pyvale_type : forall ft rows, ft <> lit "csv" -> ft <> lit "binary" -> load_pyvale ft rows = Err ValueError.
Proof.
  intros ft rows A B. unfold load_pyvale. rewrite (proj2 (txt_eqb_neq ft _) A), (proj2 (txt_eqb_neq ft _) B). reflexivity.
Qed.

Definition ex_rows : list pv_row :=
  [PvRow 3 5 1 0; PvRow 5 5 2 0; PvRow 7 5 3 0; PvRow 3 7 4 0; PvRow 5 7 5 0; PvRow 7 7 6 0].
Example C61_pyvale_ex : raster_rows 2 3 5 3 2 ex_rows.
Proof.
  split; [reflexivity|]. intros c r C Rr. assert (c = 0 \/ c = 1 \/ c = 2) as K by lia. assert (r = 0 \/ r = 1) as Q by lia.
  destruct Q as [->| ->], K as [->|[->| ->]]; eexists; (split; [reflexivity|]); split; reflexivity.
Qed.
(** An incomplete set of rows, not in raster order. *)
Example C61_pyvale_own_pixel_ex : exists d, load_pyvale (lit "csv") [PvRow 5 5 2 0; PvRow 3 5 1 0; PvRow 7 7 6 0; PvRow 5 7 5 1] = Ok (2, d).
Proof.
  eexists. apply pyvale_iff. split; [now left|]. split; [lia|]. split; [reflexivity|]. split; [reflexivity|].
  exists 3, 7, 5, 7. split; [repeat split|]. split; [exists 2; reflexivity|]. split; [exists 1; reflexivity|reflexivity].
Qed.

(** The order of the rows does matter: two rows of one column in a row are refused,
    as in any column-by-column file. *)
Theorem C61_pyvale_column_order_refuted : forall ft before w w' after, pv_x w = pv_x w' ->
  forall r, load_pyvale ft (before ++ w :: w' :: after) <> Ok r.
Proof. exact pyvale_same_x. Qed.
(** A complete raster of step 1 in some order loads as a map of step 2, with most
    rows missing. *)
Definition shuffled : list pv_row :=
  concat (map (fun y => map (fun x => PvRow x y (IZR (10 * y + x)) 0) [0; 2; 4; 1; 3]) [0; 2; 1]).
Theorem C61_pyvale_order_refuted :
  (forall x y, 0 <= x <= 4 -> 0 <= y <= 2 -> In (PvRow x y (IZR (10 * y + x)) 0) shuffled) /\
  exists d, load_pyvale (lit "csv") shuffled = Ok (2, d) /\ d_cols d = 3 /\ d_rows d = 2 /\
    at_pixel (d_x d) 3 0 0 = Some 0%R /\ at_pixel (d_y d) 3 0 0 = Some 0%R /\ at_pixel (d_u d) 3 0 0 = Some 11%R.
Proof.
  split.
  - intros x y X Y. assert (x = 0 \/ x = 1 \/ x = 2 \/ x = 3 \/ x = 4) as K by lia. assert (y = 0 \/ y = 1 \/ y = 2) as Q by lia.
    unfold shuffled. destruct Q as [->|[->| ->]], K as [->|[->|[->|[->| ->]]]]; cbn [map concat app In Z.mul Z.add Pos.mul Pos.add Pos.succ]; tauto.
  - set (d := pv_data 2 0 4 0 2 shuffled). exists d.
    assert (L : load_pyvale (lit "csv") shuffled = Ok (2, d)).
    { apply pyvale_iff. split; [now left|]. split; [lia|]. split; [vm_compute; reflexivity|]. split; [vm_compute; reflexivity|].
      exists 0, 4, 0, 2. split; [split; [|split; [|split]]; vm_compute; reflexivity|]. split; [exists 2; reflexivity|]. split; [exists 1; reflexivity|reflexivity]. }
    split; [exact L|]. split; [reflexivity|]. split; [reflexivity|].
    destruct (pyvale_loaded _ _ _ _ L) as (_ & x0 & x1 & y0 & y1 & (B1 & _ & B3 & _) & GR & _ & _ & V).
    assert (x0 = 0) as -> by (vm_compute in B1; congruence). assert (y0 = 0) as -> by (vm_compute in B3; congruence).
    destruct GR as (_ & _ & GR). destruct (GR 0 0 ltac:(split; [lia|reflexivity]) ltac:(split; [lia|reflexivity])) as [G1 G2].
    split; [change 3 with (d_cols d); rewrite G1; f_equal; lra|]. split; [change 3 with (d_cols d); rewrite G2; f_equal; lra|].
    destruct (V 0 0 ltac:(split; [lia|reflexivity]) ltac:(split; [lia|reflexivity])) as [V1 _].
    destruct (V1 (firstn 13 shuffled) (PvRow 1 1 (IZR (10 * 1 + 1)) 0) (skipn 14 shuffled)) as [U _].
    + reflexivity.
    + unfold in_cell. cbn [pv_x pv_y]. lia.
    + intros x I. vm_compute in I. destruct I as [<-|[]]. unfold in_cell. cbn [pv_x pv_y]. lia.
    + change 3 with (d_cols d). rewrite U. reflexivity.
Qed.
Print Assumptions C61_pyvale_order_refuted.
(** Rows off the grid are shown at other coordinates. *)
Definition staggered : list pv_row := [PvRow 0 0 1 0; PvRow 2 0 2 0; PvRow 4 0 3 0; PvRow 1 2 4 0; PvRow 3 2 5 0].
Theorem C61_pyvale_off_grid_refuted : exists d, load_pyvale (lit "binary") staggered = Ok (2, d) /\
  (forall u v, ~ measured d 1 2 u v) /\ measured d 0 2 4 0.
Proof.
  set (d := pv_data 2 0 4 0 2 staggered). exists d.
  assert (L : load_pyvale (lit "binary") staggered = Ok (2, d)).
  { apply pyvale_iff. split; [now right|]. split; [lia|]. split; [reflexivity|]. split; [reflexivity|].
    exists 0, 4, 0, 2. split; [split; [|split; [|split]]; reflexivity|]. split; [exists 2; reflexivity|]. split; [exists 1; reflexivity|reflexivity]. }
  split; auto. destruct (pyvale_loaded _ _ _ _ L) as (_ & x0 & x1 & y0 & y1 & (B1 & _ & B3 & _) & GR & _ & _ & V).
  assert (x0 = 0) as -> by (vm_compute in B1; congruence). assert (y0 = 0) as -> by (vm_compute in B3; congruence).
  destruct GR as (_ & _ & GR). split.
  - intros u v (c & r & C & Rr & A & _). destruct (GR c r C Rr) as [G1 _]. rewrite G1 in A.
    assert (E : (0 + IZR c * 2 = 1)%R) by congruence. rewrite Rplus_0_l, <- mult_IZR in E. apply eq_IZR in E. lia.
  - change (d_cols d) with 3 in *. change (d_rows d) with 2 in *.
    destruct (GR 0 1 ltac:(lia) ltac:(lia)) as [G1 G2]. destruct (V 0 1 ltac:(lia) ltac:(lia)) as [V1 _].
    destruct (V1 [PvRow 0 0 1 0; PvRow 2 0 2 0; PvRow 4 0 3 0] (PvRow 1 2 4 0) [PvRow 3 2 5 0]) as [U1 U2].
    + reflexivity.
    + unfold in_cell. cbn [pv_x pv_y]. lia.
    + intros x [<-|[]]. unfold in_cell. cbn [pv_x pv_y]. lia.
    + exists 0, 1. change (d_cols d) with 3. change (d_rows d) with 2. split; [lia|]. split; [lia|].
      split; [rewrite G1; f_equal; lra|]. split; [rewrite G2; f_equal; lra|]. auto.
Qed.
Print Assumptions C61_pyvale_off_grid_refuted.

(** ** C61: OpenPIV and Davis *)

(** Whatever is loaded keeps each measurement with its coordinates, the rows of the
    file in the opposite order. *)
Theorem C61_openpiv_text_partial : forall rows b d, load_openpiv_text rows = Ok (b, d) ->
  Z.of_nat (List.length rows) = d_rows d * d_cols d /\
  (forall w, In w rows -> measured d (pw_x w) (pw_y w) (pw_u w) (pw_v w)) /\
  forall c r, 0 <= c < d_cols d -> 0 <= r < d_rows d ->
    exists w, at_pixel rows (d_cols d) c (d_rows d - 1 - r) = Some w /\
      at_pixel (d_x d) (d_cols d) c r = Some (pw_x w) /\ at_pixel (d_y d) (d_cols d) c r = Some (pw_y w) /\
      at_pixel (d_u d) (d_cols d) c r = Some (pw_u w) /\ at_pixel (d_v d) (d_cols d) c r = Some (pw_v w).
Proof.
  intros rows b d L. destruct (openpiv_text_loaded rows b d L) as (LN & CK & H). split; auto. split; auto.
  intros w I. apply In_nth_error in I as (i & I). assert (N : (i < List.length rows)%nat) by (apply nth_error_Some; congruence).
  assert (0 < d_cols d).
  { apply check_iff in CK as (B & _ & _ & (lo & hi & [I1 _] & [_ H2] & _ & Q) & _). specialize (H2 lo I1).
    assert (0 <= (hi - lo) / IZR b)%R by (apply Rmult_le_pos; [lra|]; apply Rlt_le, Rinv_0_lt_compat; auto).
    assert (0 < IZR (d_cols d))%R by lra. now apply lt_IZR. }
  destruct (index_split (Z.of_nat i) (d_cols d) (d_rows d) ltac:(lia) ltac:(lia)) as (C & Rr & E).
  set (c := Z.of_nat i mod d_cols d) in *. set (r := Z.of_nat i / d_cols d) in *.
  destruct (H c (d_rows d - 1 - r) C ltac:(lia)) as (w' & W & A1 & A2 & A3 & A4).
  replace (d_rows d - 1 - (d_rows d - 1 - r)) with r in W by lia. unfold at_pixel in W. rewrite <- E, Nat2Z.id in W.
  assert (w' = w) as -> by congruence. exists c, (d_rows d - 1 - r). split; [lia|]. split; [lia|]. auto.
Qed.
Print Assumptions C61_openpiv_text_partial.
(** Rasters whose rows go down in y load with y increasing down the map. *)
Theorem C61_openpiv_text_raster : forall b x0 y0 nx ny rows, 0 < b -> 2 <= nx -> 2 <= ny ->
  (IZR b / 2 <= x0 < 3 * IZR b / 2)%R -> (IZR b / 2 <= y0 < 3 * IZR b / 2)%R -> raster_file false (IZR b) x0 y0 nx ny rows ->
  exists d, load_openpiv_text rows = Ok (b, d) /\ d_cols d = nx /\ d_rows d = ny /\ on_grid_map (IZR b) x0 y0 d.
Proof. intros b x0 y0 nx ny rows B X Y HX HY RF. destruct (openpiv_text_raster false b x0 y0 nx ny rows) as (d & L & C & R & RM); eauto. Qed.
Theorem C61_openpiv_binary_partial : forall b d d', whole d -> load_openpiv_binary b d = Ok d' ->
  d_rows d' = d_rows d /\ d_cols d' = d_cols d /\
  (~ y_moves d -> d' = d) /\
  (y_moves d -> forall c r, 0 <= c < d_cols d -> 0 <= r < d_rows d ->
    at_pixel (d_x d') (d_cols d) c r = at_pixel (d_x d) (d_cols d) c (d_rows d - 1 - r) /\
    at_pixel (d_y d') (d_cols d) c r = at_pixel (d_y d) (d_cols d) c (d_rows d - 1 - r) /\
    at_pixel (d_u d') (d_cols d) c r = at_pixel (d_u d) (d_cols d) c (d_rows d - 1 - r) /\
    at_pixel (d_v d') (d_cols d) c r = at_pixel (d_v d) (d_cols d) c (d_rows d - 1 - r)).
Proof. intros b d d' W L. destruct (openpiv_binary_loaded b d d' W L) as (A & B & _ & C & D). auto. Qed.
Theorem C61_openpiv_binary_raster : forall b x0 y0 d, (0 < b)%R -> 2 <= d_rows d -> 2 <= d_cols d -> whole d -> raster_map false b x0 y0 d ->
  exists d', load_openpiv_binary b d = Ok d' /\ d_rows d' = d_rows d /\ d_cols d' = d_cols d /\ on_grid_map b x0 y0 d'.
Proof. intros b x0 y0 d B Y X W RM. destruct (openpiv_binary_raster false b x0 y0 d) as (d' & L & A & C & M); eauto. Qed.
Print Assumptions C61_openpiv_binary_raster.

(** Rasters already increasing in y are turned over as well: the map has y decreasing. *)
Theorem C61_openpiv_text_refuted : forall b x0 y0 nx ny rows, 0 < b -> 2 <= nx -> 2 <= ny ->
  (IZR b / 2 <= x0 < 3 * IZR b / 2)%R -> (IZR b / 2 <= y0 < 3 * IZR b / 2)%R -> raster_file true (IZR b) x0 y0 nx ny rows ->
  exists d, load_openpiv_text rows = Ok (b, d) /\ d_cols d = nx /\ d_rows d = ny /\ raster_map false (IZR b) x0 y0 d /\
    ~ exists x1 y1, on_grid_map (IZR b) x1 y1 d.
Proof.
  intros b x0 y0 nx ny rows B X Y HX HY RF. destruct (openpiv_text_raster true b x0 y0 nx ny rows) as (d & L & C & R & RM); auto.
  exists d. split; auto. split; auto. split; auto. split; auto. intros (x1 & y1 & _ & _ & G).
  cbn [negb] in RM. destruct RM as (_ & _ & RM). rewrite C, R in *.
  destruct (G 0 0 ltac:(lia) ltac:(lia)) as [_ G0]. destruct (G 0 1 ltac:(lia) ltac:(lia)) as [_ G1].
  destruct (RM 0 0 ltac:(lia) ltac:(lia)) as [_ M0]. destruct (RM 0 1 ltac:(lia) ltac:(lia)) as [_ M1]. unfold y_at in *.
  assert (PB : (0 < IZR b)%R) by (apply IZR_lt; auto).
  assert (E0 : (y1 + 0 * IZR b = y0 + IZR (ny - 1 - 0) * IZR b)%R) by congruence.
  assert (E1 : (y1 + 1 * IZR b = y0 + IZR (ny - 1 - 1) * IZR b)%R) by congruence.
  rewrite !minus_IZR in E0. rewrite !minus_IZR in E1. lra.
Qed.
Theorem C61_openpiv_binary_refuted : forall b x0 y0 d, (0 < b)%R -> 2 <= d_rows d -> 2 <= d_cols d -> whole d -> raster_map true b x0 y0 d ->
  exists d', load_openpiv_binary b d = Ok d' /\ raster_map false b x0 y0 d'.
Proof. intros b x0 y0 d B Y X W RM. destruct (openpiv_binary_raster true b x0 y0 d) as (d' & L & _ & _ & M); eauto. Qed.
Print Assumptions C61_openpiv_text_refuted.
Definition ex_piv (down : bool) : list piv_row :=
  if down then [PivRow 1 1 10 0; PivRow 3 1 11 0; PivRow 1 3 12 0; PivRow 3 3 13 0]%R
  else [PivRow 1 3 12 0; PivRow 3 3 13 0; PivRow 1 1 10 0; PivRow 3 1 11 0]%R.
Example C61_openpiv_ex : forall down, raster_file down 2 1 1 2 2 (ex_piv down).
Proof.
  intros down. split; [destruct down; reflexivity|]. intros c r C Rr.
  assert (c = 0 \/ c = 1) as K by lia. assert (r = 0 \/ r = 1) as Q by lia. unfold y_at.
  destruct down, Q as [->| ->], K as [->| ->]; eexists; (split; [reflexivity|]); cbn [pw_x pw_y]; split; rewrite ?minus_IZR; lra.
Qed.
(** Grids that do not start about half a step from the origin are not read. *)
Theorem C61_openpiv_text_origin_refuted :
  load_openpiv_text [PivRow 0 2 1 0; PivRow 2 2 2 0; PivRow 0 0 3 0; PivRow 2 0 4 0]%R = Err ValueError.
Proof.
  assert (BX : min_of (abs_diffs [0; 2; 0; 2]%R) = Ok 2%R).
  { apply min_of_iff. cbn [abs_diffs]. replace (Rabs (2 - 0)) with 2%R by (rewrite Rabs_right; lra). replace (Rabs (0 - 2)) with 2%R by (rewrite Rabs_left; lra).
    split; [now left|]. intros x [<-|[<-|[<-|[]]]]; lra. }
  assert (BY : max_of (abs_diffs [2; 2; 0; 0]%R) = Ok 2%R).
  { apply max_of_iff. cbn [abs_diffs]. replace (Rabs (2 - 2)) with 0%R by (replace (2 - 2)%R with 0%R by lra; now rewrite Rabs_R0).
    replace (Rabs (0 - 2)) with 2%R by (rewrite Rabs_left; lra). replace (Rabs (0 - 0)) with 0%R by (replace (0 - 0)%R with 0%R by lra; now rewrite Rabs_R0).
    split; [right; now left|]. intros x [<-|[<-|[<-|[]]]]; lra. }
  assert (MX : max_of [0; 2; 0; 2]%R = Ok 2%R) by (apply max_of_iff; split; [right; now left|]; intros x [<-|[<-|[<-|[<-|[]]]]]; lra).
  assert (MY : max_of [2; 2; 0; 0]%R = Ok 2%R) by (apply max_of_iff; split; [now left|]; intros x [<-|[<-|[<-|[<-|[]]]]]; lra).
  unfold load_openpiv_text. cbn [map pw_x pw_y]. rewrite BX, BY. cbn [bind]. cbv zeta.
  replace (trunc 2) with 2 by (symmetry; apply (Base_Proofs.trunc_int 2)). rewrite Z.eqb_refl. cbn [negb]. rewrite MX, MY. cbn [bind Z.eqb].
  replace (trunc ((2 + 2 / 2) / 2)) with 1 by (symmetry; apply Base_Proofs.trunc_pos; [lia|lra]). reflexivity.
Qed.

Theorem C61_davis : forall header rows b d, load_davis header rows = Ok (b, d) ->
  (exists f v, davis_header header = Ok (f, v, b, d_rows d, d_cols d)) /\
  Z.of_nat (List.length rows) = d_rows d * d_cols d /\
  d_x d = map pw_x rows /\ d_y d = map pw_y rows /\ d_u d = map pw_u rows /\ d_v d = map pw_v rows.
Proof. intros header rows b d L. destruct (davis_loaded header rows b d L) as (A & _ & B & C). auto. Qed.
(** The size and the sub-window width are those named in the first line. *)
Theorem C61_davis_header : forall name version kind b ny nx rest,
  (forall t, In t ([name; version; kind] ++ rest) -> t <> [] /\ forall c, In c t -> is_ws c = false) ->
  hd_error name <> Some "#"%char -> hd_error (rev name) <> Some "#"%char ->
  davis_header (join " " (("#"%char :: name) :: version :: kind :: fmt_int b :: fmt_int ny :: fmt_int nx :: rest)) =
  Ok (name, version, b, ny, nx).
Proof.
  intros name version kind b ny nx rest F H1 H2. unfold davis_header.
  rewrite words_join; [|reflexivity|].
  2:{ intros t [<-|[<-|[<-|[<-|[<-|[<-|I]]]]]].
      - split; [discriminate|]. intros c [<-|C]; [reflexivity|]. now apply (F name); [now left|].
      - apply F. right. now left.
      - apply F. right. right. now left.
      - split; [apply fmt_int_ne|apply int_ws].
      - split; [apply fmt_int_ne|apply int_ws].
      - split; [apply fmt_int_ne|apply int_ws].
      - apply F. apply in_or_app. now right. }
  change (item (?x :: _) 0) with (@Ok txt x). change (item (_ :: ?x :: _) 1) with (@Ok txt x).
  change (item (_ :: _ :: _ :: ?x :: _) 3) with (@Ok txt x). change (item (_ :: _ :: _ :: _ :: ?x :: _) 4) with (@Ok txt x).
  change (item (_ :: _ :: _ :: _ :: _ :: ?x :: _) 5) with (@Ok txt x). cbn [bind]. rewrite !int_round_trip. cbn [bind].
  assert (SC : forall t, hd_error t <> Some "#"%char -> strip_char "#" t = t).
  { intros [|a t] T; [reflexivity|]. cbn [strip_char]. destruct (Ascii.eqb_spec a "#"); [|reflexivity]. subst. now destruct T. }
  cbn [strip_char]. change (Ascii.eqb "#" "#") with true. cbv iota. rewrite (SC name H1), (SC (rev name) H2), rev_involutive. reflexivity.
Qed.
Print Assumptions C61_davis_header.
Theorem C61_davis_raster : forall header f v b x0 y0 nx ny rows, davis_header header = Ok (f, v, b, ny, nx) ->
  0 < b -> 2 <= nx -> 2 <= ny -> raster_file true (IZR b) x0 y0 nx ny rows ->
  exists d, load_davis header rows = Ok (b, d) /\ d_rows d = ny /\ d_cols d = nx /\ on_grid_map (IZR b) x0 y0 d.
Proof.
  intros header f v b x0 y0 nx ny rows DH B X Y (L & H). unfold load_davis. rewrite DH. cbn [bind].
  assert (RSH : reshape ny nx rows = Ok rows).
  { unfold reshape. rewrite L, Z.eqb_refl. replace (0 <=? ny) with true by (symmetry; apply Z.leb_le; lia).
    replace (0 <=? nx) with true by (symmetry; apply Z.leb_le; lia). reflexivity. }
  rewrite RSH. cbn [bind]. set (d := DicData _ _ _ _ _ _).
  assert (RM : raster_map true (IZR b) x0 y0 d).
  { unfold raster_map, d. cbn [d_x d_y d_rows d_cols]. rewrite !map_length. split; auto. split; auto.
    intros c r C Rr. destruct (H c r C Rr) as (w & W & EX & EY). unfold at_pixel in *. rewrite !(map_nth_error _ _ _ W). split; congruence. }
  rewrite (raster_accepted true (IZR b) x0 y0 d) by (auto; try (apply IZR_lt; lia); unfold d; cbn [d_rows d_cols]; lia).
  cbn [bind]. exists d. auto.
Qed.
Example C61_davis_ex : davis_header (lit "#DaVis 8.4.0 2D-vector 2 30 40 x") = Ok (lit "DaVis", lit "8.4.0", 2, 30, 40).
Proof. vm_compute. reflexivity. Qed.
Print Assumptions C61_davis_raster.

(** ** C62: data checks *)

(** Accepted are exactly the data whose least step in x and largest step in y along the
    flat array are the binning, with extents of the stated shape. *)
Theorem C62_check_iff : forall b d, check_data b d = Ok tt <->
  (0 < b)%R /\ (exists ds, steps (d_x d) ds /\ least ds b) /\ (exists ds, steps (d_y d) ds /\ largest ds b) /\
  span_fits b (d_cols d) (d_x d) /\ span_fits b (d_rows d) (d_y d).
Proof. exact check_iff. Qed.
Print Assumptions C62_check_iff.
Theorem C62_check_error : forall b d, check_data b d = Ok tt \/ check_data b d = Err ValueError.
Proof. exact check_error. Qed.
(** Regular grids agreeing with the metadata are accepted if they have at least two
    rows and two columns, and only then. *)
Theorem C62_grid_partial : forall b x0 y0 d, (0 < b)%R -> 1 <= d_rows d -> 1 <= d_cols d -> on_grid_map b x0 y0 d ->
  check_data b d = Ok tt <-> 2 <= d_rows d /\ 2 <= d_cols d.
Proof.
  intros b x0 y0 d B Y X G. split.
  - intros C. destruct (Z.eq_dec (d_rows d) 1) as [E|E]; [rewrite (raster_rejected true b x0 y0 d) in C by auto; discriminate|].
    destruct (Z.eq_dec (d_cols d) 1) as [F|F]; [rewrite (raster_rejected true b x0 y0 d) in C by auto; discriminate|]. lia.
  - intros [Y2 X2]. apply (raster_accepted true b x0 y0); auto.
Qed.
Print Assumptions C62_grid_partial.
(** A grid with another binning or shape in the metadata is refused. *)
Theorem C62_wrong_binning : forall b b' x0 y0 d, (0 < b)%R -> 2 <= d_rows d -> 2 <= d_cols d -> on_grid_map b x0 y0 d -> b' <> b ->
  check_data b' d = Err ValueError.
Proof.
  intros b b' x0 y0 d B Y X (LX & LY & G) N. destruct (check_error b' d) as [E|E]; auto. exfalso. apply check_iff in E as (_ & (ds & S & L) & _).
  apply N. apply (least_unique ds); auto. apply (raster_least_x b x0 (d_cols d) (d_rows d) (d_x d)); auto; try lia. intros c r C Rr. apply G; auto.
Qed.
Theorem C62_wrong_shape : forall b x0 y0 d ny nx, (0 < b)%R -> 2 <= d_rows d -> 2 <= d_cols d -> on_grid_map b x0 y0 d ->
  (ny, nx) <> (d_rows d, d_cols d) ->
  check_data b (DicData ny nx (d_x d) (d_y d) (d_u d) (d_v d)) = Err ValueError.
Proof.
  intros b x0 y0 d ny nx B Y X G N. set (e := DicData _ _ _ _ _ _). destruct (check_error b e) as [E|E]; auto. exfalso. apply check_iff in E.
  destruct E as (_ & _ & _ & S1 & S2). assert (A : check_data b d = Ok tt) by (apply (raster_accepted true b x0 y0); auto).
  apply check_iff in A as (_ & _ & _ & T1 & T2). unfold e in *. cbn [d_rows d_cols d_x d_y] in *.
  assert (U : forall n m l, span_fits b n l -> span_fits b m l -> n = m).
  { intros n m l (lo & hi & A1 & A2 & A3) (lo' & hi' & B1 & B2 & B3).
    rewrite (least_unique _ _ _ B1 A1), (largest_unique _ _ _ B2 A2) in B3.
    assert (IZR n < IZR m + 1)%R by lra. assert (IZR m < IZR n + 1)%R by lra. rewrite <- plus_IZR in *. apply lt_IZR in H, H0. lia. }
  apply N. f_equal; eapply U; eauto.
Qed.
Print Assumptions C62_wrong_shape.
Definition ex_dic : dic_data := DicData 2 3 [0; 1; 2; 0; 1; 2]%R [0; 0; 0; 1; 1; 1]%R (repeat 0%R 6) (repeat 0%R 6).
Example C62_ex : on_grid_map 1 0 0 ex_dic.
Proof.
  split; [reflexivity|]. split; [reflexivity|]. cbn [d_cols d_rows ex_dic]. intros c r C Rr.
  assert (c = 0 \/ c = 1 \/ c = 2) as K by lia. assert (r = 0 \/ r = 1) as Q by lia.
  destruct Q as [->| ->], K as [->|[->| ->]]; (split; match goal with |- at_pixel ?l ?n ?x ?y = _ => unfold at_pixel; let k := eval vm_compute in (Z.to_nat (y * n + x)) in change (Z.to_nat (y * n + x)) with k end;
    cbn [nth_error d_x d_y ex_dic]; f_equal; lra).
Qed.
(** Data that are no grid are accepted too. *)
Theorem C62_not_grid_refuted : exists d, d_rows d = 2 /\ d_cols d = 3 /\ check_data 1 d = Ok tt /\ forall b x0 y0, ~ on_grid_map b x0 y0 d.
Proof.
  exists (DicData 2 3 [0; 1; 2; 0; 1; 2]%R [0; 1; 0; 1; 1; 1]%R (repeat 0%R 6) (repeat 0%R 6)). split; auto. split; auto. split.
  - apply check_iff. cbn [d_x d_y d_rows d_cols]. split; [lra|].
    assert (A1 : (Rabs (1 - 0) = 1)%R) by (rewrite Rabs_right; lra). assert (A2 : (Rabs (2 - 1) = 1)%R) by (rewrite Rabs_right; lra).
    assert (A3 : (Rabs (0 - 2) = 2)%R) by (rewrite Rabs_left; lra). assert (A4 : (Rabs (0 - 1) = 1)%R) by (rewrite Rabs_left; lra).
    assert (A5 : (Rabs (1 - 1) = 0)%R) by (replace (1 - 1)%R with 0%R by lra; apply Rabs_R0).
    split; [|split; [|split]].
    + eexists. split; [apply abs_diffs_steps|]. cbn [abs_diffs]. rewrite A1, A2, A3. split; [now left|]. intros x I. cbn [In] in I. intuition lra.
    + eexists. split; [apply abs_diffs_steps|]. cbn [abs_diffs]. rewrite A1, A4, A5. split; [now left|]. intros x I. cbn [In] in I. intuition lra.
    + exists 0%R, 2%R. split; [split; [now left|]; intros x I; cbn [In] in I; intuition lra|]. split; [split; [cbn [In]; auto|]; intros x I; cbn [In] in I; intuition lra|]. lra.
    + exists 0%R, 1%R. split; [split; [now left|]; intros x I; cbn [In] in I; intuition lra|]. split; [split; [cbn [In]; auto|]; intros x I; cbn [In] in I; intuition lra|]. lra.
  - intros b x0 y0 (_ & _ & G). cbn [d_cols d_rows d_x d_y] in G.
    destruct (G 0 0 ltac:(lia) ltac:(lia)) as [_ G0]. destruct (G 1 0 ltac:(lia) ltac:(lia)) as [_ G1]. 
    unfold at_pixel in *. change (Z.to_nat (0 * 3 + 0)) with 0%nat in G0. change (Z.to_nat (0 * 3 + 1)) with 1%nat in G1. cbn [nth_error] in *.
    assert (0 = y0 + 0 * b)%R by congruence. assert (1 = y0 + 0 * b)%R by congruence. lra.
Qed.
Print Assumptions C62_not_grid_refuted.

(** ** C62: choice of the loader *)
Definition ebsd_types : list (string * ebsd_loader) :=
  [("oxfordbinary", OxfordBinary); ("oxfordtext", OxfordText); ("edaxang", EdaxAng); ("pythondict", PythonDict)]%string.
Definition dic_types : list (string * dic_loader) :=
  [("davis", Davis); ("openpiv", OpenPivText); ("openpivtext", OpenPivText); ("openpivbinary", OpenPivBinary); ("pyvale", PyVale)]%string.

(** A named type is accepted if it is in the table, up to case. *)
Theorem C62_ebsd_type : forall t suffix,
  (forall l, ebsd_get_loader (Some t) suffix = Ok l <-> exists name, In (name, l) ebsd_types /\ lower t = lit name) /\
  ((forall name l, In (name, l) ebsd_types -> lower t <> lit name) -> ebsd_get_loader (Some t) suffix = Err ValueError).
Proof.
  intros t suffix. unfold ebsd_get_loader. cbv zeta. generalize (lower t) as d. intros d. split.
  - intros l. split.
    + intros E. destruct (txt_eqb d (lit "oxfordbinary")) eqn:A; [apply txt_eqb_eq in A; exists "oxfordbinary"%string; split; [left; congruence|auto]|].
      destruct (txt_eqb d (lit "oxfordtext")) eqn:B; [apply txt_eqb_eq in B; exists "oxfordtext"%string; split; [right; left; congruence|auto]|].
      destruct (txt_eqb d (lit "edaxang")) eqn:C; [apply txt_eqb_eq in C; exists "edaxang"%string; split; [do 2 right; left; congruence|auto]|].
      destruct (txt_eqb d (lit "pythondict")) eqn:D; [apply txt_eqb_eq in D; exists "pythondict"%string; split; [do 3 right; left; congruence|auto]|]. discriminate.
    + intros (name & I & ->). destruct I as [I|[I|[I|[I|[]]]]]; injection I as <- <-; reflexivity.
  - intros N. rewrite !(proj2 (txt_eqb_neq _ _)); [reflexivity| | | |]; eapply N; unfold ebsd_types; cbn [In]; eauto.
Qed.
(** Without a type, the suffix decides, in lower case only; the default is the binary
    format. *)
Theorem C62_ebsd_suffix : forall suffix, ebsd_get_loader None suffix =
  Ok (if list_eq_dec ascii_dec suffix (lit ".ctf") then OxfordText
      else if list_eq_dec ascii_dec suffix (lit ".ang") then EdaxAng else OxfordBinary).
Proof.
  intros s. destruct (list_eq_dec ascii_dec s (lit ".ctf")) as [->|A]; [reflexivity|].
  destruct (list_eq_dec ascii_dec s (lit ".ang")) as [->|B]; [reflexivity|].
  unfold ebsd_get_loader. cbv zeta. destruct (txt_eqb s (lit ".crc")); [reflexivity|]. destruct (txt_eqb s (lit ".cpr")); [reflexivity|].
  rewrite (proj2 (txt_eqb_neq _ _) A), (proj2 (txt_eqb_neq _ _) B). reflexivity.
Qed.
Example C62_suffix_case : ebsd_get_loader None (lit ".CTF") = Ok OxfordBinary.
Proof. reflexivity. Qed.

(** The DIC type: a name of the table up to case, optionally '-' and a file type. *)
Definition file_type_of (rest sub : txt) : Prop :=
  (rest = [] /\ sub = []) \/
  (~ In "-"%char sub /\ (rest = "-"%char :: sub \/ exists more, rest = "-"%char :: sub ++ "-"%char :: more)).
Lemma cut_dash t : exists h rest, t = h ++ rest /\ ~ In "-"%char h /\ (rest = [] \/ exists m, rest = "-"%char :: m).
Proof.
  induction t as [|a t (h & rest & -> & N & E)]; [exists [], []; auto|].
  destruct (ascii_dec a "-") as [->|NE].
  - exists [], ("-"%char :: h ++ rest). split; auto. split; [intros []|right; eauto].
  - exists (a :: h), rest. split; auto. split; auto. intros [I|I]; [congruence|auto].
Qed.
Theorem C62_dic_type : forall t l sub, dic_get_loader (Some t) = Ok (l, sub) <->
  exists name rest, In (name, l) dic_types /\ lower t = lit name ++ rest /\ file_type_of rest sub.
Proof.
  intros t l sub. unfold dic_get_loader. cbv zeta. generalize (lower t) as d. intros d.
  assert (NT : forall name l, In (name, l) dic_types -> ~ In "-"%char (lit name)).
  { intros name l' I J. repeat (destruct I as [I|I]; [injection I as <- <-; cbn in J; repeat (destruct J as [J|J]; [discriminate|]); destruct J|]). destruct I. }
  assert (TAB : forall h s, (if txt_eqb h (lit "davis") then Ok (Davis, s) else if txt_eqb h (lit "openpiv") then Ok (OpenPivText, s)
     else if txt_eqb h (lit "openpivtext") then Ok (OpenPivText, s) else if txt_eqb h (lit "openpivbinary") then Ok (OpenPivBinary, s)
     else if txt_eqb h (lit "pyvale") then Ok (PyVale, s) else Err ValueError) = Ok (l, sub) <->
     s = sub /\ exists name, In (name, l) dic_types /\ h = lit name).
  { intros h s. split.
    - intros E.
      destruct (txt_eqb h (lit "davis")) eqn:A; [apply txt_eqb_eq in A; split; [congruence|]; exists "davis"%string; split; [left; congruence|auto]|]. clear A.
      destruct (txt_eqb h (lit "openpiv")) eqn:A; [apply txt_eqb_eq in A; split; [congruence|]; exists "openpiv"%string; split; [right; left; congruence|auto]|]. clear A.
      destruct (txt_eqb h (lit "openpivtext")) eqn:A; [apply txt_eqb_eq in A; split; [congruence|]; exists "openpivtext"%string; split; [do 2 right; left; congruence|auto]|]. clear A.
      destruct (txt_eqb h (lit "openpivbinary")) eqn:A; [apply txt_eqb_eq in A; split; [congruence|]; exists "openpivbinary"%string; split; [do 3 right; left; congruence|auto]|]. clear A.
      destruct (txt_eqb h (lit "pyvale")) eqn:A; [apply txt_eqb_eq in A; split; [congruence|]; exists "pyvale"%string; split; [do 4 right; left; congruence|auto]|]. discriminate.
    - intros (-> & name & I & ->). destruct I as [I|[I|[I|[I|[I|[]]]]]]; injection I as <- <-; reflexivity. }
  destruct (cut_dash d) as (h & rest & -> & NH & [->|(m & ->)]).
  - rewrite app_nil_r, split_on_free by auto. cbn [List.length Nat.eqb bind item nth_error]. change (item [h] 0) with (Ok h). cbn [bind]. rewrite TAB. split.
    + intros (<- & name & I & ->). exists name, []. split; auto. split; [now rewrite app_nil_r|]. left; auto.
    + intros (name & rest & I & E & FT). destruct FT as [[-> ->]|(_ & [->|(more & ->)])].
      * split; auto. exists name. rewrite app_nil_r in E. auto.
      * exfalso. apply NH. rewrite E. apply in_or_app. right. now left.
      * exfalso. apply NH. rewrite E. apply in_or_app. right. now left.
  - rewrite split_on_app by auto. destruct (cut_dash m) as (s & r & -> & NS & RR).
    assert (SP : exists q, split_on "-" (s ++ r) = s :: q).
    { destruct RR as [->|(m' & ->)]; [rewrite app_nil_r, split_on_free by auto; eauto|rewrite split_on_app by auto; eauto]. }
    destruct SP as (q & SP). rewrite SP. cbn [List.length Nat.eqb]. change (item (h :: s :: q) 1) with (Ok s). cbn [bind].
    change (item (h :: s :: q) 0) with (Ok h). cbn [bind]. rewrite TAB. split.
    + intros (<- & name & I & ->). exists name, ("-"%char :: s ++ r). split; auto. split; auto. right. split; auto.
      destruct RR as [->|(m' & ->)]; [left; now rewrite app_nil_r|right; eauto].
    + intros (name & rest & I & E & FT).
      assert (HE : forall a b c d : txt, ~ In "-"%char a -> ~ In "-"%char c -> a ++ "-"%char :: b = c ++ "-"%char :: d -> a = c /\ b = d).
      { induction a as [|x a IH]; intros b c dd NA NC EQ.
        - destruct c as [|y c]; [cbn [app] in EQ; split; congruence|]. exfalso. apply NC. left. cbn [app] in EQ. congruence.
        - destruct c as [|y c]; [exfalso; apply NA; left; cbn [app] in EQ; congruence|]. cbn [app] in EQ. injection EQ as -> EQ.
          destruct (IH b c dd) as [-> ->]; auto; intros J; [apply NA|apply NC]; now right. }
      destruct FT as [[-> ->]|(NSUB & [->|(more & ->)])].
      * exfalso. apply (NT name l I). rewrite app_nil_r in E. rewrite <- E. apply in_or_app. right. now left.
      * apply HE in E as [-> E]; auto; [|eapply NT; eauto]. assert (s = sub /\ r = []) as [-> ->].
        { destruct RR as [->|(m' & ->)]; [rewrite app_nil_r in E; auto|]. exfalso. apply NSUB. rewrite <- E. apply in_or_app. right. now left. }
        split; auto. exists name. auto.
      * apply HE in E as [-> E]; auto; [|eapply NT; eauto]. assert (s = sub) as ->.
        { destruct RR as [->|(m' & ->)]; [|apply HE in E as [-> _]; auto]. exfalso. apply NS. rewrite app_nil_r in E. rewrite E. apply in_or_app. right. now left. }
        split; auto. exists name. auto.
Qed.
Print Assumptions C62_dic_type.
Theorem C62_dic_other : forall t e, dic_get_loader t = Err e -> e = ValueError.
Proof.
  intros t e. unfold dic_get_loader. cbv zeta. destruct (split_on "-" _) as [|h q] eqn:SP; [exfalso; eapply split_ne; exact SP|].
  change (item (h :: q) 0) with (Ok h).
  assert (SUB : exists s, (if (List.length (h :: q) =? 1)%nat then Ok [] else item (h :: q) 1) = Ok s).
  { destruct q as [|s q]; cbn [List.length Nat.eqb]; [eauto|]. exists s. reflexivity. }
  destruct SUB as (s & ->). cbn [bind]. repeat (destruct (txt_eqb h _); [discriminate|]). congruence.
Qed.
Theorem C62_dic_default : dic_get_loader None = Ok (Davis, []).
Proof. reflexivity. Qed.
Example C62_dic_ex : dic_get_loader (Some (lit "PyVale-CSV")) = Ok (PyVale, lit "csv") /\ dic_get_loader (Some (lit "OpenPIV")) = Ok (OpenPivText, []).
Proof. split; reflexivity. Qed.
