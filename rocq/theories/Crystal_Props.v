(** Crystallography: properties C31 to C39 and C75.  Models of
    defdap/crystal_utils.py, defdap/crystal.py and the shipped tables are in
    [Crystal_Model]; the vocabulary ([coprime], [collinear], [up_to_sign],
    [has_metric], [admissible], ...) is in [Crystal_Spec]. *)
From Coq Require Import String Reals ZArith Lra Lia Permutation.
From Coq Require Import List.
From Verif Require Import Py Quat_Model Quat_Spec Quat_Proofs QuatSym_Proofs
  Crystal_Model Crystal_Spec Crystal_Proofs CrystalMat_Proofs SlipSys_Proofs
  CrystalData_Proofs CrystalFamily_Proofs.
Import ListNotations.
Open Scope string_scope.
Open Scope list_scope.
Open Scope R_scope.

(** ** C31: index conversions *)

(** Scalar product of two lists of reals. *)
Fixpoint rdot (l m : list R) : R :=
  match l, m with
  | x :: l', y :: m' => x * y + rdot l' m'
  | _, _ => 0
  end.

(** Planes, any integers or reals, both ways. *)
Theorem C31_plane_round_trip : forall p h k l, arr_R p = [h; k; l] ->
  exists four back, convert_idc "m" None (Some p) = Ok four /\
    convert_idc "mb" None (Some four) = Ok back /\
    arr_R back = [h; k; l] /\
    exists i, arr_R four = [h; k; i; l] /\ h + k + i = 0.
Proof.
  intros p h k l H. destruct (convert_m_plane "m" p h k l eq_refl H) as (four & E & F).
  destruct (convert_mb_plane "mb" four _ _ _ _ eq_refl F) as (back & E' & F').
  exists four, back. split; [auto|]. split; [auto|]. split; [auto|]. eexists; split; [exact F|]. ring.
Qed.
Print Assumptions C31_plane_round_trip.
Theorem C31_plane_round_trip_back : forall p h k i l, arr_R p = [h; k; i; l] -> h + k + i = 0 ->
  exists three back, convert_idc "mb" None (Some p) = Ok three /\
    convert_idc "m" None (Some three) = Ok back /\ arr_R back = [h; k; i; l].
Proof.
  intros p h k i l H Hr. destruct (convert_mb_plane "mb" p h k i l eq_refl H) as (t & E & F).
  destruct (convert_m_plane "m" t h k l eq_refl F) as (back & E' & F').
  exists t, back. split; [auto|]. split; [auto|]. rewrite F'. do 2 f_equal. f_equal. lra.
Qed.
Print Assumptions C31_plane_round_trip_back.
Example C31_plane_example : arr_R (IntArr [1; 0; 2]%Z) = [1; 0; 2] /\
  arr_R (FltArr [1/2; 1/3; -5/6; 4]) = [1/2; 1/3; -5/6; 4] /\ 1/2 + 1/3 + -5/6 = 0.
Proof. split; [reflexivity|]. split; [reflexivity|lra]. Qed.

(** Directions: three integers within +-127.  The result is exact whether or not
    it could be cast to integers. *)
Theorem C31_direction_round_trip_partial : forall u v w,
  within 127 [u; v; w] ->
  exists four back, convert_idc "m" (Some (IntArr [u; v; w])) None = Ok four /\
    convert_idc "mb" (Some four) None = Ok back /\
    arr_R back = [IZR u; IZR v; IZR w] /\
    exists a b t c, arr_R four = [a; b; t; c] /\ a + b + t = 0.
Proof.
  intros u v w W.
  destruct (convert_m_dir_int "m" u v w eq_refl) as (four & E & F); try (apply W; cbn; auto).
  destruct (convert_mb_dir "mb" four _ _ _ _ eq_refl F) as (back & E' & F').
  exists four, back. split; [auto|]. split; [auto|]. split.
  - rewrite F'. repeat (f_equal; try field).
  - do 4 eexists; split; [exact F|]. field.
Qed.
Print Assumptions C31_direction_round_trip_partial.
(** Four integers with the redundant third index. *)
Theorem C31_direction_round_trip_back_partial : forall u v t w,
  (u + v + t = 0)%Z -> fits8 [u; v; t; w] ->
  exists three, convert_idc "mb" (Some (IntArr [u; v; t; w])) None = Ok three /\
    convert_idc "m" (Some three) None = Ok (IntArr [u; v; t; w]).
Proof.
  intros u v t w H F. destruct (convert_mb_m_dir_int u v t w H F) as (m & A & -> & B).
  eexists; split; [exact A|exact B].
Qed.
Print Assumptions C31_direction_round_trip_back_partial.
(** Real directions whose converted indices are not all near integers. *)
Theorem C31_direction_real_partial : forall u v w,
  (exists x, In x [(2 * u - v) / 3; (2 * v - u) / 3; (- u - v) / 3; w] /\
     forall z, 1 / 1000 < Rabs (x - IZR z)) ->
  exists four back, convert_idc "m" (Some (FltArr [u; v; w])) None = Ok four /\
    convert_idc "mb" (Some four) None = Ok back /\ arr_R back = [u; v; w] /\
    exists a b t c, arr_R four = [a; b; t; c] /\ a + b + t = 0.
Proof.
  intros u v w H. pose proof (convert_m_dir_far "m" u v w eq_refl H) as E.
  destruct (convert_mb_dir "mb" (FltArr (thirds u v w)) _ _ _ _ eq_refl eq_refl) as (back & E' & F').
  eexists; exists back. split; [exact E|]. split; [auto|]. split.
  - rewrite F'. repeat (f_equal; try field).
  - do 4 eexists; split; [reflexivity|]. field.
Qed.
Print Assumptions C31_direction_real_partial.
(** The scalar product of a plane and a direction is the same in both systems. *)
Theorem C31_scalar_product_partial : forall p h k l u v w, arr_R p = [h; k; l] ->
  within 127 [u; v; w] ->
  exists p4 d4, convert_idc "m" None (Some p) = Ok p4 /\
    convert_idc "m" (Some (IntArr [u; v; w])) None = Ok d4 /\
    rdot (arr_R p4) (arr_R d4) = rdot [h; k; l] [IZR u; IZR v; IZR w].
Proof.
  intros p h k l u v w H W. destruct (convert_m_plane "m" p h k l eq_refl H) as (p4 & E & F).
  destruct (convert_m_dir_int "m" u v w eq_refl) as (d4 & E' & F'); try (apply W; cbn; auto).
  exists p4, d4. split; [auto|]. split; [auto|]. rewrite F, F'. unfold thirds, rdot. field.
Qed.
Print Assumptions C31_scalar_product_partial.
Example C31_direction_example :
  within 127 [3; -1; 2]%Z /\ (1 + 1 + -2 = 0)%Z /\ fits8 [1; 1; -2; 3]%Z /\
  (exists x, In x [(2 * (1/2) - 0) / 3; (2 * 0 - 1/2) / 3; (- (1/2) - 0) / 3; 0] /\
     forall z, 1 / 1000 < Rabs (x - IZR z)).
Proof.
  split; [intros x [<-|[<-|[<-|[]]]]; lia|]. split; [lia|].
  split; [intros x [<-|[<-|[<-|[<-|[]]]]]; lia|].
  exists ((2 * (1/2) - 0) / 3). split; [left; auto|]. intros z.
  assert (H : (z <= 0 \/ 1 <= z)%Z) by lia. destruct H as [H|H]; apply IZR_le in H.
  - rewrite Rabs_right; lra.
  - rewrite Rabs_left; lra.
Qed.

(** Finding: the cast is to 8-bit integers, so larger indices wrap ... *)
Theorem C31_int8_wrap_refuted :
  convert_idc "m" (Some (IntArr [300; 0; 0]%Z)) None = Ok (IntArr [-56; -100; -100; 0]%Z).
Proof.
  unfold convert_idc. change (String.eqb (lower "m") "m") with true. cbn [arr_R map].
  replace [(2 * 300 - 0) / 3; (2 * 0 - 300) / 3; (Ropp 300 - 0) / 3; 3 * 0 / 3]
    with (map IZR [200; -100; -100; 0]%Z) by (cbn [map]; repeat (f_equal; try field)).
  rewrite safe_cast_ints. reflexivity.
Qed.
Print Assumptions C31_int8_wrap_refuted.
(** ... and real directions with all indices within 1/1000 of integers are
    rounded, here a non-zero direction to the zero direction. *)
Theorem C31_rounded_refuted :
  convert_idc "m" (Some (FltArr [1 / 1000; 0; 0])) None = Ok (IntArr [0; 0; 0; 0]%Z).
Proof.
  unfold convert_idc. change (String.eqb (lower "m") "m") with true. cbn [arr_R].
  rewrite (safe_cast_near _ [0; 0; 0; 0]%Z); [reflexivity|].
  repeat (apply Forall2_cons; [apply Rabs_le; lra|]). apply Forall2_nil.
Qed.
Print Assumptions C31_rounded_refuted.

(** ** C32: lattice matrices *)

(** The reciprocal matrix is the inverse transpose of every right-handed matrix. *)
Theorem C32_dual : forall l, 0 < det l ->
  exists q, create_q_matrix l = Ok q /\
    mprod (transpose q) l = mone /\ mprod l (transpose q) = mone.
Proof.
  intros l H. destruct (q_matrix_spec l) as (q & E & D & _); [lra|].
  exists q. split; [auto|]. apply D; auto.
Qed.
Print Assumptions C32_dual.
Example C32_dual_example : 0 < det (M3 (V3 2 1 0) (V3 0 3 1) (V3 1 0 1)).
Proof. munf. lra. Qed.

(** For a cell that exists in space and no entry of whose matrix is below the
    threshold 1e-10 at which the code writes 0: the matrices exist and are dual
    in every convention, and the lengths and angles are those given in the TSL
    convention. *)
Theorem C32_cell_dual_partial : forall a b c al be ga conv,
  admissible a b c al be ga ->
  (forall x, In x (raw_entries a b c al be ga) -> not_tiny x) ->
  known_conv conv ->
  exists l q, create_l_matrix a b c al be ga conv = Ok l /\ create_q_matrix l = Ok q /\
    mprod (transpose q) l = mone /\ mprod l (transpose q) = mone.
Proof.
  intros a b c al be ga conv A T K. destruct K as [K|[K|K]].
  - rewrite (l_matrix_hkl a b c al be ga conv) by auto.
    destruct (C32_dual _ (hkl_det a b c al be ga A)) as (q & E & D). eexists; exists q; eauto.
  - rewrite (l_matrix_hkl a b c al be ga conv) by auto.
    destruct (C32_dual _ (hkl_det a b c al be ga A)) as (q & E & D). eexists; exists q; eauto.
  - rewrite (l_matrix_tsl a b c al be ga conv) by auto.
    destruct (C32_dual _ (tsl_det a b c al be ga A)) as (q & E & D). eexists; exists q; eauto.
Qed.
Print Assumptions C32_cell_dual_partial.
Theorem C32_cell_tsl_partial : forall a b c al be ga conv,
  admissible a b c al be ga ->
  (forall x, In x (raw_entries a b c al be ga) -> not_tiny x) ->
  lower conv = "tsl" ->
  exists l, create_l_matrix a b c al be ga conv = Ok l /\ has_metric l a b c al be ga.
Proof.
  intros a b c al be ga conv A T K. eexists; split; [apply l_matrix_tsl; auto|]. apply tsl_metric; auto.
Qed.
Print Assumptions C32_cell_tsl_partial.
(** In the HKL convention the lengths and angles are those given if the first two
    lengths agree and one of the two right angle conditions holds (cubic,
    tetragonal and hexagonal cells). *)
Theorem C32_cell_hkl_partial : forall a b c al be ga conv,
  admissible a b c al be ga ->
  (forall x, In x (raw_entries a b c al be ga) -> not_tiny x) ->
  lower conv = "hkl" \/ lower conv = "oi" ->
  a = b -> ga = PI / 2 \/ (al = PI / 2 /\ be = PI / 2) ->
  exists l, create_l_matrix a b c al be ga conv = Ok l /\ has_metric l a b c al be ga.
Proof.
  intros a b c al be ga conv A T K E G. eexists; split; [apply l_matrix_hkl; auto|]. apply hkl_metric; auto.
Qed.
Print Assumptions C32_cell_hkl_partial.
(** The cell of a hexagonal crystal with c/a = 1.6 meets the hypotheses. *)
Example C32_cell_example : admissible 1 1 (16/10) (PI / 2) (PI / 2) (PI * 2 / 3) /\
  (forall x, In x (raw_entries 1 1 (16/10) (PI / 2) (PI / 2) (PI * 2 / 3)) -> not_tiny x) /\
  lower "TSL" = "tsl" /\ lower "HKL" = "hkl".
Proof.
  split.
  - unfold admissible. rewrite cos_PI2, cos23. pose proof PI_RGT_0. repeat split; lra.
  - split; [apply hex_raw_tiny; lra|]. split; reflexivity.
Qed.

(** Orthorhombic cells: with a = 1, b = 2 the HKL matrix has the two lengths
    exchanged. *)
Lemma ortho_raw : forall x, In x (raw_entries 1 2 1 (PI / 2) (PI / 2) (PI / 2)) -> not_tiny x.
Proof.
  intros x. unfold raw_entries. rewrite cos_PI2, sin_PI2.
  replace (1 + 2 * 0 * 0 * 0 - 0 ^ 2 - 0 ^ 2 - 0 ^ 2) with 1 by ring. rewrite sqrt_1.
  intros [<-|[<-|[<-|[<-|[<-|[<-|[]]]]]]]; first [left; lra | right; rewrite Rabs_right; lra].
Qed.
Theorem C32_hkl_lengths_refuted :
  admissible 1 2 1 (PI / 2) (PI / 2) (PI / 2) /\
  exists l, create_l_matrix 1 2 1 (PI / 2) (PI / 2) (PI / 2) "hkl" = Ok l /\
    sprod (col0 l) (col0 l) = 2 * 2 /\ sprod (col1 l) (col1 l) = 1 * 1 /\
    ~ has_metric l 1 2 1 (PI / 2) (PI / 2) (PI / 2).
Proof.
  split.
  { unfold admissible. rewrite cos_PI2. pose proof PI_RGT_0. repeat split; lra. }
  eexists; split; [apply l_matrix_hkl; [left; reflexivity|exact ortho_raw]|].
  rewrite cos_PI2, sin_PI2.
  split; [munf; ring|]. split; [munf; ring|].
  intros (H & _). revert H. munf. lra.
Qed.
Print Assumptions C32_hkl_lengths_refuted.
(** Lengths below 1e-10 (a cell in metres) are replaced by 0: no reciprocal cell. *)
Theorem C32_small_cell_refuted : forall a, 0 < a < 1 / 10 ^ 10 ->
  admissible a a a (PI / 2) (PI / 2) (PI / 2) /\
  exists l, create_l_matrix a a a (PI / 2) (PI / 2) (PI / 2) "tsl" = Ok l /\
    create_q_matrix l = Err ZeroDivisionError.
Proof.
  intros a Ha. split.
  { unfold admissible. rewrite cos_PI2. pose proof PI_RGT_0. repeat split; lra. }
  eexists; split; [reflexivity|]. apply q_matrix_singular.
  rewrite cos_PI2, sin_PI2. unfold clear_row. cbn [vx vy vz r0 r1 r2].
  assert (C : clear_small a = 0).
  { unfold clear_small. destruct (Rlt_dec (Rabs a) (1 / 10 ^ 10)) as [|N]; auto.
    exfalso. apply N. rewrite Rabs_right; lra. }
  rewrite C, (clear_small_id 0) by (left; auto). munf. ring.
Qed.
Print Assumptions C32_small_cell_refuted.
Example C32_small_cell_example : 0 < 1 / 10 ^ 11 < 1 / 10 ^ 10. Proof. lra. Qed.
Theorem C32_unknown_convention : forall a b c al be ga conv, ~ known_conv conv ->
  create_l_matrix a b c al be ga conv = Err ValueError.
Proof.
  intros a b c al be ga conv K. apply l_matrix_unknown; intros E; apply K; unfold known_conv; auto.
Qed.
Print Assumptions C32_unknown_convention.
Example C32_unknown_example : ~ known_conv "edax".
Proof. intros [H|[H|H]]; discriminate H. Qed.

(** ** C33: reduced and positive indices *)

(** Every non-zero vector is a positive multiple of a coprime one ... *)
Theorem C33_reduced_form_exists : forall l, nonzero l ->
  exists g r, (0 < g)%Z /\ l = scaled g r /\ coprime r.
Proof. exact reduced_exists. Qed.
Print Assumptions C33_reduced_form_exists.
(** ... and the reduction finds that one, if its entries fit in 8 bits. *)
Theorem C33_reduce_partial : forall g r, (0 < g)%Z -> coprime r -> fits8 r ->
  reduce_idc (IntArr (scaled g r)) = Ok r.
Proof. exact reduce_scaled. Qed.
Print Assumptions C33_reduce_partial.
Theorem C33_reduce_idempotent_partial : forall g r, (0 < g)%Z -> coprime r -> fits8 r ->
  exists r1, reduce_idc (IntArr (scaled g r)) = Ok r1 /\ reduce_idc (IntArr r1) = Ok r1.
Proof.
  intros g r Hg C F. exists r. split; [apply reduce_scaled; auto|].
  rewrite <- (reduce_scaled 1 r) by (auto; lia). rewrite scaled_1. reflexivity.
Qed.
Print Assumptions C33_reduce_idempotent_partial.
Example C33_example : coprime [1; 0; -2]%Z /\ fits8 [1; 0; -2]%Z /\
  scaled 300 [1; 0; -2]%Z = [300; 0; -600]%Z.
Proof.
  split; [intros d H; apply H; cbn; auto|]. split; [intros x [<-|[<-|[<-|[]]]]; lia|reflexivity].
Qed.
Theorem C33_zero_rejected : forall l, ~ nonzero l ->
  reduce_idc (IntArr l) = Err ZeroDivisionError /\ pos_idc l = None.
Proof. intros l H. exact (conj (reduce_zero l H) (pos_zero l H)). Qed.
Print Assumptions C33_zero_rejected.
Example C33_zero_example : ~ nonzero [0; 0; 0]%Z.
Proof. intros (x & [<-|[<-|[<-|[]]]] & H); apply H; auto. Qed.
Theorem C33_int8_wrap_refuted :
  coprime [200; 1; 0]%Z /\ reduce_idc (IntArr [200; 1; 0]%Z) = Ok [-56; 1; 0]%Z.
Proof. split; [intros d H; apply H; cbn; auto|reflexivity]. Qed.
Print Assumptions C33_int8_wrap_refuted.

Theorem C33_positive : forall l, nonzero l ->
  exists r, pos_idc l = Some r /\ up_to_sign r l /\ leading_positive r /\ pos_idc r = Some r.
Proof.
  intros l H. destruct (pos_spec l H) as (r & A & B & C). exists r.
  split; [auto|]. split; [auto|]. split; [auto|]. eapply pos_idem; eauto.
Qed.
Print Assumptions C33_positive.
Theorem C33_positive_same_iff : forall l m, nonzero l -> nonzero m ->
  (pos_idc l = pos_idc m <-> up_to_sign l m).
Proof. exact pos_eq_iff. Qed.
Print Assumptions C33_positive_same_iff.
(** Both steps together give the same indices exactly for collinear vectors. *)
Theorem C33_canonical_partial : forall g r h s, (0 < g)%Z -> (0 < h)%Z ->
  coprime r -> coprime s -> fits8 r -> fits8 s -> nonzero r -> nonzero s ->
  exists r1 s1, reduce_idc (IntArr (scaled g r)) = Ok r1 /\ reduce_idc (IntArr (scaled h s)) = Ok s1 /\
    (pos_idc r1 = pos_idc s1 <-> collinear (scaled g r) (scaled h s)).
Proof.
  intros g r h s Hg Hh Cr Cs Fr Fs Nr Ns. exists r, s.
  split; [apply reduce_scaled; auto|]. split; [apply reduce_scaled; auto|].
  rewrite pos_eq_iff by auto. symmetry. apply collinear_reduced; auto.
Qed.
Print Assumptions C33_canonical_partial.
Example C33_canonical_example : nonzero [0; -1; 2]%Z /\ coprime [0; -1; 2]%Z /\ fits8 [0; -1; 2]%Z.
Proof.
  split; [exists (-1)%Z; split; [cbn; auto|lia]|].
  split; [intros d H; apply Z.divide_opp_r; apply H; cbn; auto|intros x [<-|[<-|[<-|[]]]]; lia].
Qed.

(** ** C34, C75: slip systems and the shipped files *)

(** Directions lie in their planes exactly when the indices say so. *)
Theorem C34_cubic_vectors : forall conv p d ca s, mk_slip_system conv p d "cubic" ca = Ok s ->
  unitv (slip_plane s) /\ unitv (slip_dir s) /\
  (sprod (slip_plane s) (slip_dir s) = 0 <-> idot p d = 0%Z).
Proof. intros conv p d ca s. exact (cubic_vectors conv ca p d s). Qed.
Print Assumptions C34_cubic_vectors.
Theorem C34_hexagonal_vectors : forall conv ca h k i m d s,
  known_conv conv -> 1 / 10 ^ 10 <= ca -> (h + k + i = 0)%Z ->
  mk_slip_system conv [h; k; i; m] d "hexagonal" (Some ca) = Ok s ->
  unitv (slip_plane s) /\ unitv (slip_dir s) /\
  (sprod (slip_plane s) (slip_dir s) = 0 <-> idot [h; k; i; m] d = 0%Z).
Proof. exact hex_vectors. Qed.
Print Assumptions C34_hexagonal_vectors.
Example C34_constructed : exists s t,
  mk_slip_system "hkl" [1; 1; 1]%Z [0; 1; -1]%Z "cubic" None = Ok s /\
  mk_slip_system "tsl" [1; 0; -1; 1]%Z [-1; -1; 2; 3]%Z "hexagonal" (Some (16/10)) = Ok t.
Proof.
  destruct (hex_matrices_spec (16/10) "tsl") as (l & q & HM & _ & HD & _);
    [right; right; reflexivity|lra|].
  eexists; eexists; split; [apply mk_cubic; apply zero_listb_false; reflexivity|].
  apply (mk_hex _ _ l q); auto; apply zero_listb_false; reflexivity.
Qed.

(** Loading a shipped cubic file, other than cubic_bcc: one system per row, each
    with the direction in the plane. *)
Theorem C34_cubic_files_partial : forall conv name f,
  In name ["cubic_fcc"; "cubic_fcc_damask"; "cubic_bcc_110only"] ->
  shipped name = Some f ->
  exists gs, load conv f "cubic" None = Ok (gs, ss_colours f) /\
    length (concat gs) = length (ss_rows f) /\
    forall g s, In g gs -> In s g -> in_plane s.
Proof.
  intros conv name f Hn Hs.
  assert (X : (2 <= length (ss_rows f))%nat /\ forallb cubic_row_ok (ss_rows f) = true /\
              rows_orth 3 (ss_rows f) = true).
  { destruct Hn as [<-|[<-|[<-|[]]]]; injection Hs as <-; repeat split; vm_compute; auto; lia. }
  destruct X as (A & B & C).
  destruct (cubic_file conv f A B) as (gs & E & L & _ & Bu & _).
  exists gs. split; [auto|]. split; [auto|]. intros g s Hg Hx.
  apply (cubic_file_orth conv f gs C Bu). apply in_concat. eauto.
Qed.
Print Assumptions C34_cubic_files_partial.
Theorem C34_hexagonal_files : forall conv ca name f, known_conv conv -> 1 / 10 ^ 10 <= ca ->
  In name ["hexagonal_noca"; "hexagonal_withca"] -> shipped name = Some f ->
  exists gs, load conv f "hexagonal" (Some ca) = Ok (gs, ss_colours f) /\
    length (concat gs) = length (ss_rows f) /\
    forall g s, In g gs -> In s g -> in_plane s.
Proof.
  intros conv ca name f Hc Hca Hn Hs.
  assert (X : (2 <= length (ss_rows f))%nat /\ forallb hex_row_ok (ss_rows f) = true /\
              rows_orth 4 (ss_rows f) = true).
  { destruct Hn as [<-|[<-|[]]]; injection Hs as <-; repeat split; vm_compute; auto; lia. }
  destruct X as (A & B & C).
  destruct (hex_file conv ca f Hc Hca A B) as (gs & E & L & _ & Bu & _).
  exists gs. split; [auto|]. split; [auto|]. intros g s Hg Hx.
  apply (hex_file_orth conv ca f gs Hc Hca B C Bu). apply in_concat. eauto.
Qed.
Print Assumptions C34_hexagonal_files.
Example C34_files_example : shipped "cubic_fcc" = Some file_cubic_fcc /\
  shipped "hexagonal_withca" = Some file_hexagonal_withca /\ known_conv "hkl" /\
  1 / 10 ^ 10 <= 1593 / 1000.
Proof. split; [reflexivity|]. split; [reflexivity|]. split; [left; reflexivity|lra]. Qed.

(** Finding: cubic_bcc.txt, the default for BCC, has rows whose direction is not
    in the plane. *)
Theorem C34_cubic_bcc_refuted : forall conv, exists gs s,
  load conv file_cubic_bcc "cubic" None = Ok (gs, ss_colours file_cubic_bcc) /\
  In s (concat gs) /\ plane_idc s = [1; 2; 3]%Z /\ dir_idc s = [1; 1; 1]%Z /\
  sprod (slip_plane s) (slip_dir s) <> 0.
Proof.
  intros conv. destruct (cubic_file conv file_cubic_bcc) as (gs & E & _ & _ & _ & Row & _);
    [vm_compute; lia|vm_compute; auto|].
  destruct (Row [1; 2; 3; 1; 1; 1]%Z) as (s & Hs & M); [vm_compute; tauto|].
  exists gs, s. split; [auto|]. split; [auto|].
  pose proof (mk_nonzero _ _ _ _ _ _ M) as (A & B & _). split; [exact A|]. split; [exact B|].
  apply cubic_vectors in M as (_ & _ & M). intros O. apply M in O. discriminate O.
Qed.
Print Assumptions C34_cubic_bcc_refuted.

(** C75: the systems of a file are pairwise different and there is a colour for
    every group. *)
Theorem C75_distinct_and_coloured_partial : forall conv ca name f, known_conv conv -> 1 / 10 ^ 10 <= ca ->
  shipped name = Some f ->
  (In name ["cubic_fcc"; "cubic_fcc_damask"] ->
   exists gs, load conv f "cubic" None = Ok (gs, ss_colours f) /\
     length gs = length (ss_colours f) /\
     ForallOrdPairs (fun a b => ~ same_system a b) (concat gs)) /\
  (In name ["hexagonal_noca"; "hexagonal_withca"] ->
   exists gs, load conv f "hexagonal" (Some ca) = Ok (gs, ss_colours f) /\
     length gs = length (ss_colours f) /\
     ForallOrdPairs (fun a b => ~ same_system a b) (concat gs)).
Proof.
  intros conv ca name f Hc Hca Hs. split; intros Hn.
  - assert (X : (2 <= length (ss_rows f))%nat /\ forallb cubic_row_ok (ss_rows f) = true /\
              pairwiseb (row_differ 3) (ss_rows f) = true /\
              length (zgroups (map (row_plane 3) (ss_rows f))) = length (ss_colours f)).
    { destruct Hn as [<-|[<-|[]]]; injection Hs as <-; repeat split; vm_compute; auto; lia. }
    destruct X as (A & B & C & D).
    destruct (cubic_file conv f A B) as (gs & E & _ & L & _ & _ & P).
    exists gs. split; [auto|]. split; [congruence|auto].
  - assert (X : (2 <= length (ss_rows f))%nat /\ forallb hex_row_ok (ss_rows f) = true /\
              pairwiseb (row_differ 4) (ss_rows f) = true /\
              length (zgroups (map (row_plane 4) (ss_rows f))) = length (ss_colours f)).
    { destruct Hn as [<-|[<-|[]]]; injection Hs as <-; repeat split; vm_compute; auto; lia. }
    destruct X as (A & B & C & D).
    destruct (hex_file conv ca f Hc Hca A B) as (gs & E & _ & L & _ & P).
    exists gs. split; [auto|]. split; [congruence|auto].
Qed.
Print Assumptions C75_distinct_and_coloured_partial.
Theorem C75_bcc_110only_colours_refuted : forall conv, exists gs,
  load conv file_cubic_bcc_110only "cubic" None = Ok (gs, ss_colours file_cubic_bcc_110only) /\
  length gs = 6%nat /\ length (ss_colours file_cubic_bcc_110only) = 4%nat /\
  ForallOrdPairs (fun a b => ~ same_system a b) (concat gs).
Proof.
  intros conv. destruct (cubic_file conv file_cubic_bcc_110only) as (gs & E & _ & L & _ & _ & P);
    [vm_compute; lia|vm_compute; auto|].
  exists gs. split; [auto|]. split; [rewrite L; reflexivity|]. split; [reflexivity|].
  apply P. vm_compute. reflexivity.
Qed.
Print Assumptions C75_bcc_110only_colours_refuted.
(** cubic_bcc.txt: twelve colours for more groups, and (3 1 2)[1 1 1] twice. *)
Theorem C75_bcc_refuted : forall conv, exists gs,
  load conv file_cubic_bcc "cubic" None = Ok (gs, ss_colours file_cubic_bcc) /\
  (length (ss_colours file_cubic_bcc) < length gs)%nat /\
  ~ ForallOrdPairs (fun a b => ~ same_system a b) (concat gs).
Proof.
  intros conv. destruct (cubic_load conv file_cubic_bcc) as (ss & gs & E & G & F);
    [vm_compute; lia|vm_compute; auto|].
  exists gs. split; [auto|]. split.
  { pose proof (group_planes _ _ G) as X. apply Forall2_planes in F as [F _]. rewrite F in X.
    apply (f_equal (@length _)) in X. rewrite map_length in X. rewrite X. vm_compute. lia. }
  intros D. pose proof (proj2 (group_by_plane_spec _ _ G)) as [P _].
  eapply FOP_perm in D; [|clear; intros a b N [X Y]; apply N; split; apply up_to_sign_sym; auto|exact P].
  pose proof (Forall2_planes _ _ _ _ _ _ F) as [PL DL].
  assert (Q : ForallOrdPairs (fun a b : list Z * list Z => ~ (up_to_sign (fst a) (fst b) /\ up_to_sign (snd a) (snd b)))
              (combine (map plane_idc ss) (map dir_idc ss))).
  { clear - D. induction D as [|a l H D IH]; cbn; constructor; auto.
    apply Forall_forall. intros [p d] Hpd. cbn [fst snd]. rewrite Forall_forall in H.
    assert (exists s, In s l /\ plane_idc s = p /\ dir_idc s = d).
    { clear - Hpd. induction l as [|s l IH]; [contradiction|]. destruct Hpd as [E|Hpd].
      - injection E as <- <-. exists s; cbn; auto.
      - destruct (IH Hpd) as (x & A & B); exists x; cbn; auto. }
    destruct H0 as (s & Hs & <- & <-). apply H; auto. }
  rewrite PL, DL in Q.
  assert (R : exists l1 l2 l3, combine (map (row_plane 3) (ss_rows file_cubic_bcc))
      (map (row_dir 3) (ss_rows file_cubic_bcc)) =
      l1 ++ ([3; 1; 2], [1; 1; 1])%Z :: l2 ++ ([3; 1; 2], [1; 1; 1])%Z :: l3).
  { exists (firstn 44 (combine (map (row_plane 3) (ss_rows file_cubic_bcc)) (map (row_dir 3) (ss_rows file_cubic_bcc)))),
      [([2; 1; 3], [1; 1; 1]); ([2; 3; 1], [1; 1; 1])]%Z, []. vm_compute. reflexivity. }
  destruct R as (l1 & l2 & l3 & R). rewrite R in Q. clear - Q.
  induction l1 as [|x l1 IH]; cbn [app] in Q.
  - inversion Q as [|a l H D]; subst. rewrite Forall_forall in H.
    apply (H ([3; 1; 2], [1; 1; 1])%Z); [apply in_app_iff; right; left; auto|].
    split; left; auto.
  - inversion Q; subst. auto.
Qed.
Print Assumptions C75_bcc_refuted.

(** ** C35: grouping *)
Theorem C35_partition : forall l gs, (forall s, In s l -> nonzero (plane_idc s)) ->
  group_by_plane l = Ok gs ->
  Permutation (concat gs) l /\
  (forall g, In g gs -> g <> [] /\ sublist g l) /\
  (forall g a b, In g gs -> In a g -> In b g -> same_plane a b) /\
  ForallOrdPairs (fun g h => forall a b, In a g -> In b h -> ~ same_plane a b) gs.
Proof. exact group_plane_final. Qed.
Print Assumptions C35_partition.
(** It succeeds on every non-empty list and fails on the empty one; a constructed
    system has a non-zero plane. *)
Theorem C35_total : forall conv l,
  (l <> [] -> exists gs, group conv l "plane" = Ok gs /\ group_by_plane l = Ok gs) /\
  group conv [] "plane" = Err IndexError.
Proof.
  intros conv l. split; [|reflexivity]. destruct l as [|s l]; [congruence|]. intros _.
  eexists; split; reflexivity.
Qed.
Print Assumptions C35_total.
Theorem C35_constructed : forall conv p d st ca s, mk_slip_system conv p d st ca = Ok s ->
  nonzero (plane_idc s) /\ nonzero (dir_idc s).
Proof. intros conv p d st ca s H. exact (mk_valid _ _ _ _ _ _ H). Qed.
Print Assumptions C35_constructed.
Example C35_example : exists a b gs,
  mk_slip_system "hkl" [1; 1; 1]%Z [0; 1; -1]%Z "cubic" None = Ok a /\
  mk_slip_system "hkl" [-1; -1; -1]%Z [1; -1; 0]%Z "cubic" None = Ok b /\
  group "hkl" [a; b] "plane" = Ok gs /\ length gs = 1%nat.
Proof.
  eexists; eexists; eexists.
  split; [apply mk_cubic; apply zero_listb_false; reflexivity|].
  split; [apply mk_cubic; apply zero_listb_false; reflexivity|]. split; reflexivity.
Qed.

(** Grouping by family: each group is led by a system and holds, in order, the
    systems equal to one of that system's family and to none of the families of
    the earlier groups. *)
Theorem C35_family_partition : forall conv l gs, group conv l "family" = Ok gs ->
  Permutation (concat gs) l /\
  exists fams, Forall2 (fun g fam => exists h t, g = h :: t /\ generate_family conv h = Ok fam /\
      (forall x, In x t -> exists y, In y fam /\ ss_eqb x y = true)) gs fams /\
    forall i j g fam, (i < j)%nat -> nth_error fams i = Some fam -> nth_error gs j = Some g ->
      forall x y, In x g -> In y fam -> ss_eqb x y = false.
Proof. exact group_family_spec. Qed.
Print Assumptions C35_family_partition.
Example C35_family_example : forall p d s, mk_slip_system "hkl" p d "cubic" None = Ok s ->
  within 127 p -> within 127 d -> exists gs, group "hkl" [s] "family" = Ok gs.
Proof.
  intros p d s H A B. destruct (cubic_family _ _ _ _ H A B) as (fam & E & _).
  eexists. unfold group. change (String.eqb (lower "family") "plane") with false.
  change (String.eqb (lower "family") "family") with true. unfold group_by_family.
  cbn [for_each add_to_family]. rewrite E. cbn [bind]. reflexivity.
Qed.

(** ** C36: equality and hash *)
Theorem C36_equal_iff : forall conv p d st ca a conv' p' d' st' ca' b,
  mk_slip_system conv p d st ca = Ok a -> mk_slip_system conv' p' d' st' ca' = Ok b ->
  (ss_eqb a b = true <-> up_to_sign p p' /\ up_to_sign d d').
Proof.
  intros conv p d st ca a conv' p' d' st' ca' b A B.
  rewrite ss_eqb_iff by (eapply mk_valid; eauto).
  apply mk_nonzero in A as (<- & <- & _). apply mk_nonzero in B as (<- & <- & _). reflexivity.
Qed.
Print Assumptions C36_equal_iff.
Theorem C36_equivalence_and_hash : forall a b c,
  ss_eqb a a = true /\ ss_eqb a b = ss_eqb b a /\
  (ss_eqb a b = true -> ss_eqb b c = true -> ss_eqb a c = true) /\
  (ss_eqb a b = true -> ss_hash_key a = ss_hash_key b).
Proof.
  intros a b c. exact (conj (ss_eqb_refl a) (conj (ss_eqb_sym a b)
    (conj (ss_eqb_trans a b c) (ss_eqb_hash a b)))).
Qed.
Print Assumptions C36_equivalence_and_hash.
(** A constructed system can be hashed. *)
Theorem C36_hashable : forall conv p d st ca s, mk_slip_system conv p d st ca = Ok s ->
  exists k, ss_hash_key s = Ok k.
Proof.
  intros conv p d st ca s H. destruct (mk_valid _ _ _ _ _ _ H) as [A B].
  destruct (pos_spec _ A) as (r & E & _), (pos_spec _ B) as (r' & E' & _).
  unfold ss_hash_key. rewrite E, E'. eauto.
Qed.
Print Assumptions C36_hashable.

(** ** C37: families *)
Theorem C37_cubic_family_partial : forall conv p d s, mk_slip_system conv p d "cubic" None = Ok s ->
  within 127 p -> within 127 d ->
  exists fam, generate_family conv s = Ok fam /\
    ForallOrdPairs (fun a b => ~ same_system a b) fam /\
    (forall m, In m fam -> exists q, In q cubic_symmetries /\ rotated q s m) /\
    (forall q m, In q cubic_symmetries -> In m fam -> exists m', In m' fam /\ rotated q m m') /\
    (exists m, In m fam /\ same_system m s).
Proof. exact cubic_family. Qed.
Print Assumptions C37_cubic_family_partial.
Theorem C37_hexagonal_family_partial : forall conv ca h k i m u v t w s,
  known_conv conv -> 1 / 10 ^ 10 <= ca ->
  mk_slip_system conv [h; k; i; m] [u; v; t; w] "hexagonal" (Some ca) = Ok s ->
  (h + k + i = 0)%Z -> (u + v + t = 0)%Z ->
  within 42 [h; k; i; m] -> within 42 [u; v; t; w] ->
  exists fam, generate_family conv s = Ok fam /\
    ForallOrdPairs (fun a b => ~ same_system a b) fam /\
    (forall m, In m fam -> exists q, In q hexagonal_symmetries /\ rotated q s m) /\
    (forall q m, In q hexagonal_symmetries -> In m fam -> exists m', In m' fam /\ rotated q m m') /\
    (forall m, In m fam -> coprime (plane_idc m) /\ coprime (dir_idc m)) /\
    (coprime [h; k; i; m] -> coprime [u; v; t; w] -> exists m, In m fam /\ same_system m s).
Proof. exact hex_family. Qed.
Print Assumptions C37_hexagonal_family_partial.
Example C37_example : within 127 [1; 1; 1]%Z /\ within 42 [1; 0; -1; 1]%Z /\ within 42 [-1; -1; 2; 3]%Z /\
  coprime [1; 0; -1; 1]%Z.
Proof.
  split; [intros x [<-|[<-|[<-|[]]]]; lia|]. split; [intros x [<-|[<-|[<-|[<-|[]]]]]; lia|].
  split; [intros x [<-|[<-|[<-|[<-|[]]]]]; lia|]. intros d H; apply H; cbn; auto.
Qed.
(** Finding: indices of hexagonal systems are reduced in the family only, so a
    system with unreduced indices is not in its own family. *)
Theorem C37_unreduced_refuted : forall conv ca s, known_conv conv -> 1 / 10 ^ 10 <= ca ->
  mk_slip_system conv [0; 0; 0; 2]%Z [1; 1; -2; 0]%Z "hexagonal" (Some ca) = Ok s ->
  exists fam, generate_family conv s = Ok fam /\ forall m, In m fam -> ~ same_system m s.
Proof. exact unreduced_family. Qed.
Print Assumptions C37_unreduced_refuted.

(** ** C38: Schmid factors *)
Theorem C38_range : forall q l s, unitq q -> unitv l -> in_plane s ->
  0 <= schmid_factor q l s <= 1 / 2.
Proof. exact schmid_range. Qed.
Print Assumptions C38_range.
Theorem C38_sign : forall q l s s',
  vup_to_sign (slip_plane s) (slip_plane s') -> vup_to_sign (slip_dir s) (slip_dir s') ->
  schmid_factor q l s = schmid_factor q l s' /\
  schmid_factor q (vopp l) s = schmid_factor q l s /\
  schmid_factor (opp q) l s = schmid_factor q l s.
Proof.
  intros q l s s' A B. exact (conj (schmid_sign q l s s' A B)
    (conj (schmid_load_opp q l s) (opp_ori_schmid q l s))).
Qed.
Print Assumptions C38_sign.
(** One list per group and one value per system, in order. *)
Theorem C38_layout : forall q l groups i j g s,
  nth_error groups i = Some g -> nth_error g j = Some s ->
  exists row, nth_error (schmid_factors q l groups) i = Some row /\ length row = length g /\
    nth_error row j = Some (schmid_factor q l s).
Proof.
  intros q l groups i j g s A B. exists (map (schmid_factor q l) g). unfold schmid_factors.
  split; [rewrite nth_error_map, A; auto|]. split; [apply map_length|]. rewrite nth_error_map, B; auto.
Qed.
Print Assumptions C38_layout.
Example C38_example : exists s, mk_slip_system "hkl" [1; 1; 1]%Z [0; 1; -1]%Z "cubic" None = Ok s /\
  in_plane s /\ unitv (V3 0 0 1) /\ unitq (Q4 (1/2) (1/2) (1/2) (1/2)).
Proof.
  eexists. split; [apply mk_cubic; apply zero_listb_false; reflexivity|].
  split; [|split; [unfold unitv, sprod; cbn [vx vy vz]; lra|unfold unitq; cbn [qw qx qy qz]; lra]].
  assert (M : mk_slip_system "hkl" [1; 1; 1]%Z [0; 1; -1]%Z "cubic" None = Ok (SS [1; 1; 1]%Z [0; 1; -1]%Z
     (unit_of (vZ 1 1 1)) (unit_of (vZ 0 1 (-1))) "cubic" None))
    by (apply mk_cubic; apply zero_listb_false; reflexivity).
  apply cubic_vectors in M as (A & B & C). split; [exact A|]. split; [exact B|]. apply C. reflexivity.
Qed.
(** Finding: with the shipped cubic_bcc.txt the bound fails. *)
Theorem C38_bcc_file_refuted : forall conv, exists gs s l,
  load conv file_cubic_bcc "cubic" None = Ok (gs, ss_colours file_cubic_bcc) /\
  In s (concat gs) /\ unitv l /\ unitq qone /\ 1 / 2 < schmid_factor qone l s.
Proof. exact bcc_schmid. Qed.
Print Assumptions C38_bcc_file_refuted.

(** ** C39: phases *)
Theorem C39_laue : forall conv laue space a c p, mk_phase conv laue space a c = Ok p ->
  (laue = 9%Z /\ ph_structure p = "hexagonal") \/ (laue = 11%Z /\ ph_structure p = "cubic").
Proof. exact phase_structure. Qed.
Print Assumptions C39_laue.
Theorem C39_rejected : forall conv laue space a c, laue <> 9%Z -> laue <> 11%Z ->
  mk_phase conv laue space a c = Err ValueError.
Proof. exact phase_laue_bad. Qed.
Print Assumptions C39_rejected.
Theorem C39_file : forall conv laue space a c p, mk_phase conv laue space a c = Ok p ->
  ph_ss_file p =
    if (laue =? 9)%Z then Some "hexagonal_withca"
    else if (space =? 225)%Z then Some "cubic_fcc"
    else if (space =? 229)%Z then Some "cubic_bcc"
    else None.
Proof. exact phase_file. Qed.
Print Assumptions C39_file.
(** Construction succeeds for every cubic phase and every hexagonal phase with
    sensible lattice parameters, and the systems are those of the file. *)
Theorem C39_constructed : forall conv space a c,
  (exists p, mk_phase conv 11 space a c = Ok p /\
     (ph_slip_systems p = None <-> space <> 225%Z /\ space <> 229%Z)) /\
  (known_conv conv -> 0 < a -> a / 10 ^ 10 <= c ->
   exists p gs, mk_phase conv 9 space a c = Ok p /\ ph_slip_systems p = Some gs /\
     load conv file_hexagonal_withca "hexagonal" (Some (c / a)) =
       Ok (gs, ss_colours file_hexagonal_withca)).
Proof. exact phase_constructed. Qed.
Print Assumptions C39_constructed.
Example C39_example : exists p, mk_phase "hkl" 11 225 (36 / 10) (36 / 10) = Ok p.
Proof. destruct (phase_fcc "hkl" (36/10) (36/10)) as (gs & _ & E). eauto. Qed.
