(** Lemmas on inverse pole figures of hexagonal crystals. *)
From Coq Require Import Reals List ZArith Bool Lia Lra Psatz String Permutation.
Import ListNotations.
From Verif Require Import Py Quat_Model Quat_Spec Quat_Proofs QuatSym_Proofs QuatEuler_Proofs QuatMany_Proofs Pole_Model Pole_Spec Pole_Proofs SlipSys_Proofs Ipf_Model Ipf_Spec Ipf_Proofs.
Open Scope R_scope.

Lemma pick_hex_some : forall lo hi col, (exists o, In o col /\ trial lo hi o = true) ->
  exists o, In o col /\ trial lo hi o = true /\ pick "hexagonal" lo hi col = Ok o.
Proof.
  intros lo hi col (o & I & T). unfold pick. change (String.eqb "hexagonal" "cubic") with false. cbv beta iota.
  destruct (first_true_spec (map (trial lo hi) col) 0) as (k & K & N).
  { apply existsb_exists. exists true. split; [|reflexivity]. apply in_map_iff. now exists o. }
  rewrite K. cbn [Nat.add]. rewrite nth_error_map in N. destruct (nth_error col k) as [o'|] eqn:O; [|discriminate]. cbn [option_map] in N. injection N as N.
  exists o'. split; [exact (nth_error_In col k O)|]. split; [exact N|]. now rewrite (nth_error_nth col k None O).
Qed.
Lemma pick_hex_none : forall lo hi col, (forall o, In o col -> trial lo hi o = false) -> pick "hexagonal" lo hi col = Ok (nth 0 col None).
Proof.
  intros lo hi col H. unfold pick. change (String.eqb "hexagonal" "cubic") with false. cbv beta iota. rewrite first_true_none; [reflexivity|].
  apply not_true_is_false. intros E. apply existsb_exists in E as (b & I & ->). apply in_map_iff in I as (o & E & I). rewrite (H o I) in E. discriminate.
Qed.
Lemma col_h_in : forall m u, In (ang (hplane m u)) (col_h u).
Proof. intros m u. unfold col_h. apply in_map_iff. exists (nm m u). rewrite nm_nm. split; [reflexivity|apply hex_dih_all]. Qed.
Lemma col_h_of : forall u o, In o (col_h u) -> exists m, o = ang (hplane m u).
Proof. intros u o I. unfold col_h in I. apply in_map_iff in I as (m & E & _). exists (nm m u). now symmetry. Qed.
Lemma hex_trial : forall up u, vx u * vx u + vy u * vy u <> 0 -> exists o, In o (col_h u) /\ trial (lo_h up) (hi_h up) o = true.
Proof.
  intros up u N. destruct (hsec_exists up (vx u) (vy u)) as (m & H). exists (ang (hplane m u)). split; [apply col_h_in|]. now apply hsec_trial.
Qed.
Lemma trial_wider : forall lo hi o d, 0 <= d -> trial lo hi o = true -> trial (lo - d) (hi + d) o = true.
Proof.
  intros lo hi [(a, b)|] d D T; [|discriminate]. apply trial_spec in T. apply trial_spec. lra.
Qed.
Lemma pick_hex : forall up u m, vx u * vx u + vy u * vy u <> 0 -> hsec up (dx m (vx u) (vy u)) (dy m (vx u) (vy u)) ->
  pick "hexagonal" (lo_h up) (hi_h up) (col_h u) = Ok (ang (hplane m u)).
Proof.
  intros up u m N H. destruct (pick_hex_some _ _ _ (hex_trial up u N)) as (o & I & T & E). rewrite E. destruct (col_h_of u o I) as (m' & ->).
  apply hsec_trial in T; [|exact N]. destruct (hsec_same up m m' _ _ H T) as (X & Y). unfold hplane. now rewrite X, Y.
Qed.
(** Along the c axis. *)
Lemma dih_00 : forall m, dx m 0 0 = 0 /\ dy m 0 0 = 0.
Proof. intros (k, f). unfold dx, dy. destruct f; split; ring. Qed.
Lemma col_h_along : forall u o, along_c u -> sprod u u = 1 -> In o (col_h u) -> o = Some (0, 0).
Proof.
  intros u o (X & Y) U I. destruct (col_h_of u o I) as (m & ->). unfold ang, hplane. cbn [vx vy vz]. rewrite X, Y. destruct (dih_00 m) as (-> & ->). rewrite azimuth_zero.
  replace (Rabs (vz u)) with 1; [now rewrite acos_1|]. unfold sprod in U. rewrite X, Y in U. unfold Rabs. destruct (Rcase_abs (vz u)); nra.
Qed.
Lemma widened_not_zero : forall up d, 0 <= d <= / 100000000 -> trial (lo_h up - d) (hi_h up + d) (Some (0, 0)) = false.
Proof.
  intros up d D. apply not_true_is_false. intros T. apply trial_spec in T. pose proof PI2_1. unfold lo_h in T. destruct up; lra.
Qed.
Lemma pick_along : forall up u d, along_c u -> sprod u u = 1 -> 0 <= d <= / 100000000 -> pick "hexagonal" (lo_h up - d) (hi_h up + d) (col_h u) = Ok (Some (0, 0)).
Proof.
  intros up u d A U D. rewrite pick_hex_none.
  - f_equal. apply (col_h_along u _ A U). unfold col_h. now left.
  - intros o I. rewrite (col_h_along u o A U I). now apply widened_not_zero.
Qed.
(** All orientations. *)
Lemma along_hat : forall u, u <> vzero -> (along_c u <-> along_c (hat u)).
Proof.
  intros u N. pose proof (vlen_pos u N) as L. unfold along_c, hat. cbn [vx vy]. split; intros (X & Y).
  - rewrite X, Y. unfold Rdiv. rewrite Rmult_0_l. auto.
  - split; [apply (f_equal (fun a => a * vlen u)) in X|apply (f_equal (fun a => a * vlen u)) in Y]; [field_simplify in X|field_simplify in Y]; lra.
Qed.
Lemma not_along_sq : forall u, ~ along_c u <-> vx u * vx u + vy u * vy u <> 0.
Proof.
  intros u. unfold along_c. split.
  - intros N E. apply N. split; nra.
  - intros N (X & Y). apply N. rewrite X, Y. ring.
Qed.
Lemma hex_range : forall up triangle default, (match triangle with Some t => t | None => default end) = tri_name up ->
  beta_range "hexagonal" triangle default = Ok (lo_h up, hi_h up, 1%nat).
Proof.
  intros up triangle default E. unfold beta_range. change (String.eqb "hexagonal" "cubic") with false. change (String.eqb "hexagonal" "hexagonal") with true. cbv beta iota zeta. rewrite E.
  destruct up; reflexivity.
Qed.
Definition hex_dec (u : vec3) : {along_c u} + {~ along_c u}.
Proof. unfold along_c. destruct (Req_EM_T (vx u) 0), (Req_EM_T (vy u) 0); [left; tauto|right; tauto..]. Defined.
Lemma hex_limits : forall up us, Forall (fun u => u <> vzero) us ->
  limits (lo_h up) (hi_h up) 1 (map (fun u => col_h (hat u)) us) =
    if existsb (fun u => if hex_dec u then true else false) us then (lo_h up - / 100000000, hi_h up + / 100000000) else (lo_h up, hi_h up).
Proof.
  intros up us F. unfold limits. replace (existsb _ (map _ us)) with (existsb (fun u => if hex_dec u then true else false) us); [reflexivity|].
  induction F as [|u us N F IH]; [reflexivity|]. cbn [existsb map]. rewrite IH. f_equal. symmetry. destruct (hex_dec u) as [A|A].
  - apply Nat.ltb_lt. unfold count. apply (along_hat u N) in A. replace (filter _ _) with (@nil (option (R * R))); [cbn; lia|].
    pose proof (fun o => col_h_along (hat u) o A (hat_unit u N)) as C. revert C. generalize (col_h (hat u)). intros l C. induction l as [|o l IHl]; [reflexivity|].
    cbn [filter]. rewrite (C o (or_introl eq_refl)). pose proof (widened_not_zero up 0 ltac:(lra)) as W. rewrite Rminus_0_r, Rplus_0_r in W. rewrite W. apply IHl. intros o' I. apply C. now right.
  - apply Nat.ltb_ge. assert (N' : ~ along_c (hat u)) by (now rewrite <- along_hat). apply not_along_sq in N'. destruct (hex_trial up _ N') as (o & I & T).
    unfold count. assert (I' : In o (filter (trial (lo_h up) (hi_h up)) (col_h (hat u)))) by (now apply filter_In). destruct (filter _ _); [destruct I'|cbn [List.length]; lia].
Qed.
Definition hpick (lo hi : R) (u : vec3) : option (R * R) := match pick "hexagonal" lo hi (col_h (hat u)) with Ok o => o | Err _ => None end.
Lemma hex_all : forall quats d up triangle default, Forall unitq quats -> d <> vzero -> (match triangle with Some t => t | None => default end) = tri_name up ->
  exists lo hi, calc_fund_dirs quats d "hexagonal" triangle default = Ok (map (fun q => hpick lo hi (in_crystal q d)) quats) /\
    (lo, hi) = (if existsb (fun u => if hex_dec u then true else false) (map (fun q => in_crystal q d) quats) then (lo_h up - / 100000000, hi_h up + / 100000000) else (lo_h up, hi_h up)).
Proof.
  intros quats d up triangle default FU D T. unfold calc_fund_dirs. rewrite (hex_range up _ _ T). cbn [bind]. cbv beta iota zeta.
  replace (map (image_angles "hexagonal" d) quats) with (map (fun u => col_h (hat u)) (map (fun q => in_crystal q d) quats)).
  2:{ rewrite map_map. apply map_ext_in. intros q I. symmetry. apply column_hex. apply in_crystal_nonzero; [|exact D]. rewrite Forall_forall in FU. now apply FU. }
  rewrite hex_limits.
  2:{ rewrite Forall_forall. intros u I. apply in_map_iff in I as (q & <- & I). apply in_crystal_nonzero; [|exact D]. rewrite Forall_forall in FU. now apply FU. }
  destruct (if existsb _ _ then _ else _) as (lo, hi). exists lo, hi. split; [|reflexivity]. apply fold_pick. clear T FU D up triangle default.
  induction quats as [|q quats IH]; cbn [map]; constructor; [|exact IH]. unfold hpick, pick. change (String.eqb "hexagonal" "cubic") with false. cbv beta iota. reflexivity.
Qed.
(** The images of a direction. *)
Lemma hplane_hat : forall m u, u <> vzero -> same_dir (hplane m (hat u)) (hplane m u).
Proof.
  intros m u N. pose proof (vlen_pos u N) as L. exists (vlen u). split; [exact L|]. destruct m as (k, f), u as [x y z]. unfold hplane, hat, dx, dy. cbn [vx vy vz] in *. set (l := vlen (V3 x y z)) in *. clearbody l.
  unfold Rdiv. rewrite Rabs_mult, (Rabs_right (/ l)) by (apply Rle_ge, Rlt_le, Rinv_0_lt_compat; exact L). destruct f; f_equal; field; lra.
Qed.
Lemma hplane_unit : forall m u, sprod u u = 1 -> sprod (hplane m u) (hplane m u) = 1.
Proof.
  intros m u U. rewrite <- (nm_nm m u). rewrite <- north_dih. apply north_unit. assert (L : vlen (happly (nm m u) u) = 1) by (rewrite hlen; unfold vlen; rewrite U; apply sqrt_1).
  rewrite <- vlen_sq, L. ring.
Qed.
Lemma hplane_angles : forall m u, u <> vzero -> angles_of (ang (hplane m (hat u))) (hplane m u).
Proof.
  intros m u N. eapply angles_of_dir; [|exact (hplane_hat m u N)]. apply angles_spherical. apply hplane_unit. now apply hat_unit.
Qed.
Lemma hplane_image : forall m u, sym_image "hexagonal" u (hplane m u).
Proof.
  intros m u. rewrite <- (nm_nm m u), <- north_dih. destruct (in_dihs_image (nm m u) u) as (s & I & E). exists s. split; [exact I|]. rewrite E. now apply north_cases.
Qed.
Lemma image_hplane : forall u v, sym_image "hexagonal" u v -> 0 <= vz v -> exists m, v = hplane m u.
Proof.
  intros u v (s & I & E) Z. destruct (image_in_dihs s I) as (m & EM). rewrite EM in E. destruct m as (k, f). destruct (opp6_cs k) as (C & D). destruct E as [->| ->].
  - exists (k, f). unfold happly, hplane. cbn [snd]. unfold happly in Z. cbn [snd vz] in Z. f_equal. unfold Rabs. destruct f, (Rcase_abs (vz u)); lra.
  - exists (opp6 k, f). unfold happly, hplane, vscale, dx, dy in *. cbn [snd vx vy vz] in *. rewrite C, D. destruct f; f_equal; try ring; unfold Rabs; destruct (Rcase_abs (vz u)); lra.
Qed.
Lemma inside_hplane : forall up m u, inside_triangle_hex up (hplane m u) <-> hsec up (dx m (vx u) (vy u)) (dy m (vx u) (vy u)).
Proof.
  intros up m u. unfold inside_triangle_hex, hsec, hplane. cbn [vx vy vz]. pose proof (Rabs_pos (vz u)). destruct up; tauto.
Qed.
(** Exactly one image is inside the triangle. *)
Lemma hex_image : forall up u, exists v, sym_image "hexagonal" u v /\ inside_triangle_hex up v /\
  forall w, sym_image "hexagonal" u w -> inside_triangle_hex up w -> w = v.
Proof.
  intros up u. destruct (hsec_exists up (vx u) (vy u)) as (m & H). exists (hplane m u). split; [apply hplane_image|]. split; [now apply inside_hplane|].
  intros w IM IN. destruct (image_hplane u w IM (proj1 IN)) as (m' & ->). apply inside_hplane in IN. destruct (hsec_same up m m' _ _ H IN) as (X & Y). unfold hplane. now rewrite X, Y.
Qed.
Lemma hsec_hat : forall up m u, u <> vzero -> hsec up (dx m (vx u) (vy u)) (dy m (vx u) (vy u)) -> hsec up (dx m (vx (hat u)) (vy (hat u))) (dy m (vx (hat u)) (vy (hat u))).
Proof.
  intros up m u N H. destruct (hplane_hat m u N) as (k & K & E). apply inside_hplane in H. rewrite E in H. unfold inside_triangle_hex in H. cbn [vx vy vz] in H.
  apply (proj1 (inside_hplane up m (hat u))). unfold inside_triangle_hex. destruct H as (Z & H). split; [destruct (Rle_dec 0 (vz (hplane m (hat u)))); [assumption|nra]|].
  set (x := vx (hplane m (hat u))) in *. set (y := vy (hplane m (hat u))) in *. clearbody x y. destruct up; destruct H as (H1 & H2).
  - split; [destruct (Rle_dec x 0); [assumption|nra]|]. apply (Rmult_le_reg_l k); [exact K|]. lra.
  - split; [destruct (Rle_dec 0 x); [assumption|nra]|]. apply (Rmult_le_reg_l k); [exact K|]. lra.
Qed.
Lemma hpick_exact : forall up u v, u <> vzero -> ~ along_c u -> sym_image "hexagonal" u v -> inside_triangle_hex up v -> angles_of (hpick (lo_h up) (hi_h up) u) v.
Proof.
  intros up u v N A IM IN. destruct (image_hplane u v IM (proj1 IN)) as (m & ->). apply inside_hplane in IN. unfold hpick. rewrite (pick_hex up (hat u) m).
  - now apply hplane_angles.
  - apply not_along_sq. now rewrite <- along_hat.
  - now apply hsec_hat.
Qed.
Lemma hpick_along : forall up u d, u <> vzero -> along_c u -> 0 <= d <= / 100000000 -> hpick (lo_h up - d) (hi_h up + d) u = Some (0, 0).
Proof. intros up u d N A D. unfold hpick. rewrite pick_along; [reflexivity|exact (proj1 (along_hat u N) A)|now apply hat_unit|exact D]. Qed.
(** With or without the wider limits. *)
Lemma hpick_near : forall up u d, u <> vzero -> ~ along_c u -> 0 <= d ->
  exists v beta alpha, sym_image "hexagonal" u v /\ 0 <= vz v /\ angles_of (Some (alpha, beta)) v /\ hpick (lo_h up - d) (hi_h up + d) u = Some (alpha, beta) /\ lo_h up - d <= beta <= hi_h up + d.
Proof.
  intros up u d N A D. assert (A' : vx (hat u) * vx (hat u) + vy (hat u) * vy (hat u) <> 0) by (apply not_along_sq; now rewrite <- along_hat).
  destruct (hex_trial up (hat u) A') as (o & I & T). apply (trial_wider _ _ _ d D) in T. destruct (pick_hex_some _ _ _ (ex_intro _ o (conj I T))) as (o' & I' & T' & E).
  destruct (col_h_of _ _ I') as (m & ->). exists (hplane m u). unfold ang in *. apply trial_spec in T'. eexists. eexists. split; [apply hplane_image|]. split; [apply Rabs_pos|].
  split; [exact (hplane_angles m u N)|]. split; [unfold hpick; now rewrite E|exact T'].
Qed.
(** Equivalent orientations. *)
Lemma dih_mul : forall m m', exists n, forall x y, dx m (dx m' x y) (dy m' x y) = dx n x y /\ dy m (dx m' x y) (dy m' x y) = dy n x y.
Proof.
  intros (k, f) (k', f'). destruct (add6_cs k k') as (A1 & A2), (add6_cs k (neg6 k')) as (B1 & B2), (neg6_cs k') as (N1 & N2). rewrite N1, N2 in B1, B2.
  exists (if f then add6 k (neg6 k') else add6 k k', xorb f f'). intros x y. unfold dx, dy. destruct f, f'; cbn [xorb]; rewrite ?A1, ?A2, ?B1, ?B2; split; ring.
Qed.
Lemma hpick_equiv : forall up u m, u <> vzero -> ~ along_c u -> hpick (lo_h up) (hi_h up) (happly m u) = hpick (lo_h up) (hi_h up) u.
Proof.
  intros up u m N A. unfold hpick. rewrite hat_h. set (w := hat u) in *.
  assert (A' : vx w * vx w + vy w * vy w <> 0) by (apply not_along_sq; unfold w; now rewrite <- along_hat).
  destruct (hsec_exists up (vx (happly m w)) (vy (happly m w))) as (m1 & H1). unfold happly in H1. cbn [vx vy] in H1.
  destruct (dih_mul m1 m) as (n & E). destruct (E (vx w) (vy w)) as (X & Y).
  rewrite (pick_hex up (happly m w) m1); [|unfold happly; cbn [vx vy]; now apply dih_zero|exact H1].
  rewrite X, Y in H1. rewrite (pick_hex up w n A' H1). replace (hplane m1 (happly m w)) with (hplane n w); [reflexivity|]. unfold hplane, happly. cbn [vx vy vz]. rewrite X, Y. f_equal. destruct m as (k, []); cbn [snd]; [symmetry; apply Rabs_Ropp|reflexivity].
Qed.
Lemma along_happly : forall m u, along_c (happly m u) <-> along_c u.
Proof.
  intros m u. split.
  - intros A. destruct (hex_dec u) as [|N]; [assumption|]. exfalso. apply not_along_sq in N. apply (dih_zero m) in N. apply N. destruct A as (X & Y). unfold happly in X, Y. cbn [vx vy] in X, Y. rewrite X, Y. ring.
  - intros (X & Y). unfold along_c, happly. cbn [vx vy]. rewrite X, Y. apply dih_00.
Qed.
(** The limits used for one orientation depend on the others. *)
Definition near : R := PI / 2 - / 200000000.
Definition half_turn : quat := Q4 0 (cos near * / sqrt 2) (sin near * / sqrt 2) (/ sqrt 2).
Lemma half_turn_unit : unitq half_turn.
Proof.
  unfold unitq, half_turn, sqnorm, inner. cbn [qw qx qy qz]. pose proof (sqrt_sqrt 2 ltac:(lra)) as Q. assert (P : 0 < sqrt 2) by (apply sqrt_lt_R0; lra).
  pose proof (sin2_cos2 near) as C. unfold Rsqr in C. assert (I : / sqrt 2 * / sqrt 2 = / 2) by (rewrite <- Rinv_mult; now rewrite Q).
  set (i := / sqrt 2) in *. set (c := cos near) in *. set (s := sin near) in *. clearbody i c s.
  transitivity (i * i * (s * s + c * c) + i * i); [ring|]. rewrite C, I. field.
Qed.
Lemma half_turn_dir : in_crystal half_turn (V3 0 0 1) = V3 (cos near) (sin near) 0.
Proof.
  unfold in_crystal, mapply, rot_matrix, half_turn, sprod. cbn [qw qx qy qz vx vy vz r0 r1 r2]. pose proof (sqrt_sqrt 2 ltac:(lra)) as Q. assert (P : 0 < sqrt 2) by (apply sqrt_lt_R0; lra).
  pose proof (sin2_cos2 near) as C. unfold Rsqr in C. assert (I : / sqrt 2 * / sqrt 2 = / 2) by (rewrite <- Rinv_mult; now rewrite Q).
  set (i := / sqrt 2) in *. set (c := cos near) in *. set (s := sin near) in *. clearbody i c s.
  assert (I1 : i * i * c = / 2 * c) by (rewrite I; ring). assert (I2 : i * i * s = / 2 * s) by (rewrite I; ring).
  assert (I3 : i * i * (s * s + c * c) = / 2) by (rewrite I, C; ring). f_equal; nra.
Qed.
Lemma arctan2_first : forall b, - (PI / 2) < b < PI / 2 -> arctan2 (sin b) (cos b) = b.
Proof.
  intros b B. assert (C : 0 < cos b) by (apply cos_gt_0; lra). unfold arctan2. destruct (Rlt_dec 0 (cos b)) as [_|N]; [|lra]. fold (tan b). now apply atan_tan.
Qed.
Lemma pick_first : forall lo hi o l, trial lo hi o = true -> pick "hexagonal" lo hi (o :: l) = Ok o.
Proof.
  intros lo hi o l T. unfold pick. change (String.eqb "hexagonal" "cubic") with false. cbv beta iota. cbn [map first_true]. rewrite T. reflexivity.
Qed.
Lemma hat_id : forall u, sprod u u = 1 -> hat u = u.
Proof.
  intros u U. unfold hat. replace (vlen u) with 1 by (unfold vlen; rewrite U; now rewrite sqrt_1). destruct u as [x y z]. cbn [vx vy vz]. f_equal; field.
Qed.
Lemma near_bounds : - (PI / 2) < near < PI / 2 /\ near < lo_h true /\ lo_h true - / 100000000 <= near <= hi_h true + / 100000000.
Proof. unfold near, lo_h, hi_h. pose proof PI2_1. lra. Qed.
Lemma near_unit : sprod (V3 (cos near) (sin near) 0) (V3 (cos near) (sin near) 0) = 1.
Proof. unfold sprod. cbn [vx vy vz]. pose proof (sin2_cos2 near) as C. unfold Rsqr in C. lra. Qed.
Lemma near_widened : hpick (lo_h true - / 100000000) (hi_h true + / 100000000) (V3 (cos near) (sin near) 0) = Some (PI / 2, near).
Proof.
  unfold hpick. rewrite hat_id by exact near_unit. destruct near_bounds as (B1 & _ & B3). unfold col_h, hex_dihs. cbn [map].
  assert (E : ang (hplane (nm (K0, false) (V3 (cos near) (sin near) 0)) (V3 (cos near) (sin near) 0)) = Some (PI / 2, near)).
  { unfold nm. cbn [fst snd vz]. destruct (Rlt_dec 0 0) as [L|_]; [lra|]. unfold ang, hplane, dx, dy, c6, s6. cbn [vx vy vz].
    rewrite Rabs_R0, acos_0. do 2 f_equal. replace (0 * cos near + 1 * sin near) with (sin near) by ring. replace (1 * cos near - 0 * sin near) with (cos near) by ring. now apply arctan2_first. }
  rewrite E. rewrite pick_first; [reflexivity|]. now apply trial_spec.
Qed.
Lemma near_alone : exists alpha beta, hpick (lo_h true) (hi_h true) (V3 (cos near) (sin near) 0) = Some (alpha, beta) /\ lo_h true <= beta.
Proof.
  destruct (hpick_near true (V3 (cos near) (sin near) 0) 0) as (v & beta & alpha & _ & _ & _ & E & B).
  - intros E. pose proof near_unit as U. rewrite E in U. unfold sprod, vzero in U. cbn [vx vy vz] in U. lra.
  - apply not_along_sq. cbn [vx vy]. pose proof near_unit as U. unfold sprod in U. cbn [vx vy vz] in U. lra.
  - lra.
  - rewrite Rminus_0_r, Rplus_0_r in E, B. exists alpha, beta. split; [exact E|lra].
Qed.
