(** Properties of plots of inverse pole figures (C113). *)
From Coq Require Import String Ascii.
From Coq Require Import Reals ZArith Bool Lia Lra Psatz.
From Coq Require Import List.
From Verif Require Import Py Base_Model Base_Proofs Quat_Model Quat_Spec Quat_Proofs Crystal_Model Crystal_Spec CrystalMat_Proofs SlipSys_Proofs CrystalFamily_Proofs
  Pole_Model Pole_Spec Pole_Proofs Pole_Props Ipf_Model Ipf_Spec Ipf_Proofs IpfHex_Proofs Ipf_Props Text_Model Eqv_Model Eqv_Spec Eqv_Proofs
  IpfPlot_Model IpfPlot_Spec IpfPlot_Proofs.
Import ListNotations.
Open Scope R_scope.

(** The three corners span the directions of the triangle. *)
Theorem C113_corners : forall g up v, g = "cubic"%string \/ g = "hexagonal"%string -> (inside_triangle g up v <-> spanned (corners g up) v).
Proof.
  intros g up [x y z] [-> | ->]; unfold inside_triangle, corners.
  - change (String.eqb "cubic" "cubic") with true. cbv iota. cbn [spanned vx vy vz]. unfold inside_triangle_cubic. cbn [vx vy vz]. split.
    + intros [(_ & A & B & C)|(E & _)]; [|discriminate E]. exists (z - y), (y + x), (- x). repeat split; try lra. f_equal; ring.
    + intros (p & q & r & P & Q & S & E). injection E as -> -> ->. left. split; [reflexivity|]. lra.
  - change (String.eqb "hexagonal" "cubic") with false. cbv iota. cbn [spanned vx vy vz]. unfold inside_triangle_hex. cbn [vx vy vz]. pose proof sqrt3_pos as S3. pose proof sqrt3_sq as Q3. split.
    + intros [(E & _)|(_ & A & B)]; [discriminate E|]. destruct up.
      * exists z, (y + x * sqrt 3), (- 2 * x). repeat split; try lra. f_equal; field.
      * exists z, (y - x * sqrt 3), (2 * x). repeat split; try lra. f_equal; field.
    + intros (p & q & r & P & Q & S & E). injection E as -> -> ->. right. split; [reflexivity|].
      assert (0 <= r * sqrt 3) by (apply Rmult_le_pos; lra). destruct up; repeat split; nra.
Qed.
Print Assumptions C113_corners.
Example C113_corners_met : spanned (corners "cubic" true) (V3 (-1) 2 4).
Proof. cbn. exists 2, 1, 1. repeat split; try lra. f_equal; ring. Qed.

(** The part of the plane inside the frame is the image of the triangle, in either
    projection. *)
Theorem C113_region : forall k g up P, g = "cubic"%string \/ g = "hexagonal"%string ->
  (in_frame k g up P <-> exists v, v <> vzero /\ inside_triangle g up v /\ image k v = Ok (Some P)).
Proof.
  intros k g up (X, Y) G. split.
  - intros F. destruct (from_place k X Y (frame_disc k g up X Y F)) as (v & N & Z & E). exists v. split; [exact N|]. split; [|exact E].
    destruct (frame_iff k g up v G N Z) as (P & E' & IFF & _). rewrite E in E'. injection E' as <-. now apply IFF.
  - intros (v & N & I & E). destruct (frame_iff k g up v G N (inside_north _ _ _ I)) as (P & E' & IFF & _). rewrite E in E'. injection E' as <-. now apply IFF.
Qed.
Print Assumptions C113_region.
Example C113_region_met : in_frame StereoKind "cubic" true (1 / 5, 1 / 10).
Proof. cbn. lra. Qed.

Lemma weight_nonzero v : 0 < vy v + vz v -> v <> vzero.
Proof. intros W ->. unfold vzero in W. cbn [vy vz] in W. lra. Qed.
Lemma drawn_side k g up side a b ca cb : known_sym g -> inside_triangle g up a -> inside_triangle g up b -> side_plane g up side a -> side_plane g up side b ->
  0 < vy a + vz a -> 0 < vy b + vz b -> same_dir a ca -> same_dir b cb -> along_side k g up side ca cb (map (img k) (line_points a b 100)).
Proof.
  intros G IA IB PA PB WA WB SA SB. destruct (C87_line a b 100 ltac:(lia)) as (L & F & T & ALL). change (100 - 1)%nat with 99%nat in T. unfold along_side. rewrite map_length. split; [exact L|].
  assert (K : forall v, 0 < vy v + vz v -> inside_triangle g up v -> exists P, image k v = Ok (Some P)).
  { intros v W I. destruct (frame_iff k g up v G (weight_nonzero v W) (inside_north _ _ _ I)) as (P & E & _). now exists P. }
  split; [|split].
  - destruct (K a WA IA) as (P & E). exists P. split; [rewrite (image_scale k a ca (weight_nonzero a WA) SA); exact E|]. rewrite nth_error_map, F. cbn [option_map]. unfold img. now rewrite E.
  - destruct (K b WB IB) as (P & E). exists P. split; [rewrite (image_scale k b cb (weight_nonzero b WB) SB); exact E|]. rewrite nth_error_map, T. cbn [option_map]. unfold img. now rewrite E.
  - intros o I. apply in_map_iff in I as (v & <- & I). destruct (ALL v I) as (B & _).
    assert (W : 0 < vy v + vz v). { destruct B as (t & TT & ->). cbn [vy vz]. replace ((1 - t) * vy a + t * vy b + ((1 - t) * vz a + t * vz b)) with ((1 - t) * (vy a + vz a) + t * (vy b + vz b)) by ring.
      destruct (Req_EM_T t 0) as [->|NT]; [lra|]. assert (0 <= (1 - t) * (vy a + vz a)) by (apply Rmult_le_pos; lra). assert (0 < t * (vy b + vz b)) by (apply Rmult_lt_0_compat; lra). lra. }
    pose proof (between_inside g up a b v G IA IB B) as IV. destruct (frame_iff k g up v G (weight_nonzero v W) (inside_north _ _ _ IV)) as (P & E & _ & S). exists P.
    split; [unfold img; now rewrite E|]. apply S; [exact IV|]. now apply between_plane with a b.
Qed.
Lemma same_dir_scale c v : 0 < c -> same_dir (V3 (c * vx v) (c * vy v) (c * vz v)) v.
Proof.
  intros C. exists (/ c). split; [now apply Rinv_0_lt_compat|]. destruct v as [x y z]. cbn [vx vy vz]. f_equal; field; lra.
Qed.
Lemma same_ray_dir u v : same_dir v u -> same_ray u v.
Proof. intros (c & C & ->). exists c. split; [exact C|reflexivity]. Qed.
Lemma same_dir_sym u v : same_dir u v -> same_dir v u.
Proof. intros (c & C & ->). now apply same_dir_scale. Qed.

(** What the frame of a plot is made of: the ends of its lines, on the rays of the corners. *)
Lemma frame_ends conv triangle g : known_sym g -> (g = "hexagonal"%string -> y_along_a2 conv) ->
  let up := is_up triangle in
  exists i0 i1 i2 p0 p1 p2 a b c,
    ipf_axes triangle "IPF" g = Ok ([(i0, i1); (i0, i2); (i1, i2)], [(i0, p0); (i1, p1); (i2, p2)]) /\
    line_end conv g i0 = Ok a /\ line_end conv g i1 = Ok b /\ line_end conv g i2 = Ok c /\
    Rabs p0 <= 12 / 1000 /\ Rabs p1 <= 12 / 1000 /\ Rabs p2 <= 12 / 1000 /\
    (exists ca cb cc, corners g up = [ca; cb; cc] /\ same_dir a ca /\ same_dir b cb /\ same_dir c cc) /\
    (inside_triangle g up a /\ inside_triangle g up b /\ inside_triangle g up c) /\
    (side_plane g up 0 a /\ side_plane g up 0 b /\ side_plane g up 1 a /\ side_plane g up 1 c /\ side_plane g up 2 b /\ side_plane g up 2 c) /\
    0 < vy a + vz a /\ 0 < vy b + vz b /\ 0 < vy c + vz c.
Proof.
  assert (AB : forall x, - (12 / 1000) <= x <= 12 / 1000 -> Rabs x <= 12 / 1000) by (intros x X; now apply Rabs_le).
  intros [-> | ->] H up.
  - exists [0; 0; 1]%Z, [0; 1; 1]%Z, [-1; 1; 1]%Z, (-5 / 1000), (-5 / 1000), (5 / 1000), (V3 0 0 1), (V3 0 1 1), (V3 (-1) 1 1).
    split; [reflexivity|]. split; [reflexivity|]. split; [reflexivity|]. split; [reflexivity|].
    split; [apply AB; lra|]. split; [apply AB; lra|]. split; [apply AB; lra|]. split.
    { exists (V3 0 0 1), (V3 0 1 1), (V3 (-1) 1 1). split; [reflexivity|]. assert (R : forall v, same_dir v v) by (intros [x y z]; exists 1; split; [lra|cbn [vx vy vz]; f_equal; ring]). auto. }
    unfold inside_triangle, inside_triangle_cubic. cbn [side_plane vx vy vz]. change (String.eqb "cubic" "cubic") with true. cbv iota.
    repeat split; try lra; left; repeat split; lra.
  - specialize (H eq_refl).
    assert (EH : forall a b c d, line_end conv "hexagonal" [a; b; c; d] = Ok (matmul (hexL_hkl (8165 / 10000)) (vZ (a - c) (b - c) d))).
    { intros a b c d. assert (K : known_conv conv) by (unfold known_conv; destruct H; tauto). destruct (end_hex conv a b c d K) as (l & E & [(_ & ->)|(T & _)]); [exact E|]. exfalso. destruct H as [H|H]; rewrite H in T; discriminate T. }
    pose proof sqrt3_pos as S3. pose proof sqrt3_sq as Q3.
    assert (E0 : line_end conv "hexagonal" [0; 0; 0; 1]%Z = Ok (V3 0 0 (8165 / 10000))).
    { rewrite EH. f_equal. change (0 - 0)%Z with 0%Z. unfold vZ, matmul, hexL_hkl, vdot. cbn [vx vy vz r0 r1 r2]. f_equal; field. }
    assert (E1 : line_end conv "hexagonal" [-1; 2; -1; 0]%Z = Ok (V3 0 3 0)).
    { rewrite EH. f_equal. change (-1 - -1)%Z with 0%Z. change (2 - -1)%Z with 3%Z. unfold vZ, matmul, hexL_hkl, vdot. cbn [vx vy vz r0 r1 r2]. f_equal; field. }
    assert (E2 : line_end conv "hexagonal" [0; 1; -1; 0]%Z = Ok (V3 (sqrt 3 / 2) (3 / 2) 0)).
    { rewrite EH. f_equal. change (0 - -1)%Z with 1%Z. change (1 - -1)%Z with 2%Z. unfold vZ, matmul, hexL_hkl, vdot. cbn [vx vy vz r0 r1 r2]. f_equal; field. }
    assert (E3 : line_end conv "hexagonal" [-1; 1; 0; 0]%Z = Ok (V3 (- (sqrt 3 / 2)) (3 / 2) 0)).
    { rewrite EH. f_equal. change (-1 - 0)%Z with (-1)%Z. change (1 - 0)%Z with 1%Z. unfold vZ, matmul, hexL_hkl, vdot. cbn [vx vy vz r0 r1 r2]. f_equal; field. }
    assert (D0 : same_dir (V3 0 0 (8165 / 10000)) (V3 0 0 1)).
    { replace (V3 0 0 (8165 / 10000)) with (V3 (8165 / 10000 * vx (V3 0 0 1)) (8165 / 10000 * vy (V3 0 0 1)) (8165 / 10000 * vz (V3 0 0 1))) by (cbn [vx vy vz]; f_equal; field). apply same_dir_scale. lra. }
    assert (D1 : same_dir (V3 0 3 0) (V3 0 1 0)).
    { replace (V3 0 3 0) with (V3 (3 * vx (V3 0 1 0)) (3 * vy (V3 0 1 0)) (3 * vz (V3 0 1 0))) by (cbn [vx vy vz]; f_equal; field). apply same_dir_scale. lra. }
    unfold is_up in up. destruct (String.eqb triangle "down") eqn:T; cbn [negb] in up; subst up.
    + exists [0; 0; 0; 1]%Z, [-1; 2; -1; 0]%Z, [0; 1; -1; 0]%Z, (12 / 1000), (12 / 1000), (-12 / 1000), (V3 0 0 (8165 / 10000)), (V3 0 3 0), (V3 (sqrt 3 / 2) (3 / 2) 0).
      split; [unfold ipf_axes; rewrite T; reflexivity|]. split; [exact E0|]. split; [exact E1|]. split; [exact E2|].
      split; [apply AB; lra|]. split; [apply AB; lra|]. split; [apply AB; lra|]. split.
      { exists (V3 0 0 1), (V3 0 1 0), (V3 (1 / 2) (sqrt 3 / 2) 0). split; [reflexivity|]. split; [exact D0|]. split; [exact D1|].
        replace (V3 (sqrt 3 / 2) (3 / 2) 0) with (V3 (sqrt 3 * vx (V3 (1 / 2) (sqrt 3 / 2) 0)) (sqrt 3 * vy (V3 (1 / 2) (sqrt 3 / 2) 0)) (sqrt 3 * vz (V3 (1 / 2) (sqrt 3 / 2) 0))) by (cbn [vx vy vz]; f_equal; lra).
        apply same_dir_scale. lra. }
      unfold inside_triangle, inside_triangle_hex. cbn [side_plane vx vy vz]. change (String.eqb "hexagonal" "cubic") with false. cbv iota.
      repeat split; try lra; right; repeat split; lra.
    + exists [0; 0; 0; 1]%Z, [-1; 2; -1; 0]%Z, [-1; 1; 0; 0]%Z, (-12 / 1000), (-12 / 1000), (12 / 1000), (V3 0 0 (8165 / 10000)), (V3 0 3 0), (V3 (- (sqrt 3 / 2)) (3 / 2) 0).
      split; [unfold ipf_axes; rewrite T; reflexivity|]. split; [exact E0|]. split; [exact E1|]. split; [exact E3|].
      split; [apply AB; lra|]. split; [apply AB; lra|]. split; [apply AB; lra|]. split.
      { exists (V3 0 0 1), (V3 0 1 0), (V3 (- 1 / 2) (sqrt 3 / 2) 0). split; [reflexivity|]. split; [exact D0|]. split; [exact D1|].
        replace (V3 (- (sqrt 3 / 2)) (3 / 2) 0) with (V3 (sqrt 3 * vx (V3 (- 1 / 2) (sqrt 3 / 2) 0)) (sqrt 3 * vy (V3 (- 1 / 2) (sqrt 3 / 2) 0)) (sqrt 3 * vz (V3 (- 1 / 2) (sqrt 3 / 2) 0))) by (cbn [vx vy vz]; f_equal; lra).
        apply same_dir_scale. lra. }
      unfold inside_triangle, inside_triangle_hex. cbn [side_plane vx vy vz]. change (String.eqb "hexagonal" "cubic") with false. cbv iota.
      repeat split; try lra; right; repeat split; lra.
Qed.

(** A new plot has the three sides of the frame, and each corner has the indices of its
    direction next to it.  Missing: other conventions of hexagonal crystals. *)
Theorem C113_frame_partial : forall conv triangle g k, g = "cubic"%string \/ g = "hexagonal"%string -> (g = "hexagonal"%string -> y_along_a2 conv) ->
  exists plot a b c l0 l1 l2, new_pole conv triangle "IPF" g (project_of k) = Ok plot /\ p_layers plot = [] /\ p_bars plot = [] /\
    corners g (is_up triangle) = [a; b; c] /\ p_lines plot = [l0; l1; l2] /\
    along_side k g (is_up triangle) 0 a b l0 /\ along_side k g (is_up triangle) 1 a c l1 /\ along_side k g (is_up triangle) 2 b c l2 /\
    Forall2 (fun v t => exists P m u pad, image k v = Ok (Some P) /\ direction_of conv g m = Ok u /\ same_ray u v /\
                 idc_to_string (IntArr m) None "tex" = Ok (snd t) /\ fst t = Some (fst P, snd P + pad) /\ Rabs pad <= 12 / 1000)
            [a; b; c] (p_texts plot).
Proof.
  intros conv triangle g k G H. pose proof (frame_ends conv triangle g G H) as F. cbv zeta in F.
  destruct F as (i0 & i1 & i2 & p0 & p1 & p2 & a & b & c & X & E0 & E1 & E2 & B0 & B1 & B2 & (ca & cb & cc & CE & D0 & D1 & D2) & (I0 & I1 & I2) & (S1 & S2 & S3 & S4 & S5 & S6) & W0 & W1 & W2).
  rewrite (new_pole_ok conv triangle k g _ _ _ _ _ _ _ _ _ X E0 E1 E2). eexists. exists ca, cb, cc. eexists. eexists. eexists. split; [reflexivity|]. cbn [p_layers p_bars p_lines p_texts].
  split; [reflexivity|]. split; [reflexivity|]. split; [exact CE|]. split; [reflexivity|].
  split; [now apply drawn_side|]. split; [now apply drawn_side|]. split; [now apply drawn_side|].
  assert (T : forall v u m pad, line_end conv g m = Ok v -> inside_triangle g (is_up triangle) v -> 0 < vy v + vz v -> same_dir v u -> Rabs pad <= 12 / 1000 ->
    exists P m0 u0 pad0, image k u = Ok (Some P) /\ direction_of conv g m0 = Ok u0 /\ same_ray u0 u /\
      idc_to_string (IntArr m0) None "tex" = Ok (snd (shifted pad (img k v), concat (map (str_idx "tex") m))) /\
      fst (shifted pad (img k v), concat (map (str_idx "tex") m)) = Some (fst P, snd P + pad0) /\ Rabs pad0 <= 12 / 1000).
  { intros v u m pad E I W D B. destruct (frame_iff k g (is_up triangle) v G (weight_nonzero v W) (inside_north _ _ _ I)) as (P & EP & _). exists P, m, v, pad.
    split; [rewrite (image_scale k v u (weight_nonzero v W) D); exact EP|]. split; [exact E|]. split; [now apply same_ray_dir, same_dir_sym|]. split; [reflexivity|]. split; [|exact B].
    cbn [fst]. unfold img. rewrite EP. unfold shifted. cbn [option_map]. now rewrite Rplus_0_r. }
  repeat constructor; apply T; assumption.
Qed.
Print Assumptions C113_frame_partial.
Example C113_frame_partial_met : y_along_a2 "hkl". Proof. now left. Qed.

(** ** Points *)
Lemma two_ok k a b : exists o, project_of k [a; b] = Ok o.
Proof. destruct k; eexists; reflexivity. Qed.
Lemma points_ok k os : exists ps, map_res (fun o => match o with Some (a, b) => project_of k [a; b] | None => Ok None end) os = Ok ps /\
  Forall2 (fun o p => match o with Some (a, b) => project_of k [a; b] = Ok p | None => p = None end) os ps.
Proof.
  induction os as [|o os (ps & E & F)]; [exists []; split; [reflexivity|constructor]|].
  assert (H : exists p, match o with Some (a, b) => project_of k [a; b] | None => Ok None end = Ok p /\ match o with Some (a, b) => project_of k [a; b] = Ok p | None => p = None end).
  { destruct o as [(a, b)|]; [destruct (two_ok k a b) as (p & P); now exists p|now exists None]. }
  destruct H as (p & P & Q). exists (p :: ps). cbn [map_res]. rewrite P. cbn [bind]. rewrite E. split; [reflexivity|now constructor].
Qed.
Lemma Forall2_compose {A B C} (P : A -> B -> Prop) (Q : B -> C -> Prop) (R : A -> C -> Prop) l m n :
  (forall a b c, P a b -> Q b c -> R a c) -> Forall2 P l m -> Forall2 Q m n -> Forall2 R l n.
Proof.
  intros H F. revert n. induction F as [|a b l m PA F IH]; intros n G; inversion G; subst; constructor; eauto.
Qed.
(** A new plot of orientations is the frame with one layer of points. *)
Lemma plot_new conv triangle quats d g k bar os frame : calc_fund_dirs quats d g None triangle = Ok os -> new_pole conv triangle "IPF" g (project_of k) = Ok frame ->
  p_proj frame = project_of k -> p_layers frame = [] -> exists plot ps, plot_ipf conv triangle quats d g (project_of k) None NoColour bar = Ok plot /\
    p_lines plot = p_lines frame /\ p_texts plot = p_texts frame /\ p_layers plot = [(ps, None)] /\
    Forall2 (fun o p => match o with Some (a, b) => project_of k [a; b] = Ok p | None => p = None end) os ps.
Proof.
  intros E N PR PL. unfold plot_ipf. rewrite E. cbn [bind]. rewrite N. cbn [bind]. unfold add_points. rewrite PR, PL.
  destruct (points_ok k os) as (ps & EP & F). match goal with |- context [bind (map_res ?f os) _] => replace (map_res f os) with (@Ok (list place) ps) by (symmetry; exact EP) end. cbn [bind markers app map].
  destruct bar.
  - unfold add_bar. cbn [p_layers nth_error]. eexists. exists ps. split; [reflexivity|]. cbn [p_lines p_texts p_layers]. auto.
  - eexists. exists ps. split; [reflexivity|]. cbn [p_lines p_texts p_layers]. auto.
Qed.
Lemma frame_made conv triangle g k : known_sym g -> (g = "hexagonal"%string -> y_along_a2 conv) -> exists frame,
  new_pole conv triangle "IPF" g (project_of k) = Ok frame /\ p_proj frame = project_of k /\ p_layers frame = [].
Proof.
  intros G H. pose proof (frame_ends conv triangle g G H) as F. cbv zeta in F. destruct F as (i0 & i1 & i2 & p0 & p1 & p2 & a & b & c & X & E0 & E1 & E2 & _).
  rewrite (new_pole_ok conv triangle k g _ _ _ _ _ _ _ _ _ X E0 E1 E2). eexists. split; [reflexivity|]. now split.
Qed.
Lemma seen k g up v o p : known_sym g -> angles_of o v -> inside_triangle g up v ->
  match o with Some (a, b) => project_of k [a; b] = Ok p | None => p = None end ->
  exists P, p = Some P /\ image k v = Ok (Some P) /\ in_frame k g up P.
Proof.
  intros G A I H. destruct (image_of_angles k o v A (inside_north _ _ _ I)) as (a & b & -> & E & N).
  destruct (frame_iff k g up v G N (inside_north _ _ _ I)) as (P & EP & IFF & _). exists P. rewrite E, EP in H. injection H as <-. split; [reflexivity|]. split; [exact EP|now apply IFF].
Qed.

(** One point is drawn per orientation, at the image of the equivalent direction in the
    triangle, within the frame.  Missing: directions along a cube axis. *)
Theorem C113_cubic_partial : forall conv triangle quats d k bar, Forall unitq quats -> d <> vzero ->
  exists plot frame ps, plot_ipf conv triangle quats d "cubic" (project_of k) None NoColour bar = Ok plot /\
    new_pole conv triangle "IPF" "cubic" (project_of k) = Ok frame /\ p_lines plot = p_lines frame /\ p_texts plot = p_texts frame /\
    p_layers plot = [(ps, None)] /\
    Forall2 (fun q p => forall v, sym_image "cubic" (in_crystal q d) v -> inside_triangle_cubic v -> ~ along_c v ->
               exists P, p = Some P /\ image k v = Ok (Some P) /\ in_frame k "cubic" (is_up triangle) P) quats ps.
Proof.
  intros conv triangle quats d k bar FU D. destruct (C28_cubic_partial quats d None triangle FU D) as (os & E & F).
  destruct (frame_made conv triangle "cubic" k (or_introl eq_refl) ltac:(discriminate)) as (frame & N & PR & PL).
  destruct (plot_new conv triangle quats d "cubic" k bar os frame E N PR PL) as (plot & ps & EP & L & T & LA & FP). exists plot, frame, ps.
  do 5 (split; [assumption|]). refine (Forall2_compose _ _ _ _ _ _ _ F FP). cbv beta. intros q o p A H v IM IN NA.
  apply (seen k "cubic" (is_up triangle) v o p (or_introl eq_refl) (A v IM IN NA)); [left; auto|exact H].
Qed.
Print Assumptions C113_cubic_partial.
Example C113_cubic_partial_met : exists v, sym_image "cubic" (in_crystal qone (V3 0 1 2)) v /\ inside_triangle_cubic v /\ ~ along_c v.
Proof. exists (V3 0 1 2). pose proof C28_cubic_partial_met. tauto. Qed.
(** Directions along a cube axis are drawn at the rim of the disc, outside the frame. *)
Theorem C113_cubic_refuted : forall conv triangle, exists plot,
  plot_ipf conv triangle [qone] (V3 0 0 1) "cubic" (project_of StereoKind) None NoColour false = Ok plot /\
  p_layers plot = [([Some (1, 0)], None)] /\ ~ in_frame StereoKind "cubic" (is_up triangle) (1, 0) /\ image StereoKind (V3 0 0 1) = Ok (Some (0, 0)).
Proof.
  intros conv triangle. assert (FU : Forall unitq [qone]) by (constructor; [exact one_unit|constructor]).
  pose proof (cubic_all [qone] (V3 0 0 1) None triangle FU z_axis) as E. pose proof (C28_cubic_axis _ _ _ _ _ FU z_axis E) as A. cbn [map] in A, E. inversion A as [|x1 y1 l1 l2 A1 _ EA EB]; subst.
  rewrite one_dir in *. assert (L : vlen (V3 0 0 1) = 1) by (unfold vlen, sprod; cbn [vx vy vz]; replace (0 * 0 + 0 * 0 + 1 * 1) with 1 by ring; apply sqrt_1). rewrite L in A1.
  assert (IM : sym_image "cubic" (V3 0 0 1) (V3 0 0 1)).
  { assert (K : spapply (Pxyz, (false, false, false)) (V3 0 0 1) = V3 0 0 1) by reflexivity. rewrite <- K at 2. apply sp_image. rewrite K. cbn [vz]. lra. }
  rewrite (A1 IM) in E. destruct (frame_made conv triangle "cubic" StereoKind (or_introl eq_refl) ltac:(discriminate)) as (frame & N & PR & PL).
  destruct (plot_new conv triangle _ _ "cubic" StereoKind false _ frame E N PR PL) as (plot & ps & EP & _ & _ & LA & FP). exists plot. split; [exact EP|].
  inversion FP as [|x y l m H1 H2 H3 H4]; subst. inversion H2; subst. rewrite LA. assert (PI2 : 0 < PI) by apply PI_RGT_0.
  split; [|split].
  - rewrite image_angles_ok in H1 by lra. unfold image, project_of in H1. rewrite stereo_direction in H1; [|apply spherical_nonzero|apply north_not_down; unfold spherical; cbn [vz]; rewrite cos_PI2; lra].
    rewrite spherical_unit in H1. unfold spherical in H1. rewrite sin_PI2, cos_PI2 in H1. cbn [vx vy vz] in H1. injection H1 as <-. do 5 f_equal; field.
  - unfold in_frame. change (String.eqb "cubic" "cubic") with true. cbv iota. lra.
  - unfold image, project_of. rewrite stereo_direction; [|exact z_axis|apply north_not_down; cbn [vz]; lra]. rewrite L. cbn [vx vy vz]. do 3 f_equal; field.
Qed.
Print Assumptions C113_cubic_refuted.

Lemma up_name up : is_up (tri_name up) = up.
Proof. destruct up; reflexivity. Qed.
(** The same for hexagonal crystals.  Missing: arrays with a direction along c, and other
    conventions. *)
Theorem C113_hexagonal_partial : forall conv up quats d k bar, y_along_a2 conv -> Forall unitq quats -> d <> vzero -> Forall (fun q => ~ along_c (in_crystal q d)) quats ->
  exists plot frame ps, plot_ipf conv (tri_name up) quats d "hexagonal" (project_of k) None NoColour bar = Ok plot /\
    new_pole conv (tri_name up) "IPF" "hexagonal" (project_of k) = Ok frame /\ p_lines plot = p_lines frame /\ p_texts plot = p_texts frame /\
    p_layers plot = [(ps, None)] /\
    Forall2 (fun q p => forall v, sym_image "hexagonal" (in_crystal q d) v -> inside_triangle_hex up v ->
               exists P, p = Some P /\ image k v = Ok (Some P) /\ in_frame k "hexagonal" up P) quats ps.
Proof.
  intros conv up quats d k bar Y FU D FA. destruct (C28_hex_partial quats d up None (tri_name up) FU D eq_refl FA) as (os & E & F).
  destruct (frame_made conv (tri_name up) "hexagonal" k (or_intror eq_refl) ltac:(auto)) as (frame & N & PR & PL).
  destruct (plot_new conv (tri_name up) quats d "hexagonal" k bar os frame E N PR PL) as (plot & ps & EP & L & T & LA & FP). exists plot, frame, ps.
  do 5 (split; [assumption|]). refine (Forall2_compose _ _ _ _ _ _ _ F FP). cbv beta. intros q o p A H v IM IN.
  apply (seen k "hexagonal" up v o p (or_intror eq_refl) (A v IM IN)); [right; auto|exact H].
Qed.
Print Assumptions C113_hexagonal_partial.
Example C113_hexagonal_partial_met : y_along_a2 "hkl" /\ Forall unitq [half_turn] /\ Forall (fun q => ~ along_c (in_crystal q (V3 0 0 1))) [half_turn].
Proof. split; [now left|]. split; constructor; [exact half_turn_unit|constructor|exact half_turn_off|constructor]. Qed.
(** A direction along c is drawn at its corner. *)
Theorem C113_hexagonal_axis : forall conv up quats d k bar, y_along_a2 conv -> Forall unitq quats -> d <> vzero ->
  exists plot ps, plot_ipf conv (tri_name up) quats d "hexagonal" (project_of k) None NoColour bar = Ok plot /\ p_layers plot = [(ps, None)] /\
    Forall2 (fun q p => along_c (in_crystal q d) -> p = Some (0, 0)) quats ps /\ in_frame k "hexagonal" up (0, 0) /\ image k (V3 0 0 1) = Ok (Some (0, 0)).
Proof.
  intros conv up quats d k bar Y FU D. destruct (C28_hex_any quats d up None (tri_name up) FU D eq_refl) as (os & E & F).
  destruct (frame_made conv (tri_name up) "hexagonal" k (or_intror eq_refl) ltac:(auto)) as (frame & N & PR & PL).
  destruct (plot_new conv (tri_name up) quats d "hexagonal" k bar os frame E N PR PL) as (plot & ps & EP & _ & _ & LA & FP). exists plot, ps.
  assert (L : vlen (V3 0 0 1) = 1) by (unfold vlen, sprod; cbn [vx vy vz]; replace (0 * 0 + 0 * 0 + 1 * 1) with 1 by ring; apply sqrt_1).
  assert (Z : image k (V3 0 0 1) = Ok (Some (0, 0))).
  { unfold image, project_of. destruct k; [rewrite stereo_direction|rewrite lambert_direction]; try exact z_axis; try (apply north_not_down; cbn [vz]; lra); rewrite L; cbn [vx vy vz]; do 3 f_equal; field. }
  split; [exact EP|]. split; [exact LA|]. split; [|split; [|exact Z]].
  - refine (Forall2_compose _ _ _ _ _ _ _ F FP). cbv beta. intros q o p (A & _) H C. rewrite (A C) in H. rewrite image_angles_ok in H by (pose proof PI_RGT_0; lra).
    assert (S : spherical 0 0 = V3 0 0 1) by (unfold spherical; rewrite sin_0, cos_0; f_equal; ring). rewrite S, Z in H. now injection H as <-.
  - unfold in_frame. change (String.eqb "hexagonal" "cubic") with false. cbv iota. pose proof sqrt3_pos. destruct up, k; lra.
Qed.
Print Assumptions C113_hexagonal_axis.

(** ** Where the frame does not fit *)
Lemma project_hex ca conv a b c d : known_conv conv -> 1 / 10 ^ 10 <= ca -> exists l, project_to_orth ca (Some (IntArr [a; b; c; d])) None "mb" conv = Ok (matmul l (vZ (a - c) (b - c) d)) /\
  (((lower conv = "hkl"%string \/ lower conv = "oi"%string) /\ l = hexL_hkl ca) \/ (lower conv = "tsl"%string /\ l = hexL_tsl ca)).
Proof.
  intros K Hca. destruct (hex_create ca conv K Hca) as (l & E & F). exists l. split; [|exact F].
  unfold project_to_orth. change (String.eqb "mb" "mb") with true. cbv iota.
  rewrite convert_dir4. cbn [bind]. rewrite E. cbn [bind]. rewrite vec_ints. reflexivity.
Qed.
Lemma image_sector k v : v <> vzero -> 0 <= vz v -> exists s, 0 < s /\ image k v = Ok (Some (s * vy v, - (s * vx v))).
Proof.
  intros N Z. destruct k.
  - destruct (stereo_image v N Z) as (X & Y & s & E & S & -> & -> & _). now exists s.
  - destruct (lambert_image v N Z) as (X & Y & s & t & E & S & _ & -> & -> & _). now exists s.
Qed.
Lemma line_sector k a b n o : (1 < n)%nat -> 0 <= vz a -> 0 <= vz b -> 0 < vy a + vz a -> 0 < vy b + vz b -> In o (map (img k) (line_points a b n)) ->
  exists v s, between a b v /\ 0 < s /\ o = Some (s * vy v, - (s * vx v)).
Proof.
  intros N ZA ZB WA WB I. apply in_map_iff in I as (v & <- & I). destruct (C87_line a b n N) as (_ & _ & _ & ALL). destruct (ALL v I) as (B & _). exists v. pose proof B as (t & T & EV).
  assert (W : 0 < vy v + vz v). { rewrite EV. cbn [vy vz]. replace ((1 - t) * vy a + t * vy b + ((1 - t) * vz a + t * vz b)) with ((1 - t) * (vy a + vz a) + t * (vy b + vz b)) by ring.
    destruct (Req_EM_T t 0) as [->|NT]; [lra|]. assert (0 <= (1 - t) * (vy a + vz a)) by (apply Rmult_le_pos; lra). assert (0 < t * (vy b + vz b)) by (apply Rmult_lt_0_compat; lra). lra. }
  assert (Z : 0 <= vz v) by (rewrite EV; cbn [vz]; apply Rplus_le_le_0_compat; apply Rmult_le_pos; lra).
  destruct (image_sector k v (weight_nonzero v W) Z) as (s & S & E). exists s. split; [exact B|]. split; [exact S|]. unfold img. now rewrite E.
Qed.
Lemma one_crystal d : in_crystal qone d = d.
Proof. unfold in_crystal. assert (E : rot_matrix qone = mone). { unfold rot_matrix, qone, mone. cbn [qw qx qy qz]. f_equal; f_equal; ring. } rewrite E. apply mapply_one. Qed.
Lemma self_image u : sym_image "hexagonal" u u.
Proof.
  exists qone. split; [|left; symmetry; apply one_crystal]. change (sym_eqv "hexagonal") with (Quat false (Q4 1 0 0 0) :: tl hexagonal_symmetries). rewrite quat_one. now left.
Qed.

(** With the other convention the frame and the points are in two different sectors of 30
    degrees: here every line of the frame is on one side of a common side, and the point of
    an orientation strictly on the other. *)
Theorem C113_tsl_refuted : forall conv up k, lower conv = "tsl"%string -> exists plot X Y,
  plot_ipf conv (tri_name up) [qone] (V3 (if up then -1 else 1) 2 0) "hexagonal" (project_of k) None NoColour false = Ok plot /\
  p_layers plot = [([Some (X, Y)], None)] /\ (if up then Y * sqrt 3 < X else Y < 0) /\
  List.length (p_lines plot) = 3%nat /\
  forall l o, In l (p_lines plot) -> In o l -> exists X Y, o = Some (X, Y) /\ (if up then X <= Y * sqrt 3 else 0 <= Y).
Proof.
  intros conv up k T. set (d := V3 (if up then -1 else 1) 2 0). assert (K : known_conv conv) by (right; now right).
  assert (EH : forall a b c d, line_end conv "hexagonal" [a; b; c; d] = Ok (matmul (hexL_tsl (8165 / 10000)) (vZ (a - c) (b - c) d))).
  { intros a b c e. destruct (end_hex conv a b c e K) as (l & E & [(H & _)|(_ & ->)]); [|exact E]. exfalso. destruct H as [H|H]; rewrite H in T; discriminate T. }
  pose proof sqrt3_pos as S3. pose proof sqrt3_lt as S3'. pose proof sqrt3_sq as Q3.
  assert (E0 : line_end conv "hexagonal" [0; 0; 0; 1]%Z = Ok (V3 0 0 (8165 / 10000))).
  { rewrite EH. f_equal. change (0 - 0)%Z with 0%Z. unfold vZ, matmul, hexL_tsl, vdot. cbn [vx vy vz r0 r1 r2]. f_equal; field. }
  assert (E1 : line_end conv "hexagonal" [-1; 2; -1; 0]%Z = Ok (V3 (- (3 / 2)) (3 * (sqrt 3 / 2)) 0)).
  { rewrite EH. f_equal. change (-1 - -1)%Z with 0%Z. change (2 - -1)%Z with 3%Z. unfold vZ, matmul, hexL_tsl, vdot. cbn [vx vy vz r0 r1 r2]. f_equal; field. }
  assert (E2 : line_end conv "hexagonal" [0; 1; -1; 0]%Z = Ok (V3 0 (sqrt 3) 0)).
  { rewrite EH. f_equal. change (0 - -1)%Z with 1%Z. change (1 - -1)%Z with 2%Z. unfold vZ, matmul, hexL_tsl, vdot. cbn [vx vy vz r0 r1 r2]. f_equal; field. }
  assert (E3 : line_end conv "hexagonal" [-1; 1; 0; 0]%Z = Ok (V3 (- (3 / 2)) (sqrt 3 / 2) 0)).
  { rewrite EH. f_equal. change (-1 - 0)%Z with (-1)%Z. change (1 - 0)%Z with 1%Z. unfold vZ, matmul, hexL_tsl, vdot. cbn [vx vy vz r0 r1 r2]. f_equal; field. }
  assert (DN : d <> vzero) by (intros E; injection E; lra).
  assert (IN : inside_triangle_hex up d) by (unfold inside_triangle_hex, d; destruct up; cbn [vx vy vz]; lra).
  assert (NA : ~ along_c (in_crystal qone d)) by (rewrite one_crystal; intros (_ & H); unfold d in H; cbn [vy] in H; lra).
  assert (FU : Forall unitq [qone]) by (constructor; [exact one_unit|constructor]).
  destruct (C28_hex_partial [qone] d up None (tri_name up) FU DN eq_refl ltac:(constructor; [exact NA|constructor])) as (os & E & F).
  assert (N : exists i0 i1 i2 p0 p1 p2 a b c, ipf_axes (tri_name up) "IPF" "hexagonal" = Ok ([(i0, i1); (i0, i2); (i1, i2)], [(i0, p0); (i1, p1); (i2, p2)]) /\
    line_end conv "hexagonal" i0 = Ok a /\ line_end conv "hexagonal" i1 = Ok b /\ line_end conv "hexagonal" i2 = Ok c /\
    forall v, v = a \/ v = b \/ v = c -> 0 <= vz v /\ 0 < vy v + vz v /\ (if up then vy v <= - vx v * sqrt 3 else vx v <= 0)).
  { destruct up.
    - do 9 eexists. split; [reflexivity|]. split; [exact E0|]. split; [exact E1|]. split; [exact E3|]. intros v [-> | [-> | ->]]; cbn [vx vy vz]; lra.
    - do 9 eexists. split; [reflexivity|]. split; [exact E0|]. split; [exact E1|]. split; [exact E2|]. intros v [-> | [-> | ->]]; cbn [vx vy vz]; lra. }
  destruct N as (i0 & i1 & i2 & p0 & p1 & p2 & a & b & c & X & A & B & C & V). pose proof (new_pole_ok conv (tri_name up) k "hexagonal" _ _ _ _ _ _ _ _ _ X A B C) as N.
  destruct (plot_new conv (tri_name up) [qone] d "hexagonal" k false os _ E N eq_refl eq_refl) as (plot & ps & EP & LN & _ & LA & FP). cbn [p_lines] in LN.
  inversion F as [|q o l l' HO FT EA EB]; subst. inversion FT; subst. inversion FP as [|o' p l l' HP FT' EA EB]; subst. inversion FT'; subst.
  rewrite one_crystal in HO. specialize (HO d (self_image d) IN). destruct (image_of_angles k o d HO ltac:(unfold d; cbn [vz]; lra)) as (al & be & -> & PE & _).
  destruct (image_sector k d DN ltac:(unfold d; cbn [vz]; lra)) as (s & S & EI). rewrite PE, EI in HP. injection HP as <-.
  exists plot, (s * vy d), (- (s * vx d)). split; [exact EP|]. split; [exact LA|]. split.
  { unfold d. cbn [vx vy]. destruct up; nra. }
  rewrite LN. split; [reflexivity|]. intros l o IL IO.
  assert (LS : exists u w, (u = a \/ u = b \/ u = c) /\ (w = a \/ w = b \/ w = c) /\ l = map (img k) (line_points u w 100)).
  { cbn [In] in IL. destruct IL as [<-|[<-|[<-|[]]]]; [exists a, b|exists a, c|exists b, c]; tauto. }
  destruct LS as (u & w & U & W & ->). destruct (V u U) as (U1 & U2 & U3). destruct (V w W) as (W1 & W2 & W3).
  destruct (line_sector k u w 100 o ltac:(lia) U1 W1 U2 W2 IO) as (v & r & (t & T0 & ->) & R & ->). do 2 eexists. split; [reflexivity|]. cbn [vx vy]. destruct up.
  - replace (- (r * ((1 - t) * vx u + t * vx w)) * sqrt 3) with (r * ((1 - t) * (- vx u * sqrt 3) + t * (- vx w * sqrt 3))) by ring.
    apply Rmult_le_compat_l; [lra|]. apply Rplus_le_compat; apply Rmult_le_compat_l; lra.
  - assert ((1 - t) * vx u + t * vx w <= 0) by nra. nra.
Qed.
Print Assumptions C113_tsl_refuted.
Example C113_tsl_refuted_met : lower "tsl" = "tsl"%string. Proof. reflexivity. Qed.

(** A triangle convention other than "up" and "down": the frame is drawn as for "up", but no
    orientation can be. *)
Theorem C113_convention_refuted : forall conv triangle k p quats d given colour bar, triangle <> "up"%string -> triangle <> "down"%string -> y_along_a2 conv ->
  new_pole conv triangle "IPF" "hexagonal" (project_of k) = new_pole conv "up" "IPF" "hexagonal" (project_of k) /\
  (exists plot, new_pole conv triangle "IPF" "hexagonal" (project_of k) = Ok plot) /\
  plot_ipf conv triangle quats d "hexagonal" p given colour bar = Err UnboundLocalError.
Proof.
  intros conv triangle k p quats d given colour bar U D Y.
  assert (TU : String.eqb triangle "up" = false) by (now apply String.eqb_neq). assert (TD : String.eqb triangle "down" = false) by (now apply String.eqb_neq).
  split; [|split].
  - unfold new_pole, ipf_axes. rewrite TD. reflexivity.
  - destruct (frame_made conv triangle "hexagonal" k (or_intror eq_refl) ltac:(auto)) as (frame & N & _). now exists frame.
  - unfold plot_ipf, calc_fund_dirs, beta_range. change (String.eqb "hexagonal" "cubic") with false. change (String.eqb "hexagonal" "hexagonal") with true. cbv iota zeta. rewrite TU, TD. reflexivity.
Qed.
Print Assumptions C113_convention_refuted.
(** Nothing else can be drawn. *)
Theorem C113_other : forall conv triangle plot_type g p, plot_type <> "IPF"%string \/ (g <> "cubic"%string /\ g <> "hexagonal"%string) ->
  new_pole conv triangle plot_type g p = Err NotImplementedError /\
  (g <> "cubic"%string -> g <> "hexagonal"%string -> forall quats d given colour bar, plot_ipf conv triangle quats d g p given colour bar = Err ValueError).
Proof.
  intros conv triangle plot_type g p H. split.
  - unfold new_pole, ipf_axes. destruct H as [H|(H1 & H2)].
    + apply String.eqb_neq in H. rewrite H. reflexivity.
    + apply String.eqb_neq in H1, H2. rewrite H1, H2, !andb_false_r. reflexivity.
  - intros C X quats d given colour bar. apply String.eqb_neq in C, X. unfold plot_ipf, calc_fund_dirs, beta_range. rewrite C, X. reflexivity.
Qed.
Print Assumptions C113_other.

(** Hexagonal directions are drawn for a ratio c/a of 0.8165, whatever the material: right
    for the frame and in the basal plane, wrong for all others. *)
Theorem C113_ratio_refuted : forall conv ca u v t w, known_conv conv -> 1 / 10 ^ 10 <= ca -> (u + v + t = 0)%Z ->
  exists drawn meant, direction_of conv "hexagonal" [u; v; t; w] = Ok drawn /\ project_to_orth ca (Some (IntArr [u; v; t; w])) None "mb" conv = Ok meant /\
  (([u; v; t; w] = [0; 0; 0; 0]%Z \/ same_dir drawn meant) <-> w = 0%Z \/ (u = 0%Z /\ v = 0%Z) \/ ca = 8165 / 10000).
Proof.
  intros conv ca u v t w K Hca Z0.
  assert (Pca : 0 < ca) by (apply Rlt_le_trans with (2 := Hca); apply Rdiv_lt_0_compat; [lra|apply pow_lt; lra]).
  destruct (project_hex _ conv u v t w K ratio_ok) as (l & E & L). destruct (project_hex ca conv u v t w K Hca) as (l' & E' & L').
  exists (matmul l (vZ (u - t) (v - t) w)), (matmul l' (vZ (u - t) (v - t) w)). split; [exact E|]. split; [exact E'|].
  assert (UT : (u - t = 2 * u + v)%Z) by lia. assert (VT : (v - t = u + 2 * v)%Z) by lia. rewrite UT, VT. set (a := IZR (2 * u + v)). set (b := IZR (u + 2 * v)).
  assert (XY : exists x y, (x = 0 /\ y = 0 <-> u = 0%Z /\ v = 0%Z) /\ matmul l (vZ (2 * u + v) (u + 2 * v) w) = V3 x y (8165 / 10000 * IZR w) /\ matmul l' (vZ (2 * u + v) (u + 2 * v) w) = V3 x y (ca * IZR w)).
  { pose proof sqrt3_pos as S3. assert (AB : a = 0 /\ b = 0 <-> u = 0%Z /\ v = 0%Z).
    { unfold a, b. split; [intros (P & Q); apply eq_IZR in P, Q; lia|intros (-> & ->); split; reflexivity]. }
    assert (XC : forall c1 : bool, (if c1 then l = hexL_hkl (8165 / 10000) else l = hexL_tsl (8165 / 10000)) -> (if c1 then l' = hexL_hkl ca else l' = hexL_tsl ca) ->
      exists x y, (x = 0 /\ y = 0 <-> u = 0%Z /\ v = 0%Z) /\ matmul l (vZ (2 * u + v) (u + 2 * v) w) = V3 x y (8165 / 10000 * IZR w) /\ matmul l' (vZ (2 * u + v) (u + 2 * v) w) = V3 x y (ca * IZR w)).
    { intros [|] -> ->.
      - exists (sqrt 3 / 2 * a), (- (1 / 2) * a + b). split; [rewrite <- AB; split; [intros (P & Q); apply Rmult_integral in P as [P|P]; [lra|]; rewrite P in Q; split; lra|intros (-> & ->); split; ring]|].
        split; unfold vZ, matmul, hexL_hkl, vdot, a, b; cbn [vx vy vz r0 r1 r2]; f_equal; ring.
      - exists (a - 1 / 2 * b), (sqrt 3 / 2 * b). split; [rewrite <- AB; split; [intros (P & Q); apply Rmult_integral in Q as [Q|Q]; [lra|]; rewrite Q in P; split; lra|intros (-> & ->); split; ring]|].
        split; unfold vZ, matmul, hexL_tsl, vdot, a, b; cbn [vx vy vz r0 r1 r2]; f_equal; ring. }
    destruct L as [(C1 & ->)|(C1 & ->)], L' as [(C2 & ->)|(C2 & ->)].
    - now apply (XC true).
    - exfalso. destruct C1 as [C1|C1]; rewrite C1 in C2; discriminate C2.
    - exfalso. destruct C2 as [C2|C2]; rewrite C2 in C1; discriminate C1.
    - now apply (XC false). }
  destruct XY as (x & y & Z & -> & ->). split.
  - intros [EZ|(c & C & EQ)].
    + left. congruence.
    + injection EQ as EX EY EZ. destruct (Z.eq_dec w 0) as [W|W]; [now left|right]. destruct (Req_EM_T x 0) as [X|X].
      * destruct (Req_EM_T y 0) as [Y|Y]; [left; now apply Z|right].
        assert (c = 1) by (apply Rmult_eq_reg_r with y; [lra|exact Y]). subst c. assert (IZR w <> 0) by (apply not_0_IZR; exact W). apply Rmult_eq_reg_r with (IZR w); lra.
      * right. assert (c = 1) by (apply Rmult_eq_reg_r with x; [lra|exact X]). subst c. assert (IZR w <> 0) by (apply not_0_IZR; exact W). apply Rmult_eq_reg_r with (IZR w); lra.
  - intros [-> | [H | ->]]; right.
    + exists 1. split; [lra|]. cbn [vx vy vz]. f_equal; ring.
    + apply Z in H as (-> & ->). exists (ca / (8165 / 10000)). split; [apply Rdiv_lt_0_compat; lra|]. cbn [vx vy vz]. f_equal; field.
    + exists 1. split; [lra|]. cbn [vx vy vz]. f_equal; ring.
Qed.
Print Assumptions C113_ratio_refuted.
Example C113_ratio_refuted_met : known_conv "hkl" /\ 1 / 10 ^ 10 <= 1593 / 1000 /\ (1 + 0 + -1 = 0)%Z.
Proof. split; [now left|]. split; [|reflexivity]. pose proof ratio_ok. lra. Qed.

(** ** Drawing on a plot that is there *)
(** The points are added with the projection and frame the plot has, whatever crystal type
    and projection are asked for. *)
Theorem C113_given : forall conv triangle quats d g p plot plot' colour bar,
  plot_ipf conv triangle quats d g p (Some plot) colour bar = Ok plot' ->
  p_lines plot' = p_lines plot /\ p_texts plot' = p_texts plot /\ p_sym plot' = p_sym plot /\ p_proj plot' = p_proj plot /\
  exists os ps new, calc_fund_dirs quats d g None triangle = Ok os /\ p_layers plot' = p_layers plot ++ map (fun c => (ps, c)) new /\ new <> [] /\
    Forall2 (fun o p => match o with Some (a, b) => p_proj plot [a; b] = Ok p | None => p = None end) os ps /\
    p_bars plot' = if bar then p_bars plot ++ [0%nat] else p_bars plot.
Proof.
  intros conv triangle quats d g p plot plot' colour bar E. unfold plot_ipf in E. destruct (calc_fund_dirs quats d g None triangle) as [os|]; [|discriminate E]. cbn [bind] in E.
  unfold add_points in E. match type of E with context [bind (map_res ?f os) _] => destruct (map_res f os) as [ps|] eqn:M end; [|discriminate E]. cbn [bind] in E.
  destruct (markers colour true true) as [ms|] eqn:MK; [|discriminate E]. cbn [bind] in E. apply map_res_inv in M.
  assert (F : Forall2 (fun o p => match o with Some (a, b) => p_proj plot [a; b] = Ok p | None => p = None end) os ps).
  { clear E. induction M as [|o p' os' ps' H M IH]; constructor; [|exact IH]. destruct o as [(a, b)|]; [exact H|now injection H as <-]. }
  assert (NE : ms <> []) by (intros ->; unfold markers in MK; destruct colour as [|t|[|a [|b [|c l]]]]; discriminate MK).
  destruct bar.
  - unfold add_bar in E. cbn [p_sym p_proj p_lines p_texts p_layers p_bars] in E. destruct (nth_error _ 0); [|discriminate E]. injection E as <-. cbn [p_sym p_proj p_lines p_texts p_layers p_bars].
    do 4 (split; [reflexivity|]). exists os, ps, ms. repeat split; auto.
  - injection E as <-. cbn [p_sym p_proj p_lines p_texts p_layers p_bars]. do 4 (split; [reflexivity|]). exists os, ps, ms. repeat split; auto.
Qed.
Print Assumptions C113_given.
(** A colour bar asked for with a second set of points is that of the first set. *)
Theorem C113_bar_refuted : forall conv triangle quats quats' d d' k plot plot',
  Forall unitq quats -> d <> vzero -> plot_ipf conv triangle quats d "cubic" (project_of k) None NoColour false = Ok plot ->
  plot_ipf conv triangle quats' d' "cubic" (project_of k) (Some plot) NoColour true = Ok plot' ->
  exists first second, p_layers plot = [first] /\ p_layers plot' = [first; second] /\ p_bars plot' = [0%nat].
Proof.
  intros conv triangle quats quats' d d' k plot plot' FU D E E'. pose proof (C113_given _ _ _ _ _ _ _ _ _ _ E') as (_ & _ & _ & _ & os & ps & new & CF & L & NE & _ & B).
  destruct (C28_cubic_partial quats d None triangle FU D) as (os0 & E0 & _).
  destruct (frame_made conv triangle "cubic" k (or_introl eq_refl) ltac:(discriminate)) as (frame & N & PR & PL).
  unfold plot_ipf in E. rewrite E0 in E. cbn [bind] in E. rewrite N in E. cbn [bind] in E. unfold add_points in E. rewrite PL in E.
  match type of E with context [bind (map_res ?f os0) _] => destruct (map_res f os0) as [ps0|] end; [|discriminate E]. cbn [bind markers map app] in E. 
  assert (NL : p_layers plot = [(ps0, None)] /\ p_bars plot = []).
  { injection E as <-. cbn [p_layers p_bars]. split; [reflexivity|]. pose proof (frame_ends conv triangle "cubic" (or_introl eq_refl) ltac:(discriminate)) as FE. cbv zeta in FE.
    destruct FE as (i0 & i1 & i2 & q0 & q1 & q2 & a & b & c & X & A1 & A2 & A3 & _). rewrite (new_pole_ok conv triangle k "cubic" _ _ _ _ _ _ _ _ _ X A1 A2 A3) in N. injection N as <-. reflexivity. }
  destruct NL as (NL & NB). rewrite NL in L. rewrite NB in B. unfold plot_ipf in E'. rewrite CF in E'. cbn [bind] in E'. unfold add_points in E'.
  match type of E' with context [bind (map_res ?f os) _] => destruct (map_res f os) as [ps1|] end; [|discriminate E']. cbn [bind markers map app] in E'. rewrite NL in E'. unfold add_bar in E'. cbn [p_layers app nth_error] in E'.
  injection E' as <-. cbn [p_layers p_bars] in *. exists (ps0, None), (ps1, None). rewrite NB. repeat split; reflexivity || assumption.
Qed.
Print Assumptions C113_bar_refuted.
Lemma C113_bar_refuted_met : forall conv triangle k, exists plot plot',
  plot_ipf conv triangle [qone] (V3 0 1 2) "cubic" (project_of k) None NoColour false = Ok plot /\
  plot_ipf conv triangle [qone] (V3 0 0 1) "cubic" (project_of k) (Some plot) NoColour true = Ok plot'.
Proof.
  intros conv triangle k. assert (FU : Forall unitq [qone]) by (constructor; [exact one_unit|constructor]). assert (D : V3 0 1 2 <> vzero) by (intros E; injection E; lra).
  destruct (C28_cubic_partial [qone] (V3 0 1 2) None triangle FU D) as (os & E & _). destruct (C28_cubic_partial [qone] (V3 0 0 1) None triangle FU z_axis) as (os' & E' & _).
  destruct (frame_made conv triangle "cubic" k (or_introl eq_refl) ltac:(discriminate)) as (frame & N & PR & PL).
  unfold plot_ipf. rewrite E, E'. cbn [bind]. rewrite N. cbn [bind]. unfold add_points. rewrite PR, PL.
  destruct (points_ok k os) as (ps & EP & _). destruct (points_ok k os') as (ps' & EP' & _).
  match goal with |- context [bind (map_res ?f os) _] => replace (map_res f os) with (@Ok (list place) ps) by (symmetry; exact EP) end. cbn [bind markers app map].
  eexists. eexists. split; [reflexivity|]. cbn [p_proj p_layers p_sym p_lines p_texts p_bars].
  match goal with |- context [bind (map_res ?f os') _] => replace (map_res f os') with (@Ok (list place) ps') by (symmetry; exact EP') end. cbn [bind markers app map add_bar nth_error p_layers]. reflexivity.
Qed.
