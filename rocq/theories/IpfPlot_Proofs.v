(** Lemmas on plots of inverse pole figures. *)
From Coq Require Import String Ascii.
From Coq Require Import Reals ZArith Bool Lia Lra Psatz.
From Coq Require Import List.
From Verif Require Import Py Base_Model Base_Proofs Quat_Model Quat_Spec Quat_Proofs Crystal_Model Crystal_Spec CrystalMat_Proofs SlipSys_Proofs CrystalFamily_Proofs Pole_Model Pole_Spec Pole_Proofs
  Pole_Props Ipf_Model Ipf_Spec Text_Model Eqv_Model Eqv_Spec Eqv_Proofs IpfPlot_Model IpfPlot_Spec.
Import ListNotations.
Open Scope R_scope.

Lemma north_not_down v : 0 <= vz v -> ~ straight_down v.
Proof. intros H (_ & _ & L). lra. Qed.

(** The image of a direction on or above the plane, in numbers. *)
Lemma stereo_image v : v <> vzero -> 0 <= vz v -> exists X Y s, image StereoKind v = Ok (Some (X, Y)) /\ 0 < s /\ X = s * vy v /\ Y = - (s * vx v) /\
  (X + 1) ^ 2 + Y ^ 2 - 2 = 2 * s * (vy v - vz v) /\ X ^ 2 + Y ^ 2 - 1 = - (2 * s * vz v).
Proof.
  intros N Z. pose proof (north_not_down v Z) as D. pose proof (above_south v N D) as A. pose proof (vlen_sq v) as M. unfold sprod in M.
  exists (vy v / (vlen v + vz v)), (- (vx v / (vlen v + vz v))), (/ (vlen v + vz v)). unfold image, project_of. rewrite (stereo_direction v N D).
  set (m := vlen v) in *. split; [reflexivity|]. split; [now apply Rinv_0_lt_compat|]. split; [field; lra|]. split; [field; lra|].
  assert (E : (vx v * vx v + vy v * vy v) = (m - vz v) * (m + vz v)) by (replace ((m - vz v) * (m + vz v)) with (m * m - vz v * vz v) by ring; rewrite M; ring).
  assert (R : (vy v / (m + vz v)) ^ 2 + (- (vx v / (m + vz v))) ^ 2 = (m - vz v) / (m + vz v)).
  { replace ((vy v / (m + vz v)) ^ 2 + (- (vx v / (m + vz v))) ^ 2) with ((vx v * vx v + vy v * vy v) / ((m + vz v) * (m + vz v))) by (field; lra). rewrite E. field. lra. }
  split.
  - replace ((vy v / (m + vz v) + 1) ^ 2 + (- (vx v / (m + vz v))) ^ 2 - 2) with ((vy v / (m + vz v)) ^ 2 + (- (vx v / (m + vz v))) ^ 2 + 2 * (vy v / (m + vz v)) - 1) by ring.
    rewrite R. field. lra.
  - rewrite R. field. lra.
Qed.
Lemma lambert_image v : v <> vzero -> 0 <= vz v -> exists X Y s t, image LambertKind v = Ok (Some (X, Y)) /\ 0 < s /\ 0 < t /\ X = s * vy v /\ Y = - (s * vx v) /\
  X * sqrt (1 - (X ^ 2 + Y ^ 2) / 4) - (1 - (X ^ 2 + Y ^ 2) / 2) = t * (vy v - vz v) /\ X ^ 2 + Y ^ 2 - 2 = - (2 * t * vz v).
Proof.
  intros N Z. pose proof (north_not_down v Z) as D. pose proof (above_south v N D) as A. pose proof (vlen_sq v) as M. pose proof (vlen_pos v N) as LP. unfold sprod in M.
  set (m := vlen v) in *. set (s := sqrt (2 / (m * (m + vz v)))).
  assert (Q : 0 < 2 / (m * (m + vz v))) by (apply Rdiv_lt_0_compat; [lra|now apply Rmult_lt_0_compat]).
  assert (SP : 0 < s) by (now apply sqrt_lt_R0). assert (SS : s * s = 2 / (m * (m + vz v))) by (apply sqrt_sqrt; lra).
  exists (vy v * s), (- (vx v * s)), s, (/ m). unfold image, project_of. rewrite (lambert_direction v N D). fold m. fold s.
  split; [reflexivity|]. split; [exact SP|]. split; [now apply Rinv_0_lt_compat|]. split; [ring|]. split; [ring|].
  assert (E : (vx v * vx v + vy v * vy v) = (m - vz v) * (m + vz v)) by (replace ((m - vz v) * (m + vz v)) with (m * m - vz v * vz v) by ring; rewrite M; ring).
  assert (R : (vy v * s) ^ 2 + (- (vx v * s)) ^ 2 = 2 * (m - vz v) / m).
  { replace ((vy v * s) ^ 2 + (- (vx v * s)) ^ 2) with ((vx v * vx v + vy v * vy v) * (s * s)) by ring. rewrite SS, E. field. lra. }
  rewrite R. assert (W : sqrt (1 - 2 * (m - vz v) / m / 4) = / (m * s)).
  { apply sqrt_lem_1.
    - replace (1 - 2 * (m - vz v) / m / 4) with ((m + vz v) / (2 * m)) by (field; lra). apply Rlt_le, Rdiv_lt_0_compat; lra.
    - apply Rlt_le, Rinv_0_lt_compat, Rmult_lt_0_compat; lra.
    - replace (/ (m * s) * / (m * s)) with (/ (m * m * (s * s))) by (field; lra). rewrite SS. field. lra. }
  rewrite W. split; field; lra.
Qed.

Lemma pos_le s a b : 0 < s -> (s * a <= s * b <-> a <= b).
Proof. intros P. split; intros H; [now apply Rmult_le_reg_l with s|apply Rmult_le_compat_l; lra]. Qed.
Lemma pos_eq s a b : 0 < s -> (s * a = s * b <-> a = b).
Proof. intros P. split; intros H; [now apply Rmult_eq_reg_l with s; [|lra]|now rewrite H]. Qed.

(** The planes through the origin that bound the triangle. *)
Definition side_plane (g : string) (up : bool) (side : nat) (v : vec3) : Prop :=
  match side with
  | O => vx v = 0
  | S O => if String.eqb g "cubic" then - vx v = vy v else if up then - vx v * sqrt 3 = vy v else vx v * sqrt 3 = vy v
  | _ => if String.eqb g "cubic" then vy v = vz v else vz v = 0
  end.
Definition known_sym (g : string) : Prop := g = "cubic"%string \/ g = "hexagonal"%string.

(** A direction above the plane is in the triangle just if its image is in the frame. *)
Lemma frame_iff k g up v : known_sym g -> v <> vzero -> 0 <= vz v -> exists P, image k v = Ok (Some P) /\
  (in_frame k g up P <-> inside_triangle g up v) /\
  forall side, inside_triangle g up v -> side_plane g up side v -> on_side k g up side P.
Proof.
  intros G N Z.
  assert (H : exists X Y s, image k v = Ok (Some (X, Y)) /\ 0 < s /\ X = s * vy v /\ Y = - (s * vx v) /\
    match k with StereoKind => (X + 1) ^ 2 + Y ^ 2 - 2 = 2 * s * (vy v - vz v) /\ X ^ 2 + Y ^ 2 - 1 = - (2 * s * vz v)
    | LambertKind => exists t, 0 < t /\ X * sqrt (1 - (X ^ 2 + Y ^ 2) / 4) - (1 - (X ^ 2 + Y ^ 2) / 2) = t * (vy v - vz v) /\ X ^ 2 + Y ^ 2 - 2 = - (2 * t * vz v) end).
  { destruct k.
    - destruct (stereo_image v N Z) as (X & Y & s & H). exists X, Y, s. tauto.
    - destruct (lambert_image v N Z) as (X & Y & s & t & H). exists X, Y, s. repeat split; try tauto. exists t. tauto. }
  destruct H as (X & Y & s & E & SP & EX & EY & K). exists (X, Y). split; [exact E|].
  assert (Y0 : 0 <= Y <-> vx v <= 0) by (rewrite EY; split; intros; nra).
  assert (Y0' : Y <= 0 <-> 0 <= vx v) by (rewrite EY; split; intros; nra).
  assert (YX : Y <= X <-> - vx v <= vy v). { rewrite EX, EY. rewrite <- (pos_le s (- vx v) (vy v) SP). replace (s * - vx v) with (- (s * vx v)) by ring. tauto. }
  assert (Y3 : Y * sqrt 3 <= X <-> - vx v * sqrt 3 <= vy v). { rewrite EX, EY. rewrite <- (pos_le s _ (vy v) SP). replace (s * (- vx v * sqrt 3)) with (- (s * vx v) * sqrt 3) by ring. tauto. }
  assert (Y3' : - Y * sqrt 3 <= X <-> vx v * sqrt 3 <= vy v). { rewrite EX, EY. rewrite <- (pos_le s _ (vy v) SP). replace (s * (vx v * sqrt 3)) with (- - (s * vx v) * sqrt 3) by ring. tauto. }
  assert (IFF : in_frame k g up (X, Y) <-> inside_triangle g up v).
  { unfold in_frame, inside_triangle, inside_triangle_cubic, inside_triangle_hex. destruct G as [-> | ->].
    - change (String.eqb "cubic" "cubic") with true. cbv iota. split.
      + intros ((A & B) & C). left. split; [reflexivity|]. split; [tauto|]. split; [tauto|]. destruct k.
        * destruct K as (K & _). apply Rmult_le_reg_l with (2 * s); lra.
        * destruct C as (_ & C). destruct K as (t & T & K & _). apply Rmult_le_reg_l with t; lra.
      + intros [(_ & A & B & C)|(H & _)]; [|discriminate H]. split; [tauto|]. destruct k.
        * destruct K as (K & _). assert (0 <= 2 * s * (vz v - vy v)) by (apply Rmult_le_pos; lra). lra.
        * destruct K as (t & T & K & K'). assert (0 <= t * (vz v - vy v)) by (apply Rmult_le_pos; lra). assert (0 <= t * vz v) by (apply Rmult_le_pos; lra). lra.
    - change (String.eqb "hexagonal" "cubic") with false. cbv iota.
      assert (R : X ^ 2 + Y ^ 2 <= match k with StereoKind => 1 | LambertKind => 2 end).
      { destruct k; [|destruct K as (t & T & K)]; [assert (0 <= s * vz v)|assert (0 <= t * vz v)]; try (apply Rmult_le_pos; lra); lra. }
      split.
      + intros (A & _). right. split; [reflexivity|]. split; [exact Z|]. destruct up; tauto.
      + intros [(H & _)|(_ & _ & A)]; [discriminate H|]. split; [destruct up; tauto|exact R]. }
  split; [exact IFF|]. intros side I S. split; [now apply IFF|].
  destruct side as [|[|side]]; cbn [side_plane] in S; cbv beta iota zeta.
  - rewrite EY, S. ring.
  - destruct (String.eqb g "cubic"); [rewrite EX, EY, <- S; ring|]. destruct up; rewrite EX, EY, <- S; ring.
  - destruct (String.eqb g "cubic").
    + destruct k; [destruct K as (K & _)|destruct K as (t & T & K & _)]; rewrite S, Rminus_eq_0, Rmult_0_r in K; lra.
    + destruct k; [destruct K as (_ & K)|destruct K as (t & T & _ & K)]; rewrite S, Rmult_0_r in K; lra.
Qed.

Lemma inside_north g up v : inside_triangle g up v -> 0 <= vz v.
Proof. intros [(_ & A & B & C)|(_ & A & _)]; lra. Qed.

(** Every place of the disc is the image of a direction. *)
Lemma from_place k X Y : X ^ 2 + Y ^ 2 <= match k with StereoKind => 1 | LambertKind => 2 end ->
  exists v, v <> vzero /\ 0 <= vz v /\ image k v = Ok (Some (X, Y)).
Proof.
  intros R. destruct k.
  - set (r := X ^ 2 + Y ^ 2) in *. assert (R0 : 0 <= r) by (unfold r; nra). exists (V3 (- (2 * Y)) (2 * X) (1 - r)).
    assert (L : vlen (V3 (- (2 * Y)) (2 * X) (1 - r)) = 1 + r).
    { unfold vlen. apply sqrt_lem_1; [apply sprod_nonneg|lra|]. unfold sprod. cbn [vx vy vz]. unfold r. ring. }
    assert (N : V3 (- (2 * Y)) (2 * X) (1 - r) <> vzero).
    { intros E. assert (V : vlen (V3 (- (2 * Y)) (2 * X) (1 - r)) = 0) by (rewrite E; unfold vlen, sprod, vzero; cbn [vx vy vz]; replace (0 * 0 + 0 * 0 + 0 * 0) with 0 by ring; apply sqrt_0). lra. }
    split; [exact N|]. split; [cbn [vz]; lra|]. unfold image, project_of. rewrite stereo_direction; [|exact N|apply north_not_down; cbn [vz]; lra].
    rewrite L. cbn [vx vy vz]. do 3 f_equal; field; lra.
  - set (r := X ^ 2 + Y ^ 2) in *. assert (R0 : 0 <= r) by (unfold r; nra). set (q := sqrt (1 - r / 4)).
    assert (QP : 0 < q) by (apply sqrt_lt_R0; lra). assert (QQ : q * q = 1 - r / 4) by (apply sqrt_sqrt; lra).
    exists (V3 (- (Y * q)) (X * q) (1 - r / 2)).
    assert (L : vlen (V3 (- (Y * q)) (X * q) (1 - r / 2)) = 1).
    { unfold vlen. apply sqrt_lem_1; [apply sprod_nonneg|lra|]. unfold sprod. cbn [vx vy vz].
      replace (- (Y * q) * - (Y * q) + X * q * (X * q) + (1 - r / 2) * (1 - r / 2)) with (r * (q * q) + (1 - r / 2) * (1 - r / 2)) by (unfold r; ring). rewrite QQ. field. }
    assert (N : V3 (- (Y * q)) (X * q) (1 - r / 2) <> vzero).
    { intros E. assert (V : vlen (V3 (- (Y * q)) (X * q) (1 - r / 2)) = 0) by (rewrite E; unfold vlen, sprod, vzero; cbn [vx vy vz]; replace (0 * 0 + 0 * 0 + 0 * 0) with 0 by ring; apply sqrt_0). lra. }
    split; [exact N|]. split; [cbn [vz]; lra|]. unfold image, project_of. rewrite lambert_direction; [|exact N|apply north_not_down; cbn [vz]; lra].
    rewrite L. cbn [vx vy vz]. replace (2 / (1 * (1 + (1 - r / 2)))) with (/ (q * q)) by (rewrite QQ; field; lra).
    assert (SQ : sqrt (/ (q * q)) = / q).
    { apply sqrt_lem_1; [apply Rlt_le, Rinv_0_lt_compat, Rmult_lt_0_compat; lra|apply Rlt_le, Rinv_0_lt_compat; lra|]. field. lra. }
    rewrite SQ. do 3 f_equal; field; lra.
Qed.
Lemma frame_disc k g up X Y : in_frame k g up (X, Y) -> X ^ 2 + Y ^ 2 <= match k with StereoKind => 1 | LambertKind => 2 end.
Proof.
  unfold in_frame. destruct (String.eqb g "cubic"); [|tauto]. intros ((A & B) & C). destruct k; [|tauto]. nra.
Qed.

(** Images depend on the direction only, and polar angles give the same image. *)
Lemma image_scale k u v : u <> vzero -> same_dir u v -> image k v = image k u.
Proof.
  intros N (c & C & ->). assert (P : polar_angles (V3 (c * vx u) (c * vy u) (c * vz u)) = polar_angles u).
  { unfold polar_angles. rewrite !mod_vlen. pose proof (vlen_pos u N) as L.
    assert (E : vlen (V3 (c * vx u) (c * vy u) (c * vz u)) = c * vlen u).
    { unfold vlen. apply sqrt_lem_1; [apply sprod_nonneg|apply Rmult_le_pos; [lra|apply sqrt_pos]|].
      replace (c * sqrt (sprod u u) * (c * sqrt (sprod u u))) with (c * c * (sqrt (sprod u u) * sqrt (sprod u u))) by ring. rewrite sqrt_sqrt by apply sprod_nonneg. unfold sprod. cbn [vx vy vz]. ring. }
    rewrite E. destruct (Req_EM_T (c * vlen u) 0) as [H|_]; [apply Rmult_integral in H as [H|H]; lra|]. destruct (Req_EM_T (vlen u) 0) as [H|_]; [lra|].
    cbn [vx vy vz]. do 2 f_equal; [f_equal|f_equal]; field; lra. }
  destruct u as [x y z]. cbn [vx vy vz] in *. destruct k; unfold image, project_of, stereo_project, lambert_project, project; cbn [vx vy vz]; rewrite P; reflexivity.
Qed.
Lemma spherical_unit a b : vlen (spherical a b) = 1.
Proof.
  unfold vlen. apply sqrt_lem_1; [apply sprod_nonneg|lra|]. unfold sprod, spherical. cbn [vx vy vz].
  replace (sin a * cos b * (sin a * cos b) + sin a * sin b * (sin a * sin b) + cos a * cos a) with (sin a * sin a * (sin b * sin b + cos b * cos b) + cos a * cos a) by ring.
  pose proof (sin2_cos2 a) as A. pose proof (sin2_cos2 b) as B. unfold Rsqr in A, B. rewrite B. lra.
Qed.
Lemma spherical_nonzero a b : spherical a b <> vzero.
Proof. intros E. pose proof (spherical_unit a b) as L. rewrite E in L. unfold vlen, sprod, vzero in L. cbn [vx vy vz] in L. replace (0 * 0 + 0 * 0 + 0 * 0) with 0 in L by ring. rewrite sqrt_0 in L. lra. Qed.
Lemma image_angles_ok k a b : 0 <= a <= PI / 2 -> project_of k [a; b] = image k (spherical a b).
Proof.
  intros A. pose proof PI_RGT_0 as PP. pose proof (cos_ge_0 a ltac:(lra) ltac:(lra)) as C.
  pose proof (half_pos a ltac:(lra)) as H. pose proof (half_cos a) as HC.
  pose proof (north_not_down (spherical a b) C) as D. destruct k; unfold image, project_of.
  - rewrite (stereo_direction _ (spherical_nonzero a b) D). rewrite spherical_unit. unfold spherical. cbn [vx vy vz].
    unfold stereo_project, project, stereo. destruct (Req_EM_T (cos (a / 2)) 0) as [E|_]; [lra|]. rewrite cos_turn, sin_turn, tan_half by lra. do 3 f_equal; field; lra.
  - rewrite (lambert_direction _ (spherical_nonzero a b) D). rewrite spherical_unit. unfold spherical. cbn [vx vy vz].
    unfold lambert_project, project, lambert. rewrite cos_turn, sin_turn, chord by lra. rewrite HC.
    replace (2 / (1 * (2 * (cos (a / 2) * cos (a / 2))))) with (/ (cos (a / 2) * cos (a / 2))) by (field; lra).
    assert (SQ : sqrt (/ (cos (a / 2) * cos (a / 2))) = / cos (a / 2)).
    { apply sqrt_lem_1; [apply Rlt_le, Rinv_0_lt_compat, Rmult_lt_0_compat; lra|apply Rlt_le, Rinv_0_lt_compat; lra|]. field. lra. }
    rewrite SQ, (half_sin a). do 3 f_equal; field; lra.
Qed.
Lemma image_of_angles k o v : angles_of o v -> 0 <= vz v -> exists a b, o = Some (a, b) /\ project_of k [a; b] = image k v /\ v <> vzero.
Proof.
  intros (a & b & -> & A & B & (c & C & ->)) Z. exists a, b. split; [reflexivity|].
  assert (Q : 0 <= cos a) by (cbn [vz spherical] in Z; unfold spherical in Z; cbn [vz] in Z; apply Rmult_le_reg_l with c; lra).
  assert (A' : a <= PI / 2). { destruct (Rle_dec a (PI / 2)) as [L|L]; [exact L|]. assert (cos a < 0) by (apply cos_lt_0; lra). lra. }
  split.
  - rewrite image_angles_ok by lra. symmetry. apply image_scale; [apply spherical_nonzero|]. exists c. split; [exact C|reflexivity].
  - intros E. apply (spherical_nonzero a b). injection E as E1 E2 E3. unfold spherical, vzero.
    f_equal; apply Rmult_eq_reg_l with c; try lra; rewrite ?Rmult_0_r; assumption.
Qed.

(** Ends of lines. *)
Lemma ratio_ok : 1 / 10 ^ 10 <= 8165 / 10000.
Proof. apply Rle_trans with (1 / 10); [|lra]. apply Rmult_le_compat_l; [lra|]. apply Rinv_le_contravar; [lra|]. simpl. lra. Qed.
Lemma end_hex conv a b c d : known_conv conv -> exists l, line_end conv "hexagonal" [a; b; c; d] = Ok (matmul l (vZ (a - c) (b - c) d)) /\
  (((lower conv = "hkl"%string \/ lower conv = "oi"%string) /\ l = hexL_hkl (8165 / 10000)) \/ (lower conv = "tsl"%string /\ l = hexL_tsl (8165 / 10000))).
Proof.
  intros K. destruct (hex_create (8165 / 10000) conv K ratio_ok) as (l & E & F). exists l. split; [|exact F].
  unfold line_end. change (String.eqb "hexagonal" "hexagonal") with true. cbv iota.
  unfold project_to_orth. change (String.eqb "mb" "mb") with true. cbv iota.
  rewrite convert_dir4. cbn [bind]. rewrite E. cbn [bind]. rewrite vec_ints. reflexivity.
Qed.
Lemma end_direction conv g p : line_end conv g p = direction_of conv g p.
Proof. reflexivity. Qed.

(** Three numbers are always projected. *)
Definition img (k : proj_kind) (v : vec3) : place := match image k v with Ok o => o | Err _ => None end.
Lemma image_img k v : project_of k [vx v; vy v; vz v] = Ok (img k v).
Proof. unfold img, image. destruct k; unfold project_of, stereo_project, lambert_project, project; destruct (polar_angles _) as [(a, b)|]; reflexivity. Qed.
Definition shifted (pad : R) (o : place) : place := option_map (fun P => (fst P + 0, snd P + pad)) o.
Lemma add_line_ok conv k n g ls ts la ba p q s e : line_end conv g p = Ok s -> line_end conv g q = Ok e ->
  add_line conv n false (Pole g (project_of k) ls ts la ba) (p, q) = Ok (Pole g (project_of k) (ls ++ [map (img k) (line_points s e n)]) ts la ba).
Proof.
  intros S E. unfold add_line. cbn [fst snd p_sym p_proj p_lines p_texts p_layers p_bars]. rewrite S, E. cbn [bind lines_drawn map_res fst snd].
  rewrite (map_res_ok _ _ _ (img k)) by (intros; apply image_img). reflexivity.
Qed.
Lemma add_label_ok conv k g ls ts la ba p pad v : line_end conv g p = Ok v ->
  add_label conv None false 0 (Pole g (project_of k) ls ts la ba) (p, pad) =
  Ok (Pole g (project_of k) ls (ts ++ [(shifted pad (img k v), concat (map (str_idx "tex") p))]) la ba).
Proof.
  intros S. unfold add_label. cbn [fst snd p_sym p_proj p_lines p_texts p_layers p_bars].
  assert (L : label_point conv g p None false = Ok [(v, concat (map (str_idx "tex") p))]).
  { unfold label_point. cbv zeta. cbn [bind idc_to_string]. unfold line_end in S. destruct (String.eqb g "hexagonal"); rewrite S; reflexivity. }
  rewrite L. cbn [bind map_res fst snd]. rewrite image_img. reflexivity.
Qed.
Lemma new_pole_ok conv triangle k g i0 i1 i2 p0 p1 p2 a b c :
  ipf_axes triangle "IPF" g = Ok ([(i0, i1); (i0, i2); (i1, i2)], [(i0, p0); (i1, p1); (i2, p2)]) ->
  line_end conv g i0 = Ok a -> line_end conv g i1 = Ok b -> line_end conv g i2 = Ok c ->
  new_pole conv triangle "IPF" g (project_of k) =
  Ok (Pole g (project_of k)
        [map (img k) (line_points a b 100); map (img k) (line_points a c 100); map (img k) (line_points b c 100)]
        [(shifted p0 (img k a), concat (map (str_idx "tex") i0)); (shifted p1 (img k b), concat (map (str_idx "tex") i1)); (shifted p2 (img k c), concat (map (str_idx "tex") i2))]
        [] []).
Proof.
  intros X A B C. unfold new_pole. rewrite X. cbn [bind fst snd each].
  rewrite (add_line_ok _ _ _ _ _ _ _ _ _ _ _ _ A B). cbn [bind]. rewrite (add_line_ok _ _ _ _ _ _ _ _ _ _ _ _ A C). cbn [bind]. rewrite (add_line_ok _ _ _ _ _ _ _ _ _ _ _ _ B C). cbn [bind].
  rewrite (add_label_ok _ _ _ _ _ _ _ _ _ _ A). cbn [bind]. rewrite (add_label_ok _ _ _ _ _ _ _ _ _ _ B). cbn [bind]. rewrite (add_label_ok _ _ _ _ _ _ _ _ _ _ C). cbn [bind].
  reflexivity.
Qed.

(** Sums of directions of the triangle are in it, and on its planes. *)
Lemma between_inside g up a b v : known_sym g -> inside_triangle g up a -> inside_triangle g up b -> between a b v -> inside_triangle g up v.
Proof.
  intros G A B (t & T & ->). unfold inside_triangle in *. destruct G as [-> | ->].
  - destruct A as [(_ & A)|(E & _)]; [|discriminate E]. destruct B as [(_ & B)|(E & _)]; [|discriminate E]. left. split; [reflexivity|].
    unfold inside_triangle_cubic in *. cbn [vx vy vz]. repeat split; nra.
  - destruct A as [(E & _)|(_ & A)]; [discriminate E|]. destruct B as [(E & _)|(_ & B)]; [discriminate E|]. right. split; [reflexivity|].
    unfold inside_triangle_hex in *. cbn [vx vy vz]. split; [nra|]. pose proof sqrt3_pos. destruct up.
    + split; [nra|]. replace (- ((1 - t) * vx a + t * vx b) * sqrt 3) with ((1 - t) * (- vx a * sqrt 3) + t * (- vx b * sqrt 3)) by ring.
      apply Rplus_le_compat; apply Rmult_le_compat_l; lra.
    + split; [nra|]. replace (((1 - t) * vx a + t * vx b) * sqrt 3) with ((1 - t) * (vx a * sqrt 3) + t * (vx b * sqrt 3)) by ring.
      apply Rplus_le_compat; apply Rmult_le_compat_l; lra.
Qed.
Lemma between_plane g up side a b v : side_plane g up side a -> side_plane g up side b -> between a b v -> side_plane g up side v.
Proof.
  intros A B (t & T & ->). destruct side as [|[|side]]; cbn [side_plane vx vy vz] in *.
  - rewrite A, B. ring.
  - destruct (String.eqb g "cubic"); [rewrite <- A, <- B; ring|]. destruct up; rewrite <- A, <- B; ring.
  - destruct (String.eqb g "cubic"); rewrite A, B; ring.
Qed.
