(** Proofs about maps that are saved and loaded. *)
From Coq Require Import String Ascii Reals Lra.
From Coq Require Import List ZArith Bool Lia.
Import ListNotations.
From Verif Require Import Py Grid Grid_Lemmas Flood_Model FloodExt_Proofs Quat_Model Quat_Spec Quat_Proofs QuatSym_Proofs QuatEuler_Proofs
  Crystal_Model Text_Model Ctf_Model Ctf_Spec Ctf_Props Boundary_Model Boundary_Spec Boundary_Proofs BoundaryOri_Proofs
  Base_Model Ebsd_Model EbsdState_Model EbsdLoad_Model EbsdLoad_Spec.
Open Scope Z_scope.

(** ** Boundaries depend on the pixels of the map *)
Lemma nonzero_ext W H a b : (forall p, inside W H p -> a p = b p) -> nonzero_T W H a = nonzero_T W H b.
Proof.
  intros E. unfold nonzero_T. apply filter_ext_in. intros [x y] I. apply in_flat_map in I as (x' & X & I).
  apply in_map_iff in I as (y' & Q & Y). apply zseq_In in X, Y. injection Q as <- <-. apply E. unfold inside; cbn [fst snd]. lia.
Qed.
Lemma phase_x_ext W H ph ph' p : (forall p, inside W H p -> ph p = ph' p) -> inside W H p -> phase_x W ph p = phase_x W ph' p.
Proof.
  intros E I. unfold phase_x. destruct (fst p =? W - 1); [reflexivity|]. rewrite (E p I). rewrite E; [reflexivity|].
  unfold inside in *; cbn [fst snd]. split; [apply Z.mod_pos_bound|]; lia.
Qed.
Lemma phase_y_ext W H ph ph' p : (forall p, inside W H p -> ph p = ph' p) -> inside W H p -> phase_y H ph p = phase_y H ph' p.
Proof.
  intros E I. unfold phase_y. destruct (snd p =? H - 1); [reflexivity|]. rewrite (E p I). rewrite E; [reflexivity|].
  unfold inside in *; cbn [fst snd]. split; [|apply Z.mod_pos_bound]; lia.
Qed.
Lemma bounds_ext W H g ori ori' ph ph' tol :
  (forall p, inside W H p -> ph p = ph' p) ->
  (forall p q, inside W H p -> inside W H q -> adjacent p q ->
     exceeds tol (pair_misori g (ori p) (ori q)) = exceeds tol (pair_misori g (ori' p) (ori' q))) ->
  bounds_of W H g ori ph tol = bounds_of W H g ori' ph' tol.
Proof.
  intros EP EO. unfold bounds_of, from_image.
  rewrite (nonzero_ext W H (phase_x W ph) (phase_x W ph')) by (intros; eapply phase_x_ext; eauto).
  rewrite (nonzero_ext W H (phase_y H ph) (phase_y H ph')) by (intros; eapply phase_y_ext; eauto).
  do 2 f_equal; apply nonzero_ext; intros p I.
  - rewrite (phase_x_ext W H ph ph' p EP I). f_equal. destruct (fst p <? W - 1) eqn:C; [|reflexivity].
    apply EO; auto; unfold inside, adjacent in *; cbn [fst snd]; lia.
  - rewrite (phase_y_ext W H ph ph' p EP I). f_equal. destruct (snd p <? H - 1) eqn:C; [|reflexivity].
    apply EO; auto; unfold inside, adjacent in *; cbn [fst snd]; lia.
Qed.
Lemma grains_ext W H n b ph ph' k : 0 <= W -> (forall p, inside W H p -> ph p = ph' p) ->
  grains_of W H n b ph k = grains_of W H n b ph' k.
Proof.
  intros W0 E. unfold grains_of. destruct (bs_image W H (bs_x (snd b))); cbn [bind]; [|reflexivity].
  destruct (bs_image W H (bs_y (snd b))); cbn [bind]; [|reflexivity].
  now rewrite (find_grains_ext W H W0 _ _ ph ph').
Qed.

(** ** Misorientations that are near *)
Open Scope R_scope.
Lemma misori_le_angle a b g : unitq a -> unitq b -> 2 * acos (mis_ori a b g) <= rot_angle a b.
Proof.
  intros Ua Ub. unfold rot_angle. destruct (mis_ori_greatest a b g) as [M _]. destruct (sym_head g) as (t & T).
  specialize (M qone). rewrite T in M. specialize (M (or_introl eq_refl)). cbv beta in M. rewrite hprod_1_l in M.
  apply Rmult_le_compat_l; [lra|]. pose proof (mis_ori_range a b g Ua Ub). pose proof (Rabs_pos (inner a b)).
  pose proof (inner_bound a b Ua Ub).
  apply Rnot_lt_le. intros C. apply cos_decreasing_1 in C; try apply acos_bound. rewrite !cos_acos in C by lra. lra.
Qed.
Lemma misori_near g a b a' b' d : unitq a -> unitq b -> unitq a' -> unitq b' -> rot_angle a' a <= d -> rot_angle b' b <= d ->
  Rabs (2 * acos (mis_ori a' b' g) - 2 * acos (mis_ori a b g)) <= 2 * d.
Proof.
  intros Ua Ub Ua' Ub' Da Db.
  pose proof (misori_le_angle a' a g Ua' Ua). pose proof (misori_le_angle b' b g Ub' Ub).
  pose proof (mis_ori_triangle a' a b' g Ua' Ua Ub'). pose proof (mis_ori_triangle a b b' g Ua Ub Ub').
  pose proof (mis_ori_triangle a a' b g Ua Ua' Ub). pose proof (mis_ori_triangle a' b' b g Ua' Ub' Ub).
  rewrite (mis_ori_sym a a') in *. rewrite (mis_ori_sym b b') in *. apply Rabs_le. lra.
Qed.
Lemma exceeds_iff g a b tol : unitq a -> unitq b ->
  exceeds tol (pair_misori g (Some a) (Some b)) = true <-> tol < degrees_between g a b.
Proof.
  intros Ua Ub. unfold exceeds, pair_misori, gtb, degrees_between. rewrite neighbour_misori_spec by auto. pose proof PI_RGT_0 as P.
  set (m := 2 * acos (mis_ori a b g)).
  assert (Q : tol < 180 / PI * m <-> tol * (PI / 180) < m).
  { split; intros L.
    - apply (Rmult_lt_compat_r (PI / 180)) in L; [|lra]. replace (180 / PI * m * (PI / 180)) with m in L by (field; lra). exact L.
    - apply (Rmult_lt_compat_l (180 / PI)) in L; [|apply Rdiv_lt_0_compat; lra].
      replace (180 / PI * (tol * (PI / 180))) with tol in L by (field; lra). exact L. }
  rewrite Q. destruct (Rlt_dec _ _); split; congruence || auto.
Qed.
Lemma exceeds_near g a b a' b' tol : unitq a -> unitq b -> unitq a' -> unitq b' ->
  rot_angle a' a <= 15 / 10000 * (PI / 180) -> rot_angle b' b <= 15 / 10000 * (PI / 180) ->
  (degrees_between g a b <= tol - 3 / 1000 \/ tol + 3 / 1000 < degrees_between g a b) ->
  exceeds tol (pair_misori g (Some a') (Some b')) = exceeds tol (pair_misori g (Some a) (Some b)).
Proof.
  intros Ua Ub Ua' Ub' Da Db D. pose proof PI_RGT_0 as P.
  pose proof (misori_near g a b a' b' _ Ua Ub Ua' Ub' Da Db) as N.
  assert (M : Rabs (degrees_between g a' b' - degrees_between g a b) <= 3 / 1000).
  { unfold degrees_between. rewrite <- Rmult_minus_distr_l, Rabs_mult, (Rabs_pos_eq (180 / PI)).
    - replace (3 / 1000) with (180 / PI * (2 * (15 / 10000 * (PI / 180)))) by (field; lra).
      apply Rmult_le_compat_l; [|exact N]. apply Rlt_le, Rdiv_lt_0_compat; lra.
    - apply Rlt_le, Rdiv_lt_0_compat; lra. }
  assert (T : degrees_between g a' b' <= tol /\ degrees_between g a b <= tol \/ tol < degrees_between g a' b' /\ tol < degrees_between g a b).
  { unfold Rabs in M. destruct (Rcase_abs _) in M; destruct D; [left|right|left|right]; lra. }
  pose proof (exceeds_iff g a' b' tol Ua' Ub') as I'. pose proof (exceeds_iff g a b tol Ua Ub) as I.
  destruct (exceeds tol (pair_misori g (Some a') (Some b'))), (exceeds tol (pair_misori g (Some a) (Some b))); try reflexivity; exfalso.
  - destruct I' as [I' _]. destruct I as [_ I]. specialize (I' eq_refl). destruct T as [[T1 T2]|[T1 T2]]; [lra|]. discriminate (I T2).
  - destruct I' as [_ I']. destruct I as [I _]. specialize (I eq_refl). destruct T as [[T1 T2]|[T1 T2]]; [lra|]. discriminate (I' T1).
Qed.
Open Scope Z_scope.

(** ** What is found *)
Section Found.
Variables K G : Type.
Notation ebsd := (ebsd K G).
(** The boundaries and grains in terms of orientations and phases. *)
Lemma outcome_is (e : ebsd) g tol n : structure (e_names K G e) K G (e_map K G e) = Ok g ->
  outcome K G e tol n =
    let b := bounds_of (e_cols K G e) (e_rows K G e) g (ori_of K G (e_map K G e)) (em_phase K G (e_map K G e)) tol in
    (Ok b, grains_of (e_cols K G e) (e_rows K G e) (Z.of_nat (List.length (e_names K G e))) b (em_phase K G (e_map K G e)) n).
Proof.
  intros E. unfold outcome, gen_bounds. rewrite E. set (m := e_map K G e). unfold gen_grains, call_find_grains.
  cbn -[bounds_of grains_of]. change (ori_of K G (keep_ori K G m)) with (ori_of K G m).
  set (b := bounds_of _ _ _ _ _ _). destruct (grains_of _ _ _ b _ n) as [[lab gl]|x]; reflexivity.
Qed.
End Found.

(** ** Angles of three decimals *)
Open Scope R_scope.
Definition milli (x : R) : Prop := exists n : Z, x * 180 / PI = IZR n / 1000.
Lemma flat_c q a b c : unitq q -> euler_angles q = (a, b, c) -> sin b = 0 -> c = 0.
Proof.
  intros U E SB. destruct q as [q0 q1 q2 q3]. unfold unitq in U. cbn [qw qx qy qz] in U. unfold euler_angles in E. cbv zeta in E.
  set (P := (q0 ^ 2 + q3 ^ 2) * (q1 ^ 2 + q2 ^ 2)) in E.
  assert (P0 : 0 <= P) by (unfold P; apply Rmult_le_pos; nra).
  assert (SP : sqrt P * sqrt P = P) by now apply sqrt_sqrt.
  destruct (Req_EM_T (sqrt P) 0) as [Z|N].
  - destruct (Req_EM_T (q1 ^ 2 + q2 ^ 2) 0); apply pair_equal_spec in E as [_ E]; destruct (Rlt_dec 0 0) in E; lra.
  - exfalso. apply pair_equal_spec in E as [E _]. apply pair_equal_spec in E as [_ E].
    destruct (arctan2_cs1 (2 * sqrt P) (q0 ^ 2 + q3 ^ 2 - q1 ^ 2 - q2 ^ 2)) as [_ S'].
    { replace (2 * sqrt P * (2 * sqrt P)) with (4 * (sqrt P * sqrt P)) by ring. rewrite SP. unfold P.
      assert (T : q0 ^ 2 + q3 ^ 2 + (q1 ^ 2 + q2 ^ 2) = 1) by lra.
      transitivity ((q0 ^ 2 + q3 ^ 2 + (q1 ^ 2 + q2 ^ 2)) ^ 2); [ring|rewrite T; ring]. }
    rewrite E in S'. lra.
Qed.
Lemma turns x a : milli x -> - (2 * PI) <= x <= 4 * PI -> 0 <= a < 2 * PI -> cos a = cos x -> sin a = sin x -> milli a.
Proof.
  intros (n & N) X A C S. pose proof PI_RGT_0 as P.
  assert (CS : forall k : Z, cos (x + 2 * IZR k * PI) = cos x /\ sin (x + 2 * IZR k * PI) = sin x).
  { intros k. rewrite cos_plus, sin_plus. assert (cos (2 * IZR k * PI) = 1 /\ sin (2 * IZR k * PI) = 0) as [-> ->]; [|lra].
    assert (Q : sin (IZR k * PI) = 0) by (apply sin_eq_0_1; now exists k).
    replace (2 * IZR k * PI) with (2 * (IZR k * PI)) by ring. rewrite sin_2a, cos_2a_sin, Q. split; ring. }
  assert (M : exists k : Z, 0 <= x + 2 * IZR k * PI < 2 * PI).
  { destruct (Rlt_dec x 0); [exists 1%Z|destruct (Rlt_dec x (2 * PI)); [exists 0%Z|destruct (Rlt_dec x (4 * PI)); [exists (-1)%Z|exists (-2)%Z]]]; lra. }
  destruct M as (k & M). destruct (CS k) as [Ck Sk]. assert (a = x + 2 * IZR k * PI) as -> by (apply cs_inj; congruence || lra).
  exists (n + k * 360000)%Z. rewrite plus_IZR, mult_IZR. replace ((x + 2 * IZR k * PI) * 180 / PI) with (x * 180 / PI + IZR k * 360) by (field; lra).
  rewrite N. field.
Qed.
Lemma rounded_milli x y : rounded_deg 3 x y -> milli y.
Proof.
  intros (d & ((n & ->) & _) & ->). exists n. pose proof PI_RGT_0. field. lra.
Qed.
Lemma milli_rounded x y : milli x -> rounded_deg 3 x y -> y = x.
Proof.
  intros (m & M) (d & ((n & ->) & D) & ->). rewrite M in D. pose proof PI_RGT_0.
  assert (n = m) as ->.
  { assert (-1 < n - m < 1)%Z; [|lia]. rewrite <- Rmult_minus_distr_r in D || idtac.
    replace (IZR n / 10 ^ 3 - IZR m / 1000) with ((IZR n - IZR m) / 1000) in D by field. rewrite <- minus_IZR in D.
    unfold Rabs in D. split; apply lt_IZR; destruct (Rcase_abs _) in D; lra. }
  assert (E : IZR m / 10 ^ 3 = x * 180 / PI) by (rewrite M; field). rewrite E. field. lra.
Qed.
Lemma rounded_range (hi : Z) x y : (0 <= hi)%Z -> 0 <= x <= IZR hi * PI -> rounded_deg 3 x y -> 0 <= y <= IZR hi * PI.
Proof.
  intros H0 X (d & ((n & ->) & D) & ->). pose proof PI_RGT_0 as P.
  assert (Q : 0 <= x * 180 / PI <= IZR hi * 180).
  { replace (x * 180 / PI) with (x * (180 / PI)) by (field; lra). assert (K : 0 < 180 / PI) by (apply Rdiv_lt_0_compat; lra). split; [nra|].
    replace (IZR hi * 180) with (IZR hi * PI * (180 / PI)) by (field; lra). apply Rmult_le_compat_r; lra. }
  assert (N : (0 <= n <= hi * 180000)%Z).
  { assert (-1 < n < hi * 180000 + 1)%Z; [|lia]. unfold Rabs in D. split; apply lt_IZR; rewrite ?plus_IZR, ?mult_IZR; destruct (Rcase_abs _) in D; lra. }
  destruct N as [N1 N2]. apply IZR_le in N1, N2. rewrite mult_IZR in N2.
  replace (IZR n / 10 ^ 3 * PI / 180) with (IZR n * (PI / 180000)) by field. assert (K : 0 < PI / 180000) by lra.
  split; [apply Rmult_le_pos; lra|]. replace (IZR hi * PI) with (IZR hi * 180000 * (PI / 180000)) by field. apply Rmult_le_compat_r; lra.
Qed.
Lemma milli_wrap x : milli x -> 0 <= x <= 2 * PI -> exists y, milli y /\ 0 <= y < 2 * PI /\ cos y = cos x /\ sin y = sin x.
Proof.
  intros M X. pose proof PI_RGT_0. destruct (Rlt_dec x (2 * PI)).
  - exists x. repeat split; auto; lra.
  - assert (x = 2 * PI) as -> by lra. exists 0. rewrite cos_2PI, sin_2PI, cos_0, sin_0. repeat split; try lra. exists 0%Z. field. lra.
Qed.
(** The angles of a rotation with angles of three decimals have three decimals. *)
Lemma settled f1 f2 f3 a b c : milli f1 -> milli f2 -> milli f3 -> 0 <= f1 <= 2 * PI -> 0 <= f2 <= PI -> 0 <= f3 <= 2 * PI ->
  euler_angles (from_euler_angles f1 f2 f3) = (a, b, c) -> milli a /\ milli b /\ milli c.
Proof.
  intros M1 M2 M3 R1 R2 R3 E. pose proof PI_RGT_0 as P. pose proof (euler_unit f1 f2 f3) as U.
  destruct (euler_angles_spec _ a b c U E) as ((Ra & Rb & Rc) & S).
  assert (B : bunge f1 f2 f3 = bunge a b c) by (rewrite <- !euler_bunge; symmetry; now apply rot_same).
  destruct (milli_wrap f1 M1 R1) as (g1 & N1 & Q1 & C1 & S1). destruct (milli_wrap f3 M3 R3) as (g3 & N3 & Q3 & C3 & S3).
  destruct (Rlt_dec 0 f2) as [L|L]; [destruct (Rlt_dec f2 PI) as [L'|L']|].
  - rewrite <- (bunge_entries g1 f2 g3 f1 f2 f3) in B by auto.
    destruct (bunge_inj g1 f2 g3 a b c Q1 (conj L L') Q3 Ra Rb Rc B) as (<- & <- & <-). auto.
  - assert (f2 = PI) as -> by lra. destruct (bunge_last f1 PI f3) as (Z1 & _). destruct (bunge_last a b c) as (Z2 & _).
    rewrite B, Z2 in Z1. rewrite cos_PI in Z1.
    assert (SB : sin b = 0) by (pose proof (cs1 b); nra). pose proof (flat_c _ _ _ _ U E SB) as ->.
    assert (MB : b = PI). { assert (cos b = cos PI) as CB by (rewrite cos_PI; exact Z1). destruct (Req_dec b PI); auto. exfalso.
      assert (cos PI < cos b); [apply cos_decreasing_1; lra|lra]. }
    subst b. split; [|split; [exact M2|exists 0%Z; field; lra]].
    apply (turns (f1 - f3)); [|lra|lra|..].
    + destruct M1 as (n1 & E1), M3 as (n3 & E3). exists (n1 - n3)%Z. rewrite minus_IZR.
      replace ((f1 - f3) * 180 / PI) with (f1 * 180 / PI - f3 * 180 / PI) by (field; lra). rewrite E1, E3. field.
    + apply (f_equal (fun m => vx (r0 m))) in B. unfold bunge, rotz, rotx, mprod, col0, col1, col2, sprod in B; cbn [vx vy vz r0 r1 r2] in B.
      rewrite cos_PI, cos_0, sin_PI, sin_0 in B. rewrite cos_minus. lra.
    + apply (f_equal (fun m => vy (r0 m))) in B. unfold bunge, rotz, rotx, mprod, col0, col1, col2, sprod in B; cbn [vx vy vz r0 r1 r2] in B.
      rewrite cos_PI, cos_0, sin_PI, sin_0 in B. rewrite sin_minus. lra.
  - assert (f2 = 0) as -> by lra. destruct (bunge_last f1 0 f3) as (Z1 & _). destruct (bunge_last a b c) as (Z2 & _).
    rewrite B, Z2 in Z1. rewrite cos_0 in Z1.
    assert (SB : sin b = 0) by (pose proof (cs1 b); nra). pose proof (flat_c _ _ _ _ U E SB) as ->.
    assert (MB : b = 0). { destruct (Req_dec b 0); auto. exfalso. assert (cos b < cos 0); [apply cos_decreasing_1; lra|]. rewrite cos_0 in *. lra. }
    subst b. split; [|split; [exact M2|exists 0%Z; field; lra]].
    apply (turns (f1 + f3)); [|lra|lra|..].
    + destruct M1 as (n1 & E1), M3 as (n3 & E3). exists (n1 + n3)%Z. rewrite plus_IZR.
      replace ((f1 + f3) * 180 / PI) with (f1 * 180 / PI + f3 * 180 / PI) by (field; lra). rewrite E1, E3. field.
    + apply (f_equal (fun m => vx (r0 m))) in B. unfold bunge, rotz, rotx, mprod, col0, col1, col2, sprod in B; cbn [vx vy vz r0 r1 r2] in B.
      rewrite !cos_0, !sin_0 in B. rewrite cos_plus. lra.
    + apply (f_equal (fun m => vy (r0 m))) in B. unfold bunge, rotz, rotx, mprod, col0, col1, col2, sprod in B; cbn [vx vy vz r0 r1 r2] in B.
      rewrite !cos_0, !sin_0 in B. rewrite sin_plus. lra.
Qed.
(** Writing and reading such angles once more gives the same rotation. *)
Lemma again q e1 e2 e3 f1 f2 f3 a b c f1' f2' f3' : unitq q -> euler_angles q = (e1, e2, e3) ->
  rounded_deg 3 e1 f1 -> rounded_deg 3 e2 f2 -> rounded_deg 3 e3 f3 ->
  euler_angles (from_euler_angles f1 f2 f3) = (a, b, c) ->
  rounded_deg 3 a f1' -> rounded_deg 3 b f2' -> rounded_deg 3 c f3' ->
  same_rot (from_euler_angles f1' f2' f3') (from_euler_angles f1 f2 f3).
Proof.
  intros U E D1 D2 D3 E' D1' D2' D3'. destruct (euler_angles_spec _ _ _ _ U E) as ((R1 & R2 & R3) & _).
  destruct (settled f1 f2 f3 a b c) as (Ma & Mb & Mc); eauto using rounded_milli.
  1,3: eapply (rounded_range 2); [lia| |eassumption]; lra.
  - replace PI with (IZR 1 * PI) by lra. eapply (rounded_range 1); [lia| |eassumption]; lra.
  - rewrite (milli_rounded a f1'), (milli_rounded b f2'), (milli_rounded c f3') by auto.
    eapply euler_angles_spec; [|exact E']. apply euler_unit.
Qed.
