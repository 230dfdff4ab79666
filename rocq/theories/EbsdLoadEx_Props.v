(** C120: examples, and where grains do not survive. *)
From Coq Require Import String Ascii Reals Lra Psatz.
From Coq Require Import List ZArith Bool Lia.
Import ListNotations.
From Verif Require Import Py Grid Grid_Lemmas Quat_Model Quat_Spec Quat_Proofs QuatSym_Proofs QuatEuler_Proofs
  Crystal_Model CrystalMat_Proofs Text_Model Ctf_Model Ctf_Spec Ctf_Props Boundary_Model Boundary_Spec BoundaryOri_Proofs
  Base_Model Ebsd_Model EbsdState_Model EbsdLoad_Model EbsdLoad_Spec EbsdLoad_Proofs EbsdLoad_Props.
Open Scope R_scope.

(** Crystals turned about x. *)
Definition tilted (deg : R) : quat := from_euler_angles 0 (deg * (PI / 180)) 0.
Lemma tilted_same d : same_rot (tilted d) (Q4 (cos (d * (PI / 360))) (- sin (d * (PI / 360))) 0 0).
Proof.
  unfold tilted, from_euler_angles. eapply same_rot_trans; [apply Quat_same|]. left.
  replace ((0 + 0) / 2) with 0 by lra. replace ((0 - 0) / 2) with 0 by lra. rewrite cos_0, sin_0.
  replace (d * (PI / 180) / 2) with (d * (PI / 360)) by lra. f_equal; lra.
Qed.
Lemma tilted_inner s a b : Rabs (inner (tilted a) (hprod s (tilted b))) =
  Rabs (qw s * cos ((b - a) * (PI / 360)) + qx s * sin ((b - a) * (PI / 360))).
Proof.
  rewrite (Rabs_inner_same _ _ _ _ (tilted_same a) (same_rot_hprod _ _ _ _ (same_rot_refl s) (tilted_same b))).
  rewrite Rmult_minus_distr_r, cos_minus, sin_minus. f_equal. destruct s as [w x y z]. unfold inner, hprod. cbn [qw qx qy qz]. ring.
Qed.
Lemma cubic_ops s : In s (sym_eqv "cubic") -> s = qone \/ Rabs (qw s) <= 71 / 100 /\ Rabs (qx s) <= 1.
Proof.
  change (sym_eqv "cubic") with cubic_symmetries. rewrite cubic_exact. intros I.
  assert (R2 : 0 <= sqrt 2 <= 142 / 100).
  { split; [apply sqrt_pos|]. rewrite <- (sqrt_square (142 / 100)) by lra. apply sqrt_le_1; lra. }
  cbn [map cubic_z] in I. repeat (destruct I as [I|I]; [subst s; try (left; unfold zqval, zval, i1, o, qone; cbn [fst snd zw zx zy zz]; f_equal; lra);
    right; unfold zqval, zval, o, i1, h, mh, QuatSym_Proofs.s, ms; cbn [fst snd zw zx zy zz qw qx]; split; apply Rabs_le; lra|]).
  destruct I.
Qed.
Lemma small_cs d : 0 <= d <= 20 -> 97 / 100 <= cos (d * (PI / 360)) /\ 0 <= sin (d * (PI / 360)) <= 23 / 100.
Proof.
  intros D. pose proof PI_RGT_0. pose proof PI_4. pose proof PI2_1.
  set (x := d * (PI / 360)). assert (X : 0 <= x <= 20 * (PI / 360)) by (unfold x; split; [apply Rmult_le_pos; lra|apply Rmult_le_compat_r; lra]).
  assert (SL : forall y, 0 <= y -> sin y <= y) by (intros y [Y| <-]; [apply Rlt_le, sin_lt_x, Y|rewrite sin_0; lra]).
  pose proof (SL x (proj1 X)). assert (0 <= sin x) by (apply sin_ge_0; lra).
  pose proof (SL (x / 2) ltac:(lra)). assert (0 <= sin (x / 2)) by (apply sin_ge_0; lra).
  assert (C : cos x = 1 - 2 * sin (x / 2) * sin (x / 2)) by (replace x with (2 * (x / 2)) at 1 by field; apply cos_2a_sin).
  split; [rewrite C; nra|lra].
Qed.
(** The misorientation of cubic crystals turned about x, up to 20 degrees. *)
Lemma tilted_degrees a b : a <= b <= a + 20 -> degrees_between "cubic" (tilted a) (tilted b) = b - a.
Proof.
  intros D. unfold degrees_between. pose proof PI_RGT_0 as P. pose proof PI_4.
  destruct (small_cs (b - a) ltac:(lra)) as (C & S). set (x := (b - a) * (PI / 360)) in *.
  assert (M : mis_ori (tilted a) (tilted b) "cubic" = cos x).
  { destruct (mis_ori_greatest (tilted a) (tilted b) "cubic") as [G (s & I & E)]. destruct (sym_head "cubic") as (t & T).
    assert (I1 : In qone (sym_eqv "cubic")) by (rewrite T; now left).
    specialize (G qone I1). cbv beta in G, E. rewrite tilted_inner in G. fold x in G. cbn [qone qw qx] in G.
    replace (1 * cos x + 0 * sin x) with (cos x) in G by ring. rewrite Rabs_pos_eq in G by lra.
    rewrite tilted_inner in E. fold x in E. destruct (cubic_ops s I) as [->|[B1 B2]].
    - cbn [qone qw qx] in E. replace (1 * cos x + 0 * sin x) with (cos x) in E by ring. rewrite Rabs_pos_eq in E by lra. congruence.
    - exfalso. assert (Rabs (qw s * cos x + qx s * sin x) <= 71 / 100 + 23 / 100).
      { eapply Rle_trans; [apply Rabs_triang|]. rewrite !Rabs_mult, (Rabs_pos_eq (cos x)), (Rabs_pos_eq (sin x)) by lra.
        pose proof (COS_bound x). pose proof (Rabs_pos (qw s)). pose proof (Rabs_pos (qx s)). nra. }
      lra. }
  rewrite M, acos_cos.
  - unfold x. field. lra.
  - unfold x. split; [apply Rmult_le_pos; lra|]. apply (Rle_trans _ (20 * (PI / 360))); [apply Rmult_le_compat_r; lra|lra].
Qed.
Open Scope Z_scope.
(** One row of two pixels, of phases cubic and hexagonal; all pixels are of the first. *)
Definition two_phases : list phase_in :=
  [PhaseIn (lit "Ni") 11 (36 / 10, 36 / 10, 36 / 10)%R (PI / 2, PI / 2, PI / 2)%R;
   PhaseIn (lit "Ti") 9 (295 / 100, 295 / 100, 468 / 100)%R (PI / 2, PI / 2, 2 * PI / 3)%R].
Definition pair_map (primary : Z) (a b : R) : ebsd unit unit :=
  EBSD unit unit 1 2 (1 / 2)%R two_phases
    (EMap unit unit (fun p => (0, (if fst p =? 0 then a else b) * (PI / 180), 0)%R) (Some (fun p => 100 + fst p)) None (fun _ => 1) primary
       None None None None None None None None).
Definition pair_ori (a b : R) (p : pix) : quat := tilted (if fst p =? 0 then a else b).
Lemma pair_savable i a b : savable unit unit (pair_map i a b).
Proof.
  exists (fun p => 100 + fst p). split; [reflexivity|]. unfold readable. cbn [contents pair_map mi_rows mi_cols mi_phases mi_phase mi_bc e_rows e_cols e_phases e_map em_phase].
  split; [lia|]. split; [lia|]. split; [discriminate|]. split.
  - intros p [<-|[<-|[]]]; (split; [split; [|split]; cbn; intuition discriminate|]); [now left|right; cbn; split; [reflexivity|lra]].
  - intros p [I _]. lia.
Qed.
Lemma pair_shows i a b : shows_ori unit unit (pair_map i a b) (pair_ori a b).
Proof. intros p _. split; [|apply euler_unit]. unfold pair_ori, tilted. reflexivity. Qed.
Lemma pair_inmap p : inside 2 1 p <-> p = (0, 0) \/ p = (1, 0).
Proof.
  destruct p as [x y]. unfold inside. cbn [fst snd]. split.
  - intros I. assert (y = 0) as -> by lia. destruct (Z.eq_dec x 0) as [->|]; [now left|]. assert (x = 1) as -> by lia. now right.
  - intros [E|E]; injection E as -> ->; lia.
Qed.
Definition no_files : files := fun _ => None.
Lemma pair_stored i a b : exists e1 fs' e', save_map unit unit no_files (lit "map") None (pair_map i a b) = (e1, Ok fs') /\
  load_map unit unit "hkl" fs' (ctf_path (lit "map")) = Ok e'.
Proof.
  destruct (save_map unit unit no_files (lit "map") None (pair_map i a b)) as [e1 r] eqn:S. pose proof S as S'.
  unfold save_map in S'. cbn [get_writer] in S'. change (txt_eqb (lit "OxfordText") (lit "OxfordText")) with true in S'. cbn iota in S'.
  apply pair_equal_spec in S' as [_ S']. change (em_bc _ _ _) with (Some (fun p : pix => 100 + fst p)) in S'. cbn iota beta in S'.
  match type of S' with save _ _ _ ?m = _ => destruct (C57_can_save no_files (lit "map") m eq_refl) as (fs' & F) end.
  rewrite F in S'. subst r.
  assert (KC : known_conv "hkl") by (left; reflexivity).
  destruct (C120_loads unit unit "hkl" no_files (lit "map") _ e1 _ fs' KC (pair_savable i a b) (pair_shows i a b) S) as (e' & _ & L & _).
  exists e1, fs', e'. auto.
Qed.
(** Hypotheses of C120_grains_partial, C120_again: neighbours of 20 and 40 degrees, tolerance 10. *)
Example C120_ex : exists e1 fs' e', known_conv "hkl" /\ savable unit unit (pair_map 0 20 40) /\ shows_ori unit unit (pair_map 0 20 40) (pair_ori 20 40) /\
  em_primary unit unit (e_map unit unit (pair_map 0 20 40)) = 0 /\ hd_error (e_names unit unit (pair_map 0 20 40)) = Some "cubic"%string /\
  save_map unit unit no_files (lit "map") None (pair_map 0 20 40) = (e1, Ok fs') /\
  load_map unit unit "hkl" fs' (ctf_path (lit "map")) = Ok e' /\ decided unit unit (pair_map 0 20 40) "cubic" (pair_ori 20 40) 10.
Proof.
  destruct (pair_stored 0 20 40) as (e1 & fs' & e' & S & L).
  assert (KC : known_conv "hkl") by (left; reflexivity). pose proof (pair_savable 0 20 40) as SV. pose proof (pair_shows 0 20 40) as SO.
  exists e1, fs', e'. split; [exact KC|]. split; [exact SV|]. split; [exact SO|]. split; [reflexivity|]. split; [reflexivity|]. split; [exact S|]. split; [exact L|].
  intros p q Ip Iq A. apply pair_inmap in Ip, Iq. right. unfold adjacent in A.
  destruct Ip as [-> | ->], Iq as [-> | ->]; cbn [fst snd] in A; try lia; unfold pair_ori; cbn [fst Z.eqb].
  - rewrite tilted_degrees; lra.
  - unfold degrees_between. rewrite mis_ori_sym. fold (degrees_between "cubic" (tilted 20) (tilted 40)). rewrite tilted_degrees; lra.
Qed.

(** ** Where grains do not survive *)
Lemma pair_bound g ori tol q1 q2 : unitq q1 -> unitq q2 -> ori (0, 0) = Some q1 -> ori (1, 0) = Some q2 -> forall ph, ph (0, 0) = ph (1, 0) ->
  In (0, 0) (bs_x (snd (bounds_of 2 1 g ori ph tol))) <-> (tol < degrees_between g q1 q2)%R.
Proof.
  intros U1 U2 E1 E2 ph EP. unfold bounds_of, from_image, boundary_set. cbn [snd bs_x]. rewrite Boundary_Proofs.py_set_In. unfold nonzero_T. rewrite filter_In.
  cbn [fst snd]. change (0 <? 2 - 1) with true. cbn iota. rewrite E1. change (0 + 1) with 1. rewrite E2.
  rewrite orb_true_iff. rewrite exceeds_iff by auto. unfold phase_x. cbn [fst snd]. change (0 =? 2 - 1) with false. cbn iota.
  change ((0 + 1) mod 2) with 1. rewrite EP, Z.eqb_refl. cbn [negb]. split; [intros [_ [B|B]]; [exact B|discriminate]|].
  intros B. split; [|now left]. cbn. now left.
Qed.
Lemma near_thousandth n d f : (Rabs (IZR n / 1000 - d) < 1 / 2000)%R -> rounded_deg 3 (d * (PI / 180)) f -> f = (IZR n / 1000 * (PI / 180))%R.
Proof.
  intros N (y & ((m & ->) & D) & ->). pose proof PI_RGT_0.
  replace (d * (PI / 180) * 180 / PI)%R with d in D by (field; lra). assert (E : (IZR m / 10 ^ 3 = IZR m / 1000)%R) by field. rewrite E in *.
  assert (m = n) as ->; [|field].
  assert (-1 < m - n < 1); [|lia]. apply Rabs_def2 in N. destruct N as [N1 N2]. unfold Rabs in D.
  split; apply lt_IZR; rewrite minus_IZR; destruct (Rcase_abs _) in D; lra.
Qed.
(** What is loaded of such a map: turned by the nearest thousandths of a degree. *)
Lemma pair_loaded i a b m n e1 fs' e' : (0 < a < 180)%R -> (0 < b < 180)%R ->
  (Rabs (IZR m / 1000 - a) < 1 / 2000)%R -> (Rabs (IZR n / 1000 - b) < 1 / 2000)%R ->
  save_map unit unit no_files (lit "map") None (pair_map i a b) = (e1, Ok fs') -> load_map unit unit "hkl" fs' (ctf_path (lit "map")) = Ok e' ->
  e_rows unit unit e' = 1 /\ e_cols unit unit e' = 2 /\ e_names unit unit e' = ["cubic"; "hexagonal"]%string /\ em_primary unit unit (e_map unit unit e') = 0 /\
  em_phase unit unit (e_map unit unit e') (0, 0) = 1 /\ em_phase unit unit (e_map unit unit e') (1, 0) = 1 /\
  ori_of unit unit (e_map unit unit e') (0, 0) = Some (tilted (IZR m / 1000)) /\ ori_of unit unit (e_map unit unit e') (1, 0) = Some (tilted (IZR n / 1000)).
Proof.
  intros A B M N S L. assert (KC : known_conv "hkl") by (left; reflexivity).
  destruct (loads_as unit unit "hkl" no_files (lit "map") _ e1 fs' KC (pair_savable i a b) S) as (x & bc & bc' & L' & R & C & _ & PH & P0 & _ & _ & _ & PX).
  rewrite L in L'. injection L' as <-. apply names_kept in PH.
  assert (I0 : inside 2 1 (0, 0)) by (apply pair_inmap; auto). assert (I1 : inside 2 1 (1, 0)) by (apply pair_inmap; auto).
  destruct (PX _ I0) as (F0 & _ & X0). destruct (PX _ I1) as (F1 & _ & X1).
  assert (T : forall d k f1 f2 f3 x1 x2 x3, (0 < d < 180)%R -> (Rabs (IZR k / 1000 - d) < 1 / 2000)%R -> euler_angles (tilted d) = (x1, x2, x3) ->
            rounded_deg 3 x1 f1 -> rounded_deg 3 x2 f2 -> rounded_deg 3 x3 f3 -> from_euler_angles f1 f2 f3 = tilted (IZR k / 1000)).
  { intros d k f1 f2 f3 x1 x2 x3 D NR E R1 R2 R3. pose proof PI_RGT_0 as P. unfold tilted in E. rewrite euler_round in E; [|lra| |lra].
    - injection E as <- <- <-. assert (Z0 : milli 0) by (exists 0; field; lra).
      rewrite (milli_rounded 0 f1), (milli_rounded 0 f3), (near_thousandth k d f2); auto.
    - split; [apply Rmult_lt_0_compat; lra|]. replace PI with (180 * (PI / 180))%R at 2 by field. apply Rmult_lt_compat_r; lra. }
  split; [exact R|]. split; [exact C|]. split; [exact PH|]. split; [exact P0|]. split; [exact F0|]. split; [exact F1|]. split.
  - destruct (X0 (tilted a) (proj1 (pair_shows i a b _ I0)) (euler_unit _ _ _)) as (x1 & x2 & x3 & f1 & f2 & f3 & E & -> & R1 & R2 & R3 & _).
    f_equal. eauto.
  - destruct (X1 (tilted b) (proj1 (pair_shows i a b _ I1)) (euler_unit _ _ _)) as (x1 & x2 & x3 & f1 & f2 & f3 & E & -> & R1 & R2 & R3 & _).
    f_equal. eauto.
Qed.

(** Neighbours misoriented by 10.0004 degrees are 10 degrees apart once loaded, which is within
    the tolerance of 10: a boundary is lost. *)
Theorem C120_tolerance_refuted : exists e e1 e' ori fs' b b', known_conv "hkl" /\ savable unit unit e /\ shows_ori unit unit e ori /\ em_primary unit unit (e_map unit unit e) = 0 /\
  save_map unit unit no_files (lit "map") None e = (e1, Ok fs') /\ load_map unit unit "hkl" fs' (ctf_path (lit "map")) = Ok e' /\
  forall n, fst (outcome unit unit e 10 n) = Ok b /\ fst (outcome unit unit e' 10 n) = Ok b' /\
    In (0, 0) (bs_x (snd b)) /\ ~ In (0, 0) (bs_x (snd b')).
Proof.
  destruct (pair_stored 0 20 (300004 / 10000)) as (e1 & fs' & e' & S & L).
  destruct (pair_loaded 0 20 (300004 / 10000) 20000 30000 e1 fs' e') as (R & C & NM & P0 & F0 & F1 & O0 & O1);
    [lra|lra|apply Rabs_def1; lra|apply Rabs_def1; lra|exact S|exact L|].
  eexists _, e1, e', (pair_ori 20 (300004 / 10000)), fs', _, _. split; [left; reflexivity|]. split; [apply pair_savable|]. split; [apply pair_shows|]. split; [reflexivity|]. split; [exact S|]. split; [exact L|].
  intros n. split; [rewrite (outcome_is unit unit _ "cubic"); [reflexivity|reflexivity]|].
  split; [rewrite (outcome_is unit unit _ "cubic"); [reflexivity|unfold structure; rewrite P0, NM; reflexivity]|].
  cbn [e_rows e_cols pair_map]. rewrite R, C. split.
  - eapply (pair_bound "cubic" _ 10 (tilted 20) (tilted (300004 / 10000))); try apply euler_unit; try reflexivity. rewrite tilted_degrees; lra.
  - intros I. eapply (pair_bound "cubic" _ 10 (tilted (20000 / 1000)) (tilted (30000 / 1000)) (euler_unit _ _ _) (euler_unit _ _ _) O0 O1) in I; [|congruence].
    rewrite tilted_degrees in I; lra.
Qed.
Print Assumptions C120_tolerance_refuted.

(** The primary phase is not saved: crystals turned by 90 degrees differ for the hexagonal phase,
    which was the primary one, but not for the cubic one, which is after loading. *)
Lemma hex_ops s : In s (sym_eqv "hexagonal") -> (qw s = 0 \/ qx s = 0)%R /\ unitq s.
Proof.
  intros I. split; [|now apply (sym_group "hexagonal")]. change (sym_eqv "hexagonal") with hexagonal_symmetries in I. rewrite hex_exact in I.
  cbn [map hex_z] in I. repeat (destruct I as [I|I]; [subst s; unfold zqval, zval, o, i1, h, mh, QuatSym_Proofs.s, ms; cbn [fst snd zw zx zy zz qw qx]; (left; lra) || (right; lra)|]).
  destruct I.
Qed.
Open Scope R_scope.
Lemma hex_quarter a : 90 <= degrees_between "hexagonal" (tilted a) (tilted (a + 90)).
Proof.
  unfold degrees_between. pose proof PI_RGT_0 as P. destruct (mis_ori_greatest (tilted a) (tilted (a + 90)) "hexagonal") as [_ (s & I & E)].
  cbv beta in E. rewrite tilted_inner in E. replace ((a + 90 - a) * (PI / 360)) with (PI / 4) in E by lra.
  destruct (hex_ops s I) as [Z U]. unfold unitq in U.
  pose proof (mis_ori_range (tilted a) (tilted (a + 90)) "hexagonal" (euler_unit _ _ _) (euler_unit _ _ _)) as MR.
  set (m := mis_ori _ _ _) in *. set (c := cos (PI / 4)) in *. assert (SC : sin (PI / 4) = c) by (unfold c; rewrite sin_cos_PI4; reflexivity).
  rewrite SC in E. assert (C0 : 0 < c) by (apply cos_gt_0; lra).
  assert (M : m <= c).
  { rewrite <- E. replace (qw s * c + qx s * c) with ((qw s + qx s) * c) by ring. rewrite Rabs_mult, (Rabs_pos_eq c) by lra.
    assert (Rabs (qw s + qx s) <= 1); [|nra]. apply Rabs_le. destruct Z as [Z|Z]; rewrite Z in *; nra. }
  assert (A : PI / 4 <= acos m).
  { apply Rnot_lt_le. intros L. apply cos_decreasing_1 in L; [|apply acos_bound|apply acos_bound|lra|lra]. rewrite cos_acos in L by lra. fold c in L. lra. }
  replace 90 with (180 / PI * (2 * (PI / 4))) by (field; lra). apply Rmult_le_compat_l; [apply Rlt_le, Rdiv_lt_0_compat; lra|lra].
Qed.
Lemma cubic_quarter a : degrees_between "cubic" (tilted a) (tilted (a + 90)) = 0.
Proof.
  unfold degrees_between. destruct (mis_ori_greatest (tilted a) (tilted (a + 90)) "cubic") as [G _].
  pose proof (mis_ori_range (tilted a) (tilted (a + 90)) "cubic" (euler_unit _ _ _) (euler_unit _ _ _)) as MR.
  set (m := mis_ori _ _ _) in *. set (s := zqval 2 2 (ZQ QuatSym_Proofs.s QuatSym_Proofs.s o o)).
  assert (I : In s (sym_eqv "cubic")).
  { change (sym_eqv "cubic") with cubic_symmetries. rewrite cubic_exact. apply in_map. unfold cubic_z. cbn [In]. tauto. }
  specialize (G s I). cbv beta in G. rewrite tilted_inner in G. replace ((a + 90 - a) * (PI / 360)) with (PI / 4) in G by lra.
  rewrite cos_PI4, sin_PI4 in G. unfold s, zqval, zval, QuatSym_Proofs.s in G. cbn [fst snd zw zx zy zz qw qx] in G.
  replace ((0 + 1 * sqrt 2) / 2 * (1 / sqrt 2) + (0 + 1 * sqrt 2) / 2 * (1 / sqrt 2)) with 1 in G by (field; apply Rgt_not_eq, sqrt_lt_R0; lra).
  rewrite Rabs_R1 in G. assert (m = 1) as -> by lra. rewrite acos_1. ring.
Qed.
Theorem C120_primary_refuted : exists e e1 e' ori fs' b b', known_conv "hkl" /\ savable unit unit e /\ shows_ori unit unit e ori /\
  em_primary unit unit (e_map unit unit e) = 1%Z /\ e_names unit unit e = ["cubic"; "hexagonal"]%string /\
  save_map unit unit no_files (lit "map") None e = (e1, Ok fs') /\ load_map unit unit "hkl" fs' (ctf_path (lit "map")) = Ok e' /\
  decided unit unit e "hexagonal" ori 10 /\
  forall n, fst (outcome unit unit e 10 n) = Ok b /\ fst (outcome unit unit e' 10 n) = Ok b' /\
    In (0, 0)%Z (bs_x (snd b)) /\ ~ In (0, 0)%Z (bs_x (snd b')).
Proof.
  destruct (pair_stored 1 20 110) as (e1 & fs' & e' & S & L).
  destruct (pair_loaded 1 20 110 20000 110000 e1 fs' e') as (R & C & NM & P0 & F0 & F1 & O0 & O1);
    [lra|lra|apply Rabs_def1; lra|apply Rabs_def1; lra|exact S|exact L|].
  pose proof (hex_quarter 20) as HQ. replace (20 + 90) with 110 in HQ by lra.
  eexists _, e1, e', (pair_ori 20 110), fs', _, _. split; [left; reflexivity|]. split; [apply pair_savable|]. split; [apply pair_shows|]. split; [reflexivity|].
  split; [reflexivity|]. split; [exact S|]. split; [exact L|]. split.
  { intros p q Ip Iq A. apply pair_inmap in Ip, Iq. right. unfold adjacent in A.
    destruct Ip as [-> | ->], Iq as [-> | ->]; cbn [fst snd] in A; try lia; unfold pair_ori; cbn [fst Z.eqb]; [lra|].
    unfold degrees_between. rewrite mis_ori_sym. fold (degrees_between "hexagonal" (tilted 20) (tilted 110)). lra. }
  intros n. split; [rewrite (outcome_is unit unit _ "hexagonal"); [reflexivity|reflexivity]|].
  split; [rewrite (outcome_is unit unit _ "cubic"); [reflexivity|unfold structure; rewrite P0, NM; reflexivity]|].
  cbn [e_rows e_cols pair_map]. rewrite R, C. split.
  - eapply (pair_bound "hexagonal" _ 10 (tilted 20) (tilted 110)); try apply euler_unit; try reflexivity. lra.
  - intros I. eapply (pair_bound "cubic" _ 10 (tilted (20000 / 1000)) (tilted (110000 / 1000)) (euler_unit _ _ _) (euler_unit _ _ _) O0 O1) in I; [|congruence].
    replace (110000 / 1000) with (20000 / 1000 + 90) in I by lra. rewrite cubic_quarter in I. lra.
Qed.
Print Assumptions C120_primary_refuted.
