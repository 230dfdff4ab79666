(** Properties of inverse pole figure directions and colours (C28). *)
From Coq Require Import Reals List ZArith Bool Lia Lra Psatz String Permutation.
Import ListNotations.
From Verif Require Import Py Quat_Model Quat_Spec Quat_Proofs QuatSym_Proofs QuatMany_Proofs Pole_Model Pole_Spec Pole_Proofs Ipf_Model Ipf_Spec Ipf_Proofs IpfHex_Proofs IpfColour_Proofs.
Open Scope R_scope.

Lemma Forall2_map_r : forall {A B} (P : A -> B -> Prop) (f : A -> B) l, (forall x, In x l -> P x (f x)) -> Forall2 P l (map f l).
Proof. intros A B P f l H. induction l as [|x l IH]; cbn [map]; constructor; [apply H; now left|apply IH; intros y I; apply H; now right]. Qed.
Lemma z_axis : V3 0 0 1 <> vzero.
Proof. intros E. injection E as E. lra. Qed.
Lemma one_unit : unitq qone.
Proof. unfold unitq, qone. cbn [qw qx qy qz]. ring. Qed.
Lemma one_dir : in_crystal qone (V3 0 0 1) = V3 0 0 1.
Proof. unfold in_crystal, mapply, rot_matrix, qone, sprod. cbn [qw qx qy qz vx vy vz r0 r1 r2]. f_equal; ring. Qed.

(** ** Cubic crystals *)
(** Every direction has exactly one symmetric image in the triangle. *)
Theorem C28_cubic_image : forall u, exists v, sym_image "cubic" u v /\ inside_triangle_cubic v /\
  forall w, sym_image "cubic" u w -> inside_triangle_cubic w -> w = v.
Proof.
  intros u. destruct (sorted_of u) as (((a, b), c) & SO). cbn [fst snd] in SO. pose proof SO as ((C0 & CB) & BA & _). exists (V3 (- c) b a).
  destruct (three u a b c SO) as (p & s1 & _ & _ & E1 & _). split; [|split].
  - rewrite <- E1. apply sp_image. rewrite E1. cbn [vz]. lra.
  - unfold inside_triangle_cubic. cbn [vx vy vz]. lra.
  - intros w IM IN. exact (image_inside u w a b c SO IM IN).
Qed.
Print Assumptions C28_cubic_image.
(** The image in the triangle is the one reported, for every orientation in the array,
    unless it is the corner along z. *)
Theorem C28_cubic_partial : forall quats d triangle default, Forall unitq quats -> d <> vzero ->
  exists os, calc_fund_dirs quats d "cubic" triangle default = Ok os /\
    Forall2 (fun q o => forall v, sym_image "cubic" (in_crystal q d) v -> inside_triangle_cubic v -> ~ along_c v -> angles_of o v) quats os.
Proof.
  intros quats d triangle default FU D. eexists. split; [now apply cubic_all|]. apply Forall2_map_r. intros q I v IM IN A.
  rewrite Forall_forall in FU. pose proof (in_crystal_nonzero q d (FU q I) D) as N. destruct (sorted_of (in_crystal q d)) as (((a, b), c) & SO). cbn [fst snd] in SO.
  pose proof (image_inside _ v a b c SO IM IN) as E. pose proof (cubic_angles_ok _ a b c N SO) as K. unfold fund_c in K. subst v. destruct (Req_EM_T b 0) as [->|_]; [|exact K].
  exfalso. apply A. unfold along_c. cbn [vx vy]. destruct SO as ((C0 & CB) & _). split; lra.
Qed.
Print Assumptions C28_cubic_partial.
Lemma C28_cubic_partial_met : unitq qone /\ V3 0 1 2 <> vzero /\ sym_image "cubic" (in_crystal qone (V3 0 1 2)) (V3 0 1 2) /\ inside_triangle_cubic (V3 0 1 2) /\ ~ along_c (V3 0 1 2).
Proof.
  split; [exact one_unit|]. split; [intros E; injection E as E; lra|]. split; [|split; [unfold inside_triangle_cubic; cbn [vx vy vz]; lra|unfold along_c; cbn [vx vy]; lra]].
  assert (E : in_crystal qone (V3 0 1 2) = V3 0 1 2) by (unfold in_crystal, mapply, rot_matrix, qone, sprod; cbn [qw qx qy qz vx vy vz r0 r1 r2]; f_equal; ring). rewrite E.
  assert (K : spapply (Pxyz, (false, false, false)) (V3 0 1 2) = V3 0 1 2) by reflexivity. rewrite <- K at 2. apply sp_image. rewrite K. cbn [vz]. lra.
Qed.
(** In that corner the direction reported is 90 degrees from z whatever the axis. *)
Theorem C28_cubic_axis : forall quats d triangle default os, Forall unitq quats -> d <> vzero -> calc_fund_dirs quats d "cubic" triangle default = Ok os ->
  Forall2 (fun q o => sym_image "cubic" (in_crystal q d) (V3 0 0 (vlen (in_crystal q d))) -> o = Some (PI / 2, PI / 2)) quats os.
Proof.
  intros quats d triangle default os FU D E. rewrite cubic_all in E by assumption. injection E as <-. apply Forall2_map_r. intros q I IM.
  rewrite Forall_forall in FU. pose proof (in_crystal_nonzero q d (FU q I) D) as N. pose proof (vlen_pos _ N) as L. set (u := in_crystal q d) in *.
  destruct (sorted_of u) as (((a, b), c) & SO). cbn [fst snd] in SO.
  assert (IN : inside_triangle_cubic (V3 0 0 (vlen u))) by (unfold inside_triangle_cubic; cbn [vx vy vz]; lra).
  pose proof (image_inside u _ a b c SO IM IN) as E. injection E as E1 E2 E3. rewrite (cubic_angles_eq u _ _ _ (sorted_hat u a b c N SO)). rewrite <- E2, <- E3.
  unfold fund_c. destruct (Req_EM_T (0 / vlen u) 0) as [_|X]; [|elim X; field; lra]. unfold ang. cbn [vx vy vz]. rewrite acos_0. do 2 f_equal. unfold arctan2.
  destruct (Rlt_dec 0 0) as [X|_]; [lra|]. destruct (Rlt_dec 0 0) as [X|_]; [lra|]. destruct (Rlt_dec 0 _) as [_|X]; [reflexivity|]. elim X. replace (vlen u / vlen u) with 1 by (field; lra). lra.
Qed.
Print Assumptions C28_cubic_axis.
Theorem C28_cubic_refuted : ~ (forall quats d triangle default os, Forall unitq quats -> d <> vzero -> calc_fund_dirs quats d "cubic" triangle default = Ok os ->
  Forall2 (fun q o => exists v, angles_of o v /\ inside_triangle_cubic v) quats os).
Proof.
  intros H. assert (FU : Forall unitq [qone]) by (constructor; [exact one_unit|constructor]).
  pose proof (cubic_all [qone] (V3 0 0 1) None "up" FU z_axis) as E. pose proof (C28_cubic_axis _ _ _ _ _ FU z_axis E) as A. specialize (H _ _ _ _ _ FU z_axis E).
  cbn [map] in A, H. inversion A as [|x1 y1 l1 l2 A1 _ EA EB]; subst. inversion H as [|x2 y2 l3 l4 (v & AV & T1 & T2 & T3) _ EC ED]; subst. rewrite one_dir in *.
  assert (L : vlen (V3 0 0 1) = 1) by (unfold vlen, sprod; cbn [vx vy vz]; replace (0 * 0 + 0 * 0 + 1 * 1) with 1 by ring; apply sqrt_1). rewrite L in A1.
  assert (IM : sym_image "cubic" (V3 0 0 1) (V3 0 0 1)).
  { assert (K : spapply (Pxyz, (false, false, false)) (V3 0 0 1) = V3 0 0 1) by reflexivity. rewrite <- K at 2. apply sp_image. rewrite K. cbn [vz]. lra. }
  rewrite (A1 IM) in AV. destruct AV as (al & be & AB & _ & _ & k & K & V). injection AB as <- <-. unfold spherical in V. rewrite sin_PI2, cos_PI2 in V. cbn [vx vy vz] in V. rewrite V in *. cbn [vx vy vz] in *. lra.
Qed.
Print Assumptions C28_cubic_refuted.
(** Equivalent orientations have the same direction, and so has an orientation on its own. *)
Theorem C28_cubic_equiv : forall quats quats' d triangle triangle' default default', Forall unitq quats -> Forall unitq quats' -> d <> vzero ->
  Forall2 (equivalent (sym_eqv "cubic")) quats quats' ->
  calc_fund_dirs quats' d "cubic" triangle' default' = calc_fund_dirs quats d "cubic" triangle default.
Proof.
  intros quats quats' d t t' df df' FU FU' D F. rewrite !cubic_all by assumption. f_equal. clear FU FU'. induction F as [|q p qs ps E F IH]; [reflexivity|]. cbn [map]. rewrite IH. f_equal. symmetry. now apply cubic_equiv.
Qed.
Print Assumptions C28_cubic_equiv.
Lemma C28_cubic_equiv_met : Forall2 (equivalent (sym_eqv "cubic")) [qone] [Quat false (Q4 (/ 2) (/ 2) (/ 2) (/ 2))].
Proof.
  constructor; [|constructor]. exists (Quat false (Q4 (/ 2) (/ 2) (/ 2) (/ 2))). split.
  - change (sym_eqv "cubic") with cubic_symmetries. unfold cubic_symmetries. apply in_map. cbn. tauto.
  - left. set (q := Quat _ _). destruct q as [a b c e]. unfold hprod, qone. cbn [qw qx qy qz]. f_equal; ring.
Qed.
Theorem C28_cubic_each : forall quats d triangle default os, Forall unitq quats -> d <> vzero -> calc_fund_dirs quats d "cubic" triangle default = Ok os ->
  Forall2 (fun q o => calc_fund_dirs [q] d "cubic" triangle default = Ok [o]) quats os.
Proof.
  intros quats d t df os FU D E. rewrite cubic_all in E by assumption. injection E as <-. apply Forall2_map_r. intros q I. rewrite Forall_forall in FU.
  rewrite cubic_all; [reflexivity|constructor; [now apply FU|constructor]|exact D].
Qed.
Print Assumptions C28_cubic_each.

(** ** Hexagonal crystals *)
Theorem C28_hex_image : forall up u, exists v, sym_image "hexagonal" u v /\ inside_triangle_hex up v /\
  forall w, sym_image "hexagonal" u w -> inside_triangle_hex up w -> w = v.
Proof. exact hex_image. Qed.
Print Assumptions C28_hex_image.
Lemma no_along : forall qs d, Forall (fun q => ~ along_c (in_crystal q d)) qs -> existsb (fun u => if hex_dec u then true else false) (map (fun q => in_crystal q d) qs) = false.
Proof.
  intros qs d F. induction F as [|q qs A F IH]; [reflexivity|]. cbn [map existsb]. rewrite IH. destruct (hex_dec _); [contradiction|reflexivity].
Qed.
(** If no orientation has the direction along its c axis, the one image in the triangle is
    reported for each. *)
Theorem C28_hex_partial : forall quats d up triangle default, Forall unitq quats -> d <> vzero ->
  match triangle with Some t => t | None => default end = tri_name up ->
  Forall (fun q => ~ along_c (in_crystal q d)) quats ->
  exists os, calc_fund_dirs quats d "hexagonal" triangle default = Ok os /\
    Forall2 (fun q o => forall v, sym_image "hexagonal" (in_crystal q d) v -> inside_triangle_hex up v -> angles_of o v) quats os.
Proof.
  intros quats d up triangle default FU D T FA. destruct (hex_all quats d up triangle default FU D T) as (lo & hi & E & L). rewrite (no_along _ _ FA) in L. injection L as -> ->.
  eexists. split; [exact E|]. apply Forall2_map_r. intros q I v IM IN. rewrite Forall_forall in FU, FA. apply hpick_exact; [apply in_crystal_nonzero; [now apply FU|exact D]|now apply FA|exact IM|exact IN].
Qed.
Print Assumptions C28_hex_partial.
Lemma half_turn_off : ~ along_c (in_crystal half_turn (V3 0 0 1)).
Proof. rewrite half_turn_dir. apply not_along_sq. cbn [vx vy]. pose proof near_unit as U. unfold sprod in U. cbn [vx vy vz] in U. lra. Qed.
Lemma C28_hex_partial_met : Forall unitq [half_turn] /\ Forall (fun q => ~ along_c (in_crystal q (V3 0 0 1))) [half_turn].
Proof. split; (constructor; [|constructor]); [exact half_turn_unit|exact half_turn_off]. Qed.
(** In any array: along c the angles are zero; otherwise an image is reported whose azimuth
    is in the triangle to within 1e-8. *)
Theorem C28_hex_any : forall quats d up triangle default, Forall unitq quats -> d <> vzero ->
  match triangle with Some t => t | None => default end = tri_name up ->
  exists os, calc_fund_dirs quats d "hexagonal" triangle default = Ok os /\
    Forall2 (fun q o => (along_c (in_crystal q d) -> o = Some (0, 0)) /\
      (~ along_c (in_crystal q d) -> exists v alpha beta, sym_image "hexagonal" (in_crystal q d) v /\ 0 <= vz v /\ o = Some (alpha, beta) /\ angles_of o v /\
        (if up then PI / 2 - / 10 ^ 8 <= beta <= 2 / 3 * PI + / 10 ^ 8 else PI / 3 - / 10 ^ 8 <= beta <= PI / 2 + / 10 ^ 8))) quats os.
Proof.
  intros quats d up triangle default FU D T. destruct (hex_all quats d up triangle default FU D T) as (lo & hi & E & L). eexists. split; [exact E|].
  assert (LD : exists e, 0 <= e <= / 100000000 /\ lo = lo_h up - e /\ hi = hi_h up + e).
  { destruct (existsb _ _); injection L as -> ->; [exists (/ 100000000)|exists 0]; repeat split; lra. }
  destruct LD as (e & EB & -> & ->). apply Forall2_map_r. intros q I. rewrite Forall_forall in FU. pose proof (in_crystal_nonzero q d (FU q I) D) as N. split.
  - intros A. now apply hpick_along.
  - intros A. destruct (hpick_near up _ e N A (proj1 EB)) as (v & beta & alpha & IM & Z & AN & P & B). exists v, alpha, beta. rewrite P. repeat split; try assumption.
    replace (/ 10 ^ 8) with (/ 100000000) by (f_equal; ring). unfold lo_h, hi_h in B. destruct up; lra.
Qed.
Print Assumptions C28_hex_any.
(** The direction of an orientation depends on the others in the array: one along c
    changes a neighbour within 1e-8 of the edge. *)
Theorem C28_hex_refuted : ~ (forall quats d triangle default os, Forall unitq quats -> d <> vzero -> calc_fund_dirs quats d "hexagonal" triangle default = Ok os ->
  Forall2 (fun q o => calc_fund_dirs [q] d "hexagonal" triangle default = Ok [o]) quats os).
Proof.
  intros H. assert (FU : Forall unitq [half_turn; qone]) by (constructor; [exact half_turn_unit|constructor; [exact one_unit|constructor]]).
  destruct (hex_all [half_turn; qone] (V3 0 0 1) true None "up" FU z_axis eq_refl) as (lo & hi & E & L). specialize (H _ _ _ _ _ FU z_axis E). cbn [map existsb] in E, L, H.
  assert (FH : Forall unitq [half_turn]) by (constructor; [exact half_turn_unit|constructor]).
  destruct (hex_all [half_turn] (V3 0 0 1) true None "up" FH z_axis eq_refl) as (lo' & hi' & E' & L'). cbn [map existsb] in E', L'. inversion H as [|x y l m H1 _ EA EB]; subst. rewrite E' in H1. injection H1 as H1.
  destruct (hex_dec (in_crystal half_turn (V3 0 0 1))) as [A|_]; [now elim half_turn_off|]. cbn [orb] in L, L'. injection L' as -> ->.
  destruct (hex_dec (in_crystal qone (V3 0 0 1))) as [_|A]; [|elim A; rewrite one_dir; now split]. cbn [orb] in L. injection L as -> ->.
  rewrite half_turn_dir in H1. fold (lo_h true) (hi_h true) in H1. rewrite near_widened in H1. destruct near_alone as (al & be & NA & B). rewrite NA in H1. injection H1 as _ ->. destruct near_bounds as (_ & NB & _). lra.
Qed.
Print Assumptions C28_hex_refuted.
Theorem C28_hex_equiv : forall quats quats' d up triangle default, Forall unitq quats -> Forall unitq quats' -> d <> vzero ->
  match triangle with Some t => t | None => default end = tri_name up ->
  Forall (fun q => ~ along_c (in_crystal q d)) quats ->
  Forall2 (equivalent (sym_eqv "hexagonal")) quats quats' ->
  calc_fund_dirs quats' d "hexagonal" triangle default = calc_fund_dirs quats d "hexagonal" triangle default.
Proof.
  intros quats quats' d up t df FU FU' D T FA F. assert (FA' : Forall (fun q => ~ along_c (in_crystal q d)) quats').
  { clear FU FU'. induction F as [|q p qs ps E F IH]; [constructor|]. inversion FA as [|x l A1 A2]; subst. constructor; [|now apply IH].
    destruct (equivalent_dir _ _ _ d E) as (s & I & ->). destruct (image_in_dihs s I) as (m & ->). now rewrite along_happly. }
  destruct (hex_all quats d up t df FU D T) as (lo & hi & E & L). rewrite (no_along _ _ FA) in L. injection L as -> ->.
  destruct (hex_all quats' d up t df FU' D T) as (lo & hi & E' & L). rewrite (no_along _ _ FA') in L. injection L as -> ->. rewrite E, E'. f_equal. clear E E' FU' FA'.
  induction F as [|q p qs ps E F IH]; [reflexivity|]. inversion FA as [|x l A1 A2]; subst. inversion FU as [|x l U1 U2]; subst. cbn [map]. rewrite IH by assumption. f_equal.
  destruct (equivalent_dir _ _ _ d E) as (s & I & ->). destruct (image_in_dihs s I) as (m & ->). apply hpick_equiv; [now apply in_crystal_nonzero|exact A1].
Qed.
Print Assumptions C28_hex_equiv.
Lemma C28_hex_equiv_met : Forall2 (equivalent (sym_eqv "hexagonal")) [half_turn] [half_turn].
Proof.
  constructor; [|constructor]. exists qone. split.
  - change (sym_eqv "hexagonal") with hexagonal_symmetries. destruct (hex_group) as (I & _). exact I.
  - left. generalize half_turn. intros q. destruct q as [a b c e]. unfold hprod, qone. cbn [qw qx qy qz]. f_equal; ring.
Qed.

(** ** Other groups, names and the zero direction *)
Theorem C28_errors : forall quats d g triangle default,
  (g <> "cubic"%string -> g <> "hexagonal"%string -> calc_fund_dirs quats d g triangle default = Err ValueError) /\
  (g = "hexagonal"%string -> (forall up, match triangle with Some t => t | None => default end <> tri_name up) -> calc_fund_dirs quats d g triangle default = Err UnboundLocalError) /\
  (g = "cubic"%string -> quats <> [] -> d = vzero -> calc_fund_dirs quats d g triangle default = Err ValueError) /\
  (g = "hexagonal"%string -> (exists up, match triangle with Some t => t | None => default end = tri_name up) -> d = vzero -> calc_fund_dirs quats d g triangle default = Ok (map (fun _ => None) quats)).
Proof.
  intros quats d g t df.
  assert (ZC : forall h q, image_angles h vzero q = map (fun _ => None) (sym_eqv h)).
  { intros h q. rewrite image_list. apply map_ext. intros s. assert (Z : forall p, mapply (rot_matrix p) vzero = vzero) by (intros [w x y z]; unfold mapply, sprod, vzero; cbn [vx vy vz]; f_equal; ring).
    unfold in_crystal. rewrite !Z. unfold northern_angles, vzero. cbn [vx vy vz]. replace (0 * 0 + 0 * 0 + 0 * 0) with 0 by ring. rewrite sqrt_0. destruct (Req_EM_T 0 0) as [_|N]; [reflexivity|now elim N]. }
  repeat split.
  - intros NC NH. unfold calc_fund_dirs, beta_range. apply String.eqb_neq in NC, NH. rewrite NC, NH. reflexivity.
  - intros -> N. pose proof (N true) as N1. pose proof (N false) as N2. cbn [tri_name] in N1, N2. unfold calc_fund_dirs, beta_range. change (String.eqb "hexagonal" "cubic") with false. change (String.eqb "hexagonal" "hexagonal") with true. cbv beta iota zeta.
    apply String.eqb_neq in N1, N2. rewrite N1, N2. reflexivity.
  - intros -> N ->. destruct quats as [|q qs]; [now elim N|]. unfold calc_fund_dirs, beta_range. change (String.eqb "cubic" "cubic") with true. cbv beta iota zeta. cbn [bind].
    destruct (limits _ _ _ _) as (lo, hi). cbn [map fold_right]. rewrite ZC. unfold pick at 1. change (String.eqb "cubic" "cubic") with true. cbv beta iota. rewrite map_map. cbn [trial].
    assert (NN : forall (l : list quat) i, nanargmin_from None i (map (fun _ => None) l) = None) by (induction l as [|x l IH]; intros i; [reflexivity|cbn [map nanargmin_from]; apply IH]).
    unfold nanargmin. rewrite NN. reflexivity.
  - intros -> (up & T) ->. unfold calc_fund_dirs. rewrite (hex_range up _ _ T). cbn [bind]. cbv beta iota zeta. destruct (limits _ _ _ _) as (lo, hi). apply fold_pick.
    induction quats as [|q qs IH]; cbn [map]; constructor; [|exact IH]. rewrite ZC. unfold pick. change (String.eqb "hexagonal" "cubic") with false. cbv beta iota.
    reflexivity.
Qed.
Print Assumptions C28_errors.

(** ** Colours *)
(** Every orientation has a colour, with components from 0 to 1 and one of them 1. *)
Theorem C28_colours : forall quats d g default, Forall unitq quats -> d <> vzero -> (g = "cubic"%string \/ g = "hexagonal"%string) ->
  exists cs, calc_ipf_colours quats d g default = Ok cs /\ List.length cs = List.length quats /\ Forall full_colour cs.
Proof.
  intros quats d g df FU D G.
  assert (K : forall ps os, calc_fund_dirs quats d g (Some "up"%string) df = Ok os -> poles g = Ok ps -> List.length os = List.length quats -> (forall o, In o os -> o <> None) ->
    exists cs, calc_ipf_colours quats d g df = Ok cs /\ List.length cs = List.length quats /\ Forall full_colour cs).
  { intros ps os E P L N. eexists. split; [exact (colours_map _ _ _ _ _ _ E P)|]. split; [now rewrite map_length|]. rewrite Forall_forall. intros c I. apply in_map_iff in I as (o & <- & I).
    destruct o as [(a, b)|]; [|now elim (N None I)]. cbn [angle_colour]. apply colour_full; [exact (poles_good g ps P)|apply spherical_unit]. }
  destruct G as [-> | ->].
  - eapply K; [now apply cubic_all|reflexivity|now rewrite map_length|]. intros o I. apply in_map_iff in I as (q & <- & I). unfold cubic_angles. destruct (sorted_of _) as (((a, b), c) & SO). discriminate.
  - destruct (C28_hex_any quats d true (Some "up"%string) df FU D eq_refl) as (os & E & F). eapply K; [exact E|reflexivity| |].
    + clear E K FU. induction F as [|q o qs os _ F IH]; [reflexivity|]. cbn [List.length]. now rewrite IH.
    + clear E K. intros o I ->. induction F as [|q o qs os (H1 & H2) F IH]; [destruct I|]. inversion FU as [|x l U1 U2]; subst. destruct I as [->|I]; [|now apply IH].
      destruct (hex_dec (in_crystal q d)) as [A|A]; [discriminate (H1 A)|]. destruct (H2 A) as (v & a & b & _ & _ & X & _). discriminate.
Qed.
Print Assumptions C28_colours.
(** The corners of the triangle are red, green and blue, and a component vanishes exactly
    for directions on the plane of the other two corners. *)
Theorem C28_corners : forall g r gr b, poles g = Ok (r, gr, b) ->
  dir_colour (r, gr, b) r = Some (1, 0, 0) /\ dir_colour (r, gr, b) gr = Some (0, 1, 0) /\ dir_colour (r, gr, b) b = Some (0, 0, 1).
Proof. intros g r gr b P. apply colour_poles. exact (poles_good g _ P). Qed.
Print Assumptions C28_corners.
Theorem C28_edges : forall g r gr b d x y z, poles g = Ok (r, gr, b) -> sprod d d = 1 -> dir_colour (r, gr, b) d = Some (x, y, z) ->
  (x = 0 <-> sprod d (xprod gr b) = 0) /\ (y = 0 <-> sprod d (xprod r b) = 0) /\ (z = 0 <-> sprod d (xprod r gr) = 0).
Proof.
  intros g r gr b d x y z P U E. destruct (colour_edges r gr b d x y z (poles_good g _ P) U E) as (X & Y & Z).
  assert (O : forall u v, vdot d (vcross u v) = - sprod d (xprod v u)). { intros [u1 u2 u3] [v1 v2 v3]. destruct d as [d1 d2 d3]. unfold vdot, vcross, sprod, xprod. cbn [vx vy vz]. ring. }
  assert (O' : forall u v, vdot d (vcross u v) = sprod d (xprod u v)). { intros [u1 u2 u3] [v1 v2 v3]. destruct d as [d1 d2 d3]. unfold vdot, vcross, sprod, xprod. cbn [vx vy vz]. ring. }
  rewrite O in X, Z. rewrite O' in Y. split; [|split; [exact Y|]].
  - rewrite X. split; intros; lra.
  - rewrite Z. split; intros; lra.
Qed.
Print Assumptions C28_edges.
(** In a map: 110 directions are green and 111 directions are blue; axes are not red. *)
Theorem C28_cubic_colours_partial : forall quats d default, Forall unitq quats -> d <> vzero ->
  exists cs, calc_ipf_colours quats d "cubic" default = Ok cs /\
    Forall2 (fun q c => forall v, sym_image "cubic" (in_crystal q d) v ->
      (same_dir (V3 0 1 1) v -> c = Some (0, 1, 0)) /\ (same_dir (V3 (-1) 1 1) v -> c = Some (0, 0, 1))) quats cs.
Proof.
  intros quats d df FU D. destruct (C28_cubic_partial quats d (Some "up"%string) df FU D) as (os & E & F). eexists. split; [exact (colours_map _ _ _ _ _ _ E eq_refl)|]. clear E.
  destruct (C28_corners "cubic" _ _ _ eq_refl) as (_ & CG & CB). destruct (poles_good "cubic" _ eq_refl) as (_ & UG & UB & _).
  assert (P2 : 0 < sqrt 2) by (apply sqrt_lt_R0; lra). assert (P3 : 0 < sqrt 3) by (apply sqrt_lt_R0; lra). assert (J2 : 0 < / sqrt 2) by now apply Rinv_0_lt_compat. assert (J3 : 0 < / sqrt 3) by now apply Rinv_0_lt_compat.
  induction F as [|q o qs os H F IH]; cbn [map]; constructor; [|inversion FU; now apply IH]. intros v IM. specialize (H v IM). split; intros SD.
  - assert (AN : angles_of o v). { destruct SD as (k & K & ->). apply H; [unfold inside_triangle_cubic|unfold along_c]; cbn [vx vy vz]; lra. }
    destruct (pole_colour o v (V3 0 (1 / sqrt 2) (1 / sqrt 2)) AN) as (a & b & -> & S'); [|exact UG|cbn [angle_colour]; now rewrite S'].
    apply (same_dir_trans _ (V3 0 1 1)); [now apply same_dir_sym|]. exists (/ sqrt 2). split; [exact J2|]. cbn [vx vy vz]. unfold Rdiv. f_equal; ring.
  - assert (AN : angles_of o v). { destruct SD as (k & K & ->). apply H; [unfold inside_triangle_cubic|unfold along_c]; cbn [vx vy vz]; lra. }
    destruct (pole_colour o v (V3 (-1 / sqrt 3) (1 / sqrt 3) (1 / sqrt 3)) AN) as (a & b & -> & S'); [|exact UB|cbn [angle_colour]; now rewrite S'].
    apply (same_dir_trans _ (V3 (-1) 1 1)); [now apply same_dir_sym|]. exists (/ sqrt 3). split; [exact J3|]. cbn [vx vy vz]. unfold Rdiv. f_equal; ring.
Qed.
Print Assumptions C28_cubic_colours_partial.
Theorem C28_cubic_colours_refuted : exists quats d, Forall unitq quats /\ d <> vzero /\
  Forall (fun q => in_crystal q d = V3 0 0 1) quats /\ forall default, calc_ipf_colours quats d "cubic" default = Ok [Some (1, 2 / 3, 0)].
Proof.
  exists [qone], (V3 0 0 1). assert (FU : Forall unitq [qone]) by (constructor; [exact one_unit|constructor]). split; [exact FU|]. split; [exact z_axis|].
  split; [constructor; [exact one_dir|constructor]|]. intros df. pose proof (cubic_all [qone] (V3 0 0 1) (Some "up"%string) df FU z_axis) as E. pose proof (C28_cubic_axis _ _ _ _ _ FU z_axis E) as A.
  rewrite (colours_map _ _ _ _ _ _ E eq_refl). cbn [map] in A |- *. inversion A as [|x1 y1 l1 l2 A1 _ EA EB]; subst. rewrite one_dir in A1.
  assert (L : vlen (V3 0 0 1) = 1) by (unfold vlen, sprod; cbn [vx vy vz]; replace (0 * 0 + 0 * 0 + 1 * 1) with 1 by ring; apply sqrt_1). rewrite L in A1. rewrite one_dir, A1.
  2:{ assert (K : spapply (Pxyz, (false, false, false)) (V3 0 0 1) = V3 0 0 1) by reflexivity. rewrite <- K at 2. apply sp_image. rewrite K. cbn [vz]. lra. }
  cbn [angle_colour]. unfold spherical. rewrite sin_PI2, cos_PI2, !Rmult_1_l. now rewrite axis_colour.
Qed.
Print Assumptions C28_cubic_colours_refuted.
(** Hexagonal crystals: c directions are red whatever else is in the array; the other two
    corners are green and blue if no direction is along c. *)
Theorem C28_hex_red : forall quats d default, Forall unitq quats -> d <> vzero ->
  exists cs, calc_ipf_colours quats d "hexagonal" default = Ok cs /\ Forall2 (fun q c => along_c (in_crystal q d) -> c = Some (1, 0, 0)) quats cs.
Proof.
  intros quats d df FU D. destruct (C28_hex_any quats d true (Some "up"%string) df FU D eq_refl) as (os & E & F). eexists. split; [exact (colours_map _ _ _ _ _ _ E eq_refl)|]. clear E.
  destruct (C28_corners "hexagonal" _ _ _ eq_refl) as (CR & _ & _).
  induction F as [|q o qs os (H & _) F IH]; cbn [map]; constructor; [|inversion FU; now apply IH]. intros A. rewrite (H A). cbn [angle_colour]. unfold spherical. rewrite sin_0, cos_0.
  replace (V3 (0 * 1) (0 * 0) 1) with (V3 0 0 1) by (f_equal; ring). exact CR.
Qed.
Print Assumptions C28_hex_red.
Theorem C28_hex_colours : forall quats d default, Forall unitq quats -> d <> vzero -> Forall (fun q => ~ along_c (in_crystal q d)) quats ->
  exists cs, calc_ipf_colours quats d "hexagonal" default = Ok cs /\
    Forall2 (fun q c => forall v, sym_image "hexagonal" (in_crystal q d) v ->
      (same_dir (V3 0 1 0) v -> c = Some (0, 1, 0)) /\ (same_dir (V3 (-1) (sqrt 3) 0) v -> c = Some (0, 0, 1))) quats cs.
Proof.
  intros quats d df FU D FA. destruct (C28_hex_partial quats d true (Some "up"%string) df FU D eq_refl FA) as (os & E & F). eexists. split; [exact (colours_map _ _ _ _ _ _ E eq_refl)|]. clear E.
  destruct (C28_corners "hexagonal" _ _ _ eq_refl) as (_ & CG & CB). destruct (poles_good "hexagonal" _ eq_refl) as (_ & UG & UB & _). assert (P3 : 0 < sqrt 3) by (apply sqrt_lt_R0; lra).
  induction F as [|q o qs os H F IH]; cbn [map]; constructor; [|inversion FU; inversion FA; now apply IH]. intros v IM. specialize (H v IM). split; intros SD.
  - assert (AN : angles_of o v). { destruct SD as (k & K & ->). apply H. unfold inside_triangle_hex. cbn [vx vy vz]. lra. }
    destruct (pole_colour o v (V3 0 1 0) AN) as (a & b & -> & S'); [now apply same_dir_sym|exact UG|cbn [angle_colour]; now rewrite S'].
  - assert (AN : angles_of o v). { destruct SD as (k & K & ->). apply H. unfold inside_triangle_hex. cbn [vx vy vz]. split; [lra|]. split; [lra|]. right. ring. }
    destruct (pole_colour o v (V3 (-1 / 2) (sqrt 3 / 2) 0) AN) as (a & b & -> & S'); [|exact UB|cbn [angle_colour]; now rewrite S'].
    apply (same_dir_trans _ (V3 (-1) (sqrt 3) 0)); [now apply same_dir_sym|]. exists (/ 2). split; [lra|]. cbn [vx vy vz]. unfold Rdiv. f_equal; ring.
Qed.
Print Assumptions C28_hex_colours.
