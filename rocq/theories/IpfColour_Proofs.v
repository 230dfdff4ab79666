(** Lemmas on the colours of inverse pole figures. *)
From Coq Require Import Reals List ZArith Bool Lia Lra Psatz String Permutation.
Import ListNotations.
From Verif Require Import Py Quat_Model Quat_Spec Quat_Proofs QuatSym_Proofs QuatEuler_Proofs QuatMany_Proofs Pole_Model Pole_Spec Pole_Proofs SlipSys_Proofs Ipf_Model Ipf_Spec Ipf_Proofs IpfHex_Proofs.
Open Scope R_scope.

Lemma unit_dot : forall u v, sprod u u = 1 -> sprod v v = 1 -> -1 <= vdot u v <= 1.
Proof.
  intros [a b c] [x y z] U V. unfold sprod, vdot in *. cbn [vx vy vz] in *.
  pose proof (Rle_0_sqr (a - x)). pose proof (Rle_0_sqr (b - y)). pose proof (Rle_0_sqr (c - z)).
  pose proof (Rle_0_sqr (a + x)). pose proof (Rle_0_sqr (b + y)). pose proof (Rle_0_sqr (c + z)). unfold Rsqr in *. lra.
Qed.
Lemma sq3_zero : forall p q r, p * p + q * q + r * r = 0 -> p = 0 /\ q = 0 /\ r = 0.
Proof.
  intros p q r E. pose proof (Rle_0_sqr p) as P. pose proof (Rle_0_sqr q) as Q. pose proof (Rle_0_sqr r) as S'. fold (Rsqr p) (Rsqr q) (Rsqr r) in E.
  repeat split; apply Rsqr_0_uniq; lra.
Qed.
Lemma unit_dot_one : forall u v, sprod u u = 1 -> sprod v v = 1 -> vdot u v = 1 -> u = v.
Proof.
  intros [a b c] [x y z] U V D. unfold sprod, vdot in *. cbn [vx vy vz] in *.
  assert (E : (a - x) * (a - x) + (b - y) * (b - y) + (c - z) * (c - z) = 0) by lra.
  apply sq3_zero in E as (E1 & E2 & E3). f_equal; lra.
Qed.
Lemma clip_id : forall x, -1 <= x <= 1 -> clip x = x.
Proof. intros x H. unfold clip. rewrite Rmax_left by lra. now rewrite Rmin_left by lra. Qed.
Lemma acos_zero : forall x, -1 <= x <= 1 -> (acos x = 0 <-> x = 1).
Proof.
  intros x H. split; intros E; [|rewrite E; apply acos_1]. rewrite <- (cos_acos x H), E. apply cos_0.
Qed.
Definition iv (d p n : vec3) : vec3 := vcross (vcross d p) n.
Lemma iv_eq : forall d p n, iv d p n = V3 (vx p * vdot d n - vx d * vdot p n) (vy p * vdot d n - vy d * vdot p n) (vz p * vdot d n - vz d * vdot p n).
Proof. intros [a b c] [x y z] [e f g]. unfold iv, vcross, vdot. cbn [vx vy vz]. f_equal; ring. Qed.
Lemma iv_normal : forall d p n, vdot (iv d p n) n = 0.
Proof. intros [a b c] [x y z] [e f g]. unfold iv, vcross, vdot. cbn [vx vy vz]. ring. Qed.
Lemma vlen_alt : forall v, sqrt (vx v ^ 2 + vy v ^ 2 + vz v ^ 2) = vlen v.
Proof. intros v. unfold vlen, sprod. f_equal. ring. Qed.
Lemma vlen_zero : forall v, vlen v = 0 <-> v = vzero.
Proof.
  intros v. split; [|intros ->; unfold vlen, sprod, vzero; cbn [vx vy vz]; rewrite Rmult_0_l, !Rplus_0_r; apply sqrt_0].
  intros E. pose proof (vlen_sq v) as Q. rewrite E in Q. destruct v as [x y z]. unfold sprod in Q. cbn [vx vy vz] in Q. rewrite Rmult_0_l in Q. symmetry in Q. apply sq3_zero in Q as (-> & -> & ->). reflexivity.
Qed.
(** The foot on the plane, turned to the side of the direction. *)
Definition foot (d p n : vec3) : vec3 :=
  let i := hat (iv d p n) in if Rlt_dec (PI / 2) (acos (clip (vdot d i))) then vscale (-1) i else i.
Lemma component_zero : forall d p n, iv d p n = vzero -> component d p n = Some 1.
Proof.
  intros d p n E. unfold component. fold (iv d p n). rewrite vlen_alt. rewrite (proj2 (vlen_zero _) E), E. destruct (Req_EM_T 0 0) as [_|N]; [|now elim N].
  unfold vzero. cbn [vx vy vz]. replace (0 / 1) with 0 by field. assert (Z : forall w, vdot w (V3 0 0 0) = 0) by (intros [a b c]; unfold vdot; cbn [vx vy vz]; ring). rewrite !Z.
  rewrite (clip_id 0) by lra. rewrite acos_0. destruct (Rlt_dec (PI / 2) (PI / 2)) as [L|_]; [lra|]. rewrite Z, (clip_id 0), acos_0 by lra. pose proof PI2_1.
  destruct (Req_EM_T (PI / 2) 0) as [L|_]; [lra|]. rewrite Z, (clip_id 0), acos_0 by lra. f_equal. field. pose proof PI_RGT_0. lra.
Qed.
Lemma foot_ok : forall d p n, iv d p n <> vzero -> sprod d d = 1 ->
  sprod (foot d p n) (foot d p n) = 1 /\ vdot (foot d p n) n = 0 /\ 0 <= vdot d (foot d p n).
Proof.
  intros d p n N U. pose proof (hat_unit _ N) as H. pose proof (iv_normal d p n) as K. pose proof (vlen_pos _ N) as L. unfold foot. set (w := iv d p n) in *.
  assert (KH : vdot (hat w) n = 0). { unfold hat, vdot in *. cbn [vx vy vz]. replace (_ + _) with ((vx w * vx n + vy w * vy n + vz w * vz n) / vlen w) by (field; lra). rewrite K. field. lra. }
  pose proof (unit_dot d (hat w) U H) as B. destruct (Rlt_dec (PI / 2) _) as [A|A]; rewrite (clip_id _ B) in A.
  - split; [|split].
    + unfold sprod, vscale in *. cbn [vx vy vz]. lra.
    + unfold vdot, vscale in *. cbn [vx vy vz]. lra.
    + replace (vdot d (vscale (-1) (hat w))) with (- vdot d (hat w)) by (unfold vdot, vscale; cbn [vx vy vz]; ring).
      destruct (Rle_dec (vdot d (hat w)) 0); [lra|]. exfalso. pose proof (acos_bound (vdot d (hat w))). rewrite <- (cos_acos _ B) in n0. pose proof (cos_le_0 (acos (vdot d (hat w)))). lra.
  - split; [exact H|]. split; [exact KH|]. destruct (Rle_dec 0 (vdot d (hat w))); [assumption|]. exfalso. rewrite <- (cos_acos _ B) in n0. pose proof (acos_bound (vdot d (hat w))).
    pose proof (cos_ge_0 (acos (vdot d (hat w)))). lra.
Qed.
Lemma component_foot : forall d p n, iv d p n <> vzero -> sprod d d = 1 -> sprod p p = 1 -> vdot p n <> 0 ->
  component d p n = Some (acos (vdot d (foot d p n)) / acos (vdot p (foot d p n))) /\ 0 < acos (vdot p (foot d p n)).
Proof.
  intros d p n N U UP PN. destruct (foot_ok d p n N U) as (F1 & F2 & F3). pose proof (vlen_pos _ N) as L.
  assert (BP : -1 <= vdot p (foot d p n) <= 1) by now apply unit_dot. assert (BD : -1 <= vdot d (foot d p n) <= 1) by now apply unit_dot.
  assert (NZ : acos (vdot p (foot d p n)) <> 0).
  { intros E. apply (acos_zero _ BP) in E. apply (unit_dot_one _ _ UP F1) in E. rewrite <- E in F2. contradiction. }
  split; [|pose proof (acos_bound (vdot p (foot d p n))); lra].
  unfold component. fold (iv d p n). rewrite vlen_alt. destruct (Req_EM_T (vlen (iv d p n)) 0) as [E|_]; [lra|]. fold (hat (iv d p n)). cbv zeta. fold (foot d p n).
  change (if Rlt_dec (PI / 2) (acos (clip (vdot d (hat (iv d p n))))) then vscale (-1) (hat (iv d p n)) else hat (iv d p n)) with (foot d p n).
  rewrite (clip_id _ BP), (clip_id _ BD). destruct (Req_EM_T _ 0) as [E|_]; [contradiction|reflexivity].
Qed.
Lemma component_ok : forall d p n, sprod d d = 1 -> sprod p p = 1 -> vdot p n <> 0 ->
  exists x, component d p n = Some x /\ 0 <= x /\ (x = 0 <-> vdot d n = 0).
Proof.
  intros d p n U UP PN. destruct (Req_EM_T (vlen (iv d p n)) 0) as [E|E].
  - apply vlen_zero in E. exists 1. split; [now apply component_zero|]. split; [lra|]. split; [lra|]. intros D. exfalso. rewrite iv_eq, D in E. unfold vzero in E. injection E as E1 E2 E3.
    unfold sprod in U. assert (vx d = 0) by nra. assert (vy d = 0) by nra. assert (vz d = 0) by nra. nra.
  - assert (N : iv d p n <> vzero) by (intros X; apply E; now apply vlen_zero). destruct (component_foot d p n N U UP PN) as (C & P). destruct (foot_ok d p n N U) as (F1 & F2 & F3).
    exists (acos (vdot d (foot d p n)) / acos (vdot p (foot d p n))). split; [exact C|]. assert (BD : -1 <= vdot d (foot d p n) <= 1) by now apply unit_dot.
    pose proof (acos_bound (vdot d (foot d p n))) as AB. assert (I : 0 < / acos (vdot p (foot d p n))) by now apply Rinv_0_lt_compat.
    split; [unfold Rdiv; nra|]. split.
    + intros Z. assert (Z' : acos (vdot d (foot d p n)) = 0) by (unfold Rdiv in Z; nra). apply (acos_zero _ BD) in Z'. apply (unit_dot_one _ _ U F1) in Z'. now rewrite Z'.
    + intros D. assert (Z : vdot d (foot d p n) = 1). 2:{ rewrite Z, acos_1. unfold Rdiv. ring. }
      clear C P I AB. assert (PAR : exists k, foot d p n = vscale k d).
      { unfold foot. set (w := iv d p n) in *. assert (W : hat w = vscale (- vdot p n / vlen w) d).
        { pose proof (iv_eq d p n) as IE. rewrite D in IE. fold w in IE. unfold hat. set (l := vlen w). clearbody l w. rewrite IE. unfold vscale. cbn [vx vy vz]. unfold Rdiv. f_equal; ring. }
        set (c := - vdot p n / vlen w) in *. clearbody c. destruct (Rlt_dec _ _); rewrite W; [exists (-1 * c)|exists c; reflexivity]. unfold vscale. cbn [vx vy vz]. f_equal; ring. }
      destruct PAR as (k & K). rewrite K in *. assert (K1 : k * k = 1). { transitivity (k * k * sprod d d); [rewrite U; ring|]. rewrite <- F1. unfold sprod, vscale. cbn [vx vy vz]. ring. }
      assert (KD : vdot d (vscale k d) = k). { transitivity (k * sprod d d); [unfold vdot, sprod, vscale; cbn [vx vy vz]; ring|rewrite U; ring]. } rewrite KD in *. nra.
Qed.
(** ** Three poles *)
Definition det3 (r g b : vec3) : R := vdot r (vcross g b).
Lemma cramer : forall r g b d, vdot d (vcross b g) = 0 -> vdot d (vcross r b) = 0 -> vdot d (vcross g r) = 0 -> det3 r g b <> 0 -> d = vzero.
Proof.
  intros r g b d H1 H2 H3 D.
  assert (E : forall f : vec3 -> R, (f = vx \/ f = vy \/ f = vz) -> det3 r g b * f d = - vdot d (vcross b g) * f r - vdot d (vcross r b) * f g - vdot d (vcross g r) * f b).
  { destruct r as [r1 r2 r3], g as [g1 g2 g3], b as [b1 b2 b3], d as [d1 d2 d3]. unfold det3, vdot, vcross. cbn [vx vy vz]. intros f [->|[->| ->]]; cbn [vx vy vz]; ring. }
  rewrite H1, H2, H3 in E. assert (Z : forall f : vec3 -> R, (f = vx \/ f = vy \/ f = vz) -> f d = 0). { intros f F. specialize (E f F). assert (K : det3 r g b * f d = 0) by lra. apply Rmult_integral in K. tauto. }
  destruct d as [x y z]. unfold vzero. f_equal; [apply (Z vx)|apply (Z vy)|apply (Z vz)]; auto.
Qed.
Definition good_poles (ps : vec3 * vec3 * vec3) : Prop :=
  let '(r, g, b) := ps in sprod r r = 1 /\ sprod g g = 1 /\ sprod b b = 1 /\ det3 r g b <> 0.
Lemma poles_good : forall g ps, poles g = Ok ps -> good_poles ps.
Proof.
  intros g ps E. unfold poles in E. pose proof (sqrt_sqrt 2 ltac:(lra)) as Q2. pose proof (sqrt_sqrt 3 ltac:(lra)) as Q3. assert (P2 : 0 < sqrt 2) by (apply sqrt_lt_R0; lra). assert (P3 : 0 < sqrt 3) by (apply sqrt_lt_R0; lra).
  assert (I2 : / sqrt 2 * / sqrt 2 = / 2) by (rewrite <- Rinv_mult, Q2; reflexivity). assert (I3 : / sqrt 3 * / sqrt 3 = / 3) by (rewrite <- Rinv_mult, Q3; reflexivity).
  assert (J2 : 0 < / sqrt 2) by now apply Rinv_0_lt_compat. assert (J3 : 0 < / sqrt 3) by now apply Rinv_0_lt_compat.
  destruct (String.eqb g "cubic"); [|destruct (String.eqb g "hexagonal"); [|discriminate]]; injection E as <-; unfold good_poles, det3, sprod, vdot, vcross; cbn [vx vy vz]; unfold Rdiv; repeat split; try nra.
Qed.
Lemma triple : forall r g b, vdot r (vcross b g) = - det3 r g b /\ vdot g (vcross r b) = - det3 r g b /\ vdot b (vcross g r) = - det3 r g b.
Proof. intros [r1 r2 r3] [g1 g2 g3] [b1 b2 b3]. unfold det3, vdot, vcross. cbn [vx vy vz]. repeat split; ring. Qed.
Lemma colour_parts : forall r g b d, good_poles (r, g, b) -> sprod d d = 1 -> exists x y z,
  component d r (vcross b g) = Some x /\ component d g (vcross r b) = Some y /\ component d b (vcross g r) = Some z /\
  0 <= x /\ 0 <= y /\ 0 <= z /\ 0 < Rmax x (Rmax y z) /\
  (x = 0 <-> vdot d (vcross b g) = 0) /\ (y = 0 <-> vdot d (vcross r b) = 0) /\ (z = 0 <-> vdot d (vcross g r) = 0) /\
  dir_colour (r, g, b) d = Some (x / Rmax x (Rmax y z), y / Rmax x (Rmax y z), z / Rmax x (Rmax y z)).
Proof.
  intros r g b d (UR & UG & UB & D) U. destruct (triple r g b) as (T1 & T2 & T3).
  destruct (component_ok d r (vcross b g) U UR) as (x & EX & X0 & XZ); [rewrite T1; lra|].
  destruct (component_ok d g (vcross r b) U UG) as (y & EY & Y0 & YZ); [rewrite T2; lra|].
  destruct (component_ok d b (vcross g r) U UB) as (z & EZ & Z0 & ZZ); [rewrite T3; lra|]. exists x, y, z. do 6 (split; [assumption|]).
  assert (M : 0 < Rmax x (Rmax y z)).
  { destruct (Rlt_dec 0 (Rmax x (Rmax y z))) as [|N]; [assumption|]. exfalso. pose proof (Rmax_l x (Rmax y z)). pose proof (Rmax_r x (Rmax y z)). pose proof (Rmax_l y z). pose proof (Rmax_r y z).
    assert (d = vzero) as ->. { apply (cramer r g b); [apply XZ|apply YZ|apply ZZ|exact D]; lra. } unfold sprod, vzero in U. cbn [vx vy vz] in U. lra. }
  split; [exact M|]. do 3 (split; [assumption|]). unfold dir_colour. rewrite EX, EY, EZ. cbv zeta. destruct (Req_EM_T _ 0) as [E|_]; [lra|reflexivity].
Qed.
Lemma colour_full : forall ps d, good_poles ps -> sprod d d = 1 -> full_colour (dir_colour ps d).
Proof.
  intros ((r, g), b) d G U. destruct (colour_parts r g b d G U) as (x & y & z & _ & _ & _ & X0 & Y0 & Z0 & M & _ & _ & _ & E). set (m := Rmax x (Rmax y z)) in *.
  assert (LX : x <= m) by apply Rmax_l. assert (LY : y <= m) by (eapply Rle_trans; [apply (Rmax_l y z)|apply Rmax_r]). assert (LZ : z <= m) by (eapply Rle_trans; [apply (Rmax_r y z)|apply Rmax_r]).
  assert (MM : m = x \/ m = y \/ m = z). { unfold m, Rmax. destruct (Rle_dec y z), (Rle_dec x _); auto. }
  assert (B : forall a, 0 <= a <= m -> 0 <= a / m <= 1). { intros a (A1 & A2). assert (I : 0 < / m) by now apply Rinv_0_lt_compat. unfold Rdiv. split; [nra|]. rewrite <- (Rinv_r m) by lra. nra. }
  exists (x / m), (y / m), (z / m). split; [exact E|]. repeat split; try (apply B; lra).
  destruct MM as [Q|[Q|Q]]; [left|right; left|right; right]; rewrite <- Q; field; lra.
Qed.
Lemma colour_edges : forall r g b d x y z, good_poles (r, g, b) -> sprod d d = 1 -> dir_colour (r, g, b) d = Some (x, y, z) ->
  (x = 0 <-> vdot d (vcross b g) = 0) /\ (y = 0 <-> vdot d (vcross r b) = 0) /\ (z = 0 <-> vdot d (vcross g r) = 0).
Proof.
  intros r g b d x' y' z' G U E'. destruct (colour_parts r g b d G U) as (x & y & z & _ & _ & _ & X0 & Y0 & Z0 & M & XZ & YZ & ZZ & E). rewrite E in E'. injection E' as <- <- <-.
  set (m := Rmax x (Rmax y z)) in *. assert (K : forall a, a / m = 0 <-> a = 0).
  { intros a. split; [intros H; replace a with (a / m * m) by (field; lra); rewrite H; ring|intros ->; field; lra]. }
  rewrite !K. auto.
Qed.
Lemma colour_poles : forall r g b, good_poles (r, g, b) ->
  dir_colour (r, g, b) r = Some (1, 0, 0) /\ dir_colour (r, g, b) g = Some (0, 1, 0) /\ dir_colour (r, g, b) b = Some (0, 0, 1).
Proof.
  intros r g b G. pose proof G as (UR & UG & UB & D).
  assert (Z : forall d, iv d d = iv d d) by reflexivity. clear Z.
  assert (SELF : forall d n, iv d d n = vzero). { intros [a e c] [p q s]. unfold iv, vcross, vzero. cbn [vx vy vz]. f_equal; ring. }
  assert (O1 : forall u v, vdot u (vcross u v) = 0). { intros [a e c] [p q s]. unfold vdot, vcross. cbn [vx vy vz]. ring. }
  assert (O2 : forall u v, vdot u (vcross v u) = 0). { intros [a e c] [p q s]. unfold vdot, vcross. cbn [vx vy vz]. ring. }
  assert (ONE : forall x y z, x = 1 -> y = 0 -> z = 0 -> Some (x / Rmax x (Rmax y z), y / Rmax x (Rmax y z), z / Rmax x (Rmax y z)) = Some (1, 0, 0)).
  { intros x y z -> -> ->. replace (Rmax 1 (Rmax 0 0)) with 1; [do 3 f_equal; field|]. rewrite (Rmax_left 0 0) by lra. now rewrite Rmax_left by lra. }
  assert (TWO : forall x y z, x = 0 -> y = 1 -> z = 0 -> Some (x / Rmax x (Rmax y z), y / Rmax x (Rmax y z), z / Rmax x (Rmax y z)) = Some (0, 1, 0)).
  { intros x y z -> -> ->. replace (Rmax 0 (Rmax 1 0)) with 1; [do 3 f_equal; field|]. rewrite (Rmax_left 1 0) by lra. now rewrite Rmax_right by lra. }
  assert (TRI : forall x y z, x = 0 -> y = 0 -> z = 1 -> Some (x / Rmax x (Rmax y z), y / Rmax x (Rmax y z), z / Rmax x (Rmax y z)) = Some (0, 0, 1)).
  { intros x y z -> -> ->. replace (Rmax 0 (Rmax 0 1)) with 1; [do 3 f_equal; field|]. rewrite (Rmax_right 0 1) by lra. now rewrite Rmax_right by lra. }
  split; [|split].
  - destruct (colour_parts r g b r G UR) as (x & y & z & EX & _ & _ & _ & _ & _ & _ & _ & YZ & ZZ & ->). rewrite component_zero in EX by apply SELF. injection EX as <-.
    apply ONE; [reflexivity|apply YZ, O1|apply ZZ, O2].
  - destruct (colour_parts r g b g G UG) as (x & y & z & _ & EY & _ & _ & _ & _ & _ & XZ & _ & ZZ & ->). rewrite component_zero in EY by apply SELF. injection EY as <-.
    apply TWO; [apply XZ, O2|reflexivity|apply ZZ, O1].
  - destruct (colour_parts r g b b G UB) as (x & y & z & _ & _ & EZ & _ & _ & _ & _ & XZ & YZ & _ & ->). rewrite component_zero in EZ by apply SELF. injection EZ as <-.
    apply TRI; [apply XZ, O1|apply YZ, O2|reflexivity].
Qed.
(** The direction from the angles. *)
Lemma spherical_unit : forall a b, sprod (spherical a b) (spherical a b) = 1.
Proof.
  intros a b. unfold sprod, spherical. cbn [vx vy vz]. pose proof (sin2_cos2 a) as A. pose proof (sin2_cos2 b) as B. unfold Rsqr in *.
  transitivity (sin a * sin a * (sin b * sin b + cos b * cos b) + cos a * cos a); [ring|]. rewrite B. lra.
Qed.
Lemma unit_same_dir : forall u v, sprod u u = 1 -> sprod v v = 1 -> same_dir u v -> u = v.
Proof.
  intros u v U V (k & K & ->). assert (E : k * k = 1). { transitivity (k * k * sprod u u); [rewrite U; ring|]. rewrite <- V. unfold sprod. cbn [vx vy vz]. ring. }
  assert (k = 1) as -> by nra. destruct u as [x y z]. cbn [vx vy vz]. f_equal; ring.
Qed.
Definition angle_colour (ps : vec3 * vec3 * vec3) (o : option (R * R)) : option (R * R * R) :=
  match o with Some (a, b) => dir_colour ps (spherical a b) | None => None end.
Lemma colours_map : forall quats d g def os ps, calc_fund_dirs quats d g (Some "up"%string) def = Ok os -> poles g = Ok ps ->
  calc_ipf_colours quats d g def = Ok (map (angle_colour ps) os).
Proof. intros quats d g def os ps E P. unfold calc_ipf_colours. rewrite E, P. reflexivity. Qed.
Lemma pole_colour : forall o v w, angles_of o v -> same_dir v w -> sprod w w = 1 -> exists a b, o = Some (a, b) /\ spherical a b = w.
Proof.
  intros o v w (a & b & -> & _ & _ & S') D W. exists a, b. split; [reflexivity|]. apply unit_same_dir; [apply spherical_unit|exact W|]. exact (same_dir_trans _ _ _ S' D).
Qed.
(** The colour of a cubic axis. *)
Lemma hat_scaled : forall k w, 0 < k -> sprod w w = 1 -> hat (vscale k w) = w.
Proof.
  intros k w K W. assert (L : vlen (vscale k w) = k).
  { unfold vlen. replace (sprod (vscale k w) (vscale k w)) with (k * k) by (transitivity (k * k * sprod w w); [rewrite W; ring|unfold sprod, vscale; cbn [vx vy vz]; ring]). apply sqrt_square. lra. }
  unfold hat. rewrite L. destruct w as [x y z]. unfold vscale. cbn [vx vy vz]. f_equal; field; lra.
Qed.
Lemma foot_scaled : forall d p n k w, iv d p n = vscale k w -> 0 < k -> sprod w w = 1 -> sprod d d = 1 -> 0 <= vdot d w -> foot d p n = w /\ iv d p n <> vzero.
Proof.
  intros d p n k w E K W U D. pose proof (unit_dot d w U W) as B. unfold foot. rewrite E, (hat_scaled k w K W). split.
  - destruct (Rlt_dec _ _) as [L|_]; [|reflexivity]. exfalso. rewrite (clip_id _ B) in L. pose proof (acos_bound (vdot d w)). pose proof (cos_lt_0 (acos (vdot d w))) as C. rewrite (cos_acos _ B) in C. lra.
  - intros Z. assert (Q : sprod (vscale k w) (vscale k w) = k * k) by (transitivity (k * k * sprod w w); [unfold sprod, vscale; cbn [vx vy vz]; ring|rewrite W; ring]). rewrite Z in Q. unfold sprod, vzero in Q. cbn [vx vy vz] in Q. nra.
Qed.
Lemma axis_colour : dir_colour (V3 0 0 1, V3 0 (1 / sqrt 2) (1 / sqrt 2), V3 (-1 / sqrt 3) (1 / sqrt 3) (1 / sqrt 3)) (V3 0 1 0) = Some (1, 2 / 3, 0).
Proof.
  pose proof (poles_good "cubic" _ eq_refl) as G. set (r := V3 0 0 1) in *. set (g := V3 0 (1 / sqrt 2) (1 / sqrt 2)) in *. set (b := V3 (-1 / sqrt 3) (1 / sqrt 3) (1 / sqrt 3)) in *.
  pose proof G as (UR & UG & UB & D). destruct (triple r g b) as (T1 & T2 & T3). assert (U : sprod (V3 0 1 0) (V3 0 1 0) = 1) by (unfold sprod; cbn [vx vy vz]; ring).
  destruct (colour_parts r g b _ G U) as (x & y & z & EX & EY & EZ & _ & _ & _ & _ & _ & _ & ZZ & ->).
  pose proof (sqrt_sqrt 2 ltac:(lra)) as Q2. assert (P2 : 0 < sqrt 2) by (apply sqrt_lt_R0; lra). assert (P3 : 0 < sqrt 3) by (apply sqrt_lt_R0; lra).
  assert (J2 : 0 < / sqrt 2) by now apply Rinv_0_lt_compat. assert (J3 : 0 < / sqrt 3) by now apply Rinv_0_lt_compat.
  assert (I2 : / sqrt 2 * / sqrt 2 = / 2) by (rewrite <- Rinv_mult, Q2; reflexivity).
  assert (K : 0 < / sqrt 2 * / sqrt 3) by nra. pose proof PI_RGT_0 as P.
  assert (X1 : x = 1).
  { destruct (foot_scaled (V3 0 1 0) r (vcross b g) (/ sqrt 3) g) as (F & N); try assumption.
    - unfold iv, vcross, vscale, r, g, b. cbn [vx vy vz]. unfold Rdiv. f_equal; ring.
    - unfold vdot, g. cbn [vx vy vz]. unfold Rdiv. lra.
    - destruct (component_foot (V3 0 1 0) r (vcross b g) N U UR) as (C & _); [rewrite T1; lra|]. rewrite C, F in EX. injection EX as <-.
      replace (vdot (V3 0 1 0) g) with (/ sqrt 2) by (unfold vdot, g; cbn [vx vy vz]; unfold Rdiv; ring). replace (vdot r g) with (/ sqrt 2) by (unfold vdot, r, g; cbn [vx vy vz]; unfold Rdiv; ring).
      rewrite acos_inv_sqrt2. field. lra. }
  assert (Y1 : y = 2 / 3).
  { destruct (foot_scaled (V3 0 1 0) g (vcross r b) (/ sqrt 2 * / sqrt 3) (V3 0 0 (-1))) as (F & N); try assumption.
    - unfold iv, vcross, vscale, r, g, b. cbn [vx vy vz]. unfold Rdiv. f_equal; ring.
    - unfold sprod. cbn [vx vy vz]. ring.
    - unfold vdot. cbn [vx vy vz]. lra.
    - destruct (component_foot (V3 0 1 0) g (vcross r b) N U UG) as (C & _); [rewrite T2; lra|]. rewrite C, F in EY. injection EY as <-.
      replace (vdot (V3 0 1 0) (V3 0 0 (-1))) with 0 by (unfold vdot; cbn [vx vy vz]; ring). replace (vdot g (V3 0 0 (-1))) with (- / sqrt 2) by (unfold vdot, g; cbn [vx vy vz]; unfold Rdiv; ring).
      rewrite acos_opp, acos_inv_sqrt2, acos_0. field. lra. }
  assert (Z1 : z = 0). { apply ZZ. unfold vdot, vcross, g, r. cbn [vx vy vz]. ring. }
  rewrite X1, Y1, Z1. rewrite (Rmax_left (2 / 3) 0) by lra. rewrite Rmax_left by lra. do 3 f_equal; field.
Qed.
