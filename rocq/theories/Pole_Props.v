(** C67, C87, C89: pole figures and slip trace arrows. *)
From Coq Require Import String Ascii.
From Coq Require Import Reals List ZArith Bool Lia Lra Psatz.
Import ListNotations.
From Verif Require Import Py Quat_Model Quat_Spec Quat_Proofs QuatSym_Proofs QuatEuler_Proofs Text_Model Pole_Model Pole_Spec Pole_Proofs.
Open Scope R_scope.

Lemma normed : forall v, v <> vzero -> unit_dir (V3 (vx v / vlen v) (vy v / vlen v) (vz v / vlen v)).
Proof.
  intros v N. pose proof (vlen_pos v N) as M. pose proof (vlen_sq v) as S. unfold unit_dir, sprod in *. cbn [vx vy vz].
  replace (vx v / vlen v * (vx v / vlen v) + vy v / vlen v * (vy v / vlen v) + vz v / vlen v * (vz v / vlen v))
    with ((vx v * vx v + vy v * vy v + vz v * vz v) / (vlen v * vlen v)) by (field; lra). rewrite <- S. field. lra.
Qed.

(** The polar angles of a direction are its inclination in [0, 180] and its azimuth in
    (-180, 180]; only the zero vector has none. *)
Theorem C67_polar : forall v,
  (polar_angles v = None <-> v = vzero) /\
  (v <> vzero -> exists a b, polar_angles v = Some (a, b) /\ 0 <= a <= PI /\ - PI < b <= PI /\
     v = V3 (vlen v * vx (spherical a b)) (vlen v * vy (spherical a b)) (vlen v * vz (spherical a b))).
Proof.
  intros v. split; [apply polar_none|]. intros N. destruct (polar_ok v N) as (a & b & E & A & B & S). exists a, b.
  repeat split; try tauto; try lra. rewrite S. cbn [vx vy vz]. pose proof (vlen_pos v N). destruct v as [x y z]. cbn [vx vy vz]. f_equal; field; lra.
Qed.
Print Assumptions C67_polar.

(** Every direction but straight down is projected to where the line from the south pole
    through it meets the equatorial plane, with the y axis to the right. *)
Theorem C67_stereo : forall v, v <> vzero -> ~ straight_down v ->
  exists P, stereo_project [vx v; vy v; vz v] = Ok (Some (turned P)) /\
    on_south_line (V3 (vx v / vlen v) (vy v / vlen v) (vz v / vlen v)) (fst P) (snd P).
Proof.
  intros v N D. exists (vx v / (vlen v + vz v), vy v / (vlen v + vz v)). split.
  - rewrite stereo_direction by assumption. reflexivity.
  - pose proof (vlen_pos v N). pose proof (above_south v N D). cbn [fst snd]. unfold on_south_line. cbn [vx vy vz].
    exists (vlen v / (vlen v + vz v)). repeat split; field; lra.
Qed.
Print Assumptions C67_stereo.
(** The equal-area projection puts every direction at its distance in space from the
    north pole, in the direction of its horizontal part, with the y axis to the right. *)
Theorem C67_lambert : forall v, v <> vzero ->
  exists P, lambert_project [vx v; vy v; vz v] = Ok (Some (turned P)) /\
    radius P = from_north (V3 (vx v / vlen v) (vy v / vlen v) (vz v / vlen v)) /\
    (~ straight_down v -> exists k, 0 < k /\ P = (k * vx v, k * vy v)).
Proof.
  intros v N. destruct (polar_ok v N) as (a & b & E & A & B & S).
  destruct (lambert_ok a b A) as (P & LP & RP & _). exists (- snd P, fst P).
  assert (L : lambert_project [vx v; vy v; vz v] = Ok (Some P)).
  { unfold lambert_project, project. destruct v as [x y z]. cbn [vx vy vz] in *. now rewrite E, LP. }
  split; [rewrite L; unfold turned; cbn [fst snd]; rewrite Ropp_involutive; now destruct P|]. split.
  - unfold radius in *. cbn [fst snd]. replace ((- snd P) ^ 2 + fst P ^ 2) with (fst P ^ 2 + snd P ^ 2) by ring. rewrite RP, <- S.
    unfold from_north, spherical. cbn [vx vy vz]. rewrite <- (chord a A). f_equal.
    replace ((sin a * cos b) ^ 2 + (sin a * sin b) ^ 2 + (cos a - 1) ^ 2) with ((sin a)² * ((sin b)² + (cos b)²) + (cos a - 1)²) by (unfold Rsqr; ring).
    rewrite sin2_cos2, sin2. unfold Rsqr. ring.
  - intros D. rewrite lambert_direction in L by assumption. injection L as L. pose proof (vlen_pos v N). pose proof (above_south v N D).
    exists (sqrt (2 / (vlen v * (vlen v + vz v)))). split.
    + apply sqrt_lt_R0. apply Rmult_lt_0_compat; [lra|]. apply Rinv_0_lt_compat. nra.
    + rewrite <- L. cbn [fst snd]. f_equal; ring.
Qed.
Print Assumptions C67_lambert.

(** Polar angles are projected at the azimuth less 90 degrees; the upper half sphere goes
    to the unit disc and to the disc of radius sqrt 2, the equator to their edges; the
    distance from the centre grows with the inclination. *)
Theorem C67_angles : forall a b, 0 <= a <= PI / 2 ->
  (exists P, stereo_project [a; b] = Ok (Some P) /\ radius P <= 1 /\ (radius P = 1 <-> a = PI / 2) /\
     P = (radius P * cos (b - PI / 2), radius P * sin (b - PI / 2))) /\
  (exists P, lambert_project [a; b] = Ok (Some P) /\ radius P <= sqrt 2 /\ (radius P = sqrt 2 <-> a = PI / 2) /\
     P = (radius P * cos (b - PI / 2), radius P * sin (b - PI / 2))).
Proof.
  intros a b A. pose proof PI_RGT_0 as PP. split.
  - destruct (stereo_ok a b ltac:(lra)) as (P & E & R & D). exists P. split; [unfold stereo_project, project; now rewrite E|].
    assert (T : a = PI / 2 \/ tan (a / 2) < 1).
    { destruct (Req_EM_T a (PI / 2)) as [Q|Q]; [now left|right]. rewrite <- tan_PI4. apply tan_increasing; lra. }
    assert (Q : a = PI / 2 -> tan (a / 2) = 1). { intros ->. replace (PI / 2 / 2) with (PI / 4) by field. apply tan_PI4. }
    rewrite R. split; [destruct T as [T|T]; [rewrite (Q T)|]; lra|]. split; [|now rewrite R in D].
    split; [|exact Q]. intros K. destruct T as [T|T]; [exact T|lra].
  - destruct (lambert_ok a b ltac:(lra)) as (P & E & R & D). exists P. split; [unfold lambert_project, project; now rewrite E|].
    assert (C : 0 <= cos a) by (apply cos_ge_0; lra). pose proof (COS_bound a) as CB. rewrite <- (chord a) in R by lra. rewrite R. split; [apply sqrt_le_1; lra|].
    split; [|now rewrite R in D]. split.
    + intros K. apply sqrt_inj in K; [|lra|lra]. assert (Z : cos a = 0) by lra.
      destruct (Req_EM_T a (PI / 2)) as [|N]; [assumption|]. assert (0 < cos a) by (apply cos_gt_0; lra). lra.
    + intros ->. rewrite cos_PI2. f_equal. ring.
Qed.
Print Assumptions C67_angles.
Theorem C67_increasing : forall a b a' b',
  (0 <= a -> a < a' -> a' < PI -> exists P P', stereo_project [a; b] = Ok (Some P) /\ stereo_project [a'; b'] = Ok (Some P') /\ radius P < radius P') /\
  (0 <= a -> a < a' -> a' <= PI -> exists P P', lambert_project [a; b] = Ok (Some P) /\ lambert_project [a'; b'] = Ok (Some P') /\ radius P < radius P').
Proof.
  intros a b a' b'. split; intros A L A'.
  - destruct (stereo_ok a b ltac:(lra)) as (P & E & R & _). destruct (stereo_ok a' b' ltac:(lra)) as (P' & E' & R' & _). exists P, P'.
    unfold stereo_project, project. rewrite E, E', R, R'. repeat split. apply tan_increasing; lra.
  - destruct (lambert_ok a b ltac:(lra)) as (P & E & R & _). destruct (lambert_ok a' b' ltac:(lra)) as (P' & E' & R' & _). exists P, P'.
    unfold lambert_project, project. rewrite E, E', R, R'. repeat split. apply Rmult_lt_compat_l; [lra|]. apply sin_increasing_1; lra.
Qed.
Print Assumptions C67_increasing.

(** Two directions at one point of the plot are the same. *)
Theorem C67_injective : forall u v P, u <> vzero -> v <> vzero -> ~ straight_down u -> ~ straight_down v ->
  (stereo_project [vx u; vy u; vz u] = Ok (Some P) -> stereo_project [vx v; vy v; vz v] = Ok (Some P) -> same_dir u v) /\
  (lambert_project [vx u; vy u; vz u] = Ok (Some P) -> lambert_project [vx v; vy v; vz v] = Ok (Some P) -> same_dir u v).
Proof.
  assert (K : forall u v, u <> vzero -> v <> vzero -> vx u / vlen u = vx v / vlen v -> vy u / vlen u = vy v / vlen v -> vz u / vlen u = vz v / vlen v -> same_dir u v).
  { intros u v U V X Y Z. pose proof (vlen_pos u U). pose proof (vlen_pos v V). exists (vlen v / vlen u). split; [apply Rmult_lt_0_compat; [lra|now apply Rinv_0_lt_compat]|].
    destruct v as [x y z]. cbn [vx vy vz] in *.
    f_equal; [replace (vlen (V3 x y z) / vlen u * vx u) with (vx u / vlen u * vlen (V3 x y z)) by (field; lra); rewrite X
             |replace (vlen (V3 x y z) / vlen u * vy u) with (vy u / vlen u * vlen (V3 x y z)) by (field; lra); rewrite Y
             |replace (vlen (V3 x y z) / vlen u * vz u) with (vz u / vlen u * vlen (V3 x y z)) by (field; lra); rewrite Z]; field; lra. }
  intros u v P U V Du Dv. pose proof (vlen_pos u U) as Mu. pose proof (vlen_pos v V) as Mv. pose proof (normed u U) as Nu. pose proof (normed v V) as Nv.
  pose proof (above_south u U Du) as Au. pose proof (above_south v V Dv) as Av. unfold unit_dir, sprod in Nu, Nv. cbn [vx vy vz] in Nu, Nv.
  assert (Zu : 0 < 1 + vz u / vlen u) by (replace (1 + vz u / vlen u) with ((vlen u + vz u) / vlen u) by (field; lra); apply Rmult_lt_0_compat; [lra|now apply Rinv_0_lt_compat]).
  assert (Zv : 0 < 1 + vz v / vlen v) by (replace (1 + vz v / vlen v) with ((vlen v + vz v) / vlen v) by (field; lra); apply Rmult_lt_0_compat; [lra|now apply Rinv_0_lt_compat]).
  split; intros Eu Ev.
  - rewrite stereo_direction in Eu by assumption. rewrite stereo_direction in Ev by assumption. rewrite <- Eu in Ev. injection Ev as Y X.
    replace (vy v / (vlen v + vz v)) with (vy v / vlen v / (1 + vz v / vlen v)) in Y by (field; lra).
    replace (vy u / (vlen u + vz u)) with (vy u / vlen u / (1 + vz u / vlen u)) in Y by (field; lra).
    replace (vx v / (vlen v + vz v)) with (vx v / vlen v / (1 + vz v / vlen v)) in X by (field; lra).
    replace (vx u / (vlen u + vz u)) with (vx u / vlen u / (1 + vz u / vlen u)) in X by (field; lra).
    assert (Q : forall x y z x' y' z', x * x + y * y + z * z = 1 -> x' * x' + y' * y' + z' * z' = 1 -> 0 < 1 + z -> 0 < 1 + z' ->
      y' / (1 + z') = y / (1 + z) -> - (x' / (1 + z')) = - (x / (1 + z)) -> x = x' /\ y = y' /\ z = z').
    { clear. intros x y z x' y' z' N N' Z Z' Y X.
      assert (Y1 : y' = y / (1 + z) * (1 + z')) by (rewrite <- Y; field; lra).
      assert (X1 : x' = x / (1 + z) * (1 + z')) by (replace (x / (1 + z)) with (x' / (1 + z')) by lra; field; lra).
      assert (R : (x / (1 + z)) * (x / (1 + z)) + (y / (1 + z)) * (y / (1 + z)) = (1 - z) / (1 + z)).
      { replace (x / (1 + z) * (x / (1 + z)) + y / (1 + z) * (y / (1 + z))) with ((x * x + y * y) / ((1 + z) * (1 + z))) by (field; lra).
        replace (x * x + y * y) with ((1 - z) * (1 + z)) by lra. field. lra. }
      set (A := x / (1 + z)) in *. set (B := y / (1 + z)) in *.
      assert (R' : (A * A + B * B) * (1 + z') = 1 - z').
      { apply Rmult_eq_reg_r with (1 + z'); [|lra]. rewrite X1, Y1 in N'. lra. }
      rewrite R in R'. assert (ZZ : z = z').
      { assert (T : (1 - z) * (1 + z') = (1 - z') * (1 + z)) by (rewrite <- R'; field; lra). lra. }
      subst z'. unfold A in X1. unfold B in Y1. split; [|split]; [| |reflexivity]; [rewrite X1|rewrite Y1]; field; lra. }
    destruct (Q _ _ _ _ _ _ Nu Nv Zu Zv Y X) as (X1 & Y1 & Z1). now apply K.
  - rewrite lambert_direction in Eu by assumption. rewrite lambert_direction in Ev by assumption. rewrite <- Eu in Ev. injection Ev as Y X.
    assert (SR : forall m z, 0 < m -> 0 < m + z -> sqrt (2 / (m * (m + z))) = sqrt (2 / (1 + z / m)) / m).
    { clear. intros m z M Z. assert (0 < 1 + z / m) by (replace (1 + z / m) with ((m + z) / m) by (field; lra); apply Rmult_lt_0_compat; [lra|now apply Rinv_0_lt_compat]).
      replace (2 / (m * (m + z))) with (2 / (1 + z / m) * (/ m * / m)) by (field; lra).
      rewrite sqrt_mult_alt by (apply Rmult_le_pos; [lra|left; now apply Rinv_0_lt_compat]). rewrite sqrt_square; [reflexivity|]. left. now apply Rinv_0_lt_compat. }
    rewrite !SR in X, Y by assumption.
    replace (vy v * (sqrt (2 / (1 + vz v / vlen v)) / vlen v)) with (vy v / vlen v * sqrt (2 / (1 + vz v / vlen v))) in Y by (field; lra).
    replace (vy u * (sqrt (2 / (1 + vz u / vlen u)) / vlen u)) with (vy u / vlen u * sqrt (2 / (1 + vz u / vlen u))) in Y by (field; lra).
    replace (vx v * (sqrt (2 / (1 + vz v / vlen v)) / vlen v)) with (vx v / vlen v * sqrt (2 / (1 + vz v / vlen v))) in X by (field; lra).
    replace (vx u * (sqrt (2 / (1 + vz u / vlen u)) / vlen u)) with (vx u / vlen u * sqrt (2 / (1 + vz u / vlen u))) in X by (field; lra).
    assert (Q : forall x y z x' y' z', x * x + y * y + z * z = 1 -> x' * x' + y' * y' + z' * z' = 1 -> 0 < 1 + z -> 0 < 1 + z' ->
      y' * sqrt (2 / (1 + z')) = y * sqrt (2 / (1 + z)) -> - (x' * sqrt (2 / (1 + z'))) = - (x * sqrt (2 / (1 + z))) -> x = x' /\ y = y' /\ z = z').
    { clear. intros x y z x' y' z' N N' Z Z' Y X.
      assert (SS : forall w, 0 < 1 + w -> 0 < sqrt (2 / (1 + w)) /\ sqrt (2 / (1 + w)) * sqrt (2 / (1 + w)) = 2 / (1 + w)).
      { intros w W. assert (0 < 2 / (1 + w)) by (apply Rmult_lt_0_compat; [lra|now apply Rinv_0_lt_compat]). split; [now apply sqrt_lt_R0|apply sqrt_sqrt; lra]. }
      destruct (SS z Z) as (P & S1). destruct (SS z' Z') as (P' & S1').
      assert (R : forall a b c s, a * a + b * b + c * c = 1 -> 0 < 1 + c -> s * s = 2 / (1 + c) -> (a * s) * (a * s) + (b * s) * (b * s) = 2 * (1 - c)).
      { clear. intros a b c s N C E. replace (a * s * (a * s) + b * s * (b * s)) with ((a * a + b * b) * (s * s)) by ring. rewrite E.
        replace (a * a + b * b) with ((1 - c) * (1 + c)) by lra. field. lra. }
      pose proof (R x y z _ N Z S1) as R1. pose proof (R x' y' z' _ N' Z' S1') as R2.
      assert (X' : x' * sqrt (2 / (1 + z')) = x * sqrt (2 / (1 + z))) by lra. rewrite X', Y in R2.
      assert (z = z') by lra. subst z'. split; [|split; [|reflexivity]]; apply Rmult_eq_reg_r with (sqrt (2 / (1 + z))); lra. }
    destruct (Q _ _ _ _ _ _ Nu Nv Zu Zv Y X) as (X1 & Y1 & Z1). now apply K.
Qed.
Print Assumptions C67_injective.

(** Equal area: the disc up to an inclination has the area of the part of the sphere, and
    so has every sector of a ring. *)
Theorem C67_equal_area : forall a b, 0 <= a <= PI -> exists P, lambert_project [a; b] = Ok (Some P) /\
  PI * radius P ^ 2 = cap_area a /\
  forall a' b', 0 <= a' <= PI -> exists P', lambert_project [a'; b'] = Ok (Some P') /\
    forall width, width / 2 * (radius P' ^ 2 - radius P ^ 2) = width / (2 * PI) * (cap_area a' - cap_area a).
Proof.
  intros a b A. assert (G : forall a b, 0 <= a <= PI -> exists P, lambert_project [a; b] = Ok (Some P) /\ radius P ^ 2 = 2 * (1 - cos a)).
  { clear. intros a b A. destruct (lambert_ok a b A) as (P & E & R & _). exists P. split; [unfold lambert_project, project; now rewrite E|].
    rewrite R, <- (chord a A). replace (sqrt (2 * (1 - cos a)) ^ 2) with (sqrt (2 * (1 - cos a)) * sqrt (2 * (1 - cos a))) by ring. apply sqrt_sqrt. pose proof (COS_bound a). lra. }
  destruct (G a b A) as (P & E & R). exists P. split; [exact E|]. split; [rewrite R; unfold cap_area; ring|]. intros a' b' A'. destruct (G a' b' A') as (P' & E' & R').
  exists P'. split; [exact E'|]. intros w. rewrite R, R'. unfold cap_area. field. apply PI_neq0.
Qed.
Print Assumptions C67_equal_area.
(** Equal angle: the scale along a meridian is that along a circle of latitude, whose
    radius on the sphere is sin alpha. *)
Theorem C67_equal_angle : forall a b, 0 < a < PI -> exists P, stereo_project [a; b] = Ok (Some P) /\
  radius P = tan (a / 2) /\ derivable_pt_lim (fun a => tan (a / 2)) a (radius P / sin a).
Proof.
  intros a b A. destruct (stereo_ok a b ltac:(lra)) as (P & E & R & _). exists P. split; [unfold stereo_project, project; now rewrite E|]. split; [exact R|].
  assert (H : derivable_pt_lim (comp tan (fun a => a / 2)) a ((1 + tan (a / 2) ^ 2) * (1 / 2))).
  { apply derivable_pt_lim_comp.
    - unfold Rdiv. replace (1 * / 2) with (1 * / 2 + a * 0) by ring. apply (derivable_pt_lim_mult id (fct_cte (/ 2))); [apply derivable_pt_lim_id|apply derivable_pt_lim_const].
    - assert (HB : - PI / 2 < a / 2 < PI / 2) by lra. pose proof (derive_pt_tan (a / 2) HB) as DT.
      apply derive_pt_eq_1 in DT. exact DT. }
  replace (radius P / sin a) with ((1 + tan (a / 2) ^ 2) * (1 / 2)); [exact H|]. rewrite R.
  assert (S : 0 < sin (a / 2)) by (apply sin_gt_0; lra). assert (C : 0 < cos (a / 2)) by (apply cos_gt_0; lra).
  rewrite (half_sin a). unfold tan. pose proof (sin2_cos2 (a / 2)) as Q. unfold Rsqr in Q.
  replace (1 + (sin (a / 2) / cos (a / 2)) ^ 2) with ((sin (a / 2) * sin (a / 2) + cos (a / 2) * cos (a / 2)) / (cos (a / 2) * cos (a / 2))) by (field; lra).
  rewrite Q. field. split; lra.
Qed.
Print Assumptions C67_equal_angle.
(** Circles of the sphere (directions at one angle to an axis) are circles, or lines, of
    the plot. *)
Theorem C67_circles : forall n d v P, unit_dir v -> stereo_project [vx v; vy v; vz v] = Ok (Some P) -> ~ straight_down v ->
  (sprod n v = d <->
   (d + vz n) * (fst P ^ 2 + snd P ^ 2) - 2 * vy n * fst P + 2 * vx n * snd P + (d - vz n) = 0).
Proof.
  intros n d v P U E D. assert (N : v <> vzero). { intros ->. unfold unit_dir, sprod, vzero in U. cbn [vx vy vz] in U. lra. }
  rewrite stereo_direction in E by assumption. injection E as <-. cbn [fst snd].
  pose proof (above_south v N D) as Q. assert (M : vlen v = 1) by (unfold vlen; rewrite U; apply sqrt_1). rewrite M in *.
  unfold unit_dir, sprod in *. set (x := vx v) in *. set (y := vy v) in *. set (z := vz v) in *.
  assert (I : (d + vz n) * ((y / (1 + z)) ^ 2 + (- (x / (1 + z))) ^ 2) - 2 * vy n * (y / (1 + z)) + 2 * vx n * - (x / (1 + z)) + (d - vz n)
    = 2 * (d - (vx n * x + vy n * y + vz n * z)) / (1 + z)).
  { replace ((y / (1 + z)) ^ 2 + (- (x / (1 + z))) ^ 2) with ((x * x + y * y) / ((1 + z) * (1 + z))) by (field; lra).
    replace (x * x + y * y) with ((1 - z) * (1 + z)) by lra. field. lra. }
  rewrite I. split.
  - intros <-. unfold Rdiv. ring.
  - intros K. apply Rmult_integral in K as [K|K]; [lra|]. exfalso. assert (0 < / (1 + z)) by now apply Rinv_0_lt_compat. lra.
Qed.
Print Assumptions C67_circles.

(** Neither two nor three numbers: an exception; the zero vector: nan. *)
Theorem C67_arguments : forall args,
  ((List.length args <> 2 /\ List.length args <> 3)%nat -> stereo_project args = Err GenericException /\ lambert_project args = Err GenericException) /\
  stereo_project [0; 0; 0] = Ok None /\ lambert_project [0; 0; 0] = Ok None.
Proof.
  intros args. split.
  - intros (A & B). destruct args as [|a [|b [|c [|e args]]]]; try easy; split; reflexivity.
  - unfold stereo_project, lambert_project, project. change (V3 0 0 0) with vzero. rewrite (proj2 (polar_none vzero) eq_refl). split; reflexivity.
Qed.
Print Assumptions C67_arguments.

Example C67_met : unit_dir (V3 (3 / 5) 0 (4 / 5)) /\ ~ straight_down (V3 (3 / 5) 0 (4 / 5)) /\
  stereo_project [3 / 5; 0; 4 / 5] = Ok (Some (0, - (1 / 3))).
Proof.
  assert (U : unit_dir (V3 (3 / 5) 0 (4 / 5))) by (unfold unit_dir, sprod; cbn [vx vy vz]; lra).
  assert (D : ~ straight_down (V3 (3 / 5) 0 (4 / 5))) by (intros (X & _); cbn [vx] in X; lra).
  split; [exact U|]. split; [exact D|]. assert (N : V3 (3 / 5) 0 (4 / 5) <> vzero) by (intros E; injection E as E _; lra).
  pose proof (stereo_direction _ N D) as H. cbn [vx vy vz] in H. rewrite H. unfold vlen. rewrite U, sqrt_1. do 3 f_equal; field.
Qed.

(** ** C87 *)

Lemma lower_match : forall a b, a <> " "%char -> ~ (65 <= nat_of_ascii b <= 90)%nat -> (lower_char a = b <-> letters_match a b).
Proof.
  intros a b _ B. unfold lower_char, letters_match.
  assert (N : forall n, (n < 256)%nat -> nat_of_ascii (ascii_of_nat n) = n) by (intros; now apply nat_ascii_embedding).
  destruct (Nat.leb_spec 65 (nat_of_ascii a)); destruct (Nat.leb_spec (nat_of_ascii a) 90); cbn [andb]; split; intros H1.
  - subst b. right. split; [lia|]. rewrite N by lia. reflexivity.
  - destruct H1 as [->|(_ & E)]; [lia|]. rewrite <- E. apply ascii_nat_embedding.
  - now left.
  - destruct H1 as [->|(K & _)]; [reflexivity|lia].
  - now left.
  - destruct H1 as [->|(K & _)]; [reflexivity|lia].
  - now left.
  - destruct H1 as [->|(K & _)]; [reflexivity|lia].
Qed.
Lemma plain_spelled : forall t u, Forall (fun b => ~ (65 <= nat_of_ascii b <= 90)%nat) u -> (plain_name t = u <-> spelled t u).
Proof.
  unfold plain_name. induction t as [|a t IH]; intros u U.
  - cbn. split; [intros <-; constructor|]. intros H. inversion H. reflexivity.
  - cbn [filter]. destruct (Ascii.eqb_spec a " ") as [->|N]; cbn [negb].
    + rewrite IH by exact U. split; [now constructor|]. intros H. inversion H; subst; [assumption|easy].
    + cbn [map]. split.
      * intros <-. inversion U; subst. constructor; [exact N|now apply lower_match|]. now apply IH.
      * intros H. inversion H; subst; [easy|]. inversion U; subst. f_equal; [now apply lower_match|now apply IH].
Qed.
Lemma lower_lit : forall s, existsb (fun b => (65 <=? nat_of_ascii b)%nat && (nat_of_ascii b <=? 90)%nat) (lit s) = false ->
  Forall (fun b => ~ (65 <= nat_of_ascii b <= 90)%nat) (lit s).
Proof.
  intros s H. apply Forall_forall. intros b B (X & Y). assert (K : existsb (fun b => (65 <=? nat_of_ascii b)%nat && (nat_of_ascii b <=? 90)%nat) (lit s) = true).
  { apply existsb_exists. exists b. split; [exact B|]. apply andb_true_intro. split; apply Nat.leb_le; assumption. }
  congruence.
Qed.
Lemma is_name_spec : forall t names, is_name t names = true <-> exists s, In s names /\ t = lit s.
Proof.
  intros t names. unfold is_name. rewrite existsb_exists. split; intros (s & I & E); exists s; split; auto.
  - destruct (list_eq_dec _ _ _); congruence.
  - destruct (list_eq_dec _ _ _); congruence.
Qed.
Lemma named : forall t names, Forall (fun s => existsb (fun b => (65 <=? nat_of_ascii b)%nat && (nat_of_ascii b <=? 90)%nat) (lit s) = false) names ->
  (is_name (plain_name t) names = true <-> exists s, In s names /\ spelled t (lit s)).
Proof.
  intros t names F. rewrite is_name_spec. rewrite Forall_forall in F. split; intros (s & I & E); exists s; (split; [exact I|]); apply (plain_spelled t (lit s)); auto using lower_lit.
Qed.

(** With a sound default projection: the names of the two projections are accepted with
    any spaces and case, a function is used as it is, and everything else gives the
    default. *)
Theorem C87_names : forall {F} (d : proj_arg F) def, pick_projection None d = Ok def -> forall t,
  ((exists s, In s ["lambert"; "equalarea"]%string /\ spelled t (lit s)) -> validate_projection d (NameArg t) = Ok Lambert) /\
  ((exists s, In s ["stereographic"; "stereo"; "equalangle"]%string /\ spelled t (lit s)) -> validate_projection d (NameArg t) = Ok Stereographic) /\
  ((forall s, In s ["lambert"; "equalarea"; "stereographic"; "stereo"; "equalangle"]%string -> ~ spelled t (lit s)) ->
     validate_projection d (NameArg t) = Ok def) /\
  (forall f, validate_projection d (FunArg f) = Ok (Given f)) /\
  validate_projection d NoArg = Ok def /\ validate_projection d AnyObject = Ok def.
Proof.
  intros F d def D t. unfold validate_projection. rewrite D. unfold pick_projection.
  pose proof (named t ["lambert"; "equalarea"]%string ltac:(repeat constructor)) as N1.
  pose proof (named t ["stereographic"; "stereo"; "equalangle"]%string ltac:(repeat constructor)) as N2.
  repeat split.
  - intros H. apply N1 in H. now rewrite H.
  - intros H. destruct (is_name (plain_name t) ["lambert"; "equalarea"]%string) eqn:Q.
    + exfalso. apply is_name_spec in Q as (s1 & I1 & E1). apply N2 in H. apply is_name_spec in H as (s2 & I2 & E2). rewrite E1 in E2.
      cbn [In] in I1, I2. intuition (subst; discriminate).
    + apply N2 in H. now rewrite H.
  - intros H. destruct (is_name (plain_name t) ["lambert"; "equalarea"]%string) eqn:Q1.
    + exfalso. destruct (proj1 N1 eq_refl) as (s & I & E). apply (H s); [cbn [In] in *; tauto|exact E].
    + destruct (is_name (plain_name t) ["stereographic"; "stereo"; "equalangle"]%string) eqn:Q2; [|reflexivity].
      exfalso. destruct (proj1 N2 eq_refl) as (s & I & E). apply (H s); [cbn [In] in *; tauto|exact E].
Qed.
Print Assumptions C87_names.
Example C87_names_met : spelled (lit "Equal Area") (lit "equalarea") /\
  pick_projection (F := nat) None (NameArg (lit "stereographic")) = Ok Stereographic.
Proof. split; [|reflexivity]. apply plain_spelled; [now apply lower_lit|reflexivity]. Qed.
(** A bad entry in the package defaults makes every pole figure fail, also one whose
    projection is given. *)
Theorem C87_bad_default_refuted : forall F (f : F) d, d = NoArg \/ d = AnyObject \/ d = NameArg (lit "polar") ->
  validate_projection d (FunArg f) = Err ValueError /\ validate_projection d (NameArg (lit "lambert")) = Err ValueError.
Proof. intros F f d [->|[->| ->]]; split; reflexivity. Qed.
Print Assumptions C87_bad_default_refuted.

(** A line consists of [n] directions in the plane of its ends, from one to the other. *)
Lemma component_nth : forall a b n i, (i < n)%nat -> (1 < n)%nat ->
  nth i (line_component a b n) 0 = (1 - INR i / INR (n - 1)) * a + INR i / INR (n - 1) * b.
Proof.
  intros a b n i I N. assert (P : 0 < INR (n - 1)) by (apply lt_0_INR; lia). unfold line_component. destruct (Req_EM_T a b) as [->|K].
  - rewrite nth_indep with (d' := b) by (rewrite repeat_length; exact I). rewrite nth_repeat. field. lra.
  - unfold linspace. set (f := fun i => _). rewrite nth_indep with (d' := f O) by (rewrite map_length, seq_length; exact I).
    rewrite map_nth, seq_nth by exact I. unfold f. destruct (Nat.eqb_spec n 1); [lia|]. cbn [Nat.add]. field. lra.
Qed.
Theorem C87_line : forall s e n, (1 < n)%nat ->
  List.length (line_points s e n) = n /\
  nth_error (line_points s e n) 0 = Some s /\ nth_error (line_points s e n) (n - 1) = Some e /\
  forall v, In v (line_points s e n) -> between s e v /\ sprod (xprod s e) v = 0.
Proof.
  intros s e n N. assert (P : 0 < INR (n - 1)) by (apply lt_0_INR; lia).
  assert (G : forall i, (i < n)%nat -> nth_error (line_points s e n) i =
    Some (V3 ((1 - INR i / INR (n - 1)) * vx s + INR i / INR (n - 1) * vx e) ((1 - INR i / INR (n - 1)) * vy s + INR i / INR (n - 1) * vy e)
             ((1 - INR i / INR (n - 1)) * vz s + INR i / INR (n - 1) * vz e))).
  { intros i I. unfold line_points. rewrite nth_error_map. rewrite (nth_error_nth' (seq 0 n) O) by (rewrite seq_length; exact I). rewrite seq_nth by exact I. cbn [option_map Nat.add].
    now rewrite !component_nth by assumption. }
  split; [unfold line_points; now rewrite map_length, seq_length|]. split; [|split].
  - rewrite G by lia. destruct s as [x y z]. cbn [vx vy vz INR]. do 2 f_equal; field; lra.
  - rewrite G by lia. destruct e as [x y z]. cbn [vx vy vz]. do 2 f_equal; field; lra.
  - intros v V. apply In_nth_error in V as (i & V). assert (I : (i < n)%nat).
    { apply nth_error_Some_lt in V || (assert (K : nth_error (line_points s e n) i <> None) by congruence; apply nth_error_Some in K; unfold line_points in K; now rewrite map_length, seq_length in K). }
    rewrite G in V by exact I. injection V as <-. split.
    + exists (INR i / INR (n - 1)). split; [|reflexivity]. split.
      * apply Rmult_le_pos; [apply pos_INR|left; now apply Rinv_0_lt_compat].
      * apply Rmult_le_reg_r with (INR (n - 1)); [exact P|]. unfold Rdiv. rewrite Rmult_assoc, Rinv_l, Rmult_1_r, Rmult_1_l by lra. apply le_INR. lia.
    + unfold sprod, xprod. cbn [vx vy vz]. ring.
Qed.
Print Assumptions C87_line.
(** Each point drawn for a line is the projection of a direction between its ends. *)
Theorem C87_line_drawn : forall s e n i, (1 < n)%nat -> (i < n)%nat -> exists v, between s e v /\
  (v <> vzero -> ~ straight_down v ->
   exists P Q, nth_error (plot_line stereo_project n (s, e)) i = Some (Ok (Some (turned P))) /\
     on_south_line (V3 (vx v / vlen v) (vy v / vlen v) (vz v / vlen v)) (fst P) (snd P) /\
     nth_error (plot_line lambert_project n (s, e)) i = Some (Ok (Some (turned Q))) /\
     radius Q = from_north (V3 (vx v / vlen v) (vy v / vlen v) (vz v / vlen v)) /\
     exists k, 0 < k /\ Q = (k * vx v, k * vy v)).
Proof.
  intros s e n i N I. destruct (C87_line s e n N) as (L & _ & _ & B). destruct (nth_error (line_points s e n) i) as [v|] eqn:E.
  2:{ apply nth_error_None in E. lia. }
  exists v. split; [apply B; exact (nth_error_In _ _ E)|]. intros V D. destruct (C67_stereo v V D) as (P & P1 & P2). destruct (C67_lambert v V) as (Q & Q1 & Q2 & Q3).
  exists P, Q. unfold plot_line. cbn [fst snd]. rewrite !nth_error_map, E. cbn [option_map]. rewrite P1, Q1. repeat split; try assumption. now apply Q3.
Qed.
Print Assumptions C87_line_drawn.
Example C87_line_drawn_met : between (V3 0 0 1) (V3 0 1 1) (V3 0 (1 / 2) 1) /\ V3 0 (1 / 2) 1 <> vzero /\ ~ straight_down (V3 0 (1 / 2) 1).
Proof.
  split; [exists (1 / 2); split; [lra|]; cbn [vx vy vz]; f_equal; field|]. split; [unfold vzero; intros X; injection X; lra|].
  unfold straight_down. cbn [vx vy vz]. lra.
Qed.

(** Symmetric lines: when both ends stay on one side, the line drawn is the rotated line
    or its opposite. *)
Definition flip (b : bool) (v : vec3) : vec3 := if b then vscale (-1) v else v.
Theorem C87_symmetric_partial : forall syms s e l, In l (lines_drawn syms true s e) ->
  l = (s, e) \/ exists q b c, In q syms /\ l = (flip b (transform_vector q s), flip c (transform_vector q e)) /\
    0 <= vz (fst l) /\ 0 <= vz (snd l) /\
    ((vz (transform_vector q s) < 0 <-> vz (transform_vector q e) < 0) -> b = c).
Proof.
  intros syms s e l L. cbn [lines_drawn In] in L. destruct L as [<-|L]; [now left|right]. apply in_map_iff in L as (q & <- & Q).
  assert (QS : In q syms) by (destruct syms; [easy|now right]). exists q.
  exists (if Rlt_dec (vz (transform_vector q s)) 0 then true else false), (if Rlt_dec (vz (transform_vector q e)) 0 then true else false).
  split; [exact QS|]. cbn [fst snd]. unfold north, flip. 
  destruct (Rlt_dec (vz (transform_vector q s)) 0), (Rlt_dec (vz (transform_vector q e)) 0); unfold vscale; cbn [vx vy vz]; repeat split; try lra; try tauto.
Qed.
Print Assumptions C87_symmetric_partial.
(** Otherwise one end is replaced by its opposite and the line drawn is another one: for
    the line from [001] to [011], 45 degrees apart, one of the lines drawn as its cubic
    images spans 135 degrees. *)
Theorem C87_symmetric_refuted : exists l, In l (lines_drawn cubic_symmetries true (V3 0 0 1) (V3 0 1 1)) /\
  sprod (V3 0 0 1) (V3 0 1 1) = 1 /\ sprod (fst l) (snd l) = -1.
Proof.
  assert (R : over_root2 * over_root2 = 1 / 2).
  { unfold over_root2. replace (sqrt 2 / 2 * (sqrt 2 / 2)) with (sqrt 2 * sqrt 2 / 4) by field. rewrite sqrt_sqrt by lra. field. }
  assert (RP : 0 < over_root2) by (unfold over_root2; assert (0 < sqrt 2) by (apply sqrt_lt_R0; lra); lra).
  assert (G : exists q, In q (tl cubic_symmetries) /\ transform_vector q (V3 0 0 1) = V3 0 1 0 /\ transform_vector q (V3 0 1 1) = V3 0 1 (-1)).
  { exists (Quat false (Q4 over_root2 (- over_root2) 0 0)). split; [unfold cubic_symmetries; cbn [tl map In]; tauto|].
    rewrite Quat_id by (cbn [qw]; lra). rewrite !transform_north by (cbn [qw]; lra).
    unfold mapply, rot_matrix, sprod. cbn [qw qx qy qz vx vy vz r0 r1 r2]. set (r := over_root2) in *. split; f_equal; nra. }
  destruct G as (q & I & A & B). exists (north (transform_vector q (V3 0 0 1)), north (transform_vector q (V3 0 1 1))). split.
  - cbn [lines_drawn In]. right. apply in_map_iff. exists q. split; [reflexivity|exact I].
  - rewrite A, B. unfold north, vscale. cbn [vx vy vz fst snd]. destruct (Rlt_dec 0 0); [lra|]. destruct (Rlt_dec (-1) 0); [|lra].
    unfold sprod. cbn [vx vy vz]. split; ring.
Qed.
Print Assumptions C87_symmetric_refuted.

(** Points: without colours one set of markers is drawn, with two colours and a size two
    sets of half markers, with two colours and no size an exception. *)
Theorem C87_points_partial : forall sized marker a b,
  markers NoColour sized marker = Ok [None] /\ markers (Colours [a; b]) true false = Ok [Some a; Some b] /\
  markers (Colours [a; b]) false marker = Err TypeError.
Proof. intros. repeat split; reflexivity. Qed.
Print Assumptions C87_points_partial.
(** One colour always raises, although asked for by the message of the exception; two
    colours always raise for inverse pole figures of orientations. *)
Theorem C87_points_refuted : forall sized marker a b,
  markers (OneColour a) sized marker = Err GenericException /\ markers (Colours [a]) sized marker = Err GenericException /\
  ipf_markers (OneColour a) = Err GenericException /\ ipf_markers (Colours [a; b]) = Err TypeError.
Proof. intros. repeat split; reflexivity. Qed.
Print Assumptions C87_points_refuted.

(** ** C89 *)

(** One arrow is drawn for each angle, along the y axis turned anticlockwise by the
    angle, in the colour of that position or the last one. *)
Theorem C89_arrows : forall {C} top angles (colours : list C), colours <> [] ->
  exists arrows, add_traces top angles colours = Ok arrows /\ List.length arrows = List.length angles /\
  forall i a, nth_error angles i = Some a -> exists x y c,
    nth_error arrows i = Some ((x, y), c) /\ nth_error colours (Nat.min i (List.length colours - 1)) = Some c /\
    x * x + y * y = 1 /\ ((x, y) = (- sin a, cos a) \/ top = true /\ (x, y) = (sin a, - cos a)).
Proof.
  intros C top angles colours NE. unfold add_traces.
  assert (G : forall angles k, exists arrows, trace_arrows top k angles colours = Ok arrows /\ List.length arrows = List.length angles /\
    forall i a, nth_error angles i = Some a -> exists c, nth_error arrows i = Some (trace_dir top a, c) /\ nth_error colours (Nat.min (k + i) (List.length colours - 1)) = Some c).
  { induction angles0 as [|a l IH]; intros k.
    - exists []. split; [reflexivity|]. split; [reflexivity|]. intros [|i] a E; discriminate.
    - cbn [trace_arrows]. assert (M : (if (List.length colours <=? k)%nat then List.length colours - 1 else k)%nat = Nat.min k (List.length colours - 1)).
      { destruct colours; [easy|]. cbn [List.length]. destruct (Nat.leb_spec (S (List.length colours)) k); lia. }
      rewrite M. destruct (nth_error colours (Nat.min k (List.length colours - 1))) as [c|] eqn:E.
      2:{ apply nth_error_None in E. destruct colours; [easy|]. cbn [List.length] in E. lia. }
      destruct (IH (S k)) as (arrows & R & L & H). rewrite R. eexists. split; [reflexivity|]. split; [cbn [List.length]; lia|].
      intros [|i] b B; cbn [nth_error] in *.
      + injection B as <-. exists c. split; [reflexivity|]. now rewrite Nat.add_0_r.
      + destruct (H i b B) as (c' & H1 & H2). exists c'. split; [exact H1|]. now rewrite <- Nat.add_succ_comm. }
  destruct (G angles O) as (arrows & R & L & H). exists arrows. split; [exact R|]. split; [exact L|]. intros i a A.
  destruct (H i a A) as (c & H1 & H2). cbn [Nat.add] in H2.
  assert (U : - sin a * - sin a + cos a * cos a = 1) by (pose proof (sin2_cos2 a) as Q; unfold Rsqr in Q; lra).
  unfold trace_dir in H1. destruct top; [destruct (Rlt_dec (- sin a) 0); [destruct (Rlt_dec (cos a) 0)|]|]; eexists _, _, c; (split; [exact H1|]; split; [exact H2|]);
    (split; [lra|]); try (left; reflexivity). right. split; [reflexivity|]. f_equal; ring.
Qed.
Print Assumptions C89_arrows.
(** In the upper half only: true for angles from -90 degrees to below 180. *)
Theorem C89_top_partial : forall a, - (PI / 2) <= a < PI -> 0 <= snd (trace_dir true a).
Proof.
  intros a A. unfold trace_dir. destruct (Rle_dec a (PI / 2)) as [L|L].
  - assert (0 <= cos a) by (apply cos_ge_0; lra). destruct (Rlt_dec (- sin a) 0); [destruct (Rlt_dec (cos a) 0); [lra|]|]; cbn [snd]; lra.
  - assert (cos a < 0) by (apply cos_lt_0; lra). assert (0 < sin a) by (apply sin_gt_0; lra).
    destruct (Rlt_dec (- sin a) 0); [|lra]. destruct (Rlt_dec (cos a) 0); [|lra]. cbn [snd]. lra.
Qed.
Print Assumptions C89_top_partial.
Example C89_top_met : - (PI / 2) <= 3 / 4 * PI < PI /\ cos (3 / 4 * PI) < 0.
Proof. pose proof PI_RGT_0. split; [lra|]. apply cos_lt_0; lra. Qed.
(** For other angles the arrow points down: only arrows to the lower left are moved. *)
Theorem C89_top_refuted : forall a, - PI < a < - (PI / 2) -> snd (trace_dir true a) < 0.
Proof.
  intros a A. unfold trace_dir. assert (C : cos a < 0) by (rewrite <- cos_neg; apply cos_lt_0; lra).
  assert (S : sin a < 0). { replace a with (- (- a)) by ring. rewrite sin_neg. assert (0 < sin (- a)) by (apply sin_gt_0; lra). lra. }
  destruct (Rlt_dec (- sin a) 0); [lra|]. exact C.
Qed.
Print Assumptions C89_top_refuted.
