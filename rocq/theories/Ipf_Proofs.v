(** Lemmas on inverse pole figures. *)
From Coq Require Import Reals List ZArith Bool Lia Lra Psatz String Permutation.
Import ListNotations.
From Verif Require Import Py Quat_Model Quat_Spec Quat_Proofs QuatSym_Proofs QuatEuler_Proofs QuatMany_Proofs Pole_Model Pole_Spec Pole_Proofs SlipSys_Proofs Ipf_Model Ipf_Spec.
Open Scope R_scope.

(** ** Images *)
Lemma crystal_dir_rot : forall q d, crystal_dir q d = mapply (rot_matrix q) d.
Proof.
  intros [a b c e] [x y z]. unfold crystal_dir, mapply, rot_matrix, sprod. cbn [qw qx qy qz vx vy vz r0 r1 r2]. f_equal; ring.
Qed.
Lemma image_list : forall g d q,
  image_angles g d q = map (fun s => northern_angles (mapply (rot_matrix s) (in_crystal q d))) (sym_eqv g).
Proof.
  intros g d q. unfold image_angles, in_crystal. destruct (sym_head g) as (t & E). rewrite E. cbn [tl map]. rewrite map_map. f_equal.
  - f_equal. rewrite crystal_dir_rot, <- mapply_mprod, <- rot_hprod. f_equal. f_equal. destruct q. unfold hprod, qone. cbn. f_equal; ring.
  - apply map_ext. intros s. f_equal. rewrite crystal_dir_rot, <- mapply_mprod, <- rot_hprod. f_equal. apply rot_same.
    rewrite sym_comps_mul. apply quat_mul_same.
Qed.

(** A unit vector in the closed northern hemisphere, with its angles. *)
Definition hat (v : vec3) : vec3 := V3 (vx v / vlen v) (vy v / vlen v) (vz v / vlen v).
Lemma hat_unit : forall v, v <> vzero -> sprod (hat v) (hat v) = 1.
Proof.
  intros v N. pose proof (vlen_pos v N) as M. pose proof (vlen_sq v) as Q. unfold hat, sprod in *. cbn [vx vy vz].
  replace (vx v / vlen v * (vx v / vlen v) + vy v / vlen v * (vy v / vlen v) + vz v / vlen v * (vz v / vlen v))
    with ((vx v * vx v + vy v * vy v + vz v * vz v) / (vlen v * vlen v)) by (field; lra). rewrite Q. field. rewrite <- Q. nra.
Qed.
Lemma hat_dir : forall v, v <> vzero -> same_dir (hat v) v.
Proof.
  intros v N. pose proof (vlen_pos v N) as M. exists (vlen v). split; [exact M|]. destruct v as [x y z]. unfold hat. cbn [vx vy vz]. f_equal; field; lra.
Qed.
Lemma north_unit : forall v, sprod v v = 1 -> sprod (north v) (north v) = 1 /\ 0 <= vz (north v).
Proof.
  intros [x y z] U. unfold north. cbn [vz]. destruct (Rlt_dec z 0) as [L|L]; unfold vscale, sprod in *; cbn [vx vy vz] in *; split; lra.
Qed.
Lemma polar_unit : forall w, sprod w w = 1 -> polar_angles w = Some (acos (vz w), arctan2 (vy w) (vx w)).
Proof.
  intros [x y z] U. unfold polar_angles, sprod in *. cbn [vx vy vz] in *. replace (x ^ 2 + y ^ 2 + z ^ 2) with 1 by (simpl; lra). rewrite sqrt_1.
  destruct (Req_EM_T 1 0) as [E|_]; [lra|]. now rewrite !Rdiv_1_r || (do 2 f_equal; f_equal; field).
Qed.
Lemma northern_ok : forall v, v <> vzero ->
  northern_angles v = Some (acos (vz (north (hat v))), arctan2 (vy (north (hat v))) (vx (north (hat v)))).
Proof.
  intros v N. pose proof (vlen_pos v N) as M. unfold northern_angles. change (sqrt (vx v * vx v + vy v * vy v + vz v * vz v)) with (vlen v).
  destruct (Req_EM_T (vlen v) 0) as [E|_]; [lra|]. fold (hat v). apply polar_unit. apply north_unit. now apply hat_unit.
Qed.
Lemma angles_spherical : forall w, sprod w w = 1 -> angles_of (Some (acos (vz w), arctan2 (vy w) (vx w))) w.
Proof.
  intros w U. assert (N : w <> vzero) by (intros ->; unfold sprod, vzero in U; cbn in U; lra).
  destruct (polar_ok w N) as (a & b & E & A & B & S). rewrite (polar_unit w U) in E. injection E as <- <-.
  exists (acos (vz w)), (arctan2 (vy w) (vx w)). split; [reflexivity|]. split; [exact A|]. split; [exact B|].
  assert (L : vlen w = 1) by (unfold vlen; rewrite U; apply sqrt_1). rewrite L in S.
  exists 1. split; [lra|]. rewrite S. destruct w as [x y z]. cbn [vx vy vz]. f_equal; field.
Qed.
Lemma same_dir_trans : forall u v w, same_dir u v -> same_dir v w -> same_dir u w.
Proof.
  intros u v w (k & K & ->) (j & J & ->). exists (j * k). split; [nra|]. cbn [vx vy vz]. f_equal; ring.
Qed.
Lemma same_dir_sym : forall u v, same_dir u v -> same_dir v u.
Proof.
  intros u v (k & K & ->). exists (/ k). split; [now apply Rinv_0_lt_compat|]. destruct u as [x y z]. cbn [vx vy vz]. f_equal; field; lra.
Qed.
Lemma angles_of_dir : forall o u v, angles_of o u -> same_dir u v -> angles_of o v.
Proof. intros o u v (a & b & E & A & B & S) D. exists a, b. repeat split; try tauto; try lra. exact (same_dir_trans _ _ _ S D). Qed.

(** ** Azimuths *)
Lemma sin_sum45 : forall b, sin b + cos b = sqrt 2 * cos (b - PI / 4).
Proof.
  intros b. rewrite cos_minus, cos_PI4, sin_PI4. pose proof (sqrt_sqrt 2 ltac:(lra)) as Q. assert (0 < sqrt 2) by (apply sqrt_lt_R0; lra). field_simplify; [|lra]. 
  lra.
Qed.
Lemma azimuth : forall x y, x * x + y * y <> 0 -> exists r, 0 < r /\ x = r * cos (arctan2 y x) /\ y = r * sin (arctan2 y x).
Proof.
  intros x y N. assert (P : 0 < x * x + y * y) by nra. exists (sqrt (x * x + y * y)). pose proof (sqrt_lt_R0 _ P) as S. split; [exact S|].
  destruct (arctan2_cs y x (sqrt (x * x + y * y)) S) as (C & D); [apply sqrt_sqrt; lra|]. rewrite C, D. split; field; lra.
Qed.
Lemma azimuth_zero : arctan2 0 0 = 0.
Proof. unfold arctan2. destruct (Rlt_dec 0 0); [lra|]. destruct (Rlt_dec 0 0); [lra|]. reflexivity. Qed.
(** The azimuth lies between two limits in the upper half exactly if the direction lies
    on the right sides of them. *)
Lemma azimuth_between : forall x y lo hi, 0 < lo -> lo <= hi -> hi < PI -> x * x + y * y <> 0 ->
  (lo <= arctan2 y x <= hi <-> 0 < y /\ 0 <= y * cos lo - x * sin lo /\ y * cos hi - x * sin hi <= 0).
Proof.
  intros x y lo hi L1 L2 L3 N. destruct (azimuth x y N) as (r & R & X & Y). pose proof (arctan2_range y x) as B. set (b := arctan2 y x) in *. clearbody b.
  assert (E : forall t, y * cos t - x * sin t = r * sin (b - t)). { intros t. rewrite X, Y, sin_minus. ring. }
  rewrite !E. split.
  - intros (H1 & H2). split; [|split].
    + rewrite Y. apply Rmult_lt_0_compat; [exact R|]. apply sin_gt_0; lra.
    + apply Rmult_le_pos; [lra|]. apply sin_ge_0; lra.
    + assert (0 <= sin (hi - b)) by (apply sin_ge_0; lra). replace (b - hi) with (- (hi - b)) by ring. rewrite sin_neg. nra.
  - intros (H0 & H1 & H2). assert (P : 0 < sin b) by (rewrite Y in H0; destruct (Rle_dec (sin b) 0); nra).
    assert (B0 : 0 < b). { destruct (Rlt_dec 0 b); [assumption|]. exfalso. assert (0 <= sin (- b)) by (apply sin_ge_0; lra). rewrite sin_neg in H. lra. }
    assert (BP : b < PI). { destruct (Req_EM_T b PI) as [->|]; [rewrite sin_PI in P; lra|lra]. }
    split.
    + destruct (Rle_dec lo b); [assumption|]. exfalso. assert (0 < sin (lo - b)) by (apply sin_gt_0; lra). replace (b - lo) with (- (lo - b)) in H1 by ring. rewrite sin_neg in H1. nra.
    + destruct (Rle_dec b hi); [assumption|]. exfalso. assert (0 < sin (b - hi)) by (apply sin_gt_0; lra). nra.
Qed.
Lemma trial_spec : forall lo hi a b, trial lo hi (Some (a, b)) = true <-> lo <= b <= hi.
Proof.
  intros lo hi a b. unfold trial. destruct (Rle_dec lo b), (Rle_dec b hi); cbn [andb]; split; intros; try easy; try lra; discriminate.
Qed.

(** ** Choice *)
Lemma nanargmin_from_spec : forall l best i k, nanargmin_from best i l = Some k ->
  (forall b j, best = Some (b, j) -> (j < i)%nat) ->
  (exists v, (best = Some (v, k) \/ ((i <= k)%nat /\ nth_error l (k - i) = Some (Some v))) /\
    (forall b j, best = Some (b, j) -> v <= b) /\ forall j a, nth_error l j = Some (Some a) -> v <= a).
Proof.
  induction l as [|[a|] l IH]; intros best i k E B; cbn [nanargmin_from] in E.
  - destruct best as [(b, j)|]; [|discriminate]. injection E as ->. exists b. split; [now left|]. split; [intros b' j' Q; injection Q as -> _; lra|].
    intros [|j] a Q; discriminate.
  - assert (NEW : nanargmin_from (Some (a, i)) (S i) l = Some k -> (forall b j, best = Some (b, j) -> a <= b) ->
      exists v, (best = Some (v, k) \/ ((i <= k)%nat /\ nth_error (Some a :: l) (k - i) = Some (Some v))) /\
      (forall b j, best = Some (b, j) -> v <= b) /\ forall j a0, nth_error (Some a :: l) j = Some (Some a0) -> v <= a0).
    { intros E' LE. destruct (IH (Some (a, i)) (S i) k E') as (v & [V|(K & V)] & V1 & V2).
      - intros b j Q. injection Q as _ <-. lia.
      - injection V as -> ->. exists v. split; [right; split; [lia|]; rewrite Nat.sub_diag; reflexivity|]. split; [exact LE|].
        intros [|j] a0 Q; [cbn [nth_error] in Q; injection Q as <-; lra|]. exact (V2 j a0 Q).
      - specialize (V1 a i eq_refl). exists v. split; [right; split; [lia|]; replace (k - i)%nat with (S (k - S i)) by lia; exact V|]. split.
        + intros b j Q. specialize (LE b j Q). lra.
        + intros [|j] a0 Q; [cbn [nth_error] in Q; injection Q as <-; lra|]. exact (V2 j a0 Q). }
    destruct best as [(b, j)|].
    + destruct (Rlt_dec a b) as [L|L].
      * apply NEW; [exact E|]. intros b' j' Q. injection Q as <- <-. lra.
      * destruct (IH (Some (b, j)) (S i) k E) as (v & V & V1 & V2); [intros b' j' Q; specialize (B b' j' Q); lia|]. specialize (V1 b j eq_refl) as VB.
        exists v. split; [destruct V as [V|(K & V)]; [now left|right; split; [lia|]; replace (k - i)%nat with (S (k - S i)) by lia; exact V]|]. split; [exact V1|].
        intros [|m] a0 Q; [cbn [nth_error] in Q; injection Q as <-; lra|]. exact (V2 m a0 Q).
    + apply NEW; [exact E|discriminate].
  - destruct (IH best (S i) k E) as (v & V & V1 & V2); [intros b' j' Q; specialize (B b' j' Q); lia|].
    exists v. split; [destruct V as [V|(K & V)]; [now left|right; split; [lia|]; replace (k - i)%nat with (S (k - S i)) by lia; exact V]|]. split; [exact V1|].
    intros [|m] a0 Q; [discriminate|]. exact (V2 m a0 Q).
Qed.
Lemma nanargmin_from_some : forall l best i, (best <> None \/ exists a, In (Some a) l) -> nanargmin_from best i l <> None.
Proof.
  induction l as [|[a|] l IH]; intros best i H; cbn [nanargmin_from].
  - destruct best as [(b, j)|]; [discriminate|]. destruct H as [H|(a & [])]. easy.
  - destruct best as [(b, j)|]; [destruct (Rlt_dec a b)|]; apply IH; left; discriminate.
  - apply IH. destruct H as [H|(a & [H|H])]; [now left|discriminate|right; now exists a].
Qed.
Lemma nanargmin_spec : forall l, (exists a, In (Some a) l) ->
  exists k v, nanargmin l = Some k /\ nth_error l k = Some (Some v) /\ forall a, In (Some a) l -> v <= a.
Proof.
  intros l H. destruct (nanargmin l) as [k|] eqn:E; [|exfalso; apply (nanargmin_from_some l None 0); [now right|exact E]].
  destruct (nanargmin_from_spec l None 0 k E) as (v & [V|(_ & V)] & _ & V2); [discriminate|discriminate|]. rewrite Nat.sub_0_r in V.
  exists k, v. split; [reflexivity|]. split; [exact V|]. intros a I. apply In_nth_error in I as (j & J). exact (V2 j a J).
Qed.
Lemma first_true_spec : forall l i, existsb (fun b => b) l = true -> exists k, first_true i l = (i + k)%nat /\ nth_error l k = Some true.
Proof.
  induction l as [|[] l IH]; intros i E; cbn in *; try discriminate.
  - exists O. split; [lia|reflexivity].
  - destruct (IH (S i) E) as (k & K & N). exists (S k). split; [lia|exact N].
Qed.
Lemma first_true_none : forall l i, existsb (fun b => b) l = false -> first_true i l = O.
Proof. induction l as [|[] l IH]; intros i E; cbn in *; try discriminate; auto. Qed.

(** ** Signed permutations *)
Inductive perm3 := Pxyz | Pxzy | Pyxz | Pyzx | Pzxy | Pzyx.
Definition sp : Set := perm3 * (bool * bool * bool).
Definition permv (p : perm3) (u : vec3) : vec3 :=
  match p with
  | Pxyz => V3 (vx u) (vy u) (vz u) | Pxzy => V3 (vx u) (vz u) (vy u) | Pyxz => V3 (vy u) (vx u) (vz u)
  | Pyzx => V3 (vy u) (vz u) (vx u) | Pzxy => V3 (vz u) (vx u) (vy u) | Pzyx => V3 (vz u) (vy u) (vx u)
  end.
Definition sgn (b : bool) (x : R) : R := if b then - x else x.
Definition spapply (m : sp) (u : vec3) : vec3 :=
  let '(p, (e1, e2, e3)) := m in let w := permv p u in V3 (sgn e1 (vx w)) (sgn e2 (vy w)) (sgn e3 (vz w)).
Definition cubic_sps : list sp :=
  [ (Pxyz, (false, false, false));
    (Pxzy, (false, true, false));
    (Pxyz, (false, true, true));
    (Pxzy, (false, false, true));
    (Pzyx, (false, false, true));
    (Pxyz, (true, false, true));
    (Pzyx, (true, false, false));
    (Pyxz, (true, false, false));
    (Pxyz, (true, true, false));
    (Pyxz, (false, true, false));
    (Pyxz, (false, false, true));
    (Pyxz, (true, true, true));
    (Pzyx, (false, true, false));
    (Pzyx, (true, true, true));
    (Pxzy, (true, false, false));
    (Pxzy, (true, true, true));
    (Pzxy, (false, false, false));
    (Pyzx, (false, false, false));
    (Pyzx, (true, false, true));
    (Pzxy, (true, true, false));
    (Pyzx, (true, true, false));
    (Pzxy, (false, true, true));
    (Pyzx, (false, true, true));
    (Pzxy, (true, false, true)) ].
Lemma cubic_sp_ok : Forall2 (fun s m => forall u, mapply (rot_matrix s) u = spapply m u) cubic_symmetries cubic_sps.
Proof.
  unfold cubic_symmetries. rewrite map_Quat_north.
  2:{ intros q H. pose proof sqrt_pos2. cbn [In] in H. repeat destruct H as [H|H]; try (subst q; cbn [qw]; lra). contradiction. }
  assert (Q : over_root2 * over_root2 = / 2). { unfold over_root2. pose proof (sqrt_sqrt 2 ltac:(lra)). nra. }
  set (r := over_root2) in *. clearbody r. unfold cubic_sps.
  repeat (apply Forall2_cons; [intros [x y z]; assert (QX : r * r * x = / 2 * x) by (rewrite Q; ring); assert (QY : r * r * y = / 2 * y) by (rewrite Q; ring); assert (QZ : r * r * z = / 2 * z) by (rewrite Q; ring); unfold mapply, rot_matrix, spapply, permv, sgn, sprod; cbn [qw qx qy qz vx vy vz r0 r1 r2];
    f_equal; lra|]). apply Forall2_nil.
Qed.
Definition sp_eqb (a b : sp) : bool :=
  let '(p, (a1, a2, a3)) := a in let '(q, (b1, b2, b3)) := b in
  match p, q with Pxyz, Pxyz | Pxzy, Pxzy | Pyxz, Pyxz | Pyzx, Pyzx | Pzxy, Pzxy | Pzyx, Pzyx => true | _, _ => false end
  && Bool.eqb a1 b1 && Bool.eqb a2 b2 && Bool.eqb a3 b3.
Lemma sp_eqb_eq : forall a b, sp_eqb a b = true <-> a = b.
Proof.
  intros (p & (a1, a2) & a3) (q & (b1, b2) & b3). unfold sp_eqb. rewrite !andb_true_iff, !Bool.eqb_true_iff. split.
  - intros (((P & ->) & ->) & ->). destruct p, q; try discriminate; reflexivity.
  - intros E. injection E as -> -> -> ->. destruct q; auto.
Qed.
Definition sp_in (m : sp) : bool := existsb (sp_eqb m) cubic_sps.
Lemma sp_in_In : forall m, sp_in m = true -> In m cubic_sps.
Proof. intros m H. apply existsb_exists in H as (n & I & E). apply sp_eqb_eq in E. now subst. Qed.
Definition sp_neg (m : sp) : sp := let '(p, (e1, e2, e3)) := m in (p, (negb e1, negb e2, negb e3)).
Definition sp_flipz (m : sp) : sp := let '(p, (e1, e2, e3)) := m in (p, (e1, e2, negb e3)).
Definition sp_flipx (m : sp) : sp := let '(p, (e1, e2, e3)) := m in (p, (negb e1, e2, e3)).
Lemma sp_neg_in : forall m, In m cubic_sps \/ In (sp_neg m) cubic_sps.
Proof.
  intros m. assert (H : sp_in m || sp_in (sp_neg m) = true) by (destruct m as ([] & ([], []) & []); vm_compute; reflexivity).
  apply orb_true_iff in H as [H|H]; apply sp_in_In in H; auto.
Qed.
Lemma sp_flip_in : forall m, In m cubic_sps \/ In (sp_flipz m) cubic_sps.
Proof.
  intros m. assert (H : sp_in m || sp_in (sp_flipz m) = true) by (destruct m as ([] & ([], []) & []); vm_compute; reflexivity).
  apply orb_true_iff in H as [H|H]; apply sp_in_In in H; auto.
Qed.
Lemma cubic_sps_nodup : NoDup cubic_sps.
Proof.
  assert (H : forallb (fun i => forallb (fun j => Nat.eqb i j || negb (sp_eqb (nth i cubic_sps (Pxyz, (true, true, true))) (nth j cubic_sps (Pxyz, (true, true, true))))) (seq 0 24)) (seq 0 24) = true)
    by (vm_compute; reflexivity).
  apply (NoDup_nth cubic_sps (Pxyz, (true, true, true))). intros i j I J E. rewrite forallb_forall in H.
  specialize (H i ltac:(apply in_seq; change 24%nat with (List.length cubic_sps); lia)). rewrite forallb_forall in H.
  specialize (H j ltac:(apply in_seq; change 24%nat with (List.length cubic_sps); lia)). apply orb_true_iff in H as [H|H]; [now apply Nat.eqb_eq|].
  rewrite (proj2 (sp_eqb_eq _ _) E) in H. discriminate.
Qed.

(** ** Cubic crystals *)
Definition ang (w : vec3) : option (R * R) := Some (acos (vz w), arctan2 (vy w) (vx w)).
Definition lo_c : R := PI / 2.
Definition hi_c : R := 3 / 4 * PI.
Definition sector (w : vec3) : Prop := vx w <= 0 /\ - vx w <= vy w /\ 0 < vy w.
Lemma sector_spec : forall w, trial lo_c hi_c (ang w) = true <-> sector w.
Proof.
  intros [x y z]. unfold ang, sector, lo_c, hi_c. cbn [vx vy vz]. rewrite trial_spec. pose proof PI_RGT_0 as P.
  destruct (Req_EM_T (x * x + y * y) 0) as [E|N].
  - assert (x = 0) by nra. assert (y = 0) by nra. subst. rewrite azimuth_zero. split; intros; lra.
  - rewrite azimuth_between by (assumption || lra). rewrite cos_PI2, sin_PI2. replace (3 / 4 * PI) with (3 * (PI / 4)) by field.
    rewrite cos_3PI4, sin_3PI4. assert (S2 : 0 < 1 / sqrt 2) by (apply Rdiv_lt_0_compat; [lra|apply sqrt_lt_R0; lra]).
    replace (y * (-1 / sqrt 2) - x * (1 / sqrt 2)) with (- ((x + y) * (1 / sqrt 2))) by (unfold Rdiv; ring). split; intros (A & B & C).
    + split; [lra|]. split; [|exact A]. destruct (Rle_dec 0 (x + y)); [lra|nra].
    + split; [exact C|]. split; [lra|]. assert (0 <= x + y) by lra. nra.
Qed.

Definition absv (u : vec3) : vec3 := V3 (Rabs (vx u)) (Rabs (vy u)) (Rabs (vz u)).
Definition comps (u : vec3) : list R := [vx u; vy u; vz u].
Lemma permv_abs : forall p u, permv p (absv u) = absv (permv p u).
Proof. intros [] [x y z]; reflexivity. Qed.
Lemma permv_perm : forall p u, Permutation (comps (permv p u)) (comps u).
Proof.
  intros [] [x y z]; unfold comps, permv; cbn [vx vy vz].
  - apply Permutation_refl.
  - apply perm_skip, perm_swap.
  - apply perm_swap.
  - eapply perm_trans; [apply perm_skip, perm_swap|apply perm_swap].
  - eapply perm_trans; [apply perm_swap|apply perm_skip, perm_swap].
  - eapply perm_trans; [apply perm_swap|]. eapply perm_trans; [apply perm_skip, perm_swap|apply perm_swap].
Qed.
Lemma sgn_abs : forall e x, Rabs (sgn e x) = Rabs x.
Proof. intros [] x; cbn [sgn]; [apply Rabs_Ropp|reflexivity]. Qed.
Lemma spapply_abs : forall m u, Permutation (comps (absv (spapply m u))) (comps (absv u)).
Proof.
  intros (p & (e1, e2) & e3) u. unfold spapply. replace (absv (V3 _ _ _)) with (permv p (absv u)); [apply permv_perm|].
  rewrite permv_abs. unfold absv. cbn [vx vy vz]. now rewrite !sgn_abs.
Qed.
Lemma perm_of_sorted : forall u a b c, Permutation (comps u) [a; b; c] -> exists p, permv p u = V3 c b a.
Proof.
  intros [x y z] a b c P. unfold comps in P. cbn [vx vy vz] in P.
  assert (I : In a [x; y; z]) by (apply (Permutation_in a (Permutation_sym P)); now left).
  destruct I as [->|[->|[->|[]]]].
  - apply Permutation_cons_inv in P. apply Permutation_length_2 in P as [(-> & ->)|(-> & ->)]; [now exists Pzyx|now exists Pyzx].
  - assert (P2 : Permutation [a; x; z] [a; b; c]) by (eapply perm_trans; [apply perm_swap|exact P]).
    apply Permutation_cons_inv in P2. apply Permutation_length_2 in P2 as [(-> & ->)|(-> & ->)]; [now exists Pzxy|now exists Pxzy].
  - assert (P2 : Permutation [a; x; y] [a; b; c]).
    { eapply perm_trans; [|exact P]. eapply perm_trans; [apply perm_swap|apply perm_skip, perm_swap]. }
    apply Permutation_cons_inv in P2. apply Permutation_length_2 in P2 as [(-> & ->)|(-> & ->)]; [now exists Pyxz|now exists Pxyz].
Qed.
Lemma sort_exists : forall u, exists a b c, sorted_abs u a b c.
Proof.
  intros [x y z]. unfold sorted_abs. cbn [vx vy vz]. pose proof (Rabs_pos x). pose proof (Rabs_pos y). pose proof (Rabs_pos z).
  set (p := Rabs x) in *. set (q := Rabs y) in *. set (r := Rabs z) in *. clearbody p q r.
  assert (K : forall m, let w := permv m (V3 p q r) in vz w <= vy w -> vy w <= vx w -> exists a b c, 0 <= c <= b /\ b <= a /\ Permutation [p; q; r] [a; b; c]).
  { intros m w A B. exists (vx w), (vy w), (vz w). split; [|split; [exact B|]].
    - assert (0 <= vz w) by (unfold w; destruct m; cbn; assumption). lra.
    - apply Permutation_sym. exact (permv_perm m (V3 p q r)). }
  destruct (Rle_dec p q), (Rle_dec q r), (Rle_dec p r); first
    [ now apply (K Pxyz); cbn; lra | now apply (K Pxzy); cbn; lra | now apply (K Pyxz); cbn; lra
    | now apply (K Pyzx); cbn; lra | now apply (K Pzxy); cbn; lra | now apply (K Pzyx); cbn; lra ].
Qed.
Lemma sorted_unique : forall u v a b c a' b' c', Permutation (comps (absv u)) (comps (absv v)) -> sorted_abs u a b c -> sorted_abs v a' b' c' ->
  a = a' /\ b = b' /\ c = c'.
Proof.
  intros u v a b c a' b' c' P (H1 & H2 & PU) (H3 & H4 & PV).
  assert (Q : Permutation [a; b; c] [a'; b'; c']).
  { eapply perm_trans; [exact (Permutation_sym PU)|]. eapply perm_trans; [exact P|exact PV]. }
  destruct (perm_of_sorted (V3 a b c) a' b' c' Q) as (p & E). destruct p; cbn in E; injection E as E1 E2 E3; lra.
Qed.

(** The vector with chosen places for the lengths, first component negative. *)
Lemma signs : forall p u, exists s, spapply (p, s) u = V3 (- Rabs (vx (permv p u))) (Rabs (vy (permv p u))) (Rabs (vz (permv p u))).
Proof.
  intros p u. set (w := permv p u).
  assert (S : forall x, exists e, sgn e x = Rabs x) by (intros x; destruct (Rle_dec 0 x); [exists false; cbn [sgn]; rewrite Rabs_right; lra|exists true; cbn [sgn]; rewrite Rabs_left; lra]).
  destruct (S (vx w)) as (e1 & E1), (S (vy w)) as (e2 & E2), (S (vz w)) as (e3 & E3).
  exists (negb e1, e2, e3). cbn [spapply]. fold w. rewrite E2, E3. f_equal. rewrite <- E1. destruct e1; cbn [negb sgn]; ring.
Qed.
Lemma neg_apply : forall m u, spapply (sp_neg m) u = vscale (-1) (spapply m u).
Proof.
  intros (p & (e1, e2) & e3) u. unfold sp_neg, spapply, vscale. cbn [vx vy vz]. f_equal; [destruct e1|destruct e2|destruct e3]; cbn [negb sgn]; ring.
Qed.
Lemma flipz_apply : forall m u, vz (spapply m u) = 0 -> spapply (sp_flipz m) u = spapply m u.
Proof.
  intros (p & (e1, e2) & e3) u. unfold sp_flipz, spapply. cbn [vx vy vz]. intros Z. f_equal. destruct e3; cbn [negb sgn] in *; lra.
Qed.
Lemma flipx_apply : forall m u, vx (spapply m u) = 0 -> spapply (sp_flipx m) u = spapply m u.
Proof.
  intros (p & (e1, e2) & e3) u. unfold sp_flipx, spapply. cbn [vx vy vz]. intros Z. f_equal. destruct e1; cbn [negb sgn] in *; lra.
Qed.
Lemma north_up : forall v, 0 <= vz v -> north v = v.
Proof. intros v L. unfold north. destruct (Rlt_dec (vz v) 0); [lra|reflexivity]. Qed.
Lemma vscale_neg2 : forall v, vscale (-1) (vscale (-1) v) = v.
Proof. intros [x y z]. unfold vscale. cbn [vx vy vz]. f_equal; ring. Qed.
Lemma north_sp : forall m u, exists m', north (spapply m u) = spapply m' u /\ (m' = m \/ m' = sp_neg m).
Proof.
  intros m u. unfold north. destruct (Rlt_dec (vz (spapply m u)) 0).
  - exists (sp_neg m). split; [now rewrite neg_apply|now right].
  - exists m. split; [reflexivity|now left].
Qed.
Lemma reach : forall m u, 0 <= vz (spapply m u) -> exists m', In m' cubic_sps /\ fst m' = fst m /\ north (spapply m' u) = spapply m u /\
  (vz (spapply m u) = 0 -> fst (fst (snd m')) = fst (fst (snd m))).
Proof.
  intros m u L. destruct (Req_EM_T (vz (spapply m u)) 0) as [Z|N].
  - destruct (sp_flip_in m) as [I|I].
    + exists m. repeat split; auto. apply north_up. lra.
    + exists (sp_flipz m). split; [exact I|]. split; [now destruct m as (p & (e1, e2) & e3)|]. rewrite (flipz_apply m u Z). split; [apply north_up; lra|].
      intros _. now destruct m as (p & (e1, e2) & e3).
  - destruct (sp_neg_in m) as [I|I].
    + exists m. repeat split; auto. now apply north_up.
    + exists (sp_neg m). split; [exact I|]. split; [now destruct m as (p & (e1, e2) & e3)|]. split; [|easy].
      rewrite neg_apply. unfold north. destruct (Rlt_dec (vz (vscale (-1) (spapply m u))) 0) as [_|K]; [apply vscale_neg2|].
      unfold vscale in K. cbn [vz] in K. lra.
Qed.

Definition p2of (p : perm3) : perm3 := match p with Pxyz => Pxzy | Pxzy => Pxyz | Pyxz => Pyzx | Pyzx => Pyxz | Pzxy => Pzyx | Pzyx => Pzxy end.
Definition p3of (p : perm3) : perm3 := match p with Pxyz => Pyzx | Pxzy => Pzyx | Pyxz => Pxzy | Pyzx => Pzxy | Pzxy => Pxyz | Pzyx => Pyxz end.
Lemma p2of_ok : forall p u, permv (p2of p) u = V3 (vx (permv p u)) (vz (permv p u)) (vy (permv p u)).
Proof. intros [] [x y z]; reflexivity. Qed.
Lemma p3of_ok : forall p u, permv (p3of p) u = V3 (vy (permv p u)) (vz (permv p u)) (vx (permv p u)).
Proof. intros [] [x y z]; reflexivity. Qed.

(** The three images in the sector. *)
Lemma three : forall u a b c, sorted_abs u a b c -> exists p s1 s2 s3,
  spapply (p, s1) u = V3 (- c) b a /\ spapply (p2of p, s2) u = V3 (- c) a b /\ spapply (p3of p, s3) u = V3 (- b) a c.
Proof.
  intros u a b c (H1 & H2 & P). change (Permutation (comps (absv u)) [a; b; c]) in P. destruct (perm_of_sorted _ _ _ _ P) as (p & E). rewrite permv_abs in E.
  assert (X : Rabs (vx (permv p u)) = c /\ Rabs (vy (permv p u)) = b /\ Rabs (vz (permv p u)) = a) by (unfold absv in E; injection E as -> -> ->; auto).
  destruct X as (X & Y & Z).
  destruct (signs p u) as (s1 & S1), (signs (p2of p) u) as (s2 & S2), (signs (p3of p) u) as (s3 & S3).
  exists p, s1, s2, s3. rewrite S1, S2, S3, p2of_ok, p3of_ok. cbn [vx vy vz]. rewrite X, Y, Z. auto.
Qed.

Definition col_c (u : vec3) : list (option (R * R)) := map (fun m => ang (north (spapply m u))) cubic_sps.
Lemma count_ge : forall u ms, NoDup ms -> (forall m, In m ms -> In m cubic_sps /\ sector (north (spapply m u))) ->
  (List.length ms <= count (trial lo_c hi_c) (col_c u))%nat.
Proof.
  intros u ms ND H. unfold count, col_c.
  assert (E : List.length (filter (trial lo_c hi_c) (map (fun m => ang (north (spapply m u))) cubic_sps)) =
    List.length (filter (fun m => trial lo_c hi_c (ang (north (spapply m u)))) cubic_sps)).
  { generalize cubic_sps as l. induction l as [|m l IH]; [reflexivity|]. cbn [map filter]. destruct (trial lo_c hi_c _); cbn [List.length]; now rewrite IH. }
  rewrite E. apply NoDup_incl_length; [exact ND|]. intros m I. destruct (H m I) as (I1 & S). apply filter_In. split; [exact I1|]. now apply sector_spec.
Qed.
Lemma col_count : forall u, sprod u u = 1 -> (3 <= count (trial lo_c hi_c) (col_c u))%nat.
Proof.
  intros u U. destruct (sort_exists u) as (a & b & c & SO). destruct (three u a b c SO) as (p & s1 & s2 & s3 & E1 & E2 & E3).
  pose proof SO as ((C0 & CB) & BA & PM). assert (A0 : 0 < a).
  { destruct (Rlt_dec 0 a); [assumption|]. assert (a = 0) by lra. assert (b = 0) by lra. assert (c = 0) by lra. subst.
    assert (Z : forall x, In x [Rabs (vx u); Rabs (vy u); Rabs (vz u)] -> x = 0) by (intros x I; apply (Permutation_in x PM) in I; cbn in I; intuition).
    assert (ZZ : forall x, Rabs x = 0 -> x = 0) by (intros x X; destruct (Req_EM_T x 0); [assumption|now elim (Rabs_no_R0 x)]).
    assert (HX : vx u = 0) by (apply ZZ, Z; cbn; auto). assert (HY : vy u = 0) by (apply ZZ, Z; cbn; auto). assert (HZ : vz u = 0) by (apply ZZ, Z; cbn; auto).
    unfold sprod in U. rewrite HX, HY, HZ in U. lra. }
  destruct (reach (p2of p, s2) u) as (m2 & I2 & F2 & N2 & _); [rewrite E2; cbn [vz]; lra|].
  destruct (reach (p3of p, s3) u) as (m3 & I3 & F3 & N3 & G3); [rewrite E3; cbn [vz]; lra|]. rewrite E2 in N2. rewrite E3 in N3, G3. cbn [fst] in F2, F3.
  destruct (Req_EM_T b 0) as [->|B0].
  - (* along an axis: change the sign of x *)
    assert (c = 0) by lra. subst c.
    assert (E4 : spapply (sp_flipx (p3of p, s3)) u = V3 (- 0) a 0) by (rewrite flipx_apply; [exact E3|rewrite E3; cbn; lra]).
    destruct (reach (sp_flipx (p3of p, s3)) u) as (m4 & I4 & F4 & N4 & G4); [rewrite E4; cbn [vz]; lra|]. rewrite E4 in N4, G4. cbn [vz] in G3, G4.
    specialize (G3 eq_refl). specialize (G4 eq_refl).
    assert (F4' : fst m4 = p3of p) by (destruct s3 as ((e1, e2), e3); exact F4).
    change 3%nat with (List.length [m2; m3; m4]). apply count_ge.
    + apply NoDup_cons; [|apply NoDup_cons; [|apply NoDup_cons; [|apply NoDup_nil]]]; cbn [In]; intros X.
      * destruct X as [X|[X|[]]]; [rewrite X in F3|rewrite X in F4']; rewrite F2 in *; destruct p; discriminate.
      * destruct X as [X|[]]. subst m4. rewrite G3 in G4. destruct s3 as (([], e2), e3); discriminate.
      * exact X.
    + intros m [<-|[<-|[<-|[]]]]; (split; [assumption|]); [rewrite N2|rewrite N3|rewrite N4]; unfold sector; cbn [vx vy vz]; lra.
  - destruct (reach (p, s1) u) as (m1 & I1 & F1 & N1 & _); [rewrite E1; cbn [vz]; lra|]. rewrite E1 in N1. cbn [fst] in F1.
    change 3%nat with (List.length [m1; m2; m3]). apply count_ge.
    + apply NoDup_cons; [|apply NoDup_cons; [|apply NoDup_cons; [|apply NoDup_nil]]]; cbn [In]; intros X.
      * destruct X as [X|[X|[]]]; [rewrite X in F2|rewrite X in F3]; rewrite F1 in *; destruct p; discriminate.
      * destruct X as [X|[]]. rewrite X in F3. rewrite F2 in F3. destruct p; discriminate.
      * exact X.
    + intros m [<-|[<-|[<-|[]]]]; (split; [assumption|]); [rewrite N1|rewrite N2|rewrite N3]; unfold sector; cbn [vx vy vz]; lra.
Qed.

Lemma acos_le_inv : forall x y, -1 <= x <= 1 -> -1 <= y <= 1 -> acos x <= acos y -> y <= x.
Proof.
  intros x y X Y L. pose proof (acos_bound x). pose proof (acos_bound y). rewrite <- (cos_acos x X), <- (cos_acos y Y). apply cos_decr_1; lra.
Qed.
Lemma abs_entry : forall u a b c, sorted_abs u a b c -> forall x, In x (comps (absv u)) -> x = a \/ x = b \/ x = c.
Proof. intros u a b c (_ & _ & P) x I. apply (Permutation_in x P) in I. cbn in I. intuition. Qed.
Lemma north_abs : forall m u a b c, sorted_abs u a b c -> sorted_abs (north (spapply m u)) a b c /\ (sprod u u = 1 -> 0 <= vz (north (spapply m u)) <= 1).
Proof.
  intros m u a b c SO. destruct (north_sp m u) as (m' & E & _). split.
  - rewrite E. destruct SO as (H1 & H2 & P). split; [exact H1|]. split; [exact H2|]. eapply perm_trans; [exact (spapply_abs m' u)|exact P].
  - intros U. assert (U' : sprod (spapply m u) (spapply m u) = 1).
    { rewrite <- U. destruct m as (p & (e1, e2) & e3), u as [x y z]. unfold sprod, spapply. destruct p, e1, e2, e3; cbn [permv sgn vx vy vz]; ring. }
    destruct (north_unit _ U') as (N & L). split; [exact L|]. unfold sprod in N. nra.
Qed.
Lemma place_off : forall x y z a b c p, permv p (V3 x y z) = V3 c b a -> c <= b -> b <= a -> x <= y -> a <= z -> z = a /\ y = b /\ x = c.
Proof. intros x y z a b c [] E H1 H2 H3 H4; cbn in E; injection E as W1 W2 W3; repeat split; lra. Qed.
Lemma place_on : forall x y z a p, permv p (V3 x y z) = V3 0 0 a -> 0 <= a -> x <= y -> 0 < y -> z = 0 /\ y = a /\ x = 0.
Proof. intros x y z a [] E H1 H2 H3; cbn in E; injection E as W1 W2 W3; repeat split; lra. Qed.
Lemma col_in : forall u m, In m cubic_sps -> In (ang (north (spapply m u))) (col_c u).
Proof. intros u m I. unfold col_c. apply in_map_iff. exists m. now split. Qed.
Lemma col_of : forall u o, In o (col_c u) -> exists m, ang (north (spapply m u)) = o /\ In m cubic_sps.
Proof. intros u o I. unfold col_c in I. now apply in_map_iff in I. Qed.
Definition trial_alpha (o : option (R * R)) : option R := if trial lo_c hi_c o then option_map fst o else None.
Lemma pick_unfold : forall col, pick "cubic" lo_c hi_c col =
  match nanargmin (map trial_alpha col) with Some k => Ok (nth k col None) | None => Err ValueError end.
Proof. reflexivity. Qed.
Lemma trial_alpha_ang : forall w, sector w -> trial_alpha (ang w) = Some (acos (vz w)).
Proof. intros w H. unfold trial_alpha. now rewrite (proj2 (sector_spec w) H). Qed.
Lemma trial_alpha_some : forall w v, trial_alpha (ang w) = Some v -> sector w /\ acos (vz w) = v.
Proof.
  intros w v H. unfold trial_alpha in H. destruct (trial lo_c hi_c (ang w)) eqn:T; [|discriminate]. apply sector_spec in T. split; [exact T|]. cbn in H. congruence.
Qed.
(** The image chosen. *)
Lemma count_some : forall (A : Type) (f : A -> bool) col, (3 <= count f col)%nat -> exists o, In o col /\ f o = true.
Proof.
  intros A f col C. unfold count in C. destruct (filter f col) as [|o l] eqn:F; [inversion C|].
  exists o. apply filter_In. rewrite F. now left.
Qed.
Lemma some_trial : forall u, sprod u u = 1 -> exists a, In (Some a) (map trial_alpha (col_c u)).
Proof.
  intros u U. destruct (count_some _ _ _ (col_count u U)) as (o & I & T). destruct (col_of u o I) as (m & EO & IM).
  rewrite <- EO in T. apply sector_spec in T. exists (acos (vz (north (spapply m u)))). rewrite <- (trial_alpha_ang _ T). apply in_map. rewrite EO. exact I.
Qed.
Lemma pick_least : forall u col, col = col_c u -> (exists a, In (Some a) (map trial_alpha col)) -> exists m, pick "cubic" lo_c hi_c col = Ok (ang (north (spapply m u))) /\
  In m cubic_sps /\ sector (north (spapply m u)) /\
  forall m', In m' cubic_sps -> sector (north (spapply m' u)) -> acos (vz (north (spapply m u))) <= acos (vz (north (spapply m' u))).
Proof.
  intros u col EC ST. rewrite pick_unfold. destruct (nanargmin_spec _ ST) as (k & v & K & V & LE). rewrite K. rewrite nth_error_map in V.
  destruct (nth_error col k) as [o|] eqn:O; [|discriminate]. cbn [option_map] in V. injection V as V.
  rewrite (nth_error_nth col k None O). apply nth_error_In in O as IO. rewrite EC in IO. destruct (col_of u o IO) as (m & <- & I). apply trial_alpha_some in V as (T & V).
  exists m. split; [reflexivity|]. split; [exact I|]. split; [exact T|]. intros m' I' S'. rewrite V. apply LE. rewrite <- (trial_alpha_ang _ S'). apply in_map. rewrite EC. now apply col_in.
Qed.
Lemma place : forall w a b c, sorted_abs w a b c -> sector w -> 0 <= vz w -> (0 < b -> a <= vz w) -> ang w = ang (if Req_EM_T b 0 then V3 0 a 0 else V3 (- c) b a).
Proof.
  intros w a b c SW (T1 & T2 & T3) BW Z. pose proof SW as ((C0 & CB) & BA & PW).
  assert (PW' : Permutation (comps (V3 (- vx w) (vy w) (vz w))) [a; b; c]).
  { rewrite (Rabs_left1 (vx w)) in PW by exact T1. rewrite (Rabs_right (vy w)), (Rabs_right (vz w)) in PW by lra. exact PW. }
  destruct (perm_of_sorted (V3 (- vx w) (vy w) (vz w)) a b c PW') as (pw & EW).
  destruct (Req_EM_T b 0) as [->|B0].
  - assert (c = 0) by lra. subst c. unfold ang. cbn [vx vy vz].
    destruct (place_on _ _ _ _ pw EW ltac:(lra) T2 T3) as (X1 & X2 & X3). assert (X4 : vx w = 0) by lra. now rewrite X1, X2, X4.
  - destruct (place_off _ _ _ _ _ _ pw EW CB BA T2 (Z ltac:(lra))) as (X1 & X2 & X3). assert (X4 : vx w = - c) by lra. unfold ang. cbn [vx vy vz]. now rewrite X1, X2, X4.
Qed.
Lemma pick_cubic : forall u a b c, sprod u u = 1 -> sorted_abs u a b c ->
  pick "cubic" lo_c hi_c (col_c u) = Ok (ang (if Req_EM_T b 0 then V3 0 a 0 else V3 (- c) b a)).
Proof.
  intros u a b c U SO. destruct (pick_least u _ eq_refl (some_trial u U)) as (m & E & I & T & MIN). rewrite E. f_equal.
  destruct (north_abs m u a b c SO) as (SW & BW). specialize (BW U). apply place; [exact SW|exact T|lra|]. intros B0.
  destruct (three u a b c SO) as (p & s1 & s2 & s3 & E1 & E2 & E3). pose proof SO as ((C0 & CB) & BA & PM).
  destruct (reach (p, s1) u) as (m1 & I1 & F1 & N1 & _); [rewrite E1; cbn [vz]; lra|]. rewrite E1 in N1.
  specialize (MIN m1 I1). destruct (north_abs m1 u a b c SO) as (_ & B1). specialize (B1 U). rewrite N1 in MIN, B1. cbn [vz] in MIN, B1.
  apply (acos_le_inv _ a); [lra|lra|]. apply MIN. unfold sector. cbn [vx vy vz]. lra.
Qed.

(** The column of one orientation. *)
Lemma vlen_sp : forall m u, vlen (spapply m u) = vlen u.
Proof.
  intros m u. unfold vlen. f_equal. destruct m as (p & (e1, e2) & e3), u as [x y z]. unfold sprod, spapply. destruct p, e1, e2, e3; cbn [permv sgn vx vy vz]; ring.
Qed.
Lemma hat_sp : forall m u, hat (spapply m u) = spapply m (hat u).
Proof.
  intros m u. unfold hat at 1. rewrite vlen_sp. destruct m as (p & (e1, e2) & e3), u as [x y z]. unfold hat. set (l := vlen (V3 x y z)). clearbody l.
  destruct p, e1, e2, e3; unfold spapply; cbn [permv sgn vx vy vz]; f_equal; unfold Rdiv; ring.
Qed.
Lemma sp_nonzero : forall m u, u <> vzero -> spapply m u <> vzero.
Proof.
  intros m u N E. pose proof (vlen_pos u N) as L. rewrite <- (vlen_sp m u), E in L. unfold vlen, sprod, vzero in L. cbn [vx vy vz] in L.
  rewrite Rmult_0_l, !Rplus_0_r, sqrt_0 in L. lra.
Qed.
Lemma column_cubic : forall q d, in_crystal q d <> vzero -> image_angles "cubic" d q = col_c (hat (in_crystal q d)).
Proof.
  intros q d N. rewrite image_list. set (u := in_crystal q d) in *. change (sym_eqv "cubic") with cubic_symmetries. unfold col_c.
  generalize cubic_sp_ok. generalize cubic_symmetries, cubic_sps. intros ss ms F. induction F as [|s m ss ms E F IH]; [reflexivity|].
  cbn [map]. rewrite IH. f_equal. rewrite E, northern_ok by (now apply sp_nonzero). rewrite hat_sp. reflexivity.
Qed.
Lemma in_crystal_nonzero : forall q d, unitq q -> d <> vzero -> in_crystal q d <> vzero.
Proof. intros q d Q D. exact (mapply_rot_nonzero q d Q D). Qed.
Lemma cubic_result : forall quats d tri def, Forall unitq quats -> d <> vzero ->
  calc_fund_dirs quats d "cubic" tri def =
    fold_right (fun col acc => do o <- pick "cubic" lo_c hi_c col; do l <- acc; Ok (o :: l)) (Ok []) (map (fun q => col_c (hat (in_crystal q d))) quats).
Proof.
  intros quats d tri def FU D. unfold calc_fund_dirs.
  replace (map (image_angles "cubic" d) quats) with (map (fun q => col_c (hat (in_crystal q d))) quats).
  2:{ apply map_ext_in. intros q I. symmetry. apply column_cubic. apply in_crystal_nonzero; [|exact D]. rewrite Forall_forall in FU. now apply FU. }
  cbv zeta. unfold beta_range. change (String.eqb "cubic" "cubic") with true. cbn [bind]. cbv beta iota. fold lo_c. fold hi_c. unfold limits.
  replace (existsb _ _) with false; [reflexivity|]. symmetry. apply not_true_is_false. intros X. apply existsb_exists in X as (col & I & L).
  apply in_map_iff in I as (q & <- & I). apply Nat.ltb_lt in L. pose proof (col_count (hat (in_crystal q d))) as C.
  specialize (C ltac:(apply hat_unit, in_crystal_nonzero; [rewrite Forall_forall in FU; now apply FU|exact D])). lia.
Qed.

(** ** Cubic crystals *)
Definition fund_c (a b c : R) : vec3 := if Req_EM_T b 0 then V3 0 a 0 else V3 (- c) b a.
Lemma sorted_hat : forall u a b c, u <> vzero -> sorted_abs u a b c -> sorted_abs (hat u) (a / vlen u) (b / vlen u) (c / vlen u).
Proof.
  intros u a b c N (H1 & H2 & P). pose proof (vlen_pos u N) as L. assert (I : 0 < / vlen u) by now apply Rinv_0_lt_compat. unfold sorted_abs, Rdiv.
  split; [split; nra|]. split; [nra|]. unfold hat. cbn [vx vy vz]. unfold Rdiv. rewrite !Rabs_mult, (Rabs_right (/ vlen u)) by lra.
  change [Rabs (vx u) * / vlen u; Rabs (vy u) * / vlen u; Rabs (vz u) * / vlen u] with (map (fun x => x * / vlen u) [Rabs (vx u); Rabs (vy u); Rabs (vz u)]).
  change [a * / vlen u; b * / vlen u; c * / vlen u] with (map (fun x => x * / vlen u) [a; b; c]). now apply Permutation_map.
Qed.
Lemma fund_scale : forall a b c l, 0 < l -> same_dir (fund_c (a / l) (b / l) (c / l)) (fund_c a b c).
Proof.
  intros a b c l L. exists l. split; [exact L|]. unfold fund_c. destruct (Req_EM_T b 0) as [->|N].
  - destruct (Req_EM_T (0 / l) 0) as [_|E]; [|elim E; field; lra]. cbn [vx vy vz]. f_equal; field; lra.
  - destruct (Req_EM_T (b / l) 0) as [E|_]; [elim N; apply (f_equal (fun x => x * l)) in E; field_simplify in E; lra|]. cbn [vx vy vz]. f_equal; field; lra.
Qed.
Lemma sorted_norm : forall u a b c, sorted_abs u a b c -> a * a + b * b + c * c = sprod u u.
Proof.
  intros u a b c (_ & _ & P). assert (K : forall l m, Permutation l m -> fold_right (fun x s => x * x + s) 0 l = fold_right (fun x s => x * x + s) 0 m).
  { induction 1; cbn [fold_right]; lra. }
  specialize (K _ _ P). cbn [fold_right] in K. assert (Q : forall x, Rabs x * Rabs x = x * x). { intros x. unfold Rabs. destruct (Rcase_abs x); ring. }
  rewrite !Q in K. unfold sprod. lra.
Qed.
Lemma fund_norm : forall a b c, 0 <= c <= b -> sprod (fund_c a b c) (fund_c a b c) = a * a + b * b + c * c.
Proof.
  intros a b c H. unfold fund_c, sprod. destruct (Req_EM_T b 0) as [->|N]; cbn [vx vy vz]; [assert (c = 0) by lra; subst; ring|ring].
Qed.
Lemma fold_pick : forall g lo hi cols os, Forall2 (fun col o => pick g lo hi col = Ok o) cols os ->
  fold_right (fun col acc => do o <- pick g lo hi col; do l <- acc; Ok (o :: l)) (Ok []) cols = Ok os.
Proof. intros g lo hi cols os F. induction F as [|col o cols os E F IH]; [reflexivity|]. cbn [fold_right]. rewrite E, IH. reflexivity. Qed.
Lemma sorted_of : forall u, { t : R * R * R | sorted_abs u (fst (fst t)) (snd (fst t)) (snd t) }.
Proof.
  intros [x y z]. unfold sorted_abs. cbn [vx vy vz]. pose proof (Rabs_pos x). pose proof (Rabs_pos y). pose proof (Rabs_pos z).
  set (p := Rabs x) in *. set (q := Rabs y) in *. set (r := Rabs z) in *. clearbody p q r.
  destruct (Rle_dec p q), (Rle_dec q r), (Rle_dec p r).
  all: try (exists (r, q, p); cbn [fst snd]; split; [lra|split; [lra|apply (permv_perm Pzyx (V3 p q r))]]; fail).
  all: try (exists (q, r, p); cbn [fst snd]; split; [lra|split; [lra|]]; apply Permutation_sym; apply (permv_perm Pyzx (V3 p q r)); fail).
  all: try (exists (q, p, r); cbn [fst snd]; split; [lra|split; [lra|]]; apply Permutation_sym; apply (permv_perm Pyxz (V3 p q r)); fail).
  all: try (exists (r, p, q); cbn [fst snd]; split; [lra|split; [lra|]]; apply Permutation_sym; apply (permv_perm Pzxy (V3 p q r)); fail).
  all: try (exists (p, r, q); cbn [fst snd]; split; [lra|split; [lra|]]; apply Permutation_sym; apply (permv_perm Pxzy (V3 p q r)); fail).
  all: try (exists (p, q, r); cbn [fst snd]; split; [lra|split; [lra|]]; apply Permutation_sym; apply (permv_perm Pxyz (V3 p q r)); fail).
  all: try (exists (r, q, p); cbn [fst snd]; split; [lra|split; [lra|]]; apply Permutation_sym; apply (permv_perm Pzyx (V3 p q r)); fail).
Qed.
(** The polar angles reported for a cubic crystal. *)
Definition cubic_angles (u : vec3) : option (R * R) :=
  let '(exist _ (a, b, c) _) := sorted_of (hat u) in ang (fund_c a b c).
Lemma cubic_angles_eq : forall u a b c, sorted_abs (hat u) a b c -> cubic_angles u = ang (fund_c a b c).
Proof.
  intros u a b c SO. unfold cubic_angles. destruct (sorted_of (hat u)) as (((a', b'), c') & SO'). cbn [fst snd] in SO'.
  destruct (sorted_unique _ _ _ _ _ _ _ _ (Permutation_refl _) SO SO') as (-> & -> & ->). reflexivity.
Qed.
Lemma cubic_all : forall quats d tri def, Forall unitq quats -> d <> vzero ->
  calc_fund_dirs quats d "cubic" tri def = Ok (map (fun q => cubic_angles (in_crystal q d)) quats).
Proof.
  intros quats d tri def FU D. rewrite cubic_result by assumption. apply fold_pick.
  induction FU as [|q quats Q FU IH]; cbn [map]; constructor; [|exact IH].
  pose proof (in_crystal_nonzero q d Q D) as N. destruct (sorted_of (hat (in_crystal q d))) as (((a, b), c) & SO). cbn [fst snd] in SO.
  rewrite (cubic_angles_eq _ _ _ _ SO). apply pick_cubic; [now apply hat_unit|exact SO].
Qed.
Lemma cubic_angles_ok : forall u a b c, u <> vzero -> sorted_abs u a b c -> angles_of (cubic_angles u) (fund_c a b c).
Proof.
  intros u a b c N SO. pose proof (sorted_hat u a b c N SO) as SH. rewrite (cubic_angles_eq u _ _ _ SH).
  eapply angles_of_dir; [|apply (fund_scale a b c (vlen u) (vlen_pos u N))]. apply angles_spherical.
  rewrite fund_norm by (apply SH). rewrite (sorted_norm _ _ _ _ SH). now apply hat_unit.
Qed.
(** Symmetric images of a direction. *)
Lemma in_sps_image : forall m u, In m cubic_sps -> exists s, In s (sym_eqv "cubic") /\ mapply (rot_matrix s) u = spapply m u.
Proof.
  intros m u I. change (sym_eqv "cubic") with cubic_symmetries. revert I. generalize cubic_sp_ok. generalize cubic_symmetries, cubic_sps. intros ss ms F.
  induction F as [|s m' ss ms E F IH]; intros I; [destruct I|]. destruct I as [->|I]; [exists s; split; [now left|apply E]|].
  destruct (IH I) as (s' & I' & E'). exists s'. split; [now right|exact E'].
Qed.
Lemma image_in_sps : forall s, In s (sym_eqv "cubic") -> exists m, In m cubic_sps /\ forall u, mapply (rot_matrix s) u = spapply m u.
Proof.
  intros s. change (sym_eqv "cubic") with cubic_symmetries. generalize cubic_sp_ok. generalize cubic_symmetries, cubic_sps. intros ss ms F.
  induction F as [|s' m' ss ms E F IH]; intros I; [destruct I|]. destruct I as [->|I]; [exists m'; split; [now left|apply E]|].
  destruct (IH I) as (m & I' & E'). exists m. split; [now right|exact E'].
Qed.
Lemma north_cases : forall v w, north v = w -> w = v \/ w = vscale (-1) v.
Proof. intros v w <-. unfold north. destruct (Rlt_dec (vz v) 0); auto. Qed.
Lemma sp_image : forall m u, 0 <= vz (spapply m u) -> sym_image "cubic" u (spapply m u).
Proof.
  intros m u L. destruct (reach m u L) as (m' & I & _ & N & _). destruct (in_sps_image m' u I) as (s & IS & E).
  exists s. split; [exact IS|]. rewrite E. now apply north_cases.
Qed.
Lemma fund_image : forall u a b c, sorted_abs u a b c -> sym_image "cubic" u (fund_c a b c).
Proof.
  intros u a b c SO. destruct (three u a b c SO) as (p & s1 & s2 & s3 & E1 & E2 & E3). pose proof SO as ((H1 & H2) & H3 & _). unfold fund_c.
  destruct (Req_EM_T b 0) as [->|N].
  - assert (c = 0) by lra. subst c. pose proof (sp_image (p3of p, s3) u) as K. rewrite E3 in K. cbn [vz] in K. rewrite Ropp_0 in K. apply K. lra.
  - rewrite <- E1. apply sp_image. rewrite E1. cbn [vz]. lra.
Qed.
Lemma image_abs : forall u v, sym_image "cubic" u v -> Permutation (comps (absv v)) (comps (absv u)).
Proof.
  intros u v (s & I & E). destruct (image_in_sps s I) as (m & _ & EM). rewrite EM in E. destruct E as [->| ->]; [apply spapply_abs|].
  replace (absv (vscale (-1) (spapply m u))) with (absv (spapply m u)); [apply spapply_abs|].
  unfold absv, vscale. cbn [vx vy vz]. rewrite !Rabs_mult. replace (Rabs (-1)) with 1 by (rewrite Rabs_left; lra). now rewrite !Rmult_1_l.
Qed.
(** The only image in the triangle. *)
Lemma image_inside : forall u v a b c, sorted_abs u a b c -> sym_image "cubic" u v -> inside_triangle_cubic v -> v = V3 (- c) b a.
Proof.
  intros u v a b c SO IM (T1 & T2 & T3). pose proof (image_abs u v IM) as P.
  assert (SV : sorted_abs v (vz v) (vy v) (- vx v)).
  { split; [lra|]. split; [lra|]. rewrite (Rabs_left1 (vx v)), (Rabs_right (vy v)), (Rabs_right (vz v)) by lra.
    apply Permutation_sym. exact (permv_perm Pzyx (V3 (- vx v) (vy v) (vz v))). }
  destruct (sorted_unique _ _ _ _ _ _ _ _ P SV SO) as (<- & <- & <-). destruct v as [x y z]. cbn [vx vy vz]. f_equal. ring.
Qed.
Lemma sym_image_nonzero_sq : forall u v, sym_image "cubic" u v -> sprod v v = sprod u u.
Proof.
  intros u v IM. destruct (sorted_of u) as (((a, b), c) & SO). cbn [fst snd] in SO. rewrite <- (sorted_norm u a b c SO). symmetry. apply sorted_norm.
  destruct SO as (H1 & H2 & P). split; [exact H1|]. split; [exact H2|]. eapply perm_trans; [exact (image_abs u v IM)|exact P].
Qed.
(** Equivalent orientations. *)
Lemma equivalent_dir : forall g q p d, equivalent (sym_eqv g) q p -> exists s, In s (sym_eqv g) /\ in_crystal p d = mapply (rot_matrix s) (in_crystal q d).
Proof.
  intros g q p d (s & I & E). exists s. split; [exact I|]. unfold in_crystal. rewrite <- mapply_mprod, <- rot_hprod. f_equal. now apply rot_same.
Qed.
Lemma cubic_equiv : forall q p d, equivalent (sym_eqv "cubic") q p -> cubic_angles (in_crystal q d) = cubic_angles (in_crystal p d).
Proof.
  intros q p d E. destruct (equivalent_dir _ _ _ d E) as (s & I & ->). destruct (image_in_sps s I) as (m & _ & ->).
  destruct (sorted_of (hat (in_crystal q d))) as (((a, b), c) & SO). cbn [fst snd] in SO. rewrite (cubic_angles_eq _ _ _ _ SO).
  symmetry. apply cubic_angles_eq. rewrite hat_sp. destruct SO as (H1 & H2 & P). split; [exact H1|]. split; [exact H2|].
  eapply perm_trans; [exact (spapply_abs m _)|exact P].
Qed.

(** ** Hexagonal crystals *)
Inductive six := K0 | K1 | K2 | K3 | K4 | K5.
Definition c6 (k : six) : R := match k with K0 => 1 | K1 => / 2 | K2 => - / 2 | K3 => - (1) | K4 => - / 2 | K5 => / 2 end.
Definition s6 (k : six) : R := match k with K0 => 0 | K1 => sqrt 3 / 2 | K2 => sqrt 3 / 2 | K3 => 0 | K4 => - (sqrt 3 / 2) | K5 => - (sqrt 3 / 2) end.
Definition opp6 (k : six) : six := match k with K0 => K3 | K1 => K4 | K2 => K5 | K3 => K0 | K4 => K1 | K5 => K2 end.
Definition dih : Set := six * bool.
Definition dx (m : dih) (x y : R) : R := let '(k, f) := m in if f then c6 k * x + s6 k * y else c6 k * x - s6 k * y.
Definition dy (m : dih) (x y : R) : R := let '(k, f) := m in if f then s6 k * x - c6 k * y else s6 k * x + c6 k * y.
Definition happly (m : dih) (u : vec3) : vec3 := V3 (dx m (vx u) (vy u)) (dy m (vx u) (vy u)) (if snd m then - vz u else vz u).
Definition hex_dihs : list dih :=
  [(K0, false); (K0, true); (K3, true); (K3, false); (K1, false); (K2, false); (K4, false); (K5, false); (K2, true); (K4, true); (K5, true); (K1, true)].
Lemma hex_dih_all : forall m, In m hex_dihs.
Proof. intros ([], []); cbn; tauto. Qed.
Lemma hex_dih_ok : Forall2 (fun s m => forall u, mapply (rot_matrix s) u = happly m u) hexagonal_symmetries hex_dihs.
Proof.
  unfold hexagonal_symmetries. rewrite map_Quat_north.
  2:{ intros q H. pose proof sqrt_pos3. cbn [In] in H. repeat destruct H as [H|H]; try (subst q; cbn [qw]; lra). contradiction. }
  assert (Q : sqrt 3 * sqrt 3 = 3) by (apply sqrt_sqrt; lra). unfold sqrt3over2, hex_dihs.
  repeat (apply Forall2_cons; [intros [x y z]; unfold mapply, rot_matrix, happly, dx, dy, c6, s6, sprod; cbn [snd qw qx qy qz vx vy vz r0 r1 r2];
    set (r := sqrt 3) in *; clearbody r; assert (QX : r * r * x = 3 * x) by (rewrite Q; ring); assert (QY : r * r * y = 3 * y) by (rewrite Q; ring); assert (QZ : r * r * z = 3 * z) by (rewrite Q; ring);
    f_equal; lra|]). apply Forall2_nil.
Qed.
Lemma in_dihs_image : forall m u, exists s, In s (sym_eqv "hexagonal") /\ mapply (rot_matrix s) u = happly m u.
Proof.
  intros m u. pose proof (hex_dih_all m) as I. change (sym_eqv "hexagonal") with hexagonal_symmetries. revert I. generalize hex_dih_ok. generalize hexagonal_symmetries, hex_dihs. intros ss ms F.
  induction F as [|s m' ss ms E F IH]; intros I; [destruct I|]. destruct I as [->|I]; [exists s; split; [now left|apply E]|].
  destruct (IH I) as (s' & I' & E'). exists s'. split; [now right|exact E'].
Qed.
Lemma image_in_dihs : forall s, In s (sym_eqv "hexagonal") -> exists m, forall u, mapply (rot_matrix s) u = happly m u.
Proof.
  intros s. change (sym_eqv "hexagonal") with hexagonal_symmetries. generalize hex_dih_ok. generalize hexagonal_symmetries, hex_dihs. intros ss ms F.
  induction F as [|s' m' ss ms E F IH]; intros I; [destruct I|]. destruct I as [->|I]; [exists m'; apply E|]. now apply IH.
Qed.
Lemma opp6_cs : forall k, c6 (opp6 k) = - c6 k /\ s6 (opp6 k) = - s6 k.
Proof. intros []; cbn [opp6 c6 s6]; split; lra. Qed.
Definition hplane (m : dih) (u : vec3) : vec3 := V3 (dx m (vx u) (vy u)) (dy m (vx u) (vy u)) (Rabs (vz u)).
(** Moved to the north, the images are the images in the plane under the dihedral group. *)
Definition nm (m : dih) (u : vec3) : dih :=
  if Rlt_dec (if snd m then - vz u else vz u) 0 then (opp6 (fst m), snd m) else m.
Lemma north_dih : forall m u, north (happly m u) = hplane (nm m u) u.
Proof.
  intros (k, f) [x y z]. unfold north, nm, happly, hplane, vscale. cbn [fst snd vx vy vz]. destruct (Rlt_dec (if f then - z else z) 0) as [L|L].
  - destruct (opp6_cs k) as (C & E). unfold dx, dy. rewrite C, E. destruct f; f_equal; try ring; unfold Rabs; destruct (Rcase_abs z); lra.
  - destruct f; f_equal; unfold Rabs; destruct (Rcase_abs z); lra.
Qed.
Lemma opp6_opp6 : forall k, opp6 (opp6 k) = k.
Proof. now intros []. Qed.
Lemma nm_nm : forall m u, nm (nm m u) u = m.
Proof.
  intros (k, f) u. unfold nm. cbn [fst snd]. destruct (Rlt_dec (if f then - vz u else vz u) 0) as [L|L]; cbn [fst snd].
  - destruct (Rlt_dec _ _) as [_|L']; [now rewrite opp6_opp6|lra].
  - destruct (Rlt_dec _ _) as [L'|_]; [lra|reflexivity].
Qed.
Lemma hlen : forall m u, vlen (happly m u) = vlen u.
Proof.
  intros (k, f) [x y z]. unfold vlen, sprod, happly, dx, dy. cbn [snd vx vy vz]. f_equal. pose proof (sqrt_sqrt 3 ltac:(lra)) as Q.
  assert (E : c6 k * c6 k + s6 k * s6 k = 1) by (destruct k; cbn [c6 s6]; nra).
  destruct f.
  - transitivity ((c6 k * c6 k + s6 k * s6 k) * (x * x + y * y) + z * z); [ring|rewrite E; ring].
  - transitivity ((c6 k * c6 k + s6 k * s6 k) * (x * x + y * y) + z * z); [ring|rewrite E; ring].
Qed.
Lemma hat_h : forall m u, hat (happly m u) = happly m (hat u).
Proof.
  intros m u. unfold hat at 1. rewrite hlen. destruct m as (k, f), u as [x y z]. unfold hat. set (l := vlen (V3 x y z)). clearbody l.
  unfold happly, dx, dy. cbn [snd vx vy vz]. destruct f; f_equal; unfold Rdiv; ring.
Qed.
Lemma h_nonzero : forall m u, u <> vzero -> happly m u <> vzero.
Proof.
  intros m u N E. pose proof (vlen_pos u N) as L. rewrite <- (hlen m u), E in L. unfold vlen, sprod, vzero in L. cbn [vx vy vz] in L.
  rewrite Rmult_0_l, !Rplus_0_r, sqrt_0 in L. lra.
Qed.
Definition col_h (u : vec3) : list (option (R * R)) := map (fun m => ang (hplane (nm m u) u)) hex_dihs.
Lemma column_hex : forall q d, in_crystal q d <> vzero -> image_angles "hexagonal" d q = col_h (hat (in_crystal q d)).
Proof.
  intros q d N. rewrite image_list. set (u := in_crystal q d) in *. change (sym_eqv "hexagonal") with hexagonal_symmetries. unfold col_h.
  generalize hex_dih_ok. generalize hexagonal_symmetries, hex_dihs. intros ss ms F. induction F as [|s m ss ms E F IH]; [reflexivity|].
  cbn [map]. rewrite IH. f_equal. rewrite E, northern_ok by (now apply h_nonzero). rewrite hat_h, north_dih. reflexivity.
Qed.
(** The sector in the plane. *)
Definition hsec (up : bool) (x y : R) : Prop := if up then x <= 0 /\ - x * sqrt 3 <= y else 0 <= x /\ x * sqrt 3 <= y.
Lemma hsec_exists : forall up x y, exists m, hsec up (dx m x y) (dy m x y).
Proof.
  intros up x y. pose proof (sqrt_sqrt 3 ltac:(lra)) as Q. assert (P : 0 < sqrt 3) by (apply sqrt_lt_R0; lra). unfold hsec. set (t := sqrt 3) in *.
  assert (QX : t * t * x = 3 * x) by (rewrite Q; ring). assert (QY : t * t * y = 3 * y) by (rewrite Q; ring).
  destruct (Rle_dec 0 x) as [X|X], (Rle_dec 0 y) as [Y|Y], (Rle_dec (Rabs x * t) (Rabs y)) as [T|T], (Rle_dec (Rabs y * t) (Rabs x)) as [U|U];
    try rewrite (Rabs_right x) in T by lra; try rewrite (Rabs_right y) in T by lra; try rewrite (Rabs_left x) in T by lra; try rewrite (Rabs_left y) in T by lra;
    try rewrite (Rabs_right x) in U by lra; try rewrite (Rabs_right y) in U by lra; try rewrite (Rabs_left x) in U by lra; try rewrite (Rabs_left y) in U by lra;
    destruct up;
    let try_it m := (exists m; unfold dx, dy, c6, s6; fold t; split; [clear Q; nra|clear Q; nra]; fail) in
    first [ try_it (K0, false) | try_it (K0, true) | try_it (K3, false) | try_it (K3, true) | try_it (K1, false) | try_it (K1, true)
          | try_it (K2, false) | try_it (K2, true) | try_it (K4, false) | try_it (K4, true) | try_it (K5, false) | try_it (K5, true) | idtac ].
Qed.
Lemma six_scale : forall t a b, 0 < t -> a <= b -> a * t <= b * t.
Proof. intros t a b T H. apply Rmult_le_compat_r; lra. Qed.
Lemma hsec_unique : forall up m x y, hsec up x y -> hsec up (dx m x y) (dy m x y) -> dx m x y = x /\ dy m x y = y.
Proof.
  intros up (k, f) x y. pose proof (sqrt_sqrt 3 ltac:(lra)) as Q. assert (P : 0 < sqrt 3) by (apply sqrt_lt_R0; lra). assert (P2 : 0 < 2 - sqrt 3) by nra. assert (P1 : 0 < sqrt 3 - 1) by nra.
  unfold hsec, dx, dy, c6, s6. set (t := sqrt 3) in *. clearbody t. assert (QX : t * t * x = 3 * x) by (rewrite Q; ring). assert (QY : t * t * y = 3 * y) by (rewrite Q; ring). assert (QX3 : t * t * t * x = 3 * t * x) by (rewrite Q; ring). assert (QY3 : t * t * t * y = 3 * t * y) by (rewrite Q; ring).
  destruct up; intros (A1 & A2) (B1 & B2);
    pose proof (six_scale t _ _ P A1) as A3; pose proof (six_scale t _ _ P A2) as A4; pose proof (six_scale _ _ _ P2 A1) as A5; pose proof (six_scale _ _ _ P2 A2) as A6;
    destruct k, f; pose proof (six_scale t _ _ P B1) as B3; pose proof (six_scale t _ _ P B2) as B4; pose proof (six_scale _ _ _ P2 B1) as B5; pose proof (six_scale _ _ _ P2 B2) as B6;
    split; lra.
Qed.

Definition next6 (k : six) : six := match k with K0 => K1 | K1 => K2 | K2 => K3 | K3 => K4 | K4 => K5 | K5 => K0 end.
Definition add6 (j k : six) : six :=
  match k with K0 => j | K1 => next6 j | K2 => next6 (next6 j) | K3 => next6 (next6 (next6 j)) | K4 => next6 (next6 (next6 (next6 j))) | K5 => next6 (next6 (next6 (next6 (next6 j)))) end.
Definition neg6 (k : six) : six := match k with K0 => K0 | K1 => K5 | K2 => K4 | K3 => K3 | K4 => K2 | K5 => K1 end.
Lemma add6_cs : forall j k, c6 (add6 j k) = c6 j * c6 k - s6 j * s6 k /\ s6 (add6 j k) = s6 j * c6 k + c6 j * s6 k.
Proof.
  intros j k. pose proof (sqrt_sqrt 3 ltac:(lra)) as Q. destruct j, k; cbn [add6 next6 c6 s6]; split; lra.
Qed.
Lemma neg6_cs : forall k, c6 (neg6 k) = c6 k /\ s6 (neg6 k) = - s6 k.
Proof. intros []; cbn [neg6 c6 s6]; split; lra. Qed.
Lemma six_one : forall k, c6 k * c6 k + s6 k * s6 k = 1.
Proof. intros k. pose proof (sqrt_sqrt 3 ltac:(lra)) as Q. destruct k; cbn [c6 s6]; nra. Qed.
Lemma dih_div : forall m m', exists n, forall x y, dx n (dx m x y) (dy m x y) = dx m' x y /\ dy n (dx m x y) (dy m x y) = dy m' x y.
Proof.
  intros (k, f) (k', f'). pose proof (six_one k) as O. destruct (add6_cs k' k) as (A1 & A2), (add6_cs k' (neg6 k)) as (B1 & B2), (neg6_cs k) as (N1 & N2). rewrite N1, N2 in B1, B2.
  destruct (xorb f f') eqn:X.
  - exists (add6 k' k, true). intros x y. unfold dx, dy. rewrite A1, A2. destruct f, f'; try discriminate.
    + split; [transitivity ((c6 k * c6 k + s6 k * s6 k) * (c6 k' * x - s6 k' * y)); [ring|rewrite O; ring]|transitivity ((c6 k * c6 k + s6 k * s6 k) * (s6 k' * x + c6 k' * y)); [ring|rewrite O; ring]].
    + split; [transitivity ((c6 k * c6 k + s6 k * s6 k) * (c6 k' * x + s6 k' * y)); [ring|rewrite O; ring]|transitivity ((c6 k * c6 k + s6 k * s6 k) * (s6 k' * x - c6 k' * y)); [ring|rewrite O; ring]].
  - exists (add6 k' (neg6 k), false). intros x y. unfold dx, dy. rewrite B1, B2. destruct f, f'; try discriminate.
    + split; [transitivity ((c6 k * c6 k + s6 k * s6 k) * (c6 k' * x + s6 k' * y)); [ring|rewrite O; ring]|transitivity ((c6 k * c6 k + s6 k * s6 k) * (s6 k' * x - c6 k' * y)); [ring|rewrite O; ring]].
    + split; [transitivity ((c6 k * c6 k + s6 k * s6 k) * (c6 k' * x - s6 k' * y)); [ring|rewrite O; ring]|transitivity ((c6 k * c6 k + s6 k * s6 k) * (s6 k' * x + c6 k' * y)); [ring|rewrite O; ring]].
Qed.
Lemma hsec_same : forall up m m' x y, hsec up (dx m x y) (dy m x y) -> hsec up (dx m' x y) (dy m' x y) -> dx m' x y = dx m x y /\ dy m' x y = dy m x y.
Proof.
  intros up m m' x y H H'. destruct (dih_div m m') as (n & N). destruct (N x y) as (E1 & E2). rewrite <- E1, <- E2 in H'. destruct (hsec_unique up n _ _ H H') as (F1 & F2).
  rewrite E1 in F1. rewrite E2 in F2. now split.
Qed.
Lemma dih_zero : forall m x y, x * x + y * y <> 0 -> dx m x y * dx m x y + dy m x y * dy m x y <> 0.
Proof.
  intros (k, f) x y N. pose proof (six_one k) as O. replace (_ + _) with ((c6 k * c6 k + s6 k * s6 k) * (x * x + y * y)); [rewrite O; lra|]. unfold dx, dy. destruct f; ring.
Qed.
Definition lo_h (up : bool) : R := if up then PI / 2 else 1 / 3 * PI.
Definition hi_h (up : bool) : R := if up then 2 / 3 * PI else PI / 2.
Lemma hsec_trial : forall up m u, vx u * vx u + vy u * vy u <> 0 ->
  (trial (lo_h up) (hi_h up) (ang (hplane m u)) = true <-> hsec up (dx m (vx u) (vy u)) (dy m (vx u) (vy u))).
Proof.
  intros up m u N. unfold ang, hplane. cbn [vx vy vz]. rewrite trial_spec. pose proof PI_RGT_0 as P. apply (dih_zero m) in N. set (x := dx m _ _) in *. set (y := dy m _ _) in *. clearbody x y.
  pose proof (sqrt_sqrt 3 ltac:(lra)) as Q. assert (P3 : 0 < sqrt 3) by (apply sqrt_lt_R0; lra).
  rewrite azimuth_between; [|unfold lo_h, hi_h; destruct up; lra..|exact N]. unfold lo_h, hi_h, hsec. destruct up.
  - rewrite cos_PI2, sin_PI2. replace (2 / 3 * PI) with (2 * (PI / 3)) by field. rewrite cos_2PI3, sin_2PI3. split.
    + intros (H1 & H2 & H3). split; lra.
    + intros (H1 & H2). repeat split; try lra. destruct (Req_EM_T x 0) as [->|]; [|nra]. destruct (Rlt_dec 0 y); [assumption|]. assert (y = 0) by lra. subst y. elim N. ring.
  - rewrite cos_PI2, sin_PI2. replace (1 / 3 * PI) with (PI / 3) by field. rewrite cos_PI3, sin_PI3. split.
    + intros (H1 & H2 & H3). split; lra.
    + intros (H1 & H2). repeat split; try lra. destruct (Req_EM_T x 0) as [->|]; [|nra]. destruct (Rlt_dec 0 y); [assumption|]. assert (y = 0) by lra. subst y. elim N. ring.
Qed.
