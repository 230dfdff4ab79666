(** Quaternions: properties C18 to C27 and C30.  The operations are those of
    defdap/quat.py (see [Quat_Model]); the mathematical vocabulary ([unitq],
    [same_rot], [hprod], matrices, [bunge], ...) is in [Quat_Spec]. *)
From Coq Require Import List Reals Lra String.
Import ListNotations.
From Verif Require Import Quat_Model Quat_Spec Quat_Proofs QuatEuler_Proofs
  QuatSym_Proofs QuatMany_Proofs.
Open Scope R_scope.

(** The sample quaternions used below. *)
Definition exq : quat := Q4 (1/2) (1/2) (-(1/2)) (1/2).
Definition exs : quat := Q4 (-(3/5)) 0 (4/5) 0.
Example exq_unit : unitq exq. Proof. unfold unitq, exq; cbn; lra. Qed.
Example exs_unit : unitq exs. Proof. unfold unitq, exs; cbn; lra. Qed.
Example exs_south : qw exs < 0. Proof. unfold exs; cbn; lra. Qed.
Example exq_north : 0 <= qw exq. Proof. unfold exq; cbn; lra. Qed.

(** C18 *)
Theorem C18_rotation_matrix : forall q, unitq q ->
  mprod (rot_matrix q) (transpose (rot_matrix q)) = mone /\
  mprod (transpose (rot_matrix q)) (rot_matrix q) = mone /\
  det (rot_matrix q) = 1.
Proof. intros q U. exact (conj (rot_orth q U) (conj (rot_orth' q U) (rot_det q U))). Qed.
Print Assumptions C18_rotation_matrix.

Theorem C18_sign_and_conjugate : forall q,
  rot_matrix (opp q) = rot_matrix q /\
  rot_matrix (conjugate q) = transpose (rot_matrix q).
Proof.
  intros q. exact (conj (rot_opp q)
    (eq_trans (rot_same _ _ (conjugate_same q)) (rot_hconj q))).
Qed.
Print Assumptions C18_sign_and_conjugate.

(** C18: the matrix determines the unit quaternion up to sign. *)
Theorem C18_matrix_injective : forall p q, unitq p -> unitq q ->
  (rot_matrix p = rot_matrix q <-> same_rot p q).
Proof. intros p q Up Uq. exact (conj (rot_inj p q Up Uq) (rot_same p q)). Qed.
Print Assumptions C18_matrix_injective.

(** C19: the product of two objects is Hamilton's product up to sign, and its
    matrix is the product of the matrices; associativity, identity, inverse and
    norm follow for objects up to sign and exactly for Hamilton's product. *)
Theorem C19_product_composes : forall b p q,
  rot_matrix (quat_mul b p q) = mprod (rot_matrix p) (rot_matrix q) /\
  same_rot (quat_mul b p q) (hprod p q) /\
  norm (quat_mul b p q) = norm p * norm q.
Proof.
  intros b p q. split; [|split].
  - rewrite (rot_same _ _ (quat_mul_same b p q)). apply rot_hprod.
  - apply quat_mul_same.
  - unfold norm. rewrite <- sqrt_mult by apply inner_self_nonneg. f_equal.
    change (inner (quat_mul b p q) (quat_mul b p q) = sqnorm p * sqnorm q).
    rewrite <- sqnorm_hprod. unfold sqnorm.
    destruct (quat_mul_same b p q) as [-> | ->]; auto.
    rewrite inner_opp_l, inner_opp_r. ring.
Qed.
Print Assumptions C19_product_composes.

Theorem C19_product_group : forall b p q r,
  same_rot (quat_mul b (quat_mul b p q) r) (quat_mul b p (quat_mul b q r)) /\
  same_rot (quat_mul b (Q4 1 0 0 0) p) p /\ same_rot (quat_mul b p (Q4 1 0 0 0)) p /\
  (unitq p -> same_rot (quat_mul b p (conjugate p)) (Q4 1 0 0 0) /\
              same_rot (quat_mul b (conjugate p) p) (Q4 1 0 0 0)).
Proof.
  intros b p q r. change (Q4 1 0 0 0) with qone. split; [|split; [|split]].
  - eapply same_rot_trans; [apply quat_mul_same|].
    eapply same_rot_trans; [apply same_rot_hprod; [apply quat_mul_same | apply same_rot_refl]|].
    rewrite hprod_assoc. apply same_rot_sym.
    eapply same_rot_trans; [apply quat_mul_same|].
    apply same_rot_hprod; [apply same_rot_refl | apply quat_mul_same].
  - rewrite <- (hprod_1_l p) at 2. apply quat_mul_same.
  - rewrite <- (hprod_1_r p) at 2. apply quat_mul_same.
  - intros U. split.
    + eapply same_rot_trans; [apply quat_mul_same|].
      rewrite <- (hprod_conj_r p U). apply same_rot_hprod; [apply same_rot_refl | apply conjugate_same].
    + eapply same_rot_trans; [apply quat_mul_same|].
      rewrite <- (hprod_conj_l p U). apply same_rot_hprod; [apply conjugate_same | apply same_rot_refl].
Qed.
Print Assumptions C19_product_group.

(** C20, for objects in the northern hemisphere (every object not built with
    allow_southern, see C21). *)
Theorem C20_transform_vector_partial : forall q v, 0 <= qw q ->
  transform_vector q v = mapply (rot_matrix q) v.
Proof. exact transform_north. Qed.
Print Assumptions C20_transform_vector_partial.

Theorem C20_transform_is_rotation_partial : forall q u v, unitq q -> 0 <= qw q ->
  sprod (transform_vector q u) (transform_vector q v) = sprod u v /\
  xprod (transform_vector q u) (transform_vector q v) = transform_vector q (xprod u v) /\
  transform_vector (conjugate q) (transform_vector q u) = u.
Proof.
  intros q u v U N. rewrite !(transform_north q) by auto. split; [|split].
  - now apply rot_sprod.
  - now apply rot_xprod.
  - rewrite transform_north by (unfold conjugate; apply Quat_north).
    rewrite (rot_same _ _ (conjugate_same q)), rot_hconj, <- mapply_mprod, rot_orth', mapply_one; auto.
Qed.
Print Assumptions C20_transform_is_rotation_partial.

(** C20: for a southern object the result is the rotated vector reversed. *)
Theorem C20_transform_vector_refuted :
  (forall q v, qw q < 0 ->
     transform_vector q v = mapply (rot_matrix q) (V3 (- vx v) (- vy v) (- vz v))) /\
  exists q v, unitq q /\ transform_vector q v <> mapply (rot_matrix q) v.
Proof.
  split; [exact transform_south|].
  exists exs, (V3 0 1 0). split; [apply exs_unit|]. rewrite transform_south by apply exs_south.
  intros E. apply (f_equal vy) in E. unfold exs, mapply, rot_matrix, sprod in E.
  cbn [vx vy vz r0 r1 r2] in E. lra.
Qed.
Print Assumptions C20_transform_vector_refuted.

(** C21 *)
Theorem C21_northern : forall q,
  0 <= qw (Quat false q) /\ same_rot (Quat false q) q /\ Quat true q = q /\
  (0 <= qw q -> Quat false q = q).
Proof.
  intros q. exact (conj (Quat_north q) (conj (Quat_same false q) (conj eq_refl (Quat_id false q)))).
Qed.
Print Assumptions C21_northern.

(** C21: products, sums, conjugates and the constructors from angles are
    northern too. *)
Theorem C21_operations_northern : forall p q a b c v t r,
  0 <= qw (quat_mul false p q) /\ 0 <= qw (quat_add p q) /\ 0 <= qw (conjugate p) /\
  0 <= qw (from_euler_angles a b c) /\
  (from_axis_angle v t = Some r -> 0 <= qw r).
Proof.
  intros p q a b c v t r. repeat (split; [apply Quat_north|]).
  unfold from_axis_angle. destruct (Req_EM_T _ 0); [discriminate|].
  intros E. assert (r = Quat false (Q4 (cos (t / 2))
    (vx (vscale (- sin (t / 2)) (V3 (vx v / sqrt (vdot v v)) (vy v / sqrt (vdot v v)) (vz v / sqrt (vdot v v)))))
    (vy (vscale (- sin (t / 2)) (V3 (vx v / sqrt (vdot v v)) (vy v / sqrt (vdot v v)) (vz v / sqrt (vdot v v)))))
    (vz (vscale (- sin (t / 2)) (V3 (vx v / sqrt (vdot v v)) (vy v / sqrt (vdot v v)) (vz v / sqrt (vdot v v)))))))
    as -> by congruence.
  apply Quat_north.
Qed.
Print Assumptions C21_operations_northern.

Theorem C21_normalise : forall q, q <> Q4 0 0 0 0 ->
  exists k n, normalise q = Some n /\ 0 < k /\ unitq n /\
    q = Q4 (k * qw n) (k * qx n) (k * qy n) (k * qz n).
Proof. exact normalise_spec. Qed.
Print Assumptions C21_normalise.
Example C21_ex : Q4 (-1) 2 3 4 <> Q4 0 0 0 0.
Proof. intros E. apply (f_equal qx) in E. cbn in E. lra. Qed.

(** C22 *)
Theorem C22_from_euler : forall a b c,
  unitq (from_euler_angles a b c) /\
  rot_matrix (from_euler_angles a b c) = bunge a b c.
Proof. intros. exact (conj (euler_unit a b c) (euler_bunge a b c)). Qed.
Print Assumptions C22_from_euler.

Theorem C22_quat_round_trip : forall q a b c, unitq q -> euler_angles q = (a, b, c) ->
  (0 <= a < 2 * PI /\ 0 <= b <= PI /\ 0 <= c < 2 * PI) /\
  same_rot (from_euler_angles a b c) q.
Proof. exact euler_angles_spec. Qed.
Print Assumptions C22_quat_round_trip.

Theorem C22_angles_round_trip : forall a b c,
  0 <= a < 2 * PI -> 0 < b < PI -> 0 <= c < 2 * PI ->
  euler_angles (from_euler_angles a b c) = (a, b, c).
Proof. exact euler_round. Qed.
Print Assumptions C22_angles_round_trip.
Example C22_ex : 0 <= 3 < 2 * PI /\ 0 < 1 < PI /\ 0 <= 1 < 2 * PI.
Proof. pose proof PI2_1. pose proof PI2_3_2. lra. Qed.

(** C23: a unit quaternion whose rotation fixes the axis; it is the passive
    rotation by the angle about the unit axis. *)
Theorem C23_axis_angle : forall v t, v <> V3 0 0 0 ->
  exists q, from_axis_angle v t = Some q /\ unitq q /\ qw q = Rabs (cos (t / 2)) /\
    mapply (rot_matrix q) v = v /\
    exists n, sprod n n = 1 /\ (exists k, 0 < k /\ v = V3 (k * vx n) (k * vy n) (k * vz n)) /\
      same_rot q (Q4 (cos (t / 2)) (- sin (t / 2) * vx n) (- sin (t / 2) * vy n) (- sin (t / 2) * vz n)).
Proof. exact axis_angle_spec. Qed.
Print Assumptions C23_axis_angle.
Example C23_ex : V3 1 (-2) 0 <> V3 0 0 0.
Proof. intros E. apply (f_equal vx) in E. cbn in E. lra. Qed.

(** C24 *)
Theorem C24_cubic : rotation_group (sym_eqv "cubic") /\
  List.length (sym_eqv "cubic") = 24%nat /\
  ForallOrdPairs (fun a b => ~ same_rot a b) (sym_eqv "cubic") /\
  hd_error (sym_eqv "cubic") = Some (Q4 1 0 0 0).
Proof.
  split; [exact cubic_group|]. split; [reflexivity|]. split; [exact cubic_distinct|].
  destruct (sym_head "cubic") as (t & ->). reflexivity.
Qed.
Print Assumptions C24_cubic.
Theorem C24_hexagonal : rotation_group (sym_eqv "hexagonal") /\
  List.length (sym_eqv "hexagonal") = 12%nat /\
  ForallOrdPairs (fun a b => ~ same_rot a b) (sym_eqv "hexagonal") /\
  hd_error (sym_eqv "hexagonal") = Some (Q4 1 0 0 0).
Proof.
  split; [exact hex_group|]. split; [reflexivity|]. split; [exact hex_distinct|].
  destruct (sym_head "hexagonal") as (t & ->). reflexivity.
Qed.
Print Assumptions C24_hexagonal.
Theorem C24_other : forall g, g <> "cubic"%string -> g <> "hexagonal"%string ->
  sym_eqv g = [Q4 1 0 0 0].
Proof. exact sym_eqv_other. Qed.
Print Assumptions C24_other.

(** C25 *)
Theorem C25_maximum : forall p q g,
  greatest (sym_eqv g) (fun s => Rabs (inner p (hprod s q))) (mis_ori p q g).
Proof. exact mis_ori_greatest. Qed.
Print Assumptions C25_maximum.
Theorem C25_range_and_zero : forall p q g, unitq p -> unitq q ->
  0 <= mis_ori p q g <= 1 /\ (mis_ori p q g = 1 <-> equivalent (sym_eqv g) q p).
Proof. intros p q g Up Uq. exact (conj (mis_ori_range p q g Up Uq) (mis_ori_one p q g Up Uq)). Qed.
Print Assumptions C25_range_and_zero.
Theorem C25_symmetric : forall p q g, mis_ori p q g = mis_ori q p g.
Proof. exact mis_ori_sym. Qed.
Print Assumptions C25_symmetric.
Theorem C25_invariant : forall p p' q q' g,
  equivalent (sym_eqv g) p p' -> equivalent (sym_eqv g) q q' ->
  mis_ori p' q' g = mis_ori p q g.
Proof. exact mis_ori_equiv. Qed.
Print Assumptions C25_invariant.
Theorem C25_frame_indifferent : forall p q r p' q' g, unitq r ->
  same_rot p' (hprod p r) -> same_rot q' (hprod q r) -> mis_ori p' q' g = mis_ori p q g.
Proof. exact mis_ori_frame. Qed.
Print Assumptions C25_frame_indifferent.
(** The misorientation angle 2 arccos(mis_ori) obeys the triangle inequality. *)
Theorem C25_triangle : forall p q r g, unitq p -> unitq q -> unitq r ->
  2 * acos (mis_ori p r g) <= 2 * acos (mis_ori p q g) + 2 * acos (mis_ori q r g).
Proof. exact mis_ori_triangle. Qed.
Print Assumptions C25_triangle.
(** return_quat = 2: for the two crystal symmetries a nearest equivalent is
    always returned (never an unassigned variable); for unknown symmetry names
    it can be unassigned. *)
Theorem C25_returned_equivalent : forall p q g,
  g = "cubic"%string \/ g = "hexagonal"%string -> unitq p -> unitq q ->
  exists c, mis_ori_full p q g = (mis_ori p q g, Some c) /\
    equivalent (sym_eqv g) q c /\ Rabs (inner p c) = mis_ori p q g /\ 0 <= qw c.
Proof.
  intros p q g Hg Up Uq. destruct (mis_ori_full_total p q g Hg Up Uq) as (c & E).
  exists c. split; auto. apply mis_ori_full_some in E. tauto.
Qed.
Print Assumptions C25_returned_equivalent.
Theorem C25_returned_equivalent_unassigned : exists p q, unitq p /\ unitq q /\
  mis_ori_full p q "triclinic" = (0, None).
Proof.
  exists (Q4 1 0 0 0), (Q4 0 1 0 0). split; [|split].
  - unfold unitq; cbn; lra.
  - unfold unitq; cbn; lra.
  - assert (M : mis_ori (Q4 1 0 0 0) (Q4 0 1 0 0) "triclinic" = 0).
    { destruct (mis_ori_greatest (Q4 1 0 0 0) (Q4 0 1 0 0) "triclinic") as [_ (s & Is & <-)].
      rewrite sym_eqv_other in Is by discriminate. destruct Is as [<-|[]].
      replace (inner _ _) with 0 by (unfold inner, hprod, qone; cbn; ring). apply Rabs_R0. }
    destruct (mis_ori_full (Q4 1 0 0 0) (Q4 0 1 0 0) "triclinic") as [m [c|]] eqn:E.
    + exfalso. unfold mis_ori_full in E. rewrite sym_eqv_other in E by discriminate.
      cbn [fold_left] in E. unfold mis_ori_step in E. cbn [fst] in E.
      destruct (Rlt_dec 0 _) as [L|L]; [|discriminate].
      rewrite dot_inner in L. rewrite (Rabs_inner_same _ _ _ _ (same_rot_refl _) (quat_mul_same false _ _)) in L.
      replace (inner _ _) with 0 in L by (unfold inner, hprod, qone; cbn; ring). rewrite Rabs_R0 in L. lra.
    + apply mis_ori_full_none in E as ->. reflexivity.
Qed.
Print Assumptions C25_returned_equivalent_unassigned.
Example C25_ex : equivalent (sym_eqv "cubic") (Q4 1 0 0 0) (Q4 0 1 0 0).
Proof.
  exists (Q4 0 1 0 0). split.
  - apply sym_has_units. now left.
  - left. unfold hprod; cbn. f_equal; ring.
Qed.

(** C26 *)
Theorem C26_create_many : forall l i a b c, nth_error l i = Some (a, b, c) ->
  List.length (create_many_quats l) = List.length l /\
  nth_error (create_many_quats l) i = Some (from_euler_angles a b c).
Proof.
  intros l i a b c E. rewrite create_many, map_length, nth_error_map, E. auto.
Qed.
Print Assumptions C26_create_many.
Theorem C26_multiply_many : forall l r i q, nth_error l i = Some q ->
  List.length (multiply_many_quats l r) = List.length l /\
  nth_error (multiply_many_quats l r) i = Some (quat_mul false q r).
Proof.
  intros l r i q E. rewrite multiply_many, map_length, nth_error_map, E. auto.
Qed.
Print Assumptions C26_multiply_many.
(** Row k, point i of calc_sym_eqvs is the object product of operator k and
    quaternion i; row 0 is the input itself, so the input must be northern there. *)
Theorem C26_calc_sym_eqvs : forall l g k s i q,
  nth_error (sym_eqv g) k = Some s -> nth_error l i = Some q ->
  (k <> 0%nat \/ forall q, In q l -> 0 <= qw q) ->
  List.length (calc_sym_eqvs l g) = List.length (sym_eqv g) /\
  exists row, nth_error (calc_sym_eqvs l g) k = Some row /\
    List.length row = List.length l /\ nth_error row i = Some (quat_mul false s q).
Proof.
  intros l g k s i q Es Eq H. split; [apply calc_sym_eqvs_length|].
  exists (map (fun q => quat_mul false s q) l). split; [|split].
  - destruct H as [H|H].
    + apply calc_sym_eqvs_row; auto. destruct k; [congruence | apply PeanoNat.Nat.lt_0_succ].
    + now apply calc_sym_eqvs_north.
  - apply map_length.
  - now rewrite nth_error_map, Eq.
Qed.
Print Assumptions C26_calc_sym_eqvs.
(** calcMisOri agrees with the scalar misorientation at every point. *)
Theorem C26_calcMisOri : forall l g ref i q, unitq ref -> nth_error l i = Some q -> unitq q ->
  exists m c, nth_error (calcMisOri (calc_sym_eqvs l g) ref) i = Some (m, c) /\
    m = mis_ori ref q g /\ equivalent (sym_eqv g) q c /\ Rabs (inner ref c) = m.
Proof. exact calcMisOri_spec. Qed.
Print Assumptions C26_calcMisOri.
Example C26_ex : nth_error [exq; Quat false exs] 1 = Some (Quat false exs) /\
  nth_error (sym_eqv "hexagonal") 2 = Some (Quat false (Q4 0 0 1 0)) /\
  forall q, In q [exq; Quat false exs] -> 0 <= qw q.
Proof.
  split; [reflexivity|]. split; [reflexivity|].
  intros q [<-|[<-|[]]]; [apply exq_north | apply Quat_north].
Qed.

(** C27: what the average is. *)
Theorem C27_average_is_running_sum : forall q0 rest g, (forall q, In q rest -> 0 <= qw q) ->
  exists r, running_sum (sym_eqv g) q0 rest r /\
    (r = Q4 0 0 0 0 -> calc_average_ori (calc_sym_eqvs (q0 :: rest) g) = None) /\
    (r <> Q4 0 0 0 0 -> exists n k, calc_average_ori (calc_sym_eqvs (q0 :: rest) g) = Some n /\
       unitq n /\ 0 <= qw n /\ 0 < k /\
       same_rot r (Q4 (k * qw n) (k * qx n) (k * qy n) (k * qz n))).
Proof.
  intros q0 rest g N. destruct (average_spec q0 rest g N) as (r & R & E). exists r. split; auto.
  rewrite E. split.
  - intros ->. apply normalise_none, Quat_zero. reflexivity.
  - intros NZ. assert (NZ' : Quat false r <> Q4 0 0 0 0) by (rewrite Quat_zero; auto).
    destruct (normalise_spec _ NZ') as (k & n & En & K & U & Q). exists n, k.
    split; auto. split; auto. split; [|split; auto].
    + apply normalise_north in En; auto. apply Quat_north.
    + rewrite <- Q. apply same_rot_sym, Quat_same.
Qed.
Print Assumptions C27_average_is_running_sum.
Theorem C27_average_unit : forall comps n, calc_average_ori comps = Some n ->
  unitq n /\ 0 <= qw n.
Proof. exact average_unit. Qed.
Print Assumptions C27_average_unit.
Theorem C27_average_of_copies : forall q n g, unitq q -> 0 <= qw q ->
  calc_average_ori (calc_sym_eqvs (repeat q (S n)) g) = Some q.
Proof. exact average_copies. Qed.
Print Assumptions C27_average_of_copies.
(** Replacing non-reference inputs by symmetry equivalents, when the nearest
    northern equivalent is never ambiguous. *)
Theorem C27_representation_independent_partial : forall g q0 qs ps,
  decisive (sym_eqv g) q0 qs ->
  (forall q, In q qs -> 0 <= qw q) -> (forall p, In p ps -> 0 <= qw p) ->
  Forall2 (equivalent (sym_eqv g)) qs ps ->
  calc_average_ori (calc_sym_eqvs (q0 :: ps) g) = calc_average_ori (calc_sym_eqvs (q0 :: qs) g).
Proof. exact average_invariant. Qed.
Print Assumptions C27_representation_independent_partial.
(** The hypotheses hold for a quaternion whose nearest cubic equivalent is not
    itself. *)
Example C27_ex : decisive (sym_eqv "cubic") qone [tilt] /\
  Forall2 (equivalent (sym_eqv "cubic")) [tilt] [Quat false (hprod (Q4 0 1 0 0) tilt)].
Proof.
  split; [exact tilt_decisive|]. constructor; [|constructor].
  exists (Q4 0 1 0 0). split; [apply sym_has_units; now left | apply Quat_same].
Qed.
(** C27 fails: the same two rotations, one written with the other sign (both
    scalar parts are 0, so both are northern), have no average at all. *)
Theorem C27_sign_dependence_refuted :
  calc_average_ori (calc_sym_eqvs [Q4 0 1 0 0; Q4 0 1 0 0] "cubic") = Some (Q4 0 1 0 0) /\
  calc_average_ori (calc_sym_eqvs [Q4 0 1 0 0; Q4 0 (-1) 0 0] "cubic") = None.
Proof.
  split.
  - apply (average_copies (Q4 0 1 0 0) 1 "cubic"); [unfold unitq; cbn; lra | cbn; lra].
  - assert (E : calc_average_ori (calc_sym_eqvs [Q4 0 1 0 0; Q4 0 (-1) 0 0] "cubic") =
      normalise (Quat false (average_step (Q4 0 1 0 0)
        (column (calc_sym_eqvs [Q4 0 1 0 0; Q4 0 (-1) 0 0] "cubic") 1)))) by reflexivity.
    rewrite E. replace (Q4 0 1 0 0) with (qscale (-1) (Q4 0 (-1) 0 0)) at 1
      by (unfold qscale; cbn; f_equal; lra).
    rewrite (average_step_copies _ "cubic" 1 (Q4 0 (-1) 0 0)); [|reflexivity | lra | unfold unitq; cbn; lra].
    apply normalise_none, Quat_zero. unfold qscale; cbn. f_equal; lra.
Qed.
Print Assumptions C27_sign_dependence_refuted.
(** C27 fails: two northern orientations 23 degrees apart can have an average
    more than 70 degrees (2 arccos 0.8) from the first. *)
Theorem C27_average_far_from_inputs_refuted : exists p q n,
  unitq p /\ unitq q /\ 0 < qw p /\ 0 < qw q /\
  0.98 <= mis_ori p q "hexagonal" /\
  calc_average_ori (calc_sym_eqvs [p; q] "hexagonal") = Some n /\
  mis_ori n p "hexagonal" <= 0.8.
Proof.
  exists near1, near2, qone. destruct near_unit, near_far.
  split; [assumption|]. split; [assumption|]. split; [unfold near1; cbn; lra|].
  split; [unfold near2; cbn; lra|]. split; [assumption|]. split; [exact near_average | assumption].
Qed.
Print Assumptions C27_average_far_from_inputs_refuted.

(** C30, for different orientations: the vector is fixed by the relative
    rotation right * self^-1, its length is the rotation angle, and the passive
    rotation about it by minus that angle is the relative rotation. *)
Theorem C30_axis_partial : forall p q a, unitq p -> unitq q -> mis_ori_axis p q = Some a ->
  mapply (rot_matrix (hprod q (hconj p))) a = a /\
  sqrt (sprod a a) = rot_angle p q /\
  exists D, from_axis_angle a (- rot_angle p q) = Some D /\ same_rot D (hprod q (hconj p)).
Proof. exact mis_axis_some. Qed.
Print Assumptions C30_axis_partial.
(** C30 fails exactly for equal rotations: the result is nan, not zero. *)
Theorem C30_axis_refuted : forall p q, unitq p -> unitq q ->
  (mis_ori_axis p q = None <-> same_rot p q).
Proof. exact mis_axis_none. Qed.
Print Assumptions C30_axis_refuted.
Example C30_ex : exists a, mis_ori_axis exq (Quat false exs) = Some a.
Proof.
  destruct (mis_ori_axis exq (Quat false exs)) as [a|] eqn:E; [eauto|]. exfalso.
  apply mis_axis_none in E; [| apply exq_unit | apply (same_rot_unit _ exs (Quat_same _ _) exs_unit)].
  assert (S : same_rot exq exs) by (eapply same_rot_trans; [exact E | apply Quat_same]).
  destruct S as [S|S]; apply (f_equal qx) in S; unfold exq, exs, opp in S; cbn in S; lra.
Qed.
