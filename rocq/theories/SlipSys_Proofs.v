(** Slip systems: cartesian vectors, shipped files, families. *)
From Coq Require Import String Reals ZArith Lra Lia Psatz Bool Permutation.
From Coq Require Import List.
From Verif Require Import Py Quat_Model Quat_Spec Quat_Proofs QuatSym_Proofs
  Crystal_Model Crystal_Spec Crystal_Proofs CrystalMat_Proofs.
Import ListNotations.
Open Scope string_scope.
Open Scope list_scope.
Open Scope R_scope.

Local Arguments Quat : simpl never.
Local Arguments quat_mul : simpl never.

(** ** Unit vectors *)
Lemma sprod_pos : forall v, v <> V3 0 0 0 -> 0 < sprod v v.
Proof.
  intros [x y z] H. unfold sprod; cbn [vx vy vz].
  destruct (Req_dec x 0) as [->|]; [destruct (Req_dec y 0) as [->|]; [destruct (Req_dec z 0) as [->|]|]|].
  - congruence.
  - nra.
  - nra.
  - nra.
Qed.

Definition unit_of (v : vec3) : vec3 := vscale (/ sqrt (sprod v v)) v.

Lemma vunit_Ok : forall v, v <> V3 0 0 0 -> vunit v = Ok (unit_of v).
Proof.
  intros v H. unfold vunit. rewrite vdot_sprod.
  pose proof (sqrt_lt_R0 _ (sprod_pos v H)).
  destruct (Req_EM_T (sqrt (sprod v v)) 0); [lra|]. reflexivity.
Qed.

Lemma vunit_inv : forall v u, vunit v = Ok u -> v <> V3 0 0 0 /\ u = unit_of v.
Proof.
  intros v u H. pose proof (vunit_nonzero _ _ H) as N. split; auto.
  rewrite vunit_Ok in H by auto. congruence.
Qed.

Lemma unit_of_unit : forall v, v <> V3 0 0 0 -> unitv (unit_of v).
Proof.
  intros v H. pose proof (sprod_pos v H) as P. pose proof (sqrt_lt_R0 _ P) as S.
  unfold unitv, unit_of.
  assert (E : sqrt (sprod v v) * sqrt (sprod v v) = sprod v v) by (apply sqrt_sqrt; lra).
  set (n := sqrt (sprod v v)) in *. unfold vscale; destruct v as [x y z].
  unfold sprod in *; cbn [vx vy vz] in *.
  transitivity ((x * x + y * y + z * z) / (n * n)); [field; lra|]. rewrite E. field. lra.
Qed.

Lemma sprod_unit_of : forall u v, u <> V3 0 0 0 -> v <> V3 0 0 0 ->
  (sprod (unit_of u) (unit_of v) = 0 <-> sprod u v = 0).
Proof.
  intros u v Hu Hv.
  pose proof (sqrt_lt_R0 _ (sprod_pos u Hu)) as A. pose proof (sqrt_lt_R0 _ (sprod_pos v Hv)) as B.
  unfold unit_of. set (m := sqrt (sprod u u)) in *. set (n := sqrt (sprod v v)) in *.
  assert (E : sprod (vscale (/ m) u) (vscale (/ n) v) = sprod u v * (/ m * / n)).
  { unfold sprod, vscale; cbn [vx vy vz]. ring. }
  rewrite E. pose proof (Rinv_0_lt_compat _ A). pose proof (Rinv_0_lt_compat _ B).
  split; [|intros ->; ring]. intros H1. apply Rmult_integral in H1 as [|]; auto.
  exfalso. assert (0 < / m * / n) by (apply Rmult_lt_0_compat; auto). lra.
Qed.

Lemma vscale_zero : forall k v, k <> 0 -> vscale k v = V3 0 0 0 -> v = V3 0 0 0.
Proof.
  intros k [x y z] Hk H. unfold vscale in H; cbn [vx vy vz] in H. injection H as A B C.
  f_equal; nra.
Qed.

Lemma unit_of_scale : forall k v, k <> 0 -> v <> V3 0 0 0 ->
  vup_to_sign (unit_of (vscale k v)) (unit_of v).
Proof.
  intros k v Hk Hv. pose proof (sqrt_lt_R0 _ (sprod_pos v Hv)) as B.
  assert (E : sqrt (sprod (vscale k v) (vscale k v)) = Rabs k * sqrt (sprod v v)).
  { replace (sprod (vscale k v) (vscale k v)) with (k² * sprod v v)
      by (unfold sprod, vscale, Rsqr; cbn [vx vy vz]; ring).
    rewrite sqrt_mult_alt by apply Rle_0_sqr. rewrite sqrt_Rsqr_abs. auto. }
  unfold unit_of. rewrite E. set (n := sqrt (sprod v v)) in *.
  destruct (Rlt_dec 0 k) as [L|L].
  - left. rewrite Rabs_right by lra. unfold vscale; cbn [vx vy vz]. f_equal; field; lra.
  - right. rewrite Rabs_left by lra. unfold vscale, vopp; cbn [vx vy vz]. f_equal; field; lra.
Qed.

Lemma mapply_scale : forall m k v, mapply m (vscale k v) = vscale k (mapply m v).
Proof. intros [[a b c] [d e f] [g h i]] k [x y z]. munf. f_equal; ring. Qed.
Lemma mapply_opp : forall m v, mapply m (vopp v) = vopp (mapply m v).
Proof. intros [[a b c] [d e f] [g h i]] [x y z]. munf. f_equal; ring. Qed.
Lemma vopp_opp : forall v, vopp (vopp v) = v.
Proof. intros [x y z]; unfold vopp; cbn [vx vy vz]; f_equal; ring. Qed.
Lemma vup_sym : forall u v, vup_to_sign u v -> vup_to_sign v u.
Proof. intros u v [->| ->]; [left|right; rewrite vopp_opp]; auto. Qed.
Lemma vup_trans : forall u v w, vup_to_sign u v -> vup_to_sign v w -> vup_to_sign u w.
Proof. intros u v w [->| ->] [->| ->]; [left|right|right|left]; rewrite ?vopp_opp; auto. Qed.
Lemma vup_mapply : forall m u v, vup_to_sign u v -> vup_to_sign (mapply m u) (mapply m v).
Proof. intros m u v [->| ->]; [left|right; rewrite mapply_opp]; auto. Qed.

Lemma unit_of_rot : forall q v, unitq q -> unit_of (mapply (rot_matrix q) v) = mapply (rot_matrix q) (unit_of v).
Proof.
  intros q v H. unfold unit_of. rewrite rot_sprod by auto. rewrite mapply_scale. auto.
Qed.

Lemma mapply_rot_nonzero : forall q v, unitq q -> v <> V3 0 0 0 -> mapply (rot_matrix q) v <> V3 0 0 0.
Proof.
  intros q v Hq Hv E. pose proof (sprod_pos v Hv). rewrite <- (rot_sprod q v v Hq), E in H.
  unfold sprod in H; cbn [vx vy vz] in H. lra.
Qed.

(** ** Construction *)
Definition vZ (x y z : Z) : vec3 := V3 (IZR x) (IZR y) (IZR z).

Lemma vZ_nonzero : forall x y z, nonzero [x; y; z] <-> vZ x y z <> V3 0 0 0.
Proof.
  intros x y z; split.
  - intros (w & Hw & Hn) E. unfold vZ in E. injection E as A B C.
    apply eq_IZR in A, B, C. subst. destruct Hw as [<-|[<-|[<-|[]]]]; auto.
  - intros H. destruct (nonzero_dec [x; y; z]) as [|N]; auto. exfalso; apply H.
    assert (F : forall w, In w [x; y; z] -> w = 0%Z).
    { intros w Hw. destruct (Z.eq_dec w 0); auto. exfalso; apply N; exists w; auto. }
    rewrite (F x), (F y), (F z) by (cbn; auto). reflexivity.
Qed.

Lemma mk_cubic : forall conv ca x y z u v w, nonzero [x; y; z] -> nonzero [u; v; w] ->
  mk_slip_system conv [x; y; z] [u; v; w] "cubic" ca =
  Ok (SS [x; y; z] [u; v; w] (unit_of (vZ x y z)) (unit_of (vZ u v w)) "cubic" None).
Proof.
  intros conv ca x y z u v w Hp Hd. unfold mk_slip_system. cbn [String.eqb Ascii.eqb Bool.eqb map vec_of bind].
  fold (vZ x y z) (vZ u v w).
  rewrite (vunit_Ok (vZ x y z)) by (apply vZ_nonzero; auto). cbn [bind].
  rewrite (vunit_Ok (vZ u v w)) by (apply vZ_nonzero; auto). reflexivity.
Qed.

Lemma mk_cubic_inv : forall conv ca p d s, mk_slip_system conv p d "cubic" ca = Ok s ->
  exists x y z u v w, p = [x; y; z] /\ d = [u; v; w] /\ nonzero p /\ nonzero d /\
    s = SS p d (unit_of (vZ x y z)) (unit_of (vZ u v w)) "cubic" None.
Proof.
  intros conv ca p d s H. pose proof (mk_nonzero _ _ _ _ _ _ H) as (_ & _ & Np & Nd).
  destruct p as [|x [|y [|z [|]]]]; try (cbn in H; discriminate).
  destruct d as [|u [|v [|w [|]]]];
    try (unfold mk_slip_system in H; cbn [String.eqb Ascii.eqb Bool.eqb map vec_of bind] in H;
         destruct (vunit _) in H; discriminate).
  exists x, y, z, u, v, w. rewrite mk_cubic in H by auto. injection H as <-. auto.
Qed.

Lemma inv_left_nonzero : forall a b v, mprod a b = mone -> v <> V3 0 0 0 -> mapply b v <> V3 0 0 0.
Proof.
  intros a b v H N E. apply N. rewrite <- (mapply_one v), <- H.
  rewrite mapply_mprod, E. destruct a as [[a0 b0 c0] [d e f] [g h i]]; munf. f_equal; ring.
Qed.

Lemma transpose_mprod : forall a b, transpose (mprod a b) = mprod (transpose b) (transpose a).
Proof. intros [[a b c] [d e f] [g h i]] [[a' b' c'] [d' e' f'] [g' h' i']]. munf. f_equal; f_equal; ring. Qed.
Lemma transpose_transpose : forall a, transpose (transpose a) = a.
Proof. intros [[] [] []]. reflexivity. Qed.

Lemma dual_nonzero : forall l q v, mprod (transpose q) l = mone -> v <> V3 0 0 0 ->
  mapply l v <> V3 0 0 0 /\ mapply q v <> V3 0 0 0.
Proof.
  intros l q v H N. split.
  - eapply inv_left_nonzero; eauto.
  - apply (inv_left_nonzero (transpose l) q v); auto.
    rewrite <- (transpose_transpose q), <- transpose_mprod, H. reflexivity.
Qed.

Lemma mk_hex : forall conv ca l q h k i m u v t w,
  hex_matrices ca conv = Ok (l, q) -> mprod (transpose q) l = mone ->
  nonzero [h; k; m] -> nonzero [u - t; v - t; w]%Z ->
  mk_slip_system conv [h; k; i; m] [u; v; t; w] "hexagonal" (Some ca) =
  Ok (SS [h; k; i; m] [u; v; t; w] (unit_of (mapply q (vZ h k m)))
         (unit_of (mapply l (vZ (u - t) (v - t) w))) "hexagonal" (Some ca)).
Proof.
  intros conv ca l q h k i m u v t w HM HD Hp Hd. unfold mk_slip_system.
  cbn [String.eqb Ascii.eqb Bool.eqb].
  change (convert_idc "mb" None (Some (IntArr [h; k; i; m]))) with (@Ok arr (IntArr [h; k; m])).
  change (convert_idc "mb" (Some (IntArr [u; v; t; w])) None)
    with (@Ok arr (IntArr [u - t; v - t; w]%Z)).
  cbn [bind]. rewrite HM. cbn [bind arr_R map vec_of]. fold (vZ h k m) (vZ (u - t) (v - t) w).
  apply vZ_nonzero in Hp, Hd. rewrite !matmul_mapply.
  rewrite (vunit_Ok (mapply q _)) by (apply (dual_nonzero l q _ HD Hp)). cbn [bind].
  rewrite (vunit_Ok (mapply l _)) by (apply (dual_nonzero l q _ HD Hd)). reflexivity.
Qed.

Lemma mk_hex_inv : forall conv ca l q p d s,
  hex_matrices ca conv = Ok (l, q) -> mprod (transpose q) l = mone ->
  mk_slip_system conv p d "hexagonal" (Some ca) = Ok s ->
  exists h k i m u v t w, p = [h; k; i; m] /\ d = [u; v; t; w] /\
    nonzero [h; k; m] /\ nonzero [u - t; v - t; w]%Z /\
    s = SS p d (unit_of (mapply q (vZ h k m)))
          (unit_of (mapply l (vZ (u - t) (v - t) w))) "hexagonal" (Some ca).
Proof.
  intros conv ca l q p d s HM HD H.
  assert (Hx := H). unfold mk_slip_system in H. cbn [String.eqb Ascii.eqb Bool.eqb] in H.
  destruct p as [|h [|k [|i [|m [|]]]]]; try (cbn in H; discriminate).
  change (convert_idc "mb" None (Some (IntArr [h; k; i; m]))) with (@Ok arr (IntArr [h; k; m])) in H.
  cbn [bind] in H.
  destruct d as [|u [|v [|t [|w [|]]]]]; try (cbn in H; discriminate).
  change (convert_idc "mb" (Some (IntArr [u; v; t; w])) None)
    with (@Ok arr (IntArr [u - t; v - t; w]%Z)) in H.
  cbn [bind] in H. rewrite HM in H. cbn [bind arr_R map vec_of] in H.
  fold (vZ h k m) (vZ (u - t) (v - t) w) in H. rewrite !matmul_mapply in H.
  assert (Np : nonzero [h; k; m]).
  { apply vZ_nonzero. intros E. rewrite E in H.
    rewrite <- matmul_mapply, matmul_zero in H.
    destruct (vunit (V3 0 0 0)) eqn:U; [|cbn [bind] in H; discriminate H]. apply vunit_nonzero in U; congruence. }
  assert (Nd : nonzero [u - t; v - t; w]%Z).
  { apply vZ_nonzero. intros E. rewrite E in H.
    destruct (vunit (mapply q (vZ h k m))); [|cbn [bind] in H; discriminate H]. cbn [bind] in H.
    rewrite matmul_zero in H.
    destruct (vunit (V3 0 0 0)) eqn:U; [|cbn [bind] in H; discriminate H]. apply vunit_nonzero in U; congruence. }
  exists h, k, i, m, u, v, t, w. rewrite (mk_hex conv ca l q) in Hx by auto.
  injection Hx as <-. auto.
Qed.

(** ** Orthogonality from the indices *)
Lemma sprod_vZ : forall x y z u v w, sprod (vZ x y z) (vZ u v w) = IZR (x * u + y * v + z * w).
Proof. intros; unfold sprod, vZ; cbn [vx vy vz]. rewrite !plus_IZR, !mult_IZR. auto. Qed.

Lemma cubic_vectors : forall conv ca p d s, mk_slip_system conv p d "cubic" ca = Ok s ->
  unitv (slip_plane s) /\ unitv (slip_dir s) /\
  (sprod (slip_plane s) (slip_dir s) = 0 <-> idot p d = 0%Z).
Proof.
  intros conv ca p d s H.
  destruct (mk_cubic_inv _ _ _ _ _ H) as (x & y & z & u & v & w & -> & -> & Np & Nd & ->).
  apply vZ_nonzero in Np, Nd. cbn [slip_plane slip_dir].
  split; [apply unit_of_unit; auto|]. split; [apply unit_of_unit; auto|].
  rewrite sprod_unit_of, sprod_vZ by auto. cbn [idot].
  replace (x * u + (y * v + (z * w + 0)))%Z with (x * u + y * v + z * w)%Z by lia.
  split; [apply eq_IZR|intros ->; auto].
Qed.

Lemma hex_vectors : forall conv ca h k i m d s, known_conv conv -> 1 / 10 ^ 10 <= ca ->
  (h + k + i = 0)%Z ->
  mk_slip_system conv [h; k; i; m] d "hexagonal" (Some ca) = Ok s ->
  unitv (slip_plane s) /\ unitv (slip_dir s) /\
  (sprod (slip_plane s) (slip_dir s) = 0 <-> idot [h; k; i; m] d = 0%Z).
Proof.
  intros conv ca h k i m d s Hc Hca Hr H.
  destruct (hex_matrices_spec ca conv Hc Hca) as (l & q & HM & _ & HD & _).
  destruct (mk_hex_inv _ _ _ _ _ _ _ HM HD H) as
    (h' & k' & i' & m' & u & v & t & w & E & -> & Np & Nd & ->).
  injection E as <- <- <- <-. apply vZ_nonzero in Np, Nd. cbn [slip_plane slip_dir].
  pose proof (proj2 (dual_nonzero l q _ HD Np)) as Zp.
  pose proof (proj1 (dual_nonzero l q _ HD Nd)) as Zd.
  split; [apply unit_of_unit; auto|]. split; [apply unit_of_unit; auto|].
  rewrite sprod_unit_of by auto.
  rewrite dual_sprod, sprod_vZ by auto. cbn [idot].
  replace (h * u + (k * v + (i * t + (m * w + 0))))%Z
    with (h * (u - t) + k * (v - t) + m * w)%Z by nia.
  split; [apply eq_IZR|intros ->; auto].
Qed.

(** ** Loading a table *)
Definition row_plane (n : nat) (row : list Z) := firstn n row.
Definition row_dir (n : nat) (row : list Z) := firstn n (skipn n row).

Lemma for_each_build : forall A B (f : A -> res B) (l : list A) acc,
  (forall a, In a l -> exists b, f a = Ok b) ->
  exists bs, for_each (fun acc a => do b <- f a; Ok (acc ++ [b])) l acc = Ok (acc ++ bs) /\
    Forall2 (fun a b => f a = Ok b) l bs.
Proof.
  intros A B f l; induction l as [|a l IH]; intros acc H; cbn.
  - exists []. rewrite app_nil_r. auto.
  - destruct (H a (or_introl eq_refl)) as (b & E). rewrite E. cbn [bind].
    destruct (IH (acc ++ [b])) as (bs & E' & F); [intros; apply H; right; auto|].
    exists (b :: bs). split; [rewrite E', <- app_assoc; auto|]. constructor; auto.
Qed.

Definition sized (structure : string) : nat := if String.eqb structure "hexagonal" then 4 else 3.

Lemma load_spec : forall conv f st ca,
  (2 <= length (ss_rows f))%nat ->
  (forall row, In row (ss_rows f) -> length row = (2 * sized st)%nat /\
     exists s, mk_slip_system conv (row_plane (sized st) row) (row_dir (sized st) row) st ca = Ok s) ->
  exists ss gs, load conv f st ca = Ok (gs, ss_colours f) /\ group_by_plane ss = Ok gs /\
    Forall2 (fun row s => mk_slip_system conv (row_plane (sized st) row) (row_dir (sized st) row) st ca = Ok s)
      (ss_rows f) ss.
Proof.
  intros conv f st ca Hlen H. unfold load. fold (sized st).
  destruct (ss_rows f) as [|r1 [|r2 rows]] eqn:ER; cbn [length] in Hlen; try lia.
  destruct (H r1 (or_introl eq_refl)) as [L1 _]. rewrite L1, Nat.eqb_refl. cbn [negb].
  destruct (for_each_build _ _ (fun row => mk_slip_system conv (row_plane (sized st) row)
     (row_dir (sized st) row) st ca) (r1 :: r2 :: rows) []) as (ss & E & F).
  { intros a Ha. apply H; auto. }
  cbv beta in E.
  change (for_each _ _ _) with (for_each (fun acc a =>
    do b <- mk_slip_system conv (row_plane (sized st) a) (row_dir (sized st) a) st ca;
    Ok (acc ++ [b])) (r1 :: r2 :: rows) []).
  rewrite E. cbn [bind app].
  destruct ss as [|s ss]; [inversion F|].
  assert (G : exists gs, group_by_plane (s :: ss) = Ok gs) by (cbn; eauto).
  destruct G as (gs & G).
  exists (s :: ss), gs. unfold group. replace (String.eqb (lower "plane") "plane") with true by reflexivity.
  rewrite G. cbn [bind fst snd]. auto.
Qed.

(** What is checked of a row by computation. *)
Definition zero_listb (l : list Z) : bool := forallb (fun x => (x =? 0)%Z) l.
Lemma zero_listb_false : forall l, zero_listb l = false -> nonzero l.
Proof.
  induction l as [|x l IH]; cbn; [discriminate|]. destruct (Z.eqb_spec x 0); cbn.
  - intros H. destruct (IH H) as (y & A & B). exists y; split; [right|]; auto.
  - intros _. exists x; split; [left|]; auto.
Qed.

Definition cubic_row_ok (row : list Z) : bool :=
  match row with
  | [x; y; z; u; v; w] => negb (zero_listb [x; y; z]) && negb (zero_listb [u; v; w])
  | _ => false
  end.
Definition hex_row_ok (row : list Z) : bool :=
  match row with
  | [h; k; i; m; u; v; t; w] =>
      negb (zero_listb [h; k; m]) && negb (zero_listb [u - t; v - t; w]%Z) &&
      (h + k + i =? 0)%Z && (u + v + t =? 0)%Z
  | _ => false
  end.

Lemma cubic_load : forall conv f, (2 <= length (ss_rows f))%nat ->
  forallb cubic_row_ok (ss_rows f) = true ->
  exists ss gs, load conv f "cubic" None = Ok (gs, ss_colours f) /\ group_by_plane ss = Ok gs /\
    Forall2 (fun row s => mk_slip_system conv (row_plane 3 row) (row_dir 3 row) "cubic" None = Ok s)
      (ss_rows f) ss.
Proof.
  intros conv f Hl H. apply (load_spec conv f "cubic" None); auto.
  intros row Hr. rewrite forallb_forall in H. specialize (H row Hr).
  destruct row as [|x [|y [|z [|u [|v [|w [|]]]]]]]; try discriminate H.
  cbn in H. apply andb_true_iff in H as [A B]. apply negb_true_iff in A, B.
  split; [reflexivity|]. eexists. apply mk_cubic; apply zero_listb_false; auto.
Qed.

Lemma hex_load : forall conv ca f, known_conv conv -> 1 / 10 ^ 10 <= ca ->
  (2 <= length (ss_rows f))%nat -> forallb hex_row_ok (ss_rows f) = true ->
  exists ss gs, load conv f "hexagonal" (Some ca) = Ok (gs, ss_colours f) /\ group_by_plane ss = Ok gs /\
    Forall2 (fun row s => mk_slip_system conv (row_plane 4 row) (row_dir 4 row) "hexagonal" (Some ca) = Ok s)
      (ss_rows f) ss.
Proof.
  intros conv ca f Hc Hca Hl H. apply (load_spec conv f "hexagonal" (Some ca)); auto.
  destruct (hex_matrices_spec ca conv Hc Hca) as (l & q & HM & _ & HD & _).
  intros row Hr. rewrite forallb_forall in H. specialize (H row Hr).
  destruct row as [|h [|k [|i [|m [|u [|v [|t [|w [|]]]]]]]]]; try discriminate H.
  cbn -[Z.sub Z.add Z.eqb] in H. rewrite !andb_true_iff in H. destruct H as [[[A B] C] D].
  apply negb_true_iff in A, B.
  split; [reflexivity|]. eexists. apply (mk_hex conv ca l q); auto; apply zero_listb_false; auto.
Qed.

(** Number of groups, by computation on the indices. *)
Definition zplane_eqb (a b : list Z) : bool := idc_eqb (pos_idc a) (pos_idc b).
Definition zgroups (l : list (list Z)) : list (list (list Z)) :=
  match l with
  | [] => []
  | p :: l => fold_groups zplane_eqb l [[p]]
  end.

Lemma add_to_group_map : forall A B (f : A -> B) (same : A -> bool) (same' : B -> bool) x gs,
  (forall y, same y = same' (f y)) ->
  map (map f) (add_to_group same x gs) = add_to_group same' (f x) (map (map f) gs).
Proof.
  intros A B f same same' x gs H; induction gs as [|g gs IH]; cbn; auto.
  destruct g as [|y t]; cbn [map]; [rewrite IH; auto|]. rewrite <- H.
  destruct (same y); cbn [map]; [rewrite map_app; auto|]. rewrite IH; auto.
Qed.

Lemma fold_groups_map : forall A B (f : A -> B) same same' l gs,
  (forall x y, same x y = same' (f x) (f y)) ->
  map (map f) (fold_groups same l gs) = fold_groups same' (map f l) (map (map f) gs).
Proof.
  intros A B f same same' l; induction l as [|x l IH]; intros gs H; cbn; auto.
  rewrite <- (add_to_group_map _ _ f (same x) (same' (f x)) x gs) by auto. apply IH; auto.
Qed.

Lemma group_planes : forall ss gs, group_by_plane ss = Ok gs ->
  map (map plane_idc) gs = zgroups (map plane_idc ss).
Proof.
  intros ss gs H. destruct ss as [|s ss]; [discriminate|]. cbn in H. injection H as <-.
  cbn [map zgroups].
  apply (fold_groups_map _ _ plane_idc plane_eqb zplane_eqb ss [[s]]). reflexivity.
Qed.

Lemma Forall2_planes : forall conv st ca n rows ss,
  Forall2 (fun row s => mk_slip_system conv (row_plane n row) (row_dir n row) st ca = Ok s) rows ss ->
  map plane_idc ss = map (row_plane n) rows /\ map dir_idc ss = map (row_dir n) rows.
Proof.
  intros conv st ca n rows ss F; induction F as [|row s rows ss H F IH]; cbn; auto.
  destruct IH as [-> ->]. apply mk_nonzero in H as (-> & -> & _). auto.
Qed.
