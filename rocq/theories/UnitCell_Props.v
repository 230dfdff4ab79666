From Coq Require Import String Reals List ZArith Bool Lra Lia.
Import ListNotations.
From Verif Require Import Py Base_Model Base_Proofs Quat_Model Quat_Spec Quat_Proofs QuatEuler_Proofs QuatSym_Proofs Crystal_Model CrystalMat_Proofs UnitCell_Model UnitCell_Spec UnitCell_Proofs.
Open Scope R_scope.

(** ** C112: the unit cell drawn is the crystal's cell in its orientation *)

Lemma back : forall q v, unitq q -> mapply (rot_matrix q) (mapply (transpose (rot_matrix q)) v) = v.
Proof. intros q v U. rewrite <- mapply_mprod, (rot_orth q U). apply mapply_one. Qed.
Lemma back_corner : forall q name oi v, unitq q -> mapply (rot_matrix q) (corner q name oi v) = scaled (size_of name) (turn_of name oi v).
Proof. intros q name oi v U. unfold corner. rewrite mapply_scaled, back by exact U. reflexivity. Qed.
Lemma drawn_ok : forall q c oi, unitq q -> c_name c = "hexagonal"%string \/ c_name c = "cubic"%string -> well_indexed c ->
  exists fs, plot_unit_cell q c oi = Ok fs /\ drawn_cell q c (size_of (c_name c)) (turn_of (c_name c) oi) fs.
Proof.
  intros q c oi U N W. eexists. split; [apply (cell_ok q c oi U N W)|]. unfold drawn_cell. unfold well_indexed in W.
  induction W as [|f fs F W IH]; cbn [map]; constructor; [|exact IH].
  clear - F U. induction F as [|i f I F IH]; cbn [map]; constructor; [|exact IH].
  exists (nth i (c_vertices c) (V3 0 0 0)). split; [now apply nth_error_nth'|]. now apply back_corner.
Qed.
(** For every orientation, what is drawn are the faces of the crystal's cell, its corners at
    the vertices of the cell in crystal coordinates, all made smaller alike.  The hexagonal
    cell is turned by 30 degrees about c unless asked otherwise. *)
Theorem C112_cubic : forall q oi, unitq q ->
  exists fs, plot_unit_cell q cubic_cell oi = Ok fs /\ drawn_cell q cubic_cell 0.25 (fun v => v) fs.
Proof. intros q oi U. exact (drawn_ok q cubic_cell oi U (or_intror eq_refl) wi_cubic). Qed.
Print Assumptions C112_cubic.
Theorem C112_hexagonal : forall q, unitq q ->
  (exists fs, plot_unit_cell q hexagonal_cell true = Ok fs /\ drawn_cell q hexagonal_cell 0.18 (turn_z (PI / 6)) fs) /\
  (exists fs, plot_unit_cell q hexagonal_cell false = Ok fs /\ drawn_cell q hexagonal_cell 0.18 (fun v => v) fs).
Proof. intros q U. split; [exact (drawn_ok q hexagonal_cell true U (or_introl eq_refl) wi_hex)|exact (drawn_ok q hexagonal_cell false U (or_introl eq_refl) wi_hex)]. Qed.
Print Assumptions C112_hexagonal.
Example C112_met : unitq (Q4 (3 / 5) 0 (4 / 5) 0).
Proof. unfold unitq. cbn. lra. Qed.

(** The drawn cell is similar to the cell: all distances between corners are made smaller
    by the same factor. *)
Lemma dist_scaled : forall k u v, dist2 (scaled k u) (scaled k v) = k * k * dist2 u v.
Proof. intros k [a b c] [d e f]. unfold dist2, minus, scaled, sprod. cbn [vx vy vz]. ring. Qed.
Lemma dist_rot : forall q u v, unitq q -> dist2 (mapply (rot_matrix q) u) (mapply (rot_matrix q) v) = dist2 u v.
Proof.
  intros q u v U. unfold dist2. rewrite <- (rot_sprod q (minus u v) (minus u v) U).
  assert (E : minus (mapply (rot_matrix q) u) (mapply (rot_matrix q) v) = mapply (rot_matrix q) (minus u v)).
  { destruct (rot_matrix q) as [[a b c] [d e f] [g h i]], u as [x y z], v as [x' y' z']. unfold minus, mapply, sprod. cbn [vx vy vz r0 r1 r2]. f_equal; ring. }
  rewrite E. reflexivity.
Qed.
Lemma dist_turn : forall t u v, dist2 (turn_z t u) (turn_z t v) = dist2 u v.
Proof.
  intros t [x y z] [x' y' z']. unfold dist2, minus, turn_z, sprod. cbn [vx vy vz]. pose proof (cs1 t) as C.
  transitivity ((cos t * cos t + sin t * sin t) * ((x - x') * (x - x') + (y - y') * (y - y')) + (z - z') * (z - z')); [ring|]. rewrite C. ring.
Qed.
Theorem C112_similar : forall q c k turn fs, unitq q -> turn = (fun v => v) \/ turn = turn_z (PI / 6) -> drawn_cell q c k turn fs ->
  forall a b f g F G i j p p', nth_error fs a = Some f -> nth_error (c_faces c) a = Some F -> nth_error f i = Some p ->
    nth_error fs b = Some g -> nth_error (c_faces c) b = Some G -> nth_error g j = Some p' ->
  exists m n u v, nth_error F i = Some m /\ nth_error G j = Some n /\ nth_error (c_vertices c) m = Some u /\ nth_error (c_vertices c) n = Some v /\
    dist2 p p' = k * k * dist2 u v.
Proof.
  intros q c k turn fs U T D a b f g F G i j p p' Nf NF Np Ng NG Np'.
  assert (A : forall A B (R : A -> B -> Prop) l l' n x y, Forall2 R l l' -> nth_error l n = Some x -> nth_error l' n = Some y -> R x y).
  { clear. intros A B R l l' n x y H. revert n. induction H as [|x' y' l l' Rxy H IH]; intros [|n] X Y; cbn [nth_error] in *; try discriminate; [congruence|eauto]. }
  assert (B : forall A B (R : A -> B -> Prop) l l' n x, Forall2 R l l' -> nth_error l n = Some x -> exists y, nth_error l' n = Some y /\ R x y).
  { clear. intros A B R l l' n x H. revert n. induction H as [|x' y' l l' Rxy H IH]; intros [|n] X; cbn [nth_error] in *; try discriminate; [injection X as <-; eauto|eauto]. }
  pose proof (A _ _ _ _ _ a f F D Nf NF) as D1. pose proof (A _ _ _ _ _ b g G D Ng NG) as D2. cbv beta in D1, D2.
  destruct (B _ _ _ _ _ i p D1 Np) as (m & Nm & u & Nu & Eu). destruct (B _ _ _ _ _ j p' D2 Np') as (n & Nn & v & Nv & Ev).
  exists m, n, u, v. repeat (split; [assumption|]). rewrite <- (dist_rot q p p' U), Eu, Ev, dist_scaled. f_equal.
  destruct T as [->| ->]; [reflexivity|apply dist_turn].
Qed.
Print Assumptions C112_similar.

(** ** Symmetry *)
Definition inclb (l l' : list nat) : bool := forallb (fun a => existsb (Nat.eqb a) l') l.
Lemma inclb_ok : forall l l', inclb l l' = true -> incl l l'.
Proof. intros l l' H a I. unfold inclb in H. rewrite forallb_forall in H. specialize (H a I). apply existsb_exists in H as (b & B & E). apply Nat.eqb_eq in E. now subst. Qed.
Definition face_match (pm : list nat) (f g : list nat) : bool :=
  let f' := map (fun i => nth i pm 0%nat) f in inclb f' g && inclb g f'.
Definition faces_match (faces : list (list nat)) (pm : list nat) : bool :=
  forallb (fun f => existsb (face_match pm f) faces) faces && forallb (fun g => existsb (fun f => face_match pm f g) faces) faces.
Lemma cubic_match : forallb (faces_match (c_faces cubic_cell)) cubic_perms = true.
Proof. vm_compute. reflexivity. Qed.
Lemma hex_match : forallb (faces_match (c_faces hexagonal_cell)) hex_perms = true.
Proof. vm_compute. reflexivity. Qed.
Lemma hex_oi_match : forallb (faces_match (c_faces hexagonal_cell)) hex_oi_perms = true.
Proof. vm_compute. reflexivity. Qed.

Lemma symmetric : forall c oi syms perms q p, unitq q -> c_name c = "hexagonal"%string \/ c_name c = "cubic"%string -> well_indexed c ->
  (forall s, In s syms -> unitq s) -> Forall2 (permutes (turn_of (c_name c) oi) (c_vertices c)) syms perms ->
  forallb (faces_match (c_faces c)) perms = true -> equivalent syms q p ->
  exists fs gs, plot_unit_cell p c oi = Ok fs /\ plot_unit_cell q c oi = Ok gs /\ same_picture fs gs.
Proof.
  intros c oi syms perms q p U N W US PM FM (s & I & SR).
  assert (UP : unitq p) by (apply (same_rot_unit _ _ SR); apply unitq_hprod; [now apply US|exact U]).
  exists (map (fun f => map (fun i => corner p (c_name c) oi (nth i (c_vertices c) (V3 0 0 0))) f) (c_faces c)),
         (map (fun f => map (fun i => corner q (c_name c) oi (nth i (c_vertices c) (V3 0 0 0))) f) (c_faces c)).
  split; [now apply cell_ok|]. split; [now apply cell_ok|].
  assert (X : exists pm, In pm perms /\ permutes (turn_of (c_name c) oi) (c_vertices c) s pm).
  { clear - PM I. induction PM as [|s' pm l l' P PM IH]; [contradiction|]. destruct I as [->|I]; [exists pm; split; [now left|exact P]|].
    destruct (IH I) as (pm' & A & B). exists pm'. split; [now right|exact B]. }
  destruct X as (pm & Ipm & P). rewrite forallb_forall in FM. specialize (FM pm Ipm). unfold faces_match in FM. apply andb_true_iff in FM as (F1 & F2).
  rewrite forallb_forall in F1, F2.
  set (cp := fun i => corner p (c_name c) oi (nth i (c_vertices c) (V3 0 0 0))). set (cq := fun i => corner q (c_name c) oi (nth i (c_vertices c) (V3 0 0 0))).
  assert (K : forall i, (i < List.length (c_vertices c))%nat -> cp i = cq (nth i pm 0%nat)).
  { intros i Hi. unfold cp, cq, corner. rewrite (rot_same _ _ SR), rot_hprod, transpose_mprod, mapply_mprod, (P i Hi). reflexivity. }
  assert (Z : forall f g, In f (c_faces c) -> face_match pm f g = true -> same_points (map cp f) (map cq g)).
  { intros f g If M. unfold face_match in M. apply andb_true_iff in M as (M1 & M2). apply inclb_ok in M1, M2.
    assert (Wf : Forall (fun i => (i < List.length (c_vertices c))%nat) f) by (unfold well_indexed in W; rewrite Forall_forall in W; now apply W).
    rewrite Forall_forall in Wf. intros x. split; intros H; apply in_map_iff in H as (i & <- & Hi).
    - rewrite (K i (Wf i Hi)). apply in_map. apply M1. apply in_map_iff. eauto.
    - specialize (M2 i Hi). apply in_map_iff in M2 as (j & <- & Hj). rewrite <- (K j (Wf j Hj)). now apply in_map. }
  split.
  - intros f' H. apply in_map_iff in H as (f & <- & If). specialize (F1 f If). apply existsb_exists in F1 as (g & Ig & M).
    exists (map cq g). split; [apply in_map_iff; eauto|now apply Z].
  - intros g' H. apply in_map_iff in H as (g & <- & Ig). specialize (F2 g Ig). apply existsb_exists in F2 as (f & If & M).
    exists (map cp f). split; [apply in_map_iff; eauto|now apply Z].
Qed.
(** Symmetrically equivalent orientations have the same picture. *)
Lemma cubic_units : forall s, In s cubic_symmetries -> unitq s.
Proof. apply cubic_group. Qed.
Lemma hex_units : forall s, In s hexagonal_symmetries -> unitq s.
Proof. apply hex_group. Qed.
Theorem C112_symmetric : forall oi q p, unitq q ->
  (equivalent cubic_symmetries q p ->
   exists fs gs, plot_unit_cell p cubic_cell oi = Ok fs /\ plot_unit_cell q cubic_cell oi = Ok gs /\ same_picture fs gs) /\
  (equivalent hexagonal_symmetries q p ->
   exists fs gs, plot_unit_cell p hexagonal_cell oi = Ok fs /\ plot_unit_cell q hexagonal_cell oi = Ok gs /\ same_picture fs gs).
Proof.
  intros oi q p U. split; intros E.
  - apply (symmetric cubic_cell oi cubic_symmetries cubic_perms q p U); auto using wi_cubic, cubic_units, cubic_match. apply cubic_permutes.
  - destruct oi.
    + apply (symmetric hexagonal_cell true hexagonal_symmetries hex_oi_perms q p U); auto using wi_hex, hex_units, hex_oi_match. apply hex_oi_permutes.
    + apply (symmetric hexagonal_cell false hexagonal_symmetries hex_perms q p U); auto using wi_hex, hex_units, hex_match. apply hex_permutes.
Qed.
Print Assumptions C112_symmetric.

(** ** The surface is closed: its edges are the sides of two faces each *)
Definition pair_eqb (x y : nat * nat) : bool := Nat.eqb (fst x) (fst y) && Nat.eqb (snd x) (snd y).
Definition edgeb (a b : nat) (f : list nat) : bool := existsb (pair_eqb (a, b)) (edges f) || existsb (pair_eqb (b, a)) (edges f).
Lemma pair_eqb_ok : forall x y, pair_eqb x y = true <-> x = y.
Proof. intros [a b] [c d]. unfold pair_eqb. cbn [fst snd]. rewrite andb_true_iff, !Nat.eqb_eq. split; [intros [-> ->]; reflexivity|intros E; injection E as -> ->; auto]. Qed.
Lemma edgeb_ok : forall a b f, edgeb a b f = true <-> edge_of f a b.
Proof.
  intros a b f. unfold edgeb, edge_of. rewrite orb_true_iff, !existsb_exists.
  assert (K : forall x l, (exists y, In y l /\ pair_eqb x y = true) <-> In x l).
  { intros x l. split; [intros (y & I & E); apply pair_eqb_ok in E; now subst|intros I; exists x; split; [exact I|now apply pair_eqb_ok]]. }
  rewrite !K. reflexivity.
Qed.
Definition closedb (faces : list (list nat)) : bool :=
  forallb (fun f => forallb (fun e => Nat.eqb (List.length (filter (edgeb (fst e) (snd e)) faces)) 2) (edges f)) faces.
Lemma closed_ok : forall faces, NoDup faces -> closedb faces = true -> forall f a b, In f faces -> edge_of f a b ->
  exists g, In g faces /\ g <> f /\ edge_of g a b /\ forall g', In g' faces -> edge_of g' a b -> g' = f \/ g' = g.
Proof.
  intros faces ND C f a b I E. unfold closedb in C. rewrite forallb_forall in C. specialize (C f I). rewrite forallb_forall in C.
  assert (SY : forall h, edgeb a b h = edgeb b a h) by (intros h; unfold edgeb; apply orb_comm).
  assert (L : List.length (filter (edgeb a b) faces) = 2%nat).
  { destruct E as [E|E]; apply C in E; cbn [fst snd] in E; apply Nat.eqb_eq in E; [exact E|]. now rewrite (filter_ext _ _ SY). }
  assert (Q : forall h, In h (filter (edgeb a b) faces) <-> In h faces /\ edge_of h a b) by (intros h; rewrite filter_In, edgeb_ok; reflexivity).
  pose proof (NoDup_filter (edgeb a b) ND) as NF. destruct (filter (edgeb a b) faces) as [|x [|y [|z r]]]; try discriminate L.
  inversion NF as [|? ? Nx _]; subst. assert (XY : x <> y) by (intros ->; apply Nx; now left).
  assert (IF : In f [x; y]) by (apply Q; auto). destruct (proj1 (Q x) (or_introl eq_refl)) as (Ix & Ex). destruct (proj1 (Q y) (or_intror (or_introl eq_refl))) as (Iy & Ey).
  destruct IF as [<-|[<-|[]]]; [exists y|exists x]; repeat split; auto; intros g' Ig Eg; assert (IG : In g' [x; y]) by (apply Q; auto);
    destruct IG as [<-|[<-|[]]]; auto.
Qed.
Theorem C112_closed : forall c, c = cubic_cell \/ c = hexagonal_cell -> forall f a b, In f (c_faces c) -> edge_of f a b ->
  exists g, In g (c_faces c) /\ g <> f /\ edge_of g a b /\ forall g', In g' (c_faces c) -> edge_of g' a b -> g' = f \/ g' = g.
Proof.
  intros c Hc. apply closed_ok.
  - destruct Hc as [->| ->]; cbn [c_faces cubic_cell hexagonal_cell]; repeat (constructor; [cbn [In]; intros H; repeat (destruct H as [H|H]; [discriminate H|]); contradiction|]); constructor.
  - destruct Hc as [->| ->]; vm_compute; reflexivity.
Qed.
Print Assumptions C112_closed.
(** The sides of the faces are the sides of a cube of side 1, or those of a hexagonal prism of
    side 1 and height 1.633. *)
Theorem C112_sides : forall f a b,
  (In f (c_faces cubic_cell) -> edge_of f a b -> exists u v, nth_error (c_vertices cubic_cell) a = Some u /\ nth_error (c_vertices cubic_cell) b = Some v /\ dist2 u v = 1) /\
  (In f (c_faces hexagonal_cell) -> edge_of f a b -> exists u v, nth_error (c_vertices hexagonal_cell) a = Some u /\ nth_error (c_vertices hexagonal_cell) b = Some v /\
     (dist2 u v = 1 /\ vz u = vz v \/ dist2 u v = 1.633 * 1.633 /\ vx u = vx v /\ vy u = vy v)).
Proof.
  intros f a b. pose proof s3s as R3. split; intros I E; cbn [c_faces cubic_cell hexagonal_cell In] in I;
    repeat (destruct I as [I|I]; [subst f; unfold edge_of, edges in E; cbn [combine tl firstn app In] in E;
      destruct E as [E|E]; repeat (destruct E as [E|E]; [injection E as <- <-; eexists; eexists; split; [reflexivity|]; split; [reflexivity|];
        unfold dist2, minus, sprod, plot_c_over_a; cbn [vx vy vz]; first [lra|left; split; lra|right; repeat split; lra]|]); contradiction|]); contradiction.
Qed.
Print Assumptions C112_sides.

(** ** The hexagonal cell and the lattice *)
Lemma all_corners : forall q oi (P : vec3 -> Prop), unitq q ->
  (forall i, (i < 12)%nat -> P (scaled 0.18 (turn_of "hexagonal" oi (nth i (c_vertices hexagonal_cell) (V3 0 0 0))))) ->
  exists fs, plot_unit_cell q hexagonal_cell oi = Ok fs /\ forall f p, In f fs -> In p f -> P (mapply (rot_matrix q) p).
Proof.
  intros q oi P U H. eexists. split; [apply (cell_ok q hexagonal_cell oi U (or_introl eq_refl) wi_hex)|]. intros f p F I.
  apply in_map_iff in F as (idx & <- & F). apply in_map_iff in I as (i & <- & I). rewrite back_corner by exact U. apply H.
  pose proof wi_hex as W. unfold well_indexed in W. rewrite Forall_forall in W. specialize (W idx F). rewrite Forall_forall in W. exact (W i I).
Qed.
Definition oi_idx : list (R * R) := [(1, 1); (0, 1); (-1, 0); (-1, -1); (0, -1); (1, 0)].
Definition tsl_idx : list (R * R) := [(1, 0); (1, 1); (0, 1); (-1, 0); (-1, -1); (0, -1)].
Lemma shortest_oi : forall m n, shortest m n <-> In (m, n) oi_idx.
Proof. intros m n. unfold shortest, oi_idx. cbn [In]. tauto. Qed.
Lemma shortest_tsl : forall m n, shortest m n <-> In (m, n) tsl_idx.
Proof. intros m n. unfold shortest, tsl_idx. cbn [In]. tauto. Qed.
Lemma hexL_val : forall conv ca l, 1 / 10 ^ 10 <= ca -> hexL conv ca l ->
  ((lower conv = "hkl"%string \/ lower conv = "oi"%string) /\ l = hexL_hkl ca) \/ (lower conv = "tsl"%string /\ l = hexL_tsl ca).
Proof.
  intros conv ca l C E. unfold hexL in E. assert (K : known_conv conv).
  { unfold known_conv. unfold create_l_matrix in E. destruct (String.eqb_spec (lower conv) "hkl"); [auto|]. destruct (String.eqb_spec (lower conv) "oi"); [auto|].
    destruct (String.eqb_spec (lower conv) "tsl"); [auto|]. discriminate E. }
  destruct (hex_create ca conv K C) as (l' & E' & D). rewrite E in E'. injection E' as <-. exact D.
Qed.
Lemma corner_lattice : forall oi conv l i, hexL conv 1.633 l -> fits oi conv -> (i < 12)%nat ->
  let mn := nth (i mod 6) (if oi then oi_idx else tsl_idx) (0, 0) in
  scaled 0.18 (turn_of "hexagonal" oi (nth i (c_vertices hexagonal_cell) (V3 0 0 0))) =
  scaled 0.18 (lattice_point l (fst mn) (snd mn) (if (i <? 6)%nat then -0.5 else 0.5)).
Proof.
  intros oi conv l i E F I. apply hexL_val in E; [|lra]. pose proof s3s as R3. assert (S3 : sqrt 3 = 2 * sqrt3over2) by (unfold sqrt3over2; lra).
  cbv zeta. f_equal. destruct F as [(-> & F)|(-> & F)]; destruct E as [(G & ->)|(G & ->)];
    try (exfalso; rewrite G in F; destruct F; discriminate); try (exfalso; destruct G as [G|G]; rewrite G in F; discriminate);
    unfold turn_of; cbn [String.eqb Ascii.eqb Bool.eqb]; do 12 (destruct i as [|i]; [cbn [Nat.modulo Nat.divmod fst snd Nat.sub nth Nat.ltb Nat.leb oi_idx tsl_idx c_vertices hexagonal_cell];
      unfold turn_z, lattice_point, mapply, hexL_hkl, hexL_tsl, sprod, plot_c_over_a; cbn [vx vy vz r0 r1 r2]; rewrite ?cos30, ?sin30, ?S3; f_equal; lra|]); lia.
Qed.
(** With the turn of the convention in use, the corners of the hexagonal cell are points of
    the lattice with the ideal ratio: the six shortest lattice vectors in the basal plane, half
    a cell below and above. *)
Theorem C112_lattice_partial : forall q oi conv l, unitq q -> hexL conv 1.633 l -> fits oi conv ->
  exists fs, plot_unit_cell q hexagonal_cell oi = Ok fs /\
    (forall f p, In f fs -> In p f -> exists m n h, shortest m n /\ (h = 0.5 \/ h = -0.5) /\
       mapply (rot_matrix q) p = scaled 0.18 (lattice_point l m n h)) /\
    (forall m n h, shortest m n -> h = 0.5 \/ h = -0.5 ->
       exists f p, In f fs /\ In p f /\ mapply (rot_matrix q) p = scaled 0.18 (lattice_point l m n h)).
Proof.
  intros q oi conv l U E F. destruct (all_corners q oi (fun p => exists m n h, shortest m n /\ (h = 0.5 \/ h = -0.5) /\ p = scaled 0.18 (lattice_point l m n h)) U) as (fs & P & A).
  { intros i I. pose proof (corner_lattice oi conv l i E F I) as C. cbv zeta in C.
    set (mn := nth (i mod 6) (if oi then oi_idx else tsl_idx) (0, 0)) in *. exists (fst mn), (snd mn), (if (i <? 6)%nat then -0.5 else 0.5).
    split; [|split; [destruct (i <? 6)%nat; auto|exact C]].
    assert (IN : In mn (if oi then oi_idx else tsl_idx)) by (apply nth_In; destruct oi; cbn [List.length oi_idx tsl_idx]; apply Nat.mod_upper_bound; lia).
    destruct mn as [m n]. cbn [fst snd]. destruct oi; [now apply shortest_oi|now apply shortest_tsl]. }
  exists fs. split; [exact P|]. split; [exact A|]. intros m n h SH H.
  assert (X : exists i, (i < 6)%nat /\ nth i (if oi then oi_idx else tsl_idx) (0, 0) = (m, n)).
  { assert (IN : In (m, n) (if oi then oi_idx else tsl_idx)) by (destruct oi; [now apply shortest_oi|now apply shortest_tsl]).
    destruct (In_nth _ _ (0, 0) IN) as (i & Hi & Ei). exists i. split; [destruct oi; exact Hi|exact Ei]. }
  destruct X as (i & Hi & Ei). set (j := (if Rle_dec 0 h then i + 6 else i)%nat).
  assert (J : (j < 12)%nat /\ (j mod 6 = i)%nat /\ (if (j <? 6)%nat then -0.5 else 0.5) = h /\ exists f, In f (firstn 2 (c_faces hexagonal_cell)) /\ In j f).
  { unfold j. destruct (Rle_dec 0 h) as [Q|Q].
    - assert (h = 0.5) by lra. subst h. split; [lia|]. split; [rewrite <- (Nat.mul_1_l 6) at 1; rewrite Nat.mod_add by lia; now apply Nat.mod_small|].
      split; [destruct (i + 6 <? 6)%nat eqn:K; [apply Nat.ltb_lt in K; lia|reflexivity]|].
      exists [6; 7; 8; 9; 10; 11]%nat. split; [right; now left|]. cbn [In]. lia.
    - assert (h = -0.5) by lra. subst h. split; [lia|]. split; [now apply Nat.mod_small|].
      split; [destruct (i <? 6)%nat eqn:K; [reflexivity|apply Nat.ltb_ge in K; lia]|].
      exists [0; 1; 2; 3; 4; 5]%nat. split; [now left|]. cbn [In]. lia. }
  destruct J as (J & JM & JH & f & Ff & If). pose proof (corner_lattice oi conv l j E F J) as C. cbv zeta in C. rewrite JM, Ei, JH in C. cbn [fst snd] in C.
  rewrite (cell_ok q hexagonal_cell oi U (or_introl eq_refl) wi_hex) in P. match type of P with Ok ?x = Ok _ => assert (EF : x = fs) by congruence end. rewrite <- EF.
  eexists. exists (corner q "hexagonal" oi (nth j (c_vertices hexagonal_cell) (V3 0 0 0))). split; [|split].
  - apply in_map_iff. exists f. split; [reflexivity|]. cbn [c_faces hexagonal_cell firstn In] in *. tauto.
  - apply in_map_iff. exists j. split; [reflexivity|exact If].
  - rewrite back_corner by exact U. exact C.
Qed.
Print Assumptions C112_lattice_partial.
Lemma C112_lattice_met : exists l, hexL "hkl" 1.633 l /\ fits true "hkl".
Proof.
  destruct (hex_create 1.633 "hkl") as (l & E & _); [now left|lra|]. exists l. split; [exact E|]. left. split; [reflexivity|now left].
Qed.
(** Drawn with the other turn, no corner is at such a point.  The turn is not chosen by the
    configured convention: the 30 degrees are added unless the caller says otherwise. *)
Theorem C112_convention_refuted : forall q oi conv l, unitq q -> hexL conv 1.633 l -> ~ fits oi conv ->
  exists fs, plot_unit_cell q hexagonal_cell oi = Ok fs /\
    forall f p, In f fs -> In p f -> forall m n h, shortest m n -> mapply (rot_matrix q) p <> scaled 0.18 (lattice_point l m n h).
Proof.
  intros q oi conv l U E F. apply (all_corners q oi (fun p => forall m n h, shortest m n -> p <> scaled 0.18 (lattice_point l m n h)) U).
  intros i I m n h SH C. apply hexL_val in E; [|lra]. assert (S3 : sqrt 3 = 2 * sqrt3over2) by (unfold sqrt3over2; lra).
  pose proof sqrt3_pos as B1. pose proof sqrt3_lt as B2. rewrite S3 in B1, B2. pose proof s3s as R3.
  assert (K : l = if oi then hexL_tsl 1.633 else hexL_hkl 1.633).
  { destruct oi; destruct E as [(G & ->)|(G & ->)]; try reflexivity; exfalso; apply F; [left|right]; auto. }
  subst l. assert (XY : vx (turn_of "hexagonal" oi (nth i (c_vertices hexagonal_cell) (V3 0 0 0))) = vx (lattice_point (if oi then hexL_tsl 1.633 else hexL_hkl 1.633) m n h) /\
    vy (turn_of "hexagonal" oi (nth i (c_vertices hexagonal_cell) (V3 0 0 0))) = vy (lattice_point (if oi then hexL_tsl 1.633 else hexL_hkl 1.633) m n h)).
  { pose proof (f_equal vx C) as C1. pose proof (f_equal vy C) as C2. unfold scaled in C1, C2. cbn [vx vy] in C1, C2. split; lra. }
  clear C. destruct XY as (X & Y). unfold shortest in SH. cbn [In] in SH.
  destruct oi; unfold turn_of in X, Y; cbn [String.eqb Ascii.eqb Bool.eqb] in X, Y; cbv iota in X, Y;
    unfold turn_z, lattice_point, mapply, hexL_hkl, hexL_tsl, sprod in X, Y; cbn [vx vy vz r0 r1 r2] in X, Y; rewrite ?cos30, ?sin30, ?S3 in X, Y;
    repeat (destruct SH as [SH|SH]; [injection SH as <- <-; do 12 (destruct i as [|i]; [cbn [nth c_vertices hexagonal_cell vx vy] in X, Y; lra|]); lia|]); contradiction.
Qed.
Print Assumptions C112_convention_refuted.
Lemma C112_convention_met : (exists l, hexL "tsl" 1.633 l /\ ~ fits true "tsl") /\ (exists l, hexL "hkl" 1.633 l /\ ~ fits false "hkl").
Proof.
  split.
  - destruct (hex_create 1.633 "tsl") as (l & E & _); [right; now right|lra|]. exists l. split; [exact E|]. intros [(_ & [G|G])|(G & _)]; discriminate.
  - destruct (hex_create 1.633 "hkl") as (l & E & _); [now left|lra|]. exists l. split; [exact E|]. intros [(G & _)|(_ & G)]; discriminate.
Qed.
(** The ratio c/a of the phase is not used: for any other ratio no corner is at half the height
    of the phase's own cell. *)
Theorem C112_ratio_refuted : forall q oi conv ca l, unitq q -> hexL conv ca l -> 1 / 10 ^ 10 <= ca -> ca <> 1.633 ->
  exists fs, plot_unit_cell q hexagonal_cell oi = Ok fs /\
    forall f p, In f fs -> In p f -> forall m n h, h = 0.5 \/ h = -0.5 -> mapply (rot_matrix q) p <> scaled 0.18 (lattice_point l m n h).
Proof.
  intros q oi conv ca l U E P N. apply (all_corners q oi (fun p => forall m n h, h = 0.5 \/ h = -0.5 -> p <> scaled 0.18 (lattice_point l m n h)) U).
  intros i I m n h H C. apply hexL_val in E; [|exact P]. assert (Z : vz (lattice_point l m n h) = h * ca).
  { destruct E as [(_ & ->)|(_ & ->)]; unfold lattice_point, mapply, sprod, hexL_hkl, hexL_tsl; cbn [vx vy vz r0 r1 r2]; ring. }
  apply (f_equal vz) in C. unfold scaled in C. cbn [vz] in C. rewrite Z in C.
  assert (V : vz (turn_of "hexagonal" oi (nth i (c_vertices hexagonal_cell) (V3 0 0 0))) = if (i <? 6)%nat then - plot_c_over_a else plot_c_over_a).
  { unfold turn_of. cbn [String.eqb Ascii.eqb Bool.eqb]. do 12 (destruct i as [|i]; [destruct oi; reflexivity|]). lia. }
  rewrite V in C. assert (0 < 1 / 10 ^ 10) by lra. apply N. unfold plot_c_over_a in C. destruct (i <? 6)%nat; destruct H as [->| ->]; lra.
Qed.
Print Assumptions C112_ratio_refuted.
(** Only these two structures can be drawn. *)
Theorem C112_unknown : forall q c oi, c_name c <> "cubic"%string -> c_name c <> "hexagonal"%string -> plot_unit_cell q c oi = Err UnboundLocalError.
Proof.
  intros q c oi A B. unfold plot_unit_cell, cell_frame. destruct (String.eqb_spec (c_name c) "hexagonal"); [contradiction|].
  destruct (String.eqb_spec (c_name c) "cubic"); [contradiction|reflexivity].
Qed.
Print Assumptions C112_unknown.
