From Coq Require Import String Reals List ZArith Bool Lra Lia.
Import ListNotations.
From Verif Require Import Py Base_Model Base_Proofs Quat_Model Quat_Spec Quat_Proofs QuatEuler_Proofs Crystal_Model UnitCell_Model UnitCell_Spec.
Open Scope R_scope.

Lemma r2r : over_root2 * over_root2 = 1 / 2.
Proof. unfold over_root2. replace (sqrt 2 / 2 * (sqrt 2 / 2)) with (sqrt 2 * sqrt 2 / 4) by field. rewrite sqrt_sqrt by lra. field. Qed.
Lemma s3s : sqrt3over2 * sqrt3over2 = 3 / 4.
Proof. unfold sqrt3over2. replace (sqrt 3 / 2 * (sqrt 3 / 2)) with (sqrt 3 * sqrt 3 / 4) by field. rewrite sqrt_sqrt by lra. field. Qed.
Lemma cos30 : cos (PI / 6) = sqrt3over2.
Proof. apply cos_PI6. Qed.
Lemma sin30 : sin (PI / 6) = / 2.
Proof. rewrite sin_PI6. lra. Qed.

Lemma matmul_mapply : forall m v, matmul m v = mapply m v.
Proof. intros m v. reflexivity. Qed.
Lemma mT_transpose : forall m, mT m = transpose m.
Proof. intros m. reflexivity. Qed.
Lemma vscale_scaled : forall k v, vscale k v = scaled k v.
Proof. reflexivity. Qed.
Lemma mapply_scaled : forall m k v, mapply m (scaled k v) = scaled k (mapply m v).
Proof. intros [[a b c] [d e f] [g h i]] k [x y z]. unfold mapply, scaled, sprod; cbn [vx vy vz r0 r1 r2]. f_equal; ring. Qed.

(** The orientation the hexagonal cell is drawn with in the OI convention. *)
Lemma oi_matrix : forall q a b c, unitq q -> euler_angles q = (a, b, c) ->
  rot_matrix (from_euler_angles a b (c + PI / 6)) = mprod (rotz (PI / 6)) (rot_matrix q).
Proof.
  intros q a b c U E. destruct (euler_angles_spec q a b c U E) as (_ & SR). rewrite <- (rot_same _ _ SR), !euler_bunge.
  unfold bunge. set (m := mprod (rotx b) (rotz a)). unfold rotz, mprod, sprod, col0, col1, col2; cbn [vx vy vz r0 r1 r2].
  rewrite cos_plus, sin_plus. f_equal; f_equal; ring.
Qed.
Lemma transpose_mprod : forall a b, transpose (mprod a b) = mprod (transpose b) (transpose a).
Proof.
  intros [[a b c] [d e f] [g h i]] [[a' b' c'] [d' e' f'] [g' h' i']]. unfold transpose, mprod, sprod, col0, col1, col2; cbn [vx vy vz r0 r1 r2]. f_equal; f_equal; ring.
Qed.
Lemma rotz_turn : forall t v, mapply (transpose (rotz t)) v = turn_z t v.
Proof. intros t [x y z]. unfold mapply, transpose, rotz, turn_z, sprod, col0, col1, col2; cbn [vx vy vz r0 r1 r2]. f_equal; ring. Qed.

(** The turn and the size of a cell. *)
Definition turn_of (name : string) (oi : bool) (v : vec3) : vec3 :=
  if String.eqb name "hexagonal" then if oi then turn_z (PI / 6) v else v else v.
Definition size_of (name : string) : R := if String.eqb name "hexagonal" then 0.18 else 0.25.
Lemma frame_ok : forall q name oi, unitq q -> name = "hexagonal"%string \/ name = "cubic"%string ->
  exists gg, cell_frame q name oi = Ok (size_of name, gg) /\
    forall v, mapply gg v = mapply (transpose (rot_matrix q)) (turn_of name oi v).
Proof.
  intros q name oi U [->| ->]; unfold cell_frame, size_of, turn_of; cbn [String.eqb Ascii.eqb Bool.eqb].
  - destruct oi.
    + destruct (euler_angles q) as [[a b] c] eqn:E. eexists. split; [reflexivity|]. intros v.
      rewrite mT_transpose, (oi_matrix q a b c U E), transpose_mprod, mapply_mprod. now rewrite rotz_turn.
    + eexists. split; [reflexivity|]. reflexivity.
  - eexists. split; reflexivity.
Qed.
(** The drawn faces, written out. *)
Definition corner (q : quat) (name : string) (oi : bool) (v : vec3) : vec3 :=
  scaled (size_of name) (mapply (transpose (rot_matrix q)) (turn_of name oi v)).
Definition well_indexed (c : cell) : Prop := Forall (Forall (fun i => (i < List.length (c_vertices c))%nat)) (c_faces c).
Lemma face_ok : forall (vs : list vec3) (h : vec3 -> vec3) f, Forall (fun i => (i < List.length vs)%nat) f ->
  face_points (map h vs) f = Ok (map (fun i => h (nth i vs (V3 0 0 0))) f).
Proof.
  intros vs h f W. unfold face_points. induction W as [|i f I W IH]; [reflexivity|]. cbn [map map_res].
  rewrite nth_error_map, (nth_error_nth' vs (V3 0 0 0) I). cbn [option_map bind]. rewrite IH. reflexivity.
Qed.
Lemma cell_ok : forall q c oi, unitq q -> c_name c = "hexagonal"%string \/ c_name c = "cubic"%string -> well_indexed c ->
  plot_unit_cell q c oi = Ok (map (fun f => map (fun i => corner q (c_name c) oi (nth i (c_vertices c) (V3 0 0 0))) f) (c_faces c)).
Proof.
  intros q c oi U N W. unfold plot_unit_cell. destruct (frame_ok q (c_name c) oi U N) as (gg & -> & G). cbn [bind fst snd].
  unfold cell_points. assert (H : forall v, vscale (size_of (c_name c)) (matmul gg v) = corner q (c_name c) oi v).
  { intros v. rewrite vscale_scaled, matmul_mapply, G. reflexivity. }
  rewrite (map_ext _ _ H). unfold well_indexed in W. induction W as [|f fs F W IH]; [reflexivity|]. cbn [map map_res].
  rewrite (face_ok _ (corner q (c_name c) oi) f F). cbn [bind]. rewrite IH. reflexivity.
Qed.
Lemma wi_cubic : well_indexed cubic_cell.
Proof. unfold well_indexed. cbn [c_vertices c_faces cubic_cell List.length]. repeat constructor; lia. Qed.
Lemma wi_hex : well_indexed hexagonal_cell.
Proof. unfold well_indexed. cbn [c_vertices c_faces hexagonal_cell List.length]. repeat constructor; lia. Qed.

(** ** Symmetry: each operator permutes the vertices *)
Definition cubic_perms : list (list nat) :=
  [[0; 1; 2; 3; 4; 5; 6; 7];
   [4; 5; 1; 0; 7; 6; 2; 3];
   [7; 6; 5; 4; 3; 2; 1; 0];
   [3; 2; 6; 7; 0; 1; 5; 4];
   [1; 5; 6; 2; 0; 4; 7; 3];
   [5; 4; 7; 6; 1; 0; 3; 2];
   [4; 0; 3; 7; 5; 1; 2; 6];
   [3; 0; 1; 2; 7; 4; 5; 6];
   [2; 3; 0; 1; 6; 7; 4; 5];
   [1; 2; 3; 0; 5; 6; 7; 4];
   [4; 7; 6; 5; 0; 3; 2; 1];
   [6; 5; 4; 7; 2; 1; 0; 3];
   [3; 7; 4; 0; 2; 6; 5; 1];
   [6; 2; 1; 5; 7; 3; 0; 4];
   [1; 0; 4; 5; 2; 3; 7; 6];
   [6; 7; 3; 2; 5; 4; 0; 1];
   [0; 4; 5; 1; 3; 7; 6; 2];
   [0; 3; 7; 4; 1; 2; 6; 5];
   [2; 1; 5; 6; 3; 0; 4; 7];
   [5; 1; 0; 4; 6; 2; 3; 7];
   [7; 4; 0; 3; 6; 5; 1; 2];
   [2; 6; 7; 3; 1; 5; 4; 0];
   [5; 6; 2; 1; 4; 7; 3; 0];
   [7; 3; 2; 6; 4; 0; 1; 5]]%nat.
Definition hex_perms : list (list nat) :=
  [[0; 1; 2; 3; 4; 5; 6; 7; 8; 9; 10; 11];
   [6; 11; 10; 9; 8; 7; 0; 5; 4; 3; 2; 1];
   [9; 8; 7; 6; 11; 10; 3; 2; 1; 0; 5; 4];
   [3; 4; 5; 0; 1; 2; 9; 10; 11; 6; 7; 8];
   [5; 0; 1; 2; 3; 4; 11; 6; 7; 8; 9; 10];
   [4; 5; 0; 1; 2; 3; 10; 11; 6; 7; 8; 9];
   [2; 3; 4; 5; 0; 1; 8; 9; 10; 11; 6; 7];
   [1; 2; 3; 4; 5; 0; 7; 8; 9; 10; 11; 6];
   [8; 7; 6; 11; 10; 9; 2; 1; 0; 5; 4; 3];
   [10; 9; 8; 7; 6; 11; 4; 3; 2; 1; 0; 5];
   [11; 10; 9; 8; 7; 6; 5; 4; 3; 2; 1; 0];
   [7; 6; 11; 10; 9; 8; 1; 0; 5; 4; 3; 2]]%nat.
Definition hex_oi_perms : list (list nat) :=
  [[0; 1; 2; 3; 4; 5; 6; 7; 8; 9; 10; 11];
   [11; 10; 9; 8; 7; 6; 5; 4; 3; 2; 1; 0];
   [8; 7; 6; 11; 10; 9; 2; 1; 0; 5; 4; 3];
   [3; 4; 5; 0; 1; 2; 9; 10; 11; 6; 7; 8];
   [5; 0; 1; 2; 3; 4; 11; 6; 7; 8; 9; 10];
   [4; 5; 0; 1; 2; 3; 10; 11; 6; 7; 8; 9];
   [2; 3; 4; 5; 0; 1; 8; 9; 10; 11; 6; 7];
   [1; 2; 3; 4; 5; 0; 7; 8; 9; 10; 11; 6];
   [7; 6; 11; 10; 9; 8; 1; 0; 5; 4; 3; 2];
   [9; 8; 7; 6; 11; 10; 3; 2; 1; 0; 5; 4];
   [10; 9; 8; 7; 6; 11; 4; 3; 2; 1; 0; 5];
   [6; 11; 10; 9; 8; 7; 0; 5; 4; 3; 2; 1]]%nat.
Definition permutes (h : vec3 -> vec3) (vs : list vec3) (s : quat) (pm : list nat) : Prop :=
  forall i, (i < List.length vs)%nat -> mapply (transpose (rot_matrix s)) (h (nth i vs (V3 0 0 0))) = h (nth (nth i pm 0%nat) vs (V3 0 0 0)).
Ltac entry := unfold mapply, transpose, rot_matrix, turn_z, sprod, col0, col1, col2; cbn [vx vy vz r0 r1 r2]; rewrite ?cos30, ?sin30; f_equal; lra.
Lemma cubic_permutes : Forall2 (permutes (fun v => v) (c_vertices cubic_cell)) cubic_symmetries cubic_perms.
Proof.
  pose proof r2r as R2. set (r := over_root2) in *. unfold cubic_symmetries, cubic_perms. fold r. cbn [map].
  repeat (constructor; [intros i I; rewrite (rot_same _ _ (Quat_same false _)); cbn [c_vertices cubic_cell List.length] in *;
    do 8 (destruct i as [|i]; [cbn [nth]; entry|]); lia|]). constructor.
Qed.
Lemma s3_hints : let r := sqrt3over2 in r * r = 3 / 4 /\ r * r * r = 3 / 4 * r /\ r * r * r * r = 9 / 16 /\ r * r * plot_c_over_a = 3 / 4 * plot_c_over_a.
Proof. pose proof s3s as E. cbv zeta. rewrite E. repeat split; try ring. replace (3 / 4 * sqrt3over2 * sqrt3over2) with (3 / 4 * (sqrt3over2 * sqrt3over2)) by ring. rewrite E. field. Qed.
Lemma hex_permutes : Forall2 (permutes (fun v => v) (c_vertices hexagonal_cell)) hexagonal_symmetries hex_perms.
Proof.
  destruct s3_hints as (R2 & R3 & R4 & R5). unfold hexagonal_symmetries, hex_perms. cbn [map].
  repeat (constructor; [intros i I; rewrite (rot_same _ _ (Quat_same false _)); cbn [c_vertices hexagonal_cell List.length] in *;
    do 12 (destruct i as [|i]; [cbn [nth]; entry|]); lia|]). constructor.
Qed.
Lemma hex_oi_permutes : Forall2 (permutes (turn_z (PI / 6)) (c_vertices hexagonal_cell)) hexagonal_symmetries hex_oi_perms.
Proof.
  destruct s3_hints as (R2 & R3 & R4 & R5). unfold hexagonal_symmetries, hex_oi_perms. cbn [map].
  repeat (constructor; [intros i I; rewrite (rot_same _ _ (Quat_same false _)); cbn [c_vertices hexagonal_cell List.length] in *;
    do 12 (destruct i as [|i]; [cbn [nth]; entry|]); lia|]). constructor.
Qed.
