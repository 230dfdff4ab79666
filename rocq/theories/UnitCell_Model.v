(** Drawing unit cells: defdap/quat.py [Quat.plot_unit_cell] and the cells of
    defdap/crystal.py, over the real numbers. *)
From Coq Require Import String Reals List ZArith Bool.
Import ListNotations.
From Verif Require Import Py Base_Model Quat_Model Crystal_Model.
Open Scope R_scope.

(** defdap/crystal.py 101-106 [CrystalStructure], without the symmetries.  Faces are lists of
    positions in the list of vertices (negative positions are not modelled). *)
Record cell := Cell { c_name : string; c_vertices : list vec3; c_faces : list (list nat) }.

(** defdap/crystal.py 112 *)
Definition plot_c_over_a : R := 1.633 / 2.
(** defdap/crystal.py 153-171 *)
Definition cubic_cell : cell := Cell "cubic"
  [ V3 (-0.5) (-0.5) (-0.5); V3 0.5 (-0.5) (-0.5); V3 0.5 0.5 (-0.5); V3 (-0.5) 0.5 (-0.5);
    V3 (-0.5) (-0.5) 0.5; V3 0.5 (-0.5) 0.5; V3 0.5 0.5 0.5; V3 (-0.5) 0.5 0.5 ]
  [ [0; 1; 2; 3]; [4; 5; 6; 7]; [0; 1; 5; 4]; [1; 2; 6; 5]; [2; 3; 7; 6]; [3; 0; 4; 7] ]%nat.
(** defdap/crystal.py 192-215 *)
Definition hexagonal_cell : cell := Cell "hexagonal"
  [ V3 1 0 (- plot_c_over_a); V3 0.5 sqrt3over2 (- plot_c_over_a); V3 (-0.5) sqrt3over2 (- plot_c_over_a);
    V3 (-1) 0 (- plot_c_over_a); V3 (-0.5) (- sqrt3over2) (- plot_c_over_a); V3 0.5 (- sqrt3over2) (- plot_c_over_a);
    V3 1 0 plot_c_over_a; V3 0.5 sqrt3over2 plot_c_over_a; V3 (-0.5) sqrt3over2 plot_c_over_a;
    V3 (-1) 0 plot_c_over_a; V3 (-0.5) (- sqrt3over2) plot_c_over_a; V3 0.5 (- sqrt3over2) plot_c_over_a ]
  [ [0; 1; 2; 3; 4; 5]; [6; 7; 8; 9; 10; 11]; [0; 6; 7; 1]; [1; 7; 8; 2]; [2; 8; 9; 3]; [3; 9; 10; 4];
    [4; 10; 11; 5]; [5; 11; 6; 0] ]%nat.

(** defdap/quat.py 550-562: the size and the matrix; for any other name [gg] is never
    assigned. *)
Definition cell_frame (q : quat) (name : string) (oi : bool) : res (R * mat3) :=
  if String.eqb name "hexagonal" then
    if oi then
      let '(ph1, phi, ph2) := euler_angles q in
      Ok (0.18, mT (rot_matrix (from_euler_angles ph1 phi (ph2 + PI / 6))))
    else Ok (0.18, mT (rot_matrix q))
  else if String.eqb name "cubic" then Ok (0.25, mT (rot_matrix q))
  else Err UnboundLocalError.
(** 565 *)
Definition cell_points (gg : mat3) (sz_fac : R) (vert : list vec3) : list vec3 :=
  map (fun v => vscale sz_fac (matmul gg v)) vert.
(** 570: the rows of [pts] at the positions of one face. *)
Definition face_points (pts : list vec3) (face : list nat) : res (list vec3) :=
  map_res (fun i => match nth_error pts i with Some p => Ok p | None => Err IndexError end) face.
(** 514-589: the faces handed to the 3D axes, in sample coordinates.  Axis limits, view and
    style are not modelled. *)
Definition plot_unit_cell (q : quat) (c : cell) (oi : bool) : res (list (list vec3)) :=
  do g <- cell_frame q (c_name c) oi;
  let pts := cell_points (snd g) (fst g) (c_vertices c) in
  map_res (face_points pts) (c_faces c).
