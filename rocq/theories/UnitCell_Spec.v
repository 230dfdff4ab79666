(** Vocabulary for drawn unit cells. *)
From Coq Require Import String Reals List ZArith Bool.
Import ListNotations.
From Verif Require Import Py Quat_Model Quat_Spec Crystal_Model UnitCell_Model.
Open Scope R_scope.

(** [v] turned about z by [t], anticlockwise seen from +z. *)
Definition turn_z (t : R) (v : vec3) : vec3 :=
  V3 (cos t * vx v - sin t * vy v) (sin t * vx v + cos t * vy v) (vz v).
Definition scaled (k : R) (v : vec3) : vec3 := V3 (k * vx v) (k * vy v) (k * vz v).
Definition minus (u v : vec3) : vec3 := V3 (vx u - vx v) (vy u - vy v) (vz u - vz v).
Definition dist2 (u v : vec3) : R := sprod (minus u v) (minus u v).

(** The faces [fs] are those of the cell: their corners, taken to crystal coordinates by the
    orientation [q], are the vertices of the cell after [turn], made smaller by [k]. *)
Definition drawn_cell (q : quat) (c : cell) (k : R) (turn : vec3 -> vec3) (fs : list (list vec3)) : Prop :=
  Forall2 (fun f idx => Forall2 (fun p i => exists v, nth_error (c_vertices c) i = Some v /\
    mapply (rot_matrix q) p = scaled k (turn v)) f idx) fs (c_faces c).

(** The same polygons, up to the order of faces and of corners. *)
Definition same_points (f g : list vec3) : Prop := forall p, In p f <-> In p g.
Definition same_picture (fs gs : list (list vec3)) : Prop :=
  (forall f, In f fs -> exists g, In g gs /\ same_points f g) /\
  (forall g, In g gs -> exists f, In f fs /\ same_points f g).

(** The edges of a polygon, each in the direction of going round. *)
Definition edges (f : list nat) : list (nat * nat) := combine f (tl f ++ firstn 1 f).
(** Two corners joined by an edge of the polygon, in either direction. *)
Definition edge_of (f : list nat) (a b : nat) : Prop := In (a, b) (edges f) \/ In (b, a) (edges f).

(** The corners of the hexagonal prism in the basal plane, as integer combinations of the
    first two lattice vectors: the six shortest lattice vectors. *)
Definition shortest (m n : R) : Prop :=
  In (m, n) [(1, 0); (0, 1); (1, 1); (-1, 0); (0, -1); (-1, -1)].
(** Position of the point with coordinates [m], [n], [h] along the lattice vectors. *)
Definition lattice_point (l : mat3) (m n h : R) : vec3 := mapply l (V3 m n h).
(** The matrix of a hexagonal lattice with ratio [ca], in a convention for its orthogonal axes. *)
Definition hexL (conv : string) (ca : R) (l : mat3) : Prop := create_l_matrix 1 1 ca (PI / 2) (PI / 2) (PI * 2 / 3) conv = Ok l.
(** The turn asked for fits the convention: 30 degrees are added for "hkl" or "oi", nothing for
    "tsl". *)
Definition fits (oi : bool) (conv : string) : Prop :=
  oi = true /\ (lower conv = "hkl"%string \/ lower conv = "oi"%string) \/ oi = false /\ lower conv = "tsl"%string.
