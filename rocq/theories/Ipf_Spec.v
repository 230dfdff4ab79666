(** Vocabulary for inverse pole figures. *)
From Coq Require Import Reals List ZArith Bool String Permutation.
Import ListNotations.
From Verif Require Import Py Quat_Model Quat_Spec Pole_Spec.
Open Scope R_scope.

(** The sample direction [d] seen from the crystal. *)
Definition in_crystal (q : quat) (d : vec3) : vec3 := mapply (rot_matrix q) d.

(** The lengths of the components of a direction from the greatest to the least. *)
Definition sorted_abs (u : vec3) (a b c : R) : Prop :=
  0 <= c <= b /\ b <= a /\ Permutation [Rabs (vx u); Rabs (vy u); Rabs (vz u)] [a; b; c].

(** The polar angles [o] are those of direction [v]. *)
Definition angles_of (o : option (R * R)) (v : vec3) : Prop :=
  exists alpha beta, o = Some (alpha, beta) /\ 0 <= alpha <= PI /\ - PI < beta <= PI /\ same_dir (spherical alpha beta) v.

(** [v] is [u] or its opposite turned by a symmetry of the crystal. *)
Definition sym_image (g : string) (u v : vec3) : Prop :=
  exists s, In s (sym_eqv g) /\ (v = mapply (rot_matrix s) u \/ v = vscale (-1) (mapply (rot_matrix s) u)).

Definition inside_triangle_cubic (v : vec3) : Prop := vx v <= 0 /\ - vx v <= vy v /\ vy v <= vz v.
(** Between [0 1 0] and [-1 sqrt3 0] (up), or [1 sqrt3 0] and [0 1 0] (down). *)
Definition inside_triangle_hex (up : bool) (v : vec3) : Prop :=
  0 <= vz v /\ (if up then vx v <= 0 /\ - vx v * sqrt 3 <= vy v else 0 <= vx v /\ vx v * sqrt 3 <= vy v).
Definition tri_name (up : bool) : string := if up then "up" else "down".
(** The direction is along the c axis. *)
Definition along_c (u : vec3) : Prop := vx u = 0 /\ vy u = 0.

(** A colour with components in [0, 1] of which one is 1. *)
Definition full_colour (o : option (R * R * R)) : Prop :=
  exists r g b, o = Some (r, g, b) /\ 0 <= r <= 1 /\ 0 <= g <= 1 /\ 0 <= b <= 1 /\ (r = 1 \/ g = 1 \/ b = 1).
