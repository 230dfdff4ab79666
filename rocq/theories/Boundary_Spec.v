(** Vocabulary for the properties of grain boundaries and neighbours. *)
From Coq Require Import String Reals.
From Coq Require Import List ZArith.
Import ListNotations.
From Verif Require Import Grid Quat_Model.
Open Scope Z_scope.

(** The pixel to the right (kind 0) or below (kind 1). *)
Definition next_pix (kind : Z) (p : pix) : pix :=
  if kind =? 0 then (fst p + 1, snd p) else (fst p, snd p + 1).

(** Not in the first or last row or column. *)
Definition interior (W H : Z) (p : pix) : Prop :=
  0 < fst p < W - 1 /\ 0 < snd p < H - 1.

(** Grain [a] (labelled a + 1) and grain [b] lie either side of the step from
    [p] to its next pixel. *)
Definition sides (lab : pix -> Z) (kind : Z) (p : pix) (a b : Z) : Prop :=
  (lab p = a + 1 /\ lab (next_pix kind p) = b + 1) \/
  (lab p = b + 1 /\ lab (next_pix kind p) = a + 1).

(** The 4-neighbours. *)
Definition adjacent (p q : pix) : Prop :=
  Z.abs (fst p - fst q) + Z.abs (snd p - snd q) = 1.

(** A pixel [p] is the unit square centred on it: in doubled coordinates, the
    corners are (2x +- 1, 2y +- 1).  A point lies on the border of the square. *)
Definition corner_of (p v : pix) : Prop :=
  Z.abs (fst v - 2 * fst p) = 1 /\ Z.abs (snd v - 2 * snd p) = 1.

(** A line is the edge shared by the squares of [p] and [q]: its two different
    end points are exactly the corners that both squares have. *)
Definition common_edge (l : pix * pix) (p q : pix) : Prop :=
  fst l <> snd l /\
  forall v, (corner_of p v /\ corner_of q v) <-> (v = fst l \/ v = snd l).

(** Two orientations of group [g] differ by more than [tol] degrees, the
    misorientation angle being 2 acos of [m]. *)
Definition above_tolerance (m tol : R) : Prop :=
  (180 / PI * (2 * acos m) > tol)%R.
