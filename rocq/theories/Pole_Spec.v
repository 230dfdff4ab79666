(** Vocabulary for pole figures. *)
From Coq Require Import String Ascii.
From Coq Require Import Reals List ZArith Bool.
Import ListNotations.
From Verif Require Import Py Quat_Model Quat_Spec Text_Model.
Open Scope R_scope.

Definition vzero : vec3 := V3 0 0 0.
Definition vlen (v : vec3) : R := sqrt (sprod v v).
Definition unit_dir (v : vec3) : Prop := sprod v v = 1.
(** Two vectors in the same direction. *)
Definition same_dir (u v : vec3) : Prop := exists k, 0 < k /\ v = V3 (k * vx u) (k * vy u) (k * vz u).
Definition straight_down (v : vec3) : Prop := vx v = 0 /\ vy v = 0 /\ vz v < 0.

(** The direction with inclination [alpha] from z and azimuth [beta] from x towards y. *)
Definition spherical (alpha beta : R) : vec3 := V3 (sin alpha * cos beta) (sin alpha * sin beta) (cos alpha).

(** The stereographic construction: the point of the plane z = 0 on the line through the
    south pole and the unit direction [v]. *)
Definition on_south_line (v : vec3) (X Y : R) : Prop :=
  exists t, X = t * vx v /\ Y = t * vy v /\ 0 = -1 + t * (vz v + 1).
(** Plots have the y axis of the crystal to the right: a point turned clockwise by 90
    degrees. *)
Definition turned (P : R * R) : R * R := (snd P, - fst P).

Definition radius (P : R * R) : R := sqrt (fst P ^ 2 + snd P ^ 2).
(** Distance in space from the north pole. *)
Definition from_north (v : vec3) : R := sqrt (vx v ^ 2 + vy v ^ 2 + (vz v - 1) ^ 2).
(** Area of the part of the unit sphere within the angle [alpha] of a pole. *)
Definition cap_area (alpha : R) : R := 2 * PI * (1 - cos alpha).

(** A vector in the plane of [s] and [e], between them. *)
Definition between (s e v : vec3) : Prop :=
  exists t, 0 <= t <= 1 /\ v = V3 ((1 - t) * vx s + t * vx e) ((1 - t) * vy s + t * vy e) ((1 - t) * vz s + t * vz e).

(** Names of the projections, compared without spaces and in lower case. *)
Definition letters_match (a b : ascii) : Prop :=
  a = b \/ (65 <= nat_of_ascii a <= 90)%nat /\ nat_of_ascii b = (nat_of_ascii a + 32)%nat.
Inductive spelled : txt -> txt -> Prop :=
| spelled_end : spelled [] []
| spelled_space : forall t u, spelled t u -> spelled (" "%char :: t) u
| spelled_letter : forall a b t u, a <> " "%char -> letters_match a b -> spelled t u -> spelled (a :: t) (b :: u).
