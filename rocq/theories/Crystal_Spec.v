(** Specification vocabulary for the crystallography properties. *)
From Coq Require Import Reals ZArith String List.
From Verif Require Import Quat_Model Quat_Spec Crystal_Model.
Import ListNotations.

(** ** Integer index vectors *)
Definition nonzero (l : list Z) : Prop := exists x, In x l /\ x <> 0%Z.
Definition scaled (k : Z) (l : list Z) : list Z := map (fun x => (k * x)%Z) l.
Definition negated (l : list Z) : list Z := map (fun x => (- x)%Z) l.
Definition up_to_sign (l m : list Z) : Prop := l = m \/ l = negated m.
(** No integer but 1 and -1 divides every entry. *)
Definition coprime (l : list Z) : Prop :=
  forall d, (forall x, In x l -> (d | x)%Z) -> (d | 1)%Z.
(** The first entry that is not zero is positive. *)
Definition leading_positive (l : list Z) : Prop :=
  exists pre x post, l = pre ++ x :: post /\
    (forall y, In y pre -> y = 0%Z) /\ (0 < x)%Z.
(** On the same line through the origin. *)
Definition collinear (l m : list Z) : Prop :=
  exists a b, a <> 0%Z /\ b <> 0%Z /\ scaled a l = scaled b m.
(** Every entry can be held by a signed 8-bit integer. *)
Definition fits8 (l : list Z) : Prop := forall x, In x l -> (-128 <= x <= 127)%Z.

Fixpoint idot (l m : list Z) : Z :=
  match l, m with
  | x :: l', y :: m' => (x * y + idot l' m')%Z
  | _, _ => 0%Z
  end.

(** ** Lattices *)
(** The columns of a matrix as cell vectors, and the metric they should have. *)
Definition has_metric (m : mat3) (a b c alpha beta gamma : R) : Prop :=
  (sprod (col0 m) (col0 m) = a * a /\
   sprod (col1 m) (col1 m) = b * b /\
   sprod (col2 m) (col2 m) = c * c /\
   sprod (col1 m) (col2 m) = b * c * cos alpha /\
   sprod (col0 m) (col2 m) = a * c * cos beta /\
   sprod (col0 m) (col1 m) = a * b * cos gamma)%R.

(** Cells that exist in space. *)
Definition admissible (a b c alpha beta gamma : R) : Prop :=
  (0 < a /\ 0 < b /\ 0 < c /\ 0 < gamma < PI /\
   0 < 1 + 2 * cos alpha * cos beta * cos gamma
       - cos alpha * cos alpha - cos beta * cos beta - cos gamma * cos gamma)%R.

Definition entries (m : mat3) : list R :=
  [vx (r0 m); vy (r0 m); vz (r0 m); vx (r1 m); vy (r1 m); vz (r1 m);
   vx (r2 m); vy (r2 m); vz (r2 m)].

(** ** Slip systems *)
Definition vopp (v : vec3) : vec3 := V3 (- vx v) (- vy v) (- vz v).
Definition vup_to_sign (u v : vec3) : Prop := u = v \/ u = vopp v.
Definition unitv (v : vec3) : Prop := (sprod v v = 1)%R.

(** Two slip systems have the same plane and the same direction, up to sign. *)
Definition same_plane (a b : slip_system) : Prop :=
  up_to_sign (plane_idc a) (plane_idc b).
Definition same_dir (a b : slip_system) : Prop :=
  up_to_sign (dir_idc a) (dir_idc b).

(** Order-preserving sublists. *)
Inductive sublist {A} : list A -> list A -> Prop :=
| sub_nil : sublist [] []
| sub_take : forall x l m, sublist l m -> sublist (x :: l) (x :: m)
| sub_skip : forall x l m, sublist l m -> sublist l (x :: m).
