(** Specification vocabulary for the quaternion properties: plain mathematics,
    written without the functions of [Quat_Model]. *)
From Coq Require Import List Reals String.
Import ListNotations.
From Verif Require Import Quat_Model.
Open Scope R_scope.

(** Unit quaternions, unit vectors. *)
Definition unitq (q : quat) : Prop :=
  qw q * qw q + qx q * qx q + qy q * qy q + qz q * qz q = 1.

(** Two quaternions stand for the same rotation. *)
Definition opp (q : quat) : quat := Q4 (- qw q) (- qx q) (- qy q) (- qz q).
Definition same_rot (p q : quat) : Prop := p = q \/ p = opp q.

(** Hamilton's product and the mathematical conjugate. *)
Definition hprod (a b : quat) : quat :=
  Q4 (qw a * qw b - qx a * qx b - qy a * qy b - qz a * qz b)
     (qw a * qx b + qx a * qw b + qy a * qz b - qz a * qy b)
     (qw a * qy b - qx a * qz b + qy a * qw b + qz a * qx b)
     (qw a * qz b + qx a * qy b - qy a * qx b + qz a * qw b).
Definition hconj (q : quat) : quat := Q4 (qw q) (- qx q) (- qy q) (- qz q).
Definition qone : quat := Q4 1 0 0 0.
Definition inner (p q : quat) : R :=
  qw p * qw q + qx p * qx q + qy p * qy q + qz p * qz q.
Definition sqnorm (q : quat) : R := inner q q.

(** 3x3 matrices. *)
Definition sprod (u v : vec3) : R := vx u * vx v + vy u * vy v + vz u * vz v.
Definition xprod (u v : vec3) : vec3 :=
  V3 (vy u * vz v - vz u * vy v)
     (vz u * vx v - vx u * vz v)
     (vx u * vy v - vy u * vx v).
Definition col0 (m : mat3) : vec3 := V3 (vx (r0 m)) (vx (r1 m)) (vx (r2 m)).
Definition col1 (m : mat3) : vec3 := V3 (vy (r0 m)) (vy (r1 m)) (vy (r2 m)).
Definition col2 (m : mat3) : vec3 := V3 (vz (r0 m)) (vz (r1 m)) (vz (r2 m)).
Definition transpose (m : mat3) : mat3 := M3 (col0 m) (col1 m) (col2 m).
Definition mapply (m : mat3) (v : vec3) : vec3 :=
  V3 (sprod (r0 m) v) (sprod (r1 m) v) (sprod (r2 m) v).
Definition mprod (a b : mat3) : mat3 :=
  M3 (V3 (sprod (r0 a) (col0 b)) (sprod (r0 a) (col1 b)) (sprod (r0 a) (col2 b)))
     (V3 (sprod (r1 a) (col0 b)) (sprod (r1 a) (col1 b)) (sprod (r1 a) (col2 b)))
     (V3 (sprod (r2 a) (col0 b)) (sprod (r2 a) (col1 b)) (sprod (r2 a) (col2 b))).
Definition mone : mat3 := M3 (V3 1 0 0) (V3 0 1 0) (V3 0 0 1).
Definition det (m : mat3) : R := sprod (r0 m) (xprod (r1 m) (r2 m)).

(** The Bunge orientation matrix: rotation about Z by [a], about the new X by
    [b], about the new Z by [c], taking sample to crystal coordinates. *)
Definition rotz (a : R) : mat3 :=
  M3 (V3 (cos a) (sin a) 0) (V3 (- sin a) (cos a) 0) (V3 0 0 1).
Definition rotx (b : R) : mat3 :=
  M3 (V3 1 0 0) (V3 0 (cos b) (sin b)) (V3 0 (- sin b) (cos b)).
Definition bunge (a b c : R) : mat3 := mprod (rotz c) (mprod (rotx b) (rotz a)).

(** Orientation [p] is a symmetry equivalent of [q]: a symmetry operator of the
    list followed by [q], up to quaternion sign. *)
Definition equivalent (syms : list quat) (q p : quat) : Prop :=
  exists s, In s syms /\ same_rot p (hprod s q).

(** [m] is the greatest of the values [f x] for [x] in the list. *)
Definition greatest {A} (l : list A) (f : A -> R) (m : R) : Prop :=
  (forall x, In x l -> f x <= m) /\ (exists x, In x l /\ f x = m).

(** A list of rotations is a group up to quaternion sign. *)
Definition rotation_group (l : list quat) : Prop :=
  In qone l /\
  (forall a, In a l -> unitq a) /\
  (forall a b, In a l -> In b l -> exists c, In c l /\ same_rot c (hprod a b)) /\
  (forall a, In a l -> exists b, In b l /\ same_rot b (hconj a)).

(** The rotation angle between two unit quaternions, in [0, pi]. *)
Definition rot_angle (p q : quat) : R := 2 * acos (Rabs (inner p q)).

(** [c] is a northern representative of a symmetry equivalent of [q] that is
    nearest (largest |inner product|) to [av] among all symmetry equivalents. *)
Definition nearest (syms : list quat) (av q c : quat) : Prop :=
  equivalent syms q c /\ 0 <= qw c /\
  forall c', equivalent syms q c' -> Rabs (inner c' av) <= Rabs (inner c av).

Definition qsum (p q : quat) : quat :=
  Q4 (qw p + qw q) (qx p + qx q) (qy p + qy q) (qz p + qz q).

(** [running_sum syms av qs r]: starting from [av], adding for each orientation
    of [qs] in turn a nearest northern equivalent gives [r]. *)
Inductive running_sum (syms : list quat) : quat -> list quat -> quat -> Prop :=
| rs_nil : forall av, running_sum syms av [] av
| rs_cons : forall av q qs c r,
    nearest syms av q c -> running_sum syms (qsum av c) qs r ->
    running_sum syms av (q :: qs) r.

(** The choice at every step is forced: no ties between different northern
    equivalents. *)
Inductive decisive (syms : list quat) : quat -> list quat -> Prop :=
| dec_nil : forall av, decisive syms av []
| dec_cons : forall av q qs c,
    nearest syms av q c -> (forall c', nearest syms av q c' -> c' = c) ->
    decisive syms (qsum av c) qs ->
    decisive syms av (q :: qs).
