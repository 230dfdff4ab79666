(** Model of defdap/quat.py over the real numbers.  Floating point rounding is
    not modelled.  Operations that give nan (division of zero by zero) return
    [None]. *)
From Coq Require Import List Reals Lra String.
Import ListNotations.
Open Scope R_scope.

(** The four coefficients [quat_coef]. *)
Record quat := Q4 { qw : R; qx : R; qy : R; qz : R }.
Record vec3 := V3 { vx : R; vy : R; vz : R }.
(** A 3x3 array, by rows. *)
Record mat3 := M3 { r0 : vec3; r1 : vec3; r2 : vec3 }.

Definition qneg (q : quat) : quat := Q4 (- qw q) (- qx q) (- qy q) (- qz q).

(** defdap/quat.py 59-61: the end of [Quat.__init__].  The argument count and
    length checks are not modelled. *)
Definition Quat (allow_southern : bool) (c : quat) : quat :=
  if allow_southern then c
  else if Rlt_dec (qw c) 0 then qneg c else c.

(** defdap/quat.py 82-91. *)
Definition from_euler_angles (ph1 phi ph2 : R) : quat :=
  Quat false
    (Q4 (cos (phi / 2) * cos ((ph1 + ph2) / 2))
        (- sin (phi / 2) * cos ((ph1 - ph2) / 2))
        (- sin (phi / 2) * sin ((ph1 - ph2) / 2))
        (- cos (phi / 2) * sin ((ph1 + ph2) / 2))).

Definition vdot (u v : vec3) : R := vx u * vx v + vy u * vy v + vz u * vz v.
Definition vcross (u v : vec3) : vec3 :=
  V3 (vy u * vz v - vz u * vy v)
     (vz u * vx v - vx u * vz v)
     (vx u * vy v - vy u * vx v).
Definition vscale (a : R) (v : vec3) : vec3 := V3 (a * vx v) (a * vy v) (a * vz v).
Definition vadd (u v : vec3) : vec3 := V3 (vx u + vx v) (vy u + vy v) (vz u + vz v).

(** The slice [quat_coef[1:4]]. *)
Definition qv (q : quat) : vec3 := V3 (qx q) (qy q) (qz q).

(** defdap/quat.py 111-120; a zero axis divides by zero. *)
Definition from_axis_angle (axis : vec3) (angle : R) : option quat :=
  let m := sqrt (vdot axis axis) in
  if Req_EM_T m 0 then None
  else
    let a := V3 (vx axis / m) (vy axis / m) (vz axis / m) in
    let v := vscale (- sin (angle / 2)) a in
    Some (Quat false (Q4 (cos (angle / 2)) (vx v) (vy v) (vz v))).

(** numpy's arctan2, without signed zeros. *)
Definition arctan2 (y x : R) : R :=
  if Rlt_dec 0 x then atan (y / x)
  else if Rlt_dec x 0 then
    if Rlt_dec y 0 then atan (y / x) - PI else atan (y / x) + PI
  else if Rlt_dec 0 y then PI / 2
  else if Rlt_dec y 0 then - (PI / 2) else 0.

(** defdap/quat.py 141-177. *)
Definition euler_angles (q : quat) : R * R * R :=
  let '(Q4 q0 q1 q2 q3) := q in
  let q03 := q0 ^ 2 + q3 ^ 2 in
  let q12 := q1 ^ 2 + q2 ^ 2 in
  let chi := sqrt (q03 * q12) in
  let '(e0, e1, e2) :=
    if Req_EM_T chi 0 then
      if Req_EM_T q12 0 then
        (arctan2 (-2 * q0 * q3) (q0 ^ 2 - q3 ^ 2), 0, 0)
      else (* then q03 = 0, as chi = 0 *)
        (arctan2 (2 * q1 * q2) (q1 ^ 2 - q2 ^ 2), PI, 0)
    else
      let cos_ph1 := (- q0 * q1 - q2 * q3) / chi in
      let sin_ph1 := (- q0 * q2 + q1 * q3) / chi in
      let cos_phi := q0 ^ 2 + q3 ^ 2 - q1 ^ 2 - q2 ^ 2 in
      let sin_phi := 2 * chi in
      let cos_ph2 := (- q0 * q1 + q2 * q3) / chi in
      let sin_ph2 := (q1 * q3 + q0 * q2) / chi in
      (arctan2 sin_ph1 cos_ph1, arctan2 sin_phi cos_phi,
       arctan2 sin_ph2 cos_ph2) in
  (if Rlt_dec e0 0 then e0 + 2 * PI else e0, e1,
   if Rlt_dec e2 0 then e2 + 2 * PI else e2).

(** defdap/quat.py 198-215. *)
Definition rot_matrix (q : quat) : mat3 :=
  let '(Q4 q0 q1 q2 q3) := q in
  let qbar := q0 ^ 2 - q1 ^ 2 - q2 ^ 2 - q3 ^ 2 in
  M3 (V3 (qbar + 2 * q1 ^ 2) (2 * (q1 * q2 - q0 * q3)) (2 * (q1 * q3 + q0 * q2)))
     (V3 (2 * (q1 * q2 + q0 * q3)) (qbar + 2 * q2 ^ 2) (2 * (q2 * q3 - q0 * q1)))
     (V3 (2 * (q1 * q3 - q0 * q2)) (2 * (q2 * q3 + q0 * q1)) (qbar + 2 * q3 ^ 2)).

(** defdap/quat.py 240-254 [__mul__]. *)
Definition quat_mul (allow_southern : bool) (a b : quat) : quat :=
  let w := qw a * qw b - vdot (qv a) (qv b) in
  let v := vadd (vadd (vscale (qw a) (qv b)) (vscale (qw b) (qv a)))
                (vcross (qv a) (qv b)) in
  Quat allow_southern (Q4 w (vx v) (vy v) (vz v)).

(** defdap/quat.py 256-272. *)
Definition dot (a b : quat) : R :=
  qw a * qw b + qx a * qx b + qy a * qy b + qz a * qz b.

(** defdap/quat.py 275-278 [__add__]. *)
Definition quat_add (a b : quat) : quat :=
  Quat false (Q4 (qw a + qw b) (qx a + qx b) (qy a + qy b) (qz a + qz b)).

(** defdap/quat.py 281-285 [__iadd__]: the new coefficients of the left object. *)
Definition quat_iadd (a b : quat) : quat :=
  Q4 (qw a + qw b) (qx a + qx b) (qy a + qy b) (qz a + qz b).

(** defdap/quat.py 294-303. *)
Definition norm (q : quat) : R := sqrt (dot q q).

(** defdap/quat.py 305-315: the new coefficients. *)
Definition normalise (q : quat) : option quat :=
  let n := norm q in
  if Req_EM_T n 0 then None
  else Some (Q4 (qw q / n) (qx q / n) (qy q / n) (qz q / n)).

(** defdap/quat.py 319-328. *)
Definition conjugate (q : quat) : quat :=
  Quat false (Q4 (qw q) (- qx q) (- qy q) (- qz q)).

(** defdap/quat.py 348-363 (the vector check is not modelled). *)
Definition transform_vector (q : quat) (v : vec3) : vec3 :=
  let vector_quat := Quat true (Q4 0 (vx v) (vy v) (vz v)) in
  qv (quat_mul true q (quat_mul true vector_quat (conjugate q))).

(** defdap/crystal.py 108-169 and 170-188 (symmetries).  The [Quat] constructor
    leaves these alone because no scalar part is negative. *)
Definition over_root2 : R := sqrt 2 / 2.
Definition sqrt3over2 : R := sqrt 3 / 2.

Definition cubic_symmetries : list quat :=
  map (Quat false)
  [ Q4 1 0 0 0;
    Q4 over_root2 over_root2 0 0;
    Q4 0 1 0 0;
    Q4 over_root2 (- over_root2) 0 0;
    Q4 over_root2 0 over_root2 0;
    Q4 0 0 1 0;
    Q4 over_root2 0 (- over_root2) 0;
    Q4 over_root2 0 0 over_root2;
    Q4 0 0 0 1;
    Q4 over_root2 0 0 (- over_root2);
    Q4 0 over_root2 over_root2 0;
    Q4 0 (- over_root2) over_root2 0;
    Q4 0 over_root2 0 over_root2;
    Q4 0 (- over_root2) 0 over_root2;
    Q4 0 0 over_root2 over_root2;
    Q4 0 0 (- over_root2) over_root2;
    Q4 (/2) (/2) (/2) (/2);
    Q4 (/2) (-/2) (-/2) (-/2);
    Q4 (/2) (-/2) (/2) (/2);
    Q4 (/2) (/2) (-/2) (-/2);
    Q4 (/2) (/2) (-/2) (/2);
    Q4 (/2) (-/2) (/2) (-/2);
    Q4 (/2) (/2) (/2) (-/2);
    Q4 (/2) (-/2) (-/2) (/2) ].

Definition hexagonal_symmetries : list quat :=
  map (Quat false)
  [ Q4 1 0 0 0;
    Q4 0 1 0 0;
    Q4 0 0 1 0;
    Q4 0 0 0 1;
    Q4 sqrt3over2 0 0 (/2);
    Q4 (/2) 0 0 sqrt3over2;
    Q4 (/2) 0 0 (- sqrt3over2);
    Q4 sqrt3over2 0 0 (-/2);
    Q4 0 (-/2) (- sqrt3over2) 0;
    Q4 0 (/2) (- sqrt3over2) 0;
    Q4 0 sqrt3over2 (-/2) 0;
    Q4 0 (- sqrt3over2) (-/2) 0 ].

(** defdap/quat.py 1100-1106: look-up in the [crystalStructures] dictionary,
    whose keys are "cubic" and "hexagonal". *)
Definition sym_eqv (symGroup : string) : list quat :=
  if String.eqb symGroup "cubic" then cubic_symmetries
  else if String.eqb symGroup "hexagonal" then hexagonal_symmetries
  else [Quat false (Q4 1 0 0 0)].

(** defdap/quat.py 396-403: one pass of the loop over symmetries.  The state is
    [min_mis_ori] and [min_quat_sym], unassigned before the first hit. *)
Definition mis_ori_step (self right : quat) (acc : R * option quat) (sym : quat)
  : R * option quat :=
  let quat_sym := quat_mul false sym right in
  let current := Rabs (dot self quat_sym) in
  if Rlt_dec (fst acc) current then (current, Some quat_sym) else acc.

(** defdap/quat.py 365-411 with return_quat = 2 ([None] in the second component
    is the unassigned variable, an UnboundLocalError). *)
Definition mis_ori_full (self right : quat) (symGroup : string)
  : R * option quat :=
  fold_left (mis_ori_step self right) (sym_eqv symGroup) (0, None).

(** return_quat = 0. *)
Definition mis_ori (self right : quat) (symGroup : string) : R :=
  fst (mis_ori_full self right symGroup).

(** defdap/quat.py 413-434; None where the division is 0/0. *)
Definition mis_ori_axis (self right : quat) : option vec3 :=
  let Dq := quat_mul false right (conjugate self) in
  let s := sqrt (1 - qw Dq ^ 2) in
  if Req_EM_T s 0 then None
  else Some (V3 (2 * qx Dq * acos (qw Dq) / s)
                (2 * qy Dq * acos (qw Dq) / s)
                (2 * qz Dq * acos (qw Dq) / s)).

(** defdap/quat.py 608-625 on a flat array of Euler angle triples. *)
Definition create_many_quats (eulers : list (R * R * R)) : list quat :=
  let comps := map (fun e : R * R * R =>
    let '(ph1, phi, ph2) := e in
    Q4 (cos (phi / 2) * cos ((ph1 + ph2) / 2))
       (- sin (phi / 2) * cos ((ph1 - ph2) / 2))
       (- sin (phi / 2) * sin ((ph1 - ph2) / 2))
       (- cos (phi / 2) * sin ((ph1 + ph2) / 2))) eulers in
  map (Quat false) comps.

(** defdap/quat.py 642-653. *)
Definition multiply_many_quats (quats : list quat) (right : quat) : list quat :=
  let temp := map (fun q =>
    let c := vcross (qv q) (qv right) in
    Q4 (qw q * qw right - vdot (qv q) (qv right))
       (qw q * qx right + qw right * qx q + vx c)
       (qw q * qy right + qw right * qy q + vy c)
       (qw q * qz right + qw right * qz q + vz c)) quats in
  map (Quat false) temp.

(** defdap/quat.py 711-726: the coefficients of symmetry [sym] applied to one
    point, then the swap into the positive hemisphere. *)
Definition sym_comps (sym q : quat) : quat :=
  let c := Q4
    (qw q * qw sym - qx q * qx sym - qy q * qy sym - qz q * qz sym)
    (qw q * qx sym + qx q * qw sym - qy q * qz sym + qz q * qy sym)
    (qw q * qy sym + qy q * qw sym - qz q * qx sym + qx q * qz sym)
    (qw q * qz sym + qz q * qw sym - qx q * qy sym + qy q * qx sym) in
  if Rlt_dec (qw c) 0 then qneg c else c.

(** defdap/quat.py 702-728.  The array of shape (numSym, 4, numQuats) is a list
    over symmetries of lists over points.  Row 0 is the raw input. *)
Definition calc_sym_eqvs (quats : list quat) (symGroup : string)
  : list (list quat) :=
  quats :: map (fun sym => map (sym_comps sym) quats) (tl (sym_eqv symGroup)).

(** numpy argmax: the first position of a maximum. *)
Fixpoint argmax_from (best : R) (bi i : nat) (l : list R) : nat :=
  match l with
  | [] => bi
  | a :: l => if Rlt_dec best a then argmax_from a i (S i) l
              else argmax_from best bi (S i) l
  end.
Definition argmax (l : list R) : nat :=
  match l with [] => 0 | a :: l => argmax_from a 0 1 l end.

(** The column [quat_comps[:, :, i]]. *)
Definition column (comps : list (list quat)) (i : nat) : list quat :=
  map (fun row => nth i row (Q4 0 0 0 0)) comps.

(** defdap/quat.py 750-759: one pass of the averaging loop. *)
Definition average_step (av : quat) (col : list quat) : quat :=
  let max_idx := argmax (map (fun c => Rabs (dot c av)) col) in
  quat_iadd av (nth max_idx col (Q4 0 0 0 0)).

(** defdap/quat.py 731-767.  None for an empty array (IndexError) or a zero
    sum (nan). *)
Definition calc_average_ori (comps : list (list quat)) : option quat :=
  match comps with
  | (q :: rest) :: _ =>
    let av := fold_left average_step
                (map (column comps) (seq 1 (List.length rest))) q in
    normalise (Quat false av)
  | _ => None
  end.

(** defdap/quat.py 793-806 for one point, whose column is [col]: the clipped
    largest |dot| and the component set attaining it. *)
Definition calc_mis_ori_point (col : list quat) (ref_ori : quat) : R * quat :=
  let mis := map (fun c => Rabs (dot c ref_ori)) col in
  let k := argmax mis in
  let m := nth k mis 0 in
  (if Rlt_dec 1 m then 1 else m, nth k col (Q4 0 0 0 0)).

(** defdap/quat.py 770-806 [calcMisOri]. *)
Definition calcMisOri (comps : list (list quat)) (ref_ori : quat)
  : list (R * quat) :=
  match comps with
  | [] => []
  | row :: _ => map (fun i => calc_mis_ori_point (column comps i) ref_ori)
                    (seq 0 (List.length row))
  end.
