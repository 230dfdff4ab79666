(** Inverse pole figures: fundamental directions and colours, defdap/quat.py 840-1082,
    over the real numbers (rounding to the number type asked for is not modelled). *)
From Coq Require Import Reals List ZArith Bool String.
Import ListNotations.
From Verif Require Import Py Quat_Model Pole_Model.
Open Scope R_scope.

(** 1001-1040: the sample direction [d] in crystal coordinates. *)
Definition crystal_dir (q : quat) (d : vec3) : vec3 :=
  let quat_dot_vec := qx q * vx d + qy q * vy d + qz q * vz d in
  let temp := qw q ^ 2 - qx q ^ 2 - qy q ^ 2 - qz q ^ 2 in
  V3 (2 * quat_dot_vec * qx q + temp * vx d + 2 * qw q * (qy q * vz d - qz q * vy d))
     (2 * quat_dot_vec * qy q + temp * vy d + 2 * qw q * (qz q * vx d - qx q * vz d))
     (2 * quat_dot_vec * qz q + temp * vz d + 2 * qw q * (qx q * vy d - qy q * vx d)).
(** 1042-1053 for one vector: normalised, moved into the northern hemisphere, as polar
    angles; [None] are nans, from the zero vector. *)
Definition northern_angles (v : vec3) : option (R * R) :=
  let m := sqrt (vx v * vx v + vy v * vy v + vz v * vz v) in
  if Req_EM_T m 0 then None
  else polar_angles (north (V3 (vx v / m) (vy v / m) (vz v / m))).
(** The polar angles of one orientation for all symmetries, a column of the arrays. *)
Definition image_angles (g : string) (d : vec3) (q : quat) : list (option (R * R)) :=
  map (fun p => northern_angles (crystal_dir p d)) (q :: map (fun s => sym_comps s q) (tl (sym_eqv g))).

(** 1055-1072: the range of azimuths and the number of images needed in it.  A wrong name
    of the triangle is not raised as an error, and the name [beta_range] is then unbound.
    [default] is the package default for the triangle. *)
Definition beta_range (g : string) (triangle : option string) (default : string) : res (R * R * nat) :=
  if String.eqb g "cubic" then Ok (PI / 2, 3 / 4 * PI, 3%nat)
  else if String.eqb g "hexagonal" then
    let t := match triangle with Some t => t | None => default end in
    if String.eqb t "up" then Ok (PI / 2, 2 / 3 * PI, 1%nat)
    else if String.eqb t "down" then Ok (1 / 3 * PI, PI / 2, 1%nat)
    else Err UnboundLocalError
  else Err ValueError.

Definition trial (lo hi : R) (o : option (R * R)) : bool :=
  match o with
  | Some (_, b) => (if Rle_dec lo b then true else false) && (if Rle_dec b hi then true else false)
  | None => false
  end.
Definition count {A} (f : A -> bool) (l : list A) : nat := List.length (filter f l).
(** 1067-1074: the limits used; if any column has too few, they are widened for all. *)
Definition limits (lo hi : R) (need : nat) (cols : list (list (option (R * R)))) : R * R :=
  if existsb (fun col => (count (trial lo hi) col <? need)%nat) cols
  then (lo - / 100000000, hi + / 100000000) else (lo, hi).

(** [np.nanargmin]: the first place of the least number; [None] if all are nan, which
    raises ValueError. *)
Fixpoint nanargmin_from (best : option (R * nat)) (i : nat) (l : list (option R)) : option nat :=
  match l with
  | [] => match best with Some (_, k) => Some k | None => None end
  | None :: l => nanargmin_from best (S i) l
  | Some a :: l =>
      match best with
      | None => nanargmin_from (Some (a, i)) (S i) l
      | Some (b, _) => if Rlt_dec a b then nanargmin_from (Some (a, i)) (S i) l else nanargmin_from best (S i) l
      end
  end.
Definition nanargmin (l : list (option R)) : option nat := nanargmin_from None 0 l.
(** [argmax] of truth values: the first true, or 0. *)
Fixpoint first_true (i : nat) (l : list bool) : nat :=
  match l with [] => O | true :: _ => i | false :: l => first_true (S i) l end.

(** 1074-1082 for one column. *)
Definition pick (g : string) (lo hi : R) (col : list (option (R * R))) : res (option (R * R)) :=
  if String.eqb g "cubic" then
    match nanargmin (map (fun o => if trial lo hi o then option_map fst o else None) col) with
    | Some k => Ok (nth k col None)
    | None => Err ValueError
    end
  else Ok (nth (first_true 0 (map (trial lo hi) col)) col None).
(** 954-1082: inclination and azimuth of each orientation. *)
Definition calc_fund_dirs (quats : list quat) (d : vec3) (g : string) (triangle : option string) (default : string)
  : res (list (option (R * R))) :=
  let cols := map (image_angles g d) quats in
  do r <- beta_range g triangle default;
  let '(lo, hi, need) := r in
  let '(lo', hi') := limits lo hi need cols in
  fold_right (fun col acc => do o <- pick g lo' hi' col; do l <- acc; Ok (o :: l)) (Ok []) cols.

(** ** Colours *)

Definition clip (x : R) : R := Rmin (Rmax x (-1)) 1.
(** 896-913, and likewise 915-946, for one direction: [pole] has the colour and [plane] is
    the normal of the plane of the other two poles.  [None] is a division by zero. *)
Definition component (d pole plane : vec3) : option R :=
  let i := vcross (vcross d pole) plane in
  let n := sqrt (vx i ^ 2 + vy i ^ 2 + vz i ^ 2) in
  let n := if Req_EM_T n 0 then 1 else n in
  let i := V3 (vx i / n) (vy i / n) (vz i / n) in
  let i := if Rlt_dec (PI / 2) (acos (clip (vdot d i))) then vscale (-1) i else i in
  let below := acos (clip (vdot pole i)) in
  if Req_EM_T below 0 then None else Some (acos (clip (vdot d i)) / below).
(** 878-891 *)
Definition poles (g : string) : res (vec3 * vec3 * vec3) :=
  if String.eqb g "cubic" then
    Ok (V3 0 0 1, V3 0 (1 / sqrt 2) (1 / sqrt 2), V3 (-1 / sqrt 3) (1 / sqrt 3) (1 / sqrt 3))
  else if String.eqb g "hexagonal" then
    Ok (V3 0 0 1, V3 0 1 0, V3 (-1 / 2) (sqrt 3 / 2) 0)
  else Err ValueError.
(** 894-948: the colour of one direction; the planes are b x g, r x b and g x r. *)
Definition dir_colour (ps : vec3 * vec3 * vec3) (d : vec3) : option (R * R * R) :=
  let '(r, g, b) := ps in
  match component d r (vcross b g), component d g (vcross r b), component d b (vcross g r) with
  | Some x, Some y, Some z =>
      let m := Rmax x (Rmax y z) in
      if Req_EM_T m 0 then None else Some (x / m, y / m, z / m)
  | _, _, _ => None
  end.
(** 840-950 *)
Definition calc_ipf_colours (quats : list quat) (d : vec3) (g : string) (default : string) : res (list (option (R * R * R))) :=
  do angles <- calc_fund_dirs quats d g (Some "up"%string) default;
  do ps <- poles g;
  Ok (map (fun o => match o with
                    | Some (a, b) => dir_colour ps (V3 (sin a * cos b) (sin a * sin b) (cos a))
                    | None => None
                    end) angles).
