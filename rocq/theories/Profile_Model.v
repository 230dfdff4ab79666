(** Line profiles: defdap/plotting.py 255-287 [line_slice] and defdap/base.py 219-272. *)
From Coq Require Import Reals ZArith Bool.
From Coq Require Import List.
From Verif Require Import Py Grid Base_Model Pole_Model.
Import ListNotations.
Open Scope Z_scope.

(** ** Drawing the line *)
(** Mouse events: whether they are on the axes of the plot, and where. *)
Inductive event := Press (on_axes : bool) (x y : R) | Release (on_axes : bool) (x y : R).
(** plotting.py 275-287: the stored first point ([self.p1], at first an empty list) and the
    arguments of the action, if it is called.  The arrow is left out. *)
Definition line_slice (p1 : option (R * R)) (e : event) : option (R * R) * res (option (R * R * (R * R))) :=
  match e with
  | Press true x y => (Some (x, y), Ok None)
  | Release true x y =>
      (p1, match p1 with Some p => Ok (Some (p, (x, y))) | None => Err IndexError end)
  | _ => (p1, Ok None)
  end.
Fixpoint drag (p1 : option (R * R)) (es : list event) : list (res (option (R * R * (R * R)))) :=
  match es with
  | [] => []
  | e :: es => let '(p1, r) := line_slice p1 e in r :: drag p1 es
  end.

(** ** The profile *)
(** [np.ceil] *)
Definition ceil (x : R) : Z := - Int_part (- x).
(** scipy [map_coordinates] with order 1 and mode nearest, one axis of [n] values. *)
Definition lerp (n : Z) (f : Z -> R) (c : R) : R :=
  let c := Rmax 0 (Rmin c (IZR (n - 1))) in
  let i := Int_part c in
  let t := (c - IZR i)%R in
  ((1 - t) * f i + t * f (Z.min (i + 1) (n - 1)))%R.
Definition interpolate (im : image R) (x y : R) : R :=
  lerp (im_h im) (fun r => lerp (im_w im) (fun c => im_at im (c, r)) x) y.
(** skimage [profile_line] of width 1 on an image of one number per pixel, not boolean: its
    values. *)
Definition profile_line (im : image R) (x0 y0 x1 y1 : R) : list R :=
  let n := Z.to_nat (ceil (sqrt ((y1 - y0) ^ 2 + (x1 - x0) ^ 2) + 1)) in
  map (fun xy => interpolate im (fst xy) (snd xy)) (combine (linspace x0 x1 n) (linspace y0 y1 n)).
(** base.py 250-262: distances and values of the curve.  The array of the layer is masked
    where the map is hidden; [profile_line] works on the values below. *)
Definition line_profile (im : image R) (hidden : pix -> bool) (x0 y0 x1 y1 : R) : list R * list R :=
  let len := sqrt ((y1 - y0) ^ 2 + (x1 - x0) ^ 2) in
  let zi := profile_line im x0 y0 x1 y1 in
  (linspace 0 len (List.length zi), zi).
