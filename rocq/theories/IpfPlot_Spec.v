(** Vocabulary for plots of inverse pole figures. *)
From Coq Require Import String Reals ZArith.
From Coq Require Import List.
From Verif Require Import Py Quat_Model Quat_Spec Crystal_Model Pole_Model Pole_Spec Ipf_Spec.
Import ListNotations.
Open Scope R_scope.

(** The two projections of the package. *)
Inductive proj_kind := StereoKind | LambertKind.
Definition project_of (k : proj_kind) : list R -> res (option (R * R)) :=
  match k with StereoKind => stereo_project | LambertKind => lambert_project end.
(** The image of a direction. *)
Definition image (k : proj_kind) (v : vec3) : res (option (R * R)) := project_of k [vx v; vy v; vz v].

(** Directions inside the triangle of a crystal type. *)
Definition inside_triangle (g : string) (up : bool) (v : vec3) : Prop :=
  (g = "cubic"%string /\ inside_triangle_cubic v) \/ (g = "hexagonal"%string /\ inside_triangle_hex up v).
(** The corners of the triangle as unit-free directions: [001], [011] and [-111] of cubic
    crystals; c, a2 and the bisector of it and its neighbour for hexagonal ones. *)
Definition corners (g : string) (up : bool) : list vec3 :=
  if String.eqb g "cubic" then [V3 0 0 1; V3 0 1 1; V3 (-1) 1 1]
  else [V3 0 0 1; V3 0 1 0; V3 (if up then - 1 / 2 else 1 / 2) (sqrt 3 / 2) 0].
(** Directions spanned by three others. *)
Definition spanned (cs : list vec3) (v : vec3) : Prop :=
  match cs with
  | [a; b; c] => exists x y z, 0 <= x /\ 0 <= y /\ 0 <= z /\
      v = V3 (x * vx a + y * vx b + z * vx c) (x * vy a + y * vy b + z * vy c) (x * vz a + y * vz b + z * vz c)
  | _ => False
  end.

(** The part of the plane inside the frame, by the curves that bound it.  The hexagonal
    frame is a sector of 30 degrees of the disc.  The cubic frame is a sector of 45 degrees
    cut by the image of the great circle y = z. *)
Definition in_frame (k : proj_kind) (g : string) (up : bool) (P : R * R) : Prop :=
  let '(X, Y) := P in
  let r2 := X ^ 2 + Y ^ 2 in
  if String.eqb g "cubic" then
    0 <= Y <= X /\
    match k with
    | StereoKind => (X + 1) ^ 2 + Y ^ 2 <= 2
    | LambertKind => r2 <= 2 /\ X * sqrt (1 - r2 / 4) <= 1 - r2 / 2
    end
  else
    (if up then 0 <= Y /\ Y * sqrt 3 <= X else Y <= 0 /\ - Y * sqrt 3 <= X) /\
    r2 <= match k with StereoKind => 1 | LambertKind => 2 end.
(** The three sides of the frame. *)
Definition on_side (k : proj_kind) (g : string) (up : bool) (side : nat) (P : R * R) : Prop :=
  in_frame k g up P /\
  let '(X, Y) := P in
  let r2 := X ^ 2 + Y ^ 2 in
  match side with
  | O => Y = 0
  | S O => if String.eqb g "cubic" then Y = X else if up then Y * sqrt 3 = X else - Y * sqrt 3 = X
  | _ => if String.eqb g "cubic" then
           match k with
           | StereoKind => (X + 1) ^ 2 + Y ^ 2 = 2
           | LambertKind => X * sqrt (1 - r2 / 4) = 1 - r2 / 2
           end
         else r2 = match k with StereoKind => 1 | LambertKind => 2 end
  end.
(** A polyline along a side of the frame, from the image of [a] to that of [b]. *)
Definition along_side (k : proj_kind) (g : string) (up : bool) (side : nat) (a b : vec3) (l : list (option (R * R))) : Prop :=
  List.length l = 100%nat /\
  (exists P, image k a = Ok (Some P) /\ nth_error l 0 = Some (Some P)) /\
  (exists P, image k b = Ok (Some P) /\ nth_error l 99 = Some (Some P)) /\
  forall o, In o l -> exists P, o = Some P /\ on_side k g up side P.
(** The triangle that goes with the configured convention: "down", or else up. *)
Definition is_up (triangle : string) : bool := negb (String.eqb triangle "down").
(** The frame is drawn in the coordinates of the orientations: always for cubic crystals,
    for hexagonal ones with x along [10-10] and y along [-12-10]. *)
Definition y_along_a2 (conv : string) : Prop := lower conv = "hkl"%string \/ lower conv = "oi"%string.
