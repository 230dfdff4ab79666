(** Specification vocabulary for the EBSD map properties, written without the
    functions of [Ebsd_Model]. *)
From Coq Require Import String Reals.
From Coq Require Import List ZArith Bool.
Import ListNotations.
From Verif Require Import Py Grid Quat_Model Quat_Spec.
Open Scope Z_scope.

Definition on_map (W H : Z) (p : pix) : Prop := 0 <= fst p < W /\ 0 <= snd p < H.

(** The mean of a list of numbers. *)
Definition mean (l : list R) : R := (fold_right Rplus 0 l / INR (List.length l))%R.

(** The positions before and after [i] that exist on a line of length [n]. *)
Definition beside (n i : Z) : list Z := filter (fun j => (0 <=? j) && (j <? n)) [i - 1; i + 1].
Definition vertical (H : Z) (p : pix) : list pix := map (fun y => (fst p, y)) (beside H (snd p)).
Definition horizontal (W : Z) (p : pix) : list pix := map (fun x => (x, snd p)) (beside W (fst p)).
Definition four_neighbours (W H : Z) (p : pix) : list pix := vertical H p ++ horizontal W p.

(** The mean over the vertical neighbours averaged with that over the
    horizontal ones. *)
Definition cross_mean (W H : Z) (p : pix) (f : pix -> R) : R :=
  ((mean (map f (vertical H p)) + mean (map f (horizontal W p))) / 2)%R.

(** The pixel seen in the same place after turning the map by 180 degrees. *)
Definition turned (W H : Z) (p : pix) : pix := (W - 1 - fst p, H - 1 - snd p).

(** Sum of quaternions, component by component. *)
Definition qzero : quat := Q4 0 0 0 0.
Definition total (l : list quat) : quat := fold_right qsum qzero l.
(** [n] is [q] scaled to length one. *)
Definition scaled_to_unit (q n : quat) : Prop :=
  unitq n /\ exists k, (0 < k)%R /\ q = Q4 (k * qw n) (k * qx n) (k * qy n) (k * qz n).

(** A 3x3 block of pixels, first pixel [(x, y)], row by row. *)
Definition block (x y : Z) : list pix :=
  [(x, y); (x + 1, y); (x + 2, y);
   (x, y + 1); (x + 1, y + 1); (x + 2, y + 1);
   (x, y + 2); (x + 1, y + 2); (x + 2, y + 2)].
(** The eight blocks of the 5x5 surroundings of [p] that contain [p] and are not
    centred on it. *)
Definition blocks (p : pix) : list (list pix) :=
  let '(x, y) := p in
  [block (x - 2) (y - 2); block (x - 1) (y - 2); block x (y - 2); block x (y - 1);
   block x y; block (x - 1) y; block (x - 2) y; block (x - 2) (y - 1)].

(** Orientations within a misorientation angle (symmetry not considered). *)
Definition within (tol : R) (c q : quat) : Prop := (rot_angle c q < tol)%R.

(** [picked P l s]: [s] holds the members of [l] with property [P], in order. *)
Inductive picked {A} (P : A -> Prop) : list A -> list A -> Prop :=
| pk_nil : picked P [] []
| pk_yes : forall a l s, P a -> picked P l s -> picked P (a :: l) (a :: s)
| pk_no : forall a l s, ~ P a -> picked P l s -> picked P (a :: l) s.

(** Components of a matrix; a matrix less the identity. *)
Definition mentry (m : mat3) : list R :=
  [vx (r0 m); vy (r0 m); vz (r0 m); vx (r1 m); vy (r1 m); vz (r1 m); vx (r2 m); vy (r2 m); vz (r2 m)].
Definition less_one (m : mat3) : mat3 :=
  M3 (V3 (vx (r0 m) - 1) (vy (r0 m)) (vz (r0 m)))
     (V3 (vx (r1 m)) (vy (r1 m) - 1) (vz (r1 m)))
     (V3 (vx (r2 m)) (vy (r2 m)) (vz (r2 m) - 1)).
Definition no_tensor : mat3 := M3 (V3 0 0 0) (V3 0 0 0) (V3 0 0 0).
(** The Nye tensor from the changes of orientation per metre along x ([bx]) and y
    ([by_]) and the Burgers vector length [b]. *)
Definition nye_tensor (b : R) (bx by_ : mat3) : mat3 :=
  let row x y := V3 (- vz y / b) (vz x / b) ((vx y - vy x) / b) in
  M3 (row (r0 bx) (r0 by_)) (row (r1 bx) (r1 by_)) (row (r2 bx) (r2 by_)).
(** The change of orientation per metre from [q] to [c] one step apart (step in
    micrometres). *)
Definition gradient (step : R) (q c : quat) : mat3 :=
  let d := less_one (mprod (transpose (rot_matrix c)) (rot_matrix q)) in
  let k := (/ (step / 10 ^ 6))%R in
  M3 (V3 (k * vx (r0 d)) (k * vy (r0 d)) (k * vz (r0 d)))
     (V3 (k * vx (r1 d)) (k * vy (r1 d)) (k * vz (r1 d)))
     (V3 (k * vx (r2 d)) (k * vy (r2 d)) (k * vz (r2 d))).
(** [c] is an equivalent of [p] closest to [q]. *)
Definition closest (g : string) (q p c : quat) : Prop :=
  equivalent (sym_eqv g) p c /\
  forall c', equivalent (sym_eqv g) p c' -> (Rabs (inner q c') <= Rabs (inner q c))%R.

(** Events of the grain linking tool: a click on a linking plot (on its axes or
    not), the link button, resetting, and selecting or clearing the grain of a map
    elsewhere. *)
Inductive link_event :=
| ev_click (on_axes : bool)
| ev_link
| ev_reset
| ev_select (map : nat) (g : option Z).

(** The last of the links that has grain [g] for map [i]. *)
Fixpoint last_link (i : nat) (g : Z) (links : list (list Z)) : option (list Z) :=
  match links with
  | [] => None
  | l :: ls =>
      match last_link i g ls with
      | Some l' => Some l'
      | None => match nth_error l i with Some g' => if g' =? g then Some l else None | None => None end
      end
  end.

(** Euler colours: each angle over the range the colouring uses for it. *)
Definition euler_range (name : string) : R * R * R :=
  if String.eqb name "cubic" then (2 * PI, PI / 2, PI / 2)%R else (PI, PI, PI / 3)%R.
Definition over (e n : R * R * R) : R * R * R :=
  (fst (fst e) / fst (fst n), snd (fst e) / snd (fst n), snd e / snd n)%R.
Definition known (name : string) : Prop := name = "cubic"%string \/ name = "hexagonal"%string.
