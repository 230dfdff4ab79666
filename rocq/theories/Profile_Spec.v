(** Vocabulary for line profiles. *)
From Coq Require Import Reals ZArith Bool.
From Coq Require Import List.
From Verif Require Import Py Grid Base_Model Profile_Model.
Import ListNotations.
Open Scope Z_scope.

Definition dist (x0 y0 x1 y1 : R) : R := sqrt ((x1 - x0) ^ 2 + (y1 - y0) ^ 2).
(** The point [i] of [n] equally spaced from one end of the line to the other. *)
Definition along (a b : R) (n i : nat) : R := (a + (b - a) * (INR i / INR (n - 1)))%R.
(** The point of the map nearest to a coordinate, along an axis of [n] pixels. *)
Definition onto (n : Z) (c c' : R) : Prop :=
  (c <= 0 -> c' = 0)%R /\ (IZR (n - 1) <= c -> c' = IZR (n - 1))%R /\ (0 <= c <= IZR (n - 1) -> c' = c)%R.

(** The last press on the axes. *)
Fixpoint last_press (es : list event) : option (R * R) :=
  match es with
  | [] => None
  | e :: es =>
      match last_press es with
      | Some p => Some p
      | None => match e with Press true x y => Some (x, y) | _ => None end
      end
  end.

(** [v] is the value of the image at the position, linear between the four pixels around it;
    a pixel outside the map has weight 0. *)
Definition value_at (im : image R) (x y v : R) : Prop :=
  exists x' y' c r s t, onto (im_w im) x x' /\ onto (im_h im) y y' /\
    x' = (IZR c + s)%R /\ (0 <= s < 1)%R /\ y' = (IZR r + t)%R /\ (0 <= t < 1)%R /\
    inside (im_w im) (im_h im) (c, r) /\ (c = im_w im - 1 -> s = 0%R) /\ (r = im_h im - 1 -> t = 0%R) /\
    v = ((1 - t) * ((1 - s) * im_at im (c, r) + s * im_at im (c + 1, r)%Z)
         + t * ((1 - s) * im_at im (c, r + 1)%Z + s * im_at im (c + 1, r + 1)%Z))%R.
