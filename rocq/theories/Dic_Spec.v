(** Vocabulary for DIC maps and frames. *)
From Coq Require Import Reals List ZArith.
Import ListNotations.
From Verif Require Import Py Grid Base_Model Dic_Model.
Open Scope Z_scope.

(** A displacement field linear in the position (in pattern pixels, [b] per data
    pixel): gradient [g] plus a constant. *)
Definition linear_field (b : R) (g : Z -> Z -> R) (k : Z -> R) (u : Z -> pix -> R) : Prop :=
  forall c p, u c p = (k c + g c 0%Z * (b * IZR (fst p)) + g c 1%Z * (b * IZR (snd p)))%R.

Definition delta (i j : Z) : R := if i =? j then 1%R else 0%R.

(** Rotations of the plane, by their matrix. *)
Definition rot (t : R) (i j : Z) : R :=
  if i =? j then cos t else if i =? 0 then (- sin t)%R else sin t.
Definition axis (i : Z) : Prop := i = 0 \/ i = 1.
Definition orthogonal (q : Z -> Z -> R) : Prop :=
  forall i j, axis i -> axis j -> (q 0%Z i * q 0%Z j + q 1%Z i * q 1%Z j)%R = delta i j.

(** Calls of [set_crop]. *)
Record crop_call := Call { k_left : option Z; k_right : option Z; k_top : option Z; k_bottom : option Z; k_update : bool }.
Definition run_crops (m : dic_map) (calls : list crop_call) : res dic_map :=
  for_each (fun m c => set_crop m (k_left c) (k_right c) (k_top c) (k_bottom c) (k_update c)) calls m.

(** The last value given, or the default. *)
Definition last_given (d : Z) (l : list (option Z)) : Z :=
  fold_left (fun d o => match o with Some v => v | None => d end) l d.

(** Crops that leave something or nothing, but not less. *)
Definition fitting (m : dic_map) : Prop :=
  let c := d_crops m in
  0 <= c_left c /\ 0 <= c_right c /\ c_left c + c_right c <= d_xdim m /\
  0 <= c_top c /\ 0 <= c_bottom c /\ c_top c + c_bottom c <= d_ydim m.
(** The shape belongs to the crops. *)
Definition consistent (m : dic_map) : Prop :=
  d_shape m = (d_ydim m - c_top (d_crops m) - c_bottom (d_crops m),
               d_xdim m - c_left (d_crops m) - c_right (d_crops m)).

(** Coordinates of a point with two. *)
Definition at_xy (p : point) (x y : R) : Prop := p = PTuple [x; y] \/ p = PSeq [x; y].
Definition pairs (l : list point) : Prop := Forall (fun p => exists x y, at_xy p x y) l.
(** Position of homologous points on the whole, uncropped, map. *)
Definition on_material (m : dic_map) (xys : list (R * R)) : Prop :=
  Forall2 (fun p xy => at_xy p (fst xy - IZR (c_left (d_crops m))) (snd xy - IZR (c_top (d_crops m))))%R
          (d_homog m) xys.

(** Rows plus columns between two pixels. *)
Definition taxi (p q : pix) : Z := Z.abs (fst p - fst q) + Z.abs (snd p - snd q).

(** Half-integers. *)
Definition half_integer (x : R) : Prop := exists n, x = (IZR n + 1/2)%R.
