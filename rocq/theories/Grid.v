(** Pixels and images.  A numpy array of shape (H, W) is a total function on
    pixels together with W and H; [inside] says which pixels exist. *)
From Coq Require Import List ZArith Bool Lia.
Import ListNotations.
From Verif Require Import Py.
Open Scope Z_scope.

(** A pixel is (x, y), i.e. (column, row): numpy's [a[y, x]] is [a (x, y)]. *)
Definition pix := (Z * Z)%type.

Definition pix_eqb (p q : pix) : bool :=
  (fst p =? fst q) && (snd p =? snd q).

Definition insideb (W H : Z) (p : pix) : bool :=
  (0 <=? fst p) && (fst p <? W) && (0 <=? snd p) && (snd p <? H).

Definition inside (W H : Z) (p : pix) : Prop :=
  0 <= fst p < W /\ 0 <= snd p < H.

(** [a[y, x] = v]. *)
Definition upd {A} (f : pix -> A) (p : pix) (v : A) : pix -> A :=
  fun q => if pix_eqb p q then v else f q.

(** [a[y, x]] in compiled code: the model refuses an access outside. *)
Definition aget {A} (W H : Z) (f : pix -> A) (p : pix) : res A :=
  if insideb W H p then Ok (f p) else Err OutOfBounds.

(** C-order (raster) position of a pixel and back ([np.unravel_index]). *)
Definition flat (W : Z) (p : pix) : Z := snd p * W + fst p.
Definition unflat (W : Z) (i : Z) : pix := (i mod W, i / W).

(** All pixels in raster order. *)
Definition all_pix (W H : Z) : list pix :=
  map (unflat W) (zseq 0 (Z.to_nat (W * H))).

(** Membership of a pixel in a list, as a boolean. *)
Definition pix_in (p : pix) (l : list pix) : bool := existsb (pix_eqb p) l.
