(** Grains of a DIC map taken from a linked EBSD map: defdap/hrdic.py 424-445, 569-621 and
    defdap/experiment.py 44-107. *)
From Coq Require Import String Reals.
From Coq Require Import List ZArith Bool.
From Verif Require Import Py Grid Base_Model Dic_Model DicGrains_Model.
Import ListNotations.
Open Scope Z_scope.

(** defdap/experiment.py 68-69, [np.array(frame.homog_points)]: pairs of numbers; other points are
    refused here, not later in the estimation. *)
Definition coords (pts : list point) : res (list (R * R)) :=
  map_res (fun p => match p with PTuple [x; y] | PSeq [x; y] => Ok (x, y) | _ => Err ValueError end) pts.

(** defdap/experiment.py 107, [skimage.transform.warp] of labels with order 0 and preserve_range.  Whole
    numbers stay whole only on the way through [scipy.ndimage.map_coordinates] (skimage 0.19 on), which
    has mode 'constant': 0 for a pixel that is moved outside the centres of the outer pixels, otherwise
    the value at the pixel nearest to where it is moved to, halves upwards. *)
Definition on_rows (n : Z) (x : R) : bool :=
  (if Rle_dec 0 x then true else false) && (if Rle_dec x (IZR (n - 1)) then true else false).
Definition half_up (x : R) : Z := Int_part (x + 1/2).
Definition warp_nearest (W H : Z) (img : pix -> Z) (t : R * R -> R * R) (p : pix) : Z :=
  let q := t (IZR (fst p), IZR (snd p)) in
  if on_rows W (fst q) && on_rows H (snd q) then img (half_up (fst q), half_up (snd q)) else 0.

Section Link.
(** skimage's [estimate] and [inverse], transforms being maps of the plane. *)
Notation trans := (R * R -> R * R).
Variable estimate : transform_class -> list (R * R) -> list (R * R) -> list (string * Z) -> trans.
Variable inverse : trans -> trans.
(** The frames' names; relations stored in the experiment; the EBSD map: homologous points, width,
    height, labels, number of grains. *)
Variables dic ebsd : frame.
Variable r : relations.
Record ebsd_side := EbsdSide { s_points : list point; s_w : Z; s_h : Z; s_labels : pix -> Z; s_grains : nat }.

(** defdap/experiment.py 96, for the frames given at defdap/hrdic.py 443. *)
Definition to_ebsd (m : dic_map) (e : ebsd_side) : res trans :=
  do dp <- coords (d_homog m);
  do ep <- coords (s_points e);
  get_frame_transform estimate inverse (fun f => if f =? dic then dp else ep) r dic ebsd.
(** defdap/hrdic.py 424-445 [warp_to_dic_frame] of the labels, for pixels of the shape of the DIC map;
    the check that a map is linked is left out. *)
Definition warped_labels (m : dic_map) (e : ebsd_side) : res (pix -> Z) :=
  do t <- to_ebsd m e; Ok (warp_nearest (s_w e) (s_h e) (s_labels e) t).
(** defdap/hrdic.py 569-621, 692-703 [find_grains] with algorithm 'warp'. *)
Definition find_warped (m : dic_map) (e : ebsd_side) : res ((pix -> Z) * list dic_grain) :=
  do w <- warped_labels m e; warp_find_grains (snd (d_shape m)) (fst (d_shape m)) w (s_grains e).
End Link.
