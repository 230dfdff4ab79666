(** Model of defdap/hrdic.py (strain, cropping, masking, patterns) and of
    defdap/experiment.py (homologous points, linked frames, warping).

    Reals for floats; rounding is not modelled. *)
From Coq Require Import String Reals.
From Coq Require Import List ZArith Bool.
Import ListNotations.
From Verif Require Import Py Grid Crystal_Model Base_Model.
Open Scope Z_scope.

(** ** Strain *)

(** [np.gradient] along one axis of [n] values with spacing [h], at [i]: central
    differences, one-sided at the ends. *)
Definition grad1 (n : Z) (h : R) (f : Z -> R) (i : Z) : R :=
  if i =? 0 then ((f 1%Z - f 0%Z) / h)%R
  else if i =? n - 1 then ((f (n - 1)%Z - f (n - 2)%Z) / h)%R
  else ((f (i + 1)%Z - f (i - 1)%Z) / (2 * h))%R.

(** A second order tensor map: component (i, j) at a pixel. *)
Definition tensor := Z -> Z -> pix -> R.

(** defdap/hrdic.py 127-130: [np.gradient(displacement, binning, axis=(1, 2))]
    gives [d/dy, d/dx]; the transpose makes (component, axis), the reversal puts x
    first, and one is added on the diagonal.  An axis of fewer than two values is
    a ValueError. *)
Definition deformation_gradient (W H : Z) (binning : R) (u : Z -> pix -> R) : res tensor :=
  if (W <? 2) || (H <? 2) then Err ValueError
  else
    let g axis c p :=
      if axis =? 0 then grad1 H binning (fun y => u c (fst p, y)) (snd p)
      else grad1 W binning (fun x => u c (x, snd p)) (fst p) in
    let f i j p := g (1 - j) i p in
    Ok (fun i j p => if i =? j then (f i j p + 1)%R else f i j p).

(** defdap/hrdic.py 140-142: 0.5 * einsum('ki...,kj...->ij...', f, f), less one
    half on the diagonal. *)
Definition green_strain (f : tensor) : tensor := fun i j p =>
  let s := (1/2 * (f 0%Z i p * f 0%Z j p + f 1%Z i p * f 1%Z j p))%R in
  if i =? j then (s - 1/2)%R else s.

(** defdap/hrdic.py 152. *)
Definition max_shear (e : tensor) (p : pix) : R :=
  sqrt (((e 0%Z 0%Z p - e 1%Z 1%Z p) / 2) ^ 2 + e 0%Z 1%Z p ^ 2).

(** ** Cropping *)

(** [crop_dists] is [[left, right], [top, bottom]]. *)
Record crops := Crops { c_left : Z; c_right : Z; c_top : Z; c_bottom : Z }.

(** A homologous point as stored: anything the user gave.  [PTuple] is a tuple,
    [PSeq] another sequence of numbers, [PNone] is None. *)
Inductive point := PNone | PTuple (l : list R) | PSeq (l : list R).
Definition plen (p : point) : res nat :=
  match p with PNone => Err TypeError | PTuple l | PSeq l => Ok (List.length l) end.
Definition is_tuple (p : point) : bool := match p with PTuple _ => true | _ => false end.

Record dic_map := Dic {
  d_xdim : Z; d_ydim : Z;          (* size of the data *)
  d_crops : crops;
  d_shape : Z * Z;                 (* (y, x) after cropping *)
  d_homog : list point;            (* homologous points of its frame *)
}.

(** defdap/experiment.py 328-353 [Frame.update_homog_points].  The index is an
    int ([Some]) or something else. *)
Definition set_point (pts : list point) (i : nat) (p : point) : res (list point) :=
  match set_nth i p pts with Some l => Ok l | None => Err IndexError end.
(** [seq[0] += d[0]; seq[1] += d[1]] on a list. *)
Definition add_pair (l d : list R) : res (list R) :=
  match l, d with
  | x :: y :: rest, dx :: dy :: _ => Ok ((x + dx)%R :: (y + dy)%R :: rest)
  | _, _ => Err IndexError
  end.
Definition update_one (pts : list point) (i : nat) (new_point delta : option point) : res (list point) :=
  match new_point with
  | Some np =>
      if negb (is_tuple np) then
        do n <- plen np;
        if negb (Nat.eqb n 2) then Err GenericException else set_point pts i np
      else set_point pts i np
  | None =>
      match delta with
      | Some d =>
          do _ <- (if negb (is_tuple d) then
                     do n <- plen d; if negb (Nat.eqb n 2) then Err GenericException else Ok tt
                   else Ok tt);
          match nth_error pts i with
          | None => Err IndexError
          | Some PNone => Err TypeError
          | Some (PTuple l) | Some (PSeq l) =>
              do r <- add_pair l (match d with PTuple m | PSeq m => m | PNone => [] end);
              set_point pts i (PTuple r)
          end
      | None => set_point pts i PNone
      end
  end.
Definition update_homog_points (pts : list point) (homog_idx : option Z) (new_point delta : option point)
  : res (list point) :=
  match homog_idx with
  | None => Err GenericException
  | Some k =>
      if Z.of_nat (List.length pts) <=? k then Err GenericException
      else if k <? 0 then
        for_each (fun pts i => update_one pts i None delta) (seq 0 (List.length pts)) pts
      else update_one pts (Z.to_nat k) new_point delta
  end.

(** defdap/hrdic.py 314-357 [set_crop], integer distances. *)
Definition set_crop (m : dic_map) (left right top bottom : option Z) (update : bool) : res dic_map :=
  let c := d_crops m in
  let '(cl, dx) := match left with None => (c_left c, 0) | Some l => (l, c_left c - l) end in
  let cr := match right with None => c_right c | Some r => r end in
  let '(ct, dy) := match top with None => (c_top c, 0) | Some t => (t, c_top c - t) end in
  let cb := match bottom with None => c_bottom c | Some b => b end in
  do pts <- (if update && (negb (dx =? 0) || negb (dy =? 0)) then
               update_homog_points (d_homog m) (Some (-1)) None (Some (PTuple [IZR dx; IZR dy]))
             else Ok (d_homog m));
  Ok (Dic (d_xdim m) (d_ydim m) (Crops cl cr ct cb)
          (d_ydim m - ct - cb, d_xdim m - cl - cr) pts).

(** Python's slice [a:b] of an axis of length [n]: where it starts and how many
    values it has. *)
Definition slice (n a b : Z) : Z * Z :=
  let clamp v := if v <? 0 then Z.max 0 (v + n) else Z.min v n in
  let s := clamp a in (s, Z.max 0 (clamp b - s)).

(** defdap/hrdic.py 370-378 [crop]: data of width [w] and height [h]. *)
Definition crop {A} (m : dic_map) (data : image A) (binning : Z) : image A :=
  let c := d_crops m in
  let '(y0, h) := slice (im_h data) (c_top c * binning) ((d_ydim m - c_bottom c) * binning) in
  let '(x0, w) := slice (im_w data) (c_left c * binning) ((d_xdim m - c_right c) * binning) in
  Image w h (fun p => im_at data (fst p + x0, snd p + y0)).

(** defdap/hrdic.py 529-543 [load_pattern], after a path was set. *)
Definition load_pattern {A} (m : dic_map) (img : image A) (binning : Z) : res (image A) :=
  if (im_w img =? d_xdim m * binning) && (im_h img =? d_ydim m * binning) then Ok img else Err ValueError.

(** ** Masking *)

(** One step of [scipy.ndimage.binary_dilation] with its default cross-shaped
    neighbourhood and nothing outside the array, and [iterations] of it. *)
Definition dilate1 (W H : Z) (m : pix -> bool) : pix -> bool := fun p =>
  m p
  || (insideb W H (fst p - 1, snd p) && m (fst p - 1, snd p))
  || (insideb W H (fst p + 1, snd p) && m (fst p + 1, snd p))
  || (insideb W H (fst p, snd p - 1) && m (fst p, snd p - 1))
  || (insideb W H (fst p, snd p + 1) && m (fst p, snd p + 1)).
Fixpoint dilate (n : nat) (W H : Z) (m : pix -> bool) : pix -> bool :=
  match n with O => m | S n => dilate1 W H (dilate n W H m) end.

(** defdap/hrdic.py 482-501 [calc_mask]: the stored mask; the printed count is left
    out.  Dilations of at least 0. *)
Definition calc_mask (m : dic_map) (mask : option (image bool)) (dilation : nat) : res (option (image bool)) :=
  match mask with
  | None => Ok None
  | Some k =>
      if negb ((im_h k =? fst (d_shape m)) && (im_w k =? snd (d_shape m))) then Err ValueError
      else Ok (Some (Image (im_w k) (im_h k) (dilate dilation (im_w k) (im_h k) (im_at k))))
  end.

(** [np.broadcast_to] of an axis of length [n] to length [w]: index to read. *)
Definition broadcast (n w : Z) : option (Z -> Z) :=
  if n =? w then Some (fun i => i) else if n =? 1 then Some (fun _ => 0) else None.

(** defdap/hrdic.py 503-510 [mask]: a hidden value is None. *)
Definition apply_mask {A} (mask : option (image bool)) (data : image A) : res (image (option A)) :=
  match mask with
  | None => Ok (Image (im_w data) (im_h data) (fun p => Some (im_at data p)))
  | Some k =>
      match broadcast (im_w k) (im_w data), broadcast (im_h k) (im_h data) with
      | Some fx, Some fy =>
          Ok (Image (im_w data) (im_h data)
                (fun p => if im_at k (fx (fst p), fy (snd p)) then None else Some (im_at data p)))
      | _, _ => Err ValueError
      end
  end.

(** defdap/utils.py 176-181: reading map data crops, then masks. *)
Definition read_map {A} (m : dic_map) (mask : option (image bool)) (data : image A) : res (image (option A)) :=
  apply_mask mask (crop m data 1).

(** ** Frames *)

(** [frame_relations]: a dict from pairs of frames (here numbers) to the
    properties of the transform: its type and the other arguments. *)
Definition frame := Z.
Record link := Link { l_type : string; l_args : list (string * Z) }.
Definition relations := list ((frame * frame) * link).
Definition fpair_eqb (a b : frame * frame) : bool := (fst a =? fst b) && (snd a =? snd b).
Fixpoint rel_set (r : relations) (k : frame * frame) (v : link) : relations :=
  match r with
  | [] => [(k, v)]
  | (k', v') :: r => if fpair_eqb k' k then (k', v) :: r else (k', v') :: rel_set r k v
  end.
Fixpoint rel_get (r : relations) (k : frame * frame) : option link :=
  match r with
  | [] => None
  | (k', v) :: r => if fpair_eqb k' k then Some v else rel_get r k
  end.

(** defdap/experiment.py 41-42. *)
Definition link_frames (r : relations) (f1 f2 : frame) (props : link) : relations := rel_set r (f1, f2) props.

(** defdap/experiment.py 45-50, 62: the known transform types. *)
Inductive transform_class := PiecewiseAffine | Projective | Polynomial | Affine.
Definition transform_lookup (s : string) : option transform_class :=
  if String.eqb s "piecewise_affine" then Some PiecewiseAffine
  else if String.eqb s "projective" then Some Projective
  else if String.eqb s "polynomial" then Some Polynomial
  else if String.eqb s "affine" then Some Affine
  else None.

(** defdap/experiment.py 44-76 [get_frame_transform].  skimage's [estimate] and
    [inverse] are parameters: any type of transforms. *)
Definition get_frame_transform {T P : Type}
  (estimate : transform_class -> P -> P -> list (string * Z) -> T) (inverse : T -> T)
  (points : frame -> P) (r : relations) (f1 f2 : frame) : res T :=
  match rel_get r (f1, f2), rel_get r (f2, f1) with
  | Some _, Some _ => Err ValueError
  | None, None => Err ValueError
  | Some props, None =>
      match transform_lookup (l_type props) with
      | None => Err KeyError
      | Some c => Ok (estimate c (points f1) (points f2) (l_args props))
      end
  | None, Some props =>
      let calc_inverse := String.eqb (l_type props) "polynomial" in
      match transform_lookup (l_type props) with
      | None => Err KeyError
      | Some c =>
          if calc_inverse then Ok (estimate c (points f1) (points f2) (l_args props))
          else Ok (inverse (estimate c (points f2) (points f1) (l_args props)))
      end
  end.

(** defdap/hrdic.py 393-395: the type is put in lower case. *)
Definition link_ebsd_map (r : relations) (dic ebsd : frame) (transform_type : string) (args : list (string * Z))
  : relations :=
  link_frames r dic ebsd (Link (lower transform_type) args).

(** defdap/experiment.py 126-129: lines moved to half-integer positions. *)
Definition half_round (x : R) : R := (IZR (rint (x - 1/2)) + 1/2)%R.
Definition warp_lines (t : R * R -> R * R) (lines : list ((R * R) * (R * R))) : list ((R * R) * (R * R)) :=
  let move p := let q := t p in (half_round (fst q), half_round (snd q)) in
  map (fun l => (move (fst l), move (snd l))) lines.

(** An affine transform of the plane. *)
Record affine := Aff { a11 : R; a12 : R; a21 : R; a22 : R; tx : R; ty : R }.
Definition aff (a : affine) (p : R * R) : R * R :=
  (a11 a * fst p + a12 a * snd p + tx a, a21 a * fst p + a22 a * snd p + ty a)%R.

(** defdap/experiment.py 98-105: without cropping, the translation is replaced by
    -5% of the shape (rows, columns) of the image. *)
Definition uncropped (a : affine) (rows cols : Z) : affine :=
  Aff (a11 a) (a12 a) (a21 a) (a22 a) (- (5/100) * IZR rows)%R (- (5/100) * IZR cols)%R.

(** defdap/experiment.py 145-149: where the crop starts, as (x, y). *)
Definition crop_start (a : affine) (rows cols : Z) : R * R :=
  let d := (a11 a * a22 a - a12 a * a21 a)%R in
  let vx := (tx a + 5/100 * IZR rows)%R in let vy := (ty a + 5/100 * IZR cols)%R in
  ((a22 a * vx - a12 a * vy) / d, (- a21 a * vx + a11 a * vy) / d)%R.
Definition crop_start_int (a : affine) (rows cols : Z) : Z * Z :=
  let c := crop_start a rows cols in (rint (fst c), rint (snd c)).

(** defdap/experiment.py 150-153: the slice of the skeleton [img], and the points
    found in it, as the pixels of the slice. *)
Definition warp_slice {A} (c : Z * Z) (out_rows out_cols : Z) (img : image A) : image A :=
  let '(y0, h) := slice (im_h img) (snd c) (snd c + out_rows) in
  let '(x0, w) := slice (im_w img) (fst c) (fst c + out_cols) in
  Image w h (fun p => im_at img (fst p + x0, snd p + y0)).

(** ** Saving a picked point *)

(** defdap/experiment.py 305-307: the picked position over the binning, rounded,
    appended. *)
Definition save_point (pts : list point) (sel : R * R) (binning : Z) : list point :=
  pts ++ [PTuple [IZR (rint (fst sel / IZR binning)); IZR (rint (snd sel / IZR binning))]].
