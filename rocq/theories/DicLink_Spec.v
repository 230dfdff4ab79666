(** Vocabulary for grains of linked maps. *)
From Coq Require Import String Reals.
From Coq Require Import List ZArith Bool.
From Verif Require Import Py Grid Base_Model Dic_Model Dic_Spec DicGrains_Model DicLink_Model.
Import ListNotations.
Open Scope Z_scope.

(** Three of the points are not on a line. *)
Definition cross (p q s : R * R) : R :=
  ((fst q - fst p) * (snd s - snd p) - (snd q - snd p) * (fst s - fst p))%R.
Definition spread (l : list (R * R)) : Prop :=
  exists p q s, In p l /\ In q l /\ In s l /\ cross p q s <> 0%R.

(** What is asked of an estimate: points that are moved by an affine map give that map; shifting the
    points shifts the map. *)
Notation estimator := (transform_class -> list (R * R) -> list (R * R) -> list (string * Z) -> R * R -> R * R).
Definition exact (est : estimator) : Prop := forall a src args p, spread src ->
  est Affine src (map (aff a) src) args p = aff a p.
Definition moved (d p : R * R) : R * R := (fst p + fst d, snd p + snd d)%R.
Definition shifts (est : estimator) (c : transform_class) : Prop := forall d src dst args p, List.length src = List.length dst ->
  est c (map (moved d) src) dst args (moved d p) = est c src dst args p.

(** The pixel of the data shown at a pixel of the cropped map, and its position. *)
Definition data_pixel (m : dic_map) (p : pix) : pix := (fst p + c_left (d_crops m), snd p + c_top (d_crops m)).
Definition place (p : pix) : R * R := (IZR (fst p), IZR (snd p)).
Definition on_map (m : dic_map) (p : pix) : Prop := inside (snd (d_shape m)) (fst (d_shape m)) p.

(** A pixel is in a DIC grain that is linked to the EBSD grain at a position of the list. *)
Definition linked (gl : list dic_grain) (p : pix) (g : nat) : Prop := exists pts, In (pts, g) gl /\ In p pts.
(** The pixel nearest to a place, the higher one at a half; a place between the centres of pixels of
    the EBSD map. *)
Definition nearest (q : R * R) (r : pix) : Prop :=
  (- (1/2) <= fst q - IZR (fst r) < 1/2 /\ - (1/2) <= snd q - IZR (snd r) < 1/2)%R.
Definition between (e : ebsd_side) (q : R * R) : Prop :=
  (0 <= fst q <= IZR (s_w e - 1) /\ 0 <= snd q <= IZR (s_h e - 1))%R.
(** A pixel of the EBSD map in the grain at a position of its list. *)
Definition in_grain (e : ebsd_side) (r : pix) (g : nat) : Prop :=
  inside (s_w e) (s_h e) r /\ s_labels e r = Z.of_nat g + 1.
(** Homologous points of the EBSD map. *)
Definition points_at (l : list point) (xys : list (R * R)) : Prop :=
  Forall2 (fun p xy => at_xy p (fst xy) (snd xy)) l xys.

(** Least squares: the coefficients of u = a x + b y + c that minimise the sum of squares of the
    differences, from the normal equations. *)
Definition sum (l : list R) : R := fold_right Rplus 0%R l.
Definition cov (n : R) (f g : list R) : R := (n * sum (map (fun fg => fst fg * snd fg)%R (combine f g)) - sum f * sum g)%R.
Definition fit (xs ys us : list R) : R * R * R :=
  let n := INR (List.length xs) in
  let d := (cov n xs xs * cov n ys ys - cov n xs ys * cov n xs ys)%R in
  let a := ((cov n xs us * cov n ys ys - cov n ys us * cov n xs ys) / d)%R in
  let b := ((cov n ys us * cov n xs xs - cov n xs us * cov n xs ys) / d)%R in
  (a, b, ((sum us - a * sum xs - b * sum ys) / n)%R).
(** The affine transform fitted to points, whatever the class. *)
Definition least_squares : estimator := fun _ src dst _ p =>
  let at_p '(a, b, c) := (a * fst p + b * snd p + c)%R in
  (at_p (fit (map fst src) (map snd src) (map fst dst)), at_p (fit (map fst src) (map snd src) (map snd dst))).
