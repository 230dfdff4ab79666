(** Strains of DIC maps in double precision: defdap/hrdic.py 126-152, as in Dic_Model, with every
    operation rounded.  Infinities and nan are included. *)
From Coq Require Import List ZArith Bool.
From Flocq Require Import IEEE754.BinarySingleNaN.
From Verif Require Import Py Grid Double_Model.
Import ListNotations.
Open Scope Z_scope.

(** A tensor map in double precision: component (i, j) at a pixel. *)
Definition tensor_f := Z -> Z -> pix -> f64.

(** [np.gradient] along one axis of [n] values with spacing [h], at [i]: differences, then divided by
    [h] at the ends and by [2. * h] between. *)
Definition grad1_f (n : Z) (h : f64) (f : Z -> f64) (i : Z) : f64 :=
  if i =? 0 then fdiv (fsub (f 1) (f 0)) h
  else if i =? n - 1 then fdiv (fsub (f (n - 1)) (f (n - 2))) h
  else fdiv (fsub (f (i + 1)) (f (i - 1))) (fmul f2 h).

(** 126-130; the displacements are float64 and [h] is the binning as one. *)
Definition gradient_f (W H : Z) (h : f64) (u : Z -> pix -> f64) : res tensor_f :=
  if (W <? 2) || (H <? 2) then Err ValueError
  else Ok (fun i j p =>
    let g := if j =? 1 then grad1_f H h (fun y => u i (fst p, y)) (snd p) else grad1_f W h (fun x => u i (x, snd p)) (fst p) in
    if i =? j then fadd g f1 else g).

Section Sums.
(** How np.einsum sums the products for a component of a pixel. *)
Variable dot2 : Z -> Z -> pix -> list (f64 * f64) -> f64.
(** 140-142 *)
Definition green_f (f : tensor_f) : tensor_f := fun i j p =>
  let s := fmul fhalf (dot2 i j p [(f 0 i p, f 0 j p); (f 1 i p, f 1 j p)]) in
  if i =? j then fsub s fhalf else s.
End Sums.

(** 152: [** 2] is a product. *)
Definition max_shear_f (e : tensor_f) (p : pix) : f64 :=
  let a := fdiv (fsub (e 0 0 p) (e 1 1 p)) f2 in
  fsqrt (fadd (fmul a a) (fmul (e 0 1 p) (e 0 1 p))).
