(** Theoretical relative displacement ratios in double precision: defdap/ebsd.py 1476-1486, every operation
    rounded as IEEE 754 prescribes. *)
From Coq Require Import List ZArith Bool.
From Flocq Require Import IEEE754.BinarySingleNaN.
From Verif Require Import Py Double_Model Kam64_Model Schmid64_Model.
Import ListNotations.

Section Ratio.
(** np.dot in [__mul__], as in Schmid64_Model. *)
Variable dot3 : fquat -> fquat -> f64.
(** 1485-1486 for one slip direction *)
Definition ratio_f (q : fquat) (d : fvec) : f64 :=
  let s := transform_f dot3 (conjugate_f q) d in fdiv (fneg (f_x s)) (f_y s).
(** 1476-1486 [calc_rdr]; the reference orientation is [None] if nothing was calculated before, which has no
    [conjugate]; without slip systems it is not looked at. *)
Definition ratios_f (ref : option fquat) (groups : list (list (fvec * fvec))) : res (list (list f64)) :=
  for_each (fun done grp =>
    do row <- for_each (fun row s => match ref with None => Err AttributeError | Some q => Ok (row ++ [ratio_f q (snd s)]) end) grp [];
    Ok (done ++ [row])) groups [].
End Ratio.
