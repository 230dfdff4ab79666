(** Orientations made from Euler angles in single precision, which is how the loaders store them
    (defdap/file_readers.py 170-177 and 229-232, 293-295 and 340-344, 484-486): defdap/quat.py 594-625. *)
From Coq Require Import String.
From Coq Require Import List ZArith Bool.
From Flocq Require Import IEEE754.BinarySingleNaN.
From Verif Require Import Py Grid Double_Model.
Import ListNotations.
Open Scope Z_scope.

(** numpy's float32 and its operations; python's 2.0 becomes a float32 beside an array of them. *)
Notation f32 := (binary_float 24 128).
#[global] Instance prec_pos24 : FLX.Prec_gt_0 24 := eq_refl.
#[global] Instance prec_emax24 : Prec_lt_emax 24 128 := eq_refl.
Definition sadd : f32 -> f32 -> f32 := Bplus mode_NE.
Definition ssub : f32 -> f32 -> f32 := Bminus mode_NE.
Definition smul : f32 -> f32 -> f32 := Bmult mode_NE.
Definition sdiv : f32 -> f32 -> f32 := Bdiv mode_NE.
Definition sneg : f32 -> f32 := Bopp.
(** m * 2^e *)
Definition number32 (m : positive) (e : Z) (H : SpecFloat.valid_binary 24 128 (SpecFloat.S754_finite false m e) = true) : f32 := SF2B _ H.
Definition s2 : f32 := number32 8388608 (-22) eq_refl.

(** 614-619: the array of components is one of float64, so numbers are widened when they are stored. *)
Definition widen (x : f32) : f64 :=
  match x with
  | B754_zero s => B754_zero s
  | B754_infinity s => B754_infinity s
  | B754_nan => B754_nan
  | B754_finite s m e _ => binary_normalize 53 1024 _ _ mode_NE (SpecFloat.cond_Zopp s (Zpos m)) e s
  end.

Section Euler.
(** np.cos and np.sin on float32. *)
Variables cos_s sin_s : f32 -> f32.
(** 616-624 for one pixel, with the end of [Quat.__init__] (59-61). *)
Definition euler_quat (e : f32 * f32 * f32) : fquat :=
  let '(ph1, phi, ph2) := e in
  let half := sdiv phi s2 in let sum := sdiv (sadd ph1 ph2) s2 in let diff := sdiv (ssub ph1 ph2) s2 in
  let c := F4
    (widen (smul (cos_s half) (cos_s sum)))
    (widen (smul (sneg (sin_s half)) (cos_s diff)))
    (widen (smul (sneg (sin_s half)) (sin_s diff)))
    (widen (smul (sneg (cos_s half)) (sin_s sum))) in
  if flt (fw c) f0 then fqneg c else c.
End Euler.
