(** Orientations in double precision: defdap/ebsd.py 664-750 and defdap/quat.py with every operation
    rounded as IEEE 754 prescribes.  Infinities and nan are included. *)
From Coq Require Import String.
From Coq Require Import List ZArith Bool Permutation.
From Flocq Require Import IEEE754.BinarySingleNaN.
From Verif Require Import Py Grid Boundary_Model Flood_Model.
Import ListNotations.
Open Scope Z_scope.

(** numpy's float64 and its operations, to nearest, ties to even. *)
Notation f64 := (binary_float 53 1024).
#[global] Instance prec_pos : FLX.Prec_gt_0 53 := eq_refl.
#[global] Instance prec_emax : Prec_lt_emax 53 1024 := eq_refl.
Definition fadd : f64 -> f64 -> f64 := Bplus mode_NE.
Definition fsub : f64 -> f64 -> f64 := Bminus mode_NE.
Definition fmul : f64 -> f64 -> f64 := Bmult mode_NE.
Definition fdiv : f64 -> f64 -> f64 := Bdiv mode_NE.
Definition ffma : f64 -> f64 -> f64 -> f64 := Bfma mode_NE.
Definition fsqrt : f64 -> f64 := Bsqrt mode_NE.
Definition fabs : f64 -> f64 := Babs.
Definition fneg : f64 -> f64 := Bopp.
Definition flt : f64 -> f64 -> bool := Bltb.

(** m * 2^e *)
Definition number (m : positive) (e : Z) (H : SpecFloat.valid_binary 53 1024 (SpecFloat.S754_finite false m e) = true) : f64 := SF2B _ H.
(** The constants 0.0, 1.0, 0.5, 2.0, 3.0, 180.0 and np.pi. *)
Definition f0 : f64 := B754_zero false.
Definition f1 : f64 := number 4503599627370496 (-52) eq_refl.
Definition fhalf : f64 := number 4503599627370496 (-53) eq_refl.
Definition f2 : f64 := number 4503599627370496 (-51) eq_refl.
Definition f3 : f64 := number 6755399441055744 (-51) eq_refl.
Definition f180 : f64 := number 6333186975989760 (-45) eq_refl.
Definition fpi : f64 := number 7074237752028440 (-51) eq_refl.

(** The coefficients of a quaternion. *)
Record fquat := F4 { fw : f64; fx : f64; fy : f64; fz : f64 }.
Definition fqneg (q : fquat) : fquat := F4 (fneg (fw q)) (fneg (fx q)) (fneg (fy q)) (fneg (fz q)).

(** defdap/crystal.py 109-110 *)
Definition over_root2_f : f64 := fdiv (fsqrt f2) f2.
Definition sqrt3over2_f : f64 := fdiv (fsqrt f3) f2.
(** defdap/crystal.py 112-188, as in Quat_Model; no scalar part is negative. *)
Definition cubic_f : list fquat :=
  let r := over_root2_f in let n := fneg r in let h := fhalf in let m := fneg h in
  [ F4 f1 f0 f0 f0;
    F4 r r f0 f0; F4 f0 f1 f0 f0; F4 r n f0 f0; F4 r f0 r f0; F4 f0 f0 f1 f0; F4 r f0 n f0; F4 r f0 f0 r; F4 f0 f0 f0 f1; F4 r f0 f0 n;
    F4 f0 r r f0; F4 f0 n r f0; F4 f0 r f0 r; F4 f0 n f0 r; F4 f0 f0 r r; F4 f0 f0 n r;
    F4 h h h h; F4 h m m m; F4 h m h h; F4 h h m m; F4 h h m h; F4 h m h m; F4 h h h m; F4 h m m h ].
Definition hexagonal_f : list fquat :=
  let r := sqrt3over2_f in let n := fneg r in let h := fhalf in let m := fneg h in
  [ F4 f1 f0 f0 f0; F4 f0 f1 f0 f0; F4 f0 f0 f1 f0; F4 f0 f0 f0 f1;
    F4 r f0 f0 h; F4 h f0 f0 r; F4 h f0 f0 n; F4 r f0 f0 m;
    F4 f0 m n f0; F4 f0 h n f0; F4 f0 r m f0; F4 f0 n m f0 ].
Definition syms_f (g : string) : list fquat :=
  if String.eqb g "cubic" then cubic_f else if String.eqb g "hexagonal" then hexagonal_f else [F4 f1 f0 f0 f0].

(** Sums of products as np.dot and np.einsum may do them: the order is that of the library and of the
    processor, products may be fused with the additions, and sums start from nothing or from 0. *)
Inductive sums : list (f64 * f64) -> f64 -> Prop :=
| sums_none : sums [] f0
| sums_one x y : sums [(x, y)] (fmul x y)
| sums_add l1 l2 a b : sums l1 a -> sums l2 b -> sums (l1 ++ l2) (fadd a b)
| sums_fma x y l a : sums l a -> sums ((x, y) :: l) (ffma x y a)
| sums_order l l' a : Permutation l l' -> sums l a -> sums l' a.
Definition pairs (a b : fquat) : list (f64 * f64) := [(fw a, fw b); (fx a, fx b); (fy a, fy b); (fz a, fz b)].

(** defdap/ebsd.py 690-710: sums of the ufuncs, from left to right. *)
Definition comps_f (s q : fquat) : fquat :=
  let c := F4
    (fsub (fsub (fsub (fmul (fw q) (fw s)) (fmul (fx q) (fx s))) (fmul (fy q) (fy s))) (fmul (fz q) (fz s)))
    (fadd (fsub (fadd (fmul (fw q) (fx s)) (fmul (fx q) (fw s))) (fmul (fy q) (fz s))) (fmul (fz q) (fy s)))
    (fadd (fsub (fadd (fmul (fw q) (fy s)) (fmul (fy q) (fw s))) (fmul (fz q) (fx s))) (fmul (fx q) (fz s)))
    (fadd (fsub (fadd (fmul (fw q) (fz s)) (fmul (fz q) (fw s))) (fmul (fx q) (fy s))) (fmul (fy q) (fx s))) in
  if flt (fw c) f0 then fqneg c else c.

(** np.max of an array, which is nan if one is nan. *)
Definition fmax2 (a b : f64) : f64 := if is_nan a then a else if is_nan b then b else if flt a b then b else a.
Definition fmax (l : list f64) : f64 := match l with [] => B754_nan | a :: l => fold_left fmax2 l a end.

Section Map.
(** Library functions: the sum of products of a pixel, an axis and a symmetry; np.arccos. *)
Variable dot_f : Z -> pix -> nat -> fquat -> fquat -> f64.
Variable arccos : f64 -> f64.

(** 727-728 *)
Definition clip_f (c : f64) : f64 := if flt f1 c then f1 else c.
(** 717-732 for a pixel and its neighbour along an axis. *)
Definition misori_f (d : Z) (p : pix) (syms : list fquat) (q n : fquat) : f64 :=
  fmul f2 (arccos (fmax (map (fun ic => clip_f (fabs (dot_f d p (fst ic) q (snd ic))))
    (combine (seq 0 (List.length syms)) (n :: map (fun s => comps_f s n) (tl syms)))))).
(** 713-714, 732-733: where there is no neighbour the ones are kept. *)
Definition edge_f (syms : list fquat) : f64 := fmul f2 (arccos (fmax (map (fun _ => f1) syms))).
(** 674 *)
Definition tol_f (tol : f64) : f64 := fmul tol (fdiv fpi f180).
(** 744-746 *)
Definition bx_f (W : Z) (g : string) (ori : pix -> fquat) (phase : pix -> Z) (tol : f64) (p : pix) : bool :=
  flt (tol_f tol) (if fst p <? W - 1 then misori_f 0 p (syms_f g) (ori p) (ori (fst p + 1, snd p)) else edge_f (syms_f g)) || phase_x W phase p.
Definition by_f (H : Z) (g : string) (ori : pix -> fquat) (phase : pix -> Z) (tol : f64) (p : pix) : bool :=
  flt (tol_f tol) (if snd p <? H - 1 then misori_f 1 p (syms_f g) (ori p) (ori (fst p, snd p + 1)) else edge_f (syms_f g)) || phase_y H phase p.
(** 664-750 [find_boundaries], then 853-944 [find_grains]. *)
Definition boundaries_f (W H : Z) (g : string) (ori : pix -> fquat) (phase : pix -> Z) (tol : f64) : bset * bset :=
  (from_image W H (phase_x W phase) (phase_y H phase), from_image W H (bx_f W g ori phase tol) (by_f H g ori phase tol)).
Definition grains_f (W H : Z) (g : string) (ori : pix -> fquat) (phase : pix -> Z) (tol : f64) (num_phases min_size : Z)
  : res ((pix -> Z) * list (list pix) * list (option Z)) :=
  let gb := snd (boundaries_f W H g ori phase tol) in
  do bx <- bs_image W H (bs_x gb);
  do by_ <- bs_image W H (bs_y gb);
  find_grains W H bx by_ phase num_phases min_size.
End Map.

Section Scalar.
(** defdap/quat.py 240-254 [__mul__]: np.dot of the vector parts, then the ufuncs; np.cross is a
    difference of products. *)
Variable dot3 : fquat -> fquat -> f64.
Definition mul_f (a b : fquat) : fquat :=
  let c := F4
    (fsub (fmul (fw a) (fw b)) (dot3 a b))
    (fadd (fadd (fmul (fw a) (fx b)) (fmul (fw b) (fx a))) (fsub (fmul (fy a) (fz b)) (fmul (fz a) (fy b))))
    (fadd (fadd (fmul (fw a) (fy b)) (fmul (fw b) (fy a))) (fsub (fmul (fz a) (fx b)) (fmul (fx a) (fz b))))
    (fadd (fadd (fmul (fw a) (fz b)) (fmul (fw b) (fz a))) (fsub (fmul (fx a) (fy b)) (fmul (fy a) (fx b)))) in
  if flt (fw c) f0 then fqneg c else c.
(** 394-411 [mis_ori] with return_quat 0; the dot products as above, one per symmetry. *)
Variable dot4 : fquat -> fquat -> f64.
Definition mis_ori_f (g : string) (a b : fquat) : f64 :=
  fold_left (fun m s => let c := fabs (dot4 a (mul_f s b)) in if flt m c then c else m) (syms_f g) f0.
(** 294-315 [normalise] *)
Definition normalise_f (q : fquat) : fquat :=
  let n := fsqrt (dot4 q q) in F4 (fdiv (fw q) n) (fdiv (fx q) n) (fdiv (fy q) n) (fdiv (fz q) n).
End Scalar.
