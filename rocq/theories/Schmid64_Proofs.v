(** Rounding in [calc_average_schmid_factors]. *)
From Coq Require Import String Reals Lra Psatz.
From Coq Require Import List ZArith Bool Lia.
From Flocq Require Import Core IEEE754.BinarySingleNaN.
From Verif Require Import Py Quat_Model Crystal_Model Double_Model Double_Spec Double_Proofs Double_Angle Strain64_Proofs Kam64_Model Kam64_Proofs Grod64_Proofs
  Average64_Model Average64_Spec Average64_Proofs Schmid64_Model Schmid64_Spec.
Import ListNotations.
Open Scope R_scope.

Notation w x := (x * u53) (only parsing).
Lemma u53_is : u53 = / 9007199254740992.
Proof. pows. lra. Qed.
Lemma square_bound x c : x * x <= 5 / 4 -> c = 2 -> Rabs x <= c.
Proof. intros L ->. apply Rabs_le. split; nra. Qed.

(** ** Products of quaternions *)
(** Numbers within 2^i and 2^j. *)
Lemma four_terms k a b c d x y z t e : (-900 <= k <= 900)%Z -> ap a x e (bpow radix2 k) -> ap b y e (bpow radix2 k) -> ap c z e (bpow radix2 k) -> ap d t e (bpow radix2 k) ->
  ap (fadd (fadd a b) (fsub c d)) ((x + y) + (z - t)) (4 * e + 8 * bpow radix2 (k - 54)) (4 * bpow radix2 k).
Proof.
  intros K A B C D. assert (P1 : bpow radix2 (k + 1) = 2 * bpow radix2 k) by apply u_step. assert (P2 : bpow radix2 (k + 2) = 4 * bpow radix2 k) by apply bpow_2.
  assert (Q1 : bpow radix2 (k + 1 - 54) = 2 * bpow radix2 (k - 54)) by (replace (k + 1 - 54)%Z with (k - 54 + 1)%Z by lia; apply u_step).
  assert (Q2 : bpow radix2 (k + 2 - 54) = 4 * bpow radix2 (k - 54)) by (replace (k + 2 - 54)%Z with (k - 54 + 2)%Z by lia; apply bpow_2).
  pose proof (ap_add (k + 1) _ _ _ _ _ _ _ _ ltac:(lia) A B ltac:(lra)) as S1. pose proof (ap_sub (k + 1) _ _ _ _ _ _ _ _ ltac:(lia) C D ltac:(lra)) as S2.
  pose proof (ap_add (k + 2) _ _ _ _ _ _ _ _ ltac:(lia) S1 S2 ltac:(lra)) as S3. apply ap_weak with (1 := S3); lra.
Qed.

Section Product.
Variable dot3 : fquat -> fquat -> f64.
Hypothesis DOT3 : any_order3 dot3.
Lemma first_product a b : near4 a (value a) 0 2 -> near4 b (value b) 0 2 -> near4 (mul_south_f dot3 a b) (raw_mul (value a) (value b)) (w 32) 16.
Proof.
  intros (A1 & A2 & A3 & A4) (B1 & B2 & B3 & B4). destruct us as (U2 & U1 & U0).
  assert (U : 0 < u53) by apply bpow_gt_0.
  assert (M : forall x y, ap x (B2R x) 0 2 -> ap y (B2R y) 0 2 -> ap (fmul x y) (B2R x * B2R y) (2 * u53) (bpow radix2 2)).
  { intros x y X Y. pose proof (ap_mul 2 _ _ _ _ _ _ _ _ ltac:(lia) X Y (proj2 (proj2 X)) ltac:(change (bpow radix2 2) with 4; lra)) as P. apply ap_weak with (1 := P); [|lra]. change (2 - 54)%Z with (-52)%Z. lra. }
  assert (M' : forall x y, ap x (B2R x) 0 2 -> ap y (B2R y) 0 2 -> ap (fmul x y) (B2R y * B2R x) (2 * u53) (bpow radix2 2)) by (intros; rewrite Rmult_comm; auto).
  assert (T : forall x y, ap x (B2R x) 0 2 -> ap y (B2R y) 0 2 -> term_in 2 (x, y)).
  { intros x y (X & _ & XB) (Y & _ & YB). split; [exact X|]. split; [exact Y|]. cbn [fst snd]. rewrite Rabs_mult. change (bpow radix2 2) with (2 * 2). apply Rmult_le_compat; auto using Rabs_pos. }
  unfold near4, mul_south_f, raw_mul. cbn [fw fx fy fz qw qx qy qz qv vdot vx vy vz value] in *.
  assert (F : forall a b c d x y z t, ap a x (2 * u53) (bpow radix2 2) -> ap b y (2 * u53) (bpow radix2 2) -> ap c z (2 * u53) (bpow radix2 2) -> ap d t (2 * u53) (bpow radix2 2) ->
    ap (fadd (fadd a b) (fsub c d)) ((x + y) + (z - t)) (w 32) 16).
  { intros. apply ap_weak with (1 := four_terms 2 _ _ _ _ _ _ _ _ _ ltac:(lia) H H0 H1 H2); change (2 - 54)%Z with (-52)%Z; change (bpow radix2 2) with 4; lra. }
  split; [|split; [|split]]; try (apply F; auto).
  destruct (sums_err 2 _ _ ltac:(lia) (DOT3 a b)) as (FD & BD & _ & ED).
  { unfold pairs. cbn [tl]. repeat (apply Forall_cons; [apply T; assumption|]). apply Forall_nil. }
  { cbn. lia. }
  unfold pairs in BD, ED. cbn [tl List.length INR] in BD, ED. change (bpow radix2 2) with 4 in BD. change (2 - 54)%Z with (-52)%Z in ED.
  assert (TT : total [(fx a, fx b); (fy a, fy b); (fz a, fz b)] = B2R (fx a) * B2R (fx b) + B2R (fy a) * B2R (fy b) + B2R (fz a) * B2R (fz b)) by (unfold total; cbn [map fold_right fst snd]; ring).
  rewrite TT in ED. assert (D : ap (dot3 a b) (B2R (fx a) * B2R (fx b) + B2R (fy a) * B2R (fy b) + B2R (fz a) * B2R (fz b)) (22 * u53) 12) by (split; [exact FD|split; lra]).
  pose proof (ap_sub 4 _ _ _ _ _ _ _ _ ltac:(lia) (M _ _ A1 B1) D ltac:(change (bpow radix2 2) with 4; change (bpow radix2 4) with 16; lra)) as X.
  apply ap_weak with (1 := X); [change (4 - 54)%Z with (-50)%Z; lra|change (bpow radix2 4) with 16; lra].
Qed.
Lemma second_product q p c : near4 q (value q) 0 2 -> near4 p c (w 32) 16 ->
  let r := mul_south_f dot3 q p in let e := raw_mul (value q) c in
  ap (fx r) (qx e) (w 448) 128 /\ ap (fy r) (qy e) (w 448) 128 /\ ap (fz r) (qz e) (w 448) 128.
Proof.
  intros (A1 & A2 & A3 & A4) (B1 & B2 & B3 & B4). destruct us as (U2 & U1 & U0). assert (U : 0 < u53) by apply bpow_gt_0.
  assert (V5 : bpow radix2 (5 - 54) = 16 * u53) by (pows; lra).
  assert (M : forall x y t, ap x (B2R x) 0 2 -> ap y t (w 32) 16 -> ap (fmul x y) (B2R x * t) (80 * u53) (bpow radix2 5)).
  { intros x y t X Y. pose proof (ap_mul 5 _ _ _ _ _ _ _ _ ltac:(lia) X Y (proj2 (proj2 X)) ltac:(change (bpow radix2 5) with 32; lra)) as P. apply ap_weak with (1 := P); [rewrite V5; lra|lra]. }
  assert (M' : forall x y t, ap x (B2R x) 0 2 -> ap y t (w 32) 16 -> ap (fmul y x) (t * B2R x) (80 * u53) (bpow radix2 5)).
  { intros x y t X Y. rewrite Rmult_comm. destruct (M x y t X Y) as (G1 & G2 & G3). destruct X as (FX & _ & BX), Y as (FY & EY & BY).
    destruct (fmul_in 5 y x ltac:(lia) FY FX) as (K1 & K2 & _ & _).
    { rewrite Rabs_mult. replace (bpow radix2 5) with (16 * 2) by (change (bpow radix2 5) with 32; lra). apply Rmult_le_compat; auto using Rabs_pos. }
    destruct (fmul_in 5 x y ltac:(lia) FX FY) as (_ & L2 & _ & _).
    { rewrite Rabs_mult. replace (bpow radix2 5) with (2 * 16) by (change (bpow radix2 5) with 32; lra). apply Rmult_le_compat; auto using Rabs_pos. }
    split; [exact K1|]. rewrite K2, Rmult_comm, <- L2. split; assumption. }
  cbv zeta. unfold mul_south_f, raw_mul. cbn [fw fx fy fz qw qx qy qz qv vdot vx vy vz value] in *.
  assert (F : forall a b c d x y z t, ap a x (80 * u53) (bpow radix2 5) -> ap b y (80 * u53) (bpow radix2 5) -> ap c z (80 * u53) (bpow radix2 5) -> ap d t (80 * u53) (bpow radix2 5) ->
    ap (fadd (fadd a b) (fsub c d)) ((x + y) + (z - t)) (w 448) 128).
  { intros. apply ap_weak with (1 := four_terms 5 _ _ _ _ _ _ _ _ _ ltac:(lia) H H0 H1 H2); [rewrite V5|change (bpow radix2 5) with 32]; lra. }
  split; [|split]; apply F; auto.
Qed.
End Product.

(** ** Transformed vectors *)
Definition as_quat (v : vec3) : quat := Q4 0 (vx v) (vy v) (vz v).
Lemma transform_is q v : transform_vector q v = qv (raw_mul q (raw_mul (as_quat v) (conjugate q))).
Proof. reflexivity. Qed.
Lemma transform_norm q v : vdot (transform_vector q v) (transform_vector q v) = dot q q * dot q q * vdot v v.
Proof.
  rewrite transform_is. unfold conjugate, Quat. cbn [qw]. destruct (Rlt_dec (qw q) 0); unfold raw_mul, as_quat, qneg, dot, vdot, qv; cbn [qw qx qy qz vx vy vz]; ring.
Qed.
Lemma sound3_near v : sound3 v -> sound (F4 f0 (f_x v) (f_y v) (f_z v)).
Proof.
  intros ((A & B & C) & N). split; [repeat split; assumption|]. unfold dot, value. cbn [fw fx fy fz qw qx qy qz]. change (B2R f0) with 0. unfold vdot, vvalue in N. cbn [vx vy vz] in N. lra.
Qed.
Lemma comp_bound v c : vdot v v <= c * c -> 0 <= c -> Rabs (vx v) <= c /\ Rabs (vy v) <= c /\ Rabs (vz v) <= c.
Proof.
  intros L P. unfold vdot in L. pose proof (Rle_0_sqr (vx v)) as S1. pose proof (Rle_0_sqr (vy v)) as S2. pose proof (Rle_0_sqr (vz v)) as S3. unfold Rsqr in *.
  assert (B : forall x, x * x <= c * c -> Rabs x <= c) by (intros x X; apply Rabs_le; split; nra). split; [|split]; apply B; lra.
Qed.
Lemma transform_near dot3 q v : any_order3 dot3 -> sound q -> sound3 v ->
  let r := transform_f dot3 q v in let e := transform_vector (value q) (vvalue v) in
  vdot e e <= 2 /\ ap (f_x r) (vx e) (w 448) 2 /\ ap (f_y r) (vy e) (w 448) 2 /\ ap (f_z r) (vz e) (w 448) 2.
Proof.
  intros D SQ SV. cbv zeta. destruct (conj_is q SQ) as (SC & VC).
  pose proof (first_product dot3 D _ _ (sound_near _ (sound3_near v SV)) (sound_near _ SC)) as P. rewrite VC in P.
  destruct (second_product dot3 q _ _ (sound_near _ SQ) P) as (X & Y & Z).
  set (e := transform_vector (value q) (vvalue v)).
  assert (N : vdot e e <= 2).
  { unfold e. rewrite transform_norm. destruct SQ as (_ & NQ), SV as (_ & NV). assert (0 <= dot (value q) (value q)). { unfold dot. pose proof (Rle_0_sqr (qw (value q))). pose proof (Rle_0_sqr (qx (value q))). pose proof (Rle_0_sqr (qy (value q))). pose proof (Rle_0_sqr (qz (value q))). unfold Rsqr in *. lra. }
    assert (0 <= vdot (vvalue v) (vvalue v)). { unfold vdot. pose proof (Rle_0_sqr (vx (vvalue v))). pose proof (Rle_0_sqr (vy (vvalue v))). pose proof (Rle_0_sqr (vz (vvalue v))). unfold Rsqr in *. lra. }
    apply Rle_trans with (5 / 4 * (5 / 4) * (5 / 4)); [|lra]. apply Rmult_le_compat; auto; [nra|]. apply Rmult_le_compat; auto. }
  split; [exact N|]. destruct (comp_bound e (3 / 2) ltac:(lra) ltac:(lra)) as (C1 & C2 & C3). pose proof u53_is as U.
  assert (K : forall (x : f64) t, ap x t (w 448) 128 -> Rabs t <= 3 / 2 -> ap x t (w 448) 2).
  { intros x t (F & E & _) L. split; [exact F|]. split; [exact E|]. rewrite U in E. apply Rabs_le_inv in E. apply Rabs_le_inv in L. apply Rabs_le. lra. }
  split; [|split]; apply K; try assumption; unfold e; rewrite transform_is; assumption.
Qed.

(** ** Factors *)
Lemma cauchy (a b : vec3) : vdot a b * vdot a b <= vdot a a * vdot b b.
Proof.
  unfold vdot. pose proof (Rle_0_sqr (vx a * vy b - vy a * vx b)). pose proof (Rle_0_sqr (vx a * vz b - vz a * vx b)). pose proof (Rle_0_sqr (vy a * vz b - vz a * vy b)). unfold Rsqr in *. nra.
Qed.
Lemma dot_of dotv r e p : any_order_v dotv -> vdot e e <= 2 -> ap (f_x r) (vx e) (w 448) 2 -> ap (f_y r) (vy e) (w 448) 2 -> ap (f_z r) (vz e) (w 448) 2 -> sound3 p ->
  Rabs (vdot e (vvalue p)) <= 8 / 5 /\ ap (dotv r p) (vdot e (vvalue p)) (w 2710) 2.
Proof.
  intros D N X Y Z ((F1 & F2 & F3') & NP). pose proof u53_is as U.
  assert (B : Rabs (vdot e (vvalue p)) <= 8 / 5).
  { pose proof (cauchy e (vvalue p)) as C. assert (vdot e e * vdot (vvalue p) (vvalue p) <= 2 * (5 / 4)).
    { apply Rmult_le_compat; [| |exact N|exact NP]; unfold vdot; match goal with |- 0 <= ?a * ?a + ?b * ?b + ?c * ?c => pose proof (Rle_0_sqr a); pose proof (Rle_0_sqr b); pose proof (Rle_0_sqr c); unfold Rsqr in *; lra end. }
    apply Rabs_le. split; nra. }
  split; [exact B|]. destruct (comp_bound (vvalue p) 2 ltac:(lra) ltac:(lra)) as (P1 & P2 & P3). unfold vvalue in P1, P2, P3. cbn [vx vy vz] in P1, P2, P3.
  destruct X as (FX & EX & BX), Y as (FY & EY & BY), Z as (FZ & EZ & BZ).
  assert (T : forall x y : f64, is_finite x = true -> is_finite y = true -> Rabs (B2R x) <= 2 -> Rabs (B2R y) <= 2 -> term_in 2 (x, y)).
  { intros x y X Y XB YB. split; [exact X|]. split; [exact Y|]. cbn [fst snd]. rewrite Rabs_mult. change (bpow radix2 2) with (2 * 2). apply Rmult_le_compat; auto using Rabs_pos. }
  destruct (sums_err 2 _ _ ltac:(lia) (D r p)) as (FD & _ & _ & ED).
  { unfold pairs3. repeat (apply Forall_cons; [apply T; assumption|]). apply Forall_nil. }
  { cbn. lia. }
  unfold pairs3 in ED. cbn [List.length INR] in ED. change (2 - 54)%Z with (-52)%Z in ED. destruct us as (U2 & _). rewrite U2 in ED.
  unfold total in ED. cbn [map fold_right fst snd] in ED.
  assert (S : Rabs (B2R (dotv r p) - vdot e (vvalue p)) <= w 2710).
  { unfold vdot, vvalue. cbn [vx vy vz].
    assert (K : forall x t y : R, Rabs (x - t) <= w 448 -> Rabs y <= 2 -> Rabs ((x - t) * y) <= w 896) by (intros x t y E L; rewrite Rabs_mult; replace (896 * u53) with ((448 * u53) * 2) by ring; apply Rmult_le_compat; auto using Rabs_pos).
    pose proof (K _ _ _ EX P1) as K1. pose proof (K _ _ _ EY P2) as K2. pose proof (K _ _ _ EZ P3) as K3.
    apply Rabs_le_inv in ED. apply Rabs_le_inv in K1. apply Rabs_le_inv in K2. apply Rabs_le_inv in K3. apply Rabs_le. lra. }
  split; [exact FD|]. split; [exact S|]. rewrite U in S. apply Rabs_le_inv in S. apply Rabs_le_inv in B. apply Rabs_le. lra.
Qed.
Lemma factor_near dot3 dotv q l p d : any_order3 dot3 -> any_order_v dotv -> sound q -> sound3 l -> sound3 p -> sound3 d ->
  let f := schmid_f dot3 dotv q l p d in
  is_finite f = true /\ 0 <= B2R f /\ Rabs (B2R f - cosines (transform_vector (value q) (vvalue l)) (vvalue p) (vvalue d)) <= / 2 ^ 39.
Proof.
  intros D3 DV SQ SL SP SD. cbv zeta. destruct (transform_near dot3 q l D3 SQ SL) as (N & X & Y & Z). unfold schmid_f. cbv zeta. set (r := transform_f dot3 q l) in *. set (e := transform_vector _ _) in *.
  destruct (dot_of dotv r e p DV N X Y Z SP) as (B1 & A1). destruct (dot_of dotv r e d DV N X Y Z SD) as (B2 & A2).
  destruct (ap_mul 2 _ _ _ _ _ _ _ _ ltac:(lia) A1 A2 ltac:(lra) ltac:(change (bpow radix2 2) with 4; lra)) as (F & E & _).
  unfold fabs. rewrite is_finite_Babs, B2R_Babs. split; [exact F|]. split; [apply Rabs_pos|]. unfold cosines.
  apply Rle_trans with (1 := Rabs_triang_inv2 _ _). apply Rle_trans with (1 := E). change (2 - 54)%Z with (-52)%Z. destruct us as (U2 & _). rewrite U2, u53_is. cbn [pow]. lra.
Qed.
(** The product of the cosines of vectors at a right angle is at most a half of the squares. *)
Lemma half_bound (l p d : vec3) : cosines l p d <= vdot l l * (vdot p p + vdot d d + 2 * Rabs (vdot p d)) / 4.
Proof.
  assert (K : forall d, vdot l p * vdot l d <= vdot l l * (vdot p p + vdot d d + 2 * Rabs (vdot p d)) / 4).
  { intros k. pose proof (cauchy l (vadd p k)) as C. assert (L0 : 0 <= vdot l l) by (unfold vdot; pose proof (Rle_0_sqr (vx l)); pose proof (Rle_0_sqr (vy l)); pose proof (Rle_0_sqr (vz l)); unfold Rsqr in *; lra).
    assert (S : vdot (vadd p k) (vadd p k) = vdot p p + vdot k k + 2 * vdot p k) by (unfold vdot, vadd; cbn [vx vy vz]; ring).
    assert (T : vdot l (vadd p k) = vdot l p + vdot l k) by (unfold vdot, vadd; cbn [vx vy vz]; ring). rewrite S, T in C.
    pose proof (Rle_abs (vdot p k)) as A. assert (M : vdot l l * (2 * vdot p k) <= vdot l l * (2 * Rabs (vdot p k))) by (apply Rmult_le_compat_l; lra).
    pose proof (Rle_0_sqr (vdot l p - vdot l k)) as Q. unfold Rsqr in Q. lra. }
  unfold cosines. unfold Rabs at 1. destruct (Rcase_abs _) as [N|P]; [|apply K].
  pose proof (K (vscale (-1) d)) as H.
  replace (vdot l (vscale (-1) d)) with (- vdot l d) in H by (unfold vdot, vscale; cbn [vx vy vz]; ring).
  replace (vdot (vscale (-1) d) (vscale (-1) d)) with (vdot d d) in H by (unfold vdot, vscale; cbn [vx vy vz]; ring).
  replace (vdot p (vscale (-1) d)) with (- vdot p d) in H by (unfold vdot, vscale; cbn [vx vy vz]; ring). rewrite Rabs_Ropp in H. lra.
Qed.
Lemma near_sound e q : e <= / 8 -> near_unit e q -> sound q.
Proof. intros L (F & E). split; [exact F|]. apply Rabs_le_inv in E. lra. Qed.
Lemma near_sound3 e v : e <= / 8 -> near_unit3 e v -> sound3 v.
Proof. intros L (F & E). split; [exact F|]. apply Rabs_le_inv in E. lra. Qed.
Lemma half_near q l p d : near_unit (/ 2 ^ 41) q -> near_unit3 (/ 2 ^ 41) l -> square_on (/ 2 ^ 41) p d ->
  cosines (transform_vector (value q) (vvalue l)) (vvalue p) (vvalue d) <= 1 / 2 + / 2 ^ 39.
Proof.
  intros (_ & Q) (_ & L) ((_ & P) & (_ & D) & S). apply Rle_trans with (1 := half_bound _ _ _). rewrite transform_norm.
  apply Rabs_le_inv in Q. apply Rabs_le_inv in L. apply Rabs_le_inv in P. apply Rabs_le_inv in D. pose proof (Rabs_pos (vdot (vvalue p) (vvalue d))) as S0.
  set (a := dot (value q) (value q)) in *. set (b := vdot (vvalue l) (vvalue l)) in *. set (c := vdot (vvalue p) (vvalue p)) in *. set (e := vdot (vvalue d) (vvalue d)) in *. set (s := Rabs _) in *.
  cbn [pow] in *. set (t := / _) in Q, L, P, D, S. assert (T : t = / 2199023255552) by (unfold t; lra). rewrite T in *.
  assert (AA : 0 <= a * a <= 1 + 5 / 2 * / 2199023255552) by nra. assert (AB : 0 <= a * a * b <= 1 + 15 / 4 * / 2199023255552) by nra.
  assert (X : a * a * b * (c + e + 2 * s) <= (1 + 15 / 4 * / 2199023255552) * (2 + 4 * / 2199023255552)) by (apply Rmult_le_compat; lra). lra.
Qed.

(** ** Missing numbers *)
Definition nan4 : fquat := F4 B754_nan B754_nan B754_nan B754_nan.
Definition has_nan4 (q : fquat) : Prop := fw q = B754_nan \/ fx q = B754_nan \/ fy q = B754_nan \/ fz q = B754_nan.
Definition has_nan3 (v : fvec) : Prop := f_x v = B754_nan \/ f_y v = B754_nan \/ f_z v = B754_nan.
Ltac nans := repeat first [reflexivity | assumption | apply nan_add | apply nan_sub | apply nan_mul]; auto.
Ltac seek := repeat first [rewrite (fun x => nan_mul B754_nan x (or_introl eq_refl)) | rewrite (fun x => nan_mul x B754_nan (or_intror eq_refl))
  | rewrite (fun x => nan_add B754_nan x (or_introl eq_refl)) | rewrite (fun x => nan_add x B754_nan (or_intror eq_refl))
  | rewrite (fun x => nan_sub B754_nan x (or_introl eq_refl)) | rewrite (fun x => nan_sub x B754_nan (or_intror eq_refl))]; reflexivity.
Lemma nan_product dot3 a b : any_order3 dot3 -> fx a = B754_nan \/ fy a = B754_nan \/ fz a = B754_nan \/ has_nan4 b -> mul_south_f dot3 a b = nan4.
Proof.
  intros D H. assert (W : fmul (fw a) (fw b) = B754_nan \/ dot3 a b = B754_nan).
  { destruct H as [H|[H|[H|[H|[H|[H|H]]]]]]; try (left; apply nan_mul; now right);
      right; apply (nan_sums _ _ (D a b)); unfold pairs, nan_term; cbn [tl]; rewrite H;
      first [apply Exists_cons_hd; cbn [fst snd]; tauto | apply Exists_cons_tl, Exists_cons_hd; cbn [fst snd]; tauto | apply Exists_cons_tl, Exists_cons_tl, Exists_cons_hd; cbn [fst snd]; tauto]. }
  unfold mul_south_f, nan4. rewrite (nan_sub _ _ W). destruct H as [H|[H|[H|[H|[H|[H|H]]]]]]; rewrite H; f_equal; seek.
Qed.
Lemma nan_conj q : has_nan4 q -> has_nan4 (conjugate_f q).
Proof. unfold has_nan4, conjugate_f. cbv zeta. cbn [fw]. intros [H|[H|[H|H]]]; destruct (flt (fw q) f0); unfold fqneg; cbn [fw fx fy fz]; rewrite H; cbn; tauto. Qed.
Lemma nan_factor dot3 dotv q l p d : any_order3 dot3 -> any_order_v dotv -> has_nan4 q \/ has_nan3 l -> schmid_f dot3 dotv q l p d = B754_nan.
Proof.
  intros D DV H. unfold schmid_f, transform_f. cbv zeta.
  assert (P : mul_south_f dot3 (F4 f0 (f_x l) (f_y l) (f_z l)) (conjugate_f q) = nan4).
  { apply nan_product; [exact D|]. cbn [fx fy fz]. destruct H as [H|[H|[H|H]]]; auto. do 3 right. now apply nan_conj. }
  rewrite P. rewrite (nan_product dot3 q nan4 D) by (do 3 right; left; reflexivity). cbn [nan4 fx fy fz].
  assert (N : dotv (F3 B754_nan B754_nan B754_nan) p = B754_nan) by (apply (nan_sums _ _ (DV _ p)); apply Exists_cons_hd; left; reflexivity).
  rewrite N, nan_mul by now left. reflexivity.
Qed.

(** ** Unit vectors *)
Lemma whole z : (Z.abs z < 2 ^ 53)%Z -> is_finite (f_of_Z z) = true /\ B2R (f_of_Z z) = IZR z.
Proof.
  intros L. assert (G : generic_format radix2 fexp64 (IZR z)).
  { destruct (Z.abs_spec z) as [(_ & E)|(_ & E)]; [rewrite E in L; apply format_int; lia|]. replace (IZR z) with (- IZR (- z)) by (rewrite opp_IZR; ring). apply generic_format_opp, format_int. lia. }
  pose proof (binary_normalize_correct 53 1024 _ _ mode_NE z 0 false) as C. cbv zeta in C. rewrite round_mode_is in C. unfold F2R in C. cbn [Fnum Fexp bpow] in C. rewrite Rmult_1_r in C.
  rewrite round_generic in C by (assumption || typeclasses eauto). rewrite Rlt_bool_true in C.
  - destruct C as (C1 & C2 & _). split; [exact C2|exact C1].
  - rewrite <- abs_IZR. apply Rlt_trans with (IZR (2 ^ 53)); [now apply IZR_lt|]. change (2 ^ 53)%Z with (Zpower radix2 53). rewrite IZR_Zpower by lia. change (bpow radix2 53 < bpow radix2 1024). apply bpow_lt. lia.
Qed.
Lemma near_v dotv v n : any_order_v dotv -> in_range (F4 f0 (f_x v) (f_y v) (f_z v)) -> normalise (as_quat (vvalue v)) = Some n ->
  let r := unit_f dotv v in finite3 r /\ Rabs (B2R (f_x r) - qx n) <= / 2 ^ 45 /\ Rabs (B2R (f_y r) - qy n) <= / 2 ^ 45 /\ Rabs (B2R (f_z r) - qz n) <= / 2 ^ 45.
Proof.
  intros D IR NE. cbv zeta. set (dot4 := fun a b => ffma (fw a) (fw b) (dotv (F3 (fx a) (fy a) (fz a)) (F3 (fx b) (fy b) (fz b)))).
  assert (D4 : any_order dot4) by (intros a b; apply sums_fma; exact (D (F3 (fx a) (fy a) (fz a)) (F3 (fx b) (fy b) (fz b)))).
  destruct (normalise_near dot4 _ D4 IR) as (n' & E & ((_ & FX & FY & FZ) & _ & EX & EY & EZ) & _).
  change (value (F4 f0 (f_x v) (f_y v) (f_z v))) with (as_quat (vvalue v)) in E. assert (n' = n) by congruence. subst n'.
  assert (V : F3 (f_x v) (f_y v) (f_z v) = v) by now destruct v.
  assert (T : ffma f0 f0 (dotv v v) = dotv v v).
  { unfold normalise_f, dot4 in FX. cbv zeta in FX. cbn [fw fx fy fz] in FX. rewrite V in FX. destruct (dotv v v) as [s|s| |s m e B]; try reflexivity.
    exfalso. destruct s; destruct (f_x v) as [b|b| |b m e B]; discriminate FX. }
  unfold normalise_f, dot4 in *. cbv zeta in *. cbn [fw fx fy fz] in *. rewrite V, T in *. unfold unit_f, finite3. cbv zeta. cbn [f_x f_y f_z]. auto 10.
Qed.
Lemma unit_whole dotv a b c : any_order_v dotv -> (Z.abs a < 2 ^ 53)%Z -> (Z.abs b < 2 ^ 53)%Z -> (Z.abs c < 2 ^ 53)%Z -> (a <> 0 \/ b <> 0 \/ c <> 0)%Z ->
  exists s, 0 < s /\ s * s = IZR (a * a + b * b + c * c) /\
  let r := unit_f dotv (fvec_of_Z a b c) in finite3 r /\ Rabs (B2R (f_x r) - IZR a / s) <= / 2 ^ 45 /\ Rabs (B2R (f_y r) - IZR b / s) <= / 2 ^ 45 /\ Rabs (B2R (f_z r) - IZR c / s) <= / 2 ^ 45.
Proof.
  intros D LA LB LC NZ. destruct (whole a LA) as (FA & VA), (whole b LB) as (FB & VB), (whole c LC) as (FC & VC).
  assert (P400 : 1 <= 2 ^ 400) by (apply pow_R1_Rle; lra). assert (I400 : / 2 ^ 400 <= 1) by (rewrite <- Rinv_1; apply Rinv_le_contravar; lra).
  assert (BIG : forall z, (Z.abs z < 2 ^ 53)%Z -> Rabs (IZR z) <= 2 ^ 400).
  { intros z L. rewrite <- abs_IZR. apply Rle_trans with (IZR (2 ^ 53)); [apply IZR_le; lia|]. replace (IZR (2 ^ 53)) with (2 ^ 53) by (cbn [pow]; lra). apply Rle_pow; [lra|lia]. }
  assert (ONE : forall z, (z <> 0)%Z -> / 2 ^ 400 <= Rabs (IZR z)). { intros z N. apply Rle_trans with 1; [exact I400|]. rewrite <- abs_IZR. apply IZR_le. lia. }
  assert (IR : in_range (F4 f0 (f_of_Z a) (f_of_Z b) (f_of_Z c))).
  { split; [repeat split; assumption|]. unfold coefs. cbn [fw fx fy fz]. split.
    - intros x [<-|[<-|[<-|[<-|[]]]]]; rewrite ?VA, ?VB, ?VC; auto. change (B2R f0) with 0. rewrite Rabs_R0. lra.
    - destruct NZ as [N|[N|N]]; [exists (f_of_Z a)|exists (f_of_Z b)|exists (f_of_Z c)]; (split; [cbn; tauto|]); rewrite ?VA, ?VB, ?VC; auto. }
  set (S2 := IZR (a * a + b * b + c * c)). assert (P : 0 < S2) by (unfold S2; apply IZR_lt; nia). exists (sqrt S2). split; [now apply sqrt_lt_R0|]. split; [apply sqrt_sqrt; lra|].
  assert (NE : normalise (as_quat (vvalue (fvec_of_Z a b c))) = Some (Q4 (0 / sqrt S2) (IZR a / sqrt S2) (IZR b / sqrt S2) (IZR c / sqrt S2))).
  { unfold normalise, norm, dot, as_quat, vvalue, fvec_of_Z. cbn [qw qx qy qz vx vy vz f_x f_y f_z]. rewrite VA, VB, VC. replace (0 * 0 + IZR a * IZR a + IZR b * IZR b + IZR c * IZR c) with S2 by (unfold S2; rewrite !plus_IZR, !mult_IZR; ring).
    cbv zeta. destruct (Req_EM_T (sqrt S2) 0) as [Z|_]; [pose proof (sqrt_lt_R0 _ P); lra|reflexivity]. }
  pose proof (near_v dotv (fvec_of_Z a b c) _ D IR NE) as N. exact N.
Qed.
Lemma unit_of_three x y z : x * x + y * y + z * z = 1 -> forall r : fvec, finite3 r -> Rabs (B2R (f_x r) - x) <= / 2 ^ 45 -> Rabs (B2R (f_y r) - y) <= / 2 ^ 45 -> Rabs (B2R (f_z r) - z) <= / 2 ^ 45 ->
  near_unit3 (/ 2 ^ 41) r.
Proof.
  intros U r F X Y Z. assert (P : 0 < / 2 ^ 45) by (apply Rinv_0_lt_compat, pow_lt; lra).
  assert (N : near_unit (/ 2 ^ 41) (F4 f0 (f_x r) (f_y r) (f_z r))).
  { apply near_is_unit with (Q4 0 x y z); [unfold dot; cbn [qw qx qy qz]; lra|]. split; [destruct F as (A & B & C); repeat split; assumption|]. cbn [fw fx fy fz qw qx qy qz]. change (B2R f0) with 0. rewrite Rminus_0_r, Rabs_R0. auto with real. }
  destruct N as (_ & N). split; [exact F|]. unfold dot, value, vdot, vvalue in *. cbn [fw fx fy fz qw qx qy qz vx vy vz] in *. change (B2R f0) with 0 in N.
  replace (B2R (f_x r) * B2R (f_x r) + B2R (f_y r) * B2R (f_y r) + B2R (f_z r) * B2R (f_z r)) with (0 * 0 + B2R (f_x r) * B2R (f_x r) + B2R (f_y r) * B2R (f_y r) + B2R (f_z r) * B2R (f_z r)) by ring. exact N.
Qed.
Lemma near_products x y x' y' : -1 <= x <= 1 -> -1 <= y <= 1 -> Rabs (x' - x) <= / 2 ^ 45 -> Rabs (y' - y) <= / 2 ^ 45 -> Rabs (x' * y' - x * y) <= / 2 ^ 43.
Proof.
  intros X Y EX EY. replace (x' * y' - x * y) with ((x' - x) * y' + x * (y' - y)) by ring. apply Rle_trans with (1 := Rabs_triang _ _). rewrite !Rabs_mult.
  assert (B1 : Rabs y' <= 2) by (cbn [pow] in EY; apply Rabs_le_inv in EY; apply Rabs_le; lra). assert (B2 : Rabs x <= 1) by (apply Rabs_le; lra).
  assert (K1 : Rabs (x' - x) * Rabs y' <= / 2 ^ 45 * 2) by (apply Rmult_le_compat; auto using Rabs_pos). assert (K2 : Rabs x * Rabs (y' - y) <= 1 * / 2 ^ 45) by (apply Rmult_le_compat; auto using Rabs_pos).
  cbn [pow] in *. lra.
Qed.
Lemma whole_square dotv a b c a' b' c' : any_order_v dotv -> (forall z, In z [a; b; c; a'; b'; c'] -> Z.abs z < 2 ^ 53)%Z -> (a <> 0 \/ b <> 0 \/ c <> 0)%Z -> (a' <> 0 \/ b' <> 0 \/ c' <> 0)%Z ->
  (a * a' + b * b' + c * c' = 0)%Z -> square_on (/ 2 ^ 41) (unit_f dotv (fvec_of_Z a b c)) (unit_f dotv (fvec_of_Z a' b' c')).
Proof.
  intros D L NZ NZ' O.
  destruct (unit_whole dotv a b c D (L a ltac:(cbn; tauto)) (L b ltac:(cbn; tauto)) (L c ltac:(cbn; tauto)) NZ) as (s & S0 & SS & F & E1 & E2 & E3).
  destruct (unit_whole dotv a' b' c' D (L a' ltac:(cbn; tauto)) (L b' ltac:(cbn; tauto)) (L c' ltac:(cbn; tauto)) NZ') as (s' & S0' & SS' & F' & E1' & E2' & E3').
  assert (U : forall x y z s, 0 < s -> s * s = IZR (x * x + y * y + z * z) -> IZR x / s * (IZR x / s) + IZR y / s * (IZR y / s) + IZR z / s * (IZR z / s) = 1).
  { intros x y z t T E. rewrite !plus_IZR, !mult_IZR in E. apply Rmult_eq_reg_r with (t * t); [|nra]. transitivity (IZR x * IZR x + IZR y * IZR y + IZR z * IZR z); [field; lra|lra]. }
  pose proof (U _ _ _ _ S0 SS) as N. pose proof (U _ _ _ _ S0' SS') as N'.
  assert (R1 : forall x y z, x * x + y * y + z * z = 1 -> (-1 <= x <= 1) /\ (-1 <= y <= 1) /\ (-1 <= z <= 1)) by (intros x y z K; repeat split; nra).
  destruct (R1 _ _ _ N) as (X & Y & Z). destruct (R1 _ _ _ N') as (X' & Y' & Z').
  assert (O' : IZR a / s * (IZR a' / s') + IZR b / s * (IZR b' / s') + IZR c / s * (IZR c' / s') = 0).
  { apply (f_equal IZR) in O. rewrite !plus_IZR, !mult_IZR in O. replace (IZR a / s * (IZR a' / s') + IZR b / s * (IZR b' / s') + IZR c / s * (IZR c' / s')) with ((IZR a * IZR a' + IZR b * IZR b' + IZR c * IZR c') / (s * s')) by (field; lra). rewrite O. unfold Rdiv. ring. }
  split; [now apply (unit_of_three _ _ _ N)|]. split; [now apply (unit_of_three _ _ _ N')|].
  pose proof (near_products _ _ _ _ X X' E1 E1') as P1. pose proof (near_products _ _ _ _ Y Y' E2 E2') as P2. pose proof (near_products _ _ _ _ Z Z' E3 E3') as P3.
  unfold vdot, vvalue. cbn [vx vy vz]. cbn [pow] in *. apply Rabs_le_inv in P1. apply Rabs_le_inv in P2. apply Rabs_le_inv in P3. apply Rabs_le. lra.
Qed.
