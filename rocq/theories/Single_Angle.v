(** From orientations in single precision to misorientations. *)
From Coq Require Import String Reals Lra Psatz.
From Coq Require Import List ZArith Bool Lia.
From Flocq Require Import Core IEEE754.BinarySingleNaN.
From Verif Require Import Grid Quat_Model Quat_Spec QuatEuler_Proofs QuatSym_Proofs Boundary_Model Double_Model Double_Spec Double_Proofs Double_Angle Single_Model Single_Spec Single_Proofs.
Import ListNotations.
Open Scope R_scope.

Definition qsub (a b : quat) : quat := Q4 (qw a - qw b) (qx a - qx b) (qy a - qy b) (qz a - qz b).
Lemma dot_sym a b : dot a b = dot b a.
Proof. unfold dot. ring. Qed.
Lemma cauchy a b : dot a b * dot a b <= dot a a * dot b b.
Proof.
  destruct a as [a1 a2 a3 a4], b as [b1 b2 b3 b4]. unfold dot. cbn [qw qx qy qz].
  pose proof (Rle_0_sqr (a1 * b2 - a2 * b1)). pose proof (Rle_0_sqr (a1 * b3 - a3 * b1)). pose proof (Rle_0_sqr (a1 * b4 - a4 * b1)).
  pose proof (Rle_0_sqr (a2 * b3 - a3 * b2)). pose proof (Rle_0_sqr (a2 * b4 - a4 * b2)). pose proof (Rle_0_sqr (a3 * b4 - a4 * b3)). unfold Rsqr in *. lra.
Qed.
Lemma cs a b u v : 0 <= u -> 0 <= v -> dot a a <= u * u -> dot b b <= v * v -> Rabs (dot a b) <= u * v.
Proof.
  intros U V A B. assert (PA : 0 <= dot a a) by (unfold dot; nra). assert (PB : 0 <= dot b b) by (unfold dot; nra).
  pose proof (cauchy a b). assert (dot a a * dot b b <= (u * u) * (v * v)) by (apply Rmult_le_compat; lra).
  rewrite <- (Rabs_pos_eq (u * v)) by nra. apply Rsqr_le_abs_0. unfold Rsqr. lra.
Qed.
Lemma dot_shift a x b y d : 0 <= d -> dot x x = 1 -> dot y y = 1 -> dot (qsub a x) (qsub a x) <= d * d -> dot (qsub b y) (qsub b y) <= d * d ->
  Rabs (dot a b - dot x y) <= 2 * d + d * d.
Proof.
  intros D X Y A B. pose proof (cs (qsub a x) y d 1 D Rle_0_1 A ltac:(lra)) as H1.
  pose proof (cs x (qsub b y) 1 d Rle_0_1 D ltac:(lra) B) as H2.
  pose proof (cs _ _ d d D D A B) as H3.
  replace (dot a b - dot x y) with (dot (qsub a x) y + dot x (qsub b y) + dot (qsub a x) (qsub b y)) by (unfold dot, qsub; cbn [qw qx qy qz]; ring).
  apply Rabs_le_inv in H1. apply Rabs_le_inv in H2. apply Rabs_le_inv in H3. apply Rabs_le. lra.
Qed.
Lemma raw_norm s n : dot (raw s n) (raw s n) = dot s s * dot n n.
Proof. unfold dot, raw. cbn [qw qx qy qz]. ring. Qed.
Lemma raw_sub s n m : qsub (raw s n) (raw s m) = raw s (qsub n m).
Proof. unfold qsub, raw. cbn [qw qx qy qz]. f_equal; ring. Qed.
Lemma qneg_norm q : dot (qneg q) (qneg q) = dot q q.
Proof. unfold dot, qneg. cbn [qw qx qy qz]. ring. Qed.
Lemma dot_neg_l q c : Rabs (dot (qneg q) c) = Rabs (dot q c).
Proof. rewrite (dot_sym (qneg q)), (dot_sym q). apply dot_neg. Qed.
Lemma raw_neg s n : raw s (qneg n) = qneg (raw s n).
Proof. unfold raw, qneg. cbn [qw qx qy qz]. f_equal; ring. Qed.
Lemma neg_neg q : qneg (qneg q) = q.
Proof. destruct q as [a b c d]. unfold qneg. cbn [qw qx qy qz]. now rewrite !Ropp_involutive. Qed.
Definition either (x q : quat) : Prop := x = q \/ x = qneg q.

Notation D32 := (11 / 10000000).
Section Trig.
Variables cos_s sin_s : f32 -> f32.
Hypothesis COS : good_trig cos_s cos.
Hypothesis SIN : good_trig sin_s sin.
Lemma true_unit e : dot (true_orientation e) (true_orientation e) = 1.
Proof. destruct e as ((a, b), c). exact (euler_unit (B2R a) (B2R b) (B2R c)). Qed.
Lemma euler_either e : some_angles e -> exists x, either x (true_orientation e) /\ finite4 (euler_quat cos_s sin_s e) /\
  dot (qsub (value (euler_quat cos_s sin_s e)) x) (qsub (value (euler_quat cos_s sin_s e)) x) <= D32 * D32.
Proof.
  intros A. destruct (euler_near cos_s sin_s COS SIN e A) as (x & X & F & E1 & E2 & E3 & E4). exists x. split; [|split; [exact F|]].
  - destruct e as ((a, b), c). change (true_orientation (a, b, c)) with (Quat false (raw_euler (a, b, c))). unfold either, Quat.
    destruct (Rlt_dec (qw (raw_euler (a, b, c))) 0); [rewrite neg_neg; tauto|exact X].
  - unfold dot, qsub, value. cbn [qw qx qy qz]. assert (S0 : forall t, Rabs t <= E32 -> t * t <= E32 * E32) by (intros t T; apply Rabs_le_inv in T; nra).
    apply S0 in E1, E2, E3, E4. lra.
Qed.
Lemma euler_sound e : some_angles e -> sound (euler_quat cos_s sin_s e) /\ Rabs (dot (value (euler_quat cos_s sin_s e)) (value (euler_quat cos_s sin_s e)) - 1) <= 23 / 10000000.
Proof.
  intros A. destruct (euler_either e A) as (x & X & F & E). assert (N : dot x x = 1) by (destruct X as [-> | ->]; rewrite ?qneg_norm; apply true_unit).
  pose proof (dot_shift _ _ _ _ D32 ltac:(lra) N N E E) as B. rewrite N in B. assert (L : Rabs (dot (value (euler_quat cos_s sin_s e)) (value (euler_quat cos_s sin_s e)) - 1) <= 23 / 10000000) by (apply Rle_trans with (1 := B); lra).
  split; [|exact L]. split; [exact F|]. apply Rabs_le_inv in L. lra.
Qed.
Definition alike (d x y : R) : Prop := Rabs (x - y) <= d /\ 0 <= x <= 1 /\ 0 <= y <= 1.
Lemma rmax_alike d l m : Forall2 (alike d) l m -> l <> [] -> alike d (rmax l) (rmax m).
Proof.
  intros FO NE. destruct FO as [|x y l m H FO]; [congruence|]. clear NE. unfold rmax. revert x y H. induction FO as [|b c l m HB FO IH]; intros x y H; [exact H|].
  cbn [fold_left]. apply IH. destruct H as (EA & BA & XA). destruct HB as (EB & BB & XB).
  apply Rabs_le_inv in EA. apply Rabs_le_inv in EB. split; [apply Rabs_le|]; unfold Rmax; destruct (Rle_dec x b), (Rle_dec y c); lra.
Qed.
Lemma clip_alike a b : Rabs (Rabs a - Rabs b) <= 23 / 10000000 -> alike (23 / 10000000) (clip1 (Rabs a)) (clip1 (Rabs b)).
Proof.
  intros D. pose proof (Rabs_pos a). pose proof (Rabs_pos b). split; [now apply clip_near|]. unfold clip1. destruct (Rlt_dec 1 (Rabs a)), (Rlt_dec 1 (Rabs b)); lra.
Qed.
Lemma abs_shift a b x y c z : Rabs (dot a b - dot x y) <= 2 * D32 + D32 * D32 -> Rabs (dot x y) = Rabs (dot c z) -> Rabs (Rabs (dot a b) - Rabs (dot c z)) <= 23 / 10000000.
Proof. intros S1 <-. apply Rle_trans with (1 := Rabs_triang_inv2 _ _). apply Rle_trans with (1 := S1). lra. Qed.
Lemma cosines e e' (A : some_angles e) (A' : some_angles e') g : let q := value (euler_quat cos_s sin_s e) in let n := value (euler_quat cos_s sin_s e') in
  let o := true_orientation e in let o' := true_orientation e' in
  alike (23 / 10000000) (rmax (map (fun c => clip1 (Rabs (dot q c))) (n :: map (fun s => sym_comps s n) (tl (sym_eqv g)))))
    (rmax (map (fun c => clip1 (Rabs (dot o c))) (o' :: map (fun s => sym_comps s o') (tl (sym_eqv g))))).
Proof.
  intros q n o o'. apply rmax_alike; [|discriminate]. cbn [map].
  destruct (euler_either e A) as (x & X & _ & EX). destruct (euler_either e' A') as (y & Y & _ & EY). fold q o in EX, X. fold n o' in EY, Y.
  assert (NX : dot x x = 1) by (destruct X as [-> | ->]; rewrite ?qneg_norm; apply true_unit). assert (NY : dot y y = 1) by (destruct Y as [-> | ->]; rewrite ?qneg_norm; apply true_unit).
  apply Forall2_cons.
  - apply clip_alike. apply (abs_shift _ _ x y); [apply dot_shift; auto; lra|]. destruct X as [-> | ->], Y as [-> | ->]; rewrite ?dot_neg_l, ?dot_neg; reflexivity.
  - rewrite !map_map. assert (U : forall s, In s (tl (sym_eqv g)) -> dot s s = 1).
    { intros s I. destruct (sym_group g) as (_ & U & _). apply (U s). destruct (sym_eqv g); [destruct I|now right]. }
    induction (tl (sym_eqv g)) as [|s l IH]; [apply Forall2_nil|]. cbn [map]. apply Forall2_cons; [|apply IH; intros; apply U; now right].
    pose proof (U s ltac:(now left)) as US. apply clip_alike. rewrite !dot_comps. apply (abs_shift _ _ x (raw s y)).
    + apply dot_shift; auto; [lra|rewrite raw_norm, US, NY; ring|]. rewrite raw_sub, raw_norm, US. lra.
    + destruct X as [-> | ->], Y as [-> | ->]; rewrite ?raw_neg, ?dot_neg_l, ?dot_neg; reflexivity.
Qed.

(** A better bound on the arc cosine. *)
Lemma cos_small7 t : 0 <= t <= PI / 4 -> 7 / 10 <= cos t.
Proof.
  intros (A & B). pose proof PI_RGT_0. apply Rle_trans with (cos (PI / 4)); [|apply cos_decr_1; lra]. rewrite cos_PI4.
  assert (Q : 0 < sqrt 2 <= 10 / 7) by (split; [apply sqrt_lt_R0; lra|rewrite <- (sqrt_square (10 / 7)) by lra; apply sqrt_le_1; lra]).
  apply Rmult_le_reg_r with (sqrt 2); [lra|]. unfold Rdiv. rewrite Rmult_1_l, Rinv_l by lra. lra.
Qed.
Lemma sin_7 t : 0 <= t <= PI / 4 -> 7 / 10 * t <= sin t.
Proof.
  intros (A & B). destruct A as [A| <-]; [|rewrite sin_0; lra].
  destruct (MVT_cor2 sin cos 0 t A) as (c & E & C1 & C2); [intros; apply derivable_pt_lim_sin|]. rewrite sin_0 in E.
  pose proof (cos_small7 c ltac:(lra)). nra.
Qed.
Lemma acos7 a b d : 0 <= b <= 1 -> 0 <= a <= 1 -> b <= a -> a - b <= d -> 49 / 100 * ((acos b - acos a) * (acos b - acos a)) <= 2 * d /\ acos a <= acos b.
Proof.
  intros RB RA L D. pose proof (acos_range a RA) as A. pose proof (acos_range b RB) as B. pose proof PI_RGT_0 as P.
  assert (O : acos a <= acos b) by (apply acos_le; lra). split; [|exact O].
  pose proof (cos_acos a ltac:(lra)) as CA. pose proof (cos_acos b ltac:(lra)) as CB. set (x := acos a) in *. set (y := acos b) in *.
  set (t := (y - x) / 2). pose proof (sin_7 t ltac:(unfold t; lra)) as T.
  assert (F : cos x - cos y = 2 * sin t * sin ((x + y) / 2)).
  { unfold t. rewrite (form2 x y). replace ((y - x) / 2) with (- ((x - y) / 2)) by field. rewrite sin_neg. ring. }
  assert (S2 : sin t <= sin ((x + y) / 2)). { apply sin_incr_1; unfold t; lra. }
  assert (T0 : 0 <= t) by (unfold t; lra). assert (2 * (7 / 10 * t) * (7 / 10 * t) <= 2 * sin t * sin ((x + y) / 2)) by nra.
  assert (2 * (7 / 10 * t) * (7 / 10 * t) <= d) by lra. unfold t in *. nra.
Qed.
Lemma acos_alike a b : alike (23 / 10000000) a b -> Rabs (acos a - acos b) <= 31 / 10000.
Proof.
  intros (D & RA & RB). apply Rabs_le_inv in D. destruct (Rle_dec b a) as [L|L].
  - destruct (acos7 a b (23 / 10000000) RB RA L ltac:(lra)) as (E & O). apply Rabs_le. split; nra.
  - destruct (acos7 b a (23 / 10000000) RA RB ltac:(lra) ltac:(lra)) as (E & O). apply Rabs_le. split; nra.
Qed.
Lemma single_misori e e' g : some_angles e -> some_angles e' ->
  Rabs (neighbour_misori (sym_eqv g) (value (euler_quat cos_s sin_s e)) (value (euler_quat cos_s sin_s e')) - neighbour_misori (sym_eqv g) (true_orientation e) (true_orientation e')) <= 62 / 10000.
Proof.
  intros A A'. pose proof (acos_alike _ _ (cosines e e' A A' g)) as B. unfold neighbour_misori. cbv zeta in B. rewrite <- Rmult_minus_distr_l, Rabs_mult, (Rabs_pos_eq 2) by lra. lra.
Qed.
Lemma pi_tight : 3.1415 <= PI <= 3.1417 /\ 0 < 180 / PI <= 57.3.
Proof.
  pose proof pi_near as PN. apply Rabs_le_inv in PN.
  assert (PV : 3.14151 <= B2R fpi <= 3.1416) by (unfold fpi; rewrite (proj1 (number_value _ _ _)); unfold bpow; cbn [radix2 radix_val Z.pow_pos Pos.iter Z.mul Pos.mul]; lra).
  split; [lra|]. split; [apply Rdiv_lt_0_compat; lra|]. apply Rmult_le_reg_r with PI; [lra|]. unfold Rdiv. rewrite Rmult_assoc, Rinv_l by lra. lra.
Qed.
Lemma single_degrees e e' g : some_angles e -> some_angles e' ->
  Rabs (neighbour_misori (sym_eqv g) (value (euler_quat cos_s sin_s e)) (value (euler_quat cos_s sin_s e')) * (180 / PI) - true_angle g e e') <= 36 / 100.
Proof.
  intros A A'. pose proof (single_misori e e' g A A') as B. destruct pi_tight as (_ & D). unfold true_angle. rewrite <- Rmult_minus_distr_r, Rabs_mult, (Rabs_pos_eq (180 / PI)) by lra.
  apply Rle_trans with (62 / 10000 * 57.3); [apply Rmult_le_compat; try lra; apply Rabs_pos|lra].
Qed.
End Trig.
