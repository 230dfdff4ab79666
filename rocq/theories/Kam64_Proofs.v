(** Rounding in [calc_kam] and [calc_grod]. *)
From Coq Require Import String Reals Lra Psatz.
From Coq Require Import List ZArith Bool Lia.
From Flocq Require Import Core IEEE754.BinarySingleNaN.
From Verif Require Import Py Grid Quat_Model Boundary_Model Ebsd_Model Double_Model Double_Spec Double_Proofs Double_Angle Kam64_Model.
Import ListNotations.
Open Scope R_scope.

Ltac pows := unfold bpow in *; cbn [radix2 radix_val Z.pow_pos Pos.iter Z.mul Pos.mul Z.sub Z.add Z.opp Z.pos_sub Pos.pred_double Pos.succ Pos.add Z.succ_double Z.pred_double Z.double] in *.

(** ** The kernel average misorientation *)
Lemma dot_le a b : dot a a <= 5 / 4 -> dot b b <= 5 / 4 -> Rabs (dot a b) <= 5 / 4.
Proof.
  intros A B. unfold dot in *. apply Rabs_le.
  pose proof (Rle_0_sqr (qw a - qw b)). pose proof (Rle_0_sqr (qx a - qx b)). pose proof (Rle_0_sqr (qy a - qy b)). pose proof (Rle_0_sqr (qz a - qz b)).
  pose proof (Rle_0_sqr (qw a + qw b)). pose proof (Rle_0_sqr (qx a + qx b)). pose proof (Rle_0_sqr (qy a + qy b)). pose proof (Rle_0_sqr (qz a + qz b)).
  unfold Rsqr in *. lra.
Qed.
Lemma pair_near q n v : sound q -> sound n -> sums (pairs q n) v -> ap (fabs v) (Rabs (dot (value q) (value n))) u44 (3 / 2).
Proof.
  intros SQ SN SM. destruct (dot_near q n (value n) v SQ (sound_near_self n SN) SM) as (F & D). split; [unfold fabs; now rewrite is_finite_Babs|]. split; [exact D|].
  pose proof (dot_le _ _ (proj2 SQ) (proj2 SN)) as L. apply Rabs_le_inv in D. assert (P : 0 <= B2R (fabs v)) by (unfold fabs; rewrite B2R_Babs; apply Rabs_pos).
  rewrite Rabs_pos_eq by exact P. pose proof (Rabs_pos (dot (value q) (value n))). pows. lra.
Qed.
Lemma half_of k v x e A : (-1000 <= k <= 1000)%Z -> ap v x e A -> A / 2 <= bpow radix2 k -> ap (fdiv v f2) (x / 2) (e / 2 + bpow radix2 (k - 54)) (bpow radix2 k).
Proof.
  intros K (F & E & B) L. destruct f2_is as (V & F2). destruct (fdiv_in k v f2 K F) as (G1 & _ & G2 & G3); [lra|rewrite V; unfold Rdiv; rewrite Rabs_mult, (Rabs_pos_eq (/ 2)) by lra; lra|].
  split; [exact G1|]. split; [|exact G3]. rewrite V in G2. apply Rabs_le_inv in G2. apply Rabs_le_inv in E. apply Rabs_le. lra.
Qed.
Definition u43 := bpow radix2 (-43).
Definition u42 := bpow radix2 (-42).
Section Kam.
Variable dot_f : Z -> pix -> nat -> fquat -> fquat -> f64.
Variable arccos : f64 -> f64.
Hypothesis DOT : forall d p i, any_order (dot_f d p i).
Hypothesis ACOS : good_arccos arccos.
Lemma line_near d p n q i : (2 <= n)%Z -> (0 <= i < n)%Z -> (forall j, (0 <= j < n)%Z -> sound (q j)) ->
  ap (kam_line_f dot_f d p n q i) (kam_line n (fun j => value (q j)) i) u43 2 /\ 0 <= kam_line n (fun j => value (q j)) i.
Proof.
  intros N I SQ. unfold kam_line_f, kam_line, u43. destruct (Z.eqb_spec i 0) as [->|N0].
  - split; [|apply Rabs_pos]. eapply ap_weak; [apply pair_near; [apply SQ; lia|apply SQ; lia|apply DOT]|pows; lra|lra].
  - destruct (Z.eqb_spec i (n - 1)) as [->|N1].
    + split; [|apply Rabs_pos]. eapply ap_weak; [apply pair_near; [apply SQ; lia|apply SQ; lia|apply DOT]|pows; lra|lra].
    + set (x := Rabs (dot (value (q i)) (value (q (i + 1)%Z)))). set (y := Rabs (dot (value (q i)) (value (q (i - 1)%Z)))).
      split; [|unfold x, y; pose proof (Rabs_pos (dot (value (q i)) (value (q (i + 1)%Z)))); pose proof (Rabs_pos (dot (value (q i)) (value (q (i - 1)%Z)))); lra].
      pose proof (pair_near _ _ _ (SQ i ltac:(lia)) (SQ (i + 1)%Z ltac:(lia)) (DOT d p 0%nat _ _)) as A. pose proof (pair_near _ _ _ (SQ i ltac:(lia)) (SQ (i - 1)%Z ltac:(lia)) (DOT d p 1%nat _ _)) as B.
      pose proof (ap_add 2 _ _ _ _ _ _ _ _ ltac:(lia) A B ltac:(change (bpow radix2 2) with 4; lra)) as C.
      pose proof (half_of 1 _ _ _ _ ltac:(lia) C ltac:(change (bpow radix2 2) with 4; change (bpow radix2 1) with 2; lra)) as D.
      apply ap_weak with (1 := D); [|change (bpow radix2 1) with 2; lra]. change (2 - 54)%Z with (-52)%Z. change (1 - 54)%Z with (-53)%Z. pows. lra.
Qed.
Lemma clip_range x : 0 <= x -> 0 <= clip1 x <= 1.
Proof. intros X. unfold clip1. destruct (Rlt_dec 1 x); lra. Qed.
Lemma fabs_pos (v : f64) : 0 <= B2R (fabs v).
Proof. unfold fabs. rewrite B2R_Babs. apply Rabs_pos. Qed.
Lemma rnd_pos x : 0 <= x -> 0 <= rnd x.
Proof. intros X. rewrite <- (round_0 radix2 (SpecFloat.fexp 53 1024) ZnearestE). apply round_le; [apply (fexp_correct 53 1024); reflexivity|typeclasses eauto|exact X]. Qed.
Lemma half_pos (v : f64) : is_finite v = true -> 0 <= B2R v <= 8 -> 0 <= B2R (fdiv v f2).
Proof.
  intros F B. destruct f2_is as (V & F2). destruct (fdiv_in 2 v f2 ltac:(lia) F) as (_ & E & _); [lra|rewrite V; change (bpow radix2 2) with 4; apply Rabs_le; lra|].
  rewrite E, V. apply rnd_pos. lra.
Qed.
Lemma add_pos (v w : f64) : is_finite v = true -> is_finite w = true -> 0 <= B2R v <= 4 -> 0 <= B2R w <= 4 -> 0 <= B2R (fadd v w).
Proof.
  intros F G A B. destruct (fadd_in 3 v w ltac:(lia) F G) as (_ & E & _); [change (bpow radix2 3) with 8; apply Rabs_le; lra|]. rewrite E. apply rnd_pos. lra.
Qed.
Lemma line_pos d p n q i : (2 <= n)%Z -> (0 <= i < n)%Z -> (forall j, (0 <= j < n)%Z -> sound (q j)) -> 0 <= B2R (kam_line_f dot_f d p n q i).
Proof.
  intros N I SQ. unfold kam_line_f. destruct (i =? 0)%Z eqn:E0; [apply fabs_pos|]. destruct (i =? n - 1)%Z eqn:E1; [apply fabs_pos|].
  apply Z.eqb_neq in E0, E1. pose proof (pair_near _ _ _ (SQ i ltac:(lia)) (SQ (i + 1)%Z ltac:(lia)) (DOT d p 0%nat _ _)) as (FA & _ & BA).
  pose proof (pair_near _ _ _ (SQ i ltac:(lia)) (SQ (i - 1)%Z ltac:(lia)) (DOT d p 1%nat _ _)) as (FB & _ & BB).
  set (a := fabs (dot_f d p 0%nat (q i) (q (i + 1)%Z))) in *. set (b := fabs (dot_f d p 1%nat (q i) (q (i - 1)%Z))) in *.
  pose proof (fabs_pos (dot_f d p 0%nat (q i) (q (i + 1)%Z))) as PA. pose proof (fabs_pos (dot_f d p 1%nat (q i) (q (i - 1)%Z))) as PB. fold a in PA. fold b in PB.
  apply Rabs_le_inv in BA. apply Rabs_le_inv in BB.
  destruct (fadd_in 2 a b ltac:(lia) FA FB) as (F & _ & _ & BS); [change (bpow radix2 2) with 4; apply Rabs_le; lra|]. change (bpow radix2 2) with 4 in BS. apply Rabs_le_inv in BS.
  apply half_pos; [exact F|]. split; [apply add_pos; auto; lra|lra].
Qed.
Lemma acos_near42 a b : 0 <= b <= 1 -> 0 <= a <= 1 -> Rabs (a - b) <= u42 -> Rabs (acos a - acos b) <= bpow radix2 (-19).
Proof.
  intros RB RA D. apply Rabs_le_inv in D. assert (K : 8 * u42 <= bpow radix2 (-19) * bpow radix2 (-19)).
  { unfold u42. rewrite <- bpow_plus. change 8 with (bpow radix2 3). rewrite <- bpow_plus. apply bpow_le. lia. }
  pose proof (bpow_gt_0 radix2 (-19)) as P.
  destruct (Rle_dec b a) as [L|L].
  - destruct (acos_near1 a b u42 RB RA L ltac:(lra)) as (E & O). apply Rabs_le. split; nra.
  - destruct (acos_near1 b a u42 RA RB ltac:(lra) ltac:(lra)) as (E & O). apply Rabs_le. split; nra.
Qed.
(** Twice the arc cosine. *)
Lemma angle_near v x e : tight u42 v x -> bpow radix2 (-19) <= e -> is_finite (fmul f2 (arccos v)) = true /\ Rabs (B2R (fmul f2 (arccos v)) - 2 * acos x) <= / 200000.
Proof.
  intros (F & E & B & B') _. destruct (proj1 ACOS _ F B) as (FA & EA). pose proof (acos_near42 _ _ B' B E) as EC. destruct powers as (P1 & P2 & P3 & _).
  pose proof (acos_range _ B) as RG. pose proof PI_4 as P4. destruct f2_is as (V2 & F2).
  apply Rabs_le_inv in EA. apply Rabs_le_inv in EC.
  destruct (fmul_in 3 f2 (arccos v) ltac:(lia) F2 FA) as (G1 & _ & G2 & _).
  { rewrite V2. change (bpow radix2 3) with 8. apply Rabs_le. lra. }
  split; [exact G1|]. rewrite V2 in G2. change (3 - 54)%Z with (-51)%Z in G2. apply Rabs_le_inv in G2. apply Rabs_le.
  assert (bpow radix2 (-19) <= / 500000) by (pows; lra). assert (bpow radix2 (-51) <= / 1000000000) by (pows; lra). lra.
Qed.
Lemma kam_near W H ori p : (2 <= W)%Z -> (2 <= H)%Z -> inside W H p -> (forall p, inside W H p -> sound (ori p)) ->
  match calc_kam_f dot_f arccos W H ori, calc_kam W H (fun p => value (ori p)) with
  | Ok k, Ok k' => is_finite (k p) = true /\ Rabs (B2R (k p) - k' p) <= / 200000
  | _, _ => False
  end.
Proof.
  intros HW HH IN SO. unfold calc_kam_f, calc_kam. replace ((H <? 2) || (W <? 2))%Z with false by (symmetry; apply orb_false_iff; split; apply Z.ltb_ge; lia).
  destruct p as (x, y). unfold inside in *. cbn [fst snd] in *.
  pose proof (fun j (J : (0 <= j < H)%Z) => SO (x, j) ltac:(cbn [fst snd]; lia)) as SR. pose proof (fun j (J : (0 <= j < W)%Z) => SO (j, y) ltac:(cbn [fst snd]; lia)) as SC.
  destruct (line_near 0 (x, y) H (fun j => ori (x, j)) y HH ltac:(lia) SR) as (R1 & R0). pose proof (line_pos 0 (x, y) H (fun j => ori (x, j)) y HH ltac:(lia) SR) as RP.
  destruct (line_near 1 (x, y) W (fun j => ori (j, y)) x HW ltac:(lia) SC) as (C1 & C0). pose proof (line_pos 1 (x, y) W (fun j => ori (j, y)) x HW ltac:(lia) SC) as CP.
  change (fun y0 : Z => value (ori (x, y0))) with (fun j : Z => value ((fun j => ori (x, j)) j)) in *.
  set (rf := kam_line_f dot_f 0 (x, y) H (fun j => ori (x, j)) y) in *. set (cf := kam_line_f dot_f 1 (x, y) W (fun j => ori (j, y)) x) in *.
  set (r := kam_line H (fun j => value (ori (x, j))) y) in *. set (c := kam_line W (fun j => value (ori (j, y))) x) in *.
  destruct R1 as (FR & ER & BR). destruct (clip_is rf FR) as (FC & VC).
  assert (AR : ap (clip_f rf) (clip1 r) u43 1).
  { split; [exact FC|]. rewrite VC. split; [now apply clip_near|]. rewrite Rabs_pos_eq; apply clip_range; exact RP. }
  pose proof (ap_add 2 _ _ _ _ _ _ _ _ ltac:(lia) AR C1 ltac:(change (bpow radix2 2) with 4; lra)) as A.
  pose proof (half_of 1 _ _ _ _ ltac:(lia) A ltac:(change (bpow radix2 2) with 4; change (bpow radix2 1) with 2; lra)) as K.
  destruct K as (FK & EK & _). destruct (clip_is _ FK) as (FL & VL).
  assert (KP : 0 <= B2R (fdiv (fadd (clip_f rf) cf) f2)).
  { destruct A as (FA & _ & BA). change (bpow radix2 2) with 4 in BA. apply Rabs_le_inv in BA. destruct C1 as (FCf & _ & BC). apply Rabs_le_inv in BC.
    pose proof (clip_range _ RP) as CR. rewrite <- VC in CR. apply half_pos; [exact FA|]. split; [apply add_pos; auto; lra|lra]. }
  assert (T : tight u42 (clip_f (fdiv (fadd (clip_f rf) cf) f2)) (clip1 ((clip1 r + c) / 2))).
  { split; [exact FL|]. rewrite VL. pose proof (clip_range r R0). split; [|split; apply clip_range; [exact KP|lra]].
    apply clip_near. apply Rle_trans with (1 := EK). change (2 - 54)%Z with (-52)%Z. change (1 - 54)%Z with (-53)%Z. unfold u43, u42. pows. lra. }
  apply (angle_near _ _ _ T (Rle_refl _)).
Qed.
End Kam.
