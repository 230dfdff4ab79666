(** Theorems about line profiles. *)
From Coq Require Import Reals ZArith Bool Lra Lia.
From Coq Require Import List.
From Verif Require Import Py Grid Base_Model Base_Proofs Pole_Model Profile_Model Profile_Spec.
Import ListNotations.
Open Scope Z_scope.

(** * Lemmas *)
Lemma ceil_bound : forall x, (x <= IZR (ceil x) < x + 1)%R.
Proof. intros x. unfold ceil. destruct (base_Int_part (- x)) as [A B]. rewrite opp_IZR. lra. Qed.
Lemma clamp_onto : forall n c, 1 <= n -> onto n c (Rmax 0 (Rmin c (IZR (n - 1)))).
Proof.
  intros n c N. assert (P : (0 <= IZR (n - 1))%R) by (apply IZR_le; lia). unfold onto, Rmax, Rmin. repeat split; intros;
  destruct (Rle_dec c (IZR (n - 1))), (Rle_dec 0 _); lra.
Qed.
Lemma clamp_range : forall n c, 1 <= n -> (0 <= Rmax 0 (Rmin c (IZR (n - 1))) <= IZR (n - 1))%R.
Proof.
  intros n c N. assert (P : (0 <= IZR (n - 1))%R) by (apply IZR_le; lia). unfold Rmax, Rmin.
  destruct (Rle_dec c (IZR (n - 1))), (Rle_dec 0 _); lra.
Qed.
Lemma lerp_ok : forall n c, 1 <= n -> exists i t, onto n c (IZR i + t)%R /\ (0 <= t < 1)%R /\ 0 <= i < n /\ (i = n - 1 -> t = 0%R) /\
  forall f, lerp n f c = ((1 - t) * f i + t * f (i + 1)%Z)%R.
Proof.
  intros n c N. pose proof (clamp_onto n c N) as O. pose proof (clamp_range n c N) as B.
  remember (Rmax 0 (Rmin c (IZR (n - 1)))) as d eqn:Ed. exists (Int_part d), (d - IZR (Int_part d))%R.
  destruct (base_Int_part d) as [I1 I2]. replace (IZR (Int_part d) + (d - IZR (Int_part d)))%R with d by ring.
  assert (L0 : -1 < Int_part d) by (apply lt_IZR; lra).
  assert (L1 : Int_part d <= n - 1) by (apply le_IZR; lra).
  split; [exact O|]. split; [lra|]. split; [lia|].
  assert (Z0 : Int_part d = n - 1 -> (d - IZR (Int_part d))%R = 0%R) by (intros E; rewrite E in *; lra).
  split; [exact Z0|]. intros f. unfold lerp. rewrite <- Ed.
  destruct (Z.eq_dec (Int_part d) (n - 1)) as [E|E].
  - rewrite (Z0 E). ring.
  - now rewrite Z.min_l by lia.
Qed.
Lemma interpolate_ok : forall im x y, 1 <= im_w im -> 1 <= im_h im -> value_at im x y (interpolate im x y).
Proof.
  intros im x y HW HH. destruct (lerp_ok (im_w im) x HW) as (c & s & O1 & S1 & C1 & Z1 & L1).
  destruct (lerp_ok (im_h im) y HH) as (r & t & O2 & S2 & C2 & Z2 & L2).
  exists (IZR c + s)%R, (IZR r + t)%R, c, r, s, t. do 2 (split; [assumption|]). split; [reflexivity|]. split; [exact S1|]. split; [reflexivity|].
  split; [exact S2|]. split; [split; assumption|]. split; [exact Z1|]. split; [exact Z2|].
  unfold interpolate. rewrite L2, !L1. reflexivity.
Qed.
Lemma value_unique_pixel : forall im c r v, inside (im_w im) (im_h im) (c, r) -> value_at im (IZR c) (IZR r) v -> v = im_at im (c, r).
Proof.
  intros im c r v [I1 I2] (x' & y' & c' & r' & s & t & (_ & _ & O1) & (_ & _ & O2) & X & S1 & Y & S2 & _ & _ & _ & ->).
  cbn [fst snd] in I1, I2. specialize (O1 ltac:(split; apply IZR_le; lia)). specialize (O2 ltac:(split; apply IZR_le; lia)).
  assert (C : c = c') by (apply Z.le_antisymm; apply Z.lt_succ_r; apply lt_IZR; unfold Z.succ; rewrite plus_IZR; lra).
  assert (K : r = r') by (apply Z.le_antisymm; apply Z.lt_succ_r; apply lt_IZR; unfold Z.succ; rewrite plus_IZR; lra).
  subst c' r'. replace s with 0%R by lra. replace t with 0%R by lra. ring.
Qed.
Lemma linspace_length : forall a b n, List.length (linspace a b n) = n.
Proof. intros. unfold linspace. now rewrite map_length, seq_length. Qed.
Lemma linspace_at : forall a b n i, (i < n)%nat -> nth_error (linspace a b n) i = Some (a + (b - a) * (if (n =? 1)%nat then 0 else INR i / INR (n - 1)))%R.
Proof.
  intros a b n i I. unfold linspace. rewrite nth_error_map, (nth_error_nth' _ 0%nat) by (rewrite seq_length; exact I).
  rewrite seq_nth by exact I. reflexivity.
Qed.
Lemma combine_nth_error : forall A B (l : list A) (m : list B) i a b, nth_error l i = Some a -> nth_error m i = Some b ->
  nth_error (combine l m) i = Some (a, b).
Proof.
  intros A B l. induction l as [|x l IH]; intros [|y m] [|i] a b E1 E2; cbn in *; try discriminate.
  - congruence.
  - auto.
Qed.
Lemma same_list : forall A (l m : list A), List.length l = List.length m -> (forall i, (i < List.length l)%nat -> nth_error l i = nth_error m i) -> l = m.
Proof.
  intros A l. induction l as [|a l IH]; intros [|b m] L E; cbn [List.length] in *; try discriminate; [reflexivity|].
  pose proof (E 0%nat ltac:(lia)) as E0. cbn in E0. f_equal; [congruence|]. apply IH; [lia|]. intros i I. exact (E (S i) ltac:(lia)).
Qed.
Definition count (x0 y0 x1 y1 : R) : nat := Z.to_nat (ceil (dist x0 y0 x1 y1 + 1)).
Lemma dist_pos : forall x0 y0 x1 y1, (0 <= dist x0 y0 x1 y1)%R. Proof. intros. apply sqrt_pos. Qed.
Lemma dist_zero : forall x0 y0 x1 y1, (x0, y0) <> (x1, y1) -> (0 < dist x0 y0 x1 y1)%R.
Proof.
  intros x0 y0 x1 y1 N. apply sqrt_lt_R0. assert (A : (0 <= (x1 - x0) ^ 2)%R) by apply pow2_ge_0. assert (B : (0 <= (y1 - y0) ^ 2)%R) by apply pow2_ge_0.
  destruct (Req_dec x0 x1) as [->|D]; [destruct (Req_dec y0 y1) as [->|D]; [congruence|]|].
  - pose proof (Rsqr_pos_lt (y1 - y0) (Rminus_eq_contra _ _ (not_eq_sym D))) as Q; unfold Rsqr in Q. lra.
  - pose proof (Rsqr_pos_lt (x1 - x0) (Rminus_eq_contra _ _ (not_eq_sym D))) as Q; unfold Rsqr in Q. lra.
Qed.
Lemma count_bound : forall x0 y0 x1 y1, (dist x0 y0 x1 y1 + 1 <= INR (count x0 y0 x1 y1) < dist x0 y0 x1 y1 + 2)%R.
Proof.
  intros. unfold count. pose proof (dist_pos x0 y0 x1 y1) as P. pose proof (ceil_bound (dist x0 y0 x1 y1 + 1)) as B.
  assert (0 < ceil (dist x0 y0 x1 y1 + 1)) by (apply lt_IZR; lra). rewrite INR_IZR_INZ, Z2Nat.id by lia. lra.
Qed.
Lemma swap_dist : forall x0 y0 x1 y1, sqrt ((y1 - y0) ^ 2 + (x1 - x0) ^ 2) = dist x0 y0 x1 y1.
Proof. intros. unfold dist. f_equal. ring. Qed.
Lemma profile_nth : forall im x0 y0 x1 y1 i, (i < count x0 y0 x1 y1)%nat ->
  let w := if (count x0 y0 x1 y1 =? 1)%nat then 0%R else (INR i / INR (count x0 y0 x1 y1 - 1))%R in
  nth_error (profile_line im x0 y0 x1 y1) i = Some (interpolate im (x0 + (x1 - x0) * w) (y0 + (y1 - y0) * w)).
Proof.
  intros im x0 y0 x1 y1 i I w. unfold profile_line. rewrite swap_dist. fold (count x0 y0 x1 y1). rewrite nth_error_map.
  rewrite (combine_nth_error _ _ _ _ _ _ _ (linspace_at x0 x1 _ i I) (linspace_at y0 y1 _ i I)). reflexivity.
Qed.
Lemma profile_length : forall im x0 y0 x1 y1, List.length (profile_line im x0 y0 x1 y1) = count x0 y0 x1 y1.
Proof. intros. unfold profile_line. rewrite swap_dist. fold (count x0 y0 x1 y1). rewrite map_length, combine_length, !linspace_length. apply Nat.min_id. Qed.

(** * C106 *)
(** The curve of a line between two different points: the samples are equally spaced from one
    end to the other, no further than a pixel apart and no more than needed for that; each is
    drawn at its distance from the start with the value of the image there. *)
Theorem C106_samples : forall im hidden x0 y0 x1 y1, 1 <= im_w im -> 1 <= im_h im -> (x0, y0) <> (x1, y1) ->
  let '(xi, zi) := line_profile im hidden x0 y0 x1 y1 in
  let n := List.length zi in
  List.length xi = n /\ (2 <= n)%nat /\ (dist x0 y0 x1 y1 <= INR (n - 1) < dist x0 y0 x1 y1 + 1)%R /\
  forall i, (i < n)%nat -> exists d v, nth_error xi i = Some d /\ nth_error zi i = Some v /\
    d = dist x0 y0 (along x0 x1 n i) (along y0 y1 n i) /\ value_at im (along x0 x1 n i) (along y0 y1 n i) v.
Proof.
  intros im hidden x0 y0 x1 y1 HW HH N. unfold line_profile. rewrite swap_dist, profile_length. rewrite linspace_length.
  pose proof (count_bound x0 y0 x1 y1) as B. pose proof (dist_zero x0 y0 x1 y1 N) as D. set (n := count x0 y0 x1 y1) in *.
  assert (N2 : (2 <= n)%nat) by (apply INR_le; assert (1 < n)%nat by (apply INR_lt; cbn [INR]; lra); apply le_INR; lia).
  split; [reflexivity|]. split; [exact N2|]. split; [rewrite minus_INR by lia; cbn [INR]; lra|].
  intros i I. do 2 eexists. split; [apply linspace_at; exact I|]. split; [apply (profile_nth im x0 y0 x1 y1 i I)|].
  fold n. replace (n =? 1)%nat with false by (symmetry; apply Nat.eqb_neq; lia). split; [|now apply interpolate_ok].
  set (w := (INR i / INR (n - 1))%R). assert (W : (0 <= w)%R).
  { apply Rmult_le_pos; [apply pos_INR|]. apply Rlt_le, Rinv_0_lt_compat. apply lt_0_INR. lia. }
  unfold along. fold w. unfold dist.
  replace ((x0 + (x1 - x0) * w - x0) ^ 2 + (y0 + (y1 - y0) * w - y0) ^ 2)%R with (w ^ 2 * ((x1 - x0) ^ 2 + (y1 - y0) ^ 2))%R by ring.
  rewrite sqrt_mult_alt by apply pow2_ge_0. rewrite sqrt_pow2 by exact W. ring.
Qed.
Print Assumptions C106_samples.
Example C106_samples_met : (0, 0)%R <> (3, 4)%R /\ dist 0 0 3 4 = 5%R.
Proof. split; [intros E; injection E; lra|]. unfold dist. replace ((3 - 0) ^ 2 + (4 - 0) ^ 2)%R with (5 ^ 2)%R by ring. apply sqrt_pow2. lra. Qed.

(** A line of no length is one sample. *)
Theorem C106_point : forall im hidden x y, 1 <= im_w im -> 1 <= im_h im ->
  exists v, line_profile im hidden x y x y = ([0%R], [v]) /\ value_at im x y v.
Proof.
  intros im hidden x y HW HH. exists (interpolate im x y). split; [|now apply interpolate_ok].
  assert (D : dist x y x y = 0%R) by (unfold dist; replace ((x - x) ^ 2 + (y - y) ^ 2)%R with 0%R by ring; apply sqrt_0).
  assert (K : count x y x y = 1%nat).
  { pose proof (count_bound x y x y) as B. rewrite D in B. assert (0 < count x y x y)%nat by (apply INR_lt; cbn [INR]; lra).
    assert (count x y x y < 2)%nat by (apply INR_lt; cbn [INR]; lra). lia. }
  unfold line_profile, profile_line. rewrite !swap_dist, D. fold (count x y x y). change (Z.to_nat (ceil (dist x y x y + 1))) with (count x y x y) in *.
  replace (Z.to_nat (ceil (0 + 1))) with 1%nat by (rewrite <- D; symmetry; exact K).
  unfold linspace. cbn [seq map combine fst snd List.length Nat.eqb]. f_equal; f_equal; [ring|]. f_equal; ring.
Qed.
Print Assumptions C106_point.

(** At a pixel the value is the pixel's; it is never beyond the values of the pixels less than
    one pixel away; beyond the map it is the value at its edge. *)
Theorem C106_value : forall im x y v, value_at im x y v ->
  (forall c r, x = IZR c -> y = IZR r -> inside (im_w im) (im_h im) (c, r) -> v = im_at im (c, r)) /\
  (forall lo hi, (forall c r x' y', inside (im_w im) (im_h im) (c, r) -> onto (im_w im) x x' -> onto (im_h im) y y' ->
      (Rabs (IZR c - x') < 1)%R -> (Rabs (IZR r - y') < 1)%R -> (lo <= im_at im (c, r) <= hi)%R) -> (lo <= v <= hi)%R) /\
  (forall x' y', onto (im_w im) x x' -> onto (im_h im) y y' -> value_at im x' y' v).
Proof.
  intros im x y v V. split; [intros c r -> -> I; now apply value_unique_pixel|].
  destruct V as (x' & y' & c & r & s & t & O1 & O2 & X & S1 & Y & S2 & [I1 I2] & Z1 & Z2 & E). cbn [fst snd] in I1, I2. split.
  - intros lo hi B.
    assert (P : forall c' r' a b, (0 <= a)%R -> (0 <= b)%R -> (a = 0%R \/ (c' < im_w im /\ (Rabs (IZR c' - x') < 1)%R)) -> (b = 0%R \/ (r' < im_h im /\ (Rabs (IZR r' - y') < 1)%R)) ->
      0 <= c' -> 0 <= r' -> (a * b * lo <= a * b * im_at im (c', r') <= a * b * hi)%R).
    { intros c' r' a b A1 A2 [->|[C1 C2]] Q Hc Hr; [lra|]. destruct Q as [->|[Q1 Q2]]; [lra|].
      assert (IN : inside (im_w im) (im_h im) (c', r')) by (split; cbn [fst snd]; lia).
      specialize (B c' r' x' y' IN O1 O2 C2 Q2).
      assert (0 <= a * b)%R by (now apply Rmult_le_pos). split; apply Rmult_le_compat_l; lra. }
    assert (AC : (Rabs (IZR c - x') < 1)%R) by (apply Rabs_def1; lra).
    assert (AR : (Rabs (IZR r - y') < 1)%R) by (apply Rabs_def1; lra).
    assert (AC1 : s = 0%R \/ (c + 1 < im_w im /\ (Rabs (IZR (c + 1) - x') < 1)%R)).
    { destruct (Z.eq_dec c (im_w im - 1)) as [Ec|Ec]; [left; auto|]. destruct (Req_dec s 0) as [->|Ns]; [now left|]. right. split; [lia|].
      rewrite plus_IZR. apply Rabs_def1; lra. }
    assert (AR1 : t = 0%R \/ (r + 1 < im_h im /\ (Rabs (IZR (r + 1) - y') < 1)%R)).
    { destruct (Z.eq_dec r (im_h im - 1)) as [Ec|Ec]; [left; auto|]. destruct (Req_dec t 0) as [->|Ns]; [now left|]. right. split; [lia|].
      rewrite plus_IZR. apply Rabs_def1; lra. }
    pose proof (P c r (1 - s)%R (1 - t)%R ltac:(lra) ltac:(lra) ltac:(right; split; [lia|exact AC]) ltac:(right; split; [lia|exact AR]) ltac:(lia) ltac:(lia)) as P1.
    pose proof (P (c + 1) r s (1 - t)%R ltac:(lra) ltac:(lra) AC1 ltac:(right; split; [lia|exact AR]) ltac:(lia) ltac:(lia)) as P2.
    pose proof (P c (r + 1) (1 - s)%R t ltac:(lra) ltac:(lra) ltac:(right; split; [lia|exact AC]) AR1 ltac:(lia) ltac:(lia)) as P3.
    pose proof (P (c + 1) (r + 1) s t ltac:(lra) ltac:(lra) AC1 AR1 ltac:(lia) ltac:(lia)) as P4.
    rewrite E. lra.
  - intros x1 y1 Q1 Q2. exists x', y', c, r, s, t.
    assert (ID : forall n a a' b, 1 <= n -> onto n a a' -> onto n a b -> onto n a' b).
    { intros n a a' b Hn (U1 & U2 & U3) (T1 & T2 & T3). assert (Pn : (0 <= IZR (n - 1))%R) by (apply IZR_le; lia).
      destruct (Rle_dec a 0) as [L|L]; [|destruct (Rle_dec (IZR (n - 1)) a) as [G|G]].
      - rewrite (U1 L), (T1 L). unfold onto. repeat split; intros; lra.
      - rewrite (U2 G), (T2 G). unfold onto. repeat split; intros; lra.
      - rewrite (U3 ltac:(lra)), (T3 ltac:(lra)). unfold onto. repeat split; intros; lra. }
    split; [apply (ID _ x); [lia|assumption|assumption]|]. split; [apply (ID _ y); [lia|assumption|assumption]|].
    do 4 (split; [assumption|]). split; [split; cbn [fst snd]; lia|]. split; [exact Z1|]. split; [exact Z2|]. exact E.
Qed.
Print Assumptions C106_value.
Example C106_value_met : value_at (Image 3 2 (fun p => IZR (fst p * 10 + snd p))) (3 / 2) 5 16.
Proof.
  exists (3 / 2)%R, 1%R, 1, 1, (1 / 2)%R, 0%R. cbn [im_w im_h im_at fst snd].
  assert (A : IZR (3 - 1) = 2%R) by reflexivity. assert (B : IZR (2 - 1) = 1%R) by reflexivity.
  split; [unfold onto; rewrite A; repeat split; intros; lra|]. split; [unfold onto; rewrite B; repeat split; intros; lra|].
  do 4 (split; [lra|]). split; [unfold inside; cbn [fst snd]; lia|]. split; [lia|]. split; [reflexivity|].
  change (1 * 10 + 1)%Z with 11%Z. change ((1 + 1) * 10 + 1)%Z with 21%Z. lra.
Qed.

(** Along a row, from pixel to pixel, the curve is the pixels themselves at whole distances. *)
Theorem C106_row : forall im hidden c r k, inside (im_w im) (im_h im) (c, r) -> inside (im_w im) (im_h im) (c + Z.of_nat k, r) -> (0 < k)%nat ->
  line_profile im hidden (IZR c) (IZR r) (IZR (c + Z.of_nat k)) (IZR r)
  = (map INR (seq 0 (S k)), map (fun i => im_at im (c + Z.of_nat i, r)) (seq 0 (S k))).
Proof.
  intros im hidden c r k [I1 I2] [J1 J2] K. cbn [fst snd] in I1, I2, J1, J2. rewrite plus_IZR, <- INR_IZR_INZ.
  assert (PK : (0 < INR k)%R) by (apply lt_0_INR; exact K).
  assert (D : dist (IZR c) (IZR r) (IZR c + INR k) (IZR r) = INR k).
  { unfold dist. replace ((IZR c + INR k - IZR c) ^ 2 + (IZR r - IZR r) ^ 2)%R with (INR k ^ 2)%R by ring. apply sqrt_pow2. lra. }
  assert (N : count (IZR c) (IZR r) (IZR c + INR k) (IZR r) = S k).
  { pose proof (count_bound (IZR c) (IZR r) (IZR c + INR k) (IZR r)) as B. rewrite D in B. set (n := count _ _ _ _) in *.
    assert (k < n)%nat by (apply INR_lt; lra). assert (n < k + 2)%nat by (apply INR_lt; rewrite plus_INR; cbn [INR]; lra). lia. }
  unfold line_profile. rewrite profile_length, N, swap_dist, D. f_equal.
  - unfold linspace. apply map_ext_in. intros i _. replace (S k =? 1)%nat with false by (symmetry; apply Nat.eqb_neq; lia).
    replace (S k - 1)%nat with k by lia. field. lra.
  - apply same_list; [now rewrite profile_length, N, map_length, seq_length|]. rewrite profile_length, N. intros i I.
    rewrite profile_nth by (rewrite N; exact I). rewrite N. replace (S k =? 1)%nat with false by (symmetry; apply Nat.eqb_neq; lia).
    rewrite nth_error_map, (nth_error_nth' _ 0%nat) by (rewrite seq_length; exact I). rewrite seq_nth by exact I. cbn [option_map Nat.add]. f_equal.
    replace (S k - 1)%nat with k by lia. replace (IZR c + (IZR c + INR k - IZR c) * (INR i / INR k))%R with (IZR (c + Z.of_nat i))
      by (rewrite plus_IZR, <- INR_IZR_INZ; field; lra).
    replace (IZR r + (IZR r - IZR r) * (INR i / INR k))%R with (IZR r) by (unfold Rdiv; ring).
    apply value_unique_pixel; [split; cbn [fst snd]; lia|]. apply interpolate_ok; lia.
Qed.
Print Assumptions C106_row.
Example C106_row_met : inside 5 4 (1, 2) /\ inside 5 4 (1 + Z.of_nat 3, 2) /\ (0 < 3)%nat.
Proof. unfold inside. cbn. lia. Qed.

(** The line drawn the other way has the same values in reverse, at the same distances. *)
Theorem C106_reverse : forall im hidden x0 y0 x1 y1, (x0, y0) <> (x1, y1) ->
  let '(xi, zi) := line_profile im hidden x0 y0 x1 y1 in
  line_profile im hidden x1 y1 x0 y0 = (xi, rev zi).
Proof.
  intros im hidden x0 y0 x1 y1 N. unfold line_profile. rewrite !swap_dist, !profile_length.
  assert (D : dist x1 y1 x0 y0 = dist x0 y0 x1 y1) by (unfold dist; f_equal; ring). rewrite D.
  assert (C : count x1 y1 x0 y0 = count x0 y0 x1 y1) by (unfold count; now rewrite D). rewrite C. f_equal.
  pose proof (count_bound x0 y0 x1 y1) as B. pose proof (dist_zero x0 y0 x1 y1 N) as P.
  assert (N2 : (1 < count x0 y0 x1 y1)%nat) by (apply INR_lt; cbn [INR]; lra).
  apply same_list; [now rewrite rev_length, !profile_length|]. rewrite profile_length, C. intros i I.
  rewrite profile_nth by (rewrite C; exact I). rewrite C. remember (count x0 y0 x1 y1) as n eqn:En.
  assert (R : nth_error (rev (profile_line im x0 y0 x1 y1)) i = nth_error (profile_line im x0 y0 x1 y1) (n - 1 - i)).
  { assert (L : List.length (profile_line im x0 y0 x1 y1) = n) by (rewrite profile_length; congruence).
    rewrite (nth_error_nth' _ 0%R) by (rewrite rev_length, L; exact I). rewrite rev_nth by (rewrite L; exact I).
    rewrite (nth_error_nth' _ 0%R) by (rewrite L; lia). rewrite L. do 2 f_equal. lia. }
  rewrite R, profile_nth by lia. rewrite <- En. replace (n =? 1)%nat with false by (symmetry; apply Nat.eqb_neq; lia).
  assert (PN : (0 < INR (n - 1))%R) by (apply lt_0_INR; lia).
  assert (S1 : INR (n - 1 - i) = (INR (n - 1) - INR i)%R) by (apply minus_INR; lia). rewrite S1. do 2 f_equal; field; lra.
Qed.
Print Assumptions C106_reverse.

(** The profile ignores what is hidden: the value of a hidden pixel is drawn. *)
Theorem C106_hidden_refuted : forall im c r, inside (im_w im) (im_h im) (c, r) -> inside (im_w im) (im_h im) (c + 1, r) ->
  exists hidden xi v, hidden (c, r) = true /\ line_profile im hidden (IZR c) (IZR r) (IZR (c + 1)) (IZR r) = (0%R :: xi, im_at im (c, r) :: v).
Proof.
  intros im c r I J. exists (fun _ => true). do 2 eexists. split; [reflexivity|]. rewrite (C106_row im _ c r 1 I J) by lia.
  cbn [seq map INR Z.of_nat]. now rewrite Z.add_0_r.
Qed.
Print Assumptions C106_hidden_refuted.

(** Drawing: a release on the plot gives the line from the last press on the plot to it, and
    no other event gives one. *)
Theorem C106_drag_partial : forall es i e, nth_error es i = Some e ->
  nth_error (drag None es) i = Some (match e with
    | Release true x y => match last_press (firstn i es) with Some p => Ok (Some (p, (x, y))) | None => Err IndexError end
    | _ => Ok None
    end).
Proof.
  assert (G : forall es p i e, nth_error es i = Some e ->
    nth_error (drag p es) i = Some (match e with
      | Release true x y => match (match last_press (firstn i es) with Some q => Some q | None => p end) with Some q => Ok (Some (q, (x, y))) | None => Err IndexError end
      | _ => Ok None
      end)).
  { induction es as [|e0 es IH]; intros p [|i] e E; cbn [nth_error] in E; try discriminate E.
    - injection E as ->. cbn [drag firstn last_press]. destruct e as [[|] x y|[|] x y]; reflexivity.
    - cbn [drag firstn last_press]. destruct (line_slice p e0) as [p' r0] eqn:L. cbn [nth_error]. rewrite (IH p' i e E).
      destruct e as [b x y|[|] x y]; try reflexivity. destruct (last_press (firstn i es)) as [q|]; [reflexivity|].
      destruct e0 as [[|] a b|[|] a b]; cbn [line_slice] in L; injection L as <- _; reflexivity. }
  intros es i e E. rewrite (G es None i e E). destruct e as [b x y|[|] x y]; try reflexivity. now destruct (last_press (firstn i es)).
Qed.
Print Assumptions C106_drag_partial.
Example C106_drag_met : last_press [Press true 1 2; Release true 3 4; Press false 5 6] = Some (1, 2)%R.
Proof. reflexivity. Qed.
(** So a drag that begins outside the plot and ends on it gives a line from where an earlier
    one began, or fails. *)
Theorem C106_outside_refuted : forall a b c d e f g h,
  drag None [Press true a b; Release true c d; Press false e f; Release true g h]
    = [Ok None; Ok (Some ((a, b), (c, d))); Ok None; Ok (Some ((a, b), (g, h)))] /\
  drag None [Press false e f; Release true g h] = [Ok None; Err IndexError].
Proof. intros. split; reflexivity. Qed.
Print Assumptions C106_outside_refuted.
