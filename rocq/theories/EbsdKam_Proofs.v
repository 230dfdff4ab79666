(** Proofs about KAM, the Nye tensor and Euler colours. *)
From Coq Require Import String Reals Lra.
From Coq Require Import List ZArith Bool Lia Psatz.
Import ListNotations.
From Verif Require Import Py Grid Quat_Model Quat_Spec Quat_Proofs QuatSym_Proofs QuatMany_Proofs
  Boundary_Model BoundaryOri_Proofs Ebsd_Model Ebsd_Spec.
Open Scope Z_scope.

Lemma kam_line_mean n (q : Z -> quat) i : 2 <= n -> 0 <= i < n ->
  kam_line n q i = mean (map (fun j => Rabs (inner (q i) (q j))) (beside n i)).
Proof.
  intros Hn Hi. unfold kam_line, beside, mean. cbn [filter].
  destruct (Z.eqb_spec i 0) as [->|N0].
  - replace ((0 <=? 0 - 1) && (0 - 1 <? n)) with false by (symmetry; apply andb_false_intro1; reflexivity).
    replace ((0 <=? 0 + 1) && (0 + 1 <? n)) with true by (symmetry; apply andb_true_intro; split; [reflexivity | apply Z.ltb_lt; lia]).
    cbn [map fold_right List.length INR Z.add]. rewrite dot_inner. field.
  - destruct (Z.eqb_spec i (n - 1)) as [->|N1].
    + replace ((0 <=? n - 1 - 1) && (n - 1 - 1 <? n)) with true
        by (symmetry; apply andb_true_intro; split; [apply Z.leb_le | apply Z.ltb_lt]; lia).
      replace ((0 <=? n - 1 + 1) && (n - 1 + 1 <? n)) with false
        by (symmetry; apply andb_false_intro2; apply Z.ltb_ge; lia).
      cbn [map fold_right List.length INR]. rewrite dot_inner. replace (n - 1 - 1) with (n - 2) by lia. field.
    + replace ((0 <=? i - 1) && (i - 1 <? n)) with true
        by (symmetry; apply andb_true_intro; split; [apply Z.leb_le | apply Z.ltb_lt]; lia).
      replace ((0 <=? i + 1) && (i + 1 <? n)) with true
        by (symmetry; apply andb_true_intro; split; [apply Z.leb_le | apply Z.ltb_lt]; lia).
      cbn [map fold_right List.length INR]. change dot with inner. field.
Qed.

Lemma beside_range n i j : In j (beside n i) -> 0 <= j < n.
Proof.
  unfold beside. rewrite filter_In. intros [_ E]. apply andb_true_iff in E.
  rewrite Z.leb_le, Z.ltb_lt in E. exact E.
Qed.
Lemma beside_In n i j : In j (beside n i) <-> (j = i - 1 \/ j = i + 1) /\ 0 <= j < n.
Proof.
  unfold beside. rewrite filter_In, andb_true_iff, Z.leb_le, Z.ltb_lt. cbn [In].
  split; intros [A B]; split; auto; destruct A as [A|A]; auto; try (destruct A as [A|A]); auto; try contradiction.
Qed.
Lemma beside_nonempty n i : 2 <= n -> 0 <= i < n -> beside n i <> [].
Proof.
  intros Hn Hi E. destruct (Z.eq_dec i 0) as [->|N].
  - assert (In 1 (beside n 0)) by (apply beside_In; lia). rewrite E in H. destruct H.
  - assert (In (i - 1) (beside n i)) by (apply beside_In; lia). rewrite E in H. destruct H.
Qed.

(** Means. *)
Lemma sum_bounds (l : list R) a b : (forall x, In x l -> (a <= x <= b)%R) ->
  (INR (List.length l) * a <= fold_right Rplus 0 l <= INR (List.length l) * b)%R.
Proof.
  induction l as [|x l IH]; intros A.
  - cbn [fold_right List.length INR]. split; rewrite Rmult_0_l; apply Rle_refl.
  - cbn [fold_right]. change (List.length (x :: l)) with (S (List.length l)). rewrite S_INR.
    specialize (IH (fun y Y => A y (or_intror Y))). specialize (A x (or_introl eq_refl)). lra.
Qed.
Lemma len_pos {A} (l : list A) : l <> [] -> (0 < INR (List.length l))%R.
Proof. destruct l; [congruence|]. intros _. apply lt_0_INR. cbn. lia. Qed.
Lemma mean_bounds l a b : l <> [] -> (forall x, In x l -> (a <= x <= b)%R) -> (a <= mean l <= b)%R.
Proof.
  intros N A. pose proof (sum_bounds l a b A) as S. pose proof (len_pos l N) as P. unfold mean.
  split; [apply Rmult_le_reg_r with (INR (List.length l))| apply Rmult_le_reg_r with (INR (List.length l))]; auto;
  unfold Rdiv; rewrite Rmult_assoc, Rinv_l by lra; lra.
Qed.
(** A mean of numbers at most one is one only if all are. *)
Lemma sum_ones (l : list R) : (forall x, In x l -> (x <= 1)%R) ->
  fold_right Rplus 0%R l = INR (List.length l) -> forall x, In x l -> x = 1%R.
Proof.
  induction l as [|y l IH]; intros A E x Hx; [destruct Hx|].
  cbn [fold_right] in E. change (List.length (y :: l)) with (S (List.length l)) in E. rewrite S_INR in E.
  assert (B : forall z, In z l -> (-(1) - Rabs y - fold_right Rplus 0 (map Rabs l) <= z <= 1)%R).
  { intros z Hz. split; [|apply A; now right].
    assert (S : (Rabs z <= fold_right Rplus 0 (map Rabs l))%R).
    { clear -Hz. induction l as [|w l IH]; [destruct Hz|]. cbn [map fold_right].
      assert (0 <= fold_right Rplus 0 (map Rabs l))%R.
      { clear. induction l; cbn [map fold_right]; [lra|]. pose proof (Rabs_pos a). lra. }
      destruct Hz as [->|Hz]; [lra|]. specialize (IH Hz). pose proof (Rabs_pos w). lra. }
    pose proof (Rle_abs (- z)). rewrite Rabs_Ropp in H. pose proof (Rabs_pos y). lra. }
  pose proof (sum_bounds l _ 1 B) as S. pose proof (A y (or_introl eq_refl)) as Y.
  assert (y = 1%R) by lra. destruct Hx as [<-|Hx]; auto. apply IH; auto; [intros; apply A; now right|lra].
Qed.
Lemma mean_one l : l <> [] -> (forall x, In x l -> (x <= 1)%R) -> (mean l = 1%R <-> forall x, In x l -> x = 1%R).
Proof.
  intros N A. pose proof (len_pos l N) as P. unfold mean. split.
  - intros E. apply sum_ones; auto. apply Rmult_eq_compat_r with (r := INR (List.length l)) in E.
    unfold Rdiv in E. rewrite Rmult_assoc, Rinv_l in E by lra. lra.
  - intros E. assert (S : forall x, In x l -> (1 <= x <= 1)%R) by (intros x Hx; rewrite (E x Hx); lra).
    pose proof (mean_bounds l 1 1 N S) as M. unfold mean in M. lra.
Qed.

Section Kam.
Variables (W H : Z) (ori : pix -> quat).
Hypothesis HW : 2 <= W.
Hypothesis HH : 2 <= H.
Hypothesis U : forall p, on_map W H p -> unitq (ori p).

Let f (p : pix) := fun q : pix => Rabs (inner (ori p) (ori q)).

Lemma vertical_on p q : on_map W H p -> In q (vertical H p) -> on_map W H q.
Proof.
  clear dependent ori.
  intros [A B] Hq. unfold vertical in Hq. apply in_map_iff in Hq as (y & <- & Hy).
  apply beside_range in Hy. split; cbn [fst snd]; lia.
Qed.
Lemma horizontal_on p q : on_map W H p -> In q (horizontal W p) -> on_map W H q.
Proof.
  clear dependent ori.
  intros [A B] Hq. unfold horizontal in Hq. apply in_map_iff in Hq as (y & <- & Hy).
  apply beside_range in Hy. split; cbn [fst snd]; lia.
Qed.
Lemma four_on p q : on_map W H p -> In q (four_neighbours W H p) -> on_map W H q.
Proof.
  clear dependent ori.
  intros Hp Hq. apply in_app_or in Hq as [Hq|Hq]; [eapply vertical_on | eapply horizontal_on]; eauto.
Qed.
Lemma vertical_ne p : on_map W H p -> vertical H p <> [].
Proof.
  clear dependent ori.
  intros [A B] E. apply map_eq_nil in E. revert E. apply beside_nonempty; lia.
Qed.
Lemma horizontal_ne p : on_map W H p -> horizontal W p <> [].
Proof.
  clear dependent ori.
  intros [A B] E. apply map_eq_nil in E. revert E. apply beside_nonempty; lia.
Qed.
Lemma map_ne {A B} (g : A -> B) l : l <> [] -> map g l <> [].
Proof. destruct l; cbn; congruence. Qed.

Lemma f_range p q : on_map W H p -> In q (four_neighbours W H p) -> (0 <= f p q <= 1)%R.
Proof.
  intros Hp Hq. unfold f. split; [apply Rabs_pos|]. apply inner_bound; apply U; auto.
  eapply four_on; eauto.
Qed.

Lemma kam_vertical p : on_map W H p ->
  kam_line H (fun y => ori (fst p, y)) (snd p) = mean (map (f p) (vertical H p)).
Proof.
  intros [A B]. rewrite kam_line_mean by lia. f_equal. unfold vertical. rewrite map_map.
  apply map_ext. intros y. unfold f. destruct p; reflexivity.
Qed.
Lemma kam_horizontal p : on_map W H p ->
  kam_line W (fun x => ori (x, snd p)) (fst p) = mean (map (f p) (horizontal W p)).
Proof.
  intros [A B]. rewrite kam_line_mean by lia. f_equal. unfold horizontal. rewrite map_map.
  apply map_ext. intros y. unfold f. destruct p; reflexivity.
Qed.

Lemma mean_v_range p : on_map W H p -> (0 <= mean (map (f p) (vertical H p)) <= 1)%R.
Proof.
  intros Hp. apply mean_bounds; [apply map_ne, vertical_ne; auto|].
  intros x Hx. apply in_map_iff in Hx as (q & <- & Hq). apply f_range; auto. apply in_or_app; auto.
Qed.
Lemma mean_h_range p : on_map W H p -> (0 <= mean (map (f p) (horizontal W p)) <= 1)%R.
Proof.
  intros Hp. apply mean_bounds; [apply map_ne, horizontal_ne; auto|].
  intros x Hx. apply in_map_iff in Hx as (q & <- & Hq). apply f_range; auto. apply in_or_app; auto.
Qed.

Lemma kam_ok : exists k, calc_kam W H ori = Ok k /\
  forall p, on_map W H p -> k p = (2 * acos (cross_mean W H p (f p)))%R.
Proof.
  unfold calc_kam. replace ((H <? 2) || (W <? 2)) with false
    by (symmetry; apply orb_false_intro; apply Z.ltb_ge; lia).
  eexists. split; [reflexivity|]. intros p Hp. cbv beta zeta.
  rewrite kam_vertical, kam_horizontal by auto.
  pose proof (mean_v_range p Hp) as V. pose proof (mean_h_range p Hp) as Ho.
  rewrite (clip1_id (mean (map (f p) (vertical H p)))) by lra. unfold cross_mean.
  rewrite clip1_id by lra. reflexivity.
Qed.

Lemma cross_range p : on_map W H p -> (0 <= cross_mean W H p (f p) <= 1)%R.
Proof.
  intros Hp. pose proof (mean_v_range p Hp). pose proof (mean_h_range p Hp). unfold cross_mean. lra.
Qed.

Lemma cross_one p : on_map W H p ->
  (cross_mean W H p (f p) = 1%R <-> forall q, In q (four_neighbours W H p) -> same_rot (ori p) (ori q)).
Proof.
  intros Hp. pose proof (mean_v_range p Hp) as V. pose proof (mean_h_range p Hp) as Ho.
  assert (L : forall q, In q (four_neighbours W H p) -> (f p q = 1%R <-> same_rot (ori p) (ori q))).
  { intros q Hq. unfold f. apply inner_one; apply U; auto. eapply four_on; eauto. }
  assert (MV : mean (map (f p) (vertical H p)) = 1%R <-> forall q, In q (vertical H p) -> f p q = 1%R).
  { rewrite mean_one.
    - split; intros A q Hq; [apply A; apply in_map_iff; eauto|].
      apply in_map_iff in Hq as (x & <- & Hx). auto.
    - apply map_ne, vertical_ne; auto.
    - intros x Hx. apply in_map_iff in Hx as (q & <- & Hq). apply f_range; auto. apply in_or_app; auto. }
  assert (MH : mean (map (f p) (horizontal W p)) = 1%R <-> forall q, In q (horizontal W p) -> f p q = 1%R).
  { rewrite mean_one.
    - split; intros A q Hq; [apply A; apply in_map_iff; eauto|].
      apply in_map_iff in Hq as (x & <- & Hx). auto.
    - apply map_ne, horizontal_ne; auto.
    - intros x Hx. apply in_map_iff in Hx as (q & <- & Hq). apply f_range; auto. apply in_or_app; auto. }
  split.
  - intros E. assert (EV : mean (map (f p) (vertical H p)) = 1%R) by (unfold cross_mean in E; lra).
    assert (EH : mean (map (f p) (horizontal W p)) = 1%R) by (unfold cross_mean in E; lra).
    intros q Hq. apply L; auto. apply in_app_or in Hq as [Hq|Hq]; [apply MV | apply MH]; auto.
  - intros A. unfold cross_mean.
    rewrite (proj2 MV), (proj2 MH); [lra| |]; intros q Hq; apply L; try apply A; apply in_or_app; auto.
Qed.
End Kam.

(** cos is concave between 0 and pi/2: means. *)
Lemma cos_mid a b : (0 <= a <= PI / 2)%R -> (0 <= b <= PI / 2)%R -> ((cos a + cos b) / 2 <= cos ((a + b) / 2))%R.
Proof.
  intros A B. rewrite form1.
  assert (P : (0 <= cos ((a + b) / 2))%R) by (apply cos_ge_0; lra).
  pose proof (COS_bound ((a - b) / 2)) as C. nra.
Qed.
Lemma beside_cases n i : 2 <= n -> 0 <= i < n -> (exists a, beside n i = [a]) \/ (exists a b, beside n i = [a; b]).
Proof.
  intros Hn Hi. unfold beside. cbn [filter].
  destruct ((0 <=? i - 1) && (i - 1 <? n)) eqn:E1, ((0 <=? i + 1) && (i + 1 <? n)) eqn:E2; eauto.
  exfalso. apply andb_false_iff in E1, E2. rewrite Z.leb_gt, Z.ltb_ge in E1, E2. lia.
Qed.
Lemma mean1 x : mean [x] = x.
Proof. unfold mean. cbn [fold_right List.length INR]. field. Qed.
Lemma mean2 x y : mean [x; y] = ((x + y) / 2)%R.
Proof. unfold mean. cbn [fold_right List.length INR]. field. Qed.
Lemma mean_cos {A} (l : list A) (t : A -> R) : (exists a, l = [a]) \/ (exists a b, l = [a; b]) ->
  (forall a, In a l -> (0 <= t a <= PI)%R) ->
  (0 <= mean (map t l) <= PI)%R /\ (mean (map (fun a => cos (t a / 2)) l) <= cos (mean (map t l) / 2))%R.
Proof.
  intros [(a & ->)|(a & b & ->)] T.
  - cbn [map]. rewrite !mean1. split; [apply T; now left | lra].
  - cbn [map]. rewrite !mean2. pose proof (T a (or_introl eq_refl)). pose proof (T b (or_intror (or_introl eq_refl))).
    split; [lra|]. pose proof (cos_mid (t a / 2) (t b / 2)) as C.
    replace ((t a + t b) / 2 / 2)%R with ((t a / 2 + t b / 2) / 2)%R by field. apply C; lra.
Qed.

Lemma rot_angle_range p q : unitq p -> unitq q -> (0 <= rot_angle p q <= PI)%R.
Proof.
  intros P Q. unfold rot_angle. pose proof (inner_bound p q P Q) as B. pose proof (Rabs_pos (inner p q)) as A.
  assert (acos (Rabs (inner p q)) <= PI / 2)%R.
  { rewrite <- acos_0. apply acos_decr; lra. }
  pose proof (acos_bound (Rabs (inner p q))). lra.
Qed.
Lemma cos_rot_angle p q : unitq p -> unitq q -> cos (rot_angle p q / 2) = Rabs (inner p q).
Proof.
  intros P Q. unfold rot_angle. replace (2 * acos (Rabs (inner p q)) / 2)%R with (acos (Rabs (inner p q))) by field.
  apply cos_acos. pose proof (inner_bound p q P Q) as B. pose proof (Rabs_pos (inner p q)) as A. lra.
Qed.
(** Comparing angles by their half cosines. *)
Lemma angle_le a b : (0 <= a <= 2 * PI)%R -> (0 <= b <= 2 * PI)%R -> (cos (a / 2) <= cos (b / 2))%R -> (b <= a)%R.
Proof.
  intros A B C. destruct (Rle_dec b a); auto. exfalso.
  assert (cos (b / 2) < cos (a / 2))%R by (apply cos_decreasing_1; lra). lra.
Qed.

(** ** Nye tensor *)
Lemma nearest_comp_spec g q p : unitq q -> unitq p ->
  equivalent (sym_eqv g) p (nearest_comp g q p) /\
  forall c, equivalent (sym_eqv g) p c -> (Rabs (inner q c) <= Rabs (inner q (nearest_comp g q p)))%R.
Proof.
  intros Hq Hp. unfold nearest_comp. set (col := sym_column g p).
  assert (C : col = column (calc_sym_eqvs [p] g) 0).
  { rewrite (column_eq [p] g 0 p) by reflexivity. unfold col, sym_column. f_equal.
    apply map_ext. intros s. apply sym_comps_mul. }
  assert (UN : forall c, In c col -> unitq c).
  { intros c Hc. rewrite C in Hc. apply (column_equiv [p] g 0 p) in Hc; [|reflexivity].
    destruct Hc as (s & Hs & R). apply (same_rot_unit _ _ R). apply unitq_hprod; auto.
    destruct (sym_group g) as (_ & V & _). auto. }
  assert (E : map (fun c => clip1 (Rabs (dot q c))) col = map (fun c => Rabs (dot c q)) col).
  { apply map_ext_in. intros c Hc. change dot with inner. rewrite clip1_id.
    - f_equal. unfold inner. ring.
    - apply inner_bound; auto. }
  rewrite E. pose proof (pick_spec [p] g 0 p q (Q4 0 0 0 0) eq_refl) as K. cbv zeta in K.
  rewrite <- C in K. destruct K as (_ & A & _ & B). split; auto.
  intros c Hc. replace (inner q c) with (inner c q) by (unfold inner; ring).
  set (d := nth _ col _) in *. replace (inner q d) with (inner d q) by (unfold inner; ring). auto.
Qed.

Lemma minus_one m : madd m (M3 (V3 (-1) 0 0) (V3 0 (-1) 0) (V3 0 0 (-1))) =
  M3 (V3 (vx (r0 m) - 1) (vy (r0 m)) (vz (r0 m)))
     (V3 (vx (r1 m)) (vy (r1 m) - 1) (vz (r1 m)))
     (V3 (vx (r2 m)) (vy (r2 m)) (vz (r2 m) - 1)).
Proof.
  destruct m as [[a b c] [d e f] [h i j]]. unfold madd, vadd. cbn [r0 r1 r2 vx vy vz].
  f_equal; f_equal; ring.
Qed.

Lemma miso_rot q c : rot_matrix (quat_mul false (conjugate (Quat false c)) (Quat false q)) =
  mprod (transpose (rot_matrix c)) (rot_matrix q).
Proof.
  rewrite (rot_same _ _ (quat_mul_same false _ _)), rot_hprod.
  rewrite (rot_same _ _ (conjugate_same _)), rot_hconj.
  rewrite !(rot_same _ _ (Quat_same false _)). reflexivity.
Qed.

Lemma distortion_zero g step q p : unitq q -> unitq p -> equivalent (sym_eqv g) p q ->
  distortion g step q p = mzero.
Proof.
  intros Hq Hp E. destruct (nearest_comp_spec g q p Hq Hp) as [A B].
  assert (S : same_rot q (nearest_comp g q p)).
  { assert (UN : unitq (nearest_comp g q p)).
    { destruct A as (s & Hs & R). apply (same_rot_unit _ _ R). apply unitq_hprod; auto.
      destruct (sym_group g) as (_ & V & _). auto. }
    apply inner_one; auto. apply Rle_antisym; [apply inner_bound; auto|].
    rewrite <- (proj2 (inner_one q q Hq Hq)) by (left; reflexivity). apply B. exact E. }
  unfold distortion. cbv zeta. rewrite miso_rot. rewrite <- (rot_same _ _ S), rot_orth' by auto.
  rewrite minus_one. unfold mone. cbn [r0 r1 r2 vx vy vz].
  unfold mscale, vscale, mzero. cbn [r0 r1 r2 vx vy vz]. f_equal; f_equal; ring.
Qed.

Lemma bavg_pos : (0 < bavg)%R.
Proof. unfold bavg. assert (0 < 10 ^ 11)%R by (apply pow_lt; lra). apply Rdiv_lt_0_compat; lra. Qed.

Lemma gnd_total9 a : gnd_of a = total9 a.
Proof.
  unfold gnd_of. set (t := total3 a). clearbody t.
  assert (P : (1 < 10 ^ 12)%R) by (apply Rlt_pow_R1; [lra | lia]).
  destruct (Rlt_dec (Rabs t) 1) as [L|L].
  - destruct (Rlt_dec (Rabs (10 ^ 12)) 1) as [L'|L']; auto. exfalso.
    rewrite Rabs_right in L' by lra. lra.
  - destruct (Rlt_dec (Rabs t) 1) as [L'|L']; [contradiction|reflexivity].
Qed.

Lemma total9_entries a : total9 a = (3 / 2 * fold_right Rplus 0 (map Rabs (mentry a)))%R.
Proof.
  unfold total9, abs3, mentry. cbn [map fold_right]. field.
Qed.

Lemma nye_zero : nye_of (mzero, mzero) = mzero.
Proof.
  pose proof bavg_pos. unfold nye_of, mzero. cbn [r0 r1 r2 vx vy vz]. f_equal; f_equal; field; lra.
Qed.
Lemma total9_zero : total9 mzero = 0%R.
Proof. rewrite total9_entries. unfold mzero, mentry. cbn [r0 r1 r2 vx vy vz map fold_right]. rewrite Rabs_R0. ring. Qed.

Lemma total9_nonneg a : (0 <= total9 a)%R.
Proof.
  unfold total9, abs3.
  repeat match goal with |- context [Rabs ?x] => let h := fresh in pose proof (Rabs_pos x) as h; revert h; generalize (Rabs x); intros end. lra.
Qed.

(** ** Euler colours *)
Lemma for_each_app {A S} (body : S -> A -> res S) l1 l2 s :
  for_each body (l1 ++ l2) s = match for_each body l1 s with Ok s' => for_each body l2 s' | Err e => Err e end.
Proof.
  revert s. induction l1 as [|a l IH]; intros s; cbn [for_each app]; auto.
  destruct (body s a) as [s'|e]; cbn; auto.
Qed.
