(** The relative displacement ratio. *)
From Coq Require Import String Ascii Reals.
From Coq Require Import List ZArith Bool Lia Lra Sorted Psatz.
Import ListNotations.
From Verif Require Import Py Grid Grid_Lemmas Boundary_Model Base_Model Base_Proofs Quat_Model Crystal_Model
  Text_Model Ebsd_Model Quat_Spec Quat_Proofs Insp_Model Insp_Spec Insp_Proofs InspHist_Proofs InspDraw_Proofs.
Open Scope Z_scope.

(** ** Sums *)
Lemma rsum_app : forall a b, rsum (a ++ b) = (rsum a + rsum b)%R.
Proof. induction a as [|x a IH]; intros b; cbn [rsum app fold_right]; [fold (rsum b); lra|]. unfold rsum in *. rewrite IH. lra. Qed.
Lemma rsum_cons : forall x a, rsum (x :: a) = (x + rsum a)%R.
Proof. reflexivity. Qed.
Lemma mean_rsum : forall l, mean l = (rsum l / INR (List.length l))%R.
Proof. reflexivity. Qed.

Lemma INR_pos : forall A (l : list A), l <> [] -> (0 < INR (List.length l))%R.
Proof. intros A [|a l] L; [congruence|]. apply lt_0_INR. cbn [List.length]. lia. Qed.

Lemma all_same_false : forall x, all_same x = false -> x <> [] /\ exists a b, In a x /\ In b x /\ a <> b.
Proof.
  intros [|a x] H; [discriminate|]. split; [discriminate|]. cbn [all_same] in H.
  assert (E : exists b, In b x /\ b <> a).
  { induction x as [|b x IH]; [discriminate|]. cbn [forallb] in H. destruct (Req_EM_T b a).
    - destruct IH as (c & C & D); auto. exists c. split; auto. now right.
    - exists b. split; [now left|auto]. }
  destruct E as (b & B & D). exists a, b. split; [now left|]. split; [now right|]. congruence.
Qed.

(** Sums over pairs. *)
Definition S1 (f : R * R -> R) (l : list (R * R)) : R := rsum (map f l).
Lemma S1_expand : forall l s c,
  S1 (fun p => (snd p - s * fst p - c) ^ 2)%R l =
  (S1 (fun p => snd p ^ 2) l - 2 * s * S1 (fun p => fst p * snd p) l - 2 * c * S1 snd l
   + s ^ 2 * S1 (fun p => fst p ^ 2) l + 2 * s * c * S1 fst l + INR (List.length l) * c ^ 2)%R.
Proof.
  intros l s c. unfold S1. induction l as [|[x y] l IH].
  - cbn [map rsum fold_right List.length INR]. lra.
  - cbn [map]. rewrite !rsum_cons. rewrite IH. cbn [List.length]. rewrite S_INR. cbn [fst snd]. ring.
Qed.
Lemma S1_cov : forall l mx my,
  S1 (fun p => (fst p - mx) * (snd p - my))%R l =
  (S1 (fun p => fst p * snd p) l - my * S1 fst l - mx * S1 snd l + INR (List.length l) * mx * my)%R.
Proof.
  intros l mx my. unfold S1. induction l as [|[x y] l IH].
  - cbn [map rsum fold_right List.length INR]. lra.
  - cbn [map]. rewrite !rsum_cons. rewrite IH. cbn [List.length]. rewrite S_INR. cbn [fst snd]. ring.
Qed.
Lemma S1_var : forall l mx,
  S1 (fun p => (fst p - mx) * (fst p - mx))%R l =
  (S1 (fun p => fst p ^ 2) l - 2 * mx * S1 fst l + INR (List.length l) * mx ^ 2)%R.
Proof.
  intros l mx. unfold S1. induction l as [|[x y] l IH].
  - cbn [map rsum fold_right List.length INR]. lra.
  - cbn [map]. rewrite !rsum_cons. rewrite IH. cbn [List.length]. rewrite S_INR. cbn [fst snd]. ring.
Qed.

Lemma rsum_nonneg : forall l, (forall x, In x l -> 0 <= x)%R -> (0 <= rsum l)%R.
Proof.
  induction l as [|x l IH]; intros H; [cbn; lra|]. rewrite rsum_cons.
  assert (0 <= x)%R by (apply H; now left). assert (0 <= rsum l)%R by (apply IH; intros; apply H; now right). lra.
Qed.
Lemma rsum_pos : forall l x, (forall x, In x l -> 0 <= x)%R -> In x l -> (0 < x)%R -> (0 < rsum l)%R.
Proof.
  induction l as [|y l IH]; intros x H I P; [easy|]. rewrite rsum_cons. destruct I as [->|I].
  - assert (0 <= rsum l)%R by (apply rsum_nonneg; intros; apply H; now right). lra.
  - assert (0 < rsum l)%R by (apply (IH x); auto; intros; apply H; now right).
    assert (0 <= y)%R by (apply H; now left). lra.
Qed.

Lemma combine_fst : forall (x y : list R), List.length x = List.length y -> map fst (combine x y) = x.
Proof. induction x as [|a x IH]; intros [|b y] L; try discriminate; auto. cbn. f_equal. apply IH. now injection L. Qed.
Lemma combine_snd : forall (x y : list R), List.length x = List.length y -> map snd (combine x y) = y.
Proof. induction x as [|a x IH]; intros [|b y] L; try discriminate; auto. cbn. f_equal. apply IH. now injection L. Qed.

(** Squared distances from a number other than one of two values are not all zero. *)
Lemma var_pos : forall x m, all_same x = false -> (0 < rsum (map (fun a => (a - m) * (a - m)) x))%R.
Proof.
  intros x m H. apply all_same_false in H as (_ & a & b & A & B & D).
  assert (NN : forall y, In y (map (fun a => (a - m) * (a - m))%R x) -> (0 <= y)%R).
  { intros y Y. apply in_map_iff in Y as (z & <- & _). apply Rle_0_sqr. }
  destruct (Req_dec a m) as [E|E].
  - apply rsum_pos with ((b - m) * (b - m))%R; auto; [now apply in_map with (f := fun a => ((a - m) * (a - m))%R)|].
    apply Rlt_0_sqr. lra.
  - apply rsum_pos with ((a - m) * (a - m))%R; auto; [now apply in_map with (f := fun a => ((a - m) * (a - m))%R)|].
    apply Rlt_0_sqr. lra.
Qed.

Definition err (l : list (R * R)) (s c : R) : R := S1 (fun p => (snd p - s * fst p - c) ^ 2)%R l.

Lemma slope_least : forall x y s, List.length x = List.length y -> slope x y = Ok s ->
  forall s' c', (err (combine x y) s (mean y - s * mean x) <= err (combine x y) s' c')%R.
Proof.
  intros x y s L H s' c'. unfold slope in H. destruct (all_same x) eqn:A; [discriminate|].
  assert (V := var_pos x (mean x) A). apply all_same_false in A as (NE & _).
  assert (N := INR_pos R x NE).
  set (l := combine x y) in *.
  assert (LL : List.length l = List.length x) by (unfold l; rewrite combine_length; lia).
  assert (FX : map fst l = x) by now apply combine_fst. assert (FY : map snd l = y) by now apply combine_snd.
  set (mx := mean x) in *. set (my := mean y) in *.
  assert (EX : S1 fst l = (INR (List.length l) * mx)%R).
  { unfold S1. rewrite FX, LL. unfold mx. rewrite mean_rsum. field. lra. }
  assert (EY : S1 snd l = (INR (List.length l) * my)%R).
  { unfold S1. rewrite FY, LL. unfold my. rewrite mean_rsum, <- L. field. lra. }
  assert (VE : rsum (map (fun a => ((a - mx) * (a - mx))%R) x) = S1 (fun p => (fst p - mx) * (fst p - mx))%R l).
  { unfold S1. rewrite <- FX at 1. now rewrite map_map. }
  assert (HS : (s * S1 (fun p => (fst p - mx) * (fst p - mx))%R l = S1 (fun p => (fst p - mx) * (snd p - my))%R l)%R).
  { assert (s = (mean (map (fun p => ((fst p - mx) * (snd p - my))%R) l) / mean (map (fun a => ((a - mx) * (a - mx))%R) x))%R) as -> by congruence.
    rewrite !mean_rsum, !map_length, LL. rewrite VE in *. fold (S1 (fun p => ((fst p - mx) * (snd p - my))%R) l).
    field. lra. }
  rewrite VE in V. rewrite S1_var in V, HS. rewrite S1_cov in HS. unfold err. rewrite !S1_expand.
  rewrite EX, EY in *. rewrite <- LL in N.
  set (n := INR (List.length l)) in *. set (xx := S1 (fun p => fst p ^ 2)%R l) in *. set (xy := S1 (fun p => fst p * snd p)%R l) in *.
  set (yy := S1 (fun p => snd p ^ 2)%R l). clearbody n xx xy yy mx my. clear - N V HS.
  assert (K : (xy = s * (xx - n * mx ^ 2) + n * mx * my)%R) by lra.
  apply Rminus_le. rewrite K.
  replace (_ - _)%R with (- ((s' - s) ^ 2 * (xx - n * mx ^ 2) + n * (c' - my + s' * mx) ^ 2))%R by ring.
  assert (0 <= (s' - s) ^ 2 * (xx - n * mx ^ 2))%R by (apply Rmult_le_pos; [apply pow2_ge_0|lra]).
  assert (0 <= n * (c' - my + s' * mx) ^ 2)%R by (apply Rmult_le_pos; [lra|apply pow2_ge_0]). lra.
Qed.

(** A single slope has the least error. *)
Lemma slope_exact : forall x y s k, List.length x = List.length y -> slope x y = Ok s ->
  (forall p, In p (combine x y) -> snd p = (k * fst p)%R) -> s = k.
Proof.
  intros x y s k L H P. pose proof H as H0. unfold slope in H. destruct (all_same x) eqn:A; [discriminate|].
  assert (V := var_pos x (mean x) A). apply all_same_false in A as (NE & _).
  assert (N := INR_pos R x NE).
  assert (Y : y = map (fun a => k * a)%R x).
  { clear - L P. revert y L P. induction x as [|a x IH]; intros [|b y] L P; try discriminate; auto.
    cbn [map]. rewrite <- (IH y); [|now injection L|intros p I; apply P; now right].
    f_equal. apply (P (a, b)). now left. }
  assert (MY : mean y = (k * mean x)%R).
  { rewrite !mean_rsum, <- L, Y. assert (E : rsum (map (fun a => k * a)%R x) = (k * rsum x)%R).
    { clear. induction x as [|a x IH]; cbn [map]; rewrite ?rsum_cons; [cbn; lra|]. rewrite IH. lra. }
    rewrite E. field. lra. }
  assert (C : map (fun p => ((fst p - mean x) * (snd p - mean y))%R) (combine x y) =
              map (fun a => (k * ((a - mean x) * (a - mean x)))%R) x).
  { rewrite MY. generalize (mean x). intros m. rewrite Y. clear. induction x as [|a x IH]; [reflexivity|].
    cbn [map combine]. rewrite IH. f_equal. cbn [fst snd]. ring. }
  rewrite C in H.
  assert (C2 : rsum (map (fun a => (k * ((a - mean x) * (a - mean x)))%R) x) =
               (k * rsum (map (fun a => ((a - mean x) * (a - mean x))%R) x))%R).
  { generalize (mean x). intros m. clear. induction x as [|a x IH]; cbn [map]; rewrite ?rsum_cons; [cbn; lra|]. rewrite IH. lra. }
  assert (s = (mean (map (fun a => (k * ((a - mean x) * (a - mean x)))%R) x) / mean (map (fun a => ((a - mean x) * (a - mean x))%R) x))%R) as -> by congruence.
  rewrite !(mean_rsum (map _ x)), !map_length, C2. field. lra.
Qed.

(** ** Centred rows *)
Lemma rsum_shift : forall l m, rsum (map (fun x => x - m)%R l) = (rsum l - INR (List.length l) * m)%R.
Proof.
  induction l as [|a l IH]; intros m; [cbn; lra|]. cbn [map List.length]. rewrite !rsum_cons, IH, S_INR. lra.
Qed.
Lemma centred_sum : forall l, rsum (centred l) = 0%R.
Proof.
  intros l. unfold centred. rewrite rsum_shift, mean_rsum. destruct l as [|a l]; [cbn; lra|].
  assert (N := INR_pos R (a :: l) ltac:(discriminate)). field. lra.
Qed.
Lemma centred_concat : forall rows, rsum (concat (map centred rows)) = 0%R.
Proof. induction rows as [|r rows IH]; [reflexivity|]. cbn [map concat]. rewrite rsum_app, centred_sum, IH. lra. Qed.
Lemma centred_mean : forall rows, mean (concat (map centred rows)) = 0%R.
Proof. intros. rewrite mean_rsum, centred_concat. unfold Rdiv. lra. Qed.

Lemma centred_map : forall f row, centred (map f row) = map (row_dev f row) row.
Proof. intros. unfold centred. rewrite map_map. apply map_ext. intros p. unfold row_dev. now rewrite mean_rsum, map_length. Qed.

Lemma combine_concat : forall (u v : pix -> R) rows,
  combine (concat (map centred (map (map v) rows))) (concat (map centred (map (map u) rows))) =
  concat (map (fun row => map (fun p => (row_dev v row p, row_dev u row p)) row) rows).
Proof.
  induction rows as [|r rows IH]; [reflexivity|]. cbn [map concat]. rewrite !centred_map.
  rewrite <- IH. clear IH. generalize (concat (map centred (map (map v) rows))), (concat (map centred (map (map u) rows))).
  intros a b. generalize (row_dev v r) (row_dev u r). clear. intros f g. induction r as [|p r IH]; [reflexivity|].
  cbn [map app combine]. now rewrite IH.
Qed.

Lemma err_rows : forall (u v : pix -> R) rows s c,
  err (combine (concat (map centred (map (map v) rows))) (concat (map centred (map (map u) rows)))) s c =
  sq_error u v rows s c.
Proof.
  intros. rewrite combine_concat. unfold err, S1, sq_error. f_equal. rewrite concat_map, map_map. f_equal.
  apply map_ext. intros row. rewrite map_map. reflexivity.
Qed.

Lemma concat_lengths : forall (u v : pix -> R) rows,
  List.length (concat (map centred (map (map v) rows))) = List.length (concat (map centred (map (map u) rows))).
Proof.
  induction rows as [|r rows IH]; [reflexivity|]. cbn [map concat]. rewrite !app_length, IH. unfold centred.
  now rewrite !map_length.
Qed.

(** ** Offsets *)
Definition lexl (a b : Z * Z) : Prop := lex_lt a b = true.
Lemma lexl_iff : forall a b, lexl a b <-> fst a < fst b \/ (fst a = fst b /\ snd a < snd b).
Proof.
  intros. unfold lexl, lex_lt. rewrite orb_true_iff, andb_true_iff, Z.ltb_lt, Z.eqb_eq, Z.ltb_lt. tauto.
Qed.
Lemma lexl_trans : forall a b c, lexl a b -> lexl b c -> lexl a c.
Proof. intros a b c. rewrite !lexl_iff. lia. Qed.
Lemma lexl_irrefl : forall a, ~ lexl a a.
Proof. intros a. rewrite lexl_iff. lia. Qed.
Lemma lexl_total : forall a b, lex_lt a b = false -> lex_lt b a = false -> a = b.
Proof.
  intros [a1 a2] [b1 b2] A B. assert (~ lexl (a1, a2) (b1, b2)) by (unfold lexl; congruence).
  assert (~ lexl (b1, b2) (a1, a2)) by (unfold lexl; congruence). rewrite lexl_iff in *. cbn [fst snd] in *.
  f_equal; lia.
Qed.

Lemma insert_row_spec : forall a l, StronglySorted lexl l ->
  StronglySorted lexl (insert_row a l) /\ (forall x, In x (insert_row a l) <-> x = a \/ In x l).
Proof.
  induction l as [|b l IH]; intros ST.
  - cbn. split; [repeat constructor|]. intros x. split; intros [H|H]; auto; tauto.
  - cbn [insert_row]. destruct (lex_lt a b) eqn:AB.
    + split.
      * constructor; auto. constructor; auto. inversion ST as [|? ? S0 F]; subst. eapply Forall_impl; [|exact F].
        intros x X. eapply lexl_trans; eauto.
      * intros x. cbn [In]. split; intros [H|H]; auto.
    + inversion ST as [|? ? S0 F]; subst. destruct (lex_lt b a) eqn:BA.
      * destruct (IH S0) as (S1' & I). split.
        -- constructor; auto. apply Forall_forall. intros x X. apply I in X as [->|X]; auto.
           now apply (proj1 (Forall_forall _ _) F).
        -- intros x. cbn [In]. rewrite I. tauto.
      * assert (a = b) as -> by now apply lexl_total. split; auto. intros x. cbn [In]. intuition.
Qed.
Lemma unique_rows_spec : forall l, StronglySorted lexl (unique_rows l) /\ (forall x, In x (unique_rows l) <-> In x l).
Proof.
  induction l as [|a l (S0 & I)]; [split; [constructor|tauto]|]. unfold unique_rows in *. cbn [fold_right].
  destruct (insert_row_spec a _ S0) as (S1' & J). split; auto. intros x. rewrite J, I. cbn [In]. intuition.
Qed.
Lemma sorted_unique : forall l m, StronglySorted lexl l -> StronglySorted lexl m ->
  (forall x, In x l <-> In x m) -> l = m.
Proof.
  induction l as [|a l IH]; intros [|b m] SL SM E; auto.
  - exfalso. apply (proj2 (E b)). now left.
  - exfalso. apply (proj1 (E a)). now left.
  - inversion SL as [|? ? SL' FL]; subst. inversion SM as [|? ? SM' FM]; subst.
    rewrite Forall_forall in FL, FM.
    assert (a = b) as ->.
    { destruct (proj1 (E a) (or_introl eq_refl)) as [|A]; auto.
      destruct (proj2 (E b) (or_introl eq_refl)) as [|B]; auto.
      exfalso. apply (lexl_irrefl a). eapply lexl_trans; [apply FL; exact B|apply FM; exact A]. }
    f_equal. apply IH; auto. intros x. split; intros X.
    + destruct (proj1 (E x) (or_intror X)) as [->|]; auto. exfalso. apply (lexl_irrefl x). now apply FL.
    + destruct (proj2 (E x) (or_intror X)) as [->|]; auto. exfalso. apply (lexl_irrefl x). now apply FM.
Qed.

Lemma steps_sorted : forall n a k, lexl (0, 0) n ->
  StronglySorted lexl (map (fun j => (j * fst n, j * snd n)) (zseq a k)).
Proof.
  intros n a k N. apply lexl_iff in N. cbn [fst snd] in N. revert a. induction k as [|k IH]; intros a; cbn [zseq map]; constructor; auto.
  apply Forall_forall. intros x X. apply in_map_iff in X as (j & <- & J). apply zseq_In in J.
  apply lexl_iff. cbn [fst snd]. nia.
Qed.

Lemma offsets_steps : forall ang len xs ys n, py_get x_table (round_div ang 4500) = Ok xs ->
  py_get y_table (round_div ang 4500) = Ok ys -> lexl (0, 0) n ->
  (combine xs ys = [n; (0, 0); (- fst n, - snd n)] \/ combine xs ys = [(- fst n, - snd n); (0, 0); n]) ->
  3 <= len ->
  offsets ang len = Ok (map (fun j => (j * fst n, j * snd n)) (zseq (- Z.quot (len - 1) 2) (Z.to_nat (2 * Z.quot (len - 1) 2 + 1)))).
Proof.
  intros ang len xs ys n X Y N C L. unfold offsets. rewrite X. cbn [bind]. rewrite Y. cbn [bind].
  set (h := Z.quot (len - 1) 2).
  assert (H : 1 <= h) by (unfold h; rewrite Z.quot_div_nonneg by lia; apply Z.div_le_lower_bound; lia).
  f_equal. apply sorted_unique; [apply unique_rows_spec|now apply steps_sorted|].
  intros x. rewrite (proj2 (unique_rows_spec _) x). rewrite in_concat. split.
  - intros (r & R & I). apply in_map_iff in R as (i & <- & R). apply in_map_iff in R as (i' & <- & R).
    apply zseq_In in R. apply in_map_iff in I as (t & <- & T).
    assert (T' : t = n \/ t = (0, 0) \/ t = (- fst n, - snd n)).
    { destruct C as [C|C]; rewrite C in T; destruct T as [T|[T|[T|[]]]]; auto. }
    apply in_map_iff. destruct T' as [->|[->| ->]]; cbn [fst snd].
    + exists (i' + 1). split; [f_equal; ring|apply zseq_In; lia].
    + exists 0. split; [f_equal; ring|apply zseq_In; lia].
    + exists (- (i' + 1)). split; [f_equal; ring|apply zseq_In; lia].
  - intros I. apply in_map_iff in I as (j & <- & J). apply zseq_In in J.
    assert (IN : forall t, In t [n; (0, 0); (- fst n, - snd n)] -> In t (combine xs ys)).
    { intros t T. destruct C as [C|C]; rewrite C; cbn [In] in *; tauto. }
    destruct (Z.eq_dec j 0) as [->|J0].
    + exists (map (fun t => (fst t * 1, snd t * 1)) (combine xs ys)). split.
      * apply in_map_iff. exists 1. split; auto. apply in_map_iff. exists 0. split; auto. apply zseq_In. lia.
      * apply in_map_iff. exists (0, 0). split; [cbn [fst snd]; f_equal; ring|]. apply IN. right. now left.
    + exists (map (fun t => (fst t * Z.abs j, snd t * Z.abs j)) (combine xs ys)). split.
      * apply in_map_iff. exists (Z.abs j). split; auto. apply in_map_iff. exists (Z.abs j - 1).
        split; [ring|]. apply zseq_In. lia.
      * apply in_map_iff. destruct (Z.lt_ge_cases j 0).
        -- exists (- fst n, - snd n). split; [cbn [fst snd]; f_equal; nia|]. apply IN. right. right. now left.
        -- exists n. split; [f_equal; nia|]. apply IN. now left.
Qed.

(** ** The direction of sampling *)
Lemma sin_small : forall x, (Rabs x <= PI / 8)%R -> (Rabs (sin x) <= sin (PI / 8))%R.
Proof.
  intros x H. pose proof PI_RGT_0 as PP.
  assert (- (PI / 8) <= x <= PI / 8)%R by (unfold Rabs in H; destruct (Rcase_abs x) in H; lra).
  apply Rabs_le. split.
  - rewrite <- sin_neg. apply sin_incr_1; lra.
  - apply sin_incr_1; lra.
Qed.

Lemma perp_aux : forall a k n c, 2 * Z.abs (4500 * k - a) <= 4500 ->
  n <> (0, 0) -> -1 <= fst n <= 1 -> -1 <= snd n <= 1 ->
  (IZR (fst n) = c * cos (IZR k * (PI / 4)))%R -> (IZR (snd n) = - c * sin (IZR k * (PI / 4)))%R ->
  perpendicular_step a n.
Proof.
  intros a k n c K N N1 N2 X Y. split; [exact N|]. split; [exact N1|]. split; [exact N2|]. cbv zeta.
  rewrite X, Y. set (f := (IZR k * (PI / 4))%R). set (t := (IZR a / 100 * PI / 180)%R).
  replace (sqrt ((c * cos f) ^ 2 + (- c * sin f) ^ 2)) with (Rabs c).
  2:{ rewrite <- sqrt_Rsqr_abs. f_equal. unfold Rsqr. pose proof (sin2_cos2 f) as T. unfold Rsqr in T.
      replace ((c * cos f) ^ 2 + (- c * sin f) ^ 2)%R with (c * c * (sin f * sin f + cos f * cos f))%R by ring.
      rewrite T. ring. }
  replace (c * cos f * sin t + - c * sin f * cos t)%R with (c * sin (t - f))%R by (rewrite sin_minus; ring).
  rewrite Rabs_mult. apply Rmult_le_compat_l; [apply Rabs_pos|]. apply sin_small.
  pose proof PI_RGT_0 as PP.
  replace (t - f)%R with (IZR (a - 4500 * k) * (PI / 18000))%R.
  2:{ unfold t, f. rewrite minus_IZR, mult_IZR. field. }
  rewrite Rabs_mult. rewrite (Rabs_right (PI / 18000)) by lra.
  replace (PI / 8)%R with (IZR 2250 * (PI / 18000))%R by field.
  apply Rmult_le_compat_r; [lra|]. rewrite <- abs_IZR. apply IZR_le. lia.
Qed.

Lemma sq2 : (sqrt 2 * (1 / sqrt 2) = 1)%R.
Proof. assert (0 < sqrt 2)%R by (apply sqrt_lt_R0; lra). field. lra. Qed.

Lemma octants : forall a, 0 <= a <= 18000 -> exists n xs ys,
  py_get x_table (round_div a 4500) = Ok xs /\ py_get y_table (round_div a 4500) = Ok ys /\ lexl (0, 0) n /\
  (combine xs ys = [n; (0, 0); (- fst n, - snd n)] \/ combine xs ys = [(- fst n, - snd n); (0, 0); n]) /\
  perpendicular_step a n.
Proof.
  intros a A. destruct (round_div_spec a 4500 ltac:(lia)) as (B & _). set (k := round_div a 4500) in *. clearbody k.
  assert (K : k = 0 \/ k = 1 \/ k = 2 \/ k = 3 \/ k = 4) by lia.
  pose proof sq2 as Q.
  assert (C3 : (cos (3 * (PI / 4)) = - (1 / sqrt 2))%R).
  { replace (3 * (PI / 4))%R with (PI - PI / 4)%R by field. rewrite Rtrigo_facts.cos_pi_minus, cos_PI4. reflexivity. }
  assert (S3 : (sin (3 * (PI / 4)) = 1 / sqrt 2)%R).
  { replace (3 * (PI / 4))%R with (PI - PI / 4)%R by field. rewrite Rtrigo_facts.sin_pi_minus, sin_PI4. reflexivity. }
  destruct K as [-> | [-> | [-> | [-> | ->]]]].
  - exists (1, 0), [-1; 0; 1], [0; 0; 0]. split; [reflexivity|]. split; [reflexivity|]. split; [reflexivity|]. split; [now right|].
    apply perp_aux with 0 1%R; cbn [fst snd]; try lia; try discriminate.
    + rewrite Rmult_0_l, cos_0. lra.
    + rewrite Rmult_0_l, sin_0. lra.
  - exists (1, -1), [1; 0; -1], [-1; 0; 1]. split; [reflexivity|]. split; [reflexivity|]. split; [reflexivity|]. split; [now left|].
    apply perp_aux with 1 (sqrt 2); cbn [fst snd]; try lia; try discriminate.
    + rewrite Rmult_1_l, cos_PI4. lra.
    + rewrite Rmult_1_l, sin_PI4. lra.
  - exists (0, 1), [0; 0; 0], [-1; 0; 1]. split; [reflexivity|]. split; [reflexivity|]. split; [reflexivity|]. split; [now right|].
    apply perp_aux with 2 (-1)%R; cbn [fst snd]; try lia; try discriminate.
    + replace (2 * (PI / 4))%R with (PI / 2)%R by field. rewrite cos_PI2. lra.
    + replace (2 * (PI / 4))%R with (PI / 2)%R by field. rewrite sin_PI2. lra.
  - exists (1, 1), [1; 0; -1], [1; 0; -1]. split; [reflexivity|]. split; [reflexivity|]. split; [reflexivity|]. split; [now left|].
    apply perp_aux with 3 (- sqrt 2)%R; cbn [fst snd]; try lia; try discriminate.
    + rewrite C3. lra.
    + rewrite S3. lra.
  - exists (1, 0), [-1; 0; 1], [0; 0; 0]. split; [reflexivity|]. split; [reflexivity|]. split; [reflexivity|]. split; [now right|].
    apply perp_aux with 4 (-1)%R; cbn [fst snd]; try lia; try discriminate.
    + replace (4 * (PI / 4))%R with PI by field. rewrite cos_PI. lra.
    + replace (4 * (PI / 4))%R with PI by field. rewrite sin_PI. lra.
Qed.

(** ** The calculation *)
Lemma py_get_nth : forall A (l : list A) k a, 0 <= k -> nth_error l (Z.to_nat k) = Some a -> py_get l k = Ok a.
Proof.
  intros A l k a K H. unfold py_get, np_index. assert (L := nth_error_Some_len _ _ _ _ H).
  destruct (Z.leb_spec 0 k); [|lia]. destruct (Z.ltb_spec k (Z.of_nat (List.length l))); [|lia]. cbn [andb].
  now rewrite H.
Qed.

Definition four (l : line) : Prop := List.length (l_pts l) = 4%nat.

Lemma sample_rows_across : forall e n h l, four l ->
  sample_rows e (map (fun j => (j * fst n, j * snd n)) (zseq (- h) (Z.to_nat (2 * h + 1)))) (l_pts l) =
  Ok (map (across e n h) (line_pixels e l)).
Proof.
  intros e n h l F. unfold four in F. unfold line_pixels.
  destruct (l_pts l) as [|x0 [|y0 [|x1 [|y1 [|]]]]]; try discriminate. cbn [sample_rows].
  f_equal. apply map_ext. intros q. unfold across. rewrite map_map. reflexivity.
Qed.

Lemma map_res_rows : forall W H (f : pix -> R) rows, (forall row p, In row rows -> In p row -> inside W H p) ->
  map_res (map_res (fetch W H f)) rows = Ok (map (map f) rows).
Proof.
  intros W H f rows I. apply map_res_ok. intros row R. apply map_res_ok. intros p P. apply fetch_in. eauto.
Qed.

Lemma change_nth_seq : forall A (f : A -> A) (l : list A) n a,
  change_nth n f l =
  map (fun ix => if Nat.eqb (fst ix) (n + a) then f (snd ix) else snd ix) (combine (seq a (List.length l)) l).
Proof.
  induction l as [|x l IH]; intros n a; [destruct n; reflexivity|].
  cbn [List.length seq combine map fst snd]. destruct n as [|n].
  - cbn [change_nth Nat.add]. rewrite Nat.eqb_refl. f_equal.
    assert (G : forall (m : list A) b, (a < b)%nat ->
      m = map (fun ix => if Nat.eqb (fst ix) a then f (snd ix) else snd ix) (combine (seq b (List.length m)) m)).
    { induction m as [|y m IHm]; intros b B; [reflexivity|]. cbn [List.length seq combine map fst snd].
      destruct (Nat.eqb_spec b a); [lia|]. f_equal. apply IHm. lia. }
    apply G. lia.
  - cbn [change_nth]. destruct (Nat.eqb_spec a (S n + a)); [lia|]. f_equal. rewrite (IH n (S a)).
    now replace (n + S a)%nat with (S n + a)%nat by lia.
Qed.
Lemma rdr_at_eq : forall g k s, mkGrain (pts g) (change_nth (Z.to_nat k) (fun x => set_rdr x s) (grps g)) = rdr_at g k s.
Proof. intros. unfold rdr_at. f_equal. rewrite (change_nth_seq _ _ _ _ 0), Nat.add_0_r. reflexivity. Qed.

Lemma calc_rdr_eq : forall e g k x, 0 <= k -> nth_error (grps g) (Z.to_nat k) = Some x -> 0 <= g_ang x <= 18000 ->
  3 <= r_len e -> (forall l, In l (pts g) -> four l) -> pts g <> [] ->
  exists n, perpendicular_step (g_ang x) n /\
    let rows := group_rows e n (Z.quot (r_len e - 1) 2) g k in
    (forall row p, In row rows -> In p row -> inside (r_W e) (r_H e) p) ->
    calc_rdr e g k =
      match slope (concat (map centred (map (map (r_v e)) rows))) (concat (map centred (map (map (r_u e)) rows))) with
      | Ok s => Ok (rdr_at g k s)
      | Err z => Err z
      end.
Proof.
  intros e g k x K X A L F NE. destruct (octants (g_ang x) A) as (n & xs & ys & GX & GY & LN & C & P).
  exists n. split; [exact P|]. intros rows I. unfold calc_rdr. destruct (pts g) as [|l0 ls0] eqn:EP; [congruence|].
  rewrite <- EP in *. rewrite (py_get_nth _ _ _ _ K X). cbn [bind].
  rewrite (offsets_steps _ _ _ _ _ GX GY LN C L). cbn [bind].
  set (h := Z.quot (r_len e - 1) 2) in *.
  rewrite (map_res_ok _ _ _ (fun l => map (across e n h) (line_pixels e l))).
  2:{ intros l LI. apply sample_rows_across. apply F. now apply filter_In in LI. }
  cbn [bind]. fold (group_rows e n h g k). fold rows.
  rewrite !map_res_rows by exact I. cbn [bind].
  destruct (slope _ _) as [s|z]; cbn [bind]; [|reflexivity].
  unfold np_index. assert (LK := nth_error_Some_len _ _ _ _ X).
  destruct (Z.leb_spec 0 k); [|lia]. destruct (Z.ltb_spec k (Z.of_nat (List.length (grps g)))); [|lia]. cbn [andb].
  now rewrite rdr_at_eq.
Qed.

Lemma rows_exact : forall (u v : pix -> R) rows s k,
  slope (concat (map centred (map (map v) rows))) (concat (map centred (map (map u) rows))) = Ok s ->
  (forall row, In row rows -> exists b, forall p, In p row -> u p = (k * v p + b)%R) -> s = k.
Proof.
  intros u v rows s k H P. apply (slope_exact _ _ _ k (concat_lengths u v rows) H).
  rewrite combine_concat. intros q Q. apply in_concat in Q as (r & R & Q). apply in_map_iff in R as (row & <- & R).
  apply in_map_iff in Q as (p & <- & Q). cbn [fst snd]. destruct (P row R) as (b & B).
  unfold row_dev. rewrite (B p Q).
  assert (E : rsum (map u row) = (k * rsum (map v row) + INR (List.length row) * b)%R).
  { clear - B. induction row as [|p row IH]; [cbn; lra|]. cbn [map List.length]. rewrite !rsum_cons, S_INR.
    rewrite IH by (intros; apply B; now right). rewrite (B p) by now left. lra. }
  assert (N : (0 < INR (List.length row))%R) by (apply INR_pos; intros ->; easy).
  rewrite E. field. lra.
Qed.

Lemma rows_least : forall (u v : pix -> R) rows s,
  slope (concat (map centred (map (map v) rows))) (concat (map centred (map (map u) rows))) = Ok s ->
  forall s' c', (sq_error u v rows s 0 <= sq_error u v rows s' c')%R.
Proof.
  intros u v rows s H s' c'. rewrite <- !err_rows.
  pose proof (slope_least _ _ _ (concat_lengths u v rows) H s' c') as Q. rewrite !centred_mean in Q.
  now replace (0 - s * 0)%R with 0%R in Q by ring.
Qed.

Lemma all_same_in : forall l, all_same l = true -> forall a b, In a l -> In b l -> a = b.
Proof.
  intros [|x l] H; [easy|]. cbn [all_same] in H. rewrite forallb_forall in H.
  assert (E : forall a, In a (x :: l) -> a = x).
  { intros a [->|I]; auto. specialize (H a I). destruct (Req_EM_T a x); [auto|discriminate]. }
  intros a b A B. now rewrite (E a A), (E b B).
Qed.

Lemma rows_defined : forall (u v : pix -> R) rows row p q, In row rows -> In p row -> In q row -> v p <> v q ->
  exists s, slope (concat (map centred (map (map v) rows))) (concat (map centred (map (map u) rows))) = Ok s.
Proof.
  intros u v rows row p q R P Q D. unfold slope. destruct (all_same _) eqn:E; [|eauto]. exfalso.
  assert (IN : forall p, In p row -> In (row_dev v row p) (concat (map centred (map (map v) rows)))).
  { intros z Z. apply in_concat. exists (centred (map v row)). split; [now apply in_map, in_map|].
    rewrite centred_map. now apply in_map. }
  pose proof (all_same_in _ E _ _ (IN p P) (IN q Q)) as X. unfold row_dev in X. lra.
Qed.

(** ** The ratio of a slip system *)
Lemma grain_rdr_spec : forall q d r,
  let s := mapply (transpose (rot_matrix q)) d in
  grain_rdr q d = Some r <-> vy s <> 0%R /\ r = (- vx s / vy s)%R.
Proof.
  intros q d r s. unfold grain_rdr.
  assert (E : transform_vector (conjugate q) d = s).
  { rewrite transform_north by (unfold conjugate; apply Quat_north).
    now rewrite (rot_same _ _ (conjugate_same q)), rot_hconj. }
  rewrite E. cbv zeta. destruct (Req_EM_T (vy s) 0) as [Z|Z].
  - split; [discriminate|]. intros [N _]. contradiction.
  - split; [intros X; split; [exact Z|congruence]|]. intros [_ ->]. reflexivity.
Qed.

(** ** The range of the angles in every history *)
Definition in_range (g : grain) : Prop :=
  (forall l, In l (pts g) -> four l /\ 0 <= l_ang l <= 18000) /\ (forall x, In x (grps g) -> 0 <= g_ang x <= 18000).

Lemma loop_range : forall ls, ls <> [] -> (forall l, In l ls -> 0 <= l_ang l <= 18000) ->
  let '(ls', gs') := group_loop [] [] 0 ls in forall x, In x gs' -> 0 <= g_ang x <= 18000.
Proof.
  intros ls L R.
  pose proof (loop_rule (fun done gs todo => (forall l, In l done \/ In l todo -> 0 <= l_ang l <= 18000) /\
    (forall x, In x gs -> 0 <= g_ang x <= 18000)) ls L) as RR.
  destruct (group_loop [] [] 0 ls) as [ls' gs']. apply RR.
  - intros l todo ->. assert (Rl := R l (or_introl eq_refl)). split.
    + intros x [[<-|[]]|X]; [exact Rl|apply R; now right].
    + intros x [<-|[]]. exact Rl.
  - intros done gs l todo D G N (A & B). cbv zeta. set (k := nearest gs (l_ang l)).
    set (l' := set_grp l (Z.of_nat k) true). assert (Al := A l (or_intror (or_introl eq_refl))).
    split.
    + intros x [X|X]; [|apply A; right; now right]. apply in_app_or in X as [X|[<-|[]]]; [apply A; now left|exact Al].
    + intros x X. apply In_nth_error in X as (j & J). rewrite change_nth_nth in J.
      destruct (Nat.eqb j k); [|apply B; now apply nth_error_In with j].
      destruct (nth_error gs j) as [y|] eqn:Y; [|discriminate]. cbn [option_map] in J. injection J as <-.
      cbn [set_ang g_ang]. apply average_between.
      * rewrite members_app, members_cons. cbn [l' set_grp l_grp]. rewrite Z.eqb_refl. destruct (members done _); discriminate.
      * intros a I. unfold members in I. apply in_map_iff in I as (z & <- & I). apply filter_In in I as [I _].
        apply in_app_or in I as [I|[<-|I]]; [apply A; now left|exact Al|apply A; right; now right].
  - intros done gs l todo D G N (A & B). cbv zeta. assert (Al := A l (or_intror (or_introl eq_refl))). split.
    + intros x [X|X]; [|apply A; right; now right]. apply in_app_or in X as [X|[<-|[]]]; [apply A; now left|exact Al].
    + intros x X. apply in_app_or in X as [X|[<-|[]]]; [now apply B|exact Al].
Qed.

Lemma group_lines_range : forall ts g, (forall l, In l (pts g) -> four l /\ 0 <= l_ang l <= 18000) ->
  in_range (group_lines ts g).
Proof.
  intros ts g H. split.
  - destruct (group_lines_wf ts g) as (C & _). intros l I.
    assert (J : In (content l) (map content (pts g))) by (rewrite <- C; now apply in_map).
    apply in_map_iff in J as (y & E & Y). destruct (H y Y) as [H1 H2]. unfold content in E. injection E as E1 E2.
    unfold four in *. now rewrite <- E1, <- E2.
  - unfold group_lines. destruct (pts g) as [|l ls] eqn:E; [easy|].
    pose proof (loop_range (l :: ls) ltac:(discriminate) (fun x X => proj2 (H x X))) as R.
    destruct (group_loop [] [] 0 (l :: ls)) as [ls' gs']. cbn [grps]. intros x X. apply in_map_iff in X as (y & <- & Y).
    destruct (detect_group_right ts y) as (_ & _ & -> & _). now apply R.
Qed.

Lemma rint_mono_range : forall x a b, (IZR a <= x <= IZR b)%R -> a <= rint x <= b.
Proof.
  intros x a b [A B]. pose proof (rint_err x) as E.
  assert (- (1 / 2) <= IZR (rint x) - x <= 1 / 2)%R by (unfold Rabs in E; destruct (Rcase_abs _) in E; lra).
  split.
  - apply Z.lt_succ_r. apply lt_IZR. rewrite succ_IZR. lra.
  - apply Z.lt_succ_r. apply lt_IZR. rewrite succ_IZR. lra.
Qed.

Lemma saved_range : forall p q, four (saved_line 0 p q) /\ 0 <= l_ang (saved_line 0 p q) <= 18000.
Proof.
  intros p q. split; [reflexivity|]. cbn [saved_line l_ang]. unfold hundredths. rewrite Rminus_0_r.
  pose proof (drawn_range p q). apply rint_mono_range. lra.
Qed.

Lemma del_in : forall A (l : list A) k m, del l k = Ok m -> forall x, In x m -> In x l.
Proof.
  intros A l k m H x X. unfold del in H. destruct (np_index _ k) as [i|]; [|discriminate]. injection H as <-.
  revert X. generalize (Z.to_nat i). clear i. induction l as [|a l IH]; intros [|n] X; cbn [drop_nth] in X; auto; [now right|].
  destruct X as [->|X]; [now left|right; eauto].
Qed.

Lemma range_run : forall e acts n i g, e_corr e = 0%R ->
  nth_error (i_grains (run e acts (opened n))) i = Some g -> in_range g.
Proof.
  intros e acts n i g C0.
  refine (run_rule e true (fun _ g => in_range g) _ _ _ _ acts (opened n) _ _ i g).
  - intros _. split; easy.
  - clear i g. intros i g p q [A _]. apply group_lines_range. cbn [pts]. intros l I.
    apply in_app_or in I as [I|[<-|[]]]; [now apply A|]. rewrite C0. apply saved_range.
  - clear i g. intros _ i g k ls [A _] D. apply group_lines_range. cbn [pts]. intros l I. apply A. eapply del_in; eauto.
  - clear i g. intros i g k g' [A B] C. destruct (calc_rdr_inv _ _ _ _ C) as (E & V). split.
    + now rewrite E.
    + destruct (view_parts _ _ V) as (_ & V2 & _). intros x X.
      assert (I : In (g_ang x) (map g_ang (grps g'))) by now apply in_map.
      rewrite V2 in I. apply in_map_iff in I as (y & <- & Y). now apply B.
  - discriminate.
  - clear i g. intros i g G. apply opened_nth in G. subst g. split; easy.
Qed.
