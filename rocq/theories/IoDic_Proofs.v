(** Checks of DIC data and the grid loaders. *)
From Coq Require Import String Ascii Reals.
From Coq Require Import List ZArith Bool Lia Lra Permutation.
Import ListNotations.
From Verif Require Import Py Grid Grid_Lemmas Base_Model Base_Proofs Text_Model Ctf_Model Ctf_Spec Io_Model Io_Spec.
Open Scope Z_scope.

(** *** Least and largest *)
Lemma least_unique l m n : least l m -> least l n -> m = n.
Proof. intros [I H] [J K]. apply Rle_antisym; auto. Qed.
Lemma largest_unique l m n : largest l m -> largest l n -> m = n.
Proof. intros [I H] [J K]. apply Rle_antisym; auto. Qed.
Lemma fold_min l : forall a, least (a :: l) (fold_left Rmin l a).
Proof.
  induction l as [|b l IH]; intros a; cbn [fold_left].
  - split; [now left|]. intros x [->|[]]. lra.
  - destruct (IH (Rmin a b)) as [I H]. split.
    + destruct I as [I|I]; [|right; now right]. rewrite <- I. unfold Rmin at 1. destruct (Rle_dec a b); [now left|right; now left].
    + intros x [->|[->|J]]; [| |apply H; now right].
      * apply Rle_trans with (Rmin x b); [apply H; now left|apply Rmin_l].
      * apply Rle_trans with (Rmin a x); [apply H; now left|apply Rmin_r].
Qed.
Lemma fold_max l : forall a, largest (a :: l) (fold_left Rmax l a).
Proof.
  induction l as [|b l IH]; intros a; cbn [fold_left].
  - split; [now left|]. intros x [->|[]]. lra.
  - destruct (IH (Rmax a b)) as [I H]. split.
    + destruct I as [I|I]; [|right; now right]. rewrite <- I. unfold Rmax at 1. destruct (Rle_dec a b); [right; now left|now left].
    + intros x [->|[->|J]]; [| |apply H; now right].
      * apply Rle_trans with (Rmax x b); [apply Rmax_l|apply H; now left].
      * apply Rle_trans with (Rmax a x); [apply Rmax_r|apply H; now left].
Qed.
Lemma min_of_iff l m : min_of l = Ok m <-> least l m.
Proof.
  destruct l as [|a l]; cbn [min_of]; split.
  - discriminate.
  - intros [[] _].
  - intros E. injection E as <-. apply fold_min.
  - intros L. f_equal. apply (least_unique (a :: l)); auto. apply fold_min.
Qed.
Lemma max_of_iff l m : max_of l = Ok m <-> largest l m.
Proof.
  destruct l as [|a l]; cbn [max_of]; split.
  - discriminate.
  - intros [[] _].
  - intros E. injection E as <-. apply fold_max.
  - intros L. f_equal. apply (largest_unique (a :: l)); auto. apply fold_max.
Qed.
Lemma abs_diffs_steps l : steps l (abs_diffs l).
Proof.
  split.
  - induction l as [|a [|b l] IH]; [reflexivity..|]. cbn [abs_diffs List.length] in *. rewrite IH. reflexivity.
  - induction l as [|a [|b l] IH]; intros i x y X Y.
    + destruct i; discriminate.
    + destruct i as [|[|i]]; discriminate.
    + destruct i as [|i]; cbn [abs_diffs nth_error] in *.
      * congruence.
      * apply IH; auto.
Qed.
Lemma steps_unique l ds es : steps l ds -> steps l es -> ds = es.
Proof.
  intros [L D] [M E]. apply nth_ext with (d := 0%R) (d' := 0%R); [congruence|].
  intros n N.
  destruct (nth_error l n) as [a|] eqn:A; [|apply nth_error_None in A; lia].
  destruct (nth_error l (S n)) as [b|] eqn:B; [|apply nth_error_None in B; lia].
  rewrite (nth_error_nth _ _ _ (D n a b A B)), (nth_error_nth _ _ _ (E n a b A B)). reflexivity.
Qed.
Lemma steps_in l ds d : steps l ds -> In d ds ->
  exists i a b, nth_error l i = Some a /\ nth_error l (S i) = Some b /\ d = Rabs (b - a).
Proof.
  intros [L D] I. apply In_nth_error in I as (i & I).
  assert (N : (i < List.length ds)%nat) by (apply nth_error_Some; congruence).
  destruct (nth_error l i) as [a|] eqn:A; [|apply nth_error_None in A; lia].
  destruct (nth_error l (S i)) as [b|] eqn:B; [|apply nth_error_None in B; lia].
  exists i, a, b. rewrite (D i a b A B) in I. split; auto. split; auto. congruence.
Qed.
Lemma in_steps l ds i a b : steps l ds -> nth_error l i = Some a -> nth_error l (S i) = Some b -> In (Rabs (b - a)) ds.
Proof. intros [L D] A B. eapply nth_error_In. apply (D i a b A B). Qed.

(** *** The check *)

Lemma trunc_iff x n : (0 <= x)%R -> trunc x = n <-> (IZR n <= x < IZR n + 1)%R.
Proof.
  intros P. split.
  - intros <-. unfold trunc. destruct (Rle_dec 0 x); [|lra]. destruct (base_Int_part x). split; lra.
  - intros H. apply trunc_pos; auto. assert (IZR (-1) < IZR n)%R by lra. apply lt_IZR in H0. lia.
Qed.

Theorem check_iff b d : check_data b d = Ok tt <->
  (0 < b)%R /\ (exists ds, steps (d_x d) ds /\ least ds b) /\ (exists ds, steps (d_y d) ds /\ largest ds b) /\
  span_fits b (d_cols d) (d_x d) /\ span_fits b (d_rows d) (d_y d).
Proof.
  split.
  - unfold check_data. destruct (min_of (abs_diffs (d_x d))) as [bx|] eqn:BX; cbn [bind]; [|discriminate].
    destruct (max_of (abs_diffs (d_y d))) as [bby|] eqn:BY; cbn [bind]; [|discriminate].
    destruct (Req_EM_T bx bby) as [E1|]; [|discriminate]. destruct (Req_EM_T bby b) as [E2|]; [|discriminate].
    destruct (max_of (d_x d)) as [x1|] eqn:X1; cbn [bind]; [|discriminate].
    destruct (min_of (d_x d)) as [x0|] eqn:X0; cbn [bind]; [|discriminate].
    destruct (max_of (d_y d)) as [y1|] eqn:Y1; cbn [bind]; [|discriminate].
    destruct (min_of (d_y d)) as [y0|] eqn:Y0; cbn [bind]; [|discriminate].
    destruct (Req_EM_T b 0) as [|NZ]; [discriminate|]. destruct (_ && _) eqn:T; [|discriminate]. intros _.
    apply andb_true_iff in T as [T1 T2]. apply Z.eqb_eq in T1, T2.
    apply min_of_iff in BX, X0, Y0. apply max_of_iff in BY, X1, Y1.
    assert (PB : (0 < b)%R).
    { destruct BX as [I _]. destruct (steps_in _ _ _ (abs_diffs_steps (d_x d)) I) as (i & a & c & _ & _ & E).
      pose proof (Rabs_pos (c - a)). lra. }
    assert (Q : forall lo hi l, least l lo -> largest l hi -> (0 <= (hi - lo) / b + 1)%R).
    { intros lo hi l [I _] [_ H]. specialize (H lo I). assert (0 <= (hi - lo) / b)%R; [|lra].
      apply Rmult_le_pos; [lra|]. apply Rlt_le, Rinv_0_lt_compat; auto. }
    rewrite E2 in E1. subst bx bby. split; auto. split; [|split; [|split]].
    + exists (abs_diffs (d_x d)). split; auto. apply abs_diffs_steps.
    + exists (abs_diffs (d_y d)). split; auto. apply abs_diffs_steps.
    + exists x0, x1. split; auto. split; auto. apply trunc_iff; eauto.
    + exists y0, y1. split; auto. split; auto. apply trunc_iff; eauto.
  - intros (PB & (ds & S1 & L1) & (es & S2 & L2) & (x0 & x1 & X0 & X1 & XS) & (y0 & y1 & Y0 & Y1 & YS)).
    rewrite (steps_unique _ _ _ S1 (abs_diffs_steps _)) in L1. rewrite (steps_unique _ _ _ S2 (abs_diffs_steps _)) in L2.
    apply min_of_iff in L1, X0, Y0. apply max_of_iff in L2, X1, Y1.
    unfold check_data. rewrite L1, L2, X0, X1, Y0, Y1. cbn [bind].
    destruct (Req_EM_T b b); [|congruence]. destruct (Req_EM_T b 0); [lra|].
    assert (Q : forall n x, (IZR n <= x < IZR n + 1)%R -> (1 <= x)%R -> trunc x =? n = true).
    { intros k x H P. apply Z.eqb_eq, trunc_iff; auto. lra. }
    apply min_of_iff in X0, Y0. apply max_of_iff in X1, Y1.
    assert (P : forall lo hi l, least l lo -> largest l hi -> (1 <= (hi - lo) / b + 1)%R).
    { intros lo hi l [I _] [_ H]. specialize (H lo I). assert (0 <= (hi - lo) / b)%R; [|lra].
      apply Rmult_le_pos; [lra|]. apply Rlt_le, Rinv_0_lt_compat; auto. }
    rewrite !Q; eauto.
Qed.
Lemma check_error b d : check_data b d = Ok tt \/ check_data b d = Err ValueError.
Proof.
  unfold check_data.
  assert (M : forall l, (exists m, min_of l = Ok m) \/ min_of l = Err ValueError) by (intros [|a l]; [now right|left; cbn; eauto]).
  assert (N : forall l, (exists m, max_of l = Ok m) \/ max_of l = Err ValueError) by (intros [|a l]; [now right|left; cbn; eauto]).
  destruct (M (abs_diffs (d_x d))) as [(? & ->)| ->]; cbn [bind]; auto.
  destruct (N (abs_diffs (d_y d))) as [(? & ->)| ->]; cbn [bind]; auto.
  destruct (Req_EM_T _ _); auto. destruct (Req_EM_T _ _); auto.
  destruct (N (d_x d)) as [(? & ->)| ->]; cbn [bind]; auto. destruct (M (d_x d)) as [(? & ->)| ->]; cbn [bind]; auto.
  destruct (N (d_y d)) as [(? & ->)| ->]; cbn [bind]; auto. destruct (M (d_y d)) as [(? & ->)| ->]; cbn [bind]; auto.
  destruct (Req_EM_T _ _); auto. destruct (_ && _); auto.
Qed.

(** *** Regular rasters *)
Lemma index_split i nx ny : 0 < nx -> 0 <= i < ny * nx -> 0 <= i mod nx < nx /\ 0 <= i / nx < ny /\ i = i / nx * nx + i mod nx.
Proof.
  intros X I. split; [apply Z.mod_pos_bound; lia|]. split.
  - split; [apply Z.div_pos; lia|]. apply Z.div_lt_upper_bound; lia.
  - rewrite (Z.div_mod i nx) at 1 by lia. lia.
Qed.
Lemma at_index {A} (l : list A) nx ny (F : Z -> Z -> A) i : 0 < nx -> 0 <= i < ny * nx ->
  (forall c r, 0 <= c < nx -> 0 <= r < ny -> at_pixel l nx c r = Some (F c r)) ->
  nth_error l (Z.to_nat i) = Some (F (i mod nx) (i / nx)).
Proof.
  intros X I H. destruct (index_split i nx ny X I) as (C & Rr & E).
  specialize (H _ _ C Rr). unfold at_pixel in H. rewrite <- E in H. exact H.
Qed.
Lemma next_index i nx : 0 < nx -> 0 <= i ->
  (i mod nx + 1 < nx /\ (i + 1) mod nx = i mod nx + 1 /\ (i + 1) / nx = i / nx) \/
  (i mod nx + 1 = nx /\ (i + 1) mod nx = 0 /\ (i + 1) / nx = i / nx + 1).
Proof.
  intros X I. pose proof (Z.mod_pos_bound i nx X). pose proof (Z.div_mod i nx ltac:(lia)).
  destruct (Z.eq_dec (i mod nx + 1) nx) as [E|E]; [right|left].
  - split; auto. assert (i + 1 = (i / nx + 1) * nx + 0) by nia. split.
    + rewrite H1, Z.add_0_r, Z_mod_mult. reflexivity.
    + rewrite H1, Z.add_0_r, Z_div_mult by lia. reflexivity.
  - split; [lia|]. assert (i + 1 = (i mod nx + 1) + i / nx * nx) by nia. split.
    + rewrite H1, Z_mod_plus_full. apply Z.mod_small. lia.
    + rewrite H1, Z_div_plus_full by lia. rewrite Z.div_small by lia. lia.
Qed.
Lemma raster_steps (l : list R) nx ny F : 0 < nx -> Z.of_nat (List.length l) = ny * nx ->
  (forall c r, 0 <= c < nx -> 0 <= r < ny -> at_pixel l nx c r = Some (F c r)) ->
  forall ds, steps l ds -> forall d, In d ds <->
    (exists c r, 0 <= c /\ c + 1 < nx /\ 0 <= r < ny /\ d = Rabs (F (c + 1) r - F c r)) \/
    (exists r, 0 <= r /\ r + 1 < ny /\ d = Rabs (F 0 (r + 1) - F (nx - 1) r)).
Proof.
  intros X L H ds ST d. split.
  - intros I. destruct (steps_in _ _ _ ST I) as (i & a & b & A & B & ->).
    assert (N : (S i < List.length l)%nat) by (apply nth_error_Some; congruence).
    set (k := Z.of_nat i). assert (K : 0 <= k /\ k + 1 < ny * nx) by lia.
    replace i with (Z.to_nat k) in A by lia. replace (Datatypes.S i) with (Z.to_nat (k + 1)) in B by lia.
    rewrite (at_index l nx ny F) in A by (auto; lia). rewrite (at_index l nx ny F) in B by (auto; lia).
    destruct (index_split k nx ny X ltac:(lia)) as (C & Rr & _). destruct (index_split (k + 1) nx ny X ltac:(lia)) as (C' & R' & _).
    destruct (next_index k nx X ltac:(lia)) as [(E1 & E2 & E3)|(E1 & E2 & E3)]; rewrite E2, E3 in B.
    + left. exists (k mod nx), (k / nx). split; [lia|]. split; [lia|]. split; [lia|]. congruence.
    + right. exists (k / nx). split; [lia|]. split; [lia|]. replace (nx - 1) with (k mod nx) by lia. congruence.
  - intros [(c & r & C & C' & Rr & ->)|(r & Rr & R' & ->)].
    + apply (in_steps l ds (Z.to_nat (r * nx + c))); auto.
      * apply H; lia.
      * pose proof (H (c + 1) r ltac:(lia) Rr) as E. unfold at_pixel in E.
        replace (Datatypes.S (Z.to_nat (r * nx + c))) with (Z.to_nat (r * nx + (c + 1))) by nia. exact E.
    + apply (in_steps l ds (Z.to_nat (r * nx + (nx - 1)))); auto.
      * apply H; lia.
      * pose proof (H 0 (r + 1) ltac:(lia) ltac:(lia)) as E. unfold at_pixel in E.
        replace (Datatypes.S (Z.to_nat (r * nx + (nx - 1)))) with (Z.to_nat ((r + 1) * nx + 0)) by nia. exact E.
Qed.
Lemma raster_in {A} (l : list A) nx ny F : 0 < nx -> Z.of_nat (List.length l) = ny * nx ->
  (forall c r, 0 <= c < nx -> 0 <= r < ny -> at_pixel l nx c r = Some (F c r)) ->
  forall a, In a l <-> exists c r, 0 <= c < nx /\ 0 <= r < ny /\ a = F c r.
Proof.
  intros X L H a. split.
  - intros I. apply In_nth_error in I as (i & I). assert (N : (i < List.length l)%nat) by (apply nth_error_Some; congruence).
    replace i with (Z.to_nat (Z.of_nat i)) in I by lia. rewrite (at_index l nx ny F) in I by (auto; lia).
    destruct (index_split (Z.of_nat i) nx ny X ltac:(lia)) as (C & Rr & _).
    exists (Z.of_nat i mod nx), (Z.of_nat i / nx). split; auto. split; auto. congruence.
  - intros (c & r & C & Rr & ->). eapply nth_error_In. exact (H c r C Rr).
Qed.

Lemma raster_least_x b x0 nx ny (l : list R) ds : (0 < b)%R -> 2 <= nx -> 1 <= ny -> Z.of_nat (List.length l) = ny * nx ->
  (forall c r, 0 <= c < nx -> 0 <= r < ny -> at_pixel l nx c r = Some (x0 + IZR c * b)%R) ->
  steps l ds -> least ds b.
Proof.
  intros B X Y L H S. pose proof (raster_steps l nx ny (fun c r => x0 + IZR c * b)%R ltac:(lia) L H ds S) as RS.
  assert (A : forall c, Rabs (x0 + IZR (c + 1) * b - (x0 + IZR c * b)) = b).
  { intros c. rewrite plus_IZR. replace (x0 + (IZR c + 1) * b - (x0 + IZR c * b))%R with b by lra. apply Rabs_right; lra. }
  split.
  - apply RS. left. exists 0, 0. split; [lia|]. split; [lia|]. split; [lia|]. symmetry. apply A.
  - intros d I. apply RS in I as [(c & r & _ & _ & _ & ->)|(r & _ & _ & ->)].
    + rewrite A. lra.
    + cbn beta. replace (x0 + 0 * b - (x0 + IZR (nx - 1) * b))%R with (- (IZR (nx - 1) * b))%R by lra.
      rewrite Rabs_Ropp. assert (1 <= IZR (nx - 1))%R by (apply IZR_le; lia). rewrite Rabs_right by nra. nra.
Qed.
Lemma raster_largest_y b y0 down nx ny (l : list R) ds : (0 < b)%R -> 1 <= nx -> 2 <= ny -> Z.of_nat (List.length l) = ny * nx ->
  (forall c r, 0 <= c < nx -> 0 <= r < ny -> at_pixel l nx c r = Some (y_at down b y0 ny r)) ->
  steps l ds -> largest ds b.
Proof.
  intros B X Y L H S. pose proof (raster_steps l nx ny (fun c r => y_at down b y0 ny r) ltac:(lia) L H ds S) as RS.
  assert (A : forall r, Rabs (y_at down b y0 ny (r + 1) - y_at down b y0 ny r) = b).
  { intros r. unfold y_at. destruct down.
    - rewrite plus_IZR. replace (y0 + (IZR r + 1) * b - (y0 + IZR r * b))%R with b by lra. apply Rabs_right; lra.
    - replace (ny - 1 - r) with (ny - 1 - (r + 1) + 1) by lia. set (k := ny - 1 - (r + 1)). rewrite plus_IZR.
      replace (y0 + IZR k * b - (y0 + (IZR k + 1) * b))%R with (- b)%R by lra. rewrite Rabs_Ropp. apply Rabs_right; lra. }
  split.
  - apply RS. right. exists 0. split; [lia|]. split; [lia|]. symmetry. apply A.
  - intros d I. apply RS in I as [(c & r & _ & _ & _ & ->)|(r & _ & _ & ->)].
    + cbn beta. rewrite Rminus_diag_eq by reflexivity. rewrite Rabs_R0. lra.
    + rewrite A. lra.
Qed.
Lemma raster_span b v0 n m nx ny (l : list R) (g : Z -> Z -> Z) : (0 < b)%R -> 1 <= nx -> 1 <= ny -> 1 <= n -> m = n - 1 ->
  Z.of_nat (List.length l) = ny * nx ->
  (forall c r, 0 <= c < nx -> 0 <= r < ny -> at_pixel l nx c r = Some (v0 + IZR (g c r) * b)%R) ->
  (forall c r, 0 <= c < nx -> 0 <= r < ny -> 0 <= g c r <= m) ->
  (exists c r, 0 <= c < nx /\ 0 <= r < ny /\ g c r = 0) -> (exists c r, 0 <= c < nx /\ 0 <= r < ny /\ g c r = m) ->
  span_fits b n l.
Proof.
  intros B X Y N -> L H G (c0 & r0 & C0 & R0 & E0) (c1 & r1 & C1 & R1 & E1).
  pose proof (raster_in l nx ny (fun c r => v0 + IZR (g c r) * b)%R ltac:(lia) L H) as RI.
  exists v0, (v0 + IZR (n - 1) * b)%R. split; [|split].
  - split.
    + apply RI. exists c0, r0. split; auto. split; auto. rewrite E0. lra.
    + intros x I. apply RI in I as (c & r & C & Rr & ->). destruct (G c r C Rr) as [P _]. apply IZR_le in P. nra.
  - split.
    + apply RI. exists c1, r1. split; auto. split; auto. now rewrite E1.
    + intros x I. apply RI in I as (c & r & C & Rr & ->). destruct (G c r C Rr) as [_ P]. apply IZR_le in P. nra.
  - rewrite minus_IZR. replace ((v0 + (IZR n - 1) * b - v0) / b + 1)%R with (IZR n) by (field; lra). lra.
Qed.

Theorem raster_accepted down b x0 y0 d : (0 < b)%R -> 2 <= d_rows d -> 2 <= d_cols d -> raster_map down b x0 y0 d ->
  check_data b d = Ok tt.
Proof.
  intros B Y X (LX & LY & H). apply check_iff. split; auto. split; [|split; [|split]].
  - exists (abs_diffs (d_x d)). split; [apply abs_diffs_steps|].
    apply (raster_least_x b x0 (d_cols d) (d_rows d) (d_x d)); auto; try lia.
    + intros c r C Rr. apply H; auto.
    + apply abs_diffs_steps.
  - exists (abs_diffs (d_y d)). split; [apply abs_diffs_steps|].
    apply (raster_largest_y b y0 down (d_cols d) (d_rows d) (d_y d)); auto; try lia.
    + intros c r C Rr. apply H; auto.
    + apply abs_diffs_steps.
  - apply (raster_span b x0 (d_cols d) (d_cols d - 1) (d_cols d) (d_rows d) (d_x d) (fun c r => c)); auto; try lia.
    + intros c r C Rr. apply H; auto.
    + exists 0, 0. lia.
    + exists (d_cols d - 1), 0. lia.
  - apply (raster_span b y0 (d_rows d) (d_rows d - 1) (d_cols d) (d_rows d) (d_y d) (fun c r => if down then r else d_rows d - 1 - r)); auto; try lia.
    + intros c r C Rr. apply H; auto.
    + intros c r C Rr. destruct down; lia.
    + destruct down; [exists 0, 0|exists 0, (d_rows d - 1)]; lia.
    + destruct down; [exists 0, (d_rows d - 1)|exists 0, 0]; lia.
Qed.
Theorem raster_rejected down b x0 y0 d : (0 < b)%R -> d_rows d = 1 \/ d_cols d = 1 -> 1 <= d_rows d -> 1 <= d_cols d ->
  raster_map down b x0 y0 d -> check_data b d = Err ValueError.
Proof.
  intros B O Y X (LX & LY & H). destruct (check_error b d) as [E|E]; auto. exfalso. apply check_iff in E.
  destruct E as (_ & (ds & S1 & L1 & _) & (es & S2 & L2 & _) & _).
  assert (HX := raster_steps (d_x d) (d_cols d) (d_rows d) _ ltac:(lia) LX (fun c r C Rr => proj1 (H c r C Rr)) ds S1 b).
  assert (HY := raster_steps (d_y d) (d_cols d) (d_rows d) _ ltac:(lia) LY (fun c r C Rr => proj2 (H c r C Rr)) es S2 b).
  cbn beta in HX, HY.
  destruct O as [O|O].
  - apply HY in L2 as [(c & r & _ & _ & _ & E)|(r & P & Q & _)]; [|lia].
    rewrite Rminus_diag_eq in E by reflexivity. rewrite Rabs_R0 in E. lra.
  - apply HX in L1 as [(c & r & P & Q & _)|(r & _ & _ & E)]; [lia|]. rewrite O in E.
    replace (x0 + IZR 0 * b - (x0 + IZR (1 - 1) * b))%R with 0%R in E by (cbn; lra). rewrite Rabs_R0 in E. lra.
Qed.
