(** The grid loaders. *)
From Coq Require Import String Ascii Reals.
From Coq Require Import List ZArith Bool Lia Lra.
Import ListNotations.
From Verif Require Import Py Grid Grid_Lemmas Base_Model Base_Proofs Text_Model Ctf_Model Ctf_Spec Io_Model Io_Spec IoText_Proofs IoDic_Proofs.
Open Scope Z_scope.

(** *** Integers as reals *)
Lemma abs_diffs_IZR l : abs_diffs (map IZR l) = map IZR (z_abs_diffs l).
Proof.
  induction l as [|a [|b l] IH]; [reflexivity..|]. cbn [map abs_diffs z_abs_diffs] in *.
  rewrite IH. f_equal. rewrite abs_IZR, minus_IZR. reflexivity.
Qed.
Lemma min_of_IZR l m : z_min_of l = Ok m <-> least (map IZR l) (IZR m).
Proof.
  rewrite <- min_of_iff. destruct l as [|a l]; cbn [z_min_of min_of map]; [split; discriminate|].
  assert (E : fold_left Rmin (map IZR l) (IZR a) = IZR (fold_left Z.min l a)).
  { revert a. induction l as [|b l IH]; intros a; cbn [map fold_left]; [reflexivity|]. rewrite <- IH. f_equal.
    unfold Rmin. destruct (Rle_dec (IZR a) (IZR b)) as [H|H].
    - apply le_IZR in H. f_equal. lia.
    - f_equal. assert (~ a <= b) by (intros K; apply H, IZR_le, K). lia. }
  rewrite E. split; intros H; [f_equal; f_equal|f_equal]; [congruence|]. apply eq_IZR. congruence.
Qed.
Lemma max_of_IZR l m : z_max_of l = Ok m <-> largest (map IZR l) (IZR m).
Proof.
  rewrite <- max_of_iff. destruct l as [|a l]; cbn [z_max_of max_of map]; [split; discriminate|].
  assert (E : fold_left Rmax (map IZR l) (IZR a) = IZR (fold_left Z.max l a)).
  { revert a. induction l as [|b l IH]; intros a; cbn [map fold_left]; [reflexivity|]. rewrite <- IH. f_equal.
    unfold Rmax. destruct (Rle_dec (IZR a) (IZR b)) as [H|H].
    - apply le_IZR in H. f_equal. lia.
    - f_equal. assert (~ a <= b) by (intros K; apply H, IZR_le, K). lia. }
  rewrite E. split; intros H; [f_equal; f_equal|f_equal]; [congruence|]. apply eq_IZR. congruence.
Qed.
Lemma z_least l m : z_min_of l = Ok m <-> In m l /\ forall x, In x l -> m <= x.
Proof.
  rewrite min_of_IZR. split; intros [I H]; split.
  - apply in_map_iff in I as (k & E & I). apply eq_IZR in E. congruence.
  - intros x X. apply le_IZR, H, in_map, X.
  - apply in_map, I.
  - intros x X. apply in_map_iff in X as (k & <- & K). apply IZR_le; auto.
Qed.
Lemma z_largest l m : z_max_of l = Ok m <-> In m l /\ forall x, In x l -> x <= m.
Proof.
  rewrite max_of_IZR. split; intros [I H]; split.
  - apply in_map_iff in I as (k & E & I). apply eq_IZR in E. congruence.
  - intros x X. apply le_IZR, H, in_map, X.
  - apply in_map, I.
  - intros x X. apply in_map_iff in X as (k & <- & K). apply IZR_le; auto.
Qed.
Lemma z_steps_in l d : In d (z_abs_diffs l) -> exists a b, In a l /\ In b l /\ d = Z.abs (b - a).
Proof.
  induction l as [|a [|b l] IH]; cbn [z_abs_diffs]; [intros []..|].
  intros [<-|I]; [exists a, b; split; [now left|]; split; [right; now left|reflexivity]|].
  destruct (IH I) as (x & y & X & Y & E). exists x, y. split; [now right|]. split; [now right|auto].
Qed.

(** *** Writing into the dense array *)
Lemma set_at_length {A} n (v : A) l : List.length (set_at n v l) = List.length l.
Proof. revert n; induction l as [|a l IH]; intros [|n]; cbn [set_at List.length]; auto. Qed.
Lemma set_at_nth {A} n (v : A) l k : nth_error (set_at n v l) k =
  if (k =? n)%nat then (if (k <? List.length l)%nat then Some v else None) else nth_error l k.
Proof.
  revert n k; induction l as [|a l IH]; intros n k; cbn [set_at List.length].
  - destruct n; cbn [set_at]; destruct k; cbn [nth_error Nat.eqb]; try reflexivity; destruct (_ =? _)%nat; reflexivity.
  - destruct n as [|n], k as [|k]; cbn [set_at nth_error Nat.eqb]; try reflexivity. rewrite IH. reflexivity.
Qed.
Lemma fold_set {B} (idx : B -> nat) (val : B -> R) rows : forall (a : list R) k v, nth_error a k = Some v ->
  nth_error (fold_left (fun a r => set_at (idx r) (val r) a) rows a) k =
  Some (fold_left (fun w r => if (k =? idx r)%nat then val r else w) rows v).
Proof.
  induction rows as [|r rows IH]; intros a k v A; cbn [fold_left]; [exact A|]. apply IH. rewrite set_at_nth.
  destruct (k =? idx r)%nat; auto. assert (k < List.length a)%nat by (apply nth_error_Some; congruence).
  apply Nat.ltb_lt in H. now rewrite H.
Qed.
Lemma fold_set_length {B} (idx : B -> nat) (val : B -> R) rows : forall (a : list R),
  List.length (fold_left (fun a r => set_at (idx r) (val r) a) rows a) = List.length a.
Proof. induction rows as [|r rows IH]; intros a; cbn [fold_left]; auto. rewrite IH. apply set_at_length. Qed.
Lemma fold_last {B} (p : B -> bool) (val : B -> R) before r after v : p r = true -> (forall x, In x after -> p x = false) ->
  fold_left (fun w r => if p r then val r else w) (before ++ r :: after) v = val r.
Proof.
  intros P N. rewrite fold_left_app. cbn [fold_left]. rewrite P.
  generalize (val r). induction after as [|x after IH]; intros w; cbn [fold_left]; [reflexivity|].
  rewrite (N x (or_introl eq_refl)). apply IH. intros; apply N; now right.
Qed.
Lemma fold_none {B} (p : B -> bool) (val : B -> R) rows v : (forall x, In x rows -> p x = false) ->
  fold_left (fun w r => if p r then val r else w) rows v = v.
Proof.
  induction rows as [|x rows IH]; intros N; cbn [fold_left]; [reflexivity|]. rewrite (N x (or_introl eq_refl)). apply IH.
  intros; apply N; now right.
Qed.

Lemma in_cell_iff b x0 y0 c r w : 0 < b -> in_cell b x0 y0 c r w <-> (pv_x w - x0) / b = c /\ (pv_y w - y0) / b = r.
Proof.
  intros B. assert (D : forall k q, k / b = q <-> q * b <= k < (q + 1) * b).
  { intros k q. split.
    - intros <-. pose proof (Z.div_mod k b ltac:(lia)). pose proof (Z.mod_pos_bound k b B). nia.
    - intros H. symmetry. apply (Z.div_unique_pos k b q (k - q * b)); lia. }
  rewrite !D. unfold in_cell. lia.
Qed.

(** The rectangle of the rows. *)
Definition box (rows : list pv_row) (x0 x1 y0 y1 : Z) : Prop :=
  z_min_of (map pv_x rows) = Ok x0 /\ z_max_of (map pv_x rows) = Ok x1 /\
  z_min_of (map pv_y rows) = Ok y0 /\ z_max_of (map pv_y rows) = Ok y1.
Definition pv_data (b x0 x1 y0 y1 : Z) (rows : list pv_row) : dic_data :=
  let ny := (y1 - y0) / b + 1 in let nx := (x1 - x0) / b + 1 in
  DicData ny nx (grid_x b x0 ny nx) (grid_y b y0 ny nx) (dense b x0 y0 ny nx pv_u rows) (dense b x0 y0 ny nx pv_v rows).

Lemma pv_grid b x0 x1 y0 y1 rows : 0 < b -> x0 <= x1 -> y0 <= y1 ->
  on_grid_map (IZR b) (IZR x0) (IZR y0) (pv_data b x0 x1 y0 y1 rows).
Proof.
  intros B X Y. unfold pv_data. set (ny := (y1 - y0) / b + 1). set (nx := (x1 - x0) / b + 1).
  assert (NX : 1 <= nx) by (unfold nx; pose proof (Z.div_pos (x1 - x0) b); lia).
  assert (NY : 1 <= ny) by (unfold ny; pose proof (Z.div_pos (y1 - y0) b); lia).
  clearbody nx ny. cbv zeta. unfold on_grid_map. cbn [d_x d_y d_rows d_cols].
  split; [|split].
  - unfold grid_x. rewrite map_length, zseq_length. lia.
  - unfold grid_y. rewrite map_length, zseq_length. lia.
  - intros c r C Rr. unfold at_pixel, grid_x, grid_y.
    assert (K : (Z.to_nat (r * nx + c) < Z.to_nat (ny * nx))%nat) by (apply Z2Nat.inj_lt; nia).
    assert (Z : Z.of_nat (Z.to_nat (r * nx + c)) = r * nx + c) by (apply Z2Nat.id; nia).
    split.
    + rewrite (map_nth_error (fun i => IZR (x0 + i mod nx * b)) _ _ (zseq_nth_error 0 _ _ K)), Z. f_equal. rewrite Z.add_0_l.
      replace (r * nx + c) with (c + r * nx) by lia. rewrite Z_mod_plus_full, Z.mod_small by lia. rewrite plus_IZR, mult_IZR. reflexivity.
    + rewrite (map_nth_error (fun i => IZR (y0 + i / nx * b)) _ _ (zseq_nth_error 0 _ _ K)), Z. f_equal. rewrite Z.add_0_l.
      replace (r * nx + c) with (c + r * nx) by lia. rewrite Z_div_plus_full, Z.div_small, Z.add_0_l by lia. rewrite plus_IZR, mult_IZR. reflexivity.
Qed.
Lemma grid_raster b x0 y0 d : on_grid_map b x0 y0 d <-> raster_map true b x0 y0 d.
Proof. reflexivity. Qed.

Theorem pyvale_iff ft rows b d : load_pyvale ft rows = Ok (b, d) <->
  (ft = lit "csv" \/ ft = lit "binary") /\ 0 < b /\
  z_min_of (z_abs_diffs (map pv_x rows)) = Ok b /\ z_max_of (z_abs_diffs (map pv_y rows)) = Ok b /\
  exists x0 x1 y0 y1, box rows x0 x1 y0 y1 /\ (b | x1 - x0) /\ (b | y1 - y0) /\ d = pv_data b x0 x1 y0 y1 rows.
Proof.
  assert (T : (txt_eqb ft (lit "csv") || txt_eqb ft (lit "binary")) = true <-> (ft = lit "csv" \/ ft = lit "binary")).
  { rewrite orb_true_iff, !txt_eqb_eq. tauto. }
  unfold load_pyvale. destruct (txt_eqb ft (lit "csv") || txt_eqb ft (lit "binary")) eqn:F; cbn [negb].
  2:{ split; [discriminate|]. intros (H & _). apply T in H. discriminate. }
  pose proof (proj1 T eq_refl) as FT. clear T F.
  destruct (z_min_of (z_abs_diffs (map pv_x rows))) as [bx|e] eqn:BX; cbn [bind].
  2:{ split; [discriminate|]. intros (_ & _ & H & _). discriminate. }
  destruct (z_max_of (z_abs_diffs (map pv_y rows))) as [bby|e] eqn:BY; cbn [bind].
  2:{ split; [discriminate|]. intros (_ & _ & _ & H & _). discriminate. }
  destruct (Z.eqb_spec bx bby) as [->|NE]; cbn [negb].
  2:{ split; [discriminate|]. intros (_ & _ & H1 & H2 & _). congruence. }
  destruct (z_min_of (map pv_x rows)) as [x0|e] eqn:X0; cbn [bind].
  2:{ split; [discriminate|]. intros (_ & _ & _ & _ & ? & ? & ? & ? & (H & _) & _). congruence. }
  destruct (z_max_of (map pv_x rows)) as [x1|e] eqn:X1; cbn [bind].
  2:{ split; [discriminate|]. intros (_ & _ & _ & _ & ? & ? & ? & ? & (_ & H & _) & _). congruence. }
  destruct (z_min_of (map pv_y rows)) as [y0|e] eqn:Y0; cbn [bind].
  2:{ split; [discriminate|]. intros (_ & _ & _ & _ & ? & ? & ? & ? & (_ & _ & H & _) & _). congruence. }
  destruct (z_max_of (map pv_y rows)) as [y1|e] eqn:Y1; cbn [bind].
  2:{ split; [discriminate|]. intros (_ & _ & _ & _ & ? & ? & ? & ? & (_ & _ & _ & H) & _). congruence. }
  pose proof (proj1 (z_least _ _) BX) as [IX _]. destruct (z_steps_in _ _ IX) as (xa & xb & XA & XB & EX).
  pose proof (proj1 (z_largest _ _) BY) as [IY _]. destruct (z_steps_in _ _ IY) as (ya & yb & YA & YB & EY).
  pose proof (proj1 (z_least _ _) X0) as [_ X0']. pose proof (proj1 (z_largest _ _) X1) as [_ X1'].
  pose proof (proj1 (z_least _ _) Y0) as [_ Y0']. pose proof (proj1 (z_largest _ _) Y1) as [_ Y1'].
  pose proof (X0' _ XA). pose proof (X0' _ XB). pose proof (X1' _ XA). pose proof (X1' _ XB).
  pose proof (Y0' _ YA). pose proof (Y0' _ YB). pose proof (Y1' _ YA). pose proof (Y1' _ YB).
  destruct (Z.eqb_spec bby 0) as [->|NZ].
  { split; [discriminate|]. intros (_ & B & H7 & _). assert (0 = b) by congruence. lia. }
  assert (B : 0 < bby) by lia.
  assert (M : ((y1 - y0) mod bby =? 0) && ((x1 - x0) mod bby =? 0) = true <-> (bby | x1 - x0) /\ (bby | y1 - y0)).
  { rewrite andb_true_iff, !Z.eqb_eq, !Z.mod_divide by lia. tauto. }
  destruct (((y1 - y0) mod bby =? 0) && ((x1 - x0) mod bby =? 0)) eqn:MM; cbn [negb].
  - destruct (proj1 M eq_refl) as [M1 M2].
    fold (pv_data bby x0 x1 y0 y1 rows). rewrite (raster_accepted true (IZR bby) (IZR x0) (IZR y0)).
    + cbn [bind]. split.
      * intros E. injection E as <- <-. split; auto. split; auto. split; auto. split; auto.
        exists x0, x1, y0, y1. unfold box. tauto.
      * intros (_ & _ & E & _ & x0' & x1' & y0' & y1' & (A1 & A2 & A3 & A4) & _ & _ & ->). congruence.
    + apply IZR_lt; lia.
    + unfold pv_data. cbn [d_rows]. destruct M2 as [q Q]. rewrite Q, Z.div_mul by lia. nia.
    + unfold pv_data. cbn [d_cols]. destruct M1 as [q Q]. rewrite Q, Z.div_mul by lia. nia.
    + apply grid_raster, pv_grid; lia.
  - split; [discriminate|]. intros (_ & _ & E & _ & x0' & x1' & y0' & y1' & (A1 & A2 & A3 & A4) & D1 & D2 & _).
    assert (b = bby) as -> by congruence. assert (x0' = x0) as -> by congruence. assert (x1' = x1) as -> by congruence.
    assert (y0' = y0) as -> by congruence. assert (y1' = y1) as -> by congruence. assert (false = true) by tauto. discriminate.
Qed.

Lemma dense_at b x0 y0 ny nx val rows c r : 0 < b -> 0 <= c < nx -> 0 <= r < ny ->
  (forall w, In w rows -> x0 <= pv_x w /\ (pv_x w - x0) / b < nx /\ y0 <= pv_y w) ->
  (forall before w after, rows = before ++ w :: after -> in_cell b x0 y0 c r w ->
     (forall x, In x after -> ~ in_cell b x0 y0 c r x) -> at_pixel (dense b x0 y0 ny nx val rows) nx c r = Some (val w)) /\
  ((forall w, In w rows -> ~ in_cell b x0 y0 c r w) -> at_pixel (dense b x0 y0 ny nx val rows) nx c r = Some 0%R).
Proof.
  intros B C Rr H. set (k := Z.to_nat (r * nx + c)).
  set (idx := fun w => Z.to_nat ((pv_y w - y0) / b * nx + (pv_x w - x0) / b)).
  assert (P : forall w, In w rows -> (k =? idx w)%nat = true <-> in_cell b x0 y0 c r w).
  { intros w I. rewrite in_cell_iff by auto. destruct (H w I) as (H1 & H2 & H3).
    pose proof (Z.div_pos (pv_x w - x0) b ltac:(lia) B). pose proof (Z.div_pos (pv_y w - y0) b ltac:(lia) B).
    rewrite Nat.eqb_eq. unfold k, idx. split; [|intros [-> ->]; reflexivity].
    intros E. apply Z2Nat.inj in E; [|nia|nia].
    assert ((pv_y w - y0) / b = r).
    { assert (r * nx + c < (r + 1) * nx) by nia. set (p := (pv_x w - x0) / b) in *. set (q := (pv_y w - y0) / b) in *. nia. }
    subst r. split; [lia|reflexivity]. }
  assert (A : at_pixel (dense b x0 y0 ny nx val rows) nx c r =
    Some (fold_left (fun w x => if (k =? idx x)%nat then val x else w) rows 0%R)).
  { unfold at_pixel. fold k. unfold dense. apply (fold_set idx val). apply nth_error_repeat. unfold k. apply Z2Nat.inj_lt; nia. }
  rewrite A. split.
  - intros before w after -> IC NC. f_equal. apply (fold_last (fun x => (k =? idx x)%nat)).
    + apply P; auto. apply in_app_iff. right. now left.
    + intros x I. destruct (k =? idx x)%nat eqn:E; auto. exfalso. apply (NC x I), P; auto. apply in_app_iff. right. now right.
  - intros N. f_equal. apply (fold_none (fun x => (k =? idx x)%nat)).
    intros x I. destruct (k =? idx x)%nat eqn:E; auto. exfalso. apply (N x I), P; auto.
Qed.

Lemma box_bounds rows x0 x1 y0 y1 w : box rows x0 x1 y0 y1 -> In w rows -> x0 <= pv_x w <= x1 /\ y0 <= pv_y w <= y1.
Proof.
  intros (A & B & C & D) I. apply z_least in A as [_ A], C as [_ C]. apply z_largest in B as [_ B], D as [_ D].
  pose proof (in_map pv_x _ _ I). pose proof (in_map pv_y _ _ I). split; split; auto.
Qed.
Lemma div_le_top b x0 x1 w : 0 < b -> w <= x1 -> (w - x0) / b < (x1 - x0) / b + 1.
Proof. intros B L. pose proof (Z.div_le_mono (w - x0) (x1 - x0) b B ltac:(lia)). lia. Qed.

Theorem pyvale_loaded ft rows b d : load_pyvale ft rows = Ok (b, d) -> 0 < b /\ exists x0 x1 y0 y1, box rows x0 x1 y0 y1 /\
  on_grid_map (IZR b) (IZR x0) (IZR y0) d /\ x1 = x0 + (d_cols d - 1) * b /\ y1 = y0 + (d_rows d - 1) * b /\
  forall c r, 0 <= c < d_cols d -> 0 <= r < d_rows d ->
    (forall before w after, rows = before ++ w :: after -> in_cell b x0 y0 c r w ->
       (forall x, In x after -> ~ in_cell b x0 y0 c r x) ->
       at_pixel (d_u d) (d_cols d) c r = Some (pv_u w) /\ at_pixel (d_v d) (d_cols d) c r = Some (pv_v w)) /\
    ((forall w, In w rows -> ~ in_cell b x0 y0 c r w) ->
       at_pixel (d_u d) (d_cols d) c r = Some 0%R /\ at_pixel (d_v d) (d_cols d) c r = Some 0%R).
Proof.
  intros E. apply pyvale_iff in E as (_ & B & _ & _ & x0 & x1 & y0 & y1 & BX & D1 & D2 & ->).
  assert (O : x0 <= x1 /\ y0 <= y1).
  { destruct BX as (A & A' & C & C'). apply z_least in A as [A _], C as [C _]. apply z_largest in A' as [_ A'], C' as [_ C']. auto. }
  split; auto. exists x0, x1, y0, y1. split; auto. split; [apply pv_grid; tauto|].
  split; [|split].
  - unfold pv_data. cbn [d_cols]. destruct D1 as [q Q]. rewrite Q, Z.div_mul by lia. lia.
  - unfold pv_data. cbn [d_rows]. destruct D2 as [q Q]. rewrite Q, Z.div_mul by lia. lia.
  - intros c r C Rr.
    assert (H : forall w, In w rows -> x0 <= pv_x w /\ (pv_x w - x0) / b < d_cols (pv_data b x0 x1 y0 y1 rows) /\ y0 <= pv_y w).
    { intros w I. destruct (box_bounds _ _ _ _ _ w BX I). split; [lia|]. split; [|lia]. apply div_le_top; lia. }
    unfold pv_data in *. cbn [d_cols d_rows d_u d_v] in *. split.
    + intros before w after RE IC NC. split.
      * apply (dense_at b x0 y0 _ _ pv_u rows c r B C Rr H) with before after; auto.
      * apply (dense_at b x0 y0 _ _ pv_v rows c r B C Rr H) with before after; auto.
    + intros N. split; apply (dense_at b x0 y0 _ _ _ rows c r B C Rr H); auto.
Qed.

(** A row on the grid, the last at its position and the only one of its cell otherwise. *)
Theorem pyvale_measured ft rows b d before w after : load_pyvale ft rows = Ok (b, d) -> rows = before ++ w :: after ->
  (forall x, In x rows -> (b | pv_x x - pv_x w) /\ (b | pv_y x - pv_y w)) ->
  (forall x, In x after -> (pv_x x, pv_y x) <> (pv_x w, pv_y w)) ->
  measured d (IZR (pv_x w)) (IZR (pv_y w)) (pv_u w) (pv_v w).
Proof.
  intros E RE G L. destruct (pyvale_loaded ft rows b d E) as (B & x0 & x1 & y0 & y1 & BX & GR & EX & EY & V).
  assert (I : In w rows) by (rewrite RE; apply in_app_iff; right; now left).
  destruct (box_bounds _ _ _ _ _ w BX I) as [WX WY].
  assert (DX : (b | pv_x w - x0)).
  { destruct BX as (A & _). apply z_least in A as [A _]. apply in_map_iff in A as (x & <- & A). destruct (G x A) as [K _].
    apply Z.divide_opp_r in K. replace (pv_x w - pv_x x) with (- (pv_x x - pv_x w)) by lia. auto. }
  assert (DY : (b | pv_y w - y0)).
  { destruct BX as (_ & _ & A & _). apply z_least in A as [A _]. apply in_map_iff in A as (x & <- & A). destruct (G x A) as [_ K].
    apply Z.divide_opp_r in K. replace (pv_y w - pv_y x) with (- (pv_y x - pv_y w)) by lia. auto. }
  destruct DX as [c C], DY as [r Rr].
  assert (CB : 0 <= c < d_cols d) by nia. assert (RB : 0 <= r < d_rows d) by nia.
  destruct (V c r CB RB) as [V1 _].
  assert (IC : in_cell b x0 y0 c r w) by (unfold in_cell; nia).
  assert (NC : forall x, In x after -> ~ in_cell b x0 y0 c r x).
  { intros x J K. apply (L x J). assert (JR : In x rows) by (rewrite RE; apply in_app_iff; right; now right).
    destruct (G x JR) as [[p P] [q Q]]. unfold in_cell in K.
    assert (p = 0) by nia. assert (q = 0) by nia. subst p q. f_equal; lia. }
  destruct (V1 before w after RE IC NC) as [U1 U2]. destruct GR as (_ & _ & GR). destruct (GR c r CB RB) as [G1 G2].
  exists c, r. split; auto. split; auto.
  split; [rewrite G1; f_equal; rewrite <- mult_IZR, <- plus_IZR; f_equal; lia|].
  split; [rewrite G2; f_equal; rewrite <- mult_IZR, <- plus_IZR; f_equal; lia|]. auto.
Qed.

(** *** Rasters *)
Theorem pyvale_raster ft rows b x0 y0 nx ny : ft = lit "csv" \/ ft = lit "binary" -> 0 < b -> 2 <= nx -> 2 <= ny ->
  raster_rows b x0 y0 nx ny rows ->
  exists d, load_pyvale ft rows = Ok (b, d) /\ d_cols d = nx /\ d_rows d = ny /\ on_grid_map (IZR b) (IZR x0) (IZR y0) d /\
    forall c r w, 0 <= c < nx -> 0 <= r < ny -> at_pixel rows nx c r = Some w ->
      at_pixel (d_u d) nx c r = Some (pv_u w) /\ at_pixel (d_v d) nx c r = Some (pv_v w).
Proof.
  intros F B X Y (L & H).
  assert (AX : forall c r, 0 <= c < nx -> 0 <= r < ny -> at_pixel (map IZR (map pv_x rows)) nx c r = Some (IZR x0 + IZR c * IZR b)%R).
  { intros c r C Rr. destruct (H c r C Rr) as (w & W & E & _). unfold at_pixel in *. rewrite map_map, (map_nth_error _ _ _ W).
    f_equal. rewrite E, plus_IZR, mult_IZR. reflexivity. }
  assert (AY : forall c r, 0 <= c < nx -> 0 <= r < ny -> at_pixel (map IZR (map pv_y rows)) nx c r = Some (y_at true (IZR b) (IZR y0) ny r)).
  { intros c r C Rr. destruct (H c r C Rr) as (w & W & _ & E). unfold at_pixel in *. rewrite map_map, (map_nth_error _ _ _ W).
    unfold y_at. f_equal. rewrite E, plus_IZR, mult_IZR. reflexivity. }
  assert (LX : Z.of_nat (List.length (map IZR (map pv_x rows))) = ny * nx) by (rewrite !map_length; auto).
  assert (LY : Z.of_nat (List.length (map IZR (map pv_y rows))) = ny * nx) by (rewrite !map_length; auto).
  assert (PB : (0 < IZR b)%R) by (apply IZR_lt; auto).
  assert (BX : z_min_of (z_abs_diffs (map pv_x rows)) = Ok b).
  { apply min_of_IZR. rewrite <- abs_diffs_IZR. apply (raster_least_x (IZR b) (IZR x0) nx ny (map IZR (map pv_x rows))); auto; try lia. apply abs_diffs_steps. }
  assert (BY : z_max_of (z_abs_diffs (map pv_y rows)) = Ok b).
  { apply max_of_IZR. rewrite <- abs_diffs_IZR. apply (raster_largest_y (IZR b) (IZR y0) true nx ny (map IZR (map pv_y rows))); auto; try lia. apply abs_diffs_steps. }
  assert (IN : forall w, In w rows <-> exists c r, 0 <= c < nx /\ 0 <= r < ny /\ at_pixel rows nx c r = Some w).
  { intros w. split.
    - intros I. apply In_nth_error in I as (i & I). assert (N : (i < List.length rows)%nat) by (apply nth_error_Some; congruence).
      destruct (index_split (Z.of_nat i) nx ny ltac:(lia) ltac:(lia)) as (C & Rr & E).
      exists (Z.of_nat i mod nx), (Z.of_nat i / nx). split; auto. split; auto. unfold at_pixel. rewrite <- E. now rewrite Nat2Z.id.
    - intros (c & r & _ & _ & W). eapply nth_error_In, W. }
  assert (BOX : box rows x0 (x0 + (nx - 1) * b) y0 (y0 + (ny - 1) * b)).
  { assert (Q : forall (f : pv_row -> Z) lo hi, (forall w, In w rows -> lo <= f w <= hi) ->
       (exists w, In w rows /\ f w = lo) -> (exists w, In w rows /\ f w = hi) ->
       z_min_of (map f rows) = Ok lo /\ z_max_of (map f rows) = Ok hi).
    { intros f lo hi A (w & I & E) (w' & I' & E'). split; [apply z_least|apply z_largest]; split.
      - rewrite <- E. now apply in_map.
      - intros x J. apply in_map_iff in J as (z & <- & J). apply A, J.
      - rewrite <- E'. now apply in_map.
      - intros x J. apply in_map_iff in J as (z & <- & J). apply A, J. }
    destruct (H 0 0 ltac:(lia) ltac:(lia)) as (w0 & W0 & WX0 & WY0).
    destruct (H (nx - 1) (ny - 1) ltac:(lia) ltac:(lia)) as (w1 & W1 & WX1 & WY1).
    assert (I0 : In w0 rows) by (eapply nth_error_In; exact W0). assert (I1 : In w1 rows) by (eapply nth_error_In; exact W1).
    destruct (Q pv_x x0 (x0 + (nx - 1) * b)) as [Q1 Q2].
    - intros w I. apply IN in I as (c & r & C & Rr & W). destruct (H c r C Rr) as (w' & W' & E & _). assert (w' = w) as -> by congruence. nia.
    - exists w0. split; auto. lia.
    - exists w1. split; auto.
    - destruct (Q pv_y y0 (y0 + (ny - 1) * b)) as [Q3 Q4].
      + intros w I. apply IN in I as (c & r & C & Rr & W). destruct (H c r C Rr) as (w' & W' & _ & E). assert (w' = w) as -> by congruence. nia.
      + exists w0. split; auto. lia.
      + exists w1. split; auto.
      + unfold box. auto. }
  set (d := pv_data b x0 (x0 + (nx - 1) * b) y0 (y0 + (ny - 1) * b) rows).
  assert (LD : load_pyvale ft rows = Ok (b, d)).
  { apply pyvale_iff. split; auto. split; auto. split; auto. split; auto.
    exists x0, (x0 + (nx - 1) * b), y0, (y0 + (ny - 1) * b). split; auto. split; [exists (nx - 1); lia|]. split; [exists (ny - 1); lia|reflexivity]. }
  assert (DC : d_cols d = nx).
  { unfold d, pv_data. cbn [d_cols]. replace (x0 + (nx - 1) * b - x0) with ((nx - 1) * b) by lia. rewrite Z.div_mul by lia. lia. }
  assert (DR : d_rows d = ny).
  { unfold d, pv_data. cbn [d_rows]. replace (y0 + (ny - 1) * b - y0) with ((ny - 1) * b) by lia. rewrite Z.div_mul by lia. lia. }
  exists d. split; auto. split; auto. split; auto. split; [apply pv_grid; nia|].
  intros c r w C Rr W. destruct (H c r C Rr) as (w' & W' & EX & EY). assert (w' = w) as -> by congruence.
  destruct (pyvale_loaded ft rows b d LD) as (_ & x0' & x1' & y0' & y1' & BOX' & _ & _ & _ & V).
  destruct BOX as (B1 & _ & B3 & _), BOX' as (B1' & _ & B3' & _).
  assert (x0' = x0) as -> by congruence. assert (y0' = y0) as -> by congruence.
  rewrite DC, DR in V. destruct (V c r C Rr) as [V1 _].
  destruct (nth_error_split _ _ W) as (before & after & RE & LE). apply (V1 before w after RE).
  - unfold in_cell. nia.
  - intros x J K. assert (IX : exists i, nth_error rows (Z.to_nat (r * nx + c) + S i) = Some x).
    { apply In_nth_error in J as (i & J). exists i. rewrite RE, nth_error_app2 by lia. rewrite LE.
      replace (Z.to_nat (r * nx + c) + S i - Z.to_nat (r * nx + c))%nat with (S i) by lia. exact J. }
    destruct IX as (i & IX). set (k := Z.of_nat (Z.to_nat (r * nx + c) + S i)).
    assert (KB : 0 <= k < ny * nx).
    { assert (Z.to_nat (r * nx + c) + S i < List.length rows)%nat by (apply nth_error_Some; congruence). lia. }
    destruct (index_split k nx ny ltac:(lia) KB) as (C' & R' & EK).
    destruct (H _ _ C' R') as (x' & X' & PX & PY). unfold at_pixel in X'. rewrite <- EK in X'. unfold k in X'. rewrite Nat2Z.id in X'.
    assert (x' = x) as -> by congruence. unfold in_cell in K.
    set (p := k mod nx) in *. set (q := k / nx) in *. assert (p = c) by nia. assert (q = r) by nia.
    assert (k = r * nx + c) by nia. unfold k in H2. lia.
Qed.

(** Two neighbouring rows with one x are never accepted. *)
Theorem pyvale_same_x ft before w w' after : pv_x w = pv_x w' ->
  forall r, load_pyvale ft (before ++ w :: w' :: after) <> Ok r.
Proof.
  intros E [b d] L. apply pyvale_iff in L as (_ & B & M & _). apply z_least in M as [_ M].
  assert (In 0 (z_abs_diffs (map pv_x (before ++ w :: w' :: after)))); [|specialize (M 0 H); lia].
  clear M. induction before as [|a before IH].
  - cbn [app map z_abs_diffs]. left. rewrite E. lia.
  - cbn [app map]. destruct before; cbn [app map z_abs_diffs] in *; right; exact IH.
Qed.

(** *** Flipped rows *)
Lemma concat_nth {A} n : forall (bs : list (list A)) k c, (forall b, In b bs -> List.length b = n) -> (c < n)%nat ->
  nth_error (concat bs) (k * n + c) = match nth_error bs k with Some b => nth_error b c | None => None end.
Proof.
  induction bs as [|b bs IH]; intros k c H C; cbn [concat].
  - destruct k; cbn [nth_error]; now destruct (_ + _)%nat.
  - pose proof (H b (or_introl eq_refl)) as LB. destruct k as [|k].
    + cbn [nth_error Nat.mul Nat.add]. apply nth_error_app1. lia.
    + rewrite nth_error_app2 by (rewrite LB; lia). cbn [nth_error]. rewrite <- IH by (auto; intros; apply H; now right).
      f_equal. rewrite LB. lia.
Qed.
Lemma flip_length {A} ny nx (l : list A) : 0 <= ny -> 0 <= nx -> Z.of_nat (List.length l) = ny * nx ->
  List.length (flip_rows ny nx l) = List.length l.
Proof.
  intros Y X L. unfold flip_rows.
  assert (G : forall bs n, (forall b, In b bs -> @List.length A b = n) -> List.length (concat bs) = (List.length bs * n)%nat).
  { induction bs as [|b bs IH]; intros n H; [reflexivity|]. cbn [concat List.length Nat.mul]. rewrite app_length.
    rewrite (H b (or_introl eq_refl)), (IH n) by (intros; apply H; now right). reflexivity. }
  rewrite (G _ (Z.to_nat nx)).
  - rewrite map_length, zseq_length. nia.
  - intros b I. apply in_map_iff in I as (i & <- & I). apply zseq_In in I. rewrite firstn_length, skipn_length. nia.
Qed.
Lemma flip_at {A} ny nx (l : list A) c r : Z.of_nat (List.length l) = ny * nx -> 0 <= c < nx -> 0 <= r < ny ->
  at_pixel (flip_rows ny nx l) nx c r = at_pixel l nx c (ny - 1 - r).
Proof.
  intros L C Rr. unfold at_pixel, flip_rows.
  replace (Z.to_nat (r * nx + c)) with (Z.to_nat r * Z.to_nat nx + Z.to_nat c)%nat by nia.
  rewrite concat_nth; [|intros b I; apply in_map_iff in I as (i & <- & I); apply zseq_In in I; rewrite firstn_length, skipn_length; nia|lia].
  rewrite (map_nth_error _ _ _ (zseq_nth_error 0 (Z.to_nat ny) (Z.to_nat r) ltac:(lia))).
  rewrite Z2Nat.id, Z.add_0_l by lia.
  assert (E : forall n (m : list A) k, (k < n)%nat -> nth_error (firstn n m) k = nth_error m k).
  { induction n as [|n IH]; intros m k K; [lia|]. destruct m, k; cbn [firstn nth_error]; auto. apply IH. lia. }
  assert (F : forall n (m : list A) k, nth_error (skipn n m) k = nth_error m (n + k)).
  { induction n as [|n IH]; intros m k; [reflexivity|]. destruct m; cbn [skipn nth_error Nat.add]; auto. destruct k; reflexivity. }
  rewrite E by lia. rewrite F. f_equal. nia.
Qed.
Lemma map_flip {A B} (f : A -> B) ny nx l : map f (flip_rows ny nx l) = flip_rows ny nx (map f l).
Proof.
  unfold flip_rows. rewrite concat_map, map_map. f_equal. apply map_ext. intros i. now rewrite <- firstn_map, <- skipn_map.
Qed.

Lemma reshape_inv {A} ny nx (l m : list A) : reshape ny nx l = Ok m -> m = l /\ 0 <= ny /\ 0 <= nx /\ Z.of_nat (List.length l) = ny * nx.
Proof.
  unfold reshape. destruct (_ && _) eqn:E; [|discriminate]. intros H. apply andb_true_iff in E as [E E3]. apply andb_true_iff in E as [E1 E2].
  apply Z.leb_le in E1, E2. apply Z.eqb_eq in E3. assert (m = l) by congruence. auto.
Qed.

Theorem openpiv_text_loaded rows b d : load_openpiv_text rows = Ok (b, d) ->
  Z.of_nat (List.length rows) = d_rows d * d_cols d /\ check_data (IZR b) d = Ok tt /\
  forall c r, 0 <= c < d_cols d -> 0 <= r < d_rows d ->
    exists w, at_pixel rows (d_cols d) c (d_rows d - 1 - r) = Some w /\
      at_pixel (d_x d) (d_cols d) c r = Some (pw_x w) /\ at_pixel (d_y d) (d_cols d) c r = Some (pw_y w) /\
      at_pixel (d_u d) (d_cols d) c r = Some (pw_u w) /\ at_pixel (d_v d) (d_cols d) c r = Some (pw_v w).
Proof.
  unfold load_openpiv_text. destruct (min_of _) as [mx|]; cbn [bind]; [|discriminate].
  destruct (max_of (abs_diffs _)) as [my|]; cbn [bind]; [|discriminate]. cbv zeta.
  destruct (negb _); [discriminate|]. destruct (max_of (map pw_x rows)) as [x1|]; cbn [bind]; [|discriminate].
  destruct (max_of (map pw_y rows)) as [y1|]; cbn [bind]; [|discriminate]. destruct (trunc mx =? 0); [discriminate|].
  set (ny := trunc _). set (nx := trunc ((x1 + _) / _)). destruct (reshape ny nx rows) as [m|] eqn:RS; cbn [bind]; [|discriminate].
  apply reshape_inv in RS as (_ & NY & NX & L). destruct (all_moving _); [|discriminate].
  set (d' := DicData _ _ _ _ _ _). destruct (check_data (IZR (trunc mx)) d') as [[]|] eqn:CK; cbn [bind]; [|discriminate].
  intros E. assert (trunc mx = b) as EB by congruence. assert (d' = d) as ED by congruence. subst b d. unfold d' in *. cbn [d_rows d_cols d_x d_y d_u d_v].
  split; auto. split; auto. intros c r C Rr.
  destruct (nth_error rows (Z.to_nat ((ny - 1 - r) * nx + c))) as [w|] eqn:W.
  - exists w. split; [exact W|].
    assert (FW : at_pixel (flip_rows ny nx rows) nx c r = Some w) by (rewrite flip_at; auto).
    unfold at_pixel in FW |- *. rewrite !(map_nth_error _ _ _ FW). auto.
  - apply nth_error_None in W. nia.
Qed.

Lemma first_column_at ny nx (l : list R) r : 0 < nx -> 0 <= r < ny -> Z.of_nat (List.length l) = ny * nx ->
  nth_error (first_column ny nx l) (Z.to_nat r) = at_pixel l nx 0 r.
Proof.
  intros X Rr L. unfold first_column, at_pixel.
  rewrite (map_nth_error _ _ _ (zseq_nth_error 0 (Z.to_nat ny) (Z.to_nat r) ltac:(lia))).
  rewrite Z2Nat.id, Z.add_0_l, Z.add_0_r by lia. symmetry. apply nth_error_nth'. nia.
Qed.
Lemma all_moving_iff col : all_moving col = true <->
  forall i a b, nth_error col i = Some a -> nth_error col (S i) = Some b -> a <> b.
Proof.
  unfold all_moving. rewrite forallb_forall. split.
  - intros H i a b A B E. pose proof (in_steps _ _ _ _ _ (abs_diffs_steps col) A B) as I. specialize (H _ I).
    destruct (Req_EM_T (Rabs (b - a)) 0) as [|N]; [discriminate|]. apply N. rewrite E, Rminus_diag_eq by reflexivity. apply Rabs_R0.
  - intros H d I. destruct (steps_in _ _ _ (abs_diffs_steps col) I) as (i & a & b & A & B & ->).
    destruct (Req_EM_T (Rabs (b - a)) 0) as [Z|N]; auto. exfalso. apply (H i a b A B).
    destruct (Req_dec (b - a) 0) as [Q|Q]; [lra|]. now apply Rabs_no_R0 in Q.
Qed.
Lemma y_at_flip down b y0 ny r : y_at down b y0 ny (ny - 1 - r) = y_at (negb down) b y0 ny r.
Proof. unfold y_at. destruct down; cbn [negb]; f_equal; f_equal; f_equal; lia. Qed.
Lemma y_at_move down b y0 ny r : (0 < b)%R -> y_at down b y0 ny r <> y_at down b y0 ny (r + 1).
Proof.
  intros B. unfold y_at. destruct down.
  - rewrite plus_IZR. lra.
  - replace (ny - 1 - r) with (ny - 1 - (r + 1) + 1) by lia. set (k := ny - 1 - (r + 1)). rewrite plus_IZR. lra.
Qed.

(** Whatever the direction of the file, the map is turned over. *)
Theorem openpiv_text_raster down b x0 y0 nx ny rows : 0 < b -> 2 <= nx -> 2 <= ny ->
  (IZR b / 2 <= x0 < 3 * IZR b / 2)%R -> (IZR b / 2 <= y0 < 3 * IZR b / 2)%R -> raster_file down (IZR b) x0 y0 nx ny rows ->
  exists d, load_openpiv_text rows = Ok (b, d) /\ d_cols d = nx /\ d_rows d = ny /\
    raster_map (negb down) (IZR b) x0 y0 d.
Proof.
  intros B X Y HX HY (L & H).
  assert (PB : (0 < IZR b)%R) by (apply IZR_lt; auto).
  assert (AX : forall c r, 0 <= c < nx -> 0 <= r < ny -> at_pixel (map pw_x rows) nx c r = Some (x0 + IZR c * IZR b)%R).
  { intros c r C Rr. destruct (H c r C Rr) as (w & W & E & _). unfold at_pixel in *. rewrite (map_nth_error _ _ _ W). congruence. }
  assert (AY : forall c r, 0 <= c < nx -> 0 <= r < ny -> at_pixel (map pw_y rows) nx c r = Some (y_at down (IZR b) y0 ny r)).
  { intros c r C Rr. destruct (H c r C Rr) as (w & W & _ & E). unfold at_pixel in *. rewrite (map_nth_error _ _ _ W). congruence. }
  assert (LX : Z.of_nat (List.length (map pw_x rows)) = ny * nx) by (rewrite map_length; auto).
  assert (LY : Z.of_nat (List.length (map pw_y rows)) = ny * nx) by (rewrite map_length; auto).
  assert (BX : min_of (abs_diffs (map pw_x rows)) = Ok (IZR b)).
  { apply min_of_iff. apply (raster_least_x (IZR b) x0 nx ny (map pw_x rows)); auto; try lia. apply abs_diffs_steps. }
  assert (BY : max_of (abs_diffs (map pw_y rows)) = Ok (IZR b)).
  { apply max_of_iff. apply (raster_largest_y (IZR b) y0 down nx ny (map pw_y rows)); auto; try lia. apply abs_diffs_steps. }
  assert (SX : largest (map pw_x rows) (x0 + IZR (nx - 1) * IZR b)%R).
  { pose proof (raster_in _ nx ny (fun c r => x0 + IZR c * IZR b)%R ltac:(lia) LX AX) as RI. split.
    - apply RI. exists (nx - 1), 0. split; [lia|]. split; [lia|]. reflexivity.
    - intros x I. apply RI in I as (c & r & C & _ & ->). assert (IZR c <= IZR (nx - 1))%R by (apply IZR_le; lia). nra. }
  assert (SY : largest (map pw_y rows) (y0 + IZR (ny - 1) * IZR b)%R).
  { pose proof (raster_in _ nx ny (fun c r => y_at down (IZR b) y0 ny r)%R ltac:(lia) LY AY) as RI. split.
    - apply RI. unfold y_at. destruct down; [exists 0, (ny - 1)|exists 0, 0]; (split; [lia|]; split; [lia|]).
      + reflexivity.
      + now rewrite Z.sub_0_r.
    - intros x I. apply RI in I as (c & r & _ & C & ->). unfold y_at.
      assert (IZR (if down then r else ny - 1 - r) <= IZR (ny - 1))%R by (apply IZR_le; destruct down; lia). nra. }
  apply max_of_iff in SX, SY.
  assert (TR : forall v0 n, 2 <= n -> (IZR b / 2 <= v0 < 3 * IZR b / 2)%R -> trunc ((v0 + IZR (n - 1) * IZR b + IZR b / 2) / IZR b) = n).
  { intros v0 n N V. apply trunc_pos; [lia|]. rewrite minus_IZR.
    replace ((v0 + (IZR n - 1) * IZR b + IZR b / 2) / IZR b)%R with (IZR n + (v0 - IZR b / 2) / IZR b)%R by (field; lra).
    assert (0 <= (v0 - IZR b / 2) / IZR b)%R by (apply Rmult_le_pos; [lra|]; apply Rlt_le, Rinv_0_lt_compat; lra).
    assert ((v0 - IZR b / 2) / IZR b < 1)%R.
    { apply (Rmult_lt_reg_r (IZR b)); [lra|]. unfold Rdiv. rewrite Rmult_assoc, Rinv_l by lra. lra. }
    lra. }
  unfold load_openpiv_text. rewrite BX, BY. cbn [bind]. cbv zeta. rewrite trunc_int, Z.eqb_refl. cbn [negb]. rewrite SX, SY. cbn [bind].
  destruct (Z.eqb_spec b 0); [lia|]. rewrite !TR by (auto; lia).
  assert (RSH : reshape ny nx rows = Ok rows).
  { unfold reshape. rewrite L, Z.eqb_refl. replace (0 <=? ny) with true by (symmetry; apply Z.leb_le; lia).
    replace (0 <=? nx) with true by (symmetry; apply Z.leb_le; lia). reflexivity. }
  rewrite RSH. cbn [bind].
  assert (AM : all_moving (first_column ny nx (map pw_y rows)) = true).
  { apply all_moving_iff. intros i a c A C.
    assert (LC : List.length (first_column ny nx (map pw_y rows)) = Z.to_nat ny) by (unfold first_column; now rewrite map_length, zseq_length).
    assert (S i < Z.to_nat ny)%nat by (rewrite <- LC; apply nth_error_Some; congruence).
    replace i with (Z.to_nat (Z.of_nat i)) in A by lia. replace (S i) with (Z.to_nat (Z.of_nat i + 1)) in C by lia.
    rewrite first_column_at in A by (auto; lia). rewrite first_column_at in C by (auto; lia). rewrite AY in A by lia. rewrite AY in C by lia.
    pose proof (y_at_move down (IZR b) y0 ny (Z.of_nat i) PB). congruence. }
  rewrite AM.
  set (d := DicData _ _ _ _ _ _).
  assert (RM : raster_map (negb down) (IZR b) x0 y0 d).
  { unfold raster_map, d. cbn [d_x d_y d_rows d_cols]. rewrite !map_flip. split; [|split].
    - rewrite flip_length by (auto; lia). auto.
    - rewrite flip_length by (auto; lia). auto.
    - intros c r C Rr. rewrite !flip_at by auto. rewrite AX, AY by lia. split; auto. f_equal. apply y_at_flip. }
  rewrite (raster_accepted (negb down) (IZR b) x0 y0 d) by (auto; unfold d; cbn [d_rows d_cols]; lia).
  cbn [bind]. exists d. auto.
Qed.

(** The binary file. *)
Lemma moving_iff d : whole d -> all_moving (first_column (d_rows d) (d_cols d) (d_y d)) = true <-> y_moves d.
Proof.
  intros (NY & NX & LX & LY & _). rewrite all_moving_iff.
  assert (LC : List.length (first_column (d_rows d) (d_cols d) (d_y d)) = Z.to_nat (d_rows d)) by (unfold first_column; now rewrite map_length, zseq_length).
  split.
  - intros H r Rr R1 E. assert (EX : exists a, at_pixel (d_y d) (d_cols d) 0 r = Some a).
    { unfold at_pixel. destruct (nth_error _ _) eqn:N; eauto. apply nth_error_None in N. nia. }
    destruct EX as (a & A). apply (H (Z.to_nat r) a a); auto.
    + rewrite first_column_at by (auto; lia). exact A.
    + replace (S (Z.to_nat r)) with (Z.to_nat (r + 1)) by lia. rewrite first_column_at by (auto; lia). congruence.
  - intros H i a b A B E. assert (S i < Z.to_nat (d_rows d))%nat by (rewrite <- LC; apply nth_error_Some; congruence).
    apply (H (Z.of_nat i) ltac:(lia) ltac:(lia)).
    rewrite <- !(first_column_at (d_rows d)) by (auto; lia). rewrite Nat2Z.id. replace (Z.to_nat (Z.of_nat i + 1)) with (S i) by lia. congruence.
Qed.
Theorem openpiv_binary_loaded b d d' : whole d -> load_openpiv_binary b d = Ok d' ->
  d_rows d' = d_rows d /\ d_cols d' = d_cols d /\ check_data b d' = Ok tt /\
  (~ y_moves d -> d' = d) /\
  (y_moves d -> forall c r, 0 <= c < d_cols d -> 0 <= r < d_rows d ->
    at_pixel (d_x d') (d_cols d) c r = at_pixel (d_x d) (d_cols d) c (d_rows d - 1 - r) /\
    at_pixel (d_y d') (d_cols d) c r = at_pixel (d_y d) (d_cols d) c (d_rows d - 1 - r) /\
    at_pixel (d_u d') (d_cols d) c r = at_pixel (d_u d) (d_cols d) c (d_rows d - 1 - r) /\
    at_pixel (d_v d') (d_cols d) c r = at_pixel (d_v d) (d_cols d) c (d_rows d - 1 - r)).
Proof.
  intros W. pose proof (moving_iff d W) as M. destruct W as (NY & NX & LX & LY & LU & LV).
  unfold load_openpiv_binary. cbv zeta. destruct (all_moving _).
  - set (e := DicData _ _ _ _ _ _). destruct (check_data b e) as [[]|] eqn:CK; cbn [bind]; [|discriminate].
    intros E. assert (d' = e) as -> by congruence. unfold e in *. cbn [d_rows d_cols d_x d_y d_u d_v].
    split; auto. split; auto. split; auto. split; [tauto|]. intros _ c r C Rr. rewrite !flip_at by auto. auto.
  - destruct (check_data b d) as [[]|] eqn:CK; cbn [bind]; [|discriminate]. intros E. assert (d' = d) as -> by congruence.
    split; auto. split; auto. split; auto. split; auto. intros Q. apply M in Q. discriminate.
Qed.
Theorem openpiv_binary_raster down b x0 y0 d : (0 < b)%R -> 2 <= d_rows d -> 2 <= d_cols d -> whole d -> raster_map down b x0 y0 d ->
  exists d', load_openpiv_binary b d = Ok d' /\ d_rows d' = d_rows d /\ d_cols d' = d_cols d /\ raster_map (negb down) b x0 y0 d'.
Proof.
  intros B Y X W (_ & _ & H). pose proof (moving_iff d W) as M. destruct W as (NY & NX & LX & LY & LU & LV).
  assert (MV : y_moves d).
  { intros r R0 R1. destruct (H 0 r ltac:(lia) ltac:(lia)) as [_ ->]. destruct (H 0 (r + 1) ltac:(lia) ltac:(lia)) as [_ ->].
    intros E. apply (y_at_move down b y0 (d_rows d) r B). congruence. }
  unfold load_openpiv_binary. cbv zeta. rewrite (proj2 M MV). set (e := DicData _ _ _ _ _ _).
  assert (RM : raster_map (negb down) b x0 y0 e).
  { unfold raster_map, e. cbn [d_x d_y d_rows d_cols]. split; [|split].
    - rewrite flip_length by (auto; lia). auto.
    - rewrite flip_length by (auto; lia). auto.
    - intros c r C Rr. rewrite !flip_at by auto. destruct (H c (d_rows d - 1 - r) C ltac:(lia)) as [-> ->]. split; auto. f_equal. apply y_at_flip. }
  rewrite (raster_accepted (negb down) b x0 y0 e) by (auto; unfold e; cbn [d_rows d_cols]; lia).
  cbn [bind]. exists e. auto.
Qed.

(** Davis: rows stay in the order of the file. *)
Theorem davis_loaded header rows b d : load_davis header rows = Ok (b, d) ->
  Z.of_nat (List.length rows) = d_rows d * d_cols d /\ check_data (IZR b) d = Ok tt /\
  (exists f v, davis_header header = Ok (f, v, b, d_rows d, d_cols d)) /\
  d_x d = map pw_x rows /\ d_y d = map pw_y rows /\ d_u d = map pw_u rows /\ d_v d = map pw_v rows.
Proof.
  unfold load_davis. destruct (davis_header header) as [[[[[f v] b'] ny] nx]|] eqn:DH; cbn [bind]; [|discriminate].
  destruct (reshape ny nx rows) as [m|] eqn:RS; cbn [bind]; [|discriminate]. apply reshape_inv in RS as (_ & NY & NX & L).
  set (e := DicData _ _ _ _ _ _). destruct (check_data (IZR b') e) as [[]|] eqn:CK; cbn [bind]; [|discriminate].
  intros E. assert (b = b') as -> by congruence. assert (d = e) as -> by congruence. unfold e in *. cbn [d_rows d_cols d_x d_y d_u d_v].
  split; auto. split; auto. split; [eauto|]. auto.
Qed.
