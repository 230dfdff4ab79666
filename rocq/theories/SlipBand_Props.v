(** Theorems about slip band detection. *)
From Coq Require Import Reals Lra.
From Coq Require Import List ZArith Bool Lia.
Import ListNotations.
From Verif Require Import Py Grid Grid_Lemmas Boundary_Model Base_Model Base_Proofs SlipBand_Model SlipBand_Spec.
Open Scope R_scope.

(** The image whose rays are taken. *)
Definition ready (W H : Z) (d : image) : plain_image :=
  let d := nan_to_num d in if any_negative W H d then (fun p => Rabs (d p)) else d.
Lemma ready_magnitude W H d p : inside W H p -> ready W H d p = magnitude d p.
Proof.
  intros I. unfold ready, magnitude, any_negative. destruct (existsb _ _) eqn:E.
  - unfold nan_to_num. destruct (d p); [reflexivity|]. apply Rabs_R0.
  - assert (N : ~ nan_to_num d p < 0).
    { intros N. assert (X : existsb (fun p => if Rlt_dec (nan_to_num d p) 0 then true else false) (all_pix W H) = true); [|congruence].
      apply existsb_exists. exists p. split; [apply all_pix_In; [unfold inside in I; lia|unfold inside in I; lia|exact I]|]. destruct (Rlt_dec (nan_to_num d p) 0); [reflexivity|contradiction]. }
    unfold nan_to_num in *. destruct (d p); [|reflexivity]. symmetry. apply Rabs_pos_eq. lra.
Qed.
Section Rays.
  Variables (W H : Z) (o : outside).
  Hypothesis SR : sums_rays W H o.

  Lemma meeting_ext s s' t : (forall p, inside W H p -> s p = s' p) -> meeting o s t = meeting o s' t.
  Proof. intros E. unfold meeting. f_equal. apply filter_ext. intros i. destruct SR as (A & _). now rewrite (A s s' i t E). Qed.
  Lemma fold_min_ext (f g : nat -> nat) : (forall t, f t = g t) -> forall ts (m : nat), fold_left (fun m t => Nat.min m (f t)) ts m = fold_left (fun m t => Nat.min m (g t)) ts m.
  Proof. intros E. induction ts as [|t ts IH]; intros m; [reflexivity|]. cbn [fold_left]. now rewrite E, IH. Qed.
  Lemma min_diam_ext s s' : (forall p, inside W H p -> s p = s' p) -> min_diam o s = min_diam o s'.
  Proof.
    intros E. assert (M : forall t, meeting o s t = meeting o s' t) by (intros t; now apply meeting_ext). unfold min_diam.
    destruct angles as [|t ts]; [reflexivity|]. rewrite M. now apply fold_min_ext.
  Qed.
  (** Multiplied images with the same pixels of value 0. *)
  Lemma crop_scaled c d d' s s' i t : (forall p, inside W H p -> d' p = c * d p) -> (forall p, inside W H p -> s' p = s p) -> crop o d' s' i t = c * crop o d s i t.
  Proof.
    intros D E. destruct SR as (A & B & _). unfold crop. rewrite (min_diam_ext s' s E), (A s' s i t E).
    destruct (Rlt_dec _ _); [|ring]. rewrite (A d' (fun p => c * d p) i t D), B. unfold Rdiv. ring.
  Qed.
  Lemma profile_scaled c d d' s s' t : 0 < c -> (forall p, inside W H p -> d' p = c * d p) -> (forall p, inside W H p -> s' p = s p) ->
    profile_at o d' s' t = option_map (Rmult (c ^ 4)) (profile_at o d s t).
  Proof.
    intros C D E. unfold profile_at.
    assert (M : map (fun i => crop o d' s' i t) (seq 0 (o_rays o)) = map (Rmult c) (map (fun i => crop o d s i t) (seq 0 (o_rays o)))).
    { rewrite map_map. apply map_ext. intros i. now apply crop_scaled. }
    rewrite M. set (col := map (fun i => crop o d s i t) (seq 0 (o_rays o))).
    assert (L : List.length (filter positive (map (Rmult c) col)) = List.length (filter positive col)).
    { clear - C. induction col as [|x col IH]; [reflexivity|]. cbn [map filter].
      assert (P : positive (c * x) = positive x). { unfold positive. destruct (Rlt_dec 0 (c * x)), (Rlt_dec 0 x); try reflexivity; exfalso; nra. }
      rewrite P. destruct (positive x); cbn [List.length]; now rewrite IH. }
    rewrite L. destruct (List.length (filter positive col)) as [|n]; [reflexivity|]. cbn [option_map]. f_equal.
    assert (S4 : sum (map (fun x => x ^ 4) (map (Rmult c) col)) = c ^ 4 * sum (map (fun x => x ^ 4) col)).
    { clear. unfold sum. induction col as [|x col IH]; [cbn; ring|]. cbn [map fold_right]. rewrite IH. ring. }
    rewrite S4. unfold Rdiv. ring.
  Qed.
End Rays.
Lemma support_scaled W H d d' c p : c <> 0 -> inside W H p -> magnitude d' p = c * magnitude d p -> support (ready W H d') p = support (ready W H d) p.
Proof.
  intros C I M. unfold support. rewrite !ready_magnitude by exact I. rewrite M. destruct (Req_EM_T (c * magnitude d p) 0) as [E|E], (Req_EM_T (magnitude d p) 0) as [E'|E']; try reflexivity; exfalso.
  - apply Rmult_integral in E. tauto.
  - apply E. rewrite E'. ring.
Qed.
Lemma profile_mult W H o d d' c : sums_rays W H o -> 0 < c -> (forall p, inside W H p -> magnitude d' p = c * magnitude d p) ->
  profile o W H d' = map (option_map (Rmult (c ^ 4))) (profile o W H d).
Proof.
  intros SR C M. change (profile o W H d') with (map (profile_at o (ready W H d') (support (ready W H d'))) angles).
  change (profile o W H d) with (map (profile_at o (ready W H d) (support (ready W H d))) angles). rewrite map_map. apply map_ext. intros t.
  apply (profile_scaled W H o SR c); [exact C|intros p I; rewrite !ready_magnitude by exact I; now apply M|].
  intros p I. apply (support_scaled W H d d' c p); [lra|exact I|now apply M].
Qed.

(** Only the magnitudes of the strains count, not their sign, and nan counts as no strain. *)
Theorem C115_magnitude : forall o W H d d' th md, sums_rays W H o -> finds_peaks o ->
  (forall p, inside W H p -> magnitude d p = magnitude d' p) -> calc_slip_bands o W H d th md = calc_slip_bands o W H d' th md.
Proof.
  intros o W H d d' th md SR FP M. unfold calc_slip_bands. destruct (all_pix W H); [reflexivity|].
  rewrite (profile_mult W H o d' d 1 SR Rlt_0_1) by (intros q I; rewrite (M q I); ring).
  destruct FP as (A & _). rewrite A by (apply pow_lt; lra). reflexivity.
Qed.
(** The unit in which the strain is measured does not count, nor does its sign. *)
Theorem C115_scale : forall o W H d c th md, sums_rays W H o -> finds_peaks o -> c <> 0 ->
  calc_slip_bands o W H (fun p => option_map (Rmult c) (d p)) th md = calc_slip_bands o W H d th md.
Proof.
  intros o W H d c th md SR FP C. unfold calc_slip_bands. destruct (all_pix W H); [reflexivity|].
  rewrite (profile_mult W H o d _ (Rabs c) SR (Rabs_pos_lt c C)).
  2:{ intros q I. unfold magnitude. destruct (d q); cbn [option_map]; [apply Rabs_mult|ring]. }
  destruct FP as (A & _). rewrite A by (apply pow_lt, Rabs_pos_lt, C). reflexivity.
Qed.
(** The angles found are whole degrees strictly between 0 and 179. *)
Theorem C115_angles : forall o W H d th md l, finds_peaks o -> calc_slip_bands o W H d th md = Ok l ->
  forall a, In a l -> exists k, (0 < k < 179)%nat /\ a = INR k * PI / 180.
Proof.
  intros o W H d th md l (_ & B & _) E a I. unfold calc_slip_bands in E. destruct (all_pix W H); [discriminate|].
  destruct (o_peaks o _ _ _) as [is|] eqn:P; [|discriminate]. destruct (map_res _ is) as [ks|] eqn:M; [|discriminate]. cbn [bind] in E. injection E as <-.
  apply in_map_iff in I as (k & <- & I). exists k. split; [|reflexivity].
  assert (X : exists i, In i is /\ nth_error angles i = Some k).
  { clear - M I. revert ks M I. induction is as [|i is IH]; intros ks M I; cbn [map_res] in M; [injection M as <-; destruct I|].
    destruct (nth_error angles i) as [t|] eqn:N; [|discriminate]. cbn [bind] in M. destruct (map_res _ is) as [ks'|]; [|discriminate]. cbn [bind] in M. injection M as <-.
    destruct I as [->|I]; [exists i; split; [now left|exact N]|]. destruct (IH ks' eq_refl I) as (j & J1 & J2). exists j. split; [now right|exact J2]. }
  destruct X as (i & II & N). specialize (B _ _ _ _ i P II). unfold profile in B. rewrite map_length in B. unfold angles in *. rewrite seq_length in B.
  assert (i = k). { assert (L : (i < 180)%nat) by lia. pose proof (nth_error_nth _ _ O N) as Q. rewrite seq_nth in Q by exact L. exact Q. } lia.
Qed.
(** So bands at 0 degrees are never found, whatever the strain. *)
Theorem C115_upright_refuted : forall o W H d th md l, finds_peaks o -> calc_slip_bands o W H d th md = Ok l -> ~ In 0 l.
Proof.
  intros o W H d th md l FP E I. destruct (C115_angles o W H d th md l FP E 0 I) as (k & K & Z).
  assert (0 < INR k) by (apply lt_0_INR; lia). pose proof PI_RGT_0. assert (0 < INR k * PI / 180); [|lra]. apply Rdiv_lt_0_compat; [|lra]. now apply Rmult_lt_0_compat.
Qed.
(** Unset options are 0.3 and 30 degrees. *)
Theorem C115_defaults : forall o W H d, calc_slip_bands o W H d None None = calc_slip_bands o W H d (Some (3 / 10)) (Some 30%Z).
Proof. reflexivity. Qed.

Lemma fold_min_spec (f : nat -> nat) : forall ts m, let r := fold_left (fun m t => Nat.min m (f t)) ts m in
  (r = m \/ exists t, In t ts /\ r = f t) /\ (r <= m)%nat /\ forall t, In t ts -> (r <= f t)%nat.
Proof.
  induction ts as [|t ts IH]; intros m; cbn [fold_left]; [split; [now left|split; [lia|intros t []]]|].
  destruct (IH (Nat.min m (f t))) as (A & B & C). split; [|split; [lia|]].
  - destruct A as [A|(t' & I & A)]; [|right; exists t'; split; [now right|exact A]].
    destruct (Nat.min_dec m (f t)) as [M|M]; rewrite M in A; [left; rewrite M; exact A|right; exists t; split; [now left|rewrite M; exact A]].
  - intros t' [->|I]; [lia|now apply C].
Qed.
Lemma meeting_rays o s t : rays_meeting o s t (meeting o s t).
Proof.
  exists (filter (fun i => positive (o_radon o s i t)) (seq 0 (o_rays o))). split; [apply NoDup_filter, seq_NoDup|]. split; [|reflexivity].
  intros i. rewrite filter_In, in_seq. unfold positive. destruct (Rlt_dec 0 (o_radon o s i t)) as [P|N]; split; intros (A & B); [split; [lia|exact P]|split; [lia|reflexivity]|discriminate|contradiction].
Qed.
Lemma rays_unique o s t n m : rays_meeting o s t n -> rays_meeting o s t m -> n = m.
Proof.
  intros (l & N & E & <-) (l' & N' & E' & <-). apply Nat.le_antisymm; apply NoDup_incl_length; try assumption; intros i I; [now apply E', E|now apply E, E'].
Qed.
Lemma min_diam_spec o s : exists t', (t' < 180)%nat /\ min_diam o s = meeting o s t' /\ forall t2, (t2 < 180)%nat -> (meeting o s t' <= meeting o s t2)%nat.
Proof.
  unfold min_diam, angles. cbn [seq]. change (seq 1 179) with (seq 1 179).
  set (ts := 1%nat :: _). assert (T : ts = seq 1 179) by reflexivity. clearbody ts.
  destruct (fold_min_spec (meeting o s) ts (meeting o s 0)) as (A & B & C).
  assert (L : forall t2, (t2 < 180)%nat -> (fold_left (fun m t => Nat.min m (meeting o s t)) ts (meeting o s 0) <= meeting o s t2)%nat).
  { intros t2 I. destruct t2 as [|t2]; [exact B|]. apply C. rewrite T. apply in_seq. lia. }
  destruct A as [A|(t & I & A)].
  - exists 0%nat. split; [lia|]. split; [exact A|]. intros t2 I. rewrite <- A. now apply L.
  - exists t. split; [rewrite T in I; apply in_seq in I; lia|]. split; [exact A|]. intros t2 I2. rewrite <- A. now apply L.
Qed.
Lemma ones (f : nat -> bool) : forall l, let col := map (fun i => if f i then 1 else 0) l in
  sum (map (fun x => x ^ 4) col) = INR (List.length (filter positive col)) /\ ((exists i, In i l /\ f i = true) -> List.length (filter positive col) <> 0%nat).
Proof.
  induction l as [|i l (IH1 & IH2)]; cbn [map filter]; [split; [reflexivity|intros (i & [] & _)]|]. cbn zeta in *.
  destruct (f i) eqn:F.
  - assert (P : positive 1 = true) by (unfold positive; destruct (Rlt_dec 0 1); [reflexivity|lra]). rewrite P. cbn [List.length]. rewrite S_INR. split; [|intros _; discriminate].
    unfold sum in *. cbn [map fold_right]. rewrite IH1. ring.
  - assert (P : positive 0 = false) by (unfold positive; destruct (Rlt_dec 0 0); [lra|reflexivity]). rewrite P. split.
    + unfold sum in *. cbn [map fold_right]. rewrite IH1. ring.
    + intros (j & [->|I] & J); [congruence|]. apply IH2. exists j. split; [exact I|exact J].
Qed.
(** A grain strained equally everywhere gives a flat profile: the shape of the grain alone is not
    taken for bands. *)
Theorem C115_uniform : forall o W H d c, sums_rays W H o -> uniform W H d c -> wide o (shape_image d) ->
  profile o W H d = repeat (Some (c ^ 4)) 180.
Proof.
  intros o W H d c SR (C & U) WD.
  assert (M : forall p, inside W H p -> magnitude d p = c * shape_image d p).
  { intros p I. unfold magnitude, shape_image. destruct (U p I) as [E|(x & E & X)]; rewrite E; [ring|rewrite X; ring]. }
  assert (X : forall t, In t angles -> profile_at o (ready W H d) (support (ready W H d)) t = Some (c ^ 4)).
  { intros t T. apply in_seq in T.
    rewrite (profile_scaled W H o SR c (shape_image d) (ready W H d) (shape_image d) (support (ready W H d)) t C).
    2:{ intros p I. rewrite ready_magnitude by exact I. now apply M. }
    2:{ intros p I. unfold support. rewrite ready_magnitude, M by exact I. unfold shape_image. destruct (d p).
        - destruct (Req_EM_T (c * 1) 0) as [E|_]; [lra|reflexivity].
        - destruct (Req_EM_T (c * 0) 0) as [_|E]; [reflexivity|exfalso; apply E; ring]. }
    unfold profile_at. set (s := shape_image d) in *.
    set (sel := fun i => if Rlt_dec (INR (min_diam o s) * 2 / 3) (o_radon o s i t) then true else false).
    assert (K : map (fun i => crop o s s i t) (seq 0 (o_rays o)) = map (fun i => if sel i then 1 else 0) (seq 0 (o_rays o))).
    { apply map_ext. intros i. unfold crop, sel. destruct (Rlt_dec _ _) as [L|L]; [|reflexivity]. pose proof (pos_INR (min_diam o s)). field. lra. }
    rewrite K. destruct (ones sel (seq 0 (o_rays o))) as (S4 & NZ).
    assert (Y : exists i, In i (seq 0 (o_rays o)) /\ sel i = true).
    { destruct (WD t) as (i & I & Q); [lia|]. destruct (min_diam_spec o s) as (t' & T' & E & L). exists i. split; [apply in_seq; lia|].
      unfold sel. rewrite E. destruct (Rlt_dec _ _) as [_|N]; [reflexivity|]. exfalso. apply N. apply (Q t'); [exact T'|apply meeting_rays|]. intros t2 m I2 R2. rewrite (rays_unique _ _ _ _ _ R2 (meeting_rays o s t2)). now apply L. }
    specialize (NZ Y). rewrite S4. set (n := List.length _) in *. destruct n as [|n]; [congruence|]. cbn [option_map]. f_equal. field. apply not_0_INR. lia. }
  change (profile o W H d) with (map (profile_at o (ready W H d) (support (ready W H d))) angles).
  assert (Y : forall l, (forall t, In t l -> In t angles) -> map (profile_at o (ready W H d) (support (ready W H d))) l = repeat (Some (c ^ 4)) (List.length l)).
  { induction l as [|t l IH]; intros I; [reflexivity|]. cbn [map List.length repeat]. rewrite X by (apply I; now left). rewrite IH; [reflexivity|]. intros t' I'. apply I. now right. }
  rewrite Y by (intros t I; exact I). unfold angles. now rewrite seq_length.
Qed.
(** And no bands are then reported: the peak finder's empty result is not an index array and the call
    fails. *)
Theorem C115_none_refuted : forall o W H d c th md, sums_rays W H o -> finds_peaks o -> (0 < W)%Z -> (0 < H)%Z -> uniform W H d c -> wide o (shape_image d) ->
  calc_slip_bands o W H d th md = Err IndexError.
Proof.
  intros o W H d c th md SR (_ & _ & F) HW HH U WD. unfold calc_slip_bands. rewrite (C115_uniform o W H d c SR U WD), F.
  destruct (all_pix W H) eqn:E; [|reflexivity]. assert (I : In (0, 0)%Z (all_pix W H)) by (apply all_pix_In; [lia|lia|split; cbn; lia]). rewrite E in I. destruct I.
Qed.
(** Pixels of the grain that are not strained at all count as outside the grain. *)
Theorem C115_unstrained_refuted : forall o W H d p th md, sums_rays W H o -> finds_peaks o -> inside W H p -> d p = Some 0 ->
  calc_slip_bands o W H d th md = calc_slip_bands o W H (fun q => if pix_eqb p q then None else d q) th md.
Proof.
  intros o W H d p th md SR FP I E. apply C115_magnitude; [exact SR|exact FP|]. intros q _. unfold magnitude. destruct (pix_eqb_spec p q) as [<-|_]; [|reflexivity].
  rewrite E. apply Rabs_R0.
Qed.

(** An instance: a map of 3 by 3 pixels, rays along the rows at 90 degrees and along the columns at all
    others, and strict local maxima as peaks. *)
Definition local_max (l : list (option R)) (i : nat) : bool :=
  match nth_error l (i - 1), nth_error l i, nth_error l (i + 1) with
  | Some (Some a), Some (Some b), Some (Some c) => if Rlt_dec a b then if Rlt_dec c b then true else false else false
  | _, _, _ => false
  end.
Definition three : outside := {|
  o_radon := fun d i t => if (t =? 90)%nat then d (0, Z.of_nat i)%Z + d (1, Z.of_nat i)%Z + d (2, Z.of_nat i)%Z else d (Z.of_nat i, 0)%Z + d (Z.of_nat i, 1)%Z + d (Z.of_nat i, 2)%Z;
  o_rays := 3;
  o_peaks := fun l _ _ => match filter (local_max l) (seq 1 (List.length l - 2)) with [] => FloatArray | is => Indices is end |}.
Definition three_in : outside := {|
  o_radon := fun d i t => if (i <? 3)%nat then o_radon three d i t else 0; o_rays := 3; o_peaks := o_peaks three |}.
Lemma three_sums : sums_rays 3 3 three_in.
Proof.
  split; [|split].
  - intros d d' i t E. cbn [o_radon three_in three]. destruct (Nat.ltb_spec i 3) as [L|L]; [|reflexivity]. destruct (t =? 90)%nat; rewrite !E by (split; cbn; lia); reflexivity.
  - intros c d i t. cbn [o_radon three_in three]. destruct (i <? 3)%nat, (t =? 90)%nat; ring.
  - intros d i t P. cbn [o_radon three_in three]. destruct (Nat.ltb_spec i 3) as [L|L]; [|lra]. destruct (t =? 90)%nat; repeat apply Rplus_le_le_0_compat; apply P; split; cbn; lia.
Qed.
Lemma three_peaks : finds_peaks three_in.
Proof.
  split; [|split].
  - intros c l th md C. cbn [o_peaks three_in three]. rewrite map_length.
    assert (E : forall i, local_max (map (option_map (Rmult c)) l) i = local_max l i).
    { intros i. unfold local_max. rewrite !nth_error_map. destruct (nth_error l (i - 1)) as [[a|]|]; cbn [option_map]; try reflexivity.
      destruct (nth_error l i) as [[b|]|]; cbn [option_map]; try reflexivity. destruct (nth_error l (i + 1)) as [[e|]|]; cbn [option_map]; try reflexivity.
      destruct (Rlt_dec (c * a) (c * b)), (Rlt_dec a b); try (exfalso; nra); try reflexivity. destruct (Rlt_dec (c * e) (c * b)), (Rlt_dec e b); try (exfalso; nra); reflexivity. }
    now rewrite (filter_ext _ _ E).
  - intros l th md is i E I. cbn [o_peaks three_in three] in E. destruct (filter _ _) as [|j js] eqn:F; [discriminate|]. injection E as <-. rewrite <- F in I. apply filter_In in I as (I & _). apply in_seq in I. lia.
  - intros x n th md. cbn [o_peaks three_in three]. assert (E : filter (local_max (repeat (Some x) n)) (seq 1 (List.length (repeat (Some x) n) - 2)) = []); [|now rewrite E].
    set (l := repeat (Some x) n). assert (X : forall i, local_max l i = false).
    { intros i. unfold local_max. destruct (nth_error l (i - 1)) as [[a|]|] eqn:A; try reflexivity. destruct (nth_error l i) as [[b|]|] eqn:B; try reflexivity.
      destruct (nth_error l (i + 1)) as [[e|]|]; try reflexivity. apply nth_error_In, repeat_spec in A. apply nth_error_In, repeat_spec in B. injection A as ->. injection B as ->. destruct (Rlt_dec x x); [lra|reflexivity]. }
    induction (seq _ _) as [|i is IH]; [reflexivity|]. cbn [filter]. now rewrite X.
Qed.
(** A band of three times the strain along the middle row, and its profile: a peak at 90 degrees. *)
Definition banded : image := fun p => Some (if (snd p =? 1)%Z then -3 else 1).
Definition even : image := fun p => Some (if (snd p =? 1)%Z then -3 else 3).
Lemma three_meeting s t : (forall p, inside 3 3 p -> s p = 1) -> meeting three_in s t = 3%nat.
Proof.
  intros E. unfold meeting. cbn [o_rays three_in seq].
  assert (X : forall i, (i < 3)%nat -> positive (o_radon three_in s i t) = true).
  { intros i I. cbn [o_radon three_in three]. destruct (Nat.ltb_spec i 3) as [_|N]; [|lia]. unfold positive. destruct (t =? 90)%nat; rewrite !E by (split; cbn; lia); destruct (Rlt_dec _ _); [reflexivity|lra|reflexivity|lra]. }
  cbn [filter]. rewrite !X by lia. reflexivity.
Qed.
Lemma wide_met : wide three_in (shape_image even).
Proof.
  intros t T. exists 0%nat. split; [cbn; lia|]. intros t' n _ R _. rewrite (rays_unique _ _ _ _ _ R (meeting_rays _ _ t')), three_meeting by reflexivity.
  cbn [o_radon three_in three Nat.ltb Nat.leb]. unfold shape_image, even. destruct (t =? 90)%nat; cbn [INR]; lra.
Qed.
Example C115_met : sums_rays 3 3 three_in /\ finds_peaks three_in /\
  calc_slip_bands three_in 3 3 banded None None = Ok [INR 90 * PI / 180] /\ banded (0, 1)%Z = Some (-3) /\
  uniform 3 3 even 3 /\ wide three_in (shape_image even) /\ calc_slip_bands three_in 3 3 even None None = Err IndexError.
Proof.
  split; [apply three_sums|]. split; [apply three_peaks|].
  assert (U : uniform 3 3 even 3).
  { split; [lra|]. intros p _. right. unfold even. destruct (snd p =? 1)%Z; [exists (-3)|exists 3]; split; try reflexivity; [rewrite Rabs_left; lra|rewrite Rabs_pos_eq; lra]. }
  split; [|split; [reflexivity|split; [exact U|split; [apply wide_met|apply (C115_none_refuted _ _ _ _ 3); [apply three_sums|apply three_peaks|lia|lia|exact U|apply wide_met]]]]].
  unfold calc_slip_bands. cbn [all_pix].
  set (f := fun t => Some (if (t =? 90)%nat then 83 / 3 else 625 / 81)).
  assert (P : profile three_in 3 3 banded = map f angles).
  { change (profile three_in 3 3 banded) with (map (profile_at three_in (ready 3 3 banded) (support (ready 3 3 banded))) angles). apply map_ext. intros t.
    set (r := ready 3 3 banded).
    assert (R0 : forall p, inside 3 3 p -> r p = if (snd p =? 1)%Z then 3 else 1).
    { intros p I. unfold r. rewrite ready_magnitude by exact I. unfold magnitude, banded. destruct (snd p =? 1)%Z; [rewrite Rabs_left; lra|rewrite Rabs_pos_eq; lra]. }
    assert (S0 : forall p, inside 3 3 p -> support r p = 1).
    { intros p I. unfold support. rewrite R0 by exact I. destruct (snd p =? 1)%Z; destruct (Req_EM_T _ 0); try lra; reflexivity. }
    assert (M : min_diam three_in (support r) = 3%nat). { destruct (min_diam_spec three_in (support r)) as (t' & _ & E & _). rewrite E. now apply three_meeting. }
    assert (CR : forall i, (i < 3)%nat -> crop three_in r (support r) i t = if (t =? 90)%nat then (if (i =? 1)%nat then 3 else 1) else 5 / 3).
    { intros i I. unfold crop. rewrite M. cbn [o_radon three_in three]. destruct (Nat.ltb_spec i 3) as [_|N]; [|lia].
      assert (i = 0 \/ i = 1 \/ i = 2)%nat as D by lia.
      destruct (t =? 90)%nat; rewrite !S0, !R0 by (split; cbn; lia); (destruct (Rlt_dec _ _) as [_|N]; [|exfalso; apply N; cbn; lra]);
        destruct D as [-> | [-> | ->]]; cbn [snd Z.of_nat Pos.of_succ_nat Pos.succ Z.eqb Pos.eqb Nat.eqb]; field. }
    unfold profile_at. cbn [o_rays three_in seq map]. rewrite !CR by lia. unfold f. cbn [Nat.eqb].
    assert (PP : forall x, 0 < x -> positive x = true) by (intros x X; unfold positive; destruct (Rlt_dec 0 x); [reflexivity|contradiction]).
    destruct (t =? 90)%nat; cbn [filter]; rewrite !PP by lra; cbn [List.length]; unfold sum; cbn [map fold_right INR]; f_equal; field. }
  rewrite P. cbn [o_peaks three_in three].
  assert (L : filter (local_max (map f angles)) (seq 1 (List.length (map f angles) - 2)) = filter (fun i => (i =? 90)%nat) (seq 1 178)).
  { rewrite map_length. unfold angles at 2. rewrite seq_length. apply filter_ext_in. intros i I. apply in_seq in I.
    assert (N : forall j, (j < 180)%nat -> nth_error (map f angles) j = Some (f j)).
    { intros j J. rewrite nth_error_map. unfold angles. rewrite (nth_error_nth' _ O) by (rewrite seq_length; exact J). rewrite seq_nth by exact J. reflexivity. }
    unfold local_max. rewrite !N by lia. unfold f.
    destruct (Nat.eqb_spec i 90) as [->|NE].
    - cbn [Nat.eqb Nat.sub Nat.add]. destruct (Rlt_dec (625 / 81) (83 / 3)) as [_|X]; [reflexivity|exfalso; lra].
    - destruct (Nat.eqb_spec (i - 1) 90) as [E1|E1].
      + destruct (Rlt_dec _ _) as [X|_]; [exfalso; lra|reflexivity].
      + destruct (Rlt_dec _ _) as [X|_]; [exfalso; lra|reflexivity]. }
  rewrite L. assert (F : filter (fun i => (i =? 90)%nat) (seq 1 178) = [90%nat]) by (vm_compute; reflexivity). rewrite F.
  destruct (all_pix 3 3) eqn:AP; [vm_compute in AP; discriminate|]. cbn [map_res bind]. assert (NA : nth_error angles 90 = Some 90%nat) by (vm_compute; reflexivity). rewrite NA. reflexivity.
Qed.
Print Assumptions C115_magnitude.
Print Assumptions C115_scale.
Print Assumptions C115_angles.
Print Assumptions C115_upright_refuted.
Print Assumptions C115_defaults.
Print Assumptions C115_uniform.
Print Assumptions C115_none_refuted.
Print Assumptions C115_unstrained_refuted.
Print Assumptions C115_met.
