(** Grain data and grain images: C40 to C45, C77, C78. *)
From Coq Require Import String Reals Lra Lia Permutation.
From Coq Require Import List ZArith Bool.
Import ListNotations.
From Verif Require Import Py Grid Grid_Lemmas Boundary_Model Crystal_Model Base_Model Base_Spec Base_Proofs.
Open Scope Z_scope.

(** * C40: collecting and scattering grain data *)

(** Scattering one list of values per grain and collecting it again gives the
    lists back; pixels in no grain are zero. *)
Theorem C40_scatter_collect : forall (A : Type) W H (zero : A) (gs : list (list pix * list A)),
  gs <> [] -> good_grains W H (map fst gs) ->
  Forall (fun g => List.length (fst g) = List.length (snd g)) gs ->
  exists im, grain_data_to_map W H zero gs = Ok im /\
    (forall pts vals, In (pts, vals) gs -> grain_data W H im pts = Ok vals) /\
    (forall p, (forall pts vals, In (pts, vals) gs -> ~ In p pts) -> im p = zero).
Proof.
  intros A W H zero gs Hne G L.
  destruct (scatter_grains A W H gs (fun _ => zero) G L) as (im & E & F & O).
  exists im. split; [|split].
  - unfold grain_data_to_map. destruct gs; [congruence|exact E].
  - intros pts vals I. rewrite Forall_forall in F. specialize (F _ I). cbn [fst snd] in F.
    destruct G as [G _]. rewrite Forall_forall in G.
    rewrite grain_data_ok by (apply (G pts); apply (in_map fst) in I; exact I).
    apply holds_at_map in F. now rewrite F.
  - intros p Hp. apply O. intros [pts vals] I. apply (Hp _ _ I).
Qed.
Print Assumptions C40_scatter_collect.

(** Collecting from a map and scattering again reproduces the map on the grains. *)
Theorem C40_collect_scatter : forall (A : Type) W H (zero : A) (md : pix -> A) grains,
  grains <> [] -> good_grains W H grains ->
  exists lists im, map_res (grain_data W H md) grains = Ok lists /\
    grain_data_to_map W H zero (combine grains lists) = Ok im /\
    (forall g p, In g grains -> In p g -> im p = md p).
Proof.
  intros A W H zero md grains Hne G.
  assert (E : map_res (grain_data W H md) grains = Ok (map (map md) grains)).
  { apply map_res_ok. intros g Hg. apply grain_data_ok. destruct G as [G _]. rewrite Forall_forall in G. apply (G g Hg). }
  assert (C : combine grains (map (map md) grains) = map (fun g => (g, map md g)) grains).
  { clear. induction grains as [|g l IH]; cbn [map combine]; congruence. }
  assert (M : map fst (map (fun g => (g, map md g)) grains) = grains).
  { rewrite map_map. cbn [fst]. apply map_id. }
  destruct (C40_scatter_collect A W H zero (map (fun g => (g, map md g)) grains)) as (im & Ei & B & _).
  - destruct grains; [congruence|discriminate].
  - now rewrite M.
  - apply Forall_forall. intros x Hx. apply in_map_iff in Hx as (g & <- & _). cbn [fst snd]. now rewrite map_length.
  - exists (map (map md) grains), im. split; [auto|]. split; [now rewrite C|].
    intros g p Hg Hp. specialize (B g (map md g)).
    rewrite grain_data_ok in B by (destruct G as [G _]; rewrite Forall_forall in G; apply (G g Hg)).
    assert (X : map im g = map md g).
    { specialize (B ltac:(apply in_map_iff; eauto)). congruence. }
    clear - X Hp. induction g as [|q g IH]; [destruct Hp|]. cbn [map] in X. injection X as X1 X2.
    destruct Hp as [<-|Hp]; auto.
Qed.
Print Assumptions C40_collect_scatter.

(** One value (or three) per grain: the pixels of a chosen grain hold its value,
    all other pixels hold the background, stored with the type of the data. *)
Theorem C40_map_data_partial : forall W H grains d data rows depth ids bg,
  good_grains W H grains -> NoDup (chosen_ids grains ids) ->
  (forall i, In i (chosen_ids grains ids) -> 0 <= i < Z.of_nat (List.length grains)) ->
  (data = GNums (map (fun r => nth 0 r NaN) rows) /\ depth = 1%nat /\ Forall (fun r => List.length r = 1%nat) rows
   \/ data = GRows 3 rows /\ depth = 3%nat) ->
  List.length rows = List.length (chosen_ids grains ids) ->
  exists im, grain_data_to_map_data W H grains d data ids bg = Ok im /\
    (forall k i r g p, nth_error (chosen_ids grains ids) k = Some i -> nth_error rows k = Some r ->
       nth_error grains (Z.to_nat i) = Some g -> In p g -> im p = r) /\
    (forall p, (forall i g, In i (chosen_ids grains ids) -> nth_error grains (Z.to_nat i) = Some g -> ~ In p g) ->
       im p = repeat (cast d bg) depth).
Proof.
  intros W H grains d data rows depth ids bg G ND HI HD L.
  destruct (map_data_ok W H grains d depth rows data ids bg G ND HI HD L) as (im & E & A & B).
  exists im. split; [auto|]. split; [|auto].
  intros k i r g p Hk Hr. apply (A i r g p). clear - Hk Hr. revert rows k Hk Hr.
  induction (chosen_ids grains ids) as [|j l IH]; intros rows k Hk Hr; [destruct k; discriminate|].
  destruct rows as [|s rows]; [destruct k; discriminate|]. destruct k as [|k]; cbn [nth_error] in *.
  - injection Hk as ->. injection Hr as ->. left; auto.
  - right. eapply IH; eauto.
Qed.
Print Assumptions C40_map_data_partial.

(** Float data keeps any background; integer data keeps integer backgrounds. *)
Theorem C40_background_partial : forall bg,
  cast DFloat bg = bg /\ (forall z, cast DInt (Fin (IZR z)) = Fin (IZR z)).
Proof. intros bg. split; [reflexivity|]. intros z. cbn [cast]. now rewrite trunc_int. Qed.
Print Assumptions C40_background_partial.

(** The order of the grains does not matter. *)
Theorem C40_order : forall W H grains d l1 l2 v1 v2 bg im1 im2,
  good_grains W H grains -> NoDup l1 -> List.length v1 = List.length l1 -> List.length v2 = List.length l2 ->
  (forall i, In i l1 -> 0 <= i < Z.of_nat (List.length grains)) ->
  Permutation (combine l1 v1) (combine l2 v2) ->
  grain_data_to_map_data W H grains d (GNums v1) (IdSeq l1) bg = Ok im1 ->
  grain_data_to_map_data W H grains d (GNums v2) (IdSeq l2) bg = Ok im2 ->
  forall p, im1 p = im2 p.
Proof.
  assert (fsts : forall A B (l : list A) (m : list B), List.length m = List.length l -> map fst (combine l m) = l).
  { induction l as [|a l IH]; intros [|b m] E; try discriminate E; cbn [combine map fst]; auto. rewrite IH; auto. }
  intros W H grains d l1 l2 v1 v2 bg im1 im2 G ND L1 L2 HI P E1 E2 p.
  assert (P1 : Permutation l1 l2).
  { rewrite <- (fsts _ _ l1 v1 L1), <- (fsts _ _ l2 v2 L2). now apply Permutation_map. }
  set (wrap := map (fun x : num => [x])).
  assert (W1 : forall l, map (fun r => nth 0 r NaN) (wrap l) = l).
  { intros l. unfold wrap. rewrite map_map. cbn [nth]. apply map_id. }
  assert (W2 : forall l, Forall (fun r : list num => List.length r = 1%nat) (wrap l)).
  { intros l. apply Forall_forall. intros r Hr. apply in_map_iff in Hr as (x & <- & _). reflexivity. }
  destruct (map_data_ok W H grains d 1 (wrap v1) (GNums v1) (IdSeq l1) bg G ND HI) as (jm1 & F1 & A1 & B1).
  { left. rewrite W1. auto. }
  { unfold wrap. now rewrite map_length. }
  destruct (map_data_ok W H grains d 1 (wrap v2) (GNums v2) (IdSeq l2) bg G) as (jm2 & F2 & A2 & B2).
  { now apply (Permutation_NoDup P1). }
  { intros i Hi. apply HI. now apply (Permutation_in _ (Permutation_sym P1)). }
  { left. rewrite W1. auto. }
  { unfold wrap. now rewrite map_length. }
  cbn [chosen_ids] in *. rewrite E1 in F1. rewrite E2 in F2. injection F1 as <-. injection F2 as <-.
  assert (C : forall A B C (f : B -> C) (l : list A) m, combine l (map f m) = map (fun ab => (fst ab, f (snd ab))) (combine l m)).
  { induction l as [|a l IH]; intros [|b m]; cbn [combine map fst snd]; auto. now rewrite IH. }
  destruct (in_dec pix_dec p (flat_map (fun i => match nth_error grains (Z.to_nat i) with Some g => g | None => [] end) l1))
    as [I|I].
  - apply in_flat_map in I as (i & Hi & Ip). destruct (nth_error grains (Z.to_nat i)) as [g|] eqn:Eg; [|destruct Ip].
    assert (Hi' := Hi). rewrite <- (fsts _ _ l1 v1 L1) in Hi'. apply in_map_iff in Hi' as ([i' v] & Ei & Iv).
    cbn [fst] in Ei. subst i'.
    assert (Q1 : In (i, [v]) (combine l1 (wrap v1))).
    { unfold wrap. rewrite C. apply in_map_iff. exists (i, v). auto. }
    assert (Q2 : In (i, [v]) (combine l2 (wrap v2))).
    { unfold wrap. rewrite C. apply in_map_iff. exists (i, v). split; auto. now apply (Permutation_in _ P). }
    rewrite (A1 i [v] g p Q1 Eg Ip), (A2 i [v] g p Q2 Eg Ip). reflexivity.
  - rewrite B1, B2; auto.
    + intros i g Hi Eg Ip. apply I. apply in_flat_map. exists i. split.
      * now apply (Permutation_in _ (Permutation_sym P1)).
      * now rewrite Eg.
    + intros i g Hi Eg Ip. apply I. apply in_flat_map. exists i. split; auto. now rewrite Eg.
Qed.
Print Assumptions C40_order.

(** One value per chosen grain is required. *)
Theorem C40_length_checked : forall W H grains d data ids bg,
  gvals_len data <> List.length (chosen_ids grains ids) ->
  grain_data_to_map_data W H grains d data ids bg = Err ValueError.
Proof.
  intros W H grains d data ids bg N. unfold grain_data_to_map_data. rewrite <- upto_zseq.
  fold (chosen_ids grains ids). destruct (Nat.eqb_spec (gvals_len data) (List.length (chosen_ids grains ids))); [contradiction|].
  reflexivity.
Qed.
Print Assumptions C40_length_checked.

(** The background is not kept when the data is integer: one half becomes 0. *)
Theorem C40_background_refuted : exists W H grains data ids bg im p,
  good_grains W H grains /\ inside W H p /\ (forall g, In g grains -> ~ In p g) /\
  grain_data_to_map_data W H grains DInt data ids bg = Ok im /\ im p <> [bg].
Proof.
  exists 2, 1, [[(0, 0)]], (GNums [Fin 3]), (IdInt (-1)), (Fin (1/2)).
  destruct (C40_map_data_partial 2 1 [[(0, 0)]] DInt (GNums [Fin 3]) [[Fin 3]] 1 (IdInt (-1)) (Fin (1/2)))
    as (im & E & A & B).
  - split; [|repeat constructor]. constructor; [|constructor]. split; [repeat constructor; auto|].
    intros p [<-|[]]. unfold inside; cbn; lia.
  - cbn. repeat constructor. auto.
  - intros i [<-|[]]; cbn; lia.
  - left. cbn. auto.
  - reflexivity.
  - exists im, (1, 0). split.
    { split; [|repeat constructor]. constructor; [|constructor]. split; [repeat constructor; auto|].
      intros p [<-|[]]. unfold inside; cbn; lia. }
    split; [unfold inside; cbn; lia|]. split; [intros g [<-|[]] [X|[]]; discriminate X|]. split; [exact E|].
    rewrite B.
    + cbn [repeat cast]. unfold trunc. destruct (Rle_dec 0 (1/2)); [|lra].
      rewrite (int_part_unique (1/2) 0) by lra. intros X. injection X as X. lra.
    + intros i g [<-|[]] X. cbn in X. injection X as <-. intros [Y|[]]. discriminate Y.
Qed.
Print Assumptions C40_background_refuted.

Example C40_example : good_grains 3 1 [[(0, 0); (1, 0)]; [(2, 0)]].
Proof.
  split.
  - constructor; [|constructor; [|constructor]].
    + split; [repeat constructor; cbn; intuition congruence|intros p [<-|[<-|[]]]; unfold inside; cbn; lia].
    + split; [repeat constructor; cbn; intuition congruence|intros p [<-|[]]; unfold inside; cbn; lia].
  - constructor; [|repeat constructor]. constructor; [|constructor].
    intros p [<-|[<-|[]]] [X|[]]; discriminate X.
Qed.
Example C40_example_run :
  match grain_data_to_map 3 1 0 [([(0, 0); (1, 0)], [5; 6]); ([(2, 0)], [7])] with
  | Ok im => map im [(0, 0); (1, 0); (2, 0)] = [5; 6; 7]
  | Err _ => False
  end.
Proof. vm_compute. reflexivity. Qed.

(** * C41: grain images *)

(** The box is the least one containing the grain. *)
Theorem C41_box : forall pts, pts <> [] -> exists x0 y0 x1 y1,
  extreme_coords pts = Ok (x0, y0, x1, y1) /\ bounding_box pts x0 y0 x1 y1.
Proof. exact extreme_ok. Qed.
Print Assumptions C41_box.

(** The image of a grain has the size of its box, the k-th value at the k-th point
    counted from the corner of the box, and the background elsewhere. *)
Theorem C41_image_partial : forall d pts data bg, pts <> [] -> NoDup pts -> List.length data = List.length pts ->
  exists x0 y0 x1 y1 im, bounding_box pts x0 y0 x1 y1 /\
    grain_map_data d pts data bg = Ok (Image (x1 - x0 + 1) (y1 - y0 + 1) im) /\
    Forall2 (fun p v => im (moved x0 y0 p) = v) pts data /\
    (forall q, (forall p, In p pts -> q <> moved x0 y0 p) -> im q = cast d bg).
Proof. intros. apply grain_map_ok; auto. Qed.
Print Assumptions C41_image_partial.

(** The outline holds [fg] on the grain and [bg] elsewhere, for integers. *)
Theorem C41_outline_partial : forall pts bg fg, pts <> [] ->
  exists x0 y0 x1 y1 im, bounding_box pts x0 y0 x1 y1 /\
    grain_outline pts (Fin (IZR bg)) (Fin (IZR fg)) = Ok (Image (x1 - x0 + 1) (y1 - y0 + 1) im) /\
    (forall p, In p pts -> im (moved x0 y0 p) = Fin (IZR fg)) /\
    (forall q, (forall p, In p pts -> q <> moved x0 y0 p) -> im q = Fin (IZR bg)).
Proof.
  intros pts bg fg Hne. destruct (outline_ok pts (Fin (IZR bg)) (Fin (IZR fg)) Hne)
    as (x0 & y0 & x1 & y1 & im & B & E & A & O).
  exists x0, y0, x1, y1, im. cbn [cast] in A, O. rewrite !trunc_int in *. auto.
Qed.
Print Assumptions C41_outline_partial.

(** The coarse image of float data: at each pixel of the grain, the mean over the
    grain's pixels at most k rows and columns away; the background elsewhere. *)
Theorem C41_coarse_partial : forall pts (f : pix -> R) k bg, pts <> [] -> NoDup pts -> 0 <= k ->
  exists x0 y0 x1 y1 im, bounding_box pts x0 y0 x1 y1 /\
    grain_map_data_coarse DFloat pts (map (fun p => Fin (f p)) pts) k bg =
      Ok (Image (x1 - x0 + 1) (y1 - y0 + 1) im) /\
    (forall p, In p pts -> im (moved x0 y0 p) = Fin (mean_of (map f (filter (nearb k p) pts)))) /\
    (forall q, (forall p, In p pts -> q <> moved x0 y0 p) -> im q = bg).
Proof. exact coarse_ok. Qed.
Print Assumptions C41_coarse_partial.

(** With its default background nan, the outline does not hold nan outside the
    grain but the least 64-bit integer. *)
Theorem C41_outline_nan_refuted : forall pts fg, pts <> [] ->
  exists x0 y0 x1 y1 im, bounding_box pts x0 y0 x1 y1 /\
    grain_outline pts NaN fg = Ok (Image (x1 - x0 + 1) (y1 - y0 + 1) im) /\
    (forall q, (forall p, In p pts -> q <> moved x0 y0 p) -> im q = Fin (- IZR (2 ^ 63)) /\ im q <> NaN).
Proof.
  intros pts fg Hne. destruct (outline_ok pts NaN fg Hne)
    as (x0 & y0 & x1 & y1 & im & B & E & A & O).
  exists x0, y0, x1, y1, im. split; [auto|]. split; [auto|]. intros q Hq. rewrite (O q Hq). cbn [cast].
  split; [reflexivity|discriminate].
Qed.
Print Assumptions C41_outline_nan_refuted.

(** For a map of 2-vectors the pixel of the k-th point does not hold the vector at
    that point, but the k-th component at all points. *)
Theorem C41_vector_refuted : exists W H (md : Z -> pix -> num) pts im,
  within_map W H pts /\ grain_map_vec W H 2 DFloat md pts NaN = Ok im /\
  exists p, In p pts /\ im_at im p <> [md 0 p; md 1 p].
Proof.
  exists 2, 1, (fun c p => Fin (IZR (10 * c + fst p))), [(0, 0); (1, 0)].
  destruct (grain_map_ok _ [(0, 0); (1, 0)] (map (fun c => map (fun p : pix => Fin (IZR (10 * c + fst p))) [(0, 0); (1, 0)]) [0; 1])
             [NaN; NaN]) as (x0 & y0 & x1 & y1 & im & B & Ei & F & O).
  { discriminate. } { repeat constructor; cbn; intuition congruence. } { reflexivity. }
  assert (B' : bounding_box [(0, 0); (1, 0)] 0 0 1 0).
  { split; [intros p [<-|[<-|[]]]; cbn; lia|]. split; [exists (0, 0); cbn; auto|]. split; [exists (1, 0); cbn; auto|].
    split; exists (0, 0); cbn; auto. }
  destruct (box_unique _ _ _ _ _ _ _ _ _ B B') as (-> & -> & -> & ->).
  exists (Image 2 1 im). split.
  { split; [repeat constructor; cbn; intuition congruence|intros p [<-|[<-|[]]]; unfold inside; cbn; lia]. }
  split.
  { unfold grain_map_vec, grain_data_vec. change (zseq 0 (Z.to_nat 2)) with [0; 1]. cbn [map_res].
    rewrite !grain_data_ok by (intros p [<-|[<-|[]]]; unfold inside; cbn; lia). exact Ei. }
  exists (1, 0). split; [right; left; auto|]. cbn [im_at].
  inversion F as [|? ? ? ? F1 F2]; subst. inversion F2 as [|? ? ? ? F3 F4]; subst.
  change (moved 0 0 (1, 0)) with (1, 0) in F3. rewrite F3. cbn [map fst].
  intros X. apply (f_equal (fun l => match l with Fin r :: _ => r | _ => 0%R end)) in X. cbv beta iota in X.
  apply eq_IZR in X. cbn [fst] in X. lia.
Qed.
Print Assumptions C41_vector_refuted.

(** For integer data the coarse image does not stay inside the grain: the pixels of
    the box outside the grain take part in the means. *)
Theorem C41_coarse_int_refuted : exists pts im q,
  pts <> [] /\ NoDup pts /\ (forall p, In p pts -> p <> q) /\
  grain_map_data_coarse DInt pts (map (fun _ => Fin 1) pts) 0 (Fin 7) = Ok im /\
  0 <= fst q < im_w im /\ 0 <= snd q < im_h im /\ bounding_box pts 0 0 1 1 /\
  im_at im q <> Fin 7.
Proof.
  exists [(0, 0); (1, 1)].
  destruct (grain_map_ok num [(0, 0); (1, 1)] [Fin 1; Fin 1] (cast DInt NaN)) as (x0 & y0 & x1 & y1 & im & B & E & F & O).
  { discriminate. } { repeat constructor; cbn; intuition congruence. } { reflexivity. }
  assert (B' : bounding_box [(0, 0); (1, 1)] 0 0 1 1).
  { split; [intros p [<-|[<-|[]]]; cbn; lia|]. split; [exists (0, 0); cbn; auto|]. split; [exists (1, 1); cbn; auto|].
    split; [exists (0, 0); cbn; auto|exists (1, 1); cbn; auto]. }
  destruct (box_unique _ _ _ _ _ _ _ _ _ B B') as (-> & -> & -> & ->).
  exists (Image 2 2 (coarse_pixel DInt (Image 2 2 im) 0 (Fin 7))), (1, 0).
  split; [discriminate|]. split; [repeat constructor; cbn; intuition congruence|].
  split; [intros p [<-|[<-|[]]]; discriminate|]. split.
  { unfold grain_map_data_coarse, grain_map_data. cbn [map]. rewrite E. reflexivity. }
  cbn [im_w im_h im_at fst snd]. split; [lia|]. split; [lia|]. split; [auto|].
  assert (V : im (1, 0) = Fin (- IZR (2 ^ 63))).
  { rewrite O; [reflexivity|]. intros p [<-|[<-|[]]]; discriminate. }
  unfold coarse_pixel. cbn [im_w im_h im_at fst snd]. rewrite V. cbn [isnan].
  change (window 0 2 0) with [0]. change (window 0 2 1) with [1]. cbn [flat_map map app]. rewrite V.
  cbn [filter isnan negb]. unfold nmean, nsum. cbn [fold_left nadd List.length INR].
  replace ((0 + - IZR (2 ^ 63)) / 1)%R with (IZR (- (2 ^ 63))) by (rewrite opp_IZR; field).
  cbn [cast]. rewrite trunc_int. intros X. injection X as X. apply eq_IZR in X. vm_compute in X. discriminate X.
Qed.
Print Assumptions C41_coarse_int_refuted.

(** An empty grain has no box. *)
Theorem C41_empty : extreme_coords [] = Err ValueError.
Proof. reflexivity. Qed.
Print Assumptions C41_empty.

Example C41_example : [(4, 7); (5, 7); (5, 8)] <> ([] : list pix) /\ NoDup [(4, 7); (5, 7); (5, 8)] /\
  bounding_box [(4, 7); (5, 7); (5, 8)] 4 7 5 8 /\
  filter (nearb 0 (5, 7)) [(4, 7); (5, 7); (5, 8)] = [(5, 7)] /\
  filter (nearb 1 (5, 7)) [(4, 7); (5, 7); (5, 8)] = [(4, 7); (5, 7); (5, 8)].
Proof.
  split; [discriminate|]. split; [repeat constructor; cbn; intuition congruence|]. split.
  - destruct (extreme_ok [(4, 7); (5, 7); (5, 8)]) as (a & b & c & d & E & B); [discriminate|].
    cbn in E. injection E as <- <- <- <-. exact B.
  - split; reflexivity.
Qed.

(** * C42: the proxigram *)

(** With at least one trial layer, each pixel holds the least distance to the
    boundary points moved by half a pixel, capped at 1000. *)
Theorem C42_nearest : forall points num_trials, (1 <= num_trials)%nat ->
  exists d, calc_proxigram points num_trials = Ok d /\
  forall p, least_of 1000 (fun b => plane_dist (IZR (snd p)) (IZR (fst p)) (IZR (snd b) + 1/2) (IZR (fst b) + 1/2))
                     points (d p).
Proof. exact proxigram_ok. Qed.
Print Assumptions C42_nearest.

(** Neither the number of layers nor the order of the points matters. *)
Theorem C42_batching_irrelevant : forall points points' n n' d d',
  (1 <= n)%nat -> (1 <= n')%nat -> (forall b, In b points <-> In b points') ->
  calc_proxigram points n = Ok d -> calc_proxigram points' n' = Ok d' -> forall p, d p = d' p.
Proof.
  intros points points' n n' d d' Hn Hn' S E E' p.
  destruct (proxigram_ok points n Hn) as (e & F & L). destruct (proxigram_ok points' n' Hn') as (e' & F' & L').
  assert (d = e) by congruence. assert (d' = e') by congruence. subst.
  eapply least_unique; eauto.
Qed.
Print Assumptions C42_batching_irrelevant.

(** The documented parameter may not be 0. *)
Theorem C42_no_trials : forall b points, calc_proxigram (b :: points) 0 = Err IndexError.
Proof. intros. reflexivity. Qed.
Print Assumptions C42_no_trials.

Example C42_example : exists d, calc_proxigram [(3, 4); (9, 9); (0, 0)] 2 = Ok d /\ d (3, 4) = sqrt (1/2).
Proof.
  destruct (C42_nearest [(3, 4); (9, 9); (0, 0)] 2) as (d & E & L); [lia|]. exists d. split; [auto|].
  specialize (L (3, 4)). eapply (least_unique _ 1000 _ _ _ _ _ (fun a => iff_refl _) L).
  cbn [fst snd]. unfold plane_dist.
  assert (Q : (sqrt (1/2) <= 1)%R).
  { pose proof (sqrt_le_1 (1/2) 1) as Q. rewrite sqrt_1 in Q. apply Q; lra. }
  split; [lra|]. split.
  - intros a [<-|[<-|[<-|[]]]]; cbn [fst snd]; apply sqrt_le_1; cbn [pow]; lra.
  - right. exists (3, 4). split; [left; auto|]. cbn [fst snd]. f_equal. lra.
Qed.

(** * C43: averages *)

(** The average of each requested grain is the mean over its pixels; -1 requests
    all grains. *)
Theorem C43_average_partial : forall W H grains (f : pix -> R) ids,
  Forall (fun g => g <> [] /\ forall p, In p g -> inside W H p) grains ->
  ids = IdInt (-1) \/ (exists l, ids = IdSeq l) ->
  (forall i, In i (chosen_ids grains ids) -> 0 <= i < Z.of_nat (List.length grains)) ->
  exists avs, calc_grain_average W H grains (fun p => Fin (f p)) ids = Ok avs /\
    Forall2 (fun i a => exists g, nth_error grains (Z.to_nat i) = Some g /\ a = Fin (mean_of (map f g)))
            (chosen_ids grains ids) avs.
Proof.
  intros W H grains f ids G Hids HI.
  assert (E : calc_grain_average W H grains (fun p => Fin (f p)) ids =
    map_res (fun i => do pts <- py_nth grains i; do vals <- grain_data W H (fun p => Fin (f p)) pts; Ok (nmean vals))
            (chosen_ids grains ids)).
  { destruct Hids as [->|(l & ->)]; unfold calc_grain_average; cbn [chosen_ids]; [|reflexivity].
    rewrite upto_zseq. reflexivity. }
  rewrite E. clear E Hids. induction (chosen_ids grains ids) as [|i l IH].
  - exists []. split; [reflexivity|constructor].
  - destruct IH as (avs & E & F); [intros; apply HI; right; auto|].
    destruct (py_nth_range _ grains i) as (g & Eg & Pg); [apply HI; left; auto|].
    rewrite Forall_forall in G. destruct (G g (nth_error_In _ _ Eg)) as [G1 G2].
    cbn [map_res]. rewrite Pg. cbn [bind]. rewrite grain_data_ok by auto. cbn [bind].
    rewrite <- (map_map f Fin), nmean_fin by (destruct g; [congruence|discriminate]).
    rewrite E. cbn [bind]. eexists. split; [reflexivity|]. constructor; eauto.
Qed.
Print Assumptions C43_average_partial.

(** A value outside the requested grains does not change the averages (nor the
    outcome), whatever the values. *)
Theorem C43_outside_irrelevant : forall W H grains md md' ids,
  (forall g p q, In g grains -> In p g -> np_pix W H p = Some q -> md q = md' q) ->
  calc_grain_average W H grains md ids = calc_grain_average W H grains md' ids.
Proof.
  intros W H grains md md' ids S. unfold calc_grain_average.
  destruct (match ids with
            | IdInt i => if i =? -1 then Ok (zseq 0 (List.length grains)) else Err TypeError
            | IdSeq l => Ok l
            end) as [l|e]; cbn [bind]; [|reflexivity].
  induction l as [|i l IH]; cbn [map_res]; [reflexivity|]. rewrite IH.
  destruct (py_nth grains i) as [g|e] eqn:Eg; cbn [bind]; [|reflexivity].
  assert (X : grain_data W H md g = grain_data W H md' g).
  { assert (Hg : In g grains).
    { unfold py_nth in Eg. destruct (np_index _ i) as [k|]; [|discriminate Eg].
      destruct (nth_error grains (Z.to_nat k)) eqn:E; [|discriminate Eg]. injection Eg as <-. eapply nth_error_In; eauto. }
    clear - S Hg. unfold grain_data. specialize (fun p q => S g p q Hg). clear Hg. induction g as [|p g IHg]; [reflexivity|].
    cbn [map_res]. rewrite IHg by (intros; eapply S; [right; eauto|eauto]).
    unfold fetch. destruct (np_pix W H p) as [q|] eqn:E; [|reflexivity].
    rewrite (S p q) by (auto; left; auto). reflexivity. }
  rewrite X. reflexivity.
Qed.
Print Assumptions C43_outside_irrelevant.

(** nan anywhere in a grain makes its average nan. *)
Theorem C43_nan : forall W H g md, (forall p, In p g -> inside W H p) ->
  (exists p, In p g /\ md p = NaN) -> calc_grain_average W H [g] md (IdSeq [0]) = Ok [NaN].
Proof.
  intros W H g md G (p & Hp & N). unfold calc_grain_average. cbn [bind map_res].
  change (py_nth [g] 0) with (Ok (A := list pix) g). cbn [bind]. rewrite grain_data_ok by auto. cbn [bind].
  rewrite nmean_nan; [reflexivity|]. rewrite <- N. now apply in_map.
Qed.
Print Assumptions C43_nan.

(** A single grain id, as [plot_grain_data_map] documents and passes on, fails. *)
Theorem C43_single_id_refuted : forall W H grains md i, i <> -1 ->
  calc_grain_average W H grains md (IdInt i) = Err TypeError.
Proof. intros W H grains md i N. unfold calc_grain_average. destruct (Z.eqb_spec i (-1)); [contradiction|reflexivity]. Qed.
Print Assumptions C43_single_id_refuted.

Example C43_example : exists avs,
  calc_grain_average 2 2 [[(0, 0); (1, 0)]; [(0, 1)]] (fun p => Fin (IZR (fst p + 10 * snd p))) (IdSeq [1; 0]) = Ok avs /\
  avs = [Fin 10; Fin (1/2)].
Proof.
  destruct (C43_average_partial 2 2 [[(0, 0); (1, 0)]; [(0, 1)]] (fun p => IZR (fst p + 10 * snd p)) (IdSeq [1; 0]))
    as (avs & E & F).
  - repeat constructor; try discriminate; match goal with H : In _ _ |- _ => cbn in H; decompose [or] H; subst; cbn; try lia; contradiction end.
  - right; eauto.
  - intros i [<-|[<-|[]]]; cbn; lia.
  - exists avs. split; [auto|]. cbn [chosen_ids] in F.
    inversion F as [|? ? ? ? (g & Eg & ->) F2]; subst. inversion F2 as [|? ? ? ? (g' & Eg' & ->) F3]; subst.
    inversion F3; subst. cbn in Eg, Eg'. injection Eg as <-. injection Eg' as <-.
    unfold mean_of. cbn. repeat f_equal; lra.
Qed.

(** * C44: components *)

(** A tuple picks that component of the tensor at every pixel; negative indices
    count from the end. *)
Theorem C44_tuple_partial : forall dims h w at_ idx,
  Forall2 (fun i n => - n <= i < n) idx dims ->
  exists r, extract_component (ND (dims ++ [h; w]) at_) (CTuple idx) = Ok (XMap r) /\
    nd_shape r = [h; w] /\
    (forall y x, nd_at r [y; x] = at_ (map (fun ni => from_end (snd ni) (fst ni)) (combine idx dims) ++ [y; x])).
Proof.
  intros dims h w at_ idx F. eexists. split; [|split].
  - unfold extract_component, nd_get. cbn [nd_shape]. rewrite (nd_index_ok dims idx [h; w] F). reflexivity.
  - reflexivity.
  - reflexivity.
Qed.
Print Assumptions C44_tuple_partial.

(** 'norm' (in any case) is the Euclidean norm of a vector and the Frobenius norm
    of a second order tensor, at every pixel. *)
Theorem C44_norm_partial : forall s n m h w at_, lower s = "norm"%string ->
  (exists r, extract_component (ND [n; h; w] at_) (CStr s) = Ok (XMap r) /\ nd_shape r = [h; w] /\
     forall y x, nd_at r [y; x] = sqrt (total (map (fun i => at_ [i; y; x] ^ 2)%R (upto n)))) /\
  (exists r, extract_component (ND [n; m; h; w] at_) (CStr s) = Ok (XMap r) /\ nd_shape r = [h; w] /\
     forall y x, nd_at r [y; x] =
       sqrt (total (map (fun i => total (map (fun j => at_ [i; j; y; x] ^ 2)%R (upto m))) (upto n)))).
Proof.
  intros s n m h w at_ Hs. split.
  - eexists. split; [|split].
    + unfold extract_component. rewrite Hs. cbn [String.eqb Ascii.eqb Bool.eqb nd_shape]. reflexivity.
    + reflexivity.
    + intros y x. cbn [nd_at]. now rewrite rsum_total, range_upto.
  - eexists. split; [|split].
    + unfold extract_component. rewrite Hs. cbn [String.eqb Ascii.eqb Bool.eqb nd_shape]. reflexivity.
    + reflexivity.
    + intros y x. cbn [nd_at]. rewrite rsum_total, !range_upto.
      now rewrite (total_flat _ _ (fun i j => at_ (i :: j :: [y; x]) ^ 2)%R).
Qed.
Print Assumptions C44_norm_partial.

(** No component: the data itself.  Scalars, too few axes for a norm, unknown
    names and other types are rejected with a ValueError. *)
Theorem C44_rejects_partial : forall a,
  extract_component a CNone = Ok (XMap a) /\
  (forall i, extract_component a (CInt i) = Err ValueError) /\
  extract_component a COther = Err ValueError /\
  (forall s, lower s = "norm"%string -> (forall n h w, nd_shape a <> [n; h; w]) -> (forall n m h w, nd_shape a <> [n; m; h; w]) ->
     extract_component a (CStr s) = Err ValueError) /\
  (forall s, lower s <> "norm"%string -> lower s <> "all_euler"%string -> starts_with "ipf" (lower s) = false ->
     extract_component a (CStr s) = Err ValueError) /\
  (forall s, lower s = "all_euler"%string -> extract_component a (CStr s) = Ok (XEuler a)) /\
  (forall s, lower s = "ipf_x"%string -> extract_component a (CStr s) = Ok (XIpf a 0)) /\
  (forall s, lower s = "ipf_y"%string -> extract_component a (CStr s) = Ok (XIpf a 1)) /\
  (forall s, lower s = "ipf_z"%string -> extract_component a (CStr s) = Ok (XIpf a 2)).
Proof.
  intros a. split; [reflexivity|]. split; [reflexivity|]. split; [reflexivity|]. split.
  { intros s Hs N3 N4. unfold extract_component. rewrite Hs. cbn [String.eqb Ascii.eqb Bool.eqb].
    destruct (nd_shape a) as [|d1 [|d2 [|d3 [|d4 [|]]]]] eqn:E; try reflexivity; exfalso; [eapply N3|eapply N4]; eauto. }
  split.
  { intros s N1 N2 N3. unfold extract_component. apply String.eqb_neq in N1, N2. rewrite N1, N2, N3. reflexivity. }
  split; [|split; [|split]]; intros s Hs; unfold extract_component; rewrite Hs; reflexivity.
Qed.
Print Assumptions C44_rejects_partial.

(** Validation: after it, a tuple has one index per tensor order, and no component
    means scalar data; the default is used exactly when none is given. *)
Theorem C44_validate : forall order default c r, validate_component order default c = Ok r ->
  (forall l, r = CTuple l -> Z.of_nat (List.length l) = order) /\ (r = CNone -> order = 0) /\
  (forall i, r <> CInt i) /\ (c <> CNone -> validate_component order CNone c = Ok r) /\
  (c = CNone -> validate_component order default default = Ok r).
Proof.
  intros order default c r H.
  assert (Q : forall c, match c with CNone => if negb (order =? 0) then Err ValueError else Ok CNone
             | CInt i => if negb (1 =? order) then Err ValueError else Ok (CTuple [i])
             | CTuple l => if negb (Z.of_nat (List.length l) =? order) then Err ValueError else Ok c
             | _ => Ok c end = Ok r ->
            (forall l, r = CTuple l -> Z.of_nat (List.length l) = order) /\ (r = CNone -> order = 0) /\ (forall i, r <> CInt i)).
  { intros d E. destruct d as [|i|l|s|].
    - destruct (Z.eqb_spec order 0); cbn [negb] in E; [|discriminate E]. injection E as <-.
      split; [discriminate|]. split; [auto|discriminate].
    - destruct (Z.eqb_spec 1 order); cbn [negb] in E; [|discriminate E]. injection E as <-.
      split; [intros l X; injection X as <-; cbn; lia|]. split; discriminate.
    - destruct (Z.eqb_spec (Z.of_nat (List.length l)) order); cbn [negb] in E; [|discriminate E]. injection E as <-.
      split; [intros l' X; injection X as <-; auto|]. split; discriminate.
    - injection E as <-. split; [discriminate|]. split; discriminate.
    - injection E as <-. split; [discriminate|]. split; discriminate. }
  unfold validate_component in H. specialize (Q _ H) as (A & B & C). split; [auto|]. split; [auto|]. split; [auto|].
  split.
  - intros N. destruct c; [congruence|exact H..].
  - intros ->. unfold validate_component. destruct default; exact H.
Qed.
Print Assumptions C44_validate.

(** Some wrong names escape the check: 'ipf' is an IndexError and 'ipf_w' a
    KeyError. *)
Theorem C44_ipf_refuted : forall a,
  extract_component a (CStr "ipf") = Err IndexError /\ extract_component a (CStr "ipf_w") = Err KeyError.
Proof. intros a. split; reflexivity. Qed.
Print Assumptions C44_ipf_refuted.

Example C44_example : Forall2 (fun i n => - n <= i < n) [0; -1] [2; 3] /\
  map (fun ni => from_end (snd ni) (fst ni)) (combine [0; -1] [2; 3]) = [0; 2] /\ lower "Norm" = "norm"%string.
Proof. repeat split; repeat constructor; lia. Qed.

(** * C45: clicks *)

(** A click in the lower half of the drawn pixel, on each axis, selects the grain
    of that pixel, or nothing when it belongs to no grain. *)
Theorem C45_click_partial : forall W H labels n x y px py,
  drawn_at x px -> drawn_at y py -> inside W H (px, py) -> labels (px, py) <= Z.of_nat n ->
  (px = 0 \/ (IZR px <= x)%R) -> (py = 0 \/ (IZR py <= y)%R) ->
  click_grain_id W H labels n true x y = Ok (grain_of_label (labels (px, py))).
Proof.
  intros W H labels n x y px py Dx Dy I L Hx Hy. destruct I as [Ix Iy]. cbn [fst snd] in Ix, Iy.
  assert (T : forall x px, (0 <= px)%Z -> drawn_at x px -> (px = 0 \/ (IZR px <= x)%R) -> trunc x = px).
  { clear. intros x px Hp [D1 D2] Hx. destruct (Rle_dec (IZR px) x) as [Le|Le].
    - apply trunc_pos; [auto|lra].
    - destruct Hx as [->|]; [|contradiction]. apply trunc_neg. lra. }
  unfold click_grain_id. cbn [negb]. rewrite (T x px), (T y py) by (auto; lia).
  rewrite fetch_in by (split; auto). cbn [bind]. unfold grain_of_label.
  destruct (Z.ltb_spec (labels (px, py) - 1) 0), (Z.ltb_spec 0 (labels (px, py))); try lia; [reflexivity|].
  destruct (py_nth_range _ (repeat tt n) (labels (px, py) - 1)) as ([] & _ & E); [rewrite repeat_length; lia|].
  rewrite E. reflexivity.
Qed.
Print Assumptions C45_click_partial.

(** Any click on the map selects a grain or nothing, never the background. *)
Theorem C45_no_background : forall W H labels n x y px py,
  drawn_at x px -> drawn_at y py -> inside W H (px, py) -> (forall p, labels p <= Z.of_nat n) ->
  exists s, click_grain_id W H labels n true x y = Ok s /\
    match s with None => True | Some g => 0 <= g < Z.of_nat n end.
Proof.
  intros W H labels n x y px py Dx Dy [Ix Iy] L. cbn [fst snd] in Ix, Iy.
  assert (T : forall x px N, 0 <= px < N -> drawn_at x px -> 0 <= trunc x < N).
  { clear. intros x px N Hp [D1 D2]. destruct (Rle_dec (IZR px) x) as [Le|Le].
    - rewrite (trunc_pos x px); [lia|lia|lra].
    - destruct (Z.eq_dec px 0) as [->|Nz].
      + rewrite trunc_neg; [lia|lra].
      + rewrite (trunc_pos x (px - 1)); [lia|lia|]. rewrite minus_IZR. lra. }
  pose proof (T x px W Ix Dx) as Tx. pose proof (T y py H Iy Dy) as Ty.
  unfold click_grain_id. cbn [negb]. rewrite fetch_in by (split; auto). cbn [bind].
  pose proof (L (trunc x, trunc y)).
  destruct (Z.ltb_spec (labels (trunc x, trunc y) - 1) 0).
  - exists None. split; auto.
  - destruct (py_nth_range _ (repeat tt n) (labels (trunc x, trunc y) - 1)) as ([] & _ & E); [rewrite repeat_length; lia|].
    rewrite E. eexists. split; [reflexivity|]. cbv beta iota. lia.
Qed.
Print Assumptions C45_no_background.

(** Clicks in other axes are ignored. *)
Theorem C45_off_map : forall W H labels n x y, click_grain_id W H labels n false x y = Ok None.
Proof. reflexivity. Qed.
Print Assumptions C45_off_map.

(** A click in the upper half of a drawn pixel selects the grain of the previous
    pixel: pixels are drawn around their integer coordinate, but the coordinate is
    cut, not rounded. *)
Theorem C45_half_pixel_refuted : exists W H labels n x y px py,
  drawn_at x px /\ drawn_at y py /\ inside W H (px, py) /\ (forall p, labels p <= Z.of_nat n) /\
  grain_of_label (labels (px, py)) = Some 1 /\
  click_grain_id W H labels n true x y = Ok (Some 0).
Proof.
  exists 2, 1, (fun p => if fst p =? 1 then 2 else 1), 2%nat, (3/4)%R, 0%R, 1, 0.
  split; [unfold drawn_at; lra|]. split; [unfold drawn_at; lra|]. split; [unfold inside; cbn; lia|].
  split; [intros p; destruct (fst p =? 1); cbn; lia|]. split; [reflexivity|].
  unfold click_grain_id. cbn [negb]. rewrite (trunc_pos (3/4) 0), (trunc_pos 0 0) by (lia || lra). reflexivity.
Qed.
Print Assumptions C45_half_pixel_refuted.

Example C45_example : drawn_at (27/10) 3 /\ drawn_at (23/10) 2 /\ (IZR 2 <= 23/10)%R.
Proof. unfold drawn_at. lra. Qed.

(** * C77: highlighted neighbours *)

(** Highlighted are the grain, its neighbours and the neighbours of those, each
    exactly once; the first neighbours come before the second. *)
Theorem C77_highlighted : forall nb g, (forall h, NoDup (nb h)) -> ~ In g (nb g) ->
  NoDup (highlighted nb g) /\
  (forall h, In h (highlighted nb g) <-> h = g \/ In h (nb g) \/ exists f, In f (nb g) /\ In h (nb f)) /\
  (exists second, highlighted nb g = g :: nb g ++ second).
Proof.
  intros nb g ND NI. unfold highlighted.
  destruct (second_outer (g :: nb g) nb (nb g) []) as [A B]; [constructor|intros x []|].
  split; [|split].
  - assert (NDh : NoDup (g :: nb g)) by (constructor; auto).
    set (sec := fold_left _ (nb g) []) in *.
    assert (D : forall x, In x sec -> ~ In x (g :: nb g)).
    { intros x H. apply B in H as [[]|[_ H]]. auto. }
    clearbody sec. clear B. clear - NDh A D. induction NDh as [|x l N1 N2 IH]; cbn [app]; auto.
    constructor.
    + rewrite in_app_iff. intros [H|H]; [auto|]. apply (D x H). left; auto.
    + apply IH. intros y Hy H. apply (D y Hy). right; auto.
  - intros h. rewrite in_app_iff, B. split.
    + intros [[<-|H]|[[]|[(f & Hf & H) _]]]; [auto|auto|]. right; right; eauto.
    + intros [->|[H|(f & Hf & H)]]; [left; left; auto|left; right; auto|].
      destruct (in_dec Z.eq_dec h (g :: nb g)) as [I|I]; [left; auto|]. right; right. split; eauto.
  - eexists. reflexivity.
Qed.
Print Assumptions C77_highlighted.

Example C77_example : highlighted (fun g => if g =? 1 then [2; 3] else if g =? 2 then [1; 4] else if g =? 3 then [1; 4] else [2; 3]) 1
  = [1; 2; 3; 4].
Proof. reflexivity. Qed.

(** * C78: the centre of a grain *)

(** Both kinds of centre lie in the bounding box; counted in grain coordinates they
    are counted from the corner of the box.  Other kinds are rejected. *)
Theorem C78_centre : forall pts kind, pts <> [] -> exists x0 y0 x1 y1, bounding_box pts x0 y0 x1 y1 /\
  (kind = "box" \/ kind = "com" ->
   exists cx cy, centre_coords pts kind false = Ok (cx, cy) /\ x0 <= cx <= x1 /\ y0 <= cy <= y1 /\
     centre_coords pts kind true = Ok (moved x0 y0 (cx, cy)))%string /\
  (kind <> "box" -> kind <> "com" -> forall b, centre_coords pts kind b = Err ValueError)%string.
Proof.
  intros pts kind Hne. destruct (extreme_ok pts Hne) as (x0 & y0 & x1 & y1 & E & B).
  exists x0, y0, x1, y1. split; [auto|]. split.
  - unfold centre_coords. rewrite E. cbn [bind]. destruct B as (B & (p & Hp & _) & _).
    pose proof (B p Hp) as Bp.
    assert (M : forall a b, a <= b -> (IZR a <= IZR (b + a) / 2 <= IZR b)%R).
    { clear. intros a b H. rewrite plus_IZR. apply IZR_le in H. lra. }
    intros [->| ->]; cbn [String.eqb Ascii.eqb Bool.eqb bind fst snd].
    + eexists _, _. split; [reflexivity|]. split; [apply rint_between, M; lia|].
      split; [apply rint_between, M; lia|]. reflexivity.
    + eexists _, _. split; [reflexivity|].
      split; [apply rint_between; apply (mean_coord fst); auto; intros; apply B; auto|].
      split; [apply rint_between; apply (mean_coord snd); auto; intros; apply B; auto|]. reflexivity.
  - intros N1 N2 b. unfold centre_coords. rewrite E. cbn [bind].
    apply String.eqb_neq in N1, N2. rewrite N1, N2. reflexivity.
Qed.
Print Assumptions C78_centre.

Example C78_example : centre_coords [(1, 1); (2, 1); (3, 1)] "box" true = Ok (1, 0).
Proof.
  destruct (C78_centre [(1, 1); (2, 1); (3, 1)] "box") as (a & b & c & d & B & _); [discriminate|].
  unfold centre_coords. cbn. replace (4 / 2)%R with 2%R by lra. replace (2 / 2)%R with 1%R by lra.
  assert (R1 : forall n, rint (IZR n) = n).
  { intros n. pose proof (rint_between (IZR n) n n). lra || (assert (IZR n <= IZR n <= IZR n)%R by lra; specialize (H H0); lia). }
  rewrite !R1. reflexivity.
Qed.
