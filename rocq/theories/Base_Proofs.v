From Coq Require Import String Reals Lra Lia Permutation.
From Coq Require Import List ZArith Bool.
Import ListNotations.
From Verif Require Import Py Grid Grid_Lemmas Boundary_Model Crystal_Model Base_Model Base_Spec.
Notation id_list := chosen_ids.
Open Scope Z_scope.

Lemma np_index_in : forall n i, 0 <= i < n -> np_index n i = Some i.
Proof.
  intros n i H. unfold np_index.
  rewrite (proj2 (Z.leb_le 0 i)), (proj2 (Z.ltb_lt i n)) by lia. reflexivity.
Qed.
Lemma np_pix_in : forall W H p, inside W H p -> np_pix W H p = Some p.
Proof.
  intros W H [x y] [A B]. unfold np_pix. cbn [fst snd] in *. rewrite !np_index_in by lia. reflexivity.
Qed.
Lemma fetch_in : forall A W H (im : pix -> A) p, inside W H p -> fetch W H im p = Ok (im p).
Proof. intros A W H im p Hp. unfold fetch. now rewrite np_pix_in. Qed.
Lemma put_in : forall A W H (im : pix -> A) p v, inside W H p -> put W H im p v = Ok (upd im p v).
Proof. intros A W H im p v Hp. unfold put. now rewrite np_pix_in. Qed.

Lemma py_nth_ok : forall A (l : list A) k a, nth_error l k = Some a -> py_nth l (Z.of_nat k) = Ok a.
Proof.
  intros A l k a H. unfold py_nth.
  assert (k < List.length l)%nat by (apply nth_error_Some; congruence).
  rewrite np_index_in by lia. rewrite Nat2Z.id, H. reflexivity.
Qed.
Lemma py_nth_range : forall A (l : list A) i, 0 <= i < Z.of_nat (List.length l) ->
  exists a, nth_error l (Z.to_nat i) = Some a /\ py_nth l i = Ok a.
Proof.
  intros A l i H. destruct (nth_error l (Z.to_nat i)) as [a|] eqn:E.
  - exists a. split; auto. rewrite <- (Z2Nat.id i) by lia. now apply py_nth_ok.
  - apply nth_error_None in E. lia.
Qed.

Lemma map_res_ok : forall A B (f : A -> res B) g l, (forall a, In a l -> f a = Ok (g a)) ->
  map_res f l = Ok (map g l).
Proof.
  induction l as [|a l IH]; intros H; [reflexivity|]. cbn [map_res map].
  rewrite H by (left; auto). cbn [bind]. rewrite IH by (intros; apply H; right; auto). reflexivity.
Qed.
Lemma map_res_inv : forall A B (f : A -> res B) l bs, map_res f l = Ok bs ->
  Forall2 (fun a b => f a = Ok b) l bs.
Proof.
  induction l as [|a l IH]; intros bs H; cbn [map_res] in H.
  - injection H as <-. constructor.
  - destruct (f a) eqn:E; [|discriminate H]. cbn [bind] in H.
    destruct (map_res f l) eqn:E'; [|discriminate H]. injection H as <-. constructor; auto.
Qed.

Lemma grain_data_ok : forall A W H (md : pix -> A) pts, (forall p, In p pts -> inside W H p) ->
  grain_data W H md pts = Ok (map md pts).
Proof. intros A W H md pts Hp. apply map_res_ok. intros p I. apply fetch_in; auto. Qed.

(** ** Scattering *)
Lemma scatter_ok : forall A W H (pts : list pix) (vals : list A) im,
  (forall p, In p pts -> inside W H p) -> NoDup pts -> List.length pts = List.length vals ->
  exists im', for_each (fun im pv => put W H im (fst pv) (snd pv)) (combine pts vals) im = Ok im' /\
    holds_at im' pts vals /\ (forall p, ~ In p pts -> im' p = im p).
Proof.
  induction pts as [|p pts IH]; intros vals im Hi ND L; destruct vals as [|v vals]; try discriminate L.
  - exists im. split; [reflexivity|]. split; [constructor|auto].
  - cbn [combine for_each fst snd]. rewrite put_in by (apply Hi; left; auto). cbn [bind].
    inversion ND as [|? ? N1 N2]; subst.
    destruct (IH vals (upd im p v)) as (im' & E & Hh & Ho); auto.
    { intros; apply Hi; right; auto. }
    exists im'. split; [auto|]. split.
    + constructor; auto. rewrite Ho by auto. apply upd_same.
    + intros q Hq. rewrite Ho by (intros I; apply Hq; right; auto). apply upd_other.
      intros ->; apply Hq; left; auto.
Qed.

Lemma put_values_scatter : forall A W H (pts : list pix) (vals pre : list A) im,
  List.length pts = List.length vals ->
  for_each (fun im ip => do v <- py_nth (pre ++ vals) (fst ip); put W H im (snd ip) v)
           (combine (zseq (Z.of_nat (List.length pre)) (List.length pts)) pts) im =
  for_each (fun im pv => put W H im (fst pv) (snd pv)) (combine pts vals) im.
Proof.
  induction pts as [|p pts IH]; intros vals pre im L; destruct vals as [|v vals]; try discriminate L; auto.
  cbn [List.length zseq combine for_each fst snd].
  rewrite (py_nth_ok _ _ _ v) by (rewrite nth_error_app2, Nat.sub_diag by lia; reflexivity).
  cbn [bind]. destruct (put W H im p v) as [im'|]; cbn [bind]; auto.
  specialize (IH vals (pre ++ [v]) im'). rewrite <- app_assoc in IH. cbn [app] in IH.
  rewrite app_length in IH. cbn [List.length] in IH, L. rewrite <- IH by lia.
  replace (Z.of_nat (List.length pre + 1)) with (Z.of_nat (List.length pre) + 1) by lia. reflexivity.
Qed.
Lemma put_values_ok : forall A W H (pts : list pix) (vals : list A) im,
  within_map W H pts -> List.length pts = List.length vals ->
  exists im', put_values W H im pts vals = Ok im' /\
    holds_at im' pts vals /\ (forall p, ~ In p pts -> im' p = im p).
Proof.
  intros A W H pts vals im [ND Hi] L. unfold put_values.
  rewrite (put_values_scatter _ _ _ _ _ [] im L). now apply scatter_ok.
Qed.

Lemma holds_at_ext : forall A (f g : pix -> A) pts vals, (forall p, In p pts -> g p = f p) ->
  holds_at f pts vals -> holds_at g pts vals.
Proof.
  intros A f g pts vals H F. induction F as [|p v pts vals E F IH]; constructor.
  - rewrite H by (left; auto). auto.
  - apply IH. intros; apply H; right; auto.
Qed.
Lemma holds_at_map : forall A (f : pix -> A) pts vals, holds_at f pts vals <-> map f pts = vals.
Proof.
  intros A f pts vals. split.
  - induction 1; cbn; congruence.
  - intros <-. induction pts; cbn; constructor; auto.
Qed.

Lemma scatter_grains : forall A W H (gs : list (list pix * list A)) im,
  good_grains W H (map fst gs) -> Forall (fun g => List.length (fst g) = List.length (snd g)) gs ->
  exists im', for_each (fun im g => put_values W H im (fst g) (snd g)) gs im = Ok im' /\
    Forall (fun g => holds_at im' (fst g) (snd g)) gs /\
    (forall p, (forall g, In g gs -> ~ In p (fst g)) -> im' p = im p).
Proof.
  induction gs as [|[pts vals] gs IH]; intros im [G1 G2] L.
  - exists im. split; [reflexivity|]. split; [constructor|auto].
  - cbn [map fst] in G1, G2. inversion G1 as [|? ? G1a G1b]; subst. inversion G2 as [|? ? G2a G2b]; subst.
    inversion L as [|? ? L1 L2]; subst. cbn [fst snd] in *. cbn [for_each fst snd].
    destruct (put_values_ok _ W H pts vals im G1a L1) as (im1 & E1 & H1 & O1).
    rewrite E1. cbn [bind]. destruct (IH im1) as (im2 & E2 & H2 & O2); [split; auto|auto|].
    exists im2. split; [auto|]. split.
    + constructor; auto. cbn [fst snd]. apply (holds_at_ext _ im1); auto.
      intros p Hp. apply O2. intros g Hg I. rewrite Forall_forall in G2a.
      apply (G2a (fst g)) with (p := p); auto. now apply in_map.
    + intros p Hp. rewrite O2 by (intros g Hg; apply Hp; right; auto). apply O1.
      apply (Hp (pts, vals)). left; auto.
Qed.

(** ** Filling grains with one value *)
Lemma fill_ok : forall A W H (pts : list pix) (v : A) im, (forall p, In p pts -> inside W H p) ->
  exists im', fill W H im pts v = Ok im' /\
    (forall p, In p pts -> im' p = v) /\ (forall p, ~ In p pts -> im' p = im p).
Proof.
  unfold fill. induction pts as [|p pts IH]; intros v im Hi.
  - exists im. split; [reflexivity|]. split; [intros p []|auto].
  - cbn [for_each]. rewrite put_in by (apply Hi; left; auto). cbn [bind].
    destruct (IH v (upd im p v)) as (im' & E & A1 & A2); [intros; apply Hi; right; auto|].
    exists im'. split; [auto|]. split.
    + intros q Hq. destruct (in_dec pix_dec q pts) as [I|I]; [auto|].
      destruct Hq as [<-|Hq]; [|contradiction]. rewrite A2 by auto. apply upd_same.
    + intros q Hq. rewrite A2 by (intros I; apply Hq; right; auto). apply upd_other.
      intros ->; apply Hq; left; auto.
Qed.

Lemma fill_grains : forall A W H (grains : list (list pix)) (iv : list (Z * A)) im,
  Forall (fun g => forall p, In p g -> inside W H p) grains ->
  (forall i v, In (i, v) iv -> 0 <= i < Z.of_nat (List.length grains)) ->
  exists im', for_each (fun im gv => do pts <- py_nth grains (fst gv); fill W H im pts (snd gv)) iv im = Ok im' /\
    (forall p, (forall i v g, In (i, v) iv -> nth_error grains (Z.to_nat i) = Some g -> ~ In p g) -> im' p = im p) /\
    (forall i v g p, In (i, v) iv -> nth_error grains (Z.to_nat i) = Some g -> In p g ->
       (forall j w h, In (j, w) iv -> nth_error grains (Z.to_nat j) = Some h -> In p h -> w = v) -> im' p = v).
Proof.
  induction iv as [|[i v] iv IH]; intros im HG HI.
  - exists im. split; [reflexivity|]. split; [auto|]. intros i v g p [].
  - cbn [for_each fst snd]. destruct (py_nth_range _ grains i) as (g & Eg & Pg); [apply (HI i v); left; auto|].
    rewrite Pg. cbn [bind].
    assert (Hg : forall p, In p g -> inside W H p).
    { rewrite Forall_forall in HG. apply HG. eapply nth_error_In; eauto. }
    destruct (fill_ok _ W H g v im Hg) as (im1 & E1 & A1 & B1). rewrite E1. cbn [bind].
    destruct (IH im1) as (im2 & E2 & A2 & B2); [auto|intros; eapply HI; right; eauto|].
    exists im2. split; [auto|]. split.
    + intros p Hp. rewrite A2.
      * apply B1. apply (Hp i v g); [left; auto|auto].
      * intros j w h Hj. apply Hp with (v := w). right; auto.
    + intros j w h p Hj Eh Hp Hu.
      destruct (in_dec pix_dec p (flat_map (fun jw => match nth_error grains (Z.to_nat (fst jw)) with
                                   Some h => h | None => [] end) iv)) as [I|I].
      * apply in_flat_map in I as ([k u] & Hk & Ik). cbn [fst] in Ik.
        destruct (nth_error grains (Z.to_nat k)) as [h'|] eqn:Ek; [|destruct Ik].
        assert (u = w) by (apply (Hu k u h'); [right; auto|auto|auto]). subst u.
        apply (B2 k w h' p); auto. intros j' w' h'' X Y Z0. apply (Hu j' w' h''); [right; auto|auto|auto].
      * rewrite A2.
        -- assert (w = v).
           { destruct Hj as [E|Hj]; [now injection E|]. exfalso. apply I. apply in_flat_map.
             exists (j, w). split; auto. cbn [fst]. rewrite Eh. auto. }
           subst w. apply A1. destruct Hj as [E|Hj].
           ++ injection E as ->. congruence.
           ++ exfalso. apply I. apply in_flat_map. exists (j, v). split; auto. cbn [fst]. rewrite Eh. auto.
        -- intros k u h' Hk Ek Ip. apply I. apply in_flat_map. exists (k, u). split; auto. cbn [fst]. rewrite Ek. auto.
Qed.

Lemma FOP_nth_disjoint : forall A (l : list (list A)), ForallOrdPairs disjoint l ->
  forall i j a b p, nth_error l i = Some a -> nth_error l j = Some b -> In p a -> In p b -> i = j.
Proof.
  intros A l H. induction H as [|x l F H IH]; intros i j a b p Hi Hj Ia Ib.
  - destruct i; discriminate.
  - rewrite Forall_forall in F. destruct i as [|i], j as [|j]; cbn [nth_error] in *; auto.
    + injection Hi as <-. exfalso. apply (F b (nth_error_In _ _ Hj) p); auto.
    + injection Hj as <-. exfalso. apply (F a (nth_error_In _ _ Hi) p); auto.
    + f_equal. eapply IH; eauto.
Qed.

Lemma combine_NoDup_l : forall A B (l : list A) (m : list B) a b c, NoDup l ->
  In (a, b) (combine l m) -> In (a, c) (combine l m) -> b = c.
Proof.
  induction l as [|x l IH]; intros m a b c ND H1 H2; [destruct H1|].
  destruct m as [|y m]; [destruct H1|]. inversion ND as [|? ? N1 N2]; subst. cbn [combine In] in H1, H2.
  destruct H1 as [E1|H1], H2 as [E2|H2].
  - congruence.
  - injection E1 as -> _. exfalso. apply N1. eapply in_combine_l; eauto.
  - injection E2 as -> _. exfalso. apply N1. eapply in_combine_l; eauto.
  - eapply IH; eauto.
Qed.


Lemma upto_zseq : forall n, upto (Z.of_nat n) = zseq 0 n.
Proof.
  intros n. unfold upto. rewrite Nat2Z.id.
  assert (G : forall n k, map Z.of_nat (seq k n) = zseq (Z.of_nat k) n).
  { induction n0 as [|n0 IH]; intros k; cbn [seq map zseq]; auto. rewrite IH. f_equal. f_equal. lia. }
  apply (G n 0%nat).
Qed.
Lemma range_upto : forall n, range n = upto n.
Proof.
  intros n. unfold range. destruct (Z.le_gt_cases 0 n) as [L|L].
  - rewrite <- (Z2Nat.id n) at 2 by lia. now rewrite upto_zseq.
  - unfold upto. replace (Z.to_nat n) with 0%nat by lia. reflexivity.
Qed.

Lemma map_data_ok : forall W H grains d (depth : nat) (rows : list (list num)) data ids bg,
  good_grains W H grains -> NoDup (id_list grains ids) ->
  (forall i, In i (id_list grains ids) -> 0 <= i < Z.of_nat (List.length grains)) ->
  (data = GNums (map (fun r => nth 0 r NaN) rows) /\ depth = 1%nat /\ Forall (fun r => List.length r = 1%nat) rows
   \/ data = GRows 3 rows /\ depth = 3%nat) ->
  List.length rows = List.length (id_list grains ids) ->
  exists im, grain_data_to_map_data W H grains d data ids bg = Ok im /\
    (forall i r g p, In (i, r) (combine (id_list grains ids) rows) ->
       nth_error grains (Z.to_nat i) = Some g -> In p g -> im p = r) /\
    (forall p, (forall i g, In i (id_list grains ids) -> nth_error grains (Z.to_nat i) = Some g -> ~ In p g) ->
       im p = repeat (cast d bg) depth).
Proof.
  intros W H grains d depth rows data ids bg [G1 G2] ND HI HD L.
  assert (Rows : match data with
               | GNums l => Ok (1%nat, map (fun x => [x]) l)
               | GRows cols rows => if Nat.eqb cols 3 then Ok (3%nat, rows) else Err ValueError
               | GOther _ => Err ValueError
               end = Ok (depth, rows)).
  { destruct HD as [(-> & -> & F)|(-> & ->)]; [|reflexivity]. do 2 f_equal.
    clear - F. induction F as [|r rows E F IH]; [reflexivity|]. cbn [map]. rewrite IH. f_equal.
    destruct r as [|x [|]]; try discriminate E. reflexivity. }
  assert (Len : gvals_len data = List.length rows).
  { destruct HD as [(-> & _)|(-> & _)]; cbn [gvals_len]; [apply map_length|reflexivity]. }
  destruct (fill_grains _ W H grains (combine (id_list grains ids) rows) (fun _ => repeat (cast d bg) depth))
    as (im & E & A & B).
  { apply Forall_forall. intros g Hg. rewrite Forall_forall in G1. apply (G1 g Hg). }
  { intros i v I. apply HI. eapply in_combine_l; eauto. }
  exists im. split; [|split].
  - unfold grain_data_to_map_data. rewrite <- upto_zseq. fold (id_list grains ids). rewrite Len, L, Nat.eqb_refl. cbn [negb].
    rewrite Rows. cbn [bind]. exact E.
  - intros i r g p I Eg Ip. apply (B i r g p I Eg Ip).
    intros j w h Ij Eh Ih.
    assert (X : Z.to_nat i = Z.to_nat j) by (eapply FOP_nth_disjoint; eauto).
    assert (i = j).
    { assert (0 <= i < Z.of_nat (List.length grains)) by (apply HI; eapply in_combine_l; eauto).
      assert (0 <= j < Z.of_nat (List.length grains)) by (apply HI; eapply in_combine_l; eauto). lia. }
    subst j. eapply combine_NoDup_l; eauto.
  - intros p Hp. apply A. intros i v g I Eg. apply (Hp i g); auto. eapply in_combine_l; eauto.
Qed.

(** ** Sums and means *)
Lemma nsum_fin : forall l a, fold_left nadd (map Fin l) (Fin a) = Fin (a + total l).
Proof.
  induction l as [|x l IH]; intros a; cbn [map fold_left nadd total].
  - f_equal; lra.
  - rewrite IH. f_equal; lra.
Qed.
Lemma nmean_fin : forall l, l <> [] -> nmean (map Fin l) = Fin (mean_of l).
Proof.
  intros l H. unfold nmean, nsum. rewrite nsum_fin, map_length.
  destruct l; [congruence|]. cbn [map]. unfold mean_of. do 2 f_equal; lra.
Qed.
Lemma nsum_nan : forall l a, In NaN l \/ a = NaN -> fold_left nadd l a = NaN.
Proof.
  induction l as [|x l IH]; intros a [H|H]; cbn [fold_left]; auto.
  - destruct H.
  - destruct H as [->|H]; apply IH; auto. right. destruct a; reflexivity.
  - subst a. apply IH. auto.
Qed.
Lemma nmean_nan : forall l, In NaN l -> nmean l = NaN.
Proof.
  intros l H. unfold nmean, nsum. destruct l; [destruct H|]. now rewrite nsum_nan by auto.
Qed.
Lemma total_perm : forall l m, Permutation l m -> total l = total m.
Proof. induction 1; cbn [total]; lra. Qed.
Lemma mean_perm : forall l m, Permutation l m -> mean_of l = mean_of m.
Proof. intros l m P. unfold mean_of. now rewrite (total_perm _ _ P), (Permutation_length P). Qed.

(** ** Boxes *)
Lemma zmin_spec : forall l x, (forall y, In y (x :: l) -> zmin x l <= y) /\ In (zmin x l) (x :: l).
Proof.
  induction l as [|y l IH]; intros x; cbn [zmin].
  - split; [intros y [<-|[]]; lia|left; auto].
  - destruct (IH (Z.min x y)) as [A B]. split.
    + intros z Hz. assert (zmin (Z.min x y) l <= Z.min x y) by (apply A; left; auto).
      destruct Hz as [<-|[<-|Hz]]; [lia|lia|]. apply A; right; auto.
    + destruct B as [B|B]; [|right; right; auto]. rewrite <- B.
      destruct (Z.min_spec x y) as [[_ ->]|[_ ->]]; [left; auto|right; left; auto].
Qed.
Lemma zmax_spec : forall l x, (forall y, In y (x :: l) -> y <= zmax x l) /\ In (zmax x l) (x :: l).
Proof.
  induction l as [|y l IH]; intros x; cbn [zmax].
  - split; [intros y [<-|[]]; lia|left; auto].
  - destruct (IH (Z.max x y)) as [A B]. split.
    + intros z Hz. assert (Z.max x y <= zmax (Z.max x y) l) by (apply A; left; auto).
      destruct Hz as [<-|[<-|Hz]]; [lia|lia|]. apply A; right; auto.
    + destruct B as [B|B]; [|right; right; auto]. rewrite <- B.
      destruct (Z.max_spec x y) as [[_ ->]|[_ ->]]; [right; left; auto|left; auto].
Qed.
Lemma extreme_ok : forall pts, pts <> [] -> exists x0 y0 x1 y1,
  extreme_coords pts = Ok (x0, y0, x1, y1) /\ bounding_box pts x0 y0 x1 y1.
Proof.
  intros [|p l] H; [congruence|]. do 4 eexists. split; [reflexivity|].
  destruct (zmin_spec (map fst l) (fst p)) as [A1 B1].
  destruct (zmin_spec (map snd l) (snd p)) as [A2 B2].
  destruct (zmax_spec (map fst l) (fst p)) as [A3 B3].
  destruct (zmax_spec (map snd l) (snd p)) as [A4 B4].
  change (fst p :: map fst l) with (map fst (p :: l)) in *.
  change (snd p :: map snd l) with (map snd (p :: l)) in *.
  split.
  - intros q Hq. assert (In (fst q) (map fst (p :: l))) by now apply in_map.
    assert (In (snd q) (map snd (p :: l))) by now apply in_map.
    repeat split; auto.
  - apply in_map_iff in B1 as (q1 & E1 & I1). apply in_map_iff in B2 as (q2 & E2 & I2).
    apply in_map_iff in B3 as (q3 & E3 & I3). apply in_map_iff in B4 as (q4 & E4 & I4).
    split; [eauto|]. split; [eauto|]. split; eauto.
Qed.
Lemma box_unique : forall pts x0 y0 x1 y1 x0' y0' x1' y1',
  bounding_box pts x0 y0 x1 y1 -> bounding_box pts x0' y0' x1' y1' ->
  x0 = x0' /\ y0 = y0' /\ x1 = x1' /\ y1 = y1'.
Proof.
  intros pts x0 y0 x1 y1 x0' y0' x1' y1' (A & (p1 & P1 & E1) & (p2 & P2 & E2) & (p3 & P3 & E3) & (p4 & P4 & E4))
    (B & (q1 & Q1 & F1) & (q2 & Q2 & F2) & (q3 & Q3 & F3) & (q4 & Q4 & F4)).
  pose proof (A _ Q1). pose proof (A _ Q2). pose proof (A _ Q3). pose proof (A _ Q4).
  pose proof (B _ P1). pose proof (B _ P2). pose proof (B _ P3). pose proof (B _ P4). lia.
Qed.

(** ** Grain images *)
Lemma moved_inj : forall x0 y0 p q, moved x0 y0 p = moved x0 y0 q -> p = q.
Proof. intros x0 y0 [a b] [c d] H. unfold moved in H; cbn [fst snd] in H. injection H as H1 H2. f_equal; lia. Qed.

Lemma for_each_map : forall A B S (g : A -> B) (f : S -> B -> res S) l s,
  for_each (fun s a => f s (g a)) l s = for_each f (map g l) s.
Proof. induction l as [|a l IH]; intros s; cbn [for_each map]; [auto|]. destruct (f s (g a)); cbn [bind]; auto. Qed.
Lemma combine_map_l : forall A B C (f : A -> B) (l : list A) (m : list C),
  combine (map f l) m = map (fun ab => (f (fst ab), snd ab)) (combine l m).
Proof. induction l as [|a l IH]; intros [|c m]; cbn; auto. now rewrite IH. Qed.

Lemma grain_map_ok : forall A (pts : list pix) (rows : list A) bg, pts <> [] -> NoDup pts ->
  List.length pts = List.length rows ->
  exists x0 y0 x1 y1 im, bounding_box pts x0 y0 x1 y1 /\
    grain_map_rows pts rows bg = Ok (Image (x1 - x0 + 1) (y1 - y0 + 1) im) /\
    Forall2 (fun p v => im (moved x0 y0 p) = v) pts rows /\
    (forall q, (forall p, In p pts -> q <> moved x0 y0 p) -> im q = bg).
Proof.
  intros A pts rows bg Hne ND L.
  destruct (extreme_ok pts Hne) as (x0 & y0 & x1 & y1 & E & Box). exists x0, y0, x1, y1.
  assert (In' : forall p, In p (map (moved x0 y0) pts) -> inside (x1 - x0 + 1) (y1 - y0 + 1) p).
  { intros p Hp. apply in_map_iff in Hp as (q & <- & Hq). destruct Box as [Box _]. specialize (Box q Hq).
    unfold inside, moved; cbn [fst snd]. lia. }
  assert (ND' : NoDup (map (moved x0 y0) pts)).
  { apply FinFun.Injective_map_NoDup; auto. intros p q; apply moved_inj. }
  destruct (scatter_ok A _ _ (map (moved x0 y0) pts) rows (fun _ => bg) In' ND') as (im & Ei & Hh & Ho).
  { now rewrite map_length. }
  exists im. split; [auto|]. split; [|split].
  - unfold grain_map_rows. rewrite E. cbn [bind].
    assert (X : for_each (fun im cd => put (x1 - x0 + 1) (y1 - y0 + 1) im (fst (fst cd) - x0, snd (fst cd) - y0) (snd cd))
                    (combine pts rows) (fun _ => bg) = Ok im).
    { rewrite <- Ei. rewrite combine_map_l.
      rewrite <- (for_each_map _ _ _ (fun ab : pix * A => (moved x0 y0 (fst ab), snd ab))
        (fun im pv => put (x1 - x0 + 1) (y1 - y0 + 1) im (fst pv) (snd pv))). reflexivity. }
    rewrite X. reflexivity.
  - unfold holds_at in Hh. clear - Hh. remember (map (moved x0 y0) pts) as mp eqn:Emp.
    revert pts Emp. induction Hh as [|p v mp rows H F IH]; intros [|q pts] Emp; try discriminate Emp; constructor.
    + injection Emp as -> _. auto.
    + apply IH. now injection Emp.
  - intros q Hq. apply Ho. intros I. apply in_map_iff in I as (p & <- & Hp). apply (Hq p Hp); auto.
Qed.

Lemma outline_ok : forall pts bg fg, pts <> [] ->
  exists x0 y0 x1 y1 im, bounding_box pts x0 y0 x1 y1 /\
    grain_outline pts bg fg = Ok (Image (x1 - x0 + 1) (y1 - y0 + 1) im) /\
    (forall p, In p pts -> im (moved x0 y0 p) = cast DInt fg) /\
    (forall q, (forall p, In p pts -> q <> moved x0 y0 p) -> im q = cast DInt bg).
Proof.
  intros pts bg fg Hne.
  destruct (extreme_ok pts Hne) as (x0 & y0 & x1 & y1 & E & Box). exists x0, y0, x1, y1.
  destruct (fill_ok num (x1 - x0 + 1) (y1 - y0 + 1) (map (moved x0 y0) pts) (cast DInt fg) (fun _ => cast DInt bg))
    as (im & Ei & A & B).
  { intros p Hp. apply in_map_iff in Hp as (q & <- & Hq). destruct Box as [Box _]. specialize (Box q Hq).
    unfold inside, moved; cbn [fst snd]. lia. }
  exists im. split; [auto|]. split; [|split].
  - unfold grain_outline. rewrite E. cbn [bind]. unfold fill in Ei.
    rewrite <- (for_each_map _ _ _ (moved x0 y0) (fun im p => put (x1 - x0 + 1) (y1 - y0 + 1) im p (cast DInt fg))) in Ei.
    unfold moved in Ei. rewrite Ei. reflexivity.
  - intros p Hp. apply A. now apply in_map.
  - intros q Hq. apply B. intros I. apply in_map_iff in I as (p & <- & Hp). apply (Hq p Hp); auto.
Qed.
Lemma int_part_unique : forall x n, (IZR n <= x < IZR n + 1)%R -> Int_part x = n.
Proof.
  intros x n [A B]. destruct (base_Int_part x) as [C D].
  assert (IZR (Int_part x) < IZR n + 1)%R by lra. assert (IZR n < IZR (Int_part x) + 1)%R by lra.
  rewrite <- (plus_IZR n 1) in H. rewrite <- (plus_IZR (Int_part x) 1) in H0.
  apply lt_IZR in H, H0. lia.
Qed.
Lemma trunc_int : forall z, trunc (IZR z) = z.
Proof.
  assert (I : forall z, Int_part (IZR z) = z) by (intros z; apply int_part_unique; lra).
  intros z. unfold trunc. destruct (Rle_dec 0 (IZR z)); [apply I|].
  rewrite <- opp_IZR, I. lia.
Qed.

(** ** Windows *)
Lemma window_In : forall k n i j, 0 <= k -> 0 <= i < n ->
  (In j (window k n i) <-> 0 <= j < n /\ Z.abs (i - j) <= k).
Proof.
  intros k n i j Hk Hi. unfold window. rewrite zseq_In.
  destruct (Z.leb_spec 0 (i - k)), (Z.leb_spec (i + k + 1) n); rewrite Z2Nat.id by lia; lia.
Qed.
Lemma window_NoDup : forall k n i, NoDup (window k n i).
Proof. intros. apply zseq_NoDup. Qed.

Lemma NoDup_prod : forall (xs ys : list Z), NoDup xs -> NoDup ys ->
  NoDup (flat_map (fun y => map (fun x => (x, y)) xs) ys).
Proof.
  intros xs ys Hx. induction 1 as [|y ys N1 N2 IH]; cbn [flat_map]; [constructor|].
  assert (D : forall p, In p (map (fun x => (x, y)) xs) -> ~ In p (flat_map (fun y => map (fun x => (x, y)) xs) ys)).
  { intros p Hp I. apply in_map_iff in Hp as (x & <- & _). apply in_flat_map in I as (y' & Hy' & I).
    apply in_map_iff in I as (x' & E & _). injection E as _ ->. contradiction. }
  clear N1 N2. induction xs as [|x xs IHx] in Hx, IH, D |- *.
  - cbn [map app]. exact IH.
  - assert (NoDup (map (fun x => (x, y)) (x :: xs))).
    { apply FinFun.Injective_map_NoDup; auto. intros a b E; now injection E. }
    generalize dependent (map (fun x0 => (x0, y)) (x :: xs)). intros l D ND.
    clear - IH D ND. induction ND as [|a l N1 N2 IHl]; cbn [app]; auto.
    constructor.
    + intros I. apply in_app_iff in I as [I|I]; [contradiction|]. apply (D a); [left; auto|auto].
    + apply IHl. intros p Hp. apply D. right; auto.
Qed.

(** ** Coarse images *)
Definition back (x0 y0 : Z) (q : pix) : pix := (fst q + x0, snd q + y0).
Lemma back_moved : forall x0 y0 p, back x0 y0 (moved x0 y0 p) = p.
Proof. intros x0 y0 [a b]. unfold back, moved; cbn [fst snd]. f_equal; lia. Qed.

Lemma filter_map_comm : forall A B (f : A -> B) (t : B -> bool) l,
  filter t (map f l) = map f (filter (fun a => t (f a)) l).
Proof. induction l as [|a l IH]; cbn [map filter]; auto. destruct (t (f a)); cbn [map]; now rewrite IH. Qed.
Lemma flat_map_map : forall A B C D (f : A -> list B) (h : A -> B -> C) (g : C -> D) l,
  flat_map (fun y => map (fun x => g (h y x)) (f y)) l = map g (flat_map (fun y => map (h y) (f y)) l).
Proof.
  induction l as [|a l IH]; cbn [flat_map map]; auto. rewrite map_app, IH, map_map. reflexivity.
Qed.

Lemma holds_moved : forall A (g : pix -> A) im x0 y0 pts,
  Forall2 (fun p v => im (moved x0 y0 p) = v) pts (map g pts) ->
  forall p, In p pts -> im (moved x0 y0 p) = g p.
Proof.
  induction pts as [|q pts IH]; intros F p Hp; [destruct Hp|].
  cbn [map] in F. inversion F as [|? ? ? ? E F']; subst. destruct Hp as [<-|Hp]; auto.
Qed.

Lemma coarse_ok : forall pts (f : pix -> R) k bg, pts <> [] -> NoDup pts -> 0 <= k ->
  exists x0 y0 x1 y1 im, bounding_box pts x0 y0 x1 y1 /\
    grain_map_data_coarse DFloat pts (map (fun p => Fin (f p)) pts) k bg =
      Ok (Image (x1 - x0 + 1) (y1 - y0 + 1) im) /\
    (forall p, In p pts -> im (moved x0 y0 p) = Fin (mean_of (map f (filter (nearb k p) pts)))) /\
    (forall q, (forall p, In p pts -> q <> moved x0 y0 p) -> im q = bg).
Proof.
  intros pts f k bg Hne ND Hk.
  destruct (grain_map_ok num pts (map (fun p => Fin (f p)) pts) NaN Hne ND) as (x0 & y0 & x1 & y1 & im & Box & E & F & O).
  { now rewrite map_length. }
  pose proof (holds_moved _ _ _ _ _ _ F) as At. clear F.
  exists x0, y0, x1, y1. eexists. split; [auto|]. split; [|split].
  - unfold grain_map_data_coarse, grain_map_data. cbn [cast]. rewrite E. cbn [bind im_w im_h]. reflexivity.
  - intros p Hp. unfold coarse_pixel. cbn [im_at im_w im_h]. rewrite (At p Hp). cbn [isnan].
    set (L := flat_map (fun y => map (fun x => (x, y)) (window k (x1 - x0 + 1) (fst (moved x0 y0 p))))
                (window k (y1 - y0 + 1) (snd (moved x0 y0 p)))).
    assert (EL : flat_map (fun y => map (fun x => im (x, y)) (window k (x1 - x0 + 1) (fst (moved x0 y0 p))))
                (window k (y1 - y0 + 1) (snd (moved x0 y0 p))) = map im L).
    { apply (flat_map_map _ _ _ _ (fun _ => window k (x1 - x0 + 1) (fst (moved x0 y0 p))) (fun y x => (x, y)) im). }
    rewrite EL, filter_map_comm. clear EL.
    set (Lf := filter (fun a => negb (isnan (im a))) L).
    assert (InB : forall q, In q pts -> inside (x1 - x0 + 1) (y1 - y0 + 1) (moved x0 y0 q)).
    { intros q Hq. destruct Box as [Box _]. specialize (Box q Hq). unfold inside, moved; cbn [fst snd]. lia. }
    assert (InL : forall q, In q L <-> inside (x1 - x0 + 1) (y1 - y0 + 1) q /\ nearb k (moved x0 y0 p) q = true).
    { intros [a b]. unfold L. rewrite in_flat_map. pose proof (InB p Hp) as [I1 I2].
      unfold nearb. rewrite andb_true_iff, !Z.leb_le. unfold inside. cbn [fst snd]. split.
      - intros (y & Hy & Hx). apply in_map_iff in Hx as (x & Ex & Hx). injection Ex as -> ->.
        apply window_In in Hy; [|lia|lia]. apply window_In in Hx; [|lia|lia]. tauto.
      - intros ((A1 & A2) & A3 & A4). exists b. split; [apply window_In; lia|].
        apply in_map_iff. exists a. split; auto. apply window_In; lia. }
    assert (Pm : Permutation Lf (map (moved x0 y0) (filter (nearb k p) pts))).
    { apply NoDup_Permutation.
      - apply NoDup_filter. apply NoDup_prod; apply window_NoDup.
      - apply FinFun.Injective_map_NoDup; [intros u v; apply moved_inj|]. now apply NoDup_filter.
      - intros q. unfold Lf. rewrite filter_In, InL, in_map_iff. split.
        + intros ((I & N) & V).
          destruct (in_dec pix_dec q (map (moved x0 y0) pts)) as [J|J].
          * apply in_map_iff in J as (r & <- & Hr). exists r. split; auto. apply filter_In. split; auto.
            revert N. unfold nearb, moved; cbn [fst snd]. rewrite !andb_true_iff, !Z.leb_le. lia.
          * rewrite O in V; [discriminate V|]. intros r Hr ->. apply J. now apply in_map.
        + intros (r & <- & Hr). apply filter_In in Hr as [Hr N]. split; [split|].
          * auto.
          * revert N. unfold nearb, moved; cbn [fst snd]. rewrite !andb_true_iff, !Z.leb_le. lia.
          * rewrite At by auto. reflexivity. }
    assert (V : map im Lf = map Fin (map (fun q => f (back x0 y0 q)) Lf)).
    { rewrite map_map. apply map_ext_in. intros q Hq. apply (Permutation_in _ Pm) in Hq.
      apply in_map_iff in Hq as (r & <- & Hr). apply filter_In in Hr as [Hr _]. now rewrite At, back_moved. }
    assert (Ne : Lf <> []).
    { intros N. rewrite N in Pm. apply Permutation_nil in Pm. apply map_eq_nil in Pm.
      assert (I : In p (filter (nearb k p) pts)).
      { apply filter_In. split; auto. unfold nearb. rewrite !Z.sub_diag. cbn [Z.abs].
        apply andb_true_iff; split; apply Z.leb_le; lia. }
      rewrite Pm in I. destruct I. }
    rewrite V.
    assert (Ne' : map (fun q => f (back x0 y0 q)) Lf <> []) by (intros N; apply map_eq_nil in N; auto).
    pose proof (nmean_fin _ Ne') as M. revert M.
    destruct (map (fun q => f (back x0 y0 q)) Lf) as [|v vs] eqn:EV; [congruence|]. cbn [map].
    intros M. cbn [map] in M. cbn [cast]. rewrite M, <- EV. f_equal.
    rewrite (mean_perm _ _ (Permutation_map (fun q => f (back x0 y0 q)) Pm)), map_map. f_equal.
    apply map_ext. intros r. now rewrite back_moved.
  - intros q Hq. unfold coarse_pixel. cbn [im_at]. rewrite (O q Hq). reflexivity.
Qed.

(** ** Proxigram *)
Lemma rmin_list_spec : forall l x, (forall y, In y (x :: l) -> (rmin_list x l <= y)%R) /\ In (rmin_list x l) (x :: l).
Proof.
  unfold rmin_list. induction l as [|y l IH]; intros x; cbn [fold_left].
  - split; [intros y [<-|[]]; lra|left; auto].
  - destruct (IH (Rmin x y)) as [A B]. split.
    + intros z Hz. assert (fold_left Rmin l (Rmin x y) <= Rmin x y)%R by (apply A; left; auto).
      pose proof (Rmin_l x y). pose proof (Rmin_r x y).
      destruct Hz as [<-|[<-|Hz]]; [lra|lra|]. apply A; right; auto.
    + destruct B as [B|B]; [|right; right; auto]. rewrite <- B.
      unfold Rmin. destruct (Rle_dec x y); [left; auto|right; left; auto].
Qed.
Lemma layers_spec : forall t ts p,
  (forall t', In t' (t :: ts) -> (layers_min (t :: ts) p <= t' p)%R) /\
  (exists t', In t' (t :: ts) /\ layers_min (t :: ts) p = t' p).
Proof.
  intros t ts p. unfold layers_min. destruct (rmin_list_spec (map (fun t => t p) ts) (t p)) as [A B].
  change (t p :: map (fun t0 => t0 p) ts) with (map (fun t0 : pix -> R => t0 p) (t :: ts)) in A, B. split.
  - intros t' H. apply A. apply (in_map (fun t0 : pix -> R => t0 p)) in H. exact H.
  - apply in_map_iff in B as (t' & E & I). exists t'. auto.
Qed.
Lemma set_nth_app : forall A (l : list A) a b m, set_nth (List.length l) b (l ++ a :: m) = Some (l ++ b :: m).
Proof. induction l as [|x l IH]; intros a b m; cbn [List.length app set_nth]; auto. now rewrite IH. Qed.

Definition proxi_inv (n : nat) (done : list pix) (s : list (pix -> R) * nat) : Prop :=
  exists t0 pre rest, fst s = t0 :: pre ++ rest /\ snd s = S (List.length pre) /\
    (List.length pre + List.length rest = n)%nat /\ (List.length rest >= 1)%nat /\
    (forall t p, In t rest -> (t0 p <= t p)%R) /\
    (forall p, least_of 1000 (fun b => shifted_dist b p) done (layers_min (fst s) p)).

Lemma proxi_step_ok : forall n done s b, proxi_inv n done s ->
  exists s', proxi_step n s b = Ok s' /\ proxi_inv n (done ++ [b]) s'.
Proof.
  intros n done [trial j] b (t0 & pre & rest & E1 & E2 & L & L1 & Lo & M). cbn [fst snd] in E1, E2, M.
  destruct rest as [|r rest]; [cbn in L1; lia|]. subst trial j.
  assert (S1 : set_nth (S (List.length pre)) (shifted_dist b) (t0 :: pre ++ r :: rest) =
               Some (t0 :: pre ++ shifted_dist b :: rest)).
  { cbn [set_nth]. now rewrite set_nth_app. }
  assert (M' : forall p, least_of 1000 (fun b => shifted_dist b p) (done ++ [b])
                (layers_min (t0 :: pre ++ shifted_dist b :: rest) p)).
  { intros p. destruct (M p) as (M1 & M2 & M3).
    destruct (layers_spec t0 (pre ++ r :: rest) p) as [A (t & It & Et)].
    destruct (layers_spec t0 (pre ++ shifted_dist b :: rest) p) as [A' (t' & It' & Et')].
    set (old := layers_min (t0 :: pre ++ r :: rest) p) in *.
    set (new := layers_min (t0 :: pre ++ shifted_dist b :: rest) p) in *.
    assert (N1 : (new <= old)%R).
    { rewrite Et. destruct It as [<-|It]; [apply A'; left; auto|].
      apply in_app_iff in It as [It|[<-|It]].
      - apply A'. right. apply in_app_iff. auto.
      - apply Rle_trans with (t0 p); [apply A'; left; auto|apply Lo; left; auto].
      - apply A'. right. apply in_app_iff. right. right. auto. }
    assert (N2 : (new <= shifted_dist b p)%R).
    { apply A'. right. apply in_app_iff. right. left. auto. }
    assert (N3 : new = shifted_dist b p \/ new = old).
    { destruct It' as [<-|It'].
      - right. apply Rle_antisym; auto. rewrite Et'. apply A. left; auto.
      - apply in_app_iff in It' as [It'|[<-|It']].
        + right. apply Rle_antisym; auto. rewrite Et'. apply A. right. apply in_app_iff; auto.
        + left; auto.
        + right. apply Rle_antisym; auto. rewrite Et'. apply A. right. apply in_app_iff. right; right; auto. }
    split; [lra|]. split.
    - intros a Ha. apply in_app_iff in Ha as [Ha|[<-|[]]]; [|auto]. specialize (M2 a Ha). cbv beta in M2. lra.
    - destruct N3 as [N3|N3].
      + right. exists b. split; [apply in_app_iff; right; left; auto|auto].
      + rewrite N3. destruct M3 as [M3|(a & Ha & M3)]; [left; auto|].
        right. exists a. split; [apply in_app_iff; auto|auto]. }
  unfold proxi_step. rewrite S1. destruct (Nat.eqb_spec (S (List.length pre)) n) as [En|En].
  - destruct rest as [|]; [|cbn [List.length] in L; lia]. cbn [set_nth].
    set (tr := t0 :: pre ++ [shifted_dist b]) in *.
    eexists. split; [reflexivity|].
    exists (layers_min tr), [], (pre ++ [shifted_dist b]). cbn [fst snd app List.length].
    assert (Low : forall t p, In t (pre ++ [shifted_dist b]) -> (layers_min tr p <= t p)%R).
    { intros t p H. destruct (layers_spec t0 (pre ++ [shifted_dist b]) p) as [A _]. apply A. right; auto. }
    rewrite app_length. cbn [List.length].
    split; [auto|]. split; [auto|]. split; [lia|]. split; [lia|]. split; [auto|].
    intros p. replace (layers_min (layers_min tr :: pre ++ [shifted_dist b]) p) with (layers_min tr p); [apply M'|].
    destruct (layers_spec (layers_min tr) (pre ++ [shifted_dist b]) p) as [A (t & It & Et)].
    apply Rle_antisym; [|apply A; left; auto]. rewrite Et. destruct It as [<-|It]; [lra|auto].
  - eexists. split; [reflexivity|].
    exists t0, (pre ++ [shifted_dist b]), rest. cbn [fst snd]. rewrite <- app_assoc, app_length. cbn [app List.length] in *.
    split; [auto|]. split; [lia|]. split; [lia|]. split; [lia|]. split; [|auto].
    intros t p H. apply Lo. right; auto.
Qed.
Lemma proxigram_ok : forall points n, (1 <= n)%nat -> exists d, calc_proxigram points n = Ok d /\
  forall p, least_of 1000 (fun b => shifted_dist b p) points (d p).
Proof.
  intros points n Hn.
  assert (G : forall l done s, proxi_inv n done s ->
            exists s', for_each (proxi_step n) l s = Ok s' /\ proxi_inv n (done ++ l) s').
  { induction l as [|b l IH]; intros done s I.
    - exists s. rewrite app_nil_r. auto.
    - cbn [for_each]. destruct (proxi_step_ok n done s b I) as (s1 & E & I1). rewrite E. cbn [bind].
      destruct (IH _ _ I1) as (s2 & E2 & I2). exists s2. rewrite <- app_assoc in I2. auto. }
  destruct (G points [] (repeat (fun _ => 1000%R) (S n), 1%nat)) as (s & E & I).
  - exists (fun _ => 1000%R), [], (repeat (fun _ => 1000%R) n). cbn [fst snd app List.length repeat].
    rewrite repeat_length. split; [auto|]. split; [auto|]. split; [auto|]. split; [lia|]. split.
    + intros t p H. apply repeat_spec in H. subst t. lra.
    + intros p. destruct (layers_spec (fun _ => 1000%R) (repeat (fun _ => 1000%R) n) p) as [_ (t & It & Et)].
      rewrite Et. assert (t p = 1000%R) as ->.
      { destruct It as [<-|It]; auto. apply repeat_spec in It. now subst t. }
      split; [lra|]. split; [intros a []|auto].
  - unfold calc_proxigram. rewrite E. cbn [bind]. eexists. split; [reflexivity|].
    destruct I as (t0 & pre & rest & _ & _ & _ & _ & _ & M). exact M.
Qed.
Lemma least_unique : forall A c (f : A -> R) l m v w, (forall a, In a l <-> In a m) ->
  least_of c f l v -> least_of c f m w -> v = w.
Proof.
  intros A c f l m v w E (V1 & V2 & V3) (W1 & W2 & W3). apply Rle_antisym.
  - destruct W3 as [->|(a & Ha & ->)]; auto. apply V2. now apply E.
  - destruct V3 as [->|(a & Ha & ->)]; auto. apply W2. now apply E.
Qed.

(** ** Components *)
Lemma nd_index_ok : forall dims idx rest, Forall2 (fun i n => - n <= i < n) idx dims ->
  nd_index (dims ++ rest) idx = Some (map (fun ni => from_end (snd ni) (fst ni)) (combine idx dims), rest).
Proof.
  intros dims idx rest F. induction F as [|i n idx dims H F IH]; [destruct rest; reflexivity|]. cbn [nd_index app combine map].
  rewrite IH. cbn [fst snd]. unfold np_index, from_end.
  destruct (Z.leb_spec 0 i), (Z.ltb_spec i n), (Z.leb_spec (-n) i), (Z.ltb_spec i 0); cbn [andb]; try lia; auto.
  do 3 f_equal. lia.
Qed.
Lemma total_app : forall l m, total (l ++ m) = (total l + total m)%R.
Proof. induction l as [|x l IH]; intros m; cbn [total app]; [lra|]. rewrite IH. lra. Qed.
Lemma rsum_total : forall l, rsum l = total l.
Proof.
  assert (G : forall l a, fold_left Rplus l a = (a + total l)%R).
  { induction l as [|x l IH]; intros a; cbn [fold_left total]; [lra|]. rewrite IH. lra. }
  intros l. unfold rsum. rewrite G. lra.
Qed.
Lemma total_flat : forall A B (f : A -> B -> R) (m : list B) l,
  total (flat_map (fun i => map (f i) m) l) = total (map (fun i => total (map (f i) m)) l).
Proof. induction l as [|a l IH]; cbn [flat_map map total]; [auto|]. now rewrite total_app, IH. Qed.

(** ** Clicks *)
Lemma trunc_pos : forall x n, (0 <= n)%Z -> (IZR n <= x < IZR n + 1)%R -> trunc x = n.
Proof.
  intros x n Hn Hx. unfold trunc. assert (0 <= IZR n)%R by now apply IZR_le.
  destruct (Rle_dec 0 x); [now apply int_part_unique|lra].
Qed.
Lemma trunc_neg : forall x, (-1 < x < 0)%R -> trunc x = 0.
Proof.
  intros x Hx. unfold trunc. destruct (Rle_dec 0 x); [lra|].
  rewrite (int_part_unique (- x) 0); [lia|lra].
Qed.

(** ** Highlighted neighbours *)
Lemma in_z_iff : forall x l, in_z x l = true <-> In x l.
Proof.
  intros x l. unfold in_z. rewrite existsb_exists. split.
  - intros (y & H & E). apply Z.eqb_eq in E. now subst.
  - intros H. exists x. split; auto. apply Z.eqb_refl.
Qed.
Lemma in_z_false : forall x l, in_z x l = false <-> ~ In x l.
Proof. intros x l. rewrite <- in_z_iff. destruct (in_z x l); split; congruence. Qed.

Lemma second_inner : forall hl l acc, NoDup acc -> (forall x, In x acc -> ~ In x hl) ->
  let r := fold_left (fun acc s => if negb (in_z s hl) && negb (in_z s acc) then acc ++ [s] else acc) l acc in
  NoDup r /\ (forall x, In x r <-> In x acc \/ In x l /\ ~ In x hl).
Proof.
  intros hl. induction l as [|s l IH]; intros acc ND D; cbn [fold_left].
  - split; auto. intros x. split; [auto|]. intros [H|[[] _]]; auto.
  - destruct (in_z s hl) eqn:E1; [|destruct (in_z s acc) eqn:E2]; cbn [negb andb].
    + apply in_z_iff in E1. destruct (IH acc ND D) as [A B]. split; auto. intros x. rewrite B. split.
      * intros [H|[H N]]; [auto|]. right. split; [right; auto|auto].
      * intros [H|[[<-|H] N]]; [auto|contradiction|auto].
    + apply in_z_iff in E2. destruct (IH acc ND D) as [A B]. split; auto. intros x. rewrite B. split.
      * intros [H|[H N]]; [auto|]. right. split; [right; auto|auto].
      * intros [H|[[<-|H] N]]; auto.
    + apply in_z_false in E1, E2.
      destruct (IH (acc ++ [s])) as [A B].
      * apply NoDup_Add with (a := s) (l := acc); [|auto].
        replace acc with (acc ++ []) at 1 by apply app_nil_r. apply Add_app.
      * intros x H. apply in_app_iff in H as [H|[<-|[]]]; auto.
      * split; auto. intros x. rewrite B, in_app_iff. cbn [In]. split.
        -- intros [[H|[<-|[]]]|[H N]]; auto.
        -- intros [H|[[<-|H] N]]; auto.
Qed.
Lemma second_outer : forall hl (nb : Z -> list Z) l acc, NoDup acc -> (forall x, In x acc -> ~ In x hl) ->
  let r := fold_left (fun acc f =>
      fold_left (fun acc s => if negb (in_z s hl) && negb (in_z s acc) then acc ++ [s] else acc) (nb f) acc) l acc in
  NoDup r /\ (forall x, In x r <-> In x acc \/ (exists f, In f l /\ In x (nb f)) /\ ~ In x hl).
Proof.
  intros hl nb. induction l as [|f l IH]; intros acc ND D; cbn [fold_left].
  - split; auto. intros x. split; [auto|]. intros [H|[(f & [] & _) _]]; auto.
  - destruct (second_inner hl (nb f) acc ND D) as [A B].
    destruct (IH _ A) as [A' B'].
    { intros x H. apply B in H as [H|[_ H]]; auto. }
    split; auto. intros x. rewrite B', B. split.
    + intros [[H|[H N]]|[(g & Hg & H) N]]; [auto| |].
      * right. split; auto. exists f. split; [left; auto|auto].
      * right. split; auto. exists g. split; [right; auto|auto].
    + intros [H|[(g & [<-|Hg] & H) N]]; [auto|auto|]. right. split; eauto.
Qed.

(** ** Centres *)
Lemma rint_between : forall x a b, (IZR a <= x <= IZR b)%R -> a <= rint x <= b.
Proof.
  intros x a b [A B]. unfold rint. destruct (base_Int_part x) as [C D]. set (m := Int_part x) in *.
  assert (a <= m).
  { assert (X : (IZR a < IZR m + 1)%R) by lra. rewrite <- (plus_IZR m 1) in X. apply lt_IZR in X. lia. }
  assert (m <= b) by (apply le_IZR; lra).
  assert (S1 : (1/2 <= x - IZR m)%R -> m + 1 <= b).
  { intros X. assert (Y : (IZR m < IZR b)%R) by lra. apply lt_IZR in Y. lia. }
  destruct (Rlt_dec (x - IZR m) (1/2)) as [L|L]; [lia|].
  assert (m + 1 <= b) by (apply S1; lra).
  destruct (Rlt_dec (1/2) (x - IZR m)); [lia|]. destruct (Z.even m); lia.
Qed.
Lemma zsum_total : forall l, IZR (zsum l) = total (map IZR l).
Proof.
  assert (G : forall l a, IZR (fold_left Z.add l a) = (IZR a + total (map IZR l))%R).
  { induction l as [|x l IH]; intros a; cbn [fold_left map total]; [lra|]. rewrite IH, plus_IZR. lra. }
  intros l. unfold zsum. rewrite G. lra.
Qed.
Lemma total_bounds : forall l a b, (forall x, In x l -> (a <= x <= b)%R) ->
  (INR (List.length l) * a <= total l <= INR (List.length l) * b)%R.
Proof.
  induction l as [|x l IH]; intros a b H; cbn [total List.length].
  - cbn [INR]. lra.
  - rewrite S_INR. specialize (IH a b ltac:(intros; apply H; right; auto)).
    assert (a <= x <= b)%R by (apply H; left; auto). lra.
Qed.
Lemma mean_bounds : forall l a b, l <> [] -> (forall x, In x l -> (a <= x <= b)%R) ->
  (a <= mean_of l <= b)%R.
Proof.
  intros l a b N H. pose proof (total_bounds l a b H) as [A B]. unfold mean_of.
  assert (P : (0 < INR (List.length l))%R).
  { apply lt_0_INR. destruct l; [congruence|cbn; lia]. }
  split.
  - apply Rmult_le_reg_r with (INR (List.length l)); auto. unfold Rdiv.
    rewrite Rmult_assoc, Rinv_l by lra. lra.
  - apply Rmult_le_reg_r with (INR (List.length l)); auto. unfold Rdiv.
    rewrite Rmult_assoc, Rinv_l by lra. lra.
Qed.
Lemma mean_coord : forall (g : pix -> Z) pts a b, pts <> [] -> (forall p, In p pts -> a <= g p <= b) ->
  (IZR a <= IZR (zsum (map g pts)) / INR (List.length pts) <= IZR b)%R.
Proof.
  intros g pts a b N H. rewrite zsum_total.
  assert (E : List.length pts = List.length (map IZR (map g pts))) by now rewrite !map_length.
  rewrite E. apply (mean_bounds (map IZR (map g pts))).
  - destruct pts; [congruence|discriminate].
  - intros x I. rewrite map_map in I. apply in_map_iff in I as (p & <- & Hp).
    specialize (H p Hp). split; apply IZR_le; lia.
Qed.
