(** Theorems about pictures of one grain. *)
From Coq Require Import String Reals ZArith Bool Lra Lia.
From Coq Require Import List.
From Verif Require Import Py Grid Grid_Lemmas Boundary_Model Crystal_Model Base_Model Base_Spec Base_Proofs Base_Props Quat_Model Quat_Spec Pole_Model Pole_Spec Ipf_Model Ipf_Spec Ipf_Proofs IpfHex_Proofs
  Ebsd_Model Ebsd_Spec EbsdGrain_Props MapView_Model MapView_Spec MapView_Proofs MapView_Props CompView_Model CompView_Spec CompView_Proofs.
Import ListNotations.
Open Scope Z_scope.

(** * C104 *)
(** A grain's picture of a component is the map's picture of it, cut out along the grain; what
    the map refuses, the grain refuses in the same way. *)
Theorem C104_component : forall W H dims at_ d pts default c, within_map W H pts -> pts <> [] ->
  let order := Z.of_nat (List.length dims) in
  let data := ND (dims ++ [H; W]) at_ in
  exists g, nd_points data pts = Ok g /\
    (forall m, plot_of_map order default data c = Ok m ->
       exists im, plot_of_grain d pts order default g c = Ok im /\ cut_out pts (fun p => Fin (nd_at m [snd p; fst p])) (cast d NaN) im) /\
    (forall e, plot_of_map order default data c = Err e -> plot_of_grain d pts order default g c = Err e).
Proof.
  intros W H dims at_ d pts default c [ND IN] NE order data.
  destruct (points_ok W H dims at_ pts IN) as (g & EG & SH & AT). exists g. split; [exact EG|].
  unfold plot_of_map, plot_of_grain. destruct (validate_component order default c) as [c'|e] eqn:V; cbn [bind]; [|split; [discriminate|intros e0 E0; injection E0 as <-; reflexivity]].
  destruct (C44_validate _ _ _ _ V) as (VT & VN & _).
  pose proof (extract_same W H dims at_ pts g c' SH AT) as X.
  assert (HT : forall l, c' = CTuple l -> List.length l = List.length dims) by (intros l El; specialize (VT l El); unfold order in VT; lia).
  assert (HN : c' = CNone -> dims = []) by (intros En; specialize (VN En); unfold order in VN; destruct dims; [reflexivity|cbn [List.length] in VN; lia]).
  specialize (X HT HN). fold data in X. destruct (extract_component data c') as [[m|m|m a]|e] eqn:EX; cbn [bind].
  - destruct X as (r & ER & SR & AR). rewrite ER. cbn [bind]. split; [|discriminate]. intros m' Em. injection Em as <-.
    unfold plot_list. rewrite SR. rewrite (tabulate (fun i => Fin (nd_at r [i])) (fun p => Fin (nd_at m [snd p; fst p])) pts).
    + unfold grain_map_data. apply cut_ok; assumption.
    + intros k p N. now rewrite (AR k p N).
  - rewrite X. cbn [bind]. split; [discriminate|intros e0 E0; injection E0 as <-; reflexivity].
  - rewrite X. cbn [bind]. split; [discriminate|intros e0 E0; injection E0 as <-; reflexivity].
  - rewrite X. cbn [bind]. split; [discriminate|intros e0 E0; injection E0 as <-; reflexivity].
Qed.
Print Assumptions C104_component.
Example C104_met : within_map 3 2 [(1, 0); (2, 1)] /\ exists m,
  plot_of_map 2 CNone (ND ([2; 2] ++ [2; 3]) (fun l => IZR (nth 0 l 0 + nth 3 l 0))) (CTuple [-1; 0]) = Ok m /\ nd_at m [1; 2] = 3%R.
Proof.
  split; [split; [repeat constructor; cbn; intuition congruence|intros p [<-|[<-|[]]]; unfold inside; cbn; lia]|].
  eexists. split; [reflexivity|]. reflexivity.
Qed.

(** Colours of a grain's points are those of the map, for a grain of one phase of the map. *)
Theorem C104_euler : forall names phase euler pts k n bg, (forall i m, nth_error names i = Some m -> known m) ->
  nth_error names k = Some n -> (forall p, In p pts -> phase p = Z.of_nat k + 1) -> NoDup pts -> pts <> [] ->
  exists f l im, calc_euler_colour names None None phase euler = Ok f /\ grain_euler_colour n (map euler pts) = Ok l /\
    grain_map_rows pts l bg = Ok im /\ cut_out pts f bg im.
Proof.
  intros names phase euler pts k n bg KN Nk HP ND NE.
  destruct (C84_value names None None phase euler) as (f & E & Q); [discriminate|exact KN|].
  exists f. unfold grain_euler_colour. assert (EN : euler_norm n None = Some (euler_range n)) by (destruct (KN k n Nk) as [-> | ->]; reflexivity). rewrite EN.
  assert (L : map (fun e => div3 e (euler_range n)) (map euler pts) = map f pts).
  { rewrite map_map. apply map_ext_in. intros p I. destruct (Q p) as [Q1 _]. rewrite (Q1 n).
    - destruct (euler p) as [[a b] c], (euler_range n) as [[x y] z]. reflexivity.
    - rewrite (HP p I). assert (k < List.length names)%nat by (apply nth_error_Some; congruence). lia.
    - rewrite (HP p I). replace (Z.of_nat k + 1 - 1) with (Z.of_nat k) by lia. now rewrite Nat2Z.id. }
  rewrite L. destruct (cut_ok pts f bg NE ND) as (im & E1 & E2). exists (map f pts), im. auto.
Qed.
Print Assumptions C104_euler.
(** The same for IPF colours: of cubic grains always, of hexagonal ones if no pixel of the phase
    has the direction along its c axis. *)
Theorem C104_ipf_partial : forall names W H phase ori d default pts k n bg, 0 <= W -> 0 <= H -> phases_ok names None -> d <> vzero ->
  (forall p, inside W H p -> unitq (ori p)) ->
  nth_error names k = Some n -> within_map W H pts -> (forall p, In p pts -> phase p = Z.of_nat k + 1) -> pts <> [] ->
  (n = "hexagonal"%string -> forall q, inside W H q -> phase q = Z.of_nat k + 1 -> ~ along_c (in_crystal (ori q) d)) ->
  exists f l im, calc_ipf_colour names None None W H phase ori d default = Ok f /\ grain_ipf_colour n (map ori pts) d default = Ok l /\
    grain_map_rows pts (map num3 l) bg = Ok im /\ cut_out pts f bg im.
Proof.
  intros names W H phase ori d default pts k n bg HW HH PO D U Nk [ND IN] HP NE HX.
  destruct (C101_colour names None None W H phase ori d default HW HH PO D U) as (f & E & Q). cbn [background fst snd] in Q.
  assert (FU : Forall unitq (map ori pts)) by (apply Forall_forall; intros q I; apply in_map_iff in I as (p & <- & I); auto).
  assert (L : exists l, grain_ipf_colour n (map ori pts) d default = Ok l /\ Forall2 (own_colour n d default) (map ori pts) l).
  { unfold grain_ipf_colour. destruct (proj2 PO n (nth_error_In _ _ Nk)) as [-> | ->].
    - now apply cubic_colours.
    - destruct (hex_colours (map ori pts) d default FU D) as (l & E1 & _ & E2). exists l. split; [exact E1|]. apply E2.
      intros q I. apply in_map_iff in I as (p & <- & I). apply HX; auto. }
  destruct L as (l & EL & FL).
  assert (EM : map num3 l = map f pts).
  { assert (K : forall p, In p pts -> forall c, own_colour n d default (ori p) c -> num3 c = f p).
    { intros p I c O. destruct (Q p (IN p I)) as [Q1 _]. rewrite (Q1 n c).
      - destruct c as [[[r g] b]|]; reflexivity.
      - unfold phase_wanted. rewrite (HP p I). assert (k < List.length names)%nat by (apply nth_error_Some; congruence). lia.
      - rewrite (HP p I). replace (Z.of_nat k + 1 - 1) with (Z.of_nat k) by lia. now rewrite Nat2Z.id.
      - intros En q Iq Pq. apply HX; auto. rewrite Pq. now apply HP.
      - exact O. }
    clear - K FL. revert l FL. induction pts as [|p pts IH]; intros l FL; cbn [map] in FL; inversion FL as [|? c ? l' F1 F2]; subst; [reflexivity|].
    cbn [map]. f_equal; [apply K; [now left|exact F1]|]. apply IH; [|exact F2]. intros q I. apply K. now right. }
  exists f, l. rewrite EM. destruct (cut_ok pts f bg NE ND) as (im & E1 & E2). exists im. auto.
Qed.
Print Assumptions C104_ipf_partial.
(** The points of a grain are listed as data with two components but are laid out the other
    way: the picture of the first component is not the column of each point. *)
Theorem C104_points_refuted : forall x0 y0 x1 y1 x2 y2, let pts := [(x0, y0); (x1, y1); (x2, y2)] in NoDup pts ->
  let data := ND [3; 2] (fun l => match l with [k; j] => match nth_error pts (Z.to_nat k) with Some p => IZR (if j =? 0 then fst p else snd p) | None => 0%R end | _ => 0%R end) in
  exists im, plot_of_grain DFloat pts 1 CNone data (CInt 0) = Ok im /\
    exists a b c d, bounding_box pts a b c d /\ im_at im (moved a b (x1, y1)) = Fin (IZR y0) /\ im_at im (moved a b (x2, y2)) = NaN.
Proof.
  intros x0 y0 x1 y1 x2 y2 pts ND data.
  assert (E : plot_of_grain DFloat pts 1 CNone data (CInt 0) = grain_map_rows pts [Fin (IZR x0); Fin (IZR y0)] NaN) by reflexivity. rewrite E.
  destruct (extreme_ok pts ltac:(discriminate)) as (a & b & c & d & EX & BX). unfold grain_map_rows. rewrite EX. cbn [bind].
  change (combine pts [Fin (IZR x0); Fin (IZR y0)]) with [((x0, y0), Fin (IZR x0)); ((x1, y1), Fin (IZR y0))].
  cbn [for_each fst snd].
  assert (IN : forall p : pix, In p pts -> np_pix (c - a + 1) (d - b + 1) (fst p - a, snd p - b) = Some (moved a b p)).
  { intros p I. destruct BX as [BX _]. specialize (BX p I). unfold np_pix, np_index, moved. cbn [fst snd].
    replace ((0 <=? fst p - a) && (fst p - a <? c - a + 1)) with true by (symmetry; apply andb_true_iff; split; [apply Z.leb_le|apply Z.ltb_lt]; lia).
    replace ((0 <=? snd p - b) && (snd p - b <? d - b + 1)) with true by (symmetry; apply andb_true_iff; split; [apply Z.leb_le|apply Z.ltb_lt]; lia). reflexivity. }
  unfold put. pose proof (IN (x0, y0) ltac:(cbn; tauto)) as I0. pose proof (IN (x1, y1) ltac:(cbn; tauto)) as I1. cbn [fst snd] in I0, I1. rewrite I0. cbn [bind]. rewrite I1. cbn [bind].
  eexists. split; [reflexivity|]. exists a, b, c, d. split; [exact BX|]. cbn [im_at]. split; [apply upd_same|].
  assert (N : forall p q : pix, p <> q -> moved a b p <> moved a b q) by (intros [p1 p2] [q1 q2] N EQ; apply N; unfold moved in EQ; cbn [fst snd] in EQ; injection EQ as E3 E4; f_equal; lia).
  inversion ND as [|? ? N0 ND1]; subst. inversion ND1 as [|? ? N1 ND2]; subst. cbn [In] in N0, N1.
  rewrite !upd_other by (apply N; intuition congruence). reflexivity.
Qed.
Print Assumptions C104_points_refuted.

(** Data without two axes for the pixels cannot be read at a grain's pixels. *)
Theorem C104_no_image : forall a pts, (List.length (nd_shape a) < 2)%nat -> nd_points a pts = Err IndexError.
Proof.
  intros a pts L. unfold nd_points. rewrite <- rev_length in L. destruct (rev (nd_shape a)) as [|w [|h l]]; [reflexivity|reflexivity|cbn in L; lia].
Qed.
Print Assumptions C104_no_image.
