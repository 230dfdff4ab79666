(** Lemmas about pictures of one grain. *)
From Coq Require Import String Reals ZArith Bool Lia.
From Coq Require Import List.
From Verif Require Import Py Grid Grid_Lemmas Boundary_Model Crystal_Model Base_Model Base_Spec Base_Proofs Ebsd_Model CompView_Model CompView_Spec.
Import ListNotations.
Open Scope Z_scope.

Lemma fetch_all W H pts : (forall p, In p pts -> inside W H p) -> map_res (fetch W H (fun q => q)) pts = Ok pts.
Proof.
  intros I. induction pts as [|p pts IH]; [reflexivity|]. cbn [map_res]. unfold fetch at 1.
  assert (E : np_pix W H p = Some p).
  { destruct (I p (or_introl eq_refl)) as [A B]. destruct p as [x y]. unfold np_pix, np_index. cbn [fst snd] in *.
    replace ((0 <=? x) && (x <? W)) with true by (symmetry; apply andb_true_iff; split; [apply Z.leb_le|apply Z.ltb_lt]; lia).
    replace ((0 <=? y) && (y <? H)) with true by (symmetry; apply andb_true_iff; split; [apply Z.leb_le|apply Z.ltb_lt]; lia). reflexivity. }
  rewrite E. cbn [bind]. rewrite IH by (intros; apply I; right; auto). reflexivity.
Qed.
Lemma points_ok W H dims at_ pts : (forall p, In p pts -> inside W H p) ->
  exists g, nd_points (ND (dims ++ [H; W]) at_) pts = Ok g /\ nd_shape g = dims ++ [Z.of_nat (List.length pts)] /\
    forall k p, nth_error pts k = Some p -> forall i, nd_at g (i ++ [Z.of_nat k]) = at_ (i ++ [snd p; fst p]).
Proof.
  intros I. unfold nd_points. cbn [nd_shape]. rewrite rev_app_distr. cbn [rev app]. rewrite (fetch_all W H pts I). cbn [bind].
  eexists. split; [reflexivity|]. cbn [nd_shape nd_at]. rewrite rev_involutive. split; [reflexivity|].
  intros k p N i. rewrite rev_app_distr. cbn [rev app]. rewrite Nat2Z.id, N, rev_involutive. reflexivity.
Qed.
Lemma tabulate {A B} (f : Z -> B) (g : A -> B) l : (forall k p, nth_error l k = Some p -> f (Z.of_nat k) = g p) ->
  map f (range (Z.of_nat (List.length l))) = map g l.
Proof.
  unfold range. rewrite Nat2Z.id. intros Q.
  assert (K : forall b, (forall k p, nth_error l k = Some p -> f (b + Z.of_nat k) = g p) -> map f (zseq b (List.length l)) = map g l).
  { clear Q. induction l as [|a l IH]; intros b Q; [reflexivity|]. cbn [List.length zseq map]. f_equal.
    - rewrite <- (Q 0%nat a eq_refl). f_equal. lia.
    - apply IH. intros k p N. rewrite <- (Q (S k) p N). f_equal. lia. }
  apply K. intros k p N. now rewrite Z.add_0_l, (Q k p N).
Qed.
Lemma cut_ok {A} pts (f : pix -> A) bg : pts <> [] -> NoDup pts -> exists im, grain_map_rows pts (map f pts) bg = Ok im /\ cut_out pts f bg im.
Proof.
  intros NE ND. destruct (grain_map_ok A pts (map f pts) bg NE ND) as (x0 & y0 & x1 & y1 & im & B & E & F & O); [now rewrite map_length|].
  eexists. split; [exact E|]. exists x0, y0, x1, y1. cbn [im_w im_h im_at]. repeat split; try apply B; auto.
  intros p I. clear - F I. induction pts as [|q pts IH]; [destruct I|]. cbn [map] in F. inversion F; subst. destruct I as [<-|I]; auto.
Qed.
(** Indexing the leading axes does not depend on the others. *)
Lemma index_split dims idx : List.length idx = List.length dims ->
  exists o, forall rest, nd_index (dims ++ rest) idx = match o with Some i => Some (i, rest) | None => None end.
Proof.
  revert dims. induction idx as [|i idx IH]; intros [|n dims] L; try discriminate L.
  - exists (Some []). intros rest; destruct rest; reflexivity.
  - destruct (IH dims) as (o & E); [cbn [List.length] in L; lia|]. destruct (np_index n i) as [k|] eqn:EK.
    + destruct o as [is_|]; [exists (Some (k :: is_))|exists None]; intros rest; cbn [nd_index app]; rewrite EK, E; reflexivity.
    + exists None. intros rest. cbn [nd_index app]. now rewrite EK.
Qed.
(** The picture of the grain against the picture of the map, once the component is known. *)
Lemma extract_same W H dims at_ pts g c :
  nd_shape g = dims ++ [Z.of_nat (List.length pts)] ->
  (forall k p, nth_error pts k = Some p -> forall i, nd_at g (i ++ [Z.of_nat k]) = at_ (i ++ [snd p; fst p])) ->
  (forall l, c = CTuple l -> List.length l = List.length dims) -> (c = CNone -> dims = []) ->
  match extract_component (ND (dims ++ [H; W]) at_) c with
  | Ok (XMap m) => exists r, grain_extract g c = Ok (XMap r) /\ nd_shape r = [Z.of_nat (List.length pts)] /\
      forall k p, nth_error pts k = Some p -> nd_at r [Z.of_nat k] = nd_at m [snd p; fst p]
  | Ok (XEuler _) => grain_extract g c = Ok (XEuler g)
  | Ok (XIpf _ a) => grain_extract g c = Ok (XIpf g a)
  | Err e => grain_extract g c = Err e
  end.
Proof.
  intros SH AT HT HN. destruct c as [|i|l|s|]; cbn [extract_component grain_extract]; try reflexivity.
  - exists g. split; [reflexivity|]. rewrite SH. rewrite (HN eq_refl) in *. split; [reflexivity|]. intros k p N. cbn [nd_at]. apply (AT k p N []).
  - unfold nd_get. rewrite SH. cbn [nd_shape]. destruct (index_split dims l (HT l eq_refl)) as (o & E). rewrite !E.
    destruct o as [i|]; cbn [bind]; [|reflexivity]. eexists. split; [reflexivity|]. cbn [nd_shape nd_at]. split; [reflexivity|].
    intros k p N. apply (AT k p N i).
  - cbv zeta. destruct (String.eqb (lower s) "norm").
    + rewrite SH. cbn [nd_shape nd_at]. destruct dims as [|n [|m [|x dims]]].
      * reflexivity.
      * cbn [app]. eexists. split; [reflexivity|]. cbn [nd_shape nd_at]. split; [reflexivity|]. intros k p N. f_equal. f_equal. apply map_ext. intros i. f_equal. apply (AT k p N [i]).
      * cbn [app]. eexists. split; [reflexivity|]. cbn [nd_shape nd_at]. split; [reflexivity|]. intros k p N. f_equal. f_equal. apply flat_map_ext. intros i. apply map_ext. intros j. f_equal. apply (AT k p N [i; j]).
      * cbn [app]. destruct dims as [|y dims]; [reflexivity|]. cbn [app]. destruct dims; reflexivity.
    + destruct (String.eqb (lower s) "all_euler"); [reflexivity|]. destruct (starts_with "ipf" (lower s)); [|reflexivity].
      destruct (second_part (lower s)) as [t|]; [|reflexivity]. destruct (String.eqb t "x"); [reflexivity|]. destruct (String.eqb t "y"); [reflexivity|]. destruct (String.eqb t "z"); reflexivity.
Qed.
