(** Grain finding in DIC maps with the warp algorithm (C08) and the link of
    flood-fill grains with EBSD grains (C73). *)
From Coq Require Import List ZArith Bool Lia.
Import ListNotations.
From Verif Require Import Py Grid DicGrains_Model DicGrains_Spec DicGrains_Proofs.
Open Scope Z_scope.

(** A warped EBSD label image on a 3 x 2 DIC map, with EBSD grains 2, 5 and 7
    in view and two background values. *)
Definition exw (p : pix) : Z :=
  nth (Z.to_nat (flat 3 p)) [5; 0; 2; -2; 7; 5] 0.
Example exw_run :
  match warp_find_grains 3 2 exw 8 with
  | Ok (lab, gl) => map lab (all_pix 3 2) = [2; 0; 1; -2; 3; 2] /\
      gl = [([(2, 0)], 1%nat); ([(0, 0); (2, 1)], 4%nat); ([(1, 1)], 6%nat)]
  | Err _ => False
  end.
Proof. vm_compute. auto. Qed.

(** C08: background values are kept; positive EBSD labels are renumbered to
    1..n, preserving equality and order, with no gap. *)
Theorem C08_renumbering :
  forall W H warped n_ebsd, 0 <= W -> 0 <= H -> forall lab gl,
  warp_find_grains W H warped n_ebsd = Ok (lab, gl) ->
  (forall p, inside W H p -> warped p <= 0 -> lab p = warped p) /\
  (forall p, inside W H p -> 0 < warped p -> 1 <= lab p <= Z.of_nat (length gl)) /\
  (forall p q, inside W H p -> inside W H q -> (lab p = lab q <-> warped p = warped q)) /\
  (forall p q, inside W H p -> inside W H q -> 0 < warped p -> 0 < warped q ->
     (lab p < lab q <-> warped p < warped q)) /\
  (forall k, 1 <= k <= Z.of_nat (length gl) -> exists p, inside W H p /\ lab p = k).
Proof. exact warp_labels. Qed.
Print Assumptions C08_renumbering.

(** C08: grain k has exactly the pixels labelled k + 1 and is linked to the
    EBSD grain (position = EBSD label - 1) that these pixels came from. *)
Theorem C08_grains_and_links :
  forall W H warped n_ebsd, 0 <= W -> 0 <= H -> forall lab gl,
  warp_find_grains W H warped n_ebsd = Ok (lab, gl) ->
  forall k pts g, nth_error gl k = Some (pts, g) ->
    pts <> [] /\ NoDup pts /\
    (forall p, In p pts <-> inside W H p /\ lab p = Z.of_nat k + 1) /\
    (forall p, In p pts -> Z.of_nat g = warped p - 1).
Proof. exact warp_grains. Qed.
Print Assumptions C08_grains_and_links.

(** C08: it succeeds whenever an EBSD grain is in view (and labels do not
    exceed the number of EBSD grains); with none in view it raises. *)
Theorem C08_outcome :
  forall W H warped n_ebsd, 0 <= W -> 0 <= H ->
  ((forall p, inside W H p -> warped p <= Z.of_nat n_ebsd) ->
   (exists p, inside W H p /\ 0 < warped p) ->
   exists r, warp_find_grains W H warped n_ebsd = Ok r) /\
  ((forall p, inside W H p -> warped p <= 0) ->
   warp_find_grains W H warped n_ebsd = Err IndexError).
Proof. exact warp_outcome. Qed.
Print Assumptions C08_outcome.

(** C73: with a positive modal label the DIC grain is linked to that EBSD
    grain. *)
Theorem C73_link_modal_partial :
  forall labels n m, modal labels m -> 1 <= m <= Z.of_nat n ->
  link_dic_grain labels n = Ok (Z.to_nat (m - 1)).
Proof. exact link_ok. Qed.
Print Assumptions C73_link_modal_partial.

Example C73_hypotheses_met : modal [3; 0; 3; 2; 2; 0; 2; 3] 2 /\ 1 <= 2 <= Z.of_nat 4.
Proof.
  split; [|lia]. split; [cbn; tauto|].
  intros v Hv. cbn in Hv.
  repeat (destruct Hv as [<-|Hv]; [vm_compute; split; [repeat constructor|intros; congruence || discriminate]|]).
  destruct Hv.
Qed.

(** C73 fails when background is the modal label: the code then counts from
    the end of the grain list, so the link goes to an unrelated grain, which
    need not even occur under the DIC grain. *)
Theorem C73_background_link :
  forall labels n m, modal labels m -> - Z.of_nat n + 1 <= m <= 0 ->
  link_dic_grain labels n = Ok (Z.to_nat (Z.of_nat n + m - 1)).
Proof. exact link_bad. Qed.
Print Assumptions C73_background_link.

Theorem C73_link_refuted :
  exists labels n g, link_dic_grain labels n = Ok g /\
    In 1 labels /\ ~ In (Z.of_nat g + 1) labels.
Proof.
  exists [0; 0; 0; 1; 1], 9%nat, 8%nat. split; [vm_compute; reflexivity|].
  cbn. split; [tauto|]. lia.
Qed.
Print Assumptions C73_link_refuted.
