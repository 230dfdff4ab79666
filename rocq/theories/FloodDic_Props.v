(** Grain finding in DIC maps with the flood fill algorithm: property C07.
    [find_grains_dic W H bnd ms] is the 'floodfill' branch of
    [hrdic.Map.find_grains] on a W x H map with boundary image [bnd]. *)
From Coq Require Import List ZArith Bool Lia.
Import ListNotations.
From Verif Require Import Py Grid Grid_Lemmas Flood_Model Flood_Spec FloodDic_Proofs.
Open Scope Z_scope.

(** A 5 x 3 map with a boundary column at x = 2, a boundary pixel (4, 0) and
    one at (0, 0). *)
Definition exd_bnd (p : pix) : bool :=
  pix_in p [(2, 0); (2, 1); (2, 2); (4, 0); (0, 0)].
Example exd_run :
  match find_grains_dic 5 3 exd_bnd 3 with
  | Ok (lab, gl) => map lab (all_pix 5 3) =
      [-1; 1; 1; 2; 2;  1; 1; 1; 2; 2;  1; 1; 1; 2; 2] /\
      map (@length pix) gl = [8; 6]%nat
  | Err _ => False
  end.
Proof. vm_compute. auto. Qed.
Example exd_small :
  match find_grains_dic 5 3 exd_bnd 7 with
  | Ok (lab, gl) => map lab (all_pix 5 3) =
      [-1; 1; 1; -2; -2;  1; 1; 1; -2; -2;  1; 1; 1; -2; -2]
  | Err _ => False
  end.
Proof. vm_compute. auto. Qed.

(** C07: non-boundary pixels share a positive label exactly when joined by a
    path of non-boundary pixels. *)
Theorem C07_regions :
  forall W H bnd ms, 2 <= W -> 2 <= H -> forall lab gl,
  find_grains_dic W H bnd ms = Ok (lab, gl) ->
  forall p q, inside W H p -> inside W H q -> bnd p = false -> bnd q = false ->
    0 < lab p -> (lab q = lab p <-> dic_connected W H bnd p q).
Proof.
  intros W H bnd ms HW HH lab gl E.
  exact (DFin_same W H bnd ms lab gl (proj1 (FGD_fin W H bnd ms HW HH lab gl E))).
Qed.
Print Assumptions C07_regions.

(** C07: a boundary pixel keeps -1 exactly when neither its left nor its upper
    neighbour is off the boundary; otherwise it takes the label of one of these
    two, namely the one whose region starts first in raster order. *)
Theorem C07_boundary_pixels :
  forall W H bnd ms, 2 <= W -> 2 <= H -> forall lab gl,
  find_grains_dic W H bnd ms = Ok (lab, gl) ->
  forall b, inside W H b -> bnd b = true ->
    (lab b = -1 <-> forall c, ~ dic_candidate W H bnd b c) /\
    (forall c, dic_candidate W H bnd b c -> exists c', dic_owner W H bnd b c') /\
    (forall c, dic_owner W H bnd b c -> lab b = lab c).
Proof.
  intros W H bnd ms HW HH lab gl E.
  exact (DFin_bnd W H bnd ms lab gl (proj1 (FGD_fin W H bnd ms HW HH lab gl E))).
Qed.
Print Assumptions C07_boundary_pixels.

(** C07: a region together with the boundary pixels it takes is labelled
    positively or -2 according to its total size. *)
Theorem C07_label_values :
  forall W H bnd ms, 2 <= W -> 2 <= H -> forall lab gl,
  find_grains_dic W H bnd ms = Ok (lab, gl) ->
  forall p, inside W H p -> bnd p = false ->
    exists n, dic_territory_size W H bnd p n /\
      (ms <= Z.of_nat n /\ 0 < lab p \/ Z.of_nat n < ms /\ lab p = -2).
Proof.
  intros W H bnd ms HW HH lab gl E.
  exact (DFin_free W H bnd ms lab gl (proj1 (FGD_fin W H bnd ms HW HH lab gl E))).
Qed.
Print Assumptions C07_label_values.

(** C07: grain k holds exactly the pixels labelled k + 1, each once. *)
Theorem C07_grain_list_matches_labels :
  forall W H bnd ms, 2 <= W -> 2 <= H -> forall lab gl,
  find_grains_dic W H bnd ms = Ok (lab, gl) ->
  gl <> [] /\
  (forall k pts, nth_error gl k = Some pts ->
     pts <> [] /\ NoDup pts /\ ms <= Z.of_nat (length pts) /\
     forall p, In p pts <-> inside W H p /\ lab p = Z.of_nat k + 1) /\
  (forall p, inside W H p -> 0 < lab p ->
     exists pts, nth_error gl (Z.to_nat (lab p - 1)) = Some pts /\ In p pts).
Proof. exact FGD_list. Qed.
Print Assumptions C07_grain_list_matches_labels.

(** C07: the outcome, for every boundary image: terminates, never outside the
    arrays or the buffer. *)
Theorem C07_outcome :
  forall W H bnd ms, 2 <= W -> 2 <= H ->
  let large := exists p n, inside W H p /\ bnd p = false /\
                 dic_territory_size W H bnd p n /\ ms <= Z.of_nat n in
  let free := exists p, inside W H p /\ bnd p = false in
  (large -> exists r, find_grains_dic W H bnd ms = Ok r) /\
  (free -> ~ large -> find_grains_dic W H bnd ms = Err IndexError) /\
  (~ free -> find_grains_dic W H bnd ms = Err ValueError).
Proof. exact FGD_outcome. Qed.
Print Assumptions C07_outcome.
