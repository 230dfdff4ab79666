(** Grain finding in EBSD maps: properties C01, C02, C03, C06 and C72.
    [find_grains W H bx by_ phase np ms] is [ebsd.Map.find_grains] on a map of
    width W and height H whose boundary images are [bx] and [by_], with phase
    image [phase], [np] phases and minimum grain size [ms]. *)
From Coq Require Import List ZArith Bool Lia.
Import ListNotations.
From Verif Require Import Py Grid Grid_Lemmas Flood_Model Flood_Spec Flood_Proofs.
Open Scope Z_scope.

(** A 4 x 3 map with a wall between columns 1 and 2, one enclosed pixel (3, 0),
    and a not indexed row piece. *)
Definition ex_bx (p : pix) : bool := pix_in p [(1, 0); (1, 1); (1, 2); (2, 0)].
Definition ex_by (p : pix) : bool := pix_in p [(3, 0)].
Definition ex_phase (p : pix) : Z := if pix_in p [(0, 2); (3, 2)] then 0 else 1.
Definition ex_view (r : res ((pix -> Z) * list (list pix) * list (option Z))) :=
  match r with
  | Ok (lab, gl, ph) => Some (map lab (all_pix 4 3), map (@length pix) gl, ph)
  | Err _ => None
  end.
Example ex_find_grains :
  ex_view (find_grains 4 3 ex_bx ex_by ex_phase 1 2) =
  Some ([1; 1; 2; -2;  1; 1; 2; 2;  1; 1; 2; 2], [6; 5]%nat, [None; None]).
Proof. vm_compute. reflexivity. Qed.

(** C01: two pixels carry the same positive label exactly when they are joined
    by a path of neighbouring pixels that crosses no marked boundary. *)
Theorem C01_grains_are_connected_regions :
  forall W H bx by_ phase np ms lab gl ph, 2 <= W -> 2 <= H ->
  find_grains W H bx by_ phase np ms = Ok (lab, gl, ph) ->
  forall p q, inside W H p -> inside W H q -> 0 < lab p ->
    (lab q = lab p <-> connected W H bx by_ p q).
Proof. exact fg_same. Qed.
Print Assumptions C01_grains_are_connected_regions.

(** C01: a region with an indexed pixel is labelled positively or -2 according
    to its size; other regions stay 0. *)
Theorem C01_label_values :
  forall W H bx by_ phase np ms lab gl ph, 2 <= W -> 2 <= H ->
  find_grains W H bx by_ phase np ms = Ok (lab, gl, ph) ->
  forall p, inside W H p ->
    (region_indexed W H bx by_ phase p ->
     exists n, region_size W H bx by_ p n /\
       (ms <= Z.of_nat n /\ 0 < lab p \/ Z.of_nat n < ms /\ lab p = -2)) /\
    (~ region_indexed W H bx by_ phase p -> lab p = 0).
Proof. exact fg_values. Qed.
Print Assumptions C01_label_values.

(** C01: every region carries one label, whatever the label. *)
Theorem C01_label_constant_on_region :
  forall W H bx by_ phase np ms lab gl ph, 2 <= W -> 2 <= H ->
  find_grains W H bx by_ phase np ms = Ok (lab, gl, ph) ->
  forall p q, connected W H bx by_ p q -> lab p = lab q.
Proof. exact fg_region_const. Qed.
Print Assumptions C01_label_constant_on_region.

Example C01_hypotheses_met :
  match find_grains 4 3 ex_bx ex_by ex_phase 1 2 with
  | Ok (lab, gl, ph) =>
      lab (2, 0) = 2 /\ lab (3, 2) = 2 /\ lab (1, 1) = 1 /\ lab (3, 0) = -2
  | Err _ => False
  end.
Proof. vm_compute. auto. Qed.

(** C02: grain k of the list has exactly the pixels labelled k + 1, each once;
    and every positive label has its grain. *)
Theorem C02_grain_list_matches_labels :
  forall W H bx by_ phase np ms lab gl ph, 2 <= W -> 2 <= H ->
  find_grains W H bx by_ phase np ms = Ok (lab, gl, ph) ->
  gl <> [] /\
  (forall k pts, nth_error gl k = Some pts ->
     pts <> [] /\ NoDup pts /\ ms <= Z.of_nat (length pts) /\
     forall p, In p pts <-> inside W H p /\ lab p = Z.of_nat k + 1) /\
  (forall p, inside W H p -> 0 < lab p ->
     exists pts, nth_error gl (Z.to_nat (lab p - 1)) = Some pts /\ In p pts).
Proof. exact fg_list. Qed.
Print Assumptions C02_grain_list_matches_labels.

(** C02: grains are numbered in the raster order of their first indexed
    pixels. *)
Theorem C02_grain_numbers_in_raster_order :
  forall W H bx by_ phase np ms lab gl ph, 2 <= W -> 2 <= H ->
  find_grains W H bx by_ phase np ms = Ok (lab, gl, ph) ->
  forall k1 k2 pts1 pts2, (k1 < k2)%nat ->
    nth_error gl k1 = Some pts1 -> nth_error gl k2 = Some pts2 ->
    exists p1, In p1 pts1 /\ phase p1 <> 0 /\
      forall p2, In p2 pts2 -> phase p2 <> 0 -> flat W p1 < flat W p2.
Proof. exact fg_order. Qed.
Print Assumptions C02_grain_numbers_in_raster_order.

Example C02_hypotheses_met :
  match find_grains 4 3 ex_bx ex_by ex_phase 1 2 with
  | Ok (lab, [pts1; pts2], ph) => In (0, 2) pts1 /\ In (3, 1) pts2
  | _ => False
  end.
Proof. vm_compute. tauto. Qed.

(** C03: on a map at least two pixels wide and high a flood fill terminates,
    stays inside the map and its buffer, and visits each pixel at most once. *)
Theorem C03_flood_fill_safe :
  forall W H bx by_ cap seed index g l,
  2 <= W -> 2 <= H -> inside W H seed -> g seed <= 0 -> 0 < index ->
  W * H <= Z.of_nat cap ->
  exists g' l' pts, flood_fill W H bx by_ cap seed index g l = Ok (g', l', pts) /\
    NoDup pts /\ forall p, In p pts -> inside W H p.
Proof. exact flood_fill_total. Qed.
Print Assumptions C03_flood_fill_safe.

Example C03_hypotheses_met :
  2 <= 4 /\ 2 <= 3 /\ inside 4 3 (2, 1) /\ (fun _ : pix => 0) (2, 1) <= 0 /\
  0 < 1 /\ 4 * 3 <= Z.of_nat 12.
Proof. unfold inside; cbn; lia. Qed.

(** C03, and C06: which of the three outcomes find_grains has.  In particular
    it neither reads outside an array, overruns its buffer, nor fails to
    terminate; but it raises when there is nothing to find. *)
Theorem C06_find_grains_outcome_partial :
  forall W H bx by_ phase np ms, 2 <= W -> 2 <= H ->
  let large := exists p n, inside W H p /\ region_indexed W H bx by_ phase p /\
                 region_size W H bx by_ p n /\ ms <= Z.of_nat n in
  let indexed := exists p, inside W H p /\ phase p <> 0 in
  (large -> exists r, find_grains W H bx by_ phase np ms = Ok r) /\
  (indexed -> ~ large -> find_grains W H bx by_ phase np ms = Err IndexError) /\
  (~ indexed -> find_grains W H bx by_ phase np ms = Err ValueError).
Proof. exact fg_outcome. Qed.
Print Assumptions C06_find_grains_outcome_partial.

(** C03 fails on maps one pixel wide or high: every run that starts reads
    outside the arrays. *)
Theorem C03_thin_maps_refuted :
  forall W H bx by_ phase np ms p,
  (W = 1 \/ H = 1) -> inside W H p -> phase p <> 0 ->
  find_grains W H bx by_ phase np ms = Err OutOfBounds.
Proof. exact thin_find_grains. Qed.
Print Assumptions C03_thin_maps_refuted.

Example C03_thin_hypotheses_met :
  (5 = 1 \/ 1 = 1) /\ inside 5 1 (3, 0) /\ ex_phase (3, 0) <> 0.
Proof. unfold inside; cbn [fst snd]. split; [lia|]. split; [lia|]. vm_compute. discriminate. Qed.

(** C06 fails: valid maps on which find_grains raises. *)
Theorem C06_find_grains_refuted :
  (exists W H bx by_ phase, 2 <= W /\ 2 <= H /\
     find_grains W H bx by_ phase 1 10 = Err ValueError) /\
  (exists W H bx by_ phase, 2 <= W /\ 2 <= H /\
     (forall p, phase p = 1) /\
     find_grains W H bx by_ phase 1 10 = Err IndexError).
Proof.
  split.
  - exists 3, 3, (fun _ => false), (fun _ => false), (fun _ => 0).
    split; [lia|]. split; [lia|]. vm_compute. reflexivity.
  - exists 3, 3, (fun _ => false), (fun _ => false), (fun _ => 1).
    split; [lia|]. split; [lia|]. split; [reflexivity|]. vm_compute. reflexivity.
Qed.
Print Assumptions C06_find_grains_refuted.

(** C72: a grain gets phase v exactly when v is valid and all its pixels have
    that phase; otherwise none. *)
Theorem C72_grain_phase :
  forall W H bx by_ phase np ms lab gl ph, 2 <= W -> 2 <= H ->
  find_grains W H bx by_ phase np ms = Ok (lab, gl, ph) ->
  length ph = length gl /\
  forall k pts, nth_error gl k = Some pts ->
    (forall v, nth_error ph k = Some (Some v) <->
       0 <= v < np /\ forall p, In p pts -> phase p = v + 1) /\
    (nth_error ph k = Some None <->
       ~ exists v, 0 <= v < np /\ forall p, In p pts -> phase p = v + 1).
Proof. exact fg_phases. Qed.
Print Assumptions C72_grain_phase.

Example C72_hypotheses_met :
  ex_view (find_grains 4 3 ex_bx ex_by (fun p => if fst p <? 2 then 1 else 2) 2 3) =
  Some ([1; 1; 2; -2;  1; 1; 2; 2;  1; 1; 2; 2], [6; 5]%nat, [Some 0; Some 1]).
Proof. vm_compute. reflexivity. Qed.
