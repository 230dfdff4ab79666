(** Properties of map plots: highlights, their colours, and the bookkeeping of layers. *)
From Coq Require Import String Ascii Reals.
From Coq Require Import List ZArith Bool Lia Lra.
Import ListNotations.
From Verif Require Import Py Grid Grid_Lemmas Base_Model Base_Proofs Ebsd_Model Text_Model Insp_Model Insp_Proofs MapPlot_Model MapPlot_Spec MapPlot_Proofs.
Open Scope Z_scope.

(** ** C68 *)

(** A call that succeeds puts 'white' in front of the caller's list, and touches no other
    list; so does none of the other calls. *)
Theorem C68_list_changed : forall W H grains ids k new w w',
  add_grain_highlights W H grains ids (Some k) new w = (w', None) ->
  exists l, nth_error (colour_lists w) k = Some l /\ nth_error (colour_lists w') k = Some (lit "white" :: l) /\
    (forall j, j <> k -> nth_error (colour_lists w') j = nth_error (colour_lists w) j).
Proof.
  intros W H grains ids k new w w' E. destruct (nth_error (colour_lists w) k) as [l|] eqn:C.
  2:{ unfold add_grain_highlights in E. rewrite C in E. discriminate. }
  exists l. split; [reflexivity|]. destruct (highlight_image W H grains ids (Z.of_nat (List.length l))) as [im|e] eqn:I.
  - rewrite (call_unfold W H grains ids (Some k) new w l im C I) in E. injection E as <-. cbn [colour_lists lists_after]. split.
    + apply change_same. exact (nth_error_Some_len _ _ _ _ C).
    + intros j J. apply change_other. congruence.
  - unfold add_grain_highlights in E. rewrite C, I in E. discriminate.
Qed.
Print Assumptions C68_list_changed.

(** Over a whole session, a list grows by at most one 'white' for each highlight that was
    given it, always in front; lists given to no highlight stay as they were. *)
Theorem C68_lists : forall W H grains cs w k l, nth_error (colour_lists w) k = Some l ->
  exists m, (m <= uses k cs)%nat /\ nth_error (colour_lists (session W H grains cs w)) k = Some (repeat (lit "white") m ++ l).
Proof. exact lists_session. Qed.
Print Assumptions C68_lists.
(** In particular a list is left unchanged by all calls that are not given it. *)
Theorem C68_partial : forall W H grains cs w k l, nth_error (colour_lists w) k = Some l -> uses k cs = 0%nat ->
  nth_error (colour_lists (session W H grains cs w)) k = Some l.
Proof.
  intros W H grains cs w k l N U. destruct (lists_session W H grains cs w k l N) as (m & M & E). rewrite U in M. assert (m = O) by lia. subst m. exact E.
Qed.
Print Assumptions C68_partial.

(** Two calls with no list draw the same picture. *)
Theorem C68_default_repeats : forall W H grains ids new w w', sound (plot w) ->
  add_grain_highlights W H grains ids None new w = (w', None) ->
  exists w'', add_grain_highlights W H grains ids None new w' = (w'', None) /\
    colour_lists w'' = colour_lists w /\
    nth_error (img_layers (plot w'')) (drawn_layer new (plot w')) = nth_error (img_layers (plot w')) (drawn_layer new (plot w)).
Proof.
  intros W H grains ids new w w' SD E. destruct (highlight_image W H grains ids (Z.of_nat (List.length [lit "white"]))) as [im|e] eqn:I.
  - rewrite (call_unfold W H grains ids None new w _ im eq_refl I) in E. injection E as <-.
    eexists. split; [apply (call_unfold W H grains ids None new _ _ im eq_refl I)|]. cbn [colour_lists plot lists_after]. split; [reflexivity|].
    rewrite !put_drawn; auto. apply sound_put; [exact SD|exact Logic.I].
  - unfold add_grain_highlights in E. rewrite I in E. discriminate.
Qed.
Print Assumptions C68_default_repeats.

(** Refuted: calls with one list draw the same colours. *)
Definition one_row : list (list pix) := [[(0, 0)]; [(1, 0)]].
Definition with_red : world := mkWorld [[lit "red"]] empty_plot.
Theorem C68_refuted :
  ~ (forall W H grains ids k new w w' w'', sound (plot w) ->
      add_grain_highlights W H grains ids (Some k) new w = (w', None) ->
      add_grain_highlights W H grains ids (Some k) new w' = (w'', None) ->
      forall p, seen W H (plot w'') (drawn_layer new (plot w')) p = seen W H (plot w') (drawn_layer new (plot w)) p).
Proof.
  intros C. pose (r1 := add_grain_highlights 3 1 one_row [0; 1] (Some 0%nat) false with_red).
  pose (r2 := add_grain_highlights 3 1 one_row [0; 1] (Some 0%nat) false (fst r1)).
  assert (G0 : chosen 3 1 one_row [0; 1] one_row).
  { split; [repeat apply Forall2_cons; try reflexivity; apply Forall2_nil|]. split.
    - intros g [<-|[<-|[]]]; (split; [discriminate|]); intros p [<-|[]]; unfold inside; cbn [fst snd]; lia.
    - intros i j a b p A B I J. destruct i as [|[|[|i]]], j as [|[|[|j]]]; cbn in A, B; try discriminate; try reflexivity;
        injection A as <-; injection B as <-; destruct I as [<-|[]]; destruct J as [J|[]]; discriminate. }
  assert (BG : exists p, inside 3 1 p /\ forall g, In g one_row -> ~ In p g).
  { exists (2, 0). split; [unfold inside; cbn [fst snd]; lia|]. intros g [<-|[<-|[]]] [X|[]]; discriminate. }
  destruct (image_values 3 1 one_row [0; 1] one_row 1 G0) as (im1 & I1 & _); [lia|].
  destruct (image_values 3 1 one_row [0; 1] one_row 2 G0) as (im2 & I2 & _); [lia|].
  assert (S0 : sound (plot with_red)) by (split; [discriminate|]; split; [easy|reflexivity]).
  pose proof (call_unfold 3 1 one_row [0; 1] (Some 0%nat) false with_red [lit "red"] im1 eq_refl I1) as E1.
  set (w1 := mkWorld _ _) in E1.
  pose proof (call_unfold 3 1 one_row [0; 1] (Some 0%nat) false w1 [lit "white"; lit "red"] im2 eq_refl I2) as E2.
  specialize (C 3 1 one_row [0; 1] 0%nat false with_red _ _ S0 E1 E2 (0, 0)).
  assert (S1 : sound (plot w1)) by (apply sound_put; [exact S0|exact Logic.I]).
  unfold seen in C. cbn [plot] in C. rewrite (put_drawn false _ (plot w1) S1) in C. unfold w1 in C. cbn [plot] in C. rewrite (put_drawn false _ (plot with_red) S0) in C.
  destruct (shown_spread 3 1 one_row [0; 1] one_row [lit "red"] im1 G0) as (V1 & _); try easy; try lia.
  destruct (shown_spread 3 1 one_row [0; 1] one_row [lit "white"; lit "red"] im2 G0) as (V2 & _); try easy; try lia.
  rewrite (V1 0%nat [(0, 0)] (0, 0) eq_refl (or_introl eq_refl)), (V2 0%nat [(0, 0)] (0, 0) eq_refl (or_introl eq_refl)) in C.
  vm_compute in C. discriminate.
Qed.
Print Assumptions C68_refuted.

(** ** C88: what the highlights show *)

(** Every highlight call on a map with background left, for every list of colours: which
    colour each pixel shows.  Grain number i of k is shown in colour number
    [spread n k i]; pixels of no chosen grain show nothing.  Only the layer drawn on is
    changed. *)
Theorem C88_shown : forall W H grains ids gs o new w cs, sound (plot w) -> chosen W H grains ids gs -> ids <> [] ->
  (exists p, inside W H p /\ forall g, In g gs -> ~ In p g) ->
  match o with None => cs = [lit "white"] | Some k => nth_error (colour_lists w) k = Some cs end -> cs <> [] ->
  exists w', add_grain_highlights W H grains ids o new w = (w', None) /\
    (forall i g p, nth_error gs i = Some g -> In p g ->
       seen W H (plot w') (drawn_layer new (plot w)) p =
       nth_error cs (Z.to_nat (spread (Z.of_nat (List.length cs)) (Z.of_nat (List.length ids)) (Z.of_nat (S i)) - 1))) /\
    (forall p, (forall g, In g gs -> ~ In p g) -> seen W H (plot w') (drawn_layer new (plot w)) p = None) /\
    (forall j, j <> drawn_layer new (plot w) -> nth_error (img_layers (plot w')) j = nth_error (img_layers (plot w)) j).
Proof.
  intros W H grains ids gs o new w cs SD CH NI BG C NC.
  assert (C' : colours_of o w = Some cs) by (destruct o; cbn [colours_of]; congruence).
  destruct (image_values W H grains ids gs (Z.of_nat (List.length cs)) CH) as (im & I & _); [lia|].
  eexists. split; [exact (call_unfold W H grains ids o new w cs im C' I)|]. cbn [plot].
  assert (PW : 0 < W /\ 0 < H) by (destruct BG as (p & P & _); exact (inside_pos W H p P)). destruct PW as (PW & PH).
  destruct (shown_spread W H grains ids gs cs im CH NC NI PW PH BG I) as (V & B).
  unfold seen. rewrite (put_drawn new _ (plot w) SD). split; [exact V|]. split; [exact B|]. intros j J. now apply put_other.
Qed.
Print Assumptions C88_shown.
Example C88_shown_met : exists w', add_grain_highlights 3 1 one_row [0; 1] (Some 0%nat) false (mkWorld [[lit "red"; lit "blue"]] empty_plot) = (w', None) /\
  seen 3 1 (plot w') 0 (0, 0) = Some (lit "red") /\ seen 3 1 (plot w') 0 (1, 0) = Some (lit "blue") /\ seen 3 1 (plot w') 0 (2, 0) = None.
Proof.
  destruct (C88_shown 3 1 one_row [0; 1] one_row (Some 0%nat) false (mkWorld [[lit "red"; lit "blue"]] empty_plot) [lit "red"; lit "blue"]) as (w' & E & V & B & _); try easy.
  - split; [repeat apply Forall2_cons; try reflexivity; apply Forall2_nil|]. split.
    + intros g [<-|[<-|[]]]; (split; [discriminate|]); intros p [<-|[]]; unfold inside; cbn [fst snd]; lia.
    + intros i j a b p A B I J. destruct i as [|[|[|i]]], j as [|[|[|j]]]; cbn in A, B; try discriminate; try reflexivity;
        injection A as <-; injection B as <-; destruct I as [<-|[]]; destruct J as [J|[]]; discriminate.
  - exists (2, 0). split; [unfold inside; cbn [fst snd]; lia|]. intros g [<-|[<-|[]]] [X|[]]; discriminate.
  - exists w'. split; [exact E|]. split; [|split].
    + exact (V 0%nat [(0, 0)] (0, 0) eq_refl (or_introl eq_refl)).
    + exact (V 1%nat [(1, 0)] (1, 0) eq_refl (or_introl eq_refl)).
    + apply (B (2, 0)). intros g [<-|[<-|[]]] [X|[]]; discriminate.
Qed.

(** So with no more colours than grains, grain number i has colour number i, or the last
    colour if the colours run out. *)
Theorem C88_colours_partial : forall W H grains ids gs o new w cs, sound (plot w) -> chosen W H grains ids gs -> ids <> [] ->
  (exists p, inside W H p /\ forall g, In g gs -> ~ In p g) ->
  match o with None => cs = [lit "white"] | Some k => nth_error (colour_lists w) k = Some cs end -> cs <> [] ->
  (List.length cs <= List.length ids)%nat ->
  exists w', add_grain_highlights W H grains ids o new w = (w', None) /\
    (forall i g p, nth_error gs i = Some g -> In p g -> seen W H (plot w') (drawn_layer new (plot w)) p = asked cs i) /\
    (forall p, (forall g, In g gs -> ~ In p g) -> seen W H (plot w') (drawn_layer new (plot w)) p = None).
Proof.
  intros W H grains ids gs o new w cs SD CH NI BG C NC LE.
  destruct (C88_shown W H grains ids gs o new w cs SD CH NI BG C NC) as (w' & E & V & B & _). exists w'. split; [exact E|]. split; [|exact B].
  intros i g p I P. rewrite (V i g p I P).
  assert (LG : List.length gs = List.length ids). { destruct CH as (F & _). clear - F. induction F; cbn [List.length]; lia. }
  apply nth_error_Some_len in I as IL. assert (0 < List.length cs)%nat by (destruct cs; [easy|cbn [List.length]; lia]).
  rewrite spread_full by lia. unfold asked. f_equal. lia.
Qed.
Print Assumptions C88_colours_partial.
Example C88_colours_met : asked [lit "red"; lit "blue"] 5 = Some (lit "blue") /\ asked [lit "red"; lit "blue"] 0 = Some (lit "red").
Proof. split; reflexivity. Qed.

(** Refuted: with more colours than grains the colours are spread, so that a grain is not
    shown in its colour: one grain and three colours show the third. *)
Theorem C88_colours_refuted :
  ~ (forall W H grains ids gs o new w cs w', sound (plot w) -> chosen W H grains ids gs -> ids <> [] ->
      (exists p, inside W H p /\ forall g, In g gs -> ~ In p g) ->
      match o with None => cs = [lit "white"] | Some k => nth_error (colour_lists w) k = Some cs end -> cs <> [] ->
      add_grain_highlights W H grains ids o new w = (w', None) ->
      forall i g p, nth_error gs i = Some g -> In p g -> seen W H (plot w') (drawn_layer new (plot w)) p = asked cs i).
Proof.
  intros C. pose (cs := [lit "red"; lit "green"; lit "blue"]). pose (w := mkWorld [cs] empty_plot).
  assert (S0 : sound (plot w)) by (split; [discriminate|]; split; [easy|reflexivity]).
  assert (G0 : chosen 3 1 one_row [0] [[(0, 0)]]).
  { split; [repeat apply Forall2_cons; try reflexivity; apply Forall2_nil|]. split.
    - intros g [<-|[]]; (split; [discriminate|]); intros p [<-|[]]; unfold inside; cbn [fst snd]; lia.
    - intros i j a b p A B I J. destruct i as [|[|i]], j as [|[|j]]; cbn in A, B; try discriminate; reflexivity. }
  assert (BG : exists p, inside 3 1 p /\ forall g, In g [[(0, 0)]] -> ~ In p g).
  { exists (2, 0). split; [unfold inside; cbn [fst snd]; lia|]. intros g [<-|[]] [X|[]]; discriminate. }
  destruct (C88_shown 3 1 one_row [0] [[(0, 0)]] (Some 0%nat) false w cs S0 G0) as (w' & E & V & _); try easy.
  specialize (C 3 1 one_row [0] [[(0, 0)]] (Some 0%nat) false w cs w' S0 G0 ltac:(discriminate) BG eq_refl ltac:(discriminate) E 0%nat [(0, 0)] (0, 0) eq_refl (or_introl eq_refl)).
  rewrite (V 0%nat [(0, 0)] (0, 0) eq_refl (or_introl eq_refl)) in C. vm_compute in C. discriminate.
Qed.
Print Assumptions C88_colours_refuted.

(** If the chosen grains cover the whole map, the first of them is not shown at all. *)
Theorem C88_covered_hidden : forall W H grains ids gs o new w cs, sound (plot w) -> chosen W H grains ids gs ->
  (forall p, inside W H p -> exists g, In g gs /\ In p g) ->
  match o with None => cs = [lit "white"] | Some k => nth_error (colour_lists w) k = Some cs end -> cs <> [] ->
  exists w', add_grain_highlights W H grains ids o new w = (w', None) /\
    forall g p, nth_error gs 0 = Some g -> In p g -> seen W H (plot w') (drawn_layer new (plot w)) p = None.
Proof.
  intros W H grains ids gs o new w cs SD CH COV C NC.
  assert (C' : colours_of o w = Some cs) by (destruct o; cbn [colours_of]; congruence).
  destruct (image_values W H grains ids gs (Z.of_nat (List.length cs)) CH) as (im & I & _); [lia|].
  eexists. split; [exact (call_unfold W H grains ids o new w cs im C' I)|]. cbn [plot]. unfold seen. rewrite (put_drawn new _ (plot w) SD).
  exact (first_hidden W H grains ids gs cs im CH NC COV I).
Qed.
Print Assumptions C88_covered_hidden.
Example C88_covered_met : chosen 2 1 one_row [0; 1] one_row /\ forall p, inside 2 1 p -> exists g, In g one_row /\ In p g.
Proof.
  split.
  - split; [repeat apply Forall2_cons; try reflexivity; apply Forall2_nil|]. split.
    + intros g [<-|[<-|[]]]; (split; [discriminate|]); intros p [<-|[]]; unfold inside; cbn [fst snd]; lia.
    + intros i j a b p A B I J. destruct i as [|[|[|i]]], j as [|[|[|j]]]; cbn in A, B; try discriminate; try reflexivity;
        injection A as <-; injection B as <-; destruct I as [<-|[]]; destruct J as [J|[]]; discriminate.
  - intros (x, y) I. unfold inside in I. cbn [fst snd] in I. destruct (Z.eq_dec x 0) as [->|N].
    + exists [(0, 0)]. split; [now left|]. left. f_equal; lia.
    + exists [(1, 0)]. split; [right; now left|]. left. f_equal; lia.
Qed.

(** ** C88: layers *)

(** Whatever is called, in whatever order, the highlight layer noted is one and the point
    layers noted are exactly the layers of points. *)
Theorem C88_layers : forall W H grains cs w, sound (plot w) -> sound (plot (session W H grains cs w)).
Proof.
  intros W H grains cs. induction cs as [|c cs IH]; intros w SD; [exact SD|]. unfold session. cbn [fold_left]. apply IH. now apply sound_call.
Qed.
Print Assumptions C88_layers.
Example C88_layers_met : sound empty_plot /\
  let p := plot (session 3 1 one_row [AddMap; AddPoints [1%R] [2%R] None; Highlight [0] None false; AddPoints [3%R] [4%R] None; AddPoints [5%R] [6%R] (Some 0); Highlight [1] None false] with_red) in
  highlights_layer_id p = Some 2%nat /\ points_layer_ids p = [1%nat; 3%nat] /\ nth_error (img_layers p) 1 = Some (LPoints [5%R] [6%R]) /\ List.length (img_layers p) = 4%nat.
Proof.
  split; [split; [discriminate|]; split; [easy|reflexivity]|]. cbv zeta.
  unfold session. cbn [fold_left].
  set (W3 := fst (do_call 3 1 one_row (AddPoints _ _ None) (fst (do_call 3 1 one_row AddMap with_red)))).
  assert (O : forall k w, (k = 0 \/ k = 1) -> exists im, add_grain_highlights 3 1 one_row [k] None false w = (mkWorld (lists_after None [lit "white"] w) (put_layer false (LHighlight im [lit "white"; lit "white"]) (plot w)), None)).
  { intros k w K. assert (G0 : chosen 3 1 one_row [k] [[(k, 0)]]).
    { split; [apply Forall2_cons; [destruct K as [->| ->]; reflexivity|apply Forall2_nil]|]. split.
      - intros g [<-|[]]; (split; [discriminate|]); intros p [<-|[]]; unfold inside; cbn [fst snd]; lia.
      - intros i j a b p A B I J. destruct i as [|[|i]], j as [|[|j]]; cbn in A, B; try discriminate; reflexivity. }
    destruct (image_values 3 1 one_row [k] _ 1 G0) as (im & I & _); [lia|]. exists im. exact (call_unfold 3 1 one_row [k] None false w [lit "white"] im eq_refl I). }
  destruct (O 0 W3 (or_introl eq_refl)) as (i1 & E1). cbn [do_call]. fold W3. rewrite E1. cbn [fst plot].
  match goal with |- context [add_grain_highlights 3 1 one_row [1] None false ?w] => destruct (O 1 w (or_intror eq_refl)) as (i2 & E2) end.
  rewrite E2. cbn. repeat split; reflexivity.
Qed.

(** Adding points shows exactly them, in a new layer or in the one asked for, and changes
    no other layer. *)
Theorem C88_points : forall x y u p p', sound p -> add_points x y u p = (p', None) ->
  List.length x = List.length y /\
  exists k, nth_error (img_layers p') k = Some (LPoints x y) /\ In k (points_layer_ids p') /\
    (forall j, j <> k -> nth_error (img_layers p') j = nth_error (img_layers p) j) /\
    match points_layer_ids p, u with
    | _ :: _, Some i => py_get (points_layer_ids p) i = Ok k /\ points_layer_ids p' = points_layer_ids p
    | _, _ => k = List.length (img_layers p) /\ points_layer_ids p' = points_layer_ids p ++ [k]
    end.
Proof.
  intros x y u p p' SD E. unfold add_points in E.
  assert (NEW : (List.length x = List.length y)%nat -> p' = mkPlot (img_layers p ++ [LPoints x y]) (highlights_layer_id p) (points_layer_ids p ++ [List.length (img_layers p)]) ->
    List.length x = List.length y /\ (let k := List.length (img_layers p) in nth_error (img_layers p') k = Some (LPoints x y) /\ In k (points_layer_ids p') /\
    (forall j, j <> k -> nth_error (img_layers p') j = nth_error (img_layers p) j) /\ k = List.length (img_layers p) /\ points_layer_ids p' = points_layer_ids p ++ [k])).
  { intros L ->. split; [exact L|]. cbv zeta. cbn [img_layers points_layer_ids]. split; [now rewrite nth_error_app2, Nat.sub_diag by lia|]. split; [apply in_app_iff; right; now left|].
    split; [|now split]. intros j J. destruct (Nat.lt_ge_cases j (List.length (img_layers p))); [now rewrite nth_error_app1|].
    rewrite (proj2 (nth_error_None (img_layers p) j)) by lia. apply nth_error_None. rewrite app_length. cbn [List.length]. lia. }
  destruct (points_layer_ids p) as [|i0 ids] eqn:Q; [|destruct u as [i|]].
  - destruct (Nat.eqb_spec (List.length x) (List.length y)) as [L|L]; [|discriminate]. injection E as <-. destruct (NEW L eq_refl) as (L' & X). split; [exact L'|]. eexists. exact X.
  - destruct (py_get (i0 :: ids) i) as [k|e] eqn:G; [|discriminate].
    destruct (Nat.eqb_spec (List.length x) (List.length y)) as [L|L]; [|discriminate]. injection E as <-. split; [exact L|]. exists k. cbn [img_layers points_layer_ids].
    apply py_get_in in G as GI. rewrite <- Q in GI. pose proof SD as (_ & _ & C). rewrite C in GI. apply (pts_in (img_layers p) 0 k) in GI as (a & _ & EA & _). rewrite Nat.sub_0_r in EA.
    split; [apply change_same; exact (nth_error_Some_len _ _ _ _ EA)|]. split; [exact (py_get_in _ _ _ _ G)|]. split; [|split; reflexivity].
    intros j J. apply change_other. congruence.
  - destruct (Nat.eqb_spec (List.length x) (List.length y)) as [L|L]; [|discriminate]. injection E as <-. destruct (NEW L eq_refl) as (L' & X). split; [exact L'|]. eexists. exact X.
Qed.
Print Assumptions C88_points.

(** A call that fails changes nothing. *)
Theorem C88_failed : forall W H grains c w w' e, do_call W H grains c w = (w', Some e) -> w' = w.
Proof.
  intros W H grains c w w' e E. destruct c as [| |ids o new|x y u| |l]; cbn [do_call] in E; try discriminate.
  - destruct (colours_of o w) as [cs|] eqn:C.
    + destruct (highlight_image W H grains ids (Z.of_nat (List.length cs))) as [im|e'] eqn:I.
      * rewrite (call_unfold _ _ _ _ _ _ _ _ _ C I) in E. discriminate.
      * unfold add_grain_highlights in E. unfold colours_of in C. rewrite C, I in E. now injection E.
    + unfold add_grain_highlights in E. unfold colours_of in C. rewrite C in E. now injection E.
  - unfold add_points in E. destruct (points_layer_ids (plot w)) as [|i0 ids], u as [i|];
      repeat match goal with H : context [py_get ?a ?b] |- _ => destruct (py_get a b) | H : context [(?a =? ?b)%nat] |- _ => destruct (a =? b)%nat end;
      try discriminate; injection E as <- <-; destruct w; reflexivity.
Qed.
Print Assumptions C88_failed.

(** ** C88: neighbours *)

(** The grains highlighted for a grain: it, its neighbours, and each second neighbour
    once. *)
Theorem C88_neighbours : forall nb g, exists s, fst (neighbour_highlights nb g) = g :: nb g ++ s /\ NoDup s /\ forall x, In x s <-> second_neighbour nb g x.
Proof.
  intros nb g. exists (second_neighbours nb g). destruct (second_spec nb g) as (N & I). split; [reflexivity|]. now split.
Qed.
Print Assumptions C88_neighbours.
Example C88_neighbours_met : fst (neighbour_highlights (fun g => [g - 1; g + 1]) 5) = [5; 4; 6; 3; 7] /\ second_neighbour (fun g => [g - 1; g + 1]) 5 7.
Proof.
  split; [reflexivity|]. split; [exists 6; split; [right; now left|right; now left]|]. split; [lia|]. intros [X|[X|[]]]; lia.
Qed.

(** If there are second neighbours, the grain is shown white, its neighbours yellow and
    the second neighbours green. *)
Theorem C88_neighbour_colours_partial : forall W H grains nb g gs new w k, sound (plot w) ->
  chosen W H grains (fst (neighbour_highlights nb g)) gs ->
  (exists p, inside W H p /\ forall g, In g gs -> ~ In p g) ->
  nth_error (colour_lists w) k = Some (snd (neighbour_highlights nb g)) ->
  (exists s, second_neighbour nb g s) ->
  exists w', add_grain_highlights W H grains (fst (neighbour_highlights nb g)) (Some k) new w = (w', None) /\
    forall id i grain p, nth_error (fst (neighbour_highlights nb g)) i = Some id -> nth_error gs i = Some grain -> In p grain ->
      seen W H (plot w') (drawn_layer new (plot w)) p =
      Some (if (i =? 0)%nat then lit "white" else if (i <=? List.length (nb g))%nat then lit "yellow" else lit "green").
Proof.
  intros W H grains nb g gs new w k SD CH BG C (s & S2).
  assert (LEN : (1 <= List.length (second_neighbours nb g))%nat).
  { apply (proj2 (second_spec nb g) s) in S2. destruct (second_neighbours nb g); [easy|cbn [List.length]; lia]. }
  destruct (C88_colours_partial W H grains (fst (neighbour_highlights nb g)) gs (Some k) new w (snd (neighbour_highlights nb g)) SD CH) as (w' & E & V & _); try easy.
  - cbn [neighbour_highlights fst snd List.length]. rewrite !app_length, repeat_length. cbn [List.length]. lia.
  - exists w'. split; [exact E|]. intros id i grain p ID I P. rewrite (V i grain p I P). unfold asked. clear V E.
    cbn [neighbour_highlights snd List.length]. rewrite app_length, repeat_length. cbn [List.length].
    destruct (Nat.eqb_spec i 0) as [->|N]; [reflexivity|]. destruct (Nat.leb_spec i (List.length (nb g))) as [L|L].
    + replace (Nat.min i _) with (S (i - 1)) by lia. cbn [nth_error]. rewrite nth_error_app1 by (rewrite repeat_length; lia). apply nth_error_repeat. lia.
    + replace (Nat.min i _) with (S (List.length (nb g))) by lia. cbn [nth_error]. rewrite nth_error_app2 by (rewrite repeat_length; lia). now rewrite repeat_length, Nat.sub_diag.
Qed.
Print Assumptions C88_neighbour_colours_partial.

(** Refuted for grains without second neighbours: two grains that are each other's only
    neighbour; the one clicked is shown yellow and the other green. *)
Theorem C88_neighbour_colours_refuted :
  exists nb gs w w', let g := 0 in sound (plot w) /\ chosen 3 1 one_row (fst (neighbour_highlights nb g)) gs /\
    (exists p, inside 3 1 p /\ forall g, In g gs -> ~ In p g) /\
    nth_error (colour_lists w) 0 = Some (snd (neighbour_highlights nb g)) /\
    add_grain_highlights 3 1 one_row (fst (neighbour_highlights nb g)) (Some 0%nat) false w = (w', None) /\
    fst (neighbour_highlights nb g) = [0; 1] /\
    seen 3 1 (plot w') 0 (0, 0) = Some (lit "yellow") /\ seen 3 1 (plot w') 0 (1, 0) = Some (lit "green").
Proof.
  pose (nb := fun g : Z => if g =? 0 then [1] else [0]). pose (w := mkWorld [snd (neighbour_highlights nb 0)] empty_plot).
  assert (S0 : sound (plot w)) by (split; [discriminate|]; split; [easy|reflexivity]).
  assert (G0 : chosen 3 1 one_row [0; 1] one_row).
  { split; [repeat apply Forall2_cons; try reflexivity; apply Forall2_nil|]. split.
    - intros g [<-|[<-|[]]]; (split; [discriminate|]); intros p [<-|[]]; unfold inside; cbn [fst snd]; lia.
    - intros i j a b p A B I J. destruct i as [|[|[|i]]], j as [|[|[|j]]]; cbn in A, B; try discriminate; try reflexivity;
        injection A as <-; injection B as <-; destruct I as [<-|[]]; destruct J as [J|[]]; discriminate. }
  assert (BG : exists p, inside 3 1 p /\ forall g, In g one_row -> ~ In p g).
  { exists (2, 0). split; [unfold inside; cbn [fst snd]; lia|]. intros g [<-|[<-|[]]] [X|[]]; discriminate. }
  destruct (C88_shown 3 1 one_row [0; 1] one_row (Some 0%nat) false w (snd (neighbour_highlights nb 0)) S0 G0) as (w' & E & V & _); try easy.
  exists nb, one_row, w, w'. cbv zeta. split; [exact S0|]. split; [exact G0|]. split; [exact BG|]. split; [reflexivity|]. split; [exact E|]. split; [reflexivity|]. split.
  - exact (V 0%nat [(0, 0)] (0, 0) eq_refl (or_introl eq_refl)).
  - exact (V 1%nat [(1, 0)] (1, 0) eq_refl (or_introl eq_refl)).
Qed.
Print Assumptions C88_neighbour_colours_refuted.
