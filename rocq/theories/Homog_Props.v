(** C93, C94: picking homologous points, and finding the maps of an experiment. *)
From Coq Require Import String Ascii Reals Lra.
From Coq Require Import List ZArith Bool Lia Sorted.
Import ListNotations.
From Verif Require Import Py Boundary_Model Base_Model Base_Proofs Crystal_Model Dic_Proofs Text_Model Text_Proofs Insp_Model Insp_Proofs Io_Model IoText_Proofs
  Homog_Model Homog_Spec Homog_Proofs.
Open Scope Z_scope.

(** ** C93: picking points *)
(** Whatever was done before, selecting a point, moving it with the arrow keys and saving it
    appends one point: the selected place moved by the arrows, in pixels of the frame to the
    nearest whole number.  Nothing is complained about, all points show and the selection is
    gone; the map's own layers stay. *)
Theorem C93_pick_partial : forall base b pts h s0 bt k x y ps, (0 < b)%R ->
  open_picker base b pts true = Ok s0 -> selects bt k -> (forall p, In p ps -> proper p) ->
  let s := session b h s0 in
  let es := Click true bt k x y :: map press_event ps ++ [Save] in
  let s' := session b es s in
  complaints b es s = [] /\
  (exists px py, points s' = points s ++ [(IZR px, IZR py)] /\
     (Rabs (IZR px - IZR (trunc x + total go_x ps) / b) <= 1 / 2)%R /\
     (Rabs (IZR py - IZR (trunc y + total go_y ps) / b) <= 1 / 2)%R) /\
  layer_of 0 (shown s') = Some (shows b (points s')) /\
  layer_of 1 (shown s') = Some [(NaN, NaN)] /\
  firstn (List.length base) (layers (shown s')) = base.
Proof.
  intros base b pts h s0 bt k x y ps B O S P s es s'. rewrite opened in O. injection O as <-.
  destruct (session_state base b true h pts None) as (pts' & o & E & _). unfold s', es, s. rewrite E.
  set (pts1 := pts ++ pts'). rewrite session_cons. cbn [complaints on_event]. rewrite click_in by auto. cbn [fst snd app].
  rewrite session_app, complaints_app. destruct (presses base b true pts1 ps P (Some (trunc x, trunc y))) as [-> ->]. cbn [app].
  rewrite session_cons. cbn [complaints on_event moved option_map fst snd]. rewrite save_some. cbn [fst snd app].
  unfold session. cbn [fold_left]. split; [reflexivity|]. split; [|split; [|split]].
  - exists (rint (IZR (trunc x + total go_x ps) / b)), (rint (IZR (trunc y + total go_y ps) / b)).
    split; [reflexivity|]. split; apply rint_close.
  - apply view_layer0.
  - apply view_layer1.
  - unfold state, view. cbn [shown layers]. rewrite firstn_app, Nat.sub_diag, firstn_all. cbn [firstn]. apply app_nil_r.
Qed.
Print Assumptions C93_pick_partial.
(** A map of binning 2 with one point; moving 10 to the right and one up. *)
Example C93_pick_met : exists s0, open_picker [[]] 2 [(1, 1)%R] true = Ok s0 /\ selects 3 None /\
  (forall p, In p [Press [lit "shift"] ARight; Press [] AUp] -> proper p) /\
  total go_x [Press [lit "shift"] ARight; Press [] AUp] = 10 /\ total go_y [Press [lit "shift"] ARight; Press [] AUp] = -1.
Proof.
  rewrite opened. eexists. split; [reflexivity|]. split; [now left|]. split; [|split; reflexivity].
  intros p [<-|[<-|[]]] m I; cbn [mods] in I; [destruct I as [<-|[]]; cbn; intuition discriminate|destruct I].
Qed.

(** What is shown is what the frame has, after any history. *)
Theorem C93_shown : forall base b pts isl h s0, open_picker base b pts isl = Ok s0 ->
  let s := session b h s0 in
  layer_of 0 (shown s) = Some (shows b (points s)) /\
  (exists sel, layer_of 1 (shown s) = Some [sel] /\ (sel = (NaN, NaN) \/ exists x y, sel = (Fin (IZR x), Fin (IZR y)))) /\
  List.length (layers (shown s)) = S (S (List.length base)) /\
  firstn (List.length base) (layers (shown s)) = base.
Proof.
  intros base b pts isl h s0 O s. rewrite opened in O. injection O as <-.
  destruct (session_state base b isl h pts None) as (pts' & o & E & _). unfold s. rewrite E.
  split; [apply view_layer0|]. split; [|split].
  - exists (whole o). split; [apply view_layer1|]. destruct o as [[x y]|]; [right; exists x, y; reflexivity|now left].
  - unfold state, view. cbn [shown layers]. rewrite app_length. cbn [List.length]. lia.
  - unfold state, view. cbn [shown layers]. rewrite firstn_app, Nat.sub_diag, firstn_all. cbn [firstn]. apply app_nil_r.
Qed.
Print Assumptions C93_shown.

(** Points are only ever added, at the end, and only by saving. *)
Theorem C93_grow : forall base b pts isl h h' s0, open_picker base b pts isl = Ok s0 ->
  exists more, points (session b (h ++ h') s0) = points (session b h s0) ++ more /\ (~ In Save h' -> more = []).
Proof.
  intros base b pts isl h h' s0 O. rewrite opened in O. injection O as <-. rewrite session_app.
  destruct (session_state base b isl h pts None) as (pts' & o & E & _). rewrite E.
  destruct (session_state base b isl h' (pts ++ pts') o) as (p2 & o2 & E2 & N). rewrite E2. exists p2. auto.
Qed.
Print Assumptions C93_grow.

(** Clicks outside the axes or with other buttons, and keys which are not arrows, change
    nothing; neither does saving, or moving, with nothing selected. *)
Theorem C93_idle : forall base b pts isl h s0, open_picker base b pts isl = Ok s0 ->
  let s := session b h s0 in
  (forall i bt k x y, i = false \/ ~ selects bt k -> on_event b (Click i bt k x y) s = (s, None)) /\
  (forall t, (forall a, last (split_on "+" t) [] <> arrow_text a) -> on_event b (Key (Some t)) s = (s, None)) /\
  (layer_of 1 (shown s) = Some [(NaN, NaN)] -> on_event b Save s = (s, None) /\
     forall p, proper p -> on_event b (press_event p) s = (s, None)).
Proof.
  intros base b pts isl h s0 O s. rewrite opened in O. injection O as <-.
  destruct (session_state base b isl h pts None) as (pts' & o & E & _). unfold s. rewrite E. split; [|split].
  - intros i bt k x y H. apply click_out. intros [Hi Hs]. destruct H; congruence || auto.
  - intros t N. apply other_key. unfold is_arrow. cbn [existsb].
    rewrite (proj2 (txt_eqb_neq _ (lit "left")) (N ALeft)), (proj2 (txt_eqb_neq _ (lit "right")) (N ARight)),
      (proj2 (txt_eqb_neq _ (lit "up")) (N AUp)), (proj2 (txt_eqb_neq _ (lit "down")) (N ADown)). reflexivity.
  - intros L. unfold state in L. cbn [shown] in L. rewrite view_layer1 in L. destruct o as [[x y]|]; [discriminate|].
    split; [apply save_none|]. intros p P. apply press_ok, P.
Qed.
Print Assumptions C93_idle.
Example C93_idle_met : (forall a, last (split_on "+" (lit "ctrl+x")) [] <> arrow_text a) /\ ~ selects 1 None /\
  layer_of 1 (shown (state [] 2 true [] None)) = Some [(NaN, NaN)].
Proof.
  split; [intros [] H; discriminate H|]. split; [intros [H|[_ H]]; discriminate|]. apply view_layer1.
Qed.

(** The point under the pointer is taken when the pointer is in the upper half of the
    (unbinned) pixel; *)
Theorem C93_pixel_partial : forall base b pts h s0 bt k x y i j,
  open_picker base b pts true = Ok s0 -> selects bt k -> (0 <= i)%Z -> (0 <= j)%Z ->
  (IZR i <= x)%R -> (IZR j <= y)%R -> drawn_at x i -> drawn_at y j ->
  layer_of 1 (shown (session b (h ++ [Click true bt k x y]) s0)) = Some [(Fin (IZR i), Fin (IZR j))].
Proof.
  intros base b pts h s0 bt k x y i j O S I J X Y [_ X2] [_ Y2]. rewrite opened in O. injection O as <-. rewrite session_app.
  destruct (session_state base b true h pts None) as (pts' & o & E & _). rewrite E, session_cons. cbn [on_event].
  rewrite click_in by auto. cbn [fst]. unfold session. cbn [fold_left]. unfold state. cbn [shown]. rewrite view_layer1.
  assert (T : forall z k, 0 <= k -> (IZR k <= z < IZR k + 1 / 2)%R -> trunc z = k).
  { clear. intros z k K [A B]. apply trunc_pos; [auto|lra]. }
  cbn [whole]. now rewrite (T x i), (T y j) by (auto; lra).
Qed.
Print Assumptions C93_pixel_partial.
Example C93_pixel_met : drawn_at (9 / 4) 2 /\ (IZR 2 <= 9 / 4)%R.
Proof. unfold drawn_at. lra. Qed.
(** in the lower half the neighbour is taken. *)
Theorem C93_pixel_refuted : exists x y i j, drawn_at x i /\ drawn_at y j /\ 0 < i /\ 0 < j /\
  forall base b pts s0, open_picker base b pts true = Ok s0 ->
  layer_of 1 (shown (session b [Click true 3 None x y] s0)) = Some [(Fin (IZR (i - 1)), Fin (IZR (j - 1)))].
Proof.
  exists (7 / 4)%R, (11 / 4)%R, 2, 3. unfold drawn_at. split; [lra|]. split; [lra|]. split; [lia|]. split; [lia|].
  intros base b pts s0 O. rewrite opened in O. injection O as <-. rewrite session_cons. cbn [on_event].
  rewrite click_in by now left. cbn [fst]. unfold session. cbn [fold_left]. unfold state. cbn [shown]. rewrite view_layer1.
  cbn [whole]. assert (A : trunc (7 / 4) = 1) by (apply trunc_pos; [lia|lra]).
  assert (B : trunc (11 / 4) = 2) by (apply trunc_pos; [lia|lra]). now rewrite A, B.
Qed.
Print Assumptions C93_pixel_refuted.

(** Points which were set as an array cannot be added to: the selected point is lost. *)
Theorem C93_array_refuted : forall base b pts h s0 bt k x y,
  open_picker base b pts false = Ok s0 -> selects bt k ->
  let s := session b h s0 in
  let es := [Click true bt k x y; Save] in
  complaints b es s = [AttributeError] /\ points (session b es s) = pts /\
  layer_of 1 (shown (session b es s)) = Some [(NaN, NaN)].
Proof.
  intros base b pts h s0 bt k x y O S s es. rewrite opened in O. injection O as <-.
  assert (H : exists o, s = state base b false pts o).
  { unfold s. clear. generalize (@None (Z * Z)). induction h as [|e h IH]; intros o; [exists o; reflexivity|]. rewrite session_cons.
    destruct e as [i bt k x y|k|]; cbn [on_event].
    - destruct (selects_dec bt k) as [S|N]; [destruct i|].
      + rewrite click_in by auto. apply IH.
      + rewrite click_out by (intros [? _]; discriminate). apply IH.
      + rewrite click_out by tauto. apply IH.
    - destruct (any_key base b false pts o k) as (o' & e & -> & _). apply IH.
    - destruct o as [z|]; [rewrite save_array|rewrite save_none]; apply IH. }
  destruct H as (o & ->). unfold es. rewrite !session_cons. cbn [complaints on_event]. rewrite click_in by auto. cbn [fst snd app].
  rewrite save_array. cbn [fst snd]. split; [reflexivity|]. split; [reflexivity|]. apply view_layer1.
Qed.
Print Assumptions C93_array_refuted.
(** Keys matplotlib has no name for are complained about. *)
Theorem C93_unknown_key : forall b s, on_event b (Key None) s = (s, Some AttributeError).
Proof. reflexivity. Qed.
Print Assumptions C93_unknown_key.

(** ** C94: finding maps *)
(** In whatever a program makes, every increment is listed once, by its own experiment and by
    no other. *)
Theorem C94_owner : forall r, made r ->
  (forall i inc, nth_error (incs r) i = Some inc -> exists l, nth_error (exps r) (i_exp inc) = Some l /\ In i l) /\
  (forall e l, nth_error (exps r) e = Some l -> NoDup l /\
     forall i, In i l -> exists inc, nth_error (incs r) i = Some inc /\ i_exp inc = e).
Proof.
  intros r M. destruct (made_sound r M) as (A & B & C). split.
  - intros i inc I. pose proof (B i inc I) as L. apply nth_error_Some in L. destruct (nth_error (exps r) (i_exp inc)) as [l|] eqn:E; [|congruence].
    exists l. split; auto. apply (C _ _ E). eauto.
  - intros e l E. destruct (C e l E) as [ND S]. split; auto. intros i I. now apply S.
Qed.
Print Assumptions C94_owner.

(** A map made for an increment is found there under its name and takes the place of a map of
    that name; everything else stays.  The name is that of its class by default. *)
Theorem C94_new_in_increment : forall r e i inc name mn loads, made r -> nth_error (incs r) i = Some inc ->
  e = None \/ e = Some (i_exp inc) ->
  let name' := match name with Some n => n | None => mn end in
  exists m, fst (new_map e (Some i) name mn loads r) = match loads with Ok _ => Ok (m, i) | Err x => Err x end /\
  (forall j n, ~ has_map r j n m) /\
  let r' := snd (new_map e (Some i) name mn loads r) in
  exps r' = exps r /\
  forall j n m', has_map r' j n m' <-> (j = i /\ n = name' /\ m' = m) \/ (~ (j = i /\ n = name') /\ has_map r j n m').
Proof.
  intros r e i inc name mn loads M I E name'. exists (n_maps r).
  assert (X : new_map e (Some i) name mn loads r =
    (match loads with Ok _ => Ok (n_maps r, i) | Err x => Err x end, add_map i name' (n_maps r) (Registry (exps r) (incs r) (S (n_maps r))))).
  { unfold new_map. rewrite I. destruct E as [->| ->]; [reflexivity|]. now rewrite Nat.eqb_refl. }
  rewrite X. cbn [fst snd]. split; [reflexivity|]. split; [intros j n H; apply (made_counted r M) in H; lia|].
  split; [reflexivity|]. intros j n m'. rewrite has_added. cbn [incs].
  assert (HM : forall u v, has_map (Registry (exps r) (incs r) (S (n_maps r))) j u v <-> has_map r j u v) by (intros; reflexivity).
  destruct (Nat.eqb_spec j i) as [->|N].
  - unfold txt_eqb. destruct (list_eq_dec ascii_dec name' n) as [<-|N].
    + split; [intros (_ & ->); auto|]. intros [(_ & _ & ->)|(F & _)]; [split; eauto|tauto].
    + rewrite HM. split; [intros (_ & H); right; split; auto; intros [_ H']; congruence|].
      intros [(_ & H & _)|(_ & H)]; [congruence|]. split; eauto.
  - rewrite HM. split; [intros (_ & H); right; split; auto; tauto|]. intros [(H & _)|(_ & H)]; [congruence|].
    split; auto. destruct H as (c & H & _). eauto.
Qed.
Print Assumptions C94_new_in_increment.
(** Without one, a new increment at the end of its experiment, or of the anonymous one, gets
    it. *)
Theorem C94_new_alone : forall r e name mn loads, made r -> (forall e', e = Some e' -> (e' < List.length (exps r))%nat) ->
  let name' := match name with Some n => n | None => mn end in
  let e0 := match e with Some e' => e' | None => 0%nat end in
  exists m i, fst (new_map e None name mn loads r) = match loads with Ok _ => Ok (m, i) | Err x => Err x end /\
  (forall j n, ~ has_map r j n m) /\ nth_error (incs r) i = None /\
  let r' := snd (new_map e None name mn loads r) in
  (forall f, nth_error (exps r') f = option_map (fun l => if (f =? e0)%nat then l ++ [i] else l) (nth_error (exps r) f)) /\
  (exists inc, nth_error (incs r') i = Some inc /\ i_exp inc = e0) /\
  (forall k, exp_get e0 (-1) r' = Ok k <-> k = i) /\
  forall j n m', has_map r' j n m' <-> (j = i /\ n = name' /\ m' = m) \/ has_map r j n m'.
Proof.
  intros r e name mn loads M L name' e0. exists (n_maps r), (List.length (incs r)).
  assert (L0 : (e0 < List.length (exps r))%nat) by (unfold e0; destruct e; [auto|apply (made_sound r M)]).
  unfold new_map. fold e0. fold name'. cbn [add_increment fst snd exps incs n_maps]. split; [reflexivity|].
  split; [intros j n H; apply (made_counted r M) in H; lia|]. split; [now apply nth_error_None|].
  assert (X : forall f, nth_error (change_nth e0 (fun l => l ++ [List.length (incs r)]) (exps r)) f =
    option_map (fun l => if (f =? e0)%nat then l ++ [List.length (incs r)] else l) (nth_error (exps r) f)).
  { intros f. rewrite change_nth_nth. destruct (f =? e0)%nat; [reflexivity|]. now destruct (nth_error (exps r) f). }
  split; [exact X|]. split; [|split].
  - eexists. split; [apply add_map_get; eexists; split; [apply nth_snoc; right; split; reflexivity|reflexivity]|].
    destruct (_ =? _)%nat; reflexivity.
  - intros k. unfold exp_get. cbn [exps add_map]. rewrite X, Nat.eqb_refl. apply nth_error_Some in L0.
    destruct (nth_error (exps r) e0) as [l|]; [|congruence]. cbn [option_map].
    assert (Y : py_nth (l ++ [List.length (incs r)]) (-1) = Ok (List.length (incs r))).
    { unfold py_nth, np_index. rewrite app_length. cbn [List.length].
      set (n := Z.of_nat _).
      replace (0 <=? -1) with false by reflexivity. cbn [andb].
      replace ((- n <=? -1) && (-1 <? 0)) with true by (symmetry; apply andb_true_iff; split; [apply Z.leb_le; unfold n; lia|reflexivity]).
      replace (Z.to_nat (-1 + n)) with (List.length l) by (unfold n; lia). rewrite nth_error_app2, Nat.sub_diag by auto. reflexivity. }
    rewrite Y. split; [congruence|intros ->; auto].
  - intros j n m'. rewrite has_added. cbn [incs].
    assert (HM : has_map (Registry (change_nth e0 (fun l => l ++ [List.length (incs r)]) (exps r)) (incs r ++ [Increment e0 []]) (S (n_maps r))) j n m' <-> has_map r j n m')
      by (apply (has_new_inc r e0)).
    assert (F : ~ has_map r (List.length (incs r)) n m').
    { intros (c & H & _). assert (H' : nth_error (incs r) (List.length (incs r)) <> None) by congruence. apply nth_error_Some in H'. lia. }
    destruct (Nat.eqb_spec j (List.length (incs r))) as [->|N].
    + assert (W : exists inc, nth_error (incs r ++ [Increment e0 []]) (List.length (incs r)) = Some inc)
        by (eexists; apply nth_snoc; right; split; reflexivity).
      unfold txt_eqb. destruct (list_eq_dec ascii_dec name' n) as [<-|Nn].
      * split; [intros (_ & ->); auto|]. intros [(_ & _ & ->)|H]; [split; auto|tauto].
      * rewrite HM. split; [intros (_ & H); auto|]. intros [(_ & H & _)|H]; [congruence|]. split; auto.
    + rewrite HM. split; [intros (_ & H); auto|]. intros [(H & _)|H]; [congruence|]. split; auto.
      destruct H as (c & H & _). exists c. apply nth_snoc. auto.
Qed.
Print Assumptions C94_new_alone.

(** An increment of another experiment is refused and nothing is registered. *)
Theorem C94_assert : forall r e i inc name mn loads, nth_error (incs r) i = Some inc -> e <> i_exp inc ->
  new_map (Some e) (Some i) name mn loads r = (Err AssertionError, r).
Proof.
  intros r e i inc name mn loads I N. unfold new_map. rewrite I. destruct (Nat.eqb_spec e (i_exp inc)); [congruence|reflexivity].
Qed.
Print Assumptions C94_assert.

(** Going over the maps of a name gives exactly those, with their places, in order. *)
Theorem C94_iter : forall r e l name, nth_error (exps r) e = Some l ->
  (forall k m, In (k, m) (iter_over_maps e name r) <-> exists i, nth_error l k = Some i /\ has_map r i name m) /\
  StronglySorted lt (map fst (iter_over_maps e name r)).
Proof.
  intros r e l name E. unfold iter_over_maps. rewrite E. rewrite (drain_all e name r l E) by lia. cbn [skipn].
  split; [|apply all_from_sorted]. intros k m. rewrite all_from_in, Nat.sub_0_r. unfold has_map. split.
  - intros (_ & i & inc & A & B & C). eauto.
  - intros (i & A & inc & B & C). split; [lia|]. eauto.
Qed.
Print Assumptions C94_iter.
(** Each step looks at the maps there are by then: the first at or after the place reached; an
    iteration which has ended stays ended. *)
Theorem C94_next : forall r e l name k, nth_error (exps r) e = Some l ->
  match gen_next e name (Some k) r with
  | (Ok (j, m), g) => (k <= j)%nat /\ (exists i, nth_error l j = Some i /\ has_map r i name m) /\
      (forall n i m', (k <= n < j)%nat -> nth_error l n = Some i -> ~ has_map r i name m') /\ g = Some (S j)
  | (Err x, g) => x = StopIteration /\ g = None /\ forall n i m', (k <= n)%nat -> nth_error l n = Some i -> ~ has_map r i name m'
  end.
Proof. intros r e l name k E. exact (gen_next_spec e name k r l E). Qed.
Print Assumptions C94_next.
Theorem C94_ended : forall r e name, gen_next e name None r = (Err StopIteration, None).
Proof. reflexivity. Qed.
Print Assumptions C94_ended.

(** A program: two maps of an experiment, the second in the same increment, one elsewhere. *)
Definition r1 : registry := snd (new_experiment registry0).
Definition r2 : registry := snd (new_map (Some 1%nat) None None (lit "ebsd") (Ok tt) r1).
Definition r3 : registry := snd (new_map None (Some 0%nat) None (lit "hrdic") (Ok tt) r2).
Definition r4 : registry := snd (new_map None None None (lit "ebsd") (Ok tt) r3).
Definition r5 : registry := snd (new_map (Some 1%nat) None None (lit "hrdic") (Ok tt) r4).
Example C94_met : made r5 /\ iter_over_maps 1 (lit "hrdic") r5 = [(0, 1); (1, 3)]%nat /\
  iter_over_maps 1 (lit "ebsd") r5 = [(0, 0)]%nat /\ iter_over_maps 0 (lit "ebsd") r5 = [(0, 2)]%nat /\
  fst (new_map (Some 0%nat) (Some 0%nat) None (lit "ebsd") (Ok tt) r5) = Err AssertionError.
Proof.
  split; [|repeat split; reflexivity].
  unfold r5. apply made_map; [|intros e' E; injection E as <-; cbn; lia].
  unfold r4. apply made_map; [|intros; discriminate]. unfold r3. apply made_map; [|intros; discriminate].
  unfold r2. apply made_map; [|intros e' E; injection E as <-; cbn; lia]. unfold r1. apply made_exp, made_start.
Qed.

(** A map whose loading failed is found all the same, and has taken the place of the good one
    there was. *)
Theorem C94_failed_refuted : forall x, exists r i m, made r /\ has_map r i (lit "ebsd") m /\
  fst (new_map None (Some i) None (lit "ebsd") (Err x) r) = Err x /\
  let r' := snd (new_map None (Some i) None (lit "ebsd") (Err x) r) in
  ~ has_map r' i (lit "ebsd") m /\ (exists m', has_map r' i (lit "ebsd") m') /\ iter_over_maps 1 (lit "ebsd") r' = [(0%nat, 2%nat)].
Proof.
  intros x. exists r3, 0%nat, 0%nat. split.
  - unfold r3. apply made_map; [|intros; discriminate].
    unfold r2. apply made_map; [|intros e' E; injection E as <-; cbn; lia]. unfold r1. apply made_exp, made_start.
  - split; [eexists; split; reflexivity|]. split; [reflexivity|]. split; [|split; [eexists; eexists; split; reflexivity|reflexivity]].
    intros (inc & A & B). cbn in A. injection A as <-. discriminate.
Qed.
Print Assumptions C94_failed_refuted.
