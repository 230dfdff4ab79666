(** Theorems about the inspector's window. *)
From Coq Require Import String Ascii Reals Lra.
From Coq Require Import List ZArith Bool Lia.
Import ListNotations.
From Verif Require Import Py Boundary_Model Text_Model Insp_Model Insp_Spec Insp_Proofs InspHist_Proofs Insp_Props InspView_Model InspView_Spec.
Open Scope Z_scope.

Lemma by_id_place : forall s j, by_id s = Some j <-> place (List.length (i_grains s)) (i_id s) j.
Proof.
  intros s j. unfold by_id. split.
  - destruct (np_index _ _) as [i|] eqn:E; [|discriminate]. intros [= <-]. now apply place_iff in E.
  - intros P. assert (E : np_index (Z.of_nat (List.length (i_grains s))) (i_id s) = Some (Z.of_nat j)) by (apply place_iff; rewrite Nat2Z.id; split; [exact P|lia]).
    rewrite E. cbn. now rewrite Nat2Z.id.
Qed.
Lemma by_id_shown : forall s, shown s = match by_id s with Some _ => None | None => Some IndexError end.
Proof. intros s. unfold shown, by_id. now destruct (np_index _ _). Qed.

Definition well (s : insp) (v : view) (j : nat) : Prop :=
  i_sel s = j /\ about v s j /\ exists g, nth_error (i_grains s) j = Some g /\
  v_lines v = pts g /\ map group_view (v_groups v) = map group_view (grps g) /\
  (forall x, In x (v_arrows v) <-> In x (numbered_lines g)) /\
  ((v_free v = [] /\ v_ref v = false) \/ exists p q, v_free v = [(p, q)] /\ v_ref v = true /\ i_p2 s = Some q /\ i_p1 s <> None).
Definition Inv (n : nat) (sv : insp * view) : Prop :=
  List.length (i_grains (fst sv)) = n /\ (by_id (fst sv) <> None -> (1 <= v_handlers (snd sv))%nat) /\
  forall j, by_id (fst sv) = Some j -> well (fst sv) (snd sv) j.

(** Drawing everything anew makes everything right. *)
Lemma anew : forall s v j, by_id s = Some j -> i_sel s = j ->
  exists g, nth_error (i_grains s) j = Some g /\ redraw_all s v = View (numbered_lines g) [] false (S (v_handlers v)) (i_id s) (Some j) j (pts g) (grps g) (Some j) /\
  fst (redraw s) = mkInsp (i_id s) j None None (i_grains s) /\ snd (redraw s) = Some TypeError.
Proof.
  intros s v j B S. pose proof (proj1 (by_id_place s j) B) as (L & _).
  destruct (nth_error (i_grains s) j) as [g|] eqn:G; [|apply nth_error_None in G; lia].
  assert (SG : sel_grain s = g) by (unfold sel_grain; rewrite S; now apply nth_error_nth).
  exists g. split; [reflexivity|]. unfold redraw_all, redraw. rewrite by_id_shown, B. unfold redraw_line. rewrite SG, S, B. cbn [app v_arrows v_free v_ref v_handlers v_id v_picture v_cell fst snd]. auto.
Qed.
Lemma anew_inv : forall s v n, List.length (i_grains s) = n -> (forall j, by_id s = Some j -> i_sel s = j) -> Inv n (fst (redraw s), redraw_all s v).
Proof.
  intros s v n L S. unfold Inv. cbn [fst snd].
  assert (B' : by_id (fst (redraw s)) = by_id s) by (unfold redraw; destruct (shown s); reflexivity).
  split; [now rewrite redraw_grains|]. rewrite B'. destruct (by_id s) as [j|] eqn:B.
  - destruct (anew s v j B (S j eq_refl)) as (g & G & E1 & E2 & E3). rewrite E1, E2. split; [cbn; lia|]. intros k [= <-].
    split; [reflexivity|]. split; [now repeat split|]. exists g. repeat split; auto.
  - split; [congruence|discriminate].
Qed.

Lemma iter_arrow : forall n p q v, (1 <= n)%nat -> Nat.iter n (new_arrow p q) v = new_arrow p q v.
Proof.
  intros n p q v L. destruct n as [|n]; [lia|]. clear L. induction n as [|n IH]; [reflexivity|].
  change (Nat.iter (S (S n)) (new_arrow p q) v) with (new_arrow p q (Nat.iter (S n) (new_arrow p q) v)). rewrite IH.
  unfold new_arrow. cbn [v_arrows v_free v_ref v_handlers v_id v_picture v_cell v_lines v_groups v_traces]. now rewrite removelast_last.
Qed.
Lemma numbered_pts : forall g h, map l_pts (pts g) = map l_pts (pts h) -> numbered_lines g = numbered_lines h.
Proof. intros g h E. unfold numbered_lines. assert (L := f_equal (@List.length _) E). rewrite !map_length in L. now rewrite L, E. Qed.
Lemma pts_content : forall a b, map content a = map content b -> map l_pts a = map l_pts b.
Proof.
  intros a b H. assert (E : forall l, map l_pts l = map fst (map content l)) by (intros; rewrite map_map; reflexivity). now rewrite !E, H.
Qed.
Lemma combine_app1 : forall A B (l : list A) (m : list B) a b, List.length l = List.length m -> combine (l ++ [a]) (m ++ [b]) = combine l m ++ [(a, b)].
Proof. induction l as [|x l IH]; intros [|y m] a b E; try discriminate; [reflexivity|]. cbn. now rewrite IH by now injection E. Qed.
Lemma numbered_add : forall ts g l gs x, In x (numbered_lines g) -> In x (numbered_lines (group_lines ts (mkGrain (pts g ++ [l]) gs))).
Proof.
  intros ts g l gs x I. destruct (group_lines_wf ts (mkGrain (pts g ++ [l]) gs)) as (C & _). apply pts_content in C.
  rewrite (numbered_pts _ _ C). unfold numbered_lines. cbn [pts]. rewrite app_length, map_app, Nat.add_comm, seq_S. cbn [List.length map Nat.add].
  rewrite combine_app1 by (now rewrite seq_length, map_length). apply in_or_app. now left.
Qed.

Lemma goto_inv : forall n k s v, Inv n (s, v) -> Inv n (fst (goto_grain k s), goto_view k s (fst (goto_grain k s)) v).
Proof.
  intros n k s v (L & Hh & W). cbn [fst snd] in *. unfold goto_grain, goto_view. destruct (np_index _ k) as [i|] eqn:E.
  - set (s1 := mkInsp k (Z.to_nat i) (i_p1 s) (i_p2 s) (i_grains s)).
    assert (B1 : by_id s1 = Some (Z.to_nat i)) by (unfold by_id; cbn [s1 i_grains i_id]; now rewrite E).
    destruct (anew s1 (forget_arrow v) (Z.to_nat i) B1 eq_refl) as (g & G & E1 & E2 & E3).
    assert (R : redraw_all (fst (redraw s1)) (forget_arrow v) = redraw_all s1 (forget_arrow v)) by (rewrite E2; reflexivity).
    rewrite R. apply anew_inv; [exact L|]. intros j J. cbn. congruence.
  - assert (B : by_id (mkInsp k (i_sel s) (i_p1 s) (i_p2 s) (i_grains s)) = None) by (unfold by_id; cbn [i_grains i_id]; now rewrite E).
    split; [exact L|]. cbn [fst snd]. rewrite B. split; [congruence|discriminate].
Qed.
Lemma step_inv : forall e n a s v, Inv n (s, v) -> Inv n (fst (vstep e (Do a) (s, v))).
Proof.
  intros e n a s v I. unfold vstep. destruct (step e a s) as [s' x] eqn:ST. cbn [fst]. assert (S' : s' = fst (step e a s)) by now rewrite ST. clear ST x.
  assert (I0 := I). destruct I as (L & Hh & W). cbn [fst snd] in *.
  destruct a as [p|p| |t| | | |t|t]; cbn [step look] in *.
  - subst s'. cbn [fst]. split; [exact L|]. split; [exact Hh|]. intros j B. cbn [fst snd] in *. destruct (W j B) as (A1 & A2 & g & A3 & A4 & A5 & A6 & A7). split; [exact A1|]. split; [exact A2|]. exists g. do 4 (split; [assumption|]). destruct A7 as [A7|(q1 & q2 & F1 & F2 & F3 & F4)]; [now left|]. right. exists q1, q2. cbn [i_p1 i_p2]. repeat split; auto; discriminate.
  - subst s'. cbn [fst]. split; [exact L|]. cbn [fst snd].
    change (by_id (mkInsp (i_id s) (i_sel s) (i_p1 s) (Some p) (i_grains s))) with (by_id s).
    destruct (by_id s) as [j|] eqn:B.
    + specialize (Hh ltac:(discriminate)). destruct (W j eq_refl) as (A1 & A2 & g & A3 & A4 & A5 & A6 & A7).
      destruct (i_p1 s) as [p1|] eqn:P1.
      * rewrite iter_arrow by exact Hh. split; [intros _; exact Hh|]. intros k [= <-]. split; [exact A1|]. split; [exact A2|]. exists g. split; [exact A3|]. split; [exact A4|]. split; [exact A5|]. split; [exact A6|].
        right. exists p1, p. cbn [new_arrow v_free v_ref i_p2]. split; [|cbn [i_p1]; rewrite ?P1; repeat split; discriminate]. destruct A7 as [(-> & ->)|(q1 & q2 & -> & -> & _)]; reflexivity.
      * split; [intros _; exact Hh|]. intros k [= <-]. split; [exact A1|]. split; [exact A2|]. exists g. split; [exact A3|]. split; [exact A4|]. split; [exact A5|]. split; [exact A6|].
        destruct A7 as [A7|(q1 & q2 & F1 & F2 & F3 & F4)]; [now left|]. congruence.
    + split; [congruence|discriminate].
  - destruct (i_p1 s) as [p1|] eqn:P1, (i_p2 s) as [p2|] eqn:P2; subst s'; cbn [fst snd]; try exact I0.
    set (f := fun g => group_lines (e_traces e (i_sel s)) (mkGrain (pts g ++ [saved_line (e_corr e) p1 p2]) (grps g))).
    assert (B1 : by_id (at_grain s f) = by_id s) by (unfold by_id, at_grain; cbn [i_grains i_id]; now rewrite change_nth_length).
    split; [cbn [fst at_grain i_grains]; now rewrite change_nth_length|]. cbn [fst snd]. rewrite B1. split; [exact Hh|]. intros j B. destruct (W j B) as (A1 & (D1 & D2 & D3 & D4) & g & A3 & A4 & A5 & A6 & A7).
    assert (N : nth_error (i_grains (at_grain s f)) j = Some (f g)) by (unfold at_grain; cbn [i_grains]; rewrite change_nth_nth, A3, A1, Nat.eqb_refl; reflexivity).
    assert (SG : sel_grain (at_grain s f) = f g) by (unfold sel_grain; apply nth_error_nth; cbn [at_grain i_sel]; rewrite A1; exact N).
    split; [exact A1|]. split; [unfold about, redraw_line; cbn [v_id v_picture v_cell v_traces at_grain i_id]; rewrite B1; auto|].
    exists (f g). split; [exact N|]. unfold redraw_line. rewrite SG. cbn [v_lines v_groups v_arrows v_free v_ref]. split; [reflexivity|]. split; [reflexivity|]. split.
    + intros x. rewrite in_app_iff. split; [intros [X|X]; [|exact X]|auto]. apply A6 in X. unfold f. now apply numbered_add.
    + destruct A7 as [A7|(q1 & q2 & F1 & F2 & F3 & F4)]; [now left|]. right. exists q1, q2. cbn [at_grain i_p1 i_p2]. repeat split; auto; congruence.
  - destruct (py_int t) as [k|er]; [|subst s'; exact I0]. destruct (del (pts (sel_grain s)) k) as [ls|er]; [|subst s'; exact I0].
    set (s1 := at_grain s (fun g => group_lines (e_traces e (i_sel s)) (mkGrain ls (grps g)))) in *. subst s'.
    assert (B1 : by_id s1 = by_id s) by (unfold by_id, s1, at_grain; cbn [i_grains i_id]; now rewrite change_nth_length).
    assert (R : redraw_all (fst (redraw s1)) v = redraw_all s1 v) by (unfold redraw; rewrite by_id_shown; destruct (by_id s1) eqn:Q; reflexivity).
    rewrite R. apply anew_inv; [unfold s1, at_grain; cbn [i_grains]; now rewrite change_nth_length|]. intros j J. rewrite B1 in J. now destruct (W j J).
  - set (s1 := at_grain s (fun _ => mkGrain [] [])) in *. subst s'.
    assert (B1 : by_id s1 = by_id s) by (unfold by_id, s1, at_grain; cbn [i_grains i_id]; now rewrite change_nth_length).
    assert (R : redraw_all (fst (redraw s1)) v = redraw_all s1 v) by (unfold redraw; rewrite by_id_shown; destruct (by_id s1) eqn:Q; reflexivity).
    rewrite R. apply anew_inv; [unfold s1, at_grain; cbn [i_grains]; now rewrite change_nth_length|]. intros j J. rewrite B1 in J. now destruct (W j J).
  - subst s'. now apply goto_inv.
  - subst s'. now apply goto_inv.
  - destruct (py_int t) as [k|er]; subst s'; [now apply goto_inv|exact I0].
  - destruct t as [|c t]; [subst s'; exact I0|]. destruct (py_int (c :: t)) as [k|er]; [|subst s'; exact I0].
    destruct (calc_rdr (e_rdr e (i_sel s)) (sel_grain s) k) as [g'|er] eqn:C; [|subst s'; exact I0]. subst s'. cbn [fst snd].
    assert (B1 : by_id (at_grain s (fun _ => g')) = by_id s) by (unfold by_id, at_grain; cbn [i_grains i_id]; now rewrite change_nth_length).
    split; [cbn [fst at_grain i_grains]; now rewrite change_nth_length|]. cbn [fst snd]. rewrite B1. split; [exact Hh|]. intros j B. destruct (W j B) as (A1 & A2 & g & A3 & A4 & A5 & A6 & A7).
    assert (SG : sel_grain s = g) by (unfold sel_grain; rewrite A1; now apply nth_error_nth). rewrite SG in C.
    destruct (calc_rdr_inv _ _ _ _ C) as (C1 & C2).
    split; [exact A1|]. split; [exact A2|]. exists g'. split; [unfold at_grain; cbn [i_grains]; now rewrite change_nth_nth, A3, A1, Nat.eqb_refl|].
    split; [now rewrite C1|]. split; [now rewrite C2|]. split; [|exact A7]. intros x. rewrite A6. now rewrite (numbered_pts g g') by (now rewrite C1).
Qed.

Lemma event_inv : forall e n ev sv, Inv n sv -> (match ev with Load gs => List.length gs = n | _ => True end) -> Inv n (fst (vstep e ev sv)).
Proof.
  intros e n ev [s v] I F. destruct ev as [a|gs]; [now apply step_inv|]. destruct I as (L & Hh & W). cbn [fst snd] in *. unfold vstep.
  set (s1 := mkInsp (i_id s) (i_sel s) (i_p1 s) (i_p2 s) gs). destruct (redraw s1) as [s' x] eqn:R. cbn [fst]. replace s' with (fst (redraw s1)) by now rewrite R.
  apply anew_inv; [exact F|]. intros j J. assert (B : by_id s = Some j) by (unfold by_id in *; cbn [s1 i_grains i_id] in J; now rewrite L, <- F). now destruct (W j B).
Qed.
Lemma run_inv : forall e n evs sv, Inv n sv -> fits n evs -> Inv n (vrun e evs sv).
Proof.
  intros e n. induction evs as [|ev evs IH]; intros sv I F; [exact I|]. change (vrun e (ev :: evs) sv) with (vrun e evs (fst (vstep e ev sv))).
  apply IH; [apply event_inv; [exact I|]|]; destruct ev; cbn [fits] in F; tauto.
Qed.
Lemma opened_inv : forall n, (0 < n)%nat -> Inv n (fst (vopened n)).
Proof.
  intros n N. unfold vopened. cbn [fst]. apply anew_inv; [apply repeat_length|]. intros j J. apply by_id_place in J. cbn in *. rewrite repeat_length in J. destruct J as (J0 & [J|J]); lia.
Qed.

(** After any events, as long as the id asked for last is on the map: the window is about the
    grain that is edited, lists exactly its lines and groups (but for the ratios), and the
    picture has an arrow for each line and no other, but for one drawn with the mouse. *)
Theorem C111_window_partial : forall e n evs j s v, (0 < n)%nat -> fits n evs -> vrun e evs (fst (vopened n)) = (s, v) -> place n (i_id s) j ->
  exists g, on_grain s j g /\ about v s j /\ v_lines v = pts g /\ map group_view (v_groups v) = map group_view (grps g) /\
    (forall x, In x (v_arrows v) <-> In x (numbered_lines g)) /\ (List.length (v_free v) <= 1)%nat.
Proof.
  intros e n evs j s v N F E P. pose proof (run_inv e n evs _ (opened_inv n N) F) as (L & Hh & W). rewrite E in *. cbn [fst snd] in *.
  assert (B : by_id s = Some j) by (apply by_id_place; now rewrite L). destruct (W j B) as (A1 & A2 & g & A3 & A4 & A5 & A6 & A7).
  exists g. split; [split; [exact A1|split; [now rewrite L|exact A3]]|]. do 4 (split; [assumption|]). destruct A7 as [(-> & _)|(p & q & -> & _)]; cbn; lia.
Qed.
(** An arrow drawn with the mouse is the last one drawn, however often the handlers are connected. *)
Theorem C111_drawn : forall e n evs p q s v, (0 < n)%nat -> fits n evs -> vrun e (evs ++ [Do (APress p); Do (ARelease q)]) (fst (vopened n)) = (s, v) ->
  (exists j, place n (i_id s) j) -> v_free v = [(p, q)] /\ i_p1 s = Some p /\ i_p2 s = Some q.
Proof.
  intros e n evs p q s v N F E (j & P). unfold vrun in E. rewrite fold_left_app in E. fold (vrun e evs (fst (vopened n))) in E.
  pose proof (run_inv e n evs _ (opened_inv n N) F) as I. destruct (vrun e evs (fst (vopened n))) as [s0 v0]. destruct I as (L & Hh & W). cbn [fst snd] in *.
  cbn [fold_left vstep step look fst i_p1] in E. injection E as <- <-. cbn [i_id i_p1 i_p2] in *.
  assert (B : by_id s0 = Some j) by (apply by_id_place; now rewrite L). rewrite iter_arrow by (apply Hh; congruence).
  destruct (W j B) as (A1 & A2 & g & A3 & A4 & A5 & A6 & A7). split; [|auto]. unfold new_arrow. cbn [v_free]. destruct A7 as [(-> & ->)|(q1 & q2 & -> & -> & _)]; reflexivity.
Qed.
Lemma py_int_err : forall t x, py_int t = Err x -> x = ValueError.
Proof. intros t x. unfold py_int. repeat match goal with |- context[match ?y with _ => _ end] => destruct y end; congruence. Qed.
Lemma vanew : forall e n ev s v, Inv n (s, v) -> (match ev with Load gs => List.length gs = n | _ => True end) -> draws_anew ev = true -> snd (vstep e ev (s, v)) = Some TypeError ->
  exists s1 v1, fst (vstep e ev (s, v)) = (fst (redraw s1), redraw_all s1 v1) /\ forall j, by_id s1 = Some j -> i_sel s1 = j.
Proof.
  intros e n ev s v I F D X. destruct I as (L & Hh & W). cbn [fst snd] in *.
  assert (R : forall s1 u, redraw_all (fst (redraw s1)) u = redraw_all s1 u) by (intros s1 u; unfold redraw; rewrite by_id_shown; destruct (by_id s1) eqn:Q; reflexivity).
  assert (GO : forall k, snd (goto_grain k s) = Some TypeError -> exists s1 v1, (fst (goto_grain k s), goto_view k s (fst (goto_grain k s)) v) = (fst (redraw s1), redraw_all s1 v1) /\ forall j, by_id s1 = Some j -> i_sel s1 = j).
  { intros k K. unfold goto_grain, goto_view in *. destruct (np_index _ k) as [i|] eqn:E; [|discriminate].
    eexists _, _. split; [now rewrite R|]. intros j J. unfold by_id in J. cbn [i_grains i_id i_sel] in *. rewrite E in J. now injection J. }
  destruct ev as [a|gs].
  - unfold vstep in *. destruct (step e a s) as [s' x] eqn:ST. cbn [fst snd] in *. subst x. destruct a as [p|p| |t| | | |t|t]; try discriminate D; cbn [step look] in *.
    + destruct (py_int t) as [k|er] eqn:K; [|injection ST as <- ->; apply py_int_err in K; discriminate]. destruct (del (pts (sel_grain s)) k) as [ls|er] eqn:DL.
      * set (s1 := at_grain s _) in ST. exists s1, v. split; [rewrite <- (R s1), ST; reflexivity|]. intros j J. destruct (W j) as (A & _); [|exact A].
        unfold by_id, s1, at_grain in J. cbn [i_grains i_id] in J. now rewrite change_nth_length in J.
      * injection ST as <- ->. unfold del in DL. destruct (np_index _ k); discriminate DL.
    + set (s1 := at_grain s _) in ST. exists s1, v. split; [rewrite <- (R s1), ST; reflexivity|]. intros j J. destruct (W j) as (A & _); [|exact A].
      unfold by_id, s1, at_grain in J. cbn [i_grains i_id] in J. now rewrite change_nth_length in J.
    + replace s' with (fst (goto_grain (i_id s - 1) s)) by now rewrite ST. apply GO. now rewrite ST.
    + replace s' with (fst (goto_grain (i_id s + 1) s)) by now rewrite ST. apply GO. now rewrite ST.
    + destruct (py_int t) as [k|er] eqn:K; [|injection ST as <- ->; apply py_int_err in K; discriminate].
      replace s' with (fst (goto_grain k s)) by now rewrite ST. apply GO. now rewrite ST.
  - unfold vstep. set (s1 := mkInsp (i_id s) (i_sel s) (i_p1 s) (i_p2 s) gs). exists s1, v. destruct (redraw s1) eqn:Q. split; [reflexivity|].
    intros j J. destruct (W j) as (A & _); [|exact A]. unfold by_id in *. cbn [s1 i_grains i_id] in J. now rewrite L, <- F.
Qed.
(** When the picture is drawn anew, each line has exactly one arrow, and the ratios are listed.
    (Drawing anew ends in a [TypeError].) *)
Theorem C111_anew_partial : forall e n evs ev j s v, (0 < n)%nat -> fits n (evs ++ [ev]) -> draws_anew ev = true ->
  vrun e (evs ++ [ev]) (fst (vopened n)) = (s, v) -> place n (i_id s) j -> snd (vstep e ev (vrun e evs (fst (vopened n)))) = Some TypeError ->
  exists g, on_grain s j g /\ v_lines v = pts g /\ v_groups v = grps g /\ v_arrows v = numbered_lines g /\ v_free v = [].
Proof.
  intros e n evs ev j s v N F D E P X.
  assert (F2 : fits n evs /\ match ev with Load gs => List.length gs = n | _ => True end).
  { clear - F. induction evs as [|y evs IH]; cbn [fits app] in F; [destruct ev; cbn [fits]; tauto|]. destruct y; cbn [fits]; tauto. }
  destruct F2 as (F1 & F2). pose proof (run_inv e n _ _ (opened_inv n N) F) as (L & _). rewrite E in L. cbn [fst] in L.
  unfold vrun in E. rewrite fold_left_app in E. fold (vrun e evs (fst (vopened n))) in E. cbn [fold_left] in E.
  pose proof (run_inv e n evs _ (opened_inv n N) F1) as I. destruct (vrun e evs (fst (vopened n))) as [s0 v0].
  destruct (vanew e n ev s0 v0 I F2 D X) as (s1 & v1 & V & S1). rewrite V in E. injection E as <- <-.
  assert (B1 : by_id s1 = Some j). { apply by_id_place. rewrite redraw_grains in L. rewrite L. destruct (redraw_ids s1) as [EI _]. now rewrite EI in P. }
  destruct (anew s1 v1 j B1 (S1 j B1)) as (g & G & E1 & E2 & E3). exists g. rewrite E1, E2. unfold on_grain. cbn [i_sel i_id i_grains v_lines v_groups v_arrows v_free].
  repeat split; auto; destruct P as [P1 P2]; try (rewrite redraw_grains in L; rewrite L; exact P1).
  rewrite redraw_grains in L. rewrite L. destruct (redraw_ids s1) as [EI _]. now rewrite EI in P2.
Qed.
(** Opening the inspector and every event that draws end in an error. *)
Theorem C111_error_refuted : (forall n, (0 < n)%nat -> snd (vopened n) = Some TypeError) /\
  (forall e ev sv, draws_anew ev = true -> snd (vstep e ev sv) <> None) /\ forall e sv, snd (vstep e (Do ASave) sv) <> None.
Proof.
  assert (RD : forall s, snd (redraw s) <> None) by (intros s; unfold redraw; destruct (shown s); discriminate).
  assert (GO : forall k s, snd (goto_grain k s) <> None) by (intros k s; unfold goto_grain; destruct (np_index _ k); [apply RD|discriminate]).
  split; [|split].
  - intros n N. unfold vopened. cbn [snd]. unfold redraw. rewrite by_id_shown.
    assert (B : by_id (opened n) = Some 0%nat) by (apply by_id_place; unfold place; cbn; rewrite repeat_length; lia). now rewrite B.
  - intros e ev [s v] D. destruct ev as [a|gs].
    + unfold vstep. destruct (step e a s) as [s' x] eqn:ST. cbn [snd]. replace x with (snd (step e a s)) by now rewrite ST. destruct a as [p|p| |t| | | |t|t]; try discriminate D; cbn [step]; auto.
      * destruct (py_int t); [|discriminate]. destruct (del _ _); [apply RD|discriminate].
      * destruct (py_int t); [apply GO|discriminate].
    + unfold vstep. set (s1 := mkInsp _ _ _ _ gs). destruct (redraw s1) as [s' x] eqn:Q. cbn [snd]. replace x with (snd (redraw s1)) by now rewrite Q. apply RD.
  - intros e [s v]. unfold vstep. cbn [step]. destruct (i_p1 s), (i_p2 s); cbn [snd]; discriminate.
Qed.
Lemma draw_look : forall e s v p q g, nth_error (i_grains s) (i_sel s) = Some g -> exists s' v' g',
  vrun e (map Do (draw (p, q))) (s, v) = (s', v') /\ i_sel s' = i_sel s /\ nth_error (i_grains s') (i_sel s') = Some g' /\
  map l_pts (pts g') = map l_pts (pts g ++ [saved_line (e_corr e) p q]) /\
  v_arrows v' = v_arrows v ++ numbered_lines g'.
Proof.
  intros e s v p q g G. unfold draw, vrun. cbn [map fst snd fold_left vstep step look i_p1 i_p2 i_id i_sel i_grains].
  set (f := fun g => group_lines (e_traces e (i_sel s)) (mkGrain (pts g ++ [saved_line (e_corr e) p q]) (grps g))).
  eexists _, _, (f g). split; [reflexivity|]. split; [reflexivity|].
  assert (N : nth_error (change_nth (i_sel s) f (i_grains s)) (i_sel s) = Some (f g)) by (rewrite change_nth_nth, G, Nat.eqb_refl; reflexivity).
  split; [exact N|]. split; [apply pts_content; apply (group_lines_wf (e_traces e (i_sel s)) (mkGrain (pts g ++ [saved_line (e_corr e) p q]) (grps g)))|].
  unfold redraw_line. cbn [v_arrows].
  assert (A : forall k u, v_arrows (Nat.iter k (new_arrow p q) u) = v_arrows u) by (induction k as [|k IH]; intros u; [reflexivity|cbn; apply IH]).
  rewrite A. f_equal. unfold sel_grain, at_grain. cbn [i_sel i_grains]. rewrite (nth_error_nth _ _ _ N). reflexivity.
Qed.
(** After saving a second line the picture has two arrows for the first. *)
Theorem C111_arrows_refuted : forall e p q p' q', exists l0 l1,
  v_arrows (snd (vrun e (map Do (draw (p, q) ++ draw (p', q'))) (fst (vopened 1)))) = [(0%nat, l0); (0%nat, l0); (1%nat, l1)].
Proof.
  intros e p q p' q'. exists (l_pts (saved_line (e_corr e) p q)), (l_pts (saved_line (e_corr e) p' q')).
  rewrite map_app. unfold vrun. rewrite fold_left_app. fold (vrun e (map Do (draw (p, q))) (fst (vopened 1))).
  destruct (draw_look e (fst (fst (vopened 1))) (snd (fst (vopened 1))) p q (mkGrain [] []) eq_refl) as (s1 & v1 & g1 & E1 & B1 & C1 & D1 & F1).
  change (fst (fst (vopened 1)), snd (fst (vopened 1))) with (fst (vopened 1)) in E1. rewrite E1.
  destruct (draw_look e s1 v1 p' q' g1 C1) as (s2 & v2 & g2 & E2 & B2 & C2 & D2 & F2). unfold vrun in E2. rewrite E2. cbn [snd]. rewrite F2, F1.
  change (v_arrows (snd (fst (vopened 1)))) with (@nil (nat * list Z)).
  rewrite map_app in D2. rewrite D1 in D2.
  rewrite (numbered_pts g1 (mkGrain ([] ++ [saved_line (e_corr e) p q]) [])) by exact D1.
  rewrite (numbered_pts g2 (mkGrain (([] ++ [saved_line (e_corr e) p q]) ++ [saved_line (e_corr e) p' q']) [])) by (cbn [pts]; rewrite map_app; exact D2).
  reflexivity.
Qed.
(** Press, release, press again (and release off the picture), save: the arrow shown runs from the
    first press, the line saved from the second. *)
Theorem C111_saved_refuted : forall e p q r, let sv := vrun e (map Do [APress p; ARelease q; APress r; ASave]) (fst (vopened 1)) in
  v_free (snd sv) = [(p, q)] /\ map l_pts (v_lines (snd sv)) = [map hundredths [fst r; snd r; fst q; snd q]].
Proof. intros e p q r. split; reflexivity. Qed.
(** After a grain has been asked for that the map does not have, the window still shows the old one,
    under its id; the next arrow drawn is added to the one before; clearing the lines then empties the
    picture and leaves the list of lines. *)
Theorem C111_missing_refuted : forall e t k p q p' q', py_int t = Ok k -> (forall j, ~ place 1 k j) ->
  let told := map Do (draw (p, q) ++ [AGoto t; APress p'; ARelease q']) in
  let sv := vrun e told (fst (vopened 1)) in let sv' := vrun e (told ++ [Do AClear]) (fst (vopened 1)) in
  (i_id (fst sv) = k /\ v_id (snd sv) = 0 /\ v_picture (snd sv) = Some 0%nat /\ v_free (snd sv) = [(p, q); (p', q')]) /\
  (v_picture (snd sv') = None /\ v_arrows (snd sv') = [] /\ v_free (snd sv') = [] /\ List.length (v_lines (snd sv')) = 1%nat /\ pts (sel_grain (fst sv')) = []).
Proof.
  intros e t k p q p' q' T K.
  assert (N : np_index 1 k = None). { change 1 with (Z.of_nat 1). destruct (np_index _ k) as [i|] eqn:E; [|reflexivity]. apply place_iff in E. now destruct (K (Z.to_nat i)). }
  set (f := fun g => group_lines (e_traces e 0) (mkGrain (pts g ++ [saved_line (e_corr e) p q]) (grps g))).
  assert (A : vrun e (map Do (draw (p, q) ++ [AGoto t; APress p'; ARelease q'])) (fst (vopened 1)) =
    (mkInsp k 0 (Some p') (Some q') [f (mkGrain [] [])], View (numbered_lines (f (mkGrain [] []))) [(p, q); (p', q')] true 1 0 (Some 0%nat) 0 (pts (f (mkGrain [] []))) (grps (f (mkGrain [] []))) (Some 0%nat))).
  { assert (G : forall s v, List.length (i_grains s) = 1%nat -> fst (vstep e (Do (AGoto t)) (s, v)) = (mkInsp k (i_sel s) (i_p1 s) (i_p2 s) (i_grains s), forget_arrow v)).
    { intros s v L. cbn [vstep step look]. rewrite T. unfold goto_grain, goto_view. rewrite L. change (Z.of_nat 1) with 1. rewrite N. reflexivity. }
    unfold vrun. rewrite map_app, fold_left_app. cbn [map fold_left]. fold (vrun e (map Do (draw (p, q))) (fst (vopened 1))).
    destruct (vrun e (map Do (draw (p, q))) (fst (vopened 1))) as [s1 v1] eqn:E1. cbn in E1. injection E1 as <- <-. rewrite G by reflexivity. reflexivity. }
  cbv zeta. rewrite A. cbn [fst snd i_id v_id v_picture v_free]. split; [auto|].
  unfold vrun in A |- *. rewrite fold_left_app. rewrite A. cbn [fold_left vstep step look fst snd].
  unfold redraw, redraw_all, shown, by_id, at_grain, sel_grain. cbn [i_id i_sel i_grains change_nth List.length Z.of_nat Pos.of_succ_nat]. rewrite N. cbn. rewrite ?N. cbn.
  repeat split; auto.
Qed.
Example C111_missing_met : py_int (lit "7") = Ok 7 /\ forall j, ~ place 1 7 j.
Proof. split; [reflexivity|]. unfold place. lia. Qed.
(** Asking for the ratio of a group does not change the list of groups. *)
Theorem C111_ratio_refuted : forall e t s v k g g', nth_error (i_grains s) (i_sel s) = Some g -> py_int t = Ok k -> calc_rdr (e_rdr e (i_sel s)) g k = Ok g' ->
  let sv := fst (vstep e (Do (ARdr t)) (s, v)) in v_groups (snd sv) = v_groups v /\ nth_error (i_grains (fst sv)) (i_sel (fst sv)) = Some g'.
Proof.
  intros e t s v k g g' G T C. destruct (C66_recorded e s t k g g' G T C) as (H & _).
  cbn [vstep]. destruct (step e (ARdr t) s) as [s' x] eqn:ST. cbn [fst snd] in *. split; [reflexivity|].
  replace (i_sel s') with (i_sel s); [exact H|]. cbn [step] in ST. destruct t as [|c t]; [discriminate T|]. rewrite T in ST. unfold sel_grain in ST. rewrite (nth_error_nth _ _ _ G), C in ST. now injection ST as <- _.
Qed.
Example C111_ratio_met : let e := mkEnv 0 (fun _ => []) (fun _ => edge_rdr 1) in
  exists g', calc_rdr (edge_rdr 1) edge_grain 0 = Ok g' /\ map g_rdr (grps g') = [Some 2%R] /\ map g_rdr (grps edge_grain) = [None].
Proof. destruct C66_least_squares_met as (_ & _ & _ & _ & g' & H1 & H2). exists g'. auto. Qed.
(** Three grains, a line drawn on the second, which is then left and shown again. *)
Example C111_met : fits 3 (Do ANext :: map Do (draw ((0, 0), (1, 2))%R) ++ [Do ANext; Do (AGoto (lit "-2"))]) /\
  let sv := vrun ex_env (Do ANext :: map Do (draw ((0, 0), (1, 2))%R) ++ [Do ANext; Do (AGoto (lit "-2"))]) (fst (vopened 3)) in
  place 3 (i_id (fst sv)) 1 /\ List.length (v_arrows (snd sv)) = 1%nat /\ v_handlers (snd sv) = 4%nat.
Proof. split; [repeat split|]. cbv zeta. split; [split; [cbn; lia|right; reflexivity]|]. split; reflexivity. Qed.

Print Assumptions C111_window_partial.
Print Assumptions C111_drawn.
Print Assumptions C111_anew_partial.
Print Assumptions C111_error_refuted.
Print Assumptions C111_arrows_refuted.
Print Assumptions C111_saved_refuted.
Print Assumptions C111_ratio_refuted.
Print Assumptions C111_missing_refuted.
