(** Proofs about what grains keep. *)
From Coq Require Import String Ascii Reals ZArith Bool Lra Lia.
From Coq Require Import List.
From Verif Require Import Py Base_Model Quat_Model Crystal_Model Text_Model Eqv_Model Ebsd_Model Ebsd_Spec Ebsd_Proofs GrainState_Model GrainState_Spec.
Import ListNotations.
Open Scope Z_scope.

(** What would be stored if calculated now. *)
Definition fresh_mis (K : consts) r := map (option_map fst) (mis_from K r).
Definition fresh_axes (K : consts) r := map (axis_from r) (mis_from K r).
Definition fresh_grod (K : consts) r := (map (option_map (fun mq => (2 * acos (fst mq))%R)) (mis_from K r), map (axis_from r) (mis_from K r)).
Definition fresh_angles (K : consts) r := map (option_map fst) (fst (trace_loop r (match c_systems K with Some l => l | None => [] end))).
Definition at_ref (K : consts) r (g : grain) : Prop := g_ref g = Some r \/ g_ref g = None /\ r = average K.
Definition okf {A} (c : option A) (v : A) : Prop := c = None \/ c = Some v.

Lemma ensure_at K r g : at_ref K r g -> ensure_ref K g = (with_ref g (Some r), r) .
Proof.
  intros [E|[E ->]]; unfold ensure_ref; rewrite E; [|reflexivity]. destruct g; cbn in *. now subst.
Qed.
Definition gentle K r (o : op) : Prop := match o with SetRef _ => False | CalcAverage => r = average K | _ => True end.
Ltac ops H := repeat match goal with |- context [match ?x with _ => _ end] => destruct x end; cbn [fst g_ref g_mis g_axes g_grod g_angles with_ref] in *.

Lemma traces_step K s r g : at_ref K r g -> exists l, fst (calc_traces K s g) =
  Grain (Some r) (g_mis g) (g_axes g) (g_sfs g) (g_rdr g) (Some (map (option_map fst) l)) (Some (map (option_map snd) l)) (g_grod g)
  /\ (s = None -> map (option_map fst) l = fresh_angles K r).
Proof.
  intros A. unfold calc_traces. rewrite (ensure_at K r g A). cbn [with_ref g_ref g_mis g_axes g_sfs g_rdr g_grod].
  unfold fresh_angles. destruct s as [gr|].
  - destruct (trace_loop r gr) as [l e]. exists l. split; [reflexivity|discriminate].
  - destruct (c_systems K) as [gr|].
    + destruct (trace_loop r gr) as [l e]. exists l. auto.
    + exists []. auto.
Qed.
(** One call: the reference stays, and so does the truth of what is stored. *)
Lemma one_step K r o g : at_ref K r g -> gentle K r o ->
  at_ref K r (step K g o) /\
  (okf (g_mis g) (fresh_mis K r) -> okf (g_mis (step K g o)) (fresh_mis K r)) /\
  (okf (g_axes g) (fresh_axes K r) -> okf (g_axes (step K g o)) (fresh_axes K r)) /\
  (okf (g_grod g) (fresh_grod K r) -> okf (g_grod (step K g o)) (fresh_grod K r)) /\
  (own_traces o = true -> okf (g_angles g) (fresh_angles K r) -> okf (g_angles (step K g o)) (fresh_angles K r)) /\
  (g_mis g <> None -> g_mis (step K g o) <> None) /\ (g_axes g <> None -> g_axes (step K g o) <> None).
Proof.
  intros A G. unfold okf.
  assert (B : forall a, build_mis K a g = Grain (Some r) (Some (fresh_mis K r)) (if a then Some (fresh_axes K r) else g_axes g)
     (g_sfs g) (g_rdr g) (g_angles g) (g_incls g) (g_grod g)).
  { intros a. unfold build_mis. rewrite (ensure_at K r g A). reflexivity. }
  destruct o as [|a| |v s| |s| |c| |q]; cbn [step gentle own_traces] in *.
  - subst r. cbn [with_ref g_mis g_axes g_grod g_angles]. split; [left; reflexivity|]. tauto.
  - rewrite B. cbn [g_ref g_mis g_axes g_grod g_angles]. split; [left; reflexivity|]. destruct a; repeat split; auto; congruence.
  - unfold read_grod. destruct (g_grod g) as [d|] eqn:E; cbn [fst]; [rewrite E; tauto|].
    rewrite (ensure_at K r g A). cbn [fst g_ref g_mis g_axes g_grod g_angles with_ref]. split; [left; reflexivity|]. repeat split; auto.
  - unfold calc_schmid. rewrite (ensure_at K r g A). destruct (match s with Some s => Some s | None => c_systems K end); cbn [fst g_ref g_mis g_axes g_grod g_angles with_ref];
      (split; [left; reflexivity|]; tauto).
  - unfold calc_grain_rdr. assert (T : forall l, at_ref K r (Grain (g_ref g) (g_mis g) (g_axes g) (g_sfs g) (Some l) (g_angles g) (g_incls g) (g_grod g))) by (intros l; exact A).
    destruct (c_systems K) as [gr|]; [|cbn [fst]; split; [apply T|]; cbn [g_mis g_axes g_grod g_angles]; tauto].
    destruct (g_ref g) as [[q|]|] eqn:E; [| |destruct (rdr_no_ref gr) as [l e]]; cbn [fst]; (split; [apply T|]; cbn [g_mis g_axes g_grod g_angles]; tauto).
  - destruct (traces_step K s r g A) as (l & -> & F). cbn [g_ref g_mis g_axes g_grod g_angles]. split; [left; reflexivity|].
    split; [tauto|]. split; [tauto|]. split; [tauto|]. split; [|tauto]. intros O _. right. f_equal. apply F. destruct s; [discriminate|reflexivity].
  - unfold read_traces. destruct (g_angles g) as [x|] eqn:E; cbn [fst]; [rewrite E; tauto|].
    destruct (traces_step K None r g A) as (l & EQ & F). destruct (calc_traces K None g) as [g' e]. cbn [fst] in *. subst g'.
    cbn [g_ref g_mis g_axes g_grod g_angles]. split; [left; reflexivity|].
    split; [tauto|]. split; [tauto|]. split; [tauto|]. split; [|tauto]. intros O _. right. f_equal. now apply F.
  - unfold plot_mis. destruct (c =? 0); [destruct (g_mis g) as [x|] eqn:E|destruct ((0 <? c) && (c <? 4)); [destruct (g_axes g) as [x|] eqn:E|]];
      cbn [fst]; rewrite ?B; rewrite ?E; cbn [g_ref g_mis g_axes g_grod g_angles]; try tauto;
      (split; [left; reflexivity|]; repeat split; auto; congruence).
  - unfold print_traces. destruct (traces_step K None r g A) as (l & EQ & F). destruct (calc_traces K None g) as [g' e]. cbn [fst] in *. subst g'.
    cbn [g_ref g_mis g_axes g_grod g_angles]. split; [left; reflexivity|].
    split; [tauto|]. split; [tauto|]. split; [tauto|]. split; [|tauto]. intros O _. right. f_equal. now apply F.
  - destruct G.
Qed.
Lemma many_steps K r ops : forall g, at_ref K r g -> (forall o, In o ops -> gentle K r o) ->
  at_ref K r (run K ops g) /\
  (okf (g_mis g) (fresh_mis K r) -> okf (g_mis (run K ops g)) (fresh_mis K r)) /\
  (okf (g_axes g) (fresh_axes K r) -> okf (g_axes (run K ops g)) (fresh_axes K r)) /\
  (okf (g_grod g) (fresh_grod K r) -> okf (g_grod (run K ops g)) (fresh_grod K r)) /\
  ((forall o, In o ops -> own_traces o = true) -> okf (g_angles g) (fresh_angles K r) -> okf (g_angles (run K ops g)) (fresh_angles K r)) /\
  (g_mis g <> None -> g_mis (run K ops g) <> None) /\ (g_axes g <> None -> g_axes (run K ops g) <> None).
Proof.
  induction ops as [|o ops IH]; intros g A G; [cbn [run fold_left]; tauto|].
  change (run K (o :: ops) g) with (run K ops (step K g o)).
  destruct (one_step K r o g A (G o (or_introl eq_refl))) as (A1 & M1 & X1 & D1 & T1 & N1 & N2).
  destruct (IH (step K g o) A1 (fun o' I => G o' (or_intror I))) as (A2 & M2 & X2 & D2 & T2 & N3 & N4).
  split; [exact A2|]. do 3 (split; [auto|]). split; [|auto]. intros O H. apply T2; [intros o' I; apply O; now right|]. apply T1; [apply O; now left|exact H].
Qed.

(** *** What the fresh values are *)
Lemma grod_is_fresh K r : grod_from K r = fresh_grod K r.
Proof.
  unfold grod_from, fresh_grod, mis_from. destruct r as [q|].
  - unfold calc_grod, ref_or_average. rewrite !map_map. f_equal; apply map_ext; intros; reflexivity.
  - rewrite !map_map. reflexivity.
Qed.
Lemma shown_mis K r : map (option_map (fun m => deg (2 * acos m))) (fresh_mis K r) = deviation K r 0.
Proof.
  unfold deviation. cbn [Z.eqb]. rewrite grod_is_fresh. unfold fresh_mis, fresh_grod. cbn [fst]. rewrite !map_map.
  apply map_ext. intros [m|]; reflexivity.
Qed.
Lemma shown_axes K r c : 0 < c -> map (option_map (fun v => deg (comp c v))) (fresh_axes K r) = deviation K r c.
Proof.
  intros H. unfold deviation. replace (c =? 0) with false by (symmetry; apply Z.eqb_neq; lia).
  rewrite grod_is_fresh. reflexivity.
Qed.
Lemma plot_at K r g c : at_ref K r g -> (c = 0 -> okf (g_mis g) (fresh_mis K r)) -> (0 < c -> okf (g_axes g) (fresh_axes K r)) -> 0 <= c <= 3 ->
  snd (plot_mis K c g) = Ok (deviation K r c).
Proof.
  intros A M X C. unfold plot_mis. destruct (Z.eqb_spec c 0) as [->|N].
  - cbn [snd]. rewrite <- shown_mis. destruct (M eq_refl) as [E|E]; rewrite E; [|rewrite E; reflexivity].
    unfold build_mis. rewrite (ensure_at K r g A). reflexivity.
  - replace ((0 <? c) && (c <? 4)) with true by (symmetry; apply andb_true_iff; split; apply Z.ltb_lt; lia).
    cbn [snd]. rewrite <- shown_axes by lia. destruct (X ltac:(lia)) as [E|E]; rewrite E; [|rewrite E; reflexivity].
    unfold build_mis. rewrite (ensure_at K r g A). reflexivity.
Qed.
Lemma trace_filled r groups : (forall grp, In grp groups -> grp <> []) ->
  exists l, trace_loop r groups = (l, Ok tt) /\ map (option_map fst) l = map (trace_of r) groups.
Proof.
  induction groups as [|grp groups IH]; intros H; [exists []; auto|].
  destruct IH as (l & E & F); [intros x I; apply H; now right|]. cbn [trace_loop]. destruct grp as [|s grp]; [elim (H [] (or_introl eq_refl)); reflexivity|].
  rewrite E. eexists. split; [reflexivity|]. cbn [map]. rewrite F. f_equal. destruct r; reflexivity.
Qed.
Lemma fresh_filled K r groups : filled K groups -> fresh_angles K r = map (trace_of r) groups.
Proof.
  intros [E H]. unfold fresh_angles. rewrite E. destruct (trace_filled r groups H) as (l & -> & F). exact F.
Qed.
Lemma calc_filled K r g groups : at_ref K r g -> filled K groups ->
  exists l, calc_traces K None g = (Grain (Some r) (g_mis g) (g_axes g) (g_sfs g) (g_rdr g) (Some (map (trace_of r) groups))
    (Some l) (g_grod g), Ok tt).
Proof.
  intros A [E H]. unfold calc_traces. rewrite E, (ensure_at K r g A). destruct (trace_filled r groups H) as (l & -> & F).
  rewrite F. eexists. reflexivity.
Qed.
(** *** The table *)
Lemma sfs_kept K o g : is_schmid o = false -> g_sfs (step K g o) = g_sfs g.
Proof.
  assert (T : forall s, g_sfs (fst (calc_traces K s g)) = g_sfs g).
  { intros s. unfold calc_traces, ensure_ref. destruct (g_ref g);
      destruct (match s with Some s => Some s | None => c_systems K end) as [gr|]; try (destruct (trace_loop _ gr)); reflexivity. }
  destruct o as [|a| |v s| |s| |c| |q]; cbn [step is_schmid]; intros H; try discriminate; try reflexivity.
  - unfold build_mis, ensure_ref. destruct (g_ref g); reflexivity.
  - unfold read_grod, ensure_ref. destruct (g_grod g), (g_ref g); reflexivity.
  - unfold calc_grain_rdr. destruct (c_systems K) as [gr|]; [|reflexivity].
    destruct (g_ref g) as [[q|]|]; [| |destruct (rdr_no_ref gr)]; reflexivity.
  - apply T.
  - unfold read_traces. destruct (g_angles g); [reflexivity|]. specialize (T None). destruct (calc_traces K None g). exact T.
  - unfold plot_mis, build_mis, ensure_ref. destruct (c =? 0), (g_mis g), (g_ref g), ((0 <? c) && (c <? 4)), (g_axes g); reflexivity.
  - unfold print_traces. specialize (T None). destruct (calc_traces K None g). exact T.
Qed.
Lemma sfs_kept_many K ops : forall g, (forall o, In o ops -> is_schmid o = false) -> g_sfs (run K ops g) = g_sfs g.
Proof.
  induction ops as [|o ops IH]; intros g H; [reflexivity|]. change (run K (o :: ops) g) with (run K ops (step K g o)).
  rewrite IH by (intros o' I; apply H; now right). apply sfs_kept, H. now left.
Qed.
Lemma combine_map2 {A B C} (f : A -> B) (h : A -> C) l : combine (map f l) (map h l) = map (fun x => (f x, h x)) l.
Proof. induction l as [|x l IH]; [reflexivity|]. cbn [map combine]. now rewrite IH. Qed.
Lemma table_rows r load : forall groups colours, (forall grp, In grp groups -> grp <> []) -> List.length colours = List.length groups ->
  exists rows, table groups colours (map (map (factor_of r load)) groups) (map (trace_of r) groups) = Ok rows /\
    Forall2 (fun gc out => table_row r load (fst gc) (snd gc) out) (combine groups colours) rows.
Proof.
  induction groups as [|grp groups IH]; intros [|c colours] H L; try discriminate L; [exists []; split; [reflexivity|constructor]|].
  cbn [List.length] in L. injection L as L. destruct (IH colours (fun x I => H x (or_intror I)) L) as (rows & E & F).
  destruct grp as [|s grp]; [elim (H [] (or_introl eq_refl)); reflexivity|].
  cbn [table map]. rewrite E. cbn [bind]. eexists. split; [reflexivity|]. cbn [combine]. constructor; [|exact F].
  exists s, grp. split; [reflexivity|]. cbn [fst snd map combine]. rewrite combine_map2. reflexivity.
Qed.
(** *** Linked maps *)
Lemma build_twice K a g : build_mis K a (build_mis K a g) = build_mis K a g.
Proof. unfold build_mis, ensure_ref. destruct (g_ref g) as [r|] eqn:E; cbn; [rewrite E; cbn|]; destruct a; cbn; rewrite ?E; reflexivity. Qed.
Definition cell_fold (F : Z -> Z -> grain -> grain -> grain) (i : nat) (g : Z) (m : maps) (links : list (list Z)) (x : grain) : grain :=
  fold_left (fun x l => match nth_error l i, nth_error l 0 with
    | Some g', Some g0 => if g' =? g then F (Z.of_nat i) g (m 0 g0) x else x | _, _ => x end) links x.
Lemma inner_links F i links : (1 <= i)%nat -> forall m : maps,
  let m' := fold_left (fun m link => match nth_error link i, nth_error link 0 with
      | Some g, Some g0 => set_grain m (Z.of_nat i) g (F (Z.of_nat i) g (m 0 g0) (m (Z.of_nat i) g)) | _, _ => m end) links m in
  (forall i' g, i' <> Z.of_nat i -> m' i' g = m i' g) /\ (forall g, m' (Z.of_nat i) g = cell_fold F i g m links (m (Z.of_nat i) g)).
Proof.
  intros Hi. induction links as [|l links IH]; intros m; cbn [fold_left]; [split; auto|].
  destruct (nth_error l i) as [g1|] eqn:E1; [destruct (nth_error l 0) as [g0|] eqn:E0|].
  - set (m1 := set_grain m _ _ _). destruct (IH m1) as [A B].
    assert (D : forall i' g, i' <> Z.of_nat i -> m1 i' g = m i' g).
    { intros i' g N. unfold m1, set_grain. replace (i' =? Z.of_nat i) with false by (symmetry; now apply Z.eqb_neq). reflexivity. }
    split; [intros i' g N; rewrite A by auto; auto|]. intros g. rewrite B. unfold cell_fold. cbn [fold_left]. rewrite E1, E0.
    replace (m1 (Z.of_nat i) g) with (if g1 =? g then F (Z.of_nat i) g (m 0 g0) (m (Z.of_nat i) g) else m (Z.of_nat i) g).
    2:{ unfold m1, set_grain. rewrite Z.eqb_refl. cbn [andb]. rewrite (Z.eqb_sym g g1). destruct (Z.eqb_spec g1 g) as [->|]; reflexivity. }
    clear -D Hi. revert D. generalize (if g1 =? g then F (Z.of_nat i) g (m 0 g0) (m (Z.of_nat i) g) else m (Z.of_nat i) g). intros x D. revert x.
    induction links as [|l links IH]; intros x; cbn [fold_left]; [reflexivity|]. rewrite IH.
    destruct (nth_error l i); [|reflexivity]. destruct (nth_error l 0); [|reflexivity]. rewrite D by lia. reflexivity.
  - destruct (IH m) as [A B]. split; [auto|]. intros g. rewrite B. unfold cell_fold. cbn [fold_left]. now rewrite E1, E0.
  - destruct (IH m) as [A B]. split; [auto|]. intros g. rewrite B. unfold cell_fold. cbn [fold_left]. now rewrite E1.
Qed.
Lemma cell_fold_ext F i g m m' links : (forall g0, m 0 g0 = m' 0 g0) -> forall x, cell_fold F i g m links x = cell_fold F i g m' links x.
Proof.
  intros E. induction links as [|l links IH]; intros x; [reflexivity|]. unfold cell_fold in *. cbn [fold_left]. rewrite IH.
  destruct (nth_error l i); [|reflexivity]. destruct (nth_error l 0); [|reflexivity]. now rewrite E.
Qed.
Lemma outer_links F links k : forall a (m : maps), (1 <= a)%nat ->
  let m' := fold_left (fun m i => fold_left (fun m link => match nth_error link i, nth_error link 0 with
      | Some g, Some g0 => set_grain m (Z.of_nat i) g (F (Z.of_nat i) g (m 0 g0) (m (Z.of_nat i) g)) | _, _ => m end) links m) (seq a k) m in
  (forall g, m' 0 g = m 0 g) /\
  (forall i g, (a <= i < a + k)%nat -> m' (Z.of_nat i) g = cell_fold F i g m links (m (Z.of_nat i) g)) /\
  (forall i g, ~ (Z.of_nat a <= i < Z.of_nat (a + k)) -> m' i g = m i g).
Proof.
  induction k as [|k IH]; intros a m Ha; cbn [seq fold_left].
  - split; [auto|]. split; [intros; lia|auto].
  - set (m1 := fold_left _ links m). destruct (inner_links F a links Ha m) as [A B]. fold m1 in A, B.
    destruct (IH (S a) m1 ltac:(lia)) as (C & D & E).
    split; [|split].
    + intros g. rewrite C. apply A. lia.
    + intros i g Hi. destruct (Nat.eq_dec i a) as [->|N].
      * rewrite E by lia. apply B.
      * rewrite D by lia. rewrite (cell_fold_ext F i g m1 m) by (intros g0; apply A; lia). rewrite A by lia. reflexivity.
    + intros i g Hi. rewrite E by lia. apply A. lia.
Qed.
Lemma refs_cell i g m links : (forall l, In l links -> nth_error l 0 <> None) -> forall x,
  cell_fold (fun _ _ g0 x => with_ref x (g_ref g0)) i g m links x =
  match last_link i g links with
  | Some l => match nth_error l 0 with Some g0 => with_ref x (g_ref (m 0 g0)) | None => x end
  | None => x
  end.
Proof.
  induction links as [|l links IH]; intros H x; [reflexivity|]. unfold cell_fold in *. cbn [fold_left last_link].
  rewrite IH by (intros; apply H; now right). pose proof (H l (or_introl eq_refl)) as H0. destruct (nth_error l 0) as [g0|] eqn:E0; [|congruence].
  destruct (last_link i g links) as [l'|] eqn:EL.
  - destruct (nth_error l i) as [g'|]; [|reflexivity]. destruct (g' =? g); [|reflexivity].
    apply last_link_In in EL as [I _]. specialize (H l' (or_intror I)). destruct (nth_error l' 0); [reflexivity|congruence].
  - destruct (nth_error l i) as [g'|]; [|reflexivity]. destruct (g' =? g); [|reflexivity]. rewrite E0. reflexivity.
Qed.
Lemma build_cell (K : Z -> Z -> consts) a i g m links : (forall l, In l links -> nth_error l 0 <> None) -> forall x,
  cell_fold (fun i g _ x => build_mis (K i g) a x) i g m links x =
  match last_link i g links with Some _ => build_mis (K (Z.of_nat i) g) a x | None => x end.
Proof.
  induction links as [|l links IH]; intros H x; [reflexivity|]. unfold cell_fold in *. cbn [fold_left last_link].
  rewrite IH by (intros; apply H; now right). pose proof (H l (or_introl eq_refl)) as H0. destruct (nth_error l 0) as [g0|] eqn:E0; [|congruence].
  destruct (last_link i g links) as [l'|]; destruct (nth_error l i) as [g'|]; try reflexivity; destruct (g' =? g); try reflexivity.
  apply build_twice.
Qed.
(** Both together, for one grain. *)
Lemma linked_grain K n links a m i g : (forall l, In l links -> List.length l = n) -> (1 <= i < n)%nat ->
  update_misori K n links a (link_refs n links m) (Z.of_nat i) g =
  match last_link i g links with
  | Some l => match nth_error l 0 with
              | Some g0 => build_mis (K (Z.of_nat i) g) a (with_ref (m (Z.of_nat i) g) (g_ref (m 0 g0)))
              | None => m (Z.of_nat i) g
              end
  | None => m (Z.of_nat i) g
  end.
Proof.
  intros L Hi.
  assert (H : forall l, In l links -> nth_error l 0 <> None) by (intros l I; specialize (L l I); apply nth_error_Some; lia).
  unfold update_misori, for_links.
  destruct (outer_links (fun i g _ x => build_mis (K i g) a x) links (n - 1) 1 (link_refs n links m) ltac:(lia)) as (_ & B & _).
  rewrite B by lia. rewrite build_cell by exact H.
  unfold link_refs, for_links.
  destruct (outer_links (fun _ _ g0 x => with_ref x (g_ref g0)) links (n - 1) 1 m ltac:(lia)) as (_ & D & _).
  rewrite D by lia. rewrite refs_cell by exact H.
  destruct (last_link i g links) as [l|] eqn:EL; [|reflexivity]. apply last_link_In in EL as [I _]. specialize (H l I).
  destruct (nth_error l 0); [reflexivity|congruence].
Qed.
Lemma linked_master K n links a m g : update_misori K n links a (link_refs n links m) 0 g = m 0 g.
Proof.
  unfold update_misori, for_links.
  destruct (outer_links (fun i g _ x => build_mis (K i g) a x) links (n - 1) 1 (link_refs n links m) ltac:(lia)) as (B & _).
  rewrite B. unfold link_refs, for_links.
  destruct (outer_links (fun _ _ g0 x => with_ref x (g_ref g0)) links (n - 1) 1 m ltac:(lia)) as (D & _). apply D.
Qed.
