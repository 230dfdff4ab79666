(** The grain inspector: properties C63, C65, C66, C85 and C86. *)
From Coq Require Import String Ascii Reals.
From Coq Require Import List ZArith Bool Lia Lra.
Import ListNotations.
From Verif Require Import Py Grid Grid_Lemmas Boundary_Model Base_Model Base_Proofs Quat_Model Crystal_Model
  CrystalMat_Proofs Text_Model Ebsd_Model Quat_Spec Quat_Proofs QuatEuler_Proofs
  Insp_Model Insp_Spec Insp_Proofs InspHist_Proofs InspDraw_Proofs InspRdr_Proofs.
Open Scope Z_scope.

(** An inspector used in the examples: no correction, no slip planes. *)
Definition ex_rdr : rdr_env := mkRdr 1 1 (fun _ => 0%R) (fun _ => 0%R) (0, 0) 3 (fun x y _ _ => [(x, y)]).
Definition ex_env : env := mkEnv 0 (fun _ => []) (fun _ => ex_rdr).

Lemma draws_lines : forall angs g0, Forall (fun a => 0 <= a <= 18000) angs ->
  exists ps : list (list Z), List.length ps = List.length angs /\
    fold_left (fun g pq => add_line [] g (saved_line 0 (fst pq) (snd pq))) (map at_angle angs) g0 =
    fold_left (add_line []) (map (fun pa => mkLine (fst pa) (snd pa) (-1) false) (combine ps angs)) g0.
Proof.
  induction angs as [|a angs IH]; intros g0 F; [exists []; auto|]. inversion F as [|? ? A F']; subst.
  destruct (at_angle_saved a A) as (p & P). cbn [map fold_left]. rewrite P.
  destruct (IH (add_line [] g0 (mkLine p a (-1) false)) F') as (ps & L & E). exists (p :: ps).
  split; [cbn [List.length]; congruence|]. exact E.
Qed.

Lemma draws_first : forall angs, Forall (fun a => 0 <= a <= 18000) angs ->
  exists ps : list (list Z), List.length ps = List.length angs /\
    nth_error (i_grains (run ex_env (draws (map at_angle angs)) (opened 1))) 0 =
    Some (fold_left (add_line []) (map (fun pa => mkLine (fst pa) (snd pa) (-1) false) (combine ps angs)) (mkGrain [] [])) /\
    i_sel (run ex_env (draws (map at_angle angs)) (opened 1)) = 0%nat.
Proof.
  intros angs F. destruct (draws_lines angs (mkGrain [] []) F) as (ps & L & E). exists ps. split; [exact L|].
  rewrite <- E. exact (draws_grain ex_env (map at_angle angs) (opened 1) (mkGrain [] []) eq_refl).
Qed.

Lemma place_iff : forall n k i, np_index (Z.of_nat n) k = Some i <-> place n k (Z.to_nat i) /\ 0 <= i.
Proof.
  intros n k i. unfold np_index, place.
  destruct (Z.leb_spec 0 k), (Z.ltb_spec k (Z.of_nat n)); cbn [andb].
  - split; [intros Q; assert (i = k) by congruence; lia|intros; f_equal; lia].
  - destruct (Z.leb_spec (- Z.of_nat n) k), (Z.ltb_spec k 0); cbn [andb]; split; intros Q; try discriminate; lia.
  - destruct (Z.leb_spec (- Z.of_nat n) k), (Z.ltb_spec k 0); cbn [andb]; split; intros Q; try discriminate; try lia.
    + assert (i = k + Z.of_nat n) by congruence. lia.
    + f_equal. lia.
  - destruct (Z.leb_spec (- Z.of_nat n) k), (Z.ltb_spec k 0); cbn [andb]; split; intros Q; try discriminate; try lia.
Qed.

(** ** C63: groups of lines *)

(** After any events, on every grain: the groups are numbered 0, 1, 2, ..., every line
    is in exactly one of them and none is empty. *)
Theorem C63_numbers : forall e acts n i g,
  nth_error (i_grains (run e acts (opened n))) i = Some g ->
  map g_id (grps g) = zseq 0 (List.length (grps g)) /\
  (forall l, In l (pts g) -> 0 <= l_grp l < Z.of_nat (List.length (grps g))) /\
  (forall k, 0 <= k < Z.of_nat (List.length (grps g)) -> exists l, In l (pts g) /\ l_grp l = k).
Proof. intros e acts n i g G. exact (proj1 (numbered_run e acts n i g G)). Qed.
Print Assumptions C63_numbers.

(** After any events, the planes listed for a group are exactly those whose trace angle
    is within 5 degrees of the group's, each with its deviation. *)
Theorem C63_planes : forall e acts n i g x,
  nth_error (i_grains (run e acts (opened n))) i = Some g -> In x (grps g) ->
  planes_right (e_traces e i) x.
Proof. intros e acts n i g x G X. exact (proj2 (numbered_run e acts n i g G) x X). Qed.
Print Assumptions C63_planes.

(** Lines not grouped before are put, one after another, into the nearest group within
    10 degrees or a new one, and each group's angle is the mean of its lines. *)
Theorem C63_first_grouping : forall ts g, (forall l, In l (pts g) -> l_grp l = -1) ->
  let g' := group_lines ts g in
  map l_ang (pts g') = map l_ang (pts g) /\
  Grouping (map l_ang (pts g)) (map (fun l => Z.to_nat (l_grp l)) (pts g')) (map g_ang (grps g')) /\
  (forall k x, nth_error (grps g') k = Some x -> rounded_mean (members (pts g') (Z.of_nat k)) (g_ang x)).
Proof.
  intros ts g F g'. destruct (group_lines_wf ts g) as (C & (W1 & W2 & W3) & _). fold g' in C, W1, W2, W3.
  assert (AE := map_ang_content _ _ C).
  assert (G : Grouping (map l_ang (pts g)) (map (fun l => Z.to_nat (l_grp l)) (pts g')) (map g_ang (grps g'))).
  { unfold g', group_lines. destruct (pts g) as [|l ls] eqn:E; [constructor|].
    pose proof (first_grouping (l :: ls) F) as R. destruct (group_loop [] [] 0 (l :: ls)) as [ls' gs'].
    cbn [pts grps]. rewrite map_map.
    assert (ME : map (fun x => g_ang (detect_group ts x)) gs' = map g_ang gs').
    { apply map_ext. intros x. apply detect_group_right. }
    now rewrite ME. }
  split; [exact AE|]. split; [exact G|]. intros k x X.
  destruct (grouping_means _ _ _ G) as (_ & _ & M). specialize (M k (g_ang x)).
  rewrite <- AE, in_place_members in M by (intros l I; apply W2 in I; lia). apply M. now rewrite nth_error_map, X.
Qed.
Print Assumptions C63_first_grouping.

Example C63_first_grouping_met :
  map (fun l => (l_ang l, l_grp l)) (pts (group_lines [] (mkGrain
    (map (fun a => mkLine [] a (-1) false) [1000; 4000; 1500; 2100; 4800]) []))) =
  [(1000, 0); (4000, 1); (1500, 0); (2100, 0); (4800, 1)].
Proof. reflexivity. Qed.

(** If no line was ever removed and the lines of a grain lie in separate bundles, two
    lines share a group exactly if they are within 10 degrees, the recorded angles are
    the means, and grouping again changes nothing. *)
Theorem C63_bundles_partial : forall e acts n i g,
  existsb removes acts = false ->
  nth_error (i_grains (run e acts (opened n))) i = Some g ->
  bundled (map l_ang (pts g)) ->
  (forall l m, In l (pts g) -> In m (pts g) -> (l_grp l = l_grp m <-> near (l_ang l) (l_ang m))) /\
  (forall k x, nth_error (grps g) k = Some x -> rounded_mean (members (pts g) (Z.of_nat k)) (g_ang x)) /\
  map line_view (pts (group_lines (e_traces e i) g)) = map line_view (pts g) /\
  map (fun x => (g_id x, g_ang x)) (grps (group_lines (e_traces e i) g)) = map (fun x => (g_id x, g_ang x)) (grps g).
Proof.
  intros e acts n i g NR G B. pose proof (bundles_run e acts n i g NR G B) as BR.
  pose proof (numbered_run e acts n i g G) as ((W1 & W2 & W3) & _). pose proof BR as (B1 & B2 & B3). split; [|split].
  - intros l m L M. assert (Al : In (l_ang l) (map l_ang (pts g))) by now apply in_map.
    assert (Am : In (l_ang m) (map l_ang (pts g))) by now apply in_map. split.
    + intros E. apply (bundle_same _ B _ _ _ Al Am (B1 l L)). rewrite E. now apply B1.
    + intros N. exact (bundle_unique _ B _ _ _ _ Al Am (B1 l L) (B1 m M) N).
  - intros k x X. rewrite (B3 k x X). apply average_mean. destruct (W3 (Z.of_nat k)) as (l & L & E).
    { apply nth_error_Some_len in X. lia. }
    intros Z. assert (In (l_ang l) []); [|easy]. rewrite <- Z. unfold members. apply in_map, filter_In.
    split; auto. now apply Z.eqb_eq.
  - assert (BR' : bundles_right (group_lines (e_traces e i) g)).
    { apply group_lines_bundles; auto. intros l L. right. now apply B1. }
    destruct (group_lines_wf (e_traces e i) g) as (C & (V1 & _) & _).
    assert (AE := map_ang_content _ _ C).
    destruct (same_view (group_lines (e_traces e i) g) g) as (V & A); auto; [now rewrite AE|].
    split; [exact V|].
    assert (PE : forall l, map (fun x => (g_id x, g_ang x)) l = combine (map g_id l) (map g_ang l)).
    { clear. induction l as [|x l IH]; [reflexivity|]. cbn [map combine]. now rewrite IH. }
    assert (LE : List.length (grps (group_lines (e_traces e i) g)) = List.length (grps g)).
    { apply (f_equal (@List.length Z)) in A. now rewrite !map_length in A. }
    rewrite !PE, A, V1, W1, LE. reflexivity.
Qed.
Print Assumptions C63_bundles_partial.

Example C63_bundles_met : exists g,
  existsb removes (draws (map at_angle [1000; 4000; 1500; 4300])) = false /\
  nth_error (i_grains (run ex_env (draws (map at_angle [1000; 4000; 1500; 4300])) (opened 1))) 0 = Some g /\
  map l_ang (pts g) = [1000; 4000; 1500; 4300] /\ map l_grp (pts g) = [0; 1; 0; 1] /\ map g_ang (grps g) = [1250; 4150] /\
  bundled (map l_ang (pts g)).
Proof.
  destruct (draws_first [1000; 4000; 1500; 4300]) as (ps & L & E & _); [repeat constructor; lia|].
  assert (PS : exists p1 p2 p3 p4, ps = [p1; p2; p3; p4]).
  { clear - L. do 4 (destruct ps as [|? ps]; [discriminate L|]). destruct ps; [|discriminate L]. repeat eexists. }
  destruct PS as (p1 & (p2 & (p3 & (p4 & PS)))). subst ps.
  eexists. split; [reflexivity|]. split; [exact E|]. split; [reflexivity|]. split; [reflexivity|]. split; [reflexivity|].
  intros a b c A B C. cbn in A, B, C. unfold near. lia.
Qed.

(** In general grouping again without any change moves lines to other groups: here five
    lines drawn one after another. *)
Theorem C63_regroup_refuted : exists e acts n g,
  existsb removes acts = false /\
  nth_error (i_grains (run e acts (opened n))) 0 = Some g /\
  map l_grp (pts g) = [0; 0; 0; 0; 0] /\
  map l_grp (pts (group_lines (e_traces e 0) g)) = [0; 0; 1; 0; 0].
Proof.
  destruct (draws_first [2000; 2000; 1100; 2600; 2800]) as (ps & L & E & _); [repeat constructor; lia|].
  assert (PS : exists p1 p2 p3 p4 p5, ps = [p1; p2; p3; p4; p5]).
  { clear - L. do 5 (destruct ps as [|? ps]; [discriminate L|]). destruct ps; [|discriminate L]. repeat eexists. }
  destruct PS as (p1 & (p2 & (p3 & (p4 & (p5 & PS))))). subst ps.
  exists ex_env, (draws (map at_angle [2000; 2000; 1100; 2600; 2800])), 1%nat. eexists.
  split; [reflexivity|]. split; [exact E|]. split; reflexivity.
Qed.
Print Assumptions C63_regroup_refuted.

(** After removing a line a group's recorded angle need not be the mean of its lines,
    even for bundled lines: lines at 0 and 2 degrees are left with the angle 18. *)
Theorem C63_mean_refuted : exists e acts n g,
  nth_error (i_grains (run e acts (opened n))) 0 = Some g /\
  map l_ang (pts g) = [0; 200; 5200] /\ bundled (map l_ang (pts g)) /\
  map l_grp (pts g) = [0; 0; 1] /\ map g_ang (grps g) = [1800; 5200].
Proof.
  destruct (draws_first [5000; 0; 200; 5200]) as (ps & L & E & SEL); [repeat constructor; lia|].
  assert (PS : exists p1 p2 p3 p4, ps = [p1; p2; p3; p4]).
  { clear - L. do 4 (destruct ps as [|? ps]; [discriminate L|]). destruct ps; [|discriminate L]. repeat eexists. }
  destruct PS as (p1 & (p2 & (p3 & (p4 & PS)))). subst ps.
  exists ex_env, (draws (map at_angle [5000; 0; 200; 5200]) ++ [ARemove (lit "0")]), 1%nat.
  unfold run in *. rewrite fold_left_app. set (s := fold_left _ (draws _) (opened 1)) in *.
  cbn [fold_left step]. change (py_int (lit "0")) with (@Ok Z 0). cbv iota beta.
  unfold sel_grain. rewrite SEL. rewrite (nth_error_nth _ _ _ E).
  set (g := fold_left _ _ _) in E. 
  change (del (pts (fold_left _ _ _)) 0) with (del (pts g) 0).
  assert (D : del (pts g) 0 = Ok [mkLine p2 0 1 false; mkLine p3 200 1 true; mkLine p4 5200 0 true]) by reflexivity.
  rewrite D. rewrite redraw_grains. unfold at_grain. cbn [i_grains]. rewrite change_nth_nth, SEL, E. cbn [Nat.eqb option_map].
  eexists. split; [reflexivity|]. split; [reflexivity|]. split; [|split; reflexivity].
  intros a b c A B C. cbn in A, B, C. unfold near. lia.
Qed.
Print Assumptions C63_mean_refuted.

(** Lines one degree apart across the direction of the y axis are never in one group. *)
Theorem C63_axis_refuted : exists e acts n g,
  nth_error (i_grains (run e acts (opened n))) 0 = Some g /\
  map l_ang (pts g) = [50; 17950] /\ map l_grp (pts g) = [0; 1].
Proof.
  destruct (draws_first [50; 17950]) as (ps & L & E & _); [repeat constructor; lia|].
  assert (PS : exists p1 p2, ps = [p1; p2]).
  { clear - L. do 2 (destruct ps as [|? ps]; [discriminate L|]). destruct ps; [|discriminate L]. repeat eexists. }
  destruct PS as (p1 & (p2 & PS)). subst ps.
  exists ex_env, (draws (map at_angle [50; 17950])), 1%nat. eexists. split; [exact E|]. split; reflexivity.
Qed.
Print Assumptions C63_axis_refuted.

(** No event changes the lines or groups of a grain that is not selected, and
    navigating, drawing without saving or calculating a ratio changes no lines. *)
Theorem C63_others : forall e a s i, i <> i_sel s ->
  nth_error (i_grains (fst (step e a s))) i = nth_error (i_grains s) i.
Proof.
  intros e a s i N.
  assert (AT : forall f, nth_error (i_grains (at_grain s f)) i = nth_error (i_grains s) i).
  { intros f. unfold at_grain. cbn [i_grains]. rewrite change_nth_nth. destruct (Nat.eqb_spec i (i_sel s)); [easy|reflexivity]. }
  destruct a as [p|p| |t| | | |t|t]; cbn [step]; auto.
  - destruct (i_p1 s), (i_p2 s); cbn [fst]; auto.
  - destruct (py_int t); auto. destruct (del _ _); auto. rewrite redraw_grains. apply AT.
  - rewrite redraw_grains. apply AT.
  - now rewrite goto_grains.
  - now rewrite goto_grains.
  - destruct (py_int t); auto. now rewrite goto_grains.
  - destruct t; auto. destruct (py_int _); auto. destruct (calc_rdr _ _ _); cbn [fst]; auto.
Qed.
Print Assumptions C63_others.

Theorem C63_kept : forall e a s i g, nth_error (i_grains s) i = Some g ->
  match a with ASave | ARemove _ | AClear => False | _ => True end ->
  exists g', nth_error (i_grains (fst (step e a s))) i = Some g' /\ pts g' = pts g /\
    map g_id (grps g') = map g_id (grps g) /\ map g_ang (grps g') = map g_ang (grps g).
Proof.
  intros e a s i g G K. destruct a as [p|p| |t| | | |t|t]; try easy; cbn [step]; try (now exists g).
  - rewrite goto_grains. now exists g.
  - rewrite goto_grains. now exists g.
  - destruct (py_int t); [rewrite goto_grains|]; now exists g.
  - destruct t as [|c t]; [now exists g|]. destruct (py_int (c :: t)) as [k|]; [|now exists g].
    destruct (calc_rdr (e_rdr e (i_sel s)) (sel_grain s) k) as [g'|] eqn:C; [|now exists g]. cbn [fst].
    unfold at_grain. cbn [i_grains]. rewrite change_nth_nth, G. destruct (Nat.eqb_spec i (i_sel s)) as [->|]; [|now exists g].
    cbn [option_map]. exists g'. split; [reflexivity|]. unfold sel_grain in C. rewrite (nth_error_nth _ _ _ G) in C.
    destruct (calc_rdr_inv _ _ _ _ C) as (E & V). destruct (view_parts _ _ V) as (V1 & V2 & _). auto.
Qed.
Print Assumptions C63_kept.

(** Removing line [k] removes that line and no other; clearing removes all. *)
Theorem C63_removed : forall e t k s j g, nth_error (i_grains s) (i_sel s) = Some g ->
  py_int t = Ok k -> place (List.length (pts g)) k j ->
  exists g', nth_error (i_grains (fst (step e (ARemove t) s))) (i_sel s) = Some g' /\
    map (fun l => (l_pts l, l_ang l)) (pts g') =
    map (fun l => (l_pts l, l_ang l)) (firstn j (pts g) ++ skipn (S j) (pts g)).
Proof.
  intros e t k s j g G T P. cbn [step]. rewrite T. unfold sel_grain. rewrite (nth_error_nth _ _ _ G). unfold del.
  assert (I : np_index (Z.of_nat (List.length (pts g))) k = Some (Z.of_nat j)).
  { apply place_iff. rewrite Nat2Z.id. split; [exact P|lia]. }
  rewrite I, Nat2Z.id. rewrite redraw_grains. unfold at_grain. cbn [i_grains]. rewrite change_nth_nth, G, Nat.eqb_refl. cbn [option_map].
  eexists. split; [reflexivity|]. fold content.
  match goal with |- context [group_lines ?ts ?x] => destruct (group_lines_wf ts x) as (C & _) end. rewrite C. cbn [pts]. f_equal.
  clear. generalize (pts g). induction j as [|j IH]; intros [|a l]; try reflexivity. cbn [drop_nth firstn skipn app]. now rewrite IH.
Qed.
Print Assumptions C63_removed.
Theorem C63_cleared : forall e s g, nth_error (i_grains s) (i_sel s) = Some g ->
  nth_error (i_grains (fst (step e AClear s))) (i_sel s) = Some (mkGrain [] []).
Proof.
  intros e s g G. cbn [step]. rewrite redraw_grains. unfold at_grain. cbn [i_grains]. now rewrite change_nth_nth, G, Nat.eqb_refl.
Qed.
Print Assumptions C63_cleared.
Example C63_removed_met : place 3 (-1) 2 /\ py_int (lit " -1") = Ok (-1).
Proof. split; [split; [lia|right; reflexivity]|reflexivity]. Qed.

(** ** C65: the angle of a drawn line *)

(** Drawing a line adds one line with the ends to two decimals and an angle which, with
    the correction added back and up to rounding, is in [0, 180] and is that of the line
    from the y axis; nothing else about the lines changes but their groups. *)
Theorem C65_angle : forall e s p q g, nth_error (i_grains s) (i_sel s) = Some g ->
  exists g' x a, nth_error (i_grains (run e (draw (p, q)) s)) (i_sel s) = Some g' /\
    map (fun l => (l_pts l, l_ang l)) (pts g') =
    map (fun l => (l_pts l, l_ang l)) (pts g) ++ [(map rint [fst p * 100; snd p * 100; fst q * 100; snd q * 100]%R, x)] /\
    (Rabs (IZR x / 100 + e_corr e - a) <= 1 / 200)%R /\ (0 <= a <= 180)%R /\
    ((fst q - fst p) * cos (a * PI / 180) = (snd q - snd p) * sin (a * PI / 180))%R.
Proof.
  intros e s p q g G. destruct (draws_grain e [(p, q)] s g G) as (E & _). cbn [fold_left fst snd] in E.
  exists (add_line (e_traces e (i_sel s)) g (saved_line (e_corr e) p q)),
    (hundredths (drawn_angle p q - e_corr e)), (drawn_angle p q).
  split; [exact E|]. split; [|split; [|split]].
  - unfold add_line. destruct (group_lines_wf (e_traces e (i_sel s)) (mkGrain (pts g ++ [saved_line (e_corr e) p q]) (grps g))) as (C & _).
    fold content. rewrite C. cbn [pts]. rewrite map_app. reflexivity.
  - unfold hundredths. pose proof (rint_err ((drawn_angle p q - e_corr e) * 100)) as R.
    set (z := rint _) in *. clearbody z. apply Rabs_le. unfold Rabs in R. destruct (Rcase_abs _) in R; lra.
  - apply drawn_range.
  - apply drawn_direction.
Qed.
Print Assumptions C65_angle.

(** Without correction every recorded angle is between 0 and 180 degrees, in every
    history, for lines and groups. *)
Theorem C65_range : forall e acts n i g, e_corr e = 0%R ->
  nth_error (i_grains (run e acts (opened n))) i = Some g ->
  (forall l, In l (pts g) -> 0 <= l_ang l <= 18000) /\ (forall x, In x (grps g) -> 0 <= g_ang x <= 18000).
Proof.
  intros e acts n i g C G. destruct (range_run e acts n i g C G) as [A B]. split; [|exact B].
  intros l L. now apply A.
Qed.
Print Assumptions C65_range.

(** The same line drawn from its other end is recorded with the same angle if it is not
    parallel to the y axis. *)
Theorem C65_swap_partial : forall e s p q g, nth_error (i_grains s) (i_sel s) = Some g -> fst p <> fst q ->
  exists g' g'' x, nth_error (i_grains (run e (draw (p, q)) s)) (i_sel s) = Some g' /\
    nth_error (i_grains (run e (draw (q, p)) s)) (i_sel s) = Some g'' /\
    map l_ang (pts g') = map l_ang (pts g) ++ [x] /\ map l_ang (pts g'') = map l_ang (pts g) ++ [x] /\
    map l_grp (pts g') = map l_grp (pts g'').
Proof.
  intros e s p q g G D. destruct (draws_grain e [(p, q)] s g G) as (E & _). destruct (draws_grain e [(q, p)] s g G) as (E' & _).
  cbn [fold_left fst snd] in E, E'. set (ts := e_traces e (i_sel s)) in *.
  assert (AN : forall p q, map l_ang (pts (add_line ts g (saved_line (e_corr e) p q))) =
    map l_ang (pts g) ++ [hundredths (drawn_angle p q - e_corr e)]).
  { intros p' q'. unfold add_line. destruct (group_lines_wf ts (mkGrain (pts g ++ [saved_line (e_corr e) p' q']) (grps g))) as (C & _).
    rewrite (map_ang_content _ _ C). cbn [pts]. rewrite map_app. reflexivity. }
  exists (add_line ts g (saved_line (e_corr e) p q)), (add_line ts g (saved_line (e_corr e) q p)),
    (hundredths (drawn_angle p q - e_corr e)).
  split; [exact E|]. split; [exact E'|]. split; [apply AN|]. split; [rewrite AN, (drawn_swap p q D); reflexivity|].
  unfold add_line, group_lines. cbn [pts grps].
  assert (LOOP : forall todo todo' done done' gs nx, map (fun l => (l_ang l, l_grp l)) done = map (fun l => (l_ang l, l_grp l)) done' ->
    map (fun l => (l_ang l, l_grp l)) todo = map (fun l => (l_ang l, l_grp l)) todo' ->
    map l_grp (fst (group_loop done gs nx todo)) = map l_grp (fst (group_loop done' gs nx todo'))).
  { assert (MM : forall l l' k, map (fun l => (l_ang l, l_grp l)) l = map (fun l => (l_ang l, l_grp l)) l' -> members l k = members l' k).
    { induction l as [|x l IH]; intros [|y l'] k M; try discriminate; auto. cbn [map] in M. injection M as M1 M2 M3.
      rewrite !members_cons, M1, M2, (IH l' k M3). reflexivity. }
    induction todo as [|x todo IH]; intros [|y todo'] done done' gs nx DE TE; try discriminate.
    - cbn [group_loop fst]. assert (P : forall l, map l_grp l = map snd (map (fun l => (l_ang l, l_grp l)) l)) by (intros; rewrite map_map; reflexivity).
      now rewrite !P, DE.
    - cbn [map] in TE. injection TE as T1 T2 T3. destruct done as [|d done], done' as [|d' done']; try discriminate.
      + rewrite !loop_first. rewrite T1. apply IH; auto. cbn [map set_grp l_ang l_grp]. now rewrite T1.
      + destruct (near_some gs (l_ang x)) eqn:N.
        * rewrite loop_join by (auto; discriminate). rewrite (loop_join (d' :: done') gs nx y) by (try discriminate; now rewrite <- T1).
          cbv zeta. rewrite <- T1. set (k := nearest gs (l_ang x)).
          assert (ME : members ((d :: done) ++ set_grp x (Z.of_nat k) true :: todo) (Z.of_nat k) =
                       members ((d' :: done') ++ set_grp y (Z.of_nat k) true :: todo') (Z.of_nat k)).
          { apply MM. rewrite !map_app, DE. cbn [map set_grp l_ang l_grp]. now rewrite T1, T3. }
          rewrite ME. apply IH; auto. rewrite !map_app, DE. cbn [map set_grp l_ang l_grp]. now rewrite T1.
        * rewrite loop_new by (auto; discriminate). rewrite (loop_new (d' :: done') gs nx y) by (try discriminate; now rewrite <- T1).
          rewrite <- T1. apply IH; auto. rewrite !map_app, DE. cbn [map set_grp l_ang l_grp]. now rewrite T1. }
  assert (TE : map (fun l => (l_ang l, l_grp l)) (pts g ++ [saved_line (e_corr e) p q]) =
               map (fun l => (l_ang l, l_grp l)) (pts g ++ [saved_line (e_corr e) q p])).
  { rewrite !map_app. cbn [map saved_line l_ang l_grp]. now rewrite (drawn_swap p q D). }
  specialize (LOOP _ _ [] [] [] 0 eq_refl TE).
  destruct (pts g ++ [saved_line (e_corr e) p q]) as [|a1 m1] eqn:M1; [destruct (pts g); discriminate|].
  destruct (pts g ++ [saved_line (e_corr e) q p]) as [|a2 m2] eqn:M2; [destruct (pts g); discriminate|].
  destruct (group_loop [] [] 0 (a1 :: m1)) as [l1 g1], (group_loop [] [] 0 (a2 :: m2)) as [l2 g2]. exact LOOP.
Qed.
Print Assumptions C65_swap_partial.

Example C65_swap_met : fst (0, 0)%R <> fst (3, 4)%R.
Proof. cbn. lra. Qed.

(** A line parallel to the y axis is recorded as 0 or 180 degrees depending on the end
    it was drawn from, and the two are put into different groups. *)
Theorem C65_vertical_refuted : forall p q, fst p = fst q -> (snd p < snd q)%R ->
  exists g, nth_error (i_grains (run ex_env (draws [(p, q); (q, p)]) (opened 1))) 0 = Some g /\
    map l_ang (pts g) = [0; 18000] /\ map l_grp (pts g) = [0; 1].
Proof.
  intros p q X Y. destruct (draws_grain ex_env [(p, q); (q, p)] (opened 1) (mkGrain [] []) eq_refl) as (E & _).
  eexists. split; [exact E|]. cbn [fold_left fst snd ex_env e_corr e_traces].
  assert (A : exists c, saved_line 0 p q = mkLine c 0 (-1) false).
  { eexists. unfold saved_line. rewrite drawn_up by auto. rewrite Rminus_0_r. unfold hundredths.
    rewrite Rmult_0_l. rewrite (rint_int 0). reflexivity. }
  assert (B : exists c, saved_line 0 q p = mkLine c 18000 (-1) false).
  { eexists. unfold saved_line. rewrite drawn_down by auto. rewrite Rminus_0_r. unfold hundredths.
    replace (180 * 100)%R with (IZR 18000) by lra. rewrite rint_int. reflexivity. }
  destruct A as (c & ->). destruct B as (d & ->). split; reflexivity.
Qed.
Print Assumptions C65_vertical_refuted.

(** With a correction the recorded angle can leave the range from 0 to 180. *)
Theorem C65_correction_refuted : exists e p q g,
  e_corr e = 10%R /\ nth_error (i_grains (run e (draw (p, q)) (opened 1))) 0 = Some g /\ map l_ang (pts g) = [-1000].
Proof.
  exists (mkEnv 10 (fun _ => []) (fun _ => ex_rdr)), (0, 0)%R, (0, 1)%R.
  destruct (draws_grain (mkEnv 10 (fun _ => []) (fun _ => ex_rdr)) [((0, 0), (0, 1))%R] (opened 1) (mkGrain [] []) eq_refl) as (E & _).
  eexists. split; [reflexivity|]. split; [exact E|]. cbn [fold_left fst snd e_corr e_traces].
  assert (A : exists c, saved_line 10 (0, 0)%R (0, 1)%R = mkLine c (-1000) (-1) false).
  { eexists. unfold saved_line. rewrite drawn_up by (cbn [fst snd]; lra). unfold hundredths.
    replace ((0 - 10) * 100)%R with (IZR (-1000)) by lra. rewrite rint_int. reflexivity. }
  destruct A as (c & ->). reflexivity.
Qed.
Print Assumptions C65_correction_refuted.

(** ** C66: the relative displacement ratio *)

(** In every history without correction angle: the ratio calculated for a group whose
    sampled pixels are all on the map is the slope of the straight line that fits best
    the displacements u against v, both as deviations from the mean of their row of
    samples; the rows lie across the lines, and the ratio is the only thing changed. *)
Theorem C66_least_squares_partial : forall e acts n i g k x,
  e_corr e = 0%R -> 3 <= r_len (e_rdr e i) ->
  nth_error (i_grains (run e acts (opened n))) i = Some g ->
  0 <= k -> nth_error (grps g) (Z.to_nat k) = Some x ->
  let r := e_rdr e i in
  exists step, perpendicular_step (g_ang x) step /\
    let rows := group_rows r step (Z.quot (r_len r - 1) 2) g k in
    (forall row p, In row rows -> In p row -> inside (r_W r) (r_H r) p) ->
    (forall g', calc_rdr r g k = Ok g' ->
       exists s, g' = rdr_at g k s /\
         (forall s' c, sq_error (r_u r) (r_v r) rows s 0 <= sq_error (r_u r) (r_v r) rows s' c)%R /\
         (forall t, (forall row, In row rows -> exists b, forall p, In p row -> r_u r p = t * r_v r p + b)%R -> s = t)) /\
    ((exists row p q, In row rows /\ In p row /\ In q row /\ r_v r p <> r_v r q) ->
       exists g', calc_rdr r g k = Ok g').
Proof.
  intros e acts n i g k x C L G K X r. destruct (range_run e acts n i g C G) as [A B].
  assert (NE : pts g <> []).
  { intros Z. destruct (numbered_run e acts n i g G) as ((_ & _ & W) & _).
    destruct (W 0) as (l & I & _); [|rewrite Z in I; easy]. apply nth_error_Some_len in X. lia. }
  destruct (calc_rdr_eq r g k x K X (B x (nth_error_In _ _ X)) L (fun l I => proj1 (A l I)) NE) as (st & P & H).
  exists st. split; [exact P|]. cbv zeta. intros I. specialize (H I). cbv zeta in H. rewrite H. split.
  - intros g' G'. destruct (slope _ _) as [s|z] eqn:S; [|discriminate]. exists s. split; [congruence|]. split.
    + eapply rows_least. exact S.
    + intros t T. eapply rows_exact; eauto.
  - intros (row & p & q & R1 & R2 & R3 & D).
    destruct (rows_defined (r_u r) (r_v r) _ row p q R1 R2 R3 D) as (s & ->). eauto.
Qed.
Print Assumptions C66_least_squares_partial.

(** Asking for the ratio of a group records the calculated ratio with the selected grain. *)
Theorem C66_recorded : forall e s t k g g', nth_error (i_grains s) (i_sel s) = Some g -> py_int t = Ok k ->
  calc_rdr (e_rdr e (i_sel s)) g k = Ok g' ->
  nth_error (i_grains (fst (step e (ARdr t) s))) (i_sel s) = Some g' /\ snd (step e (ARdr t) s) = None.
Proof.
  intros e s t k g g' G T C. cbn [step]. destruct t as [|c t]; [discriminate T|]. rewrite T. unfold sel_grain.
  rewrite (nth_error_nth _ _ _ G), C. cbn [fst snd]. unfold at_grain. cbn [i_grains]. now rewrite change_nth_nth, G, Nat.eqb_refl.
Qed.
Print Assumptions C66_recorded.

(** A map of five pixels in a row, on which u is twice v in the first four. *)
Definition edge_v (p : pix) : R := IZR (if fst p =? 4 then 5 else fst p).
Definition edge_u (p : pix) : R := IZR (if fst p =? 4 then 0 else 2 * fst p).
Definition edge_rdr (x : Z) : rdr_env := mkRdr 5 1 edge_u edge_v (x, 0) 3 (fun x y _ _ => [(x, y)]).
Definition edge_grain : grain := mkGrain [mkLine [0; 0; 0; 50] 0 0 false] [new_group 0 0].

Lemma edge_drawn : forall x, nth_error (i_grains (run (mkEnv 0 (fun _ => []) (fun _ => edge_rdr x)) (draw ((0, 0), (0, 1 / 2))%R) (opened 1))) 0 =
  Some edge_grain.
Proof.
  intros x. destruct (draws_grain (mkEnv 0 (fun _ => []) (fun _ => edge_rdr x)) [((0, 0), (0, 1 / 2))%R] (opened 1) (mkGrain [] []) eq_refl) as (E & _).
  change (draws [((0, 0), (0, 1 / 2))%R]) with (draw ((0, 0), (0, 1 / 2))%R) in E. change (i_sel (opened 1)) with 0%nat in E.
  rewrite E. cbn [fold_left fst snd e_corr e_traces].
  assert (A : saved_line 0 (0, 0)%R (0, 1 / 2)%R = mkLine [0; 0; 0; 50] 0 (-1) false).
  { unfold saved_line. rewrite drawn_up by (cbn [fst snd]; lra). cbn [map fst snd]. rewrite Rminus_0_r. unfold hundredths.
    rewrite Rmult_0_l. replace (1 / 2 * 100)%R with (IZR 50) by lra. rewrite !rint_int. reflexivity. }
  rewrite A. reflexivity.
Qed.

Lemma edge_rows : forall x rows, sample_rows (edge_rdr x) [(-1, 0); (0, 0); (1, 0)] [0; 0; 0; 50] = Ok rows ->
  calc_rdr (edge_rdr x) edge_grain 0 =
  (do us <- map_res (map_res (fetch 5 1 edge_u)) (concat [rows]);
   do vs <- map_res (map_res (fetch 5 1 edge_v)) (concat [rows]);
   do s <- slope (concat (map centred vs)) (concat (map centred us));
   Ok (mkGrain (pts edge_grain) [set_rdr (new_group 0 0) s])).
Proof.
  intros x rows R.
  transitivity (do rr <- (do r <- sample_rows (edge_rdr x) [(-1, 0); (0, 0); (1, 0)] [0; 0; 0; 50]; do t <- Ok []; Ok (r :: t));
     do us <- map_res (map_res (fetch 5 1 edge_u)) (concat rr);
     do vs <- map_res (map_res (fetch 5 1 edge_v)) (concat rr);
     do s <- slope (concat (map centred vs)) (concat (map centred us));
     Ok (mkGrain (pts edge_grain) [set_rdr (new_group 0 0) s])); [reflexivity|].
  rewrite R. reflexivity.
Qed.

(** Away from the edge the ratio is found. *)
Example C66_least_squares_met :
  let e := mkEnv 0 (fun _ => []) (fun _ => edge_rdr 1) in
  e_corr e = 0%R /\ 3 <= r_len (e_rdr e 0) /\
  nth_error (i_grains (run e (draw ((0, 0), (0, 1 / 2))%R) (opened 1))) 0 = Some edge_grain /\
  (forall step, step = (1, 0) \/ step = (-1, 0) -> forall row p, In row (group_rows (edge_rdr 1) step 1 edge_grain 0) -> In p row -> inside 5 1 p) /\
  exists g', calc_rdr (edge_rdr 1) edge_grain 0 = Ok g' /\ map g_rdr (grps g') = [Some 2%R].
Proof.
  cbv zeta. split; [reflexivity|]. split; [cbn; lia|]. split; [apply edge_drawn|]. split.
  - intros st [->| ->] row p R P; destruct R as [<-|[]]; cbn in P; destruct P as [<-|[<-|[<-|[]]]]; unfold inside; cbn; lia.
  - rewrite (edge_rows 1 [[(0, 0); (1, 0); (2, 0)]] eq_refl).
    cbn [concat app]. rewrite !map_res_rows.
    2:{ intros row p [<-|[]] [<-|[<-|[<-|[]]]]; unfold inside; cbn; lia. }
    2:{ intros row p [<-|[]] [<-|[<-|[<-|[]]]]; unfold inside; cbn; lia. }
    cbn [bind]. destruct (rows_defined edge_u edge_v [[(0, 0); (1, 0); (2, 0)]] [(0, 0); (1, 0); (2, 0)] (0, 0) (1, 0)) as (s & HS).
    { now left. } { now left. } { right. now left. }
    { change (edge_v (0, 0)) with 0%R. change (edge_v (1, 0)) with 1%R. intros X. lra. }
    change (slope _ _) with (slope (concat (map centred (map (map edge_v) [[(0, 0); (1, 0); (2, 0)]]))) (concat (map centred (map (map edge_u) [[(0, 0); (1, 0); (2, 0)]])))).
    rewrite HS. cbn [bind].
    assert (s = 2%R) as ->.
    { eapply rows_exact; [exact HS|]. intros row [<-|[]]. exists 0%R.
      intros p [<-|[<-|[<-|[]]]];
        [change (0 = 2 * 0 + 0)%R|change (2 = 2 * 1 + 0)%R|change (4 = 2 * 2 + 0)%R]; lra. }
    eexists. split; reflexivity.
Qed.

(** At the left or upper edge of the map the samples beyond it are taken from the
    opposite edge: here u is twice v at the line and its neighbour, but the ratio
    recorded is -1/7. *)
Theorem C66_edge_refuted : exists e g g',
  e_corr e = 0%R /\
  nth_error (i_grains (run e (draw ((0, 0), (0, 1 / 2))%R) (opened 1))) 0 = Some g /\
  (forall p, inside (r_W (e_rdr e 0)) (r_H (e_rdr e 0)) p -> fst p < 4 -> r_u (e_rdr e 0) p = (2 * r_v (e_rdr e 0) p)%R) /\
  calc_rdr (e_rdr e 0) g 0 = Ok g' /\ map g_rdr (grps g') = [Some (- (1 / 7))%R].
Proof.
  exists (mkEnv 0 (fun _ => []) (fun _ => edge_rdr 0)), edge_grain. cbn [e_rdr].
  assert (C : exists s, calc_rdr (edge_rdr 0) edge_grain 0 = Ok (mkGrain (pts edge_grain) [set_rdr (new_group 0 0) s]) /\ s = (- (1 / 7))%R).
  { rewrite (edge_rows 0 [[(-1, 0); (0, 0); (1, 0)]] eq_refl).
    cbn [bind concat app map_res].
    change (fetch 5 1 ?f (-1, 0)) with (Ok (f (4, 0))).
    change (fetch 5 1 ?f (0, 0)) with (Ok (f (0, 0))).
    change (fetch 5 1 ?f (1, 0)) with (Ok (f (1, 0))).
    cbn [bind map concat app].
    change (edge_u (4, 0)) with 0%R. change (edge_u (0, 0)) with 0%R. change (edge_u (1, 0)) with 2%R.
    change (edge_v (4, 0)) with 5%R. change (edge_v (0, 0)) with 0%R. change (edge_v (1, 0)) with 1%R.
    assert (CV : centred [5; 0; 1]%R = [3; -2; -1]%R).
    { unfold centred, mean. cbn [map fold_right List.length INR]. repeat (f_equal; try lra). }
    assert (CU : centred [0; 0; 2]%R = [- (2 / 3); - (2 / 3); 4 / 3]%R).
    { unfold centred, mean. cbn [map fold_right List.length INR]. repeat (f_equal; try lra). }
    rewrite CV, CU. cbn [app]. unfold slope. cbn [all_same forallb].
    destruct (Req_EM_T (-2) 3); [exfalso; lra|]. cbn [andb].
    eexists. split; [reflexivity|]. unfold mean. cbn [map combine fst snd fold_right List.length INR]. field_simplify; lra. }
  destruct C as (s & C & ->). eexists. split; [reflexivity|]. split; [apply edge_drawn|]. split.
  - intros p I F. cbn [edge_rdr r_u r_v]. unfold edge_u, edge_v. destruct (Z.eqb_spec (fst p) 4); [lia|]. now rewrite mult_IZR.
  - split; [exact C|reflexivity].
Qed.
Print Assumptions C66_edge_refuted.

(** With a correction the rows need not lie across the line: a line recorded at -45
    degrees is sampled along the x axis, and one at 203 degrees raises IndexError. *)
Theorem C66_correction_refuted :
  offsets (-4500) 3 = Ok [(-1, 0); (0, 0); (1, 0)] /\ ~ perpendicular_step (-4500) (1, 0) /\
  offsets 20300 3 = Err IndexError.
Proof.
  split; [reflexivity|]. split; [|reflexivity]. intros (_ & _ & _ & H). cbv zeta in H. cbn [fst snd] in H.
  replace (-4500 / 100 * PI / 180)%R with (- (PI / 4))%R in H by field. rewrite sin_neg, sin_PI4 in H.
  rewrite Rmult_1_l, Rmult_0_l, Rplus_0_r, Rabs_Ropp in H.
  replace (1 ^ 2 + 0 ^ 2)%R with 1%R in H by ring. rewrite sqrt_1, Rmult_1_l in H.
  pose proof PI_RGT_0 as PP.
  assert (SS : (sin (PI / 8) < sin (PI / 4))%R) by (apply sin_increasing_1; lra). rewrite sin_PI4 in SS.
  assert (P : (0 < 1 / sqrt 2)%R) by (rewrite <- sin_PI4; apply sin_gt_0; lra).
  rewrite Rabs_right in H by lra. lra.
Qed.
Print Assumptions C66_correction_refuted.

(** The ratio expected of a slip system: with the slip direction [d] turned into the
    sample frame it is minus its x over its y component; it does not depend on the
    direction's length or sense, and there is none (a division by zero) exactly if
    the y component is zero. *)
Theorem C66_slip_ratio : forall q d,
  let s := mapply (transpose (rot_matrix q)) d in
  (forall r, grain_rdr q d = Some r <-> vy s <> 0%R /\ r = (- vx s / vy s)%R) /\
  (forall c, c <> 0%R -> grain_rdr q (V3 (c * vx d) (c * vy d) (c * vz d))%R = grain_rdr q d) /\
  grain_rdr (opp q) d = grain_rdr q d.
Proof.
  intros q d s.
  assert (OPT : forall a b : option R, (forall r, a = Some r <-> b = Some r) -> a = b).
  { intros [a|] [b|] H; auto; [now apply H|symmetry; now apply H|now apply H]. }
  split; [intros r; apply grain_rdr_spec|]. split.
  - intros c C. apply OPT. intros r. rewrite !grain_rdr_spec. fold s.
    set (s' := mapply _ (V3 _ _ _)).
    assert (SX : vx s' = (c * vx s)%R) by (unfold s', s, mapply, sprod; cbn [vx vy vz]; ring).
    assert (SY : vy s' = (c * vy s)%R) by (unfold s', s, mapply, sprod; cbn [vx vy vz]; ring).
    rewrite SX, SY. clearbody s s'. split.
    + intros [N ->]. assert (vy s <> 0)%R by (intros Z; rewrite Z in N; lra). split; auto. field. auto.
    + intros [N ->]. split; [now apply Rmult_integral_contrapositive|]. field. auto.
  - apply OPT. intros r. rewrite !grain_rdr_spec. rewrite (rot_same (opp q) q); [reflexivity|]. now right.
Qed.
Print Assumptions C66_slip_ratio.

Example C66_slip_ratio_met : grain_rdr (Q4 1 0 0 0) (V3 1 1 0) = Some (-1)%R.
Proof.
  apply grain_rdr_spec. set (s := mapply _ _).
  assert (X : vx s = 1%R) by (unfold s, mapply, transpose, rot_matrix, sprod, col0, col1, col2; cbn [vx vy vz qw qx qy qz r0 r1 r2]; ring).
  assert (Y : vy s = 1%R) by (unfold s, mapply, transpose, rot_matrix, sprod, col0, col1, col2; cbn [vx vy vz qw qx qy qz r0 r1 r2]; ring).
  rewrite X, Y. split; [lra|]. field.
Qed.

(** ** C85: the slip trace table *)

(** The table has a row for each group of each grain with lines, in order, with the
    grain's largest Schmid factor, and the Euler angles of the selected grain: for that
    grain the row is right. *)
Theorem C85_table_partial : forall ori sfs s rows, sta_rows ori sfs s = Ok rows ->
  map (fun r => let '(i, _, _, x) := r in (i, x)) rows =
    concat (map (fun ig : nat * grain => map (fun x => (fst ig, x)) (match pts (snd ig) with [] => [] | _ => grps (snd ig) end))
                (combine (seq 0 (List.length (i_grains s))) (i_grains s))) /\
  (forall i eu sf x, In (i, eu, sf, x) rows ->
     In sf (concat (sfs i)) /\ (forall v, In v (concat (sfs i)) -> v <= sf)%R /\
     eu = (let '(e1, e2, e3) := euler_angles (ori (i_sel s)) in (e1 * 180 / PI, e2 * 180 / PI, e3 * 180 / PI)%R)).
Proof.
  intros ori sfs s rows H. unfold sta_rows in H. 
  match type of H with bind (map_res ?f ?l) _ = _ => set (F := f) in H; set (L := l) in * end.
  destruct (map_res F L) as [rr|] eqn:E; [|discriminate]. cbn [bind] in H. injection H as <-.
  apply map_res_inv in E. clearbody L.
  assert (ONE : forall ig r, F ig = Ok r ->
    map (fun r => let '(i, _, _, x) := r in (i, x)) r = map (fun x => (fst ig, x)) (match pts (snd ig) with [] => [] | _ => grps (snd ig) end) /\
    (forall i eu sf x, In (i, eu, sf, x) r ->
      In sf (concat (sfs i)) /\ (forall v, In v (concat (sfs i)) -> v <= sf)%R /\
      eu = (let '(e1, e2, e3) := euler_angles (ori (i_sel s)) in (e1 * 180 / PI, e2 * 180 / PI, e3 * 180 / PI)%R))).
  { intros [i g] r FE. cbn [F fst snd] in *. destruct (pts g) as [|l ls]; [injection FE as <-; split; easy|].
    apply map_res_inv in FE. induction FE as [|x y xs ys XY FE IH]; [split; easy|].
    destruct (concat (sfs i)) as [|a m] eqn:C; [discriminate|].
    destruct (euler_angles (ori (i_sel s))) as [[e1 e2] e3] eqn:EU. injection XY as <-.
    destruct IH as [I1 I2]. split; [cbn [map]; now rewrite I1|].
    intros j eu sf z [J|J]; [|exact (I2 _ _ _ _ J)]. injection J as <- <- <- <-.
    rewrite C. split; [|split; [|reflexivity]].
    - clear. revert a. induction m as [|b m IH]; intros a; [now left|]. cbn [fold_left].
      destruct (IH (Rmax a b)) as [Q|Q].
      + unfold Rmax in Q at 1. destruct (Rle_dec a b); [right; left|left]; exact Q.
      + right. now right.
    - assert (G : forall m a, (a <= fold_left Rmax m a)%R).
      { induction m0 as [|b m0 IH]; intros c; [cbn; lra|]. cbn [fold_left].
        eapply Rle_trans; [apply (Rmax_l c b)|apply IH]. }
      clear - G. revert a. induction m as [|b m IH]; intros a v [->|V]; [cbn; lra|easy| |].
      + apply G.
      + cbn [fold_left]. destruct V as [->|V]; [eapply Rle_trans; [apply (Rmax_r a v)|apply G]|].
        apply IH. now right. }
  induction E as [|ig r l rs FE E IH]; [split; easy|]. destruct (ONE ig r FE) as [O1 O2]. destruct IH as [I1 I2].
  cbn [concat map]. split.
  - now rewrite map_app, O1, I1.
  - intros i eu sf x I. apply in_app_or in I as [I|I]; [exact (O2 _ _ _ _ I)|exact (I2 _ _ _ _ I)].
Qed.
Print Assumptions C85_table_partial.

(** Rows of other grains show the Euler angles of the selected grain, not their own. *)
Theorem C85_table_refuted : exists ori sfs s rows i eu sf x,
  sta_rows ori sfs s = Ok rows /\ In (i, eu, sf, x) rows /\
  eu <> (let '(e1, e2, e3) := euler_angles (ori i) in (e1 * 180 / PI, e2 * 180 / PI, e3 * 180 / PI)%R).
Proof.
  set (g := mkGrain [mkLine [] 0 0 false] [new_group 0 0]).
  assert (E0 : exists a c, euler_angles (Q4 1 0 0 0) = (a, 0%R, c)).
  { unfold euler_angles. cbv zeta. replace (0 ^ 2 + 0 ^ 2)%R with 0%R by ring. rewrite Rmult_0_r, sqrt_0.
    destruct (Req_EM_T 0 0); [|congruence]. eexists. eexists. reflexivity. }
  assert (E1 : exists a c, euler_angles (Q4 0 1 0 0) = (a, PI, c)).
  { unfold euler_angles. cbv zeta. replace (0 ^ 2 + 0 ^ 2)%R with 0%R by ring. rewrite Rmult_0_l, sqrt_0.
    destruct (Req_EM_T 0 0); [|congruence]. destruct (Req_EM_T (1 ^ 2 + 0 ^ 2) 0); [exfalso; lra|].
    eexists. eexists. reflexivity. }
  destruct E0 as (a & c & E0). destruct E1 as (a' & c' & E1).
  set (ori := fun i : nat => if Nat.eqb i 0 then Q4 1 0 0 0 else Q4 0 1 0 0).
  change (Q4 1 0 0 0) with (ori 0%nat) in E0. change (Q4 0 1 0 0) with (ori 1%nat) in E1. clearbody ori.
  exists ori, (fun _ => [[1 / 2]]%R), (mkInsp 0 0 None None [g; g]).
  unfold sta_rows. cbn [i_sel i_grains List.length seq combine map_res g pts grps concat app bind]. rewrite E0. cbn [bind concat app].
  eexists. exists 1%nat. do 3 eexists. split; [reflexivity|]. split; [right; left; reflexivity|].
  rewrite E1. unfold rad2deg. intros E. injection E as _ E _. pose proof PI_RGT_0 as PP.
  replace (PI * 180 / PI)%R with 180%R in E by (field; lra). lra.
Qed.
Print Assumptions C85_table_refuted.

(** ** C86: navigation *)

Lemma step_length : forall e a s, List.length (i_grains (fst (step e a s))) = List.length (i_grains s).
Proof.
  intros e a s. destruct a as [p|p| |t| | | |t|t]; cbn [step]; auto.
  - destruct (i_p1 s), (i_p2 s); cbn [fst at_grain i_grains]; auto. apply change_nth_length.
  - destruct (py_int t); auto. destruct (del _ _); auto. rewrite redraw_grains. apply change_nth_length.
  - rewrite redraw_grains. apply change_nth_length.
  - now rewrite goto_grains.
  - now rewrite goto_grains.
  - destruct (py_int t); auto. now rewrite goto_grains.
  - destruct t; auto. destruct (py_int _); auto. destruct (calc_rdr _ _ _); auto. apply change_nth_length.
Qed.

Lemma redraw_ids : forall s, i_id (fst (redraw s)) = i_id s /\ i_sel (fst (redraw s)) = i_sel s.
Proof. intros. unfold redraw. destruct (shown s); auto. Qed.

Lemma goto_place : forall k s, snd (goto_grain k s) <> Some IndexError ->
  let s' := fst (goto_grain k s) in i_id s' = k /\ place (List.length (i_grains s)) k (i_sel s').
Proof.
  intros k s N. unfold goto_grain in *. destruct (np_index _ k) as [i|] eqn:E; [|now destruct N].
  cbv zeta. destruct (redraw_ids (mkInsp k (Z.to_nat i) (i_p1 s) (i_p2 s) (i_grains s))) as [-> ->]. cbn [i_id i_sel].
  split; auto. now apply place_iff in E.
Qed.

(** As long as no request went beyond the map, the id shown refers to the grain whose
    lines are edited. *)
Theorem C86_shown_partial : forall e acts n, (0 < n)%nat -> never_beyond e (opened n) acts ->
  let s := run e acts (opened n) in place n (i_id s) (i_sel s) /\ List.length (i_grains s) = n.
Proof.
  intros e acts n N NB.
  assert (G : forall acts s, never_beyond e s acts -> place n (i_id s) (i_sel s) -> List.length (i_grains s) = n ->
    let s' := run e acts s in place n (i_id s') (i_sel s') /\ List.length (i_grains s') = n).
  { clear acts NB. induction acts as [|a acts IH]; intros s NB P L; [split; auto|].
    cbn [never_beyond] in NB. destruct NB as [NB1 NB2]. change (run e (a :: acts) s) with (run e acts (fst (step e a s))).
    apply IH; auto; [|now rewrite step_length].
    destruct a as [p|p| |t| | | |t|t]; cbn [step goes_beyond] in *; auto.
    - destruct (i_p1 s), (i_p2 s); auto.
    - destruct (py_int t); auto. destruct (del _ _); auto.
      now destruct (redraw_ids (at_grain s (fun g => group_lines (e_traces e (i_sel s)) (mkGrain a0 (grps g))))) as [-> ->].
    - now destruct (redraw_ids (at_grain s (fun _ => mkGrain [] []))) as [-> ->].
    - destruct (goto_place (i_id s - 1) s NB1) as [E Q]. rewrite E. now rewrite L in Q.
    - destruct (goto_place (i_id s + 1) s NB1) as [E Q]. rewrite E. now rewrite L in Q.
    - destruct (py_int t) as [k|]; auto. destruct (goto_place k s NB1) as [E Q]. rewrite E. now rewrite L in Q.
    - destruct t; auto. destruct (py_int _); auto. destruct (calc_rdr _ _ _); auto. }
  apply G; auto.
  - unfold place. cbn. lia.
  - apply repeat_length.
Qed.
Print Assumptions C86_shown_partial.

Example C86_shown_met :
  never_beyond ex_env (opened 3) [ANext; APrev; APrev; AGoto (lit " 2 ")] /\
  i_sel (run ex_env [ANext; APrev; APrev] (opened 3)) = 2%nat.
Proof. split; [|reflexivity]. repeat split; intros X; discriminate X. Qed.

(** Asking for the next, the previous or a given grain on the map goes there (the drawing always
    ends in a [TypeError], see C111). *)
Theorem C86_moves : forall e s a k j,
  match a with APrev => k = i_id s - 1 | ANext => k = i_id s + 1 | AGoto t => py_int t = Ok k | _ => False end ->
  place (List.length (i_grains s)) k j ->
  i_id (fst (step e a s)) = k /\ i_sel (fst (step e a s)) = j /\ snd (step e a s) = Some TypeError.
Proof.
  intros e s a k j A P.
  assert (I : np_index (Z.of_nat (List.length (i_grains s))) k = Some (Z.of_nat j)).
  { apply place_iff. rewrite Nat2Z.id. split; [exact P|lia]. }
  assert (GG : i_id (fst (goto_grain k s)) = k /\ i_sel (fst (goto_grain k s)) = j /\ snd (goto_grain k s) = Some TypeError).
  { unfold goto_grain. rewrite I. unfold redraw, shown. cbn [i_id i_grains]. rewrite I. cbn [fst snd i_id i_sel].
    now rewrite Nat2Z.id. }
  destruct a; try easy; cbn [step]; [now rewrite <- A|now rewrite <- A|now rewrite A].
Qed.
Print Assumptions C86_moves.
Example C86_moves_met : place (List.length (i_grains (opened 3))) (i_id (opened 3) - 1) 2.
Proof. split; [cbn; lia|right; reflexivity]. Qed.

(** Beyond the last grain the id moves on but the selected grain does not: a line is then
    saved to the old grain while drawing fails, and one press of "Previous Grain" does
    not go back. *)
Theorem C86_beyond_refuted : exists e s, s = run e [ANext] (opened 1) /\
  i_id s = 1 /\ i_sel s = 0%nat /\ ~ place 1 (i_id s) (i_sel s) /\
  snd (step e AClear s) = Some IndexError /\
  i_id (run e [ANext; ANext; APrev] (opened 1)) = 1 /\ snd (step e APrev (run e [ANext; ANext] (opened 1))) = Some IndexError.
Proof.
  exists ex_env. eexists. split; [reflexivity|]. split; [reflexivity|]. split; [reflexivity|].
  split; [|split; [|split]; reflexivity]. intros [_ [H|H]]; discriminate H.
Qed.
Print Assumptions C86_beyond_refuted.
