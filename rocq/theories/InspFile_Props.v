(** C64: the inspector's file. *)
From Coq Require Import String Ascii Reals.
From Coq Require Import List ZArith Bool Lia Lra.
Import ListNotations.
From Verif Require Import Py Grid Crystal_Model CrystalMat_Proofs Text_Model Text_Proofs Insp_Model Insp_Spec Insp_Proofs InspHist_Proofs InspDraw_Proofs
  InspFile_Model InspFile_Spec InspFile_Proofs.
Open Scope Z_scope.

(** Every list of integers and floats, nested to any depth, is read back from its text:
    numpy numbers as Python's. *)
Theorem C64_value : forall np v, printable np v -> literal_eval (repr np v) = Ok (plain v).
Proof. exact literal_repr. Qed.
Print Assumptions C64_value.

Example C64_value_met :
  let v := VList [VList [VFlt (mkFlt true 1234 (-2)); VFlt (mkFlt false 5 17); VFlt (mkFlt false 125 (-9))]; VNpInt (-7); VList []] in
  printable false v /\ repr false v = lit "[[-12.34, 5e+17, 1.25e-07], -7, []]".
Proof.
  cbv zeta. split; [|vm_compute; reflexivity]. cbn [printable]. unfold shortest. cbn [f_man f_exp].
  repeat split; try (right; split; [lia|vm_compute; discriminate]).
Qed.

(** Loading what was saved adds to each grain the lines and groups saved for it, in
    order, and raises nothing. *)
Theorem C64_load : forall np gl gs0, List.length gs0 = List.length gl ->
  (forall g v, In g gl -> In v (points_list g ++ groups_list g) -> printable np v) ->
  snd (load_file (save_file np gl) gs0) = None /\
  List.length (fst (load_file (save_file np gl) gs0)) = List.length gl /\
  forall i g0 g, nth_error gs0 i = Some g0 -> nth_error gl i = Some g ->
    nth_error (fst (load_file (save_file np gl) gs0)) i = Some (added g0 g).
Proof.
  intros np gl gs0 L P. rewrite (load_save np); [cbn [fst snd]| |exact L].
  - split; [reflexivity|]. split; [rewrite map_length, combine_length; lia|]. intros i g0 g G0 G.
    assert (C : forall i (a : list lists) b, nth_error a i = Some g0 -> nth_error b i = Some g -> nth_error (combine a b) i = Some (g0, g)).
    { clear. induction i as [|i IH]; intros [|x a] [|y b] A B; try discriminate; cbn [nth_error combine] in *; [congruence|auto]. }
    now rewrite nth_error_map, (C i gs0 gl G0 G).
  - apply Forall_forall. intros g G. split; apply Forall_forall; intros v V; apply (P g v G); apply in_or_app; auto.
Qed.
Print Assumptions C64_load.

(** After any events, with numpy 1, or with numpy 2 if no line joined another's group
    and no ratio was calculated: loading the saved file into an inspector without lines
    restores every line and group of every grain. *)
Theorem C64_history_partial : forall np rep e acts n,
  (forall g x r, In g (i_grains (run e acts (opened n))) -> In x (grps g) -> g_rdr x = Some r -> printable np (rep r)) ->
  (np = false \/ forall g l, In g (i_grains (run e acts (opened n))) -> In l (pts g) -> l_np l = false) ->
  load_file (save_file np (map (grain_lists rep) (i_grains (run e acts (opened n))))) (repeat no_lists n) =
  (map (restored rep) (i_grains (run e acts (opened n))), None).
Proof.
  intros np rep e acts n R NP. set (gs := i_grains (run e acts (opened n))) in *.
  assert (LEN : List.length gs = n).
  { unfold gs, run. assert (G : forall acts s, List.length (i_grains (fold_left (fun s a => fst (step e a s)) acts s)) = List.length (i_grains s)).
    { clear. induction acts as [|a acts IH]; intros s; [reflexivity|]. cbn [fold_left]. rewrite IH.
      destruct a as [p|p| |t| | | |t|t]; cbn [step]; auto.
      - destruct (i_p1 s), (i_p2 s); cbn [fst at_grain i_grains]; auto. apply change_nth_length.
      - destruct (py_int t); auto. destruct (del _ _); auto. rewrite redraw_grains. apply change_nth_length.
      - rewrite redraw_grains. apply change_nth_length.
      - now rewrite goto_grains.
      - now rewrite goto_grains.
      - destruct (py_int t); auto. now rewrite goto_grains.
      - destruct t; auto. destruct (py_int _); auto. destruct (calc_rdr _ _ _); auto. apply change_nth_length. }
    rewrite G. apply repeat_length. }
  assert (NUM : forall g, In g gs -> pts g = [] -> grps g = []).
  { intros g G E. apply In_nth_error in G as (i & G). destruct (numbered_run e acts n i g G) as ((_ & _ & W) & _).
    destruct (grps g) as [|x xs]; [reflexivity|]. destruct (W 0) as (l & L & _); [cbn [List.length]; lia|]. rewrite E in L. easy. }
  rewrite load_save.
  - f_equal. rewrite <- LEN. clear LEN NP R. induction gs as [|g gs IH]; [reflexivity|]. cbn [List.length repeat map combine fst snd].
    rewrite IH by (intros; apply NUM; [now right|assumption]). f_equal. unfold added, restored, grain_lists. cbn [points_list groups_list].
    destruct (pts g) as [|l ls] eqn:E.
    + cbn [map]. rewrite (NUM g (or_introl eq_refl) E). reflexivity.
    + cbn [no_lists points_list groups_list app]. rewrite !map_map. reflexivity.
  - apply Forall_forall. intros x X. apply in_map_iff in X as (g & <- & G). unfold saved_ok, grain_lists. cbn [points_list groups_list].
    split; rewrite Forall_map; apply Forall_forall.
    + intros l L. unfold line_val. apply printable_list. apply Forall_cons; [|apply Forall_cons; [|apply Forall_cons; [|apply Forall_nil]]].
      * apply printable_list. rewrite Forall_map. apply Forall_forall. intros z _. apply cents_printable.
      * apply cents_printable.
      * destruct (l_np l) eqn:Q; [|exact I]. destruct NP as [->|NP]; [reflexivity|]. rewrite (NP g l G L) in Q. discriminate.
    + intros x X. unfold group_val. apply printable_list. apply Forall_cons; [exact I|apply Forall_cons; [|apply Forall_cons; [|apply Forall_cons; [|apply Forall_cons; [|apply Forall_nil]]]]].
      * apply cents_printable.
      * apply printable_list. rewrite Forall_map. apply Forall_forall. intros z _. exact I.
      * apply printable_list. rewrite Forall_map. apply Forall_forall. intros z _. apply cents_printable.
      * destruct (g_rdr x) as [r|] eqn:Q; [exact (R g x r G X Q)|exact I].
  - now rewrite repeat_length, map_length.
Qed.
Print Assumptions C64_history_partial.

(** The number restored for n hundredths is n/100. *)
Theorem C64_number : forall z, exists f, cents z = VFlt f /\ shortest f /\ flt_R f = (IZR z / 100)%R.
Proof. exact cents_value. Qed.
Lemma cents_inj : forall a b, cents a = cents b -> a = b.
Proof.
  intros a b E. destruct (cents_value a) as (f & Fa & _ & Va). destruct (cents_value b) as (g & Fb & _ & Vb).
  rewrite Fa, Fb in E. injection E as <-. rewrite Va in Vb. apply eq_IZR. lra.
Qed.
Lemma cents_list_inj : forall a b, map plain (map cents a) = map plain (map cents b) -> a = b.
Proof.
  induction a as [|x a IH]; intros [|y b] E; try discriminate; auto. cbn [map] in E. rewrite !cents_plain in E.
  f_equal; [apply cents_inj; congruence|apply IH; congruence].
Qed.
(** What is restored determines the ends, angle and group of a line, and the number,
    angle, planes, deviations and calculated ratio of a group. *)
Theorem C64_determined :
  (forall l m, plain (line_val l) = plain (line_val m) -> l_pts l = l_pts m /\ l_ang l = l_ang m /\ l_grp l = l_grp m) /\
  (forall rep x y, plain (group_val rep x) = plain (group_val rep y) ->
     g_id x = g_id y /\ g_ang x = g_ang y /\ g_planes x = g_planes y /\ g_dev x = g_dev y /\
     ((forall r, plain (rep r) <> VInt 0) ->
        option_map (fun r => plain (rep r)) (g_rdr x) = option_map (fun r => plain (rep r)) (g_rdr y))).
Proof.
  split.
  - intros l m H. unfold line_val in H. cbn [plain map] in H.
    assert (P : map plain (map cents (l_pts l)) = map plain (map cents (l_pts m))) by congruence.
    assert (A : cents (l_ang l) = cents (l_ang m)) by (rewrite <- (cents_plain (l_ang l)), <- (cents_plain (l_ang m)); congruence).
    assert (G : plain (if l_np l then VNpInt (l_grp l) else VInt (l_grp l)) = plain (if l_np m then VNpInt (l_grp m) else VInt (l_grp m))) by congruence.
    clear H. split; [now apply cents_list_inj|]. split; [now apply cents_inj|].
    destruct (l_np l), (l_np m); cbn [plain] in G; congruence.
  - intros rep x y H. unfold group_val in H. cbn [plain map] in H.
    assert (A : cents (g_ang x) = cents (g_ang y)) by (rewrite <- (cents_plain (g_ang x)), <- (cents_plain (g_ang y)); congruence).
    assert (P : map plain (map VInt (g_planes x)) = map plain (map VInt (g_planes y))) by congruence.
    assert (D : map plain (map cents (g_dev x)) = map plain (map cents (g_dev y))) by congruence.
    assert (I : g_id x = g_id y) by congruence.
    assert (Q : plain (match g_rdr x with None => VInt 0 | Some r => rep r end) = plain (match g_rdr y with None => VInt 0 | Some r => rep r end)) by congruence.
    clear H. split; [exact I|]. split; [now apply cents_inj|].
    split; [|split; [now apply cents_list_inj|]].
    2:{ intros Z. destruct (g_rdr x) as [r|], (g_rdr y) as [r'|]; cbn [option_map]; [now rewrite Q| | |reflexivity].
        - now apply Z in Q.
        - symmetry in Q. now apply Z in Q. } revert P. generalize (g_planes x) (g_planes y). clear.
    induction l as [|a l IH]; intros [|b m] E; try discriminate; auto. cbn [map plain] in E. f_equal; [congruence|apply IH; congruence].
Qed.
Print Assumptions C64_determined.

(** Two lines drawn along the y axis. *)
Definition two_lines : list action := draws [((0, 0), (0, 1 / 2))%R; ((0, 0), (0, 1 / 2))%R].
Definition plain_env : env := mkEnv 0 (fun _ => []) (fun _ => mkRdr 1 1 (fun _ => 0%R) (fun _ => 0%R) (0, 0) 3 (fun x y _ _ => [(x, y)])).
Lemma two_lines_drawn : i_grains (run plain_env two_lines (opened 1)) =
  [mkGrain [mkLine [0; 0; 0; 50] 0 0 false; mkLine [0; 0; 0; 50] 0 0 true] [new_group 0 0]].
Proof.
  destruct (draws_grain plain_env [((0, 0), (0, 1 / 2))%R; ((0, 0), (0, 1 / 2))%R] (opened 1) (mkGrain [] []) eq_refl) as (E & _).
  fold two_lines in E. cbn [fold_left fst snd e_corr e_traces plain_env] in E.
  assert (A : saved_line 0 (0, 0)%R (0, 1 / 2)%R = mkLine [0; 0; 0; 50] 0 (-1) false).
  { unfold saved_line. rewrite drawn_up by (cbn [fst snd]; lra). cbn [map fst snd]. rewrite Rminus_0_r. unfold hundredths.
    rewrite Rmult_0_l. replace (1 / 2 * 100)%R with (IZR 50) by lra. rewrite !rint_int. reflexivity. }
  rewrite A in E. assert (L : List.length (i_grains (run plain_env two_lines (opened 1))) = 1%nat) by reflexivity.
  change (i_sel (opened 1)) with 0%nat in E.
  destruct (i_grains (run plain_env two_lines (opened 1))) as [|g [|]]; try discriminate L. cbn [nth_error] in E. injection E as ->. reflexivity.
Qed.

Example C64_history_met : forall rep,
  load_file (save_file false (map (grain_lists rep) (i_grains (run plain_env two_lines (opened 1))))) (repeat no_lists 1) =
  (map (restored rep) (i_grains (run plain_env two_lines (opened 1))), None) /\
  save_file false (map (grain_lists rep) (i_grains (run plain_env two_lines (opened 1)))) <> save_file false (map (grain_lists rep) (i_grains (opened 1))).
Proof.
  intros rep. split.
  - apply C64_history_partial; [|now left]. rewrite two_lines_drawn. intros g x r [<-|[]] [<-|[]] X. discriminate X.
  - rewrite two_lines_drawn. vm_compute. discriminate.
Qed.

(** With numpy 2 the file of these two lines is not read: the second line's group
    number is written as np.int64(0).  The first line is added before the error. *)
Theorem C64_numpy2_refuted : forall rep, exists gs,
  load_file (save_file true (map (grain_lists rep) (i_grains (run plain_env two_lines (opened 1))))) (repeat no_lists 1) = (gs, Some ValueError) /\
  map (fun g => (List.length (points_list g), List.length (groups_list g))) gs = [(1%nat, 0%nat)].
Proof. intros rep. rewrite two_lines_drawn. eexists. split; vm_compute; reflexivity. Qed.
Print Assumptions C64_numpy2_refuted.

(** A ratio that is nan is not read, with any numpy. *)
Theorem C64_nan_refuted : forall np,
  literal_eval (repr np (VList [VInt 0; cents 4500; VList []; VList []; VNpNan])) = Err ValueError.
Proof. intros [|]; vm_compute; reflexivity. Qed.
Print Assumptions C64_nan_refuted.

(** Loading does not replace the lines present: saved and loaded in one session, every
    line is there twice. *)
Theorem C64_twice_refuted : forall np gl, (forall g v, In g gl -> In v (points_list g ++ groups_list g) -> printable np v) ->
  forall i g, nth_error gl i = Some g -> points_list g <> [] ->
  exists g', nth_error (fst (load_file (save_file np gl) gl)) i = Some g' /\
    points_list g' = points_list g ++ map plain (points_list g) /\ groups_list g' = groups_list g ++ map plain (groups_list g).
Proof.
  intros np gl P i g G N. destruct (C64_load np gl gl eq_refl P) as (_ & _ & H). exists (added g g). split; [now apply H|].
  unfold added. destruct (points_list g) eqn:E; [easy|]. split; reflexivity.
Qed.
Print Assumptions C64_twice_refuted.
