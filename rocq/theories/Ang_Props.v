(** C91: EDAX text files.  C92: maps given as dictionaries. *)
From Coq Require Import String Ascii Reals Lra.
From Coq Require Import List ZArith Bool Lia.
Import ListNotations.
From Verif Require Import Py Grid Grid_Lemmas Crystal_Model CrystalMat_Proofs CrystalData_Proofs
  Text_Model Text_Proofs Ctf_Model Ctf_Spec Ctf_Proofs Io_Model Ang_Model Ang_Spec Ang_Proofs.
Open Scope Z_scope.

(** With numpy before 1.23, a file is loaded as the map it says. *)
Theorem C91_load_partial : forall conv k m, known_conv conv -> (3 <= k)%nat -> good_ang m ->
  exists g, load_ang true conv (ang_text k m) = Ok g /\
    g_shape g = (ai_rows m, ai_cols m) /\ rounded k (ai_step m) (g_step g) /\
    Forall2 (phase_read k) (ai_phases m) (g_phases g) /\ g_vmax g = Z.of_nat (List.length (ai_phases m)) /\
    holds k m (ai_iq m) (g_iq g) /\ holds k m (ai_ci m) (g_ci g) /\
    forall x y, 0 <= x < ai_cols m -> 0 <= y < ai_rows m ->
      at_pixel (g_phase g) (ai_cols m) x y = Some (ai_ph m (x, y) + 1) /\
      exists e1 e2 e3, at_pixel (g_euler g) (ai_cols m) x y = Some (e1, e2, e3) /\
        turned k (ai_e1 m (x, y)) e1 /\ rounded k (ai_e2 m (x, y)) e2 /\ rounded k (ai_e3 m (x, y)) e3.
Proof.
  intros conv k m KC K (O & W & PH). destruct (ang_loaded conv k m KC K O) as (os & FO & E).
  eexists. split; [exact E|]. unfold ang_out. cbn [g_shape g_step g_phases g_vmax g_iq g_ci g_phase g_euler].
  split; [reflexivity|]. split; [apply fixed_rounded|]. split; [now apply made_read|].
  split; [clear E; induction FO; cbn [List.length] in *; auto; rewrite !Nat2Z.inj_succ; f_equal; apply IHFO; auto using in_cons|].
  split; [intros x y X Y; rewrite at_all_pix by auto; eexists; split; [reflexivity|apply fixed_rounded]|].
  split; [intros x y X Y; rewrite at_all_pix by auto; eexists; split; [reflexivity|apply fixed_rounded]|].
  intros x y X Y. rewrite !at_all_pix by auto. destruct O as (_ & _ & _ & _ & PX).
  assert (I : inside (ai_cols m) (ai_rows m) (x, y)) by (unfold inside; cbn; lia).
  specialize (PX _ I). specialize (PH _ I). rewrite Z.mod_small by lia. split; [reflexivity|].
  do 3 eexists. split; [reflexivity|]. split; [apply shift_turned|]. split; apply fixed_rounded.
Qed.
Print Assumptions C91_load_partial.

(** A readable file always loads; of the name of a phase only the first word is kept, and the
    number 255 becomes 0, which is "not indexed". *)
Theorem C91_readable : forall conv k m, known_conv conv -> (3 <= k)%nat -> ok_ang m ->
  exists g, load_ang true conv (ang_text k m) = Ok g /\
    Forall2 (fun p o => exists ws, words (ai_name p) = po_name o :: ws) (ai_phases m) (g_phases g) /\
    forall x y, 0 <= x < ai_cols m -> 0 <= y < ai_rows m ->
      at_pixel (g_phase g) (ai_cols m) x y = Some (if ai_ph m (x, y) =? 255 then 0 else ai_ph m (x, y) + 1).
Proof.
  intros conv k m KC K O. destruct (ang_loaded conv k m KC K O) as (os & FO & E).
  eexists. split; [exact E|]. unfold ang_out. cbn [g_phases g_phase]. split.
  - clear E. induction FO as [|p o ps os' [H _]]; constructor; auto.
  - intros x y X Y. rewrite at_all_pix by auto. destruct O as (_ & _ & _ & _ & PX).
    assert (I : inside (ai_cols m) (ai_rows m) (x, y)) by (unfold inside; cbn; lia). specialize (PX _ I).
    f_equal. destruct (Z.eqb_spec (ai_ph m (x, y)) 255) as [->|N]; [reflexivity|]. apply Z.mod_small. lia.
Qed.
Print Assumptions C91_readable.

(** Example: a 1 x 2 map of nickel and titanium. *)
Definition ex_extra : list txt := [hline [lit "NumberFamilies"; lit "4"]].
Definition ex_ang (name : txt) (last : Z) : ang_in :=
  AngIn 1 2 (1 / 2)%R
    [AngPhaseIn name (lit "43") (35 / 10, 35 / 10, 35 / 10)%R (90, 90, 90)%R ex_extra;
     AngPhaseIn (lit "Ti") (lit "6/mmm") (295 / 100, 295 / 100, 468 / 100)%R (90, 90, 120)%R []]
    [hline [lit "TEM_PIXperUM"; lit "1.000000"]] [lit "#"; hline [lit "OPERATOR:"; lit "edax"]]
    (fun p => IZR (fst p) * 2)%R (fun _ => 1%R) (fun _ => 0%R) (fun _ => 100%R) (fun _ => (1 / 2)%R)
    (fun p => if fst p =? 0 then 0 else last) (fun _ => 7%R) (fun _ => 1%R).
Lemma ex_ok name last w ws : words name = w :: ws -> ~ In LF name -> 0 <= last <= 255 -> ok_ang (ex_ang name last).
Proof.
  intros W L B. split; [cbn; lia|]. split; [cbn; lia|]. split; [|split].
  - intros p [<-|[<-|[]]].
    + split; [exists w, ws; exact W|]. split; [left; reflexivity|]. split; [exact L|]. intros l [<-|[]].
      split; [cbn; intuition discriminate|]. do 3 eexists. split; [reflexivity|]. split; [reflexivity|]. cbn. intuition discriminate.
    + split; [exists (lit "Ti"), []; reflexivity|]. split; [|split; [cbn; intuition discriminate|intros l []]].
      right. right. split; [reflexivity|]. cbn [ai_lengths]. lra.
  - intros l [<-|[<-|[<-|[]]]]; (split; [cbn; intuition discriminate|]; split; [eexists; reflexivity|];
      intros k I; repeat (destruct I as [<-|I]; [reflexivity|]); destruct I).
  - intros [x y] _. cbn [ai_ph ex_ang fst]. destruct (x =? 0); lia.
Qed.
Example C91_ex : good_ang (ex_ang (lit "Ni") 1) /\ known_conv "tsl".
Proof.
  split; [|right; right; reflexivity]. split; [apply (ex_ok _ _ (lit "Ni") []); [reflexivity|cbn; intuition discriminate|lia]|]. split.
  - intros p [<-|[<-|[]]]; (split; [discriminate|]; intros a I; cbn in I; intuition (subst; reflexivity)).
  - intros [x y] _. cbn [ai_ph ex_ang fst]. destruct (x =? 0); lia.
Qed.

(** The full statement fails: with numpy 1.23 or later no file loads; *)
Theorem C91_numpy_refuted : forall conv t g, load_ang false conv t <> Ok g.
Proof.
  intros conv t g. unfold load_ang. destruct (ang_header _ _ _ _) as [h|]; [|discriminate]. cbn [bind].
  destruct (n_y h); [|discriminate]. destruct (n_x h); discriminate.
Qed.
Theorem C91_numpy_error : forall conv k m, known_conv conv -> (3 <= k)%nat -> ok_ang m ->
  load_ang false conv (ang_text k m) = Err TypeError.
Proof.
  intros conv k m KC K O. destruct (header_read_ang conv k m _ KC K O (data_start k m)) as (os & _ & H).
  unfold load_ang. rewrite ang_text_lines by auto. unfold head in H. rewrite H. reflexivity.
Qed.
Print Assumptions C91_numpy_refuted.

(** the fit factor of the map is the detector signal of the file; *)
Theorem C91_fit_partial : forall conv k m g, known_conv conv -> (3 <= k)%nat -> ok_ang m ->
  load_ang true conv (ang_text k m) = Ok g -> holds k m (ai_sem m) (g_ff g).
Proof.
  intros conv k m g KC K O L. destruct (ang_loaded conv k m KC K O) as (os & _ & E). rewrite E in L. injection L as <-.
  intros x y X Y. unfold ang_out. cbn [g_ff]. rewrite at_all_pix by auto. eexists. split; [reflexivity|apply fixed_rounded].
Qed.
Theorem C91_fit_refuted : exists m, good_ang m /\ forall conv k, known_conv conv -> (3 <= k)%nat ->
  exists g, load_ang true conv (ang_text k m) = Ok g /\ ~ holds k m (ai_fit m) (g_ff g).
Proof.
  exists (ex_ang (lit "Ni") 1). split; [apply C91_ex|]. intros conv k KC K.
  destruct (C91_load_partial conv k _ KC K (proj1 C91_ex)) as (g & E & _). exists g. split; auto.
  intros H. destruct (H 0 0) as (v & V & (_ & C)); [cbn; lia..|].
  destruct (C91_fit_partial conv k _ g KC K (proj1 (proj1 C91_ex)) E 0 0) as (v' & V' & (_ & C')); [cbn; lia..|].
  rewrite V in V'. injection V' as <-. cbn [ai_fit ai_sem ex_ang] in C, C'.
  assert (P : (1 <= 10 ^ k)%R) by (apply pow_R1_Rle; lra).
  assert (I : (/ 10 ^ k <= 1)%R) by (rewrite <- Rinv_1; apply Rinv_le_contravar; lra).
  unfold Rabs in C, C'. destruct (Rcase_abs _) in C; destruct (Rcase_abs _) in C'; unfold Rdiv in *; lra.
Qed.
Print Assumptions C91_fit_refuted.

(** a name of two words is cut; the phase number 255 becomes 0. *)
Theorem C91_name_refuted : exists m, ok_ang m /\ forall conv k, known_conv conv -> (3 <= k)%nat ->
  exists g o os, load_ang true conv (ang_text k m) = Ok g /\ g_phases g = o :: os /\
    po_name o = lit "Nickel" /\ exists p ps, ai_phases m = p :: ps /\ ai_name p = lit "Nickel superalloy".
Proof.
  assert (O : ok_ang (ex_ang (lit "Nickel superalloy") 1)).
  { apply (ex_ok _ _ (lit "Nickel") [lit "superalloy"]); [reflexivity|cbn; intuition discriminate|lia]. }
  exists (ex_ang (lit "Nickel superalloy") 1). split; auto. intros conv k KC K.
  destruct (C91_readable conv k _ KC K O) as (g & E & F & _). cbn [ai_phases ex_ang] in F.
  inversion F as [|p o ps os (ws & W) F' A B]; subst. exists g, o, os. split; auto. split; [now symmetry|].
  split; [|do 2 eexists; split; reflexivity].
  cbn [ai_name] in W. replace (words (lit "Nickel superalloy")) with [lit "Nickel"; lit "superalloy"] in W by reflexivity.
  injection W as W _. now symmetry.
Qed.
Theorem C91_255_refuted : exists m, ok_ang m /\ ai_ph m (1, 0) = 255 /\ forall conv k, known_conv conv -> (3 <= k)%nat ->
  exists g, load_ang true conv (ang_text k m) = Ok g /\ at_pixel (g_phase g) (ai_cols m) 1 0 = Some 0.
Proof.
  assert (O : ok_ang (ex_ang (lit "Ni") 255)) by (apply (ex_ok _ _ (lit "Ni") []); [reflexivity|cbn; intuition discriminate|lia]).
  exists (ex_ang (lit "Ni") 255). split; auto. split; [reflexivity|]. intros conv k KC K.
  destruct (C91_readable conv k _ KC K O) as (g & E & _ & H). exists g. split; auto. apply (H 1 0); cbn; lia.
Qed.
Print Assumptions C91_name_refuted.

(** Errors: phases out of order, a grid that is not square, an unknown point group, no
    dimensions, no file. *)
Lemma load_head_err old conv ls e : (forall l, In l ls -> ~ In LF l) -> head conv ang_hdr0 ls = Err e ->
  load_ang old conv (unlines ls) = Err e.
Proof. intros F E. unfold load_ang. rewrite lines_unlines by auto. unfold head in E. now rewrite E. Qed.
Lemma head_front conv k before ps rest : known_conv conv -> (3 <= k)%nat ->
  (forall l, In l before -> neutral l) -> (forall p, In p ps -> ok_phase p) ->
  exists h, n_phase h = 1 + Z.of_nat (List.length ps) /\ n_x h = None /\ n_y h = None /\
    head conv ang_hdr0 (before ++ phase_blocks k 1 ps ++ rest) = head conv h rest.
Proof.
  intros KC K N P. destruct (head_blocks conv k ps KC K P) as (os & _ & B). eexists.
  rewrite head_neutrals by auto. change 1 with (n_phase ang_hdr0) at 2. rewrite B.
  repeat split; reflexivity.
Qed.
Theorem C91_order : forall old conv k before ps n rest, known_conv conv -> (3 <= k)%nat ->
  (forall l, In l before -> neutral l) -> (forall p, In p ps -> ok_phase p) -> (forall l, In l rest -> ~ In LF l) ->
  n <> 1 + Z.of_nat (List.length ps) ->
  load_ang old conv (unlines (before ++ phase_blocks k 1 ps ++ hline [lit "Phase"; fmt_int n] :: rest)) = Err ValueError.
Proof.
  intros old conv k before ps n rest KC K N P R D. apply load_head_err.
  - intros l I. apply in_app_or in I as [I|I]; [apply (N l I)|]. apply in_app_or in I as [I|[<-|I]]; auto.
    + eapply blocks_line; eauto.
    + apply hline_no_LF. intros w [<-|[<-|[]]]; apply word_no_LF; [lit_word|apply one_int].
  - destruct (head_front conv k before ps (hline [lit "Phase"; fmt_int n] :: rest) KC K N P) as (h & H & _ & _ & ->).
    rewrite start_phase, H. destruct (Z.eqb_spec n (1 + Z.of_nat (List.length ps))); [contradiction|reflexivity].
Qed.
Theorem C91_grid : forall old conv k before ps w rest, known_conv conv -> (3 <= k)%nat ->
  (forall l, In l before -> neutral l) -> (forall p, In p ps -> ok_phase p) -> (forall l, In l rest -> ~ In LF l) ->
  one_word w -> w <> lit "SqrGrid" ->
  load_ang old conv (unlines (before ++ phase_blocks k 1 ps ++ hline [lit "GRID:"; w] :: rest)) = Err ValueError.
Proof.
  intros old conv k before ps w rest KC K N P R O D. apply load_head_err.
  - intros l I. apply in_app_or in I as [I|I]; [apply (N l I)|]. apply in_app_or in I as [I|[<-|I]]; auto.
    + eapply blocks_line; eauto.
    + apply hline_no_LF. intros x [<-|[<-|[]]]; apply word_no_LF; [lit_word|auto].
  - destruct (head_front conv k before ps (hline [lit "GRID:"; w] :: rest) KC K N P) as (h & _ & _ & _ & ->).
    now apply line_grid_bad.
Qed.
Theorem C91_symmetry : forall old conv k before ps p rest, known_conv conv -> (3 <= k)%nat ->
  (forall l, In l before -> neutral l) -> (forall q, In q ps -> ok_phase q) -> (forall l, In l rest -> ~ In LF l) ->
  one_word (ai_name p) -> one_word (ai_group p) -> ~ In (ai_group p) [lit "43"; lit "m3m"; lit "6/mmm"] ->
  (forall l, In l (ai_extra p) -> neutral_in_phase l) ->
  load_ang old conv (unlines (before ++ phase_blocks k 1 ps ++ phase_block k (1 + Z.of_nat (List.length ps)) p ++ rest)) = Err ValueError.
Proof.
  intros old conv k before ps p rest KC K N P R ON OG D X. apply load_head_err.
  - intros l I. apply in_app_or in I as [I|I]; [apply (N l I)|]. apply in_app_or in I as [I|I].
    + eapply blocks_line; eauto.
    + apply in_app_or in I as [I|I]; auto. rewrite block_eq in I.
      destruct I as [<-|I]; [apply hline_no_LF; intros x [<-|[<-|[]]]; apply word_no_LF; [lit_word|apply one_int]|].
      apply in_app_or in I as [I|[<-|[]]]; [|cbn; intuition discriminate].
      unfold body in I. destruct (ai_lengths p) as [[a b] c], (ai_angles p) as [[al be] ga]. apply in_app_or in I as [I|I].
      * destruct I as [<-|[<-|[<-|[]]]]; apply hline_no_LF; intros x J; apply word_no_LF.
        -- destruct J as [<-|[<-|[]]]; [lit_word|auto].
        -- destruct J as [<-|[<-|[]]]; [lit_word|auto].
        -- destruct J as [<-|J]; [lit_word|]. repeat (destruct J as [<-|J]; [apply one_fixed|]). destruct J.
      * destruct (X l I) as (L & _). exact L.
  - destruct (head_front conv k before ps (phase_block k (1 + Z.of_nat (List.length ps)) p ++ rest) KC K N P) as (h & H & _ & _ & ->).
    rewrite <- H. apply (head_bad_block conv h k p ValueError (ai_name p) []); auto.
    + destruct ON. now apply words_one.
    + apply (phase_unmade conv k p (ai_name p) []); auto. destruct ON. now apply words_one.
Qed.
Theorem C91_dimensions : forall old conv k before ps rest, known_conv conv -> (3 <= k)%nat ->
  (forall l, In l before -> neutral l) -> (forall p, In p ps -> ok_phase p) -> (forall l, In l rest -> ~ In LF l) ->
  (forall l r, rest = l :: r -> forall t, l <> "#"%char :: t) ->
  load_ang old conv (unlines (before ++ phase_blocks k 1 ps ++ rest)) = Err UnboundLocalError.
Proof.
  intros old conv k before ps rest KC K N P R S. unfold load_ang. rewrite lines_unlines.
  - destruct (head_front conv k before ps rest KC K N P) as (h & _ & X & Y & E). unfold head at 1 in E. rewrite E.
    rewrite head_end; [cbn [bind]; now rewrite X, Y|]. intros l r ->. destruct (starts_with (lit "#") l) eqn:W; auto.
    apply starts_iff in W as (t & ->). exfalso. eapply S; reflexivity.
  - intros l I. apply in_app_or in I as [I|I]; [apply (N l I)|]. apply in_app_or in I as [I|I]; auto. eapply blocks_line; eauto.
Qed.
Theorem C91_missing : forall old conv fs path, fs path = None -> ang_load old conv fs path = Err FileNotFoundError.
Proof. intros old conv fs path N. unfold ang_load. now rewrite N. Qed.
Example C91_errors_ex : neutral (hline [lit "TEM_PIXperUM"; lit "1.000000"]) /\ one_word (lit "HexGrid") /\
  ok_phase (AngPhaseIn (lit "Ni") (lit "m3m") (1, 1, 1)%R (90, 90, 90)%R []) /\ ~ In (lit "4/mmm") [lit "43"; lit "m3m"; lit "6/mmm"].
Proof.
  split; [|split; [lit_word|split; [|cbn; intuition discriminate]]].
  - split; [cbn; intuition discriminate|]. split; [eexists; reflexivity|]. intros k I.
    repeat (destruct I as [<-|I]; [reflexivity|]); destruct I.
  - split; [exists (lit "Ni"), []; reflexivity|]. split; [right; left; reflexivity|]. split; [cbn; intuition discriminate|intros l []].
Qed.
Print Assumptions C91_symmetry.

(** ** C92 *)
(** A dictionary is accepted if the five keys are there, the phases are a list of phases and
    there are three Euler angles for each phase number; the map holds what was given. *)
Theorem C92_load : forall A (d : data_dict A) m, load_dict d = Ok m <->
  exists shape ph step bc eu n, d_phase d = Some (shape, ph) /\ d_step d = Some step /\ d_bc d = Some bc /\
    d_euler d = Some (3 :: shape, eu) /\ d_phases d = Some (Some (repeat true n)) /\
    m = DictMap shape step (repeat true n) (Z.of_nat n) bc (shape, ph) (3 :: shape, eu).
Proof.
  intros A d m. unfold load_dict. split.
  - destruct (d_phase d) as [[sh ph]|]; [|discriminate]. cbn [key bind]. destruct (d_step d) as [st|]; [|discriminate]. cbn [key bind].
    destruct (d_phases d) as [[l|]|]; cbn [key bind]; try discriminate.
    destruct (forallb (fun b => b) l) eqn:F; cbn [negb]; [|discriminate].
    destruct (d_bc d) as [bc|]; [|discriminate]. cbn [key bind]. destruct (d_euler d) as [[s eu]|]; [|discriminate]. cbn [key bind fst].
    unfold shape_eqb. destruct (list_eq_dec Z.eq_dec s (3 :: sh)) as [->|]; [|discriminate]. intros E. injection E as <-.
    assert (L : l = repeat true (List.length l)).
    { clear -F. induction l as [|b l IH]; [reflexivity|]. cbn [forallb] in F. apply andb_true_iff in F as [-> F]. cbn. f_equal. auto. }
    exists sh, ph, st, bc, eu, (List.length l). rewrite <- L. repeat split; reflexivity.
  - intros (sh & ph & st & bc & eu & n & -> & -> & -> & -> & -> & ->). cbn [key bind fst].
    replace (forallb (fun b => b) (repeat true n)) with true by (induction n; cbn; auto). cbn [negb].
    unfold shape_eqb. destruct (list_eq_dec Z.eq_dec (3 :: sh) (3 :: sh)); [|congruence]. rewrite repeat_length. reflexivity.
Qed.
Theorem C92_errors : forall A (d : data_dict A) e, load_dict d = Err e ->
  e = KeyError /\ (d_phase d = None \/ d_step d = None \/ d_phases d = None \/ d_bc d = None \/ d_euler d = None) \/
  e = AssertionError /\ (d_phases d = Some None \/ (exists l, d_phases d = Some (Some l) /\ In false l) \/
    exists s a t b, d_phase d = Some (s, a) /\ d_euler d = Some (t, b) /\ t <> 3 :: s).
Proof.
  intros A d e. unfold load_dict. destruct (d_phase d) as [[sh ph]|]; cbn [key bind]; [|intros E; injection E as <-; tauto].
  destruct (d_step d) as [st|]; cbn [key bind]; [|intros E; injection E as <-; tauto].
  destruct (d_phases d) as [[l|]|]; cbn [key bind]; try (intros E; injection E as <-; tauto).
  destruct (forallb (fun b => b) l) eqn:F; cbn [negb].
  2:{ intros E. injection E as <-. right. split; auto. right. left. exists l. split; auto.
      clear -F. induction l as [|b l IH]; [discriminate|]. cbn [forallb] in F. destruct b; [right; auto|now left]. }
  destruct (d_bc d) as [bc|]; cbn [key bind]; [|intros E; injection E as <-; tauto].
  destruct (d_euler d) as [[s eu]|]; cbn [key bind fst]; [|intros E; injection E as <-; tauto].
  unfold shape_eqb. destruct (list_eq_dec Z.eq_dec s (3 :: sh)) as [|N]; [discriminate|]. intros E. injection E as <-.
  right. split; auto. right. right. do 4 eexists. split; [reflexivity|]. split; [reflexivity|auto].
Qed.
(** The shape of the band contrast is not checked. *)
Theorem C92_contrast_refuted : exists (d : data_dict (list Z)) m, load_dict d = Ok m /\ fst (m_bc m) <> m_shape m.
Proof.
  exists (DataDict (Some ([1; 1], [1])) (Some 1%R) (Some (Some [true])) (Some ([2; 3], [0; 0; 0; 0; 0; 0])) (Some ([3; 1; 1], [0; 0; 0]))).
  eexists. split; [reflexivity|]. discriminate.
Qed.
Example C92_ex : exists m, load_dict (DataDict (Some ([1; 2], [1; 0])) (Some 1%R) (Some (Some [true])) (Some ([1; 2], [7; 8]))
  (Some ([3; 1; 2], [1; 2; 3; 4; 5; 6]))) = Ok m /\ m_shape m = [1; 2] /\ m_vmax m = 1.
Proof. eexists. split; [reflexivity|]. split; reflexivity. Qed.
Print Assumptions C92_load.

(** A file that does not tell its step size is loaded, with a step size of zero. *)
Lemma until_rest {V A} term c ex (pr : V -> txt -> res (V * A)) ls : forall v q, read_until term c ex pr v ls = Ok q -> incl (snd q) ls.
Proof.
  induction ls as [|l ls IH]; intros v q; cbn [read_until]; [intros E; injection E as <-; apply incl_refl|].
  destruct (is_term term ex l); [intros E; injection E as <-; apply incl_refl|].
  destruct (blank_or_comment c l); [intros E; apply incl_tl; eauto|].
  destruct (pr v l) as [r|]; cbn [bind]; [|discriminate]. destruct (read_until term c ex pr (fst r) ls) as [q'|] eqn:Q; cbn [bind]; [|discriminate].
  intros E. injection E as <-. cbn [snd]. apply incl_tl. eauto.
Qed.
Lemma no_step_head conv fuel : forall ls, (forall l, In l ls -> starts_with (lit "XSTEP") (strip (tl l)) = false) -> forall h r,
  ang_header fuel conv h ls = Ok r -> n_step r = n_step h.
Proof.
  induction fuel as [|fuel IH]; intros ls N h r; cbn [ang_header]; [discriminate|]. destruct ls as [|line rest]; [congruence|].
  destruct (negb _); [congruence|]. rewrite (N line (or_introl eq_refl)). assert (N' : forall l, In l rest -> starts_with (lit "XSTEP") (strip (tl l)) = false) by (intros; apply N; now right).
  assert (STEP : forall (A : Type) (e : res A) (k : A -> res ang_hdr),
    (forall a, e = Ok a -> k a = Ok r -> n_step r = n_step h) -> (do x <- e; k x) = Ok r -> n_step r = n_step h).
  { intros A [a|x] k H; cbn [bind]; [now apply H|discriminate]. }
  destruct (starts_with (lit "Phase") _).
  { apply STEP; intros w _. apply STEP; intros n _. destruct (negb _); [discriminate|]. apply STEP; intros q Q. apply STEP; intros p _ E.
    apply (IH (snd q)) in E; [exact E|]. intros l I. apply N'. exact (until_rest _ _ _ _ _ _ _ Q l I). }
  destruct (starts_with (lit "GRID") _); [apply STEP; intros w _; destruct (txt_eqb _ _); [apply (IH rest N')|discriminate]|].
  destruct (starts_with (lit "NCOLS_ODD") _); [apply STEP; intros w _; apply STEP; intros n _ E; exact (IH rest N' _ _ E)|].
  destruct (starts_with (lit "NROWS") _); [apply STEP; intros w _; apply STEP; intros n _ E; exact (IH rest N' _ _ E)|].
  apply (IH rest N').
Qed.
Theorem C91_no_step : forall old conv t g, (forall line, In line (lines_of t) -> starts_with (lit "XSTEP") (strip (tl line)) = false) ->
  load_ang old conv t = Ok g -> g_step g = 0%R.
Proof.
  intros old conv t g N. unfold load_ang. destruct (ang_header _ conv ang_hdr0 (lines_of t)) as [h|] eqn:RH; cbn [bind]; [|discriminate].
  pose proof (no_step_head conv _ _ N _ _ RH) as E. cbn [n_step ang_hdr0] in E.
  destruct (n_y h) as [ny|]; [|discriminate]. destruct (n_x h) as [nx|]; [|discriminate].
  assert (STEP : forall (A : Type) (e : res A) (k : A -> res ang),
    (forall a, k a = Ok g -> g_step g = 0%R) -> (do x <- e; k x) = Ok g -> g_step g = 0%R).
  { intros A [a|x] k H; cbn [bind]; [apply H|discriminate]. }
  do 13 (apply STEP; intros ?). intros F. injection F as <-. cbn [g_step]. exact E.
Qed.
Example C91_no_step_met : let t := unlines [lit "# NCOLS_ODD: 1"; lit "# NROWS: 1"; lit "1 2 3 0 0 4 5 0 6 7"] in
  (forall line, In line (lines_of t) -> starts_with (lit "XSTEP") (strip (tl line)) = false) /\ exists g, load_ang true "hex" t = Ok g.
Proof.
  cbv zeta. split.
  - vm_compute lines_of. intros line I. repeat (destruct I as [<-|I]; [reflexivity|]). destruct I.
  - eexists. reflexivity.
Qed.
Print Assumptions C91_no_step.
