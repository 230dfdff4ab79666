(** Proofs about EDAX text files. *)
From Coq Require Import String Ascii Reals Lra.
From Coq Require Import List ZArith Bool Lia.
Import ListNotations.
From Verif Require Import Py Grid Grid_Lemmas Base_Model Crystal_Model CrystalMat_Proofs CrystalData_Proofs
  Text_Model Text_Proofs Ctf_Model Ctf_Spec Ctf_Proofs Io_Model IoText_Proofs Ang_Model Ang_Spec.
Open Scope Z_scope.

(** *** Words and ends *)
Definition dark (a : ascii) : bool := negb (is_ws a).
Lemma split_by_snoc p t c : p c = true -> split_by p (t ++ [c]) = split_by p t ++ [[]].
Proof.
  intros C. induction t as [|a t IH]; cbn [app split_by]; [now rewrite C|].
  rewrite IH. destruct (p a); [reflexivity|]. destruct (split_by p t) eqn:E; [|reflexivity].
  exfalso. now apply (split_ne p t).
Qed.
Lemma words_snoc t c : is_ws c = true -> words (t ++ [c]) = words t.
Proof. intros C. unfold words. rewrite split_by_snoc by auto. rewrite filter_app. cbn. apply app_nil_r. Qed.
Lemma words_lstrip t : words (lstrip t) = words t.
Proof.
  induction t as [|a t IH]; [reflexivity|]. cbn [lstrip]. destruct (is_ws a) eqn:E; [|reflexivity].
  now rewrite words_ws.
Qed.
Lemma words_rstrip t : words (rev (lstrip (rev t))) = words t.
Proof.
  induction t as [|a t IH] using rev_ind; [reflexivity|]. rewrite rev_app_distr. cbn [rev app lstrip].
  destruct (is_ws a) eqn:E; [now rewrite IH, words_snoc|]. cbn [rev]. now rewrite rev_involutive.
Qed.
Lemma words_strip t : words (strip t) = words t.
Proof. unfold strip. now rewrite words_rstrip, words_lstrip. Qed.
Lemma concat_words t : concat (words t) = filter dark t.
Proof.
  unfold words. induction t as [|a t IH]; [reflexivity|]. cbn [split_by filter]. unfold dark at 1. destruct (is_ws a) eqn:E; cbn [negb].
  - exact IH.
  - destruct (split_by is_ws t) as [|h r] eqn:X; [exfalso; now apply (split_ne is_ws t)|].
    cbn [filter nonempty concat] in *. rewrite <- IH. destruct h; reflexivity.
Qed.
Lemma lstrip_snoc t a : is_ws a = false -> lstrip (t ++ [a]) = lstrip t ++ [a].
Proof.
  intros A. induction t as [|b t IH]; cbn [app lstrip]; [now rewrite A|]. destruct (is_ws b); auto.
Qed.
Lemma strip_cons a r : is_ws a = false -> strip (a :: r) = a :: rev (lstrip (rev r)).
Proof.
  intros A. unfold strip. rewrite lstrip_head by auto. cbn [rev]. rewrite lstrip_snoc by auto.
  now rewrite rev_app_distr.
Qed.
Lemma strip_ws a r : is_ws a = true -> strip (a :: r) = strip r.
Proof. intros A. unfold strip. cbn [lstrip]. now rewrite A. Qed.
Lemma words_sp t : words (SP :: t) = words t.
Proof. now apply words_ws. Qed.

Lemma word_free t : one_word t -> t <> [] /\ free is_ws t.
Proof. intros [A B]. split; auto. Qed.
Lemma one_int n : one_word (fmt_int n).
Proof. split; [apply fmt_int_ne | apply int_ws]. Qed.
Lemma one_fixed k x : one_word (fmt_fixed k x).
Proof. split; [apply fmt_fixed_ne | apply fixed_ws]. Qed.
Lemma words_hline ws : (forall w, In w ws -> one_word w) -> words (strip (tl (hline ws))) = ws.
Proof.
  intros F. rewrite words_strip. unfold hline. cbn [tl]. rewrite words_sp. apply words_join; [reflexivity|].
  intros t I. apply word_free; auto.
Qed.
Lemma head_join w ws a r : one_word w -> join SP (w :: ws) = a :: r -> is_ws a = false.
Proof.
  intros [N F] E. destruct w as [|b w]; [congruence|]. cbn [join] in E.
  assert (a = b) as -> by (destruct ws; cbn [app] in E; congruence). apply F. now left.
Qed.
Lemma tail_join ws : ws <> [] -> (forall w, In w ws -> one_word w) -> exists r a, join SP ws = r ++ [a] /\ is_ws a = false.
Proof.
  induction ws as [|w ws IH]; [congruence|]. intros _ F. destruct (F w (or_introl eq_refl)) as [N G].
  destruct ws as [|w' ws].
  - cbn [join]. destruct (exists_last N) as (r & a & ->). exists r, a. split; auto. apply G. apply in_or_app. right. now left.
  - destruct IH as (r & a & E & A); [discriminate|intros; apply F; now right|].
    change (join SP (w :: w' :: ws)) with (w ++ SP :: join SP (w' :: ws)). rewrite E. exists (w ++ SP :: r), a.
    split; auto. now rewrite <- app_assoc.
Qed.
Lemma strip_hline ws : ws <> [] -> (forall w, In w ws -> one_word w) -> strip (tl (hline ws)) = join SP ws.
Proof.
  intros N F. unfold hline. cbn [tl]. rewrite strip_ws by reflexivity. apply strip_ends.
  - intros a r E. destruct ws as [|w ws]; [congruence|]. eapply head_join; eauto. apply F. now left.
  - intros a r E. destruct (tail_join ws N F) as (r' & b & E' & B). rewrite E in E'. apply app_inj_tail in E' as [_ ->]. exact B.
Qed.

(** *** Blocks *)
Definition says (l : txt) : Prop := exists r, l = "#"%char :: r /\ words r <> [].
Lemma says_kept l : says l -> is_term (lit "#") true l = false /\ blank_or_comment "*" l = false.
Proof.
  intros (r & -> & W). split.
  - cbn [is_term]. apply txt_eqb_neq. intros E. apply W. apply (f_equal words) in E. rewrite words_strip in E.
    apply (f_equal (@concat _)) in E. rewrite concat_words in E. cbn in E. injection E as E.
    fold dark in E. change (filter dark r = []) in E. rewrite <- concat_words in E.
    destruct (words r) as [|w ws] eqn:X; auto. exfalso. cbn [concat] in E. apply app_eq_nil in E as [-> _].
    unfold words in X. assert (In [] (filter nonempty (split_by is_ws r))) by (rewrite X; now left).
    apply filter_In in H as [_ H]. discriminate.
  - unfold blank_or_comment. rewrite strip_cons by reflexivity. reflexivity.
Qed.
Lemma read_block body rest : (forall l, In l body -> says l) ->
  read_until (lit "#") "*" true (fun (s : unit) l => Ok (s, strip (tl l))) tt (body ++ lit "#" :: rest) =
  Ok (tt, map (fun l => strip (tl l)) body, lit "#" :: rest).
Proof.
  induction body as [|l body IH]; intros F; [reflexivity|]. cbn [app read_until].
  destruct (says_kept l) as [-> ->]; [apply F; now left|]. cbn [bind fst snd]. rewrite IH by (intros; apply F; now right).
  reflexivity.
Qed.
Lemma phase_loop_neutral v ls : (forall l, In l ls -> neutral_in_phase l) ->
  phase_loop v (map (fun l => strip (tl l)) ls) = Ok v.
Proof.
  induction ls as [|l ls IH]; intros F; [reflexivity|]. cbn [map phase_loop].
  destruct (F l (or_introl eq_refl)) as (_ & r & w & ws & -> & W & N). cbn [tl].
  unfold phase_step. rewrite words_strip, W. cbn [item nth_error bind].
  assert (D : forall t, In t [lit "MaterialName"; lit "Symmetry"; lit "LatticeConstants"] -> txt_eqb w t = false).
  { intros t I. apply txt_eqb_neq. intros ->. auto. }
  rewrite !D by (cbn [In]; tauto). cbn [bind]. apply IH. intros; apply F; now right.
Qed.

Definition dec (k : nat) (x : R) : R := (IZR (rint (x * 10 ^ k)) / 10 ^ k)%R.
Definition group_of (p : ang_phase_in) : Z * Z := if txt_eqb (ai_group p) (lit "6/mmm") then (9, 0) else (11, 229).
Definition lattice_of (k : nat) (p : ang_phase_in) : list R :=
  let '(a, b, c) := ai_lengths p in let '(al, be, ga) := ai_angles p in
  [dec3 (dec k a); dec3 (dec k b); dec3 (dec k c);
   dec3 (dec k al) * PI / 180; dec3 (dec k be) * PI / 180; dec3 (dec k ga) * PI / 180]%R.
Definition body (k : nat) (p : ang_phase_in) : list txt :=
  let '(a, b, c) := ai_lengths p in let '(al, be, ga) := ai_angles p in
  [hline [lit "MaterialName"; ai_name p]; hline [lit "Symmetry"; ai_group p];
   hline [lit "LatticeConstants"; fmt_fixed k a; fmt_fixed k b; fmt_fixed k c; fmt_fixed k al; fmt_fixed k be; fmt_fixed k ga]] ++
  ai_extra p.
Lemma block_eq k n p : phase_block k n p = hline [lit "Phase"; fmt_int n] :: body k p ++ [lit "#"].
Proof.
  unfold phase_block, body. destruct (ai_lengths p) as [[a b] c], (ai_angles p) as [[al be] ga]. cbn [app]. now rewrite app_assoc || reflexivity.
Qed.

(** The name may have several words; the first is [w]. *)
Lemma phase_vars k p w ws g : words (ai_name p) = w :: ws -> one_word (ai_group p) -> point_group (ai_group p) = g ->
  (forall l, In l (ai_extra p) -> neutral_in_phase l) ->
  phase_loop (PhVars None None None) (map (fun l => strip (tl l)) (body k p)) =
  do g <- g; Ok (PhVars (Some w) (Some g) (Some (lattice_of k p))).
Proof.
  intros W OG PG F. unfold body, lattice_of. destruct (ai_lengths p) as [[a b] c], (ai_angles p) as [[al be] ga].
  rewrite map_app. cbn [map app phase_loop]. unfold phase_step at 1.
  replace (words (strip (tl (hline [lit "MaterialName"; ai_name p])))) with (lit "MaterialName" :: words (ai_name p)).
  2:{ rewrite words_strip. unfold hline. cbn [tl]. rewrite words_sp. cbn [join]. rewrite words_app; [reflexivity|discriminate| |reflexivity].
      intros x I. cbn in I. intuition (subst; reflexivity). }
  rewrite W. cbn [item nth_error bind].
  replace (txt_eqb (lit "MaterialName") (lit "MaterialName")) with true by reflexivity.
  replace (txt_eqb (lit "MaterialName") (lit "Symmetry")) with false by reflexivity.
  replace (txt_eqb (lit "MaterialName") (lit "LatticeConstants")) with false by reflexivity. cbn [bind].
  unfold phase_step at 1. rewrite words_hline.
  2:{ intros x [<-|[<-|[]]]; auto. split; [discriminate|]. intros y I. cbn in I. intuition (subst; reflexivity). }
  cbn [item nth_error bind].
  replace (txt_eqb (lit "Symmetry") (lit "MaterialName")) with false by reflexivity.
  replace (txt_eqb (lit "Symmetry") (lit "Symmetry")) with true by reflexivity. cbn [bind v_name v_group v_lattice].
  rewrite PG. destruct g as [g|e]; [|reflexivity]. cbn [bind].
  unfold phase_step at 1. rewrite words_hline.
  2:{ intros x [<-|I]; [split; [discriminate|]; intros y I; cbn in I; intuition (subst; reflexivity)|].
      repeat (destruct I as [<-|I]; [apply one_fixed|]). destruct I. }
  cbn [item nth_error bind].
  replace (txt_eqb (lit "LatticeConstants") (lit "MaterialName")) with false by reflexivity.
  replace (txt_eqb (lit "LatticeConstants") (lit "Symmetry")) with false by reflexivity.
  replace (txt_eqb (lit "LatticeConstants") (lit "LatticeConstants")) with true by reflexivity. cbn [bind v_name v_group v_lattice].
  unfold lattice_words. cbn [skipn firstn map_res]. rewrite !fixed_round_trip. cbn [bind map_res app].
  apply phase_loop_neutral. exact F.
Qed.

Lemma dec_at_least k x : (3 <= k)%nat -> (/ 100 <= x)%R -> (/ 1000 <= dec3 (dec k x))%R.
Proof.
  intros K H. apply dec3_at_least. destruct (fixed_rounded k x) as [_ C]. fold (dec k x) in C.
  assert (P : (10 ^ 3 <= 10 ^ k)%R) by (apply Rle_pow; [lra|auto]).
  assert (I : (/ 10 ^ k <= / 10 ^ 3)%R) by (apply Rinv_le_contravar; lra).
  apply Rabs_le_between' in C || (unfold Rabs in C; destruct (Rcase_abs _) in C); unfold Rdiv in *; lra.
Qed.
Lemma dec_close k x : (3 <= k)%nat -> (dec3 (dec k x) <= x + / 1000)%R.
Proof.
  intros K. destruct (fixed_rounded k x) as [_ C]. fold (dec k x) in C.
  assert (P : (10 ^ 3 <= 10 ^ k)%R) by (apply Rle_pow; [lra|auto]).
  assert (I : (/ 10 ^ k <= / 10 ^ 3)%R) by (apply Rinv_le_contravar; lra).
  pose proof (dec3_close (dec k x)) as D.
  unfold Rabs in C, D. destruct (Rcase_abs _) in C; destruct (Rcase_abs _) in D; unfold Rdiv in *; lra.
Qed.
Lemma twice k x : twice_rounded k x (dec3 (dec k x)).
Proof. exists (dec k x). split; apply fixed_rounded. Qed.

Lemma group_word p : known_group p -> one_word (ai_group p).
Proof.
  intros [->|[->|[-> _]]]; (split; [discriminate|]; intros a I; cbn in I; intuition (subst; reflexivity)).
Qed.
Lemma phase_made conv k p w ws : known_conv conv -> (3 <= k)%nat -> words (ai_name p) = w :: ws -> known_group p ->
  (forall l, In l (ai_extra p) -> neutral_in_phase l) ->
  exists o, ang_phase conv (map (fun l => strip (tl l)) (body k p)) = Ok o /\ po_name o = w /\
    (ai_name p = w -> phase_read k p o).
Proof.
  intros KC K W G F.
  assert (PG : point_group (ai_group p) = Ok (group_of p)).
  { unfold group_of. destruct G as [->|[->|[-> _]]]; reflexivity. }
  unfold ang_phase. rewrite (phase_vars k p w ws _ W (group_word p G) PG F). cbn [bind v_name v_group v_lattice].
  destruct (group_of p) as [laue space] eqn:GO. unfold group_of in GO.
  assert (RD : forall ph, ph_laue ph = laue -> ph_space ph = space -> ai_name p = w ->
    phase_read k p (PhaseOut w (lattice_of k p) ph)).
  { intros ph L S E. split; [now symmetry|]. cbn [po_phase po_lattice]. rewrite L, S.
    split; [destruct (txt_eqb (ai_group p) (lit "6/mmm")); congruence|].
    split; [destruct (txt_eqb (ai_group p) (lit "6/mmm")); congruence|].
    unfold lattice_of. destruct (ai_lengths p) as [[a b] c], (ai_angles p) as [[al be] ga].
    do 6 eexists. split; [reflexivity|]. repeat split; apply twice. }
  assert (M : exists la lc, item (lattice_of k p) 0 = Ok la /\ item (lattice_of k p) 2 = Ok lc /\
     exists ph, mk_phase conv laue space la lc = Ok ph /\ ph_laue ph = laue /\ ph_space ph = space).
  { unfold lattice_of. destruct (ai_lengths p) as [[a b] c] eqn:AL, (ai_angles p) as [[al be] ga].
    do 2 eexists. split; [reflexivity|]. split; [reflexivity|].
    assert (C : laue = 11 /\ space = 229 \/ laue = 9 /\ space = 0 /\ (/ 100 <= a /\ / 100 <= c /\ a <= 10 ^ 5)%R).
    { destruct G as [G|[G|[G H]]]; rewrite G in GO; cbv in GO; injection GO as <- <-; [now left|now left|right].
      rewrite AL in H. repeat split; try apply H. }
    destruct C as [[-> ->]|(-> & -> & A & C & U)].
    - destruct (phase_bcc conv (dec3 (dec k a)) (dec3 (dec k c))) as (gs & _ & E). rewrite E. eexists. split; [reflexivity|]. split; reflexivity.
    - pose proof (dec_at_least k a K A) as A'. pose proof (dec_at_least k c K C) as C'. pose proof (dec_close k a K) as U'.
      destruct (phase_hcp conv 0 (dec3 (dec k a)) (dec3 (dec k c))) as (gs & _ & E); auto; [lra| |].
      + apply Rle_trans with (/ 1000)%R; auto. apply Rmult_le_reg_r with (10 ^ 10)%R; lra.
      + rewrite E. eexists. split; [reflexivity|]. split; reflexivity. }
  destruct M as (la & lc & -> & -> & ph & E & L & S). cbn [bind]. rewrite E. cbn [bind].
  eexists. split; [reflexivity|]. split; [reflexivity|]. intros N. apply RD; auto.
Qed.
Lemma phase_unmade conv k p w ws : words (ai_name p) = w :: ws -> one_word (ai_group p) ->
  ~ In (ai_group p) [lit "43"; lit "m3m"; lit "6/mmm"] -> (forall l, In l (ai_extra p) -> neutral_in_phase l) ->
  ang_phase conv (map (fun l => strip (tl l)) (body k p)) = Err ValueError.
Proof.
  intros W O N F. unfold ang_phase. rewrite (phase_vars k p w ws (Err ValueError) W O); auto.
  unfold point_group. assert (D : forall t, In t [lit "43"; lit "m3m"; lit "6/mmm"] -> txt_eqb (ai_group p) t = false).
  { intros t I. apply txt_eqb_neq. congruence. }
  now rewrite !D by (cbn [In]; tauto).
Qed.

(** *** Fuel *)
Lemma read_until_len {S A} term c ex (f : S -> txt -> res (S * A)) ls : forall s q,
  read_until term c ex f s ls = Ok q -> (List.length (snd q) <= List.length ls)%nat.
Proof.
  induction ls as [|l ls IH]; intros s q; cbn [read_until].
  - intros E. injection E as <-. cbn. lia.
  - destruct (is_term term ex l); [intros E; injection E as <-; cbn; lia|].
    destruct (blank_or_comment c l); [intros E; apply IH in E; cbn; lia|].
    destruct (f s l) as [r|]; [|discriminate]. cbn [bind].
    destruct (read_until term c ex f (fst r) ls) as [q'|] eqn:E; [|discriminate]. cbn [bind]. intros X. injection X as <-.
    cbn [snd]. apply IH in E. cbn. lia.
Qed.
Lemma header_fuel conv n : forall ls f g h, (List.length ls <= n)%nat -> (n < f)%nat -> (n < g)%nat ->
  ang_header f conv h ls = ang_header g conv h ls.
Proof.
  induction n as [|n IH]; intros ls f g h L F G.
  - destruct ls; [|cbn in L; lia]. destruct f; [lia|]. destruct g; [lia|]. reflexivity.
  - destruct f as [|f]; [lia|]. destruct g as [|g]; [lia|]. cbn [ang_header].
    destruct ls as [|l rest]; auto. cbn [List.length] in L.
    destruct (negb (starts_with (lit "#") l)); auto.
    destruct (starts_with (lit "Phase") (strip (tl l))).
    { destruct (item (words (strip (tl l))) 1) as [l0|]; auto. cbn [bind]. destruct (py_int l0) as [z|]; auto. cbn [bind].
      destruct (negb (z =? n_phase h)); auto.
      destruct (read_until _ _ _ _ tt rest) as [q|] eqn:Q; auto. cbn [bind].
      destruct (ang_phase conv (snd (fst q))); auto. cbn [bind]. apply IH; try lia.
      apply read_until_len in Q. lia. }
    destruct (starts_with (lit "GRID") (strip (tl l))).
    { destruct (last_item (words (strip (tl l)))) as [l0|]; auto. cbn [bind]. destruct (txt_eqb l0 (lit "SqrGrid")); auto. apply IH; lia. }
    destruct (starts_with (lit "XSTEP") (strip (tl l))).
    { destruct (last_item (words (strip (tl l)))) as [l0|]; auto. cbn [bind]. destruct (py_float l0); auto. cbn [bind]. apply IH; lia. }
    destruct (starts_with (lit "NCOLS_ODD") (strip (tl l))).
    { destruct (last_item (words (strip (tl l)))) as [l0|]; auto. cbn [bind]. destruct (py_int l0); auto. cbn [bind]. apply IH; lia. }
    destruct (starts_with (lit "NROWS") (strip (tl l))).
    { destruct (last_item (words (strip (tl l)))) as [l0|]; auto. cbn [bind]. destruct (py_int l0); auto. cbn [bind]. apply IH; lia. }
    apply IH; lia.
Qed.
Definition head (conv : string) (h : ang_hdr) (ls : list txt) : res ang_hdr := ang_header (S (List.length ls)) conv h ls.

Lemma head_neutral conv h l rest : neutral l -> head conv h (l :: rest) = head conv h rest.
Proof.
  intros (_ & (r & ->) & N). unfold head. cbn [List.length]. remember (S (List.length rest)) as f. cbn [ang_header].
  replace (negb (starts_with (lit "#") ("#"%char :: r))) with false by reflexivity.
  rewrite !N by (cbn [In]; tauto). reflexivity.
Qed.
Lemma head_neutrals conv h ls rest : (forall l, In l ls -> neutral l) -> head conv h (ls ++ rest) = head conv h rest.
Proof.
  induction ls as [|l ls IH]; intros F; [reflexivity|]. cbn [app]. rewrite head_neutral by (apply F; now left).
  apply IH. intros; apply F; now right.
Qed.
Lemma head_end conv h ls : (forall l r, ls = l :: r -> starts_with (lit "#") l = false) -> head conv h ls = Ok h.
Proof.
  intros F. unfold head. destruct ls as [|l r]; [reflexivity|]. cbn [ang_header].
  now rewrite (F l r eq_refl).
Qed.
Lemma head_hash conv h rest : head conv h (lit "#" :: rest) = head conv h rest.
Proof. unfold head. cbn [List.length]. remember (S (List.length rest)) as f. reflexivity. Qed.

Ltac lit_word := split; [discriminate|]; let I := fresh in intros ? I; cbn in I; intuition (subst; reflexivity).
Ltac two_words := intros ? I; destruct I as [<-|[<-|[]]]; [lit_word | try (first [apply one_int | apply one_fixed | lit_word])].

Lemma start_phase conv h n rest : head conv h (hline [lit "Phase"; fmt_int n] :: rest) =
  if negb (n =? n_phase h) then Err ValueError
  else
    do q <- read_until (lit "#") "*" true (fun (s : unit) l => Ok (s, strip (tl l))) tt rest;
    do p <- ang_phase conv (snd (fst q));
    ang_header (S (List.length rest)) conv (AngHdr (n_phase h + 1) (n_phases h ++ [p]) (n_step h) (n_x h) (n_y h)) (snd q).
Proof.
  unfold head. cbn [List.length]. remember (S (List.length rest)) as f. cbn [ang_header].
  replace (negb (starts_with (lit "#") (hline [lit "Phase"; fmt_int n]))) with false by reflexivity.
  rewrite words_hline by two_words. rewrite strip_hline by (try discriminate; two_words).
  replace (starts_with (lit "Phase") (join SP [lit "Phase"; fmt_int n])) with true by reflexivity.
  cbn [item nth_error bind]. rewrite int_round_trip. reflexivity.
Qed.
Lemma body_says k p w ws : words (ai_name p) = w :: ws -> one_word (ai_group p) ->
  (forall l, In l (ai_extra p) -> neutral_in_phase l) -> forall l, In l (body k p) -> says l.
Proof.
  intros W O F l I. unfold body in I. destruct (ai_lengths p) as [[a b] c], (ai_angles p) as [[al be] ga].
  apply in_app_or in I as [I|I].
  - assert (S : forall k t r, one_word k -> says (hline (k :: t :: r))).
    { intros k' t r [N G]. eexists. split; [reflexivity|]. rewrite words_sp. cbn [join]. rewrite words_app by auto. discriminate. }
    destruct I as [<-|[<-|[<-|[]]]]; apply S; lit_word.
  - destruct (F l I) as (_ & r & x & xs & -> & X & _). exists r. split; auto. congruence.
Qed.
Lemma head_block conv h k p o w ws rest : words (ai_name p) = w :: ws -> one_word (ai_group p) ->
  (forall l, In l (ai_extra p) -> neutral_in_phase l) ->
  ang_phase conv (map (fun l => strip (tl l)) (body k p)) = Ok o ->
  head conv h (phase_block k (n_phase h) p ++ rest) =
  head conv (AngHdr (n_phase h + 1) (n_phases h ++ [o]) (n_step h) (n_x h) (n_y h)) rest.
Proof.
  intros W O F E. rewrite block_eq. cbn [app]. rewrite start_phase, Z.eqb_refl. cbn [negb].
  rewrite <- app_assoc. cbn [app]. rewrite read_block by (eapply body_says; eauto). cbn [bind fst snd]. rewrite E. cbn [bind].
  rewrite <- head_hash. unfold head. eapply header_fuel; [apply Nat.le_refl| |]; cbn [List.length]; try lia.
  rewrite app_length. cbn [List.length]. lia.
Qed.
Lemma head_bad_block conv h k p e w ws rest : words (ai_name p) = w :: ws -> one_word (ai_group p) ->
  (forall l, In l (ai_extra p) -> neutral_in_phase l) ->
  ang_phase conv (map (fun l => strip (tl l)) (body k p)) = Err e ->
  head conv h (phase_block k (n_phase h) p ++ rest) = Err e.
Proof.
  intros W O F E. rewrite block_eq. cbn [app]. rewrite start_phase, Z.eqb_refl. cbn [negb].
  rewrite <- app_assoc. cbn [app]. rewrite read_block by (eapply body_says; eauto). cbn [bind fst snd]. now rewrite E.
Qed.
Definition made (k : nat) (p : ang_phase_in) (o : phase_out) : Prop :=
  (exists ws, words (ai_name p) = po_name o :: ws) /\ (ai_name p = po_name o -> phase_read k p o).
Lemma head_blocks conv k ps : known_conv conv -> (3 <= k)%nat -> (forall p, In p ps -> ok_phase p) ->
  exists os, Forall2 (made k) ps os /\ forall h rest,
  head conv h (phase_blocks k (n_phase h) ps ++ rest) =
  head conv (AngHdr (n_phase h + Z.of_nat (List.length ps)) (n_phases h ++ os) (n_step h) (n_x h) (n_y h)) rest.
Proof.
  intros KC K. induction ps as [|p ps IH]; intros F.
  - exists []. split; [constructor|]. intros h rest. cbn [phase_blocks app List.length]. rewrite app_nil_r, Z.add_0_r. now destruct h.
  - destruct IH as (os & FO & E); [intros; apply F; now right|].
    destruct (F p (or_introl eq_refl)) as ((w & ws & W) & G & _ & X).
    destruct (phase_made conv k p w ws KC K W G X) as (o & A & N & R).
    exists (o :: os). split; [constructor; auto; split; [exists ws; congruence|intros; apply R; congruence]|].
    intros h rest. cbn [phase_blocks]. rewrite <- app_assoc.
    rewrite (head_block conv h k p o w ws) by (auto using group_word).
    set (h' := AngHdr (n_phase h + 1) _ _ _ _). change (n_phase h + 1) with (n_phase h'). rewrite E.
    subst h'. cbn [n_phase n_phases n_step n_x n_y]. rewrite <- app_assoc. f_equal. f_equal. cbn [List.length]. lia.
Qed.

(** *** The other lines of the header *)
Ltac header_line w ws := unfold head; cbn [List.length];
  match goal with |- context[S (List.length ?rest)] => let f := fresh "f" in remember (S (List.length rest)) as f end;
  cbn [ang_header];
  replace (negb (starts_with (lit "#") (hline (w :: ws)))) with false by reflexivity;
  rewrite words_hline by two_words; rewrite strip_hline by (try discriminate; two_words);
  repeat (match goal with |- context[starts_with (lit ?a) (join SP (w :: ws))] =>
    first [replace (starts_with (lit a) (join SP (w :: ws))) with false by reflexivity
          |replace (starts_with (lit a) (join SP (w :: ws))) with true by reflexivity] end).
Lemma line_grid conv h rest : head conv h (hline [lit "GRID:"; lit "SqrGrid"] :: rest) = head conv h rest.
Proof. header_line (lit "GRID:") [lit "SqrGrid"]. reflexivity. Qed.
Lemma line_grid_bad conv h g rest : one_word g -> g <> lit "SqrGrid" ->
  head conv h (hline [lit "GRID:"; g] :: rest) = Err ValueError.
Proof.
  intros O N. unfold head. cbn [List.length]. remember (S (List.length rest)) as f. cbn [ang_header].
  replace (negb (starts_with (lit "#") (hline [lit "GRID:"; g]))) with false by reflexivity.
  assert (T : forall w, In w [lit "GRID:"; g] -> one_word w) by (intros x [<-|[<-|[]]]; [lit_word|auto]).
  rewrite words_hline, strip_hline by (auto; discriminate).
  replace (starts_with (lit "Phase") (join SP [lit "GRID:"; g])) with false by reflexivity.
  replace (starts_with (lit "GRID") (join SP [lit "GRID:"; g])) with true by reflexivity.
  cbn. apply txt_eqb_neq in N. unfold lit in N. cbn in N. now rewrite N.
Qed.
Lemma line_step conv h k x rest : head conv h (hline [lit "XSTEP:"; fmt_fixed k x] :: rest) =
  head conv (AngHdr (n_phase h) (n_phases h) (dec k x) (n_x h) (n_y h)) rest.
Proof.
  header_line (lit "XSTEP:") [fmt_fixed k x]. unfold last_item. cbn [rev app item nth_error bind].
  rewrite fixed_round_trip. reflexivity.
Qed.
Lemma line_cols conv h n rest : head conv h (hline [lit "NCOLS_ODD:"; fmt_int n] :: rest) =
  head conv (AngHdr (n_phase h) (n_phases h) (n_step h) (Some n) (n_y h)) rest.
Proof.
  header_line (lit "NCOLS_ODD:") [fmt_int n]. unfold last_item. cbn [rev app item nth_error bind].
  rewrite int_round_trip. reflexivity.
Qed.
Lemma line_rows conv h n rest : head conv h (hline [lit "NROWS:"; fmt_int n] :: rest) =
  head conv (AngHdr (n_phase h) (n_phases h) (n_step h) (n_x h) (Some n)) rest.
Proof.
  header_line (lit "NROWS:") [fmt_int n]. unfold last_item. cbn [rev app item nth_error bind].
  rewrite int_round_trip. reflexivity.
Qed.
Lemma line_ystep conv h k x rest : head conv h (hline [lit "YSTEP:"; fmt_fixed k x] :: rest) = head conv h rest.
Proof. header_line (lit "YSTEP:") [fmt_fixed k x]. reflexivity. Qed.
Lemma line_even conv h n rest : head conv h (hline [lit "NCOLS_EVEN:"; fmt_int n] :: rest) = head conv h rest.
Proof. header_line (lit "NCOLS_EVEN:") [fmt_int n]. reflexivity. Qed.

(** *** The data *)
Definition ang_line (k : nat) (m : ang_in) (p : pix) : txt := join SP (ang_words k m p).
Lemma ang_words_one k m p t : In t (ang_words k m p) -> one_word t /\ forall a, In a t -> is_num a = true.
Proof.
  intros I. unfold ang_words in I. repeat (destruct I as [<-|I]); try destruct I; split;
    first [apply one_int | apply one_fixed | exact (num_int _) | exact (num_fixed _ _)].
Qed.
Lemma words_ang k m p : words (ang_line k m p) = ang_words k m p.
Proof. apply words_join; [reflexivity|]. intros t I. apply word_free. now apply ang_words_one in I. Qed.
Lemma ang_char k m p a : In a (ang_line k m p) -> a = SP \/ is_num a = true.
Proof.
  intros I. apply in_join in I as [E|(t & A & B)]; auto. right. apply ang_words_one in A as [_ N]. auto.
Qed.
Lemma ang_line_start k m p : starts_with (lit "#") (ang_line k m p) = false.
Proof.
  destruct (starts_with (lit "#") (ang_line k m p)) eqn:E; auto. exfalso. apply starts_iff in E as (r & E).
  destruct (ang_char k m p "#"%char) as [X|X]; try discriminate. rewrite E. now left.
Qed.
Definition ang_row (k : nat) (m : ang_in) (p : pix) : row :=
  [("ph1", F32 (dec k (ai_e1 m p))); ("phi", F32 (dec k (ai_e2 m p))); ("ph2", F32 (dec k (ai_e3 m p)));
   ("IQ", F32 (dec k (ai_iq m p))); ("CI", F32 (dec k (ai_ci m p))); ("phase", U8 (ai_ph m p)); ("FF", F32 (dec k (ai_sem m p)))]%string.
Lemma ang_row_ok k m p : 0 <= ai_ph m p <= 255 -> parse_row ang_cols (ang_line k m p) = Ok (ang_row k m p).
Proof.
  intros P. unfold parse_row. rewrite words_ang. unfold ang_words, ang_row, ang_cols. cbn [map_res nth_error parse_cell].
  rewrite !int_round_trip, !fixed_round_trip. cbn [bind].
  replace ((0 <=? ai_ph m p) && (ai_ph m p <=? 255)) with true by (symmetry; apply andb_true_iff; rewrite !Z.leb_le; lia).
  reflexivity.
Qed.
Definition hashed (l : txt) : Prop := exists r, l = "#"%char :: r.
Lemma ang_rows k m pre l : (forall t, In t pre -> hashed t) -> (forall p, In p l -> 0 <= ai_ph m p <= 255) ->
  ang_loadtxt true (pre ++ map (ang_line k m) l) = Ok (map (ang_row k m) l).
Proof.
  intros H F. unfold ang_loadtxt. rewrite map_app, filter_app.
  replace (filter _ (map before_hash pre)) with (@nil txt).
  2:{ induction pre as [|t pre IH]; [reflexivity|]. cbn [map filter]. destruct (H t (or_introl eq_refl)) as (r & ->).
      cbn. apply IH. intros; apply H; now right. }
  rewrite app_nil_l, map_map. rewrite (map_ext _ (ang_line k m)).
  2:{ intros p. apply before_hash_id. intros I. apply ang_char in I as [I|I]; discriminate. }
  rewrite filter_all.
  2:{ intros t I. apply in_map_iff in I as (p & <- & _). rewrite words_ang. unfold ang_words.
      pose proof (fmt_fixed_ne k (ai_e1 m p)) as N. destruct (fmt_fixed k (ai_e1 m p)); [congruence|reflexivity]. }
  clear H. induction l as [|p l IH]; [reflexivity|]. cbn [map map_res]. rewrite words_ang.
  replace (nth_error (ang_words k m p) 9) with (Some (fmt_fixed k (ai_fit m p))) by reflexivity.
  rewrite ang_row_ok by (apply F; now left). cbn [bind]. rewrite IH; [reflexivity|]. intros; apply F; now right.
Qed.
Lemma u8_ang k m name f l : (forall p, lookup name (ang_row k m p) = Ok (U8 (f p))) ->
  u8_column name (map (ang_row k m) l) = Ok (map f l).
Proof.
  intros F. induction l as [|p l IH]; [reflexivity|]. unfold u8_column in *. cbn [map map_res]. rewrite F. cbn [bind].
  rewrite IH. reflexivity.
Qed.
Lemma f32_ang k m name f l : (forall p, lookup name (ang_row k m p) = Ok (F32 (f p))) ->
  f32_column name (map (ang_row k m) l) = Ok (map f l).
Proof.
  intros F. induction l as [|p l IH]; [reflexivity|]. unfold f32_column in *. cbn [map map_res]. rewrite F. cbn [bind].
  rewrite IH. reflexivity.
Qed.

(** *** The whole file *)
Lemma hline_no_LF ws : (forall w, In w ws -> ~ In LF w) -> ~ In LF (hline ws).
Proof. intros F I. unfold hline in I. destruct I as [I|[I|I]]; try discriminate. revert I. apply join_no; [discriminate|auto]. Qed.
Lemma word_no_LF t : one_word t -> ~ In LF t.
Proof. intros [_ F] I. apply F in I. discriminate. Qed.
Definition header_of (k : nat) (m : ang_in) : list txt :=
  ai_before m ++ phase_blocks k 1 (ai_phases m) ++
  [hline [lit "GRID:"; lit "SqrGrid"]; hline [lit "XSTEP:"; fmt_fixed k (ai_step m)]; hline [lit "YSTEP:"; fmt_fixed k (ai_step m)];
   hline [lit "NCOLS_ODD:"; fmt_int (ai_cols m)]; hline [lit "NCOLS_EVEN:"; fmt_int (ai_cols m)]; hline [lit "NROWS:"; fmt_int (ai_rows m)]] ++
  ai_after m.
Lemma ang_lines_eq k m : ang_lines k m = header_of k m ++ map (ang_line k m) (all_pix (ai_cols m) (ai_rows m)).
Proof. unfold ang_lines, header_of, ang_line. now rewrite <- !app_assoc. Qed.
Lemma block_line k n p l : ok_phase p -> In l (phase_block k n p) -> hashed l /\ ~ In LF l.
Proof.
  intros (_ & G & NL & X) I. rewrite block_eq in I.
  assert (H : forall ws, (forall w, In w ws -> ~ In LF w) -> hashed (hline ws) /\ ~ In LF (hline ws)).
  { intros ws F. split; [eexists; reflexivity | now apply hline_no_LF]. }
  destruct I as [<-|I].
  { apply H. intros w [<-|[<-|[]]]; apply word_no_LF; [lit_word|apply one_int]. }
  apply in_app_or in I as [I|[<-|[]]].
  2:{ split; [eexists; reflexivity|]. cbn. intuition discriminate. }
  unfold body in I. destruct (ai_lengths p) as [[a b] c], (ai_angles p) as [[al be] ga]. apply in_app_or in I as [I|I].
  - destruct I as [<-|[<-|[<-|[]]]]; apply H.
    + intros w [<-|[<-|[]]]; [apply word_no_LF; lit_word|auto].
    + intros w [<-|[<-|[]]]; apply word_no_LF; [lit_word|now apply group_word].
    + intros w [<-|I]; [apply word_no_LF; lit_word|]. repeat (destruct I as [<-|I]; [apply word_no_LF, one_fixed|]). destruct I.
  - destruct (X l I) as (L & r & w & ws & -> & _). split; [eexists; reflexivity|auto].
Qed.
Lemma blocks_line k ps : (forall p, In p ps -> ok_phase p) -> forall n l, In l (phase_blocks k n ps) -> hashed l /\ ~ In LF l.
Proof.
  induction ps as [|p ps IH]; intros F n l I; [destruct I|]. cbn [phase_blocks] in I. apply in_app_or in I as [I|I].
  - eapply block_line; [|exact I]. apply F. now left.
  - eapply IH; [|exact I]. intros; apply F; now right.
Qed.
Lemma header_of_line k m l : ok_ang m -> In l (header_of k m) -> hashed l /\ ~ In LF l.
Proof.
  intros (_ & _ & P & N & _) I. unfold header_of in I. apply in_app_or in I as [I|I].
  { destruct (N l) as (A & B & _); [apply in_or_app; auto|]. auto. }
  apply in_app_or in I as [I|I]; [eapply blocks_line; eauto|]. apply in_app_or in I as [I|I].
  - assert (H : forall w x, one_word w -> one_word x -> hashed (hline [w; x]) /\ ~ In LF (hline [w; x])).
    { intros w x W X. split; [eexists; reflexivity|]. apply hline_no_LF. intros y [<-|[<-|[]]]; now apply word_no_LF. }
    repeat (destruct I as [<-|I]); try destruct I; apply H; first [apply one_int | apply one_fixed | lit_word].
  - destruct (N l) as (A & B & _); [apply in_or_app; auto|]. auto.
Qed.
Lemma ang_text_lines k m : ok_ang m -> lines_of (ang_text k m) = header_of k m ++ map (ang_line k m) (all_pix (ai_cols m) (ai_rows m)).
Proof.
  intros O. unfold ang_text. rewrite ang_lines_eq. apply lines_unlines. intros l I. apply in_app_or in I as [I|I].
  - now apply header_of_line in I.
  - apply in_map_iff in I as (p & <- & _). intros J. apply ang_char in J as [J|J]; discriminate.
Qed.

Definition ang_out (k : nat) (m : ang_in) (os : list phase_out) : ang :=
  let ps := all_pix (ai_cols m) (ai_rows m) in
  Ang (ai_rows m, ai_cols m) (dec k (ai_step m)) os (Z.of_nat (List.length os))
    (map (fun p => dec k (ai_iq m p)) ps) (map (fun p => dec k (ai_ci m p)) ps) (map (fun p => dec k (ai_sem m p)) ps)
    (map (fun p => (ai_ph m p + 1) mod 256) ps)
    (map (fun p => (shift_ph1 (dec k (ai_e1 m p)), dec k (ai_e2 m p), dec k (ai_e3 m p))) ps).
Lemma header_read_ang conv k m ls : known_conv conv -> (3 <= k)%nat -> ok_ang m ->
  (forall l r, ls = l :: r -> starts_with (lit "#") l = false) ->
  exists os, Forall2 (made k) (ai_phases m) os /\
  head conv ang_hdr0 (header_of k m ++ ls) =
  Ok (AngHdr (1 + Z.of_nat (List.length (ai_phases m))) os (dec k (ai_step m)) (Some (ai_cols m)) (Some (ai_rows m))).
Proof.
  intros KC K (_ & _ & P & N & _) E. destruct (head_blocks conv k (ai_phases m) KC K P) as (os & FO & B).
  exists os. split; auto. unfold header_of. rewrite <- !app_assoc.
  rewrite head_neutrals by (intros; apply N; apply in_or_app; auto).
  change 1 with (n_phase ang_hdr0) at 1. rewrite B. cbn [app n_phases n_phase n_step n_x n_y ang_hdr0].
  rewrite line_grid, line_step, line_ystep, line_cols, line_even, line_rows. cbn [n_phases n_phase n_step n_x n_y].
  rewrite head_neutrals by (intros; apply N; apply in_or_app; auto). now apply head_end.
Qed.
Lemma data_start k m l r : map (ang_line k m) (all_pix (ai_cols m) (ai_rows m)) = l :: r -> starts_with (lit "#") l = false.
Proof.
  intros E. assert (I : In l (map (ang_line k m) (all_pix (ai_cols m) (ai_rows m)))) by (rewrite E; now left).
  apply in_map_iff in I as (p & <- & _). apply ang_line_start.
Qed.
Theorem ang_loaded conv k m : known_conv conv -> (3 <= k)%nat -> ok_ang m ->
  exists os, Forall2 (made k) (ai_phases m) os /\ load_ang true conv (ang_text k m) = Ok (ang_out k m os).
Proof.
  intros KC K O. destruct (header_read_ang conv k m _ KC K O (data_start k m)) as (os & FO & H).
  exists os. split; auto. unfold load_ang. rewrite ang_text_lines by auto. unfold head in H. rewrite H. cbn [bind n_y n_x n_phases n_step].
  destruct O as (RN & CN & P & N & PX).
  rewrite ang_rows; [|intros t I; eapply header_of_line; eauto; unfold ok_ang; auto|intros p I; apply PX; apply all_pix_In; auto].
  set (ps := all_pix (ai_cols m) (ai_rows m)). cbn [bind].
  rewrite (f32_ang k m "IQ" (fun p => dec k (ai_iq m p))) by reflexivity. cbn [bind]. unfold ps. rewrite reshape_ok by auto. cbn [bind].
  rewrite (f32_ang k m "CI" (fun p => dec k (ai_ci m p))) by reflexivity. cbn [bind]. rewrite reshape_ok by auto. cbn [bind].
  rewrite (f32_ang k m "FF" (fun p => dec k (ai_sem m p))) by reflexivity. cbn [bind]. rewrite reshape_ok by auto. cbn [bind].
  rewrite (u8_ang k m "phase" (ai_ph m)) by reflexivity. cbn [bind]. rewrite reshape_ok by auto. cbn [bind].
  rewrite (f32_ang k m "ph1" (fun p => dec k (ai_e1 m p))) by reflexivity. cbn [bind].
  rewrite (f32_ang k m "phi" (fun p => dec k (ai_e2 m p))) by reflexivity. cbn [bind].
  rewrite (f32_ang k m "ph2" (fun p => dec k (ai_e3 m p))) by reflexivity. cbn [bind].
  rewrite !map_map, zip3_map, reshape_ok by auto. reflexivity.
Qed.

Lemma made_read k ps os : (forall p, In p ps -> one_word (ai_name p)) -> Forall2 (made k) ps os -> Forall2 (phase_read k) ps os.
Proof.
  intros W F. induction F as [|p o ps os [(ws & E) R] F IH]; constructor.
  - apply R. destruct (W p (or_introl eq_refl)) as [N G]. rewrite words_one in E by auto. congruence.
  - apply IH. intros; apply W; now right.
Qed.
Lemma shift_turned k x : turned k x (shift_ph1 (dec k x)).
Proof.
  exists (dec k x). split; [apply fixed_rounded|]. unfold shift_ph1. destruct (Rlt_dec (dec k x - PI / 2) 0); [right|left]; lra.
Qed.
