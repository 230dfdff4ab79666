(** Proofs about picking points and the registry of maps. *)
From Coq Require Import String Ascii Reals Lra.
From Coq Require Import List ZArith Bool Lia Sorted.
Import ListNotations.
From Verif Require Import Py Base_Model Base_Proofs Crystal_Model Dic_Proofs Text_Model Text_Proofs Ctf_Proofs Insp_Model Insp_Proofs Io_Model IoText_Proofs
  Homog_Model Homog_Spec.
Open Scope Z_scope.

(** *** The plot *)
Definition view (base : list (list (num * num))) (l0 : list (num * num)) (sel : num * num) : pplot :=
  PPlot (base ++ [l0; [sel]]) [List.length base; S (List.length base)].
Lemma two_0 {A} (a b : A) : nth_error [a; b] 0 = Some a.
Proof. reflexivity. Qed.
Lemma two_1 {A} (a b : A) : nth_error [a; b] 1 = Some b.
Proof. reflexivity. Qed.
Lemma view_sel base l0 sel : sel_point (view base l0 sel) = Ok sel.
Proof.
  unfold sel_point, view. cbn [ids layers]. rewrite two_1, nth_error_app2 by lia.
  replace (S (List.length base) - List.length base)%nat with 1%nat by lia. reflexivity.
Qed.
Lemma view_put1 base l0 sel sel' : put_points [sel'] (Some 1%nat) (view base l0 sel) = Ok (view base l0 sel').
Proof.
  unfold put_points, view. cbn [ids layers]. rewrite two_1. do 2 f_equal.
  replace (base ++ [l0; [sel]]) with ((base ++ [l0]) ++ [[sel]]) by (rewrite <- app_assoc; reflexivity).
  replace (S (List.length base)) with (List.length (base ++ [l0])) by (rewrite app_length; cbn; lia).
  rewrite change_nth_app, <- app_assoc. reflexivity.
Qed.
Lemma view_put0 base l0 l0' sel : put_points l0' (Some 0%nat) (view base l0 sel) = Ok (view base l0' sel).
Proof. unfold put_points, view. cbn [ids layers]. rewrite two_0. now rewrite change_nth_app. Qed.
Lemma view_layer0 base l0 sel : layer_of 0 (view base l0 sel) = Some l0.
Proof. unfold layer_of, view. cbn [ids layers]. rewrite two_0, nth_error_app2 by lia. now rewrite Nat.sub_diag. Qed.
Lemma view_layer1 base l0 sel : layer_of 1 (view base l0 sel) = Some [sel].
Proof.
  unfold layer_of, view. cbn [ids layers]. rewrite two_1, nth_error_app2 by lia.
  replace (S (List.length base) - List.length base)%nat with 1%nat by lia. reflexivity.
Qed.

Definition whole (o : option (Z * Z)) : num * num :=
  match o with None => nothing | Some (x, y) => (Fin (IZR x), Fin (IZR y)) end.
(** Every state of a session. *)
Definition state (base : list (list (num * num))) (b : R) (isl : bool) (pts : list (R * R)) (o : option (Z * Z)) : picker :=
  Picker pts isl (view base (shows b pts) (whole o)).
Lemma opened base b pts isl : open_picker base b pts isl = Ok (state base b isl pts None).
Proof.
  unfold open_picker, put_points. cbn [ids layers bind app]. unfold state, view. cbn [whole].
  rewrite app_length. cbn [List.length]. rewrite Nat.add_1_r. rewrite <- app_assoc. destruct pts; reflexivity.
Qed.

Lemma click_in base b isl pts o bt k x y : selects bt k ->
  homog_click true bt k x y (state base b isl pts o) = (state base b isl pts (Some (trunc x, trunc y)), None).
Proof.
  intros S. unfold homog_click. cbn [negb].
  replace ((bt =? 3) || ((bt =? 1) && is_shift k)) with true.
  - unfold state. cbn [shown]. rewrite (view_put1 base _ _ (whole (Some (trunc x, trunc y)))). reflexivity.
  - symmetry. destruct S as [->|[-> ->]]; reflexivity.
Qed.
Lemma click_out base b isl pts o i bt k x y : ~ (i = true /\ selects bt k) ->
  homog_click i bt k x y (state base b isl pts o) = (state base b isl pts o, None).
Proof.
  intros N. unfold homog_click. destruct i; [|reflexivity]. cbn [negb].
  destruct ((bt =? 3) || ((bt =? 1) && is_shift k)) eqn:E; auto. exfalso. apply N. split; auto.
  apply orb_true_iff in E as [E|E]; [left; now apply Z.eqb_eq|]. apply andb_true_iff in E as [E F]. right.
  split; [now apply Z.eqb_eq|]. destruct k as [t|]; [|discriminate]. apply txt_eqb_eq in F. now subst.
Qed.

(** *** Keys *)
Definition moved (f : Z * Z) (o : option (Z * Z)) : option (Z * Z) := option_map (fun s => (fst s + fst f, snd s + snd f)) o.
Lemma arrow_no_plus a : ~ In "+"%char (arrow_text a).
Proof. destruct a; cbn; intuition discriminate. Qed.
Lemma press_split p : proper p -> split_on "+" (press_text p) = mods p ++ [arrow_text (arr p)].
Proof.
  intros P. apply split_join; [now destruct (mods p)|]. intros t I. apply in_app_or in I as [I|[<-|[]]]; [auto|apply arrow_no_plus].
Qed.
Lemma press_amount p : proper p ->
  match split_on "+" (press_text p) with [k; _] => if txt_eqb k (lit "shift") then 10 else 1 | _ => 1 end = amount p.
Proof.
  intros P. rewrite press_split by auto. unfold amount. destruct (mods p) as [|m [|m' ms]] eqn:E; cbn [app].
  - destruct (list_eq_dec _ [] _); [discriminate|reflexivity].
  - unfold txt_eqb. destruct (list_eq_dec ascii_dec m (lit "shift")) as [->|N];
      destruct (list_eq_dec (list_eq_dec ascii_dec) _ _) as [H|H]; congruence.
  - replace (match ms ++ [arrow_text (arr p)] with [] => if txt_eqb m (lit "shift") then 10 else 1 | _ :: _ => 1 end) with 1
      by (destruct ms; reflexivity).
    destruct (list_eq_dec _ _ _); [discriminate|reflexivity].
Qed.
Lemma whole_plus_x o d : (num_plus (fst (whole o)) d, snd (whole o)) = whole (moved (d, 0) o).
Proof. destruct o as [[x y]|]; cbn [whole fst snd num_plus moved option_map nothing]; [|reflexivity]. rewrite Z.add_0_r, plus_IZR. reflexivity. Qed.
Lemma whole_plus_y o d : (fst (whole o), num_plus (snd (whole o)) d) = whole (moved (0, d) o).
Proof. destruct o as [[x y]|]; cbn [whole fst snd num_plus moved option_map nothing]; [|reflexivity]. rewrite Z.add_0_r, plus_IZR. reflexivity. Qed.
Lemma press_ok base b isl pts o p : proper p ->
  homog_key (Some (press_text p)) (state base b isl pts o) = (state base b isl pts (moved (go_x p, go_y p) o), None).
Proof.
  intros P. unfold homog_key. cbv zeta. rewrite press_amount by auto. rewrite press_split by auto. rewrite last_last.
  replace (is_arrow (arrow_text (arr p))) with true by (destruct (arr p); reflexivity). cbn [negb].
  unfold state. cbn [shown]. rewrite view_sel.
  replace (move_by (arrow_text (arr p)) (amount p) (whole o)) with (whole (moved (go_x p, go_y p) o)).
  - rewrite view_put1. reflexivity.
  - unfold go_x, go_y. destruct (arr p);
      [rewrite <- whole_plus_x|rewrite <- whole_plus_x|rewrite <- whole_plus_y|rewrite <- whole_plus_y]; reflexivity.
Qed.
Lemma other_key base b isl pts o t : is_arrow (last (split_on "+" t) []) = false ->
  homog_key (Some t) (state base b isl pts o) = (state base b isl pts o, None).
Proof. intros E. unfold homog_key. now rewrite E. Qed.
Lemma any_key base b isl pts o k : exists o' e, homog_key k (state base b isl pts o) = (state base b isl pts o', e) /\ (o = None -> o' = None).
Proof.
  destruct k as [t|]; [|exists o, (Some AttributeError); split; auto].
  unfold homog_key. cbv zeta. destruct (negb (is_arrow (last (split_on "+" t) []))); [exists o, None; split; auto|].
  unfold state. cbn [shown]. rewrite view_sel.
  set (m := match split_on "+" t with [k; _] => if txt_eqb k (lit "shift") then 10 else 1 | _ => 1 end). clearbody m.
  assert (M : exists f, move_by (last (split_on "+" t) []) m (whole o) = whole (moved f o)).
  { unfold move_by. destruct (txt_eqb _ _); [exists (- m, 0); apply whole_plus_x|].
    destruct (txt_eqb _ _); [exists (m, 0); apply whole_plus_x|].
    destruct (txt_eqb _ _); [exists (0, - m); apply whole_plus_y|]. exists (0, m). apply whole_plus_y. }
  destruct M as (f & ->). rewrite view_put1. exists (moved f o), None. split; [reflexivity|]. intros ->. reflexivity.
Qed.

(** *** Saving *)
Lemma save_none base b isl pts : homog_save b (state base b isl pts None) = (state base b isl pts None, None).
Proof. unfold homog_save, state. cbn [shown]. rewrite view_sel. reflexivity. Qed.
Definition saved (b : R) (s : Z * Z) : R * R := (IZR (rint (IZR (fst s) / b)), IZR (rint (IZR (snd s) / b))).
Lemma save_some base b pts s : homog_save b (state base b true pts (Some s)) = (state base b true (pts ++ [saved b s]) None, None).
Proof.
  destruct s as [x y]. unfold homog_save, state. cbn [shown points is_list]. rewrite view_sel. cbn [whole].
  rewrite (view_put1 base _ _ nothing). cbn [negb]. rewrite view_put0. unfold saved. cbn [fst snd]. do 2 f_equal.
  destruct pts; reflexivity.
Qed.
Lemma save_array base b pts s : homog_save b (state base b false pts (Some s)) = (state base b false pts None, Some AttributeError).
Proof.
  destruct s as [x y]. unfold homog_save, state. cbn [shown points is_list]. rewrite view_sel. cbn [whole].
  rewrite (view_put1 base _ _ nothing). reflexivity.
Qed.

(** *** Sessions *)
Lemma session_cons b e es s : session b (e :: es) s = session b es (fst (on_event b e s)).
Proof. reflexivity. Qed.
Lemma session_app b es fs s : session b (es ++ fs) s = session b fs (session b es s).
Proof. unfold session. apply fold_left_app. Qed.
Lemma selects_dec bt k : selects bt k \/ ~ selects bt k.
Proof.
  unfold selects. destruct (Z.eq_dec bt 3); [auto|]. destruct (Z.eq_dec bt 1); [|right; tauto].
  destruct k as [t|]; [|right; intros [?|[_ ?]]; congruence].
  destruct (list_eq_dec ascii_dec t (lit "shift")) as [->|N]; [auto|]. right. intros [?|[_ ?]]; congruence.
Qed.
Lemma event_state base b isl pts o e : exists pts' o' x,
  on_event b e (state base b isl pts o) = (state base b isl (pts ++ pts') o', x) /\ (e <> Save -> pts' = []).
Proof.
  destruct e as [i bt k x y|k|]; cbn [on_event].
  - destruct (selects_dec bt k) as [S|N].
    + destruct i.
      * exists [], (Some (trunc x, trunc y)), None. rewrite app_nil_r. split; auto. now apply click_in.
      * exists [], o, None. rewrite app_nil_r. split; auto.
    + exists [], o, None. rewrite app_nil_r. split; auto. apply click_out. tauto.
  - destruct (any_key base b isl pts o k) as (o' & e & -> & _). exists [], o', e. rewrite app_nil_r. auto.
  - destruct o as [s|]; [|exists [], None, None; rewrite app_nil_r; split; [apply save_none|congruence]].
    destruct isl.
    + exists [saved b s], None, None. split; [apply save_some|congruence].
    + exists [], None, (Some AttributeError). rewrite app_nil_r. split; [apply save_array|congruence].
Qed.
Lemma session_state base b isl es : forall pts o, exists pts' o',
  session b es (state base b isl pts o) = state base b isl (pts ++ pts') o' /\ (~ In Save es -> pts' = []).
Proof.
  induction es as [|e es IH]; intros pts o.
  - exists [], o. rewrite app_nil_r. auto.
  - rewrite session_cons. destruct (event_state base b isl pts o e) as (p1 & o1 & x & -> & N). cbn [fst].
    destruct (IH (pts ++ p1) o1) as (p2 & o2 & -> & N2). exists (p1 ++ p2), o2. rewrite app_assoc. split; auto.
    intros NI. rewrite N, N2; auto; intros I; apply NI; [now right|now left].
Qed.
Lemma presses base b isl pts ps : (forall p, In p ps -> proper p) -> forall o,
  session b (map press_event ps) (state base b isl pts o) = state base b isl pts (moved (total go_x ps, total go_y ps) o) /\
  complaints b (map press_event ps) (state base b isl pts o) = [].
Proof.
  induction ps as [|p ps IH]; intros P o.
  - cbn [map complaints]. split; auto. unfold moved, total. cbn [map fold_right]. unfold session. cbn [fold_left]. f_equal.
    destruct o as [[x y]|]; cbn [option_map fst snd]; [do 2 f_equal; lia|reflexivity].
  - cbn [map complaints]. rewrite session_cons.
    assert (E : on_event b (press_event p) (state base b isl pts o) = (state base b isl pts (moved (go_x p, go_y p) o), None))
      by (apply press_ok, P; now left).
    rewrite E. cbn [fst snd app].
    destruct (IH (fun q I => P q (or_intror I)) (moved (go_x p, go_y p) o)) as [A B]. split.
    + rewrite A. f_equal. unfold moved, total. cbn [map fold_right].
      destruct o as [[x y]|]; cbn [option_map fst snd]; [do 2 f_equal; lia|reflexivity].
    + exact B.
Qed.
Lemma complaints_app b es : forall fs s, complaints b (es ++ fs) s = complaints b es s ++ complaints b fs (session b es s).
Proof.
  induction es as [|e es IH]; intros fs s; [reflexivity|]. cbn [app complaints]. rewrite IH, session_cons. now rewrite app_assoc.
Qed.

(** *** The registry *)
Definition sound (r : registry) : Prop :=
  (0 < List.length (exps r))%nat /\
  (forall i inc, nth_error (incs r) i = Some inc -> (i_exp inc < List.length (exps r))%nat) /\
  (forall e l, nth_error (exps r) e = Some l -> NoDup l /\
     forall i, In i l <-> exists inc, nth_error (incs r) i = Some inc /\ i_exp inc = e).
Lemma sound_new_exp r : sound r -> sound (snd (new_experiment r)).
Proof.
  intros (A & B & C). unfold new_experiment. cbn [snd]. split; [|split]; cbn [exps incs].
  - rewrite app_length. cbn. lia.
  - intros i inc I. apply B in I. rewrite app_length. cbn. lia.
  - intros e l E. destruct (Nat.lt_ge_cases e (List.length (exps r))) as [L|L].
    + rewrite nth_error_app1 in E by auto. auto.
    + rewrite nth_error_app2 in E by auto. destruct (e - List.length (exps r))%nat as [|k] eqn:K; [|destruct k; discriminate].
      cbn in E. injection E as <-. split; [constructor|]. intros i. split; [intros []|]. intros (inc & I & X). apply B in I. lia.
Qed.
Lemma nth_snoc {A} (l : list A) a i x : nth_error (l ++ [a]) i = Some x <->
  nth_error l i = Some x \/ i = List.length l /\ x = a.
Proof.
  destruct (Nat.lt_ge_cases i (List.length l)) as [L|L].
  - rewrite nth_error_app1 by auto. split; [auto|]. intros [H|[-> _]]; [auto|lia].
  - rewrite nth_error_app2 by auto. assert (N : nth_error l i = None) by (now apply nth_error_None). rewrite N.
    destruct (i - List.length l)%nat as [|k] eqn:K; cbn [nth_error].
    + split; [intros E; injection E as <-; right; split; [lia|auto]|]. intros [H|[_ ->]]; [discriminate|auto].
    + split; [destruct k; discriminate|]. intros [H|[H _]]; [discriminate|lia].
Qed.
Lemma sound_add_inc r e : sound r -> (e < List.length (exps r))%nat -> sound (snd (add_increment e r)).
Proof.
  intros (A & B & C) L. unfold add_increment. cbn [snd]. split; [|split]; cbn [exps incs].
  - now rewrite change_nth_length.
  - intros i inc I. rewrite change_nth_length. apply nth_snoc in I as [I|[-> ->]]; [eauto|exact L].
  - intros f l. rewrite change_nth_nth. destruct (Nat.eqb_spec f e) as [->|N].
    + destruct (nth_error (exps r) e) as [l0|] eqn:E; [|discriminate]. cbn [option_map]. intros X. injection X as <-.
      destruct (C e l0 E) as [ND S]. split.
      * assert (F : ~ In (List.length (incs r)) l0).
        { intros I. apply S in I as (inc & I & _). assert (H : nth_error (incs r) (List.length (incs r)) <> None) by congruence.
          apply nth_error_Some in H. lia. }
        clear -ND F. induction l0 as [|a l0 IH]; cbn [app]; [constructor; [intros []|constructor]|].
        inversion ND; subst. constructor; [|apply IH; auto; intros I; apply F; now right].
        intros I. apply in_app_or in I as [I|[I|[]]]; [auto|]. apply F. left. auto.
      * intros i. rewrite in_app_iff. cbn [In]. split.
        -- intros [I|[<-|[]]].
           ++ apply S in I as (inc & I & X). exists inc. split; auto. apply nth_snoc. auto.
           ++ eexists. split; [apply nth_snoc; right; split; reflexivity|reflexivity].
        -- intros (inc & I & X). apply nth_snoc in I as [I|[-> ->]]; [left; apply S; eauto|right; auto].
    + intros E. destruct (C f l E) as [ND S]. split; auto. intros i. rewrite S. split.
      * intros (inc & I & X). exists inc. split; auto. apply nth_snoc. auto.
      * intros (inc & I & X). apply nth_snoc in I as [I|[-> ->]]; [eauto|]. cbn [i_exp] in X. congruence.
Qed.
Lemma add_map_get r i name m j inc : nth_error (incs (add_map i name m r)) j = Some inc <->
  exists inc0, nth_error (incs r) j = Some inc0 /\ inc = (if (j =? i)%nat then Increment (i_exp inc0) (dset name m (i_maps inc0)) else inc0).
Proof.
  unfold add_map. cbn [incs]. rewrite change_nth_nth. destruct (j =? i)%nat; destruct (nth_error (incs r) j) as [c|]; cbn [option_map].
  all: split; [intros E; injection E as <- || discriminate E; eauto | intros (c0 & E & ->); congruence].
Qed.
Lemma sound_add_map r i name m : sound r -> sound (add_map i name m r).
Proof.
  intros (A & B & C). split; [|split].
  - exact A.
  - intros j inc J. apply add_map_get in J as (c & J & ->). change (exps (add_map i name m r)) with (exps r).
    apply B in J. destruct (j =? i)%nat; exact J.
  - change (exps (add_map i name m r)) with (exps r). intros e l E. destruct (C e l E) as [ND S]. split; auto.
    intros j. rewrite S. split.
    + intros (c & J & X). eexists. split; [apply add_map_get; eauto|]. now destruct (j =? i)%nat.
    + intros (c & J & X). apply add_map_get in J as (c0 & J & ->). exists c0. split; auto. now destruct (j =? i)%nat.
Qed.
Lemma sound_maps r n : sound r -> sound (Registry (exps r) (incs r) n).
Proof. exact (fun H => H). Qed.
Lemma sound_new_map r e i name mn loads : sound r -> (forall e', e = Some e' -> (e' < List.length (exps r))%nat) ->
  sound (snd (new_map e i name mn loads r)).
Proof.
  intros S L. unfold new_map. destruct i as [i|].
  - destruct (nth_error (incs r) i) as [inc|]; [|exact S]. destruct e as [e|]; [destruct (negb _); [exact S|]|];
      cbn [snd]; apply sound_add_map, sound_maps, S.
  - assert (L' : (match e with Some e => e | None => 0%nat end < List.length (exps r))%nat) by (destruct e; [auto|apply S]).
    pose proof (sound_add_inc r _ S L') as S'. destruct (add_increment _ r) as [k r']. cbn [snd] in *. apply sound_add_map, sound_maps, S'.
Qed.
Lemma made_sound r : made r -> sound r.
Proof.
  induction 1.
  - split; [cbn; lia|]. split; [intros i inc I; destruct i; discriminate|].
    intros [|[|e]] l E; try discriminate. injection E as <-. split; [constructor|]. intros i. split; [intros []|].
    intros (inc & I & _). destruct i; discriminate.
  - now apply sound_new_exp.
  - now apply sound_add_inc.
  - now apply sound_new_map.
Qed.

Lemma next_spec name incs l : forall k, match next_from name incs l k with
  | Some (j, m) => (k <= j)%nat /\ (exists i inc, nth_error l (j - k) = Some i /\ nth_error incs i = Some inc /\ dget name (i_maps inc) = Some m) /\
      forall n i inc m', (n < j - k)%nat -> nth_error l n = Some i -> nth_error incs i = Some inc -> dget name (i_maps inc) <> Some m'
  | None => forall n i inc m', nth_error l n = Some i -> nth_error incs i = Some inc -> dget name (i_maps inc) <> Some m'
  end.
Proof.
  induction l as [|i l IH]; intros k; cbn [next_from]; [intros n j inc m' N; destruct n; discriminate|].
  assert (R : forall (H : forall inc m', nth_error incs i = Some inc -> dget name (i_maps inc) <> Some m'),
    match next_from name incs l (S k) with
    | Some (j, m) => (k <= j)%nat /\ (exists i0 inc, nth_error (i :: l) (j - k) = Some i0 /\ nth_error incs i0 = Some inc /\ dget name (i_maps inc) = Some m) /\
        forall n i0 inc m', (n < j - k)%nat -> nth_error (i :: l) n = Some i0 -> nth_error incs i0 = Some inc -> dget name (i_maps inc) <> Some m'
    | None => forall n i0 inc m', nth_error (i :: l) n = Some i0 -> nth_error incs i0 = Some inc -> dget name (i_maps inc) <> Some m'
    end).
  { intros H. specialize (IH (S k)). destruct (next_from name incs l (S k)) as [[j m]|].
    - destruct IH as (A & B & C). split; [lia|]. replace (j - k)%nat with (S (j - S k)) by lia. split; [exact B|].
      intros [|n] i0 inc m' L E; cbn [nth_error] in E; [injection E as <-; auto|]. apply (C n); auto. lia.
    - intros [|n] i0 inc m' E; cbn [nth_error] in E; [injection E as <-; auto|eauto]. }
  destruct (nth_error incs i) as [inc|] eqn:E; [|apply R; congruence].
  destruct (dget name (i_maps inc)) as [m|] eqn:D.
  - split; [lia|]. rewrite Nat.sub_diag. split; [|intros n i0 inc0 m' L; lia]. exists i, inc. auto.
  - apply R. intros c m' X. congruence.
Qed.
Fixpoint all_from (name : txt) (incs : list increment) (l : list nat) (k : nat) : list (nat * nat) :=
  match l with
  | [] => []
  | i :: l => (match nth_error incs i with Some inc => match dget name (i_maps inc) with Some m => [(k, m)] | None => [] end | None => [] end)
      ++ all_from name incs l (S k)
  end.
Lemma all_from_next name incs l : forall k, all_from name incs l k =
  match next_from name incs l k with Some (j, m) => (j, m) :: all_from name incs (skipn (S j - k) l) (S j) | None => [] end.
Proof.
  induction l as [|i l IH]; intros k; [reflexivity|]. cbn [all_from next_from].
  assert (R : all_from name incs l (S k) = match next_from name incs l (S k) with
    | Some (j, m) => (j, m) :: all_from name incs (skipn (S j - k) (i :: l)) (S j) | None => [] end).
  { rewrite IH. pose proof (next_spec name incs l (S k)) as N. destruct (next_from name incs l (S k)) as [[j m]|]; [|reflexivity].
    destruct N as (N & _). replace (S j - k)%nat with (S (S j - S k)) by lia. reflexivity. }
  destruct (nth_error incs i) as [inc|]; [|exact R]. destruct (dget name (i_maps inc)) as [m|]; [|exact R].
  replace (S k - k)%nat with 1%nat by lia. reflexivity.
Qed.
Lemma skipn_skipn_local {A} a b (l : list A) : skipn a (skipn b l) = skipn (a + b) l.
Proof.
  revert l. induction b as [|b IH]; intros l; [now rewrite Nat.add_0_r|].
  destruct l as [|x l]; [now rewrite !skipn_nil|]. rewrite Nat.add_succ_r. cbn [skipn]. apply IH.
Qed.
Lemma drain_all e name r l : nth_error (exps r) e = Some l -> forall fuel k, (List.length l < fuel + k)%nat ->
  drain fuel e name (Some k) r = all_from name (incs r) (skipn k l) k.
Proof.
  intros E. induction fuel as [|fuel IH]; intros k L.
  - rewrite skipn_all2 by lia. reflexivity.
  - cbn [drain]. unfold gen_next. rewrite E, all_from_next. pose proof (next_spec name (incs r) (skipn k l) k) as N.
    destruct (next_from name (incs r) (skipn k l) k) as [[j m]|]; [|reflexivity]. destruct N as (N & _). f_equal.
    rewrite IH by lia. rewrite skipn_skipn_local. now replace (S j - k + k)%nat with (S j) by lia.
Qed.
Lemma all_from_in name incs l : forall k j m, In (j, m) (all_from name incs l k) <->
  (k <= j)%nat /\ exists i inc, nth_error l (j - k) = Some i /\ nth_error incs i = Some inc /\ dget name (i_maps inc) = Some m.
Proof.
  induction l as [|i l IH]; intros k j m; cbn [all_from].
  - split; [intros []|]. intros (_ & i & inc & E & _). destruct (j - k)%nat; discriminate.
  - rewrite in_app_iff, IH. split.
    + intros [H|(L & i0 & inc & A & B & C)].
      * destruct (nth_error incs i) as [inc|] eqn:E; [|destruct H]. destruct (dget name (i_maps inc)) as [m0|] eqn:D; [|destruct H].
        destruct H as [H|[]]. injection H as <- <-. split; [lia|]. rewrite Nat.sub_diag. exists i, inc. auto.
      * split; [lia|]. replace (j - k)%nat with (S (j - S k)) by lia. exists i0, inc. auto.
    + intros (L & i0 & inc & A & B & C). destruct (Nat.eq_dec j k) as [->|N].
      * rewrite Nat.sub_diag in A. cbn in A. injection A as <-. left. rewrite B, C. now left.
      * right. split; [lia|]. replace (j - k)%nat with (S (j - S k)) in A by lia. exists i0, inc. auto.
Qed.
Lemma all_from_sorted name incs l : forall k, StronglySorted lt (map fst (all_from name incs l k)).
Proof.
  induction l as [|i l IH]; intros k; cbn [all_from map]; [constructor|]. rewrite map_app.
  assert (R : forall m : nat, StronglySorted lt (k :: map fst (all_from name incs l (S k)))).
  { intros _. constructor; [apply IH|]. apply Forall_forall. intros j J. apply in_map_iff in J as ([j' m] & <- & J).
    apply all_from_in in J as [J _]. cbn [fst]. lia. }
  destruct (nth_error incs i) as [inc|]; [|apply IH]. destruct (dget name (i_maps inc)) as [m|]; [exact (R m)|apply IH].
Qed.
Lemma gen_next_spec e name k r l : nth_error (exps r) e = Some l ->
  match gen_next e name (Some k) r with
  | (Ok (j, m), g) => (k <= j)%nat /\ (exists i, nth_error l j = Some i /\ has_map r i name m) /\
      (forall n i m', (k <= n < j)%nat -> nth_error l n = Some i -> ~ has_map r i name m') /\ g = Some (S j)
  | (Err x, g) => x = StopIteration /\ g = None /\ forall n i m', (k <= n)%nat -> nth_error l n = Some i -> ~ has_map r i name m'
  end.
Proof.
  intros E. unfold gen_next. rewrite E. pose proof (next_spec name (incs r) (skipn k l) k) as N.
  assert (K : forall n, nth_error (skipn k l) n = nth_error l (k + n)).
  { clear. revert l. induction k as [|k IH]; intros l n; [reflexivity|]. destruct l as [|x l]; [now destruct n|]. cbn [skipn]. rewrite IH. reflexivity. }
  destruct (next_from name (incs r) (skipn k l) k) as [[j m]|].
  - destruct N as (L & (i & inc & A & B & C) & F). split; [auto|]. split; [|split; [|auto]].
    + exists i. rewrite K in A. replace (k + (j - k))%nat with j in A by lia. split; auto. exists inc. auto.
    + intros n i0 m' Ln En (inc0 & X & Y). apply (F (n - k)%nat i0 inc0 m'); auto; [lia|]. rewrite K. now replace (k + (n - k))%nat with n by lia.
  - split; auto. split; auto. intros n i0 m' Ln En (inc0 & X & Y). apply (N (n - k)%nat i0 inc0 m'); auto.
    rewrite K. now replace (k + (n - k))%nat with n by lia.
Qed.
Lemma has_added r i name m j n m' : has_map (add_map i name m r) j n m' <->
  (exists inc, nth_error (incs r) j = Some inc) /\
  (if (j =? i)%nat then if txt_eqb name n then m' = m else has_map r j n m' else has_map r j n m').
Proof.
  unfold has_map. split.
  - intros (inc & A & D). apply add_map_get in A as (c & A & ->). split; [eauto|].
    destruct (j =? i)%nat; [|eauto]. cbn [i_maps] in D. rewrite dget_dset in D. destruct (txt_eqb name n); [congruence|eauto].
  - intros ((c & A) & D). eexists. split; [apply add_map_get; eauto|].
    destruct (j =? i)%nat; [|destruct D as (c0 & A0 & D0); congruence]. cbn [i_maps]. rewrite dget_dset.
    destruct (txt_eqb name n); [congruence|]. destruct D as (c0 & A0 & D0). congruence.
Qed.
Definition counted (r : registry) : Prop := forall i n m, has_map r i n m -> (m < n_maps r)%nat.
Lemma counted_add r i name : counted r -> counted (add_map i name (n_maps r) (Registry (exps r) (incs r) (S (n_maps r)))).
Proof.
  intros C j n m H. apply has_added in H as (_ & H). cbn [n_maps add_map].
  assert (F : has_map (Registry (exps r) (incs r) (S (n_maps r))) j n m -> (m < S (n_maps r))%nat) by (intros X; apply C in X; lia).
  destruct (j =? i)%nat; [destruct (txt_eqb name n); [subst; lia|auto]|auto].
Qed.
Lemma has_new_inc r e j n m : has_map (snd (add_increment e r)) j n m <-> has_map r j n m.
Proof.
  unfold has_map, add_increment. cbn [snd incs]. split.
  - intros (inc & A & D). apply nth_snoc in A as [A|[-> ->]]; [eauto|discriminate].
  - intros (inc & A & D). exists inc. split; auto. apply nth_snoc. auto.
Qed.
Lemma made_counted r : made r -> counted r.
Proof.
  induction 1 as [|r M IH|r e M IH L|r e i name mn loads M IH L].
  - intros i n m (inc & A & _). destruct i; discriminate.
  - exact IH.
  - intros j n m H. exact (IH j n m (proj1 (has_new_inc r e j n m) H)).
  - unfold new_map. destruct i as [i|].
    + destruct (nth_error (incs r) i) as [inc|]; [|exact IH]. destruct e as [e|]; [destruct (negb _); [exact IH|]|];
        cbn [snd]; apply counted_add, IH.
    + set (e0 := match e with Some e => e | None => 0%nat end).
      assert (C : counted (snd (add_increment e0 r))) by (intros j n m H; exact (IH j n m (proj1 (has_new_inc r e0 j n m) H))).
      destruct (add_increment e0 r) as [k r'] eqn:E. cbn [snd] in *. now apply counted_add.
Qed.
