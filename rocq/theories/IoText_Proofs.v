(** Reading lines and CPR headers. *)
From Coq Require Import String Ascii Reals.
From Coq Require Import List ZArith Bool Lia.
Import ListNotations.
From Verif Require Import Py Text_Model Text_Proofs Ctf_Model Ctf_Spec Ctf_Proofs Io_Model Io_Spec.
Open Scope Z_scope.

Lemma txt_eqb_eq a b : txt_eqb a b = true <-> a = b.
Proof. unfold txt_eqb. destruct (list_eq_dec ascii_dec a b); split; congruence. Qed.
Lemma txt_eqb_neq a b : txt_eqb a b = false <-> a <> b.
Proof. unfold txt_eqb. destruct (list_eq_dec ascii_dec a b); split; congruence. Qed.
Lemma txt_eqb_refl a : txt_eqb a a = true. Proof. now apply txt_eqb_eq. Qed.

Lemma is_term_iff term exact l : is_term term exact l = true <-> stops term exact l.
Proof.
  unfold is_term, stops. destruct exact; [apply txt_eqb_eq | apply starts_iff].
Qed.
Lemma ignored_iff c l : blank_or_comment c l = true <-> ignored c l.
Proof.
  unfold blank_or_comment, ignored. destruct (strip l) as [|a r] eqn:E.
  - split; auto.
  - rewrite Ascii.eqb_eq. split; [intros ->; eauto|]. intros [H|(r' & H)]; congruence.
Qed.

Definition pure {A} (f : txt -> res A) (s : unit) (l : txt) : res (unit * A) := do a <- f l; Ok (tt, a).

Theorem read_until_spec {A} term c exact (f : txt -> A) ls :
  exists before after kept,
    ls = before ++ after /\ (forall l, In l before -> ~ stops term exact l) /\
    (after = [] \/ exists l r, after = l :: r /\ stops term exact l) /\
    kept_lines c before kept /\
    read_until term c exact (pure (fun l => Ok (f l))) tt ls = Ok (tt, map f kept, after).
Proof.
  induction ls as [|l ls IH].
  - exists [], [], []. split; [reflexivity|]. split; [intros l []|]. split; [now left|]. split; [constructor|reflexivity].
  - cbn [read_until]. destruct (is_term term exact l) eqn:T.
    + exists [], (l :: ls), []. split; [reflexivity|]. split; [intros x []|].
      split; [right; exists l, ls; split; auto; now apply is_term_iff|]. split; [constructor|reflexivity].
    + assert (NT : ~ stops term exact l) by (rewrite <- is_term_iff; congruence).
      destruct IH as (b & a & k & -> & F & E & K & R).
      destruct (blank_or_comment c l) eqn:B.
      * exists (l :: b), a, k. split; [reflexivity|]. split; [intros x [<-|I]; auto|].
        split; [auto|]. split; auto. constructor; auto. now apply ignored_iff.
      * exists (l :: b), a, (l :: k). split; [reflexivity|]. split; [intros x [<-|I]; auto|].
        split; [auto|]. split; [constructor; auto; rewrite <- ignored_iff; congruence|].
        unfold pure at 1. cbn [pure bind fst snd]. rewrite R. reflexivity.
Qed.

Theorem read_until_error {A} term c exact (f : txt -> res A) ls e :
  read_until term c exact (pure f) tt ls = Err e ->
  exists before l after, ls = before ++ l :: after /\ (forall x, In x (before ++ [l]) -> ~ stops term exact x) /\
    ~ ignored c l /\ f l = Err e /\ (forall x, In x before -> ~ ignored c x -> exists a, f x = Ok a).
Proof.
  induction ls as [|l ls IH]; cbn [read_until]; [discriminate|].
  destruct (is_term term exact l) eqn:T; [discriminate|].
  assert (NT : ~ stops term exact l) by (rewrite <- is_term_iff; congruence).
  destruct (blank_or_comment c l) eqn:B.
  - intros E. destruct (IH E) as (b & x & a & -> & F & G & H & I). exists (l :: b), x, a.
    split; [reflexivity|]. split; [intros y [<-|J]; auto|]. split; [auto|]. split; [auto|].
    intros y [<-|J]; auto. intros NI. exfalso. apply NI. now apply ignored_iff.
  - unfold pure at 1. destruct (f l) as [v|e'] eqn:FL; cbn [bind fst snd].
    + destruct (read_until term c exact (pure f) tt ls) as [q|e''] eqn:Q; cbn [bind]; [discriminate|].
      intros E. injection E as ->. destruct (IH eq_refl) as (b & x & a & -> & F & G & H & I). exists (l :: b), x, a.
      split; [reflexivity|]. split; [intros y [<-|J]; auto|]. split; [auto|]. split; [auto|]. intros y [<-|J]; eauto.
    + intros E. injection E as ->. exists [], l, ls. split; [reflexivity|]. split; [intros x [<-|[]]; auto|]. split; [rewrite <- ignored_iff; congruence|].
      split; [auto|intros x []].
Qed.

(** *** Dictionaries *)
Lemma dget_dset {V} k k' (v : V) d : dget k (dset k' v d) = if txt_eqb k' k then Some v else dget k d.
Proof.
  induction d as [|[k0 v0] d IH]; cbn [dset dget]; [reflexivity|].
  destruct (txt_eqb k0 k') eqn:E; cbn [dget].
  - apply txt_eqb_eq in E. subst. destruct (txt_eqb k' k); reflexivity.
  - rewrite IH. destruct (txt_eqb k0 k) eqn:F; auto. destruct (txt_eqb k' k) eqn:G; auto.
    apply txt_eqb_eq in F, G. subst. rewrite txt_eqb_refl in E. discriminate.
Qed.

(** *** CPR *)
Lemma entry_strip k v : good_item (Entry k v) -> strip (k ++ "="%char :: v) = k ++ "="%char :: v.
Proof.
  intros (_ & _ & A & B). apply strip_ends.
  - intros a r E. destruct k as [|x k]; cbn [app] in E; [assert (a = "="%char) as -> by congruence; reflexivity|].
    assert (a = x) as -> by congruence. eapply A; reflexivity.
  - intros a r E. destruct v as [|x v] using rev_ind.
    + apply app_inj_tail in E as [_ <-]. reflexivity.
    + clear IHv. replace (k ++ "="%char :: v ++ [x]) with ((k ++ "="%char :: v) ++ [x]) in E by (rewrite <- app_assoc; reflexivity).
      apply app_inj_tail in E as [_ <-]. eapply B; reflexivity.
Qed.
Lemma entry_parse k v d : good_item (Entry k v) -> parse_line (k ++ "="%char :: v) d = dset k v d.
Proof.
  intros G. unfold parse_line. rewrite entry_strip by auto. destruct G as (A & B & _).
  rewrite split_on_app, split_on_free by auto. reflexivity.
Qed.
Lemma entry_first k v c : good_item (Entry k v) -> (c = "["%char \/ c = ";"%char) ->
  exists a r, strip (k ++ "="%char :: v) = a :: r /\ a <> c.
Proof.
  intros G C. rewrite entry_strip by auto. destruct G as (_ & _ & A & _). destruct k as [|x k]; cbn [app].
  - do 2 eexists. split; [reflexivity|]. destruct C as [-> | ->]; discriminate.
  - do 2 eexists. split; [reflexivity|]. destruct (A x k eq_refl) as (_ & P & Q). destruct C as [-> | ->]; auto.
Qed.

Lemma item_not_section i : good_item i -> is_term (lit "[") false (item_line i) = false.
Proof.
  intros G. unfold is_term. destruct i as [k v|t]; cbn [item_line].
  - destruct (entry_first k v "["%char G (or_introl eq_refl)) as (a & r & E & N). rewrite E.
    cbn [starts_with lit list_ascii_of_string]. destruct (Ascii.eqb "[" a) eqn:X; auto. apply Ascii.eqb_eq in X. congruence.
  - destruct G as [G|(r & G)]; rewrite G; reflexivity.
Qed.

Definition fill (items : list cpr_item) (d : dict txt) : dict txt :=
  fold_left (fun d i => match i with Entry k v => dset k v d | Note _ => d end) items d.

Definition cpr_process := fun (d : dict txt) l => Ok (parse_line l d, tt).
Lemma read_items items rest d : (forall i, In i items -> good_item i) ->
  (rest = [] \/ exists l r, rest = l :: r /\ is_term (lit "[") false l = true) ->
  exists us, read_until (lit "[") ";" false cpr_process d (map item_line items ++ rest) = Ok (fill items d, us, rest).
Proof.
  intros G E. revert d. induction items as [|i items IH]; intros d; cbn [map app].
  - destruct E as [->|(l & r & -> & T)]; cbn [read_until]; [eexists; reflexivity|]. rewrite T. eexists; reflexivity.
  - cbn [read_until]. pose proof (G i (or_introl eq_refl)) as Gi. rewrite item_not_section by auto.
    destruct i as [k v|t]; cbn [item_line].
    + assert (NB : blank_or_comment ";" (k ++ "="%char :: v) = false).
      { destruct (blank_or_comment ";" (k ++ "="%char :: v)) eqn:B; auto. exfalso. apply ignored_iff in B.
        destruct (entry_first k v ";"%char Gi (or_intror eq_refl)) as (a & r & X & N). unfold ignored in B. rewrite X in B.
        destruct B as [B|(r' & B)]; congruence. }
      rewrite NB. unfold cpr_process at 1. cbn [bind fst snd]. rewrite entry_parse by auto.
      destruct (IH (fun i I => G i (or_intror I)) (dset k v d)) as (us & R). rewrite R. cbn [bind fst snd fill fold_left]. eexists; reflexivity.
    + assert (NB : blank_or_comment ";" t = true) by (apply ignored_iff; exact Gi).
      rewrite NB. apply IH. intros i I. apply G. now right.
Qed.

Lemma before_last_end c t : before_last c (t ++ [c]) = Some t.
Proof. induction t as [|a t IH]; cbn [app before_last]; [now rewrite Ascii.eqb_refl|]. now rewrite IH. Qed.
Lemma head_strip n : strip ("["%char :: n ++ ["]"%char]) = "["%char :: n ++ ["]"%char].
Proof.
  apply strip_ends.
  - intros a r E. injection E as <- _. reflexivity.
  - intros a r E. replace ("["%char :: n ++ ["]"%char]) with (("["%char :: n) ++ ["]"%char]) in E by reflexivity.
    apply app_inj_tail in E as [_ <-]. reflexivity.
Qed.
Lemma head_name n : n <> [] -> group_name ("["%char :: n ++ ["]"%char]) = Ok n.
Proof.
  intros N. unfold group_name. rewrite head_strip. cbn [Ascii.eqb Bool.eqb]. rewrite before_last_end.
  destruct n; [congruence|reflexivity].
Qed.
Lemma head_term n : is_term (lit "[") false ("["%char :: n ++ ["]"%char]) = true.
Proof. unfold is_term. rewrite head_strip. reflexivity. Qed.
Lemma head_kept n : blank_or_comment ";" ("["%char :: n ++ ["]"%char]) = false.
Proof. unfold blank_or_comment. rewrite head_strip. reflexivity. Qed.

Definition fill_all (secs : list cpr_section) (md : dict (dict txt)) : dict (dict txt) :=
  fold_left (fun md s => dset (sec_name s) (fill (sec_items s) []) md) secs md.

Lemma groups_ok secs : forall fuel md, (forall s, In s secs -> good_section s) ->
  (List.length (concat (map section_lines secs)) < fuel)%nat ->
  cpr_groups fuel (concat (map section_lines secs)) md = Ok (fill_all secs md).
Proof.
  induction secs as [|s secs IH]; intros fuel md G L.
  - destruct fuel; [cbn in L; lia|]. reflexivity.
  - destruct fuel as [|fuel]; [cbn in L; lia|]. destruct (G s (or_introl eq_refl)) as [N GI].
    cbn [map concat]. unfold section_lines at 1. cbn [app cpr_groups]. rewrite head_kept, head_name by auto. cbn [bind].
    destruct (read_items (sec_items s) (concat (map section_lines secs)) [] GI) as (us & R).
    { destruct secs as [|s' secs']; [now left|]. right. cbn [map concat]. unfold section_lines at 1.
      do 2 eexists. split; [reflexivity|]. apply head_term. }
    change (fun (d : dict txt) (l : txt) => Ok (parse_line l d, tt)) with cpr_process.
    rewrite R. cbn [bind fst snd]. rewrite IH.
    + reflexivity.
    + intros x I. apply G. now right.
    + cbn [map concat] in L. unfold section_lines at 1 in L. cbn [app List.length] in L. rewrite app_length in L. lia.
Qed.
Lemma notes_ok notes : forall fuel md ls, (forall t, In t notes -> ignored ";" t) ->
  cpr_groups (List.length notes + fuel) (notes ++ ls) md = cpr_groups fuel ls md.
Proof.
  induction notes as [|t notes IH]; intros fuel md ls F; [reflexivity|].
  cbn [List.length Nat.add app cpr_groups].
  assert (B : blank_or_comment ";" t = true) by (apply ignored_iff; apply F; now left).
  rewrite B. apply IH. intros x I. apply F. now right.
Qed.

Theorem read_cpr_ok notes secs : (forall t, In t notes -> ignored ";" t) -> (forall s, In s secs -> good_section s) ->
  read_cpr (cpr_lines notes secs) = Ok (fill_all secs []).
Proof.
  intros N G. unfold read_cpr, cpr_lines. rewrite app_length.
  replace (S (List.length notes + List.length (concat (map section_lines secs))))%nat
    with (List.length notes + S (List.length (concat (map section_lines secs))))%nat by lia.
  rewrite notes_ok by auto. apply groups_ok; auto.
Qed.

Lemma fill_get key items : forall d, dget key (fill items d) =
  match spec_entry key items with Some v => Some v | None => dget key d end.
Proof.
  induction items as [|i items IH] using rev_ind; intros d; [reflexivity|].
  unfold fill. rewrite fold_left_app. cbn [fold_left]. fold (fill items d).
  unfold spec_entry. rewrite rev_app_distr. cbn [rev app find].
  destruct i as [k v|t].
  - rewrite dget_dset. destruct (txt_eqb k key); [reflexivity|]. apply IH.
  - apply IH.
Qed.
Lemma fill_all_get name secs : forall md, dget name (fill_all secs md) =
  match spec_section secs name with Some items => Some (fill items []) | None => dget name md end.
Proof.
  induction secs as [|s secs IH] using rev_ind; intros md; [reflexivity|].
  unfold fill_all. rewrite fold_left_app. cbn [fold_left]. fold (fill_all secs md).
  unfold spec_section. rewrite rev_app_distr. cbn [rev app find].
  rewrite dget_dset. destruct (txt_eqb (sec_name s) name); [reflexivity|]. apply IH.
Qed.

Theorem read_cpr_value notes secs : (forall t, In t notes -> ignored ";" t) -> (forall s, In s secs -> good_section s) ->
  exists md, read_cpr (cpr_lines notes secs) = Ok md /\
    (forall name, dget name md = None <-> spec_section secs name = None) /\
    forall name key, match dget name md with Some d => dget key d | None => None end = spec_value secs name key.
Proof.
  intros N G. exists (fill_all secs []). split; [apply read_cpr_ok; auto|]. split.
  - intros name. rewrite fill_all_get. destruct (spec_section secs name); split; cbn [dget]; congruence.
  - intros name key. rewrite fill_all_get. unfold spec_value. destruct (spec_section secs name); [|reflexivity].
    rewrite fill_get. destruct (spec_entry key l); reflexivity.
Qed.

(** Fuel. *)
Lemma read_until_rest {S A} term c exact (p : S -> txt -> res (S * A)) ls : forall s r,
  read_until term c exact p s ls = Ok r -> (List.length (snd r) <= List.length ls)%nat.
Proof.
  induction ls as [|l ls IH]; intros s r; cbn [read_until].
  - intros E. injection E as <-. cbn. lia.
  - destruct (is_term term exact l); [intros E; injection E as <-; cbn; lia|].
    destruct (blank_or_comment c l).
    + intros E. apply IH in E. cbn [List.length]. lia.
    + destruct (p s l) as [v|e]; cbn [bind]; [|discriminate].
      destruct (read_until term c exact p (fst v) ls) as [q|e] eqn:Q; cbn [bind]; [|discriminate].
      intros E. injection E as <-. apply IH in Q. cbn [snd List.length]. lia.
Qed.
Lemma cpr_reads ls : forall d, exists r, read_until (lit "[") ";" false cpr_process d ls = Ok r.
Proof.
  induction ls as [|y l IH]; intros d; cbn [read_until]; [eexists; reflexivity|].
  destruct (is_term _ _ _); [eexists; reflexivity|]. destruct (blank_or_comment _ _); [apply IH|].
  unfold cpr_process at 1. cbn [bind fst snd]. destruct (IH (parse_line y d)) as (r & R). rewrite R. eexists; reflexivity.
Qed.
Theorem read_cpr_fuel ls : read_cpr ls <> Err OutOfFuel.
Proof.
  unfold read_cpr. assert (G : forall n fuel l md, (List.length l <= n)%nat -> (List.length l < fuel)%nat -> cpr_groups fuel l md <> Err OutOfFuel).
  { induction n as [|n IH]; intros fuel l md L F.
    - destruct l; [|cbn in L; lia]. destruct fuel; [lia|]. discriminate.
    - destruct fuel as [|fuel]; [lia|]. destruct l as [|x l]; [discriminate|]. cbn [cpr_groups List.length] in *.
      destruct (blank_or_comment ";" x); [apply IH; lia|].
      destruct (group_name x) as [nm|e] eqn:GN; cbn [bind].
      + change (fun (d : dict txt) (l : txt) => Ok (parse_line l d, tt)) with cpr_process.
        destruct (cpr_reads l []) as (r & R). rewrite R. cbn [bind]. apply read_until_rest in R. apply IH; lia.
      + unfold group_name in GN. destruct (strip x) as [|a t]; [congruence|]. destruct (Ascii.eqb a "["); [|congruence].
        destruct (before_last "]" t) as [[|? ?]|]; congruence. }
  apply (G (List.length ls)); lia.
Qed.

(** Lines with more or fewer than one '=' leave the dictionary alone. *)
Lemma parse_line_other line d : List.length (split_on "=" (strip line)) <> 2%nat -> parse_line line d = d.
Proof. unfold parse_line. intros N. destruct (split_on "=" (strip line)) as [|a [|b [|c l]]]; cbn in N; auto; lia. Qed.
