(** Properties of the Datastore. *)
From Coq Require Import String.
From Coq Require Import List Arith ZArith Bool Lia Relations Permutation.
Import ListNotations.
From Verif Require Import Py Datastore_Model Datastore_Spec Datastore_Proofs DatastoreRoot_Proofs
  DatastoreOps_Proofs DatastoreUpdate_Model.
Open Scope string_scope.
Open Scope nat_scope.

(** Small heaps for the examples. *)
Definition id_crop (v _ : val) : res val := Ok v.
Definition blank (g : nat) (items : dict (dict val)) (ds : list deriv) : store :=
  Store items [] ds g id_crop (@Ok val).
Definition link (fid src : nat) (props : dict val) : deriv :=
  Deriv src fid (fun v => Ok (VTup [v])) (fun k => Ok (VStr k)) props [] false.

(* ------------------------------------------------------------------ C11 *)

(** Any history of additions and assignments, on stores without derivatives, has
    the outcomes and the contents of the abstract map. *)
Theorem C11_history_refines_map : forall n ops st,
  Forall (fun o => st_derivs (hp st (op_store o)) = [] /\
                   match o with OpAdd _ _ _ kw => NoDup (dkeys kw) | _ => True end) ops ->
  fst (run_ops n ops st) = fst (apply_ops ops (abstract (hp st))) /\
  abstract (hp (snd (run_ops n ops st))) = snd (apply_ops ops (abstract (hp st))) /\
  guard (snd (run_ops n ops st)) = guard st /\ clock (snd (run_ops n ops st)) = clock st.
Proof.
  intros n ops st H. destruct (run_ops_refines n ops st H) as (A & B & C & D & _). auto.
Qed.
Print Assumptions C11_history_refines_map.

(** Reading a stored item. *)
Theorem C11_read_stored : forall n s k st it,
  dget k (st_items (hp st s)) = Some it ->
  (forall a, a <> "data" ->
     getitem (S n) s k a st = (match dget a it with Some v => Ok v | None => Err KeyError end, st)) /\
  (forall v, dget "data" it = Some v ->
     v <> VNone \/ find_gen k (st_gens (hp st s)) = None ->
     getitem (S n) s k "data" st = (seen (hp st) s k v, st)).
Proof.
  intros n s k st it E. split.
  - intros a Na. now apply getitem_attr.
  - intros v Ev Hv. assert (Ea : attr_of (hp st) s k "data" = Some v) by (unfold attr_of; now rewrite E).
    destruct (is_none v) eqn:Ei; [|now apply getitem_data].
    destruct v; try discriminate. destruct Hv; [congruence|]. now apply getitem_data_none.
Qed.
Print Assumptions C11_read_stored.

(** Reading an item that is neither stored nor derived raises KeyError. *)
Theorem C11_read_absent : forall n s k a st,
  st_derivs (hp st s) = [] -> dget k (st_items (hp st s)) = None ->
  getitem (S n) s k a st = (Err KeyError, st).
Proof.
  intros n s k a st Hd E. unfold getitem. cbn [both snd]. unfold getitem_body.
  unfold bindM at 1, get_store at 1. rewrite E. unfold bindM.
  change (keys_of (fst (both n)) s st) with (keys n s st). rewrite keys_plain by auto.
  assert (inb k (dkeys (st_items (hp st s))) = false) as ->; auto.
  apply inb_false. now apply dget_none.
Qed.
Print Assumptions C11_read_absent.

Lemma apply_ops_app l1 : forall l2 m,
  snd (apply_ops (l1 ++ l2) m) = snd (apply_ops l2 (snd (apply_ops l1 m))).
Proof.
  induction l1 as [|o l1 IH]; intros l2 m; cbn [app apply_ops]; auto.
  destruct (apply_op o m) as [r m1]. specialize (IH l2 m1).
  destruct (apply_ops (l1 ++ l2) m1), (apply_ops l1 m1). cbn [snd] in *. exact IH.
Qed.
Lemma apply_ops_keep l : forall m s k a v, (exists it, m s k = Some it /\ it a = Some v) ->
  (forall v', ~ In (OpSet s k a v') l) ->
  exists it, snd (apply_ops l m) s k = Some it /\ it a = Some v.
Proof.
  induction l as [|o l IH]; intros m s k a v (it & E & Ea) Hno; cbn [apply_ops].
  - cbn [snd]. eauto.
  - destruct (apply_op o m) as [r m1] eqn:Eo.
    assert (Q : exists it, m1 s k = Some it /\ it a = Some v).
    { destruct o as [s' k' v' kw | s' k' a' v']; cbn [apply_op] in Eo.
      - destruct (m s' k') eqn:E'.
        + assert (m1 = m) by congruence. subst. eauto.
        + destruct (dget "data" kw); [assert (m1 = m) by congruence; subst; eauto|].
          match type of Eo with (_, ?x) = _ => assert (m1 = x) by congruence end. subst m1.
          destruct (Nat.eqb_spec s s') as [->|]; cbn [andb]; [|eauto].
          destruct (String.eqb_spec k k') as [->|]; [congruence | eauto].
      - destruct (m s' k') as [it'|] eqn:E'; [|assert (m1 = m) by congruence; subst; eauto].
        match type of Eo with (_, ?x) = _ => assert (m1 = x) by congruence end. subst m1.
        destruct (Nat.eqb_spec s s') as [->|]; cbn [andb]; [|eauto].
        destruct (String.eqb_spec k k') as [->|]; [|eauto].
        eexists. split; [reflexivity|]. cbn beta.
        assert (it' = it) by congruence. subst it'.
        destruct (String.eqb_spec a a') as [->|]; auto.
        exfalso. apply (Hno v'). now left. }
    destruct (IH m1 s k a v Q) as (it2 & E2 & Ea2).
    { intros v' H. apply (Hno v'). now right. }
    destruct (apply_ops l m1). cbn [snd] in *. eauto.
Qed.

(** In any history the value last assigned to an attribute is the one read,
    whatever is added or assigned elsewhere afterwards. *)
Theorem C11_read_last_write : forall n m before after s k a v st,
  let ops := (before ++ OpSet s k a v :: after)%list in
  Forall (fun o => st_derivs (hp st (op_store o)) = [] /\
                   match o with OpAdd _ _ _ kw => NoDup (dkeys kw) | _ => True end) ops ->
  (exists it, dget k (st_items (hp (snd (run_ops n before st)) s)) = Some it) ->
  (forall v', ~ In (OpSet s k a v') after) ->
  a <> "data" \/ v <> VNone ->
  let end_ := snd (run_ops n ops st) in
  getitem (S m) s k a end_ =
    (if String.eqb a "data" then seen (hp end_) s k v else Ok v, end_).
Proof.
  intros n m before after s k a v st ops HV (it & Ei) Hno Hnn end_.
  destruct (run_ops_refines n ops st HV) as (_ & B & _).
  assert (HVb : Forall (valid_op (hp st)) before).
  { unfold ops in HV. apply Forall_app in HV. apply HV. }
  destruct (run_ops_refines n before st HVb) as (_ & Bb & _).
  unfold ops in B. rewrite apply_ops_app, <- Bb in B. cbn [apply_ops apply_op] in B.
  unfold abstract in B at 2. rewrite Ei in B. fold (abstract (hp (snd (run_ops n before st)))) in B.
  match type of B with context [apply_ops after ?mm] => set (m1 := mm) in B end.
  assert (Q : exists it, m1 s k = Some it /\ it a = Some v).
  { unfold m1. rewrite Nat.eqb_refl, String.eqb_refl. cbn [andb]. eexists. split; [reflexivity|].
    cbn beta. now rewrite String.eqb_refl. }
  destruct (apply_ops_keep after m1 s k a v Q Hno) as (it2 & E2 & Ea2).
  destruct (apply_ops after m1) as [rs m2]. cbn [snd] in B, E2. fold ops in B. fold end_ in B.
  rewrite <- B in E2. unfold abstract in E2.
  destruct (dget k (st_items (hp end_ s))) as [it3|] eqn:E3; [|discriminate].
  assert (it2 = fun a => dget a it3) as -> by congruence.
  destruct (String.eqb_spec a "data") as [->|Na].
  - apply getitem_data; [unfold attr_of; now rewrite E3|]. destruct v; auto. destruct Hnn; congruence.
  - rewrite (getitem_attr m s k a end_ it3 Na E3). cbn beta in Ea2. now rewrite Ea2.
Qed.
Print Assumptions C11_read_last_write.

Example C11_history_example :
  let st := State (fun s => blank s [] []) None 0 in
  let ops := [OpAdd 0 "a" (VInt 1%Z) [("unit", VStr "um")]; OpAdd 0 "a" (VInt 5%Z) [];
              OpSet 0 "b" "data" (VInt 2%Z); OpSet 0 "a" "data" (VInt 3%Z); OpAdd 0 "b" (VInt 4%Z) []] in
  Forall (fun o => st_derivs (hp st (op_store o)) = [] /\
                   match o with OpAdd _ _ _ kw => NoDup (dkeys kw) | _ => True end) ops /\
  fst (run_ops 1 ops st) = [Ok tt; Err ValueError; Err ValueError; Ok tt; Ok tt] /\
  fst (getitem 1 0 "a" "data" (snd (run_ops 1 ops st))) = Ok (VInt 3%Z) /\
  fst (getitem 1 0 "a" "unit" (snd (run_ops 1 ops st))) = Ok (VStr "um").
Proof.
  cbv zeta. split; [|vm_compute; auto].
  repeat (constructor; [cbn; split; auto; repeat constructor; cbn; intuition discriminate|]).
  constructor.
Qed.

(* ------------------------------------------------------------------ C12 *)

(** A stored item, or an item handed on by the first derivative of each store on
    the way, is read without KeyError; the functions of the derivatives are
    applied in turn. *)
Theorem C12_listed_readable_partial : forall h G c s k w,
  well_formed h G -> no_self_link h -> reads h c s k w ->
  exists n0, forall n, n0 <= n -> getitem n s k "data" (State h None c) = (Ok w, State h None c).
Proof. intros. eapply reads_getitem; eauto. Qed.
Print Assumptions C12_listed_readable_partial.

(** In particular any key stored in the source of the first derivative that
    passes its filter. *)
Theorem C12_first_derivative_partial : forall h G c s d ds k v w x,
  well_formed h G -> no_self_link h ->
  st_derivs (h s) = d :: ds -> dget k (st_items (h s)) = None ->
  attr_of h (d_src d) k "data" = Some v -> v <> VNone -> passes h d k ->
  dget "data" (d_out d) = None -> d_pass_ref d = false ->
  seen h (d_src d) k v = Ok w -> d_func d w = Ok x ->
  (exists n0 ks, forall n, n0 <= n ->
     keys n s (State h None c) = (Ok ks, State h None c) /\ In k ks) /\
  (exists n0, forall n, n0 <= n ->
     getitem n s k "data" (State h None c) = (Ok x, State h None c)).
Proof.
  intros h G c s d ds k v w x W N Ed Es Ea Nv Pa Ho Hp Hs Hf.
  assert (Hd : In d (st_derivs (h s))) by (rewrite Ed; now left).
  assert (St : stored h (d_src d) k).
  { unfold attr_of in Ea. unfold stored. destruct (dget k (st_items (h (d_src d)))); [eauto|discriminate]. }
  split.
  - destruct (keys_any h G W (bound G) None c s (le_n _)) as (ks & g' & E & _ & _ & P).
    destruct (P eq_refl N) as [-> Q]. exists (bound G), (dkeys (st_items (h s)) ++ ks)%list.
    intros n Hn. split; [eapply le_ok; [apply (keys_mono (bound G)); lia | exact E]|].
    apply in_app_iff. right. eapply Q; eauto.
  - eapply reads_getitem; eauto.
    destruct (lookup_any h G W (bound G) None c s d (le_n _) Hd) as (ks & g' & E & _ & P).
    destruct (P eq_refl (N s d Hd)) as [-> (rest & Er)].
    eapply reads_func; eauto.
    + rewrite Er. apply in_app_iff. left. apply filter_In.
      split; [now apply dget_In | now apply dmatch_spec].
    + eapply reads_stored; eauto. destruct v; (reflexivity || congruence).
Qed.
Print Assumptions C12_first_derivative_partial.

Definition two_sources : nat -> store := fun s =>
  match s with
  | 0 => blank 0 [] [link 0 1 []; link 1 2 []]
  | 1 => blank 1 [("a", [("data", VInt 7%Z)])] []
  | 2 => blank 2 [("k", [("data", VInt 8%Z)])] []
  | _ => blank 2 [] []
  end.
Lemma two_sources_wf : well_formed two_sources [0; 1; 2] /\ no_self_link two_sources.
Proof.
  split; [split|].
  - intros [|[|[|s]]]; cbn; auto.
  - intros [|[|[|s]]] d; cbn; [intros [<-|[<-|[]]] | intros [] ..]; cbn; auto.
  - intros [|[|[|s]]] d; cbn; [intros [<-|[<-|[]]] | intros [] ..]; cbn; auto.
Qed.
Example C12_example : reads two_sources 0 0 "a" (VTup [VInt 7%Z]).
Proof.
  eapply reads_func with (d := link 0 1 []) (ks := ["a"]) (v := VInt 7%Z); try reflexivity.
  - exists 9. vm_compute. reflexivity.
  - now left.
  - eapply reads_stored; reflexivity.
Qed.

(** A key that only a later derivative contributes is listed but raises
    KeyError when it is read (utils.py 268-269). *)
Theorem C12_later_derivative_refuted : exists h G s k,
  well_formed h G /\ no_self_link h /\
  (exists d, In d (st_derivs (h s)) /\ stored h (d_src d) k /\ passes h d k) /\
  (forall n, 9 <= n -> exists ks, keys n s (State h None 0) = (Ok ks, State h None 0) /\ In k ks) /\
  (forall n, 10 <= n -> fst (getitem n s k "data" (State h None 0)) = Err KeyError).
Proof.
  exists two_sources, [0; 1; 2], 0, "k". destruct two_sources_wf as [W N].
  split; auto. split; auto. split; [|split].
  - exists (link 1 2 []). split; [right; now left|]. split; [eexists; reflexivity | intros mk want []].
  - intros n Hn. exists ["a"; "k"]. split; [|right; now left].
    eapply le_ok; [apply (keys_mono 9); lia | vm_compute; reflexivity].
  - intros n Hn. destruct (getitem_mono 10 n 0 "k" "data" Hn (State two_sources None 0)) as [E|E].
    + exfalso. revert E. vm_compute. discriminate.
    + rewrite <- E. vm_compute. reflexivity.
Qed.
Print Assumptions C12_later_derivative_refuted.

(** Filters on links compare values, also those in tuples; [save], [cropped] and the like are off exactly
    for python's empty values. *)
Lemma veqb_spec : forall a b, veqb a b = true <-> a = b.
Proof.
  fix IH 1. intros a b. destruct a as [|x|x|x|x|l], b as [|y|y|y|y|m]; cbn [veqb]; try (split; [discriminate|discriminate]); try (split; reflexivity).
  - rewrite Bool.eqb_true_iff. split; congruence.
  - rewrite Z.eqb_eq. split; congruence.
  - rewrite String.eqb_eq. split; congruence.
  - rewrite Nat.eqb_eq. split; congruence.
  - assert (K : forall m, (fix go (l m : list val) : bool := match l, m with | [], [] => true | p :: l, q :: m => veqb p q && go l m | _, _ => false end) l m = true <-> l = m).
    { clear m. induction l as [|p l IHl]; intros [|q m]; try (split; [discriminate|discriminate]); [split; reflexivity|].
      rewrite andb_true_iff, (IH p q), IHl. split; [intros [-> ->]; reflexivity|intros [= -> ->]; auto]. }
    rewrite K. split; congruence.
Qed.
Theorem C12_same_value : forall a b, (veqb a b = true <-> a = b) /\
  (truthy a = false <-> In a [VNone; VBool false; VInt 0; VStr ""; VTup []]).
Proof.
  intros a b. split; [apply veqb_spec|]. destruct a as [|x|x|x|x|l]; cbn [truthy In].
  - tauto.
  - destruct x; split; try discriminate; try tauto. intros [H|[H|[H|[H|[H|[]]]]]]; discriminate.
  - rewrite negb_false_iff, Z.eqb_eq. split; [intros ->; tauto|]. intros [H|[H|[H|[H|[H|[]]]]]]; congruence.
  - rewrite negb_false_iff, String.eqb_eq. split; [intros ->; tauto|]. intros [H|[H|[H|[H|[H|[]]]]]]; congruence.
  - split; [discriminate|]. intros [H|[H|[H|[H|[H|[]]]]]]; discriminate.
  - destruct l; split; try discriminate; try tauto. intros [H|[H|[H|[H|[H|[]]]]]]; discriminate.
Qed.
Print Assumptions C12_same_value.

(* ------------------------------------------------------------------ C13 *)

(** The first read of a generated key runs its generator once.  Every declared
    output whose "save" is not switched off is stored under its own key; nothing
    else changes. *)
Theorem C13_first_read_runs_and_saves : forall h G n s c k ks f r outs,
  bound G <= n -> well_formed h G -> no_self_link h ->
  attr_of h s k "data" = Some VNone ->
  find_gen k (st_gens (h s)) = Some (ks, f) ->
  NoDup ks -> incl ks (dkeys (st_items (h s))) ->
  f c = Ok r -> outputs ks r = Some outs ->
  exists h' v, In (k, v) outs /\
    getitem (S n) s k "data" (State h None c) = (seen h s k v, State h' None (S c)) /\
    (forall k v, In (k, v) outs -> truthy (attr_or h s k "save" (VBool true)) = true ->
       attr_of h' s k "data" = Some v) /\
    (forall s' k' a,
       (forall v, ~ (s' = s /\ a = "data" /\ In (k', v) outs /\
                     truthy (attr_or h s k' "save" (VBool true)) = true)) ->
       attr_of h' s' k' a = attr_of h s' k' a).
Proof.
  intros. edestruct getitem_generates as (h' & v & A & B & _ & _ & C & D); eauto 10.
Qed.
Print Assumptions C13_first_read_runs_and_saves.

(** With save switched off for every output nothing is stored. *)
Theorem C13_unsaved_not_stored : forall h G n s c k ks f r outs,
  bound G <= n -> well_formed h G -> no_self_link h ->
  attr_of h s k "data" = Some VNone ->
  find_gen k (st_gens (h s)) = Some (ks, f) ->
  NoDup ks -> incl ks (dkeys (st_items (h s))) ->
  f c = Ok r -> outputs ks r = Some outs ->
  (forall k, In k ks -> truthy (attr_or h s k "save" (VBool true)) = false) ->
  exists h' v, In (k, v) outs /\
    getitem (S n) s k "data" (State h None c) = (seen h s k v, State h' None (S c)) /\
    forall s' k' a, attr_of h' s' k' a = attr_of h s' k' a.
Proof.
  intros h G n s c k ks f r outs Hn W N E Hf ND Inc Er Ho Hs.
  destruct (C13_first_read_runs_and_saves h G n s c k ks f r outs Hn W N E Hf ND Inc Er Ho)
    as (h' & v & A & B & _ & D).
  exists h', v. split; auto. split; auto. intros s' k' a. apply D.
  intros w (_ & _ & Hin & Ht). rewrite Hs in Ht; [discriminate|].
  clear -Ho Hin. unfold outputs in Ho. destruct ks as [|k1 [|k2 ks]].
  - destruct r; try discriminate. destruct (Nat.eqb _ _); [|discriminate].
    cbn [combine] in Ho; assert (outs = []) as -> by congruence. destruct Hin.
  - assert (outs = [(k1, r)]) as -> by congruence. destruct Hin as [Hin|[]]. left. congruence.
  - destruct r as [| | | | |l]; try discriminate. destruct (Nat.eqb _ _); [|discriminate].
    assert (outs = combine (k1 :: k2 :: ks) l) as -> by congruence. now apply in_combine_l in Hin.
Qed.
Print Assumptions C13_unsaved_not_stored.

(** Reads of [keys] of store [s], one after another. *)
Fixpoint read_all (n s : nat) (ks : list string) (st : state) : list (res val) * state :=
  match ks with
  | [] => ([], st)
  | k :: ks => let (r, st1) := getitem n s k "data" st in
               let (rs, st2) := read_all n s ks st1 in (r :: rs, st2)
  end.

(** Once an output is stored and is not None, any further reads of such outputs
    return the stored values and run nothing. *)
Theorem C13_later_reads_reuse : forall n s ks st,
  (forall k, In k ks -> exists v, attr_of (hp st) s k "data" = Some v /\ v <> VNone) ->
  read_all (S n) s ks st =
    (map (fun k => seen (hp st) s k (attr_or (hp st) s k "data" VNone)) ks, st).
Proof.
  intros n s ks st. induction ks as [|k ks IH]; intros H; cbn [read_all map]; auto.
  destruct (H k (or_introl eq_refl)) as (v & E & Nv).
  rewrite (getitem_data n s k v) by (auto; destruct v; (reflexivity || congruence)).
  rewrite IH by (intros; apply H; now right).
  assert (attr_or (hp st) s k "data" VNone = v) as -> by (unfold attr_or; now rewrite E). reflexivity.
Qed.
Print Assumptions C13_later_reads_reuse.

(** First read then any number of reads: one run in all, always the same
    answer. *)
Theorem C13_computed_once : forall h G n s c k ks f r outs m,
  bound G <= n -> well_formed h G -> no_self_link h ->
  attr_of h s k "data" = Some VNone ->
  find_gen k (st_gens (h s)) = Some (ks, f) ->
  NoDup ks -> incl ks (dkeys (st_items (h s))) ->
  f c = Ok r -> outputs ks r = Some outs ->
  truthy (attr_or h s k "save" (VBool true)) = true -> ~ In (k, VNone) outs ->
  exists v, In (k, v) outs /\
    let (rs, st) := read_all (S n) s (repeat k (S m)) (State h None c) in
    rs = repeat (seen h s k v) (S m) /\ clock st = S c.
Proof.
  intros h G n s c k ks f r outs m Hn W N E Hf ND Inc Er Ho Hs Hnn.
  destruct (getitem_generates G n s h c k ks f r outs Hn W N E Hf ND Inc Er Ho)
    as (h' & v & Hv & Eg & _ & F & A1 & B1).
  exists v. split; auto. cbn [repeat read_all]. rewrite Eg.
  assert (Nv : v <> VNone) by (intros ->; contradiction).
  pose proof (A1 k v Hv Hs) as Ek.
  rewrite C13_later_reads_reuse.
  - split; [|reflexivity]. f_equal.
    assert (Q : forall m, map (fun k => seen h' s k (attr_or h' s k "data" VNone)) (repeat k m) =
                          repeat (seen h s k v) m).
    { induction m0 as [|m0 IH]; cbn [repeat map]; auto. rewrite IH. f_equal.
      assert (attr_or h' s k "data" VNone = v) as -> by (unfold attr_or; now rewrite Ek). unfold seen, attr_or.
      rewrite !(B1 s k) by (intros w (_ & K & _); discriminate).
      destruct (F s) as (_ & -> & -> & _). reflexivity. }
    apply Q.
  - intros k' Hk'. apply repeat_spec in Hk'. subst k'. exists v. auto.
Qed.
Print Assumptions C13_computed_once.

(** An output that is None, or is not saved, is computed again by the next read. *)
Theorem C13_none_recomputed : forall h G n s c k ks f r outs,
  bound G <= n -> well_formed h G -> no_self_link h ->
  attr_of h s k "data" = Some VNone ->
  find_gen k (st_gens (h s)) = Some (ks, f) ->
  NoDup ks -> incl ks (dkeys (st_items (h s))) ->
  f c = Ok r -> outputs ks r = Some outs ->
  In (k, VNone) outs \/ truthy (attr_or h s k "save" (VBool true)) = false ->
  forall r2 outs2, f (S c) = Ok r2 -> outputs ks r2 = Some outs2 ->
  exists v st1 v2 st2, In (k, v) outs /\ In (k, v2) outs2 /\
    getitem (S n) s k "data" (State h None c) = (seen h s k v, st1) /\ clock st1 = S c /\
    getitem (S n) s k "data" st1 = (seen h s k v2, st2) /\ clock st2 = S (S c).
Proof.
  intros h G n s c k ks f r outs Hn W N E Hf ND Inc Er Ho Hs r2 outs2 Er2 Ho2.
  destruct (getitem_generates G n s h c k ks f r outs Hn W N E Hf ND Inc Er Ho)
    as (h' & v & Hv & Eg & L & F & A1 & B1).
  assert (E' : attr_of h' s k "data" = Some VNone).
  { destruct (truthy (attr_or h s k "save" (VBool true))) eqn:Et.
    - destruct Hs as [Hs|]; [|discriminate]. apply A1; auto.
    - rewrite B1; auto. intros w (_ & _ & _ & K). unfold saved in K. congruence. }
  destruct (F s) as (Fg & Fc & Fm & Fk).
  destruct (getitem_generates G n s h' (S c) k ks f r2 outs2 Hn) as (h2 & v2 & Hv2 & Eg2 & _); auto.
  { eapply wf_links; eauto. }
  { eapply nsl_links; eauto. }
  { congruence. }
  { rewrite Fk. auto. }
  assert (Sn : seen h' s k v2 = seen h s k v2).
  { unfold seen, attr_or. rewrite !(B1 s k) by (intros w (_ & K & _); discriminate).
    rewrite Fc, Fm. reflexivity. }
  exists v, (State h' None (S c)), v2, (State h2 None (S (S c))).
  rewrite Sn in Eg2. auto 10.
Qed.
Print Assumptions C13_none_recomputed.

(** A generator for two keys, whose runs give different values. *)
Definition with_gen : nat -> store := fun s =>
  match s with
  | 0 => Store [("x", [("data", VNone)]); ("y", [("data", VNone); ("save", VBool false)]);
                ("z", [("data", VInt 5%Z)])]
               [(["x"; "y"], fun c => Ok (VTup [VInt (Z.of_nat c); VNone]))] [] 0 id_crop (@Ok val)
  | _ => blank 0 [] []
  end.
Example C13_example :
  well_formed with_gen [0] /\ no_self_link with_gen /\
  attr_of with_gen 0 "x" "data" = Some VNone /\
  fst (read_all 9 0 ["x"; "x"; "y"; "x"] (State with_gen None 41)) =
    [Ok (VInt 41%Z); Ok (VInt 41%Z); Ok VNone; Ok (VInt 42%Z)].
Proof.
  split; [split|split; [|split]].
  - intros [|s]; now left.
  - intros [|s] d [].
  - intros [|s] d [].
  - reflexivity.
  - vm_compute. reflexivity.
Qed.

(* ------------------------------------------------------------------ C14 *)

(** Listing the keys terminates for every finite graph of stores, with cycles
    and self links, whatever was listed before; it changes no store and runs no
    generator.  It lists the stored keys, and nothing that is not stored in a
    store that can be reached. *)
Theorem C14_listing_terminates : forall h G g c s, well_formed h G ->
  exists ks g',
    (forall n, 2 * length G + 3 <= n -> keys n s (State h g c) = (Ok ks, State h g' c)) /\
    (forall k, stored h s k -> In k ks) /\
    (forall k, In k ks -> exists t, reaches h s t /\ stored h t k).
Proof.
  intros h G g c s W. destruct (keys_any h G W (bound G) g c s (le_n _)) as (ks & g' & E & S & _).
  exists (dkeys (st_items (h s)) ++ ks)%list, g'. split; [|split].
  - intros n Hn. eapply le_ok; [apply (keys_mono (bound G)); exact Hn | exact E].
  - intros k (it & Hk). apply in_app_iff. left. apply dget_In. eauto.
  - intros k. rewrite in_app_iff. intros [Hk|Hk]; [|now apply S].
    exists s. split; [apply rt_refl | now apply dget_In].
Qed.
Print Assumptions C14_listing_terminates.

(** Without self links the guard is empty again afterwards, and every matching
    key stored in a direct source is listed. *)
Theorem C14_no_trace_partial : forall h G c s, well_formed h G -> no_self_link h ->
  exists ks,
    (forall n, 2 * length G + 3 <= n -> keys n s (State h None c) = (Ok ks, State h None c)) /\
    (forall d k, In d (st_derivs (h s)) -> stored h (d_src d) k -> passes h d k -> In k ks).
Proof.
  intros h G c s W N. destruct (keys_any h G W (bound G) None c s (le_n _)) as (ks & g' & E & _ & _ & P).
  destruct (P eq_refl N) as [-> Q].
  exists (dkeys (st_items (h s)) ++ ks)%list. split.
  - intros n Hn. eapply le_ok; [apply (keys_mono (bound G)); exact Hn | exact E].
  - intros d k Hd St Pa. apply in_app_iff. right. eapply Q; eauto.
Qed.
Print Assumptions C14_no_trace_partial.

Lemma reach_avoiding h s t : reaches h s t -> t <> s ->
  exists d, In d (st_derivs (h s)) /\ d_src d <> s /\
    clos_refl_trans_1n nat (fun x y => derives_from h x y /\ y <> s) (d_src d) t.
Proof.
  intros R. apply clos_rt_rtn1 in R.
  assert (Q : t <> s -> exists u, derives_from h s u /\ u <> s /\
    clos_refl_trans_n1 nat (fun x y => derives_from h x y /\ y <> s) u t).
  { induction R as [|y z Dyz R IH]; [congruence|]. intros Nz.
    destruct (Nat.eq_dec y s) as [->|Ny].
    - exists z. split; auto. split; auto. apply rtn1_refl.
    - destruct (IH Ny) as (u & A & B & C). exists u. split; auto. split; auto.
      eapply Relation_Operators.rtn1_trans; [|exact C]. split; auto. }
  intros Nt. destruct (Q Nt) as (u & (d & Hd & <-) & Nu & C). exists d. split; auto. split; auto.
  apply clos_rt_rt1n. now apply clos_rtn1_rt.
Qed.

(** Without filters every key of every store that can be reached is listed. *)
Theorem C14_complete_without_filters_partial : forall h G c s t k,
  well_formed h G ->
  (forall a b, st_gid (h a) = st_gid (h b) -> a = b) ->
  (forall a d, In d (st_derivs (h a)) -> d_in d = [] /\ d_src d <> a) ->
  reaches h s t -> stored h t k ->
  exists ks, (forall n, 2 * length G + 3 <= n ->
                keys n s (State h None c) = (Ok ks, State h None c)) /\ In k ks.
Proof.
  intros h G c s t k W Inj NP R St.
  assert (N : no_self_link h).
  { intros a d Hd E. destruct (NP a d Hd) as [_ K]. apply K. now apply Inj. }
  destruct (keys_any h G W (bound G) None c s (le_n _)) as (ks & g' & E & _ & _ & P).
  destruct (P eq_refl N) as [-> _].
  exists (dkeys (st_items (h s)) ++ ks)%list. split.
  { intros n Hn. eapply le_ok; [apply (keys_mono (bound G)); exact Hn | exact E]. }
  apply in_app_iff. destruct (Nat.eq_dec t s) as [->|Nt].
  { left. now apply dget_In. }
  right. destruct (reach_avoiding h s t R Nt) as (d & Hd & Nd & C).
  destruct (dfs_root h G W (fun a e He => proj1 (NP a e He)) Inj (bound G) c s d t k (le_n _) Hd)
    as (k1 & E1 & Hk); auto.
  unfold keys, keys_of, bindM, get_store in E. cbn [hp] in E.
  destruct (in_split d (st_derivs (h s)) Hd) as (l1 & l2 & El).
  assert (Sub : forall ds, incl ds (st_derivs (h s)) -> forall ks,
     concatM (lookup_keys (bound G) s) ds (State h None c) = (Ok ks, State h None c) ->
     In d ds -> In k ks).
  { induction ds as [|d1 ds IH]; intros Hds ks0 Ec Hin; [destruct Hin|]. cbn [concatM] in Ec.
    assert (Hd1 : In d1 (st_derivs (h s))) by (apply Hds; now left).
    destruct (lookup_any h G W (bound G) None c s d1 (le_n _) Hd1) as (ka & ga & Ea & _ & Pa).
    destruct (Pa eq_refl (N s d1 Hd1)) as [-> _].
    unfold bindM at 1 in Ec. rewrite Ea in Ec. unfold bindM in Ec.
    destruct (concatM (lookup_keys (bound G) s) ds (State h None c)) as [[kb|e] stb] eqn:Eb; [|discriminate].
    unfold ret in Ec. assert (ks0 = (ka ++ kb)%list /\ stb = State h None c) as [-> ->] by (split; congruence).
    apply in_app_iff. destruct Hin as [->|Hin].
    - left. assert (ka = k1) as -> by congruence. exact Hk.
    - right. eapply IH; eauto. intros x Hx. apply Hds. now right. }
  destruct (concatM (lookup_keys (bound G) s) (st_derivs (h s)) (State h None c)) as [[kb|e] stb] eqn:Eb; [|discriminate].
  unfold ret in E.
  assert (K : (dkeys (st_items (h s)) ++ kb = dkeys (st_items (h s)) ++ ks)%list) by congruence.
  apply app_inv_head in K. subst kb. assert (stb = State h None c) as -> by congruence.
  eapply Sub; eauto using incl_refl.
Qed.
Print Assumptions C14_complete_without_filters_partial.

(** A cycle of three stores with a branch. *)
Definition ring : nat -> store := fun s =>
  match s with
  | 0 => blank 0 [] [link 0 1 []]
  | 1 => blank 1 [("b", [("data", VInt 1%Z)])] [link 0 2 []]
  | 2 => blank 2 [("c", [("data", VInt 2%Z)])] [link 0 0 []; link 1 3 []]
  | 3 => blank 3 [("e", [("data", VInt 3%Z)])] []
  | _ => blank s [] []
  end.
Example C14_ring_example : fst (keys 11 0 (State ring None 0)) = Ok ["b"; "c"; "e"] /\
  guard (snd (keys 11 0 (State ring None 0))) = None /\ reaches ring 0 0.
Proof.
  split; [vm_compute; reflexivity|]. split; [vm_compute; reflexivity|].
  eapply rt_trans; [apply rt_step; exists (link 0 1 []); split; [now left | reflexivity]|].
  eapply rt_trans; [apply rt_step; exists (link 0 2 []); split; [now left | reflexivity]|].
  apply rt_step. exists (link 0 0 []). split; [now left | reflexivity].
Qed.

(** A store deriving from a store of its own group leaves the guard set (utils.py
    250-251 return before 259-260), and from then on other listings are short. *)
Definition self_linked : nat -> store := fun s =>
  match s with
  | 0 => blank 0 [("a", [("data", VInt 1%Z)])] [link 0 0 []]
  | 1 => blank 1 [] [link 0 0 []]
  | _ => blank 1 [] []
  end.
Theorem C14_guard_leak_refuted : exists h G s t k,
  well_formed h G /\
  (forall n, 7 <= n -> exists ks, keys n t (State h None 0) = (Ok ks, State h None 0) /\ In k ks) /\
  (forall n, 7 <= n -> exists ks st, keys n s (State h None 0) = (Ok ks, st) /\ guard st <> None /\
     exists ks2 st2, keys n t st = (Ok ks2, st2) /\ ~ In k ks2).
Proof.
  exists self_linked, [0; 1], 0, 1, "a". split; [split|split].
  - intros [|[|s]]; cbn; auto.
  - intros [|[|s]] d; cbn; [intros [<-|[]] | intros [<-|[]] | intros []]; cbn; auto.
  - intros n Hn. exists ["a"]. split; [|now left].
    eapply le_ok; [apply (keys_mono 7); exact Hn | vm_compute; reflexivity].
  - intros n Hn. exists ["a"], (State self_linked (Some [0]) 0). split; [|split].
    + eapply le_ok; [apply (keys_mono 7); exact Hn | vm_compute; reflexivity].
    + discriminate.
    + exists [], (State self_linked (Some [1; 0]) 0). split; [|intros []].
      eapply le_ok; [apply (keys_mono 7); exact Hn | vm_compute; reflexivity].
Qed.
Print Assumptions C14_guard_leak_refuted.

(** A chain 0 <- 1 <- 2 <- 3 filtering on the type: item "k" of store 2 is an item
    of store 1 with type "map", but store 0 does not list it. *)
Definition chain : nat -> store := fun s =>
  match s with
  | 0 => blank 0 [] [link 0 1 [("type", VStr "map")]]
  | 1 => blank 1 [] [link 0 2 [("type", VStr "map")]]
  | 2 => blank 2 [("k", [("data", VInt 1%Z); ("type", VStr "map")])] [link 0 3 []]
  | _ => blank 3 [] []
  end.
Theorem C14_filtered_chain_refuted : exists h G s d k,
  well_formed h G /\ no_self_link h /\ In d (st_derivs (h s)) /\
  d_in d = [("type", VStr "map")] /\
  (forall n, 11 <= n ->
     (exists ks, keys n (d_src d) (State h None 0) = (Ok ks, State h None 0) /\ In k ks) /\
     metadata n (d_src d) k "type" VNone (State h None 0) = (Ok (VStr "map"), State h None 0) /\
     (exists ks, keys n s (State h None 0) = (Ok ks, State h None 0) /\ ~ In k ks)).
Proof.
  exists chain, [0; 1; 2; 3], 0, (link 0 1 [("type", VStr "map")]), "k".
  split; [split|split; [|split; [|split]]].
  - intros [|[|[|s]]]; cbn; auto.
  - intros [|[|[|s]]] d; cbn; [intros [<-|[]] .. | intros []]; cbn; intuition discriminate.
  - intros [|[|[|s]]] d; cbn; [intros [<-|[]] .. | intros []]; cbn; auto.
  - now left.
  - reflexivity.
  - intros n Hn. split; [|split].
    + exists ["k"]. split; [|now left].
      eapply le_ok; [apply (keys_mono 11); exact Hn | vm_compute; reflexivity].
    + eapply le_ok; [apply (metadata_mono 11); exact Hn | vm_compute; reflexivity].
    + exists []. split; [|intros []].
      eapply le_ok; [apply (keys_mono 11); exact Hn | vm_compute; reflexivity].
Qed.
Print Assumptions C14_filtered_chain_refuted.

(** Two stores that derive from each other and from a third one: the item of the
    third is listed by both but reading it never ends. *)
Definition mutual : nat -> store := fun s =>
  match s with
  | 0 => blank 0 [] [link 0 1 []; link 1 2 []]
  | 1 => blank 1 [] [link 0 0 []; link 1 2 []]
  | 2 => blank 2 [("k", [("data", VInt 1%Z)])] []
  | _ => blank 2 [] []
  end.
Theorem C14_read_diverges_refuted : exists h G s k,
  well_formed h G /\ no_self_link h /\
  (forall n, 9 <= n -> exists ks, keys n s (State h None 0) = (Ok ks, State h None 0) /\ In k ks) /\
  (forall n, fst (getitem n s k "data" (State h None 0)) = Err OutOfFuel).
Proof.
  exists mutual, [0; 1; 2], 0, "k". split; [split|split; [|split]].
  - intros [|[|[|s]]]; cbn; auto.
  - intros [|[|[|s]]] d; cbn; [intros [<-|[<-|[]]] | intros [<-|[<-|[]]] | intros [] ..]; cbn; auto.
  - intros [|[|[|s]]] d; cbn; [intros [<-|[<-|[]]] | intros [<-|[<-|[]]] | intros [] ..]; cbn; auto.
  - intros n Hn. exists ["k"; "k"]. split; [|now left].
    eapply le_ok; [apply (keys_mono 9); exact Hn | vm_compute; reflexivity].
  - assert (Q : forall n, fst (getitem n 0 "k" "data" (State mutual None 0)) = Err OutOfFuel /\
                          fst (getitem n 1 "k" "data" (State mutual None 0)) = Err OutOfFuel).
    { induction n as [|n [IH1 IH2]]; [split; reflexivity|].
      destruct (le_lt_dec n 8) as [Hs|Hl].
      { clear IH1 IH2. do 9 (destruct n as [|n]; [vm_compute; auto|]). lia. }
      assert (K0 : keys n 0 (State mutual None 0) = keys 9 0 (State mutual None 0)).
      { destruct (keys_mono 9 n 0 ltac:(lia) (State mutual None 0)) as [E|E]; [|now symmetry].
        revert E. vm_compute. discriminate. }
      assert (K1 : keys n 1 (State mutual None 0) = keys 9 1 (State mutual None 0)).
      { destruct (keys_mono 9 n 1 ltac:(lia) (State mutual None 0)) as [E|E]; [|now symmetry].
        revert E. vm_compute. discriminate. }
      assert (L0 : lookup_keys n 0 (link 0 1 []) (State mutual None 0) = (Ok ["k"; "k"], State mutual None 0) \/
                   lookup_keys n 0 (link 0 1 []) (State mutual None 0) = (Ok ["k"], State mutual None 0)).
      { destruct (lookup_mono 9 n 0 (link 0 1 []) ltac:(lia) (State mutual None 0)) as [E|E].
        - revert E. vm_compute. discriminate.
        - rewrite <- E. vm_compute. auto. }
      assert (L1 : lookup_keys n 1 (link 0 0 []) (State mutual None 0) = (Ok ["k"; "k"], State mutual None 0) \/
                   lookup_keys n 1 (link 0 0 []) (State mutual None 0) = (Ok ["k"], State mutual None 0)).
      { destruct (lookup_mono 9 n 1 (link 0 0 []) ltac:(lia) (State mutual None 0)) as [E|E].
        - revert E. vm_compute. discriminate.
        - rewrite <- E. vm_compute. auto. }
      assert (Step : forall s t, s < 2 -> st_derivs (mutual s) = [link 0 t []; link 1 2 []] ->
        keys n s (State mutual None 0) = keys 9 s (State mutual None 0) ->
        (exists ks, lookup_keys n s (link 0 t []) (State mutual None 0) = (Ok ks, State mutual None 0) /\ inb "k" ks = true) ->
        fst (getitem n t "k" "data" (State mutual None 0)) = Err OutOfFuel ->
        fst (getitem (S n) s "k" "data" (State mutual None 0)) = Err OutOfFuel).
      { intros s t Hs Ed Ek (ks & El & Ei) Eg. unfold getitem. cbn [both snd]. unfold getitem_body.
        unfold bindM at 1, get_store at 1. cbn [hp].
        assert (dget "k" (st_items (mutual s)) = None) as -> by (destruct s as [|[|s]]; [reflexivity..|lia]).
        unfold bindM at 1. unfold keys, lookup_keys in Ek. rewrite Ek.
        assert (exists kk, keys_of (fst (both 9)) s (State mutual None 0) = (Ok kk, State mutual None 0) /\ inb "k" kk = true) as (kk & -> & ->).
        { destruct s as [|[|s]]; [| |lia]; vm_compute; eauto. }
        unfold get_derived. unfold bindM at 1, get_store at 1. cbn [hp]. rewrite Ed.
        unfold bindM at 1. unfold lookup_keys in El. rewrite El, Ei. cbn [dget d_out d_pass_ref link andb].
        unfold bindM. cbn [d_src link]. unfold getitem in Eg.
        destruct (snd (both n) t "k" "data" (State mutual None 0)) as [[v|e] st]; cbn [fst] in *; [discriminate | exact Eg]. }
      split.
      - apply (Step 0 1); auto. destruct L0 as [L0|L0]; rewrite L0; eauto.
      - apply (Step 1 0); auto. destruct L1 as [L1|L1]; rewrite L1; eauto. }
    apply Q.
Qed.
Print Assumptions C14_read_diverges_refuted.

(* ------------------------------------------------------------------ C15 *)

(** After [a.update(b)] reading [a] gives [b]'s items and, for the other names,
    [a]'s; with priority "self" [a]'s items win. *)
Theorem C15_update_reads : forall m a b (pri : bool) k at_,
  root m a <> root m b ->
  NoDup (dkeys (outer m (root m a))) -> NoDup (dkeys (outer m (root m b))) ->
  let first := if pri then a else b in
  let second := if pri then b else a in
  peek (update m a b pri) a k at_ =
    match dget k (outer m (root m first)) with
    | Some _ => peek m first k at_
    | None => peek m second k at_
    end.
Proof.
  intros m a b pri k at_ Nr NDa NDb. unfold peek, update. destruct pri; cbn [root outer inner].
  - unfold upd at 2. rewrite Nat.eqb_refl. unfold upd. rewrite Nat.eqb_refl.
    rewrite dget_dupdate by auto. destruct (dget k (outer m (root m a))); auto.
  - unfold upd. rewrite Nat.eqb_refl. rewrite dget_dupdate by auto.
    destruct (dget k (outer m (root m b))); auto.
Qed.
Print Assumptions C15_update_reads.

(** With the default priority [b] reads as before (so far). *)
Theorem C15_other_unchanged_partial : forall m a b k at_,
  root m a <> root m b ->
  peek (update m a b false) b k at_ = peek m b k at_.
Proof.
  intros m a b k at_ Nr. unfold peek, update. cbn [root outer inner]. unfold upd.
  destruct (Nat.eqb_spec (root m b) (root m a)); [congruence | reflexivity].
Qed.
Print Assumptions C15_other_unchanged_partial.

(** With priority "self" every item of [a] turns up in [b] and replaces [b]'s,
    and from then on the two are the same store: every write to one is a write to
    the other. *)
Theorem C15_self_priority_refuted : forall m a b,
  root m a <> root m b -> NoDup (dkeys (outer m (root m a))) ->
  let m' := update m a b true in
  (forall k at_ v, peek m a k at_ = Some v -> peek m' b k at_ = Some v) /\
  (forall k at_, peek m' a k at_ = peek m' b k at_) /\
  (forall k attrs at_, peek (insert m' a k attrs) b k at_ = dget at_ attrs).
Proof.
  intros m a b Nr ND m'. unfold m', update. split; [|split].
  - intros k at_ v. unfold peek. cbn [root outer inner]. unfold upd.
    destruct (Nat.eqb_spec b a) as [->|Nb]; [congruence|]. rewrite Nat.eqb_refl.
    rewrite dget_dupdate by auto. destruct (dget k (outer m (root m a))); [auto|discriminate].
  - intros k at_. unfold peek. cbn [root outer inner]. unfold upd. rewrite Nat.eqb_refl.
    destruct (Nat.eqb b a); auto.
  - intros k attrs at_. unfold peek, insert. cbn [root outer inner fresh]. unfold upd.
    rewrite !Nat.eqb_refl. destruct (Nat.eqb b a); rewrite ?Nat.eqb_refl, dget_dset_same, Nat.eqb_refl; reflexivity.
Qed.
Print Assumptions C15_self_priority_refuted.

(** Under either priority the items themselves are shared: assigning to an item
    [a] took from [b] changes what [b] reads. *)
Theorem C15_items_shared_refuted : forall m a b pri k at_ v,
  root m a <> root m b ->
  NoDup (dkeys (outer m (root m a))) -> NoDup (dkeys (outer m (root m b))) ->
  dget k (outer m (root m b)) <> None ->
  (pri = true -> dget k (outer m (root m a)) = None) ->
  exists m', poke (update m a b pri) a k at_ v = Some m' /\ peek m' b k at_ = Some v.
Proof.
  intros m a b pri k at_ v Nr NDa NDb Hk Hp.
  destruct (dget k (outer m (root m b))) as [i|] eqn:E; [|congruence].
  assert (Ea : dget k (outer (update m a b pri) (root (update m a b pri) a)) = Some i).
  { unfold update. destruct pri; cbn [root outer]; unfold upd.
    - rewrite Nat.eqb_refl, Nat.eqb_refl, dget_dupdate by auto. now rewrite Hp.
    - rewrite Nat.eqb_refl, dget_dupdate by auto. now rewrite E. }
  assert (Eb : dget k (outer (update m a b pri) (root (update m a b pri) b)) = Some i).
  { unfold update. destruct pri; cbn [root outer]; unfold upd.
    - destruct (Nat.eqb_spec b a) as [->|]; [congruence|].
      rewrite Nat.eqb_refl, dget_dupdate by auto. now rewrite Hp.
    - destruct (Nat.eqb_spec (root m b) (root m a)); [congruence | exact E]. }
  unfold poke. rewrite Ea. eexists. split; [reflexivity|].
  unfold peek. cbn [root outer inner]. rewrite Eb. unfold upd. rewrite Nat.eqb_refl.
  apply dget_dset_same.
Qed.
Print Assumptions C15_items_shared_refuted.

Example C15_example :
  let m := Mem (fun s => s) (fun r => match r with 0 => [("x", 0)] | 1 => [("x", 1); ("y", 2)] | _ => [] end)
               (fun i => [("data", VInt (Z.of_nat i))]) 3 in
  peek (update m 0 1 false) 0 "x" "data" = Some (VInt 1%Z) /\
  peek (update m 0 1 true) 0 "x" "data" = Some (VInt 0%Z) /\
  peek (update m 0 1 true) 0 "y" "data" = Some (VInt 2%Z) /\
  peek m 1 "x" "data" = Some (VInt 1%Z) /\
  peek (update m 0 1 true) 1 "x" "data" = Some (VInt 0%Z).
Proof. vm_compute. auto. Qed.

(* ------------------------------------------------------------------ C16 *)

(** Stored items. *)
Theorem C16_stored_or_default : forall n s k a dflt st it,
  dget k (st_items (hp st s)) = Some it ->
  metadata n s k a dflt st =
    (Ok (match dget a it with Some v => v | None => dflt end), st).
Proof.
  intros n s k a dflt st it E. unfold metadata, get_metadata, bindM, get_store. now rewrite E.
Qed.
Print Assumptions C16_stored_or_default.

(** Items of a store with derivatives that are not stored: the derivative's own
    metadata, else that of the source, else the default. *)
Theorem C16_derived_or_default_partial : forall h G n c s d ds k a dflt,
  2 * length G + 4 <= n -> well_formed h G -> no_self_link h ->
  dget k (st_items (h s)) = None -> st_derivs (h s) = d :: ds -> a <> "data" ->
  (stored h (d_src d) k -> passes h d k ->
     metadata n s k a dflt (State h None c) =
       (Ok (match dget a (d_out d) with
            | Some v => v
            | None => attr_or h (d_src d) k a dflt
            end), State h None c)) /\
  ((forall t, reaches h (d_src d) t -> ~ stored h t k) ->
     metadata n s k a dflt (State h None c) = (Ok dflt, State h None c)).
Proof.
  intros h G n c s d ds k a dflt Hn W N Es Ed Na.
  assert (Hd : In d (st_derivs (h s))) by (rewrite Ed; now left).
  assert (Hb : bound G <= n) by (unfold bound; lia).
  destruct (lookup_any h G W n None c s d Hb Hd) as (ks & g' & E & S & P).
  destruct (P eq_refl (N s d Hd)) as [-> (rest & Er)].
  assert (Ea : String.eqb a "data" = false) by now apply String.eqb_neq.
  split.
  - intros (it & Hit) Pa.
    unfold metadata, get_metadata, bindM at 1, get_store at 1. cbn [hp]. rewrite Es.
    unfold except_key, get_derived. unfold bindM at 1, get_store at 1. cbn [hp]. rewrite Ed.
    unfold bindM at 1. rewrite E.
    rewrite Ea, andb_false_r.
    assert (inb k ks = true) as ->.
    { apply inb_spec. rewrite Er. apply in_app_iff. left. apply filter_In.
      split; [apply dget_In; eauto | now apply dmatch_spec]. }
    destruct (dget a (d_out d)); [reflexivity|].
    unfold bindM. destruct n as [|n]; [lia|].
    rewrite (getitem_attr n (d_src d) k a (State h None c) it Na Hit).
    unfold attr_or, attr_of. rewrite Hit. destruct (dget a it); reflexivity.
  - intros Hno.
    unfold metadata, get_metadata, bindM at 1, get_store at 1. cbn [hp]. rewrite Es.
    unfold except_key, get_derived. unfold bindM at 1, get_store at 1. cbn [hp]. rewrite Ed.
    unfold bindM at 1. rewrite E.
    rewrite Ea, andb_false_r.
    destruct (inb k ks) eqn:Ek; [|reflexivity].
    exfalso. apply inb_spec in Ek.
    destruct (S k Ek) as (t & Rt & St). exact (Hno t Rt St).
Qed.
Print Assumptions C16_derived_or_default_partial.

Definition typed_source : nat -> store := fun s =>
  match s with
  | 0 => blank 0 [] [Deriv 1 0 (@Ok val) (fun k => Ok (VStr k)) [("type", VStr "map")] [("crop", VBool true)] false]
  | 1 => blank 1 [("k", [("data", VInt 1%Z); ("type", VStr "map")])] []
  | _ => blank 1 [] []
  end.
Example C16_example :
  fst (metadata 9 0 "k" "type" VNone (State typed_source None 0)) = Ok (VStr "map") /\
  fst (metadata 9 0 "k" "crop" VNone (State typed_source None 0)) = Ok (VBool true) /\
  fst (metadata 9 0 "k" "unit" (VInt 3%Z) (State typed_source None 0)) = Ok (VInt 3%Z) /\
  fst (metadata 9 0 "j" "unit" (VInt 3%Z) (State typed_source None 0)) = Ok (VInt 3%Z).
Proof. vm_compute. auto. Qed.

(** Asking for metadata of an unknown item of any store without derivatives
    raises UnboundLocalError instead of giving the default (utils.py 265-270). *)
Theorem C16_unknown_refuted : forall n s k a dflt st,
  st_derivs (hp st s) = [] -> dget k (st_items (hp st s)) = None ->
  metadata n s k a dflt st = (Err UnboundLocalError, st).
Proof.
  intros n s k a dflt st Hd E. unfold metadata, get_metadata, bindM at 1, get_store at 1. rewrite E.
  unfold except_key, get_derived, bindM, get_store. rewrite Hd. reflexivity.
Qed.
Print Assumptions C16_unknown_refuted.

(* ------------------------------------------------------------------ C17 *)

Lemma add_new n s k kw st : st_derivs (hp st s) = [] -> dget k (st_items (hp st s)) = None ->
  dget "data" kw = None ->
  add n s k VNone kw st =
    (Ok tt, State (put (hp st) s (dset k (dupdate [("data", VNone)] kw) (st_items (hp st s)))) (guard st) (clock st)).
Proof.
  intros Hd E Ek. unfold add, contains. unfold bindM at 1. unfold bindM at 1. rewrite keys_plain by auto.
  unfold ret at 1.
  assert (inb k (dkeys (st_items (hp st s))) = false) as -> by (apply inb_false, dget_none; auto).
  assert (inb "data" (dkeys kw) = false) as -> by (apply inb_false, dget_none; auto).
  reflexivity.
Qed.

(** Adding a list of new names in turn. *)
Lemma add_many n s kw kms : forall st, st_derivs (hp st s) = [] ->
  NoDup (map fst kms) ->
  (forall k md, In (k, md) kms -> dget k (st_items (hp st s)) = None /\ dget "data" (dupdate md kw) = None) ->
  exists st', iterM (fun km => add n s (fst km) VNone (dupdate (snd km) kw)) kms st = (Ok tt, st') /\
    guard st' = guard st /\ clock st' = clock st /\ st_derivs (hp st' s) = [] /\
    st_gens (hp st' s) = st_gens (hp st s) /\
    (forall k md, In (k, md) kms -> dget k (st_items (hp st' s)) = Some (dupdate [("data", VNone)] (dupdate md kw))) /\
    (forall k, ~ In k (map fst kms) -> dget k (st_items (hp st' s)) = dget k (st_items (hp st s))).
Proof.
  induction kms as [|[k md] kms IH]; intros st Hd ND Hk; cbn [iterM].
  - exists st. cbn. intuition.
  - cbn [map fst] in ND. inversion ND as [|? ? Nk ND']; subst.
    destruct (Hk k md (or_introl eq_refl)) as [E1 E2].
    unfold bindM. cbn [fst snd]. rewrite add_new by auto.
    match goal with |- context [iterM _ kms ?x] => set (st1 := x) end.
    assert (P : hp st1 s = Store (dset k (dupdate [("data", VNone)] (dupdate md kw)) (st_items (hp st s)))
       (st_gens (hp st s)) (st_derivs (hp st s)) (st_gid (hp st s)) (st_crop (hp st s)) (st_mask (hp st s))).
    { unfold st1, put. cbn [hp]. now rewrite Nat.eqb_refl. }
    destruct (IH st1) as (st' & E & G1 & C1 & D1 & Ge & A1 & B1).
    { rewrite P. exact Hd. }
    { exact ND'. }
    { intros k' md' Hin. destruct (Hk k' md' (or_intror Hin)) as [F1 F2]. split; auto.
      rewrite P. cbn [st_items]. rewrite dget_dset_other; auto. intros ->. apply Nk.
      apply in_map_iff. exists (k, md'). auto. }
    exists st'. split; [exact E|]. split; [exact G1|]. split; [exact C1|]. split; [exact D1|].
    split; [rewrite Ge, P; reflexivity|]. split.
    + intros k' md' [Ekm|Hin].
      * assert (k' = k /\ md' = md) as [-> ->] by (split; congruence).
        rewrite B1 by auto. rewrite P. cbn [st_items]. apply dget_dset_same.
      * eauto.
    + intros k' Hn. cbn [map fst In] in Hn. rewrite B1 by tauto. rewrite P. cbn [st_items].
      apply dget_dset_other. intuition.
Qed.

(** All keys new: all are added, each not yet generated, and the generator is
    registered for them. *)
Theorem C17_all_new_succeeds_partial : forall n s kms f kw st,
  st_derivs (hp st s) = [] -> NoDup (map fst kms) ->
  (forall k md, In (k, md) kms -> dget k (st_items (hp st s)) = None /\ dget "data" (dupdate md kw) = None) ->
  exists st', add_generator n s kms f kw st = (Ok tt, st') /\
    (forall k md, In (k, md) kms ->
       dget k (st_items (hp st' s)) = Some (dupdate [("data", VNone)] (dupdate md kw))) /\
    (forall k, ~ In k (map fst kms) -> dget k (st_items (hp st' s)) = dget k (st_items (hp st s))) /\
    In (map fst kms, f) (st_gens (hp st' s)).
Proof.
  intros n s kms f kw st Hd ND Hk. destruct (add_many n s kw kms st Hd ND Hk)
    as (st' & E & G1 & C1 & D1 & Ge & A1 & B1).
  unfold add_generator. unfold bindM at 1. rewrite E. unfold bindM, get_store. eexists. split; [reflexivity|].
  cbn [hp]. rewrite Nat.eqb_refl. cbn [st_items st_gens].
  split; [exact A1|]. split; [exact B1|].
  clear. induction (st_gens (hp st' s)) as [|[k g] l IH]; cbn [gen_set]; [now left|].
  unfold keys_eqb. destruct (list_eq_dec string_dec (map fst kms) k) as [->|]; [now left | now right].
Qed.
Print Assumptions C17_all_new_succeeds_partial.

(** If a later key exists the call raises, but every key before it has been
    added; the generator is not registered, so these stay None. *)
Theorem C17_all_or_nothing_refuted : forall n s pre k md post f kw st,
  st_derivs (hp st s) = [] -> NoDup (map fst pre) ->
  (forall k md, In (k, md) pre -> dget k (st_items (hp st s)) = None /\ dget "data" (dupdate md kw) = None) ->
  dget k (st_items (hp st s)) <> None ->
  exists st', add_generator n s (pre ++ (k, md) :: post) f kw st = (Err ValueError, st') /\
    (forall k md, In (k, md) pre -> dget k (st_items (hp st s)) = None /\
       dget k (st_items (hp st' s)) = Some (dupdate [("data", VNone)] (dupdate md kw))) /\
    st_gens (hp st' s) = st_gens (hp st s).
Proof.
  intros n s pre k md post f kw st Hd ND Hk Ex.
  destruct (add_many n s kw pre st Hd ND Hk) as (st' & E & G1 & C1 & D1 & Ge & A1 & B1).
  exists st'. split; [|split; [|exact Ge]].
  - assert (Ad : add n s k VNone (dupdate md kw) st' = (Err ValueError, st')).
    { unfold add, contains. unfold bindM at 1. unfold bindM at 1. rewrite keys_plain by auto. unfold ret at 1.
      assert (inb k (dkeys (st_items (hp st' s))) = true) as ->; auto.
      apply inb_spec, dget_In.
      destruct (in_dec string_dec k (map fst pre)) as [Hin|Nin].
      - apply in_map_iff in Hin as ([k' md'] & Ek & Hin). cbn [fst] in Ek. subst k'. eauto.
      - rewrite B1 by auto. destruct (dget k (st_items (hp st s))); [eauto | congruence]. }
    unfold add_generator. unfold bindM at 1.
    assert (It : iterM (fun km => add n s (fst km) VNone (dupdate (snd km) kw)) (pre ++ (k, md) :: post) st = (Err ValueError, st')).
    { clear -E Ad. revert st E. induction pre as [|km pre IH]; intros st E; cbn [app iterM] in *.
      - unfold ret in E. assert (st = st') by congruence. subst. unfold bindM. cbn [fst snd]. rewrite Ad. reflexivity.
      - unfold bindM in *. destruct (add n s (fst km) VNone (dupdate (snd km) kw) st) as [[u|e] st1]; [|discriminate].
        apply IH. exact E. }
    rewrite It. reflexivity.
  - intros k' md' Hin. split; [apply (Hk k' md' Hin) | eauto].
Qed.
Print Assumptions C17_all_or_nothing_refuted.

Example C17_example :
  let st := State (fun s => blank s [("old", [("data", VInt 1%Z)])] []) None 0 in
  fst (add_generator 1 0 [("new", []); ("old", [])] (fun _ => Ok VNone) [] st) = Err ValueError /\
  fst (contains 1 0 "new" st) = Ok false /\
  fst (contains 1 0 "new" (snd (add_generator 1 0 [("new", []); ("old", [])] (fun _ => Ok VNone) [] st))) = Ok true.
Proof. vm_compute. auto. Qed.

(* ------------------------------------------------------------------ C76 *)

Open Scope list_scope.
(** Functions of a history of derivatives, by first appearance. *)
Fixpoint first_fids (seen : list nat) (ds : list deriv) : list nat :=
  match ds with
  | [] => []
  | d :: ds => if existsb (Nat.eqb (d_fid d)) seen then first_fids seen ds
               else d_fid d :: first_fids (seen ++ [d_fid d]) ds
  end.
(** [d] is the last derivative with its function in [ds]. *)
Definition last_with (d : deriv) (ds : list deriv) : Prop :=
  exists pre post, ds = pre ++ d :: post /\ forall e, In e post -> d_fid e <> d_fid d.

Lemma deriv_set_fids : forall d ds,
  map d_fid (deriv_set d ds) =
  if existsb (Nat.eqb (d_fid d)) (map d_fid ds) then map d_fid ds else (map d_fid ds ++ [d_fid d])%list.
Proof.
  induction ds as [|e ds IH]; [reflexivity|]. cbn [deriv_set map existsb].
  destruct (Nat.eqb_spec (d_fid e) (d_fid d)) as [E|E].
  - rewrite E, Nat.eqb_refl. cbn [orb map]. reflexivity.
  - rewrite (proj2 (Nat.eqb_neq (d_fid d) (d_fid e))) by auto. cbn [orb map]. rewrite IH.
    destruct (existsb _ _); reflexivity.
Qed.
Lemma deriv_set_in : forall d ds x, NoDup (map d_fid ds) -> In x (deriv_set d ds) ->
  x = d \/ (In x ds /\ d_fid x <> d_fid d).
Proof.
  induction ds as [|e ds IH]; intros x ND H.
  - destruct H as [<-|[]]; auto.
  - cbn [deriv_set] in H. inversion ND as [|? ? N1 N2]; subst.
    destruct (Nat.eqb_spec (d_fid e) (d_fid d)) as [E|E].
    + destruct H as [<-|H]; auto. right; split; [right; auto|].
      rewrite <- E. intros K. apply N1. rewrite <- K. now apply in_map.
    + destruct H as [<-|H]; [right; split; [left; auto|auto]|].
      destruct (IH x N2 H) as [->|[A B]]; auto. right; split; [right; auto|auto].
Qed.
Lemma existsb_fid : forall n l, existsb (Nat.eqb n) l = true <-> In n l.
Proof.
  intros n l. rewrite existsb_exists. split.
  - intros (x & Hx & E). apply Nat.eqb_eq in E. now subst.
  - intros H. exists n. split; [auto|apply Nat.eqb_refl].
Qed.
Lemma deriv_set_nodup : forall d ds, NoDup (map d_fid ds) -> NoDup (map d_fid (deriv_set d ds)).
Proof.
  intros d ds H. rewrite deriv_set_fids. destruct (existsb _ _) eqn:E; auto.
  apply (Permutation_NoDup (Permutation_cons_append _ _)). constructor; auto.
  intros I. apply existsb_fid in I. congruence.
Qed.

Lemma deriv_history : forall ds acc done,
  NoDup (map d_fid acc) -> (forall d, In d acc -> last_with d done) ->
  NoDup (map d_fid (fold_left (fun a d => deriv_set d a) ds acc)) /\
  map d_fid (fold_left (fun a d => deriv_set d a) ds acc) = (map d_fid acc ++ first_fids (map d_fid acc) ds)%list /\
  forall d, In d (fold_left (fun a d => deriv_set d a) ds acc) -> last_with d (done ++ ds).
Proof.
  induction ds as [|d ds IH]; intros acc done ND HL; cbn [fold_left first_fids].
  - rewrite !app_nil_r. auto.
  - destruct (IH (deriv_set d acc) (done ++ [d])) as (A & B & C).
    + now apply deriv_set_nodup.
    + intros x Hx. destruct (deriv_set_in d acc x ND Hx) as [->|[Hi N]].
      * exists done, []. split; [reflexivity|intros e []].
      * destruct (HL x Hi) as (pre & post & -> & P). exists pre, (post ++ [d]).
        split; [rewrite <- app_assoc; reflexivity|].
        intros e He. apply in_app_iff in He as [He|[<-|[]]]; auto.
    + split; [auto|]. split.
      * rewrite B, deriv_set_fids. destruct (existsb (Nat.eqb (d_fid d)) (map d_fid acc)); [reflexivity|].
        rewrite <- app_assoc. reflexivity.
      * intros x Hx. specialize (C x Hx). now rewrite <- app_assoc in C.
Qed.

(** Any number of [add_derivative] calls on a store without derivatives: one
    entry per function, in the order of the first addition, each the one added
    last for that function; nothing else changes. *)
Theorem C76_one_derivative_per_function : forall s ds st, st_derivs (hp st s) = [] ->
  exists st', iterM (add_derivative s) ds st = (Ok tt, st') /\
    map d_fid (st_derivs (hp st' s)) = first_fids [] ds /\
    NoDup (map d_fid (st_derivs (hp st' s))) /\
    (forall d, In d (st_derivs (hp st' s)) -> last_with d ds) /\
    st_items (hp st' s) = st_items (hp st s) /\ st_gens (hp st' s) = st_gens (hp st s) /\
    (forall t, t <> s -> hp st' t = hp st t) /\ guard st' = guard st /\ clock st' = clock st.
Proof.
  intros s ds st H.
  assert (G : forall ds st, exists st', iterM (add_derivative s) ds st = (Ok tt, st') /\
    st_derivs (hp st' s) = fold_left (fun a d => deriv_set d a) ds (st_derivs (hp st s)) /\
    st_items (hp st' s) = st_items (hp st s) /\ st_gens (hp st' s) = st_gens (hp st s) /\
    (forall t, t <> s -> hp st' t = hp st t) /\ guard st' = guard st /\ clock st' = clock st).
  { clear. induction ds as [|d ds IH]; intros st.
    - exists st. cbn. auto 10.
    - cbn [iterM]. unfold bindM, add_derivative at 1.
      edestruct IH as (st' & E & A & B & C & D & F & K). exists st'. split; [exact E|].
      cbn [hp guard clock] in *. rewrite Nat.eqb_refl in A, B, C.
      cbn [st_derivs st_items st_gens] in A, B, C. split; [exact A|]. split; [exact B|]. split; [exact C|].
      split; [|auto]. intros t Ht. rewrite (D t Ht).
      now rewrite (proj2 (Nat.eqb_neq t s)). }
  destruct (G ds st) as (st' & E & A & B). rewrite H in A.
  destruct (deriv_history ds [] []) as (P & Q & R); [constructor|intros d []|].
  exists st'. split; [auto|]. rewrite A. split; [exact Q|]. split; [exact P|]. split; [exact R|]. exact B.
Qed.
Print Assumptions C76_one_derivative_per_function.
Example C76_example :
  let st := State (fun _ => blank 0 [] []) None 0 in
  st_derivs (hp st 0) = [] /\
  match iterM (add_derivative 0) [link 4 1 []; link 7 2 []; link 4 3 []] st with
  | (Ok _, st') => map (fun d => (d_fid d, d_src d)) (st_derivs (hp st' 0)) = [(4, 3); (7, 2)]
  | _ => False
  end.
Proof. vm_compute. auto. Qed.
