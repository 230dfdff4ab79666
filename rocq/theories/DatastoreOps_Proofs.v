(** Reading, writing, generating and metadata of a Datastore. *)
From Coq Require Import String.
From Coq Require Import List Arith ZArith Bool Lia Relations FunctionalExtensionality.
Import ListNotations.
From Verif Require Import Py Datastore_Model Datastore_Spec Datastore_Proofs DatastoreRoot_Proofs.
Open Scope string_scope.
Open Scope nat_scope.

Definition put (h : nat -> store) (s : nat) (its : dict (dict val)) : nat -> store := fun i =>
  if Nat.eqb i s
  then Store its (st_gens (h s)) (st_derivs (h s)) (st_gid (h s)) (st_crop (h s)) (st_mask (h s))
  else h i.

Definition same_links (h h' : nat -> store) : Prop :=
  forall s, st_derivs (h' s) = st_derivs (h s) /\ st_gid (h' s) = st_gid (h s).
Lemma put_links h s its : same_links h (put h s its).
Proof.
  intros t. unfold put. destruct (Nat.eqb_spec t s) as [->|]; cbn; auto.
Qed.
Lemma wf_links h h' G : same_links h h' -> well_formed h G -> well_formed h' G.
Proof.
  intros L [W1 W2]. split.
  - intros s. destruct (L s) as [_ ->]. apply W1.
  - intros s d. destruct (L s) as [-> _]. apply W2.
Qed.
Lemma nsl_links h h' : same_links h h' -> no_self_link h -> no_self_link h'.
Proof.
  intros L N s d. destruct (L s) as [-> ->]. destruct (L (d_src d)) as [_ ->]. apply N.
Qed.

Lemma dget_dupdate {A} (b : dict A) : forall a k,
  NoDup (dkeys b) -> dget k (dupdate a b) = match dget k b with Some v => Some v | None => dget k a end.
Proof.
  induction b as [|[k' v'] b IH]; intros a k ND; [reflexivity|].
  inversion ND; subst. change (dupdate a ((k', v') :: b)) with (dupdate (dset k' v' a) b).
  rewrite IH by auto. cbn [fst snd dget]. destruct (String.eqb_spec k k') as [->|N].
  - assert (dget k' b = None) as -> by now apply dget_none. apply dget_dset_same.
  - destruct (dget k b); auto. now apply dget_dset_other.
Qed.

(** ** Stored items *)
Lemma metadata_stored lk gi s k a v st : dget k (st_items (hp st s)) <> None ->
  get_metadata lk gi s k a v st = (Ok (attr_or (hp st) s k a v), st).
Proof.
  intros H. unfold get_metadata, bindM, get_store, attr_or, attr_of.
  destruct (dget k (st_items (hp st s))); [reflexivity | congruence].
Qed.

Lemma view_stored lk gi s k v st : dget k (st_items (hp st s)) <> None ->
  (let* ty := get_metadata lk gi s k "type" VNone in
   if veqb ty (VStr "map") then
     let* c := get_metadata lk gi s k "cropped" (VBool false) in
     let* v := if truthy c then ret v
               else let* b := get_metadata lk gi s k "binning" (VInt 1%Z) in
                    let* o := get_store s in lift (st_crop o v b) in
     let* m := get_metadata lk gi s k "apply_mask" (VBool true) in
     if truthy m then let* o := get_store s in lift (st_mask o v) else ret v
   else ret v) st = (seen (hp st) s k v, st).
Proof.
  intros H. unfold bindM at 1. rewrite metadata_stored by auto. unfold seen.
  destruct (veqb _ _); [|reflexivity].
  unfold bindM at 1. rewrite metadata_stored by auto.
  unfold bindM at 1. destruct (truthy (attr_or (hp st) s k "cropped" (VBool false))).
  - unfold ret at 1. unfold bindM at 1. rewrite metadata_stored by auto. cbn [bind].
    destruct (truthy _); reflexivity.
  - unfold bindM at 1. rewrite metadata_stored by auto. unfold bindM at 1, get_store at 1, lift at 1.
    destruct (st_crop (hp st s) v _) as [w|e]; [|reflexivity]. cbn [bind].
    unfold bindM at 1. rewrite metadata_stored by auto.
    destruct (truthy _); reflexivity.
Qed.

Lemma getitem_data n s k v st : attr_of (hp st) s k "data" = Some v -> is_none v = false ->
  getitem (S n) s k "data" st = (seen (hp st) s k v, st).
Proof.
  intros E Hv. unfold getitem. cbn [both snd]. unfold getitem_body. unfold bindM at 1, get_store at 1.
  unfold attr_of in E. destruct (dget k (st_items (hp st s))) as [it|] eqn:Ei; [|discriminate].
  rewrite E. cbn [String.eqb Ascii.eqb Bool.eqb]. rewrite Hv. unfold bindM at 1, ret at 1.
  apply view_stored. congruence.
Qed.
Lemma getitem_data_none n s k st : attr_of (hp st) s k "data" = Some VNone ->
  find_gen k (st_gens (hp st s)) = None ->
  getitem (S n) s k "data" st = (seen (hp st) s k VNone, st).
Proof.
  intros E Hg. unfold getitem. cbn [both snd]. unfold getitem_body. unfold bindM at 1, get_store at 1.
  unfold attr_of in E. destruct (dget k (st_items (hp st s))) as [it|] eqn:Ei; [|discriminate].
  rewrite E. cbn [String.eqb Ascii.eqb Bool.eqb is_none]. unfold bindM at 1.
  unfold except_gen, generate, bindM at 1, get_store at 1. rewrite Hg. unfold raise. 
  change (ret VNone st) with (@Ok val VNone, st). apply view_stored. congruence.
Qed.
Lemma getitem_attr n s k a st it : a <> "data" -> dget k (st_items (hp st s)) = Some it ->
  getitem (S n) s k a st = (match dget a it with Some v => Ok v | None => Err KeyError end, st).
Proof.
  intros Na Ei. unfold getitem. cbn [both snd]. unfold getitem_body. unfold bindM at 1, get_store at 1.
  rewrite Ei. destruct (dget a it); [|reflexivity].
  destruct (String.eqb_spec a "data"); [congruence | reflexivity].
Qed.

(** ** Stores without derivatives *)
Lemma keys_plain n s st : st_derivs (hp st s) = [] ->
  keys n s st = (Ok (dkeys (st_items (hp st s))), st).
Proof.
  intros E. unfold keys, keys_of, bindM, get_store. rewrite E. cbn [concatM]. unfold ret.
  rewrite app_nil_r. reflexivity.
Qed.

Definition run_op (n : nat) (o : op) : M unit :=
  match o with
  | OpAdd s k v kw => add n s k v kw
  | OpSet s k a v => set_item n s k a v
  end.
(** A script that carries on after an exception. *)
Fixpoint run_ops (n : nat) (l : list op) (st : state) : list (res unit) * state :=
  match l with
  | [] => ([], st)
  | o :: l => let (r, st1) := run_op n o st in
              let (rs, st2) := run_ops n l st1 in (r :: rs, st2)
  end.
Definition valid_op (h : nat -> store) (o : op) : Prop :=
  st_derivs (h (op_store o)) = [] /\
  match o with OpAdd _ _ _ kw => NoDup (dkeys kw) | _ => True end.

Lemma abstract_put h s its s' k' :
  abstract (put h s its) s' k' =
  if Nat.eqb s' s then match dget k' its with Some it => Some (fun a => dget a it) | None => None end
  else abstract h s' k'.
Proof. unfold abstract, put. destruct (Nat.eqb s' s); reflexivity. Qed.

Lemma run_op_refines n o st : valid_op (hp st) o ->
  exists st', run_op n o st = (fst (apply_op o (abstract (hp st))), st') /\
    abstract (hp st') = snd (apply_op o (abstract (hp st))) /\
    guard st' = guard st /\ clock st' = clock st /\ same_links (hp st) (hp st') /\
    (forall s, st_gens (hp st' s) = st_gens (hp st s) /\ st_crop (hp st' s) = st_crop (hp st s) /\
               st_mask (hp st' s) = st_mask (hp st s)).
Proof.
  assert (SL : same_links (hp st) (hp st)) by (intros x; auto).
  assert (PG : forall s its x, st_gens (put (hp st) s its x) = st_gens (hp st x) /\
             st_crop (put (hp st) s its x) = st_crop (hp st x) /\
             st_mask (put (hp st) s its x) = st_mask (hp st x)).
  { intros s its x. unfold put. destruct (Nat.eqb_spec x s) as [->|]; cbn; auto. }
  intros [Hd Hk]. destruct o as [s k v kw | s k a v]; cbn [run_op op_store apply_op] in *.
  - unfold add, contains. unfold bindM at 1. unfold bindM at 1.
    rewrite keys_plain by auto. unfold ret at 1. assert (Ea : abstract (hp st) s k = match dget k (st_items (hp st s)) with
      | Some it => Some (fun a => dget a it) | None => None end) by reflexivity.
    rewrite !Ea.
    destruct (dget k (st_items (hp st s))) as [it|] eqn:Ei.
    + assert (inb k (dkeys (st_items (hp st s))) = true) as -> by (apply inb_spec, dget_In; eauto).
      exists st. cbn [fst snd]. split; [reflexivity|split; [|split; [reflexivity|split;[reflexivity|split;[exact SL|auto]]]]]. reflexivity.
    + assert (inb k (dkeys (st_items (hp st s))) = false) as -> by (apply inb_false, dget_none; auto).
      destruct (dget "data" kw) as [w|] eqn:Ew.
      * assert (inb "data" (dkeys kw) = true) as -> by (apply inb_spec, dget_In; eauto).
        exists st. cbn [fst snd]. split; [reflexivity|split; [|split; [reflexivity|split;[reflexivity|split;[exact SL|auto]]]]]. reflexivity.
      * assert (inb "data" (dkeys kw) = false) as -> by (apply inb_false, dget_none; auto).
        eexists. split; [reflexivity|]. cbn [hp guard clock snd].
        change (fun i : nat => if Nat.eqb i s then _ else hp st i)
          with (put (hp st) s (dset k (dupdate [("data", v)] kw) (st_items (hp st s)))).
        split; [|split; [auto|split; [auto|split; [apply put_links | apply PG]]]].
        extensionality s'. extensionality k'. rewrite abstract_put.
        destruct (Nat.eqb_spec s' s) as [->|Ns]; cbn [andb]; auto.
        destruct (String.eqb_spec k' k) as [->|Nk].
        -- rewrite dget_dset_same. f_equal. extensionality a. rewrite dget_dupdate by auto.
           cbn [dget]. destruct (String.eqb_spec a "data") as [->|Na].
           ++ now rewrite Ew.
           ++ destruct (dget a kw); auto.
        -- rewrite dget_dset_other by auto. reflexivity.
  - unfold set_item, setitem. unfold bindM at 1. fold (keys n). rewrite keys_plain by auto.
    assert (Ea : abstract (hp st) s k = match dget k (st_items (hp st s)) with
      | Some it => Some (fun a => dget a it) | None => None end) by reflexivity.
    rewrite !Ea.
    destruct (dget k (st_items (hp st s))) as [it|] eqn:Ei.
    + assert (inb k (dkeys (st_items (hp st s))) = true) as -> by (apply inb_spec, dget_In; eauto).
      unfold bindM, get_store. rewrite Ei. eexists. split; [reflexivity|]. cbn [hp guard clock snd].
      change (fun i : nat => if Nat.eqb i s then _ else hp st i)
        with (put (hp st) s (dset k (dset a v it) (st_items (hp st s)))).
      split; [|split; [auto|split; [auto|split; [apply put_links | apply PG]]]].
      extensionality s'. extensionality k'. rewrite abstract_put.
      destruct (Nat.eqb_spec s' s) as [->|Ns]; cbn [andb]; auto.
      destruct (String.eqb_spec k' k) as [->|Nk].
      * rewrite dget_dset_same. f_equal. extensionality a'.
        destruct (String.eqb_spec a' a) as [->|Na]; [apply dget_dset_same | now apply dget_dset_other].
      * rewrite dget_dset_other by auto. reflexivity.
    + assert (inb k (dkeys (st_items (hp st s))) = false) as -> by (apply inb_false, dget_none; auto).
      exists st. cbn [fst snd]. split; [reflexivity|split; [|split; [reflexivity|split;[reflexivity|split;[exact SL|auto]]]]]. reflexivity.
Qed.

Lemma valid_links h h' o : same_links h h' -> valid_op h o -> valid_op h' o.
Proof. intros L [V1 V2]. split; auto. destruct (L (op_store o)) as [-> _]. exact V1. Qed.

Lemma run_ops_refines n l : forall st, Forall (valid_op (hp st)) l ->
  fst (run_ops n l st) = fst (apply_ops l (abstract (hp st))) /\
  abstract (hp (snd (run_ops n l st))) = snd (apply_ops l (abstract (hp st))) /\
  guard (snd (run_ops n l st)) = guard st /\ clock (snd (run_ops n l st)) = clock st /\
  same_links (hp st) (hp (snd (run_ops n l st))) /\
  (forall s, st_gens (hp (snd (run_ops n l st)) s) = st_gens (hp st s) /\
             st_crop (hp (snd (run_ops n l st)) s) = st_crop (hp st s) /\
             st_mask (hp (snd (run_ops n l st)) s) = st_mask (hp st s)).
Proof.
  induction l as [|o l IH]; intros st HV; cbn [run_ops apply_ops].
  - cbn [fst snd]. repeat split; auto.
  - inversion HV as [|? ? V1 V2]; subst.
    destruct (run_op_refines n o st V1) as (st1 & E & A1 & G1 & C1 & L1 & F1).
    rewrite E. destruct (apply_op o (abstract (hp st))) as [r m1]. cbn [fst snd] in *.
    assert (V3 : Forall (valid_op (hp st1)) l).
    { eapply Forall_impl; [|exact V2]. intros a Ha. eapply valid_links; eauto. }
    specialize (IH st1 V3). rewrite A1 in IH.
    destruct (run_ops n l st1) as [rs st2]. destruct (apply_ops l m1) as [rs' m2].
    cbn [fst snd] in *. destruct IH as (-> & I2 & I3 & I4 & I5 & I6).
    split; [reflexivity|]. split; [exact I2|]. split; [congruence|]. split; [congruence|].
    split.
    + intros x. destruct (I5 x) as [-> ->]. apply L1.
    + intros x. destruct (I6 x) as (-> & -> & ->). apply F1.
Qed.

(** ** Generators *)
Section Gen.
Variables (G : list nat) (n s : nat).
Hypothesis Hn : bound G <= n.

Lemma setitem_root h c k a v it : well_formed h G -> no_self_link h ->
  dget k (st_items (h s)) = Some it ->
  setitem (lookup_keys n) s k a v (State h None c) =
  (Ok tt, State (put h s (dset k (dset a v it) (st_items (h s)))) None c).
Proof.
  intros W N Ei. unfold setitem. unfold bindM at 1.
  destruct (keys_any h G W n None c s Hn) as (ks & g' & E & _ & _ & P).
  destruct (P eq_refl N) as [-> _]. unfold keys in E. rewrite E.
  assert (inb k (dkeys (st_items (h s)) ++ ks) = true) as ->.
  { apply inb_spec, in_app_iff. left. apply dget_In. eauto. }
  unfold bindM, get_store. cbn [hp]. rewrite Ei. reflexivity.
Qed.

Definition saved (h : nat -> store) (k : string) : bool := truthy (attr_or h s k "save" (VBool true)).

Lemma attr_put_same h k it a :
  attr_of (put h s (dset k it (st_items (h s)))) s k a = dget a it.
Proof.
  unfold attr_of, put. rewrite Nat.eqb_refl. cbn [st_items]. now rewrite dget_dset_same.
Qed.
Lemma attr_put_other h k it k' s' a : (s', k') <> (s, k) ->
  attr_of (put h s (dset k it (st_items (h s)))) s' k' a = attr_of h s' k' a.
Proof.
  intros N. unfold attr_of, put. destruct (Nat.eqb_spec s' s) as [->|]; cbn [st_items]; auto.
  rewrite dget_dset_other by congruence. reflexivity.
Qed.

Lemma save_one_root h c k v : well_formed h G -> no_self_link h -> In k (dkeys (st_items (h s))) ->
  exists h', save_one (lookup_keys n) (getitem n) s (k, v) (State h None c) = (Ok tt, State h' None c) /\
    same_links h h' /\
    (forall x, st_gens (h' x) = st_gens (h x) /\ st_crop (h' x) = st_crop (h x) /\ st_mask (h' x) = st_mask (h x) /\
               dkeys (st_items (h' x)) = dkeys (st_items (h x))) /\
    (forall s' k' a, attr_of h' s' k' a =
       if Nat.eqb s' s && String.eqb k' k && String.eqb a "data" && saved h k
       then Some v else attr_of h s' k' a).
Proof.
  intros W N Hk. apply dget_In in Hk as (it & Ei). unfold save_one. unfold bindM at 1. cbn [fst snd].
  rewrite metadata_stored by (cbn [hp]; congruence). cbn [hp]. fold (saved h k).
  destruct (saved h k).
  - rewrite (setitem_root h c k "data" v it) by auto. eexists. split; [reflexivity|].
    split; [apply put_links|]. split.
    + intros x. unfold put. destruct (Nat.eqb_spec x s) as [->|]; cbn [st_gens st_crop st_mask st_items]; auto.
      rewrite dkeys_dset. assert (inb k (dkeys (st_items (h s))) = true) as -> by (apply inb_spec, dget_In; eauto). auto.
    + intros s' k' a. rewrite andb_true_r.
      destruct (Nat.eqb_spec s' s) as [->|Ns]; cbn [andb].
      2:{ apply attr_put_other. congruence. }
      destruct (String.eqb_spec k' k) as [->|Nk]; cbn [andb].
      2:{ apply attr_put_other. congruence. }
      rewrite attr_put_same. destruct (String.eqb_spec a "data") as [->|Na].
      * apply dget_dset_same.
      * rewrite dget_dset_other by auto. unfold attr_of. now rewrite Ei.
  - exists h. split; [reflexivity|]. split; [intros x; auto|]. split; [auto|].
    intros. now rewrite andb_false_r.
Qed.

Lemma save_all_root outs : forall h c, well_formed h G -> no_self_link h ->
  NoDup (map fst outs) -> incl (map fst outs) (dkeys (st_items (h s))) ->
  exists h', iterM (save_one (lookup_keys n) (getitem n) s) outs (State h None c) = (Ok tt, State h' None c) /\
    same_links h h' /\
    (forall x, st_gens (h' x) = st_gens (h x) /\ st_crop (h' x) = st_crop (h x) /\ st_mask (h' x) = st_mask (h x) /\
               dkeys (st_items (h' x)) = dkeys (st_items (h x))) /\
    (forall k v, In (k, v) outs -> saved h k = true -> attr_of h' s k "data" = Some v) /\
    (forall s' k' a, (forall v, ~ (s' = s /\ a = "data" /\ In (k', v) outs /\ saved h k' = true)) ->
       attr_of h' s' k' a = attr_of h s' k' a).
Proof.
  induction outs as [|[k v] outs IH]; intros h c W N ND I; cbn [iterM].
  - exists h. split; [reflexivity|]. split; [intros x; auto|]. split; [auto|]. split; [intros k v []|auto].
  - cbn [map fst] in ND, I. inversion ND as [|? ? Nk ND']; subst.
    destruct (save_one_root h c k v W N) as (h1 & E1 & L1 & F1 & A1); [apply I; now left|].
    unfold bindM. rewrite E1.
    assert (Sv : forall k', saved h1 k' = saved h k').
    { intros k'. unfold saved, attr_or. rewrite A1. 
      change (String.eqb "save" "data") with false. rewrite andb_false_r. reflexivity. }
    destruct (IH h1 c) as (h2 & E2 & L2 & F2 & A2 & B2); auto.
    { eapply wf_links; eauto. }
    { eapply nsl_links; eauto. }
    { intros x Hx. destruct (F1 s) as (_ & _ & _ & ->). apply I. now right. }
    exists h2. split; [exact E2|]. split; [|split; [|split]].
    + intros x. destruct (L2 x) as [-> ->]. apply L1.
    + intros x. destruct (F2 x) as (-> & -> & -> & ->). apply F1.
    + intros k' v' [Ekv|Hkv] Hs.
      * assert (k' = k /\ v' = v) as [-> ->] by (split; congruence).
        rewrite B2.
        -- rewrite A1, Nat.eqb_refl, !String.eqb_refl, Hs. reflexivity.
        -- intros w (_ & _ & Hin & _). apply Nk. apply in_map_iff. exists (k, w). auto.
      * apply A2; auto. now rewrite Sv.
    + intros s' k' a Hno. rewrite B2.
      * rewrite A1. destruct (Nat.eqb_spec s' s) as [->|]; cbn [andb]; auto.
        destruct (String.eqb_spec k' k) as [->|]; cbn [andb]; auto.
        destruct (String.eqb_spec a "data") as [->|]; cbn [andb]; auto.
        destruct (saved h k) eqn:Es; auto. exfalso. apply (Hno v). cbn [In]. auto.
      * intros w (-> & -> & Hin & Hs). apply (Hno w). rewrite Sv in Hs. cbn [In]. auto.
Qed.

Lemma find_gen_in k gens ks f : find_gen k gens = Some (ks, f) -> In k ks.
Proof.
  induction gens as [|g gens IH]; cbn [find_gen]; [discriminate|].
  destruct (inb k (fst g)) eqn:E; auto. intros H. apply inb_spec in E.
  assert (g = (ks, f)) as -> by congruence. exact E.
Qed.

Lemma find_rev_nodup (l : list (string * val)) k v : NoDup (map fst l) -> In (k, v) l ->
  find (fun kd => String.eqb (fst kd) k) (rev l) = Some (k, v).
Proof.
  intros ND H.
  assert (Q : forall x, In x l -> fst x = k -> x = (k, v)).
  { intros [k' w] Hx Ek. cbn [fst] in Ek. subst k'. f_equal. clear -ND H Hx.
    induction l as [|[a b] l IH]; [destruct H|]. cbn [map fst] in ND. inversion ND; subst.
    destruct H as [H|H], Hx as [Hx|Hx].
    - congruence.
    - assert (a = k) by congruence. subst a. exfalso. apply H2. apply in_map_iff. exists (k, w). auto.
    - assert (a = k) by congruence. subst a. exfalso. apply H2. apply in_map_iff. exists (k, v). auto.
    - auto. }
  destruct (find (fun kd => String.eqb (fst kd) k) (rev l)) as [x|] eqn:E.
  - apply find_some in E as [E1 E2]. apply String.eqb_eq in E2. f_equal. apply Q; auto. now apply in_rev.
  - exfalso. apply in_rev in H. apply (find_none _ _ E) in H. cbn [fst] in H.
    now rewrite String.eqb_refl in H.
Qed.

Lemma generate_root h c k ks f r outs : well_formed h G -> no_self_link h ->
  find_gen k (st_gens (h s)) = Some (ks, f) ->
  NoDup ks -> incl ks (dkeys (st_items (h s))) ->
  f c = Ok r -> outputs ks r = Some outs ->
  exists h' v, In (k, v) outs /\
    generate (lookup_keys n) (getitem n) s k (State h None c) = (Ok v, State h' None (S c)) /\
    same_links h h' /\
    (forall x, st_gens (h' x) = st_gens (h x) /\ st_crop (h' x) = st_crop (h x) /\ st_mask (h' x) = st_mask (h x) /\
               dkeys (st_items (h' x)) = dkeys (st_items (h x))) /\
    (forall k v, In (k, v) outs -> saved h k = true -> attr_of h' s k "data" = Some v) /\
    (forall s' k' a, (forall v, ~ (s' = s /\ a = "data" /\ In (k', v) outs /\ saved h k' = true)) ->
       attr_of h' s' k' a = attr_of h s' k' a).
Proof.
  intros W N Hf ND Inc Er Ho. pose proof (find_gen_in _ _ _ _ Hf) as Hk.
  assert (Mf : map fst outs = ks).
  { unfold outputs in Ho. destruct ks as [|k1 [|k2 ks]].
    - destruct Hk.
    - assert (outs = [(k1, r)]) as -> by congruence. reflexivity.
    - destruct r as [| | | | |l]; try discriminate. destruct (Nat.eqb_spec (length (k1 :: k2 :: ks)) (length l)); [|discriminate].
      assert (outs = combine (k1 :: k2 :: ks) l) as -> by congruence.
      clear -e. revert l e. generalize (k1 :: k2 :: ks). induction l as [|x l IH]; intros [|y l'] E; cbn in *; try discriminate; auto.
      f_equal. apply IH. lia. }
  destruct (save_all_root outs h (S c) W N) as (h' & E & L & F & A1 & B1); [now rewrite Mf | now rewrite Mf |].
  assert (Hv : exists v, In (k, v) outs).
  { rewrite <- Mf in Hk. apply in_map_iff in Hk as ([k' v] & Ek & Hin). exists v. cbn [fst] in Ek. now subst k'. }
  destruct Hv as (v & Hv). exists h', v. split; auto.
  split; [|split; [auto|split; [auto|split; auto]]].
  unfold generate. unfold bindM at 1, get_store at 1. cbn [hp]. rewrite Hf.
  unfold bindM at 1, run_gen. cbn [clock hp guard]. rewrite Er.
  unfold outputs in Ho. destruct ks as [|k1 [|k2 ks]].
  - destruct Hk.
  - assert (outs = [(k1, r)]) as -> by congruence. destruct Hv as [Hv|[]].
    assert (k1 = k /\ r = v) as [-> ->] by (split; congruence).
    cbn [iterM] in E. unfold bindM at 1 in E. unfold bindM at 1.
    destruct (save_one _ _ s (k, v) (State h None (S c))) as [[[]|e] st1]; unfold ret in *; congruence.
  - destruct r as [| | | | |l]; try discriminate.
    destruct (Nat.eqb (length (k1 :: k2 :: ks)) (length l)); [|discriminate].
    assert (outs = combine (k1 :: k2 :: ks) l) as -> by congruence.
    unfold bindM. rewrite E. rewrite (find_rev_nodup _ k v); auto. rewrite Mf; auto.
Qed.
End Gen.

Lemma getitem_generates G n s h c k ks f r outs : bound G <= n ->
  well_formed h G -> no_self_link h ->
  attr_of h s k "data" = Some VNone ->
  find_gen k (st_gens (h s)) = Some (ks, f) ->
  NoDup ks -> incl ks (dkeys (st_items (h s))) ->
  f c = Ok r -> outputs ks r = Some outs ->
  exists h' v, In (k, v) outs /\
    getitem (S n) s k "data" (State h None c) = (seen h s k v, State h' None (S c)) /\
    same_links h h' /\
    (forall x, st_gens (h' x) = st_gens (h x) /\ st_crop (h' x) = st_crop (h x) /\ st_mask (h' x) = st_mask (h x) /\
               dkeys (st_items (h' x)) = dkeys (st_items (h x))) /\
    (forall k v, In (k, v) outs -> saved s h k = true -> attr_of h' s k "data" = Some v) /\
    (forall s' k' a, (forall v, ~ (s' = s /\ a = "data" /\ In (k', v) outs /\ saved s h k' = true)) ->
       attr_of h' s' k' a = attr_of h s' k' a).
Proof.
  intros Hn W N E Hf ND Inc Er Ho.
  destruct (generate_root G n s Hn h c k ks f r outs W N Hf ND Inc Er Ho) as (h' & v & Hv & Eg & L & F & A1 & B1).
  exists h', v. split; auto. split; [|auto].
  unfold getitem. cbn [both snd]. unfold getitem_body. unfold bindM at 1, get_store at 1. cbn [hp].
  unfold attr_of in E. destruct (dget k (st_items (h s))) as [it|] eqn:Ei; [|discriminate].
  rewrite E. cbn [String.eqb Ascii.eqb Bool.eqb is_none]. unfold bindM at 1, except_gen.
  unfold lookup_keys, getitem in Eg. rewrite Eg.
  rewrite view_stored.
  - cbn [hp]. unfold seen, attr_or. rewrite !(B1 s k) by (intros w (_ & K & _); discriminate).
    destruct (F s) as (_ & -> & -> & _). reflexivity.
  - cbn [hp]. assert (In k (dkeys (st_items (h' s)))).
    { destruct (F s) as (_ & _ & _ & ->). apply dget_In. eauto. }
    apply dget_In in H as (it' & ->). discriminate.
Qed.

(** ** Derived data *)
Inductive reads (h : nat -> store) (c : nat) : nat -> string -> val -> Prop :=
| reads_stored s k v w :
    attr_of h s k "data" = Some v -> is_none v = false -> seen h s k v = Ok w -> reads h c s k w
| reads_func s k d ds ks v w :
    dget k (st_items (h s)) = None -> st_derivs (h s) = d :: ds ->
    (exists n0, lookup_keys n0 s d (State h None c) = (Ok ks, State h None c)) -> In k ks ->
    dget "data" (d_out d) = None -> d_pass_ref d = false ->
    reads h c (d_src d) k v -> d_func d v = Ok w -> reads h c s k w
| reads_ref s k d ds ks w :
    dget k (st_items (h s)) = None -> st_derivs (h s) = d :: ds ->
    (exists n0, lookup_keys n0 s d (State h None c) = (Ok ks, State h None c)) -> In k ks ->
    dget "data" (d_out d) = None -> d_pass_ref d = true ->
    d_ref d k = Ok w -> reads h c s k w.

Lemma reads_getitem h G c s k w : well_formed h G -> no_self_link h -> reads h c s k w ->
  exists n0, forall n, n0 <= n -> getitem n s k "data" (State h None c) = (Ok w, State h None c).
Proof.
  intros W N R. induction R as [s k v w E Hv Hs | s k d ds ks v w Es Ed (n1 & El) Hk Ho Hp R IH Hf | s k d ds ks w Es Ed (n1 & El) Hk Ho Hp Hf].
  - exists 1. intros n Hn. destruct n as [|n]; [lia|]. rewrite (getitem_data n s k v) by auto.
    cbn [hp]. now rewrite Hs.
  - destruct IH as (n2 & IH). exists (S (bound G + n1 + n2)). intros n Hn. destruct n as [|n]; [lia|].
    unfold getitem. cbn [both snd]. unfold getitem_body. unfold bindM at 1, get_store at 1. cbn [hp].
    rewrite Es. unfold bindM at 1.
    destruct (keys_any h G W n None c s ltac:(lia)) as (kk & g' & Ek & _ & _ & P).
    destruct (P eq_refl N) as [-> _]. unfold keys, lookup_keys in Ek. rewrite Ek.
    assert (Eln : lookup_keys n s d (State h None c) = (Ok ks, State h None c)).
    { eapply le_ok; [apply (lookup_mono n1); lia | exact El]. }
    assert (Ink : inb k (dkeys (st_items (h s)) ++ kk) = true).
    { apply inb_spec, in_app_iff. right. unfold keys_of, bindM, get_store in Ek. cbn [hp] in Ek.
      rewrite Ed in Ek. cbn [concatM] in Ek. unfold bindM at 1 in Ek. unfold lookup_keys in Eln. rewrite Eln in Ek.
      unfold bindM in Ek.
      destruct (concatM (fst (both n) s) ds (State h None c)) as [[k2|e] st2]; [|discriminate].
      unfold ret in Ek.
      assert (K : (dkeys (st_items (h s)) ++ ks ++ k2 = dkeys (st_items (h s)) ++ kk)%list) by congruence.
      apply app_inv_head in K. rewrite <- K. apply in_app_iff. now left. }
    rewrite Ink. unfold get_derived. unfold bindM at 1, get_store at 1. cbn [hp]. rewrite Ed.
    unfold bindM at 1. unfold lookup_keys in Eln. rewrite Eln.
    assert (inb k ks = true) as -> by now apply inb_spec.
    rewrite Ho, Hp. cbn [andb]. unfold bindM. pose proof (IH n ltac:(lia)) as IHn. unfold getitem in IHn.
    rewrite IHn. cbn [String.eqb Ascii.eqb Bool.eqb]. unfold lift. now rewrite Hf.
  - exists (S (bound G + n1)). intros n Hn. destruct n as [|n]; [lia|].
    unfold getitem. cbn [both snd]. unfold getitem_body. unfold bindM at 1, get_store at 1. cbn [hp].
    rewrite Es. unfold bindM at 1.
    destruct (keys_any h G W n None c s ltac:(lia)) as (kk & g' & Ek & _ & _ & P).
    destruct (P eq_refl N) as [-> _]. unfold keys, lookup_keys in Ek. rewrite Ek.
    assert (Eln : lookup_keys n s d (State h None c) = (Ok ks, State h None c)).
    { eapply le_ok; [apply (lookup_mono n1); lia | exact El]. }
    assert (Ink : inb k (dkeys (st_items (h s)) ++ kk) = true).
    { apply inb_spec, in_app_iff. right. unfold keys_of, bindM, get_store in Ek. cbn [hp] in Ek.
      rewrite Ed in Ek. cbn [concatM] in Ek. unfold bindM at 1 in Ek. unfold lookup_keys in Eln. rewrite Eln in Ek.
      unfold bindM in Ek.
      destruct (concatM (fst (both n) s) ds (State h None c)) as [[k2|e] st2]; [|discriminate].
      unfold ret in Ek.
      assert (K : (dkeys (st_items (h s)) ++ ks ++ k2 = dkeys (st_items (h s)) ++ kk)%list) by congruence.
      apply app_inv_head in K. rewrite <- K. apply in_app_iff. now left. }
    rewrite Ink. unfold get_derived. unfold bindM at 1, get_store at 1. cbn [hp]. rewrite Ed.
    unfold bindM at 1. unfold lookup_keys in Eln. rewrite Eln.
    assert (inb k ks = true) as -> by now apply inb_spec.
    rewrite Ho, Hp. cbn [andb String.eqb Ascii.eqb Bool.eqb]. unfold lift. now rewrite Hf.
Qed.
