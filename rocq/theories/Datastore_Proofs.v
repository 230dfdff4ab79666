(** Listing the keys of linked datastores: termination, frame and contents. *)
From Coq Require Import String.
From Coq Require Import List Arith Bool Lia Relations.
Import ListNotations.
From Verif Require Import Py Datastore_Model Datastore_Spec.
Open Scope string_scope.

(** ** Dictionaries *)
Lemma inb_spec k l : inb k l = true <-> In k l.
Proof.
  unfold inb. rewrite existsb_exists. split.
  - intros (x & Hx & E). apply String.eqb_eq in E. congruence.
  - intros H. exists k. split; auto. apply String.eqb_refl.
Qed.
Lemma inb_false k l : inb k l = false <-> ~ In k l.
Proof. rewrite <- inb_spec. destruct (inb k l); split; congruence. Qed.

Lemma dget_In {A} k (d : dict A) : (exists v, dget k d = Some v) <-> In k (dkeys d).
Proof.
  induction d as [|[k' v'] d IH]; cbn [dget dkeys map fst In].
  - split; [intros (v & E); discriminate | intros []].
  - destruct (String.eqb_spec k k') as [->|N].
    + split; eauto.
    + fold (dkeys d). rewrite IH. split; [auto | intros [E|]; [congruence|auto]].
Qed.
Lemma dget_none {A} k (d : dict A) : dget k d = None <-> ~ In k (dkeys d).
Proof.
  rewrite <- dget_In. destruct (dget k d) as [v|] eqn:E.
  - split; [discriminate|]. intros H. exfalso. apply H. eauto.
  - split; [intros _ (v & F); discriminate | auto].
Qed.
Lemma dget_dset_same {A} k (v : A) d : dget k (dset k v d) = Some v.
Proof.
  induction d as [|[k' v'] d IH]; cbn [dset dget].
  - now rewrite String.eqb_refl.
  - destruct (String.eqb_spec k k') as [->|N]; cbn [dget].
    + now rewrite String.eqb_refl.
    + destruct (String.eqb_spec k k'); [congruence|auto].
Qed.
Lemma dget_dset_other {A} k k2 (v : A) d : k2 <> k -> dget k2 (dset k v d) = dget k2 d.
Proof.
  intros N. induction d as [|[k' v'] d IH]; cbn [dset dget].
  - destruct (String.eqb_spec k2 k); [congruence|auto].
  - destruct (String.eqb_spec k k') as [->|Nk]; cbn [dget].
    + destruct (String.eqb_spec k2 k'); [congruence|auto].
    + destruct (String.eqb_spec k2 k'); auto.
Qed.
Lemma dkeys_dset {A} k (v : A) d :
  dkeys (dset k v d) = if inb k (dkeys d) then dkeys d else (dkeys d ++ [k])%list.
Proof.
  induction d as [|[k' v'] d IH]; cbn [dset dkeys map fst].
  - reflexivity.
  - unfold inb in *. cbn [existsb]. destruct (String.eqb_spec k k') as [->|N]; cbn [orb].
    + reflexivity.
    + cbn [map fst]. fold (dkeys (dset k v d)) (dkeys d). rewrite IH.
      destruct (existsb (String.eqb k) (dkeys d)); reflexivity.
Qed.

(** ** Groups not yet visited *)
Definition memb (g : nat) (l : list nat) : bool := existsb (Nat.eqb g) l.
Lemma memb_spec g l : memb g l = true <-> In g l.
Proof.
  unfold memb. rewrite existsb_exists. split.
  - intros (x & Hx & E). apply Nat.eqb_eq in E. congruence.
  - intros H. exists g. split; auto. apply Nat.eqb_refl.
Qed.
Definition missing (G been : list nat) : nat :=
  length (filter (fun g => negb (memb g been)) G).
Lemma missing_incl G b1 b2 : incl b1 b2 -> missing G b2 <= missing G b1.
Proof.
  intros I. unfold missing. induction G as [|g G IH]; auto. cbn [filter].
  destruct (memb g b1) eqn:E1; cbn [negb].
  - assert (memb g b2 = true) as -> by (apply memb_spec, I, memb_spec; auto). cbn [negb]. exact IH.
  - destruct (memb g b2); cbn [negb List.length]; lia.
Qed.
Lemma missing_add G g b : In g G -> ~ In g b -> missing G (g :: b) < missing G b.
Proof.
  intros Hg Hn. assert (L : forall G, missing G (g :: b) <= missing G b).
  { intros G'. apply missing_incl. intros x Hx. now right. }
  unfold missing in *. induction G as [|x G IH]; [destruct Hg|]. cbn [filter].
  destruct Hg as [->|Hg].
  - assert (memb g (g :: b) = true) as -> by (apply memb_spec; now left).
    assert (memb g b = false) as ->.
    { destruct (memb g b) eqn:E; auto. apply memb_spec in E. tauto. }
    cbn [negb List.length]. specialize (L G). lia.
  - specialize (IH Hg). specialize (L [x]). unfold memb in *. cbn [filter existsb] in *.
    destruct (existsb (Nat.eqb x) b) eqn:E.
    + rewrite orb_true_r. cbn [negb]. exact IH.
    + rewrite orb_false_r. destruct (Nat.eqb x g); cbn [negb List.length]; lia.
Qed.
Lemma missing_le G b : missing G b <= length G.
Proof. unfold missing. induction G as [|g G IH]; cbn [filter]; [lia|]. destruct (memb g b); cbn; lia. Qed.

Section H.
Variables (h : nat -> store) (G : list nat).
Hypothesis WF : well_formed h G.
Notation gid s := (st_gid (h s)).

Lemma gid_G s : In (gid s) G. Proof. apply WF. Qed.

Definition dmatch (d : deriv) (k : string) : bool :=
  forallb (fun p => veqb (stored_meta h (d_src d) k (fst p)) (snd p)) (d_in d).
Lemma dmatch_spec d k : dmatch d k = true <-> passes h d k.
Proof.
  unfold dmatch, passes. rewrite forallb_forall. split.
  - intros H mk want I. apply (H (mk, want) I).
  - intros H [mk want] I. apply H. exact I.
Qed.

(** A key comes from a store that can be reached. *)
Definition sound (s : nat) (k : string) : Prop := exists t, reaches h s t /\ stored h t k.

Lemma sound_step s d k : In d (st_derivs (h s)) -> sound (d_src d) k -> sound s k.
Proof.
  intros Hd (t & Rt & St). exists t. split; auto.
  eapply rt_trans; [|exact Rt]. apply rt_step. exists d. auto.
Qed.

Definition A (n m : nat) : Prop := forall c been s d,
  In d (st_derivs (h s)) -> missing G (gid s :: been) <= m ->
  exists ks been',
    lookup_keys n s d (State h (Some been) c) = (Ok ks, State h (Some been') c) /\
    incl (gid s :: been) been' /\
    (ks <> [] -> (st_derivs (h (d_src d)) = [] /\ incl ks (dkeys (st_items (h (d_src d))))) \/
                 (In (gid (d_src d)) been' /\ ~ In (gid (d_src d)) (gid s :: been))) /\
    (forall k, In k ks -> sound (d_src d) k) /\
    (In (gid (d_src d)) (gid s :: been) -> ks = []) /\
    (~ In (gid (d_src d)) (gid s :: been) ->
       exists rest, ks = (filter (dmatch d) (dkeys (st_items (h (d_src d)))) ++ rest)%list).
Definition B (n m : nat) : Prop := forall c been s key attr,
  attr <> "data" -> missing G been <= m ->
  exists r been',
    getitem n s key attr (State h (Some been) c) = (r, State h (Some been') c) /\
    incl been been' /\ ((exists v, r = Ok v) \/ r = Err KeyError).

(** Listing the keys of [s], given its lookups. *)
Lemma keys_loop n m c s : A n m -> forall ds been,
  incl ds (st_derivs (h s)) -> missing G (gid s :: been) <= m ->
  exists ks been',
    concatM (lookup_keys n s) ds (State h (Some been) c) = (Ok ks, State h (Some been') c) /\
    incl been been' /\ (ds <> [] -> In (gid s) been') /\ (forall k, In k ks -> sound s k).
Proof.
  intros HA. induction ds as [|d ds IH]; intros been Hds Hm; cbn [concatM].
  - exists [], been. repeat split; auto using incl_refl; try (intros k []). congruence.
  - destruct (HA c been s d) as (ks & b1 & E & I1 & _ & S1 & _); [apply Hds; now left | auto |].
    unfold bindM at 1. rewrite E.
    destruct (IH b1) as (ks2 & b2 & E2 & I2 & _ & S2).
    { intros x Hx. apply Hds. now right. }
    { etransitivity; [|exact Hm]. apply missing_incl. intros x [<-|Hx]; [now left|].
      right. apply I1. now right. }
    unfold bindM. rewrite E2. exists (ks ++ ks2)%list, b2. split; [reflexivity|]. split; [|split].
    + intros x Hx. apply I2, I1. now right.
    + intros _. apply I2, I1. now left.
    + intros k. rewrite in_app_iff. intros [Hk|Hk]; auto.
      apply (sound_step s d k); auto. apply Hds. now left.
Qed.

Lemma keys_some n m c s been : A n m -> missing G (gid s :: been) <= m ->
  exists ks been',
    keys n s (State h (Some been) c) =
      (Ok (dkeys (st_items (h s)) ++ ks)%list, State h (Some been') c) /\
    incl been been' /\ (st_derivs (h s) <> [] -> In (gid s) been') /\
    (st_derivs (h s) = [] -> ks = [] /\ been' = been) /\
    (forall k, In k ks -> sound s k).
Proof.
  intros HA Hm. unfold keys, keys_of. unfold bindM at 1. cbn [get_store hp].
  destruct (keys_loop n m c s HA (st_derivs (h s)) been) as (ks & b & E & I & D & S);
    auto using incl_refl.
  unfold bindM. rewrite E. exists ks, b. split; [reflexivity|]. split; [exact I|]. split; [exact D|].
  split; auto. intros En. rewrite En in E. cbn [concatM ret] in E. unfold ret in E.
  split; congruence.
Qed.

(** Metadata of a stored key. *)
Lemma meta_stored n s key attr v st : (exists it, dget key (st_items (hp st s)) = Some it) ->
  metadata n s key attr v st =
  (Ok (match dget key (st_items (hp st s)) with
       | Some it => match dget attr it with Some x => x | None => v end
       | None => v end), st).
Proof.
  intros (it & E). unfold metadata, get_metadata, bindM, get_store. rewrite E. reflexivity.
Qed.

(** Reading metadata of a derived key. *)
Lemma derived_some n m c been s key attr : A n m -> B n (pred m) -> B n 0 ->
  attr <> "data" -> st_derivs (h s) <> [] -> missing G (gid s :: been) <= m ->
  (1 <= n) ->
  exists r been',
    get_derived (lookup_keys n) (getitem n) s key attr (State h (Some been) c) =
      (r, State h (Some been') c) /\
    incl been been' /\ In (gid s) been' /\ ((exists v, r = Ok v) \/ r = Err KeyError).
Proof.
  intros HA HB HB0 Hattr Hne Hm Hn. unfold get_derived. unfold bindM at 1. cbn [get_store hp].
  destruct (st_derivs (h s)) as [|d ds] eqn:Ed; [congruence|].
  destruct (HA c been s d) as (ks & b1 & E & I1 & P & _ & _ & _); auto; [rewrite Ed; now left|].
  unfold bindM at 1. rewrite E.
  destruct (inb key ks) eqn:Ek.
  2:{ exists (Err KeyError), b1. split; [reflexivity|]. split; [intros x Hx; apply I1; now right|].
      split; [apply I1; now left | auto]. }
  destruct (dget attr (d_out d)) as [v|] eqn:Eo.
  { exists (Ok v), b1. split; [reflexivity|]. split; [intros x Hx; apply I1; now right|].
    split; [apply I1; now left | eauto]. }
  assert (Ea : String.eqb attr "data" = false) by now apply String.eqb_neq.
  rewrite Ea, andb_false_r.
  apply inb_spec in Ek.
  assert (Hks : ks <> []) by (intros ->; destruct Ek).
  assert (Q : exists r b2, getitem n (d_src d) key attr (State h (Some b1) c) = (r, State h (Some b2) c) /\
            incl b1 b2 /\ ((exists v, r = Ok v) \/ r = Err KeyError)).
  { destruct (P Hks) as [[Ed2 Inc]|[In2 Nin]].
    - (* a source without derivatives stores the key *)
      assert (St : exists it, dget key (st_items (h (d_src d))) = Some it) by (apply dget_In, Inc, Ek).
      destruct n as [|n']; [lia|]. unfold getitem. cbn [both snd]. unfold getitem_body.
      unfold bindM at 1. cbn [get_store hp]. destruct St as (it & Es). rewrite Es.
      destruct (dget attr it) as [v|] eqn:Ev.
      + rewrite Ea. exists (Ok v), b1. split; [reflexivity|]. split; [apply incl_refl | eauto].
      + exists (Err KeyError), b1. split; [reflexivity|]. split; [apply incl_refl | auto].
    - assert (Lt : missing G b1 < m).
      { eapply Nat.lt_le_trans; [|exact Hm].
        eapply Nat.le_lt_trans; [|apply (missing_add G (gid (d_src d)) (gid s :: been)); [apply gid_G | exact Nin]].
        apply missing_incl. intros x [<-|Hx]; auto. }
      destruct (HB c b1 (d_src d) key attr Hattr) as (r & b2 & Eg & I2 & R); [lia|].
      exists r, b2. auto. }
  destruct Q as (r & b2 & Eg & I2 & R). unfold bindM. rewrite Eg.
  destruct r as [v|e].
  - exists (Ok v), b2. split; [reflexivity|]. split; [intros x Hx; apply I2, I1; now right|].
    split; [apply I2, I1; now left | eauto].
  - exists (Err e), b2. split; [reflexivity|]. split; [intros x Hx; apply I2, I1; now right|].
    split; [apply I2, I1; now left | auto].
Qed.

Lemma meta_some n m c been s key attr v : A n m -> B n (pred m) -> B n 0 -> 1 <= n ->
  attr <> "data" -> missing G (gid s :: been) <= m ->
  (st_derivs (h s) = [] -> In key (dkeys (st_items (h s)))) ->
  exists w been',
    metadata n s key attr v (State h (Some been) c) = (Ok w, State h (Some been') c) /\
    incl been been' /\
    (In key (dkeys (st_items (h s))) -> been' = been /\
       w = match dget key (st_items (h s)) with
           | Some it => match dget attr it with Some x => x | None => v end
           | None => v end).
Proof.
  intros HA HB HB0 Hn Hattr Hm Hk. destruct (dget key (st_items (h s))) as [it|] eqn:Es.
  - exists (match dget attr it with Some x => x | None => v end), been.
    rewrite meta_stored by (cbn [hp]; eauto). cbn [hp]. rewrite Es.
    split; [reflexivity|]. split; [apply incl_refl | auto].
  - assert (Hd : st_derivs (h s) <> []).
    { intros E. specialize (Hk E). apply dget_In in Hk as (it & Hk). congruence. }
    unfold metadata, get_metadata. unfold bindM at 1. cbn [get_store hp]. rewrite Es.
    destruct (derived_some n m c been s key attr) as (r & b & E & I & _ & R); auto.
    unfold except_key. rewrite E.
    assert (NK : In key (dkeys (st_items (h s))) -> False).
    { intros K. apply dget_In in K as (it & K). congruence. }
    destruct R as [(w & ->)| ->].
    + exists w, b. split; [reflexivity|]. split; auto. intros K. destruct (NK K).
    + exists v, b. split; [reflexivity|]. split; auto. intros K. destruct (NK K).
Qed.

Lemma matches_some n m c s key props : A n m -> B n (pred m) -> B n 0 -> 1 <= n ->
  ~ In "data" (dkeys props) ->
  (st_derivs (h s) = [] -> In key (dkeys (st_items (h s)))) ->
  forall been, missing G (gid s :: been) <= m ->
  exists b been',
    matches (lookup_keys n) (getitem n) s key props (State h (Some been) c) =
      (Ok b, State h (Some been') c) /\
    incl been been' /\
    (In key (dkeys (st_items (h s))) -> been' = been /\
       b = forallb (fun p => veqb (stored_meta h s key (fst p)) (snd p)) props).
Proof.
  intros HA HB HB0 Hn. induction props as [|[mk want] props IH]; intros Hp Hk been Hm; cbn [matches].
  - exists true, been. split; [reflexivity|]. split; [apply incl_refl | auto].
  - cbn [dkeys map fst In] in Hp.
    destruct (meta_some n m c been s key mk VNone) as (w & b1 & E & I1 & X); auto.
    unfold bindM at 1. fold (metadata n). rewrite E. cbn [forallb fst snd].
    assert (W : In key (dkeys (st_items (h s))) -> w = stored_meta h s key mk).
    { intros K. destruct (X K) as [_ ->]. unfold stored_meta.
      destruct (dget key (st_items (h s))); auto. }
    destruct (veqb w want) eqn:Ew.
    + destruct (IH ltac:(tauto) Hk b1) as (b & b2 & E2 & I2 & X2).
      { etransitivity; [|exact Hm]. apply missing_incl. intros x [<-|Hx]; [now left | right; auto]. }
      exists b, b2. split; [exact E2|]. split; [intros x Hx; auto|].
      intros K. destruct (X K) as [-> _]. destruct (X2 K) as [-> ->]. split; auto.
      rewrite <- (W K), Ew. reflexivity.
    + exists false, b1. split; [reflexivity|]. split; auto. intros K. destruct (X K) as [-> _].
      split; auto. rewrite <- (W K), Ew. reflexivity.
Qed.

Lemma filter_some n m c s props : A n m -> B n (pred m) -> B n 0 -> 1 <= n ->
  ~ In "data" (dkeys props) ->
  forall l been, missing G (gid s :: been) <= m ->
  (forall key, In key l -> st_derivs (h s) = [] -> In key (dkeys (st_items (h s)))) ->
  exists l' been',
    filterM (fun key => matches (lookup_keys n) (getitem n) s key props) l (State h (Some been) c) =
      (Ok l', State h (Some been') c) /\
    incl been been' /\ incl l' l.
Proof.
  intros HA HB HB0 Hn Hp. induction l as [|key l IH]; intros been Hm Hl; cbn [filterM].
  - exists [], been. split; [reflexivity|]. split; apply incl_refl.
  - destruct (matches_some n m c s key props) with (been := been) as (b & b1 & E & I1 & _); auto.
    { intros Ed. apply Hl; auto. now left. }
    unfold bindM at 1. rewrite E.
    destruct (IH b1) as (l' & b2 & E2 & I2 & L).
    { etransitivity; [|exact Hm]. apply missing_incl. intros x [<-|Hx]; [now left | right; auto]. }
    { intros k Hk. apply Hl. now right. }
    unfold bindM. rewrite E2. eexists _, b2. split; [reflexivity|]. split; [intros x Hx; auto|].
    intros x Hx. destruct b; [destruct Hx as [<-|Hx]; [now left | right; auto] | right; auto].
Qed.

Lemma filter_exact n m c s props : A n m -> B n (pred m) -> B n 0 -> 1 <= n ->
  ~ In "data" (dkeys props) ->
  forall l1 l2 been, missing G (gid s :: been) <= m ->
  incl l1 (dkeys (st_items (h s))) ->
  (forall key, In key l2 -> st_derivs (h s) = [] -> In key (dkeys (st_items (h s)))) ->
  exists l' been',
    filterM (fun key => matches (lookup_keys n) (getitem n) s key props) (l1 ++ l2)%list
      (State h (Some been) c) =
      (Ok (filter (fun key => forallb (fun p => veqb (stored_meta h s key (fst p)) (snd p)) props) l1
           ++ l')%list, State h (Some been') c) /\
    incl been been' /\ incl l' l2.
Proof.
  intros HA HB HB0 Hn Hp. induction l1 as [|key l1 IH]; intros l2 been Hm Hl1 Hl2.
  - cbn [app filter]. eapply filter_some; eauto.
  - cbn [app filterM].
    destruct (matches_some n m c s key props) with (been := been) as (b & b1 & E & I1 & X); auto.
    { intros _. apply Hl1. now left. }
    destruct X as [-> Eb]; [apply Hl1; now left|].
    unfold bindM at 1. rewrite E.
    destruct (IH l2 been Hm) as (l' & b2 & E2 & I2 & L); auto.
    { intros x Hx. apply Hl1. now right. }
    unfold bindM. rewrite E2. exists l', b2. cbn [filter]. rewrite <- Eb.
    split; [destruct b; reflexivity | auto].
Qed.

(** One lookup, given the calls below it. *)
Lemma lookup_step n m c been s d : In d (st_derivs (h s)) ->
  missing G (gid s :: been) <= m ->
  (~ In (gid (d_src d)) (gid s :: been) -> A n (pred m) /\ B n (pred (pred m)) /\ B n 0 /\ 1 <= n) ->
  exists ks been',
    lookup_keys (S n) s d (State h (Some been) c) = (Ok ks, State h (Some been') c) /\
    lookup_keys (S n) s d (State h None c) =
      lookup_keys (S n) s d (State h None c) /\
    incl (gid s :: been) been' /\
    (ks <> [] -> (st_derivs (h (d_src d)) = [] /\ incl ks (dkeys (st_items (h (d_src d))))) \/
                 (In (gid (d_src d)) been' /\ ~ In (gid (d_src d)) (gid s :: been))) /\
    (forall k, In k ks -> sound (d_src d) k) /\
    (In (gid (d_src d)) (gid s :: been) -> ks = []) /\
    (~ In (gid (d_src d)) (gid s :: been) ->
       exists rest, ks = (filter (dmatch d) (dkeys (st_items (h (d_src d)))) ++ rest)%list) /\
    (been = [] -> lookup_keys (S n) s d (State h None c) =
       (Ok ks, State h (if memb (gid (d_src d)) [gid s] then Some [gid s] else None) c)).
Proof.
  intros Hd Hm Hrec. unfold lookup_keys. cbn [both fst]. unfold lookup_body, bindM.
  cbn [get_guard get_store set_guard guard hp clock]. cbn [hp].
  fold (memb (gid (d_src d)) (gid s :: been)). fold (memb (gid (d_src d)) [gid s]).
  destruct (memb (gid (d_src d)) (gid s :: been)) eqn:Em.
  - apply memb_spec in Em. exists [], (gid s :: been). split; [reflexivity|]. split; [reflexivity|].
    split; [apply incl_refl|]. split; [congruence|]. split; [intros k []|]. split; [auto|].
    split; [tauto|]. intros ->. apply memb_spec in Em. rewrite Em. reflexivity.
  - assert (Nin : ~ In (gid (d_src d)) (gid s :: been)) by (intros K; apply memb_spec in K; congruence).
    destruct (Hrec Nin) as (HA & HB & HB0 & Hn).
    assert (Hlt : missing G (gid (d_src d) :: gid s :: been) <= pred m).
    { pose proof (missing_add G _ _ (gid_G (d_src d)) Nin). lia. }
    destruct (keys_some n (pred m) c (d_src d) (gid s :: been) HA Hlt)
      as (ks & b1 & E & I1 & D1 & D2 & S1).
    assert (Inp : ~ In "data" (dkeys (d_in d))) by (apply (wf_in _ _ WF s d Hd)).
    destruct (filter_exact n (pred m) c (d_src d) (d_in d) HA HB HB0 Hn Inp
               (dkeys (st_items (h (d_src d)))) ks b1) as (l' & b2 & E2 & I2 & L).
    { etransitivity; [|exact Hlt]. apply missing_incl. intros x [<-|Hx]; [now left | right; auto]. }
    { apply incl_refl. }
    { intros key Hk Ed. destruct (D2 Ed) as [-> _]. destruct Hk. }
    unfold keys, lookup_keys in E. rewrite E.
    unfold lookup_keys, getitem in E2. rewrite E2.
    exists (filter (dmatch d) (dkeys (st_items (h (d_src d)))) ++ l')%list, b2.
    split; [reflexivity|]. split; [reflexivity|].
    assert (I12 : incl (gid s :: been) b2) by (intros x Hx; auto).
    split; [exact I12|]. split; [|split; [|split; [|split]]].
    + intros _. destruct (st_derivs (h (d_src d))) as [|e ds] eqn:Ed.
      * left. split; auto. destruct (D2 eq_refl) as [-> _]. apply incl_l_nil in L. subst l'.
        rewrite app_nil_r. intros x Hx. now apply filter_In in Hx.
      * right. split; auto. apply I2, D1. congruence.
    + intros k. rewrite in_app_iff. intros [Hk|Hk].
      * apply filter_In in Hk as [Hk _]. exists (d_src d). split; [apply rt_refl | now apply dget_In].
      * apply S1, L, Hk.
    + tauto.
    + eauto.
    + intros ->. rewrite Em. rewrite E. rewrite E2. reflexivity.
Qed.

(** Every listing below another one terminates. *)
Lemma main m : (forall n, 2 * m + 1 <= n -> A n m) /\ (forall n, 2 * m + 2 <= n -> B n m).
Proof.
  induction m as [m IH] using lt_wf_ind.
  assert (HA : forall n, 2 * m + 1 <= n -> A n m).
  { intros n Hn. destruct n as [|n]; [lia|]. intros c been s d Hd Hm.
    assert (Hrec : ~ In (gid (d_src d)) (gid s :: been) ->
                   A n (pred m) /\ B n (pred (pred m)) /\ B n 0 /\ 1 <= n).
    { intros Nin. pose proof (missing_add G _ _ (gid_G (d_src d)) Nin).
      assert (Hlt : pred m < m) by lia.
      destruct (IH (pred m) Hlt) as [A1 _]. destruct (IH (pred (pred m)) ltac:(lia)) as [_ B1].
      destruct (IH 0 ltac:(lia)) as [_ B0].
      split; [apply A1; lia|]. split; [apply B1; lia|]. split; [apply B0; lia | lia]. }
    destruct (lookup_step n m c been s d Hd Hm Hrec)
      as (ks & b & E & _ & P1 & P2 & P3 & P4 & P5 & _).
    exists ks, b. auto 10. }
  split; auto.
  intros n Hn. destruct n as [|n]; [lia|]. intros c been s key attr Hattr Hm.
  unfold getitem. cbn [both snd]. unfold getitem_body. unfold bindM at 1. cbn [get_store hp].
  assert (Ea : String.eqb attr "data" = false) by now apply String.eqb_neq.
  destruct (dget key (st_items (h s))) as [it|] eqn:Es.
  - destruct (dget attr it) as [v|].
    + rewrite Ea. exists (Ok v), been. split; [reflexivity|]. split; [apply incl_refl | eauto].
    + exists (Err KeyError), been. split; [reflexivity|]. split; [apply incl_refl | auto].
  - assert (Hm2 : missing G (gid s :: been) <= m).
    { etransitivity; [|exact Hm]. apply missing_incl. intros x Hx; now right. }
    destruct (keys_some n m c s been (HA n ltac:(lia)) Hm2) as (ks & b1 & E & I1 & D1 & D2 & S1).
    unfold bindM at 1. unfold keys, lookup_keys in E. rewrite E.
    destruct (inb key (dkeys (st_items (h s)) ++ ks)) eqn:Ek.
    2:{ exists (Err KeyError), b1. split; [reflexivity|]. auto. }
    assert (Hd : st_derivs (h s) <> []).
    { intros Ed. destruct (D2 Ed) as [-> _]. rewrite app_nil_r in Ek.
      apply inb_spec, dget_In in Ek as (it & Ek). congruence. }
    destruct m as [|m'].
    + (* every group already visited *)
      exfalso. apply inb_spec in Ek. rewrite in_app_iff in Ek. destruct Ek as [Ek|Ek].
      { apply dget_In in Ek as (it & Ek). congruence. }
      assert (Nil : ks = []).
      { clear -WF E HA Hm Hn. unfold keys_of in E. unfold bindM at 1 in E. cbn [get_store hp] in E.
        assert (Q : forall ds been' ks, incl ds (st_derivs (h s)) -> missing G been' <= 0 ->
          forall b, concatM (fst (both n) s) ds (State h (Some been') c) = (Ok ks, State h (Some b) c) -> ks = []).
        { induction ds as [|d ds IHd]; intros been' ks' Hds Hm' b E'; cbn [concatM] in E'.
          - unfold ret in E'. congruence.
          - assert (Hm2 : missing G (gid s :: been') <= 0).
            { etransitivity; [|exact Hm']. apply missing_incl. intros x Hx; now right. }
            destruct (HA n ltac:(lia) c been' s d ltac:(apply Hds; now left) Hm2)
              as (k1 & b3 & E1 & I3 & _ & _ & P & _).
            assert (k1 = []).
            { apply P. destruct (in_dec Nat.eq_dec (gid (d_src d)) (gid s :: been')) as [|Nn]; auto.
              pose proof (missing_add G _ _ (gid_G (d_src d)) Nn). lia. }
            subst k1. unfold bindM in E'. unfold lookup_keys in E1. rewrite E1 in E'.
            destruct (concatM (fst (both n) s) ds (State h (Some b3) c)) as [[k2|e] st2] eqn:E2; [|discriminate].
            unfold ret in E'. cbn [app] in E'.
            assert (k2 = ks' /\ st2 = State h (Some b) c) as [-> ->] by (split; congruence).
            eapply (IHd b3); eauto; [intros x Hx; apply Hds; now right|].
            etransitivity; [|exact Hm']. apply missing_incl. intros x Hx. apply I3. now right. }
        unfold bindM in E.
        destruct (concatM (fst (both n) s) (st_derivs (h s)) (State h (Some been) c)) as [[k2|e] st2] eqn:E2;
          [|discriminate].
        unfold ret in E. assert (k2 = ks /\ st2 = State h (Some b1) c) as [-> ->].
        { split; [|congruence]. assert (K : (dkeys (st_items (h s)) ++ k2 = dkeys (st_items (h s)) ++ ks)%list) by congruence.
          now apply app_inv_head in K. }
        eapply Q; eauto using incl_refl. }
      subst ks. destruct Ek.
    + destruct (IH m' ltac:(lia)) as [_ Bm]. destruct (IH 0 ltac:(lia)) as [_ B0].
      destruct (derived_some n (S m') c b1 s key attr) as (r & b2 & E2 & I2 & _ & R); auto.
      * apply HA. lia.
      * apply Bm. cbn [pred]. lia.
      * apply B0. lia.
      * etransitivity; [|exact Hm]. apply missing_incl. intros x Hx. right. auto.
      * lia.
      * exists r, b2. split; [exact E2|]. split; [intros x Hx; auto | exact R].
Qed.

End H.
