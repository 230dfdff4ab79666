(** Datastore calls made from outside: listing, reading, writing, generating. *)
From Coq Require Import String.
From Coq Require Import List Arith Bool Lia Relations FunctionalExtensionality.
Import ListNotations.
From Verif Require Import Py Datastore_Model Datastore_Spec Datastore_Proofs.
Open Scope string_scope.

(** ** More fuel changes nothing once the answer is there *)
Definition le_res {A} (a b : res A * state) : Prop := fst a = Err OutOfFuel \/ a = b.
Definition le_m {A} (f g : M A) : Prop := forall st, le_res (f st) (g st).

Lemma le_m_refl {A} (f : M A) : le_m f f.
Proof. intros st. now right. Qed.
Lemma le_bind {A B} (f g : M A) (k l : A -> M B) :
  le_m f g -> (forall a, le_m (k a) (l a)) -> le_m (bindM f k) (bindM g l).
Proof.
  intros H1 H2 st. unfold bindM. destruct (H1 st) as [E|E].
  - destruct (f st) as [[a|e] st']; cbn [fst] in E; [discriminate|]. left. cbn [fst]. congruence.
  - rewrite <- E. destruct (f st) as [[a|e] st']; [apply H2 | now right].
Qed.
Lemma le_key {A} (f g : M A) k : le_m f g -> le_m (except_key f k) (except_key g k).
Proof.
  intros H st. unfold except_key. destruct (H st) as [E|E].
  - destruct (f st) as [[a|e] st']; cbn [fst] in E; [discriminate|].
    assert (e = OutOfFuel) as -> by congruence. now left.
  - rewrite <- E. now right.
Qed.
Lemma le_gen {A} (f g : M A) k : le_m f g -> le_m (except_gen f k) (except_gen g k).
Proof.
  intros H st. unfold except_gen. destruct (H st) as [E|E].
  - destruct (f st) as [[a|e] st']; cbn [fst] in E; [discriminate|].
    assert (e = OutOfFuel) as -> by congruence. now left.
  - rewrite <- E. now right.
Qed.
Lemma le_concat {A B} (f g : A -> M (list B)) l :
  (forall a, le_m (f a) (g a)) -> le_m (concatM f l) (concatM g l).
Proof.
  intros H. induction l as [|a l IH]; cbn [concatM]; [apply le_m_refl|].
  apply le_bind; auto. intros x. apply le_bind; auto. intros y. apply le_m_refl.
Qed.
Lemma le_filter {A} (f g : A -> M bool) l :
  (forall a, le_m (f a) (g a)) -> le_m (filterM f l) (filterM g l).
Proof.
  intros H. induction l as [|a l IH]; cbn [filterM]; [apply le_m_refl|].
  apply le_bind; auto. intros x. apply le_bind; auto. intros y. apply le_m_refl.
Qed.
Lemma le_iter {A} (f g : A -> M unit) l :
  (forall a, le_m (f a) (g a)) -> le_m (iterM f l) (iterM g l).
Proof.
  intros H. induction l as [|a l IH]; cbn [iterM]; [apply le_m_refl|].
  apply le_bind; auto.
Qed.

Section Mono.
Variables (lk lk' : nat -> deriv -> M (list string)) (gi gi' : nat -> string -> string -> M val).
Hypothesis Hlk : forall s d, le_m (lk s d) (lk' s d).
Hypothesis Hgi : forall s k a, le_m (gi s k a) (gi' s k a).

Lemma le_keys_of s : le_m (keys_of lk s) (keys_of lk' s).
Proof.
  apply le_bind; [apply le_m_refl|]. intros o. apply le_bind; [now apply le_concat|].
  intros; apply le_m_refl.
Qed.
Lemma le_get_derived s k a : le_m (get_derived lk gi s k a) (get_derived lk' gi' s k a).
Proof.
  apply le_bind; [apply le_m_refl|]. intros o. destruct (st_derivs o); [apply le_m_refl|].
  apply le_bind; auto. intros ks. destruct (inb k ks); [|apply le_m_refl].
  destruct (dget a _); [apply le_m_refl|]. destruct (_ && _); [apply le_m_refl|].
  apply le_bind; auto. intros v. apply le_m_refl.
Qed.
Lemma le_get_metadata s k a v : le_m (get_metadata lk gi s k a v) (get_metadata lk' gi' s k a v).
Proof.
  apply le_bind; [apply le_m_refl|]. intros o. destruct (dget k _); [apply le_m_refl|].
  apply le_key, le_get_derived.
Qed.
Lemma le_matches s k p : le_m (matches lk gi s k p) (matches lk' gi' s k p).
Proof.
  induction p as [|[mk want] p IH]; cbn [matches]; [apply le_m_refl|].
  apply le_bind; [apply le_get_metadata|]. intros v. destruct (veqb v want); [auto | apply le_m_refl].
Qed.
Lemma le_lookup_body s d : le_m (lookup_body lk gi s d) (lookup_body lk' gi' s d).
Proof.
  apply le_bind; [apply le_m_refl|]. intros g. apply le_bind; [apply le_m_refl|]. intros o.
  apply le_bind; [apply le_m_refl|]. intros _. apply le_bind; [apply le_m_refl|]. intros so.
  destruct (existsb _ _); [apply le_m_refl|]. apply le_bind; [apply le_keys_of|]. intros ks.
  apply le_bind; [apply le_filter; intros; apply le_matches|]. intros; apply le_m_refl.
Qed.
Lemma le_setitem s k a v : le_m (setitem lk s k a v) (setitem lk' s k a v).
Proof. apply le_bind; [apply le_keys_of|]. intros; apply le_m_refl. Qed.
Lemma le_save_one s kd : le_m (save_one lk gi s kd) (save_one lk' gi' s kd).
Proof.
  apply le_bind; [apply le_get_metadata|]. intros sv. destruct (truthy sv); [apply le_setitem | apply le_m_refl].
Qed.
Lemma le_generate s k : le_m (generate lk gi s k) (generate lk' gi' s k).
Proof.
  apply le_bind; [apply le_m_refl|]. intros o. destruct (find_gen k _) as [[ks f]|]; [|apply le_m_refl].
  apply le_bind; [apply le_m_refl|]. intros ds.
  assert (T : forall ks : list string, le_m
    match ds with
    | VTup l => if Nat.eqb (length ks) (length l)
                then let* _ := iterM (save_one lk gi s) (combine ks l) in
                     match find (fun kd => String.eqb (fst kd) k) (rev (combine ks l)) with
                     | Some kd => ret (snd kd) | None => raise UnboundLocalError end
                else raise ValueError
    | _ => raise TypeError end
    match ds with
    | VTup l => if Nat.eqb (length ks) (length l)
                then let* _ := iterM (save_one lk' gi' s) (combine ks l) in
                     match find (fun kd => String.eqb (fst kd) k) (rev (combine ks l)) with
                     | Some kd => ret (snd kd) | None => raise UnboundLocalError end
                else raise ValueError
    | _ => raise TypeError end).
  { intros ks'. destruct ds as [| | | | |l]; try apply le_m_refl.
    destruct (Nat.eqb _ _); [|apply le_m_refl].
    apply le_bind; [apply le_iter, le_save_one | intros; apply le_m_refl]. }
  destruct ks as [|k1 [|k2 ks]]; [apply (T []) | | apply (T (k1 :: k2 :: ks))].
  apply le_bind; [apply le_save_one | intros; apply le_m_refl].
Qed.
Lemma le_getitem_body s k a : le_m (getitem_body lk gi s k a) (getitem_body lk' gi' s k a).
Proof.
  apply le_bind; [apply le_m_refl|]. intros o. destruct (dget k _) as [it|].
  - destruct (dget a it) as [v|]; [|apply le_m_refl]. destruct (String.eqb a "data"); [|apply le_m_refl].
    apply le_bind; [destruct (is_none v); [apply le_gen, le_generate | apply le_m_refl]|]. intros w.
    apply le_bind; [apply le_get_metadata|]. intros ty. destruct (veqb _ _); [|apply le_m_refl].
    apply le_bind; [apply le_get_metadata|]. intros c.
    apply le_bind; [destruct (truthy c); [apply le_m_refl|];
      apply le_bind; [apply le_get_metadata | intros; apply le_m_refl]|].
    intros w'. apply le_bind; [apply le_get_metadata|]. intros; apply le_m_refl.
  - apply le_bind; [apply le_keys_of|]. intros ks. destruct (inb k ks); [apply le_get_derived | apply le_m_refl].
Qed.
End Mono.

Lemma both_mono n : (forall s d, le_m (lookup_keys n s d) (lookup_keys (S n) s d)) /\
                    (forall s k a, le_m (getitem n s k a) (getitem (S n) s k a)).
Proof.
  induction n as [|n [IH1 IH2]].
  - split; intros; intros st; now left.
  - split.
    + intros s d. apply le_lookup_body; auto.
    + intros s k a. apply le_getitem_body; auto.
Qed.
Lemma le_m_trans {A} (f g k : M A) : le_m f g -> le_m g k -> le_m f k.
Proof. intros H1 H2 st. destruct (H1 st) as [E|E]; [now left|]. rewrite E. apply H2. Qed.
Lemma lookup_mono n n' s d : n <= n' -> le_m (lookup_keys n s d) (lookup_keys n' s d).
Proof.
  induction 1; [apply le_m_refl|]. eapply le_m_trans; [exact IHle|]. apply both_mono.
Qed.
Lemma getitem_mono n n' s k a : n <= n' -> le_m (getitem n s k a) (getitem n' s k a).
Proof.
  induction 1; [apply le_m_refl|]. eapply le_m_trans; [exact IHle|]. apply both_mono.
Qed.
Lemma keys_mono n n' s : n <= n' -> le_m (keys n s) (keys n' s).
Proof. intros H. apply le_keys_of. intros. now apply lookup_mono. Qed.
Lemma metadata_mono n n' s k a v : n <= n' -> le_m (metadata n s k a v) (metadata n' s k a v).
Proof.
  intros H. apply le_get_metadata; intros; [now apply lookup_mono | now apply getitem_mono].
Qed.
Lemma le_ok {A} (f g : M A) st a st' : le_m f g -> f st = (Ok a, st') -> g st = (Ok a, st').
Proof. intros H E. destruct (H st) as [F|F]; rewrite E in F; [discriminate | auto]. Qed.

(** ** Listings from outside *)
Definition bound (G : list nat) : nat := 2 * length G + 3.

Section H.
Variables (h : nat -> store) (G : list nat).
Hypothesis WF : well_formed h G.
Notation gid s := (st_gid (h s)).

(** A listing works whatever the guard. *)
Lemma lookup_any n g c s d : bound G <= n -> In d (st_derivs (h s)) ->
  exists ks g', lookup_keys n s d (State h g c) = (Ok ks, State h g' c) /\
    (forall k, In k ks -> sound h (d_src d) k) /\
    (g = None -> gid (d_src d) <> gid s -> g' = None /\
      exists rest, ks = (filter (dmatch h d) (dkeys (st_items (h (d_src d)))) ++ rest)%list).
Proof.
  intros Hn Hd. unfold bound in Hn. destruct g as [been|].
  - destruct (main h G WF (length G)) as [HA _].
    destruct (HA n ltac:(lia) c been s d Hd (missing_le _ _)) as (ks & b & E & _ & _ & S & _).
    exists ks, (Some b). split; [exact E|]. split; auto. discriminate.
  - destruct n as [|n]; [lia|].
    destruct (lookup_step h G WF n (length G) c [] s d Hd (missing_le _ _)) as (ks & b & E & _ & P1 & P2 & P3 & P4 & P5 & P6).
    { intros Nin. destruct (main h G WF (pred (length G))) as [A1 _].
      destruct (main h G WF (pred (pred (length G)))) as [_ B1]. destruct (main h G WF 0) as [_ B0].
      split; [apply A1; lia|]. split; [apply B1; lia|]. split; [apply B0; lia | lia]. }
    specialize (P6 eq_refl). eexists ks, _. split; [exact P6|]. split; [exact P3|].
    intros _ N. unfold memb. cbn [existsb]. apply Nat.eqb_neq in N. rewrite N. cbn [orb].
    split; auto. apply P5. intros [K|[]]. apply Nat.eqb_neq in N. congruence.
Qed.

Lemma concat_any n c s : bound G <= n -> forall ds, incl ds (st_derivs (h s)) -> forall g,
  exists ks g', concatM (lookup_keys n s) ds (State h g c) = (Ok ks, State h g' c) /\
    (forall k, In k ks -> sound h s k) /\
    (g = None -> no_self_link h -> g' = None /\
       forall d k, In d ds -> stored h (d_src d) k -> passes h d k -> In k ks).
Proof.
  intros Hn. induction ds as [|d ds IH]; intros Hds g; cbn [concatM].
  - exists [], g. split; [reflexivity|]. split; [intros k []|]. intros -> _. split; [auto | intros d k []].
  - destruct (lookup_any n g c s d Hn) as (ks & g1 & E & S1 & P1); [apply Hds; now left|].
    destruct (IH (fun x Hx => Hds x (or_intror Hx)) g1) as (ks2 & g2 & E2 & S2 & P2).
    unfold bindM at 1. rewrite E. unfold bindM. rewrite E2.
    exists (ks ++ ks2)%list, g2. split; [reflexivity|]. split.
    { intros k. rewrite in_app_iff. intros [?|?]; auto.
      apply (sound_step h s d k); auto. apply Hds. now left. }
    intros -> NS. assert (N : gid (d_src d) <> gid s) by (apply NS; apply Hds; now left).
    destruct (P1 eq_refl N) as [-> (rest & Er)]. destruct (P2 eq_refl NS) as [-> Q].
    split; auto. intros d' k [<-|Hd'] St Pa; apply in_app_iff.
    + left. rewrite Er. apply in_app_iff. left. apply filter_In.
      split; [now apply dget_In | now apply dmatch_spec].
    + right. eapply Q; eauto.
Qed.

Lemma keys_any n g c s : bound G <= n ->
  exists ks g', keys n s (State h g c) = (Ok (dkeys (st_items (h s)) ++ ks)%list, State h g' c) /\
    (forall k, In k ks -> sound h s k) /\
    (st_derivs (h s) = [] -> ks = [] /\ g' = g) /\
    (g = None -> no_self_link h -> g' = None /\
       forall d k, In d (st_derivs (h s)) -> stored h (d_src d) k -> passes h d k -> In k ks).
Proof.
  intros Hn. destruct (concat_any n c s Hn (st_derivs (h s)) (incl_refl _) g) as (ks & g' & E & S & P).
  exists ks, g'. unfold keys, keys_of, bindM, get_store. cbn [hp]. rewrite E.
  split; [reflexivity|]. split; auto. split; auto.
  intros Ed. rewrite Ed in E. cbn [concatM] in E. unfold ret in E. split; congruence.
Qed.

(** ** Without filters every reachable key is listed *)
Hypothesis noprops : forall s d, In d (st_derivs (h s)) -> d_in d = [].
Hypothesis gid_inj : forall s t, gid s = gid t -> s = t.

Definition listed (ks : list string) (been : list nat) (y : nat) : Prop :=
  incl (dkeys (st_items (h y))) ks /\ (st_derivs (h y) = [] \/ In (gid y) been).
(** [been'] was reached from [been0] with the keys [ks]. *)
Definition closed (been0 been' : list nat) (ks : list string) : Prop :=
  incl been0 been' /\
  forall x, In (gid x) been' -> ~ In (gid x) been0 ->
    incl (dkeys (st_items (h x))) ks /\
    forall d, In d (st_derivs (h x)) -> In (gid (d_src d)) been0 \/ listed ks been' (d_src d).

Lemma filter_all n s l st :
  filterM (fun key => matches (fst (both n)) (snd (both n)) s key []) l st = (Ok l, st).
Proof.
  induction l as [|k l IH]; cbn [filterM]; [reflexivity|].
  unfold bindM at 1. unfold matches at 1, ret at 1. unfold bindM. rewrite IH. reflexivity.
Qed.

Lemma listed_mono ks ks' b b' y : incl ks ks' -> incl b b' -> listed ks b y -> listed ks' b' y.
Proof.
  intros I1 I2 [L1 L2]. split; [eapply incl_tran; eauto|]. destruct L2; auto.
Qed.

Lemma dfs n : forall c been s d ks been',
  In d (st_derivs (h s)) ->
  lookup_keys n s d (State h (Some been) c) = (Ok ks, State h (Some been') c) ->
  closed (gid s :: been) been' ks /\
  (In (gid (d_src d)) (gid s :: been) \/ listed ks been' (d_src d)).
Proof.
  induction n as [|n IH]; intros c been s d ks been' Hd E; [discriminate|].
  unfold lookup_keys in E. cbn [both fst] in E. unfold lookup_body, bindM in E.
  cbn [get_guard get_store set_guard guard hp clock] in E. cbn [hp] in E.
  fold (memb (gid (d_src d)) (gid s :: been)) in E.
  destruct (memb (gid (d_src d)) (gid s :: been)) eqn:Em.
  - apply memb_spec in Em. unfold ret in E.
    assert (ks = [] /\ been' = gid s :: been) as [-> ->] by (split; congruence).
    split; [|now left]. split; [apply incl_refl | tauto].
  - assert (Nin : ~ In (gid (d_src d)) (gid s :: been)) by (intros K; apply memb_spec in K; congruence).
    rewrite (noprops s d Hd) in E.
    set (t := d_src d) in *.
    destruct (keys_of (fst (both n)) t (State h (Some (gid s :: been)) c)) as [[ks1|e] st1] eqn:Ek;
      [|discriminate].
    rewrite filter_all in E. unfold ret in E.
    assert (ks1 = ks /\ st1 = State h (Some been') c) as [-> ->] by (split; congruence). clear E.
    unfold keys_of, bindM in Ek. cbn [get_store hp] in Ek.
    (* the loop over the derivatives of the source *)
    assert (Loop : forall ds, incl ds (st_derivs (h t)) -> forall b k2 b2,
      incl (gid s :: been) b ->
      concatM (fst (both n) t) ds (State h (Some b) c) = (Ok k2, State h (Some b2) c) ->
      incl b b2 /\ (ds <> [] -> In (gid t) b2) /\
      (forall x, In (gid x) b2 -> ~ In (gid x) b -> x <> t ->
         incl (dkeys (st_items (h x))) k2 /\
         forall e, In e (st_derivs (h x)) ->
           In (gid (d_src e)) (gid t :: b) \/ listed k2 b2 (d_src e)) /\
      (forall e, In e ds -> In (gid (d_src e)) (gid t :: b) \/ listed k2 b2 (d_src e))).
    { induction ds as [|d1 ds IHd]; intros Hds b k2 b2 Hb Ec; cbn [concatM] in Ec.
      - unfold ret in Ec. assert (b2 = b) as -> by congruence.
        split; [apply incl_refl|]. split; [congruence|]. split; [tauto | intros e []].
      - unfold bindM in Ec.
        destruct (fst (both n) t d1 (State h (Some b) c)) as [[ka|e] sta] eqn:Ea; [|discriminate].
        assert (Hd1 : In d1 (st_derivs (h t))) by (apply Hds; now left).
        assert (Sta : exists ba, sta = State h (Some ba) c).
        { (* the state shape follows from the main lemma at large fuel *)
          destruct (lookup_any (bound G + n) (Some b) c t d1 ltac:(lia) Hd1) as (kq & gq & Eq & _).
          pose proof (le_ok _ _ _ _ _ (lookup_mono n (bound G + n) t d1 ltac:(lia)) Ea) as Eq'.
          destruct (main h G WF (length G)) as [HA _].
          destruct (HA (bound G + n) ltac:(unfold bound; lia) c b t d1 Hd1 (missing_le _ _))
            as (kz & bz & Ez & _). rewrite Ez in Eq'. exists bz. congruence. }
        destruct Sta as (ba & ->).
        destruct (IH c b t d1 ka ba Hd1 Ea) as [[Ia Ca] La].
        destruct (concatM (fst (both n) t) ds (State h (Some ba) c)) as [[kb|e] stb] eqn:Eb; [|discriminate].
        unfold ret in Ec. assert (k2 = (ka ++ kb)%list /\ stb = State h (Some b2) c) as [-> ->] by (split; congruence).
        destruct (IHd (fun x Hx => Hds x (or_intror Hx)) ba kb b2) as (Ib & Tb & Cb & Lb).
        { intros x Hx. apply Ia. right. auto. }
        { exact Eb. }
        assert (Ibb : incl b b2) by (intros x Hx; apply Ib, Ia; now right).
        assert (Ika : incl ka (ka ++ kb)%list) by (intros x Hx; apply in_app_iff; auto).
        assert (Ikb : incl kb (ka ++ kb)%list) by (intros x Hx; apply in_app_iff; auto).
        (* anything visited by the first lookup is listed at the end *)
        assert (Seen : forall y, In (gid y) (gid t :: ba) ->
                  In (gid y) (gid t :: b) \/ listed (ka ++ kb)%list b2 y).
        { intros y [K|K]; [left; now left|].
          destruct (in_dec Nat.eq_dec (gid y) (gid t :: b)) as [|N]; [now left|].
          right. destruct (Ca y K N) as [Q _]. split; [eapply incl_tran; eauto | right; auto]. }
        split; [exact Ibb|]. split; [intros _; apply Ib, Ia; now left|]. split.
        + intros x Hx Nx Nt.
          destruct (in_dec Nat.eq_dec (gid x) ba) as [Hxa|Nxa].
          * assert (Nx' : ~ In (gid x) (gid t :: b)).
            { intros [K|K]; [apply Nt; symmetry; now apply gid_inj | contradiction]. }
            destruct (Ca x Hxa Nx') as [Q1 Q2]. split; [eapply incl_tran; eauto|].
            intros e He. destruct (Q2 e He) as [K|K]; [now left|].
            right. exact (listed_mono _ _ _ _ _ Ika Ib K).
          * destruct (Cb x Hx Nxa Nt) as [Q1 Q2]. split; [eapply incl_tran; eauto|].
            intros e He. destruct (Q2 e He) as [K|K]; [now apply Seen |].
            right; exact (listed_mono _ _ _ _ _ Ikb (incl_refl _) K).
        + intros e [<-|He].
          * destruct La as [K|K]; [now left | right; exact (listed_mono _ _ _ _ _ Ika Ib K)].
          * destruct (Lb e He) as [K|K]; [now apply Seen|].
            right; exact (listed_mono _ _ _ _ _ Ikb (incl_refl _) K). }
    destruct (concatM (fst (both n) t) (st_derivs (h t)) (State h (Some (gid s :: been)) c))
      as [[k2|e] st2] eqn:Ec; [|discriminate].
    unfold ret in Ek. assert (ks = (dkeys (st_items (h t)) ++ k2)%list /\ st2 = State h (Some been') c)
      as [-> ->] by (split; congruence).
    destruct (Loop (st_derivs (h t)) (incl_refl _) (gid s :: been) k2 been' (incl_refl _) Ec)
      as (I2 & T2 & C2 & L2).
    set (all := (dkeys (st_items (h t)) ++ k2)%list).
    assert (Ik : incl k2 all) by (intros x Hx; apply in_app_iff; auto).
    assert (It : incl (dkeys (st_items (h t))) all) by (intros x Hx; apply in_app_iff; auto).
    assert (Lt : listed all been' t).
    { split; auto. destruct (st_derivs (h t)); [now left | right; apply T2; congruence]. }
    assert (Fix : forall y, In (gid y) (gid t :: gid s :: been) \/ listed k2 been' y ->
                    In (gid y) (gid s :: been) \/ listed all been' y).
    { intros y [[K|K]|K]; [|now left | right; exact (listed_mono _ _ _ _ _ Ik (incl_refl _) K)].
      apply gid_inj in K. subst y. now right. }
    split; [|now right]. split; auto.
    intros x Hx Nx. destruct (Nat.eq_dec x t) as [->|Nt].
    + split; auto.
    + destruct (C2 x Hx Nx Nt) as [Q1 Q2]. split; [eapply incl_tran; eauto | auto].
Qed.

(** The root call: everything reachable from the source without passing through
    the store itself. *)
Lemma dfs_root n c s d t k : bound G <= n -> In d (st_derivs (h s)) ->
  gid (d_src d) <> gid s ->
  clos_refl_trans_1n nat (fun x y => derives_from h x y /\ y <> s) (d_src d) t -> stored h t k ->
  exists ks, lookup_keys n s d (State h None c) = (Ok ks, State h None c) /\ In k ks.
Proof.
  intros Hn Hd Ns Rt St. unfold bound in Hn. destruct n as [|n]; [lia|].
  destruct (lookup_step h G WF n (length G) c [] s d Hd (missing_le _ _))
    as (ks & b & E & _ & _ & _ & _ & _ & _ & P6).
  { intros Nin. destruct (main h G WF (pred (length G))) as [A1 _].
    destruct (main h G WF (pred (pred (length G)))) as [_ B1]. destruct (main h G WF 0) as [_ B0].
    split; [apply A1; lia|]. split; [apply B1; lia|]. split; [apply B0; lia | lia]. }
  specialize (P6 eq_refl). unfold memb in P6. cbn [existsb] in P6.
  apply Nat.eqb_neq in Ns as Ns'. rewrite Ns' in P6. cbn [orb] in P6.
  exists ks. split; [exact P6|].
  destruct (dfs (S n) c [] s d ks b Hd E) as [[I C] L].
  assert (Ld : listed ks b (d_src d)).
  { destruct L as [[K|[]]|L]; [congruence | exact L]. }
  assert (Nd : d_src d <> s) by congruence.
  clear -C Ld Nd Rt St gid_inj. revert Ld Nd St. induction Rt as [x | x y z [Dxy Ny] Rt IH]; intros Ld Nd St.
  - destruct Ld as [L _]. apply L. now apply dget_In.
  - apply IH; auto. destruct Dxy as (e & He & Ey).
    destruct Ld as [_ [L|L]]; [rewrite L in He; destruct He|].
    assert (Nx : ~ In (gid x) [gid s]) by (intros [K|[]]; apply gid_inj in K; congruence).
    destruct (C x L Nx) as [_ Q]. destruct (Q e He) as [K|K].
    + destruct K as [K|[]]. apply gid_inj in K. congruence.
    + rewrite <- Ey. exact K.
Qed.
End H.
