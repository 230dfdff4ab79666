(** C29: equality and hashes of quaternions. *)
From Coq Require Import Reals List ZArith Bool Lia Lra.
Import ListNotations.
From Verif Require Import Py Boundary_Model QuatEq_Model QuatEq_Spec.
Open Scope Z_scope.

Lemma fl_eqb_same : forall a b, fl_eqb a b = true <-> same_value a b.
Proof. intros [x| | | |] [y| | | |]; cbn [fl_eqb same_value]; try (split; [discriminate|tauto]); try (split; auto; fail); destruct (Req_EM_T _ _); split; auto; discriminate. Qed.
Lemma list_eqb_same : forall l m, list_eqb l m = true <-> Forall2 same_value l m.
Proof.
  induction l as [|a l IH]; intros [|b m]; cbn [list_eqb].
  - split; [constructor|reflexivity].
  - split; [discriminate|intros H; inversion H].
  - split; [discriminate|intros H; inversion H].
  - rewrite andb_true_iff, fl_eqb_same, IH. split; [intros (A & B); now constructor|intros H; inversion H; subst; auto].
Qed.
Lemma same_sym : forall a b, same_value a b -> same_value b a.
Proof. intros [x| | | |] [y| | | |]; cbn; auto. Qed.
Lemma same_trans : forall a b c, same_value a b -> same_value b c -> same_value a c.
Proof. intros [x| | | |] [y| | | |] [z| | | |]; cbn; try tauto; congruence. Qed.
Lemma same_refl : forall a, same_value a a <-> a <> NaN.
Proof. intros [x| | | |]; cbn; split; try easy; intros; discriminate. Qed.

(** Two objects are equal exactly if they are of one class, quaternions, and of the same
    components. *)
Theorem C29_equal : forall sub l r cl, class_order sub -> coefs l = Some cl ->
  (py_eq sub l r = true <-> cls l = cls r /\ exists cr, coefs r = Some cr /\ Forall2 same_value cl cr).
Proof.
  intros sub l r cl (RE & AS) L. unfold py_eq, eq_method. destruct (Nat.eqb_spec (cls r) (cls l)) as [E|N].
  - rewrite andb_false_r, L, E, RE. cbn [andb]. destruct (coefs r) as [cr|].
    + rewrite list_eqb_same. split; [intros H; split; [easy|now exists cr]|intros (_ & c & Q & H); injection Q as ->; exact H].
    + split; [discriminate|intros (_ & c & Q & _); discriminate].
  - rewrite andb_true_r. destruct (sub (cls r) (cls l)) eqn:Q.
    + destruct (sub (cls l) (cls r)) eqn:Q'; [now elim N; apply AS|]. cbn [andb]. split; [discriminate|intros (E & _); congruence].
    + cbn [andb]. split; [discriminate|intros (E & _); congruence].
Qed.
Print Assumptions C29_equal.
(** Symmetry and transitivity hold for all quaternions. *)
Theorem C29_symmetric : forall sub l r cl cr, class_order sub -> coefs l = Some cl -> coefs r = Some cr -> py_eq sub l r = py_eq sub r l.
Proof.
  intros sub l r cl cr O L R.
  assert (K : forall a b ca cb, coefs a = Some ca -> coefs b = Some cb -> py_eq sub a b = true -> py_eq sub b a = true).
  { intros a b ca cb A B H. apply (C29_equal sub a b ca O A) in H as (E & c & Q & F). apply (C29_equal sub b a cb O B). split; [easy|]. exists ca. split; [exact A|].
    rewrite Q in B. injection B as ->. clear - F. induction F; constructor; auto using same_sym. }
  destruct (py_eq sub l r) eqn:E1, (py_eq sub r l) eqn:E2; try reflexivity; [rewrite (K l r cl cr L R E1) in E2|rewrite (K r l cr cl R L E2) in E1]; discriminate.
Qed.
Print Assumptions C29_symmetric.
Theorem C29_transitive : forall sub a b c ca cb, class_order sub -> coefs a = Some ca -> coefs b = Some cb ->
  py_eq sub a b = true -> py_eq sub b c = true -> py_eq sub a c = true.
Proof.
  intros sub a b c ca cb O A B H1 H2. apply (C29_equal sub a b ca O A) in H1 as (E1 & c1 & Q1 & F1). apply (C29_equal sub b c cb O B) in H2 as (E2 & c2 & Q2 & F2).
  apply (C29_equal sub a c ca O A). split; [congruence|]. exists c2. split; [exact Q2|]. rewrite Q1 in B. injection B as ->. clear - F1 F2. revert c2 F2.
  induction F1 as [|x y l m H F IH]; intros c2 F2; inversion F2 as [|y' z m' n G F']; subst; constructor; [exact (same_trans _ _ _ H G)|now apply IH].
Qed.
Print Assumptions C29_transitive.
(** A quaternion equals itself exactly if no component is nan. *)
Theorem C29_reflexive_partial : forall sub a ca, class_order sub -> coefs a = Some ca -> (py_eq sub a a = true <-> no_nan ca).
Proof.
  intros sub a ca O A. rewrite (C29_equal sub a a ca O A). unfold no_nan. split.
  - intros (_ & c & Q & F) I. rewrite A in Q. injection Q as <-. clear A. induction ca as [|x l IH]; [destruct I|]. inversion F as [|x' y' l' m' H F']; subst. destruct I as [->|I]; [exact H|]. now apply (IH F' I).
  - intros N. split; [reflexivity|]. exists ca. split; [exact A|]. clear A. induction ca as [|x l IH]; constructor; [apply same_refl; intros ->; apply N; now left|apply IH; intros I; apply N; now right].
Qed.
Print Assumptions C29_reflexive_partial.
Theorem C29_reflexive_refuted : ~ (forall sub a ca, class_order sub -> coefs a = Some ca -> py_eq sub a a = true).
Proof.
  intros H. specialize (H Nat.eqb (Obj 0 (Some [NaN; Num 0; Num 0; Num 0])) _ ltac:(split; [apply Nat.eqb_refl|intros x y E _; now apply Nat.eqb_eq]) eq_refl). cbn in H. discriminate.
Qed.
Print Assumptions C29_reflexive_refuted.
(** Equal quaternions have equal hashes, whatever Python's hash functions are. *)
Theorem C29_hash : forall number pinf minf nan tuple t t' sub l r cl cr, class_order sub -> coefs l = Some cl -> coefs r = Some cr ->
  py_eq sub l r = true -> quat_hash number pinf minf nan tuple t cl = quat_hash number pinf minf nan tuple t' cr.
Proof.
  intros number pinf minf nan tuple t t' sub l r cl cr O L R H. apply (C29_equal sub l r cl O L) in H as (_ & c & Q & F). rewrite R in Q. injection Q as <-. unfold quat_hash. apply (f_equal tuple). clear L R.
  induction F as [|a b l' m H F IH]; [reflexivity|]. cbn [map]. f_equal; [|apply IH].
  destruct a, b; cbn in *; try tauto; congruence.
Qed.
Print Assumptions C29_hash.
Example C29_met : class_order Nat.eqb /\ py_eq Nat.eqb (Obj 0 (Some [Num 1; NegZero; Num 0; Num 0])) (Obj 0 (Some [Num 1; Num 0; NegZero; Num 0])) = true /\
  py_eq Nat.eqb (Obj 0 (Some [Num 1; Num 0; Num 0; Num 0])) (Obj 0 (Some [Num (-1); Num 0; Num 0; Num 0])) = false.
Proof.
  assert (O : class_order Nat.eqb) by (split; [apply Nat.eqb_refl|intros x y E _; now apply Nat.eqb_eq]). split; [exact O|]. split.
  - apply (proj2 (C29_equal Nat.eqb (Obj 0 (Some [Num 1; NegZero; Num 0; Num 0])) _ _ O eq_refl)). split; [reflexivity|]. eexists. split; [reflexivity|]. repeat constructor.
  - apply not_true_is_false. intros H. apply (C29_equal Nat.eqb (Obj 0 (Some [Num 1; Num 0; Num 0; Num 0])) _ _ O eq_refl) in H as (_ & c & Q & F). injection Q as <-. inversion F as [|x y l m E _]; subst. cbn in E. lra.
Qed.

(** ** Setting components *)
Lemma put_nth : forall {A} (l : list A) i (v : A) p, (i < List.length l)%nat ->
  nth_error (firstn i l ++ v :: skipn (S i) l) p = if Nat.eqb p i then Some v else nth_error l p.
Proof.
  induction l as [|a l IH]; intros i v p H; [cbn in H; lia|]. destruct i as [|i].
  - destruct p; reflexivity.
  - cbn [firstn app]. destruct p as [|p]; [reflexivity|]. cbn [nth_error Nat.eqb]. change (skipn (S (S i)) (a :: l)) with (skipn (S i) l). apply IH. cbn in H. lia.
Qed.
Theorem C29_setitem : forall l k v, let n := Z.of_nat (List.length l) in
  (- n <= k < n -> exists l', setitem l k v = Ok l' /\ List.length l' = List.length l /\
     forall j, getitem l' j = (if Z.eqb (j mod n) (k mod n) then if (- n <=? j) && (j <? n) then Ok v else Err IndexError else getitem l j)) /\
  (~ (- n <= k < n) -> setitem l k v = Err IndexError).
Proof.
  intros l k v n. unfold setitem, getitem, np_index. fold n.
  assert (I : forall j, (if (0 <=? j) && (j <? n) then Some j else if (- n <=? j) && (j <? 0) then Some (j + n) else None) =
    if (- n <=? j) && (j <? n) then Some (j mod n) else None).
  { intros j. destruct (Z.leb_spec 0 j), (Z.ltb_spec j n), (Z.leb_spec (- n) j), (Z.ltb_spec j 0); cbn [andb]; try lia; try reflexivity.
    - rewrite Z.mod_small by lia. reflexivity.
    - replace (j mod n) with (j + n); [reflexivity|]. rewrite <- (Z.mod_add j 1 n) by lia. rewrite Z.mod_small by lia. lia. }
  setoid_rewrite I. split.
  - intros K. destruct (Z.leb_spec (- n) k); [|lia]. destruct (Z.ltb_spec k n); [|lia]. cbn [andb]. assert (KM : 0 <= k mod n < n) by (apply Z.mod_pos_bound; lia).
    set (i := Z.to_nat (k mod n)). assert (IL : (i < List.length l)%nat) by lia. eexists. split; [reflexivity|].
    assert (LN : List.length (firstn i l ++ v :: skipn (S i) l) = List.length l) by (rewrite app_length; cbn [List.length]; rewrite firstn_length, skipn_length; lia).
    split; [exact LN|]. intros j. rewrite LN. fold n. setoid_rewrite I. destruct ((- n <=? j) && (j <? n)) eqn:J; [|destruct (_ =? _); reflexivity].
    apply andb_true_iff in J as (J1 & J2). apply Z.leb_le in J1. apply Z.ltb_lt in J2. assert (JM : 0 <= j mod n < n) by (apply Z.mod_pos_bound; lia).
    rewrite put_nth by exact IL. destruct (Z.eqb_spec (j mod n) (k mod n)) as [E|E].
    + rewrite E. fold i. rewrite Nat.eqb_refl. reflexivity.
    + assert (PI : Z.to_nat (j mod n) <> i) by (unfold i; intros X; apply Z2Nat.inj in X; [contradiction|apply JM|apply KM]).
      apply Nat.eqb_neq in PI. rewrite PI. reflexivity.
  - intros K. destruct (Z.leb_spec (- n) k), (Z.ltb_spec k n); cbn [andb]; try reflexivity; lia.
Qed.
Print Assumptions C29_setitem.

(** ** Quaternions in sets *)
(** While no object is changed, a quaternion is found in a set exactly if it is one of
    those put in, or equal to one. *)
Theorem C29_set_partial : forall number pinf minf nan tuple t heap qs q,
  let hash := quat_hash number pinf minf nan tuple t in
  set_in hash heap (fold_left (set_add hash heap) qs []) q = true <-> exists p, In p qs /\ (p = q \/ Forall2 same_value (heap p) (heap q)).
Proof.
  intros number pinf minf nan tuple t heap qs q hash.
  assert (HE : forall a b, Forall2 same_value a b -> hash a = hash b).
  { intros a b F. exact (C29_hash number pinf minf nan tuple t t Nat.eqb (Obj 0 (Some a)) (Obj 0 (Some b)) a b
      ltac:(split; [apply Nat.eqb_refl|intros x y E _; now apply Nat.eqb_eq]) eq_refl eq_refl
      (proj2 (C29_equal Nat.eqb (Obj 0 (Some a)) (Obj 0 (Some b)) a ltac:(split; [apply Nat.eqb_refl|intros x y E _; now apply Nat.eqb_eq]) eq_refl) (conj eq_refl (ex_intro _ b (conj eq_refl F))))). }
  assert (SI : forall s p, (forall e, In e s -> fst e = hash (heap (snd e))) -> (set_in hash heap s p = true <-> exists e, In e s /\ (snd e = p \/ Forall2 same_value (heap (snd e)) (heap p)))).
  { intros s p H. unfold set_in. rewrite existsb_exists. split; intros (e & I & K); exists e; split; auto.
    - apply andb_true_iff in K as (_ & K). apply orb_true_iff in K as [K|K]; [left; now apply Nat.eqb_eq|right; now apply list_eqb_same].
    - apply andb_true_iff. rewrite (H e I). split; [apply Z.eqb_eq|apply orb_true_iff].
      + destruct K as [->|K]; [reflexivity|now apply HE].
      + destruct K as [K|K]; [left; now apply Nat.eqb_eq|right; now apply list_eqb_same]. }
  assert (G : forall qs s, (forall e, In e s -> fst e = hash (heap (snd e))) ->
    (forall e, In e (fold_left (set_add hash heap) qs s) -> fst e = hash (heap (snd e))) /\
    (set_in hash heap (fold_left (set_add hash heap) qs s) q = true <-> set_in hash heap s q = true \/ exists p, In p qs /\ (p = q \/ Forall2 same_value (heap p) (heap q)))).
  { clear qs. induction qs as [|p qs IH]; intros s H; cbn [fold_left].
    - split; [exact H|]. split; [auto|intros [K|(p & [] & _)]; exact K].
    - assert (HA : forall e, In e (set_add hash heap s p) -> fst e = hash (heap (snd e))).
      { intros e I. unfold set_add in I. destruct (existsb _ s); [now apply H|]. apply in_app_or in I as [I|[<-|[]]]; [now apply H|reflexivity]. }
      destruct (IH _ HA) as (IH1 & IH2). split; [exact IH1|]. rewrite IH2.
      assert (A : set_in hash heap (set_add hash heap s p) q = true <-> set_in hash heap s q = true \/ (p = q \/ Forall2 same_value (heap p) (heap q))).
      { unfold set_add. destruct (existsb _ s) eqn:X.
        - split; [auto|]. intros [K|K]; [exact K|]. change (existsb _ s) with (set_in hash heap s p) in X. apply (SI s p H) in X as (e & I & E). apply (SI s q H).
          destruct K as [<-|K]; [now exists e|]. exists e. split; [exact I|]. right. destruct E as [->|E]; [exact K|].
          clear - E K. revert K. generalize (heap q). induction E as [|x y l m A F IH]; intros c K; inversion K as [|y' z m' n B G]; subst; constructor; [exact (same_trans _ _ _ A B)|now apply IH].
        - assert (HX : forall e, In e (s ++ [(hash (heap p), p)]) -> fst e = hash (heap (snd e))) by (intros e I; apply in_app_or in I as [I|[<-|[]]]; [now apply H|reflexivity]).
          rewrite (SI _ q HX), (SI s q H). split.
          + intros (e & I & E). apply in_app_or in I as [I|[<-|[]]]; [left; now exists e|right; exact E].
          + intros [(e & I & E)|E]; [exists e; split; [apply in_or_app; now left|exact E]|exists (hash (heap p), p); split; [apply in_or_app; right; now left|exact E]]. }
      rewrite A. cbn [In]. split.
      + intros [[K|K]|(p' & I & K)]; [now left|right; exists p; auto|right; exists p'; auto].
      + intros [K|(p' & [->|I] & K)]; [auto|auto|right; now exists p']. }
  destruct (G qs [] ltac:(intros e [])) as (_ & K). rewrite K. split; [intros [F|F]; [discriminate|exact F]|auto].
Qed.
Print Assumptions C29_set_partial.
(** A quaternion put in a set and then changed in place is not found, not even as the
    same object, unless its hash happens to be the same. *)
Theorem C29_set_refuted : forall hash (l l' : list fl) k v heap heap' q, heap q = l -> setitem l k v = Ok l' -> heap' q = l' -> hash l <> hash l' ->
  set_in hash heap' (set_add hash heap [] q) q = false.
Proof.
  intros hash l l' k v heap heap' q H E H' N. unfold set_in, set_add. cbn [existsb app fst snd]. rewrite H, H'. destruct (Z.eqb_spec (hash l) (hash l')); [contradiction|reflexivity].
Qed.
Print Assumptions C29_set_refuted.
Example C29_set_refuted_met : exists l l', setitem l (-1) (Num 1) = Ok l' /\
  quat_hash (fun x => if Req_EM_T x 1 then 1 else 0) 0 0 (fun _ => 0) (fun l => fold_right Z.add 0 l) 0 l <> quat_hash (fun x => if Req_EM_T x 1 then 1 else 0) 0 0 (fun _ => 0) (fun l => fold_right Z.add 0 l) 0 l'.
Proof.
  exists [Num 0; Num 0; Num 0; Num 0], [Num 0; Num 0; Num 0; Num 1]. split; [reflexivity|]. unfold quat_hash. cbn [map fl_hash fold_right]. destruct (Req_EM_T 0 1); [lra|]. destruct (Req_EM_T 1 1); [lia|]. now elim n0.
Qed.
