(** C123: how quaternions are made and what changes them. *)
From Coq Require Import Reals Lra.
From Coq Require Import List ZArith Bool Lia.
Import ListNotations.
From Verif Require Import Py Quat_Model Boundary_Model QuatObj_Model QuatObj_Spec.
Open Scope nat_scope.

Lemma north_of s q : north s (of_quat q) = of_quat (Quat s q).
Proof. unfold north, Quat, of_quat. destruct s; [reflexivity|]. cbn [cw]. destruct (Rlt_dec (qw q) 0); reflexivity. Qed.
Lemma north_northern c : northern (north false c).
Proof.
  unfold north, northern. destruct (cw c) as [w|] eqn:E; [|now rewrite E]. destruct (Rlt_dec w 0); unfold cneg; cbn [cw]; rewrite E; cbn [option_map]; lra.
Qed.

(** Four numbers, alone or in one sequence, make a quaternion: with these components, or all of the
    other sign if the first is negative and southern ones are not asked for.  All else is a TypeError. *)
Theorem C123_new : forall h a s,
  (exists w x y z, (a = Sequence [w; x; y; z] \/ a = Numbers [w; x; y; z]) /\
     step h (New a s) = (h ++ [of_quat (Quat s (Q4 w x y z))], Ok (Some (length h))) /\
     up_to_sign (Quat s (Q4 w x y z)) (Q4 w x y z) /\ (s = true \/ (0 <= w)%R -> Quat s (Q4 w x y z) = Q4 w x y z) /\
     (s = false -> (0 <= qw (Quat s (Q4 w x y z)))%R)) \/
  ((forall l, a = Sequence l \/ a = Numbers l -> length l <> 4%nat) /\ step h (New a s) = (h, Err TypeError)).
Proof.
  intros h a s.
  assert (F : forall w x y z, step h (New (Sequence [w; x; y; z]) s) = (h ++ [of_quat (Quat s (Q4 w x y z))], Ok (Some (length h))) /\
     up_to_sign (Quat s (Q4 w x y z)) (Q4 w x y z) /\ (s = true \/ (0 <= w)%R -> Quat s (Q4 w x y z) = Q4 w x y z) /\
     (s = false -> (0 <= qw (Quat s (Q4 w x y z)))%R)).
  { intros w x y z. cbn [step construct four bind]. change (Co (Some w) (Some x) (Some y) (Some z)) with (of_quat (Q4 w x y z)). rewrite north_of.
    split; [reflexivity|]. unfold Quat, qneg, up_to_sign. destruct s; [split; [now left|split; [auto|discriminate]]|]. cbn [qw qx qy qz].
    destruct (Rlt_dec w 0); (split; [auto|]); split; intros X; cbn [qw]; try (destruct X; [discriminate|]); try lra; auto. }
  destruct a as [l| |l].
  - destruct l as [|w [|x [|y [|z [|? ?]]]]];
      try (right; split; [intros l' [E|E]; [injection E as <-; cbn; lia|discriminate]|reflexivity]).
    left. exists w, x, y, z. split; [now left|apply F].
  - right. split; [intros l [E|E]; discriminate|reflexivity].
  - destruct l as [|w [|x [|y [|z [|? ?]]]]];
      try (right; split; [intros l' [E|E]; [discriminate|injection E as <-; cbn; lia]|reflexivity]).
    left. exists w, x, y, z. split; [now right|apply F].
Qed.
Print Assumptions C123_new.

(** What the statements compute, for quaternions of numbers. *)
Theorem C123_values : forall h a b p q, nth_error h a = Some (of_quat p) -> nth_error h b = Some (of_quat q) ->
  (forall s, step h (Mul a b s) = (h ++ [of_quat (quat_mul s p q)], Ok (Some (length h)))) /\
  step h (Add a b) = (h ++ [of_quat (quat_add p q)], Ok (Some (length h))) /\
  step h (Conj a) = (h ++ [of_quat (conjugate p)], Ok (Some (length h))) /\
  (let '(h', r) := step h (IAdd a b) in r = Ok (Some a) /\
     nth_error h' a = Some (of_quat (Q4 (qw p + qw q) (qx p + qx q) (qy p + qy q) (qz p + qz q)))) /\
  (let '(h', r) := step h (Normalise a) in r = Ok None /\
     nth_error h' a = Some (match normalise p with Some u => of_quat u | None => Co None None None None end)).
Proof.
  intros h a b p q A B. cbn [step]. rewrite A, B.
  assert (PUT : forall c, nth_error (put h a c) a = Some c).
  { intros c. clear B. revert a A. induction h as [|d h IH]; intros [|a] A; cbn in *; try discriminate; auto. }
  split; [|split; [|split; [|split]]].
  - intros s. unfold made, quat_mul. rewrite <- north_of. reflexivity.
  - unfold made, quat_add. rewrite <- north_of. reflexivity.
  - unfold made, conjugate. rewrite <- north_of. reflexivity.
  - split; [reflexivity|]. rewrite PUT. reflexivity.
  - split; [reflexivity|]. rewrite PUT. destruct p as [w x y z]. reflexivity.
Qed.
Print Assumptions C123_values.

Lemma put_other h n c m : m <> n -> nth_error (put h n c) m = nth_error h m.
Proof. revert n m. induction h as [|d h IH]; intros [|n] [|m] N; cbn; try congruence. apply IH. congruence. Qed.
Lemma put_length h n c : length (put h n c) = length h.
Proof. revert n. induction h as [|d h IH]; intros [|n]; cbn; auto. Qed.
Lemma step_other h o m : m < length h -> changes o <> Some m -> nth_error (fst (step h o)) m = nth_error h m.
Proof.
  intros L N.
  assert (AP : forall c, nth_error (fst (made h c)) m = nth_error h m) by (intros; cbn [made fst]; now apply nth_error_app1).
  destruct o; cbn [step changes] in *;
    repeat match goal with |- context [match ?x with _ => _ end] => destruct x end; cbn [fst]; auto; apply put_other; congruence.
Qed.
Lemma step_length h o : length h <= length (fst (step h o)).
Proof.
  destruct o; cbn [step]; repeat match goal with |- context [match ?x with _ => _ end] => destruct x end; cbn [made fst];
    rewrite ?app_length, ?put_length; cbn [length]; lia.
Qed.
(** Through any history an object changes only by [+=], [normalise] or setting a component of that
    very object; all other statements, and these on other objects, leave it as it is. *)
Theorem C123_unchanged : forall os h n c, nth_error h n = Some c -> (forall o, In o os -> changes o <> Some n) ->
  nth_error (run os h) n = Some c.
Proof.
  induction os as [|o os IH]; intros h n c E N; [exact E|]. cbn [run fold_left]. apply IH; [|intros; apply N; now right].
  rewrite step_other; [exact E| |apply N; now left]. apply nth_error_Some. congruence.
Qed.
(** Setting the component with number [k], counted from the end if negative, changes it and no other; if there is none of that
    number it is an IndexError. *)
Theorem C123_setitem : forall h a p k v, nth_error h a = Some p ->
  ((-4 <= k < 4)%Z -> exists c, step h (SetItem a k v) = (put h a c, Ok None) /\ nth_error (put h a c) a = Some c /\
     let j := Z.to_nat (if (k <? 0)%Z then k + 4 else k) in nth_error (in_order c) j = Some v /\ forall m, m <> j -> nth_error (in_order c) m = nth_error (in_order p) m) /\
  ((k < -4 \/ 4 <= k)%Z -> step h (SetItem a k v) = (h, Err IndexError)).
Proof.
  intros h a p k v E. assert (PS : forall c, nth_error (put h a c) a = Some c).
  { intros c. revert a E. induction h as [|d h IH]; intros [|a] E; cbn in *; try discriminate; [reflexivity|]. now apply IH. }
  cbn [step]. rewrite E. split; intros K.
  - assert (C : In k [-4; -3; -2; -1; 0; 1; 2; 3]%Z) by (cbn; lia). cbn in C.
    repeat (destruct C as [<-|C]; [eexists; split; [reflexivity|]; split; [apply PS|]; cbv zeta; match goal with |- nth_error _ ?x = _ /\ _ => let y := eval vm_compute in x in change x with y end; split; [reflexivity|]; intros m M; unfold in_order; destruct m as [|[|[|[|m]]]]; cbn in *; congruence|]). destruct C.
  - assert (N : np_index 4 k = None); [|unfold set_comp; rewrite N; reflexivity]. unfold np_index.
    repeat match goal with |- context [if ?b then _ else _] => destruct b eqn:? end; rewrite ?andb_true_iff, ?andb_false_iff, ?Z.leb_le, ?Z.ltb_lt, ?Z.leb_gt, ?Z.ltb_ge in *; try reflexivity; exfalso; lia.
Qed.
Print Assumptions C123_setitem.
(** A new object is no object there was. *)
Theorem C123_fresh : forall h o h' n, step h o = (h', Ok (Some n)) -> changes o <> Some n -> nth_error h n = None /\ exists c, nth_error h' n = Some c.
Proof.
  intros h o h' n E N. assert (L : forall c, nth_error (h ++ [c]) (length h) = Some c) by (intros; rewrite nth_error_app2, Nat.sub_diag; [reflexivity|lia]).
  assert (Z : nth_error h (length h) = None) by (apply nth_error_None; lia).
  destruct o; cbn [step changes] in *; repeat match type of E with context [match ?x with _ => _ end] => destruct x eqn:? end;
    unfold made in E; try discriminate; injection E as <- <-; try congruence; eauto.
Qed.
(** A statement that raises changes nothing. *)
Theorem C123_raises : forall h o h' e, step h o = (h', Err e) -> h' = h.
Proof.
  intros h o h' e E. destruct o; cbn [step] in E; repeat match type of E with context [match ?x with _ => _ end] => destruct x end; unfold made in E; congruence.
Qed.
Print Assumptions C123_unchanged.
Print Assumptions C123_fresh.
Print Assumptions C123_raises.

Lemma put_In h n c x : In x (put h n c) -> x = c \/ In x h.
Proof. revert n. induction h as [|d h IH]; intros [|n]; cbn; intuition. destruct (IH _ H0); auto. Qed.
Lemma total_northern p q : northern p -> northern q -> northern (total p q).
Proof. unfold northern, total. cbn [cw]. destruct (cw p), (cw q); cbn [lift2]; auto. lra. Qed.
Lemma unit_northern p : northern p -> northern (unit_of p).
Proof.
  unfold northern, unit_of. destruct (cw p) as [w|] eqn:W; [|cbn; auto]. destruct (cx p) as [x|], (cy p) as [y|], (cz p) as [z|]; cbn [cw]; auto.
  unfold normalise. destruct (Req_EM_T _ _) as [E|E]; cbn [of_quat cw qw]; auto. intros P. set (n := norm _) in *.
  assert (0 <= n)%R by apply sqrt_pos. apply Rmult_le_pos; [exact P|]. left. apply Rinv_0_lt_compat. lra.
Qed.
(** Through any history that asks for no southern quaternion and sets no component, all
    quaternions are in the northern hemisphere, those changed in place too. *)
Theorem C123_northern : forall os h, (forall o, In o os -> plain o) -> (forall c, In c h -> northern c) -> forall c, In c (run os h) -> northern c.
Proof.
  induction os as [|o os IH]; intros h P N; [exact N|]. cbn [run fold_left]. apply IH; [intros; apply P; now right|].
  assert (PO : plain o) by (apply P; now left). assert (NE : forall n c, nth_error h n = Some c -> northern c) by (intros; eapply N, nth_error_In; eauto).
  assert (AP : forall x c, northern x -> In c (fst (made h x)) -> northern c).
  { intros x c X I. cbn [made fst] in I. apply in_app_or in I as [I|[<-|[]]]; auto. }
  intros c I. destruct o as [a s|a b s|a b|a|a b|a|a k v]; cbn [step plain] in *; try (subst s).
  - destruct (construct a false) as [d|e] eqn:C; [|now apply N]. apply (AP d c); [|exact I]. unfold construct in C.
    match type of C with bind ?x _ = _ => destruct x end; [|discriminate]. injection C as <-. apply north_northern.
  - destruct (nth_error h a), (nth_error h b); try (now apply N). eapply AP; [apply north_northern|exact I].
  - destruct (nth_error h a), (nth_error h b); try (now apply N). eapply AP; [apply north_northern|exact I].
  - destruct (nth_error h a); try (now apply N). eapply AP; [apply north_northern|exact I].
  - destruct (nth_error h a) eqn:A, (nth_error h b) eqn:B; try (now apply N). apply put_In in I as [->|I]; [|now apply N]. apply total_northern; eauto.
  - destruct (nth_error h a) eqn:A; try (now apply N). apply put_In in I as [->|I]; [|now apply N]. apply unit_northern; eauto.
  - destruct PO.
Qed.
Print Assumptions C123_northern.
(** The statement after which one is not: setting a component. *)
Theorem C123_northern_refuted : exists os c, In c (run os []) /\ ~ northern c.
Proof.
  exists [New (Numbers [1; 0; 0; 0]%R) false; SetItem 0 0 (Some (-1)%R)], (Co (Some (-1)%R) (Some 0%R) (Some 0%R) (Some 0%R)).
  cbn [run fold_left step construct four bind fst made app length nth_error]. unfold north. cbn [cw]. destruct (Rlt_dec 1 0); [lra|]. cbn [cx cy cz].
  split; [now left|]. unfold northern. cbn [cw]. lra.
Qed.
(** [normalise] is documented to return the quaternion; it returns nothing. *)
Theorem C123_normalise_refuted : forall h a c, nth_error h a = Some c -> snd (step h (Normalise a)) = Ok None.
Proof. intros h a c E. cbn [step]. now rewrite E. Qed.
Print Assumptions C123_northern_refuted.
Print Assumptions C123_normalise_refuted.

(** [extract_quat_comps]: four rows, the k-th column being the components of the k-th quaternion;
    making quaternions of the columns gives the list back, if they are northern. *)
Theorem C123_extract : forall l, exists w x y z, extract_quat_comps (Quats (map of_quat l)) = Ok [w; x; y; z] /\
  length w = length l /\ length x = length l /\ length y = length l /\ length z = length l /\
  forall k q, nth_error l k = Some q -> exists a b c d,
    nth_error w k = Some (Some a) /\ nth_error x k = Some (Some b) /\ nth_error y k = Some (Some c) /\ nth_error z k = Some (Some d) /\
    Q4 a b c d = q /\ ((0 <= qw q)%R -> construct (Sequence [a; b; c; d]) false = Ok (of_quat q)).
Proof.
  intros l. unfold extract_quat_comps. rewrite !map_map. do 4 eexists. split; [reflexivity|]. rewrite !map_length. repeat (split; [reflexivity|]).
  intros k q E. exists (qw q), (qx q), (qy q), (qz q). rewrite !nth_error_map, E. cbn [option_map of_quat cw cx cy cz].
  repeat (split; [reflexivity|]). split; [now destruct q|]. intros P. unfold construct. cbn [four bind]. unfold north. cbn [cw]. destruct (Rlt_dec (qw q) 0); [lra|reflexivity].
Qed.
(** Documented to take any sequences of four components: all but the empty list raise. *)
Theorem C123_extract_refuted : forall l, l <> [] -> (forall s, In s l -> length s = 4%nat) -> extract_quat_comps (Sequences l) = Err AttributeError.
Proof.
  intros l N F. unfold extract_quat_comps. destruct l as [|a l]; [congruence|].
  assert (S : same_length (a :: l) = true).
  { cbn [same_length]. apply forallb_forall. intros b I. rewrite !F by (cbn; auto). reflexivity. }
  rewrite S. cbn [existsb]. rewrite (F a) by now left. reflexivity.
Qed.
Print Assumptions C123_extract.
Print Assumptions C123_extract_refuted.

(** A history: two quaternions, their product, the first added to itself and normalised; the second
    is still what it was, the product that of the first two. *)
Example C123_met : let os := [New (Numbers [0; 0; 0; 1]%R) false; New (Sequence [-1; 0; 0; 0]%R) false; Mul 0 1 false; IAdd 0 0; Normalise 0] in
  (forall o, In o os -> plain o) /\
  exists p, run os [] = [p; of_quat (Q4 (- -1) (-0) (-0) (-0)); of_quat (quat_mul false (Q4 0 0 0 1) (Q4 (- -1) (-0) (-0) (-0)))] /\ p = of_quat (Q4 0 0 0 1).
Proof.
  intros os. split; [intros o I; cbn in I; intuition; subst o; cbn; auto|].
  eexists. unfold os. cbn [run fold_left step construct four bind].
  change (Co (Some 0%R) (Some 0%R) (Some 0%R) (Some 1%R)) with (of_quat (Q4 0 0 0 1)). change (Co (Some (-1)%R) (Some 0%R) (Some 0%R) (Some 0%R)) with (of_quat (Q4 (-1) 0 0 0)). rewrite !north_of.
  assert (Q1 : Quat false (Q4 0 0 0 1) = Q4 0 0 0 1) by (unfold Quat; cbn [qw]; destruct (Rlt_dec 0 0); [lra|reflexivity]).
  assert (Q2 : Quat false (Q4 (-1) 0 0 0) = Q4 (- -1) (-0) (-0) (-0)) by (unfold Quat, qneg; cbn [qw qx qy qz]; destruct (Rlt_dec (-1) 0); [reflexivity|lra]).
  rewrite Q1, Q2. cbn [fst made app length nth_error put]. change (product (of_quat (Q4 0 0 0 1)) (of_quat (Q4 (- -1) (-0) (-0) (-0)))) with
    (of_quat (Q4 (0 * - -1 - (0 * -0 + 0 * -0 + 1 * -0)) (0 * -0 + - -1 * 0 + (0 * -0 - 1 * -0)) (0 * -0 + - -1 * 0 + (1 * -0 - 0 * -0)) (0 * -0 + - -1 * 1 + (0 * -0 - 0 * -0)))%R).
  rewrite north_of. split; [reflexivity|].
  unfold unit_of, total, of_quat. cbn [cw cx cy cz qw qx qy qz lift2]. unfold normalise, norm, dot. cbn [qw qx qy qz].
  replace ((0 + 0) * (0 + 0) + (0 + 0) * (0 + 0) + (0 + 0) * (0 + 0) + (1 + 1) * (1 + 1))%R with (2 * 2)%R by ring. rewrite sqrt_square by lra.
  destruct (Req_EM_T 2 0); [lra|]. unfold of_quat. cbn [qw qx qy qz]. repeat f_equal; lra.
Qed.
