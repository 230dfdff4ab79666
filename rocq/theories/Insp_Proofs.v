(** Grouping of lines. *)
From Coq Require Import String Ascii Reals.
From Coq Require Import List ZArith Bool Lia Permutation.
Import ListNotations.
From Verif Require Import Py Grid Grid_Lemmas Boundary_Model Base_Model Base_Proofs Quat_Model Crystal_Model
  Text_Model Ebsd_Model Insp_Model Insp_Spec.
Open Scope Z_scope.

(** ** Averages *)
Lemma round_div_spec : forall s n, 0 < n ->
  2 * Z.abs (n * round_div s n - s) <= n /\ (2 * Z.abs (n * round_div s n - s) = n -> Z.even (round_div s n) = true).
Proof.
  intros s n N. unfold round_div.
  pose proof (Z.div_mod s n ltac:(lia)) as E. pose proof (Z.mod_pos_bound s n N) as B.
  set (q := s / n) in *. set (r := s mod n) in *. clearbody q r.
  destruct (Z.ltb_spec (2 * r) n).
  - split; [|intro X; exfalso]; nia.
  - destruct (Z.ltb_spec n (2 * r)).
    + split; [|intro X; exfalso]; nia.
    + destruct (Z.even q) eqn:V.
      * split; [nia|auto].
      * split; [nia|]. intros _. rewrite Z.even_add, V. reflexivity.
Qed.

Lemma average_mean : forall l, l <> [] -> rounded_mean l (average l).
Proof.
  intros l L. unfold rounded_mean, average, sum. apply round_div_spec.
  destruct l; [congruence|cbn [List.length]; lia].
Qed.

Lemma rounded_mean_unique : forall l m m', l <> [] -> rounded_mean l m -> rounded_mean l m' -> m = m'.
Proof.
  intros l m m' L [A A'] [B B']. set (n := Z.of_nat (List.length l)) in *. set (s := fold_right Z.add 0 l) in *.
  assert (N : 0 < n) by (unfold n; destruct l; [congruence|cbn [List.length]; lia]). clearbody n s.
  destruct (Z.eq_dec m m') as [|D]; auto. exfalso.
  assert (C : 2 * Z.abs (n * m - s) = n /\ 2 * Z.abs (n * m' - s) = n /\ (m' = m + 1 \/ m = m' + 1)) by nia.
  destruct C as (C1 & C2 & C3). specialize (A' C1). specialize (B' C2).
  destruct C3 as [-> | ->]; rewrite Z.even_add in *; [rewrite A' in B'|rewrite B' in A']; discriminate.
Qed.

Lemma sum_bounds : forall l lo hi, (forall a, In a l -> lo <= a <= hi) ->
  Z.of_nat (List.length l) * lo <= sum l <= Z.of_nat (List.length l) * hi.
Proof.
  induction l as [|a l IH]; intros lo hi H; cbn [List.length sum fold_right].
  - lia.
  - assert (A := H a (or_introl eq_refl)). assert (B := IH lo hi (fun b I => H b (or_intror I))).
    unfold sum in B. nia.
Qed.

Lemma average_between : forall l lo hi, l <> [] -> (forall a, In a l -> lo <= a <= hi) -> lo <= average l <= hi.
Proof.
  intros l lo hi L H. destruct (average_mean l L) as [A _]. pose proof (sum_bounds l lo hi H) as B.
  unfold sum in B. set (s := fold_right Z.add 0 l) in *. set (n := Z.of_nat (List.length l)) in *.
  assert (N : 0 < n) by (unfold n; destruct l; [congruence|cbn [List.length]; lia]). clearbody n s.
  set (m := average l) in *. clearbody m. nia.
Qed.

Lemma average_one : forall a, average [a] = a.
Proof. intros. pose proof (average_between [a] a a ltac:(discriminate)). 
  assert (forall b, In b [a] -> a <= b <= a) by (intros b [->|[]]; lia). specialize (H H0). lia. Qed.

Lemma extremes : forall l : list Z, l <> [] ->
  exists lo hi, In lo l /\ In hi l /\ forall a, In a l -> lo <= a <= hi.
Proof.
  induction l as [|a l IH]; [congruence|]. intros _. destruct l as [|b l].
  - exists a, a. repeat split; [now left|now left| |]; destruct H as [->|[]]; lia.
  - destruct IH as (lo & hi & L & H & B); [discriminate|].
    exists (Z.min a lo), (Z.max a hi). split; [|split].
    + destruct (Z.min_spec a lo) as [[_ ->]|[_ ->]]; [now left|now right].
    + destruct (Z.max_spec a hi) as [[_ ->]|[_ ->]]; [now right|now left].
    + intros c [->|C]; [lia|]. apply B in C. lia.
Qed.

Lemma average_hull : forall l, l <> [] -> exists lo hi, In lo l /\ In hi l /\ lo <= average l <= hi.
Proof.
  intros l L. destruct (extremes l L) as (lo & hi & A & B & C). exists lo, hi.
  split; [exact A|]. split; [exact B|]. now apply average_between.
Qed.

(** ** argmin *)
Lemma argmin_spec : forall l, l <> [] ->
  exists before v after, l = before ++ v :: after /\ argmin l = List.length before /\
    (forall h, In h before -> v < h) /\ (forall h, In h after -> v <= h).
Proof.
  induction l as [|a l IH]; [congruence|]. intros _. destruct l as [|b l].
  - exists [], a, []. repeat split; try easy.
  - destruct IH as (bf & v & af & E & K & B & A); [discriminate|].
    remember (b :: l) as r.
    assert (M : argmin (a :: r) = if a <=? nth (argmin r) r 0 then O else S (argmin r)) by (subst r; reflexivity).
    rewrite M, K.
    assert (N : nth (List.length bf) r 0 = v) by (rewrite E, app_nth2, Nat.sub_diag; [reflexivity|lia]).
    rewrite N. destruct (Z.leb_spec a v).
    + exists [], a, r. repeat split; auto; try easy. intros h I. rewrite E in I.
      apply in_app_or in I as [I|[->|I]]; [apply B in I|auto|apply A in I]; lia.
    + exists (a :: bf), v, af. rewrite E. repeat split; auto.
      intros h [->|I]; auto.
Qed.

Lemma argmin_lt : forall l, l <> [] -> (argmin l < List.length l)%nat.
Proof.
  intros l L. destruct (argmin_spec l L) as (b & v & a & E & K & _). rewrite K, E, app_length.
  cbn [List.length]. lia.
Qed.

(** ** Lists *)
Lemma nth_error_Some_len : forall A (l : list A) n a, nth_error l n = Some a -> (n < List.length l)%nat.
Proof. intros A l n a H. apply nth_error_Some. now rewrite H. Qed.
Lemma change_nth_length : forall A (f : A -> A) l n, List.length (change_nth n f l) = List.length l.
Proof. induction l as [|a l IH]; intros [|n]; cbn [change_nth List.length]; auto. Qed.
Lemma change_nth_map : forall A B (f : A -> A) (h : A -> B) l n, (forall a, h (f a) = h a) ->
  map h (change_nth n f l) = map h l.
Proof. induction l as [|a l IH]; intros [|n] H; cbn [change_nth map]; auto; [now rewrite H|now rewrite IH]. Qed.
Lemma change_nth_app : forall A (f : A -> A) l a r, change_nth (List.length l) f (l ++ a :: r) = l ++ f a :: r.
Proof. induction l as [|x l IH]; intros; cbn [change_nth List.length app]; auto. now rewrite IH. Qed.
Lemma change_nth_nth : forall A (f : A -> A) l n k,
  nth_error (change_nth n f l) k = if Nat.eqb k n then option_map f (nth_error l k) else nth_error l k.
Proof.
  induction l as [|a l IH]; intros n k.
  - destruct n; cbn [change_nth]; rewrite ?nth_error_nil; destruct (Nat.eqb k _); destruct k; auto.
  - destruct n, k; cbn [change_nth nth_error]; auto. rewrite IH. reflexivity.
Qed.
Lemma map_change_nth : forall A B (f : A -> A) (f' : B -> B) (h : A -> B) l n, (forall a, h (f a) = f' (h a)) ->
  map h (change_nth n f l) = change_nth n f' (map h l).
Proof. induction l as [|a l IH]; intros [|n] H; cbn [change_nth map]; auto; [now rewrite H|now rewrite IH]. Qed.

(** ** One round of the loop *)
Definition near_some (gs : list group) (a : Z) : bool :=
  existsb (fun d => d <? 1000) (map (fun g => Z.abs (g_ang g - a)) gs).
Definition nearest (gs : list group) (a : Z) : nat := argmin (map (fun g => Z.abs (g_ang g - a)) gs).

Lemma near_some_iff : forall gs a, near_some gs a = true <-> exists g, In g gs /\ near (g_ang g) a.
Proof.
  intros. unfold near_some, near. rewrite existsb_exists. split.
  - intros (d & I & L). apply in_map_iff in I as (g & <- & I). exists g. split; auto. now apply Z.ltb_lt in L.
  - intros (g & I & L). exists (Z.abs (g_ang g - a)). split; [now apply in_map with (f := fun g => Z.abs (g_ang g - a))|].
    now apply Z.ltb_lt.
Qed.

Lemma nearest_lt : forall gs a, gs <> [] -> (nearest gs a < List.length gs)%nat.
Proof.
  intros gs a G. unfold nearest. rewrite <- (map_length (fun g => Z.abs (g_ang g - a)) gs). apply argmin_lt.
  destruct gs; [congruence|discriminate].
Qed.

Lemma loop_first : forall gs next l todo,
  group_loop [] gs next (l :: todo) = group_loop [set_grp l 0 false] [new_group 0 (l_ang l)] 1 todo.
Proof. reflexivity. Qed.
Lemma loop_join : forall done gs next l todo, done <> [] -> near_some gs (l_ang l) = true ->
  group_loop done gs next (l :: todo) =
  let l' := set_grp l (Z.of_nat (nearest gs (l_ang l))) true in
  group_loop (done ++ [l'])
    (change_nth (nearest gs (l_ang l))
       (fun g => set_ang g (average (members (done ++ l' :: todo) (Z.of_nat (nearest gs (l_ang l)))))) gs) next todo.
Proof.
  intros done gs next l todo D N. cbn [group_loop]. destruct done; [congruence|]. unfold near_some in N. rewrite N.
  reflexivity.
Qed.
Lemma loop_new : forall done gs next l todo, done <> [] -> near_some gs (l_ang l) = false ->
  group_loop done gs next (l :: todo) =
  group_loop (done ++ [set_grp l next false]) (gs ++ [new_group next (l_ang l)]) (next + 1) todo.
Proof.
  intros done gs next l todo D N. cbn [group_loop]. destruct done; [congruence|]. unfold near_some in N. now rewrite N.
Qed.

(** A rule for proving something of the loop's result. *)
Lemma loop_rule : forall (P : list line -> list group -> list line -> Prop) ls,
  ls <> [] ->
  (forall l todo, ls = l :: todo -> P [set_grp l 0 false] [new_group 0 (l_ang l)] todo) ->
  (forall done gs l todo, done <> [] -> gs <> [] -> near_some gs (l_ang l) = true -> P done gs (l :: todo) ->
     let k := nearest gs (l_ang l) in
     let l' := set_grp l (Z.of_nat k) true in
     P (done ++ [l'])
       (change_nth k (fun g => set_ang g (average (members (done ++ l' :: todo) (Z.of_nat k)))) gs) todo) ->
  (forall done gs l todo, done <> [] -> gs <> [] -> near_some gs (l_ang l) = false -> P done gs (l :: todo) ->
     let k := Z.of_nat (List.length gs) in
     P (done ++ [set_grp l k false]) (gs ++ [new_group k (l_ang l)]) todo) ->
  let '(ls', gs') := group_loop [] [] 0 ls in ls' <> [] /\ gs' <> [] /\ P ls' gs' [].
Proof.
  intros P ls L H0 H1 H2. destruct ls as [|l0 ls]; [congruence|]. rewrite loop_first.
  specialize (H0 l0 ls eq_refl).
  assert (G : forall todo done gs next, done <> [] -> gs <> [] -> next = Z.of_nat (List.length gs) -> P done gs todo ->
    let '(ls', gs') := group_loop done gs next todo in ls' <> [] /\ gs' <> [] /\ P ls' gs' []).
  { induction todo as [|l todo IH]; intros done gs next D G N I.
    - cbn [group_loop]. repeat split; auto.
    - destruct (near_some gs (l_ang l)) eqn:E.
      + rewrite loop_join by auto. cbv zeta. apply IH.
        * now destruct done.
        * destruct gs; [congruence|]. destruct (nearest _ _); discriminate.
        * now rewrite change_nth_length.
        * now apply (H1 done gs l todo).
      + rewrite loop_new by auto. apply IH.
        * now destruct done.
        * now destruct gs.
        * rewrite app_length. cbn [List.length]. lia.
        * rewrite N. now apply H2. }
  apply G; auto; discriminate.
Qed.

(** ** Facts that hold for any lines *)
Definition wf_groups (ls : list line) (gs : list group) : Prop :=
  map g_id gs = zseq 0 (List.length gs) /\
  (forall l, In l ls -> 0 <= l_grp l < Z.of_nat (List.length gs)) /\
  (forall k, 0 <= k < Z.of_nat (List.length gs) -> exists l, In l ls /\ l_grp l = k).

Lemma zseq_app1 : forall n a, zseq a (S n) = zseq a n ++ [a + Z.of_nat n].
Proof.
  induction n as [|n IH]; intros a.
  - cbn. now rewrite Z.add_0_r.
  - change (zseq a (S (S n))) with (a :: zseq (a + 1) (S n)). rewrite IH. cbn [zseq app].
    do 3 f_equal. lia.
Qed.

Definition content (l : line) := (l_pts l, l_ang l).

Lemma loop_wf : forall ls, ls <> [] ->
  let '(ls', gs') := group_loop [] [] 0 ls in
  ls' <> [] /\ gs' <> [] /\ wf_groups ls' gs' /\ map content ls' = map content ls /\
  (forall g, In g gs' -> g_rdr g = None).
Proof.
  intros ls L.
  pose proof (loop_rule (fun done gs todo => wf_groups done gs /\ map content done ++ map content todo = map content ls /\
    (forall g, In g gs -> g_rdr g = None)) ls L) as R.
  destruct (group_loop [] [] 0 ls) as [ls' gs']. destruct R as (A & B & C & D & E).
  - intros l todo ->. split; [|split].
    + split; [reflexivity|]. split.
      * intros x [<-|[]]. cbn. lia.
      * intros k K. cbn in K. exists (set_grp l 0 false). split; [now left|]. cbn. lia.
    + reflexivity.
    + intros g [<-|[]]. reflexivity.
  - intros done gs l todo D G N ((W1 & W2 & W3) & W4 & W5) k l'. assert (K := nearest_lt gs (l_ang l) G).
    fold k in K. split; [split; [|split]|split].
    + rewrite change_nth_length, change_nth_map by auto. exact W1.
    + intros x I. rewrite change_nth_length. apply in_app_or in I as [I|[<-|[]]]; [now apply W2|].
      cbn [l' set_grp l_grp]. lia.
    + intros j J. rewrite change_nth_length in J. destruct (W3 j J) as (x & I & X). exists x. split; auto.
      apply in_or_app. now left.
    + rewrite map_app. cbn [map]. rewrite <- app_assoc. exact W4.
    + intros g I. apply In_nth_error in I as (j & J). rewrite change_nth_nth in J.
      destruct (Nat.eqb j k); [|now apply W5; apply nth_error_In with j].
      destruct (nth_error gs j) eqn:X; [|discriminate]. cbn [option_map] in J. injection J as <-.
      cbn [set_ang g_rdr]. apply W5. now apply nth_error_In with j.
  - intros done gs l todo D G N ((W1 & W2 & W3) & W4 & W5) k. split; [split; [|split]|split].
    + rewrite map_app, app_length, W1. cbn [map List.length new_group g_id]. rewrite Nat.add_1_r, zseq_app1.
      now rewrite Z.add_0_l.
    + intros x I. rewrite app_length. cbn [List.length]. apply in_app_or in I as [I|[<-|[]]].
      * apply W2 in I. lia.
      * cbn [set_grp l_grp]. unfold k. lia.
    + intros j J. rewrite app_length in J. cbn [List.length] in J.
      destruct (Z.eq_dec j k) as [->|X].
      * exists (set_grp l k false). split; [apply in_or_app; right; now left|reflexivity].
      * destruct (W3 j) as (x & I & Y); [unfold k in *; lia|]. exists x. split; auto. apply in_or_app. now left.
    + rewrite map_app. cbn [map]. rewrite <- app_assoc. exact W4.
    + intros g I. apply in_app_or in I as [I|[<-|[]]]; [now apply W5|reflexivity].
  - rewrite app_nil_r in D. split; [exact A|]. split; [exact B|]. split; [exact C|]. split; [exact D|exact E].
Qed.

(** ** Bundled angles *)
Lemma near_sym : forall a b, near a b -> near b a.
Proof. unfold near. intros. lia. Qed.
Lemma near_refl : forall a, near a a.
Proof. unfold near. intros. rewrite Z.sub_diag. cbn. lia. Qed.

Lemma leaders_prefix : forall l rs, exists more, leaders_from rs l = rs ++ more /\ incl more l.
Proof.
  induction l as [|a l IH]; intros rs; cbn [leaders_from].
  - exists []. rewrite app_nil_r. split; [reflexivity|easy].
  - destruct (existsb _ rs).
    + destruct (IH rs) as (m & -> & I). exists m. split; auto. intros x X. right. auto.
    + destruct (IH (rs ++ [a])) as (m & -> & I). exists (a :: m). rewrite <- app_assoc. split; [reflexivity|].
      intros x [->|X]; [now left|right; auto].
Qed.

Lemma exists_near : forall rs a, existsb (fun r => Z.abs (r - a) <? 1000) rs = true <-> exists r, In r rs /\ near r a.
Proof.
  intros. rewrite existsb_exists. unfold near. split; intros (r & I & N); exists r; split; auto; now apply Z.ltb_lt.
Qed.

Lemma leaders_cover : forall l rs a, In a l -> exists r, In r (leaders_from rs l) /\ near r a.
Proof.
  induction l as [|b l IH]; intros rs a I; [easy|]. cbn [leaders_from]. destruct I as [->|I]; [|now apply IH].
  destruct (existsb _ rs) eqn:E.
  - apply exists_near in E as (r & R & N). destruct (leaders_prefix l rs) as (m & -> & _). exists r.
    split; auto. apply in_or_app. now left.
  - destruct (leaders_prefix l (rs ++ [a])) as (m & -> & _). exists a. split; [|apply near_refl].
    apply in_or_app. left. apply in_or_app. right. now left.
Qed.

Definition apart (rs : list Z) : Prop :=
  forall i j r s, nth_error rs i = Some r -> nth_error rs j = Some s -> near r s -> i = j.

Lemma leaders_apart : forall l rs, apart rs -> apart (leaders_from rs l).
Proof.
  induction l as [|a l IH]; intros rs A; cbn [leaders_from]; auto. apply IH.
  destruct (existsb _ rs) eqn:E; auto. intros i j r s I J N.
  assert (F : forall r, In r rs -> ~ near r a).
  { intros x X Y. assert (existsb (fun r => Z.abs (r - a) <? 1000) rs = true) by (apply exists_near; eauto). congruence. }
  assert (Li := I). assert (Lj := J). apply nth_error_Some_len in Li. apply nth_error_Some_len in Lj.
  rewrite app_length in Li, Lj. cbn [List.length] in Li, Lj.
  destruct (Nat.eq_dec i (List.length rs)) as [->|Di], (Nat.eq_dec j (List.length rs)) as [->|Dj]; auto.
  - rewrite nth_error_app2, Nat.sub_diag in I by lia. cbn in I. injection I as <-.
    rewrite nth_error_app1 in J by lia. apply nth_error_In in J. exfalso. apply (F s J). now apply near_sym.
  - rewrite nth_error_app2, Nat.sub_diag in J by lia. cbn in J. injection J as <-.
    rewrite nth_error_app1 in I by lia. apply nth_error_In in I. exfalso. apply (F r I). exact N.
  - rewrite nth_error_app1 in I, J by lia. eapply A; eauto.
Qed.

Section Bundled.
Variable l0 : list Z.
Hypothesis BU : bundled l0.

Lemma leader_in : forall k r, nth_error (leaders l0) k = Some r -> In r l0.
Proof.
  intros k r H. apply nth_error_In in H. unfold leaders in H. destruct (leaders_prefix l0 []) as (m & E & I).
  rewrite E in H. apply I. exact H.
Qed.

Lemma bundle_exists : forall a, In a l0 -> exists k, bundle_no l0 a (Z.of_nat k).
Proof.
  intros a I. destruct (leaders_cover l0 [] a I) as (r & R & N). apply In_nth_error in R as (k & K).
  exists k. split; [lia|]. exists r. rewrite Nat2Z.id. auto.
Qed.

Lemma bundle_same : forall a b k, In a l0 -> In b l0 -> bundle_no l0 a k -> bundle_no l0 b k -> near a b.
Proof.
  intros a b k A B (_ & r & R & N) (_ & s & T & M). rewrite R in T. injection T as <-.
  apply BU with r; auto; [eapply leader_in; eauto|now apply near_sym].
Qed.

Lemma bundle_unique : forall a b k j, In a l0 -> In b l0 -> bundle_no l0 a k -> bundle_no l0 b j -> near a b -> k = j.
Proof.
  intros a b k j A B (K & r & R & N) (J & s & T & M) X.
  assert (In r l0) by (eapply leader_in; eauto). assert (In s l0) by (eapply leader_in; eauto).
  assert (near r s).
  { apply BU with b; auto; [apply BU with a; auto|now apply near_sym]. }
  assert (P : apart (leaders l0)).
  { apply leaders_apart. intros i i' x y F. destruct i; discriminate. }
  assert (Z.to_nat k = Z.to_nat j) by (eapply P; eauto). lia.
Qed.

(** A number between two angles of one bundle is near exactly that bundle. *)
Lemma hull_near : forall lo hi v k a c, In lo l0 -> In hi l0 -> bundle_no l0 lo k -> bundle_no l0 hi k ->
  lo <= v <= hi -> In a l0 -> bundle_no l0 a c -> (near v a <-> k = c).
Proof.
  intros lo hi v k a c L H BL BH V A BA. split.
  - intros N. assert (C : near lo hi) by (eapply bundle_same; eauto).
    assert (near lo a \/ near hi a) as [X|X] by (unfold near in *; lia).
    + now apply (bundle_unique lo a).
    + now apply (bundle_unique hi a).
  - intros ->. assert (near lo a) by (eapply bundle_same; eauto). assert (near hi a) by (eapply bundle_same; eauto).
    unfold near in *. lia.
Qed.

Definition stale_ok (l : line) : Prop := l_grp l = -1 \/ bundle_no l0 (l_ang l) (l_grp l).

Definition Inv (done : list line) (gs : list group) (todo : list line) : Prop :=
  map l_ang done ++ map l_ang todo = l0 /\
  (exists rd, List.length rd = List.length gs /\ leaders_from rd (map l_ang todo) = leaders l0) /\
  (forall l, In l done -> bundle_no l0 (l_ang l) (l_grp l) /\ l_grp l < Z.of_nat (List.length gs)) /\
  (forall l, In l todo -> stale_ok l) /\
  (forall k g, nth_error gs k = Some g ->
     (exists lo hi, In lo l0 /\ In hi l0 /\ bundle_no l0 lo (Z.of_nat k) /\ bundle_no l0 hi (Z.of_nat k) /\
        lo <= g_ang g <= hi) /\
     (members done (Z.of_nat k) = [g_ang g] \/ g_ang g = average (members (done ++ todo) (Z.of_nat k)))).

Lemma members_app : forall a b k, members (a ++ b) k = members a k ++ members b k.
Proof. intros. unfold members. now rewrite filter_app, map_app. Qed.
Lemma members_cons : forall l b k, members (l :: b) k = if l_grp l =? k then l_ang l :: members b k else members b k.
Proof. intros. unfold members. cbn [filter]. destruct (l_grp l =? k); reflexivity. Qed.
Lemma members_none : forall ls k, (forall l, In l ls -> l_grp l <> k) -> members ls k = [].
Proof.
  induction ls as [|l ls IH]; intros k H; [reflexivity|]. rewrite members_cons.
  destruct (Z.eqb_spec (l_grp l) k) as [E|E]; [exfalso; apply (H l); [now left|auto]|].
  apply IH. intros x X. apply H. now right.
Qed.

Lemma members_bundle : forall ls k a, (forall l, In l ls -> In (l_ang l) l0 /\ stale_ok l) -> 0 <= k ->
  In a (members ls k) -> In a l0 /\ bundle_no l0 a k.
Proof.
  intros ls k a H K I. unfold members in I. apply in_map_iff in I as (l & <- & I).
  apply filter_In in I as [I E]. apply Z.eqb_eq in E. destruct (H l I) as [A [B|B]]; [lia|].
  split; auto. now rewrite <- E.
Qed.

Section Step.
Variables (done : list line) (gs : list group) (l : line) (todo : list line).
Hypothesis I : Inv done gs (l :: todo).
Let a := l_ang l.

Lemma step_in : In a l0.
Proof. destruct I as (E & _). rewrite <- E. apply in_or_app. right. now left. Qed.

Lemma step_angles : forall x, In x done \/ In x (l :: todo) -> In (l_ang x) l0.
Proof.
  destruct I as (E & _). intros x X. rewrite <- E. apply in_or_app.
  destruct X; [left|right]; now apply in_map.
Qed.

Lemma step_near : forall k g c, nth_error gs k = Some g -> bundle_no l0 a (Z.of_nat c) ->
  (near (g_ang g) a <-> k = c).
Proof.
  intros k g c K C. destruct I as (_ & _ & _ & _ & G). destruct (G k g K) as [(lo & hi & L & H & BL & BH & V) _].
  rewrite (hull_near lo hi (g_ang g) (Z.of_nat k) a (Z.of_nat c)); auto using step_in. lia.
Qed.

Lemma step_join : near_some gs a = true -> forall c, bundle_no l0 a (Z.of_nat c) -> nearest gs a = c.
Proof.
  intros N c C. apply near_some_iff in N as (g & G & N). apply In_nth_error in G as (k & K).
  assert (NE : map (fun g => Z.abs (g_ang g - a)) gs <> []).
  { destruct gs; [destruct k; discriminate|discriminate]. }
  destruct (argmin_spec _ NE) as (bf & v & af & E & M & B & A). unfold nearest. rewrite M.
  assert (NV : nth_error (map (fun g => Z.abs (g_ang g - a)) gs) (List.length bf) = Some v).
  { rewrite E, nth_error_app2, Nat.sub_diag by lia. reflexivity. }
  assert (LE : v <= Z.abs (g_ang g - a)).
  { assert (J : In (Z.abs (g_ang g - a)) (bf ++ v :: af)).
    { rewrite <- E. apply in_map with (f := fun g => Z.abs (g_ang g - a)). now apply nth_error_In with k. }
    apply in_app_or in J as [J|[J|J]]; [apply B in J; lia|lia|now apply A]. }
  rewrite nth_error_map in NV. destruct (nth_error gs (List.length bf)) as [g'|] eqn:G'; [|discriminate].
  cbn [option_map] in NV. injection NV as NV. apply (step_near _ g' c G' C). unfold near in *. lia.
Qed.

Lemma step_new : near_some gs a = false -> forall c, bundle_no l0 a (Z.of_nat c) -> c = List.length gs.
Proof.
  intros N c C.
  assert (GE : (List.length gs <= c)%nat).
  { destruct (Nat.le_gt_cases (List.length gs) c) as [|X]; auto. exfalso.
    destruct (nth_error gs c) as [g|] eqn:G; [|apply nth_error_None in G; lia].
    assert (near_some gs a = true); [|congruence]. apply near_some_iff. exists g.
    split; [now apply nth_error_In with c|]. now apply (step_near c g c G C). }
  pose proof I as (_ & (rd & RL & RE) & _ & _ & G).
  cbn [map leaders_from] in RE. fold a in RE.
  destruct (existsb (fun r => Z.abs (r - a) <? 1000) rd) eqn:EX.
  - apply exists_near in EX as (r & R & NR). apply In_nth_error in R as (k & K).
    assert (B : bundle_no l0 a (Z.of_nat k)).
    { split; [lia|]. exists r. rewrite Nat2Z.id. split; auto. rewrite <- RE.
      destruct (leaders_prefix (map l_ang todo) rd) as (m & -> & _). rewrite nth_error_app1; auto.
      now apply nth_error_Some_len in K. }
    assert (Z.of_nat k = Z.of_nat c) by (apply (bundle_unique a a); auto using step_in, near_refl).
    apply nth_error_Some_len in K. lia.
  - assert (B : bundle_no l0 a (Z.of_nat (List.length rd))).
    { split; [lia|]. exists a. rewrite Nat2Z.id. split; [|apply near_refl]. rewrite <- RE.
      destruct (leaders_prefix (map l_ang todo) (rd ++ [a])) as (m & -> & _).
      rewrite <- app_assoc, nth_error_app2, Nat.sub_diag by lia. reflexivity. }
    assert (Z.of_nat (List.length rd) = Z.of_nat c) by (apply (bundle_unique a a); auto using step_in, near_refl).
    lia.
Qed.
End Step.

Lemma bundle_grp : forall a k, bundle_no l0 a k -> exists c, k = Z.of_nat c /\ bundle_no l0 a (Z.of_nat c).
Proof. intros a k B. exists (Z.to_nat k). assert (0 <= k) by apply B. rewrite Z2Nat.id; auto. Qed.

Lemma Inv_start : forall l todo, map l_ang (l :: todo) = l0 -> (forall x, In x (l :: todo) -> stale_ok x) ->
  Inv [set_grp l 0 false] [new_group 0 (l_ang l)] todo.
Proof.
  intros l todo E ST.
  assert (L : leaders l0 = leaders_from [l_ang l] (map l_ang todo)) by (rewrite <- E; reflexivity).
  assert (B : bundle_no l0 (l_ang l) 0).
  { split; [lia|]. exists (l_ang l). split; [|apply near_refl]. rewrite L.
    destruct (leaders_prefix (map l_ang todo) [l_ang l]) as (m & -> & _). reflexivity. }
  assert (A : In (l_ang l) l0) by (rewrite <- E; now left).
  split; [exact E|]. split; [exists [l_ang l]; auto|]. split; [|split].
  - intros x [<-|[]]. split; [exact B|cbn; lia].
  - intros x X. apply ST. now right.
  - intros k g K. destruct k; [|destruct k; discriminate]. cbn in K. injection K as <-. split.
    + exists (l_ang l), (l_ang l). cbn [new_group g_ang Z.of_nat]. repeat split; auto; try lia; apply B.
    + left. reflexivity.
Qed.

Lemma members_skip : forall done l l' todo k, stale_ok l -> In (l_ang l) l0 ->
  bundle_no l0 (l_ang l) (l_grp l') -> l_grp l' <> k -> 0 <= k ->
  members (done ++ l' :: todo) k = members (done ++ l :: todo) k.
Proof.
  intros done l l' todo k S A B D K. rewrite !members_app, !members_cons.
  destruct (Z.eqb_spec (l_grp l') k); [contradiction|].
  destruct (Z.eqb_spec (l_grp l) k) as [E|]; auto. exfalso.
  destruct S as [S|S]; [lia|]. apply D. rewrite <- E. eapply bundle_unique; eauto using near_refl.
Qed.

Lemma Inv_join : forall done gs l todo, gs <> [] -> near_some gs (l_ang l) = true -> Inv done gs (l :: todo) ->
  let k := nearest gs (l_ang l) in
  let l' := set_grp l (Z.of_nat k) true in
  Inv (done ++ [l'])
    (change_nth k (fun g => set_ang g (average (members (done ++ l' :: todo) (Z.of_nat k)))) gs) todo.
Proof.
  intros done gs l todo G0 N IV k l'.
  assert (A := step_in done gs l todo IV). destruct (bundle_exists _ A) as (c & C).
  assert (KC : k = c) by exact (step_join done gs l todo IV N c C).
  assert (KL : (k < List.length gs)%nat) by now apply nearest_lt.
  clearbody k. subst k. rename c into k.
  pose proof IV as (E & (rd & RL & RE) & DN & TD & G).
  split; [|split; [|split; [|split]]].
  - rewrite map_app. cbn [map]. rewrite <- app_assoc. exact E.
  - exists rd. rewrite change_nth_length. split; auto. rewrite <- RE. cbn [map leaders_from].
    assert (X : existsb (fun r => Z.abs (r - l_ang l) <? 1000) rd = true); [|now rewrite X].
    apply exists_near. destruct C as (_ & r & R & NR). rewrite Nat2Z.id, <- RE in R. exists r. split; auto.
    destruct (leaders_prefix (map l_ang (l :: todo)) rd) as (m & EM & _). rewrite EM in R.
    rewrite nth_error_app1 in R by lia. now apply nth_error_In with k.
  - intros x X. rewrite change_nth_length. apply in_app_or in X as [X|[<-|[]]]; [now apply DN|].
    split; [exact C|]. cbn [l' set_grp l_grp]. lia.
  - intros x X. apply TD. now right.
  - intros j g J. rewrite change_nth_nth in J. destruct (Nat.eqb_spec j k) as [->|D].
    + destruct (nth_error gs k) as [g0|] eqn:GK; [|discriminate]. cbn [option_map] in J. injection J as <-.
      cbn [set_ang g_ang].
      assert (NE : members (done ++ l' :: todo) (Z.of_nat k) <> []).
      { rewrite members_app, members_cons. cbn [l' set_grp l_grp]. rewrite Z.eqb_refl.
        intros F. apply app_eq_nil in F as [_ F]. discriminate. }
      assert (MB : forall b, In b (members (done ++ l' :: todo) (Z.of_nat k)) ->
        In b l0 /\ bundle_no l0 b (Z.of_nat k)).
      { intros b. apply members_bundle; [|lia]. intros x X. apply in_app_or in X as [X|[<-|X]].
        - split; [apply (step_angles done gs l todo IV); auto|right; now apply DN].
        - split; [exact A|right; exact C].
        - split; [apply (step_angles done gs l todo IV); right; now right|apply TD; now right]. }
      split.
      * destruct (average_hull _ NE) as (lo & hi & L & H & V). exists lo, hi.
        split; [now apply MB|]. split; [now apply MB|]. split; [now apply MB|]. split; [now apply MB|exact V].
      * right. now rewrite <- app_assoc.
    + destruct (G j g J) as [HU OR]. split; [exact HU|].
      assert (NK : l_grp l' <> Z.of_nat j) by (cbn [l' set_grp l_grp]; lia).
      destruct OR as [OR|OR].
      * left. rewrite members_app, members_cons, OR.
        destruct (Z.eqb_spec (l_grp l') (Z.of_nat j)); [contradiction|]. reflexivity.
      * right. rewrite <- app_assoc. cbn [app]. rewrite OR. f_equal. symmetry.
        apply members_skip; auto; [apply TD; now left|lia].
Qed.

Lemma Inv_new : forall done gs l todo, near_some gs (l_ang l) = false -> Inv done gs (l :: todo) ->
  let k := Z.of_nat (List.length gs) in
  Inv (done ++ [set_grp l k false]) (gs ++ [new_group k (l_ang l)]) todo.
Proof.
  intros done gs l todo N IV k.
  assert (A := step_in done gs l todo IV). destruct (bundle_exists _ A) as (c & C).
  assert (KC : c = List.length gs) by exact (step_new done gs l todo IV N c C). subst c. fold k in C.
  pose proof IV as (E & (rd & RL & RE) & DN & TD & G).
  set (l' := set_grp l k false) in *.
  split; [|split; [|split; [|split]]].
  - rewrite map_app. cbn [map]. rewrite <- app_assoc. exact E.
  - exists (rd ++ [l_ang l]). rewrite !app_length. cbn [List.length]. split; [lia|]. rewrite <- RE. cbn [map leaders_from].
    destruct (existsb (fun r => Z.abs (r - l_ang l) <? 1000) rd) eqn:X; [|reflexivity]. exfalso.
    apply exists_near in X as (r & R & NR). apply In_nth_error in R as (j & J).
    assert (JL := nth_error_Some_len _ _ _ _ J).
    assert (B : bundle_no l0 (l_ang l) (Z.of_nat j)).
    { split; [lia|]. exists r. rewrite Nat2Z.id. split; auto. rewrite <- RE.
      destruct (leaders_prefix (map l_ang (l :: todo)) rd) as (m & -> & _). now rewrite nth_error_app1. }
    assert (k = Z.of_nat j) by (eapply bundle_unique; eauto using near_refl). unfold k in *. lia.
  - intros x X. rewrite app_length. cbn [List.length]. apply in_app_or in X as [X|[<-|[]]].
    + destruct (DN x X). split; auto. lia.
    + split; [exact C|]. cbn [l' set_grp l_grp]. unfold k. lia.
  - intros x X. apply TD. now right.
  - intros j g J. assert (JL := nth_error_Some_len _ _ _ _ J). rewrite app_length in JL. cbn [List.length] in JL.
    destruct (Nat.eq_dec j (List.length gs)) as [->|D].
    + rewrite nth_error_app2, Nat.sub_diag in J by lia. cbn in J. injection J as <-. fold k. split.
      * exists (l_ang l), (l_ang l). cbn [new_group g_ang]. repeat split; auto; try lia; apply C.
      * left. rewrite members_app, members_cons. cbn [l' set_grp l_grp]. rewrite Z.eqb_refl.
        rewrite members_none; [reflexivity|]. intros x X. destruct (DN x X). unfold k. lia.
    + rewrite nth_error_app1 in J by lia.
      destruct (G j g J) as [HU OR]. split; [exact HU|].
      assert (NK : l_grp l' <> Z.of_nat j) by (cbn [l' set_grp l_grp]; unfold k; lia).
      destruct OR as [OR|OR].
      * left. rewrite members_app, members_cons, OR.
        destruct (Z.eqb_spec (l_grp l') (Z.of_nat j)); [contradiction|]. reflexivity.
      * right. rewrite <- app_assoc. cbn [app]. rewrite OR. f_equal. symmetry.
        apply members_skip; auto; [apply TD; now left|lia].
Qed.

Lemma Inv_loop : forall ls, ls <> [] -> map l_ang ls = l0 -> (forall x, In x ls -> stale_ok x) ->
  let '(ls', gs') := group_loop [] [] 0 ls in Inv ls' gs' [].
Proof.
  intros ls L E ST. pose proof (loop_rule Inv ls L) as R. destruct (group_loop [] [] 0 ls) as [ls' gs'].
  apply R.
  - intros l todo ->. now apply Inv_start.
  - intros done gs l todo _ G0 N IV. now apply Inv_join.
  - intros done gs l todo _ G0 N IV. now apply Inv_new.
Qed.
End Bundled.
