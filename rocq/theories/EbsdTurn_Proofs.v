(** Regions of a turned map. *)
From Coq Require Import String Reals Lra Relations.
From Coq Require Import List ZArith Bool Lia.
Import ListNotations.
From Verif Require Import Py Grid Grid_Lemmas Flood_Model Flood_Spec Flood_Proofs Quat_Model Quat_Spec Boundary_Model Boundary_Spec Boundary_Proofs Ebsd_Model Ebsd_Spec EbsdState_Model EbsdTurn_Spec.
Open Scope Z_scope.

Section Turn.
Variables W H : Z.
Notation T := (turned W H).
Lemma turn_turn p : T (T p) = p.
Proof. destruct p as [x y]. unfold turned. cbn [fst snd]. f_equal; lia. Qed.
Lemma turn_inside p : inside W H p -> inside W H (T p).
Proof. unfold inside, turned. cbn [fst snd]. lia. Qed.
Lemma turn_inside_iff p : inside W H (T p) <-> inside W H p.
Proof. split; intros I; [rewrite <- (turn_turn p)|]; now apply turn_inside. Qed.

(** Boundaries to the right and below, turned. *)
Definition edges (bx by_ bx' by' : pix -> bool) : Prop :=
  (forall x y, inside W H (x, y) -> inside W H (x + 1, y) -> bx' (T (x + 1, y)) = bx (x, y)) /\
  (forall x y, inside W H (x, y) -> inside W H (x, y + 1) -> by' (T (x, y + 1)) = by_ (x, y)).
Lemma edges_sym bx by_ bx' by' : edges bx by_ bx' by' -> edges bx' by' bx by_.
Proof.
  intros (X & Y). split; intros x y I J.
  - specialize (X (W - 1 - (x + 1)) (H - 1 - y)). change (bx (W - 1 - (x + 1), H - 1 - y) = bx' (x, y)). rewrite <- X.
    + f_equal. unfold turned. cbn [fst snd]. f_equal; lia.
    + apply turn_inside in J. exact J.
    + apply turn_inside in I. unfold turned in I. cbn [fst snd] in I. replace (W - 1 - (x + 1) + 1) with (W - 1 - x) by lia. exact I.
  - specialize (Y (W - 1 - x) (H - 1 - (y + 1))). change (by_ (W - 1 - x, H - 1 - (y + 1)) = by' (x, y)). rewrite <- Y.
    + f_equal. unfold turned. cbn [fst snd]. f_equal; lia.
    + apply turn_inside in J. exact J.
    + apply turn_inside in I. unfold turned in I. cbn [fst snd] in I. replace (H - 1 - (y + 1) + 1) with (H - 1 - y) by lia. exact I.
Qed.
Lemma step_turn bx by_ bx' by' p q : edges bx by_ bx' by' -> open_step W H bx by_ p q -> open_step W H bx' by' (T p) (T q).
Proof.
  intros (X & Y) S.
  assert (R : forall x y, T (x, y) = (fst (T (x + 1, y)) + 1, snd (T (x + 1, y)))) by (intros; unfold turned; cbn [fst snd]; f_equal; lia).
  assert (D : forall x y, T (x, y) = (fst (T (x, y + 1)), snd (T (x, y + 1)) + 1)) by (intros; unfold turned; cbn [fst snd]; f_equal; lia).
  destruct S as [x y I J B|x y I J B|x y I J B|x y I J B].
  - pose proof (X x y I J) as E. pose proof (turn_inside _ I) as TI. pose proof (turn_inside _ J) as TJ. rewrite (R x y) in *. destruct (T (x + 1, y)) as [u v]. cbn [fst snd] in *. apply step_left; congruence || auto.
  - pose proof (X x y I J) as E. pose proof (turn_inside _ I) as TI. pose proof (turn_inside _ J) as TJ. rewrite (R x y) in *. destruct (T (x + 1, y)) as [u v]. cbn [fst snd] in *. apply step_right; congruence || auto.
  - pose proof (Y x y I J) as E. pose proof (turn_inside _ I) as TI. pose proof (turn_inside _ J) as TJ. rewrite (D x y) in *. destruct (T (x, y + 1)) as [u v]. cbn [fst snd] in *. apply step_up; congruence || auto.
  - pose proof (Y x y I J) as E. pose proof (turn_inside _ I) as TI. pose proof (turn_inside _ J) as TJ. rewrite (D x y) in *. destruct (T (x, y + 1)) as [u v]. cbn [fst snd] in *. apply step_down; congruence || auto.
Qed.
Lemma connected_turn bx by_ bx' by' p q : edges bx by_ bx' by' -> connected W H bx by_ p q -> connected W H bx' by' (T p) (T q).
Proof. intros E C. induction C; [apply rt_step; eapply step_turn; eauto|apply rt_refl|eapply rt_trans; eauto]. Qed.
Lemma connected_turn_iff bx by_ bx' by' p q : edges bx by_ bx' by' -> (connected W H bx' by' (T p) (T q) <-> connected W H bx by_ p q).
Proof.
  intros E. split; [|now apply connected_turn]. intros C. apply (connected_turn _ _ _ _ _ _ (edges_sym _ _ _ _ E)) in C. now rewrite !turn_turn in C.
Qed.
Lemma T_NoDup l : NoDup l -> NoDup (map T l).
Proof. intros N. apply FinFun.Injective_map_NoDup; [|exact N]. intros a b E. now rewrite <- (turn_turn a), E, turn_turn. Qed.
Lemma size_turn bx by_ bx' by' p n : edges bx by_ bx' by' -> region_size W H bx by_ p n -> region_size W H bx' by' (T p) n.
Proof.
  intros E (l & N & C & L). exists (map T l). split; [now apply T_NoDup|]. split; [|now rewrite map_length].
  intros q. rewrite in_map_iff. split.
  - intros (t & <- & I). now apply (connected_turn_iff _ _ _ _ p t E), C.
  - intros X. exists (T q). split; [apply turn_turn|]. apply C. apply (connected_turn_iff _ _ _ _ p (T q) E). now rewrite turn_turn.
Qed.
Lemma size_unique bx by_ p n m : region_size W H bx by_ p n -> region_size W H bx by_ p m -> n = m.
Proof.
  intros (l & N & C & <-) (k & N' & C' & <-). apply Nat.le_antisymm; apply NoDup_incl_length; auto; intros q I; [apply C', C, I|apply C, C', I].
Qed.

(** ** Grains *)
Section Found.
Variables (bx by_ bx' by' : pix -> bool) (ph ph' : pix -> Z) (np ms : Z).
Hypothesis W2 : 2 <= W. Hypothesis H2 : 2 <= H.
Hypothesis E : edges bx by_ bx' by'.
Hypothesis P : forall p, inside W H p -> ph' (T p) = ph p.
Lemma indexed_turn p : region_indexed W H bx by_ ph p -> region_indexed W H bx' by' ph' (T p).
Proof. intros (q & I & C & N). exists (T q). split; [now apply turn_inside|]. split; [now apply (connected_turn _ _ _ _ _ _ E)|]. now rewrite P. Qed.
Lemma large_turn : (exists p n, inside W H p /\ region_indexed W H bx by_ ph p /\ region_size W H bx by_ p n /\ ms <= Z.of_nat n) ->
  (exists p n, inside W H p /\ region_indexed W H bx' by' ph' p /\ region_size W H bx' by' p n /\ ms <= Z.of_nat n).
Proof.
  intros (p & n & I & X & S & L). exists (T p), n. split; [now apply turn_inside|]. split; [now apply indexed_turn|]. split; [now apply (size_turn _ _ _ _ _ _ E)|exact L].
Qed.
Lemma ok_large r : find_grains W H bx by_ ph np ms = Ok r ->
  ~ ~ (exists p n, inside W H p /\ region_indexed W H bx by_ ph p /\ region_size W H bx by_ p n /\ ms <= Z.of_nat n).
Proof.
  destruct r as [[lab gl] phs]. intros F N. destruct (fg_list _ _ _ _ _ _ _ _ _ _ W2 H2 F) as (NE & L & _).
  destruct gl as [|pts gl]; [congruence|]. destruct (L 0%nat pts eq_refl) as (NE' & _ & _ & M). destruct pts as [|p pts]; [congruence|].
  destruct (proj1 (M p) (or_introl eq_refl)) as (I & LP). destruct (fg_values _ _ _ _ _ _ _ _ _ _ W2 H2 F p I) as (V1 & V2).
  assert (~ region_indexed W H bx by_ ph p) as NI.
  { intros X. apply N. destruct (V1 X) as (n & S & [[Q _]|[_ Q]]); [|lia]. exists p, n. auto. }
  specialize (V2 NI). lia.
Qed.
End Found.

Section Both.
Variables (bx by_ bx' by' : pix -> bool) (ph ph' : pix -> Z) (np ms : Z).
Hypothesis W2 : 2 <= W. Hypothesis H2 : 2 <= H.
Hypothesis E : edges bx by_ bx' by'.
Hypothesis P : forall p, inside W H p -> ph' (T p) = ph p.
Lemma P' : forall p, inside W H p -> ph (T p) = ph' p.
Proof. intros p I. rewrite <- P by now apply turn_inside. now rewrite turn_turn. Qed.

Lemma labels_turn lab gl phs lab' gl' phs' : find_grains W H bx by_ ph np ms = Ok (lab, gl, phs) -> find_grains W H bx' by' ph' np ms = Ok (lab', gl', phs') ->
  forall p, inside W H p -> (0 < lab p <-> 0 < lab' (T p)) /\ (lab p <= 0 -> lab' (T p) = lab p).
Proof.
  intros F F' p I. pose proof (turn_inside p I) as I'.
  destruct (fg_values _ _ _ _ _ _ _ _ _ _ W2 H2 F p I) as (V1 & V2). destruct (fg_values _ _ _ _ _ _ _ _ _ _ W2 H2 F' (T p) I') as (V1' & V2').
  assert (D : (0 < lab p /\ 0 < lab' (T p)) \/ (lab p <= 0 /\ lab' (T p) = lab p)); [|lia].
  destruct (Z_lt_dec 0 (lab p)) as [A|A]; destruct (Z_lt_dec 0 (lab' (T p))) as [B|B]; destruct (Z.eq_dec (lab' (T p)) (lab p)) as [C|C]; try lia; exfalso;
  (assert (NI : ~ region_indexed W H bx by_ ph p);
   [intros X; destruct (V1 X) as (n & S & Q); destruct (V1' (indexed_turn _ _ _ _ _ _ E P p X)) as (n' & S' & Q');
    apply (size_turn _ _ _ _ _ _ E) in S; pose proof (size_unique _ _ _ _ _ S S'); lia|];
   assert (NI' : ~ region_indexed W H bx' by' ph' (T p));
   [intros X; apply NI; apply (indexed_turn _ _ _ _ _ _ (edges_sym _ _ _ _ E) P') in X; now rewrite turn_turn in X|];
   specialize (V2 NI); specialize (V2' NI'); lia).
Qed.
Lemma same_turn lab gl phs lab' gl' phs' : find_grains W H bx by_ ph np ms = Ok (lab, gl, phs) -> find_grains W H bx' by' ph' np ms = Ok (lab', gl', phs') ->
  forall p q, inside W H p -> inside W H q -> 0 < lab p -> (lab q = lab p <-> lab' (T q) = lab' (T p)).
Proof.
  intros F F' p q I J L. rewrite (fg_same _ _ _ _ _ _ _ _ _ _ W2 H2 F p q I J L).
  rewrite (fg_same _ _ _ _ _ _ _ _ _ _ W2 H2 F' (T p) (T q)); [symmetry; apply (connected_turn_iff _ _ _ _ _ _ E)|now apply turn_inside|now apply turn_inside|].
  now apply (labels_turn _ _ _ _ _ _ F F' p I).
Qed.

Lemma list_turn lab gl phs lab' gl' phs' : find_grains W H bx by_ ph np ms = Ok (lab, gl, phs) -> find_grains W H bx' by' ph' np ms = Ok (lab', gl', phs') ->
  forall k pts, nth_error gl k = Some pts -> exists k' pts', nth_error gl' k' = Some pts' /\
     List.length pts' = List.length pts /\ (forall p, In p pts <-> inside W H p /\ In (T p) pts') /\
     nth_error phs' k' = nth_error phs k.
Proof.
  intros F F' k pts N. destruct (fg_list _ _ _ _ _ _ _ _ _ _ W2 H2 F) as (_ & L & _). destruct (fg_list _ _ _ _ _ _ _ _ _ _ W2 H2 F') as (_ & L' & O').
  destruct (L k pts N) as (NE & ND & _ & M). destruct pts as [|p0 rest] eqn:PT; [congruence|]. rewrite <- PT in *. assert (I0 : In p0 pts) by (rewrite PT; now left).
  destruct (proj1 (M p0) I0) as (J0 & LP0). assert (POS : 0 < lab p0) by lia.
  pose proof (proj1 (proj1 (labels_turn _ _ _ _ _ _ F F' p0 J0)) POS) as POS'.
  destruct (O' (T p0) (turn_inside p0 J0) POS') as (pts' & N' & I0'). set (k' := Z.to_nat (lab' (T p0) - 1)) in *.
  destruct (L' k' pts' N') as (NE' & ND' & _ & M').
  assert (B : forall p, In p pts <-> inside W H p /\ In (T p) pts').
  { intros p. rewrite M, M', turn_inside_iff. split.
    - intros (J & Q). split; [exact J|]. split; [exact J|]. assert (lab p = lab p0) as Q2 by lia. apply (same_turn _ _ _ _ _ _ F F' p0 p J0 J POS) in Q2. lia.
    - intros (J & _ & Q). split; [exact J|]. assert (lab' (T p) = lab' (T p0)) as Q2 by lia. apply (same_turn _ _ _ _ _ _ F F' p0 p J0 J POS) in Q2. lia. }
  exists k', pts'. split; [exact N'|]. split; [|split; [exact B|]].
  - rewrite <- (map_length T pts). apply Nat.le_antisymm; apply NoDup_incl_length; auto.
    + intros q J. apply in_map_iff. exists (T q). split; [apply turn_turn|]. apply B. rewrite turn_turn. split; [|exact J]. apply turn_inside. now apply M' in J.
    + now apply T_NoDup.
    + intros q J. apply in_map_iff in J as (t & <- & J). now apply B.
  - destruct (fg_phases _ _ _ _ _ _ _ _ _ _ W2 H2 F) as (LN & PH). destruct (fg_phases _ _ _ _ _ _ _ _ _ _ W2 H2 F') as (LN' & PH').
    destruct (PH k pts N) as (S1 & S2). destruct (PH' k' pts' N') as (S1' & S2').
    assert (Q : forall v, (forall p, In p pts -> ph p = v + 1) <-> (forall p, In p pts' -> ph' p = v + 1)).
    { intros v. split; intros A p J.
      - rewrite <- P' by now apply M' in J. apply A, B. rewrite turn_turn. split; [|exact J]. apply turn_inside. now apply M' in J.
      - rewrite <- P by now apply M in J. apply A. now apply B. }
    destruct (nth_error phs k) as [o|] eqn:Ok1; [|apply nth_error_None in Ok1; rewrite LN in Ok1; apply nth_error_None in Ok1; congruence].
    destruct (nth_error phs' k') as [o'|] eqn:Ok2; [|apply nth_error_None in Ok2; rewrite LN' in Ok2; apply nth_error_None in Ok2; congruence].
    destruct o as [v|]; [|destruct o' as [v'|]; [|reflexivity]].
    + destruct (proj1 (S1 v) eq_refl) as (V & A). symmetry. rewrite <- (proj2 (S1' v)); [reflexivity|]. split; [exact V|now apply Q].
    + destruct (proj1 (S1' v') eq_refl) as (V & A). exfalso. apply (proj1 S2 eq_refl). exists v'. split; [exact V|now apply Q].
Qed.
Lemma count_turn lab gl phs lab' gl' phs' : find_grains W H bx by_ ph np ms = Ok (lab, gl, phs) -> find_grains W H bx' by' ph' np ms = Ok (lab', gl', phs') ->
  (List.length gl <= List.length gl')%nat.
Proof.
  intros F F'. destruct (fg_list _ _ _ _ _ _ _ _ _ _ W2 H2 F) as (_ & L & _). destruct (fg_list _ _ _ _ _ _ _ _ _ _ W2 H2 F') as (_ & L' & O').
  set (f := fun pts : list pix => match pts with p :: _ => lab' (T p) | [] => 0 end).
  assert (ND : NoDup (map f gl)).
  { apply NoDup_nth_error. intros i j I E1. rewrite map_length in I. rewrite !nth_error_map in E1.
    destruct (nth_error gl i) as [a|] eqn:A; [|apply nth_error_None in A; lia]. destruct (nth_error gl j) as [b|] eqn:B; [|discriminate E1].
    cbn [option_map] in E1. injection E1 as E1. destruct (L i a A) as (NA & _ & _ & MA). destruct (L j b B) as (NB & _ & _ & MB).
    destruct a as [|p a]; [congruence|]. destruct b as [|q b]; [congruence|]. cbn [f] in E1.
    destruct (proj1 (MA p) (or_introl eq_refl)) as (I1 & LP). destruct (proj1 (MB q) (or_introl eq_refl)) as (I2 & LQ).
    assert (lab q = lab p) by (apply (same_turn _ _ _ _ _ _ F F' p q I1 I2); [lia|congruence]). lia. }
  assert (INC : incl (map f gl) (map (fun k => Z.of_nat k + 1) (seq 0 (List.length gl')))).
  { intros v I. apply in_map_iff in I as (pts & <- & I). apply In_nth_error in I as (k & N). destruct (L k pts N) as (NE & _ & _ & M). destruct pts as [|p pts]; [congruence|].
    cbn [f]. destruct (proj1 (M p) (or_introl eq_refl)) as (I1 & LP). pose proof (proj1 (proj1 (labels_turn _ _ _ _ _ _ F F' p I1)) ltac:(lia)) as POS.
    destruct (O' (T p) (turn_inside p I1) POS) as (pts' & N' & _). apply in_map_iff. exists (Z.to_nat (lab' (T p) - 1)). split; [lia|].
    apply in_seq. assert (Z.to_nat (lab' (T p) - 1) < List.length gl')%nat by (apply nth_error_Some; congruence). lia. }
  apply NoDup_incl_length in INC; [|exact ND]. now rewrite !map_length, seq_length in INC.
Qed.
End Both.

(** What is found on a turned map. *)
Lemma grains_turn bx by_ bx' by' ph ph' np ms : 2 <= W -> 2 <= H -> edges bx by_ bx' by' -> (forall p, inside W H p -> ph' (T p) = ph p) ->
  match find_grains W H bx by_ ph np ms with
  | Ok (lab, gl, phs) => exists lab' gl' phs', find_grains W H bx' by' ph' np ms = Ok (lab', gl', phs') /\ turned_grains W H lab (gl, phs) lab' (gl', phs')
  | Err x => find_grains W H bx' by' ph' np ms = Err x
  end.
Proof.
  intros W2 H2 E P. pose proof (edges_sym _ _ _ _ E) as E'. pose proof (P' ph ph' P) as PP.
  destruct (fg_outcome W H bx by_ ph np ms W2 H2) as (A1 & A2 & A3). destruct (fg_outcome W H bx' by' ph' np ms W2 H2) as (B1 & B2 & B3).
  destruct (find_grains W H bx by_ ph np ms) as [[[lab gl] phs]|x] eqn:F.
  - destruct (find_grains W H bx' by' ph' np ms) as [[[lab' gl'] phs']|y] eqn:F'.
    + exists lab', gl', phs'. split; [reflexivity|]. split; [apply (labels_turn _ _ _ _ _ _ _ _ W2 H2 E P _ _ _ _ _ _ F F')|].
      split; [apply (same_turn _ _ _ _ _ _ _ _ W2 H2 E P _ _ _ _ _ _ F F')|]. cbn [fst snd].
      split; [apply (list_turn _ _ _ _ _ _ _ _ W2 H2 E P _ _ _ _ _ _ F F')|].
      apply Nat.le_antisymm; [apply (count_turn _ _ _ _ _ _ _ _ W2 H2 E' PP _ _ _ _ _ _ F' F)|apply (count_turn _ _ _ _ _ _ _ _ W2 H2 E P _ _ _ _ _ _ F F')].
    + exfalso. apply (ok_large bx by_ ph ph' np ms W2 H2 P _ F). intros X. apply (large_turn _ _ _ _ _ _ _ E P) in X. destruct (B1 X). discriminate.
  - assert (NL : ~ (exists p n, inside W H p /\ region_indexed W H bx by_ ph p /\ region_size W H bx by_ p n /\ ms <= Z.of_nat n)) by (intros X; destruct (A1 X); discriminate).
    assert (NL' : ~ (exists p n, inside W H p /\ region_indexed W H bx' by' ph' p /\ region_size W H bx' by' p n /\ ms <= Z.of_nat n)) by (intros X; apply NL, (large_turn _ _ _ _ _ _ _ E' PP X)).
    assert (DI : (exists p, inside W H p /\ ph p <> 0) \/ ~ (exists p, inside W H p /\ ph p <> 0)).
    { destruct (existsb (fun p => negb (ph p =? 0)) (all_pix W H)) eqn:X.
      - left. apply existsb_exists in X as (p & I & Q). exists p. apply all_pix_In in I; [|lia|lia]. split; [exact I|]. apply negb_true_iff, Z.eqb_neq in Q. exact Q.
      - right. intros (p & I & Q). assert (Y : existsb (fun p => negb (ph p =? 0)) (all_pix W H) = true); [|congruence].
        apply existsb_exists. exists p. split; [apply all_pix_In; auto; lia|]. apply negb_true_iff, Z.eqb_neq. exact Q. }
    destruct DI as [D|D].
    + rewrite (B2 ltac:(destruct D as (p & I & Q); exists (T p); split; [now apply turn_inside|now rewrite P]) NL'). now rewrite <- (A2 D NL).
    + rewrite (B3 ltac:(intros (p & I & Q); apply D; exists (T p); split; [now apply turn_inside|now rewrite PP])). now rewrite <- (A3 D).
Qed.
End Turn.
