(** Proofs about what DIC grains say about their crystal. *)
From Coq Require Import String Ascii Reals.
From Coq Require Import List ZArith Bool Lia.
From Verif Require Import Py Grid Base_Model Quat_Model Crystal_Model GrainState_Model GrainState_Spec GrainState_Proofs
  DicGrains_Model DicGrains_Spec DicGrains_Proofs DicGrains_Props DicCrystal_Model DicCrystal_Spec.
Import ListNotations.
Open Scope Z_scope.

(** ** Lists *)
Lemma py_index_nonneg {A} (l : list A) i : 0 <= i -> py_index l i = match nth_error l (Z.to_nat i) with Some a => Ok a | None => Err IndexError end.
Proof.
  intros I. unfold py_index. destruct (Z.ltb_spec i 0); [lia|]. destruct (Z.ltb_spec i 0); [lia|]. cbn [orb].
  destruct (Z.leb_spec (Z.of_nat (List.length l)) i); [|reflexivity].
  rewrite (proj2 (nth_error_None l (Z.to_nat i))) by lia. reflexivity.
Qed.
Lemma py_index_nth {A} (l : list A) i a : py_index l i = Ok a -> exists k, nth_error l k = Some a /\
  i = (if i <? 0 then Z.of_nat k - Z.of_nat (List.length l) else Z.of_nat k).
Proof.
  unfold py_index. destruct (i <? 0) eqn:N.
  - destruct (_ || _) eqn:B; [discriminate|]. apply orb_false_iff in B as (B1 & B2). apply Z.ltb_ge in B1.
    destruct (nth_error l _) eqn:E; [|discriminate]. injection 1 as <-. eexists. split; [exact E|]. lia.
  - destruct (_ || _) eqn:B; [discriminate|]. apply orb_false_iff in B as (B1 & B2). apply Z.ltb_ge in B1.
    destruct (nth_error l _) eqn:E; [|discriminate]. injection 1 as <-. eexists. split; [exact E|]. lia.
Qed.
Lemma map_res_nth {A B} (f : A -> res B) : forall l l', map_res f l = Ok l' ->
  List.length l' = List.length l /\ forall k b, nth_error l' k = Some b -> exists a, nth_error l k = Some a /\ f a = Ok b.
Proof.
  induction l as [|a l IH]; intros l' E; cbn [map_res] in E.
  - injection E as <-. split; [reflexivity|]. intros [|k] b N; discriminate.
  - destruct (f a) as [b|] eqn:F; [|discriminate]. cbn [bind] in E. destruct (map_res f l) as [bs|]; [|discriminate]. cbn [bind] in E.
    injection E as <-. destruct (IH bs eq_refl) as (L & N). split; [cbn; congruence|].
    intros [|k] b' N'; cbn [nth_error] in *; [injection N' as <-; eauto|]. now apply N.
Qed.
Lemma put_length {A} i (v : A) l : List.length (put i v l) = List.length l.
Proof. unfold put. rewrite map_length, combine_length, seq_length. lia. Qed.
Lemma combine_nth {A} (l : list A) : forall s j, nth_error (combine (seq s (List.length l)) l) j = option_map (fun a => ((s + j)%nat, a)) (nth_error l j).
Proof.
  induction l as [|a l IH]; intros s [|j]; try reflexivity; cbn [List.length seq combine nth_error option_map].
  - now rewrite Nat.add_0_r.
  - rewrite IH. replace (S s + j)%nat with (s + S j)%nat by lia. reflexivity.
Qed.
Lemma put_nth {A} i (v : A) l j : nth_error (put i v l) j = if (j =? i)%nat then option_map (fun _ => v) (nth_error l j) else nth_error l j.
Proof.
  unfold put. rewrite nth_error_map, combine_nth. cbn [Nat.add]. destruct (nth_error l j); cbn [option_map]; [|now destruct (_ =? _)%nat].
  now destruct (j =? i)%nat.
Qed.

(** ** One object *)
Lemma on_grain_keeps c g : o_points (fst (on_grain c g)) = o_points g /\ o_consts (fst (on_grain c g)) = o_consts g.
Proof. destruct c; auto. Qed.
(** What a call on an object does to the world. *)
Definition same_lists (w w' : world) : Prop :=
  e_store w' = e_store w /\ e_list w' = e_list w /\ d_store w' = d_store w /\ d_list w' = d_list w /\ List.length (heap w') = List.length (heap w).
Lemma same_lists_refl w : same_lists w w.
Proof. repeat split. Qed.
Lemma same_lists_trans a b c : same_lists a b -> same_lists b c -> same_lists a c.
Proof. unfold same_lists. intuition congruence. Qed.
Lemma at_object_lists i c w : same_lists w (fst (at_object i c w)).
Proof.
  unfold at_object. destruct (nth_error (heap w) i) as [g|]; [|apply same_lists_refl].
  destruct (on_grain c g) as [g' a]. cbn [fst]. repeat split. cbn [heap]. now rewrite put_length.
Qed.
Lemma at_object_other i c w j : j <> i -> nth_error (heap (fst (at_object i c w))) j = nth_error (heap w) j.
Proof.
  intros N. unfold at_object. destruct (nth_error (heap w) i) as [g|]; [|reflexivity]. destruct (on_grain c g) as [g' a]. cbn [fst heap].
  rewrite put_nth. destruct (Nat.eqb_spec j i); [congruence|reflexivity].
Qed.
Lemma at_object_self i c w g : nth_error (heap w) i = Some g -> nth_error (heap (fst (at_object i c w))) i = Some (fst (on_grain c g)) /\
  snd (at_object i c w) = snd (on_grain c g).
Proof.
  intros N. unfold at_object. rewrite N. destruct (on_grain c g) as [g' a]. cbn [fst snd heap]. rewrite put_nth, Nat.eqb_refl, N. auto.
Qed.
(** A property of objects that calls keep. *)
Section Kept.
Variable P : nat -> ebsd_grain -> Prop.
Definition holds (w : world) : Prop := forall i g, nth_error (heap w) i = Some g -> P i g.
Lemma at_object_holds i c w : (forall g, P i g -> P i (fst (on_grain c g))) -> holds w -> holds (fst (at_object i c w)).
Proof.
  intros K H j g N. destruct (Nat.eq_dec j i) as [->|D].
  - destruct (nth_error (heap w) i) as [g0|] eqn:E.
    + destruct (at_object_self i c w g0 E) as (E' & _). rewrite E' in N. injection N as <-. apply K, H, E.
    + unfold at_object in N. rewrite E in N. cbn [fst] in N. congruence.
  - rewrite at_object_other in N by exact D. now apply H.
Qed.
Lemma over_holds o : (forall i g, P i g -> P i (fst (on_grain (Do o) g))) -> forall l w, holds w -> holds (fst (over l o w)).
Proof.
  intros K. induction l as [|i l IH]; intros w H; cbn [over]; [exact H|].
  pose proof (at_object_holds i (Do o) w (K i) H) as H'. destruct (at_object i (Do o) w) as [w' [a|x]]; cbn [fst] in *; auto.
Qed.
End Kept.
Lemma over_lists o : forall l w, same_lists w (fst (over l o w)).
Proof.
  induction l as [|i l IH]; intros w; cbn [over]; [apply same_lists_refl|].
  pose proof (at_object_lists i (Do o) w). destruct (at_object i (Do o) w) as [w' [a|x]]; cbn [fst] in *; auto. eapply same_lists_trans; eauto.
Qed.
Lemma over_other o j : forall l w, ~ In j l -> nth_error (heap (fst (over l o w))) j = nth_error (heap w) j.
Proof.
  induction l as [|i l IH]; intros w N; cbn [over]; [reflexivity|].
  pose proof (at_object_other i (Do o) w j ltac:(intros ->; apply N; now left)) as E. destruct (at_object i (Do o) w) as [w' [a|x]]; cbn [fst] in *; auto.
  rewrite IH; auto. intros I. apply N. now right.
Qed.

Section Proofs.
Variables (e_default : found) (d_default : method).
Notation step := (step e_default d_default).
Notation run := (run e_default d_default).
Notation e_labels := (e_labels e_default).
Notation d_find := (d_find e_default).

(** ** Worlds with grains *)
Record settled (w : world) (lab : pix -> Z) (l : list nat) : Prop := Settled { s_lab : e_store w = Some lab; s_list : e_list w = Some l }.
Record shown (w : world) (lab : pix -> Z) (l : list nat) (gl : list (list pix * nat)) : Prop :=
  Shown { s_settled : settled w lab l; s_stored : d_store w = true; s_grains : d_list w = Some gl }.
Lemma settled_labels w lab l : settled w lab l -> e_labels w = (w, Ok (Labels lab)).
Proof. intros [A B]. unfold DicCrystal_Model.e_labels. now rewrite A. Qed.
Lemma settled_call w lab l i c : settled w lab l -> step w (ECall i c) =
  match py_index l i with Ok g => at_object g c w | Err x => (w, Err x) end.
Proof.
  intros B. cbn [DicCrystal_Model.step]. unfold e_item. rewrite (settled_labels w lab l B). cbn [bind]. rewrite (s_list _ _ _ B).
  destruct (py_index l i); reflexivity.
Qed.
Lemma settled_all w lab l o : settled w lab l -> step w (EAll o) = over l o w.
Proof. intros B. cbn [DicCrystal_Model.step]. rewrite (settled_labels w lab l B), (s_list _ _ _ B). reflexivity. Qed.
Lemma shown_call w lab l gl i c : shown w lab l gl -> step w (DCall i c) =
  match py_index gl i with
  | Ok (pts, g) => match delegate c with Some c => at_object g c w | None => (w, Ok (Points pts)) end
  | Err x => (w, Err x) end.
Proof.
  intros [A B C]. cbn [DicCrystal_Model.step]. unfold d_item. rewrite B, C. cbn [bind]. destruct (py_index gl i) as [[pts g]|]; reflexivity.
Qed.
Lemma settled_lists w w' lab l : same_lists w w' -> settled w lab l -> settled w' lab l.
Proof. intros (A & B & _) [C D]. split; congruence. Qed.
Lemma shown_lists w w' lab l gl : same_lists w w' -> shown w lab l gl -> shown w' lab l gl.
Proof. intros S' [C D E]. split; [eapply settled_lists; eauto| |]; destruct S' as (_ & _ & A & B & _); congruence. Qed.

(** Quiet calls change only what objects keep. *)
Lemma quiet_step w lab l gl e : shown w lab l gl -> finds_e e = false -> finds_d e = false -> same_lists w (fst (step w e)).
Proof.
  intros B F G. destruct e as [f|f| |m|m|i c|o|i c]; try discriminate.
  - cbn [DicCrystal_Model.step]. rewrite (settled_labels _ _ _ (s_settled _ _ _ _ B)). apply same_lists_refl.
  - rewrite (settled_call _ _ _ _ _ (s_settled _ _ _ _ B)). destruct (py_index l i); [apply at_object_lists|apply same_lists_refl].
  - rewrite (settled_all _ _ _ _ (s_settled _ _ _ _ B)). apply over_lists.
  - rewrite (shown_call _ _ _ _ _ _ B). destruct (py_index gl i) as [[pts g]|]; [|apply same_lists_refl].
    destruct (delegate c); [apply at_object_lists|apply same_lists_refl].
Qed.
Lemma quiet_run lab l gl : forall es w, shown w lab l gl -> quiet es -> same_lists w (run w es).
Proof.
  induction es as [|e es IH]; intros w B Q; cbn [DicCrystal_Model.run fold_left]; [apply same_lists_refl|].
  pose proof (quiet_step w lab l gl e B (proj1 (Q e (or_introl eq_refl))) (proj2 (Q e (or_introl eq_refl)))) as S1.
  eapply same_lists_trans; [exact S1|]. apply IH; [eapply shown_lists; eauto|]. intros e' I. apply Q. now right.
Qed.
Lemma quiet_holds (P : nat -> ebsd_grain -> Prop) lab l gl : forall es w, shown w lab l gl -> quiet es ->
  (forall e, In e es -> match e with
     | ECall _ c => forall i g, P i g -> P i (fst (on_grain c g))
     | EAll o => forall i g, P i g -> P i (fst (on_grain (Do o) g))
     | DCall _ c => forall c', delegate c = Some c' -> forall i g, P i g -> P i (fst (on_grain c' g))
     | _ => True end) -> holds P w -> holds P (run w es).
Proof.
  induction es as [|e es IH]; intros w B Q K H; cbn [DicCrystal_Model.run fold_left]; [exact H|].
  pose proof (quiet_step w lab l gl e B (proj1 (Q e (or_introl eq_refl))) (proj2 (Q e (or_introl eq_refl)))) as S1.
  apply IH; [eapply shown_lists; eauto|intros e' I; apply Q; now right|intros e' I; apply K; now right|].
  specialize (K e (or_introl eq_refl)). destruct (Q e (or_introl eq_refl)) as (F & G). clear IH S1. destruct e as [f|f| |m|m|i c|o|i c]; try discriminate.
  - cbn [DicCrystal_Model.step]. now rewrite (settled_labels _ _ _ (s_settled _ _ _ _ B)).
  - rewrite (settled_call _ _ _ _ _ (s_settled _ _ _ _ B)). destruct (py_index l i); [|exact H]. apply at_object_holds; auto.
  - rewrite (settled_all _ _ _ _ (s_settled _ _ _ _ B)). apply over_holds; auto.
  - rewrite (shown_call _ _ _ _ _ _ B). destruct (py_index gl i) as [[pts g]|]; [|exact H].
    destruct (delegate c) as [c'|]; [|exact H]. apply at_object_holds; auto.
Qed.

(** ** Finding *)
Lemma e_labels_settled w lab : e_store w = None \/ e_list w <> None -> snd (e_labels w) = Ok (Labels lab) ->
  exists l, settled (fst (e_labels w)) lab l.
Proof.
  intros I. unfold DicCrystal_Model.e_labels. destruct (e_store w) as [lab'|] eqn:S'.
  - cbn [fst snd]. injection 1 as <-. destruct I as [I|I]; [discriminate|]. destruct (e_list w) as [l|] eqn:L; [|congruence]. exists l. split; auto.
  - unfold e_find. destruct (f_grains e_default) as [|g gs] eqn:G; [discriminate|]. cbn [fst snd]. injection 1 as <-. eexists. split; reflexivity.
Qed.
Lemma e_labels_answer w : exists w', (exists lab, e_labels w = (w', Ok (Labels lab))) \/ (exists x, e_labels w = (w', Err x)).
Proof.
  unfold DicCrystal_Model.e_labels. destruct (e_store w) as [lab|]; [exists w; left; eauto|]. unfold e_find.
  destruct (f_grains e_default); [exists w; right; eauto|eexists; left; eauto].
Qed.
(** Lists hold numbers of objects; where labels are stored there are grains. *)
Record sound (w : world) : Prop := Sound {
  so_store : e_store w = None \/ e_list w <> None;
  so_e : forall l, e_list w = Some l -> forall i, In i l -> (i < List.length (heap w))%nat;
  so_d : forall gl, d_list w = Some gl -> forall g, In g gl -> (snd g < List.length (heap w))%nat
}.
Lemma sound_lists w w' : same_lists w w' -> sound w -> sound w'.
Proof. intros (A & B & C & D & E) [F G H]. split; rewrite ?A, ?B, ?D, ?E; auto. Qed.
Lemma e_find_sound s f w : sound w -> sound (fst (e_find s f w)).
Proof.
  intros [F G H]. unfold e_find. destruct (f_grains f) as [|g gs] eqn:E; cbn [fst]; [split; auto|].
  set (n := List.length (g :: gs)). split; cbn [e_store e_list d_list heap].
  - right. discriminate.
  - intros l I i J. assert (J2 : In i (seq (List.length (heap w)) n)) by (injection I as <-; exact J). apply in_seq in J2. rewrite app_length, map_length. fold n. lia.
  - intros gl I j J. specialize (H gl I j J). rewrite app_length. lia.
Qed.
Lemma e_labels_sound w : sound w -> sound (fst (e_labels w)).
Proof. intros S'. unfold DicCrystal_Model.e_labels. destruct (e_store w); [exact S'|]. now apply e_find_sound. Qed.
Lemma linked_list_in m lab l gl : linked_list m lab l = Ok gl -> forall g, In g gl -> In (snd g) l.
Proof.
  intros E g I. apply In_nth_error in I as (k & N). unfold linked_list in E. destruct m as [W H sample|gs].
  - destruct (warp_find_grains _ _ _ _) as [r|]; [|discriminate]. cbn [bind] in E.
    destruct (proj2 (map_res_nth _ _ _ E) k g N) as (a & _ & F). destruct (nth_error l (snd a)) eqn:M; [|discriminate].
    injection F as <-. cbn [snd]. now apply nth_error_In in M.
  - destruct (proj2 (map_res_nth _ _ _ E) k g N) as (a & _ & F). destruct (link_dic_grain _ _) as [n|]; [|discriminate]. cbn [bind] in F.
    destruct (nth_error l n) eqn:M; [|discriminate]. injection F as <-. cbn [snd]. now apply nth_error_In in M.
Qed.
(** What finding DIC grains does. *)
Lemma d_find_cases s m w : 
  fst (d_find s m w) = w \/
  (exists w' , e_labels w = (w', snd (e_labels w)) /\ (fst (d_find s m w) = w' \/
   exists lab l gl, snd (e_labels w) = Ok (Labels lab) /\ e_list w' = Some l /\ linked_list m lab l = Ok gl /\
     d_find s m w = (World (heap w') (e_store w') (e_list w') (s || d_store w') (Some gl), Ok Nothing))).
Proof.
  destruct (match m with Flood [] => true | _ => false end) eqn:T.
  - left. destruct m as [|[|]]; try discriminate. reflexivity.
  - right. exists (fst (e_labels w)). split; [apply surjective_pairing|].
    assert (D : d_find s m w = let '(w, a) := e_labels w in
      match a, e_list w with
      | Err x, _ => (w, Err x)
      | Ok (Labels lab), Some l =>
          match linked_list m lab l with
          | Err x => (w, Err x)
          | Ok gl => (World (heap w) (e_store w) (e_list w) (s || d_store w) (Some gl), Ok Nothing)
          end
      | Ok _, _ => (w, Err TypeError)
      end) by (destruct m as [|[|]]; try discriminate; reflexivity).
    rewrite D. destruct (e_labels_answer w) as (w' & [(lab & E)|(x & E)]); rewrite E; cbn [fst snd]; [|left; reflexivity].
    destruct (e_list w') as [l|] eqn:L; [|left; reflexivity]. destruct (linked_list m lab l) as [gl|x] eqn:K; [|left; reflexivity].
    right. exists lab, l, gl. auto.
Qed.
Lemma d_find_sound s m w : sound w -> sound (fst (d_find s m w)).
Proof.
  intros S'. destruct (d_find_cases s m w) as [->|(w' & E & C)]; [exact S'|].
  pose proof (e_labels_sound w S') as S1. rewrite E in S1. cbn [fst] in S1.
  destruct C as [->|(lab & l & gl & A & L & K & ->)]; [exact S1|]. destruct S1 as [F G H]. cbn [fst]. split; cbn [e_store e_list d_list heap]; auto.
  intros gl' I g J. injection I as <-. apply (G l L). eapply linked_list_in; eauto.
Qed.
Lemma at_object_sound i c w : sound w -> sound (fst (at_object i c w)).
Proof. apply sound_lists, at_object_lists. Qed.
Lemma step_sound w e : sound w -> sound (fst (step w e)).
Proof.
  intros S'. destruct e as [f|f| |m|m|i c|o|i c]; cbn [DicCrystal_Model.step].
  - now apply e_find_sound.
  - now apply e_find_sound.
  - now apply e_labels_sound.
  - now apply d_find_sound.
  - now apply d_find_sound.
  - unfold e_item. pose proof (e_labels_sound w S') as S1. destruct (e_labels w) as [w1 a]. cbn [fst] in S1.
    destruct (bind _ _); [now apply at_object_sound|exact S1].
  - pose proof (e_labels_sound w S') as S1. destruct (e_labels w) as [w1 a]. cbn [fst] in S1. destruct a; [|exact S1].
    destruct (e_list w1); [|exact S1]. eapply sound_lists; [apply over_lists|exact S1].
  - unfold d_item. assert (S1 : sound (fst (if d_store w then (w, Ok Nothing) else d_find true d_default w))).
    { destruct (d_store w); [exact S'|now apply d_find_sound]. }
    destruct (if d_store w then _ else _) as [w1 a]. cbn [fst] in S1. destruct (bind _ _) as [[pts g]|]; [|exact S1].
    destruct (delegate c); [now apply at_object_sound|exact S1].
Qed.
Lemma start_sound : sound start.
Proof. split; cbn; [now left|discriminate|discriminate]. Qed.
Lemma run_sound : forall es w, sound w -> sound (run w es).
Proof. induction es as [|e es IH]; intros w S'; cbn [DicCrystal_Model.run fold_left]; [exact S'|]. apply IH, step_sound, S'. Qed.
(** After DIC grains are generated. *)
Lemma generated m w w1 a : sound w -> step w (DGenerate m) = (w1, Ok a) ->
  exists lab l gl, shown w1 lab l gl /\ linked_list m lab l = Ok gl /\ sound w1 /\ settled (fst (e_labels w)) lab l /\ heap w1 = heap (fst (e_labels w)).
Proof.
  intros S' E. assert (S1 : sound w1) by (pose proof (step_sound w (DGenerate m) S') as X; rewrite E in X; exact X).
  cbn [DicCrystal_Model.step] in E. destruct (match m with Flood [] => true | _ => false end) eqn:T.
  { destruct m as [|[|]]; try discriminate. }
  assert (D : d_find true m w = let '(w, a) := e_labels w in
      match a, e_list w with
      | Err x, _ => (w, Err x)
      | Ok (Labels lab), Some l =>
          match linked_list m lab l with
          | Err x => (w, Err x)
          | Ok gl => (World (heap w) (e_store w) (e_list w) (true || d_store w) (Some gl), Ok Nothing)
          end
      | Ok _, _ => (w, Err TypeError)
      end) by (destruct m as [|[|]]; try discriminate; reflexivity).
  rewrite D in E. destruct (e_labels_answer w) as (w' & [(lab & L)|(x & L)]); rewrite L in E; [|discriminate].
  destruct (e_labels_settled w lab (so_store _ S') ltac:(now rewrite L)) as (l & ST). rewrite L in ST. cbn [fst] in ST.
  rewrite (s_list _ _ _ ST) in E. destruct (linked_list m lab l) as [gl|] eqn:K; [|discriminate]. injection E as E1 E2. subst w1.
  exists lab, l, gl. rewrite L. cbn [fst orb heap]. split; [|auto].
  destruct ST as [A B]. split; [split; cbn [e_store e_list]; congruence|reflexivity|reflexivity].
Qed.
End Proofs.
