(** Lemmas on the progress decorator. *)
From Coq Require Import String Ascii Reals.
From Coq Require Import List ZArith Bool Lia Lra.
Import ListNotations.
From Verif Require Import Py Text_Model Progress_Model Progress_Spec.
Open Scope Z_scope.

Section Run.
Context {S A : Type} (message time : txt) (g : S -> outcome S A).

Definition final_after (final : bool) (ms : list yielded) : bool :=
  fold_left (fun _ y => match y with YText _ => false | _ => true end) ms final.

Lemma loop_run : forall s ss ys r, by_hand g s ss ys r -> Forall usable ys ->
  forall p final, exists ms, shown p ys ms /\
  forall fuel, (List.length ss <= fuel)%nat -> exists es,
    progress_loop message time g fuel s p final = Some (es, python_end r) /\ resumed es = ss /\
    printed es = flat_map (message_of message) ms ++
      match r with Ok _ => if final_after final ms then [finished_text message time] else [] | Err _ => [] end.
Proof.
  intros s ss ys r H. induction H as [s a E|s x E|s y s' ss ys r E H IH]; intros U p final.
  - exists []. split; [constructor|]. intros [|fuel] F; [cbn [List.length] in F; lia|]. cbn [progress_loop]. unfold resume. rewrite E.
    eexists. split; [reflexivity|]. cbn. destruct final; split; reflexivity.
  - exists []. split; [constructor|]. intros [|fuel] F; [cbn [List.length] in F; lia|]. cbn [progress_loop]. unfold resume. rewrite E.
    destruct x; (eexists; split; [reflexivity|]; split; reflexivity).
  - inversion U as [|? ? Uy Uys]; subst. destruct y as [t|x| |]; [| | |easy].
    + destruct (IH Uys p false) as (ms & M & R). exists (YText t :: ms). split; [now constructor|]. intros [|fuel] F; [cbn [List.length] in F; lia|].
      cbn [List.length] in F. destruct (R fuel ltac:(lia)) as (es & L & RS & PR). cbn [progress_loop]. unfold resume. rewrite E, L.
      eexists. split; [reflexivity|]. split; [cbn; now rewrite <- RS|]. cbn [printed flat_map app message_of]. unfold printed in PR. rewrite PR. reflexivity.
    + destruct (Rlt_dec (1 / 100) (x - p)) as [Q|Q].
      * destruct (IH Uys x true) as (ms & M & R). exists (YNum x :: ms). split; [constructor; [lra|exact M]|]. intros [|fuel] F; [cbn [List.length] in F; lia|].
        cbn [List.length] in F. destruct (R fuel ltac:(lia)) as (es & L & RS & PR). cbn [progress_loop]. unfold resume. rewrite E, L.
        destruct (Rlt_dec _ _) as [_|N]; [|easy]. eexists. split; [reflexivity|]. split; [cbn; now rewrite <- RS|].
        cbn [printed flat_map app message_of]. unfold printed in PR. rewrite PR. reflexivity.
      * destruct (IH Uys p final) as (ms & M & R). exists ms. split; [apply shown_less; [lra|exact M]|]. intros [|fuel] F; [cbn [List.length] in F; lia|].
        cbn [List.length] in F. destruct (R fuel ltac:(lia)) as (es & L & RS & PR). cbn [progress_loop]. unfold resume. rewrite E, L.
        destruct (Rlt_dec _ _) as [N|_]; [easy|]. eexists. split; [reflexivity|]. split; [cbn; now rewrite <- RS|].
        cbn [printed flat_map app]. unfold printed in PR. rewrite PR. reflexivity.
    + destruct (IH Uys p final) as (ms & M & R). exists ms. split; [apply shown_nan; exact M|]. intros [|fuel] F; [cbn [List.length] in F; lia|].
      cbn [List.length] in F. destruct (R fuel ltac:(lia)) as (es & L & RS & PR). cbn [progress_loop]. unfold resume. rewrite E, L.
      eexists. split; [reflexivity|]. split; [cbn; now rewrite <- RS|]. cbn [printed flat_map app]. unfold printed in PR. rewrite PR. reflexivity.
Qed.

(** A result means that the generator ended, or handed out something unusable. *)
Lemma loop_inv : forall fuel s p final es r, progress_loop message time g fuel s p final = Some (es, r) ->
  (exists ss ys r0, by_hand g s ss ys r0 /\ Forall usable ys /\ r = python_end r0) \/ r = Err TypeError.
Proof.
  induction fuel as [|fuel IH]; intros s p final es r H; [discriminate|]. cbn [progress_loop] in H. unfold resume in H.
  destruct (g s) as [y s'|a|x] eqn:E.
  - assert (G : forall p' f' es', progress_loop message time g fuel s' p' f' = Some (es', r) -> usable y ->
      (exists ss ys r0, by_hand g s ss ys r0 /\ Forall usable ys /\ r = python_end r0) \/ r = Err TypeError).
    { intros p' f' es' L U. destruct (IH _ _ _ _ _ L) as [(ss & ys & r0 & B & F & R)|T]; [left|now right].
      exists (s :: ss), (y :: ys), r0. split; [now apply hand_yield with s'|]. split; [now constructor|exact R]. }
    destruct y as [t|x| |].
    + destruct (progress_loop _ _ _ _ s' _ _) as [[es' r']|] eqn:L; [|discriminate]. injection H as <- <-. eapply G; [exact L|exact I].
    + destruct (Rlt_dec _ _); destruct (progress_loop _ _ _ _ s' _ _) as [[es' r']|] eqn:L; try discriminate; injection H as <- <-; (eapply G; [exact L|exact I]).
    + destruct (progress_loop _ _ _ _ s' _ _) as [[es' r']|] eqn:L; [|discriminate]. injection H as <- <-. eapply G; [exact L|exact I].
    + injection H as <- <-. now right.
  - injection H as <- <-. left. exists [s], [], (Ok a). split; [now constructor|]. split; [constructor|reflexivity].
  - left. exists [s], [], (Err x). split; [now constructor|]. split; [constructor|]. destruct x; injection H as <- <-; reflexivity.
Qed.
End Run.

Lemma shown_usable_total : forall ys p, exists ms, shown p ys ms \/ ~ Forall usable ys.
Proof.
  induction ys as [|y ys IH]; intros p; [exists []; left; constructor|]. destruct y as [t|x| |].
  - destruct (IH p) as (ms & [M|N]); [exists (YText t :: ms); left; now constructor|exists []; right]. intros F. inversion F. easy.
  - destruct (Rlt_dec (p + 1 / 100) x) as [Q|Q].
    + destruct (IH x) as (ms & [M|N]); [exists (YNum x :: ms); left; now constructor|exists []; right]. intros F. inversion F. easy.
    + destruct (IH p) as (ms & [M|N]); [exists ms; left; apply shown_less; [lra|easy]|exists []; right]. intros F. inversion F. easy.
  - destruct (IH p) as (ms & [M|N]); [exists ms; left; now constructor|exists []; right]. intros F. inversion F. easy.
  - exists []. right. intros F. inversion F. easy.
Qed.
(** The progress shown rises by more than a hundredth each time. *)
Lemma shown_rises : forall p ys ms, shown p ys ms -> forall q, (forall x, In (YNum x) ys -> (x <= q)%R) -> (p <= q)%R ->
  (p + IZR (Z.of_nat (List.length (percents ms))) / 100 <= q)%R /\ (percents ms = [] \/ p + IZR (Z.of_nat (List.length (percents ms))) / 100 < q)%R.
Proof.
  intros p ys ms H. induction H as [p|p t ys ms H IH|p x ys ms Q H IH|p x ys ms Q H IH|p ys ms H IH]; intros q B P.
  - cbn. split; [lra|now left].
  - apply IH; [|exact P]. intros x X. apply B. now right.
  - destruct (IH q) as (A & C); [intros z Z; apply B; now right|apply B; now left|].
    change (percents (YNum x :: ms)) with (x :: percents ms). cbn [List.length]. rewrite Nat2Z.inj_succ, <- Z.add_1_r, plus_IZR.
    split; [lra|right; lra].
  - apply IH; [|exact P]. intros z Z. apply B. now right.
  - apply IH; [|exact P]. intros z Z. apply B. now right.
Qed.
Lemma shown_last : forall p ys ms, shown p ys ms -> forall x ys0, ys = ys0 ++ [YNum x] -> (x <= last (p :: percents ms) p + 1 / 100)%R.
Proof.
  assert (LD : forall (l : list R) a d e, last (a :: l) d = last (a :: l) e).
  { induction l as [|b l IH]; intros a d e; [reflexivity|]. change (last (b :: l) d = last (b :: l) e). apply IH. }
  intros p ys ms H. induction H as [p|p t ys ms H IH|p x ys ms Q H IH|p x ys ms Q H IH|p ys ms H IH]; intros z ys0 E.
  - destruct ys0; discriminate.
  - destruct ys0 as [|y ys0]; [discriminate|]. injection E as <- E. apply (IH z ys0 E).
  - change (percents (YNum x :: ms)) with (x :: percents ms).
    destruct ys0 as [|y ys0].
    + injection E as -> ->. inversion H. subst. cbn. lra.
    + injection E as <- E. change (last (p :: x :: percents ms) p) with (last (x :: percents ms) p). rewrite (LD _ _ p x). apply (IH z ys0 E).
  - destruct ys0 as [|y ys0].
    + injection E as E1 E2; subst. inversion H. subst. cbn. lra.
    + injection E as _ E. apply (IH z ys0 E).
  - destruct ys0 as [|y ys0]; [discriminate|]. injection E as <- E. apply (IH z ys0 E).
Qed.
