(** C69: the progress decorator. *)
From Coq Require Import String Ascii Reals.
From Coq Require Import List ZArith Bool Lia Lra.
Import ListNotations.
From Verif Require Import Py Crystal_Model CrystalMat_Proofs Text_Model InspHist_Proofs Progress_Model Progress_Spec Progress_Proofs.
Open Scope Z_scope.

(** A call of a decorated generator function that ends by itself ends the same way under
    the decorator: the same value is returned or the same exception raised, and the
    generator is resumed once in each of its states, in order.  The messages are the
    opening one, one for each text and each progress shown, and the closing one if the
    function returned and the last message was not a text. *)
Theorem C69_transparent : forall {S A} message time (g : S -> outcome S A) s ss ys r,
  by_hand g s ss ys r -> Forall usable ys ->
  exists ms, shown 0 ys ms /\ forall fuel, (List.length ss <= fuel)%nat -> exists es,
    with_progress message time g fuel (Suspended s) = Some (es, python_end r) /\
    resumed es = ss /\
    exists close, printed es = start_text message :: flat_map (message_of message) ms ++ close /\
      (close = [finished_text message time] <-> (exists a, r = Ok a) /\ (ms = [] \/ exists ms0 x, ms = ms0 ++ [YNum x])) /\
      (close <> [finished_text message time] -> close = []).
Proof.
  intros S A message time g s ss ys r H U. destruct (loop_run message time g s ss ys r H U 0%R true) as (ms & M & R).
  exists ms. split; [exact M|]. intros fuel F. destruct (R fuel F) as (es & L & RS & PR). eexists. cbn [with_progress]. rewrite L. split; [reflexivity|].
  split; [exact RS|]. eexists. split; [cbn [printed flat_map app]; unfold printed in PR; rewrite PR; reflexivity|].
  assert (FA : final_after true ms = true <-> ms = [] \/ exists ms0 x, ms = ms0 ++ [YNum x]).
  { clear - M. destruct ms as [|m0 ms1] using rev_ind; [split; [now left|reflexivity]|].  unfold final_after. rewrite fold_left_app. cbn [fold_left].
    assert (K : forall p ys ms y, shown p ys ms -> In y ms -> match y with YText _ | YNum _ => True | _ => False end).
    { clear. intros p ys ms y H. induction H as [p|p t ys ms H IH|p x ys ms Q H IH|p x ys ms Q H IH|p ys ms H IH]; cbn [In]; intros J; try easy; try exact (IH J); (destruct J as [<-|J]; [exact I|exact (IH J)]). }
    specialize (K _ _ _ m0 M ltac:(apply in_or_app; right; now left)). destruct m0 as [t|x| |]; try easy; split; try discriminate.
    - intros [E|(ms0 & x & E)]; [now destruct ms1|]. apply app_inj_tail in E as (_ & E). discriminate.
    - intros _. right. now exists ms1, x.
    - reflexivity. }
  destruct r as [a|x].
  - destruct (final_after true ms) eqn:Q.
    + split; [|intros N; now elim N]. split; [|reflexivity]. intros _. split; [now exists a|]. now apply FA.
    + split; [|reflexivity]. split; [discriminate|]. intros (_ & K). apply FA in K. congruence.
  - split; [|reflexivity]. split; [discriminate|]. intros ((a & E) & _). discriminate.
Qed.
Print Assumptions C69_transparent.

(** The texts: the percentage shown is the whole number nearest to a hundred times the
    progress. *)
Theorem C69_texts : forall message time x,
  start_text message = CR :: lit "Starting " ++ message ++ lit ".." /\
  (exists n, (Rabs (100 * x - IZR n) <= 1 / 2)%R /\ percent_text message x = CR :: lit "Starting " ++ message ++ lit ".. " ++ fmt_int n ++ lit " %") /\
  (forall n, percent_text message (IZR n / 100) = CR :: lit "Starting " ++ message ++ lit ".. " ++ fmt_int n ++ lit " %") /\
  finished_text message time = CR :: lit "Finished " ++ message ++ lit " (" ++ time ++ lit ") " ++ [LF].
Proof.
  intros message time x. assert (T : forall y, percent_text message y = CR :: lit "Starting " ++ message ++ lit ".. " ++ fmt_int (rint (y * 100)) ++ lit " %").
  { intros y. unfold percent_text, start_text. cbn [app]. f_equal. change (lit ".. ") with (lit ".." ++ lit " "). now rewrite <- !app_assoc. }
  split; [reflexivity|]. split; [|split; [|reflexivity]].
  - exists (rint (x * 100)). split; [|apply T]. rewrite Rmult_comm, Rabs_minus_sym. apply InspHist_Proofs.rint_err.
  - intros n. rewrite T. replace (IZR n / 100 * 100)%R with (IZR n) by field. now rewrite rint_int.
Qed.
Print Assumptions C69_texts.

(** Conversely a call that ends under the decorator, other than with TypeError, is one
    that ends by itself. *)
Theorem C69_ends_only_if : forall {S A} message time (g : S -> outcome S A) fuel s es r,
  with_progress message time g fuel (Suspended s) = Some (es, r) -> r <> Err TypeError ->
  exists ss ys r0, by_hand g s ss ys r0 /\ Forall usable ys /\ r = python_end r0.
Proof.
  intros S A message time g fuel s es r H N. cbn [with_progress] in H.
  destruct (progress_loop _ _ _ _ _ _ _) as [[es' r']|] eqn:L; [|discriminate]. injection H as <- <-.
  destruct (loop_inv message time g fuel s 0%R true es' r' L) as [K|K]; [exact K|contradiction].
Qed.
Print Assumptions C69_ends_only_if.

(** Progress up to [q] gives fewer than 100 q messages, each more than a hundredth above
    the one before; so at most 99 for progress up to 1.  The last progress handed out is
    at most a hundredth above the last one shown. *)
Theorem C69_messages : forall ys ms, shown 0 ys ms ->
  (forall q, (0 <= q)%R -> (forall x, In (YNum x) ys -> (x <= q)%R) ->
     percents ms = [] \/ (IZR (Z.of_nat (List.length (percents ms))) < 100 * q)%R) /\
  ((forall x, In (YNum x) ys -> (x <= 1)%R) -> (List.length (percents ms) <= 99)%nat) /\
  (forall x ys0, ys = ys0 ++ [YNum x] -> (x <= last (0%R :: percents ms) 0%R + 1 / 100)%R).
Proof.
  intros ys ms H. assert (G : forall q, (0 <= q)%R -> (forall x, In (YNum x) ys -> (x <= q)%R) ->
     percents ms = [] \/ (IZR (Z.of_nat (List.length (percents ms))) < 100 * q)%R).
  { intros q Q B. destruct (shown_rises _ _ _ H q B Q) as (_ & [E|E]); [now left|right; lra]. }
  split; [exact G|]. split.
  - intros B. destruct (G 1%R ltac:(lra) B) as [->|E]; [cbn; lia|]. rewrite Rmult_1_r in E. apply lt_IZR in E. lia.
  - apply (shown_last _ _ _ H).
Qed.
Print Assumptions C69_messages.

(** The exceptions to transparency.  A function without yield fails with TypeError
    although it ran; so does one that hands out None; StopIteration raised in the body
    comes out as RuntimeError, as from any generator. *)
Theorem C69_other : forall {S A} message time (g : S -> outcome S A) fuel,
  with_progress message time g fuel NoGenerator = Some ([Out (start_text message)], Err TypeError) /\
  (forall x, with_progress message time g fuel (CallRaised x) = Some ([Out (start_text message)], Err x)) /\
  (forall s s', g s = Yield YOther s' -> (0 < fuel)%nat -> exists es, with_progress message time g fuel (Suspended s) = Some (es, Err TypeError)).
Proof.
  intros S A message time g fuel. split; [reflexivity|]. split; [reflexivity|]. intros s s' E F. destruct fuel as [|n]; [lia|].
  cbn [with_progress progress_loop]. unfold resume. rewrite E. eexists. reflexivity.
Qed.
Print Assumptions C69_other.

(** A loop over five parts, as the functions of the package have. *)
Definition five (s : nat) : outcome nat Z :=
  if (s <? 5)%nat then Yield (YNum (IZR (Z.of_nat s) / 5)) (S s) else Return 7.
Example C69_met : by_hand five 0%nat [0; 1; 2; 3; 4; 5]%nat (map (fun i => YNum (IZR i / 5)) [0; 1; 2; 3; 4]) (Ok 7) /\
  forall message time, exists es, with_progress message time five 6 (Suspended 0%nat) = Some (es, Ok 7) /\
    List.length (printed es) = 6%nat.
Proof.
  assert (B : by_hand five 0%nat [0; 1; 2; 3; 4; 5]%nat (map (fun i => YNum (IZR i / 5)) [0; 1; 2; 3; 4]) (Ok 7)).
  { cbn [map]. do 5 (eapply hand_yield; [reflexivity|]). now apply hand_return. }
  split; [exact B|]. intros message time. destruct (C69_transparent message time five _ _ _ _ B) as (ms & M & R); [repeat constructor|].
  destruct (R 6%nat ltac:(cbn; lia)) as (es & E & _ & close & P & C & _). exists es. split; [exact E|]. rewrite P.
  cbn [map] in M.
  assert (K : ms = map (fun i => YNum (IZR i / 5)) [1; 2; 3; 4]).
  { cbn [map]. inversion M; subst; [lra|]. clear M.
    repeat match goal with H : shown _ (YNum _ :: _) _ |- _ => inversion H; subst; clear H; [|lra] end.
    match goal with H : shown _ [] _ |- _ => inversion H end. reflexivity. }
  subst ms. rewrite (proj2 C); [cbn; reflexivity|]. split; [now exists 7|]. right. exists (map (fun i => YNum (IZR i / 5)) [1; 2; 3]), (IZR 4 / 5)%R. reflexivity.
Qed.
