(** The grains found depend on the phases of the pixels of the map only. *)
From Coq Require Import List ZArith Bool Lia.
Import ListNotations.
From Verif Require Import Py Grid Grid_Lemmas Flood_Model.
Open Scope Z_scope.

Inductive rel {A B} (r : A -> B -> Prop) : res A -> res B -> Prop :=
| rel_ok a b : r a b -> rel r (Ok a) (Ok b)
| rel_err e : rel r (Err e) (Err e).
Lemma rel_bind {A B A' B'} (r : A -> B -> Prop) (r' : A' -> B' -> Prop) x y f g :
  rel r x y -> (forall a b, r a b -> rel r' (f a) (g b)) -> rel r' (bind x f) (bind y g).
Proof. intros [a b Hab|e] F; cbn [bind]; [auto|constructor]. Qed.
Lemma rel_refl {A} (x : res A) : rel eq x x.
Proof. destruct x; now constructor. Qed.

Section Ext.
Variables W H : Z.
Hypothesis W0 : 0 <= W.
Definition agree (a b : pix -> bool) : Prop := forall p, inside W H p -> a p = b p.
Definition fr (s t : fstate) : Prop :=
  f_grains s = f_grains t /\ f_edge s = f_edge t /\ f_pts s = f_pts t /\ agree (f_left s) (f_left t) /\ Forall (inside W H) (f_pts s).
Definition gr (s t : gstate) : Prop :=
  g_grains s = g_grains t /\ agree (g_left s) (g_left t) /\ g_cap s = g_cap t /\ g_index s = g_index t /\
  g_list s = g_list t /\ g_next s = g_next t /\ Forall (Forall (inside W H)) (g_list s).

Lemma agree_upd a b m v : agree a b -> agree (upd a m v) (upd b m v).
Proof. intros E p I. unfold upd. destruct (pix_eqb m p); auto. Qed.
Lemma aget_in {A} (f : pix -> A) p v : aget W H f p = Ok v -> inside W H p.
Proof. unfold aget, insideb, inside. destruct (_ && _ && _ && _) eqn:E; [|discriminate]. intros _. rewrite !andb_true_iff in E. lia. Qed.

Lemma add_rel cap i s t m edge : inside W H m -> fr s t -> rel fr (add_point cap i s m edge) (add_point cap i t m edge).
Proof.
  intros I (A & B & C & D & E). unfold add_point. rewrite <- C. destruct (cap <=? length (f_pts s))%nat; constructor.
  unfold fr; cbn [f_grains f_edge f_pts f_left]. rewrite A. rewrite C. repeat split; auto using agree_upd.
  apply Forall_app. split; [congruence|auto].
Qed.
Lemma move_rel bx by_ cap i p s t m : fr s t -> rel fr (ff_move W H bx by_ cap i p s m) (ff_move W H bx by_ cap i p t m).
Proof.
  intros F. destruct p as [x y], m as [a b]. unfold ff_move. destruct F as (A & B & C & D & E). rewrite <- A, <- B.
  destruct (aget W H (f_grains s) (a, b)) as [v|] eqn:V; cbn [bind]; [|constructor].
  apply aget_in in V. destruct (v >? 0); [constructor; unfold fr; auto|].
  eapply rel_bind; [apply rel_refl|]. intros w ? <-. destruct (negb w); [|constructor; unfold fr; auto].
  apply add_rel; auto. unfold fr; auto.
Qed.
Lemma moves_rel bx by_ cap i p l : forall s t, fr s t ->
  rel fr (for_each (ff_move W H bx by_ cap i p) l s) (for_each (ff_move W H bx by_ cap i p) l t).
Proof.
  induction l as [|m l IH]; intros s t F; cbn [for_each]; [now constructor|].
  eapply rel_bind; [now apply move_rel|]. intros; now apply IH.
Qed.
Lemma loop_rel bx by_ cap i fuel : forall s t, fr s t -> rel fr (ff_loop fuel W H bx by_ cap i s) (ff_loop fuel W H bx by_ cap i t).
Proof.
  induction fuel as [|n IH]; intros s t F; cbn [ff_loop]; pose proof F as (A & B & C & D & E); rewrite <- B;
    (destruct (f_edge s) as [|p rest]; [now constructor|]); [constructor|].
  eapply rel_bind; [apply moves_rel; unfold fr; cbn [f_grains f_edge f_pts f_left]; repeat split; auto|]. intros; now apply IH.
Qed.
Definition out_rel (a b : (pix -> Z) * (pix -> bool) * list pix) : Prop :=
  fst (fst a) = fst (fst b) /\ agree (snd (fst a)) (snd (fst b)) /\ snd a = snd b /\ Forall (inside W H) (snd a).
Lemma fill_rel bx by_ cap seed i g a b : agree a b ->
  rel out_rel (flood_fill W H bx by_ cap seed i g a) (flood_fill W H bx by_ cap seed i g b).
Proof.
  intros AB. unfold flood_fill, ff_init.
  eapply (rel_bind fr).
  - destruct (aget W H g seed) eqn:V; cbn [bind]; [|constructor]. apply aget_in in V.
    apply add_rel; auto. unfold fr; cbn; repeat split; auto.
  - intros s t F. eapply (rel_bind fr); [now apply loop_rel|]. intros s' t' (A & B & C & D & E). constructor. unfold out_rel. auto.
Qed.
Lemma left_eq a b start : 0 <= start -> agree a b -> find_left W H a start = find_left W H b start.
Proof.
  intros S0 AB. unfold find_left. f_equal. apply map_ext_in. intros i I. apply zseq_In in I. apply AB.
  destruct (Z.eq_dec W 0) as [->|]; [lia|]. apply unflat_inside; lia.
Qed.
Lemma pass_rel bx by_ k s t : gr s t ->
  rel (fun a b => gr (fst a) (fst b) /\ snd a = snd b) (grain_pass (flood_fill W H bx by_) W H k s) (grain_pass (flood_fill W H bx by_) W H k t).
Proof.
  intros (A & B & C & D & E & F & L). unfold grain_pass. rewrite <- A, <- C, <- D, <- E, <- F.
  destruct ((g_next s <? 0) || (W * H <=? g_next s)) eqn:N; [constructor|]. apply orb_false_iff in N as [N1 N2].
  eapply rel_bind; [apply fill_rel; exact B|]. intros [[g1 l1] p1] [[g2 l2] p2] (U & V & X & Y). cbn [fst snd] in *. subst g2 p2.
  assert (FL : find_left W H l1 (g_next s + 1) = find_left W H l2 (g_next s + 1)) by (apply left_eq; [lia|exact V]).
  rewrite <- FL.
  destruct (Z.of_nat (length p1) <? k); constructor; unfold gr; cbn [fst snd g_grains g_left g_cap g_index g_list g_next]; repeat split; auto.
  apply Forall_app. auto.
Qed.
Lemma gloop_rel bx by_ k fuel : forall s t, gr s t ->
  rel gr (grain_loop (flood_fill W H bx by_) fuel W H k s) (grain_loop (flood_fill W H bx by_) fuel W H k t).
Proof.
  induction fuel as [|n IH]; intros s t F; cbn [grain_loop]; [constructor|].
  eapply rel_bind; [now apply pass_rel|]. intros [s' f] [t' f'] [F' E]. cbn [fst snd] in *. subst f'.
  destruct (0 <=? f); [now apply IH|now constructor].
Qed.
Lemma find_grains_ext bx by_ ph ph' n k : (forall p, inside W H p -> ph p = ph' p) ->
  find_grains W H bx by_ ph n k = find_grains W H bx by_ ph' n k.
Proof.
  intros E. unfold find_grains. set (r := fun p => negb (ph p =? 0)). set (r' := fun p => negb (ph' p =? 0)).
  assert (AB : agree r r') by (intros p I; unfold r, r'; now rewrite E).
  rewrite <- (left_eq r r' 0) by (auto; lia).
  set (s0 := mkG _ r _ _ _ _). set (t0 := mkG _ r' _ _ _ _).
  assert (F : gr s0 t0) by (unfold gr, s0, t0; cbn; repeat split; auto).
  destruct (gloop_rel bx by_ k (S (Z.to_nat (W * H))) s0 t0 F) as [s t (A & B & C & D & L & N & FI)|e]; cbn [bind]; [|reflexivity].
  rewrite <- A, <- L. destruct (g_list s) as [|x l] eqn:GL; [reflexivity|]. f_equal. f_equal. apply map_ext_in. intros pts I.
  rewrite Forall_forall in FI. specialize (FI pts I). rewrite Forall_forall in FI.
  unfold grain_phase. replace (map ph' pts) with (map ph pts); [reflexivity|]. apply map_ext_in. auto.
Qed.
End Ext.
