(** Proofs about flood_fill and the grain finding loop. *)
From Coq Require Import List ZArith Bool Lia Relations Permutation.
Import ListNotations.
From Verif Require Import Py Grid Grid_Lemmas Flood_Model Flood_Spec.
From Coq Require Import ZifyBool ZifyNat.
Open Scope Z_scope.

Ltac inv H := inversion H; subst; clear H.

(** ** The moves are exactly the neighbours inside the map *)
Lemma moves_In W H p m : 2 <= W -> 2 <= H -> inside W H p ->
  (In m (moves W H p) <-> inside W H m /\ neighbours p m).
Proof.
  intros HW HH. destruct p as [x y], m as [s t].
  unfold inside, neighbours; cbn [fst snd]. intros Hp.
  assert (forall a b c d : Z, (a, b) = (c, d) <-> a = c /\ b = d) as Hpair.
  { intros; split; [intros E; inversion E; auto | intros [-> ->]; reflexivity]. }
  unfold moves.
  change (py_pop 1 [(x + 1, y); (x - 1, y); (x, y + 1); (x, y - 1)])
    with [(x + 1, y); (x, y + 1); (x, y - 1)].
  change (py_pop 0 [(x + 1, y); (x - 1, y); (x, y + 1); (x, y - 1)])
    with [(x - 1, y); (x, y + 1); (x, y - 1)].
  destruct (Z.leb_spec x 0), (Z.leb_spec y 0);
    destruct (Z.gtb_spec x (W - 2)), (Z.gtb_spec y (H - 2));
    
    repeat match goal with
      | |- context [py_pop ?i ?l] =>
        let l' := eval vm_compute in (py_pop i (map (fun n => n) (seq 0 (length l)))) in
        match l with
        | [?a; ?b; ?c] => match l' with
          | [0%nat; 1%nat] => change (py_pop i l) with [a; b]
          | [0%nat; 2%nat] => change (py_pop i l) with [a; c] end
        | [?a; ?b; ?c; ?d] => match l' with
          | [0%nat; 1%nat; 2%nat] => change (py_pop i l) with [a; b; c]
          | [0%nat; 1%nat; 3%nat] => change (py_pop i l) with [a; b; d] end
        end
      end; cbn [In]; rewrite ?Hpair; lia.
Qed.

(** ** One flood fill *)
Section Fill.
  Variables (W H : Z) (bx by_ : pix -> bool) (cap : nat).
  Variables (seed : pix) (index : Z) (g0 : pix -> Z) (l0 : pix -> bool).
  Hypothesis HW : 2 <= W.
  Hypothesis HH : 2 <= H.
  Hypothesis Hseed : inside W H seed.
  Hypothesis Hseedfree : g0 seed <= 0.
  Hypothesis Hindex : 0 < index.

  (** Steps between pixels not yet labelled positively. *)
  Definition fstep (p q : pix) : Prop :=
    open_step W H bx by_ p q /\ g0 q <= 0.
  Definition freach : pix -> Prop := clos_refl_trans_n1 pix fstep seed.

  Hypothesis Hcap : forall l, NoDup l -> (forall p, In p l -> freach p) ->
    (length l <= cap)%nat.

  Lemma freach_inside p : freach p -> inside W H p /\ g0 p <= 0.
  Proof.
    intros Hr; inversion Hr as [|q r [Hs Hf] Hr2]; subst; [split; assumption|].
    split; [|assumption]. inversion Hs; subst; assumption.
  Qed.

  Lemma open_step_spec p m : inside W H p -> inside W H m -> neighbours p m ->
    (open_step W H bx by_ p m <->
     (let (x, y) := p in let (s, t) := m in
      if t =? y then if s >? x then bx (x, y) = false else bx (s, t) = false
      else if t >? y then by_ (x, y) = false else by_ (s, t) = false)).
  Proof.
    destruct p as [x y], m as [s t]; unfold neighbours; cbn [fst snd].
    intros Hp Hm Hn. split.
    - intros Hs. inversion Hs; subst; clear Hs.
      + rewrite Z.eqb_refl. destruct (Z.gtb_spec (x + 1) x); [assumption | lia].
      + rewrite Z.eqb_refl. destruct (Z.gtb_spec s (s + 1)); [lia | assumption].
      + destruct (Z.eqb_spec (y + 1) y); [lia|].
        destruct (Z.gtb_spec (y + 1) y); [assumption | lia].
      + destruct (Z.eqb_spec t (t + 1)); [lia|].
        destruct (Z.gtb_spec t (t + 1)); [lia | assumption].
    - destruct (Z.eqb_spec t y); subst.
      + destruct (Z.gtb_spec s x).
        * replace s with (x + 1) in * by lia. intros; constructor; assumption.
        * replace x with (s + 1) in * by lia. intros; constructor; assumption.
      + destruct (Z.gtb_spec t y).
        * replace s with x in * by lia. replace t with (y + 1) in * by lia.
          intros; constructor; assumption.
        * replace s with x in * by lia. replace y with (t + 1) in * by lia.
          intros; constructor; assumption.
  Qed.

  (** Invariant while the moves from [p] are being examined: [pend] are pixels
      whose outgoing steps need not be covered yet. *)
  Record FInv (pend : pix -> Prop) (st : fstate) : Prop := {
    fi_nodup : NoDup (f_pts st);
    fi_head : exists r, f_pts st = seed :: r;
    fi_reach : forall p, In p (f_pts st) -> freach p;
    fi_g : forall p, f_grains st p = if pix_in p (f_pts st) then index else g0 p;
    fi_l : forall p, f_left st p = if pix_in p (f_pts st) then false else l0 p;
    fi_edge : forall p, In p (f_edge st) -> In p (f_pts st);
    fi_closed : forall p q, In p (f_pts st) -> ~ In p (f_edge st) -> ~ pend p ->
      fstep p q -> In q (f_pts st)
  }.

  Lemma freach_step p q : freach p -> fstep p q -> freach q.
  Proof. intros Hp Hs. econstructor; eassumption. Qed.

  Lemma pix_in_snoc p m l : pix_in p (l ++ [m]) = pix_in p l || pix_eqb p m.
  Proof. unfold pix_in. rewrite existsb_app; cbn [existsb]. now rewrite orb_false_r. Qed.

  Lemma pix_eqb_sym p q : pix_eqb p q = pix_eqb q p.
  Proof. destruct (pix_eqb_spec p q), (pix_eqb_spec q p); congruence. Qed.

  Lemma ff_move_spec pend p st m :
    FInv pend st -> In p (f_pts st) -> pend p ->
    inside W H m -> neighbours p m ->
    exists st', ff_move W H bx by_ cap index p st m = Ok st' /\
      FInv pend st' /\
      (forall q, In q (f_pts st) -> In q (f_pts st')) /\
      (fstep p m -> In m (f_pts st')) /\
      (length (f_pts st') - length (f_edge st') =
       length (f_pts st) - length (f_edge st))%nat /\
      (length (f_pts st') + length (f_edge st) =
       length (f_pts st) + length (f_edge st'))%nat.
  Proof.
    intros Inv Hp Hpend Hm Hn.
    assert (inside W H p) as Hpi by (apply freach_inside; eapply fi_reach; eauto).
    destruct p as [x y], m as [s t].
    unfold ff_move. rewrite (aget_inside W H (f_grains st)) by assumption. cbn [bind].
    rewrite (fi_g _ _ Inv (s, t)).
    destruct (pix_in_spec (s, t) (f_pts st)) as [Hin|Hnin].
    { (* already labelled in this fill *)
      destruct (Z.gtb_spec index 0); [|lia].
      exists st. repeat split; auto; apply Inv. }
    destruct (Z.gtb_spec (g0 (s, t)) 0) as [Hpos|Hneg].
    { exists st. split; [reflexivity|]. split; [assumption|].
      split; [auto|]. split; [|lia]. intros [_ Hf]; lia. }
    set (wall := if t =? y then if s >? x then aget W H bx (x, y) else aget W H bx (s, t)
                 else if t >? y then aget W H by_ (x, y) else aget W H by_ (s, t)).
    assert (exists b, wall = Ok b /\ (b = false <-> open_step W H bx by_ (x, y) (s, t)))
      as [b [Eb Hb]].
    { pose proof (open_step_spec (x, y) (s, t) Hpi Hm Hn) as Hos. cbn in Hos.
      unfold wall.
      rewrite !(aget_inside W H _ (x, y)), !(aget_inside W H _ (s, t)) by assumption.
      destruct (t =? y); [destruct (s >? x) | destruct (t >? y)];
        eexists; (split; [reflexivity | tauto]). }
    rewrite Eb. cbn [bind].
    destruct b; cbn [negb].
    { exists st. split; [reflexivity|]. split; [assumption|].
      split; [auto|]. split; [|lia]. intros [Hs _].
      apply Hb in Hs; discriminate. }
    assert (fstep (x, y) (s, t)) as Hst by (split; [apply Hb; reflexivity | lia]).
    assert (freach (s, t)) as Hr by (eapply freach_step; [eapply fi_reach|]; eauto).
    unfold add_point.
    destruct (Nat.leb_spec cap (length (f_pts st))) as [Hc|Hc].
    { exfalso.
      assert (length (f_pts st ++ [(s, t)]) <= cap)%nat as Hle.
      { apply Hcap.
        - apply (Permutation_NoDup (Permutation_cons_append (f_pts st) (s, t))).
          constructor; [assumption | apply Inv].
        - intros q Hq. apply in_app_or in Hq. destruct Hq as [Hq|[<-|[]]]; auto.
          eapply fi_reach; eauto. }
      rewrite app_length in Hle; cbn in Hle. lia. }
    eexists; split; [reflexivity|]. cbn [f_pts f_edge].
    split.
    { split; cbn [f_pts f_edge f_grains f_left].
      - apply (Permutation_NoDup (Permutation_cons_append (f_pts st) (s, t))).
        constructor; [assumption | apply Inv].
      - destruct (fi_head _ _ Inv) as [r Er]. rewrite Er. eexists; reflexivity.
      - intros q Hq. apply in_app_or in Hq. destruct Hq as [Hq|[<-|[]]]; auto.
        eapply fi_reach; eauto.
      - intros q. rewrite pix_in_snoc, pix_eqb_sym. unfold upd.
        rewrite (fi_g _ _ Inv q). destruct (pix_eqb (s, t) q), (pix_in q (f_pts st)); reflexivity.
      - intros q. rewrite pix_in_snoc, pix_eqb_sym. unfold upd.
        rewrite (fi_l _ _ Inv q). destruct (pix_eqb (s, t) q), (pix_in q (f_pts st)); reflexivity.
      - intros q [<-|Hq]; apply in_or_app; [right; left; reflexivity | left].
        eapply fi_edge; eauto.
      - intros q r Hq Hne Hnp Hsr. apply in_app_or in Hq.
        apply in_or_app. left.
        destruct Hq as [Hq|[<-|[]]].
        + eapply (fi_closed _ _ Inv q r); eauto. intros He; apply Hne; right; assumption.
        + exfalso; apply Hne; left; reflexivity. }
    rewrite app_length; cbn [length].
    split; [intros; apply in_or_app; auto|].
    split; [intros; apply in_or_app; right; left; reflexivity|]. lia.
  Qed.

  Lemma ff_moves_spec pend p ms : forall st,
    FInv pend st -> In p (f_pts st) -> pend p ->
    (forall m, In m ms -> inside W H m /\ neighbours p m) ->
    exists st', for_each (ff_move W H bx by_ cap index p) ms st = Ok st' /\
      FInv pend st' /\
      (forall q, In q (f_pts st) -> In q (f_pts st')) /\
      (forall m, In m ms -> fstep p m -> In m (f_pts st')) /\
      (length (f_pts st') + length (f_edge st) =
       length (f_pts st) + length (f_edge st'))%nat.
  Proof.
    induction ms as [|m ms IH]; intros st Inv Hp Hpend Hms; cbn [for_each].
    - exists st. split; [reflexivity|]. split; [assumption|].
      repeat split; auto. intros m [].
    - destruct (Hms m) as [Hmi Hmn]; [left; reflexivity|].
      destruct (ff_move_spec pend p st m Inv Hp Hpend Hmi Hmn)
        as [st1 [E1 [Inv1 [Hmono1 [Hm1 [_ Hlen1]]]]]].
      rewrite E1; cbn [bind].
      destruct (IH st1 Inv1) as [st2 [E2 [Inv2 [Hmono2 [Hm2 Hlen2]]]]];
        [auto | assumption | intros; apply Hms; right; assumption |].
      exists st2. split; [assumption|]. split; [assumption|].
      split; [auto|]. split; [|lia].
      intros q [<-|Hq] Hs; auto.
  Qed.

  Definition none : pix -> Prop := fun _ => False.

  Lemma FInv_len st : FInv none st -> (length (f_pts st) <= Z.to_nat (W * H))%nat.
  Proof.
    intros Inv. apply inside_NoDup_length; [apply Inv|].
    intros p Hp. apply freach_inside. eapply fi_reach; eauto.
  Qed.

  Lemma ff_loop_spec fuel : forall st,
    FInv none st ->
    (length (f_edge st) <= length (f_pts st))%nat ->
    (Z.to_nat (W * H) < fuel + (length (f_pts st) - length (f_edge st)))%nat ->
    exists st', ff_loop fuel W H bx by_ cap index st = Ok st' /\
      FInv none st' /\ f_edge st' = [].
  Proof.
    induction fuel as [|fuel IH]; intros st Inv Hle Hfuel; cbn [ff_loop].
    - destruct (f_edge st) as [|p rest] eqn:Ee.
      + exists st; auto.
      + pose proof (FInv_len st Inv). cbn [length] in *. lia.
    - destruct (f_edge st) as [|p rest] eqn:Ee; [exists st; auto|].
      set (st0 := mkF (f_grains st) (f_left st) rest (f_pts st)).
      assert (In p (f_pts st)) as Hp by (eapply fi_edge; [eassumption | rewrite Ee; left; reflexivity]).
      assert (FInv (fun q => q = p) st0) as Inv0.
      { unfold st0; split; cbn [f_pts f_edge f_grains f_left]; try apply Inv.
        - intros q Hq; eapply fi_edge; [eassumption | rewrite Ee; right; assumption].
        - intros q r Hq Hne Hnp Hs. eapply (fi_closed _ _ Inv q r); eauto.
          rewrite Ee. intros [->|Hin]; auto. }
      assert (inside W H p) as Hpi by (apply freach_inside; eapply fi_reach; eauto).
      destruct (ff_moves_spec (fun q => q = p) p (moves W H p) st0 Inv0 Hp eq_refl)
        as [st1 [E1 [Inv1 [Hmono [Hms Hlen]]]]].
      { intros m Hm. apply (moves_In W H p m HW HH Hpi); assumption. }
      rewrite E1; cbn [bind].
      unfold st0 in Hlen; cbn [f_pts f_edge] in Hlen. cbn [length] in Hle, Hfuel.
      apply IH; [|lia|lia].
      split; try apply Inv1.
      intros q r Hq Hne _ Hs.
      destruct (pix_dec q p) as [->|Hqp].
      + apply Hms; [|assumption].
        apply (moves_In W H p r HW HH Hpi).
        destruct Hs as [Hs _]. inversion Hs; subst; unfold neighbours, inside in *;
          cbn [fst snd] in *; lia.
      + eapply (fi_closed _ _ Inv1); eauto.
  Qed.

  (** The complete specification of one fill. *)
  Lemma flood_fill_spec :
    exists pts g l, flood_fill W H bx by_ cap seed index g0 l0 = Ok (g, l, pts) /\
      (forall p, g p = if pix_in p pts then index else g0 p) /\
      (forall p, l p = if pix_in p pts then false else l0 p) /\
      NoDup pts /\ (exists r, pts = seed :: r) /\
      (forall p, In p pts <-> freach p).
  Proof.
    unfold flood_fill, ff_init.
    rewrite (aget_inside W H g0) by assumption. cbn [bind].
    unfold add_point; cbn [f_pts length].
    assert (1 <= cap)%nat as Hc1.
    { apply (Hcap [seed]); [constructor; [intros [] | constructor]|].
      intros p [<-|[]]. constructor. }
    destruct (Nat.leb_spec cap 0) as [Hc|_]; [lia|]. cbn [bind app f_grains f_left].
    set (st0 := mkF (upd g0 seed index) (upd l0 seed false) [seed] [seed]).
    assert (FInv none st0) as Inv0.
    { unfold st0; split; cbn [f_pts f_edge f_grains f_left].
      - constructor; [intros [] | constructor].
      - eexists; reflexivity.
      - intros p [<-|[]]. constructor.
      - intros p. unfold upd. cbn [pix_in existsb]. rewrite pix_eqb_sym.
        unfold pix_in; cbn [existsb]. destruct (pix_eqb p seed); reflexivity.
      - intros p. unfold upd. rewrite pix_eqb_sym.
        unfold pix_in; cbn [existsb]. destruct (pix_eqb p seed); reflexivity.
      - auto.
      - intros p q [<-|[]] Hne. exfalso; apply Hne; left; reflexivity. }
    destruct (ff_loop_spec (S (Z.to_nat (W * H))) st0 Inv0) as [st [E [Inv Hedge]]];
      [cbn; lia | cbn; lia |].
    rewrite E; cbn [bind].
    exists (f_pts st), (f_grains st), (f_left st).
    split; [reflexivity|]. split; [apply Inv|]. split; [apply Inv|].
    split; [apply Inv|]. split; [apply Inv|].
    intros p; split; [apply Inv|].
    intros Hr. induction Hr as [|p q Hs Hr IHr].
    - destruct (fi_head _ _ Inv) as [r ->]; left; reflexivity.
    - eapply (fi_closed _ _ Inv p q); eauto. rewrite Hedge; intros [].
  Qed.
End Fill.

(** ** Searching for the next seed *)
Lemma find_left_spec W H l start : 0 < W -> 0 <= start <= W * H ->
  let r := find_left W H l start in
  (r = -1 /\ forall i, start <= i < W * H -> l (unflat W i) = false) \/
  (0 <= r /\ start + r < W * H /\ l (unflat W (start + r)) = true /\
   forall i, start <= i < start + r -> l (unflat W i) = false).
Proof.
  intros HW Hs r. unfold r, find_left, bytes_find_true.
  set (n := Z.to_nat (W * H - start)).
  destruct (find_true_from_spec (map (fun i => l (unflat W i)) (zseq start n)) 0)
    as [[E Hall]|[k [E [Hk [Ht Hf]]]]].
  - left. split; [assumption|]. intros i Hi. apply Hall.
    apply in_map_iff. exists i; split; [reflexivity|]. apply zseq_In. lia.
  - right. rewrite map_length, zseq_length in Hk.
    rewrite nth_error_map, zseq_nth_error in Ht by assumption. cbn in Ht.
    rewrite E, Z.add_0_l. repeat split; try lia.
    + congruence.
    + intros i Hi. specialize (Hf (Z.to_nat (i - start))).
      rewrite nth_error_map, zseq_nth_error in Hf by lia. cbn in Hf.
      replace (start + Z.of_nat (Z.to_nat (i - start))) with i in Hf by lia.
      assert (Some (l (unflat W i)) = Some false) as E2 by (apply Hf; lia).
      congruence.
Qed.

Lemma set_small_spec pts : forall g p,
  set_small pts g p = if pix_in p pts then -2 else g p.
Proof.
  unfold set_small. induction pts as [|q pts IH]; intros g p; cbn [fold_left].
  - reflexivity.
  - rewrite IH. unfold upd, pix_in; cbn [existsb]. rewrite (pix_eqb_sym p q).
    destruct (pix_eqb q p), (existsb (pix_eqb p) pts); reflexivity.
Qed.

Lemma open_step_sym W H bx by_ p q :
  open_step W H bx by_ p q -> open_step W H bx by_ q p.
Proof. intros Hs; inv Hs; constructor; assumption. Qed.

Lemma open_step_inside W H bx by_ p q :
  open_step W H bx by_ p q -> inside W H p /\ inside W H q.
Proof. intros Hs; inv Hs; split; assumption. Qed.

Lemma connected_sym W H bx by_ p q :
  connected W H bx by_ p q -> connected W H bx by_ q p.
Proof.
  intros Hc; induction Hc; [apply rt_step, open_step_sym; assumption | apply rt_refl |].
  eapply rt_trans; eassumption.
Qed.

Lemma connected_inside W H bx by_ p q :
  connected W H bx by_ p q -> inside W H p -> inside W H q.
Proof.
  intros Hc; induction Hc as [p q Hs| |]; auto.
  intros _. now apply open_step_inside in Hs.
Qed.

Lemma nth_error_snoc {A} (l : list A) a k b :
  nth_error (l ++ [a]) k = Some b ->
  nth_error l k = Some b \/ (k = length l /\ b = a).
Proof.
  intros E. destruct (Nat.lt_ge_cases k (length l)) as [Hk|Hk].
  - rewrite nth_error_app1 in E by assumption; auto.
  - rewrite nth_error_app2 in E by assumption.
    destruct (k - length l)%nat as [|n] eqn:En; cbn in E.
    + right. split; [lia | congruence].
    + destruct n; discriminate.
Qed.

(** ** The grain finding loop *)
Section Outer.
  Variables (W H : Z) (bx by_ : pix -> bool) (phase : pix -> Z) (min_size : Z).
  Hypothesis HW : 2 <= W.
  Hypothesis HH : 2 <= H.
  Let conn := connected W H bx by_.

  Definition grain_ok (g : pix -> Z) (next : Z) (k : nat) (pts : list pix) : Prop :=
    NoDup pts /\
    (forall p, In p pts <-> inside W H p /\ g p = Z.of_nat k + 1) /\
    min_size <= Z.of_nat (length pts) /\
    exists seed r, pts = seed :: r /\ inside W H seed /\ phase seed <> 0 /\
      flat W seed < next /\
      (forall p, In p pts <-> conn seed p) /\
      (forall q, In q pts -> phase q <> 0 -> flat W seed <= flat W q).

  Record OInv (s : gstate) : Prop := {
    oi_class : forall p q, open_step W H bx by_ p q -> g_grains s p = g_grains s q;
    oi_vals : forall p, inside W H p ->
      g_grains s p = 0 \/ g_grains s p = -2 \/
      1 <= g_grains s p <= Z.of_nat (length (g_list s));
    oi_index : g_index s = Z.of_nat (length (g_list s)) + 1;
    oi_left : forall p, inside W H p ->
      g_left s p = negb (phase p =? 0) && (g_grains s p =? 0);
    oi_list : forall k pts, nth_error (g_list s) k = Some pts ->
      grain_ok (g_grains s) (g_next s) k pts;
    oi_order : forall k1 k2 p1 r1 p2 r2, (k1 < k2)%nat ->
      nth_error (g_list s) k1 = Some (p1 :: r1) ->
      nth_error (g_list s) k2 = Some (p2 :: r2) -> flat W p1 < flat W p2;
    oi_small : forall p, inside W H p -> g_grains s p = -2 ->
      exists n, region_size W H bx by_ p n /\ Z.of_nat n < min_size /\
                region_indexed W H bx by_ phase p;
    oi_before : forall p, inside W H p -> g_left s p = true -> g_next s <= flat W p;
    oi_cap : forall l, NoDup l ->
      (forall p, In p l -> inside W H p /\ g_grains s p = 0) ->
      (length l <= g_cap s)%nat
  }.

  Lemma OInv_conn s : OInv s -> forall p q, conn p q -> g_grains s p = g_grains s q.
  Proof.
    intros Inv p q Hc; induction Hc; [eapply oi_class; eauto | reflexivity | congruence].
  Qed.

  Lemma pass_spec s :
    OInv s -> 0 <= g_next s < W * H -> g_left s (unflat W (g_next s)) = true ->
    exists s' found,
      grain_pass (flood_fill W H bx by_) W H min_size s = Ok (s', found) /\
      ((found = -1 /\ g_next s' = g_next s /\
        OInv (mkG (g_grains s') (g_left s') (g_cap s') (g_index s') (g_list s') (W * H)))
       \/
       (0 <= found /\ OInv s' /\ g_next s < g_next s' < W * H /\
        g_left s' (unflat W (g_next s')) = true)).
  Proof.
    intros Inv Hnext Hleft.
    set (seed := unflat W (g_next s)) in *.
    assert (inside W H seed) as Hseed by (apply unflat_inside; lia).
    assert (flat W seed = g_next s) as Hfs by (apply flat_unflat; lia).
    pose proof (oi_left _ Inv seed Hseed) as El. rewrite Hleft in El. symmetry in El.
    apply andb_prop in El. destruct El as [Eph Eg0].
    assert (phase seed <> 0) as Hph by (intros E; rewrite E in Eph; discriminate).
    assert (g_grains s seed = 0) as Hg0 by lia.
    assert (forall p, freach W H bx by_ seed (g_grains s) p -> conn seed p) as Hfc.
    { intros p Hr. induction Hr as [|p q [Hs _] _ IH]; [apply rt_refl|].
      eapply rt_trans; [exact IH | apply rt_step; assumption]. }
    assert (forall p, conn seed p -> freach W H bx by_ seed (g_grains s) p) as Hcf.
    { intros p Hc. apply clos_rt_rtn1 in Hc.
      induction Hc as [|p q Hs Hc IH]; [constructor|].
      econstructor; [|exact IH]. split; [assumption|].
      assert (conn seed q) as Hsq.
      { apply clos_rtn1_rt. econstructor; eassumption. }
      rewrite <- (OInv_conn s Inv seed q Hsq). lia. }
    assert (forall p, conn seed p -> inside W H p /\ g_grains s p = 0) as Hc0.
    { intros p Hc. split; [eapply connected_inside; eauto|].
      now rewrite <- (OInv_conn s Inv seed p Hc). }
    destruct (flood_fill_spec W H bx by_ (g_cap s) seed (g_index s) (g_grains s)
                (g_left s) HW HH Hseed ltac:(lia))
      as [pts [g [l [Efill [Eg [Elf [Hnd [[r Hpts] Hin]]]]]]]].
    { rewrite (oi_index _ Inv). lia. }
    { intros lst Hlnd Hl. apply (oi_cap _ Inv lst Hlnd).
      intros p Hp. apply Hc0, Hfc, Hl, Hp. }
    assert (forall p, In p pts <-> conn seed p) as Hin'.
    { intros p; rewrite Hin; split; auto. }
    assert (forall p q, open_step W H bx by_ p q -> pix_in p pts = pix_in q pts) as Hcls.
    { intros p q Hs.
      destruct (pix_in_spec p pts) as [Hp|Hp], (pix_in_spec q pts) as [Hq|Hq]; auto; exfalso.
      - apply Hq, Hin'. apply Hin' in Hp. eapply rt_trans; [exact Hp | apply rt_step; assumption].
      - apply Hp, Hin'. apply Hin' in Hq. eapply rt_trans; [exact Hq | apply rt_step].
        apply open_step_sym; assumption. }
    assert (forall p, In p pts -> inside W H p /\ g_grains s p = 0) as Hpts0.
    { intros p Hp; apply Hc0, Hin', Hp. }
    unfold grain_pass.
    destruct (Z.ltb_spec (g_next s) 0); [lia|].
    destruct (Z.leb_spec (W * H) (g_next s)); [lia|]. cbn [orb].
    fold seed. rewrite Efill. cbn [bind].
    set (fnd := find_left W H l (g_next s + 1)).
    pose proof (find_left_spec W H l (g_next s + 1) ltac:(lia) ltac:(lia)) as Hfind.
    cbn zeta in Hfind. fold fnd in Hfind.
    (* facts common to both outcomes, for the new label image [g'] *)
    set (small := Z.of_nat (length pts) <? min_size) in *.
    set (g' := if small then set_small pts g else g).
    set (lst := if small then g_list s else g_list s ++ [pts]).
    set (idx := if small then g_index s else g_index s + 1).
    assert (forall p, g' p = if pix_in p pts then (if small then -2 else g_index s)
                             else g_grains s p) as Eg'.
    { intros p. unfold g'. destruct small; [rewrite set_small_spec|]; rewrite Eg;
        destruct (pix_in p pts); reflexivity. }
    assert (forall nx, g_next s < nx ->
      (forall p, inside W H p -> l p = true -> nx <= flat W p) ->
      OInv (mkG g' l (g_cap s - length pts) idx lst nx)) as Hnew.
    { intros nx Hnx Hbefore.
      split; cbn [g_grains g_left g_cap g_index g_list g_next].
      - intros p q Hs. rewrite !Eg', (Hcls p q Hs).
        destruct (pix_in q pts); [reflexivity|]. eapply oi_class; eauto.
      - intros p Hp. rewrite Eg'. unfold lst.
        pose proof (oi_vals _ Inv p Hp) as Hv. pose proof (oi_index _ Inv) as Hi.
        destruct (pix_in p pts); destruct small; auto;
          rewrite ?app_length; cbn [length]; lia.
      - unfold idx, lst. pose proof (oi_index _ Inv) as Hi.
        destruct small; rewrite ?app_length; cbn [length]; lia.
      - intros p Hp. rewrite Elf, Eg'. pose proof (oi_index _ Inv) as Hi.
        destruct (pix_in p pts).
        + destruct small; cbn.
          * now rewrite andb_false_r.
          * assert (g_index s =? 0 = false) as -> by lia. now rewrite andb_false_r.
        + apply (oi_left _ Inv p Hp).
      - intros k q Hk. unfold lst in Hk.
        assert (nth_error (g_list s) k = Some q \/
                (small = false /\ k = length (g_list s) /\ q = pts)) as Hk'.
        { destruct small; [auto|]. apply nth_error_snoc in Hk. tauto. }
        destruct Hk' as [Hk'|[Hsm [-> ->]]].
        + destruct (oi_list _ Inv k q Hk') as [A [B [C [sd [rr [D1 [D2 [D3 [D4 [D5 D6]]]]]]]]]].
          split; [assumption|]. split; [|split; [assumption|]].
          * intros p. rewrite B, Eg'. destruct (pix_in_spec p pts) as [Hpp|Hpp]; [|tauto].
            destruct (Hpts0 p Hpp) as [_ Hp0].
            assert (k < length (g_list s))%nat by (apply nth_error_Some; congruence).
            pose proof (oi_index _ Inv). split; intros [Hi Hg]; exfalso; destruct small; lia.
          * exists sd, rr. do 3 (split; [assumption|]). split; [lia|]. split; assumption.
        + pose proof (oi_index _ Inv) as Hi. rewrite Hsm in Eg'.
          split; [assumption|]. split; [|split].
          * intros p. rewrite Eg'. destruct (pix_in_spec p pts) as [Hpp|Hpp].
            -- split; [|tauto]. intros _. split; [apply Hpts0; assumption | lia].
            -- split; [tauto|]. intros [Hp Hg]. pose proof (oi_vals _ Inv p Hp). lia.
          * unfold small in Hsm. lia.
          * exists seed, r. do 3 (split; [assumption|]). split; [lia|]. split; [assumption|].
            intros q Hq Hpq. rewrite Hfs.
            destruct (Hpts0 q Hq) as [Hqi Hq0].
            apply (oi_before _ Inv q Hqi). rewrite (oi_left _ Inv q Hqi), Hq0.
            destruct (Z.eqb_spec (phase q) 0); [congruence | reflexivity].
      - intros k1 k2 p1 r1 p2 r2 Hlt E1 E2. unfold lst in E1, E2.
        destruct small; [eapply (oi_order _ Inv k1 k2); eauto|].
        apply nth_error_snoc in E1, E2.
        destruct E1 as [E1|[-> E1]], E2 as [E2|[-> E2]].
        + eapply (oi_order _ Inv k1 k2); eauto.
        + destruct (oi_list _ Inv k1 _ E1) as [_ [_ [_ [sd [rr [D1 [_ [_ [D4 _]]]]]]]]].
          injection D1 as -> ->. rewrite Hpts in E2. injection E2 as -> _. lia.
        + assert (k2 < length (g_list s))%nat by (apply nth_error_Some; congruence). lia.
        + lia.
      - intros p Hp Hg2. rewrite Eg' in Hg2.
        destruct (pix_in_spec p pts) as [Hpp|Hpp].
        + destruct small eqn:Esm; [|pose proof (oi_index _ Inv); lia].
          exists (length pts). split; [|split].
          * exists pts. split; [assumption|]. split; [|reflexivity].
            intros q. rewrite Hin'. apply Hin' in Hpp. split; intros Hc.
            -- eapply rt_trans; [apply connected_sym; exact Hpp | exact Hc].
            -- eapply rt_trans; [exact Hpp | exact Hc].
          * unfold small in Esm. lia.
          * exists seed. split; [assumption|]. split; [|assumption].
            apply connected_sym, Hin', Hpp.
        + apply (oi_small _ Inv p Hp Hg2).
      - intros p Hp Hl. apply Hbefore; assumption.
      - intros ll Hlnd Hll.
        assert (length (pts ++ ll) <= g_cap s)%nat as Hlen.
        { apply (oi_cap _ Inv).
          - assert (forall x, In x ll -> ~ In x pts) as Hdis.
            { intros x Hx Hxp. destruct (Hll x Hx) as [_ Hx0]. rewrite Eg' in Hx0.
              destruct (pix_in_spec x pts); [|tauto].
              pose proof (oi_index _ Inv). destruct small; lia. }
            clear - Hnd Hlnd Hdis. induction Hnd as [|a m Ha Hm IH]; cbn [app]; [assumption|].
            constructor.
            + rewrite in_app_iff; intros [Hin|Hin]; [tauto|].
              apply (Hdis a Hin); left; reflexivity.
            + apply IH. intros x Hx Hxm. apply (Hdis x Hx); right; assumption.
          - intros p Hp. apply in_app_or in Hp. destruct Hp as [Hp|Hp]; [auto|].
            destruct (Hll p Hp) as [Hpi Hp0]. split; [assumption|].
            rewrite Eg' in Hp0. destruct (pix_in_spec p pts) as [Hpp|Hpp]; [|assumption].
            apply Hpts0; assumption. }
        rewrite app_length in Hlen. lia. }
    assert (forall nx, g_next s < nx <= W * H ->
              (forall i, g_next s + 1 <= i < nx -> l (unflat W i) = false) ->
              forall p, inside W H p -> l p = true -> nx <= flat W p) as Hbef.
    { intros nx Hnx Hno p Hp Hlp.
      destruct (Z.le_gt_cases nx (flat W p)) as [Hok|Hlt]; [assumption|exfalso].
      pose proof (flat_range W H p Hp) as Hfr.
      assert (flat W p <= g_next s \/ g_next s + 1 <= flat W p < nx) as [Hle|Hmid] by lia.
      - rewrite Elf in Hlp. destruct (pix_in_spec p pts) as [Hpp|Hpp]; [discriminate|].
        pose proof (oi_before _ Inv p Hp Hlp) as Hbp.
        assert (p = seed) as ->.
        { apply (flat_inj W H); auto. lia. }
        apply Hpp. rewrite Hpts; left; reflexivity.
      - specialize (Hno (flat W p) Hmid). rewrite (unflat_flat W H p Hp) in Hno. congruence. }
    exists (mkG g' l (g_cap s - length pts) idx lst (g_next s + (fnd + 1))), fnd.
    split.
    { unfold g', idx, lst, small. destruct (Z.of_nat (length pts) <? min_size); reflexivity. }
    cbn [g_grains g_left g_cap g_index g_list g_next].
    destruct Hfind as [[Ef Hno]|[Hf0 [Hf1 [Hft Hno]]]].
    - left. split; [assumption|]. split; [lia|].
      apply Hnew; [lia|]. apply Hbef; [lia|assumption].
    - right. split; [assumption|]. split; [|split].
      + apply Hnew; [lia|]. apply Hbef; [lia|]. intros i Hi. apply Hno. lia.
      + lia.
      + replace (g_next s + (fnd + 1)) with (g_next s + 1 + fnd) by lia. assumption.
  Qed.

  Lemma loop_spec fuel : forall s,
    OInv s -> 0 <= g_next s < W * H -> g_left s (unflat W (g_next s)) = true ->
    (Z.to_nat (W * H - g_next s) <= fuel)%nat ->
    exists s', grain_loop (flood_fill W H bx by_) fuel W H min_size s = Ok s' /\
      OInv (mkG (g_grains s') (g_left s') (g_cap s') (g_index s') (g_list s') (W * H)).
  Proof.
    induction fuel as [|fuel IH]; intros s Inv Hn Hl Hfuel; [lia|].
    cbn [grain_loop].
    destruct (pass_spec s Inv Hn Hl) as [s' [fnd [E [[Ef [En Inv']]|[Ef [Inv' [Hn' Hl']]]]]]];
      rewrite E; cbn [bind].
    - destruct (Z.leb_spec 0 fnd); [lia|]. exists s'; auto.
    - destruct (Z.leb_spec 0 fnd); [|lia]. apply IH; auto; lia.
  Qed.

  Definition init_state : gstate :=
    let remain := fun p => negb (phase p =? 0) in
    mkG (fun _ => 0) remain (Z.to_nat (W * H)) 1 [] (find_left W H remain 0).

  Lemma init_inv : OInv init_state.
  Proof.
    unfold init_state. set (rm := fun p => negb (phase p =? 0)).
    pose proof (find_left_spec W H rm 0 ltac:(lia) ltac:(nia)) as Hf. cbn zeta in Hf.
    split; cbn [g_grains g_left g_cap g_index g_list g_next].
    - reflexivity.
    - auto.
    - reflexivity.
    - intros p _. cbn. now rewrite andb_true_r.
    - intros k pts E. destruct k; discriminate.
    - intros k1 k2 p1 r1 p2 r2 _ E. destruct k1; discriminate.
    - intros; lia.
    - intros p Hp Hl. pose proof (flat_range W H p Hp).
      destruct Hf as [[E _]|[Hf0 [_ [_ Hno]]]]; [lia|].
      destruct (Z.le_gt_cases (find_left W H rm 0) (flat W p)); [assumption|].
      specialize (Hno (flat W p) ltac:(lia)). rewrite (unflat_flat W H p Hp) in Hno. congruence.
    - intros l Hnd Hl. apply inside_NoDup_length; [assumption|]. intros p Hp; apply Hl, Hp.
  Qed.

  (** The outcome of the loop, by whether any pixel is indexed. *)
  Lemma find_grains_loop :
    (exists p, inside W H p /\ phase p <> 0) ->
    exists s', grain_loop (flood_fill W H bx by_) (S (Z.to_nat (W * H))) W H min_size
                 init_state = Ok s' /\
      OInv (mkG (g_grains s') (g_left s') (g_cap s') (g_index s') (g_list s') (W * H)).
  Proof.
    intros [p [Hp Hph]].
    set (rm := fun p => negb (phase p =? 0)).
    pose proof (find_left_spec W H rm 0 ltac:(lia) ltac:(nia)) as Hf. cbn zeta in Hf.
    destruct Hf as [[E Hno]|[Hf0 [Hf1 [Hf2 Hno]]]].
    - exfalso. pose proof (flat_range W H p Hp).
      specialize (Hno (flat W p) ltac:(lia)). rewrite (unflat_flat W H p Hp) in Hno.
      unfold rm in Hno. destruct (Z.eqb_spec (phase p) 0); [congruence|discriminate].
    - apply loop_spec.
      + apply init_inv.
      + cbn [init_state g_next]. fold rm. lia.
      + cbn [init_state g_next g_left]. fold rm. rewrite Z.add_0_l in Hf2. assumption.
      + cbn [init_state g_next]. fold rm. lia.
  Qed.
End Outer.

(** ** Consequences for [find_grains] *)
Section Final.
  Variables (W H : Z) (bx by_ : pix -> bool) (phase : pix -> Z)
            (num_phases min_size : Z).
  Hypothesis HW : 2 <= W.
  Hypothesis HH : 2 <= H.
  Let conn := connected W H bx by_.
  Let FG := find_grains W H bx by_ phase num_phases min_size.

  Lemma indexed_dec :
    (exists p, inside W H p /\ phase p <> 0) \/
    (forall p, inside W H p -> phase p = 0).
  Proof.
    destruct (existsb (fun p => negb (phase p =? 0)) (all_pix W H)) eqn:E.
    - left. apply existsb_exists in E. destruct E as [p [Hp Hph]].
      exists p. split; [apply all_pix_In in Hp; auto; lia|]. lia.
    - right. intros p Hp.
      destruct (Z.eq_dec (phase p) 0) as [|Hn]; [assumption|exfalso].
      assert (existsb (fun p => negb (phase p =? 0)) (all_pix W H) = true).
      { apply existsb_exists. exists p. split; [apply all_pix_In; auto; lia|]. lia. }
      congruence.
  Qed.

  Definition OFin (lab : pix -> Z) (gl : list (list pix)) : Prop :=
    exists left cap idx,
      OInv W H bx by_ phase min_size (mkG lab left cap idx gl (W * H)).

  Lemma OFin_left lab gl : OFin lab gl ->
    forall p, inside W H p -> phase p <> 0 -> lab p <> 0.
  Proof.
    intros [left [cap [idx Inv]]] p Hp Hph Hl.
    pose proof (oi_left _ _ _ _ _ _ _ Inv p Hp) as E. cbn in E.
    pose proof (oi_before _ _ _ _ _ _ _ Inv p Hp) as Hb. cbn in Hb.
    pose proof (flat_range W H p Hp).
    assert (left p = true) by (rewrite E, Hl; destruct (Z.eqb_spec (phase p) 0); cbn; congruence).
    specialize (Hb H1). lia.
  Qed.

  Lemma OFin_conn lab gl : OFin lab gl -> forall p q, conn p q -> lab p = lab q.
  Proof.
    intros [left [cap [idx Inv]]] p q Hc.
    apply (OInv_conn _ _ _ _ _ _ _ Inv p q Hc).
  Qed.

  Lemma OFin_pos lab gl : OFin lab gl -> forall p, inside W H p -> 0 < lab p ->
    exists pts, nth_error gl (Z.to_nat (lab p - 1)) = Some pts /\ In p pts /\
      grain_ok W H bx by_ phase min_size lab (W * H) (Z.to_nat (lab p - 1)) pts.
  Proof.
    intros [left [cap [idx Inv]]] p Hp Hpos.
    pose proof (oi_vals _ _ _ _ _ _ _ Inv p Hp) as Hv. cbn in Hv.
    destruct (nth_error gl (Z.to_nat (lab p - 1))) as [pts|] eqn:E.
    - pose proof (oi_list _ _ _ _ _ _ _ Inv _ _ E) as Hg. cbn in Hg.
      exists pts. split; [reflexivity|]. split; [|assumption].
      destruct Hg as [_ [B _]]. apply B. split; [assumption|lia].
    - apply nth_error_None in E. lia.
  Qed.

  Lemma OFin_same lab gl : OFin lab gl -> forall p q, inside W H p -> inside W H q ->
    0 < lab p -> (lab q = lab p <-> conn p q).
  Proof.
    intros Hf p q Hp Hq Hpos. split.
    - intros E. destruct (OFin_pos lab gl Hf p Hp Hpos) as [pts [_ [Hin Hg]]].
      destruct Hg as [_ [B [_ [seed [r [_ [_ [_ [_ [D _]]]]]]]]]].
      assert (In q pts) as Hinq by (apply B; split; [assumption|lia]).
      apply D in Hin, Hinq.
      eapply rt_trans; [apply connected_sym; exact Hin | exact Hinq].
    - intros Hc. symmetry. apply (OFin_conn lab gl Hf p q Hc).
  Qed.

  Lemma OFin_region lab gl : OFin lab gl -> forall p, inside W H p ->
    region_indexed W H bx by_ phase p ->
    exists n, region_size W H bx by_ p n /\
      ((min_size <= Z.of_nat n /\ 0 < lab p) \/ (Z.of_nat n < min_size /\ lab p = -2)).
  Proof.
    intros Hf p Hp [q [Hq [Hc Hph]]].
    assert (lab p <> 0) as Hn0.
    { rewrite (OFin_conn lab gl Hf p q Hc). apply (OFin_left lab gl Hf q Hq Hph). }
    destruct Hf as [left [cap [idx Inv]]] eqn:EHf. 
    pose proof (oi_vals _ _ _ _ _ _ _ Inv p Hp) as Hv. cbn in Hv.
    destruct Hv as [Hv|[Hv|Hv]]; [congruence| |].
    - destruct (oi_small _ _ _ _ _ _ _ Inv p Hp Hv) as [n [Hs [Hlt _]]].
      exists n. auto.
    - destruct (OFin_pos lab gl Hf p Hp ltac:(lia)) as [pts [_ [Hin Hg]]].
      destruct Hg as [A [B [C [seed [r [_ [_ [_ [_ [D _]]]]]]]]]].
      exists (length pts). split; [|left; split; lia].
      exists pts. split; [assumption|]. split; [|reflexivity].
      intros x. rewrite D. apply D in Hin. split; intros Hx.
      + eapply rt_trans; [apply connected_sym; exact Hin | exact Hx].
      + eapply rt_trans; [exact Hin | exact Hx].
  Qed.

  Lemma OFin_unindexed lab gl : OFin lab gl -> forall p, inside W H p ->
    ~ region_indexed W H bx by_ phase p -> lab p = 0.
  Proof.
    intros Hf p Hp Hn.
    destruct Hf as [left [cap [idx Inv]]] eqn:EHf.
    pose proof (oi_vals _ _ _ _ _ _ _ Inv p Hp) as Hv. cbn in Hv.
    destruct Hv as [Hv|[Hv|Hv]]; [assumption| |]; exfalso; apply Hn.
    - destruct (oi_small _ _ _ _ _ _ _ Inv p Hp Hv) as [n [_ [_ Hi]]]. assumption.
    - destruct (OFin_pos lab gl Hf p Hp ltac:(lia)) as [pts [_ [Hin Hg]]].
      destruct Hg as [_ [_ [_ [seed [r [_ [Hs [Hph [_ [D _]]]]]]]]]].
      exists seed. split; [assumption|]. split; [|assumption].
      apply connected_sym, D, Hin.
  Qed.

  Lemma find_grains_OFin lab gl ph : FG = Ok (lab, gl, ph) ->
    OFin lab gl /\ gl <> [] /\ ph = map (grain_phase num_phases phase) gl.
  Proof.
    unfold FG, find_grains. intros E.
    cbn zeta in E.
    destruct indexed_dec as [Hidx|Hno].
    - destruct (find_grains_loop W H bx by_ phase min_size HW HH Hidx) as [s [Es Inv]].
      unfold init_state in Es. cbn zeta in Es. rewrite Es in E. cbn [bind] in E.
      destruct (g_list s) as [|x xs] eqn:El; [discriminate|].
      inversion E; subst. split; [|split; [discriminate|reflexivity]].
      do 3 eexists; exact Inv.
    - exfalso.
      set (rm := fun p => negb (phase p =? 0)) in E.
      pose proof (find_left_spec W H rm 0 ltac:(lia) ltac:(nia)) as Hf. cbn zeta in Hf.
      destruct Hf as [[Ef _]|[Hf0 [Hf1 [Hf2 _]]]].
      + cbn [grain_loop] in E. unfold grain_pass in E. cbn [g_next] in E.
        rewrite Ef in E. discriminate.
      + assert (inside W H (unflat W (0 + find_left W H rm 0))) as Hi
            by (apply unflat_inside; lia).
        unfold rm at 1 in Hf2. rewrite (Hno _ Hi) in Hf2. discriminate.
  Qed.

  Lemma find_grains_none : (forall p, inside W H p -> phase p = 0) -> FG = Err ValueError.
  Proof.
    intros Hno. unfold FG, find_grains.
    set (rm := fun p => negb (phase p =? 0)).
    pose proof (find_left_spec W H rm 0 ltac:(lia) ltac:(nia)) as Hf. cbn zeta in Hf.
    destruct Hf as [[Ef _]|[Hf0 [Hf1 [Hf2 _]]]].
    - cbn [grain_loop]. unfold grain_pass. cbn [g_next]. rewrite Ef. reflexivity.
    - assert (inside W H (unflat W (0 + find_left W H rm 0))) as Hi
            by (apply unflat_inside; lia).
      unfold rm at 1 in Hf2. rewrite (Hno _ Hi) in Hf2. discriminate.
  Qed.

  Lemma region_size_fun p n m :
    region_size W H bx by_ p n -> region_size W H bx by_ p m -> n = m.
  Proof.
    intros [l [Hl [Il <-]]] [k [Hk [Ik <-]]].
    apply Nat.le_antisymm; apply NoDup_incl_length; auto; intros x Hx;
      [apply Ik, Il | apply Il, Ik]; assumption.
  Qed.

  Lemma find_grains_indexed : (exists p, inside W H p /\ phase p <> 0) ->
    (exists lab gl ph, FG = Ok (lab, gl, ph) /\
       exists p n, inside W H p /\ region_indexed W H bx by_ phase p /\
                   region_size W H bx by_ p n /\ min_size <= Z.of_nat n) \/
    (FG = Err IndexError /\
       forall p, inside W H p -> region_indexed W H bx by_ phase p ->
         exists n, region_size W H bx by_ p n /\ Z.of_nat n < min_size).
  Proof.
    intros Hidx.
    destruct (find_grains_loop W H bx by_ phase min_size HW HH Hidx) as [s [Es Inv]].
    assert (OFin (g_grains s) (g_list s)) as Hf by (do 3 eexists; exact Inv).
    destruct (g_list s) as [|x xs] eqn:El.
    - right. split.
      + unfold FG, find_grains. unfold init_state in Es. cbn zeta in Es. rewrite Es. cbn [bind].
        now rewrite El.
      + intros p Hp Hr. destruct (OFin_region _ _ Hf p Hp Hr) as [n [Hn [[_ Hpos]|[Hlt _]]]].
        * destruct (OFin_pos _ _ Hf p Hp Hpos) as [pts [E _]].
          destruct (Z.to_nat _) in E; discriminate.
        * exists n; auto.
    - left.
      destruct (nth_error (g_list s) 0) as [pts|] eqn:E0; [|rewrite El in E0; discriminate].
      rewrite <- El in Hf. 
      do 3 eexists. split.
      + unfold FG, find_grains. unfold init_state in Es. cbn zeta in Es. rewrite Es. cbn [bind].
        rewrite El. reflexivity.
      + pose proof (oi_list _ _ _ _ _ _ _ Inv 0%nat pts) as Hg. cbn in Hg. rewrite El in E0.
        specialize (Hg E0).
        destruct Hg as [A [B [C [seed [r [D1 [D2 [D3 [_ [D _]]]]]]]]]].
        exists seed, (length pts). split; [assumption|]. split.
        { exists seed. split; [assumption|]. split; [apply rt_refl|assumption]. }
        split; [|assumption]. exists pts. auto.
  Qed.
End Final.

(** ** Phase of a grain *)
Lemma fold_max_le vs : forall v, v <= fold_left Z.max vs v /\
  (forall x, In x vs -> x <= fold_left Z.max vs v).
Proof.
  induction vs as [|a vs IH]; intros v; cbn [fold_left].
  - split; [lia|intros x []].
  - destruct (IH (Z.max v a)) as [H1 H2]. split; [lia|].
    intros x [<-|Hx]; [lia|auto].
Qed.
Lemma fold_min_ge vs : forall v, fold_left Z.min vs v <= v /\
  (forall x, In x vs -> fold_left Z.min vs v <= x).
Proof.
  induction vs as [|a vs IH]; intros v; cbn [fold_left].
  - split; [lia|intros x []].
  - destruct (IH (Z.min v a)) as [H1 H2]. split; [lia|].
    intros x [<-|Hx]; [lia|auto].
Qed.
Lemma fold_max_const vs v : (forall x, In x vs -> x = v) -> fold_left Z.max vs v = v.
Proof.
  induction vs as [|a vs IH]; intros Hc; cbn [fold_left]; [reflexivity|].
  rewrite (Hc a) by (left; reflexivity). rewrite Z.max_id. apply IH.
  intros; apply Hc; right; assumption.
Qed.
Lemma fold_min_const vs v : (forall x, In x vs -> x = v) -> fold_left Z.min vs v = v.
Proof.
  induction vs as [|a vs IH]; intros Hc; cbn [fold_left]; [reflexivity|].
  rewrite (Hc a) by (left; reflexivity). rewrite Z.min_id. apply IH.
  intros; apply Hc; right; assumption.
Qed.

Lemma grain_phase_spec num_phases phase pts v : pts <> [] ->
  (grain_phase num_phases phase pts = Some v <->
   0 <= v < num_phases /\ forall p, In p pts -> phase p = v + 1).
Proof.
  intros Hne. unfold grain_phase. destruct pts as [|p0 pts]; [congruence|].
  cbn [map]. set (vs := map phase pts). set (a := phase p0).
  destruct (fold_max_le vs a) as [M1 M2]. destruct (fold_min_ge vs a) as [m1 m2].
  split.
  - destruct (Z.eqb_spec (fold_left Z.max vs a) (fold_left Z.min vs a)) as [E|]; [|discriminate].
    destruct (Z.leb_spec 0 (a - 1)), (Z.ltb_spec (a - 1) num_phases); cbn; try discriminate.
    intros E2; inversion E2; subst v. split; [lia|].
    intros p [<-|Hp]; [fold a; lia|].
    assert (In (phase p) vs) as Hin by (apply in_map; assumption).
    specialize (M2 _ Hin). specialize (m2 _ Hin). lia.
  - intros [Hv Hall].
    assert (a = v + 1) as Ea by (apply Hall; left; reflexivity).
    assert (forall x, In x vs -> x = a) as Hc.
    { intros x Hx. apply in_map_iff in Hx. destruct Hx as [p [<- Hp]].
      rewrite Ea. apply Hall. right; assumption. }
    rewrite fold_max_const, fold_min_const, Z.eqb_refl by assumption.
    destruct (Z.leb_spec 0 (a - 1)), (Z.ltb_spec (a - 1) num_phases); cbn; try lia.
    f_equal; lia.
Qed.

(** ** One-pixel-wide maps *)
Lemma aget_cases {A} W H (f : pix -> A) p :
  aget W H f p = Ok (f p) \/ aget W H f p = Err OutOfBounds.
Proof. unfold aget; destruct (insideb W H p); auto. Qed.

Lemma aget_outside {A} W H (f : pix -> A) p :
  ~ inside W H p -> aget W H f p = Err OutOfBounds.
Proof. intros Hn; unfold aget; destruct (insideb_spec W H p); tauto. Qed.

Lemma add_point_cases cap index st m e :
  (exists st', add_point cap index st m e = Ok st') \/
  add_point cap index st m e = Err OutOfBounds.
Proof. unfold add_point; destruct (_ <=? _)%nat; eauto. Qed.

Lemma ff_move_cases W H bx by_ cap index p st m :
  (exists st', ff_move W H bx by_ cap index p st m = Ok st') \/
  ff_move W H bx by_ cap index p st m = Err OutOfBounds.
Proof.
  destruct p as [x y], m as [s t]. unfold ff_move.
  destruct (aget_cases W H (f_grains st) (s, t)) as [->| ->]; cbn [bind]; [|auto].
  destruct (_ >? 0); [eauto|].
  set (w := if t =? y then _ else _).
  assert ((exists b, w = Ok b) \/ w = Err OutOfBounds) as [[b ->]| ->]; cbn [bind]; auto.
  { unfold w.
    destruct (t =? y); [destruct (s >? x) | destruct (t >? y)];
      unfold aget; destruct (insideb _ _ _); eauto. }
  destruct b; cbn [negb]; [eauto | apply add_point_cases].
Qed.

Lemma ff_move_outside W H bx by_ cap index p st m :
  ~ inside W H m -> ff_move W H bx by_ cap index p st m = Err OutOfBounds.
Proof.
  intros Hm. destruct p as [x y], m as [s t]. unfold ff_move.
  now rewrite aget_outside by assumption.
Qed.

Lemma for_each_outside {A S} (body : S -> A -> res S) (bad : A) l :
  (forall st m, (exists st', body st m = Ok st') \/ body st m = Err OutOfBounds) ->
  (forall st, body st bad = Err OutOfBounds) -> In bad l ->
  forall st, for_each body l st = Err OutOfBounds.
Proof.
  intros Hc Hb. induction l as [|a l IH]; intros Hin st; [destruct Hin|].
  cbn [for_each]. destruct Hin as [->|Hin].
  - now rewrite Hb.
  - destruct (Hc st a) as [[st' ->]| ->]; cbn [bind]; auto.
Qed.

Lemma thin_moves W H p : (W = 1 \/ H = 1) -> inside W H p ->
  exists m, In m (moves W H p) /\ ~ inside W H m.
Proof.
  destruct p as [x y]. unfold inside; cbn [fst snd]. intros Hthin Hp.
  assert (H = 1 /\ W <> 1 \/ W = 1) as [[-> HW]| ->] by lia.
  - assert (y = 0) as -> by lia. exists (x, 0 + 1). split; [|cbn [fst snd]; lia].
    unfold moves.
    change (py_pop 1 [(x + 1, 0); (x - 1, 0); (x, 0 + 1); (x, 0 - 1)])
      with [(x + 1, 0); (x, 0 + 1); (x, 0 - 1)].
    change (py_pop 0 [(x + 1, 0); (x - 1, 0); (x, 0 + 1); (x, 0 - 1)])
      with [(x - 1, 0); (x, 0 + 1); (x, 0 - 1)].
    cbn [Z.leb Z.compare].
    destruct (x <=? 0); [|destruct (x >? W - 2)];
      match goal with
      | |- In _ (py_pop _ [?a; ?b; ?c]) => change (py_pop (-1) [a; b; c]) with [a; b]
      | |- In _ (py_pop _ [?a; ?b; ?c; ?d]) =>
          change (py_pop (-1) [a; b; c; d]) with [a; b; c]
      end; cbn [In]; auto.
  - assert (x = 0) as -> by lia. exists (0 + 1, y). split; [|cbn [fst snd]; lia].
    unfold moves. cbn [Z.leb Z.compare].
    change (py_pop 1 [(0 + 1, y); (0 - 1, y); (0, y + 1); (0, y - 1)])
      with [(0 + 1, y); (0, y + 1); (0, y - 1)].
    destruct (y <=? 0); [|destruct (y >? H - 2)].
    + change (py_pop (-1) [(0 + 1, y); (0, y + 1); (0, y - 1)])
        with [(0 + 1, y); (0, y + 1)]. left; reflexivity.
    + change (py_pop (-2) [(0 + 1, y); (0, y + 1); (0, y - 1)])
        with [(0 + 1, y); (0, y - 1)]. left; reflexivity.
    + left; reflexivity.
Qed.

Lemma thin_fill W H bx by_ cap seed index g l :
  (W = 1 \/ H = 1) -> inside W H seed ->
  flood_fill W H bx by_ cap seed index g l = Err OutOfBounds.
Proof.
  intros Hthin Hs. unfold flood_fill, ff_init.
  rewrite (aget_inside W H g) by assumption. cbn [bind].
  unfold add_point; cbn [f_pts length].
  destruct (cap <=? 0)%nat; [reflexivity|].
  cbn [bind ff_loop f_edge].
  destruct (thin_moves W H seed Hthin Hs) as [m [Hm Hout]].
  rewrite (for_each_outside _ m); auto.
  - intros; apply ff_move_cases.
  - intros; apply ff_move_outside; assumption.
Qed.

Lemma thin_find_grains W H bx by_ phase num_phases min_size p :
  (W = 1 \/ H = 1) -> inside W H p -> phase p <> 0 ->
  find_grains W H bx by_ phase num_phases min_size = Err OutOfBounds.
Proof.
  intros Hthin Hp Hph. pose proof (inside_pos W H p Hp) as [HW HH].
  unfold find_grains. set (rm := fun p => negb (phase p =? 0)).
  pose proof (find_left_spec W H rm 0 ltac:(lia) ltac:(nia)) as Hf. cbn zeta in Hf.
  pose proof (flat_range W H p Hp).
  destruct Hf as [[Ef Hno]|[Hf0 [Hf1 [Hf2 _]]]].
  - exfalso. specialize (Hno (flat W p) ltac:(lia)).
    rewrite (unflat_flat W H p Hp) in Hno. unfold rm in Hno.
    destruct (Z.eqb_spec (phase p) 0); [congruence|discriminate].
  - cbn [grain_loop]. unfold grain_pass. cbn [g_next g_cap g_index g_grains g_left].
    destruct (Z.ltb_spec (find_left W H rm 0) 0); [lia|].
    destruct (Z.leb_spec (W * H) (find_left W H rm 0)); [lia|]. cbn [orb].
    rewrite thin_fill; [reflexivity | assumption |].
    apply unflat_inside; lia.
Qed.

(** ** The statements used in [Flood_Props] *)
Lemma fg_region_const W H bx by_ phase np ms lab gl ph : 2 <= W -> 2 <= H ->
  find_grains W H bx by_ phase np ms = Ok (lab, gl, ph) ->
  forall p q, connected W H bx by_ p q -> lab p = lab q.
Proof.
  intros HW HH E. destruct (find_grains_OFin _ _ _ _ _ _ _ HW HH _ _ _ E) as [Hf _].
  apply (OFin_conn _ _ _ _ _ _ _ _ Hf).
Qed.

Lemma fg_same W H bx by_ phase np ms lab gl ph : 2 <= W -> 2 <= H ->
  find_grains W H bx by_ phase np ms = Ok (lab, gl, ph) ->
  forall p q, inside W H p -> inside W H q -> 0 < lab p ->
    (lab q = lab p <-> connected W H bx by_ p q).
Proof.
  intros HW HH E. destruct (find_grains_OFin _ _ _ _ _ _ _ HW HH _ _ _ E) as [Hf _].
  intros p q. apply (OFin_same _ _ _ _ _ _ _ _ Hf).
Qed.

Lemma fg_values W H bx by_ phase np ms lab gl ph : 2 <= W -> 2 <= H ->
  find_grains W H bx by_ phase np ms = Ok (lab, gl, ph) ->
  forall p, inside W H p ->
    (region_indexed W H bx by_ phase p ->
     exists n, region_size W H bx by_ p n /\
       (ms <= Z.of_nat n /\ 0 < lab p \/ Z.of_nat n < ms /\ lab p = -2)) /\
    (~ region_indexed W H bx by_ phase p -> lab p = 0).
Proof.
  intros HW HH E. destruct (find_grains_OFin _ _ _ _ _ _ _ HW HH _ _ _ E) as [Hf _].
  intros p Hp. split; [apply (OFin_region _ _ _ _ _ _ _ _ Hf p Hp)
                      | apply (OFin_unindexed _ _ _ _ _ _ _ _ Hf p Hp)].
Qed.

Lemma fg_list W H bx by_ phase np ms lab gl ph : 2 <= W -> 2 <= H ->
  find_grains W H bx by_ phase np ms = Ok (lab, gl, ph) ->
  gl <> [] /\
  (forall k pts, nth_error gl k = Some pts ->
     pts <> [] /\ NoDup pts /\ ms <= Z.of_nat (length pts) /\
     forall p, In p pts <-> inside W H p /\ lab p = Z.of_nat k + 1) /\
  (forall p, inside W H p -> 0 < lab p ->
     exists pts, nth_error gl (Z.to_nat (lab p - 1)) = Some pts /\ In p pts).
Proof.
  intros HW HH E. destruct (find_grains_OFin _ _ _ _ _ _ _ HW HH _ _ _ E) as [Hf [Hne _]].
  split; [assumption|]. split.
  - intros k pts Hk. destruct Hf as [lf [cap [idx Inv]]].
    destruct (oi_list _ _ _ _ _ _ _ Inv k pts Hk) as [A [B [C [sd [r [D _]]]]]].
    split; [rewrite D; discriminate|]. split; [assumption|]. split; assumption.
  - intros p Hp Hl. destruct (OFin_pos _ _ _ _ _ _ _ _ Hf p Hp Hl) as [pts [E1 [E2 _]]].
    exists pts; auto.
Qed.

Lemma fg_order W H bx by_ phase np ms lab gl ph : 2 <= W -> 2 <= H ->
  find_grains W H bx by_ phase np ms = Ok (lab, gl, ph) ->
  forall k1 k2 pts1 pts2, (k1 < k2)%nat ->
    nth_error gl k1 = Some pts1 -> nth_error gl k2 = Some pts2 ->
    exists p1, In p1 pts1 /\ phase p1 <> 0 /\
      forall p2, In p2 pts2 -> phase p2 <> 0 -> flat W p1 < flat W p2.
Proof.
  intros HW HH E. destruct (find_grains_OFin _ _ _ _ _ _ _ HW HH _ _ _ E) as [Hf [Hne _]].
  intros k1 k2 pts1 pts2 Hlt E1 E2. destruct Hf as [lf [cap [idx Inv]]].
  destruct (oi_list _ _ _ _ _ _ _ Inv k1 pts1 E1) as [_ [_ [_ [s1 [r1 [-> [_ [P1 _]]]]]]]].
  destruct (oi_list _ _ _ _ _ _ _ Inv k2 pts2 E2) as [_ [_ [_ [s2 [r2 [-> [_ [_ [_ [_ M]]]]]]]]]].
  exists s1. split; [left; reflexivity|]. split; [assumption|].
  intros p2 Hin Hp2. pose proof (oi_order _ _ _ _ _ _ _ Inv k1 k2 _ _ _ _ Hlt E1 E2).
  specialize (M p2 Hin Hp2). lia.
Qed.

Lemma fg_phases W H bx by_ phase np ms lab gl ph : 2 <= W -> 2 <= H ->
  find_grains W H bx by_ phase np ms = Ok (lab, gl, ph) ->
  length ph = length gl /\
  forall k pts, nth_error gl k = Some pts ->
    (forall v, nth_error ph k = Some (Some v) <->
       0 <= v < np /\ forall p, In p pts -> phase p = v + 1) /\
    (nth_error ph k = Some None <->
       ~ exists v, 0 <= v < np /\ forall p, In p pts -> phase p = v + 1).
Proof.
  intros HW HH E. destruct (find_grains_OFin _ _ _ _ _ _ _ HW HH _ _ _ E) as [Hf [Hne ->]].
  rewrite map_length. split; [reflexivity|].
  intros k pts Hk. rewrite nth_error_map, Hk. cbn [option_map].
  destruct (fg_list _ _ _ _ _ _ _ _ _ _ HW HH E) as [_ [Hl _]].
  destruct (Hl k pts Hk) as [Hnn _].
  assert (forall v, Some (grain_phase np phase pts) = Some (Some v) <->
            0 <= v < np /\ forall p, In p pts -> phase p = v + 1) as Hs.
  { intros v. rewrite <- (grain_phase_spec np phase pts v Hnn).
    split; [intros E1; inversion E1; reflexivity | intros ->; reflexivity]. }
  split; [assumption|].
  split.
  - intros E1 [v Hv]. apply Hs in Hv. congruence.
  - intros Hno. destruct (grain_phase np phase pts) as [v|] eqn:Eg; [|reflexivity].
    exfalso. apply Hno. exists v. apply (Hs v). reflexivity.
Qed.

Lemma flood_fill_total W H bx by_ cap seed index g l :
  2 <= W -> 2 <= H -> inside W H seed -> g seed <= 0 -> 0 < index ->
  W * H <= Z.of_nat cap ->
  exists g' l' pts, flood_fill W H bx by_ cap seed index g l = Ok (g', l', pts) /\
    NoDup pts /\ forall p, In p pts -> inside W H p.
Proof.
  intros HW HH Hs Hg Hi Hcap.
  destruct (flood_fill_spec W H bx by_ cap seed index g l HW HH Hs Hg Hi)
    as [pts [g' [l' [E [_ [_ [Hnd [_ Hin]]]]]]]].
  - intros lst Hnd Hl.
    assert (length lst <= Z.to_nat (W * H))%nat; [|lia].
    apply inside_NoDup_length; [assumption|]. intros p Hp.
    apply (freach_inside W H bx by_ seed g Hs Hg p (Hl p Hp)).
  - exists g', l', pts. split; [assumption|]. split; [assumption|].
    intros p Hp. apply (freach_inside W H bx by_ seed g Hs Hg p). apply Hin, Hp.
Qed.

Lemma fg_outcome W H bx by_ phase np ms : 2 <= W -> 2 <= H ->
  let large := exists p n, inside W H p /\ region_indexed W H bx by_ phase p /\
                 region_size W H bx by_ p n /\ ms <= Z.of_nat n in
  let indexed := exists p, inside W H p /\ phase p <> 0 in
  (large -> exists r, find_grains W H bx by_ phase np ms = Ok r) /\
  (indexed -> ~ large -> find_grains W H bx by_ phase np ms = Err IndexError) /\
  (~ indexed -> find_grains W H bx by_ phase np ms = Err ValueError).
Proof.
  intros HW HH large indexed.
  assert (large -> indexed) as Hli.
  { intros [p [n [Hp [[q [Hq [_ Hph]]] _]]]]. exists q; auto. }
  split; [|split].
  - intros Hl.
    destruct (find_grains_indexed W H bx by_ phase np ms HW HH (Hli Hl))
      as [[lab [gl [ph [E _]]]]|[_ Hall]]; [eauto|].
    exfalso. destruct Hl as [p [n [Hp [Hr [Hn Hge]]]]].
    destruct (Hall p Hp Hr) as [m [Hm Hlt]].
    rewrite (region_size_fun _ _ _ _ _ _ _ Hn Hm) in Hge. lia.
  - intros Hi Hnl.
    destruct (find_grains_indexed W H bx by_ phase np ms HW HH Hi)
      as [[lab [gl [ph [E Hl]]]]|[E _]]; [|assumption].
    exfalso; apply Hnl; exact Hl.
  - intros Hn. apply find_grains_none; [assumption|assumption|].
    destruct (indexed_dec W H bx by_ phase ms HW HH) as [Hy|Hy]; [|assumption]. exfalso; exact (Hn Hy).
Qed.
