(** Proofs about flood_fill_dic and the DIC grain finding loop. *)
From Coq Require Import List ZArith Bool Lia Relations Permutation.
Import ListNotations.
From Verif Require Import Py Grid Grid_Lemmas Flood_Model Flood_Spec Flood_Proofs.
From Coq Require Import ZifyBool ZifyNat.
Open Scope Z_scope.

Definition rd (p q : pix) : Prop :=
  q = (fst p + 1, snd p) \/ q = (fst p, snd p + 1).

Section FillDic.
  Variables (W H : Z) (cap : nat).
  Variables (seed : pix) (index : Z) (g0 : pix -> Z) (l0 : pix -> bool).
  Hypothesis HW : 2 <= W.
  Hypothesis HH : 2 <= H.
  Hypothesis Hseed : inside W H seed.
  Hypothesis Hseedfree : g0 seed = 0.
  Hypothesis Hindex : 0 < index.

  Definition dfstep (p q : pix) : Prop :=
    inside W H q /\ neighbours p q /\ g0 q = 0.
  Definition dfreach : pix -> Prop := clos_refl_trans_n1 pix dfstep seed.
  Definition absorbed (q : pix) : Prop :=
    inside W H q /\ g0 q = -1 /\ exists p, dfreach p /\ rd p q.

  Hypothesis Hcap : forall l, NoDup l ->
    (forall p, In p l -> dfreach p \/ absorbed p) -> (length l <= cap)%nat.

  Lemma dfreach_inside p : dfreach p -> inside W H p /\ g0 p = 0.
  Proof.
    intros Hr; inversion Hr as [|q r [Hs [Hn Hf]] Hr2]; subst; split; assumption.
  Qed.

  Definition core (pts : list pix) : list pix := filter (fun p => g0 p =? 0) pts.

  Record DFInv (pend : pix -> Prop) (st : fstate) : Prop := {
    di_nodup : NoDup (f_pts st);
    di_head : exists r, f_pts st = seed :: r;
    di_reach : forall p, In p (f_pts st) -> dfreach p \/ absorbed p;
    di_g : forall p, f_grains st p = if pix_in p (f_pts st) then index else g0 p;
    di_l : forall p, f_left st p = if pix_in p (f_pts st) then false else l0 p;
    di_edge : forall p, In p (f_edge st) -> In p (f_pts st) /\ g0 p = 0;
    di_closed : forall p q, In p (f_pts st) -> g0 p = 0 -> ~ In p (f_edge st) ->
      ~ pend p -> dfstep p q -> In q (f_pts st);
    di_absorb : forall p q, In p (f_pts st) -> g0 p = 0 -> ~ In p (f_edge st) ->
      ~ pend p -> rd p q -> inside W H q -> g0 q = -1 -> In q (f_pts st)
  }.

  Lemma core_snoc l m : core (l ++ [m]) = core l ++ (if g0 m =? 0 then [m] else []).
  Proof. unfold core. rewrite filter_app. cbn [filter]. now destruct (g0 m =? 0). Qed.

  Lemma ffd_move_spec pend p st m :
    DFInv pend st -> In p (f_pts st) -> g0 p = 0 -> pend p ->
    inside W H m -> neighbours p m ->
    exists st', ffd_move W H cap index p st m = Ok st' /\
      DFInv pend st' /\
      (forall q, In q (f_pts st) -> In q (f_pts st')) /\
      (dfstep p m -> In m (f_pts st')) /\
      (rd p m -> g0 m = -1 -> In m (f_pts st')) /\
      (length (core (f_pts st')) + length (f_edge st) =
       length (core (f_pts st)) + length (f_edge st'))%nat.
  Proof.
    intros Inv Hp Hp0 Hpend Hm Hn.
    assert (dfreach p) as Hpr.
    { destruct (di_reach _ _ Inv p Hp) as [Hr|[_ [Ha _]]]; [assumption|lia]. }
    assert (rd p m <-> fst m > fst p \/ snd m > snd p) as Hrd.
    { clear - Hn. destruct p as [x y], m as [s t]; unfold rd, neighbours in *; cbn [fst snd] in *.
      split; [intros [E|E]; inversion E; lia|].
      intros [E|E]; [left|right]; f_equal; lia. }
    unfold ffd_move. destruct p as [x y], m as [s t]. cbn [fst snd] in Hrd.
    rewrite (aget_inside W H (f_grains st)) by assumption. cbn [bind].
    rewrite (di_g _ _ Inv (s, t)).
    destruct (pix_in_spec (s, t) (f_pts st)) as [Hin|Hnin].
    { destruct (Z.eqb_spec index 0); [lia|]. destruct (Z.eqb_spec index (-1)); [lia|].
      cbn [andb]. exists st. split; [reflexivity|]. split; [assumption|].
      split; [auto|]. split; [auto|]. split; [auto|]. lia. }
    assert (forall e, dfreach (s, t) \/ absorbed (s, t) ->
              (forall q, In q e -> In q (f_pts st ++ [(s, t)]) /\ g0 q = 0) ->
              (forall q, In q (f_edge st) -> In q e) ->
              (g0 (s, t) = 0 -> In (s, t) e) ->
              exists st', add_point cap index st (s, t) e = Ok st' /\
                DFInv pend st' /\ f_pts st' = f_pts st ++ [(s, t)] /\ f_edge st' = e) as Hadd.
    { intros e Hr He Hsub Hse. unfold add_point.
      assert (NoDup (f_pts st ++ [(s, t)])) as Hnd'.
      { apply (Permutation_NoDup (Permutation_cons_append (f_pts st) (s, t))).
        constructor; [assumption | apply Inv]. }
      assert (forall q, In q (f_pts st ++ [(s, t)]) -> dfreach q \/ absorbed q) as Hr'.
      { intros q Hq. apply in_app_or in Hq. destruct Hq as [Hq|[<-|[]]]; auto.
        eapply di_reach; eauto. }
      destruct (Nat.leb_spec cap (length (f_pts st))) as [Hc|Hc].
      { exfalso. pose proof (Hcap _ Hnd' Hr') as Hle. rewrite app_length in Hle; cbn in Hle. lia. }
      eexists; split; [reflexivity|]. split; [|split; reflexivity].
      split; cbn [f_pts f_edge f_grains f_left]; auto.
      - destruct (di_head _ _ Inv) as [r Er]. rewrite Er. eexists; reflexivity.
      - intros q. rewrite pix_in_snoc, pix_eqb_sym. unfold upd.
        rewrite (di_g _ _ Inv q). destruct (pix_eqb (s, t) q), (pix_in q (f_pts st)); reflexivity.
      - intros q. rewrite pix_in_snoc, pix_eqb_sym. unfold upd.
        rewrite (di_l _ _ Inv q). destruct (pix_eqb (s, t) q), (pix_in q (f_pts st)); reflexivity.
      - intros q r Hq Hq0 Hne Hnp Hsr. apply in_app_or in Hq. apply in_or_app. left.
        destruct Hq as [Hq|[<-|[]]].
        + eapply (di_closed _ _ Inv q r); eauto.
        + exfalso; auto.
      - intros q r Hq Hq0 Hne Hnp Hsr Hri Hr1. apply in_app_or in Hq. apply in_or_app. left.
        destruct Hq as [Hq|[<-|[]]].
        + eapply (di_absorb _ _ Inv q r); eauto.
        + exfalso; auto. }
    destruct (Z.eqb_spec (g0 (s, t)) 0) as [E0|E0].
    { destruct (Hadd ((s, t) :: f_edge st)) as [st' [E [Inv' [Ep Ee]]]].
      - left. econstructor; [|exact Hpr]. repeat split; try assumption; apply Hm.
      - intros q [<-|Hq].
        + split; [apply in_or_app; right; left; reflexivity | assumption].
        + destruct (di_edge _ _ Inv q Hq). split; [apply in_or_app; left|]; assumption.
      - intros; right; assumption.
      - intros; left; reflexivity.
      - exists st'. split; [assumption|]. split; [assumption|]. rewrite Ep, Ee.
        split; [intros; apply in_or_app; auto|].
        split; [intros; apply in_or_app; right; left; reflexivity|].
        split; [intros; apply in_or_app; right; left; reflexivity|].
        rewrite core_snoc, E0. cbn [Z.eqb]. rewrite app_length. cbn [length]. lia. }
    destruct (Z.eqb_spec (g0 (s, t)) (-1)) as [E1|E1]; cbn [andb].
    2:{ exists st. split; [reflexivity|]. split; [assumption|]. split; [auto|].
        split; [intros [_ [_ Hz]]; congruence|]. split; [intros; congruence|]. lia. }
    destruct ((s >? x) || (t >? y)) eqn:Edir.
    2:{ exists st. split; [reflexivity|]. split; [assumption|]. split; [auto|].
        split; [intros [_ [_ Hz]]; congruence|]. split; [|lia].
        intros Hr. apply Hrd in Hr. lia. }
    destruct (Hadd (f_edge st)) as [st' [E [Inv' [Ep Ee]]]].
    - right. split; [assumption|]. split; [assumption|]. exists (x, y).
      split; [assumption|]. apply Hrd. lia.
    - intros q Hq. destruct (di_edge _ _ Inv q Hq).
      split; [apply in_or_app; left|]; assumption.
    - auto.
    - congruence.
    - exists st'. split; [assumption|]. split; [assumption|]. rewrite Ep, Ee.
      split; [intros; apply in_or_app; auto|].
      split; [intros; apply in_or_app; right; left; reflexivity|].
      split; [intros; apply in_or_app; right; left; reflexivity|].
      rewrite core_snoc. destruct (Z.eqb_spec (g0 (s, t)) 0); [lia|].
      rewrite app_nil_r. lia.
  Qed.

  Lemma ffd_moves_spec pend p ms : forall st,
    DFInv pend st -> In p (f_pts st) -> g0 p = 0 -> pend p ->
    (forall m, In m ms -> inside W H m /\ neighbours p m) ->
    exists st', for_each (ffd_move W H cap index p) ms st = Ok st' /\
      DFInv pend st' /\
      (forall q, In q (f_pts st) -> In q (f_pts st')) /\
      (forall m, In m ms -> dfstep p m -> In m (f_pts st')) /\
      (forall m, In m ms -> rd p m -> g0 m = -1 -> In m (f_pts st')) /\
      (length (core (f_pts st')) + length (f_edge st) =
       length (core (f_pts st)) + length (f_edge st'))%nat.
  Proof.
    induction ms as [|m ms IH]; intros st Inv Hp Hp0 Hpend Hms; cbn [for_each].
    - exists st. split; [reflexivity|]. split; [assumption|].
      split; [auto|]. split; [intros m []|]. split; [intros m []|]. lia.
    - destruct (Hms m) as [Hmi Hmn]; [left; reflexivity|].
      destruct (ffd_move_spec pend p st m Inv Hp Hp0 Hpend Hmi Hmn)
        as [st1 [E1 [Inv1 [Hmono1 [Hm1 [Ha1 Hlen1]]]]]].
      rewrite E1; cbn [bind].
      destruct (IH st1 Inv1) as [st2 [E2 [Inv2 [Hmono2 [Hm2 [Ha2 Hlen2]]]]]];
        [auto | assumption | assumption | intros; apply Hms; right; assumption |].
      exists st2. split; [assumption|]. split; [assumption|].
      split; [auto|]. split; [|split; [|lia]].
      + intros q [<-|Hq] Hs; auto.
      + intros q [<-|Hq] Hs H1; auto.
  Qed.

  Definition dnone : pix -> Prop := fun _ => False.

  Lemma core_len st : DFInv dnone st ->
    (length (core (f_pts st)) <= Z.to_nat (W * H))%nat.
  Proof.
    intros Inv. apply inside_NoDup_length.
    - apply NoDup_filter. apply Inv.
    - intros p Hp. apply filter_In in Hp. destruct Hp as [Hp Hp0].
      destruct (di_reach _ _ Inv p Hp) as [Hr|Ha]; [apply dfreach_inside; assumption | apply Ha].
  Qed.

  Lemma ffd_loop_spec fuel : forall st,
    DFInv dnone st ->
    (length (f_edge st) <= length (core (f_pts st)))%nat ->
    (Z.to_nat (W * H) < fuel + (length (core (f_pts st)) - length (f_edge st)))%nat ->
    exists st', ffd_loop fuel W H cap index st = Ok st' /\
      DFInv dnone st' /\ f_edge st' = [].
  Proof.
    induction fuel as [|fuel IH]; intros st Inv Hle Hfuel; cbn [ffd_loop].
    - destruct (f_edge st) as [|p rest] eqn:Ee.
      + exists st; auto.
      + pose proof (core_len st Inv). cbn [length] in *. lia.
    - destruct (f_edge st) as [|p rest] eqn:Ee; [exists st; auto|].
      set (st0 := mkF (f_grains st) (f_left st) rest (f_pts st)).
      assert (In p (f_pts st) /\ g0 p = 0) as [Hp Hp0]
        by (eapply di_edge; [eassumption | rewrite Ee; left; reflexivity]).
      assert (DFInv (fun q => q = p) st0) as Inv0.
      { unfold st0; split; cbn [f_pts f_edge f_grains f_left]; try apply Inv.
        - intros q Hq; eapply di_edge; [eassumption | rewrite Ee; right; assumption].
        - intros q r Hq Hq0 Hne Hnp Hs. eapply (di_closed _ _ Inv q r); eauto.
          rewrite Ee. intros [->|Hin]; auto.
        - intros q r Hq Hq0 Hne Hnp Hs Hri Hr1. eapply (di_absorb _ _ Inv q r); eauto.
          rewrite Ee. intros [->|Hin]; auto. }
      assert (inside W H p) as Hpi.
      { destruct (di_reach _ _ Inv p Hp) as [Hr|[Ha _]]; [apply dfreach_inside|]; assumption. }
      destruct (ffd_moves_spec (fun q => q = p) p (moves W H p) st0 Inv0 Hp Hp0 eq_refl)
        as [st1 [E1 [Inv1 [Hmono [Hms [Has Hlen]]]]]].
      { intros m Hm. apply (moves_In W H p m HW HH Hpi); assumption. }
      rewrite E1; cbn [bind].
      unfold st0 in Hlen; cbn [f_pts f_edge] in Hlen. cbn [length] in Hle, Hfuel.
      apply IH; [|lia|lia].
      split; try apply Inv1.
      + intros q r Hq Hq0 Hne _ Hs.
        destruct (pix_dec q p) as [->|Hqp].
        * apply Hms; [|assumption].
          apply (moves_In W H p r HW HH Hpi). destruct Hs as [Hri [Hn _]]. auto.
        * eapply (di_closed _ _ Inv1); eauto.
      + intros q r Hq Hq0 Hne _ Hs Hri Hr1.
        destruct (pix_dec q p) as [->|Hqp].
        * apply Has; try assumption.
          apply (moves_In W H p r HW HH Hpi). split; [assumption|].
          unfold neighbours. destruct Hs as [-> | ->]; cbn [fst snd]; lia.
        * eapply (di_absorb _ _ Inv1); eauto.
  Qed.

  Lemma flood_fill_dic_spec :
    exists pts g l, flood_fill_dic W H cap seed index g0 l0 = Ok (g, l, pts) /\
      (forall p, g p = if pix_in p pts then index else g0 p) /\
      (forall p, l p = if pix_in p pts then false else l0 p) /\
      NoDup pts /\ (exists r, pts = seed :: r) /\
      (forall p, In p pts <-> dfreach p \/ absorbed p).
  Proof.
    unfold flood_fill_dic, ff_init.
    rewrite (aget_inside W H g0) by assumption. cbn [bind].
    unfold add_point; cbn [f_pts length].
    assert (1 <= cap)%nat as Hc1.
    { apply (Hcap [seed]); [constructor; [intros [] | constructor]|].
      intros p [<-|[]]. left; constructor. }
    destruct (Nat.leb_spec cap 0) as [Hc|_]; [lia|]. cbn [bind app f_grains f_left].
    set (st0 := mkF (upd g0 seed index) (upd l0 seed false) [seed] [seed]).
    assert (DFInv dnone st0) as Inv0.
    { unfold st0; split; cbn [f_pts f_edge f_grains f_left].
      - constructor; [intros [] | constructor].
      - eexists; reflexivity.
      - intros p [<-|[]]. left; constructor.
      - intros p. unfold upd. rewrite pix_eqb_sym.
        unfold pix_in; cbn [existsb]. destruct (pix_eqb p seed); reflexivity.
      - intros p. unfold upd. rewrite pix_eqb_sym.
        unfold pix_in; cbn [existsb]. destruct (pix_eqb p seed); reflexivity.
      - intros p [<-|[]]. split; [left; reflexivity | assumption].
      - intros p q [<-|[]] _ Hne. exfalso; apply Hne; left; reflexivity.
      - intros p q [<-|[]] _ Hne. exfalso; apply Hne; left; reflexivity. }
    assert (length (core (f_pts st0)) = 1%nat) as Hcore.
    { unfold st0, core; cbn [f_pts filter]. rewrite Hseedfree. reflexivity. }
    destruct (ffd_loop_spec (S (Z.to_nat (W * H))) st0 Inv0) as [st [E [Inv Hedge]]];
      [rewrite Hcore; cbn; lia | rewrite Hcore; cbn; lia |].
    rewrite E; cbn [bind].
    exists (f_pts st), (f_grains st), (f_left st).
    split; [reflexivity|]. split; [apply Inv|]. split; [apply Inv|].
    split; [apply Inv|]. split; [apply Inv|].
    assert (forall p, dfreach p -> In p (f_pts st)) as Hall.
    { intros p Hr. induction Hr as [|p q Hs Hr IHr].
      - destruct (di_head _ _ Inv) as [r ->]; left; reflexivity.
      - eapply (di_closed _ _ Inv p q); eauto.
        + apply dfreach_inside in Hr. apply Hr.
        + rewrite Hedge; intros []. }
    intros p; split; [apply Inv|].
    intros [Hr|[Hpi [Hp1 [q [Hq Hrd]]]]]; [auto|].
    eapply (di_absorb _ _ Inv q p); auto.
    - apply dfreach_inside in Hq. apply Hq.
    - rewrite Hedge; intros [].
  Qed.
End FillDic.

(** ** Facts about the specification's relations *)
Lemma dic_step_sym W H bnd p q : dic_step W H bnd p q -> dic_step W H bnd q p.
Proof. unfold dic_step, neighbours. intros [A [B [C [D E]]]]. repeat (split; [assumption|]).
  split; [lia|]. auto. Qed.

Lemma dic_conn_sym W H bnd p q : dic_connected W H bnd p q -> dic_connected W H bnd q p.
Proof.
  intros Hc; induction Hc; [apply rt_step, dic_step_sym; assumption | apply rt_refl |].
  eapply rt_trans; eassumption.
Qed.

Lemma dic_conn_in W H bnd p q : dic_connected W H bnd p q ->
  inside W H p -> bnd p = false -> inside W H q /\ bnd q = false.
Proof.
  intros Hc; induction Hc as [p q [A [B [C [D E]]]]| |p q r _ IH1 _ IH2]; auto.
  intros Hp Hb. destruct (IH1 Hp Hb); auto.
Qed.

Lemma dic_owner_cand W H bnd b c : dic_owner W H bnd b c -> dic_candidate W H bnd b c.
Proof. intros [_ [_ [Hc _]]]; exact Hc. Qed.

Lemma dic_owner_unique W H bnd b c c' :
  dic_owner W H bnd b c -> dic_owner W H bnd b c' -> dic_connected W H bnd c c'.
Proof.
  intros [_ [_ [Hc [f [Hf Hm]]]]] [_ [_ [Hc' [f' [Hf' Hm']]]]].
  pose proof (Hm c' f' Hc' Hf') as L1. pose proof (Hm' c f Hc Hf) as L2.
  destruct Hc as [Ci [Cb _]], Hc' as [Ci' [Cb' _]].
  destruct (dic_conn_in _ _ _ _ _ Hf Ci Cb) as [Hfi _].
  destruct (dic_conn_in _ _ _ _ _ Hf' Ci' Cb') as [Hfi' _].
  assert (f = f') as -> by (apply (flat_inj W H); auto; lia).
  eapply rt_trans; [exact Hf | apply dic_conn_sym; exact Hf'].
Qed.

Lemma dic_territory_conn W H bnd p p' q : dic_connected W H bnd p p' ->
  (dic_territory W H bnd p q <-> dic_territory W H bnd p' q).
Proof.
  intros Hc. pose proof (dic_conn_sym _ _ _ _ _ Hc) as Hc'.
  split; (intros [Ht|[c [Ho Ht]]]; [left|right; exists c; split; [assumption|]]);
    (eapply rt_trans; [|exact Ht]; assumption).
Qed.

Section OuterDic.
  Variables (W H : Z) (bnd : pix -> bool) (min_size : Z).
  Hypothesis HW : 2 <= W.
  Hypothesis HH : 2 <= H.
  Let conn := dic_connected W H bnd.
  Let terr := dic_territory W H bnd.

  Definition grain_okd (g : pix -> Z) (next : Z) (k : nat) (pts : list pix) : Prop :=
    NoDup pts /\
    (forall p, In p pts <-> inside W H p /\ g p = Z.of_nat k + 1) /\
    min_size <= Z.of_nat (length pts) /\
    exists seed r, pts = seed :: r /\ inside W H seed /\ bnd seed = false /\
      flat W seed < next /\
      (forall p, In p pts <-> terr seed p) /\
      (forall q, In q pts -> bnd q = false -> flat W seed <= flat W q).

  Record DInv (s : gstate) : Prop := {
    do_class : forall p q, dic_step W H bnd p q -> g_grains s p = g_grains s q;
    do_free : forall p, inside W H p -> bnd p = false ->
      g_grains s p = 0 \/ g_grains s p = -2 \/
      1 <= g_grains s p <= Z.of_nat (length (g_list s));
    do_bnd : forall b, inside W H b -> bnd b = true ->
      (g_grains s b = -1 /\
       forall c, dic_candidate W H bnd b c -> g_grains s c = 0) \/
      (exists c, dic_owner W H bnd b c /\ g_grains s b = g_grains s c /\ g_grains s c <> 0);
    do_index : g_index s = Z.of_nat (length (g_list s)) + 1;
    do_left : forall p, inside W H p -> g_left s p = (g_grains s p =? 0);
    do_list : forall k pts, nth_error (g_list s) k = Some pts ->
      grain_okd (g_grains s) (g_next s) k pts;
    do_order : forall k1 k2 p1 r1 p2 r2, (k1 < k2)%nat ->
      nth_error (g_list s) k1 = Some (p1 :: r1) ->
      nth_error (g_list s) k2 = Some (p2 :: r2) -> flat W p1 < flat W p2;
    do_small : forall p, inside W H p -> bnd p = false -> g_grains s p = -2 ->
      exists n, dic_territory_size W H bnd p n /\ Z.of_nat n < min_size;
    do_before : forall p, inside W H p -> g_left s p = true -> g_next s <= flat W p;
    do_cap : forall l, NoDup l ->
      (forall p, In p l -> inside W H p /\ (g_grains s p = 0 \/ g_grains s p = -1)) ->
      (length l <= g_cap s)%nat
  }.

  Lemma DInv_conn s : DInv s -> forall p q, conn p q -> g_grains s p = g_grains s q.
  Proof.
    intros Inv p q Hc; induction Hc; [eapply do_class; eauto | reflexivity | congruence].
  Qed.

  Lemma DInv_zero s : DInv s -> forall p, inside W H p -> g_grains s p = 0 -> bnd p = false.
  Proof.
    intros Inv p Hp Hz. destruct (bnd p) eqn:Eb; [|reflexivity].
    destruct (do_bnd _ Inv p Hp Eb) as [[E _]|[c [_ [E Hn]]]]; congruence.
  Qed.

  Lemma DInv_m1 s : DInv s -> forall p, inside W H p -> g_grains s p = -1 -> bnd p = true.
  Proof.
    intros Inv p Hp Hz. destruct (bnd p) eqn:Eb; [reflexivity|].
    pose proof (do_free _ Inv p Hp Eb). lia.
  Qed.

  Lemma dpass_spec s :
    DInv s -> 0 <= g_next s < W * H -> g_left s (unflat W (g_next s)) = true ->
    exists s' found,
      grain_pass (flood_fill_dic W H) W H min_size s = Ok (s', found) /\
      ((found = -1 /\ g_next s' = g_next s /\
        DInv (mkG (g_grains s') (g_left s') (g_cap s') (g_index s') (g_list s') (W * H)))
       \/
       (0 <= found /\ DInv s' /\ g_next s < g_next s' < W * H /\
        g_left s' (unflat W (g_next s')) = true)).
  Proof.
    intros Inv Hnext Hleft.
    set (seed := unflat W (g_next s)) in *.
    assert (inside W H seed) as Hseed by (apply unflat_inside; lia).
    assert (flat W seed = g_next s) as Hfs by (apply flat_unflat; lia).
    pose proof (do_left _ Inv seed Hseed) as El. rewrite Hleft in El.
    assert (g_grains s seed = 0) as Hg0 by lia.
    assert (bnd seed = false) as Hbs by (eapply DInv_zero; eauto).
    assert (forall p, conn seed p -> inside W H p /\ bnd p = false /\ g_grains s p = 0) as Hc0.
    { intros p Hc. destruct (dic_conn_in _ _ _ _ _ Hc Hseed Hbs) as [A B].
      split; [assumption|]. split; [assumption|].
      now rewrite <- (DInv_conn s Inv seed p Hc). }
    assert (forall p, dfreach W H seed (g_grains s) p <-> conn seed p) as Hfc.
    { intros p; split.
      - intros Hr. induction Hr as [|p q [Hqi [Hn Hq0]] _ IH]; [apply rt_refl|].
        eapply rt_trans; [exact IH | apply rt_step].
        destruct (Hc0 p IH) as [A [B _]].
        split; [assumption|]. split; [assumption|]. split; [assumption|]. split; [assumption|].
        eapply DInv_zero; eauto.
      - intros Hc. apply clos_rt_rtn1 in Hc.
        induction Hc as [|p q Hs Hc IH]; [constructor|].
        econstructor; [|exact IH].
        assert (conn seed q) as Hsq by (apply clos_rtn1_rt; econstructor; eassumption).
        destruct (Hc0 q Hsq) as [A [_ B]].
        split; [assumption|]. split; [apply Hs|assumption]. }
    assert (forall q, absorbed W H seed (g_grains s) q <->
              exists c, dic_owner W H bnd q c /\ conn seed c) as Habs.
    { intros q; split.
      - intros [Hq [Hq1 [p [Hp Hrd]]]]. apply Hfc in Hp.
        destruct (Hc0 p Hp) as [Hpi [Hpb Hp0]].
        assert (bnd q = true) as Hqb by (eapply DInv_m1; eauto).
        destruct (do_bnd _ Inv q Hq Hqb) as [[_ Hcs]|[c [Ho [E1 E2]]]].
        + exists p. split; [|assumption].
          split; [assumption|]. split; [assumption|].
          split; [split; [assumption|]; split; [assumption|]; exact Hrd|].
          exists seed. split; [apply dic_conn_sym; exact Hp|].
          intros c' r Hc' Hcr. rewrite Hfs.
          destruct Hc' as [Ci [Cb Cr]] eqn:Ec'.
          destruct (dic_conn_in _ _ _ _ _ Hcr Ci Cb) as [Hri _].
          apply (do_before _ Inv r Hri). rewrite (do_left _ Inv r Hri).
          rewrite <- (DInv_conn s Inv c' r Hcr), (Hcs c' Hc'). reflexivity.
        + exfalso. destruct (dic_owner_cand _ _ _ _ _ Ho) as [Ci [Cb _]].
          pose proof (do_free _ Inv c Ci Cb). lia.
      - intros [c [Ho Hc]]. destruct (Hc0 c Hc) as [Hci [Hcb Hcz]].
        destruct Ho as [Hq [Hqb [Hcand Hmin]]] eqn:EHo.
        split; [assumption|]. split.
        + destruct (do_bnd _ Inv q Hq Hqb) as [[E _]|[c2 [Ho2 [E1 E2]]]]; [assumption|exfalso].
          apply E2. rewrite <- (DInv_conn s Inv c c2); [assumption|].
          eapply dic_owner_unique; eauto.
        + exists c. split; [apply Hfc; assumption | apply Hcand]. }
    destruct (flood_fill_dic_spec W H (g_cap s) seed (g_index s) (g_grains s)
                (g_left s) HW HH Hseed Hg0)
      as [pts [g [l [Efill [Eg [Elf [Hnd [[r Hpts] Hin]]]]]]]].
    { rewrite (do_index _ Inv). lia. }
    { intros lst Hlnd Hl. apply (do_cap _ Inv lst Hlnd).
      intros p Hp. destruct (Hl p Hp) as [Hr|Ha].
      - apply Hfc, Hc0 in Hr. tauto.
      - destruct Ha as [A [B _]]. auto. }
    assert (forall p, In p pts <-> terr seed p) as Hin'.
    { intros p; rewrite Hin, Hfc, Habs. reflexivity. }
    assert (forall p, In p pts -> inside W H p /\
              (bnd p = false /\ conn seed p /\ g_grains s p = 0 \/
               bnd p = true /\ g_grains s p = -1)) as Hpts0.
    { intros p Hp. apply Hin in Hp. destruct Hp as [Hr|Ha].
      - apply Hfc in Hr. destruct (Hc0 p Hr) as [A [B C]]. split; [assumption|]. left; auto.
      - destruct Ha as [A [B C]]. split; [assumption|]. right. split; [|assumption].
        eapply DInv_m1; eauto. }
    assert (forall p, conn seed p -> In p pts) as Hcin.
    { intros p Hp. apply Hin'. left; exact Hp. }
    assert (forall p q, dic_step W H bnd p q -> pix_in p pts = pix_in q pts) as Hcls.
    { intros p q Hs. pose proof Hs as [_ [_ [_ [Bp Bq]]]].
      destruct (pix_in_spec p pts) as [Hp|Hp], (pix_in_spec q pts) as [Hq|Hq]; auto; exfalso.
      - apply Hq, Hcin. destruct (Hpts0 p Hp) as [_ [[_ [Hc _]]|[Hb _]]]; [|congruence].
        eapply rt_trans; [exact Hc | apply rt_step; assumption].
      - apply Hp, Hcin. destruct (Hpts0 q Hq) as [_ [[_ [Hc _]]|[Hb _]]]; [|congruence].
        eapply rt_trans; [exact Hc | apply rt_step, dic_step_sym; assumption]. }
    unfold grain_pass.
    destruct (Z.ltb_spec (g_next s) 0); [lia|].
    destruct (Z.leb_spec (W * H) (g_next s)); [lia|]. cbn [orb].
    fold seed. rewrite Efill. cbn [bind].
    set (fnd := find_left W H l (g_next s + 1)).
    pose proof (find_left_spec W H l (g_next s + 1) ltac:(lia) ltac:(lia)) as Hfind.
    cbn zeta in Hfind. fold fnd in Hfind.
    set (small := Z.of_nat (length pts) <? min_size) in *.
    set (g' := if small then set_small pts g else g).
    set (lst := if small then g_list s else g_list s ++ [pts]).
    set (idx := if small then g_index s else g_index s + 1).
    assert (forall p, g' p = if pix_in p pts then (if small then -2 else g_index s)
                             else g_grains s p) as Eg'.
    { intros p. unfold g'. destruct small; [rewrite set_small_spec|]; rewrite Eg;
        destruct (pix_in p pts); reflexivity. }
    pose proof (do_index _ Inv) as Hidx.
    assert (forall nx, g_next s < nx ->
      (forall p, inside W H p -> l p = true -> nx <= flat W p) ->
      DInv (mkG g' l (g_cap s - length pts) idx lst nx)) as Hnew.
    { intros nx Hnx Hbefore.
      split; cbn [g_grains g_left g_cap g_index g_list g_next].
      - intros p q Hs. rewrite !Eg', (Hcls p q Hs).
        destruct (pix_in q pts); [reflexivity|]. eapply do_class; eauto.
      - intros p Hp Hb. rewrite Eg'. unfold lst.
        pose proof (do_free _ Inv p Hp Hb) as Hv.
        destruct (pix_in p pts); destruct small; auto;
          rewrite ?app_length; cbn [length]; lia.
      - intros b Hb Hbb.
        destruct (pix_in_spec b pts) as [Hbp|Hbp].
        + right. apply Hin' in Hbp as Hbt. destruct Hbt as [Hc|[c [Ho Hc]]].
          { destruct (Hc0 b Hc) as [_ [Hx _]]. congruence. }
          exists c. split; [assumption|]. rewrite !Eg'.
          destruct (pix_in_spec b pts); [|tauto].
          destruct (pix_in_spec c pts) as [_|Hnc]; [|exfalso; apply Hnc, Hcin; exact Hc].
          split; [reflexivity|]. destruct small; lia.
        + destruct (do_bnd _ Inv b Hb Hbb) as [[E Hcs]|[c [Ho [E1 E2]]]].
          * left. rewrite Eg'. destruct (pix_in_spec b pts); [tauto|].
            split; [assumption|]. intros c Hc. rewrite Eg'.
            destruct (pix_in_spec c pts) as [Hcp|_]; [|auto]. exfalso.
            destruct Hc as [Ci [Cb Cr]].
            destruct (Hpts0 c Hcp) as [_ [[_ [Hcc _]]|[Hx _]]]; [|congruence].
            apply Hbp, Hin. right. split; [assumption|]. split; [assumption|].
            exists c. split; [apply Hfc; exact Hcc | exact Cr].
          * right. exists c. split; [assumption|]. rewrite !Eg'.
            destruct (pix_in_spec b pts); [tauto|].
            destruct (pix_in_spec c pts) as [Hcp|_]; [exfalso|auto].
            destruct (dic_owner_cand _ _ _ _ _ Ho) as [_ [Cb _]].
            destruct (Hpts0 c Hcp) as [_ [[_ [_ Hx]]|[Hx _]]]; congruence.
      - unfold idx, lst.
        destruct small; rewrite ?app_length; cbn [length]; lia.
      - intros p Hp. rewrite Elf, Eg'.
        destruct (pix_in p pts).
        + destruct small; [reflexivity|]. lia.
        + apply (do_left _ Inv p Hp).
      - intros k q Hk. unfold lst in Hk.
        assert (nth_error (g_list s) k = Some q \/
                (small = false /\ k = length (g_list s) /\ q = pts)) as Hk'.
        { destruct small; [auto|]. apply nth_error_snoc in Hk. tauto. }
        destruct Hk' as [Hk'|[Hsm [-> ->]]].
        + destruct (do_list _ Inv k q Hk') as [A [B [C [sd [rr [D1 [D2 [D3 [D4 [D5 D6]]]]]]]]]].
          split; [assumption|]. split; [|split; [assumption|]].
          * intros p. rewrite B, Eg'. destruct (pix_in_spec p pts) as [Hpp|Hpp]; [|tauto].
            destruct (Hpts0 p Hpp) as [_ Hp0].
            assert (k < length (g_list s))%nat by (apply nth_error_Some; congruence).
            split; intros [Hi Hg]; exfalso; destruct small; lia.
          * exists sd, rr. do 3 (split; [assumption|]). split; [lia|]. split; assumption.
        + rewrite Hsm in Eg'.
          split; [assumption|]. split; [|split].
          * intros p. rewrite Eg'. destruct (pix_in_spec p pts) as [Hpp|Hpp].
            -- split; [|tauto]. intros _. split; [apply Hpts0; assumption | lia].
            -- split; [tauto|]. intros [Hp Hg]. exfalso.
               destruct (bnd p) eqn:Eb.
               ++ destruct (do_bnd _ Inv p Hp Eb) as [[E _]|[c [Ho [E1 _]]]]; [lia|].
                  destruct (dic_owner_cand _ _ _ _ _ Ho) as [Ci [Cb _]].
                  pose proof (do_free _ Inv c Ci Cb). lia.
               ++ pose proof (do_free _ Inv p Hp Eb). lia.
          * unfold small in Hsm. lia.
          * exists seed, r. do 3 (split; [assumption|]). split; [lia|]. split; [assumption|].
            intros q Hq Hpq. rewrite Hfs.
            destruct (Hpts0 q Hq) as [Hqi [[_ [_ Hq0]]|[Hx _]]]; [|congruence].
            apply (do_before _ Inv q Hqi). rewrite (do_left _ Inv q Hqi), Hq0. reflexivity.
      - intros k1 k2 p1 r1 p2 r2 Hlt E1 E2. unfold lst in E1, E2.
        destruct small; [eapply (do_order _ Inv k1 k2); eauto|].
        apply nth_error_snoc in E1, E2.
        destruct E1 as [E1|[-> E1]], E2 as [E2|[-> E2]].
        + eapply (do_order _ Inv k1 k2); eauto.
        + destruct (do_list _ Inv k1 _ E1) as [_ [_ [_ [sd [rr [D1 [_ [_ [D4 _]]]]]]]]].
          injection D1 as -> ->. rewrite Hpts in E2. injection E2 as -> _. lia.
        + assert (k2 < length (g_list s))%nat by (apply nth_error_Some; congruence). lia.
        + lia.
      - intros p Hp Hpb Hg2. rewrite Eg' in Hg2.
        destruct (pix_in_spec p pts) as [Hpp|Hpp].
        + destruct small eqn:Esm; [|lia].
          exists (length pts). split; [|unfold small in Esm; lia].
          exists pts. split; [assumption|]. split; [|reflexivity].
          intros q. rewrite Hin'. apply dic_territory_conn.
          destruct (Hpts0 p Hpp) as [_ [[_ [Hc _]]|[Hx _]]]; [exact Hc|congruence].
        + apply (do_small _ Inv p Hp Hpb Hg2).
      - intros p Hp Hl. apply Hbefore; assumption.
      - intros ll Hlnd Hll.
        assert (forall x, In x pts -> g_grains s x = 0 \/ g_grains s x = -1) as Hp01.
        { intros x Hx. destruct (Hpts0 x Hx) as [_ [[_ [_ E]]|[_ E]]]; auto. }
        assert (length (pts ++ ll) <= g_cap s)%nat as Hlen.
        { apply (do_cap _ Inv).
          - assert (forall x, In x ll -> ~ In x pts) as Hdis.
            { intros x Hx Hxp. destruct (Hll x Hx) as [_ Hx0]. rewrite Eg' in Hx0.
              destruct (pix_in_spec x pts); [|tauto]. destruct small; lia. }
            clear - Hnd Hlnd Hdis. induction Hnd as [|a m Ha Hm IH]; cbn [app]; [assumption|].
            constructor.
            + rewrite in_app_iff; intros [Hin|Hin]; [tauto|].
              apply (Hdis a Hin); left; reflexivity.
            + apply IH. intros x Hx Hxm. apply (Hdis x Hx); right; assumption.
          - intros p Hp. apply in_app_or in Hp. destruct Hp as [Hp|Hp].
            + split; [apply Hpts0; assumption | auto].
            + destruct (Hll p Hp) as [Hpi Hp0]. split; [assumption|].
              rewrite Eg' in Hp0. destruct (pix_in_spec p pts) as [Hpp|Hpp]; auto. }
        rewrite app_length in Hlen. lia. }
    assert (forall nx, g_next s < nx <= W * H ->
              (forall i, g_next s + 1 <= i < nx -> l (unflat W i) = false) ->
              forall p, inside W H p -> l p = true -> nx <= flat W p) as Hbef.
    { intros nx Hnx Hno p Hp Hlp.
      destruct (Z.le_gt_cases nx (flat W p)) as [Hok|Hlt]; [assumption|exfalso].
      pose proof (flat_range W H p Hp) as Hfr.
      assert (flat W p <= g_next s \/ g_next s + 1 <= flat W p < nx) as [Hle|Hmid] by lia.
      - rewrite Elf in Hlp. destruct (pix_in_spec p pts) as [Hpp|Hpp]; [discriminate|].
        pose proof (do_before _ Inv p Hp Hlp) as Hbp.
        assert (p = seed) as ->.
        { apply (flat_inj W H); auto. lia. }
        apply Hpp. rewrite Hpts; left; reflexivity.
      - specialize (Hno (flat W p) Hmid). rewrite (unflat_flat W H p Hp) in Hno. congruence. }
    exists (mkG g' l (g_cap s - length pts) idx lst (g_next s + (fnd + 1))), fnd.
    split.
    { unfold g', idx, lst, small. destruct (Z.of_nat (length pts) <? min_size); reflexivity. }
    cbn [g_grains g_left g_cap g_index g_list g_next].
    destruct Hfind as [[Ef Hno]|[Hf0 [Hf1 [Hft Hno]]]].
    - left. split; [assumption|]. split; [lia|].
      apply Hnew; [lia|]. apply Hbef; [lia|assumption].
    - right. split; [assumption|]. split; [|split].
      + apply Hnew; [lia|]. apply Hbef; [lia|]. intros i Hi. apply Hno. lia.
      + lia.
      + replace (g_next s + (fnd + 1)) with (g_next s + 1 + fnd) by lia. assumption.
  Qed.

  Lemma dloop_spec fuel : forall s,
    DInv s -> 0 <= g_next s < W * H -> g_left s (unflat W (g_next s)) = true ->
    (Z.to_nat (W * H - g_next s) <= fuel)%nat ->
    exists s', grain_loop (flood_fill_dic W H) fuel W H min_size s = Ok s' /\
      DInv (mkG (g_grains s') (g_left s') (g_cap s') (g_index s') (g_list s') (W * H)).
  Proof.
    induction fuel as [|fuel IH]; intros s Inv Hn Hl Hfuel; [lia|].
    cbn [grain_loop].
    destruct (dpass_spec s Inv Hn Hl) as [s' [fnd [E [[Ef [En Inv']]|[Ef [Inv' [Hn' Hl']]]]]]];
      rewrite E; cbn [bind].
    - destruct (Z.leb_spec 0 fnd); [lia|]. exists s'; auto.
    - destruct (Z.leb_spec 0 fnd); [|lia]. apply IH; auto; lia.
  Qed.

  Definition dgrains0 : pix -> Z := fun p => if bnd p then -1 else 0.
  Definition dleft0 : pix -> bool := fun p => dgrains0 p =? 0.
  Definition dinit : gstate :=
    mkG dgrains0 dleft0 (Z.to_nat (W * H)) 1 [] (find_left W H dleft0 0).

  Lemma dleft0_spec p : dleft0 p = negb (bnd p).
  Proof. unfold dleft0, dgrains0; destruct (bnd p); reflexivity. Qed.

  Lemma dinit_inv : DInv dinit.
  Proof.
    unfold dinit.
    pose proof (find_left_spec W H dleft0 0 ltac:(lia) ltac:(nia)) as Hf. cbn zeta in Hf.
    split; cbn [g_grains g_left g_cap g_index g_list g_next].
    - intros p q [_ [_ [_ [A B]]]]. unfold dgrains0. now rewrite A, B.
    - intros p _ Hb. unfold dgrains0. rewrite Hb. auto.
    - intros b _ Hb. left. unfold dgrains0. rewrite Hb. split; [reflexivity|].
      intros c [_ [Cb _]]. now rewrite Cb.
    - reflexivity.
    - reflexivity.
    - intros k pts E. destruct k; discriminate.
    - intros k1 k2 p1 r1 p2 r2 _ E. destruct k1; discriminate.
    - intros p _ Hb E. unfold dgrains0 in E. rewrite Hb in E. lia.
    - intros p Hp Hl. pose proof (flat_range W H p Hp).
      destruct Hf as [[E _]|[Hf0 [_ [_ Hno]]]]; [lia|].
      destruct (Z.le_gt_cases (find_left W H dleft0 0) (flat W p)); [assumption|].
      specialize (Hno (flat W p) ltac:(lia)). rewrite (unflat_flat W H p Hp) in Hno. congruence.
    - intros l Hnd Hl. apply inside_NoDup_length; [assumption|]. intros p Hp; apply Hl, Hp.
  Qed.

  Definition DFin (lab : pix -> Z) (gl : list (list pix)) : Prop :=
    exists lf cap idx, DInv (mkG lab lf cap idx gl (W * H)).

  Lemma dfree_dec :
    (exists p, inside W H p /\ bnd p = false) \/ (forall p, inside W H p -> bnd p = true).
  Proof.
    destruct (existsb (fun p => negb (bnd p)) (all_pix W H)) eqn:E.
    - left. apply existsb_exists in E. destruct E as [p [Hp Hph]].
      exists p. split; [apply all_pix_In in Hp; auto; lia|]. now apply negb_true_iff.
    - right. intros p Hp.
      destruct (bnd p) eqn:Eb; [reflexivity|exfalso].
      assert (existsb (fun p => negb (bnd p)) (all_pix W H) = true); [|congruence].
      apply existsb_exists. exists p. split; [apply all_pix_In; auto; lia|]. now rewrite Eb.
  Qed.

  Lemma dfind_loop : (exists p, inside W H p /\ bnd p = false) ->
    exists s, grain_loop (flood_fill_dic W H) (S (Z.to_nat (W * H))) W H min_size dinit = Ok s /\
      DFin (g_grains s) (g_list s).
  Proof.
    intros [p [Hp Hb]].
    pose proof (find_left_spec W H dleft0 0 ltac:(lia) ltac:(nia)) as Hf. cbn zeta in Hf.
    destruct Hf as [[E Hno]|[Hf0 [Hf1 [Hf2 Hno]]]].
    - exfalso. pose proof (flat_range W H p Hp).
      specialize (Hno (flat W p) ltac:(lia)). rewrite (unflat_flat W H p Hp) in Hno.
      rewrite dleft0_spec, Hb in Hno. discriminate.
    - destruct (dloop_spec (S (Z.to_nat (W * H))) dinit dinit_inv) as [s [E Inv]].
      + cbn [dinit g_next]. lia.
      + cbn [dinit g_next g_left]. rewrite Z.add_0_l in Hf2. assumption.
      + cbn [dinit g_next]. lia.
      + exists s. split; [assumption|]. do 3 eexists; exact Inv.
  Qed.

  Lemma DFin_nz lab gl : DFin lab gl -> forall p, inside W H p -> lab p <> 0.
  Proof.
    intros [lf [cap [idx Inv]]] p Hp Hz.
    pose proof (do_left _ Inv p Hp) as E. pose proof (do_before _ Inv p Hp) as B. cbn in E, B.
    pose proof (flat_range W H p Hp). rewrite Hz in E. specialize (B E). lia.
  Qed.

  Lemma DFin_pos lab gl : DFin lab gl -> forall p, inside W H p -> 0 < lab p ->
    exists pts, nth_error gl (Z.to_nat (lab p - 1)) = Some pts /\ In p pts /\
      grain_okd lab (W * H) (Z.to_nat (lab p - 1)) pts.
  Proof.
    intros [lf [cap [idx Inv]]] p Hp Hpos.
    assert (lab p <= Z.of_nat (length gl)) as Hle.
    { destruct (bnd p) eqn:Eb.
      - destruct (do_bnd _ Inv p Hp Eb) as [[E _]|[c [Ho [E1 _]]]]; cbn in *; [lia|].
        destruct (dic_owner_cand _ _ _ _ _ Ho) as [Ci [Cb _]].
        pose proof (do_free _ Inv c Ci Cb) as Hv. cbn in Hv. lia.
      - pose proof (do_free _ Inv p Hp Eb) as Hv. cbn in Hv. lia. }
    destruct (nth_error gl (Z.to_nat (lab p - 1))) as [pts|] eqn:E.
    - pose proof (do_list _ Inv _ _ E) as Hg. cbn in Hg.
      exists pts. split; [reflexivity|]. split; [|assumption].
      destruct Hg as [_ [B _]]. apply B. split; [assumption|lia].
    - apply nth_error_None in E. lia.
  Qed.

  Lemma DFin_free lab gl : DFin lab gl -> forall p, inside W H p -> bnd p = false ->
    exists n, dic_territory_size W H bnd p n /\
      (min_size <= Z.of_nat n /\ 0 < lab p \/ Z.of_nat n < min_size /\ lab p = -2).
  Proof.
    intros Hf p Hp Hb. pose proof (DFin_nz lab gl Hf p Hp) as Hnz.
    pose proof Hf as [lf [cap [idx Inv]]].
    pose proof (do_free _ Inv p Hp Hb) as Hv. cbn in Hv.
    destruct Hv as [Hv|[Hv|Hv]]; [congruence| |].
    - destruct (do_small _ Inv p Hp Hb Hv) as [n [Hs Hlt]]. exists n. auto.
    - destruct (DFin_pos lab gl Hf p Hp ltac:(lia)) as [pts [_ [Hin Hg]]].
      destruct Hg as [A [B [C [seed [r [_ [Hs [Hsb [_ [D _]]]]]]]]]].
      exists (length pts). split; [|left; split; lia].
      exists pts. split; [assumption|]. split; [|reflexivity].
      intros x. rewrite D. apply dic_territory_conn.
      apply D in Hin. destruct Hin as [Hc|[c [Ho _]]]; [exact Hc|].
      destruct Ho as [_ [Hx _]]. congruence.
  Qed.

  Lemma DFin_same lab gl : DFin lab gl -> forall p q,
    inside W H p -> inside W H q -> bnd p = false -> bnd q = false ->
    0 < lab p -> (lab q = lab p <-> conn p q).
  Proof.
    intros Hf p q Hp Hq Bp Bq Hpos. split.
    - intros E. destruct (DFin_pos lab gl Hf p Hp Hpos) as [pts [_ [Hin Hg]]].
      destruct Hg as [_ [B [_ [seed [r [_ [_ [_ [_ [D _]]]]]]]]]].
      assert (In q pts) as Hinq by (apply B; split; [assumption|lia]).
      apply D in Hin, Hinq.
      destruct Hin as [Hin|[c [[_ [Hx _]] _]]]; [|congruence].
      destruct Hinq as [Hinq|[c [[_ [Hx _]] _]]]; [|congruence].
      eapply rt_trans; [apply dic_conn_sym; exact Hin | exact Hinq].
    - intros Hc. destruct Hf as [lf [cap [idx Inv]]]. symmetry.
      apply (DInv_conn _ Inv p q Hc).
  Qed.

  Lemma DFin_bnd lab gl : DFin lab gl -> forall b, inside W H b -> bnd b = true ->
    (lab b = -1 <-> forall c, ~ dic_candidate W H bnd b c) /\
    (forall c, dic_candidate W H bnd b c -> exists c', dic_owner W H bnd b c') /\
    (forall c, dic_owner W H bnd b c -> lab b = lab c).
  Proof.
    intros Hf b Hb Hbb. pose proof Hf as [lf [cap [idx Inv]]].
    pose proof (do_bnd _ Inv b Hb Hbb) as Hd. cbn in Hd.
    destruct Hd as [[E Hcs]|[c [Ho [E1 E2]]]].
    - assert (forall c, ~ dic_candidate W H bnd b c) as Hno.
      { intros c Hc. pose proof (Hcs c Hc) as Hz. destruct Hc as [Ci _].
        apply (DFin_nz lab gl Hf c Ci Hz). }
      split; [tauto|]. split.
      + intros c Hc. exfalso; exact (Hno c Hc).
      + intros c Ho. exfalso. exact (Hno c (dic_owner_cand _ _ _ _ _ Ho)).
    - split.
      + split.
        * intros E. exfalso. destruct (dic_owner_cand _ _ _ _ _ Ho) as [Ci [Cb _]].
          pose proof (do_free _ Inv c Ci Cb) as Hv. cbn in Hv. lia.
        * intros Hno. exfalso. exact (Hno c (dic_owner_cand _ _ _ _ _ Ho)).
      + split; [intros; exists c; assumption|].
        intros c2 Ho2. rewrite E1. apply (DInv_conn _ Inv c c2).
        eapply dic_owner_unique; eauto.
  Qed.

  Let FGD := find_grains_dic W H bnd min_size.

  Lemma FGD_unfold : FGD =
    bind (grain_loop (flood_fill_dic W H) (S (Z.to_nat (W * H))) W H min_size dinit)
      (fun s => match g_list s with
                | [] => Err IndexError
                | _ => Ok (g_grains s, g_list s) end).
  Proof. reflexivity. Qed.

  Lemma FGD_none : (forall p, inside W H p -> bnd p = true) -> FGD = Err ValueError.
  Proof.
    intros Hno. rewrite FGD_unfold.
    pose proof (find_left_spec W H dleft0 0 ltac:(lia) ltac:(nia)) as Hf. cbn zeta in Hf.
    destruct Hf as [[Ef _]|[Hf0 [Hf1 [Hf2 _]]]].
    - cbn [grain_loop]. unfold grain_pass. cbn [dinit g_next]. rewrite Ef. reflexivity.
    - assert (inside W H (unflat W (0 + find_left W H dleft0 0))) as Hi
            by (apply unflat_inside; lia).
      rewrite dleft0_spec, (Hno _ Hi) in Hf2. discriminate.
  Qed.

  Lemma FGD_fin lab gl : FGD = Ok (lab, gl) -> DFin lab gl /\ gl <> [].
  Proof.
    intros E. destruct dfree_dec as [Hy|Hn]; [|rewrite (FGD_none Hn) in E; discriminate].
    destruct (dfind_loop Hy) as [s [Es Hf]]. rewrite FGD_unfold, Es in E. cbn [bind] in E.
    destruct (g_list s) as [|x xs] eqn:El; [discriminate|].
    inversion E; subst. split; [assumption|discriminate].
  Qed.

  Lemma terr_size_fun p n m : dic_territory_size W H bnd p n ->
    dic_territory_size W H bnd p m -> n = m.
  Proof.
    intros [l [Hl [Il <-]]] [k [Hk [Ik <-]]].
    apply Nat.le_antisymm; apply NoDup_incl_length; auto; intros x Hx;
      [apply Ik, Il | apply Il, Ik]; assumption.
  Qed.

  Lemma FGD_outcome :
    let large := exists p n, inside W H p /\ bnd p = false /\
                   dic_territory_size W H bnd p n /\ min_size <= Z.of_nat n in
    let free := exists p, inside W H p /\ bnd p = false in
    (large -> exists r, FGD = Ok r) /\
    (free -> ~ large -> FGD = Err IndexError) /\
    (~ free -> FGD = Err ValueError).
  Proof.
    intros large free. split; [|split].
    - intros [p [n [Hp [Hb [Hn Hge]]]]].
      destruct (dfind_loop (ex_intro _ p (conj Hp Hb))) as [s [Es Hf]].
      rewrite FGD_unfold, Es. cbn [bind].
      destruct (g_list s) as [|x xs] eqn:El; [exfalso|eauto].
      destruct (DFin_free _ _ Hf p Hp Hb) as [m [Hm [[_ Hpos]|[Hlt _]]]].
      + destruct (DFin_pos _ _ Hf p Hp Hpos) as [pts [E _]].
        destruct (Z.to_nat _) in E; discriminate.
      + rewrite (terr_size_fun _ _ _ Hn Hm) in Hge. lia.
    - intros Hfree Hnl. destruct (dfind_loop Hfree) as [s [Es Hf]].
      rewrite FGD_unfold, Es. cbn [bind].
      destruct (g_list s) as [|x xs] eqn:El; [reflexivity|exfalso; apply Hnl].
      pose proof Hf as [lf [cap [idx Inv]]].
      destruct (do_list _ Inv 0%nat x eq_refl) as [A [B [C [seed [r [D1 [D2 [D3 [_ [D _]]]]]]]]]].
      exists seed, (length x). split; [assumption|]. split; [assumption|].
      split; [|assumption]. exists x. auto.
    - intros Hn. apply FGD_none. destruct dfree_dec as [Hy|Hy]; [exfalso; exact (Hn Hy)|assumption].
  Qed.

  Lemma FGD_list lab gl : FGD = Ok (lab, gl) ->
    gl <> [] /\
    (forall k pts, nth_error gl k = Some pts ->
       pts <> [] /\ NoDup pts /\ min_size <= Z.of_nat (length pts) /\
       forall p, In p pts <-> inside W H p /\ lab p = Z.of_nat k + 1) /\
    (forall p, inside W H p -> 0 < lab p ->
       exists pts, nth_error gl (Z.to_nat (lab p - 1)) = Some pts /\ In p pts).
  Proof.
    intros E. destruct (FGD_fin _ _ E) as [Hf Hne].
    split; [assumption|]. split.
    - intros k pts Hk. destruct Hf as [lf [cap [idx Inv]]].
      destruct (do_list _ Inv k pts Hk) as [A [B [C [sd [r [D _]]]]]].
      split; [rewrite D; discriminate|]. split; [assumption|]. split; assumption.
    - intros p Hp Hl. destruct (DFin_pos _ _ Hf p Hp Hl) as [pts [E1 [E2 _]]].
      exists pts; auto.
  Qed.
End OuterDic.
