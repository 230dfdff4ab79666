(** Proofs about the 'warp' branch of DIC grain finding and grain linking. *)
From Coq Require Import List ZArith Bool Lia Sorted.
Import ListNotations.
From Verif Require Import Py Grid Grid_Lemmas DicGrains_Model DicGrains_Spec.
From Coq Require Import ZifyBool ZifyNat.
Open Scope Z_scope.

Lemma insert_unique_In v w l : In w (insert_unique v l) <-> w = v \/ In w l.
Proof.
  induction l as [|a l IH]; cbn [insert_unique].
  - cbn. intuition.
  - destruct (Z.ltb_spec v a); [cbn; intuition|].
    destruct (Z.eqb_spec v a); [subst; cbn; intuition|].
    cbn [In]. rewrite IH. intuition.
Qed.

Lemma insert_unique_sorted v l : StronglySorted Z.lt l -> StronglySorted Z.lt (insert_unique v l).
Proof.
  induction l as [|a l IH]; intros Hs; cbn [insert_unique].
  - constructor; constructor.
  - inversion Hs as [|x y Hl Hf]; subst.
    destruct (Z.ltb_spec v a).
    + constructor; [assumption|]. constructor; [assumption|].
      eapply Forall_impl; [|exact Hf]. intros; lia.
    + destruct (Z.eqb_spec v a); [assumption|].
      constructor; [auto|]. apply Forall_forall. intros w Hw.
      apply insert_unique_In in Hw. destruct Hw as [->|Hw]; [lia|].
      rewrite Forall_forall in Hf. auto.
Qed.

Lemma np_unique_sorted l : StronglySorted Z.lt (np_unique l).
Proof. induction l; cbn; [constructor | apply insert_unique_sorted; assumption]. Qed.

Lemma np_unique_In l v : In v (np_unique l) <-> In v l.
Proof.
  induction l as [|a l IH]; cbn; [tauto|].
  fold (np_unique l). rewrite insert_unique_In, IH. intuition.
Qed.

Lemma sorted_split l : StronglySorted Z.lt l ->
  l = filter (fun v => v <=? 0) l ++ filter (fun v => v >? 0) l.
Proof.
  induction l as [|a l IH]; intros Hs; [reflexivity|].
  inversion Hs as [|x y Hl Hf]; subst. cbn [filter].
  destruct (Z.leb_spec a 0).
  - assert (a >? 0 = false) as -> by lia. cbn. f_equal. auto.
  - assert (a >? 0 = true) as -> by lia.
    assert (filter (fun v => v <=? 0) l = []) as E.
    { rewrite Forall_forall in Hf. clear - Hf H. induction l as [|b l IH]; [reflexivity|].
      cbn. pose proof (Hf b (or_introl eq_refl)).
      destruct (Z.leb_spec b 0); [lia|]. apply IH. intros; apply Hf; right; assumption. }
    rewrite E. cbn. f_equal. rewrite (IH Hl) at 1. now rewrite E.
Qed.

Lemma digitize_pos l : StronglySorted Z.lt l -> forall i x,
  nth_error l i = Some x -> digitize_right l x = i.
Proof.
  unfold digitize_right. intros Hs; induction Hs as [|a l Hl IH Hf]; intros i x E.
  - destruct i; discriminate.
  - rewrite Forall_forall in Hf. destruct i as [|i]; cbn in E.
    + injection E as ->. cbn [filter]. destruct (Z.ltb_spec x x); [lia|].
      clear - Hf. induction l as [|b l IH]; [reflexivity|].
      cbn [filter]. pose proof (Hf b (or_introl eq_refl)).
      destruct (Z.ltb_spec b x); [lia|]. apply IH. intros; apply Hf; right; assumption.
    + cbn [filter]. pose proof (Hf x (nth_error_In _ _ E)).
      destruct (Z.ltb_spec a x); [|lia]. cbn [length]. f_equal. auto.
Qed.

Lemma sorted_nth_lt l : StronglySorted Z.lt l -> forall i j x y,
  nth_error l i = Some x -> nth_error l j = Some y -> (x < y <-> (i < j)%nat).
Proof.
  intros Hs; induction Hs as [|a l Hl IH Hf]; intros i j x y Ei Ej.
  - destruct i; discriminate.
  - rewrite Forall_forall in Hf. destruct i as [|i], j as [|j]; cbn in Ei, Ej.
    + injection Ei as ->. injection Ej as ->. lia.
    + injection Ei as ->. pose proof (Hf y (nth_error_In _ _ Ej)). lia.
    + injection Ej as ->. pose proof (Hf x (nth_error_In _ _ Ei)). lia.
    + rewrite (IH i j x y Ei Ej). lia.
Qed.

Section Warp.
  Variables (W H : Z) (warped : pix -> Z) (n_ebsd : nat).
  Hypothesis HW : 0 <= W.
  Hypothesis HH : 0 <= H.
  Let uniq := np_unique (map warped (all_pix W H)).
  Let neg_vals := filter (fun v => v <=? 0) uniq.
  Let ids := filter (fun v => v >? 0) uniq.
  Let new := neg_vals ++ zseq 1 (length ids).
  Definition dlab : pix -> Z := fun p => nth (digitize_right (neg_vals ++ ids) (warped p)) new 0.

  Lemma uniq_split : neg_vals ++ ids = uniq.
  Proof. symmetry. apply sorted_split, np_unique_sorted. Qed.

  Lemma uniq_In v : In v uniq <-> exists p, inside W H p /\ warped p = v.
  Proof.
    unfold uniq. rewrite np_unique_In, in_map_iff. split.
    - intros [p [E Hp]]. exists p. split; [apply all_pix_In in Hp; assumption|assumption].
    - intros [p [Hp E]]. exists p. split; [assumption|apply all_pix_In; assumption].
  Qed.

  Lemma ids_In v : In v ids <-> 0 < v /\ exists p, inside W H p /\ warped p = v.
  Proof. unfold ids. rewrite filter_In, uniq_In. split; intros [A B]; split; auto; lia. Qed.

  Lemma neg_In v : In v neg_vals <-> v <= 0 /\ exists p, inside W H p /\ warped p = v.
  Proof. unfold neg_vals. rewrite filter_In, uniq_In. split; intros [A B]; split; auto; lia. Qed.

  Lemma filter_sorted {A} (R : A -> A -> Prop) f l : StronglySorted R l -> StronglySorted R (filter f l).
  Proof.
    intros Hs; induction Hs as [|a l Hl IH Hf]; cbn; [constructor|].
    destruct (f a); [|assumption]. constructor; [assumption|].
    apply Forall_forall. intros x Hx. apply filter_In in Hx. rewrite Forall_forall in Hf.
    apply Hf, Hx.
  Qed.

  Lemma ids_sorted : StronglySorted Z.lt ids.
  Proof. apply filter_sorted, np_unique_sorted. Qed.

  Lemma dlab_neg p : inside W H p -> warped p <= 0 -> dlab p = warped p.
  Proof.
    intros Hp Hw. assert (In (warped p) neg_vals) as Hin by (apply neg_In; eauto).
    apply In_nth_error in Hin. destruct Hin as [i Ei].
    assert (i < length neg_vals)%nat by (apply nth_error_Some; congruence).
    unfold dlab. rewrite (digitize_pos (neg_vals ++ ids)) with (i := i).
    - unfold new. rewrite app_nth1 by assumption. apply nth_error_nth. assumption.
    - rewrite uniq_split. apply np_unique_sorted.
    - rewrite nth_error_app1; assumption.
  Qed.

  Lemma dlab_pos p i : nth_error ids i = Some (warped p) -> dlab p = Z.of_nat i + 1.
  Proof.
    intros Ei. assert (i < length ids)%nat by (apply nth_error_Some; congruence).
    unfold dlab. rewrite (digitize_pos (neg_vals ++ ids)) with (i := (length neg_vals + i)%nat).
    - unfold new. rewrite app_nth2_plus.
      assert (nth_error (zseq 1 (length ids)) i = Some (1 + Z.of_nat i)) as E
        by (apply zseq_nth_error; assumption).
      rewrite (nth_error_nth _ _ _ E). lia.
    - rewrite uniq_split. apply np_unique_sorted.
    - rewrite nth_error_app2 by lia. rewrite <- Ei. f_equal. lia.
  Qed.

  Lemma ids_pos p : inside W H p -> 0 < warped p -> exists i, nth_error ids i = Some (warped p).
  Proof. intros Hp Hw. apply In_nth_error, ids_In. split; [assumption|eauto]. Qed.

  Lemma ids_nth i v : nth_error ids i = Some v -> 0 < v /\ exists p, inside W H p /\ warped p = v.
  Proof. intros E. apply ids_In. eapply nth_error_In; eauto. Qed.

  Definition dcoords (k : Z) : list pix := filter (fun p => dlab p =? k) (all_pix W H).

  Lemma dcoords_spec k : NoDup (dcoords k) /\ forall p, In p (dcoords k) <-> inside W H p /\ dlab p = k.
  Proof.
    unfold dcoords. split; [apply NoDup_filter, all_pix_NoDup; assumption|].
    intros p. rewrite filter_In, all_pix_In by assumption. split; intros [A B]; split; auto; lia.
  Qed.

  Let body := fun (acc : list dic_grain) (e : Z * Z) =>
       let '(dic_id, ebsd_id) := e in
       match dcoords (dic_id + 1) with
       | [] => Err KeyError
       | pts => do g <- py_index (seq 0 n_ebsd) (ebsd_id - 1);
                Ok (acc ++ [(pts, g)])
       end.

  Lemma warp_unfold : warp_find_grains W H warped n_ebsd =
    (do gl <- for_each body (combine (zseq 0 (length ids)) ids) [];
     match gl with [] => Err IndexError | _ => Ok (dlab, gl) end).
  Proof. reflexivity. Qed.

  Definition entry_ok (e : Z * Z) (y : dic_grain) : Prop :=
    fst y = dcoords (fst e + 1) /\ fst y <> [] /\
    py_index (seq 0 n_ebsd) (snd e - 1) = Ok (snd y).

  Lemma body_fold l : forall acc r, for_each body l acc = Ok r ->
    exists ys, r = acc ++ ys /\ Forall2 entry_ok l ys.
  Proof.
    induction l as [|[d e] l IH]; intros acc r E; cbn [for_each] in E.
    - inversion E; subst. exists []. rewrite app_nil_r. auto.
    - unfold body at 1 in E. destruct (dcoords (d + 1)) as [|c cs] eqn:Ec; [discriminate|].
      cbn [bind] in E. destruct (py_index (seq 0 n_ebsd) (e - 1)) as [g|] eqn:Eg; [|discriminate].
      cbn [bind] in E. apply IH in E. destruct E as [ys [-> Hys]].
      exists ((c :: cs, g) :: ys). rewrite <- app_assoc. split; [reflexivity|].
      constructor; [|assumption]. split; [|split].
      + cbn. now rewrite Ec.
      + discriminate.
      + assumption.
  Qed.

  Lemma body_total l : (forall d e, In (d, e) l -> dcoords (d + 1) <> [] /\
      exists g, py_index (seq 0 n_ebsd) (e - 1) = Ok g) ->
    forall acc, exists ys, for_each body l acc = Ok (acc ++ ys) /\ length ys = length l.
  Proof.
    induction l as [|[d e] l IH]; intros Hl acc; cbn [for_each].
    - exists []. rewrite app_nil_r. auto.
    - destruct (Hl d e (or_introl eq_refl)) as [Hc [g Hg]].
      unfold body at 1. destruct (dcoords (d + 1)) as [|c cs]; [congruence|].
      rewrite Hg. cbn [bind].
      destruct (IH (fun d e Hi => Hl d e (or_intror Hi)) (acc ++ [(c :: cs, g)])) as [ys [E El]].
      exists ((c :: cs, g) :: ys). rewrite E, <- app_assoc. split; [reflexivity|]. cbn. lia.
  Qed.

  Lemma combine_nth d e k : nth_error (combine (zseq 0 (length ids)) ids) k = Some (d, e) <->
    d = Z.of_nat k /\ nth_error ids k = Some e.
  Proof.
    assert (forall (l : list Z) a k, nth_error (combine (zseq a (length l)) l) k = Some (d, e) <->
              d = a + Z.of_nat k /\ nth_error l k = Some e) as Hg.
    { induction l as [|x l IH]; intros a j; cbn [length zseq combine].
      - destruct j; cbn; split; [discriminate|intros [_ E]; discriminate|discriminate|intros [_ E]; discriminate].
      - destruct j as [|j]; cbn [nth_error].
        + split; [intros E; inversion E; split; [lia|reflexivity] |
                  intros [-> E]; inversion E; f_equal; f_equal; lia].
        + rewrite IH. split; intros [A B]; split; auto; lia. }
    rewrite Hg. split; intros [A B]; split; auto; lia.
  Qed.

  Lemma combine_len : length (combine (zseq 0 (length ids)) ids) = length ids.
  Proof. rewrite combine_length, zseq_length. lia. Qed.

  Lemma py_index_seq n i g : 0 <= i -> py_index (seq 0 n) i = Ok g <-> i < Z.of_nat n /\ Z.of_nat g = i.
  Proof.
    intros Hi. unfold py_index. rewrite seq_length.
    destruct (Z.ltb_spec i 0); [lia|].
    destruct (Z.ltb_spec i 0); [lia|]. cbn [orb].
    destruct (Z.leb_spec (Z.of_nat n) i).
    - split; [discriminate|lia].
    - rewrite (nth_error_nth' (seq 0 n) 0%nat) by (rewrite seq_length; lia).
      rewrite seq_nth by lia. cbn [Nat.add]. split.
      + intros E; inversion E; lia.
      + intros [_ <-]. f_equal. lia.
  Qed.

  Lemma Forall2_nth_r {A B} (R : A -> B -> Prop) l l' k b :
    Forall2 R l l' -> nth_error l' k = Some b -> exists a, nth_error l k = Some a /\ R a b.
  Proof.
    intros Hf; revert k; induction Hf as [|x y l l' Hxy Hf IH]; intros k E.
    - destruct k; discriminate.
    - destruct k as [|k]; cbn in *; [inversion E; subst; eauto | auto].
  Qed.

  Lemma warp_ok lab gl : warp_find_grains W H warped n_ebsd = Ok (lab, gl) ->
    lab = dlab /\ length gl = length ids /\ gl <> [] /\
    forall k y, nth_error gl k = Some y ->
      exists e, nth_error ids k = Some e /\ entry_ok (Z.of_nat k, e) y.
  Proof.
    rewrite warp_unfold. intros E.
    destruct (for_each body _ []) as [r|] eqn:Ef; [|discriminate]. cbn [bind] in E.
    apply body_fold in Ef. destruct Ef as [ys [-> Hf]]. cbn [app] in E.
    destruct ys as [|y ys]; [discriminate|]. injection E as <- <-.
    split; [reflexivity|]. split.
    { rewrite <- combine_len. clear - Hf. induction Hf; cbn; congruence. }
    split; [discriminate|].
    intros k z Ek. destruct (Forall2_nth_r _ _ _ _ _ Hf Ek) as [[d e] [E1 E2]].
    apply combine_nth in E1. destruct E1 as [-> E1]. eauto.
  Qed.

  Lemma warp_labels lab gl : warp_find_grains W H warped n_ebsd = Ok (lab, gl) ->
    (forall p, inside W H p -> warped p <= 0 -> lab p = warped p) /\
    (forall p, inside W H p -> 0 < warped p -> 1 <= lab p <= Z.of_nat (length gl)) /\
    (forall p q, inside W H p -> inside W H q -> (lab p = lab q <-> warped p = warped q)) /\
    (forall p q, inside W H p -> inside W H q -> 0 < warped p -> 0 < warped q ->
       (lab p < lab q <-> warped p < warped q)) /\
    (forall k, 1 <= k <= Z.of_nat (length gl) -> exists p, inside W H p /\ lab p = k).
  Proof.
    intros E. destruct (warp_ok lab gl E) as [-> [Hlen [Hne Hgl]]].
    split; [apply dlab_neg|].
    assert (forall p, inside W H p -> 0 < warped p -> 1 <= dlab p <= Z.of_nat (length gl)) as Hp1.
    { intros p Hp Hw. destruct (ids_pos p Hp Hw) as [i Ei]. rewrite (dlab_pos p i Ei), Hlen.
      assert (i < length ids)%nat by (apply nth_error_Some; congruence). lia. }
    split; [assumption|].
    assert (forall p q, inside W H p -> inside W H q -> 0 < warped p -> 0 < warped q ->
       (dlab p < dlab q <-> warped p < warped q)) as Hlt.
    { intros p q Hp Hq Wp Wq.
      destruct (ids_pos p Hp Wp) as [i Ei]. destruct (ids_pos q Hq Wq) as [j Ej].
      rewrite (dlab_pos p i Ei), (dlab_pos q j Ej).
      rewrite (sorted_nth_lt ids ids_sorted i j _ _ Ei Ej). lia. }
    split; [|split; [assumption|]].
    - intros p q Hp Hq. split.
      + intros El.
        destruct (Z.le_gt_cases (warped p) 0) as [Lp|Lp], (Z.le_gt_cases (warped q) 0) as [Lq|Lq].
        * rewrite !dlab_neg in El by assumption. assumption.
        * rewrite (dlab_neg p) in El by assumption. pose proof (Hp1 q Hq Lq). lia.
        * rewrite (dlab_neg q) in El by assumption. pose proof (Hp1 p Hp Lp). lia.
        * pose proof (Hlt p q Hp Hq Lp Lq). pose proof (Hlt q p Hq Hp Lq Lp). lia.
      + intros Ew. unfold dlab. now rewrite Ew.
    - intros k Hk. destruct (nth_error ids (Z.to_nat (k - 1))) as [v|] eqn:Ev.
      + destruct (ids_nth _ _ Ev) as [_ [p [Hp Hw]]]. exists p. split; [assumption|].
        rewrite (dlab_pos p (Z.to_nat (k - 1))); [lia|congruence].
      + apply nth_error_None in Ev. lia.
  Qed.

  Lemma warp_grains lab gl : warp_find_grains W H warped n_ebsd = Ok (lab, gl) ->
    forall k pts g, nth_error gl k = Some (pts, g) ->
      pts <> [] /\ NoDup pts /\
      (forall p, In p pts <-> inside W H p /\ lab p = Z.of_nat k + 1) /\
      (forall p, In p pts -> Z.of_nat g = warped p - 1).
  Proof.
    intros E. destruct (warp_ok lab gl E) as [-> [Hlen [Hne Hgl]]].
    intros k pts g Ek. destruct (Hgl k _ Ek) as [e [Ee [E1 [E2 E3]]]]. cbn [fst snd] in *.
    destruct (dcoords_spec (Z.of_nat k + 1)) as [Hnd Hin]. rewrite <- E1 in Hnd, Hin.
    split; [assumption|]. split; [assumption|]. split; [assumption|].
    intros p Hp. destruct (ids_nth _ _ Ee) as [He _].
    apply py_index_seq in E3; [|lia]. destruct E3 as [_ ->].
    apply Hin in Hp. destruct Hp as [Hp El].
    destruct (Z.le_gt_cases (warped p) 0) as [L|L].
    - rewrite dlab_neg in El by assumption. lia.
    - destruct (ids_pos p Hp L) as [i Ei]. rewrite (dlab_pos p i Ei) in El.
      assert (i = k) as -> by lia. congruence.
  Qed.

  Lemma warp_outcome :
    ((forall p, inside W H p -> warped p <= Z.of_nat n_ebsd) ->
     (exists p, inside W H p /\ 0 < warped p) ->
     exists r, warp_find_grains W H warped n_ebsd = Ok r) /\
    ((forall p, inside W H p -> warped p <= 0) ->
     warp_find_grains W H warped n_ebsd = Err IndexError).
  Proof.
    rewrite warp_unfold. split.
    - intros Hmax [p [Hp Hw]].
      destruct (body_total (combine (zseq 0 (length ids)) ids)) with (acc := @nil dic_grain)
        as [ys [E El]].
      + intros d e Hin. apply In_nth_error in Hin. destruct Hin as [k Ek].
        apply combine_nth in Ek. destruct Ek as [-> Ek].
        destruct (ids_nth _ _ Ek) as [He [q [Hq Hwq]]]. split.
        * intros Hnil. destruct (dcoords_spec (Z.of_nat k + 1)) as [_ Hc].
          rewrite Hnil in Hc. apply (Hc q). split; [assumption|].
          apply dlab_pos. congruence.
        * exists (Z.to_nat (e - 1)). apply py_index_seq; [lia|]. pose proof (Hmax q Hq). lia.
      + rewrite E. cbn [app bind]. destruct ys as [|y ys]; [exfalso|eauto].
        rewrite combine_len in El. destruct (ids_pos p Hp Hw) as [i Ei].
        assert (i < length ids)%nat by (apply nth_error_Some; congruence). cbn in El. lia.
    - intros Hno. assert (ids = []) as E.
      { assert (forall v, ~ In v ids) as Hnone.
        { intros v Hv. apply ids_In in Hv. destruct Hv as [Hv [p [Hp Hw]]].
          pose proof (Hno p Hp). lia. }
        clear - Hnone. revert Hnone. generalize ids. intros [|v l] Hn; [reflexivity|].
        exfalso. apply (Hn v). left; reflexivity. }
      rewrite E. reflexivity.
  Qed.
End Warp.

(** ** The mode *)
Lemma mode_spec l m : mode l = Some m ->
  In m l /\ forall v, In v l ->
    (count v l <= count m l)%nat /\ (count v l = count m l -> m <= v).
Proof.
  unfold mode. destruct l as [|v0 l']; [discriminate|]. set (l := v0 :: l').
  set (f := fun best v => if ((count best l <? count v l)%nat
                || ((count best l =? count v l)%nat && (v <? best))) then v else best).
  intros E. injection E as <-.
  assert (forall k b, In b l -> (forall x, In x k -> In x l) ->
    let m := fold_left f k b in
    In m l /\ forall v, v = b \/ In v k ->
      (count v l <= count m l)%nat /\ (count v l = count m l -> m <= v)) as Hg.
  { induction k as [|x k IH]; intros b Hb Hk; cbn [fold_left].
    - cbn zeta. split; [assumption|]. intros v [->|[]]. lia.
    - cbn zeta. assert (In x l) as Hx by (apply Hk; left; reflexivity).
      assert (In (f b x) l) as Hfb by (unfold f; destruct (_ || _); assumption).
      destruct (IH (f b x) Hfb (fun y Hy => Hk y (or_intror Hy))) as [A B].
      split; [assumption|]. set (m := fold_left f k (f b x)) in *.
      destruct (B (f b x) (or_introl eq_refl)) as [C1 C2].
      intros v [->|[->|Hv]].
      + unfold f in C1, C2.
        destruct ((count b l <? count x l)%nat || ((count b l =? count x l)%nat && (x <? b))) eqn:Eq; lia.
      + unfold f in C1, C2.
        destruct ((count b l <? count v l)%nat || ((count b l =? count v l)%nat && (v <? b))) eqn:Eq; lia.
      + apply B. right; assumption. }
  destruct (Hg l v0 (or_introl eq_refl) (fun x Hx => Hx)) as [A B].
  split; [exact A|]. intros v Hv. apply B. right; assumption.
Qed.

Lemma mode_some l : l <> [] -> exists m, mode l = Some m.
Proof. destruct l; [congruence|]. intros _. eexists. reflexivity. Qed.

Lemma count_occ_count v l : count_occ Z.eq_dec l v = count v l.
Proof.
  unfold count. induction l as [|a l IH]; [reflexivity|]. cbn.
  destruct (Z.eq_dec a v), (Z.eqb_spec v a); cbn; congruence.
Qed.

Lemma modal_unique l m m' : modal l m -> modal l m' -> m = m'.
Proof.
  intros [A B] [A' B']. destruct (B m' A') as [C1 C2]. destruct (B' m A) as [D1 D2]. lia.
Qed.

Lemma mode_modal l m : mode l = Some m <-> modal l m.
Proof.
  assert (forall m, mode l = Some m -> modal l m) as Hf.
  { intros k E. destruct (mode_spec l k E) as [A B]. split; [assumption|].
    intros v Hv. rewrite !count_occ_count. auto. }
  split; [apply Hf|]. intros Hm.
  destruct (mode_some l) as [k Ek]; [destruct Hm as [A _]; destruct l; [destruct A|discriminate]|].
  rewrite Ek. f_equal. apply (modal_unique l); auto.
Qed.

Lemma link_ok labels n m : modal labels m -> 1 <= m <= Z.of_nat n ->
  link_dic_grain labels n = Ok (Z.to_nat (m - 1)).
Proof.
  intros Hm Hr. unfold link_dic_grain. apply mode_modal in Hm. rewrite Hm.
  apply py_index_seq; lia.
Qed.

Lemma link_bad labels n m : modal labels m -> - Z.of_nat n + 1 <= m <= 0 ->
  link_dic_grain labels n = Ok (Z.to_nat (Z.of_nat n + m - 1)).
Proof.
  intros Hm Hr. unfold link_dic_grain. apply mode_modal in Hm. rewrite Hm.
  unfold py_index. rewrite seq_length.
  destruct (Z.ltb_spec (m - 1) 0); [|lia].
  destruct (Z.ltb_spec (Z.of_nat n + (m - 1)) 0); [lia|].
  destruct (Z.leb_spec (Z.of_nat n) (Z.of_nat n + (m - 1))); [lia|]. cbn [orb].
  rewrite (nth_error_nth' (seq 0 n) 0%nat) by (rewrite seq_length; lia).
  rewrite seq_nth by lia. f_equal. lia.
Qed.
