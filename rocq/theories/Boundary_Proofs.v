(** Proofs about boundary sets, segments and the neighbour network. *)
From Coq Require Import String Reals.
From Coq Require Import List ZArith Bool Lia Relations.
Import ListNotations.
From Verif Require Import Py Grid Grid_Lemmas Flood_Model Flood_Spec Flood_Proofs
  Quat_Model Boundary_Model Boundary_Spec.
From Coq Require Import ZifyBool ZifyNat.
Ltac Zify.zify_post_hook ::= Z.div_mod_to_equations.
Open Scope Z_scope.

(** ** Point sets and images *)
Lemma nonzero_T_In W H im p : 0 <= W -> 0 <= H ->
  (In p (nonzero_T W H im) <-> inside W H p /\ im p = true).
Proof.
  intros HW HH. unfold nonzero_T. rewrite filter_In, in_flat_map.
  split.
  - intros [(x & Hx & Hp) E]. apply in_map_iff in Hp as (y & <- & Hy).
    apply zseq_In in Hx, Hy. split; auto. unfold inside; cbn [fst snd]. lia.
  - intros [Hi E]. split; auto. exists (fst p). unfold inside in Hi.
    split; [apply zseq_In; lia|]. apply in_map_iff. exists (snd p).
    split; [now destruct p | apply zseq_In; lia].
Qed.

Lemma py_set_In l p : In p (py_set l) <-> In p l.
Proof. apply nodup_In. Qed.
Lemma py_set_NoDup l : NoDup (py_set l).
Proof. apply NoDup_nodup. Qed.
Lemma py_set_nil l : py_set l = [] <-> l = [].
Proof.
  split.
  - destruct l as [|a l]; auto. intros E. exfalso.
    assert (In a (py_set (a :: l))) as I by (apply py_set_In; now left).
    rewrite E in I. destruct I.
  - now intros ->.
Qed.

Lemma np_pix_inside W H p : inside W H p -> np_pix W H p = Some p.
Proof.
  intros [A B]. unfold np_pix, np_index. destruct p as [x y]; cbn [fst snd] in *.
  replace ((0 <=? x) && (x <? W)) with true by lia.
  replace ((0 <=? y) && (y <? H)) with true by lia. reflexivity.
Qed.

Lemma bs_image_exact W H pts : pts <> [] -> (forall p, In p pts -> inside W H p) ->
  exists im, bs_image W H pts = Ok im /\ forall p, im p = true <-> In p pts.
Proof.
  intros Hne Hin. unfold bs_image. destruct pts as [|a l] eqn:E; [congruence|].
  rewrite <- E in *. clear E a l.
  replace (forallb _ pts) with true.
  - eexists; split; [reflexivity|]. intros p. rewrite existsb_exists. split.
    + intros (q & Hq & Eq). rewrite np_pix_inside in Eq by auto.
      destruct (pix_eqb_spec q p); congruence.
    + intros Hp. exists p. split; auto. rewrite np_pix_inside by auto. apply pix_eqb_refl.
  - symmetry. apply forallb_forall. intros p Hp. now rewrite np_pix_inside by auto.
Qed.

Lemma from_image_points W H imx imy : 0 <= W -> 0 <= H ->
  let b := from_image W H imx imy in
  NoDup (bs_x b) /\ NoDup (bs_y b) /\ NoDup (bs_points b) /\
  (forall p, In p (bs_x b) <-> inside W H p /\ imx p = true) /\
  (forall p, In p (bs_y b) <-> inside W H p /\ imy p = true) /\
  (forall p, In p (bs_points b) <-> inside W H p /\ (imx p = true \/ imy p = true)).
Proof.
  intros HW HH. unfold from_image, bs_points, boundary_set. cbn [bs_x bs_y]. cbv zeta. split; [apply py_set_NoDup|]. split; [apply py_set_NoDup|].
  split; [apply py_set_NoDup|].
  split; [|split]; intros p; rewrite ?py_set_In, ?in_app_iff, ?py_set_In, ?nonzero_T_In by auto;
    tauto.
Qed.

(** ** Lines *)
Lemma line_x_edge p : common_edge (line_x p) p (next_pix 0 p).
Proof.
  destruct p as [i j]. unfold common_edge, corner_of, line_x, next_pix. cbn [fst snd Z.eqb Pos.eqb].
  split; [intros E; injection E; lia|]. intros [u v]; cbn [fst snd].
  unfold pix; rewrite !pair_equal_spec. lia.
Qed.
Lemma line_y_edge p : common_edge (line_y p) p (next_pix 1 p).
Proof.
  destruct p as [i j]. unfold common_edge, corner_of, line_y, next_pix. cbn [fst snd Z.eqb Pos.eqb].
  split; [intros E; injection E; lia|]. intros [u v]; cbn [fst snd].
  unfold pix; rewrite !pair_equal_spec. lia.
Qed.
Lemma line_x_inj p q : line_x p = line_x q -> p = q.
Proof.
  destruct p as [i j], q as [k l]. unfold line_x, line, pix. rewrite !pair_equal_spec. lia.
Qed.
Lemma line_y_inj p q : line_y p = line_y q -> p = q.
Proof.
  destruct p as [i j], q as [k l]. unfold line_y, line, pix. rewrite !pair_equal_spec. lia.
Qed.
Lemma line_xy p q : line_x p <> line_y q.
Proof.
  destruct p as [i j], q as [k l]. unfold line_x, line_y, line, pix. rewrite !pair_equal_spec. lia.
Qed.

Lemma bs_lines_spec px py : NoDup px -> NoDup py ->
  exists ls, bs_lines px py = Ok ls /\ NoDup ls /\
    (length ls = length px + length py)%nat /\
    forall l, In l ls <-> (exists p, In p px /\ l = line_x p) \/
                          (exists p, In p py /\ l = line_y p).
Proof.
  intros Nx Ny. eexists. split; [reflexivity|]. split.
  - assert (A : forall l, NoDup l -> NoDup (map line_x l))
      by (intros; apply NoDup_map_inj_in; auto using line_x_inj).
    assert (B : forall l, NoDup l -> NoDup (map line_y l))
      by (intros; apply NoDup_map_inj_in; auto using line_y_inj).
    induction Nx as [|a px Ha Nx IH]; cbn [map app]; [now apply B|].
    constructor; auto. rewrite in_app_iff, !in_map_iff.
    intros [(p & E & Ip)|(p & E & Ip)].
    + apply line_x_inj in E. congruence.
    + symmetry in E. now apply line_xy in E.
  - rewrite app_length, !map_length. split; auto. intros l.
    rewrite in_app_iff, !in_map_iff. firstorder auto.
Qed.

(** ** Segments *)
Lemma add_point_spec s p kind o : kind = 0 \/ kind = 1 ->
  add_boundary_point s p kind o =
  Ok (Seg (sg1 s) (sg2 s)
        (if kind =? 0 then seg_px s ++ [p] else seg_px s)
        (if kind =? 0 then seg_py s else seg_py s ++ [p])
        (if kind =? 0 then seg_ox s ++ [o =? sg1 s] else seg_ox s)
        (if kind =? 0 then seg_oy s else seg_oy s ++ [o =? sg1 s])).
Proof. intros [-> | ->]; reflexivity. Qed.

(** ** The network *)
Definition key (a b : Z) : Z * Z := (Z.min a b, Z.max a b).
Definition skey (s : seg) := key (sg1 s) (sg2 s).

Lemma joins_key a b s : joins a b s = true <-> skey s = key a b.
Proof. unfold joins, skey, key. rewrite pair_equal_spec. lia. Qed.

Lemma nn_add_spec a b p kind : kind = 0 \/ kind = 1 -> forall segs,
  (exists l s r s', segs = l ++ s :: r /\ (forall t, In t l -> skey t <> key a b) /\
     skey s = key a b /\ add_boundary_point s p kind a = Ok s' /\
     nn_add segs a b p kind = Ok (l ++ s' :: r)) \/
  (exists s', (forall t, In t segs -> skey t <> key a b) /\
     add_boundary_point (new_seg a b) p kind a = Ok s' /\
     nn_add segs a b p kind = Ok (segs ++ [s'])).
Proof.
  intros Hk. induction segs as [|s segs IH]; cbn [nn_add].
  - right. rewrite add_point_spec by auto. eexists. split; [intros t []|]. split; reflexivity.
  - destruct (joins a b s) eqn:J.
    + left. apply joins_key in J. exists [], s, segs. rewrite add_point_spec by auto.
      eexists. split; [reflexivity|]. split; [intros t []|]. auto.
    + assert (skey s <> key a b) by (intros E; apply joins_key in E; congruence).
      destruct IH as [(l & t & r & t' & E1 & E2 & E3 & E4 & E5)|(t' & E1 & E2 & E3)].
      * left. exists (s :: l), t, r, t'. rewrite E5. cbn [bind app]. subst segs.
        split; auto. split; [intros u [<-|]; auto|]. auto.
      * right. exists t'. rewrite E3. split; [intros u [<-|]; auto|]. auto.
Qed.

Section Net.
Variables (W H n : Z) (lab : pix -> Z).
Hypothesis Hlab : forall p, inside W H p -> lab p <= n.

Definition cnt (kind a b : Z) (p : pix) : bool :=
  ((0 <? fst p) && (fst p <? W - 1) && (0 <? snd p) && (snd p <? H - 1)) &&
  (((lab p =? a + 1) && (lab (next_pix kind p) =? b + 1)) ||
   ((lab p =? b + 1) && (lab (next_pix kind p) =? a + 1))).

Lemma cnt_spec kind a b p : cnt kind a b p = true <-> interior W H p /\ sides lab kind p a b.
Proof. clear Hlab. unfold cnt, interior, sides. lia. Qed.

Definition seg_ok (dx dy : list pix) (s : seg) : Prop :=
  sg1 s <> sg2 s /\ 0 <= sg1 s < n /\ 0 <= sg2 s < n /\
  seg_px s = filter (cnt 0 (sg1 s) (sg2 s)) dx /\
  seg_py s = filter (cnt 1 (sg1 s) (sg2 s)) dy /\
  seg_ox s = map (fun p => lab p =? sg1 s + 1) (seg_px s) /\
  seg_oy s = map (fun p => lab p =? sg1 s + 1) (seg_py s) /\
  (seg_px s <> [] \/ seg_py s <> []).

Definition inv (dx dy : list pix) (segs : list seg) : Prop :=
  NoDup (map skey segs) /\
  (forall s, In s segs -> seg_ok dx dy s) /\
  (forall kind p a b, (kind = 0 /\ In p dx) \/ (kind = 1 /\ In p dy) ->
     a <> b -> 0 <= a -> 0 <= b -> cnt kind a b p = true ->
     exists s, In s segs /\ skey s = key a b).

Definition dstep (i : Z) (p : pix) (dx : list pix) (k : Z) :=
  if i =? k then dx ++ [p] else dx.

Lemma next_pix_model x y i : i = 0 \/ i = 1 -> (x - i + 1, y + i) = next_pix i (x, y).
Proof. intros [-> | ->]; unfold next_pix; cbn; f_equal; lia. Qed.

Lemma filter_snoc {A} (f : A -> bool) l a :
  filter f (l ++ [a]) = filter f l ++ (if f a then [a] else []).
Proof. rewrite filter_app. reflexivity. Qed.

Lemma seg_ok_skip dx dy s i p : i = 0 \/ i = 1 ->
  (forall a b, a <> b -> 0 <= a -> 0 <= b -> key a b = skey s -> cnt i a b p = false) ->
  seg_ok dx dy s -> seg_ok (dstep i p dx 0) (dstep i p dy 1) s.
Proof.
  intros Hi Hs (A & B & C & D & E & F & G & K).
  assert (Z0 : cnt i (sg1 s) (sg2 s) p = false) by (apply Hs; auto; lia).
  unfold seg_ok, dstep.
  destruct Hi as [-> | ->]; cbn [Z.eqb Pos.eqb]; rewrite filter_snoc, Z0, app_nil_r; auto 10.
Qed.

Lemma nn_point_inv dx dy segs i p : i = 0 \/ i = 1 -> inside W H p ->
  inv dx dy segs ->
  exists segs', nn_point W H n lab i segs p = Ok segs' /\
    inv (dstep i p dx 0) (dstep i p dy 1) segs'.
Proof.
  intros Hi Hin (I1 & I2 & I3). destruct p as [x y]. unfold nn_point.
  assert (Skip : (forall a b, a <> b -> 0 <= a -> 0 <= b -> cnt i a b (x, y) = false) ->
    inv (dstep i (x, y) dx 0) (dstep i (x, y) dy 1) segs).
  { intros S. split; [exact I1|]. split.
    - intros s Hs. apply seg_ok_skip; auto.
    - intros kind p a b Hp Hab Ha Hb Hc. apply (I3 kind p a b); auto.
      unfold dstep in Hp. destruct Hi as [-> | ->]; cbn [Z.eqb Pos.eqb] in Hp; rewrite in_app_iff in Hp;
      cbn [In] in Hp;
      (destruct Hp as [[-> Hp]|[-> Hp]]; [|]; try tauto;
       destruct Hp as [Hp|[<-|[]]]; [tauto|]; rewrite S in Hc by auto; discriminate). }
  destruct ((x =? 0) || (y =? 0) || (x =? W - 1) || (y =? H - 1)) eqn:Eedge.
  { eexists; split; [reflexivity|]. apply Skip. intros a b _ _ _.
    unfold cnt; cbn [fst snd]. lia. }
  unfold inside in Hin; cbn [fst snd] in Hin.
  assert (Hin' : inside W H (x, y)) by (unfold inside; cbn [fst snd]; lia).
  rewrite next_pix_model by auto.
  assert (Hn : inside W H (next_pix i (x, y))).
  { unfold inside, next_pix; destruct Hi as [-> | ->]; cbn [Z.eqb Pos.eqb fst snd]; lia. }
  unfold np_get. rewrite !np_pix_inside by auto. cbn [bind].
  pose proof (Hlab _ Hin') as L1. pose proof (Hlab _ Hn) as L2.
  set (a := lab (x, y) - 1). set (b := lab (next_pix i (x, y)) - 1).
  destruct (b =? a) eqn:Eab.
  { eexists; split; [reflexivity|]. apply Skip. intros c d. unfold cnt; cbn [fst snd]. lia. }
  destruct ((b <? 0) || (a <? 0)) eqn:Eneg.
  { eexists; split; [reflexivity|]. apply Skip. intros c d. unfold cnt; cbn [fst snd]. lia. }
  replace ((a <? n) && (b <? n)) with true by lia.
  assert (Hc : forall c d, c <> d -> key c d <> key a b -> cnt i c d (x, y) = false).
  { intros c d Hcd Hk. destruct (cnt i c d (x, y)) eqn:Ec; auto. exfalso. apply Hk.
    unfold cnt in Ec. unfold key. rewrite pair_equal_spec. lia. }
  assert (Hcab : forall c d, key c d = key a b -> cnt i c d (x, y) = true).
  { intros c d Hk. unfold key in Hk. rewrite pair_equal_spec in Hk.
    apply cnt_spec. unfold interior, sides; cbn [fst snd].
    assert ((c = a /\ d = b) \/ (c = b /\ d = a)) as Q by lia. lia. }
  destruct (nn_add_spec a b (x, y) i Hi segs)
    as [(l & s & r & s' & E1 & E2 & E3 & E4 & E5)|(s' & E1 & E2 & E3)].
  - rewrite E5. eexists; split; [reflexivity|]. rewrite add_point_spec in E4 by auto.
    assert (Es' : s' = _) by (injection E4 as E4; symmetry; exact E4). clear E4.
    assert (K' : skey s' = skey s) by (subst s'; reflexivity).
    subst segs. rewrite map_app in I1; cbn [map] in I1.
    split; [rewrite map_app; cbn [map]; now rewrite K'|].
    assert (Oth : forall t, In t l \/ In t r -> skey t <> key a b).
    { intros t [Ht|Ht]; auto. intros Et. rewrite <- E3 in Et.
      apply NoDup_remove_2 in I1. apply I1. rewrite in_app_iff. right.
      rewrite <- Et. now apply in_map. }
    split.
    + intros t Ht. rewrite in_app_iff in Ht. cbn [In] in Ht.
      assert (Ht' : t = s' \/ (In t l \/ In t r)) by (destruct Ht as [|[]]; auto).
      destruct Ht' as [->|Ht'].
      * assert (So : seg_ok dx dy s) by (apply I2; rewrite in_app_iff; cbn [In]; auto).
        destruct So as (A & B & C & D & E & F & G & K).
        assert (Cs : cnt i (sg1 s) (sg2 s) (x, y) = true) by (apply Hcab; exact E3).
        assert (Ow : (a =? sg1 s) = (lab (x, y) =? sg1 s + 1)) by lia.
        subst s'. unfold seg_ok, dstep. cbn [sg1 sg2 seg_px seg_py seg_ox seg_oy].
        split; auto. split; auto. split; auto.
        destruct Hi as [-> | ->]; cbn [Z.eqb Pos.eqb]; rewrite filter_snoc, Cs, map_app;
          cbn [map]; rewrite <- ?D, <- ?E, <- ?F, <- ?G, Ow; repeat split; auto.
        -- left. intros Q. apply app_eq_nil in Q. now destruct Q.
        -- right. intros Q. apply app_eq_nil in Q. now destruct Q.
      * apply seg_ok_skip; auto.
        -- intros c d Hcd _ _ Hk. apply Hc; auto. rewrite Hk. apply Oth; auto.
        -- apply I2. rewrite in_app_iff. cbn [In]. tauto.
    + intros kind p c d Hp Hcd Hc0 Hd0 Hcn.
      assert (Old : (exists t, In t (l ++ s :: r) /\ skey t = key c d) ->
                    exists t, In t (l ++ s' :: r) /\ skey t = key c d).
      { intros (t & Ht & Et). rewrite in_app_iff in Ht. cbn [In] in Ht.
        destruct Ht as [Ht|[Ht|Ht]].
        - exists t. rewrite in_app_iff. auto.
        - subst t. exists s'. rewrite in_app_iff. cbn [In]. rewrite K'. auto.
        - exists t. rewrite in_app_iff. cbn [In]. auto. }
      assert (New : p = (x, y) -> kind = i -> exists t, In t (l ++ s' :: r) /\ skey t = key c d).
      { intros -> ->. exists s'. rewrite in_app_iff. cbn [In]. split; auto. rewrite K', E3.
        destruct (Z.eq_dec (fst (key c d)) (fst (key a b)));
        destruct (Z.eq_dec (snd (key c d)) (snd (key a b)));
        try (rewrite Hc in Hcn by (auto; congruence); discriminate).
        unfold key in *. cbn [fst snd] in *. f_equal; lia. }
      unfold dstep in Hp.
      destruct Hi as [-> | ->]; cbn [Z.eqb Pos.eqb] in Hp; rewrite in_app_iff in Hp; cbn [In] in Hp;
      (destruct Hp as [[-> Hp]|[-> Hp]];
       [|]; try (apply Old; eapply I3; eauto; tauto);
       destruct Hp as [Hp|[<-|[]]]; auto; apply Old; eapply I3; eauto; tauto).
  - rewrite E3. eexists; split; [reflexivity|]. rewrite add_point_spec in E2 by auto.
    assert (Es' : s' = _) by (injection E2 as E2; symmetry; exact E2). clear E2.
    assert (K' : skey s' = key a b) by (subst s'; reflexivity).
    split; [|split].
    + rewrite map_app. cbn [map]. apply NoDup_rev in I1. rewrite <- (rev_involutive (_ ++ _)).
      apply NoDup_rev. rewrite rev_app_distr. cbn [rev app]. constructor; auto.
      rewrite <- in_rev. rewrite in_map_iff. intros (t & Et & Ht). rewrite K' in Et.
      now apply (E1 t Ht).
    + intros t Ht. rewrite in_app_iff in Ht. cbn [In] in Ht. destruct Ht as [Ht|[<-|[]]].
      * apply seg_ok_skip; auto. intros c d Hcd _ _ Hk. apply Hc; auto. rewrite Hk. auto.
      * (* no earlier point lies between a and b, or an edge would exist *)
        assert (No : forall kind p, (kind = 0 /\ In p dx) \/ (kind = 1 /\ In p dy) ->
                     cnt kind a b p = false).
        { intros kind p Hp. destruct (cnt kind a b p) eqn:Ec; auto. exfalso.
          destruct (I3 kind p a b) as (t & Ht & Et); auto; try lia. now apply (E1 t). }
        assert (Fx : filter (cnt 0 a b) dx = []).
        { clear -No. induction dx as [|q l IH]; auto. cbn [filter].
          rewrite (No 0 q) by (left; split; [auto|now left]).
          apply IH. intros k p [[-> Hp]|Hp]; apply No; [left; split; auto; now right | now right]. }
        assert (Fy : filter (cnt 1 a b) dy = []).
        { clear -No. induction dy as [|q l IH]; auto. cbn [filter].
          rewrite (No 1 q) by (right; split; [auto|now left]).
          apply IH. intros k p [Hp|[-> Hp]]; apply No; [now left | right; split; auto; now right]. }
        assert (Cs : cnt i a b (x, y) = true) by (apply Hcab; reflexivity).
        assert (Ow : (a =? a) = (lab (x, y) =? a + 1)) by lia.
        subst s'. unfold seg_ok, dstep, new_seg. cbn [sg1 sg2 seg_px seg_py seg_ox seg_oy].
        destruct Hi as [-> | ->]; cbn [Z.eqb Pos.eqb app]; rewrite filter_snoc, Cs, ?Fx, ?Fy;
          cbn [map app]; rewrite <- ?Ow.
        -- repeat split; try reflexivity; try lia. left; discriminate.
        -- repeat split; try reflexivity; try lia. right; discriminate.
    + intros kind p c d Hp Hcd Hc0 Hd0 Hcn.
      assert (Old : (exists t, In t segs /\ skey t = key c d) ->
                    exists t, In t (segs ++ [s']) /\ skey t = key c d).
      { intros (t & Ht & Et). exists t. rewrite in_app_iff. auto. }
      assert (New : p = (x, y) -> kind = i -> exists t, In t (segs ++ [s']) /\ skey t = key c d).
      { intros -> ->. exists s'. rewrite in_app_iff. cbn [In]. split; auto. rewrite K'.
        destruct (Z.eq_dec (fst (key c d)) (fst (key a b)));
        destruct (Z.eq_dec (snd (key c d)) (snd (key a b)));
        try (rewrite Hc in Hcn by (auto; congruence); discriminate).
        unfold key in *. cbn [fst snd] in *. f_equal; lia. }
      unfold dstep in Hp.
      destruct Hi as [-> | ->]; cbn [Z.eqb Pos.eqb] in Hp; rewrite in_app_iff in Hp; cbn [In] in Hp;
      (destruct Hp as [[-> Hp]|[-> Hp]];
       [|]; try (apply Old; eapply I3; eauto; tauto);
       destruct Hp as [Hp|[<-|[]]]; auto; apply Old; eapply I3; eauto; tauto).
Qed.

Lemma nn_loop_x l : forall dx dy segs, (forall p, In p l -> inside W H p) -> inv dx dy segs ->
  exists segs', for_each (nn_point W H n lab 0) l segs = Ok segs' /\ inv (dx ++ l) dy segs'.
Proof.
  induction l as [|p l IH]; intros dx dy segs Hl I; cbn [for_each].
  - eexists; split; [reflexivity|]. now rewrite app_nil_r.
  - destruct (nn_point_inv dx dy segs 0 p) as (s1 & E1 & I1); auto; [apply Hl; now left|].
    rewrite E1. cbn [bind]. unfold dstep in I1. cbn [Z.eqb Pos.eqb] in I1.
    destruct (IH _ _ _ (fun q Hq => Hl q (or_intror Hq)) I1) as (s2 & E2 & I2).
    exists s2. split; auto. now rewrite <- app_assoc in I2.
Qed.
Lemma nn_loop_y l : forall dx dy segs, (forall p, In p l -> inside W H p) -> inv dx dy segs ->
  exists segs', for_each (nn_point W H n lab 1) l segs = Ok segs' /\ inv dx (dy ++ l) segs'.
Proof.
  induction l as [|p l IH]; intros dx dy segs Hl I; cbn [for_each].
  - eexists; split; [reflexivity|]. now rewrite app_nil_r.
  - destruct (nn_point_inv dx dy segs 1 p) as (s1 & E1 & I1); auto; [apply Hl; now left|].
    rewrite E1. cbn [bind]. unfold dstep in I1. cbn [Z.eqb Pos.eqb] in I1.
    destruct (IH _ _ _ (fun q Hq => Hl q (or_intror Hq)) I1) as (s2 & E2 & I2).
    exists s2. split; auto. now rewrite <- app_assoc in I2.
Qed.

Lemma network_inv px py : (forall p, In p px \/ In p py -> inside W H p) ->
  exists segs, build_neighbour_network W H n lab px py = Ok segs /\ inv px py segs.
Proof.
  intros Hp. unfold build_neighbour_network.
  destruct (nn_loop_x px [] [] []) as (s1 & E1 & I1); auto.
  { split; [constructor|]. split; [intros s []|]. intros k p a b [[_ []]|[_ []]]. }
  rewrite E1. cbn [bind].
  destruct (nn_loop_y py _ _ _ (fun p Ip => Hp p (or_intror Ip)) I1) as (s2 & E2 & I2).
  cbn [app] in I2. eauto.
Qed.

Lemma seg_pairs_spec s dx dy : seg_ok dx dy s -> forall kind, kind = 0 \/ kind = 1 ->
  let pts := if kind =? 0 then seg_px s else seg_py s in
  boundary_point_pairs s kind =
  map (fun p => if lab p =? sg1 s + 1 then (p, next_pix kind p) else (next_pix kind p, p)) pts.
Proof.
  intros (A & B & C & D & E & F & G & K) kind Hk. unfold boundary_point_pairs.
  assert (Q : forall (l : list pix) (d : pix) k, (forall p, next_pix k p = (fst p + fst d, snd p + snd d)) ->
    map (fun po : pix * bool => let (point, owner) := po in
       let other := (fst point + fst d, snd point + snd d) in
       if owner then (point, other) else (other, point))
      (combine l (map (fun p => lab p =? sg1 s + 1) l)) =
    map (fun p => if lab p =? sg1 s + 1 then (p, next_pix k p) else (next_pix k p, p)) l).
  { intros l d k Hd. induction l as [|p l IH]; auto. cbn [map combine]. f_equal; [now rewrite Hd | exact IH]. }
  destruct Hk as [-> | ->]; cbn [Z.eqb Pos.eqb]; rewrite ?F, ?G;
  [apply (Q _ (1, 0) 0) | apply (Q _ (0, 1) 1)]; intros [u v]; unfold next_pix; cbn [Z.eqb Pos.eqb fst snd]; f_equal; lia.
Qed.
End Net.

(** ** Two labels meet across a boundary *)
Lemma lab_boundary W H bx by_ phase np ms lab gl ph : 2 <= W -> 2 <= H ->
  find_grains W H bx by_ phase np ms = Ok (lab, gl, ph) ->
  forall kind p, kind = 0 \/ kind = 1 -> inside W H p -> inside W H (next_pix kind p) ->
  0 < lab p -> 0 < lab (next_pix kind p) -> lab p <> lab (next_pix kind p) ->
  (if kind =? 0 then bx p else by_ p) = true.
Proof.
  intros HW HH E kind p Hk Hp Hn L1 L2 Hne.
  destruct (if kind =? 0 then bx p else by_ p) eqn:Eb; auto. exfalso. apply Hne.
  destruct p as [x y].
  symmetry. apply (proj2 (fg_same _ _ _ _ _ _ _ _ _ _ HW HH E (x, y) (next_pix kind (x, y)) Hp Hn L1)).
  apply rt_step. destruct Hk as [-> | ->]; unfold next_pix in *; cbn [Z.eqb Pos.eqb fst snd] in *.
  - now apply step_right.
  - now apply step_down.
Qed.
