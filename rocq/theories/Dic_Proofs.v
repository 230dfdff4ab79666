From Coq Require Import String Reals Lra Lia.
From Coq Require Import List ZArith Bool.
Import ListNotations.
From Verif Require Import Py Grid Grid_Lemmas Crystal_Model CrystalMat_Proofs Base_Model Base_Spec Base_Proofs Dic_Model Dic_Spec.
Open Scope Z_scope.

(** ** Strain *)
Lemma grad1_linear : forall n h f a b i, h <> 0%R -> 0 <= i < n -> 2 <= n ->
  (forall j, f j = a + b * (h * IZR j))%R -> grad1 n h f i = b.
Proof.
  intros n h f a b i Hh Hi Hn F. unfold grad1.
  destruct (Z.eqb_spec i 0); [|destruct (Z.eqb_spec i (n - 1))]; rewrite !F;
    rewrite ?minus_IZR, ?plus_IZR; field; auto.
Qed.
Lemma grad1_shift : forall n h f k i, grad1 n h (fun j => f j + k)%R i = grad1 n h f i.
Proof.
  intros n h f k i. unfold grad1.
  destruct (i =? 0); [|destruct (i =? n - 1)]; f_equal; ring.
Qed.
Lemma grad1_ext : forall n h f g i, (forall j, f j = g j) -> grad1 n h f i = grad1 n h g i.
Proof. intros n h f g i E. unfold grad1. now rewrite !E. Qed.

Lemma dgrad_ok : forall W H b u, 2 <= W -> 2 <= H ->
  exists f, deformation_gradient W H b u = Ok f /\
    forall i p, (f i 0%Z p = grad1 W b (fun x => u i (x, snd p)) (fst p) + delta i 0%Z)%R /\
                (f i 1%Z p = grad1 H b (fun y => u i (fst p, y)) (snd p) + delta i 1%Z)%R.
Proof.
  intros W H b u HW HH. eexists. split.
  - unfold deformation_gradient. destruct (Z.ltb_spec W 2), (Z.ltb_spec H 2); try lia. reflexivity.
  - intros i p. unfold delta. cbv beta. cbn [Z.sub Z.opp Z.add Z.eqb Pos.eqb Z.pos_sub].
    split; [destruct (i =? 0)|destruct (i =? 1)]; rewrite ?Rplus_0_r; reflexivity.
Qed.

Lemma axis_cases : forall (P : Z -> Prop), P 0 -> P 1 -> forall i, axis i -> P i.
Proof. intros P P0 P1 i [->| ->]; auto. Qed.

(** ** Points *)
Lemma set_nth_same : forall A (l : list A) i v l', set_nth i v l = Some l' ->
  nth_error l' i = Some v /\ (forall j, j <> i -> nth_error l' j = nth_error l j) /\ List.length l' = List.length l.
Proof.
  induction l as [|a l IH]; intros i v l' E; destruct i as [|i]; cbn [set_nth] in E; try discriminate E.
  - injection E as <-. split; [reflexivity|]. split; [|reflexivity]. intros [|j] N; [lia|reflexivity].
  - destruct (set_nth i v l) as [r|] eqn:Er; [|discriminate E]. injection E as <-.
    destruct (IH _ _ _ Er) as (A1 & A2 & A3). split; [exact A1|]. split.
    + intros [|j] N; [reflexivity|]. cbn [nth_error]. apply A2. lia.
    + cbn [List.length]. now rewrite A3.
Qed.
Lemma set_nth_ok : forall A (l : list A) i v, (i < List.length l)%nat -> exists l', set_nth i v l = Some l'.
Proof.
  induction l as [|a l IH]; intros i v H; cbn [List.length] in H; [lia|].
  destruct i as [|i]; cbn [set_nth]; [eauto|]. destruct (IH i v) as (r & ->); [lia|]. eauto.
Qed.
Lemma set_nth_mid : forall A (l m : list A) a b, set_nth (List.length l) b (l ++ a :: m) = Some (l ++ b :: m).
Proof. induction l as [|x l IH]; intros m a b; cbn [List.length app set_nth]; auto. now rewrite IH. Qed.

Lemma update_all_ok : forall d pts, pairs pts -> forall dx dy, at_xy d dx dy ->
  exists pts', for_each (fun pts i => update_one pts i None (Some d)) (seq 0 (List.length pts)) pts = Ok pts' /\
    Forall2 (fun p p' => forall x y, at_xy p x y -> p' = PTuple [x + dx; y + dy]%R) pts pts'.
Proof.
  intros d pts HP dx dy Hd.
  assert (G : forall rest done, pairs rest ->
    exists rest', for_each (fun pts i => update_one pts i None (Some d)) (seq (List.length done) (List.length rest)) (done ++ rest)
      = Ok (done ++ rest') /\ Forall2 (fun p p' => forall x y, at_xy p x y -> p' = PTuple [x + dx; y + dy]%R) rest rest').
  { induction rest as [|p rest IH]; intros done HR.
    - exists []. split; [reflexivity|constructor].
    - inversion HR as [|? ? (x & y & Hp) HR']; subst. cbn [List.length seq for_each].
      assert (U : update_one (done ++ p :: rest) (List.length done) None (Some d) =
                  Ok (done ++ PTuple [x + dx; y + dy]%R :: rest)).
      { unfold update_one, set_point. rewrite nth_error_app2, Nat.sub_diag by lia. cbn [nth_error].
        destruct Hd as [-> | ->], Hp as [-> | ->]; cbn [is_tuple negb plen bind List.length Nat.eqb add_pair];
          rewrite set_nth_mid; reflexivity. }
      rewrite U. cbn [bind].
      destruct (IH (done ++ [PTuple [x + dx; y + dy]%R]) HR') as (r & E & F).
      rewrite app_length in E. cbn [List.length] in E. rewrite Nat.add_1_r in E. rewrite <- !app_assoc in E. cbn [app] in E.
      exists (PTuple [x + dx; y + dy]%R :: r). split; [exact E|]. constructor; auto.
      intros x' y' Hp'. destruct Hp as [-> | ->], Hp' as [X|X]; try discriminate X; injection X as -> ->; reflexivity. }
  destruct (G pts [] HP) as (r & E & F). exists r. split; auto.
Qed.

(** ** Crops *)
Lemma slice_ok : forall n a b, 0 <= a -> a <= b -> b <= n -> slice n a b = (a, b - a).
Proof.
  intros n a b H1 H2 H3. unfold slice. destruct (Z.ltb_spec a 0), (Z.ltb_spec b 0); try lia.
  rewrite (Z.min_l a n), (Z.min_l b n) by lia. f_equal. lia.
Qed.

Lemma set_crop_inv : forall m l r t b u m', set_crop m l r t b u = Ok m' ->
  d_xdim m' = d_xdim m /\ d_ydim m' = d_ydim m /\
  c_left (d_crops m') = match l with Some v => v | None => c_left (d_crops m) end /\
  c_right (d_crops m') = match r with Some v => v | None => c_right (d_crops m) end /\
  c_top (d_crops m') = match t with Some v => v | None => c_top (d_crops m) end /\
  c_bottom (d_crops m') = match b with Some v => v | None => c_bottom (d_crops m) end /\
  consistent m' /\
  (u = false -> d_homog m' = d_homog m).
Proof.
  intros m l r t b u m' E. unfold set_crop in E.
  destruct l as [vl|]; destruct t as [vt|]; cbv beta iota zeta in E;
  match type of E with (bind ?X _ = _) => destruct X as [pts|] eqn:EP; cbn [bind] in E; [|discriminate E] end;
  injection E as <-; cbn [d_xdim d_ydim d_crops c_left c_right c_top c_bottom d_homog];
  (split; [auto|]); (split; [auto|]); (split; [auto|]); (split; [auto|]); (split; [auto|]); (split; [auto|]);
  (split; [reflexivity|]); intros ->; cbn [andb] in EP; congruence.
Qed.

Lemma set_crop_homog : forall m l r t b xys, on_material m xys ->
  exists m', set_crop m l r t b true = Ok m' /\ on_material m' xys.
Proof.
  intros m l r t b xys HM.
  set (cl := match l with Some v => v | None => c_left (d_crops m) end).
  set (ct := match t with Some v => v | None => c_top (d_crops m) end).
  set (dx := c_left (d_crops m) - cl). set (dy := c_top (d_crops m) - ct).
  assert (HP : pairs (d_homog m)).
  { unfold on_material in HM. induction HM as [|p xy ps xys H F IH]; constructor; eauto. }
  destruct (update_all_ok (PTuple [IZR dx; IZR dy]) (d_homog m) HP (IZR dx) (IZR dy)) as (pts & E & F); [left; auto|].
  assert (N : forall pts', Forall2 (fun p p' => forall x y, at_xy p x y -> p' = PTuple [x + IZR dx; y + IZR dy]%R)
                 (d_homog m) pts' ->
              Forall2 (fun p xy => at_xy p (fst xy - IZR cl) (snd xy - IZR ct))%R pts' xys).
  { unfold on_material in HM. clear - HM. induction HM as [|p xy ps xys H F IH]; intros pts' G; inversion G as [|? ? ? ? G1 G2]; subst; constructor.
    - left. rewrite (G1 _ _ H). unfold dx, dy. rewrite !minus_IZR. do 2 f_equal; [ring|f_equal; ring].
    - apply IH; auto. }
  eassert (Set1 : set_crop m l r t b true = _).
  { unfold set_crop.
    replace (match l with Some l => (l, c_left (d_crops m) - l) | None => (c_left (d_crops m), 0) end) with (cl, dx)
      by (unfold dx, cl; destruct l; f_equal; lia).
    replace (match t with Some t => (t, c_top (d_crops m) - t) | None => (c_top (d_crops m), 0) end) with (ct, dy)
      by (unfold dy, ct; destruct t; f_equal; lia).
    cbv beta iota zeta. reflexivity. }
  rewrite Set1. clear Set1. cbn [andb].
  destruct (negb (dx =? 0) || negb (dy =? 0)) eqn:D.
  - unfold update_homog_points.
    destruct (Z.leb_spec (Z.of_nat (List.length (d_homog m))) (-1)); [lia|].
    cbn [Z.ltb Z.compare]. rewrite E. cbn [bind]. eexists. split; [reflexivity|].
    unfold on_material. cbn [d_crops c_left c_top d_homog]. now apply N.
  - cbn [bind]. eexists. split; [reflexivity|].
    apply orb_false_iff in D as [D1 D2]. apply negb_false_iff in D1, D2. apply Z.eqb_eq in D1, D2.
    unfold on_material. cbn [d_crops c_left c_top d_homog].
    replace cl with (c_left (d_crops m)) by (unfold dx in D1; lia).
    replace ct with (c_top (d_crops m)) by (unfold dy in D2; lia). exact HM.
Qed.

Lemma crop_ok : forall A m (data : image A) b, fitting m -> 0 <= b ->
  im_w data = d_xdim m * b -> im_h data = d_ydim m * b ->
  crop m data b = Image ((d_xdim m - c_left (d_crops m) - c_right (d_crops m)) * b)
                        ((d_ydim m - c_top (d_crops m) - c_bottom (d_crops m)) * b)
                        (fun p => im_at data (fst p + c_left (d_crops m) * b, snd p + c_top (d_crops m) * b)).
Proof.
  intros A m data b (F1 & F2 & F3 & F4 & F5 & F6) Hb EW EH. unfold crop. rewrite EW, EH.
  rewrite (slice_ok (d_ydim m * b)) by nia. rewrite (slice_ok (d_xdim m * b)) by nia.
  f_equal; lia.
Qed.

(** ** Masks *)
Lemma dilate1_iff : forall W H m p, dilate1 W H m p = true <->
  m p = true \/ exists q, inside W H q /\ taxi p q = 1 /\ m q = true.
Proof.
  intros W H m [x y]. unfold dilate1. cbn [fst snd]. rewrite !orb_true_iff, !andb_true_iff.
  assert (I : forall q, insideb W H q = true <-> inside W H q).
  { intros q. destruct (insideb_spec W H q); split; auto; discriminate. }
  rewrite !I. split.
  - intros [[[[M|[A M]]|[A M]]|[A M]]|[A M]]; [auto|..]; right; eexists; (split; [exact A|]); (split; [|exact M]);
      unfold taxi; cbn [fst snd]; lia.
  - intros [M|([u v] & A & T & M)]; [tauto|]. unfold taxi in T. cbn [fst snd] in T.
    assert (C : (u = x - 1 /\ v = y) \/ (u = x + 1 /\ v = y) \/ (u = x /\ v = y - 1) \/ (u = x /\ v = y + 1)) by lia.
    destruct C as [[-> ->]|[[-> ->]|[[-> ->]|[-> ->]]]]; tauto.
Qed.
Lemma taxi_step : forall W H p q n, inside W H p -> inside W H q -> 0 < taxi p q -> taxi p q <= n + 1 ->
  exists r, inside W H r /\ taxi p r = 1 /\ taxi r q <= n.
Proof.
  intros W H [x y] [u v] n [I1 I2] [J1 J2] T1 T2. unfold taxi in *. cbn [fst snd] in *.
  destruct (Z.lt_trichotomy x u) as [L|[->|L]].
  - exists (x + 1, y). unfold inside. cbn [fst snd]. lia.
  - destruct (Z.lt_trichotomy y v) as [L|[->|L]].
    + exists (u, y + 1). unfold inside. cbn [fst snd]. lia.
    + lia.
    + exists (u, y - 1). unfold inside. cbn [fst snd]. lia.
  - exists (x - 1, y). unfold inside. cbn [fst snd]. lia.
Qed.
Lemma taxi_tri : forall p q r, taxi p r <= taxi p q + taxi q r.
Proof. intros [a b] [c d] [e f]. unfold taxi; cbn [fst snd]. lia. Qed.
Lemma dilate_iff : forall W H m n p, inside W H p ->
  (dilate n W H m p = true <-> exists q, inside W H q /\ taxi p q <= Z.of_nat n /\ m q = true).
Proof.
  intros W H m. induction n as [|n IH]; intros p Hp; cbn [dilate].
  - split.
    + intros M. exists p. split; auto. split; auto. unfold taxi. lia.
    + intros (q & _ & T & M). assert (p = q) as ->; auto. destruct p, q. unfold taxi in T; cbn [fst snd] in T. f_equal; lia.
  - rewrite dilate1_iff. rewrite IH by auto. split.
    + intros [(q & A & B & C)|(r & A & B & C)].
      * exists q. split; auto. split; auto. lia.
      * apply IH in C as (q & A' & B' & C'); auto. exists q. split; auto. split; auto.
        pose proof (taxi_tri p r q). lia.
    + intros (q & A & B & C). destruct (Z.eq_dec (taxi p q) 0) as [Z0|N].
      * left. exists q. split; auto. split; auto. lia.
      * right. destruct (taxi_step W H p q (Z.of_nat n) Hp A) as (r & R1 & R2 & R3).
        { unfold taxi in *. lia. } { lia. }
        exists r. split; auto. split; auto. apply IH; auto. eauto.
Qed.

(** ** Frames *)
Lemma fpair_eqb_spec : forall a b, fpair_eqb a b = true <-> a = b.
Proof.
  intros [a b] [c d]. unfold fpair_eqb. cbn [fst snd]. rewrite andb_true_iff, !Z.eqb_eq. split.
  - intros [-> ->]; auto.
  - intros E; now injection E.
Qed.
Lemma rel_get_set_same : forall r k v, rel_get (rel_set r k v) k = Some v.
Proof.
  induction r as [|[k' v'] r IH]; intros k v; cbn [rel_set rel_get].
  - rewrite (proj2 (fpair_eqb_spec k k)); auto.
  - destruct (fpair_eqb k' k) eqn:E; cbn [rel_get]; rewrite E; auto.
Qed.
Lemma rel_get_set_other : forall r k k' v, k <> k' -> rel_get (rel_set r k v) k' = rel_get r k'.
Proof.
  induction r as [|[k0 v0] r IH]; intros k k' v N; cbn [rel_set rel_get].
  - destruct (fpair_eqb k k') eqn:E; auto. apply fpair_eqb_spec in E. contradiction.
  - destruct (fpair_eqb k0 k) eqn:E; cbn [rel_get].
    + apply fpair_eqb_spec in E. subst k0. destruct (fpair_eqb k k') eqn:E'; auto.
      apply fpair_eqb_spec in E'. contradiction.
    + destruct (fpair_eqb k0 k'); auto.
Qed.

Lemma half_round_half : forall x, half_integer (half_round x) /\ (Rabs (half_round x - x) <= 1/2)%R.
Proof.
  intros x. split; [exists (rint (x - 1/2)); reflexivity|].
  unfold half_round. set (z := (x - 1/2)%R).
  assert (G : (Rabs (IZR (rint z) - z) <= 1/2)%R).
  { unfold rint. destruct (base_Int_part z) as [A B]. set (m := Int_part z) in *.
    destruct (Rlt_dec (z - IZR m) (1/2)); [apply Rabs_le; lra|].
    destruct (Rlt_dec (1/2) (z - IZR m)); [rewrite plus_IZR; apply Rabs_le; lra|].
    destruct (Z.even m); rewrite ?plus_IZR; apply Rabs_le; lra. }
  unfold z in *. replace (IZR (rint (x - 1 / 2)) + 1 / 2 - x)%R with (IZR (rint (x - 1 / 2)) - (x - 1 / 2))%R by ring.
  exact G.
Qed.
Lemma rint_close : forall z, (Rabs (IZR (rint z) - z) <= 1/2)%R.
Proof.
  intros z. unfold rint. destruct (base_Int_part z) as [A B]. set (m := Int_part z) in *.
  destruct (Rlt_dec (z - IZR m) (1/2)); [apply Rabs_le; lra|].
  destruct (Rlt_dec (1/2) (z - IZR m)); [rewrite plus_IZR; apply Rabs_le; lra|].
  destruct (Z.even m); rewrite ?plus_IZR; apply Rabs_le; lra.
Qed.
