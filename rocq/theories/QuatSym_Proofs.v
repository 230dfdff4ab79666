From Coq Require Import List Reals Lra Lia String Psatz ZArith Bool.
Import ListNotations.
From Verif Require Import Quat_Model Quat_Spec Quat_Proofs.
Open Scope R_scope.

(** *** Exact arithmetic in (Z + Z sqrt D) / n, to decide facts about the
    symmetry lists by computation. *)
Definition zs := (Z * Z)%type.
Definition zval (D : Z) (n : R) (a : zs) : R := (IZR (fst a) + IZR (snd a) * sqrt (IZR D)) / n.
Definition zadd (a b : zs) : zs := (fst a + fst b, snd a + snd b)%Z.
Definition zsub (a b : zs) : zs := (fst a - fst b, snd a - snd b)%Z.
Definition zmul (D : Z) (a b : zs) : zs :=
  (fst a * fst b + D * (snd a * snd b), fst a * snd b + snd a * fst b)%Z.
Definition zeqb (a b : zs) : bool := (Z.eqb (fst a) (fst b) && Z.eqb (snd a) (snd b))%bool.

Record zq := ZQ { zw : zs; zx : zs; zy : zs; zz : zs }.
Definition zqval (D : Z) (n : R) (q : zq) : quat :=
  Q4 (zval D n (zw q)) (zval D n (zx q)) (zval D n (zy q)) (zval D n (zz q)).
Definition zprod (D : Z) (a b : zq) : zq :=
  let m := zmul D in
  ZQ (zsub (zsub (zsub (m (zw a) (zw b)) (m (zx a) (zx b))) (m (zy a) (zy b))) (m (zz a) (zz b)))
     (zsub (zadd (zadd (m (zw a) (zx b)) (m (zx a) (zw b))) (m (zy a) (zz b))) (m (zz a) (zy b)))
     (zadd (zadd (zsub (m (zw a) (zy b)) (m (zx a) (zz b))) (m (zy a) (zw b))) (m (zz a) (zx b)))
     (zadd (zsub (zadd (m (zw a) (zz b)) (m (zx a) (zy b))) (m (zy a) (zx b))) (m (zz a) (zw b))).
Definition zmap (f : zs -> zs) (q : zq) : zq := ZQ (f (zw q)) (f (zx q)) (f (zy q)) (f (zz q)).
Definition zopp (a : zs) : zs := (- fst a, - snd a)%Z.
Definition zscale (k : Z) (a : zs) : zs := (k * fst a, k * snd a)%Z.
Definition zqeqb (a b : zq) : bool :=
  (zeqb (zw a) (zw b) && zeqb (zx a) (zx b) && zeqb (zy a) (zy b) && zeqb (zz a) (zz b))%bool.
Definition zconj (a : zq) : zq := ZQ (zw a) (zopp (zx a)) (zopp (zy a)) (zopp (zz a)).
Definition zsame (a b : zq) : bool := (zqeqb a b || zqeqb a (zmap zopp b))%bool.

Lemma zeqb_eq : forall a b, zeqb a b = true <-> a = b.
Proof.
  intros [a b] [c d]. unfold zeqb; cbn. rewrite andb_true_iff, !Z.eqb_eq. split.
  - intros [-> ->]; auto.
  - intros H; injection H as -> ->; auto.
Qed.
Lemma zqeqb_eq : forall a b, zqeqb a b = true <-> a = b.
Proof.
  intros [a b c d] [e f g h]. unfold zqeqb; cbn. rewrite !andb_true_iff, !zeqb_eq. split.
  - intros [[[-> ->] ->] ->]; auto.
  - intros H; injection H as -> -> -> ->; auto.
Qed.

Section Exact.
Variable D : Z.
Hypothesis D0 : (0 <= D)%Z.
Lemma sq : sqrt (IZR D) * sqrt (IZR D) = IZR D.
Proof. apply sqrt_sqrt. now apply (IZR_le 0). Qed.
Lemma zval_mul : forall n m a b, n <> 0 -> m <> 0 ->
  zval D (n * m) (zmul D a b) = zval D n a * zval D m b.
Proof.
  intros n m [a b] [c d] Hn Hm. unfold zval, zmul; cbn [fst snd].
  rewrite !plus_IZR, !mult_IZR. pose proof sq as Q. set (r := sqrt (IZR D)) in *. clearbody r.
  rewrite <- Q. field. auto.
Qed.
Lemma zval_add : forall n a b, n <> 0 -> zval D n (zadd a b) = zval D n a + zval D n b.
Proof. intros n [a b] [c d] Hn. unfold zval, zadd; cbn [fst snd]. rewrite !plus_IZR. field. auto. Qed.
Lemma zval_sub : forall n a b, n <> 0 -> zval D n (zsub a b) = zval D n a - zval D n b.
Proof. intros n [a b] [c d] Hn. unfold zval, zsub; cbn [fst snd]. rewrite !minus_IZR. field. auto. Qed.
Lemma zval_opp : forall n a, n <> 0 -> zval D n (zopp a) = - zval D n a.
Proof. intros n [a b] Hn. unfold zval, zopp; cbn [fst snd]. rewrite !opp_IZR. field. auto. Qed.
Lemma zval_scale2 : forall a, zval D 4 (zscale 2 a) = zval D 2 a.
Proof. intros [a b]. unfold zval, zscale; cbn [fst snd]. rewrite !mult_IZR. field. Qed.
Lemma zqval_prod : forall a b, zqval D 4 (zprod D a b) = hprod (zqval D 2 a) (zqval D 2 b).
Proof.
  intros [a b c d] [e f g h]. unfold zqval, zprod, hprod; cbn [zw zx zy zz qw qx qy qz].
  replace 4 with (2 * 2) by ring.
  assert (N : 2 * 2 <> 0) by lra. assert (N2 : 2 <> 0) by lra.
  repeat first [rewrite (zval_add (2 * 2)) by exact N | rewrite (zval_sub (2 * 2)) by exact N].
  rewrite !zval_mul by exact N2. f_equal; ring.
Qed.
Lemma zqval_opp : forall n a, n <> 0 -> zqval D n (zmap zopp a) = opp (zqval D n a).
Proof. intros n [a b c d] Hn. unfold zqval, opp, zmap; cbn [zw zx zy zz qw qx qy qz]. now rewrite !zval_opp. Qed.
Lemma zqval_conj : forall n a, n <> 0 -> zqval D n (zconj a) = hconj (zqval D n a).
Proof. intros n [a b c d] Hn. unfold zqval, hconj, zconj; cbn [zw zx zy zz qw qx qy qz]. now rewrite !zval_opp. Qed.
Lemma zqval_scale2 : forall a, zqval D 4 (zmap (zscale 2) a) = zqval D 2 a.
Proof. intros [a b c d]. unfold zqval, zmap; cbn [zw zx zy zz]. now rewrite !zval_scale2. Qed.
Lemma zsame_rot : forall n a b, n <> 0 -> zsame a b = true -> same_rot (zqval D n a) (zqval D n b).
Proof.
  intros n a b Hn H. apply orb_prop in H. destruct H as [H|H]; apply zqeqb_eq in H; subst.
  - left; auto.
  - right. now apply zqval_opp.
Qed.

Definition zone : zq := ZQ (2, 0)%Z (0, 0)%Z (0, 0)%Z (0, 0)%Z.
Definition zunit (a : zq) : bool := zqeqb (zprod D a (zconj a)) (zmap (zscale 2) zone).
Definition zgroup (l : list zq) : bool :=
  (existsb (zqeqb zone) l && forallb zunit l &&
   forallb (fun a => forallb (fun b =>
     existsb (fun c => zsame (zmap (zscale 2) c) (zprod D a b)) l) l) l &&
   forallb (fun a => existsb (fun b => zsame b (zconj a)) l) l)%bool.
Lemma zqval_one : zqval D 2 zone = qone.
Proof. unfold zqval, zone, zval, qone; cbn. f_equal; field. Qed.
Lemma zgroup_sound : forall l, zgroup l = true -> rotation_group (map (zqval D 2) l).
Proof.
  intros l H. unfold zgroup in H. rewrite !andb_true_iff in H. destruct H as [[[H1 H2] H3] H4].
  assert (N2 : 2 <> 0) by lra. assert (N4 : 4 <> 0) by lra.
  split; [|split; [|split]].
  - apply existsb_exists in H1. destruct H1 as (a & Ia & E). apply zqeqb_eq in E. subst a.
    apply in_map_iff. exists zone. split; [apply zqval_one|auto].
  - intros a Ia. apply in_map_iff in Ia. destruct Ia as (z & <- & Iz).
    rewrite forallb_forall in H2. apply H2 in Iz. unfold zunit in Iz. apply zqeqb_eq in Iz.
    apply (f_equal (zqval D 4)) in Iz. rewrite zqval_prod, zqval_conj, zqval_scale2, zqval_one in Iz by auto.
    apply (f_equal qw) in Iz. destruct (zqval D 2 z). unfold hprod, hconj, qone, unitq in *; cbn in *. lra.
  - intros a b Ia Ib. apply in_map_iff in Ia, Ib. destruct Ia as (z & <- & Iz), Ib as (y & <- & Iy).
    rewrite forallb_forall in H3. apply H3 in Iz. rewrite forallb_forall in Iz. apply Iz in Iy.
    apply existsb_exists in Iy. destruct Iy as (c & Ic & E). exists (zqval D 2 c).
    split; [now apply in_map|]. rewrite <- zqval_prod, <- zqval_scale2. now apply zsame_rot.
  - intros a Ia. apply in_map_iff in Ia. destruct Ia as (z & <- & Iz).
    rewrite forallb_forall in H4. apply H4 in Iz. apply existsb_exists in Iz.
    destruct Iz as (c & Ic & E). exists (zqval D 2 c). split; [now apply in_map|].
    rewrite <- zqval_conj by auto. now apply zsame_rot.
Qed.

(** Distinctness: for small coefficients a + b sqrt D determines a and b. *)
Hypothesis Dsmall : (2 <= D <= 3)%Z.
Definition zsmall (a : zs) : bool := (Z.abs (fst a) <=? 2)%Z && (Z.abs (snd a) <=? 1)%Z.
Lemma sqrtD : 1.41 < sqrt (IZR D) < 1.75.
Proof.
  assert (D = 2 \/ D = 3)%Z as [->| ->] by lia.
  - assert (H : sqrt 2 * sqrt 2 = 2) by (apply sqrt_sqrt; lra). pose proof (sqrt_pos 2).
    split; nra.
  - assert (H : sqrt 3 * sqrt 3 = 3) by (apply sqrt_sqrt; lra). pose proof (sqrt_pos 3).
    split; nra.
Qed.
Lemma zval_inj : forall a b, zsmall a = true -> zsmall b = true ->
  zval D 2 a = zval D 2 b -> a = b.
Proof.
  intros [a b] [c d] H1 H2 E. unfold zsmall in *; cbn [fst snd] in *.
  rewrite !andb_true_iff, !Z.leb_le in *. unfold zval in E; cbn [fst snd] in E.
  assert (K : IZR (a - c) + IZR (b - d) * sqrt (IZR D) = 0) by (rewrite !minus_IZR; lra).
  set (m := (a - c)%Z) in *. set (n := (b - d)%Z) in *.
  assert (n = 0 -> m = 0)%Z.
  { intros ->. rewrite Rmult_0_l, Rplus_0_r in K. now apply eq_IZR. }
  assert (n = 0)%Z; [|f_equal; lia].
  destruct (Z.eq_dec n 0); auto. exfalso.
  assert (K2 : IZR m * IZR m = IZR n * IZR n * IZR D).
  { replace (IZR m) with (- (IZR n * sqrt (IZR D))) by lra. pose proof sq as Q. set (r := sqrt (IZR D)) in *. clearbody r. rewrite <- Q. ring. }
  rewrite <- !mult_IZR in K2. apply eq_IZR in K2.
  assert (n = 1 \/ n = -1 \/ n = 2 \/ n = -2)%Z as N by lia.
  assert (m = 0 \/ m = 1 \/ m = -1 \/ m = 2 \/ m = -2 \/ m = 3 \/ m = -3 \/ m = 4 \/ m = -4)%Z as M by lia.
  assert (D = 2 \/ D = 3)%Z as Dd by lia.
  clear - K2 N M Dd. clearbody m n.
  destruct Dd as [->| ->]; destruct N as [->|[->|[->| ->]]];
  destruct M as [->|[->|[->|[->|[->|[->|[->|[->| ->]]]]]]]]; discriminate.
Qed.
Definition zqsmall (a : zq) : bool := zsmall (zw a) && zsmall (zx a) && zsmall (zy a) && zsmall (zz a).
Lemma zqval_inj : forall a b, zqsmall a = true -> zqsmall b = true ->
  zqval D 2 a = zqval D 2 b -> a = b.
Proof.
  intros [a b c d] [e f g h] H1 H2 E. unfold zqsmall in *; cbn in *. rewrite !andb_true_iff in *.
  unfold zqval in E; cbn in E. injection E as E1 E2 E3 E4.
  destruct H1 as [[[? ?] ?] ?], H2 as [[[? ?] ?] ?]. f_equal; now apply zval_inj.
Qed.
Fixpoint zdistinct (l : list zq) : bool :=
  match l with [] => true | a :: l => forallb (fun b => negb (zsame a b)) l && zdistinct l end.
Lemma zsmall_opp : forall a, zqsmall a = true -> zqsmall (zmap zopp a) = true.
Proof.
  intros [[? ?] [? ?] [? ?] [? ?]]. unfold zqsmall, zsmall, zmap, zopp; cbn. now rewrite !Z.abs_opp.
Qed.
Lemma zdistinct_sound : forall l, forallb zqsmall l = true -> zdistinct l = true ->
  ForallOrdPairs (fun a b => ~ same_rot a b) (map (zqval D 2) l).
Proof.
  induction l as [|a l IH]; cbn; intros S H; [constructor|].
  rewrite !andb_true_iff in *. destruct S as [Sa Sl], H as [Ha Hl]. constructor; auto.
  apply Forall_forall. intros b Ib. apply in_map_iff in Ib. destruct Ib as (z & <- & Iz).
  rewrite forallb_forall in Ha, Sl. pose proof (Ha z Iz) as N. pose proof (Sl z Iz) as Sz.
  intros E. unfold zsame in N. apply negb_true_iff, orb_false_iff in N. destruct N as [N1 N2].
  destruct E as [E|E].
  - apply zqval_inj in E; auto. subst. assert (zqeqb z z = true) by now apply zqeqb_eq. congruence.
  - rewrite <- zqval_opp in E by lra. apply zqval_inj in E; auto using zsmall_opp. subst.
    assert (K : zqeqb (zmap zopp z) (zmap zopp z) = true) by now apply zqeqb_eq. congruence.
Qed.
End Exact.

Definition zc (a b c d : zs) := ZQ a b c d.
Definition o : zs := (0, 0)%Z.  Definition i1 : zs := (2, 0)%Z.
Definition h : zs := (1, 0)%Z.  Definition mh : zs := (-1, 0)%Z.
Definition s : zs := (0, 1)%Z.  Definition ms : zs := (0, -1)%Z.
Definition cubic_z : list zq :=
  [ ZQ i1 o o o; ZQ s s o o; ZQ o i1 o o; ZQ s ms o o; ZQ s o s o; ZQ o o i1 o; ZQ s o ms o;
    ZQ s o o s; ZQ o o o i1; ZQ s o o ms; ZQ o s s o; ZQ o ms s o; ZQ o s o s; ZQ o ms o s;
    ZQ o o s s; ZQ o o ms s; ZQ h h h h; ZQ h mh mh mh; ZQ h mh h h; ZQ h h mh mh;
    ZQ h h mh h; ZQ h mh h mh; ZQ h h h mh; ZQ h mh mh h ].
Definition hex_z : list zq :=
  [ ZQ i1 o o o; ZQ o i1 o o; ZQ o o i1 o; ZQ o o o i1;
    ZQ s o o h; ZQ h o o s; ZQ h o o ms; ZQ s o o mh;
    ZQ o mh ms o; ZQ o h ms o; ZQ o s mh o; ZQ o ms mh o ].
Lemma map_Quat_north : forall l, (forall q, In q l -> 0 <= qw q) -> map (Quat false) l = l.
Proof.
  induction l; cbn [map]; intros H; auto. rewrite Quat_id, IHl; auto.
  - intros; apply H; now right.
  - apply H; now left.
Qed.
Lemma sqrt_pos2 : 0 <= over_root2. Proof. unfold over_root2. pose proof (sqrt_pos 2). lra. Qed.
Lemma sqrt_pos3 : 0 <= sqrt3over2. Proof. unfold sqrt3over2. pose proof (sqrt_pos 3). lra. Qed.
Lemma cubic_exact : cubic_symmetries = map (zqval 2 2) cubic_z.
Proof.
  unfold cubic_symmetries. rewrite map_Quat_north.
  - cbn [map cubic_z]. unfold zqval, zval, o, i1, h, mh, s, ms, over_root2; cbn [zw zx zy zz fst snd].
    repeat (apply (f_equal2 cons)); try reflexivity; f_equal; field.
  - intros q H. pose proof sqrt_pos2. cbn [In] in H.
    repeat destruct H as [H|H]; try (subst q; cbn [qw]; lra). contradiction.
Qed.
Lemma hex_exact : hexagonal_symmetries = map (zqval 3 2) hex_z.
Proof.
  unfold hexagonal_symmetries. rewrite map_Quat_north.
  - cbn [map hex_z]. unfold zqval, zval, o, i1, h, mh, s, ms, sqrt3over2; cbn [zw zx zy zz fst snd].
    repeat (apply (f_equal2 cons)); try reflexivity; f_equal; field.
  - intros q H. pose proof sqrt_pos3. cbn [In] in H.
    repeat destruct H as [H|H]; try (subst q; cbn [qw]; lra). contradiction.
Qed.
Lemma cubic_group : rotation_group cubic_symmetries.
Proof. rewrite cubic_exact. apply zgroup_sound; [lia|]. vm_compute. reflexivity. Qed.
Lemma hex_group : rotation_group hexagonal_symmetries.
Proof. rewrite hex_exact. apply zgroup_sound; [lia|]. vm_compute. reflexivity. Qed.
Lemma cubic_distinct : ForallOrdPairs (fun a b => ~ same_rot a b) cubic_symmetries.
Proof. rewrite cubic_exact. apply zdistinct_sound; try lia; vm_compute; reflexivity. Qed.
Lemma hex_distinct : ForallOrdPairs (fun a b => ~ same_rot a b) hexagonal_symmetries.
Proof. rewrite hex_exact. apply zdistinct_sound; try lia; vm_compute; reflexivity. Qed.
Lemma trivial_group : rotation_group [qone].
Proof.
  split; [|split; [|split]].
  - now left.
  - intros a [<-|[]]. apply unitq_qone.
  - intros a b [<-|[]] [<-|[]]. exists qone. split; [now left|]. left. now rewrite hprod_1_l.
  - intros a [<-|[]]. exists qone. split; [now left|]. left. unfold hconj, qone; cbn. f_equal; ring.
Qed.
Lemma sym_eqv_other : forall g, g <> "cubic"%string -> g <> "hexagonal"%string -> sym_eqv g = [qone].
Proof.
  intros g H1 H2. unfold sym_eqv. apply String.eqb_neq in H1, H2. rewrite H1, H2.
  rewrite Quat_id; [reflexivity | cbn; lra].
Qed.
Lemma sym_group : forall g, rotation_group (sym_eqv g).
Proof.
  intros g. destruct (string_dec g "cubic") as [->|N1]; [apply cubic_group|].
  destruct (string_dec g "hexagonal") as [->|N2]; [apply hex_group|].
  rewrite sym_eqv_other by auto. apply trivial_group.
Qed.
Lemma sym_head : forall g, exists t, sym_eqv g = qone :: t.
Proof.
  intros g. assert (Q : Quat false (Q4 1 0 0 0) = qone) by (rewrite Quat_id; [reflexivity | cbn; lra]).
  destruct (string_dec g "cubic") as [->|N1];
  [| destruct (string_dec g "hexagonal") as [->|N2]].
  - change (sym_eqv "cubic") with cubic_symmetries. unfold cubic_symmetries. cbn [map].
    rewrite Q. eexists; reflexivity.
  - change (sym_eqv "hexagonal") with hexagonal_symmetries. unfold hexagonal_symmetries. cbn [map].
    rewrite Q. eexists; reflexivity.
  - rewrite sym_eqv_other by auto. eexists; reflexivity.
Qed.

Lemma north_exact : forall D n l, Forall (fun z => 0 <= zval D n (zw z)) l ->
  forall q, In q (map (zqval D n) l) -> 0 <= qw q.
Proof.
  intros D n l F q H. apply in_map_iff in H. destruct H as (z & <- & I).
  rewrite Forall_forall in F. now apply F.
Qed.
Lemma sym_north : forall g q, In q (sym_eqv g) -> 0 <= qw q.
Proof.
  intros g q H. 
  destruct (string_dec g "cubic") as [->|N1]; [|destruct (string_dec g "hexagonal") as [->|N2]].
  - change (In q cubic_symmetries) in H. unfold cubic_symmetries in H.
    apply in_map_iff in H. destruct H as (? & <- & _). apply Quat_north.
  - change (In q hexagonal_symmetries) in H. unfold hexagonal_symmetries in H.
    apply in_map_iff in H. destruct H as (? & <- & _). apply Quat_north.
  - rewrite sym_eqv_other in H by auto. destruct H as [<-|[]]. cbn; lra.
Qed.

(** *** Misorientation *)
Lemma mis_fold : forall self right l acc,
  let r := fold_left (mis_ori_step self right) l acc in
  fst acc <= fst r /\
  (forall s, In s l -> Rabs (inner self (hprod s right)) <= fst r) /\
  (r = acc \/ exists s, In s l /\ snd r = Some (quat_mul false s right) /\
     fst r = Rabs (inner self (hprod s right))).
Proof.
  intros self right. induction l as [|a l IH]; intros acc; cbn [fold_left].
  - cbn. split; [lra|]. split; [tauto|auto].
  - assert (A : Rabs (dot self (quat_mul false a right)) = Rabs (inner self (hprod a right)))
      by (apply Rabs_inner_same; [left; auto | apply quat_mul_same]).
    destruct (IH (mis_ori_step self right acc a)) as (I1 & I2 & I3). cbv zeta.
    set (r := fold_left _ _ _) in *. clearbody r.
    unfold mis_ori_step in I1, I3. rewrite A in I1, I3.
    destruct (Rlt_dec (fst acc) (Rabs (inner self (hprod a right)))); cbn in *.
    + split; [lra|]. split.
      * intros s [<-|Hs]; auto.
      * right. destruct I3 as [->|(s & Is & E1 & E2)].
        -- exists a; auto.
        -- exists s; auto.
    + split; [lra|]. split.
      * intros s [<-|Hs]; auto. lra.
      * destruct I3 as [->|(s & Is & E1 & E2)]; [auto|]. right. exists s; auto.
Qed.
Lemma mis_ori_greatest : forall p q g,
  greatest (sym_eqv g) (fun s => Rabs (inner p (hprod s q))) (mis_ori p q g).
Proof.
  intros p q g. unfold mis_ori, mis_ori_full.
  destruct (mis_fold p q (sym_eqv g) (0, None)) as (M1 & M2 & M3). split; [exact M2|].
  destruct M3 as [E|(s & Is & _ & E)]; [|eauto].
  destruct (sym_head g) as (t & T). exists qone. split; [rewrite T; now left|].
  rewrite E in *. cbn in *. apply Rle_antisym; [|apply Rabs_pos].
  apply M2. rewrite T. now left.
Qed.
Lemma greatest_unique : forall A (l : list A) f m n, greatest l f m -> greatest l f n -> m = n.
Proof.
  intros A l f m n [H1 (x & Ix & Ex)] [H2 (y & Iy & Ey)].
  apply Rle_antisym; subst; auto.
Qed.

Lemma cauchy : forall p q, inner p q * inner p q <= inner p p * inner q q.
Proof.
  intros [a b c d] [e f g h]. unfold inner; cbn.
  assert (H : 0 <= (a*f-b*e)^2+(a*g-c*e)^2+(a*h-d*e)^2+(b*g-c*f)^2+(b*h-d*f)^2+(c*h-d*g)^2).
  { repeat apply Rplus_le_le_0_compat; apply pow2_ge_0. }
  lra.
Qed.
Lemma inner_bound : forall p q, unitq p -> unitq q -> Rabs (inner p q) <= 1.
Proof.
  intros p q Hp Hq. pose proof (cauchy p q) as C.
  assert (inner p p = 1) as A by exact Hp. assert (inner q q = 1) as B by exact Hq.
  rewrite A, B in C. apply Rabs_le. nra.
Qed.
Lemma inner_one : forall p q, unitq p -> unitq q ->
  (Rabs (inner p q) = 1 <-> same_rot p q).
Proof.
  intros p q Hp Hq. split.
  - intros H. assert (inner p q = 1 \/ inner p q = -1) as [E|E].
    { destruct (Rcase_abs (inner p q)) as [L|L].
      - rewrite Rabs_left in H by auto. right; lra.
      - rewrite Rabs_right in H by auto. left; lra. }
    + left. destruct p as [a b c d], q as [e f g h]. unfold unitq, inner in *; cbn in *.
      assert (S : (a-e)^2+(b-f)^2+(c-g)^2+(d-h)^2 = 0) by lra.
      pose proof (pow2_ge_0 (a-e)). pose proof (pow2_ge_0 (b-f)).
      pose proof (pow2_ge_0 (c-g)). pose proof (pow2_ge_0 (d-h)).
      f_equal; apply Rminus_diag_uniq; apply Rsqr_0_uniq; unfold Rsqr; lra.
    + right. destruct p as [a b c d], q as [e f g h]. unfold unitq, inner, opp in *; cbn in *.
      assert (S : (a+e)^2+(b+f)^2+(c+g)^2+(d+h)^2 = 0) by lra.
      pose proof (pow2_ge_0 (a+e)). pose proof (pow2_ge_0 (b+f)).
      pose proof (pow2_ge_0 (c+g)). pose proof (pow2_ge_0 (d+h)).
      f_equal; apply Rminus_diag_uniq; apply Rsqr_0_uniq; unfold Rsqr, Rminus; lra.
  - intros E. rewrite (Rabs_inner_same p q q q E (same_rot_refl q)).
    assert (inner q q = 1) as -> by exact Hq. apply Rabs_R1.
Qed.
Lemma mis_ori_range : forall p q g, unitq p -> unitq q -> 0 <= mis_ori p q g <= 1.
Proof.
  intros p q g Hp Hq. destruct (mis_ori_greatest p q g) as [_ (s & Is & <-)].
  destruct (sym_group g) as (_ & U & _). split; [apply Rabs_pos|].
  apply inner_bound; auto using unitq_hprod.
Qed.
(** Comparing two maxima through a map of the symmetry list. *)
Lemma greatest_le : forall A (l : list A) f g m n, greatest l f m -> greatest l g n ->
  (forall x, In x l -> exists y, In y l /\ f x = g y) -> m <= n.
Proof.
  intros A l f g m n [_ (x & Ix & <-)] [H2 _] M. destruct (M x Ix) as (y & Iy & ->). auto.
Qed.
Lemma mis_ori_sym : forall p q g, mis_ori p q g = mis_ori q p g.
Proof.
  assert (A : forall p q g, mis_ori p q g <= mis_ori q p g).
  { intros p q g. eapply greatest_le; try apply mis_ori_greatest.
    intros s Is. destruct (sym_group g) as (_ & _ & _ & Inv).
    destruct (Inv s Is) as (t & It & Et). exists t. split; auto. cbn.
    rewrite inner_move, inner_sym. apply Rabs_inner_same; [left; auto|].
    apply same_rot_hprod; [now apply same_rot_sym | left; auto]. }
  intros. apply Rle_antisym; auto.
Qed.
Lemma mis_ori_equiv_r : forall p q q' g, equivalent (sym_eqv g) q q' -> mis_ori p q' g = mis_ori p q g.
Proof.
  assert (A : forall p q q' g, equivalent (sym_eqv g) q q' -> mis_ori p q' g <= mis_ori p q g).
  { intros p q q' g (t & It & Et). eapply greatest_le; try apply mis_ori_greatest.
    intros s Is. destruct (sym_group g) as (_ & _ & Cl & _).
    destruct (Cl s t Is It) as (c & Ic & Ec). exists c. split; auto. cbn.
    apply Rabs_inner_same; [left; auto|].
    eapply same_rot_trans; [apply same_rot_hprod; [apply same_rot_refl|exact Et]|].
    rewrite <- hprod_assoc. apply same_rot_hprod; [now apply same_rot_sym | apply same_rot_refl]. }
  intros p q q' g E. apply Rle_antisym; auto. apply A.
  destruct E as (t & It & Et). destruct (sym_group g) as (_ & U & _ & Inv).
  destruct (Inv t It) as (u & Iu & Eu). exists u. split; auto.
  apply same_rot_sym.
  eapply same_rot_trans; [apply same_rot_hprod; [exact Eu | exact Et]|].
  rewrite <- hprod_assoc, hprod_conj_l, hprod_1_l; auto. apply same_rot_refl.
Qed.
Lemma mis_ori_equiv : forall p p' q q' g, equivalent (sym_eqv g) p p' -> equivalent (sym_eqv g) q q' ->
  mis_ori p' q' g = mis_ori p q g.
Proof.
  intros. rewrite (mis_ori_equiv_r p' q) by auto.
  rewrite mis_ori_sym, (mis_ori_equiv_r q p) by auto. apply mis_ori_sym.
Qed.
Lemma mis_ori_frame : forall p q r p' q' g, unitq r ->
  same_rot p' (hprod p r) -> same_rot q' (hprod q r) -> mis_ori p' q' g = mis_ori p q g.
Proof.
  intros p q r p' q' g Hr Ep Eq.
  assert (E : forall s, Rabs (inner p' (hprod s q')) = Rabs (inner p (hprod s q))).
  { intros s. rewrite <- (inner_hprod_r r p (hprod s q)) by auto. apply Rabs_inner_same; auto.
    rewrite hprod_assoc. apply same_rot_hprod; auto using same_rot_refl. }
  apply Rle_antisym; (eapply greatest_le; try apply mis_ori_greatest); intros s Is; exists s; cbn;
  split; auto.
Qed.
Lemma mis_ori_one : forall p q g, unitq p -> unitq q ->
  (mis_ori p q g = 1 <-> equivalent (sym_eqv g) q p).
Proof.
  intros p q g Hp Hq. destruct (sym_group g) as (_ & U & _).
  destruct (mis_ori_greatest p q g) as [G (s & Is & Es)]. split.
  - intros H. rewrite H in Es. exists s. split; auto. apply inner_one; auto using unitq_hprod.
  - intros (t & It & Et). apply inner_one in Et; auto using unitq_hprod.
    apply Rle_antisym; [now apply mis_ori_range|]. rewrite <- Et. now apply G.
Qed.
(** The returned equivalent. *)
Lemma mis_ori_full_some : forall p q g m c, mis_ori_full p q g = (m, Some c) ->
  m = mis_ori p q g /\ equivalent (sym_eqv g) q c /\ Rabs (inner p c) = m /\ 0 <= qw c.
Proof.
  intros p q g m c E. assert (m = mis_ori p q g) as Em by (unfold mis_ori; now rewrite E).
  split; auto. unfold mis_ori_full in E.
  destruct (mis_fold p q (sym_eqv g) (0, None)) as (_ & _ & [K|(s & Is & E1 & E2)]).
  - rewrite K in E. discriminate.
  - rewrite E in E1, E2. cbn [fst snd] in E1, E2.
    assert (Ec : c = quat_mul false s q) by congruence. subst c.
    split; [|split].
    + exists s. split; auto. apply quat_mul_same.
    + rewrite E2. apply Rabs_inner_same; [left; auto | apply quat_mul_same].
    + rewrite quat_mul_raw. apply Quat_north.
Qed.
Lemma mis_ori_full_none : forall p q g m, mis_ori_full p q g = (m, None) -> m = 0.
Proof.
  intros p q g m E. unfold mis_ori_full in E.
  destruct (mis_fold p q (sym_eqv g) (0, None)) as (_ & _ & [K|(s & Is & E1 & E2)]).
  - rewrite K in E. now injection E.
  - rewrite E in E1. discriminate.
Qed.
Lemma four_basis : forall p q, unitq p -> unitq q ->
  inner p (hprod qone q) ^ 2 + inner p (hprod (Q4 0 1 0 0) q) ^ 2 +
  inner p (hprod (Q4 0 0 1 0) q) ^ 2 + inner p (hprod (Q4 0 0 0 1) q) ^ 2 = 1.
Proof.
  intros [a b c d] [e f g h] Hp Hq. unfold unitq, inner, hprod, qone in *; cbn [qw qx qy qz] in *.
  transitivity ((a*a+b*b+c*c+d*d)*(e*e+f*f+g*g+h*h)); [ring | rewrite Hp, Hq; ring].
Qed.
Lemma sym_has_units : forall g, g = "cubic"%string \/ g = "hexagonal"%string ->
  In (Q4 0 1 0 0) (sym_eqv g) /\ In (Q4 0 0 1 0) (sym_eqv g) /\ In (Q4 0 0 0 1) (sym_eqv g).
Proof.
  assert (Q1 : Quat false (Q4 0 1 0 0) = Q4 0 1 0 0) by (apply Quat_id; cbn; lra).
  assert (Q2 : Quat false (Q4 0 0 1 0) = Q4 0 0 1 0) by (apply Quat_id; cbn; lra).
  assert (Q3 : Quat false (Q4 0 0 0 1) = Q4 0 0 0 1) by (apply Quat_id; cbn; lra).
  intros g [->| ->]; [change (sym_eqv "cubic") with cubic_symmetries; unfold cubic_symmetries
    | change (sym_eqv "hexagonal") with hexagonal_symmetries; unfold hexagonal_symmetries];
  (split; [rewrite <- Q1 at 1 | split; [rewrite <- Q2 at 1 | rewrite <- Q3 at 1]]);
  apply in_map; cbn [In]; tauto.
Qed.
Lemma mis_ori_half : forall p q g, g = "cubic"%string \/ g = "hexagonal"%string ->
  unitq p -> unitq q -> / 2 <= mis_ori p q g.
Proof.
  intros p q g Hg Hp Hq. destruct (sym_has_units g Hg) as (I1 & I2 & I3).
  destruct (sym_head g) as (t & T). assert (I0 : In qone (sym_eqv g)) by (rewrite T; now left).
  destruct (mis_ori_greatest p q g) as [G _].
  pose proof (four_basis p q Hp Hq) as F.
  apply G in I0, I1, I2, I3. cbn beta in *.
  destruct (Rle_dec (/ 2) (mis_ori p q g)); auto. exfalso.
  assert (B : forall x, Rabs x <= mis_ori p q g -> x ^ 2 < / 4).
  { intros x H. rewrite <- (pow2_abs x). pose proof (Rabs_pos x). nra. }
  apply B in I0, I1, I2, I3. lra.
Qed.
Lemma mis_ori_full_total : forall p q g, g = "cubic"%string \/ g = "hexagonal"%string ->
  unitq p -> unitq q -> exists c, mis_ori_full p q g = (mis_ori p q g, Some c).
Proof.
  intros p q g Hg Hp Hq. pose proof (mis_ori_half p q g Hg Hp Hq) as L.
  destruct (mis_ori_full p q g) as [m [c|]] eqn:E.
  - exists c. unfold mis_ori. now rewrite E.
  - apply mis_ori_full_none in E as M. unfold mis_ori in L. rewrite E in L. cbn in L. lra.
Qed.

(** *** Triangle inequality of the misorientation angle *)
Lemma acos_decr : forall x y, -1 <= x -> x <= y -> y <= 1 -> acos y <= acos x.
Proof.
  intros x y H1 H2 H3. destruct (Rle_dec (acos y) (acos x)); auto. exfalso.
  pose proof (acos_bound x). pose proof (acos_bound y).
  assert (cos (acos y) < cos (acos x)) by (apply cos_decreasing_1; lra).
  rewrite !cos_acos in H4 by lra. lra.
Qed.
Lemma tri_pos : forall p q r, unitq p -> unitq q -> unitq r ->
  0 <= inner p q -> 0 <= inner q r ->
  acos (Rabs (inner p r)) <= acos (inner p q) + acos (inner q r).
Proof.
  intros p q r Hp Hq Hr Hx Hy.
  pose proof (inner_bound p q Hp Hq) as Bx. pose proof (inner_bound q r Hq Hr) as By.
  pose proof (inner_bound p r Hp Hr) as Bz.
  rewrite Rabs_pos_eq in Bx, By by auto.
  set (x := inner p q) in *. set (y := inner q r) in *. set (z := inner p r) in *.
  pose proof (acos_bound x) as Ax. pose proof (acos_bound y) as Ay.
  assert (L : cos (acos x + acos y) <= Rabs z).
  { rewrite cos_plus, !cos_acos, !sin_acos by lra.
    apply Rle_trans with z; [|apply Rle_abs].
    set (u := sqrt (1 - x²)). set (v := sqrt (1 - y²)).
    assert (Hu : u * u = 1 - x * x) by (apply sqrt_sqrt; unfold Rsqr; nra).
    assert (Hv : v * v = 1 - y * y) by (apply sqrt_sqrt; unfold Rsqr; nra).
    assert (u0 : 0 <= u) by apply sqrt_pos. assert (v0 : 0 <= v) by apply sqrt_pos.
    (* Gram determinant *)
    assert (Gm : (x * y - z) * (x * y - z) <= (1 - x * x) * (1 - y * y)).
    { set (p' := Q4 (qw p - x * qw q) (qx p - x * qx q) (qy p - x * qy q) (qz p - x * qz q)).
      set (r' := Q4 (qw r - y * qw q) (qx r - y * qx q) (qy r - y * qy q) (qz r - y * qz q)).
      pose proof (cauchy p' r') as C.
      assert (E1 : inner p' r' = z - x * y).
      { transitivity (inner p r - y * inner p q - x * inner q r + x * y * inner q q);
          [unfold inner, p', r'; cbn [qw qx qy qz]; ring|].
        fold x y z. assert (inner q q = 1) as -> by exact Hq. ring. }
      assert (E2 : inner p' p' = 1 - x * x).
      { transitivity (inner p p - 2 * x * inner p q + x * x * inner q q);
          [unfold inner, p'; cbn [qw qx qy qz]; ring|].
        fold x. assert (inner q q = 1) as -> by exact Hq. assert (inner p p = 1) as -> by exact Hp. ring. }
      assert (E3 : inner r' r' = 1 - y * y).
      { transitivity (inner r r - 2 * y * inner q r + y * y * inner q q);
          [unfold inner, r'; cbn [qw qx qy qz]; ring|].
        fold y. assert (inner q q = 1) as -> by exact Hq. assert (inner r r = 1) as -> by exact Hr. ring. }
      rewrite E1, E2, E3 in C. lra. }
    rewrite <- Hu, <- Hv in Gm.
    assert (x * y - z <= u * v); [|lra].
    destruct (Rle_dec (x * y - z) (u * v)); auto. exfalso.
    assert (0 <= u * v) by nra. nra. }
  assert (P1 : acos x <= PI / 2) by (rewrite <- acos_0; apply acos_decr; lra).
  assert (P2 : acos y <= PI / 2) by (rewrite <- acos_0; apply acos_decr; lra).
  rewrite <- (acos_cos (acos x + acos y)) by lra.
  apply acos_decr; auto. apply COS_bound.
Qed.
Lemma abs_sign : forall p q, exists q', same_rot q' q /\ inner p q' = Rabs (inner p q).
Proof.
  intros p q. destruct (Rle_dec 0 (inner p q)).
  - exists q. split; [left; auto|]. now rewrite Rabs_pos_eq.
  - exists (opp q). split; [right; auto|]. rewrite inner_opp_r, Rabs_left; lra.
Qed.
Lemma tri_rot : forall p q r, unitq p -> unitq q -> unitq r ->
  rot_angle p r <= rot_angle p q + rot_angle q r.
Proof.
  intros p q r Hp Hq Hr. unfold rot_angle.
  destruct (abs_sign p q) as (q' & Sq & Eq).
  destruct (abs_sign q' r) as (r' & Sr & Er).
  pose proof (tri_pos p q' r' Hp (same_rot_unit _ _ Sq Hq) (same_rot_unit _ _ Sr Hr)) as T.
  rewrite Eq, Er in T. rewrite (Rabs_inner_same q' q r r Sq (same_rot_refl r)) in T.
  rewrite (Rabs_inner_same p p r' r (same_rot_refl p) Sr) in T.
  specialize (T (Rabs_pos _) (Rabs_pos _)). lra.
Qed.
Lemma mis_ori_triangle : forall p q r g, unitq p -> unitq q -> unitq r ->
  2 * acos (mis_ori p r g) <= 2 * acos (mis_ori p q g) + 2 * acos (mis_ori q r g).
Proof.
  intros p q r g Hp Hq Hr. destruct (sym_group g) as (_ & U & Cl & _).
  destruct (mis_ori_greatest p q g) as [_ (s & Is & Es)].
  destruct (mis_ori_greatest q r g) as [_ (t & It & Et)].
  destruct (Cl s t Is It) as (c & Ic & Ec).
  pose proof (tri_rot p (hprod s q) (hprod s (hprod t r)) Hp) as T.
  specialize (T ltac:(auto using unitq_hprod) ltac:(auto 6 using unitq_hprod)).
  unfold rot_angle in T. rewrite Es in T. rewrite inner_hprod_l in T by auto. rewrite Et in T.
  apply Rle_trans with (2 := T).
  assert (G : Rabs (inner p (hprod s (hprod t r))) <= mis_ori p r g).
  { destruct (mis_ori_greatest p r g) as [G _]. rewrite <- hprod_assoc.
    rewrite (Rabs_inner_same p p _ (hprod c r) (same_rot_refl p)).
    - now apply G.
    - apply same_rot_hprod; [now apply same_rot_sym | apply same_rot_refl]. }
  pose proof (mis_ori_range p r g Hp Hr). pose proof (Rabs_pos (inner p (hprod s (hprod t r)))).
  apply Rmult_le_compat_l; [lra|]. apply acos_decr; lra.
Qed.
