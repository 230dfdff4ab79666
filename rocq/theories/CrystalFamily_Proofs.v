(** Families of slip systems. *)
From Coq Require Import String Reals ZArith Lra Lia Psatz Bool Permutation.
From Coq Require Import List.
From Verif Require Import Py Quat_Model Quat_Spec Quat_Proofs QuatSym_Proofs
  Crystal_Model Crystal_Spec Crystal_Proofs CrystalMat_Proofs SlipSys_Proofs CrystalData_Proofs.
Import ListNotations.
Open Scope string_scope.
Open Scope list_scope.
Open Scope R_scope.

Local Arguments Quat : simpl never.
Local Arguments quat_mul : simpl never.

(** ** Symmetry operators on index triples *)
Record zmat := Z3 { za : Z; zb : Z; zc : Z; zd : Z; ze : Z; zf : Z; zg : Z; zh : Z; zi : Z }.
Definition ZM (m : zmat) : mat3 :=
  M3 (V3 (IZR (za m)) (IZR (zb m)) (IZR (zc m)))
     (V3 (IZR (zd m)) (IZR (ze m)) (IZR (zf m)))
     (V3 (IZR (zg m)) (IZR (zh m)) (IZR (zi m))).
Definition zap (m : zmat) (x y z : Z) : list Z :=
  [za m * x + zb m * y + zc m * z; zd m * x + ze m * y + zf m * z;
   zg m * x + zh m * y + zi m * z]%Z.

Open Scope Z_scope.
Definition cubic_tab : list zmat :=
  [Z3 1 0 0 0 1 0 0 0 1;
   Z3 1 0 0 0 0 1 0 (-1) 0;
   Z3 1 0 0 0 (-1) 0 0 0 (-1);
   Z3 1 0 0 0 0 (-1) 0 1 0;
   Z3 0 0 (-1) 0 1 0 1 0 0;
   Z3 (-1) 0 0 0 1 0 0 0 (-1);
   Z3 0 0 1 0 1 0 (-1) 0 0;
   Z3 0 1 0 (-1) 0 0 0 0 1;
   Z3 (-1) 0 0 0 (-1) 0 0 0 1;
   Z3 0 (-1) 0 1 0 0 0 0 1;
   Z3 0 1 0 1 0 0 0 0 (-1);
   Z3 0 (-1) 0 (-1) 0 0 0 0 (-1);
   Z3 0 0 1 0 (-1) 0 1 0 0;
   Z3 0 0 (-1) 0 (-1) 0 (-1) 0 0;
   Z3 (-1) 0 0 0 0 1 0 1 0;
   Z3 (-1) 0 0 0 0 (-1) 0 (-1) 0;
   Z3 0 1 0 0 0 1 1 0 0;
   Z3 0 0 1 1 0 0 0 1 0;
   Z3 0 0 (-1) (-1) 0 0 0 1 0;
   Z3 0 (-1) 0 0 0 1 (-1) 0 0;
   Z3 0 0 1 (-1) 0 0 0 (-1) 0;
   Z3 0 (-1) 0 0 0 (-1) 1 0 0;
   Z3 0 0 (-1) 1 0 0 0 (-1) 0;
   Z3 0 1 0 0 0 (-1) (-1) 0 0].
Definition hkl_plane_tab : list zmat :=
  [Z3 1 0 0 0 1 0 0 0 1;
   Z3 1 1 0 0 (-1) 0 0 0 (-1);
   Z3 (-1) (-1) 0 0 1 0 0 0 (-1);
   Z3 (-1) 0 0 0 (-1) 0 0 0 1;
   Z3 1 1 0 (-1) 0 0 0 0 1;
   Z3 0 1 0 (-1) (-1) 0 0 0 1;
   Z3 (-1) (-1) 0 1 0 0 0 0 1;
   Z3 0 (-1) 0 1 1 0 0 0 1;
   Z3 (-1) 0 0 1 1 0 0 0 (-1);
   Z3 0 (-1) 0 (-1) 0 0 0 0 (-1);
   Z3 1 0 0 (-1) (-1) 0 0 0 (-1);
   Z3 0 1 0 1 0 0 0 0 (-1)].
Definition hkl_dir_tab : list zmat :=
  [Z3 1 0 0 0 1 0 0 0 1;
   Z3 1 0 0 1 (-1) 0 0 0 (-1);
   Z3 (-1) 0 0 (-1) 1 0 0 0 (-1);
   Z3 (-1) 0 0 0 (-1) 0 0 0 1;
   Z3 0 1 0 (-1) 1 0 0 0 1;
   Z3 (-1) 1 0 (-1) 0 0 0 0 1;
   Z3 0 (-1) 0 1 (-1) 0 0 0 1;
   Z3 1 (-1) 0 1 0 0 0 0 1;
   Z3 (-1) 1 0 0 1 0 0 0 (-1);
   Z3 0 (-1) 0 (-1) 0 0 0 0 (-1);
   Z3 1 (-1) 0 0 (-1) 0 0 0 (-1);
   Z3 0 1 0 1 0 0 0 0 (-1)].
Definition tsl_plane_tab : list zmat :=
  [Z3 1 0 0 0 1 0 0 0 1;
   Z3 1 0 0 (-1) (-1) 0 0 0 (-1);
   Z3 (-1) 0 0 1 1 0 0 0 (-1);
   Z3 (-1) 0 0 0 (-1) 0 0 0 1;
   Z3 1 1 0 (-1) 0 0 0 0 1;
   Z3 0 1 0 (-1) (-1) 0 0 0 1;
   Z3 (-1) (-1) 0 1 0 0 0 0 1;
   Z3 0 (-1) 0 1 1 0 0 0 1;
   Z3 0 1 0 1 0 0 0 0 (-1);
   Z3 (-1) (-1) 0 0 1 0 0 0 (-1);
   Z3 0 (-1) 0 (-1) 0 0 0 0 (-1);
   Z3 1 1 0 0 (-1) 0 0 0 (-1)].
Definition tsl_dir_tab : list zmat :=
  [Z3 1 0 0 0 1 0 0 0 1;
   Z3 1 (-1) 0 0 (-1) 0 0 0 (-1);
   Z3 (-1) 1 0 0 1 0 0 0 (-1);
   Z3 (-1) 0 0 0 (-1) 0 0 0 1;
   Z3 0 1 0 (-1) 1 0 0 0 1;
   Z3 (-1) 1 0 (-1) 0 0 0 0 1;
   Z3 0 (-1) 0 1 (-1) 0 0 0 1;
   Z3 1 (-1) 0 1 0 0 0 0 1;
   Z3 0 1 0 1 0 0 0 0 (-1);
   Z3 (-1) 0 0 (-1) 1 0 0 0 (-1);
   Z3 0 (-1) 0 (-1) 0 0 0 0 (-1);
   Z3 1 0 0 1 (-1) 0 0 0 (-1)].
Open Scope R_scope.

Lemma ZM_apply : forall m x y z, list_of (mapply (ZM m) (vZ x y z)) = map IZR (zap m x y z).
Proof.
  intros m x y z. unfold ZM, vZ, zap, list_of. munf. cbn [map]. rewrite !plus_IZR, !mult_IZR. auto.
Qed.

Ltac zmunf := cbv beta iota zeta delta [mprod transpose mapply sprod
  col0 col1 col2 vx vy vz r0 r1 r2 qw qx qy qz rot_matrix hconj
  zqval zval zw zx zy zz fst snd o i1 h mh s ms ZM za zb zc zd ze zf zg zh zi hexL_hkl hexL_tsl].

Lemma cubic_tab_ok : Forall2 (fun q T => rot_matrix (hconj q) = ZM T) cubic_symmetries cubic_tab.
Proof.
  rewrite cubic_exact. pose proof (sqrt_sqrt 2 ltac:(lra)) as S2.
  set (S := sqrt 2) in *.
  unfold cubic_tab, cubic_z. cbn [map].
  repeat (apply Forall2_cons; [zmunf; fold S; f_equal; f_equal; lra|]). apply Forall2_nil.
Qed.

Lemma hkl_plane_ok : forall ca, Forall2 (fun q T =>
   mprod (transpose (hexL_hkl ca)) (rot_matrix (hconj q)) = mprod (ZM T) (transpose (hexL_hkl ca)))
  hexagonal_symmetries hkl_plane_tab.
Proof.
  intros ca. rewrite hex_exact. pose proof (sqrt_sqrt 3 ltac:(lra)) as S2.
  set (S := sqrt 3) in *. assert (S3 : S * S * S = 3 * S) by (rewrite S2; ring).
  assert (S2c : S * S * ca = 3 * ca) by (rewrite S2; ring).
  unfold hkl_plane_tab, hex_z. cbn [map].
  repeat (apply Forall2_cons; [zmunf; fold S; f_equal; f_equal; lra|]). apply Forall2_nil.
Qed.

Lemma hkl_dir_ok : forall ca, Forall2 (fun q T =>
   mprod (rot_matrix (hconj q)) (hexL_hkl ca) = mprod (hexL_hkl ca) (ZM T))
  hexagonal_symmetries hkl_dir_tab.
Proof.
  intros ca. rewrite hex_exact. pose proof (sqrt_sqrt 3 ltac:(lra)) as S2.
  set (S := sqrt 3) in *. assert (S3 : S * S * S = 3 * S) by (rewrite S2; ring).
  assert (S2c : S * S * ca = 3 * ca) by (rewrite S2; ring).
  unfold hkl_dir_tab, hex_z. cbn [map].
  repeat (apply Forall2_cons; [zmunf; fold S; f_equal; f_equal; lra|]). apply Forall2_nil.
Qed.

Lemma tsl_plane_ok : forall ca, Forall2 (fun q T =>
   mprod (transpose (hexL_tsl ca)) (rot_matrix (hconj q)) = mprod (ZM T) (transpose (hexL_tsl ca)))
  hexagonal_symmetries tsl_plane_tab.
Proof.
  intros ca. rewrite hex_exact. pose proof (sqrt_sqrt 3 ltac:(lra)) as S2.
  set (S := sqrt 3) in *. assert (S3 : S * S * S = 3 * S) by (rewrite S2; ring).
  assert (S2c : S * S * ca = 3 * ca) by (rewrite S2; ring).
  unfold tsl_plane_tab, hex_z. cbn [map].
  repeat (apply Forall2_cons; [zmunf; fold S; f_equal; f_equal; lra|]). apply Forall2_nil.
Qed.

Lemma tsl_dir_ok : forall ca, Forall2 (fun q T =>
   mprod (rot_matrix (hconj q)) (hexL_tsl ca) = mprod (hexL_tsl ca) (ZM T))
  hexagonal_symmetries tsl_dir_tab.
Proof.
  intros ca. rewrite hex_exact. pose proof (sqrt_sqrt 3 ltac:(lra)) as S2.
  set (S := sqrt 3) in *. assert (S3 : S * S * S = 3 * S) by (rewrite S2; ring).
  assert (S2c : S * S * ca = 3 * ca) by (rewrite S2; ring).
  unfold tsl_dir_tab, hex_z. cbn [map].
  repeat (apply Forall2_cons; [zmunf; fold S; f_equal; f_equal; lra|]). apply Forall2_nil.
Qed.

Lemma Forall2_in_l : forall A B (P : A -> B -> Prop) l m a, Forall2 P l m -> In a l ->
  exists b, In b m /\ P a b.
Proof.
  induction 1; cbn; [tauto|]. intros [<-|H1]; eauto. destruct (IHForall2 H1) as (b & X & Y); eauto.
Qed.

(** ** Building the set *)
Lemma set_add_in : forall s x y, In y (set_add s x) -> In y s \/ y = x.
Proof.
  intros s x y. unfold set_add. destruct (existsb _ s); auto.
  rewrite in_app_iff. intros [H|[H|[]]]; auto.
Qed.
Lemma set_add_old : forall s x y, In y s -> In y (set_add s x).
Proof. intros s x y H. unfold set_add. destruct (existsb _ s); auto. apply in_app_iff; auto. Qed.
Lemma set_add_new : forall s x, exists y, In y (set_add s x) /\ ss_eqb x y = true.
Proof.
  intros s x. unfold set_add. destruct (existsb (fun y => ss_eqb x y) s) eqn:E.
  - apply existsb_exists in E as (y & A & B). eauto.
  - exists x. split; [apply in_app_iff; right; left; auto|apply ss_eqb_refl].
Qed.
Lemma FOP_snoc : forall A (P : A -> A -> Prop) l x, ForallOrdPairs P l ->
  (forall y, In y l -> P y x) -> ForallOrdPairs P (l ++ [x]).
Proof.
  induction 1 as [|a l F G IH]; cbn; intros H; [repeat constructor|].
  constructor; [|apply IH; auto]. apply Forall_app; split; auto.
Qed.
Lemma set_add_distinct : forall s x, ForallOrdPairs (fun a b => ss_eqb a b = false) s ->
  ForallOrdPairs (fun a b => ss_eqb a b = false) (set_add s x).
Proof.
  intros s x H. unfold set_add. destruct (existsb (fun y => ss_eqb x y) s) eqn:E; auto.
  apply FOP_snoc; auto. intros y Hy. rewrite ss_eqb_sym.
  destruct (ss_eqb x y) eqn:Y; auto.
  assert (existsb (fun y => ss_eqb x y) s = true) by (apply existsb_exists; eauto). congruence.
Qed.

Lemma build_family : forall (f : quat -> res slip_system) syms fam0,
  (forall q, In q syms -> exists m, f q = Ok m) ->
  ForallOrdPairs (fun a b => ss_eqb a b = false) fam0 ->
  exists fam, for_each (fun fam sym => do m <- f sym; Ok (set_add fam m)) syms fam0 = Ok fam /\
    ForallOrdPairs (fun a b => ss_eqb a b = false) fam /\
    (forall m, In m fam0 -> In m fam) /\
    (forall m, In m fam -> In m fam0 \/ exists q, In q syms /\ f q = Ok m) /\
    (forall q m, In q syms -> f q = Ok m -> exists m', In m' fam /\ ss_eqb m m' = true).
Proof.
  intros f syms; induction syms as [|q syms IH]; intros fam0 Hf D; cbn.
  - exists fam0. repeat split; auto. tauto.
  - destruct (Hf q (or_introl eq_refl)) as (m & E). rewrite E. cbn [bind].
    destruct (IH (set_add fam0 m)) as (fam & E' & D' & Keep & Inv & Cov);
      [intros; apply Hf; right; auto|apply set_add_distinct; auto|].
    exists fam. split; [auto|]. split; [auto|]. split; [|split].
    + intros x Hx. apply Keep, set_add_old; auto.
    + intros x Hx. destruct (Inv x Hx) as [H|(q' & A & B)].
      * apply set_add_in in H as [H| ->]; [auto|right; exists q; auto].
      * right; exists q'; auto.
    + intros q' m' [<-|Hq] Em.
      * rewrite E in Em; injection Em as <-. destruct (set_add_new fam0 m) as (y & A & B).
        exists y; split; auto.
      * apply (Cov q'); auto.
Qed.

(** ** Vectors of systems with the same indices up to sign *)
Lemma vZ_opp : forall x y z, vZ (- x) (- y) (- z) = vopp (vZ x y z).
Proof. intros; unfold vZ, vopp; cbn [vx vy vz]; rewrite !opp_IZR; auto. Qed.
Lemma vopp_scale : forall v, vopp v = vscale (-1) v.
Proof. intros [x y z]; unfold vopp, vscale; cbn [vx vy vz]; f_equal; ring. Qed.
Lemma unit_of_opp : forall v, v <> V3 0 0 0 -> vup_to_sign (unit_of (vopp v)) (unit_of v).
Proof. intros v H. rewrite vopp_scale. apply unit_of_scale; auto. lra. Qed.

Definition vectors_up_to_sign (a b : slip_system) : Prop :=
  vup_to_sign (slip_plane a) (slip_plane b) /\ vup_to_sign (slip_dir a) (slip_dir b).

Lemma cubic_same_vectors : forall conv p d p' d' s s',
  mk_slip_system conv p d "cubic" None = Ok s -> mk_slip_system conv p' d' "cubic" None = Ok s' ->
  up_to_sign p p' -> up_to_sign d d' -> vectors_up_to_sign s s'.
Proof.
  intros conv p d p' d' s s' H H' Up Ud.
  destruct (mk_cubic_inv _ _ _ _ _ H) as (x & y & z & u & v & w & -> & -> & _ & _ & ->).
  destruct (mk_cubic_inv _ _ _ _ _ H') as (x' & y' & z' & u' & v' & w' & -> & -> & Np & Nd & ->).
  apply vZ_nonzero in Np, Nd. split; cbn [slip_plane slip_dir].
  - destruct Up as [E|E]; cbn [negated map] in E; injection E as -> -> ->; [left; auto|].
    rewrite vZ_opp. apply unit_of_opp; auto.
  - destruct Ud as [E|E]; cbn [negated map] in E; injection E as -> -> ->; [left; auto|].
    rewrite vZ_opp. apply unit_of_opp; auto.
Qed.

Lemma hex_same_vectors : forall conv ca p d p' d' s s', known_conv conv -> 1 / 10 ^ 10 <= ca ->
  mk_slip_system conv p d "hexagonal" (Some ca) = Ok s ->
  mk_slip_system conv p' d' "hexagonal" (Some ca) = Ok s' ->
  up_to_sign p p' -> up_to_sign d d' -> vectors_up_to_sign s s'.
Proof.
  intros conv ca p d p' d' s s' Hc Hca H H' Up Ud.
  destruct (hex_matrices_spec ca conv Hc Hca) as (l & q & HM & _ & HD & _).
  destruct (mk_hex_inv _ _ _ _ _ _ _ HM HD H) as (h & k & i & m & u & v & t & w & -> & -> & _ & _ & ->).
  destruct (mk_hex_inv _ _ _ _ _ _ _ HM HD H') as
    (h' & k' & i' & m' & u' & v' & t' & w' & -> & -> & Np & Nd & ->).
  apply vZ_nonzero in Np, Nd.
  pose proof (proj2 (dual_nonzero l q _ HD Np)) as Zp.
  pose proof (proj1 (dual_nonzero l q _ HD Nd)) as Zd.
  split; cbn [slip_plane slip_dir].
  - destruct Up as [E|E]; cbn [negated map] in E; injection E as -> -> -> ->; [left; auto|].
    rewrite vZ_opp, mapply_opp. apply unit_of_opp; auto.
  - destruct Ud as [E|E]; cbn [negated map] in E; injection E as -> -> -> ->; [left; auto|].
    replace (- u' - - t')%Z with (- (u' - t'))%Z by lia.
    replace (- v' - - t')%Z with (- (v' - t'))%Z by lia.
    rewrite vZ_opp, mapply_opp. apply unit_of_opp; auto.
Qed.

Lemma mk_valid : forall conv p d st ca s, mk_slip_system conv p d st ca = Ok s -> valid s.
Proof. intros conv p d st ca s H.
  pose proof (mk_nonzero _ _ _ _ _ _ H) as (E1 & E2 & A & B). unfold valid. rewrite E1, E2. auto. Qed.

(** ** Rotated systems *)
Definition rotated (q : quat) (s m : slip_system) : Prop :=
  vup_to_sign (slip_plane m) (mapply (rot_matrix q) (slip_plane s)) /\
  vup_to_sign (slip_dir m) (mapply (rot_matrix q) (slip_dir s)).

Lemma rotated_trans : forall q r s m n, rotated q s m -> rotated r m n -> rotated (hprod r q) s n.
Proof.
  intros q r s m n [A B] [C D]. unfold rotated. rewrite rot_hprod, !mapply_mprod. split.
  - eapply vup_trans; [exact C|]. apply vup_mapply; auto.
  - eapply vup_trans; [exact D|]. apply vup_mapply; auto.
Qed.
Lemma rotated_same_rot : forall q r s m, same_rot q r -> rotated q s m -> rotated r s m.
Proof.
  intros q r s m [->| ->] H; auto. unfold rotated in *.
  replace (rot_matrix r) with (rot_matrix (opp r)); auto.
  destruct r as [a b c d]. unfold rot_matrix, opp; cbn [qw qx qy qz]. f_equal; f_equal; ring.
Qed.

(** The properties of a family, from what each symmetry operator gives. *)
Section Fam.
Variable syms : list quat.
Hypothesis GRP : rotation_group syms.
Variable f : quat -> res slip_system.
Variable s0 : slip_system.
Variable Good : slip_system -> Prop.
Hypothesis F_ok : forall q, In q syms -> exists m, f q = Ok m /\ rotated (hconj q) s0 m /\ Good m.
Hypothesis Good_same : forall a b, Good a -> Good b -> ss_eqb a b = true -> vectors_up_to_sign a b.
Hypothesis Good_differ : forall a b, Good a -> Good b -> (ss_eqb a b = true <-> same_system a b).

Lemma family_props : exists fam,
  for_each (fun fam sym => do m <- f sym; Ok (set_add fam m)) syms [] = Ok fam /\
  ForallOrdPairs (fun a b => ~ same_system a b) fam /\
  (forall m, In m fam -> exists q, In q syms /\ rotated q s0 m) /\
  (forall q m, In q syms -> In m fam -> exists m', In m' fam /\ rotated q m m') /\
  (forall q m, In q syms -> f q = Ok m -> exists m', In m' fam /\ same_system m m') /\
  (forall m, In m fam -> Good m).
Proof.
  destruct GRP as (G1 & Gu & Gp & Gi).
  destruct (build_family f syms []) as (fam & E & D & _ & Inv & Cov).
  { intros q Hq. destruct (F_ok q Hq) as (m & A & _). eauto. }
  { constructor. }
  assert (GF : forall m, In m fam -> Good m).
  { intros m Hm. destruct (Inv m Hm) as [[]|(q & Hq & Em)].
    destruct (F_ok q Hq) as (m' & A & _ & B). congruence. }
  assert (ROT : forall m, In m fam -> exists q, In q syms /\ rotated q s0 m).
  { intros m Hm. destruct (Inv m Hm) as [[]|(q & Hq & Em)].
    destruct (F_ok q Hq) as (m' & A & B & _). rewrite Em in A; injection A as <-.
    destruct (Gi q Hq) as (r & Hr & Sr). exists r; split; auto.
    destruct Sr as [->| ->]; auto. apply (rotated_same_rot (hconj q)); auto. right.
    destruct q as [a b c d]; unfold opp, hconj; cbn [qw qx qy qz]; f_equal; ring. }
  exists fam. split; [auto|]. split; [|split; [|split; [|split; [|exact GF]]]].
  - assert (AUX : forall l, (forall m, In m l -> Good m) ->
      ForallOrdPairs (fun a b => ss_eqb a b = false) l -> ForallOrdPairs (fun a b => ~ same_system a b) l).
    { clear - Good_differ. intros l HG H. induction H as [|a l Fa H IH]; constructor.
      - apply Forall_forall. intros b Hb SB. rewrite Forall_forall in Fa. specialize (Fa b Hb).
        rewrite <- Good_differ in SB; [congruence|apply HG; left; auto|apply HG; right; auto].
      - apply IH. intros; apply HG; right; auto. }
    apply AUX; auto.
  - exact ROT.
  - intros q m Hq Hm. destruct (ROT m Hm) as (r & Hr & R).
    destruct (Gp q r Hq Hr) as (t & Ht & St).
    destruct (Gi t Ht) as (t' & Ht' & St').
    destruct (F_ok t' Ht') as (n & En & Rn & Gn).
    destruct (Cov t' n Ht' En) as (m' & Hm' & Em').
    exists m'. split; auto.
    assert (RT : rotated (hprod q r) s0 n).
    { apply (rotated_same_rot (hconj t')); auto.
      clear - St St'. destruct q as [a b c d], r as [a1 b1 c1 d1].
      destruct St as [->| ->], St' as [->| ->]; [left|right|right|left];
      unfold opp, hconj, hprod; cbn [qw qx qy qz]; f_equal; ring. }
    pose proof (Good_same n m' Gn (GF m' Hm') Em') as [P1 P2].
    assert (Uq : unitq q) by auto.
    (* n is q after m *)
    destruct RT as [RT1 RT2], R as [R1 R2].
    assert (CAN : forall x y z, vup_to_sign x (mapply (rot_matrix (hprod q r)) z) ->
              vup_to_sign y (mapply (rot_matrix r) z) -> vup_to_sign x (mapply (rot_matrix q) y)).
    { intros x y z X Y. rewrite rot_hprod, mapply_mprod in X.
      eapply vup_trans; [exact X|]. apply vup_mapply. apply vup_sym; auto. }
    split.
    + eapply vup_trans; [apply vup_sym; exact P1|]. eapply CAN; eauto.
    + eapply vup_trans; [apply vup_sym; exact P2|]. eapply CAN; eauto.
  - intros q m Hq Em. destruct (Cov q m Hq Em) as (m' & A & B). exists m'; split; auto.
    destruct (F_ok q Hq) as (m2 & E2 & _ & G2). rewrite Em in E2; injection E2 as <-.
    apply Good_differ; auto.
Qed.
End Fam.

(** ** Cubic families *)
Lemma zap_scale : forall m x y z, mapply (ZM m) (vZ x y z) =
  vZ (za m * x + zb m * y + zc m * z) (zd m * x + ze m * y + zf m * z) (zg m * x + zh m * y + zi m * z).
Proof. intros; unfold ZM, vZ; munf; rewrite !plus_IZR, !mult_IZR; auto. Qed.

Lemma cubic_zap_bound : forall T b x y z, In T cubic_tab ->
  (- b <= x <= b -> - b <= y <= b -> - b <= z <= b ->
   forall a, In a (zap T x y z) -> - b <= a <= b)%Z.
Proof.
  intros T b x y z H Hx Hy Hz a Ha. unfold cubic_tab in H. cbn [In] in H.
  repeat (destruct H as [<-|H]; [cbn [zap za zb zc zd ze zf zg zh zi In] in Ha; lia|]). contradiction.
Qed.

Lemma pos_tuple_spec : forall l, nonzero l -> exists r, pos_tuple l = Ok r /\ up_to_sign r l /\
  pos_idc l = Some r /\ nonzero r.
Proof.
  intros l H. destruct (pos_spec l H) as (r & E & U & L). exists r. unfold pos_tuple. rewrite E.
  split; [auto|]. split; [auto|]. split; [auto|]. apply leading_positive_nonzero; auto.
Qed.

Lemma map_int8_small : forall l b, (b <= 127)%Z -> (forall a, In a l -> - b <= a <= b)%Z -> map int8 l = l.
Proof.
  intros l b Hb H. apply map_int8_id. intros x Hx. specialize (H x Hx). lia.
Qed.

Lemma up_to_sign_vZ : forall x y z x' y' z', up_to_sign [x; y; z] [x'; y'; z'] ->
  vup_to_sign (vZ x y z) (vZ x' y' z').
Proof.
  intros x y z x' y' z' [E|E]; cbn [negated map] in E; injection E as -> -> ->; [left; auto|right].
  apply vZ_opp.
Qed.

Lemma unit_of_vup : forall u v, v <> V3 0 0 0 -> vup_to_sign u v -> vup_to_sign (unit_of u) (unit_of v).
Proof. intros u v H [->| ->]; [left; auto|apply unit_of_opp; auto]. Qed.

Lemma transform_conj : forall q v, In q cubic_symmetries \/ In q hexagonal_symmetries ->
  transform_vector (conjugate q) v = mapply (rot_matrix (hconj q)) v.
Proof.
  intros q v H.
  assert (N : 0 <= qw q).
  { destruct H as [H|H]; [apply (sym_north "cubic")|apply (sym_north "hexagonal")]; exact H. }
  rewrite conjugate_north by auto. apply transform_north. unfold hconj; cbn [qw]; auto.
Qed.

Definition within (b : Z) (l : list Z) : Prop := forall x, In x l -> (- b <= x <= b)%Z.

Lemma cubic_member : forall conv q x y z u v w, In q cubic_symmetries ->
  within 127 [x; y; z] -> within 127 [u; v; w] -> nonzero [x; y; z] -> nonzero [u; v; w] ->
  forall lq, exists p d m,
  family_member conv "cubic" None lq (vZ x y z) (vZ u v w) q = Ok m /\
  mk_slip_system conv p d "cubic" None = Ok m /\
  vup_to_sign (slip_plane m) (mapply (rot_matrix (hconj q)) (unit_of (vZ x y z))) /\
  vup_to_sign (slip_dir m) (mapply (rot_matrix (hconj q)) (unit_of (vZ u v w))) /\
  (q = qone -> up_to_sign p [x; y; z] /\ up_to_sign d [u; v; w]).
Proof.
  intros conv q x y z u v w Hq Wp Wd Np Nd lq.
  assert (Uq : unitq (hconj q)).
  { apply unitq_hconj. destruct cubic_group as (_ & G & _); auto. }
  destruct (Forall2_in_l _ _ _ _ _ q cubic_tab_ok Hq) as (T & HT & ET).
  assert (AUX : forall x y z, within 127 [x; y; z] -> nonzero [x; y; z] ->
     exists r0 r1 r2, safe_int_cast (FltArr (list_of (mapply (rot_matrix (hconj q)) (vZ x y z)))) =
         Ok (zap T x y z) /\ pos_tuple (zap T x y z) = Ok [r0; r1; r2] /\ nonzero [r0; r1; r2] /\
       vup_to_sign (vZ r0 r1 r2) (mapply (rot_matrix (hconj q)) (vZ x y z)) /\
       up_to_sign [r0; r1; r2] (zap T x y z)).
  { clear x y z u v w Wp Wd Np Nd. intros x y z W N.
    assert (B : within 127 (zap T x y z)).
    { intros a Ha. apply (cubic_zap_bound T 127 x y z HT); auto; apply W; cbn; auto. }
    assert (NZ : nonzero (zap T x y z)).
    { apply vZ_nonzero. rewrite <- zap_scale, <- ET. apply mapply_rot_nonzero; auto. apply vZ_nonzero; auto. }
    destruct (pos_tuple_spec _ NZ) as (r & Er & Ur & _ & Nr).
    assert (L : exists r0 r1 r2, r = [r0; r1; r2]).
    { destruct Ur as [->| ->]; unfold zap; cbn [negated map]; eauto. }
    destruct L as (r0 & r1 & r2 & ->). exists r0, r1, r2.
    split.
    { rewrite ET, ZM_apply, safe_cast_ints. f_equal. apply (map_int8_small _ 127); auto. lia. }
    split; [auto|]. split; [auto|]. split; [|auto].
    rewrite ET, zap_scale. apply up_to_sign_vZ. exact Ur. }
  destruct (AUX x y z Wp Np) as (p0 & p1 & p2 & A1 & A2 & A3 & A4 & A5).
  destruct (AUX u v w Wd Nd) as (d0 & d1 & d2 & B1 & B2 & B3 & B4 & B5).
  exists [p0; p1; p2], [d0; d1; d2]. eexists.
  split.
  { unfold family_member. cbv zeta. cbn [String.eqb Ascii.eqb Bool.eqb bind fst snd].
    rewrite !transform_conj by auto. rewrite A1. cbn [bind]. rewrite A2. cbn [bind].
    rewrite B1. cbn [bind]. rewrite B2. cbn [bind]. apply mk_cubic; auto. }
  split; [apply mk_cubic; auto|]. cbn [slip_plane slip_dir].
  apply vZ_nonzero in Np, Nd.
  rewrite <- !unit_of_rot by auto.
  split; [apply unit_of_vup; auto; apply mapply_rot_nonzero; auto|].
  split; [apply unit_of_vup; auto; apply mapply_rot_nonzero; auto|].
  intros ->.
  assert (ID : zap T x y z = [x; y; z] /\ zap T u v w = [u; v; w]).
  { assert (I : forall v, mapply (ZM T) v = v).
    { intros v0. rewrite <- ET. destruct v0 as [v0 v1 v2]. unfold rot_matrix, hconj, qone; munf.
      cbv beta iota zeta delta [qw qx qy qz]. f_equal; ring. }
    assert (J : forall x y z, zap T x y z = [x; y; z]).
    { intros a b c. specialize (I (vZ a b c)). rewrite zap_scale in I. unfold vZ in I. injection I as I1 I2 I3.
      unfold zap. apply eq_IZR in I1, I2, I3. congruence. }
    auto. }
  destruct ID as [I1 I2]. rewrite <- I1, <- I2. auto.
Qed.

Lemma cubic_family : forall conv p d s, mk_slip_system conv p d "cubic" None = Ok s ->
  within 127 p -> within 127 d ->
  exists fam, generate_family conv s = Ok fam /\
    ForallOrdPairs (fun a b => ~ same_system a b) fam /\
    (forall m, In m fam -> exists q, In q cubic_symmetries /\ rotated q s m) /\
    (forall q m, In q cubic_symmetries -> In m fam -> exists m', In m' fam /\ rotated q m m') /\
    (exists m, In m fam /\ same_system m s).
Proof.
  intros conv p d s H Wp Wd.
  destruct (mk_cubic_inv _ _ _ _ _ H) as (x & y & z & u & v & w & -> & -> & Np & Nd & ->).
  set (s := SS _ _ _ _ _ _).
  set (zm := M3 (V3 0 0 0) (V3 0 0 0) (V3 0 0 0)).
  destruct (family_props cubic_symmetries cubic_group
    (family_member conv "cubic" None (zm, zm) (vZ x y z) (vZ u v w)) s
    (fun m => exists p d, mk_slip_system conv p d "cubic" None = Ok m)) as (fam & E & D & R & C & M & GF).
  - intros q Hq. destruct (cubic_member conv q x y z u v w Hq Wp Wd Np Nd (zm, zm))
      as (p & d & m & A & B & C1 & C2 & _).
    exists m. split; [auto|]. split; [split; auto|]. eauto.
  - intros a b (p & d & A) (p' & d' & B) Eq.
    assert (S : same_system a b) by (apply ss_eqb_iff; auto; eapply mk_valid; eauto).
    apply mk_nonzero in A as X. destruct X as (X1 & X2 & _).
    apply mk_nonzero in B as Y. destruct Y as (Y1 & Y2 & _).
    destruct S as [S1 S2]. unfold same_plane, same_dir in *. rewrite X1, Y1 in S1. rewrite X2, Y2 in S2.
    eapply cubic_same_vectors; eauto.
  - intros a b (p & d & A) (p' & d' & B). 
    apply ss_eqb_iff; eapply mk_valid; eauto.
  - exists fam. split; [exact E|]. split; [auto|]. split; [auto|]. split; [auto|].
    destruct cubic_group as (G1 & _).
    destruct (cubic_member conv qone x y z u v w G1 Wp Wd Np Nd (zm, zm))
      as (p & d & m & A & B & _ & _ & I).
    destruct (M qone m G1 A) as (m' & A' & B'). exists m'. split; auto.
    destruct (I eq_refl) as [I1 I2]. apply mk_nonzero in B as (X1 & X2 & _).
    destruct B' as [S1 S2]. unfold same_system, same_plane, same_dir in *. rewrite X1 in S1. rewrite X2 in S2.
    cbn [plane_idc dir_idc s].
    split; eapply up_to_sign_trans; [apply up_to_sign_sym; exact S1|auto|apply up_to_sign_sym; exact S2|auto].
Qed.

(** ** Hexagonal families *)
Lemma plane_tab_bound : forall T b h k i m, In T hkl_plane_tab \/ In T tsl_plane_tab ->
  (h + k + i = 0)%Z -> within b [h; k; i; m] ->
  exists h' k' m', zap T h k m = [h'; k'; m'] /\ within b [h'; k'; - (h' + k'); m']%Z.
Proof.
  intros T b h k i m H Hr W.
  assert (Bh : (- b <= h <= b)%Z) by (apply W; cbn; auto).
  assert (Bk : (- b <= k <= b)%Z) by (apply W; cbn; auto).
  assert (Bi : (- b <= i <= b)%Z) by (apply W; cbn; auto).
  assert (Bm : (- b <= m <= b)%Z) by (apply W; cbn; auto).
  unfold hkl_plane_tab, tsl_plane_tab in H. cbn [In] in H.
  unfold within. destruct H as [H|H]; repeat (destruct H as [<-|H];
    [eexists _, _, _; split; [unfold zap; cbn [za zb zc zd ze zf zg zh zi]; reflexivity|];
     intros x [<-|[<-|[<-|[<-|[]]]]]; lia|]); contradiction.
Qed.

Lemma dir_tab_bound : forall T b u v t w, In T hkl_dir_tab \/ In T tsl_dir_tab ->
  (u + v + t = 0)%Z -> within b [u; v; t; w] ->
  exists u' v' t' w', zap T (u - t) (v - t) w = [u' - t'; v' - t'; w']%Z /\
    (u' + v' + t' = 0)%Z /\ within b [u'; v'; t'; w'].
Proof.
  intros T b u v t w H Hr W.
  assert (Bu : (- b <= u <= b)%Z) by (apply W; cbn; auto).
  assert (Bv : (- b <= v <= b)%Z) by (apply W; cbn; auto).
  assert (Bt : (- b <= t <= b)%Z) by (apply W; cbn; auto).
  assert (Bw : (- b <= w <= b)%Z) by (apply W; cbn; auto).
  assert (K : forall a1 a2 a3 u' v' t' w', a1 = (u' - t')%Z -> a2 = (v' - t')%Z -> a3 = w' ->
     (u' + v' + t' = 0)%Z ->
     (- b <= u' <= b)%Z -> (- b <= v' <= b)%Z -> (- b <= t' <= b)%Z -> (- b <= w' <= b)%Z ->
     exists u' v' t' w', [a1; a2; a3] = [u' - t'; v' - t'; w']%Z /\ (u' + v' + t' = 0)%Z /\
       within b [u'; v'; t'; w']).
  { intros a1 a2 a3 u' v' t' w' -> -> -> S0 B1 B2 B3 B4. exists u', v', t', w'.
    split; [auto|]. split; [auto|]. intros x [<-|[<-|[<-|[<-|[]]]]]; auto. }
  unfold hkl_dir_tab, tsl_dir_tab in H. cbn [In] in H.
  destruct H as [H|H]; repeat (destruct H as [<-|H];
    [unfold zap; cbn [za zb zc zd ze zf zg zh zi];
     match goal with |- exists u' v' t' w', [_; _; ?a3] = _ /\ _ /\ _ =>
     first [ apply (K _ _ _ u v t a3); lia | apply (K _ _ _ u t v a3); lia
           | apply (K _ _ _ v u t a3); lia | apply (K _ _ _ v t u a3); lia
           | apply (K _ _ _ t u v a3); lia | apply (K _ _ _ t v u a3); lia
           | apply (K _ _ _ (-u) (-v) (-t) a3)%Z; lia | apply (K _ _ _ (-u) (-t) (-v) a3)%Z; lia
           | apply (K _ _ _ (-v) (-u) (-t) a3)%Z; lia | apply (K _ _ _ (-v) (-t) (-u) a3)%Z; lia
           | apply (K _ _ _ (-t) (-u) (-v) a3)%Z; lia | apply (K _ _ _ (-t) (-v) (-u) a3)%Z; lia ] end|]);
  contradiction.
Qed.

Lemma hex_tables : forall ca conv, known_conv conv -> 1 / 10 ^ 10 <= ca ->
  exists l q, hex_matrices ca conv = Ok (l, q) /\
    mprod (transpose q) l = mone /\ mprod l (transpose q) = mone /\
    (forall s, In s hexagonal_symmetries -> exists T N,
       (In T hkl_plane_tab \/ In T tsl_plane_tab) /\ (In N hkl_dir_tab \/ In N tsl_dir_tab) /\
       mprod (transpose l) (rot_matrix (hconj s)) = mprod (ZM T) (transpose l) /\
       mprod (rot_matrix (hconj s)) l = mprod l (ZM N)).
Proof.
  intros ca conv Hc Hca. destruct (hex_matrices_spec ca conv Hc Hca) as (l & q & HM & Hl & HD & HD').
  exists l, q. split; [auto|]. split; [auto|]. split; [auto|].
  intros s Hs. destruct Hl as [->| ->].
  - destruct (Forall2_in_l _ _ _ _ _ s (hkl_plane_ok ca) Hs) as (T & HT & ET).
    destruct (Forall2_in_l _ _ _ _ _ s (hkl_dir_ok ca) Hs) as (N & HN & EN).
    exists T, N. auto.
  - destruct (Forall2_in_l _ _ _ _ _ s (tsl_plane_ok ca) Hs) as (T & HT & ET).
    destruct (Forall2_in_l _ _ _ _ _ s (tsl_dir_ok ca) Hs) as (N & HN & EN).
    exists T, N. auto.
Qed.

Lemma up_within : forall b p r, up_to_sign r p -> within b p -> within b r.
Proof.
  intros b p r [->| ->] H; auto. intros x Hx. unfold negated in Hx. apply in_map_iff in Hx as (y & <- & Hy).
  specialize (H y Hy). lia.
Qed.

Lemma within_scaled : forall b g r, (0 < g)%Z -> within b (scaled g r) -> within b r.
Proof.
  intros b g r Hg H x Hx.
  assert (I : In (g * x)%Z (scaled g r)) by (unfold scaled; apply in_map_iff; eauto).
  specialize (H _ I). nia.
Qed.

Lemma within_fits8 : forall b l, (b <= 127)%Z -> within b l -> fits8 l.
Proof. intros b l Hb H x Hx. specialize (H x Hx). lia. Qed.

(** Reduction followed by the sign rule, on four indices. *)
Lemma canon4 : forall a b c d, nonzero [a; b; c; d] -> within 127 [a; b; c; d] ->
  exists r k p0 p1 p2 p3, reduce_idc (IntArr [a; b; c; d]) = Ok r /\
    safe_int_cast (IntArr r) = Ok r /\ pos_tuple r = Ok [p0; p1; p2; p3] /\ (k <> 0)%Z /\
    [a; b; c; d] = scaled k [p0; p1; p2; p3] /\ nonzero [p0; p1; p2; p3] /\
    coprime [p0; p1; p2; p3] /\
    (coprime [a; b; c; d] -> up_to_sign [p0; p1; p2; p3] [a; b; c; d]).
Proof.
  intros a b c d N W. destruct (reduced_exists _ N) as (g & r & Hg & E & Cr).
  assert (Wr : within 127 r) by (apply (within_scaled _ g); auto; rewrite <- E; auto).
  assert (Fr : fits8 r) by (apply (within_fits8 127); auto; lia).
  assert (Nr : nonzero r).
  { destruct N as (x & Hx & Nx). rewrite E in Hx. apply in_map_iff in Hx as (y & <- & Hy).
    exists y; split; auto. intros ->; lia. }
  destruct (pos_tuple_spec r Nr) as (p & Ep & Up & _ & Np).
  assert (L : length r = 4%nat) by (apply (f_equal (@length Z)) in E; unfold scaled in E; rewrite map_length in E; auto).
  assert (Lp : length p = 4%nat).
  { destruct Up as [->| ->]; auto. unfold negated; rewrite map_length; auto. }
  destruct p as [|p0 [|p1 [|p2 [|p3 [|]]]]]; try discriminate Lp.
  assert (SK : exists k, (k <> 0)%Z /\ scaled g r = scaled k [p0; p1; p2; p3]).
  { destruct Up as [<-|U]; [exists g; split; [lia|auto]|].
    exists (- g)%Z. split; [lia|].
    assert (r = negated [p0; p1; p2; p3]) as -> by (rewrite U, negated_negated; auto).
    unfold negated, scaled; cbn [map]; repeat (f_equal; try lia). }
  destruct SK as (k & Hk & Sk).
  exists r, k, p0, p1, p2, p3.
  split; [rewrite E; apply reduce_scaled; auto|].
  split; [cbn; f_equal; apply map_int8_id; auto|].
  split; [auto|]. split; [auto|]. split; [|split; [auto|split]].
  - rewrite E. auto.
  - destruct Up as [->|U]; auto. rewrite U. apply coprime_negated; auto.
  - intros Hc. assert (g = 1%Z).
    { specialize (Hc g). assert ((g | 1)%Z). { apply Hc. rewrite E. intros x Hx.
        apply in_map_iff in Hx as (y & <- & _). exists y; ring. }
      apply Z.divide_1_r_nonneg in H; lia. }
    subst g. rewrite E. replace (scaled 1 r) with r; auto.
    unfold scaled. rewrite <- (map_id r) at 1. apply map_ext; intros; lia.
Qed.

Lemma convert_m_dir_exact : forall u v t w, (u + v + t = 0)%Z -> within 127 [u; v; t; w] ->
  convert_idc "m" (Some (IntArr [u - t; v - t; w]%Z)) None = Ok (IntArr [u; v; t; w]).
Proof.
  intros u v t w H W. unfold convert_idc. cbn [lower lower_ascii]. 
  change (String.eqb (lower "m") "m") with true. cbn [arr_R map].
  replace [(2 * IZR (u - t) - IZR (v - t)) / 3; (2 * IZR (v - t) - IZR (u - t)) / 3;
     (- IZR (u - t) - IZR (v - t)) / 3; 3 * IZR w / 3] with (map IZR [u; v; t; w]).
  - rewrite safe_cast_ints. rewrite (map_int8_small _ 127); auto. lia.
  - assert (Et : t = (- u - v)%Z) by lia. subst t. cbn [map].
    rewrite ?minus_IZR, ?opp_IZR, ?minus_IZR, ?opp_IZR. repeat (f_equal; try field).
Qed.

Lemma hex_member : forall conv ca l q s h k i m u v t w, known_conv conv -> 1 / 10 ^ 10 <= ca ->
  hex_matrices ca conv = Ok (l, q) -> mprod (transpose q) l = mone ->
  mprod l (transpose q) = mone ->
  (exists T N,
       (In T hkl_plane_tab \/ In T tsl_plane_tab) /\ (In N hkl_dir_tab \/ In N tsl_dir_tab) /\
       mprod (transpose l) (rot_matrix (hconj s)) = mprod (ZM T) (transpose l) /\
       mprod (rot_matrix (hconj s)) l = mprod l (ZM N)) ->
  In s hexagonal_symmetries ->
  (h + k + i = 0)%Z -> (u + v + t = 0)%Z ->
  within 42 [h; k; i; m] -> within 42 [u; v; t; w] -> nonzero [h; k; m] -> nonzero [u - t; v - t; w]%Z ->
  exists p d r,
  family_member conv "hexagonal" (Some ca) (l, q) (matmul q (vZ h k m)) (matmul l (vZ (u - t) (v - t) w)) s = Ok r /\
  mk_slip_system conv p d "hexagonal" (Some ca) = Ok r /\
  vup_to_sign (slip_plane r) (mapply (rot_matrix (hconj s)) (unit_of (mapply q (vZ h k m)))) /\
  vup_to_sign (slip_dir r) (mapply (rot_matrix (hconj s)) (unit_of (mapply l (vZ (u - t) (v - t) w)))) /\
  coprime p /\ coprime d /\
  (s = qone -> (coprime [h; k; i; m] -> up_to_sign p [h; k; i; m]) /\
               (coprime [u; v; t; w] -> up_to_sign d [u; v; t; w])).
Proof.
  intros conv ca l q s h k i m u v t w Hc Hca HM HD HD' (T & N & HT & HN & ET & EN) Hs Rp Rd Wp Wd Np Nd.
  assert (Us : unitq (hconj s)).
  { apply unitq_hconj. destruct hex_group as (_ & G & _); auto. }
  assert (LQ : mprod (transpose l) q = mone).
  { rewrite <- (transpose_transpose q), <- transpose_mprod, HD. reflexivity. }
  assert (QL : mprod q (transpose l) = mone).
  { rewrite <- (transpose_transpose q), <- transpose_mprod, HD'. reflexivity. }
  destruct (plane_tab_bound T 42 h k i m HT Rp Wp) as (h' & k' & m' & ZT & Wp').
  destruct (dir_tab_bound N 42 u v t w HN Rd Wd) as (u' & v' & t' & w' & ZN & Rd' & Wd').
  (* planes *)
  assert (P1 : matmul (mT l) (mapply (rot_matrix (hconj s)) (matmul q (vZ h k m))) = vZ h' k' m').
  { change matmul with mapply; change mT with transpose; rewrite <- (mapply_mprod (transpose l) (rot_matrix _)), ET, mapply_mprod.
    rewrite <- (mapply_mprod (transpose l)), LQ, mapply_one, zap_scale. unfold zap in ZT. injection ZT as -> -> ->. auto. }
  assert (P2 : mapply (rot_matrix (hconj s)) (matmul q (vZ h k m)) = mapply q (vZ h' k' m')).
  { rewrite <- P1; change matmul with mapply; change mT with transpose; rewrite <- (mapply_mprod q (transpose l)), QL, mapply_one. auto. }
  assert (D1 : matmul (mT q) (mapply (rot_matrix (hconj s)) (matmul l (vZ (u - t) (v - t) w))) =
               vZ (u' - t') (v' - t') w').
  { change matmul with mapply; change mT with transpose; rewrite <- (mapply_mprod (rot_matrix _)), EN, mapply_mprod.
    rewrite <- (mapply_mprod (transpose q)), HD, mapply_one, zap_scale.
    unfold zap in ZN. injection ZN as -> -> ->. auto. }
  assert (D2 : mapply (rot_matrix (hconj s)) (matmul l (vZ (u - t) (v - t) w)) = mapply l (vZ (u' - t') (v' - t') w')).
  { rewrite <- D1; change matmul with mapply; change mT with transpose; rewrite <- (mapply_mprod l (transpose q)), HD', mapply_one. auto. }
  apply vZ_nonzero in Np, Nd.
  pose proof (proj2 (dual_nonzero l q _ HD Np)) as Zp.
  pose proof (proj1 (dual_nonzero l q _ HD Nd)) as Zd.
  assert (Np' : vZ h' k' m' <> V3 0 0 0).
  { intros E. rewrite E in P2. change matmul with mapply in P2.
    assert (X : mapply q (V3 0 0 0) = V3 0 0 0) by apply matmul_zero. rewrite X in P2.
    revert P2. apply mapply_rot_nonzero; auto. }
  assert (Nd' : vZ (u' - t') (v' - t') w' <> V3 0 0 0).
  { intros E. rewrite E in D2. change matmul with mapply in D2.
    assert (X : mapply l (V3 0 0 0) = V3 0 0 0) by apply matmul_zero. rewrite X in D2.
    revert D2. apply mapply_rot_nonzero; auto. }
  assert (Np4 : nonzero [h'; k'; - (h' + k'); m']%Z).
  { apply vZ_nonzero in Np' as (x & Hx & Nx). exists x; split; auto. clear - Hx. cbn [In] in *; tauto. }
  assert (Nd4 : nonzero [u'; v'; t'; w']).
  { apply vZ_nonzero in Nd' as (x & Hx & Nx).
    destruct (Z.eq_dec u' 0), (Z.eq_dec v' 0), (Z.eq_dec t' 0), (Z.eq_dec w' 0);
      [exfalso; clear - Hx Nx e e0 e1 e2; cbn [In] in Hx; lia|exists w'|exists t'|exists t'|exists v'|exists v'|exists v'|exists v'|
       exists u'|exists u'|exists u'|exists u'|exists u'|exists u'|exists u'|exists u']; (split; [cbn [In]; auto 6|auto]). }
  assert (Wp7 : within 127 [h'; k'; - (h' + k'); m']%Z) by (intros x Hx; specialize (Wp' x Hx); lia).
  assert (Wd7 : within 127 [u'; v'; t'; w']) by (intros x Hx; specialize (Wd' x Hx); lia).
  destruct (canon4 _ _ _ _ Np4 Wp7) as (rp & kp & p0 & p1 & p2 & p3 & Ap & Bp & Cp & Kp & Sp & Zp4 & Op & Gp).
  destruct (canon4 _ _ _ _ Nd4 Wd7) as (rd & kd & d0 & d1 & d2 & d3 & Ad & Bd & Cd & Kd & Sd & Zd4 & Od & Gd).
  cbn [scaled map] in Sp, Sd. injection Sp as Sp0 Sp1 Sp2 Sp3. injection Sd as Sd0 Sd1 Sd2 Sd3.
  assert (Vp : vZ h' k' m' = vscale (IZR kp) (vZ p0 p1 p3)).
  { unfold vZ, vscale; cbn [vx vy vz]. rewrite <- !mult_IZR. congruence. }
  assert (Vd : vZ (u' - t') (v' - t') w' = vscale (IZR kd) (vZ (d0 - d2) (d1 - d2) d3)).
  { unfold vZ, vscale; cbn [vx vy vz]. rewrite <- !mult_IZR. f_equal; f_equal; lia. }
  assert (Np3 : vZ p0 p1 p3 <> V3 0 0 0).
  { intros E. apply Np'. rewrite Vp, E. unfold vscale; cbn [vx vy vz]. f_equal; ring. }
  assert (Nd3 : vZ (d0 - d2) (d1 - d2) d3 <> V3 0 0 0).
  { intros E. apply Nd'. rewrite Vd, E. unfold vscale; cbn [vx vy vz]. f_equal; ring. }
  assert (MK := mk_hex conv ca l q p0 p1 p2 p3 d0 d1 d2 d3 HM HD
                  (proj2 (vZ_nonzero _ _ _) Np3) (proj2 (vZ_nonzero _ _ _) Nd3)).
  exists [p0; p1; p2; p3], [d0; d1; d2; d3]. eexists.
  split.
  { unfold family_member. cbv zeta. cbn [String.eqb Ascii.eqb Bool.eqb].
    rewrite !transform_conj by auto. rewrite P1, D1.
    change (list_of (vZ h' k' m')) with (map IZR [h'; k'; m']).
    change (list_of (vZ (u' - t') (v' - t') w')) with (map IZR [u' - t'; v' - t'; w']%Z).
    rewrite !safe_cast_ints.
    rewrite (map_int8_small [h'; k'; m'] 42); [|lia|intros x Hx; apply Wp'; clear - Hx; cbn [In] in *; tauto].
    rewrite (map_int8_small [u' - t'; v' - t'; w']%Z 84); [|lia|].
    2:{ assert (- 42 <= u' <= 42)%Z by (apply Wd'; cbn; auto).
        assert (- 42 <= v' <= 42)%Z by (apply Wd'; cbn; auto).
        assert (- 42 <= t' <= 42)%Z by (apply Wd'; cbn; auto).
        assert (- 42 <= w' <= 42)%Z by (apply Wd'; cbn; auto 6).
        intros x [<-|[<-|[<-|[]]]]; lia. }
    cbn [bind].
    change (convert_idc "m" None (Some (IntArr [h'; k'; m'])))
      with (@Ok arr (IntArr [h'; k'; (h' + k') * -1; m']%Z)).
    replace ((h' + k') * -1)%Z with (- (h' + k'))%Z by lia. cbn [bind].
    rewrite Ap. cbn [bind]. rewrite convert_m_dir_exact by auto. cbn [bind].
    rewrite Ad. cbn [bind fst snd]. rewrite Bp. cbn [bind]. rewrite Cp. cbn [bind].
    rewrite Bd. cbn [bind]. rewrite Cd. cbn [bind]. exact MK. }
  split; [exact MK|]. cbn [slip_plane slip_dir].
  rewrite <- !unit_of_rot by auto.
  change matmul with mapply in P2, D2. rewrite P2, D2, Vp, Vd, !mapply_scale.
  split; [apply vup_sym, unit_of_scale; [apply not_0_IZR; auto|apply (dual_nonzero l q _ HD Np3)]|].
  split; [apply vup_sym, unit_of_scale; [apply not_0_IZR; auto|apply (dual_nonzero l q _ HD Nd3)]|].
  split; [exact Op|]. split; [exact Od|].
  intros ->.
  assert (I : forall v, mapply (rot_matrix (hconj qone)) v = v).
  { intros [v0 v1 v2]. unfold rot_matrix, hconj, qone; munf.
    cbv beta iota zeta delta [qw qx qy qz]. f_equal; ring. }
  rewrite !I in P1, D1. change matmul with mapply in P1, D1; change mT with transpose in P1, D1. rewrite <- mapply_mprod, LQ, mapply_one in P1.
  rewrite <- mapply_mprod, HD, mapply_one in D1.
  unfold vZ in P1, D1. injection P1 as I1 I2 I3. injection D1 as J1 J2 J3.
  apply eq_IZR in I1, I2, I3, J1, J2, J3.
  assert (Ei : i = (- (h' + k'))%Z) by lia.
  assert (Eu : u = u' /\ v = v' /\ t = t') by lia. destruct Eu as (-> & -> & ->).
  subst h k m i w. auto.
Qed.

Lemma hex_family : forall conv ca h k i m u v t w s, known_conv conv -> 1 / 10 ^ 10 <= ca ->
  mk_slip_system conv [h; k; i; m] [u; v; t; w] "hexagonal" (Some ca) = Ok s ->
  (h + k + i = 0)%Z -> (u + v + t = 0)%Z ->
  within 42 [h; k; i; m] -> within 42 [u; v; t; w] ->
  exists fam, generate_family conv s = Ok fam /\
    ForallOrdPairs (fun a b => ~ same_system a b) fam /\
    (forall m, In m fam -> exists q, In q hexagonal_symmetries /\ rotated q s m) /\
    (forall q m, In q hexagonal_symmetries -> In m fam -> exists m', In m' fam /\ rotated q m m') /\
    (forall m, In m fam -> coprime (plane_idc m) /\ coprime (dir_idc m)) /\
    (coprime [h; k; i; m] -> coprime [u; v; t; w] -> exists m, In m fam /\ same_system m s).
Proof.
  intros conv ca h k i m u v t w s Hc Hca H Rp Rd Wp Wd.
  destruct (hex_tables ca conv Hc Hca) as (l & q & HM & HD & HD' & HT).
  destruct (mk_hex_inv _ _ _ _ _ _ _ HM HD H) as (h0 & k0 & i0 & m0 & u0 & v0 & t0 & w0 & E1 & E2 & Np & Nd & ->).
  injection E1 as <- <- <- <-. injection E2 as <- <- <- <-.
  set (s := SS _ _ _ _ _ _).
  pose proof hex_group as (G1 & _).
  destruct (family_props hexagonal_symmetries hex_group
    (family_member conv "hexagonal" (Some ca) (l, q) (matmul q (vZ h k m)) (matmul l (vZ (u - t) (v - t) w))) s
    (fun r => exists p d, mk_slip_system conv p d "hexagonal" (Some ca) = Ok r /\ coprime p /\ coprime d)) as (fam & E & D & R & C & M & GF).
  - intros y Hy.
    destruct (hex_member conv ca l q y h k i m u v t w Hc Hca HM HD HD' (HT y Hy) Hy Rp Rd Wp Wd Np Nd)
      as (p & d & r & A & B & C1 & C2 & O1 & O2 & _).
    exists r. split; [auto|]. split; [split; auto|]. exists p, d. auto.
  - intros a b (p & d & A & _) (p' & d' & B & _) Eq.
    assert (S : same_system a b) by (apply ss_eqb_iff; auto; eapply mk_valid; eauto).
    apply mk_nonzero in A as X. destruct X as (X1 & X2 & _).
    apply mk_nonzero in B as Y. destruct Y as (Y1 & Y2 & _).
    destruct S as [S1 S2]. unfold same_plane, same_dir in *. rewrite X1, Y1 in S1. rewrite X2, Y2 in S2.
    eapply hex_same_vectors; eauto.
  - intros a b (p & d & A & _) (p' & d' & B & _).
    apply ss_eqb_iff; eapply mk_valid; eauto.
  - exists fam. split.
    { unfold generate_family.
      change (ss_structure s) with "hexagonal". change (ss_c_over_a s) with (Some ca).
      change (plane_idc s) with [h; k; i; m]. change (dir_idc s) with [u; v; t; w].
      cbn [String.eqb Ascii.eqb Bool.eqb]. rewrite HM. cbn [bind].
      change (convert_idc "mb" None (Some (IntArr [h; k; i; m]))) with (@Ok arr (IntArr [h; k; m])).
      change (convert_idc "mb" (Some (IntArr [u; v; t; w])) None)
        with (@Ok arr (IntArr [u - t; v - t; w]%Z)).
      cbn [bind arr_R map vec_of]. exact E. }
    split; [auto|]. split; [auto|]. split; [auto|]. split.
    { intros r Hr. destruct (GF r Hr) as (p & d & A & O). apply mk_nonzero in A as (-> & -> & _). exact O. }
    intros Cp Cd.
    destruct (hex_member conv ca l q qone h k i m u v t w Hc Hca HM HD HD' (HT _ G1) G1 Rp Rd Wp Wd Np Nd)
      as (p & d & r & A & B & _ & _ & _ & _ & I).
    destruct (M qone r G1 A) as (m' & A' & B'). exists m'. split; auto.
    destruct (I eq_refl) as [I1 I2]. apply mk_nonzero in B as (X1 & X2 & _).
    destruct B' as [S1 S2]. unfold same_system, same_plane, same_dir in *. rewrite X1 in S1. rewrite X2 in S2.
    cbn [plane_idc dir_idc s].
    split; eapply up_to_sign_trans; [apply up_to_sign_sym; exact S1|auto|apply up_to_sign_sym; exact S2|auto].
Qed.

(** ** Findings and phase lookups *)
Lemma unreduced_family : forall conv ca s, known_conv conv -> 1 / 10 ^ 10 <= ca ->
  mk_slip_system conv [0; 0; 0; 2]%Z [1; 1; -2; 0]%Z "hexagonal" (Some ca) = Ok s ->
  exists fam, generate_family conv s = Ok fam /\ forall m, In m fam -> ~ same_system m s.
Proof.
  intros conv ca s Hc Hca H.
  destruct (hex_family conv ca 0 0 0 2 1 1 (-2) 0 s Hc Hca H eq_refl eq_refl) as (fam & E & _ & _ & _ & O & _).
  - intros x [<-|[<-|[<-|[<-|[]]]]]; lia.
  - intros x [<-|[<-|[<-|[<-|[]]]]]; lia.
  - exists fam. split; [auto|]. intros m Hm [S _]. destruct (O m Hm) as [C _].
    apply mk_nonzero in H as (P & _). unfold same_plane in S. rewrite P in S.
    assert (D : (2 | 1)%Z).
    { apply C. intros x Hx. destruct S as [S|S]; rewrite S in Hx; cbn [negated map In] in Hx;
      destruct Hx as [<-|[<-|[<-|[<-|[]]]]]; try apply Z.divide_0_r; try apply Z.divide_refl.
      apply Z.divide_opp_r, Z.divide_refl. }
    destruct D as [k Hk]; lia.
Qed.

Lemma transform_qone : forall v, transform_vector qone v = v.
Proof.
  intros [a b c]. rewrite transform_north by (unfold qone; cbn [qw]; lra).
  unfold rot_matrix, qone; munf. cbv beta iota zeta delta [qw qx qy qz]. f_equal; ring.
Qed.

Lemma bcc_schmid : forall conv, exists gs s l,
  load conv file_cubic_bcc "cubic" None = Ok (gs, ss_colours file_cubic_bcc) /\
  In s (concat gs) /\ unitv l /\ unitq qone /\ 1 / 2 < schmid_factor qone l s.
Proof.
  intros conv. destruct (cubic_file conv file_cubic_bcc) as (gs & E & _ & _ & _ & Row & _);
    [vm_compute; lia|vm_compute; auto|].
  destruct (Row [1; 2; 3; 1; 1; 1]%Z) as (s & Hs & M); [vm_compute; tauto|].
  exists gs, s, (slip_dir s). split; [auto|]. split; [auto|].
  destruct (mk_cubic_inv _ _ _ _ _ M) as (x & y & z & u & v & w & Ep & Ed & Np & Nd & Es).
  injection Ep as <- <- <-. injection Ed as <- <- <-.
  apply cubic_vectors in M as (_ & Ud & _). split; [exact Ud|].
  split; [unfold unitq, qone; cbn [qw qx qy qz]; lra|].
  unfold schmid_factor. rewrite transform_qone. change vdot with sprod. unfold unitv in Ud. rewrite Ud, Rmult_1_r.
  subst s. cbn [slip_plane slip_dir]. unfold unit_of, vZ, sprod, vscale; cbn [vx vy vz].
  assert (S3 : sqrt (1 * 1 + 1 * 1 + 1 * 1) < 1.75).
  { replace (1 * 1 + 1 * 1 + 1 * 1) with 3 by ring. apply sqrt3_lt. }
  assert (S14 : sqrt (1 * 1 + 2 * 2 + 3 * 3) < 3.75).
  { rewrite <- (sqrt_Rsqr 3.75) by lra. apply sqrt_lt_1; unfold Rsqr; lra. }
  assert (P3 : 0 < sqrt (1 * 1 + 1 * 1 + 1 * 1)) by (apply sqrt_lt_R0; lra).
  assert (P14 : 0 < sqrt (1 * 1 + 2 * 2 + 3 * 3)) by (apply sqrt_lt_R0; lra).
  revert S3 S14 P3 P14. generalize (sqrt (1 * 1 + 1 * 1 + 1 * 1)), (sqrt (1 * 1 + 2 * 2 + 3 * 3)).
  intros a b Ha Hb Pa Pb.
  replace (/ a * 1 * (/ b * 1) + / a * 1 * (/ b * 2) + / a * 1 * (/ b * 3)) with (6 / (a * b)) by (field; lra).
  assert (0 < a * b < 8) by nra.
  rewrite Rabs_right.
  - apply (Rmult_lt_reg_r (a * b)); [lra|]. unfold Rdiv at 2. rewrite Rmult_assoc, Rinv_l; lra.
  - left. apply Rmult_lt_0_compat; [lra|]. apply Rinv_0_lt_compat; lra.
Qed.

Lemma phase_structure : forall conv laue space a c p, mk_phase conv laue space a c = Ok p ->
  (laue = 9%Z /\ ph_structure p = "hexagonal") \/ (laue = 11%Z /\ ph_structure p = "cubic").
Proof.
  intros conv laue space a c p H. unfold mk_phase in H.
  destruct (Z.eqb_spec laue 9) as [->|]; [left|].
  - split; [auto|]. cbn [bind String.eqb Ascii.eqb Bool.eqb default_ss_file shipped] in H.
    destruct (Req_EM_T a 0); [discriminate H|]. cbn [bind] in H.
    destruct (load conv file_hexagonal_withca "hexagonal" (Some (c / a))); [|discriminate H].
    injection H as <-. reflexivity.
  - destruct (Z.eqb_spec laue 11) as [->|]; [right|discriminate H].
    split; [auto|]. cbn [bind String.eqb Ascii.eqb Bool.eqb] in H.
    destruct (Z.eqb_spec space 225) as [->|].
    + cbn [bind String.eqb Ascii.eqb Bool.eqb default_ss_file shipped] in H.
      destruct (load conv file_cubic_fcc "cubic" None); [|discriminate H]. injection H as <-. reflexivity.
    + destruct (Z.eqb_spec space 229) as [->|].
      * cbn [bind String.eqb Ascii.eqb Bool.eqb default_ss_file shipped] in H.
        destruct (load conv file_cubic_bcc "cubic" None); [|discriminate H]. injection H as <-. reflexivity.
      * injection H as <-. reflexivity.
Qed.

Lemma phase_file : forall conv laue space a c p, mk_phase conv laue space a c = Ok p ->
  ph_ss_file p =
    if (laue =? 9)%Z then Some "hexagonal_withca"
    else if (space =? 225)%Z then Some "cubic_fcc"
    else if (space =? 229)%Z then Some "cubic_bcc"
    else None.
Proof.
  intros conv laue space a c p H. unfold mk_phase in H.
  destruct (Z.eqb_spec laue 9) as [->|].
  - cbn [bind String.eqb Ascii.eqb Bool.eqb default_ss_file shipped] in H.
    destruct (Req_EM_T a 0); [discriminate H|]. cbn [bind] in H.
    destruct (load conv file_hexagonal_withca "hexagonal" (Some (c / a))); [|discriminate H].
    injection H as <-. reflexivity.
  - destruct (Z.eqb_spec laue 11) as [->|]; [|discriminate H].
    cbn [bind String.eqb Ascii.eqb Bool.eqb] in H.
    destruct (Z.eqb_spec space 225) as [->|].
    + cbn [bind String.eqb Ascii.eqb Bool.eqb default_ss_file shipped] in H.
      destruct (load conv file_cubic_fcc "cubic" None); [|discriminate H]. injection H as <-. reflexivity.
    + destruct (Z.eqb_spec space 229) as [->|].
      * cbn [bind String.eqb Ascii.eqb Bool.eqb default_ss_file shipped] in H.
        destruct (load conv file_cubic_bcc "cubic" None); [|discriminate H]. injection H as <-. reflexivity.
      * injection H as <-. reflexivity.
Qed.

Lemma phase_constructed : forall conv space a c,
  (exists p, mk_phase conv 11 space a c = Ok p /\
     (ph_slip_systems p = None <-> space <> 225%Z /\ space <> 229%Z)) /\
  (known_conv conv -> 0 < a -> a / 10 ^ 10 <= c ->
   exists p gs, mk_phase conv 9 space a c = Ok p /\ ph_slip_systems p = Some gs /\
     load conv file_hexagonal_withca "hexagonal" (Some (c / a)) =
       Ok (gs, ss_colours file_hexagonal_withca)).
Proof.
  intros conv space a c. split.
  - destruct (Z.eq_dec space 225) as [->|N].
    + destruct (phase_fcc conv a c) as (gs & _ & E). eexists; split; [exact E|].
      cbn [ph_slip_systems]. split; [discriminate|]. intros [H _]; congruence.
    + destruct (Z.eq_dec space 229) as [->|N'].
      * destruct (phase_bcc conv a c) as (gs & _ & E). eexists; split; [exact E|].
        cbn [ph_slip_systems]. split; [discriminate|]. intros [_ H]; congruence.
      * eexists; split; [apply phase_other_cubic; auto|]. cbn [ph_slip_systems]. tauto.
  - intros Hc Ha Hca. destruct (phase_hcp conv space a c Hc Ha Hca) as (gs & L & E).
    eexists; exists gs. split; [exact E|]. split; [reflexivity|exact L].
Qed.

(** ** Grouping by family *)
Section FamilyGroups.
Variable conv : string.
Definition led (gf : list slip_system * list slip_system) : Prop :=
  exists h t, fst gf = h :: t /\ generate_family conv h = Ok (snd gf) /\
    forall x, In x t -> exists y, In y (snd gf) /\ ss_eqb x y = true.
Definition apart (gs : list (list slip_system * list slip_system)) : Prop :=
  ForallOrdPairs (fun a b => forall x y, In x (fst b) -> In y (snd a) -> ss_eqb x y = false) gs.
Definition out (x : slip_system) (fam : list slip_system) : Prop :=
  forall y, In y fam -> ss_eqb x y = false.

Lemma existsb_out : forall x fam, existsb (fun y => ss_eqb x y) fam = false <-> out x fam.
Proof.
  intros x fam. split.
  - intros H y Hy. destruct (ss_eqb x y) eqn:E; auto.
    assert (existsb (fun y => ss_eqb x y) fam = true) by (apply existsb_exists; eauto). congruence.
  - intros H. destruct (existsb _ fam) eqn:E; auto. apply existsb_exists in E as (y & Hy & E).
    rewrite (H y Hy) in E. discriminate.
Qed.

Lemma add_to_family_spec : forall x gs, Forall led gs -> apart gs ->
  match add_to_family x gs with
  | Some gs' => Forall led gs' /\ apart gs' /\
      Permutation (concat (map fst gs')) (x :: concat (map fst gs)) /\
      (forall gf : list slip_system * list slip_system, (forall b, In b gs -> forall a y, In a (fst b) -> In y (snd gf) -> ss_eqb a y = false) ->
         out x (snd gf) ->
         forall b, In b gs' -> forall a y, In a (fst b) -> In y (snd gf) -> ss_eqb a y = false)
  | None => forall b, In b gs -> out x (snd b)
  end.
Proof.
  intros x gs HL HA. induction gs as [|[g fam] gs IH]; cbn [add_to_family]; [intros b []|].
  inversion HL as [|? ? L0 L1]; subst. inversion HA as [|? ? A0 A1]; subst.
  destruct (existsb (fun y => ss_eqb x y) fam) eqn:E.
  - split; [|split; [|split]].
    + constructor; auto. unfold led in L0; cbn [fst snd] in L0. destruct L0 as (h & t & -> & G & M). exists h, (t ++ [x])%list.
      split; [reflexivity|]. split; [auto|]. intros a Ha. apply in_app_iff in Ha as [Ha|[<-|[]]]; auto.
      apply existsb_exists in E; auto.
    + constructor; auto.
    + cbn [map fst concat]. rewrite <- app_assoc. cbn [app].
      symmetry. apply Permutation_middle.
    + intros gf H O b [<-|Hb] a y Ha Hy.
      * cbn [fst] in Ha. apply in_app_iff in Ha as [Ha|[<-|[]]]; auto. apply (H (g, fam)); cbn; auto.
      * apply (H b); cbn; auto.
  - specialize (IH L1 A1). apply existsb_out in E.
    destruct (add_to_family x gs) as [gs'|].
    + destruct IH as (I1 & I2 & I3 & I4).
      split; [|split; [|split]].
      * constructor; auto.
      * constructor; auto. apply Forall_forall. intros b Hb a y Ha Hy.
        apply (I4 (g, fam)) with (b := b); auto.
        intros b' Hb' a' y' Ha' Hy'. rewrite Forall_forall in A0. apply (A0 b'); auto.
      * cbn [map fst concat]. rewrite I3. symmetry. apply Permutation_middle.
      * intros gf H O b [<-|Hb] a y Ha Hy; [apply (H (g, fam)); cbn; auto|].
        apply (I4 gf) with (b := b); auto. intros b' Hb'. apply H. right; auto.
    + intros b [<-|Hb]; auto.
Qed.

Lemma family_loop : forall l gs0 gs, Forall led gs0 -> apart gs0 ->
  for_each (fun groups ss =>
             match add_to_family ss groups with
             | Some groups' => Ok groups'
             | None => do fam <- generate_family conv ss; Ok (groups ++ [([ss], fam)])
             end) l gs0 = Ok gs ->
  Forall led gs /\ apart gs /\ Permutation (concat (map fst gs)) (l ++ concat (map fst gs0)).
Proof.
  induction l as [|x l IH]; intros gs0 gs HL HA H; cbn [for_each] in H.
  - injection H as <-. auto.
  - pose proof (add_to_family_spec x gs0 HL HA) as S. destruct (add_to_family x gs0) as [gs1|].
    + destruct S as (S1 & S2 & S3 & _). cbn [bind] in H. destruct (IH _ _ S1 S2 H) as (A & B & C).
      split; [auto|]. split; [auto|]. rewrite C, S3. symmetry. cbn [app]. apply Permutation_middle.
    + destruct (generate_family conv x) as [fam|] eqn:G; [|discriminate H]. cbn [bind] in H.
      destruct (IH (gs0 ++ [([x], fam)])%list gs) as (A & B & C); auto.
      * apply Forall_app; split; auto. constructor; auto. exists x, []. split; [auto|]. split; [auto|intros ? []].
      * apply FOP_snoc; auto. intros a Ha y z [<-|[]] Hz. apply (S a Ha z Hz).
      * split; [auto|]. split; [auto|]. rewrite C, map_app, concat_app. cbn [map fst concat app].
        rewrite app_assoc. rewrite <- Permutation_cons_append. reflexivity.
Qed.
End FamilyGroups.

Lemma FOP_nth : forall A (P : A -> A -> Prop) l, ForallOrdPairs P l -> forall i j a b, (i < j)%nat ->
  nth_error l i = Some a -> nth_error l j = Some b -> P a b.
Proof.
  intros A P l H. induction H as [|x l F H IH]; intros i j a b L Hi Hj.
  - destruct i; discriminate Hi.
  - destruct j as [|j]; [lia|]. cbn [nth_error] in Hj. destruct i as [|i]; cbn [nth_error] in Hi.
    + injection Hi as <-. rewrite Forall_forall in F. apply F. eapply nth_error_In; eauto.
    + apply (IH i j a b); auto; lia.
Qed.

Lemma group_family_spec : forall conv l gs, group conv l "family" = Ok gs ->
  Permutation (concat gs) l /\
  exists fams, Forall2 (fun g fam => exists h t, g = h :: t /\ generate_family conv h = Ok fam /\
      (forall x, In x t -> exists y, In y fam /\ ss_eqb x y = true)) gs fams /\
    forall i j g fam, (i < j)%nat -> nth_error fams i = Some fam -> nth_error gs j = Some g ->
      forall x y, In x g -> In y fam -> ss_eqb x y = false.
Proof.
  intros conv l gs H. unfold group in H. change (String.eqb (lower "family") "plane") with false in H.
  change (String.eqb (lower "family") "family") with true in H. unfold group_by_family in H.
  destruct (for_each _ l []) as [gf|] eqn:E; [|discriminate H]. cbn [bind] in H. injection H as <-.
  destruct (family_loop conv l [] gf) as (A & B & C); auto; [constructor|].
  split; [rewrite C; cbn [map concat]; rewrite app_nil_r; reflexivity|].
  exists (map snd gf). split.
  - clear - A. induction A as [|[g fam] gf L A IH]; cbn [map fst snd]; constructor; auto.
  - intros i j g fam L Hi Hj x y Hx Hy.
    rewrite nth_error_map in Hi, Hj.
    destruct (nth_error gf i) as [a|] eqn:Ei; [|discriminate Hi]. injection Hi as <-.
    destruct (nth_error gf j) as [b|] eqn:Ej; [|discriminate Hj]. injection Hj as <-.
    pose proof (FOP_nth _ _ _ B i j a b L Ei Ej) as K. apply (K x y Hx Hy).
Qed.
