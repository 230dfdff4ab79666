(** Proofs about equivalent indices. *)
From Coq Require Import String Ascii Reals ZArith Bool Lra Lia.
From Coq Require Import List Permutation.
From Verif Require Import Py Base_Model Quat_Model Quat_Spec Quat_Proofs QuatSym_Proofs Crystal_Model Crystal_Spec Crystal_Proofs CrystalMat_Proofs SlipSys_Proofs
  CrystalFamily_Proofs Pole_Model Text_Model Eqv_Model Eqv_Spec.
Import ListNotations.
Open Scope Z_scope.

(** *** Turning a vector up *)
Definition up (l : list Z) : list Z := if last l 0 <? 0 then negated l else l.
Lemma last_negated l : last (negated l) 0 = - last l 0.
Proof.
  induction l as [|a l IH]; [reflexivity|]. destruct l as [|b l]; [reflexivity|]. exact IH.
Qed.
Lemma last_scaled g l : last (scaled g l) 0 = g * last l 0.
Proof.
  induction l as [|a l IH]; [cbn; lia|]. destruct l as [|b l]; [reflexivity|]. exact IH.
Qed.
Lemma up_last l : 0 <= last (up l) 0.
Proof. unfold up. destruct (Z.ltb_spec (last l 0) 0); [rewrite last_negated|]; lia. Qed.
Lemma up_scaled g l : 0 < g -> up (scaled g l) = scaled g (up l).
Proof.
  intros G. unfold up. rewrite last_scaled. replace (g * last l 0 <? 0) with (last l 0 <? 0).
  - destruct (last l 0 <? 0); [|reflexivity]. apply negated_scaled.
  - destruct (Z.ltb_spec (last l 0) 0), (Z.ltb_spec (g * last l 0) 0); auto; nia.
Qed.
Lemma north_vZ x y z : north (vZ x y z) = (let l := up [x; y; z] in vZ (nth 0 l 0) (nth 1 l 0) (nth 2 l 0)).
Proof.
  cbv zeta. unfold north, up. cbn [last vz vZ]. unfold vZ at 1. cbn [vz].
  destruct (Rlt_dec (IZR z) 0) as [L|L].
  - apply lt_IZR in L. replace (z <? 0) with true by (symmetry; apply Z.ltb_lt; auto). cbn [negated map nth].
    unfold vZ, vscale. cbn [vx vy vz]. rewrite !opp_IZR. f_equal; ring.
  - assert (0 <= z) by (apply le_IZR; lra). replace (z <? 0) with false by (symmetry; apply Z.ltb_ge; auto). reflexivity.
Qed.

(** *** Cubic *)
Definition zneg (m : zmat) : zmat := Z3 (- za m) (- zb m) (- zc m) (- zd m) (- ze m) (- zf m) (- zg m) (- zh m) (- zi m).
Definition zflip (m : zmat) : zmat := Z3 (za m) (zb m) (zc m) (zd m) (ze m) (zf m) (- zg m) (- zh m) (- zi m).
Definition cubic_ops : list zmat :=
  map (fun i => nth i cubic_tab (Z3 1 0 0 0 1 0 0 0 1)) [0; 3; 2; 1; 6; 5; 4; 9; 8; 7; 10; 11; 12; 13; 14; 15; 17; 16; 19; 18; 21; 20; 23; 22]%nat.
Lemma cubic_ops_ok : Forall2 (fun q T => rot_matrix q = ZM T) cubic_symmetries cubic_ops.
Proof.
  rewrite cubic_exact. pose proof (sqrt_sqrt 2 ltac:(lra)) as S2. set (S := sqrt 2) in *.
  unfold cubic_ops, cubic_tab, cubic_z. cbn [map nth].
  repeat (apply Forall2_cons; [zmunf; fold S; f_equal; f_equal; lra|]). apply Forall2_nil.
Qed.
Definition perm_mats : list zmat :=
  [Z3 1 0 0 0 1 0 0 0 1; Z3 1 0 0 0 0 1 0 1 0; Z3 0 1 0 1 0 0 0 0 1; Z3 0 1 0 0 0 1 1 0 0; Z3 0 0 1 1 0 0 0 1 0; Z3 0 0 1 0 1 0 1 0 0].
Definition signs : list Z := [1; -1].
Definition sign_rows (a b c : Z) (m : zmat) : zmat :=
  Z3 (a * za m) (a * zb m) (a * zc m) (b * zd m) (b * ze m) (b * zf m) (c * zg m) (c * zh m) (c * zi m).
Definition all_cubic : list zmat :=
  flat_map (fun m => flat_map (fun a => flat_map (fun b => map (fun c => sign_rows a b c m) signs) signs) signs) perm_mats.
Definition zmat_eqb (m n : zmat) : bool :=
  zlist_eqb [za m; zb m; zc m; zd m; ze m; zf m; zg m; zh m; zi m] [za n; zb n; zc n; zd n; ze n; zf n; zg n; zh n; zi n].
Lemma zmat_eqb_eq m n : zmat_eqb m n = true -> m = n.
Proof. unfold zmat_eqb. intros E. apply zlist_eqb_eq in E. destruct m, n. cbn in E. congruence. Qed.
Definition zmem (m : zmat) (l : list zmat) : bool := existsb (zmat_eqb m) l.
Lemma zmem_in m l : zmem m l = true -> In m l.
Proof. intros E. apply existsb_exists in E as (n & I & E). apply zmat_eqb_eq in E. now subst. Qed.
Lemma cubic_cover M : In M all_cubic -> In M cubic_ops \/ In (zneg M) cubic_ops /\ In (zflip M) cubic_ops.
Proof.
  assert (A : forallb (fun M => zmem M cubic_ops || (zmem (zneg M) cubic_ops && zmem (zflip M) cubic_ops)) all_cubic = true)
    by (vm_compute; reflexivity).
  intros I. rewrite forallb_forall in A. specialize (A M I). apply orb_true_iff in A as [A|A]; [left; now apply zmem_in|].
  apply andb_true_iff in A as [A B]. right. split; now apply zmem_in.
Qed.
Lemma cubic_ops_all M : In M cubic_ops -> In M all_cubic.
Proof.
  assert (A : forallb (fun M => zmem M all_cubic) cubic_ops = true) by (vm_compute; reflexivity).
  intros I. rewrite forallb_forall in A. apply zmem_in. auto.
Qed.
Lemma abs_cases a b : Z.abs a = Z.abs b -> exists s, In s signs /\ a = s * b.
Proof. intros E. destruct (Z.eq_dec a b); [exists 1|exists (-1)]; (split; [cbn; auto|lia]). Qed.
Lemma signed_mats x y z m : List.length m = 3%nat -> Permutation (map Z.abs m) (map Z.abs [x; y; z]) ->
  exists M, In M all_cubic /\ m = zap M x y z.
Proof.
  intros L P. destruct m as [|a [|b [|c [|]]]]; try discriminate L. cbn [map] in P. symmetry in P.
  assert (K : exists n u v w, In n perm_mats /\ zap n x y z = [u; v; w] /\ Z.abs a = Z.abs u /\ Z.abs b = Z.abs v /\ Z.abs c = Z.abs w).
  { assert (C : exists p, In p [[x; y; z]; [x; z; y]; [y; x; z]; [y; z; x]; [z; x; y]; [z; y; x]] /\
      [Z.abs a; Z.abs b; Z.abs c] = map Z.abs p).
    { clear L. revert P. generalize (Z.abs a) (Z.abs b) (Z.abs c). intros a' b' c' P.
      assert (I : In a' [Z.abs x; Z.abs y; Z.abs z]) by (apply (Permutation_in a' (Permutation_sym P)); cbn; auto).
      destruct I as [<-|[<-|[<-|[]]]].
      - apply Permutation_cons_inv in P. apply Permutation_length_2_inv in P as [E|E]; injection E as -> ->;
          [exists [x; y; z]|exists [x; z; y]]; (split; [cbn; auto 8|reflexivity]).
      - assert (P' : Permutation [Z.abs y; Z.abs x; Z.abs z] [Z.abs y; b'; c']) by (rewrite <- P; constructor).
        apply Permutation_cons_inv in P'. apply Permutation_length_2_inv in P' as [E|E]; injection E as -> ->;
          [exists [y; x; z]|exists [y; z; x]]; (split; [cbn; auto 8|reflexivity]).
      - assert (P' : Permutation [Z.abs z; Z.abs x; Z.abs y] [Z.abs z; b'; c']).
        { rewrite <- P. apply (Permutation_app_comm [Z.abs z] [Z.abs x; Z.abs y]). }
        apply Permutation_cons_inv in P'. apply Permutation_length_2_inv in P' as [E|E]; injection E as -> ->;
          [exists [z; x; y]|exists [z; y; x]]; (split; [cbn; auto 8|reflexivity]). }
    destruct C as (p & I & E). cbn [In] in I.
    destruct I as [<-|[<-|[<-|[<-|[<-|[<-|[]]]]]]]; cbn [map] in E; injection E as Ea Eb Ec.
    - exists (Z3 1 0 0 0 1 0 0 0 1), x, y, z. split; [cbn; auto 8|]. split; [unfold zap; cbn [za zb zc zd ze zf zg zh zi]; repeat (f_equal; try lia)|auto].
    - exists (Z3 1 0 0 0 0 1 0 1 0), x, z, y. split; [cbn; auto 8|]. split; [unfold zap; cbn [za zb zc zd ze zf zg zh zi]; repeat (f_equal; try lia)|auto].
    - exists (Z3 0 1 0 1 0 0 0 0 1), y, x, z. split; [cbn; auto 8|]. split; [unfold zap; cbn [za zb zc zd ze zf zg zh zi]; repeat (f_equal; try lia)|auto].
    - exists (Z3 0 1 0 0 0 1 1 0 0), y, z, x. split; [cbn; auto 8|]. split; [unfold zap; cbn [za zb zc zd ze zf zg zh zi]; repeat (f_equal; try lia)|auto].
    - exists (Z3 0 0 1 1 0 0 0 1 0), z, x, y. split; [cbn; auto 8|]. split; [unfold zap; cbn [za zb zc zd ze zf zg zh zi]; repeat (f_equal; try lia)|auto].
    - exists (Z3 0 0 1 0 1 0 1 0 0), z, y, x. split; [cbn; auto 8|]. split; [unfold zap; cbn [za zb zc zd ze zf zg zh zi]; repeat (f_equal; try lia)|auto]. }
  destruct K as (n & u & v & w & I & Z & Ea & Eb & Ec).
  apply abs_cases in Ea as (s1 & I1 & ->). apply abs_cases in Eb as (s2 & I2 & ->). apply abs_cases in Ec as (s3 & I3 & ->).
  exists (sign_rows s1 s2 s3 n). split.
  - unfold all_cubic. apply in_flat_map. exists n. split; auto. apply in_flat_map. exists s1. split; auto.
    apply in_flat_map. exists s2. split; auto. exact (in_map (fun c => sign_rows s1 s2 c n) signs s3 I3).
  - unfold zap in *. injection Z as <- <- <-. unfold sign_rows. cbn [za zb zc zd ze zf zg zh zi]. repeat (f_equal; try ring).
Qed.
Lemma all_cubic_signed x y z M : In M all_cubic -> Permutation (map Z.abs (zap M x y z)) (map Z.abs [x; y; z]).
Proof.
  intros I. unfold all_cubic in I. apply in_flat_map in I as (n & In & I). apply in_flat_map in I as (a & Ia & I).
  apply in_flat_map in I as (b & Ib & I). apply in_map_iff in I as (c & <- & Ic).
  assert (E : map Z.abs (zap (sign_rows a b c n) x y z) = map Z.abs (zap n x y z)).
  { assert (A : forall s r : Z, List.In s signs -> Z.abs (s * r) = Z.abs r) by (intros s r [<-|[<-|[]]]; lia).
    unfold zap, sign_rows. cbn [za zb zc zd ze zf zg zh zi map].
    rewrite <- (A a (za n * x + zb n * y + zc n * z)), <- (A b (zd n * x + ze n * y + zf n * z)),
      <- (A c (zg n * x + zh n * y + zi n * z)) by auto. repeat (f_equal; try ring). }
  rewrite E. clear E. cbn [List.In perm_mats] in In.
  assert (F : forall a b c a' b' c', a = a' -> b = b' -> c = c' -> [a; b; c] = [a'; b'; c'] :> list Z) by (intros; congruence).
  destruct In as [<-|[<-|[<-|[<-|[<-|[<-|[]]]]]]]; unfold zap; cbn [za zb zc zd ze zf zg zh zi map].
  - erewrite (F _ _ _ (Z.abs x) (Z.abs y) (Z.abs z)) by (f_equal; lia). reflexivity.
  - erewrite (F _ _ _ (Z.abs x) (Z.abs z) (Z.abs y)) by (f_equal; lia). apply perm_skip, perm_swap.
  - erewrite (F _ _ _ (Z.abs y) (Z.abs x) (Z.abs z)) by (f_equal; lia). apply perm_swap.
  - erewrite (F _ _ _ (Z.abs y) (Z.abs z) (Z.abs x)) by (f_equal; lia). apply (Permutation_app_comm [Z.abs y; Z.abs z] [Z.abs x]).
  - erewrite (F _ _ _ (Z.abs z) (Z.abs x) (Z.abs y)) by (f_equal; lia). apply (Permutation_app_comm [Z.abs z] [Z.abs x; Z.abs y]).
  - erewrite (F _ _ _ (Z.abs z) (Z.abs y) (Z.abs x)) by (f_equal; lia).
    rewrite perm_swap. rewrite (perm_skip (Z.abs y) (perm_swap (Z.abs x) (Z.abs z) [])). apply perm_swap.
Qed.
Lemma abs_negated l : map Z.abs (negated l) = map Z.abs l.
Proof. unfold negated. rewrite map_map. apply map_ext. intros. lia. Qed.
Lemma cubic_set x y z m : In m (map (fun T => up (zap T x y z)) cubic_ops) <-> cubic_equivalent [x; y; z] m.
Proof.
  rewrite in_map_iff. split.
  - intros (T & <- & I). split; [|split].
    + unfold up. destruct (_ <? 0); reflexivity.
    + pose proof (all_cubic_signed x y z T (cubic_ops_all T I)) as P. unfold up. destruct (_ <? 0); [rewrite abs_negated|]; exact P.
    + apply up_last.
  - intros (L & P & N). destruct (signed_mats x y z m L P) as (M & I & ->).
    assert (E : forall l, 0 <= last l 0 -> up l = l) by (intros l H; unfold up; destruct (Z.ltb_spec (last l 0) 0); [lia|auto]).
    destruct (cubic_cover M I) as [C|[C D]]; [exists M; split; auto|].
    destruct (Z.eq_dec (last (zap M x y z) 0) 0) as [Z0|NZ].
    + exists (zflip M). split; auto. assert (Q : zap (zflip M) x y z = zap M x y z).
      { unfold zap in *. cbn [last] in Z0. cbn [zflip za zb zc zd ze zf zg zh zi]. repeat (f_equal; try lia). }
      rewrite Q. auto.
    + exists (zneg M). split; auto. assert (Q : zap (zneg M) x y z = negated (zap M x y z)).
      { unfold zap, negated. cbn [map zneg za zb zc zd ze zf zg zh zi]. repeat (f_equal; try ring). }
      rewrite Q. unfold up. rewrite last_negated. replace (- last (zap M x y z) 0 <? 0) with true by (symmetry; apply Z.ltb_lt; lia).
      apply negated_negated.
Qed.
Lemma map_res_table {A B C} (f : A -> res C) (g : B -> C) (P : A -> B -> Prop) syms ops :
  Forall2 P syms ops -> (forall s o, In s syms -> In o ops -> P s o -> f s = Ok (g o)) -> map_res f syms = Ok (map g ops).
Proof.
  induction 1 as [|s o ss os H F IH]; intros K; [reflexivity|]. cbn [map_res map]. rewrite (K s o) by (cbn; auto). cbn [bind].
  rewrite IH by (intros; apply K; cbn; auto). reflexivity.
Qed.
Lemma up_in m l : In m (up l) -> In m l \/ In (- m) l.
Proof.
  unfold up. destruct (_ <? 0); auto. unfold negated. rewrite in_map_iff. intros (x & <- & I). right. now rewrite Z.opp_involutive.
Qed.
Lemma cubic_step T x y z q : In q cubic_symmetries -> In T cubic_ops -> rot_matrix q = ZM T -> within 127 [x; y; z] ->
  safe_int_cast (FltArr (list_of (north (transform_vector q (vZ x y z))))) = Ok (up (zap T x y z)).
Proof.
  intros Iq IT E W. rewrite transform_north by (apply (sym_north "cubic"); exact Iq). rewrite E, zap_scale.
  rewrite north_vZ. cbv zeta. set (l := up _).
  replace (list_of (vZ (nth 0 l 0) (nth 1 l 0) (nth 2 l 0))) with (map IZR l)
    by (unfold l, up; destruct (_ <? 0); reflexivity).
  rewrite safe_cast_ints. f_equal. apply (map_int8_small l 127); [lia|]. intros a Ia. apply up_in in Ia.
  assert (B : forall a, In a (zap T x y z) -> - (127) <= a <= 127).
  { apply (cubic_zap_bound T 127 x y z); try (apply W; cbn; auto). unfold cubic_ops in IT. apply in_map_iff in IT as (i & <- & Ii).
    apply nth_In. cbn [In] in Ii. cbn [List.length cubic_tab]. lia. }
  destruct Ia as [Ia|Ia]; apply B in Ia; lia.
Qed.
Lemma cubic_equivalents conv x y z ca : within 127 [x; y; z] ->
  equivalents conv "cubic" (sym_eqv "cubic") (Some (IntArr [x; y; z])) None ca None = Ok (map (fun T => up (zap T x y z)) cubic_ops) /\
  equivalents conv "cubic" (sym_eqv "cubic") None (Some (IntArr [x; y; z])) ca None = Ok (map (fun T => up (zap T x y z)) cubic_ops).
Proof.
  intros W. unfold equivalents. cbv zeta. change (String.eqb "cubic" "hexagonal") with false. cbv iota.
  change (String.eqb "m" "mb") with false. change (String.eqb "m" "m") with true. cbv iota.
  cbn [bind arr_R map vec_of]. change (sym_eqv "cubic") with cubic_symmetries.
  split; apply (map_res_table _ _ (fun q T => rot_matrix q = ZM T)); try apply cubic_ops_ok; intros s o Is Io E;
    unfold equivalent_dir, equivalent_plane; cbv zeta iota; cbn [bind]; now apply cubic_step.
Qed.

(** *** Hexagonal *)
Record hop := Hop { h_perm : nat; h_neg : bool; h_last : bool }.
Definition perm3 (n : nat) (a b c : Z) : list Z :=
  match n with
  | 0%nat => [a; b; c] | 1%nat => [a; c; b] | 2%nat => [b; a; c] | 3%nat => [b; c; a] | 4%nat => [c; a; b] | _ => [c; b; a]
  end.
Definition sgn (b : bool) (x : Z) : Z := if b then - x else x.
Definition hap (o : hop) (h k i l : Z) : list Z := map (sgn (h_neg o)) (perm3 (h_perm o) h k i) ++ [sgn (h_last o) l].
Definition hkl_ops : list hop :=
  [Hop 0 false false; Hop 5 true true; Hop 5 false true; Hop 0 true false; Hop 3 true false; Hop 4 false false; Hop 3 false false; Hop 4 true false; Hop 1 true true; Hop 2 true true; Hop 1 false true; Hop 2 false true].
Definition tsl_ops : list hop :=
  [Hop 0 false false; Hop 1 false true; Hop 1 true true; Hop 0 true false; Hop 3 true false; Hop 4 false false; Hop 3 false false; Hop 4 true false; Hop 2 false true; Hop 5 false true; Hop 2 true true; Hop 5 true true].
Definition reorder (l : list zmat) : list zmat :=
  map (fun i => nth i l (Z3 1 0 0 0 1 0 0 0 1)) [0; 1; 2; 3; 7; 6; 5; 4; 8; 9; 10; 11]%nat.
Local Ltac table3 := intros ca; rewrite hex_exact; pose proof (sqrt_sqrt 3 ltac:(lra)) as S2;
  set (S := sqrt 3) in *; assert (S3 : (S * S * S = 3 * S)%R) by (rewrite S2; ring);
  assert (S2c : (S * S * ca = 3 * ca)%R) by (rewrite S2; ring);
  unfold reorder, hkl_plane_tab, tsl_plane_tab, hkl_dir_tab, tsl_dir_tab, hex_z; cbn [map nth];
  repeat (apply Forall2_cons; [zmunf; fold S; f_equal; f_equal; lra|]); apply Forall2_nil.
Lemma hkl_plane_ok' : forall ca, Forall2 (fun q T =>
   mprod (transpose (hexL_hkl ca)) (rot_matrix q) = mprod (ZM T) (transpose (hexL_hkl ca))) hexagonal_symmetries (reorder hkl_plane_tab).
Proof. table3. Qed.
Lemma hkl_dir_ok' : forall ca, Forall2 (fun q T =>
   mprod (rot_matrix q) (hexL_hkl ca) = mprod (hexL_hkl ca) (ZM T)) hexagonal_symmetries (reorder hkl_dir_tab).
Proof. table3. Qed.
Lemma tsl_plane_ok' : forall ca, Forall2 (fun q T =>
   mprod (transpose (hexL_tsl ca)) (rot_matrix q) = mprod (ZM T) (transpose (hexL_tsl ca))) hexagonal_symmetries (reorder tsl_plane_tab).
Proof. table3. Qed.
Lemma tsl_dir_ok' : forall ca, Forall2 (fun q T =>
   mprod (rot_matrix q) (hexL_tsl ca) = mprod (hexL_tsl ca) (ZM T)) hexagonal_symmetries (reorder tsl_dir_tab).
Proof. table3. Qed.

(** An operator on four indices and a matrix on three say the same. *)
Definition plane_op (T : zmat) (o : hop) : Prop := forall h k i l, h + k + i = 0 ->
  exists h' k' i' l', hap o h k i l = [h'; k'; i'; l'] /\ zap T h k l = [h'; k'; l'] /\ h' + k' + i' = 0.
Definition dir_op (T : zmat) (o : hop) : Prop := forall u v t w, u + v + t = 0 ->
  exists u' v' t' w', hap o u v t w = [u'; v'; t'; w'] /\ zap T (u - t) (v - t) w = [u' - t'; v' - t'; w'] /\ u' + v' + t' = 0.
Local Ltac ops := unfold reorder, hkl_plane_tab, tsl_plane_tab, hkl_dir_tab, tsl_dir_tab, hkl_ops, tsl_ops; cbn [map nth];
  repeat (apply Forall2_cons; [intros h k i l H; unfold hap; cbn [h_perm h_neg h_last perm3 map app sgn]; do 4 eexists;
    split; [reflexivity|]; split; [unfold zap; cbn [za zb zc zd ze zf zg zh zi]; repeat (f_equal; try lia)|lia]|]); apply Forall2_nil.
Lemma hkl_plane_ops : Forall2 plane_op (reorder hkl_plane_tab) hkl_ops.
Proof. ops. Qed.
Lemma tsl_plane_ops : Forall2 plane_op (reorder tsl_plane_tab) tsl_ops.
Proof. ops. Qed.
Lemma hkl_dir_ops : Forall2 dir_op (reorder hkl_dir_tab) hkl_ops.
Proof. ops. Qed.
Lemma tsl_dir_ops : Forall2 dir_op (reorder tsl_dir_tab) tsl_ops.
Proof. ops. Qed.
Lemma Forall2_comp {A B C} (P : A -> B -> Prop) (Q : B -> C -> Prop) l m n : Forall2 P l m -> Forall2 Q m n ->
  Forall2 (fun a c => exists b, P a b /\ Q b c) l n.
Proof.
  intros H. revert n. induction H as [|a b l m Hab F IH]; intros n G; inversion G; subst; constructor; eauto.
Qed.
Lemma hex_ops ca conv : known_conv conv -> (1 / 10 ^ 10 <= ca)%R -> exists l q ops,
  hex_matrices ca conv = Ok (l, q) /\ mprod (transpose q) l = mone /\ mprod l (transpose q) = mone /\
  (l = hexL_hkl ca \/ l = hexL_tsl ca) /\ (ops = hkl_ops \/ ops = tsl_ops) /\
  Forall2 (fun s o => exists T, mprod (transpose l) (rot_matrix s) = mprod (ZM T) (transpose l) /\ plane_op T o) hexagonal_symmetries ops /\
  Forall2 (fun s o => exists T, mprod (rot_matrix s) l = mprod l (ZM T) /\ dir_op T o) hexagonal_symmetries ops.
Proof.
  intros Hc Hca. destruct (hex_matrices_spec ca conv Hc Hca) as (l & q & HM & Hl & HD & HD').
  destruct Hl as [->| ->].
  - exists (hexL_hkl ca), q, hkl_ops. do 5 (split; [auto|]). split.
    + exact (Forall2_comp _ _ _ _ _ (hkl_plane_ok' ca) hkl_plane_ops).
    + exact (Forall2_comp _ _ _ _ _ (hkl_dir_ok' ca) hkl_dir_ops).
  - exists (hexL_tsl ca), q, tsl_ops. do 5 (split; [auto|]). split.
    + exact (Forall2_comp _ _ _ _ _ (tsl_plane_ok' ca) tsl_plane_ops).
    + exact (Forall2_comp _ _ _ _ _ (tsl_dir_ok' ca) tsl_dir_ops).
Qed.
Lemma north_up M w x y z : matmul M w = vZ x y z -> ((vz w < 0)%R <-> z < 0) -> list_of (matmul M (north w)) = map IZR (up [x; y; z]).
Proof.
  intros E Z. unfold north, up. cbn [last]. destruct (Rlt_dec (vz w) 0) as [L|L].
  - apply Z in L. replace (z <? 0) with true by (symmetry; apply Z.ltb_lt; auto).
    assert (X : matmul M (vscale (-1) w) = vscale (-1) (matmul M w)) by (change matmul with mapply; apply mapply_scale).
    rewrite X, E. unfold vZ, vscale, list_of, negated. cbn [vx vy vz map]. rewrite !opp_IZR. repeat (f_equal; try ring).
  - assert (~ z < 0) by tauto. replace (z <? 0) with false by (symmetry; apply Z.ltb_ge; lia). rewrite E. reflexivity.
Qed.
Lemma hexL_z ca l w : (l = hexL_hkl ca \/ l = hexL_tsl ca) -> vz (matmul (mT l) w) = (ca * vz w)%R /\ vz (matmul l w) = (ca * vz w)%R.
Proof.
  intros [->| ->]; unfold hexL_hkl, hexL_tsl; change matmul with mapply; change mT with transpose; destruct w as [x y z];
    unfold mapply, transpose, col0, col1, col2, sprod; cbn [r0 r1 r2 vx vy vz]; split; ring.
Qed.
Lemma hap_scaled o g h k i l : hap o (g * h) (g * k) (g * i) (g * l) = scaled g (hap o h k i l).
Proof.
  unfold hap. destruct o as [p a b]. cbn [h_perm h_neg h_last]. destruct p as [|[|[|[|[|p]]]]], a, b;
    cbn [perm3 map app sgn scaled]; repeat (f_equal; try ring).
Qed.
Lemma hap_in o h k i l x : In x (hap o h k i l) -> In x [h; k; i; l] \/ In (- x) [h; k; i; l].
Proof.
  unfold hap. destruct o as [p a b]. cbn [h_perm h_neg h_last]. destruct p as [|[|[|[|[|p]]]]], a, b; cbn [perm3 map app sgn In]; lia.
Qed.
Lemma hap_has o h k i l x : In x [h; k; i; l] -> In x (hap o h k i l) \/ In (- x) (hap o h k i l).
Proof.
  unfold hap. destruct o as [p a b]. cbn [h_perm h_neg h_last]. destruct p as [|[|[|[|[|p]]]]], a, b; cbn [perm3 map app sgn In]; lia.
Qed.
Lemma coprime_up l : coprime l -> coprime (up l).
Proof. intros H. unfold up. destruct (_ <? 0); auto. now apply coprime_negated. Qed.
Lemma coprime_hap o h k i l : coprime [h; k; i; l] -> coprime (hap o h k i l).
Proof.
  intros C d D. apply C. intros x I. destruct (hap_has o h k i l x I) as [J|J]; [auto|]. apply D in J. exact (proj1 (Z.divide_opp_r d x) J).
Qed.
Lemma within_up b l : within b l -> within b (up l).
Proof. intros W x I. apply up_in in I as [I|I]; apply W in I; lia. Qed.
Lemma within_hap b o h k i l : within b [h; k; i; l] -> within b (hap o h k i l).
Proof. intros W x I. apply hap_in in I as [I|I]; apply W in I; lia. Qed.

Section Hex.
Variables (ca : R) (l q : mat3).
Hypothesis Pca : (0 < ca)%R.
Hypothesis Hl : l = hexL_hkl ca \/ l = hexL_tsl ca.
Hypothesis HD : mprod (transpose q) l = mone.
Hypothesis HD' : mprod l (transpose q) = mone.
Lemma sign_z x z : (ca * x)%R = IZR z -> ((x < 0)%R <-> z < 0).
Proof.
  intros E. split; intros H.
  - apply lt_IZR. rewrite <- E. nra.
  - apply IZR_lt in H. rewrite <- E in H. nra.
Qed.
Lemma plane_step s T o h k i m g r0 r1 r2 r3 : In s hexagonal_symmetries ->
  mprod (transpose l) (rot_matrix s) = mprod (ZM T) (transpose l) -> plane_op T o ->
  h + k + i = 0 -> within 42 [h; k; i; m] ->
  0 < g -> [h; k; i; m] = scaled g [r0; r1; r2; r3] -> coprime [r0; r1; r2; r3] ->
  equivalent_plane true (l, q) (matmul q (vZ h k m)) s = Ok (up (hap o r0 r1 r2 r3)).
Proof.
  intros Is ET OT Z0 W G E C.
  assert (LQ : mprod (transpose l) q = mone) by (rewrite <- (transpose_transpose q), <- transpose_mprod, HD; reflexivity).
  destruct (OT h k i m Z0) as (h' & k' & i' & m' & EH & EZ & Z').
  assert (W' : within 42 [h'; k'; i'; m']) by (rewrite <- EH; now apply within_hap).
  unfold equivalent_plane. cbv zeta iota. cbn [fst snd].
  rewrite transform_north by (apply (sym_north "hexagonal"); exact Is).
  set (w := mapply (rot_matrix s) (matmul q (vZ h k m))).
  assert (P1 : matmul (mT l) w = vZ h' k' m').
  { unfold w. change matmul with mapply; change mT with transpose; rewrite <- (mapply_mprod (transpose l) (rot_matrix _)), ET, mapply_mprod.
    rewrite <- (mapply_mprod (transpose l)), LQ, mapply_one, zap_scale. unfold zap in EZ. injection EZ as -> -> ->. auto. }
  rewrite (north_up _ _ h' k' m' P1).
  2:{ apply sign_z. rewrite <- (proj1 (hexL_z ca l w Hl)), P1. reflexivity. }
  rewrite safe_cast_ints.
  assert (W3 : within 42 (up [h'; k'; m'])) by (apply within_up; intros x I; apply W'; clear - I; cbn [In] in *; tauto).
  rewrite (map_int8_small (up [h'; k'; m']) 42) by (auto; lia). cbn [bind].
  assert (CV : convert_idc "m" None (Some (IntArr (up [h'; k'; m']))) = Ok (IntArr (up [h'; k'; i'; m']))).
  { unfold up. cbn [last]. destruct (m' <? 0); unfold negated; cbn [map].
    - change (convert_idc "m" None (Some (IntArr [- h'; - k'; - m']))) with (@Ok arr (IntArr [- h'; - k'; (- h' + - k') * -1; - m'])).
      repeat (f_equal; try lia).
    - change (convert_idc "m" None (Some (IntArr [h'; k'; m']))) with (@Ok arr (IntArr [h'; k'; (h' + k') * -1; m'])).
      repeat (f_equal; try lia). }
  rewrite CV. cbn [bind]. cbn [scaled map] in E. injection E as Eh Ek Ei Em.
  rewrite <- EH, Eh, Ek, Ei, Em, hap_scaled, up_scaled by auto.
  assert (WR : within 42 [r0; r1; r2; r3]).
  { apply (within_scaled 42 g); auto. unfold scaled. cbn [map]. rewrite <- Eh, <- Ek, <- Ei, <- Em. auto. }
  assert (FR : fits8 (up (hap o r0 r1 r2 r3))) by (apply (within_fits8 42); [lia|]; now apply within_up, within_hap).
  rewrite reduce_scaled; [|auto|now apply coprime_up, coprime_hap|auto]. cbn [bind safe_int_cast]. now rewrite map_int8_id.
Qed.
Lemma dir_step s T o u v t w0 g r0 r1 r2 r3 : In s hexagonal_symmetries ->
  mprod (rot_matrix s) l = mprod l (ZM T) -> dir_op T o ->
  u + v + t = 0 -> within 42 [u; v; t; w0] ->
  0 < g -> [u; v; t; w0] = scaled g [r0; r1; r2; r3] -> coprime [r0; r1; r2; r3] ->
  equivalent_dir true (l, q) (matmul l (vZ (u - t) (v - t) w0)) s = Ok (up (hap o r0 r1 r2 r3)).
Proof.
  intros Is ET OT Z0 W G E C.
  destruct (OT u v t w0 Z0) as (u' & v' & t' & w' & EH & EZ & Z').
  assert (W' : within 42 [u'; v'; t'; w']) by (rewrite <- EH; now apply within_hap).
  unfold equivalent_dir. cbv zeta iota. cbn [fst snd].
  rewrite transform_north by (apply (sym_north "hexagonal"); exact Is).
  set (w := mapply (rot_matrix s) (matmul l (vZ (u - t) (v - t) w0))).
  assert (P1 : matmul (mT q) w = vZ (u' - t') (v' - t') w').
  { unfold w. change matmul with mapply; change mT with transpose; rewrite <- (mapply_mprod (rot_matrix _)), ET, mapply_mprod.
    rewrite <- (mapply_mprod (transpose q)), HD, mapply_one, zap_scale. unfold zap in EZ. injection EZ as -> -> ->. auto. }
  assert (P2 : w = matmul l (vZ (u' - t') (v' - t') w')).
  { rewrite <- P1; change matmul with mapply; change mT with transpose; rewrite <- (mapply_mprod l (transpose q)), HD', mapply_one. auto. }
  rewrite (north_up _ _ _ _ w' P1).
  2:{ rewrite P2, (proj2 (hexL_z ca l _ Hl)). unfold vZ. cbn [vz]. split; intros H; [apply lt_IZR; nra|apply IZR_lt in H; nra]. }
  rewrite safe_cast_ints.
  assert (B : forall x, In x [u'; v'; t'; w'] -> - (42) <= x <= 42) by exact W'.
  assert (W3 : within 84 (up [u' - t'; v' - t'; w'])).
  { apply within_up. pose proof (B u' ltac:(cbn; auto)). pose proof (B v' ltac:(cbn; auto)). pose proof (B t' ltac:(cbn; auto)).
    pose proof (B w' ltac:(cbn; auto 6)). intros x [<-|[<-|[<-|[]]]]; lia. }
  rewrite (map_int8_small (up [u' - t'; v' - t'; w']) 84) by (auto; lia). cbn [bind].
  assert (CV : convert_idc "m" (Some (IntArr (up [u' - t'; v' - t'; w']))) None = Ok (IntArr (up [u'; v'; t'; w']))).
  { assert (W7 : within 127 (up [u'; v'; t'; w'])) by (apply within_up; intros x I; apply W' in I; lia).
    unfold up in *. cbn [last] in *. destruct (w' <? 0); unfold negated in *; cbn [map] in *.
    - replace (- (u' - t')) with (- u' - - t') by lia. replace (- (v' - t')) with (- v' - - t') by lia.
      apply convert_m_dir_exact; [lia|exact W7].
    - apply convert_m_dir_exact; [lia|exact W7]. }
  rewrite CV. cbn [bind]. cbn [scaled map] in E. injection E as Eh Ek Ei Em.
  rewrite <- EH, Eh, Ek, Ei, Em, hap_scaled, up_scaled by auto.
  assert (WR : within 42 [r0; r1; r2; r3]).
  { apply (within_scaled 42 g); auto. unfold scaled. cbn [map]. rewrite <- Eh, <- Ek, <- Ei, <- Em. auto. }
  assert (FR : fits8 (up (hap o r0 r1 r2 r3))) by (apply (within_fits8 42); [lia|]; now apply within_up, within_hap).
  rewrite reduce_scaled; [|auto|now apply coprime_up, coprime_hap|auto]. cbn [bind safe_int_cast]. now rewrite map_int8_id.
Qed.
End Hex.

(** *** All of them *)
Definition all_hops : list hop :=
  flat_map (fun p => flat_map (fun a => map (fun b => Hop p a b) [false; true]) [false; true]) [0; 1; 2; 3; 4; 5]%nat.
Definition hop_eqb (a b : hop) : bool := (h_perm a =? h_perm b)%nat && Bool.eqb (h_neg a) (h_neg b) && Bool.eqb (h_last a) (h_last b).
Definition hmem (o : hop) (l : list hop) : bool := existsb (hop_eqb o) l.
Lemma hmem_in o l : hmem o l = true -> In o l.
Proof.
  intros E. apply existsb_exists in E as (n & I & E). unfold hop_eqb in E. apply andb_true_iff in E as [E E3]. apply andb_true_iff in E as [E1 E2].
  apply Nat.eqb_eq in E1. apply eqb_prop in E2, E3. destruct o, n. cbn in *. now subst.
Qed.
Definition hneg (o : hop) : hop := Hop (h_perm o) (negb (h_neg o)) (negb (h_last o)).
Definition hflip (o : hop) : hop := Hop (h_perm o) (h_neg o) (negb (h_last o)).
Lemma hex_cover ops o : ops = hkl_ops \/ ops = tsl_ops -> In o all_hops -> In o ops \/ In (hneg o) ops /\ In (hflip o) ops.
Proof.
  assert (A : forall ops, ops = hkl_ops \/ ops = tsl_ops -> forallb (fun o => hmem o ops || (hmem (hneg o) ops && hmem (hflip o) ops)) all_hops = true)
    by (intros l [->| ->]; vm_compute; reflexivity).
  intros O I. specialize (A ops O). rewrite forallb_forall in A. specialize (A o I). apply orb_true_iff in A as [A|A]; [left; now apply hmem_in|].
  apply andb_true_iff in A as [A B]. right. split; now apply hmem_in.
Qed.
Lemma perm3_cases (a b c h k i : Z) : Permutation [a; b; c] [h; k; i] -> exists p, In p [0; 1; 2; 3; 4; 5]%nat /\ [a; b; c] = perm3 p h k i.
Proof.
  intros P. symmetry in P. assert (I : In a [h; k; i]) by (apply (Permutation_in a (Permutation_sym P)); cbn; auto).
  destruct I as [<-|[<-|[<-|[]]]].
  - apply Permutation_cons_inv in P. apply Permutation_length_2_inv in P as [E|E]; injection E as -> ->;
      [exists 0%nat|exists 1%nat]; (split; [cbn; auto 8|reflexivity]).
  - assert (P' : Permutation [k; h; i] [k; b; c]) by (rewrite <- P; constructor).
    apply Permutation_cons_inv in P'. apply Permutation_length_2_inv in P' as [E|E]; injection E as -> ->;
      [exists 2%nat|exists 3%nat]; (split; [cbn; auto 8|reflexivity]).
  - assert (P' : Permutation [i; h; k] [i; b; c]) by (rewrite <- P; apply (Permutation_app_comm [i] [h; k])).
    apply Permutation_cons_inv in P'. apply Permutation_length_2_inv in P' as [E|E]; injection E as -> ->;
      [exists 4%nat|exists 5%nat]; (split; [cbn; auto 8|reflexivity]).
Qed.
Lemma perm3_perm p (h k i : Z) : Permutation (perm3 p h k i) [h; k; i].
Proof.
  destruct p as [|[|[|[|[|p]]]]]; cbn [perm3].
  - reflexivity.
  - apply perm_skip, perm_swap.
  - apply perm_swap.
  - apply (Permutation_app_comm [k; i] [h]).
  - apply (Permutation_app_comm [i] [h; k]).
  - rewrite perm_swap. rewrite (perm_skip k (perm_swap h i [])). apply perm_swap.
Qed.
Lemma map_neg_perm3 p h k i : map (sgn true) (perm3 p h k i) = perm3 p (- h) (- k) (- i).
Proof. destruct p as [|[|[|[|[|p]]]]]; reflexivity. Qed.
Lemma map_id_perm3 p h k i : map (sgn false) (perm3 p h k i) = perm3 p h k i.
Proof. destruct p as [|[|[|[|[|p]]]]]; reflexivity. Qed.
Lemma hap_4 o h k i l : exists a b c d, hap o h k i l = [a; b; c; d] /\ d = sgn (h_last o) l /\
  [a; b; c] = perm3 (h_perm o) (sgn (h_neg o) h) (sgn (h_neg o) k) (sgn (h_neg o) i).
Proof. unfold hap. destruct o as [p a b]. cbn [h_perm h_neg h_last]. destruct p as [|[|[|[|[|p]]]]]; cbn [perm3 map app]; do 4 eexists; repeat split. Qed.
Lemma hex_set ops h k i l m : ops = hkl_ops \/ ops = tsl_ops ->
  In m (map (fun o => up (hap o h k i l)) ops) <-> hex_equivalent [h; k; i; l] m.
Proof.
  intros O. rewrite in_map_iff. split.
  - intros (o & <- & I). destruct (hap_4 o h k i l) as (a & b & c & d & -> & -> & E).
    assert (P : Permutation [a; b; c] [h; k; i] \/ Permutation [a; b; c] [- h; - k; - i]).
    { rewrite E. destruct (h_neg o); cbn [sgn]; [right|left]; apply perm3_perm. }
    assert (P' : Permutation [- a; - b; - c] [h; k; i] \/ Permutation [- a; - b; - c] [- h; - k; - i]).
    { destruct P as [P|P]; apply (Permutation_map Z.opp) in P; cbn [map] in P; [right; exact P|left].
      rewrite !Z.opp_involutive in P. exact P. }
    unfold up. cbn [last]. destruct (Z.ltb_spec (sgn (h_last o) l) 0); unfold negated; cbn [map hex_equivalent].
    + split; [exact P'|]. destruct (h_last o); cbn [sgn] in *; lia.
    + split; [exact P|]. destruct (h_last o); cbn [sgn] in *; lia.
  - destruct m as [|a [|b [|c [|d [|]]]]]; try (intros []; fail). cbn [hex_equivalent]. intros (P & A & N).
    assert (K : exists o, In o all_hops /\ [a; b; c; d] = hap o h k i l).
    { assert (L : exists s, d = sgn s l) by (destruct (Z.eq_dec d l) as [->|]; [exists false|exists true]; cbn [sgn]; lia).
      destruct L as (s & ->). destruct P as [P|P]; apply perm3_cases in P as (p & Ip & E).
      - exists (Hop p false s). split.
        + unfold all_hops. apply in_flat_map. exists p. split; auto. apply in_flat_map. exists false. split; [cbn; auto|].
          apply (in_map (fun b => Hop p false b)). destruct s; cbn; auto.
        + unfold hap. cbn [h_perm h_neg h_last]. rewrite map_id_perm3, <- E. reflexivity.
      - exists (Hop p true s). split.
        + unfold all_hops. apply in_flat_map. exists p. split; auto. apply in_flat_map. exists true. split; [cbn; auto|].
          apply (in_map (fun b => Hop p true b)). destruct s; cbn; auto.
        + unfold hap. cbn [h_perm h_neg h_last]. rewrite map_neg_perm3, <- E. reflexivity. }
    destruct K as (o & Io & E). destruct (hex_cover ops o O Io) as [C|[C D]].
    + exists o. split; auto. rewrite <- E. unfold up. cbn [last]. destruct (Z.ltb_spec d 0); [lia|auto].
    + destruct (hap_4 o h k i l) as (a' & b' & c' & d' & E1 & E2 & E3). rewrite E1 in E. injection E as <- <- <- <-.
      assert (Q : forall o', h_perm o' = h_perm o -> h_neg o' = h_neg o -> h_last o' = negb (h_last o) -> hap o' h k i l = [a; b; c; - d]).
      { intros o' X Y Z. unfold hap in *. rewrite X, Y, Z. set (pre := map _ _) in *. clearbody pre.
        assert (LP : pre = [a; b; c]).
        { destruct pre as [|x0 [|x1 [|x2 [|x3 pre]]]]; cbn [app] in E1; try discriminate E1; [congruence|].
          injection E1 as _ _ _ _ E1. destruct pre; discriminate E1. }
        rewrite LP. cbn [app]. repeat f_equal. rewrite E2. destruct (h_last o); cbn [negb sgn]; lia. }
      assert (Q2 : hap (hneg o) h k i l = negated [a; b; c; d]).
      { unfold hap in *. unfold hneg. cbn [h_perm h_neg h_last]. rewrite <- E1. unfold negated. rewrite map_app. f_equal.
        - rewrite map_map. apply map_ext. intros x. destruct (h_neg o); cbn [negb sgn]; lia.
        - cbn [map]. f_equal. destruct (h_last o); cbn [negb sgn]; lia. }
      destruct (Z.eq_dec d 0) as [D0|D0].
      * exists (hflip o). split; auto. rewrite (Q (hflip o)) by reflexivity. unfold up. cbn [last].
        destruct (Z.ltb_spec (- d) 0); [lia|]. repeat f_equal. lia.
      * exists (hneg o). split; auto. rewrite Q2. unfold up. cbn [last negated map].
        destruct (Z.ltb_spec (- d) 0); [|lia]. unfold negated. cbn [map]. repeat (f_equal; try lia).
Qed.

(** *** Places of labels *)
Lemma cubic_place T x y z q : In q cubic_symmetries -> rot_matrix q = ZM T ->
  exists a b c, up (zap T x y z) = [a; b; c] /\ north (transform_vector q (vZ x y z)) = vZ a b c.
Proof.
  intros Iq E. rewrite transform_north by (apply (sym_north "cubic"); exact Iq). rewrite E, zap_scale, north_vZ. cbv zeta.
  unfold zap. set (l := up _). assert (L : exists a b c, l = [a; b; c]) by (unfold l, up; destruct (_ <? 0); do 3 eexists; reflexivity).
  destruct L as (a & b & c & ->). exists a, b, c. auto.
Qed.
Lemma dir_place ca l q s T o u v t w0 g r0 r1 r2 r3 : (0 < ca)%R -> l = hexL_hkl ca \/ l = hexL_tsl ca ->
  mprod (transpose q) l = mone -> mprod l (transpose q) = mone ->
  In s hexagonal_symmetries ->
  mprod (rot_matrix s) l = mprod l (ZM T) -> dir_op T o ->
  u + v + t = 0 -> 0 < g -> [u; v; t; w0] = scaled g [r0; r1; r2; r3] ->
  exists a b c d, up (hap o r0 r1 r2 r3) = [a; b; c; d] /\
    north (transform_vector s (matmul l (vZ (u - t) (v - t) w0))) = vscale (IZR g) (matmul l (vZ (a - c) (b - c) d)).
Proof.
  intros Pca Hl HD HD' Is ET OT Z0 G E.
  destruct (OT u v t w0 Z0) as (u' & v' & t' & w' & EH & EZ & Z').
  rewrite transform_north by (apply (sym_north "hexagonal"); exact Is).
  set (w := mapply (rot_matrix s) (matmul l (vZ (u - t) (v - t) w0))).
  assert (P2 : w = matmul l (vZ (u' - t') (v' - t') w')).
  { unfold w. change matmul with mapply. rewrite <- (mapply_mprod (rot_matrix _)), ET, mapply_mprod, zap_scale.
    unfold zap in EZ. injection EZ as -> -> ->. auto. }
  cbn [scaled map] in E. injection E as Eh Ek Ei Em.
  rewrite Eh, Ek, Ei, Em, hap_scaled in EH.
  destruct (hap_4 o r0 r1 r2 r3) as (a & b & c & d & E4 & _ & _). rewrite E4 in *. cbn [scaled map] in EH. injection EH as <- <- <- <-.
  assert (SZ : (vz w < 0)%R <-> d < 0).
  { rewrite P2, (proj2 (hexL_z ca l _ Hl)). unfold vZ. cbn [vz]. rewrite mult_IZR. pose proof (IZR_lt 0 g G) as G'.
    assert (K : (0 < ca * IZR g)%R) by (apply Rmult_lt_0_compat; assumption).
    rewrite <- Rmult_assoc. split; intros H.
    - apply lt_IZR. destruct (Rlt_le_dec (IZR d) 0) as [Q|Q]; [exact Q|]. pose proof (Rmult_le_pos _ _ (Rlt_le _ _ K) Q). lra.
    - apply IZR_lt in H. nra. }
  assert (LIN : forall k x y z, matmul l (vZ (k * x) (k * y) (k * z)) = vscale (IZR k) (matmul l (vZ x y z))).
  { intros k x y z. change matmul with mapply. rewrite <- mapply_scale. f_equal. unfold vZ, vscale. cbn [vx vy vz]. now rewrite !mult_IZR. }
  unfold up. cbn [last]. unfold north. destruct (Z.ltb_spec d 0) as [L|L], (Rlt_dec (vz w) 0) as [M|M]; try (exfalso; tauto || (apply SZ in M; lia)).
  - exists (- a), (- b), (- c), (- d). split; [reflexivity|]. rewrite P2.
    replace (g * a - g * c) with (g * (a - c)) by ring. replace (g * b - g * c) with (g * (b - c)) by ring. rewrite LIN.
    replace (- a - - c) with (-1 * (a - c)) by ring. replace (- b - - c) with (-1 * (b - c)) by ring. replace (- d) with (-1 * d) by ring.
    rewrite LIN. unfold vscale. cbn [vx vy vz]. f_equal; ring.
  - exists a, b, c, d. split; [reflexivity|]. rewrite P2.
    replace (g * a - g * c) with (g * (a - c)) by ring. replace (g * b - g * c) with (g * (b - c)) by ring. apply LIN.
Qed.

(** *** Texts *)
Lemma fmt_digit d : 0 <= d <= 9 -> fmt_int d = [digit_char d].
Proof.
  intros H. assert (C : d = 0 \/ d = 1 \/ d = 2 \/ d = 3 \/ d = 4 \/ d = 5 \/ d = 6 \/ d = 7 \/ d = 8 \/ d = 9) by lia.
  repeat destruct C as [->|C]; try reflexivity. subst. reflexivity.
Qed.
Lemma digit_char_inj a b : 0 <= a <= 9 -> 0 <= b <= 9 -> digit_char a = digit_char b -> a = b.
Proof.
  intros A B. assert (CA : a = 0 \/ a = 1 \/ a = 2 \/ a = 3 \/ a = 4 \/ a = 5 \/ a = 6 \/ a = 7 \/ a = 8 \/ a = 9) by lia.
  assert (CB : b = 0 \/ b = 1 \/ b = 2 \/ b = 3 \/ b = 4 \/ b = 5 \/ b = 6 \/ b = 7 \/ b = 8 \/ b = 9) by lia.
  clear A B. repeat destruct CA as [->|CA]; subst; repeat destruct CB as [->|CB]; subst; intros E; try reflexivity; discriminate E.
Qed.
Definition no_digit (a : ascii) : Prop := forall d, 0 <= d <= 9 -> a <> digit_char d.
Lemma digit_not_dollar : no_digit "$".
Proof.
  intros d H. assert (C : d = 0 \/ d = 1 \/ d = 2 \/ d = 3 \/ d = 4 \/ d = 5 \/ d = 6 \/ d = 7 \/ d = 8 \/ d = 9) by lia.
  clear H. repeat destruct C as [->|C]; subst; discriminate.
Qed.
(** What an index of one digit looks like. *)
Lemma str_tex x : digit_index x -> str_idx "tex" x =
  if 0 <=? x then [Plain (digit_char x)] else plain (lit "$\bar{") ++ [Plain (digit_char (- x))] ++ plain (lit "}$").
Proof.
  intros D. unfold digit_index in D. unfold str_idx. change (String.eqb "tex" "tex") with true. cbv iota.
  destruct (Z.leb_spec 0 x); rewrite fmt_digit by lia; reflexivity.
Qed.
Lemma str_uni st x : String.eqb st "tex" = false -> digit_index x -> str_idx st x =
  if 0 <=? x then [Plain (digit_char x)] else [Plain (digit_char (- x)); Overline].
Proof.
  intros S D. unfold digit_index in D. unfold str_idx. rewrite S. cbv iota.
  destruct (Z.leb_spec 0 x); rewrite fmt_digit by lia; reflexivity.
Qed.
Lemma decode st a : no_digit a -> a <> "$"%char -> forall l l' r r',
  (forall x, In x l -> digit_index x) -> (forall x, In x l' -> digit_index x) ->
  concat (map (str_idx st) l) ++ Plain a :: r = concat (map (str_idx st) l') ++ Plain a :: r' -> l = l' /\ r = r'.
Proof.
  intros NA ND. destruct (String.eqb st "tex") eqn:S.
  - apply String.eqb_eq in S. subst st.
    induction l as [|x l IH]; intros [|y l'] r r' Dl Dl' E; cbn [map concat app] in E.
    + injection E as ->. auto.
    + exfalso. pose proof (Dl' y (or_introl eq_refl)) as D. unfold digit_index in D. rewrite (str_tex y D) in E.
      destruct (Z.leb_spec 0 y); cbn [app plain map lit] in E; injection E as E _; [apply (NA y); [lia|auto]|congruence].
    + exfalso. pose proof (Dl x (or_introl eq_refl)) as D. unfold digit_index in D. rewrite (str_tex x D) in E.
      destruct (Z.leb_spec 0 x); cbn [app plain map lit] in E; injection E as E _; [apply (NA x); [lia|auto]|congruence].
    + pose proof (Dl x (or_introl eq_refl)) as D. pose proof (Dl' y (or_introl eq_refl)) as D'.
      rewrite (str_tex x D), (str_tex y D') in E. unfold digit_index in D, D'. rewrite <- !app_assoc in E.
      assert (K : x = y /\ concat (map (str_idx "tex") l) ++ Plain a :: r = concat (map (str_idx "tex") l') ++ Plain a :: r').
      { destruct (Z.leb_spec 0 x), (Z.leb_spec 0 y); cbn [app plain map lit list_ascii_of_string] in E.
        - injection E as E1 E2. split; [apply digit_char_inj; auto; lia|exact E2].
        - injection E as E1 E2. exfalso. apply (digit_not_dollar x); [lia|congruence].
        - injection E as E1 E2. exfalso. apply (digit_not_dollar y); [lia|congruence].
        - injection E as E1 E2. split; [|exact E2]. assert (- x = - y) by (apply digit_char_inj; auto; lia). lia. }
      destruct K as [-> K]. destruct (IH l' r r' (fun z I => Dl z (or_intror I)) (fun z I => Dl' z (or_intror I)) K) as [-> ->]. auto.
  - assert (HD : forall l r, (forall x, In x l -> digit_index x) -> exists b t, concat (map (str_idx st) l) ++ Plain a :: r = Plain b :: t).
    { intros [|x l] r D; [cbn; eauto|]. cbn [map concat]. rewrite (str_uni st x S (D x (or_introl eq_refl))).
      destruct (0 <=? x); cbn [app]; eauto. }
    induction l as [|x l IH]; intros [|y l'] r r' Dl Dl' E; cbn [map concat app] in E.
    + injection E as ->. auto.
    + exfalso. pose proof (Dl' y (or_introl eq_refl)) as D. rewrite (str_uni st y S D) in E. unfold digit_index in D.
      destruct (Z.leb_spec 0 y); cbn [app] in E; injection E as E _; [apply (NA y)|apply (NA (- y))]; auto; lia.
    + exfalso. pose proof (Dl x (or_introl eq_refl)) as D. rewrite (str_uni st x S D) in E. unfold digit_index in D.
      destruct (Z.leb_spec 0 x); cbn [app] in E; injection E as E _; [apply (NA x)|apply (NA (- x))]; auto; lia.
    + pose proof (Dl x (or_introl eq_refl)) as D. pose proof (Dl' y (or_introl eq_refl)) as D'.
      rewrite (str_uni st x S D), (str_uni st y S D') in E. unfold digit_index in D, D'. rewrite <- !app_assoc in E.
      assert (Tl : forall z, In z l -> digit_index z) by (intros z I; apply Dl; now right).
      assert (Tl' : forall z, In z l' -> digit_index z) by (intros z I; apply Dl'; now right).
      assert (K : x = y /\ concat (map (str_idx st) l) ++ Plain a :: r = concat (map (str_idx st) l') ++ Plain a :: r').
      { destruct (Z.leb_spec 0 x), (Z.leb_spec 0 y); cbn [app] in E.
        - injection E as E1 E2. split; [apply digit_char_inj; auto; lia|exact E2].
        - injection E as E1 E2. exfalso. destruct (HD l r Tl) as (b & t & H1). rewrite H1 in E2. discriminate.
        - injection E as E1 E2. exfalso. destruct (HD l' r' Tl') as (b & t & H1). rewrite H1 in E2. discriminate.
        - injection E as E1 E2. split; [|exact E2]. assert (- x = - y) by (apply digit_char_inj; auto; lia). lia. }
      destruct K as [-> K]. destruct (IH l' r r' Tl Tl' K) as [-> ->]. auto.
Qed.

(** *** The whole functions *)
Lemma convert_plane4 h k i l : convert_idc "mb" None (Some (IntArr [h; k; i; l])) = Ok (IntArr [h; k; l]).
Proof. reflexivity. Qed.
Lemma convert_dir4 u v t w : convert_idc "mb" (Some (IntArr [u; v; t; w])) None = Ok (IntArr [u - t; v - t; w]).
Proof. reflexivity. Qed.
Lemma vec_ints x y z : vec_of (arr_R (IntArr [x; y; z])) = Ok (vZ x y z).
Proof. reflexivity. Qed.
Lemma reduced_four h k i l : nonzero [h; k; i; l] -> exists g r0 r1 r2 r3, 0 < g /\ [h; k; i; l] = scaled g [r0; r1; r2; r3] /\ coprime [r0; r1; r2; r3].
Proof.
  intros N. destruct (reduced_exists _ N) as (g & r & G & E & C).
  destruct r as [|r0 [|r1 [|r2 [|r3 [|r4 r]]]]]; try discriminate E. exists g, r0, r1, r2, r3. auto.
Qed.
Lemma hex_equivalents conv ca h k i l g r0 r1 r2 r3 : known_conv conv -> (1 / 10 ^ 10 <= ca)%R -> h + k + i = 0 -> within 42 [h; k; i; l] ->
  0 < g -> [h; k; i; l] = scaled g [r0; r1; r2; r3] -> coprime [r0; r1; r2; r3] ->
  exists ops, (ops = hkl_ops \/ ops = tsl_ops) /\
    equivalents conv "hexagonal" (sym_eqv "hexagonal") (Some (IntArr [h; k; i; l])) None (Some ca) None = Ok (map (fun o => up (hap o r0 r1 r2 r3)) ops) /\
    equivalents conv "hexagonal" (sym_eqv "hexagonal") None (Some (IntArr [h; k; i; l])) (Some ca) None = Ok (map (fun o => up (hap o r0 r1 r2 r3)) ops).
Proof.
  intros Kc Hca Z0 W G E C. destruct (hex_ops ca conv Kc Hca) as (L & Q & ops & HM & D & D' & HL & HO & FP & FD).
  assert (Pca : (0 < ca)%R) by (apply Rlt_le_trans with (2 := Hca); apply Rdiv_lt_0_compat; [lra|apply pow_lt; lra]).
  exists ops. split; [exact HO|]. unfold equivalents. cbv zeta.
  change (String.eqb "hexagonal" "hexagonal") with true. cbv iota. change (String.eqb "mb" "mb") with true. cbv iota.
  rewrite convert_plane4, convert_dir4. cbn [bind]. rewrite !vec_ints. cbn [bind]. rewrite HM. cbn [bind fst snd].
  change (sym_eqv "hexagonal") with hexagonal_symmetries. split.
  - apply (map_res_table _ _ _ _ _ FD). intros s o Is Io (T & ET & OT). eapply dir_step; eauto.
  - apply (map_res_table _ _ _ _ _ FP). intros s o Is Io (T & ET & OT). eapply plane_step; eauto.
Qed.

Lemma combine_table {A B C D} (P : A -> B -> Prop) (f : A -> C) (g : B -> D) xs ys c d :
  Forall2 P xs ys -> In (c, d) (combine (map f xs) (map g ys)) -> exists x y, In x xs /\ In y ys /\ P x y /\ c = f x /\ d = g y.
Proof.
  induction 1 as [|x y xs ys H F IH]; cbn [map combine]; intros I; [destruct I|]. destruct I as [E|I].
  - injection E as <- <-. exists x, y. cbn [In]. auto.
  - destruct (IH I) as (x' & y' & Ix & Iy & K). exists x', y'. cbn [In]. auto.
Qed.
Lemma map_res_texts l : map_res (fun m => idc_to_string (IntArr m) None "tex") l = Ok (map (fun m => concat (map (str_idx "tex") m)) l).
Proof. induction l as [|m l IH]; [reflexivity|]. cbn [map_res map]. rewrite IH. reflexivity. Qed.
Lemma direction_hex conv a b c d l q : hex_matrices (8165 / 10000) conv = Ok (l, q) ->
  direction_of conv "hexagonal" [a; b; c; d] = Ok (matmul l (vZ (a - c) (b - c) d)).
Proof.
  unfold hex_matrices, direction_of. change (String.eqb "hexagonal" "hexagonal") with true. cbv iota.
  unfold project_to_orth. change (String.eqb "mb" "mb") with true. cbv iota.
  rewrite convert_dir4. cbn [bind]. destruct (create_l_matrix _ _ _ _ _ _ _) as [l'|]; [|discriminate]. cbn [bind].
  destruct (create_q_matrix l'); [|discriminate]. cbn [bind]. injection 1 as -> ->. rewrite vec_ints. reflexivity.
Qed.
Lemma quat_one : Quat false (Q4 1 0 0 0) = qone.
Proof. unfold Quat, qone. cbn [qw]. destruct (Rlt_dec 1 0); [lra|reflexivity]. Qed.
Lemma cubic_labels conv x y z : within 127 [x; y; z] -> 0 <= z ->
  exists r, label_point conv "cubic" [x; y; z] None true = Ok r /\
  List.length r = 24%nat /\ forall v t, In (v, t) r -> exists m, cubic_equivalent [x; y; z] m /\
    Ok t = idc_to_string (IntArr m) None "tex" /\ direction_of conv "cubic" m = Ok v.
Proof.
  intros W Z0. unfold label_point. cbv zeta. change (String.eqb "cubic" "hexagonal") with false. cbv iota.
  change (vec_of (map IZR [x; y; z])) with (Ok (vZ x y z)). cbn [bind idc_to_string].
  rewrite (proj1 (cubic_equivalents conv x y z _ W)). cbn [bind]. rewrite map_res_texts, map_map. cbn [bind].
  change (sym_eqv "cubic") with cubic_symmetries.
  replace (vZ x y z :: map (fun symm => north (transform_vector symm (vZ x y z))) (tl cubic_symmetries))
    with (map (fun symm => north (transform_vector symm (vZ x y z))) cubic_symmetries).
  - eexists. split; [reflexivity|]. split.
    + rewrite combine_length, !map_length. reflexivity.
    + intros v t I. apply (combine_table _ _ _ _ _ _ _ cubic_ops_ok) in I as (q & T & Iq & IT & E & -> & ->).
      destruct (cubic_place T x y z q Iq E) as (a & b & c & EU & EN). exists [a; b; c]. rewrite EU, EN. split; [|split; reflexivity].
      rewrite <- EU. apply cubic_set. apply in_map_iff. exists T. auto.
  - change cubic_symmetries with (Quat false (Q4 1 0 0 0) :: tl cubic_symmetries) at 1. cbn [map]. rewrite quat_one, transform_qone. f_equal.
    unfold north. destruct (Rlt_dec _ _) as [L|L]; [|reflexivity]. unfold vZ in L. cbn [vz] in L. apply lt_IZR in L. lia.
Qed.
Lemma hex_labels conv u v t w : known_conv conv -> u + v + t = 0 -> within 42 [u; v; t; w] -> nonzero [u; v; t; w] -> 0 <= w ->
  exists r, label_point conv "hexagonal" [u; v; t; w] None true = Ok r /\
  List.length r = 12%nat /\ forall p x, In (p, x) r -> exists m d, Ok x = idc_to_string (IntArr m) None "tex" /\
    direction_of conv "hexagonal" m = Ok d /\ same_ray p d.
Proof.
  intros Kc Z0 W N Zw. destruct (reduced_four _ _ _ _ N) as (g & r0 & r1 & r2 & r3 & G & E & C).
  assert (Hca : (1 / 10 ^ 10 <= 8165 / 10000)%R) by (apply Rle_trans with (r2 := (1 / 10)%R); [|lra]; apply Rmult_le_compat_l; [lra|]; apply Rinv_le_contravar; [lra|]; simpl; lra).
  assert (Pca : (0 < 8165 / 10000)%R) by lra.
  destruct (hex_ops _ conv Kc Hca) as (L & Q & ops & HM & D & D' & HL & HO & _ & FD).
  unfold label_point. cbv zeta. change (String.eqb "hexagonal" "hexagonal") with true. cbv iota.
  pose proof (direction_hex conv u v t w L Q HM) as P. unfold direction_of in P.
  change (String.eqb "hexagonal" "hexagonal") with true in P. cbv iota in P. rewrite P. clear P. cbn [bind idc_to_string].
  unfold equivalents. cbv zeta. change (String.eqb "hexagonal" "hexagonal") with true. cbv iota. change (String.eqb "mb" "mb") with true. cbv iota.
  rewrite convert_dir4. cbn [bind]. rewrite !vec_ints. cbn [bind]. rewrite HM. cbn [bind fst snd].
  change (sym_eqv "hexagonal") with hexagonal_symmetries.
  rewrite (map_res_table _ (fun o => up (hap o r0 r1 r2 r3)) _ _ _ FD).
  2:{ intros s o Is Io (T & ET & OT). eapply dir_step; eauto. }
  cbn [bind]. rewrite map_res_texts, map_map. cbn [bind]. set (p0 := matmul L _).
  replace (p0 :: map (fun symm => north (transform_vector symm p0)) (tl hexagonal_symmetries))
    with (map (fun symm => north (transform_vector symm p0)) hexagonal_symmetries).
  - eexists. split; [reflexivity|]. split.
    + rewrite combine_length, !map_length. destruct HO as [-> | ->]; reflexivity.
    + intros p x I. apply (combine_table _ _ _ _ _ _ _ FD) in I as (s & o & Is & Io & (T & ET & OT) & -> & ->).
      destruct (dir_place _ L Q s T o u v t w g r0 r1 r2 r3 Pca HL D D' Is ET OT Z0 G E) as (a & b & c & d & EU & EN).
      exists [a; b; c; d], (matmul L (vZ (a - c) (b - c) d)). rewrite EU. split; [reflexivity|]. split; [now apply direction_hex with (q := Q)|].
      exists (IZR g). split; [now apply IZR_lt|exact EN].
  - change hexagonal_symmetries with (Quat false (Q4 1 0 0 0) :: tl hexagonal_symmetries) at 1. cbn [map]. rewrite quat_one, transform_qone. f_equal.
    unfold north. destruct (Rlt_dec _ _) as [B|B]; [|reflexivity]. exfalso. unfold p0 in B. rewrite (proj2 (hexL_z _ L _ HL)) in B.
    unfold vZ in B. cbn [vz] in B. apply IZR_le in Zw. nra.
Qed.
