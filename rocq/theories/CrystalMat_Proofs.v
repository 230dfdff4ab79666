(** Conversion of indices, and the lattice matrices. *)
From Coq Require Import String Reals ZArith Lra Lia Psatz.
From Coq Require Import List.
From Verif Require Import Py Quat_Model Quat_Spec Crystal_Model Crystal_Spec Crystal_Proofs.
Import ListNotations.
Open Scope R_scope.

(** ** Rounding *)
Lemma rint_near : forall x n, Rabs (x - IZR n) < 1/2 -> rint x = n.
Proof.
  intros x n H. unfold rint.
  destruct (base_Int_part x) as [A B]. set (m := Int_part x) in *.
  apply Rabs_def2 in H as [H1 H2].
  destruct (Rlt_dec (x - IZR m) (1/2)) as [L|L].
  - assert (-1 < IZR m - IZR n < 1) as [C D] by lra.
    rewrite <- minus_IZR in C, D. apply lt_IZR in C; apply lt_IZR in D. lia.
  - assert (0 <= IZR m + 1 - IZR n -> False \/ True) by auto.
    assert (E : IZR n = IZR m + 1).
    { assert (C : 0 < IZR n - IZR m) by lra. assert (D : IZR n - IZR m < 2) by lra.
      rewrite <- minus_IZR in C, D. apply lt_IZR in C; apply lt_IZR in D.
      replace n with (m + 1)%Z by lia. rewrite plus_IZR; auto. }
    assert (n = (m + 1)%Z) by (apply eq_IZR; rewrite plus_IZR; auto). subst n.
    destruct (Rlt_dec (1/2) (x - IZR m)); auto. lra.
Qed.

Lemma rint_int : forall n, rint (IZR n) = n.
Proof. intros; apply rint_near. rewrite Rminus_diag_eq by auto. rewrite Rabs_R0. lra. Qed.

Lemma safe_cast_near : forall l zs, Forall2 (fun x z => Rabs (x - IZR z) <= 1/1000) l zs ->
  safe_int_cast (FltArr l) = Ok (map int8 zs).
Proof.
  intros l zs H. unfold safe_int_cast.
  assert (E : existsb (fun x => if Rlt_dec (1/1000) (Rabs (x - IZR (rint x))) then true else false) l
              = false /\ map (fun x => int8 (rint x)) l = map int8 zs).
  { induction H as [|x z l zs Hx H IH]; cbn; auto. destruct IH as [I1 I2].
    rewrite (rint_near x z) by lra. rewrite I1, I2.
    destruct (Rlt_dec (1/1000) (Rabs (x - IZR z))); [lra|auto]. }
  destruct E as [-> ->]. auto.
Qed.

Lemma safe_cast_ints : forall zs, safe_int_cast (FltArr (map IZR zs)) = Ok (map int8 zs).
Proof.
  intros; apply safe_cast_near. induction zs; cbn; constructor; auto.
  rewrite Rminus_diag_eq by auto. rewrite Rabs_R0. lra.
Qed.

Lemma safe_cast_far : forall l x, In x l -> (forall z, 1/1000 < Rabs (x - IZR z)) ->
  safe_int_cast (FltArr l) = Err ValueError.
Proof.
  intros l x Hx H. unfold safe_int_cast.
  replace (existsb _ l) with true; auto. symmetry. apply existsb_exists.
  exists x. split; auto. destruct (Rlt_dec (1/1000) (Rabs (x - IZR (rint x)))); auto.
Qed.

(** A third of an integer that is not an integer is far from all integers. *)
Lemma third_far : forall n, (n mod 3 <> 0)%Z -> forall z, 1/1000 < Rabs (IZR n / 3 - IZR z).
Proof.
  intros n H z.
  assert (E : IZR n / 3 - IZR z = IZR (n - 3 * z) / 3).
  { rewrite minus_IZR, mult_IZR. field. }
  rewrite E. assert (N : (n - 3 * z <> 0)%Z).
  { intros C. apply H. replace n with (z * 3)%Z by lia. apply Z.mod_mul. lia. }
  unfold Rdiv. rewrite Rabs_mult, <- abs_IZR, (Rabs_right (/ 3)) by lra.
  assert (1 <= IZR (Z.abs (n - 3 * z))) by (apply IZR_le; lia). lra.
Qed.

Lemma third_int : forall n, (n mod 3 = 0)%Z -> IZR n / 3 = IZR (n / 3).
Proof.
  intros n H. rewrite (Z.div_mod n 3) at 1 by lia. rewrite H, Z.add_0_r, mult_IZR. field.
Qed.

(** ** Directions *)
Definition thirds (u v w : R) : list R := [(2 * u - v) / 3; (2 * v - u) / 3; (- u - v) / 3; w].

Lemma convert_m_dir_int : forall t u v w, lower t = "m"%string ->
  (-127 <= u <= 127)%Z -> (-127 <= v <= 127)%Z -> (-127 <= w <= 127)%Z ->
  exists out, convert_idc t (Some (IntArr [u; v; w])) None = Ok out /\
    arr_R out = thirds (IZR u) (IZR v) (IZR w).
Proof.
  intros t u v w Ht Hu Hv Hw. unfold convert_idc. rewrite Ht. cbn [String.eqb Ascii.eqb Bool.eqb].
  cbn [arr_R map].
  set (out := [(2 * IZR u - IZR v) / 3; (2 * IZR v - IZR u) / 3; (- IZR u - IZR v) / 3;
               3 * IZR w / 3]).
  assert (EO : out = [IZR (2 * u - v) / 3; IZR (2 * v - u) / 3; IZR (- u - v) / 3; IZR (3 * w) / 3]).
  { unfold out. rewrite !minus_IZR, !mult_IZR, opp_IZR. auto. }
  assert (ET : out = thirds (IZR u) (IZR v) (IZR w)).
  { unfold out, thirds. do 4 f_equal. field. }
  destruct (Z.eq_dec ((2 * u - v) mod 3) 0) as [A|A].
  2:{ rewrite (safe_cast_far _ (IZR (2 * u - v) / 3)).
      - eexists; split; [reflexivity|]. exact ET.
      - rewrite EO; left; auto.
      - apply third_far; auto. }
  assert (B : ((2 * v - u) mod 3 = 0)%Z).
  { apply Z.mod_divide in A; [|lia]. destruct A as [k A].
    apply Z.mod_divide; [lia|]. exists (u - 2 * k)%Z. lia. }
  assert (C : ((- u - v) mod 3 = 0)%Z).
  { apply Z.mod_divide in A; [|lia]. destruct A as [k A].
    apply Z.mod_divide; [lia|]. exists (k - u)%Z. lia. }
  assert (D : ((3 * w) mod 3 = 0)%Z) by (rewrite Z.mul_comm; apply Z.mod_mul; lia).
  assert (EZ : out = map IZR [(2 * u - v) / 3; (2 * v - u) / 3; (- u - v) / 3; (3 * w) / 3]%Z).
  { rewrite EO. cbn [map]. rewrite !third_int; auto. }
  rewrite EZ, safe_cast_ints. eexists; split; [reflexivity|].
  cbn [arr_R]. rewrite map_int8_id, <- EZ, ET; auto.
  intros x [<-|[<-|[<-|[<-|[]]]]].
  - split; [apply Z.div_le_lower_bound|apply Z.div_le_upper_bound]; lia.
  - split; [apply Z.div_le_lower_bound|apply Z.div_le_upper_bound]; lia.
  - split; [apply Z.div_le_lower_bound|apply Z.div_le_upper_bound]; lia.
  - rewrite Z.mul_comm, Z.div_mul by lia. lia.
Qed.

Lemma convert_m_dir_far : forall t u v w, lower t = "m"%string ->
  (exists x, In x (thirds u v w) /\ forall z, 1/1000 < Rabs (x - IZR z)) ->
  convert_idc t (Some (FltArr [u; v; w])) None = Ok (FltArr (thirds u v w)).
Proof.
  intros t u v w Ht (x & Hx & Hf). unfold convert_idc. rewrite Ht.
  cbn [String.eqb Ascii.eqb Bool.eqb arr_R].
  assert (E : [(2 * u - v) / 3; (2 * v - u) / 3; (- u - v) / 3; 3 * w / 3] = thirds u v w).
  { unfold thirds. do 4 f_equal. field. }
  rewrite E, (safe_cast_far _ x); auto.
Qed.

Lemma convert_mb_dir : forall t out u v s w, lower t = "mb"%string ->
  arr_R out = [u; v; s; w] ->
  exists back, convert_idc t (Some out) None = Ok back /\ arr_R back = [u - s; v - s; w].
Proof.
  intros t out u v s w Ht H. unfold convert_idc. rewrite Ht. cbn [String.eqb Ascii.eqb Bool.eqb].
  destruct out as [l|l]; cbn [arr_R] in H.
  - destruct l as [|a [|b [|c [|d [|]]]]]; cbn in H; try discriminate.
    injection H as <- <- <- <-. eexists; split; [reflexivity|]. cbn. rewrite !minus_IZR; auto.
  - subst l. eexists; split; reflexivity.
Qed.

Lemma convert_mb_m_dir_int : forall u v s w, (u + v + s = 0)%Z -> fits8 [u; v; s; w] ->
  exists m, convert_idc "mb" (Some (IntArr [u; v; s; w])) None = Ok (IntArr m) /\
    m = [u - s; v - s; w]%Z /\
    convert_idc "m" (Some (IntArr m)) None = Ok (IntArr [u; v; s; w]).
Proof.
  intros u v s w H F. exists [u - s; v - s; w]%Z. split; [reflexivity|]. split; [reflexivity|].
  unfold convert_idc. cbn [lower lower_ascii String.eqb].
  replace (String.eqb (lower "m") "m") with true by reflexivity.
  cbn [arr_R map].
  assert (E : [(2 * IZR (u - s) - IZR (v - s)) / 3; (2 * IZR (v - s) - IZR (u - s)) / 3;
               (- IZR (u - s) - IZR (v - s)) / 3; 3 * IZR w / 3] = map IZR [u; v; s; w]).
  { replace s with (- u - v)%Z by lia. cbn [map]. rewrite !minus_IZR, !opp_IZR.
    f_equal; [field|f_equal; [field|f_equal; [field|f_equal; field]]]. }
  rewrite E, safe_cast_ints, map_int8_id; auto.
Qed.

(** ** Planes *)
Lemma convert_m_plane : forall t p h k l, lower t = "m"%string -> arr_R p = [h; k; l] ->
  exists out, convert_idc t None (Some p) = Ok out /\ arr_R out = [h; k; - (h + k); l].
Proof.
  intros t p h k l Ht H. unfold convert_idc. rewrite Ht. cbn [String.eqb Ascii.eqb Bool.eqb].
  destruct p as [z|r]; cbn [arr_R] in H.
  - destruct z as [|a [|b [|c [|]]]]; cbn in H; try discriminate. injection H as <- <- <-.
    eexists; split; [reflexivity|]. cbn [arr_R map]. rewrite mult_IZR, plus_IZR.
    do 3 f_equal. ring.
  - subst r. eexists; split; [reflexivity|]. cbn [arr_R]. do 3 f_equal. ring.
Qed.

Lemma convert_mb_plane : forall t p h k i l, lower t = "mb"%string -> arr_R p = [h; k; i; l] ->
  exists out, convert_idc t None (Some p) = Ok out /\ arr_R out = [h; k; l].
Proof.
  intros t p h k i l Ht H. unfold convert_idc. rewrite Ht. cbn [String.eqb Ascii.eqb Bool.eqb].
  destruct p as [z|r]; cbn [arr_R] in H.
  - destruct z as [|a [|b [|c [|d [|]]]]]; cbn in H; try discriminate. injection H as <- <- <- <-.
    eexists; split; reflexivity.
  - subst r. eexists; split; reflexivity.
Qed.

(** ** Matrices *)
Lemma vdot_sprod : forall u v, vdot u v = sprod u v. Proof. reflexivity. Qed.
Lemma vcross_xprod : forall u v, vcross u v = xprod u v. Proof. reflexivity. Qed.
Lemma mcol_0 : forall m, mcol 0 m = col0 m. Proof. reflexivity. Qed.
Lemma mT_transpose : forall m, mT m = transpose m. Proof. reflexivity. Qed.
Lemma matmul_mapply : forall m v, matmul m v = mapply m v. Proof. reflexivity. Qed.

Definition mopp (m : mat3) : mat3 := M3 (vopp (r0 m)) (vopp (r1 m)) (vopp (r2 m)).

Ltac munf := cbv beta iota zeta delta [mprod transpose mapply mone mopp vopp det sprod xprod
  col0 col1 col2 mT mcol vscale vcross vdot matmul vx vy vz r0 r1 r2].

Lemma volume_det : forall l, vdot (mcol 0 l) (vcross (mcol 1 l) (mcol 2 l)) = det l.
Proof. intros [[] [] []]. munf. ring. Qed.

Lemma q_matrix_spec : forall l, det l <> 0 ->
  exists q, create_q_matrix l = Ok q /\
    (0 < det l -> mprod (transpose q) l = mone /\ mprod l (transpose q) = mone) /\
    (det l < 0 -> mprod (transpose q) l = mopp mone).
Proof.
  intros l Hd. unfold create_q_matrix. rewrite volume_det.
  destruct (Req_EM_T (Rabs (det l)) 0) as [E|N].
  { exfalso; apply Hd. destruct (Req_dec (det l) 0); auto. apply Rabs_no_R0 in H; lra. }
  eexists; split; [reflexivity|]. split; intros Hs.
  - rewrite Rabs_right by lra. clear N.
    assert (HK : / det l * det l = 1) by (apply Rinv_l; auto).
    revert HK. generalize (/ det l) as k. intros k HK.
    destruct l as [[a b c] [d e f] [g h i]]. clear Hd Hs. revert HK. munf. intros HK.
    split; (f_equal; f_equal; first [ring | rewrite <- HK; ring]).
  - rewrite Rabs_left by lra. clear N.
    assert (HK : / - det l * det l = -1) by (field; auto).
    revert HK. generalize (/ - det l) as k. intros k HK.
    destruct l as [[a b c] [d e f] [g h i]]. clear Hd Hs. revert HK. munf. intros HK.
    (f_equal; f_equal; first [ring | transitivity (-1); [rewrite <- HK; ring|ring]]).
Qed.

Lemma q_matrix_singular : forall l, det l = 0 -> create_q_matrix l = Err ZeroDivisionError.
Proof.
  intros l H. unfold create_q_matrix. rewrite volume_det, H, Rabs_R0.
  destruct (Req_EM_T 0 0); [auto|congruence].
Qed.

Definition not_tiny (x : R) : Prop := x = 0 \/ 1 / 10 ^ 10 <= Rabs x.

Lemma clear_small_id : forall x, not_tiny x -> clear_small x = x.
Proof.
  intros x [->|H]; unfold clear_small.
  - destruct (Rlt_dec _ _); auto.
  - destruct (Rlt_dec _ _); auto. lra.
Qed.

(** The entries before small ones are cleared. *)
Definition raw_entries (a b c alpha beta gamma : R) : list R :=
  [a; b * cos gamma; c * cos beta; b * sin gamma;
   c * (cos alpha - cos beta * cos gamma) / sin gamma;
   c * sqrt (1 + 2 * cos alpha * cos beta * cos gamma
             - cos alpha ^ 2 - cos beta ^ 2 - cos gamma ^ 2) / sin gamma].

Lemma l_matrix_tsl : forall a b c al be ga conv, lower conv = "tsl"%string ->
  (forall x, In x (raw_entries a b c al be ga) -> not_tiny x) ->
  create_l_matrix a b c al be ga conv =
  Ok (M3 (V3 a (b * cos ga) (c * cos be))
         (V3 0 (b * sin ga) (c * (cos al - cos be * cos ga) / sin ga))
         (V3 0 0 (c * sqrt (1 + 2 * cos al * cos be * cos ga - cos al ^ 2 - cos be ^ 2 - cos ga ^ 2) / sin ga))).
Proof.
  intros a b c al be ga conv Hc Ht. unfold create_l_matrix. rewrite Hc.
  cbn [String.eqb Ascii.eqb Bool.eqb orb bind]. unfold clear_row; cbn [vx vy vz r0 r1 r2].
  rewrite (clear_small_id 0) by (left; auto).
  rewrite !clear_small_id by (apply Ht; cbn [In raw_entries]; tauto). auto.
Qed.

Lemma l_matrix_hkl : forall a b c al be ga conv,
  lower conv = "hkl"%string \/ lower conv = "oi"%string ->
  (forall x, In x (raw_entries a b c al be ga) -> not_tiny x) ->
  create_l_matrix a b c al be ga conv =
  Ok (M3 (V3 (b * sin ga) 0 (c * cos be))
         (V3 (b * cos ga) a (c * (cos al - cos be * cos ga) / sin ga))
         (V3 0 0 (c * sqrt (1 + 2 * cos al * cos be * cos ga - cos al ^ 2 - cos be ^ 2 - cos ga ^ 2) / sin ga))).
Proof.
  intros a b c al be ga conv Hc Ht. unfold create_l_matrix.
  destruct Hc as [-> | ->]; cbn [String.eqb Ascii.eqb Bool.eqb orb bind];
  unfold clear_row; cbn [vx vy vz r0 r1 r2];
  rewrite (clear_small_id 0) by (left; auto);
  rewrite !clear_small_id by (apply Ht; cbn [In raw_entries]; tauto); auto.
Qed.

Lemma l_matrix_unknown : forall a b c al be ga conv,
  lower conv <> "hkl"%string -> lower conv <> "oi"%string -> lower conv <> "tsl"%string ->
  create_l_matrix a b c al be ga conv = Err ValueError.
Proof.
  intros a b c al be ga conv A B C. unfold create_l_matrix.
  apply String.eqb_neq in A, B, C. rewrite A, B, C. auto.
Qed.

Section Cell.
Variables a b c al be ga : R.
Hypothesis ADM : admissible a b c al be ga.

Lemma sin_pos_ga : 0 < sin ga.
Proof. destruct ADM as (_ & _ & _ & [H1 H2] & _). apply sin_gt_0; auto. Qed.

Lemma gram_sqrt :
  sqrt (1 + 2 * cos al * cos be * cos ga - cos al ^ 2 - cos be ^ 2 - cos ga ^ 2) *
  sqrt (1 + 2 * cos al * cos be * cos ga - cos al ^ 2 - cos be ^ 2 - cos ga ^ 2) =
  1 + 2 * cos al * cos be * cos ga - cos al ^ 2 - cos be ^ 2 - cos ga ^ 2 /\
  0 < sqrt (1 + 2 * cos al * cos be * cos ga - cos al ^ 2 - cos be ^ 2 - cos ga ^ 2).
Proof.
  destruct ADM as (_ & _ & _ & _ & H). split.
  - apply sqrt_sqrt. cbn [pow]. lra.
  - apply sqrt_lt_R0. cbn [pow]. lra.
Qed.

Lemma sin2 : sin ga * sin ga = 1 - cos ga * cos ga.
Proof. pose proof (sin2_cos2 ga). unfold Rsqr in H. lra. Qed.

Lemma tsl_metric : has_metric
  (M3 (V3 a (b * cos ga) (c * cos be))
      (V3 0 (b * sin ga) (c * (cos al - cos be * cos ga) / sin ga))
      (V3 0 0 (c * sqrt (1 + 2 * cos al * cos be * cos ga - cos al ^ 2 - cos be ^ 2 - cos ga ^ 2) / sin ga)))
  a b c al be ga.
Proof.
  pose proof sin_pos_ga as HS. pose proof sin2 as S2. destruct gram_sqrt as [G _].
  set (g := sqrt _) in *. unfold has_metric; munf.
  assert (I : sin ga * / sin ga = 1) by (field; lra).
  set (i := / sin ga) in *. unfold Rdiv. fold i.
  assert (I2 : i * i * (1 - cos ga * cos ga) = 1).
  { rewrite <- S2. replace (i * i * (sin ga * sin ga)) with ((sin ga * i) * (sin ga * i)) by ring.
    rewrite I; ring. }
  split; [ring|]. split; [replace (b * cos ga * (b * cos ga) + b * sin ga * (b * sin ga) + 0 * 0) with
     (b * b * (cos ga * cos ga + sin ga * sin ga)) by ring; rewrite S2; ring|].
  split.
  { transitivity (c * c * (cos be * cos be + i * i * ((cos al - cos be * cos ga) * (cos al - cos be * cos ga) + g * g)));
    [ring|]. rewrite G.
    replace ((cos al - cos be * cos ga) * (cos al - cos be * cos ga) +
      (1 + 2 * cos al * cos be * cos ga - cos al ^ 2 - cos be ^ 2 - cos ga ^ 2))
      with ((1 - cos ga * cos ga) * (1 - cos be * cos be)) by ring.
    rewrite <- Rmult_assoc, I2. ring. }
  split.
  { transitivity (b * c * (cos ga * cos be + (sin ga * i) * (cos al - cos be * cos ga))); [ring|].
    rewrite I; ring. }
  split; ring.
Qed.

Lemma tsl_det : det
  (M3 (V3 a (b * cos ga) (c * cos be))
      (V3 0 (b * sin ga) (c * (cos al - cos be * cos ga) / sin ga))
      (V3 0 0 (c * sqrt (1 + 2 * cos al * cos be * cos ga - cos al ^ 2 - cos be ^ 2 - cos ga ^ 2) / sin ga))) > 0.
Proof.
  pose proof sin_pos_ga as HS. destruct gram_sqrt as [_ G]. destruct ADM as (A & B & C & _ & _).
  set (g := sqrt _) in *. munf. unfold Rdiv.
  assert (P : 0 < a * (b * sin ga) * (c * g * / sin ga)).
  { repeat apply Rmult_lt_0_compat; auto. apply Rinv_0_lt_compat; auto. }
  apply Rlt_gt. eapply Rlt_le_trans; [exact P|]. right. ring.
Qed.

Lemma hkl_det : det
  (M3 (V3 (b * sin ga) 0 (c * cos be))
      (V3 (b * cos ga) a (c * (cos al - cos be * cos ga) / sin ga))
      (V3 0 0 (c * sqrt (1 + 2 * cos al * cos be * cos ga - cos al ^ 2 - cos be ^ 2 - cos ga ^ 2) / sin ga))) > 0.
Proof.
  pose proof sin_pos_ga as HS. destruct gram_sqrt as [_ G]. destruct ADM as (A & B & C & _ & _).
  set (g := sqrt _) in *. munf. unfold Rdiv.
  assert (P : 0 < a * (b * sin ga) * (c * g * / sin ga)).
  { repeat apply Rmult_lt_0_compat; auto. apply Rinv_0_lt_compat; auto. }
  apply Rlt_gt. eapply Rlt_le_trans; [exact P|]. right. ring.
Qed.

Lemma hkl_metric : a = b -> ga = PI / 2 \/ (al = PI / 2 /\ be = PI / 2) -> has_metric
  (M3 (V3 (b * sin ga) 0 (c * cos be))
      (V3 (b * cos ga) a (c * (cos al - cos be * cos ga) / sin ga))
      (V3 0 0 (c * sqrt (1 + 2 * cos al * cos be * cos ga - cos al ^ 2 - cos be ^ 2 - cos ga ^ 2) / sin ga)))
  a b c al be ga.
Proof.
  intros Eab Hang. pose proof sin_pos_ga as HS. pose proof sin2 as S2. destruct gram_sqrt as [G _].
  set (g := sqrt _) in *. unfold has_metric; munf. rewrite Eab.
  destruct Hang as [Hg|[Ha Hb]].
  - rewrite Hg in *. rewrite cos_PI2, sin_PI2 in *. unfold Rdiv; rewrite Rinv_1.
    repeat split; try ring.
    transitivity (c * c * (cos be * cos be + cos al * cos al + g * g)); [ring|]. rewrite G. ring.
  - rewrite Ha, Hb in *. rewrite cos_PI2 in *.
    assert (I : sin ga * / sin ga = 1) by (field; lra).
    set (i := / sin ga) in *. unfold Rdiv. fold i.
    assert (I2 : i * i * (1 - cos ga * cos ga) = 1).
    { rewrite <- S2. replace (i * i * (sin ga * sin ga)) with ((sin ga * i) * (sin ga * i)) by ring.
      rewrite I; ring. }
    repeat split; try ring.
    + transitivity (b * b * (sin ga * sin ga + cos ga * cos ga)); [ring|]. rewrite S2; ring.
    + transitivity (c * c * (i * i * (g * g))); [ring|]. rewrite G.
      transitivity (c * c * (i * i * (1 - cos ga * cos ga))); [ring|]. rewrite I2; ring.
Qed.
End Cell.

(** ** The hexagonal cell *)
Definition hexL_hkl (ca : R) : mat3 :=
  M3 (V3 (sqrt 3 / 2) 0 0) (V3 (- (1 / 2)) 1 0) (V3 0 0 ca).
Definition hexL_tsl (ca : R) : mat3 :=
  M3 (V3 1 (- (1 / 2)) 0) (V3 0 (sqrt 3 / 2) 0) (V3 0 0 ca).

Definition known_conv (conv : string) : Prop :=
  lower conv = "hkl"%string \/ lower conv = "oi"%string \/ lower conv = "tsl"%string.

Lemma cos23 : cos (PI * 2 / 3) = - (1 / 2).
Proof. replace (PI * 2 / 3) with (2 * (PI / 3)) by field. rewrite cos_2PI3. field. Qed.
Lemma sin23 : sin (PI * 2 / 3) = sqrt 3 / 2.
Proof. replace (PI * 2 / 3) with (2 * (PI / 3)) by field. apply sin_2PI3. Qed.
Lemma sqrt3_pos : 1.7 < sqrt 3.
Proof.
  apply Rlt_le_trans with (sqrt (1.71 * 1.71)).
  - rewrite sqrt_square by lra. lra.
  - apply sqrt_le_1_alt. lra.
Qed.
Lemma sqrt3_lt : sqrt 3 < 1.75.
Proof.
  apply Rle_lt_trans with (sqrt (1.74 * 1.74)).
  - apply sqrt_le_1_alt. lra.
  - rewrite sqrt_square by lra. lra.
Qed.
Lemma sqrt3_sq : sqrt 3 * sqrt 3 = 3. Proof. apply sqrt_sqrt; lra. Qed.
Lemma not_tiny_half : not_tiny (sqrt 3 / 2).
Proof. right. pose proof sqrt3_pos. rewrite Rabs_right by lra. lra. Qed.
Lemma sqrt34 : sqrt (1 + 2 * 0 * 0 * - (1 / 2) - 0 ^ 2 - 0 ^ 2 - (- (1 / 2)) ^ 2) = sqrt 3 / 2.
Proof.
  replace (1 + 2 * 0 * 0 * - (1 / 2) - 0 ^ 2 - 0 ^ 2 - (- (1 / 2)) ^ 2)
    with ((sqrt 3 / 2) * (sqrt 3 / 2)).
  - apply sqrt_square. pose proof sqrt3_pos; lra.
  - transitivity (sqrt 3 * sqrt 3 / 4); [field|]. rewrite sqrt3_sq. field.
Qed.

Lemma hex_raw_tiny : forall ca, 1 / 10 ^ 10 <= ca ->
  forall x, In x (raw_entries 1 1 ca (PI / 2) (PI / 2) (PI * 2 / 3)) -> not_tiny x.
Proof.
  intros ca H x. unfold raw_entries. rewrite cos_PI2, cos23, sin23, sqrt34. cbn [In].
  pose proof sqrt3_pos.
  assert (0 < 1 / 10 ^ 10) by lra.
  intros [<-|[<-|[<-|[<-|[<-|[<-|[]]]]]]].
  - right. rewrite Rabs_R1. lra.
  - right. rewrite Rabs_left by lra. lra.
  - left; ring.
  - replace (1 * (sqrt 3 / 2)) with (sqrt 3 / 2) by ring. apply not_tiny_half.
  - left. field. lra.
  - right. replace (ca * (sqrt 3 / 2) / (sqrt 3 / 2)) with ca by (field; lra).
    rewrite Rabs_right; lra.
Qed.

Lemma hexL_det : forall ca, det (hexL_hkl ca) = sqrt 3 / 2 * ca /\ det (hexL_tsl ca) = sqrt 3 / 2 * ca.
Proof. intros; split; unfold hexL_hkl, hexL_tsl; munf; ring. Qed.

Lemma hex_create : forall ca conv, known_conv conv -> 1 / 10 ^ 10 <= ca ->
  exists l, create_l_matrix 1 1 ca (PI / 2) (PI / 2) (PI * 2 / 3) conv = Ok l /\
    (((lower conv = "hkl"%string \/ lower conv = "oi"%string) /\ l = hexL_hkl ca) \/
     (lower conv = "tsl"%string /\ l = hexL_tsl ca)).
Proof.
  intros ca conv Hc H. pose proof (hex_raw_tiny ca H) as T. pose proof sqrt3_pos.
  destruct Hc as [Hc|[Hc|Hc]].
  - eexists; split; [apply l_matrix_hkl; auto|]. left; split; auto.
    rewrite cos_PI2, cos23, sin23, sqrt34. unfold hexL_hkl.
    f_equal; f_equal; field; lra.
  - eexists; split; [apply l_matrix_hkl; auto|]. left; split; auto.
    rewrite cos_PI2, cos23, sin23, sqrt34. unfold hexL_hkl.
    f_equal; f_equal; field; lra.
  - eexists; split; [apply l_matrix_tsl; auto|]. right; split; auto.
    rewrite cos_PI2, cos23, sin23, sqrt34. unfold hexL_tsl.
    f_equal; f_equal; field; lra.
Qed.

Lemma hex_matrices_spec : forall ca conv, known_conv conv -> 1 / 10 ^ 10 <= ca ->
  exists l q, hex_matrices ca conv = Ok (l, q) /\ (l = hexL_hkl ca \/ l = hexL_tsl ca) /\
    mprod (transpose q) l = mone /\ mprod l (transpose q) = mone.
Proof.
  intros ca conv Hc H. pose proof sqrt3_pos as S3.
  assert (0 < 1 / 10 ^ 10) by lra.
  destruct (hex_create ca conv Hc H) as (l & E & D).
  assert (Hl : l = hexL_hkl ca \/ l = hexL_tsl ca) by tauto.
  assert (Hd : 0 < det l).
  { destruct (hexL_det ca) as [D1 D2]. destruct Hl as [-> | ->]; rewrite ?D1, ?D2;
    apply Rmult_lt_0_compat; lra. }
  destruct (q_matrix_spec l) as (q & Eq & Hq & _); [lra|].
  exists l, q. unfold hex_matrices. rewrite E. cbn [bind]. rewrite Eq. cbn [bind].
  split; [auto|]. split; [auto|]. auto.
Qed.

(** Scalar products of planes and directions are kept. *)
Lemma sprod_transpose : forall m u v, sprod (mapply m u) v = sprod u (mapply (transpose m) v).
Proof. intros [[] [] []] [] []. munf. ring. Qed.

Lemma dual_sprod : forall l q p d, mprod (transpose q) l = mone ->
  sprod (mapply q p) (mapply l d) = sprod p d.
Proof.
  intros l q p d H. rewrite sprod_transpose.
  assert (E : mapply (transpose q) (mapply l d) = mapply (mprod (transpose q) l) d).
  { destruct q as [[] [] []], l as [[] [] []], d. munf. f_equal; ring. }
  rewrite E, H. destruct d as [d0 d1 d2], p as [p0 p1 p2]; munf. ring.
Qed.
