(** C121: a DIC map finds the EBSD grains at their places, however it is cropped. *)
From Coq Require Import String Reals Lra Psatz.
From Coq Require Import List ZArith Bool Lia.
Import ListNotations.
From Verif Require Import Py Grid Grid_Lemmas Crystal_Model Base_Model Dic_Model Dic_Spec Dic_Proofs Dic_Props DicGrains_Model DicGrains_Props DicLink_Model DicLink_Spec.
Open Scope Z_scope.

Lemma at_coords pts xys : Forall2 (fun p xy => at_xy p (fst xy) (snd xy)) pts xys -> coords pts = Ok xys.
Proof.
  unfold coords. induction 1 as [|p xy pts xys A _ IH]; cbn [map_res]; [reflexivity|].
  destruct xy as [x y]. cbn [fst snd] in A. destruct A as [-> | ->]; cbn [bind]; now rewrite IH.
Qed.
(** A pixel is linked to the EBSD grain of its label. *)
Lemma linked_label W H w n lab gl : 0 <= W -> 0 <= H -> warp_find_grains W H w n = Ok (lab, gl) ->
  forall p g, inside W H p -> (linked gl p g <-> w p = Z.of_nat g + 1).
Proof.
  intros W0 H0 E p g I. pose proof (C08_renumbering W H w n W0 H0 lab gl E) as (R1 & R2 & R3 & R4 & R5).
  pose proof (C08_grains_and_links W H w n W0 H0 lab gl E) as GL. split.
  - intros (pts & In1 & In2). apply In_nth_error in In1 as (k & N). destruct (GL k pts g N) as (_ & _ & _ & L). specialize (L p In2). lia.
  - intros L. assert (P : 0 < w p) by lia. pose proof (R2 p I P) as B.
    destruct (nth_error gl (Z.to_nat (lab p - 1))) as [[pts g']|] eqn:N; [|apply nth_error_None in N; lia].
    destruct (GL _ pts g' N) as (_ & _ & M & L'). assert (In p pts) as Ip by (apply M; split; [exact I|lia]).
    specialize (L' p Ip). assert (g' = g) as -> by lia. exists pts. split; [now apply nth_error_In in N|exact Ip].
Qed.

Lemma insideb_inside W H p : insideb W H p = true <-> inside W H p.
Proof. unfold insideb, inside. rewrite !andb_true_iff, !Z.leb_le, !Z.ltb_lt. lia. Qed.

Lemma half_up_is x n : (- (1/2) <= x - IZR n < 1/2)%R <-> half_up x = n.
Proof.
  unfold half_up. destruct (base_Int_part (x + 1/2)) as (B1 & B2). set (k := Int_part (x + 1/2)) in *. split.
  - intros (A1 & A2). assert (IZR (k - n) < 1)%R by (rewrite minus_IZR; lra). assert (-1 < IZR (k - n))%R by (rewrite minus_IZR; lra).
    apply (lt_IZR _ 1) in H. apply (lt_IZR (-1)) in H0. lia.
  - intros <-. lra.
Qed.
Lemma on_rows_is n x : on_rows n x = true <-> (0 <= x <= IZR (n - 1))%R.
Proof. unfold on_rows. destruct (Rle_dec 0 x), (Rle_dec x (IZR (n - 1))); cbn [andb]; split; intros; try lra; try discriminate; auto. Qed.
Lemma on_rows_half_up n x : on_rows n x = true -> 0 <= half_up x < n.
Proof.
  intros O. apply on_rows_is in O as (A & B). pose proof (proj2 (half_up_is x (half_up x)) eq_refl) as (C & D).
  rewrite minus_IZR in B.
  assert (-1 < IZR (half_up x))%R as E by lra. apply (lt_IZR (-1)) in E.
  assert (IZR (half_up x) < IZR n)%R as F by lra. apply lt_IZR in F. lia.
Qed.

(** What the nearest pixel has. *)
Lemma warp_value e t p k : 0 < k -> (warp_nearest (s_w e) (s_h e) (s_labels e) t p = k <->
  let q := t (place p) in between e q /\ exists r, nearest q r /\ inside (s_w e) (s_h e) r /\ s_labels e r = k).
Proof.
  intros K. cbv zeta. unfold warp_nearest. fold (place p). set (q := t (place p)). cbv zeta.
  destruct (on_rows (s_w e) (fst q)) eqn:O1.
  2: { cbn [andb]. split; [lia|]. intros ((B & _) & _). apply on_rows_is in B. congruence. }
  destruct (on_rows (s_h e) (snd q)) eqn:O2.
  2: { cbn [andb]. split; [lia|]. intros ((_ & B) & _). apply on_rows_is in B. congruence. }
  cbn [andb]. pose proof (on_rows_half_up _ _ O1). pose proof (on_rows_half_up _ _ O2).
  apply on_rows_is in O1, O2. split.
  - intros E. split; [split; assumption|]. exists (half_up (fst q), half_up (snd q)).
    split; [split; now apply half_up_is|]. split; [unfold inside; cbn [fst snd]; lia|exact E].
  - intros (_ & (rx, ry) & (N1 & N2) & _ & E). apply half_up_is in N1, N2. cbn [fst snd] in *. now rewrite N1, N2.
Qed.

Section At.
Variables (est : estimator) (inv : (R * R -> R * R) -> R * R -> R * R) (dic ebsd : frame) (r : relations).
Hypothesis different : dic <> ebsd.
Hypothesis one_way : rel_get r (ebsd, dic) = None.

Lemma to_ebsd_is ty args c m e dp ep : transform_lookup (lower ty) = Some c ->
  coords (d_homog m) = Ok dp -> coords (s_points e) = Ok ep ->
  to_ebsd est inv dic ebsd (link_ebsd_map r dic ebsd ty args) m e = Ok (est c dp ep args).
Proof.
  intros L D E. unfold to_ebsd. rewrite D, E. cbn [bind]. unfold link_ebsd_map.
  pose proof (C50_linked_partial _ _ est inv (fun f => if f =? dic then dp else ep) r dic ebsd c (Link (lower ty) args) different one_way L) as (-> & _).
  rewrite Z.eqb_refl. destruct (Z.eqb_spec ebsd dic); [congruence|reflexivity].
Qed.
Lemma find_is ty args c m e dp ep lab gl : transform_lookup (lower ty) = Some c ->
  coords (d_homog m) = Ok dp -> coords (s_points e) = Ok ep ->
  find_warped est inv dic ebsd (link_ebsd_map r dic ebsd ty args) m e = Ok (lab, gl) ->
  forall p g, on_map m p ->
   (linked gl p g <-> warp_nearest (s_w e) (s_h e) (s_labels e) (est c dp ep args) p = Z.of_nat g + 1).
Proof.
  intros L D E F p g O. unfold find_warped, warped_labels in F. rewrite (to_ebsd_is ty args c m e dp ep L D E) in F. cbn [bind] in F.
  assert (0 <= snd (d_shape m) /\ 0 <= fst (d_shape m)) as (W0 & H0) by (unfold on_map, inside in O; lia).
  exact (linked_label _ _ _ _ _ _ W0 H0 F p g O).
Qed.
End At.

(** ** Places *)
Definition off (m : dic_map) : R * R := (- IZR (c_left (d_crops m)), - IZR (c_top (d_crops m)))%R.
Lemma material_coords m xys : on_material m xys -> coords (d_homog m) = Ok (map (moved (off m)) xys).
Proof.
  intros O. apply at_coords. unfold on_material in O. induction O as [|p xy l l' A _ IH]; constructor; auto.
Qed.
Lemma place_moved m p : place p = moved (off m) (place (data_pixel m p)).
Proof. unfold place, moved, off, data_pixel. cbn [fst snd]. rewrite !plus_IZR. f_equal; lra. Qed.
Lemma spread_moved d l : spread l -> spread (map (moved d) l).
Proof.
  intros (p & q & s & P & Q & S' & C). exists (moved d p), (moved d q), (moved d s). repeat split; try (now apply in_map).
  intros X. apply C. unfold cross, moved in *. cbn [fst snd] in X. lra.
Qed.
Lemma exact_moved est a xys args d p : exact est -> spread xys ->
  est Affine (map (moved d) xys) (map (aff a) xys) args (moved d p) = aff a p.
Proof.
  intros X SP. set (a' := Aff (a11 a) (a12 a) (a21 a) (a22 a) (tx a - a11 a * fst d - a12 a * snd d) (ty a - a21 a * fst d - a22 a * snd d)).
  assert (Q : forall q, aff a q = aff a' (moved d q)) by (intros q; unfold aff, a', moved; cbn [a11 a12 a21 a22 tx ty fst snd]; f_equal; ring).
  rewrite (map_ext _ _ Q), <- (map_map (moved d) (aff a')), X by now apply spread_moved. now rewrite <- Q.
Qed.

(** ** The theorems *)
Section Theorems.
Variables (est : estimator) (inv : (R * R -> R * R) -> R * R -> R * R) (dic ebsd : frame) (r : relations).
Hypothesis different : dic <> ebsd.
Hypothesis one_way : rel_get r (ebsd, dic) = None.

Lemma crops_material calls m m' xys : on_material m xys -> Forall (fun c => k_update c = true) calls ->
  run_crops m calls = Ok m' -> on_material m' xys.
Proof. intros O U E. destruct (C47_material_points calls m xys O U) as (m2 & E2 & O2). congruence. Qed.

(** With homologous points that an affine map takes to those of the EBSD map, every pixel of the
    cropped map is in the grain at the place where that map takes the pixel of the data, if the place
    is between the centres of pixels of the EBSD map; and in no grain otherwise. *)
Theorem C121_place : forall ty args a calls m m' xys e lab gl,
  exact est -> spread xys -> lower ty = "affine"%string ->
  on_material m xys -> points_at (s_points e) (map (aff a) xys) ->
  Forall (fun c => k_update c = true) calls -> run_crops m calls = Ok m' ->
  find_warped est inv dic ebsd (link_ebsd_map r dic ebsd ty args) m' e = Ok (lab, gl) ->
  forall p, on_map m' p -> let q := aff a (place (data_pixel m' p)) in
  forall g, linked gl p g <-> between e q /\ exists s, nearest q s /\ in_grain e s g.
Proof.
  intros ty args a calls m m' xys e lab gl X SP TY OM PE U RC F p OP q g.
  pose proof (material_coords _ _ (crops_material _ _ _ _ OM U RC)) as D. pose proof (at_coords _ _ PE) as E.
  assert (L : transform_lookup (lower ty) = Some Affine) by (rewrite TY; reflexivity).
  assert (Q : est Affine (map (moved (off m')) xys) (map (aff a) xys) args (place p) = q)
    by (rewrite (place_moved m' p); now apply exact_moved).
  rewrite (find_is est inv dic ebsd r different one_way ty args Affine m' e _ _ lab gl L D E F p g OP).
  rewrite warp_value by lia. cbv zeta. rewrite Q. reflexivity.
Qed.

(** Grains are found exactly if a pixel of the cropped map comes to lie in an EBSD grain. *)
Theorem C121_found : forall ty args a calls m m' xys e,
  exact est -> spread xys -> lower ty = "affine"%string ->
  on_material m xys -> points_at (s_points e) (map (aff a) xys) ->
  Forall (fun c => k_update c = true) calls -> run_crops m calls = Ok m' ->
  (forall q, inside (s_w e) (s_h e) q -> s_labels e q <= Z.of_nat (s_grains e)) ->
  0 <= snd (d_shape m') -> 0 <= fst (d_shape m') ->
  ((exists lab gl, find_warped est inv dic ebsd (link_ebsd_map r dic ebsd ty args) m' e = Ok (lab, gl)) <->
   exists p, on_map m' p /\ let q := aff a (place (data_pixel m' p)) in
     between e q /\ exists s g, nearest q s /\ in_grain e s g).
Proof.
  intros ty args a calls m m' xys e X SP TY OM PE U RC LE W0 H0.
  pose proof (material_coords _ _ (crops_material _ _ _ _ OM U RC)) as D. pose proof (at_coords _ _ PE) as E.
  assert (L : transform_lookup (lower ty) = Some Affine) by (rewrite TY; reflexivity).
  unfold find_warped, warped_labels. rewrite (to_ebsd_is est inv dic ebsd r different one_way ty args Affine m' e _ _ L D E). cbn [bind].
  set (w := warp_nearest _ _ _ _).
  assert (V : forall p k, 0 < k -> (w p = k <-> let q := aff a (place (data_pixel m' p)) in
     between e q /\ exists s, nearest q s /\ inside (s_w e) (s_h e) s /\ s_labels e s = k)).
  { intros p k K. unfold w. rewrite (warp_value e _ p k K), (place_moved m' p). cbv zeta. rewrite exact_moved by assumption. reflexivity. }
  destruct (C08_outcome (snd (d_shape m')) (fst (d_shape m')) w (s_grains e) W0 H0) as (OK & NO). split.
  - intros (lab & gl & F). destruct (existsb (fun p => 0 <? w p) (all_pix (snd (d_shape m')) (fst (d_shape m')))) eqn:B.
    + apply existsb_exists in B as (p & I & P). apply all_pix_In in I; [|assumption..]. apply Z.ltb_lt in P.
      exists p. split; [exact I|]. destruct (proj1 (V p (w p) P) eq_refl) as (BT & s & N & IS & G).
      split; [exact BT|]. exists s, (Z.to_nat (w p - 1)). split; [exact N|]. split; [exact IS|lia].
    + rewrite NO in F; [discriminate|]. intros p I.
      destruct (Z.ltb_spec 0 (w p)) as [P|P]; [|lia]. exfalso.
      assert (existsb (fun p => 0 <? w p) (all_pix (snd (d_shape m')) (fst (d_shape m'))) = true); [|congruence].
      apply existsb_exists. exists p. split; [now apply all_pix_In|now apply Z.ltb_lt].
  - intros (p & O & B & s & g & N & I & G). destruct OK as ((lab & gl) & R1).
    + intros t _. unfold w, warp_nearest. cbv zeta. destruct (on_rows _ _ && _)%bool eqn:B'; [|lia].
      apply andb_true_iff in B' as (B1 & B2). apply on_rows_half_up in B1, B2. apply LE. unfold inside. cbn [fst snd]. lia.
    + exists p. split; [exact O|]. rewrite (proj2 (V p (Z.of_nat g + 1) ltac:(lia))); [lia|]. split; [exact B|]. exists s. auto.
    + exists lab, gl. exact R1.
Qed.

(** For any homologous points, any class of transform whose estimate moves along with the points, and
    any two ways of cropping, a pixel of the data in both is in the same EBSD grain. *)
Theorem C121_crops : forall ty args c m xys e calls1 m1 lab1 gl1 calls2 m2 lab2 gl2,
  transform_lookup (lower ty) = Some c -> shifts est c ->
  on_material m xys -> (exists ep, points_at (s_points e) ep /\ List.length ep = List.length xys) ->
  Forall (fun c => k_update c = true) (calls1 ++ calls2) ->
  run_crops m calls1 = Ok m1 -> run_crops m calls2 = Ok m2 ->
  find_warped est inv dic ebsd (link_ebsd_map r dic ebsd ty args) m1 e = Ok (lab1, gl1) ->
  find_warped est inv dic ebsd (link_ebsd_map r dic ebsd ty args) m2 e = Ok (lab2, gl2) ->
  forall p1 p2, on_map m1 p1 -> on_map m2 p2 -> data_pixel m1 p1 = data_pixel m2 p2 ->
  forall g, linked gl1 p1 g <-> linked gl2 p2 g.
Proof.
  intros ty args c m xys e calls1 m1 lab1 gl1 calls2 m2 lab2 gl2 L SH OM (ep & PE & LN) U R1 R2 F1 F2 p1 p2 O1 O2 SD g.
  apply Forall_app in U as (U1 & U2).
  pose proof (material_coords _ _ (crops_material _ _ _ _ OM U1 R1)) as D1. pose proof (material_coords _ _ (crops_material _ _ _ _ OM U2 R2)) as D2.
  pose proof (at_coords _ _ PE) as E.
  rewrite (find_is est inv dic ebsd r different one_way ty args c m1 e _ _ lab1 gl1 L D1 E F1 p1 g O1).
  rewrite (find_is est inv dic ebsd r different one_way ty args c m2 e _ _ lab2 gl2 L D2 E F2 p2 g O2).
  assert (Q : est c (map (moved (off m1)) xys) ep args (place p1) = est c (map (moved (off m2)) xys) ep args (place p2)).
  { rewrite (place_moved m1 p1), (place_moved m2 p2), !SH by now symmetry. now rewrite SD. }
  unfold warp_nearest. fold (place p1). fold (place p2). rewrite Q. reflexivity.
Qed.

End Theorems.
Print Assumptions C121_place.
Print Assumptions C121_found.
Print Assumptions C121_crops.

(** ** Least squares *)
Section Sums.
Context {T : Type}.
Definition tot (l : list T) (f : T -> R) : R := sum (map f l).
Lemma tot_cons t l f : tot (t :: l) f = (f t + tot l f)%R.
Proof. reflexivity. Qed.
Lemma tot_ext l f g : (forall t, In t l -> f t = g t) -> tot l f = tot l g.
Proof. induction l as [|t l IH]; intros E; [reflexivity|]. rewrite !tot_cons, (E t), IH; auto; [|now left]. intros; apply E; now right. Qed.
Lemma tot_plus l f g : tot l (fun t => f t + g t)%R = (tot l f + tot l g)%R.
Proof. induction l as [|t l IH]; [unfold tot; cbn; lra|]. rewrite !tot_cons, IH. lra. Qed.
Lemma tot_mult l k f : tot l (fun t => k * f t)%R = (k * tot l f)%R.
Proof. induction l as [|t l IH]; [unfold tot; cbn; lra|]. rewrite !tot_cons, IH. lra. Qed.
Lemma tot_const l k : tot l (fun _ => k) = (k * INR (List.length l))%R.
Proof. induction l as [|t l IH]; [unfold tot; cbn; lra|]. cbn [List.length]. rewrite tot_cons, IH, S_INR. lra. Qed.
Lemma tot_pos l f : (forall t, In t l -> 0 <= f t)%R -> (0 <= tot l f)%R /\ (tot l f = 0%R -> forall t, In t l -> f t = 0%R).
Proof.
  induction l as [|t l IH]; intros P; [split; [unfold tot; cbn; lra|intros _ ? []]|]. rewrite tot_cons.
  destruct IH as (I1 & I2); [intros; apply P; now right|]. pose proof (P t (or_introl eq_refl)). split; [lra|]. intros E.
  intros t' [<-|I]; [lra|]. apply I2; [lra|exact I].
Qed.
Definition cv (l : list T) (f g : T -> R) : R := (INR (List.length l) * tot l (fun t => f t * g t) - tot l f * tot l g)%R.
Lemma cov_cv l f g : cov (INR (List.length l)) (map f l) (map g l) = cv l f g.
Proof. unfold cov, cv, tot. do 3 f_equal. induction l as [|t l IH]; cbn [map combine]; [reflexivity|]. now rewrite IH. Qed.
Definition coef (l : list T) (x y u : T -> R) : R * R * R :=
  let d := (cv l x x * cv l y y - cv l x y * cv l x y)%R in
  let a := ((cv l x u * cv l y y - cv l y u * cv l x y) / d)%R in
  let b := ((cv l y u * cv l x x - cv l x u * cv l x y) / d)%R in
  (a, b, ((tot l u - a * tot l x - b * tot l y) / INR (List.length l))%R).
Lemma fit_coef l x y u : fit (map x l) (map y l) (map u l) = coef l x y u.
Proof. unfold fit, coef. rewrite map_length, !cov_cv. reflexivity. Qed.

Lemma cv_lin l f g u a b c : (forall t, In t l -> u t = a * f t + b * g t + c)%R ->
  forall h, cv l h u = (a * cv l h f + b * cv l h g)%R.
Proof.
  intros E h. unfold cv.
  rewrite (tot_ext l u (fun t => (a * f t + b * g t) + c)%R) by (intros; rewrite E; auto).
  rewrite (tot_ext l (fun t => h t * u t)%R (fun t => (a * (h t * f t) + b * (h t * g t)) + c * h t)%R) by (intros; rewrite E; auto; ring).
  rewrite !tot_plus, !tot_mult, tot_const. ring.
Qed.
Lemma cv_sym l f g : cv l f g = cv l g f.
Proof. unfold cv. rewrite (tot_ext l (fun t => f t * g t)%R (fun t => g t * f t)%R) by (intros; ring). ring. Qed.
Lemma coef_exact l x y u a b c : l <> [] -> (cv l x x * cv l y y - cv l x y * cv l x y <> 0)%R ->
  (forall t, In t l -> u t = a * x t + b * y t + c)%R -> coef l x y u = (a, b, c).
Proof.
  intros NE D E. assert (N : INR (List.length l) <> 0%R) by (apply not_0_INR; destruct l; [congruence|discriminate]).
  unfold coef. rewrite (cv_lin l x y u a b c E x), (cv_lin l x y u a b c E y), (cv_sym l y x).
  assert (A : (((a * cv l x x + b * cv l x y) * cv l y y - (a * cv l x y + b * cv l y y) * cv l x y) / (cv l x x * cv l y y - cv l x y * cv l x y) = a)%R) by (field; exact D).
  assert (B : (((a * cv l x y + b * cv l y y) * cv l x x - (a * cv l x x + b * cv l x y) * cv l x y) / (cv l x x * cv l y y - cv l x y * cv l x y) = b)%R) by (field; exact D).
  rewrite A, B. f_equal.
  rewrite (tot_ext l u (fun t => (a * x t + b * y t) + c)%R) by (intros; rewrite E; auto). rewrite !tot_plus, !tot_mult, tot_const. field. exact N.
Qed.
(** Points whose moments are degenerate are on a line. *)
Lemma degenerate l x y : l <> [] -> (cv l x x * cv l y y - cv l x y * cv l x y = 0)%R ->
  exists a b c, (a <> 0%R \/ b <> 0%R) /\ (forall t, In t l -> a * x t + b * y t + c = 0)%R.
Proof.
  intros NE D. assert (N : (0 < INR (List.length l))%R) by (apply lt_0_INR; destruct l; [congruence|cbn; lia]).
  set (n := INR (List.length l)) in *.
  assert (K : forall a b, (a * a * cv l x x + 2 * a * b * cv l x y + b * b * cv l y y = 0)%R ->
     forall t, In t l -> (a * x t + b * y t + - (a * tot l x + b * tot l y) / n = 0)%R).
  { intros a b Z. set (c := (- (a * tot l x + b * tot l y) / n)%R).
    destruct (tot_pos l (fun t => (a * x t + b * y t + c) * (a * x t + b * y t + c))%R) as (_ & P); [intros t _; exact (Rle_0_sqr _)|].
    assert (Q : tot l (fun t => (a * x t + b * y t + c) * (a * x t + b * y t + c))%R = 0%R).
    { rewrite (tot_ext _ _ (fun t => a * a * (x t * x t) + 2 * a * b * (x t * y t) + b * b * (y t * y t) + (2 * a * c) * x t + (2 * b * c) * y t + c * c)%R) by (intros; ring).
      rewrite !tot_plus, !tot_mult, tot_const. fold n. unfold cv in Z. fold n in Z. unfold c.
      set (sxx := tot l (fun t => x t * x t)%R) in *. set (sxy := tot l (fun t => x t * y t)%R) in *. set (syy := tot l (fun t => y t * y t)%R) in *.
      apply Rmult_eq_reg_l with n; [|lra]. rewrite Rmult_0_r, <- Z. field. lra. }
    intros t I. specialize (P Q t I). cbn beta in P. exact (Rsqr_0_uniq _ P). }
  destruct (Req_dec (cv l y y) 0) as [Y|Y].
  - assert (cv l x y = 0)%R as XY by (rewrite Y in D; nra). exists 0%R, 1%R, (- (0 * tot l x + 1 * tot l y) / n)%R. split; [right; lra|].
    apply K. rewrite Y. ring.
  - exists (cv l y y), (- cv l x y)%R, (- (cv l y y * tot l x + (- cv l x y) * tot l y) / n)%R. split; [left; exact Y|].
    apply K. transitivity (cv l y y * (cv l x x * cv l y y - cv l x y * cv l x y))%R; [ring|rewrite D; ring].
Qed.
Lemma cv_shift l f g d : cv l (fun t => f t + d)%R g = cv l f g.
Proof.
  unfold cv. rewrite (tot_ext l (fun t => (f t + d) * g t)%R (fun t => f t * g t + d * g t)%R) by (intros; ring).
  rewrite !tot_plus, !tot_mult, tot_const. ring.
Qed.
Lemma coef_shift l x y u d1 d2 :
  let '(a, b, c) := coef l x y u in coef l (fun t => x t + d1)%R (fun t => y t + d2)%R u = (a, b, c - a * d1 - b * d2)%R.
Proof.
  unfold coef. rewrite !cv_shift. rewrite (cv_sym l x (fun t => y t + d2)%R), (cv_sym l x (fun t => x t + d1)%R), (cv_sym l y (fun t => y t + d2)%R), !cv_shift.
  rewrite (cv_sym l y x). cbv zeta.
  set (a := (_ / _)%R). set (b := ((cv l y u * _ - _) / _)%R). f_equal. destruct l as [|t l].
  - assert (a = 0)%R as -> by (unfold a, cv, tot, Rdiv; cbn; ring). assert (b = 0)%R as -> by (unfold b, cv, tot, Rdiv; cbn; ring).
    unfold tot, Rdiv. cbn. ring.
  - rewrite !tot_plus, !tot_const. assert (INR (List.length (t :: l)) <> 0)%R by (apply not_0_INR; discriminate). field. exact H.
Qed.
End Sums.

(** The least squares fit is an estimate as supposed. *)
Theorem C121_least_squares : exact least_squares /\ forall c, shifts least_squares c.
Proof.
  split.
  - intros a src args p SP. unfold least_squares.
    assert (NE : src <> []) by (destruct SP as (s & _ & _ & I & _); intros ->; destruct I).
    assert (D : (cv src fst fst * cv src snd snd - cv src fst snd * cv src fst snd <> 0)%R).
    { intros Z. destruct (degenerate src fst snd NE Z) as (k1 & k2 & k3 & NZ & L). destruct SP as (s & q & t & I1 & I2 & I3 & C). apply C.
      pose proof (L s I1). pose proof (L q I2). pose proof (L t I3). unfold cross.
      assert (E1 : (k1 * (fst q - fst s) + k2 * (snd q - snd s) = 0)%R) by lra. assert (E2 : (k1 * (fst t - fst s) + k2 * (snd t - snd s) = 0)%R) by lra.
      destruct NZ as [K|K]; apply Rmult_eq_reg_l with (2 := K); rewrite Rmult_0_r.
      - transitivity ((k1 * (fst q - fst s) + k2 * (snd q - snd s)) * (snd t - snd s) - (k1 * (fst t - fst s) + k2 * (snd t - snd s)) * (snd q - snd s))%R; [ring|].
        rewrite E1, E2. ring.
      - transitivity ((k1 * (fst t - fst s) + k2 * (snd t - snd s)) * (fst q - fst s) - (k1 * (fst q - fst s) + k2 * (snd q - snd s)) * (fst t - fst s))%R; [ring|].
        rewrite E1, E2. ring. }
    rewrite !map_map. rewrite !fit_coef.
    rewrite (coef_exact src fst snd (fun t => fst (aff a t)) (a11 a) (a12 a) (tx a) NE D) by reflexivity.
    rewrite (coef_exact src fst snd (fun t => snd (aff a t)) (a21 a) (a22 a) (ty a) NE D) by reflexivity. reflexivity.
  - intros c d src dst args p LN. unfold least_squares.
    assert (exists l : list ((R * R) * (R * R)), src = map fst l /\ dst = map snd l) as (l & -> & ->).
    { exists (combine src dst). clear - LN. revert dst LN. induction src as [|s src IH]; destruct dst as [|e dst]; try discriminate; [auto|].
      intros LN. injection LN as LN. destruct (IH dst LN) as (E1 & E2). cbn [combine map fst snd]. split; congruence. }
    rewrite !map_map. rewrite !fit_coef.
    pose proof (coef_shift l (fun t => fst (fst t)) (fun t => snd (fst t)) (fun t => fst (snd t)) (fst d) (snd d)) as C1.
    pose proof (coef_shift l (fun t => fst (fst t)) (fun t => snd (fst t)) (fun t => snd (snd t)) (fst d) (snd d)) as C2.
    unfold moved. cbn [fst snd].
    destruct (coef l _ _ (fun t => fst (snd t))) as [[a1 b1] c1]. destruct (coef l _ _ (fun t => snd (snd t))) as [[a2 b2] c2].
    rewrite C1, C2. f_equal; ring.
Qed.
Print Assumptions C121_least_squares.

(** Without updating the points, as by default, the grains move: whatever the estimate, cropping one
    column off the left puts another grain at the same pixel of the data. *)
Definition bare : dic_map := Dic 4 2 (Crops 0 0 0 0) (2, 4) [PTuple [0; 0]; PTuple [1; 0]; PTuple [0; 1]]%R.
Definition columns : ebsd_side := EbsdSide [PTuple [0; 0]; PTuple [1; 0]; PTuple [0; 1]]%R 4 2 (fun p => fst p + 1) 4.
Definition crop_left (update : bool) : crop_call := Call (Some 1) None None None update.
(** A turned EBSD map, and a map to crop twice. *)
Definition turned : ebsd_side := EbsdSide [PTuple [5; 0]; PSeq [5; 3]; PTuple [3; 0]]%R 6 6 (fun p => fst p + 1) 6.
Definition picked : dic_map := Dic 6 4 (Crops 0 0 0 0) (4, 6) [PTuple [0; 0]; PTuple [3; 0]; PSeq [0; 2]]%R.
Lemma exact_nearest x y : nearest (IZR x, IZR y) (x, y).
Proof. unfold nearest. cbn [fst snd]. rewrite !Rminus_eq_0. lra. Qed.
Lemma exact_between e x y : inside (s_w e) (s_h e) (x, y) -> between e (IZR x, IZR y).
Proof. unfold inside, between. cbn [fst snd]. intros I. repeat split; apply IZR_le; lia. Qed.
Lemma pair_eq (x y x' y' : R) : x = x' -> y = y' -> [x; y] = [x'; y'].
Proof. congruence. Qed.
Ltac at_point := solve [(left + right); cbn [fst snd aff a11 a12 a21 a22 tx ty map c_left c_top d_crops]; apply f_equal, pair_eq; lra].
Ltac at_points := unfold on_material, points_at; repeat match goal with v := _ |- _ => subst v end; cbn [map d_homog s_points bare columns picked turned d_crops]; repeat (apply Forall2_cons; [at_point|]); apply Forall2_nil.
Theorem C121_default_refuted : forall est inv, exact est -> exists m' lab1 gl1 lab2 gl2,
  run_crops bare [crop_left false] = Ok m' /\
  find_warped est inv 0 1 (link_ebsd_map [] 0 1 "affine" []) bare columns = Ok (lab1, gl1) /\
  find_warped est inv 0 1 (link_ebsd_map [] 0 1 "affine" []) m' columns = Ok (lab2, gl2) /\
  data_pixel bare (1, 0) = data_pixel m' (0, 0) /\
  linked gl1 (1, 0) 1 /\ linked gl2 (0, 0) 0 /\ ~ linked gl2 (0, 0) 1.
Proof.
  intros est inv X. set (m' := Dic 4 2 (Crops 1 0 0 0) (2, 3) [PTuple [0; 0]; PTuple [1; 0]; PTuple [0; 1]]%R).
  assert (D : (0 <> 1)%Z) by discriminate.
  set (xys := [(0, 0); (1, 0); (0, 1)]%R). set (xys' := [(1, 0); (2, 0); (1, 1)]%R).
  set (a := Aff 1 0 0 1 0 0). set (a' := Aff 1 0 0 1 (-1) 0).
  assert (SP : spread xys) by (exists (0, 0)%R, (1, 0)%R, (0, 1)%R; unfold xys, cross; cbn [In fst snd]; repeat split; auto; lra).
  assert (SP' : spread xys') by (exists (1, 0)%R, (2, 0)%R, (1, 1)%R; unfold xys', cross; cbn [In fst snd]; repeat split; auto; lra).
  assert (OM : on_material bare xys) by at_points.
  assert (OM' : on_material m' xys') by at_points.
  assert (PE : points_at (s_points columns) (map (aff a) xys)) by at_points.
  assert (PE' : points_at (s_points columns) (map (aff a') xys')) by at_points.
  assert (LE : forall q, inside (s_w columns) (s_h columns) q -> s_labels columns q <= Z.of_nat (s_grains columns))
    by (intros q I; unfold inside, columns in *; cbn [s_w s_h s_labels s_grains] in *; lia).
  assert (Q1 : aff a (place (data_pixel bare (1, 0))) = (IZR 1, IZR 0)) by (unfold aff, a, place, data_pixel, bare; cbn; f_equal; lra).
  assert (Q2 : aff a' (place (data_pixel m' (0, 0))) = (IZR 0, IZR 0)) by (unfold aff, a', place, data_pixel, m'; cbn; f_equal; lra).
  assert (O1 : on_map bare (1, 0)) by (unfold on_map, inside; cbn; lia). assert (O2 : on_map m' (0, 0)) by (unfold on_map, inside; cbn; lia).
  assert (G1 : in_grain columns (1, 0) 1) by (unfold in_grain, inside; cbn; lia). assert (G2 : in_grain columns (0, 0) 0) by (unfold in_grain, inside; cbn; lia).
  assert (N1 : nearest (aff a (place (data_pixel bare (1, 0)))) (1, 0)) by (rewrite Q1; apply exact_nearest).
  assert (N2 : nearest (aff a' (place (data_pixel m' (0, 0)))) (0, 0)) by (rewrite Q2; apply exact_nearest).
  assert (B1 : between columns (aff a (place (data_pixel bare (1, 0))))) by (rewrite Q1; apply exact_between; unfold inside; cbn; lia).
  assert (B2 : between columns (aff a' (place (data_pixel m' (0, 0))))) by (rewrite Q2; apply exact_between; unfold inside; cbn; lia).
  destruct (proj2 (C121_found est inv 0 1 [] D eq_refl "affine" [] a [] bare bare xys columns X SP eq_refl OM PE (Forall_nil _) eq_refl LE ltac:(cbn; lia) ltac:(cbn; lia))) as (lab1 & gl1 & F1);
    [exists (1, 0); eauto 7|].
  destruct (proj2 (C121_found est inv 0 1 [] D eq_refl "affine" [] a' [] m' m' xys' columns X SP' eq_refl OM' PE' (Forall_nil _) eq_refl LE ltac:(cbn; lia) ltac:(cbn; lia))) as (lab2 & gl2 & F2);
    [exists (0, 0); eauto 7|].
  pose proof (C121_place est inv 0 1 [] D eq_refl "affine" [] a [] bare bare xys columns lab1 gl1 X SP eq_refl OM PE (Forall_nil _) eq_refl F1 (1, 0) O1) as P1.
  pose proof (C121_place est inv 0 1 [] D eq_refl "affine" [] a' [] m' m' xys' columns lab2 gl2 X SP' eq_refl OM' PE' (Forall_nil _) eq_refl F2 (0, 0) O2) as P2.
  cbv zeta in P1, P2.
  exists m', lab1, gl1, lab2, gl2. split; [reflexivity|]. split; [exact F1|]. split; [exact F2|]. split; [reflexivity|].
  split; [apply P1; eauto|]. split; [apply P2; eauto|].
  intros LK. apply P2 in LK as (_ & (sx & sy) & (NX & _) & (_ & L)). rewrite Q2 in NX. cbn [fst snd columns s_labels] in *.
  assert (sx = 1) as -> by lia. lra.
Qed.
Print Assumptions C121_default_refuted.

Example C121_met : exists m' lab gl, run_crops picked [Call (Some 1) None (Some 1) None true; Call (Some 2) (Some 1) None None true] = Ok m' /\
  find_warped least_squares (fun t => t) 0 1 (link_ebsd_map [] 0 1 "Affine" []) m' turned = Ok (lab, gl) /\
  d_shape m' = (3, 3) /\ linked gl (0, 0) 4 /\ linked gl (2, 1) 3.
Proof.
  set (xys := [(0, 0); (3, 0); (0, 2)]%R). set (a := Aff 0 (-1) 1 0 5 0). assert (D : (0 <> 1)%Z) by discriminate.
  assert (OM : on_material picked xys) by at_points.
  assert (PE : points_at (s_points turned) (map (aff a) xys)) by at_points.
  assert (SP : spread xys) by (exists (0, 0)%R, (3, 0)%R, (0, 2)%R; unfold xys, cross; cbn [In fst snd]; repeat split; auto; lra).
  set (calls := [Call (Some 1) None (Some 1) None true; Call (Some 2) (Some 1) None None true]).
  assert (U : Forall (fun c => k_update c = true) calls) by (repeat constructor).
  destruct C121_least_squares as (X & _).
  destruct (run_crops picked calls) as [m'|x] eqn:RC; [|exfalso; destruct (C47_material_points calls picked xys OM U) as (m2 & E & _); congruence].
  assert (C : d_crops m' = Crops 2 1 1 0 /\ d_shape m' = (3, 3)).
  { unfold run_crops in RC. cbn in RC. injection RC as <-. split; reflexivity. }
  destruct C as (C & SH).
  assert (LE : forall q, inside (s_w turned) (s_h turned) q -> s_labels turned q <= Z.of_nat (s_grains turned))
    by (intros q I; unfold inside, turned in *; cbn [s_w s_h s_labels s_grains] in *; lia).
  assert (Q1 : aff a (place (data_pixel m' (0, 0))) = (IZR 4, IZR 2)) by (unfold aff, a, place, data_pixel; rewrite C; cbn; f_equal; lra).
  assert (Q2 : aff a (place (data_pixel m' (2, 1))) = (IZR 3, IZR 4)) by (unfold aff, a, place, data_pixel; rewrite C; cbn; f_equal; lra).
  assert (O1 : on_map m' (0, 0)) by (unfold on_map, inside; rewrite SH; cbn; lia). assert (O2 : on_map m' (2, 1)) by (unfold on_map, inside; rewrite SH; cbn; lia).
  assert (G1 : in_grain turned (4, 2) 4) by (unfold in_grain, inside; cbn; lia). assert (G2 : in_grain turned (3, 4) 3) by (unfold in_grain, inside; cbn; lia).
  assert (N1 : nearest (aff a (place (data_pixel m' (0, 0)))) (4, 2)) by (rewrite Q1; apply exact_nearest).
  assert (N2 : nearest (aff a (place (data_pixel m' (2, 1)))) (3, 4)) by (rewrite Q2; apply exact_nearest).
  assert (B1 : between turned (aff a (place (data_pixel m' (0, 0))))) by (rewrite Q1; apply exact_between; unfold inside; cbn; lia).
  assert (B2 : between turned (aff a (place (data_pixel m' (2, 1))))) by (rewrite Q2; apply exact_between; unfold inside; cbn; lia).
  destruct (proj2 (C121_found least_squares (fun t => t) 0 1 [] D eq_refl "Affine" [] a calls picked m' xys turned X SP eq_refl OM PE U RC LE ltac:(rewrite SH; cbn; lia) ltac:(rewrite SH; cbn; lia))) as (lab & gl & F);
    [exists (0, 0); eauto 7|].
  exists m', lab, gl. split; [reflexivity|]. split; [exact F|]. split; [exact SH|].
  split; apply (C121_place least_squares (fun t => t) 0 1 [] D eq_refl "Affine" [] a calls picked m' xys turned lab gl X SP eq_refl OM PE U RC F); eauto.
Qed.

(** A pixel that is moved to less than half a pixel beyond the centres of the outer pixels is in no
    grain, though the nearest pixel of the EBSD map is in one. *)
Definition aside : ebsd_side := EbsdSide [PTuple [1/4; 0]; PTuple [5/4; 0]; PTuple [1/4; 1]]%R 4 2 (fun p => fst p + 1) 4.
Theorem C121_rim_refuted : forall est inv, exact est -> let a := Aff 1 0 0 1 (1/4) 0 in exists xys lab gl,
  spread xys /\ on_material bare xys /\ points_at (s_points aside) (map (aff a) xys) /\
  find_warped est inv 0 1 (link_ebsd_map [] 0 1 "affine" []) bare aside = Ok (lab, gl) /\
  nearest (aff a (place (data_pixel bare (3, 0)))) (3, 0) /\ in_grain aside (3, 0) 3 /\
  forall g, ~ linked gl (3, 0) g.
Proof.
  intros est inv X a. set (xys := [(0, 0); (1, 0); (0, 1)]%R). assert (D : (0 <> 1)%Z) by discriminate.
  assert (SP : spread xys) by (exists (0, 0)%R, (1, 0)%R, (0, 1)%R; unfold xys, cross; cbn [In fst snd]; repeat split; auto; lra).
  assert (OM : on_material bare xys) by at_points.
  assert (PE : points_at (s_points aside) (map (aff a) xys)).
  { unfold points_at, xys, a. cbn [map s_points aside]. repeat (apply Forall2_cons; [at_point|]). apply Forall2_nil. }
  assert (LE : forall q, inside (s_w aside) (s_h aside) q -> s_labels aside q <= Z.of_nat (s_grains aside))
    by (intros q I; unfold inside, aside in *; cbn [s_w s_h s_labels s_grains] in *; lia).
  assert (Q : forall x, aff a (place (data_pixel bare (x, 0))) = (IZR x + 1/4, 0)%R)
    by (intros x; unfold aff, a, place, data_pixel, bare; cbn [fst snd d_crops c_left c_top a11 a12 a21 a22 tx ty]; rewrite !Z.add_0_r; apply (f_equal2 pair); lra).
  destruct (proj2 (C121_found est inv 0 1 [] D eq_refl "affine" [] a [] bare bare xys aside X SP eq_refl OM PE (Forall_nil _) eq_refl LE ltac:(cbn; lia) ltac:(cbn; lia))) as (lab & gl & F).
  { exists (1, 0). split; [unfold on_map, inside; cbn; lia|]. cbv zeta. rewrite Q.
    split; [unfold between; cbn [fst snd s_w s_h aside Z.sub Z.add Z.opp Z.pos_sub Pos.pred_double]; lra|].
    exists (1, 0), 1%nat. split; [unfold nearest; cbn [fst snd]; lra|unfold in_grain, inside; cbn; lia]. }
  exists xys, lab, gl. do 4 (split; [assumption|]). split; [rewrite Q; unfold nearest; cbn [fst snd]; lra|].
  split; [unfold in_grain, inside; cbn; lia|]. intros g LK.
  apply (C121_place est inv 0 1 [] D eq_refl "affine" [] a [] bare bare xys aside lab gl X SP eq_refl OM PE (Forall_nil _) eq_refl F (3, 0)) in LK;
    [|unfold on_map, inside; cbn; lia]. cbv zeta in LK. rewrite Q in LK. destruct LK as (((_ & B) & _) & _).
  cbn [fst snd s_w aside Z.sub Z.add Z.opp Z.pos_sub Pos.pred_double] in B. lra.
Qed.
Print Assumptions C121_rim_refuted.
