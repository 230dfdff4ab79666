(** C125: a flood filled grain of a DIC map is linked to the EBSD grain with most pixels in it. *)
From Coq Require Import String Reals.
From Coq Require Import List ZArith Bool Lia Lra Permutation.
From Verif Require Import Py Grid Grid_Lemmas Crystal_Model Base_Model Dic_Model Dic_Spec Dic_Props Flood_Model Flood_Spec FloodDic_Props DicGrains_Model DicGrains_Spec DicGrains_Proofs
  DicGrains_Props DicLink_Model DicLink_Spec DicLink_Props DicCrystal_Proofs DicFlood_Model DicFlood_Spec.
Import ListNotations.
Open Scope Z_scope.

(** A pixel takes the label of its nearest pixel. *)
Lemma under_is m e t lab k pts : 0 <= s_w e -> 0 <= s_h e -> 0 < k ->
  (forall p, In p pts <-> inside (snd (d_shape m)) (fst (d_shape m)) p /\ lab p = k) ->
  exactly (under m e t lab k) (fun q => inside (s_w e) (s_h e) q /\ in_pixels m pts (t (place q))).
Proof.
  intros W0 H0 K P. unfold under. split; [apply NoDup_filter, all_pix_NoDup; assumption|].
  intros q. rewrite filter_In, all_pix_In, Z.eqb_eq by assumption.
  set (e' := EbsdSide [] (snd (d_shape m)) (fst (d_shape m)) lab 0).
  pose proof (warp_value e' t q k K) as V. cbn [s_w s_h s_labels e'] in V. rewrite V. cbv zeta. unfold in_pixels, between. cbn [s_w s_h e'].
  split; intros (A & B & C); (split; [exact A|]).
  - split; [exact B|]. destruct C as (p & N & I & L). exists p. split; [exact N|]. now apply P.
  - split; [exact B|]. destruct C as (p & N & I). apply P in I as (I & L). exists p. auto.
Qed.
Lemma zseq_nth : forall n s k, (k < n)%nat -> nth_error (zseq s n) k = Some (s + Z.of_nat k).
Proof.
  induction n as [|n IH]; intros s k K; [lia|]. destruct k as [|k]; cbn [zseq nth_error]; [f_equal; lia|].
  rewrite IH by lia. f_equal. lia.
Qed.
Lemma combine_zseq {A} (l : list A) : forall s k x, nth_error (combine (zseq s (List.length l)) l) k = Some x -> fst x = s + Z.of_nat k /\ nth_error l k = Some (snd x).
Proof.
  induction l as [|a l IH]; intros s [|k] x N; try discriminate; cbn [List.length zseq combine nth_error] in N.
  - injection N as <-. cbn [fst snd]. split; [lia|reflexivity].
  - apply IH in N as (A1 & A2). split; [lia|exact A2].
Qed.

Section Theorems.
Variables (est : estimator) (inv : (R * R -> R * R) -> R * R -> R * R) (dic ebsd : frame).

(** Whatever transform relates the maps: the grains are those of the flood fill, and each is linked to
    the EBSD grain whose label is the most frequent among the EBSD pixels that come to lie in it, if that
    is the label of a grain. *)
Theorem C125_any : forall r m e t bnd ms lab gl, 0 <= s_w e -> 0 <= s_h e -> 2 <= fst (d_shape m) -> 2 <= snd (d_shape m) ->
  to_dic est inv dic ebsd r m e = Ok t -> find_flooded est inv dic ebsd r m e bnd ms = Ok (lab, gl) ->
  find_grains_dic (snd (d_shape m)) (fst (d_shape m)) bnd ms = Ok (lab, map fst gl) /\
  forall pts g, In (pts, g) gl -> exists u, exactly u (fun q => inside (s_w e) (s_h e) q /\ in_pixels m pts (t (place q))) /\ u <> [] /\
  forall mo, modal (map (s_labels e) u) mo -> 0 < mo -> mo = Z.of_nat g + 1.
Proof.
  intros r m e t bnd ms lab gl W0 H0 H2 W2 T F. unfold find_flooded in F.
  destruct (find_grains_dic (snd (d_shape m)) (fst (d_shape m)) bnd ms) as [[lab' gl']|x] eqn:G; [|destruct x; rewrite ?T in F; discriminate].
  rewrite T in F. cbn [bind] in F. destruct (link_flooded m e t lab' gl') as [l|] eqn:L; [|discriminate]. cbn [bind] in F. injection F as -> ->.
  unfold link_flooded in L. destruct (map_res_nth _ _ _ L) as (LN & MN).
  assert (CL : List.length (combine (zseq 0 (List.length gl')) gl') = List.length gl') by (rewrite combine_length, zseq_length; lia).
  assert (FST : map fst gl = gl').
  { apply nth_ext with (d := []) (d' := []); [rewrite map_length; rewrite <- CL; exact LN|]. rewrite map_length. intros k K.
    destruct (nth_error gl k) as [b|] eqn:N; [|apply nth_error_None in N; unfold dic_grain in *; lia]. destruct (MN k b N) as (a & N' & E).
    apply combine_zseq in N' as (_ & N'). destruct (link_dic_grain _ _); [|discriminate]. cbn [bind] in E. injection E as <-.
    rewrite (nth_error_nth gl' k [] N'). apply nth_error_nth. exact (map_nth_error fst k gl N). }
  split; [now rewrite FST|]. intros pts g I. apply In_nth_error in I as (k & N). destruct (MN k _ N) as ([k' pts'] & N' & E).
  apply combine_zseq in N' as (K & N'). cbn [fst snd] in *. rewrite Z.add_0_l in K. subst k'.
  destruct (link_dic_grain _ _) as [i|] eqn:LK; [|discriminate]. cbn [bind] in E. injection E as -> ->.
  destruct (C07_grain_list_matches_labels _ _ bnd ms W2 H2 lab gl' G) as (_ & GL & _). destruct (GL k pts N') as (_ & _ & _ & P).
  exists (under m e t lab (Z.of_nat k + 1)). split; [apply under_is; auto; lia|]. unfold link_dic_grain in LK. split.
  - intros U. rewrite U in LK. discriminate.
  - intros mo M M0. rewrite (proj2 (mode_modal _ _) M) in LK. rewrite py_index_nonneg in LK by lia.
    destruct (nth_error (seq 0 (DicLink_Model.s_grains e)) (Z.to_nat (mo - 1))) as [n|] eqn:SN; [|discriminate]. injection LK as ->.
    assert (LT : (Z.to_nat (mo - 1) < DicLink_Model.s_grains e)%nat) by (rewrite <- (seq_length (DicLink_Model.s_grains e) 0); apply nth_error_Some; congruence).
    rewrite (nth_error_nth' _ 0%nat) in SN by (now rewrite seq_length). rewrite seq_nth in SN by assumption. injection SN as <-. lia.
Qed.

Variable r : relations.
Hypothesis different : dic <> ebsd.
Hypothesis one_way : rel_get r (ebsd, dic) = None.
Lemma to_dic_is ty args m e dp ep : lower ty = "affine"%string -> coords (d_homog m) = Ok dp -> coords (s_points e) = Ok ep ->
  to_dic est inv dic ebsd (link_ebsd_map r dic ebsd ty args) m e = Ok (inv (est Affine dp ep args)).
Proof.
  intros TY D E. unfold to_dic. rewrite D, E. cbn [bind]. unfold link_ebsd_map.
  assert (L : transform_lookup (lower ty) = Some Affine) by (rewrite TY; reflexivity).
  pose proof (C50_linked_partial _ _ est inv (fun f => if f =? dic then dp else ep) r dic ebsd Affine (Link (lower ty) args) different one_way L) as (_ & X & _).
  rewrite X by discriminate. rewrite Z.eqb_refl. destruct (Z.eqb_spec ebsd dic); [congruence|reflexivity].
Qed.
(** The place of an EBSD pixel on the cropped map. *)
Lemma place_back a m xys args : exact est -> spread xys -> undoes inv -> (a11 a * a22 a - a12 a * a21 a <> 0)%R ->
  forall q d, aff a (moved (IZR (c_left (d_crops m)), IZR (c_top (d_crops m))) d) = place q <->
    inv (est Affine (map (moved (off m)) xys) (map (aff a) xys) args) (place q) = d.
Proof.
  intros X SP U D q. set (o := (IZR (c_left (d_crops m)), IZR (c_top (d_crops m)))).
  set (a' := Aff (a11 a) (a12 a) (a21 a) (a22 a) (a11 a * fst o + a12 a * snd o + tx a) (a21 a * fst o + a22 a * snd o + ty a)).
  assert (A' : forall d, aff a (moved o d) = aff a' d) by (intros d; unfold aff, a', moved; cbn [a11 a12 a21 a22 tx ty fst snd]; f_equal; ring).
  assert (E : forall d, est Affine (map (moved (off m)) xys) (map (aff a) xys) args d = aff a' d).
  { intros d. rewrite <- A'. rewrite <- (exact_moved est a xys args (off m) (moved o d) X SP). f_equal.
    destruct d as [d1 d2]. unfold moved, off, o. cbn [fst snd]. f_equal; lra. }
  assert (I : forall d, inv (est Affine (map (moved (off m)) xys) (map (aff a) xys) args) (aff a' d) = d) by (apply U; [exact E|exact D]).
  intros d. rewrite A'. split; [intros <-; apply I|]. intros H.
  (* the place itself comes from somewhere *)
  assert (exists d0, aff a' d0 = place q) as (d0 & Q).
  { destruct (place q) as [x y]. set (x' := (x - tx a')%R). set (y' := (y - ty a')%R). set (det := (a11 a * a22 a - a12 a * a21 a)%R) in *.
    exists ((a22 a * x' - a12 a * y') / det, (- a21 a * x' + a11 a * y') / det)%R. unfold aff. cbn [fst snd]. unfold x', y', det in *.
    cbn [a11 a12 a21 a22 a']. f_equal; field; exact D. }
  rewrite <- Q in *. rewrite I in H. now subst.
Qed.

(** With homologous points that an invertible affine map takes to those of the EBSD map, after any calls
    of [set_crop] that update them: each grain is linked to the EBSD grain with the most frequent label
    among the EBSD pixels that lie in it. *)
Theorem C125_place : forall ty args a calls m m' xys e bnd ms lab gl,
  exact est -> undoes inv -> (a11 a * a22 a - a12 a * a21 a <> 0)%R -> spread xys -> lower ty = "affine"%string ->
  on_material m xys -> points_at (s_points e) (map (aff a) xys) ->
  Forall (fun c => k_update c = true) calls -> run_crops m calls = Ok m' ->
  0 <= s_w e -> 0 <= s_h e -> 2 <= fst (d_shape m') -> 2 <= snd (d_shape m') ->
  find_flooded est inv dic ebsd (link_ebsd_map r dic ebsd ty args) m' e bnd ms = Ok (lab, gl) ->
  forall pts g, In (pts, g) gl -> exists u, exactly u (fun q => inside (s_w e) (s_h e) q /\ lies_in a m' pts q) /\ u <> [] /\
  forall mo, modal (map (s_labels e) u) mo -> 0 < mo -> mo = Z.of_nat g + 1.
Proof.
  intros ty args a calls m m' xys e bnd ms lab gl X U DT SP TY OM PE UC RC W0 H0 H2 W2 F pts g I.
  pose proof (material_coords _ _ (crops_material _ _ _ _ OM UC RC)) as D. pose proof (at_coords _ _ PE) as E.
  pose proof (to_dic_is ty args m' e _ _ TY D E) as T.
  destruct (C125_any _ m' e _ bnd ms lab gl W0 H0 H2 W2 T F) as (_ & A). destruct (A pts g I) as (u & (ND & EX) & NE & MO).
  exists u. split; [|split; assumption]. split; [exact ND|]. intros q. rewrite EX. unfold lies_in.
  set (t := inv _) in *. assert (PB : forall d, _) by exact (place_back a m' xys args X SP U DT q).
  split; intros (IQ & B); (split; [exact IQ|]).
  - exists (t (place q)). split; [now apply PB|exact B].
  - destruct B as (d & Q & B). apply PB in Q. fold t in Q. now rewrite Q.
Qed.
End Theorems.
Print Assumptions C125_any.
Print Assumptions C125_place.

(** When finding grains succeeds. *)
Lemma py_index_ok {A} (l : list A) i : (exists b, py_index l i = Ok b) <-> - Z.of_nat (List.length l) <= i < Z.of_nat (List.length l).
Proof.
  unfold py_index. set (n := Z.of_nat (List.length l)). set (j := if i <? 0 then n + i else i).
  assert (J : (i < 0 /\ j = n + i) \/ (0 <= i /\ j = i)) by (unfold j; destruct (Z.ltb_spec i 0); auto).
  destruct (Z.ltb_spec j 0), (Z.leb_spec n j); cbn [orb]; (split; [intros (b & B)|intros B]); try discriminate; try lia.
  - destruct (nth_error l (Z.to_nat j)) as [a|] eqn:N; [eauto|]. apply nth_error_None in N. lia.
Qed.
Lemma map_res_ok {A B} (f : A -> res B) : forall l, (exists l', map_res f l = Ok l') <-> forall a, In a l -> exists b, f a = Ok b.
Proof.
  induction l as [|a l IH]; cbn [map_res]; [split; [intros _ b []|eauto]|]. split.
  - intros (l' & E) b [<-|I]; destruct (f a) as [c|]; try discriminate; [eauto|]. cbn [bind] in E. apply IH; [|exact I].
    destruct (map_res f l) as [l2|]; [eauto|discriminate].
  - intros E. destruct (E a (or_introl eq_refl)) as (c & ->). destruct (proj2 IH) as (l2 & ->); [|cbn [bind]; eauto]. intros b I. apply E. now right.
Qed.
Lemma modal_perm l l' m : Permutation l l' -> modal l m -> modal l' m.
Proof.
  intros P (I & M). assert (C : forall v, count_occ Z.eq_dec l v = count_occ Z.eq_dec l' v) by now apply Permutation_count_occ.
  split; [eapply Permutation_in; eassumption|]. intros v V. rewrite <- !C. apply M. eapply Permutation_in; [apply Permutation_sym|]; eassumption.
Qed.
Lemma exactly_perm l l' P : exactly l P -> exactly l' P -> Permutation l l'.
Proof. intros (A & B) (C & D). apply NoDup_Permutation; auto. intros x. now rewrite B, D. Qed.
Lemma in_combine_zseq {A} (l : list A) : forall s k x, nth_error l k = Some x -> In (s + Z.of_nat k, x) (combine (zseq s (List.length l)) l).
Proof.
  induction l as [|a l IH]; intros s [|k] x N; try discriminate; cbn [nth_error] in N; cbn [List.length zseq combine].
  - injection N as ->. left. f_equal. lia.
  - right. replace (s + Z.of_nat (S k)) with (s + 1 + Z.of_nat k) by lia. now apply IH.
Qed.

(** Without grains it fails: where all pixels are boundary before the transform is made, otherwise after. *)
Theorem C125_no_grain : forall est inv dic ebsd r m e bnd ms, 2 <= fst (d_shape m) -> 2 <= snd (d_shape m) ->
  let W := snd (d_shape m) in let H := fst (d_shape m) in
  ((forall p, inside W H p -> bnd p = true) -> find_flooded est inv dic ebsd r m e bnd ms = Err ValueError) /\
  ((exists p, inside W H p /\ bnd p = false) -> (forall p n, inside W H p -> bnd p = false -> dic_territory_size W H bnd p n -> Z.of_nat n < ms) ->
     find_flooded est inv dic ebsd r m e bnd ms = match to_dic est inv dic ebsd r m e with Ok _ => Err IndexError | Err x => Err x end).
Proof.
  intros est inv dic ebsd r m e bnd ms H2 W2 W H. destruct (C07_outcome W H bnd ms W2 H2) as (_ & SM & NO). unfold find_flooded. fold W H. split.
  - intros A. rewrite NO; [reflexivity|]. intros (p & I & B). rewrite (A p I) in B. discriminate.
  - intros F S0. rewrite SM; [destruct (to_dic est inv dic ebsd r m e); reflexivity|exact F|]. intros (p & n & I & B & T & L). pose proof (S0 p n I B T). lia.
Qed.
Print Assumptions C125_no_grain.

(** With grains in the DIC map and a transform, finding grains succeeds exactly if every grain has EBSD
    pixels in it and their most frequent label is a position of the list of EBSD grains, less one, in
    Python's sense. *)
Theorem C125_outcome : forall est inv dic ebsd r m e t bnd ms lab gl, 0 <= s_w e -> 0 <= s_h e -> 2 <= fst (d_shape m) -> 2 <= snd (d_shape m) ->
  to_dic est inv dic ebsd r m e = Ok t -> find_grains_dic (snd (d_shape m)) (fst (d_shape m)) bnd ms = Ok (lab, gl) ->
  let n := Z.of_nat (DicLink_Model.s_grains e) in
  (exists l, find_flooded est inv dic ebsd r m e bnd ms = Ok (lab, l)) <->
  forall pts, In pts gl -> exists u mo, exactly u (fun q => inside (s_w e) (s_h e) q /\ in_pixels m pts (t (place q))) /\
    modal (map (s_labels e) u) mo /\ 1 - n <= mo <= n.
Proof.
  intros est inv dic ebsd r m e t bnd ms lab gl W0 H0 H2 W2 T G n. unfold find_flooded. rewrite G, T. cbn [bind].
  destruct (C07_grain_list_matches_labels _ _ bnd ms W2 H2 lab gl G) as (_ & GL & _).
  transitivity (exists l, link_flooded m e t lab gl = Ok l).
  { destruct (link_flooded m e t lab gl) as [l|]; cbn [bind]; split; intros (l' & E); try discriminate; eauto. }
  unfold link_flooded. rewrite map_res_ok.
  assert (K : forall k pts, nth_error gl k = Some pts -> let u := under m e t lab (Z.of_nat k + 1) in
    exactly u (fun q => inside (s_w e) (s_h e) q /\ in_pixels m pts (t (place q)))).
  { intros k pts N. destruct (GL k pts N) as (_ & _ & _ & P). apply under_is; auto; lia. }
  assert (LK : forall l, (exists i, link_dic_grain l (DicLink_Model.s_grains e) = Ok i) <-> exists mo, modal l mo /\ 1 - n <= mo <= n).
  { intros l. unfold link_dic_grain. destruct (mode l) as [mo|] eqn:M.
    - rewrite py_index_ok, seq_length. fold n. apply mode_modal in M. split; [intros B; exists mo; split; [exact M|lia]|].
      intros (mo' & M' & B). apply mode_modal in M, M'. rewrite M in M'. injection M' as <-. lia.
    - split; [intros (i & E); discriminate|]. intros (mo & M' & _). apply mode_modal in M'. congruence. }
  split.
  - intros E pts I. apply In_nth_error in I as (k & N). destruct (E _ (in_combine_zseq gl 0 k pts N)) as (b & B). cbn [fst snd] in B.
    rewrite Z.add_0_l in B. destruct (link_dic_grain _ _) as [i|] eqn:L; [|discriminate].
    destruct (proj1 (LK _) (ex_intro _ i L)) as (mo & M & R0). exists (under m e t lab (Z.of_nat k + 1)), mo. split; [now apply K|auto].
  - intros E [k pts] I. apply In_nth_error in I as (j & N). apply combine_zseq in N as (J & N). cbn [fst snd] in *. rewrite Z.add_0_l in J. subst k.
    destruct (E pts (nth_error_In _ _ N)) as (u & mo & X & M & B).
    assert (P : Permutation u (under m e t lab (Z.of_nat j + 1))) by (eapply exactly_perm; [exact X|now apply K]).
    destruct (proj2 (LK (map (s_labels e) (under m e t lab (Z.of_nat j + 1))))) as (i & L).
    + exists mo. split; [|exact B]. eapply modal_perm; [apply Permutation_map, P|exact M].
    + rewrite L. cbn [bind]. eauto.
Qed.
Print Assumptions C125_outcome.

(** Maps whose pixels fall on pixels. *)
Lemma under_whole m e t lab k f : 0 <= s_w e -> 0 <= s_h e -> 0 < k ->
  (forall q, inside (s_w e) (s_h e) q -> t (place q) = place (f q) /\ inside (snd (d_shape m)) (fst (d_shape m)) (f q)) ->
  under m e t lab k = filter (fun q => lab (f q) =? k) (all_pix (s_w e) (s_h e)).
Proof.
  intros W0 H0 K F. unfold under. apply filter_ext_in. intros q I. apply all_pix_In in I; [|assumption..]. destruct (F q I) as (E & IN).
  set (e' := EbsdSide [] (snd (d_shape m)) (fst (d_shape m)) lab 0).
  pose proof (warp_value e' t q k K) as V. cbn [s_w s_h s_labels e'] in V. cbv zeta in V. rewrite E in V.
  assert (PL : place (f q) = (IZR (fst (f q)), IZR (snd (f q)))) by reflexivity.
  apply eq_true_iff_eq. rewrite !Z.eqb_eq, V. split.
  - intros (_ & r & N & _ & L). enough (r = f q) as -> by exact L. destruct r as [x y], (f q) as [x' y']. unfold nearest, place in N. cbn [fst snd] in N.
    rewrite <- !minus_IZR in N. destruct N as ((A & B) & (C & D)).
    assert (-1 < x' - x < 1) by (split; apply lt_IZR; lra). assert (-1 < y' - y < 1) by (split; apply lt_IZR; lra). f_equal; lia.
  - intros L. split; [rewrite PL; apply exact_between; destruct (f q); exact IN|]. exists (f q). split; [rewrite PL; destruct (f q); apply exact_nearest|auto].
Qed.

(** Three grains separated by two columns; EBSD pixels six times as wide; a mirrored EBSD map. *)
Definition strips : dic_map := Dic 7 2 (Crops 0 0 0 0) (2, 7) [PTuple [0; 0]; PTuple [6; 0]; PTuple [0; 6]]%R.
Definition walls (p : pix) : bool := (fst p =? 2) || (fst p =? 4).
Definition coarse : ebsd_side := EbsdSide [PTuple [0; 0]; PTuple [1; 0]; PTuple [0; 1]]%R 2 1 (fun p => fst p + 1) 2.
Definition mirrored : ebsd_side := EbsdSide [PTuple [6; 0]; PTuple [0; 0]; PTuple [6; 6]]%R 7 2 (fun p => if (fst p <? 3) || (fst p =? 3) && (snd p =? 0) then 1 else 2) 2.
Ltac at_strips := unfold on_material, points_at; repeat match goal with v := _ |- _ => subst v end; cbn [map d_homog s_points strips coarse mirrored d_crops]; repeat (apply Forall2_cons; [at_point|]); apply Forall2_nil.

(** A grain of the DIC map that has no EBSD pixel in it makes finding grains fail as a whole. *)
Theorem C125_small_refuted : forall est inv, exact est -> undoes inv -> let a := Aff (1/6) 0 0 (1/6) 0 0 in exists xys lab gl,
  spread xys /\ on_material strips xys /\ points_at (s_points coarse) (map (aff a) xys) /\
  find_grains_dic 7 2 walls 2 = Ok (lab, gl) /\ List.length gl = 3%nat /\
  find_flooded est inv 0 1 (link_ebsd_map [] 0 1 "affine" []) strips coarse walls 2 = Err TypeError.
Proof.
  intros est inv X U a. set (xys := [(0, 0); (6, 0); (0, 6)]%R). assert (D : (0 <> 1)%Z) by discriminate.
  assert (SP : spread xys) by (exists (0, 0)%R, (6, 0)%R, (0, 6)%R; unfold xys, cross; cbn [In fst snd]; repeat split; auto; lra).
  assert (OM : on_material strips xys) by at_strips.
  assert (PE : points_at (s_points coarse) (map (aff a) xys)) by at_strips.
  destruct (find_grains_dic 7 2 walls 2) as [[lab gl]|] eqn:G; [|vm_compute in G; discriminate].
  assert (LN : List.length gl = 3%nat) by (vm_compute in G; injection G as <- <-; reflexivity).
  exists xys, lab, gl. do 3 (split; [assumption|]). split; [reflexivity|]. split; [exact LN|].
  pose proof (to_dic_is est inv 0 1 [] D eq_refl "affine" [] strips coarse _ _ eq_refl (material_coords _ _ OM) (at_coords _ _ PE)) as T.
  assert (PB : forall q d, _) by exact (place_back est inv a strips xys [] X SP U ltac:(unfold a; cbn; lra)).
  set (t := inv _) in *.
  assert (F : forall q, inside 2 1 q -> t (place q) = place (6 * fst q, 6 * snd q) /\ inside 7 2 (6 * fst q, 6 * snd q)).
  { intros q I. unfold inside in *. cbn [fst snd]. split; [|lia]. apply PB. unfold aff, a, moved, place. cbn [fst snd a11 a12 a21 a22 tx ty c_left c_top d_crops strips].
    rewrite !mult_IZR. f_equal; lra. }
  unfold find_flooded. cbn [snd fst d_shape strips] in G |- *. rewrite G, T. cbn [bind]. unfold link_flooded.
  assert (UW : forall k, 0 < k -> under strips coarse t lab k = filter (fun q => lab (6 * fst q, 6 * snd q) =? k) (all_pix 2 1))
    by (intros k K; apply under_whole with (f := fun q => (6 * fst q, 6 * snd q)); [cbn; lia|cbn; lia|exact K|exact F]).
  rewrite LN. destruct gl as [|g1 [|g2 [|g3 [|]]]]; try discriminate LN. cbn [zseq combine map_res fst snd]. rewrite !UW by lia.
  assert (L : lab (0, 0) = 1 /\ lab (6, 0) = 3) by (clear - G; vm_compute in G; injection G as <- _; vm_compute; auto).
  cbn [all_pix]. destruct L as (L1 & L2).
  assert (FL : forall k, filter (fun q => lab (6 * fst q, 6 * snd q) =? k) (all_pix 2 1) = (if lab (0, 0) =? k then [(0, 0)] else []) ++ (if lab (6, 0) =? k then [(1, 0)] else [])).
  { intros k. change (all_pix 2 1) with [(0, 0); (1, 0)]. cbn [filter fst snd]. change (6 * 0) with 0. change (6 * 1) with 6. destruct (lab (0, 0) =? k), (lab (6, 0) =? k); reflexivity. }
  rewrite !FL, L1, L2. reflexivity.
Qed.
Print Assumptions C125_small_refuted.

(** Cramer's rule undoes affine maps. *)
Definition cramer (t : R * R -> R * R) (p : R * R) : R * R :=
  let o := t (0, 0)%R in let i := t (1, 0)%R in let j := t (0, 1)%R in
  let a := (fst i - fst o)%R in let b := (fst j - fst o)%R in let c := (snd i - snd o)%R in let d := (snd j - snd o)%R in
  let x := (fst p - fst o)%R in let y := (snd p - snd o)%R in
  ((d * x - b * y) / (a * d - b * c), (a * y - c * x) / (a * d - b * c))%R.
Lemma cramer_undoes : undoes cramer.
Proof.
  intros t a T D [x y]. unfold cramer. rewrite !T. unfold aff. cbn [fst snd]. f_equal; field; contradict D; rewrite <- D; ring.
Qed.
Lemma map_res_ext_in {A B} (f g : A -> res B) : forall l, (forall a, In a l -> f a = g a) -> map_res f l = map_res g l.
Proof.
  induction l as [|a l IH]; intros E; [reflexivity|]. cbn [map_res]. rewrite (E a (or_introl eq_refl)), IH; [reflexivity|]. intros b I. apply E. now right.
Qed.
Example C125_met : exact least_squares /\ undoes cramer /\ exists lab gl,
  find_flooded least_squares cramer 0 1 (link_ebsd_map [] 0 1 "Affine" []) strips mirrored walls 2 = Ok (lab, gl) /\ map snd gl = [1; 0; 0]%nat.
Proof.
  destruct C121_least_squares as (X & _). split; [exact X|]. split; [exact cramer_undoes|].
  set (a := Aff (-1) 0 0 1 6 0). set (xys := [(0, 0); (6, 0); (0, 6)]%R). assert (D : (0 <> 1)%Z) by discriminate.
  assert (SP : spread xys) by (exists (0, 0)%R, (6, 0)%R, (0, 6)%R; unfold xys, cross; cbn [In fst snd]; repeat split; auto; lra).
  assert (OM : on_material strips xys) by at_strips.
  assert (PE : points_at (s_points mirrored) (map (aff a) xys)) by at_strips.
  pose proof (to_dic_is least_squares cramer 0 1 [] D eq_refl "Affine" [] strips mirrored _ _ eq_refl (material_coords _ _ OM) (at_coords _ _ PE)) as T.
  assert (PB : forall q d, _) by exact (place_back least_squares cramer a strips xys [] X SP cramer_undoes ltac:(unfold a; cbn; lra)).
  set (t := cramer _) in *.
  assert (F : forall q, inside 7 2 q -> t (place q) = place (6 - fst q, snd q) /\ inside 7 2 (6 - fst q, snd q)).
  { intros q I. unfold inside in *. cbn [fst snd]. split; [|lia]. apply PB. unfold aff, a, moved, place. cbn [fst snd a11 a12 a21 a22 tx ty c_left c_top d_crops strips].
    rewrite !minus_IZR. f_equal; lra. }
  assert (UW : forall lab k, 0 < k -> under strips mirrored t lab k = filter (fun q => lab (6 - fst q, snd q) =? k) (all_pix 7 2))
    by (intros lab k K; apply under_whole with (f := fun q => (6 - fst q, snd q)); [cbn; lia|cbn; lia|exact K|exact F]).
  destruct (find_grains_dic 7 2 walls 2) as [[lab gl]|] eqn:G; [|vm_compute in G; discriminate].
  assert (M : exists l, map_res (fun g : Z * list pix => do i <- link_dic_grain (map (s_labels mirrored) (filter (fun q => lab (6 - fst q, snd q) =? fst g + 1) (all_pix 7 2))) 2; Ok (snd g, i))
    (combine (zseq 0 (List.length gl)) gl) = Ok l /\ map snd l = [1; 0; 0]%nat).
  { clear - G. vm_compute in G. injection G as <- <-. eexists. split; vm_compute; reflexivity. }
  destruct M as (l & M & S). exists lab, l. split; [|exact S]. unfold find_flooded. cbn [snd fst d_shape strips] in *. rewrite G, T. cbn [bind].
  unfold link_flooded. rewrite (map_res_ext_in _ (fun g : Z * list pix => do i <- link_dic_grain (map (s_labels mirrored) (filter (fun q => lab (6 - fst q, snd q) =? fst g + 1) (all_pix 7 2))) 2; Ok (snd g, i)));
    [rewrite M; reflexivity|].
  intros [k pts] I. apply In_nth_error in I as (j & N). apply combine_zseq in N as (J & _). cbn [fst snd] in *. rewrite UW by lia. reflexivity.
Qed.
