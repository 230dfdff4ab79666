(** Proofs about rotating and filtering a map, grains, slip traces and linking. *)
From Coq Require Import String Reals Lra.
From Coq Require Import List ZArith Bool Lia Psatz.
Import ListNotations.
From Verif Require Import Py Grid Quat_Model Quat_Spec Quat_Proofs QuatSym_Proofs QuatMany_Proofs
  Boundary_Model BoundaryOri_Proofs Ebsd_Model Ebsd_Spec EbsdKam_Proofs.
Open Scope Z_scope.

(** ** Rotation *)
Lemma half_turn_eq : half_turn = Some (Q4 0 0 0 1).
Proof.
  unfold half_turn, from_axis_angle. cbn [vx vy vz].
  replace (vdot (V3 0 0 1) (V3 0 0 1)) with 1%R by (unfold vdot; cbn [vx vy vz]; ring).
  rewrite sqrt_1. destruct (Req_EM_T 1 0) as [E|_]; [lra|].
  cbv zeta. unfold vscale. cbn [vx vy vz]. rewrite cos_PI2, sin_PI2.
  rewrite Quat_id by (cbn [qw]; lra). unfold conjugate. cbn [qw qx qy qz].
  rewrite Quat_id by (cbn [qw]; lra). f_equal. f_equal; field.
Qed.

Lemma rotate_eq W H s bc bs : e_bc s = Some bc -> e_bs s = Some bs ->
  rotate_data W H s =
  (Ebsd (flip W H (e_euler s)) (Some (flip W H bc)) (Some (flip W H bs)) (flip W H (e_phase s))
     (Some (fun p => quat_mul false
        (match e_ori s with Some o => o p | None => quat_of_euler (e_euler s (turned W H p)) end)
        (Q4 0 0 0 1))), Ok tt).
Proof.
  intros E1 E2. unfold rotate_data. cbn [e_euler e_bc e_bs e_phase e_ori]. rewrite E1, E2, half_turn_eq.
  f_equal. unfold read_ori. cbn [e_euler e_bc e_bs e_phase e_ori]. destruct (e_ori s); reflexivity.
Qed.

Lemma turned_turned W H p : turned W H (turned W H p) = p.
Proof. destruct p as [x y]. unfold turned. cbn [fst snd]. f_equal; lia. Qed.
Lemma flip_flip {A} W H (a : pix -> A) p : flip W H (flip W H a) p = a p.
Proof. unfold flip. cbn [fst snd]. f_equal. destruct p as [x y]. cbn [fst snd]. f_equal; lia. Qed.

Lemma turn_turn q : same_rot (quat_mul false (quat_mul false q (Q4 0 0 0 1)) (Q4 0 0 0 1)) q.
Proof.
  eapply same_rot_trans; [apply quat_mul_same|].
  eapply same_rot_trans; [apply same_rot_hprod; [apply quat_mul_same | left; reflexivity]|].
  right. destruct q as [a b c d]. unfold hprod, opp. cbn [qw qx qy qz]. f_equal; ring.
Qed.

Lemma rot_turn q : rot_matrix (quat_mul false q (Q4 0 0 0 1)) = mprod (rot_matrix q) (rotz PI).
Proof.
  rewrite (rot_same _ _ (quat_mul_same false _ _)), rot_hprod. f_equal.
  unfold rotz, rot_matrix. rewrite cos_PI, sin_PI. f_equal; f_equal; ring.
Qed.

(** A rotation followed by a half turn is another rotation. *)
Lemma turn_differs q : unitq q -> rot_matrix (quat_mul false q (Q4 0 0 0 1)) <> rot_matrix q.
Proof.
  intros U E. rewrite rot_turn in E.
  assert (F : mprod (transpose (rot_matrix q)) (mprod (rot_matrix q) (rotz PI)) =
              mprod (transpose (rot_matrix q)) (rot_matrix q)) by congruence.
  rewrite rot_orth' in F by auto.
  assert (G : mprod (transpose (rot_matrix q)) (mprod (rot_matrix q) (rotz PI)) = rotz PI).
  { assert (AS : forall a b c, mprod a (mprod b c) = mprod (mprod a b) c).
    { intros [[a1 a2 a3] [a4 a5 a6] [a7 a8 a9]] [[b1 b2 b3] [b4 b5 b6] [b7 b8 b9]] [[c1 c2 c3] [c4 c5 c6] [c7 c8 c9]].
      unfold mprod, sprod, col0, col1, col2. cbn [r0 r1 r2 vx vy vz]. f_equal; f_equal; ring. }
    rewrite AS, rot_orth' by auto. destruct (rotz PI) as [[a1 a2 a3] [a4 a5 a6] [a7 a8 a9]].
    unfold mprod, sprod, mone, col0, col1, col2. cbn [r0 r1 r2 vx vy vz]. f_equal; f_equal; ring. }
  rewrite G in F. apply (f_equal (fun m => vx (r0 m))) in F. unfold rotz, mone in F. cbn [r0 vx] in F.
  rewrite cos_PI in F. lra.
Qed.

(** ** Filter *)
Lemma windows_blocks p : map (window_pix p) quadrants = blocks p.
Proof.
  destruct p as [x y]. unfold window_pix, quadrants, blocks, block. cbn [map flat_map app fst snd].
  repeat (f_equal; try lia).
Qed.

Lemma gtbR_spec a b : gtbR a b = true <-> (b < a)%R.
Proof. unfold gtbR. destruct (Rlt_dec b a); split; intros; auto; try discriminate; contradiction. Qed.

Lemma close_iff c q t : unitq c -> unitq q -> (0 <= t <= 360)%R ->
  (gtbR (Rabs (dot c q)) (cos (t * (PI / 180) / 2)) = true <-> within (t * (PI / 180)) c q).
Proof.
  intros Uc Uq Ht. rewrite gtbR_spec. change (dot c q) with (inner c q). unfold within.
  rewrite <- cos_rot_angle by auto. pose proof (rot_angle_range c q Uc Uq) as R.
  pose proof PI_RGT_0 as P. set (a := rot_angle c q) in *. clearbody a.
  assert (T : (0 <= t * (PI / 180) / 2 <= PI)%R).
  { assert (t * PI <= 360 * PI)%R by (apply Rmult_le_compat_r; lra).
    assert (0 <= t * PI)%R by (apply Rmult_le_pos; lra). lra. }
  set (b := (t * (PI / 180))%R) in *. clearbody b. split.
  - intros C. destruct (Rlt_dec a b); auto. exfalso.
    assert (cos (a / 2) <= cos (b / 2))%R by (apply cos_decr_1; lra). lra.
  - intros C. apply cos_decreasing_1; lra.
Qed.

Lemma picked_filter {A} (P : A -> Prop) f l : (forall a, In a l -> (f a = true <-> P a)) -> picked P l (filter f l).
Proof.
  induction l as [|a l IH]; intros E; cbn [filter]; [constructor|].
  specialize (IH (fun x X => E x (or_intror X))). destruct (f a) eqn:F.
  - apply pk_yes; auto. apply E; auto. now left.
  - apply pk_no; auto. intros K. apply E in K; [congruence | now left].
Qed.
Lemma picked_det {A} (P : A -> Prop) l s s' : picked P l s -> picked P l s' -> s = s'.
Proof.
  intros K. revert s'. induction K; intros s' K'; inversion K'; subst; auto; try contradiction. f_equal; auto.
Qed.
Lemma picked_In {A} (P : A -> Prop) l s x : picked P l s -> (In x s <-> In x l /\ P x).
Proof.
  intros K. induction K; cbn [In]; [tauto| |].
  - rewrite IHK. split; [intros [<-|[B C]] | intros [[<-|B] C]]; auto.
  - rewrite IHK. split; [tauto|]. intros [[<-|B] C]; [contradiction | auto].
Qed.

Lemma fold_iadd l : forall a, fold_left quat_iadd l a = qsum a (total l).
Proof.
  induction l as [|q l IH]; intros a.
  - cbn [fold_left total fold_right]. destruct a as [a1 a2 a3 a4]. unfold qsum, qzero. cbn [qw qx qy qz]. f_equal; ring.
  - cbn [fold_left]. rewrite IH. unfold total. cbn [fold_right]. fold (total l).
    generalize (total l). intros s. unfold qsum, quat_iadd. cbn [qw qx qy qz]. f_equal; ring.
Qed.
Lemma fold_iadd0 l : fold_left quat_iadd l (Q4 0 0 0 0) = total l.
Proof.
  rewrite fold_iadd. destruct (total l) as [a1 a2 a3 a4]. unfold qsum. cbn [qw qx qy qz]. f_equal; ring.
Qed.
Lemma fold_plus l : forall a, fold_left Rplus l a = (a + fold_right Rplus 0 l)%R.
Proof. induction l as [|x l IH]; intros a; cbn [fold_left fold_right]; [lra|]. rewrite IH. lra. Qed.

Lemma normalise_scaled q n : normalise q = Some n -> scaled_to_unit q n.
Proof.
  intros E. assert (N : q <> Q4 0 0 0 0).
  { intros ->. assert (X : normalise (Q4 0 0 0 0) = None) by now apply normalise_none. congruence. }
  destruct (normalise_spec q N) as (k & n' & E' & K & U & Q). assert (n = n') by congruence. subst n'.
  split; auto. exists k. auto.
Qed.

Lemma block_centre p b : In b (blocks p) -> In p b.
Proof.
  destruct p as [x y]. unfold blocks. cbn [In].
  assert (Q : forall a c x' y' : Z, a = x' -> c = y' -> (a, c) = (x', y')) by (intros; congruence).
  intros [<-|[<-|[<-|[<-|[<-|[<-|[<-|[<-|[]]]]]]]]]; unfold block; cbn [In];
  repeat (first [left; apply Q; lia | right]).
Qed.
Lemma block_near p b q : In b (blocks p) -> In q b ->
  fst p - 2 <= fst q <= fst p + 2 /\ snd p - 2 <= snd q <= snd p + 2.
Proof.
  destruct p as [x y]. unfold blocks. cbn [In].
  intros [<-|[<-|[<-|[<-|[<-|[<-|[<-|[<-|[]]]]]]]]]; unfold block; cbn [In];
  intros Hq; repeat (destruct Hq as [<-|Hq]; [cbn [fst snd]; lia|]); destruct Hq.
Qed.

Lemma in_filter_iff W H p : in_filter W H p = true <-> 2 <= fst p < W - 2 /\ 2 <= snd p < H - 2.
Proof.
  unfold in_filter. rewrite !andb_true_iff, !Z.leb_le, !Z.ltb_lt. tauto.
Qed.

Lemma rot_angle_self q : unitq q -> rot_angle q q = 0%R.
Proof.
  intros U. unfold rot_angle. rewrite (proj2 (inner_one q q U U)) by (left; reflexivity). rewrite acos_1. ring.
Qed.

Lemma first_none_some {A} (l : list (option A)) : (forall o, In o l -> o <> None) -> forall i, first_none l i = None.
Proof.
  induction l as [|[a|] l IH]; intros N i; cbn [first_none]; auto.
  - apply IH. intros o Ho. apply N. now right.
  - exfalso. apply (N None); [now left | reflexivity].
Qed.

Section Filter.
Variables (W H : Z) (ori : pix -> quat) (t : R).
Hypothesis U : forall p, on_map W H p -> unitq (ori p).
Hypothesis Ht : (0 <= t <= 360)%R.
Variable p : pix.
Hypothesis Hp : in_filter W H p = true.

Let ang := (t * (PI / 180))%R.
Let tolc := cos (t * (PI / 180) / 2).

Lemma filter_on q : fst p - 2 <= fst q <= fst p + 2 -> snd p - 2 <= snd q <= snd p + 2 -> on_map W H q.
Proof. apply in_filter_iff in Hp. unfold on_map. lia. Qed.
Lemma filter_unit_p : unitq (ori p).
Proof. apply U, filter_on; lia. Qed.
Lemma block_unit b q : In b (blocks p) -> In q b -> unitq (ori q).
Proof. intros Hb Hq. destruct (block_near p b q Hb Hq) as [A B]. apply U, filter_on; auto. Qed.

Lemma close_picked o : In o quadrants ->
  picked (fun c => within ang c (ori p)) (map ori (window_pix p o)) (close_quats ori tolc p o).
Proof.
  intros Ho. apply picked_filter. intros c Hc. apply in_map_iff in Hc as (q & <- & Hq).
  apply close_iff; auto; [|apply filter_unit_p].
  apply (block_unit (window_pix p o)); auto. rewrite <- windows_blocks. now apply in_map.
Qed.

Lemma close_ne o : (0 < t)%R -> In o quadrants -> close_quats ori tolc p o <> [].
Proof.
  intros T Ho E. pose proof (close_picked o Ho) as K. rewrite E in K.
  assert (I : In (ori p) []); [|destruct I].
  apply (picked_In _ _ _ (ori p) K). split.
  - apply in_map, block_centre. rewrite <- windows_blocks. now apply in_map.
  - unfold within. rewrite rot_angle_self by apply filter_unit_p. unfold ang. pose proof PI_RGT_0.
    apply Rmult_lt_0_compat; lra.
Qed.

Definition half_cos (q : quat) (c : quat) : R := cos (rot_angle c q / 2).

Lemma quad_mean_eq o : (0 < t)%R -> In o quadrants ->
  quad_mean ori tolc p o = Some (mean (map (half_cos (ori p)) (close_quats ori tolc p o))).
Proof.
  intros T Ho. pose proof (close_ne o T Ho) as N. pose proof (close_picked o Ho) as K.
  unfold quad_mean. destruct (close_quats ori tolc p o) as [|c l] eqn:E; [congruence|]. rewrite <- E in *.
  f_equal. unfold mean. rewrite fold_plus, map_length, Rplus_0_l. f_equal. f_equal.
  apply map_ext_in. intros d Hd. apply (picked_In _ _ _ d K) in Hd as [Hd _].
  apply in_map_iff in Hd as (q & <- & Hq).
  unfold half_cos. rewrite cos_rot_angle; auto; [|apply filter_unit_p].
  apply (block_unit (window_pix p o)); auto. rewrite <- windows_blocks. now apply in_map.
Qed.

Lemma filter_pixel : (0 < t)%R ->
  exists k b s, nth_error (blocks p) k = Some b /\ picked (fun c => within ang c (ori p)) (map ori b) s /\
    (forall j b' s', nth_error (blocks p) j = Some b' -> picked (fun c => within ang c (ori p)) (map ori b') s' ->
       (mean (map (half_cos (ori p)) s') <= mean (map (half_cos (ori p)) s))%R /\
       ((j < k)%nat -> (mean (map (half_cos (ori p)) s') < mean (map (half_cos (ori p)) s))%R)) /\
    fst (filter_data W H ori t) p =
      match normalise (total s) with Some n => Some (Quat false n) | None => None end.
Proof.
  intros T. unfold filter_data. cbn [fst]. rewrite Hp. fold tolc.
  set (m := fun o => mean (map (half_cos (ori p)) (close_quats ori tolc p o))).
  assert (E : map (quad_mean ori tolc p) quadrants = map (fun o => Some (m o)) quadrants).
  { apply map_ext_in. intros o Ho. apply quad_mean_eq; auto. }
  assert (AM : argmax_nan (map (quad_mean ori tolc p) quadrants) = argmax (map m quadrants)).
  { rewrite E. unfold argmax_nan. rewrite first_none_some.
    - rewrite map_map. reflexivity.
    - intros o Ho. apply in_map_iff in Ho as (x & <- & _). discriminate. }
  rewrite AM. destruct (argmax_spec (map m quadrants)) as (v & V1 & V2 & V3); [discriminate|].
  set (k := argmax (map m quadrants)) in *. rewrite nth_error_map in V1.
  destruct (nth_error quadrants k) as [o|] eqn:Eo; [|discriminate]. cbn [option_map] in V1. injection V1 as Ev.
  assert (Io : In o quadrants) by (eapply nth_error_In; eauto).
  exists k, (window_pix p o), (close_quats ori tolc p o).
  split; [|split; [|split]].
  - rewrite <- windows_blocks, nth_error_map, Eo. reflexivity.
  - apply close_picked; auto.
  - intros j b' s' Hj K'. rewrite <- windows_blocks, nth_error_map in Hj.
    destruct (nth_error quadrants j) as [o'|] eqn:Eo'; [|discriminate]. cbn [option_map] in Hj. injection Hj as <-.
    assert (Io' : In o' quadrants) by (eapply nth_error_In; eauto).
    rewrite (picked_det _ _ _ _ K' (close_picked o' Io')). fold (m o'). fold (m o). rewrite Ev. split.
    + apply V2. apply in_map_iff. eauto.
    + intros L. apply (V3 j); auto. rewrite nth_error_map, Eo'. reflexivity.
  - rewrite (nth_error_nth _ _ _ Eo), fold_iadd0. reflexivity.
Qed.
End Filter.

Lemma normalise_unit_id q : unitq q -> normalise q = Some q.
Proof.
  intros Hq. unfold normalise. rewrite norm_unit by auto.
  destruct (Req_EM_T 1 0) as [E|_]; [lra|]. f_equal. destruct q as [a1 a2 a3 a4]. cbn [qw qx qy qz]. f_equal; field.
Qed.
Lemma filter_edge W H ori t p : in_filter W H p = false -> unitq (ori p) ->
  fst (filter_data W H ori t) p = Some (Quat false (ori p)).
Proof.
  intros E Hq. unfold filter_data. cbn [fst]. rewrite E, normalise_unit_id by auto. reflexivity.
Qed.
Lemma filter_result W H ori t p q : fst (filter_data W H ori t) p = Some q -> unitq q /\ (0 <= qw q)%R.
Proof.
  unfold filter_data. cbn [fst].
  match goal with |- match normalise ?x with _ => _ end = _ -> _ => destruct (normalise x) as [n|] eqn:E end; [|discriminate].
  intros X. injection X as <-. split; [|apply Quat_north].
  apply (same_rot_unit _ _ (Quat_same false n)). eapply normalise_unit; eauto.
Qed.

Lemma window_near p o q : In o quadrants -> In q (window_pix p o) ->
  fst p - 2 <= fst q <= fst p + 2 /\ snd p - 2 <= snd q <= snd p + 2.
Proof.
  intros Ho Hq. apply (block_near p (window_pix p o)); auto. rewrite <- windows_blocks. now apply in_map.
Qed.

Lemma filter_local W H ori ori' t p :
  (forall q, fst p - 2 <= fst q <= fst p + 2 -> snd p - 2 <= snd q <= snd p + 2 -> ori q = ori' q) ->
  fst (filter_data W H ori t) p = fst (filter_data W H ori' t) p.
Proof.
  intros A. assert (P : ori p = ori' p) by (apply A; lia).
  assert (C : forall tol o, In o quadrants -> close_quats ori tol p o = close_quats ori' tol p o).
  { intros tol o Ho. unfold close_quats. rewrite P. f_equal. apply map_ext_in. intros q Hq.
    destruct (window_near p o q Ho Hq). auto. }
  unfold filter_data. cbn [fst]. set (tol := cos (t * (PI / 180) / 2)).
  assert (M : map (quad_mean ori tol p) quadrants = map (quad_mean ori' tol p) quadrants).
  { apply map_ext_in. intros o Ho. unfold quad_mean. rewrite C, P by auto. reflexivity. }
  destruct (in_filter W H p); [|rewrite P; reflexivity].
  rewrite M. set (k := argmax_nan (map (quad_mean ori' tol p) quadrants)).
  destruct (nth_in_or_default k quadrants (0, 0)) as [I|E].
  - rewrite C by auto. reflexivity.
  - rewrite C by (rewrite E; right; right; right; right; left; reflexivity). reflexivity.
Qed.

Definition qtimes (k : R) (q : quat) := Q4 (k * qw q) (k * qx q) (k * qy q) (k * qz q).
Lemma total_copies l q : (forall c, In c l -> c = q) -> total l = qtimes (INR (List.length l)) q.
Proof.
  induction l as [|c l IH]; intros A.
  - unfold total, qtimes, qzero. cbn [fold_right List.length INR]. f_equal; ring.
  - unfold total. cbn [fold_right]. fold (total l). rewrite IH by (intros; apply A; now right).
    change (List.length (c :: l)) with (S (List.length l)). rewrite S_INR. rewrite (A c) by now left.
    unfold qtimes, qsum. cbn [qw qx qy qz]. f_equal; ring.
Qed.
Lemma normalise_times k q : (0 < k)%R -> unitq q -> normalise (qtimes k q) = Some q.
Proof.
  intros K Hq. assert (N : norm (qtimes k q) = k).
  { unfold norm. change dot with inner. replace (inner (qtimes k q) (qtimes k q)) with (k * k)%R.
    - apply sqrt_square. lra.
    - unfold unitq in Hq. unfold inner, qtimes. cbn [qw qx qy qz].
      transitivity (k * k * (qw q * qw q + qx q * qx q + qy q * qy q + qz q * qz q))%R; [rewrite Hq|]; ring. }
  unfold normalise. rewrite N. destruct (Req_EM_T k 0) as [E|_]; [lra|]. f_equal.
  destruct q as [a1 a2 a3 a4]. unfold qtimes. cbn [qw qx qy qz]. f_equal; field; lra.
Qed.

(** ** Slip traces *)
Lemma vdot_sprod : vdot = sprod. Proof. reflexivity. Qed.
Lemma vcross_xprod : vcross = xprod. Proof. reflexivity. Qed.

Lemma slip_trace_sample q n : unitq q -> (0 <= qw q)%R ->
  let s := mapply (transpose (rot_matrix q)) n in
  slip_trace q n =
  let incl := acos (vz s) in
  let incl := if Rlt_dec (PI / 2) incl then (PI - incl)%R else incl in
  let m := sqrt (vy s * vy s + vx s * vx s) in
  if Req_EM_T m 0 then None
  else let i := V3 (- vy s / m) (vx s / m) (0 / m) in
       let i := if Rlt_dec 0 (vx i) then vscale (-1) i else i in
       Some (acos (vdot i (V3 0 1 0)), incl).
Proof.
  intros Uq Nq s.
  assert (Nn : n = mapply (rot_matrix q) s).
  { unfold s. rewrite <- mapply_mprod, rot_orth, mapply_one; auto. }
  assert (A : vdot (transform_vector q (V3 0 0 1)) n = vz s).
  { rewrite transform_north by auto. rewrite Nn at 1. rewrite vdot_sprod, rot_sprod by auto.
    unfold sprod. cbn [vx vy vz]. ring. }
  assert (B : transform_vector (conjugate q) (vcross (transform_vector q (V3 0 0 1)) n) = V3 (- vy s) (vx s) 0).
  { rewrite transform_north by apply Quat_north. rewrite (rot_same _ _ (conjugate_same q)), rot_hconj.
    rewrite transform_north by auto. rewrite Nn at 1. rewrite vcross_xprod, rot_xprod by auto.
    rewrite <- mapply_mprod, rot_orth', mapply_one by auto. unfold xprod. cbn [vx vy vz]. f_equal; ring. }
  unfold slip_trace. cbv zeta. rewrite A, B. cbn [vx vy vz].
  replace (vdot (V3 (- vy s) (vx s) 0) (V3 (- vy s) (vx s) 0)) with (vy s * vy s + vx s * vx s)%R
    by (unfold vdot; cbn [vx vy vz]; ring). reflexivity.
Qed.

Lemma acos_fold c : (-1 <= c <= 1)%R ->
  let a := acos c in let a := if Rlt_dec (PI / 2) a then (PI - a)%R else a in
  (0 <= a <= PI / 2)%R /\ cos a = Rabs c.
Proof.
  intros C. cbv zeta. pose proof (acos_bound c) as B. pose proof (cos_acos c C) as E.
  destruct (Rlt_dec (PI / 2) (acos c)) as [L|L].
  - split; [lra|]. rewrite Rtrigo_facts.cos_pi_minus, E.
    assert (cos (acos c) <= 0)%R. { apply cos_le_0; lra. } rewrite Rabs_left1; lra.
  - split; [lra|]. rewrite E. assert (0 <= cos (acos c))%R by (apply cos_ge_0; lra). rewrite Rabs_right; lra.
Qed.

Lemma rot_t_sprod q u : unitq q ->
  sprod (mapply (transpose (rot_matrix q)) u) (mapply (transpose (rot_matrix q)) u) = sprod u u.
Proof.
  intros Uq. rewrite <- rot_hconj. apply rot_sprod. now apply unitq_hconj.
Qed.

Lemma unit_pair a b m : m = sqrt (b * b + a * a) -> m <> 0%R ->
  ((- b / m) * (- b / m) + (a / m) * (a / m) = 1)%R.
Proof.
  intros Em Nm. assert (S : (m * m = b * b + a * a)%R).
  { rewrite Em. apply sqrt_sqrt. nra. }
  transitivity ((b * b + a * a) / (m * m))%R; [field; auto|]. rewrite S. field. rewrite <- S. nra.
Qed.

(** The line at angle [th] is perpendicular to the normal's projection. *)
Lemma slip_trace_line q n th inc : unitq q -> (0 <= qw q)%R -> sprod n n = 1%R ->
  slip_trace q n = Some (th, inc) ->
  let s := mapply (transpose (rot_matrix q)) n in
  (0 <= th <= PI)%R /\ (- sin th * vx s + cos th * vy s = 0)%R /\
  (0 <= inc <= PI / 2)%R /\ cos inc = Rabs (vz s).
Proof.
  intros Uq Nq Un E s. rewrite slip_trace_sample in E by auto. fold s in E. cbv zeta in E.
  assert (US : sprod s s = 1%R) by (unfold s; rewrite rot_t_sprod; auto).
  unfold sprod in US. clearbody s.
  assert (Z1 : (-1 <= vz s <= 1)%R) by (split; nra).
  pose proof (acos_fold (vz s) Z1) as I. cbv zeta in I.
  set (inc' := if Rlt_dec (PI / 2) (acos (vz s)) then (PI - acos (vz s))%R else acos (vz s)) in *. clearbody inc'.
  set (m := sqrt (vy s * vy s + vx s * vx s)) in *.
  destruct (Req_EM_T m 0) as [Em|Nm]; [discriminate|]. cbn [vx vy vz] in E.
  pose proof (unit_pair (vx s) (vy s) m eq_refl Nm) as UP.
  assert (K : exists x y, (x = - vy s / m /\ y = vx s / m \/ x = vy s / m /\ y = - vx s / m)%R /\ (x <= 0)%R /\
                          (x * x + y * y = 1)%R /\ th = acos y /\ inc = inc').
  { destruct (Rlt_dec 0 (- vy s / m)) as [L|L]; unfold vscale, vdot in E; cbn [vx vy vz] in E;
    injection E as E1 E2.
    - exists (vy s / m)%R, (- vx s / m)%R. split; [right; auto|].
      assert (X : (vy s / m = - (- vy s / m))%R) by (field; auto). split; [lra|]. split.
      + rewrite X. replace (- vx s / m)%R with (- (vx s / m))%R by (field; auto). lra.
      + split; [|auto]. rewrite <- E1. f_equal. field; auto.
    - exists (- vy s / m)%R, (vx s / m)%R. split; [left; auto|]. split; [lra|]. split; [lra|].
      split; [|auto]. rewrite <- E1. f_equal. field; auto. }
  destruct K as (x & y & XY & X0 & XX & -> & ->).
  assert (Y : (-1 <= y <= 1)%R) by (split; nra).
  split; [apply acos_bound|]. split; [|exact I].
  rewrite cos_acos by auto. rewrite sin_acos by auto.
  assert (SQ : sqrt (1 - Rsqr y) = (- x)%R).
  { replace (1 - Rsqr y)%R with ((- x) * (- x))%R by (unfold Rsqr; lra). apply sqrt_square. lra. }
  rewrite SQ. destruct XY as [[-> ->]|[-> ->]]; field; auto.
Qed.

Lemma slip_trace_nan q n : unitq q -> (0 <= qw q)%R ->
  (slip_trace q n = None <->
   let s := mapply (transpose (rot_matrix q)) n in vx s = 0%R /\ vy s = 0%R).
Proof.
  intros Uq Nq. rewrite slip_trace_sample by auto. cbv zeta.
  set (s := mapply (transpose (rot_matrix q)) n). clearbody s.
  destruct (Req_EM_T (sqrt (vy s * vy s + vx s * vx s)) 0) as [E|E].
  - split; auto. intros _. apply sqrt_eq_0 in E; [split; nra | nra].
  - split; [discriminate|]. intros [A B]. exfalso. apply E. rewrite A, B.
    replace (0 * 0 + 0 * 0)%R with 0%R by ring. apply sqrt_0.
Qed.

(** ** Grains *)
Lemma grod_axis_eq r m : grod_axis r m = mis_ori_axis r m.
Proof.
  unfold grod_axis, mis_ori_axis. cbv zeta. rewrite quat_mul_raw.
  set (c := conjugate r). unfold Quat.
  assert (E : Q4 (qw c * qw m - qx c * qx m - qy c * qy m - qz c * qz m)
               (qx c * qw m + qw c * qx m + qz c * qy m - qy c * qz m)
               (qy c * qw m + qw c * qy m + qx c * qz m - qz c * qx m)
               (qz c * qw m + qw c * qz m + qy c * qx m - qx c * qy m) = hprod m c).
  { unfold hprod. f_equal; ring. }
  rewrite E. reflexivity.
Qed.

Lemma ref_or_average_unit ref oris g r : (forall r, ref = Some r -> unitq r) ->
  ref_or_average ref oris g = Some r -> unitq r.
Proof.
  intros A E. destruct ref as [r'|]; cbn [ref_or_average] in E.
  - injection E as <-. auto.
  - eapply average_unit; eauto.
Qed.

(** ** Linker *)
Lemma zlist_eqb_spec a : forall b, zlist_eqb a b = true <-> a = b.
Proof.
  induction a as [|x a IH]; intros [|y b]; cbn [zlist_eqb]; split; intros E; try discriminate; auto.
  - apply andb_true_iff in E as [E1 E2]. apply Z.eqb_eq in E1. apply IH in E2. congruence.
  - injection E as -> ->. rewrite Z.eqb_refl. apply IH. reflexivity.
Qed.
Lemma all_selected_spec l : forall gs, all_selected l = Some gs <-> l = map Some gs.
Proof.
  induction l as [|[g|] l IH]; intros gs; cbn [all_selected].
  - destruct gs; split; intros E; try discriminate; auto.
  - destruct (all_selected l) as [gs'|] eqn:E.
    + split.
      * intros X. injection X as <-. cbn [map]. f_equal. now apply IH.
      * destruct gs as [|g' gs2]; cbn [map]; [discriminate|]. intros X. injection X as -> X. apply IH in X. congruence.
    + split; [discriminate|]. destruct gs as [|g' gs2]; cbn [map]; [discriminate|].
      intros X. injection X as -> X. apply IH in X. discriminate.
  - split; [discriminate|]. destruct gs; cbn [map]; discriminate.
Qed.
Lemma links_mem l ls : existsb (zlist_eqb l) ls = true <-> In l ls.
Proof.
  rewrite existsb_exists. split.
  - intros (x & I & E). apply zlist_eqb_spec in E. now subst.
  - intros I. exists l. split; auto. now apply zlist_eqb_spec.
Qed.

Lemma set_ref_pass i links : (1 <= i)%nat -> forall r,
  (forall l, In l links -> nth_error l i <> None /\ nth_error l 0 <> None) ->
  let r' := fold_left (fun r link =>
      match nth_error link i, nth_error link 0 with
      | Some g, Some g0 => set_ref r (Z.of_nat i) g (r 0 g0)
      | _, _ => r
      end) links r in
  (forall j g, j <> Z.of_nat i -> r' j g = r j g) /\
  (forall g, r' (Z.of_nat i) g =
     match last_link i g links with
     | Some l => match nth_error l 0 with Some g0 => r 0 g0 | None => r (Z.of_nat i) g end
     | None => r (Z.of_nat i) g end).
Proof.
  intros Hi. induction links as [|l links IH]; intros r A; cbn [fold_left last_link]; [split; auto|].
  destruct (A l (or_introl eq_refl)) as [A1 A2].
  destruct (nth_error l i) as [g1|] eqn:E1; [|congruence]. destruct (nth_error l 0) as [g0|] eqn:E0; [|congruence].
  set (r1 := set_ref r (Z.of_nat i) g1 (r 0 g0)).
  destruct (IH r1 (fun x X => A x (or_intror X))) as [B C]. cbv zeta in *.
  assert (R0 : forall g, r1 0 g = r 0 g).
  { intros g. unfold r1, set_ref. replace (0 =? Z.of_nat i) with false by (symmetry; apply Z.eqb_neq; lia). reflexivity. }
  split.
  - intros j g Hj. rewrite B by auto. unfold r1, set_ref. replace (j =? Z.of_nat i) with false by (symmetry; now apply Z.eqb_neq).
    reflexivity.
  - intros g. rewrite C. destruct (last_link i g links) as [l'|] eqn:E.
    + assert (IL : In l' links).
      { clear -E. induction links as [|x links IH]; cbn [last_link] in E; [discriminate|].
        destruct (last_link i g links) as [y|]; [right; apply IH; congruence|].
        destruct (nth_error x i) as [z|]; [|discriminate]. destruct (z =? g); [|discriminate]. left. congruence. }
      destruct (A l' (or_intror IL)) as [_ A4]. destruct (nth_error l' 0); [apply R0 | congruence].
    + unfold r1, set_ref. rewrite Z.eqb_refl. cbn [andb]. rewrite (Z.eqb_sym g g1).
      destruct (g1 =? g); [rewrite E0|]; reflexivity.
Qed.

Lemma set_ref_all k : forall a links r, (1 <= a)%nat ->
  (forall l, In l links -> (a + k <= List.length l)%nat) ->
  let r' := fold_left (fun r i =>
    fold_left (fun r link =>
      match nth_error link i, nth_error link 0 with
      | Some g, Some g0 => set_ref r (Z.of_nat i) g (r 0 g0)
      | _, _ => r
      end) links r) (seq a k) r in
  (forall j g, (forall i, (a <= i < a + k)%nat -> j <> Z.of_nat i) -> r' j g = r j g) /\
  (forall i g, (a <= i < a + k)%nat -> r' (Z.of_nat i) g =
     match last_link i g links with
     | Some l => match nth_error l 0 with Some g0 => r 0 g0 | None => r (Z.of_nat i) g end
     | None => r (Z.of_nat i) g end).
Proof.
  induction k as [|k IH]; intros a links r Ha L; cbn [seq fold_left]; [split; auto; lia|].
  set (r1 := fold_left _ links r).
  destruct (set_ref_pass a links Ha r) as [B C].
  { intros l Il. specialize (L l Il). split; apply nth_error_Some; lia. }
  fold r1 in B, C. cbv zeta in B, C.
  destruct (IH (S a) links r1) as [D E]; [lia | intros l Il; specialize (L l Il); lia|]. cbv zeta in D, E. split.
  - intros j g Hj. rewrite D by (intros i Hi; apply Hj; lia). apply B. apply Hj. lia.
  - intros i g Hi. destruct (Nat.eq_dec i a) as [->|N].
    + rewrite D by (intros i' Hi' K; lia). apply C.
    + rewrite E by lia. rewrite (B (Z.of_nat i) g) by lia.
      destruct (last_link i g links) as [l|]; auto. destruct (nth_error l 0); auto. apply B. lia.
Qed.

Lemma last_link_In i g links l : last_link i g links = Some l -> In l links /\ nth_error l i = Some g.
Proof.
  induction links as [|x links IH]; cbn [last_link]; [discriminate|].
  destruct (last_link i g links) as [y|].
  - intros E. destruct (IH E). split; auto. now right.
  - destruct (nth_error x i) as [z|] eqn:Ex; [|discriminate]. destruct (Z.eqb_spec z g) as [->|]; [|discriminate].
    intros E. injection E as <-. split; auto. now left.
Qed.
Lemma last_link_none i g links : last_link i g links = None -> forall l, In l links -> nth_error l i <> Some g.
Proof.
  induction links as [|x links IH]; cbn [last_link]; [intros _ l []|].
  destruct (last_link i g links) as [y|]; [discriminate|].
  destruct (nth_error x i) as [z|] eqn:Ex.
  - destruct (Z.eqb_spec z g) as [->|N]; [discriminate|]. intros _ l [<-|Il]; [congruence | apply IH; auto].
  - intros _ l [<-|Il]; [congruence | apply IH; auto].
Qed.
