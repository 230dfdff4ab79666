(** Angles of drawn lines; first grouping; witnesses. *)
From Coq Require Import String Ascii Reals.
From Coq Require Import List ZArith Bool Lia Lra.
Import ListNotations.
From Verif Require Import Py Grid Grid_Lemmas Boundary_Model Base_Model Base_Proofs Quat_Model QuatEuler_Proofs
  Crystal_Model CrystalMat_Proofs Text_Model Ebsd_Model Insp_Model Insp_Spec Insp_Proofs InspHist_Proofs.
Open Scope Z_scope.

(** ** First grouping *)
Lemma in_place_members : forall ls k, (forall l, In l ls -> 0 <= l_grp l) ->
  in_place (map l_ang ls) (map (fun l => Z.to_nat (l_grp l)) ls) k = members ls (Z.of_nat k).
Proof.
  induction ls as [|l ls IH]; intros k H; [reflexivity|]. rewrite members_cons. unfold in_place in *.
  cbn [map combine filter snd]. assert (L := H l (or_introl eq_refl)). specialize (IH k (fun x X => H x (or_intror X))).
  destruct (Nat.eqb_spec (Z.to_nat (l_grp l)) k), (Z.eqb_spec (l_grp l) (Z.of_nat k)); try lia; cbn [map fst]; now rewrite IH.
Qed.

Lemma nearest_spec : forall gs a, near_some gs a = true ->
  exists before g after, map g_ang gs = before ++ g :: after /\ nearest gs a = List.length before /\
    near g a /\ (forall h, In h before -> Z.abs (g - a) < Z.abs (h - a)) /\
    (forall h, In h after -> Z.abs (g - a) <= Z.abs (h - a)).
Proof.
  intros gs a N.
  assert (E : map (fun g => Z.abs (g_ang g - a)) gs = map (fun x => Z.abs (x - a)) (map g_ang gs)) by (rewrite map_map; reflexivity).
  unfold near_some in N. unfold nearest. rewrite E in *. set (l := map g_ang gs) in *. clearbody l.
  assert (NE : map (fun x => Z.abs (x - a)) l <> []) by (intros X; rewrite X in N; discriminate).
  destruct (argmin_spec _ NE) as (bf & v & af & F & M & B & A). rewrite M.
  apply map_eq_app in F as (l1 & l2 & L & F1 & F2). apply map_eq_cons in F2 as (g & l3 & L2 & F3 & F4). subst l l2 bf v af.
  exists l1, g, l3. rewrite map_length. split; [reflexivity|]. split; [reflexivity|].
  assert (B' : forall h, In h l1 -> Z.abs (g - a) < Z.abs (h - a)).
  { intros h H. apply B. now apply in_map with (f := fun x => Z.abs (x - a)). }
  assert (A' : forall h, In h l3 -> Z.abs (g - a) <= Z.abs (h - a)).
  { intros h H. apply A. now apply in_map with (f := fun x => Z.abs (x - a)). }
  split; [|split]; auto. apply existsb_exists in N as (d & D & DL). apply Z.ltb_lt in DL.
  apply in_map_iff in D as (x & <- & D). unfold near. apply in_app_or in D as [D|[->|D]]; [apply B' in D; lia|lia|apply A' in D; lia].
Qed.

Lemma map_ang_change : forall k m gs, map g_ang (change_nth k (fun g => set_ang g m) gs) = change_nth k (fun _ => m) (map g_ang gs).
Proof. intros. now apply map_change_nth. Qed.

Lemma first_grouping : forall ls, (forall l, In l ls -> l_grp l = -1) ->
  let '(ls', gs') := group_loop [] [] 0 ls in
  Grouping (map l_ang ls) (map (fun l => Z.to_nat (l_grp l)) ls') (map g_ang gs').
Proof.
  intros ls F. destruct ls as [|l0 ls0]; [cbn; constructor|].
  set (ls := l0 :: ls0) in *.
  pose proof (loop_rule (fun done gs todo => (forall l, In l todo -> l_grp l = -1) /\ (forall l, In l done -> 0 <= l_grp l) /\
    map l_ang done ++ map l_ang todo = map l_ang ls /\
    Grouping (map l_ang done) (map (fun l => Z.to_nat (l_grp l)) done) (map g_ang gs)) ls ltac:(discriminate)) as R.
  destruct (group_loop [] [] 0 ls) as [ls' gs']. destruct R as (_ & _ & _ & _ & E & G).
  - intros l todo E. rewrite E in *. split; [|split; [|split]].
    + intros x X. apply F. now right.
    + intros x [<-|[]]. cbn. lia.
    + reflexivity.
    + cbn [map set_grp l_ang l_grp new_group g_ang]. apply (Grp_new [] [] []); [constructor|easy].
  - intros done gs l todo _ _ N (T & D & E & G). cbv zeta. set (k := nearest gs (l_ang l)).
    set (l' := set_grp l (Z.of_nat k) true). split; [|split; [|split]].
    + intros x X. apply T. now right.
    + intros x X. apply in_app_or in X as [X|[<-|[]]]; [now apply D|]. cbn [l' set_grp l_grp]. lia.
    + rewrite map_app, <- app_assoc. exact E.
    + destruct (nearest_spec gs (l_ang l) N) as (bf & g & af & EG & K & NG & B & A). fold k in K.
      rewrite map_ang_change. rewrite EG, K, change_nth_app, !map_app.
      cbn [map l' set_grp l_grp l_ang]. rewrite Nat2Z.id, K.
      eapply Grp_join; eauto. rewrite in_place_members by exact D.
      rewrite members_app, members_cons. cbn [l_grp l' set_grp l_ang]. rewrite K, Z.eqb_refl.
      rewrite (members_none todo) by (intros x X; rewrite (T x (or_intror X)); lia).
      apply average_mean. destruct (members done _); discriminate.
  - intros done gs l todo _ _ N (T & D & E & G). cbv zeta. split; [|split; [|split]].
    + intros x X. apply T. now right.
    + intros x X. apply in_app_or in X as [X|[<-|[]]]; [now apply D|]. cbn [set_grp l_grp]. lia.
    + rewrite map_app, <- app_assoc. exact E.
    + rewrite !map_app. cbn [map set_grp l_grp l_ang new_group g_ang]. rewrite Nat2Z.id, <- (map_length g_ang gs).
      apply Grp_new; [exact G|]. intros g I X. apply in_map_iff in I as (y & <- & Y).
      assert (near_some gs (l_ang l) = true) by (apply near_some_iff; eauto). congruence.
  - cbn [map] in E. rewrite app_nil_r in E. rewrite <- E. exact G.
Qed.

(** In a grouping, every recorded angle is the mean of the members. *)
Lemma in_place_app : forall l ks a b k, List.length l = List.length ks ->
  in_place (l ++ [a]) (ks ++ [b]) k = in_place l ks k ++ (if Nat.eqb b k then [a] else []).
Proof.
  induction l as [|x l IH]; intros [|y ks] a b k L; try discriminate.
  - unfold in_place. cbn. destruct (Nat.eqb b k); reflexivity.
  - cbn [app]. unfold in_place in *. cbn [combine filter snd]. injection L as L. specialize (IH ks a b k L).
    destruct (Nat.eqb y k); cbn [map fst app]; now rewrite IH.
Qed.

Lemma mean_one : forall a, rounded_mean [a] a.
Proof. intros a. unfold rounded_mean. cbn [List.length fold_right]. split; intros; exfalso + idtac; lia. Qed.

Lemma grouping_means : forall l ks gs, Grouping l ks gs ->
  List.length l = List.length ks /\ (forall k, In k ks -> (k < List.length gs)%nat) /\
  (forall k g, nth_error gs k = Some g -> rounded_mean (in_place l ks k) g).
Proof.
  induction 1 as [|l ks gs a G (L & K & M) N|l ks gs a bf g af m G (L & K & M) E NG B A RM].
  - split; [reflexivity|]. split; [easy|]. intros [|k]; discriminate.
  - split; [rewrite !app_length; cbn; lia|]. split.
    + intros k I. rewrite app_length. cbn [List.length]. apply in_app_or in I as [I|[<-|[]]]; [apply K in I|]; lia.
    + intros k g J. assert (JL := nth_error_Some_len _ _ _ _ J). rewrite app_length in JL. cbn [List.length] in JL.
      rewrite in_place_app by exact L. destruct (Nat.eqb_spec (List.length gs) k) as [<-|D].
      * rewrite nth_error_app2, Nat.sub_diag in J by lia. cbn in J. injection J as <-.
        assert (EM : in_place l ks (List.length gs) = []).
        { unfold in_place. destruct (filter _ _) as [|[x y] r] eqn:F; [reflexivity|]. exfalso.
          assert (I : In (x, y) (filter (fun p => Nat.eqb (snd p) (List.length gs)) (combine l ks))) by (rewrite F; now left).
          apply filter_In in I as [I1 I2]. cbn [snd] in I2. apply Nat.eqb_eq in I2. apply in_combine_r in I1.
          apply K in I1. lia. }
        rewrite EM. apply mean_one.
      * rewrite app_nil_r. apply M. now rewrite nth_error_app1 in J by lia.
  - split; [rewrite !app_length; cbn; lia|]. subst gs. split.
    + intros k I. rewrite !app_length in *. cbn [List.length] in *. apply in_app_or in I as [I|[<-|[]]]; [|lia].
      specialize (K k I). lia.
    + intros k h J. rewrite in_place_app by exact L. destruct (Nat.eqb_spec (List.length bf) k) as [<-|D].
      * rewrite nth_error_app2, Nat.sub_diag in J by lia. cbn in J. injection J as <-. exact RM.
      * rewrite app_nil_r. apply M.
        destruct (Nat.lt_ge_cases k (List.length bf)).
        -- rewrite nth_error_app1 in * by lia. exact J.
        -- rewrite nth_error_app2 in * by lia. destruct (k - List.length bf)%nat eqn:Q; [lia|]. exact J.
Qed.

(** ** The drawn angle *)
Lemma drawn_slope : forall p q, (fst q - fst p <> 0)%R ->
  drawn_angle p q = (90 - rad2deg (atan ((snd q - snd p) / (fst q - fst p))))%R.
Proof.
  intros p q D. unfold drawn_angle, arctan2. set (dx := (fst q - fst p)%R) in *. set (dy := (snd q - snd p)%R).
  pose proof (atan_bound (dy / dx)) as B. pose proof PI_RGT_0 as PP.
  assert (DEG : forall x, (- PI / 2 < x < PI / 2)%R -> (-90 < rad2deg x < 90)%R).
  { intros x X. unfold rad2deg. split.
    - apply Rmult_lt_reg_r with PI; auto. unfold Rdiv. rewrite Rmult_assoc, Rinv_l by lra. lra.
    - apply Rmult_lt_reg_r with PI; auto. unfold Rdiv. rewrite Rmult_assoc, Rinv_l by lra. lra. }
  specialize (DEG _ B).
  assert (SH : forall x, (rad2deg (x + PI) = rad2deg x + 180 /\ rad2deg (x - PI) = rad2deg x - 180)%R).
  { intros x. unfold rad2deg. split; field; lra. }
  destruct (Rlt_dec 0 dx) as [P|P].
  - destruct (Rlt_dec 180 _); [lra|]. destruct (Rlt_dec _ 0); lra.
  - destruct (Rlt_dec dx 0) as [Q|Q]; [|lra]. destruct (SH (atan (dy / dx))) as [S1 S2].
    destruct (Rlt_dec dy 0).
    + rewrite S2. destruct (Rlt_dec 180 _); [lra|]. destruct (Rlt_dec _ 0); lra.
    + rewrite S1. destruct (Rlt_dec 180 _); [lra|]. destruct (Rlt_dec _ 0); lra.
Qed.

Lemma deg_half : rad2deg (PI / 2) = 90%R.
Proof. unfold rad2deg. pose proof PI_RGT_0. field. lra. Qed.
Lemma deg_neg_half : rad2deg (- (PI / 2)) = (-90)%R.
Proof. unfold rad2deg. pose proof PI_RGT_0. field. lra. Qed.

Lemma drawn_up : forall p q, fst q = fst p -> (snd p < snd q)%R -> drawn_angle p q = 0%R.
Proof.
  intros p q X Y. unfold drawn_angle, arctan2. rewrite X. rewrite Rminus_diag_eq with (1 := eq_refl (fst p)).
  destruct (Rlt_dec 0 0); [lra|]. destruct (Rlt_dec 0 (snd q - snd p)); [|lra]. rewrite deg_half.
  destruct (Rlt_dec 180 _); [lra|]. destruct (Rlt_dec _ 0); lra.
Qed.
Lemma drawn_down : forall p q, fst q = fst p -> (snd q < snd p)%R -> drawn_angle p q = 180%R.
Proof.
  intros p q X Y. unfold drawn_angle, arctan2. rewrite X. rewrite Rminus_diag_eq with (1 := eq_refl (fst p)).
  destruct (Rlt_dec 0 0); [lra|]. destruct (Rlt_dec 0 (snd q - snd p)); [lra|].
  destruct (Rlt_dec (snd q - snd p) 0); [|lra]. rewrite deg_neg_half.
  destruct (Rlt_dec 180 _); [lra|]. destruct (Rlt_dec _ 0); lra.
Qed.
Lemma drawn_point : forall p q, fst q = fst p -> snd q = snd p -> drawn_angle p q = 90%R.
Proof.
  intros p q X Y. unfold drawn_angle, arctan2. rewrite X, Y. rewrite Rminus_diag_eq with (1 := eq_refl (fst p)), Rminus_diag_eq with (1 := eq_refl (snd p)).
  destruct (Rlt_dec 0 0); [lra|]. assert (Z0 : rad2deg 0 = 0%R) by (unfold rad2deg; lra). rewrite Z0.
  destruct (Rlt_dec 180 _); [lra|]. destruct (Rlt_dec _ 0); lra.
Qed.

Lemma atan_deg : forall m, (-90 < rad2deg (atan m) < 90)%R.
Proof.
  intros m. pose proof (atan_bound m) as B. pose proof PI_RGT_0 as PP. unfold rad2deg. split.
  - apply Rmult_lt_reg_r with PI; auto. unfold Rdiv. rewrite Rmult_assoc, Rinv_l by lra. lra.
  - apply Rmult_lt_reg_r with PI; auto. unfold Rdiv. rewrite Rmult_assoc, Rinv_l by lra. lra.
Qed.

Lemma drawn_range : forall p q, (0 <= drawn_angle p q <= 180)%R.
Proof.
  intros p q. destruct (Req_dec (fst q - fst p) 0) as [X|X].
  - destruct (Rtotal_order (snd p) (snd q)) as [Y|[Y|Y]].
    + rewrite drawn_up by lra. lra.
    + rewrite drawn_point by lra. lra.
    + rewrite drawn_down by lra. lra.
  - rewrite drawn_slope by exact X. pose proof (atan_deg ((snd q - snd p) / (fst q - fst p))). lra.
Qed.

Lemma drawn_swap : forall p q, fst p <> fst q -> drawn_angle q p = drawn_angle p q.
Proof.
  intros p q X. rewrite !drawn_slope by lra. do 3 f_equal. field. lra.
Qed.

Lemma drawn_direction : forall p q,
  let a := (drawn_angle p q * PI / 180)%R in
  ((fst q - fst p) * cos a = (snd q - snd p) * sin a)%R.
Proof.
  intros p q a. pose proof PI_RGT_0 as PP. destruct (Req_dec (fst q - fst p) 0) as [X|X].
  - rewrite X, Rmult_0_l. destruct (Rtotal_order (snd p) (snd q)) as [Y|[Y|Y]].
    + unfold a. rewrite drawn_up by lra. replace (0 * PI / 180)%R with 0%R by field. rewrite sin_0. lra.
    + rewrite Y. lra.
    + unfold a. rewrite drawn_down by lra. replace (180 * PI / 180)%R with PI by field. rewrite sin_PI. lra.
  - unfold a. rewrite drawn_slope by exact X. set (m := ((snd q - snd p) / (fst q - fst p))%R).
    replace ((90 - rad2deg (atan m)) * PI / 180)%R with (PI / 2 - atan m)%R by (unfold rad2deg; field; lra).
    rewrite cos_shift, sin_shift.
    assert (C : (0 < cos (atan m))%R) by (pose proof (atan_bound m); apply cos_gt_0; lra).
    assert (T : tan (atan m) = m) by apply tan_atan. unfold tan in T.
    assert (SM : sin (atan m) = (m * cos (atan m))%R) by (rewrite <- T at 2; field; lra).
    rewrite SM. unfold m at 1. field. lra.
Qed.

Lemma hundredths_int : forall a, hundredths (IZR a / 100) = a.
Proof. intros. unfold hundredths. replace (IZR a / 100 * 100)%R with (IZR a) by field. apply rint_int. Qed.

Lemma at_angle_drawn : forall a, 0 <= a <= 18000 ->
  drawn_angle (fst (at_angle a)) (snd (at_angle a)) = (IZR a / 100)%R.
Proof.
  intros a A. unfold at_angle. cbn [fst snd]. set (f := (IZR a / 100 * PI / 180)%R). pose proof PI_RGT_0 as PP.
  rewrite cos_shift, sin_shift.
  destruct (Z.eq_dec a 0) as [->|N0].
  { assert (f = 0%R) as -> by (unfold f; field). rewrite sin_0, cos_0. rewrite drawn_up; cbn [fst snd]; lra. }
  destruct (Z.eq_dec a 18000) as [->|N1].
  { assert (f = PI) as -> by (unfold f; field). rewrite sin_PI, cos_PI. rewrite drawn_down; cbn [fst snd]; lra. }
  assert (B : (0 < IZR a < 18000)%R) by (split; apply IZR_lt; lia).
  assert (F : (0 < f < PI)%R).
  { unfold f. split.
    - apply Rmult_lt_0_compat; [|lra]. apply Rmult_lt_0_compat; lra.
    - apply Rmult_lt_reg_r with 180%R; [lra|]. unfold Rdiv. rewrite Rmult_assoc, Rinv_l by lra. nra. }
  assert (SF : (0 < sin f)%R) by (apply sin_gt_0; lra).
  rewrite drawn_slope by (cbn [fst snd]; lra). cbn [fst snd].
  replace ((cos f - 0) / (sin f - 0))%R with (tan (PI / 2 - f))%R.
  2:{ unfold tan. rewrite sin_shift, cos_shift. f_equal; lra. }
  rewrite atan_tan by lra. unfold rad2deg, f. field. lra.
Qed.

Lemma at_angle_saved : forall a, 0 <= a <= 18000 -> exists p,
  saved_line 0 (fst (at_angle a)) (snd (at_angle a)) = mkLine p a (-1) false.
Proof.
  intros a A. eexists. unfold saved_line. rewrite at_angle_drawn by exact A. rewrite Rminus_0_r, hundredths_int.
  reflexivity.
Qed.

(** ** Drawing lines on the first grain *)
Definition add_line (ts : list R) (g : grain) (l : line) : grain := group_lines ts (mkGrain (pts g ++ [l]) (grps g)).

Lemma draws_grain : forall e qs s g, nth_error (i_grains s) (i_sel s) = Some g ->
  nth_error (i_grains (run e (draws qs) s)) (i_sel s) =
    Some (fold_left (fun g pq => add_line (e_traces e (i_sel s)) g (saved_line (e_corr e) (fst pq) (snd pq))) qs g) /\
  i_sel (run e (draws qs) s) = i_sel s.
Proof.
  induction qs as [|q qs IH]; intros s g G; [split; auto|].
  change (draws (q :: qs)) with ([APress (fst q); ARelease (snd q); ASave] ++ draws qs).
  unfold run. rewrite fold_left_app. fold (run e [APress (fst q); ARelease (snd q); ASave] s).
  set (s' := run e [APress (fst q); ARelease (snd q); ASave] s).
  assert (E : s' = mkInsp (i_id s) (i_sel s) (Some (fst q)) (Some (snd q))
    (change_nth (i_sel s) (fun g => add_line (e_traces e (i_sel s)) g (saved_line (e_corr e) (fst q) (snd q))) (i_grains s))) by reflexivity.
  change (fold_left _ (draws qs) s') with (run e (draws qs) s').
  assert (SEL : i_sel s' = i_sel s) by (rewrite E; reflexivity). rewrite <- SEL.
  specialize (IH s' (add_line (e_traces e (i_sel s)) g (saved_line (e_corr e) (fst q) (snd q)))).
  cbn [fold_left]. rewrite SEL in *. apply IH. rewrite E. cbn [i_grains]. rewrite change_nth_nth, Nat.eqb_refl, G. reflexivity.
Qed.
