(** Theorems about histories of calls on a DIC map. *)
From Coq Require Import String Reals ZArith Bool Lra Lia.
From Coq Require Import List.
From Verif Require Import Py Grid Base_Model Dic_Model Dic_Spec Dic_Proofs Dic_Props DicState_Model DicState_Spec.
Import ListNotations.
Open Scope Z_scope.

(** * Lemmas *)
Lemma last_of_app : forall K B (f : K -> option B) a b,
  last_of f (a ++ b) = match last_of f b with Some v => Some v | None => last_of f a end.
Proof.
  induction a as [|c a IH]; intros b; cbn [app last_of]; [now destruct (last_of f b)|]. rewrite IH. now destruct (last_of f b).
Qed.
Lemma last_of_snoc : forall K B (f : K -> option B) a c,
  last_of f (a ++ [c]) = match f c with Some v => Some v | None => last_of f a end.
Proof. intros. rewrite last_of_app. reflexivity. Qed.

Section S.
Variables X C E L : Type.
Variable find : dic_map -> E -> E -> res L.
Notation call := (call X C E).
Notation session := (session X C E L).
Notation run := (run X C E L find).
Notation step := (step X C E L find).
Notation new_session := (new_session X C E L).

Lemma run_snoc : forall cs c (s : session), run (cs ++ [c]) s = fst (step (run cs s) c).
Proof. intros. unfold DicState_Model.run. now rewrite fold_left_app. Qed.
Lemma run_app : forall a b (s : session), run (a ++ b) s = run b (run a s).
Proof. intros. unfold DicState_Model.run. now rewrite fold_left_app. Qed.

Lemma do_crop_state : forall m l r t b u m' e, do_crop m l r t b u = (m', e) ->
  d_xdim m' = d_xdim m /\ d_ydim m' = d_ydim m /\
  c_left (d_crops m') = match l with Some v => v | None => c_left (d_crops m) end /\
  c_right (d_crops m') = match r with Some v => v | None => c_right (d_crops m) end /\
  c_top (d_crops m') = match t with Some v => v | None => c_top (d_crops m) end /\
  c_bottom (d_crops m') = match b with Some v => v | None => c_bottom (d_crops m) end.
Proof.
  intros m l r t b u m' e Ec. unfold do_crop in Ec. destruct (set_crop m l r t b u) as [m1|] eqn:E1; injection Ec as <- _.
  - apply set_crop_inv in E1. intuition auto.
  - cbn. auto 10.
Qed.

Definition crops_are (w h : Z) (cs : list call) (m : dic_map) : Prop :=
  d_xdim m = w /\ d_ydim m = h /\
  c_left (d_crops m) = or0 (last_of left_of cs) /\ c_right (d_crops m) = or0 (last_of right_of cs) /\
  c_top (d_crops m) = or0 (last_of top_of cs) /\ c_bottom (d_crops m) = or0 (last_of bottom_of cs).
Lemma crops_ok : forall w h cs, crops_are w h cs (s_map _ _ _ _ (run cs (new_session w h))).
Proof.
  intros w h cs. induction cs as [|c cs IH] using rev_ind; [cbv; auto 10|].
  rewrite run_snoc. remember (run cs (new_session w h)) as s eqn:Es. clear Es. destruct IH as (A1 & A2 & A3 & A4 & A5 & A6).
  unfold crops_are. rewrite !last_of_snoc.
  destruct c as [l r t b u|k n|i n|e| | |i|p]; cbn [left_of right_of top_of bottom_of step].
  - destruct (do_crop (s_map _ _ _ _ s) l r t b u) as [m e] eqn:Em. cbn [fst with_map s_map].
    apply do_crop_state in Em as (B1 & B2 & B3 & B4 & B5 & B6). rewrite B1, B2, B3, B4, B5, B6.
    destruct l, r, t, b; cbn [or0]; auto 10.
  - destruct (calc_mask _ k n); cbn [fst s_map]; auto 10.
  - cbn [fst s_map]; auto 10.
  - cbn [fst s_map]; auto 10.
  - unfold store_grains. destruct (read_grains _ _ _ _ find s); cbn [fst s_map]; auto 10.
  - unfold store_grains. destruct (find_grains _ _ _ _ find s); cbn [fst s_map]; auto 10.
  - cbn [fst s_map]; auto 10.
  - cbn [fst with_map s_map d_xdim d_ydim d_crops]; auto 10.
Qed.

Lemma set_crop_pairs : forall m l r t b u, pairs (d_homog m) -> exists m', set_crop m l r t b u = Ok m' /\ pairs (d_homog m').
Proof.
  intros m l r t b u P.
  assert (O : exists xys, on_material m xys).
  { unfold on_material. clear l r t b u. induction P as [|p ps (x & y & A) _ (xys & IH)]; [exists []; constructor|].
    exists ((x + IZR (c_left (d_crops m)), y + IZR (c_top (d_crops m)))%R :: xys). constructor; [|exact IH]. cbn [fst snd].
    replace (x + IZR (c_left (d_crops m)) - IZR (c_left (d_crops m)))%R with x by ring.
    now replace (y + IZR (c_top (d_crops m)) - IZR (c_top (d_crops m)))%R with y by ring. }
  destruct O as (xys & O). destruct u.
  - destruct (set_crop_homog m l r t b xys O) as (m' & E1 & O'). exists m'. split; [exact E1|]. unfold on_material in O'.
    clear - O'. induction O' as [|p xy ps xys A _ IH]; constructor; eauto.
  - unfold set_crop. destruct l, t; cbn [andb bind]; eexists; (split; [reflexivity|exact P]).
Qed.
Lemma shape_ok : forall w h cs, Forall good_points cs ->
  consistent (s_map _ _ _ _ (run cs (new_session w h))) /\ pairs (d_homog (s_map _ _ _ _ (run cs (new_session w h)))).
Proof.
  intros w h cs. induction cs as [|c cs IH] using rev_ind; intros G.
  { split; [|constructor]. unfold consistent. cbn. f_equal; lia. }
  apply Forall_app in G as [G1 G2]. specialize (IH G1). inversion G2 as [|? ? G3 _]; subst.
  rewrite run_snoc. remember (run cs (new_session w h)) as s eqn:Es. clear Es. destruct IH as [IC IP].
  destruct c as [l r t b u|k n|i n|e| | |i|p]; cbn [step].
  - destruct (set_crop_pairs (s_map _ _ _ _ s) l r t b u IP) as (m & Em & Pm). unfold do_crop. rewrite Em. cbn [fst with_map s_map].
    split; [|exact Pm]. now apply set_crop_inv in Em.
  - destruct (calc_mask _ k n); cbn [fst s_map]; auto.
  - cbn [fst s_map]; auto.
  - cbn [fst s_map]; auto.
  - unfold store_grains. destruct (read_grains _ _ _ _ find s); cbn [fst s_map]; auto.
  - unfold store_grains. destruct (find_grains _ _ _ _ find s); cbn [fst s_map]; auto.
  - cbn [fst s_map]; auto.
  - cbn [fst with_map s_map d_homog]. split; [exact IC|exact G3].
Qed.

(** * C105 *)
(** After any calls the shape is the size less the distances given last, if homologous points
    are pairs. *)
Theorem C105_shape_partial : forall w h cs, Forall good_points cs ->
  d_shape (s_map _ _ _ _ (run cs (new_session w h))) =
    (h - or0 (last_of top_of cs) - or0 (last_of bottom_of cs), w - or0 (last_of left_of cs) - or0 (last_of right_of cs)).
Proof.
  intros w h cs G. destruct (shape_ok w h cs G) as [K _]. destruct (crops_ok w h cs) as (A1 & A2 & A3 & A4 & A5 & A6).
  unfold consistent in K. rewrite K. congruence.
Qed.

(** The pattern is always the image set last, with its own binning, checked against the size
    of the data and cropped by the distances given last, whatever was called before. *)
Theorem C105_pattern : forall w h cs,
  let s := run cs (new_session w h) in
  let l := or0 (last_of left_of cs) in let r := or0 (last_of right_of cs) in
  let t := or0 (last_of top_of cs) in let b := or0 (last_of bottom_of cs) in
  match last_of pattern_of cs with
  | None => read_pattern _ _ _ _ s = Err FileNotFoundError
  | Some (img, n) =>
      (im_w img <> w * n \/ im_h img <> h * n -> read_pattern _ _ _ _ s = Err ValueError) /\
      (im_w img = w * n -> im_h img = h * n -> 0 <= n -> fits w h l r t b ->
         exists im, read_pattern _ _ _ _ s = Ok im /\ im_w im = (w - l - r) * n /\ im_h im = (h - t - b) * n /\
           forall x y, im_at im (x, y) = im_at img (x + l * n, y + t * n))
  end.
Proof.
  intros w h cs s l r t b.
  assert (P : s_pattern _ _ _ _ s = option_map fst (last_of pattern_of cs) /\ s_window _ _ _ _ s = option_map snd (last_of pattern_of cs)).
  { unfold s. clear. induction cs as [|c cs IH] using rev_ind; [auto|]. rewrite run_snoc, last_of_snoc.
    remember (run cs (new_session w h)) as s eqn:Es. clear Es.
    destruct c as [l r t b u|k n|i n|e| | |i|p]; cbn [step pattern_of].
    - destruct (do_crop (s_map _ _ _ _ s) l r t b u) as [m e]. exact IH.
    - destruct (calc_mask _ k n); exact IH.
    - split; reflexivity.
    - exact IH.
    - unfold store_grains. destruct (read_grains _ _ _ _ find s); exact IH.
    - unfold store_grains. destruct (find_grains _ _ _ _ find s); exact IH.
    - exact IH.
    - exact IH. }
  destruct P as [P1 P2]. destruct (crops_ok w h cs) as (A1 & A2 & A3 & A4 & A5 & A6). fold s in A1, A2, A3, A4, A5, A6.
  fold l in A3. fold r in A4. fold t in A5. fold b in A6. unfold read_pattern. rewrite P1, P2. clear P1 P2.
  clearbody s l r t b. destruct (last_of pattern_of cs) as [[img n]|]; [|reflexivity]. cbn [option_map fst snd]. split.
  - intros D. unfold load_pattern. rewrite A1, A2. destruct (Z.eqb_spec (im_w img) (w * n)), (Z.eqb_spec (im_h img) (h * n)); try lia; reflexivity.
  - intros D1 D2 Hn F. rewrite (proj2 (C46_pattern _ _ img n img)) by (rewrite A1, A2; auto). cbn [bind].
    eexists. split; [reflexivity|]. rewrite crop_ok; [|unfold fitting; rewrite A1, A2, A3, A4, A5, A6; exact F|exact Hn|now rewrite A1|now rewrite A2].
    rewrite A1, A2, A3, A4, A5, A6. cbn [im_w im_h im_at fst snd]. auto.
Qed.

(** A mask of another size than the cropped map is refused and the mask before it stays. *)
Theorem C105_mask_refused : forall w h cs k n, Forall good_points cs ->
  im_w k <> w - or0 (last_of left_of cs) - or0 (last_of right_of cs) \/
  im_h k <> h - or0 (last_of top_of cs) - or0 (last_of bottom_of cs) ->
  step (run cs (new_session w h)) (SetMask _ _ _ (Some k) n) = (run cs (new_session w h), Err ValueError).
Proof.
  intros w h cs k n G D. cbn [step]. pose proof (C105_shape_partial w h cs G) as K.
  rewrite (proj1 (C49_shape_checked _ k n)) by (rewrite K; cbn [fst snd]; lia). reflexivity.
Qed.

Lemma mask_kept : forall cs (s : session), Forall (fun c => ~ sets_mask c) cs -> s_mask _ _ _ _ (run cs s) = s_mask _ _ _ _ s.
Proof.
  intros cs s. induction cs as [|c cs IH] using rev_ind; intros G; [reflexivity|]. apply Forall_app in G as [G1 G2].
  rewrite run_snoc. rewrite <- (IH G1). inversion G2 as [|? ? G3 _]; subst. remember (run cs s) as s1 eqn:Es. clear Es.
  destruct c as [l r t b u|k n|i n|e| | |i|p]; cbn [step]; try reflexivity.
  - destruct (do_crop (s_map _ _ _ _ s1) l r t b u) as [m e]. reflexivity.
  - elim G3. exact I.
  - unfold store_grains. destruct (read_grains _ _ _ _ find s1); reflexivity.
  - unfold store_grains. destruct (find_grains _ _ _ _ find s1); reflexivity.
Qed.
Lemma crop_kept : forall K (f : call -> option K) cs, (forall c, ~ sets_crop c -> f c = None) -> Forall (fun c => ~ sets_crop c) cs -> last_of f cs = None.
Proof. intros K f cs Hf F. induction F as [|c cs Hc F IH]; [reflexivity|]. cbn [last_of]. rewrite IH. auto. Qed.

(** After a mask of the right size was set, and neither crop nor mask changed since, each pixel
    of the data shows the value of the whole map at its place, except those within [n] steps of
    a pixel of the mask. *)
Theorem C105_data_partial : forall (A : Type) w h cs cs' k n (data : image A), Forall good_points (cs ++ cs') ->
  Forall (fun c => ~ sets_mask c /\ ~ sets_crop c) cs' ->
  let l := or0 (last_of left_of cs) in let r := or0 (last_of right_of cs) in
  let t := or0 (last_of top_of cs) in let b := or0 (last_of bottom_of cs) in
  fits w h l r t b -> im_w data = w -> im_h data = h -> im_w k = w - l - r -> im_h k = h - t - b ->
  let s := run (cs ++ SetMask _ _ _ (Some k) n :: cs') (new_session w h) in
  exists im, read_map (s_map _ _ _ _ s) (s_mask _ _ _ _ s) data = Ok im /\ im_w im = w - l - r /\ im_h im = h - t - b /\
    forall x y, inside (w - l - r) (h - t - b) (x, y) ->
      ((exists q, inside (w - l - r) (h - t - b) q /\ taxi (x, y) q <= Z.of_nat n /\ im_at k q = true) -> im_at im (x, y) = None) /\
      (~ (exists q, inside (w - l - r) (h - t - b) q /\ taxi (x, y) q <= Z.of_nat n /\ im_at k q = true) ->
         im_at im (x, y) = Some (im_at data (x + l, y + t))).
Proof.
  intros A w h cs cs' k n data G N l r t b F DW DH KW KH s.
  apply Forall_app in G as [G G'].
  assert (Gs : Forall good_points (cs ++ SetMask X C E (Some k) n :: cs')) by (apply Forall_app; split; [exact G|constructor; [exact I|exact G']]).
  pose proof (C105_shape_partial w h cs G) as K0. fold l r t b in K0.
  destruct (shape_ok w h _ Gs) as [KC _]. fold s in KC.
  destruct (crops_ok w h (cs ++ SetMask X C E (Some k) n :: cs')) as (A1 & A2 & A3 & A4 & A5 & A6). fold s in A1, A2, A3, A4, A5, A6.
  assert (LC : forall K (f : call -> option K), (forall c, ~ sets_crop c -> f c = None) -> last_of f (cs ++ SetMask X C E (Some k) n :: cs') = last_of f cs).
  { intros K f Hf. rewrite last_of_app. cbn [last_of]. rewrite crop_kept; [|exact Hf|].
    - rewrite Hf; [reflexivity|cbn; auto].
    - revert N. apply Forall_impl. tauto. }
  rewrite LC in A3 by (intros []; cbn; tauto). rewrite LC in A4 by (intros []; cbn; tauto).
  rewrite LC in A5 by (intros []; cbn; tauto). rewrite LC in A6 by (intros []; cbn; tauto).
  fold l in A3. fold r in A4. fold t in A5. fold b in A6.
  destruct (C49_dilation (s_map _ _ _ _ (run cs (new_session w h))) k n) as (k' & Ek & W' & H' & D'); [rewrite K0; exact KH|rewrite K0; exact KW|].
  assert (EM : s_mask _ _ _ _ s = Some k').
  { unfold s. change (cs ++ SetMask X C E (Some k) n :: cs') with (cs ++ [SetMask X C E (Some k) n] ++ cs').
    rewrite app_assoc, run_app. rewrite mask_kept by (revert N; apply Forall_impl; tauto). rewrite run_snoc. cbn [step]. rewrite Ek. reflexivity. }
  rewrite EM. assert (SH : d_shape (s_map _ _ _ _ s) = (h - t - b, w - l - r)) by (unfold consistent in KC; rewrite KC; congruence).
  clearbody s. destruct (C49_read_partial A (s_map _ _ _ _ s) k' data) as (im & E1 & E2 & E3 & E4).
  - unfold fitting. rewrite A1, A2, A3, A4, A5, A6. exact F.
  - exact KC.
  - congruence.
  - congruence.
  - rewrite SH. cbn [fst]. lia.
  - rewrite SH. cbn [snd]. lia.
  - exists im. split; [exact E1|]. rewrite E2, E3, SH. cbn [fst snd]. split; [reflexivity|]. split; [reflexivity|].
    intros x y Hin. rewrite E4, A3, A5. rewrite KW, KH in D'. specialize (D' (x, y) Hin). split.
    + intros Q. apply D' in Q. now rewrite Q.
    + intros Q. destruct (im_at k' (x, y)) eqn:Ek'; [|reflexivity]. elim Q. now apply D'.
Qed.

Lemma links_ok : forall w h cs, s_linked _ _ _ _ (run cs (new_session w h)) = last_of linked_of cs /\
  (forall e, Forall (fun c => forall e', linked_of c = Some e' -> e' = e) cs -> Forall (fun e' => e' = e) (s_sources _ _ _ _ (run cs (new_session w h)))) /\
  (last_of linked_of cs = None <-> s_sources _ _ _ _ (run cs (new_session w h)) = []).
Proof.
  intros w h cs. induction cs as [|c cs IH] using rev_ind; [repeat split; constructor|].
  rewrite run_snoc, last_of_snoc. remember (run cs (new_session w h)) as s eqn:Es. clear Es. destruct IH as (I1 & I2 & I3).
  assert (D : forall s' : session, s_linked _ _ _ _ s' = s_linked _ _ _ _ s -> s_sources _ _ _ _ s' = s_sources _ _ _ _ s -> linked_of c = None ->
    s_linked _ _ _ _ s' = match linked_of c with Some v => Some v | None => last_of linked_of cs end /\
    (forall e, Forall (fun c => forall e', linked_of c = Some e' -> e' = e) (cs ++ [c]) -> Forall (fun e' => e' = e) (s_sources _ _ _ _ s')) /\
    (match linked_of c with Some v => Some v | None => last_of linked_of cs end = None <-> s_sources _ _ _ _ s' = [])).
  { intros s' E1 E2 E3. rewrite E1, E2, E3. split; [exact I1|]. split; [|exact I3]. intros e F. apply Forall_app in F as [F _]. auto. }
  destruct c as [l r t b u|k n|i n|e0| | |i|p]; cbn [step].
  - destruct (do_crop (s_map _ _ _ _ s) l r t b u) as [m e]. apply D; reflexivity.
  - destruct (calc_mask _ k n); apply D; reflexivity.
  - apply D; reflexivity.
  - cbn [fst s_linked s_sources linked_of]. split; [reflexivity|]. split.
    + intros e F. apply Forall_app in F as [F1 F2]. apply Forall_app. split; [auto|]. inversion F2 as [|? ? F3 _]; subst.
      constructor; [|constructor]. now apply F3.
    + split; [discriminate|]. intros B. now apply app_eq_nil in B as [_ B].
  - unfold store_grains. destruct (read_grains _ _ _ _ find s); apply D; reflexivity.
  - unfold store_grains. destruct (find_grains _ _ _ _ find s); apply D; reflexivity.
  - apply D; reflexivity.
  - apply D; reflexivity.
Qed.

(** Boundaries are those of the linked map, moved from its frame, if all links were to the
    same map; without a link there are none. *)
Theorem C105_boundaries_partial : forall w h cs,
  let s := run cs (new_session w h) in
  (last_of linked_of cs = None -> read_boundaries _ _ _ _ s = Err KeyError) /\
  (forall e, last_of linked_of cs = Some e -> Forall (fun c => forall e', linked_of c = Some e' -> e' = e) cs -> read_boundaries _ _ _ _ s = Ok (e, e)).
Proof.
  intros w h cs s. destruct (links_ok w h cs) as (I1 & I2 & I3). fold s in I1, I2, I3. unfold read_boundaries. rewrite I1. split.
  - intros N. rewrite N. now destruct (s_sources _ _ _ _ s).
  - intros e Le F. specialize (I2 e F). rewrite Le. destruct (s_sources _ _ _ _ s) as [|e1 l].
    + rewrite (proj2 I3 eq_refl) in Le. discriminate Le.
    + inversion I2; subst. reflexivity.
Qed.

(** Grains read after any calls that do not change the crop, the link or the homologous points
    since they were first read are those of the map as it is; without a link reading fails. *)
Theorem C105_grains_partial : forall w h cs cs', Forall (fun c => ~ In c [ReadGrains _ _ _; FindGrains _ _ _]) cs ->
  Forall (fun c => ~ moves_grains c) cs' ->
  (forall e e' c c', In c cs -> In c' cs -> linked_of c = Some e -> linked_of c' = Some e' -> e = e') ->
  let s := run (cs ++ cs') (new_session w h) in
  read_grains _ _ _ _ find s = match last_of linked_of cs with
                               | None => Err GenericException
                               | Some e => find (s_map _ _ _ _ s) e e
                               end.
Proof.
  intros w h cs cs' N M U s.
  assert (A : s_grains _ _ _ _ (run cs (new_session w h)) = None).
  { clear - N. induction cs as [|c cs IH] using rev_ind; [reflexivity|]. apply Forall_app in N as [N1 N2]. specialize (IH N1).
    rewrite run_snoc. inversion N2 as [|? ? N3 _]; subst. remember (run cs (new_session w h)) as s eqn:Es. clear Es.
    destruct c as [l r t b u|k n|i n|e| | |i|p]; cbn [step]; try exact IH.
    - destruct (do_crop (s_map _ _ _ _ s) l r t b u) as [m e]. exact IH.
    - destruct (calc_mask _ k n); exact IH.
    - elim N3. left. reflexivity.
    - elim N3. right. left. reflexivity. }
  assert (B : read_grains _ _ _ _ find (run cs (new_session w h)) = match last_of linked_of cs with None => Err GenericException | Some e => find (s_map _ _ _ _ (run cs (new_session w h))) e e end).
  { unfold read_grains. rewrite A. unfold find_grains. destruct (links_ok w h cs) as (I1 & _ & _). rewrite I1.
    destruct (last_of linked_of cs) as [e|] eqn:Le; [|reflexivity].
    destruct (C105_boundaries_partial w h cs) as [_ BP]. rewrite (BP e Le); [reflexivity|].
    assert (Ie : exists c, In c cs /\ linked_of c = Some e).
    { clear - Le. induction cs as [|c cs IH]; [discriminate Le|]. cbn [last_of] in Le. destruct (last_of linked_of cs) as [v|].
      - destruct (IH Le) as (c0 & H1 & H2). exists c0. cbn. auto.
      - exists c. cbn. auto. }
    destruct Ie as (c & Ic & Ec). apply Forall_forall. intros c' Ic' e' Ec'. symmetry. exact (U e e' c c' Ic Ic' Ec Ec'). }
  unfold s. rewrite run_app. clear s N U. remember (run cs (new_session w h)) as s0 eqn:E0. clear E0.
  assert (Q : s_map _ _ _ _ (run cs' s0) = s_map _ _ _ _ s0 /\ read_grains _ _ _ _ find (run cs' s0) = read_grains _ _ _ _ find s0 /\
    find_grains _ _ _ _ find (run cs' s0) = find_grains _ _ _ _ find s0 /\
    (s_grains _ _ _ _ (run cs' s0) = None \/ read_grains _ _ _ _ find (run cs' s0) = find_grains _ _ _ _ find (run cs' s0))).
  { clear B. induction cs' as [|c cs' IH] using rev_ind; [auto|]. apply Forall_app in M as [M1 M2]. specialize (IH M1).
    rewrite run_snoc. inversion M2 as [|? ? M3 _]; subst. remember (run cs' s0) as s eqn:Es. clear Es. destruct IH as (I1 & I2 & I3 & I4).
    assert (R : s_grains _ _ _ _ s = None -> read_grains _ _ _ _ find s = find_grains _ _ _ _ find s) by (intros H; unfold read_grains; now rewrite H).
    assert (I5 : read_grains _ _ _ _ find s = find_grains _ _ _ _ find s) by (destruct I4; auto).
    assert (ST : forall rr, rr = find_grains _ _ _ _ find s -> 
      s_map _ _ _ _ (fst (store_grains _ _ _ _ s rr)) = s_map _ _ _ _ s0 /\ read_grains _ _ _ _ find (fst (store_grains _ _ _ _ s rr)) = read_grains _ _ _ _ find s0 /\
      find_grains _ _ _ _ find (fst (store_grains _ _ _ _ s rr)) = find_grains _ _ _ _ find s0 /\
      (s_grains _ _ _ _ (fst (store_grains _ _ _ _ s rr)) = None \/ read_grains _ _ _ _ find (fst (store_grains _ _ _ _ s rr)) = find_grains _ _ _ _ find (fst (store_grains _ _ _ _ s rr)))).
    { intros rr Err_. unfold store_grains. destruct rr as [g|e]; cbn [fst].
      - split; [exact I1|]. assert (X1 : read_grains _ _ _ _ find s0 = Ok g) by congruence. split; [now rewrite X1|]. split; [exact I3|].
        right. unfold read_grains. cbn [s_grains]. change (Ok g = find_grains _ _ _ _ find s). exact Err_.
      - auto. }
    destruct c as [l r t b u|k n|i n|e| | |i|p]; cbn [step].
    - elim M3. exact I.
    - destruct (calc_mask _ k n); cbn [fst]; auto.
    - auto.
    - elim M3. exact I.
    - apply ST. exact I5.
    - apply ST. reflexivity.
    - auto.
    - elim M3. exact I. }
  destruct Q as (Q1 & Q2 & _). rewrite Q1, Q2. exact B.
Qed.

(** Correlation values are those loaded last, also if they were refused. *)
Theorem C105_corr_refuted : forall w h cs img, im_w img <> w \/ im_h img <> h ->
  let '(s, e) := step (run cs (new_session w h)) (LoadCorr _ _ _ img) in e = Err AssertionError /\ s_corr _ _ _ _ s = Some img.
Proof.
  intros w h cs img D. cbn [step]. destruct (crops_ok w h cs) as (A1 & A2 & _). rewrite A1, A2. split; [|reflexivity].
  destruct (Z.eqb_spec (im_w img) w), (Z.eqb_spec (im_h img) h); try lia; reflexivity.
Qed.
Theorem C105_corr_partial : forall w h cs, s_corr _ _ _ _ (run cs (new_session w h)) = last_of corr_of cs.
Proof.
  intros w h cs. induction cs as [|c cs IH] using rev_ind; [reflexivity|]. rewrite run_snoc, last_of_snoc.
  remember (run cs (new_session w h)) as s eqn:Es. clear Es.
  destruct c as [l r t b u|k n|i n|e| | |i|p]; cbn [step corr_of]; try exact IH; try reflexivity.
  - destruct (do_crop (s_map _ _ _ _ s) l r t b u) as [m e]. exact IH.
  - destruct (calc_mask _ k n); exact IH.
  - unfold store_grains. destruct (read_grains _ _ _ _ find s); exact IH.
  - unfold store_grains. destruct (find_grains _ _ _ _ find s); exact IH.
Qed.

(** After linking another map the boundaries are still those of the first, but moved from the
    frame of the second. *)
Theorem C105_relink_refuted : forall w h e1 e2 cs,
  read_boundaries _ _ _ _ (run (LinkEbsd _ _ _ e1 :: cs ++ [LinkEbsd _ _ _ e2]) (new_session w h)) = Ok (e1, e2).
Proof.
  intros w h e1 e2 cs. change (LinkEbsd X C E e1 :: cs ++ [LinkEbsd X C E e2]) with ((LinkEbsd X C E e1 :: cs) ++ [LinkEbsd X C E e2]).
  rewrite run_snoc. cbn [step fst]. unfold read_boundaries. cbn [s_sources s_linked].
  assert (Q : exists l, s_sources _ _ _ _ (run (LinkEbsd X C E e1 :: cs) (new_session w h)) = e1 :: l).
  { induction cs as [|c cs IH] using rev_ind; [eexists; reflexivity|].
    change (LinkEbsd X C E e1 :: cs ++ [c]) with ((LinkEbsd X C E e1 :: cs) ++ [c]). rewrite run_snoc.
    remember (run (LinkEbsd X C E e1 :: cs) (new_session w h)) as s eqn:Es. clear Es. destruct IH as (l0 & IH).
    destruct c as [l r t b u|k n|i n|e| | |i|p]; cbn [step]; try (exists l0; exact IH).
    - destruct (do_crop (s_map _ _ _ _ s) l r t b u) as [m e]. exists l0. exact IH.
    - destruct (calc_mask _ k n); exists l0; exact IH.
    - cbn [fst s_sources]. rewrite IH. eexists. reflexivity.
    - unfold store_grains. destruct (read_grains _ _ _ _ find s); exists l0; exact IH.
    - unfold store_grains. destruct (find_grains _ _ _ _ find s); exists l0; exact IH. }
  destruct Q as (l & ->). reflexivity.
Qed.
(** So grains found then come from the second map's grains and the first map's boundaries. *)
Theorem C105_relink_grains_refuted : forall w h e1 e2 cs, let s := run (LinkEbsd _ _ _ e1 :: cs ++ [LinkEbsd _ _ _ e2]) (new_session w h) in
  find_grains _ _ _ _ find s = find (s_map _ _ _ _ s) e2 e1.
Proof.
  intros w h e1 e2 cs s. unfold find_grains. unfold s at 1 2. rewrite C105_relink_refuted.
  change (LinkEbsd X C E e1 :: cs ++ [LinkEbsd X C E e2]) with ((LinkEbsd X C E e1 :: cs) ++ [LinkEbsd X C E e2]) in *. rewrite run_snoc. cbn [step fst s_linked bind]. reflexivity.
Qed.

(** Grains once read stay the same whatever the crop, the link and the points become, until
    they are found again. *)
Theorem C105_stale_refuted : forall (s : session) g cs, read_grains _ _ _ _ find s = Ok g ->
  ~ In (FindGrains _ _ _) cs -> read_grains _ _ _ _ find (run (ReadGrains _ _ _ :: cs) s) = Ok g.
Proof.
  intros s g cs R N. assert (Q : s_grains _ _ _ _ (run (ReadGrains X C E :: cs) s) = Some g).
  { induction cs as [|c cs IH] using rev_ind.
    - unfold DicState_Model.run. cbn [fold_left step fst]. unfold store_grains. rewrite R. reflexivity.
    - change (ReadGrains X C E :: cs ++ [c]) with ((ReadGrains X C E :: cs) ++ [c]). rewrite run_snoc.
      assert (N1 : ~ In (FindGrains X C E) cs) by (intros H; apply N; apply in_or_app; auto). specialize (IH N1).
      remember (run (ReadGrains X C E :: cs) s) as s1 eqn:Es. clear Es.
      destruct c as [l r t b u|k n|i n|e| | |i|p]; cbn [step]; try exact IH.
      + destruct (do_crop (s_map _ _ _ _ s1) l r t b u) as [m e]. exact IH.
      + destruct (calc_mask _ k n); exact IH.
      + unfold store_grains, read_grains. rewrite IH. reflexivity.
      + elim N. apply in_or_app. right. left. reflexivity. }
  unfold read_grains. now rewrite Q.
Qed.
End S.
Print Assumptions C105_shape_partial.
Print Assumptions C105_pattern.
Print Assumptions C105_mask_refused.
Print Assumptions C105_data_partial.
Print Assumptions C105_boundaries_partial.
Print Assumptions C105_grains_partial.
Print Assumptions C105_corr_refuted.
Print Assumptions C105_corr_partial.
Print Assumptions C105_relink_refuted.
Print Assumptions C105_relink_grains_refuted.
Print Assumptions C105_stale_refuted.

(** A crop that fails to move malformed points is kept, but the shape is the old one. *)
Theorem C105_failed_crop_refuted : forall X C E L find, exists cs e,
  let s := run X C E L find cs (new_session X C E L 10 8) in
  snd (step X C E L find s (SetCrop _ _ _ (Some 2) None None None true)) = Err e /\
  let s' := fst (step X C E L find s (SetCrop _ _ _ (Some 2) None None None true)) in
  c_left (d_crops (s_map _ _ _ _ s')) = 2 /\ d_shape (s_map _ _ _ _ s') = (8, 10) /\
  forall A (data : image A), im_w data = 10 -> im_h data = 8 -> im_w (crop (s_map _ _ _ _ s') data 1) = 8.
Proof.
  intros X C E L find. exists [SetPoints _ _ _ [PTuple [1%R]]], IndexError. cbn. split; [reflexivity|]. split; [reflexivity|]. split; [reflexivity|].
  intros A [w h f] W H. cbn [im_w im_h] in W, H. subst. reflexivity.
Qed.
Print Assumptions C105_failed_crop_refuted.

(** Cases that meet the hypotheses. *)
Example C105_met : let cs := [SetCrop Z Z Z (Some 1) None None (Some 2) false; SetPoints _ _ _ [PTuple [1; 2]%R]; SetPattern _ _ _ (Image 20 16 fst) 2;
    LinkEbsd _ _ _ 7; SetCrop _ _ _ None (Some 3) None None true] in
  let cs' := [LoadCorr _ _ _ (Image 1 1 fst); ReadGrains _ _ _; SetPattern _ _ _ (Image 40 32 snd) 4] in
  Forall good_points (cs ++ cs') /\ Forall (fun c => ~ sets_mask c /\ ~ sets_crop c) cs' /\
  fits 10 8 (or0 (last_of left_of cs)) (or0 (last_of right_of cs)) (or0 (last_of top_of cs)) (or0 (last_of bottom_of cs)) /\
  or0 (last_of left_of cs) = 1 /\ or0 (last_of right_of cs) = 3 /\ or0 (last_of bottom_of cs) = 2 /\
  last_of linked_of cs = Some 7 /\ Forall (fun c => ~ moves_grains c) cs' /\ Forall (fun c => ~ In c [ReadGrains _ _ _; FindGrains _ _ _]) cs /\
  exists img, last_of pattern_of (cs ++ cs') = Some (img, 4) /\ im_w img = 10 * 4.
Proof.
  split; [repeat constructor; exists 1%R, 2%R; left; reflexivity|]. split; [repeat constructor; cbn; auto|].
  split; [unfold fits; cbn; lia|]. do 4 (split; [reflexivity|]). split; [repeat constructor; cbn; auto|].
  split; [repeat (constructor; [cbn; intuition discriminate|]); constructor|]. eexists. split; reflexivity.
Qed.
(** With grains that depend on the crop, those read are not those of the map. *)
Example C105_stale_met : let find := fun (m : dic_map) (e b : Z) => Ok (c_left (d_crops m)) in
  let s := run Z Z Z Z find [LinkEbsd _ _ _ 7] (new_session Z Z Z Z 10 8) in
  let s' := run Z Z Z Z find [ReadGrains _ _ _; SetCrop _ _ _ (Some 2) None None None false] s in
  read_grains _ _ _ _ find s = Ok 0 /\ read_grains _ _ _ _ find s' = Ok 0 /\ find_grains _ _ _ _ find s' = Ok 2.
Proof. repeat split. Qed.
