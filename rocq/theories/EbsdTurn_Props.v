(** C122: grains do not depend on how orientations are described, and turn with the map. *)
From Coq Require Import String Reals Lra.
From Coq Require Import List ZArith Bool Lia.
Import ListNotations.
From Verif Require Import Py Grid Grid_Lemmas Flood_Model Flood_Spec Flood_Proofs Quat_Model Quat_Spec Quat_Proofs QuatSym_Proofs QuatEuler_Proofs
  Boundary_Model Boundary_Spec Boundary_Proofs BoundaryOri_Proofs Ebsd_Model Ebsd_Spec Ebsd_Proofs EbsdState_Model EbsdLoad_Model EbsdLoad_Spec EbsdLoad_Proofs EbsdLoadEx_Props EbsdTurn_Spec EbsdTurn_Proofs.
Open Scope Z_scope.

(** ** Other descriptions *)
Lemma misori_described g r a b a' b' : unitq r ->
  equivalent (sym_eqv g) (hprod a r) a' -> equivalent (sym_eqv g) (hprod b r) b' -> mis_ori a' b' g = mis_ori a b g.
Proof.
  intros U A B. rewrite (mis_ori_equiv _ _ _ _ _ A B). apply (mis_ori_frame _ _ r); auto using same_rot_refl.
Qed.
Lemma exceeds_described g r a b a' b' tol : unitq r -> unitq a -> unitq b -> unitq a' -> unitq b' ->
  equivalent (sym_eqv g) (hprod a r) a' -> equivalent (sym_eqv g) (hprod b r) b' ->
  exceeds tol (pair_misori g (Some a') (Some b')) = exceeds tol (pair_misori g (Some a) (Some b)).
Proof.
  intros U Ua Ub Ua' Ub' A B. unfold exceeds, pair_misori. rewrite !neighbour_misori_spec by auto.
  now rewrite (misori_described g r a b a' b' U A B).
Qed.

Section Described.
Variables K G : Type.
Notation ebsd := (ebsd K G).
Notation names e := (e_names K G e).

(** Boundaries, labels, grains and their phases are the same, for every tolerance and least size. *)
Theorem C122_described : forall (e e' : ebsd) g r, structure (names e) K G (e_map K G e) = Ok g -> unitq r ->
  0 <= e_cols K G e -> same_phases K G e e' -> described K G g r e e' ->
  forall tol n, outcome K G e' tol n = outcome K G e tol n.
Proof.
  intros e e' g r S U W0 (SR & SC & SP & SI & PH) (ori & ori' & SO & SO' & D) tol n.
  assert (N : names e' = names e) by (unfold e_names; now rewrite SP).
  assert (S' : structure (names e') K G (e_map K G e') = Ok g) by (rewrite N; unfold structure in *; now rewrite SI).
  rewrite (outcome_is K G e' g tol n S'), (outcome_is K G e g tol n S). rewrite SR, SC, N. cbv zeta.
  assert (EB : bounds_of (e_cols K G e) (e_rows K G e) g (ori_of K G (e_map K G e')) (em_phase K G (e_map K G e')) tol =
               bounds_of (e_cols K G e) (e_rows K G e) g (ori_of K G (e_map K G e)) (em_phase K G (e_map K G e)) tol).
  { apply bounds_ext; [exact PH|]. intros p q I J _. destruct (SO p I) as (-> & Up). destruct (SO q J) as (-> & Uq).
    unfold shows_ori in SO'. rewrite SR, SC in SO'. destruct (SO' p I) as (-> & Up'). destruct (SO' q J) as (-> & Uq').
    apply (exceeds_described g r); auto. }
  rewrite EB. f_equal. now apply grains_ext.
Qed.

(** For maps as loaded: the Euler angles may be those of any equivalent orientation, in axes turned
    by any fixed Euler angles. *)
Theorem C122_euler : forall (e e' : ebsd) g r1 r2 r3, structure (names e) K G (e_map K G e) = Ok g -> 0 <= e_cols K G e ->
  same_phases K G e e' -> em_ori K G (e_map K G e) = None -> em_ori K G (e_map K G e') = None ->
  (forall p a b c a' b' c', inside (e_cols K G e) (e_rows K G e) p ->
     em_euler K G (e_map K G e) p = (a, b, c) -> em_euler K G (e_map K G e') p = (a', b', c') ->
     exists s, In s (sym_eqv g) /\ bunge a' b' c' = mprod (rot_matrix s) (mprod (bunge a b c) (bunge r1 r2 r3))) ->
  forall tol n, outcome K G e' tol n = outcome K G e tol n.
Proof.
  intros e e' g r1 r2 r3 S W0 SP N N' M. pose proof SP as (SR & SC & _).
  apply (C122_described e e' g (from_euler_angles r1 r2 r3) S (euler_unit _ _ _) W0 SP).
  exists (fun p => quat_of_euler (em_euler K G (e_map K G e) p)), (fun p => quat_of_euler (em_euler K G (e_map K G e') p)).
  assert (U : forall t, unitq (quat_of_euler t)) by (intros [[a b] c]; apply euler_unit).
  split; [|split].
  - intros p I. unfold ori_of. rewrite N. split; [reflexivity|apply U].
  - intros p I. unfold ori_of. rewrite N'. split; [reflexivity|apply U].
  - intros p I. destruct (em_euler K G (e_map K G e) p) as [[a b] c] eqn:E. destruct (em_euler K G (e_map K G e') p) as [[a' b'] c'] eqn:E'.
    destruct (M p a b c a' b' c' I E E') as (s & Is & B). exists s. split; [exact Is|]. unfold quat_of_euler.
    assert (Us : unitq s) by (destruct (sym_group g) as (_ & US & _); auto).
    apply rot_inj; [apply euler_unit|apply unitq_hprod; [exact Us|apply unitq_hprod; apply euler_unit]|].
    rewrite !rot_hprod, !euler_bunge. exact B.
Qed.
End Described.
Print Assumptions C122_described.
Print Assumptions C122_euler.

(** ** Turned maps *)
Section Images.
Variables W H : Z.
Hypothesis W0 : 0 <= W. Hypothesis H0 : 0 <= H.
Notation T := (turned W H).
Lemma image_of m pts : (forall p, In p pts <-> inside W H p /\ m p = true) ->
  exists im, bs_image W H pts = Ok im /\
   ((exists p, inside W H p /\ m p = true) /\ (forall p, inside W H p -> im p = m p) \/
    (forall p, inside W H p -> m p = false) /\ (forall p, im p = true)).
Proof.
  intros M. destruct pts as [|a l] eqn:E.
  - exists (fun _ => true). split; [reflexivity|]. right. split; [|reflexivity]. intros p I. destruct (m p) eqn:X; [|reflexivity]. destruct (proj2 (M p) (conj I X)).
  - rewrite <- E in *. destruct (bs_image_exact W H pts) as (im & B & Q); [rewrite E; discriminate|intros p I; now apply M in I|].
    exists im. split; [exact B|]. left. split; [exists a; apply M; rewrite E; now left|]. intros p I. destruct (im p) eqn:X.
    + apply Q, M in X. symmetry. apply X.
    + destruct (m p) eqn:Y; [|reflexivity]. assert (im p = true) by (apply Q, M; auto). congruence.
Qed.
(** Marks between neighbours, the neighbour being [nb]. *)
Lemma image_turn (nb : pix -> pix) m m' pts pts' :
  (forall p, In p pts <-> inside W H p /\ m p = true) -> (forall p, In p pts' <-> inside W H p /\ m' p = true) ->
  (forall p, nb (T (nb p)) = T p) ->
  (forall p, inside W H p -> m p = true -> inside W H (nb p)) -> (forall p, inside W H p -> m' p = true -> inside W H (nb p)) ->
  (forall p, inside W H p -> inside W H (nb p) -> m' (T (nb p)) = m p) ->
  exists im im', bs_image W H pts = Ok im /\ bs_image W H pts' = Ok im' /\
    forall p, inside W H p -> inside W H (nb p) -> im' (T (nb p)) = im p.
Proof.
  intros M M' NB L L' R. destruct (image_of m pts M) as (im & B & C). destruct (image_of m' pts' M') as (im' & B' & C').
  exists im, im'. split; [exact B|]. split; [exact B'|]. intros p I J. pose proof (turn_inside W H _ J) as TJ.
  destruct C as [[(q & Iq & Mq) C]|[N C]]; destruct C' as [[(q' & Iq' & Mq') C']|[N' C']].
  - rewrite C', C by auto. now apply R.
  - exfalso. pose proof (L q Iq Mq) as Jq. rewrite <- (R q Iq Jq) in Mq. rewrite N' in Mq by now apply turn_inside. discriminate.
  - exfalso. pose proof (L' q' Iq' Mq') as Jq. pose proof (turn_inside W H _ Jq) as I2. pose proof (turn_inside W H _ Iq') as J2. pose proof (NB q') as E1.
    rewrite <- E1 in J2. pose proof (R (T (nb q')) I2 J2) as E2. rewrite E1, (turn_turn W H) in E2. rewrite E2, N in Mq' by exact I2. discriminate.
  - now rewrite C, C'.
Qed.
End Images.

Section Turned.
Variables (W H : Z) (g : string) (ori ori' : oimage) (ph ph' : pix -> Z) (tol : R).
Notation T := (turned W H).
Hypothesis W2 : 2 <= W. Hypothesis H2 : 2 <= H.
Hypothesis tol0 : (0 <= tol)%R.
Hypothesis P : forall p, inside W H p -> ph' (T p) = ph p.
Hypothesis O : forall p q, inside W H p -> inside W H q ->
  exceeds tol (pair_misori g (ori' (T q)) (ori' (T p))) = exceeds tol (pair_misori g (ori p) (ori q)).

Definition mark_x (o : oimage) (f : pix -> Z) p := exceeds tol (if fst p <? W - 1 then pair_misori g (o p) (o (fst p + 1, snd p)) else Some edge_misori) || phase_x W f p.
Definition mark_y (o : oimage) (f : pix -> Z) p := exceeds tol (if snd p <? H - 1 then pair_misori g (o p) (o (fst p, snd p + 1)) else Some edge_misori) || phase_y H f p.
Lemma no_edge : exceeds tol (Some edge_misori) = false.
Proof.
  unfold exceeds, gtb, edge_misori. rewrite acos_1. destruct (Rlt_dec _ _) as [L|]; [|reflexivity]. exfalso.
  pose proof PI_RGT_0. assert (0 <= tol * (PI / 180))%R by (apply Rmult_le_pos; lra). lra.
Qed.
Lemma mark_x_is o f p : inside W H p -> inside W H (fst p + 1, snd p) ->
  mark_x o f p = exceeds tol (pair_misori g (o p) (o (fst p + 1, snd p))) || negb (f p =? f (fst p + 1, snd p)).
Proof using W H g tol.
  clear P O ori ori' ph ph'. intros I J. unfold inside in I, J. cbn [fst snd] in J. unfold mark_x, phase_x. destruct (Z.ltb_spec (fst p) (W - 1)); [|lia]. destruct (Z.eqb_spec (fst p) (W - 1)); [lia|].
  rewrite Z.mod_small by lia. reflexivity.
Qed.
Lemma mark_y_is o f p : inside W H p -> inside W H (fst p, snd p + 1) ->
  mark_y o f p = exceeds tol (pair_misori g (o p) (o (fst p, snd p + 1))) || negb (f p =? f (fst p, snd p + 1)).
Proof using W H g tol.
  clear P O ori ori' ph ph'. intros I J. unfold inside in I, J. cbn [fst snd] in J. unfold mark_y, phase_y. destruct (Z.ltb_spec (snd p) (H - 1)); [|lia]. destruct (Z.eqb_spec (snd p) (H - 1)); [lia|].
  rewrite Z.mod_small by lia. reflexivity.
Qed.
Lemma mark_x_in o f p : inside W H p -> mark_x o f p = true -> inside W H (fst p + 1, snd p).
Proof using W H g tol tol0.
  clear P O ori ori' ph ph'. intros I M. unfold mark_x, phase_x in M. destruct (Z.eqb_spec (fst p) (W - 1)) as [E|E].
  - destruct (Z.ltb_spec (fst p) (W - 1)); [lia|]. rewrite no_edge in M. discriminate.
  - unfold inside in *. cbn [fst snd]. lia.
Qed.
Lemma mark_y_in o f p : inside W H p -> mark_y o f p = true -> inside W H (fst p, snd p + 1).
Proof using W H g tol tol0.
  clear P O ori ori' ph ph'. intros I M. unfold mark_y, phase_y in M. destruct (Z.eqb_spec (snd p) (H - 1)) as [E|E].
  - destruct (Z.ltb_spec (snd p) (H - 1)); [lia|]. rewrite no_edge in M. discriminate.
  - unfold inside in *. cbn [fst snd]. lia.
Qed.
Lemma images_turn : exists bx by_ bx' by',
  bs_image W H (bs_x (snd (bounds_of W H g ori ph tol))) = Ok bx /\ bs_image W H (bs_y (snd (bounds_of W H g ori ph tol))) = Ok by_ /\
  bs_image W H (bs_x (snd (bounds_of W H g ori' ph' tol))) = Ok bx' /\ bs_image W H (bs_y (snd (bounds_of W H g ori' ph' tol))) = Ok by' /\
  edges W H bx by_ bx' by'.
Proof.
  unfold bounds_of. cbn [snd]. change (fun p => exceeds tol (if fst p <? W - 1 then pair_misori g (ori p) (ori (fst p + 1, snd p)) else Some edge_misori) || phase_x W ph p) with (mark_x ori ph).
  change (fun p => exceeds tol (if snd p <? H - 1 then pair_misori g (ori p) (ori (fst p, snd p + 1)) else Some edge_misori) || phase_y H ph p) with (mark_y ori ph).
  change (fun p => exceeds tol (if fst p <? W - 1 then pair_misori g (ori' p) (ori' (fst p + 1, snd p)) else Some edge_misori) || phase_x W ph' p) with (mark_x ori' ph').
  change (fun p => exceeds tol (if snd p <? H - 1 then pair_misori g (ori' p) (ori' (fst p, snd p + 1)) else Some edge_misori) || phase_y H ph' p) with (mark_y ori' ph').
  destruct (from_image_points W H (mark_x ori ph) (mark_y ori ph)) as (_ & _ & _ & X & Y & _); [lia|lia|].
  destruct (from_image_points W H (mark_x ori' ph') (mark_y ori' ph')) as (_ & _ & _ & X' & Y' & _); [lia|lia|].
  destruct (image_turn W H (fun p => (fst p + 1, snd p)) _ _ _ _ X X') as (bx & bx' & B1 & B2 & B3).
  { intros p. unfold turned. cbn [fst snd]. f_equal; lia. }
  { apply mark_x_in. } { apply mark_x_in. }
  { intros p I J. assert (N : (fst (T (fst p + 1, snd p)) + 1, snd (T (fst p + 1, snd p))) = T p) by (unfold turned; cbn [fst snd]; f_equal; lia).
    pose proof (turn_inside W H _ I) as TI. pose proof (turn_inside W H _ J) as TJ.
    rewrite !mark_x_is by (auto; rewrite N; auto). rewrite N, O, !P by auto. rewrite (Z.eqb_sym (ph (fst p + 1, snd p))). reflexivity. }
  destruct (image_turn W H (fun p => (fst p, snd p + 1)) _ _ _ _ Y Y') as (by_ & by' & B1' & B2' & B3').
  { intros p. unfold turned. cbn [fst snd]. f_equal; lia. }
  { apply mark_y_in. } { apply mark_y_in. }
  { intros p I J. assert (N : (fst (T (fst p, snd p + 1)), snd (T (fst p, snd p + 1)) + 1) = T p) by (unfold turned; cbn [fst snd]; f_equal; lia).
    pose proof (turn_inside W H _ I) as TI. pose proof (turn_inside W H _ J) as TJ.
    rewrite !mark_y_is by (auto; rewrite N; auto). rewrite N, O, !P by auto. rewrite (Z.eqb_sym (ph (fst p, snd p + 1))). reflexivity. }
  exists bx, by_, bx', by'. split; [exact B1|]. split; [exact B1'|]. split; [exact B2|]. split; [exact B2'|].
  split; intros x y I J; [apply (B3 (x, y) I J)|apply (B3' (x, y) I J)].
Qed.
Lemma outcome_turn np ms :
  match grains_of W H np (bounds_of W H g ori ph tol) ph ms with
  | Ok (lab, gl) => exists lab' gl', grains_of W H np (bounds_of W H g ori' ph' tol) ph' ms = Ok (lab', gl') /\ turned_grains W H lab gl lab' gl'
  | Err x => grains_of W H np (bounds_of W H g ori' ph' tol) ph' ms = Err x
  end.
Proof.
  destruct images_turn as (bx & by_ & bx' & by' & B1 & B2 & B3 & B4 & E). unfold grains_of. rewrite B1, B2, B3, B4. cbn [bind].
  pose proof (grains_turn W H bx by_ bx' by' ph ph' np ms W2 H2 E P) as GT.
  destruct (find_grains W H bx by_ ph np ms) as [[[lab gl] phs]|x]; cbn [bind].
  - destruct GT as (lab' & gl' & phs' & -> & TG). cbn [bind]. eauto.
  - now rewrite GT.
Qed.
End Turned.

Section Rotated.
Variables K G : Type.
Notation ebsd := (ebsd K G).
Notation names e := (e_names K G e).
Notation W e := (e_cols K G e).
Notation H e := (e_rows K G e).
Notation T e := (turned (e_cols K G e) (e_rows K G e)).

Lemma rotated_unread e : unread K G e -> exists m, rotated K G e = (EBSD K G (H e) (W e) (e_step K G e) (e_phases K G e) m, Ok tt) /\
  em_primary K G m = em_primary K G (e_map K G e) /\ em_phase K G m = flip (W e) (H e) (em_phase K G (e_map K G e)) /\
  forall p, ori_of K G m p = Some (quat_mul false (quat_of_euler (em_euler K G (e_map K G e) (T e p))) (Q4 0 0 0 1)).
Proof.
  intros ((bc & bs & B1 & B2) & N). unfold rotated, rotate. rewrite B1, B2, half_turn_eq. eexists. split; [reflexivity|]. split; [reflexivity|]. split; [reflexivity|].
  intros p. unfold ori_of at 1. cbn [em_ori set_ori]. unfold ori_of. cbn [em_ori]. rewrite N. reflexivity.
Qed.
Lemma half_unit : unitq (Q4 0 0 0 1).
Proof. unfold unitq, inner. cbn [qw qx qy qz]. lra. Qed.
Lemma exceeds_turned g a b tol : unitq a -> unitq b ->
  exceeds tol (pair_misori g (Some (quat_mul false b (Q4 0 0 0 1))) (Some (quat_mul false a (Q4 0 0 0 1)))) = exceeds tol (pair_misori g (Some a) (Some b)).
Proof.
  intros Ua Ub. unfold exceeds, pair_misori. rewrite !neighbour_misori_spec; auto.
  - rewrite (mis_ori_frame b a (Q4 0 0 0 1) _ _ g half_unit (quat_mul_same _ _ _) (quat_mul_same _ _ _)), mis_ori_sym. reflexivity.
  - eapply same_rot_unit; [apply quat_mul_same|]. apply unitq_hprod; auto using half_unit.
  - eapply same_rot_unit; [apply quat_mul_same|]. apply unitq_hprod; auto using half_unit.
Qed.

(** A map turned before its orientations are read has its grains where the turned pixels are. *)
Theorem C122_turned : forall (e : ebsd) g tol n, structure (names e) K G (e_map K G e) = Ok g -> 2 <= W e -> 2 <= H e -> (0 <= tol)%R -> unread K G e ->
  snd (rotated K G e) = Ok tt /\
  match snd (outcome K G e tol n) with
  | Ok (lab, gl) => exists lab' gl', snd (outcome K G (fst (rotated K G e)) tol n) = Ok (lab', gl') /\ turned_grains (W e) (H e) lab gl lab' gl'
  | Err x => snd (outcome K G (fst (rotated K G e)) tol n) = Err x
  end.
Proof.
  intros e g tol n S W2 H2 T0 UR. destruct (rotated_unread e UR) as (m & -> & PR & PH & OR). split; [reflexivity|]. cbn [fst].
  set (e' := EBSD K G _ _ _ _ m).
  assert (S' : structure (names e') K G (e_map K G e') = Ok g) by (unfold structure in *; cbn [e_map e']; rewrite PR; exact S).
  rewrite (outcome_is K G e g tol n S), (outcome_is K G e' g tol n S'). cbn [snd]. change (names e') with (names e). cbn [e' e_map e_rows e_cols].
  apply outcome_turn; auto.
  - intros p I. rewrite PH. unfold flip. change (em_phase K G (e_map K G e) (T e (T e p)) = em_phase K G (e_map K G e) p). now rewrite turn_turn.
  - intros p q I J. rewrite !OR, !turn_turn. destruct UR as (_ & N). unfold ori_of. rewrite N. unfold from_euler.
    apply exceeds_turned; unfold quat_of_euler; destruct (em_euler _ _ _ _) as [[? ?] ?]; apply euler_unit.
Qed.
(** So are its boundaries: one to the right of a pixel is then to the left of the turned pixel. *)
Theorem C122_turned_boundaries : forall (e : ebsd) g tol n, structure (names e) K G (e_map K G e) = Ok g -> 2 <= W e -> 2 <= H e -> (0 <= tol)%R -> unread K G e ->
  exists b b', fst (outcome K G e tol n) = Ok b /\ fst (outcome K G (fst (rotated K G e)) tol n) = Ok b' /\
  (forall x y, In (x, y) (bs_x (snd b)) <-> In (T e (x + 1, y)) (bs_x (snd b'))) /\
  (forall x y, In (x, y) (bs_y (snd b)) <-> In (T e (x, y + 1)) (bs_y (snd b'))).
Proof.
  intros e g tol n S W2 H2 T0 UR. destruct (rotated_unread e UR) as (m & -> & PR & PH & OR). cbn [fst].
  set (e' := EBSD K G _ _ _ _ m).
  assert (S' : structure (names e') K G (e_map K G e') = Ok g) by (unfold structure in *; cbn [e_map e']; rewrite PR; exact S).
  rewrite (outcome_is K G e g tol n S), (outcome_is K G e' g tol n S'). cbn [fst]. change (names e') with (names e). cbn [e' e_map e_rows e_cols].
  eexists; eexists. split; [reflexivity|]. split; [reflexivity|].
  set (w := W e) in *. set (h := H e) in *. set (ph := em_phase K G (e_map K G e)) in *. set (ph' := em_phase K G m) in *. set (ori := ori_of K G (e_map K G e)). set (ori' := ori_of K G m).
  assert (P : forall p, inside w h p -> ph' (turned w h p) = ph p).
  { intros p I. rewrite PH. unfold flip. change (ph (turned w h (turned w h p)) = ph p). now rewrite turn_turn. }
  assert (O : forall p q, inside w h p -> inside w h q -> exceeds tol (pair_misori g (ori' (turned w h q)) (ori' (turned w h p))) = exceeds tol (pair_misori g (ori p) (ori q))).
  { intros p q I J. unfold ori'. rewrite !OR. unfold w, h. rewrite !turn_turn. destruct UR as (_ & N). unfold ori, ori_of. rewrite N. unfold from_euler.
    apply exceeds_turned; unfold quat_of_euler; destruct (em_euler _ _ _ _) as [[? ?] ?]; apply euler_unit. }
  unfold bounds_of. cbn [snd].
  change (fun p => exceeds tol (if fst p <? w - 1 then pair_misori g (ori p) (ori (fst p + 1, snd p)) else Some edge_misori) || phase_x w ph p) with (mark_x w g tol ori ph).
  change (fun p => exceeds tol (if snd p <? h - 1 then pair_misori g (ori p) (ori (fst p, snd p + 1)) else Some edge_misori) || phase_y h ph p) with (mark_y h g tol ori ph).
  change (fun p => exceeds tol (if fst p <? w - 1 then pair_misori g (ori' p) (ori' (fst p + 1, snd p)) else Some edge_misori) || phase_x w ph' p) with (mark_x w g tol ori' ph').
  change (fun p => exceeds tol (if snd p <? h - 1 then pair_misori g (ori' p) (ori' (fst p, snd p + 1)) else Some edge_misori) || phase_y h ph' p) with (mark_y h g tol ori' ph').
  destruct (from_image_points w h (mark_x w g tol ori ph) (mark_y h g tol ori ph)) as (_ & _ & _ & X & Y & _); [lia|lia|].
  destruct (from_image_points w h (mark_x w g tol ori' ph') (mark_y h g tol ori' ph')) as (_ & _ & _ & X' & Y' & _); [lia|lia|].
  split; intros x y; [rewrite X, X'|rewrite Y, Y'].
  - assert (N : (fst (turned w h (x + 1, y)) + 1, snd (turned w h (x + 1, y))) = turned w h (x, y)) by (unfold turned; cbn [fst snd]; f_equal; lia).
    assert (Q : inside w h (x, y) -> inside w h (x + 1, y) -> mark_x w g tol ori' ph' (turned w h (x + 1, y)) = mark_x w g tol ori ph (x, y)).
    { intros I J. pose proof (turn_inside w h _ I) as TI. pose proof (turn_inside w h _ J) as TJ.
      rewrite (mark_x_is w h g tol ori' ph') by (auto; rewrite N; auto). rewrite (mark_x_is w h g tol ori ph (x, y)) by auto. rewrite N. cbn [fst snd]. rewrite O, !P by auto.
      now rewrite (Z.eqb_sym (ph (x + 1, y))). }
    split; intros [I M].
    + pose proof (mark_x_in w h g tol T0 ori ph (x, y) I M) as J. cbn [fst snd] in J. split; [now apply turn_inside|]. now rewrite Q.
    + pose proof (mark_x_in w h g tol T0 ori' ph' _ I M) as J. rewrite N in J. apply (proj1 (turn_inside_iff w h _)) in I. apply (proj1 (turn_inside_iff w h _)) in J. split; [exact J|]. now rewrite <- Q.
  - assert (N : (fst (turned w h (x, y + 1)), snd (turned w h (x, y + 1)) + 1) = turned w h (x, y)) by (unfold turned; cbn [fst snd]; f_equal; lia).
    assert (Q : inside w h (x, y) -> inside w h (x, y + 1) -> mark_y h g tol ori' ph' (turned w h (x, y + 1)) = mark_y h g tol ori ph (x, y)).
    { intros I J. pose proof (turn_inside w h _ I) as TI. pose proof (turn_inside w h _ J) as TJ.
      rewrite (mark_y_is w h g tol ori' ph') by (auto; rewrite N; auto). rewrite (mark_y_is w h g tol ori ph (x, y)) by auto. rewrite N. cbn [fst snd]. rewrite O, !P by auto.
      now rewrite (Z.eqb_sym (ph (x, y + 1))). }
    split; intros [I M].
    + pose proof (mark_y_in w h g tol T0 ori ph (x, y) I M) as J. cbn [fst snd] in J. split; [now apply turn_inside|]. now rewrite Q.
    + pose proof (mark_y_in w h g tol T0 ori' ph' _ I M) as J. rewrite N in J. apply (proj1 (turn_inside_iff w h _)) in I. apply (proj1 (turn_inside_iff w h _)) in J. split; [exact J|]. now rewrite <- Q.
Qed.

(** If its orientations were read before, they are not moved: in a map of one phase the grains
    stay where they were. *)
Theorem C122_read : forall (e : ebsd) g ph bc bs ori tol n, structure (names e) K G (e_map K G e) = Ok g -> 0 <= W e ->
  em_bc K G (e_map K G e) = Some bc -> em_bs K G (e_map K G e) = Some bs ->
  em_ori K G (e_map K G e) <> None -> shows_ori K G e ori -> (forall p, inside (W e) (H e) p -> em_phase K G (e_map K G e) p = ph) ->
  snd (rotated K G e) = Ok tt /\ outcome K G (fst (rotated K G e)) tol n = outcome K G e tol n.
Proof.
  intros e g ph bc bs ori tol n S W0 B1 B2 N SO PH.
  destruct (em_ori K G (e_map K G e)) as [o|] eqn:EO; [|congruence].
  assert (R : exists m, rotated K G e = (EBSD K G (H e) (W e) (e_step K G e) (e_phases K G e) m, Ok tt) /\
    em_primary K G m = em_primary K G (e_map K G e) /\ em_phase K G m = flip (W e) (H e) (em_phase K G (e_map K G e)) /\
    forall p, ori_of K G m p = match ori_of K G (e_map K G e) p with Some q => Some (quat_mul false q (Q4 0 0 0 1)) | None => None end).
  { unfold rotated, rotate. rewrite B1, B2, half_turn_eq. eexists. split; [reflexivity|]. split; [reflexivity|]. split; [reflexivity|].
    intros p. unfold ori_of at 1. cbn [em_ori set_ori]. unfold ori_of. cbn [em_ori]. rewrite EO. reflexivity. }
  destruct R as (m & -> & PR & PM & OM). split; [reflexivity|]. cbn [fst].
  apply (C122_described K G e _ g (Q4 0 0 0 1) S half_unit W0).
  - split; [reflexivity|]. split; [reflexivity|]. split; [reflexivity|]. split; [exact PR|]. intros p I. cbn [e_map]. rewrite PM. unfold flip. rewrite !PH; auto.
    apply (turn_inside _ _ _ I).
  - exists ori, (fun p => quat_mul false (ori p) (Q4 0 0 0 1)). split; [exact SO|]. split.
    + intros p I. cbn [e_map e_rows e_cols] in *. rewrite OM. destruct (SO p I) as (-> & U). split; [reflexivity|].
      eapply same_rot_unit; [apply quat_mul_same|]. apply unitq_hprod; auto using half_unit.
    + intros p I. destruct (sym_head g) as (t & T). exists qone. split; [rewrite T; now left|].
      eapply same_rot_trans; [apply quat_mul_same|]. left. destruct (hprod (ori p) (Q4 0 0 0 1)) as [w x y z]. unfold hprod, qone; cbn [qw qx qy qz]. f_equal; ring.
Qed.
End Rotated.
Print Assumptions C122_turned.
Print Assumptions C122_turned_boundaries.
Print Assumptions C122_read.

(** ** A map of three columns, the first tilted by 15 degrees *)
Definition strip_map (read : bool) : ebsd unit unit :=
  let euler p := (0, (if fst p =? 0 then 20 else 35) * (PI / 180), 0)%R in
  let m := EMap unit unit euler (Some (fun p => 100 + fst p)) (Some (fun p => 50 + snd p)) (fun _ => 1) 0 None None None None None None None None in
  EBSD unit unit 2 3 (1 / 2)%R two_phases (if read then keep_ori unit unit m else m).
Definition strip_ori (p : pix) : quat := tilted (if fst p =? 0 then 20 else 35).
Lemma strip_shows b : shows_ori unit unit (strip_map b) strip_ori.
Proof. intros p I. split; [|apply euler_unit]. unfold strip_ori, tilted. destruct b; reflexivity. Qed.
Lemma strip_marks p q : 0 <= fst p <= fst q -> exceeds 10 (pair_misori "cubic" (Some (strip_ori p)) (Some (strip_ori q))) = (fst p =? 0) && negb (fst q =? 0).
Proof.
  intros L. pose proof (exceeds_iff "cubic" (strip_ori p) (strip_ori q) 10 (euler_unit _ _ _) (euler_unit _ _ _)) as [E1 E2].
  unfold strip_ori in *. destruct (Z.eqb_spec (fst p) 0), (Z.eqb_spec (fst q) 0); cbn [andb negb]; [|apply E2; rewrite tilted_degrees; lra|lia|];
    (match goal with |- ?x = _ => destruct x eqn:B end; [specialize (E1 eq_refl); rewrite tilted_degrees in E1; lra|reflexivity]).
Qed.
(** Both pixels of a row beside the first are one grain; all rows are apart, as none is marked
    (see C05). *)
Lemma strip_outcome b : exists lab gl, snd (outcome unit unit (strip_map b) 10 1) = Ok (lab, gl) /\
  0 < lab (1, 0) /\ lab (2, 0) = lab (1, 0) /\ lab (0, 1) <> lab (1, 1).
Proof.
  rewrite (outcome_is unit unit (strip_map b) "cubic" 10 1) by (destruct b; reflexivity). cbn [snd].
  set (ph := em_phase unit unit (e_map unit unit (strip_map b))). assert (PH : ph = fun _ => 1) by (destruct b; reflexivity).
  set (ori := ori_of unit unit (e_map unit unit (strip_map b))).
  assert (OR : ori = fun p => Some (strip_ori p)) by (destruct b; reflexivity).
  change (e_cols unit unit (strip_map b)) with 3. change (e_rows unit unit (strip_map b)) with 2.
  assert (BD : snd (bounds_of 3 2 "cubic" ori ph 10) = from_image 3 2 (fun p => fst p =? 0) (fun _ => false)).
  { unfold bounds_of, from_image. cbn [snd]. f_equal; apply nonzero_ext; intros [x y] I; unfold inside in I; cbn [fst snd] in I; cbn [fst snd];
    rewrite OR, PH; unfold phase_x, phase_y; rewrite !Z.eqb_refl; cbn [negb fst snd].
    - destruct (Z.ltb_spec x (3 - 1)).
      + rewrite strip_marks by (cbn [fst]; lia). cbn [fst]. destruct (Z.eqb_spec (x + 1) 0); [lia|]. cbn [negb]. now destruct (x =? 3 - 1); rewrite andb_true_r, orb_false_r.
      + rewrite no_edge by lra. destruct (Z.eqb_spec x 0); [lia|]. now destruct (x =? 3 - 1).
    - destruct (Z.ltb_spec y (2 - 1)).
      + rewrite strip_marks by (cbn [fst]; lia). cbn [fst]. now destruct (x =? 0), (y =? 2 - 1).
      + rewrite no_edge by lra. now destruct (y =? 2 - 1). }
  unfold grains_of. rewrite BD, PH. change (Z.of_nat (List.length (e_names unit unit (strip_map b)))) with 2.
  assert (X : exists lab gl, (do bx <- bs_image 3 2 (bs_x (from_image 3 2 (fun p => fst p =? 0) (fun _ => false)));
     do by_ <- bs_image 3 2 (bs_y (from_image 3 2 (fun p => fst p =? 0) (fun _ => false)));
     do r <- find_grains 3 2 bx by_ (fun _ => 1) 2 1; let '(lab, gl, ph) := r in Ok (lab, (gl, ph))) = Ok (lab, gl) /\
     (lab (1, 0), lab (2, 0), lab (0, 1), lab (1, 1)) = (2, 2, 3, 4)).
  { eexists. eexists. split; [vm_compute; reflexivity|]. vm_compute. reflexivity. }
  destruct X as (lab & gl & E & L). exists lab, gl. split; [exact E|]. injection L as -> -> -> ->. lia.
Qed.
(** Hypotheses of C122_turned, C122_read, with grains. *)
Example C122_met :
  structure (e_names unit unit (strip_map false)) unit unit (e_map unit unit (strip_map false)) = Ok "cubic"%string /\ unread unit unit (strip_map false) /\
  (exists lab gl, snd (outcome unit unit (strip_map false) 10 1) = Ok (lab, gl) /\ 0 < lab (1, 0) /\ lab (2, 0) = lab (1, 0) /\ lab (0, 1) <> lab (1, 1)) /\
  structure (e_names unit unit (strip_map true)) unit unit (e_map unit unit (strip_map true)) = Ok "cubic"%string /\
  em_ori unit unit (e_map unit unit (strip_map true)) <> None /\ shows_ori unit unit (strip_map true) strip_ori.
Proof.
  split; [reflexivity|]. split; [split; [eexists; eexists; split; reflexivity|reflexivity]|]. split; [apply strip_outcome|]. split; [reflexivity|]. split; [discriminate|apply strip_shows].
Qed.
(** So grains need not turn with a map whose orientations were read before it was turned, though
    its phases and band contrast turn. *)
Theorem C122_read_refuted : exists e : ebsd unit unit, structure (e_names unit unit e) unit unit (e_map unit unit e) = Ok "cubic"%string /\
  exists ori, shows_ori unit unit e ori /\ snd (rotated unit unit e) = Ok tt /\
  (exists bc bc', em_bc unit unit (e_map unit unit e) = Some bc /\ em_bc unit unit (e_map unit unit (fst (rotated unit unit e))) = Some bc' /\
     forall p, bc' (turned (e_cols unit unit e) (e_rows unit unit e) p) = bc p) /\
  exists lab gl lab' gl', snd (outcome unit unit e 10 1) = Ok (lab, gl) /\ snd (outcome unit unit (fst (rotated unit unit e)) 10 1) = Ok (lab', gl') /\
    ~ turned_grains (e_cols unit unit e) (e_rows unit unit e) lab gl lab' gl'.
Proof.
  exists (strip_map true). split; [reflexivity|]. exists strip_ori. split; [apply strip_shows|].
  assert (R := C122_read unit unit (strip_map true) "cubic" 1 (fun p => 100 + fst p) (fun p => 50 + snd p) strip_ori 10 1 eq_refl).
  destruct R as (R1 & R2); [cbn; lia|reflexivity|reflexivity|discriminate|apply strip_shows|reflexivity|]. split; [exact R1|]. split.
  - exists (fun p => 100 + fst p). unfold rotated, rotate. rewrite half_turn_eq. eexists. split; [reflexivity|]. split; [reflexivity|]. intros p. unfold flip. cbn [e_cols e_rows strip_map fst snd]. unfold turned. cbn [fst snd]. lia.
  - rewrite R2. destruct (strip_outcome true) as (lab & gl & E & P & Q & N). exists lab, gl, lab, gl. split; [exact E|]. split; [exact E|].
    intros (_ & TG & _). assert (I1 : inside 3 2 (1, 0)) by (unfold inside; cbn [fst snd]; lia). assert (I2 : inside 3 2 (2, 0)) by (unfold inside; cbn [fst snd]; lia).
    apply N. exact (proj1 (TG (1, 0) (2, 0) I1 I2 P) Q).
Qed.
Print Assumptions C122_read_refuted.
Lemma id_left m : mprod (rotz 0) m = m.
Proof. unfold rotz. rewrite cos_0, sin_0. destruct m as [[a b c] [d e f] [g h i]]. unfold mprod, col0, col1, col2, sprod; cbn [vx vy vz r0 r1 r2]. f_equal; f_equal; ring. Qed.
Lemma id_right m : mprod m (rotz 0) = m.
Proof. unfold rotz. rewrite cos_0, sin_0. destruct m as [[a b c] [d e f] [g h i]]. unfold mprod, col0, col1, col2, sprod; cbn [vx vy vz r0 r1 r2]. f_equal; f_equal; ring. Qed.
Lemma turned_axes d : bunge (PI / 2) d 0 = mprod (rot_matrix qone) (mprod (bunge 0 d 0) (bunge (PI / 2) 0 0)).
Proof.
  assert (X : rotx 0 = rotz 0) by (unfold rotx, rotz; rewrite cos_0, sin_0; f_equal; f_equal; ring).
  assert (Q : rot_matrix qone = rotz 0) by (unfold rot_matrix, rotz, qone; rewrite cos_0, sin_0; cbn [qw qx qy qz]; f_equal; f_equal; ring).
  unfold bunge. rewrite Q, X, !id_left, id_right. reflexivity.
Qed.
(** Hypotheses of C122_described, C122_euler: the same map, in axes turned about the normal. *)
Example C122_euler_met : exists e' : ebsd unit unit, same_phases unit unit (strip_map false) e' /\
  forall p a b c a' b' c', em_euler unit unit (e_map unit unit (strip_map false)) p = (a, b, c) -> em_euler unit unit (e_map unit unit e') p = (a', b', c') ->
    (a', b', c') <> (a, b, c) /\ exists s, In s (sym_eqv "cubic") /\ bunge a' b' c' = mprod (rot_matrix s) (mprod (bunge a b c) (bunge (PI / 2) 0 0)).
Proof.
  exists (EBSD unit unit 2 3 (1 / 2)%R two_phases (EMap unit unit (fun p => (PI / 2, (if fst p =? 0 then 20 else 35) * (PI / 180), 0)%R) (Some (fun p => 100 + fst p)) (Some (fun p => 50 + snd p)) (fun _ => 1) 0 None None None None None None None None)).
  split; [repeat split; reflexivity|]. intros p a b c a' b' c' E E'. cbn [e_map em_euler strip_map] in E, E'. injection E as <- <- <-. injection E' as <- <- <-.
  split; [pose proof PI_RGT_0; intros X; injection X; lra|]. destruct (sym_head "cubic") as (t & T). exists qone. split; [rewrite T; now left|apply turned_axes].
Qed.
