(** C120: grains survive saving and loading a map. *)
From Coq Require Import String Ascii Reals Lra.
From Coq Require Import List ZArith Bool Lia.
Import ListNotations.
From Verif Require Import Py Grid Grid_Lemmas Quat_Model Quat_Spec Quat_Proofs QuatSym_Proofs QuatEuler_Proofs
  Crystal_Model CrystalMat_Proofs Text_Model Ctf_Model Ctf_Spec Ctf_Props Boundary_Model Boundary_Spec BoundaryOri_Proofs
  Base_Model Ebsd_Model EbsdState_Model EbsdLoad_Model EbsdLoad_Spec EbsdLoad_Proofs.
Open Scope Z_scope.

Section Props.
Variables K G : Type.
Notation ebsd := (ebsd K G).
Notation inmap e p := (inside (e_cols K G e) (e_rows K G e) p).

Lemma at_grid {A} cols (d : A) l x y v : at_pixel l cols x y = Some v -> grid_of cols d l (x, y) = v.
Proof. unfold at_pixel, grid_of. cbn [fst snd]. intros E. now apply nth_error_nth. Qed.

Lemma save_map_inv fs path (e e1 : ebsd) fs' : save_map K G fs path None e = (e1, Ok fs') ->
  e1 = EBSD K G (e_rows K G e) (e_cols K G e) (e_step K G e) (e_phases K G e) (keep_ori K G (e_map K G e)) /\
  exists bc, em_bc K G (e_map K G e) = Some bc /\ save fs path None (contents K G e bc) = Ok fs'.
Proof.
  unfold save_map. cbn [get_writer]. change (txt_eqb (lit "OxfordText") (lit "OxfordText")) with true. cbn iota.
  intros E. apply pair_equal_spec in E as [<- E]. split; [reflexivity|]. cbn [e_map] in E. 
  change (em_bc K G (keep_ori K G (e_map K G e))) with (em_bc K G (e_map K G e)) in E.
  destruct (em_bc K G (e_map K G e)) as [bc|]; [|discriminate]. exists bc. auto.
Qed.

Definition phase_kept (p o : phase_in) : Prop :=
  pi_name o = pi_name p /\ pi_laue o = pi_laue p /\
  (let '(a, b, c) := pi_lengths p in let '(a', b', c') := pi_lengths o in rounded 3 a a' /\ rounded 3 b b' /\ rounded 3 c c') /\
  (let '(a, b, c) := pi_angles p in let '(a', b', c') := pi_angles o in rounded_deg 3 a a' /\ rounded_deg 3 b b' /\ rounded_deg 3 c c').

(** All of what the loaded map has. *)
Lemma loads_as conv fs path (e e1 : ebsd) fs' : known_conv conv -> savable K G e -> save_map K G fs path None e = (e1, Ok fs') ->
  exists e' bc bc', load_map K G conv fs' (ctf_path path) = Ok e' /\
    e_rows K G e' = e_rows K G e /\ e_cols K G e' = e_cols K G e /\ rounded 4 (e_step K G e) (e_step K G e') /\
    Forall2 phase_kept (e_phases K G e) (e_phases K G e') /\
    em_primary K G (e_map K G e') = 0 /\ em_ori K G (e_map K G e') = None /\
    em_bc K G (e_map K G e) = Some bc /\ em_bc K G (e_map K G e') = Some bc' /\
    forall p, inmap e p -> em_phase K G (e_map K G e') p = em_phase K G (e_map K G e) p /\ bc' p = bc p /\
      forall q, ori_of K G (e_map K G e) p = Some q -> unitq q ->
        exists e1 e2 e3 f1 f2 f3, euler_angles q = (e1, e2, e3) /\
          ori_of K G (e_map K G e') p = Some (from_euler_angles f1 f2 f3) /\
          rounded_deg 3 e1 f1 /\ rounded_deg 3 e2 f2 /\ rounded_deg 3 e3 f3 /\
          (rot_angle (from_euler_angles f1 f2 f3) q <= 15 / 10000 * (PI / 180))%R.
Proof.
  intros KC (bc & B & RD) S. apply save_map_inv in S as (-> & bc' & B' & S). rewrite B in B'. injection B' as <-.
  destruct (C57_round_trip_partial conv fs path _ fs' KC RD S) as (l & L & SM).
  pose proof (C57_orientation conv fs path _ fs' l KC RD S L) as O.
  destruct SM as (SH & ST & PH & PX). unfold load_map. rewrite L. cbn [bind]. rewrite SH. cbn [mi_rows mi_cols contents].
  cbn [mi_rows mi_cols contents mi_phase mi_bc mi_quat mi_step mi_phases] in SH, ST, PH, PX, O.
  eexists _, bc, _. split; [reflexivity|]. cbn [e_rows e_cols e_step e_phases e_map EbsdState_Model.loaded em_primary em_ori em_bc em_phase].
  split; [reflexivity|]. split; [reflexivity|]. split; [exact ST|]. split; [|split; [reflexivity|]; split; [reflexivity|]; split; [exact B|]; split; [reflexivity|]].
  - clear - PH. induction PH as [|p o ps os SP _ IH]; cbn [map]; constructor; [|exact IH].
    destruct SP as (N & LA & a & b & c & al & be & ga & PL & LE & AN). destruct p as [pn pl [[x y] z] [[x' y'] z']].
    cbn [pi_name pi_laue pi_lengths pi_angles] in *. unfold phase_kept, phase_of. rewrite PL. cbn [nth pi_name pi_laue pi_lengths pi_angles].
    split; [exact N|]. split; [exact LA|]. split; [exact LE|exact AN].
  - intros [x y] [X Y]. cbn [fst snd] in X, Y. destruct (PX x y X Y) as (P1 & P2 & e1 & e2 & e3 & f1 & f2 & f3 & E & A & R1 & R2 & R3).
    split; [now apply at_grid|]. split; [now apply at_grid|]. intros q Q U. rewrite Q in E. exists e1, e2, e3, f1, f2, f3.
    split; [exact E|]. split; [|split; [exact R1|]; split; [exact R2|]; split; [exact R3|]].
    + unfold ori_of. cbn [em_ori EbsdState_Model.loaded]. unfold from_euler, quat_of_euler. cbn [em_euler EbsdState_Model.loaded].
      now rewrite (at_grid _ _ _ _ _ _ A).
    + specialize (O x y X Y). rewrite Q in O. destruct (O U) as (g1 & g2 & g3 & A' & D). rewrite A in A'. injection A' as <- <- <-. exact D.
Qed.
Lemma names_kept (e e' : ebsd) : Forall2 phase_kept (e_phases K G e) (e_phases K G e') -> e_names K G e' = e_names K G e.
Proof.
  unfold e_names. induction 1 as [|p o ps os (_ & L & _) _ IH]; cbn [map]; [reflexivity|]. rewrite IH. now rewrite L.
Qed.

(** Shape, phases, phase image and band contrast are kept; all angles to 0.0015 degrees. *)
Theorem C120_loads : forall conv fs path (e e1 : ebsd) ori fs', known_conv conv -> savable K G e -> shows_ori K G e ori ->
  save_map K G fs path None e = (e1, Ok fs') ->
  exists e' ori', load_map K G conv fs' (ctf_path path) = Ok e' /\
    e_rows K G e' = e_rows K G e /\ e_cols K G e' = e_cols K G e /\
    map pi_name (e_phases K G e') = map pi_name (e_phases K G e) /\ map pi_laue (e_phases K G e') = map pi_laue (e_phases K G e) /\
    shows_ori K G e' ori' /\
    exists bc bc', em_bc K G (e_map K G e) = Some bc /\ em_bc K G (e_map K G e') = Some bc' /\
    forall p, inmap e p -> em_phase K G (e_map K G e') p = em_phase K G (e_map K G e) p /\ bc' p = bc p /\
      (180 / PI * rot_angle (ori' p) (ori p) <= 15 / 10000)%R.
Proof.
  intros conv fs path e e1 ori fs' KC SV SO S.
  destruct (loads_as conv fs path e e1 fs' KC SV S) as (e' & bc & bc' & L & R & C & _ & PH & P0 & O0 & B & B' & PX).
  exists e', (fun p => match ori_of K G (e_map K G e') p with Some q => q | None => qone end).
  split; [exact L|]. split; [exact R|]. split; [exact C|].
  split; [clear - PH; induction PH as [|p o ps os (N & _) _ IH]; cbn [map]; congruence|].
  split; [clear - PH; induction PH as [|p o ps os (_ & N & _) _ IH]; cbn [map]; congruence|].
  split.
  - intros p I. rewrite R, C in I. destruct (SO p I) as [Q U]. destruct (PX p I) as (_ & _ & X).
    destruct (X _ Q U) as (_ & _ & _ & f1 & f2 & f3 & _ & E & _). rewrite E. split; [reflexivity|apply euler_unit].
  - exists bc, bc'. split; [exact B|]. split; [exact B'|]. intros p I. destruct (PX p I) as (P1 & P2 & X). split; [exact P1|]. split; [exact P2|].
    destruct (SO p I) as [Q U]. destruct (X _ Q U) as (_ & _ & _ & f1 & f2 & f3 & _ & E & _ & _ & _ & D). rewrite E.
    pose proof PI_RGT_0. replace (15 / 10000)%R with (180 / PI * (15 / 10000 * (PI / 180)))%R by (field; lra).
    apply Rmult_le_compat_l; [apply Rlt_le, Rdiv_lt_0_compat; lra|exact D].
Qed.

(** Saving does not change what is found in the map. *)
Theorem C120_saving : forall fs path data_type (e : ebsd) tol n,
  outcome K G (fst (save_map K G fs path data_type e)) tol n = outcome K G e tol n.
Proof.
  intros fs path dt e tol n. unfold save_map. destruct (get_writer dt); [|reflexivity]. cbn [fst].
  unfold outcome. cbn [e_map e_rows e_cols e_names e_phases]. unfold gen_bounds, structure, e_names. cbn [e_phases em_primary keep_ori set_ori].
  destruct (py_get _ _) as [g|x] eqn:P; [reflexivity|]. unfold gen_grains, call_find_grains, read_bounds, gen_bounds, structure.
  cbn [em_bounds keep_ori set_ori em_primary em_phase]. rewrite P. destruct (em_bounds K G (e_map K G e)) as [b|]; cbn [bind]; [|reflexivity].
  destruct (grains_of _ _ _ b _ n) as [[lab gl]|y]; reflexivity.
Qed.
Print Assumptions C120_saving.
(** Without band contrast a map cannot be saved. *)
Theorem C120_no_band_contrast : forall fs path data_type (e : ebsd), em_bc K G (e_map K G e) = None ->
  exists x, snd (save_map K G fs path data_type e) = Err x.
Proof.
  intros fs path dt e N. unfold save_map. destruct (get_writer dt) as [[]|x]; [|eexists; reflexivity]. cbn [snd e_map].
  change (em_bc K G (keep_ori K G (e_map K G e))) with (em_bc K G (e_map K G e)). rewrite N. eexists; reflexivity.
Qed.

(** Boundaries and grains of the loaded map are those of the saved one, for every tolerance that
    no misorientation of neighbours comes within 0.003 degrees of, if the primary phase is the
    first. *)
Theorem C120_grains_partial : forall conv fs path (e e1 e' : ebsd) ori fs' g, known_conv conv -> savable K G e -> shows_ori K G e ori ->
  em_primary K G (e_map K G e) = 0 -> hd_error (e_names K G e) = Some g ->
  save_map K G fs path None e = (e1, Ok fs') -> load_map K G conv fs' (ctf_path path) = Ok e' ->
  forall tol n, decided K G e g ori tol -> outcome K G e' tol n = outcome K G e tol n.
Proof.
  intros conv fs path e e1 e' ori fs' g KC SV SO P0 NG S L tol n D.
  destruct (loads_as conv fs path e e1 fs' KC SV S) as (e2 & bc & bc' & L' & R & C & _ & PH & P0' & O0 & B & B' & PX).
  rewrite L in L'. injection L' as <-. pose proof (names_kept _ _ PH) as NK.
  assert (W0 : 0 <= e_cols K G e) by (destruct SV as (b & _ & RD); apply RD).
  assert (ST : forall m, em_primary K G m = 0 -> structure (e_names K G e) K G m = Ok g).
  { intros m M. unfold structure. rewrite M. destruct (e_names K G e) as [|a l]; [discriminate|]. cbn [hd_error] in NG. injection NG as ->. reflexivity. }
  rewrite (outcome_is K G e g) by auto. rewrite (outcome_is K G e' g) by (rewrite NK; auto). rewrite R, C, NK. cbv zeta.
  assert (EB : bounds_of (e_cols K G e) (e_rows K G e) g (ori_of K G (e_map K G e')) (em_phase K G (e_map K G e')) tol =
               bounds_of (e_cols K G e) (e_rows K G e) g (ori_of K G (e_map K G e)) (em_phase K G (e_map K G e)) tol).
  { apply bounds_ext; [intros p I; apply PX, I|]. intros p q Ip Iq A.
    destruct (SO p Ip) as [Qp Up], (SO q Iq) as [Qq Uq]. destruct (PX p Ip) as (_ & _ & Xp), (PX q Iq) as (_ & _ & Xq).
    destruct (Xp _ Qp Up) as (_ & _ & _ & f1 & f2 & f3 & _ & Ep & _ & _ & _ & Dp).
    destruct (Xq _ Qq Uq) as (_ & _ & _ & h1 & h2 & h3 & _ & Eq & _ & _ & _ & Dq).
    rewrite Ep, Eq, Qp, Qq. apply exceeds_near; auto using euler_unit. }
  rewrite EB. f_equal. apply grains_ext; auto. intros p I; apply PX, I.
Qed.
Print Assumptions C120_grains_partial.

(** A loaded map can be saved again, and then nothing is lost: at every tolerance, the map loaded
    from the second file has the boundaries and grains of the one loaded from the first. *)
Lemma rounded_bounds x y lo hi : rounded 3 x y -> (IZR lo / 1000 <= x -> IZR lo / 1000 <= y)%R /\ (x <= IZR hi / 1000 -> y <= IZR hi / 1000)%R.
Proof.
  intros ((n & ->) & D). assert (E : (IZR n / 10 ^ 3 = IZR n / 1000)%R) by field. rewrite E in *.
  unfold Rabs in D. split; intros X.
  - assert (lo - 1 < n); [apply lt_IZR; rewrite minus_IZR; destruct (Rcase_abs _) in D; lra|].
    assert (IZR lo <= IZR n)%R by (apply IZR_le; lia). lra.
  - assert (n < hi + 1); [apply lt_IZR; rewrite plus_IZR; destruct (Rcase_abs _) in D; lra|].
    assert (IZR n <= IZR hi)%R by (apply IZR_le; lia). lra.
Qed.
Lemma phase_again p o : phase_kept p o -> readable_phase p -> readable_phase o.
Proof.
  intros (N & L & LE & _) (P & C). split; [now rewrite N|]. rewrite L. destruct C as [C|[C B]]; [now left|]. right. split; [exact C|].
  destruct (pi_lengths p) as [[a b] c], (pi_lengths o) as [[a' b'] c']. destruct LE as (Ra & _ & Rc). destruct B as (B1 & B2 & B3).
  destruct (rounded_bounds _ _ 1 (10 ^ 8) Ra) as [LA HA]. destruct (rounded_bounds _ _ 1 (10 ^ 8) Rc) as [LC _].
  assert (T : (IZR (10 ^ 8) / 1000 = 10 ^ 5)%R) by (change (10 ^ 8) with 100000000; field). rewrite T in HA. 
  repeat split; [apply (Rle_trans _ (1 / 1000)); [lra|apply LA; lra]|apply (Rle_trans _ (1 / 1000)); [lra|apply LC; lra]|auto].
Qed.
Theorem C120_savable : forall conv fs path (e e1 e' : ebsd) ori fs', known_conv conv -> savable K G e -> shows_ori K G e ori ->
  save_map K G fs path None e = (e1, Ok fs') -> load_map K G conv fs' (ctf_path path) = Ok e' ->
  savable K G e' /\ em_primary K G (e_map K G e') = 0.
Proof.
  intros conv fs path e e1 e' ori fs' KC SV SO S L.
  destruct (loads_as conv fs path e e1 fs' KC SV S) as (e2 & bc & bc' & L' & R & C & _ & PH & P0 & O0 & B & B' & PX).
  rewrite L in L'. injection L' as <-. split; [|exact P0]. destruct SV as (bc0 & B0 & R1 & R2 & R3 & R4 & R5).
  rewrite B in B0. injection B0 as <-. cbn [contents mi_rows mi_cols mi_phases mi_phase mi_bc] in *.
  exists bc'. split; [exact B'|]. unfold readable. cbn [contents mi_rows mi_cols mi_phases mi_phase mi_bc].
  rewrite R, C. split; [exact R1|]. split; [exact R2|]. split; [|split].
  - destruct PH; congruence.
  - clear - PH R4. induction PH as [|p o ps os PK _ IH]; [intros ? []|]. intros x [<-|I].
    + apply (phase_again p); [exact PK|]. apply R4. now left.
    + apply IH; [|exact I]. intros; apply R4; now right.
  - intros p I. destruct (PX p I) as (-> & -> & _). auto.
Qed.
Print Assumptions C120_savable.

Theorem C120_again : forall conv conv' fs fs2 path path' (e e1 e' e2 e'' : ebsd) ori fs' fs3, known_conv conv -> known_conv conv' ->
  savable K G e -> shows_ori K G e ori ->
  save_map K G fs path None e = (e1, Ok fs') -> load_map K G conv fs' (ctf_path path) = Ok e' ->
  save_map K G fs2 path' None e' = (e2, Ok fs3) -> load_map K G conv' fs3 (ctf_path path') = Ok e'' ->
  forall tol n, outcome K G e'' tol n = outcome K G e' tol n.
Proof.
  intros conv conv' fs fs2 path path' e e1 e' e2 e'' ori fs' fs3 KC KC' SV SO S L S' L' tol n.
  destruct (C120_savable conv fs path e e1 e' ori fs' KC SV SO S L) as [SV' P0'].
  destruct (loads_as conv fs path e e1 fs' KC SV S) as (x & bc & bc' & X & R & C & _ & PH & _ & O0 & B & B' & PX).
  rewrite L in X. injection X as <-.
  destruct (loads_as conv' fs2 path' e' e2 fs3 KC' SV' S') as (x & bc1 & bc2 & X & R' & C' & _ & PH' & P0 & _ & _ & _ & PX').
  rewrite L' in X. injection X as <-. pose proof (names_kept _ _ PH') as NK.
  assert (W0 : 0 <= e_cols K G e') by (destruct SV' as (b & _ & RD); apply RD).
  assert (NG : exists g, hd_error (e_names K G e') = Some g).
  { destruct SV' as (b & _ & RD). destruct RD as (_ & _ & NE & _). cbn [contents mi_phases] in NE. unfold e_names.
    destruct (e_phases K G e') as [|a l]; [congruence|]. eexists; reflexivity. }
  destruct NG as (g & NG).
  assert (ST : forall m, em_primary K G m = 0 -> structure (e_names K G e') K G m = Ok g).
  { intros m M. unfold structure. rewrite M. destruct (e_names K G e') as [|a l]; [discriminate|]. cbn [hd_error] in NG. injection NG as ->. reflexivity. }
  rewrite (outcome_is K G e' g) by auto. rewrite (outcome_is K G e'' g) by (rewrite NK; auto). rewrite R', C', NK. cbv zeta.
  assert (Q : forall p, inmap e' p -> exists q q', ori_of K G (e_map K G e') p = Some q /\ ori_of K G (e_map K G e'') p = Some q' /\
                unitq q /\ unitq q' /\ same_rot q' q).
  { intros p I. pose proof I as I0. rewrite R, C in I0. destruct (SO p I0) as [Qp Up]. destruct (PX p I0) as (_ & _ & Xp).
    destruct (Xp _ Qp Up) as (a1 & a2 & a3 & f1 & f2 & f3 & EA & Ep & D1 & D2 & D3 & _).
    destruct (PX' p I) as (_ & _ & Xp'). destruct (Xp' _ Ep (euler_unit _ _ _)) as (b1 & b2 & b3 & h1 & h2 & h3 & EB & Ep' & F1 & F2 & F3 & _).
    eexists _, _. split; [exact Ep|]. split; [exact Ep'|]. split; [apply euler_unit|]. split; [apply euler_unit|].
    exact (again _ _ _ _ _ _ _ _ _ _ _ _ _ Up EA D1 D2 D3 EB F1 F2 F3). }
  assert (EB : bounds_of (e_cols K G e') (e_rows K G e') g (ori_of K G (e_map K G e'')) (em_phase K G (e_map K G e'')) tol =
               bounds_of (e_cols K G e') (e_rows K G e') g (ori_of K G (e_map K G e')) (em_phase K G (e_map K G e')) tol).
  { apply bounds_ext; [intros p I; apply PX', I|]. intros p q Ip Iq A.
    destruct (Q p Ip) as (a & a' & -> & -> & Ua & Ua' & Sa). destruct (Q q Iq) as (b & b' & -> & -> & Ub & Ub' & Sb).
    unfold exceeds, pair_misori. rewrite !neighbour_misori_spec by auto.
    rewrite (mis_ori_frame a b qone a' b' g); [reflexivity|unfold unitq, qone; cbn; lra|..]; rewrite hprod_1_r; assumption. }
  rewrite EB. f_equal. apply grains_ext; auto. intros p I; apply PX', I.
Qed.
Print Assumptions C120_again.
End Props.
