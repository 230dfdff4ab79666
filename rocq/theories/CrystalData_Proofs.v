(** Shipped slip system files, Schmid factors, phases. *)
From Coq Require Import String Reals ZArith Lra Lia Psatz Bool Permutation.
From Coq Require Import List.
From Verif Require Import Py Quat_Model Quat_Spec Quat_Proofs QuatSym_Proofs
  Crystal_Model Crystal_Spec Crystal_Proofs CrystalMat_Proofs SlipSys_Proofs.
Import ListNotations.
Open Scope string_scope.
Open Scope list_scope.
Open Scope R_scope.

Local Arguments Quat : simpl never.
Local Arguments quat_mul : simpl never.

(** ** Pairwise relations under permutation *)
Lemma FOP_perm : forall A (P : A -> A -> Prop) l l', (forall a b, P a b -> P b a) ->
  Permutation l l' -> ForallOrdPairs P l -> ForallOrdPairs P l'.
Proof.
  intros A P l l' HS HP. induction HP; intros H; auto.
  - inversion H as [|? ? F G]; subst. constructor; auto. eapply Permutation_Forall; eauto.
  - inversion H as [|? ? F G]; subst. inversion G as [|? ? F' G']; subst.
    inversion F as [|? ? X F'']; subst. constructor; [constructor; auto|constructor; auto].
Qed.

Lemma FOP_map : forall A B (f : A -> B) (P : B -> B -> Prop) l,
  ForallOrdPairs (fun a b => P (f a) (f b)) l <-> ForallOrdPairs P (map f l).
Proof.
  intros A B f P l; split; intros H.
  - induction H; cbn; constructor; auto. rewrite Forall_map; auto.
  - induction l; cbn in H; [constructor|]. inversion H as [|? ? F G]; subst.
    rewrite Forall_map in F. constructor; auto.
Qed.

(** ** What rows say, by computation *)
Definition rows_orth (n : nat) (rows : list (list Z)) : bool :=
  forallb (fun r => (idot (row_plane n r) (row_dir n r) =? 0)%Z) rows.

Fixpoint pairwiseb {A} (r : A -> A -> bool) (l : list A) : bool :=
  match l with
  | [] => true
  | x :: l => forallb (r x) l && pairwiseb r l
  end.
Lemma pairwiseb_spec : forall A (r : A -> A -> bool) l, pairwiseb r l = true ->
  ForallOrdPairs (fun a b => r a b = true) l.
Proof.
  induction l; cbn; intros H; constructor; apply andb_true_iff in H as [H1 H2]; auto.
  rewrite forallb_forall in H1. apply Forall_forall; auto.
Qed.

Definition row_differ (n : nat) (a b : list Z) : bool :=
  negb (idc_eqb (pos_idc (row_plane n a)) (pos_idc (row_plane n b)) &&
        idc_eqb (pos_idc (row_dir n a)) (pos_idc (row_dir n b))).

(** Planes and directions of two systems, up to sign. *)
Definition same_system (a b : slip_system) : Prop := same_plane a b /\ same_dir a b.

Section Loaded.
Variables (conv st : string) (ca : option R) (n : nat).
Let built (row : list Z) (s : slip_system) :=
  mk_slip_system conv (row_plane n row) (row_dir n row) st ca = Ok s.

Lemma built_in : forall rows ss, Forall2 built rows ss ->
  forall s, In s ss -> exists row, In row rows /\ built row s.
Proof.
  induction 1 as [|r s rows ss H F IH]; cbn; [tauto|].
  intros x [<-|Hx]; [exists r; auto|]. destruct (IH x Hx) as (r' & A & B); exists r'; auto.
Qed.

Lemma built_in_r : forall rows ss, Forall2 built rows ss ->
  forall r, In r rows -> exists s, In s ss /\ built r s.
Proof.
  induction 1 as [|r s rows ss H F IH]; cbn; [tauto|].
  intros x [<-|Hx]; [exists s; auto|]. destruct (IH x Hx) as (r' & A & B); exists r'; auto.
Qed.

Lemma built_nonzero : forall rows ss, Forall2 built rows ss ->
  forall s, In s ss -> nonzero (plane_idc s) /\ nonzero (dir_idc s).
Proof.
  intros rows ss F s Hs. destruct (built_in _ _ F s Hs) as (r & _ & B).
  apply mk_nonzero in B as (-> & -> & P & D). auto.
Qed.

Lemma built_differ : forall rows ss, Forall2 built rows ss ->
  pairwiseb (row_differ n) rows = true ->
  ForallOrdPairs (fun a b => ~ same_system a b) ss.
Proof.
  induction 1 as [|r s rows ss H F IH]; cbn; intros P; [constructor|].
  apply andb_true_iff in P as [P1 P2]. constructor; auto.
  apply Forall_forall. intros x Hx [S1 S2].
  destruct (built_in _ _ F x Hx) as (r' & Hr' & B).
  rewrite forallb_forall in P1. specialize (P1 r' Hr').
  pose proof (mk_nonzero _ _ _ _ _ _ H) as (E1 & E2 & N1 & N2).
  pose proof (mk_nonzero _ _ _ _ _ _ B) as (E3 & E4 & N3 & N4).
  unfold row_differ in P1. apply negb_true_iff in P1. rewrite <- not_true_iff_false in P1.
  apply P1. apply andb_true_iff. unfold same_plane, same_dir in *. rewrite E1, E3 in S1. rewrite E2, E4 in S2.
  split; apply idc_eqb_eq; apply pos_eq_iff; auto.
Qed.
End Loaded.

Definition concat_len {A} (gs : list (list A)) := length (concat gs).

(** ** The cubic files *)
Lemma cubic_file : forall conv f, (2 <= length (ss_rows f))%nat ->
  forallb cubic_row_ok (ss_rows f) = true ->
  exists gs, load conv f "cubic" None = Ok (gs, ss_colours f) /\
    length (concat gs) = length (ss_rows f) /\
    length gs = length (zgroups (map (row_plane 3) (ss_rows f))) /\
    (forall s, In s (concat gs) ->
       exists row, In row (ss_rows f) /\
         mk_slip_system conv (row_plane 3 row) (row_dir 3 row) "cubic" None = Ok s) /\
    (forall row, In row (ss_rows f) -> exists s, In s (concat gs) /\
         mk_slip_system conv (row_plane 3 row) (row_dir 3 row) "cubic" None = Ok s) /\
    (pairwiseb (row_differ 3) (ss_rows f) = true ->
     ForallOrdPairs (fun a b => ~ same_system a b) (concat gs)).
Proof.
  intros conv f Hl H. destruct (cubic_load conv f Hl H) as (ss & gs & EL & G & F).
  exists gs. split; [auto|].
  pose proof (proj2 (group_by_plane_spec _ _ G)) as [P _].
  split; [rewrite (Permutation_length P); clear - F; induction F; cbn; auto|].
  split.
  { pose proof (group_planes _ _ G) as X. apply Forall2_planes in F as [F _]. rewrite F in X.
    rewrite <- X, map_length; auto. }
  split; [|split].
  - intros s Hs. apply (built_in conv "cubic" None 3 (ss_rows f) ss F). eapply Permutation_in; eauto.
  - intros r Hr. destruct (built_in_r conv "cubic" None 3 (ss_rows f) ss F r Hr) as (s & A & B).
    exists s; split; auto. eapply Permutation_in; [apply Permutation_sym; eauto|auto].
  - intros D. eapply FOP_perm; [|apply Permutation_sym; exact P|].
    + unfold same_system, same_plane, same_dir. intros a b N [X Y]; apply N.
      split; apply up_to_sign_sym; auto.
    + apply (built_differ conv "cubic" None 3 (ss_rows f)); auto.
Qed.

Lemma hex_file : forall conv ca f, known_conv conv -> 1 / 10 ^ 10 <= ca ->
  (2 <= length (ss_rows f))%nat ->
  forallb hex_row_ok (ss_rows f) = true ->
  exists gs, load conv f "hexagonal" (Some ca) = Ok (gs, ss_colours f) /\
    length (concat gs) = length (ss_rows f) /\
    length gs = length (zgroups (map (row_plane 4) (ss_rows f))) /\
    (forall s, In s (concat gs) ->
       exists row, In row (ss_rows f) /\
         mk_slip_system conv (row_plane 4 row) (row_dir 4 row) "hexagonal" (Some ca) = Ok s) /\
    (pairwiseb (row_differ 4) (ss_rows f) = true ->
     ForallOrdPairs (fun a b => ~ same_system a b) (concat gs)).
Proof.
  intros conv ca f Hc Hca Hl H. destruct (hex_load conv ca f Hc Hca Hl H) as (ss & gs & EL & G & F).
  exists gs. split; [auto|].
  pose proof (proj2 (group_by_plane_spec _ _ G)) as [P _].
  split; [rewrite (Permutation_length P); clear - F; induction F; cbn; auto|].
  split.
  { pose proof (group_planes _ _ G) as X. apply Forall2_planes in F as [F _]. rewrite F in X.
    rewrite <- X, map_length; auto. }
  split.
  - intros s Hs. apply (built_in conv "hexagonal" (Some ca) 4 (ss_rows f) ss F). eapply Permutation_in; eauto.
  - intros D. eapply FOP_perm; [|apply Permutation_sym; exact P|].
    + unfold same_system, same_plane, same_dir. intros a b N [X Y]; apply N.
      split; apply up_to_sign_sym; auto.
    + apply (built_differ conv "hexagonal" (Some ca) 4 (ss_rows f)); auto.
Qed.

(** A system that lies in its plane. *)
Definition in_plane (s : slip_system) : Prop :=
  unitv (slip_plane s) /\ unitv (slip_dir s) /\ sprod (slip_plane s) (slip_dir s) = 0.

Lemma cubic_file_orth : forall conv f gs, rows_orth 3 (ss_rows f) = true ->
  (forall s, In s (concat gs) -> exists row, In row (ss_rows f) /\
     mk_slip_system conv (row_plane 3 row) (row_dir 3 row) "cubic" None = Ok s) ->
  forall s, In s (concat gs) -> in_plane s.
Proof.
  intros conv f gs HO HB s Hs. destruct (HB s Hs) as (row & Hr & E).
  apply cubic_vectors in E as (A & B & C). unfold in_plane. split; [auto|]. split; [auto|]. apply C.
  unfold rows_orth in HO. rewrite forallb_forall in HO. apply Z.eqb_eq. apply HO; auto.
Qed.

Lemma hex_file_orth : forall conv ca f gs, known_conv conv -> 1 / 10 ^ 10 <= ca ->
  forallb hex_row_ok (ss_rows f) = true -> rows_orth 4 (ss_rows f) = true ->
  (forall s, In s (concat gs) -> exists row, In row (ss_rows f) /\
     mk_slip_system conv (row_plane 4 row) (row_dir 4 row) "hexagonal" (Some ca) = Ok s) ->
  forall s, In s (concat gs) -> in_plane s.
Proof.
  intros conv ca f gs Hc Hca HR HO HB s Hs. destruct (HB s Hs) as (row & Hr & E).
  rewrite forallb_forall in HR. specialize (HR row Hr).
  unfold rows_orth in HO. rewrite forallb_forall in HO. specialize (HO row Hr). apply Z.eqb_eq in HO.
  destruct row as [|h [|k [|i [|m [|u [|v [|t [|w [|]]]]]]]]]; try discriminate HR.
  cbn -[Z.sub Z.add Z.eqb] in HR. rewrite !andb_true_iff in HR. destruct HR as [[[_ _] C] _].
  apply Z.eqb_eq in C.
  unfold row_plane, row_dir in *. cbn [firstn skipn] in *.
  apply hex_vectors in E as (A & B & D); auto.
  unfold in_plane. split; [auto|]. split; [auto|]. apply D; auto.
Qed.

(** ** Schmid factors *)
Lemma transform_unit : forall q v, unitq q -> unitv v -> unitv (transform_vector q v).
Proof.
  intros q v Hq Hv. unfold unitv in *. destruct (Rlt_dec (qw q) 0).
  - rewrite transform_south, rot_sprod by auto. unfold sprod in *; cbn [vx vy vz]. rewrite <- Hv. ring.
  - rewrite transform_north, rot_sprod by (auto; lra). auto.
Qed.

Lemma transform_opp : forall q v, transform_vector q (vopp v) = vopp (transform_vector q v).
Proof.
  intros q v. destruct (Rlt_dec (qw q) 0).
  - rewrite !transform_south by auto.
    change (V3 (- vx (vopp v)) (- vy (vopp v)) (- vz (vopp v))) with (vopp (vopp v)).
    change (V3 (- vx v) (- vy v) (- vz v)) with (vopp v). apply mapply_opp.
  - rewrite !transform_north by lra. apply mapply_opp.
Qed.

(** Bessel's inequality for two orthonormal vectors. *)
Lemma bessel : forall l p d, unitv l -> unitv p -> unitv d -> sprod p d = 0 ->
  sprod l p * sprod l p + sprod l d * sprod l d <= 1.
Proof.
  intros l p d Hl Hp Hd Ho.
  set (x := sprod l p). set (y := sprod l d).
  assert (0 <= sprod (V3 (vx l - x * vx p - y * vx d) (vy l - x * vy p - y * vy d) (vz l - x * vz p - y * vz d))
                     (V3 (vx l - x * vx p - y * vx d) (vy l - x * vy p - y * vy d) (vz l - x * vz p - y * vz d))).
  { unfold sprod; cbn [vx vy vz].
    assert (forall a, 0 <= a * a) by (intros; nra).
    repeat apply Rplus_le_le_0_compat; apply H. }
  assert (E : sprod (V3 (vx l - x * vx p - y * vx d) (vy l - x * vy p - y * vy d) (vz l - x * vz p - y * vz d))
                    (V3 (vx l - x * vx p - y * vx d) (vy l - x * vy p - y * vy d) (vz l - x * vz p - y * vz d))
    = sprod l l - 2 * x * sprod l p - 2 * y * sprod l d + x * x * sprod p p + y * y * sprod d d
      + 2 * x * y * sprod p d).
  { unfold sprod; cbn [vx vy vz]. ring. }
  rewrite E in H. fold x y in H. unfold unitv in *. rewrite Hl, Hp, Hd, Ho in H. lra.
Qed.

Lemma schmid_range : forall q l s, unitq q -> unitv l -> in_plane s ->
  0 <= schmid_factor q l s <= 1 / 2.
Proof.
  intros q l s Hq Hl (Hp & Hd & Ho). unfold schmid_factor. change vdot with sprod.
  pose proof (transform_unit q l Hq Hl) as Hu.
  pose proof (bessel _ _ _ Hu Hp Hd Ho) as B.
  revert B. generalize (sprod (transform_vector q l) (slip_plane s)).
  generalize (sprod (transform_vector q l) (slip_dir s)). intros y x B.
  split; [apply Rabs_pos|]. apply Rabs_le.
  pose proof (Rle_0_sqr (x - y)) as P1. pose proof (Rle_0_sqr (x + y)) as P2. unfold Rsqr in *.
  assert (x * x + y * y - 2 * (x * y) >= 0) by lra. assert (x * x + y * y + 2 * (x * y) >= 0) by lra. split; lra.
Qed.

Lemma sprod_opp_l : forall u v, sprod (vopp u) v = - sprod u v.
Proof. intros; unfold sprod, vopp; cbn [vx vy vz]; ring. Qed.
Lemma sprod_opp_r : forall u v, sprod u (vopp v) = - sprod u v.
Proof. intros; unfold sprod, vopp; cbn [vx vy vz]; ring. Qed.

Lemma schmid_load_opp : forall q l s, schmid_factor q (vopp l) s = schmid_factor q l s.
Proof.
  intros q l s. unfold schmid_factor. change vdot with sprod; rewrite transform_opp, !sprod_opp_l.
  f_equal. ring.
Qed.

Lemma schmid_sign : forall q l s s', vup_to_sign (slip_plane s) (slip_plane s') ->
  vup_to_sign (slip_dir s) (slip_dir s') -> schmid_factor q l s = schmid_factor q l s'.
Proof.
  intros q l s s' [E|E] [F|F]; unfold schmid_factor; change vdot with sprod; rewrite E, F, ?sprod_opp_r; auto;
  match goal with |- Rabs ?a = Rabs ?b => first [replace a with b by ring; reflexivity
    | replace a with (- b) by ring; apply Rabs_Ropp] end.
Qed.

Lemma opp_ori_schmid : forall q l s, schmid_factor (opp q) l s = schmid_factor q l s.
Proof.
  intros q l s. unfold schmid_factor.
  assert (E : rot_matrix (opp q) = rot_matrix q).
  { destruct q as [a b c d]. unfold rot_matrix, opp; cbn [qw qx qy qz]. f_equal; f_equal; ring. }
  assert (T : vup_to_sign (transform_vector (opp q) l) (transform_vector q l)).
  { change (V3 (- vx l) (- vy l) (- vz l)) with (vopp l).
    destruct (Rlt_dec (qw q) 0) as [A|A].
    - right. rewrite (transform_south q), (transform_north (opp q)), E by (unfold opp; cbn [qw]; lra).
      change (V3 (- vx l) (- vy l) (- vz l)) with (vopp l). rewrite mapply_opp, vopp_opp. auto.
    - destruct (Req_dec (qw q) 0) as [B|B].
      + left. rewrite (transform_north q), (transform_north (opp q)), E by (unfold opp; cbn [qw]; lra). auto.
      + right. rewrite (transform_north q), (transform_south (opp q)), E by (unfold opp; cbn [qw]; lra).
        change (V3 (- vx l) (- vy l) (- vz l)) with (vopp l). rewrite mapply_opp. auto. }
  destruct T as [-> | ->]; auto. change vdot with sprod; rewrite !sprod_opp_l. f_equal. ring.
Qed.

(** ** Phases *)
Lemma phase_laue_bad : forall conv laue space a c, laue <> 9%Z -> laue <> 11%Z ->
  mk_phase conv laue space a c = Err ValueError.
Proof.
  intros conv laue space a c A B. unfold mk_phase.
  destruct (Z.eqb_spec laue 9); [contradiction|]. destruct (Z.eqb_spec laue 11); [contradiction|]. auto.
Qed.

Lemma phase_other_cubic : forall conv space a c, space <> 225%Z -> space <> 229%Z ->
  mk_phase conv 11 space a c = Ok (Phase 11 space "cubic" None None None).
Proof.
  intros conv space a c A B. unfold mk_phase. cbn [Z.eqb Pos.eqb bind String.eqb Ascii.eqb Bool.eqb].
  destruct (Z.eqb_spec space 225); [contradiction|]. destruct (Z.eqb_spec space 229); [contradiction|]. auto.
Qed.

Lemma phase_fcc : forall conv a c, exists gs,
  load conv file_cubic_fcc "cubic" None = Ok (gs, ss_colours file_cubic_fcc) /\
  mk_phase conv 11 225 a c =
    Ok (Phase 11 225 "cubic" (Some "cubic_fcc") (Some gs) (Some (ss_colours file_cubic_fcc))).
Proof.
  intros conv a c. destruct (cubic_file conv file_cubic_fcc) as (gs & E & _);
    [vm_compute; lia|vm_compute; auto|].
  exists gs; split; auto. unfold mk_phase. cbn [Z.eqb Pos.eqb bind String.eqb Ascii.eqb Bool.eqb].
  change (shipped "cubic_fcc") with (Some file_cubic_fcc).
  change (default_ss_file "FCC") with (Some "cubic_fcc").
  cbn iota beta. change (shipped "cubic_fcc") with (Some file_cubic_fcc). cbn iota beta.
  rewrite E. reflexivity.
Qed.

Lemma phase_bcc : forall conv a c, exists gs,
  load conv file_cubic_bcc "cubic" None = Ok (gs, ss_colours file_cubic_bcc) /\
  mk_phase conv 11 229 a c =
    Ok (Phase 11 229 "cubic" (Some "cubic_bcc") (Some gs) (Some (ss_colours file_cubic_bcc))).
Proof.
  intros conv a c. destruct (cubic_file conv file_cubic_bcc) as (gs & E & _);
    [vm_compute; lia|vm_compute; auto|].
  exists gs; split; auto. unfold mk_phase. cbn [Z.eqb Pos.eqb bind String.eqb Ascii.eqb Bool.eqb].
  change (default_ss_file "BCC") with (Some "cubic_bcc").
  cbn iota beta. change (shipped "cubic_bcc") with (Some file_cubic_bcc). cbn iota beta.
  rewrite E. reflexivity.
Qed.

Lemma phase_hcp : forall conv space a c, known_conv conv -> 0 < a -> a / 10 ^ 10 <= c -> exists gs,
  load conv file_hexagonal_withca "hexagonal" (Some (c / a)) =
    Ok (gs, ss_colours file_hexagonal_withca) /\
  mk_phase conv 9 space a c =
    Ok (Phase 9 space "hexagonal" (Some "hexagonal_withca") (Some gs)
          (Some (ss_colours file_hexagonal_withca))).
Proof.
  intros conv space a c Hc Ha Hca.
  assert (B : 1 / 10 ^ 10 <= c / a).
  { apply Rmult_le_reg_r with a; auto. replace (c / a * a) with c by (field; lra). lra. }
  destruct (hex_file conv (c / a) file_hexagonal_withca Hc B) as (gs & E & _);
    [vm_compute; lia|vm_compute; auto|].
  exists gs; split; auto. unfold mk_phase. cbn [Z.eqb Pos.eqb bind String.eqb Ascii.eqb Bool.eqb].
  change (default_ss_file "HCP") with (Some "hexagonal_withca").
  cbn iota beta. change (shipped "hexagonal_withca") with (Some file_hexagonal_withca). cbn iota beta.
  destruct (Req_EM_T a 0); [lra|]. cbn [bind].
  rewrite E. reflexivity.
Qed.
