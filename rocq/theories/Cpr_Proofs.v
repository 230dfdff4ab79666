(** Lemmas for C128. *)
From Coq Require Import String Ascii Reals Lra.
From Coq Require Import List ZArith Bool Lia.
From Flocq Require Import Core.Raux IEEE754.BinarySingleNaN IEEE754.Binary IEEE754.Bits.
From Verif Require Import Py Grid Grid_Lemmas Quat_Model Quat_Spec Quat_Props Base_Model Base_Proofs Dic_Proofs Crystal_Model CrystalMat_Proofs CrystalData_Proofs CrystalFamily_Proofs Text_Model Text_Proofs
  Ctf_Model Ctf_Spec Ctf_Proofs Io_Model Io_Spec IoText_Proofs IoBin_Proofs Io_Props Cpr_Model Cpr_Spec.
Import ListNotations.
Open Scope Z_scope.

(** *** Numbers *)
Lemma le_round n : forall z, 0 <= z < 256 ^ Z.of_nat n -> le_value (le_bytes n z) = z.
Proof.
  induction n as [|n IH]; intros z B.
  - cbn in *. lia.
  - cbn [le_bytes le_value fold_right]. fold (le_value (le_bytes n (z / 256))). rewrite IH.
    + pose proof (Z.div_mod z 256). lia.
    + rewrite Nat2Z.inj_succ, Z.pow_succ_r in B by lia. split; [apply Z.div_pos; lia|apply Z.div_lt_upper_bound; lia].
Qed.
Lemma le_length n : forall z, List.length (le_bytes n z) = n.
Proof. induction n as [|n IH]; intros z; cbn [le_bytes List.length]; auto. Qed.
Lemma le_range n : forall z b, In b (le_bytes n z) -> 0 <= b < 256.
Proof. induction n as [|n IH]; intros z b; cbn [le_bytes In]; [intros []|]. intros [<-|I]; [apply Z.mod_pos_bound; lia|eauto]. Qed.
Lemma float_round x : le_float (le_bytes 4 (bits_of_b32 x)) = B2BSN 24 128 x.
Proof.
  unfold le_float. rewrite le_round.
  - unfold b32_of_bits, bits_of_b32. now rewrite binary_float_of_bits_of_binary_float.
  - pose proof (bits_of_binary_float_range 23 8 eq_refl eq_refl x). exact H.
Qed.

Lemma int_float n : py_float (fmt_int n) = Ok (IZR n).
Proof.
  unfold py_float. rewrite strip_free by (intros a I; apply num_not_ws; eapply num_int; eauto).
  assert (Dq : forall m, 0 <= m -> forall a, In a (fmt_nat m) -> is_digit a = true) by (intros m M a; now apply digits_fmt).
  assert (B : forall m, 0 <= m -> split_on "." (fmt_nat m) = [fmt_nat m] /\ parse_nat (fmt_nat m) = Some m).
  { intros m M. split; [apply split_on_free; intros I; apply (Dq m M) in I; discriminate|]. rewrite parse_nat_ne by apply fmt_nat_ne. now apply parse_fmt_nat. }
  unfold fmt_int. destruct (Z.ltb_spec n 0) as [L|L].
  - cbn [signed]. rewrite Ascii.eqb_refl. destruct (B (- n)) as (B1 & B2); [lia|]. cbn beta iota. rewrite B1, B2. f_equal. rewrite opp_IZR. ring.
  - destruct (B n) as (B1 & B2); [lia|]. rewrite signed_digit by (apply Dq; lia). cbn beta iota. now rewrite B1, B2.
Qed.
Lemma rint_int n : rint (IZR n) = n.
Proof.
  pose proof (rint_close (IZR n)) as C. rewrite <- minus_IZR, <- abs_IZR in C.
  assert (Z.abs (rint (IZR n) - n) < 1); [|lia]. apply lt_IZR. lra.
Qed.
Lemma dec_read d : py_float (dec_text d) = Ok (dec_value d).
Proof.
  unfold dec_text. destruct (places d) as [|k] eqn:K.
  - rewrite int_float. f_equal. unfold dec_value. rewrite K. cbn [pow]. lra.
  - assert (P : (0 < 10 ^ S k)%R) by (apply pow_lt; lra).
    assert (RV : rint (dec_value d * 10 ^ S k) = num d).
    { unfold dec_value. rewrite K. replace (IZR (num d) / 10 ^ S k * 10 ^ S k)%R with (IZR (num d)) by (field; lra). apply rint_int. }
    assert (E : (if num d <? 0 then ["-"%char] else []) ++ fmt_nat (Z.abs (num d) / 10 ^ Z.of_nat (S k)) ++ ["."%char] ++ low_digits (S k) (Z.abs (num d) mod 10 ^ Z.of_nat (S k))
      = fmt_fixed (S k) (dec_value d)).
    { unfold fmt_fixed. rewrite RV. f_equal. unfold dec_value. rewrite K. destruct (Z.ltb_spec (num d) 0) as [L|L], (Rlt_dec (IZR (num d) / 10 ^ S k) 0) as [L'|L']; try reflexivity; exfalso.
      - apply L'. apply IZR_lt in L. apply Rmult_lt_reg_r with (10 ^ S k)%R; [exact P|]. unfold Rdiv. rewrite Rmult_assoc, Rinv_l by lra. lra.
      - apply IZR_le in L. assert (0 <= IZR (num d) / 10 ^ S k)%R; [|lra]. apply Rmult_le_pos; [exact L|]. left. now apply Rinv_0_lt_compat. }
    cbv zeta. rewrite E, fixed_round_trip, RV. unfold dec_value. now rewrite K.
Qed.
Lemma round3_rounded x : rounded 3 x (round3 x).
Proof. apply fixed_rounded. Qed.

(** *** Keys *)
Section Keys.
Variables (secs : list cpr_section) (md : dict (dict txt)).
Hypothesis NONE : forall name, dget name md = None <-> spec_section secs name = None.
Hypothesis VALUE : forall name key, match dget name md with Some d => dget key d | None => None end = spec_value secs name key.

Lemma key_at name key v : spec_value secs name key = Some v -> exists d, dget name md = Some d /\ dget key d = Some v.
Proof. intros E. rewrite <- VALUE in E. destruct (dget name md) as [d|]; [|discriminate]. eauto. Qed.
Lemma section_at sec key v : spec_value secs (lit sec) (lit key) = Some v -> section_key md sec key = Ok v.
Proof. intros E. destruct (key_at _ _ _ E) as (d & D & K). unfold section_key, dkey. rewrite D. cbn [bind]. now rewrite K. Qed.
Lemma int_at sec key n : spec_value secs (lit sec) (lit key) = Some (fmt_int n) -> int_key md sec key = Ok n.
Proof. intros E. unfold int_key. rewrite (section_at _ _ _ E). cbn [bind]. apply int_round_trip. Qed.
Lemma float_at sec key d : spec_value secs (lit sec) (lit key) = Some (dec_text d) -> float_key md sec key = Ok (dec_value d).
Proof. intros E. unfold float_key. rewrite (section_at _ _ _ E). cbn [bind]. apply dec_read. Qed.
Lemma round3_at d key x : dget (lit key) d = Some (dec_text x) -> round3_key d key = Ok (round3 (dec_value x)).
Proof. intros E. unfold round3_key, dkey. rewrite E. cbn [bind]. rewrite dec_read. reflexivity. Qed.

Definition space_of (p : scan_phase) : Z := match sp_space p with Some z => z | None => 0 end.
Lemma phase_at conv i p : says_phase secs (i + 1) p ->
  let '(a, b, c) := sp_lengths p in let '(al, be, ga) := sp_angles p in
  let r x := round3 (dec_value x) in
  cpr_phase conv md i = (do q <- mk_phase conv (sp_laue p) (space_of p) (r a) (r c);
    Ok (PhaseOut (sp_name p) [r a; r b; r c; r al * PI / 180; r be * PI / 180; r ga * PI / 180]%R q)).
Proof.
  intros (N & L & SP_ & LE & AN). destruct (sp_lengths p) as [[a b] c]. destruct (sp_angles p) as [[al be] ga]. cbv zeta.
  destruct LE as (A & B & C). destruct AN as (AL & BE & GA).
  destruct (key_at _ _ _ N) as (d & D & KN).
  assert (K : forall key v, spec_value secs (lit "Phase" ++ fmt_int (i + 1)) key = v -> dget key d = v).
  { intros key v <-. rewrite <- VALUE, D. reflexivity. }
  unfold cpr_phase. unfold dkey at 1. rewrite D. cbn [bind]. unfold dkey at 1. rewrite KN. cbn [bind]. unfold dkey at 1. rewrite (K _ _ L). cbn [bind].
  rewrite int_round_trip. cbn [bind]. rewrite (K _ _ SP_).
  assert (PS : py_int (match option_map fmt_int (sp_space p) with Some s => s | None => lit "0" end) = Ok (space_of p)).
  { unfold space_of. destruct (sp_space p) as [z|]; cbn [option_map]; [apply int_round_trip|reflexivity]. }
  rewrite PS. cbn [bind].
  rewrite (round3_at d "a" a), (round3_at d "b" b), (round3_at d "c" c), (round3_at d "alpha" al), (round3_at d "beta" be), (round3_at d "gamma" ga) by (now apply K).
  cbn [bind]. reflexivity.
Qed.
End Keys.

Lemma phase_loads conv p : known_conv conv -> loadable_phase p ->
  let '(a, _, c) := sp_lengths p in
  exists q, mk_phase conv (sp_laue p) (space_of p) (round3 (dec_value a)) (round3 (dec_value c)) = Ok q /\ ph_laue q = sp_laue p /\ ph_space q = space_of p.
Proof.
  intros K L. unfold loadable_phase in L. destruct (sp_lengths p) as [[a b] c]. destruct L as [->|(-> & A & C & U)].
  - destruct (Z.eq_dec (space_of p) 225) as [->|N1]; [|destruct (Z.eq_dec (space_of p) 229) as [->|N2]].
    + destruct (phase_fcc conv (round3 (dec_value a)) (round3 (dec_value c))) as (gs & _ & E). eexists. split; [exact E|]. split; reflexivity.
    + destruct (phase_bcc conv (round3 (dec_value a)) (round3 (dec_value c))) as (gs & _ & E). eexists. split; [exact E|]. split; reflexivity.
    + rewrite phase_other_cubic by auto. eexists. split; [reflexivity|]. split; reflexivity.
  - pose proof (dec3_at_least _ A) as A'. pose proof (dec3_at_least _ C) as C'. pose proof (dec3_close (dec_value a)) as U'.
    change (dec3 (dec_value a)) with (round3 (dec_value a)) in *. change (dec3 (dec_value c)) with (round3 (dec_value c)) in *.
    apply Rabs_le_inv in U'.
    destruct (phase_hcp conv (space_of p) (round3 (dec_value a)) (round3 (dec_value c))) as (gs & _ & E); auto; [lra| |].
    + apply Rle_trans with (/ 1000)%R; auto. apply Rmult_le_reg_r with (10 ^ 10)%R; lra.
    + eexists. split; [exact E|]. split; reflexivity.
Qed.

Lemma zseq_phases {A B} (f : Z -> res B) (P : A -> B -> Prop) (l : list A) :
  (forall s a, nth_error l s = Some a -> exists b, f (Z.of_nat s) = Ok b /\ P a b) -> exists bs, map_res f (zseq 0 (List.length l)) = Ok bs /\ Forall2 P l bs.
Proof.
  intros H.
  assert (G : forall k s, (forall i a, nth_error k i = Some a -> nth_error l (s + i) = Some a) -> exists bs, map_res f (zseq (Z.of_nat s) (List.length k)) = Ok bs /\ Forall2 P k bs).
  { induction k as [|a k IH]; intros s N; [exists []; split; [reflexivity|constructor]|]. cbn [List.length zseq map_res].
    destruct (H s a) as (b & E & R). { specialize (N 0%nat a eq_refl). now rewrite Nat.add_0_r in N. }
    rewrite E. cbn [bind]. replace (Z.of_nat s + 1) with (Z.of_nat (S s)) by lia.
    destruct (IH (S s)) as (bs & E' & R'). { intros i x X. replace (S s + i)%nat with (s + S i)%nat by lia. apply N. exact X. }
    rewrite E'. cbn [bind]. exists (b :: bs). split; [reflexivity|constructor; auto]. }
  apply (G l 0%nat). auto.
Qed.

(** *** The header *)
Theorem cpr_loads conv notes secs s : known_conv conv -> (forall t, In t notes -> ignored ";" t) -> (forall s, In s secs -> good_section s) ->
  says secs s -> loadable s ->
  exists ps acq, load_cpr conv (cpr_lines notes secs) =
    Ok (CprMeta (sc_rows s) (sc_cols s) (dec_value (sc_step s)) acq ps (fmt_of (sc_windows s) (sc_fields s) false)) /\
    Forall2 (shows_phase conv) (sc_phases s) ps /\
    let '(a, b, c) := sc_acq s in unitq acq /\ rot_matrix acq = bunge (dec_value a * PI / 180) (dec_value b * PI / 180) (dec_value c * PI / 180).
Proof.
  intros KC N G SAY LO. destruct (read_cpr_value notes secs N G) as (md & RD & NONE & VALUE).
  destruct SAY as (XC & YC & GD & AC & PC & PS & EW & FC & FI). destruct LO as (R0 & C0 & LP & NW & NF & KI & NE & _).
  unfold load_cpr. rewrite RD. cbn [bind].
  rewrite (int_at secs md VALUE _ _ _ XC), (int_at secs md VALUE _ _ _ YC), (float_at secs md VALUE _ _ _ GD). cbn [bind].
  destruct (sc_acq s) as [[a b] c]. destruct AC as (A1 & A2 & A3).
  rewrite (float_at secs md VALUE _ _ _ A1), (float_at secs md VALUE _ _ _ A2), (float_at secs md VALUE _ _ _ A3). cbn [bind].
  rewrite (int_at secs md VALUE _ _ _ PC). cbn [bind]. rewrite Nat2Z.id.
  destruct (zseq_phases (cpr_phase conv md) (shows_phase conv) (sc_phases s)) as (ps & EP & FP).
  { intros i p NI. pose proof (phase_at secs md VALUE conv (Z.of_nat i) p (PS i p NI)) as E.
    pose proof (phase_loads conv p KC (LP p (nth_error_In _ _ NI))) as MP.
    destruct (sp_lengths p) as [[la lb] lc] eqn:SL. destruct (sp_angles p) as [[al be] ga] eqn:SA. cbv zeta in E. destruct MP as (q & MK & Q1 & Q2).
    cbn beta in E. rewrite MK in E. cbn [bind] in E. eexists. split; [exact E|]. split; [reflexivity|]. split; [exact Q1|]. split; [exact Q2|].
    do 6 eexists. split; [reflexivity|]. rewrite SL, SA. split; [|split].
    - split; [|split]; apply round3_rounded.
    - split; [|split]; apply round3_rounded.
    - exact MK. }
  rewrite EP. cbn [bind].
  assert (ED : edx_windows md = Ok (sc_windows s)).
  { destruct (C59_windows md) as (W0 & W1). destruct EW as [(-> & E)|(E & W)]; [apply W0, NONE, E|].
    destruct (key_at secs md VALUE _ _ _ E) as (d & D & KD). apply (W1 d); auto. intros i t NI. specialize (W i t NI).
    rewrite <- VALUE, D in W. exact W. }
  destruct (key_at secs md VALUE _ _ _ FC) as (d & D & KD).
  rewrite (C59_header md d (sc_windows s) (sc_fields s) D KD); [| |exact ED].
  2:{ intros i id NI. specialize (FI i id NI). rewrite <- VALUE, D in FI. exact FI. }
  rewrite layout_known by auto. cbn [bind].
  assert (FE : (Phase8, Byte) :: map (known_field (sc_windows s)) (sc_fields s) = fmt_of (sc_windows s) (sc_fields s) false) by (unfold fmt_of; now rewrite app_nil_r).
  rewrite FE. rewrite fields_distinct_nodup by (apply fmt_nodup; auto). cbn [negb].
  eexists. eexists. split; [reflexivity|]. split; [exact FP|]. apply C22_from_euler.
Qed.

(** *** The data *)
Lemma nth_record s p j id : nth_error (sc_fields s) j = Some id -> nth_bytes (S j) (pixel_record s p) = field_bytes s p id.
Proof.
  intros J. unfold nth_bytes, pixel_record. cbn [nth]. apply nth_error_nth. now apply map_nth_error.
Qed.
Lemma field_width s p id : List.length (field_bytes s p id) = id_width id.
Proof.
  unfold field_bytes. destruct (Nat.eqb_spec (id_width id) 1) as [->|N]; [reflexivity|]. rewrite le_length.
  unfold id_width in *. destruct (existsb _ _); congruence.
Qed.
Lemma record_widths s p : map (@List.length Z) (pixel_record s p) = 1%nat :: map id_width (sc_fields s) ++ [].
Proof.
  rewrite app_nil_r. unfold pixel_record. cbn [map List.length]. f_equal. rewrite map_map. apply map_ext. intros id. apply field_width.
Qed.
Lemma byte_field s p id : id_width id = 1%nat -> le_value (field_bytes s p id) = sc_byte s id p.
Proof. intros W. unfold field_bytes. rewrite W. cbn. lia. Qed.
Lemma float_field s p id : id_width id = 4%nat -> le_float (field_bytes s p id) = B2BSN 24 128 (sc_float s id p).
Proof. intros W. unfold field_bytes. rewrite W. cbn [Nat.eqb]. apply float_round. Qed.
Lemma triples_map {A B} (f g h : A -> B) l : triples (map f l) (map g l) (map h l) = map (fun a => (f a, g a, h a)) l.
Proof. induction l as [|a l IH]; cbn [map triples]; [reflexivity|]. now rewrite IH. Qed.
Lemma edx_width id : 101 <= id -> id_width id = 4%nat.
Proof. intros I. unfold id_width. destruct (existsb _ _) eqn:E; [|reflexivity]. apply existsb_exists in E as (x & J & E). apply Z.eqb_eq in E. subst. cbn [In] in J. lia. Qed.

Theorem data_loads conv s step acq ps : loadable s ->
  let '(a, b, c) := sc_acq s in
  step = dec_value (sc_step s) -> (unitq acq /\ rot_matrix acq = bunge (dec_value a * PI / 180) (dec_value b * PI / 180) (dec_value c * PI / 180)) ->
  Forall2 (shows_phase conv) (sc_phases s) ps ->
  exists m, load_data (CprMeta (sc_rows s) (sc_cols s) step acq ps (fmt_of (sc_windows s) (sc_fields s) false)) (scan_bytes s) = Ok m /\ shows conv s m.
Proof.
  intros (R0 & C0 & LP & NW & NF & KI & NE & BY). destruct (sc_acq s) as [[a b] c] eqn:SA. intros -> AC FP.
  set (rs := map (pixel_record s) (all_pix (sc_cols s) (sc_rows s))).
  assert (RW : forall r, In r rs -> map (@List.length Z) r = 1%nat :: map id_width (sc_fields s) ++ (if false then [4%nat] else [])).
  { intros r I. apply in_map_iff in I as (p & <- & _). apply record_widths. }
  assert (RL : Z.of_nat (List.length rs) = sc_rows s * sc_cols s).
  { unfold rs. rewrite map_length, all_pix_length by lia. rewrite Z2Nat.id by nia. ring. }
  destruct (crc_loads (sc_windows s) (sc_fields s) false rs (sc_rows s) (sc_cols s)) as (pos & P & LC); auto.
  unfold load_data. cbn [cm_layout cm_rows cm_cols cm_step cm_acq cm_phases]. fold (scan_bytes s). unfold scan_bytes. fold rs. rewrite LC. cbv zeta. cbn [bind].
  rewrite read_fits.
  2:{ unfold fmt_of. cbn [rec_size fold_right snd width]. lia. }
  2:{ intros r I. apply fmt_fits; auto. }
  assert (COL : forall j id, nth_error (sc_fields s) j = Some id -> map (nth_bytes (S j)) rs = map (fun p => field_bytes s p id) (all_pix (sc_cols s) (sc_rows s))).
  { intros j id J. unfold rs. rewrite map_map. apply map_ext. intros p. now apply nth_record. }
  assert (EDX : exists es, map_res (fun t => do l <- crc_map (sc_rows s) (sc_cols s) (Edx t) (map (fun r => combine (map fst (fmt_of (sc_windows s) (sc_fields s) false)) r) rs); Ok (t, map le_float l))
       (edx_fields (fmt_of (sc_windows s) (sc_fields s) false)) = Ok es /\
     Forall2 (fun id e => nth_error (sc_windows s) (Z.to_nat (id - 101)) = Some (fst e) /\
             forall x y, 0 <= x < sc_cols s -> 0 <= y < sc_rows s ->
               at_pixel (snd e) (sc_cols s) x y = Some (B2BSN 24 128 (sc_float s id (x, y)))) (filter (fun id => 101 <=? id) (sc_fields s)) es).
  { assert (EF : edx_fields (fmt_of (sc_windows s) (sc_fields s) false) = edx_fields (map (known_field (sc_windows s)) (sc_fields s))).
    { unfold fmt_of. rewrite app_nil_r. reflexivity. }
    rewrite EF. clear EF.
    assert (Q : forall k sh, (forall i id, nth_error k i = Some id -> nth_error (sc_fields s) (sh + i) = Some id) ->
       exists es, map_res (fun t => do l <- crc_map (sc_rows s) (sc_cols s) (Edx t) (map (fun r => combine (map fst (fmt_of (sc_windows s) (sc_fields s) false)) r) rs); Ok (t, map le_float l))
       (edx_fields (map (known_field (sc_windows s)) k)) = Ok es /\
       Forall2 (fun id e => nth_error (sc_windows s) (Z.to_nat (id - 101)) = Some (fst e) /\
             forall x y, 0 <= x < sc_cols s -> 0 <= y < sc_rows s ->
               at_pixel (snd e) (sc_cols s) x y = Some (B2BSN 24 128 (sc_float s id (x, y)))) (filter (fun id => 101 <=? id) k) es).
    { induction k as [|id k IH]; intros sh NI; [exists []; split; [reflexivity|constructor]|].
      destruct (IH (S sh)) as (es & E & F). { intros i x X. replace (S sh + i)%nat with (sh + S i)%nat by lia. apply NI. exact X. }
      assert (J : nth_error (sc_fields s) sh = Some id). { specialize (NI 0%nat id eq_refl). now rewrite Nat.add_0_r in NI. }
      pose proof (KI id (nth_error_In _ _ J)) as KID. cbn [filter map].
      destruct (Z.leb_spec 101 id) as [L|L].
      - assert (KF : known_field (sc_windows s) id = (Edx (nth (Z.to_nat (id - 101)) (sc_windows s) []), Float)).
        { unfold known_field. replace (101 <=? id) with true by (symmetry; apply Z.leb_le; lia). reflexivity. }
        assert (IW : (Z.to_nat (id - 101) < List.length (sc_windows s))%nat).
        { destruct KID as [KID|KID]; [cbn [In] in KID|]; lia. }
        rewrite KF. unfold edx_fields in *. cbn [flat_map fst app]. cbn [map_res].
        rewrite (crc_map_ok (sc_windows s) (sc_fields s) false rs (sc_rows s) (sc_cols s) _ (S sh)); auto.
        2:{ rewrite (fmt_pos _ _ _ _ _ J), KF. reflexivity. }
        cbn [bind]. rewrite E. cbn [bind]. eexists. split; [reflexivity|]. constructor; [|exact F]. cbn [fst snd]. split; [now apply nth_error_nth'|].
        intros x y X Y. rewrite (COL sh id J), map_map, at_all_pix by auto. f_equal. apply float_field, edx_width, L.
      - assert (KF : exists f, known_field (sc_windows s) id = f /\ forall t, fst f <> Edx t).
        { destruct KID as [KID|KID]; [|lia]. repeat (destruct KID as [<-|KID]; [eexists; split; [reflexivity|discriminate]|]). destruct KID. }
        destruct KF as ([f k'] & KF & NX). rewrite KF. unfold edx_fields in *. cbn [flat_map fst]. cbn [fst] in NX.
        exists es. split; [|exact F]. destruct f; try exact E. exfalso. exact (NX name eq_refl). }
    apply (Q (sc_fields s) 0%nat). auto. }
  destruct EDX as (es & EE & EF). rewrite EE. cbn [bind]. eexists. split; [reflexivity|].
  unfold shows. rewrite SA. cbn [bm_shape bm_step bm_acq bm_phases bm_bc bm_bs bm_phase bm_mad bm_euler bm_edx].
  split; [reflexivity|]. split; [reflexivity|]. split; [exact AC|]. split; [exact FP|]. split; [|exact EF].
  intros x y X Y. cbv zeta. cbn [c_bc c_bs c_phase c_mad c_ph1 c_phi c_ph2].
  assert (P' : forall id, In id [3; 4; 5; 6; 7; 8] -> map (nth_bytes (S (pos id))) rs = map (fun p => field_bytes s p id) (all_pix (sc_cols s) (sc_rows s))).
  { intros id I. apply COL, P. exact I. }
  rewrite !P' by (cbn [In]; tauto). rewrite !map_map, triples_map. unfold rs. rewrite !map_map. rewrite !at_all_pix by auto.
  rewrite !byte_field, !float_field by reflexivity.
  repeat split. f_equal. cbn. lia.
Qed.

(** *** Paths *)
Lemma before_last_app c n : ~ In c n -> forall d, before_last c (d ++ c :: n) = Some d.
Proof.
  intros N. assert (Z0 : before_last c n = None).
  { induction n as [|a n IH]; [reflexivity|]. cbn [before_last]. rewrite IH by (intros I; apply N; now right).
    destruct (Ascii.eqb_spec a c) as [->|]; [|reflexivity]. exfalso. apply N. now left. }
  induction d as [|a d IH]; cbn [app before_last].
  - now rewrite Z0, Ascii.eqb_refl.
  - now rewrite IH.
Qed.
Lemma before_last_none c n : ~ In c n -> before_last c n = None.
Proof.
  intros N. induction n as [|a n IH]; [reflexivity|]. cbn [before_last]. rewrite IH by (intros I; apply N; now right).
  destruct (Ascii.eqb_spec a c) as [->|]; [|reflexivity]. exfalso. apply N. now left.
Qed.
Lemma parent_of d n : (d = [] \/ exists d', d = d' ++ ["/"%char]) -> ~ In "/"%char n -> parent_name (d ++ n) = (d, n).
Proof.
  intros [->|(d' & ->)] N; unfold parent_name.
  - cbn [app]. now rewrite before_last_none.
  - rewrite <- app_assoc. cbn [app]. rewrite before_last_app by auto. f_equal.
    replace (S (List.length d')) with (List.length d' + 1)%nat by lia. rewrite skipn_app.
    rewrite skipn_all2 by lia. replace (List.length d' + 1 - List.length d')%nat with 1%nat by lia. reflexivity.
Qed.
Lemma plain_stem a n : ~ In "."%char n -> stem_suffix (a :: n) = (a :: n, []).
Proof.
  intros N. unfold stem_suffix. cbn [before_last]. rewrite before_last_none by auto. destruct (Ascii.eqb a "."); reflexivity.
Qed.
Lemma dotted_stem a n e : ~ In "."%char e -> e <> [] -> stem_suffix ((a :: n) ++ "."%char :: e) = (a :: n, "."%char :: e).
Proof.
  intros N NE. unfold stem_suffix. rewrite before_last_app by auto. cbv zeta.
  assert (SK : skipn (List.length (a :: n)) ((a :: n) ++ "."%char :: e) = "."%char :: e).
  { rewrite skipn_app, skipn_all, Nat.sub_diag. reflexivity. }
  rewrite SK. destruct e as [|x e]; [congruence|]. reflexivity.
Qed.
