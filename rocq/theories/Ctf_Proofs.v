(** Proofs about text EBSD files. *)
From Coq Require Import String Ascii Reals Lra.
From Coq Require Import List ZArith Bool Lia.
Import ListNotations.
From Verif Require Import Py Grid Grid_Lemmas Quat_Model Base_Model Base_Proofs Dic_Proofs Crystal_Model
  CrystalMat_Proofs CrystalData_Proofs Text_Model Text_Proofs Ctf_Model Ctf_Spec.
Open Scope Z_scope.

(** *** Joined texts *)
Lemma in_join c sep l : In c (join sep l) -> c = sep \/ exists t, In t l /\ In c t.
Proof.
  induction l as [|a l IH]; cbn [join]; [intros []|]. destruct l as [|b l].
  - intros I. right. exists a. split; [now left|auto].
  - intros I. apply in_app_or in I as [I|[<-|I]]; auto.
    + right. exists a. split; [now left|auto].
    + destruct (IH I) as [E|(t & A & B)]; auto. right. exists t. split; [now right|auto].
Qed.
Lemma split_join sep l : l <> [] -> (forall t, In t l -> ~ In sep t) -> split_on sep (join sep l) = l.
Proof.
  induction l as [|a l IH]; intros N F; [congruence|]. cbn [join]. destruct l as [|b l].
  - apply split_on_free. apply F. now left.
  - rewrite split_on_app by (apply F; now left). f_equal. apply IH; [discriminate|]. intros; apply F; now right.
Qed.
Lemma words_join sep l : is_ws sep = true -> (forall t, In t l -> t <> [] /\ free is_ws t) -> words (join sep l) = l.
Proof.
  intros S F. induction l as [|a l IH]; [reflexivity|]. cbn [join]. destruct (F a (or_introl eq_refl)) as [A B].
  destruct l as [|b l]; [now apply words_one|]. rewrite words_app by auto. f_equal. apply IH. intros; apply F; now right.
Qed.
Lemma ws_TAB : is_ws TAB = true. Proof. reflexivity. Qed.

Lemma int_ws n : free is_ws (fmt_int n).
Proof. intros a I. apply num_not_ws. eapply num_int; eauto. Qed.
Lemma fixed_ws k x : free is_ws (fmt_fixed k x).
Proof. intros a I. apply num_not_ws. eapply num_fixed; eauto. Qed.

(** A key line: last word. *)
Lemma key_word key t : key <> [] -> free is_ws key -> t <> [] -> free is_ws t ->
  last_item (words (key ++ TAB :: t)) = Ok t.
Proof. intros A B C D. rewrite words_app, words_one by auto. reflexivity. Qed.

(** *** Rounding *)
Lemma fixed_rounded k x : rounded k x (IZR (rint (x * 10 ^ k)) / 10 ^ k)%R.
Proof.
  split; [eexists; reflexivity|]. assert (P : (0 < 10 ^ k)%R) by (apply pow_lt; lra).
  pose proof (rint_close (x * 10 ^ k)) as C. set (n := rint (x * 10 ^ k)) in *.
  replace (IZR n / 10 ^ k - x)%R with ((IZR n - x * 10 ^ k) / 10 ^ k)%R by (field; lra).
  unfold Rdiv at 1. rewrite Rabs_mult, (Rabs_right (/ 10 ^ k)).
  2:{ apply Rle_ge, Rlt_le, Rinv_0_lt_compat, P. }
  unfold Rdiv. apply Rmult_le_compat_r; [apply Rlt_le, Rinv_0_lt_compat, P|]. lra.
Qed.
Lemma round3_fixed x : round3 (IZR (rint (x * 10 ^ 3)) / 10 ^ 3)%R = (IZR (rint (x * 10 ^ 3)) / 10 ^ 3)%R.
Proof.
  unfold round3. replace (IZR (rint (x * 10 ^ 3)) / 10 ^ 3 * 10 ^ 3)%R with (IZR (rint (x * 10 ^ 3))) by (field; lra).
  now rewrite rint_int.
Qed.

(** *** One phase *)
Definition dec3 (x : R) : R := (IZR (rint (x * 10 ^ 3)) / 10 ^ 3)%R.
Lemma fixed3_no c t : is_num c = false -> c <> ";"%char -> ~ In c (fixed3 ";" t).
Proof.
  destruct t as [[a b] d]. intros N S I. unfold fixed3 in I. apply in_join in I as [E|(t & A & B)]; [auto|].
  destruct A as [<-|[<-|[<-|[]]]]; apply num_fixed in B; congruence.
Qed.
Lemma fixed3_split t : split_on ";" (fixed3 ";" t) =
  let '(a, b, c) := t in [fmt_fixed 3 a; fmt_fixed 3 b; fmt_fixed 3 c].
Proof.
  destruct t as [[a b] c]. unfold fixed3. apply split_join; [discriminate|].
  intros t [<-|[<-|[<-|[]]]] I; apply num_fixed in I; discriminate.
Qed.
Lemma int_no c n : is_num c = false -> ~ In c (fmt_int n).
Proof. intros N I. apply num_int in I. congruence. Qed.

Lemma parse_phase_line conv p : ~ In TAB (pi_name p) ->
  parse_phase conv (phase_line p) =
  let '(a, b, c) := pi_lengths p in
  let '(al, be, ga) := pi_angles p in
  do ph <- mk_phase conv (pi_laue p) 0 (dec3 a) (dec3 c);
  Ok (PhaseOut (pi_name p)
        [dec3 a; dec3 b; dec3 c; dec3 (al * 180 / PI) * PI / 180; dec3 (be * 180 / PI) * PI / 180;
         dec3 (ga * 180 / PI) * PI / 180]%R ph).
Proof.
  intros N. unfold phase_line, parse_phase. destruct p as [name laue lens angs]. cbn [pi_name pi_laue pi_lengths pi_angles] in *.
  destruct angs as [[al be] ga]. destruct lens as [[a b] c].
  rewrite split_join.
  2: discriminate.
  2:{ intros t [<-|[<-|[<-|[<-|[<-|[<-|[<-|[<-|[]]]]]]]]]; try (now intros []);
      try (apply fixed3_no; [reflexivity|discriminate]); try (apply int_no; reflexivity); auto.
      all: cbn; intros [E|[]]; discriminate. }
  cbn [item nth_error bind]. rewrite !fixed3_split. cbn [map_res].
  rewrite !fixed_round_trip. cbn [bind]. rewrite !round3_fixed.
  rewrite int_round_trip. cbn [bind item nth_error app].
  replace (py_int (lit "0")) with (@Ok Z 0) by reflexivity. cbn [bind item nth_error app]. reflexivity.
Qed.

Lemma dec3_close x : (Rabs (dec3 x - x) <= / 2000)%R.
Proof. destruct (fixed_rounded 3 x) as [_ H]. unfold dec3. lra. Qed.

Lemma dec3_at_least x : (/ 1000 <= x)%R -> (/ 1000 <= dec3 x)%R.
Proof.
  intros H. unfold dec3. assert (1 <= rint (x * 10 ^ 3)).
  { pose proof (rint_close (x * 10 ^ 3)) as C. unfold Rabs in C. destruct (Rcase_abs _) in C;
    assert (1 / 2 <= IZR (rint (x * 10 ^ 3)))%R by lra; assert (0 < IZR (rint (x * 10 ^ 3)))%R by lra;
    apply lt_IZR in H1; lia. }
  apply IZR_le in H0. lra.
Qed.

Lemma readable_phase_made conv p : known_conv conv -> readable_phase p ->
  exists o, parse_phase conv (phase_line p) = Ok o /\ same_phase p o /\ ph_space (po_phase o) = 0 /\
    (pi_laue p = 11 -> ph_slip_systems (po_phase o) = None).
Proof.
  intros K [PN L]. destruct PN as (NT & _ & _). rewrite parse_phase_line by auto.
  destruct p as [name laue lens angs]. cbn [pi_name pi_laue pi_lengths pi_angles] in *.
  destruct angs as [[al be] ga]. destruct lens as [[a b] c].
  assert (Sp : forall ph, ph_laue ph = laue -> same_phase (PhaseIn name laue (a, b, c) (al, be, ga))
     (PhaseOut name [dec3 a; dec3 b; dec3 c; dec3 (al * 180 / PI) * PI / 180; dec3 (be * 180 / PI) * PI / 180;
         dec3 (ga * 180 / PI) * PI / 180]%R ph)).
  { intros ph E. split; [reflexivity|]. split; [exact E|]. do 6 eexists. split; [reflexivity|]. cbn [pi_lengths pi_angles].
    split; [repeat split; try (eexists; reflexivity); apply fixed_rounded|].
    split; [|split]; (eexists; split; [apply fixed_rounded|reflexivity]). }
  destruct L as [->|(-> & A & C & U)].
  - rewrite phase_other_cubic by lia. cbn [bind]. eexists. split; [reflexivity|]. split; [apply Sp; reflexivity|]. split; reflexivity.
  - pose proof (dec3_at_least a A) as A'. pose proof (dec3_at_least c C) as C'.
    pose proof (dec3_close a) as U'. apply Rabs_le_between in U' || (unfold Rabs in U'; destruct (Rcase_abs _) in U').
    all: destruct (phase_hcp conv 0 (dec3 a) (dec3 c)) as (gs & _ & E); auto; [lra| |
      rewrite E; cbn [bind]; eexists; split; [reflexivity|]; split; [apply Sp; reflexivity|]; split; [reflexivity|discriminate]].
    all: apply Rle_trans with (/ 1000)%R; auto; apply Rmult_le_reg_r with (10 ^ 10)%R; lra.
Qed.

Lemma take_phases_ok conv ps rest : known_conv conv -> (forall p, In p ps -> readable_phase p) ->
  exists os, take_phases conv (List.length ps) (map phase_line ps ++ rest) = Ok (os, rest) /\
    Forall2 (fun p o => same_phase p o /\ ph_space (po_phase o) = 0 /\
      (pi_laue p = 11 -> ph_slip_systems (po_phase o) = None)) ps os.
Proof.
  intros K. induction ps as [|p ps IH]; intros F.
  - exists []. split; [reflexivity|constructor].
  - destruct (readable_phase_made conv p K (F p (or_introl eq_refl))) as (o & E & S).
    destruct IH as (os & E' & S'); [intros; apply F; now right|].
    exists (o :: os). cbn [List.length take_phases map app]. rewrite E. cbn [bind]. rewrite E'. cbn [bind fst snd].
    split; [reflexivity|]. constructor; auto.
Qed.

(** *** The header *)
Lemma no_key k c l t : In c k -> is_num c = false -> ~ In c l -> (forall a, In a t -> is_num a = true) ->
  contains k (l ++ TAB :: t) = false \/ c = TAB.
Proof.
  intros I N NL T. destruct (ascii_dec c TAB) as [E|E]; auto. left. apply (contains_missing _ _ c); auto.
  intros J. apply in_app_or in J as [J|[J|J]]; auto. apply T in J. congruence.
Qed.
Lemma no_key_at k c l t : In c k -> is_num c = false -> c <> TAB -> ~ In c l -> (forall a, In a t -> is_num a = true) ->
  contains k (l ++ TAB :: t) = false.
Proof. intros I N E NL T. destruct (no_key k c l t) as [H|H]; auto. contradiction. Qed.
Lemma no_key_head a k l t : is_num a = false -> a <> TAB -> ~ In a l -> (forall b, In b t -> is_num b = true) ->
  starts_with (a :: k) (a :: l ++ [TAB]) = false -> (List.length k <= List.length l)%nat ->
  contains (a :: k) ((a :: l) ++ TAB :: t) = false.
Proof.
  intros N E NL T SW L. cbn [app]. rewrite contains_head.
  2:{ intros J. apply in_app_or in J as [J|[J|J]]; auto. apply T in J. congruence. }
  destruct (starts_with (a :: k) (a :: l ++ TAB :: t)) eqn:X; auto. exfalso.
  apply starts_iff in X as (r & X).
  assert (Y : starts_with (a :: k) (a :: l ++ [TAB]) = true); [|congruence].
  apply starts_iff. injection X as X.
  exists (firstn (S (List.length l) - List.length k)%nat r). cbn [app]. f_equal.
  apply (f_equal (firstn (S (List.length l)))) in X.
  replace (S (List.length l)) with (List.length l + 1)%nat in X by lia.
  rewrite firstn_app_2 in X. change (firstn 1 (TAB :: t)) with [TAB] in X. rewrite X.
  replace (List.length l + 1)%nat with (S (List.length l)) by lia.
  rewrite firstn_app. f_equal. apply firstn_all2. lia.
Qed.

Lemma int_num n a : In a (fmt_int n) -> is_num a = true. Proof. apply num_int. Qed.

Ltac char_out := cbn; intuition discriminate.
Ltac nums := first [exact (num_int _) | exact (num_fixed _ _)].
Ltac miss c := rewrite (no_key_at _ c); [ | cbn; tauto | reflexivity | discriminate | char_out | nums ].
Ltac head := match goal with |- context[contains (lit ?k) (lit ?l ++ TAB :: ?t)] =>
   let k' := eval cbv [lit list_ascii_of_string] in (lit k) in
   let l' := eval cbv [lit list_ascii_of_string] in (lit l) in
   match k' with ?a :: ?k2 => match l' with _ :: ?l2 =>
     replace (contains (lit k) (lit l ++ TAB :: t)) with false
       by (symmetry; apply (no_key_head a k2 l2 t); [reflexivity | discriminate | char_out | nums | reflexivity | cbn; lia ]) end end end.
Ltac hits := first [apply contains_start | apply key_word; [discriminate | intros ? ?; cbn in *; intuition (subst; reflexivity)
     | first [apply fmt_int_ne | apply fmt_fixed_ne] | first [apply int_ws | apply fixed_ws] ]
   | apply int_round_trip | apply fixed_round_trip].
Lemma read_0 conv i h line rest w v :
  contains (lit "XCells") line = true -> last_item (words line) = Ok w -> py_int w = Ok v ->
  read_header conv i h (line :: rest) = read_header conv (i + 1) (Hdr (Some v) (h_y h) (h_step h) (h_acq h)) rest.
Proof.
  intros  C W V. cbn [read_header]. rewrite C, W. cbn [bind]. rewrite V. cbn [bind].
  destruct (h_acq h) as [[a b] c]. reflexivity.
Qed.
Lemma read_1 conv i h line rest w v :
  contains (lit "XCells") line = false ->
  contains (lit "YCells") line = true -> last_item (words line) = Ok w -> py_int w = Ok v ->
  read_header conv i h (line :: rest) = read_header conv (i + 1) (Hdr (h_x h) (Some v) (h_step h) (h_acq h)) rest.
Proof.
  intros N0 C W V. cbn [read_header]. rewrite N0, C, W. cbn [bind]. rewrite V. cbn [bind].
  destruct (h_acq h) as [[a b] c]. reflexivity.
Qed.
Lemma read_2 conv i h line rest w v :
  contains (lit "XCells") line = false ->
  contains (lit "YCells") line = false ->
  contains (lit "XStep") line = true -> last_item (words line) = Ok w -> py_float w = Ok v ->
  read_header conv i h (line :: rest) = read_header conv (i + 1) (Hdr (h_x h) (h_y h) v (h_acq h)) rest.
Proof.
  intros N0 N1 C W V. cbn [read_header]. rewrite N0, N1, C, W. cbn [bind]. rewrite V. cbn [bind].
  destruct (h_acq h) as [[a b] c]. reflexivity.
Qed.
Lemma read_3 conv i h line rest w v :
  contains (lit "XCells") line = false ->
  contains (lit "YCells") line = false ->
  contains (lit "XStep") line = false ->
  contains (lit "AcqE1") line = true -> last_item (words line) = Ok w -> py_float w = Ok v ->
  read_header conv i h (line :: rest) = read_header conv (i + 1) (Hdr (h_x h) (h_y h) (h_step h) (v, snd (fst (h_acq h)), snd (h_acq h))) rest.
Proof.
  intros N0 N1 N2 C W V. cbn [read_header]. rewrite N0, N1, N2, C, W. cbn [bind]. rewrite V. cbn [bind].
  destruct (h_acq h) as [[a b] c]. reflexivity.
Qed.
Lemma read_4 conv i h line rest w v :
  contains (lit "XCells") line = false ->
  contains (lit "YCells") line = false ->
  contains (lit "XStep") line = false ->
  contains (lit "AcqE1") line = false ->
  contains (lit "AcqE2") line = true -> last_item (words line) = Ok w -> py_float w = Ok v ->
  read_header conv i h (line :: rest) = read_header conv (i + 1) (Hdr (h_x h) (h_y h) (h_step h) (fst (fst (h_acq h)), v, snd (h_acq h))) rest.
Proof.
  intros N0 N1 N2 N3 C W V. cbn [read_header]. rewrite N0, N1, N2, N3, C, W. cbn [bind]. rewrite V. cbn [bind].
  destruct (h_acq h) as [[a b] c]. reflexivity.
Qed.
Lemma read_5 conv i h line rest w v :
  contains (lit "XCells") line = false ->
  contains (lit "YCells") line = false ->
  contains (lit "XStep") line = false ->
  contains (lit "AcqE1") line = false ->
  contains (lit "AcqE2") line = false ->
  contains (lit "AcqE3") line = true -> last_item (words line) = Ok w -> py_float w = Ok v ->
  read_header conv i h (line :: rest) = read_header conv (i + 1) (Hdr (h_x h) (h_y h) (h_step h) (fst (h_acq h), v)) rest.
Proof.
  intros N0 N1 N2 N3 N4 C W V. cbn [read_header]. rewrite N0, N1, N2, N3, N4, C, W. cbn [bind]. rewrite V. cbn [bind].
  destruct (h_acq h) as [[a b] c]. reflexivity.
Qed.
Lemma read_6 conv i h line rest w n os titles rest' :
  contains (lit "XCells") line = false ->
  contains (lit "YCells") line = false ->
  contains (lit "XStep") line = false ->
  contains (lit "AcqE1") line = false ->
  contains (lit "AcqE2") line = false ->
  contains (lit "AcqE3") line = false ->
  contains (lit "Phases") line = true -> last_item (words line) = Ok w -> py_int w = Ok n -> 0 < n ->
  take_phases conv (Z.to_nat n) rest = Ok (os, titles :: rest') ->
  read_header conv i h (line :: rest) = Ok (h, os, titles, i + (n - 1) + 3).
Proof.
  intros N0 N1 N2 N3 N4 N5 C W V P T. cbn [read_header]. rewrite N0, N1, N2, N3, N4, N5, C, W. cbn [bind]. rewrite V. cbn [bind].
  rewrite T. cbn [bind snd fst]. destruct (n <=? 0) eqn:E; [apply Z.leb_le in E; lia|]. reflexivity.
Qed.
Lemma read_step conv i h line rest :
  contains (lit "XCells") line = false -> contains (lit "YCells") line = false -> contains (lit "XStep") line = false ->
  contains (lit "AcqE1") line = false -> contains (lit "AcqE2") line = false -> contains (lit "AcqE3") line = false ->
  contains (lit "Phases") line = false -> read_header conv i h (line :: rest) = read_header conv (i + 1) h rest.
Proof. intros A B C D E F G. cbn [read_header]. now rewrite A, B, C, D, E, F, G. Qed.

Definition header_vars (m : map_in) : hdr :=
  let '(a1, a2, a3) := euler_angles (mi_acq m) in
  Hdr (Some (mi_cols m)) (Some (mi_rows m)) (IZR (rint (mi_step m * 10 ^ 4)) / 10 ^ 4)
      (IZR (rint (degrees a1 * 10 ^ 4)) / 10 ^ 4, IZR (rint (degrees a2 * 10 ^ 4)) / 10 ^ 4,
       IZR (rint (degrees a3 * 10 ^ 4)) / 10 ^ 4)%R.
Lemma header_prefix conv m tail :
  read_header conv 0 hdr0 (header_lines m ++ tail) =
  read_header conv 12 (header_vars m) ((lit "Phases" ++ TAB :: fmt_int (Z.of_nat (List.length (mi_phases m)))) :: tail).
Proof.
  unfold header_lines, header_vars. destruct (euler_angles (mi_acq m)) as [[a1 a2] a3].
  remember (List.length (mi_phases m)) as n eqn:Hn.
  rewrite <- app_comm_cons, read_step by reflexivity. 
  rewrite <- app_comm_cons, read_step by reflexivity. 
  rewrite <- app_comm_cons, read_step by reflexivity. 
  rewrite <- app_comm_cons, read_step by reflexivity.
  rewrite <- !app_comm_cons. rewrite app_nil_l.
  remember (lit "YCells" ++ TAB :: fmt_int (mi_rows m)) as l2.
  remember (lit "XStep" ++ TAB :: fmt_fixed 4 (mi_step m)) as l3.
  remember (lit "YStep" ++ TAB :: fmt_fixed 4 (mi_step m)) as l4.
  remember (lit "AcqE1" ++ TAB :: fmt_fixed 4 (degrees a1)) as l5.
  remember (lit "AcqE2" ++ TAB :: fmt_fixed 4 (degrees a2)) as l6.
  remember (lit "AcqE3" ++ TAB :: fmt_fixed 4 (degrees a3)) as l7.
  remember (lit "Euler angles refer to Sample Coordinate system (CS0)!") as l8.
  remember (lit "Phases" ++ TAB :: fmt_int (Z.of_nat n)) as l9.
  assert (M0 : forall c k l t, (forall a, In a t -> is_num a = true) -> In c k -> is_num c = false -> c <> TAB -> ~ In c l ->
    contains k (l ++ TAB :: t) = false) by (intros; eapply no_key_at; eauto).
  erewrite read_0 by hits. subst l2.
  erewrite read_1; [ | apply (M0 "X"%char); [nums | cbn; tauto | reflexivity | discriminate | char_out] | hits..]. subst l3.
  erewrite read_2; [ | apply (M0 "C"%char); [nums | cbn; tauto | reflexivity | discriminate | char_out]
    | apply (M0 "Y"%char); [nums | cbn; tauto | reflexivity | discriminate | char_out] | hits..]. subst l4.
  rewrite read_step.
  2, 4: apply (M0 "X"%char); [nums | cbn; tauto | reflexivity | discriminate | char_out].
  2: apply (M0 "C"%char); [nums | cbn; tauto | reflexivity | discriminate | char_out].
  2, 3, 4: apply (M0 "A"%char); [nums | cbn; tauto | reflexivity | discriminate | char_out].
  2: apply (M0 "P"%char); [nums | cbn; tauto | reflexivity | discriminate | char_out].
  subst l5. erewrite read_3; [ | apply (M0 "X"%char); [nums | cbn; tauto | reflexivity | discriminate | char_out]
    | apply (M0 "Y"%char); [nums | cbn; tauto | reflexivity | discriminate | char_out]
    | apply (M0 "X"%char); [nums | cbn; tauto | reflexivity | discriminate | char_out] | hits..].
  subst l6. erewrite read_4; [ | apply (M0 "X"%char); [nums | cbn; tauto | reflexivity | discriminate | char_out]
    | apply (M0 "Y"%char); [nums | cbn; tauto | reflexivity | discriminate | char_out]
    | apply (M0 "X"%char); [nums | cbn; tauto | reflexivity | discriminate | char_out]
    | head; reflexivity | hits..].
  subst l7. erewrite read_5; [ | apply (M0 "X"%char); [nums | cbn; tauto | reflexivity | discriminate | char_out]
    | apply (M0 "Y"%char); [nums | cbn; tauto | reflexivity | discriminate | char_out]
    | apply (M0 "X"%char); [nums | cbn; tauto | reflexivity | discriminate | char_out]
    | head; reflexivity | head; reflexivity | hits..].
  subst l8. rewrite read_step by reflexivity.
  cbn [h_x h_y h_step h_acq fst snd hdr0]. reflexivity.
Qed.

Lemma phases_line_misses n k : In k [lit "XCells"; lit "YCells"; lit "XStep"; lit "AcqE1"; lit "AcqE2"; lit "AcqE3"] ->
  contains k (lit "Phases" ++ TAB :: fmt_int n) = false.
Proof.
  assert (M0 : forall c k l t, (forall a, In a t -> is_num a = true) -> In c k -> is_num c = false -> c <> TAB -> ~ In c l ->
    contains k (l ++ TAB :: t) = false) by (intros; eapply no_key_at; eauto).
  intros I. repeat (destruct I as [<-|I]); try destruct I.
  1, 3: apply (M0 "X"%char); [nums | cbn; tauto | reflexivity | discriminate | char_out].
  1: apply (M0 "Y"%char); [nums | cbn; tauto | reflexivity | discriminate | char_out].
  all: apply (M0 "A"%char); [nums | cbn; tauto | reflexivity | discriminate | char_out].
Qed.

Lemma header_read conv m os titles rest :
  take_phases conv (List.length (mi_phases m)) (map phase_line (mi_phases m) ++ titles :: rest) = Ok (os, titles :: rest) ->
  mi_phases m <> [] ->
  read_header conv 0 hdr0 (header_lines m ++ map phase_line (mi_phases m) ++ titles :: rest) =
  Ok (header_vars m, os, titles, 14 + Z.of_nat (List.length (mi_phases m))).
Proof.
  intros T NE. rewrite header_prefix.
  set (tail := map phase_line (mi_phases m) ++ titles :: rest) in *. clearbody tail.
  remember (List.length (mi_phases m)) as n eqn:Hn.
  assert (N : (0 < n)%nat). { destruct (mi_phases m); [congruence|]. cbn in Hn. lia. }
  erewrite read_6; [ | apply phases_line_misses; cbn [In]; tauto.. | hits | hits | hits | lia |].
  2:{ rewrite Nat2Z.id. exact T. }
  do 2 f_equal. lia.
Qed.

(** A failing first phase, and no phases. *)
Lemma header_bad_phase conv m p ps e rest : mi_phases m = p :: ps -> parse_phase conv (phase_line p) = Err e ->
  read_header conv 0 hdr0 (header_lines m ++ map phase_line (mi_phases m) ++ rest) = Err e.
Proof.
  intros P E. rewrite header_prefix. rewrite P. cbn [read_header map app].
  rewrite !phases_line_misses by (cbn [In]; tauto). rewrite contains_start.
  rewrite key_word; [|discriminate | intros ? ?; cbn in *; intuition (subst; reflexivity) | apply fmt_int_ne | apply int_ws].
  cbn [bind]. rewrite int_round_trip. cbn [bind]. rewrite Nat2Z.id. cbn [List.length take_phases]. rewrite E. reflexivity.
Qed.
Lemma header_no_phase conv m l rest : mi_phases m = [] ->
  read_header conv 0 hdr0 (header_lines m ++ l :: rest) = Err UnboundLocalError.
Proof.
  intros P. rewrite header_prefix. rewrite P. cbn [read_header].
  rewrite !phases_line_misses by (cbn [In]; tauto). rewrite contains_start.
  rewrite key_word; [|discriminate | intros ? ?; cbn in *; intuition (subst; reflexivity) | apply fmt_int_ne | apply int_ws].
  cbn [bind]. rewrite int_round_trip. cbn [bind]. rewrite Nat2Z.id. reflexivity.
Qed.

(** *** No line feeds inside lines *)
Lemma num_no_LF t : (forall a, In a t -> is_num a = true) -> ~ In LF t.
Proof. intros N I. apply N in I. discriminate. Qed.
Lemma join_no c sep l : c <> sep -> (forall t, In t l -> ~ In c t) -> ~ In c (join sep l).
Proof. intros N F I. apply in_join in I as [E|(t & A & B)]; [auto|]. exact (F t A B). Qed.
Lemma header_no_LF m l : In l (header_lines m) -> ~ In LF l.
Proof.
  unfold header_lines. destruct (euler_angles (mi_acq m)) as [[a1 a2] a3].
  intros I. repeat (destruct I as [<-|I]); try destruct I; intros J.
  all: try (cbn in J; intuition discriminate).
  all: apply in_app_or in J as [J|[J|J]]; [cbn in J; intuition discriminate | discriminate |].
  all: revert J; apply num_no_LF; first [exact (num_int _) | exact (num_fixed _ _)].
Qed.
Lemma phase_no_LF p : ~ In LF (pi_name p) -> ~ In LF (phase_line p).
Proof.
  intros N. unfold phase_line. destruct (pi_angles p) as [[al be] ga].
  apply join_no; [discriminate|]. intros t I.
  repeat (destruct I as [<-|I]); try destruct I; auto; try (apply fixed3_no; [reflexivity|discriminate]).
  - apply int_no. reflexivity.
  - cbn. intuition discriminate.
Qed.

Definition pixel_words (m : map_in) (p : pix) : list txt :=
  let '(e1, e2, e3) := euler_angles (mi_quat m p) in
  let ph := mi_phase m p in
  [fmt_int ph; fmt_fixed 3 (IZR (fst p) * mi_step m); fmt_fixed 3 (IZR (snd p) * mi_step m);
   lit "10"; fmt_int (if ph =? 0 then 3 else 0);
   fmt_fixed 3 (degrees e1); fmt_fixed 3 (degrees e2); fmt_fixed 3 (degrees e3);
   lit "0.0000"; fmt_int (mi_bc m p); lit "0"].
Lemma data_line_words m p : data_line m p = join TAB (pixel_words m p).
Proof. unfold data_line, pixel_words. destruct (euler_angles (mi_quat m p)) as [[e1 e2] e3]. reflexivity. Qed.
Lemma pixel_words_num m p t : In t (pixel_words m p) -> t <> [] /\ forall a, In a t -> is_num a = true.
Proof.
  unfold pixel_words. destruct (euler_angles (mi_quat m p)) as [[e1 e2] e3]. intros I.
  repeat (destruct I as [<-|I]); try destruct I; split.
  all: first [apply fmt_int_ne | apply fmt_fixed_ne | discriminate | exact (num_int _) | exact (num_fixed _ _) | idtac].
  all: intros a I; cbn in I; intuition (subst; reflexivity).
Qed.
Lemma words_data m p : words (data_line m p) = pixel_words m p.
Proof.
  rewrite data_line_words. apply words_join; [reflexivity|]. intros t I. destruct (pixel_words_num m p t I) as [A B].
  split; auto. intros a J. apply num_not_ws; auto.
Qed.
Lemma data_char m p a : In a (data_line m p) -> a = TAB \/ is_num a = true.
Proof.
  rewrite data_line_words. intros I. apply in_join in I as [E|(t & A & B)]; auto. right.
  destruct (pixel_words_num m p t A) as [_ N]. auto.
Qed.
Lemma before_hash_id t : ~ In "#"%char t -> before_hash t = t.
Proof.
  induction t as [|a t IH]; intros N; [reflexivity|]. cbn [before_hash].
  destruct (Ascii.eqb a "#") eqn:E; [apply Ascii.eqb_eq in E; subst; exfalso; apply N; now left|].
  f_equal. apply IH. intros I. apply N. now right.
Qed.

Definition out_cols : list (string * bool * nat) :=
  [("phase", true, 0%nat); ("ph1", false, 5%nat); ("phi", false, 6%nat); ("ph2", false, 7%nat);
   ("MAD", false, 8%nat); ("BC", true, 9%nat); ("BS", true, 10%nat)]%string.
Lemma titles_cols : columns 0 (words (join TAB column_titles)) = Ok out_cols.
Proof. reflexivity. Qed.

Definition out_row (m : map_in) (p : pix) : row :=
  let '(e1, e2, e3) := euler_angles (mi_quat m p) in
  [("phase", U8 (mi_phase m p)); ("ph1", F32 (dec3 (degrees e1))); ("phi", F32 (dec3 (degrees e2)));
   ("ph2", F32 (dec3 (degrees e3))); ("MAD", F32 0); ("BC", U8 (mi_bc m p)); ("BS", U8 0)]%string.

Lemma float_zero : py_float (lit "0.0000") = Ok 0%R.
Proof.
  replace (py_float (lit "0.0000")) with (Ok (IZR 0 + IZR 0 / 10 ^ 4)%R) by reflexivity. f_equal. lra.
Qed.
Lemma data_row m p : 0 <= mi_phase m p <= 255 -> 0 <= mi_bc m p <= 255 ->
  parse_row out_cols (data_line m p) = Ok (out_row m p).
Proof.
  intros P B. unfold parse_row. rewrite words_data. unfold pixel_words, out_row, out_cols.
  destruct (euler_angles (mi_quat m p)) as [[e1 e2] e3]. cbn [map_res nth_error parse_cell].
  rewrite !int_round_trip, !fixed_round_trip, float_zero. cbn [bind].
  replace ((0 <=? mi_phase m p) && (mi_phase m p <=? 255)) with true by (symmetry; apply andb_true_iff; rewrite !Z.leb_le; lia).
  replace ((0 <=? mi_bc m p) && (mi_bc m p <=? 255)) with true by (symmetry; apply andb_true_iff; rewrite !Z.leb_le; lia).
  reflexivity.
Qed.

Lemma filter_all {A} (f : A -> bool) l : (forall a, In a l -> f a = true) -> filter f l = l.
Proof.
  induction l as [|a l IH]; intros F; [reflexivity|]. cbn [filter]. rewrite (F a (or_introl eq_refl)). f_equal. apply IH.
  intros; apply F; now right.
Qed.
Lemma loadtxt_ok m pre : (forall p, In p (all_pix (mi_cols m) (mi_rows m)) -> 0 <= mi_phase m p <= 255 /\ 0 <= mi_bc m p <= 255) ->
  loadtxt out_cols (Z.of_nat (List.length pre)) (pre ++ map (data_line m) (all_pix (mi_cols m) (mi_rows m))) =
  Ok (map (out_row m) (all_pix (mi_cols m) (mi_rows m))).
Proof.
  intros F. unfold loadtxt. rewrite Nat2Z.id, skipn_app, skipn_all, Nat.sub_diag, app_nil_l. rewrite skipn_O.
  set (l := all_pix (mi_cols m) (mi_rows m)) in *. clearbody l.
  rewrite map_map. rewrite (map_ext _ (data_line m)).
  2:{ intros p. apply before_hash_id. intros I. apply data_char in I as [I|I]; discriminate. }
  rewrite filter_all.
  2:{ intros t I. apply in_map_iff in I as (p & <- & _). rewrite words_data.
      destruct (pixel_words m p) as [|w ws] eqn:E.
      - exfalso. unfold pixel_words in E. destruct (euler_angles _) as [[? ?] ?]. discriminate.
      - destruct (pixel_words_num m p w) as [N _]; [rewrite E; now left|]. destruct w; [congruence|reflexivity]. }
  induction l as [|p l IH]; [reflexivity|]. cbn [map map_res]. destruct (F p (or_introl eq_refl)) as [A B].
  rewrite data_row by auto. cbn [bind]. rewrite IH; [reflexivity|]. intros; apply F; now right.
Qed.

Lemma u8_rows m name f l : (forall p, lookup name (out_row m p) = Ok (U8 (f p))) ->
  u8_column name (map (out_row m) l) = Ok (map f l).
Proof.
  intros F. induction l as [|p l IH]; [reflexivity|]. unfold u8_column in *. cbn [map map_res]. rewrite F. cbn [bind].
  rewrite IH. reflexivity.
Qed.
Lemma f32_rows m name f l : (forall p, lookup name (out_row m p) = Ok (F32 (f p))) ->
  f32_column name (map (out_row m) l) = Ok (map f l).
Proof.
  intros F. induction l as [|p l IH]; [reflexivity|]. unfold f32_column in *. cbn [map map_res]. rewrite F. cbn [bind].
  rewrite IH. reflexivity.
Qed.
Lemma reshape_ok {A} (f : pix -> A) nx ny : 0 <= nx -> 0 <= ny ->
  reshape ny nx (map f (all_pix nx ny)) = Ok (map f (all_pix nx ny)).
Proof.
  intros X Y. unfold reshape. rewrite map_length. pose proof (all_pix_length nx ny X Y) as L.
  replace ((0 <=? ny) && (0 <=? nx) && (Z.of_nat (List.length (all_pix nx ny)) =? ny * nx)) with true; auto.
  symmetry. rewrite !andb_true_iff, !Z.leb_le, Z.eqb_eq. repeat split; auto. lia.
Qed.
Lemma zip3_map {A} (f g h : A -> R) l : zip3 (map f l) (map g l) (map h l) = map (fun a => (f a, g a, h a)) l.
Proof. induction l; cbn [map zip3]; congruence. Qed.

Definition euler_of (m : map_in) (p : pix) : R * R * R :=
  let '(e1, e2, e3) := euler_angles (mi_quat m p) in
  (radians (dec3 (degrees e1)), radians (dec3 (degrees e2)), radians (dec3 (degrees e3))).
Definition acq_of (m : map_in) : quat :=
  let '(a1, a2, a3) := euler_angles (mi_acq m) in
  let d x := (IZR (rint (degrees x * 10 ^ 4)) / 10 ^ 4 * PI / 180)%R in
  from_euler_angles (d a1) (d a2) (d a3).

Lemma text_lines m : (forall p, In p (mi_phases m) -> ~ In LF (pi_name p)) ->
  lines_of (ctf_text m) = header_lines m ++ map phase_line (mi_phases m) ++
    join TAB column_titles :: map (data_line m) (all_pix (mi_cols m) (mi_rows m)).
Proof.
  intros PH. unfold ctf_text. rewrite lines_unlines; [reflexivity|].
  intros l I. apply in_app_or in I as [I|I]; [apply (header_no_LF m); auto|].
  apply in_app_or in I as [I|I].
  { apply in_map_iff in I as (p & <- & I). apply phase_no_LF. auto. }
  cbn [app] in I. destruct I as [<-|I].
  { apply join_no; [discriminate|]. intros t I J. cbn in I.
    repeat (destruct I as [<-|I]); try destruct I; cbn in J; intuition discriminate. }
  apply in_map_iff in I as (p & <- & I). intros J. apply data_char in J as [J|J]; discriminate.
Qed.

Theorem load_written conv m : known_conv conv -> readable m ->
  exists os, Forall2 (fun p o => same_phase p o /\ ph_space (po_phase o) = 0 /\
      (pi_laue p = 11 -> ph_slip_systems (po_phase o) = None)) (mi_phases m) os /\
  let ps := all_pix (mi_cols m) (mi_rows m) in
  load_text conv (ctf_text m) =
  Ok (Loaded (mi_rows m, mi_cols m) (IZR (rint (mi_step m * 10 ^ 4)) / 10 ^ 4) (acq_of m) os
        (map (mi_bc m) ps) (map (fun _ => 0) ps) (map (fun _ => 0%R) ps) (map (mi_phase m) ps) (map (euler_of m) ps)).
Proof.
  intros K (RN & CN & NE & PH & PX).
  destruct (take_phases_ok conv (mi_phases m)
    (join TAB column_titles :: map (data_line m) (all_pix (mi_cols m) (mi_rows m))) K PH) as (os & T & S).
  exists os. split; [exact S|]. cbv zeta. unfold load_text. cbv zeta.
  rewrite text_lines.
  2:{ intros p I. destruct (PH p I) as [(_ & Q & _) _]. exact Q. }
  cbn [app]. rewrite (header_read conv m os _ _ T NE).
  unfold header_vars. destruct (euler_angles (mi_acq m)) as [[a1 a2] a3] eqn:EA. cbn [bind h_x h_y h_step h_acq].
  rewrite titles_cols. cbn [bind].
  replace (negb (distinct (map (fun c : string * bool * nat => fst (fst c)) out_cols))) with false by reflexivity.
  assert (IN : forall p, In p (all_pix (mi_cols m) (mi_rows m)) -> 0 <= mi_phase m p <= 255 /\ 0 <= mi_bc m p <= 255).
  { intros p I. apply PX. apply all_pix_In; auto. }
  assert (SK : 14 + Z.of_nat (List.length (mi_phases m)) =
     Z.of_nat (List.length (header_lines m ++ map phase_line (mi_phases m) ++ [join TAB column_titles]))).
  { rewrite !app_length, map_length. unfold header_lines. rewrite EA. cbn [List.length]. lia. }
  rewrite SK.
  replace (header_lines m ++ map phase_line (mi_phases m) ++ join TAB column_titles :: map (data_line m) (all_pix (mi_cols m) (mi_rows m)))
   with ((header_lines m ++ map phase_line (mi_phases m) ++ [join TAB column_titles]) ++ map (data_line m) (all_pix (mi_cols m) (mi_rows m)))
   by (rewrite <- !app_assoc; reflexivity).
  rewrite loadtxt_ok by exact IN. cbn [bind].
  set (fe := fun p => euler_angles (mi_quat m p)).
  rewrite (u8_rows m "BC" (mi_bc m)) by (intros p; unfold out_row; destruct (euler_angles (mi_quat m p)) as [[? ?] ?]; reflexivity).
  cbn [bind]. rewrite reshape_ok by auto. cbn [bind].
  rewrite (u8_rows m "BS" (fun _ => 0)) by (intros p; unfold out_row; destruct (euler_angles (mi_quat m p)) as [[? ?] ?]; reflexivity).
  cbn [bind]. rewrite reshape_ok by auto. cbn [bind].
  rewrite (f32_rows m "MAD" (fun _ => 0%R)) by (intros p; unfold out_row; destruct (euler_angles (mi_quat m p)) as [[? ?] ?]; reflexivity).
  cbn [bind]. rewrite reshape_ok by auto. cbn [bind].
  rewrite (u8_rows m "phase" (mi_phase m)) by (intros p; unfold out_row; destruct (euler_angles (mi_quat m p)) as [[? ?] ?]; reflexivity).
  cbn [bind]. rewrite reshape_ok by auto. cbn [bind].
  rewrite (f32_rows m "ph1" (fun p => dec3 (degrees (fst (fst (fe p))))))
    by (intros p; unfold fe, out_row; destruct (euler_angles (mi_quat m p)) as [[? ?] ?]; reflexivity).
  cbn [bind].
  rewrite (f32_rows m "phi" (fun p => dec3 (degrees (snd (fst (fe p))))))
    by (intros p; unfold fe, out_row; destruct (euler_angles (mi_quat m p)) as [[? ?] ?]; reflexivity).
  cbn [bind].
  rewrite (f32_rows m "ph2" (fun p => dec3 (degrees (snd (fe p)))))
    by (intros p; unfold fe, out_row; destruct (euler_angles (mi_quat m p)) as [[? ?] ?]; reflexivity).
  cbn [bind]. rewrite !map_map, zip3_map, reshape_ok by auto. cbn [bind].
  unfold acq_of. rewrite EA. do 2 f_equal. apply map_ext. intros p. unfold euler_of, fe.
  destruct (euler_angles (mi_quat m p)) as [[? ?] ?]. reflexivity.
Qed.

Lemma at_all_pix {A} (f : pix -> A) nx ny x y : 0 <= x < nx -> 0 <= y < ny ->
  at_pixel (map f (all_pix nx ny)) nx x y = Some (f (x, y)).
Proof.
  intros X Y. unfold at_pixel, all_pix. rewrite map_map.
  assert (B : 0 <= y * nx + x < nx * ny) by nia.
  assert (Z : forall n s k, (k < n)%nat -> nth_error (zseq s n) k = Some (s + Z.of_nat k)).
  { induction n as [|n IH]; intros s k L; [lia|]. destruct k as [|k]; cbn [zseq nth_error].
    - f_equal. lia.
    - rewrite IH by lia. f_equal. lia. }
  rewrite (map_nth_error _ _ _ (Z (Z.to_nat (nx * ny)) 0 (Z.to_nat (y * nx + x)) ltac:(lia))).
  f_equal. rewrite Z2Nat.id by lia. f_equal. change (0 + (y * nx + x)) with (flat nx (x, y)).
  apply (unflat_flat nx ny). unfold inside. cbn. lia.
Qed.
Lemma deg_rounded e : rounded_deg 3 e (radians (dec3 (degrees e))).
Proof.
  exists (dec3 (degrees e)). split; [|unfold radians; field].
  replace (degrees e) with (e * 180 / PI)%R by (unfold degrees, Rdiv; ring). apply fixed_rounded.
Qed.

Theorem written_same conv m : known_conv conv -> readable m ->
  exists l, load_text conv (ctf_text m) = Ok l /\ same_map m l /\
    l_acq l = acq_of m /\ Forall2 (fun p o => ph_space (po_phase o) = 0 /\
      (pi_laue p = 11 -> ph_slip_systems (po_phase o) = None)) (mi_phases m) (l_phases l).
Proof.
  intros K RD. destruct (load_written conv m K RD) as (os & S & E). cbv zeta in E.
  eexists. split; [exact E|]. destruct RD as (RN & CN & _ & _ & _).
  split; [|split; [reflexivity|]].
  - split; [reflexivity|]. split; [apply fixed_rounded|]. split.
    + cbn [l_phases]. clear E. induction S; constructor; tauto.
    + intros x y X Y. cbn [l_phase l_bc l_euler]. rewrite !at_all_pix by auto. split; [reflexivity|]. split; [reflexivity|].
      unfold euler_of. destruct (euler_angles (mi_quat m (x, y))) as [[e1 e2] e3].
      do 6 eexists. split; [reflexivity|]. split; [reflexivity|]. split; [|split]; apply deg_rounded.
  - cbn [l_phases]. clear E. induction S; constructor; tauto.
Qed.
