(** C57: text EBSD files. *)
From Coq Require Import String Ascii Reals Lra.
From Coq Require Import List ZArith Bool Lia.
Import ListNotations.
From Verif Require Import Py Grid Grid_Lemmas Quat_Model Quat_Spec Crystal_Model CrystalMat_Proofs CrystalData_Proofs
  Dic_Proofs Text_Model Text_Proofs Ctf_Model Ctf_Spec Ctf_Proofs CtfRot_Proofs.
Open Scope Z_scope.

Definition ctf_path (path : txt) : txt := path ++ lit ".ctf".

Lemma put_same fs path t : put fs path t path = Some t.
Proof. unfold put, txt_eqb. destruct (list_eq_dec ascii_dec path path); congruence. Qed.
Lemma save_inv fs path dt m fs' : save fs path dt m = Ok fs' ->
  fs (ctf_path path) = None /\
  fs' = put fs (ctf_path path) (ctf_text (MapIn (mi_rows m) (mi_cols m) (mi_step m) (Q4 1 0 0 0) (mi_phases m)
                       (mi_phase m) (mi_quat m) (mi_bc m))).
Proof.
  unfold save, write, ctf_path. intros E. destruct (get_writer dt); [|discriminate]. cbn [bind] in E.
  destruct (fs (path ++ lit ".ctf")); [discriminate|]. split; [auto|congruence].
Qed.

(** A map saved where no file was, loads as the same map. *)
Theorem C57_round_trip_partial : forall conv fs path m fs', known_conv conv -> readable m ->
  save fs path None m = Ok fs' ->
  exists l, ctf_load conv fs' (ctf_path path) = Ok l /\ same_map m l.
Proof.
  intros conv fs path m fs' K RD S. apply save_inv in S as [_ ->]. unfold ctf_load. rewrite put_same.
  set (m' := MapIn _ _ _ _ _ _ _ _). destruct (written_same conv m') as (l & E & SM & _); auto.
  exists l. auto.
Qed.
Print Assumptions C57_round_trip_partial.

Theorem C57_can_save : forall fs path m, fs (ctf_path path) = None -> exists fs', save fs path None m = Ok fs'.
Proof. intros fs path m N. unfold save, write. cbn [get_writer bind]. unfold ctf_path in N. rewrite N. eexists; reflexivity. Qed.

(** Orientations computed from the loaded Euler angles are those of the map up to
    0.0015 degrees. *)
Theorem C57_orientation : forall conv fs path m fs' l, known_conv conv -> readable m ->
  save fs path None m = Ok fs' -> ctf_load conv fs' (ctf_path path) = Ok l ->
  forall x y, 0 <= x < mi_cols m -> 0 <= y < mi_rows m -> unitq (mi_quat m (x, y)) ->
  exists f1 f2 f3, at_pixel (l_euler l) (mi_cols m) x y = Some (f1, f2, f3) /\
    (rot_angle (from_euler_angles f1 f2 f3) (mi_quat m (x, y)) <= 15 / 10000 * (PI / 180))%R.
Proof.
  intros conv fs path m fs' l K RD S L x y X Y U.
  destruct (C57_round_trip_partial conv fs path m fs' K RD S) as (l' & L' & SM).
  assert (l' = l) as -> by congruence. destruct SM as (_ & _ & _ & P).
  destruct (P x y X Y) as (_ & _ & e1 & e2 & e3 & f1 & f2 & f3 & E & A & R1 & R2 & R3).
  exists f1, f2, f3. split; auto. pose proof (rounded_rotation _ _ _ _ _ _ _ U E R1 R2 R3). lra.
Qed.
Print Assumptions C57_orientation.

(** Saving creates that one file, and never touches an existing one. *)
Theorem C57_one_file : forall fs path dt m fs', save fs path dt m = Ok fs' ->
  fs (ctf_path path) = None /\ (exists t, fs' (ctf_path path) = Some t) /\
  forall q, q <> ctf_path path -> fs' q = fs q.
Proof.
  intros fs path dt m fs' S. apply save_inv in S as [N ->]. split; auto. split; [eexists; apply put_same|].
  intros q Q. unfold put, txt_eqb. destruct (list_eq_dec ascii_dec q (ctf_path path)); congruence.
Qed.
Theorem C57_existing : forall fs path m t, fs (ctf_path path) = Some t ->
  save fs path None m = Err FileExistsError.
Proof. intros fs path m t N. unfold save, write. cbn [get_writer bind]. unfold ctf_path in N. now rewrite N. Qed.
Theorem C57_type : forall fs path d m, d <> lit "OxfordText" -> save fs path (Some d) m = Err ValueError.
Proof.
  intros fs path d m N. unfold save, get_writer, txt_eqb.
  destruct (list_eq_dec ascii_dec d (lit "OxfordText")); [contradiction|]. reflexivity.
Qed.
Theorem C57_missing : forall conv fs path, fs path = None -> ctf_load conv fs path = Err FileNotFoundError.
Proof. intros conv fs path N. unfold ctf_load. now rewrite N. Qed.
Print Assumptions C57_one_file.

(** Example: a 1 x 2 map of two phases. *)
Definition ex_map : map_in :=
  MapIn 1 2 (1 / 2)%R (Q4 1 0 0 0)
    [PhaseIn (lit "Ni superalloy") 11 (36 / 10, 36 / 10, 36 / 10)%R (PI / 2, PI / 2, PI / 2)%R;
     PhaseIn (lit "Ti") 9 (295 / 100, 295 / 100, 468 / 100)%R (PI / 2, PI / 2, 2 * PI / 3)%R]
    (fun p => fst p + 1) (fun _ => Q4 1 0 0 0) (fun p => 100 + fst p).
Example C57_ex : readable ex_map /\ known_conv "hkl" /\ unitq (mi_quat ex_map (1, 0)).
Proof.
  split; [|split].
  - split; [cbn; lia|]. split; [cbn; lia|]. split; [discriminate|]. split.
    + intros p [<-|[<-|[]]]; (split; [split; [|split]; cbn; intuition discriminate|]).
      * left. reflexivity.
      * right. split; [reflexivity|]. cbn [pi_lengths]. lra.
    + intros [x y] I. unfold inside in I. cbn [fst snd mi_phase mi_bc ex_map mi_cols mi_rows] in *. lia.
  - left. reflexivity.
  - unfold unitq. cbn. lra.
Qed.

(** The full statement fails: *)

(** a map without phases is written but cannot be read; *)
Theorem C57_no_phases_refuted : forall conv fs path m fs', mi_phases m = [] -> save fs path None m = Ok fs' ->
  ctf_load conv fs' (ctf_path path) = Err UnboundLocalError.
Proof.
  intros conv fs path m fs' N S. apply save_inv in S as [_ ->]. unfold ctf_load. rewrite put_same.
  set (m' := MapIn _ _ _ _ _ _ _ _). unfold load_text. rewrite text_lines; [|cbn [mi_phases m']; rewrite N; intros p []].
  replace (mi_phases m') with (@nil phase_in). cbn [map app]. rewrite header_no_phase; auto.
Qed.
Print Assumptions C57_no_phases_refuted.

(** a tab in a phase name shifts the fields; *)
Lemma tab_name_error conv laue lens angs :
  parse_phase conv (phase_line (PhaseIn (lit "a" ++ TAB :: lit "b") laue lens angs)) = Err ValueError.
Proof.
  destruct angs as [[al be] ga], lens as [[a b] c].
  assert (E : split_on TAB (phase_line (PhaseIn (lit "a" ++ TAB :: lit "b") laue (a, b, c) (al, be, ga))) =
    [fixed3 ";" (a, b, c); fixed3 ";" (al * 180 / PI, be * 180 / PI, ga * 180 / PI)%R; lit "a"; lit "b"; fmt_int laue; lit "0"; []; []; []]).
  { unfold phase_line. cbn [pi_angles pi_lengths pi_name pi_laue]. 
    change (join TAB [fixed3 ";" (a, b, c); fixed3 ";" (al * 180 / PI, be * 180 / PI, ga * 180 / PI)%R; lit "a" ++ TAB :: lit "b"; fmt_int laue; lit "0"; []; []; []])
      with (join TAB [fixed3 ";" (a, b, c); fixed3 ";" (al * 180 / PI, be * 180 / PI, ga * 180 / PI)%R; lit "a"; lit "b"; fmt_int laue; lit "0"; []; []; []]).
    apply split_join; [discriminate|]. intros t I.
    repeat (destruct I as [<-|I]); try destruct I; try (now intros []); try (apply fixed3_no; [reflexivity|discriminate]);
      try (apply int_no; reflexivity); cbn; intuition discriminate. }
  unfold parse_phase. rewrite E. cbn [item nth_error bind]. rewrite !fixed3_split. cbn [Base_Model.map_res].
  rewrite !fixed_round_trip. cbn [bind]. reflexivity.
Qed.
Theorem C57_tab_name_refuted : forall conv fs path m fs' laue lens angs ps,
  mi_phases m = PhaseIn (lit "a" ++ TAB :: lit "b") laue lens angs :: ps ->
  (forall p, In p ps -> plain_name (pi_name p)) -> save fs path None m = Ok fs' ->
  ctf_load conv fs' (ctf_path path) = Err ValueError.
Proof.
  intros conv fs path m fs' laue lens angs ps P PN S. apply save_inv in S as [_ ->]. unfold ctf_load. rewrite put_same.
  set (m' := MapIn _ _ _ _ _ _ _ _). unfold load_text. rewrite text_lines.
  2:{ cbn [mi_phases m']. rewrite P. intros p [<-|I]; [cbn; intuition discriminate|]. apply (PN p I). }
  erewrite header_bad_phase; [reflexivity|exact P|apply tab_name_error].
Qed.
Print Assumptions C57_tab_name_refuted.

(** the space group is not written, so a loaded cubic phase never has slip systems,
    even when the saved one had; *)
Theorem C57_slip_systems_refuted : forall conv fs path m fs', known_conv conv -> readable m ->
  save fs path None m = Ok fs' ->
  exists l, ctf_load conv fs' (ctf_path path) = Ok l /\
    Forall2 (fun p o => pi_laue p = 11 -> ph_slip_systems (po_phase o) = None) (mi_phases m) (l_phases l).
Proof.
  intros conv fs path m fs' K RD S. apply save_inv in S as [_ ->]. unfold ctf_load. rewrite put_same.
  set (m' := MapIn _ _ _ _ _ _ _ _). destruct (written_same conv m') as (l & E & _ & _ & F); auto.
  exists l. split; auto. cbn [mi_phases m'] in F. clear E. induction F; constructor; tauto.
Qed.
Theorem C57_slip_systems_had : forall conv a c, exists p gs, mk_phase conv 11 225 a c = Ok p /\ ph_slip_systems p = Some gs.
Proof. intros conv a c. destruct (phase_fcc conv a c) as (gs & _ & E). do 2 eexists. split; [exact E|reflexivity]. Qed.
Print Assumptions C57_slip_systems_refuted.

(** a step size below half of the last written decimal becomes 0. *)
Theorem C57_step_refuted : forall conv fs path m fs' l, known_conv conv -> readable m ->
  (0 < mi_step m < 1 / 20000)%R -> save fs path None m = Ok fs' ->
  ctf_load conv fs' (ctf_path path) = Ok l -> l_step l = 0%R.
Proof.
  intros conv fs path m fs' l K RD ST S L.
  destruct (C57_round_trip_partial conv fs path m fs' K RD S) as (l' & L' & SM).
  assert (l' = l) as -> by congruence. destruct SM as (_ & ((n & E) & C) & _). rewrite E in *.
  assert (n = 0) as ->; [|lra].
  assert (-1 < n < 1); [|lia]. unfold Rabs in C. split; apply lt_IZR; destruct (Rcase_abs _) in C; lra.
Qed.
Print Assumptions C57_step_refuted.

(** A line of data with too few columns, or with something else than a number in a column that is kept,
    is refused with one exception. *)
Theorem C57_row_refused : forall cols line e, parse_row cols line = Err e -> e = ValueError.
Proof.
  intros cols line e. unfold parse_row. cbv zeta.
  assert (PI_ : forall t e, py_int t = Err e -> e = ValueError).
  { intros t e'. unfold py_int. destruct (signed (strip t)) as [neg u]. destruct (parse_nat u); congruence. }
  assert (PF : forall t e, py_float t = Err e -> e = ValueError).
  { intros t e'. unfold py_float. destruct (signed (strip t)) as [neg u]. cbv zeta. intros H.
    match type of H with match ?v with _ => _ end = _ => destruct v; congruence end. }
  induction cols as [|((name, u8), i) cols IH]; cbn [Base_Model.map_res]; [discriminate|].
  destruct (nth_error (words line) i) as [t|]; [|cbn [bind]; congruence].
  unfold parse_cell. destruct u8.
  - destruct (py_int t) as [n|e'] eqn:P; cbn [bind]; [|intros H; apply (PI_ t); congruence].
    destruct ((0 <=? n) && (n <=? 255)); cbn [bind]; [|congruence].
    destruct (Base_Model.map_res _ cols) as [l|e']; cbn [bind]; [discriminate|]. intros H. apply IH. congruence.
  - destruct (py_float t) as [n|e'] eqn:P; cbn [bind]; [|intros H; apply (PF t); congruence].
    destruct (Base_Model.map_res _ cols) as [l|e']; cbn [bind]; [discriminate|]. intros H. apply IH. congruence.
Qed.
Example C57_row_ex : parse_row [("phase"%string, true, 0%nat); ("BC"%string, true, 9%nat)] (lit "1 0.5") = Err ValueError.
Proof. vm_compute. reflexivity. Qed.
Print Assumptions C57_row_refused.

(** A file that does not tell its step size is loaded, with a step size of zero. *)
Lemma no_step_header conv ls : (forall l, In l ls -> contains (lit "XStep") l = false) -> forall i h r,
  read_header conv i h ls = Ok r -> h_step (fst (fst (fst r))) = h_step h.
Proof.
  induction ls as [|line rest IH]; intros N i h r; cbn [read_header]; [discriminate|].
  rewrite (N line (or_introl eq_refl)). assert (N' : forall l, In l rest -> contains (lit "XStep") l = false) by (intros; apply N; now right).
  specialize (IH N').
  assert (STEP : forall (A : Type) (e : res A) (k : A -> res (hdr * list phase_out * txt * Z)),
    (forall a, k a = Ok r -> h_step (fst (fst (fst r))) = h_step h) -> (do x <- e; k x) = Ok r -> h_step (fst (fst (fst r))) = h_step h).
  { intros A [a|x] k H; cbn [bind]; [apply H|discriminate]. }
  destruct (contains (lit "XCells") line); [apply STEP; intros w; apply STEP; intros n E; exact (IH _ _ _ E)|].
  destruct (contains (lit "YCells") line); [apply STEP; intros w; apply STEP; intros n E; exact (IH _ _ _ E)|].
  destruct (contains (lit "AcqE1") line); [apply STEP; intros w; apply STEP; intros n; destruct (h_acq h) as [[a b] c]; intros E; exact (IH _ _ _ E)|].
  destruct (contains (lit "AcqE2") line); [apply STEP; intros w; apply STEP; intros n; destruct (h_acq h) as [[a b] c]; intros E; exact (IH _ _ _ E)|].
  destruct (contains (lit "AcqE3") line); [apply STEP; intros w; apply STEP; intros n; destruct (h_acq h) as [[a b] c]; intros E; exact (IH _ _ _ E)|].
  destruct (contains (lit "Phases") line); [|apply IH].
  apply STEP; intros w; apply STEP; intros n; apply STEP; intros q. destruct (snd q) as [|t l]; [discriminate|].
  destruct (n <=? 0); [discriminate|]. intros E. injection E as <-. reflexivity.
Qed.
Theorem C57_no_step : forall conv t l, (forall line, In line (lines_of t) -> contains (lit "XStep") line = false) ->
  load_text conv t = Ok l -> l_step l = 0%R.
Proof.
  intros conv t l N. unfold load_text. destruct (read_header conv 0 hdr0 (lines_of t)) as [[[[h ps] ti] sk]|] eqn:RH; cbn [bind]; [|discriminate].
  pose proof (no_step_header conv _ N _ _ _ RH) as E. cbn [fst h_step hdr0] in E.
  destruct (h_y h) as [ny|]; [|discriminate]. destruct (h_x h) as [nx|]; [|discriminate]. destruct (h_acq h) as [[a1 a2] a3].
  destruct (columns 0 (words ti)) as [cols|]; cbn [bind]; [|discriminate].
  destruct (negb _); [discriminate|].
  assert (STEP : forall (A : Type) (e : res A) (k : A -> res loaded),
    (forall a, k a = Ok l -> l_step l = 0%R) -> (do x <- e; k x) = Ok l -> l_step l = 0%R).
  { intros A [a|x] k H; cbn [bind]; [apply H|discriminate]. }
  do 13 (apply STEP; intros ?). intros F. injection F as <-. cbn [l_step]. exact E.
Qed.
Definition no_step_text : txt := unlines [lit "XCells 1"; lit "YCells 1"; lit "Phases 1";
  join TAB [lit "3;3;3"; lit "90;90;90"; lit "Cu"; lit "11"; lit "0"]; lit "Phase BC BS MAD Euler1 Euler2 Euler3"; lit "1 2 3 4 5 6 7"].
Example C57_no_step_met : (forall line, In line (lines_of no_step_text) -> contains (lit "XStep") line = false) /\
  exists l, load_text "hex" no_step_text = Ok l.
Proof.
  split.
  - vm_compute lines_of. intros line I. repeat (destruct I as [<-|I]; [reflexivity|]). destruct I.
  - unfold load_text.
    assert (E : lines_of no_step_text = [lit "XCells 1"; lit "YCells 1"; lit "Phases 1"; join TAB [lit "3;3;3"; lit "90;90;90"; lit "Cu"; lit "11"; lit "0"]; lit "Phase BC BS MAD Euler1 Euler2 Euler3"; lit "1 2 3 4 5 6 7"]) by reflexivity.
    rewrite E. clear E.
    set (pl := join TAB _). set (dl := lit "1 2 3 4 5 6 7"). set (tl := lit "Phase BC BS MAD Euler1 Euler2 Euler3").
    assert (P : exists o, parse_phase "hex" pl = Ok o).
    { unfold parse_phase. replace (split_on TAB pl) with [lit "3;3;3"; lit "90;90;90"; lit "Cu"; lit "11"; lit "0"] by reflexivity. cbn [item nth_error bind].
      replace (split_on ";" (lit "3;3;3")) with [lit "3"; lit "3"; lit "3"] by reflexivity. replace (split_on ";" (lit "90;90;90")) with [lit "90"; lit "90"; lit "90"] by reflexivity.
      replace (lit "3") with (fmt_int 3) by reflexivity.
      assert (F3 : exists x, py_float (fmt_int 3) = Ok x) by (eexists; reflexivity). assert (F9 : exists x, py_float (lit "90") = Ok x) by (eexists; reflexivity).
      destruct F3 as (x3 & F3), F9 as (x9 & F9). cbn [Base_Model.map_res]. rewrite F3, F9. cbn [bind app item nth_error].
      replace (py_int (lit "11")) with (@Ok Z 11) by reflexivity. replace (py_int (lit "0")) with (@Ok Z 0) by reflexivity. cbn [bind item nth_error].
      rewrite phase_other_cubic by lia. cbn [bind]. eexists; reflexivity. }
    destruct P as (o & P).
    assert (RH : read_header "hex" 0 hdr0 [lit "XCells 1"; lit "YCells 1"; lit "Phases 1"; pl; tl; dl] = Ok (Hdr (Some 1) (Some 1) 0 (0, 0, 0)%R, [o], tl, 5)).
    { rewrite (read_0 "hex" 0 hdr0 _ _ (lit "1") 1) by reflexivity. rewrite (read_1 "hex" _ _ _ _ (lit "1") 1) by reflexivity.
      rewrite (read_6 "hex" _ _ _ _ (lit "1") 1 [o] tl [dl]); try reflexivity. change (Z.to_nat 1) with 1%nat. cbn [take_phases]. rewrite P. reflexivity. }
    rewrite RH. cbn [bind h_y h_x h_acq].
    replace (columns 0 (words tl)) with (@Ok (list (string * bool * nat)) [("phase", true, 0%nat); ("BC", true, 1%nat); ("BS", true, 2%nat); ("MAD", false, 3%nat); ("ph1", false, 4%nat); ("phi", false, 5%nat); ("ph2", false, 6%nat)]%string) by reflexivity.
    cbn [bind]. replace (negb _) with false by reflexivity.
    eexists. reflexivity.
Qed.
Print Assumptions C57_no_step.
