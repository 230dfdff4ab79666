(** C128: Oxford binary scans are loaded as written; which files a path stands for. *)
From Coq Require Import String Ascii Reals Lra.
From Coq Require Import List ZArith Bool Lia.
From Flocq Require Import IEEE754.BinarySingleNaN IEEE754.Binary IEEE754.Bits.
From Verif Require Import Py Grid Grid_Lemmas Quat_Model Quat_Spec Base_Model Crystal_Model CrystalMat_Proofs Text_Model Text_Proofs
  Ctf_Model Ctf_Spec Ctf_Proofs Io_Model Io_Spec IoText_Proofs IoBin_Proofs Io_Props Ang_Model Cpr_Model Cpr_Spec Cpr_Proofs.
From Verif Require FloodExt_Proofs EbsdLoad_Proofs Boundary_Model Boundary_Spec Double_Model Double_Spec Single_Model Single_Spec Single_Props.
Import ListNotations.
Open Scope Z_scope.

Lemma byte_text_read b : (forall z, In z b -> 0 <= z < 256) -> map code (byte_text b) = b.
Proof.
  intros B. unfold byte_text. rewrite map_map. induction b as [|z b IH]; [reflexivity|]. cbn [map]. rewrite code_of by (apply B; now left).
  f_equal. apply IH. intros; apply B; now right.
Qed.
Lemma scan_bytes_range s : loadable s -> forall z, In z (scan_bytes s) -> 0 <= z < 256.
Proof.
  intros (R0 & C0 & _ & _ & _ & _ & _ & BY) z I. unfold scan_bytes, crc_bytes in I. apply in_concat in I as (r & IR & I).
  apply in_map_iff in IR as (l & <- & IL). apply in_map_iff in IL as (p & <- & IP). apply all_pix_In in IP; auto. destruct (BY p IP) as (B0 & B1).
  apply in_concat in I as (f & IF & I). unfold pixel_record in IF. destruct IF as [<-|IF].
  - destruct I as [<-|[]]. lia.
  - apply in_map_iff in IF as (id & <- & _). unfold field_bytes in I. unfold id_width in I at 1. destruct (existsb (Z.eqb id) [7; 8; 10; 11]) eqn:W; cbn [Nat.eqb] in I.
    + destruct I as [<-|[]]. specialize (B1 id). assert (In id [7; 8; 10; 11]); [|lia]. apply existsb_exists in W as (x & J & E). apply Z.eqb_eq in E. now subst.
    + eapply le_range; eauto.
Qed.
Lemma plain_files path suf : plain_path path -> with_suffix path suf = Ok (path ++ suf).
Proof.
  intros (d & a & n & -> & D & NA & NS & ND). unfold with_suffix. rewrite parent_of; auto.
  2:{ intros [E|I]; [congruence|contradiction]. }
  cbn beta iota. rewrite plain_stem by auto. cbn [fst]. now rewrite <- app_assoc.
Qed.
Lemma dotted_files path e suf : plain_path path -> ~ In "."%char e -> ~ In "/"%char e -> e <> [] ->
  with_suffix (path ++ "."%char :: e) suf = Ok (path ++ suf).
Proof.
  intros (d & a & n & -> & D & NA & NS & ND) NE SE EE. unfold with_suffix. rewrite <- app_assoc. rewrite parent_of; auto.
  2:{ intros I. cbn [app In] in I. destruct I as [I|I]; [congruence|]. apply in_app_or in I as [I|I]; [contradiction|]. destruct I as [I|I]; [discriminate|contradiction]. }
  cbn beta iota. rewrite dotted_stem by auto. cbn [app fst]. now rewrite <- app_assoc.
Qed.

(** The two files of a scan, in any order of sections and entries, among any others, load as the scan. *)
Theorem C128_load : forall conv fs path notes secs s, known_conv conv -> plain_path path ->
  (forall t, In t notes -> ignored ";" t) -> (forall s, In s secs -> good_section s) -> (forall l, In l (cpr_lines notes secs) -> ~ In LF l) ->
  says secs s -> loadable s ->
  fs (path ++ lit ".cpr") = Some (unlines (cpr_lines notes secs)) -> fs (path ++ lit ".crc") = Some (byte_text (scan_bytes s)) ->
  exists m, load_pair conv fs path = Ok m /\ shows conv s m.
Proof.
  intros conv fs path notes secs s KC PP NO GS LF_ SA LO F1 F2.
  destruct (cpr_loads conv notes secs s KC NO GS SA LO) as (ps & acq & LC & FP & AC).
  pose proof (data_loads conv s (dec_value (sc_step s)) acq ps LO) as D. destruct (sc_acq s) as [[a b] c].
  destruct (D eq_refl AC FP) as (m & LD & SH). exists m. split; [|exact SH].
  unfold load_pair. rewrite !plain_files by auto. cbn [bind]. rewrite F1. rewrite lines_unlines by auto. rewrite LC. cbn [bind]. rewrite F2.
  rewrite byte_text_read by (now apply scan_bytes_range). exact LD.
Qed.
Print Assumptions C128_load.

(** An extension of the path does not matter: .cpr, .crc or any other. *)
Theorem C128_extension : forall conv fs path e, plain_path path -> ~ In "."%char e -> ~ In "/"%char e -> e <> [] ->
  load_pair conv fs (path ++ "."%char :: e) = load_pair conv fs path.
Proof. intros conv fs path e P N1 N2 N3. unfold load_pair. now rewrite !dotted_files, !plain_files. Qed.
Print Assumptions C128_extension.

(** Without data type, a path without extension, or with one of .cpr and .crc, is that of a binary scan. *)
Theorem C128_default : forall old conv fs path, plain_path path -> forall e, In e [[]; lit ".cpr"; lit ".crc"] ->
  load_file old conv None fs (path ++ e) = (do b <- load_pair conv fs path; Ok (BinMap b)).
Proof.
  intros old conv fs path P e I.
  assert (SU : suffix_of (path ++ e) = e).
  { destruct P as (d & a & n & -> & D & NA & NS & ND). unfold suffix_of. rewrite <- app_assoc, parent_of; auto.
    - cbn [snd]. destruct I as [<-|[<-|[<-|[]]]].
      + rewrite app_nil_r, plain_stem by auto. reflexivity.
      + change (lit ".cpr") with ("."%char :: lit "cpr"). rewrite dotted_stem; [reflexivity| |discriminate]. cbn. intuition discriminate.
      + change (lit ".crc") with ("."%char :: lit "crc"). rewrite dotted_stem; [reflexivity| |discriminate]. cbn. intuition discriminate.
    - intros J. cbn [app In] in J. destruct J as [J|J]; [congruence|]. apply in_app_or in J as [J|J]; [contradiction|].
      destruct I as [<-|[<-|[<-|[]]]]; cbn in J; intuition discriminate. }
  unfold load_file. rewrite SU. destruct I as [<-|[<-|[<-|[]]]]; cbn [ebsd_get_loader].
  - rewrite app_nil_r. reflexivity.
  - change (ebsd_get_loader None (lit ".cpr")) with (@Ok ebsd_loader OxfordBinary). cbn [bind]. change (lit ".cpr") with ("."%char :: lit "cpr").
    rewrite C128_extension; auto; try discriminate; cbn; intuition discriminate.
  - change (ebsd_get_loader None (lit ".crc")) with (@Ok ebsd_loader OxfordBinary). cbn [bind]. change (lit ".crc") with ("."%char :: lit "crc").
    rewrite C128_extension; auto; try discriminate; cbn; intuition discriminate.
Qed.
Print Assumptions C128_default.

(** The documentation of Map asks for the path without extension.  If the name has a point, what follows
    it is taken for an extension: "a/map_0.5um" loads "a/map_0.cpr", or nothing. *)
Theorem C128_point_refuted : forall conv fs path e, plain_path path -> ~ In "."%char e -> ~ In "/"%char e -> e <> [] ->
  fs (path ++ lit ".cpr") = None -> load_pair conv fs (path ++ "."%char :: e) = Err FileNotFoundError.
Proof. intros conv fs path e P N1 N2 N3 F. rewrite C128_extension by auto. unfold load_pair. rewrite plain_files by auto. cbn [bind]. now rewrite F. Qed.
Print Assumptions C128_point_refuted.
(** For text files the extension has to be given. *)
Theorem C128_text_refuted : forall old conv fs path d, In d [lit "OxfordText"; lit "EdaxAng"] ->
  fs path = None -> load_file old conv (Some d) fs path = Err FileNotFoundError.
Proof.
  intros old conv fs path d I F. unfold load_file.
  destruct I as [<-|[<-|[]]].
  - change (ebsd_get_loader (Some (lit "OxfordText")) (suffix_of path)) with (@Ok ebsd_loader OxfordText). cbn [bind]. unfold ctf_load. rewrite F. reflexivity.
  - change (ebsd_get_loader (Some (lit "EdaxAng")) (suffix_of path)) with (@Ok ebsd_loader EdaxAng). cbn [bind]. unfold ang_load. rewrite F. reflexivity.
Qed.
Print Assumptions C128_text_refuted.

(** Either file missing. *)
Theorem C128_missing : forall conv fs path, plain_path path -> fs (path ++ lit ".cpr") = None \/ fs (path ++ lit ".crc") = None ->
  forall m, load_pair conv fs path <> Ok m.
Proof.
  intros conv fs path P F m. unfold load_pair. rewrite !plain_files by auto. cbn [bind].
  destruct (fs (path ++ lit ".cpr")) as [t|]; [|discriminate]. destruct F as [F|F]; [discriminate|].
  destruct (load_cpr conv (lines_of t)) as [c|]; cbn [bind]; [|discriminate]. rewrite F. discriminate.
Qed.
Print Assumptions C128_missing.

(** How loading is refused: without a file name (the root directory, or no path at all), without a header
    or without data after a good header, and where a dictionary is asked for. *)
Theorem C128_refused : forall conv fs,
  load_pair conv fs [] = Err ValueError /\ load_pair conv fs (lit "/") = Err ValueError /\
  (forall path, plain_path path -> fs (path ++ lit ".cpr") = None -> load_pair conv fs path = Err FileNotFoundError) /\
  (forall path t m, plain_path path -> fs (path ++ lit ".cpr") = Some t -> load_cpr conv (lines_of t) = Ok m -> fs (path ++ lit ".crc") = None ->
     load_pair conv fs path = Err FileNotFoundError) /\
  (forall old path, load_file old conv (Some (lit "PythonDict")) fs path = Err TypeError).
Proof.
  intros conv fs. split; [reflexivity|]. split; [reflexivity|]. split; [|split].
  - intros path P F. unfold load_pair. rewrite !plain_files by auto. cbn [bind]. now rewrite F.
  - intros path t m P F L G. unfold load_pair. rewrite !plain_files by auto. cbn [bind]. rewrite F, L. cbn [bind]. now rewrite G.
  - intros old path. reflexivity.
Qed.
Print Assumptions C128_refused.

(** A header is loaded only if it has all of these keys. *)
Definition required : list (string * string) :=
  [("Job", "xCells"); ("Job", "yCells"); ("Job", "GridDistX"); ("Acquisition Surface", "Euler1"); ("Acquisition Surface", "Euler2");
   ("Acquisition Surface", "Euler3"); ("Phases", "Count"); ("Fields", "Count")]%string.
Theorem C128_required : forall conv notes secs m, (forall t, In t notes -> ignored ";" t) -> (forall s, In s secs -> good_section s) ->
  load_cpr conv (cpr_lines notes secs) = Ok m -> forall sec key, In (sec, key) required -> exists v, spec_value secs (lit sec) (lit key) = Some v.
Proof.
  intros conv notes secs m N G L sec key I. destruct (read_cpr_value notes secs N G) as (md & RD & _ & VALUE). unfold load_cpr in L. rewrite RD in L. cbn [bind] in L.
  assert (SK : forall sec key v, section_key md sec key = Ok v -> exists v, spec_value secs (lit sec) (lit key) = Some v).
  { intros se k v E. rewrite <- VALUE. unfold section_key, dkey in E. destruct (dget (lit se) md) as [d|]; cbn [bind] in E; [|discriminate].
    destruct (dget (lit k) d) as [w|]; [eauto|discriminate]. }
  assert (IK : forall A (e : res A) (k : A -> res cpr_meta), (do x <- e; k x) = Ok m -> exists a, e = Ok a /\ k a = Ok m).
  { intros A [a|x] k E; cbn [bind] in E; [eauto|discriminate]. }
  assert (IN : forall se k n, int_key md se k = Ok n -> exists v, spec_value secs (lit se) (lit k) = Some v).
  { intros se k n E. unfold int_key in E. destruct (section_key md se k) eqn:Q; [eauto|discriminate]. }
  assert (FN : forall se k n, float_key md se k = Ok n -> exists v, spec_value secs (lit se) (lit k) = Some v).
  { intros se k n E. unfold float_key in E. destruct (section_key md se k) eqn:Q; [eauto|discriminate]. }
  apply IK in L as (n1 & E1 & L). apply IK in L as (n2 & E2 & L). apply IK in L as (n3 & E3 & L). apply IK in L as (n4 & E4 & L).
  apply IK in L as (n5 & E5 & L). apply IK in L as (n6 & E6 & L). apply IK in L as (n7 & E7 & L). apply IK in L as (n8 & E8 & L). apply IK in L as (n9 & E9 & L).
  unfold required in I. repeat (destruct I as [I|I]; [injection I as <- <-; first [eapply IN; eassumption | eapply FN; eassumption | idtac]|]); [|destruct I].
  unfold cpr_layout in E9. destruct (edx_windows md) as [w|]; cbn [bind] in E9; [|discriminate].
  destruct (section_key md "Fields" "Count") as [v|x] eqn:Q; [eauto|]. destruct x; discriminate.
Qed.
Print Assumptions C128_required.

(** From files to grains: where no misorientation is within half a degree of the tolerance, the grains of
    the loaded scan are those of the Euler angles in the file, in exact arithmetic. *)
Definition euler_at (m : binary_map) (p : pix) : Single_Model.f32 * Single_Model.f32 * Single_Model.f32 :=
  nth (Z.to_nat (snd p * snd (bm_shape m) + fst p)) (bm_euler m) (BinarySingleNaN.B754_nan, BinarySingleNaN.B754_nan, BinarySingleNaN.B754_nan).
Definition phase_at_ (m : binary_map) (p : pix) : Z := nth (Z.to_nat (snd p * snd (bm_shape m) + fst p)) (bm_phase m) 0.
Definition stored_euler (s : scan) (p : pix) : Single_Model.f32 * Single_Model.f32 * Single_Model.f32 :=
  (single (sc_float s 3 p), single (sc_float s 4 p), single (sc_float s 5 p)).
Theorem C128_values : forall conv s m, shows conv s m -> forall p, inside (sc_cols s) (sc_rows s) p ->
  euler_at m p = stored_euler s p /\ phase_at_ m p = sc_phase s p.
Proof.
  intros conv s m (SH & _ & _ & _ & V & _) (x, y) IN. unfold inside in IN. cbn [fst snd] in IN. destruct (V x y) as (P & _ & _ & _ & E); [lia|lia|].
  unfold euler_at, phase_at_. rewrite SH. cbn [fst snd]. unfold at_pixel in *. split; [exact (nth_error_nth _ _ _ E)|exact (nth_error_nth _ _ _ P)].
Qed.
Print Assumptions C128_values.
Lemma bounds_ext_ W H g o o' f f' t : (0 <= W) -> (0 <= H) -> (forall p, inside W H p -> o p = o' p) -> (forall p, inside W H p -> f p = f' p) ->
  Boundary_Model.find_boundaries W H g o f t = Boundary_Model.find_boundaries W H g o' f' t.
Proof.
  intros W0 H0 EO EP. unfold Boundary_Model.find_boundaries, Boundary_Model.from_image.
  rewrite (EbsdLoad_Proofs.nonzero_ext W H (Boundary_Model.phase_x W f) (Boundary_Model.phase_x W f')) by (intros; eapply EbsdLoad_Proofs.phase_x_ext; eauto).
  rewrite (EbsdLoad_Proofs.nonzero_ext W H (Boundary_Model.phase_y H f) (Boundary_Model.phase_y H f')) by (intros; eapply EbsdLoad_Proofs.phase_y_ext; eauto).
  do 2 f_equal; apply EbsdLoad_Proofs.nonzero_ext; intros (x, y) I; unfold Boundary_Model.grain_bx, Boundary_Model.grain_by.
  - rewrite (EbsdLoad_Proofs.phase_x_ext W H f f' (x, y) EP I). f_equal. cbn [fst snd]. destruct (x <? W - 1) eqn:C; [|reflexivity].
    rewrite (EO (x, y) I), (EO (x + 1, y)); [reflexivity|]. unfold inside in *; cbn [fst snd] in *. lia.
  - rewrite (EbsdLoad_Proofs.phase_y_ext W H f f' (x, y) EP I). f_equal. cbn [fst snd]. destruct (y <? H - 1) eqn:C; [|reflexivity].
    rewrite (EO (x, y) I), (EO (x, y + 1)); [reflexivity|]. unfold inside in *; cbn [fst snd] in *. lia.
Qed.
Lemma grains_ext_ W H g o o' f f' t n k : (0 <= W) -> (0 <= H) -> (forall p, inside W H p -> o p = o' p) -> (forall p, inside W H p -> f p = f' p) ->
  Boundary_Model.find_boundaries_then_grains W H g o f t n k = Boundary_Model.find_boundaries_then_grains W H g o' f' t n k.
Proof.
  intros W0 H0 EO EP. unfold Boundary_Model.find_boundaries_then_grains. rewrite (bounds_ext_ W H g o o' f f' t) by auto. cbv zeta.
  destruct (Boundary_Model.bs_image W H _); cbn [bind]; [|reflexivity]. destruct (Boundary_Model.bs_image W H _); cbn [bind]; [|reflexivity].
  now apply FloodExt_Proofs.find_grains_ext.
Qed.
Theorem C128_grains : forall conv s m, shows conv s m -> (1 <= sc_cols s)%Z -> (1 <= sc_rows s)%Z ->
  forall dot_f arccos, (forall d p i, Double_Spec.any_order (dot_f d p i)) -> Double_Spec.good_arccos arccos ->
  forall cos_s sin_s, Single_Spec.good_trig cos_s cos -> Single_Spec.good_trig sin_s sin ->
  forall g tol, (forall p, inside (sc_cols s) (sc_rows s) p -> Single_Spec.some_angles (stored_euler s p)) ->
  BinarySingleNaN.is_finite tol = true -> (0 <= BinarySingleNaN.B2R tol <= 360)%R ->
  (forall k p, (k = 0 \/ k = 1)%Z -> inside (sc_cols s) (sc_rows s) p -> inside (sc_cols s) (sc_rows s) (Boundary_Spec.next_pix k p) ->
     (/ 2 < Rabs (Single_Spec.true_angle g (stored_euler s p) (stored_euler s (Boundary_Spec.next_pix k p)) - BinarySingleNaN.B2R tol))%R) ->
  forall num_phases min_size,
    Double_Model.grains_f dot_f arccos (snd (bm_shape m)) (fst (bm_shape m)) g (fun p => Single_Model.euler_quat cos_s sin_s (euler_at m p)) (phase_at_ m) tol num_phases min_size =
    Boundary_Model.find_boundaries_then_grains (sc_cols s) (sc_rows s) g (fun p => Single_Spec.true_orientation (stored_euler s p)) (sc_phase s) (BinarySingleNaN.B2R tol) num_phases min_size.
Proof.
  intros conv s m SH W1 H1 dot_f arccos DOT AC cos_s sin_s GC GS g tol SO FT RT CL np ms. pose proof (C128_values conv s m SH) as V.
  destruct SH as (SH & _). rewrite SH. cbn [fst snd].
  destruct (Single_Props.C127_grains dot_f arccos DOT AC cos_s sin_s GC GS (sc_cols s) (sc_rows s) g (euler_at m) (phase_at_ m) tol W1 H1) as (_ & E); auto.
  { intros p I. rewrite (proj1 (V p I)). now apply SO. }
  { intros k p K I1 I2. rewrite (proj1 (V _ I1)), (proj1 (V _ I2)). now apply CL. }
  cbv zeta in E. rewrite E. apply grains_ext_; [lia|lia| |].
  - intros p I. now rewrite (proj1 (V p I)).
  - intros p I. apply V, I.
Qed.
Print Assumptions C128_grains.

(** A scan of two pixels with a hexagonal and a cubic phase and one EDX window, whose fields are not in the
    usual order; its header has further sections, entries and comments. *)
Definition ex_scan : scan := Scan 1 2 (Dec 5 1) (Dec 90 0, Dec (-1250) 2, Dec 0 0)
  [ScanPhase (lit "Zirc-alloy4") 9 (Some 194) (Dec 32 1, Dec 32 1, Dec 515 2) (Dec 90 0, Dec 90 0, Dec 120 0);
   ScanPhase (lit "Cu") 11 None (Dec 361491 5, Dec 361491 5, Dec 361491 5) (Dec 90 0, Dec 90 0, Dec 90 0)]
  [lit "Fe"] [7; 3; 4; 5; 101; 6; 8; 11]
  (fun p => if fst p =? 0 then 1 else 2) (fun id p => id + fst p) (fun id p => b32_of_bits (1065353216 + id * 8388608 + fst p)).
Definition ex_entries (l : list (string * string)) : list cpr_item := map (fun e => Entry (lit (fst e)) (lit (snd e))) l.
Definition ex_header : list cpr_section :=
  [Section_ (lit "General") (ex_entries [("Version", "5.0"); ("Description", "")]);
   Section_ (lit "EDX Windows") (ex_entries [("Count", "1"); ("Window1", "Fe"); ("Low1", "12")]);
   Section_ (lit "Fields") (ex_entries [("Count", "8"); ("Field1", "7"); ("Field2", "3"); ("Field3", "4"); ("Field4", "5"); ("Field5", "101"); ("Field6", "6"); ("Field7", "8"); ("Field8", "11")]);
   Section_ (lit "Phases") (ex_entries [("Count", "2")]);
   Section_ (lit "Phase2") (ex_entries [("StructureName", "Cu"); ("LaueGroup", "11"); ("a", "3.61491"); ("b", "3.61491"); ("c", "3.61491"); ("alpha", "90"); ("beta", "90"); ("gamma", "90")]);
   Section_ (lit "Phase1") (ex_entries [("StructureName", "Zirc-alloy4"); ("a", "3.2"); ("b", "3.2"); ("c", "5.15"); ("alpha", "90"); ("beta", "90"); ("gamma", "120"); ("LaueGroup", "9"); ("SpaceGroup", "194")] ++ [Note (lit "; hexagonal")]);
   Section_ (lit "Job") (ex_entries [("Magnification", "200"); ("yCells", "1"); ("xCells", "2"); ("GridDistX", "0.5"); ("GridDistY", "0.5")]);
   Section_ (lit "Acquisition Surface") (ex_entries [("Euler1", "90"); ("Euler2", "-12.50"); ("Euler3", "0")])]%string.
Lemma ex_lengths : (/ 1000 <= dec_value (Dec 32 1) /\ / 1000 <= dec_value (Dec 515 2) /\ dec_value (Dec 32 1) <= 10 ^ 5)%R.
Proof. unfold dec_value. cbn [num places]. lra. Qed.
Example C128_met : known_conv "hkl" /\ plain_path (lit "data/map") /\ (forall t, In t [lit ""] -> ignored ";" t) /\ (forall s, In s ex_header -> good_section s) /\
  (forall l, In l (cpr_lines [lit ""] ex_header) -> ~ In LF l) /\ says ex_header ex_scan /\ loadable ex_scan /\
  List.length (scan_bytes ex_scan) = 48%nat.
Proof.
  split; [now left|]. split.
  { exists (lit "data/"), "m"%char, (lit "ap"). split; [reflexivity|]. split; [right; exists (lit "data"); reflexivity|]. split; [discriminate|].
    split; cbn; intuition discriminate. }
  split; [intros t [<-|[]]; left; reflexivity|].
  split.
  { assert (IT : forall k v, negb (existsb (Ascii.eqb "=") k) && negb (existsb (Ascii.eqb "=") v)
      && (match k with a :: _ => negb (is_ws a) && negb (Ascii.eqb a "[") && negb (Ascii.eqb a ";") | [] => true end)
      && (match rev v with a :: _ => negb (is_ws a) | [] => true end) = true -> good_item (Entry k v)).
    { intros k v E. repeat (apply andb_true_iff in E as [E ?]). apply negb_true_iff in E.
      assert (NI : forall t, existsb (Ascii.eqb "=") t = false -> ~ In "="%char t).
      { intros t T I. assert (existsb (Ascii.eqb "=") t = true); [|congruence]. apply existsb_exists. exists "="%char. split; auto. }
      split; [auto|]. split; [apply NI; now apply negb_true_iff|]. split.
      - intros a r ->. repeat (apply andb_true_iff in H0 as [H0 ?]). split; [now apply negb_true_iff|].
        split; apply Ascii.eqb_neq; now apply negb_true_iff.
      - intros a r ->. rewrite rev_app_distr in H. cbn [rev app] in H. now apply negb_true_iff. }
    intros s I. repeat (destruct I as [<-|I]; [split; [discriminate|]; intros i J; repeat (destruct J as [<-|J]; [first [apply IT; reflexivity | right; eexists; reflexivity]|]); destruct J|]).
    destruct I. }
  split.
  { assert (B : forallb (fun l => negb (existsb (Ascii.eqb LF) l)) (cpr_lines [lit ""] ex_header) = true) by (vm_compute; reflexivity).
    intros l I J. rewrite forallb_forall in B. specialize (B l I). apply negb_true_iff in B.
    assert (existsb (Ascii.eqb LF) l = true); [|congruence]. apply existsb_exists. exists LF. split; [exact J|apply Ascii.eqb_refl]. }
  split.
  { assert (PH : forall i p, nth_error (sc_phases ex_scan) i = Some p -> says_phase ex_header (Z.of_nat i + 1) p).
    { intros i p N. destruct i as [|[|i]]; [| |destruct i; discriminate]; injection N as <-; unfold says_phase; cbv zeta; cbn [sp_name sp_laue sp_space sp_lengths sp_angles option_map].
      all: split; [vm_compute; reflexivity|]; split; [vm_compute; reflexivity|]; split; [vm_compute; reflexivity|].
      all: split; (split; [vm_compute; reflexivity|]; split; vm_compute; reflexivity). }
    assert (FI : forall i id, nth_error (sc_fields ex_scan) i = Some id -> spec_value ex_header (lit "Fields") (lit "Field" ++ fmt_int (Z.of_nat i + 1)) = Some (fmt_int id)).
    { intros i id N. do 8 (destruct i as [|i]; [injection N as <-; vm_compute; reflexivity|]). destruct i; discriminate. }
    unfold says. cbv zeta. split; [vm_compute; reflexivity|]. split; [vm_compute; reflexivity|]. split; [vm_compute; reflexivity|].
    split; [split; [vm_compute; reflexivity|]; split; vm_compute; reflexivity|]. split; [vm_compute; reflexivity|]. split; [exact PH|].
    split; [|split; [vm_compute; reflexivity|exact FI]].
    right. split; [vm_compute; reflexivity|]. intros i t N. destruct i as [|i]; [|destruct i; discriminate]. injection N as <-. vm_compute. reflexivity. }
  split; [|vm_compute; reflexivity].
  unfold loadable, ex_scan. cbn [sc_rows sc_cols sc_phases sc_windows sc_fields sc_phase sc_byte].
  split; [lia|]. split; [lia|]. split.
  { intros p [<-|[<-|[]]]; [right|left; reflexivity]. split; [reflexivity|]. cbn [sp_lengths]. exact ex_lengths. }
  split; [repeat constructor; cbn; tauto|]. split; [repeat constructor; cbn; intuition discriminate|].
  split; [intros id I; unfold known_id; cbn in I |- *; lia|]. split; [intros id I; cbn in I |- *; tauto|].
  intros (x, y) IN. unfold inside in IN. cbn [fst snd] in *. split; [destruct (x =? 0); lia|]. intros id I. cbn [In] in I. lia.
Qed.
(** What is loaded of it. *)
Definition ex_files : files := fun p =>
  if txt_eqb p (lit "data/map.cpr") then Some (unlines (cpr_lines [lit ""] ex_header))
  else if txt_eqb p (lit "data/map.crc") then Some (byte_text (scan_bytes ex_scan)) else None.
Example C128_met_values : exists m, load_pair "hkl" ex_files (lit "data/map") = Ok m /\ bm_shape m = (1, 2) /\
  at_pixel (bm_phase m) 2 1 0 = Some 2 /\ at_pixel (bm_bs m) 2 1 0 = Some 9 /\ exists l, bm_edx m = [(lit "Fe", l)].
Proof.
  destruct C128_met as (KC & PP & NO & GS & LF_ & SA & LO & _).
  destruct (C128_load "hkl" ex_files (lit "data/map") [lit ""] ex_header ex_scan KC PP NO GS LF_ SA LO) as (m & L & SH).
  { unfold ex_files. replace (txt_eqb (lit "data/map" ++ lit ".cpr") (lit "data/map.cpr")) with true by (vm_compute; reflexivity). exact eq_refl. }
  { unfold ex_files. replace (txt_eqb (lit "data/map" ++ lit ".crc") (lit "data/map.cpr")) with false by (vm_compute; reflexivity).
    replace (txt_eqb (lit "data/map" ++ lit ".crc") (lit "data/map.crc")) with true by (vm_compute; reflexivity). exact eq_refl. }
 
  exists m. split; [exact L|]. destruct SH as (SH & _ & _ & _ & V & E). split; [exact SH|]. destruct (V 1 0) as (V1 & _ & V2 & _); [cbn; lia|cbn; lia|].
  split; [exact V1|]. split; [exact V2|]. change (filter (fun id => 101 <=? id) (sc_fields ex_scan)) with [101] in E. inversion E as [|? e ? l (N & _) F]; subst.
  inversion F; subst. destruct e as [t l]. cbn [fst] in N. exists l. injection N as <-. reflexivity.
Qed.
(** A name with a point. *)
Example C128_point_ex : forall conv fs, fs (lit "data/map_0.cpr") = None -> load_pair conv fs (lit "data/map_0.5um") = Err FileNotFoundError.
Proof.
  intros conv fs F. apply (C128_point_refuted conv fs (lit "data/map_0") (lit "5um")); auto; try discriminate; try (cbn; intuition discriminate).
  exists (lit "data/"), "m"%char, (lit "ap_0"). split; [reflexivity|]. split; [right; exists (lit "data"); reflexivity|]. split; [discriminate|]. split; cbn; intuition discriminate.
Qed.
