(** C58-C60: reading text headers and binary records. *)
From Coq Require Import String Ascii Reals.
From Coq Require Import List ZArith Bool Lia.
Import ListNotations.
From Verif Require Import Py Base_Model Text_Model Text_Proofs Ctf_Model Ctf_Spec Io_Model Io_Spec IoText_Proofs IoBin_Proofs.
Open Scope Z_scope.

(** ** C58 *)

(** The lines before the first marker line are processed in order, without blank and
    comment lines; the marker line is the next to be read. *)
Theorem C58_lines_before_marker : forall V A (process : V -> txt -> res (V * A)) term comment exact v ls,
  exists before after kept,
    ls = before ++ after /\ (forall l, In l before -> ~ stops term exact l) /\
    (after = [] \/ exists l r, after = l :: r /\ stops term exact l) /\
    kept_lines comment before kept /\
    read_until term comment exact process v ls =
      match process_all process v kept with Ok (v', out) => Ok (v', out, after) | Err e => Err e end.
Proof.
  intros V A process term c exact v ls. revert v. induction ls as [|l ls IH]; intros v.
  - exists [], [], []. split; [reflexivity|]. split; [intros l []|]. split; [now left|]. split; [constructor|reflexivity].
  - cbn [read_until]. destruct (is_term term exact l) eqn:T.
    + exists [], (l :: ls), []. split; [reflexivity|]. split; [intros x []|].
      split; [right; exists l, ls; split; auto; now apply is_term_iff|]. split; [constructor|reflexivity].
    + assert (NT : ~ stops term exact l) by (rewrite <- is_term_iff; congruence).
      destruct (blank_or_comment c l) eqn:B.
      * destruct (IH v) as (b & a & k & E & N & AF & K & RU). exists (l :: b), a, k. split; [now rewrite E|].
        split; [intros x [<-|I]; auto|]. split; auto. split; auto. constructor; auto. now apply ignored_iff.
      * assert (NI : ~ ignored c l) by (rewrite <- ignored_iff; congruence).
        destruct (process v l) as [[v' a]|e] eqn:P; cbn [bind].
        -- destruct (IH v') as (b & af & k & E & N & AF & K & RU). exists (l :: b), af, (l :: k). split; [now rewrite E|].
           split; [intros x [<-|I]; auto|]. split; auto. split; [now apply kept_take|].
           cbn [fst snd]. rewrite RU. cbn [process_all]. rewrite P. destruct (process_all process v' k) as [[v'' out]|]; reflexivity.
        -- destruct (IH v) as (b & af & k & E & N & AF & K & _). exists (l :: b), af, (l :: k). split; [now rewrite E|].
           split; [intros x [<-|I]; auto|]. split; auto. split; [now apply kept_take|]. cbn [process_all]. rewrite P. reflexivity.
Qed.
Print Assumptions C58_lines_before_marker.

(** The four lines give back: which are kept depends on the lines alone. *)
Theorem C58_kept_unique : forall c ls ks ks', kept_lines c ls ks -> kept_lines c ls ks' -> ks = ks'.
Proof.
  intros c ls ks ks' K. revert ks'. induction K; intros ks' K'; inversion K'; subst; auto; try contradiction. f_equal. auto.
Qed.

Example C58_ex :
  read_until (lit "Phases") ";" false (fun n l => Ok (n + 1, List.length l)) 0
    [lit "Cells	10"; lit ""; lit "; Phases"; lit " x"; lit "  Phases	2"; lit "more"] =
  Ok (2, [8%nat; 2%nat], [lit "  Phases	2"; lit "more"]).
Proof. vm_compute. reflexivity. Qed.

(** ** C59 *)

(** With known field ids the layout has them all, in the order of the header, and the
    map shows at each pixel the bytes stored for it.  One unknown id at the end of the
    header does not matter if its field has 4 bytes. *)
Definition shown (d : crc) (id : Z) : list bytes :=
  if id =? 3 then c_ph1 d else if id =? 4 then c_phi d else if id =? 5 then c_ph2 d
  else if id =? 6 then c_mad d else if id =? 7 then c_bc d else c_bs d.

Lemma at_map_some {A B} (f : A -> B) l nx x y a : at_pixel l nx x y = Some a -> at_pixel (map f l) nx x y = Some (f a).
Proof. unfold at_pixel. apply map_nth_error. Qed.
Lemma crc_shown edx ids (tail : bool) rs ny nx : NoDup edx -> NoDup ids -> (forall id, In id ids -> known_id edx id) ->
  (forall id, In id [3; 4; 5; 6; 7; 8] -> In id ids) ->
  (forall r, In r rs -> map (@List.length Z) r = 1%nat :: map id_width ids ++ (if tail then [4%nat] else [])) ->
  0 <= ny -> 0 <= nx -> Z.of_nat (List.length rs) = ny * nx ->
  exists d, load_crc (fmt_of edx ids tail) ny nx (crc_bytes rs) = Ok d /\
    forall x y, 0 <= x < nx -> 0 <= y < ny -> exists r, at_pixel rs nx x y = Some r /\
      (forall b, at_pixel (c_phase d) nx x y = Some b <-> nth_error r 0 = Some b) /\
      forall id, In id [3; 4; 5; 6; 7; 8] -> exists b, at_pixel (shown d id) nx x y = Some b /\ stored ids rs nx x y id b.
Proof.
  intros E D K N F NY NX L. destruct (crc_loads edx ids tail rs ny nx E D K N F NY NX L) as (pos & P & LD).
  eexists. split; [exact LD|]. intros x y X Y.
  destruct (at_pixel rs nx x y) as [r|] eqn:R; [|unfold at_pixel in R; apply nth_error_None in R; nia].
  exists r. split; auto.
  assert (IR : In r rs) by (eapply nth_error_In; exact R).
  assert (LR : List.length r = S (List.length ids + if tail then 1 else 0)).
  { pose proof (F r IR) as FR. apply (f_equal (@List.length nat)) in FR. rewrite map_length in FR. cbn [List.length] in FR. rewrite app_length, map_length in FR. destruct tail; exact FR. }
  assert (NB : forall j, (j < List.length r)%nat -> nth_error r j = Some (nth_bytes j r)) by (intros; now apply nth_error_nth').
  split.
  - intros b. cbn [c_phase]. rewrite (at_map_some _ _ _ _ _ _ R), NB by (unfold bytes in *; lia). reflexivity.
  - intros id I. exists (nth_bytes (S (pos id)) r).
    assert (J : (pos id < List.length ids)%nat) by (apply nth_error_Some; rewrite P by exact I; discriminate).
    split.
    + repeat (destruct I as [<-|I]; [apply (at_map_some _ _ _ _ _ _ R)|]). destruct I.
    + exists (pos id), r. split; [apply P; exact I|]. split; auto. apply NB. unfold bytes in *. lia.
Qed.

Theorem C59_known_fields_partial : forall edx ids rs ny nx,
  NoDup edx -> NoDup ids -> (forall id, In id ids -> known_id edx id) -> (forall id, In id [3; 4; 5; 6; 7; 8] -> In id ids) ->
  (forall r, In r rs -> record_of ids r) -> 0 <= ny -> 0 <= nx -> Z.of_nat (List.length rs) = ny * nx ->
  exists fmt d, layout_of edx (map Ok ids) = Ok fmt /\ load_crc fmt ny nx (crc_bytes rs) = Ok d /\
    forall x y, 0 <= x < nx -> 0 <= y < ny -> exists r, at_pixel rs nx x y = Some r /\
      (forall b, at_pixel (c_phase d) nx x y = Some b <-> nth_error r 0 = Some b) /\
      forall id, In id [3; 4; 5; 6; 7; 8] -> exists b, at_pixel (shown d id) nx x y = Some b /\ stored ids rs nx x y id b.
Proof.
  intros edx ids rs ny nx E D K N F NY NX L. destruct (crc_shown edx ids false rs ny nx) as (d & LD & S); auto.
  { intros r I. rewrite app_nil_r. apply F, I. }
  exists (fmt_of edx ids false), d. split; [|auto]. rewrite layout_known by auto. unfold fmt_of. now rewrite app_nil_r.
Qed.
Print Assumptions C59_known_fields_partial.

Theorem C59_unknown_last : forall edx ids id rs ny nx,
  NoDup edx -> NoDup ids -> (forall id, In id ids -> known_id edx id) -> (forall id, In id [3; 4; 5; 6; 7; 8] -> In id ids) ->
  ~ known_id edx id ->
  (forall r, In r rs -> exists s b, r = s ++ [b] /\ record_of ids s /\ List.length b = 4%nat) ->
  0 <= ny -> 0 <= nx -> Z.of_nat (List.length rs) = ny * nx ->
  exists fmt d, layout_of edx (map Ok (ids ++ [id])) = Ok fmt /\ load_crc fmt ny nx (crc_bytes rs) = Ok d /\
    forall x y, 0 <= x < nx -> 0 <= y < ny -> exists r, at_pixel rs nx x y = Some r /\
      (forall b, at_pixel (c_phase d) nx x y = Some b <-> nth_error r 0 = Some b) /\
      forall id, In id [3; 4; 5; 6; 7; 8] -> exists b, at_pixel (shown d id) nx x y = Some b /\ stored ids rs nx x y id b.
Proof.
  intros edx ids id rs ny nx E D K N U F NY NX L. destruct (crc_shown edx ids true rs ny nx) as (d & LD & S); auto.
  { intros r I. destruct (F r I) as (s & b & -> & RO & LB). rewrite map_app, RO. cbn [map app]. now rewrite LB. }
  exists (fmt_of edx ids true), d. split; [|auto]. rewrite map_app. cbn [map]. now rewrite layout_unknown.
Qed.

(** The ids come from the Fields section. *)
Theorem C59_header : forall md fields edx ids,
  dget (lit "Fields") md = Some fields -> dget (lit "Count") fields = Some (fmt_int (Z.of_nat (List.length ids))) ->
  (forall i id, nth_error ids i = Some id -> dget (lit "Field" ++ fmt_int (Z.of_nat i + 1)) fields = Some (fmt_int id)) ->
  edx_windows md = Ok edx -> cpr_layout md = layout_of edx (map Ok ids).
Proof.
  intros md fields edx ids F C I E. unfold cpr_layout. rewrite E. cbn [bind]. unfold section_key, dkey.
  rewrite F. cbn [bind]. rewrite C. rewrite int_round_trip. cbn [bind]. unfold field_ids. rewrite Nat2Z.id. f_equal.
  assert (G : forall k s, (forall i id, nth_error k i = Some id -> nth_error ids (s + i) = Some id) ->
    map (fun i => do d <- dkey (lit "Fields") md; do t <- dkey (lit "Field" ++ fmt_int (i + 1)) d; py_int t)
      (zseq (Z.of_nat s) (List.length k)) = map Ok k).
  { induction k as [|id k IH]; intros s H; [reflexivity|]. cbn [List.length zseq map]. f_equal.
    - unfold dkey at 1. rewrite F. cbn [bind]. unfold dkey. rewrite (I s id); [cbn [bind]; apply int_round_trip|].
      specialize (H 0%nat id eq_refl). now rewrite Nat.add_0_r in H.
    - replace (Z.of_nat s + 1) with (Z.of_nat (S s)) by lia. apply IH. intros i x X.
      replace (S s + i)%nat with (s + S i)%nat by lia. apply H. exact X. }
  apply (G ids 0%nat). auto.
Qed.
(** Without an EDX section there are no windows; with one, window [i] is entry [i]. *)
Theorem C59_windows : forall md, (dget (lit "EDX Windows") md = None -> edx_windows md = Ok []) /\
  forall d names, dget (lit "EDX Windows") md = Some d -> dget (lit "Count") d = Some (fmt_int (Z.of_nat (List.length names))) ->
    (forall i t, nth_error names i = Some t -> dget (lit "Window" ++ fmt_int (Z.of_nat i + 1)) d = Some t) ->
    edx_windows md = Ok names.
Proof.
  intros md. unfold edx_windows. split; [intros ->; reflexivity|]. intros d names -> C W. unfold dkey at 1. rewrite C. cbn [bind].
  rewrite int_round_trip. cbn [bind]. rewrite Nat2Z.id.
  assert (G : forall k s, (forall i t, nth_error k i = Some t -> nth_error names (s + i) = Some t) ->
    map_res (fun i => dkey (lit "Window" ++ fmt_int i) d) (zseq (Z.of_nat s + 1) (List.length k)) = Ok k).
  { induction k as [|t k IH]; intros s H; [reflexivity|]. cbn [List.length zseq map_res].
    unfold dkey at 1. rewrite (W s t); [|specialize (H 0%nat t eq_refl); now rewrite Nat.add_0_r in H]. cbn [bind].
    replace (Z.of_nat s + 1 + 1) with (Z.of_nat (S s) + 1) by lia. rewrite IH; [reflexivity|].
    intros i x X. replace (S s + i)%nat with (s + S i)%nat by lia. apply H. exact X. }
  apply (G names 0%nat). auto.
Qed.

Definition ex_ids : list Z := [3; 4; 5; 6; 7; 8; 11; 101].
Definition ex_record (n : Z) : list bytes :=
  [[n]; [n; 1; 1; 1]; [n; 2; 2; 2]; [n; 3; 3; 3]; [n; 4; 4; 4]; [n + 5]; [n + 6]; [n + 7]; [n; 8; 8; 8]].
Example C59_ex : NoDup ex_ids /\ (forall id, In id ex_ids -> known_id [lit "Fe"] id) /\
  (forall id, In id [3; 4; 5; 6; 7; 8] -> In id ex_ids) /\ record_of ex_ids (ex_record 0) /\
  match layout_of [lit "Fe"] (map Ok ex_ids) with
  | Ok fmt =>
      match load_crc fmt 2 1 (crc_bytes [ex_record 0; ex_record 1]) with
      | Ok d => c_bs d = [[6]; [7]] /\ c_phase d = [[0]; [1]]
      | Err _ => False
      end
  | Err _ => False
  end.
Proof.
  split; [repeat constructor; cbn; intros H; repeat (destruct H as [H|H]; [discriminate|]); auto|].
  split; [intros id I; unfold known_id; cbn in I |- *; lia|]. split; [intros id I; cbn in I |- *; tauto|].
  split; [reflexivity|]. vm_compute. split; reflexivity.
Qed.

(** An unknown id takes all later fields out of the layout. *)
Theorem C59_unknown_drops : forall edx ids id later, (forall id, In id ids -> known_id edx id) -> ~ known_id edx id ->
  layout_of edx (map Ok (ids ++ id :: later)) = layout_of edx (map Ok (ids ++ [id])).
Proof.
  intros edx ids id later K U. rewrite !map_app. cbn [map]. rewrite !layout_unknown by auto. reflexivity.
Qed.
Theorem C59_unknown_refuted :
  ~ known_id [] 99 /\
  (exists fmt, layout_of [] (map Ok [3; 4; 5; 99; 6; 7; 8]) = Ok fmt /\ forall b, load_crc fmt 1 1 (7 :: repeat b 18) = Err ValueError) /\
  (** Two pixels of 19 bytes: phase, four floats, two bytes, an unknown float, a byte. *)
  (let r n := [[n]; [n; 1; 1; 1]; [n; 2; 2; 2]; [n; 3; 3; 3]; [n; 4; 4; 4]; [n + 5]; [n + 6]; [n; 8; 8; 8]; [n + 7]] in
   exists fmt d, layout_of [] (map Ok [3; 4; 5; 6; 7; 8; 99; 10]) = Ok fmt /\
     load_crc fmt 1 2 (crc_bytes [r 0; r 100]) = Ok d /\ c_phase d = [[0]; [7]] /\ c_bc d = [[5]; [4]]).
Proof.
  split; [unfold known_id; cbn; lia|]. split.
  - eexists. split; [reflexivity|]. intros b. vm_compute. reflexivity.
  - eexists. eexists. split; [reflexivity|]. split; [vm_compute; reflexivity|]. split; reflexivity.
Qed.
(** Without a number of fields, or with the first field missing, reading ends with an
    unbound variable. *)
Theorem C59_no_count : forall md edx fields, edx_windows md = Ok edx -> dget (lit "Fields") md = Some fields ->
  dget (lit "Count") fields = None -> cpr_layout md = Err UnboundLocalError.
Proof. intros md edx fields E F C. unfold cpr_layout. rewrite E. cbn [bind]. unfold section_key, dkey. rewrite F. cbn [bind]. now rewrite C. Qed.
Print Assumptions C59_unknown_refuted.

(** So it does if the first field is missing; a later missing field is taken for an unknown one. *)
Theorem C59_no_field : forall md edx fields n, edx_windows md = Ok edx -> dget (lit "Fields") md = Some fields ->
  dget (lit "Count") fields = Some (fmt_int n) -> 1 <= n -> dget (lit "Field1") fields = None -> cpr_layout md = Err UnboundLocalError.
Proof.
  intros md edx fields n E F C N K. unfold cpr_layout. rewrite E. cbn [bind]. unfold section_key, dkey. rewrite F. cbn [bind]. rewrite C.
  rewrite int_round_trip. cbn [bind]. unfold field_ids. destruct (Z.to_nat n) as [|k] eqn:Q; [lia|]. cbn [zseq map]. unfold layout_of.
  unfold dkey at 1. rewrite F. cbn [bind]. unfold dkey at 1. change (lit "Field" ++ fmt_int (0 + 1)) with (lit "Field1"). rewrite K. reflexivity.
Qed.
Example C59_no_field_ex : let md := [(lit "Fields", [(lit "Count", lit "3"); (lit "Field2", lit "4")])] in
  edx_windows md = Ok [] /\ lit "3" = fmt_int 3 /\ cpr_layout md = Err UnboundLocalError.
Proof. vm_compute. repeat split; reflexivity. Qed.
Print Assumptions C59_no_field.

(** ** C60 *)

(** Every key of every section, with the text after '='. *)
Theorem C60_values_partial : forall notes secs, (forall t, In t notes -> ignored ";" t) -> (forall s, In s secs -> good_section s) ->
  exists md, read_cpr (cpr_lines notes secs) = Ok md /\
    (forall name, dget name md = None <-> spec_section secs name = None) /\
    forall name key, match dget name md with Some d => dget key d | None => None end = spec_value secs name key.
Proof. exact read_cpr_value. Qed.
Print Assumptions C60_values_partial.

(** Distinct names and keys: nothing is lost. *)
Theorem C60_every_key : forall notes secs s k v, (forall t, In t notes -> ignored ";" t) -> (forall s, In s secs -> good_section s) ->
  NoDup (map sec_name secs) -> In s secs ->
  NoDup (map (fun i => match i with Entry k _ => Some k | Note _ => None end) (filter (fun i => match i with Entry _ _ => true | Note _ => false end) (sec_items s))) ->
  In (Entry k v) (sec_items s) ->
  exists md d, read_cpr (cpr_lines notes secs) = Ok md /\ dget (sec_name s) md = Some d /\ dget k d = Some v.
Proof.
  intros notes secs s k v N G DS IS DK IK. destruct (read_cpr_value notes secs N G) as (md & RD & NN & VV).
  assert (SS : spec_section secs (sec_name s) = Some (sec_items s)).
  { unfold spec_section. destruct (find _ (rev secs)) as [s'|] eqn:F.
    - apply find_some in F as [I E]. apply txt_eqb_eq in E. apply in_rev in I. cbn [option_map]. f_equal. f_equal.
      clear - DS IS I E. induction secs as [|a secs IH]; [destruct IS|]. cbn [map] in DS. inversion DS; subst.
      destruct IS as [->|IS], I as [->|I]; auto.
      + exfalso. apply H1. rewrite <- E. now apply in_map.
      + exfalso. apply H1. rewrite E. now apply in_map.
    - exfalso. pose proof (find_none _ _ F s ltac:(now apply in_rev in IS)) as H. cbn beta in H. rewrite txt_eqb_refl in H. discriminate. }
  assert (SE : spec_entry k (sec_items s) = Some v).
  { unfold spec_entry. destruct (find _ (rev (sec_items s))) as [i|] eqn:F.
    - apply find_some in F as [I E]. destruct i as [k' v'|t]; [|discriminate]. apply txt_eqb_eq in E. subst k'. apply in_rev in I. f_equal.
      clear - DK IK I. induction (sec_items s) as [|a l IH]; [destruct IK|]. destruct IK as [->|IK], I as [EI|I].
      + congruence.
      + cbn [filter map] in DK. inversion DK; subst. exfalso. apply H1. apply in_map_iff. exists (Entry k v'). split; auto. apply filter_In. auto.
      + subst a. cbn [filter map] in DK. inversion DK; subst. exfalso. apply H1. apply in_map_iff. exists (Entry k v). split; auto. apply filter_In. auto.
      + apply IH; auto. cbn [filter] in DK. destruct a; [cbn [map] in DK; now inversion DK|auto].
    - exfalso. pose proof (find_none _ _ F (Entry k v) ltac:(now apply in_rev in IK)) as H. cbn beta iota in H. rewrite txt_eqb_refl in H. discriminate. }
  exists md. specialize (VV (sec_name s) k). unfold spec_value in VV. rewrite SS, SE in VV.
  destruct (dget (sec_name s) md) as [d|] eqn:D; [|discriminate]. exists d. auto.
Qed.
Print Assumptions C60_every_key.

Theorem C60_ends : forall ls, read_cpr ls <> Err OutOfFuel.
Proof. exact read_cpr_fuel. Qed.

Definition ex_secs : list cpr_section :=
  [Section_ (lit "General") [Entry (lit "Version") (lit "5.0"); Note (lit "; a note"); Entry (lit "Date") (lit "1 Jan [x]")];
   Section_ (lit "Job") [Entry (lit "xCells") (lit "10"); Note []; Entry (lit "Empty") []];
   Section_ (lit "Phase1") [Entry (lit "a") (lit "3.6")]].
Example C60_ex : (forall t, In t [lit ""; lit ";x"] -> ignored ";" t) /\ (forall s, In s ex_secs -> good_section s) /\
  match read_cpr (cpr_lines [lit ""; lit ";x"] ex_secs) with
  | Ok md => match dget (lit "General") md with Some d => dget (lit "Date") d = Some (lit "1 Jan [x]") | None => False end
  | Err _ => False
  end.
Proof.
  assert (Q : forall t : txt, (forall a, In a t -> is_ws a = false) -> forall a r, t = r ++ [a] -> is_ws a = false).
  { intros t F a r ->. apply F, in_or_app. right. now left. }
  assert (IT : forall k v, negb (existsb (Ascii.eqb "=") k) && negb (existsb (Ascii.eqb "=") v)
      && (match k with a :: _ => negb (is_ws a) && negb (Ascii.eqb a "[") && negb (Ascii.eqb a ";") | [] => true end)
      && (match rev v with a :: _ => negb (is_ws a) | [] => true end) = true -> good_item (Entry k v)).
  { intros k v E. repeat (apply andb_true_iff in E as [E ?]). apply negb_true_iff in E.
    assert (NI : forall t, existsb (Ascii.eqb "=") t = false -> ~ In "="%char t).
    { intros t T I. assert (existsb (Ascii.eqb "=") t = true); [|congruence]. apply existsb_exists. exists "="%char. split; auto. }
    split; [auto|]. split; [apply NI; now apply negb_true_iff|]. split.
    - intros a r ->. repeat (apply andb_true_iff in H0 as [H0 ?]). split; [now apply negb_true_iff|].
      split; apply Ascii.eqb_neq; now apply negb_true_iff.
    - intros a r ->. rewrite rev_app_distr in H. cbn [rev app] in H. now apply negb_true_iff. }
  split; [|split].
  - intros t [<-|[<-|[]]]; [left; reflexivity|right; exists (lit "x"); reflexivity].
  - intros s I. repeat (destruct I as [<-|I]; [split; [discriminate|]; intros i J; repeat (destruct J as [<-|J]; [first [apply IT; reflexivity | right; eexists; reflexivity | left; reflexivity]|]); destruct J|]).
    destruct I.
  - vm_compute. reflexivity.
Qed.

(** A value with '=' in it is dropped with its key. *)
Theorem C60_equals_refuted : exists md d, read_cpr [lit "[Job]"; lit "xCells=10"; lit "Note=a=b"] = Ok md /\
  dget (lit "Job") md = Some d /\ dget (lit "xCells") d = Some (lit "10") /\ dget (lit "Note") d = None.
Proof. eexists. eexists. split; [vm_compute; reflexivity|]. split; [reflexivity|]. split; reflexivity. Qed.
(** Text before the first section is refused. *)
Theorem C60_no_section : forall l rest, ~ ignored ";" l -> (forall r, strip l <> "["%char :: r) ->
  read_cpr (l :: rest) = Err AttributeError.
Proof.
  intros l rest NI NB. unfold read_cpr. cbn [List.length cpr_groups].
  destruct (blank_or_comment ";" l) eqn:B; [apply ignored_iff in B; contradiction|].
  unfold group_name. destruct (strip l) as [|a t] eqn:ST; [reflexivity|].
  destruct (Ascii.eqb a "[") eqn:E; [|reflexivity]. apply Ascii.eqb_eq in E. subst a. exfalso. exact (NB t eq_refl).
Qed.
Print Assumptions C60_equals_refuted.
