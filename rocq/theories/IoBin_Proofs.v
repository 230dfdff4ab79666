(** Record layouts and binary records. *)
From Coq Require Import String Ascii Reals.
From Coq Require Import List ZArith Bool Lia.
Import ListNotations.
From Verif Require Import Py Base_Model Text_Model Ctf_Model Ctf_Spec Io_Model Io_Spec IoText_Proofs.
Open Scope Z_scope.

Definition base_id (id : Z) : field * kind :=
  if id =? 3 then (Ph1, Float) else if id =? 4 then (Phi, Float) else if id =? 5 then (Ph2, Float)
  else if id =? 6 then (MAD, Float) else if id =? 7 then (BC, Byte) else if id =? 8 then (BS, Byte)
  else if id =? 10 then (NumBands, Byte) else if id =? 11 then (AFI, Byte) else (IB6, Float).
Definition known_field (edx : list txt) (id : Z) : field * kind :=
  if 101 <=? id then (Edx (nth (Z.to_nat (id - 101)) edx []), Float) else base_id id.

Lemma find_known edx id : known_id edx id -> find_field edx id = Some (known_field edx id).
Proof.
  intros [I|R].
  - unfold find_field, known_field. repeat (destruct I as [<-|I]; [reflexivity|]). destruct I.
  - unfold find_field, known_field. replace (101 <=? id) with true by (symmetry; apply Z.leb_le; lia).
    rewrite (nth_error_nth' edx []) by lia. reflexivity.
Qed.
Lemma find_unknown edx id : ~ known_id edx id -> find_field edx id = None.
Proof.
  intros N. unfold find_field. destruct (Z.leb_spec 101 id) as [L|L].
  - destruct (nth_error edx (Z.to_nat (id - 101))) as [t|] eqn:E.
    + exfalso. apply N. right. assert (Z.to_nat (id - 101) < List.length edx)%nat by (apply nth_error_Some; congruence). lia.
    + unfold base_fields. repeat (match goal with |- context[id =? ?k] => destruct (Z.eqb_spec id k); [lia|] end). reflexivity.
  - unfold base_fields. repeat (match goal with |- context[id =? ?k] => destruct (Z.eqb_spec id k) as [->|?]; [exfalso; apply N; left; cbn; tauto|] end). reflexivity.
Qed.
Lemma known_width edx id : known_id edx id -> width (snd (known_field edx id)) = id_width id.
Proof.
  intros [I|R].
  - repeat (destruct I as [<-|I]; [reflexivity|]). destruct I.
  - unfold known_field. replace (101 <=? id) with true by (symmetry; apply Z.leb_le; lia). cbn [snd width].
    unfold id_width. replace (existsb (Z.eqb id) [7; 8; 10; 11]) with false; auto. symmetry.
    cbn [existsb]. rewrite !orb_false_iff, !Z.eqb_neq. lia.
Qed.

Lemma loop_known edx ids rest : forall seen acc, (forall id, In id ids -> known_id edx id) ->
  field_loop edx (map Ok ids ++ rest) seen acc =
  field_loop edx rest (match ids with [] => seen | _ => true end) (acc ++ map (known_field edx) ids).
Proof.
  induction ids as [|id ids IH]; intros seen acc K; cbn [map app field_loop].
  - now rewrite app_nil_r.
  - rewrite find_known by (apply K; now left). rewrite IH by (intros; apply K; now right).
    rewrite <- app_assoc. cbn [app]. destruct ids; reflexivity.
Qed.
Theorem layout_known edx ids : (forall id, In id ids -> known_id edx id) ->
  layout_of edx (map Ok ids) = Ok ((Phase8, Byte) :: map (known_field edx) ids).
Proof.
  intros K. unfold layout_of. rewrite <- (app_nil_r (map Ok ids)), loop_known by auto. reflexivity.
Qed.
Theorem layout_unknown edx ids id rest : (forall id, In id ids -> known_id edx id) -> ~ known_id edx id ->
  layout_of edx (map Ok ids ++ Ok id :: rest) = Ok ((Phase8, Byte) :: map (known_field edx) ids ++ [(Unknown 1, Float)]).
Proof.
  intros K N. unfold layout_of. rewrite loop_known by auto. cbn [field_loop]. rewrite find_unknown by auto. reflexivity.
Qed.

(** *** Records *)
Definition fits (fmt : list (field * kind)) (r : list bytes) : Prop :=
  map (@List.length Z) r = map (fun f => width (snd f)) fmt.
Lemma fits_size fmt : forall r, fits fmt r -> List.length (concat r) = rec_size fmt.
Proof.
  induction fmt as [|[f k] fmt IH]; intros [|b r] F; try discriminate; [reflexivity|].
  injection F as B F. cbn [concat rec_size fold_right]. rewrite app_length, B. f_equal. apply IH. exact F.
Qed.
Lemma cut_fits fmt : forall r, fits fmt r -> cut fmt (concat r) = combine (map fst fmt) r.
Proof.
  induction fmt as [|[f k] fmt IH]; intros [|b r] F; try discriminate; [reflexivity|].
  injection F as B F. cbn [concat cut map combine fst]. cbn [snd] in B. rewrite <- B.
  rewrite firstn_app, Nat.sub_diag, firstn_all, firstn_O, app_nil_r.
  rewrite skipn_app, Nat.sub_diag, skipn_all, skipn_O. cbn [app]. f_equal. apply IH. exact F.
Qed.
Lemma records_length fmt rs : (forall r, In r rs -> fits fmt r) ->
  List.length (crc_bytes rs) = (List.length rs * rec_size fmt)%nat.
Proof.
  intros F. unfold crc_bytes. induction rs as [|r rs IH]; [reflexivity|]. cbn [map concat List.length Nat.mul].
  rewrite app_length, (fits_size fmt) by (apply F; now left). rewrite IH by (intros; apply F; now right). reflexivity.
Qed.
Theorem read_fits fmt rs : (0 < rec_size fmt)%nat -> (forall r, In r rs -> fits fmt r) ->
  read_records fmt (crc_bytes rs) = map (fun r => combine (map fst fmt) r) rs.
Proof.
  intros P F. unfold read_records. rewrite (records_length fmt) by auto. rewrite Nat.div_mul by lia.
  induction rs as [|r rs IH]; [reflexivity|]. cbn [List.length fromfile map]. unfold crc_bytes. cbn [map concat].
  pose proof (fits_size fmt r (F r (or_introl eq_refl))) as Sz. rewrite <- Sz.
  rewrite firstn_app, Nat.sub_diag, firstn_all, firstn_O, app_nil_r.
  rewrite skipn_app, Nat.sub_diag, skipn_all, skipn_O. cbn [app]. rewrite cut_fits by (apply F; now left).
  f_equal. apply IH. intros; apply F; now right.
Qed.

(** *** Fields *)
Lemma field_eqb_eq f g : field_eqb f g = true <-> f = g.
Proof.
  split.
  - destruct f, g; cbn [field_eqb]; try discriminate; auto; intros E.
    + apply txt_eqb_eq in E. congruence.
    + apply Z.eqb_eq in E. congruence.
  - intros ->. destruct g; cbn [field_eqb]; auto; [apply txt_eqb_refl | apply Z.eqb_refl].
Qed.
Lemma fields_distinct_nodup l : NoDup l -> fields_distinct l = true.
Proof.
  induction 1 as [|f l N D IH]; [reflexivity|]. cbn [fields_distinct]. rewrite IH, andb_true_r, negb_true_iff.
  destruct (existsb (field_eqb f) l) eqn:E; auto. exfalso. apply existsb_exists in E as (g & I & E).
  apply field_eqb_eq in E. subst. auto.
Qed.
Lemma field_of_nth l : NoDup l -> forall j f (r : list bytes) b, nth_error l j = Some f -> nth_error r j = Some b ->
  field_of f (combine l r) = Ok b.
Proof.
  induction 1 as [|g l N D IH]; intros j f r b L R; [destruct j; discriminate|].
  destruct r as [|c r]; [destruct j; discriminate|]. destruct j as [|j]; cbn [nth_error] in *.
  - injection L as ->. injection R as ->. cbn [combine field_of].
    replace (field_eqb f f) with true by (symmetry; now apply field_eqb_eq). reflexivity.
  - cbn [combine field_of]. destruct (field_eqb g f) eqn:E.
    + apply field_eqb_eq in E. subst. exfalso. apply N. eapply nth_error_In; eauto.
    + eauto.
Qed.

Lemma base_id_inj i j : In i [3; 4; 5; 6; 7; 8; 10; 11; 12] -> In j [3; 4; 5; 6; 7; 8; 10; 11; 12] ->
  fst (base_id i) = fst (base_id j) -> i = j.
Proof.
  intros I J. repeat (destruct I as [<-|I]; [repeat (destruct J as [<-|J]; [cbv; congruence|]); destruct J|]). destruct I.
Qed.
Lemma known_field_inj edx i j : NoDup edx -> known_id edx i -> known_id edx j ->
  fst (known_field edx i) = fst (known_field edx j) -> i = j.
Proof.
  intros D I J E.
  assert (B : forall i, In i [3; 4; 5; 6; 7; 8; 10; 11; 12] -> known_field edx i = base_id i /\ forall t, fst (base_id i) <> Edx t).
  { intros k K. repeat (destruct K as [<-|K]; [split; [reflexivity|discriminate]|]). destruct K. }
  assert (X : forall i, 101 <= i -> known_field edx i = (Edx (nth (Z.to_nat (i - 101)) edx []), Float)).
  { intros k K. unfold known_field. replace (101 <=? k) with true by (symmetry; apply Z.leb_le; lia). reflexivity. }
  destruct I as [I|I], J as [J|J].
  - destruct (B i I) as [Bi _], (B j J) as [Bj _]. rewrite Bi, Bj in E. apply base_id_inj; auto.
  - destruct (B i I) as [Bi Ni]. rewrite Bi, X in E by lia. exfalso. exact (Ni _ E).
  - destruct (B j J) as [Bj Nj]. rewrite Bj, X in E by lia. exfalso. exact (Nj _ (eq_sym E)).
  - rewrite !X in E by lia. cbn [fst] in E. injection E as E.
    apply (NoDup_nth edx []) in E; auto; lia.
Qed.
Lemma known_not_special edx i : known_id edx i -> fst (known_field edx i) <> Phase8 /\ forall n, fst (known_field edx i) <> Unknown n.
Proof.
  intros [I|I].
  - repeat (destruct I as [<-|I]; [split; discriminate|]). destruct I.
  - unfold known_field. replace (101 <=? i) with true by (symmetry; apply Z.leb_le; lia). split; discriminate.
Qed.
Lemma NoDup_map_on {A B} (f : A -> B) l : (forall a b, In a l -> In b l -> f a = f b -> a = b) -> NoDup l -> NoDup (map f l).
Proof.
  intros I D. induction D as [|a l N D IH]; [constructor|]. cbn [map]. constructor.
  - intros J. apply in_map_iff in J as (b & E & J). apply N. rewrite <- (I b a); auto; [now right|now left].
  - apply IH. intros; apply I; auto; now right.
Qed.

(** The layouts: known ids, possibly followed by one unknown. *)
Definition fmt_of (edx : list txt) (ids : list Z) (tail : bool) : list (field * kind) :=
  (Phase8, Byte) :: map (known_field edx) ids ++ (if tail then [(Unknown 1, Float)] else []).
Lemma fmt_nodup edx ids tail : NoDup edx -> NoDup ids -> (forall id, In id ids -> known_id edx id) ->
  NoDup (map fst (fmt_of edx ids tail)).
Proof.
  intros E D K. unfold fmt_of. cbn [map]. rewrite map_app, map_map.
  assert (N1 : NoDup (map (fun x => fst (known_field edx x)) ids)).
  { apply NoDup_map_on; auto. intros a b A B. apply known_field_inj; auto. }
  constructor.
  - intros I. apply in_app_or in I as [I|I].
    + apply in_map_iff in I as (x & X & I). destruct (known_not_special edx x (K x I)). contradiction.
    + destruct tail; [destruct I as [I|[]]; discriminate | destruct I].
  - destruct tail; [|now rewrite app_nil_r]. cbn [map fst].
    apply NoDup_Add with (a := Unknown 1) (l := map (fun x => fst (known_field edx x)) ids).
    + pose proof (Add_app (Unknown 1) (map (fun x => fst (known_field edx x)) ids) []) as H. rewrite app_nil_r in H. exact H.
    + split; auto. intros I. apply in_map_iff in I as (x & X & I). destruct (known_not_special edx x (K x I)) as [_ Q]. exact (Q 1 X).
Qed.
Lemma fmt_fits edx ids (tail : bool) r : (forall id, In id ids -> known_id edx id) ->
  map (@List.length Z) r = 1%nat :: map id_width ids ++ (if tail then [4%nat] else []) -> fits (fmt_of edx ids tail) r.
Proof.
  intros K E. unfold fits, fmt_of. rewrite E. cbn [map snd width]. f_equal. rewrite map_app, map_map. f_equal.
  - apply map_ext_in. intros a I. symmetry. apply known_width; auto.
  - destruct tail; reflexivity.
Qed.

Lemma map_res_all {A B} (f : A -> res B) (g : A -> B) l : (forall a, In a l -> f a = Ok (g a)) -> map_res f l = Ok (map g l).
Proof.
  induction l as [|a l IH]; intros F; [reflexivity|]. cbn [map_res map]. rewrite (F a (or_introl eq_refl)). cbn [bind].
  rewrite IH by (intros; apply F; now right). reflexivity.
Qed.

Definition nth_bytes (j : nat) (r : list bytes) : bytes := nth j r [].
Lemma crc_map_ok edx ids tail (rs : list (list bytes)) ny nx f j : NoDup edx -> NoDup ids -> (forall id, In id ids -> known_id edx id) ->
  (forall r, In r rs -> map (@List.length Z) r = 1%nat :: map id_width ids ++ (if tail : bool then [4%nat] else [])) ->
  0 <= ny -> 0 <= nx -> Z.of_nat (List.length rs) = ny * nx ->
  nth_error (map fst (fmt_of edx ids tail)) j = Some f ->
  crc_map ny nx f (map (fun r => combine (map fst (fmt_of edx ids tail)) r) rs) = Ok (map (nth_bytes j) rs).
Proof.
  intros E D K F NY NX L J. unfold crc_map.
  assert (M : map_res (field_of f) (map (fun r => combine (map fst (fmt_of edx ids tail)) r) rs) = Ok (map (nth_bytes j) rs)).
  { pose proof (fmt_nodup edx ids tail E D K) as ND.
    assert (LL : List.length (map fst (fmt_of edx ids tail)) = S (List.length ids + if tail then 1 else 0)).
    { unfold fmt_of. cbn [map List.length]. rewrite map_length, app_length, map_length. destruct tail; reflexivity. }
    assert (JL : (j < List.length (map fst (fmt_of edx ids tail)))%nat) by (apply nth_error_Some; congruence).
    clear L. induction rs as [|r rs IH]; [reflexivity|].
    pose proof (F r (or_introl eq_refl)) as Fr.
    assert (RL : List.length r = S (List.length ids + if tail then 1 else 0)).
    { apply (f_equal (@List.length nat)) in Fr. rewrite map_length in Fr. cbn [List.length] in Fr. rewrite app_length, map_length in Fr. destruct tail; exact Fr. }
    assert (FO : field_of f (combine (map fst (fmt_of edx ids tail)) r) = Ok (nth_bytes j r)).
    { apply (field_of_nth _ ND j); auto. unfold nth_bytes. apply (@nth_error_nth' bytes). unfold bytes in *. rewrite RL, <- LL. exact JL. }
    set (names := map fst (fmt_of edx ids tail)) in *. cbn [map map_res]. rewrite FO.
    cbn [bind]. rewrite IH by (intros; apply F; now right). reflexivity. }
  rewrite M. cbn [bind]. unfold reshape. rewrite map_length. unfold bytes in *. rewrite L, Z.eqb_refl.
  replace (0 <=? ny) with true by (symmetry; apply Z.leb_le; lia).
  replace (0 <=? nx) with true by (symmetry; apply Z.leb_le; lia). reflexivity.
Qed.

Lemma fmt_pos edx ids tail j id : nth_error ids j = Some id ->
  nth_error (map fst (fmt_of edx ids tail)) (S j) = Some (fst (known_field edx id)).
Proof.
  intros J. unfold fmt_of. cbn [map nth_error]. rewrite map_app, map_map. rewrite nth_error_app1.
  - now rewrite (map_nth_error _ _ _ J).
  - rewrite map_length. apply nth_error_Some. congruence.
Qed.

Definition needed : list Z := [3; 4; 5; 6; 7; 8].
Theorem crc_loads edx ids (tail : bool) (rs : list (list bytes)) ny nx : NoDup edx -> NoDup ids -> (forall id, In id ids -> known_id edx id) ->
  (forall id, In id needed -> In id ids) ->
  (forall r, In r rs -> map (@List.length Z) r = 1%nat :: map id_width ids ++ (if tail then [4%nat] else [])) ->
  0 <= ny -> 0 <= nx -> Z.of_nat (List.length rs) = ny * nx ->
  exists pos, (forall id, In id needed -> nth_error ids (pos id) = Some id) /\
  load_crc (fmt_of edx ids tail) ny nx (crc_bytes rs) =
  let col id := map (nth_bytes (S (pos id))) rs in
  Ok (Crc (col 7) (col 8) (col 6) (map (nth_bytes 0) rs) (col 3) (col 4) (col 5)).
Proof.
  intros E D K N F NY NX L.
  set (pos := fun id => match find (fun j => match nth_error ids j with Some i => i =? id | None => false end) (seq 0 (List.length ids)) with Some j => j | None => 0%nat end).
  assert (P : forall id, In id needed -> nth_error ids (pos id) = Some id).
  { intros id I. apply N in I. apply In_nth_error in I as (j & J). unfold pos.
    destruct (find _ _) as [k|] eqn:Q.
    - apply find_some in Q as [_ Q]. destruct (nth_error ids k); [|discriminate]. apply Z.eqb_eq in Q. congruence.
    - exfalso. assert (JL : (j < List.length ids)%nat) by (apply nth_error_Some; congruence).
      pose proof (find_none _ _ Q j ltac:(apply in_seq; lia)) as H. cbn beta in H. rewrite J, Z.eqb_refl in H. discriminate. }
  exists pos. split; auto. unfold load_crc.
  rewrite fields_distinct_nodup by (apply fmt_nodup; auto). cbn [negb].
  rewrite read_fits.
  2:{ unfold fmt_of. cbn [rec_size fold_right snd width]. lia. }
  2:{ intros r I. apply fmt_fits; auto. }
  assert (C : forall id, In id needed -> crc_map ny nx (fst (known_field edx id)) (map (fun r => combine (map fst (fmt_of edx ids tail)) r) rs)
     = Ok (map (nth_bytes (S (pos id))) rs)).
  { intros id I. apply crc_map_ok; auto. apply fmt_pos, P, I. }
  change BC with (fst (known_field edx 7)). change BS with (fst (known_field edx 8)). change MAD with (fst (known_field edx 6)).
  change Ph1 with (fst (known_field edx 3)). change Phi with (fst (known_field edx 4)). change Ph2 with (fst (known_field edx 5)).
  rewrite !C by (unfold needed; cbn [In]; tauto).
  rewrite (crc_map_ok edx ids tail rs ny nx Phase8 0) by (auto; reflexivity). reflexivity.
Qed.
