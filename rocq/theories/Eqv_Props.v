(** Theorems about equivalent indices, their texts, and labels of pole plots. *)
From Coq Require Import String Ascii Reals ZArith Bool Lra Lia.
From Coq Require Import List Permutation.
From Verif Require Import Py Base_Model Quat_Model Quat_Spec Quat_Proofs Crystal_Model Crystal_Spec Crystal_Proofs CrystalMat_Proofs SlipSys_Proofs
  CrystalFamily_Proofs Pole_Model Text_Model Eqv_Model Eqv_Spec Eqv_Proofs.
Import ListNotations.
Open Scope Z_scope.

(** ** C95: equivalent indices *)

(** Cubic: exactly the equivalent indices, each of the 24 symmetries giving one; the same for
    a plane and for a direction. *)
Theorem C95_cubic_partial : forall conv x y z ca, within 127 [x; y; z] ->
  exists r, equivalents conv "cubic" (sym_eqv "cubic") (Some (IntArr [x; y; z])) None ca None = Ok r /\
    equivalents conv "cubic" (sym_eqv "cubic") None (Some (IntArr [x; y; z])) ca None = Ok r /\
    List.length r = 24%nat /\ forall m, In m r <-> cubic_equivalent [x; y; z] m.
Proof.
  intros conv x y z ca W. destruct (cubic_equivalents conv x y z ca W) as (A & B). eexists. split; [exact A|]. split; [exact B|].
  split; [rewrite map_length; reflexivity|]. intros m. apply cubic_set.
Qed.
Print Assumptions C95_cubic_partial.
Example C95_cubic_partial_met : within 127 [1; -2; 3] /\ cubic_equivalent [1; -2; 3] [-3; 1; 2] /\ ~ cubic_equivalent [1; -2; 3] [3; 1; -2] /\
  ~ cubic_equivalent [1; -2; 3] [1; 1; 3].
Proof.
  split; [intros a I; cbn [In] in I; intuition lia|]. split.
  - split; [reflexivity|]. split; [|cbn; lia]. cbn [map Z.abs]. apply (perm_trans (l' := [1; 3; 2])); [constructor|constructor; constructor].
  - split; [intros (_ & _ & H); cbn in H; lia|]. intros (_ & P & _). cbn [map Z.abs] in P.
    apply Permutation_cons_inv in P. assert (I : In 1 [2; 3]) by (apply (Permutation_in _ P); cbn; auto). cbn in I. intuition lia.
Qed.

(** Hexagonal: exactly the equivalents of the indices without their common factor, for a
    plane and for a direction alike. *)
Theorem C95_hexagonal_partial : forall conv ca h k i l g r0 r1 r2 r3, known_conv conv -> (1 / 10 ^ 10 <= ca)%R ->
  h + k + i = 0 -> within 42 [h; k; i; l] ->
  0 < g -> [h; k; i; l] = map (Z.mul g) [r0; r1; r2; r3] -> coprime [r0; r1; r2; r3] ->
  exists r, equivalents conv "hexagonal" (sym_eqv "hexagonal") (Some (IntArr [h; k; i; l])) None (Some ca) None = Ok r /\
    equivalents conv "hexagonal" (sym_eqv "hexagonal") None (Some (IntArr [h; k; i; l])) (Some ca) None = Ok r /\
    List.length r = 12%nat /\ forall m, In m r <-> hex_equivalent [r0; r1; r2; r3] m.
Proof.
  intros conv ca h k i l g r0 r1 r2 r3 Kc Hca Z0 W G E C.
  destruct (hex_equivalents conv ca h k i l g r0 r1 r2 r3 Kc Hca Z0 W G E C) as (ops & HO & A & B).
  eexists. split; [exact A|]. split; [exact B|]. split; [rewrite map_length; destruct HO as [-> | ->]; reflexivity|].
  intros m. now apply hex_set.
Qed.
Print Assumptions C95_hexagonal_partial.
Example C95_hexagonal_partial_met : known_conv "hkl" /\ (1 / 10 ^ 10 <= 8165 / 10000)%R /\ 2 + -4 + 2 = 0 /\ within 42 [2; -4; 2; -6] /\
  [2; -4; 2; -6] = map (Z.mul 2) [1; -2; 1; -3] /\ coprime [1; -2; 1; -3] /\ hex_equivalent [1; -2; 1; -3] [2; -1; -1; 3] /\
  ~ hex_equivalent [1; -2; 1; -3] [2; -1; 1; 3].
Proof.
  split; [left; reflexivity|]. split; [lra|]. split; [reflexivity|]. split; [intros a I; cbn [In] in I; intuition lia|].
  split; [reflexivity|]. split; [|split].
  - intros d D. apply (D 1). cbn. auto.
  - split; [|lia]. right. change (Permutation [2; -1; -1] [-1; 2; -1]). constructor.
  - intros ([P|P] & _).
    + assert (I : In 2 [1; -2; 1]) by (apply (Permutation_in _ P); cbn; auto). cbn in I. intuition lia.
    + assert (I : In 1 [-1; 2; -1]) by (apply (Permutation_in _ P); cbn; auto). cbn in I. intuition lia.
Qed.

(** Inputs that are refused: neither or both of plane and direction, an unknown kind of
    indices, a wrong number of them, and a hexagonal crystal without c/a. *)
Theorem C95_refused : forall conv crystal syms ca,
  (forall it, equivalents conv crystal syms None None ca it = Err ValueError) /\
  (forall d p it, equivalents conv crystal syms (Some d) (Some p) ca it = Err ValueError) /\
  (forall it d, it <> "m"%string -> it <> "mb"%string -> equivalents conv crystal syms (Some d) None ca (Some it) = Err ValueError /\
     equivalents conv crystal syms None (Some d) ca (Some it) = Err ValueError) /\
  (forall l, List.length l <> 4%nat -> equivalents conv crystal syms (Some (IntArr l)) None ca (Some "mb"%string) = Err ValueError /\
     equivalents conv crystal syms None (Some (IntArr l)) ca (Some "mb"%string) = Err ValueError) /\
  (forall l, List.length l <> 3%nat -> equivalents conv crystal syms (Some (IntArr l)) None ca (Some "m"%string) = Err ValueError /\
     equivalents conv crystal syms None (Some (IntArr l)) ca (Some "m"%string) = Err ValueError) /\
  (forall h k i l, equivalents conv "hexagonal" syms (Some (IntArr [h; k; i; l])) None None None = Err TypeError /\
     equivalents conv "hexagonal" syms None (Some (IntArr [h; k; i; l])) None None = Err TypeError).
Proof.
  intros conv crystal syms ca. split; [reflexivity|]. split; [reflexivity|]. split; [|split; [|split]].
  - intros it d A B. unfold equivalents. cbv zeta. apply String.eqb_neq in A, B. rewrite A, B. auto.
  - intros l L. unfold equivalents. cbv zeta. change (String.eqb "mb" "mb") with true. cbv iota.
    destruct l as [|a [|b [|c [|d [|e l]]]]]; try (split; reflexivity). now elim L.
  - intros l L. unfold equivalents. cbv zeta. change (String.eqb "m" "mb") with false. change (String.eqb "m" "m") with true. cbv iota.
    destruct l as [|a [|b [|c [|d l]]]]; try (split; reflexivity). now elim L.
  - intros h k i l. split; reflexivity.
Qed.
Print Assumptions C95_refused.

(** Indices that do not fit eight bits come back wrapped. *)
Theorem C95_wide_refuted : forall conv ca,
  exists r, equivalents conv "cubic" (sym_eqv "cubic") (Some (IntArr [200; 0; 0])) None ca None = Ok r /\
    In [-56; 0; 0] r /\ ~ cubic_equivalent [200; 0; 0] [-56; 0; 0].
Proof.
  intros conv ca. unfold equivalents. cbv zeta. change (String.eqb "cubic" "hexagonal") with false. cbv iota.
  change (String.eqb "m" "mb") with false. change (String.eqb "m" "m") with true. cbv iota.
  cbn [bind]. rewrite vec_ints. cbn [bind]. change (sym_eqv "cubic") with cubic_symmetries.
  rewrite (map_res_table _ (fun T => map int8 (up (zap T 200 0 0))) (fun q T => rot_matrix q = ZM T) _ _ cubic_ops_ok).
  - eexists. split; [reflexivity|]. split.
    + apply in_map_iff. exists (nth 0 cubic_ops (Z3 0 0 0 0 0 0 0 0 0)). split; [reflexivity|left; reflexivity].
    + intros (_ & P & _). assert (I : In 56 (map Z.abs [200; 0; 0])) by (apply (Permutation_in _ P); cbn; auto).
      cbn in I. intuition lia.
  - intros q T Iq IT E. unfold equivalent_dir. cbv zeta iota. cbn [bind].
    destruct (cubic_place T 200 0 0 q Iq E) as (a & b & c & EU & EN). rewrite EN, EU.
    change (list_of (vZ a b c)) with (map IZR [a; b; c]). apply safe_cast_ints.
Qed.
Print Assumptions C95_wide_refuted.
(** Three indices of a hexagonal direction are accepted, but most have no integer
    Miller-Bravais indices and the call fails. *)
Theorem C95_miller_direction_refuted : forall conv ca, known_conv conv -> (1 / 10 ^ 10 <= ca)%R ->
  equivalents conv "hexagonal" (sym_eqv "hexagonal") (Some (IntArr [1; 0; 0])) None (Some ca) (Some "m"%string) = Err TypeError.
Proof.
  intros conv ca Kc Hca. destruct (hex_ops ca conv Kc Hca) as (L & Q & ops & HM & D & D' & HL & HO & FP & FD).
  unfold equivalents. cbv zeta. change (String.eqb "hexagonal" "hexagonal") with true. cbv iota.
  change (String.eqb "m" "mb") with false. change (String.eqb "m" "m") with true. cbv iota.
  cbn [bind]. rewrite vec_ints. cbn [bind]. rewrite HM. cbn [bind fst snd].
  change (sym_eqv "hexagonal") with (Quat false (Q4 1 0 0 0) :: tl hexagonal_symmetries). cbn [map_res].
  rewrite quat_one. unfold equivalent_dir at 1. cbv zeta iota. rewrite transform_qone. cbn [snd].
  assert (N : north (matmul L (vZ 1 0 0)) = matmul L (vZ 1 0 0)).
  { unfold north. destruct (Rlt_dec _ _) as [B|B]; [|reflexivity]. rewrite (proj2 (hexL_z _ L _ HL)) in B. unfold vZ in B. cbn [vz] in B. lra. }
  rewrite N. assert (I : matmul (mT Q) (matmul L (vZ 1 0 0)) = vZ 1 0 0).
  { change matmul with mapply. change mT with transpose. rewrite <- mapply_mprod, D. apply mapply_one. }
  rewrite I. change (list_of (vZ 1 0 0)) with (map IZR [1; 0; 0]). rewrite safe_cast_ints. cbn [bind].
  change (map int8 [1; 0; 0]) with [1; 0; 0]. unfold convert_idc. change (String.eqb (lower "m") "m") with true. cbv iota.
  cbn [arr_R map]. cbv zeta.
  assert (S : safe_int_cast (FltArr [(2 * 1 - 0) / 3; (2 * 0 - 1) / 3; (- (1) - 0) / 3; 3 * 0 / 3]%R) = Err ValueError).
  { unfold safe_int_cast. cbn [existsb]. rewrite (rint_near ((2 * 1 - 0) / 3) 1).
    - destruct (Rlt_dec _ _) as [B|B]; [reflexivity|]. elim B. unfold Rabs. destruct (Rcase_abs _); lra.
    - unfold Rabs. destruct (Rcase_abs _); lra. }
  rewrite S. reflexivity.
Qed.
Print Assumptions C95_miller_direction_refuted.

(** ** C96: texts of indices *)

(** Indices of one digit can be read back from their text, whatever brackets. *)
Theorem C96_readable_partial : forall st brackets l l' t,
  (forall x, In x l -> digit_index x) -> (forall x, In x l' -> digit_index x) ->
  idc_to_string (IntArr l) brackets st = Ok t -> idc_to_string (IntArr l') brackets st = Ok t -> l = l'.
Proof.
  intros st brackets l l' t D D' H H'.
  assert (K : concat (map (str_idx st) l) = concat (map (str_idx st) l')).
  { unfold idc_to_string in *. cbn [bind] in *. destruct brackets as [[|a [|b br]]|]; try discriminate.
    - injection H as <-. injection H' as E. symmetry. now apply app_inj_tail in E as [E _].
    - congruence. }
  apply (f_equal (fun z => z ++ [Plain "."%char])) in K.
  apply decode in K as [K _]; auto; [|discriminate].
  intros d Hd. assert (C : d = 0 \/ d = 1 \/ d = 2 \/ d = 3 \/ d = 4 \/ d = 5 \/ d = 6 \/ d = 7 \/ d = 8 \/ d = 9) by lia.
  clear Hd. repeat destruct C as [->|C]; subst; discriminate.
Qed.
Print Assumptions C96_readable_partial.
(** The texts themselves. *)
Example C96_readable_partial_met :
  idc_to_string (IntArr [1; -2; 0]) (Some (lit "()")) "tex" = Ok (plain (lit "(1$\bar{2}$0)")) /\
  idc_to_string (IntArr [1; -2; 0]) None "unicode" = Ok [Plain "1"; Plain "2"; Overline; Plain "0"]%char.
Proof. split; reflexivity. Qed.

(** The text of a slip system tells its plane and its direction. *)
Theorem C96_slip_system_partial : forall s s' t,
  (forall x, In x (plane_idc s ++ dir_idc s ++ plane_idc s' ++ dir_idc s') -> digit_index x) ->
  ss_text s = Ok t -> ss_text s' = Ok t -> plane_idc s = plane_idc s' /\ dir_idc s = dir_idc s'.
Proof.
  intros s s' t D H H'.
  unfold ss_text, slip_plane_label, slip_dir_label, idc_to_string in H, H'. cbn [bind lit list_ascii_of_string] in H, H'.
  assert (B : forall a, a = ")"%char \/ a = "]"%char -> no_digit a /\ a <> "$"%char).
  { intros a A. split; [|destruct A as [-> | ->]; discriminate]. intros d Hd.
    assert (C : d = 0 \/ d = 1 \/ d = 2 \/ d = 3 \/ d = 4 \/ d = 5 \/ d = 6 \/ d = 7 \/ d = 8 \/ d = 9) by lia.
    clear Hd. destruct A as [-> | ->]; repeat destruct C as [->|C]; subst; discriminate. }
  rewrite <- H in H'. injection H' as E. rewrite <- !app_assoc in E. cbn [app] in E.
  destruct (B ")"%char (or_introl eq_refl)) as [B1 B2]. destruct (B "]"%char (or_intror eq_refl)) as [B3 B4].
  apply (decode "unicode" ")" B1 B2) in E as [E1 E2]; [|intros x I; apply D; rewrite !in_app_iff; tauto ..].
  injection E2 as E2. apply (decode "unicode" "]" B3 B4) in E2 as [E2 _]; [|intros x I; apply D; rewrite !in_app_iff; tauto ..].
  auto.
Qed.
Print Assumptions C96_slip_system_partial.

(** With two digits it is not so: the digits of neighbours run together, and in unicode only
    the last digit carries the bar. *)
Theorem C96_two_digits_refuted :
  (forall st, idc_to_string (IntArr [1; 11]) None st = idc_to_string (IntArr [11; 1]) None st) /\
  idc_to_string (IntArr [-12; 3]) None "unicode" = idc_to_string (IntArr [1; -2; 3]) None "unicode".
Proof.
  split; [|reflexivity]. intros st. unfold idc_to_string, str_idx. destruct (String.eqb st "tex"); reflexivity.
Qed.
Print Assumptions C96_two_digits_refuted.

(** Only integers have a text, and brackets must be two characters. *)
Theorem C96_refused : forall st,
  (forall x l br, idc_to_string (FltArr (x :: l)) br st = Err ValueError) /\
  (forall l br, (List.length br < 2)%nat -> idc_to_string (IntArr l) (Some br) st = Err IndexError) /\
  (forall l br, br = None \/ (exists b, br = Some b /\ (2 <= List.length b)%nat) -> exists t, idc_to_string (IntArr l) br st = Ok t).
Proof.
  intros st. split; [reflexivity|]. split.
  - intros l [|a [|b br]] H; try reflexivity. cbn in H. lia.
  - intros l br [->|(b & -> & H)]; [eexists; reflexivity|]. destruct b as [|a [|b br]]; cbn in H; try lia. eexists. reflexivity.
Qed.
Print Assumptions C96_refused.

(** ** C97: labels of pole plots *)

(** Labels of a direction that is not in the southern hemisphere: each text names the
    direction it is put at. *)
Theorem C97_cubic_partial : forall conv x y z, within 127 [x; y; z] -> 0 <= z ->
  exists r, label_point conv "cubic" [x; y; z] None true = Ok r /\ List.length r = 24%nat /\
    forall v t, In (v, t) r -> exists m, cubic_equivalent [x; y; z] m /\
      Ok t = idc_to_string (IntArr m) None "tex" /\ direction_of conv "cubic" m = Ok v.
Proof. exact cubic_labels. Qed.
Print Assumptions C97_cubic_partial.
Theorem C97_hexagonal_partial : forall conv u v t w, known_conv conv -> u + v + t = 0 -> within 42 [u; v; t; w] ->
  nonzero [u; v; t; w] -> 0 <= w ->
  exists r, label_point conv "hexagonal" [u; v; t; w] None true = Ok r /\ List.length r = 12%nat /\
    forall p x, In (p, x) r -> exists m d, Ok x = idc_to_string (IntArr m) None "tex" /\
      direction_of conv "hexagonal" m = Ok d /\ same_ray p d.
Proof. exact hex_labels. Qed.
Print Assumptions C97_hexagonal_partial.
Example C97_partial_met : within 127 [1; -2; 3] /\ known_conv "tsl" /\ 2 + -1 + -1 = 0 /\ within 42 [2; -1; -1; 3] /\ nonzero [2; -1; -1; 3].
Proof.
  split; [intros a I; cbn [In] in I; intuition lia|]. split; [right; right; reflexivity|]. split; [reflexivity|].
  split; [intros a I; cbn [In] in I; intuition lia|]. exists 2. cbn. split; [auto|lia].
Qed.

(** Without symmetries one label, at the direction; a text that is given is used throughout. *)
Theorem C97_plain : forall conv crystal point label v, direction_of conv crystal point = Ok v ->
  label_point conv crystal point label false =
    Ok [(v, match label with Some t => t | None => concat (map (str_idx "tex") point) end)].
Proof.
  intros conv crystal point label v D. unfold label_point. cbv zeta. unfold direction_of in D.
  destruct (String.eqb crystal "hexagonal"), label as [t|]; cbn [bind idc_to_string]; rewrite D; reflexivity.
Qed.
Print Assumptions C97_plain.
Theorem C97_given : forall conv crystal point t v, direction_of conv crystal point = Ok v ->
  exists r, label_point conv crystal point (Some t) true = Ok r /\ List.length r = List.length (sym_eqv crystal) /\
    forall p x, In (p, x) r -> x = t.
Proof.
  intros conv crystal point t v D. unfold label_point. cbv zeta. unfold direction_of in D.
  assert (E : (if String.eqb crystal "hexagonal" then project_to_orth (8165 / 10000) (Some (IntArr point)) None "mb" conv
     else vec_of (map IZR point)) = Ok v) by exact D.
  cbn [bind]. rewrite E. cbn [bind]. eexists. split; [reflexivity|]. split.
  - rewrite combine_length, repeat_length. cbn [List.length]. rewrite map_length.
    assert (L : (1 <= List.length (sym_eqv crystal))%nat) by (clear; unfold sym_eqv; destruct (String.eqb crystal "cubic"), (String.eqb crystal "hexagonal"); apply le_n_S, Nat.le_0_l).
    destruct (sym_eqv crystal); cbn [tl List.length] in *; lia.
  - intros p x I. apply in_combine_r in I. now apply repeat_spec in I.
Qed.
Print Assumptions C97_given.

(** A southern direction is itself drawn where it points, but the label beside it names the
    opposite direction. *)
Theorem C97_south_refuted : forall conv, exists r, label_point conv "cubic" [0; 0; -1] None true = Ok r /\
  exists v t, In (v, t) r /\ direction_of conv "cubic" [0; 0; -1] = Ok v /\ Ok t = idc_to_string (IntArr [0; 0; 1]) None "tex" /\
  forall m u, (forall x, In x m -> digit_index x) -> Ok t = idc_to_string (IntArr m) None "tex" ->
    direction_of conv "cubic" m = Ok u -> ~ same_ray v u.
Proof.
  intros conv.
  assert (W : within 127 [0; 0; -1]) by (intros a I; cbn [In] in I; intuition lia).
  unfold label_point. cbv zeta. change (String.eqb "cubic" "hexagonal") with false. cbv iota.
  change (vec_of (map IZR [0; 0; -1])) with (Ok (vZ 0 0 (-1))). cbn [bind idc_to_string].
  rewrite (proj1 (cubic_equivalents conv 0 0 (-1) _ W)). cbn [bind]. rewrite map_res_texts, map_map. cbn [bind].
  eexists. split; [reflexivity|].
  exists (vZ 0 0 (-1)), (concat (map (str_idx "tex") [0; 0; 1])). split; [|split; [|split; [reflexivity|]]].
  - change cubic_ops with (nth 0 cubic_ops (Z3 0 0 0 0 0 0 0 0 0) :: tl cubic_ops). cbn [map combine]. left. reflexivity.
  - reflexivity.
  - intros m u Dm Et Du (k & K & E).
    assert (M : m = [0; 0; 1]).
    { apply (C96_readable_partial "tex" None m [0; 0; 1] (concat (map (str_idx "tex") [0; 0; 1]))); auto.
      intros x I. cbn [In] in I. unfold digit_index. intuition lia. }
    subst m. injection Du as <-. apply (f_equal vz) in E. unfold vZ, vscale in E. cbn [vx vy vz] in E. lra.
Qed.
Print Assumptions C97_south_refuted.
