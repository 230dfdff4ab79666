(** Theorems about what maps of grains and of orientations show. *)
From Coq Require Import String Ascii Reals ZArith Bool Lra Lia.
From Coq Require Import List.
From Verif Require Import Py Grid Grid_Lemmas Boundary_Model Base_Model Base_Spec Base_Proofs Base_Props Quat_Model Quat_Spec Pole_Model Ipf_Model Ipf_Spec Pole_Spec Ipf_Proofs IpfHex_Proofs Ipf_Props Text_Model Text_Proofs
  Eqv_Spec Eqv_Proofs Ebsd_Model Ebsd_Spec EbsdGrain_Props GrainState_Model GrainState_Spec GrainState_Proofs GrainState_Props MapView_Model MapView_Spec MapView_Proofs.
Import ListNotations.
Open Scope Z_scope.

(** ** C100: misorientation maps *)
(** After any calls on the grains, the map shows at every point of a grain the deviation of that
    point from the grain's average orientation, and 0 outside grains. *)
Theorem C100_map : forall W H c gs, good_map W H gs -> (forall x, In x gs -> used x) -> 0 <= c <= 3 ->
  exists gs' im, plot_mis_map W H c gs = (gs', Ok im) /\
    (forall x, In x gs -> Forall2 (fun p v => im p = v) (gpoints x) (deviation (gconst x) (average (gconst x)) c)) /\
    (forall p, (forall x, In x gs -> ~ In p (gpoints x)) -> im p = Some 0%R) /\
    map fst gs' = map fst gs /\ forall x, In x gs' -> used x.
Proof.
  intros W H c gs G U Hc.
  destruct (map_agrees W H c gs G) as (gs' & im & E & CH & A & B); [intros x I; destruct (U x I) as (ops & _ & ->); apply run_sized, new_sized|exact Hc|].
  exists gs', im. split; [exact E|].
  assert (U' : forall x, In x gs' -> used x).
  { destruct CH as [-> | ->]; [exact U|]. intros x I. apply each_In in I as (g & I & EX). destruct (U _ I) as (ops & HO & EO). unfold gstate in EO. cbn [snd] in EO.
    exists (ops ++ [BuildMis (negb (c =? 0))]). split; [intros o J; apply in_app_iff in J as [J|[<-|[]]]; [now apply HO|reflexivity]|].
    rewrite EX, EO. unfold run. rewrite fold_left_app. reflexivity. }
  assert (F : map fst gs' = map fst gs) by (destruct CH as [-> | ->]; [reflexivity|]; unfold each_grain; rewrite map_map; reflexivity).
  split; [|split; [exact B|split; [exact F|exact U']]].
  intros x I. assert (J : In (fst x) (map fst gs')) by (rewrite F; now apply in_map). apply in_map_iff in J as (y & EY & J).
  destruct (A y J) as (l & EL & FL). destruct (U' y J) as (ops & HO & EO).
  assert (GC : gconst y = gconst x) by (unfold gconst; now rewrite EY). assert (GP : gpoints y = gpoints x) by (unfold gpoints; now rewrite EY).
  rewrite EO in EL. destruct (C98_deviation (gconst y) ops HO) as [D _]. rewrite (D c Hc) in EL. injection EL as <-. now rewrite GC, GP in FL.
Qed.
Print Assumptions C100_map.
(** Whatever happened before, even references set from outside, the map shows at every point
    of a grain what plotting that grain shows afterwards. *)
Theorem C100_agrees : forall W H c gs, good_map W H gs ->
  (forall x, In x gs -> exists ops, gstate x = run (gconst x) ops new_grain) -> 0 <= c <= 3 ->
  exists gs' im, plot_mis_map W H c gs = (gs', Ok im) /\
    forall x, In x gs' -> exists l, snd (plot_mis (gconst x) c (gstate x)) = Ok l /\ Forall2 (fun p v => im p = v) (gpoints x) l.
Proof.
  intros W H c gs G U Hc.
  destruct (map_agrees W H c gs G) as (gs' & im & E & CH & A & B); [intros x I; destruct (U x I) as (ops & ->); apply run_sized, new_sized|exact Hc|].
  exists gs', im. split; [exact E|exact A].
Qed.
Print Assumptions C100_agrees.
Example C100_met : let K l := Consts l "cubic" None [] in
  let gs := [(K [Q4 1 0 0 0; Q4 0 1 0 0], [(0, 0); (1, 0)], run (K [Q4 1 0 0 0; Q4 0 1 0 0]) [PlotMis 2; CalcTraces None] new_grain);
             (K [Q4 0 0 1 0], [(0, 1)], new_grain)] in
  good_map 2 2 gs /\ (forall x, In x gs -> used x) /\ forall x, In x gs -> ~ In (1, 1) (gpoints x).
Proof.
  intros K gs. split; [|split].
  - split.
    + split; cbn [gs map gpoints fst snd].
      * repeat (constructor; [split; [repeat constructor; cbn [In]; intuition congruence|]; unfold gpoints; cbn [fst snd In]; intros p I; decompose [or] I; subst; unfold inside; cbn [fst snd]; try lia; contradiction|]). constructor.
      * repeat constructor. intros p I J. unfold gpoints in I, J. cbn [In fst snd] in I, J. intuition congruence.
    + intros x [<-|[<-|[]]]; reflexivity.
  - intros x [<-|[<-|[]]]; [exists [PlotMis 2; CalcTraces None]|exists []]; (split; [|reflexivity]); cbn [In]; intuition (subst; reflexivity).
  - intros x [<-|[<-|[]]]; cbn [gpoints fst snd In]; intuition congruence.
Qed.
(** A component that does not exist is shown as the angle, where a grain refuses it. *)
Theorem C100_component_refuted : forall W H c gs, c < 0 \/ 3 < c ->
  plot_mis_map W H c gs = plot_mis_map W H 0 gs /\ forall x, In x gs -> snd (plot_mis (gconst x) c (gstate x)) = Err ValueError.
Proof.
  intros W H c gs N. split.
  - unfold plot_mis_map. replace ((1 <=? c) && (c <=? 3)) with false; [reflexivity|]. symmetry. apply andb_false_iff. destruct N; [left|right]; apply Z.leb_gt; lia.
  - intros x _. unfold plot_mis. replace (c =? 0) with false by (symmetry; apply Z.eqb_neq; lia).
    replace ((0 <? c) && (c <? 4)) with false; [reflexivity|]. symmetry. apply andb_false_iff. destruct N; [left|right]; apply Z.ltb_ge; lia.
Qed.
Print Assumptions C100_component_refuted.

(** ** C101: colours of orientation maps *)
Lemma chosen_list names phases : phases_ok names phases -> exists ch, phase_choice names phases = Ok ch /\
  (forall i, In i (map snd ch) <-> phase_wanted names phases i) /\ (forall n i, In (n, i) ch -> nth_error names (Z.to_nat i) = Some n).
Proof.
  intros [B K]. unfold phase_wanted. destruct phases as [ids|].
  - destruct (phase_choice_ids names ids) as (ch & E & M & P); [intros; eapply B; eauto|].
    exists ch. split; auto. split; auto. intros i. now rewrite M.
  - destruct (phase_choice_all names) as (ch & E & M & P). exists ch. split; auto. split; auto.
    intros i. rewrite M, in_map_iff. split.
    + intros (k & <- & I). apply in_seq in I. lia.
    + intros I. exists (Z.to_nat i). split; [lia|]. apply in_seq. lia.
Qed.
(** Every pixel of a phase asked for has the colour of its own orientation in its own phase
    (for hexagonal phases if no pixel of the phase has the direction along its c axis), the
    others the background. *)
Theorem C101_colour : forall names phases bg W H phase ori d default,
  0 <= W -> 0 <= H -> phases_ok names phases -> d <> vzero -> (forall p, inside W H p -> unitq (ori p)) ->
  exists f, calc_ipf_colour names phases bg W H phase ori d default = Ok f /\
    forall p, inside W H p ->
      (forall n c, phase_wanted names phases (phase p - 1) -> nth_error names (Z.to_nat (phase p - 1)) = Some n ->
         (n = "hexagonal"%string -> forall q, inside W H q -> phase q = phase p -> ~ along_c (in_crystal (ori q) d)) ->
         own_colour n d default (ori p) c -> f p = cast3 (fst (background bg)) (num3 c)) /\
      (~ phase_wanted names phases (phase p - 1) -> f p = num3 (Some (snd (background bg)))).
Proof.
  intros names phases bg W H phase ori d default HW HH PO D U. destruct (chosen_list names phases PO) as (ch & E & M & P).
  unfold calc_ipf_colour. rewrite E. cbn [bind]. destruct (background bg) as [dt b]. cbn [fst snd].
  destruct (phase_loop W H phase ori d default dt HW HH D U ch (fun _ => num3 (Some b))) as (f & EF & Q).
  { intros n i I. apply (proj2 PO). apply P in I. now apply nth_error_In in I. }
  exists f. split; [exact EF|]. intros p Ip. destruct (Q p) as [Q1 Q2]. split.
  - intros n c Wn Nn A O. apply M in Wn. apply in_map_iff in Wn as ([n' i] & Ei & I). cbn [snd] in Ei. subst i.
    assert (n' = n) by (apply P in I; congruence). subst n'. apply (Q1 n); auto. intros n' I'. apply P in I'. congruence.
  - intros N. apply Q2. now rewrite M.
Qed.
Print Assumptions C101_colour.
(** Each orientation has a colour. *)
Theorem C101_colour_exists : forall n d default q, n = "cubic"%string \/ n = "hexagonal"%string -> d <> vzero -> unitq q -> exists c, own_colour n d default q c.
Proof.
  intros n d default q N D U. assert (F : Forall unitq [q]) by (constructor; [exact U|constructor]). unfold own_colour. destruct N as [-> | ->].
  - destruct (cubic_colours [q] d default F D) as (cols & E & L). exists (hd None cols). rewrite E. inversion L as [|? c ? m L1 L2]; subst. inversion L2. reflexivity.
  - destruct (hex_colours [q] d default F D) as (cols & E & L & _). destruct cols as [|c [|]]; try discriminate L. exists c. exact E.
Qed.
Print Assumptions C101_colour_exists.
(** Euler colours: angles over the structure's range where the phase was asked for and the
    background elsewhere, both in the number type of the background. *)
Theorem C101_euler : forall names phases bg phase euler, phases_ok names phases ->
  exists f, euler_colour_typed names phases bg phase euler = Ok f /\
    forall p,
      (forall n, phase_wanted names phases (phase p - 1) -> nth_error names (Z.to_nat (phase p - 1)) = Some n ->
         f p = cast3 (fst (background bg)) (num3 (Some (over (euler p) (euler_range n))))) /\
      (~ phase_wanted names phases (phase p - 1) -> f p = cast3 (fst (background bg)) (num3 (Some (snd (background bg))))).
Proof.
  intros names phases bg phase euler [PO1 PO2]. unfold euler_colour_typed. destruct (background bg) as [d b]. cbn [fst snd].
  destruct (C84_value names phases (Some b) phase euler PO1) as (f & E & Q).
  { intros i n N. apply nth_error_In in N. destruct (PO2 n N) as [->| ->]; unfold known; auto. }
  rewrite E. cbn [bind]. eexists. split; [reflexivity|]. intros p. destruct (Q p) as [Q1 Q2]. split.
  - intros n Wn Nn. cbv beta. now rewrite (Q1 n Wn Nn).
  - intros Wn. cbv beta. now rewrite (Q2 Wn).
Qed.
Print Assumptions C101_euler.
Example C101_met : phases_ok ["cubic"; "hexagonal"]%string None /\ phases_ok ["cubic"; "hexagonal"]%string (Some [1]) /\ V3 0 0 1 <> vzero /\ unitq IpfHex_Proofs.half_turn /\
  phase_wanted ["cubic"; "hexagonal"]%string (Some [1]) (2 - 1) /\ ~ phase_wanted ["cubic"; "hexagonal"]%string (Some [1]) (1 - 1) /\ ~ along_c (in_crystal IpfHex_Proofs.half_turn (V3 0 0 1)).
Proof.
  assert (K : forall n, In n ["cubic"; "hexagonal"]%string -> n = "cubic"%string \/ n = "hexagonal"%string) by (cbn; intuition).
  split; [split; [discriminate|exact K]|]. split; [split; [intros ids i E I; injection E as <-; destruct I as [<-|[]]; cbn; lia|exact K]|].
  split; [exact z_axis|]. split; [exact half_turn_unit|]. split; [left; reflexivity|]. split; [|exact half_turn_off]. cbn. lia.
Qed.
(** Asking for phase -1 colours the pixels that are not indexed, as if they were of the last
    phase. *)
Theorem C101_not_indexed_refuted : forall W H phase ori d default p c, 0 <= W -> 0 <= H -> d <> vzero -> (forall p, inside W H p -> unitq (ori p)) ->
  inside W H p -> phase p = 0 -> own_colour "cubic" d default (ori p) c ->
  exists f, calc_ipf_colour ["hexagonal"; "cubic"]%string (Some [-1]) None W H phase ori d default = Ok f /\ f p = num3 c.
Proof.
  intros W H phase ori d default p c HW HH D U Ip P O. unfold calc_ipf_colour.
  change (phase_choice ["hexagonal"; "cubic"]%string (Some [-1])) with (Ok [("cubic"%string, -1)]). cbn [bind background].
  destruct (phase_loop W H phase ori d default DFloat HW HH D U [("cubic"%string, -1)] (fun _ => num3 (Some (0, 0, 0)%R))) as (f & EF & Q).
  { intros n i [E|[]]. injection E as <- <-. now left. }
  exists f. split; [exact EF|]. destruct (Q p) as [Q1 _]. rewrite (Q1 "cubic"%string c).
  - destruct c as [[[r g] b]|]; reflexivity.
  - exact Ip.
  - rewrite P. now left.
  - intros n [E|[]]. now injection E.
  - discriminate.
  - exact O.
Qed.
Print Assumptions C101_not_indexed_refuted.
(** With a background of integers every colour is cut to integers. *)
Theorem C101_integers_refuted : (forall bg names phases W H phase ori d default f, 0 <= W -> 0 <= H -> phases_ok names phases -> d <> vzero ->
    (forall p, inside W H p -> unitq (ori p)) -> calc_ipf_colour names phases (Some (DInt, bg)) W H phase ori d default = Ok f ->
    forall p r g b, inside W H p -> phase_wanted names phases (phase p - 1) -> nth_error names (Z.to_nat (phase p - 1)) = Some "cubic"%string ->
      own_colour "cubic" d default (ori p) (Some (r, g, b)) -> f p = (Fin (IZR (trunc r)), Fin (IZR (trunc g)), Fin (IZR (trunc b)))) /\
  (exists f, euler_colour_typed ["cubic"]%string None (Some (DInt, (1, 1, 1)%R)) (fun _ => 1) (fun _ => (PI, 0, 0)%R) = Ok f /\ forall p, f p = (Fin 0, Fin 0, Fin 0)) /\
  (exists f, euler_colour_typed ["cubic"]%string None None (fun _ => 1) (fun _ => (PI, 0, 0)%R) = Ok f /\ forall p, f p = (Fin (/ 2), Fin 0, Fin 0)).
Proof.
  split; [|split].
  - intros bg names phases W H phase ori d default f HW HH PO D U E p r g b Ip Wn Nn O.
    destruct (C101_colour names phases (Some (DInt, bg)) W H phase ori d default HW HH PO D U) as (f' & E' & Q). rewrite E in E'. injection E' as <-.
    destruct (Q p Ip) as [Q1 _]. rewrite (Q1 "cubic"%string (Some (r, g, b)) Wn Nn ltac:(discriminate) O). reflexivity.
  - eexists. split; [reflexivity|]. intros p. cbv beta. change (1 =? Z.of_nat 0 + 1) with true. cbv iota. cbn [snd div3 num3 cast3 cast fst].
    pose proof PI_RGT_0. replace (PI / (2 * PI))%R with (/ 2)%R by (field; lra). replace (0 / (PI / 2))%R with (IZR 0) by (field; lra).
    change (1 =? Z.of_nat 0 + 1) with true. cbv iota. cbn [cast3 cast].
    rewrite trunc_int. assert (T : trunc (/ 2) = 0); [|rewrite T; reflexivity].
    apply trunc_pos; [lia|]. lra.
  - eexists. split; [reflexivity|]. intros p. cbv beta. change (1 =? Z.of_nat 0 + 1) with true. cbv iota. cbn [snd div3 num3 cast3 cast fst].
    pose proof PI_RGT_0. replace (PI / (2 * PI))%R with (/ 2)%R by (field; lra). replace (0 / (PI / 2))%R with 0%R by (field; lra). change (1 =? Z.of_nat 0 + 1) with true. reflexivity.
Qed.
Print Assumptions C101_integers_refuted.

(** ** C102: one value per grain *)
(** Without given values, every pixel of a grain shows the mean of the map over that grain,
    every other pixel the background. *)
Theorem C102_map_partial : forall W H grains (f : pix -> R) ids bg, good_grains W H grains -> ~ In [] grains ->
  ids = IdInt (-1) \/ (exists l, ids = IdSeq l) -> NoDup (chosen_ids grains ids) ->
  (forall i, In i (chosen_ids grains ids) -> 0 <= i < Z.of_nat (List.length grains)) ->
  exists im, plot_grain_data_map W H grains (Some (fun p => Fin (f p))) None ids bg = Ok im /\
    (forall i g p, In i (chosen_ids grains ids) -> nth_error grains (Z.to_nat i) = Some g -> In p g -> im p = [Fin (mean_of (map f g))]) /\
    (forall p, (forall i g, In i (chosen_ids grains ids) -> nth_error grains (Z.to_nat i) = Some g -> ~ In p g) -> im p = [bg]).
Proof.
  intros W H grains f ids bg G NE Hids ND HI.
  destruct (C43_average_partial W H grains f ids) as (avs & E & F); [|exact Hids|exact HI|].
  { apply Forall_forall. intros g I. destruct G as [G _]. rewrite Forall_forall in G. split; [intros ->; contradiction|apply (G g I)]. }
  assert (RW : avs = map (fun r => nth 0 r NaN) (map (fun a => [a]) avs)) by (rewrite map_map; cbn [nth]; now rewrite map_id).
  destruct (C40_map_data_partial W H grains DFloat (GNums avs) (map (fun a => [a]) avs) 1 ids bg G ND HI) as (im & EM & A & B).
  { left. split; [now rewrite <- RW|]. split; [reflexivity|]. apply Forall_forall. intros r I. apply in_map_iff in I as (a & <- & _). reflexivity. }
  { rewrite map_length. symmetry. eapply forall2_length; exact F. }
  exists im. unfold plot_grain_data_map. rewrite E. cbn [bind fst snd]. split; [exact EM|]. split; [|exact B].
  intros i g p I Ng Ip. apply In_nth_error in I as (k & K). clear - F K A Ng Ip.
  assert (X : exists a, nth_error avs k = Some a /\ a = Fin (mean_of (map f g))).
  { clear A. revert k K. induction F as [|j a l avs (g' & Ng' & EA) F IH]; intros [|k] K; cbn [nth_error] in *; try discriminate K.
    - injection K as ->. exists a. split; [reflexivity|]. rewrite Ng' in Ng. injection Ng as ->. exact EA.
    - now apply IH. }
  destruct X as (a & Na & ->). apply (A k i _ g p K); [|exact Ng|exact Ip]. rewrite nth_error_map, Na. reflexivity.
Qed.
Print Assumptions C102_map_partial.
Example C102_met : let grains := [[(0, 0); (1, 0)]; [(0, 1)]] in
  good_grains 2 2 grains /\ ~ In [] grains /\ NoDup (chosen_ids grains (IdSeq [1])) /\
  (forall i, In i (chosen_ids grains (IdSeq [1])) -> 0 <= i < Z.of_nat (List.length grains)).
Proof.
  cbv zeta. split; [|split; [cbn [In]; intuition discriminate|split; [repeat constructor; cbn; tauto|cbn; intros i [<-|[]]; lia]]].
  split; [|repeat constructor; intros p I J; cbn [In] in I, J; intuition congruence].
  repeat (constructor; [split; [repeat constructor; cbn [In]; intuition congruence|]; cbn [In]; intros p I; decompose [or] I; subst; unfold inside; cbn [fst snd]; try lia; contradiction|]). constructor.
Qed.
(** With given values, every pixel of a grain shows the value given for it; the background has
    the number type of the values. *)
Theorem C102_given_partial : forall W H grains map_data dt vs ids bg, good_grains W H grains -> NoDup (chosen_ids grains ids) ->
  (forall i, In i (chosen_ids grains ids) -> 0 <= i < Z.of_nat (List.length grains)) -> List.length vs = List.length (chosen_ids grains ids) ->
  exists im, plot_grain_data_map W H grains map_data (Some (dt, GNums vs)) ids bg = Ok im /\
    (forall k i v g p, nth_error (chosen_ids grains ids) k = Some i -> nth_error vs k = Some v -> nth_error grains (Z.to_nat i) = Some g -> In p g -> im p = [v]) /\
    (forall p, (forall i g, In i (chosen_ids grains ids) -> nth_error grains (Z.to_nat i) = Some g -> ~ In p g) ->
       im p = [match dt, bg with DInt, Fin b => Fin (IZR (trunc b)) | DInt, NaN => Fin (- IZR (2 ^ 63)) | DFloat, _ => bg end]).
Proof.
  intros W H grains md dt vs ids bg G ND HI L.
  assert (RW : vs = map (fun r => nth 0 r NaN) (map (fun a => [a]) vs)) by (rewrite map_map; cbn [nth]; now rewrite map_id).
  destruct (C40_map_data_partial W H grains dt (GNums vs) (map (fun a => [a]) vs) 1 ids bg G ND HI) as (im & EM & A & B).
  { left. split; [now rewrite <- RW|]. split; [reflexivity|]. apply Forall_forall. intros r I. apply in_map_iff in I as (a & <- & _). reflexivity. }
  { now rewrite map_length. }
  exists im. split; [exact EM|]. split.
  - intros k i v g p K V Ng Ip. apply (A k i _ g p K); auto. now rewrite nth_error_map, V.
  - intros p N. rewrite (B p N). destruct dt, bg; reflexivity.
Qed.
Print Assumptions C102_given_partial.
(** Nothing given, or too many or too few values, is refused. *)
Theorem C102_refused : forall W H grains refs sym d map_data ids bg default,
  plot_grain_data_map W H grains None None ids bg = Err ValueError /\
  plot_grain_data_ipf W H grains refs sym d None None ids default = Err ValueError /\
  (forall dt v, gvals_len v <> List.length (chosen_ids grains ids) -> plot_grain_data_map W H grains map_data (Some (dt, v)) ids bg = Err ValueError) /\
  (forall v, ids = IdInt (-1) \/ (exists l, ids = IdSeq l) -> List.length v <> List.length (chosen_ids grains ids) ->
     plot_grain_data_ipf W H grains refs sym d map_data (Some v) ids default = Err GenericException).
Proof.
  intros W H grains refs sym d md ids bg default. split; [reflexivity|]. split; [reflexivity|]. split.
  - intros dt v N. unfold plot_grain_data_map. cbn [bind fst snd]. now apply C40_length_checked.
  - intros v Hids N. unfold plot_grain_data_ipf. cbn [bind]. destruct Hids as [->|(l & ->)]; cbn [chosen_ids] in *.
    + change (-1 =? -1) with true in *. cbv iota in *. rewrite upto_zseq in N. cbn [bind].
      apply Nat.eqb_neq in N. rewrite N. reflexivity.
    + cbn [bind]. apply Nat.eqb_neq in N. rewrite N. reflexivity.
Qed.
Print Assumptions C102_refused.
(** One grain number, as documented, is refused by both. *)
Theorem C102_single_id_refuted : forall W H grains refs sym d m bg v i default, i <> -1 ->
  plot_grain_data_map W H grains (Some m) None (IdInt i) bg = Err TypeError /\
  plot_grain_data_ipf W H grains refs sym d (Some m) v (IdInt i) default = Err TypeError.
Proof.
  intros W H grains refs sym d m bg v i default N. unfold plot_grain_data_map, plot_grain_data_ipf. rewrite (C43_single_id_refuted W H grains m i N).
  split; [reflexivity|]. destruct v; cbn [bind]; [|reflexivity]. apply Z.eqb_neq in N. now rewrite N.
Qed.
Print Assumptions C102_single_id_refuted.

(** The markers of the figure: one per grain, in the order asked for, at the direction of that
    grain's reference orientation (for a cubic primary phase that of the grain alone), with
    its own value. *)
Theorem C102_ipf_partial : forall W H grains refs d v ids qs default,
  ids = IdInt (-1) \/ (exists l, ids = IdSeq l) -> List.length v = List.length (chosen_ids grains ids) -> d <> vzero ->
  List.length refs = List.length grains ->
  (forall i, In i (chosen_ids grains ids) -> 0 <= i < Z.of_nat (List.length grains)) ->
  Forall2 (fun i q => nth_error refs (Z.to_nat i) = Some (Some q) /\ unitq q) (chosen_ids grains ids) qs ->
  exists ms, plot_grain_data_ipf W H grains refs "cubic" d None (Some v) ids default = Ok ms /\
    map snd ms = v /\ Forall2 (fun q m => calc_fund_dirs [q] d "cubic" None default = Ok [fst m]) qs ms.
Proof.
  intros W H grains refs d v ids qs default Hids L D LR HI F.
  assert (EI : match ids with IdInt i => if i =? -1 then Ok (zseq 0 (List.length grains)) else Err TypeError | IdSeq l => Ok l end = Ok (chosen_ids grains ids)).
  { destruct Hids as [->|(l & ->)]; [|reflexivity]. cbn [chosen_ids]. change (-1 =? -1) with true. cbv iota. now rewrite upto_zseq. }
  unfold plot_grain_data_ipf. cbn [bind]. rewrite EI. cbn [bind]. rewrite L, Nat.eqb_refl. cbn [negb].
  set (ch := chosen_ids grains ids) in *. clearbody ch. clear EI Hids.
  assert (E1 : map_res (py_nth refs) ch = Ok (map Some qs)).
  { clear - F HI LR. induction F as [|i q ch qs [N U] F IH]; [reflexivity|]. cbn [map_res map].
    destruct (py_nth_range _ refs i) as (g & Eg & Pg); [rewrite LR; apply HI; left; auto|]. rewrite Pg. cbn [bind]. rewrite IH by (intros; apply HI; right; auto).
    cbn [bind]. rewrite N in Eg. injection Eg as <-. reflexivity. }
  assert (E2 : map_res (fun r => match r with Some q => Ok q | None => Err AttributeError end) (map Some qs) = Ok qs).
  { clear. induction qs as [|q qs IH]; [reflexivity|]. cbn [map map_res bind]. rewrite IH. reflexivity. }
  assert (FU : Forall unitq qs) by (clear - F; induction F as [|i q ch qs [N U] F IH]; constructor; auto).
  rewrite E1. cbn [bind]. rewrite E2. cbn [bind]. pose proof (cubic_all qs d None default FU D) as EA. rewrite EA. cbn [bind].
  eexists. split; [reflexivity|]. pose proof (C28_cubic_each qs d None default _ FU D EA) as Q. remember (map _ qs) as os eqn:EO. clear EO EA E1 E2 FU HI.
  assert (LV : List.length v = List.length qs) by (rewrite L; eapply forall2_length; exact F). clear F L. revert v LV.
  induction Q as [|q o qs os2 Q1 Q IH]; intros [|a v] LV; cbn [List.length] in LV; try discriminate LV; cbn [combine map]; [split; constructor|].
  destruct (IH v) as [I1 I2]; [lia|]. split; [cbn [snd]; now rewrite I1|constructor; [exact Q1|exact I2]].
Qed.
Print Assumptions C102_ipf_partial.
Example C102_ipf_met : let grains := [[(0, 0)]; [(0, 1)]] in
  List.length [Fin 7; Fin 8] = List.length (chosen_ids grains (IdSeq [1; 0])) /\
  Forall2 (fun i q => nth_error [Some qone; Some (Q4 0 1 0 0)] (Z.to_nat i) = Some (Some q) /\ unitq q) (chosen_ids grains (IdSeq [1; 0])) [Q4 0 1 0 0; qone].
Proof. cbv zeta. split; [reflexivity|]. repeat constructor; unfold unitq; cbn; lra. Qed.
(** A grain whose reference orientation was not calculated makes the figure fail. *)
Theorem C102_no_reference : forall W H grains refs sym d v l default, List.length v = List.length l ->
  (forall i, In i l -> 0 <= i < Z.of_nat (List.length refs)) -> (exists i, In i l /\ nth_error refs (Z.to_nat i) = Some None) ->
  plot_grain_data_ipf W H grains refs sym d None (Some v) (IdSeq l) default = Err AttributeError.
Proof.
  intros W H grains refs sym d v l default L HI (i & I & N). unfold plot_grain_data_ipf. cbn [bind]. rewrite L, Nat.eqb_refl. cbn [negb].
  assert (E1 : exists rs, map_res (py_nth refs) l = Ok rs /\ In None rs).
  { clear L. assert (E1 : exists rs, map_res (py_nth refs) l = Ok rs /\ forall j, In j l -> nth_error refs (Z.to_nat j) = Some None -> In None rs).
    { clear I N. induction l as [|j l IH]; [exists []; split; [reflexivity|intros j []]|]. destruct IH as (rs & E & Q); [intros; apply HI; right; auto|].
      destruct (py_nth_range _ refs j) as (g & Eg & Pg); [apply HI; left; auto|]. exists (g :: rs). cbn [map_res]. rewrite Pg. cbn [bind]. rewrite E. split; [reflexivity|].
      intros k [->|K] Nk; [left; congruence|right; eapply Q; eauto]. }
    destruct E1 as (rs & E & Q). exists rs. split; [exact E|]. eapply Q; eauto. }
  destruct E1 as (rs & E1 & Q). rewrite E1. cbn [bind].
  assert (E2 : map_res (fun r : option quat => match r with Some q => Ok q | None => Err AttributeError end) rs = Err AttributeError).
  { clear - Q. induction rs as [|r rs IH]; [destruct Q|]. cbn [map_res]. destruct r as [q|]; [|reflexivity]. cbn [bind]. destruct Q as [Q|Q]; [discriminate Q|]. rewrite (IH Q). reflexivity. }
  rewrite E2. reflexivity.
Qed.
Print Assumptions C102_no_reference.
(** Grains of another phase are shown with the symmetry of the primary phase: the same grain is
    marked elsewhere on a map whose primary phase is another. *)
Theorem C102_other_phase_refuted : exists grains refs d v, d <> vzero /\ exists m1 m2,
  plot_grain_data_ipf 1 1 grains refs "cubic" d None (Some v) (IdInt (-1)) "up" = Ok [m1] /\
  plot_grain_data_ipf 1 1 grains refs "hexagonal" d None (Some v) (IdInt (-1)) "up" = Ok [m2] /\ fst m1 <> fst m2.
Proof.
  exists [[(0, 0)]], [Some qone], (V3 0 0 1), [Fin 1]. split; [exact z_axis|].
  assert (FU : Forall unitq [qone]) by (constructor; [exact one_unit|constructor]).
  pose proof (cubic_all [qone] (V3 0 0 1) None "up" FU z_axis) as E. pose proof (C28_cubic_axis _ _ _ _ _ FU z_axis E) as A.
  destruct (C28_hex_any [qone] (V3 0 0 1) true None "up" FU z_axis eq_refl) as (os & EH & FH).
  remember (map _ [qone]) as oc eqn:EO. clear EO.
  destruct oc as [|o1 [|]]; inversion A as [|? ? ? ? A1 A2]; subst; [|inversion A2]. destruct os as [|o2 [|]]; inversion FH as [|? ? ? ? [B1 _] B2]; subst; [|inversion B2].
  assert (KP : forall sym d, plot_grain_data_ipf 1 1 [[(0, 0)]] [Some qone] sym d None (Some [Fin 1]) (IdInt (-1)) "up" =
    do a <- calc_fund_dirs [qone] d sym None "up"; Ok (combine a [Fin 1])) by reflexivity.
  exists (o1, Fin 1), (o2, Fin 1). rewrite !KP. rewrite E, EH. cbn [bind combine fst]. split; [reflexivity|]. split; [reflexivity|].
  rewrite one_dir in *.
  assert (L : vlen (V3 0 0 1) = 1%R) by (unfold vlen, sprod; cbn [vx vy vz]; replace (0 * 0 + 0 * 0 + 1 * 1)%R with 1%R by ring; apply sqrt_1). rewrite L in A1.
  assert (IM : sym_image "cubic" (V3 0 0 1) (V3 0 0 1)).
  { assert (K : spapply (Pxyz, (false, false, false)) (V3 0 0 1) = V3 0 0 1) by reflexivity. rewrite <- K at 2. apply sp_image. rewrite K. cbn [vz]. lra. }
  rewrite (A1 IM). rewrite B1 by (unfold along_c; cbn [vx vy]; lra). intros X. injection X as X _. pose proof PI_RGT_0. lra.
Qed.
Print Assumptions C102_other_phase_refuted.

(** ** C103: labels and scales *)
(** The label is the name of the data, the component counted from 1 or named, and the unit. *)
Theorem C103_label : forall order default m scale c c' n, validate_component order default c = Ok c' -> m_clabel m = Some n ->
  exists t sc, plot_args order default m scale c None None = Ok (Some t, sc) /\
    (forall l, c' = CTuple l -> exists rest, t = n ++ in_brackets (concat (map (fun i => fmt_int (i + 1)) l)) ++ rest /\
       rest = match m_unit m with Some (a :: u) => in_brackets (a :: u) | _ => [] end) /\
    (forall s, c' = CStr s -> exists u rest, spaces_for_underscores (list_ascii_of_string s) u /\ t = n ++ in_brackets u ++ rest /\
       rest = match m_unit m with Some (a :: u) => in_brackets (a :: u) | _ => [] end) /\
    (c' = CNone -> t = n ++ match m_unit m with Some (a :: u) => in_brackets (a :: u) | _ => [] end).
Proof.
  intros order default m scale c c' n V N. unfold plot_args. rewrite V. cbn [bind]. unfold colour_label. rewrite N.
  eexists. eexists. split; [reflexivity|]. unfold in_brackets. repeat split; intros; subst; eauto.
  exists (spaced (list_ascii_of_string s)). eexists. split; [|split; reflexivity]. unfold spaces_for_underscores, spaced.
  induction (list_ascii_of_string s) as [|a l IH]; [constructor|]. cbn [map]. constructor; [|exact IH]. destruct (Ascii.eqb_spec a "_"); split; congruence.
Qed.
Print Assumptions C103_label.
(** Data without a name has no label. *)
Theorem C103_no_label : forall order default m scale c c', validate_component order default c = Ok c' -> m_clabel m = None ->
  exists sc, plot_args order default m scale c None None = Ok (None, sc).
Proof. intros order default m scale c c' V N. unfold plot_args. rewrite V. cbn [bind]. unfold colour_label. rewrite N. eauto. Qed.
Print Assumptions C103_no_label.
(** Two components with one digit each have different labels. *)
Theorem C103_distinct_partial : forall order default m scale n l l' t sc sc', m_clabel m = Some n -> one_digit l -> one_digit l' ->
  plot_args order default m scale (CTuple l) None None = Ok (Some t, sc) -> plot_args order default m scale (CTuple l') None None = Ok (Some t, sc') -> l = l'.
Proof.
  intros order default m scale n l l' t sc sc' N D D' E E'. unfold plot_args, validate_component in *.
  destruct (Z.eqb_spec (Z.of_nat (List.length l)) order) as [LE|]; cbn [negb bind] in *; [|discriminate E].
  destruct (Z.eqb_spec (Z.of_nat (List.length l')) order) as [LE'|]; cbn [negb bind] in *; [|discriminate E'].
  unfold colour_label in *. rewrite N in *. injection E as E _. injection E' as E' _. rewrite <- E' in E. clear E'.
  apply app_inv_head in E. rewrite <- !app_assoc in E. injection E as E. assert (LL : List.length l = List.length l') by lia. clear LE LE' N.
  revert l' D' LL E. induction l as [|i l IH]; intros [|j l'] D' LL E; cbn [List.length] in LL; try discriminate LL; [reflexivity|].
  cbn [map concat] in E. pose proof (D i (or_introl eq_refl)) as Bi. pose proof (D' j (or_introl eq_refl)) as Bj.
  rewrite (fmt_digit (i + 1)), (fmt_digit (j + 1)) in E by lia. cbn [app] in E. injection E as E0 E1. apply digit_char_inj in E0; [|lia|lia].
  f_equal; [lia|]. apply IH; [intros k K; apply D; right; exact K|intros k K; apply D'; right; exact K|lia|exact E1].
Qed.
Print Assumptions C103_distinct_partial.
(** The scale is that of the map divided by the binning of the data; a map without scale uses
    what is stored with the data. *)
Theorem C103_scale : forall order default m c c' s b, validate_component order default c = Ok c' ->
  (m_binning m = Some b -> exists t, plot_args order default m (Some s) c None None = Ok (t, Some (s / b)%R)) /\
  (m_binning m = None -> exists t, plot_args order default m (Some s) c None None = Ok (t, Some s)) /\
  (exists t, plot_args order default m None c None None = Ok (t, m_scale m)).
Proof.
  intros order default m c c' s b V. unfold plot_args. rewrite V. cbn [bind plot_scale]. repeat split; [intros ->|intros ->|]; eexists; try reflexivity.
  do 3 f_equal. field.
Qed.
Print Assumptions C103_scale.
(** What the caller gives is used. *)
Theorem C103_given : forall order default m scale c c' t s, validate_component order default c = Ok c' ->
  plot_args order default m scale c (Some t) (Some s) = Ok (Some t, Some s).
Proof. intros order default m scale c c' t s V. unfold plot_args. now rewrite V. Qed.
Print Assumptions C103_given.
(** A component counted from the end is the same data under another label, and components
    with two digits share labels. *)
Theorem C103_refuted : forall u b sc scale, let m := Meta (Some (lit "F")) u b sc in
  (forall n at_, 0 < n -> nd_get (ND [n] at_) [-1] = nd_get (ND [n] at_) [n - 1]) /\
  (exists t t' s, plot_args 1 CNone m scale (CInt (-1)) None None = Ok (Some t, s) /\ plot_args 1 CNone m scale (CInt 2) None None = Ok (Some t', s) /\ t <> t') /\
  (exists t s, plot_args 2 CNone m scale (CTuple [0; 10]) None None = Ok (Some t, s) /\ plot_args 2 CNone m scale (CTuple [10; 0]) None None = Ok (Some t, s)).
Proof.
  intros u b sc scale m. split; [|split].
  - intros n a Hn. unfold nd_get, nd_index, np_index. cbn [nd_shape].
    change ((0 <=? -1) && (-1 <? n)) with false. cbv iota. change (-1 <? 0) with true. rewrite andb_true_r.
    replace (- n <=? -1) with true by (symmetry; apply Z.leb_le; lia). replace ((0 <=? n - 1) && (n - 1 <? n)) with true by (symmetry; apply andb_true_iff; split; [apply Z.leb_le|apply Z.ltb_lt]; lia).
    replace (-1 + n) with (n - 1) by lia. reflexivity.
  - do 3 eexists. split; [reflexivity|]. split; [reflexivity|]. intros X. apply app_inv_head in X. rewrite <- !app_assoc in X. injection X as X. discriminate X.
  - do 2 eexists. split; reflexivity.
Qed.
Print Assumptions C103_refuted.
Example C103_met : validate_component 2 CNone (CTuple [0; 1]) = Ok (CTuple [0; 1]) /\ one_digit [0; 1] /\ one_digit [1; 0].
Proof. split; [reflexivity|]. split; intros i [<-|[<-|[]]]; lia. Qed.
