(** Theorems about what grains keep between calls. *)
From Coq Require Import String Ascii Reals ZArith Bool Lra Lia.
From Coq Require Import List.
From Verif Require Import Py Base_Model Quat_Model Quat_Spec Quat_Proofs QuatMany_Proofs Crystal_Model CrystalFamily_Proofs Text_Model Eqv_Model Ebsd_Model Ebsd_Spec Ebsd_Proofs
  GrainState_Model GrainState_Spec GrainState_Proofs.
Import ListNotations.
Open Scope Z_scope.

(** ** C98: what a grain reports does not depend on the calls before *)
Lemma new_at K : at_ref K (average K) new_grain.
Proof. right. auto. Qed.
Lemma gentle_average K ops : (forall o, In o ops -> sets_ref o = false) -> forall o, In o ops -> gentle K (average K) o.
Proof. intros H o I. specialize (H o I). destruct o; cbn in *; congruence || exact Logic.I || reflexivity. Qed.
Lemma gentle_keeps K r ops : (forall o, In o ops -> keeps_ref o = true) -> forall o, In o ops -> gentle K r o.
Proof. intros H o I. specialize (H o I). destruct o; cbn in *; congruence || exact Logic.I. Qed.

(** As long as no reference is set from outside, after any calls in any order the deviations
    shown and the GROD data are those from the average orientation ... *)
Theorem C98_deviation : forall K ops, (forall o, In o ops -> sets_ref o = false) ->
  let g := run K ops new_grain in
  (forall c, 0 <= c <= 3 -> snd (plot_mis K c g) = Ok (deviation K (average K) c)) /\
  snd (read_grod K g) = grod_from K (average K).
Proof.
  intros K ops H g.
  destruct (many_steps K (average K) ops new_grain (new_at K) (gentle_average K ops H)) as (A & M & X & D & _).
  fold g in A, M, X, D. split.
  - intros c Hc. apply plot_at; auto; intros _; [apply M|apply X]; left; reflexivity.
  - unfold read_grod. destruct (D (or_introl eq_refl)) as [E|E]; rewrite E.
    + rewrite (ensure_at K _ g A). rewrite grod_is_fresh. reflexivity.
    + cbn [snd]. now rewrite grod_is_fresh.
Qed.
Print Assumptions C98_deviation.
Example C98_deviation_met : let K := Consts [Q4 1 0 0 0; Q4 0 1 0 0] "cubic" None [] in
  forall o, In o [PlotMis 2; CalcTraces None; BuildMis false; CalcAverage; CalcSchmid (V3 1 0 0) None; PlotMis 0] -> sets_ref o = false.
Proof. intros K o I. cbn [In] in I. intuition (subst; reflexivity). Qed.
(** ... and the slip traces are those of the phase's planes, unless traces of others were
    calculated. *)
Theorem C98_traces : forall K ops groups, filled K groups ->
  (forall o, In o ops -> sets_ref o = false /\ own_traces o = true) ->
  snd (read_traces K (run K ops new_grain)) = Ok (map (trace_of (average K)) groups).
Proof.
  intros K ops groups F H.
  destruct (many_steps K (average K) ops new_grain (new_at K) (gentle_average K ops (fun o I => proj1 (H o I)))) as (A & _ & _ & _ & T & _).
  specialize (T (fun o I => proj2 (H o I)) (or_introl eq_refl)). set (g := run K ops new_grain) in *.
  unfold read_traces. destruct T as [E|E]; rewrite E.
  - destruct (calc_filled K _ g groups A F) as (l & ->). reflexivity.
  - cbn [snd bind]. rewrite E, (fresh_filled K _ groups F). reflexivity.
Qed.
Print Assumptions C98_traces.
(** The printed table: each plane with its colour and angle, each direction with its Schmid
    factor for the load last used. *)
Theorem C98_table : forall K ops1 ops2 groups load, filled K groups -> List.length (c_colours K) = List.length groups ->
  (forall o, In o (ops1 ++ ops2) -> sets_ref o = false) -> (forall o, In o ops2 -> is_schmid o = false) ->
  exists rows, snd (print_traces K (run K (ops1 ++ CalcSchmid load None :: ops2) new_grain)) = Ok rows /\
    Forall2 (fun gc out => table_row (average K) load (fst gc) (snd gc) out) (combine groups (c_colours K)) rows.
Proof.
  intros K ops1 ops2 groups load F L H S.
  assert (H' : forall o, In o (ops1 ++ CalcSchmid load None :: ops2) -> sets_ref o = false).
  { intros o I. apply in_app_iff in I as [I|[<-|I]]; [apply H, in_app_iff; now left|reflexivity|apply H, in_app_iff; now right]. }
  destruct (many_steps K (average K) _ new_grain (new_at K) (gentle_average K _ H')) as (A & _).
  unfold run in *. rewrite fold_left_app in *. cbn [fold_left] in *. set (g1 := fold_left (step K) ops1 new_grain) in *.
  destruct (many_steps K (average K) ops1 new_grain (new_at K) (gentle_average K ops1 (fun o I => H o (in_or_app _ _ _ (or_introl I))))) as (A1 & _).
  change (run K ops1 new_grain) with g1 in A1.
  set (g2 := fold_left (step K) ops2 (step K g1 (CalcSchmid load None))) in *.
  assert (SF : g_sfs g2 = Some (map (map (factor_of (average K) load)) groups)).
  { unfold g2. change (fold_left (step K) ops2) with (run K ops2). rewrite sfs_kept_many by exact S. cbn [step].
    unfold calc_schmid. rewrite (ensure_at K _ g1 A1). destruct F as [E _]. rewrite E. cbn [fst g_sfs]. f_equal.
    destruct (average K) as [q|]; [|reflexivity]. unfold schmid_factors. rewrite map_map. apply map_ext. intros grp. rewrite map_map. reflexivity. }
  unfold print_traces. destruct (calc_filled K _ g2 groups A F) as (l & ->). cbn [snd bind g_sfs g_angles]. rewrite SF.
  destruct F as [E N]. rewrite E. apply table_rows; auto.
Qed.
Print Assumptions C98_table.
Example C98_table_met : let s p d n b := SS p d n b "cubic"%string None in
  let groups := [[s [0; 0; 1] [1; 0; 0] (V3 0 0 1) (V3 1 0 0); s [0; 0; 1] [0; 1; 0] (V3 0 0 1) (V3 0 1 0)]; [s [1; 0; 0] [0; 1; 0] (V3 1 0 0) (V3 0 1 0)]] in
  let K := Consts [Q4 1 0 0 0; Q4 0 1 0 0] "cubic" (Some groups) ["red"; "green"]%string in
  filled K groups /\ List.length (c_colours K) = List.length groups /\
  (forall o, In o [PlotMis 1; ReadTraces; CalcSchmid (V3 1 0 0) None; BuildMis false; CalcRdr] -> sets_ref o = false /\ own_traces o = true) /\
  (forall o, In o [BuildMis false; PrintTraces; CalcTraces None] -> is_schmid o = false).
Proof.
  intros s groups K. split; [split; [reflexivity|]; intros grp I; cbn [groups In] in I; intuition (subst; discriminate)|].
  split; [reflexivity|]. cbn [In]. split; intros o I; intuition (subst; reflexivity).
Qed.
(** After the reference was set from outside, what is recalculated is right. *)
Theorem C98_recalculated : forall K ops1 ops2 c, 0 <= c <= 3 -> (forall o, In o ops2 -> keeps_ref o = true) ->
  let g := run K ops1 new_grain in
  snd (plot_mis K c (run K (BuildMis true :: ops2) g)) = Ok (deviation K (reference K g) c).
Proof.
  intros K ops1 ops2 c Hc H g. set (r := reference K g).
  assert (A : at_ref K r g) by (unfold at_ref, r, reference; destruct (g_ref g); auto).
  change (run K (BuildMis true :: ops2) g) with (run K ops2 (build_mis K true g)).
  unfold build_mis. rewrite (ensure_at K r g A). set (g1 := Grain _ _ _ _ _ _ _ _).
  destruct (many_steps K r ops2 g1 (or_introl eq_refl) (gentle_keeps K r ops2 H)) as (A' & M & X & _).
  apply plot_at; auto; intros _; [apply M|apply X]; right; reflexivity.
Qed.
Print Assumptions C98_recalculated.

(** But what is not recalculated is stale: a grain of one orientation, whose reference is then
    set a quarter turn away. *)
Definition one_point : consts := Consts [Q4 1 0 0 0] "" None [].
Definition quarter : quat := Q4 (sqrt 2 / 2) (sqrt 2 / 2) 0 0.
Lemma one_average : average one_point = Some (Q4 1 0 0 0).
Proof. apply (average_copies (Q4 1 0 0 0) 0 ""); unfold unitq; cbn; lra. Qed.
Lemma one_mis r : mis_from one_point (Some r) = [Some (calc_mis_ori_point [Q4 1 0 0 0] r)].
Proof. reflexivity. Qed.
Lemma sqrt2_half : (0 < sqrt 2 / 2 < 1)%R.
Proof.
  split; [apply Rdiv_lt_0_compat; [apply sqrt_lt_R0|]; lra|].
  assert (sqrt 2 < 2)%R; [|lra]. rewrite <- (sqrt_square 2) at 2 by lra. apply sqrt_lt_1; lra.
Qed.
Lemma point_at r : calc_mis_ori_point [Q4 1 0 0 0] r = (let m := Rabs (qw r) in if Rlt_dec 1 m then 1%R else m, Q4 1 0 0 0).
Proof.
  unfold calc_mis_ori_point. cbn [map]. assert (E : dot (Q4 1 0 0 0) r = qw r) by (unfold dot; cbn [qw qx qy qz]; ring).
  rewrite E. cbv zeta. unfold argmax. cbn [argmax_from nth]. reflexivity.
Qed.
Lemma one_fresh_own : grod_from one_point (Some (Q4 1 0 0 0)) = ([Some 0%R], [None]).
Proof.
  rewrite grod_is_fresh. unfold fresh_grod. rewrite one_mis, point_at. cbn [qw map option_map fst snd axis_from].
  cbv zeta. rewrite Rabs_R1. destruct (Rlt_dec 1 1) as [L|_]; [lra|]. rewrite acos_1. f_equal; [f_equal; f_equal; ring|].
  unfold grod_axis, conjugate, Quat. cbn [qw qx qy qz qneg]. cbv zeta.
  destruct (Rlt_dec 1 0) as [L|_]; [lra|]. cbn [qw qx qy qz].
  set (w := (1 * 1 - _ * 0 - _ * 0 - _ * 0)%R). assert (W : w = 1%R) by (unfold w; ring).
  destruct (Rlt_dec w 0) as [L|_]; [lra|]. cbn [qw qx qy qz]. rewrite W. replace (1 - 1 ^ 2)%R with 0%R by ring. rewrite sqrt_0.
  destruct (Req_EM_T 0 0); congruence.
Qed.
Lemma acos_not_0 x : (0 < x < 1)%R -> acos x <> 0%R.
Proof. intros H E. assert (C : cos (acos x) = x) by (apply cos_acos; lra). rewrite E, cos_0 in C. lra. Qed.
Lemma one_fresh_quarter : exists a v, a <> 0%R /\ grod_from one_point (Some quarter) = ([Some a], [Some v]).
Proof.
  pose proof sqrt2_half as H2. rewrite grod_is_fresh. unfold fresh_grod. rewrite one_mis, point_at. unfold quarter. cbn [qw map option_map fst snd axis_from].
  cbv zeta. rewrite Rabs_pos_eq by lra. destruct (Rlt_dec 1 (sqrt 2 / 2)) as [L|_]; [lra|].
  exists (2 * acos (sqrt 2 / 2))%R. unfold grod_axis, conjugate, Quat. cbn [qw qx qy qz qneg]. cbv zeta.
  destruct (Rlt_dec (sqrt 2 / 2) 0) as [L|_]; [lra|]. cbn [qw qx qy qz].
  set (w := (sqrt 2 / 2 * 1 - _ * 0 - _ * 0 - _ * 0)%R). assert (W : w = (sqrt 2 / 2)%R) by (unfold w; ring).
  destruct (Rlt_dec w 0) as [L|_]; [lra|]. cbn [qw qx qy qz]. rewrite W.
  destruct (Req_EM_T _ 0) as [E|_].
  - exfalso. apply sqrt_eq_0 in E; [|nra]. nra.
  - eexists. split; [|reflexivity]. pose proof (acos_not_0 _ H2). lra.
Qed.
Theorem C98_stale_refuted :
  let K := one_point in
  let g := run K [PlotMis 0; PlotMis 1; ReadGrod; SetRef (Some (Some quarter))] new_grain in
  let g' := run K [BuildMis false] g in
  reference K g = Some quarter /\ reference K g' = Some quarter /\
  snd (plot_mis K 0 g) <> Ok (deviation K (Some quarter) 0) /\
  snd (read_grod K g) <> grod_from K (Some quarter) /\ snd (read_grod K g') <> grod_from K (Some quarter) /\
  snd (plot_mis K 0 g') = Ok (deviation K (Some quarter) 0) /\ snd (plot_mis K 1 g') <> Ok (deviation K (Some quarter) 1).
Proof.
  intros K g g'. destruct one_fresh_quarter as (a & v & N & Q). fold K in Q.
  assert (M0 : fresh_mis K (average K) <> [] /\ map (option_map (fun m => deg (2 * acos m))) (fresh_mis K (average K)) = [Some 0%R]).
  { split; [unfold K; rewrite one_average; unfold fresh_mis; rewrite one_mis; discriminate|]. rewrite shown_mis. unfold deviation. cbn [Z.eqb].
    unfold K. rewrite one_average, one_fresh_own. cbn [fst map option_map]. f_equal. f_equal. unfold Rdiv. ring. }
  assert (X0 : map (option_map (fun v => deg (comp 1 v))) (fresh_axes K (average K)) = [None]).
  { rewrite shown_axes by lia. unfold deviation. cbn [Z.eqb]. unfold K. rewrite one_average, one_fresh_own. reflexivity. }
  assert (D0 : deviation K (Some quarter) 0 <> [Some 0%R]).
  { unfold deviation. cbn [Z.eqb]. rewrite Q. cbn [fst map option_map]. intros E. injection E as E. apply N.
    pose proof PI_RGT_0 as P. unfold Rdiv in E. assert (IP : (0 < / PI)%R) by now apply Rinv_0_lt_compat.
    apply Rmult_integral in E as [E|E]; [|lra]. lra. }
  assert (G0 : fresh_grod K (average K) <> grod_from K (Some quarter)).
  { rewrite <- grod_is_fresh, Q. unfold K. rewrite one_average, one_fresh_own. discriminate. }
  split; [reflexivity|]. split; [reflexivity|].
  assert (E0 : snd (plot_mis K 0 g) = Ok (map (option_map (fun m => deg (2 * acos m))) (fresh_mis K (average K)))) by reflexivity.
  split; [rewrite E0, (proj2 M0); intros E; apply D0; congruence|].
  split; [exact G0|]. split; [exact G0|]. split.
  - rewrite <- shown_mis. reflexivity.
  - assert (E1 : snd (plot_mis K 1 g') = Ok (map (option_map (fun v => deg (comp 1 v))) (fresh_axes K (average K)))) by reflexivity.
    rewrite E1, X0. unfold deviation. cbn [Z.eqb]. rewrite Q. discriminate.
Qed.
Print Assumptions C98_stale_refuted.

(** The same for slip traces: with no slip systems the first reading fails, but the second
    gives an empty list; and relative displacement ratios need the reference first. *)
Theorem C98_failures_refuted : forall K, c_systems K = None ->
  snd (read_traces K new_grain) = Err TypeError /\ snd (read_traces K (step K new_grain ReadTraces)) = Ok [].
Proof.
  intros K E. unfold step, read_traces, calc_traces. cbn [g_angles new_grain]. rewrite E. cbn. auto.
Qed.
Print Assumptions C98_failures_refuted.
(** Traces calculated for other slip systems are then those of the grain. *)
Theorem C98_foreign_traces_refuted : forall K other, (forall grp, In grp other -> grp <> []) ->
  snd (read_traces K (run K [CalcTraces (Some other)] new_grain)) = Ok (map (trace_of (average K)) other).
Proof.
  intros K other N. unfold run. cbn [fold_left step]. unfold calc_traces, ensure_ref. cbn [g_ref new_grain].
  rewrite (surjective_pairing (trace_loop (average K) other)). unfold read_traces. cbn [fst snd g_angles bind].
  cbn [snd bind g_angles]. f_equal. apply (fresh_filled (Consts (c_oris K) (c_name K) (Some other) []) (average K) other). split; auto.
Qed.
Print Assumptions C98_foreign_traces_refuted.
Theorem C98_rdr : forall K g groups, filled K groups -> groups <> [] ->
  snd (calc_grain_rdr K g) = match g_ref g with None => Err AttributeError | Some _ => Ok tt end /\
  forall r, g_ref g = Some (Some r) ->
    g_rdr (fst (calc_grain_rdr K g)) = Some (map (map (fun s => grain_rdr r (slip_dir s))) groups).
Proof.
  intros K g groups [E N] NE. unfold calc_grain_rdr. rewrite E. split.
  - destruct (g_ref g) as [[q|]|]; try reflexivity. destruct groups as [|[|s grp] groups]; [congruence| |reflexivity].
    elim (N [] (or_introl eq_refl)). reflexivity.
  - intros r ->. reflexivity.
Qed.
Print Assumptions C98_rdr.
(** Factors calculated for other slip systems are printed beside the phase's own. *)
Theorem C98_table_refuted : exists K other, filled K (match c_systems K with Some l => l | None => [] end) /\
  List.length (c_colours K) = 1%nat /\
  forall load, exists l a f, snd (print_traces K (run K [CalcSchmid load (Some other)] new_grain)) = Ok [(l, "red"%string, a, [f])] /\
    (load = V3 0 0 1 -> exists s, c_systems K = Some [[s]] /\ snd f <> factor_of (average K) load s /\ fst f = slip_dir_label s).
Proof.
  set (ss := fun n d => SS [0; 0; 1] [1; 0; 0] n d "cubic" None).
  set (s1 := ss (V3 0 0 1) (V3 1 0 0)). set (s2 := ss (V3 1 0 1) (V3 (-1) 0 1)).
  exists (Consts [Q4 1 0 0 0] "" (Some [[s1]]) ["red"%string]), [[s2]]. cbn [c_systems c_colours].
  split; [split; [reflexivity|]; intros grp [<-|[]]; discriminate|]. split; [reflexivity|]. intros load.
  set (K := Consts _ _ _ _). assert (Av : average K = Some (Q4 1 0 0 0)) by exact one_average.
  set (q := Q4 1 0 0 0) in *. set (g := Grain (Some (Some q)) None None (Some [[Some (schmid_factor q load s2)]]) None None None None).
  assert (G : run K [CalcSchmid load (Some [[s2]])] new_grain = g).
  { unfold run. cbn [fold_left step]. unfold calc_schmid, ensure_ref. cbn [g_ref new_grain]. rewrite Av. reflexivity. }
  exists (slip_plane_label s1), (option_map deg (option_map fst (slip_trace q (slip_plane s1)))), (slip_dir_label s1, Some (schmid_factor q load s2)).
  rewrite G. split; [reflexivity|]. intros ->. exists s1. split; [reflexivity|]. split; [|reflexivity].
  cbn [snd fst]. rewrite Av. cbn [factor_of]. intros E. injection E as E.
  unfold schmid_factor in E. assert (T : transform_vector q (V3 0 0 1) = V3 0 0 1) by apply (transform_qone (V3 0 0 1)).
  rewrite T in E. unfold vdot in E. cbn [vx vy vz slip_plane slip_dir s1 s2 ss] in E.
  replace ((0 * 1 + 0 * 0 + 1 * 1) * (0 * -1 + 0 * 0 + 1 * 1))%R with 1%R in E by ring.
  replace ((0 * 0 + 0 * 0 + 1 * 1) * (0 * 1 + 0 * 0 + 1 * 0))%R with 0%R in E by ring.
  rewrite Rabs_R1, Rabs_R0 in E. lra.
Qed.
Print Assumptions C98_table_refuted.

(** ** C99: linked grains are measured from the master's reference *)
Theorem C99_linked : forall K n links a (m : maps) i g l g0 r c,
  (forall l, In l links -> List.length l = n) -> (1 <= i < n)%nat ->
  last_link i g links = Some l -> nth_error l 0 = Some g0 -> g_ref (m 0 g0) = Some r ->
  c = 0 \/ a = true /\ 1 <= c <= 3 ->
  let m' := update_misori K n links a (link_refs n links m) in
  snd (plot_mis (K (Z.of_nat i) g) c (m' (Z.of_nat i) g)) = Ok (deviation (K (Z.of_nat i) g) r c) /\
  reference (K (Z.of_nat i) g) (m' (Z.of_nat i) g) = r.
Proof.
  intros K n links a m i g l g0 r c L Hi EL E0 ER Hc m'. unfold m'. rewrite linked_grain by auto. rewrite EL, E0, ER.
  set (k := K (Z.of_nat i) g). set (x := with_ref _ (Some r)).
  assert (A : at_ref k r x) by (left; reflexivity). unfold build_mis. rewrite (ensure_at k r x A). split; [|reflexivity].
  apply plot_at; [left; reflexivity|intros _; right; reflexivity| |lia].
  intros Pc. destruct Hc as [->|[-> _]]; [lia|]. right. reflexivity.
Qed.
Print Assumptions C99_linked.
(** Grains in no link, and the first map, are untouched. *)
Theorem C99_others : forall K n links a (m : maps), (forall l, In l links -> List.length l = n) ->
  let m' := update_misori K n links a (link_refs n links m) in
  (forall g, m' 0 g = m 0 g) /\
  forall i g, (1 <= i < n)%nat -> (forall l, In l links -> nth_error l i <> Some g) -> m' (Z.of_nat i) g = m (Z.of_nat i) g.
Proof.
  intros K n links a m L m'. unfold m'. split; [intros g; apply linked_master|]. intros i g Hi N. rewrite linked_grain by auto.
  destruct (last_link i g links) as [l|] eqn:E; [|reflexivity]. apply last_link_In in E as [I E]. elim (N l I E).
Qed.
Print Assumptions C99_others.
Example C99_linked_met : let links := [[3; 5]; [4; 6]] in
  (forall l, In l links -> List.length l = 2%nat) /\ last_link 1 6 links = Some [4; 6] /\ (forall l, In l links -> nth_error l 1 <> Some 7) /\
  g_ref (run one_point [PlotMis 0] new_grain) = Some (Some (Q4 1 0 0 0)).
Proof.
  cbn [In]. split; [intuition (subst; reflexivity)|]. split; [reflexivity|]. split; [intuition (subst; discriminate)|].
  change (Some (average one_point) = Some (Some (Q4 1 0 0 0))). now rewrite one_average.
Qed.
(** If the master's reference was not calculated before, the linked grain loses its own and is
    measured from its own average; and GROD data read before stays. *)
Theorem C99_no_master_refuted : forall K n links a (m : maps) i g l g0,
  (forall l, In l links -> List.length l = n) -> (1 <= i < n)%nat ->
  last_link i g links = Some l -> nth_error l 0 = Some g0 -> g_ref (m 0 g0) = None ->
  let m' := update_misori K n links a (link_refs n links m) in
  reference (K (Z.of_nat i) g) (m' (Z.of_nat i) g) = average (K (Z.of_nat i) g).
Proof.
  intros K n links a m i g l g0 L Hi EL E0 ER m'. unfold m'. rewrite linked_grain by auto. rewrite EL, E0, ER. reflexivity.
Qed.
Print Assumptions C99_no_master_refuted.
Theorem C99_grod_refuted : forall K n links a (m : maps) i g d,
  (forall l, In l links -> List.length l = n) -> (1 <= i < n)%nat -> g_grod (m (Z.of_nat i) g) = Some d ->
  let m' := update_misori K n links a (link_refs n links m) in
  snd (read_grod (K (Z.of_nat i) g) (m' (Z.of_nat i) g)) = d.
Proof.
  intros K n links a m i g d L Hi ED m'. unfold m'. rewrite linked_grain by auto.
  assert (D : g_grod (match last_link i g links with
    | Some l => match nth_error l 0 with Some g0 => build_mis (K (Z.of_nat i) g) a (with_ref (m (Z.of_nat i) g) (g_ref (m 0 g0))) | None => m (Z.of_nat i) g end
    | None => m (Z.of_nat i) g end) = Some d).
  { destruct (last_link i g links) as [l|]; auto. destruct (nth_error l 0); auto. unfold build_mis, ensure_ref. cbn [with_ref g_ref]. destruct (g_ref _); exact ED. }
  unfold read_grod. rewrite D. reflexivity.
Qed.
Print Assumptions C99_grod_refuted.
