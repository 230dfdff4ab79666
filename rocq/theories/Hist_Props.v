(** C90: histograms. *)
From Coq Require Import String Reals List ZArith Bool Lia Lra.
Import ListNotations.
From Verif Require Import Py Crystal_Model Pole_Model Hist_Model Hist_Spec Hist_Proofs.
Open Scope R_scope.

(** ** The types *)
Lemma is_in_spec : forall s l, is_in s l = true <-> In s l.
Proof. intros s l. unfold is_in. rewrite existsb_exists. split; [intros (x & I & E); apply String.eqb_eq in E; now subst|intros I; exists s; split; [exact I|apply String.eqb_refl]]. Qed.
(** A plot is made exactly for the three kinds of plot and the four kinds of axes, these in
    any case of letters; anything else is a ValueError.  Each axis is logarithmic exactly if
    asked for. *)
Theorem C90_types : forall plot_ty axes_ty dens,
  (is_axes_type (lower axes_ty) /\ is_plot_type plot_ty -> exists p, hist_init plot_ty axes_ty dens = Ok p /\
     axes_type p = lower axes_ty /\ plot_type p = plot_ty /\ density p = dens /\
     (log_x p = true <-> log_axis (axes_type p)) /\ (log_y p = true <-> axes_type p = "logy"%string \/ axes_type p = "loglog"%string) /\
     label_y p = (if dens then "Normalised frequency" else "Frequency")%string) /\
  (~ (is_axes_type (lower axes_ty) /\ is_plot_type plot_ty) -> hist_init plot_ty axes_ty dens = Err ValueError).
Proof.
  intros plot_ty axes_ty dens. unfold hist_init, is_axes_type, is_plot_type.
  assert (A : In (lower axes_ty) ["linear"; "logx"; "logy"; "loglog"]%string <-> is_in (lower axes_ty) ["linear"; "logy"; "logx"; "loglog"]%string = true) by (rewrite is_in_spec; cbn [In]; tauto).
  rewrite A, <- (is_in_spec plot_ty). destruct (is_in (lower axes_ty) _), (is_in plot_ty _); split; intros K; try (destruct K; discriminate); try reflexivity; try (now elim K).
  eexists. split; [reflexivity|]. unfold log_axis. cbn [axes_type plot_type density log_x log_y label_y]. rewrite !orb_true_iff, !String.eqb_eq. tauto.
Qed.
Print Assumptions C90_types.
(** The documented type 'None' is not accepted. *)
Theorem C90_none_refuted : forall plot_ty dens, hist_init plot_ty "None" dens = Err ValueError.
Proof. intros plot_ty dens. apply C90_types. intros (A & _). cbn in A. intuition discriminate. Qed.
Print Assumptions C90_none_refuted.
Example C90_types_met : exists p, hist_init "bar" "LogX" true = Ok p /\ log_x p = true /\ log_y p = false /\ axes_type p = "logx"%string.
Proof. eexists. repeat split. Qed.

(** ** The bins *)
Lemma axis_test : forall p, (String.eqb (axes_type p) "logx" || String.eqb (axes_type p) "loglog") = true <-> log_axis (axes_type p).
Proof. intros p. unfold log_axis. now rewrite orb_true_iff, !String.eqb_eq. Qed.
(** For a range from low to high and [bins] at least 2 there are edges from one end of the
    range to the other, at equal steps on a linear axis and at equal ratios on a logarithmic
    one; points stand in the middle of the bins and the heights are the counts or densities. *)
Theorem C90_hist_partial : forall p data bins lo hi, (2 <= bins)%Z -> lo < hi -> (log_axis (axes_type p) -> 0 < lo) ->
  exists es ys, add_hist p data bins (Some (lo, hi)) =
      Ok (if String.eqb (plot_type p) "scatter" then Points (map (fun i => (nth i es 0 + nth (S i) es 0) / 2) (seq 0 (List.length es - 1))) ys else Bars (plot_type p) es ys) /\
    Z.of_nat (List.length es) = bins /\ (log_axis (axes_type p) -> equal_ratios lo hi es) /\ (~ log_axis (axes_type p) -> equal_steps lo hi es) /\
    increasing es /\ shows (density p) es data ys.
Proof.
  intros p data bins lo hi B H P. unfold add_hist. destruct (Z.ltb_spec bins 0); [lia|]. set (n := Z.to_nat bins). assert (N : (2 <= n)%nat) by lia.
  assert (E : exists es, (if String.eqb (axes_type p) "logx" || String.eqb (axes_type p) "loglog" then logspace lo hi n else Some (linspace lo hi n)) = Some es /\
    List.length es = n /\ (log_axis (axes_type p) -> equal_ratios lo hi es) /\ (~ log_axis (axes_type p) -> equal_steps lo hi es) /\ increasing es).
  { destruct (String.eqb (axes_type p) "logx" || String.eqb (axes_type p) "loglog") eqn:L.
    - apply axis_test in L. specialize (P L). destruct (logspace lo hi n) as [es|] eqn:Q.
      + exists es. destruct (logspace_ok lo hi n es N P ltac:(lra) Q) as (A & R & I). split; [reflexivity|]. split; [exact A|]. split; [auto|]. split; [intros K; contradiction|auto].
      + unfold logspace in Q. destruct (Rlt_dec 0 lo); [|lra]. destruct (Rlt_dec 0 hi); [discriminate|lra].
    - assert (K : ~ log_axis (axes_type p)) by (intros K; apply axis_test in K; congruence). exists (linspace lo hi n).
      pose proof (linspace_steps lo hi n N) as S0. split; [reflexivity|]. split; [apply linspace_len|]. split; [intros; contradiction|]. split; [auto|]. exact (steps_increasing lo hi _ H S0). }
  destruct E as (es & -> & L & R & S0 & I). exists es, (heights (density p) (diff (cumulative data es)) es). rewrite (histogram_ok data es I). cbn [bind].
  split; [|split; [lia|]; split; [exact R|]; split; [exact S0|]; split; [exact I|]; apply heights_ok; [exact I|lia]].
  destruct (String.eqb (plot_type p) "scatter"); [|reflexivity]. f_equal. f_equal.
  apply (nth_ext _ _ 0 0); [rewrite middles_len, map_length, seq_length; reflexivity|]. intros i K. rewrite middles_len in K.
  rewrite (nth_of _ _ _ (middles_nth es i ltac:(lia))). rewrite (nth_of (map _ _) i ((nth i es 0 + nth (S i) es 0) / 2)); [lra|].
  rewrite nth_error_map, (nth_error_nth' _ 0%nat) by (rewrite seq_length; lia). rewrite seq_nth by lia. reflexivity.
Qed.
Print Assumptions C90_hist_partial.
Example C90_hist_met : exists p, hist_init "scatter" "loglog" true = Ok p /\ (2 <= 10)%Z /\ 1 < 2 /\ (log_axis (axes_type p) -> 0 < 1).
Proof. eexists. split; [reflexivity|]. repeat split; intros; try lra; lia. Qed.
(** The number of bins drawn is one less than asked for. *)
Theorem C90_bins_refuted : forall p data bins lo hi es ys, (2 <= bins)%Z -> lo < hi -> (log_axis (axes_type p) -> 0 < lo) -> plot_type p <> "scatter"%string ->
  add_hist p data bins (Some (lo, hi)) = Ok (Bars (plot_type p) es ys) -> Z.of_nat (List.length ys) = (bins - 1)%Z.
Proof.
  intros p data bins lo hi es ys B H P T E. destruct (C90_hist_partial p data bins lo hi B H P) as (es' & ys' & E' & L & _ & _ & _ & (S1 & _)).
  rewrite E in E'. apply String.eqb_neq in T. rewrite T in E'. injection E' as <- <-. lia.
Qed.
Print Assumptions C90_bins_refuted.
(** The default range is an error. *)
Theorem C90_range_refuted : forall p data bins, add_hist p data bins None = Err TypeError.
Proof. reflexivity. Qed.
Print Assumptions C90_range_refuted.
(** A range from high to low is a ValueError, and so is a negative number of bins. *)
Theorem C90_errors : forall p data bins lo hi, (log_axis (axes_type p) -> 0 < hi) ->
  ((bins < 0)%Z -> add_hist p data bins (Some (lo, hi)) = Err ValueError) /\
  ((2 <= bins)%Z -> hi < lo -> add_hist p data bins (Some (lo, hi)) = Err ValueError).
Proof.
  intros p data bins lo hi P. unfold add_hist. split; [intros B; destruct (Z.ltb_spec bins 0); [reflexivity|lia]|]. intros B H. destruct (Z.ltb_spec bins 0); [lia|].
  set (n := Z.to_nat bins). assert (N : (2 <= n)%nat) by lia.
  destruct (String.eqb (axes_type p) "logx" || String.eqb (axes_type p) "loglog") eqn:L.
  - apply axis_test in L. specialize (P L). destruct (logspace lo hi n) as [es|] eqn:Q.
    + destruct (logspace_ok lo hi n es N ltac:(lra) P Q) as (A & (R0 & R1 & r & RP & RR & R2) & _). unfold histogram. rewrite dec_first; [reflexivity|lia|].
      rewrite (R2 0%nat ltac:(lia)), R0. destruct (Rlt_le_dec r 1) as [C|C]; [|exfalso].
      * assert (0 < (1 - r) * lo) by (apply Rmult_lt_0_compat; lra). lra.
      * pose proof (pow_R1_Rle r (List.length es - 1) C) as X. rewrite RP in X. assert (hi / lo * lo = hi) by (field; lra).
        assert (0 <= (hi / lo - 1) * lo) by (apply Rmult_le_pos; lra). lra.
    + unfold logspace in Q. destruct (Rlt_dec 0 lo); [|lra]. destruct (Rlt_dec 0 hi); [discriminate|lra].
  - unfold histogram. destruct (linspace_steps lo hi n N) as (A & _ & D). specialize (D 0%nat). rewrite linspace_len in D. specialize (D ltac:(lia)).
    rewrite dec_first; [reflexivity|rewrite linspace_len; lia|]. assert (0 < INR (n - 1)) by (apply lt_0_INR; lia).
    assert (0 < (lo - hi) / INR (n - 1)) by (apply Rdiv_lt_0_compat; lra). replace ((hi - lo) / INR (n - 1)) with (- ((lo - hi) / INR (n - 1))) in D by (field; lra). lra.
Qed.
Print Assumptions C90_errors.
Example C90_errors_met : exists p, hist_init "step" "logy" false = Ok p /\ (log_axis (axes_type p) -> 0 < 1) /\ (2 <= 5)%Z /\ 1 < 3.
Proof. eexists. split; [reflexivity|]. repeat split; intros; try lra; lia. Qed.

(** ** Each value once *)
(** The bins cover the range and do not overlap: a number is in the range exactly if it is
    in one bin, and in no two. *)
Theorem C90_once : forall es x, increasing es -> (2 <= List.length es)%nat ->
  (nth 0 es 0 <= x <= nth (List.length es - 1) es 0 <-> exists i, (S i < List.length es)%nat /\ in_bin es i x) /\
  (forall i j, (S i < List.length es)%nat -> (S j < List.length es)%nat -> in_bin es i x -> in_bin es j x -> i = j).
Proof.
  intros es x H L. split.
  - split.
    + intros (A & B).
      assert (K : forall n, (n < List.length es)%nat -> x < nth n es 0 -> exists i, (S i < List.length es)%nat /\ nth i es 0 <= x < nth (S i) es 0).
      { induction n as [|n IH]; intros I X; [lra|]. destruct (Rlt_le_dec x (nth n es 0)) as [C|C]; [apply IH; [lia|exact C]|exists n; split; [exact I|lra]]. }
      destruct (Rle_lt_or_eq_dec _ _ B) as [C|C].
      * destruct (K (List.length es - 1)%nat ltac:(lia) C) as (i & I & Y). exists i. split; [exact I|]. split; [lra|left; lra].
      * exists (List.length es - 2)%nat. split; [lia|]. replace (List.length es - 1)%nat with (S (List.length es - 2)) in C by lia. split; [pose proof (H (List.length es - 2)%nat ltac:(lia)); lra|].
        right. split; [lia|exact C].
    + intros (i & I & A & B). pose proof (inc_le es H i 0 ltac:(lia)). pose proof (inc_le es H (List.length es - 1) (S i) ltac:(lia)). destruct B as [B|(_ & B)]; lra.
  - assert (G : forall i j, (i < j)%nat -> (S j < List.length es)%nat -> in_bin es i x -> in_bin es j x -> False).
    { intros i j IJ J (_ & A) (B & _). pose proof (inc_le es H j (S i) ltac:(lia)). destruct A as [A|(A & _)]; [lra|lia]. }
    intros i j I J A B. destruct (Nat.lt_trichotomy i j) as [C|[C|C]]; [now elim (G i j)|exact C|now elim (G j i)].
Qed.
Print Assumptions C90_once.
Example C90_once_met : increasing [0; 1; 3] /\ in_bin [0; 1; 3] 1 3 /\ ~ in_bin [0; 1; 3] 0 1.
Proof.
  split; [intros [|[|i]] I; cbn in *; try lra; lia|]. split; [split; [cbn; lra|right; split; [reflexivity|cbn; lra]]|]. intros (_ & [A|(A & _)]); [cbn in A; lra|discriminate].
Qed.

(** ** Densities *)
(** If any value is in range the densities are numbers and the area under them is 1. *)
Theorem C90_area : forall data es ys, increasing es -> (2 <= List.length es)%nat -> shows true es data ys ->
  (exists v, In (Some v) data /\ nth 0 es 0 <= v <= nth (List.length es - 1) es 0) ->
  exists zs, ys = map Some zs /\ area es zs = 1.
Proof.
  intros data es ys H L (SL & SH) (v & I & V).
  assert (T : forall P d n, tally P d n -> In (Some v) d -> P v -> (1 <= n)%Z).
  { intros P d n T. induction T as [|x d n p T IH|x d n p T IH|d n T IH]; intros J Q.
    - destruct J.
    - pose proof (tally_nonneg _ _ _ T). lia.
    - destruct J as [J|J]; [injection J as ->; contradiction|auto].
    - destruct J as [J|J]; [discriminate|auto]. }
  pose proof (T _ _ _ (total_ok data es H L) I V) as N.
  assert (E : ys = heights true (diff (cumulative data es)) es).
  { destruct (heights_ok true data es H L) as (HL & HH). apply (nth_ext _ _ None None); [congruence|]. intros i K. rewrite SL in K.
    destruct (SH i ltac:(lia)) as (n & A & t & B & C). destruct (HH i ltac:(lia)) as (n' & A' & t' & B' & C').
    apply nth_error_nth with (d := None) in C. apply nth_error_nth with (d := None) in C'. rewrite C, C', (tally_unique _ _ _ A _ A'), (tally_unique _ _ _ B _ B'). reflexivity. }
  exists (map (fun y => match y with Some z => z | None => 0 end) ys).
  assert (Y : ys = map Some (map (fun y => match y with Some z => z | None => 0 end) ys)).
  { rewrite map_map. rewrite <- (map_id ys) at 1. apply map_ext_in. intros y YI. apply In_nth_error in YI as (i & YI).
    assert (K : (i < List.length ys)%nat) by (apply nth_error_Some; congruence). destruct (SH i ltac:(lia)) as (n & _ & t & B & C). rewrite YI in C. injection C as ->.
    destruct (Z.eq_dec t 0) as [Z0|Z0]; [|reflexivity]. rewrite (tally_unique _ _ _ B _ (total_ok data es H L)) in Z0. lia. }
  split; [exact Y|]. apply (area_diff data es); [exact H|exact L|lia|]. now rewrite <- E.
Qed.
Print Assumptions C90_area.
Example C90_area_met : exists ys, shows true [0; 1; 3] [Some 1; None; Some 5] ys /\ exists v, In (Some v) [Some 1; None; Some 5] /\ nth 0 [0; 1; 3] 0 <= v <= nth 2 [0; 1; 3] 0.
Proof.
  exists (heights true (diff (cumulative [Some 1; None; Some 5] [0; 1; 3])) [0; 1; 3]). split; [apply heights_ok; [|cbn; lia]|exists 1; cbn; split; [auto|lra]].
  intros [|[|i]] I; cbn in *; try lra; lia.
Qed.

(** ** Drawing on a given plot *)
(** [create] on a given plot uses that plot's own types and keeps it. *)
Theorem C90_create : forall p plot_ty axes_ty dens data bins range,
  create (Some p) plot_ty axes_ty dens data bins range = match add_hist p data bins range with Ok d => Ok (p, d) | Err e => Err e end /\
  (forall e, hist_init plot_ty axes_ty dens = Err e -> create None plot_ty axes_ty dens data bins range = Err e) /\
  (forall q, hist_init plot_ty axes_ty dens = Ok q -> create None plot_ty axes_ty dens data bins range = create (Some q) plot_ty axes_ty dens data bins range).
Proof.
  intros p plot_ty axes_ty dens data bins range. unfold create. cbn [bind]. split; [destruct (add_hist p data bins range); reflexivity|].
  split; intros x ->; reflexivity.
Qed.
Print Assumptions C90_create.
Example C90_create_met : exists p, hist_init "bar" "linear" true = Ok p.
Proof. eexists. reflexivity. Qed.
