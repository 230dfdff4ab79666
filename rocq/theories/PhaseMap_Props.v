(** Theorems about labels on maps. *)
From Coq Require Import String Reals Lra.
From Coq Require Import List ZArith Bool Lia.
Import ListNotations.
From Verif Require Import Py Grid Grid_Lemmas Boundary_Model Crystal_Model Base_Model Base_Spec Base_Proofs Base_Props Dic_Model Dic_Spec Dic_Proofs PhaseMap_Model PhaseMap_Spec.
Open Scope Z_scope.

Lemma fold_low (d : pix -> R) : forall l m, let r := fold_left (fun m q => Rmin m (d q)) l m in (r = m \/ exists q, In q l /\ r = d q) /\ (r <= m)%R /\ forall q, In q l -> (r <= d q)%R.
Proof.
  induction l as [|p l IH]; intros m; cbn [fold_left]; [split; [now left|split; [lra|intros q []]]|]. destruct (IH (Rmin m (d p))) as (A & B & D).
  pose proof (Rmin_l m (d p)). pose proof (Rmin_r m (d p)). split; [|split; [cbn zeta in *; lra|intros q [<-|I]; [cbn zeta in *; lra|now apply D]]].
  destruct A as [A|(q & I & A)]; [|right; exists q; split; [now right|exact A]]. assert (M : Rmin m (d p) = m \/ Rmin m (d p) = d p) by (unfold Rmin; destruct (Rle_dec m (d p)); tauto). destruct M as [M|M]; cbn zeta in *; rewrite M in *; [left; exact A|right; exists p; split; [now left|exact A]].
Qed.
Lemma fold_high (d : pix -> R) : forall l m, let r := fold_left (fun m q => Rmax m (d q)) l m in (r = m \/ exists q, In q l /\ r = d q) /\ (m <= r)%R /\ forall q, In q l -> (d q <= r)%R.
Proof.
  induction l as [|p l IH]; intros m; cbn [fold_left]; [split; [now left|split; [lra|intros q []]]|]. destruct (IH (Rmax m (d p))) as (A & B & D).
  pose proof (Rmax_l m (d p)). pose proof (Rmax_r m (d p)). split; [|split; [cbn zeta in *; lra|intros q [<-|I]; [cbn zeta in *; lra|now apply D]]].
  destruct A as [A|(q & I & A)]; [|right; exists q; split; [now right|exact A]]. assert (M : Rmax m (d p) = m \/ Rmax m (d p) = d p) by (unfold Rmax; destruct (Rle_dec m (d p)); tauto). destruct M as [M|M]; cbn zeta in *; rewrite M in *; [left; exact A|right; exists p; split; [now left|exact A]].
Qed.
Lemma lowest_spec W H d : 0 < W -> 0 < H -> (exists p, inside W H p /\ lowest W H d = d p) /\ forall p, inside W H p -> (lowest W H d <= d p)%R.
Proof.
  intros HW HH. assert (AP : forall p, In p (all_pix W H) <-> inside W H p) by (intros p; apply all_pix_In; lia). unfold lowest. destruct (all_pix W H) as [|p l].
  - destruct (proj2 (AP (0, 0))). split; cbn; lia.
  - destruct (fold_low d l (d p)) as (A & B & D). split.
    + destruct A as [A|(q & I & A)]; [exists p|exists q]; (split; [apply AP; cbn; tauto|exact A]).
    + intros q I. apply AP in I as [<-|I]; [exact B|now apply D].
Qed.
Lemma highest_spec W H d : 0 < W -> 0 < H -> (exists p, inside W H p /\ highest W H d = d p) /\ forall p, inside W H p -> (d p <= highest W H d)%R.
Proof.
  intros HW HH. assert (AP : forall p, In p (all_pix W H) <-> inside W H p) by (intros p; apply all_pix_In; lia). unfold highest. destruct (all_pix W H) as [|p l].
  - destruct (proj2 (AP (0, 0))). split; cbn; lia.
  - destruct (fold_high d l (d p)) as (A & B & D). split.
    + destruct A as [A|(q & I & A)]; [exists p|exists q]; (split; [apply AP; cbn; tauto|exact A]).
    + intros q I. apply AP in I as [<-|I]; [exact B|now apply D].
Qed.
Section C117.
Context {C : Type}.
Lemma colour_total (l : layer C) v : l_table l <> [] -> (l_min l <= l_max l)%R -> exists c, colour_of l v = Ok c.
Proof.
  intros T L. unfold colour_of. destruct (Rlt_dec (l_max l) (l_min l)) as [Q|_]; [lra|]. cbv zeta.
  set (x := if Req_EM_T (l_min l) (l_max l) then 0%R else _). clearbody x. set (n := Z.of_nat (List.length (l_table l))).
  assert (N : 0 < n) by (unfold n; destruct (l_table l); [congruence|cbn [List.length]; lia]).
  set (i := if Rlt_dec x 0 then 0 else if Rlt_dec x 1 then Int_part (x * IZR n) else n - 1).
  assert (B : 0 <= i < n).
  { unfold i. destruct (Rlt_dec x 0); [lia|]. destruct (Rlt_dec x 1) as [X|]; [|lia]. destruct (base_Int_part (x * IZR n)) as (B1 & B2).
    assert (0 < IZR n)%R by (apply IZR_lt; exact N). split.
    - assert (-1 < Int_part (x * IZR n)); [|lia]. apply lt_IZR. nra.
    - apply lt_IZR. nra. }
  destruct (nth_error (l_table l) (Z.to_nat i)) as [c|] eqn:E; [exists c; reflexivity|]. exfalso. apply nth_error_None in E. lia.
Qed.
Lemma legend_ok (l : layer C) rest values labels : l_table l <> [] -> (l_min l <= l_max l)%R -> (List.length values <= List.length labels)%nat ->
  exists es, add_legend values labels (l :: rest) = Ok es /\ List.length es = List.length values /\
  forall i v, nth_error values i = Some v -> exists c s, nth_error es i = Some (c, s) /\ colour_of l v = Ok c /\ nth_error labels i = Some s.
Proof.
  intros T L LE. unfold add_legend.
  assert (M : exists cs, map_res (colour_of l) values = Ok cs /\ Forall2 (fun v c => colour_of l v = Ok c) values cs).
  { clear LE. induction values as [|v values (cs & E & F)]; [exists []; split; [reflexivity|constructor]|]. destruct (colour_total l v T L) as (c & Q). exists (c :: cs). cbn [map_res]. rewrite Q. cbn [bind]. rewrite E. split; [reflexivity|]. now constructor. }
  destruct M as (cs & E & F). rewrite E. cbn [bind].
  assert (LC : List.length cs = List.length values) by (clear - F; induction F; [reflexivity|cbn; now f_equal]).
  assert (G : forall is, (forall i, In i is -> (i < List.length values)%nat) -> exists es,
    map_res (fun i => match nth_error cs i, nth_error labels i with Some c, Some s => Ok (c, s) | _, _ => Err IndexError end) is = Ok es /\
    Forall2 (fun i e => nth_error cs i = Some (fst e) /\ nth_error labels i = Some (snd e)) is es).
  { induction is as [|i is IH]; intros B; [exists []; split; [reflexivity|constructor]|]. destruct IH as (es & E1 & F1); [intros j J; apply B; now right|].
    assert (Bi : (i < List.length values)%nat) by (apply B; now left).
    destruct (nth_error cs i) as [c|] eqn:Ec; [|apply nth_error_None in Ec; lia]. destruct (nth_error labels i) as [s|] eqn:Es; [|apply nth_error_None in Es; lia].
    exists ((c, s) :: es). cbn [map_res]. rewrite Ec, Es. cbn [bind]. rewrite E1. split; [reflexivity|]. constructor; [split; assumption|exact F1]. }
  destruct (G (seq 0 (List.length values))) as (es & E1 & F1); [intros i I; apply in_seq in I; lia|]. exists es. split; [exact E1|].
  assert (LS : List.length es = List.length (seq 0 (List.length values))) by (clear - F1; induction F1; [reflexivity|cbn; now f_equal]). rewrite seq_length in LS. split; [exact LS|].
  intros i v V. assert (Bi : (i < List.length values)%nat) by (apply nth_error_Some; congruence).
  assert (X : exists e, nth_error es i = Some e /\ nth_error cs i = Some (fst e) /\ nth_error labels i = Some (snd e)).
  { assert (NI : nth_error (seq 0 (List.length values)) i = Some i) by (rewrite (nth_error_nth' _ O) by (rewrite seq_length; exact Bi); rewrite seq_nth by exact Bi; reflexivity).
    clear - F1 NI. revert F1 NI. generalize (seq 0 (List.length values)). generalize i at 1 3. intros k is F. revert k. induction F as [|j e is es Q F IH]; intros [|k] NI; try discriminate; [injection NI as ->; exists e; split; [reflexivity|exact Q]|]. now apply IH. }
  destruct X as ((c & s) & X1 & X2 & X3). exists c, s. split; [exact X1|]. split; [|exact X3]. cbn [fst] in X2.
  clear - F V X2. revert i V X2. induction F as [|v' c' values cs Q F IH]; intros [|i] V X2; try discriminate; [injection V as ->; injection X2 as ->; exact Q|]. now apply (IH i).
Qed.
(** On a new plot every pixel has the colour that the legend gives for the name of its phase, whatever
    the limits and colours; every phase is in the legend once, in order, after those not indexed. *)
Theorem C117_legend_partial : forall W H names phase vmin vmax (table : list C) lo hi, 0 < W -> 0 < H -> names <> [] -> table <> [] ->
  limit_low W H phase vmin lo -> limit_high W H names phase vmax hi -> (lo <= hi)%R ->
  exists l es, plot_phase_map W H names phase vmin vmax table [] = ([l], Ok es) /\ l_min l = lo /\ l_max l = hi /\
    List.length es = S (List.length names) /\
    (forall i c s, nth_error es i = Some (c, s) -> phase_name names i s /\ forall p, phase p = Z.of_nat i -> drawn l p = Ok c).
Proof.
  intros W H names phase vmin vmax table lo hi HW HH NE TE LO HI LE. unfold plot_phase_map. destruct names as [|nm names0] eqn:EN; [congruence|]. rewrite <- EN in *.
  set (l := Layer (fun p => IZR (phase p)) lo hi table). set (n := List.length names).
  assert (AI : add_image W H (fun p => IZR (phase p)) (match vmin with Some x => x | None => Some 0%R end) (match vmax with Some x => x | None => option_map INR (Some n) end) table [] = [l]).
  { unfold add_image. cbn [app]. f_equal. unfold l. f_equal.
    - destruct vmin as [[y|]|]; cbn [limit_low] in LO; [now rewrite LO| |now rewrite LO]. destruct (lowest_spec W H (fun p => IZR (phase p)) HW HH) as ((p & P1 & P2) & P3). destruct LO as ((q & Q1 & Q2) & Q3).
      specialize (P3 q Q1). specialize (Q3 p P1). cbn beta in *. lra.
    - destruct vmax as [[y|]|]; cbn [limit_high option_map] in HI |- *; [now rewrite HI| |now rewrite HI]. destruct (highest_spec W H (fun p => IZR (phase p)) HW HH) as ((p & P1 & P2) & P3). destruct HI as ((q & Q1 & Q2) & Q3).
      specialize (P3 q Q1). specialize (Q3 p P1). cbn beta in *. lra. }
  rewrite AI. destruct (legend_ok l [] (map INR (seq 0 (n + 1))) ("Non-indexed"%string :: names) TE LE) as (es & E & LN & A).
  { rewrite map_length, seq_length. cbn [List.length]. unfold n. lia. }
  rewrite map_length, seq_length in LN. exists l, es. split; [now rewrite E|]. split; [reflexivity|]. split; [reflexivity|]. split; [unfold n in LN; lia|].
  intros i c s Q. assert (B : (i < n + 1)%nat) by (rewrite <- LN; apply nth_error_Some; congruence).
  destruct (A i (INR i)) as (c' & s' & Q' & K & Lb).
  { rewrite nth_error_map, (nth_error_nth' _ O) by (rewrite seq_length; exact B). rewrite seq_nth by exact B. reflexivity. }
  rewrite Q in Q'. injection Q' as <- <-. split.
  - destruct i as [|i]; cbn [nth_error phase_name] in *; [injection Lb as <-; reflexivity|exact Lb].
  - intros p P. unfold drawn, l at 2. cbn [l_data]. rewrite P, <- INR_IZR_INZ. exact K.
Qed.
(** With the limits not given and more different colours than phases, no two names have the same colour. *)
Theorem C117_distinct : forall W H names phase (table : list C) es i j c s t ls, NoDup table -> (List.length names < List.length table)%nat ->
  plot_phase_map W H names phase None None table [] = (ls, Ok es) -> nth_error es i = Some (c, s) -> nth_error es j = Some (c, t) -> i = j.
Proof.
  intros W H names phase table es i j c s t ls ND LT E Ei Ej. unfold plot_phase_map in E. destruct names as [|nm names0] eqn:EN; [discriminate|]. rewrite <- EN in *.
  set (n := List.length names) in *. assert (N0 : (0 < n)%nat) by (unfold n; rewrite EN; cbn; lia). unfold add_image in E. cbn [app option_map] in E. set (l := Layer (fun p => IZR (phase p)) 0%R (INR n) table) in *.
  apply (f_equal snd) in E. cbn [snd] in E. destruct (legend_ok l [] (map INR (seq 0 (n + 1))) ("Non-indexed"%string :: names)) as (es' & E' & LN & A).
  { unfold l. cbn [l_table]. intros ->. cbn in LT. lia. }
  { unfold l. cbn [l_min l_max]. apply pos_INR. }
  { rewrite map_length, seq_length. cbn [List.length]. unfold n. lia. }
  rewrite E in E'. injection E' as <-. rewrite map_length, seq_length in LN.
  assert (K : forall k c s, nth_error es k = Some (c, s) -> (k <= n)%nat /\ colour_of l (INR k) = Ok c).
  { intros k c' s' Q. assert (B : (k < n + 1)%nat) by (rewrite <- LN; apply nth_error_Some; congruence). split; [lia|].
    destruct (A k (INR k)) as (c2 & s2 & Q' & K & _); [|rewrite Q in Q'; injection Q' as <- <-; exact K].
    rewrite nth_error_map, (nth_error_nth' _ O) by (rewrite seq_length; exact B). rewrite seq_nth by exact B. reflexivity. }
  set (N := Z.of_nat (List.length table)). assert (NN : (INR n + 1 <= IZR N)%R) by (unfold N; rewrite <- INR_IZR_INZ; rewrite <- S_INR; apply le_INR; lia).
  assert (NP : (1 <= INR n)%R) by (change 1%R with (INR 1); apply le_INR; lia).
  (* the place in the table *)
  assert (PL : forall k c, (k <= n)%nat -> colour_of l (INR k) = Ok c -> exists z, nth_error table (Z.to_nat z) = Some c /\ 0 <= z < N /\
             ((k < n)%nat -> (IZR z <= INR k * IZR N / INR n < IZR z + 1)%R) /\ (k = n -> z = N - 1)).
  { intros k c' B Q. unfold colour_of in Q. unfold l in Q. cbn [l_min l_max l_table] in Q. destruct (Rlt_dec (INR n) 0) as [|_]; [discriminate|]. cbv zeta in Q.
    destruct (Req_EM_T 0 (INR n)) as [Z0|_]; [lra|]. set (x := ((INR k - 0) / (INR n - 0))%R) in *.
    assert (X : (x * INR n = INR k)%R) by (unfold x; field; lra). pose proof (pos_INR k) as Pk.
    destruct (Rlt_dec x 0) as [X0|X0]; [exfalso; nra|]. fold N in Q. destruct (Rlt_dec x 1) as [X1|X1].
    - assert (KN : (k < n)%nat) by (apply INR_lt; nra). destruct (nth_error table (Z.to_nat (Int_part (x * IZR N)))) eqn:T; [|discriminate]. injection Q as ->.
      exists (Int_part (x * IZR N)). split; [exact T|]. destruct (base_Int_part (x * IZR N)) as (B1 & B2). replace (INR k * IZR N / INR n)%R with (x * IZR N)%R by (rewrite <- X; field; lra).
      split; [|split; [intros _; lra|lia]]. split; [assert (-1 < Int_part (x * IZR N)); [|lia]; apply lt_IZR; nra|apply lt_IZR; nra].
    - assert (KN : k = n). { destruct (Nat.eq_dec k n) as [Y|Y]; [exact Y|]. assert (S k <= n)%nat by lia. apply le_INR in H0. rewrite S_INR in H0. exfalso. apply X1. nra. }
      destruct (nth_error table (Z.to_nat (N - 1))) eqn:T; [|discriminate]. injection Q as ->. exists (N - 1). split; [exact T|]. split; [unfold N; lia|]. split; [lia|reflexivity]. }
  assert (W0 : forall k k' c, (k < k' <= n)%nat -> colour_of l (INR k) = Ok c -> colour_of l (INR k') = Ok c -> False).
  { intros k k' c' B Q Q'. destruct (PL k c' ltac:(lia) Q) as (z & T & Z1 & Z2 & _). destruct (PL k' c' ltac:(lia) Q') as (z' & T' & Z1' & Z2' & Z3').
    assert (ZE : z = z').
    { assert (Z.to_nat z = Z.to_nat z'); [|lia]. apply (proj1 (NoDup_nth_error table) ND); [apply nth_error_Some; congruence|congruence]. }
    subst z'. specialize (Z2 ltac:(lia)). set (u := (IZR N / INR n)%R). assert (U : (u * INR n = IZR N)%R) by (unfold u; field; lra). assert (U1 : (1 < u)%R) by nra.
    replace (INR k * IZR N / INR n)%R with (INR k * u)%R in Z2 by (unfold u; field; lra).
    destruct (Nat.eq_dec k' n) as [->|KN].
    - rewrite (Z3' eq_refl) in Z2. rewrite minus_IZR in Z2. assert (S k <= n)%nat by lia. apply le_INR in H0. rewrite S_INR in H0. nra.
    - specialize (Z2' ltac:(lia)). replace (INR k' * IZR N / INR n)%R with (INR k' * u)%R in Z2' by (unfold u; field; lra). assert (S k <= k')%nat by lia. apply le_INR in H0. rewrite S_INR in H0. nra. }
  destruct (K i c s Ei) as (Bi & Ki). destruct (K j c t Ej) as (Bj & Kj). destruct (Nat.lt_trichotomy i j) as [Q|[Q|Q]]; [destruct (W0 i j c); [lia|exact Ki|exact Kj]|exact Q|destruct (W0 j i c); [lia|exact Kj|exact Ki]].
Qed.
(** On a plot that was given, the legend is about the first image on it. *)
Theorem C117_given_refuted : forall (a b : C), a <> b -> exists W H names phase (table : list C) layers (ls : list (layer C)) es (c : C) s p, 0 < W /\ 0 < H /\ inside W H p /\
  plot_phase_map W H names phase None None table layers = (ls, Ok es) /\ nth_error es (Z.to_nat (phase p)) = Some (c, s) /\ phase_name names (Z.to_nat (phase p)) s /\
  exists l, In l ls /\ l_data l = (fun p => IZR (phase p)) /\ drawn l p <> Ok c.
Proof.
  intros a b NE. exists 1, 1, ["ferrite"%string], (fun _ => 1), [a; a], [Layer (fun _ => 0%R) 0%R 1%R [b]]. eexists. eexists. exists b, "ferrite"%string, (0, 0). split; [lia|]. split; [lia|]. split; [split; cbn; lia|].
  assert (CB : forall v, colour_of (Layer (fun _ : pix => 0%R) 0%R 1%R [b]) v = Ok b).
  { intros v. destruct (colour_total (Layer (fun _ : pix => 0%R) 0%R 1%R [b]) v) as (c & E); [discriminate|cbn; lra|]. rewrite E. unfold colour_of in E. destruct (Rlt_dec _ _); [discriminate|]. cbv zeta in E. cbn [l_table] in E. destruct (nth_error [b] _) as [c'|] eqn:T; [|discriminate]. apply nth_error_In in T as [<-|[]]. congruence. }
  split; [unfold plot_phase_map; cbn [List.length option_map add_image app]; unfold add_legend; cbn [List.length Nat.add seq map map_res]; rewrite !CB; cbn [bind List.length seq map_res nth_error]; reflexivity|].
  split; [reflexivity|]. split; [reflexivity|]. eexists. split; [right; left; reflexivity|]. split; [reflexivity|]. intros Q. unfold drawn, colour_of in Q. cbn [l_data l_min l_max l_table List.length] in Q.
  destruct (Rlt_dec _ _); [discriminate|]. cbv zeta in Q. destruct (nth_error [a; a] _) as [c'|] eqn:T; [|discriminate]. apply nth_error_In in T as [<-|[<-|[]]]; congruence.
Qed.
(** Without phases the map is drawn, but there is no legend: the call fails. *)
Theorem C117_no_phases_refuted : forall W H phase vmin vmax (table : list C) layers, exists l, plot_phase_map W H [] phase vmin vmax table layers = (layers ++ [l], Err TypeError).
Proof. intros. eexists. reflexivity. Qed.
End C117.
(** The map of phase boundaries shows 1 on them and 0 elsewhere; dilated, 1 beside them as well. *)
Theorem C117_boundaries : forall W H b p, inside W H p ->
  (phase_boundary_map W H b false p = 1 <-> b p = true) /\
  (phase_boundary_map W H b true p = 1 <-> b p = true \/ exists q, inside W H q /\ next_to p q /\ b q = true) /\
  forall d, phase_boundary_map W H b d p = 0 \/ phase_boundary_map W H b d p = 1.
Proof.
  intros W H b p I. unfold phase_boundary_map. split; [destruct (b p); split; congruence|]. split; [|intros d; destruct ((if d then _ else _) p); [now right|now left]].
  change (dilate1 W H b) with (dilate 1 W H b). split.
  - destruct (dilate 1 W H b p) eqn:E; [|discriminate]. intros _. apply dilate_iff in E as (q & Q & T & B); [|exact I]. unfold taxi in T.
    destruct (Z.eq_dec (Z.abs (fst p - fst q) + Z.abs (snd p - snd q)) 1) as [X|X]; [right; exists q; split; [exact Q|split; [exact X|exact B]]|left].
    assert (p = q) as ->; [destruct p, q; cbn [fst snd] in *; f_equal; lia|exact B].
  - intros D. assert (E : dilate 1 W H b p = true); [|now rewrite E]. apply dilate_iff; [exact I|]. destruct D as [B|(q & Q & T & B)]; [exists p; unfold taxi; split; [exact I|split; [lia|exact B]]|].
    exists q. split; [exact Q|]. split; [unfold taxi; unfold next_to in T; lia|exact B].
Qed.
(** The numbers: the id of every grain, in its bounding box. *)
Theorem C117_numbers : forall grains, Forall (fun g => g <> []) grains ->
  exists ts, add_grain_numbers grains = Ok ts /\ List.length ts = List.length grains /\
  forall k g, nth_error grains k = Some g -> exists x y x0 y0 x1 y1, nth_error ts k = Some (x, y, Z.of_nat k) /\
    centre_coords g "com" false = Ok (x, y) /\ bounding_box g x0 y0 x1 y1 /\ x0 <= x <= x1 /\ y0 <= y <= y1.
Proof.
  intros grains F. unfold add_grain_numbers.
  assert (X : forall m gs, Forall (fun g : list pix => g <> []) gs -> exists ts,
    map_res (fun ig => do c <- centre_coords (snd ig) "com" false; Ok (fst c, snd c, fst ig)) (combine (map Z.of_nat (seq m (List.length gs))) gs) = Ok ts /\ List.length ts = List.length gs /\
    forall k g, nth_error gs k = Some g -> exists x y x0 y0 x1 y1, nth_error ts k = Some (x, y, Z.of_nat (m + k)) /\
      centre_coords g "com" false = Ok (x, y) /\ bounding_box g x0 y0 x1 y1 /\ x0 <= x <= x1 /\ y0 <= y <= y1).
  { intros m gs. revert m. induction gs as [|g gs IH]; intros m FF; [exists []; split; [reflexivity|]; split; [reflexivity|]; intros [|k] g; discriminate|].
    inversion FF as [|? ? G FG]; subst. destruct (C78_centre g "com" G) as (x0 & y0 & x1 & y1 & B & CC & _). destruct CC as (x & y & E & X & Y & _); [now right|].
    destruct (IH (S m) FG) as (ts & ET & LT & A). exists ((x, y, Z.of_nat m) :: ts). cbn [List.length seq map combine map_res fst snd]. rewrite E. cbn [bind fst snd]. rewrite ET. split; [reflexivity|]. split; [now rewrite LT|].
    intros [|k] g' N; cbn [nth_error] in *.
    - injection N as <-. exists x, y, x0, y0, x1, y1. rewrite Nat.add_0_r. split; [reflexivity|]. split; [exact E|]. split; [exact B|]. split; [exact X|exact Y].
    - destruct (A k g' N) as (x' & y' & a0 & b0 & a1 & b1 & Q). exists x', y', a0, b0, a1, b1. replace (m + S k)%nat with (S m + k)%nat by lia. exact Q. }
  exact (X 0%nat grains F).
Qed.
(** But not always on the grain: a grain around another has its number written on that one, and both
    numbers are in the same place. *)
Theorem C117_number_refuted : exists grains x y, good_grains 3 3 grains /\ nth_error grains 1 = Some [(x, y)] /\
  add_grain_numbers grains = Ok [(x, y, 0); (x, y, 1)].
Proof.
  exists [[(0, 0); (1, 0); (2, 0); (0, 1); (2, 1); (0, 2); (1, 2); (2, 2)]; [(1, 1)]], 1, 1. split.
  - split; [constructor; [|constructor; [|constructor]]|constructor; [constructor; [|constructor]|constructor; [constructor|constructor]]].
    + split; [repeat constructor; cbn; intuition discriminate|]. intros p I. cbn in I. unfold inside. decompose [or] I; subst; cbn; try lia; contradiction.
    + split; [repeat constructor; intros []|]. intros p [<-|[]]. split; cbn; lia.
    + intros p I [<-|[]]. cbn in I. intuition discriminate.
  - split; [reflexivity|]. assert (R1 : forall n, rint (IZR n) = n).
    { intros n. assert (B : (IZR n <= IZR n <= IZR n)%R) by lra. pose proof (rint_between (IZR n) n n B). lia. }
    unfold add_grain_numbers. cbn [List.length seq map combine map_res fst snd]. unfold centre_coords. cbn [extreme_coords bind String.eqb Ascii.eqb Bool.eqb map fst snd List.length INR zsum fold_left Z.add].
    cbn. replace (8 / (1 + 1 + 1 + 1 + 1 + 1 + 1 + 1))%R with 1%R by field. replace (1 / 1)%R with 1%R by field. rewrite !R1. reflexivity.
Qed.
(** The map of grains shows a number that is one more than the id written on the grain. *)
Theorem C117_grain_map_refuted : forall grains labels k g p ts, labelled grains labels -> nth_error grains k = Some g -> In p g -> add_grain_numbers grains = Ok ts -> Forall (fun g => g <> []) grains ->
  exists x y n, nth_error ts k = Some (x, y, n) /\ plot_grain_map labels p = n + 1.
Proof.
  intros grains labels k g p ts L N I E F. destruct (C117_numbers grains F) as (ts' & E' & _ & A). rewrite E in E'. injection E' as <-. destruct (A k g N) as (x & y & _ & _ & _ & _ & T & _).
  exists x, y, (Z.of_nat k). split; [exact T|]. exact (L k g p N I).
Qed.
Example C117_met : let table := [0; 1; 2; 3; 4] in let phase := fun p : pix => fst p in
  NoDup table /\ limit_low 3 1 phase None 0%R /\ limit_high 3 1 ["a"; "b"]%string phase None (INR 2) /\ (0 <= INR 2)%R /\
  limit_low 3 1 phase (Some None) 0%R /\ limit_high 3 1 ["a"; "b"]%string phase (Some None) 2%R /\
  exists ls es, plot_phase_map 3 1 ["a"; "b"]%string phase None None table [] = (ls, Ok es) /\ List.length es = 3%nat.
Proof.
  cbv zeta. split; [repeat constructor; cbn; intuition discriminate|]. split; [reflexivity|]. split; [reflexivity|]. split; [cbn; lra|].
  assert (I : forall x, 0 <= x < 3 -> inside 3 1 (x, 0)) by (intros x B; split; cbn; lia).
  split; [split; [exists (0, 0); split; [apply I; lia|reflexivity]|intros p (B & _); apply IZR_le; lia]|].
  split; [split; [exists (2, 0); split; [apply I; lia|reflexivity]|intros p (B & _); apply IZR_le; lia]|].
  destruct (C117_legend_partial 3 1 ["a"; "b"]%string (fun p => fst p) None None [0; 1; 2; 3; 4] 0%R (INR 2)) as (l & es & E & _ & _ & L & _); [lia|lia|discriminate|discriminate|reflexivity|reflexivity|cbn; lra|].
  exists [l], es. split; [exact E|exact L].
Qed.
Print Assumptions C117_legend_partial.
Print Assumptions C117_distinct.
Print Assumptions C117_given_refuted.
Print Assumptions C117_no_phases_refuted.
Print Assumptions C117_boundaries.
Print Assumptions C117_numbers.
Print Assumptions C117_number_refuted.
Print Assumptions C117_grain_map_refuted.
Print Assumptions C117_met.
