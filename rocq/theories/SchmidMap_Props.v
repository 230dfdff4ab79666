(** Theorems about maps of Schmid factors. *)
From Coq Require Import String Ascii Reals ZArith Bool Lia Lra.
From Coq Require Import List.
From Verif Require Import Py Grid Grid_Lemmas Boundary_Model Base_Model Base_Spec Base_Proofs Quat_Model Crystal_Model Ebsd_Model EbsdGrain_Props GrainState_Model GrainState_Spec GrainState_Proofs MapView_Model MapView_Spec MapView_Props SchmidMap_Model SchmidMap_Spec.
Import ListNotations.
Open Scope Z_scope.

Definition after_schmid (load : vec3) (systems : option (list (list slip_system))) (x x' : mgrain) : Prop :=
  fst x' = fst x /\ other_data (gstate x) (gstate x') /\ g_ref (gstate x') = Some (reference (gconst x) (gstate x)) /\
  exists groups, systems_for systems x = Some groups /\ g_sfs (gstate x') = Some (factors_for load (reference (gconst x) (gstate x)) groups).
Lemma one_schmid load systems x groups : systems_for systems x = Some groups ->
  exists g, calc_schmid (gconst x) load systems (gstate x) = (g, Ok tt) /\ after_schmid load systems x (fst x, g).
Proof.
  intros E. unfold calc_schmid. destruct (ensure_ref (gconst x) (gstate x)) as (g, r) eqn:ER.
  assert (EE : r = reference (gconst x) (gstate x) /\ g = with_ref (gstate x) (Some r)).
  { unfold ensure_ref in ER. unfold reference. destruct (gstate x) as [rf mi ax sf rd an inc gr]. cbn [g_ref] in *. destruct rf; injection ER as <- <-; split; reflexivity. }
  destruct EE as (-> & ->). unfold systems_for in E. rewrite E. eexists. split; [reflexivity|]. unfold after_schmid, gstate. cbn [fst snd].
  split; [reflexivity|]. split; [unfold other_data; cbn; repeat split|]. split; [reflexivity|]. exists groups. split; [exact E|]. cbn [g_sfs]. f_equal.
  unfold factors_for, schmid_factors, factor_of. destruct (reference (gconst x) (snd x)); [rewrite map_map; apply map_ext; intros l; rewrite map_map; reflexivity|reflexivity].
Qed.
(** For all grains: the factors for this direction of load and the grain's reference (its average
    if there was none), and nothing else changes. *)
Theorem C116_calculated : forall load systems gs, (forall x, In x gs -> systems_for systems x <> None) ->
  exists gs', map_schmid load systems gs = (gs', Ok tt) /\
  Forall2 (fun x x' => fst x' = fst x /\ other_data (gstate x) (gstate x') /\ g_ref (gstate x') = Some (reference (gconst x) (gstate x)) /\
             exists groups, systems_for systems x = Some groups /\ g_sfs (gstate x') = Some (factors_for load (reference (gconst x) (gstate x)) groups)) gs gs'.
Proof.
  intros load systems gs. change (fun x x' => _) with (after_schmid load systems). unfold map_schmid. induction gs as [|x gs IH]; intros S; cbn [each_until]; [exists []; split; [reflexivity|constructor]|].
  destruct (systems_for systems x) as [groups|] eqn:E; [|destruct (S x (or_introl eq_refl) E)].
  destruct (one_schmid load systems x groups E) as (g & C & A). change (fst (fst x)) with (gconst x). change (snd x) with (gstate x). rewrite C.
  destruct IH as (gs' & -> & F); [intros y I; apply S; now right|]. eexists. split; [reflexivity|]. now constructor.
Qed.

Lemma max_some q load : forall l a, exists m, fold_left (fun m x => match m, x with Some a, Some b => if Rlt_dec a b then x else m | _, _ => m end)
    (map (factor_of (Some q) load) l) (Some a) = Some m /\
  (m = a \/ exists s, In s l /\ schmid_factor q load s = m) /\ (a <= m)%R /\ forall s, In s l -> (schmid_factor q load s <= m)%R.
Proof.
  induction l as [|s l IH]; intros a; cbn [map fold_left]; [exists a; split; [reflexivity|split; [now left|split; [lra|intros s []]]]|].
  cbn [factor_of]. destruct (Rlt_dec a (schmid_factor q load s)) as [L|L].
  - destruct (IH (schmid_factor q load s)) as (m & E & A & B & C). exists m. split; [exact E|]. split.
    + right. destruct A as [->|(s' & I & A)]; [exists s; split; [now left|reflexivity]|exists s'; split; [now right|exact A]].
    + split; [lra|]. intros s' [<-|I]; [exact B|now apply C].
  - destruct (IH a) as (m & E & A & B & C). exists m. split; [exact E|]. split.
    + destruct A as [->|(s' & I & A)]; [now left|right; exists s'; split; [now right|exact A]].
    + split; [exact B|]. intros s' [<-|I]; [lra|now apply C].
Qed.
Lemma max_none load l : fold_left (fun m x => match m, x with Some a, Some b => if Rlt_dec a b then x else m | _, _ => m end) (map (factor_of None load) l) None = None.
Proof. induction l as [|s l IH]; [reflexivity|]. cbn [map fold_left]. exact IH. Qed.
(** Choosing from a table commutes with calculating it. *)
Lemma map_py_get {A B} (f : A -> B) l i : py_get (map f l) i = (do a <- py_get l i; Ok (f a)).
Proof.
  unfold py_get. rewrite map_length. destruct (np_index (Z.of_nat (List.length l)) i) as [k|]; [|reflexivity]. rewrite nth_error_map. destruct (nth_error l (Z.to_nat k)); reflexivity.
Qed.
Lemma chosen_map {A B} (f : A -> B) t planes directions : chosen_factors (map (map f) t) planes directions = (do l <- chosen_factors t planes directions; Ok (map f l)).
Proof.
  unfold chosen_factors. destruct planes as [ps|]; [|cbn [bind]; now rewrite concat_map].
  enough (X : forall acc, for_each (fun (acc : list B) pl => match directions with
      | Some ds => for_each (fun (acc : list B) d => do grp <- py_get (map (map f) t) pl; do v <- py_get grp d; Ok (acc ++ [v])) ds acc
      | None => do grp <- py_get (map (map f) t) pl; Ok (acc ++ grp) end) ps (map f acc) =
    (do l <- for_each (fun (acc : list A) pl => match directions with
      | Some ds => for_each (fun (acc : list A) d => do grp <- py_get t pl; do v <- py_get grp d; Ok (acc ++ [v])) ds acc
      | None => do grp <- py_get t pl; Ok (acc ++ grp) end) ps acc; Ok (map f l))) by exact (X []).
  induction ps as [|p ps IH]; intros acc; cbn [for_each]; [reflexivity|].
  destruct directions as [ds|].
  - assert (D : for_each (fun acc d => do grp <- py_get (map (map f) t) p; do v <- py_get grp d; Ok (acc ++ [v])) ds (map f acc) =
                (do l <- for_each (fun acc d => do grp <- py_get t p; do v <- py_get grp d; Ok (acc ++ [v])) ds acc; Ok (map f l))).
    { clear IH. revert acc. induction ds as [|d ds IHd]; intros acc; cbn [for_each]; [reflexivity|]. rewrite map_py_get in *. destruct (py_get t p) as [grp|z]; [|reflexivity]. cbn [bind] in *.
      rewrite map_py_get. destruct (py_get grp d) as [v|z]; [|reflexivity]. cbn [bind]. replace (map f acc ++ [f v]) with (map f (acc ++ [v])) by (rewrite map_app; reflexivity). apply IHd. }
    rewrite D. destruct (for_each _ ds acc) as [l|z]; [|reflexivity]. cbn [bind]. apply IH.
  - rewrite map_py_get. destruct (py_get t p) as [grp|z]; [|reflexivity]. cbn [bind]. rewrite <- map_app. apply IH.
Qed.
Lemma asked_wanted groups planes directions s : asked groups planes directions s <-> wanted groups planes directions s.
Proof. reflexivity. Qed.
Lemma grain_shown load r groups planes directions g : planes <> None \/ directions = None -> choices_exist groups planes directions -> (exists s, asked groups planes directions s) ->
  g_sfs g = Some (factors_for load r groups) ->
  exists v, grain_factor planes directions g = Ok v /\ match r with Some q => exists m, v = Some m /\ greatest_factor q load groups planes directions m | None => v = None end.
Proof.
  intros C V (s0 & A0) E. unfold grain_factor. rewrite E. unfold factors_for. rewrite chosen_map.
  destruct (chosen_total groups planes directions V) as (l & L). rewrite L. cbn [bind]. pose proof (chosen_spec _ _ _ _ C L) as SP.
  destruct l as [|s l]; [apply (SP s0) in A0; destruct A0|]. cbn [map py_max]. destruct r as [q|].
  - destruct (max_some q load l (schmid_factor q load s)) as (m & M & MA & MB & MC). eexists. split; [reflexivity|]. exists m. split; [exact M|]. split.
    + destruct MA as [->|(s' & I & MA)]; [exists s; split; [apply SP; now left|reflexivity]|exists s'; split; [apply SP; now right|exact MA]].
    + intros s' A. apply SP in A as [<-|A]; [exact MB|now apply MC].
  - eexists. split; [reflexivity|]. apply max_none.
Qed.
Lemma chosen_all (gs : list (list pix)) : chosen_ids gs (IdInt (-1)) = map Z.of_nat (seq 0 (List.length gs)).
Proof. unfold chosen_ids, upto. cbn [Z.eqb Pos.eqb]. now rewrite Nat2Z.id. Qed.
(** After the calculation, and whatever else is called on the grains that does not calculate factors:
    every pixel of a grain shows the greatest factor, for this direction of load and the grain's
    reference, of the systems asked for; pixels in no grain show 0.5. *)
Theorem C116_shown_partial : forall W H load systems planes directions gs gs' ops, good_grains W H (map gpoints gs) -> gs <> [] ->
  planes <> None \/ directions = None ->
  (forall x, In x gs -> exists groups, systems_for systems x = Some groups /\ choices_exist groups planes directions /\ exists s, asked groups planes directions s) ->
  map_schmid load systems gs = (gs', Ok tt) -> (forall o, In o ops -> is_schmid o = false) ->
  exists im, plot_schmid_map W H planes directions (fold_left (fun gs o => each_grain o gs) ops gs') = Ok im /\
  (forall x p groups, In x gs -> In p (gpoints x) -> systems_for systems x = Some groups ->
     match reference (gconst x) (gstate x) with
     | Some q => exists m, im p = [Fin m] /\ greatest_factor q load groups planes directions m
     | None => im p = [NaN]
     end) /\
  (forall p, (forall x, In x gs -> ~ In p (gpoints x)) -> im p = [Fin (1 / 2)]).
Proof.
  intros W H load systems planes directions gs gs' ops G NE C SY E NS.
  destruct (C116_calculated load systems gs) as (gs1 & E1 & F).
  { intros x I. destruct (SY x I) as (groups & S1 & _). congruence. }
  rewrite E in E1. injection E1 as <-.
  assert (F2 : Forall2 (fun x x' => fst x' = fst x /\ exists groups, systems_for systems x = Some groups /\ g_sfs (gstate x') = Some (factors_for load (reference (gconst x) (gstate x)) groups))
                 gs (fold_left (fun gs o => each_grain o gs) ops gs')).
  { assert (F0 : Forall2 (fun x x' => fst x' = fst x /\ exists groups, systems_for systems x = Some groups /\ g_sfs (gstate x') = Some (factors_for load (reference (gconst x) (gstate x)) groups)) gs gs').
    { clear - F. induction F as [|x x' gs gs' A F IH]; [constructor|]. constructor; [|exact IH]. destruct A as (A1 & _ & _ & A2). split; [exact A1|exact A2]. }
    clear E F. revert gs' F0. induction ops as [|o ops IH]; intros gs' F0; [exact F0|]. cbn [fold_left]. apply IH; [intros o' I; apply NS; now right|].
    assert (NO : is_schmid o = false) by (apply NS; now left). clear - F0 NO. unfold each_grain. induction F0 as [|x x' gs gs' (A1 & A2) F IH]; [constructor|]. cbn [map]. constructor; [|exact IH].
    cbn [fst snd]. split; [exact A1|]. destruct A2 as (groups & S1 & S2). exists groups. split; [exact S1|]. unfold gstate in *. cbn [snd]. rewrite sfs_kept by exact NO. exact S2. }
  set (gs2 := fold_left _ ops gs') in *. clearbody gs2. clear F E NS ops gs'.
  assert (PT : map (fun x : mgrain => snd (fst x)) gs2 = map gpoints gs).
  { clear - F2. induction F2 as [|x x' gs gs' (A1 & _) F IH]; [reflexivity|]. cbn [map]. rewrite IH, A1. reflexivity. }
  assert (VS : exists vals, map_res (fun x : mgrain => grain_factor planes directions (snd x)) gs2 = Ok vals /\
             Forall2 (fun x v => forall groups, systems_for systems x = Some groups -> match reference (gconst x) (gstate x) with Some q => exists m, v = Some m /\ greatest_factor q load groups planes directions m | None => v = None end) gs vals).
  { clear PT NE G. induction F2 as [|x x' gs gs2 (A1 & groups & S1 & S2) F IH]; [exists []; split; [reflexivity|constructor]|].
    destruct (SY x (or_introl eq_refl)) as (groups' & S3 & S4 & S5). assert (groups' = groups) by congruence. subst groups'.
    destruct (grain_shown load _ groups planes directions (gstate x') C S4 S5 S2) as (v & V1 & V2).
    destruct IH as (vals & I1 & I2); [intros y Y; apply SY; now right|]. exists (v :: vals). cbn [map_res]. change (snd x') with (gstate x'). rewrite V1. cbn [bind]. rewrite I1. split; [reflexivity|].
    constructor; [|exact I2]. intros groups2 S6. assert (groups2 = groups) by congruence. subst groups2. exact V2. }
  destruct VS as (vals & V1 & V2).
  assert (LN : List.length vals = List.length gs) by (symmetry; clear - V2; induction V2; [reflexivity|cbn; now f_equal]).
  destruct (C102_given_partial W H (map gpoints gs) None DFloat (map to_num vals) (IdInt (-1)) (Fin (1 / 2)) G) as (im & P & A & B).
  { rewrite chosen_all. apply FinFun.Injective_map_NoDup; [intros a b Q; lia|apply seq_NoDup]. }
  { intros i I. rewrite chosen_all in I. apply in_map_iff in I as (k & <- & I). apply in_seq in I. lia. }
  { rewrite chosen_all, !map_length, seq_length. exact LN. }
  exists im. split.
  - unfold plot_schmid_map. destruct gs2 as [|x' gs2]; [destruct gs; [congruence|inversion F2]|]. inversion F2 as [|x ? gs0 ? (A1 & groups & S1 & S2) F0]; subst.
    change (snd x') with (gstate x') at 1. rewrite S2. rewrite V1. cbn [bind]. rewrite PT. exact P.
  - split.
    + intros x p groups Ix Ip S1. apply In_nth_error in Ix as (k & K).
      assert (KV : exists v, nth_error vals k = Some v /\ match reference (gconst x) (gstate x) with Some q => exists m, v = Some m /\ greatest_factor q load groups planes directions m | None => v = None end).
      { clear - V2 K S1. revert k K. induction V2 as [|y v gs vals Y F IH]; intros [|k] K; try discriminate; [injection K as ->; exists v; split; [reflexivity|now apply Y]|]. now apply IH. }
      destruct KV as (v & NV & VV). assert (IM : im p = [to_num v]).
      { apply (A k (Z.of_nat k) (to_num v) (gpoints x) p).
        - rewrite chosen_all, nth_error_map, (nth_error_nth' _ O), seq_nth; rewrite ?seq_length, ?map_length; [reflexivity| |]; apply nth_error_Some; congruence.
        - rewrite nth_error_map, NV. reflexivity.
        - rewrite Nat2Z.id, nth_error_map, K. reflexivity.
        - exact Ip. }
      rewrite IM. destruct (reference (gconst x) (gstate x)) as [q|]; [destruct VV as (m & -> & VV); exists m; split; [reflexivity|exact VV]|rewrite VV; reflexivity].
    + intros p N. rewrite B; [reflexivity|]. intros i g _ Q. rewrite nth_error_map in Q. destruct (nth_error gs (Z.to_nat i)) as [x|] eqn:X; [|discriminate]. injection Q as <-. apply N. eapply nth_error_In; eauto.
Qed.
(** A grain whose phase has no slip systems ends the calculation: the grains before it have the new
    factors, those after it what they had.  No map is shown of such a mixture. *)
Theorem C116_failed : forall load pre x post, (forall y, In y pre -> c_systems (gconst y) <> None) -> c_systems (gconst x) = None ->
  exists pre' x', map_schmid load None (pre ++ x :: post) = (pre' ++ x' :: post, Err TypeError) /\
    Forall2 (fun y y' => exists groups, c_systems (gconst y) = Some groups /\ fst y' = fst y /\ g_sfs (gstate y') = Some (factors_for load (reference (gconst y) (gstate y)) groups)) pre pre' /\
    g_sfs (gstate x') = Some [] /\
    forall W H planes directions, exists z, plot_schmid_map W H planes directions (pre' ++ x' :: post) = Err z.
Proof.
  intros load pre x post P N.
  assert (FX : exists g, calc_schmid (gconst x) load None (gstate x) = (g, Err TypeError) /\ g_sfs g = Some []).
  { unfold calc_schmid. destruct (ensure_ref (gconst x) (gstate x)) as (g, r). rewrite N. eexists. split; [reflexivity|]. reflexivity. }
  destruct FX as (g & FX & SX).
  destruct (C116_calculated load None pre P) as (pre' & E & F). exists pre', (fst x, g).
  assert (M : map_schmid load None (pre ++ x :: post) = (pre' ++ (fst x, g) :: post, Err TypeError)).
  { clear F P. unfold map_schmid in *. revert pre' E. induction pre as [|y pre IH]; intros pre' E; cbn [each_until app] in *.
    - injection E as <-. change (fst (fst x)) with (gconst x). change (snd x) with (gstate x). rewrite FX. reflexivity.
    - destruct (calc_schmid (fst (fst y)) load None (snd y)) as (gy, [u|z]); [|discriminate]. destruct (each_until _ pre) as (l, e) eqn:EL.
      injection E as <- ->. rewrite (IH l eq_refl). reflexivity. }
  split; [exact M|]. split; [clear - F; induction F as [|y y' l l' A F IH]; constructor; [|exact IH]; destruct A as (A1 & _ & _ & gr & A2 & A3); exists gr; split; [exact A2|split; [exact A1|exact A3]]|].
  split; [exact SX|]. intros W H planes directions.
  assert (GE : exists z, grain_factor planes directions g = Err z).
  { unfold grain_factor. rewrite SX. unfold chosen_factors. destruct planes as [[|p ps]|]; [eexists; reflexivity| |eexists; reflexivity].
    cbn [for_each]. assert (PG : exists z, py_get (@nil (list (option R))) p = Err z).
    { destruct (py_get (@nil (list (option R))) p) as [a|z] eqn:Q; [|exists z; reflexivity]. apply py_get_at in Q as ([|k] & _ & Q); discriminate Q. }
    destruct PG as (z & PG).
    destruct directions as [ds|]; [|rewrite PG; eexists; reflexivity]. destruct ds as [|d ds]; cbn [for_each]; [|rewrite PG; eexists; reflexivity]. cbn [bind].
    assert (NIL : for_each (fun (acc : list (option R)) (pl : Z) => Ok acc) ps [] = Ok []) by (clear; induction ps as [|p ps IH]; [reflexivity|]; cbn [for_each bind]; exact IH).
    rewrite NIL. eexists. reflexivity. }
  destruct GE as (z & GE).
  assert (ME : exists z, map_res (fun x : mgrain => grain_factor planes directions (snd x)) (pre' ++ (fst x, g) :: post) = Err z).
  { clear - GE. induction pre' as [|y l (z' & IH)]; cbn [app map_res snd]; [rewrite GE; eexists; reflexivity|].
    destruct (grain_factor planes directions (snd y)); [|eexists; reflexivity]. cbn [bind]. rewrite IH. eexists. reflexivity. }
  assert (K : forall L : list mgrain, (exists z, map_res (fun x : mgrain => grain_factor planes directions (snd x)) L = Err z) -> exists z, plot_schmid_map W H planes directions L = Err z).
  { intros L (z' & Q). unfold plot_schmid_map. destruct L as [|y l]; [eexists; reflexivity|]. destruct (g_sfs (snd y)); [|eexists; reflexivity]. rewrite Q. eexists. reflexivity. }
  apply K. exact ME.
Qed.
(** Displacement ratios of all grains, if each has a reference. *)
Theorem C116_ratios_partial : forall gs, (forall x, In x gs -> c_systems (gconst x) <> None /\ g_ref (gstate x) <> None) ->
  exists gs', map_rdr gs = (gs', Ok tt) /\
  Forall2 (fun x x' => fst x' = fst x /\ g_ref (gstate x') = g_ref (gstate x) /\ g_sfs (gstate x') = g_sfs (gstate x) /\
    exists groups r, c_systems (gconst x) = Some groups /\ g_ref (gstate x) = Some r /\ g_rdr (gstate x') = Some (map (map (ratio_at r)) groups)) gs gs'.
Proof.
  induction gs as [|x gs IH]; intros S; [exists []; split; [reflexivity|constructor]|].
  destruct (S x (or_introl eq_refl)) as (A & B). destruct (c_systems (gconst x)) as [groups|] eqn:EC; [|congruence]. destruct (g_ref (gstate x)) as [r|] eqn:ER; [|congruence].
  destruct IH as (gs' & E & F); [intros y I; apply S; now right|]. unfold map_rdr in *. cbn [each_until]. change (fst (fst x)) with (gconst x). change (snd x) with (gstate x).
  assert (X : exists g, calc_grain_rdr (gconst x) (gstate x) = (g, Ok tt) /\ g_ref g = g_ref (gstate x) /\ g_sfs g = g_sfs (gstate x) /\ g_rdr g = Some (map (map (ratio_at r)) groups)).
  { unfold calc_grain_rdr. rewrite EC, ER. destruct r as [q|]; (eexists; split; [reflexivity|]); cbn [g_ref g_sfs g_rdr]; repeat split; try reflexivity; exact ER. }
  destruct X as (g & X & X1 & X2 & X3). rewrite X, E. eexists. split; [reflexivity|]. constructor; [|exact F].
  split; [reflexivity|]. unfold gstate at 1 3 5. cbn [snd]. split; [congruence|]. split; [exact X2|]. exists groups, r. split; [exact EC|]. split; [exact ER|exact X3].
Qed.
(** Unlike the factors, the ratios are not calculated for grains without a reference: the first such
    grain ends the calculation. *)
Theorem C116_ratios_refuted : forall x s grp groups post, c_systems (gconst x) = Some ((s :: grp) :: groups) -> g_ref (gstate x) = None ->
  exists x', map_rdr (x :: post) = (x' :: post, Err AttributeError) /\ g_rdr (gstate x') = Some [[]].
Proof.
  intros x s grp groups post EC ER. unfold map_rdr. cbn [each_until]. change (fst (fst x)) with (gconst x). change (snd x) with (gstate x). unfold calc_grain_rdr. rewrite EC, ER. cbn [rdr_no_ref].
  eexists. split; reflexivity.
Qed.
(** The factors give them one. *)
Theorem C116_then_ratios : forall load gs, (forall x, In x gs -> c_systems (gconst x) <> None) ->
  exists gs1 gs2, map_schmid load None gs = (gs1, Ok tt) /\ map_rdr gs1 = (gs2, Ok tt) /\
  Forall2 (fun x x' => exists groups, c_systems (gconst x) = Some groups /\ g_rdr (gstate x') = Some (map (map (ratio_at (reference (gconst x) (gstate x)))) groups)) gs gs2.
Proof.
  intros load gs S. destruct (C116_calculated load None gs S) as (gs1 & E1 & F1). exists gs1.
  destruct (C116_ratios_partial gs1) as (gs2 & E2 & F2).
  { intros x' I. clear - F1 S I. induction F1 as [|y y' l l' A F IH]; [destruct I|]. destruct I as [<-|I].
    - destruct A as (A1 & _ & A2 & _). unfold gconst. rewrite A1. split; [apply (S y); now left|]. rewrite A2. discriminate.
    - apply IH; [intros z Z; apply S; now right|exact I]. }
  exists gs2. split; [exact E1|]. split; [exact E2|]. clear E1 E2 S. revert gs2 F2. induction F1 as [|y y' l l' A F IH]; intros gs2 F2; inversion F2 as [|? z ? gs0 B F0]; subst; constructor; [|now apply IH].
  destruct A as (A1 & _ & A2 & gr & A3 & _). destruct B as (_ & _ & _ & groups & r & B1 & B2 & B3). exists groups. unfold gconst in *. rewrite A1 in B1. split; [exact B1|]. rewrite A2 in B2. injection B2 as <-. exact B3.
Qed.

(** A map is refused while its factors were never calculated (first grain), when any grain has
    none, and for a map without grains. *)
Theorem C116_refused : forall W H planes directions x gs,
  (g_sfs (gstate x) = None -> plot_schmid_map W H planes directions (x :: gs) = Err GenericException) /\
  ((exists y, In y (x :: gs) /\ g_sfs (gstate y) = None) -> exists z, plot_schmid_map W H planes directions (x :: gs) = Err z) /\
  plot_schmid_map W H planes directions [] = Err IndexError.
Proof.
  intros W H planes directions x gs. split; [|split; [|reflexivity]].
  - intros N. unfold plot_schmid_map. fold (gstate x). rewrite N. reflexivity.
  - intros (y & I & N). unfold plot_schmid_map. destruct (g_sfs (snd x)); [|eexists; reflexivity].
    destruct (map_res _ (x :: gs)) as [vals|z] eqn:E; [|eexists; reflexivity]. exfalso.
    assert (G : exists z, grain_factor planes directions (snd y) = Err z).
    { unfold grain_factor. fold (gstate y). rewrite N. destruct planes as [[|]|], directions as [[|]|]; eexists; reflexivity. }
    destruct G as (z & G). clear - I E G. revert vals E. induction (x :: gs) as [|a l IH]; [destruct I|]. intros vals E. cbn [map_res] in E.
    destruct I as [->|I]; [rewrite G in E; discriminate|]. destruct (grain_factor planes directions (snd a)); [|discriminate]. cbn [bind] in E.
    destruct (map_res _ l) eqn:EL; [|discriminate]. eapply IH; [exact I|reflexivity].
Qed.

(** An instance: two grains of one pixel each in a map of three pixels, one slip system, load along
    x; and a grain whose phase has no systems. *)
Example C116_met : let s := SS [0; 0; 1] [1; 0; 0] (V3 0 0 1) (V3 1 0 0) "cubic"%string None in
  let K := Consts [Q4 1 0 0 0] "cubic" (Some [[s]]) [] in
  let x p := (K, [p], new_grain) in let gs := [x (0, 0); x (1, 0)] in
  good_grains 3 1 (map gpoints gs) /\
  (forall x, In x gs -> exists groups, systems_for None x = Some groups /\ choices_exist groups (Some [-1]) (Some [0]) /\ exists s, asked groups (Some [-1]) (Some [0]) s) /\
  (exists gs', map_schmid (V3 1 0 1) None gs = (gs', Ok tt)) /\
  c_systems (gconst (Consts [Q4 1 0 0 0] "cubic" None [], [(2, 0)], new_grain)) = None.
Proof.
  cbv zeta. split; [|split; [|split; [|reflexivity]]].
  - split; [constructor; [|constructor; [|constructor]]; (split; [constructor; [intros []|constructor]|]; intros p [<-|[]]; unfold inside; cbn; lia)|].
    constructor; [constructor; [|constructor]|constructor; [constructor|constructor]]. intros p [<-|[]] [Q|[]]. discriminate.
  - assert (AP : forall A (a : A) i, i = 0 \/ i = -1 -> at_position [a] i a) by (intros A a i I; exists 0%nat; split; [cbn; lia|reflexivity]).
    intros x I. eexists. split; [destruct I as [<-|[<-|[]]]; reflexivity|]. split.
    + intros ps p [= <-] [<-|[]]. eexists. split; [apply AP; now right|]. intros ds d [= <-] [<-|[]]. eexists. apply AP. now left.
    + eexists. exists (-1), 0. eexists. split; [intros ps [= <-]; now left|]. split; [intros ds [= <-]; now left|]. split; [apply AP; now right|apply AP; now left].
  - destruct (C116_calculated (V3 1 0 1) None [(Consts [Q4 1 0 0 0] "cubic" (Some [[SS [0; 0; 1] [1; 0; 0] (V3 0 0 1) (V3 1 0 0) "cubic"%string None]]) [], [(0, 0)], new_grain); (Consts [Q4 1 0 0 0] "cubic" (Some [[SS [0; 0; 1] [1; 0; 0] (V3 0 0 1) (V3 1 0 0) "cubic"%string None]]) [], [(1, 0)], new_grain)]) as (gs' & E & _); [|exists gs'; exact E].
    intros x [<-|[<-|[]]]; discriminate.
Qed.
Print Assumptions C116_calculated.
Print Assumptions C116_shown_partial.
Print Assumptions C116_failed.
Print Assumptions C116_refused.
Print Assumptions C116_ratios_partial.
Print Assumptions C116_ratios_refuted.
Print Assumptions C116_then_ratios.
Print Assumptions C116_met.
