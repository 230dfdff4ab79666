(** Lemmas for what maps show. *)
From Coq Require Import String Ascii Reals ZArith Bool Lra Lia.
From Coq Require Import List.
From Verif Require Import Py Grid Grid_Lemmas Base_Model Base_Spec Base_Proofs Quat_Model Quat_Spec Pole_Model Ipf_Model Ipf_Spec Pole_Spec Ipf_Proofs IpfHex_Proofs Text_Model Ebsd_Model Ebsd_Spec EbsdGrain_Props
  GrainState_Model GrainState_Spec GrainState_Proofs MapView_Model MapView_Spec.
Import ListNotations.
Open Scope Z_scope.

Lemma fold_upd {A} (g : A -> A) : forall (pts : list pix) (vals : list A) im, NoDup pts -> List.length vals = List.length pts ->
  let im' := fold_left (fun im pc => upd im (fst pc) (g (snd pc))) (combine pts vals) im in
  Forall2 (fun p v => im' p = g v) pts vals /\ forall p, ~ In p pts -> im' p = im p.
Proof.
  induction pts as [|p pts IH]; intros [|v vals] im N L; try discriminate L; cbn [combine fold_left fst snd]; [split; auto|].
  inversion N as [|? ? N1 N2]; subst. injection L as L. destruct (IH vals (upd im p (g v)) N2 L) as [P Q]. split.
  - constructor; [rewrite Q by auto; apply upd_same|exact P].
  - intros q I. cbn [In] in I. rewrite Q by tauto. apply upd_other. tauto.
Qed.
Lemma put_zip_ok {A} W H : forall (pts : list pix) (vals : list A) im, NoDup pts -> (forall p, In p pts -> inside W H p) -> List.length vals = List.length pts ->
  exists im', put_zip W H im pts vals = Ok im' /\ Forall2 (fun p v => im' p = v) pts vals /\ forall p, ~ In p pts -> im' p = im p.
Proof.
  intros pts vals im N I L. exists (fold_left (fun im pc => upd im (fst pc) (snd pc)) (combine pts vals) im). split; [|exact (fold_upd (fun v => v) pts vals im N L)].
  unfold put_zip. clear N. revert vals im L. induction pts as [|p pts IH]; intros [|v vals] im L; try discriminate L; cbn [combine for_each fold_left fst snd]; [reflexivity|].
  rewrite put_in by (apply I; now left). cbn [bind]. apply IH; [intros q J; apply I; now right|]. now injection L.
Qed.
Lemma zip_all {A} W H (f : mgrain -> option (list A)) : forall gs im,
  good_grains W H (map gpoints gs) -> (forall x, In x gs -> exists l, f x = Some l /\ List.length l = List.length (gpoints x)) ->
  exists im', for_each (fun im x => match f x with Some l => put_zip W H im (snd (fst x)) l | None => Err TypeError end) gs im = Ok im' /\
    (forall x l, In x gs -> f x = Some l -> Forall2 (fun p v => im' p = v) (gpoints x) l) /\
    forall p, (forall x, In x gs -> ~ In p (gpoints x)) -> im' p = im p.
Proof.
  induction gs as [|x gs IH]; intros im G F; cbn [for_each]; [exists im; split; auto; split; auto; intros x l []|].
  destruct G as [G1 G2]. cbn [map] in G1, G2. inversion G1 as [|? ? [N I] G1']; subst. inversion G2 as [|? ? D G2']; subst.
  destruct (F x (or_introl eq_refl)) as (l & E & L). rewrite E.
  destruct (put_zip_ok W H (gpoints x) l im N I L) as (im1 & E1 & A1 & B1). unfold gpoints in E1 at 1. rewrite E1. cbn [bind].
  destruct (IH im1 (conj G1' G2') (fun y J => F y (or_intror J))) as (im2 & E2 & A2 & B2). exists im2. split; [exact E2|]. split.
  - intros y k [<-|J] Ey; [|now apply A2]. assert (k = l) by congruence. subst k.
    assert (K : forall p, In p (gpoints x) -> im2 p = im1 p).
    { intros p Ip. apply B2. intros y J. rewrite Forall_forall in D. apply (D (gpoints y)); [now apply in_map|exact Ip]. }
    clear -A1 K. induction A1 as [|p v ps vs P A1 IH]; constructor; [rewrite K; [exact P|now left]|apply IH; intros q J; apply K; now right].
  - intros p N'. rewrite B2 by (intros y J; apply N'; now right). apply B1. apply N'. now left.
Qed.
Lemma points_kept o gs : map gpoints (each_grain o gs) = map gpoints gs.
Proof. unfold each_grain. rewrite map_map. reflexivity. Qed.

(** *** Lists kept by grains have one entry per point *)
Definition sized (K : consts) (g : grain) : Prop :=
  (forall l, g_mis g = Some l -> List.length l = List.length (c_oris K)) /\ (forall l, g_axes g = Some l -> List.length l = List.length (c_oris K)).
Lemma mis_from_length K r : List.length (mis_from K r) = List.length (c_oris K).
Proof. unfold mis_from. destruct r; rewrite map_length; [apply calcMisOri_length|reflexivity]. Qed.
Lemma build_sized K a g : sized K g -> sized K (build_mis K a g).
Proof.
  intros [_ X]. assert (E : g_axes (fst (ensure_ref K g)) = g_axes g) by (unfold ensure_ref; destruct (g_ref g); reflexivity).
  unfold build_mis. destruct (ensure_ref K g) as [g1 r]. cbn [fst] in E. split; cbn [g_mis g_axes].
  - intros l [= <-]. rewrite map_length. apply mis_from_length.
  - destruct a; [intros l [= <-]; rewrite map_length; apply mis_from_length|]. rewrite E. exact X.
Qed.
Lemma step_lists K g o : sized K g -> sized K (step K g o).
Proof.
  intros S. assert (E : sized K (fst (ensure_ref K g))) by (unfold ensure_ref; destruct (g_ref g); exact S).
  destruct o as [|a| |v s| |s| |c| |q]; cbn [step].
  - exact S.
  - now apply build_sized.
  - unfold read_grod. destruct (g_grod g); [exact S|]. destruct (ensure_ref K g) as [g1 r]. exact E.
  - unfold calc_schmid. destruct (ensure_ref K g) as [g1 r]. destruct (match s with Some s => Some s | None => c_systems K end); exact E.
  - unfold calc_grain_rdr. destruct (c_systems K) as [gr|]; [|exact S]. destruct (g_ref g) as [[q|]|]; [exact S|exact S|]. destruct (rdr_no_ref gr); exact S.
  - unfold calc_traces. destruct (ensure_ref K g) as [g1 r]. destruct (match s with Some s => Some s | None => c_systems K end) as [gr|]; [destruct (trace_loop r gr)|]; exact E.
  - unfold read_traces, calc_traces. destruct (g_angles g); [exact S|]. destruct (ensure_ref K g) as [g1 r]. destruct (c_systems K) as [gr|]; [destruct (trace_loop r gr)|]; exact E.
  - unfold plot_mis. destruct (c =? 0); [destruct (g_mis g); [exact S|now apply build_sized]|].
    destruct ((0 <? c) && (c <? 4)); [destruct (g_axes g); [exact S|now apply build_sized]|exact S].
  - unfold print_traces, calc_traces. destruct (ensure_ref K g) as [g1 r]. destruct (c_systems K) as [gr|]; [destruct (trace_loop r gr)|]; exact E.
  - exact S.
Qed.
Lemma run_sized K ops : forall g, sized K g -> sized K (run K ops g).
Proof. unfold run. induction ops as [|o ops IH]; intros g S; cbn [fold_left]; [exact S|]. apply IH, step_lists, S. Qed.
Lemma new_sized K : sized K new_grain.
Proof. split; discriminate. Qed.

(** *** The map shows what its grains show *)
Lemma each_In o x gs : In x (each_grain o gs) -> exists g, In (fst x, g) gs /\ gstate x = step (gconst x) g o.
Proof.
  unfold each_grain. intros I. apply in_map_iff in I as (y & <- & I). exists (snd y). split; [|reflexivity]. destruct y. exact I.
Qed.
Definition refill {B} (f : grain -> option (list B)) (a : bool) (gs : list mgrain) : list mgrain :=
  if existsb (fun x : mgrain => match f (snd x) with None => true | Some _ => false end) gs then each_grain (BuildMis a) gs else gs.
Lemma refill_ok {B} (f : grain -> option (list B)) a gs :
  (forall K g, f (build_mis K a g) <> None) -> (forall K g l, sized K g -> f g = Some l -> List.length l = List.length (c_oris K)) ->
  (forall x, In x gs -> sized (gconst x) (gstate x)) ->
  map fst (refill f a gs) = map fst gs /\
  forall x, In x (refill f a gs) -> exists l, f (gstate x) = Some l /\ List.length l = List.length (c_oris (gconst x)).
Proof.
  intros F L S. unfold refill. match goal with |- context [if ?b then _ else _] => destruct b eqn:E end.
  - split; [unfold each_grain; rewrite map_map; reflexivity|]. intros x I. apply each_In in I as (g & I & ->). specialize (S _ I). cbn [step].
    destruct (f (build_mis (gconst x) a g)) as [l|] eqn:EF; [|elim (F _ _ EF)]. exists l. split; [reflexivity|].
    apply (L _ _ _ (build_sized _ a g S) EF).
  - split; [reflexivity|]. intros x I. destruct (f (gstate x)) as [l|] eqn:EF; [exists l; split; [reflexivity|]; apply (L _ _ _ (S x I) EF)|].
    exfalso. match type of E with ?b = false => assert (T : b = true) end; [|congruence].
    apply existsb_exists. exists x. split; [exact I|]. unfold gstate in EF. now rewrite EF.
Qed.
Lemma forall2_map_r {A B C} (P : A -> C -> Prop) (f : B -> C) l m : Forall2 P l (map f m) <-> Forall2 (fun a b => P a (f b)) l m.
Proof.
  split; revert l; induction m as [|b m IH]; intros [|a l] F; inversion F; subst; constructor; auto.
Qed.
Lemma forall2_length {A B} (P : A -> B -> Prop) l m : Forall2 P l m -> List.length l = List.length m.
Proof. induction 1; cbn [List.length]; congruence. Qed.
Lemma forall2_weak {A B} (P Q : A -> B -> Prop) l m : (forall a b, P a b -> Q a b) -> Forall2 P l m -> Forall2 Q l m.
Proof. intros W F. induction F; constructor; auto. Qed.
Lemma map_agrees W H c gs : good_map W H gs -> (forall x, In x gs -> sized (gconst x) (gstate x)) -> 0 <= c <= 3 ->
  exists gs' im, plot_mis_map W H c gs = (gs', Ok im) /\ (gs' = gs \/ gs' = each_grain (BuildMis (negb (c =? 0))) gs) /\
    (forall x, In x gs' -> exists l, snd (plot_mis (gconst x) c (gstate x)) = Ok l /\ Forall2 (fun p v => im p = v) (gpoints x) l) /\
    forall p, (forall x, In x gs -> ~ In p (gpoints x)) -> im p = Some 0%R.
Proof.
  intros [G L] S Hc. unfold plot_mis_map.
  assert (PT : forall gs' : list mgrain, map fst gs' = map fst gs -> map gpoints gs' = map gpoints gs).
  { intros gs' E. assert (X : map snd (map fst gs') = map snd (map fst gs)) by now rewrite E. rewrite !map_map in X. exact X. }
  assert (LN : forall gs' : list mgrain, map fst gs' = map fst gs -> forall x, In x gs' -> List.length (gpoints x) = List.length (c_oris (gconst x))).
  { intros gs' E x I. assert (J : In (fst x) (map fst gs)) by (rewrite <- E; now apply in_map). apply in_map_iff in J as (y & EY & J).
    specialize (L y J). unfold gpoints, gconst in *. now rewrite EY in L. }
  assert (OUT : forall gs' : list mgrain, map fst gs' = map fst gs -> forall p, (forall x, In x gs -> ~ In p (gpoints x)) -> forall x, In x gs' -> ~ In p (gpoints x)).
  { intros gs' E p N x I. assert (J : In (fst x) (map fst gs)) by (rewrite <- E; now apply in_map). apply in_map_iff in J as (y & EY & J).
    specialize (N y J). unfold gpoints in *. now rewrite EY in N. }
  destruct (Z.eqb_spec c 0) as [->|NC].
  - change ((1 <=? 0) && (0 <=? 3)) with false. cbv iota. cbn [negb].
    destruct (refill_ok g_mis false gs) as [E F]; [intros K g; unfold build_mis; destruct (ensure_ref K g); discriminate|intros K g l [P _]; auto|exact S|].
    fold (refill g_mis false gs). set (gs' := refill g_mis false gs) in *.
    destruct (zip_all W H (fun x => g_mis (snd x)) gs' (fun _ => Some 1%R)) as (im & EI & A & B).
    { rewrite PT; auto. }
    { intros x I. destruct (F x I) as (l & EL & LL). exists l. split; [exact EL|]. rewrite LL. symmetry. now apply (LN gs'). }
    rewrite EI. cbn [bind]. exists gs'. eexists. split; [reflexivity|]. split; [unfold gs', refill; match goal with |- context [if ?b then _ else _] => destruct b end; auto|]. split.
    + intros x I. destruct (F x I) as (l & EL & _). exists (map (option_map (fun m => deg (2 * acos m))) l). split.
      * unfold plot_mis. cbn [Z.eqb snd]. rewrite EL, EL. reflexivity.
      * apply forall2_map_r. specialize (A x l I EL). eapply forall2_weak; [|exact A]. cbv beta. intros p v ->. destruct v as [m|]; [|reflexivity].
        cbn [option_map]. f_equal. unfold deg, Rdiv. ring.
    + intros p N. cbv beta. rewrite B by (apply (OUT gs'); auto). cbn [option_map]. rewrite acos_1. f_equal. unfold Rdiv. ring.
  - replace ((1 <=? c) && (c <=? 3)) with true by (symmetry; apply andb_true_iff; split; apply Z.leb_le; lia). cbv iota. cbn [negb].
    destruct (refill_ok g_axes true gs) as [E F]; [intros K g; unfold build_mis; destruct (ensure_ref K g); discriminate|intros K g l [_ P]; auto|exact S|].
    fold (refill g_axes true gs). set (gs' := refill g_axes true gs) in *.
    destruct (zip_all W H (fun x => option_map (map (option_map (comp c))) (g_axes (snd x))) gs' (fun _ => Some 0%R)) as (im & EI & A & B).
    { rewrite PT; auto. }
    { intros x I. destruct (F x I) as (l & EL & LL). exists (map (option_map (comp c)) l). unfold gstate in EL. rewrite EL. split; [reflexivity|]. rewrite map_length, LL. symmetry. now apply (LN gs'). }
    replace (for_each _ gs' (fun _ => Some 0%R)) with (@Ok (pix -> option R) im).
    2:{ rewrite <- EI. f_equal. apply FunctionalExtensionality.functional_extensionality. intros i. apply FunctionalExtensionality.functional_extensionality. intros x.
        destruct (g_axes (snd x)); reflexivity. }
    cbn [bind]. exists gs'. eexists. split; [reflexivity|]. split; [unfold gs', refill; match goal with |- context [if ?b then _ else _] => destruct b end; auto|]. split.
    + intros x I. destruct (F x I) as (l & EL & _). exists (map (option_map (fun v => deg (comp c v))) l). split.
      * unfold plot_mis. replace (c =? 0) with false by (symmetry; now apply Z.eqb_neq).
        replace ((0 <? c) && (c <? 4)) with true by (symmetry; apply andb_true_iff; split; apply Z.ltb_lt; lia). cbn [snd]. rewrite EL, EL. reflexivity.
      * apply forall2_map_r. assert (A' : Forall2 (fun p v => im p = v) (gpoints x) (map (option_map (comp c)) l)).
        { apply A; [exact I|]. unfold gstate in EL. now rewrite EL. }
        apply forall2_map_r in A'. eapply forall2_weak; [|exact A']. cbv beta. intros p v ->. destruct v as [m|]; reflexivity.
    + intros p N. cbv beta. rewrite B by (apply (OUT gs'); auto). cbn [option_map]. f_equal. unfold Rdiv. ring.
Qed.

(** *** Colours *)
Lemma cubic_colours qs d def : Forall unitq qs -> d <> vzero ->
  exists cols, calc_ipf_colours qs d "cubic" def = Ok cols /\ Forall2 (own_colour "cubic" d def) qs cols.
Proof.
  intros U D. unfold own_colour, calc_ipf_colours. rewrite cubic_all by assumption. cbn [bind poles String.eqb]. cbv beta iota.
  change (poles "cubic") with (Ok (V3 0 0 1, V3 0 (1 / sqrt 2) (1 / sqrt 2), V3 (-1 / sqrt 3) (1 / sqrt 3) (1 / sqrt 3))%R). cbn [bind].
  eexists. split; [reflexivity|]. rewrite map_map. apply forall2_map_r.
  induction U as [|q qs Q U IH]; constructor; [|exact IH]. rewrite cubic_all by (first [exact D | constructor; [exact Q|constructor]]). reflexivity.
Qed.
Lemma hex_poles : poles "hexagonal" = Ok (V3 0 0 1, V3 0 1 0, V3 (-1 / 2) (sqrt 3 / 2) 0)%R. Proof. reflexivity. Qed.
Lemma hex_colours qs d def : Forall unitq qs -> d <> vzero ->
  exists cols, calc_ipf_colours qs d "hexagonal" def = Ok cols /\ List.length cols = List.length qs /\
    ((forall q, In q qs -> ~ along_c (in_crystal q d)) -> Forall2 (own_colour "hexagonal" d def) qs cols).
Proof.
  intros U D. unfold own_colour, calc_ipf_colours. rewrite hex_poles.
  destruct (hex_all qs d true (Some "up"%string) def U D eq_refl) as (lo & hi & E & L). rewrite E. cbn [bind].
  eexists. split; [reflexivity|]. split; [rewrite !map_length; reflexivity|]. intros A. rewrite map_map. apply forall2_map_r.
  assert (N : existsb (fun u => if hex_dec u then true else false) (map (fun q => in_crystal q d) qs) = false).
  { clear -A. induction qs as [|q qs IH]; [reflexivity|]. cbn [map existsb]. rewrite IH by (intros p I; apply A; now right).
    destruct (hex_dec _) as [B|_]; [elim (A q (or_introl eq_refl) B)|reflexivity]. }
  rewrite N in L. injection L as -> ->. clear E N.
  induction U as [|q qs Q U IH]; constructor; [|apply IH; intros p I; apply A; now right].
  destruct (hex_all [q] d true (Some "up"%string) def (Forall_cons _ Q (Forall_nil _)) D eq_refl) as (lo & hi & E & L).
  rewrite E. cbn [bind map]. cbn [map existsb] in L. destruct (hex_dec (in_crystal q d)) as [B|_]; [elim (A q (or_introl eq_refl) B)|].
  cbn [orb] in L. injection L as -> ->. reflexivity.
Qed.
Definition mask (W H : Z) (phase : pix -> Z) (i : Z) : list pix := filter (fun p => phase p =? i + 1) (all_pix W H).
(** What the loop over the phases leaves at a pixel. *)
Lemma phase_loop W H phase ori d def dt : 0 <= W -> 0 <= H -> d <> vzero -> (forall p, inside W H p -> unitq (ori p)) ->
  forall ch im, (forall n i, In (n, i) ch -> n = "cubic"%string \/ n = "hexagonal"%string) ->
  exists im', for_each (fun im (np : string * Z) =>
      let phase_mask := filter (fun p => phase p =? snd np + 1) (all_pix W H) in
      do cols <- calc_ipf_colours (map ori phase_mask) d (fst np) def;
      Ok (fold_left (fun im pc => upd im (fst pc) (cast3 dt (num3 (snd pc)))) (combine phase_mask cols) im)) ch im = Ok im' /\
    forall p, (forall n c, inside W H p -> In (n, phase p - 1) ch -> (forall n', In (n', phase p - 1) ch -> n' = n) ->
       (n = "hexagonal"%string -> forall q, inside W H q -> phase q = phase p -> ~ along_c (in_crystal (ori q) d)) ->
       own_colour n d def (ori p) c -> im' p = cast3 dt (num3 c)) /\
      (~ In (phase p - 1) (map snd ch) -> im' p = im p).
Proof.
  intros HW HH D U. induction ch as [|[n i] ch IH]; intros im KN; cbn [for_each].
  - exists im. split; [reflexivity|]. intros p. split; [intros n c _ []|reflexivity].
  - cbn [fst snd]. fold (mask W H phase i). remember (mask W H phase i) as M eqn:EM.
    assert (IM : forall p, In p M <-> inside W H p /\ phase p = i + 1).
    { intros p. rewrite EM. unfold mask. rewrite filter_In, all_pix_In by assumption. rewrite Z.eqb_eq. tauto. }
    assert (ND : NoDup M) by (rewrite EM; apply NoDup_filter, all_pix_NoDup; assumption).
    assert (UM : Forall unitq (map ori M)).
    { apply Forall_forall. intros q I. apply in_map_iff in I as (p & <- & I). apply U. now apply IM. }
    assert (exists cols, calc_ipf_colours (map ori M) d n def = Ok cols /\ List.length cols = List.length M /\
      ((n = "hexagonal"%string -> forall p, In p M -> ~ along_c (in_crystal (ori p) d)) -> Forall2 (own_colour n d def) (map ori M) cols)) as (cols & E & L & OC).
    { destruct (KN n i (or_introl eq_refl)) as [-> | ->].
      - destruct (cubic_colours (map ori M) d def UM D) as (cols & E & F). exists cols. split; [exact E|]. split; [|intros _; exact F].
        rewrite <- (forall2_length _ _ _ F). apply map_length.
      - destruct (hex_colours (map ori M) d def UM D) as (cols & E & L & F). exists cols. split; [exact E|]. rewrite L, map_length. split; [reflexivity|].
        intros A. apply F. intros q I. apply in_map_iff in I as (p & <- & I). now apply A. }
    rewrite E. cbn [bind].
    destruct (fold_upd (fun c => c) M (map (fun c => cast3 dt (num3 c)) cols) im ND) as [P Q]; [now rewrite map_length|].
    assert (EQ : forall im0, fold_left (fun im pc => upd im (fst pc) (cast3 dt (num3 (snd pc)))) (combine M cols) im0 =
      fold_left (fun im pc => upd im (fst pc) (snd pc)) (combine M (map (fun c => cast3 dt (num3 c)) cols)) im0).
    { clear. revert cols. induction M as [|m M IH]; intros [|c cols] im0; cbn [combine map fold_left fst snd]; auto. }
    rewrite EQ. set (im1 := fold_left _ _ im) in *. destruct (IH im1) as (im' & E' & R); [intros n' i' I; apply (KN n' i'); now right|].
    exists im'. split; [exact E'|]. intros p. destruct (R p) as [R1 R2]. split.
    + intros n0 c Ip I UQ AC OW. destruct (in_dec Z.eq_dec (phase p - 1) (map snd ch)) as [J|J].
      * apply in_map_iff in J as ([n1 i1] & EI & J). cbn [snd] in EI. subst i1. assert (n1 = n0) by (apply UQ; now right). subst n1.
        apply (R1 n0); auto. intros n' J'. apply UQ. now right.
      * destruct I as [[= -> ->]|I]; [|elim J; apply in_map_iff; exists (n0, phase p - 1); auto].
        rewrite R2 by exact J. assert (IN : In p M) by (apply IM; split; [exact Ip|lia]).
        specialize (OC (fun EN q Iq => AC EN q (proj1 (proj1 (IM q) Iq)) ltac:(apply IM in Iq as [_ Eq]; lia))).
        apply forall2_map_r in P. clearbody im1. clear -P OC OW IN. revert cols P OC. induction M as [|m M IH]; intros cols P OC; [destruct IN|].
        cbn [map] in OC. inversion OC as [|? c0 ? cols0 O1 O2]; subst. inversion P as [|? ? ? ? P1 P2]; subst.
        destruct IN as [->|IN]; [|now apply (IH IN cols0)]. unfold own_colour in O1, OW. rewrite O1 in OW. injection OW as <-. exact P1.
    + cbn [map snd In]. intros N. rewrite R2 by tauto. apply Q. intros I. apply IM in I as [_ EI]. apply N. left. lia.
Qed.
