(** Theorems about making plots. *)
From Coq Require Import String Ascii Reals ZArith Bool Lia Lra.
From Coq Require Import List.
From Verif Require Import Py Text_Model PlotBuild_Model PlotBuild_Spec.
Import ListNotations.
Open Scope Z_scope.

Lemma set_at_ext : forall A (l : list A) n f g, (forall a, f a = g a) -> set_at l n f = set_at l n g.
Proof. induction l as [|a l IH]; intros n f g E; destruct n as [|n]; cbn [set_at]; auto; [now rewrite E|now rewrite (IH n f g E)]. Qed.
Lemma set_at_set_at : forall A (l : list A) n f g, set_at (set_at l n f) n g = set_at l n (fun a => g (f a)).
Proof. induction l as [|a l IH]; intros n f g; destruct n as [|n]; cbn [set_at]; auto. now rewrite IH. Qed.
Lemma set_at_id : forall A (l : list A) n f, (forall a, f a = a) -> set_at l n f = l.
Proof. induction l as [|a l IH]; intros n f E; destruct n as [|n]; cbn [set_at]; auto; [now rewrite E|now rewrite (IH n f E)]. Qed.
Lemma nth_set_at : forall A (l : list A) n f m, nth_error (set_at l n f) m = if Nat.eqb n m then option_map f (nth_error l m) else nth_error l m.
Proof.
  induction l as [|a l IH]; intros n f m; [destruct n, m; cbn; try reflexivity; now destruct (Nat.eqb n m)|].
  destruct n as [|n], m as [|m]; cbn [set_at nth_error Nat.eqb option_map]; auto.
Qed.
Lemma length_set_at : forall A (l : list A) n f, List.length (set_at l n f) = List.length l.
Proof. induction l as [|a l IH]; intros n f; destruct n; cbn; auto. Qed.

Section Props.
Variables M D : Type.
Variable scale_of : M -> option R.
Variable grains_of : M -> nat.
Variable alpha_of : M -> R.
Notation artist := (artist M D). Notation world := (world M D). Notation plot := (plot M D). Notation World := (World M D). Notation Plot := (Plot M D).
Notation w_axes := (w_axes M D). Notation w_figs := (w_figs M D). Notation w_bars := (w_bars M D).
Notation p_map := (p_map M D). Notation p_fig := (p_fig M D). Notation p_ax := (p_ax M D). Notation p_layers := (p_layers M D). Notation p_bar := (p_bar M D). Notation p_high := (p_high M D). Notation p_interactive := (p_interactive M D).
Notation create := (create M D scale_of grains_of alpha_of). Notation create_grain := (create_grain M D scale_of).
Notation on_axes := (on_axes M D). Notation bars := (bars M D).
Notation asked_map := (asked_map M D). Notation asked_boundaries := (asked_boundaries M D). Notation asked_highlights := (asked_highlights M D alpha_of).
Notation asked_images := (asked_images M D alpha_of). Notation asked_scale := (asked_scale M D scale_of). Notation asked_bar := (asked_bar M D).
Notation possible := (possible M D scale_of grains_of).

Definition grow (x : nat) (l : list artist) (w : world) : world := World (w_figs w) (set_at (w_axes w) x (fun y => (fst y, snd y ++ l))) (w_bars w).
Lemma grow_grow : forall x l l' w, grow x l' (grow x l w) = grow x (l ++ l') w.
Proof. intros x l l' w. unfold grow. cbn. f_equal. rewrite set_at_set_at. apply set_at_ext. intros a. cbn [fst snd]. now rewrite app_assoc. Qed.
Lemma grow_nil : forall x w, grow x [] w = w.
Proof. intros x [f a b]. unfold grow. cbn. f_equal. apply set_at_id. intros [y z]. cbn. now rewrite app_nil_r. Qed.
Lemma on_grow : forall x l w y, (x < List.length (w_axes w))%nat -> on_axes (grow x l w) y = on_axes w y ++ if Nat.eqb x y then l else [].
Proof.
  intros x l w y L. unfold PlotBuild_Spec.on_axes, grow. cbn. rewrite nth_set_at. destruct (Nat.eqb x y) eqn:E; [|destruct (nth_error (w_axes w) y); now rewrite ?app_nil_r].
  apply Nat.eqb_eq in E. subst y. destruct (nth_error (w_axes w) x) as [z|] eqn:N; [reflexivity|]. apply nth_error_None in N. lia.
Qed.

Lemma image_ops : forall w m i f x ls h b (a : artist),
  seq M D (show M D a) (seq M D (draw M D) (note M D a)) (w, Plot m i (Some f) x ls h b) = ((grow x [a] w, Plot m i (Some f) x (ls ++ [a]) h b), None).
Proof. reflexivity. Qed.

(** All of [create] on a plot without layers. *)
Lemma create_from : forall m data a w i f x b given, possible m data a ->
  forall w1, (match given with Some p => (w, p) | None => new_plot M D m (a_fig a) (a_ax a) (a_interactive a) w end) = (w1, Plot m i (Some f) x [] None b) ->
  exists p, create m data a given w = ((World (w_figs w1) (set_at (w_axes w1) x (fun y => (fst y, snd y ++ asked_images m data a ++ asked_scale m a))) (w_bars w1 ++ map Some (asked_bar data a)), p), None) /\
    p_map p = m /\ p_interactive p = i /\ p_fig p = Some f /\ p_ax p = x /\ p_layers p = asked_images m data a /\
    p_bar p = (if a_bar a then Some (List.length (w_bars w1)) else b).
Proof.
  intros m data a w i f x b given (P1 & P2 & P3) w1 E. unfold PlotBuild_Model.create. rewrite E. clear E.
  unfold PlotBuild_Spec.asked_images, PlotBuild_Spec.asked_map, PlotBuild_Spec.asked_boundaries, PlotBuild_Spec.asked_highlights, PlotBuild_Spec.asked_scale, PlotBuild_Spec.asked_bar, the_scale in *.
  destruct a as [fig ax inter bar vmin vmax cmap label gbs dilate colour sbar scale ids colours alpha]. cbn [a_fig a_ax a_interactive a_bar a_vmin a_vmax a_cmap a_label a_gbs a_dilate a_colour a_scale_bar a_scale a_ids a_colours a_alpha] in *.
  assert (S1 : exists st1, st1 = match data with Some d => (grow x [Image M D d vmin vmax cmap] w1, Plot m i (Some f) x [Image M D d vmin vmax cmap] None b) | None => (w1, Plot m i (Some f) x [] None b) end /\
    forall k, seq M D (match data with Some d => add_map M D d vmin vmax cmap | None => skip M D end) k (w1, Plot m i (Some f) x [] None b) = k st1).
  { eexists. split; [reflexivity|]. intros k. destruct data; reflexivity. }
  destruct S1 as (st1 & E1 & K1). rewrite K1. clear K1.
  set (im := match data with Some d => [Image M D d vmin vmax cmap] | None => [] end).
  assert (E1' : st1 = (grow x im w1, Plot m i (Some f) x im None b)) by (rewrite E1; unfold im; destruct data; [reflexivity|now rewrite grow_nil]). clear E1.
  set (bar1 := if bar then Some (List.length (w_bars w1)) else b).
  set (w2 := World (w_figs w1) (set_at (w_axes w1) x (fun y => (fst y, snd y ++ im))) (w_bars w1 ++ map Some (if bar then map (fun i => (i, label)) im else []))).
  assert (K2 : forall k, seq M D (when M D bar (add_colour_bar M D label)) k st1 = k (w2, Plot m i (Some f) x im None bar1)).
  { intros k. rewrite E1'. unfold w2, bar1. destruct bar; cbn [when].
    - destruct data as [d|]; [|exfalso; now apply P1]. reflexivity.
    - unfold seq, skip. cbn [map]. rewrite app_nil_r. destruct w1; reflexivity. }
  rewrite K2. clear K2 E1' st1.
  set (bd := match gbs with Some lines => [Boundaries M D m lines dilate (match colour with Some c => c | None => lit "white" end)] | None => [] end).
  assert (K3 : forall k, seq M D (match gbs with Some lines => add_grain_boundaries M D lines dilate colour | None => skip M D end) k (w2, Plot m i (Some f) x im None bar1) = k (grow x bd w2, Plot m i (Some f) x (im ++ bd) None bar1)).
  { intros k. unfold bd. destruct gbs; [reflexivity|]. rewrite grow_nil, app_nil_r. reflexivity. }
  rewrite K3. clear K3.
  set (hl := match ids with Some l => [Highlights M D m l colours (match alpha with Some r => r | None => alpha_of m end)] | None => [] end).
  assert (K4 : exists h, forall k, seq M D (match ids with Some l => add_grain_highlights M D grains_of alpha_of l colours alpha | None => skip M D end) k (grow x bd w2, Plot m i (Some f) x (im ++ bd) None bar1) =
    k (grow x (bd ++ hl) w2, Plot m i (Some f) x (im ++ bd ++ hl) h bar1)).
  { unfold hl. destruct ids as [l|].
    - eexists. intros k. unfold seq at 1, add_grain_highlights. cbn [PlotBuild_Model.p_map PlotBuild_Model.p_high].
      replace (forallb (fun i0 => (- Z.of_nat (grains_of m) <=? i0) && (i0 <? Z.of_nat (grains_of m))) l) with true.
      2:{ symmetry. apply forallb_forall. intros j Ij. specialize (P3 l j eq_refl Ij). lia. }
      cbn [negb]. unfold seq, show, note, draw, set_high, set_layers. cbn -[grow]. change (put M D x (Highlights M D m l colours (match alpha with Some r => r | None => alpha_of m end)) (grow x bd w2)) with (grow x [Highlights M D m l colours (match alpha with Some r => r | None => alpha_of m end)] (grow x bd w2)).
      rewrite grow_grow, <- app_assoc. reflexivity.
    - exists None. intros k. rewrite !app_nil_r. reflexivity. }
  destruct K4 as (h & K4). rewrite K4. clear K4.
  set (sc := if sbar then match match scale with Some s => Some s | None => scale_of m end with Some s => [Scale M D s] | None => [] end else []).
  exists (Plot m i (Some f) x (im ++ bd ++ hl) h bar1). split; [|repeat split].
  assert (F : forall l, grow x l w2 = World (w_figs w1) (set_at (w_axes w1) x (fun y => (fst y, snd y ++ im ++ l))) (w_bars w1 ++ map Some (if bar then map (fun i => (i, label)) im else []))).
  { intros l. unfold grow, w2. cbn. f_equal. rewrite set_at_set_at. apply set_at_ext. intros y. cbn [fst snd]. now rewrite app_assoc. }
  transitivity ((grow x ((bd ++ hl) ++ sc) w2, Plot m i (Some f) x (im ++ bd ++ hl) h bar1), @None exn).
  2:{ rewrite F. f_equal. f_equal. f_equal. apply set_at_ext. intros y. change (match data with Some d => [Image M D d vmin vmax cmap] | None => [] end) with im. fold bd hl sc. now rewrite !app_assoc. }
  unfold sc, when. destruct sbar.
  - unfold add_scale_bar. cbn [PlotBuild_Model.p_map]. destruct (match scale with Some s => Some s | None => scale_of m end) as [s|]; [|exfalso; now apply P2]. rewrite <- (grow_grow x (bd ++ hl)). reflexivity.
  - rewrite app_nil_r. reflexivity.
Qed.

Lemma bars_app : forall (w : world) a l, bars (World (w_figs w) a (w_bars w ++ map Some l)) = bars w ++ l.
Proof.
  intros w a l. unfold PlotBuild_Spec.bars. cbn. rewrite flat_map_app. f_equal. induction l as [|y l IH]; cbn; [reflexivity|now rewrite IH].
Qed.

(** A new plot of what can be drawn, on axes given with their figure or on new ones, adds to
    these axes exactly the images asked for, in order, and the scale bar; the colour bar is that
    of the map's image; nothing else is drawn anywhere. *)
Theorem C110_new_partial : forall m data a w, possible m data a -> places M D a w ->
  exists w' p, create m data a None w = ((w', p), None) /\ p_map p = m /\ p_layers p = asked_images m data a /\
    (forall x, a_ax a = Some x -> p_ax p = x) /\
    (forall y, on_axes w' y = on_axes w y ++ if Nat.eqb (p_ax p) y then asked_images m data a ++ asked_scale m a else []) /\
    bars w' = bars w ++ asked_bar data a.
Proof.
  intros m data a w P Q.
  assert (N : exists i f x w1, new_plot M D m (a_fig a) (a_ax a) (a_interactive a) w = (w1, Plot m i (Some f) x [] None None) /\ (x < List.length (w_axes w1))%nat /\
    (forall y, on_axes w1 y = on_axes w y) /\ w_bars w1 = w_bars w /\ forall y, a_ax a = Some y -> x = y).
  { unfold new_plot, new_figure.
    assert (F : exists i f x w1, (World (S (w_figs w)) (w_axes w ++ [(w_figs w, [])]) (w_bars w), Plot m (a_interactive a) (Some (w_figs w)) (List.length (w_axes w)) [] None None) = (w1, Plot m i (Some f) x [] None None) /\ (x < List.length (w_axes w1))%nat /\
      (forall y, on_axes w1 y = on_axes w y) /\ w_bars w1 = w_bars w /\ (a_ax a = None -> forall y, a_ax a = Some y -> x = y)).
    { eexists _, _, _, _. split; [reflexivity|]. split; [cbn; rewrite app_length; cbn; lia|]. split; [|split; [reflexivity|intros ->; discriminate]].
      intros y. unfold PlotBuild_Spec.on_axes. cbn. destruct (Nat.lt_total y (List.length (w_axes w))) as [L|[->|L]].
      - now rewrite nth_error_app1.
      - rewrite nth_error_app2, Nat.sub_diag by lia. cbn. now rewrite (proj2 (nth_error_None _ _)) by lia.
      - rewrite !(proj2 (nth_error_None _ _)); [reflexivity|lia|rewrite app_length; cbn; lia]. }
    unfold places in Q. destruct (a_fig a) as [f|], (a_ax a) as [x|]; try contradiction.
    - destruct Q as (l & Q). destruct (a_interactive a); (eexists _, f, x, w; split; [reflexivity|]; split; [apply nth_error_Some; congruence|]; split; [reflexivity|]; split; [reflexivity|]; congruence).
    - destruct F as (i & f' & x & w1 & F1 & F2 & F3 & F4 & F5). exists i, f', x, w1. destruct (a_interactive a); (split; [exact F1|]); (split; [exact F2|]); (split; [exact F3|]); (split; [exact F4|]); auto.
    - destruct F as (i & f' & x & w1 & F1 & F2 & F3 & F4 & F5). exists i, f', x, w1. destruct (a_interactive a); (split; [exact F1|]); (split; [exact F2|]); (split; [exact F3|]); (split; [exact F4|]); auto. }
  destruct N as (i & f & x & w1 & N1 & N2 & N3 & N4 & N5).
  destruct (create_from m data a w i f x None None P w1 N1) as (p & E & X1 & X2 & X3 & X4 & X5 & X6).
  eexists _, p. split; [exact E|]. split; [exact X1|]. split; [exact X5|]. split; [intros y Ey; rewrite X4; auto|]. split.
  - intros y. change (on_axes (grow x (asked_images m data a ++ asked_scale m a) w1) y = on_axes w y ++ (if Nat.eqb (p_ax p) y then asked_images m data a ++ asked_scale m a else [])).
    now rewrite on_grow, N3, X4.
  - rewrite bars_app. unfold PlotBuild_Spec.bars. now rewrite N4.
Qed.

(** The same for a plot of the same map that was given and is empty. *)
Theorem C110_empty_partial : forall m data a w i f x b, possible m data a -> (x < List.length (w_axes w))%nat ->
  exists w' p, create m data a (Some (Plot m i (Some f) x [] None b)) w = ((w', p), None) /\ p_ax p = x /\ p_layers p = asked_images m data a /\
    (forall y, on_axes w' y = on_axes w y ++ if Nat.eqb x y then asked_images m data a ++ asked_scale m a else []) /\
    bars w' = bars w ++ asked_bar data a.
Proof.
  intros m data a w i f x b P L.
  destruct (create_from m data a w i f x b (Some (Plot m i (Some f) x [] None b)) P w eq_refl) as (p & E & X1 & X2 & X3 & X4 & X5 & X6).
  eexists _, p. split; [exact E|]. split; [exact X4|]. split; [exact X5|]. split; [|now rewrite bars_app].
  intros y. change (on_axes (grow x (asked_images m data a ++ asked_scale m a) w) y = on_axes w y ++ (if Nat.eqb x y then asked_images m data a ++ asked_scale m a else [])). now rewrite on_grow.
Qed.

(** A new interactive plot that is cleared leaves its axes empty and no colour bar of its own. *)
Theorem C110_clear : forall m data a w i f x, possible m data a -> i = true -> (x < List.length (w_axes w))%nat ->
  exists w1 p1 w2 p2, create m data a (Some (Plot m i (Some f) x [] None None)) w = ((w1, p1), None) /\ clear M D (w1, p1) = ((w2, p2), None) /\
    p2 = Plot m i (Some f) x [] None None /\ (forall y, on_axes w2 y = if Nat.eqb x y then [] else on_axes w y) /\ bars w2 = bars w.
Proof.
  intros m data a w i f x P -> L.
  destruct (create_from m data a w true f x None (Some (Plot m true (Some f) x [] None None)) P w eq_refl) as (p & E & X1 & X2 & X3 & X4 & X5 & X6).
  eexists _, p, _, _. split; [exact E|]. unfold clear, draw. rewrite X1, X2, X3, X4. cbn [negb snd PlotBuild_Model.p_fig]. split; [reflexivity|]. split; [reflexivity|].
  destruct P as (P1 & _). split.
  - intros y. unfold PlotBuild_Spec.on_axes. destruct (p_bar p); cbn; rewrite set_at_set_at, nth_set_at; (destruct (Nat.eqb x y); [destruct (nth_error (w_axes w) y); reflexivity|reflexivity]).
  - rewrite X6. unfold PlotBuild_Spec.asked_bar, PlotBuild_Spec.asked_map. destruct (a_bar a); cbn.
    + destruct data as [d|]; [|exfalso; now apply P1]. cbn. unfold PlotBuild_Spec.bars. cbn.
      assert (G : forall (l : list (option (artist * txt))) y, set_at (l ++ [y]) (List.length l) (fun _ => None) = l ++ [None]) by (induction l as [|z l IH]; intros y; cbn; [reflexivity|now rewrite IH]).
      rewrite G, flat_map_app. cbn. apply app_nil_r.
    + unfold PlotBuild_Spec.bars. cbn. now rewrite app_nil_r.
Qed.

(** Axes given without their figure: the image is drawn on them and then the call fails. *)
Theorem C110_axes_refuted : forall m d a w x l, a_fig a = None -> a_ax a = Some x -> a_interactive a = false -> nth_error (w_axes w) x = Some l ->
  exists w' p, create m (Some d) a None w = ((w', p), Some AttributeError) /\ on_axes w' x = on_axes w x ++ asked_map (Some d) a.
Proof.
  intros m d a w x l E1 E2 E3 E4. unfold PlotBuild_Model.create, new_plot. rewrite E1, E2, E3. eexists _, _. split; [reflexivity|].
  change (on_axes (grow x (asked_map (Some d) a) w) x = on_axes w x ++ asked_map (Some d) a). rewrite on_grow by (apply nth_error_Some; congruence). now rewrite Nat.eqb_refl.
Qed.
(** An interactive plot asked for on axes given without their figure is made elsewhere. *)
Theorem C110_interactive_refuted : forall m data a w x, a_fig a = None -> a_ax a = Some x -> a_interactive a = true -> (x < List.length (w_axes w))%nat -> possible m data a ->
  exists w' p, create m data a None w = ((w', p), None) /\ p_ax p <> x /\ on_axes w' x = on_axes w x.
Proof.
  intros m data a w x E1 E2 E3 L P.
  assert (N : new_plot M D m (a_fig a) (a_ax a) (a_interactive a) w = (World (S (w_figs w)) (w_axes w ++ [(w_figs w, [])]) (w_bars w), Plot m true (Some (w_figs w)) (List.length (w_axes w)) [] None None)) by (rewrite E1, E2, E3; reflexivity).
  destruct (create_from m data a w true (w_figs w) (List.length (w_axes w)) None None P _ N) as (p & E & X1 & X2 & X3 & X4 & X5 & X6).
  eexists _, p. split; [exact E|]. split; [lia|]. unfold PlotBuild_Spec.on_axes. cbn. rewrite nth_set_at.
  destruct (Nat.eqb (List.length (w_axes w)) x) eqn:Q; [apply Nat.eqb_eq in Q; lia|]. now rewrite nth_error_app1.
Qed.
(** On a plot that has an image, the colour bar is that of the first image, and boundaries and
    scale are those of the map the plot was made for. *)
Theorem C110_given_refuted : forall m m' d a w i f x first rest h b label, (x < List.length (w_axes w))%nat ->
  a = Args None None false true None None None label (Some false) false None false None None None None ->
  exists w' p, create m (Some d) a (Some (Plot m' i (Some f) x (first :: rest) h b)) w = ((w', p), None) /\
    on_axes w' x = on_axes w x ++ [Image M D d None None None; Boundaries M D m' false false (lit "white")] /\ bars w' = bars w ++ [(first, label)].
Proof.
  intros m m' d a w i f x first rest h b label L ->. eexists _, _. split; [reflexivity|]. split.
  - unfold PlotBuild_Spec.on_axes. cbn. rewrite set_at_set_at, nth_set_at, Nat.eqb_refl. destruct (nth_error (w_axes w) x) as [[y z]|] eqn:N; [cbn; now rewrite <- app_assoc|]. apply nth_error_None in N. lia.
  - unfold PlotBuild_Spec.bars. cbn. now rewrite flat_map_app.
Qed.
(** [clear] leaves all colour bars but the last. *)
Theorem C110_bars_refuted : forall m d w f x label, (x < List.length (w_axes w))%nat ->
  let a := Args None None false true None None None label None false None false None None None None in
  exists s1 s2 s3, create m (Some d) a (Some (Plot m true (Some f) x [] None None)) w = (s1, None) /\ create m (Some d) a (Some (snd s1)) (fst s1) = (s2, None) /\
    clear M D s2 = (s3, None) /\ on_axes (fst s3) x = [] /\ bars (fst s3) = bars w ++ [(Image M D d None None None, label)].
Proof.
  intros m d w f x label L a. eexists _, _, _. split; [reflexivity|]. split; [reflexivity|]. split; [reflexivity|]. split.
  - unfold PlotBuild_Spec.on_axes. cbn. rewrite !set_at_set_at, nth_set_at, Nat.eqb_refl. destruct (nth_error (w_axes w) x); reflexivity.
  - unfold PlotBuild_Spec.bars. cbn. rewrite app_length. cbn [List.length].
    assert (G : forall (l : list (option (artist * txt))) y z, set_at ((l ++ [y]) ++ [z]) (List.length l + 1) (fun _ => None) = l ++ [y; None]) by (induction l as [|u l IH]; intros y z; cbn; [reflexivity|now rewrite IH]).
    rewrite G, flat_map_app. reflexivity.
Qed.
(** The boundary map is drawn in white. *)
Theorem C110_boundary_map_refuted : forall m w, exists w' p, boundary_map M D scale_of grains_of alpha_of m w = ((w', p), None) /\ p_layers p = [Boundaries M D m false false (lit "white")].
Proof. intros m w. eexists _, _. split; reflexivity. Qed.
(** What cannot be drawn is refused. *)
Lemma seq_ok : forall f g s s', seq M D f g s = (s', None) -> exists s1, f s = (s1, None) /\ g s1 = (s', None).
Proof. intros f g s s' H. unfold seq in H. destruct (f s) as [s1 [e|]]; [discriminate|eauto]. Qed.
Lemma draw_ok : forall s s', draw M D s = (s', None) -> s' = s.
Proof. intros s s' H. unfold draw in H. now inversion H. Qed.
Theorem C110_impossible : forall m data a w, ~ possible m data a -> exists s e, create m data a None w = (s, Some e).
Proof.
  intros m data a w N. destruct (create m data a None w) as [s [e|]] eqn:E; [eauto|]. exfalso. apply N. clear N. unfold PlotBuild_Model.create in E.
  assert (F : exists i f x w1, new_plot M D m (a_fig a) (a_ax a) (a_interactive a) w = (w1, Plot m i f x [] None None)).
  { unfold new_plot, new_figure. destruct (a_fig a), (a_ax a), (a_interactive a); eexists _, _, _, _; reflexivity. }
  destruct F as (i & f & x & w1 & F). rewrite F in E. clear F. unfold PlotBuild_Spec.possible, the_scale.
  destruct a as [fig ax inter bar vmin vmax cmap label gbs dilate colour sbar scale ids colours alpha]. cbn [a_fig a_ax a_interactive a_bar a_vmin a_vmax a_cmap a_label a_gbs a_dilate a_colour a_scale_bar a_scale a_ids a_colours a_alpha] in *.
  apply seq_ok in E. destruct E as (s1 & E1 & E). apply seq_ok in E. destruct E as (s2 & E2 & E). apply seq_ok in E. destruct E as (s3 & E3 & E). apply seq_ok in E. destruct E as (s4 & E4 & E5).
  assert (Q1 : p_map (snd s1) = m /\ p_high (snd s1) = None /\ (data = None -> p_layers (snd s1) = [])).
  { destruct data as [d|]; [|inversion E1; auto]. unfold add_map in E1. apply seq_ok in E1. destruct E1 as (u & U1 & E1). apply seq_ok in E1. destruct E1 as (v & V1 & E1). apply draw_ok in V1. subst v. inversion U1; subst u. inversion E1. cbn. repeat split; discriminate. }
  destruct Q1 as (Q1 & Q1' & Q1'').
  assert (Q2 : p_map (snd s2) = m /\ p_high (snd s2) = None /\ (bar = true -> data <> None)).
  { destruct bar; cbn [when] in E2; [|inversion E2; subst s2; repeat split; auto; discriminate]. destruct s1 as [u v]. unfold add_colour_bar in E2. cbn [snd] in *. destruct (p_layers v) eqn:L; [discriminate|]. inversion E2; subst s2. cbn. repeat split; auto. intros _ K. specialize (Q1'' K). congruence. }
  destruct Q2 as (Q2 & Q2' & Q2'').
  assert (Q3 : p_map (snd s3) = m /\ p_high (snd s3) = None).
  { destruct gbs as [l|]; [|inversion E3; subst s3; auto]. unfold add_grain_boundaries in E3. apply seq_ok in E3. destruct E3 as (u & U1 & E3). apply seq_ok in E3. destruct E3 as (v & V1 & E3). apply draw_ok in V1. subst v. destruct s2 as [w2 p2]. inversion U1; subst u. inversion E3. cbn. auto. }
  destruct Q3 as (Q3 & Q3').
  assert (Q4 : p_map (snd s4) = m /\ forall l j, ids = Some l -> In j l -> - Z.of_nat (grains_of m) <= j < Z.of_nat (grains_of m)).
  { destruct ids as [l|]; [|inversion E4; subst s4; split; auto; discriminate]. destruct s3 as [w3 p3]. unfold add_grain_highlights in E4. cbn [snd] in *. rewrite Q3, Q3' in E4.
    destruct (forallb _ l) eqn:K in E4; cbn [negb] in E4; [|discriminate]. split.
    - apply seq_ok in E4. destruct E4 as (u & U1 & E4). apply seq_ok in E4. destruct E4 as (v & V1 & E4). apply draw_ok in E4. subst s4. inversion U1; subst u. inversion V1; subst v. exact Q3.
    - intros l' j [= <-] Ij. rewrite forallb_forall in K. specialize (K j Ij). lia. }
  destruct Q4 as (Q4 & Q4'). split; [exact Q2''|]. split; [|exact Q4'].
  intros ->. cbn [when] in E5. destruct s4 as [w4 p4]. unfold add_scale_bar in E5. cbn [snd] in *. rewrite Q4 in E5. destruct (match scale with Some s => Some s | None => scale_of m end); [discriminate|discriminate E5].
Qed.
(** Plots of one grain: image, colour bar and scale bar as for maps; then traces and bands, drawn
    last, that are no layers. *)
Theorem C110_grain_partial : forall m d a w i f x b tr bd, (a_scale_bar a = true -> the_scale M scale_of m a <> None) -> (x < List.length (w_axes w))%nat ->
  exists w' p, create_grain m d a tr bd (Some (Plot m i (Some f) x [] None b)) w = ((w', p), None) /\ p_layers p = asked_map (Some d) a /\
    (forall y, on_axes w' y = on_axes w y ++ if Nat.eqb x y then asked_map (Some d) a ++ asked_scale m a ++ (if tr then [Traces M D m] else []) ++ (if bd then [Bands M D m d] else []) else []) /\
    bars w' = bars w ++ asked_bar (Some d) a.
Proof.
  intros m d a w i f x b tr bd P L.
  assert (G : exists p, create_grain m d a tr bd (Some (Plot m i (Some f) x [] None b)) w = ((World (w_figs w) (w_axes (grow x (asked_map (Some d) a ++ asked_scale m a ++ (if tr then [Traces M D m] else []) ++ (if bd then [Bands M D m d] else [])) w)) (w_bars w ++ map Some (asked_bar (Some d) a)), p), None) /\ p_layers p = asked_map (Some d) a).
  { unfold PlotBuild_Model.create_grain, PlotBuild_Spec.asked_scale, PlotBuild_Spec.asked_bar, the_scale, PlotBuild_Spec.asked_map in *.
    destruct a as [fig ax inter bar vmin vmax cmap label gbs dilate colour sbar scale ids colours alpha]. cbn [a_fig a_ax a_interactive a_bar a_vmin a_vmax a_cmap a_label a_gbs a_dilate a_colour a_scale_bar a_scale a_ids a_colours a_alpha] in *.
    assert (H : forall l, w_axes (grow x l w) = set_at (w_axes w) x (fun y => (fst y, snd y ++ l))) by reflexivity. rewrite H.
    assert (K : forall u, exists u1, w_axes u1 = w_axes (grow x [Image M D d vmin vmax cmap] u) /\ w_figs u1 = w_figs u /\ w_bars u1 = w_bars u ++ map Some (if bar then [(Image M D d vmin vmax cmap, label)] else []) /\
      exists b1, forall k, seq M D (add_map M D d vmin vmax cmap) (seq M D (when M D bar (add_colour_bar M D label)) k) (u, Plot m i (Some f) x [] None b) = k (u1, Plot m i (Some f) x [Image M D d vmin vmax cmap] None b1)).
    { intros u. destruct bar.
      - eexists (World _ _ _). split; [|split; [|split; [|eexists; intros k; reflexivity]]]; reflexivity.
      - exists (grow x [Image M D d vmin vmax cmap] u). repeat split; [cbn; now rewrite app_nil_r|]. exists b. reflexivity. }
    destruct (K w) as (u1 & A1 & A2 & A3 & b1 & A4). exists (Plot m i (Some f) x [Image M D d vmin vmax cmap] None b1). split; [|reflexivity]. rewrite A4. clear K A4.
    assert (K1 : forall k, seq M D (when M D sbar (add_scale_bar M D scale_of scale)) k (u1, Plot m i (Some f) x [Image M D d vmin vmax cmap] None b1) =
      k (grow x (if sbar then match match scale with Some s => Some s | None => scale_of m end with Some s => [Scale M D s] | None => [] end else []) u1, Plot m i (Some f) x [Image M D d vmin vmax cmap] None b1)).
    { intros k. destruct sbar; [|cbn [when]; rewrite grow_nil; reflexivity]. unfold seq, when, add_scale_bar. cbn [PlotBuild_Model.p_map]. destruct (match scale with Some s => Some s | None => scale_of m end); [reflexivity|exfalso; now apply P]. }
    rewrite K1. clear K1.
    assert (K2 : forall u k, seq M D (when M D tr (fun s => draw_artist M D (Traces M D (p_map (snd s))) s)) k (u, Plot m i (Some f) x [Image M D d vmin vmax cmap] None b1) = k (grow x (if tr then [Traces M D m] else []) u, Plot m i (Some f) x [Image M D d vmin vmax cmap] None b1)).
    { intros u k. destruct tr; [reflexivity|]. cbn [when]. rewrite grow_nil. reflexivity. }
    rewrite K2, grow_grow. clear K2.
    assert (K3 : forall u, when M D bd (fun s => draw_artist M D (Bands M D (p_map (snd s)) d) s) (u, Plot m i (Some f) x [Image M D d vmin vmax cmap] None b1) = ((grow x (if bd then [Bands M D m d] else []) u, Plot m i (Some f) x [Image M D d vmin vmax cmap] None b1), None)).
    { intros u. destruct bd; [reflexivity|]. cbn [when]. rewrite grow_nil. reflexivity. }
    rewrite K3, grow_grow. f_equal. f_equal. unfold grow at 1. rewrite A1, A2, A3. unfold grow. cbn [PlotBuild_Model.w_axes]. rewrite set_at_set_at. f_equal.
    - apply set_at_ext. intros y. cbn [fst snd]. now rewrite <- !app_assoc. }
  destruct G as (p & G1 & G2). eexists _, p. split; [exact G1|]. split; [exact G2|]. split; [|now rewrite bars_app].
  intros y. rewrite <- on_grow by exact L. reflexivity.
Qed.
End Props.

(** A case: data 7 of map 1 on the second axes, with everything asked for. *)
Definition ex_scale (m : nat) : option R := match m with O => None | S _ => Some (1/5)%R end.
Definition ex_args : args := Args (Some 0%nat) (Some 1%nat) false true None (Some 1%R) None (lit "strain") (Some true) false None true None (Some [0; -1]) None None.
Definition ex_world : world nat nat := World nat nat 1 [(0%nat, [Scale nat nat 1%R]); (0%nat, [])] [].
Example C110_met : possible nat nat ex_scale (fun _ => 2%nat) 1%nat (Some 7%nat) ex_args /\ places nat nat ex_args ex_world /\
  asked_images nat nat (fun _ => 0%R) 1%nat (Some 7%nat) ex_args ++ asked_scale nat nat ex_scale 1%nat ex_args =
  [Image nat nat 7%nat None (Some 1%R) None; Boundaries nat nat 1%nat true false (lit "white"); Highlights nat nat 1%nat [0; -1] None 0%R; Scale nat nat (1/5)%R].
Proof.
  split; [|split; [exists []; reflexivity|reflexivity]]. split; [discriminate|]. split; [discriminate|]. intros ids i [= <-] [<-|[<-|[]]]; cbn; lia.
Qed.
Example C110_impossible_met : ~ possible nat nat ex_scale (fun _ => 2%nat) 0%nat (Some 7%nat) ex_args.
Proof. intros (_ & H & _). now apply H. Qed.

Print Assumptions C110_new_partial.
Print Assumptions C110_empty_partial.
Print Assumptions C110_clear.
Print Assumptions C110_axes_refuted.
Print Assumptions C110_interactive_refuted.
Print Assumptions C110_given_refuted.
Print Assumptions C110_bars_refuted.
Print Assumptions C110_boundary_map_refuted.
Print Assumptions C110_impossible.
Print Assumptions C110_grain_partial.
