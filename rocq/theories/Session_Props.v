(** Theorems about sessions of clicks. *)
From Coq Require Import String Reals Lia Lra.
From Coq Require Import List ZArith Bool.
Import ListNotations.
From Verif Require Import Py Grid Grid_Lemmas Base_Model Base_Spec Base_Proofs Base_Props Session_Model Session_Spec.
Open Scope Z_scope.

Lemma pointed_trunc x m : pointed x m -> trunc x = m.
Proof.
  intros [[X M]|[X ->]]; [|now apply trunc_neg]. apply trunc_pos; [|exact M].
  assert (0 < m + 1); [|lia]. apply lt_IZR. rewrite plus_IZR. lra.
Qed.
Lemma change_length {A} k (f : A -> A) l : List.length (change k f l) = List.length l.
Proof. revert k; induction l as [|a l IH]; intros [|k]; cbn [change List.length]; auto. Qed.
Lemma change_nth {A} k (f : A -> A) l j : nth_error (change k f l) j = if Nat.eqb j k then option_map f (nth_error l j) else nth_error l j.
Proof.
  revert k j; induction l as [|a l IH]; intros [|k] [|j]; cbn [change nth_error Nat.eqb option_map]; try reflexivity; [now destruct (Nat.eqb j k)|apply IH].
Qed.
Lemma change_map {A B} (g : A -> B) k f l : (forall a, g (f a) = g a) -> map g (change k f l) = map g l.
Proof. intros E. revert k; induction l as [|a l IH]; intros [|k]; cbn [change map]; [reflexivity|reflexivity|now rewrite E|now rewrite IH]. Qed.

Section Props.
Variables (W H : Z) (labels : pix -> Z) (n : nat).
Hypothesis sound : forall p, inside W H p -> labels p <= Z.of_nat n.
Let run := run W H labels n.
Let step := step W H labels n.

Lemma run_snoc es e : run (es ++ [e]) = fst (step e (run es)).
Proof. unfold run, Session_Model.run. rewrite fold_left_app. reflexivity. Qed.
Lemma opened_snoc es e : opened (es ++ [e]) = opened es ++ opens e.
Proof. unfold opened. rewrite map_app, concat_app. cbn [map concat]. now rewrite app_nil_r. Qed.
Lemma read x y px py : pointed x px -> pointed y py -> inside W H (px, py) ->
  click_grain_id W H labels n true x y = Ok (if 0 <? labels (px, py) then Some (labels (px, py) - 1) else None).
Proof.
  intros PX PY I. unfold click_grain_id. cbn [negb]. rewrite (pointed_trunc x px PX), (pointed_trunc y py PY), fetch_in by exact I. cbn [bind].
  specialize (sound (px, py) I). destruct (Z.ltb_spec (labels (px, py) - 1) 0), (Z.ltb_spec 0 (labels (px, py))); try lia; [reflexivity|].
  destruct (py_nth_range unit (repeat tt n) (labels (px, py) - 1)) as (u & _ & ->); [rewrite repeat_length; lia|]. reflexivity.
Qed.
Lemma display_same g s : s_sel (fst (display_grain g s)) = s_sel s /\ s_plots (fst (display_grain g s)) = s_plots s /\ s_origin (fst (display_grain g s)) = s_origin s.
Proof.
  unfold display_grain. destruct (match s_cur s with Some _ => _ | None => _ end); destruct (s_early s g); [| |auto|]; try (destruct (s_late s g)); cbn; auto.
Qed.
Lemma kinds_step e s : map mp_kind (s_plots (fst (step e s))) = map mp_kind (s_plots s) ++ opens e.
Proof.
  destruct e as [d| | |k on x y|j|a b|nb]; cbn [opens]; try (rewrite app_nil_r); try reflexivity.
  - unfold step, Session_Model.step. destruct d; cbn [fst s_plots set_wins set_plots]; rewrite map_app; reflexivity.
  - cbn. rewrite map_app. reflexivity.
  - cbn. rewrite map_app. reflexivity.
  - unfold step, Session_Model.step, click. destruct (nth_error (s_plots s) k) as [p|]; [|reflexivity].
    destruct (mp_kind p) as [d| |].
    + destruct (click_grain_id _ _ _ _ _ _ _) as [[g|]|z]; [|reflexivity|reflexivity].
      assert (M : map mp_kind (s_plots (highlight k [g] (set_sel g s))) = map mp_kind (s_plots s)) by (cbn; now apply change_map).
      destruct d; [|exact M]. destruct (display_same g (highlight k [g] (set_sel g s))) as (_ & -> & _). exact M.
    + destruct (click_grain_id _ _ _ _ _ _ _) as [[g|]|z]; [|reflexivity|reflexivity].
      destruct (s_nb (set_sel g s)); [|reflexivity]. cbn. now apply change_map.
    + destruct (negb on); [reflexivity|]. cbn. now apply change_map.
Qed.
Lemma kinds es : map mp_kind (s_plots (run es)) = opened es.
Proof.
  induction es as [|e es IH] using rev_ind; [reflexivity|]. rewrite run_snoc, kinds_step, IH, opened_snoc. reflexivity.
Qed.
Lemma kind_at es k : nth_error (opened es) k = option_map mp_kind (nth_error (s_plots (run es)) k).
Proof. rewrite <- kinds. apply nth_error_map. Qed.

(** What a click does to the selection: proper clicks either hit a grain, and select it, or change nothing. *)
Lemma click_cases s k x y p px py : nth_error (s_plots s) k = Some p -> mp_kind p <> Orig -> pointed x px -> pointed y py -> inside W H (px, py) ->
  let g := labels (px, py) - 1 in
  (labels (px, py) <= 0 -> step (EClick k true x y) s = (s, Ok tt)) /\
  (0 < labels (px, py) -> step (EClick k true x y) s =
    match mp_kind p with
    | Show true => display_grain g (highlight k [g] (set_sel g s))
    | Show false => (highlight k [g] (set_sel g s), Ok tt)
    | _ => match s_nb s with None => (set_sel g s, Err AttributeError) | Some nb => (highlight k (highlighted nb g) (set_sel g s), Ok tt) end
    end).
Proof.
  intros E K PX PY I g. cbn [step Session_Model.step]. unfold step, Session_Model.step, click. rewrite E, (read x y px py PX PY I). fold g.
  destruct (Z.ltb_spec 0 (labels (px, py))); split; intros L; try lia; destruct (mp_kind p) as [[|]| |]; try reflexivity; congruence.
Qed.
Lemma hits_unique plots e k g k' g' : hits W H labels plots e k g -> hits W H labels plots e k' g' -> k' = k /\ g' = g.
Proof.
  intros (x & y & px & py & kd & -> & _ & _ & X & Y & _ & _ & L) (x' & y' & px' & py' & kd' & E & _ & _ & X' & Y' & _ & _ & L').
  injection E as <- <- <-. apply pointed_trunc in X, Y, X', Y'. subst. split; [reflexivity|lia].
Qed.
(** Any event either is a click on a grain or leaves selection and highlights of every plot alone. *)
Lemma hit_or_not es e : proper W H e ->
  (exists k g p, hits W H labels (opened es) e k g /\ nth_error (s_plots (run es)) k = Some p /\ mp_kind p <> Orig /\
     (exists x y, e = EClick k true x y) /\
     step e (run es) = match mp_kind p with
      | Show true => display_grain g (highlight k [g] (set_sel g (run es)))
      | Show false => (highlight k [g] (set_sel g (run es)), Ok tt)
      | _ => match s_nb (run es) with None => (set_sel g (run es), Err AttributeError) | Some nb => (highlight k (highlighted nb g) (set_sel g (run es)), Ok tt) end
      end) \/
  ((forall k g, ~ hits W H labels (opened es) e k g) /\ s_sel (fst (step e (run es))) = s_sel (run es) /\
   (forall k, shown_in k (fst (step e (run es))) = shown_in k (run es))).
Proof.
  intros PR.
  assert (APP : forall pl kd m k, mp_high (MPlot kd None m) = None -> match nth_error (pl ++ [MPlot kd None m]) k with Some p => mp_high p | None => None end = match nth_error pl k with Some p => mp_high p | None => None end).
  { intros pl kd m k _. destruct (Nat.ltb_spec k (List.length pl)) as [Lt|Ge]; [now rewrite nth_error_app1|].
    rewrite nth_error_app2 by exact Ge. rewrite (proj2 (nth_error_None pl k)) by exact Ge. destruct (k - List.length pl)%nat as [|[|m']]; reflexivity. }
  assert (NO : (forall k x y, e <> EClick k true x y) -> forall k g, ~ hits W H labels (opened es) e k g) by (intros D k g (x & y & _ & _ & _ & -> & _); now apply (D k x y)).
  destruct e as [d| | |k on x y|j|a b|nb]; try (right; split; [apply NO; discriminate|]; split; [reflexivity|]; intros k; reflexivity).
  - right. split; [apply NO; discriminate|]. destruct d; (split; [reflexivity|]); intros k; unfold shown_in; apply APP; reflexivity.
  - right. split; [apply NO; discriminate|]. split; [reflexivity|]. intros k; unfold shown_in; apply APP; reflexivity.
  - right. split; [apply NO; discriminate|]. split; [reflexivity|]. intros k; unfold shown_in; apply APP; reflexivity.
  - destruct on.
    2:{ right. split; [apply NO; discriminate|]. unfold step, Session_Model.step, click. destruct (nth_error (s_plots (run es)) k) as [p|]; [|split; reflexivity].
        destruct (mp_kind p); cbn; split; reflexivity. }
    destruct PR as (px & py & PX & PY & I). destruct (nth_error (s_plots (run es)) k) as [p|] eqn:EP.
    2:{ right. split; [|unfold step, Session_Model.step, click; rewrite EP; split; reflexivity].
        intros k' g (x' & y' & _ & _ & kd & [= <- <- <-] & N & _). rewrite kind_at, EP in N. discriminate. }
    destruct (mp_kind p) as [d| |] eqn:EK.
    3:{ right. split; [intros k' g (x' & y' & _ & _ & kd & [= <- <- <-] & N & NO' & _); rewrite kind_at, EP in N; cbn in N; rewrite EK in N; congruence|].
        unfold step, Session_Model.step, click. rewrite EP, EK. cbn [negb fst]. split; [reflexivity|].
        intros k'. unfold shown_in. cbn [s_plots set_plots put_origin]. rewrite change_nth. destruct (Nat.eqb k' k); [|reflexivity]. now destruct (nth_error (s_plots (run es)) k'). }
    all: destruct (click_cases (run es) k x y p px py EP) as (A & B); [congruence|exact PX|exact PY|exact I|]; rewrite EK in B;
      destruct (Z.leb_spec (labels (px, py)) 0) as [L|L];
      [ right; rewrite (A L); split; [|split; reflexivity];
        intros k' g (x' & y' & px' & py' & kd & [= <- <- <-] & _ & _ & PX' & PY' & _ & G & E);
        apply pointed_trunc in PX, PY, PX', PY'; subst; lia
      | left; exists k, (labels (px, py) - 1), p; split;
        [ exists x, y, px, py, (mp_kind p); split; [reflexivity|]; split; [rewrite kind_at, EP; reflexivity|]; split; [congruence|]; repeat (split; [assumption|]); lia
        | split; [exact EP|]; split; [congruence|]; split; [exists x, y; reflexivity|]; rewrite (B L), EK; reflexivity ] ].
Qed.
Lemma sel_hit s k p (g : Z) : s_sel (fst (match mp_kind p with
      | Show true => display_grain g (highlight k [g] (set_sel g s))
      | Show false => (highlight k [g] (set_sel g s), Ok tt)
      | _ => match s_nb s with None => (set_sel g s, Err AttributeError) | Some nb => (highlight k (highlighted nb g) (set_sel g s), Ok tt) end
      end)) = Some g.
Proof.
  destruct (mp_kind p) as [[|]| |]; try reflexivity; try (destruct (s_nb s); reflexivity).
  destruct (display_same g (highlight k [g] (set_sel g s))) as (-> & _). reflexivity.
Qed.

(** Histories: an observation that such events set and no others change is the one set last. *)
Lemma observed {A} (obs : sess -> option A) (P : list pkind -> event -> A -> Prop) : obs new_session = None ->
  (forall es e, proper W H e -> (exists a, P (opened es) e a /\ obs (fst (step e (run es))) = Some a /\ forall b, P (opened es) e b -> b = a) \/
     ((forall b, ~ P (opened es) e b) /\ obs (fst (step e (run es))) = obs (run es))) ->
  forall es, Forall (proper W H) es -> forall a, obs (run es) = Some a <-> last_such P es a.
Proof.
  intros O C es. induction es as [|e es IH] using rev_ind; intros F a.
  - unfold run, Session_Model.run. cbn [fold_left]. rewrite O. split; [discriminate|]. intros L. inversion L as [es e b B E|es e b B N E]; now destruct es.
  - apply Forall_app in F as (F & Fe). inversion_clear Fe as [|? ? PE _]. rewrite run_snoc. destruct (C es e PE) as [(b & B & -> & U)|(N & ->)].
    + split; [intros [= <-]; now constructor|]. intros L. inversion L as [es' e' a' B' E|es' e' a' B' N E]; apply app_inj_tail in E as (-> & ->); [now rewrite (U a B')|now destruct (N b)].
    + rewrite (IH F a). split; [intros L; now apply last_before|]. intros L. inversion L as [es' e' a' B' E|es' e' a' B' N' E]; apply app_inj_tail in E as (-> & ->); [now destruct (N a)|exact B'].
Qed.

(** The selected grain is the one clicked on last, in whichever plot; closing windows, opening plots
    and clicks beside the grains do not change it. *)
Theorem C119_selected : forall es, Forall (proper W H) es -> forall g,
  s_sel (run es) = Some g <-> last_such (fun plots e g => exists k, hits W H labels plots e k g) es g.
Proof.
  apply observed; [reflexivity|]. intros es e PE. destruct (hit_or_not es e PE) as [(k & g & p & Hh & _ & _ & _ & ->)|(N & -> & _)].
  - left. exists g. split; [exists k; exact Hh|]. split; [apply sel_hit|]. intros b (k' & B). destruct (hits_unique _ _ _ _ _ _ Hh B); congruence.
  - right. split; [intros b (k & B); now apply (N k b)|reflexivity].
Qed.
(** A plot for locating grains highlights exactly the grain clicked on last in this plot, whatever
    is clicked in others. *)
Theorem C119_highlighted : forall es, Forall (proper W H) es -> forall k d, nth_error (opened es) k = Some (Show d) ->
  (forall g, shown_in k (run es) = Some [g] <-> last_such (fun plots e g => hits W H labels plots e k g) es g) /\
  (shown_in k (run es) = None \/ exists g, shown_in k (run es) = Some [g]).
Proof.
  intros es F k d K.
  assert (KP : forall es' e, nth_error (opened (es' ++ [e])) k = Some (Show d) -> nth_error (opened es') k = Some (Show d) \/ (nth_error (opened es') k = None /\ forall k' g, hits W H labels (opened es') e k' g -> False)).
  { intros es' e E. rewrite opened_snoc in E. destruct (nth_error (opened es') k) as [q|] eqn:Q; [left; rewrite nth_error_app1 in E; [congruence|]; apply nth_error_Some; congruence|].
    right. split; [reflexivity|]. intros k' g (x & y & _ & _ & _ & -> & _). cbn [opens] in E. rewrite app_nil_r in E. congruence. }
  assert (ST : forall es e, proper W H e -> (nth_error (opened es) k = Some (Show d) \/ nth_error (opened es) k = None /\ forall k' g, hits W H labels (opened es) e k' g -> False) ->
     (exists g, hits W H labels (opened es) e k g /\ shown_in k (fst (step e (run es))) = Some [g] /\ forall b, hits W H labels (opened es) e k b -> b = g) \/
     ((forall b, ~ hits W H labels (opened es) e k b) /\ shown_in k (fst (step e (run es))) = shown_in k (run es))).
  { clear - sound. intros es e PE Ks. destruct (hit_or_not es e PE) as [(k' & g & p & Hh & EP & KO & _ & ->)|(N & _ & E)]; [|right; split; [apply N|apply E]].
    destruct Ks as [Ks|[_ No]]; [|now destruct (No k' g)].
    assert (SH : forall ids s', s_plots s' = s_plots (highlight k' ids (set_sel g (run es))) -> shown_in k s' = if Nat.eqb k k' then Some ids else shown_in k (run es)).
    { intros ids s' E. unfold shown_in. rewrite E. cbn [s_plots highlight set_plots set_sel]. rewrite change_nth. destruct (Nat.eqb_spec k k') as [->|_]; [rewrite EP; reflexivity|reflexivity]. }
    destruct (Nat.eqb_spec k k') as [->|NE].
    - left. exists g. split; [exact Hh|]. split; [|intros b B; now destruct (hits_unique _ _ _ _ _ _ Hh B)].
      rewrite kind_at, EP in Ks. injection Ks as Ks. rewrite Ks. destruct d; rewrite (SH [g]); try reflexivity. now destruct (display_same g (highlight k' [g] (set_sel g (run es)))) as (_ & -> & _).
    - right. split; [intros b B; destruct (hits_unique _ _ _ _ _ _ Hh B); congruence|].
      destruct (mp_kind p) as [[|]| |]; [rewrite (SH [g])|rewrite (SH [g])| |]; try reflexivity; [now destruct (display_same g (highlight k' [g] (set_sel g (run es)))) as (_ & -> & _)| |];
        (destruct (s_nb (run es)) as [nb|]; [now rewrite (SH (highlighted nb g))|reflexivity]). }
  clear - F K KP ST. induction es as [|e es IH] using rev_ind; [now destruct k|].
  apply Forall_app in F as (F & Fe). inversion_clear Fe as [|? ? PE _].
  assert (I : (forall g, shown_in k (run es) = Some [g] <-> last_such (fun plots e g => hits W H labels plots e k g) es g) /\ (shown_in k (run es) = None \/ exists g, shown_in k (run es) = Some [g])).
  { destruct (KP es e K) as [K'|[K' _]]; [apply IH; assumption|].
    assert (SN : shown_in k (run es) = None) by (unfold shown_in; rewrite kind_at in K'; destruct (nth_error (s_plots (run es)) k); [discriminate|reflexivity]).
    rewrite SN. split; [|now left]. intros g. split; [discriminate|]. intros L. exfalso. clear - L K'. induction L as [es e a B|es e a L IH N]; rewrite opened_snoc in K'; apply nth_error_None in K'; rewrite app_length in K'.
    - destruct B as (x & y & _ & _ & kd & _ & N & _). assert (k < List.length (opened es))%nat by (apply nth_error_Some; congruence). lia.
    - apply IH. apply nth_error_None. lia. }
  clear IH. destruct I as (I1 & I2). rewrite run_snoc. destruct (ST es e PE (KP es e K)) as [(g & B & -> & U)|(N & ->)].
  - split; [|right; exists g; reflexivity]. intros g'. split; [intros [= <-]; now constructor|]. intros L.
    inversion L as [es' e' a' B' E|es' e' a' B' N E]; apply app_inj_tail in E as (-> & ->); [now rewrite (U g' B')|now destruct (N g)].
  - split; [|exact I2]. intros g. rewrite I1. split; [intros L; now apply last_before|]. intros L.
    inversion L as [es' e' a' B' E|es' e' a' B' N' E]; apply app_inj_tail in E as (-> & ->); [now destruct (N g)|exact B'].
Qed.

(** With the network built, a click on a grain in a plot of neighbours highlights it, its neighbours
    and theirs (C77); without, the click fails, the grain is selected and the old highlights stay. *)
Theorem C119_neighbours : forall es e k g, Forall (proper W H) (es ++ [e]) -> hits W H labels (opened es) e k g -> nth_error (opened es) k = Some Near ->
  match s_nb (run es) with
  | Some nb => snd (step e (run es)) = Ok tt /\ shown_in k (run (es ++ [e])) = Some (highlighted nb g)
  | None => snd (step e (run es)) = Err AttributeError /\ shown_in k (run (es ++ [e])) = shown_in k (run es)
  end /\ s_sel (run (es ++ [e])) = Some g /\ forall k', k' <> k -> shown_in k' (run (es ++ [e])) = shown_in k' (run es).
Proof.
  intros es e k g F Hh K. apply Forall_app in F as (F & Fe). inversion_clear Fe as [|? ? PE _]. rewrite run_snoc.
  destruct (hit_or_not es e PE) as [(k' & g' & p & Hh' & EP & KO & _ & ->)|(N & _ & E)]; [|now destruct (N k g)].
  destruct (hits_unique _ _ _ _ _ _ Hh Hh') as (-> & ->). rewrite kind_at, EP in K. injection K as K. rewrite K.
  destruct (s_nb (run es)) as [nb|]; (split; [split; [reflexivity|]|split; [reflexivity|]]).
  - unfold shown_in. cbn [fst s_plots highlight set_plots set_sel]. rewrite change_nth, Nat.eqb_refl, EP. reflexivity.
  - intros k' D. unfold shown_in. cbn [fst s_plots highlight set_plots set_sel]. rewrite change_nth. destruct (Nat.eqb_spec k' k); [congruence|reflexivity].
  - reflexivity.
  - reflexivity.
Qed.

(** A grain that can be drawn and is clicked on where grains are displayed is shown afterwards, in
    the window that was open for this, or else in one new window; no other window changes. *)
Theorem C119_displayed : forall es e k g, Forall (proper W H) (es ++ [e]) -> hits W H labels (opened es) e k g -> nth_error (opened es) k = Some (Show true) ->
  s_early (run es) g = None -> s_late (run es) g = None ->
  exists j, snd (step e (run es)) = Ok tt /\ window (run (es ++ [e])) = Some j /\
    nth_error (s_wins (run (es ++ [e]))) j = Some (Win true (Some g)) /\
    (window (run es) = Some j /\ List.length (s_wins (run (es ++ [e]))) = List.length (s_wins (run es)) \/
     window (run es) = None /\ j = List.length (s_wins (run es)) /\ List.length (s_wins (run (es ++ [e]))) = S j) /\
    (forall i w, i <> j -> nth_error (s_wins (run es)) i = Some w -> nth_error (s_wins (run (es ++ [e]))) i = Some w).
Proof.
  intros es e k g F Hh K EA LA. apply Forall_app in F as (F & Fe). inversion_clear Fe as [|? ? PE _]. rewrite run_snoc.
  destruct (hit_or_not es e PE) as [(k' & g' & p & Hh' & EP & KO & _ & ->)|(N & _ & E)]; [|now destruct (N k g)].
  destruct (hits_unique _ _ _ _ _ _ Hh Hh') as (-> & ->). rewrite kind_at, EP in K. injection K as K. rewrite K. clear - EA LA.
  set (s := highlight k [g] (set_sel g (run es))). assert (EW : s_wins s = s_wins (run es)) by reflexivity. assert (EC : s_cur s = s_cur (run es)) by reflexivity.
  assert (EE : s_early s = s_early (run es)) by reflexivity. assert (EL : s_late s = s_late (run es)) by reflexivity. clearbody s.
  unfold display_grain. rewrite EE, EL, EA, LA, EW, EC. fold (window (run es)). destruct (window (run es)) as [j|] eqn:EJ.
  - exists j. cbn [fst snd]. split; [reflexivity|]. unfold window in EJ. destruct (s_cur (run es)) as [j'|] eqn:C; [|discriminate].
    destruct (nth_error (s_wins (run es)) j') as [w|] eqn:Wj; [|discriminate]. destruct (w_open w) eqn:O; [|discriminate]. injection EJ as ->.
    assert (NW : nth_error (change j (fun w => Win (w_open w) (Some g)) (s_wins (run es))) j = Some (Win true (Some g))) by (rewrite change_nth, Nat.eqb_refl, Wj; cbn; now rewrite O).
    split; [unfold window; cbn [s_cur s_wins set_wins]; rewrite NW; reflexivity|]. split; [exact NW|]. split; [left; split; [reflexivity|apply change_length]|].
    intros i w' D I. cbn [s_wins set_wins]. rewrite change_nth. destruct (Nat.eqb_spec i j); [congruence|exact I].
  - exists (List.length (s_wins (run es))). cbn [fst snd]. split; [reflexivity|].
    assert (NW : nth_error (s_wins (run es) ++ [Win true (Some g)]) (List.length (s_wins (run es))) = Some (Win true (Some g))) by (rewrite nth_error_app2, Nat.sub_diag by lia; reflexivity).
    split; [unfold window; cbn [s_cur s_wins set_wins]; rewrite NW; reflexivity|]. split; [exact NW|].
    split; [right; split; [reflexivity|]; split; [reflexivity|]; cbn [s_wins set_wins]; rewrite app_length; cbn; lia|].
    intros i w' D I. cbn [s_wins set_wins]. rewrite nth_error_app1; [exact I|]. apply nth_error_Some. congruence.
Qed.

(** Windows otherwise change only when closed; a new plot for displaying grains has a window of its own. *)
Theorem C119_windows : forall es e, let s := run es in let s' := run (es ++ [e]) in
  (forall k on x y, e = EClick k on x y -> nth_error (opened es) k <> Some (Show true) \/ on = false -> s_wins s' = s_wins s /\ window s' = window s) /\
  (e = ELocate true -> s_wins s' = s_wins s /\ window s' = None) /\
  (e = ELocate false \/ e = ENear \/ e = EOrigin \/ (exists a b, e = EPrepare a b) \/ (exists nb, e = ENetwork nb) -> s_wins s' = s_wins s /\ window s' = window s) /\
  (forall j, e = EClose j -> forall i, nth_error (s_wins s') i = if Nat.eqb i j then option_map (fun w => Win false (w_shown w)) (nth_error (s_wins s) i) else nth_error (s_wins s) i) /\
  (forall j, e = EClose j -> window s' = if match window s with Some i => Nat.eqb i j | None => false end then None else window s).
Proof.
  intros es e s s'. unfold s'. rewrite run_snoc. fold s. split; [|split; [|split; [|split]]].
  - intros k on x y -> C. unfold step, Session_Model.step, click. destruct (nth_error (s_plots s) k) as [p|] eqn:EP; [|split; reflexivity].
    destruct (mp_kind p) as [d| |] eqn:EK.
    + destruct C as [C| ->]; [|split; reflexivity]. destruct d; [rewrite kind_at in C; fold s in C; rewrite EP in C; cbn in C; congruence|].
      destruct (click_grain_id _ _ _ _ _ _ _) as [[g|]|z]; split; reflexivity.
    + destruct (click_grain_id _ _ _ _ _ _ _) as [[g|]|z]; [|split; reflexivity|split; reflexivity]. destruct (s_nb (set_sel g s)); split; reflexivity.
    + destruct (negb on); split; reflexivity.
  - intros ->. split; reflexivity.
  - intros [->|[->|[->|[(a & b & ->)|(nb & ->)]]]]; split; reflexivity.
  - intros j -> i. unfold step, Session_Model.step. cbn [fst s_wins set_wins]. apply change_nth.
  - intros j ->. unfold step, Session_Model.step, window. cbn [fst s_cur s_wins set_wins]. destruct (s_cur s) as [i|]; [|reflexivity].
    rewrite change_nth. destruct (nth_error (s_wins s) i) as [w|] eqn:E; [|now destruct (Nat.eqb i j)].
    destruct (w_open w) eqn:O; destruct (Nat.eqb i j); cbn [option_map w_open]; try rewrite O; reflexivity.
Qed.

(** The origin is the pixel clicked on last where origins are set, or (0, 0), and each plot marks the
    last click in itself. *)
Lemma origin_cases es e : proper W H e ->
  (exists k o, marks (opened es) e k o /\ s_origin (fst (step e (run es))) = o /\ marked_in k (fst (step e (run es))) = Some o /\
     (forall k', k' <> k -> marked_in k' (fst (step e (run es))) = marked_in k' (run es)) /\ (forall k' o', marks (opened es) e k' o' -> k' = k /\ o' = o)) \/
  ((forall k o, ~ marks (opened es) e k o) /\ s_origin (fst (step e (run es))) = s_origin (run es) /\
   (forall k, nth_error (s_plots (run es)) k <> None -> marked_in k (fst (step e (run es))) = marked_in k (run es))).
Proof.
  intros PE.
  assert (NO : (forall k x y, e <> EClick k true x y) -> forall k o, ~ marks (opened es) e k o) by (intros D k o (x & y & -> & _); now apply (D k x y)).
  assert (APP : forall pl q k, nth_error pl k <> None -> match nth_error (pl ++ [q]) k with Some p => mp_mark p | None => None end = match nth_error pl k with Some p => mp_mark p | None => None end).
  { intros pl q k N. rewrite nth_error_app1; [reflexivity|]. now apply nth_error_Some. }
  destruct (hit_or_not es e PE) as [(k & g & p & Hh & EP & KO & _ & ->)|_].
  - right. split.
    { intros k' o (x & y & -> & N & _). destruct Hh as (x' & y' & _ & _ & kd & [= -> -> ->] & N' & D & _). congruence. }
    assert (SH : forall ids s', s_plots s' = s_plots (highlight k ids (set_sel g (run es))) -> forall k', marked_in k' s' = marked_in k' (run es)).
    { intros ids s' E k'. unfold marked_in. rewrite E. cbn [s_plots highlight set_plots set_sel]. rewrite change_nth. destruct (Nat.eqb k' k); [|reflexivity]. now destruct (nth_error (s_plots (run es)) k'). }
    destruct (mp_kind p) as [[|]| |].
    + destruct (display_same g (highlight k [g] (set_sel g (run es)))) as (_ & E & ->). split; [reflexivity|]. intros k' _. now apply (SH [g]).
    + split; [reflexivity|]. intros k' _. now apply (SH [g]).
    + destruct (s_nb (run es)) as [nb|]; (split; [reflexivity|]); intros k' _; [now apply (SH (highlighted nb g))|reflexivity].
    + congruence.
  - destruct e as [d| | |k on x y|j|a b|nb]; try (right; split; [apply NO; discriminate|]; split; [reflexivity|]; intros k _; reflexivity).
    + right. split; [apply NO; discriminate|]. destruct d; (split; [reflexivity|]); intros k N; unfold marked_in; now apply APP.
    + right. split; [apply NO; discriminate|]. split; [reflexivity|]. intros k N; unfold marked_in; now apply APP.
    + right. split; [apply NO; discriminate|]. split; [reflexivity|]. intros k N; unfold marked_in; now apply APP.
    + destruct on.
      2:{ right. split; [apply NO; discriminate|]. unfold step, Session_Model.step, click. destruct (nth_error (s_plots (run es)) k) as [p|]; [|split; reflexivity].
          destruct (mp_kind p); cbn; split; reflexivity. }
      destruct PE as (px & py & PX & PY & I). destruct (nth_error (s_plots (run es)) k) as [p|] eqn:EP.
      2:{ right. split; [|unfold step, Session_Model.step, click; rewrite EP; split; reflexivity].
          intros k' o (x' & y' & [= <- <- <-] & N & _). rewrite kind_at, EP in N. discriminate. }
      destruct (mp_kind p) as [d| |] eqn:EK.
      1, 2: right; (split; [intros k' o (x' & y' & [= <- <- <-] & N & _); rewrite kind_at, EP in N; cbn in N; congruence|]);
        destruct (click_cases (run es) k x y p px py EP) as (A & B); [congruence|exact PX|exact PY|exact I|]; rewrite EK in B;
        (destruct (Z.leb_spec (labels (px, py)) 0) as [L|L]; [rewrite (A L); split; reflexivity|rewrite (B L)]);
        set (g := labels (px, py) - 1);
        assert (SH : forall ids s', s_plots s' = s_plots (highlight k ids (set_sel g (run es))) -> forall k', marked_in k' s' = marked_in k' (run es))
          by (intros ids s' E k'; unfold marked_in; rewrite E; cbn [s_plots highlight set_plots set_sel]; rewrite change_nth; destruct (Nat.eqb k' k); [|reflexivity]; now destruct (nth_error (s_plots (run es)) k')).
      * destruct d; [destruct (display_same g (highlight k [g] (set_sel g (run es)))) as (_ & E & ->)|]; (split; [reflexivity|]); intros k' _; now apply (SH [g]).
      * destruct (s_nb (run es)) as [nb|]; (split; [reflexivity|]); intros k' _; [now apply (SH (highlighted nb g))|reflexivity].
      * left. exists k, (px, py). split; [exists x, y; split; [reflexivity|]; split; [rewrite kind_at, EP; cbn; now rewrite EK|split; assumption]|].
        unfold step, Session_Model.step, click. rewrite EP, EK. cbn [negb fst]. rewrite (pointed_trunc _ _ PX), (pointed_trunc _ _ PY). split; [reflexivity|].
        split; [unfold marked_in; cbn [s_plots set_plots put_origin]; rewrite change_nth, Nat.eqb_refl, EP; reflexivity|].
        split; [intros k' D; unfold marked_in; cbn [s_plots set_plots put_origin]; rewrite change_nth; destruct (Nat.eqb_spec k' k); [congruence|reflexivity]|].
        intros k' (ox, oy) (x' & y' & [= -> -> ->] & _ & X & Y). cbn [fst snd] in X, Y. apply pointed_trunc in PX, PY, X, Y. split; congruence.
Qed.
Theorem C119_origin : forall es, Forall (proper W H) es ->
  (forall o, last_such (fun plots e o => exists k, marks plots e k o) es o -> s_origin (run es) = o) /\
  ((forall o, ~ last_such (fun plots e o => exists k, marks plots e k o) es o) -> s_origin (run es) = (0, 0)) /\
  (forall k o, last_such (fun plots e o => marks plots e k o) es o -> marked_in k (run es) = Some o).
Proof.
  intros es. induction es as [|e es IH] using rev_ind; intros F.
  - repeat split; [intros o L|intros k o L]; inversion L as [es e b B E|es e b B N E]; now destruct es.
  - apply Forall_app in F as (F & Fe). inversion_clear Fe as [|? ? PE _]. destruct (IH F) as (I1 & I2 & I3). clear IH. rewrite run_snoc.
    destruct (origin_cases es e PE) as [(k & o & M & O & MK & MO & U)|(N & O & MK)].
    + rewrite O. split; [|split].
      * intros o' L. inversion L as [es' e' a' (k' & B') E|es' e' a' B' N E]; apply app_inj_tail in E as (-> & ->); [destruct (U _ _ B'); congruence|exfalso; apply (N o); exists k; exact M].
      * intros N. exfalso. apply (N o). constructor. exists k. exact M.
      * intros k' o' L. inversion L as [es' e' a' B' E|es' e' a' B' N E]; apply app_inj_tail in E as (-> & ->); [destruct (U _ _ B') as (-> & ->); exact MK|].
        destruct (Nat.eq_dec k' k) as [->|D]; [now destruct (N o)|]. rewrite (MO k' D). now apply I3.
    + rewrite O. split; [|split].
      * intros o' L. inversion L as [es' e' a' (k' & B') E|es' e' a' B' N' E]; apply app_inj_tail in E as (-> & ->); [now destruct (N k' o')|now apply I1].
      * intros Nn. apply I2. intros o' L. apply (Nn o'). apply last_before; [exact L|]. intros b (k & B). now apply (N k b).
      * intros k o' L. inversion L as [es' e' a' B' E|es' e' a' B' N' E]; apply app_inj_tail in E as (-> & ->); [now destruct (N k o')|].
        assert (MM : marked_in k (run es) = Some o') by now apply I3. rewrite MK; [exact MM|]. unfold marked_in in MM. intros Q. rewrite Q in MM. discriminate.
Qed.
(** While one plot only was opened for setting the origin, its mark is the origin. *)
Theorem C119_one_mark_partial : forall es, Forall (proper W H) es -> forall k, nth_error (opened es) k = Some Orig ->
  (forall k', nth_error (opened es) k' = Some Orig -> k' = k) -> marked_in k (run es) = Some (s_origin (run es)).
Proof.
  intros es. induction es as [|e es IH] using rev_ind; intros F k K U; [now destruct k|].
  apply Forall_app in F as (F & Fe). inversion_clear Fe as [|? ? PE _]. rewrite opened_snoc in K, U.
  destruct (nth_error (opened es) k) as [kd|] eqn:Q.
  - assert (Lk : (k < List.length (opened es))%nat) by (apply nth_error_Some; congruence). rewrite nth_error_app1, Q in K by exact Lk. injection K as ->.
    assert (I : marked_in k (run es) = Some (s_origin (run es))).
    { apply IH; [exact F|exact Q|]. intros k' K'. apply U. rewrite nth_error_app1; [exact K'|]. apply nth_error_Some. congruence. }
    rewrite run_snoc. destruct (origin_cases es e PE) as [(k' & o & M & -> & MK & _)|(N & -> & MK)].
    + destruct M as (x & y & -> & K' & _). assert (k' = k) as -> by (apply U; cbn [opens]; now rewrite app_nil_r). exact MK.
    + rewrite MK; [exact I|]. rewrite kind_at in Q. now destruct (nth_error (s_plots (run es)) k).
  - assert (Lk : (List.length (opened es) <= k)%nat) by now apply nth_error_None. rewrite nth_error_app2 in K by exact Lk.
    rewrite run_snoc. destruct e as [d| | |k0 on x y|j|a b|nb]; cbn [opens] in K; destruct (k - List.length (opened es))%nat as [|[|m]] eqn:D; try discriminate.
    assert (k = List.length (s_plots (run es))) as -> by (rewrite <- (map_length mp_kind), kinds; lia).
    unfold marked_in. cbn [step Session_Model.step fst]. unfold step, Session_Model.step. cbn [fst s_plots set_plots s_origin]. rewrite nth_error_app2, Nat.sub_diag by lia. reflexivity.
Qed.
End Props.

(** Instances and limits: a map of two pixels, one grain each. *)
Definition two (p : pix) : Z := fst p + 1.
Lemma two_proper k x : pointed x 0 \/ pointed x 1 -> proper 2 1 (EClick k true x 0).
Proof.
  assert (P0 : pointed 0 0) by (left; lra). intros [P|P]; [exists 0, 0|exists 1, 0]; (split; [exact P|]; split; [exact P0|]; unfold inside; cbn; lia).
Qed.
Lemma p0 : pointed 0 0. Proof. left; lra. Qed.
Lemma p1 : pointed 1 1. Proof. left; lra. Qed.
Lemma click0 on : click_grain_id 2 1 two 2 on 0 0 = if on then Ok (Some 0) else Ok None.
Proof. destruct on; [|reflexivity]. unfold click_grain_id. cbn [negb]. rewrite (pointed_trunc 0 0 p0). reflexivity. Qed.
Lemma click1 on : click_grain_id 2 1 two 2 on 1 0 = if on then Ok (Some 1) else Ok None.
Proof. destruct on; [|reflexivity]. unfold click_grain_id. cbn [negb]. rewrite (pointed_trunc 0 0 p0), (pointed_trunc 1 1 p1). reflexivity. Qed.

(** The window need not show the selected grain: a click in a plot that displays nothing leaves it,
    and a grain that cannot be drawn leaves an empty window. *)
Theorem C119_window_refuted :
  (exists es, Forall (proper 2 1) es /\ let s := run 2 1 two 2 es in s_sel s = Some 1 /\ exists j, window s = Some j /\ nth_error (s_wins s) j = Some (Win true (Some 0))) /\
  (exists es, Forall (proper 2 1) es /\ let s := run 2 1 two 2 es in s_sel s = Some 1 /\ exists j, window s = Some j /\ nth_error (s_wins s) j = Some (Win true None)).
Proof.
  split.
  - exists [ELocate true; ELocate false; EClick 0 true 0 0; EClick 1 true 1 0]. split.
    + repeat constructor; apply two_proper; [left; exact p0|right; exact p1].
    + unfold run, step, click. cbn [fold_left fst snd s_plots set_plots set_wins new_session app nth_error mp_kind]. rewrite click0. cbn -[click_grain_id]. rewrite click1. cbn.
      split; [reflexivity|]. exists 0%nat. split; reflexivity.
  - exists [ELocate true; EPrepare (fun g => if g =? 1 then Some AttributeError else None) (fun _ => None); EClick 0 true 0 0; EClick 0 true 1 0]. split.
    + repeat constructor; apply two_proper; [left; exact p0|right; exact p1].
    + unfold run, step, click. cbn [fold_left fst snd s_plots set_plots set_wins new_session app nth_error mp_kind]. rewrite click0. cbn -[click_grain_id]. rewrite click1. cbn.
      split; [reflexivity|]. exists 0%nat. split; reflexivity.
Qed.
(** While drawing a grain fails after its picture, every click on it opens another window. *)
Theorem C119_windows_refuted : forall m,
  let es := ELocate true :: EPrepare (fun _ => None) (fun _ => Some AttributeError) :: repeat (EClick 0 true 0 0) m in
  Forall (proper 2 1) es /\ s_wins (run 2 1 two 2 es) = repeat (Win true (Some 0)) m.
Proof.
  intros m es. split.
  - constructor; [exact I|]. constructor; [exact I|]. apply Forall_forall. intros e Ie. apply repeat_spec in Ie as ->. apply two_proper. left. exact p0.
  - enough (K : exists s, run 2 1 two 2 es = s /\ (exists h, s_plots s = [MPlot (Show true) h None]) /\ s_cur s = None /\ s_early s = (fun _ => None) /\ s_late s = (fun _ => Some AttributeError) /\ s_wins s = repeat (Win true (Some 0)) m) by (destruct K as (s & -> & _ & _ & _ & _ & E); exact E).
    unfold es. induction m as [|m IH]; [eexists; split; [reflexivity|]; cbn; repeat split; eexists; reflexivity|].
    destruct IH as (s & E & (h & P) & C & EA & LA & Wn). cbn [repeat]. rewrite repeat_cons, !app_comm_cons. eexists. split; [reflexivity|].
    unfold run in *. rewrite fold_left_app. cbn [fold_left] in *. rewrite E. unfold step, click. rewrite P. cbn [nth_error mp_kind]. rewrite click0.
    unfold display_grain. cbn [s_cur s_early s_late s_wins highlight set_plots set_sel]. rewrite C, EA, LA, Wn. cbn [fst s_plots set_wins s_cur s_early s_late s_wins highlight set_plots set_sel]. rewrite P.
    split; [eexists; reflexivity|]. repeat split; auto. symmetry. apply repeat_cons.
Qed.
(** With two plots for the origin, the one not clicked on goes on marking the old origin. *)
Theorem C119_marks_refuted : exists es k, Forall (proper 2 1) es /\ nth_error (opened es) k = Some Orig /\
  let s := run 2 1 two 2 es in s_origin s = (1, 0) /\ marked_in k s = Some (0, 0).
Proof.
  exists [EOrigin; EOrigin; EClick 0 true 1 0], 1%nat. split; [repeat constructor; apply two_proper; right; exact p1|]. split; [reflexivity|].
  unfold run, step, click. cbn. rewrite (pointed_trunc 0 0 p0), (pointed_trunc 1 1 p1). split; reflexivity.
Qed.
Example C119_met : (forall p, inside 2 1 p -> two p <= 2) /\
  let es := [ELocate true; ENear; EOrigin] in
  let e := EClick 0 true 1 0 in
  Forall (proper 2 1) (es ++ [e]) /\ hits 2 1 two (opened es) e 0 1 /\ hits 2 1 two (opened es) (EClick 1 true 0 0) 1 0 /\
  marks (opened es) (EClick 2 true 1 0) 2 (1, 0).
Proof.
  split; [intros p [I _]; unfold two; cbn in *; lia|]. cbv zeta.
  split; [repeat constructor; apply two_proper; right; exact p1|].
  split; [exists 1%R, 0%R, 1, 0, (Show true); repeat (split; [first [reflexivity|discriminate|exact p1|exact p0|unfold inside; cbn; lia]|]); reflexivity|].
  split; [exists 0%R, 0%R, 0, 0, Near; repeat (split; [first [reflexivity|discriminate|exact p1|exact p0|unfold inside; cbn; lia]|]); reflexivity|].
  exists 1%R, 0%R. split; [reflexivity|]. split; [reflexivity|]. split; [exact p1|exact p0].
Qed.
Print Assumptions C119_selected.
Print Assumptions C119_highlighted.
Print Assumptions C119_neighbours.
Print Assumptions C119_displayed.
Print Assumptions C119_windows.
Print Assumptions C119_origin.
Print Assumptions C119_one_mark_partial.
Print Assumptions C119_window_refuted.
Print Assumptions C119_windows_refuted.
Print Assumptions C119_marks_refuted.
Print Assumptions C119_met.
