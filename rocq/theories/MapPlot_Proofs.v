(** Lemmas on map plots. *)
From Coq Require Import String Ascii Reals.
From Coq Require Import List ZArith Bool Lia Lra.
Import ListNotations.
From Verif Require Import Py Grid Grid_Lemmas Boundary_Model Base_Model Base_Spec Base_Proofs Ebsd_Model Text_Model Insp_Model Insp_Proofs MapPlot_Model MapPlot_Spec.
Open Scope Z_scope.

Definition cap (n i : Z) : Z := if n <? i then n else i.
Fixpoint layered (n i : Z) (gs : list (list pix)) (p : pix) : Z :=
  match gs with
  | [] => 0
  | g :: gs => (if pix_in p g then cap n i else 0) + layered n (i + 1) gs p
  end.
Lemma pix_in_true : forall p l, pix_in p l = true <-> In p l.
Proof.
  intros p l. destruct (pix_in_spec p l); split; auto; discriminate.
Qed.

Lemma add_outline_ok : forall W H out pts i, pts <> [] -> (forall p, In p pts -> inside W H p) ->
  exists out', add_outline W H out pts i = Ok out' /\ forall p, out' p = out p + (if pix_in p pts then i else 0).
Proof.
  intros W H out pts i NE IN. unfold add_outline.
  destruct (outline_ok pts (Fin 0) (Fin (IZR i)) NE) as (x0 & y0 & x1 & y1 & im & B & -> & A & O).
  destruct (extreme_ok pts NE) as (a0 & b0 & a1 & b1 & -> & B').
  assert (EQ : a0 = x0 /\ b0 = y0 /\ a1 = x1 /\ b1 = y1).
  { destruct B as (B & (p1 & P1 & Q1) & (p2 & P2 & Q2) & (p3 & P3 & Q3) & (p4 & P4 & Q4)).
    destruct B' as (B' & (q1 & R1 & S1) & (q2 & R2 & S2) & (q3 & R3 & S3) & (q4 & R4 & S4)).
    pose proof (B' p1 P1). pose proof (B' p2 P2). pose proof (B' p3 P3). pose proof (B' p4 P4).
    pose proof (B q1 R1). pose proof (B q2 R2). pose proof (B q3 R3). pose proof (B q4 R4). lia. }
  destruct EQ as (-> & -> & -> & ->). cbn [bind]. cbv beta iota.
  assert (K : (0 <=? x0) && (0 <=? y0) && (x1 <? W) && (y1 <? H) = true).
  { destruct B as (_ & (p1 & P1 & Q1) & (p2 & P2 & Q2) & (p3 & P3 & Q3) & (p4 & P4 & Q4)).
    pose proof (IN p1 P1) as I1. pose proof (IN p2 P2) as I2. pose proof (IN p3 P3) as I3. pose proof (IN p4 P4) as I4. unfold inside in *.
    rewrite !andb_true_iff, !Z.leb_le, !Z.ltb_lt. lia. }
  rewrite K. eexists. split; [reflexivity|]. intros p. cbn [im_at]. cbn [cast] in A, O.
  replace (Fin 0) with (Fin (IZR 0)) in O by reflexivity. rewrite trunc_int in *.
  destruct (pix_in p pts) eqn:Q.
  - apply pix_in_true in Q. destruct B as (B & _). specialize (B p Q).
    assert (L : (x0 <=? fst p) && (fst p <=? x1) && (y0 <=? snd p) && (snd p <=? y1) = true) by (rewrite !andb_true_iff, !Z.leb_le; lia).
    rewrite L. change (fst p - x0, snd p - y0) with (moved x0 y0 p). rewrite A by exact Q. cbn [num_int]. now rewrite trunc_int.
  - assert (NI : ~ In p pts) by (intros I; apply pix_in_true in I; congruence).
    rewrite O.
    + cbn [num_int]. rewrite trunc_int. destruct ((x0 <=? fst p) && (fst p <=? x1) && (y0 <=? snd p) && (snd p <=? y1)); lia.
    + intros q Q1 E. unfold moved in E. injection E as E1 E2. elim NI. replace p with q; [exact Q1|]. destruct p, q. cbn [fst snd] in *. f_equal; lia.
Qed.
Lemma highlight_layers : forall W H grains n ids gs i out,
  Forall2 (fun i g => py_get grains i = Ok g) ids gs -> (forall g, In g gs -> g <> [] /\ forall p, In p g -> inside W H p) ->
  exists im, for_each (fun out (ik : Z * Z) => do g <- py_get grains (snd ik); add_outline W H out g (if n <? fst ik then n else fst ik))
      (combine (zseq i (List.length ids)) ids) out = Ok im /\ forall p, im p = out p + layered n i gs p.
Proof.
  intros W H grains n ids gs i out F. revert i out. induction F as [|k g ids gs E F IH]; intros i out G.
  - exists out. split; [reflexivity|]. intros p. cbn [layered]. lia.
  - destruct (G g (or_introl eq_refl)) as (NE & IN). destruct (add_outline_ok W H out g (cap n i) NE IN) as (out' & E' & V).
    destruct (IH (i + 1) out') as (im & E2 & V2); [intros; apply G; now right|].
    exists im. split.
    + cbn [List.length zseq combine for_each fst snd]. rewrite E. cbn [bind]. unfold cap in E'. rewrite E'. exact E2.
    + intros p. rewrite V2, V. cbn [layered]. lia.
Qed.
Lemma layered_none : forall n gs i p, (forall g, In g gs -> ~ In p g) -> layered n i gs p = 0.
Proof.
  induction gs as [|g gs IH]; intros i p N; [reflexivity|]. cbn [layered]. destruct (pix_in p g) eqn:Q.
  - apply pix_in_true in Q. now elim (N g (or_introl eq_refl)).
  - rewrite IH; [reflexivity|]. intros; apply N; now right.
Qed.
Lemma layered_at : forall n gs i k g p,
  (forall i j a b p, nth_error gs i = Some a -> nth_error gs j = Some b -> In p a -> In p b -> i = j) ->
  nth_error gs k = Some g -> In p g -> layered n i gs p = cap n (i + Z.of_nat k).
Proof.
  induction gs as [|a gs IH]; intros i k g p D K I; [destruct k; discriminate|]. cbn [layered]. destruct k as [|k].
  - cbn [nth_error] in K. injection K as ->. rewrite (proj2 (pix_in_true p g) I), layered_none; [change (Z.of_nat 0) with 0; now rewrite !Z.add_0_r|].
    intros b B J. apply In_nth_error in B as (m & B). specialize (D O (S m) g b p eq_refl B I J). discriminate.
  - cbn [nth_error] in K. destruct (pix_in p a) eqn:Q.
    + apply pix_in_true in Q. specialize (D O (S k) a g p eq_refl K Q I). discriminate.
    + rewrite (IH (i + 1) k g p); [rewrite Z.add_0_l; f_equal; lia| |exact K|exact I].
      intros x y b c q X Y J1 J2. specialize (D (S x) (S y) b c q X Y J1 J2). lia.
Qed.

Lemma image_values : forall W H grains ids gs n, chosen W H grains ids gs -> 0 <= n ->
  exists im, highlight_image W H grains ids n = Ok im /\
    (forall k g p, nth_error gs k = Some g -> In p g -> im p = Z.min (1 + Z.of_nat k) n) /\
    (forall p, (forall g, In g gs -> ~ In p g) -> im p = 0).
Proof.
  intros W H grains ids gs n (F & G & D) N. destruct (highlight_layers W H grains n ids gs 1 (fun _ => 0) F G) as (im & E & V).
  exists im. split; [exact E|]. split.
  - intros k g p K I. rewrite V, (layered_at n gs 1 k g p D K I). unfold cap. destruct (Z.ltb_spec n (1 + Z.of_nat k)); lia.
  - intros p P. rewrite V, layered_none by exact P. reflexivity.
Qed.
(** Least and greatest values. *)
Lemma least_spec : forall l, l <> [] -> (forall y, In y l -> least l <= y) /\ In (least l) l.
Proof. intros [|a l] N; [easy|]. apply zmin_spec. Qed.
Lemma greatest_spec : forall l, l <> [] -> (forall y, In y l -> y <= greatest_of l) /\ In (greatest_of l) l.
Proof. intros [|a l] N; [easy|]. apply zmax_spec. Qed.

Lemma image_range : forall W H grains ids gs n im, chosen W H grains ids gs -> 0 < n -> 0 < W -> 0 < H -> ids <> [] ->
  (forall k g p, nth_error gs k = Some g -> In p g -> im p = Z.min (1 + Z.of_nat k) n) ->
  (forall p, (forall g, In g gs -> ~ In p g) -> im p = 0) ->
  greatest_of (map im (all_pix W H)) = Z.min (Z.of_nat (List.length ids)) n /\
  ((exists p, inside W H p /\ forall g, In g gs -> ~ In p g) -> least (map im (all_pix W H)) = 0).
Proof.
  intros W H grains ids gs n im (F & G & D) N PW PH NE A B.
  assert (L : List.length gs = List.length ids). { clear - F. induction F; cbn [List.length]; lia. }
  assert (AP : forall p, In p (all_pix W H) <-> inside W H p) by (intros; apply all_pix_In; lia).
  assert (VAL : forall p, im p = 0 \/ exists k, (k < List.length gs)%nat /\ im p = Z.min (1 + Z.of_nat k) n).
  { intros p. destruct (existsb (fun g => pix_in p g) gs) eqn:Q.
    - apply existsb_exists in Q as (g & I & P). apply pix_in_true in P. apply In_nth_error in I as (k & K). right. exists k. split; [|now apply (A k g p)].
      apply nth_error_Some. congruence.
    - left. apply B. intros g I P. assert (existsb (fun g => pix_in p g) gs = true); [|congruence]. apply existsb_exists. exists g. split; [exact I|now apply pix_in_true]. }
  assert (LAST : exists p, inside W H p /\ im p = Z.min (Z.of_nat (List.length ids)) n).
  { destruct gs as [|g0 gs0] eqn:EG; [destruct ids; [easy|discriminate]|]. rewrite <- EG in *.
    destruct (nth_error gs (List.length gs - 1)) as [g|] eqn:K.
    2:{ apply nth_error_None in K. assert (0 < List.length gs)%nat by (rewrite EG; cbn; lia). lia. }
    destruct (G g (nth_error_In _ _ K)) as (GN & GI). destruct g as [|p g]; [easy|]. exists p. split; [apply GI; now left|].
    rewrite (A _ _ p K) by now left. f_equal. assert (0 < List.length gs)%nat by (rewrite EG; cbn; lia). lia. }
  destruct LAST as (p & P & V).
  assert (NM : map im (all_pix W H) <> []). { intros E. apply AP in P. destruct (all_pix W H); [easy|discriminate]. }
  destruct (greatest_spec _ NM) as (GA & GB). destruct (least_spec _ NM) as (LA & LB). split.
  - apply Z.le_antisymm.
    + apply in_map_iff in GB as (q & <- & _). destruct (VAL q) as [->|(k & K & ->)]; lia.
    + rewrite <- V. apply GA. apply in_map. now apply AP.
  - intros (q & Q & NQ). apply Z.le_antisymm.
    + rewrite <- (B q NQ). apply LA. apply in_map. now apply AP.
    + apply in_map_iff in LB as (r & <- & _). destruct (VAL r) as [->|(k & K & ->)]; lia.
Qed.

(** ** Layers *)
Definition pts_of (k : nat) (ls : list layer) : list nat :=
  map fst (filter (fun kl => match snd kl with LPoints _ _ => true | _ => false end) (combine (seq k (List.length ls)) ls)).
Lemma pts_app : forall ls k l, pts_of k (ls ++ [l]) = pts_of k ls ++ match l with LPoints _ _ => [(k + List.length ls)%nat] | _ => [] end.
Proof.
  unfold pts_of. induction ls as [|a ls IH]; intros k l.
  - cbn [app List.length seq combine filter snd]. rewrite Nat.add_0_r. destruct l; reflexivity.
  - cbn [app List.length seq combine filter snd]. specialize (IH (S k) l). rewrite app_length in IH. cbn [List.length] in IH. rewrite app_length. cbn [List.length].
    replace (k + S (List.length ls))%nat with (S k + List.length ls)%nat by lia.
    destruct a; cbn [map fst app]; rewrite IH; reflexivity.
Qed.
Lemma pts_change : forall ls k i l, (forall a, nth_error ls i = Some a -> (is_points a <-> is_points l)) ->
  pts_of k (change_nth i (fun _ => l) ls) = pts_of k ls.
Proof.
  unfold pts_of. induction ls as [|a ls IH]; intros k i l A; [destruct i; reflexivity|]. destruct i as [|i]; cbn [change_nth].
  - specialize (A a eq_refl). cbn [List.length seq combine filter snd]. destruct a, l; cbn [is_points] in A; try reflexivity; tauto.
  - cbn [List.length seq combine filter snd]. specialize (IH (S k) i l A). destruct a; cbn [map fst]; rewrite IH; reflexivity.
Qed.
Lemma pts_in : forall ls k i, In i (pts_of k ls) <-> exists a, (k <= i)%nat /\ nth_error ls (i - k) = Some a /\ is_points a.
Proof.
  induction ls as [|a ls IH]; intros k i.
  - cbn. split; [easy|]. intros (a & _ & E & _). destruct (i - k)%nat; discriminate.
  - unfold pts_of. cbn [List.length seq combine filter snd].
    assert (R : In i (pts_of (S k) ls) <-> exists b, (k < i)%nat /\ nth_error (a :: ls) (i - k) = Some b /\ is_points b).
    { rewrite IH. split; intros (b & K & E & P); exists b.
      - split; [lia|]. split; [|exact P]. replace (i - k)%nat with (S (i - S k)) by lia. exact E.
      - split; [lia|]. split; [|exact P]. replace (i - k)%nat with (S (i - S k)) in E by lia. exact E. }
    unfold pts_of in R. split.
    + intros I. assert (J : (i = k /\ is_points a) \/ In i (map fst (filter (fun kl => match snd kl with LPoints _ _ => true | _ => false end) (combine (seq (S k) (List.length ls)) ls)))).
      { destruct a; cbn [map fst In] in I; auto. destruct I as [<-|I]; [left; split; [reflexivity|exact Logic.I]|now right]. }
      destruct J as [(-> & P)|J].
      * exists a. split; [lia|]. rewrite Nat.sub_diag. split; [reflexivity|exact P].
      * apply R in J as (b & K & E & P). exists b. split; [lia|]. now split.
    + intros (b & K & E & P). destruct (Nat.eq_dec i k) as [->|N].
      * rewrite Nat.sub_diag in E. injection E as <-. destruct a; try easy. now left.
      * assert (J : In i (map fst (filter (fun kl => match snd kl with LPoints _ _ => true | _ => false end) (combine (seq (S k) (List.length ls)) ls)))).
        { apply R. exists b. split; [lia|]. now split. }
        destruct a; cbn [map fst In]; auto. 
Qed.
Lemma change_same : forall A (ls : list A) i b, (i < List.length ls)%nat -> nth_error (change_nth i (fun _ => b) ls) i = Some b.
Proof. induction ls as [|a ls IH]; intros [|i] b L; cbn [List.length] in L; try lia; cbn [change_nth nth_error]; [reflexivity|]. apply IH. lia. Qed.
Lemma change_other : forall A (ls : list A) i j b, i <> j -> nth_error (change_nth i (fun _ => b) ls) j = nth_error ls j.
Proof. induction ls as [|a ls IH]; intros [|i] [|j] b N; cbn [change_nth nth_error]; try easy. apply IH. lia. Qed.
Lemma py_get_in : forall A (l : list A) i a, py_get l i = Ok a -> In a l.
Proof.
  intros A l i a H. unfold py_get in H. destruct (np_index _ _) as [k|]; [|discriminate]. destruct (nth_error l _) eqn:E; [|discriminate].
  injection H as ->. exact (nth_error_In _ _ E).
Qed.

(** ** One call *)
Definition put_layer (new_layer : bool) (l : layer) (p : mplot) : mplot :=
  match highlights_layer_id p, new_layer with
  | Some k, false => mkPlot (change_nth k (fun _ => l) (img_layers p)) (Some k) (points_layer_ids p)
  | h, _ => mkPlot (img_layers p ++ [l]) (match h with None => Some (List.length (img_layers p)) | _ => h end) (points_layer_ids p)
  end.
Definition colours_of (o : option nat) (w : world) : option (list txt) :=
  match o with None => Some [lit "white"] | Some k => nth_error (colour_lists w) k end.
Definition lists_after (o : option nat) (cs : list txt) (w : world) : list (list txt) :=
  match o with None => colour_lists w | Some k => change_nth k (fun _ => lit "white" :: cs) (colour_lists w) end.
Lemma call_unfold : forall W H grains ids o new w cs im, colours_of o w = Some cs ->
  highlight_image W H grains ids (Z.of_nat (List.length cs)) = Ok im ->
  add_grain_highlights W H grains ids o new w =
    (mkWorld (lists_after o cs w) (put_layer new (LHighlight im (lit "white" :: cs)) (plot w)), None).
Proof.
  intros W H grains ids o new w cs im C I. unfold add_grain_highlights. unfold colours_of in C. rewrite C, I. unfold lists_after, put_layer.
  destruct o, (highlights_layer_id (plot w)), new; reflexivity.
Qed.
Lemma put_drawn : forall new l p, sound p -> nth_error (img_layers (put_layer new l p)) (drawn_layer new p) = Some l.
Proof.
  intros new l p (A & _). unfold put_layer, drawn_layer. destruct (highlights_layer_id p) as [k|].
  - destruct (A k eq_refl) as (a & E & _). destruct new; cbn [img_layers].
    + now rewrite nth_error_app2, Nat.sub_diag by lia.
    + apply change_same. exact (nth_error_Some_len _ _ _ _ E).
  - destruct new; cbn [img_layers]; now rewrite nth_error_app2, Nat.sub_diag by lia.
Qed.
Lemma put_other : forall new l p j, j <> drawn_layer new p -> nth_error (img_layers (put_layer new l p)) j = nth_error (img_layers p) j.
Proof.
  intros new l p j N. unfold put_layer, drawn_layer in *. 
  assert (AP : forall (ls : list layer), j <> List.length ls -> nth_error (ls ++ [l]) j = nth_error ls j).
  { intros ls M. destruct (Nat.lt_ge_cases j (List.length ls)); [now rewrite nth_error_app1|].
    rewrite (proj2 (nth_error_None ls j)) by lia. apply nth_error_None. rewrite app_length. cbn [List.length]. lia. }
  destruct (highlights_layer_id p) as [k|], new; cbn [img_layers]; auto. apply change_other. auto.
Qed.
Lemma in_app_one : forall A (l : list A) a b, In b (l ++ [a]) -> In b l \/ b = a.
Proof. intros A l a b I. apply in_app_iff in I as [I|[->|[]]]; auto. Qed.
Lemma sound_add : forall p l, sound p -> ~ is_highlight l -> 
  sound (mkPlot (img_layers p ++ [l]) (highlights_layer_id p) (points_layer_ids p ++ match l with LPoints _ _ => [List.length (img_layers p)] | _ => [] end)).
Proof.
  intros p l (A & B & C) N. unfold sound. cbn [img_layers highlights_layer_id points_layer_ids]. split; [|split].
  - intros k K. destruct (A k K) as (a & E & I). exists a. split; [|exact I]. rewrite nth_error_app1; [exact E|]. exact (nth_error_Some_len _ _ _ _ E).
  - intros K a I. apply in_app_one in I as [I| ->]; auto.
  - rewrite C. exact (eq_sym (pts_app (img_layers p) 0 l)).
Qed.
Lemma sound_put : forall new l p, sound p -> is_highlight l -> sound (put_layer new l p).
Proof.
  intros new l p (A & B & C) I. unfold put_layer.
  assert (APP : forall h, (highlights_layer_id p = None -> h = Some (List.length (img_layers p))) -> (highlights_layer_id p <> None -> h = highlights_layer_id p) ->
            sound (mkPlot (img_layers p ++ [l]) h (points_layer_ids p))).
  { intros h H1 H2. unfold sound. cbn [img_layers highlights_layer_id points_layer_ids]. split; [|split].
    - intros k K. destruct (highlights_layer_id p) as [j|] eqn:Q.
      + rewrite H2 in K by easy. destruct (A k K) as (a & E & J). exists a. split; [|exact J]. rewrite nth_error_app1; [exact E|]. exact (nth_error_Some_len _ _ _ _ E).
      + rewrite H1 in K by reflexivity. injection K as <-. exists l. split; [|exact I]. now rewrite nth_error_app2, Nat.sub_diag by lia.
    - intros K. destruct (highlights_layer_id p); [rewrite H2 in K by easy|rewrite H1 in K by reflexivity]; discriminate.
    - rewrite C. change (pts_of 0 (img_layers p) = pts_of 0 (img_layers p ++ [l])). rewrite pts_app. destruct l; try easy. now rewrite app_nil_r. }
  destruct (highlights_layer_id p) as [k|] eqn:Q.
  - destruct new; [apply APP; [discriminate|reflexivity]|]. destruct (A k eq_refl) as (a & E & J).
    unfold sound. cbn [img_layers highlights_layer_id points_layer_ids]. split; [|split].
    + intros j K. injection K as <-. exists l. split; [|exact I]. apply change_same. exact (nth_error_Some_len _ _ _ _ E).
    + discriminate.
    + rewrite C. change (pts_of 0 (img_layers p) = pts_of 0 (change_nth k (fun _ => l) (img_layers p))). symmetry. apply pts_change.
      intros b E'. replace b with a by congruence. destruct a, l; cbn in *; tauto.
  - destruct new; apply APP; try reflexivity; congruence.
Qed.
Lemma sound_points : forall x y u p, sound p -> sound (fst (add_points x y u p)).
Proof.
  intros x y u p SD. pose proof SD as (A & B & C). unfold add_points.
  assert (NEW : sound (mkPlot (img_layers p ++ [LPoints x y]) (highlights_layer_id p) (points_layer_ids p ++ [List.length (img_layers p)]))).
  { exact (sound_add p (LPoints x y) SD (fun F => F)). }
  destruct (points_layer_ids p) as [|i0 ids] eqn:Q; [destruct (_ =? _)%nat; [exact NEW|exact SD]|].
  destruct u as [k|]; [|destruct (_ =? _)%nat; [exact NEW|exact SD]].
  destruct (py_get (i0 :: ids) k) as [i|e] eqn:G; [|exact SD]. destruct (_ =? _)%nat; [|exact SD].
  apply py_get_in in G. rewrite <- Q in *. cbn [fst]. rewrite C in G. apply (pts_in (img_layers p) 0 i) in G as (a & _ & E & P). rewrite Nat.sub_0_r in E.
  unfold sound. cbn [img_layers highlights_layer_id points_layer_ids]. split; [|split].
  - intros j K. destruct (A j K) as (b & E' & I). exists b. split; [|exact I]. rewrite change_other; [exact E'|]. intros <-. rewrite E in E'. injection E' as <-. destruct a; easy.
  - intros K b I. apply In_nth_error in I as (j & J). destruct (Nat.eq_dec i j) as [<-|N].
    + rewrite change_same in J by exact (nth_error_Some_len _ _ _ _ E). injection J as <-. easy.
    + rewrite change_other in J by exact N. apply (B K b). exact (nth_error_In _ _ J).
  - rewrite C. change (pts_of 0 (img_layers p) = pts_of 0 (change_nth i (fun _ => LPoints x y) (img_layers p))). symmetry. apply pts_change.
    intros b E'. rewrite E in E'. injection E' as <-. destruct a; cbn; tauto.
Qed.
Lemma sound_call : forall W H grains c w, sound (plot w) -> sound (plot (fst (do_call W H grains c w))).
Proof.
  intros W H grains c w SD. destruct c as [| |ids o new|x y u| |l]; cbn [do_call].
  - cbn [fst plot]. pose proof (sound_add (plot w) LMap SD (fun F => F)) as X. cbn beta iota in X. now rewrite app_nil_r in X.
  - cbn [fst plot]. pose proof (sound_add (plot w) LBoundaries SD (fun F => F)) as X. cbn beta iota in X. now rewrite app_nil_r in X.
  - destruct (colours_of o w) as [cs|] eqn:C.
    + destruct (highlight_image W H grains ids (Z.of_nat (List.length cs))) as [im|e] eqn:I.
      * rewrite (call_unfold _ _ _ _ _ _ _ _ _ C I). cbn [fst plot]. now apply sound_put.
      * unfold add_grain_highlights. unfold colours_of in C. rewrite C, I. exact SD.
    + unfold add_grain_highlights. unfold colours_of in C. rewrite C. exact SD.
  - pose proof (sound_points x y u (plot w) SD) as X. destruct (add_points x y u (plot w)). exact X.
  - split; [discriminate|]. split; [easy|reflexivity].
  - exact SD.
Qed.

(** ** Lists of colours *)
Lemma lists_call : forall W H grains c w k l, nth_error (colour_lists w) k = Some l ->
  exists m, (m <= uses k [c])%nat /\ nth_error (colour_lists (fst (do_call W H grains c w))) k = Some (repeat (lit "white") m ++ l).
Proof.
  intros W H grains c w k l N.
  assert (Z0 : colour_lists (fst (do_call W H grains c w)) = colour_lists w ->
    exists m, (m <= uses k [c])%nat /\ nth_error (colour_lists (fst (do_call W H grains c w))) k = Some (repeat (lit "white") m ++ l)).
  { intros ->. exists O. split; [lia|exact N]. }
  destruct c as [| |ids o new|x y u| |l']; try (apply Z0; reflexivity).
  - cbn [do_call] in *. destruct (colours_of o w) as [cs|] eqn:C.
    + destruct (highlight_image W H grains ids (Z.of_nat (List.length cs))) as [im|e] eqn:I.
      * rewrite (call_unfold _ _ _ _ _ _ _ _ _ C I) in *. cbn [fst colour_lists] in *. destruct o as [j|]; [|apply Z0; reflexivity].
        cbn [lists_after] in *. destruct (Nat.eq_dec j k) as [->|NE].
        -- exists 1%nat. split; [unfold uses; cbn [filter]; rewrite Nat.eqb_refl; cbn [List.length]; lia|]. cbn [colours_of] in C.
           replace cs with l by congruence. cbn [repeat app]. apply change_same. exact (nth_error_Some_len _ _ _ _ N).
        -- exists O. split; [lia|]. rewrite change_other by exact NE. exact N.
      * apply Z0. unfold add_grain_highlights. unfold colours_of in C. now rewrite C, I.
    + apply Z0. unfold add_grain_highlights. unfold colours_of in C. now rewrite C.
  - apply Z0. cbn [do_call]. now destruct (add_points x y u (plot w)).
  - exists O. split; [lia|]. cbn [do_call fst colour_lists repeat app]. rewrite nth_error_app1; [exact N|]. exact (nth_error_Some_len _ _ _ _ N).
Qed.
Lemma lists_session : forall W H grains cs w k l, nth_error (colour_lists w) k = Some l ->
  exists m, (m <= uses k cs)%nat /\ nth_error (colour_lists (session W H grains cs w)) k = Some (repeat (lit "white") m ++ l).
Proof.
  intros W H grains cs. induction cs as [|c cs IH]; intros w k l N; [exists O; split; [lia|exact N]|].
  destruct (lists_call W H grains c w k l N) as (m & M & E). destruct (IH _ k _ E) as (m' & M' & E'). exists (m' + m)%nat. split.
  - unfold uses in *. cbn [filter] in *. destruct c as [| |ids [j|] new|x y u| |l']; cbn [List.length] in *; try lia. destruct (Nat.eqb j k); cbn [List.length] in *; lia.
  - unfold session in *. cbn [fold_left]. rewrite E', repeat_app, app_assoc. reflexivity.
Qed.

(** ** Colours *)
Lemma spread_full : forall n k i, 1 <= n <= k -> 1 <= i <= k -> spread n k i = Z.min i n.
Proof.
  intros n k i N I. unfold spread. rewrite (Z.min_r k n) by lia. destruct (Z.eqb_spec (Z.min i n) n) as [E|E]; [lia|].
  set (v := Z.min i n) in *. replace (v * (n + 1)) with (v * n + v) by ring. rewrite Z.add_comm, Z.div_add by lia. rewrite Z.div_small by lia. lia.
Qed.
Lemma shown_spread : forall W H grains ids gs cs im, chosen W H grains ids gs -> cs <> [] -> ids <> [] -> 0 < W -> 0 < H ->
  (exists p, inside W H p /\ forall g, In g gs -> ~ In p g) ->
  highlight_image W H grains ids (Z.of_nat (List.length cs)) = Ok im ->
  (forall i g p, nth_error gs i = Some g -> In p g ->
     shown_colour W H im (lit "white" :: cs) p =
     nth_error cs (Z.to_nat (spread (Z.of_nat (List.length cs)) (Z.of_nat (List.length ids)) (Z.of_nat (S i)) - 1))) /\
  (forall p, (forall g, In g gs -> ~ In p g) -> shown_colour W H im (lit "white" :: cs) p = None).
Proof.
  intros W H grains ids gs cs im CH NC NI PW PH BG E. set (n := Z.of_nat (List.length cs)) in *. set (k := Z.of_nat (List.length ids)).
  assert (N : 0 < n) by (unfold n; destruct cs; [easy|cbn [List.length]; lia]).
  assert (K : 0 < k) by (unfold k; destruct ids; [easy|cbn [List.length]; lia]).
  destruct (image_values W H grains ids gs n CH) as (im' & E' & A & B); [lia|]. rewrite E in E'. injection E' as <-.
  destruct (image_range W H grains ids gs n im CH N PW PH NI A B) as (GR & LE). specialize (LE BG). fold k in GR.
  assert (LG : List.length gs = List.length ids). { destruct CH as (F & _). clear - F. induction F; cbn [List.length]; lia. }
  unfold shown_colour. cbv zeta. rewrite GR, LE. replace (Z.of_nat (List.length (lit "white" :: cs))) with (n + 1) by (cbn [List.length]; unfold n; lia).
  unfold cmap_index. destruct (Z.eqb_spec 0 (Z.min k n)) as [F|_]; [lia|]. split.
  - intros i g p I P. rewrite (A i g p I P). apply nth_error_Some_len in I as IL.
    replace (1 + Z.of_nat i) with (Z.of_nat (S i)) by lia. unfold spread. set (v := Z.min (Z.of_nat (S i)) n) in *.
    assert (V : 1 <= v <= n) by (unfold v; lia). assert (VM : v <= Z.min k n) by (unfold v, k in *; lia).
    destruct (Z.eqb_spec v (Z.min k n)) as [Q|Q].
    + replace (n + 1 - 1) with n by lia. destruct (Z.eqb_spec n 0); [lia|]. replace (Z.to_nat n) with (S (Z.to_nat (n - 1))) by lia. reflexivity.
    + rewrite Z.sub_0_r. rewrite Z.sub_0_r. assert (D : 1 <= v * (n + 1) / Z.min k n).
      { apply Z.div_le_lower_bound; [lia|]. nia. }
      destruct (Z.eqb_spec (v * (n + 1) / Z.min k n) 0); [lia|].
      replace (Z.to_nat (v * (n + 1) / Z.min k n)) with (S (Z.to_nat (v * (n + 1) / Z.min k n - 1))) by lia. reflexivity.
  - intros p P. rewrite (B p P). destruct (Z.eqb_spec 0 (Z.min k n)) as [F|_]; [lia|]. rewrite Z.sub_0_r, Z.mul_0_l, Z.div_0_l by lia. reflexivity.
Qed.
Lemma first_hidden : forall W H grains ids gs cs im, chosen W H grains ids gs -> cs <> [] ->
  (forall p, inside W H p -> exists g, In g gs /\ In p g) ->
  highlight_image W H grains ids (Z.of_nat (List.length cs)) = Ok im ->
  forall g p, nth_error gs 0 = Some g -> In p g -> shown_colour W H im (lit "white" :: cs) p = None.
Proof.
  intros W H grains ids gs cs im CH NC COV E g p G P. set (n := Z.of_nat (List.length cs)) in *.
  assert (N : 0 < n) by (unfold n; destruct cs; [easy|cbn [List.length]; lia]).
  destruct (image_values W H grains ids gs n CH) as (im' & E' & A & B); [lia|]. rewrite E in E'. injection E' as <-.
  assert (IP : inside W H p). { destruct CH as (_ & X & _). now apply (X g (nth_error_In _ _ G)). }
  assert (V : im p = 1). { rewrite (A 0%nat g p G P). change (Z.of_nat 0) with 0. lia. }
  assert (PW : 0 < W /\ 0 < H) by exact (inside_pos W H p IP). destruct PW as (PW & PH).
  assert (AP : forall q, In q (all_pix W H) <-> inside W H q) by (intros; apply all_pix_In; lia).
  assert (LE : least (map im (all_pix W H)) = 1).
  { destruct (least_spec (map im (all_pix W H))) as (LA & LB).
    - intros Q. apply AP in IP. destruct (all_pix W H); [easy|discriminate].
    - apply Z.le_antisymm.
      + rewrite <- V. apply LA. apply in_map. now apply AP.
      + apply in_map_iff in LB as (q & <- & Q). apply AP in Q. destruct (COV q Q) as (h & Ih & Pq). apply In_nth_error in Ih as (j & J). rewrite (A j h q J Pq). lia. }
  unfold shown_colour. cbv zeta. rewrite LE, V. unfold cmap_index. destruct (Z.eqb_spec 1 (greatest_of (map im (all_pix W H)))) as [F|F]; [reflexivity|].
  rewrite Z.sub_diag, Z.mul_0_l, Zdiv_0_l. reflexivity.
Qed.

(** ** Neighbours *)
Lemma second_inner : forall hl l sn, NoDup sn ->
  let r := fold_left (fun sn s => if existsb (Z.eqb s) hl || existsb (Z.eqb s) sn then sn else sn ++ [s]) l sn in
  NoDup r /\ forall s, In s r <-> In s sn \/ (In s l /\ ~ In s hl).
Proof.
  intros hl. assert (EX : forall s l, existsb (Z.eqb s) l = true <-> In s l).
  { intros s l. rewrite existsb_exists. split; [intros (t & I & Q); apply Z.eqb_eq in Q; now subst|]. intros I. exists s. split; [exact I|apply Z.eqb_refl]. }
  induction l as [|a l IH]; intros sn ND; cbn [fold_left].
  - split; [exact ND|]. intros s. split; [now left|]. intros [I|([] & _)]. exact I.
  - destruct (existsb (Z.eqb a) hl || existsb (Z.eqb a) sn) eqn:Q.
    + destruct (IH sn ND) as (N & I). split; [exact N|]. intros s. rewrite I. apply orb_true_iff in Q. rewrite !EX in Q. split.
      * intros [J|(J & K)]; [now left|]. right. split; [now right|exact K].
      * intros [J|([<-|J] & K)]; [now left| |right; now split]. left. tauto.
    + apply orb_false_iff in Q as (Q1 & Q2). assert (NH : ~ In a hl) by (intros X; apply EX in X; congruence). assert (NS : ~ In a sn) by (intros X; apply EX in X; congruence).
      destruct (IH (sn ++ [a])) as (N & I).
      { apply (NoDup_Add (Add_app a sn [])). rewrite app_nil_r. now split. }
      split; [exact N|]. intros s. rewrite I, in_app_iff. cbn [In]. split.
      * intros [[J|[<-|[]]]|(J & K)]; auto.
      * intros [J|([<-|J] & K)]; auto.
Qed.
Lemma second_spec : forall nb g, NoDup (second_neighbours nb g) /\ forall s, In s (second_neighbours nb g) <-> second_neighbour nb g s.
Proof.
  intros nb g. unfold second_neighbours. cbv zeta. set (hl := g :: nb g).
  assert (X : forall fs sn, NoDup sn ->
    let r := fold_left (fun sn f => fold_left (fun sn s => if existsb (Z.eqb s) hl || existsb (Z.eqb s) sn then sn else sn ++ [s]) (nb f) sn) fs sn in
    NoDup r /\ forall s, In s r <-> In s sn \/ (exists f, In f fs /\ In s (nb f)) /\ ~ In s hl).
  { induction fs as [|f fs IH]; intros sn ND; cbn [fold_left].
    - split; [exact ND|]. intros s. split; [now left|]. intros [I|((f & [] & _) & _)]. exact I.
    - destruct (second_inner hl (nb f) sn ND) as (N & I). destruct (IH _ N) as (N' & I'). split; [exact N'|].
      intros s. cbv zeta in I'. rewrite I', I. split.
      + intros [[J|(J & K)]|((h & J & L) & K)]; [now left| |].
        * right. split; [|exact K]. exists f. split; [now left|exact J].
        * right. split; [|exact K]. exists h. split; [now right|exact L].
      + intros [J|((h & [<-|J] & L) & K)]; [now left; left| |].
        * left. right. now split.
        * right. split; [|exact K]. exists h. now split. }
  destruct (X (nb g) [] (NoDup_nil _)) as (N & I). split; [exact N|]. intros s. rewrite I. unfold second_neighbour, hl. cbn [In]. intuition congruence.
Qed.
