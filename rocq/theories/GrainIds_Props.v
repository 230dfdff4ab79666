(** Values per grain for all lists of ids: repeated, from the end, or not on the map. *)
From Coq Require Import String Reals Lra.
From Coq Require Import List ZArith Bool Lia.
Import ListNotations.
From Verif Require Import Py Grid Grid_Lemmas Boundary_Model Crystal_Model Base_Model Base_Spec Base_Proofs Base_Props GrainIds_Spec.
Open Scope Z_scope.

Lemma nth_rev {A} (l : list A) k : (k < List.length l)%nat -> nth_error (rev l) k = nth_error l (List.length l - 1 - k).
Proof.
  intros B. destruct l as [|a l0] eqn:E; [cbn in B; lia|]. rewrite <- E in *. rewrite (nth_error_nth' (rev l) a) by (rewrite rev_length; exact B).
  rewrite rev_nth by exact B. rewrite (nth_error_nth' l a) by lia. do 2 f_equal. lia.
Qed.
Lemma meant_iff {A} (l : list A) i g : meant l i g <-> py_nth l i = Ok g.
Proof.
  unfold meant, py_nth, np_index. set (n := Z.of_nat (List.length l)). split.
  - intros [(P & E)|(P & Q & E)].
    + assert (B : (Z.to_nat i < List.length l)%nat) by (apply nth_error_Some; congruence). assert (B' : i < n) by (unfold n; lia).
      destruct (Z.leb_spec 0 i); [|lia]. destruct (Z.ltb_spec i n); [|lia]. cbn [andb]. now rewrite E.
    + destruct (Z.leb_spec 0 i); [lia|]. cbn [andb]. destruct (Z.leb_spec (- n) i); [|unfold n in *; lia]. destruct (Z.ltb_spec i 0); [|lia]. cbn [andb].
      rewrite nth_rev in E by (unfold n in *; lia). replace (Z.to_nat (n + i)) with (List.length l - 1 - Z.to_nat (- i - 1))%nat by (unfold n in *; lia). first [now rewrite E | idtac].
      all: try (replace (Z.to_nat (i + n)) with (List.length l - 1 - Z.to_nat (- i - 1))%nat by (unfold n in *; lia); now rewrite E).
  - intros E. destruct (Z.leb_spec 0 i); cbn [andb] in E.
    + left. split; [lia|]. destruct (Z.ltb_spec i n); [|destruct (Z.leb_spec (- n) i), (Z.ltb_spec i 0); cbn [andb] in E; try discriminate; lia].
      destruct (nth_error l (Z.to_nat i)); [congruence|discriminate].
    + right. destruct (Z.leb_spec (- n) i); cbn [andb] in E; [|discriminate]. destruct (Z.ltb_spec i 0); [|lia]. split; [lia|]. split; [unfold n in *; lia|].
      rewrite nth_rev by (unfold n in *; lia). replace (List.length l - 1 - Z.to_nat (- i - 1))%nat with (Z.to_nat (i + n)) by (unfold n in *; lia).
      first [destruct (nth_error l (Z.to_nat (i + n))); [congruence|discriminate] | replace (i + n) with (n + i) by lia; destruct (nth_error l (Z.to_nat (n + i))); [congruence|discriminate]].
Qed.
Lemma meant_total {A} (l : list A) i : on_list l i <-> exists g, meant l i g.
Proof.
  split.
  - intros (B1 & B2). destruct (Z_lt_le_dec i 0) as [N|N].
    + destruct (nth_error (rev l) (Z.to_nat (- i - 1))) as [g|] eqn:E; [exists g; right; split; [lia|split; [lia|exact E]]|]. apply nth_error_None in E. rewrite rev_length in E. lia.
    + destruct (nth_error l (Z.to_nat i)) as [g|] eqn:E; [exists g; left; split; [lia|exact E]|]. apply nth_error_None in E. lia.
  - intros (g & [(P & E)|(P & Q & E)]); unfold on_list; [|lia]. assert (Z.to_nat i < List.length l)%nat by (apply nth_error_Some; congruence). lia.
Qed.
Lemma not_on_list {A} (l : list A) i : ~ on_list l i -> py_nth l i = Err IndexError.
Proof.
  intros N. unfold py_nth. destruct (np_index _ i) as [k|] eqn:E; [|reflexivity]. destruct (nth_error l (Z.to_nat k)) as [g|] eqn:F; [|reflexivity].
  exfalso. apply N. apply meant_total. exists g. apply meant_iff. unfold py_nth. now rewrite E, F.
Qed.
Lemma rows_of rows data depth : given_as rows data depth -> gvals_len data = List.length rows /\
  match data with
  | GNums l => Ok (1%nat, map (fun x => [x]) l)
  | GRows cols rows => if Nat.eqb cols 3 then Ok (3%nat, rows) else Err ValueError
  | GOther _ => Err ValueError
  end = Ok (depth, rows).
Proof.
  intros [(-> & -> & F)|(-> & ->)]; [|split; reflexivity]. split; [cbn [gvals_len]; now rewrite map_length|]. do 2 f_equal. rewrite map_map. rewrite <- (map_id rows) at 2. apply map_ext_in. intros r I. rewrite Forall_forall in F. specialize (F r I). destruct r as [|x [|]]; try discriminate. reflexivity.
Qed.
(** Every id from the list is the grain it means; a pixel has the value of the last grain of the list
    that it belongs to, or the background.  One id that is not on the map makes the call fail. *)
Theorem C40_ids : forall W H grains d data rows depth l bg, Forall (fun g => forall p, In p g -> inside W H p) grains -> given_as rows data depth -> List.length rows = List.length l ->
  (Forall (on_list grains) l -> exists im, grain_data_to_map_data W H grains d data (IdSeq l) bg = Ok im /\
     (forall k i r g p, nth_error l k = Some i -> nth_error rows k = Some r -> meant grains i g -> In p g ->
        (forall k' i' g', (k < k')%nat -> nth_error l k' = Some i' -> meant grains i' g' -> ~ In p g') -> im p = r) /\
     (forall p, (forall i g, In i l -> meant grains i g -> ~ In p g) -> im p = repeat (cast d bg) depth)) /\
  (~ Forall (on_list grains) l -> grain_data_to_map_data W H grains d data (IdSeq l) bg = Err IndexError).
Proof.
  intros W H grains d data rows depth l bg G GA L. destruct (rows_of rows data depth GA) as (GL & RW). unfold grain_data_to_map_data. rewrite GL, L, Nat.eqb_refl. cbn [negb]. rewrite RW. cbn [bind]. clear GA GL RW.
  set (f := fun (im : pix -> list num) (gv : Z * list num) => do pts <- py_nth grains (fst gv); fill W H im pts (snd gv)).
  assert (GI : forall i g p, meant grains i g -> In p g -> inside W H p).
  { intros i g p M. rewrite Forall_forall in G. apply G. destruct M as [(_ & E)|(_ & _ & E)]; apply nth_error_In in E; [exact E|now apply in_rev]. }
  enough (K : forall im0, (Forall (on_list grains) l -> exists im, for_each f (combine l rows) im0 = Ok im /\
     (forall k i r g p, nth_error l k = Some i -> nth_error rows k = Some r -> meant grains i g -> In p g ->
        (forall k' i' g', (k < k')%nat -> nth_error l k' = Some i' -> meant grains i' g' -> ~ In p g') -> im p = r) /\
     (forall p, (forall i g, In i l -> meant grains i g -> ~ In p g) -> im p = im0 p)) /\
    (~ Forall (on_list grains) l -> for_each f (combine l rows) im0 = Err IndexError)) by exact (K (fun _ => repeat (cast d bg) depth)).
  assert (FE : forall im i r, f im (i, r) = (do pts <- py_nth grains i; fill W H im pts r)) by reflexivity. clearbody f.
  revert rows L. induction l as [|i l IH]; intros [|r rows] L im0; try discriminate L.
  - split; [|intros N; destruct N; constructor]. intros _. exists im0. split; [reflexivity|]. split; [intros [|k] i r g p E; discriminate|reflexivity].
  - cbn [combine for_each]. injection L as L. split.
    + intros F. inversion F as [|? ? O F']; subst. apply meant_total in O as (g & M). pose proof M as M'. apply meant_iff in M'. rewrite FE. rewrite M'. cbn [bind].
      destruct (fill_ok _ W H g r im0 (fun p => GI i g p M)) as (im1 & E1 & A1 & A2). rewrite E1. cbn [bind]. destruct (proj1 (IH rows L im1) F') as (im & E & A & B). exists im. split; [exact E|].
      split.
      * intros [|k] i' r' g' p N1 N2 Mg I LA; cbn [nth_error] in *.
        -- injection N1 as <-. injection N2 as <-. apply meant_iff in Mg. rewrite M' in Mg. injection Mg as <-. rewrite B; [now apply A1|]. intros j h J Mh. apply In_nth_error in J as (k & K). exact (LA (S k) j h ltac:(lia) K Mh).
        -- apply (A k i' r' g' p N1 N2 Mg I). intros k' j h K N3. exact (LA (S k') j h ltac:(lia) N3).
      * intros p N. rewrite B; [apply A2; apply (N i g); [now left|exact M]|]. intros j h J. apply N. now right.
    + intros N. destruct (Z_le_dec (- Z.of_nat (List.length grains)) i) as [X|X]; [destruct (Z_lt_dec i (Z.of_nat (List.length grains))) as [Y|Y]|].
      * assert (O : on_list grains i) by (split; assumption). pose proof O as O'. apply meant_total in O as (g & M). pose proof M as M'. apply meant_iff in M'. rewrite FE. rewrite M'. cbn [bind].
        destruct (fill_ok _ W H g r im0 (fun p => GI i g p M)) as (im1 & E1 & _). rewrite E1. cbn [bind]. apply (proj2 (IH rows L im1)). intros F. apply N. now constructor.
      * rewrite FE. rewrite not_on_list; [reflexivity|unfold on_list; lia].
      * rewrite FE. rewrite not_on_list; [reflexivity|unfold on_list; lia].
Qed.
(** Averages, likewise. *)
Theorem C43_ids : forall W H grains (f : pix -> R) l, Forall (fun g => g <> [] /\ forall p, In p g -> inside W H p) grains ->
  (Forall (on_list grains) l -> exists avs, calc_grain_average W H grains (fun p => Fin (f p)) (IdSeq l) = Ok avs /\
     Forall2 (fun i a => exists g, meant grains i g /\ a = Fin (mean_of (map f g))) l avs) /\
  (~ Forall (on_list grains) l -> calc_grain_average W H grains (fun p => Fin (f p)) (IdSeq l) = Err IndexError).
Proof.
  intros W H grains f l G. unfold calc_grain_average. cbn [bind].
  assert (ST : forall i, on_list grains i -> exists g, meant grains i g /\
    (do pts <- py_nth grains i; do vals <- grain_data W H (fun p => Fin (f p)) pts; Ok (nmean vals)) = Ok (Fin (mean_of (map f g)))).
  { intros i O. apply meant_total in O as (g & M). exists g. split; [exact M|]. assert (I : In g grains) by (destruct M as [(_ & E)|(_ & _ & E)]; apply nth_error_In in E; [exact E|now apply in_rev]).
    rewrite Forall_forall in G. destruct (G g I) as (NE & IN). apply meant_iff in M. rewrite M. cbn [bind]. rewrite grain_data_ok by exact IN. cbn [bind]. f_equal.
    rewrite <- (map_map f Fin). apply nmean_fin. destruct g; [congruence|discriminate]. }
  induction l as [|i l IH].
  - split; [|intros N; destruct N; constructor]. intros _. exists []. split; [reflexivity|constructor].
  - cbn [map_res]. split.
    + intros F. inversion F as [|? ? O F']; subst. destruct (ST i O) as (g & M & E). rewrite E. cbn [bind]. destruct (proj1 IH F') as (avs & E2 & F2). rewrite E2. cbn [bind]. eexists. split; [reflexivity|]. constructor; [exists g; now split|exact F2].
    + intros N. assert (D : on_list grains i \/ ~ on_list grains i) by (unfold on_list; lia). destruct D as [O|O].
      * destruct (ST i O) as (g & M & E). rewrite E. cbn [bind]. rewrite (proj2 IH); [reflexivity|]. intros F. apply N. now constructor.
      * rewrite not_on_list by exact O. reflexivity.
Qed.
Example C40_ids_met : let grains := [[(0, 0)]; [(1, 0)]] in Forall (fun g => forall p, In p g -> inside 2 1 p) grains /\ Forall (on_list grains) [1; -2; -1] /\
  given_as [[Fin 5]; [Fin 6]; [Fin 7]] (GNums [Fin 5; Fin 6; Fin 7]) 1 /\ meant grains (-1) [(1, 0)] /\ ~ Forall (on_list grains) [2].
Proof.
  cbv zeta. split; [repeat constructor; destruct H as [<-|[]]; cbn; lia|]. split; [repeat constructor; cbn; lia|]. split; [left; split; [reflexivity|split; [reflexivity|repeat constructor]]|]. split; [right; cbn; split; [lia|split; [lia|reflexivity]]|].
  intros F. inversion F as [|? ? O]; subst. destruct O as (_ & O). cbn in O. lia.
Qed.
Print Assumptions C40_ids.
Print Assumptions C43_ids.
Print Assumptions C40_ids_met.
