(** What an EDAX text file says, and what it should load to. *)
From Coq Require Import String Ascii Reals.
From Coq Require Import List ZArith Bool.
Import ListNotations.
From Verif Require Import Py Grid Crystal_Model Text_Model Ctf_Model Ctf_Spec Ang_Model.
Open Scope Z_scope.

Definition SP : ascii := ascii_of_nat 32.
(** A header line: a hash and words separated by spaces. *)
Definition hline (ws : list txt) : txt := "#"%char :: SP :: join SP ws.

(** A phase of the file: name, point group, lattice constants (lengths and angles in
    degrees) and the other lines of its block. *)
Record ang_phase_in := AngPhaseIn { ai_name : txt; ai_group : txt; ai_lengths : R * R * R; ai_angles : R * R * R; ai_extra : list txt }.
Definition phase_block (k : nat) (n : Z) (p : ang_phase_in) : list txt :=
  let '(a, b, c) := ai_lengths p in let '(al, be, ga) := ai_angles p in
  [hline [lit "Phase"; fmt_int n]; hline [lit "MaterialName"; ai_name p]; hline [lit "Symmetry"; ai_group p];
   hline [lit "LatticeConstants"; fmt_fixed k a; fmt_fixed k b; fmt_fixed k c; fmt_fixed k al; fmt_fixed k be; fmt_fixed k ga]] ++
  ai_extra p ++ [lit "#"].
Fixpoint phase_blocks (k : nat) (n : Z) (ps : list ang_phase_in) : list txt :=
  match ps with [] => [] | p :: ps => phase_block k n p ++ phase_blocks k (n + 1) ps end.

(** A map: [k] decimals are written; at each pixel the Euler angles, image quality,
    confidence, phase number, detector signal and fit. *)
Record ang_in := AngIn {
  ai_rows : Z; ai_cols : Z; ai_step : R; ai_phases : list ang_phase_in; ai_before : list txt; ai_after : list txt;
  ai_e1 : pix -> R; ai_e2 : pix -> R; ai_e3 : pix -> R; ai_iq : pix -> R; ai_ci : pix -> R; ai_ph : pix -> Z;
  ai_sem : pix -> R; ai_fit : pix -> R
}.
Definition ang_words (k : nat) (m : ang_in) (p : pix) : list txt :=
  [fmt_fixed k (ai_e1 m p); fmt_fixed k (ai_e2 m p); fmt_fixed k (ai_e3 m p);
   fmt_fixed k (IZR (fst p) * ai_step m); fmt_fixed k (IZR (snd p) * ai_step m);
   fmt_fixed k (ai_iq m p); fmt_fixed k (ai_ci m p); fmt_int (ai_ph m p); fmt_fixed k (ai_sem m p); fmt_fixed k (ai_fit m p)].
Definition ang_lines (k : nat) (m : ang_in) : list txt :=
  ai_before m ++ phase_blocks k 1 (ai_phases m) ++
  [hline [lit "GRID:"; lit "SqrGrid"]; hline [lit "XSTEP:"; fmt_fixed k (ai_step m)]; hline [lit "YSTEP:"; fmt_fixed k (ai_step m)];
   hline [lit "NCOLS_ODD:"; fmt_int (ai_cols m)]; hline [lit "NCOLS_EVEN:"; fmt_int (ai_cols m)]; hline [lit "NROWS:"; fmt_int (ai_rows m)]] ++
  ai_after m ++ map (fun p => join SP (ang_words k m p)) (all_pix (ai_cols m) (ai_rows m)).
Definition ang_text (k : nat) (m : ang_in) : txt := unlines (ang_lines k m).

(** Header lines that say nothing to the reader; lines of a phase block likewise. *)
Definition neutral (l : txt) : Prop :=
  ~ In LF l /\ (exists r, l = "#"%char :: r) /\
  forall k, In k [lit "Phase"; lit "GRID"; lit "XSTEP"; lit "NCOLS_ODD"; lit "NROWS"] -> starts_with k (strip (tl l)) = false.
Definition neutral_in_phase (l : txt) : Prop :=
  ~ In LF l /\ exists r w ws, l = "#"%char :: r /\ words r = w :: ws /\
  ~ In w [lit "MaterialName"; lit "Symmetry"; lit "LatticeConstants"].
Definition one_word (t : txt) : Prop := t <> [] /\ forall a, In a t -> is_ws a = false.

(** Files that can be read: names of one line, the three point groups, hexagonal cells that
    are not too small, phase numbers of one byte. *)
Definition known_group (p : ang_phase_in) : Prop :=
  ai_group p = lit "43" \/ ai_group p = lit "m3m" \/
  ai_group p = lit "6/mmm" /\ let '(a, _, c) := ai_lengths p in (/ 100 <= a /\ / 100 <= c /\ a <= 10 ^ 5)%R.
Definition ok_phase (p : ang_phase_in) : Prop :=
  (exists w ws, words (ai_name p) = w :: ws) /\ known_group p /\ ~ In LF (ai_name p) /\
  (forall l, In l (ai_extra p) -> neutral_in_phase l).
Definition ok_ang (m : ang_in) : Prop :=
  0 <= ai_rows m /\ 0 <= ai_cols m /\ (forall p, In p (ai_phases m) -> ok_phase p) /\
  (forall l, In l (ai_before m ++ ai_after m) -> neutral l) /\
  (forall p, inside (ai_cols m) (ai_rows m) p -> 0 <= ai_ph m p <= 255).
(** Files that are read correctly: names of one word, phase numbers below 255. *)
Definition good_ang (m : ang_in) : Prop :=
  ok_ang m /\ (forall p, In p (ai_phases m) -> one_word (ai_name p)) /\
  (forall p, inside (ai_cols m) (ai_rows m) p -> ai_ph m p < 255).

(** A number written with [k] decimals and then rounded to three. *)
Definition twice_rounded (k : nat) (x y : R) : Prop := exists d, rounded k x d /\ rounded 3 d y.
Definition phase_read (k : nat) (p : ang_phase_in) (o : phase_out) : Prop :=
  po_name o = ai_name p /\
  ph_laue (po_phase o) = (if txt_eqb (ai_group p) (lit "6/mmm") then 9 else 11) /\
  ph_space (po_phase o) = (if txt_eqb (ai_group p) (lit "6/mmm") then 0 else 229) /\
  exists a b c al be ga, po_lattice o = [a; b; c; al * PI / 180; be * PI / 180; ga * PI / 180]%R /\
    (let '(x, y, z) := ai_lengths p in twice_rounded k x a /\ twice_rounded k y b /\ twice_rounded k z c) /\
    (let '(x, y, z) := ai_angles p in twice_rounded k x al /\ twice_rounded k y be /\ twice_rounded k z ga).

(** The first angle is measured from another axis: less by a right angle, modulo a turn. *)
Definition turned (k : nat) (x y : R) : Prop :=
  exists d, rounded k x d /\ ((PI / 2 <= d /\ y = d - PI / 2)%R \/ (d < PI / 2 /\ y = d - PI / 2 + 2 * PI)%R).
(** [l] holds at each pixel the rounded value of [f]. *)
Definition holds (k : nat) (m : ang_in) (f : pix -> R) (l : list R) : Prop :=
  forall x y, 0 <= x < ai_cols m -> 0 <= y < ai_rows m -> exists v, at_pixel l (ai_cols m) x y = Some v /\ rounded k (f (x, y)) v.
