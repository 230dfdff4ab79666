(** EDAX text (.ang) files: the EdaxAngLoader of defdap/file_readers.py 237-376, and the
    PythonDictLoader, 574-602.  Text is ASCII with line feeds; floats are reals. *)
From Coq Require Import String Ascii Reals.
From Coq Require Import List ZArith Bool.
Import ListNotations.
From Verif Require Import Py Base_Model Crystal_Model Text_Model Ctf_Model Io_Model.
Open Scope Z_scope.

(** ** One phase: 348-376 *)
(** The variables of the loop. *)
Record ph_vars := PhVars { v_name : option txt; v_group : option (Z * Z); v_lattice : option (list R) }.
(** 356-367: Laue and space group; the space group None of hexagonal crystals is written 0. *)
Definition point_group (t : txt) : res (Z * Z) :=
  if txt_eqb t (lit "43") || txt_eqb t (lit "m3m") then Ok (11, 229)
  else if txt_eqb t (lit "6/mmm") then Ok (9, 0)
  else Err ValueError.
(** 368-374; slices may be short. *)
Definition lattice_words (ws : list txt) : res (list R) :=
  do dims <- map_res (fun s => do x <- py_float s; Ok (round3 x)) (firstn 3 (skipn 1 ws));
  do angles <- map_res (fun s => do x <- py_float s; Ok (round3 x * PI / 180)%R) (firstn 3 (skipn 4 ws));
  Ok (dims ++ angles).
Definition phase_step (v : ph_vars) (line : txt) : res ph_vars :=
  let ws := words line in
  do w <- item ws 0;
  do v <- (if txt_eqb w (lit "MaterialName") then do n <- item ws 1; Ok (PhVars (Some n) (v_group v) (v_lattice v)) else Ok v);
  if txt_eqb w (lit "Symmetry") then do g <- item ws 1; do p <- point_group g; Ok (PhVars (v_name v) (Some p) (v_lattice v))
  else if txt_eqb w (lit "LatticeConstants") then do l <- lattice_words ws; Ok (PhVars (v_name v) (v_group v) (Some l))
  else Ok v.
Fixpoint phase_loop (v : ph_vars) (ls : list txt) : res ph_vars :=
  match ls with [] => Ok v | l :: ls => do v <- phase_step v l; phase_loop v ls end.
(** As for text files, a cubic phase with fewer than three lattice parameters is refused. *)
Definition ang_phase (conv : string) (ls : list txt) : res phase_out :=
  do v <- phase_loop (PhVars None None None) ls;
  match v_name v, v_group v, v_lattice v with
  | Some name, Some (laue, space), Some lattice =>
      do la <- item lattice 0; do lc <- item lattice 2;
      do p <- mk_phase conv laue space la lc;
      Ok (PhaseOut name lattice p)
  | _, _, _ => Err UnboundLocalError
  end.

(** ** The header: 251-284 *)
Record ang_hdr := AngHdr { n_phase : Z; n_phases : list phase_out; n_step : R; n_x : option Z; n_y : option Z }.
Definition ang_hdr0 : ang_hdr := AngHdr 1 [] 0 None None.
Fixpoint ang_header (fuel : nat) (conv : string) (h : ang_hdr) (ls : list txt) : res ang_hdr :=
  match fuel with
  | O => Err OutOfFuel
  | S fuel =>
      match ls with
      | [] => Ok h
      | line :: rest =>
          if negb (starts_with (lit "#") line) then Ok h
          else
            let line := strip (tl line) in
            if starts_with (lit "Phase") line then
              do w <- item (words line) 1; do n <- py_int w;
              if negb (n =? n_phase h) then Err ValueError
              else
                do q <- read_until (lit "#") "*" true (fun (s : unit) l => Ok (s, strip (tl l))) tt rest;
                do p <- ang_phase conv (snd (fst q));
                ang_header fuel conv (AngHdr (n_phase h + 1) (n_phases h ++ [p]) (n_step h) (n_x h) (n_y h)) (snd q)
            else if starts_with (lit "GRID") line then
              do w <- last_item (words line);
              if txt_eqb w (lit "SqrGrid") then ang_header fuel conv h rest else Err ValueError
            else if starts_with (lit "XSTEP") line then
              do w <- last_item (words line); do r <- py_float w;
              ang_header fuel conv (AngHdr (n_phase h) (n_phases h) r (n_x h) (n_y h)) rest
            else if starts_with (lit "NCOLS_ODD") line then
              do w <- last_item (words line); do n <- py_int w;
              ang_header fuel conv (AngHdr (n_phase h) (n_phases h) (n_step h) (Some n) (n_y h)) rest
            else if starts_with (lit "NROWS") line then
              do w <- last_item (words line); do n <- py_int w;
              ang_header fuel conv (AngHdr (n_phase h) (n_phases h) (n_step h) (n_x h) (Some n)) rest
            else ang_header fuel conv h rest
      end
  end.

(** ** The data: 291-346 *)
(** 292-303 and 304: the seven fields take the first seven of the eight columns asked for. *)
Definition ang_cols : list (string * bool * nat) :=
  [("ph1", false, 0%nat); ("phi", false, 1%nat); ("ph2", false, 2%nat); ("IQ", false, 5%nat);
   ("CI", false, 6%nat); ("phase", true, 7%nat); ("FF", false, 8%nat)]%string.
(** 307-310: [np.loadtxt].  Since numpy 1.23 ([old] false) fewer fields than columns are a
    TypeError; before, the last column was read and dropped. *)
Definition ang_loadtxt (old : bool) (ls : list txt) : res (list row) :=
  if old then
    map_res (fun l => match nth_error (words l) 9 with Some _ => parse_row ang_cols l | None => Err IndexError end)
      (filter (fun l => nonempty (concat (words l))) (map before_hash ls))
  else Err TypeError.
(** 341-342 *)
Definition shift_ph1 (a : R) : R :=
  let a := (a - PI / 2)%R in if Rlt_dec a 0 then (a + 2 * PI)%R else a.

Record ang := Ang {
  g_shape : Z * Z; g_step : R; g_phases : list phase_out; g_vmax : Z;
  g_iq : list R; g_ci : list R; g_ff : list R; g_phase : list Z; g_euler : list (R * R * R)
}.
(** 247-346; the phase numbers are bytes. *)
Definition load_ang (old : bool) (conv : string) (t : txt) : res ang :=
  let ls := lines_of t in
  do h <- ang_header (S (List.length ls)) conv ang_hdr0 ls;
  match n_y h, n_x h with
  | Some ny, Some nx =>
      do rows <- ang_loadtxt old ls;
      do iq <- f32_column "IQ" rows; do iq <- reshape ny nx iq;
      do ci <- f32_column "CI" rows; do ci <- reshape ny nx ci;
      do ff <- f32_column "FF" rows; do ff <- reshape ny nx ff;
      do ph <- u8_column "phase" rows; do ph <- reshape ny nx ph;
      do e1 <- f32_column "ph1" rows; do e2 <- f32_column "phi" rows; do e3 <- f32_column "ph2" rows;
      do e <- reshape ny nx (zip3 (map shift_ph1 e1) e2 e3);
      Ok (Ang (ny, nx) (n_step h) (n_phases h) (Z.of_nat (List.length (n_phases h))) iq ci ff (map (fun n => (n + 1) mod 256) ph) e)
  | _, _ => Err UnboundLocalError
  end.
(** 246-247 *)
Definition ang_load (old : bool) (conv : string) (fs : files) (path : txt) : res ang :=
  match fs path with None => Err FileNotFoundError | Some t => load_ang old conv t end.

(** ** Dictionaries: 574-602 *)
(** The values looked up, [None] if the key is missing.  An array is its shape and values;
    phases is [Some l] if a list is given, each element [true] if it is of type Phase. *)
Record data_dict (A : Type) := DataDict {
  d_phase : option (list Z * A); d_step : option R; d_phases : option (option (list bool));
  d_bc : option (list Z * A); d_euler : option (list Z * A)
}.
Arguments DataDict {A}. Arguments d_phase {A}. Arguments d_step {A}. Arguments d_phases {A}. Arguments d_bc {A}. Arguments d_euler {A}.
Record dict_map (A : Type) := DictMap {
  m_shape : list Z; m_step : R; m_phases : list bool; m_vmax : Z; m_bc : list Z * A; m_phase : list Z * A; m_euler : list Z * A
}.
Arguments DictMap {A}. Arguments m_shape {A}. Arguments m_step {A}. Arguments m_phases {A}. Arguments m_vmax {A}. Arguments m_bc {A}. Arguments m_phase {A}. Arguments m_euler {A}.
Definition key {B} (o : option B) : res B := match o with Some b => Ok b | None => Err KeyError end.
Definition shape_eqb (a b : list Z) : bool := if list_eq_dec Z.eq_dec a b then true else false.
Definition load_dict {A} (d : data_dict A) : res (dict_map A) :=
  do p <- key (d_phase d);
  do s <- key (d_step d);
  do phs <- key (d_phases d);
  match phs with
  | None => Err AssertionError
  | Some l =>
      if negb (forallb (fun b => b) l) then Err AssertionError
      else
        do bc <- key (d_bc d);
        do e <- key (d_euler d);
        if shape_eqb (fst e) (3 :: fst p) then Ok (DictMap (fst p) s l (Z.of_nat (List.length l)) bc p e) else Err AssertionError
  end.
