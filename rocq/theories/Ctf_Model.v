(** Oxford text (.ctf) files: defdap/file_writers.py and the OxfordTextLoader of
    defdap/file_readers.py, character by character.  Text is ASCII with line feeds;
    floats are reals, so the rounding to float32 on loading is not modelled. *)
From Coq Require Import String Ascii Reals.
From Coq Require Import List ZArith Bool.
Import ListNotations.
From Verif Require Import Py Grid Quat_Spec Quat_Model Base_Model Crystal_Model Text_Model.
Open Scope Z_scope.

(** ** Writing *)

(** What the writer reads of a phase: [name], [laue_group], [lattice_params]. *)
Record phase_in := PhaseIn {
  pi_name : txt; pi_laue : Z; pi_lengths : R * R * R; pi_angles : R * R * R
}.

(** The metadata and data of defdap/file_writers.py 25-37; the shape is (rows,
    columns), as given by the two dimensions. *)
Record map_in := MapIn {
  mi_rows : Z; mi_cols : Z; mi_step : R; mi_acq : quat; mi_phases : list phase_in;
  mi_phase : pix -> Z; mi_quat : pix -> quat; mi_bc : pix -> Z
}.

Definition degrees (r : R) : R := (r * (180 / PI))%R.
Definition fixed3 (sep : ascii) (t : R * R * R) : txt :=
  let '(a, b, c) := t in join sep [fmt_fixed 3 a; fmt_fixed 3 b; fmt_fixed 3 c].

(** defdap/file_writers.py 105-110; the angles are f * 180 / pi. *)
Definition phase_line (p : phase_in) : txt :=
  let '(al, be, ga) := pi_angles p in
  join TAB [fixed3 ";" (pi_lengths p);
            fixed3 ";" (al * 180 / PI, be * 180 / PI, ga * 180 / PI)%R;
            pi_name p; fmt_int (pi_laue p); lit "0"; []; []; []].

Definition column_titles : list txt :=
  [lit "Phase"; lit "X"; lit "Y"; lit "Bands"; lit "Error"; lit "Euler1"; lit "Euler2";
   lit "Euler3"; lit "MAD"; lit "BC"; lit "BS"].

(** defdap/file_writers.py 76-77, 121-125: one pixel. *)
Definition data_line (m : map_in) (p : pix) : txt :=
  let '(e1, e2, e3) := euler_angles (mi_quat m p) in
  let ph := mi_phase m p in
  join TAB [fmt_int ph;
            fmt_fixed 3 (IZR (fst p) * mi_step m); fmt_fixed 3 (IZR (snd p) * mi_step m);
            lit "10"; fmt_int (if ph =? 0 then 3 else 0);
            fmt_fixed 3 (degrees e1); fmt_fixed 3 (degrees e2); fmt_fixed 3 (degrees e3);
            lit "0.0000"; fmt_int (mi_bc m p); lit "0"].

(** defdap/file_writers.py 90-103. *)
Definition header_lines (m : map_in) : list txt :=
  let '(a1, a2, a3) := euler_angles (mi_acq m) in
  [lit "Channel Text File";
   lit "Prj" ++ [TAB];
   lit "Author" ++ [TAB];
   lit "JobMode" ++ TAB :: lit "Grid";
   lit "XCells" ++ TAB :: fmt_int (mi_cols m);
   lit "YCells" ++ TAB :: fmt_int (mi_rows m);
   lit "XStep" ++ TAB :: fmt_fixed 4 (mi_step m);
   lit "YStep" ++ TAB :: fmt_fixed 4 (mi_step m);
   lit "AcqE1" ++ TAB :: fmt_fixed 4 (degrees a1);
   lit "AcqE2" ++ TAB :: fmt_fixed 4 (degrees a2);
   lit "AcqE3" ++ TAB :: fmt_fixed 4 (degrees a3);
   lit "Euler angles refer to Sample Coordinate system (CS0)!";
   lit "Phases" ++ TAB :: fmt_int (Z.of_nat (List.length (mi_phases m)))].

(** defdap/file_writers.py 88-125. *)
Definition ctf_text (m : map_in) : txt :=
  unlines (header_lines m ++ map phase_line (mi_phases m) ++
           [join TAB column_titles] ++
           map (data_line m) (all_pix (mi_cols m) (mi_rows m))).

(** Files by path. *)
Definition files := txt -> option txt.
Definition put (fs : files) (path t : txt) : files :=
  fun q => if txt_eqb q path then Some t else fs q.

(** defdap/file_writers.py 39-47 and 51-125; [path] is the directory joined with the
    file name. *)
Definition get_writer (datatype : option txt) : res unit :=
  let d := match datatype with None => lit "OxfordText" | Some d => d end in
  if txt_eqb d (lit "OxfordText") then Ok tt else Err ValueError.
Definition write (fs : files) (path : txt) (m : map_in) : res files :=
  let path := path ++ lit ".ctf" in
  match fs path with
  | Some _ => Err FileExistsError
  | None => Ok (put fs path (ctf_text m))
  end.
(** defdap/ebsd.py 176-199: the acquisition rotation of the writer keeps its default,
    the identity. *)
Definition save (fs : files) (path : txt) (datatype : option txt) (m : map_in) : res files :=
  do _ <- get_writer datatype;
  write fs path (MapIn (mi_rows m) (mi_cols m) (mi_step m) (Q4 1 0 0 0) (mi_phases m)
                       (mi_phase m) (mi_quat m) (mi_bc m)).

(** ** Loading *)

(** A loaded phase: name, lattice parameters and the phase object of
    defdap/crystal.py. *)
Record phase_out := PhaseOut { po_name : txt; po_lattice : list R; po_phase : phase }.

Definition item {A} (l : list A) (n : nat) : res A :=
  match nth_error l n with Some a => Ok a | None => Err IndexError end.
(** [l[-1]]. *)
Definition last_item {A} (l : list A) : res A := item (rev l) 0.

(** [round(x, 3)]. *)
Definition round3 (x : R) : R := (IZR (rint (x * 10 ^ 3)) / 10 ^ 3)%R.

(** defdap/file_readers.py 116-129; a cubic phase with fewer than three lattice
    parameters, which the code accepts, is refused here. *)
Definition parse_phase (conv : string) (line : txt) : res phase_out :=
  let f := split_on TAB line in
  do d <- item f 0;
  do dims <- map_res (fun s => do x <- py_float s; Ok (round3 x)) (split_on ";" d);
  do a <- item f 1;
  do angles <- map_res (fun s => do x <- py_float s; Ok (round3 x * PI / 180)%R) (split_on ";" a);
  let lattice := dims ++ angles in
  do name <- item f 2;
  do l <- item f 3; do laue <- py_int l;
  do s <- item f 4; do space <- py_int s;
  do la <- item lattice 0; do lc <- item lattice 2;
  do p <- mk_phase conv laue space la lc;
  Ok (PhaseOut name lattice p).

(** The variables of the header loop. *)
Record hdr := Hdr { h_x : option Z; h_y : option Z; h_step : R; h_acq : R * R * R }.
Definition hdr0 : hdr := Hdr None None 0 (0, 0, 0)%R.

(** defdap/file_readers.py 150-152: the next [n] lines are phases. *)
Fixpoint take_phases (conv : string) (n : nat) (ls : list txt) : res (list phase_out * list txt) :=
  match n with
  | O => Ok ([], ls)
  | S n =>
      match ls with
      | [] => Err StopIteration
      | l :: ls => do p <- parse_phase conv l; do r <- take_phases conv n ls; Ok (p :: fst r, snd r)
      end
  end.

(** defdap/file_readers.py 134-157: the loop over the lines, [i] the line number;
    result: the variables, the phases, the column titles and the number of header
    lines.  A file without a line 'Phases' leaves the last two unbound. *)
Fixpoint read_header (conv : string) (i : Z) (h : hdr) (ls : list txt)
  : res (hdr * list phase_out * txt * Z) :=
  match ls with
  | [] => Err UnboundLocalError
  | line :: rest =>
      if contains (lit "XCells") line then
        do w <- last_item (words line); do n <- py_int w;
        read_header conv (i + 1) (Hdr (Some n) (h_y h) (h_step h) (h_acq h)) rest
      else if contains (lit "YCells") line then
        do w <- last_item (words line); do n <- py_int w;
        read_header conv (i + 1) (Hdr (h_x h) (Some n) (h_step h) (h_acq h)) rest
      else if contains (lit "XStep") line then
        do w <- last_item (words line); do r <- py_float w;
        read_header conv (i + 1) (Hdr (h_x h) (h_y h) r (h_acq h)) rest
      else if contains (lit "AcqE1") line then
        do w <- last_item (words line); do r <- py_float w;
        let '(_, b, c) := h_acq h in
        read_header conv (i + 1) (Hdr (h_x h) (h_y h) (h_step h) (r, b, c)) rest
      else if contains (lit "AcqE2") line then
        do w <- last_item (words line); do r <- py_float w;
        let '(a, _, c) := h_acq h in
        read_header conv (i + 1) (Hdr (h_x h) (h_y h) (h_step h) (a, r, c)) rest
      else if contains (lit "AcqE3") line then
        do w <- last_item (words line); do r <- py_float w;
        let '(a, b, _) := h_acq h in
        read_header conv (i + 1) (Hdr (h_x h) (h_y h) (h_step h) (a, b, r)) rest
      else if contains (lit "Phases") line then
        do w <- last_item (words line); do n <- py_int w;
        do r <- take_phases conv (Z.to_nat n) rest;
        match snd r with
        | [] => Err StopIteration
        | titles :: _ =>
            (* j is bound by the phase loop only *)
            if n <=? 0 then Err UnboundLocalError
            else Ok (h, fst r, titles, i + (n - 1) + 3)
        end
      else read_header conv (i + 1) h rest
  end.

(** defdap/file_readers.py 168-180: name of the field, and whether it is uint8
    (otherwise float32). *)
Definition field_lookup (t : txt) : option (string * bool) :=
  if txt_eqb t (lit "Phase") then Some ("phase", true)%string
  else if txt_eqb t (lit "X") then Some ("x", false)%string
  else if txt_eqb t (lit "Y") then Some ("y", false)%string
  else if txt_eqb t (lit "Bands") then Some ("numBands", true)%string
  else if txt_eqb t (lit "Error") then Some ("error", true)%string
  else if txt_eqb t (lit "Euler1") then Some ("ph1", false)%string
  else if txt_eqb t (lit "Euler2") then Some ("phi", false)%string
  else if txt_eqb t (lit "Euler3") then Some ("ph2", false)%string
  else if txt_eqb t (lit "MAD") then Some ("MAD", false)%string
  else if txt_eqb t (lit "BC") then Some ("BC", true)%string
  else if txt_eqb t (lit "BS") then Some ("BS", true)%string
  else None.
(** defdap/file_readers.py 182. *)
Definition kept (name : string) : bool :=
  existsb (String.eqb name) ["phase"; "ph1"; "phi"; "ph2"; "BC"; "BS"; "MAD"]%string.

(** defdap/file_readers.py 183-191: name, kind and number of the kept columns. *)
Fixpoint columns (i : nat) (titles : list txt) : res (list (string * bool * nat)) :=
  match titles with
  | [] => Ok []
  | t :: ts =>
      match field_lookup t with
      | None => Err TypeError
      | Some (name, u8) =>
          do r <- columns (S i) ts;
          Ok (if kept name then (name, u8, i) :: r else r)
      end
  end.
(** [np.dtype] refuses two fields of one name. *)
Fixpoint distinct (l : list string) : bool :=
  match l with [] => true | a :: l => negb (existsb (String.eqb a) l) && distinct l end.

Inductive cell := U8 (n : Z) | F32 (r : R).
Definition parse_cell (u8 : bool) (t : txt) : res cell :=
  if u8 then
    do n <- py_int t; if (0 <=? n) && (n <=? 255) then Ok (U8 n) else Err ValueError
  else do r <- py_float t; Ok (F32 r).
Definition row := list (string * cell).
Definition parse_row (cols : list (string * bool * nat)) (line : txt) : res row :=
  let w := words line in
  map_res (fun c : string * bool * nat =>
             let '(name, u8, i) := c in
             match nth_error w i with
             | None => Err ValueError
             | Some t => do v <- parse_cell u8 t; Ok (name, v)
             end) cols.
Fixpoint before_hash (t : txt) : txt :=
  match t with [] => [] | a :: r => if Ascii.eqb a "#" then [] else a :: before_hash r end.
(** [np.loadtxt(file, dtype, usecols, skiprows)]: comments and blank lines are
    dropped, columns are separated by white space. *)
Definition loadtxt (cols : list (string * bool * nat)) (skip : Z) (ls : list txt) : res (list row) :=
  map_res (parse_row cols)
    (filter (fun l => nonempty (concat (words l))) (map before_hash (skipn (Z.to_nat skip) ls))).

(** [data[name]]. *)
Fixpoint lookup (name : string) (r : row) : res cell :=
  match r with
  | [] => Err ValueError
  | (n, v) :: r => if String.eqb n name then Ok v else lookup name r
  end.
Definition u8_column (name : string) (rows : list row) : res (list Z) :=
  map_res (fun r => do c <- lookup name r; match c with U8 n => Ok n | F32 _ => Err TypeError end) rows.
Definition f32_column (name : string) (rows : list row) : res (list R) :=
  map_res (fun r => do c <- lookup name r; match c with F32 x => Ok x | U8 n => Ok (IZR n) end) rows.

(** The loaded map; arrays are listed in C order. *)
Record loaded := Loaded {
  l_shape : Z * Z; l_step : R; l_acq : quat; l_phases : list phase_out;
  l_bc : list Z; l_bs : list Z; l_mad : list R; l_phase : list Z; l_euler : list (R * R * R)
}.

(** [a.reshape((ny, nx))]; a size -1, which numpy infers, is not modelled. *)
Definition reshape {A} (ny nx : Z) (l : list A) : res (list A) :=
  if (0 <=? ny) && (0 <=? nx) && (Z.of_nat (List.length l) =? ny * nx) then Ok l else Err ValueError.

Fixpoint zip3 (a b c : list R) : list (R * R * R) :=
  match a, b, c with x :: a, y :: b, z :: c => (x, y, z) :: zip3 a b c | _, _, _ => [] end.
Definition radians (r : R) : R := (r * (PI / 180))%R.

(** defdap/file_readers.py 102-234; the checks of 165 and 234 hold by construction. *)
Definition load_text (conv : string) (t : txt) : res loaded :=
  let ls := lines_of t in
  do r <- read_header conv 0 hdr0 ls;
  let '(h, phases, titles, skip) := r in
  match h_y h, h_x h with
  | Some ny, Some nx =>
      let '(a1, a2, a3) := h_acq h in
      let acq := from_euler_angles (a1 * PI / 180) (a2 * PI / 180) (a3 * PI / 180) in
      do cols <- columns 0 (words titles);
      if negb (distinct (map (fun c : string * bool * nat => fst (fst c)) cols)) then Err ValueError
      else
        do rows <- loadtxt cols skip ls;
        do bc <- u8_column "BC" rows; do bc <- reshape ny nx bc;
        do bs <- u8_column "BS" rows; do bs <- reshape ny nx bs;
        do mad <- f32_column "MAD" rows; do mad <- reshape ny nx mad;
        do ph <- u8_column "phase" rows; do ph <- reshape ny nx ph;
        do e1 <- f32_column "ph1" rows; do e2 <- f32_column "phi" rows; do e3 <- f32_column "ph2" rows;
        do e <- reshape ny nx (zip3 (map radians e1) (map radians e2) (map radians e3));
        Ok (Loaded (ny, nx) (h_step h) acq phases bc bs mad ph e)
  | _, _ => Err UnboundLocalError
  end.
Definition ctf_load (conv : string) (fs : files) (path : txt) : res loaded :=
  match fs path with None => Err FileNotFoundError | Some t => load_text conv t end.
