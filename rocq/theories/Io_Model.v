(** File readers other than the text one: defdap/file_readers.py.  Text files are lists
    of lines without their line feeds; floats are reals. *)
From Coq Require Import String Ascii Reals.
From Coq Require Import List ZArith Bool.
Import ListNotations.
From Verif Require Import Py Quat_Model Base_Model Crystal_Model Text_Model Ctf_Model.
Open Scope Z_scope.

(** ** Choosing a loader *)

(** [str.lower] on ASCII. *)
Definition lower_char (a : ascii) : ascii :=
  if (65 <=? code a) && (code a <=? 90) then ascii_of_nat (Z.to_nat (code a + 32)) else a.
Definition lower (t : txt) : txt := map lower_char t.

Inductive ebsd_loader := OxfordBinary | OxfordText | EdaxAng | PythonDict.
(** defdap/file_readers.py 59-78; [suffix] is [file_name.suffix]. *)
Definition ebsd_get_loader (data_type : option txt) (suffix : txt) : res ebsd_loader :=
  let d := match data_type with
    | Some d => d
    | None =>
        if txt_eqb suffix (lit ".crc") then lit "oxfordbinary"
        else if txt_eqb suffix (lit ".cpr") then lit "oxfordbinary"
        else if txt_eqb suffix (lit ".ctf") then lit "oxfordtext"
        else if txt_eqb suffix (lit ".ang") then lit "edaxang"
        else lit "oxfordbinary"
    end in
  let d := lower d in
  if txt_eqb d (lit "oxfordbinary") then Ok OxfordBinary
  else if txt_eqb d (lit "oxfordtext") then Ok OxfordText
  else if txt_eqb d (lit "edaxang") then Ok EdaxAng
  else if txt_eqb d (lit "pythondict") then Ok PythonDict
  else Err ValueError.

Inductive dic_loader := Davis | OpenPivText | OpenPivBinary | PyVale.
(** defdap/file_readers.py 636-654: the loader and its file type. *)
Definition dic_get_loader (data_type : option txt) : res (dic_loader * txt) :=
  let d := match data_type with Some d => d | None => lit "Davis" end in
  let parts := split_on "-" (lower d) in
  do sub <- (if (List.length parts =? 1)%nat then Ok [] else item parts 1);
  do ty <- item parts 0;
  if txt_eqb ty (lit "davis") then Ok (Davis, sub)
  else if txt_eqb ty (lit "openpiv") then Ok (OpenPivText, sub)
  else if txt_eqb ty (lit "openpivtext") then Ok (OpenPivText, sub)
  else if txt_eqb ty (lit "openpivbinary") then Ok (OpenPivBinary, sub)
  else if txt_eqb ty (lit "pyvale") then Ok (PyVale, sub)
  else Err ValueError.

(** ** Reading until a marker: defdap/file_readers.py 912-957 *)
Definition blank_or_comment (comment : ascii) (line : txt) : bool :=
  match strip line with [] => true | a :: _ => Ascii.eqb a comment end.
Definition is_term (term : txt) (exact : bool) (line : txt) : bool :=
  if exact then txt_eqb (strip line) term else starts_with term (strip line).

(** [process] may use and change variables [s] outside.  Result: those variables, the
    processed lines, and the lines not read (the marker line is put back). *)
Fixpoint read_until {S A} (term : txt) (comment : ascii) (exact : bool)
  (process : S -> txt -> res (S * A)) (s : S) (ls : list txt) : res (S * list A * list txt) :=
  match ls with
  | [] => Ok (s, [], [])
  | line :: rest =>
      if is_term term exact line then Ok (s, [], ls)
      else if blank_or_comment comment line then read_until term comment exact process s rest
      else
        do r <- process s line;
        do q <- read_until term comment exact process (fst r) rest;
        Ok (fst (fst q), snd r :: snd (fst q), snd q)
  end.

(** ** Dictionaries *)
Definition dict (V : Type) := list (txt * V).
Fixpoint dset {V} (k : txt) (v : V) (d : dict V) : dict V :=
  match d with
  | [] => [(k, v)]
  | (k', v') :: d => if txt_eqb k' k then (k', v) :: d else (k', v') :: dset k v d
  end.
Fixpoint dget {V} (k : txt) (d : dict V) : option V :=
  match d with [] => None | (k', v) :: d => if txt_eqb k' k then Some v else dget k d end.
(** [d[k]]. *)
Definition dkey {V} (k : txt) (d : dict V) : res V :=
  match dget k d with Some v => Ok v | None => Err KeyError end.

(** ** CPR headers: defdap/file_readers.py 392-436 *)

(** 415-420. *)
Definition parse_line (line : txt) (d : dict txt) : dict txt :=
  match split_on "=" (strip line) with [k; v] => dset k v d | _ => d end.

(** Longest prefix before the last character [c]; [None] without one. *)
Fixpoint before_last (c : ascii) (t : txt) : option txt :=
  match t with
  | [] => None
  | a :: t =>
      match before_last c t with
      | Some p => Some (a :: p)
      | None => if Ascii.eqb a c then Some [] else None
      end
  end.
(** 413, 432: [re.match(r"\[(.+)\]", line.strip()).group(1)]; without a match, [None]
    has no attribute [group]. *)
Definition group_name (line : txt) : res txt :=
  match strip line with
  | a :: t =>
      if Ascii.eqb a "[" then
        match before_last "]" t with
        | Some (b :: n) => Ok (b :: n)
        | _ => Err AttributeError
        end
      else Err AttributeError
  | [] => Err AttributeError
  end.

(** 422-436; every turn of the loop reads at least one line. *)
Fixpoint cpr_groups (fuel : nat) (ls : list txt) (md : dict (dict txt)) : res (dict (dict txt)) :=
  match fuel with
  | O => Err OutOfFuel
  | S fuel =>
      match ls with
      | [] => Ok md
      | line :: rest =>
          if blank_or_comment ";" line then cpr_groups fuel rest md
          else
            do name <- group_name line;
            do r <- read_until (lit "[") ";" false
                      (fun (d : dict txt) l => Ok (parse_line l d, tt)) [] rest;
            cpr_groups fuel (snd r) (dset name (fst (fst r)) md)
      end
  end.
Definition read_cpr (ls : list txt) : res (dict (dict txt)) := cpr_groups (S (List.length ls)) ls [].

(** 440-466: metadata of the map. *)
Definition section_key (md : dict (dict txt)) (sec key : string) : res txt :=
  do d <- dkey (lit sec) md; dkey (lit key) d.
Definition round3_key (d : dict txt) (key : string) : res R :=
  do t <- dkey (lit key) d; do x <- py_float t; Ok (round3 x).
Definition cpr_phase (conv : string) (md : dict (dict txt)) (i : Z) : res phase_out :=
  do d <- dkey (lit "Phase" ++ fmt_int (i + 1)) md;
  do name <- dkey (lit "StructureName") d;
  do l <- dkey (lit "LaueGroup") d; do laue <- py_int l;
  do space <- py_int (match dget (lit "SpaceGroup") d with Some s => s | None => lit "0" end);
  do a <- round3_key d "a"; do b <- round3_key d "b"; do c <- round3_key d "c";
  do al <- round3_key d "alpha"; do be <- round3_key d "beta"; do ga <- round3_key d "gamma";
  do p <- mk_phase conv laue space a c;
  Ok (PhaseOut name [a; b; c; al * PI / 180; be * PI / 180; ga * PI / 180]%R p).

(** ** The record layout: defdap/file_readers.py 468-505 *)
Inductive field := Phase8 | Ph1 | Phi | Ph2 | MAD | BC | BS | NumBands | AFI | IB6
  | Edx (name : txt) | Unknown (n : Z).
Inductive kind := Byte | Float.
(** 483-493. *)
Definition base_fields (id : Z) : option (field * kind) :=
  if id =? 3 then Some (Ph1, Float) else if id =? 4 then Some (Phi, Float)
  else if id =? 5 then Some (Ph2, Float) else if id =? 6 then Some (MAD, Float)
  else if id =? 7 then Some (BC, Byte) else if id =? 8 then Some (BS, Byte)
  else if id =? 10 then Some (NumBands, Byte) else if id =? 11 then Some (AFI, Byte)
  else if id =? 12 then Some (IB6, Float) else None.
(** 474-476, 494: window i has id 100 + i. *)
Definition find_field (edx : list txt) (id : Z) : option (field * kind) :=
  match (if 101 <=? id then nth_error edx (Z.to_nat (id - 101)) else None) with
  | Some name => Some (Edx name, Float)
  | None => base_fields id
  end.
(** 470-476. *)
Definition edx_windows (md : dict (dict txt)) : res (list txt) :=
  match dget (lit "EDX Windows") md with
  | None => Ok []
  | Some d =>
      do c <- dkey (lit "Count") d; do n <- py_int c;
      map_res (fun i => dkey (lit "Window" ++ fmt_int i) d) (zseq 1 (Z.to_nat n))
  end.

(** 495-503: the loop is inside the [try], so the first unknown id (or missing key)
    ends it. [seen] says whether [field_id] is bound, which the handler needs. *)
Fixpoint field_loop (edx : list txt) (ids : list (res Z)) (seen : bool) (acc : list (field * kind))
  : res (list (field * kind)) :=
  match ids with
  | [] => Ok acc
  | Err KeyError :: _ =>
      if seen then Ok (acc ++ [(Unknown 1, Float)]) else Err UnboundLocalError
  | Err e :: _ => Err e
  | Ok id :: ids =>
      match find_field edx id with
      | Some f => field_loop edx ids true (acc ++ [f])
      | None => Ok (acc ++ [(Unknown 1, Float)])
      end
  end.
Definition field_ids (md : dict (dict txt)) (n : Z) : list (res Z) :=
  map (fun i => do d <- dkey (lit "Fields") md;
                do t <- dkey (lit "Field" ++ fmt_int (i + 1)) d; py_int t) (zseq 0 (Z.to_nat n)).
Definition layout_of (edx : list txt) (ids : list (res Z)) : res (list (field * kind)) :=
  field_loop edx ids false [(Phase8, Byte)].
Definition cpr_layout (md : dict (dict txt)) : res (list (field * kind)) :=
  do edx <- edx_windows md;
  match section_key md "Fields" "Count" with
  | Err KeyError => Err UnboundLocalError
  | Err e => Err e
  | Ok c => do n <- py_int c; layout_of edx (field_ids md n)
  end.

(** ** Binary records: defdap/file_readers.py 523-556 *)

(** A stored value: its bytes.  The value of four bytes as a float32 is not needed. *)
Definition bytes := list Z.
Definition width (k : kind) : nat := match k with Byte => 1 | Float => 4 end.
Definition rec_size (fmt : list (field * kind)) : nat := fold_right (fun f n => (width (snd f) + n)%nat) 0%nat fmt.
Definition record := list (field * bytes).
Fixpoint cut (fmt : list (field * kind)) (b : bytes) : record :=
  match fmt with
  | [] => []
  | (f, k) :: fmt => (f, firstn (width k) b) :: cut fmt (skipn (width k) b)
  end.
(** [np.fromfile(file, dtype, count=-1)]: whole records; a rest shorter than a record
    is dropped. *)
Fixpoint fromfile (n : nat) (fmt : list (field * kind)) (b : bytes) : list record :=
  match n with
  | O => []
  | S n => cut fmt (firstn (rec_size fmt) b) :: fromfile n fmt (skipn (rec_size fmt) b)
  end.
Definition read_records (fmt : list (field * kind)) (b : bytes) : list record :=
  fromfile (List.length b / rec_size fmt) fmt b.

Definition field_eqb (f g : field) : bool :=
  match f, g with
  | Phase8, Phase8 | Ph1, Ph1 | Phi, Phi | Ph2, Ph2 | MAD, MAD | BC, BC | BS, BS
  | NumBands, NumBands | AFI, AFI | IB6, IB6 => true
  | Edx a, Edx b => txt_eqb a b
  | Unknown a, Unknown b => a =? b
  | _, _ => false
  end.
Fixpoint field_of (f : field) (r : record) : res bytes :=
  match r with
  | [] => Err ValueError
  | (g, b) :: r => if field_eqb g f then Ok b else field_of f r
  end.
(** [data[name].reshape(shape)]. *)
Definition crc_map (ny nx : Z) (f : field) (rs : list record) : res (list bytes) :=
  do l <- map_res (field_of f) rs; reshape ny nx l.

(** Two fields of one name are refused by [np.dtype]. *)
Fixpoint fields_distinct (l : list field) : bool :=
  match l with [] => true | f :: l => negb (existsb (field_eqb f) l) && fields_distinct l end.

Record crc := Crc { c_bc : list bytes; c_bs : list bytes; c_mad : list bytes; c_phase : list bytes;
                    c_ph1 : list bytes; c_phi : list bytes; c_ph2 : list bytes }.
(** 507-571, without the EDX maps; a missing field of an empty file, which numpy
    refuses, is accepted here. *)
Definition load_crc (fmt : list (field * kind)) (ny nx : Z) (b : bytes) : res crc :=
  if negb (fields_distinct (map fst fmt)) then Err ValueError
  else
    let rs := read_records fmt b in
    do bc <- crc_map ny nx BC rs; do bs <- crc_map ny nx BS rs; do mad <- crc_map ny nx MAD rs;
    do ph <- crc_map ny nx Phase8 rs;
    do e1 <- crc_map ny nx Ph1 rs; do e2 <- crc_map ny nx Phi rs; do e3 <- crc_map ny nx Ph2 rs;
    Ok (Crc bc bs mad ph e1 e2 e3).

(** ** DIC data *)

(** Flat (C-order) coordinate and displacement arrays with their shape (rows, columns). *)
Record dic_data := DicData {
  d_rows : Z; d_cols : Z; d_x : list R; d_y : list R; d_u : list R; d_v : list R
}.

(** [abs(np.diff(a))]. *)
Fixpoint abs_diffs (l : list R) : list R :=
  match l with a :: ((b :: _) as r) => Rabs (b - a) :: abs_diffs r | _ => [] end.
(** [min] and [max]; an empty sequence is a ValueError. *)
Definition min_of (l : list R) : res R :=
  match l with [] => Err ValueError | a :: l => Ok (fold_left Rmin l a) end.
Definition max_of (l : list R) : res R :=
  match l with [] => Err ValueError | a :: l => Ok (fold_left Rmax l a) end.

(** defdap/file_readers.py 659-682; a zero binning makes the shape nan or infinite,
    which is not the shape of the header. *)
Definition check_data (binning : R) (d : dic_data) : res unit :=
  do bx <- min_of (abs_diffs (d_x d));
  do bby <- max_of (abs_diffs (d_y d));
  if Req_EM_T bx bby then
    if Req_EM_T bby binning then
      do x1 <- max_of (d_x d); do x0 <- min_of (d_x d);
      do y1 <- max_of (d_y d); do y0 <- min_of (d_y d);
      if Req_EM_T binning 0 then Err ValueError
      else if (trunc ((y1 - y0) / binning + 1) =? d_rows d) && (trunc ((x1 - x0) / binning + 1) =? d_cols d)
      then Ok tt else Err ValueError
    else Err ValueError
  else Err ValueError.

(** *** PyVale: defdap/file_readers.py 836-909 *)
Record pv_row := PvRow { pv_x : Z; pv_y : Z; pv_u : R; pv_v : R }.
Fixpoint z_abs_diffs (l : list Z) : list Z :=
  match l with a :: ((b :: _) as r) => Z.abs (b - a) :: z_abs_diffs r | _ => [] end.
Definition z_min_of (l : list Z) : res Z :=
  match l with [] => Err ValueError | a :: l => Ok (fold_left Z.min l a) end.
Definition z_max_of (l : list Z) : res Z :=
  match l with [] => Err ValueError | a :: l => Ok (fold_left Z.max l a) end.

(** [a[i] = v] on a list. *)
Fixpoint set_at {A} (n : nat) (v : A) (l : list A) : list A :=
  match n, l with
  | O, _ :: l => v :: l
  | S n, a :: l => a :: set_at n v l
  | _, [] => []
  end.
(** 895-898: rows are written in order, so the last one of a cell stays. *)
Definition dense (b x0 y0 : Z) (ny nx : Z) (val : pv_row -> R) (rows : list pv_row) : list R :=
  fold_left (fun (a : list R) r => set_at (Z.to_nat ((pv_y r - y0) / b * nx + (pv_x r - x0) / b)) (val r) a)
    rows (repeat 0%R (Z.to_nat (ny * nx))).
(** 901-904. *)
Definition grid_x (b x0 : Z) (ny nx : Z) : list R :=
  map (fun i => IZR (x0 + i mod nx * b)) (zseq 0 (Z.to_nat (ny * nx))).
Definition grid_y (b y0 : Z) (ny nx : Z) : list R :=
  map (fun i => IZR (y0 + i / nx * b)) (zseq 0 (Z.to_nat (ny * nx))).

(** The rows of a file of type 'csv' or 'binary' are given; 877-909.  With a zero
    binning [np.arange] fails. *)
Definition load_pyvale (file_type : txt) (rows : list pv_row) : res (Z * dic_data) :=
  if negb (txt_eqb file_type (lit "csv") || txt_eqb file_type (lit "binary")) then Err ValueError
  else
    do bx <- z_min_of (z_abs_diffs (map pv_x rows));
    do bby <- z_max_of (z_abs_diffs (map pv_y rows));
    if negb (bx =? bby) then Err AssertionError
    else
      let b := bx in
      do x0 <- z_min_of (map pv_x rows); do x1 <- z_max_of (map pv_x rows);
      do y0 <- z_min_of (map pv_y rows); do y1 <- z_max_of (map pv_y rows);
      if b =? 0 then Err ZeroDivisionError
      else if negb (((y1 - y0) mod b =? 0) && ((x1 - x0) mod b =? 0)) then Err AssertionError
      else
        let ny := (y1 - y0) / b + 1 in
        let nx := (x1 - x0) / b + 1 in
        let d := DicData ny nx (grid_x b x0 ny nx) (grid_y b y0 ny nx)
                   (dense b x0 y0 ny nx pv_u rows) (dense b x0 y0 ny nx pv_v rows) in
        do _ <- check_data (IZR b) d;
        Ok (b, d).

(** *** OpenPIV: defdap/file_readers.py 750-833 *)
Record piv_row := PivRow { pw_x : R; pw_y : R; pw_u : R; pw_v : R }.

(** The entries of the first column of a C-order array. *)
Definition first_column (ny nx : Z) (l : list R) : list R :=
  map (fun i => nth (Z.to_nat (i * nx)) l 0%R) (zseq 0 (Z.to_nat ny)).
(** [np.all(np.diff(col)) > 0]: every difference is nonzero, which is compared with 0. *)
Definition all_moving (col : list R) : bool :=
  forallb (fun d => if Req_EM_T d 0 then false else true) (abs_diffs col).
(** [a.reshape(shape)[::-1]]. *)
Definition flip_rows {A} (ny nx : Z) (l : list A) : list A :=
  concat (map (fun i => firstn (Z.to_nat nx) (skipn (Z.to_nat ((ny - 1 - i) * nx)) l)) (zseq 0 (Z.to_nat ny))).

(** 766-798.  A zero binning gives an infinite or undefined shape, refused by
    [reshape].  Without the flip the array is not reshaped, and [check_data] is given
    two of its rows, which have no second axis: a ValueError. *)
Definition load_openpiv_text (rows : list piv_row) : res (Z * dic_data) :=
  do mx <- min_of (abs_diffs (map pw_x rows));
  do my <- max_of (abs_diffs (map pw_y rows));
  let bx := trunc mx in let bby := trunc my in
  if negb (bx =? bby) then Err AssertionError
  else
    do x1 <- max_of (map pw_x rows); do y1 <- max_of (map pw_y rows);
    if bx =? 0 then Err ValueError
    else
      let ny := trunc ((y1 + IZR bx / 2) / IZR bx) in
      let nx := trunc ((x1 + IZR bx / 2) / IZR bx) in
      do _ <- reshape ny nx rows;
      if all_moving (first_column ny nx (map pw_y rows)) then
        let rs := flip_rows ny nx rows in
        let d := DicData ny nx (map pw_x rs) (map pw_y rs) (map pw_u rs) (map pw_v rs) in
        do _ <- check_data (IZR bx) d;
        Ok (bx, d)
      else Err ValueError.

(** 800-833: the arrays of the file have the shape of [d]. *)
Definition load_openpiv_binary (binning : R) (d : dic_data) : res dic_data :=
  let ny := d_rows d in let nx := d_cols d in
  let d' :=
    if all_moving (first_column ny nx (d_y d)) then
      DicData ny nx (flip_rows ny nx (d_x d)) (flip_rows ny nx (d_y d))
        (flip_rows ny nx (d_u d)) (flip_rows ny nx (d_v d))
    else d in
  do _ <- check_data binning d'; Ok d'.

(** *** Davis: defdap/file_readers.py 689-724 *)

(** Header fields of 702-712: format, version, binning, rows, columns. *)
Fixpoint strip_char (c : ascii) (t : txt) : txt :=
  match t with a :: r => if Ascii.eqb a c then strip_char c r else t | [] => [] end.
Definition davis_header (line : txt) : res (txt * txt * Z * Z * Z) :=
  let w := words line in
  do f <- item w 0; do v <- item w 1;
  do b <- item w 3; do b <- py_int b;
  do r <- item w 4; do r <- py_int r;
  do c <- item w 5; do c <- py_int c;
  Ok (rev (strip_char "#" (rev (strip_char "#" f))), v, b, r, c).
(** 716-724, with the table given as its rows of four numbers. *)
Definition load_davis (header : txt) (rows : list piv_row) : res (Z * dic_data) :=
  do h <- davis_header header;
  let '(_, _, b, ny, nx) := h in
  do _ <- reshape ny nx rows;
  let d := DicData ny nx (map pw_x rows) (map pw_y rows) (map pw_u rows) (map pw_v rows) in
  do _ <- check_data (IZR b) d;
  Ok (b, d).
