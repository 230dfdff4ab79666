(** Loading a pair of Oxford binary files, .cpr and .crc, and choosing a loader from the path:
    defdap/file_readers.py 59-78, 380-571 and defdap/base.py 86-87. *)
From Coq Require Import String Ascii Reals.
From Coq Require Import List ZArith Bool.
From Flocq Require Import IEEE754.BinarySingleNaN IEEE754.Binary IEEE754.Bits.
From Verif Require Import Py Quat_Model Base_Model Crystal_Model Text_Model Ctf_Model Io_Model Ang_Model.
Import ListNotations.
Open Scope Z_scope.

(** ** Paths *)

(** [pathlib.Path]: the last part of a path, and what is before it.  Paths are as pathlib writes
    them, without '.' parts and without '/' at the end. *)
Definition parent_name (path : txt) : txt * txt :=
  match before_last "/" path with
  | Some d => (d ++ ["/"%char], skipn (S (List.length d)) path)
  | None => ([], path)
  end.
(** [Path.stem] and [Path.suffix]: the name is cut at its last point, if that is neither its first
    nor its last character. *)
Definition stem_suffix (name : txt) : txt * txt :=
  match before_last "." name with
  | Some (a :: s) =>
      let suf := skipn (List.length (a :: s)) name in
      if (List.length suf <=? 1)%nat then (name, []) else (a :: s, suf)
  | _ => (name, [])
  end.
Definition suffix_of (path : txt) : txt := snd (stem_suffix (snd (parent_name path))).
(** [Path.with_suffix]; an empty name is a ValueError. *)
Definition with_suffix (path suf : txt) : res txt :=
  let '(d, name) := parent_name path in
  match name with [] => Err ValueError | _ => Ok (d ++ fst (stem_suffix name) ++ suf) end.

(** ** The header: 440-505 *)
Record cpr_meta := CprMeta {
  cm_rows : Z; cm_cols : Z; cm_step : R; cm_acq : quat; cm_phases : list phase_out;
  cm_layout : list (field * kind)
}.
Definition float_key (md : dict (dict txt)) (sec key : string) : res R :=
  do t <- section_key md sec key; py_float t.
Definition int_key (md : dict (dict txt)) (sec key : string) : res Z :=
  do t <- section_key md sec key; py_int t.
(** 440-505; 479 holds by construction, and two fields of one name are refused by 505. *)
Definition load_cpr (conv : string) (ls : list txt) : res cpr_meta :=
  do md <- read_cpr ls;
  do nx <- int_key md "Job" "xCells";
  do ny <- int_key md "Job" "yCells";
  do step <- float_key md "Job" "GridDistX";
  do e1 <- float_key md "Acquisition Surface" "Euler1";
  do e2 <- float_key md "Acquisition Surface" "Euler2";
  do e3 <- float_key md "Acquisition Surface" "Euler3";
  let acq := from_euler_angles (e1 * PI / 180) (e2 * PI / 180) (e3 * PI / 180) in
  do n <- int_key md "Phases" "Count";
  do phases <- map_res (cpr_phase conv md) (zseq 0 (Z.to_nat n));
  do fmt <- cpr_layout md;
  if negb (fields_distinct (map fst fmt)) then Err ValueError
  else Ok (CprMeta ny nx step acq phases fmt).

(** ** The data: 507-571 *)

(** A number of a record: little endian, unsigned or IEEE single precision. *)
Definition le_value (b : bytes) : Z := fold_right (fun x n => x + 256 * n) 0 b.
Definition le_float (b : bytes) : BinarySingleNaN.binary_float 24 128 := B2BSN 24 128 (b32_of_bits (le_value b)).

(** The loaded map; arrays are listed in C order, EDX maps by the name of their window. *)
Record binary_map := BinaryMap {
  bm_shape : Z * Z; bm_step : R; bm_acq : quat; bm_phases : list phase_out;
  bm_bc : list Z; bm_bs : list Z; bm_phase : list Z;
  bm_mad : list (BinarySingleNaN.binary_float 24 128);
  bm_euler : list (BinarySingleNaN.binary_float 24 128 * BinarySingleNaN.binary_float 24 128 * BinarySingleNaN.binary_float 24 128);
  bm_edx : list (txt * list (BinarySingleNaN.binary_float 24 128))
}.
Fixpoint triples {A} (a b c : list A) : list (A * A * A) :=
  match a, b, c with x :: a, y :: b, z :: c => (x, y, z) :: triples a b c | _, _, _ => [] end.
(** 558-569: the fields whose name starts with 'EDX'; without windows there are none. *)
Definition edx_fields (fmt : list (field * kind)) : list txt :=
  flat_map (fun f => match fst f with Edx t => [t] | _ => [] end) fmt.
Definition load_data (m : cpr_meta) (b : bytes) : res binary_map :=
  let fmt := cm_layout m in let ny := cm_rows m in let nx := cm_cols m in
  do c <- load_crc fmt ny nx b;
  let rs := read_records fmt b in
  do edx <- map_res (fun t => do l <- crc_map ny nx (Edx t) rs; Ok (t, map le_float l)) (edx_fields fmt);
  Ok (BinaryMap (ny, nx) (cm_step m) (cm_acq m) (cm_phases m)
        (map le_value (c_bc c)) (map le_value (c_bs c)) (map le_value (c_phase c)) (map le_float (c_mad c))
        (triples (map le_float (c_ph1 c)) (map le_float (c_phi c)) (map le_float (c_ph2 c))) edx).

(** 380-390, 405-407, 516-520.  A file is its characters; the binary one is read as bytes. *)
Definition load_pair (conv : string) (fs : files) (path : txt) : res binary_map :=
  do p <- with_suffix path (lit ".cpr");
  match fs p with
  | None => Err FileNotFoundError
  | Some t =>
      do m <- load_cpr conv (lines_of t);
      do p <- with_suffix path (lit ".crc");
      match fs p with
      | None => Err FileNotFoundError
      | Some b => load_data m (map code b)
      end
  end.

(** ** A path and a data type: defdap/ebsd.py 150-163; [old] see Ang_Model.  A path cannot be indexed
    like a dictionary. *)
Inductive any_map := TextMap (l : loaded) | AngMap (g : ang) | BinMap (b : binary_map).
Definition load_file (old : bool) (conv : string) (data_type : option txt) (fs : files) (path : txt) : res any_map :=
  do k <- ebsd_get_loader data_type (suffix_of path);
  match k with
  | OxfordBinary => do b <- load_pair conv fs path; Ok (BinMap b)
  | OxfordText => do l <- ctf_load conv fs path; Ok (TextMap l)
  | EdaxAng => do g <- ang_load old conv fs path; Ok (AngMap g)
  | PythonDict => Err TypeError
  end.
