(** What the files of an Oxford scan say, and what the loaded map has to show. *)
From Coq Require Import String Ascii Reals.
From Coq Require Import List ZArith Bool.
From Flocq Require Import IEEE754.BinarySingleNaN IEEE754.Binary IEEE754.Bits.
From Verif Require Import Py Grid Quat_Model Quat_Spec Crystal_Model Text_Model Ctf_Model Ctf_Spec Io_Model Io_Spec Cpr_Model.
Import ListNotations.
Open Scope Z_scope.

(** A decimal number: [num] with the point [places] digits from its end. *)
Record dec := Dec { num : Z; places : nat }.
Definition dec_value (d : dec) : R := (IZR (num d) / 10 ^ places d)%R.
Definition dec_text (d : dec) : txt :=
  match places d with
  | O => fmt_int (num d)
  | S _ =>
      let p := 10 ^ Z.of_nat (places d) in
      (if num d <? 0 then ["-"%char] else []) ++ fmt_nat (Z.abs (num d) / p) ++ ["."%char] ++ low_digits (places d) (Z.abs (num d) mod p)
  end.

Record scan_phase := ScanPhase {
  sp_name : txt; sp_laue : Z; sp_space : option Z; sp_lengths : dec * dec * dec; sp_angles : dec * dec * dec
}.
(** A scan: its size, step, phases and acquisition angles (degrees); names of EDX windows; the ids of
    the fields of a record in order; and for each pixel its phase and the value of each field, a byte
    or a number in single precision. *)
Record scan := Scan {
  sc_rows : Z; sc_cols : Z; sc_step : dec; sc_acq : dec * dec * dec; sc_phases : list scan_phase;
  sc_windows : list txt; sc_fields : list Z;
  sc_phase : pix -> Z; sc_byte : Z -> pix -> Z; sc_float : Z -> pix -> binary32
}.

(** The header says this: values of keys, in sections in any order and among any others. *)
Definition says_phase (secs : list cpr_section) (i : Z) (p : scan_phase) : Prop :=
  let at_ key t := spec_value secs (lit "Phase" ++ fmt_int i) (lit key) = Some t in
  at_ "StructureName"%string (sp_name p) /\ at_ "LaueGroup"%string (fmt_int (sp_laue p)) /\
  spec_value secs (lit "Phase" ++ fmt_int i) (lit "SpaceGroup") = option_map fmt_int (sp_space p) /\
  (let '(a, b, c) := sp_lengths p in at_ "a"%string (dec_text a) /\ at_ "b"%string (dec_text b) /\ at_ "c"%string (dec_text c)) /\
  (let '(a, b, c) := sp_angles p in at_ "alpha"%string (dec_text a) /\ at_ "beta"%string (dec_text b) /\ at_ "gamma"%string (dec_text c)).
Definition says (secs : list cpr_section) (s : scan) : Prop :=
  let at_ sec key t := spec_value secs (lit sec) (lit key) = Some t in
  at_ "Job"%string "xCells"%string (fmt_int (sc_cols s)) /\ at_ "Job"%string "yCells"%string (fmt_int (sc_rows s)) /\
  at_ "Job"%string "GridDistX"%string (dec_text (sc_step s)) /\
  (let '(a, b, c) := sc_acq s in
   at_ "Acquisition Surface"%string "Euler1"%string (dec_text a) /\ at_ "Acquisition Surface"%string "Euler2"%string (dec_text b) /\
   at_ "Acquisition Surface"%string "Euler3"%string (dec_text c)) /\
  at_ "Phases"%string "Count"%string (fmt_int (Z.of_nat (List.length (sc_phases s)))) /\
  (forall i p, nth_error (sc_phases s) i = Some p -> says_phase secs (Z.of_nat i + 1) p) /\
  (sc_windows s = [] /\ spec_section secs (lit "EDX Windows") = None \/
   at_ "EDX Windows"%string "Count"%string (fmt_int (Z.of_nat (List.length (sc_windows s)))) /\
   forall i t, nth_error (sc_windows s) i = Some t -> spec_value secs (lit "EDX Windows") (lit "Window" ++ fmt_int (Z.of_nat i + 1)) = Some t) /\
  at_ "Fields"%string "Count"%string (fmt_int (Z.of_nat (List.length (sc_fields s)))) /\
  (forall i id, nth_error (sc_fields s) i = Some id -> spec_value secs (lit "Fields") (lit "Field" ++ fmt_int (Z.of_nat i + 1)) = Some (fmt_int id)).

(** The bytes of a number, least first; of a pixel; of all pixels, row by row. *)
Fixpoint le_bytes (n : nat) (z : Z) : bytes := match n with O => [] | S n => z mod 256 :: le_bytes n (z / 256) end.
Definition field_bytes (s : scan) (p : pix) (id : Z) : bytes :=
  if (id_width id =? 1)%nat then [sc_byte s id p] else le_bytes 4 (bits_of_b32 (sc_float s id p)).
Definition pixel_record (s : scan) (p : pix) : list bytes := [sc_phase s p] :: map (field_bytes s p) (sc_fields s).
Definition scan_bytes (s : scan) : bytes := crc_bytes (map (pixel_record s) (all_pix (sc_cols s) (sc_rows s))).
(** As characters of a file. *)
Definition byte_text (b : bytes) : txt := map (fun z => ascii_of_nat (Z.to_nat z)) b.

(** Scans that can be loaded: the fields used are there, once each, and all are known; windows have
    different names; bytes are bytes; each phase is cubic, or hexagonal with lengths between 0.001 and
    100000. *)
Definition loadable_phase (p : scan_phase) : Prop :=
  sp_laue p = 11 \/
  sp_laue p = 9 /\ let '(a, _, c) := sp_lengths p in (/ 1000 <= dec_value a /\ / 1000 <= dec_value c /\ dec_value a <= 10 ^ 5)%R.
Definition loadable (s : scan) : Prop :=
  0 <= sc_rows s /\ 0 <= sc_cols s /\ (forall p, In p (sc_phases s) -> loadable_phase p) /\
  NoDup (sc_windows s) /\ NoDup (sc_fields s) /\ (forall id, In id (sc_fields s) -> known_id (sc_windows s) id) /\
  (forall id, In id [3; 4; 5; 6; 7; 8] -> In id (sc_fields s)) /\
  (forall p, inside (sc_cols s) (sc_rows s) p -> 0 <= sc_phase s p <= 255 /\ forall id, In id [7; 8; 10; 11] -> 0 <= sc_byte s id p <= 255).

(** What is loaded. *)
Definition shows_phase (conv : string) (p : scan_phase) (o : phase_out) : Prop :=
  po_name o = sp_name p /\ ph_laue (po_phase o) = sp_laue p /\
  ph_space (po_phase o) = match sp_space p with Some z => z | None => 0 end /\
  exists a b c al be ga, po_lattice o = [a; b; c; al * PI / 180; be * PI / 180; ga * PI / 180]%R /\
    (let '(x, y, z) := sp_lengths p in rounded 3 (dec_value x) a /\ rounded 3 (dec_value y) b /\ rounded 3 (dec_value z) c) /\
    (let '(x, y, z) := sp_angles p in rounded 3 (dec_value x) al /\ rounded 3 (dec_value y) be /\ rounded 3 (dec_value z) ga) /\
    mk_phase conv (sp_laue p) (match sp_space p with Some z => z | None => 0 end) a c = Ok (po_phase o).
Notation single x := (B2BSN 24 128 x).
Definition shows (conv : string) (s : scan) (m : binary_map) : Prop :=
  bm_shape m = (sc_rows s, sc_cols s) /\ bm_step m = dec_value (sc_step s) /\
  (let '(a, b, c) := sc_acq s in unitq (bm_acq m) /\
   rot_matrix (bm_acq m) = bunge (dec_value a * PI / 180) (dec_value b * PI / 180) (dec_value c * PI / 180)) /\
  Forall2 (shows_phase conv) (sc_phases s) (bm_phases m) /\
  (forall x y, 0 <= x < sc_cols s -> 0 <= y < sc_rows s ->
     let at_ {A} (l : list A) := at_pixel l (sc_cols s) x y in let p := (x, y) in
     at_ (bm_phase m) = Some (sc_phase s p) /\ at_ (bm_bc m) = Some (sc_byte s 7 p) /\ at_ (bm_bs m) = Some (sc_byte s 8 p) /\
     at_ (bm_mad m) = Some (single (sc_float s 6 p)) /\
     at_ (bm_euler m) = Some (single (sc_float s 3 p), single (sc_float s 4 p), single (sc_float s 5 p))) /\
  (** EDX maps of the windows that are fields, in their order. *)
  Forall2 (fun id e => nth_error (sc_windows s) (Z.to_nat (id - 101)) = Some (fst e) /\
             forall x y, 0 <= x < sc_cols s -> 0 <= y < sc_rows s ->
               at_pixel (snd e) (sc_cols s) x y = Some (single (sc_float s id (x, y))))
    (filter (fun id => 101 <=? id) (sc_fields s)) (bm_edx m).

(** A file name without a point after its first character, in any directory. *)
Definition plain_path (path : txt) : Prop :=
  exists d a n, path = d ++ a :: n /\ (d = [] \/ exists d', d = d' ++ ["/"%char]) /\ a <> "/"%char /\ ~ In "/"%char n /\ ~ In "."%char n.
