(** Specification vocabulary for the file readers. *)
From Coq Require Import String Ascii Reals.
From Coq Require Import List ZArith Bool.
Import ListNotations.
From Verif Require Import Py Text_Model Ctf_Spec Io_Model.
Open Scope Z_scope.

(** ** C58 *)

(** The line ends the reading. *)
Definition stops (term : txt) (exact : bool) (line : txt) : Prop :=
  if exact then strip line = term else exists r, strip line = term ++ r.
(** Blank and comment lines. *)
Definition ignored (comment : ascii) (line : txt) : Prop :=
  strip line = [] \/ exists r, strip line = comment :: r.
(** [kept_lines c ls ks]: [ks] are the lines of [ls] that are not ignored, in order. *)
Inductive kept_lines (comment : ascii) : list txt -> list txt -> Prop :=
| kept_nil : kept_lines comment [] []
| kept_skip : forall l ls ks, ignored comment l -> kept_lines comment ls ks -> kept_lines comment (l :: ls) ks
| kept_take : forall l ls ks, ~ ignored comment l -> kept_lines comment ls ks -> kept_lines comment (l :: ls) (l :: ks).

(** Processing lines one after another; the state is what [process] keeps outside. *)
Fixpoint process_all {V A} (process : V -> txt -> res (V * A)) (v : V) (ks : list txt) : res (V * list A) :=
  match ks with
  | [] => Ok (v, [])
  | k :: ks =>
      match process v k with
      | Err e => Err e
      | Ok (v', a) => match process_all process v' ks with Err e => Err e | Ok (v'', l) => Ok (v'', a :: l) end
      end
  end.

(** ** C60 *)

(** A line of a section: an entry, or a blank or comment line. *)
Inductive cpr_item := Entry (k v : txt) | Note (t : txt).
Definition item_line (i : cpr_item) : txt := match i with Entry k v => k ++ "="%char :: v | Note t => t end.
Record cpr_section := Section_ { sec_name : txt; sec_items : list cpr_item }.
Definition section_lines (s : cpr_section) : list txt :=
  ("["%char :: sec_name s ++ ["]"%char]) :: map item_line (sec_items s).
Definition cpr_lines (notes : list txt) (secs : list cpr_section) : list txt :=
  notes ++ concat (map section_lines secs).

(** Entries without '=' inside key or value, not looking like a section or a
    comment, without white space at the ends of the line. *)
Definition good_item (i : cpr_item) : Prop :=
  match i with
  | Entry k v =>
      ~ In "="%char k /\ ~ In "="%char v /\
      (forall a r, k = a :: r -> is_ws a = false /\ a <> "["%char /\ a <> ";"%char) /\
      (forall a r, v = r ++ [a] -> is_ws a = false)
  | Note t => ignored ";" t
  end.
Definition good_section (s : cpr_section) : Prop :=
  sec_name s <> [] /\ forall i, In i (sec_items s) -> good_item i.

(** The value of a key in a section: the last entry with the key, of the last section
    with the name. *)
Definition spec_entry (key : txt) (items : list cpr_item) : option txt :=
  match find (fun i => match i with Entry k _ => txt_eqb k key | Note _ => false end) (rev items) with
  | Some (Entry _ v) => Some v
  | _ => None
  end.
Definition spec_section (secs : list cpr_section) (name : txt) : option (list cpr_item) :=
  option_map sec_items (find (fun s => txt_eqb (sec_name s) name) (rev secs)).
Definition spec_value (secs : list cpr_section) (name key : txt) : option txt :=
  match spec_section secs name with Some items => spec_entry key items | None => None end.

(** ** C59 *)

(** The ids of the documented fields and of the EDX windows. *)
Definition known_id (edx : list txt) (id : Z) : Prop :=
  In id [3; 4; 5; 6; 7; 8; 10; 11; 12] \/ 101 <= id <= 100 + Z.of_nat (List.length edx).
(** Bytes of a field: one for band contrast and slope, number of bands and fit index,
    four otherwise. *)
Definition id_width (id : Z) : nat := if existsb (Z.eqb id) [7; 8; 10; 11] then 1%nat else 4%nat.
(** A record of a file with these field ids: a phase byte, then the fields. *)
Definition record_of (ids : list Z) (r : list bytes) : Prop :=
  map (@List.length Z) r = 1%nat :: map id_width ids.
(** The file: all records one after another. *)
Definition crc_bytes (rs : list (list bytes)) : bytes := concat (map (@concat Z) rs).
(** The stored value of field [id] at a pixel. *)
Definition stored (ids : list Z) (rs : list (list bytes)) (nx x y : Z) (id : Z) (b : bytes) : Prop :=
  exists j r, nth_error ids j = Some id /\ at_pixel rs nx x y = Some r /\ nth_error r (S j) = Some b.

(** ** C61, C62 *)

Definition least (l : list R) (m : R) : Prop := In m l /\ forall x, In x l -> (m <= x)%R.
Definition largest (l : list R) (m : R) : Prop := In m l /\ forall x, In x l -> (x <= m)%R.
(** [step l d]: [d] is the distance of two neighbouring entries. *)
Definition steps (l : list R) (ds : list R) : Prop :=
  List.length ds = pred (List.length l) /\
  forall i a b, nth_error l i = Some a -> nth_error l (S i) = Some b -> nth_error ds i = Some (Rabs (b - a)).

(** A measurement grid: coordinates start at (x0, y0) and grow by [b] along the
    columns and down the rows. *)
Definition on_grid_map (b x0 y0 : R) (d : dic_data) : Prop :=
  Z.of_nat (List.length (d_x d)) = d_rows d * d_cols d /\
  Z.of_nat (List.length (d_y d)) = d_rows d * d_cols d /\
  forall x y, 0 <= x < d_cols d -> 0 <= y < d_rows d ->
    at_pixel (d_x d) (d_cols d) x y = Some (x0 + IZR x * b)%R /\
    at_pixel (d_y d) (d_cols d) x y = Some (y0 + IZR y * b)%R.

(** The value at a pixel belongs to the coordinates shown there. *)
Definition measured (d : dic_data) (x y u v : R) : Prop :=
  exists c r, 0 <= c < d_cols d /\ 0 <= r < d_rows d /\
    at_pixel (d_x d) (d_cols d) c r = Some x /\ at_pixel (d_y d) (d_cols d) c r = Some y /\
    at_pixel (d_u d) (d_cols d) c r = Some u /\ at_pixel (d_v d) (d_cols d) c r = Some v.

(** The extent of the values in steps of [b] is [n] positions. *)
Definition span_fits (b : R) (n : Z) (l : list R) : Prop :=
  exists lo hi, least l lo /\ largest l hi /\ (IZR n <= (hi - lo) / b + 1 < IZR n + 1)%R.

(** Rows from top to bottom at [y0 + r b], or from bottom to top. *)
Definition y_at (down : bool) (b y0 : R) (ny r : Z) : R :=
  (y0 + IZR (if down then r else ny - 1 - r)%Z * b)%R.
Definition raster_map (down : bool) (b x0 y0 : R) (d : dic_data) : Prop :=
  Z.of_nat (List.length (d_x d)) = d_rows d * d_cols d /\
  Z.of_nat (List.length (d_y d)) = d_rows d * d_cols d /\
  forall c r, 0 <= c < d_cols d -> 0 <= r < d_rows d ->
    at_pixel (d_x d) (d_cols d) c r = Some (x0 + IZR c * b)%R /\
    at_pixel (d_y d) (d_cols d) c r = Some (y_at down b y0 (d_rows d) r).

(** A row in the cell of pixel (c, r). *)
Definition in_cell (b x0 y0 c r : Z) (w : pv_row) : Prop :=
  x0 + c * b <= pv_x w < x0 + (c + 1) * b /\ y0 + r * b <= pv_y w < y0 + (r + 1) * b.

(** The rectangle around the rows. *)
Definition extent (rows : list pv_row) (x0 x1 y0 y1 : Z) : Prop :=
  (forall w, In w rows -> x0 <= pv_x w <= x1 /\ y0 <= pv_y w <= y1) /\
  (exists w, In w rows /\ pv_x w = x0) /\ (exists w, In w rows /\ pv_x w = x1) /\
  (exists w, In w rows /\ pv_y w = y0) /\ (exists w, In w rows /\ pv_y w = y1).
(** One row for every grid position, row by row. *)
Definition raster_rows (b x0 y0 nx ny : Z) (rows : list pv_row) : Prop :=
  Z.of_nat (List.length rows) = ny * nx /\
  forall c r, 0 <= c < nx -> 0 <= r < ny -> exists w, at_pixel rows nx c r = Some w /\ pv_x w = x0 + c * b /\ pv_y w = y0 + r * b.
(** A file with one row of values for every grid position, rows of constant y. *)
Definition raster_file (down : bool) (b x0 y0 : R) (nx ny : Z) (rows : list piv_row) : Prop :=
  Z.of_nat (List.length rows) = ny * nx /\
  forall c r, 0 <= c < nx -> 0 <= r < ny -> exists w, at_pixel rows nx c r = Some w /\
    pw_x w = (x0 + IZR c * b)%R /\ pw_y w = y_at down b y0 ny r.

(** Arrays of the stated shape. *)
Definition whole (d : dic_data) : Prop :=
  0 <= d_rows d /\ 0 < d_cols d /\
  Z.of_nat (List.length (d_x d)) = d_rows d * d_cols d /\ Z.of_nat (List.length (d_y d)) = d_rows d * d_cols d /\
  Z.of_nat (List.length (d_u d)) = d_rows d * d_cols d /\ Z.of_nat (List.length (d_v d)) = d_rows d * d_cols d.
(** No two neighbouring rows start with the same y. *)
Definition y_moves (d : dic_data) : Prop :=
  forall r, 0 <= r -> r + 1 < d_rows d -> at_pixel (d_y d) (d_cols d) 0 r <> at_pixel (d_y d) (d_cols d) 0 (r + 1).
