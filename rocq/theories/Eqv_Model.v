(** Equivalent indices, their texts, and labels of pole plots: defdap/crystal_utils.py
    174-246, 372-412, defdap/plotting.py 1095-1142, defdap/crystal.py 281-311. *)
From Coq Require Import String Ascii Reals ZArith Bool.
From Coq Require Import List.
From Verif Require Import Py Base_Model Quat_Model Crystal_Model Pole_Model Text_Model.
Import ListNotations.

(** One pass of the loop 220-244; [lq] are the matrices of hexagonal crystals.  What is cast
    at the end is what [reduce_idc] gave, or the vector itself. *)
Definition equivalent_plane (hex : bool) (lq : mat3 * mat3) (plane : vec3) (symm : quat) : res (list Z) :=
  let plane_symm := north (transform_vector symm plane) in
  do p <- (if hex then
             do pz <- safe_int_cast (FltArr (list_of (matmul (mT (fst lq)) plane_symm)));
             do pm <- convert_idc "m" None (Some (IntArr pz));
             do p <- reduce_idc pm;
             Ok (IntArr p)
           else Ok (FltArr (list_of plane_symm)));
  safe_int_cast p.
Definition equivalent_dir (hex : bool) (lq : mat3 * mat3) (dir : vec3) (symm : quat) : res (list Z) :=
  let dir_symm := north (transform_vector symm dir) in
  do d <- (if hex then
             do dz <- safe_int_cast (FltArr (list_of (matmul (mT (snd lq)) dir_symm)));
             do dm <- convert_idc "m" (Some (IntArr dz)) None;
             do d <- reduce_idc dm;
             Ok (IntArr d)
           else Ok (FltArr (list_of dir_symm)));
  safe_int_cast d.

(** 174-246 [equavlent_indicies]; [conv] is the configured convention.  A missing [c_over_a]
    cannot be multiplied. *)
Definition equivalents (conv crystal : string) (syms : list quat) (dir plane : option arr)
    (c_over_a : option R) (in_type : option string) : res (list (list Z)) :=
  let hex := String.eqb crystal "hexagonal" in
  let in_type := match in_type with Some t => t | None => if hex then "mb"%string else "m"%string end in
  match dir, plane with
  | None, None | Some _, Some _ => Err ValueError
  | None, Some plane =>
      do plane <- (if String.eqb in_type "mb" then convert_idc "mb" None (Some plane)
                   else if String.eqb in_type "m" then Ok plane else Err ValueError);
      do v <- vec_of (arr_R plane);
      if hex then
        match c_over_a with
        | None => Err TypeError
        | Some ca => do lq <- hex_matrices ca conv; map_res (equivalent_plane true lq (matmul (snd lq) v)) syms
        end
      else let zero := V3 0 0 0 in map_res (equivalent_plane false (M3 zero zero zero, M3 zero zero zero) v) syms
  | Some dir, None =>
      do dir <- (if String.eqb in_type "mb" then convert_idc "mb" (Some dir) None
                 else if String.eqb in_type "m" then Ok dir else Err ValueError);
      do v <- vec_of (arr_R dir);
      if hex then
        match c_over_a with
        | None => Err TypeError
        | Some ca => do lq <- hex_matrices ca conv; map_res (equivalent_dir true lq (matmul (fst lq) v)) syms
        end
      else let zero := V3 0 0 0 in map_res (equivalent_dir false (M3 zero zero zero, M3 zero zero zero) v) syms
  end.

(** ** Texts *)
(** Characters: those of ASCII and the combining overline U+0305. *)
Inductive glyph := Plain (a : ascii) | Overline.
Definition plain (t : txt) : list glyph := map Plain t.
(** 394-412 on an integer (the int8 value -128, which has no negative, is not wrapped). *)
Definition str_idx (str_type : string) (idx : Z) : list glyph :=
  let '(pre, post) := if String.eqb str_type "tex" then (plain (lit "$\bar{"), plain (lit "}$")) else ([], [Overline]) in
  if (0 <=? idx)%Z then plain (fmt_int idx) else pre ++ plain (fmt_int (- idx)) ++ post.
(** 372-391; floats are no indices. *)
Definition idc_to_string (idc : arr) (brackets : option txt) (str_type : string) : res (list glyph) :=
  do text <- match idc with
             | IntArr l => Ok (concat (map (str_idx str_type) l))
             | FltArr [] => Ok []
             | FltArr _ => Err ValueError
             end;
  match brackets with
  | None => Ok text
  | Some (a :: b :: _) => Ok ([Plain a] ++ text ++ [Plain b])
  | Some _ => Err IndexError
  end.
(** defdap/crystal.py 281-311 *)
Definition slip_plane_label (s : slip_system) : res (list glyph) := idc_to_string (IntArr (plane_idc s)) (Some (lit "()")) "unicode".
Definition slip_dir_label (s : slip_system) : res (list glyph) := idc_to_string (IntArr (dir_idc s)) (Some (lit "[]")) "unicode".
Definition ss_text (s : slip_system) : res (list glyph) :=
  do p <- slip_plane_label s; do d <- slip_dir_label s; Ok (p ++ d).

(** ** Labels *)
(** defdap/plotting.py 1095-1142: the directions at which the texts are put, before they are
    projected and moved by the pads. *)
Definition label_point (conv crystal : string) (point : list Z) (label : option (list glyph)) (plot_syms : bool)
    : res (list (vec3 * list glyph)) :=
  let hex := String.eqb crystal "hexagonal" in
  let ca := (8165 / 10000)%R in
  do labels <- match label with None => do t <- idc_to_string (IntArr point) None "tex"; Ok [t] | Some t => Ok [t] end;
  do p <- (if hex then project_to_orth ca (Some (IntArr point)) None "mb" conv else vec_of (map IZR point));
  if plot_syms then
    do labels <- match label with
                 | None =>
                     do e <- equivalents conv crystal (sym_eqv crystal) (Some (IntArr point)) None (Some ca) None;
                     map_res (fun m => idc_to_string (IntArr m) None "tex") e
                 | Some t => Ok (repeat t (List.length (sym_eqv crystal)))
                 end;
    Ok (combine (p :: map (fun symm => north (transform_vector symm p)) (tl (sym_eqv crystal))) labels)
  else Ok (combine [p] labels).
