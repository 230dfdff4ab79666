(** The inspector's file of lines and groups: Python's text of the lists and its
    reading by [ast.literal_eval]. *)
From Coq Require Import String Ascii Reals.
From Coq Require Import List ZArith Bool.
Import ListNotations.
From Verif Require Import Py Grid Boundary_Model Base_Model Text_Model Insp_Model.
Open Scope Z_scope.

(** A float as the decimal number its [repr] shows: sign, digits as a natural number and
    power of ten; what [float()] of that text gives back is the same float, so floats are
    identified with these. *)
Record flt := mkFlt { f_neg : bool; f_man : Z; f_exp : Z }.

(** The objects found in [points_list] and [groups_list]. *)
Inductive val :=
| VInt (n : Z)           (** int *)
| VFlt (f : flt)         (** float *)
| VNan                   (** float nan *)
| VNpInt (n : Z)         (** numpy.int64 *)
| VNpFlt (f : flt)       (** numpy.float64 *)
| VNpNan                 (** numpy.float64 nan *)
| VList (l : list val).  (** list *)

(** ** Printing *)

Definition zeros (n : Z) : txt := repeat "0"%char (Z.to_nat n).
(** At least two digits of an exponent. *)
Definition fmt_exp (n : Z) : txt :=
  (if n <? 0 then "-"%char else "+"%char) :: (if Z.abs n <? 10 then ["0"%char] else []) ++ fmt_nat (Z.abs n).

(** [repr] of a float (CPython's float_repr_style 'short', format code 'r'): positional
    if the decimal point is between 4 places before and 16 after the first digit, with
    ".0" added to whole numbers, otherwise with an exponent. *)
Definition fmt_flt (f : flt) : txt :=
  let ds := fmt_nat (f_man f) in
  let k := Z.of_nat (List.length ds) in
  let pt := f_exp f + k in
  (if f_neg f then ["-"%char] else []) ++
  if (f_man f =? 0) || ((-4 <? pt) && (pt <=? 16)) then
    if pt <=? 0 then ["0"; "."]%char ++ zeros (- pt) ++ ds
    else if pt <? k then firstn (Z.to_nat pt) ds ++ "."%char :: skipn (Z.to_nat pt) ds
    else ds ++ zeros (pt - k) ++ ["."; "0"]%char
  else
    match ds with
    | d :: [] => [d] ++ "e"%char :: fmt_exp (pt - 1)
    | d :: r => d :: "."%char :: r ++ "e"%char :: fmt_exp (pt - 1)
    | [] => []
    end.

Fixpoint join_with (sep : txt) (l : list txt) : txt :=
  match l with [] => [] | [a] => a | a :: r => a ++ sep ++ join_with sep r end.

(** [repr]; with numpy 2 ([np2]) a numpy scalar shows its type. *)
Fixpoint repr (np2 : bool) (v : val) : txt :=
  match v with
  | VInt n => fmt_int n
  | VFlt f => fmt_flt f
  | VNan => lit "nan"
  | VNpInt n => if np2 then lit "np.int64(" ++ fmt_int n ++ lit ")" else fmt_int n
  | VNpFlt f => if np2 then lit "np.float64(" ++ fmt_flt f ++ lit ")" else fmt_flt f
  | VNpNan => if np2 then lit "np.float64(nan)" else lit "nan"
  | VList l => lit "[" ++ join_with (lit ", ") (map (repr np2) l) ++ lit "]"
  end.

(** ** Reading: [ast.literal_eval] of lists, signed integers and floats *)

Definition digitb (a : ascii) : bool := match digit_val a with Some _ => true | None => false end.
(** The longest part of digits at the start, and the rest. *)
Fixpoint span_digits (t : txt) : txt * txt :=
  match t with
  | a :: r => if digitb a then let '(d, s) := span_digits r in (a :: d, s) else ([], t)
  | [] => ([], [])
  end.
(** Spaces and tabs between tokens. *)
Fixpoint blanks (t : txt) : txt :=
  match t with a :: r => if Ascii.eqb a " " || Ascii.eqb a TAB then blanks r else t | [] => [] end.

(** The number with digits [m] without trailing zeros; [k] bounds their number. *)
Fixpoint trim (k : nat) (m e : Z) : Z * Z :=
  match k with
  | O => (m, e)
  | S k => if m mod 10 =? 0 then trim k (m / 10) (e + 1) else (m, e)
  end.
Definition mk_flt (m e : Z) : flt :=
  if m =? 0 then mkFlt false 0 0 else let '(m, e) := trim (S (Z.to_nat (Z.log2 m))) m e in mkFlt false m e.

Inductive number := NInt (n : Z) | NFlt (f : flt).
(** A number token without sign.  Underscores, other bases and imaginary parts are not
    modelled. *)
Definition scan_exp (t : txt) : option (option Z * txt) :=
  match t with
  | a :: r =>
      if Ascii.eqb a "e" || Ascii.eqb a "E" then
        let '(neg, r) := signed r in
        let '(d, s) := span_digits r in
        match parse_nat d with
        | Some n => Some (Some (if neg then - n else n), s)
        | None => None
        end
      else Some (None, t)
  | [] => Some (None, t)
  end.
Definition scan_number (t : txt) : option (number * txt) :=
  let '(i, r) := span_digits t in
  let '(point, f, r) :=
    match r with
    | a :: r' => if Ascii.eqb a "." then let '(f, s) := span_digits r' in (true, f, s) else (false, [], r)
    | [] => (false, [], r)
    end in
  match scan_exp r with
  | None => None
  | Some (x, r) =>
      match x, point with
      | None, false =>
          match parse_nat i with
          | Some n =>
              if (n =? 0) || negb (starts_with ["0"%char] i) then Some (NInt n, r) else None
          | None => None
          end
      | _, _ =>
          match parse_nat (i ++ f) with
          | Some m => Some (NFlt (mk_flt m (match x with Some e => e | None => 0 end - Z.of_nat (List.length f))), r)
          | None => None
          end
      end
  end.
(** Signs: literal_eval allows one of plus and minus before a number. *)
Definition scan_signed (t : txt) : option (val * txt) :=
  let '(neg, t) := signed t in
  match scan_number (blanks t) with
  | Some (NInt n, r) => Some (VInt (if neg then - n else n), r)
  | Some (NFlt f, r) => Some (VFlt (mkFlt neg (f_man f) (f_exp f)), r)
  | None => None
  end.

(** A value, or the items of a list up to its bracket.  Every call uses up a character
    of the text, so its length bounds the calls.  Other literals (tuples, strings, ...)
    are not modelled; none is written. *)
Fixpoint scan_val (fuel : nat) (t : txt) : option (val * txt) :=
  match fuel with
  | O => None
  | S fuel =>
      match blanks t with
      | a :: r =>
          if Ascii.eqb a "[" then
            match scan_items fuel r with Some (l, r) => Some (VList l, blanks r) | None => None end
          else
            match scan_signed (a :: r) with Some (v, r) => Some (v, blanks r) | None => None end
      | [] => None
      end
  end
with scan_items (fuel : nat) (t : txt) : option (list val * txt) :=
  match fuel with
  | O => None
  | S fuel =>
      match blanks t with
      | a :: r =>
          if Ascii.eqb a "]" then Some ([], r)
          else
            match scan_val fuel (a :: r) with
            | Some (v, b :: r) =>
                if Ascii.eqb b "," then
                  match scan_items fuel r with Some (l, r) => Some (v :: l, r) | None => None end
                else if Ascii.eqb b "]" then Some ([v], r)
                else None
            | _ => None
            end
      | [] => None
      end
  end.
(** [ast.literal_eval]: malformed text raises ValueError or SyntaxError, of which only
    the former is kept. *)
Definition literal_eval (t : txt) : res val :=
  match scan_val (S (List.length t + List.length t)) t with
  | Some (v, []) => Ok v
  | _ => Err ValueError
  end.

(** ** The file *)

Record lists := mkLists { points_list : list val; groups_list : list val }.

(** defdap/inspector.py 619-628, one grain. *)
Definition save_grain (np2 : bool) (i : Z) (g : lists) : list txt :=
  match points_list g with
  | [] => []
  | _ =>
      [lit "Grain " ++ fmt_int i; fmt_int (Z.of_nat (List.length (points_list g))) ++ lit " Lines"]
      ++ map (repr np2) (points_list g)
      ++ [fmt_int (Z.of_nat (List.length (groups_list g))) ++ lit " Groups"]
      ++ map (repr np2) (groups_list g) ++ [[]]
  end.
(** 602-628 [save_file]: the text written. *)
Definition save_file (np2 : bool) (gs : list lists) : txt :=
  unlines
    ([lit "# This is a file generated by defdap which contains definitions of slip lines drawn in grains by grainInspector";
      lit "# [(x0, y0, x1, y1), angle, groupID]";
      lit "# and groups of lines, defined by an average angle and identified sip plane";
      lit "# [groupID, angle, [slip plane id], [angular deviation]"; []]
     ++ concat (map (fun ig => save_grain np2 (fst ig) (snd ig)) (combine (zseq 0 (List.length gs)) gs))).

(** 643-655: what the loop has found so far; [None] for a name that is not bound. *)
Record found := mkFound {
  x_start : option Z; x_grain : option Z; x_lines : option Z; x_index : list (Z * Z * Z * Z) }.
Definition last_part (t : txt) : txt := last (split_on " " t) [].
Definition first_part (t : txt) : txt := hd [] (split_on " " t).
Definition need {A} (o : option A) : res A := match o with Some a => Ok a | None => Err UnboundLocalError end.
(** A blank line is [[]] here and a single line feed in the code. *)
Definition index_line (x : found) (i : Z) (line : txt) : res found :=
  match line with
  | [] => Ok x
  | a :: _ =>
      if Ascii.eqb a "#" then Ok x
      else
        do x <- (if contains (lit "Grain") line then
                   do g <- py_int (last_part line);
                   Ok (mkFound (Some i) (Some g) (x_lines x) (x_index x))
                 else Ok x);
        do x <- (if contains (lit "Lines") line then
                   do n <- py_int (first_part line);
                   Ok (mkFound (x_start x) (x_grain x) (Some n) (x_index x))
                 else Ok x);
        if contains (lit "Groups") line then
          do n <- py_int (first_part line);
          do s <- need (x_start x); do g <- need (x_grain x); do m <- need (x_lines x);
          Ok (mkFound (x_start x) (x_grain x) (x_lines x) (x_index x ++ [(s, g, m, n)]))
        else Ok x
  end.
Fixpoint index_lines (x : found) (i : Z) (lines : list txt) : res found :=
  match lines with
  | [] => Ok x
  | l :: r => do x <- index_line x i l; index_lines x (i + 1) r
  end.

(** [l[a:b]] with a not negative. *)
Definition slice {A} (a b : Z) (l : list A) : list A :=
  let b := if b <? 0 then Z.max 0 (b + Z.of_nat (List.length l)) else b in
  firstn (Z.to_nat (b - a)) (skipn (Z.to_nat a) l).

(** 661-662 and 666-667: one line after another is read and appended to the list of the
    grain; lines read before an error stay. *)
Definition add_point (v : val) (g : lists) : lists := mkLists (points_list g ++ [v]) (groups_list g).
Definition add_group (v : val) (g : lists) : lists := mkLists (points_list g) (groups_list g ++ [v]).
Fixpoint append_lines (add : val -> lists -> lists) (k : Z) (ts : list txt) (gs : list lists)
  : list lists * option exn :=
  match ts with
  | [] => (gs, None)
  | t :: ts =>
      match np_index (Z.of_nat (List.length gs)) k with
      | None => (gs, Some IndexError)
      | Some i =>
          match literal_eval (hd [] (split_on "\" t)) with
          | Err x => (gs, Some x)
          | Ok v => append_lines add k ts (change_nth (Z.to_nat i) (add v) gs)
          end
      end
  end.
Fixpoint load_grains (lines : list txt) (index : list (Z * Z * Z * Z)) (gs : list lists)
  : list lists * option exn :=
  match index with
  | [] => (gs, None)
  | (s, k, m, n) :: index =>
      match append_lines add_point k (slice (s + 2) (s + 2 + m) lines) gs with
      | (gs, Some x) => (gs, Some x)
      | (gs, None) =>
          match append_lines add_group k (slice (s + 3 + m) (s + 3 + m + n) lines) gs with
          | (gs, Some x) => (gs, Some x)
          | (gs, None) => load_grains lines index gs
          end
      end
  end.
(** 630-667 [load_file] up to the redrawing: the lists of all grains afterwards and the
    exception raised. *)
Definition load_file (t : txt) (gs : list lists) : list lists * option exn :=
  let lines := lines_of t in
  match index_lines (mkFound None None None []) 0 lines with
  | Err x => (gs, Some x)
  | Ok x => load_grains lines (x_index x) gs
  end.

(** ** The lists of the inspector's grains *)

(** A number of hundredths as a float. *)
Definition cents (z : Z) : val :=
  let f := mk_flt (Z.abs z) (-2) in VFlt (mkFlt (z <? 0) (f_man f) (f_exp f)).
Definition line_val (l : line) : val :=
  VList [VList (map cents (l_pts l)); cents (l_ang l); if l_np l then VNpInt (l_grp l) else VInt (l_grp l)].
(** The ratio is the integer 0 until one is calculated; [rep] gives the float of a
    calculated one. *)
Definition group_val (rep : R -> val) (g : group) : val :=
  VList [VInt (g_id g); cents (g_ang g); VList (map VInt (g_planes g)); VList (map cents (g_dev g));
         match g_rdr g with None => VInt 0 | Some r => rep r end].
Definition grain_lists (rep : R -> val) (g : grain) : lists :=
  mkLists (map line_val (pts g)) (map (group_val rep) (grps g)).
