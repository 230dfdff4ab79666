(** Python text operations used by the file readers and writers, on ASCII text as a
    list of characters. *)
From Coq Require Import String Ascii Reals.
From Coq Require Import List ZArith Bool.
Import ListNotations.
From Verif Require Import Py Crystal_Model.
Open Scope Z_scope.

Definition txt := list ascii.
Definition lit (s : string) : txt := list_ascii_of_string s.
Definition code (a : ascii) : Z := Z.of_nat (nat_of_ascii a).
Definition TAB : ascii := ascii_of_nat 9.
Definition LF : ascii := ascii_of_nat 10.

Definition txt_eqb (a b : txt) : bool := if list_eq_dec ascii_dec a b then true else false.
Definition nonempty (t : txt) : bool := match t with [] => false | _ => true end.

(** [str.isspace] for one ASCII character. *)
Definition is_ws (a : ascii) : bool :=
  let n := code a in ((9 <=? n) && (n <=? 13)) || ((28 <=? n) && (n <=? 32)).

(** Pieces of a text between the characters satisfying [p]. *)
Fixpoint split_by (p : ascii -> bool) (t : txt) : list txt :=
  match t with
  | [] => [[]]
  | a :: t =>
      if p a then [] :: split_by p t
      else match split_by p t with h :: r => (a :: h) :: r | [] => [[a]] end
  end.
(** [str.split(c)]. *)
Definition split_on (c : ascii) (t : txt) : list txt := split_by (Ascii.eqb c) t.
(** [str.split()]. *)
Definition words (t : txt) : list txt := filter nonempty (split_by is_ws t).
(** The lines of a file, without their line feeds; other line ends are not
    modelled. *)
Definition lines_of (t : txt) : list txt :=
  let l := split_on LF t in
  match rev l with [] :: r => rev r | _ => l end.

(** The text of a file to which lines were written one after another. *)
Definition unlines (ls : list txt) : txt := concat (map (fun l => l ++ [LF]) ls).

Fixpoint lstrip (t : txt) : txt :=
  match t with [] => [] | a :: r => if is_ws a then lstrip r else t end.
(** [str.strip()]. *)
Definition strip (t : txt) : txt := rev (lstrip (rev (lstrip t))).

(** [str.startswith]. *)
Fixpoint starts_with (k t : txt) : bool :=
  match k, t with
  | [], _ => true
  | a :: k, b :: t => Ascii.eqb a b && starts_with k t
  | _, [] => false
  end.
(** [k in t]. *)
Fixpoint contains (k t : txt) : bool :=
  starts_with k t || match t with [] => false | _ :: t => contains k t end.

(** [sep.join(l)]. *)
Fixpoint join (sep : ascii) (l : list txt) : txt :=
  match l with [] => [] | [a] => a | a :: r => a ++ sep :: join sep r end.

(** ** Numbers *)

Definition digit_char (d : Z) : ascii := ascii_of_nat (Z.to_nat (48 + d)).
Definition digit_val (a : ascii) : option Z :=
  let n := code a - 48 in if (0 <=? n) && (n <=? 9) then Some n else None.

Fixpoint parse_digits (t : txt) (acc : Z) : option Z :=
  match t with
  | [] => Some acc
  | a :: t => match digit_val a with Some d => parse_digits t (10 * acc + d) | None => None end
  end.
Definition parse_nat (t : txt) : option Z := match t with [] => None | _ => parse_digits t 0 end.
Definition signed (t : txt) : bool * txt :=
  match t with
  | a :: r => if Ascii.eqb a "-" then (true, r) else if Ascii.eqb a "+" then (false, r) else (false, t)
  | [] => (false, t)
  end.
(** [int(s)]; underscores between digits are not modelled. *)
Definition py_int (t : txt) : res Z :=
  let '(neg, t) := signed (strip t) in
  match parse_nat t with Some n => Ok (if neg then - n else n) | None => Err ValueError end.
(** [float(s)] for decimal notation; exponents, inf and nan are not modelled, nor is
    the rounding to a float. *)
Definition py_float (t : txt) : res R :=
  let '(neg, t) := signed (strip t) in
  let v :=
    match split_on "." t with
    | [i] => match parse_nat i with Some n => Some (IZR n) | None => None end
    | [i; f] =>
        if nonempty i || nonempty f then
          match parse_digits i 0, parse_digits f 0 with
          | Some n, Some m => Some (IZR n + IZR m / 10 ^ List.length f)%R
          | _, _ => None
          end
        else None
    | _ => None
    end in
  match v with Some r => Ok (if neg then (- r)%R else r) | None => Err ValueError end.

(** The last [k] decimal digits of [n]. *)
Fixpoint low_digits (k : nat) (n : Z) : txt :=
  match k with O => [] | S k => low_digits k (n / 10) ++ [digit_char (n mod 10)] end.
(** Decimal digits of a natural number; [k] bounds their number. *)
Fixpoint dec_digits (k : nat) (n : Z) : txt :=
  match k with
  | O => []
  | S k => if n <? 10 then [digit_char n] else dec_digits k (n / 10) ++ [digit_char (n mod 10)]
  end.
(** [str(n)]: a number has no more decimal than binary digits. *)
Definition fmt_nat (n : Z) : txt := dec_digits (S (Z.to_nat (Z.log2 n))) n.
Definition fmt_int (n : Z) : txt := if n <? 0 then "-"%char :: fmt_nat (- n) else fmt_nat n.
(** [f"{x:.kf}"]: the nearest multiple of 10^-k, ties to even. *)
Definition fmt_fixed (k : nat) (x : R) : txt :=
  let n := Z.abs (rint (x * 10 ^ k)) in
  let p := 10 ^ Z.of_nat k in
  (if Rlt_dec x 0 then ["-"%char] else []) ++ fmt_nat (n / p) ++ ["."%char] ++ low_digits k (n mod p).
