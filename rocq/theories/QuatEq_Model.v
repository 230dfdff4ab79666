(** Equality and hashes of quaternion objects, defdap/quat.py 224-229 and 288-292. *)
From Coq Require Import Reals List ZArith Bool.
Import ListNotations.
From Verif Require Import Py Boundary_Model.
Open Scope Z_scope.

(** A float: a number (zero included), the negative zero, the infinities, nan. *)
Inductive fl := Num (x : R) | NegZero | PInf | MInf | NaN.
(** [==] of Python floats. *)
Definition fl_eqb (a b : fl) : bool :=
  match a, b with
  | Num x, Num y => if Req_EM_T x y then true else false
  | Num x, NegZero | NegZero, Num x => if Req_EM_T x 0 then true else false
  | NegZero, NegZero | PInf, PInf | MInf, MInf => true
  | _, _ => false
  end.
(** [==] of lists of floats made afresh, so no two elements are one object. *)
Fixpoint list_eqb (l m : list fl) : bool :=
  match l, m with
  | [], [] => true
  | a :: l, b :: m => fl_eqb a b && list_eqb l m
  | _, _ => false
  end.

(** An object: its class, with [Some] coefficients if it is a quaternion or of a subclass. *)
Record obj := Obj { cls : nat; coefs : option (list fl) }.

Section Classes.
(** [sub a b]: class [a] is [b] or derives from it. *)
Variable sub : nat -> nat -> bool.

(** 224-226 *)
Definition eq_method (self right : obj) : bool :=
  sub (cls right) (cls self) &&
  match coefs self, coefs right with Some l, Some m => list_eqb l m | _, _ => false end.
(** [left == right] for a quaternion on the left: Python asks the right operand first if
    its class derives from that of the left one. *)
Definition py_eq (left right : obj) : bool :=
  if sub (cls right) (cls left) && negb (Nat.eqb (cls right) (cls left)) then eq_method right left
  else eq_method left right.
End Classes.

Section Hashes.
(** Python's hash of a finite float, its hash of the infinities and of a nan made afresh
    (different each time, numbered), and how a tuple combines the hashes. *)
Variables (number : R -> Z) (pinf minf : Z) (nan : nat -> Z) (tuple : list Z -> Z).
Definition fl_hash (fresh : nat) (a : fl) : Z :=
  match a with Num x => number x | NegZero => number 0%R | PInf => pinf | MInf => minf | NaN => nan fresh end.
(** 228-229, at the time numbered [fresh]. *)
Definition quat_hash (fresh : nat) (l : list fl) : Z := tuple (map (fl_hash fresh) l).
End Hashes.

(** 288-292: reading and setting a component. *)
Definition getitem (l : list fl) (k : Z) : res fl :=
  match np_index (Z.of_nat (List.length l)) k with
  | Some n => match nth_error l (Z.to_nat n) with Some a => Ok a | None => Err IndexError end
  | None => Err IndexError
  end.
Definition setitem (l : list fl) (k : Z) (v : fl) : res (list fl) :=
  match np_index (Z.of_nat (List.length l)) k with
  | Some n => Ok (firstn (Z.to_nat n) l ++ v :: skipn (S (Z.to_nat n)) l)
  | None => Err IndexError
  end.

(** A Python set of quaternions (or the keys of a dictionary): the hash of each element
    when it was put in, and which object it is.  [heap] gives the present coefficients of
    the objects. *)
Section Sets.
Variable hash : list fl -> Z.
Definition set_add (heap : nat -> list fl) (s : list (Z * nat)) (q : nat) : list (Z * nat) :=
  if existsb (fun e => (fst e =? hash (heap q)) && (Nat.eqb (snd e) q || list_eqb (heap (snd e)) (heap q))) s then s
  else s ++ [(hash (heap q), q)].
Definition set_in (heap : nat -> list fl) (s : list (Z * nat)) (q : nat) : bool :=
  existsb (fun e => (fst e =? hash (heap q)) && (Nat.eqb (snd e) q || list_eqb (heap (snd e)) (heap q))) s.
End Sets.
