(** Shared vocabulary of the model: Python exceptions as values, and a few
    list operations with Python's meaning.  Nothing here models a particular
    function of DefDAP. *)
From Coq Require Import List ZArith Bool Lia.
Import ListNotations.

(** Exceptions that the modelled code can raise.  [OutOfBounds] stands for an
    access outside an array in compiled (numba) code, which is undefined
    behaviour there; [OutOfFuel] marks the end of the fuel of a loop or of the
    call stack (each model that can return it has a theorem saying when it does
    not). *)
Inductive exn :=
| IndexError | ValueError | KeyError | TypeError | AttributeError
| UnboundLocalError | ZeroDivisionError | NotImplementedError | RuntimeError
| FileExistsError | GenericException | DimensionError | DataGenerationError
| StopIteration | AssertionError | FileNotFoundError
| OutOfBounds | OutOfFuel.

Inductive res (A : Type) :=
| Ok (a : A)
| Err (e : exn).
Arguments Ok {A} a.
Arguments Err {A} e.

Definition bind {A B} (m : res A) (f : A -> res B) : res B :=
  match m with
  | Ok a => f a
  | Err e => Err e
  end.

Declare Scope py_scope.
Delimit Scope py_scope with py.
Notation "'do' x <- a ; b" := (bind a (fun x => b))
  (at level 200, x pattern, a at level 100, b at level 200) : py_scope.
Open Scope py_scope.

(** A [for] loop whose body may raise. *)
Fixpoint for_each {A S} (body : S -> A -> res S) (l : list A) (s : S) : res S :=
  match l with
  | [] => Ok s
  | a :: l' => do s' <- body s a; for_each body l' s'
  end.

(** [l.pop(i)] on a Python list, for its effect on the list only: negative
    indices count from the end; an index out of range leaves the list
    (Python raises, but no modelled call does that). *)
Fixpoint remove_nth {A} (n : nat) (l : list A) : list A :=
  match n, l with
  | _, [] => []
  | O, _ :: l' => l'
  | S n', a :: l' => a :: remove_nth n' l'
  end.

Definition py_pop {A} (i : Z) (l : list A) : list A :=
  if (0 <=? i)%Z then remove_nth (Z.to_nat i) l
  else remove_nth (Z.to_nat (Z.of_nat (length l) + i)) l.

(** Integers [start, start+1, ..., start+n-1]. *)
Fixpoint zseq (start : Z) (n : nat) : list Z :=
  match n with
  | O => []
  | S n' => start :: zseq (start + 1)%Z n'
  end.

(** Index of the first [true], or -1 ([bytes.find(b'\x01')] on a boolean
    array). *)
Fixpoint find_true_from (i : Z) (l : list bool) : Z :=
  match l with
  | [] => (-1)%Z
  | b :: l' => if b then i else find_true_from (i + 1)%Z l'
  end.
Definition bytes_find_true (l : list bool) : Z := find_true_from 0%Z l.
