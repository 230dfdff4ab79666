(** The progress decorator of defdap/utils.py 21-69. *)
From Coq Require Import String Ascii Reals.
From Coq Require Import List ZArith Bool.
Import ListNotations.
From Verif Require Import Py Crystal_Model Text_Model.
Open Scope Z_scope.

(** What a generator hands out: text, a number (floats as reals), nan, or an object from
    which no float can be subtracted, such as None.  Infinite floats are not modelled. *)
Inductive yielded := YText (t : txt) | YNum (x : R) | YNan | YOther.

(** A generator: from each state it hands out something and waits in another state, or
    returns, or raises. *)
Inductive outcome (S A : Type) := Yield (y : yielded) (s : S) | Return (a : A) | Raise (x : exn).
Arguments Yield {S A}. Arguments Return {S A}. Arguments Raise {S A}.

(** [next(generator)]: a StopIteration raised inside the body comes out as RuntimeError
    (PEP 479). *)
Definition resume {S A} (g : S -> outcome S A) (s : S) : outcome S A :=
  match g s with Raise StopIteration => Raise RuntimeError | o => o end.

(** The result of calling the decorated function's body: a suspended generator, an object
    that is none, or an exception such as for wrong arguments. *)
Inductive called (S : Type) := Suspended (s : S) | NoGenerator | CallRaised (x : exn).
Arguments Suspended {S}. Arguments NoGenerator {S}. Arguments CallRaised {S}.

(** What is observed: text put on the console, and the generator resumed in a state. *)
Inductive event (S : Type) := Out (t : txt) | Resumed (s : S).
Arguments Out {S}. Arguments Resumed {S}.

Definition CR : ascii := ascii_of_nat 13.
(** 39: the opening message. *)
Definition start_text (message : txt) : txt := CR :: lit "Starting " ++ message ++ lit "..".
(** 56: the message for a progress. *)
Definition percent_text (message : txt) (x : R) : txt :=
  start_text message ++ lit " " ++ fmt_int (rint (x * 100)) ++ lit " %".
(** 64-65: the closing message; [time] is the elapsed time as text. *)
Definition finished_text (message time : txt) : txt :=
  CR :: lit "Finished " ++ message ++ lit " (" ++ time ++ lit ") " ++ [LF].

(** 46-67: the loop.  [None] if the fuel is used up. *)
Fixpoint progress_loop {S A} (message time : txt) (g : S -> outcome S A) (fuel : nat) (s : S)
    (prev : R) (final : bool) : option (list (event S) * res A) :=
  match fuel with
  | O => None
  | Datatypes.S fuel =>
      let after o := match o with Some (es, r) => Some (Resumed s :: es, r) | None => None end in
      match resume g s with
      | Yield (YText t) s' =>
          match progress_loop message time g fuel s' prev false with
          | Some (es, r) => Some (Resumed s :: Out (CR :: t ++ [LF]) :: es, r)
          | None => None
          end
      | Yield (YNum x) s' =>
          if Rlt_dec (1 / 100) (x - prev) then
            match progress_loop message time g fuel s' x true with
            | Some (es, r) => Some (Resumed s :: Out (percent_text message x) :: es, r)
            | None => None
            end
          else after (progress_loop message time g fuel s' prev final)
      | Yield YNan s' => after (progress_loop message time g fuel s' prev final)
      | Yield YOther _ => Some ([Resumed s], Err TypeError)
      | Return a =>
          Some (Resumed s :: (if final then [Out (finished_text message time)] else []), Ok a)
      | Raise x => Some ([Resumed s], Err x)
      end
  end.

(** 38-67: the wrapper around a call.  A function without yield fails at [next]. *)
Definition with_progress {S A} (message time : txt) (g : S -> outcome S A) (fuel : nat) (c : called S)
  : option (list (event S) * res A) :=
  match c with
  | CallRaised x => Some ([Out (start_text message)], Err x)
  | NoGenerator => Some ([Out (start_text message)], Err TypeError)
  | Suspended s =>
      match progress_loop message time g fuel s 0 true with
      | Some (es, r) => Some (Out (start_text message) :: es, r)
      | None => None
      end
  end.
