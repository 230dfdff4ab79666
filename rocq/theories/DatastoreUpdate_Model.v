(** [Datastore.update] (defdap/utils.py 408-423) with the dictionaries it shares.

    A store refers to a dictionary of items, which refers to one dictionary of
    attributes per item.  Assigning ([store[key, attr] = v], utils.py 206) writes
    to the inner dictionary in place; adding a key (utils.py 312) puts a new inner
    dictionary in the outer one.  Only the item part of the stores is modelled
    here: derivatives, generators and views are in Datastore_Model.v. *)
From Coq Require Import String.
From Coq Require Import List Arith Bool.
Import ListNotations.
From Verif Require Import Py Datastore_Model.
Open Scope string_scope.

Record mem := Mem {
  root : nat -> nat;                 (* store -> its outer dictionary *)
  outer : nat -> dict nat;           (* outer dictionary: item -> inner dictionary *)
  inner : nat -> dict val;           (* inner dictionary: attribute -> value *)
  fresh : nat                        (* inner dictionaries used so far *)
}.
Definition upd {A} (f : nat -> A) (i : nat) (a : A) : nat -> A := fun j =>
  if Nat.eqb j i then a else f j.

(** [store._store[key].get(attr)] (utils.py 166, 444). *)
Definition peek (m : mem) (s : nat) (k a : string) : option val :=
  match dget k (outer m (root m s)) with
  | Some i => dget a (inner m i)
  | None => None
  end.
(** utils.py 206: assignment to an existing item. *)
Definition poke (m : mem) (s : nat) (k a : string) (v : val) : option mem :=
  match dget k (outer m (root m s)) with
  | Some i => Some (Mem (root m) (outer m) (upd (inner m) i (dset a v (inner m i))) (fresh m))
  | None => None
  end.
(** utils.py 312-315: a new item. *)
Definition insert (m : mem) (s : nat) (k : string) (attrs : dict val) : mem :=
  let r := root m s in
  Mem (root m) (upd (outer m) r (dset k (fresh m) (outer m r)))
      (upd (inner m) (fresh m) attrs) (S (fresh m)).

(** utils.py 419-423: [a.update(b, priority='self')] when [self_first]. *)
Definition update (m : mem) (a b : nat) (self_first : bool) : mem :=
  if self_first then
    let merged := dupdate (outer m (root m b)) (outer m (root m a)) in
    Mem (upd (root m) a (root m b)) (upd (outer m) (root m b) merged) (inner m) (fresh m)
  else
    Mem (root m) (upd (outer m) (root m a) (dupdate (outer m (root m a)) (outer m (root m b))))
        (inner m) (fresh m).
