(** Quaternion objects and what may change them: defdap/quat.py 31-61, 240-254, 275-328, 656-678. *)
From Coq Require Import Reals List ZArith Bool.
Import ListNotations.
From Verif Require Import Py Quat_Model Boundary_Model.
Open Scope Z_scope.

(** A component: a number, or [None] for nan.  Infinities are not modelled. *)
Definition comp := option R.
Record coefs := Co { cw : comp; cx : comp; cy : comp; cz : comp }.
Definition of_quat (q : quat) : coefs := Co (Some (qw q)) (Some (qx q)) (Some (qy q)) (Some (qz q)).
Definition lift2 (f : R -> R -> R) (a b : comp) : comp := match a, b with Some x, Some y => Some (f x y) | _, _ => None end.
Notation "a +! b" := (lift2 Rplus a b) (at level 50, left associativity).
Notation "a -! b" := (lift2 Rminus a b) (at level 50, left associativity).
Notation "a *! b" := (lift2 Rmult a b) (at level 40, left associativity).
Definition cneg (c : coefs) : coefs := let n := option_map Ropp in Co (n (cw c)) (n (cx c)) (n (cy c)) (n (cz c)).
(** 59-61: nan is not less than zero *)
Definition north (allow_southern : bool) (c : coefs) : coefs :=
  if allow_southern then c else match cw c with Some w => if Rlt_dec w 0 then cneg c else c | None => c end.

(** What the constructor is called with: one sequence of numbers, one quaternion, or numbers. *)
Inductive args := Sequence (l : list R) | AQuat | Numbers (l : list R).
Definition four (l : list R) : res coefs :=
  match l with [a; b; c; d] => Ok (Co (Some a) (Some b) (Some c) (Some d)) | _ => Err TypeError end.
(** 31-61 [__init__].  Neither a quaternion nor a number has a length (46). *)
Definition construct (a : args) (allow_southern : bool) : res coefs :=
  do c <- match a with
          | Sequence l => four l
          | AQuat => Err TypeError
          | Numbers [_] => Err TypeError
          | Numbers l => four l
          end;
  Ok (north allow_southern c).

(** 240-252 *)
Definition product (a b : coefs) : coefs :=
  Co (cw a *! cw b -! (cx a *! cx b +! cy a *! cy b +! cz a *! cz b))
     (cw a *! cx b +! cw b *! cx a +! (cy a *! cz b -! cz a *! cy b))
     (cw a *! cy b +! cw b *! cy a +! (cz a *! cx b -! cx a *! cz b))
     (cw a *! cz b +! cw b *! cz a +! (cx a *! cy b -! cy a *! cx b)).
Definition total (a b : coefs) : coefs := Co (cw a +! cw b) (cx a +! cx b) (cy a +! cy b) (cz a +! cz b).
(** 319-328 *)
Definition conj (a : coefs) : coefs := let n := option_map Ropp in Co (cw a) (n (cx a)) (n (cy a)) (n (cz a)).
(** 294-315: all components are divided by the norm.  With a nan the norm is nan; of four zeros it is zero and all become nan. *)
Definition unit_of (a : coefs) : coefs :=
  match cw a, cx a, cy a, cz a with
  | Some w, Some x, Some y, Some z =>
      match normalise (Q4 w x y z) with Some q => of_quat q | None => Co None None None None end
  | _, _, _, _ => Co None None None None
  end.
(** 288-292 *)
Definition set_comp (a : coefs) (k : Z) (v : comp) : res coefs :=
  match np_index 4 k with
  | Some 0 => Ok (Co v (cx a) (cy a) (cz a))
  | Some 1 => Ok (Co (cw a) v (cy a) (cz a))
  | Some 2 => Ok (Co (cw a) (cx a) v (cz a))
  | Some 3 => Ok (Co (cw a) (cx a) (cy a) v)
  | _ => Err IndexError
  end.

(** The objects there are, numbered in the order they were made. *)
Definition heap := list coefs.
(** Statements about objects; the same number twice is one object under two names. *)
Inductive op :=
| New (a : args) (allow_southern : bool)
| Mul (a b : nat) (allow_southern : bool)   (* [a * b], [a.__mul__(b, ...)] *)
| Add (a b : nat)                           (* [a + b] *)
| Conj (a : nat)                            (* [a.conjugate] *)
| IAdd (a b : nat)                          (* [a += b] *)
| Normalise (a : nat)                       (* [a.normalise()] *)
| SetItem (a : nat) (k : Z) (v : comp).     (* [a[k] = v] *)
Definition made (h : heap) (c : coefs) : heap * res (option nat) := (h ++ [c], Ok (Some (length h))).
Fixpoint put (h : heap) (n : nat) (c : coefs) : heap :=
  match h, n with [] , _ => [] | _ :: h, O => c :: h | d :: h, S n => d :: put h n c end.
(** The heap afterwards and what the statement gives: an object, or nothing.  A left operand that is
    no quaternion has no such method (AttributeError); a right one is a TypeError (254, 278, 285). *)
Definition step (h : heap) (o : op) : heap * res (option nat) :=
  match o with
  | New a s => match construct a s with Ok c => made h c | Err e => (h, Err e) end
  | Mul a b s =>
      match nth_error h a, nth_error h b with
      | Some p, Some q => made h (north s (product p q))
      | None, _ => (h, Err AttributeError) | _, None => (h, Err TypeError)
      end
  | Add a b =>
      match nth_error h a, nth_error h b with
      | Some p, Some q => made h (north false (total p q))
      | None, _ => (h, Err AttributeError) | _, None => (h, Err TypeError)
      end
  | Conj a => match nth_error h a with Some p => made h (north false (conj p)) | None => (h, Err AttributeError) end
  | IAdd a b =>
      match nth_error h a, nth_error h b with
      | Some p, Some q => (put h a (total p q), Ok (Some a))
      | None, _ => (h, Err AttributeError) | _, None => (h, Err TypeError)
      end
  (* 314-315: the bare [return] gives [None] *)
  | Normalise a => match nth_error h a with Some p => (put h a (unit_of p), Ok None) | None => (h, Err AttributeError) end
  | SetItem a k v =>
      match nth_error h a with
      | Some p => match set_comp p k v with Ok c => (put h a c, Ok None) | Err e => (h, Err e) end
      | None => (h, Err TypeError)
      end
  end.
Definition run (os : list op) (h : heap) : heap := fold_left (fun h o => fst (step h o)) os h.

(** 656-678 [extract_quat_comps] of a list of quaternions, or of a list of sequences of numbers: a
    list of quaternions becomes an array of objects, one of sequences an array of numbers, which have
    no [quat_coef]; sequences of unequal length make no array.  Four rows of components. *)
Inductive items := Quats (l : list coefs) | Sequences (l : list (list R)).
Definition same_length (l : list (list R)) : bool := match l with [] => true | a :: l => forallb (fun b => Nat.eqb (length b) (length a)) l end.
Definition extract_quat_comps (i : items) : res (list (list comp)) :=
  match i with
  | Quats l => Ok [map cw l; map cx l; map cy l; map cz l]
  | Sequences l =>
      if same_length l then
        if existsb (fun b => Nat.ltb 0 (length b)) l then Err AttributeError else Ok [[]; []; []; []]
      else Err ValueError
  end.
