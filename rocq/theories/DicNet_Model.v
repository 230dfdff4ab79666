(** Neighbours of grains on maps other than EBSD maps: defdap/base.py 274-329. *)
From Coq Require Import List ZArith Bool.
From Verif Require Import Py Grid Base_Model.
Import ListNotations.
Open Scope Z_scope.

(** networkx [Graph]: the edges added, nodes being the places of the grains in the list. *)
Definition edges := list (Z * Z).
Definition has_edge (es : edges) (a b : Z) : bool :=
  existsb (fun e => ((fst e =? a) && (snd e =? b)) || ((fst e =? b) && (snd e =? a))) es.
(** 322-327 *)
Definition add_edge (es : edges) (a b : Z) : edges := if has_edge es a b then es else es ++ [(a, b)].
(** 315-318: pairs of places i < j *)
Fixpoint pairs {A} (l : list A) : list (A * A) :=
  match l with [] => [] | a :: l => map (pair a) l ++ pairs l end.
(** 301-311: the set of the four labels less one, without -2 and -3.  The order of the set does
    not matter: edges have no direction. *)
Definition around (lab : pix -> Z) (p : pix) : list Z :=
  let (x, y) := p in
  filter (fun k => negb (k =? -2) && negb (k =? -3))
    (nodup Z.eq_dec [lab (x, y + 1) - 1; lab (x, y - 1) - 1; lab (x + 1, y) - 1; lab (x - 1, y) - 1]).
(** 291-327: one boundary point; [self[k]] is the grain at place [k] of the list, from the end
    for negative [k] *)
Definition net_point (W H : Z) (grains : list Z) (lab : pix -> Z) (es : edges) (p : pix) : res edges :=
  if (fst p =? 0) || (snd p =? 0) || (fst p =? W - 1) || (snd p =? H - 1) then Ok es
  else for_each (fun es ij => do a <- py_nth grains (fst ij); do b <- py_nth grains (snd ij); Ok (add_edge es a b)) (pairs (around lab p)) es.
Definition base_network (W H : Z) (n : nat) (lab : pix -> Z) (bnd : pix -> bool) : res edges :=
  for_each (net_point W H (zseq 0 n) lab) (filter bnd (all_pix W H)) [].
(** 274-329: what is stored and the outcome, for the attribute [boundaries] if there is one.
    No code of the package sets it. *)
Definition build_base_network (W H : Z) (n : nat) (lab : pix -> Z) (boundaries : option (pix -> bool)) (stored : option edges) : option edges * res unit :=
  match boundaries with
  | None => (stored, Err AttributeError)
  | Some bnd => match base_network W H n lab bnd with Err e => (stored, Err e) | Ok es => (Some es, Ok tt) end
  end.
