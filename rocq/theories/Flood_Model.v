(** Model of the flood fills (defdap/_accelerated.py) and of the grain finding
    loops of defdap/ebsd.py and defdap/hrdic.py. *)
From Coq Require Import List ZArith Bool Lia.
Import ListNotations.
From Verif Require Import Py Grid.
Open Scope Z_scope.

(** The mutable state of one flood fill call: label image, points-remaining
    image, the explicit stack [edge] (its head is the end of the Python list,
    where [append] and [pop] act) and the coordinates written so far to
    [added_coords] in writing order, so [npoints = length f_pts]. *)
Record fstate := mkF {
  f_grains : pix -> Z;
  f_left : pix -> bool;
  f_edge : list pix;
  f_pts : list pix
}.

(** defdap/_accelerated.py 57-66: the four moves, minus those popped. *)
Definition moves (W H : Z) (p : pix) : list pix :=
  let (x, y) := p in
  let m := [(x + 1, y); (x - 1, y); (x, y + 1); (x, y - 1)] in
  let m := if x <=? 0 then py_pop 1 m
           else if x >? W - 2 then py_pop 0 m else m in
  if y <=? 0 then py_pop (-1) m
  else if y >? H - 2 then py_pop (-2) m else m.

(** [added_coords[npoints] = (s, t)] with a buffer of [cap] rows, then the
    label and points-remaining writes (lines 92-95).  The write past the buffer
    is undefined behaviour in compiled code. *)
Definition add_point (cap : nat) (index : Z) (st : fstate) (m : pix)
  (edge : list pix) : res fstate :=
  if (cap <=? length (f_pts st))%nat then Err OutOfBounds
  else Ok (mkF (upd (f_grains st) m index) (upd (f_left st) m false)
               edge (f_pts st ++ [m])).

(** defdap/_accelerated.py 68-96: the body of the loop over moves. *)
Definition ff_move (W H : Z) (bx by_ : pix -> bool) (cap : nat) (index : Z)
  (p : pix) (st : fstate) (m : pix) : res fstate :=
  let (x, y) := p in
  let (s, t) := m in
  do v <- aget W H (f_grains st) (s, t);
  if v >? 0 then Ok st
  else
    do wall <- (if t =? y then
                  if s >? x then aget W H bx (x, y) else aget W H bx (s, t)
                else
                  if t >? y then aget W H by_ (x, y) else aget W H by_ (s, t));
    if negb wall then add_point cap index st (s, t) ((s, t) :: f_edge st)
    else Ok st.

(** defdap/_accelerated.py 55-96: [while edge].  Fuel bounds the number of
    iterations. *)
Fixpoint ff_loop (fuel : nat) (W H : Z) (bx by_ : pix -> bool) (cap : nat)
  (index : Z) (st : fstate) : res fstate :=
  match f_edge st with
  | [] => Ok st
  | p :: rest =>
    match fuel with
    | O => Err OutOfFuel
    | S fuel' =>
      do st' <- for_each (ff_move W H bx by_ cap index p) (moves W H p)
                  (mkF (f_grains st) (f_left st) rest (f_pts st));
      ff_loop fuel' W H bx by_ cap index st'
    end
  end.

(** defdap/_accelerated.py 48-53 and 126-131: the seed is labelled, marked
    done, pushed and written to row 0 of the buffer. *)
Definition ff_init (W H : Z) (cap : nat) (seed : pix) (index : Z)
  (grains : pix -> Z) (remain : pix -> bool) : res fstate :=
  do _ <- aget W H grains seed;
  add_point cap index (mkF grains remain [] []) seed [seed].

(** defdap/_accelerated.py 27-98 [flood_fill].  Returns the label image, the
    points-remaining image and [added_coords[:npoints]]. *)
Definition flood_fill (W H : Z) (bx by_ : pix -> bool) (cap : nat)
  (seed : pix) (index : Z) (grains : pix -> Z) (remain : pix -> bool)
  : res ((pix -> Z) * (pix -> bool) * list pix) :=
  do st0 <- ff_init W H cap seed index grains remain;
  do st <- ff_loop (S (Z.to_nat (W * H))) W H bx by_ cap index st0;
  Ok (f_grains st, f_left st, f_pts st).

(** defdap/_accelerated.py 147-161: the body of the loop over moves of
    [flood_fill_dic]. *)
Definition ffd_move (W H : Z) (cap : nat) (index : Z)
  (p : pix) (st : fstate) (m : pix) : res fstate :=
  let (x, y) := p in
  let (s, t) := m in
  do v <- aget W H (f_grains st) (s, t);
  if v =? 0 then add_point cap index st (s, t) ((s, t) :: f_edge st)
  else if (v =? -1) && ((s >? x) || (t >? y)) then
    add_point cap index st (s, t) (f_edge st)
  else Ok st.

(** defdap/_accelerated.py 133-161.  Lines 138-145 test [x >= W - 1] where
    [flood_fill] tests [x > W - 2]; on integers these agree, so [moves] is
    shared. *)
Fixpoint ffd_loop (fuel : nat) (W H : Z) (cap : nat) (index : Z)
  (st : fstate) : res fstate :=
  match f_edge st with
  | [] => Ok st
  | p :: rest =>
    match fuel with
    | O => Err OutOfFuel
    | S fuel' =>
      do st' <- for_each (ffd_move W H cap index p) (moves W H p)
                  (mkF (f_grains st) (f_left st) rest (f_pts st));
      ffd_loop fuel' W H cap index st'
    end
  end.

(** defdap/_accelerated.py 101-163 [flood_fill_dic]. *)
Definition flood_fill_dic (W H : Z) (cap : nat)
  (seed : pix) (index : Z) (grains : pix -> Z) (remain : pix -> bool)
  : res ((pix -> Z) * (pix -> bool) * list pix) :=
  do st0 <- ff_init W H cap seed index grains remain;
  do st <- ffd_loop (S (Z.to_nat (W * H))) W H cap index st0;
  Ok (f_grains st, f_left st, f_pts st).

(** The state of the [while found_point >= 0] loop shared by
    defdap/ebsd.py 873-915 and defdap/hrdic.py 628-669.  [g_cap] is the number
    of rows left in [coords_buffer]; a grain object is its point list. *)
Record gstate := mkG {
  g_grains : pix -> Z;
  g_left : pix -> bool;
  g_cap : nat;
  g_index : Z;
  g_list : list (list pix);
  g_next : Z
}.

(** [points_left.reshape(-1)[start:].tobytes().find(b'\x01')]. *)
Definition find_left (W H : Z) (remain : pix -> bool) (start : Z) : Z :=
  bytes_find_true
    (map (fun i => remain (unflat W i)) (zseq start (Z.to_nat (W * H - start)))).

(** Setting the points of an ignored grain to -2 (ebsd.py 899-900, hrdic.py
    653-654). *)
Definition set_small (pts : list pix) (grains : pix -> Z) : pix -> Z :=
  fold_left (fun g p => upd g p (-2)) pts grains.

(** One pass through the loop body, for either flood fill ([fill] is
    [flood_fill] with its boundary images or [flood_fill_dic]).  Returns the
    new state and [found_point].  [np.unravel_index] raises ValueError for a
    negative position; the progress reports are not modelled. *)
Definition grain_pass
  (fill : nat -> pix -> Z -> (pix -> Z) -> (pix -> bool) ->
          res ((pix -> Z) * (pix -> bool) * list pix))
  (W H : Z) (min_size : Z) (s : gstate) : res (gstate * Z) :=
  if (g_next s <? 0) || (W * H <=? g_next s) then Err ValueError
  else
    let seed := unflat W (g_next s) in
    do r <- fill (g_cap s) seed (g_index s) (g_grains s) (g_left s);
    let '(grains, remain, pts) := r in
    let cap := (g_cap s - length pts)%nat in
    let '(grains, lst, idx) :=
      if Z.of_nat (length pts) <? min_size
      then (set_small pts grains, g_list s, g_index s)
      else (grains, g_list s ++ [pts], g_index s + 1) in
    let found := find_left W H remain (g_next s + 1) in
    Ok (mkG grains remain cap idx lst (g_next s + (found + 1)), found).

Fixpoint grain_loop fill (fuel : nat) (W H min_size : Z) (s : gstate)
  : res gstate :=
  match fuel with
  | O => Err OutOfFuel
  | S fuel' =>
    do r <- grain_pass fill W H min_size s;
    let '(s', found) := r in
    if 0 <=? found then grain_loop fill fuel' W H min_size s' else Ok s'
  end.

(** defdap/ebsd.py 918-930: the phase of a grain, when its pixels agree on one
    valid phase; otherwise a warning and no phase. *)
Definition grain_phase (num_phases : Z) (phase : pix -> Z) (pts : list pix)
  : option Z :=
  match map phase pts with
  | [] => None
  | v :: vs =>
    if fold_left Z.max vs v =? fold_left Z.min vs v then
      if (0 <=? v - 1) && (v - 1 <? num_phases) then Some (v - 1) else None
    else None
  end.

(** defdap/ebsd.py 854-944 [Map.find_grains], given the boundary images used at
    lines 868-869 and the phase image.  Result: label image, grain point lists,
    phase of each grain.  Line 934 indexes [grain_list[0]], so an empty list
    raises IndexError.  The number of loop iterations is bounded by the number
    of pixels plus one. *)
Definition find_grains (W H : Z) (bx by_ : pix -> bool) (phase : pix -> Z)
  (num_phases min_size : Z)
  : res ((pix -> Z) * list (list pix) * list (option Z)) :=
  let remain := fun p => negb (phase p =? 0) in
  do s <- grain_loop (flood_fill W H bx by_) (S (Z.to_nat (W * H))) W H
            min_size
            (mkG (fun _ => 0) remain (Z.to_nat (W * H)) 1 []
                 (find_left W H remain 0));
  let phases := map (grain_phase num_phases phase) (g_list s) in
  match g_list s with
  | [] => Err IndexError
  | _ => Ok (g_grains s, g_list s, phases)
  end.

(** defdap/hrdic.py 625-669 and 693: the 'floodfill' branch of
    [Map.find_grains] up to the linking with EBSD grains; [bnd] is the boundary
    image. *)
Definition find_grains_dic (W H : Z) (bnd : pix -> bool) (min_size : Z)
  : res ((pix -> Z) * list (list pix)) :=
  let grains := fun p => if bnd p then -1 else 0 in
  let remain := fun p => grains p =? 0 in
  do s <- grain_loop (flood_fill_dic W H) (S (Z.to_nat (W * H))) W H min_size
            (mkG grains remain (Z.to_nat (W * H)) 1 [] (find_left W H remain 0));
  match g_list s with
  | [] => Err IndexError
  | _ => Ok (g_grains s, g_list s)
  end.
