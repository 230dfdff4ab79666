(** Grain boundaries: finding them, storing them as point sets, images and
    lines, and the network of neighbouring grains. *)
From Coq Require Import String Reals.
From Coq Require Import List ZArith Bool.
Import ListNotations.
From Verif Require Import Py Grid Grid_Lemmas Quat_Model Flood_Model.
Open Scope Z_scope.

(** ** BoundarySet *)

(** numpy indexing with one integer on an axis of length [n]: negative indices
    count from the end; [None] is an IndexError. *)
Definition np_index (n i : Z) : option Z :=
  if (0 <=? i) && (i <? n) then Some i
  else if (- n <=? i) && (i <? 0) then Some (i + n)
  else None.

Definition np_pix (W H : Z) (p : pix) : option pix :=
  match np_index W (fst p), np_index H (snd p) with
  | Some x, Some y => Some (x, y)
  | _, _ => None
  end.

(** [set(points)] as a list.  A Python set has no specified iteration order;
    statements about code that iterates over one quantify over all orders. *)
Definition py_set (l : list pix) : list pix := nodup pix_dec l.

(** defdap/ebsd.py 1573-1581 [BoundarySet.__init__]. *)
Record bset := BSet { bs_x : list pix; bs_y : list pix }.
Definition boundary_set (px py : list pix) : bset := BSet (py_set px) (py_set py).

(** [zip( *image.transpose().nonzero())] (ebsd.py 1587-1588): the marked pixels
    as (x, y), column by column. *)
Definition nonzero_T (W H : Z) (im : pix -> bool) : list pix :=
  filter im (flat_map (fun x => map (fun y => (x, y)) (zseq 0 (Z.to_nat H)))
               (zseq 0 (Z.to_nat W))).

(** defdap/ebsd.py 1583-1589. *)
Definition from_image (W H : Z) (imx imy : pix -> bool) : bset :=
  boundary_set (nonzero_T W H imx) (nonzero_T W H imy).

(** defdap/ebsd.py 1601-1603 [points]. *)
Definition bs_points (b : bset) : list pix := py_set (bs_x b ++ bs_y b).

(** defdap/ebsd.py 1605-1608 [_image], and the identical defdap/hrdic.py
    898-901.  [tuple(zip( *points))[::-1]] is (ys, xs) if there is a point and
    the empty tuple if there is none; [image[()] = True] assigns to the whole
    array. *)
Definition bs_image (W H : Z) (points : list pix) : res (pix -> bool) :=
  match points with
  | [] => Ok (fun _ => true)
  | _ =>
    if forallb (fun p => match np_pix W H p with Some _ => true | None => false end)
         points
    then Ok (fun q => existsb (fun p =>
               match np_pix W H p with Some p' => pix_eqb p' q | None => false end)
               points)
    else Err IndexError
  end.

(** A line between two points; coordinates are doubled, since the code works
    in halves of a pixel. *)
Definition line := (pix * pix)%type.

(** defdap/ebsd.py 1642-1653: deltas for 'x' (0.5, -0.5, 0.5, 0.5) and 'y'
    (-0.5, 0.5, 0.5, 0.5), doubled. *)
Definition line_x (p : pix) : line :=
  let '(i, j) := p in ((2 * i + 1, 2 * j - 1), (2 * i + 1, 2 * j + 1)).
Definition line_y (p : pix) : line :=
  let '(i, j) := p in ((2 * i - 1, 2 * j + 1), (2 * i + 1, 2 * j + 1)).

(** The value returned: one list, or a tuple of three. *)
Inductive lines_result :=
| OneList (l : list line)
| ThreeLists (lx ly l : list line).

(** defdap/ebsd.py 1630-1659 [boundary_points_to_lines]. *)
Definition boundary_points_to_lines (px py : option (list pix))
  : res lines_result :=
  match px, py with
  | None, None => Err ValueError
  | Some px, None => Ok (OneList (map line_x px))
  | None, Some py => Ok (OneList (map line_y py))
  | Some px, Some py =>
      Ok (ThreeLists (map line_x px) (map line_y py) (map line_x px ++ map line_y py))
  end.

(** defdap/ebsd.py 1622-1628 [lines] (and 1737-1744 for a segment): the third
    component. *)
Definition bs_lines (px py : list pix) : res (list line) :=
  do r <- boundary_points_to_lines (Some px) (Some py);
  match r with
  | ThreeLists _ _ l => Ok l
  | OneList _ => Err ValueError
  end.

(** ** BoundarySegment *)

(** defdap/ebsd.py 1662-1676.  A grain object is represented by its grain id,
    so [is] on grains is equality of ids. *)
Record seg := Seg {
  sg1 : Z; sg2 : Z;
  seg_px : list pix; seg_py : list pix;
  seg_ox : list bool; seg_oy : list bool
}.
Definition new_seg (a b : Z) : seg := Seg a b [] [] [] [].

(** defdap/ebsd.py 1678-1685 [__eq__] for two segments. *)
Definition seg_eq (s t : seg) : bool :=
  ((sg1 s =? sg1 t) && (sg2 s =? sg2 t)) || ((sg1 s =? sg2 t) && (sg2 s =? sg1 t)).

(** defdap/ebsd.py 1687-1688 [__len__]. *)
Definition seg_len (s : seg) : nat := (length (seg_px s) + length (seg_py s))%nat.

(** defdap/ebsd.py 1690-1698 [addBoundaryPoint]. *)
Definition add_boundary_point (s : seg) (p : pix) (kind owner : Z) : res seg :=
  if kind =? 0 then
    Ok (Seg (sg1 s) (sg2 s) (seg_px s ++ [p]) (seg_py s)
            (seg_ox s ++ [owner =? sg1 s]) (seg_oy s))
  else if kind =? 1 then
    Ok (Seg (sg1 s) (sg2 s) (seg_px s) (seg_py s ++ [p])
            (seg_ox s) (seg_oy s ++ [owner =? sg1 s]))
  else Err ValueError.

(** defdap/ebsd.py 1700-1721 [boundary_point_pairs]. *)
Definition boundary_point_pairs (s : seg) (kind : Z) : list (pix * pix) :=
  let '(pts, owners, d) :=
    if kind =? 0 then (seg_px s, seg_ox s, (1, 0))
    else (seg_py s, seg_oy s, (0, 1)) in
  map (fun po : pix * bool =>
    let (point, owner) := po in
    let other := (fst point + fst d, snd point + snd d) in
    if owner then (point, other) else (other, point)) (combine pts owners).

(** defdap/ebsd.py 1591-1599 [from_boundary_segments]: [b_segs[0]] raises on an
    empty list. *)
Definition from_boundary_segments (segs : list seg) : res bset :=
  let px := flat_map seg_px segs in
  let py := flat_map seg_py segs in
  match segs with
  | [] => Err IndexError
  | _ => Ok (boundary_set px py)
  end.

(** ** The neighbour network *)

(** [nn[grain][nei_grain]['boundary']]: an edge of an undirected graph, found
    from either end. *)
Definition joins (a b : Z) (s : seg) : bool :=
  ((sg1 s =? a) && (sg2 s =? b)) || ((sg1 s =? b) && (sg2 s =? a)).

(** Lookup or creation of the edge, then [addBoundaryPoint] on its segment
    (ebsd.py 784-794).  The edges are kept in order of creation. *)
Fixpoint nn_add (segs : list seg) (a b : Z) (p : pix) (kind : Z) : res (list seg) :=
  match segs with
  | [] => do s <- add_boundary_point (new_seg a b) p kind a; Ok [s]
  | s :: rest =>
      if joins a b s then
        do s' <- add_boundary_point s p kind a; Ok (s' :: rest)
      else
        do rest' <- nn_add rest a b p kind; Ok (s :: rest')
  end.

Definition np_get (W H : Z) (lab : pix -> Z) (p : pix) : res Z :=
  match np_pix W H p with Some p' => Ok (lab p') | None => Err IndexError end.

(** defdap/ebsd.py 764-794: the body of the loop for one point; [num_grains] is
    the length of the grain list, which [self[grain_id]] indexes. *)
Definition nn_point (W H num_grains : Z) (lab : pix -> Z) (i : Z)
  (segs : list seg) (p : pix) : res (list seg) :=
  let '(x, y) := p in
  if (x =? 0) || (y =? 0) || (x =? W - 1) || (y =? H - 1) then Ok segs
  else
    do gl <- np_get W H lab (x, y);
    do nl <- np_get W H lab (x - i + 1, y + i);
    let grain_id := gl - 1 in
    let nei := nl - 1 in
    if nei =? grain_id then Ok segs
    else if (nei <? 0) || (grain_id <? 0) then Ok segs
    else if (grain_id <? num_grains) && (nei <? num_grains)
    then nn_add segs grain_id nei p i
    else Err IndexError.

(** defdap/ebsd.py 752-796 [build_neighbour_network]; [px] and [py] are the two
    point sets in whatever order they are iterated. *)
Definition build_neighbour_network (W H num_grains : Z) (lab : pix -> Z)
  (px py : list pix) : res (list seg) :=
  do segs <- for_each (nn_point W H num_grains lab 0) px [];
  for_each (nn_point W H num_grains lab 1) py segs.

(** ** Finding the boundaries *)
Open Scope R_scope.

(** Clipping at one (ebsd.py 727-728) of the absolute dot product. *)
Definition clip1 (c : R) : R := if Rlt_dec 1 c then 1 else c.

(** [np.max] of a non-empty array. *)
Definition rmax (l : list R) : R :=
  match l with [] => 0 | a :: l => fold_left Rmax l a end.

(** defdap/ebsd.py 684-732 for one pair of neighbours: [q] and its next
    neighbour [p]; component 0 is the raw neighbour, component i the i-th
    symmetry applied to it. *)
Definition neighbour_misori (syms : list quat) (q p : quat) : R :=
  2 * acos (rmax (map (fun c => clip1 (Rabs (dot q c)))
                      (p :: map (fun s => sym_comps s p) (tl syms)))).

(** The same at the last column or row, where the array keeps its initial
    ones. *)
Definition edge_misori : R := 2 * acos 1.

Definition gtb (a b : R) : bool := if Rlt_dec b a then true else false.

(** defdap/ebsd.py 734-739, np.roll and the cleared last column (row). *)
Definition phase_x (W : Z) (phase : pix -> Z) (p : pix) : bool :=
  if (fst p =? W - 1)%Z then false
  else negb (phase p =? phase ((fst p + 1) mod W, snd p))%Z.
Definition phase_y (H : Z) (phase : pix -> Z) (p : pix) : bool :=
  if (snd p =? H - 1)%Z then false
  else negb (phase p =? phase (fst p, (snd p + 1) mod H))%Z.

(** The images passed to [BoundarySet.from_image] (ebsd.py 742-746); [tol] is
    in degrees. *)
Definition grain_bx (W : Z) (g : string) (ori : pix -> quat) (phase : pix -> Z)
  (tol : R) (p : pix) : bool :=
  gtb (if (fst p <? W - 1)%Z
       then neighbour_misori (sym_eqv g) (ori p) (ori (fst p + 1, snd p)%Z)
       else edge_misori) (tol * (PI / 180))
  || phase_x W phase p.
Definition grain_by (H : Z) (g : string) (ori : pix -> quat) (phase : pix -> Z)
  (tol : R) (p : pix) : bool :=
  gtb (if (snd p <? H - 1)%Z
       then neighbour_misori (sym_eqv g) (ori p) (ori (fst p, snd p + 1)%Z)
       else edge_misori) (tol * (PI / 180))
  || phase_y H phase p.

(** defdap/ebsd.py 664-750 [find_boundaries]; [g] names the crystal structure
    of the primary phase, whose [symmetries] are those of [Quat.sym_eqv].
    Returns (phase boundaries, grain boundaries). *)
Definition find_boundaries (W H : Z) (g : string) (ori : pix -> quat)
  (phase : pix -> Z) (tol : R) : bset * bset :=
  (from_image W H (phase_x W phase) (phase_y H phase),
   from_image W H (grain_bx W g ori phase tol) (grain_by H g ori phase tol)).

(** Boundaries, then grains: [map.data.generate('grain_boundaries', ...)]
    followed by defdap/ebsd.py 853-944 [find_grains], which reads the images
    rebuilt from the point sets (868-869). *)
Definition find_boundaries_then_grains (W H : Z) (g : string)
  (ori : pix -> quat) (phase : pix -> Z) (tol : R) (num_phases min_size : Z)
  : res ((pix -> Z) * list (list pix) * list (option Z)) :=
  let gb := snd (find_boundaries W H g ori phase tol) in
  do bx <- bs_image W H (bs_x gb);
  do by_ <- bs_image W H (bs_y gb);
  find_grains W H bx by_ phase num_phases min_size.
