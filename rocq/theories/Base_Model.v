(** Model of defdap/base.py: grains as point lists, scattering and collecting
    grain data, grain images, averages, proxigram, components and clicks.

    Values are reals or nan; rounding is not modelled.  Map data is a function of
    pixels; a leading tensor index of the data is part of the value type, unless
    said otherwise. *)
From Coq Require Import String Ascii Reals.
From Coq Require Import List ZArith Bool.
Import ListNotations.
From Verif Require Import Py Grid Grid_Lemmas Boundary_Model Crystal_Model.
Open Scope Z_scope.

(** ** Numbers as numpy holds them *)
Inductive num := NaN | Fin (r : R).
Definition isnan (x : num) : bool := match x with NaN => true | Fin _ => false end.
Inductive dtype := DInt | DFloat.

(** Conversion to an integer, towards zero. *)
Definition trunc (x : R) : Z :=
  if Rle_dec 0 x then Int_part x else (- Int_part (- x))%Z.

(** [astype(int)] / filling an integer array with a float: nan becomes the
    least 64-bit integer (what numpy gives on the usual platforms). *)
Definition cast (d : dtype) (x : num) : num :=
  match d, x with
  | DFloat, _ => x
  | DInt, Fin r => Fin (IZR (trunc r))
  | DInt, NaN => Fin (- IZR (2 ^ 63))
  end.

(** Python's [l[i]]. *)
Definition py_nth {A} (l : list A) (i : Z) : res A :=
  match np_index (Z.of_nat (List.length l)) i with
  | Some k => match nth_error l (Z.to_nat k) with Some a => Ok a | None => Err IndexError end
  | None => Err IndexError
  end.

(** [im[y, x]] and [im[y, x] = v] on an array of shape (H, W). *)
Definition fetch {A} (W H : Z) (im : pix -> A) (p : pix) : res A :=
  match np_pix W H p with Some q => Ok (im q) | None => Err IndexError end.
Definition put {A} (W H : Z) (im : pix -> A) (p : pix) (v : A) : res (pix -> A) :=
  match np_pix W H p with Some q => Ok (upd im q v) | None => Err IndexError end.

Fixpoint map_res {A B} (f : A -> res B) (l : list A) : res (list B) :=
  match l with
  | [] => Ok []
  | a :: l => do b <- f a; do bs <- map_res f l; Ok (b :: bs)
  end.

(** ** Collecting and scattering *)

(** defdap/base.py 908-922 [Grain.grain_data]. *)
Definition grain_data {A} (W H : Z) (map_data : pix -> A) (pts : list pix) : res (list A) :=
  map_res (fetch W H map_data) pts.

(** defdap/base.py 620-626 [Map.grain_data_to_map].  [gs] holds, for each grain,
    its points and its values; [zero] is the array of zeros with the leading
    shape of the first grain's data. *)
Definition put_values {A} (W H : Z) (im : pix -> A) (pts : list pix) (vals : list A) : res (pix -> A) :=
  for_each (fun im ip => do v <- py_nth vals (fst ip); put W H im (snd ip) v)
           (combine (zseq 0 (List.length pts)) pts) im.
Definition grain_data_to_map {A} (W H : Z) (zero : A) (gs : list (list pix * list A)) : res (pix -> A) :=
  match gs with
  | [] => Err IndexError
  | _ => for_each (fun im g => put_values W H im (fst g) (snd g)) gs (fun _ => zero)
  end.

(** The argument [grain_ids]: an int or a sequence. *)
Inductive gids := IdInt (i : Z) | IdSeq (l : list Z).

(** [np.array(grain_data)]: one number per grain, rows of [cols] numbers, or some
    other shape with the given length of its first axis. *)
Inductive gvals :=
| GNums (l : list num)
| GRows (cols : nat) (rows : list (list num))
| GOther (len : nat).
Definition gvals_len (g : gvals) : nat :=
  match g with
  | GNums l => List.length l
  | GRows _ r => List.length r
  | GOther n => n
  end.

(** [for point in grain: im[point[1], point[0]] = v]. *)
Definition fill {A} (W H : Z) (im : pix -> A) (pts : list pix) (v : A) : res (pix -> A) :=
  for_each (fun im p => put W H im p v) pts im.

(** defdap/base.py 628-671 [Map.grain_data_to_map_data].  A pixel of the result
    is a list: one number, or three for RGB. *)
Definition grain_data_to_map_data (W H : Z) (grains : list (list pix)) (d : dtype)
  (data : gvals) (ids : gids) (bg : num) : res (pix -> list num) :=
  let ids := match ids with
             | IdInt i => if i =? -1 then zseq 0 (List.length grains) else [i]
             | IdSeq l => l
             end in
  if negb (Nat.eqb (gvals_len data) (List.length ids)) then Err ValueError
  else
    do rows <- match data with
               | GNums l => Ok (1%nat, map (fun x => [x]) l)
               | GRows cols rows => if Nat.eqb cols 3 then Ok (3%nat, rows) else Err ValueError
               | GOther _ => Err ValueError
               end;
    let '(depth, rows) := rows in
    for_each (fun im gv =>
                do pts <- py_nth grains (fst gv);
                fill W H im pts (snd gv))
             (combine ids rows) (fun _ => repeat (cast d bg) depth).

(** ** Averages *)
Definition nadd (x y : num) : num :=
  match x, y with Fin a, Fin b => Fin (a + b) | _, _ => NaN end.
Definition nsum (l : list num) : num := fold_left nadd l (Fin 0).
(** [ndarray.mean]: nan for no values. *)
Definition nmean (l : list num) : num :=
  match l with
  | [] => NaN
  | _ => match nsum l with NaN => NaN | Fin s => Fin (s / INR (List.length l)) end
  end.

(** defdap/base.py 592-618 [Map.calc_grain_average] on one number per pixel.
    [len] of an int is a TypeError. *)
Definition calc_grain_average (W H : Z) (grains : list (list pix)) (map_data : pix -> num)
  (ids : gids) : res (list num) :=
  do ids <- match ids with
            | IdInt i => if i =? -1 then Ok (zseq 0 (List.length grains)) else Err TypeError
            | IdSeq l => Ok l
            end;
  map_res (fun i => do pts <- py_nth grains i;
                    do vals <- grain_data W H map_data pts;
                    Ok (nmean vals)) ids.

(** ** Grain images *)
Fixpoint zmin (x : Z) (l : list Z) : Z := match l with [] => x | y :: l => zmin (Z.min x y) l end.
Fixpoint zmax (x : Z) (l : list Z) : Z := match l with [] => x | y :: l => zmax (Z.max x y) l end.

(** defdap/base.py 810-820 [extreme_coords]; the minimum of no values is a
    ValueError. *)
Definition extreme_coords (pts : list pix) : res (Z * Z * Z * Z) :=
  match pts with
  | [] => Err ValueError
  | p :: l => Ok (zmin (fst p) (map fst l), zmin (snd p) (map snd l),
                  zmax (fst p) (map fst l), zmax (snd p) (map snd l))
  end.

(** defdap/base.py 822-855 [centre_coords]; [round] and [ndarray.round] round to
    the nearest integer, ties to even. *)
Definition zsum (l : list Z) : Z := fold_left Z.add l 0.
Definition centre_coords (pts : list pix) (centre_type : string) (grain_coords : bool) : res (Z * Z) :=
  do e <- extreme_coords pts;
  let '(x0, y0, xmax, ymax) := e in
  do c <- (if String.eqb centre_type "box" then
             Ok (rint (IZR (xmax + x0) / 2), rint (IZR (ymax + y0) / 2))
           else if String.eqb centre_type "com" then
             let n := INR (List.length pts) in
             Ok (rint (IZR (zsum (map fst pts)) / n), rint (IZR (zsum (map snd pts)) / n))
           else Err ValueError);
  if grain_coords then Ok (fst c - x0, snd c - y0) else Ok c.

(** An image with its width and height. *)
Record image (A : Type) := Image { im_w : Z; im_h : Z; im_at : pix -> A }.
Arguments Image {A}. Arguments im_w {A}. Arguments im_h {A}. Arguments im_at {A}.

(** defdap/base.py 924-964 [grain_map_data], from the values iterated along the
    first axis of [grain_data].  For data of shape (N,) these are the values at
    the points; for data of shape (n, N), as [grain_data] returns it for a map
    of vectors, they are the n component arrays. *)
Definition grain_map_rows {A} (pts : list pix) (rows : list A) (bg : A) : res (image A) :=
  do e <- extreme_coords pts;
  let '(x0, y0, xmax, ymax) := e in
  let w := xmax - x0 + 1 in let h := ymax - y0 + 1 in
  do im <- for_each (fun im cd => put w h im (fst (fst cd) - x0, snd (fst cd) - y0) (snd cd))
                    (combine pts rows) (fun _ => bg);
  Ok (Image w h im).
(** defdap/base.py 908-922 and 945-950 on a map of shape (n, H, W): one row per
    component, along the points. *)
Definition grain_data_vec (W H n : Z) (map_data : Z -> pix -> num) (pts : list pix) : res (list (list num)) :=
  map_res (fun c => grain_data W H (map_data c) pts) (zseq 0 (Z.to_nat n)).
Definition grain_map_vec (W H n : Z) (d : dtype) (map_data : Z -> pix -> num) (pts : list pix) (bg : num)
  : res (image (list num)) :=
  do rows <- grain_data_vec W H n map_data pts;
  grain_map_rows pts rows (repeat (cast d bg) (List.length pts)).
(** The background is stored with the type of the data. *)
Definition grain_map_data (d : dtype) (pts : list pix) (data : list num) (bg : num) : res (image num) :=
  grain_map_rows pts data (cast d bg).

(** defdap/base.py 857-882 [grain_outline]: the array has integer type. *)
Definition grain_outline (pts : list pix) (bg fg : num) : res (image num) :=
  do e <- extreme_coords pts;
  let '(x0, y0, xmax, ymax) := e in
  let w := xmax - x0 + 1 in let h := ymax - y0 + 1 in
  do im <- for_each (fun im (c : pix) => put w h im (fst c - x0, snd c - y0) (cast DInt fg))
                    pts (fun _ => cast DInt bg);
  Ok (Image w h im).

(** defdap/base.py 966-1031 [grain_map_data_coarse], for one number per point. *)
Definition window (k n i : Z) : list Z :=
  let low := if 0 <=? i - k then i - k else 0 in
  let high := if i + k + 1 <=? n then i + k + 1 else n in
  zseq low (Z.to_nat (high - low)).
Definition coarse_pixel (d : dtype) (im : image num) (k : Z) (bg : num) (p : pix) : num :=
  if isnan (im_at im p) then cast d bg
  else
    let vals := filter (fun v => negb (isnan v))
      (flat_map (fun y => map (fun x => im_at im (x, y)) (window k (im_w im) (fst p)))
                (window k (im_h im) (snd p))) in
    match vals with
    | [] => cast d NaN
    | _ => cast d (nmean vals)
    end.
Definition grain_map_data_coarse (d : dtype) (pts : list pix) (data : list num) (k : Z) (bg : num)
  : res (image num) :=
  do im <- grain_map_data d pts data NaN;
  Ok (Image (im_w im) (im_h im) (coarse_pixel d im k bg)).

(** ** Proxigram *)

(** Distance from a pixel to a boundary point shifted by half a pixel. *)
Definition shifted_dist (b p : pix) : R :=
  sqrt ((IZR (snd p) - (IZR (snd b) + 1 / 2)) ^ 2 + (IZR (fst p) - (IZR (fst b) + 1 / 2)) ^ 2).
Definition rmin_list (x : R) (l : list R) : R := fold_left Rmin l x.

(** defdap/base.py 396-439 [calc_proxigram]: [trial] are the num_trials + 1
    layers; an assignment to layer [j] outside is an IndexError.  Boundary points
    come from a set, in no particular order. *)
Fixpoint set_nth {A} (n : nat) (v : A) (l : list A) : option (list A) :=
  match n, l with
  | _, [] => None
  | O, _ :: l => Some (v :: l)
  | S n, a :: l => match set_nth n v l with Some l => Some (a :: l) | None => None end
  end.
Definition layers_min (trial : list (pix -> R)) (p : pix) : R :=
  match trial with
  | [] => 0 (* never: there are num_trials + 1 layers *)
  | t :: ts => rmin_list (t p) (map (fun t => t p) ts)
  end.
Definition proxi_step (num_trials : nat) (s : list (pix -> R) * nat) (b : pix)
  : res (list (pix -> R) * nat) :=
  let '(trial, j) := s in
  match set_nth j (shifted_dist b) trial with
  | None => Err IndexError
  | Some trial =>
      if Nat.eqb j num_trials then
        match set_nth 0 (layers_min trial) trial with
        | None => Err IndexError
        | Some trial => Ok (trial, 1%nat)
        end
      else Ok (trial, S j)
  end.
Definition calc_proxigram (points : list pix) (num_trials : nat) : res (pix -> R) :=
  do s <- for_each (proxi_step num_trials) points (repeat (fun _ => 1000%R) (S num_trials), 1%nat);
  Ok (layers_min (fst s)).

(** ** Components *)

(** An array: its shape and its entries. *)
Record ndarray := ND { nd_shape : list Z; nd_at : list Z -> R }.

(** The argument [comp]. *)
Inductive comp := CNone | CInt (i : Z) | CTuple (l : list Z) | CStr (s : string) | COther.

(** defdap/base.py 455-490 [_validate_component], given the metadata [order] and
    [default_component]. *)
Definition validate_component (order : Z) (default c : comp) : res comp :=
  let c := match c with CNone => default | _ => c end in
  match c with
  | CNone => if negb (order =? 0) then Err ValueError else Ok CNone
  | CInt i => if negb (1 =? order) then Err ValueError else Ok (CTuple [i])
  | CTuple l => if negb (Z.of_nat (List.length l) =? order) then Err ValueError else Ok c
  | _ => Ok c
  end.

(** [a[idx]] for a tuple of integers. *)
Fixpoint nd_index (shape idx : list Z) : option (list Z * list Z) :=
  match idx, shape with
  | [], _ => Some ([], shape)
  | _ :: _, [] => None
  | i :: idx, n :: shape =>
      match np_index n i, nd_index shape idx with
      | Some i, Some (is, rest) => Some (i :: is, rest)
      | _, _ => None
      end
  end.
Definition nd_get (a : ndarray) (idx : list Z) : res ndarray :=
  match nd_index (nd_shape a) idx with
  | Some (is, rest) => Ok (ND rest (fun r => nd_at a (is ++ r)))
  | None => Err IndexError
  end.

Definition rsum (l : list R) : R := fold_left Rplus l 0%R.
Definition range (n : Z) : list Z := zseq 0 (Z.to_nat n).

(** [str.startswith] and [str.split('_')[1]]. *)
Fixpoint starts_with (pre s : string) : bool :=
  match pre, s with
  | EmptyString, _ => true
  | String a pre, String b s => Ascii.eqb a b && starts_with pre s
  | _, _ => false
  end.
Fixpoint to_underscore (s : string) : string * option string :=
  match s with
  | EmptyString => (EmptyString, None)
  | String c s => if Ascii.eqb c "_"%char then (EmptyString, Some s)
                  else let '(a, b) := to_underscore s in (String c a, b)
  end.
Definition second_part (s : string) : option string :=
  match snd (to_underscore s) with
  | None => None
  | Some rest => Some (fst (to_underscore rest))
  end.

(** What [_extract_component] returns: an array, or the colours computed by
    [calc_euler_colour] / [calc_ipf_colour] for the axis 0, 1 or 2. *)
Inductive extracted := XMap (a : ndarray) | XEuler (a : ndarray) | XIpf (a : ndarray) (axis : Z).

(** defdap/base.py 492-540 [_extract_component]. *)
Definition extract_component (a : ndarray) (c : comp) : res extracted :=
  match c with
  | CNone => Ok (XMap a)
  | CTuple l => do r <- nd_get a l; Ok (XMap r)
  | CStr s =>
      let s := lower s in
      if String.eqb s "norm" then
        match nd_shape a with
        | [n; h; w] =>
            Ok (XMap (ND [h; w] (fun r =>
              sqrt (rsum (map (fun i => nd_at a (i :: r) ^ 2)%R (range n))))))
        | [n; m; h; w] =>
            Ok (XMap (ND [h; w] (fun r =>
              sqrt (rsum (flat_map (fun i => map (fun j => nd_at a (i :: j :: r) ^ 2)%R (range m))
                                   (range n))))))
        | _ => Err ValueError
        end
      else if String.eqb s "all_euler" then Ok (XEuler a)
      else if starts_with "ipf" s then
        match second_part s with
        | None => Err IndexError
        | Some t =>
            if String.eqb t "x" then Ok (XIpf a 0)
            else if String.eqb t "y" then Ok (XIpf a 1)
            else if String.eqb t "z" then Ok (XIpf a 2)
            else Err KeyError
        end
      else Err ValueError
  | _ => Err ValueError
  end.

(** ** Clicks *)

(** defdap/base.py 182-208 [click_grain_id], up to the selection: the id of the
    selected grain, or None if nothing is selected.  [labels] is the grain map. *)
Definition click_grain_id (W H : Z) (labels : pix -> Z) (num_grains : nat) (on_map : bool) (x y : R)
  : res (option Z) :=
  if negb on_map then Ok None
  else
    do l <- fetch W H labels (trunc x, trunc y);
    let grain_id := l - 1 in
    if grain_id <? 0 then Ok None
    else do _ <- py_nth (repeat tt num_grains) grain_id; Ok (Some grain_id).

(** defdap/base.py 358-373: the grains highlighted by [click_grain_neighbours];
    [nb] lists the neighbours of a grain in the network. *)
Definition in_z (x : Z) (l : list Z) : bool := existsb (Z.eqb x) l.
Definition highlighted (nb : Z -> list Z) (g : Z) : list Z :=
  let first := nb g in
  let highlight := g :: first in
  let second :=
    fold_left (fun acc f =>
      fold_left (fun acc s => if negb (in_z s highlight) && negb (in_z s acc) then acc ++ [s] else acc)
                (nb f) acc)
      first [] in
  highlight ++ second.
