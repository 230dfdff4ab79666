(** Model of the 'warp' branch of [hrdic.Map.find_grains] and of the linking
    of flood-fill grains with EBSD grains (defdap/hrdic.py 589-621, 671-686). *)
From Coq Require Import List ZArith Bool Lia.
Import ListNotations.
From Verif Require Import Py Grid.
Open Scope Z_scope.

(** [np.unique]: sorted distinct values. *)
Fixpoint insert_unique (v : Z) (l : list Z) : list Z :=
  match l with
  | [] => [v]
  | w :: l' => if v <? w then v :: l
               else if v =? w then l else w :: insert_unique v l'
  end.
Definition np_unique (l : list Z) : list Z := fold_right insert_unique [] l.

(** [np.digitize(x, bins, right=True)] for increasing bins: the number of bins
    below x. *)
Definition digitize_right (bins : list Z) (x : Z) : nat :=
  length (filter (fun b => b <? x) bins).

(** Python's indexing of a list of length n: negative positions count from the
    end. *)
Definition py_index {A} (l : list A) (i : Z) : res A :=
  let n := Z.of_nat (length l) in
  let j := if i <? 0 then n + i else i in
  if (j <? 0) || (n <=? j) then Err IndexError
  else match nth_error l (Z.to_nat j) with
       | Some a => Ok a
       | None => Err IndexError
       end.

(** One DIC grain: its points, and the EBSD grain it is linked to, given as
    the position in the EBSD map's grain list. *)
Definition dic_grain := (list pix * nat)%type.

(** defdap/hrdic.py 589-621.  [warped] is the EBSD label image after warping
    to the W x H DIC frame (line 591; the image warp itself is skimage's),
    [ebsd] the EBSD grain list, here the list of positions of its grains.
    [measure.regionprops] gives for each positive label its pixels in raster
    order; lines 615-616 raise KeyError for a label without pixels. *)
Definition warp_find_grains (W H : Z) (warped : pix -> Z) (n_ebsd : nat)
  : res ((pix -> Z) * list dic_grain) :=
  let uniq := np_unique (map warped (all_pix W H)) in
  let neg_vals := filter (fun v => v <=? 0) uniq in
  let ids := filter (fun v => v >? 0) uniq in
  let old := neg_vals ++ ids in
  let new := neg_vals ++ zseq 1 (length ids) in
  let grains := fun p => nth (digitize_right old (warped p)) new 0 in
  let coords k := filter (fun p => grains p =? k) (all_pix W H) in
  do gl <- for_each
    (fun acc e =>
       let '(dic_id, ebsd_id) := e in
       match coords (dic_id + 1) with
       | [] => Err KeyError
       | pts => do g <- py_index (seq 0 n_ebsd) (ebsd_id - 1);
                Ok (acc ++ [(pts, g)])
       end)
    (combine (zseq 0 (length ids)) ids) [];
  match gl with
  | [] => Err IndexError   (* line 693: grain_list[0] *)
  | _ => Ok (grains, gl)
  end.

(** [scipy.stats.mode]: the most frequent value, the least one on ties. *)
Definition count (v : Z) (l : list Z) : nat := length (filter (Z.eqb v) l).
Definition mode (l : list Z) : option Z :=
  match l with
  | [] => None
  | v0 :: _ =>
    Some (fold_left (fun best v =>
            if ((count best l <? count v l)%nat
                || ((count best l =? count v l)%nat && (v <? best)))
            then v else best) l v0)
  end.

(** defdap/hrdic.py 681-685: [labels] are the EBSD labels under the warped DIC
    grain, result is the position of the linked EBSD grain.  The mode of an
    empty selection is nan, and indexing a list with it raises TypeError. *)
Definition link_dic_grain (labels : list Z) (n_ebsd : nat) : res nat :=
  match mode labels with
  | None => Err TypeError
  | Some m => py_index (seq 0 n_ebsd) (m - 1)
  end.
