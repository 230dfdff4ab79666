(** Flood filled grains of a DIC map linked to EBSD grains: defdap/hrdic.py 623-703 with
    defdap/experiment.py 44-107. *)
From Coq Require Import String Reals.
From Coq Require Import List ZArith Bool.
From Verif Require Import Py Grid Base_Model Dic_Model Flood_Model DicGrains_Model DicLink_Model.
Import ListNotations.
Open Scope Z_scope.

Section Link.
(** As in DicLink_Model. *)
Notation trans := (R * R -> R * R).
Variable estimate : transform_class -> list (R * R) -> list (R * R) -> list (string * Z) -> trans.
Variable inverse : trans -> trans.
Variables dic ebsd : frame.
Variable r : relations.

(** defdap/experiment.py 96, for the frames given at defdap/hrdic.py 674. *)
Definition to_dic (m : dic_map) (e : ebsd_side) : res trans :=
  do dp <- coords (d_homog m);
  do ep <- coords (s_points e);
  get_frame_transform estimate inverse (fun f => if f =? dic then dp else ep) r ebsd dic.
(** 673-682: the pixels of the EBSD map, in raster order, that get a label when the labels of the DIC map
    are warped to it. *)
Definition under (m : dic_map) (e : ebsd_side) (t : trans) (lab : pix -> Z) (k : Z) : list pix :=
  filter (fun q => warp_nearest (snd (d_shape m)) (fst (d_shape m)) lab t q =? k) (all_pix (s_w e) (s_h e)).
(** 677-686 *)
Definition link_flooded (m : dic_map) (e : ebsd_side) (t : trans) (lab : pix -> Z) (gl : list (list pix)) : res (list dic_grain) :=
  map_res (fun g => do i <- link_dic_grain (map (s_labels e) (under m e t lab (fst g + 1))) (s_grains e); Ok (snd g, i))
          (combine (zseq 0 (List.length gl)) gl).
(** 623-703 [find_grains] with algorithm 'floodfill' and the boundary image; no grain at all is an
    IndexError (693), after the transform was made. *)
Definition find_flooded (m : dic_map) (e : ebsd_side) (bnd : pix -> bool) (min_size : Z) : res ((pix -> Z) * list dic_grain) :=
  match find_grains_dic (snd (d_shape m)) (fst (d_shape m)) bnd min_size with
  | Ok (lab, gl) => do t <- to_dic m e; do l <- link_flooded m e t lab gl; Ok (lab, l)
  | Err IndexError => do _ <- to_dic m e; Err IndexError
  | Err x => Err x
  end.
End Link.
