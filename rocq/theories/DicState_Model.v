(** What a DIC map keeps between calls: defdap/hrdic.py 94-122, 219-243, 314-445, 482-543, 590-596,
    692-703, 883-896 and defdap/utils.py 160-186, 262-272. *)
From Coq Require Import String Reals ZArith Bool.
From Coq Require Import List.
From Verif Require Import Py Grid Base_Model Dic_Model.
Import ListNotations.
Open Scope Z_scope.

Section Session.
(** Values of the pattern image and of the correlation image, EBSD maps, images of grain labels. *)
Variables X C E L : Type.
(** hrdic.py 569-703, the grains found on a map, with the linked EBSD map and the map the
    boundaries are taken from. *)
Variable find : dic_map -> E -> E -> res L.

Record session := Session {
  s_map : dic_map;
  s_mask : option (image bool);
  s_pattern : option (image X);      (* the image at the path set *)
  s_window : option Z;
  s_linked : option E;               (* [self.ebsd_map] *)
  s_sources : list E;                (* sources of the derivatives for boundaries *)
  s_grains : option L;               (* the stored label image *)
  s_corr : option (image C)
}.
(** 94-122 *)
Definition new_session (xdim ydim : Z) : session :=
  Session (Dic xdim ydim (Crops 0 0 0 0) (ydim, xdim) []) None None None None [] None None.

Inductive call :=
| SetCrop (left right top bottom : option Z) (update : bool)
| SetMask (mask : option (image bool)) (dilation : nat)
| SetPattern (img : image X) (window : Z)
| LinkEbsd (e : E)
| ReadGrains
| FindGrains
| LoadCorr (img : image C)
| SetPoints (pts : list point).

(** 314-357: the distances are stored before the homologous points are moved, the shape after;
    points moved before the failure are left out. *)
Definition crops_given (c : crops) (left right top bottom : option Z) : crops :=
  Crops (match left with Some l => l | None => c_left c end) (match right with Some r => r | None => c_right c end)
        (match top with Some t => t | None => c_top c end) (match bottom with Some b => b | None => c_bottom c end).
Definition do_crop (m : dic_map) (left right top bottom : option Z) (update : bool) : dic_map * res unit :=
  match set_crop m left right top bottom update with
  | Ok m => (m, Ok tt)
  | Err e => (Dic (d_xdim m) (d_ydim m) (crops_given (d_crops m) left right top bottom) (d_shape m) (d_homog m), Err e)
  end.
(** utils.py 262-272 and 883-896: only the first derivative is tried; lines and points are
    moved from the frame of the map linked last. *)
Definition read_boundaries (s : session) : res (E * E) :=
  match s_sources s, s_linked s with
  | e :: _, Some l => Ok (e, l)
  | _, _ => Err KeyError
  end.
(** 590-596, 625: without a linked map finding grains fails *)
Definition find_grains (s : session) : res L :=
  match s_linked s with
  | None => Err GenericException
  | Some l => do b <- read_boundaries s; find (s_map s) l (fst b)
  end.
(** 529-543: not stored, so loaded again each time, then cropped *)
Definition read_pattern (s : session) : res (image X) :=
  match s_pattern s with
  | None => Err FileNotFoundError
  | Some img =>
      let b := match s_window s with Some b => b | None => 1 end in
      do img <- load_pattern (s_map s) img b; Ok (crop (s_map s) img b)
  end.
Definition read_grains (s : session) : res L := match s_grains s with Some l => Ok l | None => find_grains s end.
Definition store_grains (s : session) (r : res L) : session * res unit :=
  match r with
  | Ok l => (Session (s_map s) (s_mask s) (s_pattern s) (s_window s) (s_linked s) (s_sources s) (Some l) (s_corr s), Ok tt)
  | Err e => (s, Err e)
  end.
Definition with_map (s : session) (m : dic_map) : session :=
  Session m (s_mask s) (s_pattern s) (s_window s) (s_linked s) (s_sources s) (s_grains s) (s_corr s).

Definition step (s : session) (c : call) : session * res unit :=
  match c with
  | SetCrop l r t b u => let '(m, e) := do_crop (s_map s) l r t b u in (with_map s m, e)
  | SetMask k n =>
      match calc_mask (s_map s) k n with
      | Ok k => (Session (s_map s) k (s_pattern s) (s_window s) (s_linked s) (s_sources s) (s_grains s) (s_corr s), Ok tt)
      | Err e => (s, Err e)
      end
  | SetPattern img w =>                                            (* 512-527 *)
      (Session (s_map s) (s_mask s) (Some img) (Some w) (s_linked s) (s_sources s) (s_grains s) (s_corr s), Ok tt)
  | LinkEbsd e =>                                                  (* 393-404: a new function each time *)
      (Session (s_map s) (s_mask s) (s_pattern s) (s_window s) (Some e) (s_sources s ++ [e]) (s_grains s) (s_corr s), Ok tt)
  | ReadGrains => store_grains s (read_grains s)
  | FindGrains => store_grains s (find_grains s)
  | LoadCorr img =>                                                (* 238-243: stored, then checked *)
      (Session (s_map s) (s_mask s) (s_pattern s) (s_window s) (s_linked s) (s_sources s) (s_grains s) (Some img),
       if (im_w img =? d_xdim (s_map s)) && (im_h img =? d_ydim (s_map s)) then Ok tt else Err AssertionError)
  | SetPoints pts =>
      (with_map s (Dic (d_xdim (s_map s)) (d_ydim (s_map s)) (d_crops (s_map s)) (d_shape (s_map s)) pts), Ok tt)
  end.
Definition run (cs : list call) (s : session) : session := fold_left (fun s c => fst (step s c)) cs s.
End Session.
