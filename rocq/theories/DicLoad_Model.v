(** From a file to a DIC map: defdap/hrdic.py 94-160, 187-217, 219-243, 254-274.  The loaders are
    in Io_Model, the strains in Dic_Model. *)
From Coq Require Import String Ascii Reals.
From Coq Require Import List ZArith Bool.
Import ListNotations.
From Verif Require Import Py Grid Base_Model Text_Model Dic_Model Io_Model.
Open Scope Z_scope.

(** The contents of a file, as far as the loaders look at it. *)
Inductive dic_file :=
| DavisFile (header : txt) (rows : list piv_row)
| PivText (rows : list piv_row)
| PivBinary (binning : R) (d : dic_data)
| PvFile (rows : list pv_row).

(** hrdic.py 199-212.  What a loader makes of a file of another kind is not modelled: an error. *)
Definition load_file (data_type : option txt) (f : dic_file) : res (R * dic_data) :=
  do l <- dic_get_loader data_type;
  match fst l, f with
  | Davis, DavisFile header rows => do r <- load_davis header rows; Ok (IZR (fst r), snd r)
  | OpenPivText, PivText rows => do r <- load_openpiv_text rows; Ok (IZR (fst r), snd r)
  | OpenPivBinary, PivBinary b d => do r <- load_openpiv_binary b d; Ok (b, r)
  | PyVale, PvFile rows => do r <- load_pyvale (snd l) rows; Ok (IZR (fst r), snd r)
  | _, _ => Err ValueError
  end.

(** An array of the map, from its values in C order; only pixels of the map are looked at. *)
Definition grid_of (d : dic_data) (l : list R) (p : pix) : R := nth (Z.to_nat (snd p * d_cols d + fst p)) l 0%R.
Definition displacement (d : dic_data) (c : Z) : pix -> R := grid_of d (if c =? 0 then d_u d else d_v d).
Definition coordinate (d : dic_data) (c : Z) : pix -> R := grid_of d (if c =? 0 then d_x d else d_y d).

(** A map: what was loaded, the strains, correlation values (rows, columns, values), scale. *)
Record dmap := DMap {
  m_rows : Z; m_cols : Z; m_binning : R; m_coord : Z -> pix -> R; m_disp : Z -> pix -> R;
  m_f : tensor; m_e : tensor; m_shear : pix -> R;
  m_corr : option (Z * Z * (pix -> R)); m_bse : option R
}.
(** 94-160 [Map.__init__] *)
Definition make_map (data_type : option txt) (f : dic_file) : res dmap :=
  do l <- load_file data_type f;
  let '(b, d) := l in
  do g <- deformation_gradient (d_cols d) (d_rows d) b (displacement d);
  let e := green_strain g in
  Ok (DMap (d_rows d) (d_cols d) b (coordinate d) (displacement d) g e (max_shear e) None None).

(** 219-243 [load_corr_val_data]; the file is an image of [r] rows and [c] columns
    (file_readers.py 727-747). *)
Definition load_corr_val (data_type : option string) (img : Z * Z * (pix -> R)) (m : dmap) : dmap * res unit :=
  let data_type := match data_type with Some t => t | None => "DavisImage"%string end in
  if String.eqb data_type "DavisImage" then
    let m := DMap (m_rows m) (m_cols m) (m_binning m) (m_coord m) (m_disp m) (m_f m) (m_e m) (m_shear m) (Some img) (m_bse m) in
    let '(r, c, _) := img in
    (m, if negb (m_cols m =? c) then Err AssertionError else if negb (m_rows m =? r) then Err AssertionError else Ok tt)
  else (m, Err GenericException).

(** 254-263 [set_scale] *)
Definition set_scale (s : R) (m : dmap) : dmap :=
  DMap (m_rows m) (m_cols m) (m_binning m) (m_coord m) (m_disp m) (m_f m) (m_e m) (m_shear m) (m_corr m) (Some s).
(** 265-274 [scale] *)
Definition scale (m : dmap) : option R := match m_bse m with None => None | Some s => Some (s * m_binning m)%R end.
