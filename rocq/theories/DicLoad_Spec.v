(** Vocabulary for DIC maps made from files. *)
From Coq Require Import String Ascii Reals.
From Coq Require Import List ZArith Bool.
Import ListNotations.
From Verif Require Import Py Grid Base_Model Text_Model Dic_Model Dic_Spec Io_Model Io_Spec DicLoad_Model.
Open Scope Z_scope.

(** The file records displacement (u, v) at (x, y). *)
Definition records (f : dic_file) (x y u v : R) : Prop :=
  match f with
  | DavisFile _ rows | PivText rows => In (PivRow x y u v) rows
  | PivBinary _ d => measured d x y u v
  | PvFile rows => exists w, In w rows /\ IZR (pv_x w) = x /\ IZR (pv_y w) = y /\ pv_u w = u /\ pv_v w = v
  end.
(** All displacements of the file are those of one deformation of the plane: [x + k + G x]. *)
Definition uniform_motion (G : Z -> Z -> R) (k : Z -> R) (f : dic_file) : Prop :=
  forall x y u v, records f x y u v -> u = (k 0%Z + G 0%Z 0%Z * x + G 0%Z 1%Z * y)%R /\ v = (k 1%Z + G 1%Z 0%Z * x + G 1%Z 1%Z * y)%R.
(** A file that the software named by [data_type] writes for [ny] rows of [nx] points in steps of
    [b] from (x0, y0): rows with y increasing for DaVis and PyVale, decreasing for OpenPIV if [turned]
    is false. *)
Definition written (turned : bool) (data_type : option txt) (f : dic_file) (b : R) (nx ny : Z) (x0 y0 : R) : Prop :=
  (0 < b)%R /\ 2 <= nx /\ 2 <= ny /\
  match f with
  | DavisFile header rows => turned = false /\ (exists s, dic_get_loader data_type = Ok (Davis, s)) /\
      exists n v z, davis_header header = Ok (n, v, z, ny, nx) /\ b = IZR z /\ raster_file true b x0 y0 nx ny rows
  | PivText rows => (exists s, dic_get_loader data_type = Ok (OpenPivText, s)) /\ (exists z, b = IZR z) /\
      (b / 2 <= x0 < 3 * b / 2)%R /\ (b / 2 <= y0 < 3 * b / 2)%R /\ raster_file turned b x0 y0 nx ny rows
  | PivBinary b' d => (exists s, dic_get_loader data_type = Ok (OpenPivBinary, s)) /\ b' = b /\ d_rows d = ny /\ d_cols d = nx /\ whole d /\ raster_map turned b x0 y0 d
  | PvFile rows => turned = false /\ (exists s, dic_get_loader data_type = Ok (PyVale, s) /\ (s = lit "csv" \/ s = lit "binary")) /\
      exists z x0' y0', b = IZR z /\ x0 = IZR x0' /\ y0 = IZR y0' /\ raster_rows z x0' y0' nx ny rows
  end.
(** The strain of a deformation gradient F at a pixel: E = (F^T F - 1) / 2, and half the difference
    of its principal values, the greatest shear over all directions of the plane. *)
Definition strain_of (F : Z -> Z -> R) (i j : Z) : R := ((F 0%Z i * F 0%Z j + F 1%Z i * F 1%Z j - delta i j) / 2)%R.
Definition shear_along (E : Z -> Z -> R) (t : R) : R :=
  (* the component of [E] between the directions at [t] and at [t] + 90 degrees *)
  (cos t * (E 0%Z 0%Z * - sin t + E 0%Z 1%Z * cos t) + sin t * (E 1%Z 0%Z * - sin t + E 1%Z 1%Z * cos t))%R.
Definition greatest_shear (E : Z -> Z -> R) (s : R) : Prop := (exists t, shear_along E t = s) /\ forall t, (shear_along E t <= s)%R.
(** Everything but the correlation values. *)
Definition same_but_corr (m m' : dmap) : Prop :=
  m_rows m' = m_rows m /\ m_cols m' = m_cols m /\ m_binning m' = m_binning m /\ m_coord m' = m_coord m /\ m_disp m' = m_disp m /\ m_f m' = m_f m /\ m_e m' = m_e m /\ m_shear m' = m_shear m /\ m_bse m' = m_bse m.
