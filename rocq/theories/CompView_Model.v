(** Pictures of one grain: defdap/base.py 908-922, 1034-1156, 1178-1179, 1207-1209 and
    defdap/ebsd.py 1313-1332. *)
From Coq Require Import String Reals ZArith Bool.
From Coq Require Import List.
From Verif Require Import Py Grid Boundary_Model Crystal_Model Base_Model Quat_Model Pole_Model Ipf_Model Ebsd_Model MapView_Model.
Import ListNotations.
Open Scope Z_scope.

(** [map_data[..., points[:, 1], points[:, 0]]]: the last two axes become one along the
    points; entries outside the shape mean nothing. *)
Definition nd_points (a : ndarray) (pts : list pix) : res ndarray :=
  match rev (nd_shape a) with
  | w :: h :: dims =>
      do ps <- map_res (fetch w h (fun q => q)) pts;
      Ok (ND (rev dims ++ [Z.of_nat (List.length pts)])
             (fun r => match rev r with
                       | k :: i => match nth_error ps (Z.to_nat k) with
                                   | Some p => nd_at a (rev i ++ [snd p; fst p])
                                   | None => 0%R
                                   end
                       | [] => 0%R
                       end))
  | _ => Err IndexError
  end.

(** What [Grain._extract_component] returns; the colours are computed from the data. *)
(** base.py 1111-1156 *)
Definition grain_extract (a : ndarray) (c : comp) : res extracted :=
  match c with
  | CNone => Ok (XMap a)
  | CTuple l => do r <- nd_get a l; Ok (XMap r)
  | CStr s =>
      let s := lower s in
      if String.eqb s "norm" then
        match nd_shape a with
        | [n; k] =>
            Ok (XMap (ND [k] (fun r => sqrt (rsum (map (fun i => nd_at a (i :: r) ^ 2)%R (range n))))))
        | [n; m; k] =>
            Ok (XMap (ND [k] (fun r =>
              sqrt (rsum (flat_map (fun i => map (fun j => nd_at a (i :: j :: r) ^ 2)%R (range m)) (range n))))))
        | _ => Err ValueError
        end
      else if String.eqb s "all_euler" then Ok (XEuler a)
      else if starts_with "ipf" s then
        match second_part s with
        | None => Err IndexError
        | Some t =>
            if String.eqb t "x" then Ok (XIpf a 0)
            else if String.eqb t "y" then Ok (XIpf a 1)
            else if String.eqb t "z" then Ok (XIpf a 2)
            else Err KeyError
        end
      else Err ValueError
  | _ => Err ValueError
  end.
(** 1034-1058 on data of one value per point, of number type [d]: [zip] stops with the
    shorter. *)
Definition plot_list (d : dtype) (pts : list pix) (a : ndarray) : res (image num) :=
  match nd_shape a with
  | [k] => grain_map_data d pts (map (fun i => Fin (nd_at a [i])) (range k)) NaN
  | _ => Err ValueError
  end.
(** 1158-1209 and 539-590: the picture of a grain and of the map, for components that are not
    colours; [order] and [default] are stored with the data. *)
Definition plot_of_grain (d : dtype) (pts : list pix) (order : Z) (default : comp) (data : ndarray) (c : comp) : res (image num) :=
  do c <- validate_component order default c;
  do x <- grain_extract data c;
  match x with XMap r => plot_list d pts r | _ => Err NotImplementedError end.
Definition plot_of_map (order : Z) (default : comp) (data : ndarray) (c : comp) : res ndarray :=
  do c <- validate_component order default c;
  do x <- extract_component data c;
  match x with XMap r => Ok r | _ => Err NotImplementedError end.

(** ebsd.py 1321-1332: angles of the points over the norm of the grain's phase *)
Definition grain_euler_colour (name : string) (angles : list (R * R * R)) : res (list (R * R * R)) :=
  match euler_norm name None with
  | Some n => Ok (map (fun e => div3 e n) angles)
  | None => Err UnboundLocalError
  end.
(** 1313-1319 *)
Definition grain_ipf_colour (name : string) (oris : list quat) (direction : vec3) (default : string)
  : res (list (option (R * R * R))) := calc_ipf_colours oris direction name default.
