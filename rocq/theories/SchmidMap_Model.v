(** Calculations for all grains of a map, and the map of Schmid factors: defdap/ebsd.py 1050-1136.
    One grain is in GrainState_Model, the values of one grain in Ebsd_Model, filling a map in
    MapView_Model. *)
From Coq Require Import String Ascii Reals ZArith Bool.
From Coq Require Import List.
From Verif Require Import Py Grid Base_Model Quat_Model Crystal_Model Ebsd_Model GrainState_Model MapView_Model.
Import ListNotations.
Open Scope Z_scope.

(** 1064-1066, 1074-1076: the grains in order; an error ends the loop, what was done stays done.
    The reports of progress are left out. *)
Fixpoint each_until (f : mgrain -> grain * res unit) (gs : list mgrain) : list mgrain * res unit :=
  match gs with
  | [] => ([], Ok tt)
  | x :: gs =>
      let '(g, e) := f x in
      match e with
      | Err z => ((fst x, g) :: gs, Err z)
      | Ok _ => let '(l, e) := each_until f gs in ((fst x, g) :: l, e)
      end
  end.
(** 1050-1069 [calc_average_grain_schmid_factors] *)
Definition map_schmid (load : vec3) (systems : option (list (list slip_system))) : list mgrain -> list mgrain * res unit :=
  each_until (fun x => calc_schmid (fst (fst x)) load systems (snd x)).
(** 1072-1079 [calc_rdr] *)
Definition map_rdr : list mgrain -> list mgrain * res unit :=
  each_until (fun x => calc_grain_rdr (fst (fst x)) (snd x)).

(** Python's [max] of a list of numbers ([None] is nan): a later value is taken if it is greater. *)
Definition py_max (l : list (option R)) : res (option R) :=
  match l with
  | [] => Err ValueError
  | a :: l => Ok (fold_left (fun m x => match m, x with
                                        | Some a, Some b => if Rlt_dec a b then x else m
                                        | _, _ => m
                                        end) l a)
  end.
(** 1114-1131: the value of one grain.  A grain without factors fails when its factors are looked at. *)
Definition grain_factor (planes directions : option (list Z)) (g : grain) : res (option R) :=
  match g_sfs g with
  | Some sfs => do l <- chosen_factors sfs planes directions; py_max l
  | None => match planes, directions with
            | Some [], _ | Some _, Some [] => Err ValueError
            | _, _ => Err TypeError
            end
  end.
Definition to_num (x : option R) : num := match x with Some x => Fin x | None => NaN end.
(** 1110-1134 [plot_average_grain_schmid_factors_map]: the values plotted. *)
Definition plot_schmid_map (W H : Z) (planes directions : option (list Z)) (gs : list mgrain) : res (pix -> list num) :=
  match gs with
  | [] => Err IndexError
  | x :: _ =>
      match g_sfs (snd x) with
      | None => Err GenericException
      | Some _ =>
          do vals <- map_res (fun x : mgrain => grain_factor planes directions (snd x)) gs;
          plot_grain_data_map W H (map (fun x : mgrain => snd (fst x)) gs) None (Some (DFloat, GNums (map to_num vals))) (IdInt (-1)) (Fin (1 / 2))
      end
  end.
