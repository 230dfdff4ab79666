(** From a text file to an EBSD map and back: defdap/ebsd.py 82-148, 150-174, 176-199.  The files
    are those of Ctf_Model, the map is that of EbsdState_Model. *)
From Coq Require Import String Ascii Reals.
From Coq Require Import List ZArith Bool.
From Verif Require Import Py Grid Quat_Model Crystal_Model Text_Model Ctf_Model Ebsd_Model EbsdState_Model.
Import ListNotations.
Open Scope Z_scope.

(** An array of the map, from its values in C order; only pixels of the map are looked at. *)
Definition grid_of {A} (cols : Z) (d : A) (l : list A) (p : pix) : A := nth (Z.to_nat (snd p * cols + fst p)) l d.
(** defdap/crystal.py 34-41: the structure of a phase, from its Laue group (a phase of another
    group cannot be made). *)
Definition structure_name (laue : Z) : string := if laue =? 9 then "hexagonal" else "cubic".

Section Load.
(** Values of KAM and GND images, see EbsdState_Model. *)
Variables K G : Type.
(** A map: shape, step, phases, and data. *)
Record ebsd := EBSD { e_rows : Z; e_cols : Z; e_step : R; e_phases : list phase_in; e_map : emap K G }.
Definition e_names (e : ebsd) : list string := map (fun p => structure_name (pi_laue p)) (e_phases e).
(** A loaded phase as one that can be written; a loader always gives three lengths and angles
    (file_readers.py 116-129). *)
Definition phase_of (o : phase_out) : phase_in :=
  let l i := nth i (po_lattice o) 0%R in
  PhaseIn (po_name o) (ph_laue (po_phase o)) (l 0%nat, l 1%nat, l 2%nat) (l 3%nat, l 4%nat, l 5%nat).

(** 151-174 [load_data] of text files, and 82-148: all else is calculated later. *)
Definition load_map (conv : string) (fs : files) (path : txt) : res ebsd :=
  do l <- ctf_load conv fs path;
  let '(rows, cols) := l_shape l in
  Ok (EBSD rows cols (l_step l) (map phase_of (l_phases l))
        (EbsdState_Model.loaded K G (grid_of cols (0, 0, 0)%R (l_euler l)) (Some (grid_of cols 0 (l_bc l))) (Some (grid_of cols 0 (l_bs l)))
           (grid_of cols 0 (l_phase l)))).

(** 187-197: what is written.  How an orientation of nans is written is not modelled: here it is
    one of zeros. *)
Definition contents (e : ebsd) (bc : pix -> Z) : map_in :=
  MapIn (e_rows e) (e_cols e) (e_step e) (Q4 1 0 0 0) (e_phases e) (em_phase K G (e_map e))
    (fun p => match ori_of K G (e_map e) p with Some q => q | None => Q4 0 0 0 0 end) bc.
(** 176-199 [save]: the files and the map afterwards, which keeps its orientations once they are
    read.  A map without band contrast cannot be saved. *)
Definition save_map (fs : files) (path : txt) (data_type : option txt) (e : ebsd) : ebsd * res files :=
  match get_writer data_type with
  | Err x => (e, Err x)
  | Ok _ =>
      let e := EBSD (e_rows e) (e_cols e) (e_step e) (e_phases e) (keep_ori K G (e_map e)) in
      (e, match em_bc K G (e_map e) with
          | None => Err KeyError
          | Some bc => save fs path data_type (contents e bc)
          end)
  end.
End Load.
