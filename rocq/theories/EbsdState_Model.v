(** What an EBSD map keeps between calls: defdap/ebsd.py 82-148, 229-264, 572-580, 582-662,
    664-796, 853-944, defdap/base.py 102-109, 396-439 and defdap/utils.py 160-186, 366-404. *)
From Coq Require Import String Reals.
From Coq Require Import List ZArith Bool.
From Verif Require Import Py Grid Quat_Model Flood_Model Boundary_Model Base_Model Ebsd_Model.
Import ListNotations.
Open Scope Z_scope.

(** Orientations; [None] is one of nans, which [filter_data] can leave. *)
Definition oimage := pix -> option quat.
(** Points of the grains and the phase given to each. *)
Definition glist := (list (list pix) * list (option Z))%type.

(** defdap/ebsd.py 713-732: no boundary at a nan, which is not greater than the tolerance. *)
Definition exceeds (tol : R) (m : option R) : bool := match m with Some m => gtb m (tol * (PI / 180)) | None => false end.
Definition pair_misori (g : string) (a b : option quat) : option R :=
  match a, b with Some a, Some b => Some (neighbour_misori (sym_eqv g) a b) | _, _ => None end.
(** defdap/ebsd.py 664-750 [find_boundaries] *)
Definition bounds_of (W H : Z) (g : string) (ori : oimage) (phase : pix -> Z) (tol : R) : bset * bset :=
  (from_image W H (phase_x W phase) (phase_y H phase),
   from_image W H
     (fun p => exceeds tol (if fst p <? W - 1 then pair_misori g (ori p) (ori (fst p + 1, snd p)) else Some edge_misori) || phase_x W phase p)
     (fun p => exceeds tol (if snd p <? H - 1 then pair_misori g (ori p) (ori (fst p, snd p + 1)) else Some edge_misori) || phase_y H phase p)).
(** defdap/ebsd.py 853-944 [find_grains] *)
Definition grains_of (W H num_phases : Z) (b : bset * bset) (phase : pix -> Z) (min_size : Z) : res ((pix -> Z) * glist) :=
  do bx <- bs_image W H (bs_x (snd b));
  do by_ <- bs_image W H (bs_y (snd b));
  do r <- find_grains W H bx by_ phase num_phases min_size;
  let '(lab, gl, ph) := r in Ok (lab, (gl, ph)).
(** defdap/ebsd.py 752-796 [build_neighbour_network] *)
Definition network_of (W H : Z) (b : bset * bset) (lab : pix -> Z) (gl : glist) : res (list seg) :=
  build_neighbour_network W H (Z.of_nat (List.length (fst gl))) lab (bs_x (snd b)) (bs_y (snd b)).

Section Session.
(** Shape; crystal structures of the phases. *)
Variables W H : Z.
Variable names : list string.
(** Values of KAM, GND and Nye tensor images, and what is calculated (see Ebsd_Model for
    orientations without nan). *)
Variables K G T : Type.
Variable kam_of : oimage -> res K.
Variable nye_of : string -> oimage -> res (G * T).
(** 582-660: the filtered orientations. *)
Variable filtered : R -> oimage -> oimage.

Record emap := EMap {
  em_euler : pix -> R * R * R;
  em_bc : option (pix -> Z); em_bs : option (pix -> Z);
  em_phase : pix -> Z;
  em_primary : Z;                       (* [primary_phase_id] *)
  em_ori : option oimage;               (* stored data; [None] if not generated *)
  em_bounds : option (bset * bset);     (* phase and grain boundaries *)
  em_labels : option (pix -> Z);
  em_list : option glist;               (* [self._grains] *)
  em_kam : option K; em_gnd : option G;
  em_prox : option (pix -> R);
  em_net : option (list seg)            (* [self.neighbour_network] *)
}.
(** 82-148: a map that was loaded *)
Definition loaded (euler : pix -> R * R * R) (bc bs : option (pix -> Z)) (phase : pix -> Z) : emap :=
  EMap euler bc bs phase 0 None None None None None None None None.

Definition set_ori s o := EMap (em_euler s) (em_bc s) (em_bs s) (em_phase s) (em_primary s) o (em_bounds s) (em_labels s) (em_list s) (em_kam s) (em_gnd s) (em_prox s) (em_net s).
Definition set_bounds s b := EMap (em_euler s) (em_bc s) (em_bs s) (em_phase s) (em_primary s) (em_ori s) b (em_labels s) (em_list s) (em_kam s) (em_gnd s) (em_prox s) (em_net s).
Definition set_grains s lab gl := EMap (em_euler s) (em_bc s) (em_bs s) (em_phase s) (em_primary s) (em_ori s) (em_bounds s) lab gl (em_kam s) (em_gnd s) (em_prox s) (em_net s).
Definition set_kam s k := EMap (em_euler s) (em_bc s) (em_bs s) (em_phase s) (em_primary s) (em_ori s) (em_bounds s) (em_labels s) (em_list s) k (em_gnd s) (em_prox s) (em_net s).
Definition set_gnd s g := EMap (em_euler s) (em_bc s) (em_bs s) (em_phase s) (em_primary s) (em_ori s) (em_bounds s) (em_labels s) (em_list s) (em_kam s) g (em_prox s) (em_net s).
Definition set_prox s p := EMap (em_euler s) (em_bc s) (em_bs s) (em_phase s) (em_primary s) (em_ori s) (em_bounds s) (em_labels s) (em_list s) (em_kam s) (em_gnd s) p (em_net s).
Definition set_net s n := EMap (em_euler s) (em_bc s) (em_bs s) (em_phase s) (em_primary s) (em_ori s) (em_bounds s) (em_labels s) (em_list s) (em_kam s) (em_gnd s) (em_prox s) n.
Definition set_primary s i := EMap (em_euler s) (em_bc s) (em_bs s) (em_phase s) i (em_ori s) (em_bounds s) (em_labels s) (em_list s) (em_kam s) (em_gnd s) (em_prox s) (em_net s).

(** 572-580 [calc_quat_array] *)
Definition from_euler (s : emap) : oimage := fun p => Some (quat_of_euler (em_euler s p)).
(** [data.orientation]: the stored one, otherwise generated and stored *)
Definition ori_of (s : emap) : oimage := match em_ori s with Some o => o | None => from_euler s end.
Definition keep_ori (s : emap) : emap := set_ori s (Some (ori_of s)).
(** 229-239 [primary_phase] *)
Definition structure (s : emap) : res string := py_get names (em_primary s).

Definition gen_bounds (tol : R) (s : emap) : emap * res (bset * bset) :=
  match structure s with
  | Err e => (s, Err e)
  | Ok g =>
      let s := keep_ori s in
      let b := bounds_of W H g (ori_of s) (em_phase s) tol in
      (set_bounds s (Some b), Ok b)
  end.
Definition read_bounds (s : emap) : emap * res (bset * bset) :=
  match em_bounds s with Some b => (s, Ok b) | None => gen_bounds 10 s end.

(** 853-944: the list of grains is set at the end, the label image is returned *)
Definition call_find_grains (min_size : Z) (s : emap) : emap * res (pix -> Z) :=
  let '(s, b) := read_bounds s in
  match (do b <- b; grains_of W H (Z.of_nat (List.length names)) b (em_phase s) min_size) with
  | Err e => (s, Err e)
  | Ok (lab, gl) => (set_grains s (em_labels s) (Some gl), Ok lab)
  end.
Definition gen_grains (min_size : Z) (s : emap) : emap * res (pix -> Z) :=
  let '(s, r) := call_find_grains min_size s in
  match r with Err e => (s, Err e) | Ok lab => (set_grains s (Some lab) (em_list s), Ok lab) end.
Definition read_labels (s : emap) : emap * res (pix -> Z) :=
  match em_labels s with Some lab => (s, Ok lab) | None => gen_grains 10 s end.
(** base.py 105-109 [grains]; the length of [None] is a TypeError *)
Definition read_list (s : emap) : emap * res glist :=
  let '(s, r) := read_labels s in
  (s, do _ <- r; match em_list s with Some gl => Ok gl | None => Err TypeError end).

Definition gen_kam (s : emap) : emap * res K :=
  let s := keep_ori s in
  match kam_of (ori_of s) with Err e => (s, Err e) | Ok k => (set_kam s (Some k), Ok k) end.
Definition read_kam (s : emap) : emap * res K := match em_kam s with Some k => (s, Ok k) | None => gen_kam s end.
(** GND is stored, the Nye tensor is not (142: [save] is False) *)
Definition gen_nye (s : emap) : emap * res (G * T) :=
  match structure s with
  | Err e => (s, Err e)
  | Ok g =>
      let s := keep_ori s in
      match nye_of g (ori_of s) with Err e => (s, Err e) | Ok (d, t) => (set_gnd s (Some d), Ok (d, t)) end
  end.
Definition read_gnd (s : emap) : emap * res G :=
  match em_gnd s with Some d => (s, Ok d) | None => let '(s, r) := gen_nye s in (s, do r <- r; Ok (fst r)) end.
Definition read_nye (s : emap) : emap * res T := let '(s, r) := gen_nye s in (s, do r <- r; Ok (snd r)).
(** base.py 396-439 *)
Definition gen_prox (trials : nat) (s : emap) : emap * res (pix -> R) :=
  let '(s, b) := read_bounds s in
  match (do b <- b; calc_proxigram (bs_points (snd b)) trials) with
  | Err e => (s, Err e)
  | Ok d => (set_prox s (Some d), Ok d)
  end.
Definition read_prox (s : emap) : emap * res (pix -> R) :=
  match em_prox s with Some d => (s, Ok d) | None => gen_prox (Z.to_nat 500) s end.
(** 752-796: grains, then boundaries are read *)
Definition build_net (s : emap) : emap * res unit :=
  let '(s, gl) := read_list s in
  match gl with
  | Err e => (s, Err e)
  | Ok gl =>
      let '(s, b) := read_bounds s in
      let '(s, lab) := read_labels s in
      match (do b <- b; do lab <- lab; network_of W H b lab gl) with
      | Err e => (s, Err e)
      | Ok net => (set_net s (Some net), Ok tt)
      end
  end.
(** 246-264 [rotate_data]: line 255 calculates orientations and drops them *)
Definition rotate (s : emap) : emap * res unit :=
  let set euler bc bs phase ori := EMap euler bc bs phase (em_primary s) ori (em_bounds s) (em_labels s) (em_list s) (em_kam s) (em_gnd s) (em_prox s) (em_net s) in
  let euler := flip W H (em_euler s) in
  match em_bc s with
  | None => (set euler None (em_bs s) (em_phase s) (em_ori s), Err KeyError)
  | Some bc =>
      let bc := Some (flip W H bc) in
      match em_bs s with
      | None => (set euler bc None (em_phase s) (em_ori s), Err KeyError)
      | Some bs =>
          let s := set euler bc (Some (flip W H bs)) (flip W H (em_phase s)) (em_ori s) in
          match half_turn with
          | None => (s, Err ZeroDivisionError)
          | Some t => (set_ori s (Some (fun p => match ori_of s p with Some q => Some (quat_mul false q t) | None => None end)), Ok tt)
          end
      end
  end.
(** 582-662 [filter_data]: stored, then [quats] is not assigned on a small map *)
Definition do_filter (tol : R) (s : emap) : emap * res unit :=
  (set_ori s (Some (filtered tol (ori_of s))), if (5 <=? H) && (5 <=? W) then Ok tt else Err UnboundLocalError).

Inductive call :=
| ReadOri | ReadBounds | ReadGrains | ReadKam | ReadGnd | ReadNye | ReadProx
| GenOri | GenBounds (tol : R) | GenGrains (min_size : Z) | GenKam | GenNye | GenProx (trials : nat)  (* [data.generate] *)
| FindGrains (min_size : Z)                                                        (* called directly *)
| BuildNet | Rotate | Filter (tol : R) | SetPrimary (i : Z).
Definition done {A} (r : emap * res A) : emap * res unit := (fst r, do _ <- snd r; Ok tt).
Definition step (s : emap) (c : call) : emap * res unit :=
  match c with
  | ReadOri => (keep_ori s, Ok tt)
  | ReadBounds => done (read_bounds s)
  | ReadGrains => done (read_list s)
  | ReadKam => done (read_kam s)
  | ReadGnd => done (read_gnd s)
  | ReadNye => done (read_nye s)
  | ReadProx => done (read_prox s)
  | GenOri => (set_ori s (Some (from_euler s)), Ok tt)
  | GenBounds tol => done (gen_bounds tol s)
  | GenGrains n => done (gen_grains n s)
  | GenKam => done (gen_kam s)
  | GenNye => done (gen_nye s)
  | GenProx n => done (gen_prox n s)
  | FindGrains n => done (call_find_grains n s)
  | BuildNet => build_net s
  | Rotate => rotate s
  | Filter tol => do_filter tol s
  | SetPrimary i => (set_primary s i, Ok tt)
  end.
Definition run (cs : list call) (s : emap) : emap := fold_left (fun s c => fst (step s c)) cs s.
End Session.
