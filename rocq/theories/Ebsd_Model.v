(** Model of defdap/ebsd.py: KAM, Nye tensor, rotation, the Kuwahara filter, grain
    reference orientations, slip traces, Schmid factor maps, boundary
    misorientations and the grain linker.

    Reals for floats; rounding is not modelled. *)
From Coq Require Import String Reals.
From Coq Require Import List ZArith Bool.
Import ListNotations.
From Verif Require Import Py Grid Quat_Model Boundary_Model.
Open Scope Z_scope.

(** ** KAM *)

(** defdap/ebsd.py 418-429 (rows) and 433-444 (columns): the mean |dot| with the
    one or two neighbours at position [i] of a line of [n] orientations. *)
Definition kam_line (n : Z) (q : Z -> quat) (i : Z) : R :=
  if i =? 0 then Rabs (dot (q 0) (q 1))
  else if i =? n - 1 then Rabs (dot (q (n - 1)) (q (n - 2)))
  else ((Rabs (dot (q i) (q (i + 1)%Z)) + Rabs (dot (q i) (q (i - 1)%Z))) / 2)%R.

(** defdap/ebsd.py 403-449 [calc_kam].  The second row or column does not exist for
    fewer than two: an IndexError. *)
Definition calc_kam (W H : Z) (ori : pix -> quat) : res (pix -> R) :=
  if (H <? 2) || (W <? 2) then Err IndexError
  else Ok (fun p =>
    let rows := clip1 (kam_line H (fun y => ori (fst p, y)) (snd p)) in
    let kam := ((rows + kam_line W (fun x => ori (x, snd p)) (fst p)) / 2)%R in
    (2 * acos (clip1 kam))%R).

(** ** Nye tensor *)

(** defdap/ebsd.py 466-484: all equivalents of an orientation, the raw one first. *)
Definition sym_column (g : string) (q : quat) : list quat := q :: map (fun s => sym_comps s q) (tl (sym_eqv g)).

(** defdap/ebsd.py 490-505, 518-521: the equivalent of the neighbour [p] chosen
    for [q]. *)
Definition nearest_comp (g : string) (q p : quat) : quat :=
  let col := sym_column g p in
  nth (argmax (map (fun c => clip1 (Rabs (dot q c))) col)) col (Q4 0 0 0 0).

Definition mscale (a : R) (m : mat3) : mat3 := M3 (vscale a (r0 m)) (vscale a (r1 m)) (vscale a (r2 m)).
Definition madd (a b : mat3) : mat3 := M3 (vadd (r0 a) (r0 b)) (vadd (r1 a) (r1 b)) (vadd (r2 a) (r2 b)).
Definition mzero : mat3 := M3 (V3 0 0 0) (V3 0 0 0) (V3 0 0 0).

(** defdap/ebsd.py 516-524 and 525-533: (rot_matrix(qi.conjugate * q0) - 1) over
    the step in metres.  The step size is not zero. *)
Definition distortion (g : string) (step : R) (q p : quat) : mat3 :=
  let miso := quat_mul false (conjugate (Quat false (nearest_comp g q p))) (Quat false q) in
  mscale (/ step / (1 / 10 ^ 6))
    (madd (rot_matrix miso) (M3 (V3 (-1) 0 0) (V3 0 (-1) 0) (V3 0 0 (-1)))).

(** defdap/ebsd.py 512-533: both names are one array, so the distortion along x at a
    pixel is overwritten by that along y.  Returns (betaderx, betadery); pixels of
    the last row and column stay zero. *)
Definition betas (W H : Z) (g : string) (step : R) (ori : pix -> quat) (p : pix) : mat3 * mat3 :=
  if (fst p <? W - 1) && (snd p <? H - 1) then
    let array := distortion g step (ori p) (ori (fst p + 1, snd p)) in
    let array := distortion g step (ori p) (ori (fst p, snd p + 1)) in
    (array, array)
  else (mzero, mzero).

(** defdap/ebsd.py 536-542. *)
Definition bavg : R := 14 / 10 ^ 11.
Definition nye_of (b : mat3 * mat3) : mat3 :=
  let '(bx, by_) := b in
  let row x y := V3 (-1 * vz y / bavg) (vz x / bavg) ((vx y - vy x) / bavg) in
  M3 (row (r0 bx) (r0 by_)) (row (r1 bx) (r1 by_)) (row (r2 bx) (r2 by_)).

Definition abs3 (v : vec3) : R := (Rabs (vx v) + Rabs (vy v) + Rabs (vz v))%R.
Definition total3 (a : mat3) : R :=
  (30 / 10 * (Rabs (vz (r0 a)) + Rabs (vz (r1 a)) + Rabs (vz (r2 a))))%R.
Definition total9 (a : mat3) : R := (30 / 20 * (abs3 (r0 a) + abs3 (r1 a) + abs3 (r2 a)))%R.

(** defdap/ebsd.py 561-563 for one pixel: the third test is made on the values
    changed by the first. *)
Definition gnd_of (a : mat3) : R :=
  let t3 := total3 a in
  let t3 := if Rlt_dec (Rabs t3) 1 then (10 ^ 12)%R else t3 in
  if Rlt_dec (Rabs t3) 1 then (10 ^ 12)%R else total9 a.

(** defdap/ebsd.py 452-569 [calc_nye]: (GND, Nye tensor). *)
Definition calc_nye (W H : Z) (g : string) (step : R) (ori : pix -> quat) : (pix -> R) * (pix -> mat3) :=
  let alpha p := nye_of (betas W H g step ori p) in
  (fun p => gnd_of (alpha p), alpha).

(** ** Euler colouring *)

(** defdap/ebsd.py 280-285: the [else] branch builds an exception without raising
    it, so [norm] keeps its earlier value. *)
Definition euler_norm (name : string) (norm : option (R * R * R)) : option (R * R * R) :=
  if String.eqb name "cubic" then Some (2 * PI, PI / 2, PI / 2)%R
  else if String.eqb name "hexagonal" then Some (PI, PI, PI / 3)%R
  else norm.

Definition py_get {A} (l : list A) (i : Z) : res A :=
  match np_index (Z.of_nat (List.length l)) i with
  | Some k => match nth_error l (Z.to_nat k) with Some a => Ok a | None => Err IndexError end
  | None => Err IndexError
  end.

Definition div3 (a b : R * R * R) : R * R * R :=
  let '(a1, a2, a3) := a in let '(b1, b2, b3) := b in (a1 / b1, a2 / b2, a3 / b3)%R.

(** defdap/ebsd.py 267-272: the phase ids and the names of their structures. *)
Definition phase_choice (names : list string) (phases : option (list Z)) : res (list (string * Z)) :=
  match phases with
  | None => Ok (combine names (map Z.of_nat (seq 0 (List.length names))))
  | Some ids => for_each (fun acc i => do n <- py_get names i; Ok (acc ++ [(n, i)])) ids []
  end.

(** defdap/ebsd.py 266-291 [calc_euler_colour]; [names] are the structure names of
    the phases of the map. *)
Definition calc_euler_colour (names : list string) (phases : option (list Z)) (bg : option (R * R * R))
    (phase : pix -> Z) (euler : pix -> R * R * R) : res (pix -> R * R * R) :=
  do chosen <- phase_choice names phases;
  let bg := match bg with Some c => c | None => (0, 0, 0)%R end in
  do r <- for_each (fun acc np =>
        let norm := euler_norm (fst np) (fst acc) in
        match norm with
        | None => Err UnboundLocalError
        | Some n => Ok (norm, fun p => if phase p =? snd np + 1 then div3 (euler p) n else snd acc p)
        end) chosen (None, fun _ => bg);
  Ok (snd r).

(** ** Rotating the map *)

(** What a map holds; [None] for data that does not exist, or was not generated
    yet in the case of the orientations. *)
Record ebsd_state := Ebsd {
  e_euler : pix -> R * R * R;
  e_bc : option (pix -> Z); e_bs : option (pix -> Z);
  e_phase : pix -> Z;
  e_ori : option (pix -> quat);
}.

(** [a[::-1, ::-1]] for shape (H, W). *)
Definition flip {A} (W H : Z) (a : pix -> A) : pix -> A := fun p => a (W - 1 - fst p, H - 1 - snd p).

(** defdap/ebsd.py 572-580 [calc_quat_array], one pixel. *)
Definition quat_of_euler (e : R * R * R) : quat := let '(a, b, c) := e in from_euler_angles a b c.

(** Reading [data.orientation]: generated and kept when missing. *)
Definition read_ori (s : ebsd_state) : pix -> quat :=
  match e_ori s with Some o => o | None => fun p => quat_of_euler (e_euler s p) end.

(** defdap/ebsd.py 258. *)
Definition half_turn : option quat :=
  match from_axis_angle (V3 0 0 1) PI with Some q => Some (conjugate q) | None => None end.

(** defdap/ebsd.py 246-264 [rotate_data]: the state afterwards and what is raised.
    Line 255 computes new orientations and drops them. *)
Definition rotate_data (W H : Z) (s : ebsd_state) : ebsd_state * res unit :=
  let s := Ebsd (flip W H (e_euler s)) (e_bc s) (e_bs s) (e_phase s) (e_ori s) in
  match e_bc s with
  | None => (s, Err KeyError)
  | Some bc =>
      let s := Ebsd (e_euler s) (Some (flip W H bc)) (e_bs s) (e_phase s) (e_ori s) in
      match e_bs s with
      | None => (s, Err KeyError)
      | Some bs =>
          let s := Ebsd (e_euler s) (e_bc s) (Some (flip W H bs)) (flip W H (e_phase s)) (e_ori s) in
          match half_turn with
          | None => (s, Err ZeroDivisionError)
          | Some t =>
              let ori := read_ori s in
              (Ebsd (e_euler s) (e_bc s) (e_bs s) (e_phase s) (Some (fun p => quat_mul false (ori p) t)), Ok tt)
          end
      end
  end.

(** ** Kuwahara filter *)

(** defdap/ebsd.py 600-609: the eight 3x3 windows, by the offset (y, x) of their
    first pixel, and their pixels. *)
Definition quadrants : list (Z * Z) :=
  [(-2, -2); (-2, -1); (-2, 0); (-1, 0); (0, 0); (0, -1); (0, -2); (-1, -2)].
Definition window_pix (p : pix) (o : Z * Z) : list pix :=
  flat_map (fun dy => map (fun dx => (fst p + snd o + dx, snd p + fst o + dy)) [0; 1; 2]) [0; 1; 2].

Definition gtbR (a b : R) : bool := if Rlt_dec b a then true else false.
(** The orientations of a window within the tolerance of the centre. *)
Definition close_quats (ori : pix -> quat) (tol : R) (p : pix) (o : Z * Z) : list quat :=
  filter (fun c => gtbR (Rabs (dot c (ori p))) tol) (map ori (window_pix p o)).

(** defdap/ebsd.py 611-616: the mean of no values is nan. *)
Definition quad_mean (ori : pix -> quat) (tol : R) (p : pix) (o : Z * Z) : option R :=
  match close_quats ori tol p o with
  | [] => None
  | l => Some (fold_left Rplus (map (fun c => Rabs (dot c (ori p))) l) 0 / INR (List.length l))%R
  end.

(** [np.argmax]: nan counts as greatest. *)
Fixpoint first_none {A} (l : list (option A)) (i : nat) : option nat :=
  match l with [] => None | None :: _ => Some i | Some _ :: l => first_none l (S i) end.
Definition argmax_nan (l : list (option R)) : nat :=
  match first_none l 0 with
  | Some i => i
  | None => argmax (map (fun o => match o with Some x => x | None => 0%R end) l)
  end.

(** defdap/ebsd.py 582-662 [filter_data], tolerance in degrees.  The second
    component is what is raised after the new orientations were stored: with no
    pixel to filter, [quats] is not assigned.  None is an orientation of nans. *)
Definition in_filter (W H : Z) (p : pix) : bool :=
  (2 <=? snd p) && (snd p <? H - 2) && (2 <=? fst p) && (fst p <? W - 2).
Definition filter_data (W H : Z) (ori : pix -> quat) (misori_tol : R) : (pix -> option quat) * res unit :=
  let tol := cos (misori_tol * (PI / 180) / 2) in
  let new p :=
    if in_filter W H p then
      let k := argmax_nan (map (quad_mean ori tol p) quadrants) in
      fold_left quat_iadd (close_quats ori tol p (nth k quadrants (0, 0))) (Q4 0 0 0 0)
    else ori p in
  (fun p => match normalise (new p) with Some q => Some (Quat false q) | None => None end,
   if (5 <=? H) && (5 <=? W) then Ok tt else Err UnboundLocalError).

(** ** Grains *)

(** defdap/ebsd.py 1228-1234 and 1247-1248: the stored reference is used if there
    is one. *)
Definition ref_or_average (ref : option quat) (oris : list quat) (g : string) : option quat :=
  match ref with Some r => Some r | None => calc_average_ori (calc_sym_eqvs oris g) end.

(** defdap/ebsd.py 1263-1279 and 1300-1309: minQuat * ref_inv in the northern
    hemisphere, as a rotation vector; None where the division is 0/0. *)
Definition grod_axis (ref m : quat) : option vec3 :=
  let r := conjugate ref in
  let dq := Q4 (qw r * qw m - qx r * qx m - qy r * qy m - qz r * qz m)
               (qx r * qw m + qw r * qx m + qz r * qy m - qy r * qz m)
               (qy r * qw m + qw r * qy m + qx r * qz m - qz r * qx m)
               (qz r * qw m + qw r * qz m + qy r * qx m - qx r * qy m) in
  let dq := if Rlt_dec (qw dq) 0 then qneg dq else dq in
  let s := sqrt (1 - qw dq ^ 2) in
  if Req_EM_T s 0 then None
  else Some (V3 (2 * qx dq * acos (qw dq) / s) (2 * qy dq * acos (qw dq) / s) (2 * qz dq * acos (qw dq) / s))%R.

(** defdap/ebsd.py 1287-1311 [calc_grod]: angle and axis of each point.  None when
    there is no average. *)
Definition calc_grod (ref : option quat) (oris : list quat) (g : string) : option (list (R * option vec3)) :=
  match ref_or_average ref oris g with
  | None => None
  | Some r => Some (map (fun mq => (2 * acos (fst mq), grod_axis r (snd mq))%R) (calcMisOri (calc_sym_eqvs oris g) r))
  end.

(** defdap/ebsd.py 1236-1285 [build_mis_ori_list]: the list and its mean. *)
Definition build_mis_ori_list (ref : option quat) (oris : list quat) (g : string)
  : option (list R * list (option vec3) * R) :=
  match ref_or_average ref oris g with
  | None => None
  | Some r =>
      let mq := calcMisOri (calc_sym_eqvs oris g) r in
      Some (map fst mq, map (fun m => grod_axis r (snd m)) mq,
            fold_left Rplus (map fst mq) 0 / INR (List.length mq))%R
  end.

(** defdap/ebsd.py 1535-1570 [calc_slip_traces] for one plane normal: (trace angle,
    inclination); None is nan, for a plane parallel to the screen. *)
Definition slip_trace (q : quat) (n : vec3) : option (R * R) :=
  let screen := transform_vector q (V3 0 0 1) in
  let cross := vcross screen n in
  let incl := acos (vdot screen n) in
  let incl := if Rlt_dec (PI / 2) incl then (PI - incl)%R else incl in
  let i := transform_vector (conjugate q) cross in
  let m := sqrt (vdot i i) in
  if Req_EM_T m 0 then None
  else
    let i := V3 (vx i / m) (vy i / m) (vz i / m) in
    let i := if Rlt_dec 0 (vx i) then vscale (-1) i else i in
    Some (acos (vdot i (V3 0 1 0)), incl).

(** defdap/ebsd.py 1476-1486 [calc_rdr] for one slip direction; None for a division
    by zero. *)
Definition grain_rdr (q : quat) (d : vec3) : option R :=
  let s := transform_vector (conjugate q) d in
  if Req_EM_T (vy s) 0 then None else Some (- vx s / vy s)%R.

(** defdap/ebsd.py 1114-1131: the numbers whose maximum is shown for one grain. *)
Definition chosen_factors {A} (sfs : list (list A)) (planes directions : option (list Z)) : res (list A) :=
  match planes with
  | Some ps =>
      for_each (fun acc pl =>
        match directions with
        | Some ds =>
            for_each (fun acc d => do grp <- py_get sfs pl; do v <- py_get grp d; Ok (acc ++ [v])) ds acc
        | None => do grp <- py_get sfs pl; Ok (acc ++ grp)
        end) ps []
  | None => Ok (concat sfs)
  end.
(** [max] of no values is a ValueError. *)
Definition shown_factor (sfs : list (list R)) (planes directions : option (list Z)) : res R :=
  do l <- chosen_factors sfs planes directions;
  match l with [] => Err ValueError | a :: l => Ok (fold_left Rmax l a) end.

(** defdap/ebsd.py 1746-1756 [BoundarySegment.misorientation]: angle and axis; the
    axis is None for nan. *)
Definition seg_misorientation (q1 q2 : quat) (g : string) : res (R * option vec3) :=
  match mis_ori_full q1 q2 g with
  | (_, None) => Err UnboundLocalError
  | (m, Some c) =>
      Ok ((2 * acos m)%R,
          match mis_ori_axis q1 c with
          | None => None
          | Some a =>
              let n := sqrt (vdot a a) in
              if Req_EM_T n 0 then None else Some (V3 (vx a / n) (vy a / n) (vz a / n))
          end)
  end.

(** ** Linker *)

(** The selected grain of each map, and the links. *)
Record linker := Lk { k_sel : list (option Z); k_links : list (list Z) }.

Fixpoint all_selected (l : list (option Z)) : option (list Z) :=
  match l with
  | [] => Some []
  | None :: _ => None
  | Some g :: l => match all_selected l with Some gs => Some (g :: gs) | None => None end
  end.
Fixpoint zlist_eqb (a b : list Z) : bool :=
  match a, b with
  | [], [] => true
  | x :: a, y :: b => (x =? y) && zlist_eqb a b
  | _, _ => false
  end.

(** defdap/ebsd.py 1893-1909 [make_link]. *)
Definition make_link (s : linker) : linker * res unit :=
  match all_selected (k_sel s) with
  | None => (s, Err GenericException)
  | Some l =>
      if existsb (zlist_eqb l) (k_links s) then (s, Ok tt)
      else (Lk (k_sel s) (k_links s ++ [l]), Ok tt)
  end.
(** defdap/ebsd.py 1911-1915 [reset_links]. *)
Definition reset_links (s : linker) : linker := Lk (k_sel s) [].
(** defdap/ebsd.py 1844-1891 [click_grain_guess]: line 1859 reads
    [plot.callingMap]; plots only have [calling_map] (defdap/plotting.py 345). *)
Definition click_grain_guess (s : linker) (on_axes : bool) : linker * res unit :=
  if on_axes then (s, Err AttributeError) else (s, Ok tt).

(** Reference orientations: [refs i g] is that of grain [g] of map [i]. *)
Definition refs := Z -> Z -> option quat.
Definition set_ref (r : refs) (i g : Z) (v : option quat) : refs :=
  fun i' g' => if (i' =? i) && (g' =? g) then v else r i' g'.
(** defdap/ebsd.py 1919-1928 [set_ref_ori_from_master], for links of existing
    grains, one per map, and [n] maps. *)
Definition set_ref_ori_from_master (n : nat) (links : list (list Z)) (r : refs) : refs :=
  fold_left (fun r i =>
    fold_left (fun r link =>
      match nth_error link i, nth_error link 0 with
      | Some g, Some g0 => set_ref r (Z.of_nat i) g (r 0 g0)
      | _, _ => r
      end) links r)
    (seq 1 (n - 1)) r.
