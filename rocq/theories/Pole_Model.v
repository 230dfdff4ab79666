(** Pole figures: projections, lines and points of [PolePlot], over the real numbers. *)
From Coq Require Import String Ascii.
From Coq Require Import Reals List ZArith Bool.
Import ListNotations.
From Verif Require Import Py Quat_Model Text_Model.
Open Scope R_scope.

(** defdap/quat.py 829-837 [polar_angles], one direction; [None] is nan, from the zero
    vector. *)
Definition polar_angles (v : vec3) : option (R * R) :=
  let m := sqrt (vx v ^ 2 + vy v ^ 2 + vz v ^ 2) in
  if Req_EM_T m 0 then None
  else Some (acos (vz v / m), arctan2 (vy v / m) (vx v / m)).

(** defdap/plotting.py 1313-1317.  Where tan is not defined the code has a number above
    10^16, here [None]. *)
Definition stereo (alpha beta : R) : option (R * R) :=
  if Req_EM_T (cos (alpha / 2)) 0 then None
  else
    let c := tan (alpha / 2) in
    Some (c * cos (beta - PI / 2), c * sin (beta - PI / 2)).
(** defdap/plotting.py 1346-1350. *)
Definition lambert (alpha beta : R) : option (R * R) :=
  let c := sqrt (2 * (1 - cos alpha)) in
  Some (c * cos (beta - PI / 2), c * sin (beta - PI / 2)).

(** 1306-1311 and 1339-1344: three numbers are a direction, two are polar angles. *)
Definition project (p : R -> R -> option (R * R)) (args : list R) : res (option (R * R)) :=
  match args with
  | [x; y; z] =>
      match polar_angles (V3 x y z) with
      | Some (a, b) => Ok (p a b)
      | None => Ok None
      end
  | [a; b] => Ok (p a b)
  | _ => Err GenericException
  end.
Definition stereo_project := project stereo.
Definition lambert_project := project lambert.

(** ** Choice of the projection *)

(** What the caller may pass as projection; [F] are callables, other objects are
    [AnyObject]. *)
Inductive proj_arg (F : Type) := NoArg | NameArg (t : txt) | FunArg (f : F) | AnyObject.
Arguments NoArg {F}. Arguments NameArg {F}. Arguments FunArg {F}. Arguments AnyObject {F}.
Inductive projection (F : Type) := Lambert | Stereographic | Given (f : F).
Arguments Lambert {F}. Arguments Stereographic {F}. Arguments Given {F}.

(** [str.lower] for ASCII letters. *)
Definition lower_char (a : ascii) : ascii :=
  let n := nat_of_ascii a in
  if (65 <=? n)%nat && (n <=? 90)%nat then ascii_of_nat (n + 32) else a.
(** 1265 *)
Definition plain_name (t : txt) : txt :=
  map lower_char (filter (fun a => negb (Ascii.eqb a " ")) t).
Definition is_name (t : txt) (names : list string) : bool :=
  existsb (fun s => if list_eq_dec ascii_dec t (lit s) then true else false) names.

(** 1262-1284, with the default projection given; [None] is Python's None. *)
Definition pick_projection {F} (default : option (projection F)) (arg : proj_arg F) : res (projection F) :=
  let p :=
    match arg with
    | NoArg => default
    | NameArg t =>
        let n := plain_name t in
        if is_name n ["lambert"; "equalarea"]%string then Some Lambert
        else if is_name n ["stereographic"; "stereo"; "equalangle"]%string then Some Stereographic
        else default
    | FunArg f => Some (Given f)
    | AnyObject => default
    end in
  match p with Some p => Ok p | None => Err ValueError end.
(** 1253-1284 [_validateProjection]: the package default is looked at first, whatever is
    passed. *)
Definition validate_projection {F} (defaults_entry arg : proj_arg F) : res (projection F) :=
  match pick_projection None defaults_entry with
  | Err e => Err e
  | Ok d => pick_projection (Some d) arg
  end.

(** ** Lines *)

(** [np.linspace(a, b, n)]; a single point is the start. *)
Definition linspace (a b : R) (n : nat) : list R :=
  map (fun i => a + (b - a) * (if (n =? 1)%nat then 0 else INR i / INR (n - 1))) (seq 0 n).
(** 1104-1108: a component equal at both ends is constant. *)
Definition line_component (a b : R) (n : nat) : list R :=
  if Req_EM_T a b then repeat a n else linspace a b n.
(** The points of one line as directions. *)
Definition line_points (s e : vec3) (n : nat) : list vec3 :=
  map (fun i => V3 (nth i (line_component (vx s) (vx e) n) 0)
                   (nth i (line_component (vy s) (vy e) n) 0)
                   (nth i (line_component (vz s) (vz e) n) 0)) (seq 0 n).
Definition north (v : vec3) : vec3 := if Rlt_dec (vz v) 0 then vscale (-1) v else v.
(** 1087-1100: the lines drawn for cubic crystals, [syms] the result of [sym_eqv]. *)
Definition lines_drawn (syms : list quat) (plot_syms : bool) (s e : vec3) : list (vec3 * vec3) :=
  (s, e) :: (if plot_syms then
               map (fun q => (north (transform_vector q s), north (transform_vector q e))) (tl syms)
             else []).
(** 1102-1111: the points passed to the axes for one line; [None] entries are nan. *)
Definition plot_line (p : list R -> res (option (R * R))) (n : nat) (l : vec3 * vec3) : list (res (option (R * R))) :=
  map (fun v => p [vx v; vy v; vz v]) (line_points (fst l) (snd l) n).

(** ** Points *)

(** 1170-1204: the markers drawn by [add_points], as the list of their colours, [None]
    for matplotlib's own; [colour] are the colours given: a string is a list of one.
    [sized] tells if a marker size is given: sqrt of None raises.  [marker] tells if a
    marker is among the other arguments: two are passed on twice, which raises. *)
Inductive colour_arg := NoColour | OneColour (t : txt) | Colours (l : list txt).
Definition markers (colour : colour_arg) (sized marker : bool) : res (list (option txt)) :=
  let l := match colour with NoColour => None | OneColour t => Some [t] | Colours l => Some l end in
  match l with
  | None => Ok [None]
  | Some [a; b] =>
      if negb sized then Err TypeError
      else if marker then Err TypeError
      else Ok [Some a; Some b]
  | Some _ => Err GenericException
  end.
(** defdap/quat.py 487-507 [plot_ipf]: a marker is always passed on; the size has a
    default. *)
Definition ipf_markers (colour : colour_arg) : res (list (option txt)) := markers colour true true.

(** ** Slip traces of [GrainPlot] *)

(** defdap/plotting.py 815-847 [add_traces]: the arrows drawn, as direction and colour.
    With an empty list of colours the first arrow raises IndexError. *)
Definition trace_dir (top_only : bool) (angle : R) : R * R :=
  let x := - sin angle in let y := cos angle in
  if top_only then
    if Rlt_dec x 0 then if Rlt_dec y 0 then (x * -1, y * -1) else (x, y) else (x, y)
  else (x, y).
Fixpoint trace_arrows {C} (top_only : bool) (i : nat) (angles : list R) (colours : list C)
  : res (list (R * R * C)) :=
  match angles with
  | [] => Ok []
  | a :: angles =>
      match nth_error colours (if (List.length colours <=? i)%nat then List.length colours - 1 else i) with
      | None => Err IndexError
      | Some c => do r <- trace_arrows top_only (S i) angles colours; Ok ((trace_dir top_only a, c) :: r)
      end
  end.
Definition add_traces {C} (top_only : bool) (angles : list R) (colours : list C) := trace_arrows top_only 0 angles colours.
