(** The grain inspector: drawn lines, their groups, navigation and the relative
    displacement ratio.  Angles and line coordinates are kept, as in the code, to two
    decimals: they are integers counting hundredths. *)
From Coq Require Import String Ascii Reals.
From Coq Require Import List ZArith Bool.
Import ListNotations.
From Verif Require Import Py Grid Boundary_Model Base_Model Quat_Model Crystal_Model Text_Model Ebsd_Model.
Open Scope Z_scope.

(** defdap/inspector.py 160: [[x0, y0, x1, y1], angle, group].  [l_np] says that the
    group number is a numpy integer (line 200) and not a Python one. *)
Record line := mkLine { l_pts : list Z; l_ang : Z; l_grp : Z; l_np : bool }.
(** 173, 194, 206: [id, angle, planes, deviations, rdr].  The planes and deviations are
    the integer 0 until 217-218 replace them in the same call; here they are []
    meanwhile.  The rdr is the integer 0 (None) until one is calculated. *)
Record group := mkGroup { g_id : Z; g_ang : Z; g_planes : list Z; g_dev : list Z; g_rdr : option R }.
(** defdap/hrdic.py 765-766. *)
Record grain := mkGrain { pts : list line; grps : list group }.

Definition set_grp (l : line) (k : Z) (np : bool) : line := mkLine (l_pts l) (l_ang l) k np.
Definition set_ang (g : group) (a : Z) : group := mkGroup (g_id g) a (g_planes g) (g_dev g) (g_rdr g).
Definition set_rdr (g : group) (r : R) : group := mkGroup (g_id g) (g_ang g) (g_planes g) (g_dev g) (Some r).
Definition new_group (k a : Z) : group := mkGroup k a [] [] None.

Definition sum (l : list Z) : Z := fold_right Z.add 0 l.
(** The integer nearest to s/n, ties to even: two decimals of [np.average] (201-202),
    without the rounding of floats. *)
Definition round_div (s n : Z) : Z :=
  let q := s / n in
  let r := s mod n in
  if 2 * r <? n then q else if n <? 2 * r then q + 1 else if Z.even q then q else q + 1.
Definition average (l : list Z) : Z := round_div (sum l) (Z.of_nat (List.length l)).

(** [np.argmin] of a non-empty list: the first place of the least number. *)
Fixpoint argmin (l : list Z) : nat :=
  match l with
  | [] => O
  | a :: r =>
      match r with
      | [] => O
      | _ => let k := argmin r in if a <=? nth k r 0 then O else S k
      end
  end.

Fixpoint change_nth {A} (n : nat) (f : A -> A) (l : list A) : list A :=
  match n, l with
  | _, [] => []
  | O, a :: l => f a :: l
  | S n, a :: l => a :: change_nth n f l
  end.

(** defdap/inspector.py 189-208: the loop over the lines.  [done] are the lines already
    passed, [todo] the rest, which still carry the group numbers of an earlier call.
    [i == 0] is [done = []]. *)
Fixpoint group_loop (done : list line) (gs : list group) (next : Z) (todo : list line)
  : list line * list group :=
  match todo with
  | [] => (done, gs)
  | l :: todo =>
      match done with
      | [] => group_loop [set_grp l 0 false] [new_group 0 (l_ang l)] 1 todo
      | _ =>
          let ds := map (fun g => Z.abs (g_ang g - l_ang l)) gs in
          if existsb (fun d => d <? 1000) ds then
            let k := argmin ds in
            let l' := set_grp l (Z.of_nat k) true in
            let same := filter (fun x => l_grp x =? Z.of_nat k) (done ++ l' :: todo) in
            group_loop (done ++ [l']) (change_nth k (fun g => set_ang g (average (map l_ang same))) gs) next todo
          else
            group_loop (done ++ [set_grp l next false]) (gs ++ [new_group next (l_ang l)]) (next + 1) todo
      end
  end.

Definition rad2deg (x : R) : R := (x * 180 / PI)%R.

(** 212-216: the planes whose trace angle is within 5 degrees, with the deviations to
    two decimals; [i] is the number of the first plane of [ts]. *)
Fixpoint detect (a : Z) (i : Z) (ts : list R) : list Z * list Z :=
  match ts with
  | [] => ([], [])
  | t :: ts =>
      let '(ps, ds) := detect a (i + 1) ts in
      let x := (IZR a / 100)%R in
      let d := rad2deg t in
      if Rlt_dec (d - 5) x then
        if Rlt_dec x (d + 5) then (i :: ps, rint ((x - d) * 100) :: ds) else (ps, ds)
      else (ps, ds)
  end.
Definition detect_group (ts : list R) (g : group) : group :=
  let '(ps, ds) := detect (g_ang g) 0 ts in mkGroup (g_id g) (g_ang g) ps ds (g_rdr g).

(** defdap/inspector.py 168-218 [group_lines] of a grain whose slip trace angles [ts]
    have been calculated (the inspector's drawing does so for every grain shown). *)
Definition group_lines (ts : list R) (g : grain) : grain :=
  match pts g with
  | [] => mkGrain (pts g) []
  | _ =>
      let '(ls, gs) := group_loop [] [] 0 (pts g) in
      mkGrain ls (map (detect_group ts) gs)
  end.

(** [float("{:.2f}".format(x))] in hundredths; the sign of a zero is not kept. *)
Definition hundredths (x : R) : Z := rint (x * 100).

(** defdap/inspector.py 148-153. *)
Definition drawn_angle (p1 p2 : R * R) : R :=
  let a := (90 - rad2deg (arctan2 (snd p2 - snd p1) (fst p2 - fst p1)))%R in
  if Rlt_dec 180 a then (a - 180)%R else if Rlt_dec a 0 then (a + 180)%R else a.

(** 148-162: the line that is appended. *)
Definition saved_line (corr : R) (p1 p2 : R * R) : line :=
  mkLine (map hundredths [fst p1; snd p1; fst p2; snd p2])
         (hundredths (drawn_angle p1 p2 - corr)) (-1) false.

(** [del l[k]]. *)
Fixpoint drop_nth {A} (n : nat) (l : list A) : list A :=
  match n, l with
  | _, [] => []
  | O, _ :: l => l
  | S n, a :: l => a :: drop_nth n l
  end.
Definition del {A} (l : list A) (k : Z) : res (list A) :=
  match np_index (Z.of_nat (List.length l)) k with
  | Some k => Ok (drop_nth (Z.to_nat k) l)
  | None => Err IndexError
  end.

(** ** Relative displacement ratio *)

(** 397-398, rows of the two tables. *)
Definition x_table : list (list Z) := [[-1; 0; 1]; [1; 0; -1]; [0; 0; 0]; [1; 0; -1]; [-1; 0; 1]].
Definition y_table : list (list Z) := [[0; 0; 0]; [-1; 0; 1]; [-1; 0; 1]; [1; 0; -1]; [0; 0; 0]].

(** [np.unique(..., axis=0)]: sorted, without repetitions. *)
Definition lex_lt (a b : Z * Z) : bool :=
  (fst a <? fst b) || ((fst a =? fst b) && (snd a <? snd b)).
Fixpoint insert_row (a : Z * Z) (l : list (Z * Z)) : list (Z * Z) :=
  match l with
  | [] => [a]
  | b :: r => if lex_lt a b then a :: l else if lex_lt b a then b :: insert_row a r else l
  end.
Definition unique_rows (l : list (Z * Z)) : list (Z * Z) := fold_right insert_row [] l.

(** 396-403: offsets of the samples from a point of the line. *)
Definition offsets (ang len : Z) : res (list (Z * Z)) :=
  let k := round_div ang 4500 in
  do xs <- py_get x_table k;
  do ys <- py_get y_table k;
  let num := map (fun i => i + 1) (zseq 0 (Z.to_nat (Z.quot (len - 1) 2))) in
  Ok (unique_rows (concat (map (fun i => map (fun t => (fst t * i, snd t * i)) (combine xs ys)) num))).

Definition mean (l : list R) : R := (fold_right Rplus 0 l / INR (List.length l))%R.
(** 423-424, one row: values less their mean.  No division by zero: a row is as long as
    the offsets, and [mean] of an empty row is never added to anything. *)
Definition centred (l : list R) : list R := map (fun x => (x - mean l)%R) l.

Definition all_same (l : list R) : bool :=
  match l with [] => true | a :: l => forallb (fun b => if Req_EM_T b a then true else false) l end.
(** [scipy.stats.linregress(x, y).slope]: covariance over variance, with its errors for
    empty input and for equal x. *)
Definition slope (x y : list R) : res R :=
  if all_same x then Err ValueError
  else
    let mx := mean x in
    let my := mean y in
    Ok (mean (map (fun p => ((fst p - mx) * (snd p - my))%R) (combine x y))
        / mean (map (fun a => ((a - mx) * (a - mx))%R) x))%R.

(** What a calculation reads besides the lines: the displacement maps and their shape,
    the first corner of the grain's box, the length of the sampled lines, and
    [skimage.draw.line], the pixels of a line, which is not modelled. *)
Record rdr_env := mkRdr {
  r_W : Z; r_H : Z; r_u : pix -> R; r_v : pix -> R; r_ext : Z * Z; r_len : Z;
  r_line : Z -> Z -> Z -> Z -> list (Z * Z) }.

(** 413-420: the map pixels sampled along one line, a row for each of its points. *)
Definition sample_rows (e : rdr_env) (offs : list (Z * Z)) (p : list Z) : res (list (list pix)) :=
  match p with
  | [x0; y0; x1; y1] =>
      Ok (map (fun q => map (fun o => (fst q + fst o + fst (r_ext e), snd q + snd o + snd (r_ext e))) offs)
              (r_line e (Z.quot x0 100) (Z.quot y0 100) (Z.quot x1 100) (Z.quot y1 100)))
  | _ => Err ValueError
  end.

(** defdap/inspector.py 374-430 [calc_rdr], up to the plot. *)
Definition calc_rdr (e : rdr_env) (g : grain) (k : Z) : res grain :=
  match pts g with
  | [] => Err IndexError
  | _ =>
      let lines := filter (fun l => l_grp l =? k) (pts g) in
      do grp <- py_get (grps g) k;
      do offs <- offsets (g_ang grp) (r_len e);
      do rows <- map_res (fun l => sample_rows e offs (l_pts l)) lines;
      do us <- map_res (map_res (fetch (r_W e) (r_H e) (r_u e))) (concat rows);
      do vs <- map_res (map_res (fetch (r_W e) (r_H e) (r_v e))) (concat rows);
      do s <- slope (concat (map centred vs)) (concat (map centred us));
      match np_index (Z.of_nat (List.length (grps g))) k with
      | Some i => Ok (mkGrain (pts g) (change_nth (Z.to_nat i) (fun x => set_rdr x s) (grps g)))
      | None => Err IndexError
      end
  end.

(** ** The inspector *)

(** [i_id] is the grain id shown, [i_sel] the place of the selected grain, [i_p1] and
    [i_p2] the ends of the line drawn on the present plot. *)
Record insp := mkInsp {
  i_id : Z; i_sel : nat; i_p1 : option (R * R); i_p2 : option (R * R); i_grains : list grain }.

Inductive action :=
| APress (p : R * R)     (** mouse button pressed over the plot *)
| ARelease (p : R * R)   (** and released *)
| ASave                  (** button "Save Line" *)
| ARemove (t : txt)      (** text box "Remove ID" *)
| AClear                 (** button "Clear All Lines" *)
| APrev | ANext          (** buttons "Previous Grain", "Next Grain" *)
| AGoto (t : txt)        (** text box "Go to grain ID" *)
| ARdr (t : txt).        (** text box "Run RDR only on group" *)

Record env := mkEnv { e_corr : R; e_traces : nat -> list R; e_rdr : nat -> rdr_env }.

Definition at_grain (s : insp) (f : grain -> grain) : insp :=
  mkInsp (i_id s) (i_sel s) (i_p1 s) (i_p2 s) (change_nth (i_sel s) f (i_grains s)).
Definition sel_grain (s : insp) : grain := nth (i_sel s) (i_grains s) (mkGrain [] []).
(** defdap/inspector.py 249-281: the plot is made anew from the grain with the id
    shown; a new plot has no line, its [p1], [p2] are not defined.  [redraw_line] (283-334), which
    [redraw] and [save_line] end with, looks this grain up again and always ends in a
    [TypeError]: it calls [add_slip_bands] (plotting.py 868) without the data it requires. *)
Definition shown (s : insp) : option exn :=
  match np_index (Z.of_nat (List.length (i_grains s))) (i_id s) with Some _ => None | None => Some IndexError end.
Definition redraw (s : insp) : insp * option exn :=
  match shown s with
  | None => (mkInsp (i_id s) (i_sel s) None None (i_grains s), Some TypeError)
  | Some x => (s, Some x)
  end.
Definition redraw_line_error (s : insp) : exn := match shown s with None => TypeError | Some x => x end.

(** defdap/inspector.py 116-133 [goto_grain]: the id is stored before the grain is
    looked up. *)
Definition goto_grain (k : Z) (s : insp) : insp * option exn :=
  match np_index (Z.of_nat (List.length (i_grains s))) k with
  | Some i => redraw (mkInsp k (Z.to_nat i) (i_p1 s) (i_p2 s) (i_grains s))
  | None => (mkInsp k (i_sel s) (i_p1 s) (i_p2 s) (i_grains s), Some IndexError)
  end.

(** One event, with the exception that its handler raises; matplotlib goes on with the
    next event after an exception.  defdap/plotting.py 275-284 for the mouse,
    defdap/inspector.py 72-99 for the widgets. *)
Definition step (e : env) (a : action) (s : insp) : insp * option exn :=
  match a with
  | APress p => (mkInsp (i_id s) (i_sel s) (Some p) (i_p2 s) (i_grains s), None)
  | ARelease p =>
      (mkInsp (i_id s) (i_sel s) (i_p1 s) (Some p) (i_grains s),
       match i_p1 s with Some _ => None | None => Some AttributeError end)
  | ASave =>
      match i_p1 s, i_p2 s with
      | Some p1, Some p2 =>
          (at_grain s (fun g => group_lines (e_traces e (i_sel s))
                                  (mkGrain (pts g ++ [saved_line (e_corr e) p1 p2]) (grps g))), Some (redraw_line_error s))
      | _, _ => (s, Some AttributeError)
      end
  | ARemove t =>
      match py_int t with
      | Err x => (s, Some x)
      | Ok k =>
          match del (pts (sel_grain s)) k with
          | Err x => (s, Some x)
          | Ok ls =>
              redraw (at_grain s (fun g => group_lines (e_traces e (i_sel s)) (mkGrain ls (grps g))))
          end
      end
  | AClear => redraw (at_grain s (fun _ => mkGrain [] []))
  | APrev => goto_grain (i_id s - 1) s
  | ANext => goto_grain (i_id s + 1) s
  | AGoto t => match py_int t with Ok k => goto_grain k s | Err x => (s, Some x) end
  | ARdr t =>
      match t with
      | [] => (s, None)
      | _ =>
          match py_int t with
          | Err x => (s, Some x)
          | Ok k =>
              match calc_rdr (e_rdr e (i_sel s)) (sel_grain s) k with
              | Ok g => (at_grain s (fun _ => g), None)
              | Err x => (s, Some x)
              end
          end
      end
  end.
Definition run (e : env) (acts : list action) (s : insp) : insp :=
  fold_left (fun s a => fst (step e a s)) acts s.

(** The inspector as opened on a map of [n] grains without lines (26-64, hrdic.py
    765-766).  The constructor ends in [redraw] and so in its [TypeError]; its window is open by
    then, with the handlers of 72-99 and 279-280, which keep the inspector alive. *)
Definition opened (n : nat) : insp := mkInsp 0 0 None None (repeat (mkGrain [] []) n).

(** defdap/inspector.py 349-372 [batch_run_sta]: the table printed, a row for each group
    of each grain with lines: grain id, Euler angles in degrees, largest Schmid factor
    and the group.  [ori] and [sfs] give each grain's orientation and average Schmid
    factors.  The formatting of the numbers is left out. *)
Definition sta_rows (ori : nat -> quat) (sfs : nat -> list (list R)) (s : insp)
  : res (list (nat * (R * R * R) * R * group)) :=
  do rows <- map_res (fun ig : nat * grain =>
      let '(i, g) := ig in
      match pts g with
      | [] => Ok []
      | _ => map_res (fun x =>
               match concat (sfs i) with
               | [] => Err ValueError
               | a :: r =>
                   let '(e1, e2, e3) := euler_angles (ori (i_sel s)) in
                   Ok (i, (rad2deg e1, rad2deg e2, rad2deg e3), fold_left Rmax r a, x)
               end) (grps g)
      end) (combine (seq 0 (List.length (i_grains s))) (i_grains s));
  Ok (concat rows).
