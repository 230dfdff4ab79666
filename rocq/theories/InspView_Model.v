(** What the inspector's window shows: defdap/inspector.py 107-334, defdap/plotting.py 89-92,
    190-284.  The grains, their lines and groups are those of Insp_Model. *)
From Coq Require Import String Ascii Reals.
From Coq Require Import List ZArith Bool.
Import ListNotations.
From Verif Require Import Py Boundary_Model Text_Model Insp_Model.
Open Scope Z_scope.

(** The picture has the persistent arrows, with number and ends, and the arrows drawn with the
    mouse, oldest first; [v_ref] says that [grain_plot.arrow] is the last of them.  Then: how often
    the mouse handlers are connected; the id in the text, the grain of the picture and that of the
    unit cell; the rows of the two lists; the grain of the slip traces, if they are drawn.  Number
    formats, and the strains in the text, are left out. *)
Record view := View {
  v_arrows : list (nat * list Z); v_free : list ((R * R) * (R * R)); v_ref : bool;
  v_handlers : nat;
  v_id : Z; v_picture : option nat; v_cell : nat;
  v_lines : list line; v_groups : list group;
  v_traces : option nat
}.
(** The grain that [selected_dic_map[grain_id]] is. *)
Definition by_id (s : insp) : option nat :=
  option_map Z.to_nat (np_index (Z.of_nat (List.length (i_grains s))) (i_id s)).

(** 283-334 [redraw_line]: arrows for all lines are added to the picture as it is; both lists are
    written anew; then the slip traces, and the [TypeError] (see Insp_Model).  A line has four
    coordinates (otherwise formatting fails; see InspFile_Model for loaded ones). *)
Definition redraw_line (s : insp) (v : view) : view :=
  let ls := pts (sel_grain s) in
  View (v_arrows v ++ combine (seq 0 (List.length ls)) (map l_pts ls)) (v_free v) (v_ref v) (v_handlers v)
       (v_id v) (v_picture v) (v_cell v) ls (grps (sel_grain s)) (by_id s).
(** 249-281 [redraw]: the picture's axes are cleared before the grain is looked up.  A new plot
    has no arrow of its own. *)
Definition redraw_all (s : insp) (v : view) : view :=
  match by_id s with
  | None => View [] [] (v_ref v) (v_handlers v) (v_id v) None (v_cell v) (v_lines v) (v_groups v) (v_traces v)
  | Some k => redraw_line s (View [] [] false (S (v_handlers v)) (i_id s) (Some k) (i_sel s) (v_lines v) (v_groups v) (v_traces v))
  end.
(** plotting.py 201-230, 281-284: a release draws the arrow from the point of the press, and removes
    the plot's arrow before.  An arrow that went when the axes were cleared can be removed again
    without effect. *)
Definition new_arrow (p q : R * R) (v : view) : view :=
  View (v_arrows v) ((if v_ref v then removelast (v_free v) else v_free v) ++ [(p, q)]) true (v_handlers v)
       (v_id v) (v_picture v) (v_cell v) (v_lines v) (v_groups v) (v_traces v).
Definition forget_arrow (v : view) : view :=
  View (v_arrows v) (v_free v) false (v_handlers v) (v_id v) (v_picture v) (v_cell v) (v_lines v) (v_groups v) (v_traces v).

Inductive event := Do (a : action)
| Load (gs : list grain).   (** "Load File", the grains having become [gs] (InspFile_Model), no error before [redraw] *)

(** 116-133 *)
Definition goto_view (k : Z) (s s' : insp) (v : view) : view :=
  match np_index (Z.of_nat (List.length (i_grains s))) k with
  | Some _ => redraw_all s' (forget_arrow v)
  | None => forget_arrow v
  end.
(** What an event does to the window; [s] before, [s'] after.  All handlers of a mouse event run. *)
Definition look (a : action) (s s' : insp) (v : view) : view :=
  match a with
  | APress _ => v
  | ARelease q => match i_p1 s with Some p => Nat.iter (v_handlers v) (new_arrow p q) v | None => v end
  | ASave => match i_p1 s, i_p2 s with Some _, Some _ => redraw_line s' v | _, _ => v end
  | ARemove t =>
      match py_int t with
      | Err _ => v
      | Ok k => match del (pts (sel_grain s)) k with Err _ => v | Ok _ => redraw_all s' v end
      end
  | AClear => redraw_all s' v
  | APrev => goto_view (i_id s - 1) s s' v
  | ANext => goto_view (i_id s + 1) s s' v
  | AGoto t => match py_int t with Ok k => goto_view k s s' v | Err _ => v end
  | ARdr _ => v   (* 336-350: the lists are not written again *)
  end.
Definition vstep (e : env) (ev : event) (sv : insp * view) : (insp * view) * option exn :=
  let '(s, v) := sv in
  match ev with
  | Do a => let '(s', x) := step e a s in ((s', look a s s' v), x)
  | Load gs =>
      let s1 := mkInsp (i_id s) (i_sel s) (i_p1 s) (i_p2 s) gs in
      let '(s', x) := redraw s1 in ((s', redraw_all s1 v), x)
  end.
Definition vrun (e : env) (evs : list event) (sv : insp * view) : insp * view :=
  fold_left (fun sv ev => fst (vstep e ev sv)) evs sv.
(** 26-108: the window once the constructor has ended, in the error of its [redraw]. *)
Definition vopened (n : nat) : (insp * view) * option exn :=
  let s := opened n in
  (fst (redraw s), redraw_all s (View [] [] false 0 0 None 0 [] [] None), snd (redraw s)).
