(** Clicking on the plots of a map: defdap/base.py 152-217, 332-381 and defdap/ebsd.py 1793-1828. *)
From Coq Require Import String Reals.
From Coq Require Import List ZArith Bool.
Import ListNotations.
From Verif Require Import Py Grid Base_Model.
Open Scope Z_scope.

(** A plot of the map opened by [locate_grain] (showing the grain in its own window or not), by
    [display_neighbours] or by [Linker.set_origin]: the grains highlighted last and the mark. *)
Inductive pkind := Show (display : bool) | Near | Orig.
Record mplot := MPlot { mp_kind : pkind; mp_high : option (list Z); mp_mark : option (Z * Z) }.
(** A window of one grain: whether it exists, and the grain drawn in it. *)
Record win := Win { w_open : bool; w_shown : option Z }.
(** The map, and all plots and windows made so far.  [s_early], [s_late]: the errors that drawing a
    grain meets before the window is made or drawn on (an EBSD grain without reference orientation),
    and after the picture is drawn (traces and bands of a DIC grain). *)
Record sess := Sess {
  s_sel : option Z; s_origin : Z * Z; s_nb : option (Z -> list Z);
  s_early : Z -> option exn; s_late : Z -> option exn;
  s_plots : list mplot; s_wins : list win; s_cur : option nat
}.
Definition set_sel g s := Sess (Some g) (s_origin s) (s_nb s) (s_early s) (s_late s) (s_plots s) (s_wins s) (s_cur s).
Definition set_plots l s := Sess (s_sel s) (s_origin s) (s_nb s) (s_early s) (s_late s) l (s_wins s) (s_cur s).
Definition set_wins l c s := Sess (s_sel s) (s_origin s) (s_nb s) (s_early s) (s_late s) (s_plots s) l c.
Definition put_origin o s := Sess (s_sel s) o (s_nb s) (s_early s) (s_late s) (s_plots s) (s_wins s) (s_cur s).
Fixpoint change {A} (k : nat) (f : A -> A) (l : list A) : list A :=
  match k, l with
  | _, [] => []
  | O, a :: l => f a :: l
  | S k, a :: l => a :: change k f l
  end.
(** plotting.py 496-557: the highlights of a plot are replaced. *)
Definition highlight (k : nat) (ids : list Z) (s : sess) : sess :=
  set_plots (change k (fun p => MPlot (mp_kind p) (Some ids) (mp_mark p)) (s_plots s)) s.

(** base.py 210-217; 212 keeps the window only when drawing did not fail. *)
Definition display_grain (g : Z) (s : sess) : sess * res unit :=
  let current := match s_cur s with
                 | Some j => match nth_error (s_wins s) j with Some w => if w_open w then Some j else None | None => None end
                 | None => None
                 end in
  match current with
  | None =>
      match s_early s g with
      | Some e => (s, Err e)
      | None =>
          let wins := s_wins s ++ [Win true (Some g)] in
          match s_late s g with
          | Some e => (set_wins wins (s_cur s) s, Err e)
          | None => (set_wins wins (Some (List.length (s_wins s))) s, Ok tt)
          end
      end
  | Some j =>
      let shows x := change j (fun w => Win (w_open w) x) (s_wins s) in
      match s_early s g with
      | Some e => (set_wins (shows None) (s_cur s) s, Err e)
      | None => (set_wins (shows (Some g)) (s_cur s) s, match s_late s g with Some e => Err e | None => Ok tt end)
      end
  end.

Section Map.
Variables (W H : Z) (labels : pix -> Z) (n : nat).
(** What happens at a plot. *)
Definition click (k : nat) (on_map : bool) (x y : R) (s : sess) : sess * res unit :=
  match nth_error (s_plots s) k with
  | None => (s, Ok tt)
  | Some p =>
      match mp_kind p with
      | Show display =>
          (* base.py 182-217 [click_grain_id] *)
          match click_grain_id W H labels n on_map x y with
          | Err e => (s, Err e)
          | Ok None => (s, Ok tt)
          | Ok (Some g) =>
              let s := highlight k [g] (set_sel g s) in
              if display then display_grain g s else (s, Ok tt)
          end
      | Near =>
          (* base.py 337-381 [click_grain_neighbours] *)
          match click_grain_id W H labels n on_map x y with
          | Err e => (s, Err e)
          | Ok None => (s, Ok tt)
          | Ok (Some g) =>
              let s := set_sel g s in
              match s_nb s with
              | None => (s, Err AttributeError)
              | Some nb => (highlight k (highlighted nb g) s, Ok tt)
              end
          end
      | Orig =>
          (* ebsd.py 1810-1828 [click_set_origin] *)
          if negb on_map then (s, Ok tt)
          else
            let o := (trunc x, trunc y) in
            let s := put_origin o s in
            (set_plots (change k (fun p => MPlot (mp_kind p) (mp_high p) (Some o)) (s_plots s)) s, Ok tt)
      end
  end.

(** [EPrepare]: references or slip systems of grains change; [ENetwork]: the network is built;
    [EClose]: the user closes a window. *)
Inductive event :=
| ELocate (display : bool) | ENear | EOrigin | EClick (k : nat) (on_map : bool) (x y : R)
| EClose (j : nat) | EPrepare (early late : Z -> option exn) | ENetwork (nb : Z -> list Z).
Definition step (e : event) (s : sess) : sess * res unit :=
  match e with
  | ELocate display =>
      (* base.py 152-180 [locate_grain] *)
      let s := set_plots (s_plots s ++ [MPlot (Show display) None None]) s in
      (if display then set_wins (s_wins s) None s else s, Ok tt)
  | ENear => (set_plots (s_plots s ++ [MPlot Near None None]) s, Ok tt)  (* base.py 332-335 *)
  | EOrigin => (set_plots (s_plots s ++ [MPlot Orig None (Some (s_origin s))]) s, Ok tt)  (* ebsd.py 1802-1808 *)
  | EClick k on_map x y => click k on_map x y s
  | EClose j => (set_wins (change j (fun w => Win false (w_shown w)) (s_wins s)) (s_cur s) s, Ok tt)
  | EPrepare early late => (Sess (s_sel s) (s_origin s) (s_nb s) early late (s_plots s) (s_wins s) (s_cur s), Ok tt)
  | ENetwork nb => (Sess (s_sel s) (s_origin s) (Some nb) (s_early s) (s_late s) (s_plots s) (s_wins s) (s_cur s), Ok tt)
  end.
(** A new map (ebsd.py 101, base.py 76-81), and a history of events; an error ends its event only. *)
Definition new_session : sess := Sess None (0, 0) None (fun _ => None) (fun _ => None) [] [] None.
Definition run (es : list event) : sess := fold_left (fun s e => fst (step e s)) es new_session.
End Map.
