(** Vocabulary for sessions of clicks. *)
From Coq Require Import String Reals.
From Coq Require Import List ZArith Bool.
Import ListNotations.
From Verif Require Import Py Grid Base_Model Session_Model.
Open Scope Z_scope.

(** The pixel number taken for a coordinate: the whole part. *)
Definition pointed (x : R) (m : Z) : Prop := (0 <= x /\ IZR m <= x < IZR m + 1)%R \/ (-1 < x < 0)%R /\ m = 0.
(** Clicks on the axes are on the map: its edges are at -1/2 and half a pixel beyond the last. *)
Definition proper (W H : Z) (e : event) : Prop :=
  match e with EClick _ true x y => exists px py, pointed x px /\ pointed y py /\ inside W H (px, py) | _ => True end.
(** The kinds of the plots opened by a history, in order. *)
Definition opens (e : event) : list pkind := match e with ELocate d => [Show d] | ENear => [Near] | EOrigin => [Orig] | _ => [] end.
Definition opened (es : list event) : list pkind := concat (map opens es).
(** The event is a click on grain [g] in plot [k], one of those opened. *)
Definition hits (W H : Z) (labels : pix -> Z) (plots : list pkind) (e : event) (k : nat) (g : Z) : Prop :=
  exists x y px py kind, e = EClick k true x y /\ nth_error plots k = Some kind /\ kind <> Orig /\
    pointed x px /\ pointed y py /\ inside W H (px, py) /\ 0 <= g /\ labels (px, py) = g + 1.
(** The event sets the origin to [o] in plot [k]. *)
Definition marks (plots : list pkind) (e : event) (k : nat) (o : Z * Z) : Prop :=
  exists x y, e = EClick k true x y /\ nth_error plots k = Some Orig /\ pointed x (fst o) /\ pointed y (snd o).
(** [P] held of the event last in the history for which it held of any; [P] is told what was opened
    before. *)
Inductive last_such {A} (P : list pkind -> event -> A -> Prop) : list event -> A -> Prop :=
| last_now es e a : P (opened es) e a -> last_such P (es ++ [e]) a
| last_before es e a : last_such P es a -> (forall b, ~ P (opened es) e b) -> last_such P (es ++ [e]) a.
(** What plot [k] highlights and marks. *)
Definition shown_in (k : nat) (s : sess) : option (list Z) := match nth_error (s_plots s) k with Some p => mp_high p | None => None end.
Definition marked_in (k : nat) (s : sess) : option (Z * Z) := match nth_error (s_plots s) k with Some p => mp_mark p | None => None end.
(** The window the map would draw the next grain in: the current one, while it is open. *)
Definition window (s : sess) : option nat :=
  match s_cur s with
  | Some j => match nth_error (s_wins s) j with Some w => if w_open w then Some j else None | None => None end
  | None => None
  end.
