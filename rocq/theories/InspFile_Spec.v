(** Vocabulary for the inspector's file. *)
From Coq Require Import String Ascii Reals.
From Coq Require Import List ZArith Bool.
Import ListNotations.
From Verif Require Import Py Text_Model Insp_Model InspFile_Model.
Open Scope Z_scope.

(** Every finite float is written with shortest digits: zero as 0 times 1 and others
    without a trailing zero digit. *)
Definition shortest (f : flt) : Prop :=
  (f_man f = 0 /\ f_exp f = 0) \/ (0 < f_man f /\ f_man f mod 10 <> 0).

(** The number a float stands for. *)
Definition flt_R (f : flt) : R :=
  ((if f_neg f then -1 else 1) * IZR (f_man f) * powerRZ 10 (f_exp f))%R.

(** A value that the installed numpy prints as a literal: no nan, and no numpy number
    with numpy 2. *)
Fixpoint printable (np2 : bool) (v : val) : Prop :=
  match v with
  | VInt _ => True
  | VFlt f => shortest f
  | VNan | VNpNan => False
  | VNpInt _ => np2 = false
  | VNpFlt f => np2 = false /\ shortest f
  | VList l => (fix all (l : list val) : Prop := match l with [] => True | a :: l => printable np2 a /\ all l end) l
  end.

(** The same value with Python's own numbers. *)
Fixpoint plain (v : val) : val :=
  match v with
  | VNpInt n => VInt n
  | VNpFlt f => VFlt f
  | VNpNan => VNan
  | VList l => VList (map plain l)
  | _ => v
  end.

(** A grain's lists [g0] after the lists [g] were added to them. *)
Definition added (g0 g : lists) : lists :=
  match points_list g with
  | [] => g0
  | _ => mkLists (points_list g0 ++ map plain (points_list g)) (groups_list g0 ++ map plain (groups_list g))
  end.
Definition no_lists : lists := mkLists [] [].

(** A grain without lists before, after loading what was saved of it. *)
Definition restored (rep : R -> val) (g : grain) : lists :=
  mkLists (map (fun l => plain (line_val l)) (pts g)) (map (fun x => plain (group_val rep x)) (grps g)).
