(** Histograms, defdap/plotting.py 1353-1520. *)
From Coq Require Import String Reals List ZArith Bool.
Import ListNotations.
From Verif Require Import Py Crystal_Model Pole_Model.
Open Scope R_scope.

(** 1387-1405: a histogram plot.  The labels and tick formats are left out. *)
Record hist_plot := HistPlot { axes_type : string; plot_type : string; density : bool; label_y : string;
                               log_x : bool; log_y : bool }.
Definition is_in (s : string) (l : list string) : bool := existsb (String.eqb s) l.
Definition hist_init (plot_ty axes_ty : string) (dens : bool) : res hist_plot :=
  let a := lower axes_ty in
  if is_in a ["linear"; "logy"; "logx"; "loglog"]%string then
    if is_in plot_ty ["scatter"; "bar"; "step"]%string then
      Ok (HistPlot a plot_ty dens (if dens then "Normalised frequency" else "Frequency")%string
            (String.eqb a "logx" || String.eqb a "loglog") (String.eqb a "logy" || String.eqb a "loglog"))
    else Err ValueError
  else Err ValueError.

(** [np.logspace(np.log10(a), np.log10(b), n)] for positive numbers; for others the edges
    are not numbers and are not modelled. *)
Definition log10 (x : R) : R := ln x / ln 10.
Definition logspace (a b : R) (n : nat) : option (list R) :=
  if Rlt_dec 0 a then if Rlt_dec 0 b then Some (map (Rpower 10) (linspace (log10 a) (log10 b) n)) else None else None.

(** [np.histogram] with given edges.  The data are sorted and each edge is looked up, all
    but the last from the left; [None] is nan, which sorts after every number. *)
Definition below (e : R) (d : list (option R)) : Z :=
  Z.of_nat (List.length (filter (fun v => match v with Some x => if Rlt_dec x e then true else false | None => false end) d)).
Definition upto (e : R) (d : list (option R)) : Z :=
  Z.of_nat (List.length (filter (fun v => match v with Some x => if Rle_dec x e then true else false | None => false end) d)).
Fixpoint cumulative (d : list (option R)) (es : list R) : list Z :=
  match es with
  | [] => []
  | [e] => [upto e d]
  | e :: es' => below e d :: cumulative d es'
  end.
Fixpoint diff (l : list Z) : list Z :=
  match l with a :: ((b :: _) as r) => (b - a)%Z :: diff r | _ => [] end.
Fixpoint decreases (es : list R) : bool :=
  match es with a :: ((b :: _) as r) => (if Rlt_dec b a then true else false) || decreases r | _ => false end.
Definition histogram (d : list (option R)) (es : list R) : res (list Z) :=
  if decreases es then Err ValueError else Ok (diff (cumulative d es)).
(** [density=True]: the count over the width of the bin over the total; a division by
    zero has no number as its result. *)
Definition per_width (n : Z) (w total : R) : option R :=
  if Req_EM_T w 0 then None else if Req_EM_T total 0 then None else Some (IZR n / w / total).
Fixpoint widths (es : list R) : list R :=
  match es with a :: ((b :: _) as r) => (b - a) :: widths r | _ => [] end.
Definition heights (dens : bool) (ns : list Z) (es : list R) : list (option R) :=
  if dens then map (fun nw => per_width (fst nw) (snd nw) (IZR (fold_right Z.add 0%Z ns))) (combine ns (widths es))
  else map (fun n => Some (IZR n)) ns.
Fixpoint middles (es : list R) : list R :=
  match es with a :: ((b :: _) as r) => (1 / 2 * (b + a)) :: middles r | _ => [] end.

(** What is put on the axes: points, or bars between the edges. *)
Inductive drawn := Points (xs : list R) (ys : list (option R)) | Bars (kind : string) (es : list R) (ys : list (option R)) | Unknown.
(** 1412-1450.  [range] is [None] if left out.  Matplotlib's histogram is taken to be
    numpy's drawn as bars. *)
Definition add_hist (p : hist_plot) (data : list (option R)) (bins : Z) (range : option (R * R)) : res drawn :=
  match range with
  | None => Err TypeError
  | Some (lo, hi) =>
      if (bins <? 0)%Z then Err ValueError
      else
        match (if String.eqb (axes_type p) "logx" || String.eqb (axes_type p) "loglog" then logspace lo hi (Z.to_nat bins)
               else Some (linspace lo hi (Z.to_nat bins))) with
        | None => Ok Unknown
        | Some es =>
            do ns <- histogram data es;
            if String.eqb (plot_type p) "scatter" then Ok (Points (middles es) (heights (density p) ns es))
            else Ok (Bars (plot_type p) es (heights (density p) ns es))
        end
  end.
(** 1463-1520: a plot given is drawn on and the types asked for are not looked at. *)
Definition create (plot : option hist_plot) (plot_ty axes_ty : string) (dens : bool) (data : list (option R)) (bins : Z) (range : option (R * R)) : res (hist_plot * drawn) :=
  do p <- match plot with Some p => Ok p | None => hist_init plot_ty axes_ty dens end;
  do d <- add_hist p data bins range;
  Ok (p, d).
