(** Statistics tables of DIC maps: defdap/hrdic.py 276-312. *)
From Coq Require Import String Ascii Reals ZArith Bool.
From Coq Require Import List.
From Verif Require Import Py Base_Model Text_Model.
Import ListNotations.
Open Scope Z_scope.

(** numpy [sort], of values without nan *)
Fixpoint insert (x : R) (l : list R) : list R :=
  match l with
  | [] => [x]
  | y :: l => if Rle_dec x y then x :: y :: l else y :: insert x l
  end.
Fixpoint sort (l : list R) : list R := match l with [] => [] | x :: l => insert x (sort l) end.
Definition numbers (l : list num) : list R := flat_map (fun v => match v with Fin r => [r] | NaN => [] end) l.
(** [np.nanpercentile] of the values with its default, linear, method.  A masked array is
    taken as its values. *)
Definition nanpercentile (l : list num) (p : R) : res num :=
  if Rlt_dec p 0 then Err ValueError
  else if Rlt_dec 100 p then Err ValueError
  else
    let s := sort (numbers l) in
    let h := (p / 100 * (INR (List.length s) - 1))%R in
    let k := Int_part h in
    match nth_error s (Z.to_nat k) with
    | None => Ok NaN
    | Some lo =>
        let hi := match nth_error s (Z.to_nat k + 1) with Some v => v | None => lo end in
        Ok (Fin (lo + (h - IZR k) * (hi - lo))%R)
    end.

(** Data of any shape: the last two axes are those of the map. *)
Record darray := DA { da_shape : list Z; da_at : list Z -> num }.
(** [np.ndindex] *)
Fixpoint ndindex (shape : list Z) : list (list Z) :=
  match shape with [] => [[]] | n :: shape => flat_map (fun i => map (cons i) (ndindex shape)) (range n) end.
Definition outer (a : darray) : list Z := firstn (List.length (da_shape a) - 2) (da_shape a).
Definition inner (a : darray) : list Z := skipn (List.length (da_shape a) - 2) (da_shape a).
Definition part (a : darray) (i : list Z) : list num := map (fun q => da_at a (i ++ q)) (ndindex (inner a)).

(** 308-312: the rows of one component: name and values *)
Definition stats_rows (read : txt -> res darray) (ps : list R) (c : txt) : res (list (txt * list num)) :=
  do a <- read c;
  map_res (fun i =>
    do per <- map_res (nanpercentile (part a i)) ps;
    Ok (c ++ concat (map (fun t => fmt_int (t + 1)) i), per)) (ndindex (outer a)).
(** 276-312 [print_stats_table]: the table printed, as its header and rows.  Widths and the
    four decimals of the numbers are left out, and so are rows printed before a failure. *)
Definition stats_table (keys : list txt) (read : txt -> res darray) (ps : list R) (components : list txt)
  : res (list R * list (txt * list num)) :=
  if negb (forallb (fun c => existsb (txt_eqb c) keys) components) then match keys with [] => Err IndexError | _ => Err GenericException end
  else do rows <- map_res (stats_rows read ps) components; Ok (ps, concat rows).
