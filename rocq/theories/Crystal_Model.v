(** Model of defdap/crystal_utils.py and defdap/crystal.py.

    Integer indices are [Z]; the conversions to [numpy.int8] in
    [reduce_idc] and [safe_int_cast] are modelled, with wrap-around (what numpy
    does on the usual platforms).  Real arithmetic is over [R], without
    rounding.  A division of zero by zero, which gives nan with a warning in
    numpy, is modelled as the error [ZeroDivisionError]. *)
From Coq Require Import String Ascii Reals ZArith Lra Bool.
From Coq Require Import List.
From Verif Require Import Py Quat_Model.
Import ListNotations.

(** Python's [str.lower] on ASCII text. *)
Definition lower_ascii (c : ascii) : ascii :=
  let n := nat_of_ascii c in
  if ((65 <=? n) && (n <=? 90))%nat then ascii_of_nat (n + 32) else c.
Fixpoint lower (s : string) : string :=
  match s with
  | EmptyString => EmptyString
  | String c s' => String (lower_ascii c) (lower s')
  end.

(** ** Indices: defdap/crystal_utils.py *)

(** The value of an integer after [astype(np.int8)]. *)
Definition int8 (z : Z) : Z := ((z + 128) mod 256 - 128)%Z.

(** [numpy.round]: to the nearest integer, ties to the even one. *)
Definition rint (x : R) : Z :=
  let n := Int_part x in
  let f := (x - IZR n)%R in
  if Rlt_dec f (1/2) then n
  else if Rlt_dec (1/2) f then (n + 1)%Z
  else if Z.even n then n else (n + 1)%Z.

(** An index vector as numpy holds it: all integers or all floats. *)
Inductive arr :=
| IntArr (l : list Z)
| FltArr (l : list R).

Definition arr_R (a : arr) : list R :=
  match a with IntArr l => map IZR l | FltArr l => l end.

(** defdap/crystal_utils.py 341-369 [safe_int_cast], tolerance 1e-3. *)
Definition safe_int_cast (vec : arr) : res (list Z) :=
  match vec with
  | IntArr l => Ok (map int8 l)
  | FltArr l =>
      if existsb (fun x => if Rlt_dec (1/1000) (Rabs (x - IZR (rint x)))
                           then true else false) l
      then Err ValueError
      else Ok (map (fun x => int8 (rint x)) l)
  end.

(** defdap/crystal_utils.py 110-171 [convert_idc] (with [check_len] 105-107).
    [-np.array] and the in-place operators are on the array's own type, here
    unbounded integers or reals: for int8 entries ([generate_family] passes
    them) no wrap-around is modelled, which is exact as long as the results
    and three times the converted direction indices stay within int8. *)
Definition convert_idc (in_type : string) (dir plane : option arr) : res arr :=
  match dir, plane with
  | None, None => Err ValueError
  | Some _, Some _ => Err ValueError
  | None, Some plane =>
      if String.eqb (lower in_type) "m" then
        match plane with
        | IntArr [h; k; l] => Ok (IntArr [h; k; (h + k) * -1; l]%Z)
        | FltArr [h; k; l] => Ok (FltArr [h; k; (h + k) * -1; l]%R)
        | _ => Err ValueError
        end
      else if String.eqb (lower in_type) "mb" then
        match plane with
        | IntArr [h; k; i; l] => Ok (IntArr [h; k; l])
        | FltArr [h; k; i; l] => Ok (FltArr [h; k; l])
        | _ => Err ValueError
        end
      else Err ValueError
  | Some dir, None =>
      if String.eqb (lower in_type) "m" then
        match arr_R dir with
        | [u; v; w] =>
            let out := [(2 * u - v) / 3; (2 * v - u) / 3; (- u - v) / 3;
                        (3 * w) / 3]%R in
            match safe_int_cast (FltArr out) with
            | Ok z => Ok (IntArr z)
            | Err _ => Ok (FltArr out)
            end
        | _ => Err ValueError
        end
      else if String.eqb (lower in_type) "mb" then
        match dir with
        | IntArr [u; v; t; w] => Ok (IntArr [u - t; v - t; w]%Z)
        | FltArr [u; v; t; w] => Ok (FltArr [u - t; v - t; w]%R)
        | _ => Err ValueError
        end
      else Err ValueError
  end.

(** defdap/crystal_utils.py 299-320 [pos_idc] on integer vectors; the vector
    with no non-zero entry falls out of the loop and gives None.  Negation of
    the int8 value -128 is not wrapped. *)
Fixpoint first_nonzero (l : list Z) : option Z :=
  match l with
  | [] => None
  | idx :: l' => if (idx =? 0)%Z then first_nonzero l' else Some idx
  end.
Definition pos_idc (vec : list Z) : option (list Z) :=
  match first_nonzero vec with
  | None => None
  | Some idx => if (idx >? 0)%Z then Some vec else Some (map Z.opp vec)
  end.

(** defdap/crystal_utils.py 323-338 [reduce_idc].  [np.gcd] has no version for
    floats; a zero vector divides by a zero gcd. *)
Definition gcd_reduce (l : list Z) : Z := fold_left Z.gcd l 0%Z.
Definition reduce_idc (vec : arr) : res (list Z) :=
  match vec with
  | FltArr _ => Err TypeError
  | IntArr l =>
      let g := gcd_reduce l in
      if (g =? 0)%Z then Err ZeroDivisionError
      else Ok (map (fun x => int8 (x / g)) l)
  end.

(** defdap/crystal_utils.py 35-84 [create_l_matrix]; [convention] is the
    argument or the configured default. *)
Definition clear_small (x : R) : R := if Rlt_dec (Rabs x) (1 / 10 ^ 10) then 0%R else x.
Definition clear_row (v : vec3) : vec3 :=
  V3 (clear_small (vx v)) (clear_small (vy v)) (clear_small (vz v)).
Definition create_l_matrix (a b c alpha beta gamma : R) (convention : string)
  : res mat3 :=
  let ca := cos alpha in let cb := cos beta in let cg := cos gamma in
  let sg := sin gamma in
  let l00 := a in
  let l01 := (b * cg)%R in
  let l02 := (c * cb)%R in
  let l10 := 0%R in
  let l11 := (b * sg)%R in
  let l12 := (c * (ca - cb * cg) / sg)%R in
  let l22 := (c * sqrt (1 + 2 * ca * cb * cg - ca ^ 2 - cb ^ 2 - cg ^ 2) / sg)%R in
  let conv := lower convention in
  do m <- (if orb (String.eqb conv "hkl") (String.eqb conv "oi") then
             Ok (M3 (V3 l11 l10 l02) (V3 l01 l00 l12) (V3 0 0 l22))
           else if String.eqb conv "tsl" then
             Ok (M3 (V3 l00 l01 l02) (V3 l10 l11 l12) (V3 0 0 l22))
           else Err ValueError);
  Ok (M3 (clear_row (r0 m)) (clear_row (r1 m)) (clear_row (r2 m))).

(** [numpy.matmul] of a 3x3 array and a vector, and the transpose. *)
Definition matmul (m : mat3) (v : vec3) : vec3 :=
  V3 (vdot (r0 m) v) (vdot (r1 m) v) (vdot (r2 m) v).
Definition mcol (i : nat) (m : mat3) : vec3 :=
  let g := match i with O => vx | 1%nat => vy | _ => vz end in
  V3 (g (r0 m)) (g (r1 m)) (g (r2 m)).
Definition mT (m : mat3) : mat3 := M3 (mcol 0 m) (mcol 1 m) (mcol 2 m).

(** defdap/crystal_utils.py 87-102 [create_q_matrix]. *)
Definition create_q_matrix (l : mat3) : res mat3 :=
  let a := mcol 0 l in let b := mcol 1 l in let c := mcol 2 l in
  let volume := Rabs (vdot a (vcross b c)) in
  if Req_EM_T volume 0 then Err ZeroDivisionError
  else
    let a' := vscale (/ volume) (vcross b c) in
    let b' := vscale (/ volume) (vcross c a) in
    let c' := vscale (/ volume) (vcross a b) in
    Ok (mT (M3 a' b' c')).

(** Vectors from index triples. *)
Definition vec_of (l : list R) : res vec3 :=
  match l with
  | [x; y; z] => Ok (V3 x y z)
  | _ => Err ValueError
  end.
Definition list_of (v : vec3) : list R := [vx v; vy v; vz v].

(** The hexagonal cell used for slip systems,
    [create_l_matrix(1, 1, c_over_a, pi/2, pi/2, 2 pi/3)], and its reciprocal. *)
Definition hex_matrices (c_over_a : R) (conv : string) : res (mat3 * mat3) :=
  do l <- create_l_matrix 1 1 c_over_a (PI / 2) (PI / 2) (PI * 2 / 3) conv;
  do q <- create_q_matrix l;
  Ok (l, q).

(** defdap/crystal_utils.py 249-296 [project_to_orth]. *)
Definition project_to_orth (c_over_a : R) (dir plane : option arr)
  (in_type conv : string) : res vec3 :=
  match dir, plane with
  | None, None => Err ValueError
  | Some _, Some _ => Err ValueError
  | _, _ =>
      do dp <- (if String.eqb in_type "mb" then
                  match dir, plane with
                  | None, Some _ =>
                      do p <- convert_idc "mb" None plane; Ok (None, Some p)
                  | _, _ =>
                      do d <- convert_idc "mb" dir None; Ok (Some d, None)
                  end
                else if String.eqb in_type "m" then Ok (dir, plane)
                else Err ValueError);
      do l <- create_l_matrix 1 1 c_over_a (PI / 2) (PI / 2) (PI * 2 / 3) conv;
      match dp with
      | (None, Some p) =>
          do v <- vec_of (arr_R p);
          do q <- create_q_matrix l;
          Ok (matmul q v)
      | (Some d, _) => do v <- vec_of (arr_R d); Ok (matmul l v)
      | _ => Err ValueError
      end
  end.

(** ** Slip systems: defdap/crystal.py *)

(** The crystal structures the code distinguishes by name. *)
Definition structure := string.

Record slip_system := SS {
  plane_idc : list Z;
  dir_idc : list Z;
  slip_plane : vec3;
  slip_dir : vec3;
  ss_structure : structure;
  ss_c_over_a : option R
}.

(** Division of a vector by its norm. *)
Definition vunit (v : vec3) : res vec3 :=
  let n := sqrt (vdot v v) in
  if Req_EM_T n 0 then Err ZeroDivisionError else Ok (vscale (/ n) v).

(** defdap/crystal.py 223-271 [SlipSystem.__init__]; [conv] is the configured
    orthonormalisation convention.  Cubic index vectors of a length other than
    three are rejected here. *)
Definition mk_slip_system (conv : string) (plane dir : list Z)
  (structure : string) (c_over_a : option R) : res slip_system :=
  if String.eqb structure "cubic" then
    do p <- vec_of (map IZR plane);
    do p <- vunit p;
    do d <- vec_of (map IZR dir);
    do d <- vunit d;
    Ok (SS plane dir p d structure None)
  else if String.eqb structure "hexagonal" then
    match c_over_a with
    | None => Err GenericException
    | Some ca =>
        do pm <- convert_idc "mb" None (Some (IntArr plane));
        do dm <- convert_idc "mb" (Some (IntArr dir)) None;
        do lq <- hex_matrices ca conv;
        let '(l, q) := lq in
        do p <- vec_of (arr_R pm);
        do p <- vunit (matmul q p);
        do d <- vec_of (arr_R dm);
        do d <- vunit (matmul l d);
        Ok (SS plane dir p d structure (Some ca))
    end
  else Err GenericException.

(** Equality of the results of [pos_idc] (tuples or None). *)
Fixpoint zlist_eqb (a b : list Z) : bool :=
  match a, b with
  | [], [] => true
  | x :: a', y :: b' => (x =? y)%Z && zlist_eqb a' b'
  | _, _ => false
  end.
Definition idc_eqb (a b : option (list Z)) : bool :=
  match a, b with
  | None, None => true
  | Some x, Some y => zlist_eqb x y
  | _, _ => false
  end.

(** defdap/crystal.py 273-276 [__eq__]. *)
Definition ss_eqb (a b : slip_system) : bool :=
  idc_eqb (pos_idc (plane_idc a)) (pos_idc (plane_idc b)) &&
  idc_eqb (pos_idc (dir_idc a)) (pos_idc (dir_idc b)).

(** defdap/crystal.py 278-279 [__hash__]: the tuple that is hashed. *)
Definition ss_hash_key (a : slip_system) : res (list Z) :=
  match pos_idc (plane_idc a), pos_idc (dir_idc a) with
  | Some p, Some d => Ok (p ++ d)
  | _, _ => Err TypeError
  end.

(** Python's [set.add]: an element equal to one already there is dropped. *)
Definition set_add (s : list slip_system) (x : slip_system) : list slip_system :=
  if existsb (fun y => ss_eqb x y) s then s else s ++ [x].

(** defdap/crystal.py 101-216: the symmetry operators of a structure. *)
Definition structure_symmetries (structure : string) : list quat :=
  if String.eqb structure "cubic" then cubic_symmetries
  else if String.eqb structure "hexagonal" then hexagonal_symmetries
  else [].

(** [pos_idc] of an integer vector where the code needs a tuple. *)
Definition pos_tuple (l : list Z) : res (list Z) :=
  match pos_idc l with Some p => Ok p | None => Err TypeError end.

(** defdap/crystal.py 342-361: one pass of the loop in [generate_family].
    [plane] and [dir] are in the orthonormal basis for hexagonal crystals. *)
Definition family_member (conv structure : string) (c_over_a : option R)
  (lq : mat3 * mat3) (plane dir : vec3) (sym : quat) : res slip_system :=
  let symm := conjugate sym in
  let plane_symm := transform_vector symm plane in
  let dir_symm := transform_vector symm dir in
  do pd <-
    (if String.eqb structure "hexagonal" then
       let '(l, q) := lq in
       do pz <- safe_int_cast (FltArr (list_of (matmul (mT l) plane_symm)));
       do pm <- convert_idc "m" None (Some (IntArr pz));
       do p <- reduce_idc pm;
       do dz <- safe_int_cast (FltArr (list_of (matmul (mT q) dir_symm)));
       do dm <- convert_idc "m" (Some (IntArr dz)) None;
       do d <- reduce_idc dm;
       Ok (IntArr p, IntArr d)
     else Ok (FltArr (list_of plane_symm), FltArr (list_of dir_symm)));
  do p <- safe_int_cast (fst pd);
  do p <- pos_tuple p;
  do d <- safe_int_cast (snd pd);
  do d <- pos_tuple d;
  mk_slip_system conv p d structure c_over_a.

(** defdap/crystal.py 313-363 [generate_family]. *)
Definition generate_family (conv : string) (s : slip_system)
  : res (list slip_system) :=
  do start <-
    (if String.eqb (ss_structure s) "hexagonal" then
       match ss_c_over_a s with
       | None => Err TypeError
       | Some ca =>
           do lq <- hex_matrices ca conv;
           let '(l, q) := lq in
           do pm <- convert_idc "mb" None (Some (IntArr (plane_idc s)));
           do dm <- convert_idc "mb" (Some (IntArr (dir_idc s))) None;
           do p <- vec_of (arr_R pm);
           do d <- vec_of (arr_R dm);
           Ok (lq, matmul q p, matmul l d)
       end
     else
       do p <- vec_of (map IZR (plane_idc s));
       do d <- vec_of (map IZR (dir_idc s));
       (* no matrices are used for cubic crystals *)
       let zero := V3 0 0 0 in
       Ok ((M3 zero zero zero, M3 zero zero zero), p, d));
  let '(lq, plane, dir) := start in
  for_each (fun fam sym =>
              do m <- family_member conv (ss_structure s) (ss_c_over_a s) lq
                        plane dir sym;
              Ok (set_add fam m))
           (structure_symmetries (ss_structure s)) [].

(** defdap/crystal.py 461-470: [group] by plane.  The inner [for ... else]
    appends to the first group with the same plane, or opens a new group. *)
Fixpoint add_to_group {A} (same : A -> bool) (x : A) (groups : list (list A))
  : list (list A) :=
  match groups with
  | [] => [[x]]
  | g :: gs =>
      match g with
      | y :: _ => if same y then (g ++ [x]) :: gs
                  else g :: add_to_group same x gs
      | [] => g :: add_to_group same x gs (* groups are never empty *)
      end
  end.
Definition group_by_plane (l : list slip_system) : res (list (list slip_system)) :=
  match l with
  | [] => Err IndexError
  | s :: l' =>
      Ok (fold_left (fun groups ss =>
            add_to_group (fun y => idc_eqb (pos_idc (plane_idc ss))
                                           (pos_idc (plane_idc y))) ss groups)
          l' [[s]])
  end.

(** defdap/crystal.py 472-482: [group] by family.  Groups are kept with their
    families; [ss in family] is set membership. *)
Fixpoint add_to_family (x : slip_system)
  (groups : list (list slip_system * list slip_system))
  : option (list (list slip_system * list slip_system)) :=
  match groups with
  | [] => None
  | (g, fam) :: gs =>
      if existsb (fun y => ss_eqb x y) fam then Some ((g ++ [x], fam) :: gs)
      else match add_to_family x gs with
           | Some gs' => Some ((g, fam) :: gs')
           | None => None
           end
  end.
Definition group_by_family (conv : string) (l : list slip_system)
  : res (list (list slip_system)) :=
  do gs <- for_each (fun groups ss =>
             match add_to_family ss groups with
             | Some groups' => Ok groups'
             | None =>
                 do fam <- generate_family conv ss;
                 Ok (groups ++ [([ss], fam)])
             end) l [];
  Ok (map fst gs).

(** defdap/crystal.py 443-487 [group]. *)
Definition group (conv : string) (l : list slip_system) (group_by : string)
  : res (list (list slip_system)) :=
  if String.eqb (lower group_by) "plane" then group_by_plane l
  else if String.eqb (lower group_by) "family" then group_by_family conv l
  else Err ValueError.

(** The contents of a slip system file as [load] reads it: the colours of the
    second line and the integer table below it. *)
Record ss_file := SSFile { ss_colours : list string; ss_rows : list (list Z) }.

(** defdap/crystal.py 366-440 [load] with [group_by='plane'].  Finding and
    opening the file and [np.loadtxt] are not modelled; the table is given, all
    rows having the same length.  [ss_data.shape[1]] of a table with one row
    raises IndexError, because loadtxt returns a vector then. *)
Definition load (conv : string) (f : ss_file) (structure : string)
  (c_over_a : option R) : res (list (list slip_system) * list string) :=
  let vect_size := if String.eqb structure "hexagonal" then 4%nat else 3%nat in
  match ss_rows f with
  | [] => Err IndexError
  | [_] => Err IndexError
  | row :: _ =>
      if negb (Nat.eqb (length row) (2 * vect_size)) then Err GenericException
      else
        do ss <- for_each (fun acc row =>
                   do s <- mk_slip_system conv (firstn vect_size row)
                             (firstn vect_size (skipn vect_size row))
                             structure c_over_a;
                   Ok (acc ++ [s])) (ss_rows f) [];
        do g <- group conv ss "plane";
        Ok (g, ss_colours f)
  end.

(** ** Shipped files *)

(** defdap/slip_systems/cubic_fcc.txt 1-14, read as [SlipSystem.load] does: the colour
    line and the integer table. *)
Definition file_cubic_fcc : ss_file :=
  SSFile
    ["blue"%string; "green"%string; "red"%string; "white"%string]
    [[1; 1; 1; 0; 1; (-1)];
     [1; 1; 1; (-1); 0; 1];
     [1; 1; 1; 1; (-1); 0];
     [1; 1; (-1); 0; 1; 1];
     [1; 1; (-1); (-1); 0; (-1)];
     [1; 1; (-1); 1; (-1); 0];
     [(-1); 1; 1; 0; 1; (-1)];
     [(-1); 1; 1; 1; 0; 1];
     [(-1); 1; 1; (-1); (-1); 0];
     [1; (-1); 1; 0; (-1); (-1)];
     [1; (-1); 1; (-1); 0; 1];
     [1; (-1); 1; 1; 1; 0]]%Z.

(** defdap/slip_systems/cubic_fcc_damask.txt 1-14, read as [SlipSystem.load] does: the colour
    line and the integer table. *)
Definition file_cubic_fcc_damask : ss_file :=
  SSFile
    ["blue"%string; "green"%string; "red"%string; "black"%string]
    [[1; 1; 1; 0; 1; (-1)];
     [1; 1; 1; (-1); 0; 1];
     [1; 1; 1; 1; (-1); 0];
     [(-1); (-1); 1; 0; (-1); (-1)];
     [(-1); (-1); 1; 1; 0; 1];
     [(-1); (-1); 1; (-1); 1; 0];
     [1; (-1); (-1); 0; (-1); 1];
     [1; (-1); (-1); (-1); 0; (-1)];
     [1; (-1); (-1); 1; 1; 0];
     [(-1); 1; (-1); 0; 1; 1];
     [(-1); 1; (-1); 1; 0; (-1)];
     [(-1); 1; (-1); (-1); (-1); 0]]%Z.

(** defdap/slip_systems/cubic_bcc_110only.txt 1-14, read as [SlipSystem.load] does: the colour
    line and the integer table. *)
Definition file_cubic_bcc_110only : ss_file :=
  SSFile
    ["green"%string; "green"%string; "green"%string; "green"%string]
    [[0; 1; (-1); 1; 1; 1];
     [(-1); 0; 1; 1; 1; 1];
     [1; (-1); 0; 1; 1; 1];
     [0; 1; 1; 1; 1; (-1)];
     [(-1); 0; (-1); 1; 1; (-1)];
     [1; (-1); 0; 1; 1; (-1)];
     [0; 1; (-1); (-1); 1; 1];
     [1; 0; 1; (-1); 1; 1];
     [(-1); (-1); 0; (-1); 1; 1];
     [0; (-1); (-1); 1; (-1); 1];
     [(-1); 0; 1; 1; (-1); 1];
     [1; 1; 0; 1; (-1); 1]]%Z.

(** defdap/slip_systems/cubic_bcc.txt 1-50, read as [SlipSystem.load] does: the colour
    line and the integer table. *)
Definition file_cubic_bcc : ss_file :=
  SSFile
    ["green"%string; "green"%string; "green"%string; "green"%string; "red"%string; "red"%string; "red"%string; "red"%string; "blue"%string; "blue"%string; "blue"%string; "blue"%string]
    [[0; 1; (-1); 1; 1; 1];
     [(-1); 0; 1; 1; 1; 1];
     [1; (-1); 0; 1; 1; 1];
     [0; 1; 1; 1; 1; (-1)];
     [(-1); 0; (-1); 1; 1; (-1)];
     [1; (-1); 0; 1; 1; (-1)];
     [0; 1; (-1); (-1); 1; 1];
     [1; 0; 1; (-1); 1; 1];
     [(-1); (-1); 0; (-1); 1; 1];
     [0; (-1); (-1); 1; (-1); 1];
     [(-1); 0; 1; 1; (-1); 1];
     [1; 1; 0; 1; (-1); 1];
     [(-2); 1; 1; 1; 1; 1];
     [1; (-2); 1; 1; 1; 1];
     [1; 1; (-2); 1; 1; 1];
     [2; (-1); 1; (-1); (-1); 1];
     [(-1); 2; 1; (-1); (-1); 1];
     [1; 1; 2; (-1); (-1); 1];
     [2; 1; (-1); 1; (-1); 1];
     [1; 2; 1; 1; (-1); 1];
     [(-1); 1; 2; 1; (-1); 1];
     [2; 1; 1; (-1); 1; 1];
     [1; 2; (-1); (-1); 1; 1];
     [1; (-1); 2; (-1); 1; 1];
     [1; 2; 3; 1; 1; (-1)];
     [2; 1; 3; 1; 1; (-1)];
     [3; 2; 1; 1; 1; (-1)];
     [2; 3; 1; 1; 1; (-1)];
     [(-1); 3; 2; 1; 1; (-1)];
     [3; (-1); 2; 1; 1; (-1)];
     [1; 3; 2; 1; (-1); 1];
     [2; 3; 1; 1; (-1); 1];
     [3; 1; 2; 1; (-1); 1];
     [2; 1; 3; 1; (-1); 1];
     [(-1); 2; 3; 1; (-1); 1];
     [3; 2; (-1); 1; (-1); 1];
     [3; 1; 2; (-1); 1; 1];
     [3; 2; 1; (-1); 1; 1];
     [1; 2; 3; (-1); 1; 1];
     [1; 3; 2; (-1); 1; 1];
     [2; (-1); 3; (-1); 1; 1];
     [2; 3; (-1); (-1); 1; 1];
     [1; 2; 3; 1; 1; 1];
     [1; 3; 2; 1; 1; 1];
     [3; 1; 2; 1; 1; 1];
     [2; 1; 3; 1; 1; 1];
     [2; 3; 1; 1; 1; 1];
     [3; 1; 2; 1; 1; 1]]%Z.

(** defdap/slip_systems/hexagonal_noca.txt 1-14, read as [SlipSystem.load] does: the colour
    line and the integer table. *)
Definition file_hexagonal_noca : ss_file :=
  SSFile
    ["red"%string; "blue"%string; "blue"%string; "blue"%string; "green"%string; "green"%string; "green"%string; "green"%string; "green"%string; "green"%string]
    [[0; 0; 0; 1; 1; 1; (-2); 0];
     [0; 0; 0; 1; 1; (-2); 1; 0];
     [0; 0; 0; 1; (-2); 1; 1; 0];
     [1; 0; (-1); 0; 1; (-2); 1; 0];
     [0; 1; (-1); 0; (-2); 1; 1; 0];
     [1; (-1); 0; 0; 1; 1; (-2); 0];
     [1; (-1); 0; 1; 1; 1; (-2); 0];
     [1; (-1); 0; (-1); 1; 1; (-2); 0];
     [1; 0; (-1); 1; 1; (-2); 1; 0];
     [1; 0; (-1); (-1); 1; (-2); 1; 0];
     [0; (-1); 1; 1; (-2); 1; 1; 0];
     [0; (-1); 1; (-1); (-2); 1; 1; 0]]%Z.

(** defdap/slip_systems/hexagonal_withca.txt 1-26, read as [SlipSystem.load] does: the colour
    line and the integer table. *)
Definition file_hexagonal_withca : ss_file :=
  SSFile
    ["red"%string; "blue"%string; "blue"%string; "blue"%string; "green"%string; "green"%string; "green"%string; "green"%string; "green"%string; "green"%string]
    [[0; 0; 0; 1; 1; 1; (-2); 0];
     [0; 0; 0; 1; 1; (-2); 1; 0];
     [0; 0; 0; 1; (-2); 1; 1; 0];
     [1; 0; (-1); 0; 1; (-2); 1; 0];
     [0; 1; (-1); 0; (-2); 1; 1; 0];
     [1; (-1); 0; 0; 1; 1; (-2); 0];
     [1; (-1); 0; 1; 1; 1; (-2); 0];
     [1; (-1); 0; (-1); 1; 1; (-2); 0];
     [1; 0; (-1); 1; 1; (-2); 1; 0];
     [1; 0; (-1); (-1); 1; (-2); 1; 0];
     [0; (-1); 1; 1; (-2); 1; 1; 0];
     [0; (-1); 1; (-1); (-2); 1; 1; 0];
     [1; 0; (-1); (-1); 1; 1; (-2); 3];
     [1; 0; (-1); (-1); 2; (-1); (-1); 3];
     [1; 0; (-1); 1; (-1); (-1); 2; 3];
     [1; 0; (-1); 1; (-2); 1; 1; 3];
     [1; (-1); 0; 1; (-2); 1; 1; 3];
     [1; (-1); 0; 1; (-1); 2; (-1); 3];
     [1; (-1); 0; (-1); 1; (-2); 1; 3];
     [1; (-1); 0; (-1); 2; (-1); (-1); 3];
     [0; (-1); 1; 1; 1; 1; (-2); 3];
     [0; (-1); 1; 1; (-1); 2; (-1); 3];
     [0; (-1); 1; (-1); (-1); (-1); 2; 3];
     [0; (-1); 1; (-1); 1; (-2); 1; 3]]%Z.

(** The files by name (defdap/crystal.py 396-412). *)
Definition shipped (name : string) : option ss_file :=
  if String.eqb name "cubic_fcc" then Some file_cubic_fcc
  else if String.eqb name "cubic_fcc_damask" then Some file_cubic_fcc_damask
  else if String.eqb name "cubic_bcc_110only" then Some file_cubic_bcc_110only
  else if String.eqb name "cubic_bcc" then Some file_cubic_bcc
  else if String.eqb name "hexagonal_noca" then Some file_hexagonal_noca
  else if String.eqb name "hexagonal_withca" then Some file_hexagonal_withca
  else None.

(** ** Phases: defdap/crystal.py 25-98, defaults from defdap/__init__.py 8-20 *)
Definition default_ss_file (k : string) : option string :=
  if String.eqb k "FCC" then Some "cubic_fcc"%string
  else if String.eqb k "BCC" then Some "cubic_bcc"%string
  else if String.eqb k "HCP" then Some "hexagonal_withca"%string
  else None.

Record phase := Phase {
  ph_laue : Z; ph_space : Z; ph_structure : string;
  ph_ss_file : option string;
  ph_slip_systems : option (list (list slip_system));
  ph_colours : option (list string)
}.

(** defdap/crystal.py 26-70; the lattice parameters enter through a and c only. *)
Definition mk_phase (conv : string) (laue space : Z) (a c : R) : res phase :=
  do structure <- (if (laue =? 9)%Z then Ok "hexagonal"%string
                   else if (laue =? 11)%Z then Ok "cubic"%string
                   else Err ValueError);
  let file :=
    if String.eqb structure "hexagonal" then default_ss_file "HCP"
    else if (space =? 225)%Z then default_ss_file "FCC"
    else if (space =? 229)%Z then default_ss_file "BCC"
    else None in
  match file with
  | None => Ok (Phase laue space structure None None None)
  | Some name =>
      match shipped name with
      | None => Err GenericException (* FileNotFoundError *)
      | Some f =>
          do ca <- (if String.eqb structure "hexagonal" then
                      if Req_EM_T a 0 then Err ZeroDivisionError
                      else Ok (Some (c / a)%R)
                    else Ok None);
          do r <- load conv f structure ca;
          Ok (Phase laue space structure file (Some (fst r)) (Some (snd r)))
      end
  end.

(** ** Schmid factors: defdap/ebsd.py 1438-1474, on the grain's reference
    orientation *)
Definition schmid_factor (ori : quat) (load_vector : vec3) (s : slip_system) : R :=
  let lc := transform_vector ori load_vector in
  Rabs (vdot lc (slip_plane s) * vdot lc (slip_dir s)).
Definition schmid_factors (ori : quat) (load_vector : vec3)
  (groups : list (list slip_system)) : list (list R) :=
  map (map (schmid_factor ori load_vector)) groups.
