(** The Datastore: items with metadata, generators and derivatives
    (defdap/utils.py 72-453). *)
From Coq Require Import String.
From Coq Require Import List Arith ZArith Bool.
Import ListNotations.
From Verif Require Import Py.
Open Scope string_scope.

(** Python values, as far as the store looks into them.  [VObj] is any other
    object, compared by identity. *)
Inductive val :=
| VNone | VBool (b : bool) | VInt (z : Z) | VStr (s : string) | VObj (n : nat)
| VTup (l : list val).

Fixpoint veqb (a b : val) : bool :=
  match a, b with
  | VNone, VNone => true
  | VBool x, VBool y => Bool.eqb x y
  | VInt x, VInt y => Z.eqb x y
  | VStr x, VStr y => String.eqb x y
  | VObj x, VObj y => Nat.eqb x y
  | VTup x, VTup y =>
      (fix go (l m : list val) : bool :=
         match l, m with
         | [], [] => true
         | p :: l, q :: m => veqb p q && go l m
         | _, _ => false
         end) x y
  | _, _ => false
  end.

Definition is_none (v : val) : bool := match v with VNone => true | _ => false end.

(** Python truth value. *)
Definition truthy (v : val) : bool :=
  match v with
  | VNone => false
  | VBool b => b
  | VInt z => negb (Z.eqb z 0)
  | VStr s => negb (String.eqb s "")
  | VObj _ => true
  | VTup l => match l with [] => false | _ => true end
  end.

(** Insertion-ordered dictionaries. *)
Definition dict (A : Type) := list (string * A).
Fixpoint dget {A} (k : string) (d : dict A) : option A :=
  match d with
  | [] => None
  | (k', v) :: d => if String.eqb k k' then Some v else dget k d
  end.
Fixpoint dset {A} (k : string) (v : A) (d : dict A) : dict A :=
  match d with
  | [] => [(k, v)]
  | (k', v') :: d => if String.eqb k k' then (k', v) :: d else (k', v') :: dset k v d
  end.
Definition dkeys {A} (d : dict A) : list string := map fst d.
(** [a.update(b)]. *)
Definition dupdate {A} (a b : dict A) : dict A :=
  fold_left (fun d kv => dset (fst kv) (snd kv) d) b a.

Definition inb (k : string) (l : list string) : bool := existsb (String.eqb k) l.

(** A derivative (utils.py 353-359).  [d_src] is the index of the source store,
    [d_fid] the identity of the function; [d_func] is applied to the value and
    [d_ref] to the name when [pass_ref] is set.  Simplification: these functions
    are functions of their argument only and do not use the stores. *)
Record deriv := Deriv {
  d_src : nat; d_fid : nat;
  d_func : val -> res val; d_ref : string -> res val;
  d_in : dict val; d_out : dict val; d_pass_ref : bool
}.

(** A Datastore (utils.py 109-115).  A generator is a function of the number of
    generator runs so far, so that running it twice may give two values; it
    returns a value, for several keys a tuple.  Simplification: a generator does
    not itself use the stores, and keyword arguments are fixed. *)
Record store := Store {
  st_items : dict (dict val);
  st_gens : list (list string * (nat -> res val));
  st_derivs : list deriv;
  st_gid : nat;
  st_crop : val -> val -> res val;      (* value, binning *)
  st_mask : val -> res val
}.

(** All stores, the class attribute [_been_to], and the number of generator
    runs. *)
Record state := State {
  hp : nat -> store;
  guard : option (list nat);
  clock : nat
}.

(** State and exceptions: an exception keeps the state. *)
Definition M (A : Type) := state -> res A * state.
Definition ret {A} (a : A) : M A := fun st => (Ok a, st).
Definition raise {A} (e : exn) : M A := fun st => (Err e, st).
Definition bindM {A B} (m : M A) (f : A -> M B) : M B := fun st =>
  match m st with
  | (Ok a, st') => f a st'
  | (Err e, st') => (Err e, st')
  end.
Definition lift {A} (r : res A) : M A := fun st => (r, st).
Notation "'let*' x := a 'in' b" := (bindM a (fun x => b))
  (at level 200, x pattern, a at level 100, b at level 200).
Definition get_store (s : nat) : M store := fun st => (Ok (hp st s), st).
Definition get_guard : M (option (list nat)) := fun st => (Ok (guard st), st).
Definition set_guard (g : option (list nat)) : M unit := fun st =>
  (Ok tt, State (hp st) g (clock st)).
Definition set_items (s : nat) (it : dict (dict val)) : M unit := fun st =>
  let o := hp st s in
  (Ok tt, State (fun i => if Nat.eqb i s
                  then Store it (st_gens o) (st_derivs o) (st_gid o) (st_crop o) (st_mask o)
                  else hp st i) (guard st) (clock st)).
(** [try: m except KeyError: h]. *)
Definition except_key {A} (m h : M A) : M A := fun st =>
  match m st with
  | (Err KeyError, st') => h st'
  | r => r
  end.
(** [try: m except DataGenerationError: h]. *)
Definition except_gen {A} (m h : M A) : M A := fun st =>
  match m st with
  | (Err DataGenerationError, st') => h st'
  | r => r
  end.

Fixpoint concatM {A B} (f : A -> M (list B)) (l : list A) : M (list B) :=
  match l with
  | [] => ret []
  | a :: l => let* x := f a in let* y := concatM f l in ret (x ++ y)%list
  end.
Fixpoint filterM {A} (f : A -> M bool) (l : list A) : M (list A) :=
  match l with
  | [] => ret []
  | a :: l => let* b := f a in let* y := filterM f l in ret (if b then a :: y else y)
  end.
Fixpoint iterM {A} (f : A -> M unit) (l : list A) : M unit :=
  match l with
  | [] => ret tt
  | a :: l => let* _ := f a in iterM f l
  end.

Section Open.
(** The recursive calls: [lk] is [store.lookup_derivative_keys(derivative)],
    [gi] is [store[(key, attr)]]. *)
Variable lk : nat -> deriv -> M (list string).
Variable gi : nat -> string -> string -> M val.

(** utils.py 231-239 [keys]. *)
Definition keys_of (s : nat) : M (list string) :=
  let* o := get_store s in
  let* ks := concatM (lk s) (st_derivs o) in
  ret (dkeys (st_items o) ++ ks)%list.

(** utils.py 264-286 [_get_derived_item].  The [else: raise] at 268-269 belongs
    to the [if], so the loop never gets past the first derivative; with no
    derivative the variable [derivative] is unbound at 270. *)
Definition get_derived (s : nat) (key attr : string) : M val :=
  let* o := get_store s in
  match st_derivs o with
  | [] => raise UnboundLocalError
  | d :: _ =>
      let* ks := lk s d in
      if inb key ks then
        match dget attr (d_out d) with
        | Some v => ret v
        | None =>
            if d_pass_ref d && String.eqb attr "data" then lift (d_ref d key)
            else
              let* v := gi (d_src d) key attr in
              if String.eqb attr "data" then lift (d_func d v) else ret v
        end
      else raise KeyError
  end.

(** utils.py 425-449 [get_metadata]. *)
Definition get_metadata (s : nat) (key attr : string) (dflt : val) : M val :=
  let* o := get_store s in
  match dget key (st_items o) with
  | Some it => ret (match dget attr it with Some v => v | None => dflt end)
  | None => except_key (get_derived s key attr) (ret dflt)
  end.

(** utils.py 253-258: the loop over in_props for one key of the source. *)
Fixpoint matches (src : nat) (key : string) (props : dict val) : M bool :=
  match props with
  | [] => ret true
  | (mk, want) :: props =>
      let* v := get_metadata src key mk VNone in
      if veqb v want then matches src key props else ret false
  end.

(** utils.py 241-262 [lookup_derivative_keys]. *)
Definition lookup_body (s : nat) (d : deriv) : M (list string) :=
  let* g := get_guard in
  let* o := get_store s in
  let been := st_gid o :: match g with None => [] | Some l => l end in
  let* _ := set_guard (Some been) in
  let src := d_src d in
  let* so := get_store src in
  if existsb (Nat.eqb (st_gid so)) been then ret []
  else
    let* ks := keys_of src in
    let* matched := filterM (fun key => matches src key (d_in d)) ks in
    let* _ := match g with None => set_guard None | Some _ => ret tt end in
    ret matched.

(** utils.py 185-206 [__setitem__]. *)
Definition setitem (s : nat) (key attr : string) (v : val) : M unit :=
  let* ks := keys_of s in
  if inb key ks then
    let* o := get_store s in
    match dget key (st_items o) with
    | Some it => set_items s (dset key (dset attr v it) (st_items o))
    | None => raise KeyError
    end
  else raise ValueError.

(** The first generator that produces [key] (utils.py 383-385). *)
Fixpoint find_gen (key : string) (gens : list (list string * (nat -> res val)))
  : option (list string * (nat -> res val)) :=
  match gens with
  | [] => None
  | g :: gens => if inb key (fst g) then Some g else find_gen key gens
  end.

(** [generator()]: one more run. *)
Definition run_gen (f : nat -> res val) : M val := fun st =>
  (f (clock st), State (hp st) (guard st) (S (clock st))).

Definition save_one (s : nat) (kd : string * val) : M unit :=
  let* sv := get_metadata s (fst kd) "save" (VBool true) in
  if truthy sv then setitem s (fst kd) "data" (snd kd) else ret tt.

(** utils.py 369-406 [generate], with return_val=True. *)
Definition generate (s : nat) (key : string) : M val :=
  let* o := get_store s in
  match find_gen key (st_gens o) with
  | None => raise DataGenerationError
  | Some (ks, f) =>
      let* datas := run_gen f in
      match ks with
      | [_] => let* _ := save_one s (key, datas) in ret datas
      | _ =>
          match datas with
          | VTup l =>
              if Nat.eqb (length ks) (length l) then
                let* _ := iterM (save_one s) (combine ks l) in
                (* rtn_val: the last of the values for this key *)
                match find (fun kd => String.eqb (fst kd) key) (rev (combine ks l)) with
                | Some kd => ret (snd kd)
                | None => raise UnboundLocalError
                end
              else raise ValueError
          | _ => raise TypeError
          end
      end
  end.

(** utils.py 139-183 [__getitem__]. *)
Definition getitem_body (s : nat) (key attr : string) : M val :=
  let* o := get_store s in
  match dget key (st_items o) with
  | None =>
      let* ks := keys_of s in
      if inb key ks then get_derived s key attr else raise KeyError
  | Some it =>
      match dget attr it with
      | None => raise KeyError
      | Some v =>
          if String.eqb attr "data" then
            let* v := if is_none v
                      then except_gen (generate s key) (ret v)
                      else ret v in
            let* ty := get_metadata s key "type" VNone in
            if veqb ty (VStr "map") then
              let* c := get_metadata s key "cropped" (VBool false) in
              let* v := if truthy c then ret v
                        else let* b := get_metadata s key "binning" (VInt 1) in
                             let* o := get_store s in lift (st_crop o v b) in
              let* m := get_metadata s key "apply_mask" (VBool true) in
              if truthy m then let* o := get_store s in lift (st_mask o v) else ret v
            else ret v
          else ret v
      end
  end.
End Open.

(** The recursion of utils.py between the functions above, with fuel for the
    depth of the call stack. *)
Fixpoint both (n : nat)
  : (nat -> deriv -> M (list string)) * (nat -> string -> string -> M val) :=
  match n with
  | O => (fun _ _ => raise OutOfFuel, fun _ _ _ => raise OutOfFuel)
  | S m => (lookup_body (fst (both m)) (snd (both m)),
            getitem_body (fst (both m)) (snd (both m)))
  end.
Definition lookup_keys (n : nat) := fst (both n).
Definition getitem (n : nat) := snd (both n).
Definition keys (n : nat) := keys_of (lookup_keys n).
(** utils.py 136-137 [__contains__]. *)
Definition contains (n : nat) (s : nat) (key : string) : M bool :=
  let* ks := keys n s in ret (inb key ks).
Definition metadata (n : nat) := get_metadata (lookup_keys n) (getitem n).
Definition set_item (n : nat) := setitem (lookup_keys n).
Definition generate_item (n : nat) := generate (lookup_keys n) (getitem n).

(** utils.py 294-315 [add]. *)
Definition add (n : nat) (s : nat) (key : string) (data : val) (kw : dict val)
  : M unit :=
  let* c := contains n s key in
  if c then raise ValueError
  else if inb "data" (dkeys kw) then raise ValueError
  else let* o := get_store s in
       set_items s (dset key (dupdate [("data", data)] kw) (st_items o)).

Definition set_gens (s : nat) (g : list (list string * (nat -> res val))) : M unit := fun st =>
  let o := hp st s in
  (Ok tt, State (fun i => if Nat.eqb i s
                  then Store (st_items o) g (st_derivs o) (st_gid o) (st_crop o) (st_mask o)
                  else hp st i) (guard st) (clock st)).

Definition keys_eqb (a b : list string) : bool :=
  if list_eq_dec string_dec a b then true else false.
Fixpoint gen_set (ks : list string) (f : nat -> res val)
  (g : list (list string * (nat -> res val))) :=
  match g with
  | [] => [(ks, f)]
  | (k, f') :: g => if keys_eqb ks k then (k, f) :: g else (k, f') :: gen_set ks f g
  end.

(** utils.py 317-345 [add_generator]; [metas] is the metadata of each key
    (empty dictionaries if none is given), [kw] the common keyword arguments.
    Not modelled: that the caller's metadata dictionaries are changed at 343. *)
Definition add_generator (n : nat) (s : nat) (kms : list (string * dict val))
  (f : nat -> res val) (kw : dict val) : M unit :=
  let* _ := iterM (fun km => add n s (fst km) VNone (dupdate (snd km) kw)) kms in
  let* o := get_store s in
  set_gens s (gen_set (map fst kms) f (st_gens o)).

(** utils.py 347-367 [add_derivative]: a derivative with the same function is
    replaced. *)
Fixpoint deriv_set (d : deriv) (ds : list deriv) : list deriv :=
  match ds with
  | [] => [d]
  | e :: ds => if Nat.eqb (d_fid e) (d_fid d) then d :: ds else e :: deriv_set d ds
  end.
Definition add_derivative (s : nat) (d : deriv) : M unit := fun st =>
  let o := hp st s in
  (Ok tt, State (fun i => if Nat.eqb i s
                  then Store (st_items o) (st_gens o) (deriv_set d (st_derivs o)) (st_gid o)
                             (st_crop o) (st_mask o)
                  else hp st i) (guard st) (clock st)).
