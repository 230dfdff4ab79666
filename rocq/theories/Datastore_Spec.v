(** Vocabulary for the Datastore properties. *)
From Coq Require Import String.
From Coq Require Import List Arith ZArith Bool Relations.
Import ListNotations.
From Verif Require Import Py Datastore_Model.
Open Scope string_scope.
Open Scope nat_scope.

(** Store [s] has a derivative with source [t]. *)
Definition derives_from (h : nat -> store) (s t : nat) : Prop :=
  exists d, In d (st_derivs (h s)) /\ d_src d = t.
Definition reaches (h : nat -> store) : nat -> nat -> Prop :=
  clos_refl_trans nat (derives_from h).

(** The names stored in [s] itself. *)
Definition stored (h : nat -> store) (s : nat) (k : string) : Prop :=
  exists it, dget k (st_items (h s)) = Some it.

(** A stored metadata value, [None] if absent. *)
Definition stored_meta (h : nat -> store) (s : nat) (k attr : string) : val :=
  match dget k (st_items (h s)) with
  | Some it => match dget attr it with Some v => v | None => VNone end
  | None => VNone
  end.

(** The item stored in the source passes the filter of the derivative. *)
Definition passes (h : nat -> store) (d : deriv) (k : string) : Prop :=
  forall mk want, In (mk, want) (d_in d) ->
    veqb (stored_meta h (d_src d) k mk) want = true.

(** Stores as the library builds them: finitely many groups, listed in [G]; no
    derivative filters on the data itself; and no store derives from a store of
    its own group. *)
Record well_formed (h : nat -> store) (G : list nat) : Prop := {
  wf_groups : forall s, In (st_gid (h s)) G;
  wf_in : forall s d, In d (st_derivs (h s)) -> ~ In "data" (dkeys (d_in d))
}.
Definition no_self_link (h : nat -> store) : Prop :=
  forall s d, In d (st_derivs (h s)) -> st_gid (h (d_src d)) <> st_gid (h s).

(** Attribute [a] of item [k] of store [s]. *)
Definition attr_of (h : nat -> store) (s : nat) (k a : string) : option val :=
  match dget k (st_items (h s)) with
  | Some it => dget a it
  | None => None
  end.
Definition attr_or (h : nat -> store) (s : nat) (k a : string) (dflt : val) : val :=
  match attr_of h s k a with Some v => v | None => dflt end.

(** What a reader of the data of item [k] of store [s] sees of the value [v]:
    maps are cropped and masked unless the metadata says otherwise. *)
Definition seen (h : nat -> store) (s : nat) (k : string) (v : val) : res val :=
  if veqb (attr_or h s k "type" VNone) (VStr "map") then
    bind (if truthy (attr_or h s k "cropped" (VBool false)) then Ok v
          else st_crop (h s) v (attr_or h s k "binning" (VInt 1%Z)))
         (fun w => if truthy (attr_or h s k "apply_mask" (VBool true))
                   then st_mask (h s) w else Ok w)
  else Ok v.

(** A history of additions and assignments. *)
Inductive op :=
| OpAdd (s : nat) (k : string) (data : val) (meta : dict val)
| OpSet (s : nat) (k a : string) (v : val).
Definition op_store (o : op) : nat := match o with OpAdd s _ _ _ => s | OpSet s _ _ _ => s end.

(** The abstract store: item name to attribute name to value. *)
Definition amap := nat -> string -> option (string -> option val).
Definition apply_op (o : op) (m : amap) : res unit * amap :=
  match o with
  | OpAdd s k data meta =>
      match m s k with
      | Some _ => (Err ValueError, m)
      | None =>
          match dget "data" meta with
          | Some _ => (Err ValueError, m)
          | None =>
              (Ok tt, fun s' k' =>
                 if Nat.eqb s' s && String.eqb k' k
                 then Some (fun a => if String.eqb a "data" then Some data else dget a meta)
                 else m s' k')
          end
      end
  | OpSet s k a v =>
      match m s k with
      | None => (Err ValueError, m)
      | Some it =>
          (Ok tt, fun s' k' =>
             if Nat.eqb s' s && String.eqb k' k
             then Some (fun a' => if String.eqb a' a then Some v else it a')
             else m s' k')
      end
  end.
Fixpoint apply_ops (l : list op) (m : amap) : list (res unit) * amap :=
  match l with
  | [] => ([], m)
  | o :: l => let (r, m1) := apply_op o m in
              let (rs, m2) := apply_ops l m1 in (r :: rs, m2)
  end.
Definition abstract (h : nat -> store) : amap := fun s k =>
  match dget k (st_items (h s)) with
  | Some it => Some (fun a => dget a it)
  | None => None
  end.

(** The outputs a generator declares and what it returned. *)
Definition outputs (ks : list string) (r : val) : option (list (string * val)) :=
  match ks with
  | [k] => Some [(k, r)]
  | _ => match r with
         | VTup l => if Nat.eqb (length ks) (length l) then Some (combine ks l) else None
         | _ => None
         end
  end.
