(** What "reads back the same map" means for text files. *)
From Coq Require Import String Ascii Reals.
From Coq Require Import List ZArith Bool.
Import ListNotations.
From Verif Require Import Py Grid Quat_Model Crystal_Model Text_Model Ctf_Model.
Open Scope Z_scope.

(** [y] has [k] decimals and is as near to [x] as such a number can be. *)
Definition rounded (k : nat) (x y : R) : Prop :=
  (exists n : Z, y = IZR n / 10 ^ k)%R /\ (Rabs (y - x) <= 1 / 2 / 10 ^ k)%R.

(** An angle in radians stored as degrees with [k] decimals. *)
Definition rounded_deg (k : nat) (x y : R) : Prop :=
  exists d, rounded k (x * 180 / PI)%R d /\ y = (d * PI / 180)%R.

Definition same_phase (p : phase_in) (o : phase_out) : Prop :=
  po_name o = pi_name p /\ ph_laue (po_phase o) = pi_laue p /\
  exists a b c al be ga, po_lattice o = [a; b; c; al; be; ga] /\
    (let '(x, y, z) := pi_lengths p in rounded 3 x a /\ rounded 3 y b /\ rounded 3 z c) /\
    (let '(x, y, z) := pi_angles p in rounded_deg 3 x al /\ rounded_deg 3 y be /\ rounded_deg 3 z ga).

(** Entry of a C-order array with [nx] columns at column x, row y. *)
Definition at_pixel {A} (l : list A) (nx x y : Z) : option A := nth_error l (Z.to_nat (y * nx + x)).

Definition same_map (m : map_in) (l : loaded) : Prop :=
  l_shape l = (mi_rows m, mi_cols m) /\
  rounded 4 (mi_step m) (l_step l) /\
  Forall2 same_phase (mi_phases m) (l_phases l) /\
  (forall x y, 0 <= x < mi_cols m -> 0 <= y < mi_rows m ->
     at_pixel (l_phase l) (mi_cols m) x y = Some (mi_phase m (x, y)) /\
     at_pixel (l_bc l) (mi_cols m) x y = Some (mi_bc m (x, y)) /\
     exists e1 e2 e3 f1 f2 f3, euler_angles (mi_quat m (x, y)) = (e1, e2, e3) /\
       at_pixel (l_euler l) (mi_cols m) x y = Some (f1, f2, f3) /\
       rounded_deg 3 e1 f1 /\ rounded_deg 3 e2 f2 /\ rounded_deg 3 e3 f3).

(** Maps that can be written and read: at least one phase, of a known Laue group, with
    a one-line name without tabs; pixel values that fit a byte; for hexagonal phases
    a c/a ratio that survives rounding the lengths to three decimals. *)
Definition plain_name (n : txt) : Prop := ~ In TAB n /\ ~ In LF n /\ ~ In (ascii_of_nat 13) n.
Definition readable_phase (p : phase_in) : Prop :=
  plain_name (pi_name p) /\
  (pi_laue p = 11 \/
   pi_laue p = 9 /\ let '(a, _, c) := pi_lengths p in (/ 1000 <= a /\ / 1000 <= c /\ a <= 10 ^ 5)%R).
Definition readable (m : map_in) : Prop :=
  0 <= mi_rows m /\ 0 <= mi_cols m /\ mi_phases m <> [] /\
  (forall p, In p (mi_phases m) -> readable_phase p) /\
  (forall p, inside (mi_cols m) (mi_rows m) p ->
     0 <= mi_phase m p <= 255 /\ 0 <= mi_bc m p <= 255).
