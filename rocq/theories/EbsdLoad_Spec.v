(** Vocabulary for maps that are saved and loaded. *)
From Coq Require Import String Ascii Reals.
From Coq Require Import List ZArith Bool.
From Verif Require Import Py Grid Quat_Model Quat_Spec Text_Model Ctf_Model Ctf_Spec Boundary_Model Boundary_Spec Ebsd_Model EbsdState_Model EbsdLoad_Model.
Import ListNotations.
Open Scope Z_scope.

(** The misorientation angle in degrees: that of C25, the least over all symmetry operators. *)
Definition degrees_between (g : string) (a b : quat) : R := (180 / PI * (2 * acos (mis_ori a b g)))%R.

Section Words.
Variables K G : Type.
Notation ebsd := (ebsd K G).
Notation inmap e p := (inside (e_cols K G e) (e_rows K G e) p).

(** The orientations a map shows: none is nan, all are unit quaternions. *)
Definition shows_ori (e : ebsd) (ori : pix -> quat) : Prop :=
  forall p, inmap e p -> ori_of K G (e_map K G e) p = Some (ori p) /\ unitq (ori p).
(** The map has a band contrast image, and its data can be read back (see C57). *)
Definition savable (e : ebsd) : Prop :=
  exists bc, em_bc K G (e_map K G e) = Some bc /\ readable (contents K G e bc).
(** No two neighbours are misoriented by an angle too near to the tolerance. *)
Definition decided (e : ebsd) (g : string) (ori : pix -> quat) (tol : R) : Prop :=
  forall p q, inmap e p -> inmap e q -> adjacent p q ->
    (degrees_between g (ori p) (ori q) <= tol - 3 / 1000 \/ tol + 3 / 1000 < degrees_between g (ori p) (ori q))%R.

(** Boundaries generated with a tolerance, then grains with a least size: the boundaries, the
    labels, the list of grains with their phases. *)
Definition outcome (e : ebsd) (tol : R) (min_size : Z) : res (bset * bset) * res ((pix -> Z) * glist) :=
  let '(m, b) := gen_bounds (e_cols K G e) (e_rows K G e) (e_names K G e) K G tol (e_map K G e) in
  let '(m, lab) := gen_grains (e_cols K G e) (e_rows K G e) (e_names K G e) K G min_size m in
  (b, do lab <- lab; do gl <- snd (read_list (e_cols K G e) (e_rows K G e) (e_names K G e) K G m); Ok (lab, gl)).
End Words.
