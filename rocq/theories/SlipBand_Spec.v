(** What is assumed of the functions from outside, and vocabulary for slip band detection. *)
From Coq Require Import Reals.
From Coq Require Import List ZArith Bool.
Import ListNotations.
From Verif Require Import Py Grid Boundary_Model Base_Model SlipBand_Model.
Open Scope R_scope.

(** Sums over rays of interpolated values: determined by the pixels, proportional to them, and not
    negative if they are not. *)
Definition sums_rays (W H : Z) (o : outside) : Prop :=
  (forall d d' i t, (forall p, inside W H p -> d p = d' p) -> o_radon o d i t = o_radon o d' i t) /\
  (forall c d i t, o_radon o (fun p => c * d p) i t = c * o_radon o d i t) /\
  (forall d i t, (forall p, inside W H p -> 0 <= d p) -> 0 <= o_radon o d i t).
(** The peak finder's threshold is relative to the range of the profile, so that multiplying the
    profile changes nothing; a peak has a lower value on each side; a flat profile has no peaks. *)
Definition finds_peaks (o : outside) : Prop :=
  (forall c l th md, 0 < c -> o_peaks o (map (option_map (Rmult c)) l) th md = o_peaks o l th md) /\
  (forall l th md is i, o_peaks o l th md = Indices is -> In i is -> (0 < i /\ i + 1 < List.length l)%nat) /\
  (forall x n th md, o_peaks o (repeat (Some x) n) th md = FloatArray).
(** The magnitude of the strain at a pixel, nan counted as none. *)
Definition magnitude (d : image) (p : pix) : R := match d p with Some x => Rabs x | None => 0 end.
(** Every pixel of the map belongs to the grain or is nan, and the strain has the same magnitude [c]
    all over the grain. *)
Definition uniform (W H : Z) (d : image) (c : R) : Prop :=
  0 < c /\ forall p, inside W H p -> d p = None \/ exists x, d p = Some x /\ Rabs x = c.
(** The pixels of the grain, as an image of ones and zeros. *)
Definition shape_image (d : image) : plain_image := fun p => match d p with Some _ => 1 | None => 0 end.
(** [n] rays meet the grain at angle [t]. *)
Definition rays_meeting (o : outside) (s : plain_image) (t n : nat) : Prop :=
  exists l, NoDup l /\ (forall i, In i l <-> (i < o_rays o)%nat /\ 0 < o_radon o s i t) /\ List.length l = n.
(** At every angle some ray runs through the grain for more than two thirds of its least width, that
    is of the number of rays that meet it in the direction where that is least. *)
Definition wide (o : outside) (s : plain_image) : Prop :=
  forall t, (t < 180)%nat -> exists i, (i < o_rays o)%nat /\
    forall t' n, (t' < 180)%nat -> rays_meeting o s t' n -> (forall t2 m, (t2 < 180)%nat -> rays_meeting o s t2 m -> (n <= m)%nat) -> INR n * 2 / 3 < o_radon o s i t.
