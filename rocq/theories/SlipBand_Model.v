(** Detection of slip bands: defdap/hrdic.py 816-874. *)
From Coq Require Import Reals.
From Coq Require Import List ZArith Bool.
Import ListNotations.
From Verif Require Import Py Grid Boundary_Model Base_Model.
Open Scope R_scope.

(** An array of numbers ([None] is nan; infinite values are left out), and one of finite numbers. *)
Definition image : Type := pix -> option R.
Definition plain_image : Type := pix -> R.
(** What is called from outside: [skimage.transform.radon(image, circle=False)] at ray [i] and angle [t]
    (the 180 whole degrees), the number of rays, and [peakutils.indexes(profile, thres, min_dist)] on a
    profile in which [None] is nan.  On a profile that is flat it returns an empty array of floats,
    which is no index array. *)
Inductive found := Indices (l : list nat) | FloatArray.
Record outside := Outside {
  o_radon : plain_image -> nat -> nat -> R;
  o_rays : nat;
  o_peaks : list (option R) -> R -> Z -> found
}.

Definition positive (x : R) : bool := if Rlt_dec 0 x then true else false.
(** 838 [np.nan_to_num] *)
Definition nan_to_num (d : image) : plain_image := fun p => match d p with Some x => x | None => 0 end.
(** 840: some value of the image is negative. *)
Definition any_negative (W H : Z) (d : plain_image) : bool := existsb (fun p => if Rlt_dec (d p) 0 then true else false) (all_pix W H).
(** 845-846 *)
Definition support (d : plain_image) : plain_image := fun p => if Req_EM_T (d p) 0 then 0 else 1.
(** 850-853: the least number, over the angles, of rays that meet the grain. *)
Definition meeting (o : outside) (s : plain_image) (t : nat) : nat :=
  List.length (filter (fun i => positive (o_radon o s i t)) (seq 0 (o_rays o))).
Definition angles : list nat := seq 0 180.
Definition min_diam (o : outside) (s : plain_image) : nat :=
  match angles with [] => O | t :: ts => fold_left (fun m t => Nat.min m (meeting o s t)) ts (meeting o s t) end.
(** 854-858 *)
Definition crop (o : outside) (d s : plain_image) (i t : nat) : R :=
  if Rlt_dec (INR (min_diam o s) * 2 / 3) (o_radon o s i t) then o_radon o d i t / o_radon o s i t else 0.
Definition sum (l : list R) : R := fold_right Rplus 0 l.
(** 859-863: one angle; no ray left gives 0/0, nan ([crop] is nowhere negative here). *)
Definition profile_at (o : outside) (d s : plain_image) (t : nat) : option R :=
  let col := map (fun i => crop o d s i t) (seq 0 (o_rays o)) in
  match List.length (filter positive col) with
  | O => None
  | n => Some (sum (map (fun x => x ^ 4) col) / INR n)
  end.
(** 838-863: the profile in which peaks are looked for. *)
Definition profile (o : outside) (W H : Z) (d : image) : list (option R) :=
  let d := nan_to_num d in
  let d := if any_negative W H d then (fun p => Rabs (d p)) else d in
  map (profile_at o d (support d)) angles.
(** 816-874 [calc_slip_bands]; the printed messages are left out.  An image without pixels has no
    least value (840). *)
Definition calc_slip_bands (o : outside) (W H : Z) (d : image) (thres : option R) (min_dist : option Z) : res (list R) :=
  let thres := match thres with Some x => x | None => 3 / 10 end in
  let min_dist := match min_dist with Some x => x | None => 30%Z end in
  match all_pix W H with
  | [] => Err ValueError
  | _ =>
      match o_peaks o (profile o W H d) thres min_dist with
      | FloatArray => Err IndexError
      | Indices l =>
          (* x[indexes] with x the whole degrees *)
          do peaks <- map_res (fun i => match nth_error angles i with Some t => Ok t | None => Err IndexError end) l;
          Ok (map (fun t => INR t * PI / 180) peaks)
      end
  end.
