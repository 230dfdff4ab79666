(** Vocabulary for histograms. *)
From Coq Require Import String Reals List ZArith.
Import ListNotations.
Open Scope R_scope.

(** How many of the data satisfy a test. *)
Inductive tally (P : R -> Prop) : list (option R) -> Z -> Prop :=
| tally_nil : tally P [] 0
| tally_in : forall x d n, P x -> tally P d n -> tally P (Some x :: d) (n + 1)
| tally_out : forall x d n, ~ P x -> tally P d n -> tally P (Some x :: d) n
| tally_nan : forall d n, tally P d n -> tally P (None :: d) n.

(** Bin number [i] of the edges [es]: closed below and open above, the last one closed. *)
Definition in_bin (es : list R) (i : nat) (x : R) : Prop :=
  nth i es 0 <= x /\ (x < nth (S i) es 0 \/ (S (S i) = List.length es /\ x = nth (S i) es 0)).

(** Edges from [lo] to [hi] at equal steps, and at equal ratios. *)
Definition equal_steps (lo hi : R) (es : list R) : Prop :=
  nth 0 es 0 = lo /\ nth (List.length es - 1) es 0 = hi /\
  forall i, (S i < List.length es)%nat -> nth (S i) es 0 - nth i es 0 = (hi - lo) / INR (List.length es - 1).
Definition equal_ratios (lo hi : R) (es : list R) : Prop :=
  nth 0 es 0 = lo /\ nth (List.length es - 1) es 0 = hi /\
  exists r, r ^ (List.length es - 1) = hi / lo /\ 0 < r /\ forall i, (S i < List.length es)%nat -> nth (S i) es 0 = r * nth i es 0.
Definition increasing (es : list R) : Prop := forall i, (S i < List.length es)%nat -> nth i es 0 < nth (S i) es 0.

Definition is_axes_type (s : string) : Prop := In s ["linear"; "logx"; "logy"; "loglog"]%string.
Definition is_plot_type (s : string) : Prop := In s ["scatter"; "bar"; "step"]%string.
Definition log_axis (s : string) : Prop := s = "logx"%string \/ s = "loglog"%string.

(** [ys] are the heights of the bins [es] for the data: the counts, or with [dens] the
    counts over the width of the bin and the number of data in range (no number if there
    are none). *)
Definition shows (dens : bool) (es : list R) (data : list (option R)) (ys : list (option R)) : Prop :=
  List.length ys = (List.length es - 1)%nat /\
  forall i, (S i < List.length es)%nat -> exists n, tally (in_bin es i) data n /\
    if dens then exists total, tally (fun x => nth 0 es 0 <= x <= nth (List.length es - 1) es 0) data total /\
      nth_error ys i = Some (if Z.eq_dec total 0 then None else Some (IZR n / ((nth (S i) es 0 - nth i es 0) * IZR total)))
    else nth_error ys i = Some (Some (IZR n)).
(** The area under the heights. *)
Definition area (es : list R) (ys : list R) : R :=
  fold_right Rplus 0 (map (fun i => nth i ys 0 * (nth (S i) es 0 - nth i es 0)) (seq 0 (List.length ys))).
