(** Vocabulary for the progress decorator. *)
From Coq Require Import String Ascii Reals.
From Coq Require Import List ZArith Bool.
Import ListNotations.
From Verif Require Import Py Text_Model Progress_Model.
Open Scope Z_scope.

(** A generator run by hand from [s]: the states it is resumed in, what it hands out, and
    how it ends. *)
Inductive by_hand {S A} (g : S -> outcome S A) : S -> list S -> list yielded -> res A -> Prop :=
| hand_return : forall s a, g s = Return a -> by_hand g s [s] [] (Ok a)
| hand_raise : forall s x, g s = Raise x -> by_hand g s [s] [] (Err x)
| hand_yield : forall s y s' ss ys r, g s = Yield y s' -> by_hand g s' ss ys r -> by_hand g s (s :: ss) (y :: ys) r.

(** A generator that ends only because it raises StopIteration itself ends with
    RuntimeError in Python. *)
Definition python_end {A} (r : res A) : res A := match r with Err StopIteration => Err RuntimeError | _ => r end.

Definition usable (y : yielded) : Prop := match y with YOther => False | _ => True end.

Definition resumed {S} (es : list (event S)) : list S :=
  flat_map (fun e => match e with Resumed s => [s] | Out _ => [] end) es.
Definition printed {S} (es : list (event S)) : list txt :=
  flat_map (fun e => match e with Out t => [t] | Resumed _ => [] end) es.

(** [shown since ys ms]: of the things handed out, [ms] are those shown when the last
    progress shown was [since]: every text, and every progress more than a hundredth
    above the last one shown. *)
Inductive shown : R -> list yielded -> list yielded -> Prop :=
| shown_end : forall p, shown p [] []
| shown_text : forall p t ys ms, shown p ys ms -> shown p (YText t :: ys) (YText t :: ms)
| shown_more : forall p x ys ms, (p + 1 / 100 < x)%R -> shown x ys ms -> shown p (YNum x :: ys) (YNum x :: ms)
| shown_less : forall p x ys ms, (x <= p + 1 / 100)%R -> shown p ys ms -> shown p (YNum x :: ys) ms
| shown_nan : forall p ys ms, shown p ys ms -> shown p (YNan :: ys) ms.

Definition message_of (message : txt) (y : yielded) : list txt :=
  match y with
  | YText t => [CR :: t ++ [LF]]
  | YNum x => [percent_text message x]
  | _ => []
  end.
Definition is_text (y : yielded) : Prop := match y with YText _ => True | _ => False end.
Definition percents (ms : list yielded) : list R := flat_map (fun y => match y with YNum x => [x] | _ => [] end) ms.
