(** Facts about the text operations. *)
From Coq Require Import String Ascii Reals Lra.
From Coq Require Import List ZArith Bool Lia.
Import ListNotations.
From Verif Require Import Py Crystal_Model Text_Model CrystalMat_Proofs.
Open Scope Z_scope.

Definition free (p : ascii -> bool) (t : txt) : Prop := forall a, In a t -> p a = false.

Lemma free_app p a b : free p (a ++ b) <-> free p a /\ free p b.
Proof.
  unfold free. split.
  - intros F. split; intros x I; apply F, in_or_app; auto.
  - intros [A B] x I. apply in_app_or in I as [I|I]; auto.
Qed.
Lemma free_cons p a b : free p (a :: b) <-> p a = false /\ free p b.
Proof.
  unfold free. split.
  - intros F. split; [apply F; now left | intros x I; apply F; now right].
  - intros [A B] x [<-|I]; auto.
Qed.
Lemma free_nil p : free p []. Proof. intros x []. Qed.

Lemma split_free p t : free p t -> split_by p t = [t].
Proof.
  induction t as [|a t IH]; intros F; cbn [split_by]; auto. apply free_cons in F as [A B].
  rewrite A, IH; auto.
Qed.
Lemma split_app p t c r : free p t -> p c = true -> split_by p (t ++ c :: r) = t :: split_by p r.
Proof.
  intros F C. induction t as [|a t IH]; cbn [app split_by].
  - now rewrite C.
  - apply free_cons in F as [A B]. rewrite A, IH; auto.
Qed.
Lemma split_ne p t : split_by p t <> [].
Proof. destruct t as [|a t]; cbn [split_by]; [discriminate|]. destruct (p a); [discriminate|]. destruct (split_by p t); discriminate. Qed.

Lemma words_app w c r : w <> [] -> free is_ws w -> is_ws c = true -> words (w ++ c :: r) = w :: words r.
Proof. intros N F C. unfold words. rewrite split_app by auto. cbn [filter]. destruct w; [congruence|reflexivity]. Qed.
Lemma words_ws c r : is_ws c = true -> words (c :: r) = words r.
Proof. intros C. unfold words. cbn [split_by]. rewrite C. reflexivity. Qed.
Lemma words_one w : w <> [] -> free is_ws w -> words w = [w].
Proof. intros N F. unfold words. rewrite split_free by auto. cbn [filter]. destruct w; [congruence|reflexivity]. Qed.

Lemma split_on_free c t : ~ In c t -> split_on c t = [t].
Proof. intros F. apply split_free. intros a I. apply Ascii.eqb_neq. intros <-. auto. Qed.
Lemma split_on_app c t r : ~ In c t -> split_on c (t ++ c :: r) = t :: split_on c r.
Proof. intros F. apply split_app; [|apply Ascii.eqb_refl]. intros a I. apply Ascii.eqb_neq. intros <-. auto. Qed.

Lemma lines_nil : lines_of [] = [].
Proof. reflexivity. Qed.
Lemma lines_app l r : ~ In LF l -> lines_of (l ++ LF :: r) = l :: lines_of r.
Proof.
  intros F. unfold lines_of. rewrite split_on_app by auto. cbn [rev].
  destruct (rev (split_on LF r)) as [|x m] eqn:E.
  - exfalso. apply (f_equal (@rev txt)) in E. rewrite rev_involutive in E. exact (split_ne _ _ E).
  - cbn [app]. destruct x as [|a x]; [rewrite rev_app_distr; reflexivity|]. reflexivity.
Qed.

Lemma lines_unlines ls : (forall l, In l ls -> ~ In LF l) -> lines_of (unlines ls) = ls.
Proof.
  induction ls as [|l ls IH]; intros F; [reflexivity|].
  unfold unlines in *. cbn [map concat]. rewrite <- app_assoc. cbn [app]. rewrite lines_app by (apply F; now left).
  f_equal. apply IH. intros; apply F; now right.
Qed.

(** *** Stripping *)
Lemma lstrip_free t : free is_ws t -> lstrip t = t.
Proof. destruct t as [|a t]; auto. intros F. apply free_cons in F as [A _]. cbn [lstrip]. now rewrite A. Qed.
Lemma lstrip_head a t : is_ws a = false -> lstrip (a :: t) = a :: t.
Proof. intros A. cbn [lstrip]. now rewrite A. Qed.
Lemma strip_ends t : (forall a r, t = a :: r -> is_ws a = false) -> (forall a r, t = r ++ [a] -> is_ws a = false) -> strip t = t.
Proof.
  intros A B. unfold strip. replace (lstrip t) with t.
  2:{ destruct t as [|a r]; auto. symmetry. apply lstrip_head. eauto. }
  destruct (rev t) as [|a r] eqn:E.
  - cbn. apply (f_equal (@rev ascii)) in E. rewrite rev_involutive in E. now rewrite E.
  - rewrite lstrip_head; [rewrite <- E; apply rev_involutive|].
    apply (B a (rev r)). apply (f_equal (@rev ascii)) in E. now rewrite rev_involutive in E.
Qed.
Lemma strip_free t : free is_ws t -> strip t = t.
Proof.
  intros F. apply strip_ends; intros a r ->; apply F; [now left | apply in_or_app; right; now left].
Qed.

(** *** Containment *)
Lemma starts_self k t : starts_with k (k ++ t) = true.
Proof. induction k; cbn [starts_with app]; auto. rewrite Ascii.eqb_refl. auto. Qed.
Lemma starts_iff k t : starts_with k t = true <-> exists r, t = k ++ r.
Proof.
  split; [|intros (r & ->); apply starts_self]. revert t. induction k as [|a k IH]; intros t E; [exists t; auto|].
  destruct t as [|b t]; [discriminate|]. cbn [starts_with] in E. apply andb_true_iff in E as [E1 E2].
  apply Ascii.eqb_eq in E1. subst. destruct (IH _ E2) as (r & ->). exists r. reflexivity.
Qed.
Lemma contains_iff k t : contains k t = true <-> exists a b, t = a ++ k ++ b.
Proof.
  split.
  - induction t as [|c t IH]; cbn [contains]; intros E; apply orb_true_iff in E as [E|E].
    + apply starts_iff in E as (r & E). exists [], r. auto.
    + discriminate.
    + apply starts_iff in E as (r & E). exists [], r. auto.
    + destruct (IH E) as (a & b & ->). exists (c :: a), b. auto.
  - intros (a & b & ->). induction a as [|c a IH]; cbn [app].
    + destruct (k ++ b) eqn:E; cbn [contains]; rewrite <- E, starts_self; reflexivity.
    + cbn [contains]. rewrite IH. apply orb_true_r.
Qed.
Lemma contains_start k t : contains k (k ++ t) = true.
Proof. apply contains_iff. exists [], t. auto. Qed.
Lemma contains_missing k t c : In c k -> ~ In c t -> contains k t = false.
Proof.
  intros I N. destruct (contains k t) eqn:E; auto. exfalso. apply contains_iff in E as (a & b & ->).
  apply N. apply in_or_app. right. apply in_or_app. now left.
Qed.
Lemma contains_head a k t : ~ In a t -> contains (a :: k) (a :: t) = starts_with (a :: k) (a :: t).
Proof.
  intros N. cbn [contains]. replace (contains (a :: k) t) with false; [apply orb_false_r|].
  symmetry. apply (contains_missing _ _ a); auto. now left.
Qed.

(** *** Numbers *)
Definition is_digit (a : ascii) : bool := match digit_val a with Some _ => true | None => false end.
Lemma code_of n : 0 <= n < 256 -> code (ascii_of_nat (Z.to_nat n)) = n.
Proof. intros B. unfold code. rewrite nat_ascii_embedding; lia. Qed.
Lemma digit_val_char d : 0 <= d <= 9 -> digit_val (digit_char d) = Some d.
Proof.
  intros B. unfold digit_val, digit_char. rewrite code_of by lia. replace (48 + d - 48) with d by lia.
  replace ((0 <=? d) && (d <=? 9)) with true; auto. symmetry. apply andb_true_iff. rewrite !Z.leb_le. lia.
Qed.
Lemma is_digit_code a : is_digit a = true <-> 48 <= code a <= 57.
Proof.
  unfold is_digit, digit_val. destruct ((0 <=? code a - 48) && (code a - 48 <=? 9)) eqn:E.
  - apply andb_true_iff in E as [A B]. apply Z.leb_le in A, B. split; auto; lia.
  - split; [discriminate|]. intros C. exfalso.
    assert ((0 <=? code a - 48) && (code a - 48 <=? 9) = true); [|congruence].
    apply andb_true_iff. rewrite !Z.leb_le. lia.
Qed.

Lemma parse_app t u : forall acc, parse_digits (t ++ u) acc =
  match parse_digits t acc with Some n => parse_digits u n | None => None end.
Proof.
  induction t as [|a t IH]; intros acc; cbn [parse_digits app]; auto. destruct (digit_val a); auto.
Qed.
Lemma parse_low k : forall n acc, 0 <= n < 10 ^ Z.of_nat k ->
  parse_digits (low_digits k n) acc = Some (10 ^ Z.of_nat k * acc + n).
Proof.
  induction k as [|k IH]; intros n acc B.
  - cbn [low_digits parse_digits]. f_equal. change (10 ^ Z.of_nat 0) with 1 in *. lia.
  - cbn [low_digits]. rewrite Nat2Z.inj_succ, Z.pow_succ_r in * by lia.
    pose proof (Z.div_mod n 10 ltac:(lia)) as D. pose proof (Z.mod_pos_bound n 10 ltac:(lia)) as M.
    assert (Q : 0 <= n / 10 < 10 ^ Z.of_nat k).
    { split; [apply Z.div_pos; lia|]. apply Z.div_lt_upper_bound; lia. }
    rewrite parse_app, IH by auto. cbn [parse_digits]. rewrite digit_val_char by lia. f_equal. lia.
Qed.
Lemma low_length k : forall n, List.length (low_digits k n) = k.
Proof. induction k; intros n; cbn [low_digits]; auto. rewrite app_length, IHk. cbn. lia. Qed.
Lemma parse_dec k : forall n, 0 <= n < 10 ^ Z.of_nat k -> parse_digits (dec_digits k n) 0 = Some n.
Proof.
  induction k as [|k IH]; intros n B.
  - change (10 ^ Z.of_nat 0) with 1 in *. cbn. f_equal. lia.
  - cbn [dec_digits]. destruct (n <? 10) eqn:E.
    + apply Z.ltb_lt in E. cbn [parse_digits]. rewrite digit_val_char by lia. reflexivity.
    + rewrite Nat2Z.inj_succ, Z.pow_succ_r in * by lia.
      pose proof (Z.div_mod n 10 ltac:(lia)) as D. pose proof (Z.mod_pos_bound n 10 ltac:(lia)) as M.
      assert (Q : 0 <= n / 10 < 10 ^ Z.of_nat k).
      { split; [apply Z.div_pos; lia|]. apply Z.div_lt_upper_bound; lia. }
      rewrite parse_app, IH by auto. cbn [parse_digits]. rewrite digit_val_char by lia. f_equal. lia.
Qed.
Lemma fmt_nat_fuel n : 0 <= n -> 0 <= n < 10 ^ Z.of_nat (S (Z.to_nat (Z.log2 n))).
Proof.
  intros N. split; auto. rewrite Nat2Z.inj_succ, Z2Nat.id by apply Z.log2_nonneg.
  destruct (Z.eq_dec n 0) as [->|P]; [cbn; lia|].
  pose proof (Z.log2_spec n ltac:(lia)) as [_ L]. pose proof (Z.log2_nonneg n) as G.
  assert (2 ^ Z.succ (Z.log2 n) <= 10 ^ Z.succ (Z.log2 n)) by (apply Z.pow_le_mono_l; lia). lia.
Qed.
Lemma parse_fmt_nat n : 0 <= n -> parse_digits (fmt_nat n) 0 = Some n.
Proof. intros N. apply parse_dec, fmt_nat_fuel, N. Qed.
Lemma digits_low k : forall n a, In a (low_digits k n) -> is_digit a = true.
Proof.
  induction k as [|k IH]; intros n a I; [destruct I|]. cbn [low_digits] in I. apply in_app_or in I as [I|[<-|[]]]; eauto.
  unfold is_digit. rewrite digit_val_char; auto. pose proof (Z.mod_pos_bound n 10 ltac:(lia)). lia.
Qed.
Lemma digits_dec k : forall n a, 0 <= n -> In a (dec_digits k n) -> is_digit a = true.
Proof.
  induction k as [|k IH]; intros n a N I; [destruct I|]. cbn [dec_digits] in I. destruct (n <? 10) eqn:E.
  - apply Z.ltb_lt in E. destruct I as [<-|[]]. unfold is_digit. rewrite digit_val_char; auto. lia.
  - apply in_app_or in I as [I|[<-|[]]].
    + apply (IH (n / 10)); auto. apply Z.div_pos; lia.
    + unfold is_digit. rewrite digit_val_char; auto. pose proof (Z.mod_pos_bound n 10 ltac:(lia)). lia.
Qed.
Lemma digits_fmt n a : 0 <= n -> In a (fmt_nat n) -> is_digit a = true.
Proof. intros N I. eapply digits_dec; eauto. Qed.
Lemma fmt_nat_ne n : fmt_nat n <> [].
Proof.
  unfold fmt_nat. cbn [dec_digits]. destruct (n <? 10); [discriminate|].
  intros E. apply app_eq_nil in E as [_ E]. discriminate.
Qed.

(** The characters of printed numbers. *)
Definition is_num (a : ascii) : bool := is_digit a || Ascii.eqb a "." || Ascii.eqb a "-".
Lemma num_int n a : In a (fmt_int n) -> is_num a = true.
Proof.
  unfold fmt_int, is_num. destruct (n <? 0) eqn:E.
  - intros [<-|I]; [reflexivity|]. apply Z.ltb_lt in E. rewrite (digits_fmt (- n) a) by (auto; lia). reflexivity.
  - intros I. apply Z.ltb_ge in E. rewrite (digits_fmt n a) by auto. reflexivity.
Qed.
Lemma num_fixed k x a : In a (fmt_fixed k x) -> is_num a = true.
Proof.
  unfold fmt_fixed, is_num. intros I. apply in_app_or in I as [I|I].
  { destruct (Rlt_dec x 0); [destruct I as [<-|[]]; reflexivity | destruct I]. }
  assert (P : 0 < 10 ^ Z.of_nat k) by (apply Z.pow_pos_nonneg; lia).
  apply in_app_or in I as [I|I].
  { assert (0 <= Z.abs (rint (x * 10 ^ k)) / 10 ^ Z.of_nat k) by (apply Z.div_pos; lia). rewrite (digits_fmt _ a H I). reflexivity. }
  apply in_app_or in I as [[<-|[]]|I]; [reflexivity|]. rewrite (digits_low _ _ _ I). reflexivity.
Qed.
Lemma num_code a : is_num a = true -> code a = 45 \/ code a = 46 \/ 48 <= code a <= 57.
Proof.
  unfold is_num. intros E. apply orb_true_iff in E as [E|E]; [apply orb_true_iff in E as [E|E]|].
  - apply is_digit_code in E. auto.
  - apply Ascii.eqb_eq in E. subst. auto.
  - apply Ascii.eqb_eq in E. subst. auto.
Qed.
Lemma num_not_ws a : is_num a = true -> is_ws a = false.
Proof.
  intros E. apply num_code in E. unfold is_ws. set (n := code a) in *.
  destruct (((9 <=? n) && (n <=? 13)) || ((28 <=? n) && (n <=? 32))) eqn:W; auto.
  apply orb_true_iff in W as [W|W]; apply andb_true_iff in W as [W1 W2]; apply Z.leb_le in W1, W2; lia.
Qed.
Lemma num_neq a b : is_num a = true -> is_num b = false -> a <> b.
Proof. intros A B ->. congruence. Qed.

Lemma fmt_fixed_ne k x : fmt_fixed k x <> [].
Proof. unfold fmt_fixed. intros E. apply app_eq_nil in E as [_ E]. apply app_eq_nil in E as [_ E]. discriminate. Qed.
Lemma fmt_int_ne n : fmt_int n <> [].
Proof. unfold fmt_int. destruct (n <? 0); [discriminate | apply fmt_nat_ne]. Qed.

Lemma signed_digit t : (forall a, In a t -> is_digit a = true) -> signed t = (false, t).
Proof.
  intros D. destruct t as [|a t]; auto. cbn [signed]. specialize (D a (or_introl eq_refl)).
  destruct (Ascii.eqb a "-") eqn:E; [apply Ascii.eqb_eq in E; subst; discriminate|].
  destruct (Ascii.eqb a "+") eqn:F; [apply Ascii.eqb_eq in F; subst; discriminate|]. reflexivity.
Qed.
Lemma parse_nat_ne t : t <> [] -> parse_nat t = parse_digits t 0.
Proof. destruct t; [congruence|reflexivity]. Qed.

Theorem int_round_trip n : py_int (fmt_int n) = Ok n.
Proof.
  unfold py_int. rewrite strip_free by (intros a I; apply num_not_ws; eapply num_int; eauto).
  unfold fmt_int. destruct (n <? 0) eqn:E.
  - apply Z.ltb_lt in E. cbn [signed]. rewrite Ascii.eqb_refl.
    rewrite parse_nat_ne by apply fmt_nat_ne. rewrite parse_fmt_nat by lia. f_equal. lia.
  - apply Z.ltb_ge in E. rewrite signed_digit by (intros a; apply digits_fmt; auto).
    rewrite parse_nat_ne by apply fmt_nat_ne. rewrite parse_fmt_nat by lia. reflexivity.
Qed.

Lemma rint_sign x : (x < 0)%R -> rint x <= 0.
Proof.
  intros N. unfold rint. destruct (base_Int_part x) as [A B]. set (m := Int_part x) in *.
  assert (m < 0). { apply lt_IZR. lra. }
  destruct (Rlt_dec _ _); [lia|]. destruct (Rlt_dec _ _); [lia|]. destruct (Z.even m); lia.
Qed.
Lemma rint_pos x : (0 <= x)%R -> 0 <= rint x.
Proof.
  intros N. unfold rint. destruct (base_Int_part x) as [A B]. set (m := Int_part x) in *.
  assert (-1 < m). { apply lt_IZR. lra. }
  destruct (Rlt_dec _ _); [lia|]. destruct (Rlt_dec _ _); [lia|]. destruct (Z.even m); lia.
Qed.

Theorem fixed_round_trip k x : py_float (fmt_fixed k x) = Ok (IZR (rint (x * 10 ^ k)) / 10 ^ k)%R.
Proof.
  unfold py_float. rewrite strip_free by (intros a I; apply num_not_ws; eapply num_fixed; eauto).
  unfold fmt_fixed. set (n := Z.abs (rint (x * 10 ^ k))). set (p := 10 ^ Z.of_nat k).
  assert (P : 0 < p) by (apply Z.pow_pos_nonneg; lia).
  assert (Rp : (10 ^ k)%R = IZR p).
  { unfold p. rewrite <- pow_IZR. reflexivity. }
  assert (Rpos : (0 < 10 ^ k)%R) by (apply pow_lt; lra).
  assert (Dq : forall a, In a (fmt_nat (n / p)) -> is_digit a = true) by (intros a; apply digits_fmt, Z.div_pos; lia).
  assert (Body : forall neg, (let '(neg, t) := (neg : bool, fmt_nat (n / p) ++ "."%char :: low_digits k (n mod p)) in
     match match split_on "." t with
    | [i] => match parse_nat i with Some n => Some (IZR n) | None => None end
    | [i; f] =>
        if nonempty i || nonempty f then
          match parse_digits i 0, parse_digits f 0 with
          | Some n, Some m => Some (IZR n + IZR m / 10 ^ List.length f)%R
          | _, _ => None
          end
        else None
    | _ => None
    end with Some r => Ok (if neg then (- r)%R else r) | None => Err ValueError end) =
    Ok (if neg then (- (IZR n / 10 ^ k)) else IZR n / 10 ^ k)%R).
  { intros neg. cbv beta iota. rewrite split_on_app, split_on_free.
    - rewrite parse_fmt_nat by (apply Z.div_pos; lia).
      rewrite parse_low by (apply Z.mod_pos_bound; auto). rewrite low_length.
      pose proof (fmt_nat_ne (n / p)) as NE. destruct (fmt_nat (n / p)) as [|c0 r0]; [congruence|]. cbn [nonempty orb].
      replace (IZR (n / p) + IZR (10 ^ Z.of_nat k * 0 + n mod p) / 10 ^ k)%R with (IZR n / 10 ^ k)%R; auto.
      replace (10 ^ Z.of_nat k * 0 + n mod p) with (n mod p) by lia.
      rewrite (Z.div_mod n p) at 1 by lia. rewrite plus_IZR, mult_IZR, Rp. field. apply not_0_IZR. lia.
    - intros I. apply digits_low in I. discriminate.
    - intros I. apply Dq in I. discriminate. }
  destruct (Rlt_dec x 0) as [L|L].
  - cbn [app]. cbn [signed]. rewrite Ascii.eqb_refl. etransitivity; [exact (Body true)|]. cbv beta iota. f_equal.
    unfold n. assert (rint (x * 10 ^ k) <= 0) by (apply rint_sign; nra). rewrite Z.abs_neq by auto. rewrite opp_IZR. field. lra.
  - cbn [app]. replace (signed (fmt_nat (n / p) ++ "."%char :: low_digits k (n mod p)))
      with (false, fmt_nat (n / p) ++ "."%char :: low_digits k (n mod p)).
    + etransitivity; [exact (Body false)|]. unfold n. assert (0 <= rint (x * 10 ^ k)) by (apply rint_pos; nra). rewrite Z.abs_eq by auto. reflexivity.
    + pose proof (fmt_nat_ne (n / p)) as NE. destruct (fmt_nat (n / p)) as [|c0 r0]; [congruence|]. cbn [app signed].
      specialize (Dq c0 (or_introl eq_refl)).
      destruct (Ascii.eqb c0 "-") eqn:E; [apply Ascii.eqb_eq in E; subst; discriminate|].
      destruct (Ascii.eqb c0 "+") eqn:F; [apply Ascii.eqb_eq in F; subst; discriminate|]. reflexivity.
Qed.
