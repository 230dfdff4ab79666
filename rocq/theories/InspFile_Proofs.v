(** What the inspector writes is read back. *)
From Coq Require Import String Ascii Reals.
From Coq Require Import List ZArith Bool Lia Lra.
Import ListNotations.
From Verif Require Import Py Grid Grid_Lemmas Boundary_Model Base_Model Base_Proofs Text_Model Text_Proofs Insp_Model Insp_Proofs
  InspFile_Model InspFile_Spec.
Open Scope Z_scope.

Fixpoint val_ind' (P : val -> Prop)
  (H1 : forall n, P (VInt n)) (H2 : forall f, P (VFlt f)) (H3 : P VNan) (H4 : forall n, P (VNpInt n))
  (H5 : forall f, P (VNpFlt f)) (H6 : P VNpNan) (H7 : forall l, Forall P l -> P (VList l)) (v : val) : P v :=
  match v with
  | VInt n => H1 n | VFlt f => H2 f | VNan => H3 | VNpInt n => H4 n | VNpFlt f => H5 f | VNpNan => H6
  | VList l => H7 l ((fix all (l : list val) : Forall P l :=
      match l with [] => Forall_nil P | a :: l => Forall_cons a (val_ind' P H1 H2 H3 H4 H5 H6 H7 a) (all l) end) l)
  end.

(** ** Numbers *)
Lemma digitb_code : forall a, digitb a = true <-> 48 <= code a <= 57.
Proof.
  intros a. unfold digitb, digit_val. destruct (Z.leb_spec 0 (code a - 48)), (Z.leb_spec (code a - 48) 9); cbn [andb]; split; intros; try easy; lia.
Qed.
Lemma digitb_is : forall a, is_digit a = true -> digitb a = true.
Proof. intros a H. apply digitb_code. now apply is_digit_code. Qed.

Definition all_digits (t : txt) : Prop := forall a, In a t -> digitb a = true.
Lemma all_fmt : forall n, 0 <= n -> all_digits (fmt_nat n).
Proof. intros n N a A. apply digitb_is. now apply (digits_fmt n). Qed.
Lemma all_app : forall a b, all_digits a -> all_digits b -> all_digits (a ++ b).
Proof. intros a b A B x X. apply in_app_or in X as [X|X]; auto. Qed.
Lemma all_zeros : forall n, all_digits (zeros n).
Proof. intros n a A. apply repeat_spec in A. now subst. Qed.
Lemma all_firstn : forall n t, all_digits t -> all_digits (firstn n t).
Proof. intros n t T a A. apply T. rewrite <- (firstn_skipn n t). apply in_or_app. now left. Qed.
Lemma all_skipn : forall n t, all_digits t -> all_digits (skipn n t).
Proof. intros n t T a A. apply T. rewrite <- (firstn_skipn n t). apply in_or_app. now right. Qed.

(** The text does not start with a digit. *)
Definition ends (t : txt) : Prop := match t with [] => True | a :: _ => digitb a = false end.
Lemma span_app : forall d r, all_digits d -> ends r -> span_digits (d ++ r) = (d, r).
Proof.
  induction d as [|a d IH]; intros r D R.
  - destruct r as [|b r]; [reflexivity|]. cbn [app span_digits]. cbn [ends] in R. now rewrite R.
  - cbn [app span_digits]. rewrite (D a (or_introl eq_refl)). rewrite IH; auto. intros x X. apply D. now right.
Qed.

Lemma parse_zeros : forall n t acc, parse_digits (zeros n ++ t) acc = parse_digits t (acc * 10 ^ Z.max 0 n).
Proof.
  intros n t acc. unfold zeros. destruct (Z.le_gt_cases n 0).
  - replace (Z.to_nat n) with O by lia. rewrite Z.max_l by lia. cbn [repeat app]. f_equal. lia.
  - rewrite Z.max_r by lia. replace (10 ^ n) with (10 ^ Z.of_nat (Z.to_nat n)) by (f_equal; lia).
    generalize (Z.to_nat n). clear. intros k. revert acc. induction k as [|k IH]; intros acc.
    + cbn [repeat app Z.of_nat]. f_equal. lia.
    + cbn [repeat app parse_digits]. change (digit_val "0") with (Some 0). cbv iota beta. rewrite IH. f_equal.
      rewrite Nat2Z.inj_succ, Z.pow_succ_r by lia. ring.
Qed.
Lemma zeros_length : forall n, Z.of_nat (List.length (zeros n)) = Z.max 0 n.
Proof. intros. unfold zeros. rewrite repeat_length. lia. Qed.

Lemma fmt_pos_head : forall n, 0 < n -> starts_with ["0"%char] (fmt_nat n) = false.
Proof.
  intros n N. unfold fmt_nat. assert (G : forall k n, 0 < n < 10 ^ Z.of_nat k -> starts_with ["0"%char] (dec_digits k n) = false).
  { clear. induction k as [|k IH]; intros n N; [cbn in N; lia|]. cbn [dec_digits]. destruct (Z.ltb_spec n 10) as [L|L].
    - cbn [starts_with]. rewrite andb_true_r. apply Ascii.eqb_neq. intros E.
      assert (digit_val "0" = digit_val (digit_char n)) by (rewrite E; reflexivity).
      rewrite digit_val_char in H by lia. change (digit_val "0") with (Some 0) in H. assert (0 = n) by congruence. lia.
    - assert (D : 0 < n / 10 < 10 ^ Z.of_nat k).
      { rewrite Nat2Z.inj_succ, Z.pow_succ_r in N by lia. split; [apply Z.div_str_pos; lia|apply Z.div_lt_upper_bound; lia]. }
      specialize (IH _ D). destruct (dec_digits k (n / 10)) as [|a t] eqn:E.
      + destruct k; [cbn in D; lia|]. cbn [dec_digits] in E. destruct (_ <? 10); [discriminate|]. now destruct (dec_digits k _).
      + cbn [app]. cbn [starts_with] in *. exact IH. }
  apply G. split; [exact N|]. apply fmt_nat_fuel. lia.
Qed.

Lemma trim_pow : forall j k m x, 0 < m -> m mod 10 <> 0 -> (j <= k)%nat ->
  trim k (m * 10 ^ Z.of_nat j) x = (m, x + Z.of_nat j).
Proof.
  induction j as [|j IH]; intros k m x P M L.
  - replace (m * 10 ^ Z.of_nat 0) with m by (cbn; lia). rewrite Z.add_0_r. destruct k; [reflexivity|]. cbn [trim].
    destruct (Z.eqb_spec (m mod 10) 0); [easy|reflexivity].
  - destruct k as [|k]; [lia|]. cbn [trim]. rewrite Nat2Z.inj_succ, Z.pow_succ_r by lia.
    replace (m * (10 * 10 ^ Z.of_nat j)) with ((m * 10 ^ Z.of_nat j) * 10) by ring.
    rewrite Z.mod_mul by lia. cbn [Z.eqb]. rewrite Z.div_mul by lia. rewrite IH by (auto; lia). f_equal. lia.
Qed.
Lemma mk_flt_pow : forall m j e, 0 < m -> m mod 10 <> 0 -> 0 <= j ->
  mk_flt (m * 10 ^ j) e = mkFlt false m (e + j).
Proof.
  intros m j e P M J. unfold mk_flt. assert (0 < 10 ^ j) by (apply Z.pow_pos_nonneg; lia).
  destruct (Z.eqb_spec (m * 10 ^ j) 0); [nia|].
  replace (10 ^ j) with (10 ^ Z.of_nat (Z.to_nat j)) by (f_equal; lia). rewrite trim_pow; auto; [now rewrite Z2Nat.id|].
  rewrite Z2Nat.id by lia.
  assert (j <= Z.log2 (m * 10 ^ j)).
  { rewrite <- (Z.log2_pow2 j) at 1 by lia. apply Z.log2_le_mono.
    assert (2 ^ j <= 10 ^ j) by (apply Z.pow_le_mono_l; lia). nia. }
  lia.
Qed.
Lemma mk_flt_norm : forall f, shortest f -> mk_flt (f_man f) (f_exp f) = mkFlt false (f_man f) (f_exp f).
Proof.
  intros f [[M E]|[M E]].
  - rewrite M, E. reflexivity.
  - pose proof (mk_flt_pow (f_man f) 0 (f_exp f) M E ltac:(lia)) as H. rewrite Z.pow_0_r, Z.mul_1_r, Z.add_0_r in H. exact H.
Qed.

(** A text after which a number ends. *)
Definition stop (t : txt) : Prop := match t with [] => True | a :: _ => a = ","%char \/ a = "]"%char end.
Lemma stop_ends : forall t, stop t -> ends t.
Proof. intros [|a t] H; [exact I|]. destruct H as [-> | ->]; reflexivity. Qed.
Lemma stop_exp : forall t, stop t -> scan_exp t = Some (None, t).
Proof. intros [|a t] H; [reflexivity|]. destruct H as [-> | ->]; reflexivity. Qed.

Lemma scan_int : forall n r, 0 <= n -> stop r -> scan_number (fmt_nat n ++ r) = Some (NInt n, r).
Proof.
  intros n r N R. unfold scan_number. rewrite span_app by (auto using all_fmt, stop_ends).
  assert (Q : match r with
    | a :: r' => if Ascii.eqb a "." then let '(f, s) := span_digits r' in (true, f, s) else (false, [], r)
    | [] => (false, [], r)
    end = (false, [], r)).
  { destruct r as [|a r]; [reflexivity|]. destruct R as [-> | ->]; reflexivity. }
  rewrite Q, stop_exp by exact R. rewrite parse_nat_ne by apply fmt_nat_ne. rewrite parse_fmt_nat by exact N.
  destruct (Z.eqb_spec n 0); [reflexivity|]. rewrite fmt_pos_head by lia. reflexivity.
Qed.

(** A number with a point, possibly an exponent. *)
Lemma scan_point : forall i f r x r', all_digits i -> all_digits f -> i ++ f <> [] -> ends r ->
  scan_exp r = Some (x, r') ->
  scan_number (i ++ "."%char :: f ++ r) =
  match parse_digits (i ++ f) 0 with
  | Some m => Some (NFlt (mk_flt m (match x with Some e => e | None => 0 end - Z.of_nat (List.length f))), r')
  | None => None
  end.
Proof.
  intros i f r x r' I F N R X. unfold scan_number. rewrite (span_app i) by (auto; reflexivity).
  change (Ascii.eqb "." ".") with true. cbv iota. rewrite (span_app f) by auto. rewrite X.
  rewrite parse_nat_ne by exact N. destruct x; reflexivity.
Qed.
Lemma scan_nopoint : forall i r x r', all_digits i -> i <> [] -> ends r -> (forall a t, r = a :: t -> a <> "."%char) ->
  scan_exp r = Some (Some x, r') ->
  scan_number (i ++ r) =
  match parse_digits i 0 with Some m => Some (NFlt (mk_flt m x), r') | None => None end.
Proof.
  intros i r x r' I N R P X. unfold scan_number. rewrite (span_app i) by auto.
  assert (Q : match r with
    | a :: r' => if Ascii.eqb a "." then let '(f, s) := span_digits r' in (true, f, s) else (false, [], r)
    | [] => (false, [], r)
    end = (false, [], r)).
  { destruct r as [|a t]; [reflexivity|]. destruct (Ascii.eqb_spec a "."); [|reflexivity]. exfalso. eapply P; eauto. }
  rewrite Q, X. rewrite app_nil_r, parse_nat_ne by exact N. destruct (parse_digits i 0); [|reflexivity].
  cbn [List.length Z.of_nat]. now rewrite Z.sub_0_r.
Qed.

Lemma scan_exp_fmt : forall n r, stop r -> scan_exp ("e"%char :: fmt_exp n ++ r) = Some (Some n, r).
Proof.
  intros n r R. unfold scan_exp, fmt_exp. change (Ascii.eqb "e" "e" || Ascii.eqb "e" "E") with true. cbv iota.
  set (ds := (if Z.abs n <? 10 then ["0"%char] else []) ++ fmt_nat (Z.abs n)).
  assert (D : all_digits ds).
  { unfold ds. apply all_app; [|apply all_fmt; lia]. destruct (_ <? 10); [|easy]. intros a [<-|[]]. reflexivity. }
  assert (P : parse_nat ds = Some (Z.abs n)).
  { rewrite parse_nat_ne.
    - unfold ds. destruct (_ <? 10); cbn [app]; [cbn [parse_digits]; change (digit_val "0") with (Some 0); cbv iota beta|]; apply parse_fmt_nat; lia.
    - unfold ds. intros E. apply app_eq_nil in E as [_ E]. exact (fmt_nat_ne _ E). }
  destruct (Z.ltb_spec n 0); cbn [app signed].
  - change (Ascii.eqb "-" "-") with true. cbv iota. rewrite span_app by (auto using stop_ends). rewrite P. f_equal. f_equal. f_equal. lia.
  - change (Ascii.eqb "+" "-") with false. change (Ascii.eqb "+" "+") with true. cbv iota.
    rewrite span_app by (auto using stop_ends). rewrite P. f_equal. f_equal. f_equal. lia.
Qed.

Definition abs_flt (f : flt) : flt := mkFlt false (f_man f) (f_exp f).

(** The unsigned part of a printed float. *)
Definition flt_body (f : flt) : txt := fmt_flt (abs_flt f).
Lemma fmt_flt_sign : forall f, fmt_flt f = (if f_neg f then ["-"%char] else []) ++ flt_body f.
Proof. intros [n m e]. unfold flt_body, fmt_flt, abs_flt. cbn [f_neg f_man f_exp]. reflexivity. Qed.

Lemma scan_float : forall f r, shortest f -> stop r -> scan_number (flt_body f ++ r) = Some (NFlt (abs_flt f), r).
Proof.
  intros f r SH R. unfold flt_body, fmt_flt. cbn [abs_flt f_neg f_man f_exp app].
  assert (M0 : 0 <= f_man f) by (destruct SH; lia).
  set (ds := fmt_nat (f_man f)). set (k := Z.of_nat (List.length ds)).
  assert (DS : all_digits ds) by (apply all_fmt; lia). assert (DN : ds <> []) by apply fmt_nat_ne.
  assert (K : 0 < k) by (unfold k; destruct ds; [easy|cbn [List.length]; lia]).
  assert (PD : parse_digits ds 0 = Some (f_man f)) by (apply parse_fmt_nat; lia).
  set (pt := f_exp f + k). unfold abs_flt.
  destruct ((f_man f =? 0) || ((-4 <? pt) && (pt <=? 16))) eqn:POS.
  - destruct (Z.leb_spec pt 0) as [P0|P0].
    + change (("0"%char :: "."%char :: zeros (- pt) ++ ds) ++ r) with (["0"%char] ++ "."%char :: (zeros (- pt) ++ ds) ++ r).
      rewrite (scan_point ["0"%char] (zeros (- pt) ++ ds) r None r); auto using stop_ends, stop_exp.
      * cbn [app parse_digits]. change (digit_val "0") with (Some 0). cbv iota. rewrite parse_zeros. cbn [Z.mul Z.add]. rewrite PD.
        rewrite app_length, Nat2Z.inj_add, zeros_length. fold k. replace (0 - (Z.max 0 (- pt) + k)) with (f_exp f) by lia.
        now rewrite mk_flt_norm.
      * intros a [<-|[]]. reflexivity.
      * apply all_app; auto. apply all_zeros.
      * discriminate.
    + destruct (Z.ltb_spec pt k) as [PK|PK].
      * rewrite <- app_assoc. cbn [app]. set (n := Z.to_nat pt).
        rewrite (scan_point (firstn n ds) (skipn n ds) r None r); auto using stop_ends, stop_exp, all_firstn, all_skipn.
        -- rewrite firstn_skipn, PD, skipn_length. unfold n.
           replace (0 - Z.of_nat (List.length ds - Z.to_nat pt)) with (f_exp f) by (unfold k, pt in *; lia). now rewrite mk_flt_norm.
        -- now rewrite firstn_skipn.
      * replace ((ds ++ zeros (pt - k) ++ ["."; "0"]%char) ++ r) with ((ds ++ zeros (pt - k)) ++ "."%char :: ["0"%char] ++ r).
        2:{ rewrite <- !app_assoc. reflexivity. }
        rewrite (scan_point (ds ++ zeros (pt - k)) ["0"%char] r None r); auto using stop_ends, stop_exp.
        -- rewrite <- app_assoc, parse_app, PD, parse_zeros. cbn [parse_digits]. change (digit_val "0") with (Some 0). cbv iota.
           cbn [List.length Z.of_nat]. replace (pt - k) with (f_exp f) by (unfold pt; lia).
           assert (E0 : 0 <= f_exp f) by (unfold pt in PK; lia). rewrite Z.max_r by lia.
           destruct SH as [[M E]|[M E]].
           ++ rewrite M, E. reflexivity.
           ++ replace (10 * (f_man f * 10 ^ f_exp f) + 0) with (f_man f * 10 ^ (f_exp f + 1)).
              2:{ rewrite Z.pow_add_r by lia. change (10 ^ 1) with 10. ring. }
              rewrite mk_flt_pow by (auto; lia). do 4 f_equal. change (Z.of_nat 1) with 1. lia.
        -- apply all_app; auto using all_zeros.
        -- intros a [<-|[]]. reflexivity.
        -- destruct ds; [easy|discriminate].
  - assert (NZ : 0 < f_man f).
    { destruct (Z.eqb_spec (f_man f) 0); [discriminate|]. lia. }
    destruct ds as [|d [|d2 ds']] eqn:EDS; [easy| |].
    + cbn [app].
      change (d :: "e"%char :: fmt_exp (pt - 1) ++ r) with ([d] ++ ("e"%char :: fmt_exp (pt - 1) ++ r)).
      rewrite (scan_nopoint [d] _ (pt - 1) r); auto.
      * rewrite PD. replace (pt - 1) with (f_exp f) by (unfold pt, k; cbn [List.length]; lia). now rewrite mk_flt_norm.
      * reflexivity.
      * intros a t E. injection E as <- _. discriminate.
      * now apply scan_exp_fmt.
    + match goal with |- scan_number ?x = _ =>
        replace x with ([d] ++ "."%char :: (d2 :: ds') ++ ("e"%char :: fmt_exp (pt - 1) ++ r)) end.
      2:{ cbn [app]. rewrite <- !app_assoc. reflexivity. }
      rewrite (scan_point [d] (d2 :: ds') _ (Some (pt - 1)) r).
      * change ([d] ++ d2 :: ds') with (d :: d2 :: ds'). rewrite PD.
        replace (pt - 1 - Z.of_nat (List.length (d2 :: ds'))) with (f_exp f) by (unfold pt, k; cbn [List.length]; lia). now rewrite mk_flt_norm.
      * intros a [<-|[]]. apply DS. now left.
      * intros a A. apply DS. now right.
      * discriminate.
      * reflexivity.
      * now apply scan_exp_fmt.
Qed.

(** The first character of a printed number. *)
Lemma fmt_nat_head : forall n, 0 <= n -> exists a t, fmt_nat n = a :: t /\ digitb a = true.
Proof.
  intros n N. pose proof (all_fmt n N) as A. pose proof (fmt_nat_ne n) as E. destruct (fmt_nat n) as [|a t]; [easy|].
  exists a, t. split; auto. apply A. now left.
Qed.
Lemma flt_body_head : forall f, 0 <= f_man f -> exists a t, flt_body f = a :: t /\ digitb a = true.
Proof.
  intros f M. unfold flt_body, fmt_flt. cbn [abs_flt f_neg f_man f_exp app].
  destruct (fmt_nat_head (f_man f) M) as (a & t & E & D). rewrite E. set (pt := f_exp f + _).
  destruct ((f_man f =? 0) || _).
  - destruct (Z.leb_spec pt 0); [exists "0"%char; eexists; split; reflexivity|].
    destruct (pt <? _); [|exists a; eexists; split; [reflexivity|exact D]].
    destruct (Z.to_nat pt) as [|n] eqn:P; [lia|]. cbn [firstn app]. eexists; eexists; split; [reflexivity|exact D].
  - destruct t as [|b t]; eexists; eexists; (split; [reflexivity|exact D]).
Qed.
Lemma digit_not : forall a, digitb a = true ->
  Ascii.eqb a "-" = false /\ Ascii.eqb a "+" = false /\ Ascii.eqb a "[" = false /\ Ascii.eqb a "]" = false /\
  Ascii.eqb a " " = false /\ Ascii.eqb a TAB = false.
Proof.
  intros a D. apply digitb_code in D. repeat split; apply Ascii.eqb_neq; intros ->; unfold code in D; cbn in D; lia.
Qed.
Lemma blanks_keep : forall a t, Ascii.eqb a " " = false -> Ascii.eqb a TAB = false -> blanks (a :: t) = a :: t.
Proof. intros a t A B. cbn [blanks]. now rewrite A, B. Qed.

Lemma signed_scan : forall (neg : bool) b r nb v, (exists a t, b = a :: t /\ digitb a = true) -> scan_number (b ++ r) = Some (nb, r) ->
  v = match nb with NInt n => VInt (if neg then - n else n) | NFlt f => VFlt (mkFlt neg (f_man f) (f_exp f)) end ->
  scan_signed ((if neg then ["-"%char] else []) ++ b ++ r) = Some (v, r).
Proof.
  intros neg b r nb v (a & t & -> & D) SC ->. destruct (digit_not a D) as (N1 & N2 & _ & _ & N5 & N6).
  unfold scan_signed. destruct neg; cbn [app signed].
  - change (Ascii.eqb "-" "-") with true. cbv iota. rewrite blanks_keep by auto. cbn [app] in SC. rewrite SC. now destruct nb.
  - rewrite N1, N2. rewrite blanks_keep by auto. cbn [app] in SC. rewrite SC. destruct nb; [reflexivity|]. reflexivity.
Qed.

Lemma fmt_int_sign : forall n, fmt_int n = (if n <? 0 then ["-"%char] else []) ++ fmt_nat (Z.abs n).
Proof. intros n. unfold fmt_int. destruct (Z.ltb_spec n 0); cbn [app]; [rewrite Z.abs_neq by lia|rewrite Z.abs_eq by lia]; reflexivity. Qed.

Lemma scan_signed_int : forall n r, stop r -> scan_signed (fmt_int n ++ r) = Some (VInt n, r).
Proof.
  intros n r R. rewrite fmt_int_sign, <- app_assoc. apply signed_scan with (nb := NInt (Z.abs n)).
  - apply fmt_nat_head. lia.
  - apply scan_int; auto. lia.
  - f_equal. destruct (Z.ltb_spec n 0); lia.
Qed.
Lemma scan_signed_flt : forall f r, shortest f -> stop r -> scan_signed (fmt_flt f ++ r) = Some (VFlt f, r).
Proof.
  intros f r S R. rewrite fmt_flt_sign, <- app_assoc. apply signed_scan with (nb := NFlt (abs_flt f)).
  - apply flt_body_head. destruct S; lia.
  - now apply scan_float.
  - now destruct f.
Qed.

(** ** Values *)
Lemma stop_blanks : forall r, stop r -> blanks r = r.
Proof. intros [|a r] H; [reflexivity|]. destruct H as [-> | ->]; reflexivity. Qed.

Fixpoint vsize (v : val) : nat :=
  match v with VList l => S (S (fold_right (fun a n => S (vsize a + n)) O l)) | _ => 1%nat end.
Definition isize (l : list val) : nat := S (fold_right (fun a n => S (vsize a + n)) O l).

(** The first character of a printable value. *)
Lemma repr_head : forall np v, printable np v -> exists a t, repr np v = a :: t /\
  Ascii.eqb a "]" = false /\ Ascii.eqb a " " = false /\ Ascii.eqb a TAB = false.
Proof.
  intros np v P.
  assert (INT : forall n, exists a t, fmt_int n = a :: t /\ Ascii.eqb a "]" = false /\ Ascii.eqb a " " = false /\ Ascii.eqb a TAB = false).
  { intros n. rewrite fmt_int_sign. destruct (n <? 0); [exists "-"%char; eexists; repeat split; reflexivity|].
    destruct (fmt_nat_head (Z.abs n)) as (a & t & E & D); [lia|]. exists a, t. destruct (digit_not a D) as (_ & _ & _ & A & B & C). auto. }
  assert (FLT : forall f, shortest f -> exists a t, fmt_flt f = a :: t /\ Ascii.eqb a "]" = false /\ Ascii.eqb a " " = false /\ Ascii.eqb a TAB = false).
  { intros f SH. rewrite fmt_flt_sign. destruct (f_neg f); [exists "-"%char; eexists; repeat split; reflexivity|].
    destruct (flt_body_head f) as (a & t & E & D); [destruct SH; lia|]. exists a, t. destruct (digit_not a D) as (_ & _ & _ & A & B & C). auto. }
  destruct v as [n|f| |n|f| |l]; cbn [printable repr] in *; try easy; auto.
  - rewrite P. auto.
  - destruct P as [-> S]. auto.
  - exists "["%char. eexists. repeat split; reflexivity.
Qed.

Lemma printable_list : forall np l, printable np (VList l) <-> Forall (printable np) l.
Proof.
  intros np l. cbn [printable]. induction l as [|a l IH]; [split; auto|]. split.
  - intros [A B]. constructor; [exact A|now apply IH].
  - intros F. inversion F; subst. split; [assumption|now apply IH].
Qed.

Lemma not_bracket_num : forall np v, printable np v -> (forall l, v <> VList l) ->
  forall a t, repr np v = a :: t -> Ascii.eqb a "[" = false.
Proof.
  intros np v P N a t E.
  assert (INT : forall n, fmt_int n = a :: t -> Ascii.eqb a "[" = false).
  { intros n. rewrite fmt_int_sign. destruct (n <? 0); [intros X; injection X as <- _; reflexivity|].
    destruct (fmt_nat_head (Z.abs n)) as (b & u & Eb & D); [lia|]. rewrite Eb. intros X. injection X as <- _. apply (digit_not b D). }
  assert (FLT : forall f, shortest f -> fmt_flt f = a :: t -> Ascii.eqb a "[" = false).
  { intros f SH. rewrite fmt_flt_sign. destruct (f_neg f); [intros X; injection X as <- _; reflexivity|].
    destruct (flt_body_head f) as (b & u & Eb & D); [destruct SH; lia|]. rewrite Eb. intros X. injection X as <- _. apply (digit_not b D). }
  destruct v as [n|f| |n|f| |l]; cbn [printable repr] in *; try easy; eauto.
  - rewrite P in E. eauto.
  - destruct P as [-> S]. eauto.
  - now destruct (N l).
Qed.

Lemma scan_scalar : forall np v, printable np v -> (forall l, v <> VList l) -> forall n r, (1 <= n)%nat -> stop r ->
  scan_val n (repr np v ++ r) = Some (plain v, r).
Proof.
  intros np v P N n r L R. destruct n as [|n]; [lia|]. cbn [scan_val].
  destruct (repr_head np v P) as (a & t & E & A1 & A2 & A3). rewrite E. cbn [app]. rewrite blanks_keep by auto.
  rewrite (not_bracket_num np v P N a t E).
  assert (SS : scan_signed (repr np v ++ r) = Some (plain v, r)).
  { destruct v as [k|f| |k|f| |l]; cbn [printable repr plain] in *; try easy.
    - now apply scan_signed_int.
    - now apply scan_signed_flt.
    - rewrite P. now apply scan_signed_int.
    - destruct P as [-> S]. now apply scan_signed_flt.
    - now destruct (N l). }
  rewrite E in SS. cbn [app] in SS. rewrite SS. now rewrite stop_blanks.
Qed.

Lemma scan_repr : forall np v, printable np v -> forall n r, (vsize v <= n)%nat -> stop r ->
  scan_val n (repr np v ++ r) = Some (plain v, r).
Proof.
  intros np. apply (val_ind' (fun v => printable np v -> forall n r, (vsize v <= n)%nat -> stop r ->
    scan_val n (repr np v ++ r) = Some (plain v, r))).
  1-6: intros; (apply scan_scalar; [assumption|intros ? X; discriminate X|assumption|assumption]).
  intros l IH P n r L R. apply printable_list in P.
  assert (ITEMS : forall m r, (isize l <= m)%nat ->
    scan_items m (join_with (lit ", ") (map (repr np) l) ++ "]"%char :: r) = Some (map plain l, r)).
  { clear n r L R. induction l as [|v l IHl]; intros m r L.
    - destruct m as [|m]; [unfold isize in L; lia|]. reflexivity.
    - inversion IH as [|? ? IV IL]; subst. inversion P as [|? ? PV PL]; subst. destruct m as [|m]; [unfold isize in L; lia|].
      unfold isize in L. cbn [fold_right] in L.
      destruct (repr_head np v PV) as (a & t & E & A1 & A2 & A3).
      destruct l as [|w l].
      + cbn [map join_with scan_items]. rewrite E. cbn [app]. rewrite blanks_keep by auto. rewrite A1.
        specialize (IV PV m ("]"%char :: r)). rewrite E in IV. cbn [app] in IV. rewrite IV; [reflexivity|lia|]. right. reflexivity.
      + cbn [map]. change (join_with (lit ", ") (repr np v :: repr np w :: map (repr np) l)) with
          (repr np v ++ lit ", " ++ join_with (lit ", ") (map (repr np) (w :: l))).
        cbn [scan_items]. rewrite <- !app_assoc. rewrite E. cbn [app]. rewrite blanks_keep by auto. rewrite A1.
        specialize (IV PV m (lit ", " ++ join_with (lit ", ") (map (repr np) (w :: l)) ++ "]"%char :: r)).
        rewrite E in IV. cbn [app] in IV. rewrite IV; [|lia|left; reflexivity].
        change (lit ", " ++ ?x) with (","%char :: " "%char :: x). cbv iota.
        change (Ascii.eqb "," ",") with true. cbv iota.
        assert (SP : forall m t, scan_items m (" "%char :: t) = scan_items m t).
        { intros [|m'] u; reflexivity. }
        rewrite SP. rewrite (IHl IL PL); [reflexivity|]. unfold isize. cbn [fold_right] in *. lia. }
  cbn [vsize] in L. destruct n as [|n]; [lia|]. cbn [repr scan_val].
  change (lit "[") with ["["%char]. change (lit "]") with ["]"%char]. rewrite <- !app_assoc. cbn [app].
  rewrite blanks_keep by reflexivity. change (Ascii.eqb "[" "[") with true. cbv iota.
  rewrite ITEMS by (unfold isize; lia). cbn [plain]. now rewrite stop_blanks.
Qed.

Lemma vsize_length : forall np v, printable np v -> (vsize v <= 2 * List.length (repr np v))%nat.
Proof.
  intros np. apply (val_ind' (fun v => printable np v -> (vsize v <= 2 * List.length (repr np v))%nat)).
  1-6: intros; match goal with H : printable _ ?v |- _ => destruct (repr_head _ v H) as (a & t & E & _); rewrite E end; cbn [vsize List.length]; lia.
  intros l IH P. apply printable_list in P. cbn [vsize repr]. rewrite !app_length. change (List.length (lit "[")) with 1%nat.
  change (List.length (lit "]")) with 1%nat.
  assert (G : (fold_right (fun a n => S (vsize a + n)) O l <= 2 * List.length (join_with (lit ", ") (map (repr np) l)) + 1)%nat).
  { induction l as [|v l IHl]; [cbn; lia|]. inversion IH as [|? ? IV IL]; subst. inversion P as [|? ? PV PL]; subst.
    specialize (IV PV). destruct l as [|w l].
    - cbn [fold_right map join_with]. lia.
    - cbn [map]. change (join_with (lit ", ") (repr np v :: repr np w :: map (repr np) l)) with
          (repr np v ++ lit ", " ++ join_with (lit ", ") (map (repr np) (w :: l))).
      rewrite !app_length. change (List.length (lit ", ")) with 2%nat.
      specialize (IHl IL PL). cbn [fold_right] in *. lia. }
  lia.
Qed.

Theorem literal_repr : forall np v, printable np v -> literal_eval (repr np v) = Ok (plain v).
Proof.
  intros np v P. unfold literal_eval.
  pose proof (scan_repr np v P (S (List.length (repr np v) + List.length (repr np v))) []) as H. rewrite app_nil_r in H.
  rewrite H; [reflexivity| |exact I]. pose proof (vsize_length np v P). lia.
Qed.

(** ** Characters of a printed value *)
Definition clean (a : ascii) : bool :=
  negb (Ascii.eqb a LF || Ascii.eqb a "\" || Ascii.eqb a "G" || Ascii.eqb a "L" || Ascii.eqb a "#").
Definition cleant (t : txt) : Prop := forall a, In a t -> clean a = true.
Lemma clean_app : forall a b, cleant a -> cleant b -> cleant (a ++ b).
Proof. intros a b A B x X. apply in_app_or in X as [X|X]; auto. Qed.
Lemma clean_digits : forall t, all_digits t -> cleant t.
Proof.
  intros t T a A. specialize (T a A). apply digitb_code in T. unfold clean.
  repeat match goal with |- context [Ascii.eqb a ?c] => destruct (Ascii.eqb_spec a c); [subst a; unfold code in T; cbn in T; lia|] end. reflexivity.
Qed.
Lemma clean_lit : forall t, forallb clean t = true -> cleant t.
Proof. intros t H a A. rewrite forallb_forall in H. auto. Qed.
Lemma clean_cons : forall a t, clean a = true -> cleant t -> cleant (a :: t).
Proof. intros a t A T x [<-|X]; auto. Qed.
Lemma clean_nat : forall n, 0 <= n -> cleant (fmt_nat n).
Proof. intros. now apply clean_digits, all_fmt. Qed.
Lemma clean_int : forall n, cleant (fmt_int n).
Proof.
  intros n. rewrite fmt_int_sign. apply clean_app; [|apply clean_nat; lia]. destruct (n <? 0); apply clean_lit; reflexivity.
Qed.
Lemma clean_exp : forall n, cleant (fmt_exp n).
Proof.
  intros n. unfold fmt_exp. apply clean_cons; [now destruct (n <? 0)|]. apply clean_app; [|apply clean_nat; lia].
  destruct (_ <? 10); apply clean_lit; reflexivity.
Qed.
Lemma clean_flt : forall f, shortest f -> cleant (fmt_flt f).
Proof.
  intros f SH. assert (M : 0 <= f_man f) by (destruct SH; lia). unfold fmt_flt.
  pose proof (all_fmt _ M) as D. set (ds := fmt_nat (f_man f)) in *. set (pt := f_exp f + _).
  apply clean_app; [destruct (f_neg f); apply clean_lit; reflexivity|].
  assert (DC := clean_digits _ D).
  destruct ((f_man f =? 0) || _).
  - destruct (pt <=? 0).
    + apply clean_app; [apply clean_lit; reflexivity|]. apply clean_app; auto using clean_digits, all_zeros.
    + destruct (pt <? _).
      * apply clean_app; [auto using clean_digits, all_firstn|]. apply clean_cons; [reflexivity|auto using clean_digits, all_skipn].
      * apply clean_app; auto. apply clean_app; [auto using clean_digits, all_zeros|apply clean_lit; reflexivity].
  - destruct ds as [|d r] eqn:E; [intros a []|].
    assert (Dd : clean d = true) by (apply DC; now left). assert (Dr : cleant r) by (intros a A; apply DC; now right).
    destruct r as [|d2 r].
    + apply clean_cons; auto. apply clean_cons; [reflexivity|apply clean_exp].
    + apply clean_cons; auto. apply clean_cons; [reflexivity|]. apply clean_app; auto. apply clean_cons; [reflexivity|apply clean_exp].
Qed.
Lemma clean_join : forall l, Forall cleant l -> cleant (join_with (lit ", ") l).
Proof.
  induction l as [|a l IH]; intros F; [intros x []|]. inversion F; subst. destruct l as [|b l]; [assumption|].
  change (join_with (lit ", ") (a :: b :: l)) with (a ++ lit ", " ++ join_with (lit ", ") (b :: l)).
  apply clean_app; auto. apply clean_app; auto. apply clean_lit; reflexivity.
Qed.
Lemma clean_repr : forall np v, printable np v -> cleant (repr np v).
Proof.
  intros np. apply (val_ind' (fun v => printable np v -> cleant (repr np v))); cbn [printable repr]; try easy; auto using clean_int, clean_flt.
  - intros n P. rewrite P. apply clean_int.
  - intros f [-> P]. now apply clean_flt.
  - intros l IH P. change (printable np (VList l)) in P. apply printable_list in P. apply clean_app; [apply clean_lit; reflexivity|].
    apply clean_app; [|apply clean_lit; reflexivity]. apply clean_join. rewrite Forall_map. apply Forall_forall. intros v V.
    rewrite Forall_forall in IH, P. auto.
Qed.
Lemma clean_not : forall t c, cleant t -> clean c = false -> ~ In c t.
Proof. intros t c T C I. apply T in I. congruence. Qed.

(** ** The index *)
Definition saved_ok (np : bool) (g : lists) : Prop := Forall (printable np) (points_list g) /\ Forall (printable np) (groups_list g).

Fixpoint index_of (np : bool) (i s : Z) (gl : list lists) : list (Z * Z * Z * Z) :=
  match gl with
  | [] => []
  | g :: gl =>
      match points_list g with
      | [] => index_of np (i + 1) s gl
      | _ => (s, i, Z.of_nat (List.length (points_list g)), Z.of_nat (List.length (groups_list g)))
             :: index_of np (i + 1) (s + Z.of_nat (List.length (save_grain np i g))) gl
      end
  end.

Lemma index_app : forall l1 l2 x i, index_lines x i (l1 ++ l2) =
  do y <- index_lines x i l1; index_lines y (i + Z.of_nat (List.length l1)) l2.
Proof.
  induction l1 as [|a l1 IH]; intros l2 x i.
  - cbn [app index_lines bind List.length Z.of_nat]. now rewrite Z.add_0_r.
  - cbn [app index_lines]. destruct (index_line x i a) as [y|]; cbn [bind]; [|reflexivity]. rewrite IH.
    destruct (index_lines y (i + 1) l1); cbn [bind]; [|reflexivity]. f_equal. cbn [List.length]. lia.
Qed.

Lemma index_skip : forall np x i l, Forall (printable np) l -> index_lines x i (map (repr np) l) = Ok x.
Proof.
  intros np x i l F. revert i. induction F as [|v l P F IH]; intros i; [reflexivity|]. cbn [map index_lines].
  assert (E : index_line x i (repr np v) = Ok x).
  { pose proof (clean_repr np v P) as C. unfold index_line.
    assert (NH : match repr np v with a :: _ => Ascii.eqb a "#" = false | [] => True end).
    { destruct (repr np v) as [|a t]; [exact I|]. apply Ascii.eqb_neq. intros ->. exact (clean_not _ "#" C eq_refl (or_introl eq_refl)). }
    destruct (repr np v) as [|a t] eqn:R; [reflexivity|]. rewrite NH.
    rewrite (contains_missing (lit "Grain") (a :: t) "G") by (try (now left); now apply clean_not). cbn [bind].
    rewrite (contains_missing (lit "Lines") (a :: t) "L") by (try (now left); now apply clean_not). cbn [bind].
    rewrite (contains_missing (lit "Groups") (a :: t) "G") by (try (now left); now apply clean_not). reflexivity. }
  rewrite E. apply IH.
Qed.

Lemma in_fmt_num : forall n a, In a (fmt_int n) -> 45 <= code a <= 57.
Proof. intros n a A. apply num_int in A. apply num_code in A. lia. Qed.
Lemma not_in_fmt : forall n c, code c < 45 \/ 57 < code c -> ~ In c (fmt_int n).
Proof. intros n c C I. apply in_fmt_num in I. lia. Qed.

Lemma index_grain_line : forall x i k, index_line x i (lit "Grain " ++ fmt_int k) = Ok (mkFound (Some i) (Some k) (x_lines x) (x_index x)).
Proof.
  intros x i k. set (f := fmt_int k). unfold index_line. change (lit "Grain " ++ f) with ("G"%char :: (lit "rain " ++ f)) at 1. cbv iota.
  change (Ascii.eqb "G" "#") with false. cbv iota.
  assert (C1 : contains (lit "Grain") (lit "Grain " ++ f) = true).
  { change (lit "Grain " ++ f) with (lit "Grain" ++ (" "%char :: f)). apply contains_start. }
  rewrite C1. unfold last_part. change (lit "Grain " ++ f) with (lit "Grain" ++ " "%char :: f).
  rewrite split_on_app by (cbn; intuition discriminate). rewrite split_on_free by (apply not_in_fmt; left; reflexivity).
  cbn [last]. unfold f. rewrite int_round_trip. cbn [bind].
  assert (C2 : contains (lit "Lines") (lit "Grain" ++ " "%char :: fmt_int k) = false).
  { apply contains_missing with "L"%char; [now left|]. intros I. apply in_app_or in I as [I|[I|I]]; [cbn in I; intuition discriminate|discriminate|].
    revert I. apply not_in_fmt. right. reflexivity. }
  assert (C3 : contains (lit "Groups") (lit "Grain" ++ " "%char :: fmt_int k) = false).
  { apply contains_missing with "o"%char; [cbn; auto|]. intros I. apply in_app_or in I as [I|[I|I]]; [cbn in I; intuition discriminate|discriminate|].
    revert I. apply not_in_fmt. right. reflexivity. }
  rewrite C2. cbn [bind]. rewrite C3. reflexivity.
Qed.

Lemma fmt_head_not : forall n t, exists a u, fmt_int n ++ t = a :: u /\ Ascii.eqb a "#" = false.
Proof.
  intros n t. pose proof (clean_int n) as C. pose proof (fmt_int_ne n) as N. destruct (fmt_int n) as [|a u]; [easy|].
  exists a, (u ++ t). split; [reflexivity|]. apply Ascii.eqb_neq. intros ->. exact (clean_not _ "#" C eq_refl (or_introl eq_refl)).
Qed.

Lemma index_lines_line : forall x i n, index_line x i (fmt_int n ++ lit " Lines") = Ok (mkFound (x_start x) (x_grain x) (Some n) (x_index x)).
Proof.
  intros x i n. unfold index_line. destruct (fmt_head_not n (lit " Lines")) as (a & u & E & A).
  assert (C1 : contains (lit "Grain") (fmt_int n ++ lit " Lines") = false).
  { apply contains_missing with "G"%char; [now left|]. intros I. apply in_app_or in I as [I|I]; [|cbn in I; intuition discriminate].
    revert I. apply not_in_fmt. right. reflexivity. }
  assert (C2 : contains (lit "Lines") (fmt_int n ++ lit " Lines") = true).
  { apply contains_iff. exists (fmt_int n ++ [" "%char]), []. rewrite <- app_assoc. reflexivity. }
  assert (C3 : contains (lit "Groups") (fmt_int n ++ lit " Lines") = false).
  { apply contains_missing with "G"%char; [now left|]. intros I. apply in_app_or in I as [I|I]; [|cbn in I; intuition discriminate].
    revert I. apply not_in_fmt. right. reflexivity. }
  assert (FP : py_int (first_part (fmt_int n ++ lit " Lines")) = Ok n).
  { unfold first_part. change (lit " Lines") with (" "%char :: lit "Lines").
    rewrite split_on_app by (apply not_in_fmt; left; reflexivity). cbn [hd]. apply int_round_trip. }
  rewrite E in *. rewrite A, C1. cbn [bind]. rewrite C2, FP. cbn [bind]. rewrite C3. reflexivity.
Qed.
Lemma index_groups_line : forall x i n s g m, x_start x = Some s -> x_grain x = Some g -> x_lines x = Some m ->
  index_line x i (fmt_int n ++ lit " Groups") = Ok (mkFound (Some s) (Some g) (Some m) (x_index x ++ [(s, g, m, n)])).
Proof.
  intros x i n s g m X1 X2 X3. unfold index_line. destruct (fmt_head_not n (lit " Groups")) as (a & u & E & A).
  assert (C1 : contains (lit "Grain") (fmt_int n ++ lit " Groups") = false).
  { apply contains_missing with "a"%char; [cbn; auto|]. intros I. apply in_app_or in I as [I|I]; [|cbn in I; intuition discriminate].
    revert I. apply not_in_fmt. right. reflexivity. }
  assert (C2 : contains (lit "Lines") (fmt_int n ++ lit " Groups") = false).
  { apply contains_missing with "L"%char; [now left|]. intros I. apply in_app_or in I as [I|I]; [|cbn in I; intuition discriminate].
    revert I. apply not_in_fmt. right. reflexivity. }
  assert (C3 : contains (lit "Groups") (fmt_int n ++ lit " Groups") = true).
  { apply contains_iff. exists (fmt_int n ++ [" "%char]), []. rewrite <- app_assoc. reflexivity. }
  assert (FP : py_int (first_part (fmt_int n ++ lit " Groups")) = Ok n).
  { unfold first_part. change (lit " Groups") with (" "%char :: lit "Groups").
    rewrite split_on_app by (apply not_in_fmt; left; reflexivity). cbn [hd]. apply int_round_trip. }
  rewrite E in *. rewrite A, C1. cbn [bind]. rewrite C2. cbn [bind]. rewrite C3, FP. cbn [bind]. rewrite X1, X2, X3. reflexivity.
Qed.

Lemma index_block : forall np g i s x, saved_ok np g -> points_list g <> [] ->
  exists y, index_lines x s (save_grain np i g) = Ok y /\
    x_index y = x_index x ++ [(s, i, Z.of_nat (List.length (points_list g)), Z.of_nat (List.length (groups_list g)))].
Proof.
  intros np g i s x (P & G) N. unfold save_grain. destruct (points_list g) as [|p ps] eqn:E; [easy|]. rewrite <- E in *. clear E.
  rewrite index_app. cbn [index_lines]. rewrite index_grain_line. cbn [bind x_lines x_index]. rewrite index_lines_line.
  cbn [bind x_start x_grain x_index]. rewrite index_app, index_skip by exact P. cbn [bind]. rewrite index_app. cbn [index_lines].
  rewrite (index_groups_line _ _ _ s i (Z.of_nat (List.length (points_list g)))) by reflexivity. cbn [bind x_index].
  rewrite index_app, index_skip by exact G. cbn [bind]. eexists. split; reflexivity.
Qed.

Lemma index_all : forall np gl i s x, Forall (saved_ok np) gl ->
  exists y, index_lines x s (concat (map (fun ig => save_grain np (fst ig) (snd ig)) (combine (zseq i (List.length gl)) gl))) = Ok y /\
    x_index y = x_index x ++ index_of np i s gl.
Proof.
  induction gl as [|g gl IH]; intros i s x F.
  - exists x. cbn [List.length zseq combine map concat index_lines index_of]. now rewrite app_nil_r.
  - inversion F as [|? ? G F']; subst. cbn [List.length zseq combine map concat fst snd index_of].
    destruct (points_list g) as [|p ps] eqn:E.
    + replace (save_grain np i g) with (@nil txt) by (unfold save_grain; now rewrite E). cbn [app]. apply IH. exact F'.
    + rewrite index_app. destruct (index_block np g i s x G) as (y & -> & Y); [congruence|]. cbn [bind].
      destruct (IH (i + 1) (s + Z.of_nat (List.length (save_grain np i g))) y F') as (z & -> & Z). exists z. split; auto.
      rewrite Z, Y, <- app_assoc. now rewrite E.
Qed.

(** ** Loading *)
Lemma change_nth_id : forall A (l : list A) n, change_nth n (fun a => a) l = l.
Proof. induction l as [|a l IH]; intros [|n]; cbn [change_nth]; auto. now rewrite IH. Qed.
Lemma change_nth_comp : forall A (f h : A -> A) (l : list A) n, change_nth n f (change_nth n h l) = change_nth n (fun a => f (h a)) l.
Proof. induction l as [|a l IH]; intros [|n]; cbn [change_nth]; auto. now rewrite IH. Qed.
Lemma change_nth_ext : forall A (f h : A -> A) (l : list A) n, (forall a, f a = h a) -> change_nth n f l = change_nth n h l.
Proof. induction l as [|a l IH]; intros [|n] E; cbn [change_nth]; auto; [now rewrite E|now rewrite (IH n E)]. Qed.

Lemma append_ok : forall np add k vs gs, Forall (printable np) vs -> 0 <= k < Z.of_nat (List.length gs) ->
  append_lines add k (map (repr np) vs) gs =
  (change_nth (Z.to_nat k) (fun g => fold_left (fun g v => add v g) (map plain vs) g) gs, None).
Proof.
  intros np add k vs gs F K. revert gs K. induction F as [|v vs P F IH]; intros gs K.
  - cbn [map append_lines fold_left]. now rewrite change_nth_id.
  - cbn [map append_lines fold_left]. unfold np_index. destruct (Z.leb_spec 0 k); [|lia].
    destruct (Z.ltb_spec k (Z.of_nat (List.length gs))); [|lia]. cbn [andb].
    rewrite split_on_free by (apply clean_not; [now apply clean_repr|reflexivity]). cbn [hd].
    rewrite literal_repr by exact P. rewrite IH by now rewrite change_nth_length. rewrite change_nth_comp. reflexivity.
Qed.
Lemma fold_points : forall vs g, fold_left (fun g v => add_point v g) vs g = mkLists (points_list g ++ vs) (groups_list g).
Proof.
  induction vs as [|v vs IH]; intros g; cbn [fold_left]; [rewrite app_nil_r; now destruct g|]. rewrite IH. cbn [add_point points_list groups_list].
  now rewrite <- app_assoc.
Qed.
Lemma fold_groups : forall vs g, fold_left (fun g v => add_group v g) vs g = mkLists (points_list g) (groups_list g ++ vs).
Proof.
  induction vs as [|v vs IH]; intros g; cbn [fold_left]; [rewrite app_nil_r; now destruct g|]. rewrite IH. cbn [add_group points_list groups_list].
  now rewrite <- app_assoc.
Qed.

Lemma slice_app : forall A (a b c : list A), slice (Z.of_nat (List.length a)) (Z.of_nat (List.length a) + Z.of_nat (List.length b)) (a ++ b ++ c) = b.
Proof.
  intros. unfold slice. destruct (Z.ltb_spec (Z.of_nat (List.length a) + Z.of_nat (List.length b)) 0); [lia|].
  rewrite Nat2Z.id. rewrite skipn_app, Nat.sub_diag, skipn_all. cbn [app skipn].
  replace (Z.to_nat (Z.of_nat (List.length a) + Z.of_nat (List.length b) - Z.of_nat (List.length a))) with (List.length b) by lia.
  rewrite firstn_app, Nat.sub_diag, firstn_all. cbn [firstn]. apply app_nil_r.
Qed.

Lemma change_nth_mid : forall A (f : A -> A) (l : list A) a r, change_nth (List.length l) f (l ++ a :: r) = l ++ f a :: r.
Proof. intros. apply change_nth_app. Qed.

Lemma load_all : forall np gl head tail gs0 done, Forall (saved_ok np) gl -> List.length gs0 = List.length gl ->
  load_grains (head ++ concat (map (fun ig => save_grain np (fst ig) (snd ig)) (combine (zseq (Z.of_nat (List.length done)) (List.length gl)) gl)) ++ tail)
    (index_of np (Z.of_nat (List.length done)) (Z.of_nat (List.length head)) gl) (done ++ gs0) =
  (done ++ map (fun gg => added (fst gg) (snd gg)) (combine gs0 gl), None).
Proof.
  induction gl as [|g gl IH]; intros head tail gs0 done F L.
  - destruct gs0; [|discriminate]. cbn. now rewrite app_nil_r.
  - destruct gs0 as [|g0 gs0]; [discriminate|]. injection L as L. inversion F as [|? ? G F']; subst. destruct G as [GP GG].
    cbn [List.length zseq combine map concat fst snd index_of]. set (i := Z.of_nat (List.length done)).
    assert (D1 : i + 1 = Z.of_nat (List.length (done ++ [g0]))) by (rewrite app_length; cbn [List.length]; unfold i; lia).
    destruct (points_list g) as [|p ps] eqn:E.
    + assert (EM : save_grain np i g = []) by (unfold save_grain; now rewrite E).
      assert (AD : added g0 g = g0) by (unfold added; now rewrite E). rewrite EM, AD. cbn [app].
      specialize (IH head tail gs0 (done ++ [g0]) F' L). rewrite <- D1 in IH. rewrite <- !app_assoc in IH. cbn [app] in IH. exact IH.
    + rewrite <- E in *. assert (NE : points_list g <> []) by congruence. clear E p ps.
      set (rest := concat _). set (P := map (repr np) (points_list g)). set (Q := map (repr np) (groups_list g)).
      set (l1 := lit "Grain " ++ fmt_int i). set (l2 := fmt_int (Z.of_nat (List.length (points_list g))) ++ lit " Lines").
      set (l3 := fmt_int (Z.of_nat (List.length (groups_list g))) ++ lit " Groups").
      assert (SG : save_grain np i g = [l1; l2] ++ P ++ [l3] ++ Q ++ [[]]).
      { unfold save_grain. destruct (points_list g) eqn:E; [easy|]. reflexivity. }
      cbn [load_grains]. rewrite SG.
      assert (LP : List.length (points_list g) = List.length P) by (unfold P; now rewrite map_length).
      assert (LQ : List.length (groups_list g) = List.length Q) by (unfold Q; now rewrite map_length).
      match goal with |- context [slice _ _ ?l] => set (ls := l) end.
      assert (S1 : slice (Z.of_nat (List.length head) + 2) (Z.of_nat (List.length head) + 2 + Z.of_nat (List.length (points_list g))) ls = P).
      { replace ls with ((head ++ [l1; l2]) ++ P ++ ([l3] ++ Q ++ [[]] ++ rest ++ tail)).
        2:{ unfold ls. rewrite <- !app_assoc. reflexivity. }
        rewrite LP. replace (Z.of_nat (List.length head) + 2) with (Z.of_nat (List.length (head ++ [l1; l2]))).
        - apply slice_app.
        - rewrite app_length. cbn [List.length]. lia. }
      assert (S2 : slice (Z.of_nat (List.length head) + 3 + Z.of_nat (List.length (points_list g)))
                (Z.of_nat (List.length head) + 3 + Z.of_nat (List.length (points_list g)) + Z.of_nat (List.length (groups_list g))) ls = Q).
      { replace ls with ((head ++ [l1; l2] ++ P ++ [l3]) ++ Q ++ ([[]] ++ rest ++ tail)).
        2:{ unfold ls. rewrite <- !app_assoc. reflexivity. }
        rewrite LP, LQ. replace (Z.of_nat (List.length head) + 3 + Z.of_nat (List.length P)) with (Z.of_nat (List.length (head ++ [l1; l2] ++ P ++ [l3]))).
        - apply slice_app.
        - rewrite !app_length. cbn [List.length]. lia. }
      rewrite S1, S2. unfold P at 1.
      rewrite (append_ok np) by (auto; rewrite app_length; cbn [List.length]; unfold i; lia).
      unfold Q at 1. rewrite (append_ok np) by (auto; rewrite change_nth_length, app_length; cbn [List.length]; unfold i; lia).
      rewrite change_nth_comp. replace (Z.to_nat i) with (List.length done) by (unfold i; lia). rewrite change_nth_app. rewrite fold_points, fold_groups. cbn [points_list groups_list].
      assert (AD : added g0 g = mkLists (points_list g0 ++ map plain (points_list g)) (groups_list g0 ++ map plain (groups_list g))).
      { unfold added. destruct (points_list g); [easy|reflexivity]. }
      rewrite <- AD. set (h := added g0 g).
      specialize (IH (head ++ ([l1; l2] ++ P ++ [l3] ++ Q ++ [[]])) tail gs0 (done ++ [h]) F' L).
      replace (Z.of_nat (List.length (done ++ [h]))) with (i + 1) in IH by (rewrite app_length; cbn [List.length]; unfold i; lia).
      fold rest in IH. rewrite <- !app_assoc in IH. cbn [app] in IH.
      match goal with |- context [index_of np (i + 1) ?x gl] =>
        replace x with (Z.of_nat (List.length (head ++ [l1; l2] ++ P ++ [l3] ++ Q ++ [[]]))) by (rewrite (app_length head), Nat2Z.inj_add; reflexivity) end.
      unfold ls. rewrite <- !app_assoc. cbn [app]. exact IH.
Qed.

Definition header_lines : list txt :=
  [lit "# This is a file generated by defdap which contains definitions of slip lines drawn in grains by grainInspector";
   lit "# [(x0, y0, x1, y1), angle, groupID]";
   lit "# and groups of lines, defined by an average angle and identified sip plane";
   lit "# [groupID, angle, [slip plane id], [angular deviation]"; []].

Lemma lines_saved : forall np gl, Forall (saved_ok np) gl ->
  lines_of (save_file np gl) = header_lines ++ concat (map (fun ig => save_grain np (fst ig) (snd ig)) (combine (zseq 0 (List.length gl)) gl)).
Proof.
  intros np gl F. unfold save_file. apply lines_unlines. fold header_lines. intros l I. apply in_app_or in I as [I|I].
  - assert (H : forallb (fun t => forallb (fun a => negb (Ascii.eqb a LF)) t) header_lines = true) by (vm_compute; reflexivity).
    rewrite forallb_forall in H. specialize (H l I). rewrite forallb_forall in H. intros X. specialize (H LF X). discriminate H.
  - apply in_concat in I as (b & B & I). apply in_map_iff in B as ((i & g) & <- & C). apply in_combine_r in C. cbn [fst snd] in I.
    rewrite Forall_forall in F. destruct (F g C) as [P G]. rewrite Forall_forall in P, G. unfold save_grain in I.
    destruct (points_list g) as [|p ps]; [easy|]. set (pl := p :: ps) in *.
    apply in_app_or in I as [[<-|[<-|[]]]|I].
    + intros X. apply in_app_or in X as [X|X]; [cbn in X; intuition discriminate|]. revert X. apply not_in_fmt. left. reflexivity.
    + intros X. apply in_app_or in X as [X|X]; [|cbn in X; intuition discriminate]. revert X. apply not_in_fmt. left. reflexivity.
    + apply in_app_or in I as [I|I].
      * apply in_map_iff in I as (v & <- & V). apply clean_not; [now apply clean_repr, P|reflexivity].
      * apply in_app_or in I as [[<-|[]]|I].
        -- intros X. apply in_app_or in X as [X|X]; [|cbn in X; intuition discriminate]. revert X. apply not_in_fmt. left. reflexivity.
        -- apply in_app_or in I as [I|[<-|[]]]; [|easy].
           apply in_map_iff in I as (v & <- & V). apply clean_not; [now apply clean_repr, G|reflexivity].
Qed.

Theorem load_save : forall np gl gs0, Forall (saved_ok np) gl -> List.length gs0 = List.length gl ->
  load_file (save_file np gl) gs0 = (map (fun gg => added (fst gg) (snd gg)) (combine gs0 gl), None).
Proof.
  intros np gl gs0 F L. unfold load_file. rewrite lines_saved by exact F. rewrite index_app.
  change (index_lines (mkFound None None None []) 0 header_lines) with (@Ok found (mkFound None None None [])). cbn [bind].
  destruct (index_all np gl 0 (0 + Z.of_nat (List.length header_lines)) (mkFound None None None []) F) as (y & -> & Y). rewrite Y. cbn [x_index app].
  pose proof (load_all np gl header_lines [] gs0 [] F L) as H. cbn [List.length Z.of_nat app] in H. rewrite app_nil_r in H. exact H.
Qed.

(** ** Hundredths *)
Lemma trim_spec : forall k m e, 0 < m -> m < 2 ^ Z.of_nat k -> let '(m', e') := trim k m e in
  0 < m' /\ m' mod 10 <> 0 /\ e <= e' /\ m = m' * 10 ^ (e' - e).
Proof.
  induction k as [|k IH]; intros m e P B; [cbn in B; lia|]. cbn [trim]. destruct (Z.eqb_spec (m mod 10) 0) as [Z|Z].
  - assert (M : m = 10 * (m / 10)) by (apply Z.div_exact in Z; lia).
    specialize (IH (m / 10) (e + 1) ltac:(lia)). destruct (trim k (m / 10) (e + 1)) as [m' e'].
    rewrite Nat2Z.inj_succ, Z.pow_succ_r in B by lia. destruct IH as (A & B' & C & D); [lia|].
    repeat split; auto; [lia|]. rewrite M, D at 1. replace (e' - e) with (1 + (e' - (e + 1))) by lia. rewrite Z.pow_add_r by lia.
    change (10 ^ 1) with 10. ring.
  - repeat split; auto; [lia|]. rewrite Z.sub_diag. lia.
Qed.
Lemma mk_flt_shortest : forall m e, 0 <= m -> shortest (mk_flt m e) /\ f_neg (mk_flt m e) = false /\
  (IZR (f_man (mk_flt m e)) * powerRZ 10 (f_exp (mk_flt m e)) = IZR m * powerRZ 10 e)%R.
Proof.
  intros m e M. unfold mk_flt. destruct (Z.eqb_spec m 0) as [->|N].
  - split; [left; split; reflexivity|]. split; [reflexivity|]. cbn [f_man f_exp]. lra.
  - pose proof (trim_spec (S (Z.to_nat (Z.log2 m))) m e) as T. destruct (trim _ m e) as [m' e'].
    destruct T as (A & B & C & D); [lia| |].
    + rewrite Nat2Z.inj_succ, Z2Nat.id by apply Z.log2_nonneg. apply Z.log2_spec. lia.
    + cbn [f_neg f_man f_exp]. split; [right; auto|]. split; [reflexivity|]. rewrite D, mult_IZR.
      replace (powerRZ 10 e') with (powerRZ 10 (e' - e) * powerRZ 10 e)%R.
      2:{ rewrite <- powerRZ_add by lra. f_equal. lia. }
      assert (PW : IZR (10 ^ (e' - e)) = powerRZ 10 (e' - e)).
      { rewrite <- (Z2Nat.id (e' - e)) by lia. rewrite <- pow_IZR, <- pow_powerRZ. reflexivity. }
      rewrite PW. ring.
Qed.
Lemma cents_value : forall z, exists f, cents z = VFlt f /\ shortest f /\ flt_R f = (IZR z / 100)%R.
Proof.
  intros z. unfold cents. destruct (mk_flt_shortest (Z.abs z) (-2)) as (A & B & C); [lia|]. eexists. split; [reflexivity|].
  split; [exact A|]. unfold flt_R. cbn [f_neg f_man f_exp]. 
  change (powerRZ 10 (-2)) with (/ 10 ^ 2)%R in C. replace (10 ^ 2)%R with 100%R in C by ring.
  destruct (Z.ltb_spec z 0); rewrite Rmult_assoc, C.
  - rewrite Z.abs_neq, opp_IZR by lia. field.
  - rewrite Z.abs_eq by lia. field.
Qed.
Lemma cents_printable : forall np z, printable np (cents z).
Proof. intros np z. destruct (cents_value z) as (f & -> & S & _). exact S. Qed.
Lemma cents_plain : forall z, plain (cents z) = cents z.
Proof. reflexivity. Qed.
