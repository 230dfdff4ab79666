(** Theorems about DIC maps made from files. *)
From Coq Require Import String Ascii Reals Lra.
From Coq Require Import List ZArith Bool Lia.
Import ListNotations.
From Verif Require Import Py Grid Base_Model Text_Model Ctf_Spec Dic_Model Dic_Spec Dic_Proofs Dic_Props Io_Model Io_Spec IoDic_Props DicLoad_Model DicLoad_Spec.
Open Scope Z_scope.

Lemma circle a b : (a * a + b * b = 1)%R -> exists t, cos t = a /\ sin t = b.
Proof.
  intros E. assert (B : (-1 <= a <= 1)%R) by nra. destruct (Rle_dec 0 b) as [N|N].
  - exists (acos a). split; [now apply cos_acos|]. rewrite sin_acos by exact B. replace (1 - a²)%R with (b * b)%R by (unfold Rsqr; lra). now apply sqrt_square.
  - exists (- acos a)%R. rewrite cos_neg, sin_neg. split; [now apply cos_acos|]. rewrite sin_acos by exact B. replace (1 - a²)%R with (- b * - b)%R by (unfold Rsqr; lra). rewrite sqrt_square; lra.
Qed.
Lemma along_eq E t : E 0 1 = E 1 0 -> shear_along E t = ((E 1%Z 1%Z - E 0%Z 0%Z) / 2 * sin (2 * t) + E 0%Z 1%Z * cos (2 * t))%R.
Proof. intros S. unfold shear_along. rewrite <- S, sin_2a, cos_2a. field. Qed.
Lemma shear_greatest e p : e 0 1 p = e 1 0 p -> greatest_shear (fun i j => e i j p) (max_shear e p).
Proof.
  intros S. unfold max_shear. set (A := ((e 0%Z 0%Z p - e 1%Z 1%Z p) / 2)%R). set (B := e 0 1 p). set (r := sqrt (A ^ 2 + B ^ 2)).
  assert (RR : (r * r = A * A + B * B)%R) by (unfold r; rewrite sqrt_sqrt by nra; ring). assert (R0 : (0 <= r)%R) by apply sqrt_pos.
  assert (AL : forall t, shear_along (fun i j => e i j p) t = (- A * sin (2 * t) + B * cos (2 * t))%R) by (intros t; rewrite along_eq by exact S; unfold A, B; field).
  split.
  - destruct (Req_dec r 0) as [Z0|NZ].
    + exists 0%R. rewrite AL. assert (A = 0%R) by nra. assert (B = 0%R) by nra. rewrite H, H0, Z0. ring.
    + destruct (circle (B / r) (- A / r)) as (t & C & D).
      { replace (B / r * (B / r) + - A / r * (- A / r))%R with ((A * A + B * B) / (r * r))%R by (field; exact NZ). rewrite <- RR. field. exact NZ. }
      exists (t / 2)%R. rewrite AL. replace (2 * (t / 2))%R with t by field. rewrite C, D. replace (- A * (- A / r) + B * (B / r))%R with ((A * A + B * B) / r)%R by (field; exact NZ). rewrite <- RR. field. exact NZ.
  - intros t. rewrite AL. pose proof (sin2_cos2 (2 * t)) as T. unfold Rsqr in T. set (c := cos (2 * t)) in *. set (s := sin (2 * t)) in *.
    assert (Q : ((- A * s + B * c) * (- A * s + B * c) <= r * r)%R).
    { rewrite RR. replace (A * A + B * B)%R with ((A * A + B * B) * (s * s + c * c))%R by (rewrite T; ring). pose proof (Rle_0_sqr (A * c + B * s)). unfold Rsqr in *. nra. }
    destruct (Rle_dec (- A * s + B * c) r) as [L|L]; [exact L|]. nra.
Qed.
(** What is on the map, pixel by pixel, in a form common to all loaders. *)
Definition affine (G : Z -> Z -> R) (k : Z -> R) (d : dic_data) : Prop :=
  forall c r, 0 <= c < d_cols d -> 0 <= r < d_rows d -> exists x y u v,
    at_pixel (d_x d) (d_cols d) c r = Some x /\ at_pixel (d_y d) (d_cols d) c r = Some y /\
    at_pixel (d_u d) (d_cols d) c r = Some u /\ at_pixel (d_v d) (d_cols d) c r = Some v /\
    u = (k 0%Z + G 0%Z 0%Z * x + G 0%Z 1%Z * y)%R /\ v = (k 1%Z + G 1%Z 0%Z * x + G 1%Z 1%Z * y)%R.
Lemma grid_at d l c r a : at_pixel l (d_cols d) c r = Some a -> grid_of d l (c, r) = a.
Proof. unfold at_pixel, grid_of. intros E. cbn [fst snd]. now apply nth_error_nth. Qed.
(** [sgn] is the sense of y down the map. *)
Definition sgn (down : bool) : R := if down then 1%R else (-1)%R.
Lemma affine_gradient down b x0 y0 d G k : (0 < b)%R -> 2 <= d_cols d -> 2 <= d_rows d -> raster_map down b x0 y0 d -> affine G k d ->
  exists f, deformation_gradient (d_cols d) (d_rows d) b (displacement d) = Ok f /\
  forall p i j, inside (d_cols d) (d_rows d) p -> axis i -> axis j -> f i j p = ((if j =? 0 then G i 0%Z else sgn down * G i 1%Z) + delta i j)%R.
Proof.
  intros B X Y (_ & _ & RM) A. set (g' := fun i j => if j =? 0 then G i 0%Z else (sgn down * G i 1%Z)%R).
  set (y0' := if down then y0 else (y0 + IZR (d_rows d - 1) * b)%R).
  set (k' := fun c => (k c + G c 0%Z * x0 + G c 1%Z * y0')%R).
  set (u' := fun (c : Z) (p : pix) => (k' c + g' c 0%Z * (b * IZR (fst p)) + g' c 1%Z * (b * IZR (snd p)))%R).
  destruct (C48_linear (d_cols d) (d_rows d) b g' k' u' X Y ltac:(lra)) as (f' & E' & F'); [intros c p; reflexivity|].
  destruct (dgrad_ok (d_cols d) (d_rows d) b (displacement d) X Y) as (f & E & _). exists f. split; [exact E|].
  intros [x y] i j I Ai Aj. transitivity (g' i j + delta i j)%R; [|reflexivity]. rewrite <- (F' i j (x, y) Ai Aj I).
  assert (EQ : forall c q, inside (d_cols d) (d_rows d) q -> axis c -> displacement d c q = u' c q).
  { intros c (qx & qy) (I1 & I2) Ac. cbn [fst snd] in I1, I2. destruct (A qx qy I1 I2) as (xx & yy & uu & vv & A1 & A2 & A3 & A4 & A5 & A6). destruct (RM qx qy I1 I2) as (M1 & M2).
    assert (xx = (x0 + IZR qx * b)%R) by congruence. assert (yy = y_at down b y0 (d_rows d) qy) by congruence.
    assert (YY : yy = (y0' + sgn down * (b * IZR qy))%R). { rewrite H0. unfold y_at, y0', sgn. destruct down; [ring|]. rewrite !minus_IZR. ring. }
    unfold displacement, u', k', g'. cbn [Z.eqb fst snd]. destruct Ac as [->| ->]; cbn [Z.eqb]; [rewrite (grid_at d _ _ _ _ A3), A5|rewrite (grid_at d _ _ _ _ A4), A6]; rewrite YY, H; ring. }
  (* the gradient looks only at pixels of the map *)
  set (w := fun (c : Z) q => if (c =? 0) || (c =? 1) then displacement d c q else u' c q).
  destruct (dgrad_ok (d_cols d) (d_rows d) b w X Y) as (fw & Ew & Fw).
  destruct (dgrad_ok (d_cols d) (d_rows d) b (displacement d) X Y) as (f2 & E2 & F2). rewrite E in E2. injection E2 as <-.
  transitivity (fw i j (x, y)).
  - destruct (F2 i (x, y)) as (P0 & P1). destruct (Fw i (x, y)) as (W0 & W1). assert (WI : forall q, w i q = displacement d i q) by (intros q; unfold w; destruct Ai as [->| ->]; reflexivity).
    destruct Aj as [->| ->]; [rewrite P0, W0|rewrite P1, W1]; f_equal; unfold grad1; now rewrite ?WI.
  - apply (C48_local (d_cols d) (d_rows d) b w u' fw f' x y I Ew E'); [|exact Ai|exact Aj]. intros c q Iq _. unfold w. destruct (Z.eqb_spec c 0) as [->|N0]; [apply EQ; [exact Iq|now left]|]. destruct (Z.eqb_spec c 1) as [->|N1]; [apply EQ; [exact Iq|now right]|]. reflexivity.
Qed.
Lemma on_grid_raster b x0 y0 d : on_grid_map b x0 y0 d <-> raster_map true b x0 y0 d.
Proof. reflexivity. Qed.
(** Every file that is read gives a raster with y in the sense that [turned] says, and the motion. *)
Lemma written_loads turned dt f b nx ny x0 y0 G k : written turned dt f b nx ny x0 y0 -> uniform_motion G k f ->
  exists d, load_file dt f = Ok (b, d) /\ d_cols d = nx /\ d_rows d = ny /\ raster_map (negb turned) b x0 y0 d /\ affine G k d.
Proof.
  intros (B & X & Y & WR) UM. unfold load_file. destruct f as [header rows|rows|b' d0|rows].
  - destruct WR as (-> & (s & E) & n & v & z & DH & -> & RF). rewrite E. cbn [bind fst snd]. apply lt_IZR in B.
    destruct (C61_davis_raster header n v z x0 y0 nx ny rows DH B X Y RF) as (d & L & R & C & GM). rewrite L. cbn [bind fst snd]. exists d. split; [reflexivity|]. split; [exact C|]. split; [exact R|]. split; [exact GM|].
    destruct (C61_davis header rows z d L) as (_ & _ & D1 & D2 & D3 & D4). intros c r Hc Hr. rewrite C, R in *. destruct RF as (_ & RF). destruct (RF c r Hc Hr) as (w & W & _).
    exists (pw_x w), (pw_y w), (pw_u w), (pw_v w). rewrite D1, D2, D3, D4. unfold at_pixel in *. rewrite !(map_nth_error _ _ _ W). do 4 (split; [reflexivity|]). apply UM. cbn [records]. destruct w. cbn. now apply nth_error_In in W.
  - destruct WR as ((s & E) & (z & ->) & HX & HY & RF). rewrite E. cbn [bind fst snd]. apply lt_IZR in B.
    assert (LD : exists d, load_openpiv_text rows = Ok (z, d) /\ d_cols d = nx /\ d_rows d = ny /\ raster_map (negb turned) (IZR z) x0 y0 d).
    { destruct turned; [destruct (C61_openpiv_text_refuted z x0 y0 nx ny rows B X Y HX HY RF) as (d & L & C & R & M & _)|destruct (C61_openpiv_text_raster z x0 y0 nx ny rows B X Y HX HY RF) as (d & L & C & R & M)]; exists d; auto. }
    destruct LD as (d & L & C & R & M). rewrite L. cbn [bind fst snd]. exists d. split; [reflexivity|]. split; [exact C|]. split; [exact R|]. split; [exact M|].
    destruct (C61_openpiv_text_partial rows z d L) as (_ & _ & P). intros c r Hc Hr. destruct (P c r Hc Hr) as (w & W & A1 & A2 & A3 & A4). exists (pw_x w), (pw_y w), (pw_u w), (pw_v w). do 4 (split; [assumption|]).
    apply UM. cbn [records]. destruct w. cbn. now apply nth_error_In in W.
  - destruct WR as ((s & E) & -> & Rd & Cd & WH & RM). rewrite E. cbn [bind fst snd]. subst nx ny.
    assert (LD : exists d, load_openpiv_binary b d0 = Ok d /\ raster_map (negb turned) b x0 y0 d).
    { destruct turned; [destruct (C61_openpiv_binary_refuted b x0 y0 d0 B Y X WH RM) as (d & L & M)|destruct (C61_openpiv_binary_raster b x0 y0 d0 B Y X WH RM) as (d & L & _ & _ & M)]; exists d; auto. }
    destruct LD as (d & L & M). rewrite L. cbn [bind fst snd]. destruct (C61_openpiv_binary_partial b d0 d WH L) as (R & C & _ & Q). exists d. split; [reflexivity|]. split; [exact C|]. split; [exact R|]. split; [exact M|].
    assert (YM : y_moves d0).
    { destruct RM as (_ & _ & RM). intros r R1 R2. destruct (RM 0 r ltac:(lia) ltac:(lia)) as (_ & ->). destruct (RM 0 (r + 1) ltac:(lia) ltac:(lia)) as (_ & ->). unfold y_at. intros Q'. injection Q' as Q'.
      destruct turned; rewrite ?minus_IZR, ?plus_IZR in Q'; nra. }
    specialize (Q YM). intros c r Hc Hr. rewrite C, R in *. destruct (Q c r Hc Hr) as (A1 & A2 & A3 & A4). rewrite A1, A2, A3, A4. destruct WH as (W0 & W1 & LX & LY & LU & LV).
    assert (TOT : forall l : list Rdefinitions.RbaseSymbolsImpl.R, Z.of_nat (List.length l) = d_rows d0 * d_cols d0 -> exists a, at_pixel l (d_cols d0) c (d_rows d0 - 1 - r) = Some a).
    { intros l LL. unfold at_pixel. destruct (nth_error l _) as [a|] eqn:N; [now exists a|]. apply nth_error_None in N. exfalso. nia. }
    destruct (TOT _ LX) as (xx & Hx). destruct (TOT _ LY) as (yy & Hy). destruct (TOT _ LU) as (uu & Hu). destruct (TOT _ LV) as (vv & Hv). exists xx, yy, uu, vv. do 4 (split; [assumption|]).
    apply UM. cbn [records]. exists c, (d_rows d0 - 1 - r). split; [exact Hc|]. split; [lia|]. auto.
  - destruct WR as (-> & (s & E & FT) & z & x0' & y0' & -> & -> & -> & RR). rewrite E. cbn [bind fst snd]. apply lt_IZR in B.
    destruct (C61_pyvale_raster s rows z x0' y0' nx ny FT B X Y RR) as (d & L & C & R & GM & V). rewrite L. cbn [bind fst snd]. exists d. split; [reflexivity|]. split; [exact C|]. split; [exact R|]. split; [exact GM|].
    intros c r Hc Hr. rewrite C, R in *. destruct RR as (_ & RR). destruct (RR c r Hc Hr) as (w & W & WX & WY). destruct (V c r w Hc Hr W) as (V1 & V2). destruct GM as (_ & _ & GM). rewrite C, R in GM. destruct (GM c r Hc Hr) as (G1 & G2).
    exists (IZR (pv_x w)), (IZR (pv_y w)), (pv_u w), (pv_v w). rewrite G1, G2, WX, WY, !plus_IZR, !mult_IZR. split; [reflexivity|]. split; [reflexivity|]. split; [exact V1|]. split; [exact V2|].
    rewrite <- !mult_IZR, <- !plus_IZR, <- WX, <- WY. apply UM. cbn [records]. exists w. apply nth_error_In in W. auto.
Qed.
Lemma made turned dt f b nx ny x0 y0 G k : written turned dt f b nx ny x0 y0 -> uniform_motion G k f ->
  exists m, make_map dt f = Ok m /\ m_rows m = ny /\ m_cols m = nx /\ m_binning m = b /\ m_corr m = None /\ m_bse m = None /\
  forall p, inside nx ny p -> m_coord m 0 p = (x0 + IZR (fst p) * b)%R /\ m_coord m 1 p = y_at (negb turned) b y0 ny (snd p) /\
    (forall i j, axis i -> axis j -> m_f m i j p = ((if j =? 0 then G i 0%Z else sgn (negb turned) * G i 1%Z) + delta i j)%R /\ m_e m i j p = strain_of (fun i j => m_f m i j p) i j) /\
    greatest_shear (fun i j => m_e m i j p) (m_shear m p).
Proof.
  intros WR UM. destruct (written_loads _ _ _ _ _ _ _ _ _ _ WR UM) as (d & L & C & R & RM & A). destruct WR as (B & X & Y & _). unfold make_map. rewrite L. cbn [bind].
  destruct (affine_gradient (negb turned) b x0 y0 d G k B ltac:(lia) ltac:(lia) RM A) as (g & E & F). rewrite E. cbn [bind]. eexists. split; [reflexivity|]. cbn [m_rows m_cols m_binning m_corr m_bse m_coord m_f m_e m_shear].
  split; [exact R|]. split; [exact C|]. split; [reflexivity|]. split; [reflexivity|]. split; [reflexivity|]. intros p I. destruct RM as (_ & _ & RM). rewrite C, R in *. destruct I as (I1 & I2). destruct (RM _ _ I1 I2) as (M1 & M2).
  rewrite <- C in M1, M2. destruct p as (px & py). cbn [fst snd] in *. split; [exact (grid_at d _ _ _ _ M1)|]. split; [exact (grid_at d _ _ _ _ M2)|].
  split.
  - intros i j Ai Aj. split; [apply F; [split; assumption|exact Ai|exact Aj]|]. unfold green_strain, strain_of, delta. destruct (i =? j); field.
  - apply shear_greatest. apply C48_symmetric.
Qed.
(** A map made from a file of points that all move with one deformation F = 1 + G has that
    deformation gradient, its Green strain and its greatest shear at every pixel, edges included, and
    the size, step and positions of the file. *)
Theorem C118_strain_partial : forall dt f b nx ny x0 y0 G k, written false dt f b nx ny x0 y0 -> uniform_motion G k f ->
  exists m, make_map dt f = Ok m /\ m_rows m = ny /\ m_cols m = nx /\ m_binning m = b /\ m_corr m = None /\ scale m = None /\
  forall p, inside nx ny p -> m_coord m 0 p = (x0 + IZR (fst p) * b)%R /\ m_coord m 1 p = (y0 + IZR (snd p) * b)%R /\
    (forall i j, axis i -> axis j -> m_f m i j p = (G i j + delta i j)%R /\ m_e m i j p = strain_of (fun i j => (G i j + delta i j)%R) i j) /\
    greatest_shear (strain_of (fun i j => (G i j + delta i j)%R)) (m_shear m p).
Proof.
  intros dt f b nx ny x0 y0 G k WR UM. destruct (made _ _ _ _ _ _ _ _ _ _ WR UM) as (m & E & R & C & B & CO & BS & P). exists m. split; [exact E|]. split; [exact R|]. split; [exact C|]. split; [exact B|]. split; [exact CO|]. split; [unfold scale; now rewrite BS|].
  intros p I. destruct (P p I) as (P1 & P2 & P3 & P4). split; [exact P1|]. split; [exact P2|].
  assert (F : forall i j, axis i -> axis j -> m_f m i j p = (G i j + delta i j)%R).
  { intros i j Ai Aj. rewrite (proj1 (P3 i j Ai Aj)). f_equal. cbn [negb]. unfold sgn. destruct Aj as [->| ->]; cbn [Z.eqb]; ring. }
  assert (Eq : forall i j, axis i -> axis j -> m_e m i j p = strain_of (fun i j => (G i j + delta i j)%R) i j).
  { intros i j Ai Aj. rewrite (proj2 (P3 i j Ai Aj)). unfold strain_of. rewrite !F by (assumption || (now left) || (now right)). reflexivity. }
  split; [intros i j Ai Aj; split; [now apply F|now apply Eq]|].
  assert (SA : forall t, shear_along (fun i j => m_e m i j p) t = shear_along (strain_of (fun i j => (G i j + delta i j)%R)) t).
  { intros t. unfold shear_along. rewrite !Eq by ((now left) || (now right)). reflexivity. }
  destruct P4 as ((t & T) & U). split; [exists t; now rewrite <- SA|]. intros t'. rewrite <- SA. apply U.
Qed.
(** OpenPIV points that are given with y increasing are turned over: the derivatives along y have the
    wrong sign, so that a body stretched along y is shown compressed. *)
Theorem C118_turned_refuted : forall dt f b nx ny x0 y0 G k, written true dt f b nx ny x0 y0 -> uniform_motion G k f ->
  exists m, make_map dt f = Ok m /\ forall p, inside nx ny p ->
    m_f m 0 0 p = (1 + G 0%Z 0%Z)%R /\ m_f m 0 1 p = (- G 0%Z 1%Z)%R /\ m_f m 1 0 p = G 1%Z 0%Z /\ m_f m 1 1 p = (1 - G 1%Z 1%Z)%R.
Proof.
  intros dt f b nx ny x0 y0 G k WR UM. destruct (made _ _ _ _ _ _ _ _ _ _ WR UM) as (m & E & _ & _ & _ & _ & _ & P). exists m. split; [exact E|]. intros p I. destruct (P p I) as (_ & _ & P3 & _).
  rewrite (proj1 (P3 0 0 (or_introl eq_refl) (or_introl eq_refl))), (proj1 (P3 0 1 (or_introl eq_refl) (or_intror eq_refl))), (proj1 (P3 1 0 (or_intror eq_refl) (or_introl eq_refl))), (proj1 (P3 1 1 (or_intror eq_refl) (or_intror eq_refl))).
  unfold sgn, delta. cbn [negb Z.eqb Pos.eqb]. repeat split; ring.
Qed.
(** Correlation values of the size of the map are taken over and change nothing else; other types of
    data are refused. *)
Theorem C118_correlation : forall m dt r c v, (dt = None \/ dt = Some "DavisImage"%string -> r = m_rows m -> c = m_cols m ->
    exists m', load_corr_val dt (r, c, v) m = (m', Ok tt) /\ m_corr m' = Some (r, c, v) /\ same_but_corr m m') /\
  (forall t, dt = Some t -> t <> "DavisImage"%string -> load_corr_val dt (r, c, v) m = (m, Err GenericException)).
Proof.
  intros m dt r c v. split.
  - intros D -> ->. unfold load_corr_val. assert (Q : String.eqb (match dt with Some t => t | None => "DavisImage"%string end) "DavisImage" = true) by (destruct D as [->| ->]; reflexivity). rewrite Q. cbv zeta. cbn [m_cols m_rows]. rewrite !Z.eqb_refl. eexists. split; [reflexivity|]. split; [reflexivity|]. repeat split.
  - intros t -> N. unfold load_corr_val. apply String.eqb_neq in N. now rewrite N.
Qed.
(** Values of another size are refused, but stay on the map. *)
Theorem C118_correlation_refuted : forall m r c v, r <> m_rows m \/ c <> m_cols m ->
  exists m', load_corr_val None (r, c, v) m = (m', Err AssertionError) /\ m_corr m' = Some (r, c, v).
Proof.
  intros m r c v D. unfold load_corr_val. cbn [String.eqb Ascii.eqb Bool.eqb]. cbv zeta. eexists. split; [apply f_equal2; [reflexivity|]|reflexivity]. cbn [m_cols m_rows].
  destruct (Z.eqb_spec (m_cols m) c) as [Q|Q]; [|reflexivity]. destruct (Z.eqb_spec (m_rows m) r) as [Q'|Q']; [|reflexivity]. destruct D; congruence.
Qed.
(** The scale is the length from a pixel to the next, once the size of a pattern pixel is set. *)
Theorem C118_scale : forall dt f b nx ny x0 y0 G k s, written false dt f b nx ny x0 y0 -> uniform_motion G k f ->
  exists m l, make_map dt f = Ok m /\ scale (set_scale s m) = Some l /\
  forall x y, inside nx ny (x, y) -> inside nx ny (x + 1, y) -> l = (s * (m_coord (set_scale s m) 0%Z ((x + 1)%Z, y) - m_coord (set_scale s m) 0%Z (x, y)))%R.
Proof.
  intros dt f b nx ny x0 y0 G k s WR UM. destruct (C118_strain_partial _ _ _ _ _ _ _ _ _ WR UM) as (m & E & _ & _ & B & _ & _ & P). exists m, (s * b)%R. split; [exact E|]. split; [unfold scale, set_scale; cbn [m_bse m_binning]; now rewrite B|].
  intros x y I J. cbn [set_scale m_coord]. rewrite (proj1 (P _ I)), (proj1 (P _ J)). cbn [fst]. rewrite plus_IZR. ring.
Qed.
(** A file whose points all lie in one row or column makes no map. *)
Theorem C118_small : forall dt f m, make_map dt f = Ok m -> 2 <= m_rows m /\ 2 <= m_cols m.
Proof.
  intros dt f m E. unfold make_map in E. destruct (load_file dt f) as [(b & d)|]; [|discriminate]. cbn [bind] in E. unfold deformation_gradient in E. destruct (Z.ltb_spec (d_cols d) 2), (Z.ltb_spec (d_rows d) 2); cbn [orb bind] in E; try discriminate. injection E as <-. cbn. lia.
Qed.
Example C118_met : forall down, let G := fun i j => if (i =? 0) && (j =? 0) then (1/2)%R else 0%R in let k := fun c => if c =? 0 then 3%R else 0%R in
  let rows := if down : bool then [PivRow 1 1 (7/2) 0; PivRow 3 1 (9/2) 0; PivRow 1 3 (7/2) 0; PivRow 3 3 (9/2) 0]%R
              else [PivRow 1 3 (7/2) 0; PivRow 3 3 (9/2) 0; PivRow 1 1 (7/2) 0; PivRow 3 1 (9/2) 0]%R in
  written down (Some (lit "OpenPIV")) (PivText rows) 2 2 2 1 1 /\ uniform_motion G k (PivText rows) /\
  (down = true -> written false None (DavisFile (lit "#DaVis 8.4.0 2D-vector 2 2 2") rows) 2 2 2 1 1 /\ uniform_motion G k (DavisFile (lit "#DaVis 8.4.0 2D-vector 2 2 2") rows)).
Proof.
  intros down. cbv zeta.
  set (rows := if down then _ else _).
  assert (RF : raster_file down 2 1 1 2 2 rows).
  { split; [destruct down; reflexivity|]. intros c r Cc Rr. assert (c = 0 \/ c = 1) as K by lia. assert (r = 0 \/ r = 1) as Q by lia. unfold y_at, rows.
    destruct down, Q as [->| ->], K as [->| ->]; eexists; (split; [reflexivity|]); cbn [pw_x pw_y]; split; rewrite ?minus_IZR; lra. }
  assert (UM : forall x y u v, In (PivRow x y u v) rows -> u = (3 + 1 / 2 * x + 0 * y)%R /\ v = (0 + 0 * x + 0 * y)%R).
  { intros x y u v I. unfold rows in I. destruct down; cbn in I; decompose [or] I; try contradiction;
      match goal with H : PivRow _ _ _ _ = PivRow _ _ _ _ |- _ => injection H as <- <- <- <- end; lra. }
  split; [|split; [intros x y u v I; exact (UM x y u v I)|]].
  - split; [lra|]. split; [lia|]. split; [lia|]. split; [exists []; vm_compute; reflexivity|]. split; [now exists 2|]. split; [lra|]. split; [lra|]. exact RF.
  - intros ->. split; [|intros x y u v I; exact (UM x y u v I)]. split; [lra|]. split; [lia|]. split; [lia|]. split; [reflexivity|]. split; [exists []; vm_compute; reflexivity|].
    exists (lit "DaVis"), (lit "8.4.0"), 2. split; [vm_compute; reflexivity|]. split; [reflexivity|exact RF].
Qed.
Print Assumptions C118_strain_partial.
Print Assumptions C118_turned_refuted.
Print Assumptions C118_correlation.
Print Assumptions C118_correlation_refuted.
Print Assumptions C118_scale.
Print Assumptions C118_small.
Print Assumptions C118_met.
