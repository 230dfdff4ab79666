(** Words used in the statements about the grain inspector. *)
From Coq Require Import String Ascii Reals.
From Coq Require Import List ZArith Bool.
Import ListNotations.
From Verif Require Import Py Grid Text_Model Insp_Model.
Open Scope Z_scope.

(** Two angles, in hundredths of a degree, less than 10 degrees apart. *)
Definition near (a b : Z) : Prop := Z.abs (a - b) < 1000.

(** [m] is the average of [l] rounded to an integer, ties to even. *)
Definition rounded_mean (l : list Z) (m : Z) : Prop :=
  let n := Z.of_nat (List.length l) in
  let s := fold_right Z.add 0 l in
  2 * Z.abs (n * m - s) <= n /\ (2 * Z.abs (n * m - s) = n -> Z.even m = true).

(** The angles of the lines with group number [k]. *)
Definition members (ls : list line) (k : Z) : list Z :=
  map l_ang (filter (fun l => l_grp l =? k) ls).

(** Grouping of angles one after another: an angle near no group starts a new one;
    otherwise it joins the group, or the first of the groups, whose angle is nearest,
    and that group's angle becomes the mean of its members.
    [Grouping l ks gs]: the angles [l] are put into the groups [ks], with angles [gs]. *)
Definition in_place (l : list Z) (ks : list nat) (k : nat) : list Z :=
  map fst (filter (fun p => Nat.eqb (snd p) k) (combine l ks)).
Inductive Grouping : list Z -> list nat -> list Z -> Prop :=
| Grp_none : Grouping [] [] []
| Grp_new : forall l ks gs a,
    Grouping l ks gs -> (forall g, In g gs -> ~ near g a) ->
    Grouping (l ++ [a]) (ks ++ [List.length gs]) (gs ++ [a])
| Grp_join : forall l ks gs a before g after m,
    Grouping l ks gs -> gs = before ++ g :: after ->
    near g a ->
    (forall h, In h before -> Z.abs (g - a) < Z.abs (h - a)) ->
    (forall h, In h after -> Z.abs (g - a) <= Z.abs (h - a)) ->
    rounded_mean (in_place l ks (List.length before) ++ [a]) m ->
    Grouping (l ++ [a]) (ks ++ [List.length before]) (before ++ m :: after).

(** Nearness is transitive between the angles [l]: they fall into separate bundles. *)
Definition bundled (l : list Z) : Prop :=
  forall a b c, In a l -> In b l -> In c l -> near a b -> near b c -> near a c.

(** The first angle of each bundle, in the order of appearance. *)
Fixpoint leaders_from (rs : list Z) (l : list Z) : list Z :=
  match l with
  | [] => rs
  | a :: l => leaders_from (if existsb (fun r => Z.abs (r - a) <? 1000) rs then rs else rs ++ [a]) l
  end.
Definition leaders (l : list Z) : list Z := leaders_from [] l.
(** [a] belongs to the bundle number [k]. *)
Definition bundle_no (l : list Z) (a : Z) (k : Z) : Prop :=
  0 <= k /\ exists r, nth_error (leaders l) (Z.to_nat k) = Some r /\ near r a.

(** What a slip plane's trace must satisfy to be listed for a group of angle [a]
    hundredths of a degree: within 5 degrees. *)
Definition plane_active (ts : list R) (a : Z) (i : Z) (d : R) : Prop :=
  0 <= i /\ nth_error ts (Z.to_nat i) = Some d /\
  (Rabs (IZR a / 100 - d * 180 / PI) < 5)%R.

(** The events that take a line away. *)
Definition removes (a : action) : bool := match a with ARemove _ => true | _ => false end.

(** The planes and deviations of a group are the active planes, each once and in order,
    and their angular deviations to the nearest hundredth of a degree. *)
Definition planes_right (ts : list R) (g : group) : Prop :=
  (forall i, In i (g_planes g) <-> exists d, plane_active ts (g_ang g) i d) /\
  NoDup (g_planes g) /\
  Forall2 (fun i v => exists d, plane_active ts (g_ang g) i d /\
             (Rabs (IZR v / 100 - (IZR (g_ang g) / 100 - d * 180 / PI)) <= 1 / 200)%R)
          (g_planes g) (g_dev g).

(** What a line and a group show, without the kind of integer used for the number and
    without the ratio. *)
Definition line_view (l : line) := (l_pts l, l_ang l, l_grp l).
Definition group_view (g : group) := (g_id g, g_ang g, g_planes g, g_dev g).

(** Presses, releases and saves that draw the given lines one after another. *)
Definition draw (pq : (R * R) * (R * R)) : list action := [APress (fst pq); ARelease (snd pq); ASave].
Definition draws (l : list ((R * R) * (R * R))) : list action := concat (map draw l).

(** A line from the origin at [a] hundredths of a degree from the y axis. *)
Definition at_angle (a : Z) : (R * R) * (R * R) :=
  ((0, 0), (cos (PI / 2 - IZR a / 100 * PI / 180), sin (PI / 2 - IZR a / 100 * PI / 180)))%R.

(** ** Relative displacement ratio *)

(** The deviation of [f] at [p] from its mean over a row of pixels. *)
Definition rsum (l : list R) : R := fold_right Rplus 0%R l.
Definition row_dev (f : pix -> R) (row : list pix) (p : pix) : R :=
  (f p - rsum (map f row) / INR (List.length row))%R.
(** Squared error of the straight line of slope [s] and intercept [c] through the
    deviations of [v] and [u]. *)
Definition sq_error (u v : pix -> R) (rows : list (list pix)) (s c : R) : R :=
  rsum (concat (map (fun row => map (fun p => (row_dev u row p - s * row_dev v row p - c) ^ 2)%R row) rows)).

(** Sampled rows: at every pixel of every line of the group, the pixel and [h] more to
    either side in steps of [n]. *)
Definition across (e : rdr_env) (n : Z * Z) (h : Z) (q : Z * Z) : list pix :=
  map (fun j => (fst q + j * fst n + fst (r_ext e), snd q + j * snd n + snd (r_ext e)))
      (zseq (- h) (Z.to_nat (2 * h + 1))).
Definition line_pixels (e : rdr_env) (l : line) : list (Z * Z) :=
  match l_pts l with
  | [x0; y0; x1; y1] => r_line e (Z.quot x0 100) (Z.quot y0 100) (Z.quot x1 100) (Z.quot y1 100)
  | _ => []
  end.
Definition group_rows (e : rdr_env) (n : Z * Z) (h : Z) (g : grain) (k : Z) : list (list pix) :=
  concat (map (fun l => map (across e n h) (line_pixels e l)) (filter (fun l => l_grp l =? k) (pts g))).

(** The step [n] is one of the eight neighbours of a pixel and is within 22.5 degrees of
    the perpendicular of a line at [a] hundredths of a degree from the y axis. *)
Definition perpendicular_step (a : Z) (n : Z * Z) : Prop :=
  n <> (0, 0) /\ -1 <= fst n <= 1 /\ -1 <= snd n <= 1 /\
  let t := (IZR a / 100 * PI / 180)%R in
  (Rabs (IZR (fst n) * sin t + IZR (snd n) * cos t) <=
   sqrt (IZR (fst n) ^ 2 + IZR (snd n) ^ 2) * sin (PI / 8))%R.

(** The grain with the ratio [s] recorded for its group [k]. *)
Definition rdr_at (g : grain) (k : Z) (s : R) : grain :=
  mkGrain (pts g)
    (map (fun ix => if Nat.eqb (fst ix) (Z.to_nat k)
                    then mkGroup (g_id (snd ix)) (g_ang (snd ix)) (g_planes (snd ix)) (g_dev (snd ix)) (Some s)
                    else snd ix)
         (combine (seq 0 (List.length (grps g))) (grps g))).

(** [i] is the place that Python's [l[k]] refers to in a list of [n]. *)
Definition place (n : nat) (k : Z) (i : nat) : Prop :=
  (i < n)%nat /\ (k = Z.of_nat i \/ k = Z.of_nat i - Z.of_nat n).

(** No request in the events asked for a grain that is not on the map. *)
Definition goes_beyond (e : env) (s : insp) (a : action) : Prop :=
  match a with APrev | ANext | AGoto _ => snd (step e a s) = Some IndexError | _ => False end.
Fixpoint never_beyond (e : env) (s : insp) (acts : list action) : Prop :=
  match acts with [] => True | a :: acts => ~ goes_beyond e s a /\ never_beyond e (fst (step e a s)) acts end.
