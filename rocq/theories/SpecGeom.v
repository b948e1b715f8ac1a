(** Independent vocabulary used to state the geometric properties. Nothing here
    refers to the model of the code (only to the coordinates records of Num.v). *)
From Coq Require Import Reals List Bool Arith.
From Verif Require Import Num.
Import ListNotations.
Open Scope R_scope.

(** [contiguous lo hi l]: the intervals of [l] are consecutive, each one starting
    where the previous one ends, going rightwards, from [lo] to [hi]. *)
Inductive contiguous : R -> R -> list (R * R) -> Prop :=
| contiguous_nil : forall lo, contiguous lo lo []
| contiguous_cons : forall lo m hi l,
    lo <= m -> contiguous m hi l -> contiguous lo hi ((lo, m) :: l).

(** Same, but the list may also contain isolated points (empty intervals) located
    anywhere. *)
Inductive end_to_end : R -> R -> list (R * R) -> Prop :=
| end_to_end_nil : forall lo, end_to_end lo lo []
| end_to_end_point : forall lo hi a l, end_to_end lo hi l -> end_to_end lo hi ((a, a) :: l)
| end_to_end_cons : forall lo m hi l,
    lo < m -> end_to_end m hi l -> end_to_end lo hi ((lo, m) :: l).

(** Total length of a list of intervals. *)
Definition total_length (l : list (R * R)) : R :=
  fold_right Rplus 0 (map (fun i => snd i - fst i) l).

(** Alternate the elements of two lists, starting with the first one. *)
Fixpoint interleave {A : Type} (l1 l2 : list A) : list A :=
  match l1 with
  | [] => l2
  | x :: r1 => match l2 with [] => l1 | y :: r2 => x :: y :: interleave r1 r2 end
  end.

(** x-extent of a line. *)
Definition x_extent (l : line) : R * R := (px (b1 l), px (b2 l)).

(** Order of extended numbers (NaN is not comparable). *)
Definition xle (a b : xr) : Prop :=
  match a, b with
  | XNaN, _ | _, XNaN => False
  | XNInf, _ => True
  | _, XPInf => True
  | XFin x, XFin y => x <= y
  | _, _ => False
  end.

(** Point of a row centred on [(xc, yc)] and rotated by [rotation] degrees, at signed
    distance [s] from the centre. *)
Definition row_point (xc yc rotation s : R) : pt :=
  Pt (xc + s * cos (rotation * PI / 180)) (yc + s * sin (rotation * PI / 180)).

(** [p] is on the half line that starts at [q] and goes towards the sun, whose 2D
    direction makes the angle [al] with the x axis. *)
Definition towards_sun (al : R) (q p : pt) : Prop :=
  exists k, 0 < k /\ px p = px q + k * cos al /\ py p = py q + k * sin al.

(** Where the sun ray through [p] meets the horizontal line at height [y]. *)
Definition is_ground_shadow (al y : R) (p : pt) (x : R) : Prop :=
  exists k, px p = x + k * cos al /\ py p = y + k * sin al.

(** Ordinary distance in the plane. *)
Definition dist2 (p q : pt) : R := (px p - px q) * (px p - px q) + (py p - py q) * (py p - py q).

(** [al] is the angle, measured from the x axis of the 2D plane, of the direction of
    a sun that is above the horizon: zenith and azimuth in degrees, rotation axis of
    the rows at azimuth [axis]. The x axis of the 2D plane points at 90 degrees
    clockwise from the rotation axis. *)
Definition sun_angle (zenith azimuth axis al : R) : Prop :=
  0 < al < PI /\
  exists k, 0 < k /\
    k * cos al = sin (zenith * PI / 180) * sin ((azimuth - axis) * PI / 180) /\
    k * sin al = cos (zenith * PI / 180).

(** Width of the beam of light cut by a row, minus the width of the beam that falls
    between two consecutive rows: positive when a row shades its neighbour. *)
Definition beam_excess (w d al rotation : R) : R :=
  w * Rabs (sin (al - rotation * PI / 180)) - d * sin al.

(** Shading that exists but whose length on the row is not above [tol]. *)
Definition shading_sliver (tol w d al rotation : R) : Prop :=
  0 < beam_excess w d al rotation <= tol * Rabs (sin (al - rotation * PI / 180)).

(** The shadows, on the horizontal line at height [y], of two rows centred on
    [(x1, h)] and [(x2, h)] have a point in common which is not an end point. *)
Definition shadows_overlap (al y w h rotation x1 x2 : R) : Prop :=
  exists x s1 s2, - (w / 2) < s1 < w / 2 /\ - (w / 2) < s2 < w / 2 /\
    is_ground_shadow al y (row_point x1 h rotation s1) x /\
    is_ground_shadow al y (row_point x2 h rotation s2) x.

(** Point of row [i] at distance [e] from its lower edge, for rows of width [w]
    centred on [(i * d, h)]. *)
Definition point_from_low_edge (w d h rotation : R) (i : nat) (e : R) : pt :=
  row_point (INR i * d) h rotation (if Rlt_dec 0 rotation then - (w / 2) + e else w / 2 - e).

(** A point of row [i] is hidden from the sun by some other row of the array. *)
Definition hidden_from_sun (n : nat) (w d h rotation al : R) (i : nat) (q : pt) : Prop :=
  exists j s', (j < n)%nat /\ j <> i /\ - (w / 2) <= s' <= w / 2 /\
    towards_sun al q (row_point (INR j * d) h rotation s').

(** The sun is in front of the rows (front normal = rotation of the row direction
    by +90 degrees) or behind them. *)
Definition sun_in_front (al rotation : R) : Prop :=
  0 < - sin (rotation * PI / 180) * cos al + cos (rotation * PI / 180) * sin al.
Definition sun_behind (al rotation : R) : Prop :=
  - sin (rotation * PI / 180) * cos al + cos (rotation * PI / 180) * sin al < 0.

(** Intervals given by their (possibly infinite) ends, listed from left to right;
    consecutive ones may overlap only when [flag] is set. *)
Inductive ordered_or_flagged (flag : bool) : list (xr * xr) -> Prop :=
| oof_nil : ordered_or_flagged flag []
| oof_one : forall a, xle (fst a) (snd a) -> ordered_or_flagged flag [a]
| oof_cons : forall a b l,
    xle (fst a) (snd a) -> xle (fst a) (fst b) -> (flag = false -> xle (snd a) (fst b)) ->
    ordered_or_flagged flag (b :: l) -> ordered_or_flagged flag (a :: b :: l).
