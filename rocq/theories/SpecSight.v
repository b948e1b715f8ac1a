(** Independent vocabulary for view factors as integrals: what can be seen from where, and
    the definition of a view factor between two segments. Nothing here refers to the model of
    the code (only to the coordinates records of Num.v). *)
From Coq Require Import Reals List Bool Arith Lra.
From Coquelicot Require Import Coquelicot.
From Verif Require Import Num SpecGeom SpecVF.
Open Scope R_scope.

(** Point at the fraction [s] of a segment. *)
Definition point_at (l : line) (s : R) : pt :=
  Pt (px (b1 l) + s * (px (b2 l) - px (b1 l))) (py (b1 l) + s * (py (b2 l) - py (b1 l))).

(** Component of the way from [q] to [p] along the vector [v]. *)
Definition ahead (v : R * R) (q p : pt) : R := fst v * (px p - px q) + snd v * (py p - py q).

(** The points [q] and [p], of surfaces with the normals [nq] and [np], face each other and
    nothing opaque lies between them. *)
Definition in_sight (opaque : pt -> Prop) (q : pt) (nq : R * R) (p : pt) (np : R * R) : Prop :=
  0 < ahead nq q p /\ 0 < ahead np p q /\ forall s, 0 < s < 1 -> ~ opaque (point_at (Line q p) s).

(** Lambert's law in two dimensions: the product of the cosines at both ends over twice the
    distance ([nq] and [np] are unit vectors). *)
Definition lambert (q : pt) (nq : R * R) (p : pt) (np : R * R) : R :=
  (ahead nq q p / euclid q p) * (ahead np p q / euclid q p) / (2 * euclid q p).

(** [v] is the view factor from the point [q] to the segment [y]: the integral of Lambert's law
    over the part of [y] that is in sight of [q], which is the part between two points. *)
Definition view_from_point (opaque : pt -> Prop) (q : pt) (nq : R * R) (y : line) (ny : R * R) (v : R) : Prop :=
  exists s1 s2, 0 <= s1 <= s2 /\ s2 <= 1 /\
    (forall s, 0 < s < 1 -> s <> s1 -> s <> s2 -> (in_sight opaque q nq (point_at y s) ny <-> s1 < s < s2)) /\
    is_RInt (fun s => lambert q nq (point_at y s) ny * euclid (b1 y) (b2 y)) s1 s2 v.

(** [v] is the view factor from the segment [x] to the segment [y]: the mean over the points of
    [x] of their view factors to [y]. *)
Definition view_factor (opaque : pt -> Prop) (x : line) (nx : R * R) (y : line) (ny : R * R) (v : R) : Prop :=
  exists F, (forall s, 0 < s < 1 -> view_from_point opaque (point_at x s) nx y ny (F s)) /\ is_RInt F 0 1 v.

(** Normal of a side of a row. *)
Definition side_normal (rotation : R) (back : bool) : R * R :=
  let th := rotation * PI / 180 in if back then (sin th, - cos th) else (- sin th, cos th).

(** What is opaque: the ground, and [n] rows of width [w] at the distance [d] from each other. *)
Definition ground_and_rows (n : nat) (w d h rotation : R) (z : pt) : Prop :=
  py z <= 0 \/ exists j e, (j < n)%nat /\ 0 <= e <= w /\ z = point_from_low_edge w d h rotation j e.

(** In the direction of angle [th] above the horizon, the point [q] of a surface with the normal
    [nq] sees the sky: the direction is in front of the surface and nothing opaque lies there. *)
Definition sees_sky (opaque : pt -> Prop) (q : pt) (nq : R * R) (th : R) : Prop :=
  0 < fst nq * cos th + snd nq * sin th /\
  forall r, 0 < r -> ~ opaque (Pt (px q + r * cos th) (py q + r * sin th)).

(** [v] is the view factor from the point [q] to the sky: half of the integral of the cosine over
    the directions in which the sky is seen, which are those between two angles. *)
Definition sky_from_point (opaque : pt -> Prop) (q : pt) (nq : R * R) (v : R) : Prop :=
  exists t1 t2, 0 <= t1 <= t2 /\ t2 <= PI /\
    (forall th, 0 < th < PI -> th <> t1 -> th <> t2 -> (sees_sky opaque q nq th <-> t1 < th < t2)) /\
    is_RInt (fun th => (fst nq * cos th + snd nq * sin th) / 2) t1 t2 v.

(** Mean over the points of a segment. *)
Definition sky_factor (opaque : pt -> Prop) (x : line) (nx : R * R) (v : R) : Prop :=
  exists F, (forall s, 0 < s < 1 -> sky_from_point opaque (point_at x s) nx (F s)) /\ is_RInt F 0 1 v.

(** In the direction of angle [th] below the horizon, the point [q] of a surface with the normal
    [nq] sees the ground plane: the direction is in front of the surface and nothing opaque lies
    on the way down to height 0. *)
Definition sees_ground (opaque : pt -> Prop) (q : pt) (nq : R * R) (th : R) : Prop :=
  0 < fst nq * cos th - snd nq * sin th /\
  forall r, 0 < r -> 0 < py q - r * sin th -> ~ opaque (Pt (px q + r * cos th) (py q - r * sin th)).

(** View factor from a point to the whole, unbounded, ground plane, as for the sky. *)
Definition ground_from_point (opaque : pt -> Prop) (q : pt) (nq : R * R) (v : R) : Prop :=
  exists t1 t2, 0 <= t1 <= t2 /\ t2 <= PI /\
    (forall th, 0 < th < PI -> th <> t1 -> th <> t2 -> (sees_ground opaque q nq th <-> t1 < th < t2)) /\
    is_RInt (fun th => (fst nq * cos th - snd nq * sin th) / 2) t1 t2 v.

(** Mean over the points of a segment. *)
Definition ground_factor (opaque : pt -> Prop) (x : line) (nx : R * R) (v : R) : Prop :=
  exists F, (forall s, 0 < s < 1 -> ground_from_point opaque (point_at x s) nx (F s)) /\ is_RInt F 0 1 v.

(** View factor from a point to the sky when it may be seen through several gaps: half of the
    integral, over all upward directions, of a function which is the cosine where the sky is
    seen and 0 where it is not. *)
Definition sky_of_point (opaque : pt -> Prop) (q : pt) (nq : R * R) (v : R) : Prop :=
  exists g : R -> R,
    (forall th, 0 < th < PI -> (sees_sky opaque q nq th -> g th = (fst nq * cos th + snd nq * sin th) / 2) /\
                               (~ sees_sky opaque q nq th -> g th = 0)) /\
    is_RInt g 0 PI v.

(** Mean over the points of a segment. *)
Definition sky_view (opaque : pt -> Prop) (x : line) (nx : R * R) (v : R) : Prop :=
  exists F, (forall s, 0 < s < 1 -> sky_of_point opaque (point_at x s) nx (F s)) /\ is_RInt F 0 1 v.
