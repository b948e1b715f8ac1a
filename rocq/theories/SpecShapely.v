(** Specification vocabulary for the geometry of one timestep (C40-C43, C55-C57): points
    of a segment, distances, points of a line given by a position along it. *)
From Coq Require Import Reals List Bool String.
From Verif Require Import Num ModelTs ModelGeom ModelParams ModelShapely SpecGeom.
Import ListNotations.
Open Scope R_scope.

(** Point at the fraction [k] of a segment. *)
Definition seg_point (l : line) (k : R) : pt :=
  Pt ((1 - k) * px (b1 l) + k * px (b2 l)) ((1 - k) * py (b1 l) + k * py (b2 l)).

(** Closed segment as a set of points. *)
Definition on_segment (l : line) (p : pt) : Prop := exists k, 0 <= k <= 1 /\ p = seg_point l k.

(** Distance of two points, and length of a segment. *)
Definition gap (p q : pt) : R := sqrt (dist2 p q).
Definition seg_length (l : line) : R := gap (b1 l) (b2 l).

(** A point less than the tolerance away from some point of a segment. *)
Definition near (tol : R) (l : line) (p : pt) : Prop := exists q, on_segment l q /\ gap p q < tol.

(** Position [t] on the line through [(x, y)] with direction [(c, s)]. *)
Definition along (x y c s t : R) : pt := Pt (x + t * c) (y + t * s).

(** Points covered by a geometry, and its length. *)
Definition covers (g : geom) (p : pt) : Prop :=
  match g with
  | GEmpty => False
  | GPoint q => p = q
  | GLine l => on_segment l p
  | GMultiLine ls => exists l, In l ls /\ on_segment l p
  end.
Definition geom_length (g : geom) : R :=
  match g with
  | GEmpty | GPoint _ => 0
  | GLine l => seg_length l
  | GMultiLine ls => fold_right Rplus 0 (map seg_length ls)
  end.

(** Length of the intersection of the intervals spanned by [a, b] and by [c, d]. *)
Definition overlap (a b c d : R) : R :=
  Rmax 0 (Rmin (Rmax a b) (Rmax c d) - Rmax (Rmin a b) (Rmin c d)).

(** Two positions that are equal or clearly apart. *)
Definition apart (tol a b : R) : Prop := a = b \/ tol < Rabs (a - b).

(** A surface that a point cuts: the point is near it and away from both ends. *)
Definition cuttable (tol : R) (s : pv_surface) (p : pt) : Prop :=
  near tol (su_line s) p /\ tol < gap (b1 (su_line s)) p /\ tol < gap (b2 (su_line s)) p.

(** A part of a surface: same orientation and shading, parameters not set yet. *)
Definition part_of (s : pv_surface) (l : line) (s' : pv_surface) : Prop :=
  su_line s' = l /\ su_nvec s' = su_nvec s /\ su_shaded s' = su_shaded s /\
  su_names s' = su_names s /\ su_index s' = None /\
  (forall k, su_params s' k = if in_dec string_dec k (su_names s) then Some SNone else None).

(** A point on the line through [q] along [v] and on the line carrying the segment [l]. *)
Definition meets (q : pt) (v : R * R) (l : line) (p : pt) : Prop :=
  (exists k, p = Pt (px q + k * fst v) (py q + k * snd v)) /\ (exists m, p = seg_point l m).

(** Cross product of a vector and of a segment. *)
Definition cross (v : R * R) (l : line) : R :=
  fst v * (py (b2 l) - py (b1 l)) - snd v * (px (b2 l) - px (b1 l)).
