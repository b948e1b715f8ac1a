(** Vocabulary for the angle of incidence (AOI) losses, independent of the model. *)
From Coq Require Import Reals List Bool.
From Verif Require Import Num ModelTs ModelGeom SpecGeom SpecVF SpecEngine SpecIrr.
Open Scope R_scope.

(** [theta], in degrees, is the angle between two vectors of the plane. *)
Definition angle_between (u v : R * R) (theta : R) : Prop :=
  0 <= theta <= 180 /\
  fst u * fst v + snd u * snd v =
  sqrt (fst u * fst u + snd u * snd u) * sqrt (fst v * fst v + snd v * snd v) * cos (theta * PI / 180).

(** The half circle cut in [n] equal angles: ends and middle of the [k]-th one. *)
Definition cut_angle (n k : nat) : R := 180 * INR k / INR n.
Definition mid_angle (n k : nat) : R := (cut_angle n k + cut_angle n (S k)) / 2.

(** View factor from a point of a plane to what is seen between two angles measured from
    the plane. *)
Definition seen_between (lo hi : R) : R := (cos (lo * PI / 180) - cos (hi * PI / 180)) / 2.

(** The [k]-th angle meets the angles from [lo] to [hi]. *)
Definition section_met (n k : nat) (lo hi : R) : bool :=
  if Rle_dec lo (cut_angle n (S k)) then if Rlt_dec (cut_angle n k) hi then true else false else false.

(** View factor to what is seen between the angles [lo] and [hi], each of the sections met
    being weighted with the value of [f] at its middle; nothing if the angles are the same. *)
Definition aoi_seen (tol : R) (f : R -> R) (n : nat) (lo hi : R) : R :=
  if Rlt_dec (hi - lo) tol then 0
  else sum_below n (fun k => if section_met n k lo hi
                             then f (mid_angle n k) * seen_between (cut_angle n k) (cut_angle n (S k)) else 0).

(** The same from two angles in any order. *)
Definition aoi_seen_between (tol : R) (f : R -> R) (n : nat) (x y : R) : R :=
  aoi_seen tol f n (Rmin x y) (Rmax x y).

(** Direction from which the angles are measured on a side of a row: along the row, to the
    right for the back, to the left for the front. *)
Definition along_row (rotation : R) (back : bool) : R * R :=
  let s := if back then 1 else -1 in
  (s * cos (rotation * PI / 180), s * sin (rotation * PI / 180)).

(** From the point [c] of a side of a row, [q] is seen under the angle [theta]. *)
Definition seen_under (rotation : R) (back : bool) (c q : pt) (theta : R) : Prop :=
  angle_between (along_row rotation back) (px q - px c, py q - py c) theta.

(** Point in which direction the ground point [g] is seen from [c]: the edge of the
    neighbour when it hides [g]. *)
Definition seen_towards (left : bool) (neighbour : option pt) (c g : pt) : pt :=
  match neighbour with
  | Some o => if Rlt_dec 0 (if left then turn g o c else turn g c o) then o else g
  | None => g
  end.

(** [v] is the AOI-weighted factor for what a point [c] of a side of the row sees between
    the points [q1] and [q2]. *)
Definition seen_from (tol : R) (f : R -> R) (n : nat) (rotation : R) (back : bool) (c q1 q2 : pt) (v : R) : Prop :=
  exists theta1 theta2, seen_under rotation back c q1 theta1 /\ seen_under rotation back c q2 theta2 /\
    v = aoi_seen_between tol f n theta1 theta2.

(** Ends of the [k]-th opening to the sky, at the left of row [k]: tops of the two
    neighbouring rows, or far end of the ground where there is no row. *)
Definition sky_opening (a : fitted) (t k : nat) (q1 q2 : pt) : Prop :=
  match k with
  | O => q1 = Pt (-100) 0
  | S j => exists row, nth_error (ft_rows a) j = Some row /\ top_end (row_coords row t) q1
  end /\
  match nth_error (ft_rows a) k with
  | None => q2 = Pt 100 0
  | Some row => top_end (row_coords row t) q2
  end.
