(** Independent vocabulary used to state the properties of the irradiance models. *)
From Coq Require Import Reals List Bool Arith String.
From Verif Require Import Num ModelTs ModelGeom ModelParams SpecParams.
Import ListNotations.
Open Scope R_scope.

(** Categories of surfaces of a PV array: ground or side of a row, shaded or not. *)
Inductive category : Type :=
| CGround (shaded : bool)
| CRow (index : nat) (is_back shaded : bool).

(** The surface [s] of the array [a] is of category [c]. *)
Definition in_category (a : fitted) (s : ts_surface) (c : category) : Prop :=
  match c with
  | CGround sh => in_elements s (if sh then gnd_shadows (ft_ground a) else gnd_illum (ft_ground a))
  | CRow i back sh => exists row seg, nth_error (ft_rows a) i = Some row /\
      In seg (side_segments (if back then row_back row else row_front row)) /\
      In s (if sh then seg_shaded seg else seg_illum seg)
  end.

(** The surface [s] has the numerical value [x] for the parameter [k] at timestep [t]. *)
Definition value_at (st : pstore) (s : ts_surface) (k : string) (t : nat) (x : R) : Prop :=
  exists v, get_param st s k = Ok (PArr v) /\ v t = x.

(** Unit vectors: east, north, up. Normal of a surface of given tilt and azimuth,
    direction of the sun; dot product. *)
Definition surface_normal (tilt azimuth : R) : R * R * R :=
  (sind tilt * sind azimuth, sind tilt * cosd azimuth, cosd tilt).
Definition sun_direction (zenith solar_azimuth : R) : R * R * R :=
  (sind zenith * sind solar_azimuth, sind zenith * cosd solar_azimuth, cosd zenith).
Definition dot3 (u v : R * R * R) : R :=
  match u, v with (a, b, c), (x, y, z) => a * x + b * y + c * z end.
Definition opp3 (u : R * R * R) : R * R * R :=
  match u with (a, b, c) => (- a, - b, - c) end.

(** Cosine of the angle between the sun and the normal of the surface. *)
Definition sun_cosine (tilt azimuth zenith solar_azimuth : R) : R :=
  dot3 (surface_normal tilt azimuth) (sun_direction zenith solar_azimuth).

(** Part of the full direct light that reaches the surfaces of a category: cosine of
    the incidence angle, when the sun is on the right side. *)
Definition incidence (tilt azimuth zenith solar_azimuth : R) (c : category) : R :=
  match c with
  | CGround _ => cosd zenith
  | CRow _ false _ => Rmax 0 (sun_cosine tilt azimuth zenith solar_azimuth)
  | CRow _ true _ => Rmax 0 (- sun_cosine tilt azimuth zenith solar_azimuth)
  end.
Definition cat_shaded (c : category) : bool :=
  match c with CGround sh => sh | CRow _ _ sh => sh end.

(** Fraction of the beam light that the modules in front of a shaded surface let
    through: spacing between the cells, plus transparency of the rest. *)
Definition let_through (spacing transparency : R) : R := spacing + (1 - spacing) * transparency.

(** Two categories that differ by the shading, or by the row, only. *)
Definition same_kind (c c' : category) : Prop :=
  match c, c' with
  | CGround _, CGround _ => True
  | CRow _ b _, CRow _ b' _ => b = b'
  | _, _ => False
  end.

(** The point [q] is seen from [p] at the elevation [e] (degrees) above the horizon. *)
Definition seen_at_elevation (p q : pt) (e : R) : Prop :=
  0 <= e <= 90 /\ p <> q /\
  Rabs (px q - px p) * sind e = (py q - py p) * cosd e.
(** [q] is a highest end of the line. *)
Definition top_end (c : line) (q : pt) : Prop :=
  (q = b1 c \/ q = b2 c) /\ py (b1 c) <= py q /\ py (b2 c) <= py q.
