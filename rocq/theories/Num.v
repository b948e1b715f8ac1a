(** Numeric vocabulary shared by all model files.

    Floats are modelled by real numbers (exact arithmetic); see DESIGN.md.
    Only definitions here. *)
From Coq Require Import Reals List Bool Arith.
Import ListNotations.
Open Scope R_scope.

(** numpy comparison operators on floats: [x < y], [x <= y], [x == y].
    Used e.g. in /repo/pvfactors/geometry/timeseries.py:256,324,333. *)
Definition Rltb (x y : R) : bool := if Rlt_dec x y then true else false.
Definition Rleb (x y : R) : bool := if Rle_dec x y then true else false.
Definition Reqb (x y : R) : bool := if Req_EM_T x y then true else false.

(** [np.where(c, a, b)] at one timestep
    (e.g. /repo/pvfactors/geometry/pvground.py:114). *)
Definition np_where {A : Type} (c : bool) (a b : A) : A := if c then a else b.

(** [np.maximum] / [np.minimum] / [np.clip] on finite values
    (/repo/pvfactors/geometry/pvarray.py:250, pvground.py:610,956,982). *)
Definition np_max (x y : R) : R := if Rle_dec x y then y else x.
Definition np_min (x y : R) : R := if Rle_dec x y then x else y.

(** [value = 0.; for x in l: value += x]
    (accumulation loops, e.g. /repo/pvfactors/geometry/timeseries.py:38-41). *)
Definition py_sum (l : list R) : R := fold_left Rplus l 0.

(** [np.sum] over an index range [0..n-1]
    (/repo/pvfactors/geometry/timeseries.py:256 over the time axis;
    /repo/pvfactors/viewfactors/calculator.py:104 over surfaces). *)
Definition np_sum (n : nat) (f : nat -> R) : R := py_sum (map f (seq 0 n)).

(** [np.deg2rad], [np.rad2deg]
    (/repo/pvfactors/geometry/pvarray.py:242-246). *)
Definition deg2rad (x : R) : R := x * PI / 180.
Definition rad2deg (x : R) : R := x * 180 / PI.

(** pvlib.tools [cosd], [sind]: cosine / sine of an angle in degrees
    (imported at /repo/pvfactors/geometry/base.py:14). *)
Definition cosd (x : R) : R := cos (deg2rad x).
Definition sind (x : R) : R := sin (deg2rad x).

(** [np.arctan2(y, x)] (/repo/pvfactors/geometry/pvarray.py:162,
    /repo/pvfactors/viewfactors/vfmethods.py:647). The value at [y = -0.0,
    x < 0] is not modelled (it would be [-PI]). *)
Definition atan2 (y x : R) : R :=
  if Rlt_dec 0 x then atan (y / x)
  else if Rlt_dec x 0 then
         (if Rle_dec 0 y then atan (y / x) + PI else atan (y / x) - PI)
       else if Rlt_dec 0 y then PI / 2
            else if Rlt_dec y 0 then - (PI / 2) else 0.

(** Python's float modulo [x % m] for [m > 0]: result in [0, m)
    (/repo/pvfactors/geometry/base.py:123). *)
Definition py_mod (x m : R) : R := x - m * IZR (Int_part (x / m)).

(** Constants of /repo/pvfactors/config.py:6-46. *)
Definition TOL_COLLINEAR : R := / 100000.          (* config.py:6 *)
Definition MAX_X_GROUND : R := 100.                (* config.py:9 *)
Definition MIN_X_GROUND : R := - MAX_X_GROUND.     (* config.py:10 *)
Definition Y_GROUND : R := 0.                      (* config.py:11 *)
Definition X_ORIGIN_PVROWS : R := 0.               (* config.py:14 *)
Definition DEFAULT_RHO_FRONT : R := 1 / 100.       (* config.py:15 *)
Definition DEFAULT_RHO_BACK : R := 3 / 100.        (* config.py:16 *)
Definition DISTANCE_TOLERANCE : R := / 100000000.  (* config.py:32 *)
Definition SIGMA : R := 1 / sqrt 2.                (* config.py:37 *)
Definition N_SIGMA : R := 3.                       (* config.py:38 *)
Definition GAUSSIAN_DIAMETER_CIRCUMSOLAR : R := 2 * N_SIGMA * SIGMA. (* config.py:39 *)
Definition RADIUS_CIRCUMSOLAR : R := 1.            (* config.py:40 *)
Definition DEFAULT_CIRCUMSOLAR_ANGLE : R := 30.    (* config.py:41 *)
Definition DEFAULT_HORIZON_BAND_ANGLE : R := 65 / 10. (* config.py:44 *)
Definition SKY_REFLECTIVITY_DUMMY : R := 1.        (* config.py:46 *)

(** Extended numbers: the float values that the ground geometry can meet
    (/repo/pvfactors/geometry/pvground.py:110-123: division by [tan] of an angle
    that may be zero). *)
Inductive xr : Type :=
| XNInf : xr
| XFin : R -> xr
| XPInf : xr
| XNaN : xr.

(** [y / np.tan(a)] (/repo/pvfactors/geometry/pvground.py:110,111,121).
    - [sin a <> 0]: the exact value [y * cos a / sin a]; where [tan] has a pole
      the float result is [0] up to rounding, as here.
    - [sin a = 0]: the float divisor is a signed zero; [zneg] is its sign
      ([-0.0] for a flat row, base.py:125; [+0.0] for a sun at the horizon).
      For [a = PI], [a = -PI] the float [tan] is [-1.2e-16], [+1.2e-16], so that the
      quotient is of the order of 1e16, far out of the ground; it is
      represented by the infinity of the same sign.
    - [0 / 0] is NaN. *)
Definition div_tan (y a : R) (zneg : bool) : xr :=
  if Req_EM_T (sin a) 0 then
    let tan_neg := if Rlt_dec 0 (cos a) then zneg
                   else if Rlt_dec 0 a then true else false in
    if Rlt_dec 0 y then (if tan_neg then XNInf else XPInf)
    else if Rlt_dec y 0 then (if tan_neg then XPInf else XNInf)
         else XNaN
  else XFin (y * cos a / sin a).

(** [x - q] with [x] finite (/repo/pvfactors/geometry/pvground.py:110,111,123). *)
Definition xsub (x : R) (q : xr) : xr :=
  match q with
  | XNInf => XPInf
  | XFin r => XFin (x - r)
  | XPInf => XNInf
  | XNaN => XNaN
  end.

(** Float comparison [a <= b] with infinities; any comparison with NaN is
    false (/repo/pvfactors/geometry/pvground.py:113). *)
Definition xleb (a b : xr) : bool :=
  match a, b with
  | XNaN, _ => false
  | _, XNaN => false
  | XNInf, _ => true
  | _, XPInf => true
  | XFin x, XFin y => Rleb x y
  | _, _ => false
  end.

(** [np.clip(v, lo, hi)] with finite bounds. The result is finite unless [v] is
    NaN (/repo/pvfactors/geometry/pvground.py:610-613). NaN has no real
    counterpart: [xclip XNaN] is [lo] by convention, and every theorem that
    goes through [xclip] excludes NaN by hypothesis (rows above the ground). *)
Definition xclip (v : xr) (lo hi : R) : R :=
  match v with
  | XNInf => lo
  | XFin r => np_min (np_max r lo) hi
  | XPInf => hi
  | XNaN => lo
  end.

(** [np.minimum(x, c)] / [np.maximum(x, c)] with [x] finite and [c] possibly
    infinite, only used immediately followed by a clipping on the other side
    (/repo/pvfactors/geometry/pvground.py:956-959 and 982-985). The infinite
    result [np.minimum(x, -inf) = -inf] followed by [np.maximum(_, lo)] gives
    [lo]; the composition is therefore finite and is modelled as a whole.
    NaN: same convention and exclusion as in [xclip]. *)
Definition min_cut_max_lo (x : R) (c : xr) (lo : R) : R :=
  match c with
  | XNInf => lo
  | XFin r => np_max (np_min x r) lo
  | XPInf => np_max x lo
  | XNaN => lo
  end.
Definition max_cut_min_hi (x : R) (c : xr) (hi : R) : R :=
  match c with
  | XNInf => np_min x hi
  | XFin r => np_min (np_max x r) hi
  | XPInf => hi
  | XNaN => hi
  end.

(** Points, lines: one timestep of [TsPointCoords], [TsLineCoords]
    (/repo/pvfactors/geometry/timeseries.py:343-358, 259-277). *)
Record pt : Type := Pt { px : R; py : R }.
Record line : Type := Line { b1 : pt; b2 : pt }.

(** A numpy vector over the time axis: value at each timestep index
    (indices at or beyond the number of states are never read). *)
Definition ts (A : Type) : Type := nat -> A.
