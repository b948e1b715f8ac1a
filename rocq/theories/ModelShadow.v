(** Model of the operations that change the geometry of one timestep in place: shadows
    cast on segments and sides, replacement of collections, updates of parameters
    (/repo/pvfactors/geometry/base.py, pvrow.py; definitions only). *)
From Coq Require Import Reals List Bool Arith String.
From Verif Require Import Num ModelTs ModelGeom ModelVF ModelParams ModelShapely.
Import ListNotations.
Open Scope R_scope.

(* ---------------------------------------------------- shapely, external, on one line *)

(** The set operations of GEOS used by base.py:430-431, 701-702 are modelled for line
    strings of two distinct points that lie on one straight line; for other ones the
    definitions below say nothing about the code. *)

(** Position of a point along a line string: 0 at its start, 1 at its end. *)
Definition position (l : line) (p : pt) : R :=
  let A := b1 l in
  let B := b2 l in
  ((px p - px A) * (px B - px A) + (py p - py A) * (py B - py A))
  / ((px B - px A) ^ 2 + (py B - py A) ^ 2).

(** Positions of the points of [l] that are in [s.buffer(DISTANCE_TOLERANCE)]
    (base.py:430, 701). *)
Definition near_part (l s : line) : option (R * R) :=
  let u := position l (b1 s) in
  let v := position l (b2 s) in
  let w := DISTANCE_TOLERANCE / line_length l in
  let lo := Rmax 0 (Rmin u v - w) in
  let hi := Rmin 1 (Rmax u v + w) in
  if Rle_dec lo hi then Some (lo, hi) else None.

(** Union of closed intervals: [i] added to intervals that are apart and sorted. *)
Fixpoint add_interval (i : R * R) (l : list (R * R)) : list (R * R) :=
  match l with
  | [] => [i]
  | j :: r => if Rlt_dec (snd i) (fst j) then i :: j :: r
              else if Rlt_dec (snd j) (fst i) then j :: add_interval i r
              else add_interval (Rmin (fst i) (fst j), Rmax (snd i) (snd j)) r
  end.

(** Positions of the points of [l] that are in the buffer of a collection of lines. *)
Fixpoint near_parts (l : line) (ss : list line) : list (R * R) :=
  match ss with
  | [] => []
  | s :: r => match near_part l s with
              | Some i => add_interval i (near_parts l r)
              | None => near_parts l r
              end
  end.

(** [collection.buffer(DISTANCE_TOLERANCE).intersection(l)], base.py:701-702. *)
Definition buffer_intersection (ss : list line) (l : line) : geom :=
  let sub i := Line (interpolate l (fst i)) (interpolate l (snd i)) in
  match near_parts l ss with
  | [] => GEmpty
  | [i] => if Req_EM_T (fst i) (snd i) then GPoint (interpolate l (fst i)) else GLine (sub i)
  | is => GMultiLine (map sub is)
  end.

(** [s.buffer(DISTANCE_TOLERANCE).intersects(l)], base.py:430. *)
Definition buffer_intersects (s l : line) : bool :=
  match near_part l s with Some _ => true | None => false end.

(** Parts of [s.difference(l)] that are not empty, base.py:431-437, in the direction of
    [s]: lines that only touch leave [s] as it is. *)
Definition line_difference (s l : line) : list line :=
  let u := position s (b1 l) in
  let v := position s (b2 l) in
  let lo := Rmax 0 (Rmin u v) in
  let hi := Rmin 1 (Rmax u v) in
  if Rlt_dec lo hi then
    (if Rlt_dec 0 lo then [Line (b1 s) (interpolate s lo)] else []) ++
    (if Rlt_dec hi 1 then [Line (interpolate s hi) (b2 s)] else [])
  else [s].

(* ------------------------------------------------------------------------ base.py *)

(** Body of the loop of [remove_linestring] for one surface, base.py:427-445: the parts
    are new surfaces, whose parameters and index are not set. *)
Definition surface_less (s : pv_surface) (l : line) : list pv_surface :=
  if buffer_intersects (su_line s) l then
    map (fun part => PVSurface part (su_nvec s) (su_shaded s) None (su_names s)
           (fun k => if existsb (String.eqb k) (su_names s) then Some SNone else None))
        (line_difference (su_line s) l)
  else [s].

(** [ShadeCollection.remove_linestring], base.py:417-449 ([is_collinear] is not computed
    again). *)
Definition remove_linestring (c : shade_coll) (l : line) : shade_coll :=
  ShadeColl (flat_map (fun s => surface_less s l) (sc_surfaces c))
    (sc_shaded c) (sc_collinear c) (sc_names c).

(** [PVSegment.cast_shadow], base.py:688-712. [coords] of a geometry in several parts is
    a [NotImplementedError], a line string of a single point a [ValueError]. The cached
    list of surfaces is left as it is. *)
Definition sg_cast_shadow (s : pv_segment) (l : line) : result pv_segment :=
  match buffer_intersection (map su_line (sc_surfaces (sg_illum s))) l with
  | GEmpty => Ok s
  | GPoint _ => Err ValueError
  | GMultiLine _ => Err NotImplementedError
  | GLine i =>
      do n <- sg_nvec s;
      do sh <- add_linestring (sg_shaded s) i n;
      Ok (PVSegment (remove_linestring (sg_illum s) i) sh (sg_cache s))
  end.

(** [BaseSide.cast_shadow], base.py:1046-1057. *)
Fixpoint sd_cast_shadow (sd : list pv_segment) (l : line) : result (list pv_segment) :=
  match sd with
  | [] => Ok []
  | s :: r => do s' <- sg_cast_shadow s l; do r' <- sd_cast_shadow r l; Ok (s' :: r')
  end.

(** Setters and deleters of the collections of a segment, base.py:847-892: the assertion
    fails for a collection of the wrong shading; a collection whose shading is unknown is
    accepted as illuminated. The deleters install an empty collection. *)
Definition set_shaded (s : pv_segment) (c : shade_coll) : result pv_segment :=
  match sc_shaded c with
  | Some true => Ok (PVSegment (sg_illum s) c (sg_cache s))
  | _ => Err AssertionError
  end.
Definition set_illum (s : pv_segment) (c : shade_coll) : result pv_segment :=
  match sc_shaded c with
  | Some true => Err AssertionError
  | _ => Ok (PVSegment c (sg_shaded s) (sg_cache s))
  end.
Definition empty_collection (shaded : bool) : shade_coll := ShadeColl [] (Some shaded) true [].
Definition del_shaded (s : pv_segment) : pv_segment :=
  PVSegment (sg_illum s) (empty_collection true) (sg_cache s).
Definition del_illum (s : pv_segment) : pv_segment :=
  PVSegment (empty_collection false) (sg_shaded s) (sg_cache s).

(** [update_params] of a surface, a collection, a segment, a side (base.py:280-288,
    551-560, 770-779, 1120-1129) and a PV row (pvrow.py:849-858). The cached lists hold
    the same surface objects: that of a segment is updated where it is up to date, and is
    left out otherwise. *)
Definition sdict : Type := list (string * sval).
Definition sparams_update (p : sparams) (d : sdict) : sparams :=
  fold_left (fun (p : sparams) (kv : string * sval) =>
               fun k => if String.eqb k (fst kv) then Some (snd kv) else p k) d p.
Definition su_update (s : pv_surface) (d : sdict) : pv_surface :=
  PVSurface (su_line s) (su_nvec s) (su_shaded s) (su_index s) (su_names s)
    (sparams_update (su_params s) d).
Definition sc_update (c : shade_coll) (d : sdict) : shade_coll :=
  ShadeColl (map (fun s => su_update s d) (sc_surfaces c)) (sc_shaded c) (sc_collinear c) (sc_names c).
Definition sg_update (s : pv_segment) (d : sdict) : pv_segment :=
  PVSegment (sc_update (sg_illum s) d) (sc_update (sg_shaded s) d) None.
Definition sd_update (sd : list pv_segment) (d : sdict) : list pv_segment :=
  map (fun s => sg_update s d) sd.
Definition rw_update (r : pv_row) (d : sdict) : pv_row :=
  PVRow (sd_update (rw_front r) d) (sd_update (rw_back r) d) (rw_line r).
