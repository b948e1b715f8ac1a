(** Model of /repo/pvfactors/geometry/utils.py and of the geometry of one timestep in
    /repo/pvfactors/geometry/base.py (definitions only).

    The shapely objects are two-point line strings: that is all the package builds. *)
From Coq Require Import Reals List Bool Arith String.
From Verif Require Import Num ModelTs ModelGeom ModelVF ModelParams ModelLinalg.
Import ListNotations.
Open Scope R_scope.

(* ------------------------------------------------------------- shapely, external *)

(** [LineString.distance(Point)] (utils.py:75, 155): the algorithm of GEOS for a line of
    two points. *)
Definition dist_point_line (l : line) (p : pt) : R :=
  let A := b1 l in
  let B := b2 l in
  let len2 := (px B - px A) ^ 2 + (py B - py A) ^ 2 in
  if Req_EM_T len2 0 then distance A p
  else
    let r := ((px p - px A) * (px B - px A) + (py p - py A) * (py B - py A)) / len2 in
    if Rle_dec r 0 then distance A p
    else if Rle_dec 1 r then distance B p
    else
      let s := ((py A - py p) * (px B - px A) - (px A - px p) * (py B - py A)) / len2 in
      Rabs s * sqrt len2.

(** Two end points of a line string: [b1, b2 = l.boundary] (utils.py:26-27, 131;
    base.py:207, 488). The boundary of a closed line is empty: [ValueError] when
    unpacked. *)
Definition boundary (l : line) : result (pt * pt) :=
  if Reqb (px (b1 l)) (px (b2 l)) && Reqb (py (b1 l)) (py (b2 l)) then Err ValueError
  else Ok (b1 l, b2 l).

(** Geometries returned by the functions below: empty, point, line, several lines
    ([LineString()], [GeometryCollection()], [Point], [LineString], [MultiLineString];
    utils.py:47-69, 143-172). *)
Inductive geom : Type :=
| GEmpty
| GPoint (p : pt)
| GLine (l : line)
| GMultiLine (ls : list line).

(* ------------------------------------------------------------------- utils.py *)

(** [contains], utils.py:73-75. *)
Definition contains (l : line) (p : pt) : bool :=
  Rltb (dist_point_line l p) DISTANCE_TOLERANCE.

(** [difference], utils.py:10-70. *)
Definition difference (u v : line) : result geom :=
  do (ub1, ub2) <- boundary u;
  do (vb1, vb2) <- boundary v;
  let u_contains_vb1 := contains u vb1 in
  let u_contains_vb2 := contains u vb2 in
  let v_contains_ub1 := contains v ub1 in
  let v_contains_ub2 := contains v ub2 in
  if u_contains_vb1 then
    if u_contains_vb2 then
      let list_lines := if contains (Line ub1 vb1) vb2
                        then [Line ub1 vb2; Line vb1 ub2]
                        else [Line ub1 vb1; Line vb2 ub2] in
      match filter (fun l => Rltb DISTANCE_TOLERANCE (line_length l)) list_lines with
      | [] => Ok GEmpty
      | [l] => Ok (GLine l)
      | ls => Ok (GMultiLine ls)
      end
    else if v_contains_ub1 then
      (if v_contains_ub2 then Ok GEmpty else Ok (GLine (Line vb1 ub2)))
    else if v_contains_ub2 then Ok (GLine (Line ub1 vb1))
    else Ok (GLine u)
  else if u_contains_vb2 then
    if v_contains_ub1 then
      (if v_contains_ub2 then Ok GEmpty else Ok (GLine (Line vb2 ub2)))
    else if v_contains_ub2 then Ok (GLine (Line ub1 vb2))
    else Ok (GLine u)
  else Ok (GLine u).

(** [are_2d_vecs_collinear], utils.py:109-113. *)
Definition are_2d_vecs_collinear (u1 u2 : R * R) : bool :=
  Rltb (Rabs (- snd u1 * fst u2 + fst u1 * snd u2)) TOL_COLLINEAR.

(** [is_collinear], utils.py:78-97, on the (normal vector if not empty) of the elements.
    The direction is that of the first element that is not empty. *)
Fixpoint all_along (u : R * R) (l : list (option (R * R))) : bool :=
  match l with
  | [] => true
  | None :: r => all_along u r
  | Some n :: r =>
      if Rltb (Rabs (fst u * fst n + snd u * snd n)) TOL_COLLINEAR then all_along u r else false
  end.
Fixpoint is_collinear (l : list (option (R * R))) : bool :=
  match l with
  | [] => true
  | None :: r => is_collinear r
  | Some n :: r => all_along (- snd n, fst n) r
  end.

(** [check_collinear], utils.py:100-107. *)
Definition check_collinear (l : list (option (R * R))) : result unit :=
  if is_collinear l then Ok tt else Err PVFactorsError.

(** The matrix [[a, b], [d, e]] and the vector [[c, f]], utils.py:144-145. *)
Definition matrix2 (a b d e : R) : matrix :=
  fun i j => if Nat.eqb i 0 then (if Nat.eqb j 0 then a else b)
             else (if Nat.eqb j 0 then d else e).
Definition vector2 (c f : R) : vector := fun i => if Nat.eqb i 0 then c else f.

(** [projection], utils.py:116-172. *)
Definition projection (point : pt) (v : R * R) (l : line) (must_contain : bool) : result geom :=
  let a := - snd v in
  let b := fst v in
  let c := - (a * px point + b * py point) in
  do (e1, e2) <- boundary l;
  let d := - (py e2 - py e1) in
  let e := px e2 - px e1 in
  let f := - (d * px e1 + e * py e1) in
  if are_2d_vecs_collinear (a, b) (d, e) then Ok GEmpty
  else
    match linalg_inv 2 (matrix2 a b d e) with
    | None => Err LinAlgError
    | Some Winv =>
        let X := mat_vec 2 Winv (vector2 c f) in
        let p := Pt (- X 0%nat) (- X 1%nat) in
        let len := line_length l in
        let d1 := distance e1 p in
        let d2 := distance e2 p in
        let contained := Rltb (dist_point_line l p) DISTANCE_TOLERANCE
                         && Rleb d1 len && Rleb d2 len in
        if negb must_contain then Ok (GPoint p)
        else if contained then
          (if Rltb d1 DISTANCE_TOLERANCE then Ok (GPoint e1)
           else if Rltb d2 DISTANCE_TOLERANCE then Ok (GPoint e2)
           else Ok (GPoint p))
        else Ok GEmpty
    end.

(* -------------------------------------------------------------------- base.py *)

(** Value of a parameter at one timestep: what [_get_params_at_idx] makes of it
    (timeseries.py:400-423); the dictionary of view factors is kept as it is, that is as
    a time series. *)
Inductive sval : Type :=
| SNone
| SNum (x : R)
| SVF (v : ts (option fast_vf)).
Definition sparams : Type := string -> option sval.

(** [PVSurface], base.py:162-322. *)
Record pv_surface : Type := PVSurface {
  su_line : line;
  su_nvec : R * R;
  su_shaded : bool;
  su_index : option nat;
  su_names : list string;
  su_params : sparams
}.

(** [PVSurface.__init__] and [BaseSurface.__init__], base.py:168-214, 297-322: the normal
    vector is computed from the end points when it is not given. *)
Definition pvsurface_init (l : line) (nvec : option (R * R)) (shaded : bool)
    (index : option nat) (names : list string) (params : option sparams) : result pv_surface :=
  do n <- match nvec with
          | Some n => Ok n
          | None => do (e1, e2) <- boundary l; Ok (- (py e2 - py e1), px e2 - px e1)
          end;
  Ok (PVSurface l n shaded index names
        match params with
        | Some p => p
        | None => fun k => if existsb (String.eqb k) names then Some SNone else None
        end).

(** [LineString.length] of a surface. *)
Definition su_length (s : pv_surface) : R := line_length (su_line s).

(** [_check_uniform_shading], base.py:18-38. *)
Fixpoint same_shading (b : bool) (l : list pv_surface) : result unit :=
  match l with
  | [] => Ok tt
  | s :: r => if Bool.eqb b (su_shaded s) then same_shading b r else Err PVFactorsError
  end.
Definition check_uniform_shading (l : list pv_surface) : result unit :=
  match l with
  | [] => Ok tt
  | s :: r => same_shading (su_shaded s) r
  end.

(** [ShadeCollection], base.py:325-354. *)
Record shade_coll : Type := ShadeColl {
  sc_surfaces : list pv_surface;
  sc_shaded : option bool;
  sc_collinear : bool;
  sc_names : list string
}.

(** Normal vectors of a list of surfaces (none of them is empty). *)
Definition surf_nvecs (l : list pv_surface) : list (option (R * R)) :=
  map (fun s => Some (su_nvec s)) l.

(** [_get_shading], base.py:356-372. *)
Definition get_shading (l : list pv_surface) (shaded : option bool) : option bool :=
  match l with s :: _ => Some (su_shaded s) | [] => shaded end.

(** [ShadeCollection.__init__], base.py:330-354. *)
Definition shade_collection (l : list pv_surface) (shaded : option bool) (names : list string)
    : result shade_coll :=
  do _ <- check_uniform_shading l;
  Ok (ShadeColl l (get_shading l shaded) (is_collinear (surf_nvecs l)) names).

(** [ShadeCollection.length] (shapely: total length), [is_empty]; [n_surfaces],
    base.py:563-566; [surface_indices], base.py:568-571. *)
Definition sc_length (c : shade_coll) : R := py_sum (map su_length (sc_surfaces c)).
Definition sc_is_empty (c : shade_coll) : bool :=
  match sc_surfaces c with [] => true | _ :: _ => false end.
Definition sc_n_surfaces (c : shade_coll) : nat := List.length (sc_surfaces c).
Definition sc_indices (c : shade_coll) : list (option nat) := map su_index (sc_surfaces c).

(** [ShadeCollection.n_vector], base.py:552-561 ([DEFAULT_NORMAL_VEC] is [None]). *)
Definition sc_nvec (c : shade_coll) : result (option (R * R)) :=
  if sc_collinear c then
    Ok (match sc_surfaces c with s :: _ => Some (su_nvec s) | [] => None end)
  else Err PVFactorsError.

(** [ShadeCollection.add_pvsurface], base.py:405-415. *)
Definition add_pvsurface (c : shade_coll) (s : pv_surface) : shade_coll :=
  let l := sc_surfaces c ++ [s] in
  ShadeColl l (sc_shaded c) (is_collinear (surf_nvecs l)) (sc_names c).

(** [ShadeCollection.add_linestring], base.py:387-403. The normal vector of the
    collection, when none is given, may itself be [None]. A collection whose shading is
    unknown gives a surface whose shading is [None], which is not modelled:
    [AttributeError] stands for it. *)
Definition add_linestring (c : shade_coll) (l : line) (nvec : option (R * R))
    : result shade_coll :=
  do n <- match nvec with Some n => Ok (Some n) | None => sc_nvec c end;
  match sc_shaded c with
  | None => Err AttributeError
  | Some b =>
      do s <- pvsurface_init l n b None (sc_names c) None;
      Ok (add_pvsurface c s)
  end.

(** Smallest and largest coordinates: [merged_lines.bounds], base.py:465. *)
Definition min_list (l : list R) : R := fold_right np_min (hd 0 l) l.
Definition max_list (l : list R) : R := fold_right np_max (hd 0 l) l.
Definition xs_of (l : list pv_surface) : list R :=
  flat_map (fun s => [px (b1 (su_line s)); px (b2 (su_line s))]) l.
Definition ys_of (l : list pv_surface) : list R :=
  flat_map (fun s => [py (b1 (su_line s)); py (b2 (su_line s))]) l.

(** [ShadeCollection.merge_surfaces], base.py:459-474. [linemerge] only matters through
    the bounds of its result, which are those of the surfaces. *)
Definition merge_surfaces (c : shade_coll) : result shade_coll :=
  match sc_surfaces c with
  | s1 :: _ :: _ =>
      let l := sc_surfaces c in
      match sc_shaded c with
      | None => Err AttributeError
      | Some b =>
          do s <- pvsurface_init (Line (Pt (min_list (xs_of l)) (min_list (ys_of l)))
                                       (Pt (max_list (xs_of l)) (max_list (ys_of l))))
                    (Some (su_nvec s1)) b None (su_names s1) None;
          Ok (ShadeColl [s] (sc_shaded c) (sc_collinear c) (sc_names c))
      end
  | _ => Ok c
  end.

(** Loop of [ShadeCollection.cut_at_point], base.py:484-508: the list with the first
    part in place of the surface that is cut, and the second part. *)
Fixpoint cut_loop (l : list pv_surface) (p : pt) : result (option (list pv_surface * pv_surface)) :=
  match l with
  | [] => Ok None
  | s :: r =>
      let next := do x <- cut_loop r p;
                  Ok (match x with Some (r', s2) => Some (s :: r', s2) | None => None end) in
      if contains (su_line s) p then
        do (e1, e2) <- boundary (su_line s);
        if Rltb DISTANCE_TOLERANCE (distance e1 p) && Rltb DISTANCE_TOLERANCE (distance e2 p) then
          do s1 <- pvsurface_init (Line e1 p) (Some (su_nvec s)) (su_shaded s) None (su_names s) None;
          do s2 <- pvsurface_init (Line p e2) (Some (su_nvec s)) (su_shaded s) None (su_names s) None;
          Ok (Some (s1 :: r, s2))
        else next
      else next
  end.

(** [ShadeCollection.cut_at_point], base.py:476-508. *)
Definition sc_cut_at_point (c : shade_coll) (p : pt) : result shade_coll :=
  do x <- cut_loop (sc_surfaces c) p;
  Ok (match x with
      | Some (l, s2) => ShadeColl (l ++ [s2]) (sc_shaded c) (sc_collinear c) (sc_names c)
      | None => c
      end).

(** [get_param] of a surface in an arithmetic expression (base.py:261-279, 539). *)
Definition su_num (s : pv_surface) (name : string) : result R :=
  match su_params s name with
  | None => Err KeyError
  | Some (SNum x) => Ok x
  | Some _ => Err TypeError
  end.

(** [ShadeCollection.get_param_ww], base.py:526-545. *)
Definition sc_param_ww (c : shade_coll) (name : string) : result R :=
  fold_result (fun v s => do p <- su_num s name; Ok (v + p * su_length s)) (sc_surfaces c) 0.

(** [ShadeCollection.get_param_weighted], base.py:510-524. *)
Definition sc_param_weighted (c : shade_coll) (name : string) : result R :=
  do v <- sc_param_ww c name; Ok (fdiv v (sc_length c)).

(** [PVSegment], base.py:605-641: the two collections, and the cached list of surfaces. *)
Record pv_segment : Type := PVSegment {
  sg_illum : shade_coll;
  sg_shaded : shade_coll;
  sg_cache : option (list pv_surface)
}.

(** [PVSegment._check_collinear], base.py:643-668. *)
Definition segment_check (il sh : shade_coll) : result unit :=
  if sc_collinear il && sc_collinear sh then
    if sc_is_empty il || sc_is_empty sh then Ok tt
    else
      do ni <- sc_nvec il;
      do nsh <- sc_nvec sh;
      match ni, nsh with
      | Some a, Some b => if are_2d_vecs_collinear a b then Ok tt else Err AssertionError
      | _, _ => Err TypeError
      end
  else Err AssertionError.

(** [PVSegment.__init__], base.py:612-641. *)
Definition pvsegment_init (il sh : shade_coll) : result pv_segment :=
  match sc_shaded sh with
  | Some true =>
      match sc_shaded il with
      | Some true => Err AssertionError
      | _ => do _ <- segment_check il sh; Ok (PVSegment il sh None)
      end
  | _ => Err AssertionError
  end.

(** All the surfaces of a segment, and the property [all_surfaces] with its cache,
    base.py:905-920: value, and segment after the access. *)
Definition sg_surfaces (s : pv_segment) : list pv_surface :=
  sc_surfaces (sg_illum s) ++ sc_surfaces (sg_shaded s).
Definition sg_all_surfaces (s : pv_segment) : list pv_surface * pv_segment :=
  match sg_cache s with
  | Some l => (l, s)
  | None => (sg_surfaces s, PVSegment (sg_illum s) (sg_shaded s) (Some (sg_surfaces s)))
  end.

(** [contains] on a collection (utils.py:75 with base.py:723-724, 1073): the smallest of
    the distances to its lines. GEOS gives 0 as the distance to an empty geometry, so
    that an empty collection contains every point. *)
Definition contains_any (l : list pv_surface) (p : pt) : bool :=
  match l with
  | [] => true
  | _ :: _ => existsb (fun s => contains (su_line s) p) l
  end.

(** [PVSegment.cut_at_point], base.py:714-727. The geometry of the segment itself is
    the one of its surfaces. *)
Definition sg_cut_at_point (s : pv_segment) (p : pt) : result pv_segment :=
  if contains_any (sg_surfaces s) p then
    if contains_any (sc_surfaces (sg_illum s)) p then
      do c <- sc_cut_at_point (sg_illum s) p; Ok (PVSegment c (sg_shaded s) (sg_cache s))
    else
      do c <- sc_cut_at_point (sg_shaded s) p; Ok (PVSegment (sg_illum s) c (sg_cache s))
  else Ok s.

(** [PVSegment.n_vector], base.py:777-787. *)
Definition sg_nvec (s : pv_segment) : result (option (R * R)) :=
  if negb (sc_is_empty (sg_illum s)) then sc_nvec (sg_illum s)
  else if negb (sc_is_empty (sg_shaded s)) then sc_nvec (sg_shaded s)
  else Ok None.

(** [PVSegment.length] (shapely), [shaded_length], [n_surfaces], base.py:789-794,
    894-903; [surface_indices], base.py:796-802. *)
Definition sg_length (s : pv_segment) : R := sc_length (sg_shaded s) + sc_length (sg_illum s).
Definition sg_shaded_length (s : pv_segment) : R := sc_length (sg_shaded s).
Definition sg_n_surfaces (s : pv_segment) : nat :=
  (sc_n_surfaces (sg_illum s) + sc_n_surfaces (sg_shaded s))%nat.

(** [PVSegment.get_param_ww], [get_param_weighted], base.py:729-764. *)
Definition sg_param_ww (s : pv_segment) (name : string) : result R :=
  do a <- sc_param_ww (sg_shaded s) name;
  do b <- sc_param_ww (sg_illum s) name;
  Ok (0 + a + b).
Definition sg_param_weighted (s : pv_segment) (name : string) : result R :=
  do v <- sg_param_ww s name; Ok (fdiv v (sg_length s)).

(** [ShadeCollection.from_linestring_coords], base.py:573-602. *)
Definition sc_from_coords (l : line) (shaded : bool) (nvec : option (R * R))
    (names : list string) : result shade_coll :=
  do s <- pvsurface_init l nvec shaded None names None;
  shade_collection [s] (Some shaded) names.

(** [PVSegment.from_linestring_coords], base.py:804-838. *)
Definition sg_from_coords (l : line) (shaded : bool) (nvec : option (R * R))
    (names : list string) : result pv_segment :=
  do col <- sc_from_coords l shaded nvec names;
  do other <- shade_collection [] (Some (negb shaded)) names;
  if shaded then pvsegment_init other col else pvsegment_init col other.

(** [BaseSide.__init__], base.py:927-940: a side is its list of segments. The element
    that [check_collinear] looks at is the normal vector of the segments that are not
    empty. *)
Definition sg_direction (s : pv_segment) : result (option (R * R)) :=
  if sc_is_empty (sg_illum s) && sc_is_empty (sg_shaded s) then Ok None else sg_nvec s.
Definition side_init (segs : list pv_segment) : result (list pv_segment) :=
  do ns <- (fix dirs (l : list pv_segment) : result (list (option (R * R))) :=
              match l with
              | [] => Ok []
              | s :: r => do n <- sg_direction s; do ns <- dirs r; Ok (n :: ns)
              end) segs;
  do _ <- check_collinear ns;
  Ok segs.

(** [linestring.interpolate(fraction, normalized=True)], base.py:972-973. *)
Definition interpolate (l : line) (f : R) : pt :=
  Pt (px (b1 l) + f * (px (b2 l) - px (b1 l))) (py (b1 l) + f * (py (b2 l) - py (b1 l))).

(** k-th value of [np.linspace(0., 1., num=n + 1)], base.py:971. *)
Definition fraction (n k : nat) : R := INR k * (1 / INR n).

(** Coordinates of the segments of [BaseSide.from_linestring_coords], base.py:964-982. *)
Definition side_lines (l : line) (n : nat) : list line :=
  if Nat.eqb n 1 then [l]
  else map (fun k => Line (interpolate l (fraction n k)) (interpolate l (fraction n (S k)))) (seq 0 n).

(** [BaseSide.from_linestring_coords], base.py:942-983. *)
Fixpoint segs_from_lines (ls : list line) (shaded : bool) (nvec : option (R * R))
    (names : list string) : result (list pv_segment) :=
  match ls with
  | [] => Ok []
  | l :: r => do s <- sg_from_coords l shaded nvec names;
              do ss <- segs_from_lines r shaded nvec names;
              Ok (s :: ss)
  end.
Definition side_from_coords (l : line) (shaded : bool) (nvec : option (R * R)) (n : nat)
    (names : list string) : result (list pv_segment) :=
  do segs <- segs_from_lines (side_lines l n) shaded nvec names;
  side_init segs.

(** [BaseSide.n_vector], [shaded_length], [n_surfaces], [all_surfaces] (without the
    cache), [length] (shapely), base.py:985-1016. *)
Definition sd_nvec (sd : list pv_segment) : result (option (R * R)) :=
  match sd with s :: _ => sg_nvec s | [] => Ok None end.
Definition sd_shaded_length (sd : list pv_segment) : R := py_sum (map sg_shaded_length sd).
Definition sd_length (sd : list pv_segment) : R := py_sum (map sg_length sd).
Definition sd_n_surfaces (sd : list pv_segment) : nat :=
  fold_left Nat.add (map sg_n_surfaces sd) 0%nat.
Definition sd_surfaces (sd : list pv_segment) : list pv_surface := flat_map sg_surfaces sd.

(** [BaseSide.cut_at_point], base.py:1064-1077. *)
Fixpoint cut_segments (sd : list pv_segment) (p : pt) : result (list pv_segment) :=
  match sd with
  | [] => Ok []
  | s :: r => do s' <- sg_cut_at_point s p; do r' <- cut_segments r p; Ok (s' :: r')
  end.
Definition sd_cut_at_point (sd : list pv_segment) (p : pt) : result (list pv_segment) :=
  if contains_any (sd_surfaces sd) p then cut_segments sd p else Ok sd.

(** [BaseSide.get_param_ww], [get_param_weighted], base.py:1079-1116. *)
Definition sd_param_ww (sd : list pv_segment) (name : string) : result R :=
  fold_result (fun v s => do p <- sg_param_ww s name; Ok (v + p)) sd 0.
Definition sd_param_weighted (sd : list pv_segment) (name : string) : result R :=
  do v <- sd_param_ww sd name; Ok (fdiv v (sd_length sd)).

(** [merge_shaded_areas], base.py:1059-1062. *)
Fixpoint merge_shaded_areas (sd : list pv_segment) : result (list pv_segment) :=
  match sd with
  | [] => Ok []
  | s :: r => do c <- merge_surfaces (sg_shaded s);
              do r' <- merge_shaded_areas r;
              Ok (PVSegment (sg_illum s) c (sg_cache s) :: r')
  end.

(* ------------------------------------------------------------------- pvrow.py *)

(** [PVRow], pvrow.py:674-700. *)
Record pv_row : Type := PVRow {
  rw_front : list pv_segment;
  rw_back : list pv_segment;
  rw_line : line
}.

(** [PVRow.from_linestring_coords], pvrow.py:702-747. The back normal vector is the
    opposite of the front one ([TypeError] for [- None]). *)
Definition pvrow_from_coords (l : line) (shaded : bool) (nvec : option (R * R))
    (cut_front cut_back : nat) (names : list string) : result pv_row :=
  do front <- side_from_coords l shaded nvec cut_front names;
  do nb <- match nvec with
           | Some n => Ok (- fst n, - snd n)
           | None => do n <- sd_nvec front;
                     match n with Some n => Ok (- fst n, - snd n) | None => Err TypeError end
           end;
  do back <- side_from_coords l shaded (Some nb) cut_back names;
  Ok (PVRow front back l).

(** [PVRow.from_center_tilt_width], pvrow.py:749-794. *)
Definition pvrow_from_center (xc yc tilt width surface_azimuth axis_azimuth : R)
    (shaded : bool) (nvec : option (R * R)) (cut_front cut_back : nat) (names : list string)
    : result pv_row :=
  pvrow_from_coords (coords_from_center_tilt_length xc yc tilt width surface_azimuth axis_azimuth)
    shaded nvec cut_front cut_back names.

(** [PVRow.highest_point], [lowest_point], pvrow.py:823-835. *)
Definition rw_highest (r : pv_row) : result pt :=
  do (e1, e2) <- boundary (rw_line r); Ok (if Rltb (py e2) (py e1) then e1 else e2).
Definition rw_lowest (r : pv_row) : result pt :=
  do (e1, e2) <- boundary (rw_line r); Ok (if Rltb (py e1) (py e2) then e1 else e2).

(** [PVRow.all_surfaces] (without the cache), pvrow.py:837-844. *)
Definition rw_surfaces (r : pv_row) : list pv_surface :=
  sd_surfaces (rw_front r) ++ sd_surfaces (rw_back r).
