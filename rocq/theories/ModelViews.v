(** Model of the ways to build a PV array from a dictionary and to look at a fitted one
    at a single index: parts of /repo/pvfactors/geometry/{pvarray,timeseries,pvrow,
    pvground,base}.py (definitions only). *)
From Coq Require Import Reals List Bool Arith String.
From Verif Require Import Num ModelTs ModelGeom ModelVF ModelParams ModelEngine ModelShapely ModelSnapshot.
Import ListNotations.
Open Scope R_scope.
Open Scope list_scope.

(* ----------------------------------------------------------------- pvarray.py *)

(** The dictionary of parameters, pvarray.py:79-128: numbers by key, and the two entries
    that are not real numbers. A missing entry [cut] and an entry that is [None] are the
    same (pvarray.py:95, 61). *)
Record array_dict : Type := ArrayDict {
  ad_num : string -> option R;
  ad_n_pvrows : option nat;
  ad_cut : option (list (nat * list (string * nat)))
}.

(** [d[key]], pvarray.py:90-94, 121-124. *)
Definition dict_num (d : array_dict) (key : string) : result R :=
  match ad_num d key with Some v => Ok v | None => Err KeyError end.

(** [pvarray_params.get('cut', {})], pvarray.py:95, 61. *)
Definition dict_cut (d : array_dict) : list (nat * list (string * nat)) :=
  match ad_cut d with Some c => c | None => [] end.

(** [cut.get(idx, {}).get(side, 1)], pvarray.py:224 and pvrow.py:84, 89. *)
Definition cut_of (cut : list (nat * list (string * nat))) (row : nat) (back : bool) : nat :=
  let sides := match find (fun e => Nat.eqb (fst e) row) cut with
               | Some e => snd e
               | None => []
               end in
  match find (fun e => String.eqb (fst e) (if back then "back" else "front")) sides with
  | Some e => snd e
  | None => 1%nat
  end.

(** [OrderedPVArray.init_from_dict], pvarray.py:75-97 (a zero [gcr], a division by zero
    in the constructor, is not modelled). *)
Definition init_from_dict (d : array_dict) (names : list string) : result pvarray :=
  do azimuth <- dict_num d "axis_azimuth";
  do gcr <- dict_num d "gcr";
  do height <- dict_num d "pvrow_height";
  do n <- match ad_n_pvrows d with Some n => Ok n | None => Err KeyError end;
  do width <- dict_num d "pvrow_width";
  Ok (pvarray_init (PVArrayParams azimuth gcr height width n (cut_of (dict_cut d))) names).

(** [OrderedPVArray.fit] on vectors of angles of length [n], pvarray.py:130-178. *)
Definition fit_angles (arr : pvarray) (n : nat) (f : fit_inputs) : result pvarray :=
  match fit (pv_params arr) n f with
  | None => Err PVFactorsError
  | Some a => Ok (PVArray (pv_params arr) (pv_param_names arr) (Some a)
                    (fresh_store (pv_param_names arr)) (pv_vf arr) (pv_vf_aoi arr))
  end.

(** [OrderedPVArray.fit_from_dict_of_scalars], pvarray.py:98-128. *)
Definition fit_from_dict_of_scalars (d : array_dict) (names : list string) : result pvarray :=
  do arr <- init_from_dict d names;
  do zenith <- dict_num d "solar_zenith";
  do azimuth <- dict_num d "solar_azimuth";
  do tilt <- dict_num d "surface_tilt";
  do surf_azimuth <- dict_num d "surface_azimuth";
  fit_angles arr 1 (FitInputs (fun _ => zenith) (fun _ => azimuth) (fun _ => tilt)
                      (fun _ => surf_azimuth)).

(* -------------------------------------------------------------- timeseries.py *)

(** numpy arrays of coordinates, of shape (2, n) for a point and (2, 2, n) for a line:
    [TsPointCoords.as_array], timeseries.py:370-373, [TsLineCoords.as_array],
    timeseries.py:308-311. *)
Definition point_array (p : ts pt) : list (ts R) := [fun t => px (p t); fun t => py (p t)].
Definition line_array (l : ts line) : list (list (ts R)) :=
  [point_array (fun t => b1 (l t)); point_array (fun t => b2 (l t))].

(** [TsPointCoords.from_array], timeseries.py:375-384; [TsLineCoords.from_array],
    timeseries.py:289-300. Rows beyond the second are ignored. *)
Definition point_from_array (a : list (ts R)) : result (ts pt) :=
  match a with
  | x :: y :: _ => Ok (fun t => Pt (x t) (y t))
  | _ => Err IndexError
  end.
Definition line_from_array (a : list (list (ts R))) : result (ts line) :=
  match a with
  | p :: q :: _ => do b1 <- point_from_array p; do b2 <- point_from_array q;
                   Ok (fun t => Line (b1 t) (b2 t))
  | _ => Err IndexError
  end.

(** [TsPointCoords.at], timeseries.py:360-368; [TsLineCoords.at], timeseries.py:279-287. *)
Definition point_array_at (p : ts pt) (idx : nat) : list R :=
  map (fun x => x idx) (point_array p).
Definition line_array_at (l : ts line) (idx : nat) : list (list R) :=
  map (map (fun x => x idx)) (line_array l).

(** [TsSurface.b1], [b2], timeseries.py:190-198. *)
Definition s_b1 (s : ts_surface) : ts pt := fun t => b1 (s_coords s t).
Definition s_b2 (s : ts_surface) : ts pt := fun t => b2 (s_coords s t).

(* ------------------------------------------------------- pvrow.py, pvground.py *)

(** [TsSegment.centroid], [highest_point], [lowest_point], pvrow.py:586-589, 634-642. *)
Definition seg_centroid (g : ts_segment) : ts pt := fun t => line_centroid (seg_coords g t).
Definition seg_highest (g : ts_segment) : ts pt := fun t => highest_point (seg_coords g t).
Definition seg_lowest (g : ts_segment) : ts pt := fun t => lowest_point (seg_coords g t).

(** [TsGroundElement.b1], [b2], [centroid], [length], pvground.py:800-818. *)
Definition el_b1 (el : ts_ground_element) : ts pt := fun t => b1 (el_coords el t).
Definition el_b2 (el : ts_ground_element) : ts pt := fun t => b2 (el_coords el t).
Definition el_centroid (el : ts_ground_element) : ts pt := fun t => line_centroid (el_coords el t).
Definition el_length (el : ts_ground_element) : ts R := fun t => line_length (el_coords el t).

(** [TsSegment.surfaces_at_idx], pvrow.py:516-531; [TsSide.surfaces_at_idx],
    pvrow.py:346-361; [TsPVRow.surfaces_at_idx], pvrow.py:124-139. *)
Definition seg_surfaces_at_idx (e : snap_env) (g : ts_segment) (idx : nat)
    : result (list pv_surface) := do x <- segment_at e g idx; Ok (sg_surfaces x).
Definition side_surfaces_at_idx (e : snap_env) (s : ts_side) (idx : nat)
    : result (list pv_surface) := do x <- side_at e s idx; Ok (sd_surfaces x).
Definition row_surfaces_at_idx (e : snap_env) (r : ts_pvrow) (idx : nat)
    : result (list pv_surface) := do x <- pvrow_at e r idx; Ok (rw_surfaces x).

(** [TsGroundElement.surfaces_at], pvground.py:825-839: surfaces that are points give
    empty geometries ([None]), which stay in the list. *)
Fixpoint each_surface_at (e : snap_env) (l : list ts_surface) (idx : nat)
    : result (list (option pv_surface)) :=
  match l with
  | [] => Ok []
  | s :: r => do x <- surface_at e s idx; do xs <- each_surface_at e r idx; Ok (x :: xs)
  end.
Definition element_surfaces_at (e : snap_env) (el : ts_ground_element) (idx : nat)
    : result (list (option pv_surface)) := each_surface_at e (el_surfaces el) idx.

(* -------------------------------------------------------------------- base.py *)

(** [PVSegment.surface_indices], base.py:796-802; [BaseSide.surface_indices],
    base.py:1017-1023; [PVRow.surface_indices], pvrow.py:841-847. *)
Definition sg_indices (g : pv_segment) : list (option nat) :=
  sc_indices (sg_illum g) ++ sc_indices (sg_shaded g).
Definition sd_indices (sd : list pv_segment) : list (option nat) := flat_map sg_indices sd.
Definition rw_indices (r : pv_row) : list (option nat) :=
  sd_indices (rw_front r) ++ sd_indices (rw_back r).

(** [BasePVArray.ts_surface_indices], base.py:1172-1175. *)
Definition ts_surface_indices (a : fitted) : list nat :=
  map (surf_index a) (all_ts_surfaces a).
