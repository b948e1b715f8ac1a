(** Model of the PV row, ground and array geometry:
    /repo/pvfactors/geometry/{base,pvrow,pvground,pvarray}.py (definitions only). *)
From Coq Require Import Reals List Bool Arith.
From Verif Require Import Num ModelTs.
Import ListNotations.
Open Scope R_scope.

(* ------------------------------------------------------------------ base.py *)

(** [_get_rotation_from_tilt_azimuth], base.py:98-126. The float [-0.0] of line
    125 is the real number 0; its sign matters only for the cut points, see
    [cut_point]. *)
Definition get_rotation (surface_azimuth axis_azimuth tilt : R) : R :=
  let is_pointing_right := Rltb 180 (py_mod (surface_azimuth - axis_azimuth) 360) in
  let rotation := np_where is_pointing_right tilt (- tilt) in
  np_where (Reqb tilt 0) 0 rotation.

(** [_get_solar_2d_vectors], base.py:129-159. *)
Definition get_solar_2d_vector (zenith azimuth axis_azimuth : R) : R * R :=
  (sind zenith * cosd (azimuth - axis_azimuth - 90), cosd zenith).

(** [_coords_from_center_tilt_length], base.py:41-95. *)
Definition coords_from_center_tilt_length (xc yc tilt len surface_azimuth
    axis_azimuth : R) : line :=
  let radius := len / 2 in
  let rotation := get_rotation surface_azimuth axis_azimuth tilt in
  Line (Pt (radius * cosd (rotation + 180) + xc) (radius * sind (rotation + 180) + yc))
       (Pt (radius * cosd rotation + xc) (radius * sind rotation + yc)).

(* ----------------------------------------------------------------- pvrow.py *)

(** [TsPVRow._calculate_full_coords], pvrow.py:96-122. *)
Definition full_coords (xc yc width rotation : R) : line :=
  let radius := width / 2 in
  Line (Pt (radius * cosd (rotation + 180) + xc) (radius * sind (rotation + 180) + yc))
       (Pt (radius * cosd rotation + xc) (radius * sind rotation + yc)).

(** Front normal vector, [TsPVRow.from_raw_inputs], pvrow.py:79-81. *)
Definition normal_vec_front (c : line) : R * R :=
  (- (py (b2 c) - py (b1 c)), px (b2 c) - px (b1 c)).

(** Shading point of [TsSide.from_raw_inputs], pvrow.py:274-291. *)
Definition shading_point (xc yc width rotation shaded_length : R) : pt :=
  let mask_tilted_to_left := Rleb 0 rotation in
  let radius := width / 2 in
  let r_shade := radius - shaded_length in
  Pt (np_where mask_tilted_to_left
        (r_shade * cosd (rotation + 180) + xc) (r_shade * cosd rotation + xc))
     (np_where mask_tilted_to_left
        (r_shade * sind (rotation + 180) + yc) (r_shade * sind rotation + yc)).

(** Body of the loop of [TsSide.from_raw_inputs] for segment [i] of [cut] at one
    timestep, pvrow.py:295-327: (segment coords, illuminated coords, shaded
    coords). *)
Definition segment_coords (xc yc width rotation : R) (cut : nat)
    (shaded_length : R) (i : nat) : line * line * line :=
  let mask_tilted_to_left := Rleb 0 rotation in
  let radius := width / 2 in
  let segment_length := width / INR cut in
  let is_not_flat := negb (Reqb rotation 0) in
  let sh := shading_point xc yc width rotation shaded_length in
  let r1 := radius - INR i * segment_length in
  let r2 := radius - (INR i + 1) * segment_length in
  let p1 := Pt (r1 * cosd (rotation + 180) + xc) (r1 * sind (rotation + 180) + yc) in
  let p2 := Pt (r2 * cosd (rotation + 180) + xc) (r2 * sind (rotation + 180) + yc) in
  let highest := np_where mask_tilted_to_left p2 p1 in
  let lowest := np_where mask_tilted_to_left p1 p2 in
  let mask_all_shaded := Rltb (py highest) (py sh) && is_not_flat in
  let mask_partial_shaded :=
    Rltb (py lowest) (py sh) && negb mask_all_shaded && is_not_flat in
  let sh2 := np_where mask_partial_shaded sh
               (np_where mask_all_shaded highest lowest) in
  (Line p1 p2, Line sh2 highest, Line lowest sh2).

(** [TsSegment], pvrow.py:486-514. *)
Record ts_segment : Type := TsSegment {
  seg_coords : ts line;
  seg_illum : list ts_surface;   (* illuminated collection *)
  seg_shaded : list ts_surface;  (* shaded collection *)
  seg_nvec : ts (R * R)
}.

(** [TsSegment.all_ts_surfaces], pvrow.py:644-647. *)
Definition seg_surfaces (s : ts_segment) : list ts_surface :=
  seg_illum s ++ seg_shaded s.

(** [TsSegment.n_ts_surfaces], pvrow.py:649-652. *)
Definition seg_n_ts_surfaces (s : ts_segment) : nat :=
  (length (seg_illum s) + length (seg_shaded s))%nat.

(** [TsSegment.length], [shaded_length], pvrow.py:576-584. *)
Definition seg_length (s : ts_segment) : ts R :=
  fun t => coll_length (seg_illum s) t + coll_length (seg_shaded s) t.
Definition seg_shaded_length (s : ts_segment) : ts R := coll_length (seg_shaded s).

(** [TsSide], pvrow.py:226-242. *)
Record ts_side : Type := TsSide {
  side_segments : list ts_segment;
  side_nvec : ts (R * R)
}.

(** [TsSide.from_raw_inputs], pvrow.py:244-344. [row] and [is_back] are only used
    to give identities to the new surfaces. *)
Definition side_from_raw_inputs (row : nat) (is_back : bool) (xc yc width : R)
    (rotation : ts R) (cut : nat) (shaded_length : ts R) (nvec : ts (R * R)) : ts_side :=
  TsSide
    (map (fun i =>
        let c t := segment_coords xc yc width (rotation t) cut (shaded_length t) i in
        TsSegment (fun t => fst (fst (c t)))
          [TsSurface (SidRow row is_back i false) (fun t => snd (fst (c t))) nvec false]
          [TsSurface (SidRow row is_back i true) (fun t => snd (c t)) nvec true]
          nvec)
      (seq 0 cut))
    nvec.

(** [TsSide.all_ts_surfaces], pvrow.py:477-483. *)
Definition side_surfaces (s : ts_side) : list ts_surface :=
  flat_map seg_surfaces (side_segments s).

(** [TsSide.n_ts_surfaces], pvrow.py:469-475. *)
Definition side_n_ts_surfaces (s : ts_side) : nat :=
  fold_left Nat.add (map seg_n_ts_surfaces (side_segments s)) 0%nat.

(** [TsSide.shaded_length], pvrow.py:402-408. *)
Definition side_shaded_length (s : ts_side) : ts R :=
  fun t => py_sum (map (fun g => coll_length (seg_shaded g) t) (side_segments s)).

(** [TsSide.length], pvrow.py:410-416. *)
Definition side_length (s : ts_side) : ts R :=
  fun t => py_sum (map (fun g => seg_length g t) (side_segments s)).

(** [TsPVRow], pvrow.py:13-41. *)
Record ts_pvrow : Type := TsPVRow {
  row_xc : R;
  row_yc : R;
  row_coords : ts line;     (* full_pvrow_coords *)
  row_front : ts_side;
  row_back : ts_side
}.

(** [TsPVRow.from_raw_inputs], pvrow.py:43-94. [cut_front] / [cut_back] are
    [cut.get('front', 1)] and [cut.get('back', 1)]. *)
Definition pvrow_from_raw_inputs (index : nat) (xc yc width : R) (rotation : ts R)
    (cut_front cut_back : nat) (sl_front sl_back : ts R) : ts_pvrow :=
  let coords t := full_coords xc yc width (rotation t) in
  let nfront t := normal_vec_front (coords t) in
  let nback t := (- fst (nfront t), - snd (nfront t)) in
  TsPVRow xc yc coords
    (side_from_raw_inputs index false xc yc width rotation cut_front sl_front nfront)
    (side_from_raw_inputs index true xc yc width rotation cut_back sl_back nback).

(** [TsPVRow.all_ts_surfaces], [n_ts_surfaces], [length], pvrow.py:196-216. *)
Definition row_surfaces (r : ts_pvrow) : list ts_surface :=
  side_surfaces (row_front r) ++ side_surfaces (row_back r).
Definition row_n_ts_surfaces (r : ts_pvrow) : nat :=
  (side_n_ts_surfaces (row_front r) + side_n_ts_surfaces (row_back r))%nat.
Definition row_length (r : ts_pvrow) : ts R :=
  fun t => side_length (row_front r) t + side_length (row_back r) t.

(* -------------------------------------------------------------- pvground.py *)

(** [TsGroundElement._coords_right_of_cut_point], pvground.py:936-960. *)
Definition coords_right_of_cut_point (c : line) (cut_x : xr) : line :=
  Line (Pt (max_cut_min_hi (px (b1 c)) cut_x MAX_X_GROUND) (py (b1 c)))
       (Pt (max_cut_min_hi (px (b2 c)) cut_x MAX_X_GROUND) (py (b2 c))).

(** [TsGroundElement._coords_left_of_cut_point], pvground.py:962-986. *)
Definition coords_left_of_cut_point (c : line) (cut_x : xr) : line :=
  Line (Pt (min_cut_max_lo (px (b1 c)) cut_x MIN_X_GROUND) (py (b1 c)))
       (Pt (min_cut_max_lo (px (b2 c)) cut_x MIN_X_GROUND) (py (b2 c))).

(** Coordinates of the surfaces created by [_create_all_ts_surfaces],
    pvground.py:914-932: loop over the cut points, then the right most portion. *)
Fixpoint create_coords (next_coords : ts line) (cut_pts : list (ts xr)) : list (ts line) :=
  match cut_pts with
  | [] => [next_coords]
  | c :: rest =>
      (fun t => coords_left_of_cut_point (next_coords t) (c t))
      :: create_coords (fun t => coords_right_of_cut_point (next_coords t) (c t)) rest
  end.

(** [surface_dict] built by the same loop, pvground.py:909-934: for each cut
    point index, positions (in [surface_list]) of the surfaces on its left / on
    its right, in the order in which they were appended. *)
Definition side_dict : Type := nat -> list nat * list nat.  (* (left, right) *)

Definition dict_append_left (d : side_dict) (i k : nat) : side_dict :=
  fun j => if Nat.eqb j i then (fst (d j) ++ [k], snd (d j)) else d j.
Definition dict_append_right (d : side_dict) (i k : nat) : side_dict :=
  fun j => if Nat.eqb j i then (fst (d j), snd (d j) ++ [k]) else d j.

(** One iteration of the loop for the surface of cut point [idx_pt],
    pvground.py:923-926. *)
Definition dict_step (n_cut_pts : nat) (d : side_dict) (idx_pt : nat) : side_dict :=
  let d1 := fold_left (fun d i => dict_append_left d i idx_pt)
              (seq idx_pt (n_cut_pts - idx_pt)) d in
  fold_left (fun d j => dict_append_right d j idx_pt) (seq 0 idx_pt) d1.

(** The whole of [surface_dict], pvground.py:910-934. *)
Definition create_dict (n_cut_pts : nat) : side_dict :=
  let d := fold_left (dict_step n_cut_pts) (seq 0 n_cut_pts) (fun _ => ([], [])) in
  fold_left (fun d j => dict_append_right d j n_cut_pts) (seq 0 n_cut_pts) d.

(** [TsGroundElement], pvground.py:763-798. [el_dict] maps a cut point index to
    the surfaces (same objects as in [el_surfaces]) on each side. *)
Record ts_ground_element : Type := TsGroundElement {
  el_coords : ts line;
  el_surfaces : list ts_surface;   (* surface_list *)
  el_dict : side_dict;             (* surface_dict *)
  el_shaded : bool
}.

(** [TsGroundElement.__init__] and [_create_all_ts_surfaces], pvground.py:789-798,
    898-934. Ground surfaces have no normal vector (n_vector=None): the constant
    (0,0) stands for it and is never read. No surface is created when there is
    no cut point (pvground.py:796). [mkid k] is the identity of the k-th created
    surface. *)
Definition make_element (mkid : nat -> sid) (shaded : bool) (coords : ts line)
    (cut_pts : list (ts xr)) : ts_ground_element :=
  match cut_pts with
  | [] => TsGroundElement coords [] (fun _ => ([], [])) shaded
  | _ :: _ =>
    let cs := create_coords coords cut_pts in
    TsGroundElement coords
      (map (fun kc => TsSurface (mkid (fst kc)) (snd kc) (fun _ => (0, 0)) shaded)
           (combine (seq 0 (length cs)) cs))
      (create_dict (length cut_pts)) shaded
  end.

(** [TsGround], pvground.py:15-70. *)
Record ts_ground : Type := TsGround {
  gnd_shadows : list ts_ground_element;
  gnd_illum : list ts_ground_element;
  gnd_flag_overlap : ts bool;
  gnd_cut_points : list (ts xr);   (* x coordinates; y is y_ground *)
  gnd_y : R
}.

(** Shadow of a PV row on the ground, ordered left to right, pvground.py:104-119
    ([al] = alpha_vec). *)
Definition shadow_coords (c : line) (al y_ground : R) : xr * xr :=
  let x1s := xsub (px (b1 c)) (div_tan (py (b1 c) - y_ground) al false) in
  let x2s := xsub (px (b2 c)) (div_tan (py (b2 c) - y_ground) al false) in
  let x1s_on_left := xleb x1s x2s in
  (np_where x1s_on_left x1s x2s, np_where x1s_on_left x2s x1s).

(** Cut point of a PV row: where the line of the row meets the ground,
    pvground.py:121-123 (rotation in degrees; a zero rotation is [-0.0],
    base.py:125, so the zero divisor is negative). *)
Definition cut_point (c : line) (rotation y_ground : R) : xr :=
  xsub (px (b1 c)) (div_tan (py (b1 c) - y_ground) (deg2rad rotation) true).

(** Removal of shadow overlaps, pvground.py:161-167: for all shadows but the last
    one, the right end becomes the left end of the next shadow when the overlap
    flag is set. *)
Fixpoint fix_overlaps (flag : ts bool) (l : list (ts (xr * xr))) : list (ts (xr * xr)) :=
  match l with
  | a :: ((b :: _) as rest) =>
      (fun t => (fst (a t), np_where (flag t) (fst (b t)) (snd (a t))))
      :: fix_overlaps flag rest
  | _ => l
  end.

(** Clipping of a shadow to the ground, pvground.py:610-613. *)
Definition clip_shadow (y_ground : R) (s : xr * xr) : line :=
  Line (Pt (xclip (fst s) MIN_X_GROUND MAX_X_GROUND) y_ground)
       (Pt (xclip (snd s) MIN_X_GROUND MAX_X_GROUND) y_ground).

(** [_shadow_elements_from_coords_and_cut_pts], pvground.py:577-619. *)
Definition shadow_elements (y_ground : R) (shadows : list (ts (xr * xr)))
    (cut_pts : list (ts xr)) : list ts_ground_element :=
  map (fun es => make_element (SidShadow (fst es)) true
                   (fun t => clip_shadow y_ground (snd es t)) cut_pts)
      (combine (seq 0 (length shadows)) shadows).

(** Loop of [_illum_elements_from_coords_and_cut_pts], pvground.py:653-677, on the
    coordinates only: gaps between [next_x] and the shadows, then the last gap up
    to MAX_X_GROUND. *)
Fixpoint illum_coords (y_ground : R) (next_x : ts R) (shadows : list (ts line))
    : list (ts line) :=
  match shadows with
  | [] => [fun t => Line (Pt (next_x t) y_ground) (Pt MAX_X_GROUND y_ground)]
  | s :: rest =>
      (fun t => Line (Pt (next_x t) y_ground) (Pt (px (b1 (s t))) y_ground))
      :: illum_coords y_ground (fun t => px (b2 (s t))) rest
  end.

(** [_illum_elements_from_coords_and_cut_pts], pvground.py:621-677. [None] is the
    [PVFactorsError] raised when there is no shadow (line 648-652). *)
Definition illum_elements (y_ground : R) (shadow_els : list ts_ground_element)
    (cut_pts : list (ts xr)) : option (list ts_ground_element) :=
  match shadow_els with
  | [] => None
  | _ :: _ =>
      let cs := illum_coords y_ground (fun _ => MIN_X_GROUND) (map el_coords shadow_els) in
      Some (map (fun es => make_element (SidIllum (fst es)) false (snd es) cut_pts)
                (combine (seq 0 (length cs)) cs))
  end.

(** [TsGround.from_ordered_shadows_coords] with overlap flags,
    pvground.py:131-176. *)
Definition ground_from_ordered_shadows (y_ground : R) (flag_overlap : ts bool)
    (shadows : list (ts (xr * xr))) (cut_pts : list (ts xr)) : option ts_ground :=
  let sh := shadow_elements y_ground (fix_overlaps flag_overlap shadows) cut_pts in
  match illum_elements y_ground sh cut_pts with
  | None => None
  | Some il => Some (TsGround sh il flag_overlap cut_pts y_ground)
  end.

(** [TsGround.from_ts_pvrows_and_angles], pvground.py:72-129. *)
Definition ground_from_pvrows (rows : list (ts line)) (al rotation : ts R)
    (y_ground : R) (flag_overlap : ts bool) : option ts_ground :=
  ground_from_ordered_shadows y_ground flag_overlap
    (map (fun c t => shadow_coords (c t) (al t) y_ground) rows)
    (map (fun c t => cut_point (c t) (rotation t) y_ground) rows).

(** [TsGround.all_ts_surfaces], pvground.py:482-490 (shadows first). *)
Definition gnd_surfaces (g : ts_ground) : list ts_surface :=
  flat_map el_surfaces (gnd_shadows g) ++ flat_map el_surfaces (gnd_illum g).

(** [TsGround.n_ts_surfaces], pvground.py:461-480. *)
Definition gnd_n_ts_surfaces (g : ts_ground) : nat :=
  (fold_left Nat.add (map (fun e => length (el_surfaces e)) (gnd_shadows g)) 0 +
   fold_left Nat.add (map (fun e => length (el_surfaces e)) (gnd_illum g)) 0)%nat.

(** [TsGround.length], [shaded_length], pvground.py:492-508. *)
Definition gnd_shaded_length (g : ts_ground) : ts R :=
  fun t => py_sum (map (fun e => line_length (el_coords e t)) (gnd_shadows g)).
Definition gnd_length (g : ts_ground) : ts R :=
  fun t => py_sum (map (fun e => line_length (el_coords e t)) (gnd_shadows g ++ gnd_illum g)).

(** Surfaces of an element on a side of a cut point: dereference of
    [surface_dict[idx_cut_pt][side]], pvground.py:456,458. *)
Definition el_side (e : ts_ground_element) (left : bool) (idx : nat) : list ts_surface :=
  flat_map (fun k => match nth_error (el_surfaces e) k with Some s => [s] | None => [] end)
    (if left then fst (el_dict e idx) else snd (el_dict e idx)).

(** [TsGround.ts_surfaces_side_of_cut_point], pvground.py:437-459. *)
Definition gnd_side_of_cut_point (g : ts_ground) (left : bool) (idx : nat) : list ts_surface :=
  flat_map (fun e => el_side e left idx) (gnd_shadows g) ++
  flat_map (fun e => el_side e left idx) (gnd_illum g).

(** [TsGround.shadow_coords_left_of_cut_point] / [..right..],
    pvground.py:395-435. *)
Definition shadow_coords_left_of_cut_point (g : ts_ground) (cut : ts xr) : list (ts line) :=
  map (fun e t => coords_left_of_cut_point (el_coords e t) (cut t)) (gnd_shadows g).
Definition shadow_coords_right_of_cut_point (g : ts_ground) (cut : ts xr) : list (ts line) :=
  map (fun e t => coords_right_of_cut_point (el_coords e t) (cut t)) (gnd_shadows g).

(* --------------------------------------------------------------- pvarray.py *)

(** Parameters of [OrderedPVArray.__init__], pvarray.py:21-60. [pa_cut i b] is the
    number of segments of row [i], front ([b = false]) or back ([b = true]):
    [cut.get(i, {}).get(side, 1)]. *)
Record pvarray_params : Type := PVArrayParams {
  pa_axis_azimuth : R;
  pa_gcr : R;
  pa_height : R;
  pa_width : R;
  pa_n_pvrows : nat;
  pa_cut : nat -> bool -> nat
}.

(** [self.distance], pvarray.py:54-56. *)
Definition pa_distance (p : pvarray_params) : R := pa_width p / pa_gcr p.

(** [OrderedPVArray.y_ground], pvarray.py:19. *)
Definition pa_y_ground : R := 0.

(** Intermediate [delta] of [_calculate_interrow_shading], pvarray.py:242-248. *)
Definition interrow_delta (distance al rotation : R) : R :=
  let alpha_deg := rad2deg al in
  let theta_t := 90 - rotation in
  let theta_t_rad := deg2rad theta_t in
  let beta := theta_t + alpha_deg in
  let beta_rad := deg2rad beta in
  distance * (sin theta_t_rad - cos theta_t_rad * tan beta_rad).

(** [_calculate_interrow_shading], pvarray.py:228-263: (front, back) shaded
    lengths. When [cos beta = 0] the float [tan beta] is huge (about 1.6e16) while
    Coq's [tan] is an arbitrary value; theorems exclude this case (sun exactly in
    the plane of the rows). *)
Definition interrow_shading (n_pvrows : nat) (distance width al rotation : R) : R * R :=
  if Nat.ltb 1 n_pvrows then
    let delta := interrow_delta distance al rotation in
    let tmp_front := np_max 0 (width - delta) in
    let tmp_back := np_max 0 (width + delta) in
    (np_where (Rltb width tmp_front) 0 tmp_front,
     np_where (Rltb width tmp_back) 0 tmp_back)
  else (0, 0).

(** [has_direct_shading], pvarray.py:266-268. *)
Definition direct_shading_flag (sl : R * R) : bool :=
  Rltb DISTANCE_TOLERANCE (fst sl) || Rltb DISTANCE_TOLERANCE (snd sl).

(** Shaded lengths of the PV row with a given index, with the special treatment of
    the rows at the edges, pvarray.py:201-220. *)
Definition row_shaded_lengths (n_pvrows idx : nat) (rotation : R) (sl : R * R) : R * R :=
  let tilted_to_left := Rltb 0 rotation in
  if Nat.eqb idx 0 then
    (np_where tilted_to_left 0 (fst sl), np_where tilted_to_left (snd sl) 0)
  else if Nat.eqb idx (n_pvrows - 1) then
    (np_where tilted_to_left (fst sl) 0, np_where tilted_to_left 0 (snd sl))
  else sl.

(** Center of a PV row, pvarray.py:198-200. *)
Definition row_center (p : pvarray_params) (idx : nat) : R * R :=
  (X_ORIGIN_PVROWS + INR idx * pa_distance p, pa_height p + pa_y_ground).

(** Timeseries inputs of [OrderedPVArray.fit], pvarray.py:130-149. *)
Record fit_inputs : Type := FitInputs {
  fi_zenith : ts R;
  fi_azimuth : ts R;
  fi_tilt : ts R;
  fi_surf_azimuth : ts R
}.

(** Rotation vector, pvarray.py:153-156. *)
Definition fit_rotation (p : pvarray_params) (f : fit_inputs) : ts R :=
  fun t => get_rotation (fi_surf_azimuth f t) (pa_axis_azimuth p) (fi_tilt f t).

(** Sun angle [alpha_vec], pvarray.py:159-163. *)
Definition fit_alpha (p : pvarray_params) (f : fit_inputs) : ts R :=
  fun t => let v := get_solar_2d_vector (fi_zenith f t) (fi_azimuth f t) (pa_axis_azimuth p) in
           atan2 (snd v) (fst v).

(** Inter-row shaded lengths for all timesteps, pvarray.py:195,228-263. *)
Definition fit_shading (p : pvarray_params) (al rotation : ts R) : ts (R * R) :=
  fun t => interrow_shading (pa_n_pvrows p) (pa_distance p) (pa_width p) (al t) (rotation t).

(** PV rows, [_calculate_pvrow_elements_coords], pvarray.py:180-226. *)
Definition fit_rows (p : pvarray_params) (al rotation : ts R) : list ts_pvrow :=
  let sl := fit_shading p al rotation in
  map (fun idx =>
         let rs t := row_shaded_lengths (pa_n_pvrows p) idx (rotation t) (sl t) in
         pvrow_from_raw_inputs idx (fst (row_center p idx)) (snd (row_center p idx))
           (pa_width p) rotation (pa_cut p idx false) (pa_cut p idx true)
           (fun t => fst (rs t)) (fun t => snd (rs t)))
      (seq 0 (pa_n_pvrows p)).

(** The fitted array: what [OrderedPVArray.fit] leaves on the object,
    pvarray.py:151-178. *)
Record fitted : Type := Fitted {
  ft_n_states : nat;
  ft_rotation : ts R;
  ft_width : R;
  ft_rows : list ts_pvrow;
  ft_ground : ts_ground
}.

(** [OrderedPVArray.fit] up to the indexing step, pvarray.py:151-175. [None]: the
    error raised when there is no PV row. *)
Definition fit (p : pvarray_params) (n_states : nat) (f : fit_inputs) : option fitted :=
  let rotation := fit_rotation p f in
  let al := fit_alpha p f in
  let rows := fit_rows p al rotation in
  let flag t := direct_shading_flag (fit_shading p al rotation t) in
  match ground_from_pvrows (map row_coords rows) al rotation pa_y_ground flag with
  | None => None
  | Some g => Some (Fitted n_states rotation (pa_width p) rows g)
  end.

(** [BasePVArray.all_ts_surfaces], base.py:1163-1170 (ground first). *)
Definition all_ts_surfaces (a : fitted) : list ts_surface :=
  gnd_surfaces (ft_ground a) ++ flat_map row_surfaces (ft_rows a).

(** [BasePVArray.n_ts_surfaces], base.py:1154-1161. *)
Definition n_ts_surfaces (a : fitted) : nat :=
  fold_left Nat.add (map row_n_ts_surfaces (ft_rows a)) (gnd_n_ts_surfaces (ft_ground a)).

(** [_index_all_ts_surfaces], base.py:1242-1245: write the position in the
    enumeration on each surface object; result: the [index] attribute of each
    object ([None] where never written). *)
Definition index_all (l : list ts_surface) : sid -> option nat :=
  fold_left (fun (m : sid -> option nat) (ks : nat * ts_surface) =>
               fun x => if sid_eq_dec x (s_id (snd ks)) then Some (fst ks) else m x)
            (combine (seq 0 (length l)) l) (fun _ => None).

(** The [index] attribute as used for matrix addressing after [fit]
    (vfmethods.py:47,52). *)
Definition surf_index (a : fitted) (s : ts_surface) : nat :=
  match index_all (all_ts_surfaces a) (s_id s) with Some k => k | None => 0%nat end.
