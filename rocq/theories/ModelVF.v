(** Model of /repo/pvfactors/viewfactors/vfmethods.py and of the non-AOI part of
    /repo/pvfactors/viewfactors/calculator.py (definitions only).

    All the numpy expressions are pointwise in time, so every function below is
    the model at one timestep [t]; the only whole-series test ([is_empty]) keeps
    the number of timesteps [n]. *)
From Coq Require Import Reals List Bool Arith.
From Verif Require Import Num ModelTs ModelGeom.
Import ListNotations.
Open Scope R_scope.

(** [_angle_with_x_axis], vfmethods.py:631-647. *)
Definition angle_with_x_axis (p1 p2 : pt) : R :=
  atan2 (py p2 - py p1) (px p2 - px p1).

(** [_vf_surface_to_surface], vfmethods.py:582-611. *)
Definition vf_surface_to_surface (line_1 line_2 : line) (width_1 : R) : R :=
  let length_1 := distance (b1 line_1) (b1 line_2) in
  let length_2 := distance (b2 line_1) (b2 line_2) in
  let length_3 := distance (b1 line_1) (b2 line_2) in
  let length_4 := distance (b2 line_1) (b1 line_2) in
  let sum_1 := length_1 + length_2 in
  let sum_2 := length_3 + length_4 in
  np_where (Rltb DISTANCE_TOLERANCE width_1)
    (Rabs (sum_2 - sum_1) / (2 * width_1)) 0.

(** [_hottel_string_length], vfmethods.py:537-580, with an obstruction point (the
    branch [pt_obstr is None] of line 563 has no caller). *)
Definition hottel_string_length (pt_pv pt_gnd pt_obstr : pt) (shadow_is_left : bool) : R :=
  let l_pv := distance pt_pv pt_gnd in
  let alpha_pv := angle_with_x_axis pt_gnd pt_pv in
  let alpha_ob := angle_with_x_axis pt_gnd pt_obstr in
  let is_obstructing :=
    if shadow_is_left then Rltb alpha_ob alpha_pv else Rltb alpha_pv alpha_ob in
  let l_obstr := distance pt_gnd pt_obstr + distance pt_obstr pt_pv in
  np_where is_obstructing l_obstr l_pv.

(** [_vf_hottel_gnd_surf], vfmethods.py:473-535. *)
Definition vf_hottel_gnd_surf (high_pt_pv low_pt_pv left_pt_gnd right_pt_gnd obstr_pt : pt)
    (width : R) (shadow_is_left : bool) : R :=
  let S p g := hottel_string_length p g obstr_pt shadow_is_left in
  let l1 := if shadow_is_left then S high_pt_pv left_pt_gnd else S high_pt_pv right_pt_gnd in
  let l2 := if shadow_is_left then S low_pt_pv right_pt_gnd else S low_pt_pv left_pt_gnd in
  let d1 := if shadow_is_left then S high_pt_pv right_pt_gnd else S high_pt_pv left_pt_gnd in
  let d2 := if shadow_is_left then S low_pt_pv left_pt_gnd else S low_pt_pv right_pt_gnd in
  let vf_1_to_2 := (d1 + d2 - l1 - l2) / (2 * width) in
  np_where (Rltb DISTANCE_TOLERANCE width) vf_1_to_2 0.

(** Dummy row, default of [nth]: list accesses below are always in range. *)
Definition dummy_row : ts_pvrow :=
  TsPVRow 0 0 (fun _ => Line (Pt 0 0) (Pt 0 0))
    (TsSide [] (fun _ => (0, 0))) (TsSide [] (fun _ => (0, 0))).

(** [full_pvrow_coords.lowest_point] of the row with index [i]
    (vfmethods.py:159-160, 374, 390, 446, 460). *)
Definition row_lowest_pt (rows : list ts_pvrow) (i t : nat) : pt :=
  lowest_point (row_coords (nth i rows dummy_row) t).

(** [vf_pvrow_surf_to_gnd_surf_obstruction_hottel], vfmethods.py:105-183: (view
    factor pvrow to ground, view factor ground to pvrow). *)
Definition vf_pvrow_surf_to_gnd_surf (rows : list ts_pvrow) (tilted_to_left : bool)
    (pvrow_idx : nat) (is_back is_left : bool) (t : nat)
    (pvrow_surf gnd_surf : ts_surface) : R * R :=
  let n_pvrows := length rows in
  let pvrow_surf_length := s_length pvrow_surf t in
  let low := s_lowest pvrow_surf t in
  let high := s_highest pvrow_surf t in
  let no_obstruction :=
    (is_left && Nat.eqb pvrow_idx 0)
    || (negb is_left && Nat.eqb pvrow_idx (n_pvrows - 1)) in
  let vf0 :=
    if no_obstruction then
      vf_surface_to_surface (s_coords pvrow_surf t) (s_coords gnd_surf t) pvrow_surf_length
    else
      let idx_obstructing := if is_left then (pvrow_idx - 1)%nat else (pvrow_idx + 1)%nat in
      let pt_obstr := row_lowest_pt rows idx_obstructing t in
      vf_hottel_gnd_surf high low (b1 (s_coords gnd_surf t)) (b2 (s_coords gnd_surf t))
        pt_obstr pvrow_surf_length is_left in
  let vf_pvrow_to_gnd :=
    if is_left then
      (if is_back then np_where tilted_to_left 0 vf0 else np_where tilted_to_left vf0 0)
    else
      (if is_back then np_where tilted_to_left vf0 0 else np_where tilted_to_left 0 vf0) in
  let gnd_surf_length := s_length gnd_surf t in
  let vf_gnd_to_pvrow :=
    np_where (Rltb DISTANCE_TOLERANCE gnd_surf_length)
      (vf_pvrow_to_gnd * pvrow_surf_length / gnd_surf_length) 0 in
  (vf_pvrow_to_gnd, vf_gnd_to_pvrow).

(** View factor matrix at one timestep, and the in-place write
    [vf_matrix[i, j, :] = v] (vfmethods.py:58-59). *)
Definition matrix : Type := nat -> nat -> R.
Definition mset (M : matrix) (i j : nat) (v : R) : matrix :=
  fun a b => if Nat.eqb a i && Nat.eqb b j then v else M a b.

(** Writes of the two view factors between [x] and [y], vfmethods.py:58-59 and
    223-224. *)
Definition mset2 (idx : ts_surface -> nat) (x y : ts_surface) (v : R * R) (M : matrix) : matrix :=
  mset (mset M (idx x) (idx y) (fst v)) (idx y) (idx x) (snd v).

(** Double loop [for x in xs: if x.is_empty: continue; for y in ys: if y.is_empty:
    continue; ...], vfmethods.py:42-59 (and 60-71, 74-103, 205-224, 227-246). *)
Definition loop_pairs (n : nat) (idx : ts_surface -> nat) (xs ys : list ts_surface)
    (vf : ts_surface -> ts_surface -> R * R) (M : matrix) : matrix :=
  fold_left
    (fun M x =>
       if is_empty n x then M
       else fold_left (fun M y => if is_empty n y then M else mset2 idx x y (vf x y) M) ys M)
    xs M.

(** Same loop with two inner loops (left then right ground surfaces),
    vfmethods.py:42-71 and 74-103. *)
Definition loop_gnd (n : nat) (idx : ts_surface -> nat) (xs ls rs : list ts_surface)
    (vfl vfr : ts_surface -> ts_surface -> R * R) (M : matrix) : matrix :=
  fold_left
    (fun M x =>
       if is_empty n x then M
       else
         let M1 := fold_left (fun M y => if is_empty n y then M else mset2 idx x y (vfl x y) M) ls M in
         fold_left (fun M y => if is_empty n y then M else mset2 idx x y (vfr x y) M) rs M1)
    xs M.

(** [vf_pvrow_gnd_surf], vfmethods.py:14-103, at timestep [t]. *)
Definition vf_pvrow_gnd_surf (n : nat) (idx : ts_surface -> nat) (rows : list ts_pvrow)
    (g : ts_ground) (tilted_to_left : bool) (t : nat) (M : matrix) : matrix :=
  fold_left
    (fun M (ir : nat * ts_pvrow) =>
       let (i, row) := ir in
       let ls := gnd_side_of_cut_point g true i in
       let rs := gnd_side_of_cut_point g false i in
       let vf is_back is_left := vf_pvrow_surf_to_gnd_surf rows tilted_to_left i is_back is_left t in
       let M1 := loop_gnd n idx (side_surfaces (row_front row)) ls rs
                   (vf false true) (vf false false) M in
       loop_gnd n idx (side_surfaces (row_back row)) ls rs
         (vf true true) (vf true false) M1)
    (combine (seq 0 (length rows)) rows) M.

(** Body of the loops of [vf_pvrow_to_pvrow], vfmethods.py:215-222 and 237-244:
    [facing] tells whether the two sides face each other at this timestep. *)
Definition vf_pvrow_pair (facing : bool) (t : nat) (si sj : ts_surface) : R * R :=
  let length_i := s_length si t in
  let length_j := s_length sj t in
  let v := vf_surface_to_surface (s_coords si t) (s_coords sj t) length_i in
  let vf_i_to_j := np_where facing v 0 in
  let vf_j_to_i := np_where (Rltb DISTANCE_TOLERANCE length_j)
                     (vf_i_to_j * length_i / length_j) 0 in
  (vf_i_to_j, vf_j_to_i).

(** [vf_pvrow_to_pvrow], vfmethods.py:185-246, at timestep [t]. *)
Definition vf_pvrow_to_pvrow (n : nat) (idx : ts_surface -> nat) (rows : list ts_pvrow)
    (tilted_to_left : bool) (t : nat) (M : matrix) : matrix :=
  fold_left
    (fun M (ir : nat * ts_pvrow) =>
       let (i, row) := ir in
       let right_row := nth (i + 1) rows dummy_row in
       let M1 := loop_pairs n idx (side_surfaces (row_front row))
                   (side_surfaces (row_back right_row))
                   (vf_pvrow_pair (negb tilted_to_left) t) M in
       loop_pairs n idx (side_surfaces (row_back row))
         (side_surfaces (row_front right_row))
         (vf_pvrow_pair tilted_to_left t) M1)
    (combine (seq 0 (length rows - 1)) (removelast rows)) M.

(** Sky column, calculator.py:103-104: [vf_matrix[:-1, -1] = 1 - sum(vf_matrix[:-1,
    :-1], axis=1)], with [ns] surfaces (the sky has index [ns]). *)
Definition set_sky_column (ns : nat) (M : matrix) : matrix :=
  fun a b => if Nat.ltb a ns && Nat.eqb b ns then 1 - np_sum ns (fun j => M a j) else M a b.

(** Loop setting the sky view factor of zero-length surfaces to zero,
    calculator.py:107-109. *)
Definition clear_sky_of_points (ns t : nat) (surfs : list ts_surface) (M : matrix) : matrix :=
  fold_left
    (fun (M : matrix) (is : nat * ts_surface) =>
       let (i, s) := is in
       mset M i ns (np_where (Rltb DISTANCE_TOLERANCE (s_length s t)) (M i ns) 0))
    (combine (seq 0 (length surfs)) surfs) M.

(** [VFCalculator.build_ts_vf_matrix], calculator.py:69-114, at timestep [t]. *)
Definition build_vf_matrix (a : fitted) (t : nat) : matrix :=
  let idx := surf_index a in
  let n := ft_n_states a in
  let tilted_to_left := Rltb 0 (ft_rotation a t) in
  let ns := n_ts_surfaces a in
  let M0 : matrix := fun _ _ => 0 in
  let M1 := vf_pvrow_gnd_surf n idx (ft_rows a) (ft_ground a) tilted_to_left t M0 in
  let M2 := vf_pvrow_to_pvrow n idx (ft_rows a) tilted_to_left t M1 in
  clear_sky_of_points ns t (all_ts_surfaces a) (set_sky_column ns M2).

(* ---------------------------------------------------------------- fast mode *)

(** [_create_shaded_side_coords], vfmethods.py:649-696. *)
Definition create_shaded_side_coords (xc yc width shaded_length : R)
    (mask_tilted_to_left : bool) (rotation : R) (side_lowest_pt : pt) : line :=
  let radius := width / 2 in
  let r_shade := radius - shaded_length in
  Line (Pt (np_where mask_tilted_to_left
              (r_shade * cosd (rotation + 180) + xc) (r_shade * cosd rotation + xc))
           (np_where mask_tilted_to_left
              (r_shade * sind (rotation + 180) + yc) (r_shade * sind rotation + yc)))
       side_lowest_pt.

(** [calculate_vf_to_pvrow], vfmethods.py:248-325: (total, shaded). *)
Definition calculate_vf_to_pvrow (rows : list ts_pvrow) (c : line) (pvrow_idx : nat)
    (el_length : R) (tilted_to_left : bool) (pvrow_width rotation : R) (t : nat) : R * R :=
  let n_pvrows := length rows in
  let to_row j :=
    let r := nth j rows dummy_row in
    let shaded := create_shaded_side_coords (row_xc r) (row_yc r) pvrow_width
                    (side_shaded_length (row_front r) t) tilted_to_left rotation
                    (lowest_point (row_coords r t)) in
    (vf_surface_to_surface c (row_coords r t) el_length,
     vf_surface_to_surface c shaded el_length) in
  let left := if Nat.eqb pvrow_idx 0 then (0, 0) else to_row (pvrow_idx - 1)%nat in
  let right := if Nat.eqb pvrow_idx (n_pvrows - 1) then (0, 0) else to_row (pvrow_idx + 1)%nat in
  (np_where tilted_to_left (fst right) (fst left),
   np_where tilted_to_left (snd right) (snd left)).

(** [np.minimum(MAX_X_GROUND, c)] / [np.maximum(MIN_X_GROUND, c)] on a cut point,
    vfmethods.py:367,382. An infinite result means a ground edge at infinity:
    [None] (the float code then computes with infinite distances). *)
Definition min_with_cut (x : R) (c : xr) : option R :=
  match c with XFin r => Some (np_min x r) | XPInf => Some x | _ => None end.
Definition max_with_cut (x : R) (c : xr) : option R :=
  match c with XFin r => Some (np_max x r) | XNInf => Some x | _ => None end.

(** [calculate_vf_to_gnd], vfmethods.py:327-398. [None]: an infinite ground edge
    (distances are [inf] or [nan] in the code) on the side that is used. *)
Definition calculate_vf_to_gnd (rows : list ts_pvrow) (c : line) (pvrow_idx : nat)
    (y_ground : R) (cut : xr) (el_length : R) (tilted_to_left : bool) (t : nat) : option R :=
  let n_pvrows := length rows in
  let pvrow_lowest_pt := row_lowest_pt rows pvrow_idx t in
  let vf_left :=
    if Nat.eqb pvrow_idx 0 then
      match min_with_cut MAX_X_GROUND cut with
      | Some x => Some (vf_surface_to_surface c
                    (Line (Pt MIN_X_GROUND y_ground) (Pt x y_ground)) el_length)
      | None => None
      end
    else Some (vf_surface_to_surface c
                 (Line (row_lowest_pt rows (pvrow_idx - 1) t) pvrow_lowest_pt) el_length) in
  let vf_right :=
    if Nat.eqb pvrow_idx (n_pvrows - 1) then
      match max_with_cut MIN_X_GROUND cut with
      | Some x => Some (vf_surface_to_surface c
                    (Line (Pt x y_ground) (Pt MAX_X_GROUND y_ground)) el_length)
      | None => None
      end
    else Some (vf_surface_to_surface c
                 (Line pvrow_lowest_pt (row_lowest_pt rows (pvrow_idx + 1) t)) el_length) in
  np_where tilted_to_left vf_right vf_left.

(** [calculate_vf_to_shadow_obstruction_hottel], vfmethods.py:400-471; [c] are
    the coordinates of the pvrow element. *)
Definition calculate_vf_to_shadow (rows : list ts_pvrow) (c : line) (pvrow_idx : nat)
    (tilted_to_left : bool) (shadow_left shadow_right : line) (el_length : R) (t : nat) : R :=
  let n_shadows := length rows in
  let low := lowest_point c in
  let high := highest_point c in
  let vf_left :=
    if Nat.eqb pvrow_idx 0 then vf_surface_to_surface c shadow_left el_length
    else vf_hottel_gnd_surf high low (b1 shadow_left) (b2 shadow_left)
           (row_lowest_pt rows (pvrow_idx - 1) t) el_length true in
  let vf_right :=
    if Nat.eqb pvrow_idx (n_shadows - 1) then vf_surface_to_surface c shadow_right el_length
    else vf_hottel_gnd_surf high low (b1 shadow_right) (b2 shadow_right)
           (row_lowest_pt rows (pvrow_idx + 1) t) el_length false in
  np_where tilted_to_left vf_right vf_left.

(** The dictionary returned by [get_vf_ts_pvrow_element], calculator.py:263-275. *)
Record fast_vf : Type := FastVF {
  to_each_gnd_shadow : list R;
  to_gnd_shaded : R;
  to_gnd_illum : R;
  to_gnd_total : R;
  to_pvrow_total : R;
  to_pvrow_shaded : R;
  to_pvrow_illum : R;
  to_sky : R
}.

(** Default of [nth] for cut points: accesses are in range. *)
Definition dummy_cut : ts xr := fun _ => XNaN.

(** [VFCalculator.get_vf_ts_pvrow_element], calculator.py:183-275, at timestep [t],
    for an element with coordinates [el]. *)
Definition get_vf_ts_pvrow_element (pvrow_idx : nat) (el : ts line) (rows : list ts_pvrow)
    (g : ts_ground) (rotation : ts R) (pvrow_width : R) (t : nat) : option fast_vf :=
  let tilted_to_left := Rltb 0 (rotation t) in
  let c := el t in
  let el_length := line_length c in
  let cut := nth pvrow_idx (gnd_cut_points g) dummy_cut in
  let lefts := shadow_coords_left_of_cut_point g cut in
  let rights := shadow_coords_right_of_cut_point g cut in
  let each := map (fun lr => calculate_vf_to_shadow rows c pvrow_idx tilted_to_left
                                (fst lr t) (snd lr t) el_length t) (combine lefts rights) in
  let vf_shaded_gnd := py_sum each in
  match calculate_vf_to_gnd rows c pvrow_idx (gnd_y g) (cut t) el_length tilted_to_left t with
  | None => None
  | Some vf_gnd_total =>
    let vp := calculate_vf_to_pvrow rows c pvrow_idx el_length tilted_to_left
                pvrow_width (rotation t) t in
    Some (FastVF each vf_shaded_gnd (vf_gnd_total - vf_shaded_gnd) vf_gnd_total
            (fst vp) (snd vp) (fst vp - snd vp)
            (1 - vf_gnd_total - fst vp))
  end.
