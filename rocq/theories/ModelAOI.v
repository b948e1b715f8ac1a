(** Model of /repo/pvfactors/viewfactors/aoimethods.py and of
    [VFCalculator.build_ts_vf_aoi_matrix], /repo/pvfactors/viewfactors/calculator.py
    (definitions only). As in ModelVF.v, functions are given at one timestep. *)
From Coq Require Import Reals List Bool Arith String.
From Verif Require Import Num ModelTs ModelGeom ModelVF ModelParams.
Import ListNotations.
Open Scope R_scope.

(** [AOIMethods.__init__], aoimethods.py:16-50. The fAOI functions are modelled as
    functions of one angle: the code calls them on arrays, and is only correct if
    they work element by element. *)
Record aoi_methods : Type := AOIMethods {
  am_front : R -> R;
  am_back : R -> R;
  am_n : nat             (* n_integral_sections *)
}.

(** [_vf], aoimethods.py:575-594. *)
Definition aoi_vf (aoi_1 aoi_2 : R) : R := 1 / 2 * Rabs (cosd aoi_1 - cosd aoi_2).

(** [np.linspace(0., 180., num=n + 1)], aoimethods.py:62, 629: k-th value. *)
Definition aoi_angles (n k : nat) : R := INR k * (180 / INR n).

(** Width, low end, high end and middle of the integral sections,
    aoimethods.py:63-68, 631-635. *)
Definition aoi_interval (n : nat) : R := aoi_angles n 1 - aoi_angles n 0.
Definition section_low (n k : nat) : R := aoi_angles n k.
Definition section_high (n k : nat) : R := section_low n k + aoi_interval n.
Definition section_middle (n k : nat) : R := section_low n k + aoi_interval n / 2.

(** Attributes written by [fit], aoimethods.py:77-82. The rows of the tiled arrays
    are all equal: one row is kept. *)
Record aoi_fitted : Type := AOIFitted {
  af_n : nat;
  af_low : nat -> R;
  af_high : nat -> R;
  af_integrand_front : nat -> R;
  af_integrand_back : nat -> R
}.

(** [AOIMethods.fit], aoimethods.py:52-82. With no section, [aoi_angles[1]] raises
    [IndexError] (line 64). *)
Definition aoi_fit (m : aoi_methods) : result aoi_fitted :=
  let n := am_n m in
  if Nat.eqb n 0 then Err IndexError
  else
    let vf k := aoi_vf (section_low n k) (section_high n k) in
    Ok (AOIFitted n (section_low n) (section_high n)
          (fun k => am_front m (section_middle n k) * vf k)
          (fun k => am_back m (section_middle n k) * vf k)).

(** [rho_from_faoi_fn], aoimethods.py:614-644. *)
Definition rho_from_faoi_fn (m : aoi_methods) (is_back : bool) : result R :=
  let n := am_n m in
  if Nat.eqb n 0 then Err IndexError
  else
    let f := if is_back then am_back m else am_front m in
    Ok (1 - np_sum n (fun k => f (section_middle n k)
                               * aoi_vf (section_low n k) (section_high n k))).

(** [np.clip(cos_theta, -1., 1.)], aoimethods.py:570. *)
Definition clip1 (x : R) : R := np_min (np_max x (-1)) 1.

(** [_calculate_aoi_angles], aoimethods.py:542-572 ([np.linalg.norm] of a vector of
    two components). *)
Definition calculate_aoi_angle (u : R * R) (centroid p : pt) : R :=
  let v := (px p - px centroid, py p - py centroid) in
  let dot := fst u * fst v + snd u * snd v in
  let u_norm := sqrt (fst u ^ 2 + snd u ^ 2) in
  let v_norm := sqrt (fst v ^ 2 + snd v ^ 2) in
  rad2deg (acos (clip1 (fdiv dot (u_norm * v_norm)))).

(** [_calculate_vfaoi_integrand], aoimethods.py:502-540: value for section [k]. *)
Definition vfaoi_integrand (af : aoi_fitted) (low high : R) (is_back : bool) (k : nat) : R :=
  let include := Rleb low (af_high af k) && Rltb (af_low af k) high in
  if is_back then np_where include (af_integrand_back af k) 0
  else np_where include (af_integrand_front af k) 0.

(** [_calculate_vf_aoi_wedge_level], aoimethods.py:468-500. *)
Definition vf_aoi_wedge (af : aoi_fitted) (low high : R) (is_back : bool) : R :=
  let total := np_sum (af_n af) (vfaoi_integrand af low high is_back) in
  np_where (Rltb (Rabs (high - low)) DISTANCE_TOLERANCE) 0 total.

(** Low and high angles, then wedge: aoimethods.py:315-322 and 397-402. *)
Definition vf_aoi_between (af : aoi_fitted) (a1 a2 : R) (is_back : bool) : R :=
  vf_aoi_wedge af (np_where (Rltb a1 a2) a1 a2) (np_where (Rltb a1 a2) a2 a1) is_back.

(** [surf_2.is_empty] for a surface given by its coordinates, timeseries.py:252-256. *)
Definition coords_empty (n : nat) (c : ts line) : bool :=
  Rltb (np_sum n (fun t => line_length (c t))) DISTANCE_TOLERANCE.

(** [_vf_aoi_surface_to_surface], aoimethods.py:278-328, at timestep [t]; surface 2
    is given by its coordinates. *)
Definition vf_aoi_surface_to_surface (n : nat) (af : aoi_fitted) (s1 : ts_surface)
    (c2 : ts line) (is_back : bool) (t : nat) : R :=
  if is_empty n s1 || coords_empty n c2 then 0
  else
    let a1 := calculate_aoi_angle (s_uvec s1 t) (s_centroid s1 t) (b1 (c2 t)) in
    let a2 := calculate_aoi_angle (s_uvec s1 t) (s_centroid s1 t) (b2 (c2 t)) in
    np_where (Rltb (s_length s1 t) DISTANCE_TOLERANCE
              || Rltb (line_length (c2 t)) DISTANCE_TOLERANCE) 0
      (vf_aoi_between af a1 a2 is_back).

(** [_calculate_aoi_angles_w_obstruction], aoimethods.py:420-466 (always called with
    an obstructing point). *)
Definition aoi_angle_w_obstruction (u : R * R) (centroid point_gnd point_obstr : pt)
    (gnd_surf_is_left : bool) : R :=
  let alpha_pv := angle_with_x_axis point_gnd centroid in
  let alpha_ob := angle_with_x_axis point_gnd point_obstr in
  let is_obstructing :=
    if gnd_surf_is_left then Rltb alpha_ob alpha_pv else Rltb alpha_pv alpha_ob in
  calculate_aoi_angle u centroid
    (Pt (np_where is_obstructing (px point_obstr) (px point_gnd))
        (np_where is_obstructing (py point_obstr) (py point_gnd))).

(** [_vf_aoi_pvrow_surf_to_gnd_surf_obstruction], aoimethods.py:330-418, at
    timestep [t]. *)
Definition vf_aoi_pvrow_surf_to_gnd_surf (n : nat) (af : aoi_fitted) (rows : list ts_pvrow)
    (tilted_to_left : bool) (pvrow_idx : nat) (is_back is_left : bool) (t : nat)
    (pvrow_surf gnd_surf : ts_surface) : R :=
  if is_empty n pvrow_surf || is_empty n gnd_surf then 0
  else
    let n_pvrows := List.length rows in
    let centroid := s_centroid pvrow_surf t in
    let u := s_uvec pvrow_surf t in
    let g1 := b1 (s_coords gnd_surf t) in
    let g2 := b2 (s_coords gnd_surf t) in
    let no_obstruction :=
      (is_left && Nat.eqb pvrow_idx 0)
      || (negb is_left && Nat.eqb pvrow_idx (n_pvrows - 1)) in
    let pt_obstr := row_lowest_pt rows
                      (if is_left then (pvrow_idx - 1)%nat else (pvrow_idx + 1)%nat) t in
    let angle g := if no_obstruction then calculate_aoi_angle u centroid g
                   else aoi_angle_w_obstruction u centroid g pt_obstr is_left in
    let raw := np_where (Rltb (s_length pvrow_surf t) DISTANCE_TOLERANCE
                         || Rltb (s_length gnd_surf t) DISTANCE_TOLERANCE) 0
                 (vf_aoi_between af (angle g1) (angle g2) is_back) in
    if is_left then
      (if is_back then np_where tilted_to_left 0 raw else np_where tilted_to_left raw 0)
    else
      (if is_back then np_where tilted_to_left raw 0 else np_where tilted_to_left 0 raw).

(** Loop over the surfaces of a side with two inner loops (left then right ground
    surfaces), aoimethods.py:238-255 and 258-276. *)
Definition loop_write_gnd (idx : ts_surface -> nat) (xs ls rs : list ts_surface)
    (vl vr : ts_surface -> ts_surface -> R) (M : matrix) : matrix :=
  fold_left (fun M x =>
      let M1 := fold_left (fun M y => mset M (idx x) (idx y) (vl x y)) ls M in
      fold_left (fun M y => mset M (idx x) (idx y) (vr x y)) rs M1) xs M.

(** [vf_aoi_pvrow_to_gnd], aoimethods.py:205-276, at timestep [t]. *)
Definition vf_aoi_pvrow_to_gnd (n : nat) (af : aoi_fitted) (idx : ts_surface -> nat)
    (rows : list ts_pvrow) (g : ts_ground) (tilted_to_left : bool) (t : nat) (M : matrix)
    : matrix :=
  fold_left (fun M (ir : nat * ts_pvrow) =>
      let (i, row) := ir in
      let ls := gnd_side_of_cut_point g true i in
      let rs := gnd_side_of_cut_point g false i in
      let v is_back is_left :=
        vf_aoi_pvrow_surf_to_gnd_surf n af rows tilted_to_left i is_back is_left t in
      let M1 := loop_write_gnd idx (side_surfaces (row_front row)) ls rs
                  (v false true) (v false false) M in
      loop_write_gnd idx (side_surfaces (row_back row)) ls rs (v true true) (v true false) M1)
    (combine (seq 0 (List.length rows)) rows) M.

(** One pair of loops of [vf_aoi_pvrow_to_pvrow], aoimethods.py:171-186 and 189-203:
    [back_i] tells on which side the surfaces [i] are ([j] are on the other side). *)
Definition loop_aoi_pairs (n : nat) (af : aoi_fitted) (idx : ts_surface -> nat)
    (xs ys : list ts_surface) (back_i facing : bool) (t : nat) (M : matrix) : matrix :=
  fold_left (fun M x => fold_left (fun M y =>
      let vij := np_where facing (vf_aoi_surface_to_surface n af x (s_coords y) back_i t) 0 in
      let vji := np_where facing
                   (vf_aoi_surface_to_surface n af y (s_coords x) (negb back_i) t) 0 in
      mset2 idx x y (vij, vji) M) ys M) xs M.

(** [vf_aoi_pvrow_to_pvrow], aoimethods.py:151-203, at timestep [t]. *)
Definition vf_aoi_pvrow_to_pvrow (n : nat) (af : aoi_fitted) (idx : ts_surface -> nat)
    (rows : list ts_pvrow) (tilted_to_left : bool) (t : nat) (M : matrix) : matrix :=
  fold_left (fun M (ir : nat * ts_pvrow) =>
      let (i, row) := ir in
      let right_row := nth (i + 1) rows dummy_row in
      let M1 := loop_aoi_pairs n af idx (side_surfaces (row_front row))
                  (side_surfaces (row_back right_row)) false (negb tilted_to_left) t M in
      loop_aoi_pairs n af idx (side_surfaces (row_back row))
        (side_surfaces (row_front right_row)) true tilted_to_left t M1)
    (combine (seq 0 (List.length rows - 1)) (removelast rows)) M.

(** [ts_pvrow.highest_point], pvrow.py:218-223. *)
Definition row_highest_pt (rows : list ts_pvrow) (i t : nat) : pt :=
  highest_point (row_coords (nth i rows dummy_row) t).

(** k-th element of [dummy_sky_surfaces], aoimethods.py:105-127: open area on the
    left of the first row, areas between rows, open area on the right of the last
    row. *)
Definition dummy_sky (rows : list ts_pvrow) (y_ground : R) (k : nat) : ts line :=
  fun t =>
    if Nat.eqb k 0 then Line (Pt MIN_X_GROUND y_ground) (row_highest_pt rows 0 t)
    else if Nat.ltb k (List.length rows) then
      Line (row_highest_pt rows (k - 1) t) (row_highest_pt rows k t)
    else Line (row_highest_pt rows (List.length rows - 1) t) (Pt MAX_X_GROUND y_ground).

(** [vf_aoi_pvrow_to_sky], aoimethods.py:84-149, at timestep [t]; [sky] is the index
    of the sky. *)
Definition vf_aoi_pvrow_to_sky (n : nat) (af : aoi_fitted) (idx : ts_surface -> nat)
    (sky : nat) (rows : list ts_pvrow) (g : ts_ground) (tilted_to_left : bool) (t : nat)
    (M : matrix) : matrix :=
  fold_left (fun M (ir : nat * ts_pvrow) =>
      let (i, row) := ir in
      let left := dummy_sky rows (gnd_y g) i in
      let right := dummy_sky rows (gnd_y g) (i + 1) in
      let v is_back s c := vf_aoi_surface_to_surface n af s c is_back t in
      let M1 := fold_left (fun M s =>
          mset M (idx s) sky (np_where tilted_to_left (v false s left) (v false s right)))
        (side_surfaces (row_front row)) M in
      fold_left (fun M s =>
          mset M (idx s) sky (np_where tilted_to_left (v true s right) (v true s left)))
        (side_surfaces (row_back row)) M1)
    (combine (seq 0 (List.length rows)) rows) M.

(** In place update of the matrix with the AOI methods,
    calculator.py:166-176, at timestep [t]. *)
Definition aoi_update (af : aoi_fitted) (a : fitted) (t : nat) (M : matrix) : matrix :=
  let n := ft_n_states a in
  let idx := surf_index a in
  let tl := Rltb 0 (ft_rotation a t) in
  let M1 := vf_aoi_pvrow_to_gnd n af idx (ft_rows a) (ft_ground a) tl t M in
  let M2 := vf_aoi_pvrow_to_pvrow n af idx (ft_rows a) tl t M1 in
  vf_aoi_pvrow_to_sky n af idx (n_ts_surfaces a) (ft_rows a) (ft_ground a) tl t M2.

(** Without AOI methods: [(1. - rho_mat) * vf_aoi_matrix], calculator.py:161-164, with
    [rho_mat[i, j] = rho[i]] (engine.py:239). *)
Definition diffuse_aoi (rho : nat -> R) (M : matrix) : matrix :=
  fun i j => (1 - rho i) * M i j.

(** [fn] returned by [faoi_fn_from_pvlib_sandia], aoimethods.py:668-686, for one
    angle; [sapm] is [pvlib.iam.sapm(_, pvmodule, upper=1.)]. *)
Definition sandia_faoi (sapm : R -> R) (angle : R) : R :=
  sapm (np_where (Rleb 90 angle) (angle - 90) (90 - angle)).
