(** Model of the geometry built for one timestep from the timeseries objects: the [at]
    methods of /repo/pvfactors/geometry/{timeseries,pvrow,pvground}.py (definitions
    only). *)
From Coq Require Import Reals List Bool Arith String.
From Verif Require Import Num ModelTs ModelGeom ModelVF ModelParams ModelShapely.
Import ListNotations.
Open Scope R_scope.
Open Scope list_scope.

(** [_get_params_at_idx], timeseries.py:400-423: a vector is indexed; [None] and the
    dictionary of view factors are kept as they are. *)
Definition params_at (p : params) (idx : nat) : sparams :=
  fun k => match p k with
           | None => None
           | Some PNone => Some SNone
           | Some (PArr a) => Some (SNum (a idx))
           | Some (PVF v) => Some (SVF v)
           end.

(** Normal vector handed over by [TsSurface.at], timeseries.py:162-163: ground surfaces
    have none (pvground.py:920-921, 930-931). *)
Definition nvec_at (s : ts_surface) (idx : nat) : option (R * R) :=
  match s_id s with
  | SidRow _ _ _ _ => Some (s_nvec s idx)
  | _ => None
  end.

(** What the snapshots read besides the coordinates: names of the parameters of the
    surfaces, values of the parameters, indices of the surfaces (pvarray.py:455-460). *)
Record snap_env : Type := SnapEnv {
  sn_names : list string;
  sn_store : pstore;
  sn_index : ts_surface -> option nat
}.

(** The same for a fitted array, whose surfaces are all indexed. *)
Definition fitted_env (names : list string) (st : pstore) (a : fitted) : snap_env :=
  SnapEnv names st (fun s => Some (surf_index a s)).

(** [TsSurface.at], timeseries.py:143-172; [None] is the empty geometry. *)
Definition surface_at (e : snap_env) (s : ts_surface) (idx : nat) : result (option pv_surface) :=
  if Rltb (s_length s idx) DISTANCE_TOLERANCE then Ok None
  else
    do r <- pvsurface_init (s_coords s idx) (nvec_at s idx) (s_shaded s) (sn_index e s)
              (sn_names e) (Some (params_at (ps_surf (sn_store e) (s_id s)) idx));
    Ok (Some r).

(** List comprehension over the surfaces that keeps those that are not empty,
    timeseries.py:107-108. *)
Fixpoint surfaces_at (e : snap_env) (l : list ts_surface) (idx : nat) : result (list pv_surface) :=
  match l with
  | [] => Ok []
  | s :: r => do x <- surface_at e s idx;
              do xs <- surfaces_at e r idx;
              Ok (match x with Some y => y :: xs | None => xs end)
  end.

(** [TsShadeCollection.at], timeseries.py:95-109 (the names of the parameters are not
    passed on to the collection). *)
Definition coll_at (e : snap_env) (l : list ts_surface) (shaded : bool) (idx : nat)
    : result shade_coll :=
  do ss <- surfaces_at e l idx; shade_collection ss (Some shaded) [].

(** [TsSegment.at], pvrow.py:554-575. *)
Definition segment_at (e : snap_env) (s : ts_segment) (idx : nat) : result pv_segment :=
  do il <- coll_at e (seg_illum s) false idx;
  do sh <- coll_at e (seg_shaded s) true idx;
  pvsegment_init il sh.

(** [TsSide.at], pvrow.py:363-379. *)
Fixpoint segments_at (e : snap_env) (l : list ts_segment) (idx : nat) : result (list pv_segment) :=
  match l with
  | [] => Ok []
  | s :: r => do x <- segment_at e s idx; do xs <- segments_at e r idx; Ok (x :: xs)
  end.
Definition side_at (e : snap_env) (s : ts_side) (idx : nat) : result (list pv_segment) :=
  do segs <- segments_at e (side_segments s) idx; side_init segs.

(** [TsPVRow.at], pvrow.py:165-183. *)
Definition pvrow_at (e : snap_env) (r : ts_pvrow) (idx : nat) : result pv_row :=
  do f <- side_at e (row_front r) idx;
  do b <- side_at e (row_back r) idx;
  Ok (PVRow f b (row_coords r idx)).

(* ---------------------------------------------------------------- pvground.py *)

(** [TsGroundElement.non_point_surfaces_at], pvground.py:841-856. *)
Definition non_point_surfaces_at (e : snap_env) (el : ts_ground_element) (idx : nat)
    : result (list pv_surface) :=
  surfaces_at e (filter (fun s => Rltb DISTANCE_TOLERANCE (s_length s idx)) (el_surfaces el)) idx.

(** Concatenation over a list of elements, pvground.py:216-222, 523-526, 541-544. *)
Fixpoint elements_at (e : snap_env) (els : list ts_ground_element) (idx : nat)
    : result (list pv_surface) :=
  match els with
  | [] => Ok []
  | el :: r => do x <- non_point_surfaces_at e el idx; do xs <- elements_at e r idx; Ok (x ++ xs)
  end.

(** [TsGround.non_point_shaded_surfaces_at], [non_point_illum_surfaces_at],
    [non_point_surfaces_at], [n_non_point_surfaces_at], pvground.py:510-575: the
    argument [idx] is ignored, index 0 is used. *)
Definition non_point_shaded_surfaces_at (e : snap_env) (g : ts_ground) (idx : nat)
    : result (list pv_surface) := elements_at e (gnd_shadows g) 0.
Definition non_point_illum_surfaces_at (e : snap_env) (g : ts_ground) (idx : nat)
    : result (list pv_surface) := elements_at e (gnd_illum g) 0.
Definition gnd_non_point_surfaces_at (e : snap_env) (g : ts_ground) (idx : nat)
    : result (list pv_surface) :=
  do a <- non_point_illum_surfaces_at e g idx;
  do b <- non_point_shaded_surfaces_at e g idx;
  Ok (a ++ b).
Definition n_non_point_surfaces_at (e : snap_env) (g : ts_ground) (idx : nat) : result nat :=
  do l <- gnd_non_point_surfaces_at e g idx; Ok (List.length l).

(** Surface from the start of the pending one to the end of the current one,
    pvground.py:721-727, 736-742. [boundary[0]] of a line without extent is an
    [IndexError]. *)
Definition merged_surface (names : list string) (m s : pv_surface) : result pv_surface :=
  match boundary (su_line m), boundary (su_line s) with
  | Ok (p, _), Ok (_, q) =>
      pvsurface_init (Line p q) None true (su_index s) names (Some (su_params s))
  | _, _ => Err IndexError
  end.

(** Loop over the surfaces of a shadow element, pvground.py:716-747: pending surface
    after it and surfaces appended to the list. [first]: [i_surf == 0]; [last_el]: last
    shadow element. *)
Fixpoint merge_element (names : list string) (last_el first : bool) (ss : list pv_surface)
    (pending : option pv_surface) : result (option pv_surface * list pv_surface) :=
  match ss with
  | [] => Ok (pending, [])
  | s :: r =>
      do s' <- (if first then
                  match pending with Some m => merged_surface names m s | None => Ok s end
                else Ok s);
      match r with
      | [] => if last_el then Ok (pending, [s']) else Ok (Some s', [])
      | _ :: _ => do (p, out) <- merge_element names last_el false r pending; Ok (p, s' :: out)
      end
  end.

(** Loop over the shadow elements, pvground.py:713-747. *)
Fixpoint merge_elements (names : list string) (els : list (list pv_surface))
    (pending : option pv_surface) : result (list pv_surface) :=
  match els with
  | [] => Ok []
  | ss :: r =>
      do (p, out) <- merge_element names (match r with [] => true | _ :: _ => false end) true ss pending;
      do outs <- merge_elements names r p;
      Ok (out ++ outs)
  end.

(** Surfaces of each element of a list. *)
Fixpoint each_element_at (e : snap_env) (els : list ts_ground_element) (idx : nat)
    : result (list (list pv_surface)) :=
  match els with
  | [] => Ok []
  | el :: r => do x <- non_point_surfaces_at e el idx; do xs <- each_element_at e r idx; Ok (x :: xs)
  end.

(** [_merge_shadow_surfaces], pvground.py:679-760. *)
Definition merge_shadow_surfaces (e : snap_env) (flag : bool) (els : list ts_ground_element)
    (idx : nat) : result (list pv_surface) :=
  if flag && Nat.ltb 1 (List.length els) then
    do ls <- each_element_at e els idx; merge_elements (sn_names e) ls None
  else elements_at e els idx.

(** Surface covering a whole ground element or several, pvground.py:234-263. *)
Definition plain_surface (e : snap_env) (shaded : bool) (ps : sparams) (l : line)
    : result pv_surface := pvsurface_init l None shaded None (sn_names e) (Some ps).
Fixpoint plain_surfaces (e : snap_env) (shaded : bool) (ps : sparams) (ls : list line)
    : result (list pv_surface) :=
  match ls with
  | [] => Ok []
  | l :: r => do s <- plain_surface e shaded ps l; do ss <- plain_surfaces e shaded ps r; Ok (s :: ss)
  end.

(** Shadow elements that are not points, pvground.py:203-205. *)
Definition not_points (els : list ts_ground_element) (idx : nat) : list ts_ground_element :=
  filter (fun el => Rltb DISTANCE_TOLERANCE (line_length (el_coords el idx))) els.

(** [PVGround.from_lists_surfaces], pvground.py:1044-1090: the segments and the original
    line string. *)
Definition pvground_from_lists (names : list string) (shaded illum : list pv_surface)
    (x_min_max : option (R * R)) (y : R) : result (list pv_segment * line) :=
  let (x_min, x_max) := match x_min_max with
                        | None => (MIN_X_GROUND, MAX_X_GROUND)
                        | Some m => m
                        end in
  do sh <- shade_collection shaded (Some true) names;
  do il <- shade_collection illum (Some false) names;
  do seg <- pvsegment_init il sh;
  do segs <- side_init [seg];
  Ok (segs, Line (Pt x_min y) (Pt x_max y)).

(** [PVGround.as_flat], pvground.py:1009-1042. *)
Definition pvground_as_flat (names : list string) (x_min_max : option (R * R)) (shaded : bool)
    (y : R) : result (list pv_segment * line) :=
  let (x_min, x_max) := match x_min_max with
                        | None => (MIN_X_GROUND, MAX_X_GROUND)
                        | Some m => m
                        end in
  let coords := Line (Pt x_min y) (Pt x_max y) in
  do seg <- sg_from_coords coords shaded (Some (0, 1)) names;
  do segs <- side_init [seg];
  Ok (segs, coords).

(** [TsGround.at], pvground.py:178-270 (with the overlap flags that
    [from_ts_pvrows_and_angles] always gives). *)
Definition ground_at (e : snap_env) (g : ts_ground) (idx : nat) (x_min_max : option (R * R))
    (merge_if_flag_overlap with_cut_points : bool) : result (list pv_segment * line) :=
  let els := not_points (gnd_shadows g) idx in
  do (sh, il) <-
    (if with_cut_points then
       do sh <- (if merge_if_flag_overlap then merge_shadow_surfaces e (gnd_flag_overlap g idx) els idx
                 else elements_at e els idx);
       do il <- elements_at e (gnd_illum g) idx;
       Ok (sh, il)
     else
       let il_params := params_at (ps_ground (sn_store e) false) idx in
       let sh_params := params_at (ps_ground (sn_store e) true) idx in
       do sh <- (if merge_if_flag_overlap && gnd_flag_overlap g idx && Nat.ltb 1 (List.length els) then
                   match els with
                   | first :: _ =>
                       plain_surfaces e true sh_params
                         [Line (b1 (el_coords first idx)) (b2 (el_coords (last els first) idx))]
                   | [] => Ok []
                   end
                 else plain_surfaces e true sh_params (map (fun el => el_coords el idx) els));
       do il <- plain_surfaces e false il_params
                  (map (fun el => el_coords el idx) (not_points (gnd_illum g) idx));
       Ok (sh, il));
  pvground_from_lists (sn_names e) sh il x_min_max (gnd_y g).
