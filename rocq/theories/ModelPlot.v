(** Model of what the plotting functions draw: /repo/pvfactors/geometry/plot.py and the
    [plot] methods of /repo/pvfactors/geometry/{base,timeseries,pvrow,pvground}.py
    (definitions only). A matplotlib [ax] is the list of the calls made on it, in order;
    line widths, transparency and alignment of the text are left out. *)
From Coq Require Import Reals List Bool Arith String.
From Verif Require Import Num ModelTs ModelGeom ModelVF ModelParams ModelShapely ModelSnapshot.
Import ListNotations.
Open Scope R_scope.
Open Scope list_scope.

(** Calls on the axes: [ax.plot(x, y, 'o', color=...)], [ax.plot(x, y, color=...)],
    [ax.text(x, y, index)], plot.py:17, 40, 58-59 and base.py:241. *)
Inductive drawing : Type :=
| DrawPoints (ps : list pt) (color : string)
| DrawLine (l : line) (color : string)
| DrawText (p : pt) (label : option nat).

(** [COLOR_DIC], config.py:19-27. *)
Definition COLOR_PVROW_ILLUM : string := "#6699cc".
Definition COLOR_PVROW_SHADED : string := "#ff0000".
Definition COLOR_GROUND_SHADED : string := "#A7A49D".
Definition COLOR_GROUND_ILLUM : string := "#FFBB33".

(** [ALPHA_TEXT], config.py:29. *)
Definition ALPHA_TEXT : R := 20 / 100.

(** [plot_coords], [plot_bounds], [plot_line] on a line, plot.py:4-64. *)
Definition plot_coords (l : line) : list drawing := [DrawPoints [b1 l; b2 l] "#999999"].
Definition plot_bounds (l : line) : list drawing :=
  match boundary l with
  | Ok (p, q) => [DrawPoints [p; q] "#000000"]
  | Err _ => [DrawPoints [b1 l] "#000000"]
  end.
Definition plot_line (l : line) (color : string) : list drawing := [DrawLine l color].

(** [PVSurface.plot], base.py:215-243. With a null normal vector the position of the text
    is not a number, the comparison is false and there is no text. *)
Definition su_plot (s : pv_surface) (color : string) (with_index : bool) : list drawing :=
  let l := su_line s in
  plot_coords l ++ plot_bounds l ++ plot_line l color ++
  (if with_index then
     let (vx, vy) := su_nvec s in
     let norm := sqrt (vx * vx + vy * vy) in
     if Reqb norm 0 then []
     else
       let x := (px (b1 l) + px (b2 l)) / 2 + ALPHA_TEXT * (vx / norm) in
       let y := (py (b1 l) + py (b2 l)) / 2 + ALPHA_TEXT * (vy / norm) in
       if Rltb (Rabs x) (MAX_X_GROUND / 2) then [DrawText (Pt x y) (su_index s)] else []
   else []).

(** [ShadeCollection.plot], base.py:373-386; [PVSegment.plot], base.py:666-686;
    [BaseSide.plot], base.py:1025-1044; [PVRow.plot], pvrow.py:790-811. *)
Definition sc_plot (c : shade_coll) (color : string) (with_index : bool) : list drawing :=
  flat_map (fun s => su_plot s color with_index) (sc_surfaces c).
Definition sg_plot (g : pv_segment) (c_shaded c_illum : string) (with_index : bool) : list drawing :=
  sc_plot (sg_shaded g) c_shaded with_index ++ sc_plot (sg_illum g) c_illum with_index.
Definition sd_plot (sd : list pv_segment) (c_shaded c_illum : string) (with_index : bool)
    : list drawing := flat_map (fun g => sg_plot g c_shaded c_illum with_index) sd.
Definition rw_plot (r : pv_row) (c_shaded c_illum : string) (with_index : bool) : list drawing :=
  sd_plot (rw_front r) c_shaded c_illum with_index ++ sd_plot (rw_back r) c_shaded c_illum with_index.

(** [TsSurface.plot_at_idx], timeseries.py:174-188. *)
Definition surface_plot_at (e : snap_env) (s : ts_surface) (idx : nat) (color : string)
    : result (list drawing) :=
  if Rltb DISTANCE_TOLERANCE (s_length s idx) then
    do x <- surface_at e s idx;
    match x with
    | Some y => Ok (su_plot y color false)
    | None => Err AttributeError   (* an empty geometry has no method [plot] *)
    end
  else Ok [].

(** [TsSegment.plot_at_idx], pvrow.py:533-552; [TsSide.plot_at_idx], pvrow.py:381-400;
    [TsPVRow.plot_at_idx], pvrow.py:141-163. *)
Definition segment_plot_at (e : snap_env) (g : ts_segment) (idx : nat) (c_shaded c_illum : string)
    : result (list drawing) := do x <- segment_at e g idx; Ok (sg_plot x c_shaded c_illum false).
Definition side_plot_at (e : snap_env) (sd : ts_side) (idx : nat) (c_shaded c_illum : string)
    : result (list drawing) := do x <- side_at e sd idx; Ok (sd_plot x c_shaded c_illum false).
Definition row_plot_at (e : snap_env) (r : ts_pvrow) (idx : nat) (c_shaded c_illum : string)
    (with_index : bool) : result (list drawing) :=
  do x <- pvrow_at e r idx; Ok (rw_plot x c_shaded c_illum with_index).

(** [TsGround.plot_at_idx], pvground.py:272-306. *)
Definition ground_plot_at (e : snap_env) (g : ts_ground) (idx : nat) (c_shaded c_illum : string)
    (x_min_max : option (R * R)) (merge_if_flag_overlap with_cut_points with_index : bool)
    : result (list drawing) :=
  do (segs, _) <- ground_at e g idx x_min_max merge_if_flag_overlap with_cut_points;
  Ok (sd_plot segs c_shaded c_illum with_index).

(** Loop over the rows, base.py:1209-1213. *)
Fixpoint rows_plot_at (e : snap_env) (rows : list ts_pvrow) (idx : nat) (with_index : bool)
    : result (list drawing) :=
  match rows with
  | [] => Ok []
  | r :: rest => do x <- row_plot_at e r idx COLOR_PVROW_SHADED COLOR_PVROW_ILLUM with_index;
                 do xs <- rows_plot_at e rest idx with_index;
                 Ok (x ++ xs)
  end.

(** [BasePVArray.plot_at_idx], base.py:1177-1225, on a fitted ordered array: what is drawn,
    then the limits of the axes. *)
Definition array_plot_at (e : snap_env) (p : pvarray_params) (a : fitted) (idx : nat)
    (merge_if_flag_overlap with_cut_points : bool) (x_min_max : option (R * R)) (with_index : bool)
    : result (list drawing * (R * R) * (R * R)) :=
  do gnd <- ground_plot_at e (ft_ground a) idx COLOR_GROUND_SHADED COLOR_GROUND_ILLUM x_min_max
              merge_if_flag_overlap with_cut_points with_index;
  do rows <- rows_plot_at e (ft_rows a) idx with_index;
  Ok (gnd ++ rows,
      (- (5 / 10) * pa_distance p, (INR (pa_n_pvrows p) - 5 / 10) * pa_distance p),
      (- pa_height p, 2 * pa_height p)).
