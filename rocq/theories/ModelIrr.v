(** Model of /repo/pvfactors/irradiance/{base,models,utils}.py (definitions only). *)
From Coq Require Import Reals List Bool Arith String.
From Verif Require Import Num ModelTs ModelGeom ModelVF ModelParams.
Import ListNotations.
Open Scope R_scope.

(* ------------------------------------------------------------ pvlib, external *)

(** The Perez components returned by [pvlib.irradiance.perez] (utils.py:88-95). *)
Record perez_components : Type := PerezComponents {
  pc_sky_diffuse : R;
  pc_isotropic : R;
  pc_circumsolar : R;
  pc_horizon : R
}.

(** The numerical functions of pvlib that the code calls and that are not modelled:
    - [pl_poa_global]: [get_total_irradiance(...)['poa_global']] (models.py:132-134,
      540-542), from tilt, azimuth, zenith, solar azimuth, DNI, GHI, DHI, albedo;
    - [pl_perez]: [perez(..., return_components=True)] composed with
      [get_extra_radiation] and [get_relative_airmass] (utils.py:63-64, 88-95), from
      the timestamp (a number standing for the date), tilt, azimuth, DHI, DNI,
      zenith, solar azimuth. *)
Record pvlib : Type := Pvlib {
  pl_poa_global : R -> R -> R -> R -> R -> R -> R -> R -> R;
  pl_perez : nat -> R -> R -> R -> R -> R -> R -> perez_components
}.

(** [pvlib.irradiance.aoi_projection] (utils.py:67-69, 98-101): dot product of the
    normal of the surface and of the direction of the sun. pvlib clips it to
    [-1, 1] against rounding; the exact value always is in that range. *)
Definition aoi_projection (tilt azimuth zenith solar_azimuth : R) : R :=
  cosd tilt * cosd zenith + sind tilt * sind zenith * cosd (solar_azimuth - azimuth).

(** [pvlib.irradiance.aoi] (models.py:150-151, 1003-1004). *)
Definition aoi_function (tilt azimuth zenith solar_azimuth : R) : R :=
  rad2deg (acos (aoi_projection tilt azimuth zenith solar_azimuth)).

(* ------------------------------------------------------------------- utils.py *)

(** One row of [df_inputs], utils.py:57-61. *)
Record perez_row : Type := PerezRow {
  pr_time : nat;
  pr_tilt : R;
  pr_azimuth : R;
  pr_zenith : R;
  pr_solar_azimuth : R;
  pr_dni : R;
  pr_dhi : R
}.

(** The columns of the returned dataframe that are used (models.py:997-1000). *)
Record perez_out : Type := PerezOut {
  po_luminance_horizon : R;
  po_luminance_circumsolar : R;
  po_luminance_isotropic : R;
  po_poa_horizon : R;
  po_poa_circumsolar : R
}.

(** [sun_hitting_back_surface], utils.py:67-71. *)
Definition sun_hits_back (r : perez_row) : bool :=
  Rltb (aoi_projection (pr_tilt r) (pr_azimuth r) (pr_zenith r) (pr_solar_azimuth r)) 0
  && Rleb (pr_zenith r) 90.

(** Reversed surface normal, utils.py:74-80. *)
Definition flip_row (r : perez_row) : perez_row :=
  PerezRow (pr_time r) (180 - pr_tilt r) (py_mod (pr_azimuth r - 180) 360)
    (pr_zenith r) (pr_solar_azimuth r) (pr_dni r) (pr_dhi r).

(** Components, view factors and luminances of one row, utils.py:88-134. *)
Definition perez_one (P : pvlib) (r : perez_row) : perez_out :=
  let c := pl_perez P (pr_time r) (pr_tilt r) (pr_azimuth r) (pr_dhi r) (pr_dni r)
             (pr_zenith r) (pr_solar_azimuth r) in
  let a := np_max (aoi_projection (pr_tilt r) (pr_azimuth r) (pr_zenith r)
                     (pr_solar_azimuth r)) 0 in
  let b := np_max (cosd (pr_zenith r)) (cosd 85) in
  let vf_horizon := sind (pr_tilt r) in
  let vf_circumsolar := a / b in
  let vf_isotropic := (1 + cosd (pr_tilt r)) / 2 in
  let dark := Reqb (pc_sky_diffuse c) 0 in
  PerezOut
    (if dark then 0 else fdiv (pc_horizon c) vf_horizon)
    (if dark then 0 else fdiv (pc_circumsolar c) vf_circumsolar)
    (if dark then 0 else fdiv (pc_isotropic c) vf_isotropic)
    (pc_horizon c) (pc_circumsolar c).

(** Assignment of the circumsolar luminances of the back surfaces to the rows where
    the sun hits the back, utils.py:136-139. pandas aligns the two sides on their
    index: with distinct timestamps this is the k-th selected row. *)
Fixpoint adjust_back (rows : list perez_row) (outs backs : list perez_out) : list perez_out :=
  match rows, outs with
  | r :: rows', o :: outs' =>
      if sun_hits_back r then
        match backs with
        | b :: backs' =>
            PerezOut (po_luminance_horizon o) (po_luminance_circumsolar b)
              (po_luminance_isotropic o) (po_poa_horizon o) (po_poa_circumsolar o)
            :: adjust_back rows' outs' backs'
        | [] => o :: adjust_back rows' outs' []
        end
      else o :: adjust_back rows' outs' backs
  | _, _ => []
  end.

(** [perez_diffuse_luminance], utils.py:15-141, with at most [fuel] nested calls;
    [None]: more calls would be needed (unbounded recursion). *)
Fixpoint perez_diffuse_luminance (P : pvlib) (fuel : nat) (rows : list perez_row)
    : option (list perez_out) :=
  match fuel with
  | O => None
  | S fuel' =>
      let back := map flip_row (filter sun_hits_back rows) in
      let outs := map (perez_one P) rows in
      match back with
      | [] => Some outs
      | _ :: _ =>
          match perez_diffuse_luminance P fuel' back with
          | None => None
          | Some backs => Some (adjust_back rows outs backs)
          end
      end
  end.

(** [integral_default_gaussian(y, x)], utils.py:211-227. [erf] is [math.erf]. *)
Definition integral_default_gaussian (erf : R -> R) (y x : R) : R := 1 / 2 * (erf x - erf y).

(** [gaussian_shading], utils.py:230-260. *)
Definition gaussian_shading (erf : R -> R) (pct : R) : R :=
  if Rltb pct 0 then 0
  else if Rltb 100 pct then 100
  else
    let y := - N_SIGMA * SIGMA in
    let x := y + pct / 100 * GAUSSIAN_DIAMETER_CIRCUMSOLAR in
    let area := integral_default_gaussian erf y x in
    let total := integral_default_gaussian erf (- N_SIGMA * SIGMA) (N_SIGMA * SIGMA) in
    area / total * 100.

(** [gaussian], utils.py:263-282. *)
Definition gaussian (x mu sigma : R) : R :=
  1 / (sigma * sqrt (2 * PI)) * exp (- (1 / 2) * ((x - mu) / sigma) ^ 2).

(** [uniform_circumsolar_disk_shading], utils.py:285-343. *)
Definition uniform_disk_shading (pct : R) : R :=
  let r := RADIUS_CIRCUMSOLAR in
  let d := 2 * r in
  let area := PI * r ^ 2 in
  let covered := pct / 100 * d in
  if Rleb covered 0 then 0
  else if Rltb 0 covered && Rleb covered r then
    let theta := 2 * acos ((r - covered) / r) in
    let sector := 1 / 2 * r ^ 2 * theta in
    let triangle := 1 / 2 * r ^ 2 * sin theta in
    (sector - triangle) / area * 100
  else if Rltb r covered && Rltb covered d then
    let uncovered := d - covered in
    let theta := 2 * acos ((r - uncovered) / r) in
    let sector := 1 / 2 * r ^ 2 * theta in
    let triangle := 1 / 2 * r ^ 2 * sin theta in
    (1 - (sector - triangle) / area) * 100
  else 100.

(** [calculate_circumsolar_shading], utils.py:175-208. *)
Definition calculate_circumsolar_shading (erf : R -> R) (pct : R) (model : string) : result R :=
  if String.eqb model "uniform_disk" then Ok (uniform_disk_shading pct)
  else if String.eqb model "gaussian" then Ok (gaussian_shading erf pct)
  else Err PVFactorsError.

(** [calculate_horizon_band_shading], utils.py:346-368. *)
Definition horizon_band_shading (shading_angle band_angle : R) : R :=
  let p := np_where (Rleb band_angle shading_angle) 100 0 in
  np_where (Rleb 0 shading_angle && Rltb shading_angle band_angle)
    (100 * shading_angle / band_angle) p.

(* -------------------------------------------------------------------- base.py *)

(** [BaseModel.initialize_rho], base.py:139-165; [None] is any non-scalar value. *)
Definition initialize_rho (rho_scalar rho_calculated : option R) (default_value : R) : R :=
  match rho_scalar with
  | Some r => r
  | None => match rho_calculated with Some r => r | None => default_value end
  end.

(* ------------------------------------------------------------------ models.py *)

(** Which of the two irradiance models (models.py:16, 391). *)
Inductive irr_kind : Type := IsotropicOrdered | HybridPerezOrdered.

(** What [__init__] saves: models.py:28-82 and 407-478. [None] for a reflectivity is
    a non-scalar value (engine.py:97-102). The circumsolar and horizon attributes
    are those of the hybrid model (ignored by the isotropic one). *)
Record irr_model : Type := IrrModel {
  im_kind : irr_kind;
  im_rho_front : option R;
  im_rho_back : option R;
  im_transparency : R;
  im_spacing : R;
  im_faoi_front : option (R -> R);
  im_faoi_back : option (R -> R);
  im_horizon_band_angle : R;
  im_circumsolar_angle : R;
  im_circumsolar_model : string
}.

(** The class attributes [irradiance_comp] and [irradiance_comp_absorbed],
    models.py:25-26, 403-405. *)
Definition irradiance_comp (k : irr_kind) : list string :=
  match k with
  | IsotropicOrdered => ["direct"]
  | HybridPerezOrdered => ["direct"; "circumsolar"; "horizon"]
  end%string.
Definition irradiance_comp_absorbed (k : irr_kind) : list string :=
  match k with
  | IsotropicOrdered => ["direct_absorbed"]
  | HybridPerezOrdered => ["direct_absorbed"; "circumsolar_absorbed"; "horizon_absorbed"]
  end%string.

(** Timeseries inputs of [fit] once formatted as arrays of [n] elements,
    models.py:84-86, 480-482. *)
Record irr_inputs : Type := IrrInputs {
  ii_n : nat;
  ii_time : ts nat;
  ii_dni : ts R;
  ii_dhi : ts R;
  ii_zenith : ts R;
  ii_solar_azimuth : ts R;
  ii_tilt : ts R;
  ii_azimuth : ts R;
  ii_albedo : ts R;
  ii_ghi : option (ts R)
}.

(** Values by category of surface: the keys [cats], models.py:23-24, 401-402. *)
Record by_cat : Type := ByCat {
  bc_ground_illum : ts R;
  bc_ground_shaded : ts R;
  bc_front_illum : ts R;
  bc_front_shaded : ts R;
  bc_back_illum : ts R;
  bc_back_shaded : ts R
}.

(** Values of the fAOI modifiers by component, models.py:64-65, 456-457. *)
Record by_comp : Type := ByComp {
  co_direct : ts R;
  co_circumsolar : ts R;
  co_horizon : ts R
}.

(** The attributes written by [fit], models.py:129-185 and 532-624. The isotropic
    model has no circumsolar and horizon components: the corresponding fields are
    not read by its [transform]. *)
Record irr_fitted : Type := IrrFitted {
  if_n_steps : nat;
  if_albedo : ts R;
  if_ghi : ts R;
  if_dhi : ts R;
  if_isotropic_luminance : ts R;
  if_direct : by_cat;
  if_circumsolar : by_cat;
  if_horizon_front : ts R;
  if_horizon_back : ts R;
  if_perez_front_illum : ts R;
  if_perez_front_shaded : ts R;
  if_perez_ground_shaded : ts R;
  if_faoi_front : by_comp;
  if_faoi_back : by_comp;
  if_faoi_ground : ts R
}.

Definition zeros : ts R := fun _ => 0.
Definition no_cat : by_cat := ByCat zeros zeros zeros zeros zeros zeros.

(** Light received by shaded surfaces through the spacing and the transparency of the
    modules (direct: models.py:142-147, 163-169, 172-178, 551-556, 571-577, 580-586;
    circumsolar: 558-563, 590-596, 599-605). *)
Definition through_modules (m : irr_model) (x : R) : R :=
  x * im_spacing m + x * (1 - im_spacing m) * im_transparency m.

(** Front and back incidence angles, models.py:150-152 and 1003-1005. *)
Definition aoi_front (i : irr_inputs) : ts R :=
  fun t => aoi_function (ii_tilt i t) (ii_azimuth i t) (ii_zenith i t) (ii_solar_azimuth i t).
Definition aoi_back (i : irr_inputs) : ts R := fun t => 180 - aoi_front i t.

(** [front_is_illum], models.py:159 and 567. *)
Definition front_is_illum (i : irr_inputs) : ts bool := fun t => Rleb (aoi_front i t) 90.

(** [ghi], models.py:128 and 536. *)
Definition fit_ghi (i : irr_inputs) : ts R :=
  match ii_ghi i with
  | Some g => g
  | None => fun t => ii_dni i t * cosd (ii_zenith i t) + ii_dhi i t
  end.

(** The direct components, models.py:141-178 and 550-586. *)
Definition fit_direct (m : irr_model) (i : irr_inputs) : by_cat :=
  let ground t := ii_dni i t * cosd (ii_zenith i t) in
  let front t := np_where (front_is_illum i t) (ii_dni i t * cosd (aoi_front i t)) 0 in
  let back t := np_where (negb (front_is_illum i t)) (ii_dni i t * cosd (aoi_back i t)) 0 in
  ByCat ground (fun t => through_modules m (ground t))
        front (fun t => through_modules m (front t))
        back (fun t => through_modules m (back t)).

(** [perez_front_pvrow['poa_global']], models.py:132-134 and 540-543. *)
Definition fit_poa_global (P : pvlib) (i : irr_inputs) : ts R :=
  fun t => pl_poa_global P (ii_tilt i t) (ii_azimuth i t) (ii_zenith i t)
             (ii_solar_azimuth i t) (ii_dni i t) (fit_ghi i t) (ii_dhi i t) (ii_albedo i t).

(** fAOI modifiers of one side, models.py:371-385 and 1037-1069. With a function:
    values at the incidence angle measured from the surface (direct, circumsolar)
    and at the tilt (horizon, hybrid model only); otherwise 1 - reflectivity
    ([TypeError] when the reflectivity is not a number). *)
Definition faoi_side (fn : option (R -> R)) (rho : option R) (aoi tilt : ts R)
    : result by_comp :=
  match fn with
  | Some f =>
      let d t := f (Rabs (90 - aoi t)) in
      Ok (ByComp d d (fun t => f (tilt t)))
  | None =>
      match rho with
      | Some r => let d (_ : nat) := 1 - r in Ok (ByComp d d d)
      | None => Err TypeError
      end
  end.

(** [IsotropicOrdered.fit], models.py:112-185. *)
Definition fit_isotropic (P : pvlib) (m : irr_model) (i : irr_inputs) : result irr_fitted :=
  do ff <- faoi_side (im_faoi_front m) (im_rho_front m) (aoi_front i) (ii_tilt i);
  do fb <- faoi_side (im_faoi_back m) (im_rho_back m) (aoi_back i) (ii_tilt i);
  let direct := fit_direct m i in
  let poa := fit_poa_global P i in
  Ok (IrrFitted (ii_n i) (ii_albedo i) (fit_ghi i) (ii_dhi i) (ii_dhi i)
        direct no_cat zeros zeros
        poa (fun t => poa t - bc_front_illum direct t)
        (fun t => ii_dhi i t + bc_ground_shaded direct t)
        ff fb (fun t => 1 - ii_albedo i t)).

(** The rows passed to [perez_diffuse_luminance], models.py:993-995. *)
Definition perez_inputs (i : irr_inputs) : list perez_row :=
  map (fun t => PerezRow (ii_time i t) (ii_tilt i t) (ii_azimuth i t) (ii_zenith i t)
                  (ii_solar_azimuth i t) (ii_dni i t) (ii_dhi i t)) (seq 0 (ii_n i)).

Definition perez_out0 : perez_out := PerezOut 0 0 0 0 0.

(** [_calculate_luminance_poa_components], models.py:949-1018: what
    [perez_diffuse_luminance] returned for timestep [t] is [nth t outs]. *)
Definition poa_circumsolar_back (i : irr_inputs) (luminance_circumsolar : ts R) : ts R :=
  fun t => luminance_circumsolar t * fdiv (cosd (aoi_back i t)) (cosd (ii_zenith i t)).

(** The circumsolar components, models.py:557-563 and 588-605. *)
Definition fit_circumsolar (m : irr_model) (i : irr_inputs) (outs : list perez_out) : by_cat :=
  let lum t := po_luminance_circumsolar (nth t outs perez_out0) in
  let front t := np_where (front_is_illum i t) (po_poa_circumsolar (nth t outs perez_out0)) 0 in
  let back t := np_where (negb (front_is_illum i t)) (poa_circumsolar_back i lum t) 0 in
  ByCat lum (fun t => through_modules m (lum t))
        front (fun t => through_modules m (front t))
        back (fun t => through_modules m (back t)).

(** [HybridPerezOrdered.fit], models.py:508-624. The recursion of
    [perez_diffuse_luminance] is given [fuel] levels ([RecursionError] beyond: not
    reachable with two levels, theorem C35). *)
Definition fit_hybrid (P : pvlib) (fuel : nat) (m : irr_model) (i : irr_inputs)
    : result irr_fitted :=
  match perez_diffuse_luminance P fuel (perez_inputs i) with
  | None => Err ValueError
  | Some outs =>
      do ff <- faoi_side (im_faoi_front m) (im_rho_front m) (aoi_front i) (ii_tilt i);
      do fb <- faoi_side (im_faoi_back m) (im_rho_back m) (aoi_back i) (ii_tilt i);
      let direct := fit_direct m i in
      let circ := fit_circumsolar m i outs in
      let poa := fit_poa_global P i in
      let horizon t := Rabs (po_poa_horizon (nth t outs perez_out0)) in
      Ok (IrrFitted (ii_n i) (ii_albedo i) (fit_ghi i) (ii_dhi i)
            (fun t => po_luminance_isotropic (nth t outs perez_out0))
            direct circ horizon horizon
            poa
            (fun t => poa t - bc_front_illum direct t - bc_front_illum circ t
                      + bc_front_shaded direct t + bc_front_shaded circ t)
            (fun t => ii_dhi i t - bc_ground_illum circ t + bc_ground_shaded circ t
                      + bc_ground_shaded direct t)
            ff fb (fun t => 1 - ii_albedo i t))
  end.

(** [fit] of the model, models.py:84, 480. Two levels of recursion are enough. *)
Definition irr_fit (P : pvlib) (m : irr_model) (i : irr_inputs) : result irr_fitted :=
  match im_kind m with
  | IsotropicOrdered => fit_isotropic P m i
  | HybridPerezOrdered => fit_hybrid P 2 m i
  end.

(** The properties [gnd_illum], [gnd_shaded], [pvrow_illum], [pvrow_shaded],
    [sky_luminance], models.py:327-352 and 820-845 ([total_perez['ground_illum']] is
    the GHI, line 623). *)
Definition irr_gnd_illum (f : irr_fitted) : ts R := if_ghi f.
Definition irr_gnd_shaded (f : irr_fitted) : ts R := if_perez_ground_shaded f.
Definition irr_pvrow_illum (f : irr_fitted) : ts R := if_perez_front_illum f.
Definition irr_pvrow_shaded (f : irr_fitted) : ts R := if_perez_front_shaded f.
Definition irr_sky_luminance (f : irr_fitted) : ts R := if_isotropic_luminance f.

(** Angle under which a neighbour's top is seen from a point, models.py:878-880 and
    889-891. A zero [dx] gives 90 degrees (NaN when [dy] is zero too). *)
Definition elevation_angle (p high : pt) : R :=
  let dy := py high - py p in
  let dx := px high - px p in
  if Req_EM_T dx 0 then 90 else rad2deg (Rabs (atan (dy / dx))).

(** [_calculate_horizon_shading_pct_ts], models.py:847-902, at timestep [t]. *)
Definition horizon_shading_pct (m : irr_model) (rows : list ts_pvrow) (p : pt) (idx : nat)
    (tilted_to_left is_back : bool) (t : nat) : R :=
  let n_pvrows := List.length rows in
  let to_row j := horizon_band_shading
                    (elevation_angle p (highest_point (row_coords (nth j rows dummy_row) t)))
                    (im_horizon_band_angle m) in
  let left := if Nat.eqb idx 0 then 0 else to_row (idx - 1)%nat in
  let right := if Nat.eqb idx (n_pvrows - 1) then 0 else to_row (idx + 1)%nat in
  if is_back then np_where tilted_to_left right left
  else np_where tilted_to_left left right.

(** [_calculate_circumsolar_shading_pct], models.py:904-946 (not used by [fit] or
    [transform]); [neighbor] is the highest point of the neighbouring row, [None]
    when there is no neighbour: the local variable returned at line 946 is then
    never assigned. *)
Definition circumsolar_shading_pct (erf : R -> R) (m : irr_model) (centroid : pt)
    (neighbor : option pt) (solar_2d : R * R) : result R :=
  match neighbor with
  | None => Err UnboundLocalError
  | Some np =>
      let solar_2d_elevation := Rabs (atan (snd solar_2d / fst solar_2d)) * 180 / PI in
      let lower := solar_2d_elevation - im_circumsolar_angle m / 2 in
      let shading_angle :=
        Rabs (atan ((py np - py centroid) / (px np - px centroid))) * 180 / PI in
      calculate_circumsolar_shading erf
        ((shading_angle - lower) / im_circumsolar_angle m * 100) (im_circumsolar_model m)
  end.

(** Dictionaries written by [transform]: isotropic model, models.py:204-252. *)
Definition dict_isotropic (direct rho inv_rho total_perez faoi : ts R) : dict :=
  [("direct", PArr direct); ("rho", PArr rho); ("inv_rho", PArr inv_rho);
   ("total_perez", PArr total_perez);
   ("direct_absorbed", PArr (fun t => faoi t * direct t))]%string.

(** ... and hybrid model, models.py:645-746. *)
Definition dict_hybrid (direct circ hor rho inv_rho total_perez : ts R) (faoi : by_comp)
    (hor_absorbed : ts R) : dict :=
  [("direct", PArr direct); ("circumsolar", PArr circ); ("horizon", PArr hor);
   ("rho", PArr rho); ("inv_rho", PArr inv_rho); ("total_perez", PArr total_perez);
   ("direct_absorbed", PArr (fun t => co_direct faoi t * direct t));
   ("circumsolar_absorbed", PArr (fun t => co_circumsolar faoi t * circ t));
   ("horizon_absorbed", PArr hor_absorbed)]%string.

(** [IsotropicOrdered.transform], models.py:187-252 ([rf], [rb]: reflectivities). *)
Definition transform_isotropic (rf rb : R) (f : irr_fitted) (a : fitted) (st : pstore) : pstore :=
  let g := ft_ground a in
  let d := if_direct f in
  let c (r : R) : ts R := fun _ => r in
  let inv_albedo t := 1 / if_albedo f t in
  let st1 := gnd_update_illum st g
    (dict_isotropic (bc_ground_illum d) (if_albedo f) inv_albedo (irr_gnd_illum f)
       (if_faoi_ground f)) in
  let st2 := gnd_update_shaded st1 g
    (dict_isotropic (bc_ground_shaded d) (if_albedo f) inv_albedo (irr_gnd_shaded f)
       (if_faoi_ground f)) in
  fold_left (fun st row =>
    let stf := fold_left (fun st seg =>
        let s1 := coll_update st (seg_illum seg)
          (dict_isotropic (bc_front_illum d) (c rf) (c (1 / rf)) (irr_pvrow_illum f)
             (co_direct (if_faoi_front f))) in
        coll_update s1 (seg_shaded seg)
          (dict_isotropic (bc_front_shaded d) (c rf) (c (1 / rf)) (irr_pvrow_shaded f)
             (co_direct (if_faoi_front f))))
      (side_segments (row_front row)) st in
    fold_left (fun st seg =>
        let s1 := coll_update st (seg_illum seg)
          (dict_isotropic (bc_back_illum d) (c rb) (c (1 / rb)) zeros
             (co_direct (if_faoi_back f))) in
        coll_update s1 (seg_shaded seg)
          (dict_isotropic (bc_back_shaded d) (c rb) (c (1 / rb)) zeros
             (co_direct (if_faoi_back f))))
      (side_segments (row_back row)) stf)
  (ft_rows a) st2.

(** First surface of a collection ([list_ts_surfaces[0]], models.py:703, 726;
    [IndexError] if empty). *)
Definition first_surface (l : list ts_surface) : result ts_surface :=
  match l with [] => Err IndexError | s :: _ => Ok s end.

(** Update of one collection of a back segment, models.py:701-723 and 724-746. *)
Definition transform_back_coll (m : irr_model) (rb : R) (f : irr_fitted) (a : fitted)
    (idx : nat) (direct circ : ts R) (l : list ts_surface) (st : pstore) : result pstore :=
  do s0 <- first_surface l;
  let pct t := horizon_shading_pct m (ft_rows a) (s_centroid s0 t) idx
                 (Rltb 0 (ft_rotation a t)) true t in
  let hor t := if_horizon_back f t * (1 - pct t / 100) in
  let fb := if_faoi_back f in
  Ok (coll_update st l
        (dict_hybrid direct circ hor (fun _ => rb) (fun _ => 1 / rb) zeros fb
           (fun t => co_horizon fb t * if_horizon_back f t * (1 - pct t / 100))
         ++ [("horizon_unshaded", PArr (if_horizon_back f));
             ("horizon_shd_pct", PArr pct)]%string)).

(** [HybridPerezOrdered.transform], models.py:626-746. *)
Definition transform_hybrid (m : irr_model) (rf rb : R) (f : irr_fitted) (a : fitted)
    (st : pstore) : result pstore :=
  let g := ft_ground a in
  let d := if_direct f in
  let ci := if_circumsolar f in
  let c (r : R) : ts R := fun _ => r in
  let inv_albedo t := 1 / if_albedo f t in
  let gf := ByComp (if_faoi_ground f) (if_faoi_ground f) (if_faoi_ground f) in
  let ff := if_faoi_front f in
  let st1 := gnd_update_illum st g
    (dict_hybrid (bc_ground_illum d) (bc_ground_illum ci) zeros (if_albedo f) inv_albedo
       (irr_gnd_illum f) gf zeros) in
  let st2 := gnd_update_shaded st1 g
    (dict_hybrid (bc_ground_shaded d) (bc_ground_shaded ci) zeros (if_albedo f) inv_albedo
       (irr_gnd_shaded f) gf zeros) in
  fold_result (fun st (ir : nat * ts_pvrow) =>
    let (idx, row) := ir in
    let hf t := co_horizon ff t * if_horizon_front f t in
    let stf := fold_left (fun st seg =>
        let s1 := coll_update st (seg_illum seg)
          (dict_hybrid (bc_front_illum d) (bc_front_illum ci) (if_horizon_front f)
             (c rf) (c (1 / rf)) (irr_pvrow_illum f) ff hf) in
        coll_update s1 (seg_shaded seg)
          (dict_hybrid (bc_front_shaded d) (bc_front_shaded ci) (if_horizon_front f)
             (c rf) (c (1 / rf)) (irr_pvrow_shaded f) ff hf))
      (side_segments (row_front row)) st in
    fold_result (fun st seg =>
        do s1 <- transform_back_coll m rb f a idx (bc_back_illum d) (bc_back_illum ci)
                   (seg_illum seg) st;
        transform_back_coll m rb f a idx (bc_back_shaded d) (bc_back_shaded ci)
          (seg_shaded seg) s1)
      (side_segments (row_back row)) stf)
  (combine (seq 0 (List.length (ft_rows a))) (ft_rows a)) st2.

(** [transform] of the model, models.py:187, 626. A reflectivity that is not a number
    raises [TypeError] at [self.rho_front * np.ones(n_steps)] (lines 199, 201, 640,
    642). *)
Definition irr_transform (m : irr_model) (f : irr_fitted) (a : fitted) (st : pstore)
    : result pstore :=
  match im_rho_front m, im_rho_back m with
  | Some rf, Some rb =>
      match im_kind m with
      | IsotropicOrdered => Ok (transform_isotropic rf rb f a st)
      | HybridPerezOrdered => transform_hybrid m rf rb f a st
      end
  | _, _ => Err TypeError
  end.

(** [value = zeros; for component in ...: value += ts_surface.get_param(component)],
    base.py:84-86, 117-119, 134-136. *)
Definition sum_components (st : pstore) (s : ts_surface) (comps : list string)
    : result (ts R) :=
  fold_result (fun (v : ts R) c => do p <- get_num st s c; Ok (fun t => v t + p t))
    comps (fun _ => 0).

(** One value per surface: list comprehension over [all_ts_surfaces], base.py:83-90,
    116-120. *)
Fixpoint map_result {A B : Type} (f : A -> result B) (l : list A) : result (list B) :=
  match l with
  | [] => Ok []
  | x :: r => do y <- f x; do ys <- map_result f r; Ok (y :: ys)
  end.

(** [get_ts_modeling_vectors], base.py:49-92: (irradiance, rho, inv_rho, total
    Perez) of all the surfaces, in order. *)
Definition ts_modeling_vectors (k : irr_kind) (st : pstore) (surfs : list ts_surface)
    : result (list (ts R) * list (ts R) * list (ts R) * list (ts R)) :=
  do irr <- map_result (fun s => sum_components st s (irradiance_comp k)) surfs;
  do inv <- map_result (fun s => get_num st s "inv_rho"%string) surfs;
  do rho <- map_result (fun s => get_num st s "rho"%string) surfs;
  do per <- map_result (fun s => get_num st s "total_perez"%string) surfs;
  Ok (irr, rho, inv, per).

(** [get_full_ts_modeling_vectors], models.py:291-325 and 785-818: the sky is
    appended. *)
Definition full_ts_modeling_vectors (k : irr_kind) (f : irr_fitted) (st : pstore)
    (surfs : list ts_surface)
    : result (list (ts R) * list (ts R) * list (ts R) * list (ts R)) :=
  do (irr, rho, inv, per) <- ts_modeling_vectors k st surfs;
  let sky := fun _ : nat => SKY_REFLECTIVITY_DUMMY in
  Ok (irr ++ [if_isotropic_luminance f], rho ++ [sky], inv ++ [sky],
      per ++ [if_isotropic_luminance f]).

(** [get_summed_components(absorbed=True)], base.py:94-121. *)
Definition summed_absorbed (k : irr_kind) (st : pstore) (surfs : list ts_surface)
    : result (list (ts R)) :=
  map_result (fun s => sum_components st s (irradiance_comp_absorbed k)) surfs.

(** [update_ts_surface_sky_term], base.py:123-137. *)
Definition update_sky_term (k : irr_kind) (st : pstore) (s : ts_surface) : result pstore :=
  do v <- sum_components st s (irradiance_comp k);
  Ok (surf_update st s [("sky_term"%string, PArr v)]).
