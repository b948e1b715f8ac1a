(** Model of /repo/pvfactors/engine.py (definitions only). *)
From Coq Require Import Reals List Bool Arith String.
From Verif Require Import Num ModelTs ModelGeom ModelVF ModelParams ModelLinalg ModelIrr ModelAOI.
Import ListNotations.
Open Scope R_scope.

(* -------------------------------------------------------------- state of objects *)

(** numpy arrays of view factors are objects shared by reference between the
    calculator and the PV array (calculator.py:112-114, 148-150, 179-181,
    engine.py:204-205, 243-245): they live in a heap. *)
Record heap : Type := Heap {
  hp_next : nat;
  hp_get : nat -> ts matrix
}.

(** Creation of an array, and in place modification (calculator.py:89, 164;
    aoimethods.py:139). *)
Definition heap_alloc (h : heap) (m : ts matrix) : nat * heap :=
  (hp_next h, Heap (S (hp_next h)) (fun r => if Nat.eqb r (hp_next h) then m else hp_get h r)).
Definition heap_write (h : heap) (r : nat) (m : ts matrix) : heap :=
  Heap (hp_next h) (fun x => if Nat.eqb x r then m else hp_get h x).

(** [OrderedPVArray] object: constructor parameters (pvarray.py:21-76), and what
    [fit] and the engine write on it. *)
Record pvarray : Type := PVArray {
  pv_params : pvarray_params;
  pv_param_names : list string;
  pv_fitted : option fitted;
  pv_store : pstore;
  pv_vf : option nat;           (* ts_vf_matrix *)
  pv_vf_aoi : option nat        (* ts_vf_aoi_matrix *)
}.

(** [OrderedPVArray.__init__], pvarray.py:21-76. *)
Definition pvarray_init (p : pvarray_params) (names : list string) : pvarray :=
  PVArray p names None (fresh_store names) None None.

(** [VFCalculator], calculator.py:15-56. *)
Record calculator : Type := Calculator {
  ca_aoi : option aoi_methods;
  ca_aoi_fitted : option aoi_fitted;
  ca_vf : option nat;           (* vf_matrix *)
  ca_vf_aoi : option nat        (* vf_aoi_matrix *)
}.

(** [VFCalculator.__init__], calculator.py:15-56: no AOI methods unless both fAOI
    functions are given. *)
Definition calculator_init (front back : option (R -> R)) (n_sections : nat) : calculator :=
  Calculator
    match front, back with
    | Some f, Some b => Some (AOIMethods f b n_sections)
    | _, _ => None
    end None None None.

(** [PVEngine], engine.py:15-52. The irradiance model object is [en_irr] (constructor
    parameters) and [en_irr_fitted] (what [fit] wrote). *)
Record engine : Type := Engine {
  en_array : pvarray;
  en_irr : irr_model;
  en_irr_fitted : option irr_fitted;
  en_calc : calculator;
  en_fast_row : option nat;
  en_fast_seg : option nat;
  en_n_points : option nat;
  en_skip : option (ts bool);
  en_heap : heap
}.

(** Default models, engine.py:43-44, calculator.py:15-16, models.py:407-412. *)
Definition default_calculator : calculator := calculator_init None None 300.
Definition default_irr_model : irr_model :=
  IrrModel HybridPerezOrdered (Some (1 / 100)) (Some (3 / 100)) 0 0 None None
    DEFAULT_HORIZON_BAND_ANGLE DEFAULT_CIRCUMSOLAR_ANGLE "uniform_disk".

(** [PVEngine.__init__], engine.py:15-52. *)
Definition engine_init (arr : pvarray) (calc : option calculator) (irr : option irr_model)
    (fast_row fast_seg : option nat) : engine :=
  Engine arr (match irr with Some m => m | None => default_irr_model end) None
    (match calc with Some c => c | None => default_calculator end)
    fast_row fast_seg None None (Heap 0 (fun _ _ _ _ => 0)).

(** [PVEngine.with_rho_initialization], engine.py:54-107. Without AOI methods,
    [vf_calculator.vf_aoi_methods] is [None]: [AttributeError] (line 88). *)
Definition with_rho_initialization (arr : pvarray) (calc : calculator) (irr : irr_model)
    (fast_row fast_seg : option nat) : result engine :=
  match ca_aoi calc with
  | None => Err AttributeError
  | Some m =>
      do rf <- rho_from_faoi_fn m false;
      do rb <- rho_from_faoi_fn m true;
      let irr' := IrrModel (im_kind irr)
        (Some (initialize_rho (im_rho_front irr) (Some rf) DEFAULT_RHO_FRONT))
        (Some (initialize_rho (im_rho_back irr) (Some rb) DEFAULT_RHO_BACK))
        (im_transparency irr) (im_spacing irr) (im_faoi_front irr) (im_faoi_back irr)
        (im_horizon_band_angle irr) (im_circumsolar_angle irr) (im_circumsolar_model irr) in
      Ok (engine_init arr (Some calc) (Some irr') fast_row fast_seg)
  end.

(* --------------------------------------------------------------------------- fit *)

(** Numerical input: a float or an array of [n] values (engine.py:109-139). *)
Inductive num (A : Type) : Type :=
| NScalar (x : A)
| NArray (n : nat) (a : ts A).
Arguments NScalar {A} x.
Arguments NArray {A} n a.

(** Arguments of [PVEngine.fit], engine.py:109-110. *)
Record raw_inputs : Type := RawInputs {
  ri_time : num nat;
  ri_dni : num R;
  ri_dhi : num R;
  ri_zenith : num R;
  ri_solar_azimuth : num R;
  ri_tilt : num R;
  ri_azimuth : num R;
  ri_albedo : num R;
  ri_ghi : option (num R)
}.

(** [np.isscalar], engine.py:141, 153. *)
Definition is_scalar {A : Type} (x : num A) : bool :=
  match x with NScalar _ => true | NArray _ _ => false end.

(** [np.array([x])], engine.py:142-149. Wrapping an array gives a two dimensional
    array, with which the code fails further on or gives meaningless results: not
    modelled, counted as an error. *)
Definition wrap {A : Type} (x : num A) : result (num A) :=
  match x with NScalar r => Ok (NArray 1 (fun _ => r)) | NArray _ _ => Err ValueError end.

(** Array of [n] values. A scalar or a different length next to arrays of [n] values
    is not modelled (numpy may broadcast), counted as an error. *)
Definition as_array {A : Type} (n : nat) (x : num A) : result (ts A) :=
  match x with
  | NScalar _ => Err ValueError
  | NArray m a => if Nat.eqb m n then Ok a else Err ValueError
  end.

(** [len(DNI)], engine.py:152. *)
Definition num_len {A : Type} (x : num A) : nat :=
  match x with NScalar _ => 0%nat | NArray n _ => n end.

(** Formatting of scalar inputs, engine.py:141-149. *)
Definition format_scalars (i : raw_inputs) : result raw_inputs :=
  if is_scalar (ri_dni i) then
    do tm <- wrap (ri_time i);
    do dni <- wrap (ri_dni i);
    do dhi <- wrap (ri_dhi i);
    do zen <- wrap (ri_zenith i);
    do saz <- wrap (ri_solar_azimuth i);
    do tilt <- wrap (ri_tilt i);
    do az <- wrap (ri_azimuth i);
    do ghi <- match ri_ghi i with
              | None => Ok None
              | Some g => do g' <- wrap g; Ok (Some g')
              end;
    Ok (RawInputs tm dni dhi zen saz tilt az (ri_albedo i) ghi)
  else Ok i.

(** [format_inputs]: engine.py:141-154 (the second formatting, models.py:113-125 and
    509-521, then has nothing left to do). *)
Definition format_inputs (i : raw_inputs) : result irr_inputs :=
  do i <- format_scalars i;
  let n := num_len (ri_dni i) in
  do tm <- as_array n (ri_time i);
  do dni <- as_array n (ri_dni i);
  do dhi <- as_array n (ri_dhi i);
  do zen <- as_array n (ri_zenith i);
  do saz <- as_array n (ri_solar_azimuth i);
  do tilt <- as_array n (ri_tilt i);
  do az <- as_array n (ri_azimuth i);
  do alb <- match ri_albedo i with
            | NScalar r => Ok (fun _ : nat => r * 1)
            | x => as_array n x
            end;
  do ghi <- match ri_ghi i with
            | None => Ok None
            | Some g => do g' <- as_array n g; Ok (Some g')
            end;
  Ok (IrrInputs n tm dni dhi zen saz tilt az alb ghi).

(** [OrderedPVArray.fit], pvarray.py:130-178: new surfaces, hence new parameter
    dictionaries. No PV row: [PVFactorsError] (pvground.py:648). *)
Definition pvarray_fit (arr : pvarray) (i : irr_inputs) : result pvarray :=
  match fit (pv_params arr) (ii_n i)
          (FitInputs (ii_zenith i) (ii_solar_azimuth i) (ii_tilt i) (ii_azimuth i)) with
  | None => Err PVFactorsError
  | Some a => Ok (PVArray (pv_params arr) (pv_param_names arr) (Some a)
                    (fresh_store (pv_param_names arr)) (pv_vf arr) (pv_vf_aoi arr))
  end.

(** [VFCalculator.fit], calculator.py:58-67. *)
Definition calculator_fit (c : calculator) : result calculator :=
  match ca_aoi c with
  | None => Ok c
  | Some m => do f <- aoi_fit m; Ok (Calculator (ca_aoi c) (Some f) (ca_vf c) (ca_vf_aoi c))
  end.

(** [skip_step], engine.py:174-175. *)
Definition skip_step (i : irr_inputs) : ts bool :=
  fun t => Rltb 90 (ii_zenith i t) || Rltb (ii_dni i t) 0 || Rltb (ii_dhi i t) 0
           || (Reqb (ii_dni i t) 0 && Reqb (ii_dhi i t) 0).

(** [PVEngine.fit] on formatted inputs, engine.py:156-175. *)
Definition engine_fit_arrays (P : pvlib) (e : engine) (i : irr_inputs) : result engine :=
  do arr <- pvarray_fit (en_array e) i;
  do f <- irr_fit P (en_irr e) i;
  match pv_fitted arr with
  | None => Err AttributeError
  | Some a =>
      do st <- irr_transform (en_irr e) f a (pv_store arr);
      do c <- calculator_fit (en_calc e);
      Ok (Engine (PVArray (pv_params arr) (pv_param_names arr) (Some a) st
                    (pv_vf arr) (pv_vf_aoi arr))
            (en_irr e) (Some f) c (en_fast_row e) (en_fast_seg e)
            (Some (ii_n i)) (Some (skip_step i)) (en_heap e))
  end.

(** [PVEngine.fit], engine.py:109-175. *)
Definition engine_fit (P : pvlib) (e : engine) (i : raw_inputs) : result engine :=
  do i' <- format_inputs i; engine_fit_arrays P e i'.

(* --------------------------------------------------------------------- full mode *)

(** [mat[k, t]] for a list of timeseries vectors (engine.py:199-200). *)
Definition row_of (l : list (ts R)) (k : nat) : ts R := nth k l (fun _ => 0).
Definition column (l : list (ts R)) (t : nat) : vector := fun k => row_of l k t.

(** The system matrix [a_mat] at timestep [t], engine.py:213-220. *)
Definition system_matrix (invrho : vector) (M : matrix) : matrix :=
  mat_sub (diag_matrix invrho) M.

(** [np.linalg.inv] of the stack of matrices, engine.py:223: it fails if any of the
    [n] matrices is singular. *)
Definition inv_stack (n N : nat) (A : ts matrix) : result (ts matrix) :=
  if forallb (fun t => match linalg_inv N (A t) with Some _ => true | None => false end)
       (seq 0 n)
  then Ok (fun t => match linalg_inv N (A t) with Some B => B | None => fun _ _ => 0 end)
  else Err LinAlgError.

(** [build_ts_vf_aoi_matrix], calculator.py:116-181, called with the matrix at
    reference [r] as [self.vf_matrix]: result, and heap after the call. With the AOI
    methods the array is modified in place. *)
Definition build_vf_aoi (c : calculator) (a : fitted) (rho : ts vector) (r : nat) (h : heap)
    : result (nat * heap) :=
  match ca_aoi c with
  | None => Ok (heap_alloc h (fun t => diffuse_aoi (rho t) (hp_get h r t)))
  | Some _ =>
      match ca_aoi_fitted c with
      | None => Err TypeError
      | Some af => Ok (r, heap_write h r (fun t => aoi_update af a t (hp_get h r t)))
      end
  end.

(** Loop writing the results on the surfaces, engine.py:253-261. *)
Definition write_results (st : pstore) (surfs : list ts_surface)
    (q0 qinc isotropic reflection qabs : nat -> ts R) : pstore :=
  fold_left (fun st (ks : nat * ts_surface) =>
      surf_update st (snd ks)
        [("q0", PArr (q0 (fst ks))); ("qinc", PArr (qinc (fst ks)));
         ("isotropic", PArr (isotropic (fst ks))); ("reflection", PArr (reflection (fst ks)));
         ("qabs", PArr (qabs (fst ks)))]%string)
    (combine (seq 0 (List.length surfs)) surfs) st.

(** [PVEngine.run_full_mode], engine.py:177-261. The report of lines 263-265 is a
    function of the PV array left by the run. *)
Definition run_full_mode (e : engine) : result engine :=
  let arr := en_array e in
  match pv_fitted arr, en_irr_fitted e with
  | Some a, Some f =>
      let k := im_kind (en_irr e) in
      let surfs := all_ts_surfaces a in
      let ns := n_ts_surfaces a in
      let N := S ns in
      let st := pv_store arr in
      do (irr, rho, invrho, _) <- full_ts_modeling_vectors k f st surfs;
      let (r, h1) := heap_alloc (en_heap e) (build_vf_matrix a) in
      let M := hp_get h1 r in
      do inv <- inv_stack (ft_n_states a) N
                  (fun t => system_matrix (column invrho t) (M t));
      let q0 := fun t => mat_vec N (inv t) (column irr t) in
      let qinc := fun t => mat_vec N (diag_matrix (column invrho t)) (q0 t) in
      let isotropic := fun i t => M t i ns * column irr t ns in
      let reflection := fun i t => qinc t i - column irr t i - isotropic i t in
      do (ra, h2) <- build_vf_aoi (en_calc e) a (fun t => column rho t) r h1;
      do abs <- summed_absorbed k st surfs;
      let qabs := fun i t => mat_vec N (hp_get h2 ra t) (q0 t) i + column abs t i in
      let st' := write_results st surfs (fun i t => q0 t i) (fun i t => qinc t i)
                   isotropic reflection qabs in
      Ok (Engine (PVArray (pv_params arr) (pv_param_names arr) (Some a) st' (Some r) (Some ra))
            (en_irr e) (Some f)
            (Calculator (ca_aoi (en_calc e)) (ca_aoi_fitted (en_calc e)) (Some r) (Some ra))
            (en_fast_row e) (en_fast_seg e) (en_n_points e) (en_skip e) h2)
  | _, _ => Err AttributeError
  end.

(* --------------------------------------------------------------------- fast mode *)

(** A view factor of the dictionary at timestep [t] (NaN when a ground edge is
    infinite: 0 stands for it). *)
Definition vf_value (field : fast_vf -> R) (v : ts (option fast_vf)) : ts R :=
  fun t => match v t with Some x => field x | None => 0 end.

(** Body of the loop of [_calculate_back_ts_segment_qinc] for one surface,
    engine.py:349-382. [rho_front] is multiplied: [TypeError] if not a number. *)
Definition fast_surface (m : irr_model) (f : irr_fitted) (a : fitted) (idx : nat)
    (st : pstore) (s : ts_surface) : result pstore :=
  let vf := fun t => get_vf_ts_pvrow_element idx (s_coords s) (ft_rows a) (ft_ground a)
                       (ft_rotation a) (ft_width a) t in
  do st1 <- update_sky_term (im_kind m) st s;
  match im_rho_front m with
  | None => Err TypeError
  | Some rho_front =>
      let gs t := vf_value to_gnd_shaded vf t * if_albedo f t * irr_gnd_shaded f t in
      let gi t := vf_value to_gnd_illum vf t * if_albedo f t * irr_gnd_illum f t in
      let ps t := vf_value to_pvrow_shaded vf t * rho_front * irr_pvrow_shaded f t in
      let pi t := vf_value to_pvrow_illum vf t * rho_front * irr_pvrow_illum f t in
      let reflections t := gs t + gi t + ps t + pi t in
      let isotropic t := vf_value to_sky vf t * irr_sky_luminance f t in
      do sky <- get_num st1 s "sky_term";
      let qinc t := gs t + gi t + ps t + pi t + isotropic t + sky t in
      Ok (surf_update st1 s
        [("qinc", PArr qinc); ("reflection_gnd_shaded", PArr gs);
         ("reflection_gnd_illum", PArr gi); ("reflection_pvrow_shaded", PArr ps);
         ("reflection_pvrow_illum", PArr pi); ("isotropic", PArr isotropic);
         ("reflection", PArr reflections); ("view_factors", PVF vf)]%string)
  end.

(** [_calculate_back_ts_segment_qinc], engine.py:321-382. *)
Definition fast_segment (m : irr_model) (f : irr_fitted) (a : fitted) (idx : nat)
    (st : pstore) (g : ts_segment) : result pstore :=
  fold_result (fast_surface m f a idx) (seg_surfaces g) st.

(** [l[k]] on a list, engine.py:303, 312 (non-negative indices only). *)
Definition list_get {A : Type} (l : list A) (k : nat) : result A :=
  match nth_error l k with Some x => Ok x | None => Err IndexError end.

(** [PVEngine.run_fast_mode], engine.py:267-313, with the optional arguments
    [pvrow_index] and [segment_index]. *)
Definition run_fast_mode (e : engine) (pvrow_index segment_index : option nat)
    : result engine :=
  let arr := en_array e in
  let pvrow_idx := match pvrow_index with Some k => Some k | None => en_fast_row e end in
  let segment_idx := match segment_index with Some k => Some k | None => en_fast_seg e end in
  match pv_fitted arr, en_irr_fitted e, pvrow_idx with
  | Some a, Some f, Some k =>
      do row <- list_get (ft_rows a) k;
      let segs := side_segments (row_back row) in
      do st' <- match segment_idx with
                | None => fold_result (fast_segment (en_irr e) f a k) segs (pv_store arr)
                | Some j => do g <- list_get segs j;
                            fast_segment (en_irr e) f a k (pv_store arr) g
                end;
      Ok (Engine (PVArray (pv_params arr) (pv_param_names arr) (Some a) st'
                    (pv_vf arr) (pv_vf_aoi arr))
            (en_irr e) (Some f) (en_calc e) (en_fast_row e) (en_fast_seg e)
            (en_n_points e) (en_skip e) (en_heap e))
  | _, _, _ => Err TypeError
  end.
