(** Results do not depend on where north is: statements, with examples that meet the
    hypotheses. *)
From Coq Require Import Reals List Bool Arith ZArith String Lra Lia FunctionalExtensionality.
From Verif Require Import Num ModelTs ModelGeom ModelVF Basics ProofAngles ModelParams ModelLinalg ModelIrr ModelAOI ModelEngine ModelRun SpecRun PropGeom PropRun PropFast PropLocal.
Import ListNotations.
Open Scope R_scope.

(** [v] is the direction [u] after everything was turned by [d] degrees; azimuths are
    known up to a number of turns. *)
Definition turned (d u v : R) : Prop := exists k : Z, v = u + d + 360 * IZR k.
Definition turned_num (d : R) (x y : num R) : Prop :=
  match x, y with
  | NScalar u, NScalar v => turned d u v
  | NArray n a, NArray m b => m = n /\ forall t, turned d (a t) (b t)
  | _, _ => False
  end.

(** Timeseries inputs where the sun and the surfaces were turned. *)
Record turned_inputs (d : R) (i j : raw_inputs) : Prop := TurnedInputs {
  ti_time : ri_time j = ri_time i;
  ti_dni : ri_dni j = ri_dni i;
  ti_dhi : ri_dhi j = ri_dhi i;
  ti_zenith : ri_zenith j = ri_zenith i;
  ti_solar : turned_num d (ri_solar_azimuth i) (ri_solar_azimuth j);
  ti_tilt : ri_tilt j = ri_tilt i;
  ti_azimuth : turned_num d (ri_azimuth i) (ri_azimuth j);
  ti_albedo : ri_albedo j = ri_albedo i;
  ti_ghi : ri_ghi j = ri_ghi i
}.
Definition turned_call (d : R) (c c' : call) : Prop :=
  match c, c' with
  | Fit i, Fit j => turned_inputs d i j
  | RunFull, RunFull => True
  | RunFast r s, RunFast r' s' => r = r' /\ s = s'
  | _, _ => False
  end.

(** The functions of pvlib only use the azimuth of the sun relative to that of the
    surface. *)
Definition no_north (P : pvlib) : Prop :=
  forall d az az' saz saz', turned d az az' -> turned d saz saz' ->
    (forall tilt zen dni ghi dhi al,
       pl_poa_global P tilt az' zen saz' dni ghi dhi al = pl_poa_global P tilt az zen saz dni ghi dhi al) /\
    (forall tm tilt dhi dni zen, pl_perez P tm tilt az' dhi dni zen saz' = pl_perez P tm tilt az dhi dni zen saz).

(** Another axis of rotation, everything else as it is. *)
Definition axis_params (x : R) (p : pvarray_params) : pvarray_params :=
  PVArrayParams x (pa_gcr p) (pa_height p) (pa_width p) (pa_n_pvrows p) (pa_cut p).
Definition axis_array (x : R) (v : pvarray) : pvarray :=
  PVArray (axis_params x (pv_params v)) (pv_param_names v) (pv_fitted v) (pv_store v) (pv_vf v) (pv_vf_aoi v).
Definition axis_engine (x : R) (e : engine) : engine :=
  Engine (axis_array x (en_array e)) (en_irr e) (en_irr_fitted e) (en_calc e) (en_fast_row e) (en_fast_seg e)
    (en_n_points e) (en_skip e) (en_heap e).
Definition axis_result (x : R) (r : result engine) : result engine :=
  match r with Ok e => Ok (axis_engine x e) | Err k => Err k end.

Lemma turned_minus : forall d a a' b b', turned d a a' -> turned d b b' ->
  exists k, a' - b' = a - b + 360 * IZR k.
Proof.
  intros d a a' b b' [k ->] [j ->]. exists (k - j)%Z. rewrite minus_IZR. ring.
Qed.

Lemma rotation_turned : forall d sa sa' aa aa' tilt, turned d sa sa' -> turned d aa aa' ->
  get_rotation sa' aa' tilt = get_rotation sa aa tilt.
Proof.
  intros d sa sa' aa aa' tilt A B. destruct (turned_minus d sa sa' aa aa' A B) as [k E].
  unfold get_rotation. rewrite E, py_mod_shift by lra. reflexivity.
Qed.

Lemma solar_turned : forall d z sa sa' aa aa', turned d sa sa' -> turned d aa aa' ->
  get_solar_2d_vector z sa' aa' = get_solar_2d_vector z sa aa.
Proof.
  intros d z sa sa' aa aa' A B. destruct (turned_minus d sa sa' aa aa' A B) as [k E].
  unfold get_solar_2d_vector. rewrite E.
  replace (sa - aa + 360 * IZR k - 90) with (sa - aa - 90 + 360 * IZR k) by ring.
  rewrite cosd_turn. reflexivity.
Qed.

Lemma aoi_turned : forall d tilt az az' zen saz saz', turned d az az' -> turned d saz saz' ->
  aoi_projection tilt az' zen saz' = aoi_projection tilt az zen saz.
Proof.
  intros d tilt az az' zen saz saz' A B. destruct (turned_minus d saz saz' az az' B A) as [k E].
  unfold aoi_projection. rewrite E, cosd_turn. reflexivity.
Qed.

(** Rows of inputs of the Perez model. *)
Record turned_row (d : R) (r r' : perez_row) : Prop := TurnedRow {
  tr_time : pr_time r' = pr_time r;
  tr_tilt : pr_tilt r' = pr_tilt r;
  tr_azimuth : turned d (pr_azimuth r) (pr_azimuth r');
  tr_zenith : pr_zenith r' = pr_zenith r;
  tr_solar : turned d (pr_solar_azimuth r) (pr_solar_azimuth r');
  tr_dni : pr_dni r' = pr_dni r;
  tr_dhi : pr_dhi r' = pr_dhi r
}.

Lemma hits_turned : forall d r r', turned_row d r r' -> sun_hits_back r' = sun_hits_back r.
Proof.
  intros d r r' []. unfold sun_hits_back. rewrite tr_tilt0, tr_zenith0.
  rewrite (aoi_turned d _ _ _ _ _ _ tr_azimuth0 tr_solar0). reflexivity.
Qed.

Lemma flip_turned : forall d r r', turned_row d r r' -> turned_row d (flip_row r) (flip_row r').
Proof.
  intros d r r' [A B C D E F G]. constructor; cbn; try congruence; auto.
  destruct C as [k C]. rewrite C.
  destruct (py_mod_decomp (pr_azimuth r + d + 360 * IZR k - 180) 360) as [j J].
  destruct (py_mod_decomp (pr_azimuth r - 180) 360) as [l L].
  exists (k - j + l)%Z. rewrite plus_IZR, minus_IZR. lra.
Qed.

Lemma one_turned : forall P d r r', no_north P -> turned_row d r r' -> perez_one P r' = perez_one P r.
Proof.
  intros P d r r' N [A B C D E F G]. unfold perez_one.
  destruct (N d _ _ _ _ C E) as [_ N2]. rewrite A, B, D, F, G, N2, (aoi_turned d _ _ _ _ _ _ C E). reflexivity.
Qed.

Lemma adjust_turned : forall d l l', Forall2 (turned_row d) l l' -> forall outs backs,
  adjust_back l' outs backs = adjust_back l outs backs.
Proof.
  intros d l l' H. induction H as [|r r' l l' R F IH]; intros outs backs; [reflexivity|].
  cbn [adjust_back]. destruct outs as [|o outs]; [reflexivity|]. rewrite (hits_turned d r r' R).
  destruct (sun_hits_back r); [|rewrite IH; reflexivity].
  destruct backs; rewrite IH; reflexivity.
Qed.

Lemma backs_turned : forall d l l', Forall2 (turned_row d) l l' ->
  Forall2 (turned_row d) (map flip_row (filter sun_hits_back l)) (map flip_row (filter sun_hits_back l')).
Proof.
  intros d l l' H. induction H as [|r r' l l' R F IH]; cbn [filter map]; [constructor|].
  rewrite (hits_turned d r r' R). destruct (sun_hits_back r); auto.
  cbn [map]. constructor; auto. apply flip_turned. auto.
Qed.

Lemma perez_turned : forall P d fuel l l', no_north P -> Forall2 (turned_row d) l l' ->
  perez_diffuse_luminance P fuel l' = perez_diffuse_luminance P fuel l.
Proof.
  intros P d fuel. induction fuel as [|fuel IH]; intros l l' N F; [reflexivity|].
  cbn [perez_diffuse_luminance].
  assert (O : map (perez_one P) l' = map (perez_one P) l).
  { clear IH. induction F as [|r r' l l' R F IH]; [reflexivity|]. cbn [map].
    rewrite (one_turned P d r r' N R), IH. reflexivity. }
  pose proof (backs_turned d l l' F) as B. rewrite O.
  inversion B as [E E' |b b' bl bl' B1 B2 E E']; [reflexivity|].
  rewrite E, E'. rewrite (IH _ _ N B). destruct (perez_diffuse_luminance P fuel _); [|reflexivity].
  rewrite (adjust_turned d l l' F). reflexivity.
Qed.

(** Formatted inputs. *)
Record turned_arrays (d : R) (i j : irr_inputs) : Prop := TurnedArrays {
  ta_n : ii_n j = ii_n i;
  ta_time : ii_time j = ii_time i;
  ta_dni : ii_dni j = ii_dni i;
  ta_dhi : ii_dhi j = ii_dhi i;
  ta_zenith : ii_zenith j = ii_zenith i;
  ta_solar : forall t, turned d (ii_solar_azimuth i t) (ii_solar_azimuth j t);
  ta_tilt : ii_tilt j = ii_tilt i;
  ta_azimuth : forall t, turned d (ii_azimuth i t) (ii_azimuth j t);
  ta_albedo : ii_albedo j = ii_albedo i;
  ta_ghi : ii_ghi j = ii_ghi i
}.

Lemma wrap_turned : forall d x y, turned_num d x y ->
  match wrap x, wrap y with
  | Ok u, Ok v => turned_num d u v
  | Err a, Err b => a = b
  | _, _ => False
  end.
Proof.
  intros d [u|n u] [v|m v] H; cbn in *; try contradiction; auto.
Qed.

Lemma array_turned : forall d n x y, turned_num d x y ->
  match as_array n x, as_array n y with
  | Ok u, Ok v => forall t, turned d (u t) (v t)
  | Err a, Err b => a = b
  | _, _ => False
  end.
Proof.
  intros d n [u|k u] [v|m v] H; cbn in *; try contradiction; auto.
  destruct H as [-> H]. destruct (Nat.eqb k n); auto.
Qed.

Ltac step := match goal with
  | |- context [bind ?x _] => destruct x; cbn [bind]; [|reflexivity]
  end.

Lemma scalars_turned : forall d i j, turned_inputs d i j ->
  match format_scalars i, format_scalars j with
  | Ok u, Ok v => turned_inputs d u v
  | Err a, Err b => a = b
  | _, _ => False
  end.
Proof.
  intros d i j T. pose proof T as [H1 H2 H3 H4 H5 H6 H7 H8 H9]. unfold format_scalars.
  rewrite H1, H2, H3, H4, H6, H8, H9.
  destruct (is_scalar (ri_dni i)); [|exact T].
  pose proof (wrap_turned d _ _ H5) as W5. pose proof (wrap_turned d _ _ H7) as W7.
  all: repeat match goal with
    | |- context [bind ?x _] => destruct x; cbn [bind]; try reflexivity; try contradiction; auto
    end.
  all: try (constructor; cbn; auto).
Qed.

Lemma format_turned : forall d i j, turned_inputs d i j ->
  match format_inputs i, format_inputs j with
  | Ok u, Ok v => turned_arrays d u v
  | Err a, Err b => a = b
  | _, _ => False
  end.
Proof.
  intros d i j T. unfold format_inputs. pose proof (scalars_turned d i j T) as S. clear T.
  destruct (format_scalars i) as [u|], (format_scalars j) as [v|]; cbn [bind]; auto; try contradiction.
  destruct S as [H1 H2 H3 H4 H5 H6 H7 H8 H9]. rewrite H1, H2, H3, H4, H6, H8, H9.
  set (n := num_len (ri_dni u)).
  pose proof (array_turned d n _ _ H5) as W5. pose proof (array_turned d n _ _ H7) as W7.
  repeat match goal with
    | |- context [bind ?x _] => destruct x; cbn [bind]; try reflexivity; try contradiction; auto
    end.
  all: try (constructor; cbn; auto).
Qed.

Lemma geometry_turned : forall d p x n i j, turned_arrays d i j -> turned d (pa_axis_azimuth p) x ->
  fit (axis_params x p) n (FitInputs (ii_zenith j) (ii_solar_azimuth j) (ii_tilt j) (ii_azimuth j)) =
  fit p n (FitInputs (ii_zenith i) (ii_solar_azimuth i) (ii_tilt i) (ii_azimuth i)).
Proof.
  intros d p x n i j T A. unfold fit.
  assert (R : fit_rotation (axis_params x p) (FitInputs (ii_zenith j) (ii_solar_azimuth j) (ii_tilt j) (ii_azimuth j))
    = fit_rotation p (FitInputs (ii_zenith i) (ii_solar_azimuth i) (ii_tilt i) (ii_azimuth i))).
  { apply functional_extensionality. intro t. unfold fit_rotation. cbn.
    rewrite (ta_tilt d i j T). apply (rotation_turned d); auto. apply (ta_azimuth d i j T). }
  assert (L : fit_alpha (axis_params x p) (FitInputs (ii_zenith j) (ii_solar_azimuth j) (ii_tilt j) (ii_azimuth j))
    = fit_alpha p (FitInputs (ii_zenith i) (ii_solar_azimuth i) (ii_tilt i) (ii_azimuth i))).
  { apply functional_extensionality. intro t. unfold fit_alpha. cbn [fi_zenith fi_azimuth axis_params pa_axis_azimuth].
    rewrite (ta_zenith d i j T).
    pose proof (solar_turned d (ii_zenith i t) _ _ _ _ (ta_solar d i j T t) A) as E.
    rewrite E. reflexivity. }
  rewrite R, L. reflexivity.
Qed.

Lemma light_turned : forall P d m i j, no_north P -> turned_arrays d i j -> irr_fit P m j = irr_fit P m i.
Proof.
  intros P d m i j N [T1 T2 T3 T4 T5 T6 T7 T8 T9 T10].
  assert (F : aoi_front j = aoi_front i).
  { apply functional_extensionality. intro t. unfold aoi_front, aoi_function. rewrite T5, T7.
    rewrite (aoi_turned d _ _ _ _ _ _ (T8 t) (T6 t)). reflexivity. }
  assert (B : aoi_back j = aoi_back i) by (unfold aoi_back; rewrite F; reflexivity).
  assert (G : fit_ghi j = fit_ghi i) by (unfold fit_ghi; rewrite T10, T3, T4, T5; reflexivity).
  assert (D : fit_direct m j = fit_direct m i).
  { unfold fit_direct, front_is_illum. rewrite F, B, T3, T5. reflexivity. }
  assert (O : fit_poa_global P j = fit_poa_global P i).
  { apply functional_extensionality. intro t. unfold fit_poa_global. rewrite G, T3, T4, T5, T7, T9.
    apply (N d _ _ _ _ (T8 t) (T6 t)). }
  assert (I : forall fuel, perez_diffuse_luminance P fuel (perez_inputs j) = perez_diffuse_luminance P fuel (perez_inputs i)).
  { intro fuel. apply (perez_turned P d); auto. unfold perez_inputs. rewrite T1.
    induction (seq 0 (ii_n i)) as [|t l IH]; cbn [map]; constructor; auto.
    constructor; cbn; try congruence; auto. }
  unfold irr_fit. destruct (im_kind m).
  - unfold fit_isotropic. rewrite F, B, G, D, O, T1, T4, T7, T9. reflexivity.
  - unfold fit_hybrid. rewrite I. destruct (perez_diffuse_luminance P 2 (perez_inputs i)); [|reflexivity].
    unfold fit_circumsolar, poa_circumsolar_back, front_is_illum. rewrite F, B, G, D, O, T1, T4, T5, T7, T9. reflexivity.
Qed.

Lemma fit_turned : forall P d x e i j, no_north P -> turned d (pa_axis_azimuth (pv_params (en_array e))) x ->
  turned_inputs d i j -> engine_fit P (axis_engine x e) j = axis_result x (engine_fit P e i).
Proof.
  intros P d x e i j N A T. pose proof (format_turned d i j T) as F. unfold engine_fit.
  destruct (format_inputs i) as [u|], (format_inputs j) as [v|]; cbn [bind]; try contradiction; [|subst; reflexivity].
  unfold engine_fit_arrays, pvarray_fit. cbn [axis_engine axis_array en_array pv_params en_irr en_calc pv_param_names pv_vf pv_vf_aoi en_fast_row en_fast_seg en_heap].
  rewrite (geometry_turned d _ x _ u v F A), (ta_n d u v F), (light_turned P d _ u v N F).
  destruct (fit _ _ _) as [a|]; cbn [bind]; [|reflexivity].
  destruct (irr_fit P (en_irr e) u) as [f|]; cbn [bind pv_fitted pv_store]; [|reflexivity].
  destruct (irr_transform _ _ _ _) as [st|]; cbn [bind]; [|reflexivity].
  destruct (calculator_fit (en_calc e)) as [c|]; cbn [bind]; [|reflexivity].
  unfold skip_step. rewrite (ta_zenith d u v F), (ta_dni d u v F), (ta_dhi d u v F). reflexivity.
Qed.

Lemma full_turned : forall x e, run_full_mode (axis_engine x e) = axis_result x (run_full_mode e).
Proof.
  intros x e. unfold run_full_mode. cbn [axis_engine axis_array en_array pv_fitted en_irr_fitted en_irr pv_store en_heap en_calc pv_params pv_param_names en_fast_row en_fast_seg en_n_points en_skip].
  destruct (pv_fitted (en_array e)) as [a|]; [|reflexivity]. destruct (en_irr_fitted e) as [f|]; [|reflexivity].
  destruct (full_ts_modeling_vectors _ _ _ _) as [[[[irr rho] invrho] z]|]; cbn [bind]; [|reflexivity].
  destruct (heap_alloc _ _) as [r h1].
  destruct (inv_stack _ _ _) as [inv|]; cbn [bind]; [|reflexivity].
  destruct (build_vf_aoi _ _ _ _ _) as [[ra h2]|]; cbn [bind]; [|reflexivity].
  destruct (summed_absorbed _ _ _) as [ab|]; cbn [bind]; reflexivity.
Qed.

Lemma fast_turned : forall x e r s, run_fast_mode (axis_engine x e) r s = axis_result x (run_fast_mode e r s).
Proof.
  intros x e r s. unfold run_fast_mode. cbn [axis_engine axis_array en_array pv_fitted en_irr_fitted en_irr pv_store en_heap en_calc pv_params pv_param_names en_fast_row en_fast_seg en_n_points en_skip pv_vf pv_vf_aoi].
  destruct (pv_fitted (en_array e)) as [a|]; [|reflexivity]. destruct (en_irr_fitted e) as [f|]; [|reflexivity].
  destruct (match r with Some k => Some k | None => en_fast_row e end) as [k|]; [|reflexivity].
  destruct (list_get (ft_rows a) k) as [row|]; cbn [bind]; [|reflexivity].
  match goal with |- bind ?m _ = _ => destruct m; reflexivity end.
Qed.

Lemma exec_params : forall P e c e', exec P e c = Ok e' -> pv_params (en_array e') = pv_params (en_array e).
Proof.
  intros P e [i| |r s] e' H; cbn [exec] in H.
  - unfold engine_fit in H. destruct (format_inputs i) as [u|]; cbn [bind] in H; [|discriminate].
    unfold engine_fit_arrays, pvarray_fit in H. destruct (fit _ _ _) as [a|]; cbn [bind] in H; [|discriminate].
    destruct (irr_fit _ _ _); cbn [bind] in H; [|discriminate]. cbn [pv_fitted] in H.
    destruct (irr_transform _ _ _ _); cbn [bind] in H; [|discriminate].
    destruct (calculator_fit _); cbn [bind] in H; [|discriminate]. injection H as <-. reflexivity.
  - exact (proj1 (run_keeps P e RunFull e' eq_refl H)).
  - exact (proj1 (run_keeps P e (RunFast r s) e' eq_refl H)).
Qed.

(** Everything turned together (axis of rotation, surfaces, sun), possibly by another
    number of turns for each azimuth: any sequence of calls ends with the same error, or
    with the same engine apart from the axis. *)
Theorem C74_no_north : forall P d x calls calls' e,
  no_north P -> turned d (pa_axis_azimuth (pv_params (en_array e))) x ->
  Forall2 (turned_call d) calls calls' ->
  exec_all P (axis_engine x e) calls' = axis_result x (exec_all P e calls).
Proof.
  intros P d x calls calls' e N A F. revert e A. induction F as [|c c' l l' C F IH]; intros e A; [reflexivity|].
  cbn [exec_all].
  assert (E : exec P (axis_engine x e) c' = axis_result x (exec P e c)).
  { destruct c as [i| |r s], c' as [j| |r' s']; cbn in C; try contradiction; cbn [exec].
    - apply (fit_turned P d); auto.
    - apply full_turned.
    - destruct C as [-> ->]. apply fast_turned. }
  rewrite E. destruct (exec P e c) as [e1|] eqn:X; cbn [axis_result bind]; [|reflexivity].
  apply IH. rewrite (exec_params P e c e1 X). exact A.
Qed.

Print Assumptions C74_no_north.

(** The reports of the two functions of run.py, for every report that does not use the
    azimuth of the axis itself. *)
Definition axis_simulation (x : R) (s : simulation) : simulation :=
  Simulation (axis_params x (si_array s)) (si_irr s) (si_faoi_front s) (si_faoi_back s) (si_n_sections s)
    (si_fast_row s) (si_fast_seg s).

Theorem C74_report : forall P d x build s i j,
  no_north P -> turned d (pa_axis_azimuth (si_array s)) x -> turned_inputs d i j ->
  (forall y v, build (axis_array y v) = build v) ->
  run_timeseries_engine P build (axis_simulation x s) j = run_timeseries_engine P build s i.
Proof.
  intros P d x build s i j N A T B. unfold run_timeseries_engine.
  change (new_engine (axis_simulation x s)) with (axis_engine x (new_engine s)).
  rewrite (fit_turned P d x (new_engine s) i j N A T). cbn [axis_simulation si_fast_row].
  destruct (engine_fit P (new_engine s) i) as [e|]; cbn [axis_result bind]; [|reflexivity].
  destruct (si_fast_row s).
  - rewrite fast_turned. destruct (run_fast_mode e None None) as [e'|]; cbn [axis_result bind]; [|reflexivity]. apply B.
  - rewrite full_turned. destruct (run_full_mode e) as [e'|]; cbn [axis_result bind]; [|reflexivity]. apply B.
Qed.

Print Assumptions C74_report.

Example C74_example_report : forall y v, example_fn_build_report (axis_array y v) = example_fn_build_report v.
Proof. reflexivity. Qed.

(** Functions standing for pvlib that do depend on the azimuths, and a simulation turned by
    minus sixty degrees: axis from 0 to 300, sun and rows from 90 to 30 and to 390. *)
Definition tx_pvlib : pvlib :=
  Pvlib (fun tilt az zen saz dni ghi dhi al => dni * cosd (saz - az) + dhi)
    (fun tm tilt az dhi dni zen saz => PerezComponents dhi (dhi * cosd (saz - az)) 0 0).
Definition tx_raw : raw_inputs :=
  RawInputs (NArray 2 (fun t => t)) (NArray 2 (fun _ => 1000)) (NArray 2 (fun _ => 100))
    (NArray 2 (fi_zenith ex_f)) (NArray 2 (fun _ => 30)) (NArray 2 (fi_tilt ex_f))
    (NArray 2 (fun t => if Nat.eqb t 0 then 30 else 390)) (NScalar (1 / 5)) None.

Lemma tx_no_north : no_north tx_pvlib.
Proof.
  intros d az az' saz saz' A B. destruct (turned_minus d saz saz' az az' B A) as [k E].
  split; intros; cbn; rewrite E, cosd_turn; reflexivity.
Qed.

Lemma tx_turned : turned_inputs (-60) ex_raw tx_raw.
Proof.
  constructor; try reflexivity; cbn.
  - split; [reflexivity|]. intro t. exists 0%Z. cbn. lra.
  - split; [reflexivity|]. intro t. destruct t; [exists 0%Z|exists 1%Z]; cbn; lra.
Qed.

Example C74_case : exists e e', exec_all tx_pvlib (fx_engine HybridPerezOrdered) [Fit ex_raw; RunFull; RunFast (Some 1%nat) None] = Ok e /\
  exec_all tx_pvlib (axis_engine 300 (fx_engine HybridPerezOrdered)) [Fit tx_raw; RunFull; RunFast (Some 1%nat) None] = Ok e' /\
  pv_store (en_array e') = pv_store (en_array e) /\ pv_fitted (en_array e') = pv_fitted (en_array e).
Proof.
  destruct (fx_engine_fit tx_pvlib HybridPerezOrdered ex_raw ex_raw_shaped) as [e1 E1].
  destruct (fx_full tx_pvlib HybridPerezOrdered e1 E1) as [e2 E2].
  destruct (fx_fast tx_pvlib HybridPerezOrdered ex_raw e1) with (runs := [RunFull]) (e1 := e2) as [e3 E3].
  - cbn. exact fx_valid.
  - exact E1.
  - reflexivity.
  - cbn [exec_all exec]. rewrite E2. reflexivity.
  - exists e3. exists (axis_engine 300 e3).
    assert (X : exec_all tx_pvlib (fx_engine HybridPerezOrdered) [Fit ex_raw; RunFull; RunFast (Some 1%nat) None] = Ok e3).
    { cbn [exec_all exec]. rewrite E1. cbn [bind]. rewrite E2. cbn [bind]. rewrite E3. reflexivity. }
    split; [exact X|]. split.
    + rewrite (C74_no_north tx_pvlib (-60) 300 [Fit ex_raw; RunFull; RunFast (Some 1%nat) None] [Fit tx_raw; RunFull; RunFast (Some 1%nat) None]
        (fx_engine HybridPerezOrdered) tx_no_north).
      * rewrite X. reflexivity.
      * exists 1%Z. cbn. lra.
      * constructor; [exact tx_turned|]. constructor; [exact Logic.I|]. constructor; [split; reflexivity|constructor].
    + split; reflexivity.
Qed.
