(** Absorbed light, matrices published by a run, and values of the sky components. *)
From Coq Require Import Reals List Bool Arith String Lra Lia FunctionalExtensionality.
From Verif Require Import Num ModelTs ModelGeom ModelVF Basics SpecGeom SpecVF ProofFit ProofIndex ProofGeom2 PropGeom ProofMatrix ProofVF2 PropVF ModelLinalg ProofLinalg SpecEngine ProofRadiosity ModelParams SpecParams ProofParams ModelIrr SpecIrr ProofIrr ProofSky ModelAOI ProofAOI ModelEngine SpecRun ProofEngine PropEngine PropIrr ProofRun PropRun.
Import ListNotations.
Open Scope R_scope.

(* ------------------------------------------------------------------------- C52 *)

(** Angle between the sun and the normal of a side of the rows: in degrees, from 0 to 180. *)
Definition sun_from_normal (i : irr_inputs) (t : nat) (back : bool) (theta : R) : Prop :=
  0 <= theta <= 180 /\
  cosd theta = (if back then -1 else 1)
    * sun_cosine (ii_tilt i t) (ii_azimuth i t) (ii_zenith i t) (ii_solar_azimuth i t).

Lemma faoi_side_value : forall fn rho aoi tilt c t, faoi_side fn (Some rho) aoi tilt = Ok c ->
  co_direct c t = absorbed_part fn rho (Rabs (90 - aoi t)) /\
  co_circumsolar c t = absorbed_part fn rho (Rabs (90 - aoi t)) /\
  co_horizon c t = absorbed_part fn rho (tilt t).
Proof. intros [f|] rho aoi tilt c t H; inversion H; subst c; cbn; tauto. Qed.

Lemma sun_angle_unique : forall i t back x y, sun_from_normal i t back x -> sun_from_normal i t back y -> x = y.
Proof.
  intros i t back x y [X EX] [Y EY]. rewrite <- EX in EY. unfold cosd in EY.
  assert (Q : forall z, 0 <= z <= 180 -> 0 <= deg2rad z <= PI).
  { intros z Z. unfold deg2rad. pose proof PI_RGT_0. split; nra. }
  assert (D : deg2rad y = deg2rad x).
  { rewrite <- (acos_cos (deg2rad y) (Q y Y)), <- (acos_cos (deg2rad x) (Q x X)). rewrite EY. reflexivity. }
  rewrite <- (rad2deg_deg2rad x), <- (rad2deg_deg2rad y), D. reflexivity.
Qed.

Theorem C52_absorbed_sources : forall P e0 raw e i a s c t rf rb,
  valid_params (pv_params (en_array e0)) -> engine_fit P e0 raw = Ok e ->
  format_inputs raw = Ok i -> pv_fitted (en_array e) = Some a ->
  im_rho_front (en_irr e0) = Some rf -> im_rho_back (en_irr e0) = Some rb ->
  in_category a s c ->
  let st := pv_store (en_array e) in
  let m := en_irr e0 in
  forall k x, value_at st s k t x ->
    k = "direct"%string \/ (im_kind m = HybridPerezOrdered /\ (k = "circumsolar"%string \/ k = "horizon"%string)) ->
    exists y, value_at st s (k ++ "_absorbed") t y /\
    match c with
    | CGround _ => y = (1 - ii_albedo i t) * x
    | CRow _ back _ =>
        let part := absorbed_part (if back then im_faoi_back m else im_faoi_front m) (if back then rb else rf) in
        if String.eqb k "horizon" then y = part (ii_tilt i t) * x
        else forall theta, sun_from_normal i t back theta -> y = part (Rabs (90 - theta)) * x
    end.
Proof.
  intros P e0 raw e i a s c t rf rb V Fi Hi Ha Rf Rb C st m k x (v & E & <-) K. unfold st, m in *. clear st m.
  destruct (engine_fit_fitted _ _ _ _ V Fi) as (i' & a' & f & rf' & rb' & Hi' & FE).
  rewrite Hi in Hi'. inversion Hi'; subst i'.
  rewrite (fe_array _ _ _ _ _ _ _ FE) in Ha. inversion Ha; subst a'.
  pose proof (engine_fit_irr _ _ _ _ Fi) as EI. rewrite <- EI in *.
  pose proof (fe_front _ _ _ _ _ _ _ FE) as Rf'. rewrite Rf in Rf'. inversion Rf'; subst rf'.
  pose proof (fe_back _ _ _ _ _ _ _ FE) as Rb'. rewrite Rb in Rb'. inversion Rb'; subst rb'.
  destruct (irr_fit_albedo _ _ _ _ (fe_irr _ _ _ _ _ _ _ FE)) as (_ & _ & FG & _ & FF & FB).
  rewrite Rf in FF. rewrite Rb in FB.
  destruct (faoi_side_value _ _ _ _ _ t FF) as (F1 & F2 & F3).
  destruct (faoi_side_value _ _ _ _ _ t FB) as (B1 & B2 & B3).
  assert (AF : sun_from_normal i t false (aoi_front i t)).
  { split; [apply aoi_range|]. unfold aoi_front. rewrite cosd_aoi. ring. }
  assert (AB : sun_from_normal i t true (aoi_back i t)).
  { unfold aoi_back, aoi_front. split; [pose proof (aoi_range (ii_tilt i t) (ii_azimuth i t) (ii_zenith i t) (ii_solar_azimuth i t)); lra|].
    rewrite cosd_back, cosd_aoi. ring. }
  assert (AU : forall (b : bool) theta, sun_from_normal i t b theta -> theta = if b then aoi_back i t else aoi_front i t).
  { intros [] theta H; [exact (sun_angle_unique _ _ _ _ _ H AB) | exact (sun_angle_unique _ _ _ _ _ H AF)]. }
  destruct K as [-> | [HY [-> | ->]]].
  - rewrite (key_direct _ _ _ _ _ _ _ FE s c C) in E. inversion E; subst v. eexists. split.
    + eexists. split; [exact (key_direct_abs _ _ _ _ _ _ _ FE s c C) | reflexivity].
    + destruct c as [sh|j [] sh]; cbn [cat_comp co_direct].
      * rewrite FG. reflexivity.
      * cbn. intros theta H. rewrite (AU true theta H), B1. reflexivity.
      * cbn. intros theta H. rewrite (AU false theta H), F1. reflexivity.
  - rewrite (key_circ _ _ _ _ _ _ _ FE HY s c C) in E. inversion E; subst v. eexists. split.
    + eexists. split; [exact (key_circ_abs _ _ _ _ _ _ _ FE HY s c C) | reflexivity].
    + destruct c as [sh|j [] sh]; cbn [cat_comp co_circumsolar].
      * rewrite FG. reflexivity.
      * cbn. intros theta H. rewrite (AU true theta H), B2. reflexivity.
      * cbn. intros theta H. rewrite (AU false theta H), F2. reflexivity.
  - rewrite (key_horizon _ _ _ _ _ _ _ FE HY s c C) in E. inversion E; subst v.
    destruct (key_horizon_abs _ _ _ _ _ _ _ FE HY s c C) as (w & W & Wt). exists (w t). split.
    + exists w. split; [exact W | reflexivity].
    + rewrite Wt. destruct c as [sh|j [] sh]; cbn [cat_comp co_horizon].
      * rewrite FG. reflexivity.
      * cbn. rewrite B3. reflexivity.
      * cbn. rewrite F3. reflexivity.
Qed.
Print Assumptions C52_absorbed_sources.

(* ------------------------------------------------------------------------- C23 *)

Lemma no_aoi_factor : forall P e i a f rf rb, fitted_engine P e i a f rf rb ->
  im_faoi_front (en_irr e) = None -> im_faoi_back (en_irr e) = None ->
  forall t j s, nth_error (all_ts_surfaces a) j = Some s ->
  fr_abs (im_kind (en_irr e)) a (pv_store (en_array e)) t j =
  (1 - fr_rho a (pv_store (en_array e)) t j) * fr_irr (im_kind (en_irr e)) a f (pv_store (en_array e)) t j.
Proof.
  intros P e i a f rf rb FE NF NB t j s Ej.
  pose proof (nth_error_In _ _ Ej) as Is. destruct (category_exists a s Is) as [c C].
  assert (FA : fr_abs (im_kind (en_irr e)) a (pv_store (en_array e)) t j =
     comps_sum (pv_store (en_array e)) s (irradiance_comp_absorbed (im_kind (en_irr e))) t).
  { unfold fr_abs, column, fr_surfs. unfold row_of. 
    rewrite (nth_error_nth _ _ _ (map_nth_error (fun s => comps_sum (pv_store (en_array e)) s (irradiance_comp_absorbed (im_kind (en_irr e)))) _ _ Ej)).
    reflexivity. }
  rewrite FA, (fr_rho_at e a t j s Ej), (fr_irr_at e a f t j s Ej).
  destruct (irr_fit_albedo _ _ _ _ (fe_irr _ _ _ _ _ _ _ FE)) as (AL & _ & FG & _ & FF & FB).
  rewrite NF, (fe_front _ _ _ _ _ _ _ FE) in FF. rewrite NB, (fe_back _ _ _ _ _ _ _ FE) in FB.
  cbn in FF, FB. inversion FF as [FF']. inversion FB as [FB']. clear FF FB.
  set (st := pv_store (en_array e)).
  assert (CC : forall t, co_direct (cat_comp f c) t = 1 - num_of st s "rho" t /\
      co_circumsolar (cat_comp f c) t = 1 - num_of st s "rho" t /\ co_horizon (cat_comp f c) t = 1 - num_of st s "rho" t).
  { intro u. destruct (numeric_intro _ _ _ _ (key_rho _ _ _ _ _ _ _ FE s c C)) as [_ RH]. unfold st. rewrite RH.
    destruct c as [sh|q [] sh]; cbn [cat_comp cat_rho].
    - rewrite FG. cbn. tauto.
    - rewrite <- FB'. cbn. tauto.
    - rewrite <- FF'. cbn. tauto. }
  destruct (CC t) as (C1 & C2 & C3).
  destruct (numeric_intro _ _ _ _ (key_direct _ _ _ _ _ _ _ FE s c C)) as [_ D].
  destruct (numeric_intro _ _ _ _ (key_direct_abs _ _ _ _ _ _ _ FE s c C)) as [_ DA]. fold st in D, DA.
  destruct (im_kind (en_irr e)) eqn:K; cbn [irradiance_comp irradiance_comp_absorbed comps_sum fold_left]; unfold comps_sum; cbn [fold_left].
  - rewrite D, DA, C1. ring.
  - destruct (numeric_intro _ _ _ _ (key_circ _ _ _ _ _ _ _ FE K s c C)) as [_ Ci].
    destruct (numeric_intro _ _ _ _ (key_circ_abs _ _ _ _ _ _ _ FE K s c C)) as [_ CA].
    destruct (numeric_intro _ _ _ _ (key_horizon _ _ _ _ _ _ _ FE K s c C)) as [_ H].
    destruct (key_horizon_abs _ _ _ _ _ _ _ FE K s c C) as (w & W & Wt).
    destruct (numeric_intro _ _ _ _ W) as [_ HA]. fold st in Ci, CA, H, HA.
    rewrite D, DA, Ci, CA, H, HA, Wt, C1, C2, C3. ring.
Qed.

Theorem C23_absorbed : forall P e0 raw i a f e' t s,
  full_run P e0 raw i a f e' -> ca_aoi (en_calc e0) = None ->
  im_faoi_front (en_irr e0) = None -> im_faoi_back (en_irr e0) = None ->
  (t < ii_n i)%nat -> ii_albedo i t <> 0 ->
  im_rho_front (en_irr e0) <> Some 0 -> im_rho_back (en_irr e0) <> Some 0 ->
  In s (all_ts_surfaces a) ->
  let st := pv_store (en_array e') in
  exists qinc rho src,
    value_at st s "qinc" t qinc /\ value_at st s "rho" t rho /\
    value_at st s "qabs" t ((1 - rho) * qinc) /\
    light_sources (im_kind (en_irr e0)) st s t src /\
    absorbed_sources (im_kind (en_irr e0)) st s t ((1 - rho) * src).
Proof.
  intros P e0 raw i a f e' t s FR NA NF NB T AL RF RB Is st.
  destruct (full_run_inv _ _ _ _ _ _ _ FR) as (e & rf & rb & FE & Ru & EI & EC & Ef & Eb).
  destruct (run_points _ _ _ _ _ _ _ _ FE Ru) as (inv & INV & A & If & RP).
  destruct (RP t s Is) as [j PT]. rewrite <- EI in *.
  set (k := im_kind (en_irr e)) in *. set (st0 := pv_store (en_array e)) in *.
  exists (fr_qinc k a f st0 inv t j), (fr_rho a st0 t j), (fr_irr k a f st0 t j).
  split; [exact (rp_qinc _ _ _ _ _ _ _ _ _ _ PT)|]. split; [exact (rp_rho _ _ _ _ _ _ _ _ _ _ PT)|].
  pose proof (no_aoi_factor _ _ _ _ _ _ _ FE NF NB t j s (rp_nth _ _ _ _ _ _ _ _ _ _ PT)) as FA. fold k st0 in FA.
  split; [|split; [exact (rp_src _ _ _ _ _ _ _ _ _ _ PT) | rewrite <- FA; exact (rp_abs _ _ _ _ _ _ _ _ _ _ PT)]].
  replace ((1 - fr_rho a st0 t j) * fr_qinc k a f st0 inv t j) with (fr_qabs k a f st0 (en_calc e) inv j t);
    [exact (rp_qabs _ _ _ _ _ _ _ _ _ _ PT)|].
  unfold fr_qabs, fr_aoi. rewrite EC, NA, FA. pose proof (rp_lt _ _ _ _ _ _ _ _ _ _ PT) as L.
  assert (N : (t < ft_n_states a)%nat) by (rewrite (fe_n _ _ _ _ _ _ _ FE); exact T).
  pose proof (fr_solves e a f inv INV t N j ltac:(lia)) as SV.
  pose proof (fr_qinc_eq e a f inv t N j ltac:(lia)) as QE. fold k st0 in SV, QE. rewrite QE.
  unfold mat_vec, diffuse_aoi. rewrite np_sum_isum.
  rewrite (isum_ext _ _ (fun l => (1 - fr_rho a st0 t j) * (fr_F a t j l * fr_q0 k a f st0 inv t l))) by (intros; ring).
  rewrite isum_scal. rewrite <- SV. ring.
Qed.
Print Assumptions C23_absorbed.

Theorem C23_bounds : forall P e0 raw i a f e' t r (qinc rho src : ts_surface -> R) s x,
  full_run P e0 raw i a f e' -> ca_aoi (en_calc e0) = None ->
  im_faoi_front (en_irr e0) = None -> im_faoi_back (en_irr e0) = None ->
  (t < ii_n i)%nat -> physical e0 i a t -> reflects e0 i t r -> r < 1 ->
  published (im_kind (en_irr e0)) (pv_store (en_array e')) (all_ts_surfaces a) t qinc rho src ->
  (forall s, In s (all_ts_surfaces a) -> 0 <= src s + vf_sky a t s * irr_sky_luminance f t) ->
  In s (all_ts_surfaces a) -> value_at (pv_store (en_array e')) s "qabs" t x -> 0 <= x <= qinc s.
Proof.
  intros P e0 raw i a f e' t r qinc rho src s x FR NA NF NB T PH RE R1 PB NN Is X.
  destruct (C21_bounds _ _ _ _ _ _ _ _ _ _ _ _ FR T PH RE R1 PB NN s Is) as (Q & _).
  destruct (physical_run _ _ _ _ _ _ _ _ _ _ _ _ FR T PH RE PB) as (q' & rh & s0 & _ & XX & _ & Z & _).
  pose proof RE as (Rf & Rb & Al).
  destruct (C23_absorbed P e0 raw i a f e' t s FR NA NF NB T ltac:(lra)) as (qi & rr & sr & V1 & V2 & V3 & _).
  - intro E. specialize (Rf 0 E). lra.
  - intro E. specialize (Rb 0 E). lra.
  - exact Is.
  - destruct (PB s Is) as (W1 & W2 & _). rewrite (value_at_fun _ _ _ _ _ _ V1 W1), (value_at_fun _ _ _ _ _ _ V2 W2) in V3.
    rewrite (value_at_fun _ _ _ _ _ _ X V3). destruct (In_nth_error _ _ Is) as [j Ej].
    destruct (XX j s Ej) as (L & _ & _ & E & _). specialize (Z j L). rewrite <- E in Z. nra.
Qed.
Print Assumptions C23_bounds.

(** What a run publishes, as functions of the surface: the hypothesis [published] of C20,
    C21 and C23 can always be met. *)
Lemma published_exists : forall P e0 raw i a f e' t, full_run P e0 raw i a f e' ->
  exists qinc rho src, published (im_kind (en_irr e0)) (pv_store (en_array e')) (all_ts_surfaces a) t qinc rho src.
Proof.
  intros P e0 raw i a f e' t FR. destruct (full_run_inv _ _ _ _ _ _ _ FR) as (e & rf & rb & FE & Ru & EI & _).
  destruct (run_points _ _ _ _ _ _ _ _ FE Ru) as (inv & INV & A & If & RP). rewrite <- EI.
  set (k := im_kind (en_irr e)) in *. set (st0 := pv_store (en_array e)) in *.
  exists (fun s => fr_qinc k a f st0 inv t (surf_index a s)), (fun s => fr_rho a st0 t (surf_index a s)),
    (fun s => fr_irr k a f st0 t (surf_index a s)).
  intros s Is. destruct (RP t s Is) as [j PT]. rewrite (rp_index _ _ _ _ _ _ _ _ _ _ PT).
  split; [exact (rp_qinc _ _ _ _ _ _ _ _ _ _ PT)|]. split; [exact (rp_rho _ _ _ _ _ _ _ _ _ _ PT) | exact (rp_src _ _ _ _ _ _ _ _ _ _ PT)].
Qed.

(** Concrete case: three rows, isotropic sky; the light from the sources is not negative. *)
Example C23_example : forall P, exists i a f e',
  full_run P (ex_engine IsotropicOrdered default_calculator) ex_raw i a f e' /\ (1 < ii_n i)%nat /\
  physical (ex_engine IsotropicOrdered default_calculator) i a 1 /\
  reflects (ex_engine IsotropicOrdered default_calculator) i 1 (1 / 5) /\
  exists qinc rho src,
    published IsotropicOrdered (pv_store (en_array e')) (all_ts_surfaces a) 1 qinc rho src /\
    forall s, In s (all_ts_surfaces a) -> 0 <= src s + vf_sky a 1 s * irr_sky_luminance f 1%nat.
Proof.
  intro P. destruct (ex_full_run P IsotropicOrdered default_calculator ltac:(discriminate)) as (i & a & f & e' & FR & N & PH).
  exists i, a, f, e'. destruct (PH 1%nat ltac:(lia)) as [P1 R1].
  split; [exact FR|]. split; [lia|]. split; [exact P1|]. split; [exact R1|].
  destruct (published_exists _ _ _ _ _ _ _ 1%nat FR) as (qinc & rho & src & PB).
  exists qinc, rho, src. split; [exact PB|]. intros s Is.
  pose proof (physical_nonneg _ _ _ _ P1 (surf_index a s) (fr_n a)) as VS.
  destruct (full_run_inv _ _ _ _ _ _ _ FR) as (e & rf & rb & FE & Ru & EI & _).
  destruct (isotropic_fitted P (en_irr e) i f ltac:(rewrite EI; reflexivity) (fe_irr _ _ _ _ _ _ _ FE)) as (IL & _).
  destruct (PB s Is) as (_ & _ & SR).
  destruct FR as (V & Hi & (e1 & Fi & Ru1) & Ha & Hf).
  destruct (category_exists a s Is) as [c C].
  destruct (C30_direct P _ _ _ V Fi) as (i' & a' & Hi' & Ha' & D).
  rewrite Hi in Hi'. inversion Hi'; subst i'.
  assert (EA : pv_fitted (en_array e') = pv_fitted (en_array e1)).
  { destruct (engine_fit_fitted _ _ _ _ V Fi) as (i1 & a1 & f1 & rf1 & rb1 & Hi1 & FE1).
    destruct (run_points _ _ _ _ _ _ _ _ FE1 Ru1) as (_ & _ & A1 & _). rewrite A1. symmetry. exact (fe_array _ _ _ _ _ _ _ FE1). }
  rewrite EA, Ha' in Ha. inversion Ha; subst a'. clear EA.
  assert (EV : value_at (pv_store (en_array e1)) s "direct" 1 (src s)).
  { destruct (engine_fit_fitted _ _ _ _ V Fi) as (i1 & a1 & f1 & rf1 & rb1 & Hi1 & FE1).
    destruct (run_full_values _ _ _ _ _ _ _ _ FE1 Ru1) as (inv1 & _ & _ & _ & _ & _ & ST). cbn in SR.
    destruct SR as (v & Ev & <-). exists v. split; [|reflexivity].
    rewrite ST, fr_store_other in Ev by reflexivity. exact Ev. }
  assert (B : 0 <= src s <= ii_dni i 1%nat).
  { inversion Hi; subst i. refine (C30_bounds P _ _ _ _ a s c 1%nat (src s) V Fi Hi Ha' _ _ _ _ C EV); cbn; lra. }
  unfold vf_sky, irr_sky_luminance. unfold fr_F, fr_n in VS. rewrite IL.
  assert (0 <= ii_dhi i 1%nat) by (inversion Hi; cbn; lra). nra.
Qed.
