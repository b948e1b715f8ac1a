(** Timesteps with the sun below the horizon (C92): the geometry is that of the opposite sun, no
    light in gives no light out, and direct light below the horizon is counted as negative. *)
From Coq Require Import Reals List Bool Arith ZArith String Lra Lia FunctionalExtensionality.
From Verif Require Import Num ModelTs ModelGeom ModelVF Basics SpecGeom SpecSun SpecVF ProofAngles ProofFit ProofIndex PropGeom ProofMatrix PropVF ProofNight ModelLinalg ProofLinalg SpecEngine ProofRadiosity ModelParams SpecParams ProofParams ModelIrr SpecIrr ProofIrr ProofSky ModelAOI ModelEngine SpecRun ProofEngine PropEngine ProofRun PropRun PropAbs PropIrr PropSky ProofEnergy ProofHistory PropFastRun.
Import ListNotations.
Open Scope R_scope.

(** At the timestep [t] the suns of [f] and [f'] are the same, or one is opposite to the other. *)
Definition same_line (f f' : fit_inputs) (t : nat) : Prop :=
  fi_zenith f' t = fi_zenith f t /\ fi_azimuth f' t = fi_azimuth f t \/
  cos (fi_zenith f t * PI / 180) <> 0 /\ fi_zenith f' t = 180 - fi_zenith f t /\ fi_azimuth f' t = fi_azimuth f t + 180.

Lemma alpha_period : forall p f f' t, fi_zenith f' t = fi_zenith f t -> fi_azimuth f' t = fi_azimuth f t + 360 ->
  fit_alpha p f' t = fit_alpha p f t.
Proof.
  intros p f f' t Z A. unfold fit_alpha. rewrite Z, A. unfold get_solar_2d_vector. cbn [fst snd]. f_equal. f_equal.
  unfold cosd, deg2rad.
  replace ((fi_azimuth f t + 360 - pa_axis_azimuth p - 90) * PI / 180)
    with ((fi_azimuth f t - pa_axis_azimuth p - 90) * PI / 180 + 2 * INR 1 * PI) by (cbn [INR]; field).
  apply cos_period.
Qed.

Lemma fit_same : forall p n f f', (forall t, fit_alpha p f' t = fit_alpha p f t) ->
  fi_tilt f' = fi_tilt f -> fi_surf_azimuth f' = fi_surf_azimuth f -> fit p n f' = fit p n f.
Proof.
  intros p n f f' A T S. unfold fit. cbv zeta.
  replace (fit_alpha p f') with (fit_alpha p f) by (apply functional_extensionality; intro t; symmetry; apply A).
  replace (fit_rotation p f') with (fit_rotation p f) by (apply functional_extensionality; intro t; unfold fit_rotation; rewrite T, S; reflexivity).
  reflexivity.
Qed.

(** The geometry of the array only depends on the line of the sun. *)
Theorem C92_opposite_sun : forall p n f f', (forall t, same_line f f' t) ->
  fi_tilt f' = fi_tilt f -> fi_surf_azimuth f' = fi_surf_azimuth f -> fit p n f' = fit p n f.
Proof.
  intros p n f f' L T S. rewrite <- (fit_sun_up p n f), <- (fit_sun_up p n f').
  apply fit_same; [|exact T|exact S]. intro t.
  assert (OP : forall z, cos ((180 - z) * PI / 180) = - cos (z * PI / 180)).
  { intro z. replace ((180 - z) * PI / 180) with (PI - z * PI / 180) by field. apply Rtrigo_facts.cos_pi_minus. }
  destruct (L t) as [(Z & A)|(C & Z & A)].
  - unfold fit_alpha, sun_up. cbn [fi_zenith fi_azimuth]. rewrite Z, A. reflexivity.
  - destruct (Rlt_dec (cos (fi_zenith f t * PI / 180)) 0) as [N|N].
    + unfold fit_alpha, sun_up. cbn [fi_zenith fi_azimuth]. rewrite Z, A, OP.
      destruct (Rlt_dec (cos (fi_zenith f t * PI / 180)) 0); [|contradiction].
      destruct (Rlt_dec (- cos (fi_zenith f t * PI / 180)) 0); [lra|reflexivity].
    + apply alpha_period; unfold sun_up; cbn [fi_zenith fi_azimuth]; rewrite Z, ?A, OP;
        destruct (Rlt_dec (cos (fi_zenith f t * PI / 180)) 0); try contradiction;
        destruct (Rlt_dec (- cos (fi_zenith f t * PI / 180)) 0); try lra.
Qed.

(** No light from the sun nor from the sky. The hybrid model reads the sky from pvlib: every
    part of it is zero. *)
Definition no_light (P : pvlib) (e0 : engine) (i : irr_inputs) (t : nat) : Prop :=
  ii_dni i t = 0 /\ ii_dhi i t = 0 /\
  (im_kind (en_irr e0) = HybridPerezOrdered -> forall tilt azimuth,
     let c := perez_of P i t tilt azimuth in pc_sky_diffuse c = 0 /\ pc_circumsolar c = 0 /\ pc_horizon c = 0).

Lemma dark_parts : forall P e i a f rf rb t c, fitted_engine P e i a f rf rb -> (t < ii_n i)%nat -> no_light P e i t ->
  cat_of (if_direct f) c t = 0 /\ irr_sky_luminance f t = 0 /\
  (im_kind (en_irr e) = HybridPerezOrdered ->
   cat_of (if_circumsolar f) c t = 0 /\ if_horizon_front f t = 0 /\ if_horizon_back f t = 0).
Proof.
  intros P e i a f rf rb t c FE T (D & H & NL).
  split; [rewrite (direct_of _ _ _ _ c t (fe_irr _ _ _ _ _ _ _ FE)), D; ring|].
  destruct (im_kind (en_irr e)) eqn:HY.
  { split; [|discriminate]. destruct (isotropic_fitted _ _ _ _ HY (fe_irr _ _ _ _ _ _ _ FE)) as (IL & _). unfold irr_sky_luminance. rewrite IL. exact H. }
  specialize (NL eq_refl). unfold perez_of in NL.
  destruct (hybrid_fitted _ _ _ _ HY (fe_irr _ _ _ _ _ _ _ FE)) as (EC & EL & EF & EB & _).
  pose proof (perez_nth P i t T) as PN.
  assert (ONE : forall tl az, let o := perez_one P (PerezRow (ii_time i t) tl az (ii_zenith i t) (ii_solar_azimuth i t) (ii_dni i t) (ii_dhi i t)) in
    po_luminance_circumsolar o = 0 /\ po_luminance_isotropic o = 0 /\ po_poa_horizon o = 0 /\ po_poa_circumsolar o = 0).
  { intros tl az. unfold perez_one. cbn [pr_time pr_tilt pr_azimuth pr_zenith pr_solar_azimuth pr_dni pr_dhi po_luminance_circumsolar po_luminance_isotropic po_poa_horizon po_poa_circumsolar].
    destruct (NL tl az) as (N1 & N2 & N3). cbv zeta in *. rewrite N1, N2, N3. rewrite (proj2 (Reqb_true 0 0) eq_refl). auto. }
  assert (PZ : po_luminance_circumsolar (nth t (map (perez_value P) (perez_inputs i)) perez_out0) = 0 /\
    po_luminance_isotropic (nth t (map (perez_value P) (perez_inputs i)) perez_out0) = 0 /\
    po_poa_horizon (nth t (map (perez_value P) (perez_inputs i)) perez_out0) = 0 /\
    po_poa_circumsolar (nth t (map (perez_value P) (perez_inputs i)) perez_out0) = 0).
  { rewrite PN. unfold perez_value. cbn [po_luminance_circumsolar po_luminance_isotropic po_poa_horizon po_poa_circumsolar].
    split; [|split; [|split]; apply ONE]. destruct (sun_hits_back _); apply ONE. }
  destruct PZ as (P1 & P4 & P2 & P3).
  split; [unfold irr_sky_luminance; rewrite EL; exact P4|]. intros _. split; [|rewrite EF, EB, P2, Rabs_R0; split; reflexivity].
  rewrite EC. destruct c as [[]|j [] []]; cbn [cat_of gnd_pick cat_pick fit_circumsolar bc_ground_illum bc_ground_shaded bc_front_illum bc_front_shaded bc_back_illum bc_back_shaded];
    unfold poa_circumsolar_back, np_where, through_modules; rewrite ?P1, ?P3; destruct (front_is_illum i t); cbn [negb]; ring.
Qed.

Lemma dark_sources : forall P e i a f rf rb t s x, fitted_engine P e i a f rf rb -> (t < ii_n i)%nat ->
  no_light P e i t -> In s (all_ts_surfaces a) ->
  light_sources (im_kind (en_irr e)) (pv_store (en_array e)) s t x -> x = 0.
Proof.
  intros P e i a f rf rb t s x FE T NL Is LS. destruct (category_exists a s Is) as (c & Hc).
  destruct (dark_parts _ _ _ _ _ _ _ t c FE T NL) as (D0 & _ & HH).
  assert (DI : forall d, value_at (pv_store (en_array e)) s "direct" t d -> d = 0).
  { intros d VD. rewrite <- D0. refine (value_at_fun _ _ _ _ _ _ VD _). eexists. split; [exact (key_direct _ _ _ _ _ _ _ FE s c Hc)|reflexivity]. }
  destruct (im_kind (en_irr e)) eqn:HY; cbn [light_sources] in LS; [exact (DI x LS)|].
  destruct LS as (d & cc & h & VD & VC & VH & ->). rewrite (DI d VD). destruct (HH eq_refl) as (C0 & F0 & B0).
  assert (CI : cc = 0).
  { rewrite <- C0. refine (value_at_fun _ _ _ _ _ _ VC _). eexists. split; [exact (key_circ _ _ _ _ _ _ _ FE HY s c Hc)|reflexivity]. }
  assert (HO : h = 0).
  { transitivity (cat_horizon e a f c s t).
    - refine (value_at_fun _ _ _ _ _ _ VH _). eexists. split; [exact (key_horizon _ _ _ _ _ _ _ FE HY s c Hc)|reflexivity].
    - destruct c as [sh|j [] sh]; cbn [cat_horizon]; [reflexivity|rewrite B0; ring|exact F0]. }
  rewrite CI, HO. ring.
Qed.

(** No light in, no light out: at such a timestep every surface receives and sends nothing. *)
Theorem C92_dark : forall P e0 raw i a f e' t r s key,
  full_run P e0 raw i a f e' -> (t < ii_n i)%nat -> physical e0 i a t -> reflects e0 i t r -> r < 1 ->
  no_light P e0 i t -> In s (all_ts_surfaces a) ->
  In key ["qinc"; "q0"; "isotropic"; "reflection"]%string ->
  value_at (pv_store (en_array e')) s key t 0.
Proof.
  intros P e0 raw i a f e' t r s key FR T PH RE R1 NL Is IK. pose proof FR as (V & Hi & (e & Fi & Ru) & Ha' & Hf).
  destruct (C19_radiosity_balance P e0 raw e e' V Fi Ru) as (i' & a' & f' & rf & rb & Hi' & Ha2 & Hf2 & RF & RB & C19).
  rewrite Hi in Hi'. injection Hi' as <-. rewrite Ha' in Ha2. injection Ha2 as <-. rewrite Hf in Hf2. injection Hf2 as <-.
  pose proof RE as (RF1 & RB1 & AL1). pose proof (RF1 _ RF) as RF2. pose proof (RB1 _ RB) as RB2.
  destruct (C19 t T ltac:(lra) ltac:(lra) ltac:(lra)) as (qinc & rho & src & B). clear C19.
  assert (PB : published (im_kind (en_irr e0)) (pv_store (en_array e')) (all_ts_surfaces a) t qinc rho src).
  { intros x Ix. destruct (B x Ix) as (B1 & B2 & B3 & _). auto. }
  destruct (full_run_inv _ _ _ _ _ _ _ FR) as (e1 & rf1 & rb1 & FE1 & Ru1 & EI1 & _).
  pose proof (run_full_same_fit _ _ Ru1) as SF. pose proof (same_fit_fitted _ _ _ _ _ _ _ _ SF FE1) as FE'.
  assert (EI : en_irr e' = en_irr e0) by (rewrite (sf_irr _ _ SF); exact EI1).
  assert (NL' : no_light P e' i t) by (unfold no_light; rewrite EI; exact NL).
  pose proof (proj1 (proj2 (dark_parts _ _ _ _ _ _ _ t (CGround false) FE' T NL'))) as SK.
  assert (SZ : forall x, In x (all_ts_surfaces a) -> src x = 0).
  { intros x Ix. destruct (B x Ix) as (_ & _ & B3 & _). rewrite <- EI in B3. exact (dark_sources _ _ _ _ _ _ _ _ _ _ FE' T NL' Ix B3). }
  pose proof (C21_bounds P e0 raw i a f e' t r qinc rho src FR T PH RE R1 PB) as C21. cbv zeta in C21.
  assert (RC : forall x, In x (all_ts_surfaces a) -> src x + vf_sky a t x * irr_sky_luminance f t = 0).
  { intros x Ix. rewrite (SZ x Ix), SK. ring. }
  assert (QZ : forall x, In x (all_ts_surfaces a) -> qinc x = 0).
  { intros x Ix. destruct (C21 (fun y Iy => Req_le_sym _ _ (RC y Iy)) x Ix) as (Q0 & _ & Q1 & _).
    specialize (Q1 0 (fun y Iy => Req_le _ _ (RC y Iy))). unfold Rdiv in Q1. rewrite Rmult_0_l in Q1. lra. }
  destruct (B s Is) as (B1 & _ & _ & _ & B5 & B6 & B7 & _).
  assert (TZ : total (fun x => vf a t s x * (rho x * qinc x)) (all_ts_surfaces a) = 0).
  { assert (Z : forall l, total (fun _ : ts_surface => 0) l = 0) by (induction l as [|y l IH]; [reflexivity|unfold total in *; cbn; lra]).
    rewrite <- (Z (all_ts_surfaces a)). apply total_eq. intros x Ix. rewrite (QZ x Ix). ring. }
  rewrite (QZ s Is) in B1, B7. rewrite SK, Rmult_0_r in B5. rewrite TZ in B6. rewrite Rmult_0_r in B7.
  destruct IK as [<-|[<-|[<-|[<-|[]]]]]; assumption.
Qed.

(** The same in fast mode, where GHI and the irradiance of the front from pvlib also count. *)
Theorem C92_dark_fast : forall P e0 raw i a f r sg e1 e' t k s v key,
  fast_run P e0 raw i a f r sg e1 e' -> chosen e0 a r sg k s -> (t < ii_n i)%nat -> no_light P e0 i t ->
  (forall g, ii_ghi i = Some g -> g t = 0) ->
  pl_poa_global P (ii_tilt i t) (ii_azimuth i t) (ii_zenith i t) (ii_solar_azimuth i t) 0 0 0 (ii_albedo i t) = 0 ->
  get_vf_ts_pvrow_element k (s_coords s) (ft_rows a) (ft_ground a) (ft_rotation a) (ft_width a) t = Some v ->
  In key ["qinc"; "isotropic"; "reflection"]%string ->
  value_at (pv_store (en_array e')) s key t 0.
Proof.
  intros P e0 raw i a f r sg e1 e' t k s v key FR CH T NL GH PO HV IK.
  destruct (chosen_value _ _ _ _ _ _ _ _ _ _ FR) as (rf & rb & FE1 & EI1 & SF & RF & CV).
  pose proof (same_fit_fitted _ _ _ _ _ _ _ _ SF FE1) as FE.
  assert (EI : en_irr e' = en_irr e0) by (rewrite (sf_irr _ _ SF); exact EI1).
  assert (NL' : no_light P e' i t) by (unfold no_light; rewrite EI; exact NL).
  assert (GZ : fit_ghi i t = 0).
  { unfold fit_ghi. destruct (ii_ghi i) as [g|]; [exact (GH g eq_refl)|]. destruct NL as (-> & -> & _). ring. }
  assert (PZ : fit_poa_global P i t = 0).
  { unfold fit_poa_global. rewrite GZ. destruct NL as (-> & -> & _). exact PO. }
  assert (CP : forall c, cat_perez f c t = 0).
  { intro c.
    pose proof (fun c => dark_parts _ _ _ _ _ _ _ t c FE T NL') as DP.
    destruct (DP (CGround true)) as (G1 & _ & H1). destruct (DP (CGround false)) as (G2 & _ & H2).
    destruct (DP (CRow 0 false true)) as (G3 & _ & H3). destruct (DP (CRow 0 false false)) as (G4 & _ & H4).
    cbn [cat_of gnd_pick cat_pick] in *. pose proof (proj1 (proj2 NL)) as DH.
    unfold cat_perez, perez_pick, irr_gnd_shaded, irr_gnd_illum, irr_pvrow_shaded, irr_pvrow_illum.
    destruct (im_kind (en_irr e')) eqn:HY.
    - destruct (isotropic_fitted _ _ _ _ HY (fe_irr _ _ _ _ _ _ _ FE)) as (_ & K1 & K2 & K3 & K4).
      destruct c as [[]|j [] []]; try reflexivity; rewrite ?K1, ?K2, ?K3, ?K4; lra.
    - destruct (hybrid_fitted _ _ _ _ HY (fe_irr _ _ _ _ _ _ _ FE)) as (_ & _ & _ & _ & K1 & K2 & K3 & K4).
      specialize (H1 eq_refl). specialize (H2 eq_refl). specialize (H3 eq_refl). specialize (H4 eq_refl).
      destruct c as [[]|j [] []]; try reflexivity; rewrite ?K1, ?K2, ?K3, ?K4; lra. }
  assert (Is : In s (all_ts_surfaces a)) by (eapply (CV k s "sky_term"%string); [exact CH | left; reflexivity]).
  destruct (C25_fast_qinc P e0 raw i a f r sg e1 e' k s t FR CH) as (w & _ & HW & Q).
  rewrite <- HW in HV.
  destruct (categories_inhabited _ _ _ _ (fe_valid _ _ _ _ _ _ _ FE) (fe_fit _ _ _ _ _ _ _ FE) (CGround true) Logic.I) as (y1 & Y1).
  destruct (categories_inhabited _ _ _ _ (fe_valid _ _ _ _ _ _ _ FE) (fe_fit _ _ _ _ _ _ _ FE) (CGround false) Logic.I) as (y2 & Y2).
  assert (N0 : (0 < pa_n_pvrows (pv_params (en_array e')))%nat) by (pose proof (fe_valid _ _ _ _ _ _ _ FE) as (_ & _ & NN & _); lia).
  destruct (categories_inhabited _ _ _ _ (fe_valid _ _ _ _ _ _ _ FE) (fe_fit _ _ _ _ _ _ _ FE) (CRow 0 false true) N0) as (y3 & Y3).
  destruct (categories_inhabited _ _ _ _ (fe_valid _ _ _ _ _ _ _ FE) (fe_fit _ _ _ _ _ _ _ FE) (CRow 0 false false) N0) as (y4 & Y4).
  assert (VP : forall y c, in_category a y c -> value_at (pv_store (en_array e')) y "total_perez" t 0).
  { intros y c Cy. rewrite <- (CP c). eexists. split; [exact (key_perez _ _ _ _ _ _ _ FE y c Cy)|reflexivity]. }
  destruct (Q v rf y1 y2 y3 y4 0%nat 0%nat 0 0 0 0 HV RF Y1 (VP _ _ Y1) Y2 (VP _ _ Y2) Y3 (VP _ _ Y3) Y4 (VP _ _ Y4)) as (src & LS & Q1 & Q2 & _ & _ & _ & _ & Q3 & _).
  rewrite <- EI in LS. pose proof (dark_sources _ _ _ _ _ _ _ _ _ _ FE T NL' Is LS) as SZ.
  pose proof (proj1 (proj2 (dark_parts _ _ _ _ _ _ _ t (CGround false) FE T NL'))) as SK. rewrite SK in *. subst src.
  destruct IK as [<-|[<-|[<-|[]]]].
  - replace 0 with (to_gnd_shaded v * ii_albedo i t * 0 + to_gnd_illum v * ii_albedo i t * 0 + to_pvrow_shaded v * rf * 0 + to_pvrow_illum v * rf * 0 + to_sky v * 0 + 0) at 1 by ring. exact Q1.
  - rewrite Rmult_0_r in Q3. exact Q3.
  - replace 0 with (to_gnd_shaded v * ii_albedo i t * 0 + to_gnd_illum v * ii_albedo i t * 0 + to_pvrow_shaded v * rf * 0 + to_pvrow_illum v * rf * 0) at 1 by ring. exact Q2.
Qed.

(** Direct light with the sun below the horizon, on the ground in the sun: negative. *)
Theorem C92_below : forall P e0 raw e i a s t x,
  valid_params (pv_params (en_array e0)) -> engine_fit P e0 raw = Ok e ->
  format_inputs raw = Ok i -> pv_fitted (en_array e) = Some a ->
  in_category a s (CGround false) -> cosd (ii_zenith i t) < 0 -> 0 < ii_dni i t ->
  value_at (pv_store (en_array e)) s "direct" t x -> x = ii_dni i t * cosd (ii_zenith i t) /\ x < 0.
Proof.
  intros P e0 raw e i a s t x V Fi Hi Ha C Z D VX.
  destruct (C30_direct P e0 raw e V Fi) as (i' & a' & Hi' & Ha' & K). rewrite Hi in Hi'. injection Hi' as <-. rewrite Ha in Ha'. injection Ha' as <-.
  pose proof (value_at_fun _ _ _ _ _ _ VX (K t s _ C)) as E. cbn [incidence cat_shaded] in E.
  assert (x = ii_dni i t * cosd (ii_zenith i t)) by lra. split; [assumption|]. rewrite H.
  assert (0 < ii_dni i t * - cosd (ii_zenith i t)) by (apply Rmult_lt_0_compat; lra). lra.
Qed.

(** A night timestep: the first timestep of the usual example, then the sun opposite to that of
    its second timestep. *)
Definition night_f : fit_inputs :=
  FitInputs (fun t => if Nat.eqb t 0 then 45 else 120) (fun t => if Nat.eqb t 0 then 90 else -90)
            (fi_tilt ex_f) (fi_surf_azimuth ex_f).
Definition night_raw (dni : R) : raw_inputs :=
  RawInputs (NArray 2 (fun t => t)) (NArray 2 (fun t => if Nat.eqb t 0 then 1000 else dni)) (NArray 2 (fun t => if Nat.eqb t 0 then 100 else 0))
    (NArray 2 (fi_zenith night_f)) (NArray 2 (fi_azimuth night_f)) (NArray 2 (fi_tilt ex_f))
    (NArray 2 (fi_surf_azimuth ex_f)) (NScalar (1 / 5)) None.

Lemma cos_120 : cos (120 * PI / 180) = - (1 / 2).
Proof. replace (120 * PI / 180) with (PI - PI / 3) by field. rewrite Rtrigo_facts.cos_pi_minus, cos_PI3. reflexivity. Qed.

Lemma night_up : forall t, (t < 2)%nat ->
  fi_zenith (sun_up night_f) t = fi_zenith ex_f t /\ fi_azimuth (sun_up night_f) t = fi_azimuth ex_f t.
Proof.
  intros [|[|t]] T; [| |lia]; unfold sun_up; cbn [fi_zenith fi_azimuth night_f ex_f Nat.eqb].
  - assert (0 < cos (45 * PI / 180)).
    { pose proof PI_RGT_0. apply cos_gt_0; lra. }
    destruct (Rlt_dec (cos (45 * PI / 180)) 0); lra.
  - rewrite cos_120. destruct (Rlt_dec (- (1 / 2)) 0); lra.
Qed.

Lemma night_line : forall t, same_line night_f ex_f t.
Proof.
  intros [|t]; [left; split; reflexivity|]. right. cbn [fi_zenith fi_azimuth night_f ex_f Nat.eqb].
  split; [|lra]. rewrite cos_120. lra.
Qed.

Lemma night_fit : fit ex_p 2 night_f = fit ex_p 2 ex_f.
Proof. symmetry. apply C92_opposite_sun; [exact night_line|reflexivity|reflexivity]. Qed.

Example C92_opposite_example : (forall t, same_line night_f ex_f t) /\ cos (fi_zenith night_f 1%nat * PI / 180) < 0 /\
  exists a, fit ex_p 2 night_f = Some a /\ fit ex_p 2 ex_f = Some a.
Proof.
  split; [exact night_line|]. split; [cbn [fi_zenith night_f Nat.eqb]; rewrite cos_120; lra|].
  rewrite night_fit. destruct ex_fit as [a Ha]. eauto.
Qed.

(** A sky model without light at night, as pvlib with zero irradiance. *)
Definition dark_at_zero (P : pvlib) : Prop := forall time tilt azimuth zenith solar_azimuth,
  let c := pl_perez P time tilt azimuth 0 0 zenith solar_azimuth in
  pc_sky_diffuse c = 0 /\ pc_circumsolar c = 0 /\ pc_horizon c = 0.

Lemma night_run : forall P k dni, exists i a f e',
  full_run P (ex_engine k default_calculator) (night_raw dni) i a f e' /\ ii_n i = 2%nat /\ fit ex_p 2 ex_f = Some a /\
  ii_zenith i 1%nat = 120 /\ ii_dni i 1%nat = dni /\ ii_dhi i 1%nat = 0 /\
  forall t, (t < 2)%nat -> physical (ex_engine k default_calculator) i a t /\ reflects (ex_engine k default_calculator) i t (1 / 5).
Proof.
  intros P k dni. set (c := default_calculator).
  assert (EF : exists e, engine_fit P (ex_engine k c) (night_raw dni) = Ok e).
  { apply C50_fit_succeeds; [exact ex_valid|]. split.
    - exists (Some 2%nat). cbn. repeat (split; [reflexivity|]). split; [discriminate | left; reflexivity].
    - cbn. split; [discriminate|]. split; [discriminate | intros m E; discriminate E]. }
  destruct EF as [e Fi].
  destruct (engine_fit_fitted P (ex_engine k c) (night_raw dni) e ex_valid Fi) as (i & a & f & rf & rb & Hi & FE).
  pose proof (fe_fit _ _ _ _ _ _ _ FE) as F. unfold fit_of in F. rewrite (proj1 (engine_fit_params _ _ _ _ Fi)) in F.
  pose proof Hi as Hi0. cbn in Hi0. injection Hi0 as <-. cbn in F. change (fit ex_p 2 night_f = Some a) in F.
  assert (F2 : fit ex_p 2 ex_f = Some a) by (rewrite <- night_fit; exact F).
  match type of Hi with _ = Ok ?j => set (i := j) in * end.
  assert (PH : forall t, (t < 2)%nat -> physical (ex_engine k c) i a t /\ reflects (ex_engine k c) i t (1 / 5)).
  { intros t T. split.
    - destruct (ex_scene a F2) as [S0 S1].
      assert (SC : exists al, scene ex_p 2 ex_f a t al) by (destruct t as [|[|]]; [eexists; exact S0|eexists; exact S1|lia]).
      destruct SC as (al & V & _ & SA & R). exists al. change (scene ex_p 2 (sun_up night_f) a t al).
      split; [exact V|]. split; [rewrite fit_sun_up; exact F|]. destruct (night_up t T) as [-> ->]. split; [exact SA|exact R].
    - unfold reflects. cbn. split; [intros x E; inversion E; lra|]. split; [intros x E; inversion E; lra | lra]. }
  destruct (C20_run_succeeds P (ex_engine k c) (night_raw dni) e i a ex_valid Fi Hi (fe_array _ _ _ _ _ _ _ FE)) as [e' Ru].
  { intros t T. change (t < 2)%nat in T. destruct (PH t T) as [A B]. split; [exact A|]. exists (1 / 5). split; [lra|exact B]. }
  destruct (run_points _ _ _ _ _ _ _ _ FE Ru) as (_ & _ & A & If & _).
  exists i, a, f, e'. split.
  - split; [exact ex_valid|]. split; [exact Hi|]. split; [exists e; tauto|]. tauto.
  - split; [reflexivity|]. split; [exact F2|]. split; [reflexivity|]. split; [reflexivity|]. split; [reflexivity|exact PH].
Qed.

Example C92_dark_example : forall P k, dark_at_zero P -> exists i a f e' s,
  full_run P (ex_engine k default_calculator) (night_raw 0) i a f e' /\ (1 < ii_n i)%nat /\ cosd (ii_zenith i 1%nat) < 0 /\
  physical (ex_engine k default_calculator) i a 1 /\ reflects (ex_engine k default_calculator) i 1 (1 / 5) /\
  no_light P (ex_engine k default_calculator) i 1 /\ In s (all_ts_surfaces a).
Proof.
  intros P k DK. destruct (night_run P k 0) as (i & a & f & e' & FR & N & FX & Z & D & H & PH).
  destruct (C13_example a FX) as (s & Is & _).
  exists i, a, f, e', s. split; [exact FR|]. split; [rewrite N; lia|].
  split; [rewrite Z; unfold cosd, deg2rad; rewrite cos_120; lra|]. destruct (PH 1%nat ltac:(lia)) as [PH1 RE1].
  split; [exact PH1|]. split; [exact RE1|]. split; [|exact Is].
  split; [exact D|]. split; [exact H|]. intros _ tilt az. unfold perez_of. rewrite D, H. apply DK.
Qed.

Example C92_dark_fast_example : forall P k, dark_at_zero P -> exists i a f e1 e' s v,
  let e0 := ex_engine k default_calculator in
  fast_run P e0 (night_raw 0) i a f (Some 1%nat) None e1 e' /\ chosen e0 a (Some 1%nat) None 1 s /\ (1 < ii_n i)%nat /\
  cosd (ii_zenith i 1%nat) < 0 /\ no_light P e0 i 1 /\ ii_ghi i = None /\
  get_vf_ts_pvrow_element 1 (s_coords s) (ft_rows a) (ft_ground a) (ft_rotation a) (ft_width a) 1 = Some v.
Proof.
  intros P k DK. set (e0 := ex_engine k default_calculator).
  destruct (night_run P k 0) as (i & a & f & e1 & FR & N & FX & Z & D & H & _). fold e0 in FR.
  pose proof FR as (V & Hi & (e & Fi & Ru) & Ha' & Hf).
  assert (EX : exec_all P e [RunFull] = Ok e1) by (cbn; rewrite Ru; reflexivity).
  assert (RU : forallb is_run [RunFull] = true) by reflexivity.
  destruct (proj2 (C25_succeeds P e0 (night_raw 0) e [RunFull] e1 (Some 1%nat) None V Fi RU EX)) as (e' & RF).
  { exists 1%nat. split; [reflexivity|]. split; [cbn; lia | exact Logic.I]. }
  pose proof (run_fast_same_fit _ _ _ _ RF) as S2.
  destruct (ex_back a FX) as (row & s & v & Hr & Hs & _ & Hv).
  exists i, a, f, e1, e', s, v. cbv zeta. split.
  { split; [exact V|]. split; [exact Hi|]. split; [exists e, [RunFull]; tauto|].
    rewrite (sf_fitted _ _ S2), (sf_irr_fitted _ _ S2). tauto. }
  split.
  { split; [reflexivity|]. unfold side_surfaces in Hs. apply in_flat_map in Hs. destruct Hs as (g & Ig & Is).
    exists row, g. split; [exact Hr|]. split; [apply in_app_or; exact Is | exact Ig]. }
  split; [rewrite N; lia|]. split; [rewrite Z; unfold cosd, deg2rad; rewrite cos_120; lra|]. split; [|split; [|exact Hv]].
  - split; [exact D|]. split; [exact H|]. intros _ tilt az. unfold perez_of. rewrite D, H. apply DK.
  - cbn in Hi. injection Hi as <-. reflexivity.
Qed.

(** So that direct light never is negative is false when the sun is below the horizon. *)
Theorem C92_below_refuted : ~ (forall P e0 raw e i a s t x,
  valid_params (pv_params (en_array e0)) -> engine_fit P e0 raw = Ok e ->
  format_inputs raw = Ok i -> pv_fitted (en_array e) = Some a -> In s (all_ts_surfaces a) ->
  (t < ii_n i)%nat -> 0 <= ii_dni i t -> value_at (pv_store (en_array e)) s "direct" t x -> 0 <= x).
Proof.
  intro K. set (P := Pvlib (fun _ _ _ _ _ _ _ _ => 0) (fun _ _ _ _ _ _ _ => PerezComponents 0 0 0 0)).
  destruct (night_run P IsotropicOrdered 10) as (i & a & f & e' & FR & N & FX & Z & D & _).
  pose proof FR as (V & Hi & (e & Fi & Ru) & Ha' & Hf).
  destruct (engine_fit_fitted _ _ _ e V Fi) as (i' & a' & f' & rf & rb & Hi' & FE). rewrite Hi in Hi'. injection Hi' as <-.
  destruct (run_full_values _ _ _ _ _ _ _ _ FE Ru) as (inv & _ & A3 & _). rewrite Ha' in A3. injection A3 as <-.
  assert (C : exists s, in_category a s (CGround false)).
  { exact (categories_inhabited _ _ _ _ (fe_valid _ _ _ _ _ _ _ FE) (fe_fit _ _ _ _ _ _ _ FE) (CGround false) Logic.I). }
  destruct C as (s & C).
  destruct (C30_direct _ _ _ _ V Fi) as (i' & a' & Hi' & Ha2 & C30). rewrite Hi in Hi'. injection Hi' as <-.
  pose proof (fe_array _ _ _ _ _ _ _ FE) as FA. rewrite FA in Ha2. injection Ha2 as <-.
  pose proof (C30 1%nat s _ C) as VX.
  pose proof (K P _ _ e i a s 1%nat _ V Fi Hi FA (category_surface _ _ _ C) ltac:(rewrite N; lia) ltac:(rewrite D; lra) VX) as GE.
  assert (CZ : cosd (ii_zenith i 1%nat) < 0) by (rewrite Z; unfold cosd, deg2rad; rewrite cos_120; lra).
  assert (LT := C92_below P _ _ e i a s 1%nat _ V Fi Hi FA C CZ ltac:(rewrite D; lra) VX). lra.
Qed.

Print Assumptions C92_opposite_sun.
Print Assumptions C92_dark.
Print Assumptions C92_dark_fast.
Print Assumptions C92_below.
Print Assumptions C92_below_refuted.
