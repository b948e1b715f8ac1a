(** Concrete cases that meet the hypotheses of theorems stated in earlier files. *)
From Coq Require Import Reals List Bool Arith String Lra Lia FunctionalExtensionality.
From Verif Require Import Num ModelTs ModelGeom ModelVF Basics SpecGeom SpecVF ProofAngles ProofFit ProofGeom ProofGeom2 PropGeom PropVF ProofNight ModelLinalg ModelParams SpecParams ModelIrr SpecIrr ProofIrr ModelAOI ModelEngine SpecRun ProofEngine ProofRun PropEngine PropIrr PropRun PropAbs PropLoss PropFastRun PropEnergy.
Import ListNotations.
Open Scope R_scope.

(** The example of three rows after a fit: surfaces of every category. *)
Lemma ex_fitted : forall P k c, (forall m, ca_aoi c = Some m -> am_n m <> 0%nat) ->
  exists e i a f rf rb, engine_fit P (ex_engine k c) ex_raw = Ok e /\ format_inputs ex_raw = Ok i /\
    fitted_engine P e i a f rf rb /\ pv_fitted (en_array e) = Some a /\
    forall cat, match cat with CGround _ => True | CRow j _ _ => (j < 3)%nat end -> exists s, in_category a s cat.
Proof.
  intros P k c NA. destruct (ex_engine_fit P k c NA) as [e Fi].
  destruct (engine_fit_fitted P (ex_engine k c) ex_raw e ex_valid Fi) as (i & a & f & rf & rb & Hi & FE).
  exists e, i, a, f, rf, rb. split; [exact Fi|]. split; [exact Hi|]. split; [exact FE|].
  split; [exact (fe_array _ _ _ _ _ _ _ FE)|]. intros cat H.
  pose proof (fe_fit _ _ _ _ _ _ _ FE) as F. rewrite (proj1 (engine_fit_params _ _ _ _ Fi)) in F.
  exact (categories_inhabited _ _ _ _ ex_valid F cat H).
Qed.

Lemma ex_sun_cosine : sun_cosine 60 90 60 90 = 1.
Proof.
  unfold sun_cosine, dot3, surface_normal, sun_direction.
  assert (S : sind 90 = 1) by (unfold sind, deg2rad; replace (90 * PI / 180) with (PI / 2) by field; apply sin_PI2).
  assert (C : cosd 90 = 0) by (unfold cosd, deg2rad; replace (90 * PI / 180) with (PI / 2) by field; apply cos_PI2).
  rewrite S, C. pose proof (sin2_cos2 (deg2rad 60)) as Q. unfold Rsqr in Q. unfold sind, cosd. lra.
Qed.
Lemma ex_cos_60 : cosd 60 = 1 / 2.
Proof. unfold cosd, deg2rad. replace (60 * PI / 180) with (PI / 3) by field. rewrite cos_PI3. reflexivity. Qed.

(** C30, C31: the sun faces the rows at the second timestep. A lit front surface gets
    the 1000 W/m2 of direct light, a shaded one the 145 W/m2 that go through the row in
    front of it, the back surfaces nothing, the lit ground 500 W/m2. *)
Example C30_example : forall P k, exists e i a lit shaded back ground,
  let e0 := ex_engine k default_calculator in
  let st := pv_store (en_array e) in
  valid_params (pv_params (en_array e0)) /\ engine_fit P e0 ex_raw = Ok e /\
  format_inputs ex_raw = Ok i /\ pv_fitted (en_array e) = Some a /\
  0 <= im_spacing (en_irr e0) <= 1 /\ 0 <= im_transparency (en_irr e0) <= 1 /\
  0 <= ii_zenith i 1%nat <= 90 /\ 0 <= ii_dni i 1%nat /\
  in_category a lit (CRow 1 false false) /\ in_category a shaded (CRow 2 false true) /\
  in_category a back (CRow 1 true false) /\ in_category a ground (CGround false) /\
  value_at st lit "direct" 1 1000 /\ value_at st shaded "direct" 1 145 /\
  value_at st back "direct" 1 0 /\ value_at st ground "direct" 1 500.
Proof.
  intros P k. destruct (ex_fitted P k default_calculator ltac:(discriminate)) as (e & i & a & f & rf & rb & Fi & Hi & FE & Ha & CE).
  destruct (CE (CRow 1 false false) ltac:(cbn; lia)) as [lit C1]. destruct (CE (CRow 2 false true) ltac:(cbn; lia)) as [shd C2].
  destruct (CE (CRow 1 true false) ltac:(cbn; lia)) as [bck C3]. destruct (CE (CGround false) Logic.I) as [gnd C4].
  exists e, i, a, lit, shd, bck, gnd. cbv zeta.
  destruct (C30_direct P (ex_engine k default_calculator) _ _ ex_valid Fi) as (i' & a' & Hi' & Ha' & D).
  rewrite Hi in Hi'; inversion Hi'; subst i'. rewrite Ha in Ha'; inversion Ha'; subst a'. inversion Hi; subst i.
  repeat (split; [first [exact ex_valid | exact Fi | exact Hi | exact Ha | assumption | cbn; lra]|]).
  pose proof (D 1%nat _ _ C1) as V1. pose proof (D 1%nat _ _ C2) as V2. pose proof (D 1%nat _ _ C3) as V3. pose proof (D 1%nat _ _ C4) as V4.
  cbn [ii_dni ii_tilt ii_azimuth ii_zenith ii_solar_azimuth incidence cat_shaded ex_f fi_zenith fi_azimuth fi_tilt fi_surf_azimuth Nat.eqb] in V1, V2, V3, V4.
  rewrite ex_sun_cosine in V1, V2, V3. rewrite ex_cos_60 in V4.
  rewrite Rmax_right in V1 by lra. rewrite Rmax_right in V2 by lra. rewrite Rmax_left in V3 by lra.
  assert (EQ : forall s x y, x = y -> value_at (pv_store (en_array e)) s "direct" 1 x -> value_at (pv_store (en_array e)) s "direct" 1 y)
    by (intros; subst; assumption).
  split; [revert V1; apply EQ; lra|]. split; [revert V2; apply EQ; unfold let_through; cbn; lra|].
  split; [revert V3; apply EQ; lra|]. revert V4; apply EQ; lra.
Qed.

Example C31_example : forall P, exists e a lit shaded x y,
  let e0 := ex_engine HybridPerezOrdered default_calculator in
  let st := pv_store (en_array e) in
  valid_params (pv_params (en_array e0)) /\ engine_fit P e0 ex_raw = Ok e /\ pv_fitted (en_array e) = Some a /\
  in_category a lit (CRow 1 false false) /\ in_category a shaded (CRow 2 false true) /\
  same_kind (CRow 1 false false) (CRow 2 false true) /\
  value_at st lit "direct" 1 1000 /\ value_at st shaded "direct" 1 145 /\
  let_through (im_spacing (en_irr e0)) (im_transparency (en_irr e0)) = 145 / 1000 /\
  value_at st lit "circumsolar" 1 x /\ value_at st shaded "circumsolar" 1 y.
Proof.
  intros P. destruct (C30_example P HybridPerezOrdered) as (e & i & a & lit & shd & bck & gnd & V & Fi & Hi & Ha & _ & _ & _ & _ & C1 & C2 & _ & _ & V1 & V2 & _).
  destruct (engine_fit_fitted P _ _ _ V Fi) as (i' & a' & f & rf & rb & Hi' & FE).
  pose proof (fe_array _ _ _ _ _ _ _ FE) as Ha'. rewrite Ha in Ha'. inversion Ha'; subst a'.
  assert (K : im_kind (en_irr e) = HybridPerezOrdered) by (rewrite (engine_fit_irr _ _ _ _ Fi); reflexivity).
  exists e, a, lit, shd. do 2 eexists. cbv zeta.
  repeat (split; [first [assumption | exact V1 | exact V2 | reflexivity | unfold let_through; cbn; lra]|]).
  split; eexists; (split; [|reflexivity]); [exact (key_circ _ _ _ _ _ _ _ FE K _ _ C1) | exact (key_circ _ _ _ _ _ _ _ FE K _ _ C2)].
Qed.

(** C47: surfaces of each category, with all the values that the theorems mention. *)
Example C47_example : forall P k, exists e i a lit shaded back ground ground_shaded,
  let e0 := ex_engine k default_calculator in
  let st := pv_store (en_array e) in
  valid_params (pv_params (en_array e0)) /\ engine_fit P e0 ex_raw = Ok e /\
  format_inputs ex_raw = Ok i /\ pv_fitted (en_array e) = Some a /\
  (forall g, ii_ghi i = Some g -> g 1%nat = ii_dni i 1%nat * cosd (ii_zenith i 1%nat) + ii_dhi i 1%nat) /\
  in_category a lit (CRow 1 false false) /\ in_category a shaded (CRow 2 false true) /\
  in_category a back (CRow 1 true false) /\ in_category a ground (CGround false) /\
  in_category a ground_shaded (CGround true) /\
  forall s key, In s [lit; shaded; back; ground; ground_shaded] ->
    key = "total_perez"%string \/ key = "direct"%string \/ (k = HybridPerezOrdered /\ key = "circumsolar"%string) ->
    exists x, value_at st s key 1 x.
Proof.
  intros P k. destruct (C30_example P k) as (e & i & a & lit & shd & bck & gnd & V & Fi & Hi & Ha & _ & _ & _ & _ & C1 & C2 & C3 & C4 & _).
  destruct (engine_fit_fitted P _ _ _ V Fi) as (i' & a' & f & rf & rb & Hi' & FE).
  pose proof (fe_array _ _ _ _ _ _ _ FE) as Ha'. rewrite Ha in Ha'. inversion Ha'; subst a'. clear Ha'.
  rewrite Hi in Hi'. inversion Hi'; subst i'. clear Hi'.
  assert (G : exists gs, in_category a gs (CGround true)).
  { destruct (ex_fitted P k default_calculator ltac:(discriminate)) as (e2 & i2 & a2 & f2 & rf2 & rb2 & Fi2 & _ & _ & Ha2 & CE).
    rewrite Fi in Fi2. inversion Fi2; subst e2. rewrite Ha in Ha2. inversion Ha2; subst a2. exact (CE (CGround true) Logic.I). }
  destruct G as [gs C5].
  exists e, i, a, lit, shd, bck, gnd, gs. cbv zeta.
  repeat (split; [first [assumption | inversion Hi; subst i; cbn; discriminate]|]).
  assert (K : im_kind (en_irr e) = k) by (rewrite (engine_fit_irr _ _ _ _ Fi); reflexivity).
  intros s key Is Hk. assert (C : exists c, in_category a s c).
  { cbn in Is. destruct Is as [<-|[<-|[<-|[<-|[<-|[]]]]]]; eexists; eassumption. }
  destruct C as [c C]. destruct Hk as [-> | [-> | [Kh ->]]].
  - eexists; eexists; split; [exact (key_perez _ _ _ _ _ _ _ FE _ _ C) | reflexivity].
  - eexists; eexists; split; [exact (key_direct _ _ _ _ _ _ _ FE _ _ C) | reflexivity].
  - eexists; eexists; split; [exact (key_circ _ _ _ _ _ _ _ FE ltac:(congruence) _ _ C) | reflexivity].
Qed.

(** C52: absorbed part of the direct light, here without AOI functions: 99% of 1000 W/m2
    on a lit front surface. *)
Example C52_example : forall P k, exists e i a lit theta,
  let e0 := ex_engine k default_calculator in
  valid_params (pv_params (en_array e0)) /\ engine_fit P e0 ex_raw = Ok e /\
  format_inputs ex_raw = Ok i /\ pv_fitted (en_array e) = Some a /\
  im_rho_front (en_irr e0) = Some (1 / 100) /\ im_rho_back (en_irr e0) = Some (3 / 100) /\
  in_category a lit (CRow 1 false false) /\ value_at (pv_store (en_array e)) lit "direct" 1 1000 /\
  sun_from_normal i 1 false theta /\ value_at (pv_store (en_array e)) lit "direct_absorbed" 1 990.
Proof.
  intros P k. destruct (C30_example P k) as (e & i & a & lit & shd & bck & gnd & V & Fi & Hi & Ha & _ & _ & _ & _ & C1 & _ & _ & _ & V1 & _).
  assert (SN : sun_from_normal i 1 false 0).
  { split; [lra|]. inversion Hi; subst i. cbn [ii_tilt ii_azimuth ii_zenith ii_solar_azimuth ex_f fi_zenith fi_azimuth fi_tilt fi_surf_azimuth Nat.eqb].
    rewrite ex_sun_cosine. unfold cosd, deg2rad. replace (0 * PI / 180) with 0 by field. rewrite cos_0. ring. }
  exists e, i, a, lit, 0. cbv zeta. repeat (split; [first [assumption | reflexivity]|]).
  destruct (C52_absorbed_sources P _ _ _ _ _ _ _ 1%nat (1/100) (3/100) V Fi Hi Ha ltac:(reflexivity) ltac:(reflexivity) C1 "direct" _ V1 ltac:(left; reflexivity)) as (y & Vy & E).
  cbn [String.eqb] in E. replace (String.eqb "direct" "horizon") with false in E by reflexivity.
  specialize (E 0 SN). assert (y = 990) as E2 by (rewrite E; cbn; lra). rewrite E2 in Vy. exact Vy.
Qed.

(** C19, C22: a run in full mode of the example, with reflectivities that are not 0. *)
Example C19_example : forall P k, exists e e' i,
  let e0 := ex_engine k default_calculator in
  valid_params (pv_params (en_array e0)) /\ engine_fit P e0 ex_raw = Ok e /\ run_full_mode e = Ok e' /\
  format_inputs ex_raw = Ok i /\ (1 < ii_n i)%nat /\ ii_albedo i 1%nat <> 0 /\
  im_rho_front (en_irr e0) = Some (1 / 100) /\ im_rho_back (en_irr e0) = Some (3 / 100).
Proof.
  intros P k. destruct (ex_run P k default_calculator ltac:(discriminate)) as (e & e' & Fi & Ru).
  do 3 eexists. cbv zeta. split; [exact ex_valid|]. split; [exact Fi|]. split; [exact Ru|]. split; [reflexivity|].
  split; [cbn; lia|]. split; [cbn; lra|]. split; reflexivity.
Qed.

Example C22_example : forall P k, exists i a f e' s c,
  full_run P (ex_engine k default_calculator) ex_raw i a f e' /\ In s (all_ts_surfaces a) /\
  in_category a s c /\ cat_shaded c = true.
Proof.
  intros P k. destruct (ex_full_run P k default_calculator ltac:(discriminate)) as (i & a & f & e' & FR & N & PH).
  destruct FR as (V & Hi & (e1 & Fi & Ru1) & Ha & Hf).
  destruct (ex_fitted P k default_calculator ltac:(discriminate)) as (e2 & i2 & a2 & f2 & rf2 & rb2 & Fi2 & _ & FE2 & Ha2 & CE).
  rewrite Fi in Fi2. inversion Fi2; subst e2.
  destruct (run_points _ _ _ _ _ _ _ _ FE2 Ru1) as (_ & _ & A1 & _). rewrite Ha in A1. inversion A1; subst a2.
  destruct (CE (CRow 0 false true) ltac:(cbn; lia)) as [s C].
  exists i, a, f, e', s, (CRow 0 false true). 
  split; [split; [exact V|split; [exact Hi|split; [exists e1; split; assumption|split; assumption]]]|].
  split; [exact (category_surface _ _ _ C)|]. split; [exact C | reflexivity].
Qed.

(** C21: the run of C61_example has light that is not negative everywhere; the second
    run of the monotonicity is the same one. *)
Example C21_example : forall P, exists i a f e' qinc rho src,
  let e0 := ex_engine IsotropicOrdered default_calculator in
  full_run P e0 ex_raw i a f e' /\ (1 < ii_n i)%nat /\ physical e0 i a 1 /\ reflects e0 i 1 (1 / 5) /\
  published IsotropicOrdered (pv_store (en_array e')) (all_ts_surfaces a) 1 qinc rho src /\
  (forall s, In s (all_ts_surfaces a) -> 0 <= src s + vf_sky a 1 s * irr_sky_luminance f 1%nat) /\
  exists s, In s (all_ts_surfaces a) /\ 1000 <= qinc s.
Proof.
  intro P. destruct (C61_example P) as (i & a & f & e' & qinc & rho & src & FR & N & _ & _ & _ & PH & RE & _ & PB & NN).
  exists i, a, f, e', qinc, rho, src. cbv zeta. repeat (split; [assumption|]).
  destruct (C30_example P IsotropicOrdered) as (e & i2 & a2 & lit & shd & bck & gnd & V & Fi & Hi & Ha & _ & _ & _ & _ & C1 & _ & _ & _ & V1 & _).
  pose proof FR as (_ & _ & (e1 & Fi1 & Ru1) & Ha1 & _). rewrite Fi in Fi1. inversion Fi1; subst e1.
  destruct (engine_fit_fitted P _ _ _ V Fi) as (i3 & a3 & f3 & rf3 & rb3 & Hi3 & FE3).
  pose proof (fe_array _ _ _ _ _ _ _ FE3) as Ha3. rewrite Ha in Ha3. inversion Ha3; subst a3.
  destruct (run_full_values _ _ _ _ _ _ _ _ FE3 Ru1) as (inv & _ & A1 & _ & _ & _ & ST). rewrite Ha1 in A1. inversion A1; subst a2.
  pose proof (category_surface _ _ _ C1) as Il. exists lit. split; [exact Il|].
  destruct (C21_bounds P _ _ _ _ _ _ 1%nat (1/5) qinc rho src FR N PH RE ltac:(lra) PB NN lit Il) as (_ & B & _).
  destruct (PB lit Il) as (_ & _ & SR). cbn in SR.
  assert (E : src lit = 1000).
  { destruct SR as (v & Ev & <-). rewrite ST, fr_store_other in Ev by reflexivity. destruct V1 as (w & Ew & Ew1).
    rewrite Ew in Ev. inversion Ev; subst w. exact Ew1. }
  pose proof (physical_nonneg _ _ _ _ PH (surf_index a lit) (fr_n a)) as VS.
  destruct (full_run_inv _ _ _ _ _ _ _ FR) as (e4 & rf & rb & FE & Ru & EI & _).
  destruct (isotropic_fitted P (en_irr e4) i f ltac:(rewrite EI; reflexivity) (fe_irr _ _ _ _ _ _ _ FE)) as (IL & _).
  unfold vf_sky, irr_sky_luminance in B. unfold fr_F, fr_n in VS. rewrite IL in B.
  assert (Hi4 : format_inputs ex_raw = Ok i) by (destruct FR as (_ & H & _); exact H).
  assert (0 <= ii_dhi i 1%nat) by (inversion Hi4; cbn; lra). nra.
Qed.

(** C62: two runs of the same array with different pvlib models of the sky. *)
Example C62_example : forall P P', exists i a f e' f' e'' qinc rho src qinc' src',
  let e0 := ex_engine IsotropicOrdered default_calculator in
  let e0' := ex_engine HybridPerezOrdered default_calculator in
  full_run P e0 ex_raw i a f e' /\ full_run P' e0' ex_raw i a f' e'' /\
  (1 < ii_n i)%nat /\ ii_albedo i 1%nat <> 0 /\
  im_rho_front (en_irr e0) <> Some 0 /\ im_rho_back (en_irr e0) <> Some 0 /\
  im_rho_front (en_irr e0') <> Some 0 /\ im_rho_back (en_irr e0') <> Some 0 /\
  no_sliver_surface a 1 /\
  published IsotropicOrdered (pv_store (en_array e')) (all_ts_surfaces a) 1 qinc rho src /\
  published HybridPerezOrdered (pv_store (en_array e'')) (all_ts_surfaces a) 1 qinc' rho src'.
Proof.
  intros P P'. destruct (C61_example P) as (i & a & f & e' & qinc & rho & src & FR & N & AL & RF & RB & PH & RE & NS & PB & NN).
  destruct (ex_full_run P' HybridPerezOrdered default_calculator ltac:(discriminate)) as (i2 & a2 & f' & e'' & FR2 & N2 & PH2).
  assert (i2 = i) by (destruct FR as (_ & H & _), FR2 as (_ & H2 & _); congruence). subst i2.
  assert (a2 = a).
  { destruct PH as (al & SC), (PH2 1%nat ltac:(lia)) as ((al2 & SC2) & _). destruct SC as (_ & F & _), SC2 as (_ & F2 & _).
    rewrite fit_sun_up in F, F2. cbn in F, F2. congruence. }
  subst a2. destruct (published_exists _ _ _ _ _ _ _ 1%nat FR2) as (qinc' & rho2 & src' & PB2).
  assert (ER : forall s, In s (all_ts_surfaces a) -> rho2 s = rho s).
  { intros s Is. destruct (category_exists a s Is) as [c C].
    destruct (PB s Is) as (_ & R1 & _), (PB2 s Is) as (_ & R2 & _).
    destruct (full_run_inv _ _ _ _ _ _ _ FR) as (e4 & rf & rb & FE & Ru & EI & _ & F1 & B1).
    destruct (full_run_inv _ _ _ _ _ _ _ FR2) as (e5 & rf5 & rb5 & FE5 & Ru5 & EI5 & _ & F5 & B5).
    assert (rf5 = rf /\ rb5 = rb) by (cbn in F1, B1, F5, B5; split; congruence). destruct H as [-> ->].
    destruct (run_full_values _ _ _ _ _ _ _ _ FE Ru) as (inv & _ & _ & _ & _ & _ & ST).
    destruct (run_full_values _ _ _ _ _ _ _ _ FE5 Ru5) as (inv5 & _ & _ & _ & _ & _ & ST5).
    destruct R1 as (v & Ev & <-), R2 as (w & Ew & <-). rewrite ST, fr_store_other in Ev by reflexivity.
    rewrite ST5, fr_store_other in Ew by reflexivity.
    rewrite (key_rho _ _ _ _ _ _ _ FE s c C) in Ev. rewrite (key_rho _ _ _ _ _ _ _ FE5 s c C) in Ew. congruence. }
  exists i, a, f, e', f', e'', qinc, rho, src, qinc', src'. cbv zeta.
  repeat (split; [first [assumption | cbn; intro Z; inversion Z; lra]|]).
  intros s Is. destruct (PB2 s Is) as (A & B & C). rewrite (ER s Is) in B. split; [exact A|]. split; assumption.
Qed.

(** C24: a run without AOI function, and one with AOI functions that are not constant. *)
Example C24_example : forall P, exists i a f e',
  full_run P (ex_engine HybridPerezOrdered default_calculator) ex_raw i a f e' /\
  ca_aoi (en_calc (ex_engine HybridPerezOrdered default_calculator)) = None /\
  exists x rho, In x (all_ts_surfaces a) /\ value_at (pv_store (en_array e')) x "rho" 1 rho.
Proof.
  intro P. destruct (ex_full_run P HybridPerezOrdered default_calculator ltac:(discriminate)) as (i & a & f & e' & FR & N & PH).
  exists i, a, f, e'. split; [exact FR|]. split; [reflexivity|].
  destruct (published_exists _ _ _ _ _ _ _ 1%nat FR) as (qinc & rho & src & PB).
  assert (I : exists x, In x (all_ts_surfaces a)).
  { destruct (PH 1%nat ltac:(lia)) as ((al & SC) & _). destruct SC as (_ & F & _). cbn in F.
    destruct (categories_inhabited _ _ _ _ ex_valid F (CGround true) Logic.I) as [s C]. exists s. exact (category_surface _ _ _ C). }
  destruct I as [x I]. exists x, (rho x). split; [exact I|]. exact (proj1 (proj2 (PB x I))).
Qed.

(** C34: back surface of the middle row, which looks at the row on its left. *)
Example C34_back_example : forall P, exists e a s,
  let e0 := ex_engine HybridPerezOrdered default_calculator in
  valid_params (pv_params (en_array e0)) /\ engine_fit P e0 ex_raw = Ok e /\
  pv_fitted (en_array e) = Some a /\ in_category a s (CRow 1 true false) /\
  ft_rotation a 1%nat = -60 /\ 0 < im_horizon_band_angle (en_irr e0).
Proof.
  intro P. destruct (ex_fitted P HybridPerezOrdered default_calculator ltac:(discriminate)) as (e & i & a & f & rf & rb & Fi & Hi & FE & Ha & CE).
  destruct (CE (CRow 1 true false) ltac:(cbn; lia)) as [s C]. exists e, a, s. cbv zeta.
  split; [exact ex_valid|]. split; [exact Fi|]. split; [exact Ha|]. split; [exact C|]. split; [|cbn; lra].
  pose proof (fe_fit _ _ _ _ _ _ _ FE) as F. rewrite (proj1 (engine_fit_params _ _ _ _ Fi)) in F. inversion Hi; subst i.
  change (fit ex_p 2 ex_f = Some a) in F. rewrite (proj1 (proj2 (fit_spec _ _ _ _ F))). exact ex_rot1.
Qed.
