(** What the irradiance models publish, in terms of the inputs and of what pvlib returns. *)
From Coq Require Import Reals List Bool Arith String Lra Lia ZArith FunctionalExtensionality.
From Verif Require Import Num ModelTs ModelGeom ModelVF Basics SpecGeom ProofAngles ProofShade ProofRow ProofFit ProofGeom ProofGeom2 PropGeom ModelParams SpecParams ProofParams ModelIrr SpecIrr ProofIrr ProofSky ModelAOI ModelEngine SpecRun ProofEngine PropEngine PropIrr PropRun.
Import ListNotations.
Open Scope R_scope.

(** Components returned by pvlib for a surface of given tilt and azimuth at [t]. *)
Definition perez_of (P : pvlib) (i : irr_inputs) (t : nat) (tilt azimuth : R) : perez_components :=
  pl_perez P (ii_time i t) tilt azimuth (ii_dhi i t) (ii_dni i t) (ii_zenith i t) (ii_solar_azimuth i t).

(** Azimuth [x] between 0 and 360 opposite to [azimuth]. *)
Definition opposite_azimuth (azimuth x : R) : Prop := 0 <= x < 360 /\ exists k, azimuth - 180 = 360 * IZR k + x.

Lemma front_cosine : forall i t,
  front_is_illum i t = true <-> 0 <= sun_cosine (ii_tilt i t) (ii_azimuth i t) (ii_zenith i t) (ii_solar_azimuth i t).
Proof.
  intros i t. rewrite front_is_illum_spec. apply Rleb_true.
Qed.

Lemma circumsolar_at : forall P e0 raw e i a s c t x, valid_params (pv_params (en_array e0)) -> engine_fit P e0 raw = Ok e ->
  format_inputs raw = Ok i -> pv_fitted (en_array e) = Some a -> im_kind (en_irr e0) = HybridPerezOrdered ->
  in_category a s c -> cat_shaded c = false -> (t < ii_n i)%nat -> value_at (pv_store (en_array e)) s "circumsolar" t x ->
  let o := perez_value P (PerezRow (ii_time i t) (ii_tilt i t) (ii_azimuth i t) (ii_zenith i t)
                  (ii_solar_azimuth i t) (ii_dni i t) (ii_dhi i t)) in
  x = match c with
      | CGround _ => po_luminance_circumsolar o
      | CRow _ false _ => if front_is_illum i t then po_poa_circumsolar o else 0
      | CRow _ true _ => if front_is_illum i t then 0
                         else po_luminance_circumsolar o * fdiv (cosd (aoi_back i t)) (cosd (ii_zenith i t))
      end.
Proof.
  intros P e0 raw e i a s c t x V Fi Hi Ha HY0 C SH T (v & E & <-) o.
  destruct (engine_fit_fitted _ _ _ _ V Fi) as (i' & a' & f & rf & rb & Hi' & FE).
  rewrite Hi in Hi'. inversion Hi'; subst i'.
  rewrite (fe_array _ _ _ _ _ _ _ FE) in Ha. inversion Ha; subst a'.
  assert (HY : im_kind (en_irr e) = HybridPerezOrdered) by (rewrite (engine_fit_irr _ _ _ _ Fi); exact HY0).
  rewrite (key_circ _ _ _ _ _ _ _ FE HY s _ C) in E.
  apply (f_equal (fun o => match o with Ok (PArr v) => v t | _ => 0 end)) in E. rewrite <- E.
  destruct (hybrid_fitted _ _ _ _ HY (fe_irr _ _ _ _ _ _ _ FE)) as (-> & _).
  pose proof (perez_nth P i t T) as PN. fold o in PN.
  destruct c as [sh|j b sh]; cbn in SH; subst sh; [|destruct b];
    cbn [cat_of gnd_pick cat_pick fit_circumsolar bc_ground_illum bc_front_illum bc_back_illum];
    unfold poa_circumsolar_back, np_where; rewrite PN; try reflexivity; destruct (front_is_illum i t); reflexivity.
Qed.

(** C53: circumsolar light on the surfaces which are not shaded. [behind] are the
    components for the surface turned over. The factor [Rmax cos85 cosz / cosz] on the
    backs is 1 for a zenith up to 85 degrees. *)
Theorem C53_circumsolar : forall P e0 raw e i a s c t x azb,
  valid_params (pv_params (en_array e0)) -> engine_fit P e0 raw = Ok e ->
  format_inputs raw = Ok i -> pv_fitted (en_array e) = Some a ->
  im_kind (en_irr e0) = HybridPerezOrdered ->
  in_category a s c -> cat_shaded c = false -> (t < ii_n i)%nat ->
  value_at (pv_store (en_array e)) s "circumsolar" t x -> opposite_azimuth (ii_azimuth i t) azb ->
  let front := perez_of P i t (ii_tilt i t) (ii_azimuth i t) in
  let behind := perez_of P i t (180 - ii_tilt i t) azb in
  let cosine := sun_cosine (ii_tilt i t) (ii_azimuth i t) (ii_zenith i t) (ii_solar_azimuth i t) in
  let cosz := cosd (ii_zenith i t) in
  match c with
  | CGround _ =>
      (0 < cosine -> (pc_sky_diffuse front <> 0 -> x * cosine = pc_circumsolar front * Rmax cosz (cosd 85)) /\
                     (pc_sky_diffuse front = 0 -> x = 0)) /\
      (cosine < 0 -> ii_zenith i t <= 90 ->
         (pc_sky_diffuse behind <> 0 -> x * - cosine = pc_circumsolar behind * Rmax cosz (cosd 85)) /\
         (pc_sky_diffuse behind = 0 -> x = 0))
  | CRow _ false _ =>
      (0 <= cosine -> x = pc_circumsolar front) /\ (cosine < 0 -> x = 0)
  | CRow _ true _ =>
      (0 <= cosine -> x = 0) /\
      (cosine < 0 -> ii_zenith i t <= 90 -> cosz <> 0 ->
         (pc_sky_diffuse behind <> 0 -> x = pc_circumsolar behind * (Rmax cosz (cosd 85) / cosz)) /\
         (pc_sky_diffuse behind = 0 -> x = 0))
  end.
Proof.
  intros P e0 raw e i a s c t x azb V Fi Hi Ha HY C SH T X (AR & k & AK) front behind cosine cosz.
  pose proof (circumsolar_at _ _ _ _ _ _ _ _ _ _ V Fi Hi Ha HY C SH T X) as XE. cbn zeta in XE.
  set (r := PerezRow (ii_time i t) (ii_tilt i t) (ii_azimuth i t) (ii_zenith i t) (ii_solar_azimuth i t) (ii_dni i t) (ii_dhi i t)) in *.
  destruct (C35_values P [r] 2 ltac:(lia)) as (outs & EO & _ & K).
  rewrite perez_two in EO. inversion EO; subst outs. clear EO.
  destruct (K 0%nat r eq_refl) as (o & Eo & K1). cbn in Eo. inversion Eo; subst o. clear Eo K. cbn zeta in K1.
  set (o := perez_value P r) in *.
  assert (AB : pr_azimuth (flip_row r) = azb) by (cbn; apply (py_mod_unique _ _ _ k); [lra | exact AR | exact AK]).
  rewrite AB in K1. cbn [pr_time pr_tilt pr_azimuth pr_zenith pr_solar_azimuth pr_dni pr_dhi flip_row r] in K1.
  fold front behind cosine cosz in K1. change (perez_of P i t (ii_tilt i t) (ii_azimuth i t)) with front in K1.
  destruct K1 as (PC & _ & _ & _ & _ & L1 & L2 & L3 & L4).
  pose proof (front_cosine i t) as FC. fold cosine in FC.
  assert (CB : cosd (aoi_back i t) = - cosine).
  { unfold aoi_back, aoi_front. rewrite cosd_back, cosd_aoi. reflexivity. }
  destruct c as [sh|j [] sh].
  - subst x. split.
    + intro H. assert (NB : ~ (cosine < 0 /\ ii_zenith i t <= 90)) by lra. split; intro D; [exact (L2 NB D H) | exact (L1 NB D)].
    + intros H Z. split; intro D; [exact (L4 (conj H Z) D) | exact (L3 (conj H Z) D)].
  - subst x. destruct (front_is_illum i t).
    + split; [reflexivity|]. intro H. exfalso. pose proof (proj1 FC eq_refl). lra.
    + split; [intro H; apply FC in H; discriminate|]. intros H Z NZ. split; intro D.
      * rewrite CB. unfold fdiv. fold cosz. destruct (Req_EM_T cosz 0); [contradiction|].
        pose proof (L4 (conj H Z) D) as Q.
        replace (po_luminance_circumsolar o * (- cosine / cosz)) with (po_luminance_circumsolar o * - cosine / cosz) by (field; assumption).
        rewrite Q. change (pl_perez _ _ _ _ _ _ _ _) with behind. change (cosd (pr_zenith r)) with cosz. unfold Rdiv. ring.
      * rewrite (L3 (conj H Z) D). ring.
  - subst x. destruct (front_is_illum i t).
    + split; [intros _; exact PC|]. intro H. pose proof (proj1 FC eq_refl). lra.
    + split; [intro H; apply FC in H; discriminate | reflexivity].
Qed.
Print Assumptions C53_circumsolar.

(** Horizon light: published as it is on the fronts, before the shading on the backs. *)
Theorem C53_horizon : forall P e0 raw e i a s j (back sh : bool) t,
  valid_params (pv_params (en_array e0)) -> engine_fit P e0 raw = Ok e ->
  format_inputs raw = Ok i -> pv_fitted (en_array e) = Some a ->
  im_kind (en_irr e0) = HybridPerezOrdered ->
  in_category a s (CRow j back sh) -> (t < ii_n i)%nat ->
  value_at (pv_store (en_array e)) s (if back then "horizon_unshaded" else "horizon") t
    (Rabs (pc_horizon (perez_of P i t (ii_tilt i t) (ii_azimuth i t)))).
Proof.
  intros P e0 raw e i a s j back sh t V Fi Hi Ha HY0 C T.
  destruct (engine_fit_fitted _ _ _ _ V Fi) as (i' & a' & f & rf & rb & Hi' & FE).
  rewrite Hi in Hi'. inversion Hi'; subst i'.
  rewrite (fe_array _ _ _ _ _ _ _ FE) in Ha. inversion Ha; subst a'.
  assert (HY : im_kind (en_irr e) = HybridPerezOrdered) by (rewrite (engine_fit_irr _ _ _ _ Fi); exact HY0).
  destruct (hybrid_fitted _ _ _ _ HY (fe_irr _ _ _ _ _ _ _ FE)) as (_ & _ & HF & HB & _).
  destruct back.
  - eexists. split.
    + apply (fe_value _ _ _ _ _ _ _ FE s _ _ (PArr (if_horizon_back f)) C). unfold cat_dict. rewrite HY. destruct sh; cbn; tauto.
    + rewrite HB, perez_nth by exact T. reflexivity.
  - eexists. split; [exact (key_horizon _ _ _ _ _ _ _ FE HY s _ C)|]. cbn [cat_horizon]. rewrite HF, perez_nth by exact T. reflexivity.
Qed.
Print Assumptions C53_horizon.

(** Luminance of the sky dome. *)
Theorem C53_sky : forall P e0 raw e i f t,
  valid_params (pv_params (en_array e0)) -> engine_fit P e0 raw = Ok e ->
  format_inputs raw = Ok i -> en_irr_fitted e = Some f -> (t < ii_n i)%nat ->
  match im_kind (en_irr e0) with
  | IsotropicOrdered => irr_sky_luminance f t = ii_dhi i t
  | HybridPerezOrdered =>
      let front := perez_of P i t (ii_tilt i t) (ii_azimuth i t) in
      (pc_sky_diffuse front = 0 -> irr_sky_luminance f t = 0) /\
      (pc_sky_diffuse front <> 0 -> cosd (ii_tilt i t) <> -1 ->
       irr_sky_luminance f t * ((1 + cosd (ii_tilt i t)) / 2) = pc_isotropic front)
  end.
Proof.
  intros P e0 raw e i f t V Fi Hi Hf T.
  destruct (engine_fit_fitted _ _ _ _ V Fi) as (i' & a & f' & rf & rb & Hi' & FE).
  rewrite Hi in Hi'. inversion Hi'; subst i'.
  rewrite (fe_irr_fitted _ _ _ _ _ _ _ FE) in Hf. inversion Hf; subst f'. rewrite <- (engine_fit_irr _ _ _ _ Fi).
  destruct (im_kind (en_irr e)) eqn:HY.
  - destruct (isotropic_fitted _ _ _ _ HY (fe_irr _ _ _ _ _ _ _ FE)) as (IL & _). unfold irr_sky_luminance. rewrite IL. reflexivity.
  - destruct (hybrid_fitted _ _ _ _ HY (fe_irr _ _ _ _ _ _ _ FE)) as (_ & IL & _). unfold irr_sky_luminance. rewrite IL, perez_nth by exact T.
    set (r := PerezRow (ii_time i t) (ii_tilt i t) (ii_azimuth i t) (ii_zenith i t) (ii_solar_azimuth i t) (ii_dni i t) (ii_dhi i t)) in *.
    destruct (C35_values P [r] 2 ltac:(lia)) as (outs & EO & _ & K).
    rewrite perez_two in EO. inversion EO; subst outs. clear EO.
    destruct (K 0%nat r eq_refl) as (o & Eo & K1). cbn in Eo. inversion Eo; subst o. clear Eo K. cbn zeta in K1.
    destruct K1 as (_ & _ & I0 & I1 & _). split; [intro D; exact (proj1 (I0 D)) | intros D N; exact (I1 D N)].
Qed.
Print Assumptions C53_sky.

(** Total of the sky model, kept for the fast mode: GHI on the illuminated ground (DNI on
    a horizontal plane plus DHI when it is not given), plane of array irradiance from
    pvlib on the illuminated fronts. *)
Theorem C53_total : forall P e0 raw e i a s c t x,
  valid_params (pv_params (en_array e0)) -> engine_fit P e0 raw = Ok e ->
  format_inputs raw = Ok i -> pv_fitted (en_array e) = Some a ->
  in_category a s c -> value_at (pv_store (en_array e)) s "total_perez" t x ->
  let ghi := match ii_ghi i with
             | Some g => g t
             | None => ii_dni i t * cosd (ii_zenith i t) + ii_dhi i t
             end in
  match c with
  | CGround false => x = ghi
  | CRow _ false false => x = pl_poa_global P (ii_tilt i t) (ii_azimuth i t) (ii_zenith i t) (ii_solar_azimuth i t)
                                (ii_dni i t) ghi (ii_dhi i t) (ii_albedo i t)
  | CRow _ true _ => x = 0
  | _ => True
  end.
Proof.
  intros P e0 raw e i a s c t x V Fi Hi Ha C (v & E & <-) ghi.
  destruct (engine_fit_fitted _ _ _ _ V Fi) as (i' & a' & f & rf & rb & Hi' & FE).
  rewrite Hi in Hi'. inversion Hi'; subst i'.
  rewrite (fe_array _ _ _ _ _ _ _ FE) in Ha. inversion Ha; subst a'.
  rewrite (key_perez _ _ _ _ _ _ _ FE s _ C) in E.
  apply (f_equal (fun o => match o with Ok (PArr v) => v t | _ => 0 end)) in E.
  assert (G : if_ghi f = fit_ghi i /\ if_perez_front_illum f = fit_poa_global P i).
  { destruct (im_kind (en_irr e)) eqn:HY.
    - destruct (isotropic_fitted _ _ _ _ HY (fe_irr _ _ _ _ _ _ _ FE)) as (_ & G1 & G2 & _). tauto.
    - destruct (hybrid_fitted _ _ _ _ HY (fe_irr _ _ _ _ _ _ _ FE)) as (_ & _ & _ & _ & G1 & G2 & _). tauto. }
  destruct G as [G1 G2].
  assert (GH : fit_ghi i t = ghi) by (unfold fit_ghi, ghi; destruct (ii_ghi i); reflexivity).
  destruct c as [[]|j [] []]; try exact I; rewrite <- E; cbn [cat_perez perez_pick cat_of cat_pick]; try reflexivity.
  - unfold irr_gnd_illum. rewrite G1. exact GH.
  - unfold irr_pvrow_illum. rewrite G2. unfold fit_poa_global. rewrite GH. reflexivity.
Qed.
Print Assumptions C53_total.

(** Concrete case: sun facing the rows of the array of three rows at the second timestep. *)
Example C53_example : forall P k, exists e i a s sh x,
  engine_fit P (ex_engine k default_calculator) ex_raw = Ok e /\ format_inputs ex_raw = Ok i /\
  pv_fitted (en_array e) = Some a /\ in_category a s (CRow 1 false sh) /\ (1 < ii_n i)%nat /\
  value_at (pv_store (en_array e)) s "direct" 1 x /\ opposite_azimuth (ii_azimuth i 1%nat) 270 /\
  sun_cosine (ii_tilt i 1%nat) (ii_azimuth i 1%nat) (ii_zenith i 1%nat) (ii_solar_azimuth i 1%nat) = 1.
Proof.
  intros P k. destruct (ex_engine_fit P k default_calculator ltac:(discriminate)) as [e Fi].
  destruct (engine_fit_fitted P (ex_engine k default_calculator) ex_raw e ex_valid Fi) as (i & a & f & rf & rb & Hi & FE).
  pose proof Hi as Hi'. inversion Hi'; subst i. clear Hi'.
  pose proof (fe_fit _ _ _ _ _ _ _ FE) as F. unfold fit_of in F. rewrite (proj1 (ProofRun.engine_fit_params _ _ _ _ Fi)) in F.
  change (fit ex_p 2 ex_f = Some a) in F.
  destruct (PropVF.ex_surfaces a F) as (row & x & _ & Hr & Hx & _).
  unfold side_surfaces in Hx. apply in_flat_map in Hx. destruct Hx as (seg & Ig & Is). unfold seg_surfaces in Is.
  assert (C : exists sh, in_category a x (CRow 1 false sh)).
  { apply in_app_or in Is. destruct Is as [Is|Is]; [exists false | exists true]; exists row, seg; repeat split; assumption. }
  destruct C as [sh C].
  do 5 eexists. eexists. split; [exact Fi|]. split; [exact Hi|]. split; [exact (fe_array _ _ _ _ _ _ _ FE)|]. split; [exact C|].
  split; [cbn; lia|]. split; [eexists; split; [exact (key_direct _ _ _ _ _ _ _ FE x _ C) | reflexivity]|].
  split; [split; [lra|]; exists (-1)%Z; cbn; lra|].
  rewrite <- aoi_projection_dot. unfold aoi_projection. cbn [ii_tilt ii_azimuth ii_zenith ii_solar_azimuth ex_f fi_zenith fi_azimuth fi_tilt fi_surf_azimuth Nat.eqb].
  replace (90 - 90) with 0 by ring. unfold cosd, sind, deg2rad. replace (0 * PI / 180) with 0 by field. rewrite cos_0.
  pose proof (sin2_cos2 (60 * PI / 180)) as Q. unfold Rsqr in Q. lra.
Qed.
