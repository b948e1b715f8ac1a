(** Properties of the irradiance models. *)
From Coq Require Import Reals List Bool Arith String Lra Lia FunctionalExtensionality.
From Verif Require Import Num ModelTs ModelGeom ModelVF Basics SpecGeom ProofAngles ProofShade ProofRow ProofFit ProofGeom ProofGeom2 PropGeom ModelParams SpecParams ProofParams ModelIrr SpecIrr ProofIrr ProofSky ProofHorizon ModelAOI ModelEngine SpecRun ProofEngine PropEngine.
Import ListNotations.
Open Scope R_scope.

Lemma engine_fit_irr : forall P e0 raw e, engine_fit P e0 raw = Ok e -> en_irr e = en_irr e0.
Proof.
  intros P e0 raw e Fi. unfold engine_fit in Fi. apply bind_ok in Fi. destruct Fi as (i & _ & Fi).
  destruct (engine_fit_arrays_inv _ _ _ _ Fi) as (? & ? & ? & ? & ? & ? & _ & _ & _ & _ & _ & _ & ->).
  reflexivity.
Qed.

Lemma perez_nth : forall P i t, (t < ii_n i)%nat ->
  nth t (map (perez_value P) (perez_inputs i)) perez_out0 =
  perez_value P (PerezRow (ii_time i t) (ii_tilt i t) (ii_azimuth i t) (ii_zenith i t)
                  (ii_solar_azimuth i t) (ii_dni i t) (ii_dhi i t)).
Proof.
  intros P i t T. unfold perez_inputs. rewrite map_map.
  set (g := fun t => perez_value P (PerezRow (ii_time i t) (ii_tilt i t) (ii_azimuth i t) (ii_zenith i t)
                  (ii_solar_azimuth i t) (ii_dni i t) (ii_dhi i t))).
  change (nth t (map g (seq 0 (ii_n i))) perez_out0 = g t).
  rewrite (nth_indep _ perez_out0 (g 0%nat)) by (rewrite map_length, seq_length; exact T).
  rewrite (map_nth g), seq_nth by exact T. reflexivity.
Qed.

(** The attributes written by the hybrid model. *)
Lemma hybrid_fitted : forall P m i f, im_kind m = HybridPerezOrdered -> irr_fit P m i = Ok f ->
  let outs := map (perez_value P) (perez_inputs i) in
  if_circumsolar f = fit_circumsolar m i outs /\
  if_isotropic_luminance f = (fun t => po_luminance_isotropic (nth t outs perez_out0)) /\
  if_horizon_front f = (fun t => Rabs (po_poa_horizon (nth t outs perez_out0))) /\
  if_horizon_back f = (fun t => Rabs (po_poa_horizon (nth t outs perez_out0))) /\
  if_ghi f = fit_ghi i /\ if_perez_front_illum f = fit_poa_global P i /\
  if_perez_front_shaded f = (fun t => fit_poa_global P i t - bc_front_illum (if_direct f) t - bc_front_illum (if_circumsolar f) t
                      + bc_front_shaded (if_direct f) t + bc_front_shaded (if_circumsolar f) t) /\
  if_perez_ground_shaded f = (fun t => ii_dhi i t - bc_ground_illum (if_circumsolar f) t + bc_ground_shaded (if_circumsolar f) t
                      + bc_ground_shaded (if_direct f) t).
Proof.
  intros P m i f K H. unfold irr_fit in H. rewrite K in H. unfold fit_hybrid in H.
  rewrite perez_two in H. apply bind_ok in H. destruct H as (ff & _ & H).
  apply bind_ok in H. destruct H as (fb & _ & H). inversion H; subst f. cbn. repeat split.
Qed.
Lemma isotropic_fitted : forall P m i f, im_kind m = IsotropicOrdered -> irr_fit P m i = Ok f ->
  if_isotropic_luminance f = ii_dhi i /\
  if_ghi f = fit_ghi i /\ if_perez_front_illum f = fit_poa_global P i /\
  if_perez_front_shaded f = (fun t => fit_poa_global P i t - bc_front_illum (if_direct f) t) /\
  if_perez_ground_shaded f = (fun t => ii_dhi i t + bc_ground_shaded (if_direct f) t).
Proof.
  intros P m i f K H. unfold irr_fit in H. rewrite K in H. unfold fit_isotropic in H.
  apply bind_ok in H. destruct H as (ff & _ & H).
  apply bind_ok in H. destruct H as (fb & _ & H). inversion H; subst f. cbn. repeat split.
Qed.

Lemma direct_of : forall P m i f c t, irr_fit P m i = Ok f ->
  cat_of (if_direct f) c t =
  ii_dni i t * incidence (ii_tilt i t) (ii_azimuth i t) (ii_zenith i t) (ii_solar_azimuth i t) c
  * (if cat_shaded c then let_through (im_spacing m) (im_transparency m) else 1).
Proof.
  intros P m i f c t H. destruct (irr_fit_albedo _ _ _ _ H) as (_ & _ & _ & -> & _).
  destruct c as [[]|j [] []]; cbn [cat_of gnd_pick cat_pick incidence cat_shaded].
  - cbn [fit_direct bc_ground_shaded]. unfold through_modules, let_through. ring.
  - cbn [fit_direct bc_ground_illum]. ring.
  - rewrite <- (direct_back m i t). cbn [fit_direct bc_back_shaded bc_back_illum]. unfold through_modules, let_through. ring.
  - rewrite <- (direct_back m i t). ring.
  - rewrite <- (direct_front m i t). cbn [fit_direct bc_front_shaded bc_front_illum]. unfold through_modules, let_through. ring.
  - rewrite <- (direct_front m i t). ring.
Qed.

(** C30: published direct light of every surface. *)
Theorem C30_direct : forall P e0 raw e,
  valid_params (pv_params (en_array e0)) -> engine_fit P e0 raw = Ok e ->
  exists i a, format_inputs raw = Ok i /\ pv_fitted (en_array e) = Some a /\
  forall t s c, in_category a s c ->
    value_at (pv_store (en_array e)) s "direct" t
      (ii_dni i t * incidence (ii_tilt i t) (ii_azimuth i t) (ii_zenith i t) (ii_solar_azimuth i t) c
       * (if cat_shaded c then let_through (im_spacing (en_irr e0)) (im_transparency (en_irr e0)) else 1)).
Proof.
  intros P e0 raw e V Fi. destruct (engine_fit_fitted _ _ _ _ V Fi) as (i & a & f & rf & rb & Hi & FE).
  exists i, a. split; [exact Hi|]. split; [exact (fe_array _ _ _ _ _ _ _ FE)|]. intros t s c C.
  exists (cat_of (if_direct f) c). split; [exact (key_direct _ _ _ _ _ _ _ FE s c C)|].
  rewrite <- (engine_fit_irr _ _ _ _ Fi). exact (direct_of _ _ _ _ c t (fe_irr _ _ _ _ _ _ _ FE)).
Qed.
Print Assumptions C30_direct.

Lemma let_through_bounds : forall s t, 0 <= s <= 1 -> 0 <= t <= 1 -> 0 <= let_through s t <= 1.
Proof. intros s t S T. unfold let_through. split; nra. Qed.

(** ... hence never negative, never above DNI, and on one side at most. *)
Theorem C30_bounds : forall P e0 raw e i a s c t x,
  valid_params (pv_params (en_array e0)) -> engine_fit P e0 raw = Ok e ->
  format_inputs raw = Ok i -> pv_fitted (en_array e) = Some a ->
  0 <= im_spacing (en_irr e0) <= 1 -> 0 <= im_transparency (en_irr e0) <= 1 ->
  0 <= ii_zenith i t <= 90 -> 0 <= ii_dni i t ->
  in_category a s c -> value_at (pv_store (en_array e)) s "direct" t x ->
  0 <= x <= ii_dni i t.
Proof.
  intros P e0 raw e i a s c t x V Fi Hi Ha Sp Tr Z D C (v & E & <-).
  destruct (C30_direct _ _ _ _ V Fi) as (i' & a' & Hi' & Ha' & K).
  rewrite Hi in Hi'. inversion Hi'; subst i'. rewrite Ha in Ha'. inversion Ha'; subst a'.
  destruct (K t s c C) as (v' & E' & Ev). rewrite E in E'.
  apply (f_equal (fun o => match o with Ok (PArr v) => v t | _ => 0 end)) in E'. rewrite E', Ev.
  pose proof (let_through_bounds _ _ Sp Tr) as L.
  assert (I : 0 <= incidence (ii_tilt i t) (ii_azimuth i t) (ii_zenith i t) (ii_solar_azimuth i t) c <= 1).
  { pose proof (sun_cosine_bound (ii_tilt i t) (ii_azimuth i t) (ii_zenith i t) (ii_solar_azimuth i t)) as B.
    destruct c as [sh|j [] sh]; cbn [incidence].
    - pose proof (cosd_bound (ii_zenith i t)). split; [|lra]. apply cosd_nonneg_iff; lra.
    - split; [apply Rmax_l | apply Rmax_lub; lra].
    - split; [apply Rmax_l | apply Rmax_lub; lra]. }
  set (inc := incidence _ _ _ _ c) in *. set (th := let_through _ _) in *. clearbody inc th.
  assert (A : 0 <= ii_dni i t * inc <= ii_dni i t) by (split; nra).
  destruct (cat_shaded c); [|lra]. split; nra.
Qed.
Print Assumptions C30_bounds.

Theorem C30_one_side : forall P e0 raw e a s s' j j' sh sh' t,
  valid_params (pv_params (en_array e0)) -> engine_fit P e0 raw = Ok e ->
  pv_fitted (en_array e) = Some a ->
  in_category a s (CRow j false sh) -> in_category a s' (CRow j' true sh') ->
  forall k, k = "direct"%string \/ (k = "circumsolar"%string /\ im_kind (en_irr e0) = HybridPerezOrdered) ->
  exists x x', value_at (pv_store (en_array e)) s k t x /\
    value_at (pv_store (en_array e)) s' k t x' /\ (x = 0 \/ x' = 0).
Proof.
  intros P e0 raw e a s s' j j' sh sh' t V Fi Ha C C' k K.
  destruct (engine_fit_fitted _ _ _ _ V Fi) as (i & a' & f & rf & rb & Hi & FE).
  rewrite (fe_array _ _ _ _ _ _ _ FE) in Ha. inversion Ha; subst a'.
  destruct K as [-> | [-> K]].
  - exists (cat_of (if_direct f) (CRow j false sh) t), (cat_of (if_direct f) (CRow j' true sh') t).
    split; [eexists; split; [apply (key_direct _ _ _ _ _ _ _ FE s _ C) | reflexivity]|].
    split; [eexists; split; [apply (key_direct _ _ _ _ _ _ _ FE s' _ C') | reflexivity]|].
    rewrite !(direct_of _ _ _ _ _ t (fe_irr _ _ _ _ _ _ _ FE)). cbn [incidence].
    unfold Rmax. destruct (Rle_dec 0 (sun_cosine _ _ _ _)) as [A|A]; [right|left; ring].
    destruct (Rle_dec 0 (- _)); [|ring].
    replace (- sun_cosine (ii_tilt i t) (ii_azimuth i t) (ii_zenith i t) (ii_solar_azimuth i t)) with 0 by lra. ring.
  - assert (HY : im_kind (en_irr e) = HybridPerezOrdered) by (rewrite (engine_fit_irr _ _ _ _ Fi); exact K).
    exists (cat_of (if_circumsolar f) (CRow j false sh) t), (cat_of (if_circumsolar f) (CRow j' true sh') t).
    split; [eexists; split; [apply (key_circ _ _ _ _ _ _ _ FE HY s _ C) | reflexivity]|].
    split; [eexists; split; [apply (key_circ _ _ _ _ _ _ _ FE HY s' _ C') | reflexivity]|].
    destruct (hybrid_fitted _ _ _ _ HY (fe_irr _ _ _ _ _ _ _ FE)) as (-> & _).
    unfold cat_of, fit_circumsolar, np_where, through_modules.
    destruct (front_is_illum i t) eqn:Fr; [right; destruct sh' | left; destruct sh];
      cbn [cat_pick bc_front_illum bc_front_shaded bc_back_illum bc_back_shaded];
      rewrite Fr; cbn [negb]; ring.
Qed.
Print Assumptions C30_one_side.

(** C31. *)
Theorem C31_shaded_fraction : forall P e0 raw e a s s' c c' t x x',
  valid_params (pv_params (en_array e0)) -> engine_fit P e0 raw = Ok e ->
  pv_fitted (en_array e) = Some a ->
  in_category a s c -> in_category a s' c' -> same_kind c c' ->
  cat_shaded c = false -> cat_shaded c' = true ->
  forall k, k = "direct"%string \/ (k = "circumsolar"%string /\ im_kind (en_irr e0) = HybridPerezOrdered) ->
  value_at (pv_store (en_array e)) s k t x -> value_at (pv_store (en_array e)) s' k t x' ->
  x' = x * let_through (im_spacing (en_irr e0)) (im_transparency (en_irr e0)).
Proof.
  intros P e0 raw e a s s' c c' t x x' V Fi Ha C C' SK SH SH' k K (v & E & <-) (v' & E' & <-).
  destruct (engine_fit_fitted _ _ _ _ V Fi) as (i & a' & f & rf & rb & Hi & FE).
  rewrite (fe_array _ _ _ _ _ _ _ FE) in Ha. inversion Ha; subst a'.
  rewrite <- (engine_fit_irr _ _ _ _ Fi) in *.
  destruct K as [-> | [-> HY]].
  - rewrite (key_direct _ _ _ _ _ _ _ FE s _ C) in E. rewrite (key_direct _ _ _ _ _ _ _ FE s' _ C') in E'.
    apply (f_equal (fun o => match o with Ok (PArr v) => v t | _ => 0 end)) in E, E'. rewrite <- E, <- E'.
    rewrite !(direct_of _ _ _ _ _ t (fe_irr _ _ _ _ _ _ _ FE)). rewrite SH, SH'.
    replace (incidence (ii_tilt i t) (ii_azimuth i t) (ii_zenith i t) (ii_solar_azimuth i t) c')
      with (incidence (ii_tilt i t) (ii_azimuth i t) (ii_zenith i t) (ii_solar_azimuth i t) c); [ring|].
    destruct c as [|j b sh], c' as [|j' b' sh']; cbn in SK; try contradiction; [reflexivity | subst b'; reflexivity].
  - rewrite (key_circ _ _ _ _ _ _ _ FE HY s _ C) in E. rewrite (key_circ _ _ _ _ _ _ _ FE HY s' _ C') in E'.
    apply (f_equal (fun o => match o with Ok (PArr v) => v t | _ => 0 end)) in E, E'. rewrite <- E, <- E'.
    destruct (hybrid_fitted _ _ _ _ HY (fe_irr _ _ _ _ _ _ _ FE)) as (-> & _).
    unfold let_through.
    destruct c as [|j b sh], c' as [|j' b' sh']; cbn in SK, SH, SH'; try contradiction; subst;
      cbn [cat_of cat_pick gnd_pick fit_circumsolar bc_ground_illum bc_ground_shaded].
    + unfold through_modules. ring.
    + destruct b'; cbn [cat_pick fit_circumsolar bc_front_illum bc_front_shaded bc_back_illum bc_back_shaded];
        unfold through_modules; ring.
Qed.
Print Assumptions C31_shaded_fraction.

Theorem C31_fraction : forall x s t s' t',
  0 <= s <= 1 -> 0 <= t <= 1 -> 0 <= s' <= 1 -> 0 <= t' <= 1 -> 0 <= x ->
  0 <= x * let_through s t <= x /\
  x * let_through 0 0 = 0 /\ x * let_through s 1 = x /\ x * let_through 1 t = x /\
  (s <= s' -> t <= t' -> x * let_through s t <= x * let_through s' t').
Proof.
  intros x s t s' t' S T S' T' X. pose proof (let_through_bounds s t S T) as B. unfold let_through in *.
  repeat split; try nra. intros A C.
  assert (s + (1 - s) * t <= s' + (1 - s') * t') by nra. nra.
Qed.
Print Assumptions C31_fraction.

(** C32: shape of the uniform disk shading. The derivative says that the hidden area
    grows as the length of the chord. *)
Theorem C32_uniform_disk :
  (forall p, p <= 0 -> uniform_disk_shading p = 0) /\
  (forall p, 100 <= p -> uniform_disk_shading p = 100) /\
  (forall p, 0 <= uniform_disk_shading p <= 100) /\
  (forall p q, p <= q -> 0 <= uniform_disk_shading q - uniform_disk_shading p <= 4 / PI * (q - p)) /\
  (forall p, uniform_disk_shading p + uniform_disk_shading (100 - p) = 100) /\
  (forall p, 0 < p < 100 ->
     derivable_pt_lim uniform_disk_shading p
       (100 * (2 * sqrt (1 - (1 - p / 50) ^ 2)) * (2 / 100) / PI)).
Proof.
  split; [exact disk_low|]. split; [exact disk_high|]. split; [|split; [exact disk_lip|]].
  - intro p. destruct (Rle_dec p 0) as [H|H]; [rewrite disk_low by lra; lra|].
    destruct (Rle_dec 100 p) as [H'|H']; [rewrite disk_high by lra; lra|].
    pose proof (disk_lip 0 p ltac:(lra)) as A. pose proof (disk_lip p 100 ltac:(lra)) as B.
    rewrite (disk_low 0) in A by lra. rewrite (disk_high 100) in B by lra. lra.
  - split; [exact disk_complement|]. intros p H.
    replace (100 * (2 * sqrt (1 - (1 - p / 50) ^ 2)) * (2 / 100) / PI) with
      (4 / PI * sqrt (1 - (1 - p / 50) ^ 2)) by (field; apply PI_neq0). apply disk_deriv. exact H.
Qed.
Print Assumptions C32_uniform_disk.

Lemma disk_continuous : continuity uniform_disk_shading.
Proof.
  intros p eps E. pose proof PI_RGT_0 as PP.
  assert (PQ : 0 < 4 / PI) by (apply Rdiv_lt_0_compat; lra).
  exists (eps / (4 / PI)). split; [apply Rdiv_lt_0_compat; lra|].
  intros q [_ D]. cbn in *. unfold R_dist in *.
  assert (K : Rabs (uniform_disk_shading q - uniform_disk_shading p) <= 4 / PI * Rabs (q - p)).
  { destruct (Rle_dec p q) as [H|H].
    - pose proof (disk_lip p q H). rewrite !Rabs_right by lra. lra.
    - pose proof (disk_lip q p ltac:(lra)). rewrite Rabs_minus_sym, (Rabs_minus_sym q p), !Rabs_right by lra. lra. }
  apply Rle_lt_trans with (1 := K). apply (Rmult_lt_compat_l (4 / PI)) in D; [|lra].
  replace (4 / PI * (eps / (4 / PI))) with eps in D by (field; lra). exact D.
Qed.
Theorem C32_continuous : continuity uniform_disk_shading.
Proof. exact disk_continuous. Qed.
Print Assumptions C32_continuous.

(** Shading of the circumsolar disk of angular diameter [d] around the sun, by a
    neighbour seen at some elevation: nothing below the disk, everything above, half
    at the center, proper fraction, for both models. *)
Theorem C32_circumsolar_pct : forall erf m centroid neighbor solar,
  im_circumsolar_model m = "uniform_disk"%string -> 0 < im_circumsolar_angle m ->
  px neighbor <> px centroid -> fst solar <> 0 ->
  let elevation := Rabs (atan ((py neighbor - py centroid) / (px neighbor - px centroid))) * 180 / PI in
  let sun := Rabs (atan (snd solar / fst solar)) * 180 / PI in
  let d := im_circumsolar_angle m in
  exists x, circumsolar_shading_pct erf m centroid (Some neighbor) solar = Ok x /\ 0 <= x <= 100 /\
    (elevation <= sun - d / 2 -> x = 0) /\ (sun + d / 2 <= elevation -> x = 100) /\
    (elevation = sun -> x = 50).
Proof.
  intros erf m cen nb so M D N1 N2. cbn zeta.
  unfold circumsolar_shading_pct, calculate_circumsolar_shading. rewrite M. cbn [String.eqb Ascii.eqb Bool.eqb].
  set (el := Rabs (atan ((py nb - py cen) / (px nb - px cen))) * 180 / PI).
  set (su := Rabs (atan (snd so / fst so)) * 180 / PI). set (d := im_circumsolar_angle m) in *.
  change (String.eqb "uniform_disk" "uniform_disk") with true. cbv iota.
  eexists. split; [reflexivity|]. split; [apply C32_uniform_disk|].
  assert (I : 0 < / d) by (apply Rinv_0_lt_compat; exact D).
  assert (ID : d * / d = 1) by (apply Rinv_r; lra).
  split; [|split]; intro H.
  - apply disk_low. unfold Rdiv. assert ((el - (su - d / 2)) * / d <= 0) by nra.
    replace (el - (su - d * / 2)) with (el - (su - d / 2)) by (unfold Rdiv; ring). lra.
  - apply disk_high. unfold Rdiv.
    assert (d * / d <= (el - (su - d / 2)) * / d) by (apply Rmult_le_compat_r; lra).
    replace (el - (su - d * / 2)) with (el - (su - d / 2)) by (unfold Rdiv; ring). lra.
  - rewrite H. replace ((su - (su - d / 2)) / d * 100) with 50 by (field; lra).
    pose proof (disk_complement 50) as C. replace (100 - 50) with 50 in C by ring. lra.
Qed.
Print Assumptions C32_circumsolar_pct.

(** Not so without a neighbour, where nothing hides the disk: the method fails. *)
Theorem C32_no_neighbour_refuted : forall erf m centroid solar,
  circumsolar_shading_pct erf m centroid None solar = Err UnboundLocalError.
Proof. reflexivity. Qed.
Print Assumptions C32_no_neighbour_refuted.

Example C32_example : uniform_disk_shading 0 = 0 /\ uniform_disk_shading 50 = 50 /\
  0 < uniform_disk_shading 25 < 25 /\ uniform_disk_shading 75 = 100 - uniform_disk_shading 25.
Proof.
  pose proof (disk_complement 50) as C. replace (100 - 50) with 50 in C by ring.
  pose proof (disk_complement 25) as C2. replace (100 - 25) with 75 in C2 by ring.
  split; [apply disk_low; lra|]. split; [lra|]. split; [|lra].
  rewrite disk_cap by lra. replace (1 - 25 / 50) with (1 / 2) by field.
  unfold cap. rewrite acos_atan by lra.
  replace (1 - (1 / 2)²) with (3 / 4) by (unfold Rsqr; field).
  assert (S : sqrt (3 / 4) = sqrt 3 / 2).
  { rewrite sqrt_div_alt by lra. replace 4 with (2 * 2) by ring. rewrite sqrt_square by lra. reflexivity. }
  rewrite S. replace (sqrt 3 / 2 / (1 / 2)) with (sqrt 3) by field.
  replace (1 - (1 / 2) ^ 2) with (3 / 4) by field. rewrite S.
  assert (T : atan (sqrt 3) = PI / 3) by (rewrite <- tan_PI3; apply atan_tan; pose proof PI_RGT_0; split; lra).
  rewrite T. pose proof PI_RGT_0 as PP.
  assert (S3 : 0 < sqrt 3) by (apply sqrt_lt_R0; lra).
  assert (Q3 : sqrt 3 * sqrt 3 = 3) by (apply sqrt_sqrt; lra).
  assert (B : 17 / 10 < sqrt 3 < 2) by (split; nra).
  replace (100 / PI * (PI / 3 - 1 / 2 * (sqrt 3 / 2))) with (100 / 3 - 25 * sqrt 3 / PI) by (field; lra).
  pose proof PI_4 as P4. pose proof PI2_3_2 as P3.
  assert (K : PI * (25 * sqrt 3 / PI) = 25 * sqrt 3) by (field; lra).
  set (y := 25 * sqrt 3 / PI) in *. clearbody y. split; nra.
Qed.

(** C33. *)
Theorem C33_gaussian : forall erf,
  (forall x, erf (- x) = - erf x) -> (forall x y, x < y -> erf x < erf y) ->
  (forall p, p <= 0 -> gaussian_shading erf p = 0) /\
  (forall p, 100 <= p -> gaussian_shading erf p = 100) /\
  gaussian_shading erf 50 = 50 /\
  (forall p, 0 <= gaussian_shading erf p <= 100) /\
  (forall p q, p <= q -> gaussian_shading erf p <= gaussian_shading erf q) /\
  (forall p q, 0 <= p -> p < q -> q <= 100 -> gaussian_shading erf p < gaussian_shading erf q) /\
  (forall p, gaussian_shading erf p + gaussian_shading erf (100 - p) = 100) /\
  (forall p, 0 <= p <= 100 -> exists k, 0 < k /\
     gaussian_shading erf p = 50 * (1 + erf (3 / sqrt 2 * (p / 50 - 1)) / k) /\ k = erf (3 / sqrt 2)).
Proof.
  intros erf O I. split; [apply gauss_low; assumption|]. split; [apply gauss_high; assumption|].
  split; [apply gauss_half; assumption|]. split; [|split; [|split; [|split]]].
  - intro p. split.
    + rewrite <- (gauss_low erf O I (Rmin p 0)) by apply Rmin_r. apply gauss_mono; try assumption. apply Rmin_l.
    + rewrite <- (gauss_high erf O I (Rmax p 100)) by apply Rmax_r. apply gauss_mono; try assumption. apply Rmax_l.
  - apply gauss_mono; assumption.
  - apply gauss_strict; assumption.
  - apply gauss_complement; assumption.
  - intros p H. exists (erf (3 / sqrt 2)).
    assert (S : 3 / sqrt 2 = N_SIGMA * SIGMA) by (unfold N_SIGMA, SIGMA; unfold Rdiv; ring). rewrite S.
    pose proof (gauss_den erf O I) as D. split; [exact D|]. split; [|reflexivity].
    rewrite (gauss_mid erf O I p H). field. lra.
Qed.
Print Assumptions C33_gaussian.

Theorem C33_models : forall erf p name,
  (name = "uniform_disk"%string -> calculate_circumsolar_shading erf p name = Ok (uniform_disk_shading p)) /\
  (name = "gaussian"%string -> calculate_circumsolar_shading erf p name = Ok (gaussian_shading erf p)) /\
  (name <> "uniform_disk"%string -> name <> "gaussian"%string ->
   calculate_circumsolar_shading erf p name = Err PVFactorsError).
Proof.
  intros erf p name. unfold calculate_circumsolar_shading. split; [|split].
  - intros ->. reflexivity.
  - intros ->. reflexivity.
  - intros A B. apply String.eqb_neq in A, B. rewrite A, B. reflexivity.
Qed.
Print Assumptions C33_models.

Example C33_example : (forall x, atan (- x) = - atan x) /\ (forall x y, x < y -> atan x < atan y).
Proof. split; [exact atan_opp | exact atan_increasing]. Qed.

(** What [integral_default_gaussian] integrates is the density [gaussian]: if [erf] has the
    derivative of the error function, the integral up to [(x - mu) / (sigma sqrt 2)] grows
    with [x] at the rate [gaussian x mu sigma]. The density is symmetric around [mu]. *)
Theorem C33_density : forall erf mu sigma, 0 < sigma ->
  (forall x, derivable_pt_lim erf x (2 / sqrt PI * exp (- (x * x)))) ->
  (forall y x, derivable_pt_lim (fun x => integral_default_gaussian erf y ((x - mu) / (sigma * sqrt 2))) x (gaussian x mu sigma)) /\
  (forall y, integral_default_gaussian erf y y = 0) /\
  (forall d, gaussian (mu + d) mu sigma = gaussian (mu - d) mu sigma) /\
  (forall x, 0 < gaussian x mu sigma <= gaussian mu mu sigma).
Proof.
  intros erf mu sigma Sg D. pose proof PI_RGT_0 as PP.
  assert (S2 : 0 < sqrt 2) by (apply sqrt_lt_R0; lra). assert (SP : 0 < sqrt PI) by (apply sqrt_lt_R0; lra).
  assert (SS : sqrt 2 * sqrt 2 = 2) by (apply sqrt_sqrt; lra).
  assert (SM : sqrt (2 * PI) = sqrt 2 * sqrt PI) by (apply sqrt_mult; lra).
  split; [|split; [|split]].
  - intros y x. unfold integral_default_gaussian.
    assert (DL : derivable_pt_lim (fun x => (x - mu) / (sigma * sqrt 2)) x (1 / (sigma * sqrt 2))).
    { replace (1 / (sigma * sqrt 2)) with ((1 - 0) * / (sigma * sqrt 2)) by (unfold Rdiv; ring).
      apply (derivable_pt_lim_ext (fun x => / (sigma * sqrt 2) * (x - mu))); [intro; unfold Rdiv; ring|].
      replace ((1 - 0) * / (sigma * sqrt 2)) with (/ (sigma * sqrt 2) * (1 - 0)) by ring.
      apply (derivable_pt_lim_scal (fun x => x - mu)). apply (derivable_pt_lim_minus id (fct_cte mu)).
      - apply derivable_pt_lim_id.
      - apply derivable_pt_lim_const. }
    pose proof (derivable_pt_lim_comp _ erf x _ _ DL (D ((x - mu) / (sigma * sqrt 2)))) as DC.
    pose proof (derivable_pt_lim_minus _ (fct_cte (erf y)) x _ _ DC (derivable_pt_lim_const (erf y) x)) as DM.
    pose proof (derivable_pt_lim_scal _ (1 / 2) x _ DM) as DS.
    replace (gaussian x mu sigma) with (1 / 2 * (2 / sqrt PI * exp (- ((x - mu) / (sigma * sqrt 2) * ((x - mu) / (sigma * sqrt 2)))) * (1 / (sigma * sqrt 2)) - 0)).
    + exact DS.
    + unfold gaussian. rewrite SM.
      replace (- ((x - mu) / (sigma * sqrt 2) * ((x - mu) / (sigma * sqrt 2)))) with (- (1 / 2) * ((x - mu) / sigma) ^ 2).
      * field. repeat split; lra.
      * replace ((x - mu) / (sigma * sqrt 2) * ((x - mu) / (sigma * sqrt 2))) with (((x - mu) / sigma) ^ 2 / (sqrt 2 * sqrt 2)) by (field; split; lra).
        rewrite SS. field. lra.
  - intro y. unfold integral_default_gaussian. ring.
  - intro d. unfold gaussian. do 2 f_equal. field. lra.
  - assert (K : 0 < 1 / (sigma * sqrt (2 * PI))).
    { rewrite SM. apply Rdiv_lt_0_compat; [lra|]. repeat apply Rmult_lt_0_compat; assumption. }
    intro x. unfold gaussian. split.
    + apply Rmult_lt_0_compat; [exact K | apply exp_pos].
    + apply Rmult_le_compat_l; [lra|]. replace ((mu - mu) / sigma) with 0 by (field; lra).
      assert (0 <= ((x - mu) / sigma) ^ 2) by (rewrite <- Rsqr_pow2; apply Rle_0_sqr).
      destruct (Req_dec (((x - mu) / sigma) ^ 2) 0) as [->|NE]; [right; f_equal; ring|].
      left. apply exp_increasing. simpl (0 ^ 2). lra.
Qed.
Print Assumptions C33_density.

(** C35. *)
Theorem C35_terminates : forall P rows n, (2 <= n)%nat -> perez_diffuse_luminance P n rows <> None.
Proof. intros P rows [|[|n]] H; try lia. rewrite perez_two. discriminate. Qed.
Print Assumptions C35_terminates.

(** One call is enough exactly when the sun hits no back. *)
Theorem C35_depth : forall P rows,
  (perez_diffuse_luminance P 1 rows <> None <->
   forall r, In r rows ->
     ~ (sun_cosine (pr_tilt r) (pr_azimuth r) (pr_zenith r) (pr_solar_azimuth r) < 0 /\ pr_zenith r <= 90)).
Proof.
  intros P rows. rewrite <- perez_one_level. split; intros H r I.
  - intros [A B]. specialize (H r I). unfold sun_hits_back in H. rewrite aoi_projection_dot in H.
    unfold Rltb, Rleb in H. destruct (Rlt_dec _ 0) in H; [|lra]. destruct (Rle_dec _ 90) in H; [discriminate H | lra].
  - unfold sun_hits_back. rewrite aoi_projection_dot. unfold Rltb, Rleb.
    destruct (Rlt_dec _ 0); [|reflexivity]. destruct (Rle_dec _ 90); [|reflexivity].
    exfalso. apply (H r I). split; assumption.
Qed.
Print Assumptions C35_depth.

Theorem C35_flip : forall r,
  surface_normal (pr_tilt (flip_row r)) (pr_azimuth (flip_row r))
    = opp3 (surface_normal (pr_tilt r) (pr_azimuth r)) /\
  sun_cosine (pr_tilt (flip_row r)) (pr_azimuth (flip_row r)) (pr_zenith r) (pr_solar_azimuth r)
    = - sun_cosine (pr_tilt r) (pr_azimuth r) (pr_zenith r) (pr_solar_azimuth r) /\
  0 <= pr_azimuth (flip_row r) < 360 /\
  pr_time (flip_row r) = pr_time r /\ pr_zenith (flip_row r) = pr_zenith r /\
  pr_solar_azimuth (flip_row r) = pr_solar_azimuth r /\ pr_dni (flip_row r) = pr_dni r /\
  pr_dhi (flip_row r) = pr_dhi r.
Proof.
  intro r. split; [apply flip_normal|]. split.
  - unfold sun_cosine. rewrite flip_normal. apply dot3_opp.
  - split; [cbn; apply py_mod_range; lra|]. repeat split.
Qed.
Print Assumptions C35_flip.

(** What is returned for each row: its own luminances, except that the circumsolar
    luminance is that of the side of the surface that the sun hits. *)
Theorem C35_values : forall P rows n, (2 <= n)%nat ->
  exists outs, perez_diffuse_luminance P n rows = Some outs /\ List.length outs = List.length rows /\
  forall k r, nth_error rows k = Some r -> exists o, nth_error outs k = Some o /\
    let c := pl_perez P (pr_time r) (pr_tilt r) (pr_azimuth r) (pr_dhi r) (pr_dni r) (pr_zenith r) (pr_solar_azimuth r) in
    let cosine := sun_cosine (pr_tilt r) (pr_azimuth r) (pr_zenith r) (pr_solar_azimuth r) in
    let behind := cosine < 0 /\ pr_zenith r <= 90 in
    let b := flip_row r in
    let cb := pl_perez P (pr_time b) (pr_tilt b) (pr_azimuth b) (pr_dhi b) (pr_dni b) (pr_zenith b) (pr_solar_azimuth b) in
    po_poa_circumsolar o = pc_circumsolar c /\ po_poa_horizon o = pc_horizon c /\
    (pc_sky_diffuse c = 0 -> po_luminance_isotropic o = 0 /\ po_luminance_horizon o = 0) /\
    (pc_sky_diffuse c <> 0 -> cosd (pr_tilt r) <> -1 ->
       po_luminance_isotropic o * ((1 + cosd (pr_tilt r)) / 2) = pc_isotropic c) /\
    (pc_sky_diffuse c <> 0 -> sind (pr_tilt r) <> 0 ->
       po_luminance_horizon o * sind (pr_tilt r) = pc_horizon c) /\
    (~ behind -> pc_sky_diffuse c = 0 -> po_luminance_circumsolar o = 0) /\
    (~ behind -> pc_sky_diffuse c <> 0 -> 0 < cosine ->
       po_luminance_circumsolar o * cosine = pc_circumsolar c * Rmax (cosd (pr_zenith r)) (cosd 85)) /\
    (behind -> pc_sky_diffuse cb = 0 -> po_luminance_circumsolar o = 0) /\
    (behind -> pc_sky_diffuse cb <> 0 ->
       po_luminance_circumsolar o * - cosine = pc_circumsolar cb * Rmax (cosd (pr_zenith r)) (cosd 85)).
Proof.
  intros P rows [|[|n]] H; try lia. exists (map (perez_value P) rows). rewrite perez_two, map_length.
  split; [reflexivity|]. split; [reflexivity|]. intros k r E. exists (perez_value P r).
  split; [apply map_nth_error; exact E|]. cbn zeta.
  set (c := pl_perez P (pr_time r) (pr_tilt r) (pr_azimuth r) (pr_dhi r) (pr_dni r) (pr_zenith r) (pr_solar_azimuth r)).
  assert (C85 : 0 < cosd 85) by (apply cosd_pos; lra).
  assert (MB : forall z, np_max (cosd z) (cosd 85) = Rmax (cosd z) (cosd 85)) by reflexivity.
  assert (MP : forall z, 0 < Rmax (cosd z) (cosd 85)).
  { intro z. apply Rlt_le_trans with (1 := C85). apply Rmax_r. }
  split; [reflexivity|]. split; [reflexivity|].
  split.
  { intro D. unfold perez_value, perez_one. cbn. fold c. unfold Reqb. destruct (Req_EM_T _ 0); [split; reflexivity | contradiction]. }
  split.
  { intros D N. unfold perez_value, perez_one. cbn [po_luminance_isotropic]. fold c. unfold Reqb.
    destruct (Req_EM_T _ 0); [contradiction|]. unfold fdiv.
    destruct (Req_EM_T _ 0); [exfalso; apply N; lra|]. field. intro; apply N; lra. }
  split.
  { intros D N. unfold perez_value, perez_one. cbn [po_luminance_horizon]. fold c. unfold Reqb.
    destruct (Req_EM_T _ 0); [contradiction|]. unfold fdiv.
    destruct (Req_EM_T _ 0); [contradiction|]. field. exact N. }
  assert (HB : sun_hits_back r = true <-> (sun_cosine (pr_tilt r) (pr_azimuth r) (pr_zenith r) (pr_solar_azimuth r) < 0 /\ pr_zenith r <= 90)).
  { unfold sun_hits_back. rewrite aoi_projection_dot. unfold Rltb, Rleb.
    destruct (Rlt_dec _ 0), (Rle_dec _ 90); cbn; split; try tauto; try discriminate. }
  assert (G : forall x, let cx := pl_perez P (pr_time x) (pr_tilt x) (pr_azimuth x) (pr_dhi x) (pr_dni x) (pr_zenith x) (pr_solar_azimuth x) in
     let co := sun_cosine (pr_tilt x) (pr_azimuth x) (pr_zenith x) (pr_solar_azimuth x) in
     (pc_sky_diffuse cx = 0 -> po_luminance_circumsolar (perez_one P x) = 0) /\
     (pc_sky_diffuse cx <> 0 -> 0 < co -> po_luminance_circumsolar (perez_one P x) * co = pc_circumsolar cx * Rmax (cosd (pr_zenith x)) (cosd 85))).
  { intros x cx co. unfold perez_one. cbn [po_luminance_circumsolar]. fold cx. rewrite aoi_projection_dot. fold co.
    unfold Reqb. split.
    - intro D. destruct (Req_EM_T _ 0); [reflexivity | contradiction].
    - intros D Pc. destruct (Req_EM_T _ 0); [contradiction|]. rewrite MB.
      assert (NM : np_max co 0 = co) by (unfold np_max; destruct (Rle_dec co 0); [lra | reflexivity]). rewrite NM.
      pose proof (MP (pr_zenith x)) as M1.
      assert (Q : 0 < co / Rmax (cosd (pr_zenith x)) (cosd 85)) by (apply Rdiv_lt_0_compat; assumption).
      unfold fdiv. destruct (Req_EM_T _ 0); [lra|]. field. split; lra. }
  assert (LB : forall nb : bool, sun_hits_back r = nb -> po_luminance_circumsolar (perez_value P r) =
     po_luminance_circumsolar (perez_one P (if nb then flip_row r else r))).
  { intros nb <-. reflexivity. }
  assert (FS : sun_cosine (pr_tilt (flip_row r)) (pr_azimuth (flip_row r)) (pr_zenith (flip_row r)) (pr_solar_azimuth (flip_row r))
     = - sun_cosine (pr_tilt r) (pr_azimuth r) (pr_zenith r) (pr_solar_azimuth r)).
  { exact (proj1 (proj2 (C35_flip r))). }
  destruct (sun_hits_back r) eqn:S.
  - pose proof (proj1 HB eq_refl) as B. rewrite (LB true eq_refl).
    split; [intro X; contradiction|]. split; [intro X; contradiction|].
    destruct (G (flip_row r)) as [G0 G1]. split; [intros _; exact G0|].
    intros _ D. rewrite <- FS. apply G1; [exact D|]. rewrite FS. lra.
  - assert (B : ~ (sun_cosine (pr_tilt r) (pr_azimuth r) (pr_zenith r) (pr_solar_azimuth r) < 0 /\ pr_zenith r <= 90)).
    { intro X. apply HB in X. discriminate X. }
    rewrite (LB false eq_refl). destruct (G r) as [G0 G1].
    split; [intros _; exact G0|]. split; [intros _; exact G1|].
    split; intro X; contradiction.
Qed.
Print Assumptions C35_values.

Lemma ex_behind : sun_cosine 150 90 30 90 < 0.
Proof.
  rewrite <- aoi_projection_dot. unfold aoi_projection. replace (90 - 90) with 0 by ring. rewrite cosd_0.
  replace (cosd 150 * cosd 30 + sind 150 * sind 30 * 1) with (cosd (150 - 30)) by (rewrite cosd_minus; ring).
  replace (150 - 30) with (180 - 60) by ring. rewrite cosd_back.
  pose proof (cosd_pos 60 ltac:(lra)). lra.
Qed.
(** A surface with the sun behind needs the second call. *)
Example C35_example : forall P, perez_diffuse_luminance P 1 [PerezRow 0 150 90 30 90 500 100] = None /\
  perez_diffuse_luminance P 2 [PerezRow 0 150 90 30 90 500 100] <> None.
Proof.
  intro P. split; [|apply C35_terminates; lia].
  destruct (perez_diffuse_luminance P 1 _) eqn:E; [|reflexivity]. exfalso.
  assert (H : perez_diffuse_luminance P 1 [PerezRow 0 150 90 30 90 500 100] <> None) by congruence.
  apply C35_depth with (r := PerezRow 0 150 90 30 90 500 100) in H; [|left; reflexivity].
  apply H. cbn [pr_tilt pr_azimuth pr_zenith pr_solar_azimuth]. split; [exact ex_behind | lra].
Qed.

(** C47, hybrid model: on the front of the rows. *)
Theorem C47_hybrid_front : forall P e0 raw e a s s' j j' t x x' d d' ci ci',
  valid_params (pv_params (en_array e0)) -> engine_fit P e0 raw = Ok e ->
  im_kind (en_irr e0) = HybridPerezOrdered -> pv_fitted (en_array e) = Some a ->
  in_category a s (CRow j false false) -> in_category a s' (CRow j' false true) ->
  let st := pv_store (en_array e) in
  value_at st s "total_perez" t x -> value_at st s "direct" t d -> value_at st s "circumsolar" t ci ->
  value_at st s' "total_perez" t x' -> value_at st s' "direct" t d' -> value_at st s' "circumsolar" t ci' ->
  x' = x - (d + ci) + (d' + ci').
Proof.
  intros P e0 raw e a s s' j j' t x x' d d' ci ci' V Fi HY0 Ha C C' st (v1 & E1 & <-) (v2 & E2 & <-)
    (v3 & E3 & <-) (v4 & E4 & <-) (v5 & E5 & <-) (v6 & E6 & <-).
  destruct (engine_fit_fitted _ _ _ _ V Fi) as (i & a' & f & rf & rb & Hi & FE).
  rewrite (fe_array _ _ _ _ _ _ _ FE) in Ha. inversion Ha; subst a'.
  assert (HY : im_kind (en_irr e) = HybridPerezOrdered) by (rewrite (engine_fit_irr _ _ _ _ Fi); exact HY0).
  unfold st in *.
  rewrite (key_perez _ _ _ _ _ _ _ FE s _ C) in E1. rewrite (key_direct _ _ _ _ _ _ _ FE s _ C) in E2.
  rewrite (key_circ _ _ _ _ _ _ _ FE HY s _ C) in E3.
  rewrite (key_perez _ _ _ _ _ _ _ FE s' _ C') in E4. rewrite (key_direct _ _ _ _ _ _ _ FE s' _ C') in E5.
  rewrite (key_circ _ _ _ _ _ _ _ FE HY s' _ C') in E6.
  apply (f_equal (fun o => match o with Ok (PArr v) => v t | _ => 0 end)) in E1, E2, E3, E4, E5, E6.
  rewrite <- E1, <- E2, <- E3, <- E4, <- E5, <- E6.
  destruct (hybrid_fitted _ _ _ _ HY (fe_irr _ _ _ _ _ _ _ FE)) as (_ & _ & _ & _ & _ & F1 & F2 & _).
  cbn [cat_perez perez_pick cat_of cat_pick]. unfold irr_pvrow_illum, irr_pvrow_shaded. rewrite F1, F2. ring.
Qed.
Print Assumptions C47_hybrid_front.

(** C47 on the ground, both models, when GHI is not given or is DNI cos(zenith) + DHI. *)
Theorem C47_ground : forall P e0 raw e i a s s' t x x' d d',
  valid_params (pv_params (en_array e0)) -> engine_fit P e0 raw = Ok e ->
  format_inputs raw = Ok i -> pv_fitted (en_array e) = Some a ->
  (forall g, ii_ghi i = Some g -> g t = ii_dni i t * cosd (ii_zenith i t) + ii_dhi i t) ->
  in_category a s (CGround false) -> in_category a s' (CGround true) ->
  let st := pv_store (en_array e) in
  value_at st s "total_perez" t x -> value_at st s "direct" t d ->
  value_at st s' "total_perez" t x' -> value_at st s' "direct" t d' ->
  match im_kind (en_irr e0) with
  | IsotropicOrdered => x' = x - d + d'
  | HybridPerezOrdered => forall ci ci', value_at st s "circumsolar" t ci -> value_at st s' "circumsolar" t ci' ->
      x' = x - (d + ci) + (d' + ci')
  end.
Proof.
  intros P e0 raw e i a s s' t x x' d d' V Fi Hi Ha G C C' st (v1 & E1 & <-) (v2 & E2 & <-)
    (v4 & E4 & <-) (v5 & E5 & <-).
  destruct (engine_fit_fitted _ _ _ _ V Fi) as (i' & a' & f & rf & rb & Hi' & FE).
  rewrite Hi in Hi'. inversion Hi'; subst i'.
  rewrite (fe_array _ _ _ _ _ _ _ FE) in Ha. inversion Ha; subst a'.
  rewrite <- (engine_fit_irr _ _ _ _ Fi).
  unfold st in *.
  rewrite (key_perez _ _ _ _ _ _ _ FE s _ C) in E1. rewrite (key_direct _ _ _ _ _ _ _ FE s _ C) in E2.
  rewrite (key_perez _ _ _ _ _ _ _ FE s' _ C') in E4. rewrite (key_direct _ _ _ _ _ _ _ FE s' _ C') in E5.
  apply (f_equal (fun o => match o with Ok (PArr v) => v t | _ => 0 end)) in E1, E2, E4, E5.
  rewrite <- E1, <- E2, <- E4, <- E5.
  pose proof (fe_irr _ _ _ _ _ _ _ FE) as FI.
  destruct (irr_fit_albedo _ _ _ _ FI) as (_ & _ & _ & Fd & _).
  assert (GH : if_ghi f t = bc_ground_illum (if_direct f) t + ii_dhi i t).
  { rewrite Fd. cbn [fit_direct bc_ground_illum].
    assert (K : fit_ghi i t = ii_dni i t * cosd (ii_zenith i t) + ii_dhi i t).
    { unfold fit_ghi. destruct (ii_ghi i) as [g|] eqn:EG; [exact (G g eq_refl) | reflexivity]. }
    rewrite <- K. destruct (im_kind (en_irr e)) eqn:KI.
    - destruct (isotropic_fitted _ _ _ _ KI FI) as (_ & -> & _). reflexivity.
    - destruct (hybrid_fitted _ _ _ _ KI FI) as (_ & _ & _ & _ & -> & _). reflexivity. }
  cbn [cat_perez cat_of gnd_pick]. unfold irr_gnd_illum, irr_gnd_shaded. rewrite GH.
  destruct (im_kind (en_irr e)) eqn:KI.
  - destruct (isotropic_fitted _ _ _ _ KI FI) as (_ & _ & _ & _ & ->). ring.
  - intros ci ci' (v3 & E3 & <-) (v6 & E6 & <-).
    rewrite (key_circ _ _ _ _ _ _ _ FE KI s _ C) in E3. rewrite (key_circ _ _ _ _ _ _ _ FE KI s' _ C') in E6.
    apply (f_equal (fun o => match o with Ok (PArr v) => v t | _ => 0 end)) in E3, E6.
    rewrite <- E3, <- E6. cbn [cat_of gnd_pick].
    destruct (hybrid_fitted _ _ _ _ KI FI) as (_ & _ & _ & _ & _ & _ & _ & ->). ring.
Qed.
Print Assumptions C47_ground.

(** C47 on the front, isotropic model: the light that goes through the modules is
    missing from the shaded total. *)
Theorem C47_isotropic_front_refuted : forall P e0 raw e a s s' j j' t x x' d d',
  valid_params (pv_params (en_array e0)) -> engine_fit P e0 raw = Ok e ->
  im_kind (en_irr e0) = IsotropicOrdered -> pv_fitted (en_array e) = Some a ->
  in_category a s (CRow j false false) -> in_category a s' (CRow j' false true) ->
  let st := pv_store (en_array e) in
  value_at st s "total_perez" t x -> value_at st s "direct" t d ->
  value_at st s' "total_perez" t x' -> value_at st s' "direct" t d' ->
  (x' = x - d) /\ (x' = x - d + d' <-> d' = 0).
Proof.
  intros P e0 raw e a s s' j j' t x x' d d' V Fi HY0 Ha C C' st (v1 & E1 & <-) (v2 & E2 & <-)
    (v4 & E4 & <-) (v5 & E5 & <-).
  destruct (engine_fit_fitted _ _ _ _ V Fi) as (i & a' & f & rf & rb & Hi & FE).
  rewrite (fe_array _ _ _ _ _ _ _ FE) in Ha. inversion Ha; subst a'.
  assert (HY : im_kind (en_irr e) = IsotropicOrdered) by (rewrite (engine_fit_irr _ _ _ _ Fi); exact HY0).
  unfold st in *.
  rewrite (key_perez _ _ _ _ _ _ _ FE s _ C) in E1. rewrite (key_direct _ _ _ _ _ _ _ FE s _ C) in E2.
  rewrite (key_perez _ _ _ _ _ _ _ FE s' _ C') in E4. rewrite (key_direct _ _ _ _ _ _ _ FE s' _ C') in E5.
  apply (f_equal (fun o => match o with Ok (PArr v) => v t | _ => 0 end)) in E1, E2, E4, E5.
  rewrite <- E1, <- E2, <- E4, <- E5.
  destruct (isotropic_fitted _ _ _ _ HY (fe_irr _ _ _ _ _ _ _ FE)) as (_ & _ & F1 & F2 & _).
  cbn [cat_perez perez_pick cat_of cat_pick]. unfold irr_pvrow_illum, irr_pvrow_shaded. rewrite F1, F2. split; [ring|].
  split; intro; lra.
Qed.
Print Assumptions C47_isotropic_front_refuted.

(** C47: nothing is published for the backs. *)
Theorem C47_back_zero : forall P e0 raw e a s j sh t,
  valid_params (pv_params (en_array e0)) -> engine_fit P e0 raw = Ok e ->
  pv_fitted (en_array e) = Some a -> in_category a s (CRow j true sh) ->
  value_at (pv_store (en_array e)) s "total_perez" t 0.
Proof.
  intros P e0 raw e a s j sh t V Fi Ha C.
  destruct (engine_fit_fitted _ _ _ _ V Fi) as (i & a' & f & rf & rb & Hi & FE).
  rewrite (fe_array _ _ _ _ _ _ _ FE) in Ha. inversion Ha; subst a'.
  eexists. split; [exact (key_perez _ _ _ _ _ _ _ FE s _ C) | reflexivity].
Qed.
Print Assumptions C47_back_zero.

(** C34: the percentage, as a function of the elevation [x] of the obstacle. *)
Theorem C34_band : forall b x y, 0 < b ->
  0 <= horizon_band_shading x b <= 100 /\
  (x <= 0 -> horizon_band_shading x b = 0) /\
  (b <= x -> horizon_band_shading x b = 100) /\
  (0 <= x <= b -> horizon_band_shading x b = 100 * (x / b)) /\
  (x <= y -> horizon_band_shading x b <= horizon_band_shading y b).
Proof.
  intros b x y B.
  assert (D : forall z, 100 * z / b = 100 * (z / b)) by (intro; field; lra).
  assert (M : forall z w, z <= w -> z / b <= w / b).
  { intros z w H. apply Rmult_le_compat_r; [left; apply Rinv_0_lt_compat; exact B | exact H]. }
  assert (Z : 0 / b = 0) by (field; lra). assert (O : b / b = 1) by (field; lra).
  rewrite !band_spec by exact B. rewrite !D. repeat split.
  - apply Rmax_l.
  - apply Rmax_lub; [lra | apply Rmin_l].
  - intro H. apply M in H. rewrite Z in H. rewrite Rmin_right by lra. apply Rmax_left. lra.
  - intro H. apply M in H. rewrite O in H. rewrite Rmin_left by lra. apply Rmax_right. lra.
  - intros [H1 H2]. apply M in H1, H2. rewrite Z in H1. rewrite O in H2.
    rewrite Rmin_right by lra. apply Rmax_right. lra.
  - intro H. apply M in H. apply Rle_max_compat_l. apply Rle_min_compat_l. lra.
Qed.
Print Assumptions C34_band.
Example C34_band_example : horizon_band_shading (-3) 6 = 0 /\ horizon_band_shading 3 6 = 50 /\
  horizon_band_shading 40 6 = 100.
Proof.
  destruct (C34_band 6 (-3) 0 ltac:(lra)) as (_ & A & _). destruct (C34_band 6 3 0 ltac:(lra)) as (_ & _ & _ & B & _).
  destruct (C34_band 6 40 0 ltac:(lra)) as (_ & _ & C & _).
  rewrite A, B, C by lra. repeat split; lra.
Qed.

(** C34: horizon light of the backs of the rows. [s] looks towards the row on its right
    when its normal has a positive abscissa, on its left when it is negative. *)
Theorem C34_back : forall P e0 raw e a j sh s t,
  valid_params (pv_params (en_array e0)) -> engine_fit P e0 raw = Ok e ->
  im_kind (en_irr e0) = HybridPerezOrdered -> pv_fitted (en_array e) = Some a ->
  in_category a s (CRow j true sh) -> -180 < ft_rotation a t < 180 ->
  0 < im_horizon_band_angle (en_irr e0) ->
  let band := im_horizon_band_angle (en_irr e0) in
  let st := pv_store (en_array e) in
  let side := fst (s_nvec s t) in
  exists h pct,
    value_at st s "horizon_unshaded" t h /\ 0 <= h /\
    value_at st s "horizon_shd_pct" t pct /\ 0 <= pct <= 100 /\
    value_at st s "horizon" t (h * (1 - pct / 100)) /\
    (side = 0 -> pct = 0) /\
    (0 < side -> nth_error (ft_rows a) (S j) = None -> pct = 0) /\
    (side < 0 -> j = 0%nat -> pct = 0) /\
    (forall k row, (0 < side /\ k = S j \/ side < 0 /\ j = S k) -> nth_error (ft_rows a) k = Some row ->
       exists q e, top_end (row_coords row t) q /\ py (s_centroid s t) <= py q /\
         seen_at_elevation (s_centroid s t) q e /\
         pct = Rmax 0 (Rmin 100 (100 * e / band))).
Proof.
  intros P e0 raw e a j sh s t V Fi HY0 Ha C R B band st side.
  destruct (engine_fit_fitted _ _ _ _ V Fi) as (i & a' & f & rf & rb & Hi & FE).
  rewrite (fe_array _ _ _ _ _ _ _ FE) in Ha. inversion Ha; subst a'.
  assert (EI : en_irr e = en_irr e0) by exact (engine_fit_irr _ _ _ _ Fi).
  assert (HY : im_kind (en_irr e) = HybridPerezOrdered) by (rewrite EI; exact HY0).
  pose proof C as (row & seg & Er & Ig & Is).
  assert (IS : In s (side_surfaces (row_back row))).
  { unfold side_surfaces. apply in_flat_map. exists seg. split; [exact Ig|]. unfold seg_surfaces.
    apply in_or_app. destruct sh; tauto. }
  assert (B' : 0 < im_horizon_band_angle (en_irr e)) by (rewrite EI; exact B).
  destruct (back_pct_spec _ _ _ _ (en_irr e) t j row s (fe_valid _ _ _ _ _ _ _ FE) (fe_fit _ _ _ _ _ _ _ FE) R Er IS B')
    as (P1 & P2 & P3 & P4 & P5).
  exists (if_horizon_back f t), (back_pct (en_irr e) a j [s] t).
  assert (KV : forall k v, In (k, v) (cat_dict (en_irr e) rf rb f a (CRow j true sh) s) ->
    get_param st s k = Ok v) by (intros k v; exact (fe_value _ _ _ _ _ _ _ FE s _ k v C)).
  unfold cat_dict in KV. rewrite HY in KV.
  split; [eexists; split; [apply KV; destruct sh; cbn; do 9 right; left; reflexivity | reflexivity]|].
  split.
  { destruct (hybrid_fitted _ _ _ _ HY (fe_irr _ _ _ _ _ _ _ FE)) as (_ & _ & _ & -> & _). apply Rabs_pos. }
  split; [eexists; split; [apply KV; destruct sh; cbn; do 10 right; left; reflexivity | reflexivity]|].
  split; [exact P1|].
  split; [eexists; split; [exact (key_horizon _ _ _ _ _ _ _ FE HY s _ C) | reflexivity]|].
  unfold band. rewrite <- EI. tauto.
Qed.
Print Assumptions C34_back.

(** The fronts are not shaded by the band, the ground gets no horizon light. *)
Theorem C34_front_ground : forall P e0 raw e a s c t x,
  valid_params (pv_params (en_array e0)) -> engine_fit P e0 raw = Ok e ->
  im_kind (en_irr e0) = HybridPerezOrdered -> pv_fitted (en_array e) = Some a ->
  in_category a s c -> value_at (pv_store (en_array e)) s "horizon" t x ->
  match c with
  | CGround _ => x = 0
  | CRow _ false _ => exists s' j sh, in_category a s' (CRow j true sh) /\
      value_at (pv_store (en_array e)) s' "horizon_unshaded" t x
  | CRow _ true _ => exists h, value_at (pv_store (en_array e)) s "horizon_unshaded" t h
  end.
Proof.
  intros P e0 raw e a s c t x V Fi HY0 Ha C (v & E & <-).
  destruct (engine_fit_fitted _ _ _ _ V Fi) as (i & a' & f & rf & rb & Hi & FE).
  rewrite (fe_array _ _ _ _ _ _ _ FE) in Ha. inversion Ha; subst a'.
  assert (HY : im_kind (en_irr e) = HybridPerezOrdered) by (rewrite (engine_fit_irr _ _ _ _ Fi); exact HY0).
  rewrite (key_horizon _ _ _ _ _ _ _ FE HY s _ C) in E.
  apply (f_equal (fun o => match o with Ok (PArr v) => v t | _ => 0 end)) in E.
  assert (KV : forall s j sh, in_category a s (CRow j true sh) ->
    get_param (pv_store (en_array e)) s "horizon_unshaded" = Ok (PArr (if_horizon_back f))).
  { intros s' j sh C'. apply (fe_value _ _ _ _ _ _ _ FE s' _ _ _ C'). unfold cat_dict. rewrite HY.
    destruct sh; cbn; tauto. }
  destruct c as [sh|j [] sh].
  - rewrite <- E. reflexivity.
  - eexists. eexists. split; [exact (KV _ _ _ C) | reflexivity].
  - destruct C as (row & seg & Er & Ig & Is).
    destruct (fit_rows_nth_error _ _ _ _ _ _ (fe_fit _ _ _ _ _ _ _ FE) Er) as [L Erow].
    pose proof (fe_valid _ _ _ _ _ _ _ FE) as (_ & _ & _ & K).
    assert (SB : exists s', in_category a s' (CRow j true false)).
    { destruct (side_segments (row_back row)) as [|g gs] eqn:SS.
      - exfalso. rewrite Erow, fit_row_back in SS. unfold side_from_raw_inputs in SS. cbn [side_segments] in SS.
        pose proof (K j true) as K2.
        match type of SS with map _ (seq 0 ?n) = [] => destruct n as [|m] eqn:N end; [lia | discriminate SS].
      - assert (G : exists s', In s' (seg_illum g)).
        { rewrite Erow, fit_row_back in SS. unfold side_from_raw_inputs in SS. cbn [side_segments] in SS.
          assert (I : In g (map (fun _ => g) [tt])) by (left; reflexivity).
          match type of SS with ?l = _ => assert (IG : In g l) by (rewrite SS; left; reflexivity) end.
          apply in_map_iff in IG. destruct IG as (q & <- & _). eexists. cbn [seg_illum]. left. reflexivity. }
        destruct G as [s' G]. exists s', row, g. rewrite SS. split; [exact Er|]. split; [left; reflexivity | exact G]. }
    destruct SB as [s' C']. exists s', j, false. split; [exact C'|].
    eexists. split; [exact (KV _ _ _ C')|]. rewrite <- E. cbn [cat_horizon].
    destruct (hybrid_fitted _ _ _ _ HY (fe_irr _ _ _ _ _ _ _ FE)) as (_ & _ & -> & -> & _). reflexivity.
Qed.
Print Assumptions C34_front_ground.
