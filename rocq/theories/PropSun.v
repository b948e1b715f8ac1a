(** Where the sun is hidden from the ground (C69) and how much sunlight the whole array
    receives (C70). *)
From Coq Require Import Reals List Bool Arith String Lra Lia.
From Verif Require Import Num ModelTs ModelGeom Basics SpecGeom SpecSun ProofGround ProofShade ProofRow ProofAngles ProofFit ProofCut ProofIndex ProofGeom ProofGeom2 PropGeom ProofSun SpecParams ProofParams ModelParams ModelIrr SpecIrr ProofIrr ModelAOI ModelEngine ProofEngine PropEngine ProofRun PropRun PropIrr ProofEnergy ProofBeam.
From Verif Require ProofLocal.
Import ListNotations.
Open Scope R_scope.

(* ------------------------------------------------------------------------------ C69 *)

(** C69. The ground shadows are where the rows hide the sun: a point inside the [i]-th
    shadow is hidden by row [i], ... *)
Theorem C69_shadow : forall p n f a t al i e x,
  valid_params p -> fit p n f = Some a ->
  sun_angle (fi_zenith f t) (fi_azimuth f t) (pa_axis_azimuth p) al ->
  sin (al - ft_rotation a t * PI / 180) <> 0 ->
  pa_width p / 2 * Rabs (sin (ft_rotation a t * PI / 180)) < pa_height p ->
  nth_error (gnd_shadows (ft_ground a)) i = Some e ->
  px (b1 (el_coords e t)) < x < px (b2 (el_coords e t)) ->
  (i < pa_n_pvrows p)%nat /\
  row_shades_ground (pa_width p) (pa_distance p) (pa_height p) (ft_rotation a t) al i x.
Proof.
  intros p n f a t al i e x V F SU SN AB. destruct (fit_spec _ _ _ _ F) as (_ & ER & _). rewrite ER in *.
  exact (element_shadow p n f a t al i e x V F SU SN AB).
Qed.
Print Assumptions C69_shadow.

(** ... and no row hides the sun from a point inside the ground between the shadows. *)
Theorem C69_lit : forall p n f a t al e x j,
  valid_params p -> fit p n f = Some a ->
  sun_angle (fi_zenith f t) (fi_azimuth f t) (pa_axis_azimuth p) al ->
  sin (al - ft_rotation a t * PI / 180) <> 0 ->
  pa_width p / 2 * Rabs (sin (ft_rotation a t * PI / 180)) < pa_height p ->
  In e (gnd_illum (ft_ground a)) ->
  px (b1 (el_coords e t)) < x < px (b2 (el_coords e t)) ->
  (j < pa_n_pvrows p)%nat ->
  ~ row_shades_ground (pa_width p) (pa_distance p) (pa_height p) (ft_rotation a t) al j x.
Proof.
  intros p n f a t al e x j V F SU SN AB I. destruct (fit_spec _ _ _ _ F) as (_ & ER & _). rewrite ER in *.
  destruct (In_nth_error _ _ I) as (i & Ei). exact (element_lit p n f a t al i e x j V F SU SN AB Ei).
Qed.
Print Assumptions C69_lit.

(** The same for every surface of the ground, once it is cut at the cut points. *)
Theorem C69_ground_surfaces : forall p n f a t al s x,
  valid_params p -> fit p n f = Some a ->
  sun_angle (fi_zenith f t) (fi_azimuth f t) (pa_axis_azimuth p) al ->
  ~ shading_sliver DISTANCE_TOLERANCE (pa_width p) (pa_distance p) al (ft_rotation a t) ->
  -180 < ft_rotation a t < 180 ->
  sin (al - ft_rotation a t * PI / 180) <> 0 ->
  pa_width p / 2 * Rabs (sin (ft_rotation a t * PI / 180)) < pa_height p ->
  In s (gnd_surfaces (ft_ground a)) ->
  px (b1 (s_coords s t)) < x < px (b2 (s_coords s t)) ->
  (s_shaded s = true <-> exists i, (i < pa_n_pvrows p)%nat /\
     row_shades_ground (pa_width p) (pa_distance p) (pa_height p) (ft_rotation a t) al i x).
Proof.
  intros p n f a t al s x V F. destruct (fit_spec _ _ _ _ F) as (_ & ER & _). rewrite ER.
  exact (ground_surface_shade p n f a t al s x V F).
Qed.
Print Assumptions C69_ground_surfaces.

(* ------------------------------------------------------------------------------ C70 *)

(** Cosine of the angle of incidence in space, from the angles in the plane of the array. *)
Lemma sun_cosine_plane : forall tilt az zen saz axis al k (j : Z),
  k * cos al = sin (zen * PI / 180) * sin ((saz - axis) * PI / 180) -> k * sin al = cos (zen * PI / 180) ->
  az - axis = 90 + 180 * IZR j ->
  sun_cosine tilt az zen saz = k * sin (al - rr (get_rotation az axis tilt)).
Proof.
  intros tilt az zen saz axis al k j KC KS EJ.
  assert (E : sun_cosine tilt az zen saz = cosd tilt * cosd zen + sind tilt * (sind zen * cosd (saz - az))).
  { assert (cosd (saz - az) = cosd saz * cosd az + sind saz * sind az) as ->.
    { unfold cosd, sind, deg2rad. replace ((saz - az) * PI / 180) with (saz * PI / 180 - az * PI / 180) by field. apply cos_minus. }
    unfold sun_cosine, dot3, surface_normal, sun_direction. ring. }
  rewrite E. clear E. rewrite sin_minus.
  replace (k * (sin al * cos (rr (get_rotation az axis tilt)) - cos al * sin (rr (get_rotation az axis tilt))))
    with (k * sin al * cos (rr (get_rotation az axis tilt)) - k * cos al * sin (rr (get_rotation az axis tilt))) by ring.
  rewrite KC, KS. unfold rr. change (sin (deg2rad (get_rotation az axis tilt))) with (sind (get_rotation az axis tilt)).
  change (cos (deg2rad (get_rotation az axis tilt))) with (cosd (get_rotation az axis tilt)).
  change (sin (zen * PI / 180)) with (sind zen). change (cos (zen * PI / 180)) with (cosd zen). change (sin ((saz - axis) * PI / 180)) with (sind (saz - axis)).
  destruct (Z.Even_or_Odd j) as [(m & ->)|(m & ->)].
  - destruct (C10_rotation az axis tilt 90 m) as (_ & R); [lra| rewrite EJ, mult_IZR; ring|]. rewrite R by lra.
    replace (saz - az) with ((saz - axis) - 90 + 360 * IZR (- m)). 2: { rewrite opp_IZR. rewrite mult_IZR in EJ. lra. }
    assert (cosd (saz - axis - 90 + 360 * IZR (- m)) = sind (saz - axis)) as ->.
    { rewrite cosd_turn. unfold cosd, sind, deg2rad. replace ((saz - axis - 90) * PI / 180) with ((saz - axis) * PI / 180 - PI / 2) by field.
      rewrite cos_minus, cos_PI2, sin_PI2. ring. }
    rewrite sind_opp, cosd_opp. ring.
  - destruct (C10_rotation az axis tilt 270 m) as (R & _); [lra| rewrite EJ, plus_IZR, mult_IZR; ring|]. rewrite R by lra.
    replace (saz - az) with ((saz - axis) + 90 + 360 * IZR (- m - 1)). 2: { rewrite minus_IZR, opp_IZR. rewrite plus_IZR, mult_IZR in EJ. lra. }
    assert (cosd (saz - axis + 90 + 360 * IZR (- m - 1)) = - sind (saz - axis)) as ->.
    { rewrite cosd_turn. unfold cosd, sind, deg2rad. replace ((saz - axis + 90) * PI / 180) with ((saz - axis) * PI / 180 + PI / 2) by field.
      rewrite cos_plus, cos_PI2, sin_PI2. ring. }
    ring.
Qed.

Lemma total_all0 : forall (A : Type) (f : A -> R) l, (forall x, In x l -> f x = 0) -> total f l = 0.
Proof. intros A f l H. rewrite <- (total_zero A l). now apply total_ext. Qed.

Lemma total_nonneg : forall (A : Type) (f : A -> R) l, (forall x, In x l -> 0 <= f x) -> 0 <= total f l.
Proof. intros A f l H. rewrite <- (total_zero A l). now apply total_le. Qed.

Lemma side_shaded : forall p n f a t al i row,
  valid_params p -> fit p n f = Some a ->
  sun_angle (fi_zenith f t) (fi_azimuth f t) (pa_axis_azimuth p) al ->
  -180 < fit_rotation p f t < 180 -> (fit_rotation p f t <> 0 \/ pa_gcr p <= 1) ->
  nth_error (ft_rows a) i = Some row ->
  side_shaded_length (row_front row) t = fst (row_sl p f i t) /\
  side_shaded_length (row_back row) t = snd (row_sl p f i t).
Proof.
  intros p n f a t al i row V F SU R RG E. destruct (fit_spec _ _ _ _ F) as (_ & ER & _).
  destruct (Req_EM_T (fit_rotation p f t) 0) as [Z|Z].
  2: { apply (fit_shaded_lengths_eq p n f a t i row V F); rewrite ?ER; assumption. }
  destruct RG as [?|GC]; [contradiction|]. pose proof V as (W & GP & _).
  assert (SA : 0 < sin al) by (destruct SU as (B & _); apply sin_gt_0; lra).
  assert (D : pa_width p <= pa_distance p).
  { unfold pa_distance. apply (Rmult_le_reg_r (pa_gcr p)); [exact GP|]. unfold Rdiv. rewrite Rmult_assoc, Rinv_l by lra. nra. }
  assert (H0 : fit_shading p (fit_alpha p f) (fit_rotation p f) t = (0, 0)).
  { unfold fit_shading. rewrite (fit_alpha_sun_angle _ _ _ _ SU), Z. destruct (le_lt_dec (pa_n_pvrows p) 1) as [L|L].
    - pose proof V as (_ & _ & N & _). assert (pa_n_pvrows p = 1%nat) as -> by lia. apply interrow_shading_single.
    - assert (SR : al - rr 0 = al) by (unfold rr, deg2rad; field).
      destruct (interrow_shading_cases _ (pa_distance p) (pa_width p) al 0 L ltac:(lra) W SA) as (_ & K & _); rewrite SR in *; [lra|].
      rewrite K by exact SA. rewrite (Rabs_right (sin al)) by lra. f_equal. apply Rmax_left.
      replace (pa_distance p * sin al / sin al) with (pa_distance p) by (field; lra). lra. }
  assert (forall (bk : bool), side_shaded_length (if bk then row_back row else row_front row) t = 0) as H.
  { intro bk. unfold side_shaded_length. rewrite total_py_sum. apply total_all0. intros seg I. destruct (In_nth_error _ _ I) as (k & Ek).
    assert (R' : -180 < ft_rotation a t < 180) by (rewrite ER; exact R).
    destruct (C06_lengths p n f a t i row V F R' E) as (_ & C). destruct (C bk k seg Ek) as (_ & _ & C0). apply C0. now rewrite ER. }
  pose proof (H false) as H1. pose proof (H true) as H2. cbn [negb] in H1, H2. cbv iota in H1, H2. rewrite H1, H2. unfold row_sl. rewrite H0. unfold row_shaded_lengths, np_where. cbn [fst snd].
  destruct (Nat.eqb i 0), (Nat.eqb i (pa_n_pvrows p - 1)), (Rltb 0 (fit_rotation p f t)); cbn; auto.
Qed.

(** Sum over the illuminated surfaces of a side on which the light is uniform. *)
Lemma side_total : forall p n f a t i row (bk : bool) (x : ts_surface -> R) X,
  valid_params p -> fit p n f = Some a -> -180 < ft_rotation a t < 180 ->
  nth_error (ft_rows a) i = Some row ->
  let side := if bk then row_back row else row_front row in
  (forall seg s, In seg (side_segments side) -> In s (seg_illum seg) -> x s = X) ->
  total (fun s => if s_shaded s then 0 else s_length s t * x s) (side_surfaces side)
  = (pa_width p - side_shaded_length side t) * X.
Proof.
  intros p n f a t i row bk x X V F R E side H.
  destruct (C06_side_partition p n f a t i row bk V F R E) as (_ & SL & PT). fold side in SL, PT.
  rewrite <- SL. unfold side_surfaces, side_length, side_shaded_length. rewrite total_flat, !total_py_sum, <- total_minus, <- total_scal.
  apply total_ext. intros seg I. destruct (In_nth_error _ _ I) as (k & Ek).
  destruct (PT k seg Ek) as (il & sh & _ & _ & _ & E1 & E2 & S1 & S2 & _). unfold seg_surfaces, seg_length, coll_length.
  specialize (H seg il I). rewrite E1 in *. rewrite E2. cbn [app total]. rewrite S1, S2, H by (left; reflexivity).
  cbn [map]. unfold py_sum. cbn. ring.
Qed.

(** ... and of the ground. *)
Lemma ground_total : forall p n f a t al (x : ts_surface -> R) X,
  valid_params p -> fit p n f = Some a ->
  sun_angle (fi_zenith f t) (fi_azimuth f t) (pa_axis_azimuth p) al ->
  ~ shading_sliver DISTANCE_TOLERANCE (pa_width p) (pa_distance p) al (fit_rotation p f t) ->
  -180 < fit_rotation p f t < 180 -> above_ground p (fit_rotation p f t) ->
  (forall (sh : bool) e s, In e (if sh then gnd_shadows (ft_ground a) else gnd_illum (ft_ground a)) -> In s (el_surfaces e) ->
     x s = X sh) ->
  total (fun s => if s_shaded s then 0 else s_length s t * x s) (gnd_surfaces (ft_ground a))
  = (200 - gnd_shaded_length (ft_ground a) t) * X false /\
  total (fun s => if s_shaded s then s_length s t * x s else 0) (gnd_surfaces (ft_ground a))
  = gnd_shaded_length (ft_ground a) t * X true.
Proof.
  intros p n f a t al x X V F SU NS RO AB H.
  pose proof (fit_ground_ordered _ _ _ _ F) as G. pose proof (fit_raw_ordered' p f t al V SU NS) as O.
  destruct (fit_cuts p (fit_alpha p f) (fit_rotation p f) t V AB RO) as (LC & NN & _).
  assert (CN : map (fun c t => cut_point (c t) (fit_rotation p f t) pa_y_ground) (map row_coords (fit_rows p (fit_alpha p f) (fit_rotation p f))) <> []).
  { intro Z. rewrite Z in LC. cbn in LC. pose proof V as (_ & _ & N & _). lia. }
  destruct (ground_shapes _ _ _ _ _ G) as (_ & _ & TS & TI).
  assert (Q : forall e, In e (gnd_shadows (ft_ground a) ++ gnd_illum (ft_ground a)) ->
    (forall s, In s (el_surfaces e) -> s_shaded s = el_shaded e) /\
    total (fun s => s_length s t) (el_surfaces e) = line_length (el_coords e t)).
  { intros e Ie. destruct (ground_elements _ _ _ _ _ _ G Ie) as (mkid & sh & c & E & EC).
    pose proof (ground_elements_in_ground _ _ _ _ _ _ t G O Ie) as (A & B & C). pose proof (ground_elements_y _ _ _ _ _ _ t G Ie) as (Y1 & Y2).
    destruct ground_bounds as [GB1 GB2]. rewrite GB1 in A. rewrite GB2 in C. rewrite EC in *.
    destruct (element_cutting mkid sh c _ t CN NN A B C ltac:(congruence)) as (_ & _ & L & K). rewrite <- E in K, L.
    split; [intros s Is; rewrite (proj1 (K s Is)), E; now rewrite el_shaded_make|]. rewrite <- L. unfold coll_length. now rewrite total_py_sum. }
  pose proof (ground_length_200 _ _ _ _ _ t G O) as L200. unfold gnd_length in L200. rewrite total_py_sum, total_app in L200.
  unfold gnd_shaded_length. rewrite total_py_sum. unfold gnd_surfaces. rewrite !total_app, !total_flat.
  set (len := fun e : ts_ground_element => line_length (el_coords e t)) in *.
  assert (T1 : total (fun e => total (fun s => if s_shaded s then 0 else s_length s t * x s) (el_surfaces e)) (gnd_shadows (ft_ground a)) = 0).
  { apply total_all0. intros e Ie. apply total_all0. intros s Is.
    destruct (Q e ltac:(apply in_or_app; auto)) as (Q1 & _). rewrite (Q1 s Is), (TS e Ie). reflexivity. }
  assert (T2 : total (fun e => total (fun s => if s_shaded s then 0 else s_length s t * x s) (el_surfaces e)) (gnd_illum (ft_ground a)) = total len (gnd_illum (ft_ground a)) * X false).
  { rewrite <- total_scal. apply total_ext. intros e Ie. destruct (Q e ltac:(apply in_or_app; auto)) as (Q1 & Q2). unfold len. rewrite <- Q2, <- total_scal.
    apply total_ext. intros s Is. rewrite (Q1 s Is), (TI e Ie), (H false e s Ie Is). reflexivity. }
  assert (T3 : total (fun e => total (fun s => if s_shaded s then s_length s t * x s else 0) (el_surfaces e)) (gnd_shadows (ft_ground a)) = total len (gnd_shadows (ft_ground a)) * X true).
  { rewrite <- total_scal. apply total_ext. intros e Ie. destruct (Q e ltac:(apply in_or_app; auto)) as (Q1 & Q2). unfold len. rewrite <- Q2, <- total_scal.
    apply total_ext. intros s Is. rewrite (Q1 s Is), (TS e Ie), (H true e s Ie Is). reflexivity. }
  assert (T4 : total (fun e => total (fun s => if s_shaded s then s_length s t * x s else 0) (el_surfaces e)) (gnd_illum (ft_ground a)) = 0).
  { apply total_all0. intros e Ie. apply total_all0. intros s Is.
    destruct (Q e ltac:(apply in_or_app; auto)) as (Q1 & _). rewrite (Q1 s Is), (TI e Ie). reflexivity. }
  rewrite T1, T2, T3, T4. split; [rewrite <- L200|]; ring.
Qed.

(** Timestep [t] is one of those for which the balance is exact: sun above the horizon and
    not in the plane of the rows, rows above the ground and turned across their rotation
    axis, no row wider than the distance to the next one if they are flat, shadows within
    the modelled ground, no sliver of shade. *)
Definition sunny (p : pvarray_params) (i : irr_inputs) (rotation : R) (t : nat) (al : R) : Prop :=
  sun_angle (ii_zenith i t) (ii_solar_azimuth i t) (pa_axis_azimuth p) al /\
  ~ shading_sliver DISTANCE_TOLERANCE (pa_width p) (pa_distance p) al rotation /\
  -180 < rotation < 180 /\ (rotation <> 0 \/ pa_gcr p <= 1) /\
  sin (al - rotation * PI / 180) <> 0 /\
  pa_width p / 2 * Rabs (sin (rotation * PI / 180)) < pa_height p /\
  shadows_in_ground (pa_n_pvrows p) (pa_width p) (pa_distance p) (pa_height p) rotation al /\
  (exists j : Z, ii_azimuth i t - pa_axis_azimuth p = 90 + 180 * IZR j).

Lemma sunlight : forall P e0 raw e i a t al (x : ts_surface -> R),
  valid_params (pv_params (en_array e0)) -> engine_fit P e0 raw = Ok e ->
  format_inputs raw = Ok i -> pv_fitted (en_array e) = Some a ->
  sunny (pv_params (en_array e0)) i (ft_rotation a t) t al ->
  (forall s, In s (all_ts_surfaces a) -> value_at (pv_store (en_array e)) s "direct" t (x s)) ->
  total (fun s => if s_shaded s then 0 else s_length s t * x s) (all_ts_surfaces a)
  = 200 * (ii_dni i t * cosd (ii_zenith i t)) /\
  0 < gnd_shaded_length (ft_ground a) t /\
  total (fun s => if s_shaded s then s_length s t * x s else 0) (gnd_surfaces (ft_ground a))
  = gnd_shaded_length (ft_ground a) t * (ii_dni i t * cosd (ii_zenith i t) * let_through (im_spacing (en_irr e0)) (im_transparency (en_irr e0))).
Proof.
  intros P e0 raw e i a t al x V Fi Hi Ha (SU & NS & RO & RG & SN & AB & IG & (j & EJ)) HX.
  destruct (C30_direct P e0 raw e V Fi) as (i' & a' & Hi' & Ha' & C30). rewrite Hi in Hi'. injection Hi' as <-. rewrite Ha in Ha'. injection Ha' as <-.
  destruct (engine_fit_fitted P e0 raw e V Fi) as (i' & a' & f & rf & rb & Hi' & FE). rewrite Hi in Hi'. injection Hi' as <-.
  pose proof (fe_array _ _ _ _ _ _ _ FE) as Ha'. rewrite Ha in Ha'. injection Ha' as <-.
  pose proof (fe_fit _ _ _ _ _ _ _ FE) as F. rewrite (proj1 (engine_fit_params _ _ _ _ Fi)) in F.
  set (p := pv_params (en_array e0)) in *. set (g := fit_of i) in *.
  change (ii_zenith i) with (fi_zenith g) in SU. change (ii_solar_azimuth i) with (fi_azimuth g) in SU.
  destruct (fit_spec _ _ _ _ F) as (_ & ER & _ & ROWS & _). rewrite ER in NS, RO, RG, SN, AB, IG.
  change (pa_width p / 2 * Rabs (sin (fit_rotation p g t * PI / 180)) < pa_height p) with (above_ground p (fit_rotation p g t)) in AB.
  rewrite <- sin_rr in SN. set (S := sin (al - rr (fit_rotation p g t))) in *.
  pose proof SU as ((AL0 & AL1) & k & K0 & KC & KS). assert (SA : 0 < sin al) by (apply sin_gt_0; lra).
  assert (SC : sun_cosine (ii_tilt i t) (ii_azimuth i t) (ii_zenith i t) (ii_solar_azimuth i t) = k * S).
  { exact (sun_cosine_plane _ _ _ _ _ al k j KC KS EJ). }
  set (tau := let_through (im_spacing (en_irr e0)) (im_transparency (en_irr e0))) in *.
  assert (XC : forall s c, in_category a s c -> x s = ii_dni i t * incidence (ii_tilt i t) (ii_azimuth i t) (ii_zenith i t) (ii_solar_azimuth i t) c * (if cat_shaded c then tau else 1)).
  { intros s c Hc. exact (value_at_fun _ _ _ _ _ _ (HX s (category_surface _ _ _ Hc)) (C30 t s c Hc)). }
  assert (CZ : cosd (ii_zenith i t) = k * sin al) by (symmetry; exact KS).
  destruct (ground_total p (ii_n i) g a t al x (fun sh => ii_dni i t * cosd (ii_zenith i t) * (if sh then tau else 1)) V F SU NS RO AB) as (GT & GS).
  { intros sh el s Ie Is. rewrite (XC s (CGround sh)); [reflexivity|]. exists el. tauto. }
  pose proof (shaded_ground p (ii_n i) g a t al V F SU NS SN AB IG) as SG.
  pose proof (beam_balance p g t al V SU NS SN) as BB. cbv zeta in BB. fold S in BB. rewrite <- SG in BB.
  assert (HP : 0 < half p g t).
  { pose proof V as (W & _). unfold half, half_shadow. rewrite (fit_alpha_sun_angle _ _ _ _ SU). fold S. apply Rdiv_lt_0_compat; [|exact SA].
    apply Rmult_lt_0_compat; [lra|now apply Rabs_pos_lt]. }
  split; [|split].
  - unfold all_ts_surfaces. rewrite total_app, GT, total_flat, ROWS, fit_rows_eq, total_map.
    assert (RT : total (fun q => total (fun s => if s_shaded s then 0 else s_length s t * x s) (row_surfaces (fit_row p (fit_alpha p g) (fit_rotation p g) q))) (seq 0 (pa_n_pvrows p))
      = total (fun q => (pa_width p - facing S (row_sl p g q t)) * Rabs S) (seq 0 (pa_n_pvrows p)) * (ii_dni i t * k)).
    { rewrite <- total_scal. apply total_ext. intros q Iq. apply in_seq in Iq.
      assert (Eq : nth_error (ft_rows a) q = Some (fit_row p (fit_alpha p g) (fit_rotation p g) q)).
      { rewrite ROWS, fit_rows_eq, nth_error_map, nth_error_seq by lia. reflexivity. }
      set (row := fit_row p (fit_alpha p g) (fit_rotation p g) q) in *.
      destruct (side_shaded p (ii_n i) g a t al q row V F SU RO RG Eq) as (SF & SB).
      assert (RO' : -180 < ft_rotation a t < 180) by (rewrite ER; exact RO).
      unfold row_surfaces. rewrite total_app.
      rewrite (side_total p (ii_n i) g a t q row false x (ii_dni i t * Rmax 0 (k * S)) V F RO' Eq).
      2: { intros seg s Ig Is. rewrite (XC s (CRow q false false)); [cbn [incidence cat_shaded]; rewrite SC; ring|]. exists row, seg. tauto. }
      rewrite (side_total p (ii_n i) g a t q row true x (ii_dni i t * Rmax 0 (- (k * S))) V F RO' Eq).
      2: { intros seg s Ig Is. rewrite (XC s (CRow q true false)); [cbn [incidence cat_shaded]; rewrite SC; ring|]. exists row, seg. tauto. }
      rewrite SF, SB. unfold facing. destruct (Rlt_dec 0 S) as [SP|SP].
      - rewrite Rmax_right, (Rmax_left 0 (- (k * S))) by nra. rewrite Rabs_right by lra. ring.
      - rewrite Rmax_left, (Rmax_right 0 (- (k * S))) by nra. rewrite Rabs_left by (apply Rnot_lt_le in SP; destruct SP; [assumption|contradiction]). ring. }
    rewrite RT, BB, CZ. ring.
  - rewrite SG. pose proof V as (_ & _ & N & _). pose proof (pa_distance_pos p V) as D.
    assert (1 <= INR (pa_n_pvrows p)) by (change 1 with (INR 1); apply le_INR; lia).
    assert (0 <= (INR (pa_n_pvrows p) - 1) * (if flag_at p g t then pa_distance p else 2 * half p g t)); [|lra].
    apply Rmult_le_pos; [lra|]. destruct (flag_at p g t); lra.
  - rewrite GS. reflexivity.
Qed.

Lemma category_shaded : forall p n f a s c t, valid_params p -> fit p n f = Some a -> -180 < ft_rotation a t < 180 ->
  in_category a s c -> s_shaded s = cat_shaded c.
Proof.
  intros p n f a s [sh|i b sh] t V F RO H; cbn [cat_shaded].
  - destruct H as (el & Ie & Is). pose proof (fit_ground_ordered _ _ _ _ F) as G.
    assert (Ie' : In el (gnd_shadows (ft_ground a) ++ gnd_illum (ft_ground a))) by (apply in_or_app; destruct sh; auto).
    destruct (ground_elements _ _ _ _ _ _ G Ie') as (mkid & sh' & c & E & _). destruct (In_nth_error _ _ Is) as (k & Ek). rewrite E in Ek.
    destruct (make_element_surfaces _ _ _ _ _ _ Ek) as (_ & -> & _). destruct (ground_shapes _ _ _ _ _ G) as (_ & _ & TS & TI).
    rewrite <- (el_shaded_make mkid sh' c) with (cuts := map (fun c t => cut_point (c t) (fit_rotation p f t) pa_y_ground) (map row_coords (fit_rows p (fit_alpha p f) (fit_rotation p f)))).
    rewrite <- E. destruct sh; [now apply TS|now apply TI].
  - destruct H as (row & seg & Er & Ig & Is). destruct (C06_side_partition p n f a t i row b V F RO Er) as (_ & _ & PT).
    destruct (In_nth_error _ _ Ig) as (k & Ek). destruct (PT k seg Ek) as (il & shd & _ & _ & _ & E1 & E2 & S1 & S2 & _).
    destruct sh; rewrite ?E1, ?E2 in Is; destruct Is as [<-|[]]; assumption.
Qed.

(** C70. The surfaces in the sun receive, together, the direct light that would fall on the
    200 m of ground if there were no row: none is lost, none is counted twice. *)
Theorem C70_sunlight : forall P e0 raw e i a t al (x : ts_surface -> R),
  valid_params (pv_params (en_array e0)) -> engine_fit P e0 raw = Ok e ->
  format_inputs raw = Ok i -> pv_fitted (en_array e) = Some a ->
  sunny (pv_params (en_array e0)) i (ft_rotation a t) t al ->
  (forall s, In s (all_ts_surfaces a) -> value_at (pv_store (en_array e)) s "direct" t (x s)) ->
  total (fun s => if s_shaded s then 0 else s_length s t * x s) (all_ts_surfaces a)
  = 200 * (ii_dni i t * cosd (ii_zenith i t)).
Proof. intros P e0 raw e i a t al x V Fi Hi Ha SY HX. exact (proj1 (sunlight P e0 raw e i a t al x V Fi Hi Ha SY HX)). Qed.
Print Assumptions C70_sunlight.

(** With opaque modules and no spacing between them, this is all the direct light. *)
Theorem C70_opaque : forall P e0 raw e i a t al (x : ts_surface -> R),
  valid_params (pv_params (en_array e0)) -> engine_fit P e0 raw = Ok e ->
  format_inputs raw = Ok i -> pv_fitted (en_array e) = Some a ->
  sunny (pv_params (en_array e0)) i (ft_rotation a t) t al ->
  (forall s, In s (all_ts_surfaces a) -> value_at (pv_store (en_array e)) s "direct" t (x s)) ->
  im_spacing (en_irr e0) = 0 -> im_transparency (en_irr e0) = 0 ->
  total (fun s => s_length s t * x s) (all_ts_surfaces a) = 200 * (ii_dni i t * cosd (ii_zenith i t)).
Proof.
  intros P e0 raw e i a t al x V Fi Hi Ha SY HX S0 T0. rewrite <- (C70_sunlight P e0 raw e i a t al x V Fi Hi Ha SY HX).
  apply total_ext. intros s Is. destruct (s_shaded s) eqn:SH; [|reflexivity].
  destruct (C30_direct P e0 raw e V Fi) as (i' & a' & Hi' & Ha' & C30). rewrite Hi in Hi'. injection Hi' as <-. rewrite Ha in Ha'. injection Ha' as <-.
  destruct (category_exists a s Is) as (c & Hc). pose proof (value_at_fun _ _ _ _ _ _ (HX s Is) (C30 t s c Hc)) as E.
  destruct (engine_fit_fitted P e0 raw e V Fi) as (i' & a' & f & rf & rb & Hi' & FE). rewrite Hi in Hi'. injection Hi' as <-.
  pose proof (fe_array _ _ _ _ _ _ _ FE) as Ha'. rewrite Ha in Ha'. injection Ha' as <-.
  assert (CS : cat_shaded c = true).
  { rewrite <- SH. symmetry. destruct SY as (_ & _ & RO & _).
    exact (category_shaded _ _ _ _ _ _ t (fe_valid _ _ _ _ _ _ _ FE) (fe_fit _ _ _ _ _ _ _ FE) RO Hc). }
  rewrite CS, S0, T0 in E. unfold let_through in E. rewrite E. ring.
Qed.
Print Assumptions C70_opaque.

(** When the modules let light through, what reaches the shaded surfaces is not taken from
    the light of the surfaces in the sun: the array receives more than what falls on it. *)
Theorem C70_transparent_gain : forall P e0 raw e i a t al (x : ts_surface -> R),
  valid_params (pv_params (en_array e0)) -> engine_fit P e0 raw = Ok e ->
  format_inputs raw = Ok i -> pv_fitted (en_array e) = Some a ->
  sunny (pv_params (en_array e0)) i (ft_rotation a t) t al ->
  (forall s, In s (all_ts_surfaces a) -> value_at (pv_store (en_array e)) s "direct" t (x s)) ->
  0 < let_through (im_spacing (en_irr e0)) (im_transparency (en_irr e0)) -> 0 < ii_dni i t ->
  200 * (ii_dni i t * cosd (ii_zenith i t)) < total (fun s => s_length s t * x s) (all_ts_surfaces a).
Proof.
  intros P e0 raw e i a t al x V Fi Hi Ha SY HX T0 D0.
  destruct (sunlight P e0 raw e i a t al x V Fi Hi Ha SY HX) as (E1 & GP & E2).
  set (tau := let_through (im_spacing (en_irr e0)) (im_transparency (en_irr e0))) in *.
  assert (CZ : 0 < cosd (ii_zenith i t)).
  { destruct SY as (((AL0 & AL1) & k & K0 & _ & KS) & _). assert (0 < sin al) by (apply sin_gt_0; lra).
    change (cosd (ii_zenith i t)) with (cos (ii_zenith i t * PI / 180)). rewrite <- KS. now apply Rmult_lt_0_compat. }
  assert (RP : 0 <= total (fun s => if s_shaded s then s_length s t * x s else 0) (flat_map row_surfaces (ft_rows a))).
  { apply total_nonneg. intros s Is. destruct (s_shaded s); [|lra].
    assert (I' : In s (all_ts_surfaces a)) by (apply in_or_app; now right).
    apply Rmult_le_pos; [apply ProofLocal.line_length_nonneg|].
    destruct (C30_direct P e0 raw e V Fi) as (i' & a' & Hi' & Ha' & C30). rewrite Hi in Hi'. injection Hi' as <-. rewrite Ha in Ha'. injection Ha' as <-.
    destruct (category_exists a s I') as (c & Hc). rewrite (value_at_fun _ _ _ _ _ _ (HX s I') (C30 t s c Hc)). fold tau.
    apply Rmult_le_pos; [apply Rmult_le_pos; [lra|]|destruct (cat_shaded c); lra].
    destruct c as [sh|q [|] sh]; cbn [incidence]; [lra| |]; apply Rmax_l. }
  assert (E3 : total (fun s => s_length s t * x s) (all_ts_surfaces a)
    = total (fun s => if s_shaded s then 0 else s_length s t * x s) (all_ts_surfaces a)
      + total (fun s => if s_shaded s then s_length s t * x s else 0) (all_ts_surfaces a)).
  { rewrite <- total_plus. apply total_ext. intros s _. destruct (s_shaded s); ring. }
  rewrite E3, E1. unfold all_ts_surfaces. rewrite total_app, E2.
  assert (0 < gnd_shaded_length (ft_ground a) t * (ii_dni i t * cosd (ii_zenith i t) * tau)) by (repeat apply Rmult_lt_0_compat; assumption). lra.
Qed.
Print Assumptions C70_transparent_gain.

(* -------------------------------------------------------------------------- examples *)

(** C69: at the second timestep of the example (rows that shade each other), the point of
    abscissa -5 is in the shadow of the first row, the point 50 in the sun. *)
Example C69_example : exists a e0 e3,
  fit ex_p 2 ex_f = Some a /\
  sun_angle (fi_zenith ex_f 1%nat) (fi_azimuth ex_f 1%nat) (pa_axis_azimuth ex_p) (PI / 6) /\
  sin (PI / 6 - ft_rotation a 1%nat * PI / 180) <> 0 /\
  pa_width ex_p / 2 * Rabs (sin (ft_rotation a 1%nat * PI / 180)) < pa_height ex_p /\
  nth_error (gnd_shadows (ft_ground a)) 0 = Some e0 /\ In e3 (gnd_illum (ft_ground a)) /\
  px (b1 (el_coords e0 1%nat)) < -5 < px (b2 (el_coords e0 1%nat)) /\
  px (b1 (el_coords e3 1%nat)) < 50 < px (b2 (el_coords e3 1%nat)).
Proof.
  destruct ex_fit as (a & F). destruct (fit_spec _ _ _ _ F) as (_ & ER & _).
  assert (EA : fit_alpha ex_p ex_f 1%nat = PI / 6) by (apply fit_alpha_sun_angle; exact ex_sun1).
  assert (SA : 0 < sin (fit_alpha ex_p ex_f 1%nat)) by (rewrite EA, sin_PI6; lra).
  assert (W : 0 < pa_width ex_p) by (cbn; lra).
  destruct (shadow_element_at ex_p 2 ex_f a 1%nat 0%nat W SA F ltac:(cbn; lia)) as (e0 & E0 & X0).
  assert (L3 : List.length (gnd_illum (ft_ground a)) = 4%nat).
  { destruct (ground_shapes _ _ _ _ _ (fit_ground_ordered _ _ _ _ F)) as (_ & L & _). rewrite L, !map_length, fit_rows_length. reflexivity. }
  destruct (nth_error (gnd_illum (ft_ground a)) 3) as [e3|] eqn:E3; [|apply nth_error_None in E3; lia].
  destruct (illum_element_at ex_p 2 ex_f a 1%nat 3%nat e3 W SA F E3) as (_ & X3).
  assert (S3 : 17 / 10 < sqrt 3 < 18 / 10).
  { split; [rewrite <- (sqrt_Rsqr (17 / 10)) by lra | rewrite <- (sqrt_Rsqr (18 / 10)) by lra]; apply sqrt_lt_1; unfold Rsqr; lra. }
  assert (MID : mid_shadow 3 (PI / 6) = - (3 * sqrt 3)).
  { unfold mid_shadow. rewrite cos_PI6, sin_PI6. field. }
  assert (HALF : half_shadow 2 (fit_rotation ex_p ex_f 1%nat) (PI / 6) = 2).
  { unfold half_shadow. rewrite sin_rr, ex_sin1, sin_PI6, Rabs_R1. field. }
  assert (FL : flag_at ex_p ex_f 1%nat = true).
  { unfold flag_at, fit_shading. rewrite EA. apply flag_iff_overlap; try (cbn; lia); try rewrite ex_distance; try lra.
    - rewrite sin_PI6. lra.
    - rewrite sin_rr, ex_sin1. lra.
    - rewrite <- ex_distance. exact ex_nosliver1.
    - rewrite <- ex_distance. rewrite ex_excess1. lra. }
  exists a, e0, e3. split; [exact F|]. split; [exact ex_sun1|]. rewrite ER. split; [rewrite ex_sin1; lra|].
  split.
  { cbn [pa_width pa_height ex_p]. assert (Rabs (sin (fit_rotation ex_p ex_f 1%nat * PI / 180)) <= 1) by (apply Rabs_le; apply SIN_bound). lra. }
  split; [exact E0|]. split; [exact (nth_error_In _ _ E3)|].
  apply pair_equal_spec in X0. destruct X0 as [-> ->]. apply pair_equal_spec in X3. destruct X3 as [-> ->].
  unfold flag_at in FL. unfold shend. rewrite FL. cbn [Nat.ltb Nat.leb pa_n_pvrows ex_p]. unfold shl, shr. rewrite EA. cbn [pa_width pa_height ex_p].
  fold ex_p. rewrite MID, HALF, ex_distance. cbn [INR]. rewrite !ck_id by lra. lra.
Qed.

(** C70: the example with opaque modules receives 200 m x 1000 W/m2 x cos 60, with
    semi-transparent ones more than that. *)
Definition ex_opaque (k : irr_kind) : engine :=
  engine_init (pvarray_init ex_p []) (Some default_calculator)
    (Some (IrrModel k (Some (1 / 100)) (Some (3 / 100)) 0 0 None None 6 30 "uniform_disk")) None None.

Lemma ex_in_ground : forall a, fit ex_p 2 ex_f = Some a ->
  shadows_in_ground (pa_n_pvrows ex_p) (pa_width ex_p) (pa_distance ex_p) (pa_height ex_p) (ft_rotation a 1%nat) (PI / 6).
Proof.
  intros a F. destruct (fit_spec _ _ _ _ F) as (_ & ER & _). rewrite ER. intros i x L H.
  assert (AB : pa_width ex_p / 2 * Rabs (sin (rr (fit_rotation ex_p ex_f 1%nat))) < pa_height ex_p).
  { cbn [pa_width pa_height ex_p]. assert (Rabs (sin (rr (fit_rotation ex_p ex_f 1%nat))) <= 1) by (apply Rabs_le; apply SIN_bound). lra. }
  apply shade_iff in H; [|rewrite sin_PI6; lra|cbn; lra|rewrite sin_rr, ex_sin1; lra|exact AB].
  assert (S3 : 17 / 10 < sqrt 3 < 18 / 10).
  { split; [rewrite <- (sqrt_Rsqr (17 / 10)) by lra | rewrite <- (sqrt_Rsqr (18 / 10)) by lra]; apply sqrt_lt_1; unfold Rsqr; lra. }
  unfold mid_shadow, half_shadow in H. rewrite sin_rr, ex_sin1, sin_PI6, cos_PI6, Rabs_R1, ex_distance in H. cbn [pa_width pa_height ex_p] in H.
  cbn [pa_n_pvrows ex_p] in L. destruct i as [|[|[|i]]]; [| | |lia]; cbn [INR] in H; lra.
Qed.

Lemma ex_sunny : forall i a, fit ex_p 2 ex_f = Some a -> format_inputs ex_raw = Ok i ->
  sunny ex_p i (ft_rotation a 1%nat) 1%nat (PI / 6).
Proof.
  intros i a F Hi. injection Hi as <-. pose proof (ex_in_ground a F) as IG. destruct (fit_spec _ _ _ _ F) as (_ & ER & _).
  split; [exact ex_sun1|]. split; [rewrite ER; exact ex_nosliver1|]. split; [rewrite ER, ex_rot1; lra|]. split; [left; rewrite ER, ex_rot1; lra|].
  split; [rewrite ER, ex_sin1; lra|]. split; [|split; [exact IG|]].
  - cbn [pa_width pa_height ex_p]. assert (Rabs (sin (ft_rotation a 1%nat * PI / 180)) <= 1) by (apply Rabs_le; apply SIN_bound). lra.
  - exists 0%Z. cbn. lra.
Qed.

Lemma direct_published : forall P e0 raw e a t, valid_params (pv_params (en_array e0)) -> engine_fit P e0 raw = Ok e ->
  pv_fitted (en_array e) = Some a ->
  exists x : ts_surface -> R, forall s, In s (all_ts_surfaces a) -> value_at (pv_store (en_array e)) s "direct" t (x s).
Proof.
  intros P e0 raw e a t V Fi Ha. destruct (C30_direct P e0 raw e V Fi) as (i & a' & _ & Ha' & C30). rewrite Ha in Ha'. injection Ha' as <-.
  exists (fun s => match get_param (pv_store (en_array e)) s "direct" with Ok (PArr v) => v t | _ => 0 end).
  intros s Is. destruct (category_exists a s Is) as (c & Hc). destruct (C30 t s c Hc) as (v & E & _). exists v. rewrite E. auto.
Qed.

Example C70_example : forall P k, exists e i a x,
  valid_params (pv_params (en_array (ex_opaque k))) /\ engine_fit P (ex_opaque k) ex_raw = Ok e /\
  format_inputs ex_raw = Ok i /\ pv_fitted (en_array e) = Some a /\
  sunny (pv_params (en_array (ex_opaque k))) i (ft_rotation a 1%nat) 1%nat (PI / 6) /\
  (forall s, In s (all_ts_surfaces a) -> value_at (pv_store (en_array e)) s "direct" 1%nat (x s)) /\
  total (fun s => s_length s 1%nat * x s) (all_ts_surfaces a) = 100000.
Proof.
  intros P k. assert (V : valid_params (pv_params (en_array (ex_opaque k)))) by exact ex_valid.
  assert (exists e, engine_fit P (ex_opaque k) ex_raw = Ok e) as (e & Fi).
  { apply C50_fit_succeeds; [exact V|]. split.
    - exists (Some 2%nat). cbn. repeat (split; [reflexivity|]). split; [discriminate | left; reflexivity].
    - cbn. split; [discriminate|]. split; [discriminate | discriminate]. }
  destruct (engine_fit_fitted P (ex_opaque k) ex_raw e V Fi) as (i & a & f & rf & rb & Hi & FE).
  pose proof (fe_array _ _ _ _ _ _ _ FE) as Ha. pose proof (fe_fit _ _ _ _ _ _ _ FE) as F. rewrite (proj1 (engine_fit_params _ _ _ _ Fi)) in F.
  assert (F' : fit ex_p 2 ex_f = Some a) by (injection Hi as <-; exact F).
  destruct (direct_published P (ex_opaque k) ex_raw e a 1%nat V Fi Ha) as (x & HX).
  pose proof (ex_sunny i a F' Hi) as SY. exists e, i, a, x. repeat (split; [assumption|]). 
  rewrite (C70_opaque P (ex_opaque k) ex_raw e i a 1%nat (PI / 6) x V Fi Hi Ha SY HX eq_refl eq_refl).
  injection Hi as <-. cbn [ii_dni ii_zenith fi_zenith ex_f Nat.eqb]. unfold cosd, deg2rad. replace (60 * PI / 180) with (PI / 3) by field. rewrite cos_PI3. lra.
Qed.

Example C70_gain_example : forall P k, exists e i a x,
  let e0 := ex_engine k default_calculator in
  engine_fit P e0 ex_raw = Ok e /\ format_inputs ex_raw = Ok i /\ pv_fitted (en_array e) = Some a /\
  sunny (pv_params (en_array e0)) i (ft_rotation a 1%nat) 1%nat (PI / 6) /\
  (forall s, In s (all_ts_surfaces a) -> value_at (pv_store (en_array e)) s "direct" 1%nat (x s)) /\
  100000 < total (fun s => s_length s 1%nat * x s) (all_ts_surfaces a).
Proof.
  intros P k. destruct (ex_engine_fit P k default_calculator ltac:(discriminate)) as (e & Fi). set (e0 := ex_engine k default_calculator) in *.
  assert (V : valid_params (pv_params (en_array e0))) by exact ex_valid.
  destruct (engine_fit_fitted P e0 ex_raw e V Fi) as (i & a & f & rf & rb & Hi & FE).
  pose proof (fe_array _ _ _ _ _ _ _ FE) as Ha. pose proof (fe_fit _ _ _ _ _ _ _ FE) as F. rewrite (proj1 (engine_fit_params _ _ _ _ Fi)) in F.
  assert (F' : fit ex_p 2 ex_f = Some a) by (injection Hi as <-; exact F).
  destruct (direct_published P e0 ex_raw e a 1%nat V Fi Ha) as (x & HX).
  pose proof (ex_sunny i a F' Hi) as SY. exists e, i, a, x. cbv zeta. repeat (split; [assumption|]).
  assert (T0 : 0 < let_through (im_spacing (en_irr e0)) (im_transparency (en_irr e0))) by (cbn; unfold let_through; lra).
  assert (D0 : 0 < ii_dni i 1%nat) by (injection Hi as <-; cbn; lra).
  pose proof (C70_transparent_gain P e0 ex_raw e i a 1%nat (PI / 6) x V Fi Hi Ha SY HX T0 D0) as G.
  replace 100000 with (200 * (ii_dni i 1%nat * cosd (ii_zenith i 1%nat))); [exact G|].
  injection Hi as <-. cbn [ii_dni ii_zenith fi_zenith ex_f Nat.eqb]. unfold cosd, deg2rad. replace (60 * PI / 180) with (PI / 3) by field. rewrite cos_PI3. lra.
Qed.
