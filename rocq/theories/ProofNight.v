(** The geometry of the array depends on the line of the sun only, not on which of its two
    directions the sun is: a sun below the horizon gives the same geometry as the opposite sun. *)
From Coq Require Import Reals List Bool Arith Lra Lia FunctionalExtensionality.
From Verif Require Import Num ModelTs ModelGeom Basics SpecGeom ProofAngles PropGeom PropVF.
Import ListNotations.
Open Scope R_scope.

(** The inputs, with the opposite sun at the timesteps when the sun is below the horizon. *)
Definition sun_up (f : fit_inputs) : fit_inputs :=
  let below t := if Rlt_dec (cos (fi_zenith f t * PI / 180)) 0 then true else false in
  FitInputs (fun t => if below t then 180 - fi_zenith f t else fi_zenith f t)
            (fun t => if below t then fi_azimuth f t + 180 else fi_azimuth f t)
            (fi_tilt f) (fi_surf_azimuth f).

Lemma atan2_opposite : forall y x, y < 0 -> atan2 (- y) (- x) = atan2 y x + PI.
Proof.
  intros y x Y. unfold atan2.
  assert (Q : - y / - x = y / x).
  { unfold Rdiv. rewrite Rinv_opp. ring. }
  rewrite Q. destruct (Rlt_dec 0 x), (Rlt_dec x 0), (Rlt_dec 0 (- x)), (Rlt_dec (- x) 0), (Rle_dec 0 y), (Rle_dec 0 (- y)),
    (Rlt_dec 0 y), (Rlt_dec y 0), (Rlt_dec 0 (- y)), (Rlt_dec (- y) 0); try lra; field.
Qed.

Lemma tan_turn : forall x, tan (x + PI) = tan x.
Proof. intro x. unfold tan. rewrite neg_sin, neg_cos. unfold Rdiv. rewrite Rinv_opp. ring. Qed.

Lemma delta_turn : forall d al r, interrow_delta d (al + PI) r = interrow_delta d al r.
Proof.
  intros d al r. unfold interrow_delta. cbv zeta.
  replace (deg2rad (90 - r + rad2deg (al + PI))) with (deg2rad (90 - r + rad2deg al) + PI).
  - rewrite tan_turn. reflexivity.
  - unfold deg2rad, rad2deg. pose proof PI_RGT_0. field. lra.
Qed.

Lemma div_tan_turn : forall y al z, sin al <> 0 -> div_tan y (al + PI) z = div_tan y al z.
Proof.
  intros y al z S. unfold div_tan. rewrite neg_sin, neg_cos.
  destruct (Req_EM_T (- sin al) 0); [lra|]. destruct (Req_EM_T (sin al) 0); [lra|]. f_equal. field. lra.
Qed.

Lemma alpha_turn : forall p f t, cos (fi_zenith f t * PI / 180) < 0 ->
  fit_alpha p (sun_up f) t = fit_alpha p f t + PI.
Proof.
  intros p f t C. unfold fit_alpha, sun_up. cbn [fi_zenith fi_azimuth]. destruct (Rlt_dec (cos (fi_zenith f t * PI / 180)) 0); [|lra].
  unfold get_solar_2d_vector. cbn [fst snd]. rewrite <- atan2_opposite by exact C. f_equal.
  - unfold cosd, deg2rad. replace ((180 - fi_zenith f t) * PI / 180) with (PI - fi_zenith f t * PI / 180) by field.
    rewrite Rtrigo_facts.cos_pi_minus. reflexivity.
  - unfold sind, cosd, deg2rad. replace ((180 - fi_zenith f t) * PI / 180) with (PI - fi_zenith f t * PI / 180) by field.
    replace ((fi_azimuth f t + 180 - pa_axis_azimuth p - 90) * PI / 180) with ((fi_azimuth f t - pa_axis_azimuth p - 90) * PI / 180 + PI) by field.
    rewrite Rtrigo_facts.sin_pi_minus, neg_cos. ring.
Qed.

Lemma alpha_sine : forall p f t, cos (fi_zenith f t * PI / 180) < 0 -> sin (fit_alpha p f t) <> 0.
Proof.
  intros p f t C. pose proof (alpha_turn p f t C) as E.
  assert (0 < fit_alpha p (sun_up f) t < PI).
  { unfold fit_alpha, sun_up. cbn [fi_zenith fi_azimuth]. destruct (Rlt_dec (cos (fi_zenith f t * PI / 180)) 0); [|lra].
    apply atan2_range. unfold get_solar_2d_vector. cbn [snd]. unfold cosd, deg2rad.
    replace ((180 - fi_zenith f t) * PI / 180) with (PI - fi_zenith f t * PI / 180) by field. rewrite Rtrigo_facts.cos_pi_minus. lra. }
  assert (0 < sin (fit_alpha p (sun_up f) t)) by (apply sin_gt_0; lra). rewrite E, neg_sin in H0. lra.
Qed.

Lemma alpha_same : forall p f t, ~ cos (fi_zenith f t * PI / 180) < 0 -> fit_alpha p (sun_up f) t = fit_alpha p f t.
Proof.
  intros p f t C. unfold fit_alpha, sun_up. cbn [fi_zenith fi_azimuth]. destruct (Rlt_dec (cos (fi_zenith f t * PI / 180)) 0); [contradiction|reflexivity].
Qed.

Lemma fit_sun_up : forall p n f, fit p n (sun_up f) = fit p n f.
Proof.
  intros p n f. unfold fit. cbv zeta. change (fit_rotation p (sun_up f)) with (fit_rotation p f).
  assert (SH : fit_shading p (fit_alpha p (sun_up f)) (fit_rotation p f) = fit_shading p (fit_alpha p f) (fit_rotation p f)).
  { apply functional_extensionality. intro t. unfold fit_shading, interrow_shading.
    destruct (Rlt_dec (cos (fi_zenith f t * PI / 180)) 0) as [C|C].
    - rewrite (alpha_turn p f t C), delta_turn. reflexivity.
    - rewrite (alpha_same p f t C). reflexivity. }
  assert (RW : fit_rows p (fit_alpha p (sun_up f)) (fit_rotation p f) = fit_rows p (fit_alpha p f) (fit_rotation p f)).
  { unfold fit_rows. rewrite SH. reflexivity. }
  rewrite RW, SH. set (rows := map row_coords (fit_rows p (fit_alpha p f) (fit_rotation p f))).
  assert (GR : forall flag, ground_from_pvrows rows (fit_alpha p (sun_up f)) (fit_rotation p f) pa_y_ground flag
     = ground_from_pvrows rows (fit_alpha p f) (fit_rotation p f) pa_y_ground flag).
  { intro flag. unfold ground_from_pvrows. f_equal. apply map_ext. intro c. apply functional_extensionality. intro t.
    destruct (Rlt_dec (cos (fi_zenith f t * PI / 180)) 0) as [C|C].
    - rewrite (alpha_turn p f t C). unfold shadow_coords. rewrite !div_tan_turn by (exact (alpha_sine p f t C)). reflexivity.
    - rewrite (alpha_same p f t C). reflexivity. }
  rewrite GR. reflexivity.
Qed.

(** With a sun above the horizon nothing changes. *)
Lemma sun_up_angle : forall f axis t al, sun_angle (fi_zenith f t) (fi_azimuth f t) axis al ->
  sun_angle (fi_zenith (sun_up f) t) (fi_azimuth (sun_up f) t) axis al.
Proof.
  intros f axis t al SA. pose proof SA as ((A0 & A1) & k & K & _ & KS).
  assert (0 < sin al) by (apply sin_gt_0; lra). assert (0 < k * sin al) by (apply Rmult_lt_0_compat; lra).
  unfold sun_up. cbn [fi_zenith fi_azimuth]. destruct (Rlt_dec (cos (fi_zenith f t * PI / 180)) 0); [lra|exact SA].
Qed.

Lemma scene_up : forall p n f a t al, scene p n f a t al -> scene p n (sun_up f) a t al.
Proof.
  intros p n f a t al (V & F & SA & R). split; [exact V|]. split; [rewrite fit_sun_up; exact F|].
  split; [exact (sun_up_angle _ _ _ _ SA)|exact R].
Qed.
