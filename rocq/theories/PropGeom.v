(** Properties of the geometry: statements, with examples that meet the hypotheses.
    Proofs are in the Proof*.v files. *)
From Coq Require Import Reals List Bool Arith Lra Lia Permutation.
From Verif Require Import Num ModelTs ModelGeom Basics SpecGeom ProofGround ProofShade ProofRow ProofAngles ProofFit ProofCut ProofIndex ProofGeom ProofGeom2.
Import ListNotations.
Open Scope R_scope.

(* ------------------------------------------------------------------------ *)
(** An example array: three rows of width 2 at height 3, 3 m apart, the front of
    the first row cut in two segments. At timestep 0 the sun is at 45 degrees and the
    rows are tilted by 30 degrees (no row shades another one); at the other
    timesteps the sun is at 30 degrees above the horizon and the rows are tilted
    by 60 degrees (rows shade each other). *)
Definition ex_p : pvarray_params :=
  PVArrayParams 0 (2 / 3) 3 2 3 (fun i b => if andb (Nat.eqb i 0) (negb b) then 2%nat else 1%nat).
Definition ex_f : fit_inputs :=
  FitInputs (fun t => if Nat.eqb t 0 then 45 else 60) (fun _ => 90)
            (fun t => if Nat.eqb t 0 then 30 else 60) (fun _ => 90).

Lemma ex_valid : valid_params ex_p.
Proof.
  unfold valid_params, ex_p; simpl. split; [lra |]. split; [lra |]. split; [lia |].
  intros. destruct (Nat.eqb i 0 && negb b); lia.
Qed.
Lemma ex_distance : pa_distance ex_p = 3.
Proof. unfold pa_distance, ex_p; simpl. field. Qed.
Lemma ex_fit : exists a, fit ex_p 2 ex_f = Some a.
Proof. apply fit_total. simpl. lia. Qed.
Lemma ex_mod : py_mod (90 - 0) 360 = 90.
Proof. apply (py_mod_unique _ _ _ 0); lra. Qed.
Lemma ex_rot0 : fit_rotation ex_p ex_f 0%nat = -30.
Proof.
  unfold fit_rotation. simpl. destruct (rotation_cases 90 0 30) as [_ H]. rewrite H; [lra |].
  rewrite ex_mod. lra.
Qed.
Lemma ex_rot1 : fit_rotation ex_p ex_f 1%nat = -60.
Proof.
  unfold fit_rotation. simpl. destruct (rotation_cases 90 0 60) as [_ H]. rewrite H; [lra |].
  rewrite ex_mod. lra.
Qed.
Lemma ex_sun0 : sun_angle (fi_zenith ex_f 0%nat) (fi_azimuth ex_f 0%nat) (pa_axis_azimuth ex_p) (PI / 4).
Proof.
  pose proof PI_RGT_0. split; [lra |]. exists 1. simpl.
  replace (45 * PI / 180) with (PI / 4) by field. replace ((90 - 0) * PI / 180) with (PI / 2) by field.
  rewrite sin_PI2, sin_cos_PI4. lra.
Qed.
Lemma ex_sun1 : sun_angle (fi_zenith ex_f 1%nat) (fi_azimuth ex_f 1%nat) (pa_axis_azimuth ex_p) (PI / 6).
Proof.
  pose proof PI_RGT_0. split; [lra |]. exists 1. simpl.
  replace (60 * PI / 180) with (PI / 3) by field. replace ((90 - 0) * PI / 180) with (PI / 2) by field.
  rewrite sin_PI2, sin_PI3, cos_PI3, sin_PI6, cos_PI6. lra.
Qed.
Lemma ex_excess0 : beam_excess (pa_width ex_p) (pa_distance ex_p) (PI / 4) (fit_rotation ex_p ex_f 0%nat) < 0.
Proof.
  unfold beam_excess. rewrite ex_distance, ex_rot0. simpl pa_width.
  assert (Rabs (sin (PI / 4 - -30 * PI / 180)) <= 1) by (apply Rabs_le; apply SIN_bound).
  assert (7 / 10 < sin (PI / 4)).
  { rewrite sin_PI4. assert (sqrt 2 < 10 / 7).
    { rewrite <- (sqrt_Rsqr (10 / 7)) by lra. apply sqrt_lt_1; unfold Rsqr; lra. }
    assert (0 < sqrt 2) by (apply sqrt_lt_R0; lra).
    apply (Rmult_lt_reg_r (sqrt 2)); auto. replace (1 / sqrt 2 * sqrt 2) with 1 by (field; lra). lra. }
  lra.
Qed.
Lemma ex_nosliver0 : ~ shading_sliver DISTANCE_TOLERANCE (pa_width ex_p) (pa_distance ex_p) (PI / 4) (fit_rotation ex_p ex_f 0%nat).
Proof. unfold shading_sliver. pose proof ex_excess0. lra. Qed.
Lemma ex_sin1 : sin (PI / 6 - fit_rotation ex_p ex_f 1%nat * PI / 180) = 1.
Proof. rewrite ex_rot1. replace (PI / 6 - -60 * PI / 180) with (PI / 2) by field. apply sin_PI2. Qed.
Lemma ex_excess1 : beam_excess (pa_width ex_p) (pa_distance ex_p) (PI / 6) (fit_rotation ex_p ex_f 1%nat) = 1 / 2.
Proof.
  unfold beam_excess. rewrite ex_sin1, ex_distance, Rabs_R1, sin_PI6. simpl. field.
Qed.
Lemma ex_nosliver1 : ~ shading_sliver DISTANCE_TOLERANCE (pa_width ex_p) (pa_distance ex_p) (PI / 6) (fit_rotation ex_p ex_f 1%nat).
Proof.
  unfold shading_sliver. rewrite ex_excess1, ex_sin1, Rabs_R1. unfold DISTANCE_TOLERANCE. lra.
Qed.

(* ------------------------------------------------------------------------ *)
(** C01. The ground of a fitted array: [N] shadows and [N + 1] illuminated gaps,
    alternating, contiguous from -100 to 100, at the ground height; reported length
    200. *)
Theorem C01_ground_tiling : forall p n f a t al,
  valid_params p -> fit p n f = Some a ->
  sun_angle (fi_zenith f t) (fi_azimuth f t) (pa_axis_azimuth p) al ->
  ~ shading_sliver DISTANCE_TOLERANCE (pa_width p) (pa_distance p) al (ft_rotation a t) ->
  let g := ft_ground a in
  length (gnd_shadows g) = pa_n_pvrows p /\
  length (gnd_illum g) = S (pa_n_pvrows p) /\
  (forall e, In e (gnd_shadows g) -> el_shaded e = true) /\
  (forall e, In e (gnd_illum g) -> el_shaded e = false) /\
  contiguous (-100) 100
    (interleave (map (fun e => x_extent (el_coords e t)) (gnd_illum g))
                (map (fun e => x_extent (el_coords e t)) (gnd_shadows g))) /\
  (forall e, In e (gnd_shadows g ++ gnd_illum g) ->
     py (b1 (el_coords e t)) = 0 /\ py (b2 (el_coords e t)) = 0) /\
  gnd_length g t = 200.
Proof.
  intros p n f a t al Hv Hf Hsun Hns g.
  pose proof (fit_ground_ordered _ _ _ _ Hf) as G.
  destruct (fit_spec _ _ _ _ Hf) as [_ [Er _]]. rewrite Er in Hns.
  pose proof (fit_raw_ordered' p f t al Hv Hsun Hns) as O.
  pose proof (ground_shapes _ _ _ _ _ G) as [L1 [L2 [L3 L4]]].
  rewrite !map_length, fit_rows_length in L1, L2.
  split; [exact L1 |]. split; [exact L2 |]. split; [exact L3 |]. split; [exact L4 |].
  split; [| split].
  - destruct ground_bounds as [B1 B2]. rewrite <- B1, <- B2 at 1. eapply ground_tiles; eauto.
  - intros e He. eapply (ground_elements_y _ _ _ _ _ e t G He).
  - eapply ground_length_200; eauto.
Qed.
Print Assumptions C01_ground_tiling.

Example C01_example : exists a, fit ex_p 2 ex_f = Some a /\
  forall t al, (t = 0%nat /\ al = PI / 4) \/ (t = 1%nat /\ al = PI / 6) ->
    sun_angle (fi_zenith ex_f t) (fi_azimuth ex_f t) (pa_axis_azimuth ex_p) al /\
    ~ shading_sliver DISTANCE_TOLERANCE (pa_width ex_p) (pa_distance ex_p) al (ft_rotation a t).
Proof.
  destruct ex_fit as [a Ha]. exists a. split; [exact Ha |].
  destruct (fit_spec _ _ _ _ Ha) as [_ [Er _]]. rewrite Er.
  intros t al [[-> ->] | [-> ->]]; split.
  - apply ex_sun0. - apply ex_nosliver0. - apply ex_sun1. - apply ex_nosliver1.
Qed.

(** C01, for the constructor that takes shadows given by the user: intervals listed
    from left to right, that overlap only where flagged, with any cut points. *)
Theorem C01_ordered_shadows_tiling : forall y flag shadows cuts g t,
  ground_from_ordered_shadows y flag shadows cuts = Some g ->
  ordered_or_flagged (flag t) (map (fun s => s t) shadows) ->
  contiguous (-100) 100
    (interleave (map (fun e => x_extent (el_coords e t)) (gnd_illum g))
                (map (fun e => x_extent (el_coords e t)) (gnd_shadows g))) /\
  gnd_length g t = 200.
Proof.
  intros y flag shadows cuts g t Hg Ho. apply oof_raw in Ho. split.
  - destruct ground_bounds as [B1 B2]. rewrite <- B1, <- B2 at 1. eapply ground_tiles; eauto.
  - eapply ground_length_200; eauto.
Qed.
Print Assumptions C01_ordered_shadows_tiling.

Example C01_ordered_example :
  let sh : list (ts (xr * xr)) := [fun _ => (XNInf, XFin (-3)); fun _ => (XFin (-4), XFin 2); fun _ => (XFin 7, XFin 250)] in
  ordered_or_flagged true (map (fun s => s 0%nat) sh) /\
  exists g, ground_from_ordered_shadows 0 (fun _ => true) sh [] = Some g.
Proof.
  split.
  - simpl. repeat (first [apply oof_cons | apply oof_one]); simpl; try lra; auto; discriminate.
  - eexists. reflexivity.
Qed.

Definition sl_d : R := sqrt 2 * (2 - DISTANCE_TOLERANCE / 2).
Definition sl_p : pvarray_params := PVArrayParams 0 (2 / sl_d) 3 2 2 (fun _ _ => 1%nat).
Definition sl_f : fit_inputs := FitInputs (fun _ => 45) (fun _ => 90) (fun _ => 45) (fun _ => 90).

Lemma sl_pos : 14/10 < sqrt 2 < 15/10.
Proof. assert (H : sqrt 2 * sqrt 2 = 2) by (apply sqrt_sqrt; lra). pose proof (sqrt_pos 2). split; nra. Qed.

Lemma tol_small : 0 < DISTANCE_TOLERANCE < 1/10.
Proof. unfold DISTANCE_TOLERANCE. lra. Qed.

Lemma sl_d_bounds : 2 < sl_d < 3.
Proof. unfold sl_d. pose proof sl_pos. pose proof tol_small. split; nra. Qed.

Lemma sl_valid : valid_params sl_p.
Proof.
  pose proof sl_d_bounds. unfold valid_params, sl_p. cbn. repeat split; try lra; try lia.
  - apply Rdiv_lt_0_compat; lra.
Qed.

Lemma sl_distance : pa_distance sl_p = sl_d.
Proof. pose proof sl_d_bounds. unfold pa_distance, sl_p. cbn. field. lra. Qed.

Lemma sl_sun : sun_angle 45 90 0 (PI / 4).
Proof.
  pose proof PI_RGT_0. split; [lra |]. exists 1. split; [lra |].
  replace (45 * PI / 180) with (PI / 4) by field. replace ((90 - 0) * PI / 180) with (PI / 2) by field.
  rewrite sin_PI2, sin_cos_PI4. lra.
Qed.

Lemma sl_rot : fit_rotation sl_p sl_f 0%nat = -45.
Proof.
  unfold fit_rotation. cbn. apply rotation_cases.
  rewrite (py_mod_unique (90 - 0) 360 90 0); lra.
Qed.

Lemma sl_S : sin (PI / 4 - rr (-45)) = 1.
Proof. unfold rr, deg2rad. replace (PI / 4 - -45 * PI / 180) with (PI / 2) by field. apply sin_PI2. Qed.

(** The hypothesis about slivers cannot be dropped: two rows whose shadows overlap by
    less than the tolerance; the overlap is counted three times. *)
Theorem C01_sliver_refuted : exists p n f a t al,
  valid_params p /\ fit p n f = Some a /\
  sun_angle (fi_zenith f t) (fi_azimuth f t) (pa_axis_azimuth p) al /\
  -90 < ft_rotation a t < 90 /\
  gnd_length (ft_ground a) t > 200.
Proof.
  destruct (fit_total sl_p 1 sl_f) as [a Ha]; [cbn; lia |].
  exists sl_p, 1%nat, sl_f, a, 0%nat, (PI / 4).
  split; [apply sl_valid |]. split; [exact Ha |]. split; [apply sl_sun |].
  destruct (fit_spec _ _ _ _ Ha) as [_ [Er _]]. rewrite Er, sl_rot. split; [lra |].
  pose proof (fit_alpha_sun_angle sl_p sl_f 0%nat _ sl_sun) as Ea.
  pose proof (fit_ground_ordered _ _ _ _ Ha) as G.
  assert (FL : direct_shading_flag (fit_shading sl_p (fit_alpha sl_p sl_f) (fit_rotation sl_p sl_f) 0%nat) = false).
  { unfold fit_shading. rewrite Ea, sl_rot, sl_distance. cbn [pa_n_pvrows pa_width sl_p].
    pose proof sl_d_bounds. pose proof sl_pos as SP. pose proof tol_small.
    destruct (interrow_shading_cases 2 sl_d 2 (PI / 4) (-45)) as [_ [C _]]; try lra; try lia.
    - apply sin_gt_0; pose proof PI_RGT_0; lra.
    - rewrite sl_S. lra.
    - rewrite C by (rewrite sl_S; lra). unfold direct_shading_flag. cbn [fst snd].
      rewrite sl_S, sin_PI4, Rabs_R1. unfold sl_d.
      replace (2 - sqrt 2 * (2 - DISTANCE_TOLERANCE / 2) * (1 / sqrt 2) / 1) with (DISTANCE_TOLERANCE / 2) by (field; lra).
      apply orb_false_iff. split; apply Rltb_false; [minmax; lra | lra]. }
  destruct (ground_from_ordered_spec _ _ _ _ _ G) as [_ [_ [_ [Es [_ Ei]]]]].
  unfold gnd_length. rewrite py_sum_rsum, map_app, rsum_app.
  assert (M : forall l, map (fun e => line_length (el_coords e 0%nat)) l = map (fun c : ts line => line_length (c 0%nat)) (map el_coords l)) by (intros; rewrite map_map; reflexivity).
  rewrite !M, Ei, Es. rewrite fit_rows_eq, !map_map. cbn [pa_n_pvrows sl_p seq map fix_overlaps illum_coords rsum].
  cbv beta. rewrite FL, Ea. cbn [np_where].
  rewrite !fit_row_coords, sl_distance, sl_rot. cbn [pa_height pa_width sl_p].
  assert (Sa : 0 < sin (PI / 4)) by (apply sin_gt_0; pose proof PI_RGT_0; lra).
  change pa_y_ground with 0. rewrite !shadow_coords_row by lra.
  unfold half_shadow, mid_shadow. rewrite sl_S, <- sin_cos_PI4, Rabs_R1.
  replace (3 * sin (PI / 4) / sin (PI / 4)) with 3 by (field; lra).
  replace (2 / 2 * 1 / sin (PI / 4)) with (sqrt 2) by (rewrite sin_PI4; pose proof sl_pos; field; lra).
  cbn [fst snd]. unfold clip_shadow. cbn [fst snd xclip].
  destruct ground_bounds as [GB1 GB2]. rewrite GB1, GB2.
  pose proof sl_d_bounds. pose proof sl_pos. pose proof tol_small.
  assert (C : forall x, -100 <= x <= 100 -> np_min (np_max x (-100)) 100 = x) by (intros; minmax; lra).
  cbn [INR]. rewrite !C by lra.
  assert (LL : forall x y z, line_length (Line (Pt x z) (Pt y z)) = Rabs (y - x)).
  { intros. unfold line_length. cbn [b1 b2 px py]. rewrite <- sqrt_Rsqr_abs. f_equal. unfold Rsqr. ring. }
  rewrite !LL. cbn [b1 b2 px py].
  assert (D : sl_d < 2 * sqrt 2) by (unfold sl_d; nra).
  repeat match goal with |- context [Rabs ?x] =>
    first [rewrite (Rabs_right x) by lra | rewrite (Rabs_left1 x) by lra] end.
  lra.
Qed.
Print Assumptions C01_sliver_refuted.

(** C02. Any element inside the ground, any cut points. *)
Theorem C02_cutting : forall mkid shaded c cuts t,
  cuts <> [] -> (forall k, In k cuts -> k t <> XNaN) ->
  -100 <= px (b1 (c t)) -> px (b1 (c t)) <= px (b2 (c t)) -> px (b2 (c t)) <= 100 ->
  py (b1 (c t)) = py (b2 (c t)) ->
  let pieces := el_surfaces (make_element mkid shaded c cuts) in
  length pieces = S (length cuts) /\
  end_to_end (px (b1 (c t))) (px (b2 (c t))) (map (fun s => x_extent (s_coords s t)) pieces) /\
  coll_length pieces t = line_length (c t) /\
  (forall s, In s pieces ->
     s_shaded s = shaded /\
     py (b1 (s_coords s t)) = py (b1 (c t)) /\ py (b2 (s_coords s t)) = py (b1 (c t)) /\
     -100 <= px (b1 (s_coords s t)) /\ px (b1 (s_coords s t)) <= px (b2 (s_coords s t)) /\
     px (b2 (s_coords s t)) <= 100 /\
     (0 < s_length s t ->
        px (b1 (c t)) <= px (b1 (s_coords s t)) /\ px (b2 (s_coords s t)) <= px (b2 (c t)))).
Proof. exact element_cutting. Qed.
Print Assumptions C02_cutting.

Example C02_example :
  let c : ts line := fun _ => Line (Pt 0 0) (Pt 10 0) in
  let cuts : list (ts xr) := [fun _ => XFin 12; fun _ => XFin 3; fun _ => XPInf; fun _ => XFin (-500)] in
  cuts <> [] /\ (forall k, In k cuts -> k 0%nat <> XNaN) /\ px (b1 (c 0%nat)) < px (b2 (c 0%nat)).
Proof. simpl. split; [discriminate |]. split; [| lra]. intros k H. intuition (subst; discriminate). Qed.

(** C03. For each row, its cut point is where the line of the row meets the ground
    (at +infinity for flat rows); the surfaces of non-zero length listed on the left
    (right) of it are entirely on its left (right); each ground surface is listed
    exactly once. *)
Theorem C03_left_right : forall p n f a t al i,
  valid_params p -> fit p n f = Some a ->
  sun_angle (fi_zenith f t) (fi_azimuth f t) (pa_axis_azimuth p) al ->
  ~ shading_sliver DISTANCE_TOLERANCE (pa_width p) (pa_distance p) al (ft_rotation a t) ->
  -180 < ft_rotation a t < 180 ->
  pa_width p / 2 * Rabs (sin (ft_rotation a t * PI / 180)) < pa_height p ->
  (i < pa_n_pvrows p)%nat ->
  let g := ft_ground a in
  let left := gnd_side_of_cut_point g true i in
  let right := gnd_side_of_cut_point g false i in
  exists cut, nth_error (gnd_cut_points g) i = Some cut /\
    (ft_rotation a t = 0 -> cut t = XPInf) /\
    (ft_rotation a t <> 0 -> exists x s, cut t = XFin x /\
        row_point (INR i * pa_distance p) (pa_height p) (ft_rotation a t) s = Pt x 0) /\
    Permutation (gnd_surfaces g) (left ++ right) /\
    (forall s, In s left -> 0 < s_length s t -> xle (XFin (px (b2 (s_coords s t)))) (cut t)) /\
    (forall s, In s right -> 0 < s_length s t -> xle (cut t) (XFin (px (b1 (s_coords s t))))).
Proof. exact fit_left_right. Qed.
Print Assumptions C03_left_right.

Example C03_example : forall a, fit ex_p 2 ex_f = Some a ->
  -180 < ft_rotation a 1%nat < 180 /\
  pa_width ex_p / 2 * Rabs (sin (ft_rotation a 1%nat * PI / 180)) < pa_height ex_p /\
  (2 < pa_n_pvrows ex_p)%nat.
Proof.
  intros a Ha. destruct (fit_spec _ _ _ _ Ha) as [_ [Er _]]. rewrite Er, ex_rot1. simpl.
  split; [lra |]. split; [| lia].
  assert (Rabs (sin (-60 * PI / 180)) <= 1) by (apply Rabs_le; apply SIN_bound). lra.
Qed.

(** C04. *)
Theorem C04_flag_iff_overlap : forall p n f a t al,
  valid_params p -> fit p n f = Some a ->
  sun_angle (fi_zenith f t) (fi_azimuth f t) (pa_axis_azimuth p) al ->
  ~ shading_sliver DISTANCE_TOLERANCE (pa_width p) (pa_distance p) al (ft_rotation a t) ->
  sin (al - ft_rotation a t * PI / 180) <> 0 ->
  (gnd_flag_overlap (ft_ground a) t = true <->
   exists i, (S i < pa_n_pvrows p)%nat /\
     shadows_overlap al 0 (pa_width p) (pa_height p) (ft_rotation a t)
       (INR i * pa_distance p) (INR (S i) * pa_distance p)).
Proof. exact fit_flag_iff_overlap. Qed.
Print Assumptions C04_flag_iff_overlap.

Example C04_example : forall a, fit ex_p 2 ex_f = Some a ->
  gnd_flag_overlap (ft_ground a) 1%nat = true /\ gnd_flag_overlap (ft_ground a) 0%nat = false.
Proof.
  intros a Ha. destruct (fit_spec _ _ _ _ Ha) as [_ [Er _]].
  split.
  - apply (proj2 (C04_flag_iff_overlap ex_p 2 ex_f a 1%nat (PI / 6) ex_valid Ha ex_sun1
      ltac:(rewrite Er; apply ex_nosliver1) ltac:(rewrite Er, ex_sin1; lra))).
    exists 0%nat. split; [simpl; lia |].
    rewrite Er. replace (INR 1 * pa_distance ex_p) with (INR 0 * pa_distance ex_p + pa_distance ex_p) by (simpl; ring).
    apply shadows_overlap_iff; try (rewrite ex_distance; lra); simpl; try lra.
    + rewrite sin_PI6. lra.
    + change 2 with (pa_width ex_p). rewrite ex_excess1. lra.
  - apply not_true_is_false. intro H.
    assert (Z : sin (PI / 4 - ft_rotation a 0%nat * PI / 180) <> 0).
    { rewrite Er, ex_rot0. apply Rgt_not_eq. pose proof PI_RGT_0. apply sin_gt_0; lra. }
    apply (proj1 (C04_flag_iff_overlap ex_p 2 ex_f a 0%nat (PI / 4) ex_valid Ha ex_sun0
      ltac:(rewrite Er; apply ex_nosliver0) Z)) in H.
    destruct H as [i [_ H]]. rewrite Er, S_INR in H.
    replace ((INR i + 1) * pa_distance ex_p) with (INR i * pa_distance ex_p + pa_distance ex_p) in H by ring.
    apply shadows_overlap_iff in H; try (rewrite ex_distance; lra); simpl; try lra.
    + pose proof ex_excess0. lra.
    + apply sin_gt_0; pose proof PI_RGT_0; lra.
Qed.

(** C05, C07. On every row, a point strictly inside a surface of the side that faces
    the sun is hidden from the sun by another row if and only if the surface is
    flagged as shaded; the side that does not face the sun has no shade. This
    includes the outer rows, with no neighbour on one side. *)
Theorem C05_shade_is_geometric : forall p n f a t al i row s lo hi e,
  valid_params p -> fit p n f = Some a ->
  sun_angle (fi_zenith f t) (fi_azimuth f t) (pa_axis_azimuth p) al ->
  -180 < ft_rotation a t < 180 -> ft_rotation a t <> 0 ->
  nth_error (ft_rows a) i = Some row ->
  (sun_in_front al (ft_rotation a t) /\ In s (side_surfaces (row_front row)) \/
   sun_behind al (ft_rotation a t) /\ In s (side_surfaces (row_back row))) ->
  let P := point_from_low_edge (pa_width p) (pa_distance p) (pa_height p) (ft_rotation a t) i in
  s_coords s t = Line (P lo) (P hi) -> 0 <= lo -> lo < e < hi -> hi <= pa_width p ->
  (s_shaded s = true <->
   hidden_from_sun (pa_n_pvrows p) (pa_width p) (pa_distance p) (pa_height p)
     (ft_rotation a t) al i (P e)).
Proof. exact fit_shade_geometric. Qed.
Print Assumptions C05_shade_is_geometric.

Theorem C05_shaded_lengths : forall p n f a t al i row,
  valid_params p -> fit p n f = Some a ->
  sun_angle (fi_zenith f t) (fi_azimuth f t) (pa_axis_azimuth p) al ->
  -180 < ft_rotation a t < 180 -> ft_rotation a t <> 0 ->
  nth_error (ft_rows a) i = Some row ->
  let front := side_shaded_length (row_front row) t in
  let back := side_shaded_length (row_back row) t in
  0 <= front <= pa_width p /\ 0 <= back <= pa_width p /\
  (sun_in_front al (ft_rotation a t) -> back = 0) /\
  (sun_behind al (ft_rotation a t) -> front = 0) /\
  (pa_n_pvrows p = 1%nat -> front = 0 /\ back = 0) /\
  (forall e, 0 < e < pa_width p -> sin (al - ft_rotation a t * PI / 180) <> 0 ->
     (hidden_from_sun (pa_n_pvrows p) (pa_width p) (pa_distance p) (pa_height p)
        (ft_rotation a t) al i
        (point_from_low_edge (pa_width p) (pa_distance p) (pa_height p) (ft_rotation a t) i e)
      <-> e <= front \/ e <= back)).
Proof. exact fit_shaded_lengths. Qed.
Print Assumptions C05_shaded_lengths.

(** C06. *)
Theorem C06_side_partition : forall p n f a t i row (is_back : bool),
  valid_params p -> fit p n f = Some a ->
  -180 < ft_rotation a t < 180 ->
  nth_error (ft_rows a) i = Some row ->
  let side := if is_back then row_back row else row_front row in
  let n_seg := pa_cut p i is_back in
  let P := point_from_low_edge (pa_width p) (pa_distance p) (pa_height p) (ft_rotation a t) i in
  length (side_segments side) = n_seg /\
  side_length side t = pa_width p /\
  (forall k seg, nth_error (side_segments side) k = Some seg ->
     exists il sh lo hi m,
       seg_illum seg = [il] /\ seg_shaded seg = [sh] /\
       s_shaded il = false /\ s_shaded sh = true /\
       0 <= lo /\ lo <= m <= hi /\ hi <= pa_width p /\ hi - lo = pa_width p / INR n_seg /\
       lo = (if Rlt_dec 0 (ft_rotation a t) then INR k else INR n_seg - 1 - INR k)
            * (pa_width p / INR n_seg) /\
       ((seg_coords seg t = Line (P lo) (P hi)) \/ (seg_coords seg t = Line (P hi) (P lo))) /\
       (ft_rotation a t <> 0 ->
          s_coords sh t = Line (P lo) (P m) /\ s_coords il t = Line (P m) (P hi) /\
          m = Rmax lo (Rmin hi (side_shaded_length side t))) /\
       (ft_rotation a t = 0 -> s_length sh t = 0 /\ s_coords il t = seg_coords seg t)).
Proof. exact fit_side_partition. Qed.
Print Assumptions C06_side_partition.

(** C06: lengths published by the rows and their segments. A segment is shaded over its
    part between the low edge of the row and the end of the shadow. *)
Theorem C06_lengths : forall p n f a t i row,
  valid_params p -> fit p n f = Some a -> -180 < ft_rotation a t < 180 ->
  nth_error (ft_rows a) i = Some row ->
  row_length row t = 2 * pa_width p /\
  forall (is_back : bool) k seg,
    let side := if is_back then row_back row else row_front row in
    let n_seg := INR (pa_cut p i is_back) in
    let before := (if Rlt_dec 0 (ft_rotation a t) then INR k else n_seg - 1 - INR k) * (pa_width p / n_seg) in
    nth_error (side_segments side) k = Some seg ->
    seg_length seg t = pa_width p / n_seg /\
    (ft_rotation a t <> 0 ->
     seg_shaded_length seg t = Rmax 0 (Rmin (pa_width p / n_seg) (side_shaded_length side t - before))) /\
    (ft_rotation a t = 0 -> seg_shaded_length seg t = 0).
Proof.
  intros p n f a t i row V F RR Ir. split.
  - destruct (C06_side_partition p n f a t i row false V F RR Ir) as (_ & L1 & _).
    destruct (C06_side_partition p n f a t i row true V F RR Ir) as (_ & L2 & _).
    cbv zeta iota in L1, L2. unfold row_length. rewrite L1, L2. ring.
  - intros b k seg side n_seg before Sg.
    destruct (C06_side_partition p n f a t i row b V F RR Ir) as (_ & _ & SG). fold side in SG.
    destruct (SG k seg Sg) as (il & sh & lo & hi & m & Ei & Es & _ & _ & L0 & Lm & Lh & Lw & Ll & CC & RN & RZ).
    fold n_seg in Lw, Ll. fold before in Ll. unfold seg_length, seg_shaded_length, coll_length. rewrite Ei, Es.
    cbn [map]. rewrite !py_sum_rsum. cbn [rsum].
    set (P := point_from_low_edge (pa_width p) (pa_distance p) (pa_height p) (ft_rotation a t) i) in *.
    assert (D : forall x y, x <= y -> line_length (Line (P x) (P y)) = y - x).
    { intros x y L. unfold P. apply low_point_dist. exact L. }
    assert (D' : forall x y, x <= y -> line_length (Line (P y) (P x)) = y - x).
    { intros x y L. rewrite <- (D x y L). unfold line_length, distance. cbn [b1 b2]. f_equal. ring. }
    clearbody P. destruct (Req_dec (ft_rotation a t) 0) as [Z|Z].
    + destruct (RZ Z) as [A B]. rewrite A. split; [|split; [intro; contradiction|intros; ring]].
      unfold s_length. rewrite B. destruct CC as [-> | ->]; [rewrite D by lra|rewrite D' by lra]; lra.
    + destruct (RN Z) as (A & B & M). unfold s_length. rewrite A, B, !D by lra.
      split; [lra|]. split; [|intro; contradiction]. intros _. rewrite M, <- Ll.
      replace (Rmin (pa_width p / n_seg) (side_shaded_length side t - lo)) with (Rmin hi (side_shaded_length side t) - lo) by (minmax; lra).
      minmax; lra.
Qed.
Print Assumptions C06_lengths.

(** C07. *)
Theorem C07_outer_rows : forall p n f a t row0 rowN,
  valid_params p -> fit p n f = Some a ->
  -180 < ft_rotation a t < 180 -> ft_rotation a t <> 0 ->
  nth_error (ft_rows a) 0 = Some row0 ->
  nth_error (ft_rows a) (pa_n_pvrows p - 1) = Some rowN ->
  (0 < ft_rotation a t ->
     side_shaded_length (row_front row0) t = 0 /\ side_shaded_length (row_back rowN) t = 0) /\
  (ft_rotation a t < 0 ->
     side_shaded_length (row_back row0) t = 0 /\ side_shaded_length (row_front rowN) t = 0) /\
  (forall i row, (0 < i < pa_n_pvrows p - 1)%nat -> nth_error (ft_rows a) i = Some row ->
     (0 < ft_rotation a t ->
        side_shaded_length (row_front row) t = side_shaded_length (row_front rowN) t /\
        side_shaded_length (row_back row) t = side_shaded_length (row_back row0) t) /\
     (ft_rotation a t < 0 ->
        side_shaded_length (row_front row) t = side_shaded_length (row_front row0) t /\
        side_shaded_length (row_back row) t = side_shaded_length (row_back rowN) t)).
Proof. exact fit_outer_rows. Qed.
Print Assumptions C07_outer_rows.

(** C08. *)
Theorem C08_indexing : forall p n f a,
  valid_params p -> fit p n f = Some a ->
  let N := pa_n_pvrows p in
  (forall k s, nth_error (all_ts_surfaces a) k = Some s -> surf_index a s = k) /\
  (forall s s', In s (all_ts_surfaces a) -> In s' (all_ts_surfaces a) ->
     surf_index a s = surf_index a s' -> s = s') /\
  n_ts_surfaces a = length (all_ts_surfaces a) /\
  n_ts_surfaces a =
    ((2 * N + 1) * (N + 1) +
     2 * fold_right Nat.add 0 (map (fun i => pa_cut p i false + pa_cut p i true) (seq 0 N)))%nat /\
  all_ts_surfaces a = gnd_surfaces (ft_ground a) ++
    flat_map (fun row => side_surfaces (row_front row) ++ side_surfaces (row_back row)) (ft_rows a).
Proof.
  intros p n f a Hv H N. split; [| split; [| split; [| split]]].
  - intros. eapply surf_index_nth; eauto.
  - intros. eapply surf_index_inj; eauto.
  - apply n_ts_surfaces_length.
  - eapply fit_count; eauto.
  - reflexivity.
Qed.
Print Assumptions C08_indexing.

Example C08_example : forall a, fit ex_p 2 ex_f = Some a -> n_ts_surfaces a = 42%nat.
Proof. intros a Ha. destruct (C08_indexing _ _ _ _ ex_valid Ha) as [_ [_ [_ [E _]]]]. rewrite E. reflexivity. Qed.

(** C09. *)
Theorem C09_row_ends : forall p n f a t i row,
  valid_params p -> fit p n f = Some a -> nth_error (ft_rows a) i = Some row ->
  let c := row_coords row t in
  px (b1 c) + px (b2 c) = 2 * (INR i * (pa_width p / pa_gcr p)) /\
  py (b1 c) + py (b2 c) = 2 * pa_height p /\
  px (b2 c) - px (b1 c) = pa_width p * cos (ft_rotation a t * PI / 180) /\
  py (b2 c) - py (b1 c) = pa_width p * sin (ft_rotation a t * PI / 180) /\
  line_length c = pa_width p /\
  length (ft_rows a) = pa_n_pvrows p /\
  (forall j row', nth_error (ft_rows a) j = Some row' ->
     let c' := row_coords row' t in
     let dx := (INR j - INR i) * (pa_width p / pa_gcr p) in
     px (b1 c') = px (b1 c) + dx /\ px (b2 c') = px (b2 c) + dx /\
     py (b1 c') = py (b1 c) /\ py (b2 c') = py (b2 c)).
Proof. exact fit_row_ends. Qed.
Print Assumptions C09_row_ends.

Theorem C09_highest_lowest : forall l,
  ((highest_point l = b1 l /\ lowest_point l = b2 l) \/ (highest_point l = b2 l /\ lowest_point l = b1 l)) /\
  py (lowest_point l) <= py (highest_point l).
Proof.
  intros [[x1 y1] [x2 y2]]. unfold highest_point, lowest_point. cbn [b1 b2 px py].
  destruct (Rleb_spec y2 y1); cbn [np_where px py]; split; auto; lra.
Qed.
Print Assumptions C09_highest_lowest.

(** C10. *)
Theorem C10_rotation : forall sa aa tilt r k,
  0 <= r < 360 -> sa - aa = 360 * IZR k + r ->
  (180 < r -> get_rotation sa aa tilt = tilt) /\
  (r <= 180 -> get_rotation sa aa tilt = - tilt).
Proof.
  intros sa aa tilt r k Hr E. rewrite <- (py_mod_unique (sa - aa) 360 r k) by lra.
  apply rotation_cases.
Qed.
Print Assumptions C10_rotation.

Theorem C10_turns_and_flip : forall sa aa tilt,
  (forall j k, get_rotation (sa + 360 * IZR j) (aa + 360 * IZR k) tilt = get_rotation sa aa tilt) /\
  Rabs (get_rotation sa aa tilt) = Rabs tilt /\
  ((forall k : Z, sa - aa <> 180 * IZR k) -> get_rotation (sa + 180) aa tilt = - get_rotation sa aa tilt).
Proof. exact rotation_turns_flip. Qed.
Print Assumptions C10_turns_and_flip.

Example C10_example : get_rotation 90 0 20 = -20 /\ get_rotation 270 0 20 = 20 /\ get_rotation (-90) 0 20 = 20.
Proof.
  destruct (C10_rotation 90 0 20 90 0) as [_ A]; [lra | lra |].
  destruct (C10_rotation 270 0 20 270 0) as [B _]; [lra | lra |].
  destruct (C10_rotation (-90) 0 20 270 (-1)) as [C _]; [lra | lra |].
  rewrite A, B, C by lra. lra.
Qed.

(** C11. [get_solar_2d_vector] against the 3D unit vector of the sun, with x to the
    right of the rotation axis and z up. *)
Theorem C11_sun_projection : forall zenith azimuth axis,
  let v := get_solar_2d_vector zenith azimuth axis in
  fst v = sin (zenith * PI / 180) * sin ((azimuth - axis) * PI / 180) /\
  snd v = cos (zenith * PI / 180) /\
  fst v * fst v + snd v * snd v <= 1 /\
  (-90 < zenith < 90 -> 0 < snd v) /\ (90 < zenith < 270 -> snd v < 0) /\
  (forall j k, get_solar_2d_vector zenith (azimuth + 360 * IZR j) (axis + 360 * IZR k) = v) /\
  get_solar_2d_vector zenith (2 * axis - azimuth) axis = (- fst v, snd v).
Proof. exact sun_projection. Qed.
Print Assumptions C11_sun_projection.

(** C48. The scene reflected left-right: same sun height and tilt, azimuths reflected
    about the axis. Row [j] of the reflected array is the reflection of row
    [i = N - 1 - j]. (The ground itself is cut at x = -100 and x = 100, which is not
    symmetric about the array, so the statement is about the shadows before that.) *)
Theorem C48_mirror : forall p n f f' a a' t al,
  valid_params p -> fit p n f = Some a -> fit p n f' = Some a' ->
  sun_angle (fi_zenith f t) (fi_azimuth f t) (pa_axis_azimuth p) al ->
  fi_zenith f' t = fi_zenith f t -> fi_azimuth f' t = 2 * pa_axis_azimuth p - fi_azimuth f t ->
  fi_tilt f' t = fi_tilt f t -> fi_surf_azimuth f' t = 2 * pa_axis_azimuth p - fi_surf_azimuth f t ->
  (forall k : Z, fi_surf_azimuth f t - pa_axis_azimuth p <> 180 * IZR k) ->
  -180 < ft_rotation a t < 180 ->
  sin (al - ft_rotation a t * PI / 180) <> 0 ->
  ft_rotation a' t = - ft_rotation a t /\
  sun_angle (fi_zenith f' t) (fi_azimuth f' t) (pa_axis_azimuth p) (PI - al) /\
  gnd_flag_overlap (ft_ground a') t = gnd_flag_overlap (ft_ground a) t /\
  forall i j row row' cut cut',
    (i + j + 1 = pa_n_pvrows p)%nat ->
    nth_error (ft_rows a) i = Some row -> nth_error (ft_rows a') j = Some row' ->
    nth_error (gnd_cut_points (ft_ground a)) i = Some cut ->
    nth_error (gnd_cut_points (ft_ground a')) j = Some cut' ->
    let mirror x := INR (pa_n_pvrows p - 1) * pa_distance p - x in
    let c := row_coords row t in let c' := row_coords row' t in
    b1 c' = Pt (mirror (px (b2 c))) (py (b2 c)) /\
    b2 c' = Pt (mirror (px (b1 c))) (py (b1 c)) /\
    (exists l r, shadow_coords c al 0 = (XFin l, XFin r) /\
                 shadow_coords c' (PI - al) 0 = (XFin (mirror r), XFin (mirror l))) /\
    (ft_rotation a t <> 0 ->
       side_shaded_length (row_front row') t = side_shaded_length (row_front row) t /\
       side_shaded_length (row_back row') t = side_shaded_length (row_back row) t /\
       exists x, cut t = XFin x /\ cut' t = XFin (mirror x)).
Proof. exact fit_mirror. Qed.
Print Assumptions C48_mirror.

Definition ex_f_mirror : fit_inputs :=
  FitInputs (fi_zenith ex_f) (fun t => 2 * 0 - fi_azimuth ex_f t) (fi_tilt ex_f) (fun t => 2 * 0 - fi_surf_azimuth ex_f t).

Example C48_example :
  (exists a', fit ex_p 2 ex_f_mirror = Some a') /\
  (forall k : Z, fi_surf_azimuth ex_f 1%nat - pa_axis_azimuth ex_p <> 180 * IZR k) /\
  sin (PI / 6 - fit_rotation ex_p ex_f 1%nat * PI / 180) <> 0.
Proof.
  split; [apply fit_total; cbn; lia |]. split; [| rewrite ex_sin1; lra].
  intros k H. cbn in H.
  assert (E : IZR (2 * k) = 1) by (rewrite mult_IZR; lra). apply eq_IZR in E. lia.
Qed.

(** C05-C07 are not vacuous: in the example the sun is in front at t = 1 and a quarter
    of the front of row 1 is shaded. *)
Example C05_example : forall a row, fit ex_p 2 ex_f = Some a -> nth_error (ft_rows a) 1 = Some row ->
  -180 < ft_rotation a 1%nat < 180 /\ ft_rotation a 1%nat <> 0 /\
  sun_in_front (PI / 6) (ft_rotation a 1%nat) /\
  side_shaded_length (row_front row) 1%nat = 1 / 2 /\ side_shaded_length (row_back row) 1%nat = 0.
Proof.
  intros a row Ha Hrow. destruct (fit_spec _ _ _ _ Ha) as [_ [Er _]].
  pose proof ex_rot1 as R1.
  assert (H1 : -180 < ft_rotation a 1%nat < 180) by (rewrite Er, R1; lra).
  assert (H2 : ft_rotation a 1%nat <> 0) by (rewrite Er, R1; lra).
  assert (H3 : sun_in_front (PI / 6) (ft_rotation a 1%nat)).
  { apply sun_front_iff. rewrite Er, sin_rr, ex_sin1. lra. }
  split; [auto |]. split; [auto |]. split; [auto |].
  destruct (fit_shaded_lengths_eq _ _ _ _ _ _ _ ex_valid Ha H1 H2 Hrow) as [F B]. rewrite F, B.
  unfold row_sl, fit_shading. rewrite (fit_alpha_sun_angle _ _ _ _ ex_sun1).
  assert (S : sin (PI / 6 - rr (fit_rotation ex_p ex_f 1%nat)) = 1) by (rewrite sin_rr; apply ex_sin1).
  assert (Sa : sin (PI / 6) = 1 / 2) by apply sin_PI6.
  destruct (interrow_shading_cases 3 (pa_distance ex_p) 2 (PI / 6) (fit_rotation ex_p ex_f 1%nat)) as [_ [C _]];
    try lia; try lra; try (rewrite ex_distance; lra).
  change (pa_n_pvrows ex_p) with 3%nat. change (pa_width ex_p) with 2.
  rewrite C by lra. rewrite S, Sa, ex_distance, Rabs_R1. cbn [row_shaded_lengths Nat.eqb Nat.sub fst snd].
  split; [minmax; lra | reflexivity].
Qed.
