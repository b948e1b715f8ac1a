(** Bridge lemmas between the fitted array and the vocabulary of SpecGeom.v. *)
From Coq Require Import Reals List Bool Arith Lra Lia Psatz Permutation.
From Verif Require Import Num ModelTs ModelGeom Basics SpecGeom ProofGround ProofShade ProofRow ProofAngles ProofFit ProofCut ProofIndex.
Import ListNotations.
Open Scope R_scope.

Lemma fit_alpha_sun_angle : forall p f t al,
  sun_angle (fi_zenith f t) (fi_azimuth f t) (pa_axis_azimuth p) al -> fit_alpha p f t = al.
Proof.
  intros p f t al [Ha [k [Hk [Hc Hs]]]].
  assert (Hz : 0 < cosd (fi_zenith f t)).
  { change (cosd (fi_zenith f t)) with (cos (fi_zenith f t * PI / 180)). rewrite <- Hs.
    apply Rmult_lt_0_compat; auto. apply sin_gt_0; lra. }
  pose proof (fit_alpha_range p f t Hz) as Hr.
  assert (E1 : fit_alpha p f t = atan2 (k * sin al) (k * cos al)).
  { unfold fit_alpha, get_solar_2d_vector. cbn [fst snd]. f_equal.
    - rewrite Hs. reflexivity.
    - rewrite Hc. unfold sind, cosd, deg2rad. f_equal.
      rewrite <- (cos_shift ((fi_azimuth f t - pa_axis_azimuth p) * PI / 180)).
      rewrite <- cos_neg. f_equal. field. }
  assert (Hkk : hyp (k * cos al) (k * sin al) = k).
  { unfold hyp. replace (k * cos al * (k * cos al) + k * sin al * (k * sin al)) with (Rsqr k * (Rsqr (sin al) + Rsqr (cos al))) by (unfold Rsqr; ring).
    rewrite sin2_cos2, Rmult_1_r. apply sqrt_Rsqr. lra. }
  assert (Hsp : 0 < sin al) by (apply sin_gt_0; lra).
  assert (C : cos (fit_alpha p f t) = cos al).
  { rewrite E1, cos_atan2 by (right; nra). rewrite Hkk. field. lra. }
  assert (S : sin (fit_alpha p f t) = sin al).
  { rewrite E1, sin_atan2 by (right; nra). rewrite Hkk. field. lra. }
  destruct (Rtotal_order (fit_alpha p f t) al) as [L | [E | G]]; auto; exfalso.
  - apply angle_lt_cross in L; try lra. rewrite C, S in L. lra.
  - apply angle_lt_cross in G; try lra. rewrite C, S in G. lra.
Qed.

Lemma sun_angle_exists : forall p f t, 0 < cosd (fi_zenith f t) ->
  sun_angle (fi_zenith f t) (fi_azimuth f t) (pa_axis_azimuth p) (fit_alpha p f t).
Proof.
  intros p f t Hz. split; [apply fit_alpha_range; auto |].
  set (x := sind (fi_zenith f t) * cosd (fi_azimuth f t - pa_axis_azimuth p - 90)).
  set (y := cosd (fi_zenith f t)) in *.
  exists (hyp x y). assert (H : x <> 0 \/ y <> 0) by (right; lra).
  pose proof (hyp_pos x y H) as Hp.
  assert (Ex : x = sin (fi_zenith f t * PI / 180) * sin ((fi_azimuth f t - pa_axis_azimuth p) * PI / 180)).
  { unfold x, sind, cosd, deg2rad. f_equal.
    rewrite <- (cos_shift ((fi_azimuth f t - pa_axis_azimuth p) * PI / 180)).
    rewrite <- cos_neg. f_equal. field. }
  unfold fit_alpha, get_solar_2d_vector. cbn [fst snd]. fold x y.
  rewrite cos_atan2, sin_atan2 by auto. rewrite <- Ex.
  split; [auto |]. split; [field; lra |].
  change (cos (fi_zenith f t * PI / 180)) with y. field. lra.
Qed.

Lemma sin_rr : forall al r, sin (al - rr r) = sin (al - r * PI / 180).
Proof. reflexivity. Qed.

Lemma no_sliver_of : forall n d w al r, (1 < n)%nat -> 0 < d -> 0 < w -> 0 < sin al ->
  sin (al - rr r) <> 0 ->
  ~ shading_sliver DISTANCE_TOLERANCE w d al r ->
  no_sliver (interrow_shading n d w al r).
Proof.
  intros n d w al r Hn Hd Hw Ha Hs H.
  destruct (interrow_shading_cases n d w al r Hn Hd Hw Ha Hs) as [Hk [HF HB]].
  unfold shading_sliver, beam_excess in H. rewrite <- !sin_rr in H.
  assert (HA : 0 < Rabs (sin (al - rr r))) by (apply Rabs_pos_lt; auto).
  set (S := Rabs (sin (al - rr r))) in *. set (k := d * sin al / S) in *.
  assert (K : k * S = d * sin al) by (unfold k; field; lra).
  assert (Q : Rmax 0 (w - k) = 0 \/ DISTANCE_TOLERANCE < Rmax 0 (w - k)).
  { unfold Rmax. destruct (Rle_dec 0 (w - k)); [| auto].
    destruct (Req_dec (w - k) 0); [left; auto |]. right.
    apply Rnot_le_lt. intro C. apply H. rewrite <- K. split; nra. }
  unfold no_sliver. destruct (Rlt_dec 0 (sin (al - rr r))).
  - rewrite HF by auto. cbn [fst snd]. auto.
  - rewrite HB by lra. cbn [fst snd]. auto.
Qed.

Lemma fit_raw_ordered' : forall p f t al,
  valid_params p ->
  sun_angle (fi_zenith f t) (fi_azimuth f t) (pa_axis_azimuth p) al ->
  ~ shading_sliver DISTANCE_TOLERANCE (pa_width p) (pa_distance p) al (fit_rotation p f t) ->
  raw_ordered t (direct_shading_flag (fit_shading p (fit_alpha p f) (fit_rotation p f) t))
    (map (fun c t => shadow_coords (c t) (fit_alpha p f t) pa_y_ground)
       (map row_coords (fit_rows p (fit_alpha p f) (fit_rotation p f)))).
Proof.
  intros p f t al Hv Hsun Hns.
  pose proof (fit_alpha_sun_angle _ _ _ _ Hsun) as E.
  assert (Ha : 0 < sin (fit_alpha p f t)).
  { rewrite E. destruct Hsun as [Hr _]. apply sin_gt_0; lra. }
  destruct (le_lt_dec (pa_n_pvrows p) 1) as [Hn | Hn].
  - (* one row *)
    destruct Hv as [Hw [Hg [Hn0 _]]].
    assert (E1 : pa_n_pvrows p = 1%nat) by lia.
    rewrite fit_rows_eq, E1. cbn [seq map]. apply raw_one.
    rewrite fit_row_coords, shadow_coords_row by auto. cbn [fst snd xle].
    pose proof (half_shadow_nonneg (pa_width p) (fit_rotation p f t) (fit_alpha p f t) Hw Ha). lra.
  - destruct (Req_dec (sin (fit_alpha p f t - rr (fit_rotation p f t))) 0) as [Z | Z].
    + (* shadows reduced to points *)
      pose proof (pa_distance_pos p Hv) as Hd. destruct Hv as [Hw [Hg [Hn0 _]]].
      rewrite fit_rows_eq, !map_map.
      generalize (direct_shading_flag (fit_shading p (fit_alpha p f) (fit_rotation p f) t)). intro flag.
      assert (SH : forall i, shadow_coords (row_coords (fit_row p (fit_alpha p f) (fit_rotation p f) i) t) (fit_alpha p f t) pa_y_ground =
        (XFin (INR i * pa_distance p + mid_shadow (pa_height p) (fit_alpha p f t)),
         XFin (INR i * pa_distance p + mid_shadow (pa_height p) (fit_alpha p f t)))).
      { intros i. rewrite fit_row_coords. unfold pa_y_ground. rewrite shadow_coords_row by auto.
        rewrite half_shadow_zero by auto. rewrite Rminus_0_r, Rplus_0_r. reflexivity. }
      generalize (pa_n_pvrows p). intro m. generalize 0%nat.
      induction m; intros s; [apply raw_nil |]. destruct m.
      * cbn [seq map]. apply raw_one. cbv beta. rewrite SH. cbn [fst snd xle]. lra.
      * cbn [seq map]. apply raw_cons.
        -- cbv beta. rewrite SH. cbn [fst snd xle]. lra.
        -- cbv beta. rewrite !SH. cbn [fst snd xle]. rewrite S_INR. lra.
        -- intros _. cbv beta. rewrite !SH. cbn [fst snd xle]. rewrite S_INR. lra.
        -- apply (IHm (S s)).
    + apply fit_raw_ordered; auto. unfold fit_shading. rewrite E in *.
      apply no_sliver_of; auto.
      * apply pa_distance_pos; auto.
      * apply Hv.
Qed.

(** Overlapping shadows. *)
Lemma shadows_overlap_iff : forall al w h r x d, 0 < sin al -> 0 < w -> 0 < d ->
  (shadows_overlap al 0 w h r x (x + d) <-> 0 < beam_excess w d al r).
Proof.
  intros al w h r x d Ha Hw Hd. unfold shadows_overlap, beam_excess, is_ground_shadow, row_point.
  cbn [px py]. change (r * PI / 180) with (rr r).
  set (b := rr r). split.
  - intros [x0 [s1 [s2 [H1 [H2 [[k1 [A1 B1]] [k2 [A2 B2]]]]]]]].
    rewrite sin_minus.
    assert (E : d * sin al = (s1 - s2) * (sin al * cos b - cos al * sin b)).
    { assert (P1 : (x + s1 * cos b - x0) * sin al = (h + s1 * sin b) * cos al) by (rewrite A1, B1; ring).
      assert (P2 : (x + d + s2 * cos b - x0) * sin al = (h + s2 * sin b) * cos al) by (rewrite A2, B2; ring).
      nra. }
    rewrite E. set (S := sin al * cos b - cos al * sin b) in *.
    assert (0 < d * sin al) by nra.
    assert (S <> 0) by (intro Z; rewrite Z in E; nra).
    unfold Rabs. destruct (Rcase_abs S); nra.
  - intros H. set (S := sin (al - b)) in *.
    assert (HS : S <> 0). { intro Z. rewrite Z, Rabs_R0 in H. nra. }
    set (m := d * sin al / S / 2).
    assert (M : - (w / 2) < m < w / 2).
    { assert (Rabs m < w / 2).
      { assert (0 < Rabs S) by (apply Rabs_pos_lt; auto).
        assert (E : Rabs m * Rabs S = d * sin al / 2).
        { rewrite <- Rabs_mult. replace (m * S) with (d * sin al / 2) by (unfold m; field; auto).
          apply Rabs_right. assert (0 < d * sin al) by nra. lra. }
        apply (Rmult_lt_reg_r (Rabs S)); auto. lra. }
      apply Rabs_def2 in H0. lra. }
    exists (x + m * cos b - (h + m * sin b) * cos al / sin al), m, (- m).
    split; [auto |]. split; [lra |]. split.
    + exists ((h + m * sin b) / sin al). split; field; lra.
    + exists ((h + - m * sin b) / sin al). split; [| field; lra].
      assert (Q : d * sin al = 2 * m * (sin al * cos b - cos al * sin b)).
      { rewrite <- sin_minus. fold S. unfold m. field. auto. }
      apply (Rmult_eq_reg_r (sin al)); [| lra].
      replace ((x + d + - m * cos b) * sin al) with (x * sin al + d * sin al - m * cos b * sin al) by ring.
      rewrite Q.
      replace ((x + m * cos b - (h + m * sin b) * cos al / sin al + (h + - m * sin b) / sin al * cos al) * sin al)
        with (x * sin al + m * cos b * sin al - (h + m * sin b) * cos al + (h + - m * sin b) * cos al) by (field; lra).
      ring.
Qed.

Lemma flag_iff_overlap : forall n d w al r, (1 < n)%nat -> 0 < d -> 0 < w -> 0 < sin al ->
  sin (al - rr r) <> 0 -> ~ shading_sliver DISTANCE_TOLERANCE w d al r ->
  (direct_shading_flag (interrow_shading n d w al r) = true <-> 0 < beam_excess w d al r).
Proof.
  intros n d w al r Hn Hd Hw Ha Hs Hns.
  pose proof (no_sliver_of n d w al r Hn Hd Hw Ha Hs Hns) as [N1 N2].
  pose proof (shaded_iff_overlap n d w r al Hn Hd Hw Ha Hs) as I. cbv zeta in I.
  assert (B : d < 2 * half_shadow w r al <-> 0 < beam_excess w d al r).
  { unfold half_shadow, beam_excess. change (r * PI / 180) with (rr r).
    set (S := Rabs (sin (al - rr r))).
    replace (2 * (w / 2 * S / sin al)) with (w * S / sin al) by (field; lra).
    assert (E : w * S / sin al * sin al = w * S) by (field; lra).
    set (q := w * S / sin al) in *. split; intros; nra. }
  rewrite <- B, <- I. unfold direct_shading_flag. rewrite orb_true_iff, !Rltb_true.
  pose proof DISTANCE_TOLERANCE_pos. split; intros [A | A]; [left | right | left | right]; lra.
Qed.

(** Sides of the rows. *)
Lemma fit_row_front : forall p al rot i,
  row_front (fit_row p al rot i) =
  side_from_raw_inputs i false (INR i * pa_distance p) (pa_height p) (pa_width p) rot
    (pa_cut p i false)
    (fun t => fst (row_shaded_lengths (pa_n_pvrows p) i (rot t) (fit_shading p al rot t)))
    (fun t => normal_vec_front (full_coords (INR i * pa_distance p) (pa_height p) (pa_width p) (rot t))).
Proof.
  intros. unfold fit_row, pvrow_from_raw_inputs, row_center, X_ORIGIN_PVROWS, pa_y_ground. cbn [row_front fst snd].
  rewrite Rplus_0_l, Rplus_0_r. reflexivity.
Qed.

Lemma fit_row_back : forall p al rot i,
  row_back (fit_row p al rot i) =
  side_from_raw_inputs i true (INR i * pa_distance p) (pa_height p) (pa_width p) rot
    (pa_cut p i true)
    (fun t => snd (row_shaded_lengths (pa_n_pvrows p) i (rot t) (fit_shading p al rot t)))
    (fun t => let nf := normal_vec_front (full_coords (INR i * pa_distance p) (pa_height p) (pa_width p) (rot t)) in
              (- fst nf, - snd nf)).
Proof.
  intros. unfold fit_row, pvrow_from_raw_inputs, row_center, X_ORIGIN_PVROWS, pa_y_ground. cbn [row_back fst snd].
  rewrite Rplus_0_l, Rplus_0_r. reflexivity.
Qed.

Lemma row_shaded_bounds : forall n i r sl w,
  0 <= fst sl <= w -> 0 <= snd sl <= w ->
  0 <= fst (row_shaded_lengths n i r sl) <= w /\ 0 <= snd (row_shaded_lengths n i r sl) <= w.
Proof.
  intros n i r sl w H1 H2. unfold row_shaded_lengths.
  destruct (Nat.eqb i 0), (Nat.eqb i (n - 1)), (Rltb 0 r); cbn [np_where fst snd]; lra.
Qed.

Definition row_sl (p : pvarray_params) (f : fit_inputs) (i t : nat) : R * R :=
  row_shaded_lengths (pa_n_pvrows p) i (fit_rotation p f t)
    (fit_shading p (fit_alpha p f) (fit_rotation p f) t).

Lemma row_sl_bounds : forall p f i t, valid_params p ->
  0 <= fst (row_sl p f i t) <= pa_width p /\ 0 <= snd (row_sl p f i t) <= pa_width p.
Proof.
  intros p f i t [Hw _]. unfold row_sl, fit_shading.
  pose proof (interrow_shading_bounds (pa_n_pvrows p) (pa_distance p) (pa_width p) (fit_alpha p f t) (fit_rotation p f t) Hw).
  apply row_shaded_bounds; tauto.
Qed.

(** Only the side that faces the sun can be shaded. *)
Lemma sun_front_iff : forall al r, sun_in_front al r <-> 0 < sin (al - rr r).
Proof.
  intros. unfold sun_in_front. change (r * PI / 180) with (rr r). rewrite sin_minus. lra.
Qed.
Lemma sun_behind_iff : forall al r, sun_behind al r <-> sin (al - rr r) < 0.
Proof.
  intros. unfold sun_behind. change (r * PI / 180) with (rr r). rewrite sin_minus. lra.
Qed.

Lemma other_side_zero : forall n d w al r i, 0 < d -> 0 < w -> 0 < sin al ->
  (0 < sin (al - rr r) -> snd (row_shaded_lengths n i r (interrow_shading n d w al r)) = 0) /\
  (sin (al - rr r) < 0 -> fst (row_shaded_lengths n i r (interrow_shading n d w al r)) = 0).
Proof.
  intros n d w al r i Hd Hw Ha.
  assert (Z : forall sl, (snd sl = 0 -> snd (row_shaded_lengths n i r sl) = 0) /\
                         (fst sl = 0 -> fst (row_shaded_lengths n i r sl) = 0)).
  { intros sl. unfold row_shaded_lengths.
    destruct (Nat.eqb i 0), (Nat.eqb i (n - 1)), (Rltb 0 r); cbn [np_where fst snd]; auto. }
  destruct (le_lt_dec n 1) as [Hn | Hn].
  - assert (E : interrow_shading n d w al r = (0, 0)).
    { unfold interrow_shading. replace (Nat.ltb 1 n) with false; auto. symmetry. apply Nat.ltb_ge. auto. }
    rewrite E. split; intros _; apply Z; reflexivity.
  - split; intros H; destruct (interrow_shading_cases n d w al r) as [_ [HF HB]]; auto; try lra;
      apply Z; [rewrite HF by auto | rewrite HB by auto]; reflexivity.
Qed.

Lemma oof_raw : forall t flag l, ordered_or_flagged flag (map (fun a : ts (xr * xr) => a t) l) ->
  raw_ordered t flag l.
Proof.
  intros t flag l. induction l as [| a [| b l] IH]; intros H.
  - apply raw_nil.
  - simpl in H. inversion H; subst. apply raw_one. auto.
  - simpl in H. inversion H; subst. apply raw_cons; auto.
Qed.

(** Position of the surfaces of an ordered array with respect to the cut point of a
    row. *)
Lemma ck_ge : forall c x, c <> XNaN -> MIN_X_GROUND < x -> x <= ck c -> xle (XFin x) c.
Proof.
  intros c x Hc H1 H2. unfold ck in H2. destruct c; simpl in *; try congruence; gb; try lra; auto.
  minmax; lra.
Qed.
Lemma ck_le : forall c x, c <> XNaN -> x < MAX_X_GROUND -> ck c <= x -> xle c (XFin x).
Proof.
  intros c x Hc H1 H2. unfold ck in H2. destruct c; simpl in *; try congruence; gb; try lra; auto.
  minmax; lra.
Qed.

Lemma flat_length : forall y flag shadows cuts g t s,
  ground_from_ordered_shadows y flag shadows cuts = Some g ->
  raw_ordered t (flag t) shadows -> not_nan t cuts -> In s (gnd_surfaces g) ->
  s_length s t = px (b2 (s_coords s t)) - px (b1 (s_coords s t)).
Proof.
  intros. destruct (gnd_surface_y _ _ _ _ _ t s H H2) as [Y1 Y2].
  destruct (gnd_surface_in_ground _ _ _ _ _ t s H H0 H1 H2) as [A [B C]].
  unfold s_length. rewrite (line_length_flat _ y) by auto. reflexivity.
Qed.

Lemma gnd_side_xle : forall y flag shadows cuts g i ci t s,
  ground_from_ordered_shadows y flag shadows cuts = Some g ->
  raw_ordered t (flag t) shadows -> not_nan t cuts -> sorted_cuts t cuts ->
  nth_error cuts i = Some ci -> 0 < s_length s t ->
  (In s (gnd_side_of_cut_point g true i) -> xle (XFin (px (b2 (s_coords s t)))) (ci t)) /\
  (In s (gnd_side_of_cut_point g false i) -> xle (ci t) (XFin (px (b1 (s_coords s t))))).
Proof.
  intros y flag shadows cuts g i ci t s Hg Ho Hn Hs Hi Hl.
  assert (Hlt : (i < length cuts)%nat) by (apply nth_error_Some; congruence).
  assert (Hc : ci t <> XNaN) by (apply Hn; eapply nth_error_In; eauto).
  pose proof (gnd_side_partition _ _ _ _ _ i Hg Hlt) as P.
  destruct (gnd_side_sound _ _ _ _ _ i ci t s Hg Ho Hn Hs Hi) as [L Rr].
  assert (K : In s (gnd_surfaces g) -> in_ground (s_coords s t) /\
     s_length s t = px (b2 (s_coords s t)) - px (b1 (s_coords s t))).
  { intros H. split; [eapply gnd_surface_in_ground; eauto | eapply flat_length; eauto]. }
  split; intros H.
  - destruct K as [[A [B C]] E].
    { eapply Permutation_in; [apply Permutation_sym; exact P | apply in_or_app; auto]. }
    apply ck_ge; auto. lra.
  - destruct K as [[A [B C]] E].
    { eapply Permutation_in; [apply Permutation_sym; exact P | apply in_or_app; auto]. }
    apply ck_le; auto. lra.
Qed.

(** Surfaces of a side: interval, measured from the lower edge, and shading. *)
Lemma side_surface_interval : forall row bk xc yc w rot cut sl nv t s,
  0 < w -> -180 < rot t < 180 -> rot t <> 0 -> (0 < cut)%nat -> 0 <= sl t <= w ->
  In s (side_surfaces (side_from_raw_inputs row bk xc yc w rot cut sl nv)) ->
  exists lo hi, 0 <= lo <= hi /\ hi <= w /\
    s_coords s t = Line (low_point xc yc w (rot t) lo) (low_point xc yc w (rot t) hi) /\
    (lo < hi -> if s_shaded s then hi <= sl t else sl t <= lo).
Proof.
  intros row bk xc yc w rot cut sl nv t s Hw Hr Hr0 Hcut Hsl Hin.
  unfold side_surfaces, side_from_raw_inputs in Hin. cbn [side_segments] in Hin.
  apply in_flat_map in Hin. destruct Hin as [g [Hg Hin]].
  apply in_map_iff in Hg. destruct Hg as [i [E Hi]]. apply in_seq in Hi.
  subst g. unfold seg_surfaces in Hin. cbn [seg_illum seg_shaded app] in Hin.
  destruct (seg_bounds w (rot t) cut i Hw) as [B1 B2]; [lia |].
  pose proof (seg_hi_lo w (rot t) cut i) as D.
  assert (Dp : 0 < w / INR cut).
  { apply Rdiv_lt_0_compat; auto. apply lt_0_INR. auto. }
  pose proof (segment_coords_nonflat xc yc w (rot t) cut (sl t) i Hw Hr Hr0 Hcut) as C.
  cbv zeta in C. set (lo := seg_lo w (rot t) cut i) in *. set (hi := seg_hi w (rot t) cut i) in *.
  set (m := Rmax lo (Rmin (sl t) hi)) in *.
  assert (M : lo <= m <= hi). { unfold m. minmax; lra. }
  destruct Hin as [E | [E | []]]; subst s; cbn [s_coords s_shaded]; cbv beta; rewrite C; cbn [fst snd].
  - exists m, hi. split; [lra |]. split; [auto |]. split; [reflexivity |].
    intros L. unfold m in *. minmax; lra.
  - exists lo, m. split; [lra |]. split; [lra |]. split; [reflexivity |].
    intros L. unfold m in *. minmax; lra.
Qed.
