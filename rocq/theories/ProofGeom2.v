(** Proofs of the statements of PropGeom.v. *)
From Coq Require Import Reals List Bool Arith Lra Lia Psatz Permutation.
From Verif Require Import Num ModelTs ModelGeom Basics SpecGeom ProofGround ProofShade ProofRow ProofAngles ProofFit ProofCut ProofIndex ProofGeom.
Import ListNotations.
Open Scope R_scope.

Lemma element_cutting : forall mkid shaded c cuts t,
  cuts <> [] -> (forall k, In k cuts -> k t <> XNaN) ->
  -100 <= px (b1 (c t)) -> px (b1 (c t)) <= px (b2 (c t)) -> px (b2 (c t)) <= 100 ->
  py (b1 (c t)) = py (b2 (c t)) ->
  let pieces := el_surfaces (make_element mkid shaded c cuts) in
  length pieces = S (length cuts) /\
  end_to_end (px (b1 (c t))) (px (b2 (c t))) (map (fun s => x_extent (s_coords s t)) pieces) /\
  coll_length pieces t = line_length (c t) /\
  (forall s, In s pieces ->
     s_shaded s = shaded /\
     py (b1 (s_coords s t)) = py (b1 (c t)) /\ py (b2 (s_coords s t)) = py (b1 (c t)) /\
     -100 <= px (b1 (s_coords s t)) /\ px (b1 (s_coords s t)) <= px (b2 (s_coords s t)) /\
     px (b2 (s_coords s t)) <= 100 /\
     (0 < s_length s t ->
        px (b1 (c t)) <= px (b1 (s_coords s t)) /\ px (b2 (s_coords s t)) <= px (b2 (c t)))).
Proof.
  intros mkid shaded c cuts t Hne Hn H1 H2 H3 Hy pieces.
  destruct ground_bounds as [GB1 GB2].
  assert (G : in_ground (c t)) by (unfold in_ground; rewrite GB1, GB2; auto).
  destruct (element_pieces mkid shaded c cuts t Hne Hn G) as [L E].
  assert (Q : forall s, In s pieces -> s_shaded s = shaded /\
     py (b1 (s_coords s t)) = py (b1 (c t)) /\ py (b2 (s_coords s t)) = py (b1 (c t)) /\
     in_ground (s_coords s t)).
  { intros s Hs. apply In_nth_error in Hs. destruct Hs as [k Hk].
    apply make_element_surfaces in Hk. destruct Hk as [_ [Hsh [Hc _]]].
    apply nth_error_In in Hc. split; [auto |].
    destruct (create_coords_y cuts c t (py (b1 (c t))) eq_refl (eq_sym Hy) _ Hc) as [Y1 Y2].
    split; [auto |]. split; [auto |]. eapply create_coords_in_ground; eauto. }
  split; [exact L |]. split; [exact E |]. split.
  - unfold coll_length. rewrite py_sum_rsum.
    rewrite (line_length_flat (c t) (py (b1 (c t)))) by auto. unfold x_extent. cbn [fst snd].
    rewrite <- (end_to_end_total _ _ _ E). fold pieces.
    clear E L. induction pieces as [| s r IH]; [reflexivity |].
    unfold total_length in *. simpl.
    rewrite <- IH by (intros; apply Q; right; auto).
    destruct (Q s (or_introl eq_refl)) as [_ [Y1 [Y2 [A [B C]]]]].
    unfold s_length at 1. rewrite (line_length_flat _ (py (b1 (c t)))) by auto. reflexivity.
  - intros s Hs. destruct (Q s Hs) as [Hsh [Y1 [Y2 [A [B C]]]]].
    rewrite GB1 in A. rewrite GB2 in C.
    repeat (split; [assumption |]). intros Hl.
    unfold s_length in Hl. rewrite (line_length_flat _ (py (b1 (c t)))) in Hl by auto.
    unfold x_extent in Hl; cbn [fst snd] in Hl.
    destruct (end_to_end_inside _ _ _ E (px (b1 (s_coords s t))) (px (b2 (s_coords s t)))) as [I1 [I2 I3]].
    + apply in_map_iff. exists s. auto.
    + lra.
    + lra.
Qed.

Lemma fit_rows_nth_error : forall p n f a i row, fit p n f = Some a ->
  nth_error (ft_rows a) i = Some row ->
  (i < pa_n_pvrows p)%nat /\ row = fit_row p (fit_alpha p f) (fit_rotation p f) i.
Proof.
  intros p n f a i row H Hi. destruct (fit_spec _ _ _ _ H) as [_ [_ [_ [E _]]]].
  rewrite E, fit_rows_eq, nth_error_map in Hi.
  destruct (nth_error (seq 0 (pa_n_pvrows p)) i) eqn:Es; [| discriminate].
  apply nth_error_seq_inv in Es. destruct Es as [L Es]. subst n0.
  simpl in Hi. inversion Hi. auto.
Qed.

Lemma fit_left_right : forall p n f a t al i,
  valid_params p -> fit p n f = Some a ->
  sun_angle (fi_zenith f t) (fi_azimuth f t) (pa_axis_azimuth p) al ->
  ~ shading_sliver DISTANCE_TOLERANCE (pa_width p) (pa_distance p) al (ft_rotation a t) ->
  -180 < ft_rotation a t < 180 ->
  pa_width p / 2 * Rabs (sin (ft_rotation a t * PI / 180)) < pa_height p ->
  (i < pa_n_pvrows p)%nat ->
  let g := ft_ground a in
  let left := gnd_side_of_cut_point g true i in
  let right := gnd_side_of_cut_point g false i in
  exists cut, nth_error (gnd_cut_points g) i = Some cut /\
    (ft_rotation a t = 0 -> cut t = XPInf) /\
    (ft_rotation a t <> 0 -> exists x s, cut t = XFin x /\
        row_point (INR i * pa_distance p) (pa_height p) (ft_rotation a t) s = Pt x 0) /\
    Permutation (gnd_surfaces g) (left ++ right) /\
    (forall s, In s left -> 0 < s_length s t -> xle (XFin (px (b2 (s_coords s t)))) (cut t)) /\
    (forall s, In s right -> 0 < s_length s t -> xle (cut t) (XFin (px (b1 (s_coords s t))))).
Proof.
  intros p n f a t al i Hv Hf Hsun Hns Hr Hab Hi g left right.
  pose proof (fit_ground_ordered _ _ _ _ Hf) as G. fold g in G.
  destruct (fit_spec _ _ _ _ Hf) as [_ [Er _]]. rewrite Er in *.
  pose proof (fit_raw_ordered' p f t al Hv Hsun Hns) as O.
  destruct (fit_cuts p (fit_alpha p f) (fit_rotation p f) t Hv Hab Hr) as [Lc [Nn Ns]].
  set (cuts := map (fun c t => cut_point (c t) (fit_rotation p f t) pa_y_ground)
                (map row_coords (fit_rows p (fit_alpha p f) (fit_rotation p f)))) in *.
  destruct (ground_from_ordered_spec _ _ _ _ _ G) as [_ [Ec _]]. rewrite Ec.
  exists (fun t => cut_point (row_coords (fit_row p (fit_alpha p f) (fit_rotation p f) i) t) (fit_rotation p f t) pa_y_ground).
  assert (Hnth : nth_error cuts i = Some (fun t => cut_point (row_coords (fit_row p (fit_alpha p f) (fit_rotation p f) i) t) (fit_rotation p f t) pa_y_ground)).
  { unfold cuts. rewrite fit_rows_eq, !map_map, nth_error_map, nth_error_seq by auto. reflexivity. }
  split; [exact Hnth |].
  split; [| split; [| split; [| split]]].
  - intros Z. rewrite fit_cut_point by auto. destruct (Req_EM_T (fit_rotation p f t) 0); [reflexivity | contradiction].
  - intros Z. rewrite fit_cut_point by auto. destruct (Req_EM_T (fit_rotation p f t) 0); [contradiction |].
    assert (S : sin (rr (fit_rotation p f t)) <> 0).
    { change (sin (rr (fit_rotation p f t))) with (sind (fit_rotation p f t)). destruct (Rlt_dec 0 (fit_rotation p f t)).
      - pose proof (sind_pos (fit_rotation p f t)). lra.
      - pose proof (sind_neg (fit_rotation p f t)). lra. }
    eexists _, (- pa_height p / sin (rr (fit_rotation p f t))). split; [reflexivity |].
    unfold row_point. change (fit_rotation p f t * PI / 180) with (rr (fit_rotation p f t)).
    f_equal; field; auto.
  - apply (gnd_side_partition _ _ _ _ g i G). change (i < length cuts)%nat. rewrite Lc. auto.
  - intros s Hs Hl. exact (proj1 (gnd_side_xle _ _ _ _ _ _ _ t s G O Nn Ns Hnth Hl) Hs).
  - intros s Hs Hl. exact (proj2 (gnd_side_xle _ _ _ _ _ _ _ t s G O Nn Ns Hnth Hl) Hs).
Qed.

Lemma fit_flag_iff_overlap : forall p n f a t al,
  valid_params p -> fit p n f = Some a ->
  sun_angle (fi_zenith f t) (fi_azimuth f t) (pa_axis_azimuth p) al ->
  ~ shading_sliver DISTANCE_TOLERANCE (pa_width p) (pa_distance p) al (ft_rotation a t) ->
  sin (al - ft_rotation a t * PI / 180) <> 0 ->
  (gnd_flag_overlap (ft_ground a) t = true <->
   exists i, (S i < pa_n_pvrows p)%nat /\
     shadows_overlap al 0 (pa_width p) (pa_height p) (ft_rotation a t)
       (INR i * pa_distance p) (INR (S i) * pa_distance p)).
Proof.
  intros p n f a t al Hv Hf Hsun Hns Hs.
  destruct (fit_spec _ _ _ _ Hf) as [_ [Er _]]. rewrite Er in *.
  pose proof (fit_alpha_sun_angle _ _ _ _ Hsun) as Ea.
  assert (Ha : 0 < sin al). { destruct Hsun as [Hr _]. apply sin_gt_0; lra. }
  pose proof (pa_distance_pos p Hv) as Hd.
  assert (Hw : 0 < pa_width p) by apply Hv.
  assert (Ef : gnd_flag_overlap (ft_ground a) t =
     direct_shading_flag (interrow_shading (pa_n_pvrows p) (pa_distance p) (pa_width p) al (fit_rotation p f t))).
  { pose proof (fit_ground_ordered _ _ _ _ Hf) as G.
    unfold ground_from_ordered_shadows in G. cbv zeta in G.
    destruct (illum_elements _ _ _); [| discriminate].
    apply (f_equal (fun o => match o with Some g => gnd_flag_overlap g t | None => false end)) in G.
    cbn [gnd_flag_overlap] in G. rewrite <- G. unfold fit_shading. rewrite Ea. reflexivity. }
  rewrite Ef. destruct (le_lt_dec (pa_n_pvrows p) 1) as [Hn | Hn].
  - replace (interrow_shading (pa_n_pvrows p) (pa_distance p) (pa_width p) al (fit_rotation p f t)) with (0, 0).
    + split.
      * unfold direct_shading_flag. cbn [fst snd]. intros H.
        rewrite orb_true_iff, !Rltb_true in H. pose proof DISTANCE_TOLERANCE_pos. lra.
      * intros [i [Hi _]]. lia.
    + unfold interrow_shading. replace (Nat.ltb 1 (pa_n_pvrows p)) with false; auto.
      symmetry. apply Nat.ltb_ge. auto.
  - rewrite flag_iff_overlap by auto.
    rewrite <- (shadows_overlap_iff al (pa_width p) (pa_height p) (fit_rotation p f t) 0 (pa_distance p)) by auto.
    split.
    + intros H. exists 0%nat. split; [auto |]. simpl. rewrite Rmult_0_l, Rmult_1_l.
      rewrite Rplus_0_l in H. exact H.
    + intros [i [_ H]]. rewrite S_INR in H.
      replace ((INR i + 1) * pa_distance p) with (INR i * pa_distance p + pa_distance p) in H by ring.
      apply shadows_overlap_iff in H; auto. apply shadows_overlap_iff; auto.
Qed.

Lemma point_low : forall p r i e,
  point_from_low_edge (pa_width p) (pa_distance p) (pa_height p) r i e =
  low_point (INR i * pa_distance p) (pa_height p) (pa_width p) r e.
Proof. reflexivity. Qed.

Lemma hidden_eq : forall n w d h r al i e,
  hidden_from_sun n w d h r al i (point_from_low_edge w d h r i e) <->
  hidden_by_another_row n d w h r al i (from_low_end w r e).
Proof. intros. reflexivity. Qed.

Lemma fit_shaded_lengths_eq : forall p n f a t i row,
  valid_params p -> fit p n f = Some a ->
  -180 < ft_rotation a t < 180 -> ft_rotation a t <> 0 ->
  nth_error (ft_rows a) i = Some row ->
  side_shaded_length (row_front row) t = fst (row_sl p f i t) /\
  side_shaded_length (row_back row) t = snd (row_sl p f i t).
Proof.
  intros p n f a t i row Hv Hf Hr Hr0 Hi.
  destruct (fit_rows_nth_error _ _ _ _ _ _ Hf Hi) as [Hlt E]. subst row.
  destruct (fit_spec _ _ _ _ Hf) as [_ [Er _]]. rewrite Er in *.
  pose proof (row_sl_bounds p f i t Hv) as [B1 B2].
  destruct Hv as [Hw [_ [_ Hc]]].
  rewrite fit_row_front, fit_row_back.
  split.
  - rewrite side_shaded_length_eq; auto.
  - rewrite side_shaded_length_eq; auto.
Qed.

Lemma low_point_inj : forall xc yc w r e e', low_point xc yc w r e = low_point xc yc w r e' -> e = e'.
Proof.
  intros xc yc w r e e' H. unfold low_point, row_point in H. set (b := r * PI / 180) in *.
  injection H as H1 H2.
  assert (Hs : from_low_end w r e = from_low_end w r e').
  { set (s := from_low_end w r e) in *. set (s' := from_low_end w r e') in *.
    pose proof (sin2_cos2 b) as Q. unfold Rsqr in Q.
    assert (K1 : (s - s') * cos b = 0) by lra. assert (K2 : (s - s') * sin b = 0) by lra.
    assert (K : (s - s') * (sin b * sin b + cos b * cos b) = 0)
      by (replace ((s - s') * (sin b * sin b + cos b * cos b))
            with ((s - s') * sin b * sin b + (s - s') * cos b * cos b) by ring; rewrite K1, K2; ring).
    rewrite Q in K. lra. }
  unfold from_low_end in Hs. destruct (Rlt_dec 0 r); lra.
Qed.

Lemma fit_shade_geometric : forall p n f a t al i row s lo hi e,
  valid_params p -> fit p n f = Some a ->
  sun_angle (fi_zenith f t) (fi_azimuth f t) (pa_axis_azimuth p) al ->
  -180 < ft_rotation a t < 180 -> ft_rotation a t <> 0 ->
  nth_error (ft_rows a) i = Some row ->
  (sun_in_front al (ft_rotation a t) /\ In s (side_surfaces (row_front row)) \/
   sun_behind al (ft_rotation a t) /\ In s (side_surfaces (row_back row))) ->
  let P := point_from_low_edge (pa_width p) (pa_distance p) (pa_height p) (ft_rotation a t) i in
  s_coords s t = Line (P lo) (P hi) -> 0 <= lo -> lo < e < hi -> hi <= pa_width p ->
  (s_shaded s = true <->
   hidden_from_sun (pa_n_pvrows p) (pa_width p) (pa_distance p) (pa_height p)
     (ft_rotation a t) al i (P e)).
Proof.
  intros p n f a t al i row s lo hi e Hv Hf Hsun Hr Hr0 Hi Hside P Hs Hlo He Hhi.
  destruct (fit_rows_nth_error _ _ _ _ _ _ Hf Hi) as [Hlt E]. subst row.
  destruct (fit_spec _ _ _ _ Hf) as [_ [Er _]]. rewrite Er in *.
  pose proof (row_sl_bounds p f i t Hv) as [B1 B2].
  pose proof (fit_alpha_sun_angle _ _ _ _ Hsun) as Ea.
  assert (Ha : 0 < sin al). { destruct Hsun as [Hq _]. apply sin_gt_0; lra. }
  pose proof (pa_distance_pos p Hv) as Hd.
  assert (Hw : 0 < pa_width p) by apply Hv.
  assert (Hc : forall b, (0 < pa_cut p i b)%nat) by (intros; apply Hv).
  assert (Hsin : sin (al - rr (fit_rotation p f t)) <> 0).
  { destruct Hside as [[H _] | [H _]]; [apply sun_front_iff in H | apply sun_behind_iff in H]; lra. }
  assert (Esl : row_sl p f i t = row_shaded_lengths (pa_n_pvrows p) i (fit_rotation p f t)
     (interrow_shading (pa_n_pvrows p) (pa_distance p) (pa_width p) al (fit_rotation p f t))).
  { unfold row_sl, fit_shading. rewrite Ea. reflexivity. }
  unfold P in *. clear P. rewrite ?Er in *. rewrite hidden_eq.
  rewrite (hidden_iff (pa_n_pvrows p) (pa_distance p) (pa_width p) (pa_height p) (fit_rotation p f t) al i e) by (auto; lra).
  rewrite <- Esl.
  destruct (other_side_zero (pa_n_pvrows p) (pa_distance p) (pa_width p) al (fit_rotation p f t) i Hd Hw Ha) as [Z1 Z2].
  rewrite <- Esl in Z1, Z2.
  assert (KEY : forall sl, 0 <= sl ->
     (exists lo0 hi0, 0 <= lo0 <= hi0 /\ hi0 <= pa_width p /\
       s_coords s t = Line (low_point (INR i * pa_distance p) (pa_height p) (pa_width p) (fit_rotation p f t) lo0)
                           (low_point (INR i * pa_distance p) (pa_height p) (pa_width p) (fit_rotation p f t) hi0) /\
       (lo0 < hi0 -> if s_shaded s then hi0 <= sl else sl <= lo0)) ->
     (s_shaded s = true <-> e <= sl)).
  { intros sl Hsl [lo0 [hi0 [C1 [C2 [C3 C4]]]]]. rewrite Hs in C3. rewrite !point_low in C3.
    injection C3 as D1 D2 D3 D4.
    assert (lo = lo0).
    { eapply (low_point_inj (INR i * pa_distance p) (pa_height p) (pa_width p) (fit_rotation p f t)).
      unfold low_point, row_point. rewrite D1, D2. reflexivity. }
    assert (hi = hi0).
    { eapply (low_point_inj (INR i * pa_distance p) (pa_height p) (pa_width p) (fit_rotation p f t)).
      unfold low_point, row_point. rewrite D3, D4. reflexivity. }
    subst lo0 hi0. assert (L : lo < hi) by lra. specialize (C4 L).
    destruct (s_shaded s); split; intros; try lra; try discriminate; auto. }
  destruct Hside as [[F Hin] | [F Hin]].
  - rewrite fit_row_front in Hin.
    apply (side_surface_interval _ _ _ _ _ _ _ _ _ t) in Hin; auto.
    apply KEY in Hin; [| apply B1]. rewrite Hin.
    apply sun_front_iff in F. rewrite (Z1 F). unfold row_sl. split; [auto | intros [Q | Q]; [auto | lra]].
  - rewrite fit_row_back in Hin.
    apply (side_surface_interval _ _ _ _ _ _ _ _ _ t) in Hin; auto.
    apply KEY in Hin; [| apply B2]. rewrite Hin.
    apply sun_behind_iff in F. rewrite (Z2 F). unfold row_sl. split; [auto | intros [Q | Q]; [lra | auto]].
Qed.

Lemma fit_shaded_lengths : forall p n f a t al i row,
  valid_params p -> fit p n f = Some a ->
  sun_angle (fi_zenith f t) (fi_azimuth f t) (pa_axis_azimuth p) al ->
  -180 < ft_rotation a t < 180 -> ft_rotation a t <> 0 ->
  nth_error (ft_rows a) i = Some row ->
  let front := side_shaded_length (row_front row) t in
  let back := side_shaded_length (row_back row) t in
  0 <= front <= pa_width p /\ 0 <= back <= pa_width p /\
  (sun_in_front al (ft_rotation a t) -> back = 0) /\
  (sun_behind al (ft_rotation a t) -> front = 0) /\
  (pa_n_pvrows p = 1%nat -> front = 0 /\ back = 0) /\
  (forall e, 0 < e < pa_width p -> sin (al - ft_rotation a t * PI / 180) <> 0 ->
     (hidden_from_sun (pa_n_pvrows p) (pa_width p) (pa_distance p) (pa_height p)
        (ft_rotation a t) al i
        (point_from_low_edge (pa_width p) (pa_distance p) (pa_height p) (ft_rotation a t) i e)
      <-> e <= front \/ e <= back)).
Proof.
  intros p n f a t al i row Hv Hf Hsun Hr Hr0 Hi front back.
  destruct (fit_shaded_lengths_eq _ _ _ _ _ _ _ Hv Hf Hr Hr0 Hi) as [E1 E2].
  unfold front, back. rewrite E1, E2.
  destruct (fit_rows_nth_error _ _ _ _ _ _ Hf Hi) as [Hlt E]. subst row.
  destruct (fit_spec _ _ _ _ Hf) as [_ [Er _]]. rewrite Er in *.
  pose proof (row_sl_bounds p f i t Hv) as [B1 B2].
  pose proof (fit_alpha_sun_angle _ _ _ _ Hsun) as Ea.
  assert (Ha : 0 < sin al). { destruct Hsun as [Hq _]. apply sin_gt_0; lra. }
  pose proof (pa_distance_pos p Hv) as Hd.
  assert (Hw : 0 < pa_width p) by apply Hv.
  assert (Esl : row_sl p f i t = row_shaded_lengths (pa_n_pvrows p) i (fit_rotation p f t)
     (interrow_shading (pa_n_pvrows p) (pa_distance p) (pa_width p) al (fit_rotation p f t))).
  { unfold row_sl, fit_shading. rewrite Ea. reflexivity. }
  destruct (other_side_zero (pa_n_pvrows p) (pa_distance p) (pa_width p) al (fit_rotation p f t) i Hd Hw Ha) as [Z1 Z2].
  rewrite <- Esl in Z1, Z2.
  split; [auto |]. split; [auto |]. split; [| split; [| split]].
  - intros F. apply Z1. apply sun_front_iff. auto.
  - intros F. apply Z2. apply sun_behind_iff. auto.
  - intros N1. rewrite Esl, N1, interrow_shading_single. unfold row_shaded_lengths.
    destruct (Nat.eqb i 0), (Nat.eqb i (1 - 1)), (Rltb 0 (fit_rotation p f t)); cbn; auto.
  - intros e He Hs. rewrite hidden_eq.
    rewrite (hidden_iff (pa_n_pvrows p) (pa_distance p) (pa_width p) (pa_height p) (fit_rotation p f t) al i e) by (auto; lra).
    rewrite <- Esl. reflexivity.
Qed.

Lemma low_point_flat : forall xc yc w e, low_point xc yc w 0 e = row_point xc yc 0 (w / 2 - e).
Proof.
  intros. unfold low_point, from_low_end. destruct (Rlt_dec 0 0); [lra | reflexivity].
Qed.

Lemma side_partition : forall row bk xc yc w rot cut sl nv t,
  0 < w -> -180 < rot t < 180 -> (0 < cut)%nat -> 0 <= sl t <= w ->
  let side := side_from_raw_inputs row bk xc yc w rot cut sl nv in
  let P := low_point xc yc w (rot t) in
  length (side_segments side) = cut /\
  side_length side t = w /\
  (forall k seg, nth_error (side_segments side) k = Some seg ->
     exists il sh lo hi m,
       seg_illum seg = [il] /\ seg_shaded seg = [sh] /\
       s_shaded il = false /\ s_shaded sh = true /\
       0 <= lo /\ lo <= m <= hi /\ hi <= w /\ hi - lo = w / INR cut /\
       lo = (if Rlt_dec 0 (rot t) then INR k else INR cut - 1 - INR k) * (w / INR cut) /\
       ((seg_coords seg t = Line (P lo) (P hi)) \/ (seg_coords seg t = Line (P hi) (P lo))) /\
       (rot t <> 0 ->
          s_coords sh t = Line (P lo) (P m) /\ s_coords il t = Line (P m) (P hi) /\
          m = Rmax lo (Rmin hi (side_shaded_length side t))) /\
       (rot t = 0 -> s_length sh t = 0 /\ s_coords il t = seg_coords seg t)).
Proof.
  intros row bk xc yc w rot cut sl nv t Hw Hr Hcut Hsl side P.
  split; [unfold side, side_from_raw_inputs; cbn [side_segments]; rewrite map_length, seq_length; auto |].
  split; [apply side_length_eq; auto |].
  intros k seg Hk.
  assert (SL : rot t <> 0 -> side_shaded_length side t = sl t) by (intros; apply side_shaded_length_eq; auto).
  unfold side, side_from_raw_inputs in Hk. cbn [side_segments] in Hk.
  rewrite nth_error_map in Hk. destruct (nth_error (seq 0 cut) k) eqn:Es; [| discriminate].
  apply nth_error_seq_inv in Es. destruct Es as [Lk Es]. simpl in Es. subst n.
  cbn [option_map] in Hk.
  apply (f_equal (fun o => match o with Some x => x | None => seg end)) in Hk.
  cbv beta iota zeta in Hk. subst seg. cbn [seg_illum seg_shaded seg_coords].
  assert (Ic : 0 < INR cut) by (apply lt_0_INR; auto).
  set (lo := seg_lo w (rot t) cut k). set (hi := seg_hi w (rot t) cut k).
  destruct (seg_bounds w (rot t) cut k Hw Lk) as [Q1 Q2]. fold lo in Q1. fold hi in Q2.
  pose proof (seg_hi_lo w (rot t) cut k) as D. fold lo hi in D.
  assert (Dp : 0 < w / INR cut) by (apply Rdiv_lt_0_compat; auto).
  eexists _, _, lo, hi, (Rmax lo (Rmin (sl t) hi)).
  split; [reflexivity |]. split; [reflexivity |]. split; [reflexivity |]. split; [reflexivity |].
  split; [auto |]. split; [minmax; lra |]. split; [auto |]. split; [auto |].
  split.
  { unfold lo, seg_lo. destruct (Rlt_dec 0 (rot t)); [reflexivity | field; lra]. }
  cbn [s_coords].
  destruct (Req_dec (rot t) 0) as [Z | NZ].
  - pose proof (segment_coords_flat xc yc w cut (sl t) k) as C. cbv zeta in C.
    rewrite <- Z in C at 1. rewrite C. cbn [fst snd].
    assert (El : lo = w - (INR k + 1) * (w / INR cut)) by (unfold lo, seg_lo; rewrite Z; destruct (Rlt_dec 0 0); lra).
    assert (Eh : hi = w - INR k * (w / INR cut)) by (unfold hi, seg_hi; rewrite Z; destruct (Rlt_dec 0 0); lra).
    split; [| split].
    + right. unfold P. rewrite Z, !low_point_flat, El, Eh. apply f_equal2; apply f_equal; field; lra.
    + intros; contradiction.
    + intros _. split; [| reflexivity]. unfold s_length. cbn [s_coords]. rewrite C. cbn [fst snd].
      rewrite row_point_dist. rewrite Rminus_eq_0. apply Rabs_R0.
  - pose proof (segment_coords_nonflat xc yc w (rot t) cut (sl t) k Hw Hr NZ Hcut) as C. cbv zeta in C.
    rewrite C. cbn [fst snd]. fold lo hi.
    split; [| split].
    + destruct (Rlt_dec 0 (rot t)); auto.
    + intros _. split; [reflexivity |]. split; [reflexivity |]. rewrite SL by auto. rewrite (Rmin_comm hi). reflexivity.
    + intros; contradiction.
Qed.

Lemma fit_side_partition : forall p n f a t i row (is_back : bool),
  valid_params p -> fit p n f = Some a ->
  -180 < ft_rotation a t < 180 ->
  nth_error (ft_rows a) i = Some row ->
  let side := if is_back then row_back row else row_front row in
  let n_seg := pa_cut p i is_back in
  let P := point_from_low_edge (pa_width p) (pa_distance p) (pa_height p) (ft_rotation a t) i in
  length (side_segments side) = n_seg /\
  side_length side t = pa_width p /\
  (forall k seg, nth_error (side_segments side) k = Some seg ->
     exists il sh lo hi m,
       seg_illum seg = [il] /\ seg_shaded seg = [sh] /\
       s_shaded il = false /\ s_shaded sh = true /\
       0 <= lo /\ lo <= m <= hi /\ hi <= pa_width p /\ hi - lo = pa_width p / INR n_seg /\
       lo = (if Rlt_dec 0 (ft_rotation a t) then INR k else INR n_seg - 1 - INR k)
            * (pa_width p / INR n_seg) /\
       ((seg_coords seg t = Line (P lo) (P hi)) \/ (seg_coords seg t = Line (P hi) (P lo))) /\
       (ft_rotation a t <> 0 ->
          s_coords sh t = Line (P lo) (P m) /\ s_coords il t = Line (P m) (P hi) /\
          m = Rmax lo (Rmin hi (side_shaded_length side t))) /\
       (ft_rotation a t = 0 -> s_length sh t = 0 /\ s_coords il t = seg_coords seg t)).
Proof.
  intros p n f a t i row is_back Hv Hf Hr Hi.
  destruct (fit_rows_nth_error _ _ _ _ _ _ Hf Hi) as [Hlt E]. subst row.
  destruct (fit_spec _ _ _ _ Hf) as [_ [Er _]]. rewrite Er in *.
  pose proof (row_sl_bounds p f i t Hv) as [B1 B2].
  destruct Hv as [Hw [_ [_ Hc]]].
  destruct is_back.
  - rewrite fit_row_back. apply side_partition; auto.
  - rewrite fit_row_front. apply side_partition; auto.
Qed.

Lemma fit_outer_rows : forall p n f a t row0 rowN,
  valid_params p -> fit p n f = Some a ->
  -180 < ft_rotation a t < 180 -> ft_rotation a t <> 0 ->
  nth_error (ft_rows a) 0 = Some row0 ->
  nth_error (ft_rows a) (pa_n_pvrows p - 1) = Some rowN ->
  (0 < ft_rotation a t ->
     side_shaded_length (row_front row0) t = 0 /\ side_shaded_length (row_back rowN) t = 0) /\
  (ft_rotation a t < 0 ->
     side_shaded_length (row_back row0) t = 0 /\ side_shaded_length (row_front rowN) t = 0) /\
  (forall i row, (0 < i < pa_n_pvrows p - 1)%nat -> nth_error (ft_rows a) i = Some row ->
     (0 < ft_rotation a t ->
        side_shaded_length (row_front row) t = side_shaded_length (row_front rowN) t /\
        side_shaded_length (row_back row) t = side_shaded_length (row_back row0) t) /\
     (ft_rotation a t < 0 ->
        side_shaded_length (row_front row) t = side_shaded_length (row_front row0) t /\
        side_shaded_length (row_back row) t = side_shaded_length (row_back rowN) t)).
Proof.
  intros p n f a t row0 rowN Hv Hf Hr Hr0 H0 HN.
  destruct (fit_shaded_lengths_eq _ _ _ _ _ _ _ Hv Hf Hr Hr0 H0) as [F0 B0].
  destruct (fit_shaded_lengths_eq _ _ _ _ _ _ _ Hv Hf Hr Hr0 HN) as [FN BN].
  destruct (fit_spec _ _ _ _ Hf) as [_ [Er _]]. rewrite Er in *.
  rewrite F0, B0, FN, BN. clear F0 B0 FN BN.
  unfold row_sl, row_shaded_lengths. rewrite !Nat.eqb_refl.
  set (sl := fit_shading p (fit_alpha p f) (fit_rotation p f) t).
  destruct (Rltb_spec 0 (fit_rotation p f t)) as [Hp | Hp].
  - split; [| split].
    + intros _. cbn [np_where fst snd]. split; [reflexivity |].
      destruct (Nat.eqb_spec (pa_n_pvrows p - 1) 0) as [Z | Z]; cbn [np_where fst snd]; [| reflexivity].
      unfold sl, fit_shading. replace (pa_n_pvrows p) with 1%nat by (destruct Hv as [_ [_ [Hn _]]]; lia).
      rewrite interrow_shading_single. reflexivity.
    + intros; lra.
    + intros i row Hi Hrow.
      assert (Hr' : -180 < ft_rotation a t < 180) by (rewrite Er; auto).
      assert (Hr0' : ft_rotation a t <> 0) by (rewrite Er; auto).
      destruct (fit_shaded_lengths_eq _ _ _ _ _ _ _ Hv Hf Hr' Hr0' Hrow) as [F B]. rewrite F, B.
      unfold row_sl, row_shaded_lengths. fold sl.
      destruct (Nat.eqb_spec i 0); [lia |]. destruct (Nat.eqb_spec i (pa_n_pvrows p - 1)); [lia |].
      destruct (Nat.eqb_spec (pa_n_pvrows p - 1) 0); [lia |].
      cbn [np_where fst snd]. split; [auto | intros; lra].
  - assert (Hp' : fit_rotation p f t < 0) by lra.
    split; [intros; lra |]. split.
    + intros _. cbn [np_where fst snd]. split; [reflexivity |].
      destruct (Nat.eqb_spec (pa_n_pvrows p - 1) 0) as [Z | Z]; cbn [np_where fst snd]; [| reflexivity].
      unfold sl, fit_shading. replace (pa_n_pvrows p) with 1%nat by (destruct Hv as [_ [_ [Hn _]]]; lia).
      rewrite interrow_shading_single. reflexivity.
    + intros i row Hi Hrow.
      assert (Hr' : -180 < ft_rotation a t < 180) by (rewrite Er; auto).
      assert (Hr0' : ft_rotation a t <> 0) by (rewrite Er; auto).
      destruct (fit_shaded_lengths_eq _ _ _ _ _ _ _ Hv Hf Hr' Hr0' Hrow) as [F B]. rewrite F, B.
      unfold row_sl, row_shaded_lengths. fold sl.
      destruct (Nat.eqb_spec i 0); [lia |]. destruct (Nat.eqb_spec i (pa_n_pvrows p - 1)); [lia |].
      destruct (Nat.eqb_spec (pa_n_pvrows p - 1) 0); [lia |].
      cbn [np_where fst snd]. split; [intros; lra | auto].
Qed.

Lemma fit_row_ends : forall p n f a t i row,
  valid_params p -> fit p n f = Some a -> nth_error (ft_rows a) i = Some row ->
  let c := row_coords row t in
  px (b1 c) + px (b2 c) = 2 * (INR i * (pa_width p / pa_gcr p)) /\
  py (b1 c) + py (b2 c) = 2 * pa_height p /\
  px (b2 c) - px (b1 c) = pa_width p * cos (ft_rotation a t * PI / 180) /\
  py (b2 c) - py (b1 c) = pa_width p * sin (ft_rotation a t * PI / 180) /\
  line_length c = pa_width p /\
  length (ft_rows a) = pa_n_pvrows p /\
  (forall j row', nth_error (ft_rows a) j = Some row' ->
     let c' := row_coords row' t in
     let dx := (INR j - INR i) * (pa_width p / pa_gcr p) in
     px (b1 c') = px (b1 c) + dx /\ px (b2 c') = px (b2 c) + dx /\
     py (b1 c') = py (b1 c) /\ py (b2 c') = py (b2 c)).
Proof.
  intros p n f a t i row Hv Hf Hi c.
  destruct (fit_rows_nth_error _ _ _ _ _ _ Hf Hi) as [Hlt E]. subst row.
  destruct (fit_spec _ _ _ _ Hf) as [_ [Er [_ [Eq _]]]]. rewrite Er.
  unfold c. rewrite fit_row_coords. rewrite row_point_dist.
  unfold row_point. cbn [b1 b2 px py]. change (pa_width p / pa_gcr p) with (pa_distance p).
  assert (Hw : 0 < pa_width p) by apply Hv.
  split; [field |]. split; [field |]. split; [field |]. split; [field |].
  split; [rewrite Rabs_right; lra |]. split; [rewrite Eq; apply fit_rows_length |].
  intros j row' Hj. destruct (fit_rows_nth_error _ _ _ _ _ _ Hf Hj) as [Hltj E']. subst row'.
  rewrite fit_row_coords. unfold row_point. cbn [b1 b2 px py].
  split; [ring |]. split; [ring |]. split; reflexivity.
Qed.

Lemma rotation_turns_flip : forall sa aa tilt,
  (forall j k, get_rotation (sa + 360 * IZR j) (aa + 360 * IZR k) tilt = get_rotation sa aa tilt) /\
  Rabs (get_rotation sa aa tilt) = Rabs tilt /\
  ((forall k : Z, sa - aa <> 180 * IZR k) -> get_rotation (sa + 180) aa tilt = - get_rotation sa aa tilt).
Proof.
  intros sa aa tilt. split; [intros; apply rotation_turns |]. split; [apply rotation_abs |].
  intros H. destruct (py_mod_decomp (sa - aa) 360) as [k Hk].
  apply rotation_flip; intro E; rewrite E in Hk.
  - apply (H (2 * k)%Z). rewrite mult_IZR. lra.
  - apply (H (2 * k + 1)%Z). rewrite plus_IZR, mult_IZR. lra.
Qed.

Lemma sun_projection : forall zenith azimuth axis,
  let v := get_solar_2d_vector zenith azimuth axis in
  fst v = sin (zenith * PI / 180) * sin ((azimuth - axis) * PI / 180) /\
  snd v = cos (zenith * PI / 180) /\
  fst v * fst v + snd v * snd v <= 1 /\
  (-90 < zenith < 90 -> 0 < snd v) /\ (90 < zenith < 270 -> snd v < 0) /\
  (forall j k, get_solar_2d_vector zenith (azimuth + 360 * IZR j) (axis + 360 * IZR k) = v) /\
  get_solar_2d_vector zenith (2 * axis - azimuth) axis = (- fst v, snd v).
Proof.
  intros zenith azimuth axis v.
  assert (S : forall x, cosd (x - 90) = sin (x * PI / 180)).
  { intros x. unfold cosd, deg2rad. rewrite <- (cos_shift (x * PI / 180)). rewrite <- cos_neg. f_equal. field. }
  unfold v, get_solar_2d_vector. cbn [fst snd]. rewrite !S.
  split; [reflexivity |]. split; [reflexivity |]. split; [| split; [| split; [| split]]].
  - pose proof (sc_1 zenith). pose proof (SIN_bound ((azimuth - axis) * PI / 180)) as B.
    set (s := sin ((azimuth - axis) * PI / 180)) in *.
    assert (s * s <= 1) by nra. nra.
  - apply cosd_pos.
  - intros H. assert (E : cosd zenith = - cosd (zenith - 180)).
    { replace zenith with ((zenith - 180) + 180) at 1 by ring. apply cosd_180. }
    rewrite E. pose proof (cosd_pos (zenith - 180)). lra.
  - intros j k. f_equal. f_equal.
    rewrite S. replace ((azimuth + 360 * IZR j - (axis + 360 * IZR k)) * PI / 180)
      with ((azimuth - axis) * PI / 180 + 2 * IZR (j - k) * PI) by (rewrite minus_IZR; field).
    rewrite <- (cos_shift ((azimuth - axis) * PI / 180)), <- cos_shift.
    replace (PI / 2 - ((azimuth - axis) * PI / 180 + 2 * IZR (j - k) * PI))
      with (PI / 2 - (azimuth - axis) * PI / 180 + 2 * IZR (- (j - k)) * PI) by (rewrite opp_IZR; field).
    apply cos_turn.
  - f_equal. replace ((2 * axis - azimuth - axis) * PI / 180) with (- ((azimuth - axis) * PI / 180)) by field.
    rewrite sin_neg. ring.
Qed.

(** Mirror image of the whole scene (C48). *)

Lemma rotation_mirror : forall sa aa tilt, (forall k : Z, sa - aa <> 180 * IZR k) ->
  get_rotation (2 * aa - sa) aa tilt = - get_rotation sa aa tilt.
Proof.
  intros sa aa tilt H. destruct (py_mod_decomp (sa - aa) 360) as [k Hk].
  pose proof (py_mod_range (sa - aa) 360) as B.
  set (r := py_mod (sa - aa) 360) in *.
  assert (r <> 0). { intro E. apply (H (2 * k)%Z). rewrite mult_IZR. lra. }
  assert (r <> 180). { intro E. apply (H (2 * k + 1)%Z). rewrite plus_IZR, mult_IZR. lra. }
  assert (M : py_mod (2 * aa - sa - aa) 360 = 360 - r).
  { apply (py_mod_unique _ 360 (360 - r) (- k - 1)); [lra | lra |]. rewrite minus_IZR, opp_IZR. lra. }
  destruct (rotation_cases sa aa tilt) as [A1 A2].
  destruct (rotation_cases (2 * aa - sa) aa tilt) as [B1 B2].
  fold r in A1, A2. rewrite M in B1, B2.
  destruct (Rlt_dec 180 r).
  - rewrite A1, B2 by lra. reflexivity.
  - rewrite A2, B1 by lra. lra.
Qed.

Lemma sun_angle_mirror : forall z az axis al, sun_angle z az axis al ->
  sun_angle z (2 * axis - az) axis (PI - al).
Proof.
  intros z az axis al [Hr [k [Hk [H1 H2]]]]. split; [lra |]. exists k. split; [auto |].
  rewrite sin_PI_x, H2. split; [| reflexivity].
  replace ((2 * axis - az - axis) * PI / 180) with (- ((az - axis) * PI / 180)) by field.
  rewrite sin_neg. replace (cos (PI - al)) with (- cos al).
  - lra.
  - rewrite <- (cos_neg (PI - al)). replace (- (PI - al)) with (al - PI) by ring.
    rewrite cos_minus, cos_PI, sin_PI. ring.
Qed.

Lemma cos_PI_minus : forall al, cos (PI - al) = - cos al.
Proof. intros. rewrite cos_minus, cos_PI, sin_PI. ring. Qed.

Lemma rr_opp : forall r, rr (- r) = - rr r.
Proof. intros. apply deg2rad_opp. Qed.

Lemma S_mirror : forall al r, sin (PI - al - rr (- r)) = sin (al - rr r).
Proof. intros. rewrite rr_opp. replace (PI - al - - rr r) with (PI - (al - rr r)) by ring. apply sin_PI_x. Qed.

Lemma interrow_mirror : forall n d w al r, 0 < d -> 0 < w -> 0 < sin al -> sin (al - rr r) <> 0 ->
  interrow_shading n d w (PI - al) (- r) = interrow_shading n d w al r.
Proof.
  intros n d w al r Hd Hw Ha Hs.
  destruct (le_lt_dec n 1) as [Hn | Hn].
  - unfold interrow_shading. replace (Nat.ltb 1 n) with false; auto. symmetry. apply Nat.ltb_ge. auto.
  - destruct (interrow_shading_cases n d w al r Hn Hd Hw Ha Hs) as [_ [A B]].
    destruct (interrow_shading_cases n d w (PI - al) (- r) Hn Hd Hw) as [_ [A' B']];
      rewrite ?sin_PI_x, ?S_mirror in *; auto.
    destruct (Rlt_dec 0 (sin (al - rr r))); [rewrite A, A' | rewrite B, B']; auto; lra.
Qed.

Lemma row_point_mirror : forall m xc h r s,
  row_point (m - xc) h (- r) s = Pt (m - px (row_point xc h r (- s))) (py (row_point xc h r (- s))).
Proof.
  intros. unfold row_point. cbn [px py].
  replace (- r * PI / 180) with (- (r * PI / 180)) by field. rewrite cos_neg, sin_neg. f_equal; ring.
Qed.

Lemma fit_mirror : forall p n f f' a a' t al,
  valid_params p -> fit p n f = Some a -> fit p n f' = Some a' ->
  sun_angle (fi_zenith f t) (fi_azimuth f t) (pa_axis_azimuth p) al ->
  fi_zenith f' t = fi_zenith f t -> fi_azimuth f' t = 2 * pa_axis_azimuth p - fi_azimuth f t ->
  fi_tilt f' t = fi_tilt f t -> fi_surf_azimuth f' t = 2 * pa_axis_azimuth p - fi_surf_azimuth f t ->
  (forall k : Z, fi_surf_azimuth f t - pa_axis_azimuth p <> 180 * IZR k) ->
  -180 < ft_rotation a t < 180 ->
  sin (al - ft_rotation a t * PI / 180) <> 0 ->
  ft_rotation a' t = - ft_rotation a t /\
  sun_angle (fi_zenith f' t) (fi_azimuth f' t) (pa_axis_azimuth p) (PI - al) /\
  gnd_flag_overlap (ft_ground a') t = gnd_flag_overlap (ft_ground a) t /\
  forall i j row row' cut cut',
    (i + j + 1 = pa_n_pvrows p)%nat ->
    nth_error (ft_rows a) i = Some row -> nth_error (ft_rows a') j = Some row' ->
    nth_error (gnd_cut_points (ft_ground a)) i = Some cut ->
    nth_error (gnd_cut_points (ft_ground a')) j = Some cut' ->
    let mirror x := INR (pa_n_pvrows p - 1) * pa_distance p - x in
    let c := row_coords row t in let c' := row_coords row' t in
    b1 c' = Pt (mirror (px (b2 c))) (py (b2 c)) /\
    b2 c' = Pt (mirror (px (b1 c))) (py (b1 c)) /\
    (exists l r, shadow_coords c al 0 = (XFin l, XFin r) /\
                 shadow_coords c' (PI - al) 0 = (XFin (mirror r), XFin (mirror l))) /\
    (ft_rotation a t <> 0 ->
       side_shaded_length (row_front row') t = side_shaded_length (row_front row) t /\
       side_shaded_length (row_back row') t = side_shaded_length (row_back row) t /\
       exists x, cut t = XFin x /\ cut' t = XFin (mirror x)).
Proof.
  intros p n f f' a a' t al Hv Hf Hf' Hsun Ez Eaz Et Esa Hk Hr Hs.
  destruct (fit_spec _ _ _ _ Hf) as [_ [Er _]]. destruct (fit_spec _ _ _ _ Hf') as [_ [Er' _]].
  assert (RM : fit_rotation p f' t = - fit_rotation p f t).
  { unfold fit_rotation. rewrite Et, Esa. apply rotation_mirror. auto. }
  assert (Hsun' : sun_angle (fi_zenith f' t) (fi_azimuth f' t) (pa_axis_azimuth p) (PI - al)).
  { rewrite Ez, Eaz. apply sun_angle_mirror. auto. }
  pose proof (fit_alpha_sun_angle _ _ _ _ Hsun) as Ea.
  pose proof (fit_alpha_sun_angle _ _ _ _ Hsun') as Ea'.
  assert (Ha : 0 < sin al). { destruct Hsun as [Hq _]. apply sin_gt_0; lra. }
  pose proof (pa_distance_pos p Hv) as Hd.
  assert (Hw : 0 < pa_width p) by apply Hv.
  assert (SH : fit_shading p (fit_alpha p f') (fit_rotation p f') t = fit_shading p (fit_alpha p f) (fit_rotation p f) t).
  { unfold fit_shading. rewrite Ea, Ea', RM. apply interrow_mirror; auto. rewrite Er in Hs. exact Hs. }
  split; [rewrite Er, Er'; auto |]. split; [auto |]. split.
  { assert (EF : forall f a, fit p n f = Some a -> gnd_flag_overlap (ft_ground a) t =
      direct_shading_flag (fit_shading p (fit_alpha p f) (fit_rotation p f) t)).
    { intros g b Hg. pose proof (fit_ground_ordered _ _ _ _ Hg) as G.
      unfold ground_from_ordered_shadows in G. cbv zeta in G.
      destruct (illum_elements _ _ _); [| discriminate].
      apply (f_equal (fun o => match o with Some g => gnd_flag_overlap g t | None => false end)) in G.
      cbn [gnd_flag_overlap] in G. rewrite <- G. reflexivity. }
    rewrite (EF _ _ Hf), (EF _ _ Hf'), SH. reflexivity. }
  intros i j row row' cut cut' Hij Hrow Hrow' Hcut Hcut' mirror c c'.
  destruct (fit_rows_nth_error _ _ _ _ _ _ Hf Hrow) as [Li Ei].
  destruct (fit_rows_nth_error _ _ _ _ _ _ Hf' Hrow') as [Lj Ej].
  assert (XC : INR j * pa_distance p = INR (pa_n_pvrows p - 1) * pa_distance p - INR i * pa_distance p).
  { replace (pa_n_pvrows p - 1)%nat with (i + j)%nat by lia. rewrite plus_INR. ring. }
  assert (C1 : c = Line (row_point (INR i * pa_distance p) (pa_height p) (fit_rotation p f t) (- (pa_width p / 2)))
       (row_point (INR i * pa_distance p) (pa_height p) (fit_rotation p f t) (pa_width p / 2)))
    by (unfold c; rewrite Ei; apply fit_row_coords).
  assert (C2 : c' = Line (row_point (INR j * pa_distance p) (pa_height p) (- fit_rotation p f t) (- (pa_width p / 2)))
       (row_point (INR j * pa_distance p) (pa_height p) (- fit_rotation p f t) (pa_width p / 2)))
    by (unfold c'; rewrite Ej, fit_row_coords, RM; reflexivity).
  split; [| split; [| split]].
  - rewrite C1, C2. cbn [b1 b2]. rewrite XC, row_point_mirror, Ropp_involutive. reflexivity.
  - rewrite C1, C2. cbn [b1 b2]. rewrite XC, row_point_mirror. reflexivity.
  - rewrite C1, C2. eexists _, _. split; [apply shadow_coords_row; auto |].
    rewrite shadow_coords_row by (rewrite ?sin_PI_x; auto).
    unfold mirror, mid_shadow, half_shadow. rewrite S_mirror, sin_PI_x, cos_PI_minus, XC.
    f_equal; f_equal; field; lra.
  - intros Hr0.
    assert (Hr' : -180 < ft_rotation a' t < 180) by (rewrite Er', RM, <- Er; lra).
    assert (Hr0' : ft_rotation a' t <> 0) by (rewrite Er', RM, <- Er; lra).
    destruct (fit_shaded_lengths_eq _ _ _ _ _ _ _ Hv Hf Hr Hr0 Hrow) as [F B].
    destruct (fit_shaded_lengths_eq _ _ _ _ _ _ _ Hv Hf' Hr' Hr0' Hrow') as [F' B'].
    rewrite F, B, F', B'.
    assert (SLM : row_sl p f' j t = row_sl p f i t).
    { unfold row_sl. rewrite SH, RM. rewrite Er in Hr0.
      set (sl := fit_shading p (fit_alpha p f) (fit_rotation p f) t) in *.
      assert (N1 : pa_n_pvrows p = 1%nat -> sl = (0, 0)).
      { intros E. unfold sl, fit_shading. rewrite E. apply interrow_shading_single. }
      unfold row_shaded_lengths.
      destruct (Nat.eqb_spec i 0), (Nat.eqb_spec j 0), (Nat.eqb_spec i (pa_n_pvrows p - 1)),
        (Nat.eqb_spec j (pa_n_pvrows p - 1)); try lia;
      destruct (Rltb_spec 0 (fit_rotation p f t)), (Rltb_spec 0 (- fit_rotation p f t)); try lra;
      cbn [np_where]; try reflexivity; rewrite N1 by lia; reflexivity. }
    rewrite SLM. split; [reflexivity |]. split; [reflexivity |].
    assert (CE : forall f a i cut, fit p n f = Some a -> (i < pa_n_pvrows p)%nat ->
       nth_error (gnd_cut_points (ft_ground a)) i = Some cut ->
       -180 < fit_rotation p f t < 180 -> fit_rotation p f t <> 0 ->
       cut t = XFin (INR i * pa_distance p - pa_height p * cos (rr (fit_rotation p f t)) / sin (rr (fit_rotation p f t)))).
    { clear - Hv. intros f a i cut Hf Hi Hc Hr Hr0.
      pose proof (fit_ground_ordered _ _ _ _ Hf) as G.
      destruct (ground_from_ordered_spec _ _ _ _ _ G) as [_ [Ec _]].
      rewrite Ec, fit_rows_eq, !map_map, nth_error_map, nth_error_seq in Hc by auto.
      cbn [option_map Nat.add] in Hc.
      apply (f_equal (fun o => match o with Some k => k t | None => XNaN end)) in Hc.
      rewrite <- Hc, fit_row_coords. unfold cut_point, div_tan.
      change (deg2rad (fit_rotation p f t)) with (rr (fit_rotation p f t)).
      assert (S : sin (rr (fit_rotation p f t)) <> 0).
      { change (sin (rr (fit_rotation p f t))) with (sind (fit_rotation p f t)). destruct (Rlt_dec 0 (fit_rotation p f t)).
        - pose proof (sind_pos (fit_rotation p f t)). lra.
        - pose proof (sind_neg (fit_rotation p f t)). lra. }
      destruct (Req_EM_T (sin (rr (fit_rotation p f t))) 0); [contradiction |].
      cbn [xsub b1]. f_equal. unfold row_point, pa_y_ground. cbn [px py].
      change (fit_rotation p f t * PI / 180) with (rr (fit_rotation p f t)). field. auto. }
    rewrite Er in Hr, Hr0. rewrite Er' in Hr', Hr0'.
    eexists. split; [apply (CE f a i cut Hf Li Hcut Hr Hr0) |].
    rewrite (CE f' a' j cut' Hf' Lj Hcut' Hr' Hr0'), RM, rr_opp, sin_neg, cos_neg.
    unfold mirror. f_equal. rewrite XC.
    assert (S : sin (rr (fit_rotation p f t)) <> 0).
    { change (sin (rr (fit_rotation p f t))) with (sind (fit_rotation p f t)). destruct (Rlt_dec 0 (fit_rotation p f t)).
      - pose proof (sind_pos (fit_rotation p f t)). lra.
      - pose proof (sind_neg (fit_rotation p f t)). lra. }
    field. auto.
Qed.
