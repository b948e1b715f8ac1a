(** The fitted array: rows, shadows, ground (C01, C03, C04, C08). *)
From Coq Require Import Reals List Bool Arith Lra Lia Psatz Permutation.
From Verif Require Import Num ModelTs ModelGeom Basics SpecGeom ProofGround ProofShade ProofRow ProofAngles.
Import ListNotations.
Open Scope R_scope.

(** Physically meaningful parameters. *)
Definition valid_params (p : pvarray_params) : Prop :=
  0 < pa_width p /\ 0 < pa_gcr p /\ (0 < pa_n_pvrows p)%nat /\ (forall i b, (0 < pa_cut p i b)%nat).

Lemma pa_distance_pos : forall p, valid_params p -> 0 < pa_distance p.
Proof. intros p [H1 [H2 _]]. unfold pa_distance. apply Rdiv_lt_0_compat; auto. Qed.

Lemma fit_spec : forall p n f a, fit p n f = Some a ->
  ft_n_states a = n /\ ft_rotation a = fit_rotation p f /\ ft_width a = pa_width p /\
  ft_rows a = fit_rows p (fit_alpha p f) (fit_rotation p f) /\
  ground_from_pvrows (map row_coords (ft_rows a)) (fit_alpha p f) (fit_rotation p f) pa_y_ground
    (fun t => direct_shading_flag (fit_shading p (fit_alpha p f) (fit_rotation p f) t)) = Some (ft_ground a).
Proof.
  intros p n f a H. unfold fit in H. cbv zeta in H.
  destruct (ground_from_pvrows _ _ _ _ _) eqn:E in H; [| discriminate].
  inversion H; subst; simpl. auto 6.
Qed.

Lemma fit_total : forall p n f, (0 < pa_n_pvrows p)%nat -> exists a, fit p n f = Some a.
Proof.
  intros p n f H. unfold fit. cbv zeta. unfold ground_from_pvrows, ground_from_ordered_shadows.
  unfold illum_elements, shadow_elements.
  destruct (pa_n_pvrows p) eqn:E; [lia |].
  unfold fit_rows. rewrite E. cbn [seq map].
  destruct (map (fun idx : nat => _) (seq 1 n0)) as [| r0 rs]; cbn [map fix_overlaps length seq combine];
    eexists; reflexivity.
Qed.

Lemma fit_none : forall p n f, pa_n_pvrows p = 0%nat -> fit p n f = None.
Proof.
  intros p n f E. unfold fit, fit_rows. rewrite E. reflexivity.
Qed.

(** Rows of the fitted array. *)
Definition fit_row (p : pvarray_params) (al rotation : ts R) (idx : nat) : ts_pvrow :=
  let rs t := row_shaded_lengths (pa_n_pvrows p) idx (rotation t) (fit_shading p al rotation t) in
  pvrow_from_raw_inputs idx (fst (row_center p idx)) (snd (row_center p idx))
    (pa_width p) rotation (pa_cut p idx false) (pa_cut p idx true)
    (fun t => fst (rs t)) (fun t => snd (rs t)).

Lemma fit_rows_eq : forall p al rot, fit_rows p al rot = map (fit_row p al rot) (seq 0 (pa_n_pvrows p)).
Proof. reflexivity. Qed.

Lemma fit_rows_length : forall p al rot, length (fit_rows p al rot) = pa_n_pvrows p.
Proof. intros. rewrite fit_rows_eq, map_length, seq_length. reflexivity. Qed.

Lemma fit_rows_nth : forall p al rot i d, (i < pa_n_pvrows p)%nat ->
  nth i (fit_rows p al rot) d = fit_row p al rot i.
Proof.
  intros. rewrite fit_rows_eq. rewrite (nth_indep _ d (fit_row p al rot 0%nat)).
  - rewrite map_nth. rewrite seq_nth by auto. reflexivity.
  - rewrite map_length, seq_length. auto.
Qed.

Lemma fit_row_coords : forall p al rot i t,
  row_coords (fit_row p al rot i) t =
  Line (row_point (INR i * pa_distance p) (pa_height p) (rot t) (- (pa_width p / 2)))
       (row_point (INR i * pa_distance p) (pa_height p) (rot t) (pa_width p / 2)).
Proof.
  intros. unfold fit_row, pvrow_from_raw_inputs. cbn [row_coords].
  rewrite full_coords_points. unfold row_center, X_ORIGIN_PVROWS, pa_y_ground. cbn [fst snd].
  rewrite Rplus_0_l, Rplus_0_r. reflexivity.
Qed.

(* ------------------------------------------------------- sun above horizon *)

Lemma fit_alpha_sin : forall p f t, 0 < cosd (fi_zenith f t) -> 0 < sin (fit_alpha p f t).
Proof.
  intros p f t H. unfold fit_alpha, get_solar_2d_vector. cbn [fst snd].
  rewrite sin_atan2 by (right; lra).
  apply Rdiv_lt_0_compat; [auto | apply hyp_pos; right; lra].
Qed.

Lemma fit_alpha_range : forall p f t, 0 < cosd (fi_zenith f t) -> 0 < fit_alpha p f t < PI.
Proof.
  intros p f t H. unfold fit_alpha, get_solar_2d_vector. cbn [fst snd].
  apply atan2_range. auto.
Qed.

(* ------------------------------------------------------- shadows *)

(** Half length of a row shadow and position of the middle of the shadow of the
    first row. *)
Definition half_shadow (w r al : R) : R := w / 2 * Rabs (sin (al - rr r)) / sin al.
Definition mid_shadow (h al : R) : R := - (h * cos al / sin al).

Lemma shadow_coords_row : forall xc h w r al, 0 < sin al -> 0 < w ->
  shadow_coords (Line (row_point xc h r (- (w / 2))) (row_point xc h r (w / 2))) al 0 =
  (XFin (xc + mid_shadow h al - half_shadow w r al), XFin (xc + mid_shadow h al + half_shadow w r al)).
Proof.
  intros xc h w r al Ha Hw. unfold shadow_coords, div_tan. cbn [b1 b2].
  destruct (Req_EM_T (sin al) 0) as [E | E]; [lra |].
  cbn [xsub xleb]. unfold row_point. cbn [px py].
  change (r * PI / 180) with (rr r).
  assert (E1 : xc + - (w / 2) * cos (rr r) - (h + - (w / 2) * sin (rr r) - 0) * cos al / sin al
             = xc + mid_shadow h al - w / 2 * sin (al - rr r) / sin al).
  { rewrite sin_minus. unfold mid_shadow. field. lra. }
  assert (E2 : xc + w / 2 * cos (rr r) - (h + w / 2 * sin (rr r) - 0) * cos al / sin al
             = xc + mid_shadow h al + w / 2 * sin (al - rr r) / sin al).
  { rewrite sin_minus. unfold mid_shadow. field. lra. }
  rewrite E1, E2. unfold half_shadow.
  destruct (Rle_dec 0 (sin (al - rr r))) as [P | N].
  - rewrite (Rabs_right (sin (al - rr r))) by lra.
    assert (0 <= w / 2 * sin (al - rr r) / sin al).
    { apply Rmult_le_pos; [nra | apply Rlt_le, Rinv_0_lt_compat; auto]. }
    rewrite (proj2 (Rleb_true _ _)) by lra. reflexivity.
  - rewrite (Rabs_left (sin (al - rr r))) by lra.
    assert (w / 2 * sin (al - rr r) / sin al < 0).
    { assert (0 < w / 2 * - sin (al - rr r) / sin al).
      { apply Rdiv_lt_0_compat; [nra | auto]. }
      replace (w / 2 * sin (al - rr r) / sin al) with (- (w / 2 * - sin (al - rr r) / sin al)) by (field; lra).
      lra. }
    rewrite (proj2 (Rleb_false _ _)) by lra. cbn [np_where].
    replace (w / 2 * - sin (al - rr r) / sin al) with (- (w / 2 * sin (al - rr r) / sin al)) by (field; lra).
    f_equal; f_equal; ring.
Qed.

Lemma half_shadow_nonneg : forall w r al, 0 < w -> 0 < sin al -> 0 <= half_shadow w r al.
Proof.
  intros. unfold half_shadow. apply Rmult_le_pos.
  - pose proof (Rabs_pos (sin (al - rr r))). nra.
  - apply Rlt_le, Rinv_0_lt_compat; auto.
Qed.

(* ------------------------------------------------------- C04 *)

Lemma shaded_iff_overlap : forall n d w r al,
  (1 < n)%nat -> 0 < d -> 0 < w -> 0 < sin al -> sin (al - rr r) <> 0 ->
  let sl := interrow_shading n d w al r in
  ((0 < fst sl \/ 0 < snd sl) <-> d < 2 * half_shadow w r al).
Proof.
  intros n d w r al Hn Hd Hw Ha Hs sl.
  destruct (interrow_shading_cases n d w al r Hn Hd Hw Ha Hs) as [Hk [HF HB]].
  set (k := d * sin al / Rabs (sin (al - rr r))) in *.
  assert (HA : 0 < Rabs (sin (al - rr r))) by (apply Rabs_pos_lt; auto).
  assert (E : d < 2 * half_shadow w r al <-> k < w).
  { unfold half_shadow, k. set (S := Rabs (sin (al - rr r))) in *.
    replace (2 * (w / 2 * S / sin al)) with (w * S / sin al) by (field; lra).
    split; intros.
    - apply (Rmult_lt_reg_r (S / sin al)); [apply Rdiv_lt_0_compat; auto |].
      replace (d * sin al / S * (S / sin al)) with d by (field; lra).
      replace (w * (S / sin al)) with (w * S / sin al) by (field; lra). auto.
    - apply (Rmult_lt_reg_r (sin al / S)); [apply Rdiv_lt_0_compat; auto |].
      replace (w * S / sin al * (sin al / S)) with w by (field; lra).
      replace (d * (sin al / S)) with (d * sin al / S) by (field; lra). auto. }
  rewrite E. unfold sl.
  destruct (Rlt_dec 0 (sin (al - rr r))).
  - rewrite HF by auto. cbn [fst snd]. unfold Rmax. destruct (Rle_dec 0 (w - k)); split; intros; try lra.
  - rewrite HB by lra. cbn [fst snd]. unfold Rmax. destruct (Rle_dec 0 (w - k)); split; intros; try lra.
Qed.

(** Shadows that degenerate to a point (sun in the plane of the rows). *)
Lemma half_shadow_zero : forall w r al, sin (al - rr r) = 0 -> half_shadow w r al = 0.
Proof. intros. unfold half_shadow. rewrite H, Rabs_R0. unfold Rdiv. ring. Qed.

(* ------------------------------------------------------- C01 *)

(** Raw shadows ordered left to right, or overlapping and flagged. *)
Inductive raw_ordered (t : nat) (flag : bool) : list (ts (xr * xr)) -> Prop :=
| raw_nil : raw_ordered t flag []
| raw_one : forall a, xle (fst (a t)) (snd (a t)) -> raw_ordered t flag [a]
| raw_cons : forall a b l,
    xle (fst (a t)) (snd (a t)) -> xle (fst (a t)) (fst (b t)) ->
    (flag = false -> xle (snd (a t)) (fst (b t))) ->
    raw_ordered t flag (b :: l) -> raw_ordered t flag (a :: b :: l).

Lemma fix_overlaps_ordered : forall y t flag l, raw_ordered t (flag t) l ->
  forall x, match l with [] => x <= MAX_X_GROUND | a :: _ => x <= ck (fst (a t)) end ->
  ordered_from t x (map (fun s t => clip_shadow y (s t)) (fix_overlaps flag l)).
Proof.
  intros y t flag l H. induction H; intros x Hx.
  - apply ordered_nil. auto.
  - simpl. apply ordered_cons; unfold clip_shadow; simpl.
    + exact Hx.
    + apply xclip_mono. auto.
    + apply ordered_nil. apply (ck_bounds (snd (a t))).
  - change (fix_overlaps flag (a :: b :: l)) with
      ((fun t => (fst (a t), np_where (flag t) (fst (b t)) (snd (a t)))) :: fix_overlaps flag (b :: l)).
    cbn [map]. apply ordered_cons; unfold clip_shadow; cbn [b1 b2 px py fst snd].
    + exact Hx.
    + apply xclip_mono. destruct (flag t); cbn [np_where]; auto.
    + apply IHraw_ordered. destruct (flag t) eqn:F; cbn [np_where].
      * unfold ck. lra.
      * apply xclip_mono. auto.
Qed.

Lemma ground_from_ordered_spec : forall y flag shadows cuts g,
  ground_from_ordered_shadows y flag shadows cuts = Some g ->
  gnd_y g = y /\ gnd_cut_points g = cuts /\
  gnd_shadows g = shadow_elements y (fix_overlaps flag shadows) cuts /\
  map el_coords (gnd_shadows g) = map (fun s t => clip_shadow y (s t)) (fix_overlaps flag shadows) /\
  illum_elements y (gnd_shadows g) cuts = Some (gnd_illum g) /\
  map el_coords (gnd_illum g) =
    illum_coords y (fun _ => MIN_X_GROUND) (map el_coords (gnd_shadows g)).
Proof.
  intros y flag shadows cuts g H. unfold ground_from_ordered_shadows in H. cbv zeta in H.
  destruct (illum_elements y _ cuts) eqn:E; [| discriminate].
  inversion H; subst; cbn [gnd_y gnd_cut_points gnd_shadows gnd_illum].
  split; [auto |]. split; [auto |]. split; [auto |].
  split; [apply map_el_coords_shadows |]. split; [auto |].
  unfold illum_elements in E. destruct (shadow_elements _ _ _) eqn:E2; [discriminate |].
  assert (E' := f_equal (fun o => match o with Some x => x | None => [] end) E).
  cbv beta iota zeta in E'. rewrite <- E'. rewrite map_map.
  erewrite map_ext; [| intros; apply el_coords_make].
  rewrite (map_snd_enum _ _ (fun x : ts line => x)). apply map_id.
Qed.

(** Tiling, for any list of shadows that are ordered or flagged. *)
Lemma ground_tiles : forall y flag shadows cuts g t,
  ground_from_ordered_shadows y flag shadows cuts = Some g ->
  raw_ordered t (flag t) shadows ->
  contiguous MIN_X_GROUND MAX_X_GROUND
    (interleave (map (fun e => x_extent (el_coords e t)) (gnd_illum g))
                (map (fun e => x_extent (el_coords e t)) (gnd_shadows g))).
Proof.
  intros y flag shadows cuts g t Hg Ho.
  destruct (ground_from_ordered_spec _ _ _ _ _ Hg) as [Ey [Ec [Es [Es2 [Ei1 Ei]]]]].
  rewrite <- (map_map el_coords (fun l : ts line => x_extent (l t)) (gnd_illum g)).
  rewrite <- (map_map el_coords (fun l : ts line => x_extent (l t)) (gnd_shadows g)).
  rewrite Ei. change MIN_X_GROUND with ((fun _ : nat => MIN_X_GROUND) t) at 1.
  apply illum_tiles. rewrite Es2. apply fix_overlaps_ordered; auto.
  destruct shadows; [gb; lra | apply (ck_bounds (fst (t0 t)))].
Qed.

Lemma ground_length_200 : forall y flag shadows cuts g t,
  ground_from_ordered_shadows y flag shadows cuts = Some g ->
  raw_ordered t (flag t) shadows ->
  gnd_length g t = 200.
Proof.
  intros y flag shadows cuts g t Hg Ho.
  pose proof (ground_tiles _ _ _ _ _ _ Hg Ho) as T.
  destruct (ground_from_ordered_spec _ _ _ _ _ Hg) as [Ey [Ec [Es [Es2 [Ei1 Ei]]]]].
  pose proof (contiguous_total _ _ _ T) as L. rewrite interleave_total in L.
  pose proof (contiguous_inside _ _ _ T) as I.
  unfold gnd_length. rewrite py_sum_rsum, map_app, rsum_app.
  assert (Ys : forall c, In c (map el_coords (gnd_shadows g)) ->
     py (b1 (c t)) = y /\ py (b2 (c t)) = y /\ px (b1 (c t)) <= px (b2 (c t))).
  { intros c Hc. pose proof Hc as Hc'. rewrite Es2 in Hc. apply in_map_iff in Hc.
    destruct Hc as [s [E _]]. subst c. simpl. split; [auto |]. split; [auto |].
    apply (I (xclip (fst (s t)) MIN_X_GROUND MAX_X_GROUND) (xclip (snd (s t)) MIN_X_GROUND MAX_X_GROUND)).
    apply interleave_in. right.
    apply in_map_iff in Hc'. destruct Hc' as [e [E He]].
    apply in_map_iff. exists e. rewrite E. auto. }
  assert (Yi : forall c, In c (map el_coords (gnd_illum g)) ->
     py (b1 (c t)) = y /\ py (b2 (c t)) = y /\ px (b1 (c t)) <= px (b2 (c t))).
  { intros c Hc. pose proof Hc as Hc'. rewrite Ei in Hc.
    destruct (illum_coords_y y t _ _ _ Hc) as [Y1 Y2].
    split; [auto |]. split; [auto |].
    apply (I (px (b1 (c t))) (px (b2 (c t)))).
    apply interleave_in. left.
    apply in_map_iff in Hc'. destruct Hc' as [e [E He]].
    apply in_map_iff. exists e. rewrite E. auto. }
  assert (M : forall (B : Type) (F : line -> B) l,
     map (fun e => F (el_coords e t)) l = map (fun c : ts line => F (c t)) (map el_coords l)).
  { intros. rewrite map_map. reflexivity. }
  rewrite (M R line_length (gnd_shadows g)), (M R line_length (gnd_illum g)).
  rewrite (M _ x_extent (gnd_shadows g)), (M _ x_extent (gnd_illum g)) in L.
  pose proof (rsum_lengths t y _ Ys) as Q1. pose proof (rsum_lengths t y _ Yi) as Q2.
  unfold ts in *. rewrite Q1, Q2.
  gb. lra.
Qed.

(** Shaded lengths are either exactly zero or above the tolerance. *)
Definition no_sliver (sl : R * R) : Prop :=
  (fst sl = 0 \/ DISTANCE_TOLERANCE < fst sl) /\ (snd sl = 0 \/ DISTANCE_TOLERANCE < snd sl).

Lemma fit_raw_ordered : forall p al rot t,
  valid_params p -> 0 < sin (al t) ->
  no_sliver (fit_shading p al rot t) ->
  raw_ordered t (direct_shading_flag (fit_shading p al rot t))
    (map (fun c t => shadow_coords (c t) (al t) pa_y_ground) (map row_coords (fit_rows p al rot))).
Proof.
  intros p al rot t Hv Ha Hns.
  pose proof (pa_distance_pos p Hv) as Hd. destruct Hv as [Hw [Hg [Hn _]]].
  rewrite fit_rows_eq, !map_map.
  set (d := pa_distance p) in *. set (w := pa_width p) in *. set (h := pa_height p) in *.
  set (flag := direct_shading_flag (fit_shading p al rot t)) in *.
  set (B := half_shadow w (rot t) (al t)). set (A := mid_shadow h (al t)).
  assert (HB : 0 <= B) by (apply half_shadow_nonneg; auto).
  assert (SH : forall i, shadow_coords (row_coords (fit_row p al rot i) t) (al t) pa_y_ground =
     (XFin (INR i * d + A - B), XFin (INR i * d + A + B))).
  { intros i. rewrite fit_row_coords. apply shadow_coords_row; auto. }
  assert (OV : (1 < pa_n_pvrows p)%nat -> flag = false -> 2 * B <= d).
  { intros Hn1 F. destruct (Req_dec (sin (al t - rr (rot t))) 0) as [Z | Z].
    - unfold B. rewrite half_shadow_zero by auto. lra.
    - apply Rnot_lt_le. intro C. unfold B in C.
      apply (shaded_iff_overlap (pa_n_pvrows p) d w (rot t) (al t)) in C; auto.
      unfold flag, direct_shading_flag in F. apply orb_false_iff in F. destruct F as [F1 F2].
      apply Rltb_false in F1. apply Rltb_false in F2.
      destruct Hns as [N1 N2].
      unfold fit_shading in F1, F2, N1, N2. fold d w in F1, F2, N1, N2. lra. }
  assert (G : forall m s, ((0 < s)%nat \/ True) -> (s + m <= pa_n_pvrows p)%nat ->
    raw_ordered t flag (map (fun x t0 => shadow_coords (row_coords (fit_row p al rot x) t0) (al t0) pa_y_ground) (seq s m))).
  { induction m; intros s _ Hs; [apply raw_nil |].
    destruct m.
    - cbn [seq map]. apply raw_one. cbv beta. rewrite SH. cbn [fst snd xle]. lra.
    - cbn [seq map]. apply raw_cons.
      + cbv beta. rewrite SH. cbn [fst snd xle]. lra.
      + cbv beta. rewrite !SH. cbn [fst snd xle]. rewrite S_INR. lra.
      + intros F. cbv beta. rewrite !SH. cbn [fst snd xle]. rewrite S_INR.
        assert (2 * B <= d) by (apply OV; [lia | auto]). lra.
      + apply (IHm (S s)); [auto | lia]. }
  apply G; [auto | lia].
Qed.
