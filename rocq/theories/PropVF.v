(** Properties of the view factors: statements, with examples that meet the hypotheses.
    Proofs are in the Proof*.v files. *)
From Coq Require Import Reals List Bool Arith Lra Lia Permutation.
From Verif Require Import Num ModelTs ModelGeom ModelVF Basics SpecGeom SpecVF ProofGround ProofRow ProofAngles ProofFit ProofCut ProofIndex ProofGeom ProofGeom2 PropGeom ProofString ProofMatrix ProofTele ProofVF ProofVF2.
Import ListNotations.
Open Scope R_scope.

(** A fitted array seen at timestep [t]: sun above the horizon at the 2D angle [al], no
    shading shorter than the tolerance, rows above the ground, and flat rows that do
    not overlap each other. *)
Definition scene (p : pvarray_params) (n : nat) (f : fit_inputs) (a : fitted) (t : nat) (al : R) : Prop :=
  valid_params p /\ fit p n f = Some a /\
  sun_angle (fi_zenith f t) (fi_azimuth f t) (pa_axis_azimuth p) al /\
  ~ shading_sliver DISTANCE_TOLERANCE (pa_width p) (pa_distance p) al (ft_rotation a t) /\
  -180 < ft_rotation a t < 180 /\
  pa_width p / 2 * Rabs (sin (ft_rotation a t * PI / 180)) < pa_height p /\
  (ft_rotation a t = 0 -> pa_width p <= pa_distance p).

Lemma ex_scene : forall a, fit ex_p 2 ex_f = Some a ->
  scene ex_p 2 ex_f a 0 (PI / 4) /\ scene ex_p 2 ex_f a 1 (PI / 6).
Proof.
  intros a Ha. destruct (fit_spec _ _ _ _ Ha) as [_ [Er _]].
  assert (B : forall x, 2 / 2 * Rabs (sin x) < 3).
  { intro x. assert (Rabs (sin x) <= 1) by (apply Rabs_le; apply SIN_bound). lra. }
  split; (split; [apply ex_valid |]; split; [exact Ha |]; rewrite Er).
  - split; [apply ex_sun0 |]. split; [apply ex_nosliver0 |]. rewrite ex_rot0. split; [lra |].
    split; [apply B | intro; lra].
  - split; [apply ex_sun1 |]. split; [apply ex_nosliver1 |]. rewrite ex_rot1. split; [lra |].
    split; [apply B | intro; lra].
Qed.

(** In the example, at t = 1, row 1 has a shaded front surface of length 1/2 and an
    illuminated back surface of length 2, both above the tolerance. *)
Lemma ex_surfaces : forall a, fit ex_p 2 ex_f = Some a ->
  exists row x y, nth_error (ft_rows a) 1 = Some row /\
    In x (side_surfaces (row_front row)) /\ In y (side_surfaces (row_back row)) /\
    s_shaded x = true /\ s_shaded y = false /\
    s_length x 1%nat = 1 / 2 /\ s_length y 1%nat = 2 /\ DISTANCE_TOLERANCE < 1 / 2.
Proof.
  intros a Ha.
  set (row := fit_row ex_p (fit_alpha ex_p ex_f) (fit_rotation ex_p ex_f) 1).
  assert (Hrow : nth_error (ft_rows a) 1 = Some row).
  { rewrite (fit_rows_at _ _ _ _ Ha), fit_rows_eq. reflexivity. }
  destruct (C05_example a row Ha Hrow) as [H1 [H2 [H3 [HF HB]]]].
  assert (T : DISTANCE_TOLERANCE < 1 / 2) by (unfold DISTANCE_TOLERANCE; lra).
  destruct (C06_side_partition ex_p 2 ex_f a 1 1 row false ex_valid Ha H1 Hrow) as [NF [_ SF]].
  destruct (C06_side_partition ex_p 2 ex_f a 1 1 row true ex_valid Ha H1 Hrow) as [NB [_ SB]].
  cbn [pa_cut ex_p Nat.eqb negb andb] in NF, NB. cbv beta iota in SF, SB.
  assert (One : forall side, length (side_segments side) = 1%nat -> exists sg, side_segments side = [sg]).
  { intros side H. destruct (side_segments side) as [| sg [|]]; try discriminate. eauto. }
  destruct (One _ NF) as [sgf EF]. destruct (One _ NB) as [sgb EB].
  destruct (SF 0%nat sgf ltac:(rewrite EF; reflexivity)) as [il [x [lo [hi [m [E1 [E2 [E3 [E4 RF]]]]]]]]].
  destruct (SB 0%nat sgb ltac:(rewrite EB; reflexivity)) as [y [sh [lo' [hi' [m' [G1 [G2 [G3 [G4 RB]]]]]]]]].
  exists row, x, y. split; [exact Hrow |].
  assert (LX : s_length x 1%nat = 1 / 2).
  { unfold side_shaded_length in HF. rewrite EF in HF. cbn [map] in HF. rewrite E2 in HF.
    unfold coll_length in HF. cbn [map] in HF. rewrite !py_sum_rsum in HF. cbn [rsum] in HF. lra. }
  assert (LS : s_length sh 1%nat = 0).
  { unfold side_shaded_length in HB. rewrite EB in HB. cbn [map] in HB. rewrite G2 in HB.
    unfold coll_length in HB. cbn [map] in HB. rewrite !py_sum_rsum in HB. cbn [rsum] in HB. lra. }
  split; [unfold side_surfaces; rewrite EF; cbn [flat_map]; unfold seg_surfaces; rewrite E1, E2; cbn; auto |].
  split; [unfold side_surfaces; rewrite EB; cbn [flat_map]; unfold seg_surfaces; rewrite G1, G2; cbn; auto |].
  split; [auto |]. split; [auto |]. split; [auto |]. split; [| auto].
  destruct RB as [_ [_ [_ [Lw [Ll [_ [RB _]]]]]]]. destruct (RB H2) as [_ [Ey Em]].
  destruct (fit_spec _ _ _ _ Ha) as [_ [Er _]].
  assert (Rn : ft_rotation a 1%nat = -60) by (rewrite Er; apply ex_rot1).
  change (side_shaded_length (if true then row_back row else row_front row) 1%nat)
    with (side_shaded_length (row_back row) 1%nat) in Em.
  rewrite HB in Em. rewrite Rn in Ll. destruct (Rlt_dec 0 (-60)) in Ll; [lra |].
  cbn [pa_cut ex_p Nat.eqb negb andb pa_width INR] in Lw, Ll. unfold s_length. rewrite Ey, Em.
  assert (Z0 : lo' = 0) by lra. assert (Z2 : hi' = 2) by lra. clear Ll Lw. rewrite Z0, Z2.
  rewrite Rmax_left by (minmax; lra).
  transitivity (2 - 0); [| ring]. apply low_point_dist. lra.
Qed.

(* ------------------------------------------------------------------------ *)
(** C12. *)
Theorem C12_reciprocity : forall p n f a t x y,
  valid_params p -> fit p n f = Some a ->
  In x (all_ts_surfaces a) -> In y (all_ts_surfaces a) ->
  DISTANCE_TOLERANCE < s_length x t -> DISTANCE_TOLERANCE < s_length y t ->
  let F := build_vf_matrix a t in
  s_length x t * F (surf_index a x) (surf_index a y) =
  s_length y t * F (surf_index a y) (surf_index a x).
Proof. intros p n f a t x y V Fi. exact (reciprocity p n f a t V Fi x y). Qed.
Print Assumptions C12_reciprocity.

Example C12_example : forall a, fit ex_p 2 ex_f = Some a ->
  exists x y, In x (all_ts_surfaces a) /\ In y (all_ts_surfaces a) /\
    DISTANCE_TOLERANCE < s_length x 1%nat /\ DISTANCE_TOLERANCE < s_length y 1%nat /\
    s_length x 1%nat <> s_length y 1%nat.
Proof.
  intros a Ha. destruct (ex_surfaces a Ha) as [row [x [y [Hr [Hx [Hy [_ [_ [Lx [Ly T]]]]]]]]]].
  exists x, y. split; [exact (in_all_row a 1 row false x Hr Hx) |]. split; [exact (in_all_row a 1 row true y Hr Hy) |].
  rewrite Lx, Ly. repeat split; lra.
Qed.

(** C13. Column [n_ts_surfaces a] is the sky. *)
Theorem C13_closure : forall p n f a t x,
  valid_params p -> fit p n f = Some a -> In x (all_ts_surfaces a) ->
  let F := build_vf_matrix a t in
  let sky := n_ts_surfaces a in
  (DISTANCE_TOLERANCE < s_length x t ->
     sum_over (seq 0 (S sky)) (fun j => F (surf_index a x) j) = 1) /\
  (s_length x t <= DISTANCE_TOLERANCE -> forall j, F (surf_index a x) j = 0) /\
  F (surf_index a x) (surf_index a x) = 0 /\
  (forall j, F sky j = 0).
Proof. intros p n f a t x V Fi. exact (sums_to_one p n f a t V Fi x). Qed.
Print Assumptions C13_closure.

Example C13_example : forall a, fit ex_p 2 ex_f = Some a ->
  exists x, In x (all_ts_surfaces a) /\ DISTANCE_TOLERANCE < s_length x 1%nat /\ n_ts_surfaces a = 42%nat.
Proof.
  intros a Ha. destruct (C12_example a Ha) as [x [y [Hx [Hy [Lx [Ly _]]]]]]. exists x. split; auto. split; auto.
  apply C08_example. exact Ha.
Qed.

(** C14. Every entry, the sky column included. *)
Theorem C14_fractions : forall p n f a t al k j,
  scene p n f a t al -> 0 <= build_vf_matrix a t k j <= 1.
Proof. intros p n f a t al k j (V & Fi & SA & NS & HR & HG & HF). exact (entries_fraction p n f a t al V Fi SA NS HR HG HF k j). Qed.
Print Assumptions C14_fractions.

Example C14_example : exists a, scene ex_p 2 ex_f a 0 (PI / 4) /\ scene ex_p 2 ex_f a 1 (PI / 6).
Proof. destruct ex_fit as [a Ha]. exists a. apply ex_scene. exact Ha. Qed.

(** C15. [looks_at a t x y]: [x] is on a side of a row, and [y] is either ground on the
    side of the cut point of this row towards which [x] looks, or on the opposite side
    of the next row in this direction. *)
Theorem C15_visibility : forall p n f a t x y,
  valid_params p -> fit p n f = Some a ->
  In x (all_ts_surfaces a) -> In y (all_ts_surfaces a) ->
  build_vf_matrix a t (surf_index a x) (surf_index a y) <> 0 ->
  looks_at a t x y \/ looks_at a t y x.
Proof. exact visibility. Qed.
Print Assumptions C15_visibility.

(** Consequences: between surfaces of rows, and between ground surfaces. *)
Theorem C15_rows : forall p n f a t i j row row' (b c : bool) x y,
  valid_params p -> fit p n f = Some a ->
  nth_error (ft_rows a) i = Some row -> nth_error (ft_rows a) j = Some row' ->
  In x (side_surfaces (if b then row_back row else row_front row)) ->
  In y (side_surfaces (if c then row_back row' else row_front row')) ->
  build_vf_matrix a t (surf_index a x) (surf_index a y) <> 0 ->
  c = negb b /\ (if looks_left (ft_rotation a t) b then i = S j else j = S i).
Proof.
  intros p n f a t i j row row' b c x y V Fi Hr Hj Hx Hy H.
  pose proof (in_all_row a i row b x Hr Hx) as Ax. pose proof (in_all_row a j row' c y Hj Hy) as Ay.
  destruct (fit_side_ids p n f a i row b x V Fi Hr Hx) as [k [s I]].
  destruct (fit_side_ids p n f a j row' c y V Fi Hj Hy) as [k' [s' J]].
  assert (G : forall z i0 c0 k0 s0 l0 i1, In z (gnd_side_of_cut_point (ft_ground a) l0 i1) -> s_id z = SidRow i0 c0 k0 s0 -> (i1 < pa_n_pvrows p)%nat -> False).
  { intros z i0 c0 k0 s0 l0 i1 Hz Ez L1. pose proof (in_gnd_side p n f a i1 l0 z Fi L1 Hz) as Gz.
    destruct (fit_gnd_ids p n f a z V Fi Gz) as [[e [m E]] | [e [m E]]]; congruence. }
  assert (Lt : forall i0 row0, nth_error (ft_rows a) i0 = Some row0 -> (i0 < pa_n_pvrows p)%nat).
  { intros i0 row0 H0. eapply row_lt; eauto. }
  destruct (visibility p n f a t x y V Fi Ax Ay H) as [L | L];
    destruct L as [i0 [row0 [b0 [H0 [X0 [Y0 | [j0 [row1 [H1 [Y0 D]]]]]]]]]]; try (exfalso; eapply G; eauto; fail).
  - destruct (fit_side_ids p n f a i0 row0 b0 x V Fi H0 X0) as [k0 [s0 I0]].
    destruct (fit_side_ids p n f a j0 row1 (negb b0) y V Fi H1 ltac:(destruct b0; exact Y0)) as [k1 [s1 I1]].
    rewrite I in I0. injection I0 as E1 E2 E3 E4. rewrite J in I1. injection I1 as E5 E6 E7 E8. subst. auto.
  - destruct (fit_side_ids p n f a i0 row0 b0 y V Fi H0 X0) as [k0 [s0 I0]].
    destruct (fit_side_ids p n f a j0 row1 (negb b0) x V Fi H1 ltac:(destruct b0; exact Y0)) as [k1 [s1 I1]].
    rewrite J in I0. injection I0 as E1 E2 E3 E4. rewrite I in I1. injection I1 as E5 E6 E7 E8. subst.
    rewrite negb_involutive. split; [auto |]. unfold looks_left in *.
    destruct (Rlt_dec 0 (ft_rotation a t)); destruct b0; cbn [negb] in *; assumption.
Qed.
Print Assumptions C15_rows.

Theorem C15_ground : forall p n f a t x y,
  valid_params p -> fit p n f = Some a ->
  In x (gnd_surfaces (ft_ground a)) -> In y (gnd_surfaces (ft_ground a)) ->
  build_vf_matrix a t (surf_index a x) (surf_index a y) = 0.
Proof.
  intros p n f a t x y V Fi Hx Hy.
  rewrite (entry_pre p n f a t V Fi x y (in_all_gnd a y Hy)). apply (cell_gnd_gnd p n f a t V Fi x Hx y Hy).
Qed.
Print Assumptions C15_ground.

Theorem C15_row_ground : forall p n f a t i row (b left : bool) x y,
  valid_params p -> fit p n f = Some a ->
  nth_error (ft_rows a) i = Some row ->
  In x (side_surfaces (if b then row_back row else row_front row)) ->
  In y (gnd_side_of_cut_point (ft_ground a) left i) ->
  left <> looks_left (ft_rotation a t) b ->
  build_vf_matrix a t (surf_index a x) (surf_index a y) = 0 /\
  build_vf_matrix a t (surf_index a y) (surf_index a x) = 0.
Proof.
  intros p n f a t i row b left x y V Fi Hr Hx Hy Hl.
  assert (Li : (i < pa_n_pvrows p)%nat) by (eapply row_lt; eauto).
  pose proof (in_all_row a i row b x Hr Hx) as Ax.
  pose proof (in_gnd_side p n f a i left y Fi Li Hy) as Gy. pose proof (in_all_gnd a y Gy) as Ay.
  rewrite (entry_pre p n f a t V Fi x y Ay), (entry_pre p n f a t V Fi y x Ax).
  destruct (cell_pair p n f a t V Fi x y _ (gnd_pair_of a t i row b left x y Hr Hx Hy)) as [E1 E2].
  rewrite E1, E2.
  assert (Q : fst (vf_pvrow_surf_to_gnd_surf (ft_rows a) (Rltb 0 (ft_rotation a t)) i b left t x y) = 0 /\
              snd (vf_pvrow_surf_to_gnd_surf (ft_rows a) (Rltb 0 (ft_rotation a t)) i b left t x y) = 0).
  { rewrite looks_left_eq in Hl. unfold vf_pvrow_surf_to_gnd_surf. cbv zeta. cbn [fst snd].
    destruct (Rltb 0 (ft_rotation a t)), b, left; cbn [xorb negb np_where] in *; try congruence;
      (split; [reflexivity |]; unfold np_where; destruct (Rltb DISTANCE_TOLERANCE (s_length y t)); [unfold Rdiv; ring | reflexivity]). }
  destruct Q as [Q1 Q2]. rewrite Q1, Q2. destruct (is_empty _ x || is_empty _ y); auto.
Qed.
Print Assumptions C15_row_ground.

Example C15_example : forall a, fit ex_p 2 ex_f = Some a ->
  looks_left (ft_rotation a 1%nat) false = false /\ looks_left (ft_rotation a 1%nat) true = true.
Proof.
  intros a Ha. destruct (fit_spec _ _ _ _ Ha) as [_ [Er _]]. rewrite Er, ex_rot1. unfold looks_left.
  destruct (Rlt_dec 0 (-60)); [lra | auto].
Qed.

(** C16. With an obstruction (any position of the points, any ground height) and
    without (row above the ground, ground on one side of its line). *)
Theorem C16_additive_obstructed : forall high low o w left y lo hi l, contiguous lo hi l ->
  vf_hottel_gnd_surf high low (Pt lo y) (Pt hi y) o w left =
  sum_over l (fun i => vf_hottel_gnd_surf high low (Pt (fst i) y) (Pt (snd i) y) o w left).
Proof. exact hottel_additive. Qed.
Print Assumptions C16_additive_obstructed.

Theorem C16_additive_free : forall left P Q c w lo hi l, contiguous lo hi l -> 0 < py P <= py Q ->
  (c = Line P Q \/ c = Line Q P) -> ground_on_side left P Q lo hi ->
  vf_surface_to_surface c (Line (Pt lo 0) (Pt hi 0)) w =
  sum_over l (fun i => vf_surface_to_surface c (Line (Pt (fst i) 0) (Pt (snd i) 0)) w).
Proof. exact free_additive. Qed.
Print Assumptions C16_additive_free.

Example C16_example :
  contiguous (-100) (-1) [(-100, -7); (-7, -7); (-7, -2); (-2, -1)] /\
  ground_on_side true (Pt (-1 / 2) 2) (Pt (1 / 2) 3) (-100) (-3) /\
  ~ ground_on_side true (Pt (-1 / 2) 2) (Pt (1 / 2) 3) (-100) (-1).
Proof.
  split; [repeat constructor; lra |]. unfold ground_on_side, turn. cbn [px py]. split; lra.
Qed.

(** C49. Entries are Hottel's crossed strings values: [lo] and [hi] locate the surface
    on its row, as distances to the lower edge. *)
Theorem C49_row_to_ground : forall p n f a t al i row (b : bool) x y (left : bool),
  scene p n f a t al -> (t < n)%nat ->
  nth_error (ft_rows a) i = Some row ->
  In x (side_surfaces (if b then row_back row else row_front row)) ->
  In y (gnd_side_of_cut_point (ft_ground a) left i) ->
  DISTANCE_TOLERANCE < s_length x t -> DISTANCE_TOLERANCE < s_length y t ->
  let P i e := point_from_low_edge (pa_width p) (pa_distance p) (pa_height p) (ft_rotation a t) i e in
  exists lo hi, is_piece_of_row p a t i x lo hi /\
    build_vf_matrix a t (surf_index a x) (surf_index a y) =
      if Bool.eqb left (looks_left (ft_rotation a t) b)
      then hottel_ground left (neighbour_edge p a t left i) (P i lo) (P i hi)
             (b1 (s_coords y t)) (b2 (s_coords y t))
      else 0.
Proof.
  intros p n f a t al i row b x y left (V & Fi & SA & NS & HR & HG & HF) Ht Hr Hx Hy Lx Ly.
  exact (hottel_row_ground p n f a t al V Fi SA NS HR HG i row b x y left Ht Hr Hx Hy Lx Ly).
Qed.
Print Assumptions C49_row_to_ground.

Theorem C49_row_to_row : forall p n f a t al i j row rowj (b c : bool) x y,
  scene p n f a t al -> (t < n)%nat ->
  nth_error (ft_rows a) i = Some row -> nth_error (ft_rows a) j = Some rowj ->
  In x (side_surfaces (if b then row_back row else row_front row)) ->
  In y (side_surfaces (if c then row_back rowj else row_front rowj)) ->
  DISTANCE_TOLERANCE < s_length x t -> DISTANCE_TOLERANCE < s_length y t ->
  let P i e := point_from_low_edge (pa_width p) (pa_distance p) (pa_height p) (ft_rotation a t) i e in
  let facing := c = negb b /\ (if looks_left (ft_rotation a t) b then i = S j else j = S i) in
  exists lo hi lo' hi', is_piece_of_row p a t i x lo hi /\ is_piece_of_row p a t j y lo' hi' /\
    (facing /\ build_vf_matrix a t (surf_index a x) (surf_index a y) =
       hottel_rows (P i lo) (P i hi) (P j lo') (P j hi') \/
     ~ facing /\ build_vf_matrix a t (surf_index a x) (surf_index a y) = 0).
Proof.
  intros p n f a t al i j row rowj b c x y (V & Fi & SA & NS & HR & HG & HF) Ht Hr Hj Hx Hy Lx Ly.
  exact (hottel_row_row p n f a t al V Fi HR HF i j row rowj b c x y Ht Hr Hj Hx Hy Lx Ly).
Qed.
Print Assumptions C49_row_to_row.

(** In the example, at t = 1: from the shaded part of the front of row 1 to the whole
    back of row 2. *)
Example C49_example :
  let P i e := point_from_low_edge 2 3 3 (-60) i e in
  hottel_rows (P 1%nat 0) (P 1%nat (1 / 2)) (P 2%nat 0) (P 2%nat 2) =
  sqrt 7 + sqrt (43 / 4) - 3 - sqrt (27 / 4) /\
  0 < sqrt 7 + sqrt (43 / 4) - 3 - sqrt (27 / 4) < 1.
Proof.
  assert (S3 : sin (-60 * PI / 180) = - (sqrt 3 / 2)).
  { replace (-60 * PI / 180) with (- (PI / 3)) by field. rewrite sin_neg, sin_PI3. reflexivity. }
  assert (C3 : cos (-60 * PI / 180) = 1 / 2).
  { replace (-60 * PI / 180) with (- (PI / 3)) by field. rewrite cos_neg, cos_PI3. reflexivity. }
  assert (Q : sqrt 3 * sqrt 3 = 3) by (apply sqrt_sqrt; lra).
  assert (D : forall i j e e', euclid (point_from_low_edge 2 3 3 (-60) i e) (point_from_low_edge 2 3 3 (-60) j e') =
     sqrt ((3 * (INR i - INR j) + (e' - e) / 2) * (3 * (INR i - INR j) + (e' - e) / 2) + 3 / 4 * ((e' - e) * (e' - e)))).
  { intros. unfold euclid, dist2, point_from_low_edge, row_point. destruct (Rlt_dec 0 (-60)); [lra |].
    rewrite S3, C3. cbn [px py]. f_equal.
    transitivity ((3 * (INR i - INR j) + (e' - e) / 2) * (3 * (INR i - INR j) + (e' - e) / 2) + (sqrt 3 * sqrt 3) / 4 * ((e' - e) * (e' - e))).
    - field. - rewrite Q. reflexivity. }
  split.
  - unfold hottel_rows. rewrite !D. cbn [INR].
    match goal with |- (sqrt ?A + sqrt ?B - sqrt ?C - sqrt ?E) / (2 * sqrt ?G) = _ =>
      replace A with 7 by field; replace B with (43 / 4) by field; replace C with (3 * 3) by field;
      replace E with (27 / 4) by field; replace G with (1 / 2 * (1 / 2)) by field end.
    rewrite !sqrt_square by lra. field.
  - assert (B : forall x lo hi, 0 <= lo -> 0 <= hi -> lo * lo < x -> x < hi * hi -> lo < sqrt x < hi).
    { intros x lo hi Hl Hh H1 H2. split.
      - rewrite <- (sqrt_square lo) by lra. assert (0 <= lo * lo) by (apply Rmult_le_pos; lra). apply sqrt_lt_1; lra.
      - rewrite <- (sqrt_square hi) by lra. assert (0 <= lo * lo) by (apply Rmult_le_pos; lra). apply sqrt_lt_1; lra. }
    pose proof (B 7 2.6 2.7 ltac:(lra) ltac:(lra) ltac:(lra) ltac:(lra)).
    pose proof (B (43 / 4) 3.2 3.3 ltac:(lra) ltac:(lra) ltac:(lra) ltac:(lra)).
    pose proof (B (27 / 4) 2.5 2.6 ltac:(lra) ltac:(lra) ltac:(lra) ltac:(lra)).
    lra.
Qed.
