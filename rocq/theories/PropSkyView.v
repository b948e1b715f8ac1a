(** The view factors from the sides of the rows to the sky, against those of the textbook. *)
From Coq Require Import Reals List Bool Arith Lra Lia.
From Coquelicot Require Import Coquelicot.
From Verif Require Import Num ModelTs ModelGeom ModelVF Basics SpecGeom SpecVF SpecSight ProofSight ProofSkyView ProofGround ProofShade ProofRow ProofAngles ProofString ProofFit ProofGeom ProofGeom2
  ProofCut ProofTele ProofMatrix ProofVF ProofVF2 ProofEnds ProofFast PropGeom PropVF PropFast ProofOpen PropOpen PropSight.
Import ListNotations.
Open Scope R_scope.

Lemma sky_opaque : forall p n f a t al x nx v, scene p n f a t al ->
  let r := ft_rotation a t in let w := pa_width p in let ux := up_x r in let uy := up_y r in
  sky_factor (Op (pa_n_pvrows p) (- (w / 2) * ux) (pa_height p - w / 2 * uy) ux uy (pa_distance p) w) x nx v ->
  sky_factor (opaque_array p a t) x nx v.
Proof.
  intros p n f a t al x nx v SC r w ux uy (F & A & B). exists F. split; [|exact B]. intros s S. destruct (A s S) as (s1 & s2 & H1 & H2 & H3 & H4).
  exists s1, s2. split; [exact H1|]. split; [exact H2|]. split; [|exact H4]. intros th TH N1 N2. rewrite <- (H3 th TH N1 N2).
  unfold sees_sky. split; intros [I1 I2]; (split; [exact I1|]); intros r' R Z; apply (I2 r' R); apply (opaque_eq p a t); exact Z.
Qed.

Lemma either_end : forall (T : line -> Prop) l A B, (l = Line A B \/ l = Line B A) -> T (Line A B) -> (forall l', T l' -> T (flip l')) -> T l.
Proof. intros T l A B [-> | ->] H Fl; [exact H | exact (Fl _ H)]. Qed.

(** C86: the view factor from a surface of a side to the sky is at least the one of the
    textbook, the mean over the points of the surface of half of the integral of the cosine over
    the directions in which neither a row nor the ground plane lies, and exceeds it by no more
    than half the tangent of the angle under which the end of the modelled ground is seen. It is
    equal to it where a row hides this end. *)
Theorem C86_sky : forall p n f a t al i row b x A B c d,
  sky_case p n f a t al i row b x A B c -> no_slivers_at n a t -> -100 <= c <= 100 ->
  let left := looks_left (ft_rotation a t) b in
  0 < d -> d <= Rabs (px (ground_end left) - px A) -> d <= Rabs (px (ground_end left) - px B) ->
  Rabs (px A) <= 100 -> Rabs (px B) <= 100 ->
  let sky := build_vf_matrix a t (surf_index a x) (n_ts_surfaces a) in
  exists v, sky_factor (opaque_array p a t) (s_coords x t) (side_normal (ft_rotation a t) b) v /\
    v <= sky <= v + py B / (2 * d) /\
    (neighbour_edge p a t left i = None -> v = seen_above_horizon b (ft_rotation a t) /\ v < sky) /\
    (neighbour_edge p a t left i <> None -> end_hidden p a t i left A -> sky = v).
Proof.
  intros p n f a t al i row b x A B c d SKC NSl Bc left D0 DA DB XA XB sky.
  pose proof SKC as SKC'. open_case SKC'. assert (SC : scene p n f a t al) by apply SKC.
  destruct (facts p n f a t al SC) as (F1 & F2 & F3 & F4 & F5 & F6 & F7).
  destruct (open_ends p n f a t V Fi HR HG i row b x Hr Hx Lx A B c HAB Hy Hc) as (lo & hi & L0 & Hw & Lh & Nz & U & EA & EB & _ & _ & El & _).
  destruct (open_length t x Lx A B HAB) as [Le L1]. rewrite El in Le.
  unfold ProofVF.uy in U.
  assert (Hi : (i < pa_n_pvrows p)%nat) by exact (row_lt p n f a Fi _ _ Hr).
  rewrite (RP_point p a t) in EA, EB. rewrite (PQ p a t) in EA, EB.
  set (r := ft_rotation a t) in *. set (w := pa_width p) in *. set (ux := up_x r) in *. set (uy := up_y r) in *. set (D := pa_distance p) in *.
  set (X0 := - (w / 2) * ux) in *. set (Y0 := pa_height p - w / 2 * uy) in *.
  set (k := dirn left). assert (K : k = 1 \/ k = -1) by apply dirn_cases.
  set (g := px (ground_end left)). assert (G : ground_end left = Pt g 0) by reflexivity.
  assert (GK : g = k * 100) by (unfold g, k, ground_end; case left; cbn; ring).
  assert (DA' : d <= k * (g - px A)).
  { fold g in DA. rewrite GK in *. destruct K as [-> | ->]; revert DA XA; unfold Rabs; repeat destruct Rcase_abs; intros; lra. }
  assert (DB' : d <= k * (g - px B)).
  { fold g in DB. rewrite GK in *. destruct K as [-> | ->]; revert DB XB; unfold Rabs; repeat destruct Rcase_abs; intros; lra. }
  assert (UP : 0 <= py B - 0 <= py B).
  { rewrite EB. unfold Pr. cbn [py]. assert (0 < hi * uy) by (apply Rmult_lt_0_compat; lra). lra. }
  assert (SH : seen_above_horizon b r = (1 - k * ux) / 2).
  { pose proof (side_normal_dirn r b) as SN. fold left k uy ux in SN. unfold side_normal in SN. apply (f_equal snd) in SN. unfold seen_above_horizon. destruct b; cbn [snd] in SN; lra. }
  assert (STR : euclid B (Pt g 0) - euclid A (Pt g 0) + (hi - lo) * (k * ux) <= (hi - lo) * (py B / d) ->
     seen_above A B (Pt g 0) <= (1 - k * ux) / 2 + py B / (2 * d)).
  { intros H. unfold seen_above. rewrite Le. apply (Rmult_le_reg_r (2 * (hi - lo))); [lra|].
    replace ((hi - lo + euclid B (Pt g 0) - euclid A (Pt g 0)) / (2 * (hi - lo)) * (2 * (hi - lo))) with (hi - lo + euclid B (Pt g 0) - euclid A (Pt g 0)) by (field; lra).
    replace (((1 - k * ux) / 2 + py B / (2 * d)) * (2 * (hi - lo))) with ((hi - lo) - (hi - lo) * (k * ux) + (hi - lo) * (py B / d)) by (field; lra). lra. }
  assert (NX := PropSight.neighbour_next p n a t (proj1 NSl) left i Hi). fold r w ux uy D X0 Y0 in NX.
  destruct (neighbour_edge p a t left i) as [o|] eqn:NE.
  - destruct NX as (i' & Hi' & Ei' & Eo). fold k in Ei'.
    assert (J : if left then i = Datatypes.S i' else i' = Datatypes.S i).
    { unfold k in Ei'. clear -Ei'. destruct left; cbn [dirn] in Ei'; apply INR_eq; rewrite S_INR; lra. }
    destruct (C75_gap p n f a t al i row b x A B c o i' SKC NSl Bc NE J) as [UN SK]. fold sky r left in SK. fold r left in UN.
    rewrite (PQ p a t) in SK. fold r w ux uy D X0 Y0 in SK. set (T := Pr X0 Y0 ux uy D i' w) in *.
    exists (seen_above A B T).
    assert (TXT : sky_factor (opaque_array p a t) (s_coords x t) (side_normal r b) (seen_above A B T)).
    { apply (sky_opaque p n f a t al); [exact SC|]. fold r w ux uy D X0 Y0. rewrite side_normal_dirn. fold left ux uy.
      apply (either_end (fun l => sky_factor _ l _ _) _ A B HAB); [|intros l'; apply sky_flip].
      unfold seen_above. rewrite EA, EB. apply sky_next; auto; lra. }
    split; [exact TXT|].
    assert (U0 : 0 <= (taut_string left (Some o) B (ground_end left) - taut_string left (Some o) A (ground_end left) - (euclid B o - euclid A o)) / 2 / euclid A B).
    { apply Rmult_le_pos; [exact UN | left; apply Rinv_0_lt_compat; exact L1]. }
    split; [split; [rewrite SK; lra|]|split; [discriminate|]].
    + rewrite SK. apply Rplus_le_compat_l. rewrite G in *.
      assert (PB : 0 <= py B / (2 * d)) by (apply Rmult_le_pos; [lra | left; apply Rinv_0_lt_compat; lra]).
      destruct (Rle_dec 0 (if left then turn (Pt g 0) o A else turn (Pt g 0) A o)) as [HH|HH].
      * pose proof (open_hidden p n f a t V Fi HR HG i row b x Hr Hx Lx A B c HAB Hy Hc o NE HH) as Z. fold r left in Z. fold g in Z. change (if left then -100 else 100) with g in Z.
        rewrite Z. unfold Rdiv. rewrite !Rmult_0_l. exact PB.
      * rewrite EA, EB, Eo in *. pose proof (gap_bound X0 Y0 ux uy D F1 U F3 F4 left i i' lo hi g d (py (Pr X0 Y0 ux uy D i hi)) ltac:(lra) Ei' D0 DA' DB' ltac:(lra) HH) as Q.
        rewrite Le. apply (Rmult_le_reg_r (2 * (hi - lo))); [lra|].
        match goal with |- ?z / 2 / (hi - lo) * _ <= ?y / _ * _ => replace (z / 2 / (hi - lo) * (2 * (hi - lo))) with z by (field; lra); replace (y / (2 * d) * (2 * (hi - lo))) with ((hi - lo) * (y / d)) by (field; lra) end.
        exact Q.
    + intros _ HH. pose proof (C75_between p n f a t al i row b x A B c o SKC NSl Bc NE (HH o NE)) as [Q _]. fold sky r left in Q.
      rewrite (Q i' J), (PQ p a t). reflexivity.
  - destruct (C75_edge p n f a t al i row b x A B c SKC NSl Bc NE) as [SK LT]. fold sky r left in SK, LT.
    exists ((1 - k * ux) / 2).
    assert (TXT : sky_factor (opaque_array p a t) (s_coords x t) (side_normal r b) ((1 - k * ux) / 2)).
    { apply (sky_opaque p n f a t al); [exact SC|]. fold r w ux uy D X0 Y0. rewrite side_normal_dirn. fold left ux uy.
      apply (either_end (fun l => sky_factor _ l _ _) _ A B HAB); [|intros l'; apply sky_flip].
      rewrite EA, EB. apply sky_none; auto; lra. }
    split; [exact TXT|]. rewrite SH in *. split; [split; [lra|]|split; [auto | congruence]].
    rewrite SK, G. apply STR. rewrite EA, EB. rewrite EB in DB', UP.
    apply (string_slope X0 Y0 ux uy D F3 k i lo hi (Pt g 0) d); auto.
Qed.
Print Assumptions C86_sky.

(** C86: where a row hides the end of the ground, the number is the one of the textbook and no
    other. *)
Theorem C86_exact : forall p n f a t al i row b x A B c v,
  sky_case p n f a t al i row b x A B c -> no_slivers_at n a t -> -100 <= c <= 100 ->
  let left := looks_left (ft_rotation a t) b in
  Rabs (px A) < 100 -> Rabs (px B) < 100 ->
  neighbour_edge p a t left i <> None -> end_hidden p a t i left A ->
  (sky_factor (opaque_array p a t) (s_coords x t) (side_normal (ft_rotation a t) b) v <->
   v = build_vf_matrix a t (surf_index a x) (n_ts_surfaces a)).
Proof.
  intros p n f a t al i row b x A B c v SKC NSl Bc left XA XB NE HH.
  assert (E : forall z, Rabs (px z) < 100 -> 0 < Rabs (px (ground_end left) - px z)).
  { intros z Z. unfold ground_end. revert Z. case left; cbn [px]; unfold Rabs; repeat destruct Rcase_abs; intros; lra. }
  destruct (C86_sky p n f a t al i row b x A B c (Rmin (Rabs (px (ground_end left) - px A)) (Rabs (px (ground_end left) - px B))) SKC NSl Bc) as (v0 & T & _ & _ & Q).
  - apply Rmin_glb_lt; apply E; assumption.
  - apply Rmin_l.
  - apply Rmin_r.
  - lra.
  - lra.
  - rewrite (Q NE HH). split; [intro H; exact (sky_factor_unique _ _ _ _ _ H T) | intros ->; exact T].
Qed.
Print Assumptions C86_exact.

(** The definition on a known case: a point of a wall that stands on the ground plane, with
    nothing before it, sees a half. *)
Example C86_wall : sky_from_point (fun z => py z <= 0) (Pt 0 1) (1, 0) (1 / 2).
Proof.
  pose proof (sky_wedge (fun z => py z <= 0) (Pt 0 1) 1 0 1 1 0) as W.
  replace (1 * 1, - (1) * 0) with (1, 0) in W by (f_equal; ring). replace (1 / 2) with ((1 - (0 * 1 + 1 * 0)) / 2) by field.
  apply W; try lra. intros th TH. pose proof (sin_gt_0 th ltac:(lra) ltac:(lra)) as SP. unfold sees_sky. cbn [fst snd px py]. split.
  - intros [A _]. lra.
  - intros [A _]. split; [lra|]. intros r R. assert (0 < r * sin th) by (apply Rmult_lt_0_compat; lra). lra.
Qed.

(** In the example of C75: the back of row 0 sees more sky than in the textbook, by at most
    2/99, and the upper half of the back of row 1 as much. *)
Example C86_example : forall a, fit fx_p 2 ex_f = Some a ->
  exists row0 x A B row1 y A' B',
    sky_case fx_p 2 ex_f a 1 (PI / 6) 0 row0 true x A B (sqrt 3) /\
    sky_case fx_p 2 ex_f a 1 (PI / 6) 1 row1 true y A' B' (3 + sqrt 3) /\ no_slivers_at 2 a 1 /\
    (let sky := build_vf_matrix a 1 (surf_index a x) (n_ts_surfaces a) in 1 / 4 < sky <= 1 / 4 + 2 / 99) /\
    (forall v, sky_factor (opaque_array fx_p a 1) (s_coords y 1%nat) (side_normal (-60) true) v <->
      v = build_vf_matrix a 1 (surf_index a y) (n_ts_surfaces a)).
Proof.
  intros a Ha. pose proof sqrt3 as S3. pose proof (fx_rot a Ha) as R1.
  assert (LL : looks_left (-60) true = true) by (unfold looks_left; destruct (Rlt_dec 0 (-60)); [lra | reflexivity]).
  assert (NSl : no_slivers_at 2 a 1) by (split; [lia | exact (fx_no_slivers a Ha)]).
  destruct (fx_piece a 0 true 0 Ha ltac:(lia) ltac:(cbn; lia)) as (row0 & x & m & _ & M & C0).
  destruct (fx_piece a 1 true 0 Ha ltac:(lia) ltac:(cbn; lia)) as (row1 & y & m' & _ & M' & C1).
  replace (INR 0 * 3 + sqrt 3) with (sqrt 3) in C0 by (cbn [INR]; ring). replace (INR 1 * 3 + sqrt 3) with (3 + sqrt 3) in C1 by (cbn [INR]; ring).
  change (INR (pa_cut fx_p 1 true)) with 2 in *. change (INR (pa_cut fx_p 0 true)) with 1 in *. change (INR 0) with 0 in *.
  assert (M1 : m' = 1) by (revert M'; minmax; lra). assert (M0 : 0 <= m <= 1 / 2) by (revert M; minmax; lra). clear M M'.
  do 8 eexists. split; [exact C0 |]. split; [exact C1 |]. split; [exact NSl|]. split.
  - pose proof (C86_sky _ _ _ _ _ _ _ _ _ _ _ _ _ 99 C0 NSl ltac:(lra)) as K. cbv zeta in K. rewrite R1, LL in K.
    rewrite !fx_point in K. cbn [px py ground_end INR] in K. destruct K as (v & _ & [_ K1] & K2 & _).
    + lra.
    + unfold Rabs. destruct Rcase_abs; lra.
    + unfold Rabs. destruct Rcase_abs; lra.
    + unfold Rabs. destruct Rcase_abs; lra.
    + unfold Rabs. destruct Rcase_abs; lra.
    + destruct (K2 eq_refl) as [K3 K4].
      assert (HZ : seen_above_horizon true (-60) = 1 / 4).
      { unfold seen_above_horizon. replace (-60 * PI / 180) with (- (PI / 3)) by field. rewrite cos_neg, cos_PI3. field. }
      rewrite HZ in K3. subst v. split; [exact K4|]. eapply Rle_trans; [exact K1|]. apply Rplus_le_compat_l. apply (Rmult_le_reg_r 198); lra.
  - intro v. pose proof (C86_exact _ _ _ _ _ _ _ _ _ _ _ _ _ v C1 NSl ltac:(lra)) as K. cbv zeta in K. rewrite R1, LL in K. apply K.
    + rewrite fx_point. cbn [px INR]. unfold Rabs. destruct Rcase_abs; lra.
    + rewrite fx_point. cbn [px INR]. unfold Rabs. destruct Rcase_abs; lra.
    + discriminate.
    + apply (fx_end_hidden a m' Ha); lra.
Qed.
