(** What a module surface sees of the sky, in closed form. *)
From Coq Require Import Reals List Bool Arith Lra Lia.
From Verif Require Import Num Basics ModelTs ModelGeom ModelVF SpecGeom SpecVF ProofGround ProofShade ProofRow ProofAngles ProofString ProofFit ProofGeom ProofGeom2 ProofCut ProofTele ProofIndex ProofMatrix ProofVF ProofVF2 ProofFast.
Import ListNotations.
Open Scope R_scope.

(* ---------------------------------------------------------------- plane geometry *)

Definition mix (lam : R) (C B : pt) : pt :=
  Pt (px C + lam * (px B - px C)) (py C + lam * (py B - py C)).

Lemma dist_scaled : forall P Q lam, 0 <= lam -> distance P (mix lam P Q) = lam * distance P Q.
Proof.
  intros P Q lam H. unfold distance, mix. cbn [px py].
  replace ((py P + lam * (py Q - py P) - py P) ^ 2 + (px P + lam * (px Q - px P) - px P) ^ 2)
    with (lam ^ 2 * ((py Q - py P) ^ 2 + (px Q - px P) ^ 2)) by ring.
  rewrite sqrt_mult; [| apply pow2_ge_0 | pose proof (pow2_ge_0 (px Q - px P)); pose proof (pow2_ge_0 (py Q - py P)); lra].
  f_equal. replace (lam ^ 2) with (lam * lam) by ring. apply sqrt_square. exact H.
Qed.

(** The distance from a point is convex along a line. *)
Lemma dist_convex : forall T C B lam, 0 <= lam <= 1 ->
  distance T (mix lam C B) <= (1 - lam) * distance T C + lam * distance T B.
Proof.
  intros T C B lam H. pose proof (dist_tri T (mix lam T B) (mix lam C B)) as Tr.
  rewrite dist_scaled in Tr by lra.
  assert (E : distance (mix lam T B) (mix lam C B) = (1 - lam) * distance T C).
  { rewrite <- (dist_scaled T C (1 - lam)) by lra. unfold distance, mix. cbn [px py]. f_equal. ring. }
  rewrite E in Tr. lra.
Qed.

Lemma dist_above : forall T B s, (s = 1 \/ s = -1) -> py B <> py T -> s * (px B - px T) < distance T B.
Proof.
  intros T B s S H. unfold distance.
  assert (Y : 0 < (py B - py T) ^ 2) by (replace ((py B - py T) ^ 2) with (Rsqr (py B - py T)) by (unfold Rsqr; ring); apply Rsqr_pos_lt; lra).
  apply Rle_lt_trans with (sqrt ((px B - px T) ^ 2)).
  - replace ((px B - px T) ^ 2) with (Rsqr (px B - px T)) by (unfold Rsqr; ring). rewrite sqrt_Rsqr_abs.
    destruct S as [-> | ->]; [pose proof (RRle_abs (px B - px T)); lra |].
    pose proof (RRle_abs (- (px B - px T))). rewrite Rabs_Ropp in H0. lra.
  - apply sqrt_lt_1; pose proof (pow2_ge_0 (px B - px T)); lra.
Qed.

Lemma dist_level : forall T C s, (s = 1 \/ s = -1) -> py C = py T -> 0 <= s * (px C - px T) ->
  distance T C = s * (px C - px T).
Proof.
  intros T C s S Y H. unfold distance. rewrite Y.
  replace ((py T - py T) ^ 2 + (px C - px T) ^ 2) with (Rsqr (s * (px C - px T))).
  - apply sqrt_Rsqr. exact H.
  - destruct S as [-> | ->]; unfold Rsqr; ring.
Qed.

(** On a line through a point [C] at the height of [T], the distance from [T] grows faster
    than the distance along the horizon, on both sides of [C]. *)
Lemma cone : forall T C B lam s, (s = 1 \/ s = -1) -> py C = py T -> 0 <= s * (px C - px T) ->
  0 <= lam < 1 -> py B <> py C ->
  distance T (mix lam C B) - s * px (mix lam C B) < distance T B - s * px B.
Proof.
  intros T C B lam s S Y H L N. pose proof (dist_convex T C B lam ltac:(lra)) as K.
  rewrite (dist_level T C s S Y H) in K. pose proof (dist_above T B s S ltac:(lra)) as A.
  assert ((1 - lam) * (s * (px B - px T)) < (1 - lam) * distance T B) by (apply Rmult_lt_compat_l; lra).
  unfold mix at 2. cbn [px]. nra.
Qed.

(** Slopes of the distance from a point grow along a line. *)
Lemma slopes : forall T O ux uy a b c d, let L e := Pt (px O + e * ux) (py O + e * uy) in
  a < b -> b <= c -> c < d ->
  (distance T (L b) - distance T (L a)) / (b - a) <= (distance T (L d) - distance T (L c)) / (d - c).
Proof.
  intros T O ux uy a b c d L Hab Hbc Hcd.
  assert (K : forall u v w, u <= v -> v <= w -> u < w ->
     distance T (L v) * (w - u) <= (w - v) * distance T (L u) + (v - u) * distance T (L w)).
  { intros u v w H1 H2 H3. set (lam := (v - u) / (w - u)).
    assert (L0 : 0 <= lam <= 1).
    { unfold lam. split; [apply Rmult_le_pos; [lra | left; apply Rinv_0_lt_compat; lra] |].
      apply (Rmult_le_reg_r (w - u)); [lra |]. unfold Rdiv. rewrite Rmult_assoc, Rinv_l by lra. lra. }
    pose proof (dist_convex T (L u) (L w) lam L0) as Q.
    assert (E : mix lam (L u) (L w) = L v).
    { unfold mix, L. cbn [px py]. f_equal; unfold lam; field; lra. }
    rewrite E in Q. apply (Rmult_le_compat_r (w - u)) in Q; [| lra].
    replace (((1 - lam) * distance T (L u) + lam * distance T (L w)) * (w - u))
      with ((w - v) * distance T (L u) + (v - u) * distance T (L w)) in Q by (unfold lam; field; lra).
    exact Q. }
  pose proof (K a b d ltac:(lra) ltac:(lra) ltac:(lra)) as K1. pose proof (K b c d ltac:(lra) ltac:(lra) ltac:(lra)) as K2.
  set (ga := distance T (L a)) in *. set (gb := distance T (L b)) in *. set (gc := distance T (L c)) in *. set (gd := distance T (L d)) in *.
  apply Rle_trans with ((gd - gb) / (d - b)).
  - apply (Rmult_le_reg_r (b - a)); [lra |]. replace ((gb - ga) / (b - a) * (b - a)) with (gb - ga) by (field; lra).
    apply (Rmult_le_reg_r (d - b)); [lra |]. replace ((gd - gb) / (d - b) * (b - a) * (d - b)) with ((gd - gb) * (b - a)) by (field; lra).
    nra.
  - apply (Rmult_le_reg_r (d - b)); [lra |]. replace ((gd - gb) / (d - b) * (d - b)) with (gd - gb) by (field; lra).
    apply (Rmult_le_reg_r (d - c)); [lra |]. replace ((gd - gc) / (d - c) * (d - b) * (d - c)) with ((gd - gc) * (d - b)) by (field; lra).
    nra.
Qed.

(* --------------------------------------------------------------------- one surface *)
Section Open.
Variables (p : pvarray_params) (n : nat) (f : fit_inputs) (a : fitted) (t : nat) (al : R).
Hypothesis V : valid_params p.
Hypothesis F : fit p n f = Some a.
Hypothesis SA : sun_angle (fi_zenith f t) (fi_azimuth f t) (pa_axis_azimuth p) al.
Hypothesis NS : ~ shading_sliver DISTANCE_TOLERANCE (pa_width p) (pa_distance p) al (ft_rotation a t).
Hypothesis HR : -180 < ft_rotation a t < 180.
Hypothesis HG : pa_width p / 2 * Rabs (sin (ft_rotation a t * PI / 180)) < pa_height p.
Hypothesis HF : ft_rotation a t = 0 -> pa_width p <= pa_distance p.

Variables (i : nat) (row : ts_pvrow) (b : bool) (x : ts_surface).
Hypothesis Hr : nth_error (ft_rows a) i = Some row.
Hypothesis Hx : In x (side_surfaces (side_of b row)).
Hypothesis Lx : DISTANCE_TOLERANCE < s_length x t.

Let left := looks_left (ft_rotation a t) b.
Let fx := if left then -100 else 100.
Let sky := build_vf_matrix a t (surf_index a x) (n_ts_surfaces a).

Lemma open_row : (i < pa_n_pvrows p)%nat.
Proof. exact (row_lt p n f a F i row Hr). Qed.

Lemma open_cell : sky = 1 - rsum (map (fun y => pre_sky a t (surf_index a x) (surf_index a y)) (all_ts_surfaces a)).
Proof.
  pose proof (in_all_row _ i row b x Hr Hx) as Ax. destruct (surf_index_lt _ _ _ _ V F x Ax) as [_ Hnth].
  unfold sky. rewrite (vf_sky_cell a t _ x Hnth), (proj2 (Rltb_true _ _) Lx).
  rewrite (isum_surfaces _ _ _ _ V F (fun j => pre_sky a t (surf_index a x) j)). reflexivity.
Qed.

Lemma open_sum : (t < n)%nat -> no_slivers a t ->
  s_length x t * sky = s_length x t -
    ((xphi p a t left i x (cutx p f t i) - xphi p a t left i x fx) / 2 +
     (if is_edge p left i then 0
      else (xchi t x (Lp p a t (next left i)) - xchi t x (RP p a t (next left i) (pa_width p))) / 2)).
Proof.
  intros Ht NSl. rewrite open_cell.
  pose proof (all_sum_exact p n f a t al V F SA NS HR HG HF i row b x Ht NSl Hr Hx) as Q. cbv zeta in Q.
  rewrite <- looks_left_eq in Q. fold left in Q. destruct ground_bounds as [B1 B2]. rewrite B1, B2 in Q. fold fx in Q.
  rewrite Rmult_minus_distr_l, Rmult_1_r, Q. reflexivity.
Qed.

Lemma open_off : cutx p f t i = fx -> is_edge p left i = true -> sky = 1.
Proof.
  intros C Eg. rewrite open_cell. pose proof DISTANCE_TOLERANCE_pos as T0.
  pose proof (row_sum_bound p n f a t al V F SA NS HR HG HF i row b x Hr Hx Lx) as Q. cbv zeta in Q.
  rewrite <- looks_left_eq in Q. fold left in Q. rewrite (xpiece_sum p n f a t al V F SA NS HR HG i left x open_row), Eg in Q.
  destruct ground_bounds as [B1 B2]. rewrite B1, B2, C in Q.
  assert (Z : (if left then xphi p a t left i x fx - xphi p a t left i x (-100) else xphi p a t left i x fx - xphi p a t left i x 100) = 0).
  { unfold fx. case left; ring. }
  rewrite Z in Q.
  assert (P0 : 0 <= rsum (map (fun y => pre_sky a t (surf_index a x) (surf_index a y)) (all_ts_surfaces a))).
  { apply rsum_nonneg. intros z Hz. apply in_map_iff in Hz. destruct Hz as [y [<- _]].
    apply (cells_nonneg p n f a t al V F SA NS HR HG HF). }
  assert (rsum (map (fun y => pre_sky a t (surf_index a x) (surf_index a y)) (all_ts_surfaces a)) <= 0).
  { apply (Rmult_le_reg_r (2 * s_length x t)); lra. }
  lra.
Qed.

(* ------------------------------------------------------------ ends of the surface *)
Variables (A B : pt) (c : R).
Hypothesis HAB : s_coords x t = Line A B \/ s_coords x t = Line B A.
Hypothesis Hy : py A <= py B.
Hypothesis Hc : turn (Pt c 0) A B = 0.

Let Rp := RP p a t i.
Let u := uy a t.

Lemma open_ends : exists lo hi, 0 <= lo /\ hi <= pa_width p /\ lo < hi /\
  ft_rotation a t <> 0 /\ 0 < u /\ A = Rp lo /\ B = Rp hi /\ s_lowest x t = A /\ s_highest x t = B /\
  s_length x t = hi - lo /\ INR i * pa_distance p - pa_height p * cosd (ft_rotation a t) / sind (ft_rotation a t) = c.
Proof.
  pose proof DISTANCE_TOLERANCE_pos as T0.
  destruct (surface_spans p n f a t V F HR i row b x Hr Hx) as [lo [hi [E1 [E2 [Elo [Ehi [El Ec]]]]]]].
  exists lo, hi. split; [lra |]. split; [lra |]. split; [lra |].
  assert (A' : forall g u z, turn g z u = - turn g u z) by (intros; unfold turn; ring).
  assert (CC : A = Rp lo /\ B = Rp hi \/ A = Rp hi /\ B = Rp lo).
  { destruct HAB as [E | E], Ec as [E' | E']; rewrite E in E'; injection E'; intros; subst; auto. }
  assert (T' : turn (Pt c 0) (Rp lo) (Rp hi) = 0).
  { destruct CC as [[<- <-] | [<- <-]]; [exact Hc |]. rewrite A', Hc. ring. }
  assert (K0 : side_k (OL p a t false i) (oux a t false) (uy a t) c = 0).
  { assert (T2 : crs (gp c) (Rp hi) (Rp lo) = 0) by (unfold turn, crs, gp in *; cbn [px py] in *; lra).
    unfold Rp in T2. change (RP p a t i hi) with (orient false (RP p a t i hi)) in T2. change (RP p a t i lo) with (orient false (RP p a t i lo)) in T2.
    rewrite !orient_RP, crs_rp in T2. apply Rmult_integral in T2. lra. }
  assert (Nz : ft_rotation a t <> 0).
  { intro Z. unfold side_k, oux, uy in K0. rewrite Z in K0. destruct up_flat as [U1 U2]. rewrite U1, U2 in K0.
    pose proof (OL_y p a t V HG false i). lra. }
  pose proof (up_y_pos _ HR Nz) as U.
  assert (Yl : py (Rp lo) < py (Rp hi)).
  { unfold Rp, RP. rewrite (low_point_line _ _ _ _ lo), (low_point_line _ _ _ _ hi). cbn [py]. nra. }
  assert (PQ : A = Rp lo /\ B = Rp hi).
  { destruct CC as [C | [C1 C2]]; [exact C |]. rewrite C1, C2 in Hy. lra. }
  destruct PQ as [EP EQ]. split; [exact Nz |]. split; [exact U |]. split; [exact EP |]. split; [exact EQ |].
  split; [rewrite Elo; auto |]. split; [rewrite Ehi; auto |]. split; [exact El |].
  destruct (side_k_cut p a t HR false i Nz) as [_ Sk]. rewrite Sk in K0. unfold uy in K0.
  apply Rmult_integral in K0. destruct K0 as [K0 | K0]; [lra |]. unfold og in K0. lra.
Qed.

Lemma open_length : euclid A B = s_length x t /\ 0 < euclid A B.
Proof.
  pose proof DISTANCE_TOLERANCE_pos. assert (E : euclid A B = s_length x t); [| rewrite E; lra].
  rewrite euclid_distance. unfold s_length. destruct HAB as [-> | ->]; rewrite line_length_dist; cbn [b1 b2]; [| apply dist_sym]. reflexivity.
Qed.

Lemma open_cut : -100 <= c <= 100 -> cutx p f t i = c.
Proof.
  intros Bc. destruct open_ends as (lo & hi & _ & _ & _ & Nz & _ & _ & _ & _ & _ & _ & Ec).
  rewrite (cutx_eq p n f a t F HR HG i Nz), Ec. destruct ground_bounds as [B1 B2].
  unfold ck, xclip. rewrite B1, B2. minmax; lra.
Qed.

Lemma open_cut_off : (if left then c <= -100 else 100 <= c) -> cutx p f t i = fx.
Proof.
  intros Bc. destruct open_ends as (lo & hi & _ & _ & _ & Nz & _ & _ & _ & _ & _ & _ & Ec).
  rewrite (cutx_eq p n f a t F HR HG i Nz), Ec. destruct ground_bounds as [B1 B2].
  unfold ck, xclip. rewrite B1, B2. unfold fx. revert Bc. case left; intro; minmax; lra.
Qed.

(** From the point of the ground in line with it, the surface is seen edge on. *)
Lemma open_edge_on : -100 <= c <= 100 -> xphi p a t left i x (cutx p f t i) = s_length x t.
Proof.
  intros Bc. rewrite (open_cut Bc). destruct open_ends as (lo & hi & L0 & Hw & Lh & Nz & U & EA & EB & Sl & Sh & El & Ec).
  destruct (side_k_cut p a t HR left i Nz) as [K0 _]. rewrite Ec in K0.
  pose proof (OL_y p a t V HG left i) as Oy. pose proof (D_pos p V) as D0.
  unfold xphi. rewrite Sl, Sh, EA, EB. unfold Rp. rewrite !orient_RP. fold u in K0 |- *. set (O := OL p a t left i) in *. set (vx := oux a t left) in *.
  assert (G : gp (og left c) = rp O vx u (- (py O / u))).
  { unfold gp, rp. unfold side_k in K0. f_equal; [| field; lra].
    apply Rmult_eq_reg_l with u; [| lra].
    replace (u * (px O + - (py O / u) * vx)) with (u * px O - py O * vx) by (field; lra). lra. }
  assert (Sp : 0 < py O / u) by (apply Rdiv_lt_0_compat; lra).
  assert (Un : vx * vx + u * u = 1) by apply oux_unit.
  assert (SF : forall e, 0 <= e -> str (obs p a t left i) (rp O vx u e) (og left c) = distance (gp (og left c)) (rp O vx u e)).
  { intros e He. unfold obs. destruct (is_edge p left i); [reflexivity |]. apply str_free; [exact He |].
    apply strip_free; auto. rewrite K0. nra. }
  rewrite !SF by lra. rewrite G, !rp_dist; auto; lra.
Qed.

Lemma open_far : forall q, str (obs p a t left i) (orient left q) (og left fx) =
  taut_string left (neighbour_edge p a t left i) q (Pt fx 0).
Proof.
  intro q. change (Pt fx 0) with (gp fx). rewrite taut_str, (neighbour_obs p a t left i open_row). reflexivity.
Qed.

Lemma open_chi : forall q, xchi t x q = euclid B q - euclid A q.
Proof.
  intro q. destruct open_ends as (lo & hi & _ & _ & _ & _ & _ & _ & _ & Sl & Sh & _).
  unfold xchi. rewrite Sl, Sh, !euclid_distance, !(dist_sym q). reflexivity.
Qed.

Lemma open_phi : xphi p a t left i x fx =
  taut_string left (neighbour_edge p a t left i) B (Pt fx 0) - taut_string left (neighbour_edge p a t left i) A (Pt fx 0).
Proof.
  destruct open_ends as (lo & hi & _ & _ & _ & _ & _ & _ & _ & Sl & Sh & _).
  unfold xphi. rewrite Sl, Sh, !open_far. reflexivity.
Qed.

(** No row on this side. *)
Lemma open_free : (t < n)%nat -> no_slivers a t -> -100 <= c <= 100 -> neighbour_edge p a t left i = None ->
  sky = (euclid A B + euclid B (Pt fx 0) - euclid A (Pt fx 0)) / (2 * euclid A B).
Proof.
  intros Ht NSl Bc E. pose proof (open_sum Ht NSl) as Q. rewrite (open_edge_on Bc), open_phi, E in Q.
  destruct open_length as [<- L0] in Q |- *.
  assert (Eg : is_edge p left i = true).
  { pose proof (neighbour_obs p a t left i open_row) as N. rewrite E in N. unfold obs in N.
    destruct (is_edge p left i); [reflexivity | discriminate]. }
  rewrite Eg in Q. unfold taut_string in Q. rewrite (euclid_distance B), (euclid_distance A) in *.
  rewrite (euclid_distance A (Pt fx 0)). rewrite (euclid_distance (Pt fx 0) B), (euclid_distance (Pt fx 0) A) in Q.
  rewrite (dist_sym B), (dist_sym A (Pt fx 0)).
  apply (Rmult_eq_reg_l (distance A B)); [| lra]. rewrite Q. field. lra.
Qed.

Lemma open_neighbour : forall o, neighbour_edge p a t left i = Some o ->
  is_edge p left i = false /\ o = Lp p a t (next left i).
Proof.
  intros o Ho. pose proof (neighbour_obs p a t left i open_row) as E. rewrite Ho in E. cbn [option_map] in E. unfold obs in E.
  destruct (is_edge p left i) eqn:Eg; [discriminate |]. split; [reflexivity |].
  rewrite <- (orient_next p a t left i open_row Eg) in E. injection E as E.
  revert E. unfold orient, mir. destruct o as [ox oy], (Lp p a t (next left i)) as [lx ly].
  case left; cbn [px py]; intro E; [injection E as E1 E2; f_equal; lra | exact E].
Qed.

(** A row on this side; the ground may end before it is hidden. *)
Lemma open_between : forall o, (t < n)%nat -> no_slivers a t -> -100 <= c <= 100 -> neighbour_edge p a t left i = Some o ->
  let T := RP p a t (next left i) (pa_width p) in
  let gap := (taut_string left (Some o) B (Pt fx 0) - taut_string left (Some o) A (Pt fx 0) - (euclid B o - euclid A o)) / 2 in
  0 <= gap /\ sky = (euclid A B + euclid B T - euclid A T) / (2 * euclid A B) + gap / euclid A B.
Proof.
  intros o Ht NSl Bc Ho T gap. destruct (open_neighbour o Ho) as [Eg Eo]. split.
  - destruct open_ends as (lo & hi & L0 & Hw & Lh & Nz & U & EA & EB & Sl & Sh & El & Ec).
    assert (K : 0 <= side_k (OL p a t left i) (oux a t left) u (og left fx)).
    { destruct (side_k_cut p a t HR left i Nz) as [_ E]. unfold u in *. rewrite E, Ec. apply Rmult_le_pos; [lra |].
      unfold fx, og. case left; lra. }
    pose proof (phi_some_ge (OL p a t left i) (oux a t left) u (pa_distance p) (OL_y p a t V HG left i) (Rlt_le _ _ U) (D_pos p V) lo hi (og left fx) ltac:(lra) K) as G.
    unfold phi, chi in G. unfold gap. rewrite <- Ho, <- open_far, <- open_far, EA, EB. unfold Rp. rewrite !orient_RP.
    unfold obs. rewrite Eg. fold u.
    rewrite Eo, !euclid_distance, !(dist_sym _ (Lp p a t (next left i))), <- !(dist_orient left (Lp p a t (next left i))), !orient_RP.
    rewrite (orient_next p a t left i open_row Eg). fold u. lra.
  - pose proof (open_sum Ht NSl) as Q. rewrite (open_edge_on Bc), open_phi, Eg, !open_chi, Ho in Q. fold T in Q. rewrite <- Eo in Q.
    destruct open_length as [E L0]. rewrite <- E in Q. apply (Rmult_eq_reg_l (euclid A B)); [| lra]. rewrite Q. unfold gap. field. lra.
Qed.

Lemma open_hidden : forall o, neighbour_edge p a t left i = Some o ->
  0 <= (if left then turn (Pt fx 0) o A else turn (Pt fx 0) A o) ->
  taut_string left (Some o) B (Pt fx 0) - taut_string left (Some o) A (Pt fx 0) - (euclid B o - euclid A o) = 0.
Proof.
  intros o Ho H. destruct (open_neighbour o Ho) as [Eg Eo].
  destruct open_ends as (lo & hi & L0 & Hw & Lh & Nz & U & EA & EB & Sl & Sh & El & Ec).
  assert (TC : (if left then turn (Pt fx 0) o A else turn (Pt fx 0) A o) = crs (gp (og left fx)) (orient left A) (orient left o)).
  { unfold turn, crs, og, orient, mir, gp. case left; cbn [px py]; ring. }
  rewrite TC, EA, Eo in H. unfold Rp in H. rewrite orient_RP, (orient_next p a t left i open_row Eg), crs_ob in H.
  rewrite <- Ho, <- !open_far, EA, EB. unfold Rp. rewrite !orient_RP. unfold obs. rewrite Eg. fold u in H |- *.
  pose proof (OL_y p a t V HG left i) as Oy. pose proof (D_pos p V) as D0. pose proof (Rlt_le _ _ U) as U0.
  rewrite !str_bent; auto; try lra.
  - rewrite Eo, !euclid_distance, !(dist_sym _ (Lp p a t (next left i))), <- !(dist_orient left (Lp p a t (next left i))), !orient_RP.
    rewrite (orient_next p a t left i open_row Eg). fold u. lra.
  - eapply ob_mono_e; eauto; lra.
Qed.

(* ---------------------------------------------------------- against the horizon *)
Let s := if left then 1 else -1.
Let flat := (1 + (if b then -1 else 1) * cos (ft_rotation a t * PI / 180)) / 2.

Lemma open_s : s = 1 \/ s = -1.
Proof. unfold s. case left; auto. Qed.

Lemma open_tilt : s * (px B - px A) = (if b then -1 else 1) * cos (ft_rotation a t * PI / 180) * euclid A B.
Proof.
  destruct open_ends as (lo & hi & L0 & Hw & Lh & Nz & U & EA & EB & Sl & Sh & El & Ec).
  destruct open_length as [-> _]. rewrite El, EA, EB. unfold Rp, RP. rewrite (low_point_line _ _ _ _ lo), (low_point_line _ _ _ _ hi). cbn [px].
  set (q := px _). replace (q + hi * up_x (ft_rotation a t) - (q + lo * up_x (ft_rotation a t))) with ((hi - lo) * up_x (ft_rotation a t)) by ring.
  unfold s, left, looks_left, up_x, cosd, deg2rad. destruct (Rlt_dec 0 (ft_rotation a t)), b; cbn [negb]; ring.
Qed.

Lemma flat_bound : forall T, (euclid A B + euclid B T - euclid A T) / (2 * euclid A B) - flat =
  ((distance T B - s * px B) - (distance T A - s * px A)) / (2 * euclid A B).
Proof.
  intros T. destruct open_length as [_ L0]. pose proof open_tilt as E. unfold flat.
  set (k := (if b then -1 else 1) * cos (ft_rotation a t * PI / 180)) in *. clearbody k.
  rewrite (euclid_distance B T), (euclid_distance A T), (dist_sym B), (dist_sym A T).
  assert (Ek : k = s * (px B - px A) / euclid A B) by (rewrite E; field; lra). rewrite Ek. field. lra.
Qed.

(** The end of the ground is below the horizon. *)
Lemma open_beyond : -100 <= c <= 100 -> flat < (euclid A B + euclid B (Pt fx 0) - euclid A (Pt fx 0)) / (2 * euclid A B).
Proof.
  intros Bc. destruct open_length as [_ L0]. pose proof (flat_bound (Pt fx 0)) as E.
  destruct open_ends as (lo & hi & Lo & Hw & Lh & Nz & U & EA & EB & Sl & Sh & El & Ec).
  set (lam := py A / py B).
  assert (YA : 0 < py A) by (rewrite EA; apply RP_y; auto; lra).
  assert (YB : py A < py B).
  { rewrite EA, EB. unfold Rp, RP. rewrite (low_point_line _ _ _ _ lo), (low_point_line _ _ _ _ hi). cbn [py]. unfold u, uy in U. nra. }
  assert (La : 0 <= lam < 1).
  { unfold lam. split; [apply Rlt_le, Rdiv_lt_0_compat; lra |]. apply (Rmult_lt_reg_r (py B)); [lra |]. unfold Rdiv. rewrite Rmult_assoc, Rinv_l by lra. lra. }
  assert (EM : mix lam (Pt c 0) B = A).
  { assert (T : (px A - c) * py B = (px B - c) * py A) by (unfold turn in Hc; cbn [px py] in Hc; lra).
    assert (X : px A = c + lam * (px B - c)).
    { unfold lam. apply (Rmult_eq_reg_r (py B)); [| lra]. replace ((c + py A / py B * (px B - c)) * py B) with (c * py B + (px B - c) * py A) by (field; lra). lra. }
    unfold mix. cbn [px py]. rewrite <- X. replace (0 + lam * (py B - 0)) with (py A) by (unfold lam; field; lra). destruct A; reflexivity. }
  pose proof (cone (Pt fx 0) (Pt c 0) B lam s open_s eq_refl) as K. cbn [px py] in K. rewrite EM in K.
  assert (K' : distance (Pt fx 0) A - s * px A < distance (Pt fx 0) B - s * px B).
  { apply K; [unfold s, fx; case left; lra | exact La | lra]. }
  assert (0 < ((distance (Pt fx 0) B - s * px B) - (distance (Pt fx 0) A - s * px A)) / (2 * euclid A B)) by (apply Rdiv_lt_0_compat; lra).
  lra.
Qed.

(** The upper edge of the next row is above it. *)
Lemma open_below : is_edge p left i = false -> let T := RP p a t (next left i) (pa_width p) in
  (euclid A B + euclid B T - euclid A T) / (2 * euclid A B) < flat.
Proof.
  intros Eg T. destruct open_length as [_ L0]. pose proof (flat_bound T) as E.
  destruct open_ends as (lo & hi & Lo & Hw & Lh & Nz & U & EA & EB & Sl & Sh & El & Ec).
  set (C := Rp (pa_width p)). set (w := pa_width p) in *.
  set (lam := (w - hi) / (w - lo)).
  assert (La : 0 <= lam < 1).
  { unfold lam. split; [apply Rmult_le_pos; [lra | left; apply Rinv_0_lt_compat; lra] |].
    apply (Rmult_lt_reg_r (w - lo)); [lra |]. unfold Rdiv. rewrite Rmult_assoc, Rinv_l by lra. lra. }
  pose proof (D_pos p V) as D0.
  assert (CT : py C = py T /\ s * (px C - px T) = pa_distance p).
  { unfold C, T, Rp, s. fold w. pose proof (orient_next_RP p a t left i w open_row Eg) as N. pose proof (orient_RP p a t left i w) as M.
    unfold np in N. unfold rp in M. revert N M. unfold orient, mir, s. set (P1 := RP p a t (next left i) w). set (P0 := RP p a t i w).
    case left; intros N M.
    - pose proof (f_equal px N) as N1. pose proof (f_equal py N) as N2. pose proof (f_equal px M) as M1. pose proof (f_equal py M) as M2. cbn [px py] in *. lra.
    - pose proof (f_equal px N) as N1. pose proof (f_equal py N) as N2. pose proof (f_equal px M) as M1. pose proof (f_equal py M) as M2. cbn [px py] in *. lra. }
  destruct CT as [CT1 CT2].
  assert (EM : mix lam C A = B).
  { rewrite EA, EB. unfold mix, C, Rp, RP. fold w. rewrite (low_point_line _ _ _ _ lo), (low_point_line _ _ _ _ hi), (low_point_line _ _ _ _ w). cbn [px py].
    f_equal; unfold lam; field; lra. }
  assert (NY : py A <> py C).
  { rewrite EA. unfold C, Rp, RP. fold w. rewrite (low_point_line _ _ _ _ lo), (low_point_line _ _ _ _ w). cbn [py]. unfold u, uy in U. nra. }
  pose proof (cone T C A lam s open_s CT1) as K. rewrite EM in K. specialize (K ltac:(lra) La NY).
  assert (((distance T B - s * px B) - (distance T A - s * px A)) / (2 * euclid A B) < 0).
  { unfold Rdiv. apply Rmult_lt_reg_r with (2 * euclid A B); [lra |]. rewrite Rmult_assoc, Rinv_l, Rmult_0_l by lra. lra. }
  lra.
Qed.

End Open.
