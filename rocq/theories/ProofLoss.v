(** AOI weighted view factors of the surfaces of a scene. *)
From Coq Require Import Reals List Bool Arith String Lra Lia.
From Verif Require Import Num ModelTs ModelGeom ModelVF Basics SpecGeom SpecVF ProofShade ProofFit ProofCut ProofRow ProofIndex ProofGeom ProofGeom2 PropGeom ProofAngles ProofString ProofMatrix ProofVF ProofVF2 PropVF ModelParams ModelAOI ProofAOI SpecEngine SpecAOI PropAOI ModelIrr SpecIrr ProofHorizon.
Import ListNotations.
Open Scope R_scope.

Section Scene.
Variables (p : pvarray_params) (n : nat) (f : fit_inputs) (a : fitted) (t : nat) (al : R).
Hypothesis V : valid_params p.
Hypothesis F : fit p n f = Some a.
Hypothesis SA : sun_angle (fi_zenith f t) (fi_azimuth f t) (pa_axis_azimuth p) al.
Hypothesis NS : ~ shading_sliver DISTANCE_TOLERANCE (pa_width p) (pa_distance p) al (ft_rotation a t).
Hypothesis HR : -180 < ft_rotation a t < 180.
Hypothesis HG : pa_width p / 2 * Rabs (sin (ft_rotation a t * PI / 180)) < pa_height p.
Hypothesis HF : ft_rotation a t = 0 -> pa_width p <= pa_distance p.
Hypothesis Ht : (t < n)%nat.

Let r := ft_rotation a t.
Let w := pa_width p.
Let D := pa_distance p.
Let idx := surf_index a.
Let tl := Rltb 0 r.
Let row_surf i (b : bool) x := exists row, nth_error (ft_rows a) i = Some row /\ In x (side_surfaces (side_of b row)).
Let Rp := RP p a t.

Lemma sin_zero : sind r = 0 -> r = 0.
Proof.
  intro Z. unfold sind, deg2rad in Z. pose proof PI_RGT_0. destruct (Rtotal_order r 0) as [L|[E|L]]; [|exact E|].
  - exfalso. assert (sin (r * PI / 180) < 0); [|lra]. apply sin_lt_0_var; [|]; fold r in HR; nra.
  - exfalso. assert (0 < sin (r * PI / 180)); [|lra]. apply sin_gt_0; fold r in HR; nra.
Qed.

Lemma Rp_inj : forall i e j e', 0 < e < w -> 0 <= e' <= w -> Rp i e = Rp j e' -> i = j /\ e = e'.
Proof.
  intros i e j e' E E' H. unfold Rp, RP, low_point in H. rewrite !row_point_eq in H. inversion H as [[HX HY]]. clear H.
  fold r w D in HX, HY. pose proof (D_pos p V) as D0. fold D in D0.
  assert (FE : from_low_end w r e' - from_low_end w r e = if Rlt_dec 0 r then e' - e else e - e').
  { unfold from_low_end. destruct (Rlt_dec 0 r); lra. }
  destruct (Req_dec (sind r) 0) as [Z|NZ].
  - pose proof (sin_zero Z) as R0. fold r in HF. specialize (HF R0). fold w D in HF.
    assert (C1 : cosd r = 1) by (rewrite R0; unfold cosd, deg2rad; replace (0 * PI / 180) with 0 by field; apply cos_0).
    rewrite C1 in HX. destruct (Rlt_dec 0 r) as [Q|_]; [lra|].
    assert (X : (INR i - INR j) * D = e - e') by lra.
    destruct (Nat.lt_total i j) as [L|[->|L]].
    + exfalso. apply le_INR in L. rewrite S_INR in L. nra.
    + split; [reflexivity|]. lra.
    + exfalso. apply le_INR in L. rewrite S_INR in L. nra.
  - assert (Y : from_low_end w r e' - from_low_end w r e = 0).
    { apply (Rmult_eq_reg_r (sind r)); [|exact NZ]. lra. }
    assert (EE : e = e') by (destruct (Rlt_dec 0 r); lra). split; [|exact EE]. subst e'.
    apply INR_eq. apply (Rmult_eq_reg_r D); lra.
Qed.

(** Centroid and direction of a surface of a row. *)
Lemma surface_frame : forall i b x, row_surf i b x ->
  s_uvec x t = (w * fst (along_row r b), w * snd (along_row r b)).
Proof.
  intros i b x (row & E & I). destruct (fit_rows_nth_error _ _ _ _ _ _ F E) as [L ->].
  pose proof (fit_spec _ _ _ _ F) as (_ & RO & _). unfold r. rewrite RO in *.
  destruct (row_sl_bounds p f i t V) as [Bf Bb]. destruct V as (W & G & N & K).
  assert (NV : s_nvec x t = if b then (w * sin (fit_rotation p f t * PI / 180), - (w * cos (fit_rotation p f t * PI / 180)))
                            else (- (w * sin (fit_rotation p f t * PI / 180)), w * cos (fit_rotation p f t * PI / 180))).
  { destruct b; cbn [side_of] in I; [rewrite fit_row_back in I | rewrite fit_row_front in I];
    (apply side_surface_on_row with (t := t) in I; [|exact W | exact HR | apply K | first [exact Bf | exact Bb]]);
    destruct I as [-> _]; cbn zeta; rewrite full_coords_points; unfold normal_vec_front, row_point; cbn [px py b1 b2 fst snd];
    fold w; f_equal; field. }
  unfold s_uvec. rewrite NV. unfold along_row. destruct b; cbn [fst snd]; f_equal; ring.
Qed.

Lemma surface_centroid : forall i b x, row_surf i b x -> DISTANCE_TOLERANCE < s_length x t ->
  exists e, 0 < e < w /\ s_centroid x t = Rp i e /\ 0 < py (s_centroid x t).
Proof.
  intros i b x (row & E & I) L. pose proof DISTANCE_TOLERANCE_pos.
  destruct (surface_spans p n f a t V F HR i row b x E I) as [lo [hi [E1 [E2 [Elo [Ehi [El Ec]]]]]]].
  fold w in E2. exists ((lo + hi) / 2). split; [lra|].
  assert (C : s_centroid x t = Rp i ((lo + hi) / 2)).
  { unfold s_centroid, line_centroid, Rp, RP, low_point in *. rewrite !row_point_eq in Ec. rewrite row_point_eq.
    assert (M : from_low_end (pa_width p) (ft_rotation a t) ((lo + hi) / 2) =
      (from_low_end (pa_width p) (ft_rotation a t) lo + from_low_end (pa_width p) (ft_rotation a t) hi) / 2).
    { unfold from_low_end. destruct (Rlt_dec 0 (ft_rotation a t)); lra. }
    rewrite M. destruct Ec as [-> | ->]; cbn [b1 b2 px py]; f_equal; field. }
  split; [exact C|]. rewrite C. apply (RP_y p a t V HR HG). lra.
Qed.

(** Angle under which a point is seen. *)
Lemma angle_seen : forall i b x q, row_surf i b x -> q <> s_centroid x t ->
  seen_under r b (s_centroid x t) q (calculate_aoi_angle (s_uvec x t) (s_centroid x t) q).
Proof.
  intros i b x q X Q. pose proof (w_pos p V) as W. fold w in W.
  assert (UN : (fst (along_row r b)) * (fst (along_row r b)) + (snd (along_row r b)) * (snd (along_row r b)) = 1).
  { unfold along_row. pose proof (sin2_cos2 (r * PI / 180)) as S. unfold Rsqr in S. destruct b; cbn [fst snd]; lra. }
  assert (NZ : s_uvec x t <> (0, 0)).
  { rewrite (surface_frame i b x X). intro E. pose proof (f_equal fst E) as E1. pose proof (f_equal snd E) as E2. cbn [fst snd] in E1, E2.
    apply Rmult_integral in E1, E2. destruct E1 as [E1|E1]; [lra|]. destruct E2 as [E2|E2]; [lra|]. rewrite E1, E2 in UN. lra. }
  destruct (C39_angle (s_uvec x t) (s_centroid x t) q NZ Q) as [[B A] _]. unfold seen_under.
  set (theta := calculate_aoi_angle (s_uvec x t) (s_centroid x t) q) in *. split; [exact B|]. clearbody theta.
  rewrite (surface_frame i b x X) in A. cbn [fst snd] in A |- *.
  set (u1 := fst (along_row r b)) in *. set (u2 := snd (along_row r b)) in *.
  replace (w * u1 * (w * u1) + w * u2 * (w * u2)) with (w * w) in A by (rewrite <- (Rmult_1_r (w * w)), <- UN; ring).
  rewrite sqrt_square in A by lra. rewrite UN, sqrt_1. apply (Rmult_eq_reg_l w); [|lra]. lra.
Qed.

(** Ground points are seen directly or in the direction of the edge which hides them. *)
Lemma obstruction_angle : forall u c g o left, 0 < py c -> 0 < py o ->
  aoi_angle_w_obstruction u c (gp g) o left = calculate_aoi_angle u c (seen_towards left (Some o) c (gp g)).
Proof.
  intros u c g o left Hc Ho. unfold aoi_angle_w_obstruction, angle_with_x_axis, seen_towards, np_where.
  assert (A : forall p q, 0 < py p -> 0 < py q ->
    (atan2 (py p - py (gp g)) (px p - px (gp g)) < atan2 (py q - py (gp g)) (px q - px (gp g)) <->
     0 < turn (gp g) p q)).
  { intros p0 q H1 H2. unfold turn. rewrite atan2_lt_cross; [| |]; unfold gp; cbn [py px]; try lra. }
  destruct left.
  - destruct (Rltb_spec (atan2 (py o - py (gp g)) (px o - px (gp g))) (atan2 (py c - py (gp g)) (px c - px (gp g)))) as [H|H];
    destruct (Rlt_dec 0 (turn (gp g) o c)) as [K|K]; try (destruct o; reflexivity); try reflexivity; exfalso.
    + apply A in H; auto.
    + apply A in K; auto. lra.
  - destruct (Rltb_spec (atan2 (py c - py (gp g)) (px c - px (gp g))) (atan2 (py o - py (gp g)) (px o - px (gp g)))) as [H|H];
    destruct (Rlt_dec 0 (turn (gp g) c o)) as [K|K]; try (destruct o; reflexivity); try reflexivity; exfalso.
    + apply A in H; auto.
    + apply A in K; auto. lra.
Qed.

Lemma turn_same : forall g c, turn g c c = 0.
Proof. intros. unfold turn. ring. Qed.

Lemma seen_towards_neq : forall left o c g, 0 < py c -> seen_towards left o c (gp g) <> c.
Proof.
  intros left o c g Hc E. unfold seen_towards in E. destruct o as [o|].
  - destruct (Rlt_dec 0 _) as [L|L] in E.
    + subst o. destruct left; rewrite turn_same in L; lra.
    + rewrite <- E in Hc. cbn in Hc. lra.
  - rewrite <- E in Hc. cbn in Hc. lra.
Qed.

Lemma neighbour_eq : forall left i, (i < pa_n_pvrows p)%nat ->
  neighbour_edge p a t left i = if is_edge p left i then None else Some (row_lowest_pt (ft_rows a) (next left i) t).
Proof.
  intros left i Hi. unfold neighbour_edge, is_edge, next. destruct left.
  - destruct i as [|j]; cbn [Nat.eqb]; [reflexivity|]. rewrite (row_lowest p n f a t V F HR) by lia. unfold Lp.
    rewrite RP_point. repeat f_equal. lia.
  - destruct (Nat.eqb_spec i (pa_n_pvrows p - 1)) as [E|E].
    + rewrite (proj2 (Nat.ltb_ge _ _)) by lia. reflexivity.
    + rewrite (proj2 (Nat.ltb_lt _ _)) by lia. rewrite (row_lowest p n f a t V F HR) by lia. unfold Lp.
      rewrite RP_point. repeat f_equal. lia.
Qed.

Variables (m : aoi_methods) (af : aoi_fitted).
Hypothesis AF : aoi_fit m = Ok af.
Let fn (b : bool) := if b then am_back m else am_front m.

Let seen_as (b : bool) := seen_from DISTANCE_TOLERANCE (fn b) (am_n m) r b.

Lemma between_seen_as : forall i b x q1 q2, row_surf i b x -> q1 <> s_centroid x t -> q2 <> s_centroid x t ->
  seen_as b (s_centroid x t) q1 q2
    (vf_aoi_between af (calculate_aoi_angle (s_uvec x t) (s_centroid x t) q1)
                       (calculate_aoi_angle (s_uvec x t) (s_centroid x t) q2) b).
Proof.
  intros i b x q1 q2 X Q1 Q2. do 2 eexists. split; [exact (angle_seen i b x q1 X Q1)|]. split; [exact (angle_seen i b x q2 X Q2)|].
  apply wedge_spec. exact AF.
Qed.

Lemma loss_ground : forall M i b left x y, row_surf i b x -> In y (gnd_side_of_cut_point (ft_ground a) left i) ->
  DISTANCE_TOLERANCE < s_length x t -> DISTANCE_TOLERANCE < s_length y t ->
  let c := s_centroid x t in
  let towards := seen_towards left (neighbour_edge p a t left i) c in
  if Bool.eqb left (looks_left r b)
  then seen_as b c (towards (b1 (s_coords y t))) (towards (b2 (s_coords y t))) (aoi_update af a t M (idx x) (idx y))
  else aoi_update af a t M (idx x) (idx y) = 0.
Proof.
  intros M i b left x y X Y Lx Ly c towards. pose proof DISTANCE_TOLERANCE_pos as T0.
  pose proof (row_surf_lt a p n f F i b x X) as Hi.
  unfold idx. rewrite (aoi_cell_gnd af a t p n f V F M i b left x y X Y). unfold aoi_gnd_value, vf_aoi_pvrow_surf_to_gnd_surf.
  rewrite (empty_short p n f a t F x Ht Lx), (empty_short p n f a t F y Ht Ly). cbn [orb].
  unfold np_where at 1. rewrite (proj2 (Rltb_false (s_length x t) _)), (proj2 (Rltb_false (s_length y t) _)) by lra. cbn [orb].
  pose proof (in_gnd_side _ _ _ _ _ _ _ F Hi Y) as Gy.
  destruct (gnd_shape p n f a t al V F SA NS HR HG y Gy) as [Sy _].
  destruct (surface_centroid i b x X Lx) as (e & _ & _ & Cy). fold c in Cy.
  rewrite (rows_length p n f a F).
  assert (ANG : forall g, (if (left && Nat.eqb i 0 || negb left && Nat.eqb i (pa_n_pvrows p - 1))%bool
             then calculate_aoi_angle (s_uvec x t) c (gp g)
             else aoi_angle_w_obstruction (s_uvec x t) c (gp g) (row_lowest_pt (ft_rows a) (if left then (i - 1)%nat else (i + 1)%nat) t) left) =
             calculate_aoi_angle (s_uvec x t) c (towards (gp g))).
  { intro g. unfold towards. rewrite (neighbour_eq left i Hi).
    assert (EE : (left && Nat.eqb i 0 || negb left && Nat.eqb i (pa_n_pvrows p - 1))%bool = is_edge p left i).
    { unfold is_edge. destruct left; cbn [andb negb]; [apply orb_false_r | reflexivity]. }
    rewrite EE. destruct (is_edge p left i) eqn:Eg; [reflexivity|].
    rewrite obstruction_angle; [reflexivity | exact Cy |].
    rewrite (row_lowest p n f a t V F HR) by (apply (next_lt p left i Hi Eg)). apply (Lp_y p a t V HG). }
  assert (SE : seen_as b c (towards (b1 (s_coords y t))) (towards (b2 (s_coords y t)))
     (vf_aoi_between af (calculate_aoi_angle (s_uvec x t) c (towards (b1 (s_coords y t))))
        (calculate_aoi_angle (s_uvec x t) c (towards (b2 (s_coords y t)))) b)).
  { apply (between_seen_as i); [exact X | |]; rewrite Sy; cbn [b1 b2]; apply seen_towards_neq; exact Cy. }
  fold c. rewrite Sy in SE |- *. cbn [b1 b2] in SE |- *. rewrite !ANG.
  rewrite looks_left_eq. fold r. fold tl. destruct left, b, tl; cbn [xorb Bool.eqb negb np_where]; first [exact SE | reflexivity].
Qed.

Lemma coords_not_empty : forall c, DISTANCE_TOLERANCE <= line_length (c t) -> coords_empty (ft_n_states a) c = false.
Proof.
  intros c H. destruct (fit_spec _ _ _ _ F) as [-> _]. unfold coords_empty. apply Rltb_false.
  rewrite np_sum_isum. apply Rle_trans with (line_length (c t)); [lra |].
  apply (isum_in_le n (fun t => line_length (c t)) t); auto. intros. apply sqrt_pos.
Qed.

Lemma surface_to_surface_seen : forall i b x c2, row_surf i b x -> DISTANCE_TOLERANCE < s_length x t ->
  DISTANCE_TOLERANCE <= line_length (c2 t) -> b1 (c2 t) <> s_centroid x t -> b2 (c2 t) <> s_centroid x t ->
  seen_as b (s_centroid x t) (b1 (c2 t)) (b2 (c2 t)) (vf_aoi_surface_to_surface (ft_n_states a) af x c2 b t).
Proof.
  intros i b x c2 X Lx Lc N1 N2. unfold vf_aoi_surface_to_surface. rewrite (empty_short p n f a t F x Ht Lx), (coords_not_empty c2 Lc).
  cbn [orb]. unfold np_where. rewrite (proj2 (Rltb_false (s_length x t) _)), (proj2 (Rltb_false (line_length (c2 t)) _)) by lra.
  cbn [orb]. apply (between_seen_as i); assumption.
Qed.

Lemma row_ends_neq : forall i j b c x y, row_surf i b x -> row_surf j c y -> i <> j -> DISTANCE_TOLERANCE < s_length x t ->
  b1 (s_coords y t) <> s_centroid x t /\ b2 (s_coords y t) <> s_centroid x t.
Proof.
  intros i j b c x y X Y NE Lx. destruct (surface_centroid i b x X Lx) as (e & E & -> & _).
  destruct Y as (row & Hj & Hy).
  destruct (surface_spans p n f a t V F HR j row c y Hj Hy) as [lo [hi [E1 [E2 [_ [_ [_ Ec]]]]]]]. fold w in E1, E2, Ec. fold Rp in Ec.
  assert (Q : forall e', 0 <= e' <= w -> Rp j e' <> Rp i e).
  { intros e' E' H. symmetry in H. apply Rp_inj in H; [|assumption|assumption]. apply NE. tauto. }
  assert (0 <= lo <= w /\ 0 <= hi <= w) as [A1 A2] by lra.
  destruct Ec as [-> | ->]; cbn [b1 b2]; split; auto.
Qed.

Lemma loss_row : forall M i j b c x y, row_surf i b x -> row_surf j c y ->
  DISTANCE_TOLERANCE < s_length x t -> DISTANCE_TOLERANCE < s_length y t ->
  (forall k l, M (surf_index a k) (surf_index a l) = build_vf_matrix a t (surf_index a k) (surf_index a l)) ->
  let facing := c = negb b /\ (if looks_left r b then i = S j else j = S i) in
  (facing -> seen_as b (s_centroid x t) (b1 (s_coords y t)) (b2 (s_coords y t)) (aoi_update af a t M (idx x) (idx y))) /\
  (~ facing -> aoi_update af a t M (idx x) (idx y) = 0).
Proof.
  intros M i j b c x y X Y Lx Ly EM facing.
  assert (LL : line_length (s_coords y t) = s_length y t) by reflexivity.
  destruct (Bool.bool_dec c (negb b)) as [->|NC].
  2:{ split; [intros [Q _]; contradiction|]. intros _. unfold idx.
      rewrite (aoi_cell_other af a t p n f V F M i b j c x y X Y); [|tauto]. rewrite EM.
      destruct X as (row & Hi & Hx), Y as (row' & Hj & Hy).
      destruct (Req_dec (build_vf_matrix a t (surf_index a x) (surf_index a y)) 0) as [Z|Z]; [exact Z|].
      destruct (C15_rows p n f a t i j row row' b c x y V F Hi Hj Hx Hy Z) as [Q _]. contradiction. }
  unfold facing. rewrite looks_left_eq. fold r. fold tl.
  destruct (Nat.eq_dec j (S i)) as [->|N1].
  - destruct (aoi_cell_row af a t p n f V F M i b x y X Y) as [E _]. unfold idx. rewrite E. unfold aoi_row_value. cbn [fst].
    destruct (row_ends_neq i (S i) b (negb b) x y X Y ltac:(lia) Lx) as [N1 N2].
    pose proof (surface_to_surface_seen i b x (s_coords y) X Lx ltac:(rewrite LL; lra) N1 N2) as SS. fold r tl.
    destruct b, tl; cbn [negb xorb np_where]; (split; [intros [_ Q] | intro Q]); try exact SS; try reflexivity; try lia; exfalso; apply Q; auto.
  - destruct (Nat.eq_dec i (S j)) as [->|N2].
    + rewrite <- (negb_involutive b) in X. destruct (aoi_cell_row af a t p n f V F M j (negb b) y x Y X) as [_ E]. unfold idx. rewrite E.
      rewrite negb_involutive in X. unfold aoi_row_value. cbn [snd]. rewrite negb_involutive.
      destruct (row_ends_neq (S j) j b (negb b) x y X Y ltac:(lia) Lx) as [N3 N2].
      pose proof (surface_to_surface_seen (S j) b x (s_coords y) X Lx ltac:(rewrite LL; lra) N3 N2) as SS. fold r tl.
      destruct b, tl; cbn [negb xorb np_where]; (split; [intros [_ Q] | intro Q]); try exact SS; try reflexivity; try lia; exfalso; apply Q; auto.
    + split; [intros [_ Q]; destruct (xorb b tl); lia|]. intros _. unfold idx.
      rewrite (aoi_cell_other af a t p n f V F M i b j (negb b) x y X Y); [|intros [_ [Q|Q]]; lia]. rewrite EM.
      destruct X as (row & Hi & Hx), Y as (row' & Hj & Hy).
      destruct (Req_dec (build_vf_matrix a t (surf_index a x) (surf_index a y)) 0) as [Z|Z]; [exact Z|].
      destruct (C15_rows p n f a t i j row row' b (negb b) x y V F Hi Hj Hx Hy Z) as [_ Q]. destruct (looks_left _ b); lia.
Qed.

Lemma highest_top : forall j, (j < pa_n_pvrows p)%nat -> exists row, nth_error (ft_rows a) j = Some row /\
  top_end (row_coords row t) (row_highest_pt (ft_rows a) j t) /\
  exists e, 0 <= e <= w /\ (e = 0 \/ e = w) /\ row_highest_pt (ft_rows a) j t = Rp j e.
Proof.
  intros j Hj. pose proof (row_of p n f a F j Hj) as E. eexists. split; [exact E|].
  unfold row_highest_pt. rewrite (nth_error_nth _ _ _ E). rewrite fit_row_coords. pose proof (w_pos p V) as W. fold w in W |- *.
  pose proof (highest_point_row (INR j * pa_distance p) (pa_height p) w (fit_rotation p f t) W) as T.
  split; [exact T|]. destruct T as [T _]. cbn [b1 b2] in T. rewrite <- (r_eq p n f a t F) in *.
  unfold Rp, RP, low_point, from_low_end. fold w r in T |- *.
  destruct (Rlt_dec 0 r) as [L|L].
  - destruct T as [-> | ->]; [exists 0 | exists w]; (split; [lra|]); (split; [auto|]); f_equal; lra.
  - destruct T as [-> | ->]; [exists w | exists 0]; (split; [lra|]); (split; [auto|]); f_equal; lra.
Qed.

Lemma loss_sky : forall M i b x, row_surf i b x -> DISTANCE_TOLERANCE < s_length x t ->
  exists q1 q2, sky_opening a t (if looks_left r b then i else S i) q1 q2 /\
    (DISTANCE_TOLERANCE <= euclid q1 q2 ->
     seen_as b (s_centroid x t) q1 q2 (aoi_update af a t M (idx x) (n_ts_surfaces a))).
Proof.
  intros M i b x X Lx. pose proof (row_surf_lt a p n f F i b x X) as Hi.
  rewrite looks_left_eq. fold r. fold tl. set (k := if xorb tl b then i else (i + 1)%nat).
  assert (KE : (if xorb b tl then i else S i) = k) by (unfold k; rewrite xorb_comm; destruct (xorb tl b); lia).
  rewrite KE. set (line := dummy_sky (ft_rows a) (gnd_y (ft_ground a)) k).
  assert (GY : gnd_y (ft_ground a) = 0).
  { destruct (fit_spec _ _ _ _ F) as (_ & _ & _ & _ & G0). unfold ground_from_pvrows in G0. apply ground_from_ordered_spec in G0.
    destruct G0 as [-> _]. reflexivity. }
  assert (KB : k = i \/ k = S i) by (unfold k; destruct (xorb tl b); lia).
  destruct (surface_centroid i b x X Lx) as (e & E & Ec & Cy).
  assert (OP : sky_opening a t k (b1 (line t)) (b2 (line t)) /\ b1 (line t) <> s_centroid x t /\ b2 (line t) <> s_centroid x t).
  { assert (HN : forall j, (j < pa_n_pvrows p)%nat -> row_highest_pt (ft_rows a) j t <> s_centroid x t).
    { intros j Hj Q. destruct (highest_top j Hj) as (_ & _ & _ & e' & E' & D' & HQ). rewrite HQ, Ec in Q. symmetry in Q.
      apply Rp_inj in Q; [|exact E|exact E']. destruct Q as [_ <-]. lra. }
    assert (GN : forall z, Pt z 0 <> s_centroid x t) by (intros z Q; rewrite <- Q in Cy; cbn in Cy; lra).
    unfold line, dummy_sky, sky_opening. rewrite GY, (rows_length p n f a F). unfold MIN_X_GROUND, MAX_X_GROUND.
    destruct (Nat.eqb_spec k 0) as [K0|K0].
    - rewrite K0. cbn [b1 b2]. destruct (highest_top 0 ltac:(lia)) as (row & -> & T & _).
      split; [split; [f_equal; lra | exact T]|]. split; [apply GN | apply HN; lia].
    - destruct k as [|j]; [lia|]. destruct (Nat.ltb_spec (S j) (pa_n_pvrows p)) as [L|L]; cbn [b1 b2].
      + destruct (highest_top (S j) L) as (row & -> & T & _). destruct (highest_top j ltac:(lia)) as (row' & E' & T' & _).
        replace (S j - 1)%nat with j by lia. split; [split; [exists row'; tauto | exact T]|]. split; apply HN; lia.
      + assert (NN : nth_error (ft_rows a) (S j) = None) by (apply nth_error_None; rewrite (rows_length p n f a F); lia).
        rewrite NN. destruct (highest_top j ltac:(lia)) as (row' & E' & T' & _).
        replace (pa_n_pvrows p - 1)%nat with j by lia. split; [split; [exists row'; tauto | reflexivity]|].
        split; [apply HN; lia | apply GN]. }
  destruct OP as (OP & N1 & N2). exists (b1 (line t)), (b2 (line t)). split; [exact OP|]. intro Le.
  unfold idx. rewrite (aoi_cell_sky af a t p n f V F M i b x X). unfold aoi_sky_value. fold r tl k line.
  apply (surface_to_surface_seen i); try assumption.
  replace (line_length (line t)) with (euclid (b1 (line t)) (b2 (line t))); [exact Le|].
  unfold euclid, dist2, line_length. f_equal. ring.
Qed.

(** A surface on which every term is zero: with no length, or with nothing absorbed. *)
Lemma loss_zero : forall M i b x j, row_surf i b x ->
  (forall c2, vf_aoi_surface_to_surface (ft_n_states a) af x c2 b t = 0) ->
  (forall left y, aoi_gnd_value af a t i b left x y = 0) ->
  (forall k l, M k l = build_vf_matrix a t k l) ->
  (j < n_ts_surfaces a)%nat \/ j = n_ts_surfaces a ->
  aoi_update af a t M (idx x) j = 0.
Proof.
  clear HF HG HR NS SA Ht AF.
  intros M i b x j X SS SG EM Hj. pose proof (row_surf_lt a p n f F i b x X) as Hi.
  destruct Hj as [Hj | ->].
  2:{ unfold idx. rewrite (aoi_cell_sky af a t p n f V F M i b x X). apply SS. }
  destruct (surface_at _ _ _ _ V F j Hj) as [y [Ay [<- _]]].
  destruct (surface_row_or_gnd a y Ay) as [G | [i' [row' [b' [Hi' Hy']]]]].
  - apply (Permutation.Permutation_in y (fit_gnd_perm _ _ _ _ _ F Hi)) in G. apply in_app_or in G.
    assert (Q : forall left, In y (gnd_side_of_cut_point (ft_ground a) left i) -> aoi_update af a t M (idx x) (surf_index a y) = 0).
    { intros left L. unfold idx. rewrite (aoi_cell_gnd af a t p n f V F M i b left x y X L). apply SG. }
    destruct G; eauto.
  - assert (Y : row_surf i' b' y) by (exists row'; auto).
    assert (OT : ~ (b' = negb b /\ (i' = S i \/ i = S i')) -> aoi_update af a t M (idx x) (surf_index a y) = 0).
    { intro NF. unfold idx. rewrite (aoi_cell_other af a t p n f V F M i b i' b' x y X Y NF). rewrite EM.
      destruct X as (row & Hr & Hx).
      destruct (Req_dec (build_vf_matrix a t (surf_index a x) (surf_index a y)) 0) as [Z|Z]; [exact Z|]. exfalso.
      destruct (C15_rows p n f a t i i' row row' b b' x y V F Hr Hi' Hx Hy' Z) as [Q1 Q2]. apply NF. split; [exact Q1|].
      destruct (looks_left _ b); auto. }
    destruct (Bool.bool_dec b' (negb b)) as [->|NC]; [|apply OT; tauto].
    destruct (Nat.eq_dec i' (S i)) as [->|N1].
    + destruct (aoi_cell_row af a t p n f V F M i b x y X Y) as [E _]. unfold idx. rewrite E. unfold aoi_row_value. cbn [fst].
      rewrite SS. unfold np_where. destruct (if b then _ else _); reflexivity.
    + destruct (Nat.eq_dec i (S i')) as [->|N2]; [|apply OT; intros [_ [Q|Q]]; lia].
      rewrite <- (negb_involutive b) in X. destruct (aoi_cell_row af a t p n f V F M i' (negb b) y x Y X) as [_ E]. unfold idx. rewrite E.
      unfold aoi_row_value. cbn [snd]. rewrite negb_involutive, SS. unfold np_where. destruct (if negb b then _ else _); reflexivity.
Qed.

(** A surface with no length sees nothing. *)
Lemma loss_short : forall M i b x j, row_surf i b x -> s_length x t < DISTANCE_TOLERANCE ->
  (j <= n_ts_surfaces a)%nat -> (forall k l, M k l = build_vf_matrix a t k l) ->
  aoi_update af a t M (idx x) j = 0.
Proof.
  clear HF HG HR NS SA Ht AF.
  intros M i b x j X Lx Hj EM. apply (loss_zero M i b x j X); [| |exact EM|apply le_lt_or_eq; exact Hj].
  - intro c2. unfold vf_aoi_surface_to_surface. destruct (is_empty _ x || coords_empty _ c2)%bool; [reflexivity|].
    unfold np_where. rewrite (proj2 (Rltb_true (s_length x t) _) Lx). reflexivity.
  - intros left y. unfold aoi_gnd_value, vf_aoi_pvrow_surf_to_gnd_surf. destruct (is_empty _ x || is_empty _ y)%bool; [reflexivity|].
    unfold np_where at 1. rewrite (proj2 (Rltb_true (s_length x t) _) Lx). cbn [orb np_where].
    destruct left, b, (Rltb 0 (ft_rotation a t)); reflexivity.
Qed.

(** Neither does one which absorbs nothing. *)
Lemma loss_black : forall M i b x j, row_surf i b x -> (forall z, 0 <= z <= 180 -> fn b z = 0) ->
  (j <= n_ts_surfaces a)%nat -> (forall k l, M k l = build_vf_matrix a t k l) ->
  aoi_update af a t M (idx x) j = 0.
Proof.
  clear HF HG HR NS SA Ht.
  intros M i b x j X FZ Hj EM.
  assert (Z : forall u v, vf_aoi_between af u v b = 0).
  { intros u v. destruct (C39_wedge m af u v b AF) as (_ & _ & _ & Q & _). apply Q. exact FZ. }
  apply (loss_zero M i b x j X); [| |exact EM|apply le_lt_or_eq; exact Hj].
  - intro c2. unfold vf_aoi_surface_to_surface. destruct (is_empty _ x || coords_empty _ c2)%bool; [reflexivity|].
    unfold np_where. destruct (Rltb _ _ || Rltb _ _)%bool; [reflexivity | apply Z].
  - intros left y. unfold aoi_gnd_value, vf_aoi_pvrow_surf_to_gnd_surf. destruct (is_empty _ x || is_empty _ y)%bool; [reflexivity|].
    unfold np_where. rewrite Z. destruct (Rltb _ _ || Rltb _ _)%bool, left, b, (Rltb 0 (ft_rotation a t)); reflexivity.
Qed.
End Scene.
