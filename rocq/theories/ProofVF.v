(** View factors of a fitted array in terms of strings; they are non-negative and those
    of a surface sum to at most one. *)
From Coq Require Import Reals List Bool Arith Lra Lia Permutation.
From Verif Require Import Num ModelTs ModelGeom ModelVF Basics SpecGeom ProofGround ProofShade ProofRow
  ProofAngles ProofFit ProofCut ProofIndex ProofGeom ProofGeom2 ProofString ProofMatrix ProofTele.
Import ListNotations.
Open Scope R_scope.

(* ------------------------------------------------------------------ orientation *)

Definition mir (p : pt) : pt := Pt (- px p) (py p).
(** Mirror the plane when looking to the left. *)
Definition orient (left : bool) (p : pt) : pt := if left then mir p else p.
Definition og (left : bool) (g : R) : R := if left then - g else g.

Lemma dist_mir : forall p q, distance (mir p) (mir q) = distance p q.
Proof. intros. unfold distance, mir. cbn [px py]. f_equal. ring. Qed.
Lemma dist_orient : forall b p q, distance (orient b p) (orient b q) = distance p q.
Proof. intros [] p q; [apply dist_mir | reflexivity]. Qed.
Lemma orient_y : forall b p, py (orient b p) = py p.
Proof. intros [] p; reflexivity. Qed.
Lemma orient_gp : forall b g, orient b (gp g) = gp (og b g).
Proof. intros [] g; reflexivity. Qed.

(** The string of the code. *)
Lemma hottel_str : forall pv g o left, 0 < py pv -> 0 < py o ->
  hottel_string_length pv (gp g) o left = str (Some (orient left o)) (orient left pv) (og left g).
Proof.
  intros pv g o left Hp Ho. unfold hottel_string_length, angle_with_x_axis, str, np_where.
  rewrite <- orient_gp, !dist_orient, (dist_sym pv (gp g)).
  assert (A : forall p q, 0 < py p -> 0 < py q ->
    (atan2 (py p - py (gp g)) (px p - px (gp g)) < atan2 (py q - py (gp g)) (px q - px (gp g)) <->
     0 < crs (gp g) p q)).
  { intros p q H1 H2. unfold crs. rewrite atan2_lt_cross; [tauto | |]; unfold gp; cbn [py]; lra. }
  destruct left; cbn [orient].
  - destruct (Rltb_spec (atan2 (py o - py (gp g)) (px o - px (gp g))) (atan2 (py pv - py (gp g)) (px pv - px (gp g)))) as [H | H];
    destruct (Rlt_dec 0 (crs (mir (gp g)) (mir pv) (mir o))) as [K | K]; try reflexivity; exfalso.
    + apply A in H; auto. apply K. unfold crs, mir, gp in *. cbn [px py] in *. lra.
    + assert (0 < crs (gp g) o pv) by (unfold crs, mir, gp in *; cbn [px py] in *; lra).
      apply A in H0; auto. lra.
  - destruct (Rltb_spec (atan2 (py pv - py (gp g)) (px pv - px (gp g))) (atan2 (py o - py (gp g)) (px o - px (gp g)))) as [H | H];
    destruct (Rlt_dec 0 (crs (gp g) pv o)) as [K | K]; try reflexivity; exfalso.
    + apply A in H; auto.
    + apply A in K; auto. lra.
Qed.

(** Crossed minus uncrossed strings, for a line of which the lower and the upper ends are
    given. *)
Definition gpiece (O : option pt) (plow phigh : pt) (gl gr : R) : R :=
  (str O plow gr - str O plow gl) - (str O phigh gr - str O phigh gl).

Lemma gpiece_piece : forall L ux uy O e1 e2 gl gr,
  gpiece O (rp L ux uy e1) (rp L ux uy e2) gl gr = piece L ux uy O e1 e2 gl gr.
Proof. reflexivity. Qed.

Lemma vf_hottel_gpiece : forall high low o gl gr w left,
  0 < py high -> 0 < py low -> 0 < py o -> DISTANCE_TOLERANCE < w ->
  vf_hottel_gnd_surf high low (gp gl) (gp gr) o w left =
  gpiece (Some (orient left o)) (orient left low) (orient left high)
    (if left then - gr else gl) (if left then - gl else gr) / (2 * w).
Proof.
  intros high low o gl gr w left Hh Hl Ho Hw. unfold vf_hottel_gnd_surf, gpiece.
  assert (E : Rltb DISTANCE_TOLERANCE w = true) by (apply Rltb_true; auto). rewrite E. cbn [np_where].
  f_equal. rewrite !hottel_str by auto. destruct left; cbn [og]; ring.
Qed.

(** Crossed minus uncrossed strings between two lines. *)
Definition cross (xl xh yl yh : pt) : R :=
  distance xl yh + distance xh yl - distance xl yl - distance xh yh.

Lemma cross_sym : forall xl xh yl yh, cross xl xh yl yh = cross yl yh xl xh.
Proof.
  intros. unfold cross. rewrite (dist_sym xl yh), (dist_sym xh yl), (dist_sym xl yl), (dist_sym xh yh). ring.
Qed.

Lemma vf_s2s_cross : forall l1 l2 w xl xh yl yh,
  (l1 = Line xl xh \/ l1 = Line xh xl) -> (l2 = Line yl yh \/ l2 = Line yh yl) ->
  DISTANCE_TOLERANCE < w ->
  vf_surface_to_surface l1 l2 w = Rabs (cross xl xh yl yh) / (2 * w).
Proof.
  intros l1 l2 w xl xh yl yh H1 H2 Hw. unfold vf_surface_to_surface.
  assert (E : Rltb DISTANCE_TOLERANCE w = true) by (apply Rltb_true; auto). rewrite E. cbn [np_where].
  f_equal. unfold cross. destruct H1 as [-> | ->], H2 as [-> | ->]; cbn [b1 b2].
  - f_equal. ring.
  - rewrite <- Rabs_Ropp. f_equal. ring.
  - rewrite <- Rabs_Ropp. f_equal. ring.
  - f_equal. ring.
Qed.

Lemma vf_s2s_short : forall l1 l2 w, w <= DISTANCE_TOLERANCE -> vf_surface_to_surface l1 l2 w = 0.
Proof.
  intros. unfold vf_surface_to_surface.
  assert (E : Rltb DISTANCE_TOLERANCE w = false) by (apply Rltb_false; auto). rewrite E. reflexivity.
Qed.
Lemma vf_hottel_short : forall h l a b o w left, w <= DISTANCE_TOLERANCE -> vf_hottel_gnd_surf h l a b o w left = 0.
Proof.
  intros. unfold vf_hottel_gnd_surf.
  assert (E : Rltb DISTANCE_TOLERANCE w = false) by (apply Rltb_false; auto). rewrite E. reflexivity.
Qed.

Lemma cross_gpiece : forall xl xh gl gr,
  cross xl xh (gp gl) (gp gr) =
  (distance (gp gr) xl - distance (gp gl) xl) - (distance (gp gr) xh - distance (gp gl) xh).
Proof. intros. unfold cross. rewrite !(dist_sym xl), !(dist_sym xh). ring. Qed.

Lemma cross_gpiece_abs : forall left xl xh gl gr,
  Rabs (cross xl xh (gp gl) (gp gr)) =
  Rabs (gpiece None (orient left xl) (orient left xh) (if left then - gr else gl) (if left then - gl else gr)).
Proof.
  intros. rewrite cross_gpiece. unfold gpiece, str. destruct left; cbn [orient].
  - change (gp (- gr)) with (mir (gp gr)). change (gp (- gl)) with (mir (gp gl)). rewrite !dist_mir.
    rewrite <- Rabs_Ropp. f_equal. ring.
  - reflexivity.
Qed.

(* ---------------------------------------------------------------- a fitted array *)

Section Array.
Variables (p : pvarray_params) (n : nat) (f : fit_inputs) (a : fitted) (t : nat) (al : R).
Hypothesis V : valid_params p.
Hypothesis F : fit p n f = Some a.
Hypothesis SA : sun_angle (fi_zenith f t) (fi_azimuth f t) (pa_axis_azimuth p) al.
Hypothesis NS : ~ shading_sliver DISTANCE_TOLERANCE (pa_width p) (pa_distance p) al (ft_rotation a t).
Hypothesis HR : -180 < ft_rotation a t < 180.
Hypothesis HG : pa_width p / 2 * Rabs (sin (ft_rotation a t * PI / 180)) < pa_height p.
Hypothesis HF : ft_rotation a t = 0 -> pa_width p <= pa_distance p.

Let r := ft_rotation a t.
Let w := pa_width p.
Let D := pa_distance p.
Let h := pa_height p.
Let N := pa_n_pvrows p.
Let tl := Rltb 0 r.

Lemma r_eq : r = fit_rotation p f t.
Proof. unfold r. destruct (fit_spec _ _ _ _ F) as [_ [E _]]. rewrite E. reflexivity. Qed.
Lemma D_pos : 0 < D.
Proof. apply pa_distance_pos. auto. Qed.
Lemma w_pos : 0 < w.
Proof. destruct V. auto. Qed.

(** Point of row [i] at distance [e] from its lower edge. *)
Definition RP (i : nat) (e : R) : pt := low_point (INR i * D) h w r e.
Definition Lp (i : nat) : pt := RP i 0.
Definition oux (left : bool) : R := if left then - up_x r else up_x r.
Definition uy : R := up_y r.
Definition OL (left : bool) (i : nat) : pt := orient left (Lp i).

Lemma uy_nonneg : 0 <= uy.
Proof. apply up_y_nonneg. exact HR. Qed.
Lemma oux_unit : forall left, oux left * oux left + uy * uy = 1.
Proof. intro left. pose proof (up_unit r). unfold oux, uy. destruct left; lra. Qed.

Lemma orient_RP : forall left i e, orient left (RP i e) = rp (OL left i) (oux left) uy e.
Proof.
  intros. unfold OL, Lp, RP. rewrite (low_point_line _ _ _ _ e). unfold rp, oux, uy, orient, mir.
  destruct left; cbn [px py]; f_equal; ring.
Qed.

Lemma Lp_shift : forall i e, RP (S i) e = Pt (px (RP i e) + D) (py (RP i e)).
Proof.
  intros. unfold RP, low_point. rewrite !row_point_eq. cbn [px py]. rewrite S_INR. f_equal. ring.
Qed.

Lemma Lp_y : forall i, 0 < py (Lp i).
Proof.
  intro i. unfold Lp, RP, low_point. rewrite row_point_eq. cbn [py]. unfold from_low_end.
  fold r in HG. fold w h in HG.
  assert (E : Rabs (sind r) = Rabs (sin (r * PI / 180))) by (unfold sind, deg2rad; reflexivity).
  rewrite <- E in HG. pose proof (RRle_abs (sind r)). pose proof (RRle_abs (- sind r)). rewrite Rabs_Ropp in *.
  pose proof w_pos. destruct (Rlt_dec 0 r); nra.
Qed.
Lemma RP_y : forall i e, 0 <= e -> 0 < py (RP i e).
Proof.
  intros i e He. pose proof (Lp_y i). pose proof (low_point_y (INR i * D) h w r 0 e HR He).
  unfold Lp, RP in *. lra.
Qed.
Lemma OL_y : forall left i, 0 < py (OL left i).
Proof. intros. unfold OL. rewrite orient_y. apply Lp_y. Qed.

(** Next row in the direction of view. *)
Definition is_edge (left : bool) (i : nat) : bool := if left then Nat.eqb i 0 else Nat.eqb i (N - 1).
Definition next (left : bool) (i : nat) : nat := if left then (i - 1)%nat else (i + 1)%nat.
Definition obs (left : bool) (i : nat) : option pt :=
  if is_edge left i then None else Some (ob_pt (OL left i) D).

Lemma orient_next_RP : forall left i e, (i < N)%nat -> is_edge left i = false ->
  orient left (RP (next left i) e) = np (OL left i) (oux left) uy D e.
Proof.
  intros left i e Hi H. unfold np. pose proof (orient_RP left i e) as E. unfold rp in E.
  destruct left; cbn [is_edge next] in *.
  - apply Nat.eqb_neq in H. assert (Ei : i = S (i - 1)) by lia.
    pose proof (Lp_shift (i - 1) e) as Q. rewrite <- Ei in Q. rewrite Q in E.
    generalize dependent (RP (i - 1) e). generalize (OL true i). intros o q E _. unfold orient, mir in *.
    pose proof (f_equal px E) as E1. pose proof (f_equal py E) as E2. cbn [px py] in *. f_equal; lra.
  - rewrite Nat.add_1_r, Lp_shift. cbn [orient] in *. rewrite E. cbn [px py]. f_equal; lra.
Qed.

Lemma orient_next : forall left i, (i < N)%nat -> is_edge left i = false ->
  orient left (Lp (next left i)) = ob_pt (OL left i) D.
Proof.
  intros. unfold Lp. rewrite orient_next_RP by auto. apply np_0.
Qed.

Lemma next_lt : forall left i, (i < N)%nat -> is_edge left i = false -> (next left i < N)%nat.
Proof. intros [] i Hi H; cbn in *; apply Nat.eqb_neq in H; lia. Qed.

Lemma fit_rows_at : ft_rows a = fit_rows p (fit_alpha p f) (fit_rotation p f).
Proof. destruct (fit_spec _ _ _ _ F) as [_ [_ [_ [E _]]]]. exact E. Qed.

Lemma rows_length : length (ft_rows a) = N.
Proof. rewrite fit_rows_at. apply fit_rows_length. Qed.

Lemma row_lowest : forall i, (i < N)%nat -> row_lowest_pt (ft_rows a) i t = Lp i.
Proof.
  intros i Hi. unfold row_lowest_pt. rewrite fit_rows_at, fit_rows_nth by exact Hi.
  rewrite fit_row_coords. rewrite <- r_eq. unfold Lp, RP. fold D h w.
  destruct (Req_dec r 0) as [Z | Nz].
  - rewrite Z. rewrite !(low_point_flat_eq _ _ w).
    replace (w / 2 - - (w / 2)) with w by field. replace (w / 2 - w / 2) with 0 by ring.
    apply (proj2 (flat_ends (INR i * D) h w w 0 (Rlt_le _ _ w_pos))).
  - destruct (line_ends (INR i * D) h w r 0 w HR Nz) as [_ [A [_ B]]]; [left; apply w_pos |].
    unfold low_point, from_low_end in *. destruct (Rlt_dec 0 r).
    + replace (- (w / 2) + 0) with (- (w / 2)) in * by ring. replace (- (w / 2) + w) with (w / 2) in * by field. exact A.
    + replace (w / 2 - 0) with (w / 2) in * by ring. replace (w / 2 - w) with (- (w / 2)) in * by field. exact B.
Qed.

Lemma row_of : forall i, (i < N)%nat ->
  nth_error (ft_rows a) i = Some (fit_row p (fit_alpha p f) (fit_rotation p f) i).
Proof.
  intros i Hi. rewrite fit_rows_at, fit_rows_eq, nth_error_map. rewrite nth_error_seq by exact Hi. reflexivity.
Qed.

Lemma row_lt : forall i row, nth_error (ft_rows a) i = Some row -> (i < N)%nat.
Proof. intros i row H. destruct (fit_rows_nth_error _ _ _ _ _ _ F H). auto. Qed.

Lemma surface_spans : forall i row b x, nth_error (ft_rows a) i = Some row ->
  In x (side_surfaces (side_of b row)) -> spans_between (RP i) 0 w t x.
Proof.
  intros i row b x Hr Hx. destruct (fit_rows_nth_error _ _ _ _ _ _ F Hr) as [_ ->].
  destruct (row_sl_bounds p f i t V) as [B1 B2]. unfold RP. rewrite r_eq.
  pose proof HR as HR'. fold r in HR'. rewrite r_eq in HR'.
  destruct b; cbn [side_of] in Hx; [rewrite fit_row_back in Hx | rewrite fit_row_front in Hx];
    eapply side_spans in Hx; eauto; try apply w_pos.
Qed.

Lemma surface_telescope : forall i row b (G : pt -> R), nth_error (ft_rows a) i = Some row ->
  rsum (map (fun s => G (s_highest s t) - G (s_lowest s t)) (side_surfaces (side_of b row))) =
  G (RP i w) - G (Lp i).
Proof.
  intros i row b G Hr. destruct (fit_rows_nth_error _ _ _ _ _ _ F Hr) as [_ ->].
  destruct (row_sl_bounds p f i t V) as [B1 B2]. unfold Lp, RP. rewrite r_eq.
  pose proof HR as HR'. fold r in HR'. rewrite r_eq in HR'. pose proof V as [_ [_ [_ C]]].
  destruct b; cbn [side_of]; [rewrite fit_row_back | rewrite fit_row_front];
    apply side_telescope; auto; try apply w_pos.
Qed.

(** Cut point of row [i], clipped to the ground. *)
Definition cutx (i : nat) : R :=
  ck (cut_point (row_coords (fit_row p (fit_alpha p f) (fit_rotation p f) i) t) (fit_rotation p f t) pa_y_ground).

Lemma above : above_ground p (fit_rotation p f t).
Proof. pose proof HG as H. fold r in H. rewrite r_eq in H. exact H. Qed.

Lemma HRf : -180 < fit_rotation p f t < 180.
Proof. pose proof HR as H. fold r in H. rewrite r_eq in H. exact H. Qed.

Lemma cuts_nth : forall i, (i < N)%nat ->
  nth_error (map (fun (c : ts line) (t0 : nat) => cut_point (c t0) (fit_rotation p f t0) pa_y_ground)
    (map row_coords (fit_rows p (fit_alpha p f) (fit_rotation p f)))) i =
  Some (fun t0 : nat => cut_point (row_coords (fit_row p (fit_alpha p f) (fit_rotation p f) i) t0) (fit_rotation p f t0) pa_y_ground).
Proof.
  intros i Hi. rewrite map_map, nth_error_map, fit_rows_eq, nth_error_map.
  rewrite nth_error_seq by exact Hi. reflexivity.
Qed.

Lemma raw_ord : raw_ordered t (direct_shading_flag (fit_shading p (fit_alpha p f) (fit_rotation p f) t))
    (map (fun c t => shadow_coords (c t) (fit_alpha p f t) pa_y_ground)
       (map row_coords (fit_rows p (fit_alpha p f) (fit_rotation p f)))).
Proof.
  pose proof NS as H. fold r in H. rewrite r_eq in H. apply (fit_raw_ordered' p f t al V SA H).
Qed.

Lemma gnd_telescope : forall i left (G : R -> R), (i < N)%nat ->
  rsum (map (fun s => G (px (b2 (s_coords s t))) - G (px (b1 (s_coords s t))))
         (gnd_side_of_cut_point (ft_ground a) left i)) =
  if left then G (cutx i) - G MIN_X_GROUND else G MAX_X_GROUND - G (cutx i).
Proof.
  intros i left G Hi. destruct (fit_cuts p (fit_alpha p f) (fit_rotation p f) t V above HRf) as [_ [Nn Sc]].
  exact (gnd_side_telescope G _ _ _ _ _ i _ t left (fit_ground_ordered _ _ _ _ F) raw_ord Nn Sc (cuts_nth i Hi)).
Qed.

Lemma gnd_shape : forall y, In y (gnd_surfaces (ft_ground a)) ->
  s_coords y t = Line (gp (px (b1 (s_coords y t)))) (gp (px (b2 (s_coords y t)))) /\
  px (b1 (s_coords y t)) <= px (b2 (s_coords y t)) /\
  s_length y t = px (b2 (s_coords y t)) - px (b1 (s_coords y t)) /\
  -100 <= px (b1 (s_coords y t)) /\ px (b2 (s_coords y t)) <= 100.
Proof.
  intros y Hy. destruct (fit_cuts p (fit_alpha p f) (fit_rotation p f) t V above HRf) as [_ [Nn Sc]].
  pose proof (fit_ground_ordered _ _ _ _ F) as G.
  pose proof (gnd_surface_in_ground _ _ _ _ _ _ _ G raw_ord Nn Hy) as [I1 [I2 I3]].
  destruct (gnd_surface_y _ _ _ _ _ t _ G Hy) as [Y1 Y2].
  pose proof (flat_length _ _ _ _ _ _ _ G raw_ord Nn Hy) as E.
  destruct ground_bounds as [B1 B2]. rewrite B1 in I1. rewrite B2 in I3.
  repeat split; auto. destruct (s_coords y t) as [[x1 y1] [x2 y2]]. cbn [b1 b2 px py] in *.
  unfold gp. unfold pa_y_ground in *. subst. reflexivity.
Qed.

Lemma gnd_side_pos : forall i left y, (i < N)%nat -> In y (gnd_side_of_cut_point (ft_ground a) left i) ->
  if left then px (b2 (s_coords y t)) <= cutx i else cutx i <= px (b1 (s_coords y t)).
Proof.
  intros i left y Hi Hy. destruct (fit_cuts p (fit_alpha p f) (fit_rotation p f) t V above HRf) as [_ [Nn Sc]].
  destruct (gnd_side_sound _ _ _ _ _ i _ t y (fit_ground_ordered _ _ _ _ F) raw_ord Nn Sc (cuts_nth i Hi)) as [A B].
  destruct left; [apply A | apply B]; auto.
Qed.

(** Position of the ground with respect to the line of the row. *)
Lemma side_k_cut : forall left i, r <> 0 ->
  side_k (OL left i) (oux left) uy (og left (INR i * D - h * cosd r / sind r)) = 0 /\
  forall g, side_k (OL left i) (oux left) uy g =
            uy * (g - og left (INR i * D - h * cosd r / sind r)).
Proof.
  intros left i Nz. pose proof (up_y_pos r HR Nz) as U.
  assert (Sn : sind r <> 0) by (unfold up_y in U; destruct (Rlt_dec 0 r); lra).
  assert (E : forall g, side_k (OL left i) (oux left) uy g = uy * (g - og left (INR i * D - h * cosd r / sind r))).
  { intro g. unfold side_k, OL, Lp, RP, low_point, oux, uy, og, orient, mir. rewrite row_point_eq.
    unfold from_low_end, up_x, up_y. destruct left, (Rlt_dec 0 r); cbn [px py]; field; auto. }
  split; [rewrite E; ring | exact E].
Qed.

Lemma cutx_eq : forall i, r <> 0 -> cutx i = ck (XFin (INR i * D - h * cosd r / sind r)).
Proof.
  intros i Nz. unfold cutx. rewrite (fit_cut_point p (fit_alpha p f) (fit_rotation p f) i t above HRf).
  rewrite <- r_eq. destruct (Req_EM_T r 0); [contradiction |]. reflexivity.
Qed.
Lemma cutx_flat : forall i, r = 0 -> cutx i = 100.
Proof.
  intros i Z. unfold cutx. rewrite (fit_cut_point p (fit_alpha p f) (fit_rotation p f) i t above HRf).
  rewrite <- r_eq. destruct (Req_EM_T r 0); [| contradiction]. destruct ground_bounds as [_ <-]. reflexivity.
Qed.

Lemma ck_fin_le : forall x g, g < 100 -> ck (XFin x) <= g -> x <= g.
Proof. intros x g H K. unfold ck, xclip in K. destruct ground_bounds as [E1 E2]. rewrite E1, E2 in K. minmax; lra. Qed.
Lemma ck_fin_ge : forall x g, -100 < g -> g <= ck (XFin x) -> g <= x.
Proof. intros x g H K. unfold ck, xclip in K. destruct ground_bounds as [E1 E2]. rewrite E1, E2 in K. minmax; lra. Qed.

(** Oriented left end and right end of a ground surface. *)
Definition ogl (left : bool) (y : ts_surface) : R :=
  if left then - px (b2 (s_coords y t)) else px (b1 (s_coords y t)).
Definition ogr (left : bool) (y : ts_surface) : R :=
  if left then - px (b1 (s_coords y t)) else px (b2 (s_coords y t)).

Lemma ogl_ogr : forall left y, In y (gnd_surfaces (ft_ground a)) -> ogl left y <= ogr left y /\ s_length y t = ogr left y - ogl left y.
Proof.
  intros left y Hy. destruct (gnd_shape y Hy) as [_ [H1 [H2 _]]]. unfold ogl, ogr. destruct left; lra.
Qed.

Lemma gnd_visible : forall i left y, (i < N)%nat -> In y (gnd_side_of_cut_point (ft_ground a) left i) ->
  ogl left y < ogr left y -> 0 <= side_k (OL left i) (oux left) uy (ogl left y).
Proof.
  intros i left y Hi Hy Hlen. pose proof (gnd_side_pos i left y Hi Hy) as P.
  destruct (gnd_shape y (in_gnd_side _ _ _ _ _ _ _ F Hi Hy)) as [_ [_ [_ [B1 B2]]]].
  destruct (Req_dec r 0) as [Z | Nz].
  - rewrite cutx_flat in P by auto. destruct left; unfold ogl, ogr in *; [| lra].
    unfold side_k, oux, uy. rewrite Z. destruct up_flat as [-> ->]. pose proof (OL_y true i). lra.
  - destruct (side_k_cut left i Nz) as [_ E]. rewrite E.
    apply Rmult_le_pos; [apply uy_nonneg |]. rewrite cutx_eq in P by auto.
    unfold ogl, ogr, og in *. destruct left.
    + apply ck_fin_ge in P; lra.
    + apply ck_fin_le in P; lra.
Qed.

(* --------------------------------------------------- value of each view factor *)

(** Crossed minus uncrossed strings between row surface [x] of row [i] and ground
    surface [y], seen in direction [left]. *)
Definition xpiece (left : bool) (i : nat) (x y : ts_surface) : R :=
  gpiece (obs left i) (orient left (s_lowest x t)) (orient left (s_highest x t)) (ogl left y) (ogr left y).

Lemma xpiece_nonneg : forall i row b left x y, nth_error (ft_rows a) i = Some row ->
  In x (side_surfaces (side_of b row)) -> In y (gnd_side_of_cut_point (ft_ground a) left i) ->
  0 <= xpiece left i x y.
Proof.
  intros i row b left x y Hr Hx Hy. pose proof (row_lt _ _ Hr) as Hi.
  destruct (surface_spans _ _ _ _ Hr Hx) as [lo [hi [E1 [E2 [Elo [Ehi _]]]]]].
  destruct (ogl_ogr left y (in_gnd_side _ _ _ _ _ _ _ F Hi Hy)) as [G1 G2].
  unfold xpiece. rewrite Elo, Ehi, !orient_RP.
  destruct (Rle_lt_or_eq_dec _ _ G1) as [Lt | Eq].
  - pose proof (gnd_visible _ _ _ Hi Hy Lt) as K. unfold obs. destruct (is_edge left i).
    + rewrite gpiece_piece. apply piece_none_nonneg; auto using OL_y, oux_unit, uy_nonneg; lra.
    + rewrite gpiece_piece. apply piece_some_nonneg; auto using OL_y, oux_unit, uy_nonneg, D_pos; lra.
  - rewrite Eq. unfold gpiece. lra.
Qed.

Lemma vf_gnd_value : forall i row b left x y, nth_error (ft_rows a) i = Some row ->
  In x (side_surfaces (side_of b row)) -> In y (gnd_side_of_cut_point (ft_ground a) left i) ->
  fst (vf_pvrow_surf_to_gnd_surf (ft_rows a) tl i b left t x y) =
    (if Bool.eqb left (xorb b tl) && Rltb DISTANCE_TOLERANCE (s_length x t)
     then xpiece left i x y / (2 * s_length x t) else 0) /\
  snd (vf_pvrow_surf_to_gnd_surf (ft_rows a) tl i b left t x y) =
    (if Bool.eqb left (xorb b tl) && Rltb DISTANCE_TOLERANCE (s_length x t) && Rltb DISTANCE_TOLERANCE (s_length y t)
     then xpiece left i x y / (2 * s_length y t) else 0).
Proof.
  intros i row b left x y Hr Hx Hy. pose proof (row_lt _ _ Hr) as Hi.
  destruct (surface_spans _ _ _ _ Hr Hx) as [lo [hi [E1 [E2 [Elo [Ehi [El Ec]]]]]]].
  destruct (gnd_shape y (in_gnd_side _ _ _ _ _ _ _ F Hi Hy)) as [Ey _].
  pose proof (xpiece_nonneg _ _ _ _ _ _ Hr Hx Hy) as P0.
  assert (A : fst (vf_pvrow_surf_to_gnd_surf (ft_rows a) tl i b left t x y) =
    (if Bool.eqb left (xorb b tl) && Rltb DISTANCE_TOLERANCE (s_length x t)
     then xpiece left i x y / (2 * s_length x t) else 0)).
  { unfold vf_pvrow_surf_to_gnd_surf. cbn [fst]. rewrite rows_length.
    set (vf0 := if (left && (i =? 0)%nat || negb left && (i =? N - 1)%nat)%bool then _ else _).
    assert (E0 : vf0 = if Rltb DISTANCE_TOLERANCE (s_length x t) then xpiece left i x y / (2 * s_length x t) else 0).
    { unfold vf0. assert (Ed : (left && (i =? 0)%nat || negb left && (i =? N - 1)%nat)%bool = is_edge left i)
        by (destruct left; cbn; [rewrite orb_false_r |]; reflexivity).
      rewrite Ed. destruct (Rltb_spec DISTANCE_TOLERANCE (s_length x t)) as [Lx | Lx].
      - unfold xpiece, obs in *. destruct (is_edge left i) eqn:Eg.
        + rewrite (vf_s2s_cross _ _ _ (s_lowest x t) (s_highest x t)
                     (gp (px (b1 (s_coords y t)))) (gp (px (b2 (s_coords y t))))); auto.
          * rewrite (cross_gpiece_abs left). fold (ogl left y) (ogr left y). rewrite Rabs_right; [reflexivity | lra].
          * rewrite Elo, Ehi. exact Ec.
        + fold (next left i). rewrite row_lowest by (apply next_lt; auto).
          rewrite Ey at 1 2. cbn [b1 b2].
          rewrite vf_hottel_gpiece; auto; try (rewrite ?Elo, ?Ehi; apply RP_y; lra); try apply Lp_y.
          rewrite orient_next by auto. reflexivity.
      - destruct (is_edge left i); [apply vf_s2s_short | apply vf_hottel_short]; auto. }
    clearbody vf0. rewrite E0. destruct left, b, tl; cbn [xorb Bool.eqb andb np_where]; reflexivity. }
  split; [exact A |].
  assert (B : snd (vf_pvrow_surf_to_gnd_surf (ft_rows a) tl i b left t x y) =
    np_where (Rltb DISTANCE_TOLERANCE (s_length y t))
      (fst (vf_pvrow_surf_to_gnd_surf (ft_rows a) tl i b left t x y) * s_length x t / s_length y t) 0) by reflexivity.
  rewrite B, A. pose proof DISTANCE_TOLERANCE_pos.
  destruct (Bool.eqb left (xorb b tl)); cbn [andb]; unfold np_where.
  - destruct (Rltb_spec DISTANCE_TOLERANCE (s_length x t)), (Rltb_spec DISTANCE_TOLERANCE (s_length y t)); cbn [andb]; auto; try lra; field; lra.
  - destruct (Rltb_spec DISTANCE_TOLERANCE (s_length y t)); auto; field; lra.
Qed.

Lemma cross_rows_nonneg : forall i row row' b b' x y,
  nth_error (ft_rows a) i = Some row -> nth_error (ft_rows a) (S i) = Some row' ->
  In x (side_surfaces (side_of b row)) -> In y (side_surfaces (side_of b' row')) ->
  0 <= cross (s_lowest x t) (s_highest x t) (s_lowest y t) (s_highest y t).
Proof.
  intros i row row' b b' x y Hr Hr' Hx Hy. pose proof (row_lt _ _ Hr) as Hi. pose proof (row_lt _ _ Hr') as Hi'.
  destruct (surface_spans _ _ _ _ Hr Hx) as [lo [hi [E1 [E2 [Elo [Ehi _]]]]]].
  destruct (surface_spans _ _ _ _ Hr' Hy) as [lo' [hi' [E1' [E2' [Elo' [Ehi' _]]]]]].
  rewrite Elo, Ehi, Elo', Ehi'.
  assert (Ed : is_edge false i = false) by (cbn; apply Nat.eqb_neq; lia).
  pose proof (orient_next_RP false i) as Q. cbn [next orient] in Q. rewrite Nat.add_1_r in Q.
  rewrite !Q by auto. pose proof (orient_RP false i) as Q'. cbn [orient] in Q'. rewrite !Q'.
  pose proof (chi_np_mono (OL false i) (oux false) uy D uy_nonneg D_pos lo hi lo' hi') as C.
  assert (K : chi (OL false i) (oux false) uy lo hi (np (OL false i) (oux false) uy D hi') <=
              chi (OL false i) (oux false) uy lo hi (np (OL false i) (oux false) uy D lo')).
  { apply C; auto; try lra. intro Z. exists 0.
    assert (Z' : r = 0).
    { destruct (Req_dec r 0); auto. pose proof (up_y_pos r HR). unfold uy in Z. lra. }
    assert (U : oux false = -1) by (unfold oux; rewrite Z'; apply up_flat). rewrite U.
    assert (w <= D) by (apply HF; exact Z'). lra. }
  unfold chi in K. unfold cross.
  rewrite !(dist_sym (rp _ _ _ _) (np _ _ _ _ _)). lra.
Qed.

Lemma vf_row_value : forall i row row' b x y,
  nth_error (ft_rows a) i = Some row -> nth_error (ft_rows a) (S i) = Some row' ->
  In x (side_surfaces (side_of b row)) -> In y (side_surfaces (side_of (negb b) row')) ->
  let c := cross (s_lowest x t) (s_highest x t) (s_lowest y t) (s_highest y t) in
  let facing := if b then tl else negb tl in
  fst (vf_pvrow_pair facing t x y) =
    (if facing && Rltb DISTANCE_TOLERANCE (s_length x t) then c / (2 * s_length x t) else 0) /\
  snd (vf_pvrow_pair facing t x y) =
    (if facing && Rltb DISTANCE_TOLERANCE (s_length x t) && Rltb DISTANCE_TOLERANCE (s_length y t)
     then c / (2 * s_length y t) else 0).
Proof.
  intros i row row' b x y Hr Hr' Hx Hy c facing.
  pose proof (cross_rows_nonneg _ _ _ _ _ _ _ Hr Hr' Hx Hy) as P0. fold c in P0.
  destruct (surface_spans _ _ _ _ Hr Hx) as [lo [hi [E1 [E2 [Elo [Ehi [El Ec]]]]]]].
  destruct (surface_spans _ _ _ _ Hr' Hy) as [lo' [hi' [E1' [E2' [Elo' [Ehi' [El' Ec']]]]]]].
  assert (A : fst (vf_pvrow_pair facing t x y) =
    (if facing && Rltb DISTANCE_TOLERANCE (s_length x t) then c / (2 * s_length x t) else 0)).
  { unfold vf_pvrow_pair. cbn [fst]. destruct facing; cbn [np_where andb]; [| reflexivity].
    destruct (Rltb_spec DISTANCE_TOLERANCE (s_length x t)) as [Lx | Lx].
    - rewrite (vf_s2s_cross _ _ _ (s_lowest x t) (s_highest x t) (s_lowest y t) (s_highest y t)); auto.
      + fold c. rewrite Rabs_right by lra. reflexivity.
      + rewrite Elo, Ehi. exact Ec.
      + rewrite Elo', Ehi'. exact Ec'.
    - apply vf_s2s_short. auto. }
  split; [exact A |].
  assert (B : snd (vf_pvrow_pair facing t x y) =
    np_where (Rltb DISTANCE_TOLERANCE (s_length y t)) (fst (vf_pvrow_pair facing t x y) * s_length x t / s_length y t) 0) by reflexivity.
  rewrite B, A. pose proof DISTANCE_TOLERANCE_pos. destruct facing; cbn [andb]; unfold np_where.
  - destruct (Rltb_spec DISTANCE_TOLERANCE (s_length x t)), (Rltb_spec DISTANCE_TOLERANCE (s_length y t)); cbn [andb]; auto; try lra; field; lra.
  - destruct (Rltb_spec DISTANCE_TOLERANCE (s_length y t)); auto; field; lra.
Qed.

(* ------------------------------------------------------------ cells of the matrix *)

Let M := pre_sky a t.
Let idx := surf_index a.

Lemma empty_short : forall x, (t < n)%nat -> DISTANCE_TOLERANCE < s_length x t -> is_empty (ft_n_states a) x = false.
Proof.
  intros x Ht H. destruct (fit_spec _ _ _ _ F) as [-> _]. unfold is_empty. apply Rltb_false.
  rewrite np_sum_isum. apply Rle_trans with (s_length x t); [lra |].
  apply (isum_in_le n (s_length x) t); auto. intros. apply sqrt_pos.
Qed.

Lemma cell_zero : forall x y, In x (all_ts_surfaces a) -> In y (all_ts_surfaces a) ->
  (forall v, pair_of a t x y v -> is_empty (ft_n_states a) x = false -> is_empty (ft_n_states a) y = false -> False) ->
  (forall v, pair_of a t y x v -> is_empty (ft_n_states a) x = false -> is_empty (ft_n_states a) y = false -> False) ->
  M (idx x) (idx y) = 0.
Proof.
  intros x y Ax Ay H1 H2. destruct (Req_dec (M (idx x) (idx y)) 0) as [E | E]; auto. exfalso.
  apply (pre_sky_other a) in E. destruct E as [x' [y' [v [Hp [Ex [Ey [[K1 K2] | [K1 K2]]]]]]]];
    destruct (pair_in_all _ _ _ _ F _ _ _ _ Hp) as [Ax' Ay'].
  - apply (surf_index_inj _ _ _ _ _ _ V F Ax Ax') in K1. apply (surf_index_inj _ _ _ _ _ _ V F Ay Ay') in K2.
    subst. eapply H1; eauto.
  - apply (surf_index_inj _ _ _ _ _ _ V F Ax Ay') in K1. apply (surf_index_inj _ _ _ _ _ _ V F Ay Ax') in K2.
    subst. eapply H2; eauto.
Qed.

Lemma cell_pair : forall x y v, pair_of a t x y v ->
  M (idx x) (idx y) = (if is_empty (ft_n_states a) x || is_empty (ft_n_states a) y then 0 else fst v) /\
  M (idx y) (idx x) = (if is_empty (ft_n_states a) x || is_empty (ft_n_states a) y then 0 else snd v).
Proof.
  intros x y v H. destruct (pair_in_all _ _ _ _ F _ _ _ _ H) as [Ax Ay].
  destruct (is_empty (ft_n_states a) x) eqn:Ex; [| destruct (is_empty (ft_n_states a) y) eqn:Ey]; cbn [orb].
  - split; apply cell_zero; auto; intros; congruence.
  - split; apply cell_zero; auto; intros; congruence.
  - exact (pre_sky_pair _ _ _ _ V F _ _ _ _ H Ex Ey).
Qed.

Lemma gnd_pair_of : forall i row b left x y, nth_error (ft_rows a) i = Some row ->
  In x (side_surfaces (side_of b row)) -> In y (gnd_side_of_cut_point (ft_ground a) left i) ->
  pair_of a t x y (vf_pvrow_surf_to_gnd_surf (ft_rows a) tl i b left t x y).
Proof. intros i row b left x y Hr Hx Hy. left. exists i, row, b, left. auto. Qed.

Lemma row_pair_of : forall i row row' b x y, nth_error (ft_rows a) i = Some row -> nth_error (ft_rows a) (S i) = Some row' ->
  In x (side_surfaces (side_of b row)) -> In y (side_surfaces (side_of (negb b) row')) ->
  pair_of a t x y (vf_pvrow_pair (if b then tl else negb tl) t x y).
Proof. intros i row row' b x y Hr Hr' Hx Hy. right. exists i, row, row', b. auto. Qed.

(** Row surface to ground surface, and back. *)
Lemma cell_row_gnd : forall i row b left x y, nth_error (ft_rows a) i = Some row ->
  In x (side_surfaces (side_of b row)) -> In y (gnd_side_of_cut_point (ft_ground a) left i) ->
  0 <= M (idx x) (idx y) /\ 0 <= M (idx y) (idx x) /\
  M (idx x) (idx y) <= (if Bool.eqb left (xorb b tl) && Rltb DISTANCE_TOLERANCE (s_length x t)
                        then xpiece left i x y / (2 * s_length x t) else 0) /\
  M (idx y) (idx x) <= (if Bool.eqb left (xorb b tl) && Rltb DISTANCE_TOLERANCE (s_length x t) && Rltb DISTANCE_TOLERANCE (s_length y t)
                        then xpiece left i x y / (2 * s_length y t) else 0).
Proof.
  intros i row b left x y Hr Hx Hy. destruct (cell_pair _ _ _ (gnd_pair_of _ _ _ _ _ _ Hr Hx Hy)) as [-> ->].
  destruct (vf_gnd_value _ _ _ _ _ _ Hr Hx Hy) as [-> ->].
  pose proof (xpiece_nonneg _ _ _ _ _ _ Hr Hx Hy) as P0. pose proof DISTANCE_TOLERANCE_pos as T0.
  assert (Q : forall (b : bool) l, 0 <= (if b && Rltb DISTANCE_TOLERANCE l then xpiece left i x y / (2 * l) else 0)).
  { intros b0 l. destruct b0; cbn [andb]; [| lra]. destruct (Rltb_spec DISTANCE_TOLERANCE l); [| lra].
    apply Rmult_le_pos; [auto | left; apply Rinv_0_lt_compat; lra]. }
  pose proof (Q (Bool.eqb left (xorb b tl)) (s_length x t)).
  pose proof (Q (Bool.eqb left (xorb b tl) && Rltb DISTANCE_TOLERANCE (s_length x t)) (s_length y t)).
  destruct (is_empty (ft_n_states a) x || is_empty (ft_n_states a) y); lra.
Qed.

Lemma cell_row_row : forall i row row' b x y, nth_error (ft_rows a) i = Some row -> nth_error (ft_rows a) (S i) = Some row' ->
  In x (side_surfaces (side_of b row)) -> In y (side_surfaces (side_of (negb b) row')) ->
  let c := cross (s_lowest x t) (s_highest x t) (s_lowest y t) (s_highest y t) in
  let facing := if b then tl else negb tl in
  0 <= M (idx x) (idx y) /\ 0 <= M (idx y) (idx x) /\
  M (idx x) (idx y) <= (if facing && Rltb DISTANCE_TOLERANCE (s_length x t) then c / (2 * s_length x t) else 0) /\
  M (idx y) (idx x) <= (if facing && Rltb DISTANCE_TOLERANCE (s_length x t) && Rltb DISTANCE_TOLERANCE (s_length y t)
                        then c / (2 * s_length y t) else 0).
Proof.
  intros i row row' b x y Hr Hr' Hx Hy c facing.
  destruct (cell_pair _ _ _ (row_pair_of _ _ _ _ _ _ Hr Hr' Hx Hy)) as [-> ->].
  destruct (vf_row_value _ _ _ _ _ _ Hr Hr' Hx Hy) as [-> ->]. fold c facing.
  pose proof (cross_rows_nonneg _ _ _ _ _ _ _ Hr Hr' Hx Hy) as P0. fold c in P0. pose proof DISTANCE_TOLERANCE_pos as T0.
  assert (Q : forall (b : bool) l, 0 <= (if b && Rltb DISTANCE_TOLERANCE l then c / (2 * l) else 0)).
  { intros b0 l. destruct b0; cbn [andb]; [| lra]. destruct (Rltb_spec DISTANCE_TOLERANCE l); [| lra].
    apply Rmult_le_pos; [auto | left; apply Rinv_0_lt_compat; lra]. }
  pose proof (Q facing (s_length x t)).
  pose proof (Q (facing && Rltb DISTANCE_TOLERANCE (s_length x t)) (s_length y t)).
  destruct (is_empty (ft_n_states a) x || is_empty (ft_n_states a) y); lra.
Qed.

Lemma cells_nonneg : forall k m, 0 <= M k m.
Proof.
  intros k m. destruct (Req_dec (M k m) 0) as [E | E]; [lra |].
  apply (pre_sky_other a) in E. destruct E as [x [y [v [Hp [Ex [Ey K]]]]]].
  assert (Q : 0 <= M (idx x) (idx y) /\ 0 <= M (idx y) (idx x)).
  { destruct Hp as [[i [row [b [l [Hr [Hx [Hy _]]]]]]] | [i [row [row' [b [Hr [Hr' [Hx [Hy _]]]]]]]]].
    - destruct (cell_row_gnd _ _ _ _ _ _ Hr Hx Hy). tauto.
    - destruct (cell_row_row _ _ _ _ _ _ Hr Hr' Hx Hy). tauto. }
  destruct K as [[-> ->] | [-> ->]]; tauto.
Qed.

(* ----------------------------------------------------------- sum for a row surface *)

(** Two surfaces of rows, not on opposite sides of neighbouring rows, do not see each
    other. *)
Lemma cell_rows_zero : forall i j row rowj b c x y, nth_error (ft_rows a) i = Some row -> nth_error (ft_rows a) j = Some rowj ->
  In x (side_surfaces (side_of b row)) -> In y (side_surfaces (side_of c rowj)) ->
  ~ (c = negb b /\ (j = S i \/ i = S j)) -> M (idx x) (idx y) = 0.
Proof.
  intros i j row rowj b c x y Hr Hj Hx Hy H.
  destruct (fit_side_ids _ _ _ _ _ _ _ _ V F Hr Hx) as [k [s I]].
  destruct (fit_side_ids _ _ _ _ _ _ _ _ V F Hj Hy) as [k' [s' J]].
  apply cell_zero; [exact (in_all_row _ _ _ _ _ Hr Hx) | exact (in_all_row _ _ _ _ _ Hj Hy) | |];
    intros v Hp _ _; destruct (pair_ids _ _ _ _ V F _ _ _ _ Hp) as [i0 [b0 [k0 [s0 [I1 I2]]]]]; apply H.
  - rewrite I in I1. injection I1 as E1 E2 E3 E4. subst. rewrite J in I2.
    destruct I2 as [[? [? I2]] | [[? [? I2]] | [? [? I2]]]]; try discriminate.
    injection I2 as E1 E2 E3 E4. subst. auto.
  - rewrite J in I1. injection I1 as E1 E2 E3 E4. subst. rewrite I in I2.
    destruct I2 as [[? [? I2]] | [[? [? I2]] | [? [? I2]]]]; try discriminate.
    injection I2 as E1 E2 E3 E4. subst. rewrite negb_involutive. auto.
Qed.

Lemma rsum_map_nonpos_le : forall (A : Type) (G : A -> R) l, (forall x, In x l -> G x <= 0) -> rsum (map G l) <= 0.
Proof.
  intros A G l H. rewrite <- (rsum_map_zero A (fun _ => 0) l) by auto. apply rsum_map_le. auto.
Qed.

Lemma isum_one : forall m (G : nat -> R) j, (forall i, (i < m)%nat -> i <> j -> G i <= 0) -> 0 <= G j ->
  isum m G <= G j.
Proof.
  intros m G j H Hj. induction m as [| m IH]; cbn [isum]; [lra |].
  destruct (Nat.eq_dec m j) as [-> | Nj].
  - assert (isum j G <= 0).
    { assert (isum j G <= isum j (fun _ => 0)) by (apply isum_le; intros; apply H; lia).
      rewrite isum_const, Rmult_0_r in H0. exact H0. }
    lra.
  - assert (G m <= 0) by (apply H; [lia | auto]). assert (isum m G <= G j) by (apply IH; intros; apply H; [lia | auto]). lra.
Qed.

Lemma sum_all : forall (G : ts_surface -> R),
  rsum (map G (all_ts_surfaces a)) =
  rsum (map G (gnd_surfaces (ft_ground a))) +
  isum N (fun j => rsum (map G (side_surfaces (side_of false (fit_row p (fit_alpha p f) (fit_rotation p f) j)))) +
                   rsum (map G (side_surfaces (side_of true (fit_row p (fit_alpha p f) (fit_rotation p f) j))))).
Proof.
  intro G. unfold all_ts_surfaces. rewrite map_app, rsum_app. f_equal.
  rewrite rsum_flat_map, fit_rows_at, fit_rows_eq, map_map, <- rsum_seq. apply rsum_map_ext. intros j _.
  unfold row_surfaces. rewrite map_app, rsum_app. reflexivity.
Qed.

Lemma sum_gnd : forall i (G : ts_surface -> R), (i < N)%nat ->
  rsum (map G (gnd_surfaces (ft_ground a))) =
  rsum (map G (gnd_side_of_cut_point (ft_ground a) true i)) + rsum (map G (gnd_side_of_cut_point (ft_ground a) false i)).
Proof.
  intros i G Hi. rewrite <- rsum_app, <- map_app.
  assert (Pm : Permutation (map G (gnd_surfaces (ft_ground a)))
     (map G (gnd_side_of_cut_point (ft_ground a) true i ++ gnd_side_of_cut_point (ft_ground a) false i))).
  { apply Permutation_map. apply (fit_gnd_perm _ _ _ _ _ F Hi). }
  revert Pm. generalize (map G (gnd_surfaces (ft_ground a))) (map G (gnd_side_of_cut_point (ft_ground a) true i ++ gnd_side_of_cut_point (ft_ground a) false i)).
  intros l l' Pm. induction Pm; cbn [rsum]; lra.
Qed.

(** String difference at a ground position, for the two ends of a surface. *)
Definition xphi (left : bool) (i : nat) (x : ts_surface) (g : R) : R :=
  str (obs left i) (orient left (s_highest x t)) (og left g) - str (obs left i) (orient left (s_lowest x t)) (og left g).

Lemma xpiece_sum : forall i left x, (i < N)%nat ->
  rsum (map (xpiece left i x) (gnd_side_of_cut_point (ft_ground a) left i)) =
  if left then xphi left i x (cutx i) - xphi left i x MIN_X_GROUND
  else xphi left i x (cutx i) - xphi left i x MAX_X_GROUND.
Proof.
  intros i left x Hi.
  set (G := fun g => if left then xphi left i x g else - xphi left i x g).
  rewrite (rsum_map_ext _ _ (fun s => G (px (b2 (s_coords s t))) - G (px (b1 (s_coords s t))))).
  - rewrite gnd_telescope by auto. unfold G. destruct left; ring.
  - intros y _. unfold xpiece, gpiece, G, xphi, ogl, ogr, og. destruct left; ring.
Qed.

(** Distance difference to the two ends of a surface. *)
Definition xchi (x : ts_surface) (q : pt) : R := distance q (s_highest x t) - distance q (s_lowest x t).

Lemma cross_sum : forall x j rowj c, nth_error (ft_rows a) j = Some rowj ->
  rsum (map (fun y => cross (s_lowest x t) (s_highest x t) (s_lowest y t) (s_highest y t)) (side_surfaces (side_of c rowj))) =
  xchi x (Lp j) - xchi x (RP j w).
Proof.
  intros x j rowj c Hj.
  rewrite (rsum_map_ext _ _ (fun y => (fun q => - xchi x q) (s_highest y t) - (fun q => - xchi x q) (s_lowest y t))).
  - rewrite (surface_telescope j rowj c (fun q => - xchi x q) Hj). ring.
  - intros y _. unfold cross, xchi. rewrite !(dist_sym _ (s_lowest x t)), !(dist_sym _ (s_highest x t)). ring.
Qed.

(** What a surface receives from the ground and from the next row (numerators). *)
Lemma row_total_bound : forall i row b x left, nth_error (ft_rows a) i = Some row ->
  In x (side_surfaces (side_of b row)) ->
  rsum (map (xpiece left i x) (gnd_side_of_cut_point (ft_ground a) left i)) +
  (if is_edge left i then 0 else xchi x (Lp (next left i)) - xchi x (RP (next left i) w))
  <= 2 * s_length x t.
Proof.
  intros i row b x left Hr Hx. pose proof (row_lt _ _ Hr) as Hi.
  destruct (surface_spans _ _ _ _ Hr Hx) as [lo [hi [E1 [E2 [Elo [Ehi [El _]]]]]]].
  assert (Ex : forall g, xphi left i x g = phi (OL left i) (oux left) uy (obs left i) lo hi (og left g)).
  { intro g. unfold xphi, phi. rewrite Elo, Ehi, !orient_RP. reflexivity. }
  assert (Ec : forall q, xchi x q = chi (OL left i) (oux left) uy lo hi (orient left q)).
  { intro q. unfold xchi, chi. rewrite Elo, Ehi, <- !orient_RP, !dist_orient. reflexivity. }
  rewrite xpiece_sum by auto. rewrite El.
  destruct ground_bounds as [B1 B2]. pose proof (ck_bounds (cut_point (row_coords (fit_row p (fit_alpha p f) (fit_rotation p f) i) t) (fit_rotation p f t) pa_y_ground)) as Kb.
  fold (cutx i) in Kb. rewrite B1, B2 in *.
  set (far := if left then -100 else 100).
  assert (Es : (if left then xphi left i x (cutx i) - xphi left i x (-100) else xphi left i x (cutx i) - xphi left i x 100) =
               xphi left i x (cutx i) - xphi left i x far) by (unfold far; destruct left; reflexivity).
  rewrite Es. clear Es.
  unfold obs in Ex. destruct (is_edge left i) eqn:Eg.
  - rewrite !Ex. pose proof (phi_none_bound (OL left i) (oux left) uy (oux_unit left) lo hi (og left (cutx i)) ltac:(lra)).
    pose proof (phi_none_bound (OL left i) (oux left) uy (oux_unit left) lo hi (og left far) ltac:(lra)). lra.
  - rewrite !Ec. pose proof (chi_bound (OL left i) (oux left) uy (oux_unit left) lo hi (orient left (RP (next left i) w)) ltac:(lra)) as C1.
    pose proof (chi_bound (OL left i) (oux left) uy (oux_unit left) lo hi (orient left (Lp (next left i))) ltac:(lra)) as C2.
    destruct (Req_dec (cutx i) far) as [Ef | Nf].
    + rewrite Ef. lra.
    + assert (K : 0 <= side_k (OL left i) (oux left) uy (og left far)).
      { destruct (Req_dec r 0) as [Z | Nz].
        - rewrite cutx_flat in Nf by auto. unfold far in *. destruct left; [| lra].
          unfold side_k, oux, uy. rewrite Z. destruct up_flat as [-> ->]. pose proof (OL_y true i). lra.
        - destruct (side_k_cut left i Nz) as [_ E]. rewrite E. apply Rmult_le_pos; [apply uy_nonneg |].
          rewrite cutx_eq in Nf by auto. unfold ck, xclip in Nf. rewrite B1, B2 in Nf.
          unfold far, og in *. destruct left; minmax; lra. }
      rewrite !Ex.
      pose proof (phi_some_le (OL left i) (oux left) uy D (OL_y left i) (oux_unit left) uy_nonneg D_pos lo hi (og left (cutx i)) E1).
      pose proof (phi_some_ge (OL left i) (oux left) uy D (OL_y left i) uy_nonneg D_pos lo hi (og left far) E1 K).
      rewrite orient_next in * by auto. lra.
Qed.

Lemma row_sum_bound : forall i row b x, nth_error (ft_rows a) i = Some row ->
  In x (side_surfaces (side_of b row)) -> DISTANCE_TOLERANCE < s_length x t ->
  let left := xorb b tl in
  rsum (map (fun y => M (idx x) (idx y)) (all_ts_surfaces a)) * (2 * s_length x t) <=
  rsum (map (xpiece left i x) (gnd_side_of_cut_point (ft_ground a) left i)) +
  (if is_edge left i then 0 else xchi x (Lp (next left i)) - xchi x (RP (next left i) w)).
Proof.
  intros i row b x Hr Hx Lx left. pose proof (row_lt _ _ Hr) as Hi. pose proof DISTANCE_TOLERANCE_pos as T0.
  assert (Lxb : Rltb DISTANCE_TOLERANCE (s_length x t) = true) by (apply Rltb_true; auto).
  assert (Hg : rsum (map (fun y => M (idx x) (idx y)) (gnd_surfaces (ft_ground a))) <=
               rsum (map (xpiece left i x) (gnd_side_of_cut_point (ft_ground a) left i)) / (2 * s_length x t)).
  { rewrite (sum_gnd i) by auto.
    assert (Z : rsum (map (fun y => M (idx x) (idx y)) (gnd_side_of_cut_point (ft_ground a) (negb left) i)) <= 0).
    { apply rsum_map_nonpos_le. intros y Hy. destruct (cell_row_gnd _ _ _ _ _ _ Hr Hx Hy) as [_ [_ [K _]]].
      fold left in K. rewrite eqb_negb1 in K. exact K. }
    assert (Y : rsum (map (fun y => M (idx x) (idx y)) (gnd_side_of_cut_point (ft_ground a) left i)) <=
                rsum (map (xpiece left i x) (gnd_side_of_cut_point (ft_ground a) left i)) / (2 * s_length x t)).
    { unfold Rdiv. rewrite Rmult_comm, <- rsum_map_scal. apply rsum_map_le. intros y Hy.
      destruct (cell_row_gnd _ _ _ _ _ _ Hr Hx Hy) as [_ [_ [K _]]].
      fold left in K. rewrite eqb_reflx, Lxb in K. cbn [andb] in K. unfold Rdiv in K. lra. }
    destruct left; cbn [negb] in *; lra. }
  set (G := fun j => rsum (map (fun y => M (idx x) (idx y)) (side_surfaces (side_of false (fit_row p (fit_alpha p f) (fit_rotation p f) j)))) +
                     rsum (map (fun y => M (idx x) (idx y)) (side_surfaces (side_of true (fit_row p (fit_alpha p f) (fit_rotation p f) j))))).
  assert (Hs : forall j c, (j < N)%nat ->
     rsum (map (fun y => M (idx x) (idx y)) (side_surfaces (side_of c (fit_row p (fit_alpha p f) (fit_rotation p f) j)))) <=
     if Bool.eqb c (negb b) && Nat.eqb j (next left i) && negb (is_edge left i)
     then (xchi x (Lp j) - xchi x (RP j w)) / (2 * s_length x t) else 0).
  { intros j c Hj. pose proof (row_of j Hj) as Rj.
    set (rowj := fit_row p (fit_alpha p f) (fit_rotation p f) j) in *.
    destruct (Bool.eqb c (negb b)) eqn:Ec.
    2:{ cbn [andb]. apply rsum_map_nonpos_le. intros y Hy. right.
        apply (cell_rows_zero i j row rowj b c x y Hr Rj Hx Hy). intros [E _]. subst c. rewrite eqb_reflx in Ec. discriminate. }
    apply eqb_prop in Ec. subst c. cbn [andb].
    destruct (Nat.eq_dec j (S i)) as [Ej | Nj].
    - (* row on the right *)
      subst j. assert (K : forall y, In y (side_surfaces (side_of (negb b) rowj)) ->
         M (idx x) (idx y) <= if negb left then cross (s_lowest x t) (s_highest x t) (s_lowest y t) (s_highest y t) / (2 * s_length x t) else 0).
      { intros y Hy. destruct (cell_row_row _ _ _ _ _ _ Hr Rj Hx Hy) as [_ [_ [K _]]]. rewrite Lxb in K.
        unfold left. destruct b, tl; cbn in *; exact K. }
      destruct left eqn:El.
      + cbn [negb] in K. assert (next true i <> S i) by (cbn; lia).
        rewrite (proj2 (Nat.eqb_neq (S i) (next true i))) by auto. cbn [andb].
        apply rsum_map_nonpos_le. exact K.
      + cbn [negb] in K. assert (En : next false i = S i) by (cbn; lia). rewrite En, Nat.eqb_refl.
        assert (Eg : is_edge false i = false) by (cbn; apply Nat.eqb_neq; lia). rewrite Eg. cbn [andb negb].
        rewrite <- (cross_sum x (S i) rowj (negb b) Rj). unfold Rdiv. rewrite Rmult_comm, <- rsum_map_scal.
        apply rsum_map_le. intros y Hy. specialize (K y Hy). unfold Rdiv in K. lra.
    - destruct (Nat.eq_dec i (S j)) as [Ei | Ni].
      + (* row on the left *)
        assert (Hr' := Hr). rewrite Ei in Hr'.
        assert (K : forall y, In y (side_surfaces (side_of (negb b) rowj)) ->
         M (idx x) (idx y) <= if left then cross (s_lowest x t) (s_highest x t) (s_lowest y t) (s_highest y t) / (2 * s_length x t) else 0).
        { intros y Hy. assert (Hx' : In x (side_surfaces (side_of (negb (negb b)) row))) by (rewrite negb_involutive; exact Hx).
          destruct (cell_row_row _ _ _ _ _ _ Rj Hr' Hy Hx') as [Z0 [_ [_ K]]].
          destruct (cell_row_row _ _ _ _ _ _ Rj Hr' Hy Hx') as [_ [Z1 _]].
          pose proof (cross_rows_nonneg _ _ _ _ _ _ _ Rj Hr' Hy Hx') as C0.
          rewrite Lxb in K. rewrite cross_sym in C0. rewrite (cross_sym (s_lowest y t)) in K.
          assert (0 <= cross (s_lowest x t) (s_highest x t) (s_lowest y t) (s_highest y t) / (2 * s_length x t))
            by (apply Rmult_le_pos; [auto | left; apply Rinv_0_lt_compat; lra]).
          unfold left. destruct b, tl, (Rltb DISTANCE_TOLERANCE (s_length y t)); cbn in *; lra. }
        destruct left eqn:El.
        * assert (En : next true i = j) by (cbn; lia). rewrite En, Nat.eqb_refl.
          assert (Eg : is_edge true i = false) by (cbn; apply Nat.eqb_neq; lia). rewrite Eg. cbn [andb negb].
          rewrite <- (cross_sum x j rowj (negb b) Rj). unfold Rdiv. rewrite Rmult_comm, <- rsum_map_scal.
          apply rsum_map_le. intros y Hy. specialize (K y Hy). unfold Rdiv in K. lra.
        * assert (next false i <> j) by (cbn; lia).
          rewrite (proj2 (Nat.eqb_neq j (next false i))) by auto. cbn [andb]. apply rsum_map_nonpos_le. exact K.
      + assert (Z : rsum (map (fun y => M (idx x) (idx y)) (side_surfaces (side_of (negb b) rowj))) <= 0).
        { apply rsum_map_nonpos_le. intros y Hy. right. apply (cell_rows_zero i j row rowj b (negb b) x y Hr Rj Hx Hy). tauto. }
        destruct (Nat.eqb_spec j (next left i)) as [Ej | _]; cbn [andb]; [| exact Z].
        destruct (is_edge left i) eqn:Eg; cbn [negb]; [exact Z |].
        exfalso. destruct left; cbn in Ej, Eg; apply Nat.eqb_neq in Eg; lia. }
  assert (Hrow : isum N G <= if is_edge left i then 0 else
                 (xchi x (Lp (next left i)) - xchi x (RP (next left i) w)) / (2 * s_length x t)).
  { destruct (is_edge left i) eqn:Eg.
    - assert (isum N G <= isum N (fun _ => 0)).
      { apply isum_le. intros j Hj. unfold G. pose proof (Hs j false Hj) as A. pose proof (Hs j true Hj) as B.
        cbn [negb] in *. rewrite andb_false_r in *. lra. }
      rewrite isum_const, Rmult_0_r in H. exact H.
    - pose proof (next_lt left i Hi Eg) as Hn.
      assert (G (next left i) <= (xchi x (Lp (next left i)) - xchi x (RP (next left i) w)) / (2 * s_length x t)).
      { unfold G. pose proof (Hs _ false Hn) as A. pose proof (Hs _ true Hn) as B. rewrite Nat.eqb_refl in *.
        destruct b; cbn [Bool.eqb negb andb] in *; lra. }
      apply Rle_trans with (G (next left i)); [| exact H]. apply isum_one.
      + intros j Hj Nj. unfold G. pose proof (Hs j false Hj) as A. pose proof (Hs j true Hj) as B.
        rewrite (proj2 (Nat.eqb_neq j (next left i)) Nj) in *. rewrite !andb_false_r in *. cbn [andb] in *. lra.
      + unfold G. assert (forall l, 0 <= rsum (map (fun y => M (idx x) (idx y)) l)).
        { intro l. apply rsum_nonneg. intros z Hz. apply in_map_iff in Hz. destruct Hz as [y [<- _]]. apply cells_nonneg. }
        apply Rplus_le_le_0_compat; auto. }
  rewrite sum_all. fold G. rewrite Rmult_plus_distr_r.
  assert (Q1 : rsum (map (fun y => M (idx x) (idx y)) (gnd_surfaces (ft_ground a))) * (2 * s_length x t) <=
               rsum (map (xpiece left i x) (gnd_side_of_cut_point (ft_ground a) left i))).
  { apply (Rmult_le_compat_r (2 * s_length x t)) in Hg; [| lra]. unfold Rdiv in Hg.
    rewrite Rmult_assoc, Rinv_l in Hg by lra. lra. }
  assert (Q2 : isum N G * (2 * s_length x t) <= if is_edge left i then 0 else xchi x (Lp (next left i)) - xchi x (RP (next left i) w)).
  { apply (Rmult_le_compat_r (2 * s_length x t)) in Hrow; [| lra]. destruct (is_edge left i); [lra |].
    unfold Rdiv in Hrow. rewrite Rmult_assoc, Rinv_l in Hrow by lra. lra. }
  lra.
Qed.

Lemma row_sum_le : forall i row b x, nth_error (ft_rows a) i = Some row ->
  In x (side_surfaces (side_of b row)) -> DISTANCE_TOLERANCE < s_length x t ->
  rsum (map (fun y => M (idx x) (idx y)) (all_ts_surfaces a)) <= 1.
Proof.
  intros i row b x Hr Hx Lx. pose proof DISTANCE_TOLERANCE_pos as T0.
  pose proof (row_sum_bound i row b x Hr Hx Lx) as Q. cbv zeta in Q.
  pose proof (row_total_bound i row b x (xorb b tl) Hr Hx) as Bd.
  apply (Rmult_le_reg_r (2 * s_length x t)); lra.
Qed.

(* -------------------------------------------------------- sum for a ground surface *)

Section GroundSum.
Variable y : ts_surface.
Hypothesis Hy : In y (gnd_surfaces (ft_ground a)).
Hypothesis Ly : DISTANCE_TOLERANCE < s_length y t.

Let u := px (b1 (s_coords y t)).
Let v := px (b2 (s_coords y t)).

Lemma y_ext : -100 <= u /\ u < v /\ v <= 100 /\ s_length y t = v - u.
Proof.
  destruct (gnd_shape y Hy) as [_ [B [C [D1 D2]]]]. fold u v in B, C, D1, D2. pose proof DISTANCE_TOLERANCE_pos. lra.
Qed.

(** Side of the surface with respect to each cut point. *)
Definition sd (i : nat) : bool := Rleb v (cutx i).

Lemma sd_side : forall i, (i < N)%nat -> In y (gnd_side_of_cut_point (ft_ground a) (sd i) i).
Proof.
  intros i Hi. pose proof (fit_gnd_perm _ _ _ _ _ F Hi) as Pm. destruct y_ext as [_ [U _]].
  pose proof (Permutation_in _ Pm Hy) as K. apply in_app_or in K. destruct K as [K | K].
  - pose proof (gnd_side_pos _ _ _ Hi K) as Q. cbn in Q. fold v in Q. unfold sd. rewrite (proj2 (Rleb_true _ _) Q). exact K.
  - pose proof (gnd_side_pos _ _ _ Hi K) as Q. cbn in Q. fold u in Q. unfold sd.
    rewrite (proj2 (Rleb_false _ _)) by lra. exact K.
Qed.

Lemma sd_pos : forall i, (i < N)%nat -> if sd i then v <= cutx i else cutx i <= u.
Proof. intros i Hi. exact (gnd_side_pos _ _ _ Hi (sd_side i Hi)). Qed.

Lemma cutx_mono : forall i, cutx i <= cutx (S i).
Proof.
  intro i. destruct (Req_dec r 0) as [Z | Z].
  - rewrite !cutx_flat by auto. lra.
  - rewrite !cutx_eq by auto. apply xclip_mono. cbn [xle]. rewrite S_INR. pose proof D_pos. lra.
Qed.

Lemma sd_mono : forall i, sd i = true -> sd (S i) = true.
Proof. intros i H. unfold sd in *. apply Rleb_true in H. apply Rleb_true. pose proof (cutx_mono i). lra. Qed.

Lemma sd_count : exists k, (k <= N)%nat /\ (forall i, (i < k)%nat -> sd i = false) /\ (forall i, (k <= i)%nat -> (i < N)%nat -> sd i = true).
Proof.
  generalize N. intro m0. induction m0 as [| m IH].
  - exists 0%nat. repeat split; [lia | intros; lia | intros; lia].
  - destruct IH as [k [Hk [A B]]]. destruct (Nat.eq_dec k m) as [-> | Nk].
    + destruct (sd m) eqn:E.
      * exists m. repeat split; [lia | auto |]. intros i H1 H2. replace i with m by lia. exact E.
      * exists (S m). repeat split; [lia | | intros; lia]. intros i Hi.
        destruct (Nat.eq_dec i m) as [-> | ]; [exact E | apply A; lia].
    + exists k. repeat split; [lia | auto |]. intros i H1 H2. destruct (Nat.eq_dec i m) as [-> | ]; [| apply B; lia].
      assert (Q : sd (m - 1) = true) by (apply B; lia). apply sd_mono in Q. replace (S (m - 1)) with m in Q by lia. exact Q.
Qed.

Let lS (i : nat) : R := psi0 (Lp i) u v.
Let hS (i : nat) : R := psi0 (RP i w) u v.
Let P (left : bool) (i : nat) (e : R) : R := psi (OL left i) (oux left) uy (obs left i) e (ogl left y) (ogr left y).

(** What the surface receives from row [i] (numerator). *)
Definition T (i : nat) : R := P (sd i) i 0 - P (sd i) i w.

Lemma psi0_orient : forall left q, psi0 (orient left q) (ogl left y) (ogr left y) = if left then - psi0 q u v else psi0 q u v.
Proof.
  intros left q. unfold psi0, ogl, ogr. fold u v. destruct left; [| reflexivity].
  change (gp (- u)) with (gp (og true u)). change (gp (- v)) with (gp (og true v)).
  rewrite <- !(orient_gp true), !dist_orient. ring.
Qed.

Lemma ogl_le : forall left, ogl left y <= ogr left y.
Proof. intro left. apply ogl_ogr. exact Hy. Qed.

Lemma psi_none : forall left i e, obs left i = None -> P left i e = if left then - psi0 (RP i e) u v else psi0 (RP i e) u v.
Proof.
  intros left i e E. rewrite <- psi0_orient. unfold P, psi. rewrite E, <- orient_RP. reflexivity.
Qed.

Lemma P_low : forall left i, P left i 0 = if left then - lS i else lS i.
Proof.
  intros left i. destruct (obs left i) as [o |] eqn:E.
  - unfold P. rewrite E. unfold obs in E. destruct (is_edge left i); [discriminate |]. injection E as <-.
    rewrite psi_low; auto using OL_y, uy_nonneg, D_pos. apply psi0_orient.
  - rewrite psi_none by auto. reflexivity.
Qed.

Lemma P_high_ge : forall left i e, (i < N)%nat -> 0 <= e -> is_edge left i = false ->
  (if left then - lS (next left i) else lS (next left i)) <= P left i e.
Proof.
  intros left i e Hi He Eg. unfold P, obs. rewrite Eg. unfold lS. rewrite <- psi0_orient, orient_next by auto.
  apply psi_ge; auto using OL_y, uy_nonneg, D_pos, ogl_le.
Qed.

Lemma P_high_free : forall left i, (i < N)%nat -> sd i = left ->
  (is_edge left i = false -> sd (next left i) = negb left) ->
  P left i w = if left then - hS i else hS i.
Proof.
  intros left i Hi Hl Hn. destruct (is_edge left i) eqn:Eg.
  - apply psi_none. unfold obs. rewrite Eg. reflexivity.
  - specialize (Hn eq_refl). pose proof (next_lt _ _ Hi Eg) as Hnl. pose proof (sd_pos _ Hi) as P1. pose proof (sd_pos _ Hnl) as P2.
    destruct y_ext as [U1 [U2 [U3 _]]].
    assert (Nz : r <> 0).
    { intro Z. rewrite !cutx_flat in * by auto. rewrite Hl in P1. rewrite Hn in P2. destruct left; cbn in *; lra. }
    unfold P, obs. rewrite Eg. pose proof w_pos as W0.
    assert (K : forall g, u <= g <= v -> side_k (OL left i) (oux left) uy (og left g) <= uy * D).
    { intros g Hg. destruct (side_k_cut left i Nz) as [_ E]. rewrite E. apply Rmult_le_compat_l; [apply uy_nonneg |].
      rewrite Hn in P2. rewrite cutx_eq in P2 by auto. unfold next in *.
      destruct left; cbn [negb] in P2; unfold og.
      - apply ck_fin_le in P2; [| lra]. cbn in Eg. apply Nat.eqb_neq in Eg.
        rewrite minus_INR in P2 by lia. cbn [INR] in P2. lra.
      - apply ck_fin_ge in P2; [| lra]. rewrite plus_INR in P2. cbn [INR] in P2. lra. }
    assert (K' : forall g, u <= g <= v -> str (Some (ob_pt (OL left i) D)) (rp (OL left i) (oux left) uy w) (og left g) =
                 distance (gp (og left g)) (rp (OL left i) (oux left) uy w)).
    { intros g Hg. apply str_free; try lra. apply strip_free; auto using OL_y, D_pos; lra. }
    assert (E1 : exists g, u <= g <= v /\ ogl left y = og left g).
    { unfold ogl, og. fold u v. destruct left; [exists v | exists u]; split; auto; lra. }
    assert (E2 : exists g, u <= g <= v /\ ogr left y = og left g).
    { unfold ogr, og. fold u v. destruct left; [exists u | exists v]; split; auto; lra. }
    unfold psi. destruct E1 as [g1 [G1 E1]]. destruct E2 as [g2 [G2 E2]]. rewrite E1, E2, !K', <- E1, <- E2 by auto.
    rewrite <- orient_RP. unfold hS. rewrite <- psi0_orient. reflexivity.
Qed.

Lemma lS_bound : forall i, - (v - u) <= lS i <= v - u.
Proof. intro i. apply psi0_bound. destruct y_ext. lra. Qed.
Lemma hS_bound : forall i, - (v - u) <= hS i <= v - u.
Proof. intro i. apply psi0_bound. destruct y_ext. lra. Qed.
Lemma hS_dec : forall i, hS (S i) <= hS i.
Proof.
  intro i. pose proof w_pos. unfold hS. apply psi0_left_right; [apply RP_y; lra | rewrite Lp_shift; reflexivity | rewrite Lp_shift; cbn [px]; pose proof D_pos; lra |].
  destruct y_ext. lra.
Qed.

Lemma isum_split : forall k m (G : nat -> R), isum (k + m) G = isum k G + isum m (fun i => G (k + i)%nat).
Proof.
  intros k m G. induction m as [| m IH].
  - rewrite Nat.add_0_r. cbn [isum]. ring.
  - rewrite <- plus_n_Sm. cbn [isum]. rewrite IH. ring.
Qed.

Lemma T_total : isum N T <= 2 * (v - u).
Proof.
  pose proof w_pos as W0. destruct sd_count as [k [Hk [HR1 HL1]]].
  assert (Rt : forall m, (m < k)%nat -> isum m T <= lS 0 - lS m).
  { induction m as [| m IH]; intro Hm; cbn [isum]; [lra |].
    assert (isum m T <= lS 0 - lS m) by (apply IH; lia).
    assert (T m <= lS m - lS (S m)); [| lra].
    unfold T. rewrite HR1 by lia. rewrite P_low.
    assert (Eg : is_edge false m = false) by (cbn; apply Nat.eqb_neq; lia).
    pose proof (P_high_ge false m w ltac:(lia) ltac:(lra) Eg) as Q. cbn in Q.
    replace (m + 1)%nat with (S m) in Q by lia. lra. }
  assert (Rt2 : forall m, k = S m -> isum k T <= lS 0 - hS m).
  { intros m ->. cbn [isum]. assert (isum m T <= lS 0 - lS m) by (apply Rt; lia).
    unfold T at 2. rewrite HR1 by lia. rewrite P_low, (P_high_free false m); [lra | lia | apply HR1; lia |].
    intros Eg. cbn. cbn in Eg. apply Nat.eqb_neq in Eg. replace (m + 1)%nat with (S m) by lia. apply HL1; lia. }
  assert (Lt : forall m, (S m <= N - k)%nat -> isum (S m) (fun i => T (k + i)%nat) <= hS k - lS (k + m)%nat).
  { induction m as [| m IH]; intro Hm.
    - cbn [isum]. rewrite Nat.add_0_r. unfold T. rewrite HL1 by lia. rewrite P_low, (P_high_free true k); [lra | lia | apply HL1; lia |].
      intros Eg. cbn. cbn in Eg. apply Nat.eqb_neq in Eg. apply HR1. lia.
    - change (isum (S (S m)) (fun i => T (k + i)%nat)) with (isum (S m) (fun i => T (k + i)%nat) + T (k + S m)%nat).
      assert (isum (S m) (fun i => T (k + i)%nat) <= hS k - lS (k + m)%nat) by (apply IH; lia).
      unfold T at 2. rewrite HL1 by lia. rewrite P_low.
      assert (Eg : is_edge true (k + S m) = false) by (cbn; apply Nat.eqb_neq; lia).
      pose proof (P_high_ge true (k + S m) w ltac:(lia) ltac:(lra) Eg) as Q. cbn in Q.
      replace (k + S m - 1)%nat with (k + m)%nat in Q by lia. lra. }
  replace N with (k + (N - k))%nat by lia. rewrite isum_split.
  pose proof (lS_bound 0). destruct k as [| k'].
  - cbn [isum]. destruct (N - 0)%nat as [| m] eqn:Em; [cbn [isum]; destruct y_ext; lra |].
    pose proof (Lt m ltac:(lia)) as Q. pose proof (hS_bound 0). pose proof (lS_bound (0 + m)). lra.
  - pose proof (Rt2 k' eq_refl) as Q1. pose proof (hS_bound k'). destruct (N - S k')%nat as [| m] eqn:Em.
    + cbn [isum] in *. lra.
    + pose proof (Lt m ltac:(lia)) as Q2. pose proof (lS_bound (S k' + m)). pose proof (hS_dec k'). lra.
Qed.

Lemma xpiece_sum_x : forall i row b, nth_error (ft_rows a) i = Some row ->
  rsum (map (fun x => xpiece (sd i) i x y) (side_surfaces (side_of b row))) = T i.
Proof.
  intros i row b Hr. pose proof (row_lt _ _ Hr) as Hi.
  set (G := fun q => str (obs (sd i) i) (orient (sd i) q) (ogl (sd i) y) - str (obs (sd i) i) (orient (sd i) q) (ogr (sd i) y)).
  rewrite (rsum_map_ext _ _ (fun s => G (s_highest s t) - G (s_lowest s t))).
  - rewrite (surface_telescope i row b G Hr). unfold G, T, P, psi, Lp. rewrite !orient_RP. ring.
  - intros x _. unfold xpiece, gpiece, G. ring.
Qed.

Lemma cell_gnd_gnd : forall z, In z (gnd_surfaces (ft_ground a)) -> M (idx y) (idx z) = 0.
Proof.
  intros z Hz. apply cell_zero; [apply in_all_gnd; auto | apply in_all_gnd; auto | |]; intros v0 Hp _ _;
    destruct (pair_ids _ _ _ _ V F _ _ _ _ Hp) as [i0 [b0 [k0 [s0 [I1 _]]]]].
  - destruct (fit_gnd_ids _ _ _ _ _ V F Hy) as [[? [? I]] | [? [? I]]]; congruence.
  - destruct (fit_gnd_ids _ _ _ _ _ V F Hz) as [[? [? I]] | [? [? I]]]; congruence.
Qed.

Lemma gnd_sum_le : rsum (map (fun x => M (idx y) (idx x)) (all_ts_surfaces a)) <= 1.
Proof.
  pose proof DISTANCE_TOLERANCE_pos as T0. rewrite sum_all, rsum_map_zero, Rplus_0_l by (intros; apply cell_gnd_gnd; auto).
  assert (Lyb : Rltb DISTANCE_TOLERANCE (s_length y t) = true) by (apply Rltb_true; auto).
  destruct y_ext as [U1 [U2 [U3 U4]]].
  assert (Q : forall i b, (i < N)%nat ->
    rsum (map (fun x => M (idx y) (idx x)) (side_surfaces (side_of b (fit_row p (fit_alpha p f) (fit_rotation p f) i)))) <=
    if Bool.eqb (sd i) (xorb b tl) then T i / (2 * s_length y t) else 0).
  { intros i b Hi. pose proof (row_of i Hi) as Hr. set (row := fit_row p (fit_alpha p f) (fit_rotation p f) i) in *.
    assert (K : forall x, In x (side_surfaces (side_of b row)) ->
       M (idx y) (idx x) <= if Bool.eqb (sd i) (xorb b tl) then / (2 * s_length y t) * xpiece (sd i) i x y else 0).
    { intros x Hx. destruct (cell_row_gnd _ _ _ _ _ _ Hr Hx (sd_side i Hi)) as [_ [_ [_ K]]]. rewrite Lyb, andb_true_r in K.
      destruct (Bool.eqb (sd i) (xorb b tl)); cbn [andb] in K; [| exact K].
      assert (0 <= xpiece (sd i) i x y / (2 * s_length y t)).
      { apply Rmult_le_pos; [exact (xpiece_nonneg _ _ _ _ _ _ Hr Hx (sd_side i Hi)) | left; apply Rinv_0_lt_compat; lra]. }
      rewrite Rmult_comm. fold (xpiece (sd i) i x y / (2 * s_length y t)).
      destruct (Rltb DISTANCE_TOLERANCE (s_length x t)); lra. }
    destruct (Bool.eqb (sd i) (xorb b tl)).
    - unfold Rdiv. rewrite Rmult_comm, <- (xpiece_sum_x i row b Hr), <- rsum_map_scal. apply rsum_map_le. exact K.
    - apply rsum_map_nonpos_le. exact K. }
  apply Rle_trans with (isum N (fun i => / (2 * s_length y t) * T i)).
  - apply isum_le. intros i Hi. pose proof (Q i false Hi) as A. pose proof (Q i true Hi) as B. unfold Rdiv in *.
    destruct (sd i), tl; cbn [xorb Bool.eqb] in *; lra.
  - rewrite isum_scal, U4. pose proof T_total. apply (Rmult_le_reg_l (2 * (v - u))); [lra |].
    rewrite <- Rmult_assoc, Rinv_r by lra. lra.
Qed.

End GroundSum.

(* --------------------------------------------------------------- exact cells *)

Lemma half_len : forall x c l, DISTANCE_TOLERANCE < l -> x = c / (2 * l) -> l * x = c / 2.
Proof. intros x c l H ->. pose proof DISTANCE_TOLERANCE_pos. field. lra. Qed.

(** Length times view factor, for surfaces which are not slivers. *)
Lemma cell_row_gnd_exact : forall i row b left x y, (t < n)%nat -> nth_error (ft_rows a) i = Some row ->
  In x (side_surfaces (side_of b row)) -> In y (gnd_side_of_cut_point (ft_ground a) left i) ->
  (s_length x t = 0 \/ DISTANCE_TOLERANCE < s_length x t) -> (s_length y t = 0 \/ DISTANCE_TOLERANCE < s_length y t) ->
  s_length x t * M (idx x) (idx y) = if Bool.eqb left (xorb b tl) then xpiece left i x y / 2 else 0.
Proof.
  intros i row b left x y Ht Hr Hx Hy Kx Ky. pose proof (row_lt _ _ Hr) as Hi.
  destruct (cell_pair _ _ _ (gnd_pair_of _ _ _ _ _ _ Hr Hx Hy)) as [-> _].
  destruct (vf_gnd_value _ _ _ _ _ _ Hr Hx Hy) as [-> _].
  destruct (surface_spans _ _ _ _ Hr Hx) as [lo [hi [E1 [E2 [Elo [Ehi [El _]]]]]]].
  destruct Kx as [Kx | Kx].
  - assert (lo = hi) by lra. subst hi. rewrite Kx, Rmult_0_l. destruct (Bool.eqb left (xorb b tl)); [| reflexivity].
    unfold xpiece, gpiece. rewrite Elo, Ehi. lra.
  - rewrite (empty_short x Ht Kx). cbn [orb]. rewrite (proj2 (Rltb_true _ _) Kx), andb_true_r. destruct Ky as [Ky | Ky].
    + destruct (ogl_ogr left y (in_gnd_side _ _ _ _ _ _ _ F Hi Hy)) as [_ G2].
      assert (Z : xpiece left i x y = 0) by (unfold xpiece, gpiece; replace (ogr left y) with (ogl left y) by lra; lra).
      rewrite Z. destruct (is_empty (ft_n_states a) y), (Bool.eqb left (xorb b tl)); lra.
    + rewrite (empty_short y Ht Ky). destruct (Bool.eqb left (xorb b tl)); [| lra]. apply half_len; auto.
Qed.

Lemma cell_row_row_exact : forall i j row rowj b x y, (t < n)%nat -> nth_error (ft_rows a) i = Some row -> nth_error (ft_rows a) j = Some rowj ->
  In x (side_surfaces (side_of b row)) -> In y (side_surfaces (side_of (negb b) rowj)) ->
  (s_length x t = 0 \/ DISTANCE_TOLERANCE < s_length x t) -> (s_length y t = 0 \/ DISTANCE_TOLERANCE < s_length y t) ->
  s_length x t * M (idx x) (idx y) =
  if Nat.eqb j (next (xorb b tl) i) && negb (is_edge (xorb b tl) i)
  then cross (s_lowest x t) (s_highest x t) (s_lowest y t) (s_highest y t) / 2 else 0.
Proof.
  intros i j row rowj b x y Ht Hr Hj Hx Hy Kx Ky. pose proof (row_lt _ _ Hr) as Hi. pose proof (row_lt _ _ Hj) as Hjl.
  destruct (surface_spans _ _ _ _ Hr Hx) as [lo [hi [E1 [E2 [Elo [Ehi [El _]]]]]]].
  destruct (surface_spans _ _ _ _ Hj Hy) as [lo' [hi' [E1' [E2' [Elo' [Ehi' [El' _]]]]]]].
  set (c := cross (s_lowest x t) (s_highest x t) (s_lowest y t) (s_highest y t)).
  assert (Zx : s_length x t = 0 -> c = 0).
  { intro K. assert (lo = hi) by lra. subst hi. unfold c, cross. rewrite Elo, Ehi. lra. }
  assert (Zy : s_length y t = 0 -> c = 0).
  { intro K. assert (lo' = hi') by lra. subst hi'. unfold c, cross. rewrite Elo', Ehi'. lra. }
  destruct (Nat.eq_dec j (S i)) as [Ej | Nj]; [| destruct (Nat.eq_dec i (S j)) as [Ei | Ni]].
  - subst j. destruct (cell_pair _ _ _ (row_pair_of _ _ _ _ _ _ Hr Hj Hx Hy)) as [-> _].
    destruct (vf_row_value _ _ _ _ _ _ Hr Hj Hx Hy) as [-> _]. fold c.
    assert (Eb : (Nat.eqb (S i) (next (xorb b tl) i) && negb (is_edge (xorb b tl) i))%bool = if b then tl else negb tl).
    { replace (if b then tl else negb tl) with (negb (xorb b tl)) by (destruct b, tl; reflexivity).
      unfold next, is_edge. destruct (xorb b tl); cbn [negb].
      - rewrite (proj2 (Nat.eqb_neq (S i) (i - 1))) by lia. reflexivity.
      - replace (i + 1)%nat with (S i) by lia. rewrite Nat.eqb_refl, (proj2 (Nat.eqb_neq i (N - 1))) by lia. reflexivity. }
    rewrite Eb. destruct Kx as [Kx | Kx].
    + rewrite Kx, Zx by auto. destruct (if b then tl else negb tl); lra.
    + rewrite (empty_short x Ht Kx). cbn [orb]. rewrite (proj2 (Rltb_true _ _) Kx), andb_true_r. destruct Ky as [Ky | Ky].
      * rewrite Zy by auto. destruct (is_empty (ft_n_states a) y), (if b then tl else negb tl); lra.
      * rewrite (empty_short y Ht Ky). destruct (if b then tl else negb tl); [| lra]. apply half_len; auto.
  - assert (Hr' := Hr). rewrite Ei in Hr'.
    assert (Hx' : In x (side_surfaces (side_of (negb (negb b)) row))) by (rewrite negb_involutive; exact Hx).
    destruct (cell_pair _ _ _ (row_pair_of _ _ _ _ _ _ Hj Hr' Hy Hx')) as [_ ->].
    destruct (vf_row_value _ _ _ _ _ _ Hj Hr' Hy Hx') as [_ ->]. rewrite (cross_sym (s_lowest y t)). fold c.
    assert (Eb : (Nat.eqb j (next (xorb b tl) i) && negb (is_edge (xorb b tl) i))%bool = if negb b then tl else negb tl).
    { replace (if negb b then tl else negb tl) with (xorb b tl) by (destruct b, tl; reflexivity).
      unfold next, is_edge. destruct (xorb b tl); cbn [negb].
      - replace (i - 1)%nat with j by lia. rewrite Nat.eqb_refl, (proj2 (Nat.eqb_neq i 0)) by lia. reflexivity.
      - rewrite (proj2 (Nat.eqb_neq j (i + 1))) by lia. reflexivity. }
    rewrite Eb. destruct Kx as [Kx | Kx].
    + rewrite Kx, Zx by auto. destruct (if negb b then tl else negb tl); lra.
    + rewrite (empty_short x Ht Kx), orb_false_r. rewrite (proj2 (Rltb_true _ _) Kx), andb_true_r. destruct Ky as [Ky | Ky].
      * rewrite Zy by auto. destruct (is_empty (ft_n_states a) y), (if negb b then tl else negb tl), (Rltb DISTANCE_TOLERANCE (s_length y t)); cbn [andb]; lra.
      * rewrite (empty_short y Ht Ky), (proj2 (Rltb_true _ _) Ky), andb_true_r. destruct (if negb b then tl else negb tl); [| lra]. apply half_len; auto.
  - rewrite (cell_rows_zero i j row rowj b (negb b) x y Hr Hj Hx Hy) by tauto. rewrite Rmult_0_r.
    destruct (Nat.eqb_spec j (next (xorb b tl) i)) as [E | E]; cbn [andb]; [| reflexivity].
    destruct (is_edge (xorb b tl) i) eqn:Eg; cbn [negb]; [reflexivity |].
    exfalso. destruct (xorb b tl); cbn in E, Eg; apply Nat.eqb_neq in Eg; lia.
Qed.

(** Everything a row surface sees, exactly. *)
Definition no_slivers : Prop := forall s, In s (all_ts_surfaces a) -> s_length s t = 0 \/ DISTANCE_TOLERANCE < s_length s t.

Lemma isum_single : forall m (G : nat -> R) j, (j < m)%nat -> (forall i, (i < m)%nat -> i <> j -> G i = 0) -> isum m G = G j.
Proof.
  intros m G j Hj H. induction m as [| m IH]; [lia |]. cbn [isum]. destruct (Nat.eq_dec m j) as [-> | Nm].
  - rewrite isum_zero by (intros; apply H; lia). ring.
  - rewrite (H m) by lia. rewrite IH; [ring | lia | intros; apply H; lia].
Qed.

Lemma gnd_sum_exact : forall i row b x, (t < n)%nat -> no_slivers -> nth_error (ft_rows a) i = Some row ->
  In x (side_surfaces (side_of b row)) ->
  s_length x t * rsum (map (fun y => M (idx x) (idx y)) (gnd_surfaces (ft_ground a))) =
  (xphi (xorb b tl) i x (cutx i) - xphi (xorb b tl) i x (if xorb b tl then MIN_X_GROUND else MAX_X_GROUND)) / 2.
Proof.
  intros i row b x Ht NSl Hr Hx. pose proof (row_lt _ _ Hr) as Hi. rewrite (sum_gnd i) by auto.
  rewrite Rmult_plus_distr_l, <- !rsum_map_scal.
  assert (Q : forall left, rsum (map (fun y => s_length x t * M (idx x) (idx y)) (gnd_side_of_cut_point (ft_ground a) left i)) =
    if Bool.eqb left (xorb b tl) then rsum (map (xpiece left i x) (gnd_side_of_cut_point (ft_ground a) left i)) / 2 else 0).
  { intro left. rewrite (rsum_map_ext _ _ (fun y => if Bool.eqb left (xorb b tl) then / 2 * xpiece left i x y else 0)).
    - destruct (Bool.eqb left (xorb b tl)); [rewrite rsum_map_scal; lra | apply rsum_map_zero; auto].
    - intros y Hy. rewrite (cell_row_gnd_exact i row b left x y Ht Hr Hx Hy);
        [destruct (Bool.eqb left (xorb b tl)); lra | apply NSl; exact (in_all_row _ _ _ _ _ Hr Hx) |
         apply NSl; apply in_all_gnd; exact (in_gnd_side _ _ _ _ _ _ _ F Hi Hy)]. }
  rewrite (Q true), (Q false), !xpiece_sum by auto. destruct (xorb b tl); cbn [Bool.eqb]; lra.
Qed.

Lemma rows_sum_exact : forall i j row rowj b x, (t < n)%nat -> no_slivers -> nth_error (ft_rows a) i = Some row -> nth_error (ft_rows a) j = Some rowj ->
  In x (side_surfaces (side_of b row)) ->
  s_length x t * rsum (map (fun y => M (idx x) (idx y)) (side_surfaces (side_of (negb b) rowj))) =
  if Nat.eqb j (next (xorb b tl) i) && negb (is_edge (xorb b tl) i) then (xchi x (Lp j) - xchi x (RP j w)) / 2 else 0.
Proof.
  intros i j row rowj b x Ht NSl Hr Hj Hx. rewrite <- rsum_map_scal.
  set (q := Nat.eqb j (next (xorb b tl) i) && negb (is_edge (xorb b tl) i)).
  rewrite (rsum_map_ext _ _ (fun y => if q then / 2 * cross (s_lowest x t) (s_highest x t) (s_lowest y t) (s_highest y t) else 0)).
  - destruct q; [| apply rsum_map_zero; auto]. rewrite rsum_map_scal, (cross_sum x j rowj (negb b) Hj). lra.
  - intros y Hy. rewrite (cell_row_row_exact i j row rowj b x y Ht Hr Hj Hx Hy);
      [fold q; destruct q; lra | apply NSl; exact (in_all_row _ _ _ _ _ Hr Hx) | apply NSl; exact (in_all_row _ _ _ _ _ Hj Hy)].
Qed.

Lemma all_sum_exact : forall i row b x, (t < n)%nat -> no_slivers -> nth_error (ft_rows a) i = Some row ->
  In x (side_surfaces (side_of b row)) ->
  let face := xorb b tl in
  s_length x t * rsum (map (fun y => M (idx x) (idx y)) (all_ts_surfaces a)) =
  (xphi face i x (cutx i) - xphi face i x (if face then MIN_X_GROUND else MAX_X_GROUND)) / 2 +
  (if is_edge face i then 0 else (xchi x (Lp (next face i)) - xchi x (RP (next face i) w)) / 2).
Proof.
  intros i row b x Ht NSl Hr Hx face. pose proof (row_lt _ _ Hr) as Hi. rewrite sum_all, Rmult_plus_distr_l, (gnd_sum_exact i row b x) by auto.
  fold face. f_equal. rewrite <- isum_scal.
  assert (Q : forall j c, (j < N)%nat ->
    s_length x t * rsum (map (fun y => M (idx x) (idx y)) (side_surfaces (side_of c (fit_row p (fit_alpha p f) (fit_rotation p f) j)))) =
    if Bool.eqb c (negb b) && (Nat.eqb j (next face i) && negb (is_edge face i)) then (xchi x (Lp j) - xchi x (RP j w)) / 2 else 0).
  { intros j c Hj. pose proof (row_of j Hj) as Rj. destruct (Bool.eqb c (negb b)) eqn:Ec; cbn [andb].
    - apply eqb_prop in Ec. subst c. exact (rows_sum_exact i j row _ b x Ht NSl Hr Rj Hx).
    - rewrite rsum_map_zero; [lra |]. intros y Hy. apply (cell_rows_zero i j row _ b c x y Hr Rj Hx Hy).
      intros [E _]. subst c. rewrite eqb_reflx in Ec. discriminate. }
  destruct (is_edge face i) eqn:Eg.
  - apply isum_zero. intros j Hj. rewrite Rmult_plus_distr_l, !Q by auto. cbn [negb]. rewrite !andb_false_r. lra.
  - pose proof (next_lt _ _ Hi Eg) as Hn. rewrite (isum_single N _ (next face i) Hn).
    + rewrite Rmult_plus_distr_l, !Q by auto. rewrite Nat.eqb_refl. cbn [negb andb]. destruct b; cbn; lra.
    + intros j Hj Nj. rewrite Rmult_plus_distr_l, !Q by auto. rewrite (proj2 (Nat.eqb_neq j (next face i)) Nj). cbn [andb].
      rewrite !andb_false_r. lra.
Qed.

(* ----------------------------------------------------------------- fast mode *)

Lemma row_coords_ends : forall i, (i < N)%nat ->
  row_coords (nth i (ft_rows a) dummy_row) t = Line (Lp i) (RP i w) \/
  row_coords (nth i (ft_rows a) dummy_row) t = Line (RP i w) (Lp i).
Proof.
  intros i Hi. rewrite fit_rows_at, fit_rows_nth by exact Hi.
  rewrite fit_row_coords. rewrite <- r_eq. unfold Lp, RP. fold D h w.
  unfold low_point, from_low_end. destruct (Rlt_dec 0 r).
  - left. f_equal; f_equal; field.
  - right. f_equal; f_equal; field.
Qed.

(** Shaded length of the front of row [j]. *)
Definition fsl (j : nat) : R := side_shaded_length (row_front (nth j (ft_rows a) dummy_row)) t.

Lemma nth_row_of : forall j, (j < N)%nat -> nth j (ft_rows a) dummy_row = fit_row p (fit_alpha p f) (fit_rotation p f) j.
Proof. intros j Hj. rewrite fit_rows_at. apply fit_rows_nth. exact Hj. Qed.

Lemma front_shaded_telescope : forall j (G : pt -> R), (j < N)%nat ->
  0 <= fsl j <= w /\
  rsum (map (fun s => G (s_highest s t) - G (s_lowest s t))
    (flat_map seg_shaded (side_segments (row_front (fit_row p (fit_alpha p f) (fit_rotation p f) j))))) =
  G (RP j (fsl j)) - G (Lp j).
Proof.
  intros j G Hj. unfold fsl. rewrite (nth_row_of j Hj), fit_row_front.
  destruct (row_sl_bounds p f j t V) as [B1 B2]. unfold Lp, RP. rewrite r_eq.
  pose proof HR as HR'. fold r in HR'. rewrite r_eq in HR'. pose proof V as [_ [_ [_ C]]].
  apply side_shaded_telescope; auto; try apply w_pos.
Qed.

Lemma shaded_coords : forall j, (j < N)%nat ->
  let q := nth j (ft_rows a) dummy_row in
  create_shaded_side_coords (row_xc q) (row_yc q) w (fsl j) tl r (lowest_point (row_coords q t)) = Line (RP j (fsl j)) (Lp j).
Proof.
  intros j Hj q. pose proof (row_lowest j Hj) as L. unfold row_lowest_pt in L. fold q in L. rewrite L.
  unfold create_shaded_side_coords, q. rewrite (nth_row_of j Hj).
  unfold fit_row, pvrow_from_raw_inputs, row_center. cbn [row_xc row_yc fst snd].
  f_equal. rewrite cosd_180, sind_180. unfold RP, low_point, from_low_end. rewrite row_point_eq.
  fold D h. unfold tl, np_where. destruct (Rlt_dec 0 r) as [L0 | L0].
  - rewrite (proj2 (Rltb_true 0 r) L0). unfold D, h, X_ORIGIN_PVROWS, pa_y_ground. f_equal; field.
  - rewrite (proj2 (Rltb_false 0 r)) by lra. unfold D, h, X_ORIGIN_PVROWS, pa_y_ground. f_equal; field.
Qed.

Section Fast.
Variables (i : nat) (lo hi : R) (c : line).
Hypothesis Hi : (i < N)%nat.
Hypothesis Hlo : 0 <= lo.
Hypothesis Hlh : DISTANCE_TOLERANCE < hi - lo.
Hypothesis Hhi : hi <= w.
Hypothesis Hc : c = Line (RP i lo) (RP i hi) \/ c = Line (RP i hi) (RP i lo).
Hypothesis Hcl : lowest_point c = RP i lo.
Hypothesis Hch : highest_point c = RP i hi.

Let face := negb tl.
Let len := hi - lo.
Let nx := next face i.

Lemma len_pos : 0 < len.
Proof. pose proof DISTANCE_TOLERANCE_pos. unfold len. lra. Qed.

Lemma c_length : line_length c = len.
Proof.
  pose proof len_pos as L0. unfold len in *.
  destruct Hc as [-> | ->]; [| rewrite line_length_dist, dist_sym; cbn [b1 b2];
    change (distance (RP i lo) (RP i hi)) with (distance (b1 (Line (RP i lo) (RP i hi))) (b2 (Line (RP i lo) (RP i hi)))); rewrite <- line_length_dist];
  unfold RP; apply low_point_dist; lra.
Qed.

Definition echi (q : pt) : R := distance q (RP i hi) - distance q (RP i lo).
Definition ephi (g : R) : R := phi (OL face i) (oux face) uy (obs face i) lo hi (og face g).

Lemma echi_chi : forall left q, echi q = chi (OL left i) (oux left) uy lo hi (orient left q).
Proof. intros left q. unfold echi, chi. rewrite <- !orient_RP, !dist_orient. reflexivity. Qed.

Lemma echi_bound : forall q, - len <= echi q <= len.
Proof. intro q. rewrite (echi_chi face). pose proof len_pos. unfold len in *. apply chi_bound; [apply oux_unit | lra]. Qed.

Lemma uy_flat : uy = 0 -> r = 0.
Proof. intro Z. destruct (Req_dec r 0); auto. pose proof (up_y_pos r HR). unfold uy in Z. lra. Qed.

Lemma echi_next_mono : forall f1 f2, is_edge face i = false -> 0 <= f1 <= f2 -> f2 <= w ->
  echi (RP nx f2) <= echi (RP nx f1).
Proof.
  intros f1 f2 Eg Hf Hw. pose proof len_pos as L0. unfold len in L0. rewrite !(echi_chi face). unfold nx. rewrite !orient_next_RP by auto.
  apply chi_np_mono; auto using uy_nonneg, D_pos; try lra.
  intro Z. pose proof (uy_flat Z) as Z'. assert (W : w <= D) by (apply HF; exact Z').
  unfold oux. rewrite Z'. destruct up_flat as [-> _]. destruct face; [exists w | exists 0]; lra.
Qed.

Lemma fast_row : calculate_vf_to_pvrow (ft_rows a) c i (line_length c) tl w r t =
  if is_edge face i then (0, 0)
  else ((echi (Lp nx) - echi (RP nx w)) / (2 * len), (echi (Lp nx) - echi (RP nx (fsl nx))) / (2 * len)).
Proof.
  rewrite c_length.
  assert (Q : forall left, left = face -> is_edge left i = false ->
    vf_surface_to_surface c (row_coords (nth (next left i) (ft_rows a) dummy_row) t) len = (echi (Lp nx) - echi (RP nx w)) / (2 * len) /\
    vf_surface_to_surface c (Line (RP (next left i) (fsl (next left i))) (Lp (next left i))) len = (echi (Lp nx) - echi (RP nx (fsl nx))) / (2 * len)).
  { intros left -> Eg. fold nx. pose proof (next_lt face i Hi Eg) as Hn. fold nx in Hn.
    assert (X : forall e, 0 <= e <= w -> Rabs (cross (RP i lo) (RP i hi) (Lp nx) (RP nx e)) = echi (Lp nx) - echi (RP nx e)).
    { intros e He. pose proof (echi_next_mono 0 e Eg ltac:(lra) ltac:(lra)) as Mo. fold (Lp nx) in Mo.
      assert (E : cross (RP i lo) (RP i hi) (Lp nx) (RP nx e) = echi (Lp nx) - echi (RP nx e)).
      { unfold cross, echi. rewrite !(dist_sym (RP i lo)), !(dist_sym (RP i hi)). ring. }
      rewrite E. apply Rabs_right. lra. }
    destruct (front_shaded_telescope nx (fun _ => 0) Hn) as [S0 _]. pose proof w_pos.
    split.
    - rewrite (vf_s2s_cross c _ len (RP i lo) (RP i hi) (Lp nx) (RP nx w)); auto using row_coords_ends. rewrite X by lra. reflexivity.
    - rewrite (vf_s2s_cross c _ len (RP i lo) (RP i hi) (Lp nx) (RP nx (fsl nx))); auto. rewrite X by lra. reflexivity. }
  unfold calculate_vf_to_pvrow. rewrite rows_length. cbv zeta. fold N. unfold np_where.
  destruct (is_edge face i) eqn:Eg.
  - unfold face in Eg. destruct tl; cbn [negb is_edge] in Eg; rewrite Eg; reflexivity.
  - destruct (Q face eq_refl Eg) as [Q1 Q2]. pose proof (next_lt face i Hi Eg) as Hn.
    pose proof (shaded_coords (next face i) Hn) as SC. cbv zeta in SC. unfold fsl in SC at 1.
    rewrite <- Q1, <- Q2, <- SC. unfold face in *. clear Q Q1 Q2 SC.
    destruct tl; cbn [negb is_edge next] in *; rewrite Eg; reflexivity.
Qed.

(** The cut point as published. *)
Definition cutp : xr := nth i (gnd_cut_points (ft_ground a)) dummy_cut t.

Lemma cutp_eq : cutp = cut_point (row_coords (fit_row p (fit_alpha p f) (fit_rotation p f) i) t) (fit_rotation p f t) pa_y_ground.
Proof.
  unfold cutp. destruct (ground_from_ordered_spec _ _ _ _ _ (fit_ground_ordered _ _ _ _ F)) as [_ [Ec _]]. rewrite Ec.
  exact (f_equal (fun g => g t) (nth_error_nth _ _ dummy_cut (cuts_nth i Hi))).
Qed.

Lemma cutp_cutx : cutx i = ck cutp.
Proof. rewrite cutp_eq. reflexivity. Qed.

(** The ground seen by the row does not start beyond the far end of the ground. *)
Definition cut_reached : Prop := if face then xle (XFin (-100)) cutp else xle cutp (XFin 100).

Lemma fast_gnd_interior : forall y, is_edge face i = false ->
  calculate_vf_to_gnd (ft_rows a) c i y cutp (line_length c) tl t = Some ((len - echi (Lp nx)) / (2 * len)).
Proof.
  intros y Eg. rewrite c_length. pose proof len_pos as L0.
  assert (X : forall l, l = Line (Lp nx) (Lp i) \/ l = Line (Lp i) (Lp nx) -> vf_surface_to_surface c l len = (len - echi (Lp nx)) / (2 * len)).
  { intros l Hl. rewrite (vf_s2s_cross c l len (RP i lo) (RP i hi) (Lp nx) (Lp i)); auto.
    f_equal. assert (E : forall e, 0 <= e -> distance (RP i e) (Lp i) = e).
    { intros e He. rewrite dist_sym. pose proof (low_point_dist (INR i * D) h w r 0 e He) as LD. rewrite line_length_dist in LD. cbn [b1 b2] in LD.
      unfold Lp, RP. rewrite LD. ring. }
    unfold cross. rewrite !E by (unfold len in L0; lra). rewrite (dist_sym (RP i hi)), (dist_sym (RP i lo)).
    pose proof (echi_bound (Lp nx)) as B. unfold echi in *. unfold len in *. rewrite Rabs_left1; lra. }
  unfold calculate_vf_to_gnd. rewrite rows_length. cbv zeta. fold N. rewrite (row_lowest i Hi).
  unfold np_where. pose proof (next_lt face i Hi Eg) as Hn. pose proof (row_lowest (next face i) Hn) as RL. unfold nx in X.
  pose proof (X _ (or_introl eq_refl)) as X1. pose proof (X _ (or_intror eq_refl)) as X2. rewrite <- RL in X1, X2.
  unfold nx. rewrite <- RL. unfold face in *. clear X RL.
  destruct tl; cbn [negb is_edge next] in *; rewrite Eg; f_equal; assumption.
Qed.

(** Position of a piece of ground with respect to the line of the row. *)
Lemma facing_visible : forall u v, -100 <= u -> u < v -> v <= 100 ->
  (if face then v <= cutx i else cutx i <= u) -> 0 <= side_k (OL face i) (oux face) uy (if face then - v else u).
Proof.
  intros u v B1 Huv B2 P0. destruct (Req_dec r 0) as [Z | Nz].
  - rewrite cutx_flat in P0 by auto. unfold face in *.
    assert (E : tl = false) by (unfold tl; apply Rltb_false; lra). rewrite E in *. cbn [negb] in *.
    unfold side_k, oux, uy. rewrite Z. destruct up_flat as [-> ->]. pose proof (OL_y true i). lra.
  - destruct (side_k_cut face i Nz) as [_ E]. rewrite E.
    apply Rmult_le_pos; [apply uy_nonneg |]. rewrite cutx_eq in P0 by auto.
    unfold og in *. destruct face.
    + apply ck_fin_ge in P0; lra.
    + apply ck_fin_le in P0; lra.
Qed.

Definition epiece (u v : R) : R := if face then ephi v - ephi u else ephi u - ephi v.

Lemma epiece_gpiece : forall u v, epiece u v =
  gpiece (obs face i) (orient face (RP i lo)) (orient face (RP i hi)) (if face then - v else u) (if face then - u else v).
Proof. intros u v. unfold epiece, gpiece, ephi, phi, og. rewrite !orient_RP. destruct face; ring. Qed.

Lemma epiece_nonneg : forall u v, -100 <= u -> u <= v -> v <= 100 ->
  (if face then v <= cutx i else cutx i <= u) -> 0 <= epiece u v.
Proof.
  intros u v B1 Huv B2 P0. pose proof len_pos as L0. unfold len in L0. destruct (Rle_lt_or_eq_dec _ _ Huv) as [Lt | Eq].
  - rewrite epiece_gpiece, !orient_RP, gpiece_piece. pose proof (facing_visible u v B1 Lt B2 P0) as K.
    assert (G : (if face then - v else u) <= (if face then - u else v)) by (destruct face; lra).
    unfold obs. destruct (is_edge face i).
    + apply piece_none_nonneg; auto using OL_y, oux_unit, uy_nonneg; lra.
    + apply piece_some_nonneg; auto using OL_y, oux_unit, uy_nonneg, D_pos; lra.
  - subst v. unfold epiece. destruct face; lra.
Qed.

Lemma ephi_edge_ground : forall u v, is_edge face i = true -> -100 <= u -> u <= v -> v <= 100 ->
  (if face then v <= cutx i else cutx i <= u) ->
  vf_surface_to_surface c (Line (gp u) (gp v)) len = epiece u v / (2 * len).
Proof.
  intros u v Eg B1 Huv B2 P0. rewrite (vf_s2s_cross c _ len (RP i lo) (RP i hi) (gp u) (gp v)); auto.
  rewrite (cross_gpiece_abs face). pose proof (epiece_nonneg u v B1 Huv B2 P0) as E0.
  rewrite epiece_gpiece in *. unfold obs in *. rewrite Eg in *. rewrite Rabs_right by lra. reflexivity.
Qed.

Lemma fast_gnd_edge : is_edge face i = true -> cut_reached ->
  calculate_vf_to_gnd (ft_rows a) c i 0 cutp (line_length c) tl t =
  Some ((ephi (cutx i) - ephi (if face then -100 else 100)) / (2 * len)).
Proof.
  intros Eg CR. rewrite c_length. pose proof cutp_cutx as CX. destruct ground_bounds as [GB1 GB2].
  pose proof (ck_bounds cutp) as KB. rewrite <- CX, GB1, GB2 in KB.
  assert (Q : forall u v, (if face then u = -100 /\ v = cutx i else u = cutx i /\ v = 100) ->
     vf_surface_to_surface c (Line (Pt u 0) (Pt v 0)) len = (ephi (cutx i) - ephi (if face then -100 else 100)) / (2 * len)).
  { intros u v H. change (Pt u 0) with (gp u). change (Pt v 0) with (gp v). rewrite ephi_edge_ground; auto.
    - f_equal. unfold epiece. destruct face; destruct H; subst; reflexivity.
    - destruct face; lra. - destruct face; lra. - destruct face; lra. - destruct face; lra. }
  unfold calculate_vf_to_gnd. rewrite rows_length. cbv zeta. fold N. unfold np_where.
  unfold cut_reached in CR. unfold ck, xclip in CX. rewrite GB1, GB2 in CX |- *.
  destruct (bool_dec tl true) as [Et | Et]; [| apply not_true_is_false in Et];
    (assert (Ef : face = negb tl) by reflexivity; rewrite Et in Ef |- *; cbn [negb] in Ef; rewrite Ef in Q, CR, Eg |- *; cbn [is_edge] in Eg; rewrite Eg).
  - destruct cutp as [| x | |]; cbn [xle] in CR; try contradiction; cbn [max_with_cut]; f_equal; apply Q; split; auto; rewrite CX; try reflexivity; minmax; lra.
  - destruct cutp as [| x | |]; cbn [xle] in CR; try contradiction; cbn [min_with_cut]; f_equal; apply Q; split; auto; rewrite CX; try reflexivity; minmax; lra.
Qed.

(** Shadows. *)
Lemma shadow_parts : forall e, In e (gnd_shadows (ft_ground a)) ->
  let part := if face then coords_left_of_cut_point (el_coords e t) cutp else coords_right_of_cut_point (el_coords e t) cutp in
  part = Line (gp (px (b1 part))) (gp (px (b2 part))) /\
  -100 <= px (b1 part) /\ px (b1 part) <= px (b2 part) /\ px (b2 part) <= 100 /\
  (if face then px (b2 part) <= cutx i else cutx i <= px (b1 part)) /\
  forall G : R -> R, rsum (map (fun s => G (px (b2 (s_coords s t))) - G (px (b1 (s_coords s t)))) (el_side e face i)) =
    G (px (b2 part)) - G (px (b1 part)).
Proof.
  intros e He part. destruct (fit_cuts p (fit_alpha p f) (fit_rotation p f) t V above HRf) as [_ [Nn Sc]].
  assert (He' : In e (gnd_shadows (ft_ground a) ++ gnd_illum (ft_ground a))) by (apply in_or_app; auto).
  pose proof (fun G => el_side_telescope G _ _ _ _ _ i _ t face e (fit_ground_ordered _ _ _ _ F) raw_ord Nn Sc (cuts_nth i Hi) He') as T0.
  cbv zeta beta in T0. rewrite <- cutp_eq in T0. fold part in T0.
  destruct (T0 (fun _ => 0)) as [_ [[I1 [I2 I3]] [Y1 [Y2 P0]]]].
  destruct ground_bounds as [GB1 GB2]. rewrite GB1, GB2 in *.
  split; [| split; [exact I1 |]; split; [exact I2 |]; split; [exact I3 |]; split; [rewrite cutp_cutx; exact P0 |]].
  - unfold gp. change pa_y_ground with 0 in *. destruct part as [[x1 y1] [x2 y2]]. cbn [b1 b2 px py] in *. subst. reflexivity.
  - intro G. exact (proj1 (T0 G)).
Qed.

Lemma fast_shadow : forall e, In e (gnd_shadows (ft_ground a)) ->
  calculate_vf_to_shadow (ft_rows a) c i tl
    (coords_left_of_cut_point (el_coords e t) cutp) (coords_right_of_cut_point (el_coords e t) cutp) (line_length c) t =
  rsum (map (fun s => epiece (px (b1 (s_coords s t))) (px (b2 (s_coords s t)))) (el_side e face i)) / (2 * len).
Proof.
  intros e He. destruct (shadow_parts e He) as [Ep [B1 [B2 [B3 [P0 T0]]]]].
  set (part := if face then coords_left_of_cut_point (el_coords e t) cutp else coords_right_of_cut_point (el_coords e t) cutp) in *.
  assert (E : rsum (map (fun s => epiece (px (b1 (s_coords s t))) (px (b2 (s_coords s t)))) (el_side e face i)) = epiece (px (b1 part)) (px (b2 part))).
  { rewrite (rsum_map_ext _ _ (fun s => (fun g => if face then ephi g else - ephi g) (px (b2 (s_coords s t))) - (fun g => if face then ephi g else - ephi g) (px (b1 (s_coords s t))))).
    - rewrite (T0 (fun g => if face then ephi g else - ephi g)). unfold epiece. destruct face; ring.
    - intros s _. unfold epiece. destruct face; ring. }
  rewrite E. rewrite c_length. pose proof len_pos as L0.
  assert (Q : (if is_edge face i then vf_surface_to_surface c part len
     else vf_hottel_gnd_surf (highest_point c) (lowest_point c) (b1 part) (b2 part) (row_lowest_pt (ft_rows a) (next face i) t) len face)
     = epiece (px (b1 part)) (px (b2 part)) / (2 * len)).
  { destruct (is_edge face i) eqn:Eg.
    - rewrite Ep at 1. apply ephi_edge_ground; auto.
    - rewrite Hcl, Hch. rewrite (row_lowest (next face i) (next_lt face i Hi Eg)).
      assert (Eb1 : b1 part = gp (px (b1 part))) by exact (f_equal b1 Ep).
      assert (Eb2 : b2 part = gp (px (b2 part))) by exact (f_equal b2 Ep).
      set (u := px (b1 part)) in *. set (v := px (b2 part)) in *. rewrite Eb1, Eb2.
      rewrite vf_hottel_gpiece; [| apply RP_y; unfold len in L0; lra | apply RP_y; lra | apply Lp_y | exact Hlh].
      rewrite epiece_gpiece. unfold obs. rewrite Eg. rewrite orient_next by auto. reflexivity. }
  unfold calculate_vf_to_shadow. rewrite rows_length. cbv zeta. fold N. unfold np_where. rewrite <- Q. unfold part. clear Q E T0 P0 B1 B2 B3 Ep part.
  unfold face. destruct tl; cbn [negb is_edge next]; reflexivity.
Qed.

(** The whole dictionary. *)
Definition shadow_sum : R :=
  rsum (map (fun e => rsum (map (fun s => epiece (px (b1 (s_coords s t))) (px (b2 (s_coords s t)))) (el_side e face i)))
         (gnd_shadows (ft_ground a))).

Definition fast_result (gnd : R) : fast_vf :=
  let each := map (fun e => rsum (map (fun s => epiece (px (b1 (s_coords s t))) (px (b2 (s_coords s t)))) (el_side e face i)) / (2 * len))
                (gnd_shadows (ft_ground a)) in
  let sh := shadow_sum / (2 * len) in
  let row := if is_edge face i then 0 else (echi (Lp nx) - echi (RP nx w)) / (2 * len) in
  let rsh := if is_edge face i then 0 else (echi (Lp nx) - echi (RP nx (fsl nx))) / (2 * len) in
  FastVF each sh (gnd - sh) gnd row rsh (row - rsh) (1 - gnd - row).

Definition fast_gnd : R :=
  if is_edge face i then (ephi (cutx i) - ephi (if face then -100 else 100)) / (2 * len)
  else (len - echi (Lp nx)) / (2 * len).

Lemma fast_any : forall el : ts line, el t = c -> forall v,
  get_vf_ts_pvrow_element i el (ft_rows a) (ft_ground a) (ft_rotation a) (ft_width a) t = Some v ->
  exists gnd, v = fast_result gnd /\ calculate_vf_to_gnd (ft_rows a) c i 0 cutp (line_length c) tl t = Some gnd.
Proof.
  intros el Hel v. unfold get_vf_ts_pvrow_element. rewrite Hel. cbv zeta. fold r tl.
  destruct (fit_spec _ _ _ _ F) as [_ [_ [Ew _]]]. rewrite Ew. fold w.
  destruct (ground_from_ordered_spec _ _ _ _ _ (fit_ground_ordered _ _ _ _ F)) as [Ey _]. rewrite Ey. change pa_y_ground with 0. fold cutp.
  set (each := map _ (combine _ _)).
  assert (Ee : each = map (fun e => rsum (map (fun s => epiece (px (b1 (s_coords s t))) (px (b2 (s_coords s t)))) (el_side e face i)) / (2 * len)) (gnd_shadows (ft_ground a))).
  { unfold each, shadow_coords_left_of_cut_point, shadow_coords_right_of_cut_point.
    assert (CM : forall (A B C : Type) (g : A -> B) (k : A -> C) l, combine (map g l) (map k l) = map (fun x => (g x, k x)) l).
    { intros A B C g k l. induction l; cbn; [reflexivity | f_equal; auto]. }
    rewrite CM, map_map. apply map_ext_in. intros e He. cbn [fst snd]. fold cutp. apply fast_shadow. exact He. }
  destruct (calculate_vf_to_gnd (ft_rows a) c i 0 cutp (line_length c) tl t) as [gnd |]; [| discriminate].
  intro E. exists gnd. split; [| reflexivity]. apply (f_equal (fun o => match o with Some x => x | None => v end)) in E. cbv beta iota in E. rewrite <- E.
  rewrite fast_row, Ee. unfold fast_result. rewrite py_sum_rsum.
  assert (Es : rsum (map (fun e => rsum (map (fun s => epiece (px (b1 (s_coords s t))) (px (b2 (s_coords s t)))) (el_side e face i)) / (2 * len)) (gnd_shadows (ft_ground a))) = shadow_sum / (2 * len)).
  { transitivity (/ (2 * len) * shadow_sum); [| unfold Rdiv; ring]. unfold shadow_sum. rewrite <- rsum_map_scal. apply rsum_map_ext. intros. unfold Rdiv. ring. }
  rewrite Es. destruct (is_edge face i); reflexivity.
Qed.

Lemma fast_gnd_ok : (is_edge face i = true -> cut_reached) ->
  calculate_vf_to_gnd (ft_rows a) c i 0 cutp (line_length c) tl t = Some fast_gnd.
Proof. intro CR. unfold fast_gnd. destruct (is_edge face i) eqn:Eg; [apply fast_gnd_edge; auto | apply fast_gnd_interior; auto]. Qed.

Lemma fast_values : forall el : ts line, el t = c -> (is_edge face i = true -> cut_reached) ->
  get_vf_ts_pvrow_element i el (ft_rows a) (ft_ground a) (ft_rotation a) (ft_width a) t = Some (fast_result fast_gnd).
Proof.
  intros el Hel CR. pose proof (fast_any el Hel) as FA. pose proof (fast_gnd_ok CR) as G.
  destruct (get_vf_ts_pvrow_element i el (ft_rows a) (ft_ground a) (ft_rotation a) (ft_width a) t) as [v |] eqn:Ev.
  - destruct (FA v eq_refl) as [gnd [-> Eg]]. rewrite G in Eg. f_equal. f_equal.
    exact (f_equal (fun o => match o with Some x => x | None => 0 end) (eq_sym Eg)).
  - exfalso. revert Ev. unfold get_vf_ts_pvrow_element. rewrite Hel. cbv zeta. fold r tl.
    destruct (ground_from_ordered_spec _ _ _ _ _ (fit_ground_ordered _ _ _ _ F)) as [Ey _]. rewrite Ey. change pa_y_ground with 0. fold cutp.
    rewrite G. discriminate.
Qed.

(** Bounds. *)
Lemma gnd_pieces_nonneg : forall s, In s (gnd_side_of_cut_point (ft_ground a) face i) ->
  0 <= epiece (px (b1 (s_coords s t))) (px (b2 (s_coords s t))).
Proof.
  intros s Hs. pose proof (gnd_side_pos i face s Hi Hs) as P0.
  destruct (gnd_shape s (in_gnd_side _ _ _ _ _ _ _ F Hi Hs)) as [_ [B0 [_ [B1 B2]]]]. apply epiece_nonneg; auto.
Qed.

Lemma facing_total : rsum (map (fun s => epiece (px (b1 (s_coords s t))) (px (b2 (s_coords s t)))) (gnd_side_of_cut_point (ft_ground a) face i)) =
  ephi (cutx i) - ephi (if face then -100 else 100).
Proof.
  rewrite (rsum_map_ext _ _ (fun s => (fun g => if face then ephi g else - ephi g) (px (b2 (s_coords s t))) - (fun g => if face then ephi g else - ephi g) (px (b1 (s_coords s t))))).
  - rewrite (gnd_telescope i face (fun g => if face then ephi g else - ephi g) Hi). destruct ground_bounds as [-> ->]. destruct face; ring.
  - intros s _. unfold epiece. destruct face; ring.
Qed.

Lemma shadow_sum_bounds : 0 <= shadow_sum <= ephi (cutx i) - ephi (if face then -100 else 100).
Proof.
  rewrite <- facing_total. pose proof gnd_pieces_nonneg as P0. unfold gnd_side_of_cut_point in *.
  rewrite map_app, rsum_app. unfold shadow_sum.
  assert (E : rsum (map (fun e => rsum (map (fun s => epiece (px (b1 (s_coords s t))) (px (b2 (s_coords s t)))) (el_side e face i))) (gnd_shadows (ft_ground a))) =
     rsum (map (fun s => epiece (px (b1 (s_coords s t))) (px (b2 (s_coords s t)))) (flat_map (fun e => el_side e face i) (gnd_shadows (ft_ground a))))).
  { rewrite rsum_flat_map. reflexivity. }
  rewrite E.
  assert (Z : forall l, (forall s, In s l -> 0 <= epiece (px (b1 (s_coords s t))) (px (b2 (s_coords s t)))) ->
     0 <= rsum (map (fun s => epiece (px (b1 (s_coords s t))) (px (b2 (s_coords s t)))) l)).
  { intros l Hl. induction l as [| s l IH]; cbn [map rsum]; [lra |]. pose proof (Hl s (or_introl eq_refl)).
    assert (0 <= rsum (map (fun s => epiece (px (b1 (s_coords s t))) (px (b2 (s_coords s t)))) l)) by (apply IH; intros; apply Hl; right; auto). lra. }
  pose proof (Z _ (fun s Hs => P0 s (in_or_app _ _ _ (or_introl Hs)))).
  pose proof (Z _ (fun s Hs => P0 s (in_or_app _ _ _ (or_intror Hs)))). lra.
Qed.

Let far := if face then -100 else 100.

Lemma far_visible : cutx i <> far -> 0 <= side_k (OL face i) (oux face) uy (og face far).
Proof.
  intro Nf. destruct ground_bounds as [GB1 GB2]. destruct (Req_dec r 0) as [Z | Nz].
  - rewrite cutx_flat in Nf by auto. unfold far in *. destruct face; [| lra].
    unfold side_k, oux, uy. rewrite Z. destruct up_flat as [-> ->]. pose proof (OL_y true i). lra.
  - destruct (side_k_cut face i Nz) as [_ E]. rewrite E. apply Rmult_le_pos; [apply uy_nonneg |].
    rewrite cutx_eq in Nf by auto. unfold ck, xclip in Nf. rewrite GB1, GB2 in Nf.
    unfold far, og in *. destruct face; minmax; lra.
Qed.

Lemma ephi_le : forall g, ephi g <= len.
Proof.
  intro g. pose proof len_pos. unfold ephi, obs. unfold len in *. destruct (is_edge face i).
  - apply phi_none_bound; [apply oux_unit | lra].
  - apply phi_some_le; auto using OL_y, oux_unit, uy_nonneg, D_pos. lra.
Qed.

Lemma ephi_far_ge : is_edge face i = false -> cutx i <> far -> echi (Lp nx) <= ephi far.
Proof.
  intros Eg Nf. pose proof len_pos. unfold len in *. rewrite (echi_chi face). unfold nx. rewrite orient_next by auto. unfold ephi, obs. rewrite Eg.
  apply phi_some_ge; auto using OL_y, uy_nonneg, D_pos; [lra | apply far_visible; exact Nf].
Qed.

Lemma facing_le_gnd : ephi (cutx i) - ephi far <= 2 * len * fast_gnd.
Proof.
  pose proof len_pos as L0. unfold fast_gnd. destruct (is_edge face i) eqn:Eg.
  - fold far. right. field. lra.
  - replace (2 * len * ((len - echi (Lp nx)) / (2 * len))) with (len - echi (Lp nx)) by (field; lra).
    destruct (Req_dec (cutx i) far) as [Ef | Nf].
    + rewrite Ef. pose proof (echi_bound (Lp nx)). lra.
    + pose proof (ephi_far_ge Eg Nf). pose proof (ephi_le (cutx i)). lra.
Qed.

Lemma fast_bounds : let v := fast_result fast_gnd in
  (forall x, In x (to_each_gnd_shadow v) -> 0 <= x) /\
  0 <= to_gnd_shaded v /\ 0 <= to_gnd_illum v /\ 0 <= to_gnd_total v /\
  0 <= to_pvrow_total v /\ 0 <= to_pvrow_shaded v /\ 0 <= to_pvrow_illum v /\ 0 <= to_sky v.
Proof.
  pose proof len_pos as L0. pose proof shadow_sum_bounds as SB. fold far in SB. pose proof facing_le_gnd as FG.
  assert (DV : forall x, 0 <= x -> 0 <= x / (2 * len)).
  { intros x Hx. apply Rmult_le_pos; [exact Hx | left; apply Rinv_0_lt_compat; lra]. }
  cbv zeta. unfold fast_result. cbn [to_each_gnd_shadow to_gnd_shaded to_gnd_illum to_gnd_total to_pvrow_total to_pvrow_shaded to_pvrow_illum to_sky].
  assert (S1 : shadow_sum / (2 * len) <= fast_gnd).
  { apply Rmult_le_reg_l with (2 * len); [lra |]. replace (2 * len * (shadow_sum / (2 * len))) with shadow_sum by (field; lra). lra. }
  assert (S0 : 0 <= shadow_sum / (2 * len)) by (apply DV; lra).
  split; [| split; [exact S0 |]; split; [lra |]; split; [lra |]].
  - intros x Hx. apply in_map_iff in Hx. destruct Hx as [e [<- He]]. apply DV. apply rsum_nonneg.
    intros y Hy. apply in_map_iff in Hy. destruct Hy as [s [<- Hs]]. apply gnd_pieces_nonneg.
    unfold gnd_side_of_cut_point. apply in_or_app. left. apply in_flat_map. eauto.
  - unfold fast_gnd in *. destruct (is_edge face i) eqn:Eg.
    + fold far. fold far in FG, S1. repeat split; try lra. pose proof (ephi_le (cutx i)) as U1.
      assert (U2 : - len <= ephi far).
      { unfold ephi, obs. rewrite Eg. unfold len in *. apply phi_none_bound; [apply oux_unit | lra]. }
      assert ((ephi (cutx i) - ephi far) / (2 * len) <= 1).
      { apply Rmult_le_reg_l with (2 * len); [lra |]. replace (2 * len * ((ephi (cutx i) - ephi far) / (2 * len))) with (ephi (cutx i) - ephi far) by (field; lra). lra. }
      lra.
    + pose proof (next_lt face i Hi Eg) as Hn. fold nx in Hn. destruct (front_shaded_telescope nx (fun _ => 0) Hn) as [FS _]. pose proof w_pos as W0.
      pose proof (echi_next_mono 0 (fsl nx) Eg ltac:(lra) ltac:(lra)) as M1. pose proof (echi_next_mono (fsl nx) w Eg ltac:(lra) ltac:(lra)) as M2. fold (Lp nx) in M1.
      split; [apply DV; lra |]. split; [apply DV; lra |].
      split; [replace ((echi (Lp nx) - echi (RP nx w)) / (2 * len) - (echi (Lp nx) - echi (RP nx (fsl nx))) / (2 * len)) with ((echi (RP nx (fsl nx)) - echi (RP nx w)) / (2 * len)) by (field; lra); apply DV; lra |].
      replace (1 - (len - echi (Lp nx)) / (2 * len) - (echi (Lp nx) - echi (RP nx w)) / (2 * len)) with ((len + echi (RP nx w)) / (2 * len)) by (field; lra).
      apply DV. pose proof (echi_bound (RP nx w)). lra.
Qed.

(** The value is a fraction whatever the ground line is. *)
Lemma vf_line_bounds : forall l, 0 <= vf_surface_to_surface c l len <= 1.
Proof.
  intro l. pose proof len_pos as L0. rewrite (vf_s2s_cross c l len (RP i lo) (RP i hi) (b1 l) (b2 l)); auto.
  2:{ left. destruct l; reflexivity. }
  assert (B : Rabs (cross (RP i lo) (RP i hi) (b1 l) (b2 l)) <= 2 * len).
  { pose proof (echi_bound (b1 l)) as B1. pose proof (echi_bound (b2 l)) as B2. unfold cross, echi in *.
    rewrite !(dist_sym (RP i lo)), !(dist_sym (RP i hi)). apply Rabs_le. lra. }
  pose proof (Rabs_pos (cross (RP i lo) (RP i hi) (b1 l) (b2 l))) as P0. split.
  - apply Rmult_le_pos; [lra | left; apply Rinv_0_lt_compat; lra].
  - apply Rmult_le_reg_l with (2 * len); [lra |]. replace (2 * len * (Rabs (cross (RP i lo) (RP i hi) (b1 l) (b2 l)) / (2 * len))) with (Rabs (cross (RP i lo) (RP i hi) (b1 l) (b2 l))) by (field; lra). lra.
Qed.

Lemma fast_gnd_unreached : is_edge face i = true -> ~ cut_reached -> forall gnd,
  calculate_vf_to_gnd (ft_rows a) c i 0 cutp (line_length c) tl t = Some gnd -> cutx i = far /\ 0 <= gnd <= 1.
Proof.
  intros Eg CR gnd. rewrite c_length. pose proof cutp_cutx as CX. destruct ground_bounds as [GB1 GB2].
  unfold calculate_vf_to_gnd. rewrite rows_length. cbv zeta. fold N. unfold np_where.
  unfold cut_reached in CR. unfold ck, xclip in CX. rewrite GB1, GB2 in CX |- *. unfold far.
  pose proof vf_line_bounds as VB.
  destruct (bool_dec tl true) as [Et | Et]; [| apply not_true_is_false in Et];
    (assert (Ef : face = negb tl) by reflexivity; rewrite Et in Ef |- *; cbn [negb] in Ef; rewrite Ef in CR, Eg |- *; cbn [is_edge] in Eg; rewrite Eg).
  - destruct cutp as [| x | |]; cbn [xle] in CR; cbn [max_with_cut]; intro E; try discriminate; try (exfalso; tauto).
    split; [rewrite CX; minmax; lra |]. pose proof (VB (Line (Pt (np_max (-100) x) 0) (Pt 100 0))) as B.
    apply (f_equal (fun o => match o with Some x => x | None => 0 end)) in E. rewrite <- E. exact B.
  - destruct cutp as [| x | |]; cbn [xle] in CR; cbn [min_with_cut]; intro E; try discriminate; try (exfalso; tauto).
    split; [rewrite CX; minmax; lra |]. pose proof (VB (Line (Pt (-100) 0) (Pt (np_min 100 x) 0))) as B.
    apply (f_equal (fun o => match o with Some x => x | None => 0 end)) in E. rewrite <- E. exact B.
Qed.

Lemma Rle_or_not : forall x y : R, x <= y \/ ~ x <= y.
Proof. intros x y. destruct (Rle_dec x y); auto. Qed.

Lemma cut_reached_dec : cut_reached \/ ~ cut_reached.
Proof.
  unfold cut_reached. destruct face, cutp as [| x | |]; cbn [xle]; auto using Rle_or_not.
Qed.

Lemma fast_bounds_any : forall gnd, calculate_vf_to_gnd (ft_rows a) c i 0 cutp (line_length c) tl t = Some gnd ->
  let v := fast_result gnd in
  (forall x, In x (to_each_gnd_shadow v) -> 0 <= x) /\
  0 <= to_gnd_shaded v /\ 0 <= to_gnd_illum v /\ 0 <= to_gnd_total v /\
  0 <= to_pvrow_total v /\ 0 <= to_pvrow_shaded v /\ 0 <= to_pvrow_illum v /\ 0 <= to_sky v.
Proof.
  intros gnd Eg. pose proof fast_bounds as FB.
  assert (C : (is_edge face i = true -> cut_reached) \/ is_edge face i = true /\ ~ cut_reached).
  { destruct (is_edge face i); [destruct cut_reached_dec; auto | left; discriminate]. }
  destruct C as [C | [C1 C2]].
  - rewrite (fast_gnd_ok C) in Eg. apply (f_equal (fun o => match o with Some x => x | None => 0 end)) in Eg. rewrite <- Eg. exact FB.
  - destruct (fast_gnd_unreached C1 C2 gnd Eg) as [Ex B]. pose proof shadow_sum_bounds as SB. fold far in SB. rewrite Ex in SB.
    cbv zeta in FB |- *. destruct FB as [F1 _]. split; [exact F1 |].
    unfold fast_result. rewrite C1. cbn [to_each_gnd_shadow to_gnd_shaded to_gnd_illum to_gnd_total to_pvrow_total to_pvrow_shaded to_pvrow_illum to_sky].
    replace shadow_sum with 0 by lra. unfold Rdiv. rewrite Rmult_0_l. repeat split; lra.
Qed.

(** The ground next to the row: the line of the row meets it at the cut point. *)
Definition cut_abscissa : R := INR i * D - h * cosd r / sind r.

Lemma ephi_cut : is_edge face i = false -> r <> 0 -> -100 <= cut_abscissa <= 100 -> ephi (cutx i) = len.
Proof.
  intros Eg Nz B. destruct ground_bounds as [GB1 GB2].
  assert (Ex : cutx i = cut_abscissa).
  { rewrite cutx_eq by auto. fold cut_abscissa. unfold ck, xclip. rewrite GB1, GB2. minmax; lra. }
  destruct (side_k_cut face i Nz) as [K0 _]. fold cut_abscissa in K0. rewrite Ex.
  pose proof (up_y_pos r HR Nz) as U. fold uy in U. pose proof len_pos as L0. unfold len in *.
  pose proof (OL_y face i) as Oy. pose proof D_pos as D0.
  unfold ephi, phi, obs. rewrite Eg.
  assert (SF : forall e, 0 <= e -> ob (OL face i) (oux face) uy D e (og face cut_abscissa) <= 0).
  { intros e He. apply strip_free; auto; rewrite K0; nra. }
  rewrite !str_free; auto; try apply SF; try lra.
  assert (G : gp (og face cut_abscissa) = rp (OL face i) (oux face) uy (- (py (OL face i) / uy))).
  { unfold gp, rp. unfold side_k in K0. f_equal; [| field; lra].
    apply Rmult_eq_reg_l with uy; [| lra].
    replace (uy * (px (OL face i) + - (py (OL face i) / uy) * oux face)) with (uy * px (OL face i) - py (OL face i) * oux face) by (field; lra). lra. }
  assert (Sp : 0 < py (OL face i) / uy) by (apply Rdiv_lt_0_compat; lra).
  rewrite G, !rp_dist; auto using oux_unit; lra.
Qed.

(** The far end of the ground, hidden by the lower edge of the neighbour. *)
Lemma tail_zero : is_edge face i = false ->
  0 <= crs (gp (og face far)) (orient face (RP i lo)) (orient face (Lp nx)) -> ephi far = echi (Lp nx).
Proof.
  intros Eg H0. pose proof len_pos as L0. unfold len in *. unfold nx in *. rewrite orient_next, orient_RP, crs_ob in H0 by auto.
  rewrite (echi_chi face), orient_next by auto. unfold ephi, phi, obs, chi. rewrite Eg.
  pose proof (OL_y face i) as Oy. pose proof D_pos as D0.
  rewrite !str_bent; auto using OL_y, uy_nonneg, D_pos; try lra.
  eapply ob_mono_e; eauto using OL_y, uy_nonneg, D_pos; lra.
Qed.

Lemma dist_tri_strict : forall x y d g, 0 < y -> 0 < d ->
  distance (gp g) (Pt x y) < distance (gp g) (Pt (x + d) y) + d.
Proof.
  intros x y d g Hy Hd. unfold distance, gp. cbn [px py]. rewrite <- !Rsqr_pow2.
  set (u := x - g). set (A := sqrt _). set (B := sqrt _).
  assert (A0 : 0 <= A) by apply sqrt_pos. assert (B0 : 0 <= B) by apply sqrt_pos.
  assert (A2 : A * A = u * u + y * y).
  { unfold A. rewrite sqrt_sqrt; [unfold Rsqr, u; ring |]. pose proof (Rle_0_sqr (x - g)). pose proof (Rle_0_sqr (y - 0)). unfold Rsqr in *. nra. }
  assert (B2 : B * B = (u + d) * (u + d) + y * y).
  { unfold B. rewrite sqrt_sqrt; [unfold Rsqr, u; ring |]. pose proof (Rle_0_sqr (x + d - g)). pose proof (Rle_0_sqr (y - 0)). unfold Rsqr in *. nra. }
  clearbody A B u.
  assert (Bu : - (u + d) < B). { destruct (Rlt_le_dec (- (u + d)) B); auto. nra. }
  assert (A * A < (B + d) * (B + d)) by nra.
  apply Rsqr_incrst_0; unfold Rsqr; lra.
Qed.

Lemma tail_low : is_edge face i = false -> lo = 0 ->
  0 <= crs (gp (og face far)) (orient face (RP i hi)) (orient face (Lp nx)) -> echi (Lp nx) < ephi far.
Proof.
  intros Eg El H0. pose proof len_pos as L0. unfold len in *. unfold nx in *. rewrite orient_next, orient_RP, crs_ob in H0 by auto.
  rewrite (echi_chi face), orient_next by auto. unfold ephi, phi, obs, chi. rewrite Eg, El.
  pose proof (OL_y face i) as Oy. pose proof D_pos as D0.
  rewrite (str_bent (OL face i) (oux face) uy D Oy uy_nonneg hi (og face far) ltac:(lra) H0).
  rewrite (str_free (OL face i) (oux face) uy D 0 (og face far) (Rle_refl 0) (Rlt_le _ _ (ob_low (OL face i) (oux face) uy D Oy D0 _))).
  rewrite rp_0 by exact Oy. pose proof (dist_tri_strict (px (OL face i)) (py (OL face i)) D (og face far) Oy D0) as Q.
  assert (E0 : distance (ob_pt (OL face i) D) (OL face i) = D).
  { rewrite dist_sym. unfold ob_pt. generalize dependent (OL face i). intros [x y]. cbn [px py]. intros. rewrite dist_horizontal; lra. }
  unfold ob_pt in *. generalize dependent (OL face i). intros [x y]. cbn [px py]. intros. lra.
Qed.

(** Against the full mode entries of the surfaces of the element. *)
Section Full.
Variable row : ts_pvrow.
Variable xs : list ts_surface.
Hypothesis Hrow : nth_error (ft_rows a) i = Some row.
Hypothesis Xin : forall x, In x xs -> In x (side_surfaces (side_of true row)).
Hypothesis Xtel : forall G : pt -> R, rsum (map (fun x => G (s_highest x t) - G (s_lowest x t)) xs) = G (RP i hi) - G (RP i lo).
Hypothesis Ht : (t < n)%nat.
Hypothesis NSl : no_slivers.

(** Length weighted sum of the full mode factors from [xs] to [ys]. *)
Definition full_sum (ys : list ts_surface) : R :=
  rsum (map (fun x => s_length x t * rsum (map (fun y => M (idx x) (idx y)) ys)) xs).

Lemma rsum_swap : forall (A B : Type) (g : A -> B -> R) l m,
  rsum (map (fun x => rsum (map (g x) m)) l) = rsum (map (fun y => rsum (map (fun x => g x y) l)) m).
Proof.
  intros A B g l m. induction l as [| x l IH]; cbn [map rsum].
  - symmetry. apply rsum_map_zero. auto.
  - rewrite rsum_map_plus, IH. reflexivity.
Qed.

Lemma full_sum_swap : forall ys, full_sum ys = rsum (map (fun y => rsum (map (fun x => s_length x t * M (idx x) (idx y)) xs)) ys).
Proof.
  intro ys. unfold full_sum. rewrite <- rsum_swap. apply rsum_map_ext. intros x _. symmetry. apply rsum_map_scal.
Qed.

Lemma xs_sliver : forall x, In x xs -> s_length x t = 0 \/ DISTANCE_TOLERANCE < s_length x t.
Proof. intros x Hx. apply NSl. apply (in_all_row _ i row true); auto. Qed.

Lemma full_cell : forall left y, In y (gnd_side_of_cut_point (ft_ground a) left i) ->
  rsum (map (fun x => s_length x t * M (idx x) (idx y)) xs) =
  if Bool.eqb left face then epiece (px (b1 (s_coords y t))) (px (b2 (s_coords y t))) / 2 else 0.
Proof.
  intros left y Hy. pose proof (in_gnd_side _ _ _ _ _ _ _ F Hi Hy) as Hg.
  rewrite (rsum_map_ext _ _ (fun x => if Bool.eqb left face then / 2 * xpiece left i x y else 0)).
  - destruct (Bool.eqb left face) eqn:El; [| apply rsum_map_zero; auto]. apply eqb_prop in El. subst left.
    rewrite rsum_map_scal. unfold Rdiv. rewrite Rmult_comm. f_equal. rewrite epiece_gpiece.
    set (G := fun q => str (obs face i) (orient face q) (ogl face y) - str (obs face i) (orient face q) (ogr face y)).
    rewrite (rsum_map_ext _ _ (fun x => G (s_highest x t) - G (s_lowest x t))).
    + rewrite Xtel. unfold G, gpiece, ogl, ogr. destruct (gnd_shape y Hg) as [_ [B0 _]].
      destruct face; ring.
    + intros x _. unfold xpiece, gpiece, G. ring.
  - intros x Hx. rewrite (cell_row_gnd_exact i row true left x y Ht Hrow (Xin x Hx) Hy).
    + change (xorb true tl) with face. destruct (Bool.eqb left face); [lra | reflexivity].
    + apply xs_sliver. exact Hx.
    + apply NSl. apply in_all_gnd. exact Hg.
Qed.

Lemma el_surfaces_sides : forall e, In e (gnd_shadows (ft_ground a) ++ gnd_illum (ft_ground a)) ->
  el_surfaces e = el_side e true i ++ el_side e false i.
Proof.
  intros e He. destruct (ground_elements _ _ _ _ _ e (fit_ground_ordered _ _ _ _ F) He) as [mkid [sh [c0 [E _]]]]. subst e.
  match goal with |- el_surfaces (make_element _ _ _ ?cuts) = _ => assert (Hl : (i < length cuts)%nat) end.
  { rewrite !map_length, fit_rows_length. exact Hi. }
  destruct (el_side_spec mkid sh c0 _ i Hl) as [L Rr]. rewrite L, Rr. symmetry. apply firstn_skipn.
Qed.

Lemma full_shadow : forall e, In e (gnd_shadows (ft_ground a)) ->
  full_sum (el_surfaces e) = rsum (map (fun s => epiece (px (b1 (s_coords s t))) (px (b2 (s_coords s t)))) (el_side e face i)) / 2.
Proof.
  intros e He. rewrite full_sum_swap, el_surfaces_sides by (apply in_or_app; auto).
  rewrite map_app, rsum_app.
  assert (Q : forall left, rsum (map (fun y => rsum (map (fun x => s_length x t * M (idx x) (idx y)) xs)) (el_side e left i)) =
    if Bool.eqb left face then rsum (map (fun s => epiece (px (b1 (s_coords s t))) (px (b2 (s_coords s t)))) (el_side e left i)) / 2 else 0).
  { intro left. rewrite (rsum_map_ext _ _ (fun y => if Bool.eqb left face then / 2 * epiece (px (b1 (s_coords y t))) (px (b2 (s_coords y t))) else 0)).
    - destruct (Bool.eqb left face); [rewrite rsum_map_scal; lra | apply rsum_map_zero; auto].
    - intros y Hy. rewrite (full_cell left).
      + destruct (Bool.eqb left face); [lra | reflexivity].
      + unfold gnd_side_of_cut_point. apply in_or_app. left. apply in_flat_map. eauto. }
  rewrite !Q. destruct face; cbn [Bool.eqb]; lra.
Qed.

Lemma full_shadows : full_sum (flat_map el_surfaces (gnd_shadows (ft_ground a))) = shadow_sum / 2.
Proof.
  rewrite full_sum_swap, rsum_flat_map. unfold shadow_sum.
  transitivity (/ 2 * rsum (map (fun e => rsum (map (fun s => epiece (px (b1 (s_coords s t))) (px (b2 (s_coords s t)))) (el_side e face i))) (gnd_shadows (ft_ground a)))); [| unfold Rdiv; ring].
  rewrite <- rsum_map_scal. apply rsum_map_ext. intros e He. rewrite <- full_sum_swap, full_shadow by exact He. lra.
Qed.

Lemma full_ground : full_sum (gnd_surfaces (ft_ground a)) = (ephi (cutx i) - ephi far) / 2.
Proof.
  unfold full_sum.
  rewrite (rsum_map_ext _ _ (fun x => / 2 * (xphi face i x (cutx i) - xphi face i x far))).
  - rewrite rsum_map_scal. unfold Rdiv. rewrite Rmult_comm. f_equal.
    set (G := fun q => str (obs face i) (orient face q) (og face (cutx i)) - str (obs face i) (orient face q) (og face far)).
    rewrite (rsum_map_ext _ _ (fun x => G (s_highest x t) - G (s_lowest x t))).
    + rewrite Xtel. unfold G, ephi, phi. rewrite !orient_RP. ring.
    + intros x _. unfold xphi, G. ring.
  - intros x Hx. rewrite (gnd_sum_exact i row true x Ht NSl Hrow (Xin x Hx)). change (xorb true tl) with face.
    destruct ground_bounds as [-> ->]. fold far. unfold Rdiv. ring.
Qed.

Lemma Xtel_chi : forall q, rsum (map (fun x => xchi x q) xs) = echi q.
Proof.
  intro q. rewrite (rsum_map_ext _ _ (fun x => (fun z => distance q z) (s_highest x t) - (fun z => distance q z) (s_lowest x t))) by reflexivity.
  rewrite Xtel. reflexivity.
Qed.

Lemma full_row_cells : forall j rowj ys (A : pt) (B : pt), nth_error (ft_rows a) j = Some rowj ->
  (forall y, In y ys -> In y (side_surfaces (side_of false rowj))) ->
  (forall G : pt -> R, rsum (map (fun y => G (s_highest y t) - G (s_lowest y t)) ys) = G B - G A) ->
  full_sum ys = if Nat.eqb j nx && negb (is_edge face i) then (echi A - echi B) / 2 else 0.
Proof.
  intros j rowj ys A B Hj Hy Tel. set (q := Nat.eqb j nx && negb (is_edge face i)).
  unfold full_sum.
  rewrite (rsum_map_ext _ _ (fun x => if q then / 2 * (xchi x A - xchi x B) else 0)).
  - destruct q; [| apply rsum_map_zero; auto]. rewrite rsum_map_scal, rsum_map_minus, !Xtel_chi. unfold Rdiv. ring.
  - intros x Hx. rewrite <- rsum_map_scal.
    rewrite (rsum_map_ext _ _ (fun y => if q then / 2 * ((fun z => - xchi x z) (s_highest y t) - (fun z => - xchi x z) (s_lowest y t)) else 0)).
    + destruct q; [| apply rsum_map_zero; auto]. rewrite rsum_map_scal, (Tel (fun z => - xchi x z)). ring.
    + intros y Hyy. rewrite (cell_row_row_exact i j row rowj true x y Ht Hrow Hj (Xin x Hx) (Hy y Hyy)).
      * change (xorb true tl) with face. fold nx. fold q. destruct q; [| reflexivity].
        unfold cross, xchi. rewrite !(dist_sym _ (s_lowest x t)), !(dist_sym _ (s_highest x t)). unfold Rdiv. ring.
      * apply xs_sliver. exact Hx.
      * apply NSl. apply (in_all_row _ j rowj false); auto.
Qed.

Lemma full_row : forall j rowj, nth_error (ft_rows a) j = Some rowj ->
  full_sum (side_surfaces (side_of false rowj)) =
  if Nat.eqb j nx && negb (is_edge face i) then (echi (Lp nx) - echi (RP nx w)) / 2 else 0.
Proof.
  intros j rowj Hj. rewrite (full_row_cells j rowj _ (Lp j) (RP j w) Hj); auto.
  - destruct (Nat.eqb_spec j nx) as [-> | ]; reflexivity.
  - intro G. exact (surface_telescope j rowj false G Hj).
Qed.

Lemma full_row_shaded : forall j rowj, nth_error (ft_rows a) j = Some rowj ->
  full_sum (flat_map seg_shaded (side_segments (row_front rowj))) =
  if Nat.eqb j nx && negb (is_edge face i) then (echi (Lp nx) - echi (RP nx (fsl nx))) / 2 else 0.
Proof.
  intros j rowj Hj. destruct (fit_rows_nth_error _ _ _ _ _ _ F Hj) as [Hjl Ej].
  rewrite (full_row_cells j rowj _ (Lp j) (RP j (fsl j)) Hj); auto.
  - destruct (Nat.eqb_spec j nx) as [-> | ]; reflexivity.
  - intros y Hy. apply in_flat_map in Hy. destruct Hy as [sg [H1 H2]]. cbn [side_of]. unfold side_surfaces.
    apply in_flat_map. exists sg. split; [exact H1 |]. unfold seg_surfaces. apply in_or_app. auto.
  - intro G. rewrite Ej. apply (front_shaded_telescope j G Hjl).
Qed.

Lemma full_gap : is_edge face i = false ->
  len * fast_gnd - full_sum (gnd_surfaces (ft_ground a)) = ((len - ephi (cutx i)) + (ephi far - echi (Lp nx))) / 2.
Proof.
  intro Eg. pose proof len_pos. rewrite full_ground. unfold fast_gnd. rewrite Eg. field. lra.
Qed.

Lemma full_edge : is_edge face i = true -> len * fast_gnd = full_sum (gnd_surfaces (ft_ground a)).
Proof.
  intro Eg. pose proof len_pos. rewrite full_ground. unfold fast_gnd. rewrite Eg. fold far. field. lra.
Qed.

Lemma xs_length : rsum (map (fun x => s_length x t) xs) = len.
Proof.
  assert (Ed : forall e, 0 <= e -> distance (Lp i) (RP i e) = e).
  { intros e He. pose proof (low_point_dist (INR i * D) h w r 0 e He) as LD. rewrite line_length_dist in LD. cbn [b1 b2] in LD.
    unfold Lp, RP. rewrite LD. ring. }
  pose proof len_pos as L0. unfold len in *.
  rewrite (rsum_map_ext _ _ (fun x => (fun q => distance (Lp i) q) (s_highest x t) - (fun q => distance (Lp i) q) (s_lowest x t))).
  - rewrite (Xtel (fun q => distance (Lp i) q)). rewrite !Ed by lra. ring.
  - intros x Hx. destruct (surface_spans i row true x Hrow (Xin x Hx)) as [lx [hx [E1 [E2 [Elo [Ehi [El _]]]]]]].
    cbv beta. rewrite Elo, Ehi, !Ed, El by lra. lra.
Qed.

(** What is left for the sky. *)
Lemma full_sky : rsum (map (fun x => s_length x t * build_vf_matrix a t (idx x) (n_ts_surfaces a)) xs) =
  len - full_sum (gnd_surfaces (ft_ground a)) - (if is_edge face i then 0 else (echi (Lp nx) - echi (RP nx w)) / 2).
Proof.
  rewrite full_ground.
  set (G := fun q => str (obs face i) (orient face q) (og face (cutx i)) - str (obs face i) (orient face q) (og face far)).
  rewrite (rsum_map_ext _ _ (fun x => s_length x t - / 2 * (G (s_highest x t) - G (s_lowest x t)) -
     (if is_edge face i then 0 else / 2 * (xchi x (Lp nx) - xchi x (RP nx w))))).
  - rewrite !rsum_map_minus, xs_length, rsum_map_scal, Xtel.
    assert (E : rsum (map (fun x => if is_edge face i then 0 else / 2 * (xchi x (Lp nx) - xchi x (RP nx w))) xs) =
       if is_edge face i then 0 else (echi (Lp nx) - echi (RP nx w)) / 2).
    { destruct (is_edge face i); [apply rsum_map_zero; auto |]. rewrite rsum_map_scal, rsum_map_minus, !Xtel_chi. unfold Rdiv. ring. }
    rewrite E. unfold G, ephi, phi. rewrite !orient_RP. unfold Rdiv. ring.
  - intros x Hx. pose proof (in_all_row _ i row true x Hrow (Xin x Hx)) as Ax.
    destruct (surf_index_lt _ _ _ _ V F x Ax) as [_ Hnth]. unfold idx at 1. rewrite (vf_sky_cell a t _ x Hnth).
    pose proof (all_sum_exact i row true x Ht NSl Hrow (Xin x Hx)) as Q. cbv zeta in Q. change (xorb true tl) with face in Q.
    destruct ground_bounds as [GB1 GB2]. rewrite GB1, GB2 in Q. fold far in Q. fold nx in Q.
    assert (Iz : rsum (map (fun y => M (idx x) (idx y)) (all_ts_surfaces a)) = isum (n_ts_surfaces a) (fun j => pre_sky a t (surf_index a x) j)).
    { rewrite (isum_surfaces _ _ _ _ V F). reflexivity. }
    rewrite Iz in Q. clear Iz. set (S0 := isum _ _) in *.
    assert (R0 : s_length x t * (if Rltb DISTANCE_TOLERANCE (s_length x t) then 1 - S0 else 0) = s_length x t - s_length x t * S0).
    { destruct (xs_sliver x Hx) as [Z | L]; [rewrite Z; ring | rewrite (proj2 (Rltb_true _ _) L); ring]. }
    rewrite R0, Q. unfold xphi, G. destruct (is_edge face i); unfold Rdiv; ring.
Qed.

End Full.
End Fast.

End Array.
