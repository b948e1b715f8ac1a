(** Fast mode against full mode for the segments of the back side of a row. *)
From Coq Require Import Reals List Bool Arith Lra Lia Permutation.
From Verif Require Import Num ModelTs ModelGeom ModelVF Basics SpecGeom SpecVF ProofGround ProofShade ProofRow ProofAngles ProofFit ProofCut ProofIndex ProofGeom ProofGeom2 ProofString ProofMatrix ProofTele ProofVF ProofVF2.
Import ListNotations.
Open Scope R_scope.

(** Length weighted sum of the published factors from the surfaces [xs] to [ys]. *)
Definition full_mode (a : fitted) (t : nat) (xs ys : list ts_surface) : R :=
  sum_over xs (fun x => s_length x t *
    sum_over ys (fun y => build_vf_matrix a t (surf_index a x) (surf_index a y))).
(** The same to the sky (last column). *)
Definition full_mode_sky (a : fitted) (t : nat) (xs : list ts_surface) : R :=
  sum_over xs (fun x => s_length x t * build_vf_matrix a t (surf_index a x) (n_ts_surfaces a)).

Section Segment.
Variables (p : pvarray_params) (n : nat) (f : fit_inputs) (a : fitted) (t : nat) (al : R).
Hypothesis V : valid_params p.
Hypothesis F : fit p n f = Some a.
Hypothesis SA : sun_angle (fi_zenith f t) (fi_azimuth f t) (pa_axis_azimuth p) al.
Hypothesis NS : ~ shading_sliver DISTANCE_TOLERANCE (pa_width p) (pa_distance p) al (ft_rotation a t).
Hypothesis HR : -180 < ft_rotation a t < 180.
Hypothesis HG : pa_width p / 2 * Rabs (sin (ft_rotation a t * PI / 180)) < pa_height p.
Hypothesis HF : ft_rotation a t = 0 -> pa_width p <= pa_distance p.
Hypothesis Ht : (t < n)%nat.

(** A part of the back of row [i]: its coordinates and the surfaces that make it. *)
Definition back_part (i : nat) (row : ts_pvrow) (cf : nat -> line) (xs : list ts_surface) : Prop :=
  exists lo hi, 0 <= lo /\ DISTANCE_TOLERANCE < hi - lo /\ hi <= pa_width p /\
  line_length (cf t) = hi - lo /\
  (cf t = Line (RP p a t i lo) (RP p a t i hi) \/ cf t = Line (RP p a t i hi) (RP p a t i lo)) /\
  lowest_point (cf t) = RP p a t i lo /\ highest_point (cf t) = RP p a t i hi /\
  (forall x, In x xs -> In x (side_surfaces (side_of true row))) /\
  (forall G : pt -> R, rsum (map (fun x => G (s_highest x t) - G (s_lowest x t)) xs) = G (RP p a t i hi) - G (RP p a t i lo)).

Section Parts.
Variables (i : nat) (row : ts_pvrow).
Hypothesis Hrow : nth_error (ft_rows a) i = Some row.

Lemma segment_part : forall sg, In sg (side_segments (row_back row)) -> DISTANCE_TOLERANCE < line_length (seg_coords sg t) ->
  back_part i row (seg_coords sg) (seg_surfaces sg).
Proof.
  intros sg Hsg Hlen. unfold back_part.
  destruct (fit_rows_nth_error _ _ _ _ _ _ F Hrow) as [_ Er].
  destruct (fit_spec _ _ _ _ F) as [_ [Ert _]].
  pose proof Hsg as Hs. rewrite Er, fit_row_back in Hs.
  destruct (row_sl_bounds p f i t V) as [_ B2].
  assert (HR' : -180 < fit_rotation p f t < 180) by (rewrite <- Ert; exact HR).
  destruct (side_segment_telescope i true (INR i * pa_distance p) (pa_height p) (pa_width p) (fit_rotation p f) (pa_cut p i true)
     _ _ t sg (w_pos p V) HR' B2 Hs) as [lo [hi [L0 [L1 [L2 [_ [L3 [L4 [L5 [_ L7]]]]]]]]]].
  rewrite <- Ert in L3, L4, L5, L7.
  assert (Ln : line_length (seg_coords sg t) = hi - lo).
  { pose proof (low_point_dist (INR i * pa_distance p) (pa_height p) (pa_width p) (ft_rotation a t) lo hi ltac:(lra)) as LD.
    destruct L3 as [-> | ->]; [exact LD |]. rewrite line_length_dist in LD |- *. cbn [b1 b2] in LD |- *. rewrite dist_sym. exact LD. }
  exists lo, hi. split; [lra |]. split; [lra |]. split; [lra |]. split; [exact Ln |].
  split; [exact L3 |]. split; [exact L4 |]. split; [exact L5 |]. split; [| exact L7].
  intros x Hx. cbn [side_of]. unfold side_surfaces. apply in_flat_map. eauto.
Qed.

(** A single surface is such a part too. *)
Lemma surface_part : forall s, In s (side_surfaces (row_back row)) -> DISTANCE_TOLERANCE < s_length s t ->
  back_part i row (s_coords s) [s].
Proof.
  intros s Hs Hl. destruct (surface_spans p n f a t V F HR i row true s Hrow Hs) as (lo & hi & B1 & B2 & B3 & B4 & B5 & B6).
  exists lo, hi. unfold s_length in Hl, B5. split; [lra|]. split; [lra|]. split; [exact B2|]. split; [exact B5|]. split; [exact B6|].
  split; [exact B3|]. split; [exact B4|]. split; [intros x [<-|[]]; exact Hs|].
  intro G. cbn [map rsum fold_right]. rewrite B3, B4. ring.
Qed.

Variables (cf : nat -> line) (xs : list ts_surface).
Hypothesis segment_spec : back_part i row cf xs.

Let c := cf t.
Let Rp := RP p a t i.
Let left := looks_left (ft_rotation a t) true.

Lemma left_face : left = negb (Rltb 0 (ft_rotation a t)).
Proof. unfold left. rewrite looks_left_eq. reflexivity. Qed.

Lemma Hi : (i < pa_n_pvrows p)%nat.
Proof. apply (row_lt p n f a F _ _ Hrow). Qed.


Lemma full_mode_sum : forall ys, (forall y, In y ys -> In y (all_ts_surfaces a)) -> full_mode a t xs ys = full_sum a t xs ys.
Proof.
  intros ys Hy. unfold full_mode, full_sum. rewrite sum_over_rsum. apply rsum_map_ext. intros x _. rewrite sum_over_rsum. f_equal.
  apply rsum_map_ext. intros y Hyy. apply (entry_pre _ _ _ _ t V F). apply Hy. exact Hyy.
Qed.

Lemma in_shadow_all : forall e y, In e (gnd_shadows (ft_ground a)) -> In y (el_surfaces e) -> In y (all_ts_surfaces a).
Proof.
  intros e y He Hy. apply in_all_gnd. unfold gnd_surfaces. apply in_or_app. left. apply in_flat_map. eauto.
Qed.

Lemma fast_shape : forall v, get_vf_ts_pvrow_element i cf (ft_rows a) (ft_ground a) (ft_rotation a) (ft_width a) t = Some v ->
  forall lo hi, 0 <= lo -> DISTANCE_TOLERANCE < hi - lo -> hi <= pa_width p ->
  (c = Line (Rp lo) (Rp hi) \/ c = Line (Rp hi) (Rp lo)) -> lowest_point c = Rp lo -> highest_point c = Rp hi ->
  exists gnd, v = fast_result p a t i lo hi gnd /\
   calculate_vf_to_gnd (ft_rows a) c i 0 (cutp a t i) (line_length c) (Rltb 0 (ft_rotation a t)) t = Some gnd.
Proof.
  intros v Hv lo hi H1 H2 H3 H4 H5 H6.
  exact (fast_any p n f a t al V F SA NS HR HG HF i lo hi c Hi H1 H2 H3 H4 H5 H6 cf eq_refl v Hv).
Qed.

Lemma isum_pick : forall m j (v : R), isum m (fun k => if Nat.eqb k j then v else 0) = if Nat.ltb j m then v else 0.
Proof.
  induction m as [| m IH]; intros j v; cbn [isum]; [reflexivity |]. rewrite IH.
  destruct (Nat.eqb_spec m j) as [-> | Hn].
  - rewrite (proj2 (Nat.ltb_ge j j)) by lia. rewrite (proj2 (Nat.ltb_lt j (S j))) by lia. lra.
  - destruct (Nat.ltb_spec j m), (Nat.ltb_spec j (S m)); try lia; lra.
Qed.

Lemma rows_pick : forall (sel : ts_pvrow -> list ts_surface) val,
  (forall j rowj, nth_error (ft_rows a) j = Some rowj ->
     full_sum a t xs (sel rowj) = if Nat.eqb j (next left i) && negb (is_edge p left i) then val else 0) ->
  full_sum a t xs (flat_map sel (ft_rows a)) = if is_edge p left i then 0 else val.
Proof.
  intros sel val H.
  assert (Sw : full_sum a t xs (flat_map sel (ft_rows a)) = rsum (map (fun rj => full_sum a t xs (sel rj)) (ft_rows a))).
  { generalize (ft_rows a). intro l. unfold full_sum. induction l as [| rj l IH]; cbn [flat_map map rsum].
    - apply rsum_map_zero. intros. ring.
    - rewrite <- IH, <- rsum_map_plus. apply rsum_map_ext. intros x _. rewrite map_app, rsum_app. ring. }
  rewrite Sw, (fit_rows_at p n f a F), fit_rows_eq, map_map, rsum_seq.
  rewrite (isum_ext _ _ (fun j => if Nat.eqb j (next left i) then (if is_edge p left i then 0 else val) else 0)).
  - rewrite isum_pick. destruct (is_edge p left i) eqn:Eg; [destruct (Nat.ltb _ _); reflexivity |].
    rewrite (proj2 (Nat.ltb_lt _ _) (next_lt p left i Hi Eg)). reflexivity.
  - intros j Hj. rewrite (H j); [destruct (Nat.eqb j (next left i)), (is_edge p left i); reflexivity |].
    rewrite (fit_rows_at p n f a F), fit_rows_eq. erewrite map_nth_error; [reflexivity |].
    rewrite nth_error_nth' with (d := 0%nat) by (rewrite seq_length; exact Hj). rewrite seq_nth by exact Hj. reflexivity.
Qed.

Section Sums.
Hypothesis NSl : forall s, In s (all_ts_surfaces a) -> no_sliver_length DISTANCE_TOLERANCE (s_length s t).

Lemma NSl' : no_slivers a t.
Proof. exact NSl. Qed.

Section Value.
Variable v : fast_vf.
Hypothesis Hv : get_vf_ts_pvrow_element i cf (ft_rows a) (ft_ground a) (ft_rotation a) (ft_width a) t = Some v.

Lemma part_shadows_rows :
  length (to_each_gnd_shadow v) = length (gnd_shadows (ft_ground a)) /\
  (forall k e x, nth_error (gnd_shadows (ft_ground a)) k = Some e -> nth_error (to_each_gnd_shadow v) k = Some x ->
     line_length c * x = full_mode a t xs (el_surfaces e)) /\
  line_length c * to_gnd_shaded v = full_mode a t xs (flat_map el_surfaces (gnd_shadows (ft_ground a))) /\
  line_length c * to_pvrow_total v = full_mode a t xs (flat_map (fun r => side_surfaces (row_front r)) (ft_rows a)) /\
  line_length c * to_pvrow_shaded v =
    full_mode a t xs (flat_map (fun r => flat_map seg_shaded (side_segments (row_front r))) (ft_rows a)).
Proof.
  destruct segment_spec as [lo [hi [H1 [H2 [H3 [H4 [H5 [H6 [H7 [X1 X2]]]]]]]]]]. fold c in H4, H5, H6, H7.
  destruct (fast_shape v Hv lo hi H1 H2 H3 H5 H6 H7) as [gnd [-> _]]. rewrite H4.
  pose proof DISTANCE_TOLERANCE_pos as T0.
  unfold fast_result. cbn [to_each_gnd_shadow to_gnd_shaded to_gnd_illum to_gnd_total to_pvrow_total to_pvrow_shaded to_pvrow_illum to_sky].
  rewrite <- left_face.
  split; [rewrite map_length; reflexivity |]. split; [| split; [| split]].
  - intros k e x He Hx. rewrite full_mode_sum by (intros y Hy; eapply in_shadow_all; [eapply nth_error_In; exact He | exact Hy]).
    rewrite (map_nth_error _ _ _ He) in Hx. apply (f_equal (fun o => match o with Some x => x | None => 0 end)) in Hx. cbv beta iota in Hx. rewrite <- Hx.
    rewrite (full_shadow p n f a t al V F SA NS HR HG i lo hi Hi row xs Hrow X1 X2 Ht NSl' e (nth_error_In _ _ He)).
    rewrite <- left_face. field. lra.
  - rewrite full_mode_sum by (intros y Hy; apply in_flat_map in Hy; destruct Hy as [e [He Hy]]; eapply in_shadow_all; eauto).
    rewrite (full_shadows p n f a t al V F SA NS HR HG i lo hi Hi row xs Hrow X1 X2 Ht NSl'). field. lra.
  - rewrite full_mode_sum.
    2:{ intros y Hy. apply in_flat_map in Hy. destruct Hy as [r [Hr Hy]]. apply In_nth_error in Hr. destruct Hr as [j Hr]. exact (in_all_row _ j r false y Hr Hy). }
    rewrite (rows_pick (fun r => side_surfaces (row_front r)) ((echi p a t i lo hi (Lp p a t (next left i)) - echi p a t i lo hi (RP p a t (next left i) (pa_width p))) / 2)).
    + destruct (is_edge p left i); field; lra.
    + intros j rowj Hj. rewrite left_face. exact (full_row p n f a t V F HR HF i lo hi row xs Hrow X1 X2 Ht NSl' j rowj Hj).
  - rewrite full_mode_sum.
    2:{ intros y Hy. apply in_flat_map in Hy. destruct Hy as [r [Hr Hy]]. apply In_nth_error in Hr. destruct Hr as [j Hr].
        apply (in_all_row _ j r false y Hr). apply in_flat_map in Hy. destruct Hy as [s [Hs Hy]]. cbn [side_of]. unfold side_surfaces. apply in_flat_map.
        exists s. split; [exact Hs |]. unfold seg_surfaces. apply in_or_app. auto. }
    rewrite (rows_pick (fun r => flat_map seg_shaded (side_segments (row_front r))) ((echi p a t i lo hi (Lp p a t (next left i)) - echi p a t i lo hi (RP p a t (next left i) (fsl a t (next left i)))) / 2)).
    + destruct (is_edge p left i); field; lra.
    + intros j rowj Hj. rewrite left_face. exact (full_row_shaded p n f a t V F HR HF i lo hi row xs Hrow X1 X2 Ht NSl' j rowj Hj).
Qed.

(** Ground seen by an edge row. *)
Lemma part_edge : is_edge p left i = true -> cut_reached a t i ->
  line_length c * to_gnd_total v = full_mode a t xs (gnd_surfaces (ft_ground a)) /\
  line_length c * to_sky v = full_mode_sky a t xs.
Proof.
  intros Eg CR. destruct segment_spec as [lo [hi [H1 [H2 [H3 [H4 [H5 [H6 [H7 [X1 X2]]]]]]]]]]. fold c in H4, H5, H6, H7.
  destruct (fast_shape v Hv lo hi H1 H2 H3 H5 H6 H7) as [gnd [-> Hg]]. rewrite H4. rewrite left_face in Eg.
  pose proof DISTANCE_TOLERANCE_pos as T0.
  rewrite (fast_gnd_ok p n f a t V F HR HG i lo hi c Hi H1 H2 H5 H6 H7 (fun _ => CR)) in Hg.
  apply (f_equal (fun o => match o with Some x => x | None => 0 end)) in Hg. cbv beta iota in Hg. subst gnd.
  unfold fast_result. cbn [to_gnd_total to_sky].
  pose proof (full_edge p n f a t al V F SA NS HR HG i lo hi H2 row xs Hrow X1 X2 Ht NSl' Eg) as E.
  rewrite full_mode_sum by apply in_all_gnd. split; [exact E |].
  unfold full_mode_sky. rewrite sum_over_rsum.
  rewrite (full_sky p n f a t al V F SA NS HR HG HF i lo hi H1 H2 row xs Hrow X1 X2 Ht NSl'). rewrite Eg, <- E. ring.
Qed.

(** Ground seen by an interior row. *)
Lemma part_interior_le : is_edge p left i = false ->
  full_mode a t xs (gnd_surfaces (ft_ground a)) <= line_length c * to_gnd_total v /\
  line_length c * to_sky v = full_mode_sky a t xs - (line_length c * to_gnd_total v - full_mode a t xs (gnd_surfaces (ft_ground a))).
Proof.
  intros Eg. destruct segment_spec as [lo [hi [H1 [H2 [H3 [H4 [H5 [H6 [H7 [X1 X2]]]]]]]]]]. fold c in H4, H5, H6, H7.
  destruct (fast_shape v Hv lo hi H1 H2 H3 H5 H6 H7) as [gnd [-> Hg]]. rewrite H4. rewrite left_face in Eg.
  pose proof DISTANCE_TOLERANCE_pos as T0.
  rewrite (fast_gnd_ok p n f a t V F HR HG i lo hi c Hi H1 H2 H5 H6 H7) in Hg by (intro Q; rewrite Q in Eg; discriminate).
  apply (f_equal (fun o => match o with Some x => x | None => 0 end)) in Hg. cbv beta iota in Hg. subst gnd.
  unfold fast_result. cbn [to_gnd_total to_sky].
  rewrite full_mode_sum by apply in_all_gnd. split.
  - rewrite (full_ground p n f a t al V F SA NS HR HG i lo hi row xs Hrow X1 X2 Ht NSl').
    pose proof (facing_le_gnd p n f a t V F HR HG i lo hi Hi H1 H2). lra.
  - unfold full_mode_sky. rewrite sum_over_rsum.
    rewrite (full_sky p n f a t al V F SA NS HR HG HF i lo hi H1 H2 row xs Hrow X1 X2 Ht NSl'). rewrite Eg. field. lra.
Qed.

(** [o] is the lower edge of the next row on the side the back looks at, [P] and [Q]
    the lower and upper ends of the segment, whose line meets the ground at [x]. *)
Section Gap.
Variables (o P Q : pt) (x : R).
Hypothesis Ho : neighbour_edge p a t left i = Some o.
Hypothesis HPQ : c = Line P Q \/ c = Line Q P.
Hypothesis Hy : py P <= py Q.
Hypothesis Hx : turn (Pt x 0) P Q = 0.
Hypothesis Bx : -100 <= x <= 100.

Lemma interior_edge : is_edge p left i = false /\ o = Lp p a t (next left i).
Proof.
  pose proof (neighbour_obs p a t left i Hi) as E. rewrite Ho in E. cbn [option_map] in E. unfold obs in E.
  destruct (is_edge p left i) eqn:Eg; [discriminate |]. split; [reflexivity |].
  unfold neighbour_edge in Ho. unfold is_edge in Eg. unfold Lp. rewrite RP_point. destruct left.
  - destruct i as [| j]; [discriminate |]. cbn [next]. rewrite Nat.sub_1_r. cbn [pred]. congruence.
  - destruct (Nat.ltb (S i) (pa_n_pvrows p)); [| discriminate]. cbn [next]. rewrite Nat.add_1_r. congruence.
Qed.

Let far : pt := Pt (if left then -100 else 100) 0.

Lemma turn_crs : forall g u q, (if left then turn (gp g) q u else turn (gp g) u q) = crs (gp (og left g)) (orient left u) (orient left q).
Proof. intros g u q. unfold turn, crs, og, orient, mir, gp. destruct left; cbn [px py]; ring. Qed.

Lemma part_ends : forall lo hi, 0 <= lo -> DISTANCE_TOLERANCE < hi - lo ->
  (c = Line (Rp lo) (Rp hi) \/ c = Line (Rp hi) (Rp lo)) ->
  ft_rotation a t <> 0 /\ P = Rp lo /\ Q = Rp hi /\ cut_abscissa p a t i = x.
Proof.
  intros lo hi H1 H2 H5. pose proof DISTANCE_TOLERANCE_pos as T0.
  assert (Sg : forall u z, (u = Rp lo /\ z = Rp hi) \/ (u = Rp hi /\ z = Rp lo) -> turn (Pt x 0) u z = 0 ->
     side_k (OL p a t left i) (oux a t left) (uy a t) (og left x) = 0).
  { intros u z C T. change (Pt x 0) with (gp x) in T.
    assert (T' : crs (gp (og left x)) (orient left (Rp hi)) (orient left (Rp lo)) = 0).
    { rewrite <- turn_crs. assert (A : forall g u z, turn g z u = - turn g u z) by (intros; unfold turn; ring).
      destruct C as [[-> ->] | [-> ->]]; destruct left; rewrite ?(A (gp x) (Rp lo) (Rp hi)), ?(A (gp x) (Rp hi) (Rp lo)) in *; lra. }
    unfold Rp in T'. rewrite !orient_RP, crs_rp in T'. apply Rmult_integral in T'. lra. }
  assert (C : P = Rp lo /\ Q = Rp hi \/ P = Rp hi /\ Q = Rp lo).
  { destruct HPQ as [E | E], H5 as [E' | E']; rewrite E in E'; injection E'; intros; subst; auto. }
  pose proof (Sg P Q C Hx) as K0.
  assert (Nz : ft_rotation a t <> 0).
  { intro Z. unfold side_k, oux, uy in K0. rewrite Z in K0. destruct up_flat as [U1 U2]. rewrite U1, U2 in K0.
    pose proof (OL_y p a t V HG left i). destruct left; lra. }
  split; [exact Nz |].
  pose proof (up_y_pos _ HR Nz) as U.
  assert (Yl : py (Rp lo) < py (Rp hi)).
  { unfold Rp, RP. rewrite (low_point_line _ _ _ _ lo), (low_point_line _ _ _ _ hi). cbn [py]. nra. }
  assert (PQ : P = Rp lo /\ Q = Rp hi).
  { destruct C as [C | [C1 C2]]; [exact C |]. rewrite C1, C2 in Hy. lra. }
  destruct PQ as [EP EQ]. split; [exact EP |]. split; [exact EQ |].
  destruct (side_k_cut p a t HR left i Nz) as [_ Sk]. rewrite Sk in K0. fold (cut_abscissa p a t i) in K0.
  unfold uy in K0. apply Rmult_integral in K0. destruct K0 as [K0 | K0]; [lra |]. unfold og in K0. destruct left; lra.
Qed.

Lemma part_gap :
  line_length c * to_gnd_total v = full_mode a t xs (gnd_surfaces (ft_ground a)) +
    (taut_string left (Some o) Q far - taut_string left (Some o) P far - (euclid o Q - euclid o P)) / 2.
Proof.
  destruct interior_edge as [Eg Eo]. destruct segment_spec as [lo [hi [H1 [H2 [H3 [H4 [H5 [H6 [H7 [X1 X2]]]]]]]]]]. fold c in H4, H5, H6, H7.
  destruct (part_ends lo hi H1 H2 H5) as [Nz [EP [EQ Ec]]].
  destruct (fast_shape v Hv lo hi H1 H2 H3 H5 H6 H7) as [gnd [-> Hg]]. rewrite H4. rewrite left_face in Eg.
  rewrite (fast_gnd_ok p n f a t V F HR HG i lo hi c Hi H1 H2 H5 H6 H7) in Hg by (intro K; rewrite K in Eg; discriminate).
  apply (f_equal (fun o => match o with Some x => x | None => 0 end)) in Hg. cbv beta iota in Hg. subst gnd.
  unfold fast_result. cbn [to_gnd_total]. rewrite full_mode_sum by apply in_all_gnd.
  pose proof (full_gap p n f a t al V F SA NS HR HG i lo hi H2 row xs Hrow X1 X2 Ht NSl' Eg) as G.
  rewrite (ephi_cut p n f a t V F HR HG i lo hi H1 H2 Eg Nz) in G by (rewrite Ec; exact Bx).
  rewrite <- left_face in G.
  assert (Es : forall u, taut_string left (Some o) u far = str (obs p a t left i) (orient left u) (og left (if left then -100 else 100))).
  { intro u. unfold far. change (Pt (if left then -100 else 100) 0) with (gp (if left then -100 else 100)).
    rewrite taut_str. rewrite <- (neighbour_obs p a t left i Hi), Ho. reflexivity. }
  rewrite !Es, !euclid_distance, EP, EQ, Eo.
  unfold ephi, phi, echi in G. rewrite <- left_face in G. unfold Rp. rewrite !orient_RP. lra.
Qed.

Lemma part_tail_zero : 0 <= (if left then turn far o P else turn far P o) ->
  line_length c * to_gnd_total v = full_mode a t xs (gnd_surfaces (ft_ground a)).
Proof.
  intro H. rewrite part_gap. destruct interior_edge as [Eg Eo].
  destruct segment_spec as [lo [hi [H1 [H2 [H3 [H4 [H5 [H6 [H7 [X1 X2]]]]]]]]]]. fold c in H4, H5, H6, H7.
  destruct (part_ends lo hi H1 H2 H5) as [Nz [EP [EQ Ec]]].
  unfold far in H. change (Pt (if left then -100 else 100) 0) with (gp (if left then -100 else 100)) in H. rewrite turn_crs, EP, Eo in H.
  pose proof Eg as Eg'. rewrite left_face in Eg', H.
  pose proof (tail_zero p a t V HR HG i lo hi Hi H1 H2 Eg' H) as T. rewrite <- left_face in T.
  assert (Es : forall u, taut_string left (Some o) u far = str (obs p a t left i) (orient left u) (og left (if left then -100 else 100))).
  { intro u. unfold far. change (Pt (if left then -100 else 100) 0) with (gp (if left then -100 else 100)).
    rewrite taut_str. rewrite <- (neighbour_obs p a t left i Hi), Ho. reflexivity. }
  rewrite !Es, !euclid_distance, EP, EQ, Eo.
  unfold ephi, phi, echi in T. rewrite <- left_face in T. unfold Rp. rewrite !orient_RP. lra.
Qed.

Lemma part_tail_low : P = point_from_low_edge (pa_width p) (pa_distance p) (pa_height p) (ft_rotation a t) i 0 ->
  0 <= (if left then turn far o Q else turn far Q o) ->
  full_mode a t xs (gnd_surfaces (ft_ground a)) < line_length c * to_gnd_total v.
Proof.
  intros HP H. rewrite part_gap. destruct interior_edge as [Eg Eo].
  destruct segment_spec as [lo [hi [H1 [H2 [H3 [H4 [H5 [H6 [H7 [X1 X2]]]]]]]]]]. fold c in H4, H5, H6, H7.
  destruct (part_ends lo hi H1 H2 H5) as [Nz [EP [EQ Ec]]].
  assert (L0 : lo = 0).
  { rewrite EP in HP. unfold Rp in HP. rewrite <- RP_point in HP. unfold RP in HP.
    rewrite (low_point_line _ _ _ _ lo) in HP. apply (f_equal py) in HP. cbn [py] in HP.
    pose proof (up_y_pos _ HR Nz). nra. }
  unfold far in H. change (Pt (if left then -100 else 100) 0) with (gp (if left then -100 else 100)) in H. rewrite turn_crs, EQ, Eo in H.
  pose proof Eg as Eg'. rewrite left_face in Eg', H.
  pose proof (tail_low p a t V HR HG i lo hi Hi H1 H2 Eg' L0 H) as T. rewrite <- left_face in T.
  assert (Es : forall u, taut_string left (Some o) u far = str (obs p a t left i) (orient left u) (og left (if left then -100 else 100))).
  { intro u. unfold far. change (Pt (if left then -100 else 100) 0) with (gp (if left then -100 else 100)).
    rewrite taut_str. rewrite <- (neighbour_obs p a t left i Hi), Ho. reflexivity. }
  rewrite !Es, !euclid_distance, EP, EQ, Eo.
  unfold ephi, phi, echi in T. rewrite <- left_face in T. unfold Rp. rewrite !orient_RP. lra.
Qed.

End Gap.

End Value.
End Sums.

(** Bounds. *)
Lemma part_bounds : forall v,
  get_vf_ts_pvrow_element i cf (ft_rows a) (ft_ground a) (ft_rotation a) (ft_width a) t = Some v ->
  (forall x, In x (to_each_gnd_shadow v) -> 0 <= x) /\
  0 <= to_gnd_shaded v /\ 0 <= to_gnd_illum v /\ 0 <= to_gnd_total v /\
  0 <= to_pvrow_total v /\ 0 <= to_pvrow_shaded v /\ 0 <= to_pvrow_illum v /\ 0 <= to_sky v.
Proof.
  intros v Hv. destruct segment_spec as [lo [hi [H1 [H2 [H3 [H4 [H5 [H6 [H7 [X1 X2]]]]]]]]]]. fold c in H4, H5, H6, H7.
  destruct (fast_shape v Hv lo hi H1 H2 H3 H5 H6 H7) as [gnd [-> Hg]].
  exact (fast_bounds_any p n f a t al V F SA NS HR HG HF i lo hi c Hi H1 H2 H3 H5 H6 H7 gnd Hg).
Qed.

Lemma part_defined : (is_edge p left i = true -> cut_reached a t i) ->
  exists v, get_vf_ts_pvrow_element i cf (ft_rows a) (ft_ground a) (ft_rotation a) (ft_width a) t = Some v.
Proof.
  intro C. destruct segment_spec as [lo [hi [H1 [H2 [H3 [H4 [H5 [H6 [H7 [X1 X2]]]]]]]]]]. fold c in H4, H5, H6, H7. rewrite left_face in C.
  eexists. exact (fast_values p n f a t al V F SA NS HR HG HF i lo hi c Hi H1 H2 H3 H5 H6 H7 cf eq_refl C).
Qed.

End Parts.
End Segment.
