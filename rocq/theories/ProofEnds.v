(** Where the ends of the ground surfaces are: the ends of the ground, of the shadows,
    and the cut points. Gives a condition on the inputs under which no surface has a
    length between zero and the tolerance. *)
From Coq Require Import Reals List Bool Arith Lra Lia.
From Verif Require Import Num ModelTs ModelGeom Basics SpecGeom SpecVF ProofGround ProofShade ProofRow ProofAngles ProofFit ProofCut ProofIndex ProofGeom ProofGeom2 ProofMatrix.
Import ListNotations.
Open Scope R_scope.

Section Ends.
Variable S : R -> Prop.

Lemma S_min : forall x y, S x -> S y -> S (Rmin x y).
Proof. intros x y Hx Hy. destruct (Rle_dec x y); [rewrite Rmin_left | rewrite Rmin_right]; auto; lra. Qed.
Lemma S_max : forall x y, S x -> S y -> S (Rmax x y).
Proof. intros x y Hx Hy. destruct (Rle_dec x y); [rewrite Rmax_right | rewrite Rmax_left]; auto; lra. Qed.

Lemma create_coords_ends : forall cuts c t,
  not_nan t cuts -> in_ground (c t) -> S (px (b1 (c t))) -> S (px (b2 (c t))) ->
  (forall k, In k cuts -> S (ck (k t))) ->
  forall l, In l (create_coords c cuts) -> S (px (b1 (l t))) /\ S (px (b2 (l t))).
Proof.
  induction cuts as [| k cuts IH]; intros c t Hn Hg H1 H2 Hk l Hl; cbn [create_coords In] in Hl.
  - destruct Hl as [<- | []]. auto.
  - assert (Nk : k t <> XNaN) by (apply Hn; left; auto). pose proof (Hk k (or_introl eq_refl)) as Sk.
    destruct Hl as [<- | Hl].
    + destruct (left_x (c t) (k t) Nk Hg) as [-> ->]. auto using S_min.
    + apply (IH (fun t => coords_right_of_cut_point (c t) (k t)) t); auto.
      * intros q Hq. apply Hn. right. auto.
      * apply right_in_ground; auto.
      * destruct (right_x (c t) (k t) Nk Hg) as [-> _]. auto using S_max.
      * destruct (right_x (c t) (k t) Nk Hg) as [_ ->]. auto using S_max.
      * intros q Hq. apply Hk. right. auto.
Qed.

Lemma fix_overlaps_ends : forall flag l t, (forall s, In s l -> S (ck (fst (s t))) /\ S (ck (snd (s t)))) ->
  forall s, In s (fix_overlaps flag l) -> S (ck (fst (s t))) /\ S (ck (snd (s t))).
Proof.
  intros flag l. induction l as [| x l IH]; intros t H s Hs; [destruct Hs |].
  destruct l as [| y l].
  - apply H. exact Hs.
  - destruct Hs as [<- | Hs].
    + cbn [fst snd]. split; [apply (H x); left; auto |]. unfold np_where.
      destruct (flag t); [apply (H y); right; left; auto | apply (H x); left; auto].
    + apply IH; auto. intros z Hz. apply H. right. auto.
Qed.

Lemma illum_ends : forall y sh nx t, S (nx t) -> S MAX_X_GROUND ->
  (forall s, In s sh -> S (px (b1 (s t))) /\ S (px (b2 (s t)))) ->
  forall l, In l (illum_coords y nx sh) -> S (px (b1 (l t))) /\ S (px (b2 (l t))).
Proof.
  intros y sh. induction sh as [| s sh IH]; intros nx t Hn Hm H l Hl; cbn [illum_coords In] in Hl.
  - destruct Hl as [<- | []]. auto.
  - destruct Hl as [<- | Hl].
    + cbn [b1 b2 px]. split; [auto |]. apply (H s). left. auto.
    + apply (IH (fun t => px (b2 (s t))) t); auto.
      * apply (H s). left. auto.
      * intros z Hz. apply H. right. auto.
Qed.

Lemma ground_ends : forall y flag shadows cuts g t s,
  ground_from_ordered_shadows y flag shadows cuts = Some g ->
  raw_ordered t (flag t) shadows -> not_nan t cuts ->
  S MIN_X_GROUND -> S MAX_X_GROUND ->
  (forall s, In s shadows -> S (ck (fst (s t))) /\ S (ck (snd (s t)))) ->
  (forall k, In k cuts -> S (ck (k t))) ->
  In s (gnd_surfaces g) -> S (px (b1 (s_coords s t))) /\ S (px (b2 (s_coords s t))).
Proof.
  intros y flag shadows cuts g t s Hg Ho Hn Sm SM Ss Sk Hs.
  unfold gnd_surfaces in Hs. rewrite <- flat_map_app in Hs. apply in_flat_map in Hs.
  destruct Hs as [e [He Hs]].
  pose proof (ground_elements_in_ground _ _ _ _ _ e t Hg Ho He) as G.
  destruct (ground_elements _ _ _ _ _ e Hg He) as [mkid [sh [c [E Ec]]]].
  destruct (ground_from_ordered_spec _ _ _ _ _ Hg) as [_ [_ [_ [Es [_ Ei]]]]].
  assert (Sh : forall l, In l (map el_coords (gnd_shadows g)) -> S (px (b1 (l t))) /\ S (px (b2 (l t)))).
  { intros l Hl. rewrite Es in Hl. apply in_map_iff in Hl. destruct Hl as [z [<- Hz]]. cbn [clip_shadow b1 b2 px].
    exact (fix_overlaps_ends flag shadows t Ss z Hz). }
  assert (Se : S (px (b1 (el_coords e t))) /\ S (px (b2 (el_coords e t)))).
  { apply in_app_or in He. destruct He as [He | He]; apply (in_map el_coords) in He.
    - apply Sh. exact He.
    - rewrite Ei in He. exact (illum_ends y _ _ t Sm SM Sh _ He). }
  rewrite Ec in G, Se. subst e. apply In_nth_error in Hs. destruct Hs as [k Hk].
  apply make_element_surfaces in Hk. destruct Hk as [_ [_ [Hc _]]].
  apply nth_error_In in Hc. destruct Se. eapply create_coords_ends; eauto.
Qed.

End Ends.

Definition clip_gnd (x : R) : R := Rmin (Rmax x (-100)) 100.
(** Abscissas at which the ground of a fitted array can be split. *)
Definition breakpoint (p : pvarray_params) (r al x : R) : Prop :=
  x = -100 \/ x = 100 \/
  exists j, (j < pa_n_pvrows p)%nat /\
    (x = clip_gnd (INR j * pa_distance p + mid_shadow (pa_height p) al - half_shadow (pa_width p) r al) \/
     x = clip_gnd (INR j * pa_distance p + mid_shadow (pa_height p) al + half_shadow (pa_width p) r al) \/
     x = clip_gnd (INR j * pa_distance p - pa_height p * cos (rr r) / sin (rr r))).

Lemma ck_fin : forall x, ck (XFin x) = clip_gnd x.
Proof. intro x. unfold ck, xclip, clip_gnd, MIN_X_GROUND, MAX_X_GROUND. minmax; lra. Qed.

Lemma fit_ground_ends : forall p n f a t al s,
  valid_params p -> fit p n f = Some a ->
  sun_angle (fi_zenith f t) (fi_azimuth f t) (pa_axis_azimuth p) al ->
  ~ shading_sliver DISTANCE_TOLERANCE (pa_width p) (pa_distance p) al (ft_rotation a t) ->
  -180 < ft_rotation a t < 180 -> ft_rotation a t <> 0 ->
  pa_width p / 2 * Rabs (sin (ft_rotation a t * PI / 180)) < pa_height p ->
  In s (gnd_surfaces (ft_ground a)) ->
  breakpoint p (ft_rotation a t) al (px (b1 (s_coords s t))) /\ breakpoint p (ft_rotation a t) al (px (b2 (s_coords s t))).
Proof.
  intros p n f a t al s V F SA NS HR Nz HG Hs. destruct (fit_spec _ _ _ _ F) as [_ [Er _]].
  assert (Ert : ft_rotation a t = fit_rotation p f t) by (rewrite Er; reflexivity). rewrite Ert in *.
  destruct (fit_cuts p (fit_alpha p f) (fit_rotation p f) t V HG HR) as [_ [Nn _]].
  pose proof (fit_raw_ordered' p f t al V SA NS) as RO.
  pose proof V as [Hw _]. pose proof SA as [Sal _]. assert (0 < sin al) by (apply sin_gt_0; lra).
  apply (ground_ends (breakpoint p (fit_rotation p f t) al) _ _ _ _ _ t s (fit_ground_ordered _ _ _ _ F) RO Nn); auto.
  - left. reflexivity.
  - right. left. reflexivity.
  - intros c Hc. rewrite map_map, fit_rows_eq, map_map in Hc. apply in_map_iff in Hc. destruct Hc as [j [<- Hj]]. apply in_seq in Hj.
    rewrite fit_row_coords, (fit_alpha_sun_angle _ _ _ _ SA). change pa_y_ground with 0.
    rewrite shadow_coords_row by auto. cbn [fst snd]. rewrite !ck_fin.
    split; right; right; exists j; (split; [lia | auto]).
  - intros k Hk. rewrite map_map, fit_rows_eq, map_map in Hk. apply in_map_iff in Hk. destruct Hk as [j [<- Hj]]. apply in_seq in Hj.
    rewrite (fit_cut_point p (fit_alpha p f) (fit_rotation p f) j t HG HR). destruct (Req_EM_T (fit_rotation p f t) 0); [contradiction |].
    rewrite ck_fin. right. right. exists j. split; [lia | auto].
Qed.
