(** Position of the ground shadows and of the ground between them (C69), and the share of
    the sunlight that they stand for (C70). *)
From Coq Require Import Reals List Bool Arith Lra Lia.
From Verif Require Import Num ModelTs ModelGeom Basics SpecGeom SpecSun ProofGround ProofShade ProofRow ProofAngles ProofFit ProofCut ProofIndex ProofGeom ProofGeom2.
Import ListNotations.
Open Scope R_scope.

(* ------------------------------------------------------------ a row and its shadow *)

Lemma shade_iff : forall w d h r al i x, 0 < sin al -> 0 < w -> sin (al - rr r) <> 0 ->
  w / 2 * Rabs (sin (rr r)) < h ->
  (row_shades_ground w d h r al i x <->
   INR i * d + mid_shadow h al - half_shadow w r al <= x <= INR i * d + mid_shadow h al + half_shadow w r al).
Proof.
  intros w d h r al i x SA W SN AB. unfold row_shades_ground, towards_sun, row_point.
  change (r * PI / 180) with (rr r). unfold half_shadow, mid_shadow.
  assert (SM : sin (al - rr r) = sin al * cos (rr r) - cos al * sin (rr r)) by apply sin_minus.
  set (S := sin (al - rr r)) in *. set (c := cos (rr r)) in *. set (q := sin (rr r)) in *. set (sa := sin al) in *. set (ca := cos al) in *.
  set (m := INR i * d + - (h * ca / sa)).
  assert (K : forall s, INR i * d + s * c - (h + s * q) * ca / sa = m + s * S / sa).
  { intros s. unfold m. rewrite SM. field. lra. }
  assert (HB : forall s, s * S / sa = s * (S / sa)) by (intros; field; lra).
  assert (A : w / 2 * Rabs S / sa = w / 2 * Rabs (S / sa)).
  { assert (Rabs (S / sa) = Rabs S / sa) as ->; [|field; lra]. unfold Rdiv. rewrite Rabs_mult, (Rabs_right (/ sa)); [reflexivity|]. apply Rle_ge. left. now apply Rinv_0_lt_compat. }
  rewrite A. assert (TN : S / sa <> 0). { intro Z. apply SN. apply (Rmult_eq_compat_r sa) in Z. unfold Rdiv in Z. rewrite Rmult_assoc, Rinv_l in Z by lra. lra. }
  set (T := S / sa) in *. split.
  - intros (s & Hs & k & Kp & K1 & K2). cbn [px py] in K1, K2.
    assert (x = m + s * T).
    { rewrite <- HB. rewrite <- K. assert (k = (h + s * q) / sa) by (rewrite K2; field; lra). subst k. rewrite K1. field. lra. }
    subst x. assert (B : Rabs (s * T) <= w / 2 * Rabs T).
    { rewrite Rabs_mult. apply Rmult_le_compat_r; [apply Rabs_pos|]. apply Rabs_le. lra. }
    unfold Rabs in B at 1. destruct (Rcase_abs (s * T)); lra.
  - intros Hx. exists ((x - m) / T).
    assert (AT : 0 < Rabs T) by now apply Rabs_pos_lt.
    assert (R1 : Rabs ((x - m) / T) <= w / 2).
    { unfold Rdiv at 1. rewrite Rabs_mult, Rabs_inv. apply (Rmult_le_reg_r (Rabs T)); [exact AT|].
      rewrite Rmult_assoc, Rinv_l by lra. rewrite Rmult_1_r. apply Rabs_le. lra. }
    assert (R2 : - (w / 2) <= (x - m) / T <= w / 2). { revert R1. unfold Rabs. destruct (Rcase_abs _); intros; lra. }
    split; [exact R2|]. set (s := (x - m) / T) in *.
    assert (P : 0 < h + s * q).
    { assert (Rabs (s * q) <= w / 2 * Rabs q). { rewrite Rabs_mult. apply Rmult_le_compat_r; [apply Rabs_pos|exact R1]. }
      assert (- Rabs (s * q) <= s * q) by (unfold Rabs; destruct (Rcase_abs (s * q)); lra). lra. }
    exists ((h + s * q) / sa). cbn [px py]. split; [apply Rdiv_lt_0_compat; assumption|]. split; [|field; lra].
    assert (E : m + s * T = x) by (unfold s; field; exact TN). rewrite <- HB in E. rewrite <- K in E. rewrite <- E. field. lra.
Qed.

(* ------------------------------------------------------------- the elements, one by one *)

Lemma fix_overlaps_nth : forall flag l i s, nth_error l i = Some s ->
  exists s', nth_error (fix_overlaps flag l) i = Some s' /\ forall t,
    s' t = (fst (s t), match nth_error l (S i) with Some b => np_where (flag t) (fst (b t)) (snd (s t)) | None => snd (s t) end).
Proof.
  intros flag l. induction l as [|a l IH]; intros i s E; [destruct i; discriminate|].
  destruct l as [|b l].
  - destruct i as [|[|i]]; try discriminate. inversion E; subst. exists s. split; [reflexivity|]. intros t. cbn. now destruct (s t).
  - destruct i as [|i].
    + inversion E; subst. eexists. split; [reflexivity|]. intros t. reflexivity.
    + exact (IH i s E).
Qed.

Lemma illum_coords_nth : forall y l next k c, nth_error (illum_coords y next l) k = Some c -> forall t,
  (k <= length l)%nat /\
  px (b1 (c t)) = match k with O => next t | S j => match nth_error l j with Some s => px (b2 (s t)) | None => 0 end end /\
  px (b2 (c t)) = match nth_error l k with Some s => px (b1 (s t)) | None => MAX_X_GROUND end.
Proof.
  intros y l. induction l as [|a l IH]; intros next k c E t.
  - destruct k as [|[|k]]; try discriminate. inversion E; subst. cbn. auto.
  - destruct k as [|k].
    + inversion E; subst. cbn. split; [lia|auto].
    + cbn in E. destruct (IH _ k c E t) as (L & A & B). cbn [length]. split; [lia|]. split; [|exact B].
      rewrite A. destruct k; reflexivity.
Qed.

(** Ends of the shadow of row [i]. *)
Definition shl (p : pvarray_params) (f : fit_inputs) (t i : nat) : R :=
  INR i * pa_distance p + mid_shadow (pa_height p) (fit_alpha p f t) - half_shadow (pa_width p) (fit_rotation p f t) (fit_alpha p f t).
Definition shr (p : pvarray_params) (f : fit_inputs) (t i : nat) : R :=
  INR i * pa_distance p + mid_shadow (pa_height p) (fit_alpha p f t) + half_shadow (pa_width p) (fit_rotation p f t) (fit_alpha p f t).
Definition shend (p : pvarray_params) (f : fit_inputs) (t i : nat) : R :=
  if direct_shading_flag (fit_shading p (fit_alpha p f) (fit_rotation p f) t) then
    if Nat.ltb (S i) (pa_n_pvrows p) then shl p f t (S i) else shr p f t i
  else shr p f t i.

Definition raw_shadows (p : pvarray_params) (f : fit_inputs) : list (ts (xr * xr)) :=
  map (fun c t => shadow_coords (c t) (fit_alpha p f t) pa_y_ground)
    (map row_coords (fit_rows p (fit_alpha p f) (fit_rotation p f))).

Lemma raw_nth : forall p f i, (i < pa_n_pvrows p)%nat -> exists s, nth_error (raw_shadows p f) i = Some s /\
  forall t, 0 < pa_width p -> 0 < sin (fit_alpha p f t) -> s t = (XFin (shl p f t i), XFin (shr p f t i)).
Proof.
  intros p f i L. unfold raw_shadows. rewrite fit_rows_eq, !map_map, nth_error_map, nth_error_seq by auto. cbn [option_map].
  eexists. split; [reflexivity|]. intros t W SA. cbv beta. rewrite fit_row_coords. change pa_y_ground with 0. rewrite shadow_coords_row by assumption. reflexivity.
Qed.

Lemma raw_length : forall p f, length (raw_shadows p f) = pa_n_pvrows p.
Proof. intros. unfold raw_shadows. rewrite !map_length. apply fit_rows_length. Qed.

Lemma shadow_element_at : forall p n f a t i, 0 < pa_width p -> 0 < sin (fit_alpha p f t) -> fit p n f = Some a ->
  (i < pa_n_pvrows p)%nat ->
  exists e, nth_error (gnd_shadows (ft_ground a)) i = Some e /\
    x_extent (el_coords e t) = (ck (XFin (shl p f t i)), ck (XFin (shend p f t i))).
Proof.
  intros p n f a t i W SA F L. pose proof (fit_ground_ordered _ _ _ _ F) as G.
  destruct (ground_from_ordered_spec _ _ _ _ _ G) as (_ & _ & _ & ES & _ & _).
  fold (raw_shadows p f) in ES.
  set (flag := fun t => direct_shading_flag (fit_shading p (fit_alpha p f) (fit_rotation p f) t)) in *.
  destruct (raw_nth p f i L) as (s & Es & Vs).
  destruct (fix_overlaps_nth flag _ _ _ Es) as (s' & Es' & Vs').
  assert (M : nth_error (map el_coords (gnd_shadows (ft_ground a))) i = Some (fun t => clip_shadow pa_y_ground (s' t))).
  { rewrite ES, nth_error_map. exact (f_equal (option_map (fun (s : ts (xr * xr)) t => clip_shadow pa_y_ground (s t))) Es'). }
  rewrite nth_error_map in M. destruct (nth_error (gnd_shadows (ft_ground a)) i) as [e|] eqn:Ee; [|discriminate].
  exists e. split; [reflexivity|]. cbn [option_map] in M. injection M as M'. rewrite M'. unfold x_extent, clip_shadow. cbn [b1 b2 px]. rewrite Vs', (Vs t W SA). cbn [fst snd].
  f_equal. unfold ck, shend, flag. destruct (Nat.ltb_spec (S i) (pa_n_pvrows p)) as [L2|L2].
  - destruct (raw_nth p f (S i) L2) as (s2 & Es2 & Vs2). rewrite Es2, (Vs2 t W SA). cbn [fst]. unfold np_where.
    destruct (direct_shading_flag _); reflexivity.
  - assert (nth_error (raw_shadows p f) (S i) = None) as -> by (apply nth_error_None; rewrite raw_length; lia).
    destruct (direct_shading_flag _); reflexivity.
Qed.

Lemma illum_element_at : forall p n f a t i e, 0 < pa_width p -> 0 < sin (fit_alpha p f t) -> fit p n f = Some a ->
  nth_error (gnd_illum (ft_ground a)) i = Some e ->
  (i <= pa_n_pvrows p)%nat /\
  x_extent (el_coords e t) =
    (match i with O => -100 | S j => ck (XFin (shend p f t j)) end,
     if Nat.ltb i (pa_n_pvrows p) then ck (XFin (shl p f t i)) else 100).
Proof.
  intros p n f a t i e W SA F E. pose proof (fit_ground_ordered _ _ _ _ F) as G.
  destruct (ground_from_ordered_spec _ _ _ _ _ G) as (_ & _ & _ & _ & _ & EI).
  assert (LS : length (gnd_shadows (ft_ground a)) = pa_n_pvrows p).
  { destruct (ground_shapes _ _ _ _ _ G) as (L & _). rewrite L, !map_length. apply fit_rows_length. }
  assert (M : nth_error (map el_coords (gnd_illum (ft_ground a))) i = Some (el_coords e)) by (rewrite nth_error_map, E; reflexivity).
  rewrite EI in M. destruct (illum_coords_nth _ _ _ _ _ M t) as (L & A & B). rewrite map_length, LS in L. split; [exact L|].
  destruct ground_bounds as [GB1 GB2].
  unfold x_extent. rewrite A, B. f_equal.
  - destruct i as [|j]; [exact GB1|]. rewrite nth_error_map.
    destruct (shadow_element_at p n f a t j W SA F ltac:(lia)) as (e' & -> & X). cbn [option_map]. unfold x_extent in X. injection X as X1 X2. assumption.
  - rewrite nth_error_map. destruct (Nat.ltb_spec i (pa_n_pvrows p)) as [L2|L2].
    + destruct (shadow_element_at p n f a t i W SA F L2) as (e' & -> & X). cbn [option_map]. unfold x_extent in X. injection X as X1 X2. assumption.
    + assert (nth_error (gnd_shadows (ft_ground a)) i = None) as -> by (apply nth_error_None; lia). exact GB2.
Qed.

(* ------------------------------------------------------------------------------ C69 *)

Lemma el_shaded_make : forall mkid sh c cuts, el_shaded (make_element mkid sh c cuts) = sh.
Proof. intros mkid sh c cuts. unfold make_element. now destruct cuts. Qed.


Lemma ck_below : forall x y, ck (XFin x) < y -> y <= 100 -> x < y.
Proof. intros x y; unfold ck, xclip, MIN_X_GROUND, MAX_X_GROUND. intros. minmax; lra. Qed.
Lemma ck_above : forall x y, y < ck (XFin x) -> -100 <= y -> y < x.
Proof. intros x y; unfold ck, xclip, MIN_X_GROUND, MAX_X_GROUND. intros. minmax; lra. Qed.

Lemma flag_overlaps : forall p f t, valid_params p -> 0 < sin (fit_alpha p f t) ->
  sin (fit_alpha p f t - rr (fit_rotation p f t)) <> 0 ->
  direct_shading_flag (fit_shading p (fit_alpha p f) (fit_rotation p f) t) = true ->
  pa_distance p < 2 * half_shadow (pa_width p) (fit_rotation p f t) (fit_alpha p f t).
Proof.
  intros p f t V SA SN FL. pose proof V as (W & _ & N & _). pose proof (pa_distance_pos p V) as D.
  unfold fit_shading in FL. destruct (le_lt_dec (pa_n_pvrows p) 1) as [L|L].
  - assert (pa_n_pvrows p = 1%nat) as E by lia. rewrite E, interrow_shading_single in FL. exfalso. revert FL.
    unfold direct_shading_flag, DISTANCE_TOLERANCE. cbn [fst snd]. unfold Rltb. repeat destruct (Rlt_dec _ _); cbn; try discriminate; lra.
  - apply (proj1 (shaded_iff_overlap _ _ _ _ _ L D W SA SN)). revert FL. unfold direct_shading_flag, DISTANCE_TOLERANCE.
    unfold Rltb. repeat destruct (Rlt_dec _ _); cbn; try discriminate; lra.
Qed.

Lemma shl_mono : forall p f t i j, 0 < pa_distance p -> (i <= j)%nat -> shl p f t i <= shl p f t j /\ shr p f t i <= shr p f t j.
Proof.
  intros p f t i j D L. unfold shl, shr. apply le_INR in L.
  assert (INR i * pa_distance p <= INR j * pa_distance p) by (apply Rmult_le_compat_r; lra). lra.
Qed.
Lemma shl_S : forall p f t i, shl p f t (S i) = shl p f t i + pa_distance p.
Proof. intros. unfold shl. rewrite S_INR. ring. Qed.

Lemma element_shadow : forall p n f a t al i e x,
  valid_params p -> fit p n f = Some a ->
  sun_angle (fi_zenith f t) (fi_azimuth f t) (pa_axis_azimuth p) al ->
  sin (al - rr (fit_rotation p f t)) <> 0 ->
  above_ground p (fit_rotation p f t) ->
  nth_error (gnd_shadows (ft_ground a)) i = Some e ->
  px (b1 (el_coords e t)) < x < px (b2 (el_coords e t)) ->
  (i < pa_n_pvrows p)%nat /\ row_shades_ground (pa_width p) (pa_distance p) (pa_height p) (fit_rotation p f t) al i x.
Proof.
  intros p n f a t al i e x V F SU SN AB E X. pose proof V as (W & _). pose proof (fit_alpha_sun_angle _ _ _ _ SU) as EA.
  assert (SA : 0 < sin al) by (destruct SU as (B & _); apply sin_gt_0; lra).
  assert (L : (i < pa_n_pvrows p)%nat).
  { pose proof (fit_ground_ordered _ _ _ _ F) as G. destruct (ground_shapes _ _ _ _ _ G) as (L & _). rewrite !map_length, fit_rows_length in L.
    rewrite <- L. apply nth_error_Some. congruence. }
  split; [exact L|]. rewrite <- EA in SA, SN. destruct (shadow_element_at p n f a t i W SA F L) as (e' & E' & XE). rewrite E in E'. injection E' as <-.
  unfold x_extent in XE. apply pair_equal_spec in XE. destruct XE as [X1 X2]. rewrite X1, X2 in X.
  destruct (ck_bounds (XFin (shl p f t i))) as [B1 _]. destruct (ck_bounds (XFin (shend p f t i))) as [_ B2].
  destruct ground_bounds as [GB1 GB2]. rewrite GB1 in B1. rewrite GB2 in B2.
  assert (Y1 : shl p f t i < x) by (apply ck_below; lra). assert (Y2 : x < shend p f t i) by (apply ck_above; lra).
  rewrite <- EA. apply shade_iff; try assumption. unfold shend in Y2. fold (shl p f t i) (shr p f t i).
  destruct (direct_shading_flag _) eqn:FL; [|lra]. destruct (Nat.ltb _ _); [|lra].
  pose proof (flag_overlaps p f t V SA SN FL) as O. rewrite shl_S in Y2. unfold shl, shr in *. lra.
Qed.

Lemma element_lit : forall p n f a t al i e x j,
  valid_params p -> fit p n f = Some a ->
  sun_angle (fi_zenith f t) (fi_azimuth f t) (pa_axis_azimuth p) al ->
  sin (al - rr (fit_rotation p f t)) <> 0 ->
  above_ground p (fit_rotation p f t) ->
  nth_error (gnd_illum (ft_ground a)) i = Some e ->
  px (b1 (el_coords e t)) < x < px (b2 (el_coords e t)) ->
  (j < pa_n_pvrows p)%nat ->
  ~ row_shades_ground (pa_width p) (pa_distance p) (pa_height p) (fit_rotation p f t) al j x.
Proof.
  intros p n f a t al i e x j V F SU SN AB E X J. pose proof V as (W & _). pose proof (fit_alpha_sun_angle _ _ _ _ SU) as EA.
  pose proof (pa_distance_pos p V) as D.
  assert (SA : 0 < sin al) by (destruct SU as (B & _); apply sin_gt_0; lra).
  rewrite <- EA in SA, SN. rewrite <- EA. rewrite shade_iff by assumption. fold (shl p f t j) (shr p f t j).
  destruct (illum_element_at p n f a t i e W SA F E) as (L & XE). unfold x_extent in XE. apply pair_equal_spec in XE. destruct XE as [X1 X2]. rewrite X1, X2 in X. clear X1 X2.
  destruct ground_bounds as [GB1 GB2].
  assert (BB : forall r, -100 <= ck (XFin r) <= 100) by (intro r; rewrite <- GB1, <- GB2; apply ck_bounds).
  assert (R0 : i = O \/ exists k, i = S k /\ shend p f t k < x).
  { destruct i as [|k]; [now left|right]. exists k. split; [reflexivity|]. apply ck_below; [lra|]. destruct (Nat.ltb _ _); [|lra].
    pose proof (BB (shl p f t (S k))). lra. }
  assert (L0 : i = pa_n_pvrows p \/ (i < pa_n_pvrows p)%nat /\ x < shl p f t i).
  { destruct (Nat.ltb_spec i (pa_n_pvrows p)) as [L2|L2]; [|left; lia]. right. split; [exact L2|]. apply ck_above; [lra|].
    destruct i as [|k]; [lra|]. pose proof (BB (shend p f t k)). lra. }
  assert (RR : forall k, i = S k -> shend p f t k < x -> (j <= k)%nat -> shr p f t j < x).
  { intros k -> Hk Jk. destruct (shl_mono p f t j k D Jk) as [_ M]. apply Rle_lt_trans with (1 := M). unfold shend in Hk.
    destruct (direct_shading_flag _); [|exact Hk]. destruct (Nat.ltb_spec (S k) (pa_n_pvrows p)); [|exact Hk].
    destruct L0 as [Z|(_ & Z)]; [lia|lra]. }
  intros [HL HR]. destruct (le_lt_dec i j) as [C|C].
  - destruct L0 as [Z|(_ & Z)]; [lia|]. destruct (shl_mono p f t i j D C) as [M _]. lra.
  - destruct R0 as [Z|(k & Ei & Hk)]; [lia|]. specialize (RR k Ei Hk ltac:(lia)). lra.
Qed.

Lemma ground_surface_shade : forall p n f a t al s x,
  valid_params p -> fit p n f = Some a ->
  sun_angle (fi_zenith f t) (fi_azimuth f t) (pa_axis_azimuth p) al ->
  ~ shading_sliver DISTANCE_TOLERANCE (pa_width p) (pa_distance p) al (fit_rotation p f t) ->
  -180 < fit_rotation p f t < 180 ->
  sin (al - rr (fit_rotation p f t)) <> 0 ->
  above_ground p (fit_rotation p f t) ->
  In s (gnd_surfaces (ft_ground a)) ->
  px (b1 (s_coords s t)) < x < px (b2 (s_coords s t)) ->
  (s_shaded s = true <-> exists i, (i < pa_n_pvrows p)%nat /\
     row_shades_ground (pa_width p) (pa_distance p) (pa_height p) (fit_rotation p f t) al i x).
Proof.
  intros p n f a t al s x V F SU NS RO SN AB I X.
  pose proof (fit_ground_ordered _ _ _ _ F) as G. pose proof (fit_raw_ordered' p f t al V SU NS) as O.
  destruct (fit_cuts p (fit_alpha p f) (fit_rotation p f) t V AB RO) as (LC & NN & _).
  assert (P : 0 < s_length s t) by (rewrite (flat_length _ _ _ _ _ t s G O NN I); lra).
  assert (CN : map (fun c t => cut_point (c t) (fit_rotation p f t) pa_y_ground) (map row_coords (fit_rows p (fit_alpha p f) (fit_rotation p f))) <> []).
  { intro Z. rewrite Z in LC. cbn in LC. pose proof V as (_ & _ & N & _). lia. }
  destruct (ground_shapes _ _ _ _ _ G) as (_ & _ & TS & TI).
  assert (Q : forall e, In e (gnd_shadows (ft_ground a) ++ gnd_illum (ft_ground a)) -> In s (el_surfaces e) ->
    s_shaded s = el_shaded e /\ px (b1 (el_coords e t)) < x < px (b2 (el_coords e t))).
  { intros e Ie Is. destruct (ground_elements _ _ _ _ _ _ G Ie) as (mkid & sh & c & E & EC).
    pose proof (ground_elements_in_ground _ _ _ _ _ _ t G O Ie) as (A & B & C). pose proof (ground_elements_y _ _ _ _ _ _ t G Ie) as (Y1 & Y2).
    destruct ground_bounds as [GB1 GB2]. rewrite GB1 in A. rewrite GB2 in C. rewrite EC in *.
    destruct (element_cutting mkid sh c _ t CN NN A B C ltac:(congruence)) as (_ & _ & _ & K). rewrite <- E in K.
    destruct (K s Is) as (K1 & _ & _ & _ & _ & _ & K2). destruct (K2 P) as [K3 K4]. split; [|lra]. rewrite K1, E. now rewrite el_shaded_make. }
  unfold gnd_surfaces in I. apply in_app_or in I. destruct I as [I|I]; apply in_flat_map in I; destruct I as (e & Ie & Is);
    (destruct (Q e ltac:(apply in_or_app; auto) Is) as (SH & XE));
    destruct (In_nth_error _ _ Ie) as (i & Ei); rewrite SH.
  - rewrite (TS e Ie). split; [intros _|reflexivity]. exists i. exact (element_shadow p n f a t al i e x V F SU SN AB Ei XE).
  - rewrite (TI e Ie). split; [discriminate|]. intros (j & J & H). exfalso. exact (element_lit p n f a t al i e x j V F SU SN AB Ei XE J H).
Qed.
