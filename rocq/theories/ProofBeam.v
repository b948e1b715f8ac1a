(** Balance between the sunlight that the rows stop and the ground that they shade (C70). *)
From Coq Require Import Reals List Bool Arith Lra Lia.
From Verif Require Import Num ModelTs ModelGeom Basics SpecGeom SpecSun SpecParams ProofGround ProofShade ProofRow ProofAngles ProofFit ProofCut ProofIndex ProofGeom ProofGeom2 ProofSun ProofParams ProofEnergy.
Import ListNotations.
Open Scope R_scope.

Lemma nth_error_same : forall (A : Type) (l m : list A), (forall i, nth_error l i = nth_error m i) -> l = m.
Proof.
  intros A l. induction l as [|a l IH]; intros [|b m] H; [reflexivity|specialize (H O); discriminate|specialize (H O); discriminate|].
  f_equal; [specialize (H O); cbn in H; congruence|]. apply IH. intro i. exact (H (S i)).
Qed.

Lemma total_map : forall (A B : Type) (g : A -> B) (f : B -> R) l, total f (map g l) = total (fun x => f (g x)) l.
Proof. intros A B g f l. induction l; cbn; [reflexivity|]. now rewrite IHl. Qed.
Lemma total_seq_S : forall (f : nat -> R) k, total f (seq 0 (S k)) = total f (seq 0 k) + f k.
Proof. intros. rewrite seq_S, total_app. cbn. ring. Qed.

(* ------------------------------------------------------------ length of the shadows *)

Definition half (p : pvarray_params) (f : fit_inputs) (t : nat) : R :=
  half_shadow (pa_width p) (fit_rotation p f t) (fit_alpha p f t).
Definition flag_at (p : pvarray_params) (f : fit_inputs) (t : nat) : bool :=
  direct_shading_flag (fit_shading p (fit_alpha p f) (fit_rotation p f) t).

Lemma shadow_sum : forall p f t k, (k < pa_n_pvrows p)%nat ->
  total (fun i => shend p f t i - shl p f t i) (seq 0 k) = INR k * (if flag_at p f t then pa_distance p else 2 * half p f t).
Proof.
  intros p f t k. induction k as [|k IH]; intros L; [cbn; ring|].
  rewrite total_seq_S, IH, S_INR by lia. unfold shend, flag_at, half. destruct (direct_shading_flag _).
  - destruct (Nat.ltb_spec (S k) (pa_n_pvrows p)); [|lia]. rewrite shl_S. ring.
  - unfold shr, shl. ring.
Qed.

Lemma shadow_sum_all : forall p f t, (0 < pa_n_pvrows p)%nat ->
  total (fun i => shend p f t i - shl p f t i) (seq 0 (pa_n_pvrows p)) =
  (INR (pa_n_pvrows p) - 1) * (if flag_at p f t then pa_distance p else 2 * half p f t) + 2 * half p f t.
Proof.
  intros p f t N. destruct (pa_n_pvrows p) as [|k] eqn:E; [lia|]. rewrite total_seq_S, shadow_sum, S_INR by lia.
  unfold shend. rewrite E. destruct (Nat.ltb_spec (S k) (S k)); [lia|]. unfold shr, shl, half. destruct (direct_shading_flag _); ring.
Qed.

Lemma ck_id : forall x, -100 <= x <= 100 -> ck (XFin x) = x.
Proof. intros x H. unfold ck, xclip, MIN_X_GROUND, MAX_X_GROUND. minmax; lra. Qed.

Lemma shaded_ground : forall p n f a t al,
  valid_params p -> fit p n f = Some a ->
  sun_angle (fi_zenith f t) (fi_azimuth f t) (pa_axis_azimuth p) al ->
  ~ shading_sliver DISTANCE_TOLERANCE (pa_width p) (pa_distance p) al (fit_rotation p f t) ->
  sin (al - rr (fit_rotation p f t)) <> 0 ->
  above_ground p (fit_rotation p f t) ->
  shadows_in_ground (pa_n_pvrows p) (pa_width p) (pa_distance p) (pa_height p) (fit_rotation p f t) al ->
  gnd_shaded_length (ft_ground a) t =
  (INR (pa_n_pvrows p) - 1) * (if flag_at p f t then pa_distance p else 2 * half p f t) + 2 * half p f t.
Proof.
  intros p n f a t al V F SU NS SN AB IG. pose proof V as (W & _ & N & _). pose proof (fit_alpha_sun_angle _ _ _ _ SU) as EA.
  assert (SA : 0 < sin al) by (destruct SU as (B & _); apply sin_gt_0; lra).
  pose proof (fit_ground_ordered _ _ _ _ F) as G. pose proof (fit_raw_ordered' p f t al V SU NS) as O.
  assert (LS : length (gnd_shadows (ft_ground a)) = pa_n_pvrows p).
  { destruct (ground_shapes _ _ _ _ _ G) as (L & _). rewrite L, !map_length. apply fit_rows_length. }
  unfold gnd_shaded_length. rewrite <- shadow_sum_all by exact N. rewrite total_py_sum, <- (total_map _ _ _ (fun x => x)), <- (total_map _ _ (fun i => shend p f t i - shl p f t i) (fun x => x)).
  assert (HN : 0 <= half p f t) by (unfold half; rewrite EA; now apply half_shadow_nonneg).
  assert (IN : forall i, (i < pa_n_pvrows p)%nat -> -100 <= shl p f t i <= 100 /\ -100 <= shr p f t i <= 100).
  { intros i L. split; apply (IG i); try exact L; apply shade_iff; try assumption; unfold shl, shr; rewrite EA; unfold half in HN; rewrite EA in HN; lra. }
  f_equal. apply nth_error_same. intro i. rewrite !nth_error_map. destruct (le_lt_dec (pa_n_pvrows p) i) as [L|L].
  - rewrite (proj2 (nth_error_None _ _)) by lia. rewrite (proj2 (nth_error_None _ _)) by (rewrite seq_length; lia). reflexivity.
  - rewrite nth_error_seq by exact L. rewrite <- EA in SA. destruct (shadow_element_at p n f a t i W SA F L) as (e & E & X). rewrite E. cbn [option_map]. f_equal.
    assert (Ie : In e (gnd_shadows (ft_ground a) ++ gnd_illum (ft_ground a))) by (apply in_or_app; left; exact (nth_error_In _ _ E)).
    destruct (ground_elements_y _ _ _ _ _ _ t G Ie) as (Y1 & Y2). destruct (ground_elements_in_ground _ _ _ _ _ _ t G O Ie) as (_ & B & _).
    rewrite (line_length_flat _ _ Y1 Y2 B), X. cbn [fst snd]. destruct (IN i L) as [I1 I2].
    rewrite !ck_id; [cbn [plus]; reflexivity|exact I1|]. unfold shend. destruct (direct_shading_flag _); [|exact I2].
    destruct (Nat.ltb_spec (S i) (pa_n_pvrows p)) as [L2|L2]; [exact (proj1 (IN _ L2))|exact I2].
Qed.

(* ------------------------------------------------------- length of the rows in the sun *)

(** Shaded length of the side of row [i] that faces the sun. *)
Definition facing (S : R) (sl : R * R) : R := if Rlt_dec 0 S then fst sl else snd sl.

Lemma row_sum : forall n r S sl, (1 < n)%nat ->
  total (fun i => facing S (row_shaded_lengths n i r sl)) (seq 0 n) = (INR n - 1) * facing S sl.
Proof.
  intros n r S sl L. destruct n as [|[|m]]; try lia.
  assert (M : forall k, (k <= m)%nat -> total (fun i => facing S (row_shaded_lengths (Datatypes.S (Datatypes.S m)) i r sl)) (seq 1 k) = INR k * facing S sl).
  { induction k as [|k IH]; intros Hk; [cbn; ring|]. rewrite seq_S, total_app, IH, S_INR by lia. cbn [total].
    unfold row_shaded_lengths at 1. cbv zeta. destruct (Nat.eqb_spec (1 + k) 0); [lia|]. destruct (Nat.eqb_spec (1 + k) (Datatypes.S (Datatypes.S m) - 1)); [lia|]. ring. }
  change (seq 0 (Datatypes.S (Datatypes.S m))) with (0%nat :: seq 1 (Datatypes.S m)). cbn [total]. rewrite seq_S, total_app, (M m) by lia. cbn [total].
  rewrite !S_INR. unfold row_shaded_lengths. cbv zeta. cbn [Nat.eqb]. destruct (Nat.eqb_spec (1 + m) 0); [lia|].
  destruct (Nat.eqb_spec (1 + m) (Datatypes.S (Datatypes.S m) - 1)); [|lia]. unfold facing, np_where.
  destruct (Rlt_dec 0 S), (Rltb 0 r); cbn [fst snd]; ring.
Qed.

(** What the rows stop is what the ground loses. *)
Lemma beam_balance : forall p f t al,
  valid_params p ->
  sun_angle (fi_zenith f t) (fi_azimuth f t) (pa_axis_azimuth p) al ->
  ~ shading_sliver DISTANCE_TOLERANCE (pa_width p) (pa_distance p) al (fit_rotation p f t) ->
  sin (al - rr (fit_rotation p f t)) <> 0 ->
  let S := sin (al - rr (fit_rotation p f t)) in
  total (fun i => (pa_width p - facing S (row_sl p f i t)) * Rabs S) (seq 0 (pa_n_pvrows p)) =
  sin al * ((INR (pa_n_pvrows p) - 1) * (if flag_at p f t then pa_distance p else 2 * half p f t) + 2 * half p f t).
Proof.
  intros p f t al V SU NS SN S. pose proof V as (W & _ & N & _). pose proof (fit_alpha_sun_angle _ _ _ _ SU) as EA.
  pose proof (pa_distance_pos p V) as D.
  assert (SA : 0 < sin al) by (destruct SU as (B & _); apply sin_gt_0; lra).
  assert (HA : sin al * (2 * half p f t) = pa_width p * Rabs S).
  { unfold half, half_shadow. rewrite EA. fold S. field. lra. }
  assert (A0 : 0 < Rabs S) by now apply Rabs_pos_lt.
  assert (C : forall n (c : R), total (fun _ : nat => c) (seq 0 n) = INR n * c).
  { intros m c. induction m as [|m IH]; [cbn; ring|]. rewrite total_seq_S, IH, S_INR. ring. }
  rewrite (total_scal _ (Rabs S) (fun i => pa_width p - facing S (row_sl p f i t))), total_minus, C.
  unfold row_sl, flag_at, fit_shading. rewrite EA.
  set (sl := interrow_shading (pa_n_pvrows p) (pa_distance p) (pa_width p) al (fit_rotation p f t)).
  destruct (le_lt_dec (pa_n_pvrows p) 1) as [L|L].
  - assert (E1 : pa_n_pvrows p = 1%nat) by lia. unfold sl. rewrite E1, interrow_shading_single. cbn [seq total INR].
    unfold row_shaded_lengths, facing, np_where. cbn [Nat.eqb fst snd].
    destruct (Rlt_dec 0 S), (Rltb 0 (fit_rotation p f t)); cbn [fst snd]; nra.
  - rewrite row_sum by exact L. rewrite Rmult_plus_distr_l, HA. set (m := INR (pa_n_pvrows p)).
    destruct (interrow_shading_cases _ _ _ al (fit_rotation p f t) L D W SA SN) as (K0 & K1 & K2). fold S sl in K0, K1, K2.
    set (k := pa_distance p * sin al / Rabs S) in *.
    assert (KS : k * Rabs S = pa_distance p * sin al) by (unfold k; field; lra).
    assert (FE : facing S sl = Rmax 0 (pa_width p - k)).
    { unfold facing. destruct (Rlt_dec 0 S) as [P|P]; [now rewrite (K1 P)|]. now rewrite K2 by (apply Rnot_lt_le in P; destruct P; [assumption|contradiction]). }
    assert (FL : direct_shading_flag sl = true <-> 0 < beam_excess (pa_width p) (pa_distance p) al (fit_rotation p f t)).
    { exact (flag_iff_overlap _ _ _ _ _ L D W SA SN NS). }
    unfold beam_excess in FL. rewrite <- sin_rr in FL. fold S in FL.
    assert (BX : 0 < pa_width p * Rabs S - pa_distance p * sin al <-> k < pa_width p).
    { rewrite <- KS. split; intro Z; [apply (Rmult_lt_reg_r (Rabs S)); lra|]. apply (Rmult_lt_compat_r (Rabs S)) in Z; lra. }
    rewrite FE. destruct (direct_shading_flag sl).
    + assert (k < pa_width p) by (apply BX, FL; reflexivity). rewrite Rmax_right by lra.
      replace ((m * pa_width p - (m - 1) * (pa_width p - k)) * Rabs S) with (pa_width p * Rabs S + (m - 1) * (k * Rabs S)) by ring. rewrite KS. ring.
    + assert (~ k < pa_width p) by (intro Z; apply BX, FL in Z; discriminate). rewrite Rmax_left by lra.
      replace (sin al * ((m - 1) * (2 * half p f t))) with ((m - 1) * (sin al * (2 * half p f t))) by ring. rewrite HA. ring.
Qed.
