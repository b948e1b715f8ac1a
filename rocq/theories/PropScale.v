(** Scale (C94): in fast mode, what the back of a row with a neighbour gets depends on the array
    only through its ground coverage ratio and rotation, not on the width, the height, the number
    of rows nor the place of the row. *)
From Coq Require Import Reals List Bool Arith ZArith String Lra Lia.
From Verif Require Import Num ModelTs ModelGeom ModelVF Basics SpecGeom SpecVF ProofFit ProofIndex ProofGeom ProofGeom2 PropGeom ModelLinalg ModelParams SpecParams ModelIrr SpecIrr ProofIrr ModelAOI ModelEngine SpecRun ProofEngine PropEngine ProofRun PropRun ProofAverage ProofHistory PropFastRun PropAlike.
Import ListNotations.
Open Scope R_scope.

(** Arrays of the same shape. *)
Definition same_shape (p p' : pvarray_params) : Prop :=
  pa_gcr p' = pa_gcr p /\ pa_axis_azimuth p' = pa_axis_azimuth p.

(** A line enlarged by the factor [m] and moved. *)
Definition similar_pt (m dx dy : R) (q : pt) : pt := Pt (m * px q + dx) (m * py q + dy).
Definition similar (m dx dy : R) (l : line) : line := Line (similar_pt m dx dy (b1 l)) (similar_pt m dx dy (b2 l)).

Lemma scaled_root : forall m x y, 0 < m -> sqrt ((m * x) ^ 2 + (m * y) ^ 2) = m * sqrt (x ^ 2 + y ^ 2).
Proof.
  intros m x y M. replace ((m * x) ^ 2 + (m * y) ^ 2) with (m * m * (x ^ 2 + y ^ 2)) by ring.
  rewrite sqrt_mult_alt by nra. rewrite sqrt_square by lra. reflexivity.
Qed.
Lemma similar_distance : forall m dx dy a b, 0 < m -> distance (similar_pt m dx dy a) (similar_pt m dx dy b) = m * distance a b.
Proof. intros m dx dy a b M. unfold distance, similar_pt. cbn [px py]. rewrite <- scaled_root by exact M. f_equal. ring. Qed.
Lemma similar_length : forall m dx dy l, 0 < m -> line_length (similar m dx dy l) = m * line_length l.
Proof. intros m dx dy l M. unfold line_length, similar, similar_pt. cbn [px py b1 b2]. rewrite <- scaled_root by exact M. f_equal. ring. Qed.
Lemma similar_vss : forall m dx dy l k w, 0 < m -> DISTANCE_TOLERANCE < w -> DISTANCE_TOLERANCE < m * w ->
  vf_surface_to_surface (similar m dx dy l) (similar m dx dy k) (m * w) = vf_surface_to_surface l k w.
Proof.
  intros m dx dy l k w M W MW. unfold vf_surface_to_surface, similar. cbn [b1 b2]. rewrite !similar_distance by exact M.
  rewrite (proj2 (Rltb_true _ _) W), (proj2 (Rltb_true _ _) MW). cbn [np_where].
  replace (m * distance (b1 l) (b2 k) + m * distance (b2 l) (b1 k) - (m * distance (b1 l) (b1 k) + m * distance (b2 l) (b2 k)))
    with (m * (distance (b1 l) (b2 k) + distance (b2 l) (b1 k) - (distance (b1 l) (b1 k) + distance (b2 l) (b2 k)))) by ring.
  rewrite Rabs_mult, (Rabs_right m) by lra. unfold DISTANCE_TOLERANCE in W. field. lra.
Qed.
Lemma similar_lt : forall m dy x y, 0 < m -> Rltb (m * x + dy) (m * y + dy) = Rltb x y.
Proof.
  intros m dy x y M. destruct (Rltb x y) eqn:E.
  - apply Rltb_true in E. apply Rltb_true. nra.
  - destruct (Rltb (m * x + dy) (m * y + dy)) eqn:E'; [|reflexivity]. apply Rltb_true in E'.
    assert (H : x < y) by nra. apply Rltb_true in H. congruence.
Qed.
Lemma similar_le : forall m dy x y, 0 < m -> Rleb (m * x + dy) (m * y + dy) = Rleb x y.
Proof.
  intros m dy x y M. destruct (Rleb x y) eqn:E.
  - apply Rleb_true in E. apply Rleb_true. nra.
  - destruct (Rleb (m * x + dy) (m * y + dy)) eqn:E'; [|reflexivity]. apply Rleb_true in E'.
    assert (H : x <= y) by nra. apply Rleb_true in H. congruence.
Qed.
Lemma similar_lowest : forall m dx dy l, 0 < m -> lowest_point (similar m dx dy l) = similar_pt m dx dy (lowest_point l).
Proof.
  intros m dx dy [a b] M. unfold lowest_point, similar, similar_pt. cbn [px py b1 b2]. rewrite similar_le by exact M.
  destruct (Rleb (py b) (py a)); reflexivity.
Qed.
Lemma similar_shaded : forall m dx dy xc yc w s b r q,
  create_shaded_side_coords (m * xc + dx) (m * yc + dy) (m * w) (m * s) b r (similar_pt m dx dy q) =
  similar m dx dy (create_shaded_side_coords xc yc w s b r q).
Proof.
  intros. unfold create_shaded_side_coords, similar. cbn [b1 b2]. f_equal. unfold similar_pt at 1. cbn [px py].
  f_equal; destruct b; cbn [np_where]; field.
Qed.
Lemma similar_full : forall m dx dy xc yc w r, full_coords (m * xc + dx) (m * yc + dy) (m * w) r = similar m dx dy (full_coords xc yc w r).
Proof. intros. unfold full_coords, similar, similar_pt. cbn [px py b1 b2]. f_equal; f_equal; field. Qed.
Lemma similar_segment : forall m dx dy xc yc w r n sl i, 0 < m ->
  segment_coords (m * xc + dx) (m * yc + dy) (m * w) r n (m * sl) i =
  let c := segment_coords xc yc w r n sl i in (similar m dx dy (fst (fst c)), similar m dx dy (snd (fst c)), similar m dx dy (snd c)).
Proof.
  intros m dx dy xc yc w r n sl i M. unfold segment_coords. cbv zeta. cbn [fst snd].
  set (r1 := w / 2 - INR i * (w / INR n)). set (r2 := w / 2 - (INR i + 1) * (w / INR n)).
  assert (E1 : m * w / 2 - INR i * (m * w / INR n) = m * r1) by (unfold r1, Rdiv; ring).
  assert (E2 : m * w / 2 - (INR i + 1) * (m * w / INR n) = m * r2) by (unfold r2, Rdiv; ring).
  rewrite E1, E2. clearbody r1 r2. clear E1 E2.
  assert (SP : shading_point (m * xc + dx) (m * yc + dy) (m * w) r (m * sl) = similar_pt m dx dy (shading_point xc yc w r sl)).
  { unfold shading_point, similar_pt. cbn [px py]. destruct (Rleb 0 r); cbn [np_where]; f_equal; field. }
  rewrite SP. set (sp := shading_point xc yc w r sl). clearbody sp.
  assert (PT : forall q, Pt (m * q * cosd (r + 180) + (m * xc + dx)) (m * q * sind (r + 180) + (m * yc + dy)) =
     similar_pt m dx dy (Pt (q * cosd (r + 180) + xc) (q * sind (r + 180) + yc))).
  { intro q. unfold similar_pt. cbn [px py]. f_equal; ring. }
  rewrite !PT. set (p1 := Pt (r1 * cosd (r + 180) + xc) _). set (p2 := Pt (r2 * cosd (r + 180) + xc) _). clearbody p1 p2.
  assert (LT : forall u v, Rltb (py (similar_pt m dx dy u)) (py (similar_pt m dx dy v)) = Rltb (py u) (py v)) by (intros; apply similar_lt; exact M).
  destruct (Rleb 0 r); cbn [np_where]; rewrite !LT;
  repeat match goal with |- context [Rltb ?a ?b] => destruct (Rltb a b) end;
  destruct (Reqb r 0); cbn [andb negb np_where]; reflexivity.
Qed.

Section Two.
Variables (p p' : pvarray_params) (n n' : nat) (f : fit_inputs) (a a' : fitted) (t k k' : nat).
Hypothesis V : valid_params p.
Hypothesis V' : valid_params p'.
Hypothesis F : fit p n f = Some a.
Hypothesis F' : fit p' n' f = Some a'.
Hypothesis SR : same_shape p p'.
Hypothesis NB : back_has_neighbour (pa_n_pvrows p) k (ft_rotation a t).
Hypothesis NB' : back_has_neighbour (pa_n_pvrows p') k' (ft_rotation a t).
Let m := pa_width p' / pa_width p.
Let dx := (INR k' - INR k) * pa_distance p'.
Let dy := pa_height p' - m * pa_height p.
Let al := fit_alpha p f.
Let rot := fit_rotation p f.

Lemma factor_pos : 0 < m.
Proof. destruct V as (W & _), V' as (W' & _). unfold m. apply Rdiv_lt_0_compat; assumption. Qed.
Lemma scaled_width : pa_width p' = m * pa_width p.
Proof. destruct V as (W & _). unfold m. field. lra. Qed.
Lemma scaled_distance : pa_distance p' = m * pa_distance p.
Proof. destruct SR as (A & _). unfold pa_distance. rewrite A, scaled_width. unfold Rdiv. ring. Qed.
Lemma shape_alpha : fit_alpha p' f = al.
Proof. destruct SR as (_ & A). unfold fit_alpha, al. rewrite A. reflexivity. Qed.
Lemma shape_rotation : fit_rotation p' f = rot.
Proof. destruct SR as (_ & A). unfold fit_rotation, rot. rewrite A. reflexivity. Qed.
Lemma shape_rot_a : ft_rotation a = rot.
Proof. exact (proj1 (proj2 (fit_spec _ _ _ _ F))). Qed.
Lemma shape_rot_a' : ft_rotation a' = rot.
Proof. rewrite <- shape_rotation. exact (proj1 (proj2 (fit_spec _ _ _ _ F'))). Qed.

Lemma center_similar : forall j j', INR j' - INR j = INR k' - INR k ->
  row_center p' j' = (m * fst (row_center p j) + dx, m * snd (row_center p j) + dy).
Proof.
  intros j j' E. unfold row_center. cbn [fst snd]. f_equal.
  - unfold dx. rewrite <- E, scaled_distance. unfold X_ORIGIN_PVROWS. ring.
  - unfold dy, pa_y_ground. ring.
Qed.

Lemma shape_row_at : forall j, (j < pa_n_pvrows p)%nat -> nth j (ft_rows a) dummy_row = fit_row p al rot j.
Proof. intros j M. rewrite (proj1 (proj2 (proj2 (proj2 (fit_spec _ _ _ _ F))))). apply fit_rows_nth. exact M. Qed.
Lemma shape_row_at' : forall j, (j < pa_n_pvrows p')%nat -> nth j (ft_rows a') dummy_row = fit_row p' al rot j.
Proof.
  intros j M. rewrite (proj1 (proj2 (proj2 (proj2 (fit_spec _ _ _ _ F'))))), shape_alpha, shape_rotation. apply fit_rows_nth. exact M.
Qed.

Lemma coords_similar : forall j j', (j < pa_n_pvrows p)%nat -> (j' < pa_n_pvrows p')%nat -> INR j' - INR j = INR k' - INR k ->
  row_coords (nth j' (ft_rows a') dummy_row) t = similar m dx dy (row_coords (nth j (ft_rows a) dummy_row) t) /\
  row_xc (nth j' (ft_rows a') dummy_row) = m * row_xc (nth j (ft_rows a) dummy_row) + dx /\
  row_yc (nth j' (ft_rows a') dummy_row) = m * row_yc (nth j (ft_rows a) dummy_row) + dy.
Proof.
  intros j j' M M' E. rewrite shape_row_at, shape_row_at' by assumption. unfold fit_row, pvrow_from_raw_inputs. cbn [row_coords row_xc row_yc].
  rewrite (center_similar j j' E). cbn [fst snd]. rewrite scaled_width, similar_full. auto.
Qed.

Lemma shape_more_rows : (1 < pa_n_pvrows p)%nat /\ (1 < pa_n_pvrows p')%nat.
Proof.
  destruct NB as (A & B & C), NB' as (A' & B' & C'). destruct (Rlt_le_dec 0 (ft_rotation a t)) as [H|H].
  - specialize (B H). specialize (B' H). lia.
  - specialize (C H). specialize (C' H). lia.
Qed.

Lemma scaled_shading : fit_shading p' al rot t = (m * fst (fit_shading p al rot t), m * snd (fit_shading p al rot t)).
Proof.
  destruct shape_more_rows as [M M']. pose proof factor_pos as P0. unfold fit_shading, interrow_shading.
  rewrite (proj2 (Nat.ltb_lt _ _) M), (proj2 (Nat.ltb_lt _ _) M'), scaled_distance, scaled_width. cbv zeta. cbn [fst snd].
  assert (D : interrow_delta (m * pa_distance p) (al t) (rot t) = m * interrow_delta (pa_distance p) (al t) (rot t))
    by (unfold interrow_delta; cbv zeta; ring).
  rewrite D. set (w := pa_width p). set (de := interrow_delta (pa_distance p) (al t) (rot t)). clearbody w de m.
  assert (MX : forall x, np_max 0 (m * x) = m * np_max 0 x).
  { intro x. unfold np_max. destruct (Rle_dec 0 (m * x)), (Rle_dec 0 x); nra. }
  replace (m * w - m * de) with (m * (w - de)) by ring. replace (m * w + m * de) with (m * (w + de)) by ring. rewrite !MX.
  assert (LT : forall x y, Rltb (m * x) (m * y) = Rltb x y).
  { intros x y. rewrite <- (similar_lt m 0 x y P0). f_equal; ring. }
  rewrite !LT. f_equal.
  - destruct (Rltb w (np_max 0 (w - de))); cbn [np_where]; ring.
  - destruct (Rltb w (np_max 0 (w + de))); cbn [np_where]; ring.
Qed.

(** The back of the two rows has the same shaded fraction. *)
Lemma scaled_back_shading : snd (row_shaded_lengths (pa_n_pvrows p') k' (rot t) (fit_shading p' al rot t)) =
                     m * snd (row_shaded_lengths (pa_n_pvrows p) k (rot t) (fit_shading p al rot t)).
Proof.
  rewrite scaled_shading. set (sl := fit_shading p al rot t). rewrite <- shape_rot_a.
  assert (ONE : forall N j sh, back_has_neighbour N j (ft_rotation a t) -> snd (row_shaded_lengths N j (ft_rotation a t) sh) = snd sh).
  { intros N j sh (A & B & C). unfold row_shaded_lengths.
    destruct (Rltb 0 (ft_rotation a t)) eqn:E; cbn [np_where].
    - apply Rltb_true in E. specialize (B E). destruct (Nat.eqb_spec j 0); [reflexivity|]. destruct (Nat.eqb_spec j (N - 1)); [lia|reflexivity].
    - assert (H : ft_rotation a t <= 0) by (destruct (Rle_lt_dec (ft_rotation a t) 0) as [H|H]; [exact H|apply Rltb_true in H; congruence]).
      specialize (C H). destruct (Nat.eqb_spec j 0); [lia|]. destruct (Nat.eqb_spec j (N - 1)); reflexivity. }
  rewrite !ONE by assumption. reflexivity.
Qed.

Hypothesis RR : -180 < ft_rotation a t < 180.

(** The front of the neighbours has the same shaded fraction. *)
Lemma scaled_front_shading : forall j j',
  (0 < ft_rotation a t -> j = (k + 1)%nat /\ j' = (k' + 1)%nat) -> (ft_rotation a t <= 0 -> (j + 1)%nat = k /\ (j' + 1)%nat = k') ->
  side_shaded_length (row_front (nth j' (ft_rows a') dummy_row)) t = m * side_shaded_length (row_front (nth j (ft_rows a) dummy_row)) t.
Proof.
  intros j j' RT LF.
  assert (M : (j < pa_n_pvrows p)%nat /\ (j' < pa_n_pvrows p')%nat).
  { destruct NB as (A & B & C), NB' as (A' & B' & C'). destruct (Rlt_le_dec 0 (ft_rotation a t)) as [H|H].
    - specialize (B H). specialize (B' H). specialize (RT H). lia.
    - specialize (LF H). lia. }
  destruct M as [M M'].
  assert (IR : nth_error (ft_rows a) j = Some (nth j (ft_rows a) dummy_row)).
  { apply nth_error_nth'. rewrite (proj1 (proj2 (proj2 (proj2 (fit_spec _ _ _ _ F))))), fit_rows_length. exact M. }
  assert (IR' : nth_error (ft_rows a') j' = Some (nth j' (ft_rows a') dummy_row)).
  { apply nth_error_nth'. rewrite (proj1 (proj2 (proj2 (proj2 (fit_spec _ _ _ _ F'))))), fit_rows_length. exact M'. }
  assert (RE : ft_rotation a' t = ft_rotation a t) by (rewrite shape_rot_a, shape_rot_a'; reflexivity).
  destruct (Req_dec (ft_rotation a t) 0) as [Z|Z].
  - assert (FLAT : forall q nn b i row, valid_params q -> fit q nn f = Some b -> ft_rotation b t = 0 ->
       nth_error (ft_rows b) i = Some row -> side_shaded_length (row_front row) t = 0).
    { intros q nn b i row Vq Fq Zq Iq. unfold side_shaded_length. rewrite py_sum_rsum.
      assert (EA : forall g, In g (side_segments (row_front row)) -> coll_length (seg_shaded g) t = 0).
      { intros g Ig. apply In_nth_error in Ig. destruct Ig as (z & Iz).
        assert (Rq : -180 < ft_rotation b t < 180) by (rewrite Zq; lra).
        exact (proj2 (proj2 (proj2 (C06_lengths q nn f b t i row Vq Fq Rq Iq) false z g Iz)) Zq). }
      induction (side_segments (row_front row)) as [|g l IH]; [reflexivity|]. cbn [map rsum].
      rewrite (EA g (or_introl eq_refl)), IH; [ring|]. intros g' Ig'. apply EA. right. exact Ig'. }
    assert (Z' : ft_rotation a' t = 0) by (rewrite RE; exact Z).
    transitivity 0; [exact (FLAT _ _ _ _ _ V' F' Z' IR') |].
    transitivity (m * 0); [ring | f_equal; symmetry; exact (FLAT _ _ _ _ _ V F Z IR)].
  - assert (RR' : -180 < ft_rotation a' t < 180) by (rewrite RE; exact RR).
    assert (Z' : ft_rotation a' t <> 0) by (rewrite RE; exact Z).
    rewrite (proj1 (fit_shaded_lengths_eq _ _ _ _ _ _ _ V F RR Z IR)), (proj1 (fit_shaded_lengths_eq _ _ _ _ _ _ _ V' F' RR' Z' IR')).
    unfold row_sl. rewrite shape_alpha, shape_rotation. fold al rot. rewrite scaled_shading. set (sl := fit_shading p al rot t). rewrite <- shape_rot_a.
    unfold row_shaded_lengths. destruct NB as (A & B & C), NB' as (A' & B' & C').
    destruct (Rltb 0 (ft_rotation a t)) eqn:E; cbn [np_where].
    + apply Rltb_true in E. destruct (RT E) as [-> ->].
      destruct (Nat.eqb_spec (k + 1) 0); [lia|]. destruct (Nat.eqb_spec (k' + 1) 0); [lia|].
      destruct (Nat.eqb (k + 1) (pa_n_pvrows p - 1)), (Nat.eqb (k' + 1) (pa_n_pvrows p' - 1)); reflexivity.
    + assert (H : ft_rotation a t <= 0) by (destruct (Rle_lt_dec (ft_rotation a t) 0) as [H|H]; [exact H|apply Rltb_true in H; congruence]).
      destruct (LF H) as [KE KE'].
      destruct (Nat.eqb_spec j (pa_n_pvrows p - 1)); [lia|]. destruct (Nat.eqb_spec j' (pa_n_pvrows p' - 1)); [lia|].
      destruct (Nat.eqb j 0), (Nat.eqb j' 0); reflexivity.
Qed.

Lemma shape_rows_count : List.length (ft_rows a) = pa_n_pvrows p /\ List.length (ft_rows a') = pa_n_pvrows p'.
Proof.
  rewrite (proj1 (proj2 (proj2 (proj2 (fit_spec _ _ _ _ F))))), (proj1 (proj2 (proj2 (proj2 (fit_spec _ _ _ _ F'))))), !fit_rows_length. auto.
Qed.

Lemma lowest_similar : forall j j', (j < pa_n_pvrows p)%nat -> (j' < pa_n_pvrows p')%nat -> INR j' - INR j = INR k' - INR k ->
  row_lowest_pt (ft_rows a') j' t = similar_pt m dx dy (row_lowest_pt (ft_rows a) j t).
Proof. intros j j' M M' E. unfold row_lowest_pt. rewrite (proj1 (coords_similar j j' M M' E)). apply similar_lowest. exact factor_pos. Qed.

Lemma similar_views : forall el el', el' t = similar m dx dy (el t) ->
  DISTANCE_TOLERANCE < line_length (el t) -> DISTANCE_TOLERANCE < line_length (el' t) ->
  exists v v', get_vf_ts_pvrow_element k el (ft_rows a) (ft_ground a) (ft_rotation a) (ft_width a) t = Some v /\
    get_vf_ts_pvrow_element k' el' (ft_rows a') (ft_ground a') (ft_rotation a') (ft_width a') t = Some v' /\
    to_gnd_total v' = to_gnd_total v /\ to_pvrow_total v' = to_pvrow_total v /\ to_pvrow_shaded v' = to_pvrow_shaded v /\
    to_pvrow_illum v' = to_pvrow_illum v /\ to_sky v' = to_sky v.
Proof.
  intros el el' E T1 T2. pose proof factor_pos as P0. unfold get_vf_ts_pvrow_element. rewrite E in *. cbv zeta.
  assert (RE : ft_rotation a' t = ft_rotation a t) by (rewrite shape_rot_a, shape_rot_a'; reflexivity).
  assert (WE : ft_width a' = m * ft_width a).
  { rewrite (proj1 (proj2 (proj2 (fit_spec _ _ _ _ F)))), (proj1 (proj2 (proj2 (fit_spec _ _ _ _ F')))). exact scaled_width. }
  rewrite similar_length in T2 by exact P0.
  rewrite RE, WE, similar_length by exact P0. destruct shape_rows_count as [LA LA'].
  pose proof NB as (K & KR & KL). pose proof NB' as (K' & KR' & KL').
  assert (G : exists x, calculate_vf_to_gnd (ft_rows a) (el t) k (gnd_y (ft_ground a)) (nth k (gnd_cut_points (ft_ground a)) dummy_cut t)
       (line_length (el t)) (Rltb 0 (ft_rotation a t)) t = Some x /\
     calculate_vf_to_gnd (ft_rows a') (similar m dx dy (el t)) k' (gnd_y (ft_ground a')) (nth k' (gnd_cut_points (ft_ground a')) dummy_cut t)
       (m * line_length (el t)) (Rltb 0 (ft_rotation a t)) t = Some x).
  { unfold calculate_vf_to_gnd. rewrite LA, LA'. destruct (Rltb 0 (ft_rotation a t)) eqn:S0; cbn [np_where].
    - apply Rltb_true in S0. specialize (KR S0). specialize (KR' S0).
      destruct (Nat.eqb_spec k (pa_n_pvrows p - 1)); [lia|]. destruct (Nat.eqb_spec k' (pa_n_pvrows p' - 1)); [lia|].
      eexists. split; [reflexivity|]. f_equal.
      rewrite (lowest_similar k k') by (auto; reflexivity). rewrite (lowest_similar (k + 1) (k' + 1)) by (auto; rewrite !plus_INR; ring).
      exact (similar_vss m dx dy (el t) (Line _ _) _ P0 T1 T2).
    - assert (H : ft_rotation a t <= 0) by (destruct (Rle_lt_dec (ft_rotation a t) 0) as [H|H]; [exact H|apply Rltb_true in H; congruence]).
      specialize (KL H). specialize (KL' H). destruct (Nat.eqb_spec k 0); [lia|]. destruct (Nat.eqb_spec k' 0); [lia|].
      eexists. split; [reflexivity|]. f_equal.
      rewrite (lowest_similar k k') by (auto; reflexivity).
      rewrite (lowest_similar (k - 1) (k' - 1)) by (try lia; rewrite !minus_INR by lia; ring).
      exact (similar_vss m dx dy (el t) (Line _ _) _ P0 T1 T2). }
  assert (PR : calculate_vf_to_pvrow (ft_rows a') (similar m dx dy (el t)) k' (m * line_length (el t)) (Rltb 0 (ft_rotation a t)) (m * ft_width a) (ft_rotation a t) t =
     calculate_vf_to_pvrow (ft_rows a) (el t) k (line_length (el t)) (Rltb 0 (ft_rotation a t)) (ft_width a) (ft_rotation a t) t).
  { unfold calculate_vf_to_pvrow. rewrite LA, LA'. cbv zeta. destruct (Rltb 0 (ft_rotation a t)) eqn:S0; cbn [np_where].
    - apply Rltb_true in S0. specialize (KR S0). specialize (KR' S0).
      destruct (Nat.eqb_spec k (pa_n_pvrows p - 1)); [lia|]. destruct (Nat.eqb_spec k' (pa_n_pvrows p' - 1)); [lia|]. cbn [fst snd].
      destruct (coords_similar (k + 1) (k' + 1)) as (-> & -> & ->); [exact KR | exact KR' | rewrite !plus_INR; ring |].
      rewrite (scaled_front_shading (k + 1) (k' + 1)); [| auto | intro; lra].
      rewrite similar_lowest, similar_shaded, !similar_vss by assumption. reflexivity.
    - assert (H : ft_rotation a t <= 0) by (destruct (Rle_lt_dec (ft_rotation a t) 0) as [H|H]; [exact H|apply Rltb_true in H; congruence]).
      specialize (KL H). specialize (KL' H). destruct (Nat.eqb_spec k 0); [lia|]. destruct (Nat.eqb_spec k' 0); [lia|]. cbn [fst snd].
      destruct (coords_similar (k - 1) (k' - 1)) as (-> & -> & ->); [lia | lia | rewrite !minus_INR by lia; ring |].
      rewrite (scaled_front_shading (k - 1) (k' - 1)); [| intro; lra | intro; lia].
      rewrite similar_lowest, similar_shaded, !similar_vss by assumption. reflexivity. }
  destruct G as (x & -> & ->). rewrite PR. eexists. eexists. split; [reflexivity|]. split; [reflexivity|]. cbn. auto.
Qed.

Lemma similar_surfaces : forall row row' j seg seg',
  nth_error (ft_rows a) k = Some row -> nth_error (ft_rows a') k' = Some row' ->
  pa_cut p' k' true = pa_cut p k true ->
  nth_error (side_segments (row_back row)) j = Some seg -> nth_error (side_segments (row_back row')) j = Some seg' ->
  seg_coords seg' t = similar m dx dy (seg_coords seg t) /\
  exists lit shaded lit' shaded', seg_illum seg = [lit] /\ seg_shaded seg = [shaded] /\ seg_illum seg' = [lit'] /\ seg_shaded seg' = [shaded'] /\
    s_coords lit' t = similar m dx dy (s_coords lit t) /\ s_coords shaded' t = similar m dx dy (s_coords shaded t).
Proof.
  intros row row' j seg seg' HR HR' CU HS HS'.
  destruct (fit_rows_nth_error _ _ _ _ _ _ F HR) as [K ->]. destruct (fit_rows_nth_error _ _ _ _ _ _ F' HR') as [K' ->].
  rewrite shape_alpha, shape_rotation in HS'. fold al rot in HS.
  unfold fit_row, pvrow_from_raw_inputs, side_from_raw_inputs in HS, HS'. cbn [row_back side_segments] in HS, HS'.
  rewrite CU in HS'. rewrite nth_error_map in HS, HS'.
  destruct (nth_error (seq 0 (pa_cut p k true)) j) as [i|]; [|discriminate]. cbn [option_map] in HS, HS'.
  assert (KEY : segment_coords (fst (row_center p' k')) (snd (row_center p' k')) (pa_width p') (rot t) (pa_cut p k true)
      (snd (row_shaded_lengths (pa_n_pvrows p') k' (rot t) (fit_shading p' al rot t))) i =
    let c := segment_coords (fst (row_center p k)) (snd (row_center p k)) (pa_width p) (rot t) (pa_cut p k true)
      (snd (row_shaded_lengths (pa_n_pvrows p) k (rot t) (fit_shading p al rot t))) i in
    (similar m dx dy (fst (fst c)), similar m dx dy (snd (fst c)), similar m dx dy (snd c))).
  { rewrite (center_similar k k' eq_refl), scaled_back_shading, scaled_width. cbn [fst snd]. apply similar_segment. exact factor_pos. }
  injection HS as <-. injection HS' as <-. cbn [seg_coords seg_illum seg_shaded].
  split; [exact (f_equal (fun z => fst (fst z)) KEY)|]. do 4 eexists. do 4 (split; [reflexivity|]). cbn [s_coords].
  split; [exact (f_equal (fun z => snd (fst z)) KEY) | exact (f_equal snd KEY)].
Qed.
End Two.

(** Two lines are at the same place on row [k] of [p] and on row [k'] of [p']: their ends have the
    same offsets from the centers of the rows, in units of the widths. *)
Definition same_place (p p' : pvarray_params) (k k' : nat) (l l' : line) : Prop :=
  let off q j pt := ((px pt - INR j * pa_distance q) / pa_width q, (py pt - pa_height q) / pa_width q) in
  off p' k' (b1 l') = off p k (b1 l) /\ off p' k' (b2 l') = off p k (b2 l).

Lemma unit_offset : forall m w x x' c c', 0 < m -> 0 < w -> ((x' - c') / (m * w) = (x - c) / w <-> x' = m * x + (c' - m * c)).
Proof.
  intros m w x x' c c' M W. split; intro H.
  - assert (E : x' - c' = (x' - c') / (m * w) * (m * w)) by (field; lra). rewrite H in E.
    replace ((x - c) / w * (m * w)) with (m * (x - c)) in E by (field; lra). lra.
  - rewrite H. field. lra.
Qed.

Lemma same_place_similar : forall p p' k k' l l', valid_params p -> valid_params p' -> same_shape p p' ->
  let m := pa_width p' / pa_width p in
  same_place p p' k k' l l' <-> l' = similar m ((INR k' - INR k) * pa_distance p') (pa_height p' - m * pa_height p) l.
Proof.
  intros p p' k k' l l' V V' SH m. pose proof (scaled_distance p p' V SH) as D. fold m in D.
  destruct V as (W & _), V' as (W' & _).
  assert (MW : pa_width p' = m * pa_width p) by (unfold m; field; lra).
  assert (M : 0 < m) by (unfold m; apply Rdiv_lt_0_compat; assumption). clearbody m.
  unfold same_place. cbv zeta. rewrite D, MW.
  assert (PT : forall q q', ((px q' - INR k' * (m * pa_distance p)) / (m * pa_width p), (py q' - pa_height p') / (m * pa_width p)) =
      ((px q - INR k * pa_distance p) / pa_width p, (py q - pa_height p) / pa_width p) <->
      q' = similar_pt m ((INR k' - INR k) * (m * pa_distance p)) (pa_height p' - m * pa_height p) q).
  { intros q q'. split; intro H.
    - pose proof (f_equal fst H) as H1. pose proof (f_equal snd H) as H2. cbn [fst snd] in H1, H2.
      apply (unit_offset m _ _ _ _ _ M W) in H1. apply (unit_offset m _ _ _ _ _ M W) in H2.
      destruct q' as [x' y']. cbn [px py] in H1, H2. unfold similar_pt. rewrite H1, H2. f_equal; ring.
    - rewrite H. unfold similar_pt. cbn [px py]. f_equal.
      + apply (unit_offset m _ _ _ _ _ M W). ring.
      + apply (unit_offset m _ _ _ _ _ M W). ring. }
  rewrite !PT. destruct l as [u v], l' as [u' v']. unfold similar. cbn [b1 b2]. split.
  - intros [-> ->]. reflexivity.
  - intro H. injection H as H1 H2. auto.
Qed.

(** C94: fast-mode view factors of elements at the same place on the backs of rows of two arrays of
    the same shape. *)
Theorem C94_views : forall p p' n n' f a a' t k k' el el',
  valid_params p -> valid_params p' -> fit p n f = Some a -> fit p' n' f = Some a' ->
  same_shape p p' -> -180 < ft_rotation a t < 180 ->
  back_has_neighbour (pa_n_pvrows p) k (ft_rotation a t) -> back_has_neighbour (pa_n_pvrows p') k' (ft_rotation a t) ->
  same_place p p' k k' (el t) (el' t) ->
  DISTANCE_TOLERANCE < line_length (el t) -> DISTANCE_TOLERANCE < line_length (el' t) ->
  exists v v', get_vf_ts_pvrow_element k el (ft_rows a) (ft_ground a) (ft_rotation a) (ft_width a) t = Some v /\
    get_vf_ts_pvrow_element k' el' (ft_rows a') (ft_ground a') (ft_rotation a') (ft_width a') t = Some v' /\
    to_gnd_total v' = to_gnd_total v /\ to_pvrow_total v' = to_pvrow_total v /\ to_pvrow_shaded v' = to_pvrow_shaded v /\
    to_pvrow_illum v' = to_pvrow_illum v /\ to_sky v' = to_sky v.
Proof.
  intros p p' n n' f a a' t k k' el el' V V' F F' SH RR NB NB' SP. apply same_place_similar in SP; [|assumption..].
  exact (similar_views p p' n n' f a a' t k k' V V' F F' SH NB NB' RR el el' SP).
Qed.
Print Assumptions C94_views.

(** C94: the back surfaces of such rows, cut the same way, are at the same places. *)
Theorem C94_surfaces : forall p p' n n' f a a' t k k' row row' j seg seg',
  valid_params p -> valid_params p' -> fit p n f = Some a -> fit p' n' f = Some a' -> same_shape p p' ->
  back_has_neighbour (pa_n_pvrows p) k (ft_rotation a t) -> back_has_neighbour (pa_n_pvrows p') k' (ft_rotation a t) ->
  nth_error (ft_rows a) k = Some row -> nth_error (ft_rows a') k' = Some row' -> pa_cut p' k' true = pa_cut p k true ->
  nth_error (side_segments (row_back row)) j = Some seg -> nth_error (side_segments (row_back row')) j = Some seg' ->
  same_place p p' k k' (seg_coords seg t) (seg_coords seg' t) /\
  exists lit shaded lit' shaded', seg_illum seg = [lit] /\ seg_shaded seg = [shaded] /\ seg_illum seg' = [lit'] /\ seg_shaded seg' = [shaded'] /\
    same_place p p' k k' (s_coords lit t) (s_coords lit' t) /\ same_place p p' k k' (s_coords shaded t) (s_coords shaded' t).
Proof.
  intros p p' n n' f a a' t k k' row row' j seg seg' V V' F F' SH NB NB' HR HR' CU HS HS'.
  destruct (similar_surfaces p p' n n' f a a' t k k' V V' F F' SH NB NB' row row' j seg seg' HR HR' CU HS HS')
    as (A & lit & sh & lit' & sh' & B1 & B2 & B3 & B4 & B5 & B6).
  split; [apply same_place_similar; assumption|]. exists lit, sh, lit', sh'. do 4 (split; [assumption|]).
  split; apply same_place_similar; assumption.
Qed.
Print Assumptions C94_surfaces.

(** C94: what a fast run publishes on such surfaces. *)
Theorem C94_run : forall P e0 e0' raw i i' a a' f f' r r' sg sg' e1 e1' e2 e2' k k' s s' t,
  fast_run P e0 raw i a f r sg e1 e2 -> fast_run P e0' raw i' a' f' r' sg' e1' e2' ->
  en_irr e0' = en_irr e0 -> chosen e0 a r sg k s -> chosen e0' a' r' sg' k' s' ->
  let p := pv_params (en_array e0) in let p' := pv_params (en_array e0') in
  same_shape p p' -> -180 < ft_rotation a t < 180 ->
  back_has_neighbour (pa_n_pvrows p) k (ft_rotation a t) -> back_has_neighbour (pa_n_pvrows p') k' (ft_rotation a t) ->
  same_place p p' k k' (s_coords s t) (s_coords s' t) -> DISTANCE_TOLERANCE < s_length s t -> DISTANCE_TOLERANCE < s_length s' t ->
  forall key, In key ["isotropic"; "reflection_pvrow_shaded"; "reflection_pvrow_illum"]%string ->
  exists z, value_at (pv_store (en_array e2)) s key t z /\ value_at (pv_store (en_array e2')) s' key t z.
Proof.
  intros P e0 e0' raw i i' a a' f f' r r' sg sg' e1 e1' e2 e2' k k' s s' t H H' EI C C' p p' SR RR NB NB' ES T1 T2 key IK.
  pose proof (proj1 (proj2 H)) as Hi. pose proof (proj1 (proj2 H')) as Hi'.
  assert (Ei : i' = i) by (rewrite Hi in Hi'; injection Hi' as <-; reflexivity). subst i'. clear Hi Hi'.
  pose proof (proj1 H) as V. pose proof (proj1 H') as V'.
  destruct (fast_run_inv _ _ _ _ _ _ _ _ _ _ H) as (rf & rb & _ & _ & FE & I1 & _ & Rf & EP & _).
  destruct (fast_run_inv _ _ _ _ _ _ _ _ _ _ H') as (rf' & rb' & _ & _ & FE' & I1' & _ & Rf' & EP' & _).
  pose proof (fe_fit _ _ _ _ _ _ _ FE) as F. rewrite EP in F. pose proof (fe_fit _ _ _ _ _ _ _ FE') as F'. rewrite EP' in F'.
  pose proof (fe_irr _ _ _ _ _ _ _ FE) as Q. rewrite I1 in Q. pose proof (fe_irr _ _ _ _ _ _ _ FE') as Q'. rewrite I1', EI in Q'.
  assert (Ef : f' = f) by (clear - Q Q'; congruence). subst f'. clear Q Q' FE FE'.
  destruct (chosen_value _ _ _ _ _ _ _ _ _ _ H) as (rf2 & rb2 & _ & _ & _ & Rf2 & VAL).
  destruct (chosen_value _ _ _ _ _ _ _ _ _ _ H') as (rf2' & rb2' & _ & _ & _ & Rf2' & VAL').
  assert (Er : rf2' = rf2) by (clear - Rf2 Rf2' EI; rewrite EI in Rf2'; congruence). subst rf2'.
  destruct (C94_views p p' _ _ _ a a' t k k' (s_coords s) (s_coords s') V V' F F' SR RR NB NB' ES T1 T2) as (v & v' & G & G' & _ & _ & E1 & E2 & E3).
  assert (X : forall fld, vf_value fld (fa_vf a k s) t = fld v) by (intro; unfold vf_value, fa_vf; rewrite G; reflexivity).
  assert (X' : forall fld, vf_value fld (fa_vf a' k' s') t = fld v') by (intro; unfold vf_value, fa_vf; rewrite G'; reflexivity).
  destruct IK as [<-|[<-|[<-|[]]]].
  - exists (fa_iso f a k s t). split; eexists; (split; [first [apply (VAL k s _ _ C) | apply (VAL' k' s' _ _ C')]; cbn; do 6 right; left; reflexivity|]).
    + reflexivity.
    + unfold fa_iso. rewrite X, X', E3. reflexivity.
  - exists (fa_ps rf2 f a k s t). split; eexists; (split; [first [apply (VAL k s _ _ C) | apply (VAL' k' s' _ _ C')]; cbn; do 4 right; left; reflexivity|]).
    + reflexivity.
    + unfold fa_ps. rewrite X, X', E1. reflexivity.
  - exists (fa_pi rf2 f a k s t). split; eexists; (split; [first [apply (VAL k s _ _ C) | apply (VAL' k' s' _ _ C')]; cbn; do 5 right; left; reflexivity|]).
    + reflexivity.
    + unfold fa_pi. rewrite X, X', E2. reflexivity.
Qed.
Print Assumptions C94_run.

(** The light sources of the irradiance model on such surfaces, in particular the horizon band,
    which the neighbour hides in part. *)
Lemma similar_highest : forall m dx dy l, 0 < m -> highest_point (similar m dx dy l) = similar_pt m dx dy (highest_point l).
Proof.
  intros m dx dy [a b] M. unfold highest_point, similar, similar_pt. cbn [px py b1 b2]. rewrite similar_le by exact M.
  destruct (Rleb (py b) (py a)); reflexivity.
Qed.
Lemma similar_centroid : forall m dx dy l, line_centroid (similar m dx dy l) = similar_pt m dx dy (line_centroid l).
Proof. intros m dx dy [a b]. unfold line_centroid, similar, similar_pt. cbn [px py b1 b2]. f_equal; field. Qed.
Lemma similar_elevation : forall m dx dy c h, 0 < m -> elevation_angle (similar_pt m dx dy c) (similar_pt m dx dy h) = elevation_angle c h.
Proof.
  intros m dx dy c h M. unfold elevation_angle, similar_pt. cbn [px py].
  replace (m * px h + dx - (m * px c + dx)) with (m * (px h - px c)) by ring.
  replace (m * py h + dy - (m * py c + dy)) with (m * (py h - py c)) by ring.
  set (u := px h - px c). set (v := py h - py c). clearbody u v.
  destruct (Req_EM_T (m * u) 0) as [A|A], (Req_EM_T u 0) as [B|B]; try reflexivity.
  - exfalso. destruct (Rmult_integral _ _ A); lra.
  - exfalso. apply A. rewrite B. ring.
  - f_equal. f_equal. f_equal. field. split; lra.
Qed.

Lemma same_pct : forall p p' n n' f a a' t k k' m s s',
  valid_params p -> valid_params p' -> fit p n f = Some a -> fit p' n' f = Some a' -> same_shape p p' ->
  back_has_neighbour (pa_n_pvrows p) k (ft_rotation a t) -> back_has_neighbour (pa_n_pvrows p') k' (ft_rotation a t) ->
  same_place p p' k k' (s_coords s t) (s_coords s' t) ->
  back_pct m a' k' [s'] t = back_pct m a k [s] t.
Proof.
  intros p p' n n' f a a' t k k' m s s' V V' F F' SH NB NB' SP. apply same_place_similar in SP; [|assumption..].
  pose proof (factor_pos p p' V V') as M. unfold back_pct, horizon_shading_pct, s_centroid. cbv zeta. rewrite SP, similar_centroid.
  destruct (shape_rows_count p p' n n' f a a' F F') as [LA LA']. rewrite LA, LA'.
  assert (RE : ft_rotation a' t = ft_rotation a t) by (rewrite (shape_rot_a p n f a F), (shape_rot_a' p p' n' f a' F' SH); reflexivity).
  rewrite RE. destruct NB as (K & KR & KL), NB' as (K' & KR' & KL').
  pose proof (coords_similar p p' n n' f a a' t k k' V F F' SH) as CS.
  destruct (Rltb 0 (ft_rotation a t)) eqn:S0; cbn [np_where].
  - apply Rltb_true in S0. specialize (KR S0). specialize (KR' S0).
    destruct (Nat.eqb_spec k (pa_n_pvrows p - 1)); [lia|]. destruct (Nat.eqb_spec k' (pa_n_pvrows p' - 1)); [lia|].
    rewrite (proj1 (CS (k + 1)%nat (k' + 1)%nat KR KR' ltac:(rewrite !plus_INR; ring))), similar_highest, similar_elevation by exact M. reflexivity.
  - assert (H : ft_rotation a t <= 0) by (destruct (Rle_lt_dec (ft_rotation a t) 0) as [H|H]; [exact H|apply Rltb_true in H; congruence]).
    specialize (KL H). specialize (KL' H). destruct (Nat.eqb_spec k 0); [lia|]. destruct (Nat.eqb_spec k' 0); [lia|].
    rewrite (proj1 (CS (k - 1)%nat (k' - 1)%nat ltac:(lia) ltac:(lia) ltac:(rewrite !minus_INR by lia; ring))), similar_highest, similar_elevation by exact M.
    reflexivity.
Qed.

(** C94: the light sources of such surfaces, and what fast mode publishes of them. *)
Theorem C94_sources : forall P e0 e0' raw i i' a a' f f' r r' sg sg' e1 e1' e2 e2' k k' s s' sh t,
  fast_run P e0 raw i a f r sg e1 e2 -> fast_run P e0' raw i' a' f' r' sg' e1' e2' ->
  en_irr e0' = en_irr e0 -> chosen e0 a r sg k s -> chosen e0' a' r' sg' k' s' ->
  in_category a s (CRow k true sh) -> in_category a' s' (CRow k' true sh) ->
  let p := pv_params (en_array e0) in let p' := pv_params (en_array e0') in
  same_shape p p' ->
  back_has_neighbour (pa_n_pvrows p) k (ft_rotation a t) -> back_has_neighbour (pa_n_pvrows p') k' (ft_rotation a t) ->
  same_place p p' k k' (s_coords s t) (s_coords s' t) ->
  exists z, light_sources (im_kind (en_irr e0)) (pv_store (en_array e2)) s t z /\
    light_sources (im_kind (en_irr e0)) (pv_store (en_array e2')) s' t z /\
    value_at (pv_store (en_array e2)) s "sky_term" t z /\ value_at (pv_store (en_array e2')) s' "sky_term" t z.
Proof.
  intros P e0 e0' raw i i' a a' f f' r r' sg sg' e1 e1' e2 e2' k k' s s' sh t H H' EI C C' IC IC' p p' SH NB NB' SP.
  pose proof (proj1 (proj2 H)) as Hi. pose proof (proj1 (proj2 H')) as Hi'.
  assert (Ei : i' = i) by (rewrite Hi in Hi'; injection Hi' as <-; reflexivity). subst i'. clear Hi Hi'.
  pose proof (proj1 H) as V. pose proof (proj1 H') as V'.
  destruct (fast_run_inv _ _ _ _ _ _ _ _ _ _ H) as (rf0 & rb0 & k0 & l0 & FEx & _ & _ & _ & EP & _).
  destruct (fast_run_inv _ _ _ _ _ _ _ _ _ _ H') as (rf0' & rb0' & k0' & l0' & FEx' & _ & _ & _ & EP' & _).
  pose proof (fe_fit _ _ _ _ _ _ _ FEx) as F. rewrite EP in F. pose proof (fe_fit _ _ _ _ _ _ _ FEx') as F'. rewrite EP' in F'. clear FEx FEx'.
  destruct (chosen_value _ _ _ _ _ _ _ _ _ _ H) as (rf & rb & FE & I1 & S & _ & VAL).
  destruct (chosen_value _ _ _ _ _ _ _ _ _ _ H') as (rf' & rb' & FE' & I1' & S' & _ & VAL').
  pose proof (fe_irr _ _ _ _ _ _ _ FE) as Q. rewrite I1 in Q. pose proof (fe_irr _ _ _ _ _ _ _ FE') as Q'. rewrite I1', EI in Q'.
  assert (Ef : f' = f) by (clear - Q Q'; congruence). subst f'. clear Q Q'.
  assert (PCT : back_pct (en_irr e0) a' k' [s'] t = back_pct (en_irr e0) a k [s] t)
    by exact (same_pct p p' _ _ _ a a' t k k' (en_irr e0) s s' V V' F F' SH NB NB' SP).
  assert (SRC : exists z, light_sources (im_kind (en_irr e0)) (pv_store (en_array e1)) s t z /\
     light_sources (im_kind (en_irr e0)) (pv_store (en_array e1')) s' t z).
  { pose proof (key_direct _ _ _ _ _ _ _ FE s _ IC) as D. pose proof (key_direct _ _ _ _ _ _ _ FE' s' _ IC') as D'.
    destruct (im_kind (en_irr e0)) eqn:KD; cbn [light_sources].
    - eexists. split; eexists; (split; [eassumption | reflexivity]).
    - assert (HY : im_kind (en_irr e1) = HybridPerezOrdered) by (rewrite I1; exact KD).
      assert (HY' : im_kind (en_irr e1') = HybridPerezOrdered) by (rewrite I1', EI; exact KD).
      pose proof (key_circ _ _ _ _ _ _ _ FE HY s _ IC) as G. pose proof (key_circ _ _ _ _ _ _ _ FE' HY' s' _ IC') as G'.
      pose proof (key_horizon _ _ _ _ _ _ _ FE HY s _ IC) as Z. pose proof (key_horizon _ _ _ _ _ _ _ FE' HY' s' _ IC') as Z'.
      eexists. split; eexists; eexists; eexists.
      + split; [eexists; split; [exact D | reflexivity]|]. split; [eexists; split; [exact G | reflexivity]|].
        split; [eexists; split; [exact Z | reflexivity]|]. reflexivity.
      + split; [eexists; split; [exact D' | reflexivity]|]. split; [eexists; split; [exact G' | reflexivity]|].
        split; [eexists; split; [exact Z' | reflexivity]|]. cbn [cat_horizon cat_of]. rewrite I1', I1, EI, PCT. reflexivity. }
  destruct SRC as (z & L & L'). exists z.
  split; [apply (sources_back e1 e2 _ _ _ _ S); exact L|]. split; [apply (sources_back e1' e2' _ _ _ _ S'); exact L'|].
  assert (W := fun v => VAL k s "sky_term"%string v C). assert (W' := fun v => VAL' k' s' "sky_term"%string v C').
  split.
  - eexists. split; [apply W; cbn; left; reflexivity|]. apply (sources_fun (im_kind (en_irr e0)) (pv_store (en_array e1)) s t); [|exact L].
    unfold fa_sky. rewrite <- I1. apply sources_comps.
    apply (fitted_ready _ _ _ _ _ _ _ FE s). eapply W. cbn. left. reflexivity.
  - eexists. split; [apply W'; cbn; left; reflexivity|]. apply (sources_fun (im_kind (en_irr e0)) (pv_store (en_array e1')) s' t); [|exact L'].
    unfold fa_sky. rewrite <- EI, <- I1'. apply sources_comps.
    apply (fitted_ready _ _ _ _ _ _ _ FE' s'). eapply W'. cbn. left. reflexivity.
Qed.
Print Assumptions C94_sources.

(** Concrete case: the example, three rows of width 2 at height 3, and ten rows of width 4 at
    height 5; the middle row of the three and row 7 of the ten. *)
Definition ex_p_large : pvarray_params :=
  PVArrayParams 0 (2 / 3) 5 4 10 (fun i b => if andb (Nat.eqb i 0) (negb b) then 2%nat else 1%nat).
Lemma ex_valid_large : valid_params ex_p_large.
Proof.
  unfold valid_params, ex_p_large; simpl. split; [lra |]. split; [lra |]. split; [lia |].
  intros. destruct (Nat.eqb i 0 && negb b); lia.
Qed.
Definition ex_engine_large (k : irr_kind) : engine :=
  engine_init (pvarray_init ex_p_large []) (Some default_calculator) (Some (ex_model k)) None None.

Example C94_example : forall P kd, exists i i' a a' f f' e1 e1' e2 e2' s s' sh t,
  fast_run P (ex_engine kd default_calculator) ex_raw i a f (Some 1%nat) None e1 e2 /\
  fast_run P (ex_engine_large kd) ex_raw i' a' f' (Some 7%nat) None e1' e2' /\
  en_irr (ex_engine_large kd) = en_irr (ex_engine kd default_calculator) /\
  chosen (ex_engine kd default_calculator) a (Some 1%nat) None 1 s /\ chosen (ex_engine_large kd) a' (Some 7%nat) None 7 s' /\
  in_category a s (CRow 1 true sh) /\ in_category a' s' (CRow 7 true sh) /\
  same_shape ex_p ex_p_large /\ -180 < ft_rotation a t < 180 /\
  back_has_neighbour 3 1 (ft_rotation a t) /\ back_has_neighbour 10 7 (ft_rotation a t) /\
  same_place ex_p ex_p_large 1 7 (s_coords s t) (s_coords s' t) /\ DISTANCE_TOLERANCE < s_length s t /\ DISTANCE_TOLERANCE < s_length s' t /\
  (forall z, value_at (pv_store (en_array e2)) s "isotropic" t z <-> value_at (pv_store (en_array e2')) s' "isotropic" t z).
Proof.
  intros P kd.
  destruct (ex_engine_fit P kd default_calculator ltac:(discriminate)) as [e Fi].
  assert (Fi' : exists e', engine_fit P (ex_engine_large kd) ex_raw = Ok e').
  { apply C50_fit_succeeds; [exact ex_valid_large|]. split.
    - exists (Some 2%nat). cbn. repeat (split; [reflexivity|]). split; [discriminate | left; reflexivity].
    - cbn. split; [discriminate|]. split; [discriminate | discriminate]. }
  destruct Fi' as [e' Fi'].
  destruct (fast_run_of P (ex_engine kd default_calculator) e 1 ex_valid Fi eq_refl ltac:(cbn; lia)) as (e2 & i & a & f & FR & F).
  destruct (fast_run_of P (ex_engine_large kd) e' 7 ex_valid_large Fi' eq_refl ltac:(cbn; lia)) as (e2' & i' & a' & f' & FR' & F').
  change (fit ex_p (ii_n i) ex_f = Some a) in F. change (fit ex_p_large (ii_n i') ex_f = Some a') in F'.
  assert (N2 : ii_n i = 2%nat) by (destruct FR as (_ & Hi & _); inversion Hi; reflexivity). rewrite N2 in F.
  assert (SR : same_shape ex_p ex_p_large) by (split; reflexivity).
  assert (RT : ft_rotation a 1%nat = -60) by (rewrite (proj1 (proj2 (fit_spec _ _ _ _ F))); exact ex_rot1).
  assert (NB : back_has_neighbour 3 1 (ft_rotation a 1%nat)) by (rewrite RT; split; [lia|]; split; [intro; lra | intro; lia]).
  assert (NB' : back_has_neighbour 10 7 (ft_rotation a 1%nat)) by (rewrite RT; split; [lia|]; split; [intro; lra | intro; lia]).
  destruct (ex_back a F) as (row & s & v & HR & IS & LN & _).
  destruct (back_segment _ _ _ _ 7 ex_valid_large F' ltac:(cbn; lia)) as (row' & seg' & HR' & HS').
  destruct (back_segment _ _ _ _ 1 ex_valid F ltac:(cbn; lia)) as (row1 & seg & HR1 & HS).
  rewrite HR in HR1. injection HR1 as <-.
  destruct (C94_surfaces ex_p ex_p_large _ _ ex_f a a' 1 1 7 row row' 0 seg seg' ex_valid ex_valid_large F F' SR NB NB' HR HR' eq_refl HS HS')
    as (_ & lit & sh & lit' & sh' & L1 & L2 & L1' & L2' & E1 & E2).
  assert (ONE : side_segments (row_back row) = [seg]).
  { assert (LE : List.length (side_segments (row_back row)) = 1%nat).
    { destruct (fit_rows_nth_error _ _ _ _ _ _ F HR) as [_ ->]. rewrite fit_row_back. unfold side_from_raw_inputs. cbn [side_segments].
      rewrite map_length, seq_length. reflexivity. }
    destruct (side_segments (row_back row)) as [|g [|g' l]]; [discriminate LE | | discriminate LE]. cbn [nth_error] in HS. congruence. }
  unfold side_surfaces in IS. rewrite ONE in IS. cbn [flat_map] in IS. rewrite app_nil_r in IS. unfold seg_surfaces in IS. rewrite L1, L2 in IS.
  assert (PAIR : exists s' b, in_segment s' seg' /\ in_category a s (CRow 1 true b) /\ in_category a' s' (CRow 7 true b) /\ same_place ex_p ex_p_large 1 7 (s_coords s 1%nat) (s_coords s' 1%nat)).
  { destruct IS as [<-|[<-|[]]].
    - exists lit', false. split; [left; rewrite L1'; left; reflexivity|].
      split; [exists row, seg | split; [exists row', seg' | exact E1]].
      + split; [exact HR|]. split; [exact (nth_error_In _ _ HS) | rewrite L1; left; reflexivity].
      + split; [exact HR'|]. split; [exact (nth_error_In _ _ HS') | rewrite L1'; left; reflexivity].
    - exists sh', true. split; [right; rewrite L2'; left; reflexivity|].
      split; [exists row, seg | split; [exists row', seg' | exact E2]].
      + split; [exact HR|]. split; [exact (nth_error_In _ _ HS) | rewrite L2; left; reflexivity].
      + split; [exact HR'|]. split; [exact (nth_error_In _ _ HS') | rewrite L2'; left; reflexivity]. }
  destruct PAIR as (s' & b & IS' & IC & IC' & SP).
  assert (LN' : DISTANCE_TOLERANCE < s_length s' 1%nat).
  { pose proof SP as SP'. apply same_place_similar in SP'; [|exact ex_valid|exact ex_valid_large|exact SR]. unfold s_length in *. rewrite SP'.
    assert (M2 : pa_width ex_p_large / pa_width ex_p = 2) by (cbn; field). rewrite M2, similar_length by lra.
    unfold DISTANCE_TOLERANCE in *. lra. }
  assert (C : chosen (ex_engine kd default_calculator) a (Some 1%nat) None 1 s).
  { split; [reflexivity|]. exists row, seg. split; [exact HR|]. split; [|exact (nth_error_In _ _ HS)].
    destruct IS as [<-|[<-|[]]]; [left; rewrite L1 | right; rewrite L2]; left; reflexivity. }
  assert (C' : chosen (ex_engine_large kd) a' (Some 7%nat) None 7 s').
  { split; [reflexivity|]. exists row', seg'. split; [exact HR'|]. split; [exact IS' | exact (nth_error_In _ _ HS')]. }
  assert (RR : -180 < ft_rotation a 1%nat < 180) by (rewrite RT; lra).
  exists i, i', a, a', f, f', e, e', e2, e2', s, s', b, 1%nat.
  do 2 (split; [assumption|]). split; [reflexivity|]. do 11 (split; [assumption|]).
  destruct (C94_run P _ _ ex_raw i i' a a' f f' _ _ _ _ e e' e2 e2' 1 7 s s' 1 FR FR' eq_refl C C' SR RR NB NB' SP LN LN' "isotropic"%string
    (or_introl eq_refl)) as (z & (w & A & B) & (w' & A' & B')).
  intro y. split; intros (u & U & Y); [exists w' | exists w]; (split; [assumption|]); congruence.
Qed.
