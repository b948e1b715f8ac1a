(** Flat rows in fast mode (C95): the back of a flat row with a row to its left sees the ground and
    nothing else. *)
From Coq Require Import Reals List Bool Arith ZArith String Lra Lia.
From Verif Require Import Num ModelTs ModelGeom ModelVF Basics SpecGeom SpecVF ProofAngles ProofFit ProofIndex ProofGeom ProofGeom2 PropGeom ModelLinalg ModelParams SpecParams ModelIrr SpecIrr ProofIrr ModelAOI ModelEngine SpecRun ProofEngine PropEngine ProofRun PropRun ProofAverage ProofHistory PropFastRun PropAlike.
Import ListNotations.
Open Scope R_scope.

Lemma level_distance : forall x x' y, x <= x' -> distance (Pt x y) (Pt x' y) = x' - x /\ distance (Pt x' y) (Pt x y) = x' - x.
Proof.
  intros x x' y L. unfold distance. cbn [px py]. split.
  - replace ((y - y) ^ 2 + (x' - x) ^ 2) with ((x' - x) * (x' - x)) by ring. apply sqrt_square. lra.
  - replace ((y - y) ^ 2 + (x - x') ^ 2) with ((x' - x) * (x' - x)) by ring. apply sqrt_square. lra.
Qed.
Lemma level_length : forall x x' y, x <= x' -> line_length (Line (Pt x y) (Pt x' y)) = x' - x.
Proof. intros x x' y L. exact (proj1 (level_distance x x' y L)). Qed.

(** Two level lines: one inside the other, or one left of the other. *)
Lemma level_inside : forall x1 x2 l1 l2 y, l1 <= x1 -> x1 <= x2 -> x2 <= l2 -> DISTANCE_TOLERANCE < x2 - x1 ->
  vf_surface_to_surface (Line (Pt x1 y) (Pt x2 y)) (Line (Pt l1 y) (Pt l2 y)) (x2 - x1) = 1.
Proof.
  intros x1 x2 l1 l2 y A B C T. unfold vf_surface_to_surface. cbn [b1 b2].
  rewrite (proj2 (level_distance l1 x1 y A)), (proj1 (level_distance x2 l2 y C)), (proj1 (level_distance x1 l2 y ltac:(lra))),
    (proj2 (level_distance l1 x2 y ltac:(lra))), (proj2 (Rltb_true _ _) T). cbn [np_where].
  replace (l2 - x1 + (x2 - l1) - (x1 - l1 + (l2 - x2))) with (2 * (x2 - x1)) by ring.
  unfold DISTANCE_TOLERANCE in T. rewrite Rabs_right by lra. field. lra.
Qed.
Lemma level_left : forall x1 x2 l1 l2 y, l1 <= x1 -> l2 <= x1 -> x1 <= x2 ->
  vf_surface_to_surface (Line (Pt x1 y) (Pt x2 y)) (Line (Pt l1 y) (Pt l2 y)) (x2 - x1) = 0.
Proof.
  intros x1 x2 l1 l2 y A B C. unfold vf_surface_to_surface. cbn [b1 b2].
  rewrite (proj2 (level_distance l1 x1 y A)), (proj2 (level_distance l2 x2 y ltac:(lra))), (proj2 (level_distance l2 x1 y B)),
    (proj2 (level_distance l1 x2 y ltac:(lra))).
  destruct (Rltb DISTANCE_TOLERANCE (x2 - x1)); cbn [np_where]; [|reflexivity].
  replace (x1 - l2 + (x2 - l1) - (x1 - l1 + (x2 - l2))) with 0 by ring. rewrite Rabs_R0. unfold Rdiv. ring.
Qed.

(** A level piece of row [k], from [x1] to [x2]. *)
Definition level_piece (p : pvarray_params) (k : nat) (x1 x2 : R) (l : line) : Prop :=
  l = Line (Pt x1 (pa_height p)) (Pt x2 (pa_height p)) /\
  INR k * pa_distance p - pa_width p / 2 <= x1 /\ x1 <= x2 /\ x2 <= INR k * pa_distance p + pa_width p / 2.

Section Flat.
Variables (p : pvarray_params) (n : nat) (f : fit_inputs) (a : fitted) (t k : nat).
Hypothesis V : valid_params p.
Hypothesis F : fit p n f = Some a.
Hypothesis Z : ft_rotation a t = 0.
Hypothesis K0 : (0 < k)%nat.
Hypothesis K : (k < pa_n_pvrows p)%nat.
Hypothesis APART : pa_width p <= pa_distance p.

Lemma flat_coords : forall j, (j < pa_n_pvrows p)%nat ->
  row_coords (nth j (ft_rows a) dummy_row) t =
    Line (Pt (INR j * pa_distance p - pa_width p / 2) (pa_height p)) (Pt (INR j * pa_distance p + pa_width p / 2) (pa_height p)) /\
  row_xc (nth j (ft_rows a) dummy_row) = INR j * pa_distance p /\ row_yc (nth j (ft_rows a) dummy_row) = pa_height p /\
  side_shaded_length (row_front (nth j (ft_rows a) dummy_row)) t = 0.
Proof.
  intros j J.
  assert (IR : nth_error (ft_rows a) j = Some (nth j (ft_rows a) dummy_row)).
  { apply nth_error_nth'. rewrite (proj1 (proj2 (proj2 (proj2 (fit_spec _ _ _ _ F))))), fit_rows_length. exact J. }
  split; [|split; [|split]].
  - rewrite (proj1 (proj2 (proj2 (proj2 (fit_spec _ _ _ _ F))))), fit_rows_nth by exact J.
    unfold fit_row, pvrow_from_raw_inputs, full_coords, row_center. cbn [row_coords fst snd].
    rewrite <- (proj1 (proj2 (fit_spec _ _ _ _ F))), Z, Rplus_0_l. rewrite <- (Rplus_0_l 180), cosd_180, sind_180, cosd_0, sind_0.
    unfold X_ORIGIN_PVROWS, pa_y_ground. f_equal; f_equal; field.
  - rewrite (proj1 (proj2 (proj2 (proj2 (fit_spec _ _ _ _ F))))), fit_rows_nth by exact J.
    unfold fit_row, pvrow_from_raw_inputs, row_center, X_ORIGIN_PVROWS. cbn [row_xc fst snd]. ring.
  - rewrite (proj1 (proj2 (proj2 (proj2 (fit_spec _ _ _ _ F))))), fit_rows_nth by exact J.
    unfold fit_row, pvrow_from_raw_inputs, row_center, pa_y_ground. cbn [row_yc fst snd]. ring.
  - unfold side_shaded_length. rewrite py_sum_rsum. set (row := nth j (ft_rows a) dummy_row) in *.
    assert (EA : forall g, In g (side_segments (row_front row)) -> coll_length (seg_shaded g) t = 0).
    { intros g Ig. apply In_nth_error in Ig. destruct Ig as (z & Iz).
      assert (Rq : -180 < ft_rotation a t < 180) by (rewrite Z; lra).
      exact (proj2 (proj2 (proj2 (C06_lengths p n f a t j row V F Rq IR) false z g Iz)) Z). }
    clearbody row. induction (side_segments (row_front row)) as [|g l IH]; [reflexivity|]. cbn [map rsum].
    rewrite (EA g (or_introl eq_refl)), IH; [ring|]. intros g' Ig'. apply EA. right. exact Ig'.
Qed.

Lemma flat_lowest : forall x x' y, lowest_point (Line (Pt x y) (Pt x' y)) = Pt x' y.
Proof. intros x x' y. unfold lowest_point. cbn [px py b1 b2]. rewrite (proj2 (Rleb_true y y)) by lra. reflexivity. Qed.

Lemma flat_views : forall x1 x2 el, level_piece p k x1 x2 (el t) -> DISTANCE_TOLERANCE < x2 - x1 ->
  exists v, get_vf_ts_pvrow_element k el (ft_rows a) (ft_ground a) (ft_rotation a) (ft_width a) t = Some v /\
    to_gnd_total v = 1 /\ to_gnd_shaded v + to_gnd_illum v = 1 /\
    to_pvrow_total v = 0 /\ to_pvrow_shaded v = 0 /\ to_pvrow_illum v = 0 /\ to_sky v = 0.
Proof.
  intros x1 x2 el (E & B1 & B2 & B3) T. unfold get_vf_ts_pvrow_element. rewrite E, Z, level_length by exact B2. cbv zeta.
  assert (NL : Rltb 0 0 = false) by (destruct (Rltb 0 0) eqn:Q; [apply Rltb_true in Q; lra | reflexivity]). rewrite NL.
  assert (PK : INR (k - 1) * pa_distance p = INR k * pa_distance p - pa_distance p) by (rewrite minus_INR by lia; cbn [INR]; ring).
  destruct (flat_coords k K) as (CK & _). destruct (flat_coords (k - 1)%nat ltac:(lia)) as (CL & XL & YL & SL). destruct V as (W & _).
  assert (G : calculate_vf_to_gnd (ft_rows a) (Line (Pt x1 (pa_height p)) (Pt x2 (pa_height p))) k (gnd_y (ft_ground a))
      (nth k (gnd_cut_points (ft_ground a)) dummy_cut t) (x2 - x1) false t = Some 1).
  { unfold calculate_vf_to_gnd. cbn [np_where]. destruct (Nat.eqb_spec k 0); [lia|]. f_equal. unfold row_lowest_pt. rewrite CK, CL, !flat_lowest.
    apply level_inside; rewrite ?PK; lra. }
  assert (PR : calculate_vf_to_pvrow (ft_rows a) (Line (Pt x1 (pa_height p)) (Pt x2 (pa_height p))) k (x2 - x1) false (ft_width a) 0 t = (0, 0)).
  { unfold calculate_vf_to_pvrow. cbv zeta. cbn [np_where]. destruct (Nat.eqb_spec k 0); [lia|]. cbn [fst snd]. rewrite CL, XL, YL, SL, flat_lowest.
    rewrite (proj1 (proj2 (proj2 (fit_spec _ _ _ _ F)))). unfold create_shaded_side_coords. cbv zeta. cbn [np_where]. rewrite cosd_0, sind_0.
    replace ((pa_width p / 2 - 0) * 0 + pa_height p) with (pa_height p) by ring. f_equal; apply level_left; rewrite ?PK; lra. }
  rewrite G, PR. eexists. split; [reflexivity|]. cbn. repeat split; ring.
Qed.

Lemma flat_pieces : forall row s, nth_error (ft_rows a) k = Some row -> In s (side_surfaces (row_back row)) ->
  exists x1 x2, level_piece p k x1 x2 (s_coords s t).
Proof.
  intros row s HR IS. destruct (fit_rows_nth_error _ _ _ _ _ _ F HR) as [_ ->]. rewrite fit_row_back in IS.
  unfold side_from_raw_inputs, side_surfaces in IS. cbn [side_segments] in IS. apply in_flat_map in IS. destruct IS as (g & IG & IS).
  apply in_map_iff in IG. destruct IG as (i & <- & Ii). apply in_seq in Ii. unfold seg_surfaces in IS. cbn [seg_illum seg_shaded app] in IS.
  set (c := pa_cut p k true) in *. assert (C0 : 0 < INR c) by (apply lt_0_INR; apply V).
  assert (I1 : INR i + 1 <= INR c) by (rewrite <- S_INR; apply le_INR; clear - Ii; lia). pose proof (pos_INR i) as I0.
  assert (RZ : fit_rotation p f t = 0) by (rewrite <- (proj1 (proj2 (fit_spec _ _ _ _ F))); exact Z).
  pose proof V as (W & _). set (L := pa_width p / INR c). assert (L0 : 0 < L) by (apply Rdiv_lt_0_compat; assumption).
  assert (CL : INR c * L = pa_width p) by (unfold L; field; lra).
  assert (N1 : 0 <= INR i * L) by (apply Rmult_le_pos; lra).
  assert (N2 : (INR i + 1) * L <= pa_width p) by (rewrite <- CL; apply Rmult_le_compat_r; lra).
  assert (SC : forall sl, exists x1 x2, x1 = INR k * pa_distance p - pa_width p / 2 + INR i * L /\ x2 = x1 + L /\
     segment_coords (INR k * pa_distance p) (pa_height p) (pa_width p) 0 c sl i =
     (Line (Pt x1 (pa_height p)) (Pt x2 (pa_height p)), Line (Pt x1 (pa_height p)) (Pt x2 (pa_height p)), Line (Pt x1 (pa_height p)) (Pt x1 (pa_height p)))).
  { intro sl. eexists. eexists. split; [reflexivity|]. split; [reflexivity|]. unfold segment_coords. cbv zeta. fold L.
    rewrite (proj2 (Rleb_true 0 0)) by lra. rewrite (proj2 (Reqb_true 0 0)) by reflexivity. cbn [np_where negb]. rewrite !andb_false_r. cbn [np_where].
    rewrite cosd_180, sind_180, cosd_0, sind_0.
    assert (P1 : Pt ((pa_width p / 2 - INR i * L) * - (1) + INR k * pa_distance p) ((pa_width p / 2 - INR i * L) * - 0 + pa_height p) =
      Pt (INR k * pa_distance p - pa_width p / 2 + INR i * L) (pa_height p)) by (f_equal; ring).
    assert (P2 : Pt ((pa_width p / 2 - (INR i + 1) * L) * - (1) + INR k * pa_distance p) ((pa_width p / 2 - (INR i + 1) * L) * - 0 + pa_height p) =
      Pt (INR k * pa_distance p - pa_width p / 2 + INR i * L + L) (pa_height p)) by (f_equal; ring).
    rewrite P1, P2. reflexivity. }
  destruct IS as [<-|[<-|[]]]; cbn [s_coords]; rewrite RZ;
    match goal with |- context [segment_coords _ _ _ 0 c ?sl i] => destruct (SC sl) as (x1 & x2 & E1 & E2 & ->) end; cbn [fst snd].
  - exists x1, x2. split; [reflexivity|]. lra.
  - exists x1, x1. split; [reflexivity|]. lra.
Qed.
End Flat.

(** C95: fast-mode view factors of any piece of the back of a flat row. *)
Theorem C95_views : forall p n f a t k x1 x2 el,
  valid_params p -> fit p n f = Some a -> ft_rotation a t = 0 -> pa_width p <= pa_distance p ->
  (0 < k)%nat -> (k < pa_n_pvrows p)%nat -> level_piece p k x1 x2 (el t) -> DISTANCE_TOLERANCE < x2 - x1 ->
  exists v, get_vf_ts_pvrow_element k el (ft_rows a) (ft_ground a) (ft_rotation a) (ft_width a) t = Some v /\
    to_gnd_total v = 1 /\ to_gnd_shaded v + to_gnd_illum v = 1 /\
    to_pvrow_total v = 0 /\ to_pvrow_shaded v = 0 /\ to_pvrow_illum v = 0 /\ to_sky v = 0.
Proof. intros p n f a t k x1 x2 el V F Z AP K0 K. exact (flat_views p n f a t k V F Z K0 K AP x1 x2 el). Qed.
Print Assumptions C95_views.

(** C95: what a fast run publishes on the back of a flat row: no light from the sky dome, none
    from the rows, and all the reflected light from the ground, shared between its shaded and its
    lit part. *)
Theorem C95_run : forall P e0 raw i a f r sg e1 e2 k s t,
  fast_run P e0 raw i a f r sg e1 e2 -> chosen e0 a r sg k s ->
  let p := pv_params (en_array e0) in
  ft_rotation a t = 0 -> pa_width p <= pa_distance p -> (0 < k)%nat -> DISTANCE_TOLERANCE < s_length s t ->
  let st := pv_store (en_array e2) in
  value_at st s "isotropic" t 0 /\ value_at st s "reflection_pvrow_shaded" t 0 /\ value_at st s "reflection_pvrow_illum" t 0 /\
  forall y1 y2 g_shaded g_lit,
    in_category a y1 (CGround true) -> value_at st y1 "total_perez" t g_shaded ->
    in_category a y2 (CGround false) -> value_at st y2 "total_perez" t g_lit ->
    exists x src, light_sources (im_kind (en_irr e0)) st s t src /\
      value_at st s "reflection" t (ii_albedo i t * (x * g_shaded + (1 - x) * g_lit)) /\
      value_at st s "qinc" t (ii_albedo i t * (x * g_shaded + (1 - x) * g_lit) + src).
Proof.
  intros P e0 raw i a f r sg e1 e2 k s t H C p Z AP K0 T st.
  destruct (fast_run_inv _ _ _ _ _ _ _ _ _ _ H) as (rf0 & rb0 & k0 & l0 & FE & _ & SF & Rf & EP & _).
  pose proof (fe_fit _ _ _ _ _ _ _ FE) as F. rewrite EP in F. pose proof (proj1 H) as V. fold p in F, V.
  pose proof C as (_ & row & seg & HR & IS & SEG).
  assert (Iseg : In seg (side_segments (row_back row))).
  { destruct (match sg with Some j => Some j | None => en_fast_seg e0 end); [exact (nth_error_In _ _ SEG) | exact SEG]. }
  assert (Is : In s (side_surfaces (row_back row))).
  { unfold side_surfaces. apply in_flat_map. exists seg. split; [exact Iseg|]. apply in_or_app. exact IS. }
  assert (K : (k < pa_n_pvrows p)%nat) by exact (proj1 (fit_rows_nth_error _ _ _ _ _ _ F HR)).
  destruct (flat_pieces p _ _ a t k V F Z row s HR Is) as (x1 & x2 & LP).
  assert (T' : DISTANCE_TOLERANCE < x2 - x1).
  { destruct LP as (E & _ & L & _). unfold s_length in T. rewrite E, level_length in T by exact L. exact T. }
  destruct (C95_views p _ _ a t k x1 x2 (s_coords s) V F Z AP K0 K LP T') as (v & G & _ & SG & _ & S1 & S2 & S3).
  destruct (C25_fast_qinc P e0 raw i a f r sg e1 e2 k s t H C) as (w & _ & EW & Q). fold st in Q.
  rewrite (EW t) in Q. specialize (EW t).
  pose proof (categories_inhabited _ _ _ a V F) as CI.
  assert (PZ : forall y c, in_category a y c -> exists z, value_at st y "total_perez" t z).
  { intros y c Cy. eexists. apply (value_back e1 e2 y _ t _ SF); [cbn; intuition discriminate|].
    eexists. split; [exact (key_perez _ _ _ _ _ _ _ FE y c Cy) | reflexivity]. }
  destruct (CI (CRow k false true) K) as (y3 & C3). destruct (CI (CRow k false false) K) as (y4 & C4).
  destruct (PZ y3 _ C3) as (p3 & V3). destruct (PZ y4 _ C4) as (p4 & V4).
  assert (ALL : forall y1 y2 g_shaded g_lit,
    in_category a y1 (CGround true) -> value_at st y1 "total_perez" t g_shaded ->
    in_category a y2 (CGround false) -> value_at st y2 "total_perez" t g_lit ->
    (value_at st s "isotropic" t 0 /\ value_at st s "reflection_pvrow_shaded" t 0 /\ value_at st s "reflection_pvrow_illum" t 0) /\
    exists x src, light_sources (im_kind (en_irr e0)) st s t src /\
      value_at st s "reflection" t (ii_albedo i t * (x * g_shaded + (1 - x) * g_lit)) /\
      value_at st s "qinc" t (ii_albedo i t * (x * g_shaded + (1 - x) * g_lit) + src)).
  { intros y1 y2 gs gl C1 V1 C2 V2. destruct (Q v rf0 y1 y2 y3 y4 k k gs gl p3 p4 G Rf C1 V1 C2 V2 C3 V3 C4 V4) as (src & L & A1 & A2 & _ & _ & A3 & A4 & A5 & _).
    rewrite S1, S2, S3 in *. assert (EI : to_gnd_illum v = 1 - to_gnd_shaded v) by lra. rewrite EI in *.
    assert (RW : forall key z z', z = z' -> value_at st s key t z -> value_at st s key t z') by (intros key z z' ->; exact (fun h => h)).
    split; [split; [|split]; (eapply RW; [|eassumption]; ring)|].
    exists (to_gnd_shaded v), src. split; [exact L|]. split; (eapply RW; [|eassumption]; ring). }
  destruct (CI (CGround true) Logic.I) as (y1 & C1). destruct (CI (CGround false) Logic.I) as (y2 & C2).
  destruct (PZ y1 _ C1) as (g1 & V1). destruct (PZ y2 _ C2) as (g2 & V2).
  destruct (ALL y1 y2 g1 g2 C1 V1 C2 V2) as ((A & B & D) & _). split; [exact A|]. split; [exact B|]. split; [exact D|].
  intros z1 z2 h1 h2 D1 W1 D2 W2. exact (proj2 (ALL z1 z2 h1 h2 D1 W1 D2 W2)).
Qed.
Print Assumptions C95_run.

(** Concrete case: the three rows of the example, flat. *)
Definition ex_flat : fit_inputs := FitInputs (fun _ => 45) (fun _ => 90) (fun _ => 0) (fun _ => 90).
Lemma ex_flat_rotation : forall p t, pa_axis_azimuth p = 0 -> fit_rotation p ex_flat t = 0.
Proof.
  intros p t A. unfold fit_rotation. rewrite A. cbn. destruct (rotation_cases 90 0 0) as [_ H]. rewrite H; [lra|]. rewrite ex_mod. lra.
Qed.
Example C95_example : exists a row s v, fit ex_p 1 ex_flat = Some a /\ ft_rotation a 0%nat = 0 /\ pa_width ex_p <= pa_distance ex_p /\
  nth_error (ft_rows a) 1 = Some row /\ In s (side_surfaces (row_back row)) /\ DISTANCE_TOLERANCE < s_length s 0%nat /\
  get_vf_ts_pvrow_element 1 (s_coords s) (ft_rows a) (ft_ground a) (ft_rotation a) (ft_width a) 0 = Some v /\ to_gnd_total v = 1 /\ to_sky v = 0.
Proof.
  destruct (fit_total ex_p 1 ex_flat ltac:(cbn; lia)) as (a & F).
  assert (Z : ft_rotation a 0%nat = 0) by (rewrite (proj1 (proj2 (fit_spec _ _ _ _ F))); apply ex_flat_rotation; reflexivity).
  assert (AP : pa_width ex_p <= pa_distance ex_p) by (rewrite ex_distance; cbn; lra).
  destruct (back_segment _ _ _ _ 1 ex_valid F ltac:(cbn; lia)) as (row & seg & HR & HS).
  assert (RR : -180 < ft_rotation a 0%nat < 180) by (rewrite Z; lra).
  destruct (proj2 (C06_lengths ex_p 1 ex_flat a 0 1 row ex_valid F RR HR) true 0%nat seg HS) as (LT & _ & LS). specialize (LS Z).
  destruct (fit_singletons _ _ _ _ F row seg (nth_error_In _ _ HR) (or_intror (nth_error_In _ _ HS))) as (il & sd & EI & ES).
  assert (IS : In il (side_surfaces (row_back row))).
  { unfold side_surfaces. apply in_flat_map. exists seg. split; [exact (nth_error_In _ _ HS)|]. unfold seg_surfaces. rewrite EI. left. reflexivity. }
  assert (LI : s_length il 0%nat = 2).
  { unfold seg_length, seg_shaded_length, coll_length in LT, LS. rewrite ?EI, ?ES in *. cbn in LT, LS. cbn. lra. }
  assert (T : DISTANCE_TOLERANCE < s_length il 0%nat) by (rewrite LI; unfold DISTANCE_TOLERANCE; lra).
  destruct (flat_pieces ex_p _ _ a 0 1 ex_valid F Z row il HR IS) as (x1 & x2 & LP).
  assert (T' : DISTANCE_TOLERANCE < x2 - x1).
  { destruct LP as (E & _ & L & _). unfold s_length in T. rewrite E, level_length in T by exact L. exact T. }
  destruct (C95_views ex_p _ _ a 0 1 x1 x2 (s_coords il) ex_valid F Z AP ltac:(lia) ltac:(cbn; lia) LP T') as (v & G & A & _ & _ & _ & _ & B).
  exists a, row, il, v. tauto.
Qed.

(** The hypothesis on the tolerance in C94 is needed: the same flat array at a scale where its rows
    are narrower than the tolerance. The same piece sees the ground only in one array and the sky
    only in the other. *)
Definition ex_tiny : pvarray_params :=
  PVArrayParams 0 (2 / 3) 3 (DISTANCE_TOLERANCE / 2) 3 (fun _ _ => 1%nat).
Lemma ex_valid_tiny : valid_params ex_tiny.
Proof. unfold valid_params, ex_tiny, DISTANCE_TOLERANCE; simpl. split; [lra |]. split; [lra |]. split; [lia |]. intros. lia. Qed.

Theorem C94_tiny_refuted : exists p p' n f a a' t k el el' v v',
  valid_params p /\ valid_params p' /\ fit p n f = Some a /\ fit p' n f = Some a' /\
  pa_gcr p' = pa_gcr p /\ pa_axis_azimuth p' = pa_axis_azimuth p /\ pa_n_pvrows p' = pa_n_pvrows p /\
  back_has_neighbour (pa_n_pvrows p) k (ft_rotation a t) /\
  el t = row_coords (nth k (ft_rows a) dummy_row) t /\ el' t = row_coords (nth k (ft_rows a') dummy_row) t /\
  get_vf_ts_pvrow_element k el (ft_rows a) (ft_ground a) (ft_rotation a) (ft_width a) t = Some v /\
  get_vf_ts_pvrow_element k el' (ft_rows a') (ft_ground a') (ft_rotation a') (ft_width a') t = Some v' /\
  to_sky v = 0 /\ to_sky v' = 1.
Proof.
  destruct (fit_total ex_p 1 ex_flat ltac:(cbn; lia)) as (a & F). destruct (fit_total ex_tiny 1 ex_flat ltac:(cbn; lia)) as (a' & F').
  assert (Z : ft_rotation a 0%nat = 0) by (rewrite (proj1 (proj2 (fit_spec _ _ _ _ F))); apply ex_flat_rotation; reflexivity).
  assert (Z' : ft_rotation a' 0%nat = 0) by (rewrite (proj1 (proj2 (fit_spec _ _ _ _ F'))); apply ex_flat_rotation; reflexivity).
  assert (AP : pa_width ex_p <= pa_distance ex_p) by (rewrite ex_distance; cbn; lra).
  destruct (flat_coords ex_p 1 ex_flat a 0 ex_valid F Z 1 ltac:(cbn; lia)) as (C & _).
  destruct (flat_coords ex_tiny 1 ex_flat a' 0 ex_valid_tiny F' Z' 1 ltac:(cbn; lia)) as (C' & _).
  set (el := row_coords (nth 1 (ft_rows a) dummy_row)) in *. set (el' := row_coords (nth 1 (ft_rows a') dummy_row)) in *.
  assert (LP : level_piece ex_p 1 (INR 1 * pa_distance ex_p - pa_width ex_p / 2) (INR 1 * pa_distance ex_p + pa_width ex_p / 2) (el 0%nat)).
  { split; [exact C|]. cbn [pa_width ex_p]. lra. }
  destruct (C95_views ex_p 1 ex_flat a 0 1 _ _ el ex_valid F Z AP ltac:(lia) ltac:(cbn; lia) LP) as (v & G & _ & _ & _ & _ & _ & S0).
  { cbn [pa_width ex_p]. unfold DISTANCE_TOLERANCE. lra. }
  assert (G' : exists v', get_vf_ts_pvrow_element 1 el' (ft_rows a') (ft_ground a') (ft_rotation a') (ft_width a') 0 = Some v' /\ to_sky v' = 1).
  { unfold get_vf_ts_pvrow_element. cbv zeta. rewrite Z', C', level_length by (cbn [pa_width ex_tiny]; unfold DISTANCE_TOLERANCE; lra).
    assert (NL : Rltb 0 0 = false) by (destruct (Rltb 0 0) eqn:Q; [apply Rltb_true in Q; lra | reflexivity]). rewrite NL.
    set (len := INR 1 * pa_distance ex_tiny + pa_width ex_tiny / 2 - (INR 1 * pa_distance ex_tiny - pa_width ex_tiny / 2)).
    assert (SM : forall l m, vf_surface_to_surface l m len = 0).
    { intros l m. unfold vf_surface_to_surface. destruct (Rltb DISTANCE_TOLERANCE len) eqn:Q; [|reflexivity]. apply Rltb_true in Q. exfalso. revert Q.
      unfold len. cbn [pa_width ex_tiny]. unfold DISTANCE_TOLERANCE. lra. }
    unfold calculate_vf_to_gnd, calculate_vf_to_pvrow. cbn [Nat.eqb np_where]. cbv zeta. cbn [fst snd np_where]. rewrite !SM.
    eexists. split; [reflexivity|]. cbn [to_sky]. ring. }
  destruct G' as (v' & G' & S1).
  exists ex_p, ex_tiny, 1%nat, ex_flat, a, a', 0%nat, 1%nat, el, el', v, v'.
  split; [exact ex_valid|]. split; [exact ex_valid_tiny|]. split; [exact F|]. split; [exact F'|]. do 3 (split; [reflexivity|]).
  split; [rewrite Z; split; [cbn; lia|]; split; [intro; lra | intro; lia]|]. do 2 (split; [reflexivity|]).
  split; [exact G|]. split; [exact G'|]. split; assumption.
Qed.
Print Assumptions C94_tiny_refuted.

(** A fast run on the flat array meets the hypotheses of C95_run. *)
Definition ex_raw_flat : raw_inputs :=
  RawInputs (NArray 1 (fun t => t)) (NArray 1 (fun _ => 1000)) (NArray 1 (fun _ => 100))
    (NArray 1 (fi_zenith ex_flat)) (NArray 1 (fi_azimuth ex_flat)) (NArray 1 (fi_tilt ex_flat))
    (NArray 1 (fi_surf_azimuth ex_flat)) (NScalar (1 / 5)) None.
Example C95_run_example : forall P kd, exists i a f e1 e2 s,
  fast_run P (ex_engine kd default_calculator) ex_raw_flat i a f (Some 1%nat) None e1 e2 /\
  chosen (ex_engine kd default_calculator) a (Some 1%nat) None 1 s /\ ft_rotation a 0%nat = 0 /\
  pa_width ex_p <= pa_distance ex_p /\ DISTANCE_TOLERANCE < s_length s 0%nat /\ value_at (pv_store (en_array e2)) s "isotropic" 0 0.
Proof.
  intros P kd. set (e0 := ex_engine kd default_calculator).
  assert (Fi : exists e, engine_fit P e0 ex_raw_flat = Ok e).
  { apply C50_fit_succeeds; [exact ex_valid|]. split.
    - exists (Some 1%nat). cbn. repeat (split; [reflexivity|]). split; [discriminate | left; reflexivity].
    - cbn. split; [discriminate|]. split; [discriminate | discriminate]. }
  destruct Fi as (e & Fi).
  destruct (engine_fit_fitted P e0 ex_raw_flat e ex_valid Fi) as (i & a & f & rf & rb & Hi & FE).
  assert (EX : exec_all P e [] = Ok e) by reflexivity.
  destruct (proj2 (C25_succeeds P e0 ex_raw_flat e [] e (Some 1%nat) None ex_valid Fi eq_refl EX)) as (e2 & RF).
  { exists 1%nat. split; [reflexivity|]. split; [cbn; lia | exact Logic.I]. }
  pose proof (run_fast_same_fit _ _ _ _ RF) as S2.
  pose proof (fe_fit _ _ _ _ _ _ _ FE) as F. rewrite (proj1 (ProofRun.engine_fit_params _ _ _ _ Fi)) in F.
  assert (FR : fast_run P e0 ex_raw_flat i a f (Some 1%nat) None e e2).
  { split; [exact ex_valid|]. split; [exact Hi|]. split; [exists e, []; tauto|]. rewrite (sf_fitted _ _ S2), (sf_irr_fitted _ _ S2).
    split; [exact (fe_array _ _ _ _ _ _ _ FE) | exact (fe_irr_fitted _ _ _ _ _ _ _ FE)]. }
  assert (F' : fit ex_p 1 ex_flat = Some a) by (inversion Hi; subst i; exact F).
  destruct C95_example as (a2 & row & s & v & F2 & Z & AP & HR & IS & T & _).
  assert (EA : a2 = a) by (clear - F' F2; congruence). subst a2.
  assert (C : chosen e0 a (Some 1%nat) None 1 s).
  { split; [reflexivity|]. unfold side_surfaces in IS. apply in_flat_map in IS. destruct IS as (g & Ig & Is).
    exists row, g. split; [exact HR|]. split; [apply in_app_or; exact Is | exact Ig]. }
  exists i, a, f, e, e2, s. do 5 (split; [assumption|]).
  exact (proj1 (C95_run P e0 ex_raw_flat i a f _ _ e e2 1 s 0 FR C Z AP ltac:(lia) T)).
Qed.
