(** Fast mode does not depend on how the back of a row is cut. *)
From Coq Require Import Reals List Bool Arith String Lra Lia.
From Verif Require Import Num ModelTs ModelGeom ModelVF Basics SpecGeom SpecVF ProofShade ProofRow ProofAngles ProofFit ProofIndex ProofGeom ProofGeom2 PropGeom ProofString ProofMatrix ProofTele ProofVF ProofVF2 PropVF ProofNight ProofFast PropFast ModelLinalg ProofLinalg SpecEngine ProofRadiosity ModelParams SpecParams ProofParams ModelIrr SpecIrr ProofIrr ModelAOI ModelEngine SpecRun ProofEngine PropEngine ProofRun PropRun PropAbs ProofHistory PropFastRun ProofEnergy PropLocal PropModes.
Import ListNotations.
Open Scope R_scope.

(** What the view factors of the fast mode are to. *)
Inductive seen_part : Type :=
| GroundShaded | GroundLit | GroundAll | RowShaded | RowLit | RowAll | TheSky | OneShadow (j : nat).

(** The factor to it. *)
Definition factor (q : seen_part) (v : fast_vf) : R :=
  match q with
  | GroundShaded => to_gnd_shaded v
  | GroundLit => to_gnd_illum v
  | GroundAll => to_gnd_total v
  | RowShaded => to_pvrow_shaded v
  | RowLit => to_pvrow_illum v
  | RowAll => to_pvrow_total v
  | TheSky => to_sky v
  | OneShadow j => nth j (to_each_gnd_shadow v) 0
  end.

(** View factors of the fast mode for an element with coordinates [el] on row [i]. *)
Definition fast_factors (a : fitted) (i : nat) (el : ts line) (t : nat) : option fast_vf :=
  get_vf_ts_pvrow_element i el (ft_rows a) (ft_ground a) (ft_rotation a) (ft_width a) t.

(** The ground that the back of row [i] looks at begins before its far end. *)
Definition ground_ahead (p : pvarray_params) (a : fitted) (t i : nat) : Prop :=
  let left := looks_left (ft_rotation a t) true in
  neighbour_edge p a t left i = None -> cut_in_view a t i left.

Section Part.
Variables (p : pvarray_params) (n : nat) (f : fit_inputs) (a : fitted) (t : nat) (al : R).
Hypothesis SC : scene p n f a t al.
Variable i : nat.
Hypothesis Hi : (i < pa_n_pvrows p)%nat.
Hypothesis GA : ground_ahead p a t i.

Let face := negb (Rltb 0 (ft_rotation a t)).
Let nx := next face i.
Let Rp := RP p a t i.

(** Strings from a point of the row. *)
Definition sstr (P : pt) (g : R) : R := str (obs p a t face i) (orient face P) (og face g).
Definition spiece (P : pt) (u v : R) : R := if face then sstr P v - sstr P u else sstr P u - sstr P v.
Definition selem (P : pt) (e : ts_ground_element) : R :=
  rsum (map (fun s => spiece P (px (b1 (s_coords s t))) (px (b2 (s_coords s t)))) (el_side e face i)).

(** The factor times the length, up to a point of the row. *)
Definition upto_gnd (P : pt) : R :=
  if is_edge p face i then (sstr P (cutx p f t i) - sstr P (if face then -100 else 100)) / 2
  else (distance (Lp p a t i) P - distance (Lp p a t nx) P) / 2.
Definition upto_shadow (P : pt) : R := rsum (map (selem P) (gnd_shadows (ft_ground a))) / 2.
Definition upto_row (e : R) (P : pt) : R :=
  if is_edge p face i then 0 else (distance (Lp p a t nx) P - distance (RP p a t nx e) P) / 2.
Definition upto (q : seen_part) (P : pt) : R :=
  match q with
  | GroundShaded => upto_shadow P
  | GroundLit => upto_gnd P - upto_shadow P
  | GroundAll => upto_gnd P
  | RowShaded => upto_row (fsl a t nx) P
  | RowLit => upto_row (pa_width p) P - upto_row (fsl a t nx) P
  | RowAll => upto_row (pa_width p) P
  | TheSky => distance (Lp p a t i) P - upto_gnd P - upto_row (pa_width p) P
  | OneShadow j => match nth_error (gnd_shadows (ft_ground a)) j with Some e => selem P e / 2 | None => 0 end
  end.

Lemma along : forall e, 0 <= e -> distance (Lp p a t i) (Rp e) = e.
Proof.
  intros e He. unfold Lp, Rp, RP.
  pose proof (low_point_dist (INR i * pa_distance p) (pa_height p) (pa_width p) (ft_rotation a t) 0 e He) as LD.
  rewrite line_length_dist in LD. cbn [b1 b2] in LD. rewrite LD. ring.
Qed.

Lemma rsum_diff : forall (A : Type) (g h : A -> R) l, rsum (map (fun x => g x - h x) l) = rsum (map g l) - rsum (map h l).
Proof. intros A g h l. induction l as [|x l IH]; cbn [map rsum]; [ring|]. rewrite IH. ring. Qed.

Lemma ephi_sstr : forall lo hi g, ephi p a t i lo hi g = sstr (Rp hi) g - sstr (Rp lo) g.
Proof. intros lo hi g. unfold ephi, phi, sstr, Rp. rewrite !orient_RP. reflexivity. Qed.

Lemma epiece_spiece : forall lo hi u v, epiece p a t i lo hi u v = spiece (Rp hi) u v - spiece (Rp lo) u v.
Proof. intros lo hi u v. unfold epiece. rewrite !ephi_sstr. unfold spiece. fold face. case face; ring. Qed.

Lemma element_diff : forall lo hi e,
  rsum (map (fun s => epiece p a t i lo hi (px (b1 (s_coords s t))) (px (b2 (s_coords s t)))) (el_side e face i)) =
  selem (Rp hi) e - selem (Rp lo) e.
Proof.
  intros lo hi e. unfold selem. rewrite <- rsum_diff. apply rsum_map_ext. intros s _. apply epiece_spiece.
Qed.

Lemma shadow_diff : forall lo hi, shadow_sum p a t i lo hi / 2 = upto_shadow (Rp hi) - upto_shadow (Rp lo).
Proof.
  intros lo hi. unfold shadow_sum, upto_shadow. rewrite <- Rdiv_minus_distr, <- rsum_diff. f_equal.
  apply rsum_map_ext. intros e _. apply element_diff.
Qed.

Lemma part_factor : forall q lo hi, 0 <= lo -> DISTANCE_TOLERANCE < hi - lo ->
  (hi - lo) * factor q (fast_result p a t i lo hi (fast_gnd p f a t i lo hi)) = upto q (Rp hi) - upto q (Rp lo).
Proof.
  intros q lo hi Hlo Hlh. pose proof DISTANCE_TOLERANCE_pos as TP.
  assert (L0 : hi - lo <> 0) by lra.
  assert (EG : (hi - lo) * fast_gnd p f a t i lo hi = upto_gnd (Rp hi) - upto_gnd (Rp lo)).
  { unfold fast_gnd, upto_gnd. fold face nx. destruct (is_edge p face i).
    - rewrite !ephi_sstr. field. exact L0.
    - unfold echi. fold Rp. rewrite !along by lra. field. exact L0. }
  assert (ES : (hi - lo) * (shadow_sum p a t i lo hi / (2 * (hi - lo))) = upto_shadow (Rp hi) - upto_shadow (Rp lo)).
  { rewrite <- shadow_diff. field. exact L0. }
  assert (ER : forall e, (hi - lo) * (if is_edge p face i then 0 else (echi p a t i lo hi (Lp p a t nx) - echi p a t i lo hi (RP p a t nx e)) / (2 * (hi - lo))) =
    upto_row e (Rp hi) - upto_row e (Rp lo)).
  { intro e. unfold upto_row, echi. fold Rp. destruct (is_edge p face i); [ring|]. field. exact L0. }
  pose proof (ER (pa_width p)) as ER1. pose proof (ER (fsl a t nx)) as ER2.
  unfold fast_result. fold face nx. destruct q; cbn [factor upto to_gnd_shaded to_gnd_illum to_gnd_total to_pvrow_shaded to_pvrow_illum to_pvrow_total to_sky to_each_gnd_shadow].
  - exact ES.
  - rewrite Rmult_minus_distr_l, EG, ES. ring.
  - exact EG.
  - exact ER2.
  - rewrite Rmult_minus_distr_l, ER1, ER2. ring.
  - exact ER1.
  - assert (EX : forall g r, (hi - lo) * (1 - g - r) = hi - lo - (hi - lo) * g - (hi - lo) * r) by (intros; ring).
    rewrite EX, EG, ER1, !along by lra. ring.
  - destruct (nth_error (gnd_shadows (ft_ground a)) j) as [e|] eqn:Ee.
    + rewrite (nth_error_nth (map _ (gnd_shadows (ft_ground a))) j 0 (map_nth_error _ _ _ Ee)).
      rewrite element_diff. field. exact L0.
    + rewrite nth_overflow by (rewrite map_length; apply nth_error_None; exact Ee). ring.
Qed.

(** Any element from [lo] to [hi]. *)
Lemma element_factor : forall q (el : ts line) lo hi v, 0 <= lo -> DISTANCE_TOLERANCE < hi - lo -> hi <= pa_width p ->
  (el t = Line (Rp lo) (Rp hi) \/ el t = Line (Rp hi) (Rp lo)) -> lowest_point (el t) = Rp lo -> highest_point (el t) = Rp hi ->
  fast_factors a i el t = Some v ->
  (hi - lo) * factor q v = upto q (Rp hi) - upto q (Rp lo).
Proof.
  intros q el lo hi v Hlo Hlh Hhi Hc Hl Hh Hv. pose proof SC as (V & Fi & SA & NS & HR & HG & HF).
  unfold fast_factors in Hv.
  rewrite (fast_values p n f a t al V Fi SA NS HR HG HF i lo hi (el t) Hi Hlo Hlh Hhi Hc Hl Hh el eq_refl) in Hv.
  - inversion Hv. apply part_factor; assumption.
  - intro Eg. apply cut_in_view_reached. apply GA.
    pose proof (neighbour_obs p a t face i Hi) as E. unfold obs in E. unfold face in E. rewrite Eg in E.
    assert (LL : looks_left (ft_rotation a t) true = negb (Rltb 0 (ft_rotation a t))) by (rewrite looks_left_eq; reflexivity).
    rewrite LL. destruct (neighbour_edge p a t (negb (Rltb 0 (ft_rotation a t))) i); [discriminate | reflexivity].
Qed.
End Part.

Lemma ends_of : forall x y, x <> y ->
  (lowest_point (Line x y) = x -> highest_point (Line x y) = y) /\ (lowest_point (Line y x) = x -> highest_point (Line y x) = y).
Proof.
  intros [x1 x2] [y1 y2] N. unfold lowest_point, highest_point, np_where. cbn [b1 b2 px py].
  split; match goal with |- context [if ?b then _ else _] => destruct b end; intro H; try reflexivity; exfalso; apply N; congruence.
Qed.

Lemma row_part : forall p n f a t al i row, scene p n f a t al -> nth_error (ft_rows a) i = Some row ->
  let c := row_coords row t in let w := pa_width p in
  (c = Line (RP p a t i 0) (RP p a t i w) \/ c = Line (RP p a t i w) (RP p a t i 0)) /\
  lowest_point c = RP p a t i 0 /\ highest_point c = RP p a t i w.
Proof.
  intros p n f a t al i row (V & Fi & SA & NS & HR & HG & HF) Hr c w.
  pose proof (row_lt p n f a Fi _ _ Hr) as Hi.
  assert (En : nth i (ft_rows a) dummy_row = row) by (apply nth_error_nth; exact Hr).
  pose proof (row_coords_ends p n f a t Fi i Hi) as RE. rewrite En in RE. fold c in RE. fold w in RE.
  pose proof (row_lowest p n f a t V Fi HR i Hi) as RL. unfold row_lowest_pt in RL. rewrite En in RL. fold c in RL.
  assert (W : 0 < w) by apply V.
  assert (N : Lp p a t i <> RP p a t i w).
  { intro E. pose proof (along p a t i w ltac:(lra)) as A. rewrite E in A.
    rewrite dist_self in A. lra. }
  split; [exact RE|]. split; [exact RL|]. destruct (ends_of _ _ N) as [E1 E2].
  destruct RE as [RE | RE]; rewrite RE in RL |- *; auto.
Qed.

(** The factors of one surface of the back, as a difference along the row. *)
Lemma surface_factor : forall p n f a t al i row s v q,
  scene p n f a t al -> nth_error (ft_rows a) i = Some row -> ground_ahead p a t i ->
  In s (side_surfaces (row_back row)) -> no_sliver_length DISTANCE_TOLERANCE (s_length s t) ->
  fast_factors a i (s_coords s) t = Some v ->
  s_length s t * factor q v = upto p f a t i q (s_highest s t) - upto p f a t i q (s_lowest s t).
Proof.
  intros p n f a t al i row s v q SC Hr GA Hs NSl Hv. pose proof SC as (V & Fi & SA & NS & HR & HG & HF).
  pose proof (row_lt p n f a Fi _ _ Hr) as Hi.
  destruct (surface_spans p n f a t V Fi HR i row true s Hr Hs) as (lo & hi & B1 & B2 & B3 & B4 & B5 & B6).
  rewrite B5. destruct NSl as [Z | L].
  - assert (hi = lo) by lra. subst hi. rewrite B3, B4. ring.
  - rewrite B3, B4. unfold s_length in *. apply (element_factor p n f a t al SC i Hi GA q (s_coords s) lo hi v); try assumption; lra.
Qed.

(** C83: the factors of the surfaces of the back of a row average to those of the whole,
    uncut, back. *)
Theorem C83_surfaces : forall p n f a t al i row (vs : ts_surface -> fast_vf) v q,
  scene p n f a t al -> nth_error (ft_rows a) i = Some row -> ground_ahead p a t i ->
  (forall s, In s (side_surfaces (row_back row)) ->
     no_sliver_length DISTANCE_TOLERANCE (s_length s t) /\ fast_factors a i (s_coords s) t = Some (vs s)) ->
  DISTANCE_TOLERANCE < pa_width p -> fast_factors a i (row_coords row) t = Some v ->
  sum_over (side_surfaces (row_back row)) (fun s => s_length s t * factor q (vs s)) = pa_width p * factor q v.
Proof.
  intros p n f a t al i row vs v q SC Hr GA H Hw Hv. pose proof SC as (V & Fi & SA & NS & HR & HG & HF).
  pose proof (row_lt p n f a Fi _ _ Hr) as Hi.
  rewrite sum_over_rsum.
  rewrite (rsum_map_ext _ _ (fun s => upto p f a t i q (s_highest s t) - upto p f a t i q (s_lowest s t))).
  2:{ intros s Hs. destruct (H s Hs) as [NSl E]. exact (surface_factor p n f a t al i row s (vs s) q SC Hr GA Hs NSl E). }
  change (row_back row) with (side_of true row).
  rewrite (surface_telescope p n f a t V Fi HR i row true (upto p f a t i q) Hr).
  destruct (row_part p n f a t al i row SC Hr) as (C & L & G).
  symmetry. replace (pa_width p) with (pa_width p - 0) at 1 by ring.
  apply (element_factor p n f a t al SC i Hi GA q (row_coords row) 0 (pa_width p) v); try assumption; lra.
Qed.
Print Assumptions C83_surfaces.

(** C83: so do those of its segments. *)
Theorem C83_segments : forall p n f a t al i row (vs : ts_segment -> fast_vf) v q,
  scene p n f a t al -> nth_error (ft_rows a) i = Some row -> ground_ahead p a t i ->
  (forall sg, In sg (side_segments (row_back row)) ->
     DISTANCE_TOLERANCE < line_length (seg_coords sg t) /\ fast_factors a i (seg_coords sg) t = Some (vs sg)) ->
  DISTANCE_TOLERANCE < pa_width p -> fast_factors a i (row_coords row) t = Some v ->
  sum_over (side_segments (row_back row)) (fun sg => line_length (seg_coords sg t) * factor q (vs sg)) = pa_width p * factor q v.
Proof.
  intros p n f a t al i row vs v q SC Hr GA H Hw Hv. pose proof SC as (V & Fi & SA & NS & HR & HG & HF).
  pose proof (row_lt p n f a Fi _ _ Hr) as Hi.
  rewrite sum_over_rsum.
  rewrite (rsum_map_ext _ _ (fun sg => rsum (map (fun s => upto p f a t i q (s_highest s t) - upto p f a t i q (s_lowest s t)) (seg_surfaces sg)))).
  2:{ intros sg Hs. destruct (H sg Hs) as [Ln E].
      destruct (segment_part p n f a t V Fi HR i row Hr sg Hs Ln) as (lo & hi & H1 & H2 & H3 & H4 & H5 & H6 & H7 & _ & X2).
      rewrite X2, H4. apply (element_factor p n f a t al SC i Hi GA q (seg_coords sg) lo hi (vs sg)); assumption. }
  rewrite <- rsum_flat_map.
  pose proof (surface_telescope p n f a t V Fi HR i row true (upto p f a t i q) Hr) as ST. unfold side_surfaces in ST. cbn [side_of] in ST.
  rewrite ST. clear ST.
  destruct (row_part p n f a t al i row SC Hr) as (C & L & G).
  symmetry. replace (pa_width p) with (pa_width p - 0) at 1 by ring.
  apply (element_factor p n f a t al SC i Hi GA q (row_coords row) 0 (pa_width p) v); try assumption; lra.
Qed.
Print Assumptions C83_segments.

(** Two arrays that differ only in how their sides are cut. *)
Definition differ_in_cut (p p' : pvarray_params) : Prop :=
  exists cut, p' = PVArrayParams (pa_axis_azimuth p) (pa_gcr p) (pa_height p) (pa_width p) (pa_n_pvrows p) cut.

Lemma cut_shaded_length : forall p p' f i t b, differ_in_cut p p' -> valid_params p -> valid_params p' ->
  -180 < fit_rotation p f t < 180 ->
  side_shaded_length (side_of b (fit_row p' (fit_alpha p f) (fit_rotation p f) i)) t =
  side_shaded_length (side_of b (fit_row p (fit_alpha p f) (fit_rotation p f) i)) t.
Proof.
  intros p p' f i t b [cut ->] V V' HR. destruct (row_sl_bounds p f i t V) as [B1 B2]. unfold row_sl in B1, B2.
  destruct V as (W & G & N & C). destruct V' as (_ & _ & _ & C'). specialize (C i b). specialize (C' i b). cbn [pa_cut] in C'.
  assert (E0 : forall bk xc yc w rot cut sl nv, rot t = 0 -> side_shaded_length (side_from_raw_inputs i bk xc yc w rot cut sl nv) t = 0).
  { clear. intros bk xc yc w rot cut sl nv Z. unfold side_shaded_length, side_from_raw_inputs. cbn [side_segments]. rewrite map_map. cbn [seg_shaded].
    rewrite py_sum_map_seq. apply isum_zero. intros k _. unfold coll_length, s_length. cbn [map s_coords].
    rewrite py_sum_rsum. cbn [rsum]. rewrite Z, (segment_coords_flat xc yc w cut (sl t) k). cbn [snd]. rewrite line_length_dist. cbn [b1 b2]. rewrite dist_self. ring. }
  destruct b; cbn [side_of]; rewrite ?fit_row_front, ?fit_row_back; cbn [pa_axis_azimuth pa_gcr pa_height pa_width pa_n_pvrows pa_cut];
    change (pa_distance (PVArrayParams (pa_axis_azimuth p) (pa_gcr p) (pa_height p) (pa_width p) (pa_n_pvrows p) cut)) with (pa_distance p);
    change (fit_shading (PVArrayParams (pa_axis_azimuth p) (pa_gcr p) (pa_height p) (pa_width p) (pa_n_pvrows p) cut)) with (fit_shading p);
    (destruct (Req_dec (fit_rotation p f t) 0) as [Z | Nz]; [rewrite !E0 by exact Z; reflexivity | rewrite !side_shaded_length_eq by auto; reflexivity]).
Qed.

(** C83: the factors of an element do not depend on how the rows are cut. *)
Theorem C83_cut_free : forall p p' n n' f a a' i (el : ts line) t,
  differ_in_cut p p' -> valid_params p -> valid_params p' -> fit p n f = Some a -> fit p' n' f = Some a' ->
  -180 < ft_rotation a t < 180 -> (i < pa_n_pvrows p)%nat ->
  fast_factors a' i el t = fast_factors a i el t.
Proof.
  intros p p' n n' f a a' i el t D V V' Fi Fi' HR Hi.
  pose proof (fun j H => cut_shaded_length p p' f j t false D V V' H) as SL.
  destruct (fit_spec _ _ _ _ Fi) as (_ & Er & Ew & Erow & Eg). destruct (fit_spec _ _ _ _ Fi') as (_ & Er' & Ew' & Erow' & Eg').
  rewrite Erow in Eg. rewrite Erow' in Eg'. rewrite Er in HR.
  assert (RC : map row_coords (fit_rows p' (fit_alpha p' f) (fit_rotation p' f)) = map row_coords (fit_rows p (fit_alpha p f) (fit_rotation p f))).
  { destruct D as [cut ->]. rewrite !fit_rows_eq, !map_map. reflexivity. }
  rewrite RC in Eg'.
  assert (EA : fit_alpha p' f = fit_alpha p f) by (destruct D as [cut ->]; reflexivity).
  assert (ER : fit_rotation p' f = fit_rotation p f) by (destruct D as [cut ->]; reflexivity).
  assert (ES : fit_shading p' = fit_shading p) by (destruct D as [cut ->]; reflexivity).
  assert (EN : pa_n_pvrows p' = pa_n_pvrows p) by (destruct D as [cut ->]; reflexivity).
  assert (EW : pa_width p' = pa_width p) by (destruct D as [cut ->]; reflexivity).
  rewrite EA, ER, ES in Eg'. assert (GG : ft_ground a' = ft_ground a) by congruence.
  unfold fast_factors. rewrite GG, Er', Ew', Erow', Er, Ew, Erow, EA, ER, EW.
  set (R0 := fit_rows p (fit_alpha p f) (fit_rotation p f)). set (R1 := fit_rows p' (fit_alpha p f) (fit_rotation p f)).
  assert (LN : List.length R1 = List.length R0) by (unfold R0, R1; rewrite !fit_rows_length; exact EN).
  assert (LN0 : List.length R0 = pa_n_pvrows p) by apply fit_rows_length.
  assert (SAME : forall j, (j < pa_n_pvrows p)%nat -> row_coords (nth j R1 dummy_row) = row_coords (nth j R0 dummy_row) /\
     row_xc (nth j R1 dummy_row) = row_xc (nth j R0 dummy_row) /\ row_yc (nth j R1 dummy_row) = row_yc (nth j R0 dummy_row) /\
     side_shaded_length (row_front (nth j R1 dummy_row)) t = side_shaded_length (row_front (nth j R0 dummy_row)) t).
  { intros j Hj. unfold R0, R1. rewrite !fit_rows_nth by (rewrite ?EN; exact Hj). specialize (SL j HR).
    repeat split; [destruct D as [cut ->]; reflexivity .. | exact SL]. }
  assert (LOW : forall j, (j < pa_n_pvrows p)%nat -> row_lowest_pt R1 j t = row_lowest_pt R0 j t).
  { intros j Hj. unfold row_lowest_pt. destruct (SAME j Hj) as (E & _). rewrite E. reflexivity. }
  assert (NX : Nat.eqb i (pa_n_pvrows p - 1) = false -> (i + 1 < pa_n_pvrows p)%nat) by (intro E; apply Nat.eqb_neq in E; lia).
  assert (PV : Nat.eqb i 0 = false -> (i - 1 < pa_n_pvrows p)%nat) by (intro E; apply Nat.eqb_neq in E; lia).
  clearbody R0 R1. clear SL RC Eg Eg'.
  unfold get_vf_ts_pvrow_element. cbv zeta.
  assert (E1 : calculate_vf_to_gnd R1 (el t) i (gnd_y (ft_ground a)) (nth i (gnd_cut_points (ft_ground a)) dummy_cut t) (line_length (el t)) (Rltb 0 (fit_rotation p f t)) t =
               calculate_vf_to_gnd R0 (el t) i (gnd_y (ft_ground a)) (nth i (gnd_cut_points (ft_ground a)) dummy_cut t) (line_length (el t)) (Rltb 0 (fit_rotation p f t)) t).
  { unfold calculate_vf_to_gnd. cbv zeta. rewrite LN, LN0, (LOW i Hi).
    destruct (Nat.eqb i 0) eqn:E0, (Nat.eqb i (pa_n_pvrows p - 1)) eqn:E2; rewrite ?(LOW (i + 1)%nat) by auto; rewrite ?(LOW (i - 1)%nat) by auto; reflexivity. }
  assert (E2 : calculate_vf_to_pvrow R1 (el t) i (line_length (el t)) (Rltb 0 (fit_rotation p f t)) (pa_width p) (fit_rotation p f t) t =
               calculate_vf_to_pvrow R0 (el t) i (line_length (el t)) (Rltb 0 (fit_rotation p f t)) (pa_width p) (fit_rotation p f t) t).
  { unfold calculate_vf_to_pvrow. cbv zeta. rewrite LN, LN0.
    destruct (Nat.eqb i 0) eqn:E0, (Nat.eqb i (pa_n_pvrows p - 1)) eqn:E2;
      try (destruct (SAME (i + 1)%nat (NX eq_refl)) as (-> & -> & -> & ->)); try (destruct (SAME (i - 1)%nat (PV eq_refl)) as (-> & -> & -> & ->)); reflexivity. }
  assert (E3 : forall l, map (fun lr : ts line * ts line => calculate_vf_to_shadow R1 (el t) i (Rltb 0 (fit_rotation p f t)) (fst lr t) (snd lr t) (line_length (el t)) t) l =
               map (fun lr => calculate_vf_to_shadow R0 (el t) i (Rltb 0 (fit_rotation p f t)) (fst lr t) (snd lr t) (line_length (el t)) t) l).
  { intro l. apply map_ext. intro lr. unfold calculate_vf_to_shadow. cbv zeta. rewrite LN, LN0.
    destruct (Nat.eqb i 0) eqn:E0, (Nat.eqb i (pa_n_pvrows p - 1)) eqn:E4; rewrite ?(LOW (i + 1)%nat) by auto; rewrite ?(LOW (i - 1)%nat) by auto; reflexivity. }
  rewrite E1, E2, E3. reflexivity.
Qed.
Print Assumptions C83_cut_free.

(** Whether the factors exist does not depend on the element. *)
Lemma factors_exist : forall a i el el' t v, fast_factors a i el t = Some v -> exists v', fast_factors a i el' t = Some v'.
Proof.
  intros a i el el' t v. unfold fast_factors, get_vf_ts_pvrow_element. cbv zeta.
  assert (X : forall c c' l l', calculate_vf_to_gnd (ft_rows a) c i (gnd_y (ft_ground a)) (nth i (gnd_cut_points (ft_ground a)) dummy_cut t) l (Rltb 0 (ft_rotation a t)) t <> None ->
     calculate_vf_to_gnd (ft_rows a) c' i (gnd_y (ft_ground a)) (nth i (gnd_cut_points (ft_ground a)) dummy_cut t) l' (Rltb 0 (ft_rotation a t)) t <> None).
  { intros c c' l l'. unfold calculate_vf_to_gnd, np_where. cbv zeta. destruct (Rltb 0 (ft_rotation a t)).
    - destruct (Nat.eqb i (Datatypes.length (ft_rows a) - 1)); [|discriminate]. destruct (max_with_cut _ _); [discriminate | congruence].
    - destruct (Nat.eqb i 0); [|discriminate]. destruct (min_with_cut _ _); [discriminate | congruence]. }
  specialize (X (el t) (el' t) (line_length (el t)) (line_length (el' t))).
  destruct (calculate_vf_to_gnd _ (el t) _ _ _ _ _ _) as [g|]; [|discriminate]. intros _.
  destruct (calculate_vf_to_gnd _ (el' t) _ _ _ _ _ _) as [g'|]; [eauto|]. exfalso. apply X; [discriminate | reflexivity].
Qed.

Lemma row_factors_exist : forall p n f a t al i row, scene p n f a t al -> nth_error (ft_rows a) i = Some row -> ground_ahead p a t i ->
  DISTANCE_TOLERANCE < pa_width p -> exists v, fast_factors a i (row_coords row) t = Some v.
Proof.
  intros p n f a t al i row SC Hr GA Hw. pose proof SC as (V & Fi & SA & NS & HR & HG & HF).
  pose proof (row_lt p n f a Fi _ _ Hr) as Hi. destruct (row_part p n f a t al i row SC Hr) as (C & L & G).
  eexists. unfold fast_factors.
  apply (fast_values p n f a t al V Fi SA NS HR HG HF i 0 (pa_width p) (row_coords row t) Hi ltac:(lra) ltac:(lra) ltac:(lra) C L G (row_coords row) eq_refl).
  intro Eg. apply cut_in_view_reached. apply GA.
  assert (LL : looks_left (ft_rotation a t) true = negb (Rltb 0 (ft_rotation a t))) by (rewrite looks_left_eq; reflexivity).
  pose proof (neighbour_obs p a t (negb (Rltb 0 (ft_rotation a t))) i Hi) as E. unfold obs in E. rewrite Eg in E.
  rewrite LL. destruct (neighbour_edge p a t (negb (Rltb 0 (ft_rotation a t))) i); [discriminate | reflexivity].
Qed.

(** The light from one part of the surroundings that the fast mode multiplies by the factor
    to that part. *)
Definition light_of (i : irr_inputs) (f : irr_fitted) (rf : R) (t : nat) (q : seen_part) : R :=
  match q with
  | GroundShaded => ii_albedo i t * cat_perez f (CGround true) t
  | GroundLit => ii_albedo i t * cat_perez f (CGround false) t
  | RowShaded => rf * cat_perez f (CRow 0 false true) t
  | RowLit => rf * cat_perez f (CRow 0 false false) t
  | TheSky => irr_sky_luminance f t
  | _ => 0
  end.

(** The published values made of such products, and the parts each is about. *)
Definition averaged (key : string) : list seen_part :=
  if String.eqb key "isotropic" then [TheSky]
  else if String.eqb key "reflection_gnd_shaded" then [GroundShaded]
  else if String.eqb key "reflection_gnd_illum" then [GroundLit]
  else if String.eqb key "reflection_pvrow_shaded" then [RowShaded]
  else if String.eqb key "reflection_pvrow_illum" then [RowLit]
  else [GroundShaded; GroundLit; RowShaded; RowLit].

Definition averaged_keys : list string :=
  ["isotropic"; "reflection_gnd_shaded"; "reflection_gnd_illum"; "reflection_pvrow_shaded"; "reflection_pvrow_illum"; "reflection"]%string.

Lemma run_value : forall P e0 raw i a f r sg e1 e' k s t v rf key,
  fast_run P e0 raw i a f r sg e1 e' -> chosen e0 a r sg k s -> fast_factors a k (s_coords s) t = Some v ->
  im_rho_front (en_irr e0) = Some rf -> In key averaged_keys ->
  value_at (pv_store (en_array e')) s key t (rsum (map (fun q => factor q v * light_of i f rf t q) (averaged key))).
Proof.
  intros P e0 raw i a f r sg e1 e' k s t v rf key H C Hv Rf Hk.
  destruct (C25_fast_qinc P e0 raw i a f r sg e1 e' k s t H C) as (w & _ & Ew & X).
  destruct (chosen_value _ _ _ _ _ _ _ _ _ _ H) as (rf' & rb & FE & EI & S & _ & _).
  pose proof (categories_inhabited _ _ _ _ (fe_valid _ _ _ _ _ _ _ FE) (fe_fit _ _ _ _ _ _ _ FE)) as CI.
  assert (N0 : (0 < pa_n_pvrows (pv_params (en_array e1)))%nat) by apply (fe_valid _ _ _ _ _ _ _ FE).
  assert (NP : ~ In "total_perez"%string run_keys) by (cbn; intuition discriminate).
  assert (PZ : forall y c, in_category a y c -> value_at (pv_store (en_array e')) y "total_perez" t (cat_perez f c t)).
  { intros y c Cy. apply (value_back e1 e' y _ t _ S NP). exists (cat_perez f c). split; [exact (key_perez _ _ _ _ _ _ _ FE y c Cy) | reflexivity]. }
  destruct (CI (CGround true) Logic.I) as [y1 K1]. destruct (CI (CGround false) Logic.I) as [y2 K2].
  destruct (CI (CRow 0 false true) N0) as [y3 K3]. destruct (CI (CRow 0 false false) N0) as [y4 K4].
  assert (Hw : w t = Some v) by (rewrite Ew; exact Hv).
  destruct (X v rf y1 y2 y3 y4 _ _ _ _ _ _ Hw Rf K1 (PZ _ _ K1) K2 (PZ _ _ K2) K3 (PZ _ _ K3) K4 (PZ _ _ K4)) as (src & _ & _ & V0 & V1 & V2 & V3 & V4 & V5 & _).
  cbn [averaged_keys In] in Hk.
  destruct Hk as [<- | [<- | [<- | [<- | [<- | [<- | []]]]]]]; cbn [averaged String.eqb Ascii.eqb Bool.eqb map rsum factor light_of];
    (eapply value_eq; [eassumption | cbn [averaged String.eqb Ascii.eqb Bool.eqb map rsum factor light_of]; ring]).
Qed.

Lemma rsum_swap : forall (A B : Type) (g : A -> B -> R) l m,
  rsum (map (fun x => rsum (map (fun y => g x y) m)) l) = rsum (map (fun y => rsum (map (fun x => g x y) l)) m).
Proof.
  intros A B g l m. induction m as [|y m IH]; cbn [map rsum].
  - apply rsum_map_zero. reflexivity.
  - rewrite <- IH, <- rsum_map_plus. reflexivity.
Qed.

(** The average over the back of the chosen row, from the factors of the uncut back. *)
Lemma run_average : forall P e0 raw i a f r sg e1 e' k row t v rf key (x : ts_surface -> R),
  fast_run P e0 raw i a f r sg e1 e' -> physical e0 i a t -> ground_ahead (pv_params (en_array e0)) a t k ->
  nth_error (ft_rows a) k = Some row -> DISTANCE_TOLERANCE < pa_width (pv_params (en_array e0)) ->
  (forall s, In s (side_surfaces (row_back row)) -> chosen e0 a r sg k s /\ no_sliver_length DISTANCE_TOLERANCE (s_length s t) /\
     value_at (pv_store (en_array e')) s key t (x s)) ->
  fast_factors a k (row_coords row) t = Some v -> im_rho_front (en_irr e0) = Some rf -> In key averaged_keys ->
  sum_over (side_surfaces (row_back row)) (fun s => s_length s t * x s) =
  pa_width (pv_params (en_array e0)) * rsum (map (fun q => factor q v * light_of i f rf t q) (averaged key)).
Proof.
  intros P e0 raw i a f r sg e1 e' k row t v rf key x H [al SC] GA Hr Hw HS Hv Rf Hk.
  set (vs := fun s : ts_surface => match fast_factors a k (s_coords s) t with Some u => u | None => v end).
  assert (VS : forall s, fast_factors a k (s_coords s) t = Some (vs s)).
  { intro s. unfold vs. destruct (factors_exist a k (row_coords row) (s_coords s) t v Hv) as [u ->]. reflexivity. }
  pose proof (fun q => C83_surfaces _ _ _ a t al k row vs v q SC Hr GA (fun s I => conj (proj1 (proj2 (HS s I))) (VS s)) Hw Hv) as AV.
  rewrite sum_over_rsum.
  rewrite (rsum_map_ext _ _ (fun s => rsum (map (fun q => (s_length s t * factor q (vs s)) * light_of i f rf t q) (averaged key)))).
  2:{ intros s Is. destruct (HS s Is) as (C & _ & Vx).
      rewrite (value_unique _ _ _ _ _ _ Vx (run_value _ _ _ _ _ _ _ _ _ _ _ _ _ _ _ key H C (VS s) Rf Hk)).
      rewrite <- rsum_map_scal. apply rsum_map_ext. intros q _. ring. }
  rewrite rsum_swap, <- rsum_map_scal. apply rsum_map_ext. intros q _.
  rewrite (rsum_map_ext _ _ (fun s => light_of i f rf t q * (s_length s t * factor q (vs s)))) by (intros; ring).
  rewrite rsum_map_scal, <- sum_over_rsum, (AV q). ring.
Qed.

(** C83: the light that the back of a row receives in fast mode, from the sky and by reflection,
    does not depend on how the rows of the array are cut. *)
Theorem C83_runs : forall P e0 e0' raw i i' a a' f f' r r' sg sg' e1 e1' e' e'' k row row' t key (x x' : ts_surface -> R),
  fast_run P e0 raw i a f r sg e1 e' -> fast_run P e0' raw i' a' f' r' sg' e1' e'' ->
  differ_in_cut (pv_params (en_array e0)) (pv_params (en_array e0')) -> en_irr e0' = en_irr e0 ->
  physical e0 i a t -> ground_ahead (pv_params (en_array e0)) a t k -> DISTANCE_TOLERANCE < pa_width (pv_params (en_array e0)) ->
  nth_error (ft_rows a) k = Some row -> nth_error (ft_rows a') k = Some row' ->
  In key ["isotropic"; "reflection_gnd_shaded"; "reflection_gnd_illum"; "reflection_pvrow_shaded"; "reflection_pvrow_illum"; "reflection"]%string ->
  (forall s, In s (side_surfaces (row_back row)) -> chosen e0 a r sg k s /\ no_sliver_length DISTANCE_TOLERANCE (s_length s t) /\
     value_at (pv_store (en_array e')) s key t (x s)) ->
  (forall s, In s (side_surfaces (row_back row')) -> chosen e0' a' r' sg' k s /\ no_sliver_length DISTANCE_TOLERANCE (s_length s t) /\
     value_at (pv_store (en_array e'')) s key t (x' s)) ->
  sum_over (side_surfaces (row_back row')) (fun s => s_length s t * x' s) =
  sum_over (side_surfaces (row_back row)) (fun s => s_length s t * x s).
Proof.
  intros P e0 e0' raw i i' a a' f f' r r' sg sg' e1 e1' e' e'' k row row' t key x x' H H' D EI PH GA Hw Hr Hr' Hk HS HS'.
  assert (Ei : i' = i) by (destruct H as (_ & A & _); destruct H' as (_ & A' & _); congruence). subst i'.
  destruct (fast_run_inv _ _ _ _ _ _ _ _ _ _ H) as (rf & rb & _ & _ & FE & EI1 & _ & Rf & EP & _).
  destruct (fast_run_inv _ _ _ _ _ _ _ _ _ _ H') as (rf' & rb' & _ & _ & FE' & EI1' & _ & Rf' & EP' & _).
  assert (f' = f).
  { pose proof (fe_irr _ _ _ _ _ _ _ FE) as A. pose proof (fe_irr _ _ _ _ _ _ _ FE') as A'. rewrite EI1 in A. rewrite EI1', EI in A'. congruence. }
  subst f'. assert (rf' = rf) by congruence. subst rf'.
  set (p := pv_params (en_array e0)) in *. set (p' := pv_params (en_array e0')) in *.
  pose proof (fe_valid _ _ _ _ _ _ _ FE) as V. rewrite EP in V. pose proof (fe_valid _ _ _ _ _ _ _ FE') as V'. rewrite EP' in V'.
  pose proof (fe_fit _ _ _ _ _ _ _ FE) as Fi. rewrite EP in Fi. pose proof (fe_fit _ _ _ _ _ _ _ FE') as Fi'. rewrite EP' in Fi'.
  destruct PH as [al SC]. fold p in SC. pose proof SC as (_ & _ & SA & NS & HR & HG & HF).
  pose proof (row_lt p _ _ a Fi _ _ Hr) as Hi.
  destruct (row_factors_exist _ _ _ a t al k row SC Hr GA Hw) as [v Hv].
  assert (ER : ft_rotation a' = ft_rotation a).
  { destruct (fit_spec _ _ _ _ Fi) as (_ & E & _). destruct (fit_spec _ _ _ _ Fi') as (_ & E' & _). rewrite E, E'. destruct D as [cut ->]. reflexivity. }
  assert (EG : ft_ground a' = ft_ground a).
  { destruct (fit_spec _ _ _ _ Fi) as (_ & _ & _ & Erow & E). destruct (fit_spec _ _ _ _ Fi') as (_ & _ & _ & Erow' & E').
    rewrite Erow in E. rewrite Erow' in E'. destruct D as [cut D]. rewrite D in E'. rewrite !fit_rows_eq, !map_map in *.
    apply (f_equal (fun o => match o with Some g => g | None => ft_ground a end)) in E, E'. cbv beta iota in E, E'.
    rewrite <- E, <- E'. reflexivity. }
  assert (SC' : scene p' (ii_n i) (sun_up (FitInputs (ii_zenith i) (ii_solar_azimuth i) (ii_tilt i) (ii_azimuth i))) a' t al).
  { unfold scene. rewrite ER. split; [exact V'|]. split; [rewrite fit_sun_up; exact Fi'|]. destruct D as [cut ->]. exact (conj SA (conj NS (conj HR (conj HG HF)))). }
  assert (GA' : ground_ahead p' a' t k).
  { unfold ground_ahead, neighbour_edge, cut_in_view in GA |- *. rewrite ER, EG. destruct D as [cut ->]. exact GA. }
  assert (Hw' : pa_width p' = pa_width p) by (destruct D as [cut ->]; reflexivity).
  assert (RC : row_coords row' = row_coords row).
  { destruct (fit_rows_nth_error _ _ _ _ _ _ Fi Hr) as [_ ->]. destruct (fit_rows_nth_error _ _ _ _ _ _ Fi' Hr') as [_ ->].
    destruct D as [cut ->]. reflexivity. }
  assert (Hv' : fast_factors a' k (row_coords row') t = Some v).
  { rewrite RC, <- Hv. exact (C83_cut_free p p' _ _ _ a a' k (row_coords row) t D V V' Fi Fi' HR Hi). }
  rewrite (run_average _ _ _ _ _ _ _ _ _ _ _ _ _ v rf key x H (ex_intro _ al SC) GA Hr Hw HS Hv Rf Hk).
  rewrite (run_average _ _ _ _ _ _ _ _ _ _ _ _ _ v rf key x' H' (ex_intro _ al SC') GA' Hr'
    (eq_ind_r (fun z => DISTANCE_TOLERANCE < z) Hw Hw') HS' Hv' Rf' Hk).
  fold p p'. rewrite Hw'. reflexivity.
Qed.
Print Assumptions C83_runs.

(** Sums over a side of a value that only depends on whether the surface is shaded. *)
Lemma side_split : forall p n f a t i row b (x : ts_surface -> R) c1 c2,
  valid_params p -> fit p n f = Some a -> -180 < ft_rotation a t < 180 -> nth_error (ft_rows a) i = Some row ->
  (forall seg s, In seg (side_segments (side_of b row)) -> In s (seg_shaded seg) -> x s = c1) ->
  (forall seg s, In seg (side_segments (side_of b row)) -> In s (seg_illum seg) -> x s = c2) ->
  sum_over (side_surfaces (side_of b row)) (fun s => s_length s t * x s) =
  side_shaded_length (side_of b row) t * c1 + (pa_width p - side_shaded_length (side_of b row) t) * c2.
Proof.
  intros p n f a t i row b x c1 c2 V Fi HR Hr H1 H2. rewrite sum_over_rsum.
  assert (W : rsum (map (fun s => s_length s t) (side_surfaces (side_of b row))) = pa_width p).
  { rewrite (rsum_map_ext _ _ (fun s => distance (Lp p a t i) (s_highest s t) - distance (Lp p a t i) (s_lowest s t))).
    - rewrite (surface_telescope p n f a t V Fi HR i row b (distance (Lp p a t i)) Hr). rewrite dist_self, along by (destruct V; lra). ring.
    - intros s Hs. destruct (surface_spans p n f a t V Fi HR i row b s Hr Hs) as (lo & hi & B1 & B2 & B3 & B4 & B5 & _).
      rewrite B3, B4, B5, !along by lra. reflexivity. }
  unfold side_shaded_length, side_surfaces in *. set (segs := side_segments (side_of b row)) in *.
  rewrite rsum_flat_map in W |- *. rewrite py_sum_rsum.
  assert (A : rsum (map (fun g => rsum (map (fun s => s_length s t * x s) (seg_surfaces g))) segs) =
     rsum (map (fun g => coll_length (seg_shaded g) t) segs) * c1 +
     (rsum (map (fun g => rsum (map (fun s => s_length s t) (seg_surfaces g))) segs) - rsum (map (fun g => coll_length (seg_shaded g) t) segs)) * c2).
  { assert (K : forall l, (forall g, In g l -> In g segs) ->
       rsum (map (fun g => rsum (map (fun s => s_length s t * x s) (seg_surfaces g))) l) =
       rsum (map (fun g => coll_length (seg_shaded g) t) l) * c1 +
       (rsum (map (fun g => rsum (map (fun s => s_length s t) (seg_surfaces g))) l) - rsum (map (fun g => coll_length (seg_shaded g) t) l)) * c2).
    { induction l as [|g l IH]; intro I; cbn [map rsum]; [ring|]. rewrite IH by (intros; apply I; right; assumption).
      unfold seg_surfaces at 1 3. rewrite !map_app, !rsum_app. replace (coll_length (seg_shaded g) t) with (rsum (map (fun s => s_length s t) (seg_shaded g))) by (unfold coll_length; rewrite py_sum_rsum; reflexivity).
      rewrite (rsum_map_ext _ (fun s => s_length s t * x s) (fun s => c2 * s_length s t) (seg_illum g)) by (intros s Is; rewrite (H2 g s (I g (or_introl eq_refl)) Is); ring).
      rewrite (rsum_map_ext _ (fun s => s_length s t * x s) (fun s => c1 * s_length s t) (seg_shaded g)) by (intros s Is; rewrite (H1 g s (I g (or_introl eq_refl)) Is); ring).
      rewrite !rsum_map_scal. ring. }
    apply K. auto. }
  rewrite A, W. reflexivity.
Qed.

(** C83: the direct and the circumsolar light on a side do not depend on the cuts either. *)
Theorem C83_sources : forall P e0 e0' raw i i' a a' f f' r r' sg sg' e1 e1' e' e'' k row row' t (b : bool) key (x x' : ts_surface -> R),
  fast_run P e0 raw i a f r sg e1 e' -> fast_run P e0' raw i' a' f' r' sg' e1' e'' ->
  differ_in_cut (pv_params (en_array e0)) (pv_params (en_array e0')) -> en_irr e0' = en_irr e0 ->
  -180 < ft_rotation a t < 180 ->
  nth_error (ft_rows a) k = Some row -> nth_error (ft_rows a') k = Some row' ->
  key = "direct"%string \/ (key = "circumsolar"%string /\ im_kind (en_irr e0) = HybridPerezOrdered) ->
  let side (y : ts_pvrow) := if b then row_back y else row_front y in
  (forall s, In s (side_surfaces (side row)) -> value_at (pv_store (en_array e')) s key t (x s)) ->
  (forall s, In s (side_surfaces (side row')) -> value_at (pv_store (en_array e'')) s key t (x' s)) ->
  sum_over (side_surfaces (side row')) (fun s => s_length s t * x' s) =
  sum_over (side_surfaces (side row)) (fun s => s_length s t * x s).
Proof.
  intros P e0 e0' raw i i' a a' f f' r r' sg sg' e1 e1' e' e'' k row row' t b key x x' H H' D EI HR Hr Hr' Hk side HS HS'.
  change side with (side_of b) in *. clear side.
  assert (Ei : i' = i) by (destruct H as (_ & A & _); destruct H' as (_ & A' & _); congruence). subst i'.
  destruct (fast_run_inv _ _ _ _ _ _ _ _ _ _ H) as (rf & rb & _ & _ & FE & EI1 & S & _ & EP & _).
  destruct (fast_run_inv _ _ _ _ _ _ _ _ _ _ H') as (rf' & rb' & _ & _ & FE' & EI1' & S' & _ & EP' & _).
  assert (f' = f).
  { pose proof (fe_irr _ _ _ _ _ _ _ FE) as A. pose proof (fe_irr _ _ _ _ _ _ _ FE') as A'. rewrite EI1 in A. rewrite EI1', EI in A'. congruence. }
  subst f'.
  set (p := pv_params (en_array e0)) in *. set (p' := pv_params (en_array e0')) in *.
  pose proof (fe_valid _ _ _ _ _ _ _ FE) as V. rewrite EP in V. pose proof (fe_valid _ _ _ _ _ _ _ FE') as V'. rewrite EP' in V'.
  pose proof (fe_fit _ _ _ _ _ _ _ FE) as Fi. rewrite EP in Fi. pose proof (fe_fit _ _ _ _ _ _ _ FE') as Fi'. rewrite EP' in Fi'.
  assert (NK : ~ In key run_keys) by (destruct Hk as [-> | [-> _]]; cbn; intuition discriminate).
  assert (VAL : exists c : bool -> R, forall e e2 a0 rf rb s sh z, fitted_engine P e i a0 f rf rb -> en_irr e = en_irr e0 -> same_fit e e2 ->
     in_category a0 s (CRow k b sh) -> value_at (pv_store (en_array e2)) s key t z -> z = c sh).
  { destruct Hk as [-> | [-> HY]].
    - exists (fun sh => cat_of (if_direct f) (CRow k b sh) t). intros e e2 a0 rf0 rb0 s sh z F0 _ S0 C0 V0.
      apply (value_back e e2 s _ t z S0 NK) in V0. destruct V0 as (w & E & <-).
      rewrite (key_direct _ _ _ _ _ _ _ F0 s _ C0) in E. inversion E. reflexivity.
    - exists (fun sh => cat_of (if_circumsolar f) (CRow k b sh) t). intros e e2 a0 rf0 rb0 s sh z F0 E0 S0 C0 V0.
      apply (value_back e e2 s _ t z S0 NK) in V0. destruct V0 as (w & E & <-).
      rewrite (key_circ _ _ _ _ _ _ _ F0 ltac:(rewrite E0; exact HY) s _ C0) in E. inversion E. reflexivity. }
  destruct VAL as [c VAL].
  assert (ER : ft_rotation a' = ft_rotation a).
  { destruct (fit_spec _ _ _ _ Fi) as (_ & E & _). destruct (fit_spec _ _ _ _ Fi') as (_ & E' & _). rewrite E, E'. destruct D as [cut ->]. reflexivity. }
  assert (SUB : forall r0 g s, In g (side_segments (side_of b r0)) -> In s (seg_illum g) \/ In s (seg_shaded g) -> In s (side_surfaces (side_of b r0))).
  { intros r0 g s I1 I2. unfold side_surfaces. apply in_flat_map. exists g. split; [exact I1|]. apply in_or_app. exact I2. }
  rewrite (side_split p _ _ a t k row b x (c true) (c false) V Fi HR Hr).
  2:{ intros g s I1 I2. apply (VAL _ _ _ _ _ s true _ FE EI1 S); [exists row, g; auto | apply HS; eauto]. }
  2:{ intros g s I1 I2. apply (VAL _ _ _ _ _ s false _ FE EI1 S); [exists row, g; auto | apply HS; eauto]. }
  rewrite (side_split p' _ _ a' t k row' b x' (c true) (c false) V' Fi' ltac:(rewrite ER; exact HR) Hr').
  2:{ intros g s I1 I2. apply (VAL _ _ _ _ _ s true _ FE' ltac:(congruence) S'); [exists row', g; auto | apply HS'; eauto]. }
  2:{ intros g s I1 I2. apply (VAL _ _ _ _ _ s false _ FE' ltac:(congruence) S'); [exists row', g; auto | apply HS'; eauto]. }
  assert (EW : pa_width p' = pa_width p) by (destruct D as [cut ->]; reflexivity).
  assert (SL : side_shaded_length (side_of b row') t = side_shaded_length (side_of b row) t).
  { destruct (fit_rows_nth_error _ _ _ _ _ _ Fi Hr) as [_ ->]. destruct (fit_rows_nth_error _ _ _ _ _ _ Fi' Hr') as [_ ->].
    destruct (fit_spec _ _ _ _ Fi) as (_ & E & _). rewrite E in HR.
    rewrite <- (cut_shaded_length p p' (fit_of i) k t b D V V' HR). destruct D as [cut ->]. reflexivity. }
  rewrite SL, EW. reflexivity.
Qed.
Print Assumptions C83_sources.

(** C83: with the isotropic model all the light on the back is the same, however it is cut. *)
Theorem C83_isotropic : forall P e0 e0' raw i i' a a' f f' r r' sg sg' e1 e1' e' e'' k row row' t (x x' : ts_surface -> R),
  fast_run P e0 raw i a f r sg e1 e' -> fast_run P e0' raw i' a' f' r' sg' e1' e'' ->
  differ_in_cut (pv_params (en_array e0)) (pv_params (en_array e0')) -> en_irr e0' = en_irr e0 -> im_kind (en_irr e0) = IsotropicOrdered ->
  physical e0 i a t -> ground_ahead (pv_params (en_array e0)) a t k -> DISTANCE_TOLERANCE < pa_width (pv_params (en_array e0)) ->
  nth_error (ft_rows a) k = Some row -> nth_error (ft_rows a') k = Some row' ->
  (forall s, In s (side_surfaces (row_back row)) -> chosen e0 a r sg k s /\ no_sliver_length DISTANCE_TOLERANCE (s_length s t) /\
     value_at (pv_store (en_array e')) s "qinc" t (x s)) ->
  (forall s, In s (side_surfaces (row_back row')) -> chosen e0' a' r' sg' k s /\ no_sliver_length DISTANCE_TOLERANCE (s_length s t) /\
     value_at (pv_store (en_array e'')) s "qinc" t (x' s)) ->
  sum_over (side_surfaces (row_back row')) (fun s => s_length s t * x' s) =
  sum_over (side_surfaces (row_back row)) (fun s => s_length s t * x s).
Proof.
  intros P e0 e0' raw i i' a a' f f' r r' sg sg' e1 e1' e' e'' k row row' t x x' H H' D EI IK PH GA Hw Hr Hr' HS HS'.
  assert (PARTS : forall Pv E0 RAW I0 A0 F0 R0 SG E1 E2 s v z, fast_run Pv E0 RAW I0 A0 F0 R0 SG E1 E2 -> chosen E0 A0 R0 SG k s ->
     im_kind (en_irr E0) = IsotropicOrdered -> fast_factors A0 k (s_coords s) t = Some v -> value_at (pv_store (en_array E2)) s "qinc" t z ->
     exists y1 y2 y3, value_at (pv_store (en_array E2)) s "isotropic" t y1 /\ value_at (pv_store (en_array E2)) s "reflection" t y2 /\
       value_at (pv_store (en_array E2)) s "direct" t y3 /\ z = y1 + y2 + y3).
  { clear. intros P e0 raw i a f r sg e1 e' s v z H C IK Hv Q.
    destruct (C25_fast_qinc P e0 raw i a f r sg e1 e' k s t H C) as (w & _ & Ew & X).
    destruct (chosen_value _ _ _ _ _ _ _ _ _ _ H) as (rf & rb & FE & EI & S & Rf & _).
    pose proof (categories_inhabited _ _ _ _ (fe_valid _ _ _ _ _ _ _ FE) (fe_fit _ _ _ _ _ _ _ FE)) as CI.
    assert (N0 : (0 < pa_n_pvrows (pv_params (en_array e1)))%nat) by apply (fe_valid _ _ _ _ _ _ _ FE).
    assert (NP : ~ In "total_perez"%string run_keys) by (cbn; intuition discriminate).
    assert (PZ : forall y c, in_category a y c -> value_at (pv_store (en_array e')) y "total_perez" t (cat_perez f c t)).
    { intros y c Cy. apply (value_back e1 e' y _ t _ S NP). exists (cat_perez f c). split; [exact (key_perez _ _ _ _ _ _ _ FE y c Cy) | reflexivity]. }
    destruct (CI (CGround true) Logic.I) as [y1 K1]. destruct (CI (CGround false) Logic.I) as [y2 K2].
    destruct (CI (CRow 0 false true) N0) as [y3 K3]. destruct (CI (CRow 0 false false) N0) as [y4 K4].
    assert (Hw : w t = Some v) by (rewrite Ew; exact Hv).
    destruct (X v rf y1 y2 y3 y4 _ _ _ _ _ _ Hw Rf K1 (PZ _ _ K1) K2 (PZ _ _ K2) K3 (PZ _ _ K3) K4 (PZ _ _ K4)) as (src & LS & Q' & V0 & _ & _ & _ & _ & V5 & _).
    rewrite IK in LS. cbn [light_sources] in LS. do 3 eexists. split; [exact V5|]. split; [exact V0|]. split; [exact LS|].
    rewrite (value_unique _ _ _ _ _ _ Q Q'). ring. }
  destruct PH as [al SC]. pose proof SC as (V & Fi & SA & NS & HR & HG & HF). rewrite fit_sun_up in Fi.
  destruct (row_factors_exist _ _ _ a t al k row SC Hr GA Hw) as [v Hv].
  destruct (fast_run_inv _ _ _ _ _ _ _ _ _ _ H) as (rf & rb & _ & _ & FE & _ & _ & _ & EP & _).
  destruct (fast_run_inv _ _ _ _ _ _ _ _ _ _ H') as (rf' & rb' & _ & _ & FE' & _ & _ & _ & EP' & _).
  assert (Ei : i' = i) by (destruct H as (_ & A & _); destruct H' as (_ & A' & _); congruence). subst i'.
  pose proof (fe_valid _ _ _ _ _ _ _ FE') as V'. rewrite EP' in V'. pose proof (fe_fit _ _ _ _ _ _ _ FE') as Fi'. rewrite EP' in Fi'.
  assert (Hv' : exists v', fast_factors a' k (row_coords row) t = Some v').
  { exists v. rewrite <- Hv. exact (C83_cut_free _ _ _ _ _ a a' k (row_coords row) t D V V' Fi Fi' HR (row_lt _ _ _ a Fi _ _ Hr)). }
  destruct Hv' as [v' Hv'].
  assert (PICK : forall (st : pstore) l key (Q : ts_surface -> R -> Prop), (forall s, In s l -> exists y, value_at st s key t y /\ Q s y) ->
     exists y : ts_surface -> R, forall s, In s l -> value_at st s key t (y s)).
  { intros st l key Q E. exists (fun s => match get_param st s key with Ok (PArr w) => w t | _ => 0 end).
    intros s Is. destruct (E s Is) as (y & (w & G & <-) & _). exists w. rewrite G. split; reflexivity. }
  assert (SPLIT : forall Pv E0 RAW I0 A0 F0 R0 SG E1 E2 l (u : R) (z : ts_surface -> R) el u0, fast_run Pv E0 RAW I0 A0 F0 R0 SG E1 E2 ->
     im_kind (en_irr E0) = IsotropicOrdered -> fast_factors A0 k el t = Some u0 ->
     (forall s, In s l -> chosen E0 A0 R0 SG k s /\ no_sliver_length DISTANCE_TOLERANCE (s_length s t) /\ value_at (pv_store (en_array E2)) s "qinc" t (z s)) ->
     exists y1 y2 y3 : ts_surface -> R, forall s, In s l ->
       value_at (pv_store (en_array E2)) s "isotropic" t (y1 s) /\ value_at (pv_store (en_array E2)) s "reflection" t (y2 s) /\
       value_at (pv_store (en_array E2)) s "direct" t (y3 s) /\ z s = y1 s + y2 s + y3 s).
  { clear - PARTS PICK. intros P e0 raw i a f r sg e1 e' l u z el u0 H IK Hu HS.
    assert (E : forall s, In s l -> exists y1 y2 y3, value_at (pv_store (en_array e')) s "isotropic" t y1 /\ value_at (pv_store (en_array e')) s "reflection" t y2 /\
       value_at (pv_store (en_array e')) s "direct" t y3 /\ z s = y1 + y2 + y3).
    { intros s Is. destruct (HS s Is) as (C & _ & Q). destruct (factors_exist a k el (s_coords s) t u0 Hu) as [w Hw]. exact (PARTS _ _ _ _ _ _ _ _ _ _ s w _ H C IK Hw Q). }
    destruct (PICK (pv_store (en_array e')) l "isotropic"%string (fun _ _ => True)) as [y1 Y1]; [intros s Is; destruct (E s Is) as (q1 & q2 & q3 & A & _); eauto|].
    destruct (PICK (pv_store (en_array e')) l "reflection"%string (fun _ _ => True)) as [y2 Y2]; [intros s Is; destruct (E s Is) as (q1 & q2 & q3 & _ & A & _); eauto|].
    destruct (PICK (pv_store (en_array e')) l "direct"%string (fun _ _ => True)) as [y3 Y3]; [intros s Is; destruct (E s Is) as (q1 & q2 & q3 & _ & _ & A & _); eauto|].
    exists y1, y2, y3. intros s Is. repeat (split; [auto|]). destruct (E s Is) as (q1 & q2 & q3 & A1 & A2 & A3 & ->).
    rewrite (value_unique _ _ _ _ _ _ A1 (Y1 s Is)), (value_unique _ _ _ _ _ _ A2 (Y2 s Is)), (value_unique _ _ _ _ _ _ A3 (Y3 s Is)). reflexivity. }
  destruct (SPLIT _ _ _ _ _ _ _ _ _ _ (side_surfaces (row_back row)) 0 x (row_coords row) v H IK Hv HS) as (y1 & y2 & y3 & Y).
  destruct (SPLIT _ _ _ _ _ _ _ _ _ _ (side_surfaces (row_back row')) 0 x' (row_coords row) v' H' ltac:(rewrite EI; exact IK) Hv' HS') as (z1 & z2 & z3 & Z).
  assert (SUM : forall l (z q1 q2 q3 : ts_surface -> R), (forall s, In s l -> z s = q1 s + q2 s + q3 s) ->
     sum_over l (fun s => s_length s t * z s) = sum_over l (fun s => s_length s t * q1 s) + sum_over l (fun s => s_length s t * q2 s) + sum_over l (fun s => s_length s t * q3 s)).
  { intros l z q1 q2 q3 E. rewrite !sum_over_rsum, <- !rsum_map_plus. apply rsum_map_ext. intros s Is. rewrite (E s Is). ring. }
  rewrite (SUM _ x y1 y2 y3) by (intros s Is; apply (Y s Is)). rewrite (SUM _ x' z1 z2 z3) by (intros s Is; apply (Z s Is)).
  f_equal; [f_equal|].
  - apply (C83_runs P e0 e0' raw i i a a' f f' r r' sg sg' e1 e1' e' e'' k row row' t "isotropic" y1 z1 H H' D EI (ex_intro _ al SC) GA Hw Hr Hr');
      [cbn; tauto | intros s Is; destruct (HS s Is) as (A & B & _); destruct (Y s Is) as (C & _); auto | intros s Is; destruct (HS' s Is) as (A & B & _); destruct (Z s Is) as (C & _); auto].
  - apply (C83_runs P e0 e0' raw i i a a' f f' r r' sg sg' e1 e1' e' e'' k row row' t "reflection" y2 z2 H H' D EI (ex_intro _ al SC) GA Hw Hr Hr');
      [cbn; tauto | intros s Is; destruct (HS s Is) as (A & B & _); destruct (Y s Is) as (_ & C & _); auto | intros s Is; destruct (HS' s Is) as (A & B & _); destruct (Z s Is) as (_ & C & _); auto].
  - apply (C83_sources P e0 e0' raw i i a a' f f' r r' sg sg' e1 e1' e' e'' k row row' t true "direct" y3 z3 H H' D EI HR Hr Hr' (or_introl eq_refl));
      [intros s Is; apply (Y s Is) | intros s Is; apply (Z s Is)].
Qed.
Print Assumptions C83_isotropic.

(* ----------------------------------------------------------------------- example *)

(** The example array, whose row 1 has a back in two segments, and the same without cuts. *)
Definition ux_p : pvarray_params := PVArrayParams 0 (2 / 3) 3 2 3 (fun _ _ => 1%nat).
Definition ux_engine (k : irr_kind) : engine := engine_init (pvarray_init ux_p []) None (Some (ex_model k)) None None.

Lemma ux_valid : valid_params ux_p.
Proof. unfold valid_params, ux_p; simpl. split; [lra|]. split; [lra|]. split; [lia|]. intros; lia. Qed.

Lemma ux_no_slivers : forall a row s, fit ux_p 2 ex_f = Some a -> nth_error (ft_rows a) 1 = Some row ->
  In s (side_surfaces (row_back row)) -> no_sliver_length DISTANCE_TOLERANCE (s_length s 1%nat).
Proof.
  intros a row s Ha Hrow Hs. destruct fx_fit as [a0 Ha0].
  assert (R1 : ft_rotation a 1%nat = -60) by (destruct (fit_spec _ _ _ _ Ha) as [_ [Er _]]; rewrite Er; exact ex_rot1).
  assert (H1 : -180 < ft_rotation a 1%nat < 180) by (rewrite R1; lra).
  assert (H2 : ft_rotation a 1%nat <> 0) by (rewrite R1; lra).
  pose proof (fx_rot a0 Ha0) as R0.
  assert (Hrow0 : exists row0, nth_error (ft_rows a0) 1 = Some row0).
  { destruct (nth_error (ft_rows a0) 1) eqn:E; [eauto|]. exfalso. apply nth_error_None in E.
    rewrite (rows_length fx_p 2 ex_f a0 Ha0) in E. change (pa_n_pvrows fx_p) with 3%nat in E. lia. }
  destruct Hrow0 as [row0 Hrow0].
  assert (SH : side_shaded_length (row_back row) 1%nat = 0 \/ side_shaded_length (row_back row) 1%nat = 1 / 2).
  { destruct (fit_shaded_lengths_eq ux_p 2 ex_f a 1 1 row ux_valid Ha H1 H2 Hrow) as [_ ->].
    pose proof (fx_shaded a0 Ha0 1%nat row0 true Hrow0) as X. cbn [side_of] in X.
    destruct (fit_shaded_lengths_eq fx_p 2 ex_f a0 1 1 row0 fx_valid Ha0 ltac:(rewrite R0; lra) ltac:(rewrite R0; lra) Hrow0) as [_ E].
    rewrite E in X. exact X. }
  pose proof tol_small as T. assert (T1 : DISTANCE_TOLERANCE < 1 / 1000) by (unfold DISTANCE_TOLERANCE; lra).
  unfold side_surfaces in Hs. apply in_flat_map in Hs. destruct Hs as [sg [Hsg Hb]]. apply In_nth_error in Hsg. destruct Hsg as [k Hk].
  destruct (C06_side_partition ux_p 2 ex_f a 1 1 row true ux_valid Ha H1 Hrow) as [N [_ SP]]. cbv beta iota in N, SP.
  destruct (SP k sg Hk) as [il [sh [lo [hi [m [E1 [E2 [_ [_ [L0 [Lm [Lh [Lw [Ll [_ [RB _]]]]]]]]]]]]]]]].
  destruct (RB ltac:(rewrite R1; lra)) as [Esh [Eil Em]].
  assert (Len : s_length s 1%nat = m - lo \/ s_length s 1%nat = hi - m).
  { unfold seg_surfaces in Hb. rewrite E1, E2 in Hb. cbn [app In] in Hb. destruct Hb as [<- | [<- | []]].
    - right. unfold s_length. rewrite Eil. apply low_point_dist. lra.
    - left. unfold s_length. rewrite Esh. apply low_point_dist. lra. }
  assert (K : (k < 1)%nat) by (change (pa_cut ux_p 1 true) with 1%nat in N; rewrite <- N; apply nth_error_Some; congruence).
  assert (k = 0%nat) by lia. subst k. rewrite R1 in Ll. destruct (Rlt_dec 0 (-60)); [lra|].
  cbn [pa_cut ux_p pa_width INR] in Lw, Ll.
  unfold no_sliver_length. destruct SH as [Z | Z]; rewrite Z in Em; revert Em; minmax; intro; lra.
Qed.

(** Fast mode of row 1 for the two arrays: the hypotheses of [C83_runs]. *)
Lemma cut_run : forall P p kd, valid_params p ->
  let e0 := engine_init (pvarray_init p []) None (Some (ex_model kd)) None None in
  (1 < pa_n_pvrows p)%nat ->
  exists i a f e e', fast_run P e0 ex_raw i a f (Some 1%nat) None e e' /\ fit p 2 ex_f = Some a /\
    forall row s, nth_error (ft_rows a) 1 = Some row -> In s (side_surfaces (row_back row)) -> chosen e0 a (Some 1%nat) None 1 s.
Proof.
  intros P p kd V e0 N.
  assert (EF : exists e, engine_fit P e0 ex_raw = Ok e).
  { apply C50_fit_succeeds; [exact V|]. split; [exact ex_raw_shaped|]. cbn. repeat split; discriminate. }
  destruct EF as [e Fi]. destruct (engine_fit_fitted P e0 ex_raw e V Fi) as (i & a & f & rf & rb & Hi & FE).
  assert (RF : exists e', run_fast_mode e (Some 1%nat) None = Ok e').
  { apply (C25_succeeds P e0 ex_raw e [] e (Some 1%nat) None V Fi eq_refl eq_refl). exists 1%nat. split; [reflexivity|]. split; [exact N | exact Logic.I]. }
  destruct RF as [e' RF]. pose proof (run_fast_same_fit _ _ _ _ RF) as S.
  exists i, a, f, e, e'. split; [|split].
  - split; [exact V|]. split; [exact Hi|]. split; [exists e, []; auto|]. rewrite (sf_fitted _ _ S), (sf_irr_fitted _ _ S).
    split; [exact (fe_array _ _ _ _ _ _ _ FE) | exact (fe_irr_fitted _ _ _ _ _ _ _ FE)].
  - pose proof (fe_fit _ _ _ _ _ _ _ FE) as F. unfold fit_of in F.
    rewrite (proj1 (ProofRun.engine_fit_params _ _ _ _ Fi)) in F. inversion Hi; subst i. exact F.
  - intros row s Hr Hs. split; [reflexivity|]. unfold side_surfaces in Hs. apply in_flat_map in Hs. destruct Hs as (sg & I1 & I2).
    exists row, sg. split; [exact Hr|]. split; [apply in_app_or; exact I2 | exact I1].
Qed.

Example C83_example : forall P kd, exists i a a' f f' e1 e1' e' e'' row row' (x x' : ts_surface -> R),
  let e0 := fx_engine kd in let e0' := ux_engine kd in
  fast_run P e0 ex_raw i a f (Some 1%nat) None e1 e' /\ fast_run P e0' ex_raw i a' f' (Some 1%nat) None e1' e'' /\
  differ_in_cut (pv_params (en_array e0)) (pv_params (en_array e0')) /\ en_irr e0' = en_irr e0 /\
  physical e0 i a 1 /\ ground_ahead (pv_params (en_array e0)) a 1 1 /\ DISTANCE_TOLERANCE < pa_width (pv_params (en_array e0)) /\
  nth_error (ft_rows a) 1 = Some row /\ nth_error (ft_rows a') 1 = Some row' /\
  List.length (side_segments (row_back row)) = 2%nat /\ List.length (side_segments (row_back row')) = 1%nat /\
  (forall s, In s (side_surfaces (row_back row)) -> chosen e0 a (Some 1%nat) None 1 s /\ no_sliver_length DISTANCE_TOLERANCE (s_length s 1%nat) /\
     value_at (pv_store (en_array e')) s "reflection" 1 (x s)) /\
  (forall s, In s (side_surfaces (row_back row')) -> chosen e0' a' (Some 1%nat) None 1 s /\ no_sliver_length DISTANCE_TOLERANCE (s_length s 1%nat) /\
     value_at (pv_store (en_array e'')) s "reflection" 1 (x' s)) /\
  sum_over (side_surfaces (row_back row')) (fun s => s_length s 1%nat * x' s) =
  sum_over (side_surfaces (row_back row)) (fun s => s_length s 1%nat * x s).
Proof.
  intros P kd.
  destruct (cut_run P fx_p kd fx_valid ltac:(cbn; lia)) as (i & a & f & e1 & e' & H & F & C). fold (fx_engine kd) in H, C.
  destruct (cut_run P ux_p kd ux_valid ltac:(cbn; lia)) as (i' & a' & f' & e1' & e'' & H' & F' & C'). fold (ux_engine kd) in H', C'.
  assert (i' = i) by (destruct H as (_ & A & _); destruct H' as (_ & A' & _); congruence). subst i'.
  assert (R1 : exists row, nth_error (ft_rows a) 1 = Some row).
  { destruct (nth_error (ft_rows a) 1) eqn:E; [eauto|]. exfalso. apply nth_error_None in E.
    rewrite (rows_length fx_p 2 ex_f a F) in E. change (pa_n_pvrows fx_p) with 3%nat in E. lia. }
  assert (R2 : exists row, nth_error (ft_rows a') 1 = Some row).
  { destruct (nth_error (ft_rows a') 1) eqn:E; [eauto|]. exfalso. apply nth_error_None in E.
    rewrite (rows_length ux_p 2 ex_f a' F') in E. change (pa_n_pvrows ux_p) with 3%nat in E. lia. }
  destruct R1 as [row Hr]. destruct R2 as [row' Hr'].
  pose proof (fx_scene a F) as SC. pose proof SC as (_ & _ & _ & _ & HR & _).
  assert (PH : physical (fx_engine kd) i a 1).
  { apply (physical_day _ _ _ _ (PI / 6)). destruct H as (_ & Hi & _). inversion Hi; subst i. exact SC. }
  assert (D : differ_in_cut (pv_params (en_array (fx_engine kd))) (pv_params (en_array (ux_engine kd)))) by (exists (fun _ _ => 1%nat); reflexivity).
  assert (Hw : DISTANCE_TOLERANCE < pa_width (pv_params (en_array (fx_engine kd)))).
  { change (pa_width (pv_params (en_array (fx_engine kd)))) with 2. unfold DISTANCE_TOLERANCE. lra. }
  assert (GA : ground_ahead (pv_params (en_array (fx_engine kd))) a 1 1).
  { unfold ground_ahead. cbv zeta. rewrite (fx_rot a F). unfold looks_left. destruct (Rlt_dec 0 (-60)); [lra|]. discriminate. }
  assert (GA' : ground_ahead (pv_params (en_array (ux_engine kd))) a' 1 1).
  { assert (Er : ft_rotation a' 1%nat = -60) by (destruct (fit_spec _ _ _ _ F') as [_ [Er _]]; rewrite Er; exact ex_rot1).
    unfold ground_ahead. cbv zeta. rewrite Er. unfold looks_left. destruct (Rlt_dec 0 (-60)); [lra|]. discriminate. }
  destruct (row_factors_exist fx_p 2 ex_f a 1 (PI / 6) 1 row SC Hr GA Hw) as [v Hv].
  assert (Er : ft_rotation a 1%nat = -60) by exact (fx_rot a F).
  assert (HR' : -180 < ft_rotation a' 1%nat < 180).
  { destruct (fit_spec _ _ _ _ F') as [_ [Er' _]]. rewrite Er'. change (-180 < fit_rotation ex_p ex_f 1%nat < 180). rewrite ex_rot1. lra. }
  assert (RC : row_coords row' = row_coords row).
  { destruct (fit_rows_nth_error _ _ _ _ _ _ F Hr) as [_ ->]. destruct (fit_rows_nth_error _ _ _ _ _ _ F' Hr') as [_ ->]. reflexivity. }
  assert (Hv' : fast_factors a' 1 (row_coords row') 1 = Some v).
  { rewrite RC, <- Hv. exact (C83_cut_free fx_p ux_p 2 2 ex_f a a' 1 (row_coords row) 1 D fx_valid ux_valid F F' HR ltac:(cbn; lia)). }
  destruct (fast_run_inv _ _ _ _ _ _ _ _ _ _ H) as (rf & rb & _ & _ & _ & _ & _ & Rf & _);
    destruct (fast_run_inv _ _ _ _ _ _ _ _ _ _ H') as (rf' & rb' & _ & _ & _ & _ & _ & Rf' & _).
  set (u := fun (b : fitted) s => match fast_factors b 1 (s_coords s) 1 with Some u => u | None => v end);
    assert (U : forall s, fast_factors a 1 (s_coords s) 1 = Some (u a s)) by (intro s; unfold u; destruct (factors_exist a 1 (row_coords row) (s_coords s) 1 v Hv) as [z ->]; reflexivity);
    assert (U' : forall s, fast_factors a' 1 (s_coords s) 1 = Some (u a' s)) by (intro s; unfold u; destruct (factors_exist a' 1 (row_coords row') (s_coords s) 1 v Hv') as [z ->]; reflexivity).
  exists i, a, a', f, f', e1, e1', e', e'', row, row',
    (fun s => rsum (map (fun q => factor q (u a s) * light_of i f rf 1 q) (averaged "reflection"))),
    (fun s => rsum (map (fun q => factor q (u a' s) * light_of i f' rf' 1 q) (averaged "reflection"))).
  assert (IN : In "reflection"%string averaged_keys) by (cbn; tauto).
  assert (HS : forall s, In s (side_surfaces (row_back row)) -> chosen (fx_engine kd) a (Some 1%nat) None 1 s /\ no_sliver_length DISTANCE_TOLERANCE (s_length s 1%nat) /\
     value_at (pv_store (en_array e')) s "reflection" 1 (rsum (map (fun q => factor q (u a s) * light_of i f rf 1 q) (averaged "reflection")))) by
    (intros s Is; split; [exact (C row s Hr Is)|]; split; [apply (fx_no_slivers a F); exact (in_all_row a 1 row true s Hr Is)|];
      exact (run_value _ _ _ _ _ _ _ _ _ _ _ _ _ _ _ "reflection" H (C row s Hr Is) (U s) Rf IN));
    assert (HS' : forall s, In s (side_surfaces (row_back row')) -> chosen (ux_engine kd) a' (Some 1%nat) None 1 s /\ no_sliver_length DISTANCE_TOLERANCE (s_length s 1%nat) /\
     value_at (pv_store (en_array e'')) s "reflection" 1 (rsum (map (fun q => factor q (u a' s) * light_of i f' rf' 1 q) (averaged "reflection")))) by
    (intros s Is; split; [exact (C' row' s Hr' Is)|]; split; [exact (ux_no_slivers a' row' s F' Hr' Is)|];
      exact (run_value _ _ _ _ _ _ _ _ _ _ _ _ _ _ _ "reflection" H' (C' row' s Hr' Is) (U' s) Rf' IN)).
  cbv zeta; split; [exact H|]; split; [exact H'|]; split; [exact D|]; split; [reflexivity|]; split; [exact PH|]; split; [exact GA|];
    split; [exact Hw|]; split; [exact Hr|]; split; [exact Hr'|].
  split; [exact (proj1 (C06_side_partition fx_p 2 ex_f a 1 1 row true fx_valid F HR Hr))|];
    split; [apply (C06_side_partition ux_p 2 ex_f a' 1 1 row' true ux_valid F' HR' Hr')|];
    split; [exact HS|]; split; [exact HS'|].
  refine (C83_runs P (fx_engine kd) (ux_engine kd) ex_raw i i a a' f f' _ _ _ _ e1 e1' e' e'' 1 row row' 1 "reflection" _ _ H H' D eq_refl PH GA Hw Hr Hr' _ HS HS'); cbn; tauto.
Qed.
