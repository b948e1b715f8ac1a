(** Properties of the fast mode view factors: statements, with examples that meet the
    hypotheses. Proofs are in ProofVF.v and ProofFast.v. *)
From Coq Require Import Reals List Bool Arith Lra Lia Permutation.
From Verif Require Import Num ModelTs ModelGeom ModelVF Basics SpecGeom SpecVF ProofGround ProofShade ProofRow ProofAngles ProofFit ProofCut ProofIndex ProofGeom ProofGeom2 PropGeom ProofString ProofMatrix ProofTele ProofVF ProofVF2 PropVF ProofEnds ProofFast.
Import ListNotations.
Open Scope R_scope.

(** Fast mode view factors [v] of the segment [sg] of the back of row [i], in an array
    where no surface is shorter than the tolerance without being empty. *)
Definition fast_case (p : pvarray_params) (n : nat) (f : fit_inputs) (a : fitted) (t : nat) (al : R)
    (i : nat) (row : ts_pvrow) (sg : ts_segment) (v : fast_vf) : Prop :=
  scene p n f a t al /\ (t < n)%nat /\
  (forall s, In s (all_ts_surfaces a) -> no_sliver_length DISTANCE_TOLERANCE (s_length s t)) /\
  nth_error (ft_rows a) i = Some row /\ In sg (side_segments (row_back row)) /\
  DISTANCE_TOLERANCE < line_length (seg_coords sg t) /\
  get_vf_ts_pvrow_element i (seg_coords sg) (ft_rows a) (ft_ground a) (ft_rotation a) (ft_width a) t = Some v.

(** C17. The factors to each shadow, to all shadows, to the other rows and to their
    shaded parts, times the length of the segment, are the sums of the full mode
    factors of the surfaces of the segment weighted by their lengths. *)
Theorem C17_shadows_and_rows : forall p n f a t al i row sg v,
  fast_case p n f a t al i row sg v ->
  let len := line_length (seg_coords sg t) in
  let full := full_mode a t (seg_surfaces sg) in
  length (to_each_gnd_shadow v) = length (gnd_shadows (ft_ground a)) /\
  (forall k e x, nth_error (gnd_shadows (ft_ground a)) k = Some e -> nth_error (to_each_gnd_shadow v) k = Some x ->
     len * x = full (el_surfaces e)) /\
  len * to_gnd_shaded v = full (flat_map el_surfaces (gnd_shadows (ft_ground a))) /\
  len * to_pvrow_total v = full (flat_map (fun r => side_surfaces (row_front r)) (ft_rows a)) /\
  len * to_pvrow_shaded v = full (flat_map (fun r => flat_map seg_shaded (side_segments (row_front r))) (ft_rows a)).
Proof.
  intros p n f a t al i row sg v ((V & Fi & SA & NS & HR & HG & HF) & Ht & NSl & Hr & Hs & Hl & Hv).
  exact (part_shadows_rows p n f a t al V Fi SA NS HR HG HF Ht i row Hr (seg_coords sg) (seg_surfaces sg) (segment_part p n f a t V Fi HR i row Hr sg Hs Hl) NSl v Hv).
Qed.
Print Assumptions C17_shadows_and_rows.

(** Total ground and sky, for a row with a neighbour on the side its back looks at.
    [o] is the lower edge of this neighbour, [P] and [Q] the lower and the upper end of
    the segment; its line meets the ground at [x], inside the modelled ground. The
    fast mode value exceeds the full mode sum by half of the difference between the
    strings from the far end of the ground and the strings from [o]. *)
Theorem C17_ground_gap : forall p n f a t al i row sg v o P Q x,
  fast_case p n f a t al i row sg v ->
  let left := looks_left (ft_rotation a t) true in
  let far := Pt (if left then -100 else 100) 0 in
  let len := line_length (seg_coords sg t) in
  neighbour_edge p a t left i = Some o ->
  (seg_coords sg t = Line P Q \/ seg_coords sg t = Line Q P) -> py P <= py Q ->
  turn (Pt x 0) P Q = 0 -> -100 <= x <= 100 ->
  let gap := (taut_string left (Some o) Q far - taut_string left (Some o) P far - (euclid o Q - euclid o P)) / 2 in
  0 <= gap /\
  len * to_gnd_total v = full_mode a t (seg_surfaces sg) (gnd_surfaces (ft_ground a)) + gap /\
  len * to_sky v = full_mode_sky a t (seg_surfaces sg) - gap.
Proof.
  intros p n f a t al i row sg v o P Q x ((V & Fi & SA & NS & HR & HG & HF) & Ht & NSl & Hr & Hs & Hl & Hv) left far len Ho HPQ Hy Hx Bx gap.
  pose proof (part_gap p n f a t al V Fi SA NS HR HG HF Ht i row Hr (seg_coords sg) (seg_surfaces sg) (segment_part p n f a t V Fi HR i row Hr sg Hs Hl) NSl v Hv o P Q x Ho HPQ Hy Hx Bx) as G.
  destruct (interior_edge p n f a t Fi i row Hr (seg_coords sg) (seg_surfaces sg) (segment_part p n f a t V Fi HR i row Hr sg Hs Hl) v Hv o Ho) as [Eg _].
  destruct (part_interior_le p n f a t al V Fi SA NS HR HG HF Ht i row Hr (seg_coords sg) (seg_surfaces sg) (segment_part p n f a t V Fi HR i row Hr sg Hs Hl) NSl v Hv Eg) as [I1 I2].
  fold left far in G. fold len in G, I1, I2. fold gap in G. split; [lra |]. split; lra.
Qed.
Print Assumptions C17_ground_gap.

(** They agree when the neighbour hides the far end of the modelled ground from the
    lower end of the segment, i.e. the visible ground ends inside the modelled one. *)
Theorem C17_ground : forall p n f a t al i row sg v o P Q x,
  fast_case p n f a t al i row sg v ->
  let left := looks_left (ft_rotation a t) true in
  let far := Pt (if left then -100 else 100) 0 in
  let len := line_length (seg_coords sg t) in
  neighbour_edge p a t left i = Some o ->
  (seg_coords sg t = Line P Q \/ seg_coords sg t = Line Q P) -> py P <= py Q ->
  turn (Pt x 0) P Q = 0 -> -100 <= x <= 100 ->
  0 <= (if left then turn far o P else turn far P o) ->
  len * to_gnd_total v = full_mode a t (seg_surfaces sg) (gnd_surfaces (ft_ground a)) /\
  len * to_sky v = full_mode_sky a t (seg_surfaces sg).
Proof.
  intros p n f a t al i row sg v o P Q x ((V & Fi & SA & NS & HR & HG & HF) & Ht & NSl & Hr & Hs & Hl & Hv) left far len Ho HPQ Hy Hx Bx Hh.
  pose proof (part_tail_zero p n f a t al V Fi SA NS HR HG HF Ht i row Hr (seg_coords sg) (seg_surfaces sg) (segment_part p n f a t V Fi HR i row Hr sg Hs Hl) NSl v Hv o P Q x Ho HPQ Hy Hx Bx Hh) as G.
  destruct (interior_edge p n f a t Fi i row Hr (seg_coords sg) (seg_surfaces sg) (segment_part p n f a t V Fi HR i row Hr sg Hs Hl) v Hv o Ho) as [Eg _].
  destruct (part_interior_le p n f a t al V Fi SA NS HR HG HF Ht i row Hr (seg_coords sg) (seg_surfaces sg) (segment_part p n f a t V Fi HR i row Hr sg Hs Hl) NSl v Hv Eg) as [I1 I2].
  fold len in G, I1, I2. split; [exact G | lra].
Qed.
Print Assumptions C17_ground.

(** In particular they disagree for the segment that starts at the lower edge of the
    row (hence for a side that is not cut into segments): whatever the size of the
    modelled ground, this edge sees the horizon. *)
Theorem C17_lowest_segment_refuted : forall p n f a t al i row sg v o P Q x,
  fast_case p n f a t al i row sg v ->
  let left := looks_left (ft_rotation a t) true in
  let far := Pt (if left then -100 else 100) 0 in
  let len := line_length (seg_coords sg t) in
  neighbour_edge p a t left i = Some o ->
  (seg_coords sg t = Line P Q \/ seg_coords sg t = Line Q P) -> py P <= py Q ->
  turn (Pt x 0) P Q = 0 -> -100 <= x <= 100 ->
  P = point_from_low_edge (pa_width p) (pa_distance p) (pa_height p) (ft_rotation a t) i 0 ->
  0 <= (if left then turn far o Q else turn far Q o) ->
  full_mode a t (seg_surfaces sg) (gnd_surfaces (ft_ground a)) < len * to_gnd_total v.
Proof.
  intros p n f a t al i row sg v o P Q x ((V & Fi & SA & NS & HR & HG & HF) & Ht & NSl & Hr & Hs & Hl & Hv) left far len Ho HPQ Hy Hx Bx HP Hh.
  exact (part_tail_low p n f a t al V Fi SA NS HR HG HF Ht i row Hr (seg_coords sg) (seg_surfaces sg) (segment_part p n f a t V Fi HR i row Hr sg Hs Hl) NSl v Hv o P Q x Ho HPQ Hy Hx Bx HP Hh).
Qed.
Print Assumptions C17_lowest_segment_refuted.

(** The published cut point of row [i] is not beyond the far end of the ground. *)
Definition cut_in_view (a : fitted) (t i : nat) (left : bool) : Prop :=
  exists cut, nth_error (gnd_cut_points (ft_ground a)) i = Some cut /\
    if left then xle (XFin (-100)) (cut t) else xle (cut t) (XFin 100).

Lemma cut_in_view_reached : forall a t i, cut_in_view a t i (looks_left (ft_rotation a t) true) -> cut_reached a t i.
Proof.
  intros a t i [cut [Hc H]]. unfold cut_reached, cutp. rewrite (nth_error_nth _ _ _ Hc).
  rewrite looks_left_eq in H. change (xorb true (Rltb 0 (ft_rotation a t))) with (negb (Rltb 0 (ft_rotation a t))) in H. exact H.
Qed.

(** A row without a neighbour on the side its back looks at. *)
Theorem C17_edge_row : forall p n f a t al i row sg v,
  fast_case p n f a t al i row sg v ->
  let left := looks_left (ft_rotation a t) true in
  let len := line_length (seg_coords sg t) in
  neighbour_edge p a t left i = None -> cut_in_view a t i left ->
  len * to_gnd_total v = full_mode a t (seg_surfaces sg) (gnd_surfaces (ft_ground a)) /\
  len * to_sky v = full_mode_sky a t (seg_surfaces sg).
Proof.
  intros p n f a t al i row sg v ((V & Fi & SA & NS & HR & HG & HF) & Ht & NSl & Hr & Hs & Hl & Hv) left len Ho Hc.
  assert (Hi : (i < pa_n_pvrows p)%nat) by (apply (row_lt p n f a Fi _ _ Hr)).
  assert (Eg : is_edge p left i = true).
  { pose proof (neighbour_obs p a t left i Hi) as E. rewrite Ho in E. cbn [option_map] in E. unfold obs in E.
    destruct (is_edge p left i); [reflexivity | discriminate]. }
  exact (part_edge p n f a t al V Fi SA NS HR HG HF Ht i row Hr (seg_coords sg) (seg_surfaces sg) (segment_part p n f a t V Fi HR i row Hr sg Hs Hl) NSl v Hv Eg (cut_in_view_reached a t i Hc)).
Qed.
Print Assumptions C17_edge_row.

(** Whether the ground seen from a part [c] of the back of row [i] ends inside the modelled
    ground (the conditions of C17_ground and C17_edge_row). *)
Definition ground_in_reach (p : pvarray_params) (a : fitted) (t i : nat) (c : line) : Prop :=
  let left := looks_left (ft_rotation a t) true in
  let far := Pt (if left then -100 else 100) 0 in
  match neighbour_edge p a t left i with
  | None => cut_in_view a t i left
  | Some o => exists P Q x, (c = Line P Q \/ c = Line Q P) /\ py P <= py Q /\
      turn (Pt x 0) P Q = 0 /\ -100 <= x <= 100 /\ 0 <= (if left then turn far o P else turn far P o)
  end.

(** The same surface by surface: the factors that fast mode gives to a surface of the back of a
    row are the sums of its full mode factors. *)
Theorem C17_surface : forall p n f a t al i row s v,
  scene p n f a t al -> (t < n)%nat ->
  (forall y, In y (all_ts_surfaces a) -> no_sliver_length DISTANCE_TOLERANCE (s_length y t)) ->
  nth_error (ft_rows a) i = Some row -> In s (side_surfaces (row_back row)) ->
  DISTANCE_TOLERANCE < s_length s t ->
  get_vf_ts_pvrow_element i (s_coords s) (ft_rows a) (ft_ground a) (ft_rotation a) (ft_width a) t = Some v ->
  let to ys := sum_over ys (fun y => build_vf_matrix a t (surf_index a s) (surf_index a y)) in
  to_gnd_shaded v = to (flat_map el_surfaces (gnd_shadows (ft_ground a))) /\
  to_pvrow_shaded v = to (flat_map (fun r => flat_map seg_shaded (side_segments (row_front r))) (ft_rows a)) /\
  to_pvrow_illum v = to (flat_map (fun r => flat_map seg_illum (side_segments (row_front r))) (ft_rows a)) /\
  (ground_in_reach p a t i (s_coords s t) ->
   to_gnd_illum v = to (flat_map el_surfaces (gnd_illum (ft_ground a))) /\
   to_sky v = build_vf_matrix a t (surf_index a s) (n_ts_surfaces a)).
Proof.
  intros p n f a t al i row s v (V & Fi & SA & NS & HR & HG & HF) Ht NSl Hr Hs Hl Hv to.
  pose proof (surface_part p n f a t V Fi HR i row Hr s Hs Hl) as SP.
  pose proof DISTANCE_TOLERANCE_pos as T0.
  destruct (part_shadows_rows p n f a t al V Fi SA NS HR HG HF Ht i row Hr (s_coords s) [s] SP NSl v Hv) as (_ & _ & A1 & A2 & A3).
  assert (E : to_gnd_total v = to_gnd_shaded v + to_gnd_illum v /\ to_pvrow_total v = to_pvrow_shaded v + to_pvrow_illum v).
  { clear - Hv. revert Hv. unfold get_vf_ts_pvrow_element. cbv zeta.
    destruct (calculate_vf_to_gnd _ _ _ _ _ _ _ _); [| discriminate]. intro H.
    apply (f_equal (fun o => match o with Some x => x | None => v end)) in H. cbv beta iota in H. rewrite <- H.
    cbn [to_each_gnd_shadow to_gnd_shaded to_gnd_illum to_gnd_total to_pvrow_total to_pvrow_shaded to_pvrow_illum to_sky].
    split; ring. }
  destruct E as [E1 E2].
  assert (FM : forall ys, full_mode a t [s] ys = s_length s t * to ys).
  { intro ys. unfold full_mode, to. rewrite !sum_over_rsum. cbn [map rsum fold_right]. rewrite sum_over_rsum. ring. }
  assert (FS : full_mode_sky a t [s] = s_length s t * build_vf_matrix a t (surf_index a s) (n_ts_surfaces a)).
  { unfold full_mode_sky. rewrite !sum_over_rsum. cbn [map rsum fold_right]. ring. }
  change (line_length (s_coords s t)) with (s_length s t) in *. rewrite FM in A1, A2, A3.
  assert (D : forall x y, s_length s t * x = s_length s t * y -> x = y) by (intros x y H; apply Rmult_eq_reg_l in H; [exact H | lra]).
  apply D in A1, A2, A3.
  assert (TA : forall xs ys, to (xs ++ ys) = to xs + to ys) by (intros; unfold to; rewrite !sum_over_rsum, map_app, rsum_app; reflexivity).
  assert (TI : to (flat_map (fun r => side_surfaces (row_front r)) (ft_rows a)) =
    to (flat_map (fun r => flat_map seg_shaded (side_segments (row_front r))) (ft_rows a)) +
    to (flat_map (fun r => flat_map seg_illum (side_segments (row_front r))) (ft_rows a))).
  { generalize (ft_rows a). intro l. induction l as [|r l IH]; cbn [flat_map]; [unfold to; rewrite !sum_over_rsum; cbn; ring|].
    rewrite !TA, IH. assert (K : to (side_surfaces (row_front r)) = to (flat_map seg_shaded (side_segments (row_front r))) + to (flat_map seg_illum (side_segments (row_front r)))).
    { unfold side_surfaces. generalize (side_segments (row_front r)). intro m. induction m as [|g m IHm]; cbn [flat_map]; [unfold to; rewrite !sum_over_rsum; cbn; ring|].
      rewrite !TA, IHm. unfold seg_surfaces. rewrite !TA. ring. }
    rewrite K. ring. }
  split; [exact A1|]. split; [exact A3|]. split; [lra|]. intro GR.
  assert (G : s_length s t * to_gnd_total v = s_length s t * to (gnd_surfaces (ft_ground a)) /\
              s_length s t * to_sky v = s_length s t * build_vf_matrix a t (surf_index a s) (n_ts_surfaces a)).
  { rewrite <- FM, <- FS. unfold ground_in_reach in GR. cbv zeta in GR.
    assert (Hi : (i < pa_n_pvrows p)%nat) by (apply (row_lt p n f a Fi _ _ Hr)).
    destruct (neighbour_edge p a t (looks_left (ft_rotation a t) true) i) as [o|] eqn:Ho.
    - destruct GR as (P & Q & x & HPQ & Hy & Hx & Bx & Hh).
      pose proof (part_tail_zero p n f a t al V Fi SA NS HR HG HF Ht i row Hr (s_coords s) [s] SP NSl v Hv o P Q x Ho HPQ Hy Hx Bx Hh) as G.
      destruct (interior_edge p n f a t Fi i row Hr (s_coords s) [s] SP v Hv o Ho) as [Eg _].
      destruct (part_interior_le p n f a t al V Fi SA NS HR HG HF Ht i row Hr (s_coords s) [s] SP NSl v Hv Eg) as [I1 I2].
      change (line_length (s_coords s t)) with (s_length s t) in *. split; [exact G | lra].
    - assert (Eg : is_edge p (looks_left (ft_rotation a t) true) i = true).
      { pose proof (neighbour_obs p a t (looks_left (ft_rotation a t) true) i Hi) as E. rewrite Ho in E. cbn [option_map] in E. unfold obs in E.
        destruct (is_edge p (looks_left (ft_rotation a t) true) i); [reflexivity | discriminate]. }
      exact (part_edge p n f a t al V Fi SA NS HR HG HF Ht i row Hr (s_coords s) [s] SP NSl v Hv Eg (cut_in_view_reached a t i GR)). }
  destruct G as [G1 G2]. apply D in G1, G2. unfold gnd_surfaces in G1. rewrite TA in G1. split; [lra | exact G2].
Qed.
Print Assumptions C17_surface.

(** C18. Whatever the row and the shading, all the factors are fractions that add up. *)
Theorem C18_closed_set : forall p n f a t al i row sg v,
  scene p n f a t al ->
  nth_error (ft_rows a) i = Some row -> In sg (side_segments (row_back row)) ->
  DISTANCE_TOLERANCE < line_length (seg_coords sg t) ->
  get_vf_ts_pvrow_element i (seg_coords sg) (ft_rows a) (ft_ground a) (ft_rotation a) (ft_width a) t = Some v ->
  to_gnd_total v = to_gnd_shaded v + to_gnd_illum v /\
  to_pvrow_total v = to_pvrow_shaded v + to_pvrow_illum v /\
  to_sky v + to_gnd_total v + to_pvrow_total v = 1 /\
  to_gnd_shaded v = sum_over (to_each_gnd_shadow v) (fun x => x) /\
  (forall x, In x (to_each_gnd_shadow v ++ [to_gnd_shaded v; to_gnd_illum v; to_gnd_total v;
                   to_pvrow_shaded v; to_pvrow_illum v; to_pvrow_total v; to_sky v]) -> 0 <= x <= 1).
Proof.
  intros p n f a t al i row sg v (V & Fi & SA & NS & HR & HG & HF) Hr Hs Hl Hv.
  destruct (part_bounds p n f a t al V Fi SA NS HR HG HF i row Hr (seg_coords sg) (seg_surfaces sg) (segment_part p n f a t V Fi HR i row Hr sg Hs Hl) v Hv) as [B0 [B1 [B2 [B3 [B4 [B5 [B6 B7]]]]]]].
  assert (E : to_gnd_total v = to_gnd_shaded v + to_gnd_illum v /\ to_pvrow_total v = to_pvrow_shaded v + to_pvrow_illum v /\
     to_sky v + to_gnd_total v + to_pvrow_total v = 1 /\ to_gnd_shaded v = sum_over (to_each_gnd_shadow v) (fun x => x)).
  { revert Hv. unfold get_vf_ts_pvrow_element. cbv zeta.
    destruct (calculate_vf_to_gnd _ _ _ _ _ _ _ _); [| discriminate]. intro H.
    apply (f_equal (fun o => match o with Some x => x | None => v end)) in H. cbv beta iota in H. rewrite <- H.
    cbn [to_each_gnd_shadow to_gnd_shaded to_gnd_illum to_gnd_total to_pvrow_total to_pvrow_shaded to_pvrow_illum to_sky].
    rewrite py_sum_rsum, sum_over_rsum, map_id. repeat split; lra. }
  destruct E as [E1 [E2 [E3 E4]]]. split; [exact E1 |]. split; [exact E2 |]. split; [exact E3 |]. split; [exact E4 |].
  intros x Hx. apply in_app_or in Hx. destruct Hx as [Hx | Hx].
  - split; [apply B0; exact Hx |]. assert (x <= to_gnd_shaded v); [| lra].
    rewrite E4, sum_over_rsum, map_id. apply rsum_in_le; auto.
  - cbn [In] in Hx. destruct Hx as [<- | [<- | [<- | [<- | [<- | [<- | [<- | []]]]]]]]; lra.
Qed.
Print Assumptions C18_closed_set.

(** The factors are defined (no infinite ground edge) for every row with a neighbour on
    the side its back looks at, and for every other row whose cut point is in view. *)
Theorem C18_defined : forall p n f a t al i row sg,
  scene p n f a t al ->
  nth_error (ft_rows a) i = Some row -> In sg (side_segments (row_back row)) ->
  DISTANCE_TOLERANCE < line_length (seg_coords sg t) ->
  let left := looks_left (ft_rotation a t) true in
  (neighbour_edge p a t left i = None -> cut_in_view a t i left) ->
  exists v, get_vf_ts_pvrow_element i (seg_coords sg) (ft_rows a) (ft_ground a) (ft_rotation a) (ft_width a) t = Some v.
Proof.
  intros p n f a t al i row sg (V & Fi & SA & NS & HR & HG & HF) Hr Hs Hl left Hc.
  assert (Hi : (i < pa_n_pvrows p)%nat) by (apply (row_lt p n f a Fi _ _ Hr)).
  apply (part_defined p n f a t al V Fi SA NS HR HG HF i row Hr (seg_coords sg) (seg_surfaces sg) (segment_part p n f a t V Fi HR i row Hr sg Hs Hl)). intro Eg. apply cut_in_view_reached. apply Hc.
  pose proof (neighbour_obs p a t left i Hi) as E. unfold left in E. unfold obs in E. rewrite Eg in E. fold left in E.
  destruct (neighbour_edge p a t left i); [discriminate | reflexivity].
Qed.
Print Assumptions C18_defined.

(* ------------------------------------------------------------------------ *)
(** The example array of PropGeom.v with the back of row 1 cut into two segments. *)
Definition fx_p : pvarray_params :=
  PVArrayParams 0 (2 / 3) 3 2 3 (fun i b => if andb (Nat.eqb i 1) b then 2%nat else 1%nat).

Lemma fx_valid : valid_params fx_p.
Proof.
  unfold valid_params, fx_p; simpl. split; [lra |]. split; [lra |]. split; [lia |].
  intros. destruct (Nat.eqb i 1 && b); lia.
Qed.

Lemma fx_fit : exists a, fit fx_p 2 ex_f = Some a.
Proof. apply fit_total. simpl. lia. Qed.

Section Example17.
Variable a : fitted.
Hypothesis Ha : fit fx_p 2 ex_f = Some a.

Lemma fx_rot : ft_rotation a 1%nat = -60.
Proof. destruct (fit_spec _ _ _ _ Ha) as [_ [Er _]]. rewrite Er. exact ex_rot1. Qed.

Lemma fx_scene : scene fx_p 2 ex_f a 1 (PI / 6).
Proof.
  split; [apply fx_valid |]. split; [exact Ha |]. split; [exact ex_sun1 |].
  destruct (fit_spec _ _ _ _ Ha) as [_ [Er _]]. split; [rewrite Er; exact ex_nosliver1 |].
  rewrite fx_rot. split; [lra |]. split; [| intro; lra].
  assert (Rabs (sin (-60 * PI / 180)) <= 1) by (apply Rabs_le; apply SIN_bound).
  change (2 / 2 * Rabs (sin (-60 * PI / 180)) < 3). lra.
Qed.

Lemma sqrt3 : 1.732 < sqrt 3 < 1.7321.
Proof.
  split.
  - rewrite <- (sqrt_Rsqr 1.732) by lra. apply sqrt_lt_1; unfold Rsqr; lra.
  - rewrite <- (sqrt_Rsqr 1.7321) by lra. apply sqrt_lt_1; unfold Rsqr; lra.
Qed.

Lemma rr60 : rr (-60) = - (PI / 3).
Proof. unfold rr, deg2rad. field. Qed.

Lemma fx_breakpoint : forall x, breakpoint fx_p (-60) (PI / 6) x ->
  exists k s, x = k + s * sqrt 3 /\
    In (k, s) [(-100, 0); (100, 0); (-2, -3); (2, -3); (1, -3); (5, -3); (4, -3); (8, -3); (0, 1); (3, 1); (6, 1)].
Proof.
  intros x Hx. pose proof sqrt3 as S3. assert (SS : sqrt 3 * sqrt 3 = 3) by (apply sqrt_sqrt; lra).
  assert (D3 : pa_distance fx_p = 3) by (unfold pa_distance, fx_p; simpl; field).
  assert (M : mid_shadow (pa_height fx_p) (PI / 6) = -3 * sqrt 3).
  { unfold mid_shadow. rewrite sin_PI6, cos_PI6. change (pa_height fx_p) with 3. field. }
  assert (Hf : half_shadow (pa_width fx_p) (-60) (PI / 6) = 2).
  { unfold half_shadow. rewrite rr60, sin_PI6. replace (PI / 6 - - (PI / 3)) with (PI / 2) by field.
    rewrite sin_PI2, Rabs_R1. change (pa_width fx_p) with 2. field. }
  assert (C : pa_height fx_p * cos (rr (-60)) / sin (rr (-60)) = - sqrt 3).
  { rewrite rr60, sin_neg, cos_neg, sin_PI3, cos_PI3. change (pa_height fx_p) with 3.
    apply (Rmult_eq_reg_r (sqrt 3)); [| lra]. transitivity (-3); [field; lra | lra]. }
  assert (Cl : forall y, -100 <= y <= 100 -> clip_gnd y = y).
  { intros y Hy. unfold clip_gnd. minmax; lra. }
  unfold breakpoint in Hx. rewrite D3, M, Hf, C in Hx. change (pa_n_pvrows fx_p) with 3%nat in Hx.
  destruct Hx as [E | [E | [j [Hj Hx]]]].
  - exists (-100), 0. split; [lra | cbn [In]; auto].
  - exists 100, 0. split; [lra | cbn [In]; auto].
  - destruct j as [| [| [| j]]]; [| | | lia]; cbn [INR] in Hx; destruct Hx as [E | [E | E]]; rewrite Cl in E by lra.
    + exists (-2), (-3). split; [lra | cbn [In]; auto 20].
    + exists 2, (-3). split; [lra | cbn [In]; auto 20].
    + exists 0, 1. split; [lra | cbn [In]; auto 20].
    + exists 1, (-3). split; [lra | cbn [In]; auto 20].
    + exists 5, (-3). split; [lra | cbn [In]; auto 20].
    + exists 3, 1. split; [lra | cbn [In]; auto 20].
    + exists 4, (-3). split; [lra | cbn [In]; auto 20].
    + exists 8, (-3). split; [lra | cbn [In]; auto 20].
    + exists 6, 1. split; [lra | cbn [In]; auto 20].
Qed.

Lemma fx_shaded : forall i row b, nth_error (ft_rows a) i = Some row ->
  side_shaded_length (side_of b row) 1%nat = 0 \/ side_shaded_length (side_of b row) 1%nat = 1 / 2.
Proof.
  intros i row b Hrow. destruct (fit_spec _ _ _ _ Ha) as [_ [Er _]]. pose proof fx_rot as R1.
  assert (H1 : -180 < ft_rotation a 1%nat < 180) by (rewrite R1; lra).
  assert (H2 : ft_rotation a 1%nat <> 0) by (rewrite R1; lra).
  pose proof (row_lt fx_p 2 ex_f a Ha _ _ Hrow) as Hi. change (pa_n_pvrows fx_p) with 3%nat in Hi.
  destruct (fit_shaded_lengths_eq _ _ _ _ _ _ _ fx_valid Ha H1 H2 Hrow) as [F B].
  unfold row_sl, fit_shading in F, B. rewrite (fit_alpha_sun_angle fx_p ex_f 1%nat _ ex_sun1) in F, B.
  assert (S : sin (PI / 6 - rr (fit_rotation fx_p ex_f 1%nat)) = 1) by (rewrite sin_rr; apply ex_sin1).
  assert (Sa : sin (PI / 6) = 1 / 2) by apply sin_PI6.
  assert (D3 : pa_distance fx_p = 3) by (unfold pa_distance, fx_p; simpl; field).
  destruct (interrow_shading_cases 3 (pa_distance fx_p) 2 (PI / 6) (fit_rotation fx_p ex_f 1%nat)) as [_ [C _]];
    try lia; try lra; try (rewrite D3; lra).
  change (pa_n_pvrows fx_p) with 3%nat in F, B. change (pa_width fx_p) with 2 in F, B.
  rewrite C in F, B by lra. rewrite S, Sa, D3, Rabs_R1 in F, B.
  destruct b; cbn [side_of]; [rewrite B | rewrite F]; destruct i as [| [| [| i]]]; try lia;
    cbn [row_shaded_lengths Nat.eqb Nat.sub fst snd]; unfold np_where; try destruct (Rltb 0 (fit_rotation fx_p ex_f 1%nat)); minmax; lra.
Qed.

(** No surface of this array is a sliver at timestep 1. *)
Lemma fx_no_slivers : forall s, In s (all_ts_surfaces a) -> no_sliver_length DISTANCE_TOLERANCE (s_length s 1%nat).
Proof.
  intros s Hs. destruct fx_scene as (V & Fi & SA & NS & HR & HG & HF). pose proof fx_rot as R1. pose proof tol_small as T.
  assert (T1 : DISTANCE_TOLERANCE < 1 / 1000) by (unfold DISTANCE_TOLERANCE; lra).
  unfold all_ts_surfaces in Hs. apply in_app_or in Hs. destruct Hs as [Hs | Hs].
  - destruct (gnd_shape _ _ _ _ _ _ V Fi SA NS HR HG s Hs) as [_ [L [E _]]].
    destruct (fit_ground_ends _ _ _ _ _ _ s V Fi SA NS HR ltac:(rewrite R1; lra) HG Hs) as [B1 B2].
    rewrite R1 in B1, B2. destruct (fx_breakpoint _ B1) as [k [u [E1 I1]]]. destruct (fx_breakpoint _ B2) as [k' [u' [E2 I2]]].
    rewrite E. rewrite E1, E2 in *. clear E E1 E2 B1 B2. pose proof sqrt3 as S3. unfold no_sliver_length.
    cbn [In] in I1, I2.
    repeat (destruct I1 as [I1 | I1]; [inversion I1; subst k u; clear I1;
      repeat (destruct I2 as [I2 | I2]; [inversion I2; subst k' u'; clear I2; lra |]); destruct I2 |]). destruct I1.
  - apply in_flat_map in Hs. destruct Hs as [row [Hrow Hs]]. apply In_nth_error in Hrow. destruct Hrow as [i Hrow].
    unfold row_surfaces in Hs. apply in_app_or in Hs.
    assert (Hb : exists b, In s (side_surfaces (side_of b row))).
    { destruct Hs; [exists false | exists true]; assumption. }
    destruct Hb as [b Hb]. unfold side_surfaces in Hb. apply in_flat_map in Hb. destruct Hb as [sg [Hsg Hb]].
    apply In_nth_error in Hsg. destruct Hsg as [k Hk].
    destruct (C06_side_partition fx_p 2 ex_f a 1 i row b V Fi HR Hrow) as [N [_ SP]].
    change (if b then row_back row else row_front row) with (side_of b row) in *.
    destruct (SP k sg Hk) as [il [sh [lo [hi [m [E1 [E2 [_ [_ [L0 [Lm [Lh [Lw [Ll [_ [RB _]]]]]]]]]]]]]]]].
    destruct (RB ltac:(rewrite R1; lra)) as [Esh [Eil Em]].
    assert (Len : s_length s 1%nat = m - lo \/ s_length s 1%nat = hi - m).
    { unfold seg_surfaces in Hb. rewrite E1, E2 in Hb. cbn [app In] in Hb. destruct Hb as [<- | [<- | []]].
      - right. unfold s_length. rewrite Eil. apply low_point_dist. lra.
      - left. unfold s_length. rewrite Esh. apply low_point_dist. lra. }
    rewrite R1 in Ll. destruct (Rlt_dec 0 (-60)); [lra |].
    assert (Hc : (lo = 0 /\ hi = 2) \/ (lo = 0 /\ hi = 1) \/ (lo = 1 /\ hi = 2)).
    { assert (K : (k < pa_cut fx_p i b)%nat) by (rewrite <- N; apply nth_error_Some; congruence).
      cbn [pa_cut fx_p pa_width] in K, Lw, Ll. destruct (Nat.eqb i 1 && b).
      - destruct k as [| [| k]]; [| | lia]; cbn [INR] in Lw, Ll; lra.
      - destruct k as [| k]; [| lia]; cbn [INR] in Lw, Ll; lra. }
    unfold no_sliver_length. destruct (fx_shaded i row b Hrow) as [Z | Z]; rewrite Z in Em;
      destruct Hc as [[-> ->] | [[-> ->] | [-> ->]]]; revert Em; minmax; intro; lra.
Qed.

(** The two segments of the back of row 1 and the back of row 0 meet the hypotheses of
    C17 and C18. *)
Lemma fx_case : forall i k, (i <= 1)%nat -> (k < pa_cut fx_p i true)%nat ->
  exists row sg v lo, nth_error (ft_rows a) i = Some row /\ nth_error (side_segments (row_back row)) k = Some sg /\
    fast_case fx_p 2 ex_f a 1 (PI / 6) i row sg v /\
    let P := point_from_low_edge 2 (pa_distance fx_p) 3 (-60) i in
    (seg_coords sg 1%nat = Line (P lo) (P (lo + 2 / INR (pa_cut fx_p i true))) \/
     seg_coords sg 1%nat = Line (P (lo + 2 / INR (pa_cut fx_p i true))) (P lo)) /\
    lo = (INR (pa_cut fx_p i true) - 1 - INR k) * (2 / INR (pa_cut fx_p i true)).
Proof.
  intros i k Hi Hk. pose proof fx_scene as Sc. destruct fx_scene as (V & Fi & SA & NS & HR & HG & HF). pose proof fx_rot as R1.
  assert (Hrow : exists row, nth_error (ft_rows a) i = Some row).
  { destruct (nth_error (ft_rows a) i) eqn:E; [eauto |]. exfalso. apply nth_error_None in E.
    rewrite (rows_length fx_p 2 ex_f a Fi) in E. change (pa_n_pvrows fx_p) with 3%nat in E. lia. }
  destruct Hrow as [row Hrow].
  destruct (C06_side_partition fx_p 2 ex_f a 1 i row true V Fi HR Hrow) as [N [_ SP]]. cbv beta iota in N, SP.
  assert (Hsg : exists sg, nth_error (side_segments (row_back row)) k = Some sg).
  { destruct (nth_error (side_segments (row_back row)) k) eqn:E; [eauto |]. exfalso. apply nth_error_None in E. lia. }
  destruct Hsg as [sg Hsg].
  destruct (SP k sg Hsg) as [il [sh [lo [hi [m [E1 [E2 [_ [_ [L0 [Lm [Lh [Lw [Ll [Co _]]]]]]]]]]]]]]].
  rewrite R1 in Ll, Co. destruct (Rlt_dec 0 (-60)); [lra |]. change (pa_width fx_p) with 2 in *. change (pa_height fx_p) with 3 in *.
  assert (Hhi : hi = lo + 2 / INR (pa_cut fx_p i true)) by lra. rewrite Hhi in Co.
  assert (W : 1 <= 2 / INR (pa_cut fx_p i true)).
  { cbn [pa_cut fx_p]. destruct (Nat.eqb i 1 && true); cbn [INR]; lra. }
  assert (Hl : DISTANCE_TOLERANCE < line_length (seg_coords sg 1%nat)).
  { pose proof tol_small as T. assert (E : line_length (seg_coords sg 1%nat) = 2 / INR (pa_cut fx_p i true)); [| lra].
    destruct Co as [Co | Co]; rewrite Co.
    - transitivity (lo + 2 / INR (pa_cut fx_p i true) - lo); [apply low_point_dist; lra | ring].
    - rewrite line_length_dist. cbn [b1 b2]. rewrite dist_sym.
      transitivity (lo + 2 / INR (pa_cut fx_p i true) - lo); [apply (low_point_dist (INR i * pa_distance fx_p) 3 2 (-60)); lra | ring]. }
  assert (Hin : In sg (side_segments (row_back row))) by (eapply nth_error_In; exact Hsg).
  destruct (C18_defined fx_p 2 ex_f a 1 (PI / 6) i row sg Sc Hrow Hin Hl) as [v Hv].
  { rewrite R1. unfold looks_left. destruct (Rlt_dec 0 (-60)); [lra |]. intro Ne.
    destruct i as [| [| i]]; [| discriminate | lia].
    destruct (fit_left_right fx_p 2 ex_f a 1 (PI / 6) 0 V Fi SA NS HR HG ltac:(cbn; lia)) as [cut [Hc [_ [Hx _]]]].
    exists cut. split; [exact Hc |]. destruct (Hx ltac:(rewrite R1; lra)) as [x [s [E Ep]]]. rewrite E. cbn [xle].
    rewrite R1 in Ep. unfold row_point in Ep. replace (-60 * PI / 180) with (- (PI / 3)) in Ep by field.
    rewrite sin_neg, cos_neg, sin_PI3, cos_PI3 in Ep. change (pa_height fx_p) with 3 in Ep. change (INR 0) with 0 in Ep.
    pose proof (f_equal px Ep) as Ex. pose proof (f_equal py Ep) as Ey. cbn [px py] in Ex, Ey. pose proof sqrt3 as S3.
    assert (0 < s) by (apply (Rmult_lt_reg_r (sqrt 3)); lra). lra. }
  exists row, sg, v, lo. split; [exact Hrow |]. split; [exact Hsg |]. split; [| split; [exact Co | lra]].
  split; [exact Sc |]. split; [lia |]. split; [exact fx_no_slivers |]. auto.
Qed.
End Example17.

(** C17_ground applies to the upper segment of the back of row 1, and
    C17_lowest_segment_refuted to the lower one: in the same array, the fast mode
    ground factor is exact for one and too large for the other. *)
Example C17_example : exists a, fit fx_p 2 ex_f = Some a /\
  exists row upper lower v w,
    fast_case fx_p 2 ex_f a 1 (PI / 6) 1 row upper v /\ fast_case fx_p 2 ex_f a 1 (PI / 6) 1 row lower w /\
    line_length (seg_coords upper 1%nat) * to_gnd_total v =
      full_mode a 1 (seg_surfaces upper) (gnd_surfaces (ft_ground a)) /\
    full_mode a 1 (seg_surfaces lower) (gnd_surfaces (ft_ground a)) <
      line_length (seg_coords lower 1%nat) * to_gnd_total w.
Proof.
  destruct fx_fit as [a Ha]. exists a. split; [exact Ha |].
  destruct (fx_case a Ha 1 0 ltac:(lia) ltac:(cbn; lia)) as [row [up [v [lo [Hrow [_ [Fv [Cv Lv]]]]]]]].
  destruct (fx_case a Ha 1 1 ltac:(lia) ltac:(cbn; lia)) as [row' [low [w [lo' [Hrow' [_ [Fw [Cw Lw]]]]]]]].
  assert (row' = row) by congruence. subst row'. exists row, up, low, v, w. split; [exact Fv |]. split; [exact Fw |].
  change (INR (pa_cut fx_p 1 true)) with 2 in *. cbn [INR] in Lv, Lw.
  assert (E1 : lo = 1) by lra. assert (E2 : lo' = 0) by lra. clear Lv Lw. subst lo lo'.
  replace (1 + 2 / 2) with 2 in Cv by field. replace (0 + 2 / 2) with 1 in Cw by field.
  pose proof (fx_rot a Ha) as R1. pose proof sqrt3 as S3.
  assert (D3 : pa_distance fx_p = 3) by (unfold pa_distance, fx_p; simpl; field).
  assert (PP : forall i e, point_from_low_edge 2 (pa_distance fx_p) 3 (-60) i e =
     Pt (INR i * 3 + (1 - e) / 2) (3 - (1 - e) * (sqrt 3 / 2))).
  { intros i e. unfold point_from_low_edge, row_point. destruct (Rlt_dec 0 (-60)); [lra |]. rewrite D3.
    replace (-60 * PI / 180) with (- (PI / 3)) by field. rewrite sin_neg, cos_neg, sin_PI3, cos_PI3. f_equal; field. }
  assert (LL : looks_left (-60) true = true) by (unfold looks_left; destruct (Rlt_dec 0 (-60)); [lra | reflexivity]).
  assert (SS : sqrt 3 * sqrt 3 = 3) by (apply sqrt_sqrt; lra).
  split.
  - refine (proj1 (C17_ground fx_p 2 ex_f a 1 (PI / 6) 1 row up v _ _ _ (3 + sqrt 3) Fv _ Cv _ _ _ _)); rewrite ?R1, ?LL.
    + reflexivity.
    + rewrite !PP. cbn [py INR]. lra.
    + rewrite !PP. unfold turn. cbv beta iota zeta. cbn [px py INR]. nra.
    + lra.
    + rewrite ?R1. change (pa_width fx_p) with 2. change (pa_height fx_p) with 3. rewrite !PP. unfold turn. cbv beta iota zeta. cbn [px py INR]. nra.
  - refine (C17_lowest_segment_refuted fx_p 2 ex_f a 1 (PI / 6) 1 row low w _ _ _ (3 + sqrt 3) Fw _ Cw _ _ _ _ _); rewrite ?R1, ?LL.
    + reflexivity.
    + rewrite !PP. cbn [py INR]. lra.
    + rewrite !PP. unfold turn. cbv beta iota zeta. cbn [px py INR]. nra.
    + lra.
    + reflexivity.
    + rewrite ?R1. change (pa_width fx_p) with 2. change (pa_height fx_p) with 3. rewrite !PP. unfold turn. cbv beta iota zeta. cbn [px py INR]. nra.
Qed.

(** C17_edge_row and C18 apply to the back of row 0, which faces no other row. *)
Example C18_example : exists a row sg v, fast_case fx_p 2 ex_f a 1 (PI / 6) 0 row sg v /\
  neighbour_edge fx_p a 1 (looks_left (ft_rotation a 1%nat) true) 0 = None.
Proof.
  destruct fx_fit as [a Ha]. exists a.
  destruct (fx_case a Ha 0 0 ltac:(lia) ltac:(cbn; lia)) as [row [sg [v [lo [_ [_ [Fv _]]]]]]].
  exists row, sg, v. split; [exact Fv |]. rewrite (fx_rot a Ha). unfold looks_left. destruct (Rlt_dec 0 (-60)); [lra | reflexivity].
Qed.
