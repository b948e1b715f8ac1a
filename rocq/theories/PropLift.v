(** The ground built from rows at any height of the ground ([y_ground]), not only at 0: statements,
    with an example that meets the hypotheses. *)
From Coq Require Import Reals List Bool Arith Lra Lia FunctionalExtensionality.
From Verif Require Import Num Basics ModelTs ModelGeom ModelVF SpecGeom SpecVF.
Import ListNotations.
Open Scope R_scope.

(** Everything moved up by [dy]. *)
Definition lift (dy : R) (l : line) : line :=
  Line (Pt (px (b1 l)) (py (b1 l) + dy)) (Pt (px (b2 l)) (py (b2 l) + dy)).
Definition lift_ts (dy : R) (c : ts line) : ts line := fun t => lift dy (c t).
Definition lift_surface (dy : R) (s : ts_surface) : ts_surface :=
  TsSurface (s_id s) (lift_ts dy (s_coords s)) (s_nvec s) (s_shaded s).
Definition lift_element (dy : R) (e : ts_ground_element) : ts_ground_element :=
  TsGroundElement (lift_ts dy (el_coords e)) (map (lift_surface dy) (el_surfaces e)) (el_dict e) (el_shaded e).
Definition lift_ground (dy : R) (g : ts_ground) : ts_ground :=
  TsGround (map (lift_element dy) (gnd_shadows g)) (map (lift_element dy) (gnd_illum g))
    (gnd_flag_overlap g) (gnd_cut_points g) (gnd_y g + dy).

Lemma create_coords_lift : forall dy cuts c, create_coords (lift_ts dy c) cuts = map (lift_ts dy) (create_coords c cuts).
Proof.
  intros dy. induction cuts as [|x cuts IH]; intro c; [reflexivity|]. cbn [create_coords map]. f_equal. rewrite <- IH. reflexivity.
Qed.
Lemma combine_map_r : forall A B C (g : B -> C) (l : list A) (m : list B), combine l (map g m) = map (fun q => (fst q, g (snd q))) (combine l m).
Proof. induction l as [|x l IH]; intros [|y m]; cbn; auto. f_equal. apply IH. Qed.
Lemma make_element_lift : forall mk sh dy c cuts, make_element mk sh (lift_ts dy c) cuts = lift_element dy (make_element mk sh c cuts).
Proof.
  intros mk sh dy c [|x cuts]; [reflexivity|]. unfold make_element, lift_element. cbn [el_coords el_surfaces el_dict el_shaded].
  rewrite create_coords_lift, map_length, combine_map_r, !map_map. reflexivity.
Qed.
Lemma shadow_elements_lift : forall dy y sh cuts, shadow_elements (y + dy) sh cuts = map (lift_element dy) (shadow_elements y sh cuts).
Proof.
  intros. unfold shadow_elements. rewrite map_map. apply map_ext. intros [k s]. rewrite <- make_element_lift. reflexivity.
Qed.
Lemma illum_coords_lift : forall dy y sh nx, illum_coords (y + dy) nx (map (lift_ts dy) sh) = map (lift_ts dy) (illum_coords y nx sh).
Proof. intros dy y. induction sh as [|s sh IH]; intro nx; [reflexivity|]. cbn [illum_coords map]. f_equal. rewrite <- IH. reflexivity. Qed.
Lemma illum_elements_lift : forall dy y sh cuts,
  illum_elements (y + dy) (map (lift_element dy) sh) cuts = option_map (map (lift_element dy)) (illum_elements y sh cuts).
Proof.
  intros dy y [|s sh] cuts; [reflexivity|]. unfold illum_elements. cbn [map option_map]. f_equal.
  change (lift_ts dy (el_coords s) :: map el_coords (map (lift_element dy) sh)) with (map el_coords (map (lift_element dy) (s :: sh))).
  replace (map el_coords (map (lift_element dy) (s :: sh))) with (map (lift_ts dy) (map el_coords (s :: sh))) by (rewrite !map_map; reflexivity).
  change (el_coords (lift_element dy s) :: map el_coords (map (lift_element dy) sh)) with (map el_coords (map (lift_element dy) (s :: sh))).
  replace (map el_coords (map (lift_element dy) (s :: sh))) with (map (lift_ts dy) (map el_coords (s :: sh))) by (rewrite !map_map; reflexivity).
  rewrite illum_coords_lift, map_length, combine_map_r, !map_map. apply map_ext. intros [k c]. cbn [fst snd]. apply make_element_lift.
Qed.

(** C87: only the height of the rows above the ground matters. *)
Theorem C87_lift : forall rows al rotation y flag dy,
  ground_from_pvrows (map (lift_ts dy) rows) al rotation (y + dy) flag =
  option_map (lift_ground dy) (ground_from_pvrows rows al rotation y flag).
Proof.
  intros rows al rotation y flag dy. unfold ground_from_pvrows, ground_from_ordered_shadows. rewrite !map_map.
  assert (S : forall c t, shadow_coords (lift_ts dy c t) (al t) (y + dy) = shadow_coords (c t) (al t) y).
  { intros c t. unfold shadow_coords, lift_ts, lift. cbn [b1 b2 px py].
    replace (py (b1 (c t)) + dy - (y + dy)) with (py (b1 (c t)) - y) by ring. replace (py (b2 (c t)) + dy - (y + dy)) with (py (b2 (c t)) - y) by ring. reflexivity. }
  assert (K : forall c t, cut_point (lift_ts dy c t) (rotation t) (y + dy) = cut_point (c t) (rotation t) y).
  { intros c t. unfold cut_point, lift_ts, lift. cbn [b1 b2 px py]. replace (py (b1 (c t)) + dy - (y + dy)) with (py (b1 (c t)) - y) by ring. reflexivity. }
  rewrite (map_ext (fun x t => shadow_coords (lift_ts dy x t) (al t) (y + dy)) (fun c t => shadow_coords (c t) (al t) y)) by (intro c; extensionality t; apply S).
  rewrite (map_ext (fun x t => cut_point (lift_ts dy x t) (rotation t) (y + dy)) (fun c t => cut_point (c t) (rotation t) y)) by (intro c; extensionality t; apply K).
  rewrite shadow_elements_lift, illum_elements_lift. destruct (illum_elements _ _ _); reflexivity.
Qed.
Print Assumptions C87_lift.

(** The same for rows and arrays. *)
Definition lift_segment (dy : R) (s : ts_segment) : ts_segment :=
  TsSegment (lift_ts dy (seg_coords s)) (map (lift_surface dy) (seg_illum s)) (map (lift_surface dy) (seg_shaded s)) (seg_nvec s).
Definition lift_side (dy : R) (s : ts_side) : ts_side := TsSide (map (lift_segment dy) (side_segments s)) (side_nvec s).
Definition lift_row (dy : R) (r : ts_pvrow) : ts_pvrow :=
  TsPVRow (row_xc r) (row_yc r + dy) (lift_ts dy (row_coords r)) (lift_side dy (row_front r)) (lift_side dy (row_back r)).
Definition lift_array (dy : R) (a : fitted) : fitted :=
  Fitted (ft_n_states a) (ft_rotation a) (ft_width a) (map (lift_row dy) (ft_rows a)) (lift_ground dy (ft_ground a)).

Section Lift.
Variable dy : R.
Let up (q : pt) : pt := Pt (px q) (py q + dy).

Lemma lift_ends : forall l, b1 (lift dy l) = up (b1 l) /\ b2 (lift dy l) = up (b2 l).
Proof. split; reflexivity. Qed.
Lemma minus_up : forall a b, a + dy - (b + dy) = a - b.
Proof. intros. ring. Qed.
Lemma distance_up : forall a b, distance (up a) (up b) = distance a b.
Proof. intros. unfold distance, up. cbn [px py]. rewrite minus_up. reflexivity. Qed.
Lemma angle_up : forall a b, angle_with_x_axis (up a) (up b) = angle_with_x_axis a b.
Proof. intros. unfold angle_with_x_axis, up. cbn [px py]. rewrite minus_up. reflexivity. Qed.
Lemma length_up : forall l, line_length (lift dy l) = line_length l.
Proof. intros. unfold line_length, lift. cbn [b1 b2 px py]. rewrite minus_up. reflexivity. Qed.
Lemma Rleb_up : forall a b, Rleb (a + dy) (b + dy) = Rleb a b.
Proof. intros. unfold Rleb. destruct (Rle_dec (a + dy) (b + dy)), (Rle_dec a b); try reflexivity; lra. Qed.
Lemma lowest_up : forall l, lowest_point (lift dy l) = up (lowest_point l).
Proof. intros. unfold lowest_point, up, lift, np_where. cbn [b1 b2 px py]. rewrite Rleb_up. destruct (Rleb _ _); reflexivity. Qed.
Lemma highest_up : forall l, highest_point (lift dy l) = up (highest_point l).
Proof. intros. unfold highest_point, up, lift, np_where. cbn [b1 b2 px py]. rewrite Rleb_up. destruct (Rleb _ _); reflexivity. Qed.
Lemma vss_up : forall l m w, vf_surface_to_surface (lift dy l) (lift dy m) w = vf_surface_to_surface l m w.
Proof. intros. unfold vf_surface_to_surface. rewrite !(proj1 (lift_ends _)), !(proj2 (lift_ends _)), !distance_up. reflexivity. Qed.
Lemma string_up : forall q g o b, hottel_string_length (up q) (up g) (up o) b = hottel_string_length q g o b.
Proof. intros. unfold hottel_string_length. rewrite !distance_up, !angle_up. reflexivity. Qed.
Lemma hottel_up : forall h l g1 g2 o w b, vf_hottel_gnd_surf (up h) (up l) (up g1) (up g2) (up o) w b = vf_hottel_gnd_surf h l g1 g2 o w b.
Proof. intros. unfold vf_hottel_gnd_surf. rewrite !string_up. reflexivity. Qed.

Lemma s_length_up : forall s t, s_length (lift_surface dy s) t = s_length s t.
Proof. intros. apply length_up. Qed.
Lemma is_empty_up : forall n s, is_empty n (lift_surface dy s) = is_empty n s.
Proof.
  intros. unfold is_empty. replace (s_length (lift_surface dy s)) with (s_length s); [reflexivity|]. extensionality t. symmetry. apply s_length_up.
Qed.
Lemma side_surfaces_up : forall s, side_surfaces (lift_side dy s) = map (lift_surface dy) (side_surfaces s).
Proof.
  intros [l nv]. unfold side_surfaces, lift_side. cbn [side_segments]. induction l as [|g l IH]; [reflexivity|]. cbn [map flat_map]. rewrite IH, map_app. f_equal.
  unfold seg_surfaces, lift_segment. cbn [seg_illum seg_shaded]. symmetry. apply map_app.
Qed.
Lemma coll_length_up : forall l t, coll_length (map (lift_surface dy) l) t = coll_length l t.
Proof. intros. unfold coll_length. rewrite map_map. f_equal. apply map_ext. intro s. apply s_length_up. Qed.
Lemma shaded_length_up : forall s t, side_shaded_length (lift_side dy s) t = side_shaded_length s t.
Proof. intros. unfold side_shaded_length, lift_side. cbn [side_segments]. rewrite map_map. f_equal. apply map_ext. intro g. apply coll_length_up. Qed.

Lemma nth_up : forall rows i, (i < length rows)%nat -> nth i (map (lift_row dy) rows) dummy_row = lift_row dy (nth i rows dummy_row).
Proof. intros rows i H. rewrite (nth_indep _ _ (lift_row dy dummy_row)) by (rewrite map_length; exact H). apply map_nth. Qed.
Lemma row_lowest_up : forall rows i t, (i < length rows)%nat -> row_lowest_pt (map (lift_row dy) rows) i t = up (row_lowest_pt rows i t).
Proof. intros. unfold row_lowest_pt. rewrite nth_up by assumption. apply lowest_up. Qed.

Lemma cut_left_up : forall l c, coords_left_of_cut_point (lift dy l) c = lift dy (coords_left_of_cut_point l c).
Proof. reflexivity. Qed.
Lemma cut_right_up : forall l c, coords_right_of_cut_point (lift dy l) c = lift dy (coords_right_of_cut_point l c).
Proof. reflexivity. Qed.
Lemma shaded_side_up : forall xc yc w s b r q, create_shaded_side_coords xc (yc + dy) w s b r (up q) = lift dy (create_shaded_side_coords xc yc w s b r q).
Proof. intros. unfold create_shaded_side_coords, lift, up, np_where. cbn [b1 b2 px py]. f_equal. destruct b; f_equal; ring. Qed.

Lemma to_pvrow_up : forall rows c i len b w r t, (i < length rows)%nat ->
  calculate_vf_to_pvrow (map (lift_row dy) rows) (lift dy c) i len b w r t = calculate_vf_to_pvrow rows c i len b w r t.
Proof.
  intros rows c i len b w r t H. unfold calculate_vf_to_pvrow. rewrite map_length.
  assert (E : forall j, (j < length rows)%nat ->
    (vf_surface_to_surface (lift dy c) (row_coords (nth j (map (lift_row dy) rows) dummy_row) t) len,
     vf_surface_to_surface (lift dy c) (create_shaded_side_coords (row_xc (nth j (map (lift_row dy) rows) dummy_row)) (row_yc (nth j (map (lift_row dy) rows) dummy_row)) w
        (side_shaded_length (row_front (nth j (map (lift_row dy) rows) dummy_row)) t) b r (lowest_point (row_coords (nth j (map (lift_row dy) rows) dummy_row) t))) len) =
    (vf_surface_to_surface c (row_coords (nth j rows dummy_row) t) len,
     vf_surface_to_surface c (create_shaded_side_coords (row_xc (nth j rows dummy_row)) (row_yc (nth j rows dummy_row)) w
        (side_shaded_length (row_front (nth j rows dummy_row)) t) b r (lowest_point (row_coords (nth j rows dummy_row) t))) len)).
  { intros j J. rewrite nth_up by exact J. unfold lift_row. cbn [row_coords row_xc row_yc row_front]. unfold lift_ts.
    rewrite shaded_length_up, lowest_up, shaded_side_up, !vss_up. reflexivity. }
  cbv zeta. destruct (Nat.eqb_spec i 0), (Nat.eqb_spec i (length rows - 1)); rewrite ?E by lia; reflexivity.
Qed.

Lemma to_gnd_up : forall rows c i y cut len b t, (i < length rows)%nat ->
  calculate_vf_to_gnd (map (lift_row dy) rows) (lift dy c) i (y + dy) cut len b t = calculate_vf_to_gnd rows c i y cut len b t.
Proof.
  intros rows c i y cut len b t H. unfold calculate_vf_to_gnd. rewrite map_length.
  assert (L : forall q z, Line (up q) (up z) = lift dy (Line q z)) by reflexivity.
  assert (G : forall x x', Line (Pt x (y + dy)) (Pt x' (y + dy)) = lift dy (Line (Pt x y) (Pt x' y))) by reflexivity.
  destruct (Nat.eqb_spec i 0), (Nat.eqb_spec i (length rows - 1)), (min_with_cut MAX_X_GROUND cut), (max_with_cut MIN_X_GROUND cut);
    rewrite ?row_lowest_up, ?L, ?G, ?vss_up by lia; reflexivity.
Qed.

Lemma to_shadow_up : forall rows c i b sl sr len t, (i < length rows)%nat ->
  calculate_vf_to_shadow (map (lift_row dy) rows) (lift dy c) i b (lift dy sl) (lift dy sr) len t = calculate_vf_to_shadow rows c i b sl sr len t.
Proof.
  intros rows c i b sl sr len t H. unfold calculate_vf_to_shadow. rewrite map_length, lowest_up, highest_up, !(proj1 (lift_ends _)), !(proj2 (lift_ends _)).
  destruct (Nat.eqb_spec i 0), (Nat.eqb_spec i (length rows - 1)); rewrite ?row_lowest_up, ?hottel_up, ?vss_up by lia; reflexivity.
Qed.

Lemma gnd_pair_up : forall rows b i back left t x y, (i < length rows)%nat ->
  vf_pvrow_surf_to_gnd_surf (map (lift_row dy) rows) b i back left t (lift_surface dy x) (lift_surface dy y) =
  vf_pvrow_surf_to_gnd_surf rows b i back left t x y.
Proof.
  intros rows b i back left t x y H. unfold vf_pvrow_surf_to_gnd_surf. rewrite map_length, !s_length_up.
  unfold s_lowest, s_highest. cbn [lift_surface s_coords]. unfold lift_ts. rewrite lowest_up, highest_up, !(proj1 (lift_ends _)), !(proj2 (lift_ends _)), vss_up.
  destruct left; cbn [andb negb orb].
  - destruct (Nat.eqb_spec i 0); cbn [andb orb]; [reflexivity|]. rewrite row_lowest_up, hottel_up by lia. reflexivity.
  - destruct (Nat.eqb_spec i (length rows - 1)); cbn [andb orb]; [reflexivity|]. rewrite row_lowest_up, hottel_up by lia. reflexivity.
Qed.
Lemma row_pair_up : forall facing t x y, vf_pvrow_pair facing t (lift_surface dy x) (lift_surface dy y) = vf_pvrow_pair facing t x y.
Proof. intros. unfold vf_pvrow_pair. rewrite !s_length_up. cbn [lift_surface s_coords]. unfold lift_ts. rewrite vss_up. reflexivity. Qed.

Lemma fold_map : forall A B C (F : C -> B -> C) (G : C -> A -> C) (h : A -> B) l, (forall m x, In x l -> F m (h x) = G m x) ->
  forall m, fold_left F (map h l) m = fold_left G l m.
Proof.
  induction l as [|x l IH]; intros E m; [reflexivity|]. cbn [map fold_left]. rewrite E by (left; reflexivity). apply IH. intros m' z Z. apply E. right. exact Z.
Qed.

Variables (idx idx' : ts_surface -> nat).
Hypothesis IDX : forall s, idx' (lift_surface dy s) = idx s.

Lemma pairs_up : forall n xs ys v v' M, (forall x y, v' (lift_surface dy x) (lift_surface dy y) = v x y) ->
  loop_pairs n idx' (map (lift_surface dy) xs) (map (lift_surface dy) ys) v' M = loop_pairs n idx xs ys v M.
Proof.
  intros n xs ys v v' M E. unfold loop_pairs. apply fold_map. intros m x _. rewrite is_empty_up. destruct (is_empty n x); [reflexivity|].
  apply fold_map. intros m' y _. rewrite is_empty_up. unfold mset2. rewrite !IDX, E. reflexivity.
Qed.
Lemma gnds_up : forall n xs ls rs vl vr vl' vr' M,
  (forall x y, vl' (lift_surface dy x) (lift_surface dy y) = vl x y) -> (forall x y, vr' (lift_surface dy x) (lift_surface dy y) = vr x y) ->
  loop_gnd n idx' (map (lift_surface dy) xs) (map (lift_surface dy) ls) (map (lift_surface dy) rs) vl' vr' M = loop_gnd n idx xs ls rs vl vr M.
Proof.
  intros n xs ls rs vl vr vl' vr' M E1 E2. unfold loop_gnd. apply fold_map. intros m x _. rewrite is_empty_up. destruct (is_empty n x); [reflexivity|]. cbv zeta.
  match goal with |- fold_left _ _ ?u = fold_left _ _ ?v => assert (Q : u = v) end.
  - apply fold_map. intros m' y _. rewrite is_empty_up. unfold mset2. rewrite !IDX, E1. reflexivity.
  - rewrite Q. apply fold_map. intros m' y _. rewrite is_empty_up. unfold mset2. rewrite !IDX, E2. reflexivity.
Qed.
End Lift.

Lemma el_side_up : forall dy e left i, el_side (lift_element dy e) left i = map (lift_surface dy) (el_side e left i).
Proof.
  intros. unfold el_side, lift_element. cbn [el_surfaces el_dict].
  induction (if left then fst (el_dict e i) else snd (el_dict e i)) as [|k l IH]; [reflexivity|]. cbn [flat_map]. rewrite IH, map_app. f_equal.
  rewrite nth_error_map. destruct (nth_error (el_surfaces e) k); reflexivity.
Qed.
Lemma gnd_side_up : forall dy g left i, gnd_side_of_cut_point (lift_ground dy g) left i = map (lift_surface dy) (gnd_side_of_cut_point g left i).
Proof.
  intros. unfold gnd_side_of_cut_point, lift_ground. cbn [gnd_shadows gnd_illum]. rewrite map_app.
  assert (E : forall l, flat_map (fun e => el_side e left i) (map (lift_element dy) l) = map (lift_surface dy) (flat_map (fun e => el_side e left i) l)).
  { induction l as [|e l IH]; [reflexivity|]. cbn [map flat_map]. rewrite IH, el_side_up, map_app. reflexivity. }
  rewrite !E. reflexivity.
Qed.
Lemma flat_map_lift : forall A (h : A -> A) (F : A -> list ts_surface) dy l, (forall e, F (h e) = map (lift_surface dy) (F e)) ->
  flat_map F (map h l) = map (lift_surface dy) (flat_map F l).
Proof. intros A h F dy l E. induction l as [|e l IH]; [reflexivity|]. cbn [map flat_map]. rewrite IH, E, map_app. reflexivity. Qed.
Lemma all_up : forall dy a, all_ts_surfaces (lift_array dy a) = map (lift_surface dy) (all_ts_surfaces a).
Proof.
  intros dy a. unfold all_ts_surfaces, gnd_surfaces, lift_array, lift_ground. cbn [ft_ground ft_rows gnd_shadows gnd_illum].
  rewrite !(flat_map_lift _ (lift_element dy) el_surfaces dy) by reflexivity. rewrite (flat_map_lift _ (lift_row dy) row_surfaces dy), !map_app; [reflexivity|].
  intro r. unfold row_surfaces, lift_row. cbn [row_front row_back]. rewrite !side_surfaces_up, map_app. reflexivity.
Qed.
Lemma index_up : forall dy a s, surf_index (lift_array dy a) (lift_surface dy s) = surf_index a s.
Proof.
  intros dy a s. unfold surf_index. rewrite all_up. cbn [lift_surface s_id]. unfold index_all. rewrite map_length, combine_map_r.
  rewrite (fold_map _ _ _ _ (fun (m : sid -> option nat) (ks : nat * ts_surface) => fun x => if sid_eq_dec x (s_id (snd ks)) then Some (fst ks) else m x)) by reflexivity. reflexivity.
Qed.
Lemma n_up : forall dy a, n_ts_surfaces (lift_array dy a) = n_ts_surfaces a.
Proof.
  intros dy a. unfold n_ts_surfaces, gnd_n_ts_surfaces, lift_array, lift_ground. cbn [ft_ground ft_rows gnd_shadows gnd_illum]. rewrite !map_map.
  f_equal; [|f_equal; f_equal; apply map_ext; intro e; unfold lift_element; cbn [el_surfaces]; apply map_length].
  apply map_ext. intro r. unfold row_n_ts_surfaces, side_n_ts_surfaces, lift_row, lift_side. cbn [row_front row_back side_segments]. rewrite !map_map.
  f_equal; f_equal; apply map_ext; intro g; unfold seg_n_ts_surfaces, lift_segment; cbn [seg_illum seg_shaded]; rewrite !map_length; reflexivity.
Qed.

(** C87: the view factors of full mode do not depend on the height of rows and ground together. *)
Theorem C87_full : forall a t dy i j, build_vf_matrix (lift_array dy a) t i j = build_vf_matrix a t i j.
Proof.
  intros a t dy i j. unfold build_vf_matrix. rewrite n_up, all_up. cbn [lift_array ft_n_states ft_rotation].
  set (b := Rltb 0 (ft_rotation a t)). set (idx' := surf_index (lift_array dy a)). set (idx := surf_index a).
  assert (IDX : forall s, idx' (lift_surface dy s) = idx s) by apply index_up. clearbody idx idx'.
  cbn [lift_array ft_rows ft_ground]. set (rows := ft_rows a). set (g := ft_ground a). set (n := ft_n_states a).
  assert (NR : forall k row, In (k, row) (combine (seq 0 (length rows)) rows) -> (k < length rows)%nat).
  { intros k row H. apply in_combine_l in H. apply in_seq in H. lia. }
  assert (M1 : forall M, vf_pvrow_gnd_surf n idx' (map (lift_row dy) rows) (lift_ground dy g) b t M = vf_pvrow_gnd_surf n idx rows g b t M).
  { intro M. unfold vf_pvrow_gnd_surf. rewrite map_length, combine_map_r. apply fold_map. intros m [k row] H. apply NR in H. cbn [fst snd]. cbv zeta.
    rewrite !gnd_side_up.
    change (row_front (lift_row dy row)) with (lift_side dy (row_front row)). change (row_back (lift_row dy row)) with (lift_side dy (row_back row)). rewrite !side_surfaces_up.
    rewrite (gnds_up dy idx idx' IDX n (side_surfaces (row_front row)) _ _ (vf_pvrow_surf_to_gnd_surf rows b k false true t) (vf_pvrow_surf_to_gnd_surf rows b k false false t)) by (intros; apply gnd_pair_up; exact H).
    apply gnds_up; [exact IDX | |]; intros; apply gnd_pair_up; exact H. }
  assert (RL : forall l, removelast (map (lift_row dy) l) = map (lift_row dy) (removelast l)).
  { induction l as [|x [|z l] IH]; try reflexivity. cbn [map removelast] in *. f_equal. exact IH. }
  assert (M2 : forall M, vf_pvrow_to_pvrow n idx' (map (lift_row dy) rows) b t M = vf_pvrow_to_pvrow n idx rows b t M).
  { intro M. unfold vf_pvrow_to_pvrow. rewrite map_length, RL, combine_map_r. apply fold_map. intros m [k row] H. apply in_combine_l in H. apply in_seq in H. cbn [fst snd]. cbv zeta.
    rewrite nth_up by lia. unfold lift_row. cbn [row_front row_back]. rewrite !side_surfaces_up.
    rewrite (pairs_up dy idx idx' IDX n (side_surfaces (row_front row)) _ (vf_pvrow_pair (negb b) t)) by (intros; apply row_pair_up).
    apply pairs_up; [exact IDX|]. intros; apply row_pair_up. }
  rewrite M1, M2. unfold clear_sky_of_points. rewrite map_length, combine_map_r.
  erewrite fold_map; [reflexivity|]. intros m [k s] _. cbn [fst snd]. rewrite s_length_up. reflexivity.
Qed.
Print Assumptions C87_full.

(** C87: nor do those of fast mode. *)
Theorem C87_fast : forall i el rows g rotation w t dy, (i < length rows)%nat ->
  get_vf_ts_pvrow_element i (lift_ts dy el) (map (lift_row dy) rows) (lift_ground dy g) rotation w t =
  get_vf_ts_pvrow_element i el rows g rotation w t.
Proof.
  intros i el rows g rotation w t dy H. unfold get_vf_ts_pvrow_element. change (lift_ts dy el t) with (lift dy (el t)). cbv zeta. rewrite length_up. change (gnd_cut_points (lift_ground dy g)) with (gnd_cut_points g). change (gnd_y (lift_ground dy g)) with (gnd_y g + dy).
  set (cut := nth i (gnd_cut_points g) dummy_cut). set (b := Rltb 0 (rotation t)). rewrite to_gnd_up, to_pvrow_up by exact H.
  destruct (calculate_vf_to_gnd _ _ _ _ _ _ _ _) as [vg|]; [|reflexivity].
  match goal with |- Some (FastVF ?e1 _ _ _ _ _ _ _) = Some (FastVF ?e2 _ _ _ _ _ _ _) => assert (E : e1 = e2) end.
  { unfold shadow_coords_left_of_cut_point, shadow_coords_right_of_cut_point, lift_ground. cbn [gnd_shadows]. rewrite !map_map.
    induction (gnd_shadows g) as [|e l IH]; [reflexivity|]. cbn [map combine]. rewrite IH. f_equal. cbn [fst snd].
    unfold lift_element. cbn [el_coords]. unfold lift_ts. rewrite cut_left_up, cut_right_up. apply to_shadow_up. exact H. }
  rewrite E. reflexivity.
Qed.
Print Assumptions C87_fast.

(** [x] is where the line through [q] with the angle [al] meets the height [y]. *)
Definition reaches (q : pt) (al y x : R) : Prop := exists r, x = px q + r * cos al /\ y = py q + r * sin al.

Lemma reach_div : forall q al y, sin al <> 0 -> forall z, xsub (px q) (div_tan (py q - y) al z) = XFin (px q - (py q - y) * cos al / sin al) /\
  forall x, reaches q al y x <-> x = px q - (py q - y) * cos al / sin al.
Proof.
  intros q al y S z. unfold div_tan. destruct (Req_EM_T (sin al) 0) as [E|E]; [contradiction|]. split; [reflexivity|]. intro x. split.
  - intros (r & -> & Y). replace (py q - y) with (- r * sin al) by lra. field. exact S.
  - intros ->. exists (- (py q - y) / sin al). split; field; exact S.
Qed.

(** C87: the cut point of row [k] is where its line meets the ground. *)
Theorem C87_cut : forall rows al rotation y flag g k c t,
  ground_from_pvrows rows al rotation y flag = Some g -> nth_error rows k = Some c -> sin (rotation t * PI / 180) <> 0 ->
  exists cut x, nth_error (gnd_cut_points g) k = Some cut /\ cut t = XFin x /\ gnd_y g = y /\
    reaches (b1 (c t)) (rotation t * PI / 180) y x /\
    forall x', reaches (b1 (c t)) (rotation t * PI / 180) y x' -> x' = x.
Proof.
  intros rows al rotation y flag g k c t H Hk S. unfold ground_from_pvrows, ground_from_ordered_shadows in H.
  destruct (illum_elements _ _ _) eqn:E; [|discriminate]. injection H as <-. cbn [gnd_cut_points gnd_y].
  destruct (reach_div (b1 (c t)) (rotation t * PI / 180) y S true) as [A B].
  eexists _, _. split; [exact (map_nth_error _ k rows Hk)|]. split; [exact A|]. split; [reflexivity|]. split; [apply B; reflexivity|]. intros x'. apply B.
Qed.
Print Assumptions C87_cut.

(** C87: without overlap, the shadow of row [k] lies on the ground between the two points that
    sun rays through the ends of the row reach, from left to right, as far as they are on the
    modelled ground. *)
Theorem C87_shadow : forall rows al rotation y flag g k c t,
  ground_from_pvrows rows al rotation y flag = Some g -> nth_error rows k = Some c -> sin (al t) <> 0 -> flag t = false ->
  exists e x1 x2, nth_error (gnd_shadows g) k = Some e /\
    reaches (b1 (c t)) (al t) y x1 /\ reaches (b2 (c t)) (al t) y x2 /\
    let on x := Rmin (Rmax x (-100)) 100 in
    el_coords e t = Line (Pt (on (Rmin x1 x2)) y) (Pt (on (Rmax x1 x2)) y).
Proof.
  intros rows al rotation y flag g k c t H Hk S FT. unfold ground_from_pvrows, ground_from_ordered_shadows in H.
  destruct (illum_elements _ _ _) eqn:E; [|discriminate]. injection H as <-. cbn [gnd_shadows].
  set (sh := map (fun (c0 : ts line) t0 => shadow_coords (c0 t0) (al t0) y) rows).
  assert (F : forall l j s, nth_error l j = Some s -> exists s', nth_error (fix_overlaps flag l) j = Some s' /\ s' t = s t).
  { clear -FT. induction l as [|x l IH]; intros [|j] s Hj; try discriminate.
    - injection Hj as <-. destruct l as [|z l]; [exists x; auto|]. eexists. split; [reflexivity|]. cbv beta. rewrite FT. unfold np_where. destruct (x t); reflexivity.
    - destruct l as [|z l]; [destruct j; discriminate|]. exact (IH j s Hj). }
  assert (Hs : nth_error sh k = Some (fun t0 => shadow_coords (c t0) (al t0) y)) by exact (map_nth_error _ k rows Hk).
  destruct (F sh k _ Hs) as (s' & Hs' & Et). clear F.
  destruct (reach_div (b1 (c t)) (al t) y S false) as [A1 B1]. destruct (reach_div (b2 (c t)) (al t) y S false) as [A2 B2].
  set (cuts := map (fun (c0 : ts line) t0 => cut_point (c0 t0) (rotation t0) y) rows) in *.
  exists (make_element (SidShadow k) true (fun t0 => clip_shadow y (s' t0)) cuts), (px (b1 (c t)) - (py (b1 (c t)) - y) * cos (al t) / sin (al t)), (px (b2 (c t)) - (py (b2 (c t)) - y) * cos (al t) / sin (al t)).
  split.
  { unfold shadow_elements.
    assert (N : forall A (l : list A) j0 j v, nth_error l j = Some v -> nth_error (combine (seq j0 (length l)) l) j = Some ((j0 + j)%nat, v)).
    { clear. induction l as [|x l IH]; intros j0 [|j] v Hj; try discriminate.
      - injection Hj as ->. cbn. rewrite Nat.add_0_r. reflexivity.
      - cbn [length seq combine nth_error]. rewrite (IH (Datatypes.S j0) j v Hj). f_equal. f_equal. lia. }
    fold sh. exact (map_nth_error _ k _ (N _ _ 0%nat k s' Hs')). }
  split; [apply B1; reflexivity|]. split; [apply B2; reflexivity|]. cbv zeta.
  assert (MK : forall co, el_coords (make_element (SidShadow k) true co cuts) = co) by (intro co; unfold make_element; destruct cuts; reflexivity).
  rewrite MK, Et. unfold clip_shadow, shadow_coords. rewrite A1, A2. cbn [xleb]. set (u := px (b1 (c t)) - _). set (v := px (b2 (c t)) - _). clearbody u v.
  unfold np_where, Rleb, xclip, MIN_X_GROUND, MAX_X_GROUND, np_min, np_max. destruct (Rle_dec u v) as [L|L]; cbn [fst snd].
  - rewrite (Rmin_left u v), (Rmax_right u v) by lra. reflexivity.
  - rewrite (Rmin_right u v), (Rmax_left u v) by lra. reflexivity.
Qed.
Print Assumptions C87_shadow.

(** A row of slope 1 at the heights 3 and 4 above a ground at the height 1, sun at 45 degrees on
    the other side: shadow from 2 to 4, cut point at -2. *)
Example C87_example : exists g e cut,
  ground_from_pvrows [fun _ => Line (Pt 0 3) (Pt 1 4)] (fun _ => 3 * (PI / 4)) (fun _ => 45) 1 (fun _ => false) = Some g /\
  nth_error (gnd_shadows g) 0 = Some e /\ nth_error (gnd_cut_points g) 0 = Some cut /\
  el_coords e 0%nat = Line (Pt 2 1) (Pt 4 1) /\ cut 0%nat = XFin (-2).
Proof.
  assert (S0 : 0 < sqrt 2) by (apply sqrt_lt_R0; lra).
  assert (S1 : sin (45 * PI / 180) = 1 / sqrt 2 /\ cos (45 * PI / 180) = 1 / sqrt 2).
  { replace (45 * PI / 180) with (PI / 4) by field. split; [apply sin_PI4 | apply cos_PI4]. }
  assert (S2 : sin (3 * (PI / 4)) = 1 / sqrt 2 /\ cos (3 * (PI / 4)) = - 1 / sqrt 2).
  { replace (3 * (PI / 4)) with (PI - PI / 4) by field. rewrite sin_minus, cos_minus, sin_PI, cos_PI, sin_PI4, cos_PI4. split; field; lra. }
  assert (P0 : 0 < 1 / sqrt 2) by (apply Rdiv_lt_0_compat; lra).
  set (rows := [fun _ : nat => Line (Pt 0 3) (Pt 1 4)]).
  assert (H : exists g, ground_from_pvrows rows (fun _ => 3 * (PI / 4)) (fun _ => 45) 1 (fun _ => false) = Some g) by (eexists; reflexivity).
  destruct H as [g H].
  destruct (C87_shadow _ _ _ _ _ _ 0 _ 0%nat H eq_refl) as (e & x1 & x2 & E1 & (r1 & X1 & Y1) & (r2 & X2 & Y2) & E2); [lra | reflexivity |].
  destruct (C87_cut _ _ _ _ _ _ 0 _ 0%nat H eq_refl) as (cut & x & C1 & C2 & _ & (r & X & Y) & _); [lra |].
  destruct S1 as [S1 S1']. destruct S2 as [S2 S2']. cbn [b1 b2 px py] in *. rewrite S1, S1' in *. rewrite S2, S2' in *.
  exists g, e, cut. split; [exact H|]. split; [exact E1|]. split; [exact C1|].
  assert (x1 = 2) by (replace (- 1 / sqrt 2) with (- (1 / sqrt 2)) in X1 by (field; lra); lra).
  assert (x2 = 4) by (replace (- 1 / sqrt 2) with (- (1 / sqrt 2)) in X2 by (field; lra); lra).
  split.
  - rewrite E2. subst x1 x2. rewrite H0, H1. rewrite (Rmin_left 2 4), (Rmax_right 2 4) by lra. rewrite !Rmax_left, !Rmin_left by lra. reflexivity.
  - rewrite C2. f_equal. lra.
Qed.
