(** Each timestep of a simulation is computed independently of the others: the geometry
    and the view factors of one timestep alone are those found in the batch. *)
From Coq Require Import Reals List Bool Arith String Lra Lia FunctionalExtensionality Permutation.
From Verif Require Import Num ModelTs ModelGeom ModelVF Basics SpecGeom ProofFit ProofIndex ProofMatrix ProofTele ModelParams ModelAOI.
Import ListNotations.
Open Scope R_scope.

(** What is found at timestep [t] of a series, as a constant series. *)
Definition only {A : Type} (t : nat) (x : ts A) : ts A := fun _ => x t.

Definition sl_surface (t : nat) (s : ts_surface) : ts_surface :=
  TsSurface (s_id s) (only t (s_coords s)) (only t (s_nvec s)) (s_shaded s).
Definition sl_segment (t : nat) (g : ts_segment) : ts_segment :=
  TsSegment (only t (seg_coords g)) (map (sl_surface t) (seg_illum g)) (map (sl_surface t) (seg_shaded g))
    (only t (seg_nvec g)).
Definition sl_side (t : nat) (d : ts_side) : ts_side :=
  TsSide (map (sl_segment t) (side_segments d)) (only t (side_nvec d)).
Definition sl_row (t : nat) (r : ts_pvrow) : ts_pvrow :=
  TsPVRow (row_xc r) (row_yc r) (only t (row_coords r)) (sl_side t (row_front r)) (sl_side t (row_back r)).
Definition sl_element (t : nat) (e : ts_ground_element) : ts_ground_element :=
  TsGroundElement (only t (el_coords e)) (map (sl_surface t) (el_surfaces e)) (el_dict e) (el_shaded e).
Definition sl_ground (t : nat) (g : ts_ground) : ts_ground :=
  TsGround (map (sl_element t) (gnd_shadows g)) (map (sl_element t) (gnd_illum g))
    (only t (gnd_flag_overlap g)) (map (only t) (gnd_cut_points g)) (gnd_y g).
Definition sl_fitted (t : nat) (a : fitted) : fitted :=
  Fitted 1 (only t (ft_rotation a)) (ft_width a) (map (sl_row t) (ft_rows a)) (sl_ground t (ft_ground a)).
Definition sl_inputs (t : nat) (f : fit_inputs) : fit_inputs :=
  FitInputs (only t (fi_zenith f)) (only t (fi_azimuth f)) (only t (fi_tilt f)) (only t (fi_surf_azimuth f)).

Lemma combine_map_r : forall (A B C : Type) (g : B -> C) (l : list A) (m : list B),
  combine l (map g m) = map (fun p => (fst p, g (snd p))) (combine l m).
Proof.
  intros A B C g l. induction l as [|x l IH]; intros [|y m]; try reflexivity. cbn. rewrite IH. reflexivity.
Qed.

(* ---------------------------------------------------------------------- fit *)

Lemma sl_fit_rows : forall t p al rot,
  fit_rows p (only t al) (only t rot) = map (sl_row t) (fit_rows p al rot).
Proof.
  intros t p al rot. unfold fit_rows. rewrite map_map. apply map_ext. intro i.
  unfold pvrow_from_raw_inputs, sl_row, sl_side, side_from_raw_inputs.
  cbn [row_xc row_yc row_coords row_front row_back side_segments side_nvec]. rewrite !map_map. reflexivity.
Qed.

Lemma sl_create_coords : forall t cuts c,
  create_coords (only t c) (map (only t) cuts) = map (only t) (create_coords c cuts).
Proof.
  intros t. induction cuts as [|x cuts IH]; intro c; [reflexivity|]. cbn [map create_coords].
  apply (f_equal2 cons); [reflexivity|]. exact (IH (fun t => coords_right_of_cut_point (c t) (x t))).
Qed.

Lemma sl_make_element : forall t mkid sh c cuts,
  make_element mkid sh (only t c) (map (only t) cuts) = sl_element t (make_element mkid sh c cuts).
Proof.
  intros t mkid sh c [|x cuts]; [reflexivity|]. unfold make_element. cbn [map].
  change (only t x :: map (only t) cuts) with (map (only t) (x :: cuts)).
  rewrite sl_create_coords, combine_map_r, !map_map, !map_length. unfold sl_element.
  cbn [el_coords el_surfaces el_dict el_shaded]. rewrite map_map. reflexivity.
Qed.

Lemma sl_fix_overlaps : forall t flag l,
  fix_overlaps (only t flag) (map (only t) l) = map (only t) (fix_overlaps flag l).
Proof.
  intros t flag. induction l as [|x l IH]; [reflexivity|]. destruct l as [|y l]; [reflexivity|].
  change (fix_overlaps flag (x :: y :: l)) with
    ((fun t => (fst (x t), np_where (flag t) (fst (y t)) (snd (x t)))) :: fix_overlaps flag (y :: l)).
  cbn [map]. rewrite <- IH. reflexivity.
Qed.

Lemma sl_shadow_elements : forall t y l cuts,
  shadow_elements y (map (only t) l) (map (only t) cuts) = map (sl_element t) (shadow_elements y l cuts).
Proof.
  intros t y l cuts. unfold shadow_elements. rewrite map_length, combine_map_r, !map_map. apply map_ext.
  intros [k x]. cbn [fst snd]. rewrite <- sl_make_element. reflexivity.
Qed.

Lemma sl_illum_coords : forall t y l nx,
  illum_coords y (only t nx) (map (only t) l) = map (only t) (illum_coords y nx l).
Proof.
  intros t y. induction l as [|x l IH]; intro nx; [reflexivity|]. cbn [map illum_coords].
  apply (f_equal2 cons); [reflexivity|]. exact (IH (fun t => px (b2 (x t)))).
Qed.

Lemma sl_illum_elements : forall t y els cuts,
  illum_elements y (map (sl_element t) els) (map (only t) cuts) =
  match illum_elements y els cuts with Some l => Some (map (sl_element t) l) | None => None end.
Proof.
  intros t y [|x els] cuts; [reflexivity|]. unfold illum_elements.
  change (sl_element t x :: map (sl_element t) els) with (map (sl_element t) (x :: els)).
  cbn [map]. f_equal.
  change (only t (el_coords x) :: map el_coords (map (sl_element t) els)) with
    (map el_coords (map (sl_element t) (x :: els))).
  change (el_coords (sl_element t x) :: map el_coords (map (sl_element t) els)) with
    (map el_coords (map (sl_element t) (x :: els))).
  change (el_coords x :: map el_coords els) with (map el_coords (x :: els)).
  replace (map el_coords (map (sl_element t) (x :: els))) with (map (only t) (map el_coords (x :: els)))
    by (rewrite !map_map; reflexivity).
  change (fun _ : nat => MIN_X_GROUND) with (only t (fun _ : nat => MIN_X_GROUND)) at 1 2.
  rewrite sl_illum_coords, map_length, combine_map_r, !map_map. apply map_ext. intros [k z]. cbn [fst snd].
  apply sl_make_element.
Qed.

Lemma sl_ground_from : forall t rows al rot y flag,
  ground_from_pvrows (map (only t) rows) (only t al) (only t rot) y (only t flag) =
  match ground_from_pvrows rows al rot y flag with Some g => Some (sl_ground t g) | None => None end.
Proof.
  intros t rows al rot y flag. unfold ground_from_pvrows, ground_from_ordered_shadows. rewrite !map_map.
  change (map (fun x => fun t0 => shadow_coords (only t x t0) (only t al t0) y) rows) with
    (map (fun x => only t (fun t0 : nat => shadow_coords (x t0) (al t0) y)) rows).
  change (map (fun x => fun t0 => cut_point (only t x t0) (only t rot t0) y) rows) with
    (map (fun x => only t (fun t0 : nat => cut_point (x t0) (rot t0) y)) rows).
  rewrite <- (map_map (fun c (t0 : nat) => shadow_coords (c t0) (al t0) y) (only t)).
  rewrite <- (map_map (fun c (t0 : nat) => cut_point (c t0) (rot t0) y) (only t)).
  rewrite sl_fix_overlaps, sl_shadow_elements, sl_illum_elements.
  destruct (illum_elements _ _ _); reflexivity.
Qed.

Lemma sl_fit : forall t p n f,
  fit p 1 (sl_inputs t f) = match fit p n f with Some a => Some (sl_fitted t a) | None => None end.
Proof.
  intros t p n f. unfold fit. cbv zeta.
  change (fit_rotation p (sl_inputs t f)) with (only t (fit_rotation p f)).
  change (fit_alpha p (sl_inputs t f)) with (only t (fit_alpha p f)).
  rewrite sl_fit_rows.
  replace (map row_coords (map (sl_row t) (fit_rows p (fit_alpha p f) (fit_rotation p f)))) with
    (map (only t) (map row_coords (fit_rows p (fit_alpha p f) (fit_rotation p f)))) by (rewrite !map_map; reflexivity).
  change (fun t0 => direct_shading_flag (fit_shading p (only t (fit_alpha p f)) (only t (fit_rotation p f)) t0)) with
    (only t (fun t0 => direct_shading_flag (fit_shading p (fit_alpha p f) (fit_rotation p f) t0))).
  rewrite sl_ground_from. destruct (ground_from_pvrows _ _ _ _ _); reflexivity.
Qed.

(* ------------------------------------------------------------- lists and indices *)

Lemma flat_map_map : forall (A B C : Type) (g : A -> B) (h : B -> list C) l,
  flat_map h (map g l) = flat_map (fun x => h (g x)) l.
Proof. intros. induction l as [|x l IH]; [reflexivity|]. cbn. rewrite IH. reflexivity. Qed.
Lemma map_flat_map : forall (A B C : Type) (g : B -> C) (h : A -> list B) l,
  map g (flat_map h l) = flat_map (fun x => map g (h x)) l.
Proof. intros. induction l as [|x l IH]; [reflexivity|]. cbn. rewrite map_app, IH. reflexivity. Qed.

Lemma sl_side_surfaces : forall t d, side_surfaces (sl_side t d) = map (sl_surface t) (side_surfaces d).
Proof.
  intros t d. unfold side_surfaces, sl_side. cbn [side_segments]. rewrite flat_map_map, map_flat_map.
  apply flat_map_ext. intro g. unfold seg_surfaces. cbn. symmetry. apply map_app.
Qed.
Lemma sl_side_of : forall t b r, side_of b (sl_row t r) = sl_side t (side_of b r).
Proof. intros t [|] r; reflexivity. Qed.

Lemma sl_gnd_surfaces : forall t g, gnd_surfaces (sl_ground t g) = map (sl_surface t) (gnd_surfaces g).
Proof.
  intros t g. unfold gnd_surfaces. cbn [sl_ground gnd_shadows gnd_illum]. rewrite map_app, !flat_map_map, !map_flat_map.
  reflexivity.
Qed.

Lemma sl_all : forall t a, all_ts_surfaces (sl_fitted t a) = map (sl_surface t) (all_ts_surfaces a).
Proof.
  intros t a. unfold all_ts_surfaces. cbn [sl_fitted ft_ground ft_rows]. rewrite sl_gnd_surfaces, map_app, flat_map_map, map_flat_map.
  f_equal. apply flat_map_ext. intro r. unfold row_surfaces. cbn [sl_row row_front row_back].
  rewrite !sl_side_surfaces, map_app. reflexivity.
Qed.

Lemma sl_el_side : forall t e left i, el_side (sl_element t e) left i = map (sl_surface t) (el_side e left i).
Proof.
  intros t e left i. unfold el_side. cbn [sl_element el_dict el_surfaces]. rewrite map_flat_map.
  apply flat_map_ext. intro k. rewrite nth_error_map. destruct (nth_error _ _); reflexivity.
Qed.
Lemma sl_gnd_side : forall t g left i,
  gnd_side_of_cut_point (sl_ground t g) left i = map (sl_surface t) (gnd_side_of_cut_point g left i).
Proof.
  intros t g left i. unfold gnd_side_of_cut_point. cbn [sl_ground gnd_shadows gnd_illum].
  rewrite map_app, !flat_map_map, !map_flat_map. f_equal; apply flat_map_ext; intro e; apply sl_el_side.
Qed.

Lemma fold_left_map : forall (A B C : Type) (f : A -> C -> A) (g : B -> C) l x,
  fold_left f (map g l) x = fold_left (fun x y => f x (g y)) l x.
Proof. intros A B C f g l. induction l as [|y l IH]; intro x; [reflexivity|]. cbn. apply IH. Qed.

Lemma sl_n_surfaces : forall t a, n_ts_surfaces (sl_fitted t a) = n_ts_surfaces a.
Proof.
  intros t a. unfold n_ts_surfaces, gnd_n_ts_surfaces. cbn [sl_fitted ft_ground ft_rows sl_ground gnd_shadows gnd_illum].
  assert (R : forall r, row_n_ts_surfaces (sl_row t r) = row_n_ts_surfaces r).
  { intro r. unfold row_n_ts_surfaces, side_n_ts_surfaces. cbn [sl_row row_front row_back sl_side side_segments].
    rewrite !map_map. unfold seg_n_ts_surfaces. cbn [sl_segment seg_illum seg_shaded].
    f_equal; f_equal; apply map_ext; intro g; rewrite !map_length; reflexivity. }
  rewrite !map_map. f_equal.
  - apply map_ext. exact R.
  - f_equal; f_equal; apply map_ext; intro e; cbn; apply map_length.
Qed.

Lemma sl_index_all : forall t l, index_all (map (sl_surface t) l) = index_all l.
Proof.
  intros t l. unfold index_all. rewrite map_length, combine_map_r, fold_left_map. reflexivity.
Qed.
Lemma sl_index : forall t a s, surf_index (sl_fitted t a) (sl_surface t s) = surf_index a s.
Proof. intros t a s. unfold surf_index. rewrite sl_all, sl_index_all. reflexivity. Qed.
Lemma sl_index_id : forall t a s, surf_index (sl_fitted t a) s = surf_index a s.
Proof. intros t a s. unfold surf_index. rewrite sl_all, sl_index_all. reflexivity. Qed.

Lemma sl_dummy : forall t, sl_row t dummy_row = dummy_row.
Proof. reflexivity. Qed.
Lemma sl_nth_row : forall t rows i, nth i (map (sl_row t) rows) dummy_row = sl_row t (nth i rows dummy_row).
Proof. intros t rows i. rewrite <- (sl_dummy t) at 1. apply map_nth. Qed.
Lemma sl_lowest : forall t rows i, row_lowest_pt (map (sl_row t) rows) i 0 = row_lowest_pt rows i t.
Proof. intros t rows i. unfold row_lowest_pt. rewrite sl_nth_row. reflexivity. Qed.

(* --------------------------------------------------------------- view factors *)

Lemma sl_vf_gnd : forall t rows tl i b l x y,
  vf_pvrow_surf_to_gnd_surf (map (sl_row t) rows) tl i b l 0 (sl_surface t x) (sl_surface t y) =
  vf_pvrow_surf_to_gnd_surf rows tl i b l t x y.
Proof. intros. unfold vf_pvrow_surf_to_gnd_surf. rewrite !map_length, !sl_lowest. reflexivity. Qed.
Lemma sl_vf_pair : forall t f x y, vf_pvrow_pair f 0 (sl_surface t x) (sl_surface t y) = vf_pvrow_pair f t x y.
Proof. reflexivity. Qed.

Lemma sl_pair : forall t a x y v, pair_of a t x y v -> pair_of (sl_fitted t a) 0 (sl_surface t x) (sl_surface t y) v.
Proof.
  intros t a x y v [(i & row & b & l & R & X & Y & ->)|(i & row & row' & b & R & R' & X & Y & ->)].
  - left. exists i, (sl_row t row), b, l. cbn [sl_fitted ft_rows ft_ground ft_rotation].
    rewrite nth_error_map, R, sl_side_of, sl_side_surfaces, sl_gnd_side, sl_vf_gnd.
    split; [reflexivity|]. split; [apply in_map, X|]. split; [apply in_map, Y | reflexivity].
  - right. exists i, (sl_row t row), (sl_row t row'), b. cbn [sl_fitted ft_rows ft_ground ft_rotation].
    rewrite !nth_error_map, R, R', !sl_side_of, !sl_side_surfaces.
    split; [reflexivity|]. split; [reflexivity|]. split; [apply in_map, X|]. split; [apply in_map, Y | reflexivity].
Qed.
Lemma sl_pair_back : forall t a x' y' v, pair_of (sl_fitted t a) 0 x' y' v ->
  exists x y, x' = sl_surface t x /\ y' = sl_surface t y /\ pair_of a t x y v.
Proof.
  intros t a x' y' v [(i & row & b & l & R & X & Y & ->)|(i & row & row' & b & R & R' & X & Y & ->)];
    cbn [sl_fitted ft_rows ft_ground ft_rotation] in *; rewrite !nth_error_map in *.
  - destruct (nth_error (ft_rows a) i) as [r|] eqn:E; [|discriminate R]. inversion R; subst row. clear R.
    rewrite sl_side_of, sl_side_surfaces in X. rewrite sl_gnd_side in Y.
    apply in_map_iff in X. destruct X as (x & <- & X). apply in_map_iff in Y. destruct Y as (y & <- & Y).
    exists x, y. split; [reflexivity|]. split; [reflexivity|]. left. exists i, r, b, l. rewrite sl_vf_gnd. tauto.
  - destruct (nth_error (ft_rows a) i) as [r|] eqn:E; [|discriminate R]. inversion R; subst row. clear R.
    destruct (nth_error (ft_rows a) (S i)) as [r'|] eqn:E'; [|discriminate R']. inversion R'; subst row'. clear R'.
    rewrite sl_side_of, sl_side_surfaces in X, Y.
    apply in_map_iff in X. destruct X as (x & <- & X). apply in_map_iff in Y. destruct Y as (y & <- & Y).
    exists x, y. split; [reflexivity|]. split; [reflexivity|]. right. exists i, r, r', b. tauto.
Qed.

(** View factors from or to a point are zero. *)
Lemma length_zero : forall l, line_length l = 0 -> b1 l = b2 l.
Proof.
  intros [[x1 y1] [x2 y2]] H. unfold line_length in H. cbn [b1 b2 px py] in *.
  pose proof (pow2_ge_0 (y2 - y1)) as A. pose proof (pow2_ge_0 (x2 - x1)) as B.
  apply sqrt_eq_0 in H; [|lra].
  assert (Hx : x2 - x1 = 0) by (apply Rsqr_0_uniq; unfold Rsqr; lra).
  assert (Hy : y2 - y1 = 0) by (apply Rsqr_0_uniq; unfold Rsqr; lra).
  replace x2 with x1 by lra. replace y2 with y1 by lra. reflexivity.
Qed.
Lemma vf_from_point : forall l m, vf_surface_to_surface l m 0 = 0.
Proof.
  intros. unfold vf_surface_to_surface. unfold np_where, Rltb.
  destruct (Rlt_dec DISTANCE_TOLERANCE 0) as [H|H]; [|reflexivity]. unfold DISTANCE_TOLERANCE in H. lra.
Qed.
Lemma vf_to_point : forall l m w, b1 m = b2 m -> vf_surface_to_surface l m w = 0.
Proof.
  intros l m w E. unfold vf_surface_to_surface. rewrite E. unfold np_where. destruct (Rltb _ _); [|reflexivity].
  match goal with |- Rabs ?x / _ = 0 => replace x with 0 by ring end. rewrite Rabs_R0. unfold Rdiv. ring.
Qed.
Lemma hottel_from_point : forall h l g1 g2 o b, vf_hottel_gnd_surf h l g1 g2 o 0 b = 0.
Proof.
  intros. unfold vf_hottel_gnd_surf. unfold np_where, Rltb.
  destruct (Rlt_dec DISTANCE_TOLERANCE 0) as [H|H]; [|reflexivity]. unfold DISTANCE_TOLERANCE in H. lra.
Qed.
Lemma hottel_to_point : forall h l g o w b, vf_hottel_gnd_surf h l g g o w b = 0.
Proof.
  intros. unfold vf_hottel_gnd_surf, np_where. destruct (Rltb _ _); [|reflexivity].
  destruct b; match goal with |- ?x / _ = 0 => replace x with 0 by ring end; unfold Rdiv; ring.
Qed.

Lemma pair_zero : forall a t x y v, pair_of a t x y v -> s_length x t = 0 \/ s_length y t = 0 -> v = (0, 0).
Proof.
  intros a t x y v H Z.
  assert (G : forall u lx ly : R, (lx = 0 \/ ly = 0 -> u = 0) -> (lx = 0 \/ ly = 0) ->
    (u, np_where (Rltb DISTANCE_TOLERANCE ly) (u * lx / ly) 0) = (0, 0)).
  { intros u lx ly A B. rewrite (A B). unfold np_where. destruct (Rltb _ _); [|reflexivity].
    f_equal. unfold Rdiv. ring. }
  destruct H as [(i & row & b & l & R & X & Y & ->)|(i & row & row' & b & R & R' & X & Y & ->)].
  - unfold vf_pvrow_surf_to_gnd_surf. apply G; [|exact Z]. intro W.
    match goal with |- context [if ?c then vf_surface_to_surface ?p ?q ?r else vf_hottel_gnd_surf ?h ?lo ?g1 ?g2 ?o ?w ?d] =>
      assert (E : (if c then vf_surface_to_surface p q r else vf_hottel_gnd_surf h lo g1 g2 o w d) = 0) end.
    { destruct W as [W|W].
      - rewrite W. rewrite vf_from_point, hottel_from_point. destruct (_ || _); reflexivity.
      - pose proof (length_zero _ W) as Q. rewrite vf_to_point by exact Q. rewrite Q, hottel_to_point.
        destruct (_ || _); reflexivity. }
    rewrite E. unfold np_where. destruct l, b, (Rltb 0 (ft_rotation a t)); reflexivity.
  - unfold vf_pvrow_pair. apply G; [|exact Z]. intro W. unfold np_where.
    assert (E : vf_surface_to_surface (s_coords x t) (s_coords y t) (s_length x t) = 0).
    { destruct W as [W|W]; [rewrite W; apply vf_from_point | apply vf_to_point, length_zero, W]. }
    rewrite E. destruct (if b then _ else _); reflexivity.
Qed.

(** Emptiness of a surface in the batch and alone. *)
Lemma np_sum_part : forall n (g : nat -> R) t, (forall k, 0 <= g k) -> (t < n)%nat -> g t <= np_sum n g.
Proof.
  intros n g t H T. rewrite np_sum_isum. apply isum_in_le; [intros; apply H | exact T].
Qed.
Lemma line_length_nonneg : forall l, 0 <= line_length l.
Proof. intros. apply sqrt_pos. Qed.
Lemma not_empty_batch : forall n s t, (t < n)%nat -> DISTANCE_TOLERANCE <= s_length s t -> is_empty n s = false.
Proof.
  intros n s t T H. unfold is_empty, Rltb. destruct (Rlt_dec _ _) as [L|L]; [|reflexivity].
  pose proof (np_sum_part n (s_length s) t (fun k => line_length_nonneg _) T). lra.
Qed.
Lemma np_sum_one : forall g, np_sum 1 g = g 0%nat.
Proof. intro g. rewrite np_sum_isum. cbn. ring. Qed.
Lemma empty_alone : forall t s, is_empty 1 (sl_surface t s) = Rltb (s_length s t) DISTANCE_TOLERANCE.
Proof. intros t s. unfold is_empty. rewrite np_sum_one. reflexivity. Qed.

(** No surface has at [t] a length strictly between 0 and the tolerance. *)
Definition no_slivers (a : fitted) (t : nat) : Prop :=
  forall s, In s (all_ts_surfaces a) -> s_length s t = 0 \/ DISTANCE_TOLERANCE <= s_length s t.

Lemma sl_pre_sky : forall p n f a t, valid_params p -> fit p n f = Some a -> (t < n)%nat -> no_slivers a t ->
  forall k m, pre_sky (sl_fitted t a) 0 k m = pre_sky a t k m.
Proof.
  intros p n f a t V F T NS k m.
  assert (F' : fit p 1 (sl_inputs t f) = Some (sl_fitted t a)) by (rewrite (sl_fit t p n f), F; reflexivity).
  assert (N : ft_n_states a = n) by (destruct (fit_spec _ _ _ _ F) as [-> _]; reflexivity).
  assert (B : forall x y v, pair_of a t x y v -> is_empty 1 (sl_surface t x) = false -> is_empty 1 (sl_surface t y) = false ->
    (pre_sky a t (surf_index a x) (surf_index a y) = fst v /\ pre_sky a t (surf_index a y) (surf_index a x) = snd v) /\
    (pre_sky (sl_fitted t a) 0 (surf_index a x) (surf_index a y) = fst v /\
     pre_sky (sl_fitted t a) 0 (surf_index a y) (surf_index a x) = snd v)).
  { intros x y v H X Y. split.
    - apply (pre_sky_pair p n f a V F t x y v H); rewrite N; apply (not_empty_batch _ _ t T).
      + rewrite empty_alone in X. unfold Rltb in X. destruct (Rlt_dec _ _); [discriminate | lra].
      + rewrite empty_alone in Y. unfold Rltb in Y. destruct (Rlt_dec _ _); [discriminate | lra].
    - rewrite <- (sl_index t a x), <- (sl_index t a y).
      apply (pre_sky_pair p 1 _ _ V F' 0%nat _ _ v (sl_pair _ _ _ _ _ H)); assumption. }
  destruct (Req_dec (pre_sky (sl_fitted t a) 0 k m) 0) as [Z|Z].
  - destruct (Req_dec (pre_sky a t k m) 0) as [Z'|Z']; [congruence|].
    destruct (pre_sky_other a t k m Z') as (x & y & v & H & X & Y & C).
    destruct (pair_in_all p n f a F t x y v H) as [Ix Iy].
    assert (Q : forall s, In s (all_ts_surfaces a) -> is_empty 1 (sl_surface t s) = true -> s_length s t = 0).
    { intros s I E. rewrite empty_alone in E. unfold Rltb in E. destruct (Rlt_dec _ _); [|discriminate].
      destruct (NS s I); lra. }
    destruct (is_empty 1 (sl_surface t x)) eqn:EX; [|destruct (is_empty 1 (sl_surface t y)) eqn:EY].
    + pose proof (pair_zero _ _ _ _ _ H (or_introl (Q x Ix EX))) as E. subst v.
      destruct (pre_sky_pair p n f a V F t x y _ H X Y) as [E1 E2]. cbn in E1, E2.
      destruct C as [[-> ->]|[-> ->]]; congruence.
    + pose proof (pair_zero _ _ _ _ _ H (or_intror (Q y Iy EY))) as E. subst v.
      destruct (pre_sky_pair p n f a V F t x y _ H X Y) as [E1 E2]. cbn in E1, E2.
      destruct C as [[-> ->]|[-> ->]]; congruence.
    + destruct (B x y v H EX EY) as [[A1 A2] [A3 A4]]. destruct C as [[-> ->]|[-> ->]]; congruence.
  - destruct (pre_sky_other (sl_fitted t a) 0%nat k m Z) as (x' & y' & v & H & X & Y & C).
    destruct (sl_pair_back _ _ _ _ _ H) as (x & y & -> & -> & H'). rewrite !sl_index in C.
    cbn [sl_fitted ft_n_states] in X, Y.
    destruct (B x y v H' X Y) as [[A1 A2] [A3 A4]]. destruct C as [[-> ->]|[-> ->]]; congruence.
Qed.

Lemma sl_matrix : forall p n f a t, valid_params p -> fit p n f = Some a -> (t < n)%nat -> no_slivers a t ->
  build_vf_matrix (sl_fitted t a) 0 = build_vf_matrix a t.
Proof.
  intros p n f a t V F T NS. apply functional_extensionality. intro k. apply functional_extensionality. intro m.
  rewrite !build_vf_matrix_eq, !clear_sky_cells, sl_all, sl_n_surfaces, nth_error_map.
  replace (pre_sky (sl_fitted t a) 0) with (pre_sky a t); [destruct (nth_error _ _); reflexivity|].
  apply functional_extensionality. intro i. apply functional_extensionality. intro j. symmetry.
  apply (sl_pre_sky p n f a t V F T NS).
Qed.
