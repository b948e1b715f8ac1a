(** Each timestep of a simulation is computed independently of the others: AOI matrix, fast
    mode and runs of the engine. *)
From Coq Require Import Reals List Bool Arith String Lra Lia FunctionalExtensionality.
From Verif Require Import Num ModelTs ModelGeom ModelVF Basics SpecGeom ProofFit ProofIndex ProofMatrix ProofTele ModelParams SpecParams
  ModelIrr ModelAOI ModelLinalg ModelEngine ProofIrr ProofSky ProofLocal ProofLocal2.
Import ListNotations.
Open Scope R_scope.

Section Local.
Variable t : nat.
Notation at_t := (at_t t).
Notation of_t := (of_t t).
Notation store_at := (store_at t).
Notation irr_at := (irr_at t).

(* --------------------------------------------------------------- AOI methods *)

Lemma surf_empty_or : forall n s, (t < n)%nat ->
  is_empty 1 (sl_surface t s) = is_empty n s \/ (is_empty 1 (sl_surface t s) = true /\ Rltb (s_length s t) DISTANCE_TOLERANCE = true).
Proof.
  intros n s T. rewrite empty_alone. destruct (Rltb (s_length s t) DISTANCE_TOLERANCE) eqn:E; [right; auto | left].
  symmetry. apply (not_empty_batch n s t T). unfold Rltb in E. destruct (Rlt_dec _ _); [discriminate | lra].
Qed.
Lemma coords_empty_or : forall n (c c' : ts line), (t < n)%nat -> at_t c c' ->
  coords_empty 1 c' = coords_empty n c \/ (coords_empty 1 c' = true /\ Rltb (line_length (c t)) DISTANCE_TOLERANCE = true).
Proof.
  intros n c c' T E. unfold coords_empty. rewrite np_sum_one. rewrite <- E.
  destruct (Rltb (line_length (c t)) DISTANCE_TOLERANCE) eqn:L; [right; auto | left].
  unfold Rltb in *. destruct (Rlt_dec (line_length (c t)) _); [discriminate|].
  destruct (Rlt_dec _ _) as [H|H]; [|reflexivity].
  pose proof (np_sum_part n (fun t => line_length (c t)) t (fun k => line_length_nonneg _) T). cbv beta in *. lra.
Qed.
Lemma s2s_at : forall n af s c c' b, (t < n)%nat -> at_t c c' ->
  vf_aoi_surface_to_surface 1 af (sl_surface t s) c' b 0 = vf_aoi_surface_to_surface n af s c b t.
Proof.
  intros n af s c c' b T E. unfold vf_aoi_surface_to_surface.
  change (s_length (sl_surface t s) 0%nat) with (s_length s t). change (s_uvec (sl_surface t s) 0%nat) with (s_uvec s t).
  change (s_centroid (sl_surface t s) 0%nat) with (s_centroid s t). rewrite <- E. unfold np_where.
  destruct (surf_empty_or n s T) as [A|[A A']]; destruct (coords_empty_or n c c' T E) as [B|[B B']];
    rewrite ?A, ?B, ?A', ?B', ?orb_true_r; cbn [orb]; try reflexivity;
    repeat match goal with |- context [if ?x then _ else _] => destruct x end; reflexivity.
Qed.
Lemma aoi_gnd_at : forall n af rows tl i b l x y, (t < n)%nat ->
  vf_aoi_pvrow_surf_to_gnd_surf 1 af (map (sl_row t) rows) tl i b l 0 (sl_surface t x) (sl_surface t y) =
  vf_aoi_pvrow_surf_to_gnd_surf n af rows tl i b l t x y.
Proof.
  intros n af rows tl i b l x y T. unfold vf_aoi_pvrow_surf_to_gnd_surf. rewrite !map_length, !sl_lowest.
  change (s_length (sl_surface t x) 0%nat) with (s_length x t). change (s_length (sl_surface t y) 0%nat) with (s_length y t).
  change (s_uvec (sl_surface t x) 0%nat) with (s_uvec x t). change (s_centroid (sl_surface t x) 0%nat) with (s_centroid x t).
  change (s_coords (sl_surface t y) 0%nat) with (s_coords y t).
  destruct (surf_empty_or n x T) as [A|[A A']]; destruct (surf_empty_or n y T) as [B|[B B']];
    rewrite ?A, ?B, ?A', ?B', ?orb_true_r; cbn [orb]; try reflexivity;
    unfold np_where; destruct (is_empty n x); try reflexivity; destruct (is_empty n y); try reflexivity; cbn [orb];
    destruct l, b, tl; reflexivity.
Qed.
Lemma fold_left_eq : forall (A B : Type) (g h : A -> B -> A) l a, (forall x y, In y l -> g x y = h x y) -> fold_left g l a = fold_left h l a.
Proof.
  intros A B g h l. induction l as [|y l IH]; intros a H; [reflexivity|]. cbn. rewrite H by (left; reflexivity).
  apply IH. intros. apply H. right. assumption.
Qed.
Lemma loop_gnd_at : forall idx xs ls rs vl vr vl' vr' M,
  (forall x y, vl' (sl_surface t x) (sl_surface t y) = vl x y) -> (forall x y, vr' (sl_surface t x) (sl_surface t y) = vr x y) ->
  (forall s, idx (sl_surface t s) = idx s) ->
  loop_write_gnd idx (map (sl_surface t) xs) (map (sl_surface t) ls) (map (sl_surface t) rs) vl' vr' M =
  loop_write_gnd idx xs ls rs vl vr M.
Proof.
  intros idx xs ls rs vl vr vl' vr' M L R0 I. unfold loop_write_gnd. rewrite fold_left_map. apply fold_left_eq.
  intros M0 x _. rewrite !fold_left_map, !I.
  replace (fold_left (fun M y => mset M (idx x) (idx (sl_surface t y)) (vl' (sl_surface t x) (sl_surface t y))) ls M0)
    with (fold_left (fun M y => mset M (idx x) (idx y) (vl x y)) ls M0)
    by (apply fold_left_eq; intros; rewrite I, L; reflexivity).
  apply fold_left_eq. intros. rewrite I, R0. reflexivity.
Qed.
Lemma removelast_map : forall (A B : Type) (g : A -> B) l, removelast (map g l) = map g (removelast l).
Proof.
  intros A B g l. induction l as [|x [|y l] IH]; try reflexivity. change (removelast (map g (x :: y :: l))) with (g x :: removelast (map g (y :: l))).
  rewrite IH. reflexivity.
Qed.
Lemma highest_at : forall rows i, row_highest_pt (map (sl_row t) rows) i 0 = row_highest_pt rows i t.
Proof. intros. unfold row_highest_pt. rewrite nth_row_at. reflexivity. Qed.
Lemma dummy_sky_at : forall rows y k, at_t (dummy_sky rows y k) (dummy_sky (map (sl_row t) rows) y k).
Proof. intros. unfold ProofLocal2.at_t, dummy_sky. rewrite map_length, !highest_at. reflexivity. Qed.

Lemma sl_aoi : forall af a n M, ft_n_states a = n -> (t < n)%nat -> aoi_update af (sl_fitted t a) 0 M = aoi_update af a t M.
Proof.
  intros af a n M N T. unfold aoi_update. rewrite N, sl_n_surfaces.
  change (ft_n_states (sl_fitted t a)) with 1%nat. change (ft_rows (sl_fitted t a)) with (map (sl_row t) (ft_rows a)).
  change (ft_ground (sl_fitted t a)) with (sl_ground t (ft_ground a)).
  change (ft_rotation (sl_fitted t a) 0%nat) with (ft_rotation a t).
  assert (I : surf_index (sl_fitted t a) = surf_index a) by (apply functional_extensionality; apply sl_index_id).
  rewrite I. clear I. set (idx := surf_index a). assert (J : forall s, idx (sl_surface t s) = idx s) by reflexivity.
  clearbody idx. generalize (ft_rows a) (ft_ground a) (Rltb 0 (ft_rotation a t)) (n_ts_surfaces a). clear a N.
  intros rows g tl sky.
  assert (G : forall M, vf_aoi_pvrow_to_gnd 1 af idx (map (sl_row t) rows) (sl_ground t g) tl 0 M = vf_aoi_pvrow_to_gnd n af idx rows g tl t M).
  { intro M0. unfold vf_aoi_pvrow_to_gnd. rewrite map_length, combine_map_r, fold_left_map. apply fold_left_eq. intros M1 [i r] _.
    cbn [fst snd sl_row row_front row_back]. rewrite !sl_side_surfaces, !sl_gnd_side.
    rewrite (loop_gnd_at _ _ _ _ (vf_aoi_pvrow_surf_to_gnd_surf n af rows tl i true true t)
      (vf_aoi_pvrow_surf_to_gnd_surf n af rows tl i true false t)); try assumption; try (intros; apply aoi_gnd_at, T).
    apply f_equal. apply loop_gnd_at; try assumption; intros; apply aoi_gnd_at, T. }
  assert (B : forall xs ys b f M, loop_aoi_pairs 1 af idx (map (sl_surface t) xs) (map (sl_surface t) ys) b f 0 M =
                                  loop_aoi_pairs n af idx xs ys b f t M).
  { intros xs ys b f M0. unfold loop_aoi_pairs. rewrite fold_left_map. apply fold_left_eq. intros M1 x _.
    rewrite fold_left_map. apply fold_left_eq. intros M2 y _. unfold mset2. rewrite !J.
    rewrite (s2s_at n af x (s_coords y) (s_coords (sl_surface t y)) b T eq_refl).
    rewrite (s2s_at n af y (s_coords x) (s_coords (sl_surface t x)) (negb b) T eq_refl). reflexivity. }
  rewrite G. generalize (vf_aoi_pvrow_to_gnd n af idx rows g tl t M). clear M G. intro M.
  assert (R0 : forall M, vf_aoi_pvrow_to_pvrow 1 af idx (map (sl_row t) rows) tl 0 M = vf_aoi_pvrow_to_pvrow n af idx rows tl t M).
  { intro M0. unfold vf_aoi_pvrow_to_pvrow. rewrite map_length, removelast_map, combine_map_r, fold_left_map.
    apply fold_left_eq. intros M1 [i r] _. cbn [fst snd]. rewrite sl_nth_row. cbn [sl_row row_front row_back].
    rewrite !sl_side_surfaces, !B. reflexivity. }
  rewrite R0. generalize (vf_aoi_pvrow_to_pvrow n af idx rows tl t M). clear M R0 B. intro M.
  unfold vf_aoi_pvrow_to_sky. rewrite map_length, combine_map_r, fold_left_map. apply fold_left_eq. intros M1 [i r] _.
  cbn [fst snd sl_row row_front row_back]. rewrite !sl_side_surfaces, !fold_left_map.
  change (gnd_y (sl_ground t g)) with (gnd_y g).
  assert (E : forall (b : bool) M, fold_left (fun M x => mset M (idx (sl_surface t x)) sky
       (np_where tl (vf_aoi_surface_to_surface 1 af (sl_surface t x) (dummy_sky (map (sl_row t) rows) (gnd_y g) (if b then (i + 1)%nat else i)) b 0)
                    (vf_aoi_surface_to_surface 1 af (sl_surface t x) (dummy_sky (map (sl_row t) rows) (gnd_y g) (if b then i else (i + 1)%nat)) b 0)))
       (side_surfaces (side_of b r)) M =
     fold_left (fun M x => mset M (idx x) sky
       (np_where tl (vf_aoi_surface_to_surface n af x (dummy_sky rows (gnd_y g) (if b then (i + 1)%nat else i)) b t)
                    (vf_aoi_surface_to_surface n af x (dummy_sky rows (gnd_y g) (if b then i else (i + 1)%nat)) b t)))
       (side_surfaces (side_of b r)) M).
  { intros b M2. apply fold_left_eq. intros M3 x _. rewrite J.
    rewrite !(s2s_at n af x _ _ b T (dummy_sky_at rows (gnd_y g) _)). reflexivity. }
  pose proof (E true) as E1. pose proof (E false) as E0. cbv iota in E1, E0. unfold side_of in E1, E0. cbv iota in E1, E0.
  rewrite E0, E1. reflexivity.
Qed.

(* ----------------------------------------------------------------- fast mode *)

Lemma fast_vf_at : forall k s rows g rot w,
  get_vf_ts_pvrow_element k (s_coords (sl_surface t s)) (map (sl_row t) rows) (sl_ground t g) (only t rot) w 0 =
  get_vf_ts_pvrow_element k (s_coords s) rows g rot w t.
Proof.
  intros k s rows g rot w. unfold get_vf_ts_pvrow_element.
  assert (C : nth k (gnd_cut_points (sl_ground t g)) dummy_cut = only t (nth k (gnd_cut_points g) dummy_cut)).
  { change (gnd_cut_points (sl_ground t g)) with (map (only t) (gnd_cut_points g)).
    change dummy_cut with (only t dummy_cut) at 1. apply map_nth. }
  rewrite C. clear C. set (cut := nth k (gnd_cut_points g) dummy_cut). clearbody cut.
  change (s_coords (sl_surface t s) 0%nat) with (s_coords s t). change (only t rot 0%nat) with (rot t).
  change (only t cut 0%nat) with (cut t). change (gnd_y (sl_ground t g)) with (gnd_y g).
  generalize (s_coords s t). intro c. generalize (rot t). intro r. clear s rot.
  assert (E1 : map (fun lr => calculate_vf_to_shadow (map (sl_row t) rows) c k (Rltb 0 r) (fst lr 0%nat) (snd lr 0%nat) (line_length c) 0)
     (combine (shadow_coords_left_of_cut_point (sl_ground t g) (only t cut)) (shadow_coords_right_of_cut_point (sl_ground t g) (only t cut))) =
     map (fun lr => calculate_vf_to_shadow rows c k (Rltb 0 r) (fst lr t) (snd lr t) (line_length c) t)
     (combine (shadow_coords_left_of_cut_point g cut) (shadow_coords_right_of_cut_point g cut))).
  { unfold shadow_coords_left_of_cut_point, shadow_coords_right_of_cut_point.
    change (gnd_shadows (sl_ground t g)) with (map (sl_element t) (gnd_shadows g)).
    induction (gnd_shadows g) as [|e l IH]; [reflexivity|]. cbn [map combine]. rewrite IH. apply (f_equal2 cons); [|reflexivity].
    unfold calculate_vf_to_shadow. rewrite map_length, !sl_lowest. reflexivity. }
  assert (E2 : calculate_vf_to_gnd (map (sl_row t) rows) c k (gnd_y g) (cut t) (line_length c) (Rltb 0 r) 0 =
               calculate_vf_to_gnd rows c k (gnd_y g) (cut t) (line_length c) (Rltb 0 r) t).
  { unfold calculate_vf_to_gnd. rewrite map_length, !sl_lowest. reflexivity. }
  assert (SL : forall d, side_shaded_length (sl_side t d) 0%nat = side_shaded_length d t).
  { intro d. unfold side_shaded_length. cbn [sl_side side_segments]. rewrite map_map. f_equal. apply map_ext. intro x.
    cbn [sl_segment seg_shaded]. unfold coll_length. rewrite map_map. reflexivity. }
  assert (E3 : calculate_vf_to_pvrow (map (sl_row t) rows) c k (line_length c) (Rltb 0 r) w r 0 =
               calculate_vf_to_pvrow rows c k (line_length c) (Rltb 0 r) w r t).
  { unfold calculate_vf_to_pvrow. rewrite map_length, !sl_nth_row. cbn [sl_row row_xc row_yc row_coords row_front].
    rewrite !SL. reflexivity. }
  rewrite E1, E2, E3. reflexivity.
Qed.

Lemma vfval_at : forall (fld : fast_vf -> R) (v w : ts (option fast_vf)), at_t v w -> at_t (vf_value fld v) (vf_value fld w).
Proof. intros fld v w H. unfold ProofLocal2.at_t, vf_value in *. rewrite H. reflexivity. Qed.

Lemma fast_surface_at : forall m f f' a k st st' s, irr_at f f' -> store_at st st' ->
  res_rel store_at (fast_surface m f a k st s) (fast_surface m f' (sl_fitted t a) k st' (sl_surface t s)).
Proof.
  intros m f f' a k st st' s F S. unfold fast_surface.
  assert (U : res_rel store_at (update_sky_term (im_kind m) st s) (update_sky_term (im_kind m) st' (sl_surface t s))).
  { unfold update_sky_term. apply (res_bind _ _ _ _ at_t); [apply sum_at; [exact S | reflexivity]|]. intros u v E. cbn [res_rel].
    apply surf_update_at; [reflexivity | exact S | repeat constructor; exact E]. }
  apply (res_bind _ _ _ _ store_at); [exact U | clear U; intros u u' U].
  destruct (im_rho_front m) as [rho|]; [|reflexivity].
  apply (res_bind _ _ _ _ at_t); [apply get_at; [exact U | reflexivity] | intros y y' Y]. cbn [res_rel].
  set (v := fun t0 => get_vf_ts_pvrow_element k (s_coords s) (ft_rows a) (ft_ground a) (ft_rotation a) (ft_width a) t0).
  set (w := fun t0 => get_vf_ts_pvrow_element k (s_coords (sl_surface t s)) (ft_rows (sl_fitted t a)) (ft_ground (sl_fitted t a))
                        (ft_rotation (sl_fitted t a)) (ft_width (sl_fitted t a)) t0).
  assert (V : at_t v w).
  { unfold ProofLocal2.at_t, v, w. cbn [sl_fitted ft_rows ft_ground ft_rotation ft_width]. symmetry. apply fast_vf_at. }
  clearbody v w. destruct F as [A1 A2 A3 A4 _ _ _ _ A9 A10 A11 _ _ _].
  unfold ProofLocal2.at_t, irr_gnd_shaded, irr_gnd_illum, irr_pvrow_shaded, irr_pvrow_illum, irr_sky_luminance in *.
  apply surf_update_at; [reflexivity | exact U |].
  repeat constructor; cbn [fst snd pval_at]; unfold ProofLocal2.at_t, vf_value;
    rewrite ?V, ?A1, ?A2, ?A4, ?A9, ?A10, ?A11, ?Y; reflexivity.
Qed.
Lemma fast_segment_at : forall m f f' a k st st' g, irr_at f f' -> store_at st st' ->
  res_rel store_at (fast_segment m f a k st g) (fast_segment m f' (sl_fitted t a) k st' (sl_segment t g)).
Proof.
  intros m f f' a k st st' g F S. unfold fast_segment, seg_surfaces. cbn [sl_segment seg_illum seg_shaded]. rewrite <- map_app.
  refine (fold_result_rel _ _ _ _ store_at (fun g g' => g' = sl_surface t g) _ _ _ _ _ (Forall2_map_r _ _ _ _) _ _ S).
  intros u u' s s' U ->. apply fast_surface_at; assumption.
Qed.

(* ---------------------------------------------------------------------- engines *)

(** The state of an engine [e] at [t], in the engine [e'] of one timestep. *)
Record engine_at (n : nat) (e e' : engine) : Prop := EngineAt {
  ea_irr : en_irr e' = en_irr e;
  ea_aoi : ca_aoi (en_calc e') = ca_aoi (en_calc e);
  ea_aoi_fitted : ca_aoi_fitted (en_calc e') = ca_aoi_fitted (en_calc e);
  ea_row : en_fast_row e' = en_fast_row e;
  ea_seg : en_fast_seg e' = en_fast_seg e;
  ea_params : pv_params (en_array e') = pv_params (en_array e);
  ea_names : pv_param_names (en_array e') = pv_param_names (en_array e);
  ea_next : hp_next (en_heap e') = hp_next (en_heap e);
  ea_array : exists a fi, pv_fitted (en_array e) = Some a /\ pv_fitted (en_array e') = Some (sl_fitted t a) /\
     fit (pv_params (en_array e)) n fi = Some a;
  ea_fitted : exists f f', en_irr_fitted e = Some f /\ en_irr_fitted e' = Some f' /\ irr_at f f';
  ea_store : store_at (pv_store (en_array e)) (pv_store (en_array e'))
}.

Lemma fit_at : forall P e i, (t < ii_n i)%nat ->
  res_rel (engine_at (ii_n i)) (engine_fit_arrays P e i) (engine_fit_arrays P e (sl_irr t i)).
Proof.
  intros P e i T. unfold engine_fit_arrays, pvarray_fit. cbn [sl_irr ii_n ii_zenith ii_solar_azimuth ii_tilt ii_azimuth].
  change (FitInputs (only t (ii_zenith i)) (only t (ii_solar_azimuth i)) (only t (ii_tilt i)) (only t (ii_azimuth i)))
    with (sl_inputs t (FitInputs (ii_zenith i) (ii_solar_azimuth i) (ii_tilt i) (ii_azimuth i))).
  rewrite (sl_fit t _ (ii_n i)).
  destruct (fit _ _ _) as [a|] eqn:FA; [|reflexivity]. cbn [bind pv_fitted].
  apply (res_bind _ _ _ _ irr_at); [apply irr_fit_at, T | intros f f' F]. cbn [pv_store].
  apply (res_bind _ _ _ _ store_at); [apply transform_at; [exact F | apply fresh_at] | intros st st' S].
  apply (res_bind _ _ _ _ eq).
  { unfold calculator_fit. destruct (ca_aoi (en_calc e)) as [m|]; [|reflexivity]. destruct (aoi_fit m); reflexivity. }
  intros c c' <-. cbn [res_rel]. constructor; try reflexivity; cbn; eauto 10.
Qed.

Lemma list_get_map : forall (A B : Type) (g : A -> B) l k,
  list_get (map g l) k = match list_get l k with Ok x => Ok (g x) | Err e => Err e end.
Proof. intros. unfold list_get. rewrite nth_error_map. destruct (nth_error l k); reflexivity. Qed.

Lemma fast_at : forall n e e' r s, engine_at n e e' ->
  res_rel (engine_at n) (run_fast_mode e r s) (run_fast_mode e' r s).
Proof.
  intros n e e' r s [H1 H2 H3 H4 H5 H6 H7 H8 H9 H10 H11].
  destruct H9 as (a & fi & A & A' & FA). destruct H10 as (f & f' & F & F' & FF).
  unfold run_fast_mode. rewrite A, A', F, F', H4, H5, H1.
  destruct (match r with Some k => Some k | None => en_fast_row e end) as [k|]; [|reflexivity].
  change (ft_rows (sl_fitted t a)) with (map (sl_row t) (ft_rows a)). rewrite list_get_map.
  destruct (list_get (ft_rows a) k) as [row|]; [|reflexivity]. cbn [bind sl_row row_back sl_side side_segments].
  apply (res_bind _ _ _ _ store_at).
  - destruct (match s with Some j => Some j | None => en_fast_seg e end) as [j|].
    + rewrite list_get_map. destruct (list_get (side_segments (row_back row)) j) as [g|]; [|reflexivity].
      cbn [bind]. apply fast_segment_at; assumption.
    + refine (fold_result_rel _ _ _ _ store_at (fun g g' => g' = sl_segment t g) _ _ _ _ _ (Forall2_map_r _ _ _ _) _ _ H11).
      intros u u' g g' U ->. apply fast_segment_at; assumption.
  - intros u u' U. cbn [res_rel]. constructor; cbn; try assumption; eauto 10.
Qed.

Lemma write_at : forall l st st' q0 qi is rf qa q0' qi' is' rf' qa', store_at st st' ->
  (forall k, at_t (q0 k) (q0' k)) -> (forall k, at_t (qi k) (qi' k)) -> (forall k, at_t (is k) (is' k)) ->
  (forall k, at_t (rf k) (rf' k)) -> (forall k, at_t (qa k) (qa' k)) ->
  store_at (write_results st l q0 qi is rf qa) (write_results st' (map (sl_surface t) l) q0' qi' is' rf' qa').
Proof.
  intros l st st' q0 qi is rf qa q0' qi' is' rf' qa' S A B C D E. unfold write_results. rewrite map_length, combine_map_r.
  refine (fold_left_rel _ _ _ _ store_at (fun x y => y = (fst x, sl_surface t (snd x))) _ _ _ _ _ (Forall2_map_r _ _ _ _) _ _ S).
  intros u u' [k s] y U ->. cbn [fst snd]. apply surf_update_at; [reflexivity | exact U|].
  repeat constructor; cbn [fst snd pval_at]; auto.
Qed.

Lemma full_at : forall n e e', engine_at n e e' -> (t < n)%nat -> valid_params (pv_params (en_array e)) ->
  (forall a, pv_fitted (en_array e) = Some a -> no_slivers a t) ->
  match run_full_mode e with
  | Ok r => exists r', run_full_mode e' = Ok r' /\ engine_at n r r' /\
      (exists v, pv_vf (en_array r) = Some v /\ pv_vf (en_array r') = Some v /\ at_t (hp_get (en_heap r) v) (hp_get (en_heap r') v)) /\
      (exists v, pv_vf_aoi (en_array r) = Some v /\ pv_vf_aoi (en_array r') = Some v /\ at_t (hp_get (en_heap r) v) (hp_get (en_heap r') v))
  | Err LinAlgError => True
  | Err x => run_full_mode e' = Err x
  end.
Proof.
  intros n e e' [H1 H2 H3 H4 H5 H6 H7 H8 H9 H10 H11] T V NS.
  destruct H9 as (a & fi & A & A' & FA). destruct H10 as (f & f' & F & F' & FF). specialize (NS a A).
  assert (N : ft_n_states a = n) by (destruct (fit_spec _ _ _ _ FA) as [-> _]; reflexivity).
  pose proof (sl_matrix _ _ _ _ _ V FA T NS) as MX.
  unfold run_full_mode. rewrite A, A', F, F', H1, sl_n_surfaces, sl_all.
  pose proof (vectors_at t (im_kind (en_irr e)) f f' _ _ (all_ts_surfaces a) FF H11) as VA.
  destruct (full_ts_modeling_vectors (im_kind (en_irr e)) f (pv_store (en_array e)) (all_ts_surfaces a)) as [[[[irr rho] inv] per]|x];
    destruct (full_ts_modeling_vectors (im_kind (en_irr e)) f' (pv_store (en_array e')) _) as [[[[irr' rho'] inv'] per']|x'];
    cbn [res_rel] in VA; try contradiction; [|subst x'; cbn [bind]; destruct x; auto].
  cbn [fst snd] in VA. destruct VA as (VI & VR & VN).
  apply column_at in VI. apply column_at in VR. apply column_at in VN. cbn [bind heap_alloc hp_get]. rewrite H8, Nat.eqb_refl.
  rewrite N. change (ft_n_states (sl_fitted t a)) with 1%nat.
  set (N1 := S (n_ts_surfaces a)).
  unfold inv_stack. destruct (forallb _ (seq 0 n)) eqn:FB; [|exact I].
  rewrite forallb_forall in FB. specialize (FB t ltac:(apply in_seq; lia)).
  cbn [seq forallb]. rewrite MX, <- VN. destruct (linalg_inv N1 (system_matrix (column inv t) (build_vf_matrix a t))) as [B|] eqn:LI; [|discriminate FB].
  cbn [andb bind].
  clear B LI FB.
  (* the AOI matrix *)
  assert (BA : match build_vf_aoi (en_calc e) a (fun u => column rho u) (hp_next (en_heap e))
                 (Heap (S (hp_next (en_heap e))) (fun r => if r =? hp_next (en_heap e) then build_vf_matrix a else hp_get (en_heap e) r)) with
    | Ok (ra, h) => exists h', build_vf_aoi (en_calc e') (sl_fitted t a) (fun u => column rho' u) (hp_next (en_heap e))
                 (Heap (S (hp_next (en_heap e))) (fun r => if r =? hp_next (en_heap e) then build_vf_matrix (sl_fitted t a) else hp_get (en_heap e') r)) = Ok (ra, h') /\
        at_t (hp_get h ra) (hp_get h' ra) /\ at_t (hp_get h (hp_next (en_heap e))) (hp_get h' (hp_next (en_heap e))) /\ hp_next h' = hp_next h
    | Err x => build_vf_aoi (en_calc e') (sl_fitted t a) (fun u => column rho' u) (hp_next (en_heap e))
                 (Heap (S (hp_next (en_heap e))) (fun r => if r =? hp_next (en_heap e) then build_vf_matrix (sl_fitted t a) else hp_get (en_heap e') r)) = Err x
    end).
  { unfold build_vf_aoi. rewrite H2, H3. destruct (ca_aoi (en_calc e)) as [m|].
    - destruct (ca_aoi_fitted (en_calc e)) as [af|]; [|reflexivity]. unfold heap_write. cbn [hp_get hp_next]. rewrite Nat.eqb_refl.
      eexists. split; [reflexivity|]. cbn [hp_get hp_next]. rewrite Nat.eqb_refl. unfold ProofLocal2.at_t.
      rewrite (sl_aoi af a n _ N T), MX. auto.
    - unfold heap_alloc. cbn [hp_get hp_next]. eexists. split; [reflexivity|]. cbn [hp_get hp_next].
      rewrite !Nat.eqb_refl. replace (hp_next (en_heap e) =? S (hp_next (en_heap e))) with false by (symmetry; apply Nat.eqb_neq; lia).
      unfold ProofLocal2.at_t. rewrite MX, VR. auto. }
  destruct (build_vf_aoi (en_calc e) a _ _ _) as [[ra h]|x]; [|rewrite BA; cbn [bind]; destruct x; auto].
  destruct BA as (h' & BE & HA & HV & HN). rewrite BE. clear BE. cbn [bind].
  pose proof (absorbed_at t (im_kind (en_irr e)) _ _ (all_ts_surfaces a) H11) as AB.
  destruct (summed_absorbed (im_kind (en_irr e)) (pv_store (en_array e)) _) as [ab|x];
    destruct (summed_absorbed (im_kind (en_irr e)) (pv_store (en_array e')) _) as [ab'|x']; cbn [res_rel] in AB; try contradiction;
    [|subst x'; cbn [bind]; destruct x; auto].
  apply column_at in AB. cbn [bind]. eexists. split; [reflexivity|]. split; [|split].
  - constructor; cbn [en_irr en_calc ca_aoi ca_aoi_fitted en_fast_row en_fast_seg en_array pv_params pv_param_names en_heap pv_fitted
      en_irr_fitted pv_store]; try assumption; eauto 10.
    apply write_at; [exact H11 | | | | |]; intro k; unfold ProofLocal2.at_t in *;
      rewrite ?MX, ?VI, ?VN, ?HA, ?AB; reflexivity.
  - exists (hp_next (en_heap e)). cbn. auto.
  - exists ra. cbn. auto.
Qed.
End Local.

Lemma sum_error : forall st s comps e, sum_components st s comps = Err e -> e = KeyError \/ e = TypeError.
Proof.
  intros st s comps e. unfold sum_components. generalize (fun _ : nat => 0). induction comps as [|c l IH]; intros v H; [discriminate|].
  cbn [fold_result] in H. destruct (get_num st s c) as [p|x] eqn:G; cbn [bind] in H; [exact (IH _ H)|].
  injection H as <-. unfold get_num, get_param in G. destruct (ps_surf st (s_id s) c) as [[| |]|]; cbn in G; try discriminate G;
    injection G as <-; auto.
Qed.
Lemma summed_absorbed_error : forall k st l, match summed_absorbed k st l with Ok _ => True | Err e => e = KeyError \/ e = TypeError end.
Proof.
  intros k st l. unfold summed_absorbed. induction l as [|s l IH]; [exact I|]. cbn [map_result].
  destruct (sum_components st s (irradiance_comp_absorbed k)) as [v|e] eqn:E; cbn [bind]; [|exact (sum_error _ _ _ _ E)].
  destruct (map_result _ l); [exact I | exact IH].
Qed.

(** If a batch fails, then one of the timesteps alone fails in the same way. *)
Lemma full_fails : forall n e e' x, (forall t, (t < n)%nat -> engine_at t n e (e' t)) -> (0 < n)%nat ->
  valid_params (pv_params (en_array e)) ->
  (forall a t, pv_fitted (en_array e) = Some a -> (t < n)%nat -> no_slivers a t) ->
  run_full_mode e = Err x -> exists t, (t < n)%nat /\ run_full_mode (e' t) = Err x.
Proof.
  intros n e e' x H Z V NS E. destruct (match x with LinAlgError => true | _ => false end) eqn:X.
  2: { exists 0%nat. split; [exact Z|]. pose proof (full_at 0 n e (e' 0%nat) (H _ Z) Z V (fun a A => NS a 0%nat A Z)) as K.
       rewrite E in K. destruct x; try discriminate X; exact K. }
  destruct x; try discriminate X. clear X.
  pose proof (H _ Z) as [_ _ _ _ _ _ _ _ (a & fi & A & _ & FA) (f & _ & F & _ & _) _].
  assert (N : ft_n_states a = n) by (destruct (fit_spec _ _ _ _ FA) as [-> _]; reflexivity).
  destruct (full_ts_modeling_vectors (im_kind (en_irr e)) f (pv_store (en_array e)) (all_ts_surfaces a)) as [[[[irr rho] inv] per]|x] eqn:VE.
  2: { exists 0%nat. split; [exact Z|]. pose proof (H _ Z) as [H1 _ _ _ _ _ _ _ (a0 & _ & A0 & A' & _) (f0 & f' & F0 & F' & FF) ST].
       replace a0 with a in * by congruence. replace f0 with f in * by congruence.
       pose proof (vectors_at 0 (im_kind (en_irr e)) f f' _ _ (all_ts_surfaces a) FF ST) as VA. rewrite VE in VA.
       unfold run_full_mode in E |- *. rewrite A, F, VE in E. rewrite A', F', H1, sl_all. cbn [bind] in E.
       destruct (full_ts_modeling_vectors (im_kind (en_irr e)) f' _ _) as [[[[? ?] ?] ?]|y]; cbn [res_rel] in VA; [contradiction|].
       cbn [bind]. congruence. }
  destruct (forallb (fun t => match linalg_inv (S (n_ts_surfaces a)) (system_matrix (column inv t) (build_vf_matrix a t)) with Some _ => true | None => false end) (seq 0 n)) eqn:FB.
  - exfalso. unfold run_full_mode in E. rewrite A, F, VE in E. cbn [bind heap_alloc hp_get] in E.
    rewrite N in E. unfold inv_stack in E. rewrite Nat.eqb_refl in E. rewrite FB in E. cbn [bind] in E.
    unfold build_vf_aoi in E.
    destruct (ca_aoi (en_calc e)) as [m|]; [destruct (ca_aoi_fitted (en_calc e)) as [af|]|]; cbn [bind heap_alloc heap_write] in E;
      try discriminate E; pose proof (summed_absorbed_error (im_kind (en_irr e)) (pv_store (en_array e)) (all_ts_surfaces a)) as SA;
      destruct (summed_absorbed (im_kind (en_irr e)) (pv_store (en_array e)) (all_ts_surfaces a)) as [|y]; cbn [bind] in E; try discriminate E;
      destruct SA as [->| ->]; discriminate E.
  - assert (B : exists t, (t < n)%nat /\ linalg_inv (S (n_ts_surfaces a)) (system_matrix (column inv t) (build_vf_matrix a t)) = None).
    { destruct (existsb (fun t => match linalg_inv (S (n_ts_surfaces a)) (system_matrix (column inv t) (build_vf_matrix a t)) with Some _ => false | None => true end) (seq 0 n)) eqn:EB.
      - apply existsb_exists in EB. destruct EB as (t & I & K). apply in_seq in I. exists t. split; [lia|].
        destruct (linalg_inv _ _); [discriminate | reflexivity].
      - exfalso. assert (G : forallb (fun t => match linalg_inv (S (n_ts_surfaces a)) (system_matrix (column inv t) (build_vf_matrix a t)) with Some _ => true | None => false end) (seq 0 n) = true).
        { apply forallb_forall. intros t I. destruct (linalg_inv (S (n_ts_surfaces a)) _) eqn:L; [reflexivity|].
          assert (Q : existsb (fun t => match linalg_inv (S (n_ts_surfaces a)) (system_matrix (column inv t) (build_vf_matrix a t)) with Some _ => false | None => true end) (seq 0 n) = true)
            by (apply existsb_exists; exists t; split; [exact I | rewrite L; reflexivity]). congruence. }
        congruence. }
    destruct B as (t & T & L). exists t. split; [exact T|].
    pose proof (H _ T) as [H1 _ _ _ _ _ _ H8 (a0 & _ & A0 & A' & _) (f0 & f' & F0 & F' & FF) ST].
    replace a0 with a in * by congruence. replace f0 with f in * by congruence.
    pose proof (vectors_at t (im_kind (en_irr e)) f f' _ _ (all_ts_surfaces a) FF ST) as VA. rewrite VE in VA.
    unfold run_full_mode. rewrite A', F', H1, sl_all, sl_n_surfaces.
    destruct (full_ts_modeling_vectors (im_kind (en_irr e)) f' _ _) as [[[[irr' rho'] inv'] per']|y]; cbn [res_rel fst snd] in VA; [|contradiction].
    destruct VA as (_ & _ & VN). apply column_at in VN. cbn [bind heap_alloc hp_get]. rewrite Nat.eqb_refl.
    change (ft_n_states (sl_fitted t a)) with 1%nat. unfold inv_stack. cbn [seq forallb].
    rewrite (sl_matrix _ _ _ _ _ V FA T (NS a t A T)), <- VN, L. reflexivity.
Qed.
