(** Building a PV array from a dictionary of scalars (C63) and looking at a fitted array at
    one index (C64). *)
From Coq Require Import Reals List Bool Arith String Lra Lia.
From Verif Require Import Num Basics ModelTs ModelGeom ModelVF ModelParams ModelEngine ModelShapely
  ModelSnapshot ModelViews SpecGeom SpecSnapshot ProofGround ProofRow ProofCut ProofFit ProofIndex ProofGeom2 ProofLocal ProofMerge ProofGroundAt ProofSnapshot PropGeom PropSnapshot.
Import ListNotations.
Open Scope R_scope.
Open Scope list_scope.

(** The dictionary [cut] asks for [k] segments on a side of a row. *)
Definition asks (cut : list (nat * list (string * nat))) (row : nat) (side : string) (k : nat) : Prop :=
  exists sides, In (row, sides) cut /\ In (side, k) sides.

(** Python dictionaries have one entry per key. *)
Definition keys_unique (cut : list (nat * list (string * nat))) : Prop :=
  NoDup (map fst cut) /\ forall row sides, In (row, sides) cut -> NoDup (map fst sides).

(** Two surfaces of two arrays are the same at the given timesteps. *)
Definition same_surface (a : fitted) (t : nat) (b : fitted) (u : nat) (s r : ts_surface) : Prop :=
  s_id s = s_id r /\ s_coords s t = s_coords r u /\ s_shaded s = s_shaded r /\
  s_nvec s t = s_nvec r u /\ surf_index a s = surf_index b r.

(** What can be read on a fitted array at a timestep. *)
Definition same_array (a : fitted) (t : nat) (b : fitted) (u : nat) : Prop :=
  ft_rotation a t = ft_rotation b u /\ ft_width a = ft_width b /\
  Forall2 (same_surface a t b u) (all_ts_surfaces a) (all_ts_surfaces b) /\
  Forall2 (fun r r' => row_xc r = row_xc r' /\ row_yc r = row_yc r' /\ row_coords r t = row_coords r' u)
    (ft_rows a) (ft_rows b) /\
  gnd_flag_overlap (ft_ground a) t = gnd_flag_overlap (ft_ground b) u /\
  Forall2 (fun c c' => c t = c' u) (gnd_cut_points (ft_ground a)) (gnd_cut_points (ft_ground b)) /\
  Forall2 (fun c c' => el_coords c t = el_coords c' u)
    (gnd_shadows (ft_ground a) ++ gnd_illum (ft_ground a)) (gnd_shadows (ft_ground b) ++ gnd_illum (ft_ground b)).

(** The numbers of a dictionary of scalars. *)
Definition scalar_keys : list string :=
  ["axis_azimuth"; "gcr"; "pvrow_height"; "pvrow_width"; "solar_zenith"; "solar_azimuth";
   "surface_tilt"; "surface_azimuth"]%string.

(* ------------------------------------------------------------------------ proofs *)

Lemma find_key : forall (A B : Type) (eqb : A -> A -> bool) (l : list (A * B)) k v,
  (forall x y, eqb x y = true <-> x = y) -> NoDup (map fst l) -> In (k, v) l ->
  find (fun e => eqb (fst e) k) l = Some (k, v).
Proof.
  intros A B eqb l k v H. induction l as [|[x y] l IH]; intros N I; [contradiction|].
  cbn in *. apply NoDup_cons_iff in N as [N1 N2]. destruct I as [E|I].
  - injection E as -> ->. replace (eqb k k) with true by (symmetry; apply H; reflexivity). reflexivity.
  - destruct (eqb x k) eqn:E; [|auto]. apply H in E. subst x. exfalso. apply N1.
    apply in_map_iff. exists (k, v). auto.
Qed.

Lemma find_no_key : forall (A B : Type) (eqb : A -> A -> bool) (l : list (A * B)) k,
  (forall x y, eqb x y = true <-> x = y) -> (forall v, ~ In (k, v) l) ->
  find (fun e => eqb (fst e) k) l = None.
Proof.
  intros A B eqb l k H N. destruct (find _ l) as [[x v]|] eqn:E; [|reflexivity].
  apply find_some in E as [I E]. cbn in E. apply H in E. subst x. exfalso. exact (N v I).
Qed.

Lemma cut_asked : forall cut row (bk : bool) k, keys_unique cut ->
  asks cut row (if bk then "back" else "front")%string k -> cut_of cut row bk = k.
Proof.
  intros cut row bk k [U1 U2] (sides & I & J). unfold cut_of.
  rewrite (find_key _ _ _ _ _ _ Nat.eqb_eq U1 I). cbn [snd].
  rewrite (find_key _ _ _ _ _ _ String.eqb_eq (U2 _ _ I) J). reflexivity.
Qed.

Lemma cut_not_asked : forall cut row (bk : bool), keys_unique cut ->
  (forall k, ~ asks cut row (if bk then "back" else "front")%string k) -> cut_of cut row bk = 1%nat.
Proof.
  intros cut row bk [U1 U2] N. unfold cut_of.
  destruct (find (fun e => Nat.eqb (fst e) row) cut) as [[x sides]|] eqn:E; [|reflexivity].
  apply find_some in E as [I E]. cbn in E. apply Nat.eqb_eq in E. subst x. cbn [snd].
  rewrite (find_no_key _ _ _ _ _ String.eqb_eq); [reflexivity|].
  intros v J. apply (N v). exists sides. auto.
Qed.

Lemma Forall2_map_self : forall (A B : Type) (P : B -> A -> Prop) (g : A -> B) l,
  (forall x, In x l -> P (g x) x) -> Forall2 P (map g l) l.
Proof. intros A B P g l H. induction l; constructor; cbn in *; auto. Qed.

Lemma fit_cut_ext : forall az gcr h w k c c' n f, (forall i bk, c i bk = c' i bk) ->
  fit (PVArrayParams az gcr h w k c) n f = fit (PVArrayParams az gcr h w k c') n f.
Proof.
  intros az gcr h w k c c' n f E.
  assert (R : forall al rot, fit_rows (PVArrayParams az gcr h w k c) al rot = fit_rows (PVArrayParams az gcr h w k c') al rot).
  { intros al rot. rewrite !fit_rows_eq. apply map_ext. intros i. unfold fit_row. cbn [pa_cut pa_width pa_n_pvrows]. rewrite !E. reflexivity. }
  unfold fit. rewrite R. reflexivity.
Qed.

(* ------------------------------------------------------------------- C63 *)

(** The array that results: fitted to one timestep with the given angles, with the
    parameter names given and no value yet, no view factors; the sides have as many
    segments as [cut] asks for, one where it asks for nothing. *)
Theorem C63_scalars : forall d names azimuth gcr height width n zenith sazimuth tilt wazimuth,
  ad_num d "axis_azimuth" = Some azimuth -> ad_num d "gcr" = Some gcr ->
  ad_num d "pvrow_height" = Some height -> ad_num d "pvrow_width" = Some width ->
  ad_n_pvrows d = Some (S n) ->
  ad_num d "solar_zenith" = Some zenith -> ad_num d "solar_azimuth" = Some sazimuth ->
  ad_num d "surface_tilt" = Some tilt -> ad_num d "surface_azimuth" = Some wazimuth ->
  exists arr a, fit_from_dict_of_scalars d names = Ok arr /\ pv_fitted arr = Some a /\
    ft_n_states a = 1%nat /\ List.length (ft_rows a) = S n /\
    pv_vf arr = None /\ pv_vf_aoi arr = None /\ pv_param_names arr = names /\
    (forall s k, ps_surf (pv_store arr) s k = None <-> ~ In k names) /\
    (forall s k v, ps_surf (pv_store arr) s k = Some v -> v = PNone) /\
    (forall p m f b t, fit p m f = Some b ->
       pa_axis_azimuth p = azimuth -> pa_gcr p = gcr -> pa_height p = height ->
       pa_width p = width -> pa_n_pvrows p = S n ->
       (forall i bk, pa_cut p i bk = pa_cut (pv_params arr) i bk) ->
       fi_zenith f t = zenith -> fi_azimuth f t = sazimuth -> fi_tilt f t = tilt ->
       fi_surf_azimuth f t = wazimuth -> same_array a 0 b t).
Proof.
  intros d names az gcr h w n z sa ti wa K1 K2 K3 K4 K5 K6 K7 K8 K9.
  unfold fit_from_dict_of_scalars, init_from_dict, dict_num. rewrite K1, K2, K3, K4, K5, K6, K7, K8, K9. cbn [bind].
  unfold fit_angles. cbn [pv_params pvarray_init pv_param_names pv_vf pv_vf_aoi].
  set (q := PVArrayParams az gcr h w (S n) (cut_of (dict_cut d))).
  destruct (fit_total q 1 (FitInputs (fun _ => z) (fun _ => sa) (fun _ => ti) (fun _ => wa))) as [a F]; [cbn; lia|].
  rewrite F. eexists _, a. split; [reflexivity|]. cbn [pv_fitted pv_vf pv_vf_aoi pv_param_names pv_store pv_params].
  destruct (fit_spec _ _ _ _ F) as (N & _ & _ & RW & _).
  split; [reflexivity|]. split; [exact N|]. split; [rewrite RW; apply fit_rows_length|].
  split; [reflexivity|]. split; [reflexivity|]. split; [reflexivity|].
  split; [|split].
  - intros s k. cbn [fresh_store ps_surf]. unfold dict_fromkeys.
    destruct (existsb (String.eqb k) names) eqn:E.
    + split; [discriminate|]. intros NI. exfalso. apply NI. apply existsb_exists in E as (x & I & E).
      apply String.eqb_eq in E. subst x. exact I.
    + split; [|reflexivity]. intros _ I. assert (Q : existsb (String.eqb k) names = true).
      { apply existsb_exists. exists k. split; [exact I|apply String.eqb_refl]. } congruence.
  - intros s k v. cbn [fresh_store ps_surf]. unfold dict_fromkeys.
    destruct (existsb (String.eqb k) names); congruence.
  - intros p m f b t FB P1 P2 P3 P4 P5 P6 A1 A2 A3 A4.
    assert (Q : fit p 1 (sl_inputs t f) = fit q 1 (FitInputs (fun _ => z) (fun _ => sa) (fun _ => ti) (fun _ => wa))).
    { unfold sl_inputs, only. rewrite A1, A2, A3, A4. destruct p as [p1 p2 p3 p4 p5 p6]. cbn in *. subst.
      apply fit_cut_ext. exact P6. }
    rewrite (sl_fit t p m f), FB, F in Q. injection Q as <-.
    unfold same_array. rewrite sl_all. cbn [sl_fitted ft_rotation ft_width ft_rows ft_ground sl_ground
      gnd_flag_overlap gnd_cut_points gnd_shadows gnd_illum only].
    split; [reflexivity|]. split; [reflexivity|].
    split; [apply Forall2_map_self; intros s _; unfold same_surface; rewrite sl_index; repeat split|].
    split; [apply Forall2_map_self; intros s _; repeat split|]. split; [reflexivity|].
    split; [apply Forall2_map_self; reflexivity|]. rewrite <- map_app. apply Forall2_map_self. reflexivity.
Qed.

(** How many segments the sides have. *)
Theorem C63_cut : forall d names arr row, fit_from_dict_of_scalars d names = Ok arr ->
  (ad_cut d = None -> forall bk, pa_cut (pv_params arr) row bk = 1%nat) /\
  (forall cut, ad_cut d = Some cut -> keys_unique cut ->
     (forall k, asks cut row "front" k -> pa_cut (pv_params arr) row false = k) /\
     (forall k, asks cut row "back" k -> pa_cut (pv_params arr) row true = k) /\
     ((forall k, ~ asks cut row "front" k) -> pa_cut (pv_params arr) row false = 1%nat) /\
     ((forall k, ~ asks cut row "back" k) -> pa_cut (pv_params arr) row true = 1%nat)).
Proof.
  intros d names arr row H.
  assert (E : pa_cut (pv_params arr) = cut_of (dict_cut d)).
  { unfold fit_from_dict_of_scalars, init_from_dict, dict_num in H.
    repeat match type of H with
           | context [match ?x with Some _ => _ | None => _ end] => destruct x eqn:?; cbn [bind] in H; try discriminate
           end.
    unfold fit_angles in H. destruct (fit _ _ _); [|discriminate]. injection H as <-. reflexivity. }
  rewrite E. unfold dict_cut. split; [intros ->; reflexivity|]. intros cut -> U.
  split; [intros k; apply (cut_asked cut row false k U)|]. split; [intros k; apply (cut_asked cut row true k U)|].
  split; [apply (cut_not_asked cut row false U)|apply (cut_not_asked cut row true U)].
Qed.

(** The rows have those segments. *)
Theorem C63_segments : forall d names arr a i row, fit_from_dict_of_scalars d names = Ok arr ->
  pv_fitted arr = Some a -> nth_error (ft_rows a) i = Some row ->
  List.length (side_segments (row_front row)) = pa_cut (pv_params arr) i false /\
  List.length (side_segments (row_back row)) = pa_cut (pv_params arr) i true.
Proof.
  intros d names arr a i row H F R.
  unfold fit_from_dict_of_scalars in H. destruct (init_from_dict d names) as [arr0|] eqn:I; [cbn [bind] in H|discriminate].
  unfold dict_num in H. repeat match type of H with
           | context [match ?x with Some _ => _ | None => _ end] => destruct x eqn:?; cbn [bind] in H; try discriminate
           end.
  unfold fit_angles in H. destruct (fit _ _ _) as [b|] eqn:FB; [|discriminate]. injection H as <-.
  cbn [pv_fitted pv_params] in *. injection F as ->. destruct (fit_spec _ _ _ _ FB) as (_ & _ & _ & RW & _).
  assert (L : (i < pa_n_pvrows (pv_params arr0))%nat).
  { rewrite <- (fit_rows_length (pv_params arr0) (fit_alpha (pv_params arr0) (FitInputs (fun _ => r) (fun _ => r0) (fun _ => r1) (fun _ => r2)))
      (fit_rotation (pv_params arr0) (FitInputs (fun _ => r) (fun _ => r0) (fun _ => r1) (fun _ => r2)))), <- RW.
    apply nth_error_Some. congruence. }
  rewrite (nth_error_nth' _ dummy_row) in R by (rewrite RW, fit_rows_length; exact L). injection R as <-.
  rewrite RW, fit_rows_nth by exact L. unfold fit_row, pvrow_from_raw_inputs. cbn [row_front row_back].
  unfold side_from_raw_inputs. cbn [side_segments]. rewrite !map_length, !seq_length. auto.
Qed.

(** A missing number, or number of rows, is an error, as is an array without rows. *)
Theorem C63_missing : forall d names,
  ((exists k, In k scalar_keys /\ ad_num d k = None) \/ ad_n_pvrows d = None ->
   fit_from_dict_of_scalars d names = Err KeyError) /\
  ((forall k, In k scalar_keys -> ad_num d k <> None) -> ad_n_pvrows d = Some 0%nat ->
   fit_from_dict_of_scalars d names = Err PVFactorsError).
Proof.
  intros d names. unfold fit_from_dict_of_scalars, init_from_dict, dict_num. split.
  - intros [(k & I & E)|E].
    + unfold scalar_keys in I. cbn [In] in I.
      repeat match goal with
             | |- context [match ?x with Some _ => _ | None => _ end] => destruct x eqn:?; cbn [bind]; [|reflexivity]
             end.
      exfalso. repeat match goal with H : _ \/ _ |- _ => destruct H as [H|H] | H : False |- _ => destruct H end; subst k; congruence.
    + rewrite E. repeat match goal with
             | |- context [match ?x with Some _ => _ | None => _ end] => destruct x eqn:?; cbn [bind]; [|reflexivity]
             end. reflexivity.
  - intros A E. rewrite E.
    repeat match goal with
             | |- context [match ad_num d ?k with Some _ => _ | None => _ end] =>
                 destruct (ad_num d k) eqn:?; cbn [bind]; [|exfalso; eapply A; [|eassumption]; cbn; tauto]
             end.
    unfold fit_angles. cbn [pv_params pvarray_init]. rewrite fit_none by reflexivity. reflexivity.
Qed.

(* ------------------------------------------------------------------- C64 *)

Lemma images_app : forall e idx l m xs ys, images e idx l xs -> images e idx m ys -> images e idx (l ++ m) (xs ++ ys).
Proof. intros. unfold images. rewrite filter_app. apply Forall2_app; assumption. Qed.

Lemma seg_images : forall e idx g, images e idx (seg_surfaces g) (sg_surfaces (seg_snap e idx g)).
Proof. intros. unfold seg_surfaces, sg_surfaces, seg_snap. cbn [sg_illum sg_shaded sc_surfaces]. apply images_app; apply kept_images. Qed.

Lemma side_images : forall e idx l, images e idx (flat_map seg_surfaces l) (sd_surfaces (map (seg_snap e idx) l)).
Proof. intros. induction l as [|g l IH]; [constructor|]. cbn [flat_map map]. unfold sd_surfaces. cbn [flat_map]. apply images_app; [apply seg_images|exact IH]. Qed.

Lemma segment_at_eq : forall e sd idx g, row_side sd -> In g (side_segments sd) ->
  segment_at e g idx = Ok (seg_snap e idx g).
Proof.
  intros e sd idx g H I.
  assert (Q : row_side (TsSide [g] (side_nvec sd))).
  { intros x [<-|[]]. exact (H g I). }
  pose proof (side_at_eq e _ idx Q) as E. unfold side_at in E. cbn [side_segments segments_at map] in E.
  destruct (segment_at e g idx) as [x|]; [|discriminate]. cbn [bind] in E. unfold side_init in E.
  destruct (sg_direction x); [|discriminate]. cbn [bind] in E. destruct (check_collinear _); [|discriminate].
  cbn [bind] in E. congruence.
Qed.

(** The surfaces of a segment, a side, a row at a timestep are those of the timeseries that
    are not points then, in the same order. *)
Theorem C64_surfaces : forall p n f a row idx e, fit p n f = Some a -> In row (ft_rows a) ->
  (exists l, row_surfaces_at_idx e row idx = Ok l /\ images e idx (row_surfaces row) l) /\
  (exists l, side_surfaces_at_idx e (row_front row) idx = Ok l /\ images e idx (side_surfaces (row_front row)) l) /\
  (exists l, side_surfaces_at_idx e (row_back row) idx = Ok l /\ images e idx (side_surfaces (row_back row)) l) /\
  (forall g, In g (side_segments (row_front row)) \/ In g (side_segments (row_back row)) ->
     exists l, seg_surfaces_at_idx e g idx = Ok l /\ images e idx (seg_surfaces g) l).
Proof.
  intros p n f a row idx e F I. destruct (fitted_row p n f a row F I) as [RF RB].
  unfold row_surfaces_at_idx, side_surfaces_at_idx, seg_surfaces_at_idx, pvrow_at.
  rewrite (side_at_eq e _ idx RF), (side_at_eq e _ idx RB). cbn [bind].
  split; [eexists; split; [reflexivity|]|].
  - unfold rw_surfaces. cbn [rw_front rw_back]. apply images_app; apply side_images.
  - split; [eexists; split; [reflexivity|apply side_images]|].
    split; [eexists; split; [reflexivity|apply side_images]|].
    intros g [G|G]; [rewrite (segment_at_eq e _ idx g RF G)|rewrite (segment_at_eq e _ idx g RB G)];
      (cbn [bind]; eexists; split; [reflexivity|apply seg_images]).
Qed.

(** The surfaces of a ground element: an empty geometry stands for each one that is a point. *)
Theorem C64_element : forall e el idx, exists l, element_surfaces_at e el idx = Ok l /\
  Forall2 (fun s x => match x with
                      | None => s_length s idx < 1 / 100000000
                      | Some y => 1 / 100000000 <= s_length s idx /\ same_at e idx s y
                      end) (el_surfaces el) l.
Proof.
  intros e el idx. unfold element_surfaces_at.
  exists (map (fun s => if Rltb (s_length s idx) tol then None else Some (snap e idx s)) (el_surfaces el)). split.
  - induction (el_surfaces el) as [|s l IH]; [reflexivity|]. cbn [each_surface_at map]. rewrite surface_at_eq, IH. reflexivity.
  - induction (el_surfaces el) as [|s l IH]; [constructor|]. cbn [map]. constructor; [|exact IH].
    destruct (Rltb (s_length s idx) tol) eqn:E.
    + apply Rltb_true in E. unfold DISTANCE_TOLERANCE in E. lra.
    + apply Rltb_false in E. unfold DISTANCE_TOLERANCE in E. split; [lra|apply snap_same].
Qed.

(** Indices of all the surfaces of a fitted array. *)
Theorem C64_indices : forall p n f a, valid_params p -> fit p n f = Some a ->
  ts_surface_indices a = seq 0 (n_ts_surfaces a).
Proof.
  intros p n f a V F. unfold ts_surface_indices. rewrite n_ts_surfaces_length.
  apply nth_ext with (d := 0%nat) (d' := 0%nat); [rewrite map_length, seq_length; reflexivity|].
  rewrite map_length. intros k K. rewrite seq_nth by exact K. cbn [Nat.add].
  destruct (nth_error (all_ts_surfaces a) k) as [s|] eqn:E.
  - rewrite (nth_indep _ 0%nat (surf_index a s)) by (rewrite map_length; exact K). rewrite map_nth.
    rewrite (nth_error_nth _ _ s E). exact (surf_index_nth p n f a k s V F E).
  - apply nth_error_None in E. lia.
Qed.

Lemma indices_of_images : forall e idx l xs, images e idx l xs ->
  map su_index xs = map (sn_index e) (filter (fun s => if Rle_dec (1 / 100000000) (s_length s idx) then true else false) l).
Proof. intros e idx l xs H. unfold images in H. induction H as [|s x l' xs' H _ IH]; [reflexivity|]. cbn [map]. f_equal; [exact (proj1 (proj2 (proj2 H)))|exact IH]. Qed.

Lemma rw_indices_map : forall r, rw_indices r = map su_index (rw_surfaces r).
Proof.
  assert (Q : forall l, sd_indices l = map su_index (sd_surfaces l)).
  { induction l as [|g l IH]; [reflexivity|]. unfold sd_indices, sd_surfaces in *. cbn [flat_map]. rewrite map_app, IH. f_equal.
    unfold sg_indices, sc_indices, sg_surfaces. rewrite map_app. reflexivity. }
  intros r. unfold rw_indices, rw_surfaces. rewrite map_app, !Q. reflexivity.
Qed.

(** Indices found on the rows at a timestep: those of the surfaces that are not points
    then, in increasing order and without repetition. *)
Theorem C64_row_indices : forall p n f a names st idx rs, valid_params p -> fit p n f = Some a ->
  Forall2 (fun row r => pvrow_at (fitted_env names st a) row idx = Ok r) (ft_rows a) rs ->
  flat_map rw_indices rs =
  map Some (filter (fun k => match nth_error (all_ts_surfaces a) k with
                             | Some s => if Rle_dec (1 / 100000000) (s_length s idx) then true else false
                             | None => false
                             end)
              (seq (List.length (gnd_surfaces (ft_ground a))) (List.length (flat_map row_surfaces (ft_rows a))))).
Proof.
  intros p n f a names st idx rs V F H.
  set (ok := fun s => if Rle_dec (1 / 100000000) (s_length s idx) then true else false).
  assert (E : flat_map rw_indices rs = map (fun s => Some (surf_index a s)) (filter ok (flat_map row_surfaces (ft_rows a)))).
  { assert (S : forall row, In row (ft_rows a) -> In row (ft_rows a)) by auto. revert H S. generalize (ft_rows a) at 1 2 4. intros rows H.
    induction H as [|row r rows' rs' H _ IH]; intros S; [reflexivity|]. cbn [flat_map]. rewrite filter_app, map_app, IH by (intros; apply S; right; assumption).
    f_equal. destruct (C64_surfaces p n f a row idx (fitted_env names st a) F (S row (or_introl eq_refl))) as ((l & L & IM) & _).
    unfold row_surfaces_at_idx in L. rewrite H in L. cbn [bind] in L. injection L as <-.
    rewrite rw_indices_map, (indices_of_images _ _ _ _ IM). reflexivity. }
  rewrite E. rewrite <- (map_map (surf_index a) Some). f_equal.
  assert (A : all_ts_surfaces a = gnd_surfaces (ft_ground a) ++ flat_map row_surfaces (ft_rows a)) by reflexivity.
  assert (N : forall k s, nth_error (flat_map row_surfaces (ft_rows a)) k = Some s ->
      nth_error (all_ts_surfaces a) (List.length (gnd_surfaces (ft_ground a)) + k) = Some s).
  { intros k s K. rewrite A, nth_error_app2 by lia. rewrite <- K. f_equal. lia. }
  revert N. generalize (List.length (gnd_surfaces (ft_ground a))). clear E A H rs.
  induction (flat_map row_surfaces (ft_rows a)) as [|s l IH]; intros m N; [reflexivity|].
  cbn [List.length seq filter]. pose proof (N 0%nat s eq_refl) as N0. rewrite Nat.add_0_r in N0. rewrite N0. fold (ok s).
  rewrite <- (IH (S m)) by (intros k x K; rewrite <- (N (S k) x K); f_equal; lia).
  destruct (ok s); [|reflexivity]. cbn [map]. f_equal. exact (surf_index_nth p n f a m s V F N0).
Qed.

(** Coordinates as arrays, and back. *)
Theorem C64_arrays :
  (forall p : ts pt, exists q, point_from_array (point_array p) = Ok q /\ forall t, q t = p t) /\
  (forall l : ts line, exists m, line_from_array (line_array l) = Ok m /\ forall t, m t = l t) /\
  (forall (p : ts pt) idx, point_array_at p idx = [px (p idx); py (p idx)]) /\
  (forall (l : ts line) idx, line_array_at l idx =
     [[px (b1 (l idx)); py (b1 (l idx))]; [px (b2 (l idx)); py (b2 (l idx))]]) /\
  (forall x y r, exists p, point_from_array (x :: y :: r) = Ok p /\ forall t, px (p t) = x t /\ py (p t) = y t) /\
  (forall x, point_from_array [] = Err IndexError /\ point_from_array [x] = Err IndexError) /\
  (forall x, line_from_array [] = Err IndexError /\ line_from_array [x] = Err IndexError).
Proof.
  split; [intros p; eexists; split; [reflexivity|]; intros t; cbn; destruct (p t); reflexivity|].
  split; [intros l; eexists; split; [reflexivity|]; intros t; cbn; destruct (l t) as [[] []]; reflexivity|].
  repeat split. intros x y r. eexists. split; [reflexivity|]. repeat split.
Qed.

(** Position of a segment on its row, its middle and its ends, its normal vector. *)
Theorem C64_segment : forall p n f a i row (bk : bool) k g t, valid_params p -> fit p n f = Some a ->
  nth_error (ft_rows a) i = Some row ->
  nth_error (side_segments (if bk then row_back row else row_front row)) k = Some g ->
  let w := pa_width p in
  let m := INR (pa_cut p i bk) in
  let th := ft_rotation a t * PI / 180 in
  let P x := row_point (INR i * pa_distance p) (pa_height p) (ft_rotation a t) (x * (w / m) - w / 2) in
  seg_coords g t = Line (P (INR k)) (P (INR k + 1)) /\
  seg_centroid g t = P (INR k + 1 / 2) /\
  (0 < sin th -> seg_highest g t = P (INR k + 1) /\ seg_lowest g t = P (INR k)) /\
  (sin th < 0 -> seg_highest g t = P (INR k) /\ seg_lowest g t = P (INR k + 1)) /\
  seg_nvec g t = (if bk then (w * sin th, - (w * cos th)) else (- (w * sin th), w * cos th)).
Proof.
  intros p n f a i row bk k g t V F R G w m th P.
  destruct (fit_rows_nth_error _ _ _ _ _ _ F R) as [I ->]. destruct (fit_spec _ _ _ _ F) as (_ & ER & _ & _). subst th P. rewrite ER in *.
  assert (M : 0 < m) by (apply lt_0_INR; destruct V as (_ & _ & _ & V); apply V).
  assert (W : 0 < w) by (destruct V as (V & _); exact V).
  assert (Q : exists sl nv, In g [TsSegment (fun t => fst (fst (segment_coords (fst (row_center p i)) (snd (row_center p i)) w (fit_rotation p f t) (pa_cut p i bk) (sl t) k)))
          [TsSurface (SidRow i bk k false) (fun t => snd (fst (segment_coords (fst (row_center p i)) (snd (row_center p i)) w (fit_rotation p f t) (pa_cut p i bk) (sl t) k))) nv false]
          [TsSurface (SidRow i bk k true) (fun t => snd (segment_coords (fst (row_center p i)) (snd (row_center p i)) w (fit_rotation p f t) (pa_cut p i bk) (sl t) k)) nv true] nv] /\
          nv t = let c := full_coords (fst (row_center p i)) (snd (row_center p i)) w (fit_rotation p f t) in
                 if bk then (- fst (normal_vec_front c), - snd (normal_vec_front c)) else normal_vec_front c).
  { unfold fit_row, pvrow_from_raw_inputs in G. cbn [row_front row_back] in G.
    assert (L : forall b xc yc w rot cut sl nv, nth_error (side_segments (side_from_raw_inputs i b xc yc w rot cut sl nv)) k = Some g ->
       g = TsSegment (fun t => fst (fst (segment_coords xc yc w (rot t) cut (sl t) k)))
          [TsSurface (SidRow i b k false) (fun t => snd (fst (segment_coords xc yc w (rot t) cut (sl t) k))) nv false]
          [TsSurface (SidRow i b k true) (fun t => snd (segment_coords xc yc w (rot t) cut (sl t) k)) nv true] nv).
    { intros b xc yc w0 rot cut sl nv H. unfold side_from_raw_inputs in H. cbn [side_segments] in H. rewrite nth_error_map in H.
      destruct (nth_error (seq 0 cut) k) as [j|] eqn:E; [|discriminate].
      assert (j = k). { assert (K : (k < cut)%nat) by (rewrite <- (seq_length cut 0); apply nth_error_Some; congruence).
        rewrite (nth_error_nth' _ 0%nat) in E by (rewrite seq_length; exact K). rewrite seq_nth in E by exact K. injection E as <-. reflexivity. }
      subst j. injection H as <-. reflexivity. }
    destruct bk; apply L in G; eexists _, _; (split; [left; symmetry; exact G|reflexivity]). }
  destruct Q as (sl & nv & [<-|[]] & NV). unfold seg_centroid, seg_highest, seg_lowest. cbn [seg_coords seg_nvec].
  assert (E : fst (fst (segment_coords (fst (row_center p i)) (snd (row_center p i)) w (fit_rotation p f t) (pa_cut p i bk) (sl t) k)) =
    Line (row_point (INR i * pa_distance p) (pa_height p) (fit_rotation p f t) (INR k * (w / m) - w / 2))
         (row_point (INR i * pa_distance p) (pa_height p) (fit_rotation p f t) ((INR k + 1) * (w / m) - w / 2))).
  { unfold segment_coords. cbn [fst]. rewrite cosd_180, sind_180. fold m. unfold row_point, cosd, sind, deg2rad.
    unfold row_center. cbn [fst snd]. unfold X_ORIGIN_PVROWS, pa_y_ground. f_equal; f_equal; ring. }
  rewrite E. split; [reflexivity|].
  set (th := fit_rotation p f t * PI / 180).
  split; [unfold line_centroid, row_point; cbn [b1 b2 px py]; f_equal; field; lra|].
  assert (D : 0 < w / m) by (apply Rdiv_lt_0_compat; assumption).
  split; [|split].
  - intros S. assert (0 < (w / m) * sin th) by (apply Rmult_lt_0_compat; assumption).
    unfold highest_point, lowest_point, row_point, np_where. cbn [b1 b2 px py]. fold th.
    replace (Rleb _ _) with false by (symmetry; apply Rleb_false; lra). split; reflexivity.
  - intros S. assert (0 < (w / m) * - sin th) by (apply Rmult_lt_0_compat; lra).
    unfold highest_point, lowest_point, row_point, np_where. cbn [b1 b2 px py]. fold th.
    replace (Rleb _ _) with true by (symmetry; apply Rleb_true; lra). split; reflexivity.
  - rewrite NV. cbv zeta. unfold full_coords, normal_vec_front. cbn [b1 b2 px py]. rewrite cosd_180, sind_180. unfold cosd, sind, deg2rad.
    fold th.
    destruct bk; cbn [fst snd]; f_equal; field.
Qed.

(** A ground element: as long as its surfaces together, lying between its two ends. *)
Theorem C64_ground_element : forall p n f a idx el, fit p n f = Some a -> regular p f a idx ->
  In el (gnd_shadows (ft_ground a) ++ gnd_illum (ft_ground a)) ->
  el_length el idx = fold_right Rplus 0 (map (fun s => s_length s idx) (el_surfaces el)) /\
  el_length el idx = px (el_b2 el idx) - px (el_b1 el idx) /\
  py (el_b1 el idx) = 0 /\ py (el_b2 el idx) = 0 /\
  px (el_centroid el idx) = (px (el_b1 el idx) + px (el_b2 el idx)) / 2 /\ py (el_centroid el idx) = 0 /\
  (forall s, In s (el_surfaces el) -> 0 < s_length s idx ->
     px (el_b1 el idx) <= px (s_b1 s idx) /\ px (s_b1 s idx) < px (s_b2 s idx) /\ px (s_b2 s idx) <= px (el_b2 el idx)).
Proof.
  intros p n f a idx el F R I. destruct (regular_ground p n f a idx F R) as (flag & shadows & cuts & G & RO & CN & NN).
  destruct (ground_elements _ _ _ _ _ _ G I) as (mkid & sh & c & E & EC).
  destruct (el_facts 0 flag shadows cuts (ft_ground a) idx G RO el I) as ((A & B & C) & Y1 & Y2).
  destruct ground_bounds as [GB1 GB2]. rewrite GB1 in A. rewrite GB2 in C.
  unfold el_length, el_centroid, el_b1, el_b2, s_b1, s_b2.
  assert (L : line_length (el_coords el idx) = px (b2 (el_coords el idx)) - px (b1 (el_coords el idx))).
  { rewrite (line_length_flat _ 0 Y1 Y2 B). reflexivity. }
  rewrite EC in *.
  destruct (element_cutting mkid sh c cuts idx CN NN A B C) as (_ & _ & S & P); [congruence|]. rewrite <- E in S, P.
  split; [rewrite <- S; unfold coll_length; rewrite py_sum_rsum; clear; induction (el_surfaces el) as [|x l IH]; cbn; [reflexivity|rewrite IH; reflexivity]|].
  split; [exact L|]. split; [exact Y1|]. split; [exact Y2|]. unfold line_centroid. cbn [px py]. rewrite Y1, Y2.
  split; [field|]. split; [field|]. intros s J Z. destruct (P s J) as (_ & P1 & P2 & _ & P4 & _ & P5). destruct (P5 Z) as [Q1 Q2].
  split; [exact Q1|]. split; [|exact Q2]. rewrite Y1 in P1, P2. unfold s_length in Z. rewrite (line_length_flat _ 0 P1 P2 P4) in Z. unfold x_extent in Z. cbn [fst snd] in Z. lra.
Qed.

(* ------------------------------------------------------------------ examples *)

(** Three rows, the front of the first one in two segments, at sunrise plus thirty degrees;
    the same as timestep 1 of [ex_f]. *)
Definition ex_dict : array_dict :=
  ArrayDict
    (fun k => if String.eqb k "axis_azimuth" then Some 0
              else if String.eqb k "gcr" then Some (2 / 3)
              else if String.eqb k "pvrow_height" then Some 3
              else if String.eqb k "pvrow_width" then Some 2
              else if String.eqb k "solar_zenith" then Some 60
              else if String.eqb k "solar_azimuth" then Some 90
              else if String.eqb k "surface_tilt" then Some 60
              else if String.eqb k "surface_azimuth" then Some 90 else None)%string
    (Some 3%nat) (Some [(0%nat, [("front"%string, 2%nat)])]).

Example C63_case : exists arr a b, fit_from_dict_of_scalars ex_dict ["q0"%string] = Ok arr /\ pv_fitted arr = Some a /\
  fit ex_p 2 ex_f = Some b /\ same_array a 0 b 1 /\ List.length (all_ts_surfaces a) = List.length (all_ts_surfaces b) /\
  asks [(0%nat, [("front"%string, 2%nat)])] 0 "front" 2.
Proof.
  destruct (C63_scalars ex_dict ["q0"%string] 0 (2 / 3) 3 2 2 60 90 60 90) as (arr & a & E & FA & _ & _ & _ & _ & _ & _ & _ & S); try reflexivity.
  destruct ex_fit as [b FB]. exists arr, a, b. split; [exact E|]. split; [exact FA|]. split; [exact FB|].
  assert (SA : same_array a 0 b 1).
  { apply (S ex_p 2%nat ex_f b 1%nat FB); try reflexivity. intros i bk.
    destruct (C63_cut ex_dict _ _ i E) as [_ C]. specialize (C _ eq_refl).
    assert (U : keys_unique [(0%nat, [("front"%string, 2%nat)])]).
    { split; [cbn; repeat constructor; auto|]. intros r s [Q|[]]. injection Q as <- <-. cbn. repeat constructor; auto. }
    destruct (C U) as (C1 & C2 & C3 & C4). unfold ex_p. cbn [pa_cut]. destruct i as [|i], bk; cbn [Nat.eqb andb negb].
    - symmetry. apply C4. intros k (s & [Q|[]] & J). injection Q as <-. destruct J as [J|[]]. discriminate.
    - symmetry. apply C1. eexists. split; [left; reflexivity|left; reflexivity].
    - symmetry. apply C4. intros k (s & [Q|[]] & J). discriminate.
    - symmetry. apply C3. intros k (s & [Q|[]] & J). discriminate. }
  split; [exact SA|]. split; [destruct SA as (_ & _ & Q & _); exact (Forall2_len _ _ _ _ _ Q)|].
  eexists. split; [left; reflexivity|left; reflexivity].
Qed.

(** The hypotheses of [C64_row_indices] for the same array, of 42 surfaces. *)
Example C64_case : forall names st idx, exists a rs, fit ex_p 2 ex_f = Some a /\ valid_params ex_p /\
  Forall2 (fun row r => pvrow_at (fitted_env names st a) row idx = Ok r) (ft_rows a) rs /\ List.length rs = 3%nat /\
  ts_surface_indices a = seq 0 42.
Proof.
  intros names st idx. destruct ex_fit as [a F]. exists a.
  assert (R : exists rs, Forall2 (fun row r => pvrow_at (fitted_env names st a) row idx = Ok r) (ft_rows a) rs).
  { assert (S : forall row, In row (ft_rows a) -> exists r, pvrow_at (fitted_env names st a) row idx = Ok r).
    { intros row I. destruct (C59_row _ _ _ _ row idx (fitted_env names st a) F I) as (r & E & _). eauto. }
    induction (ft_rows a) as [|row l IH]; [exists []; constructor|].
    destruct (S row (or_introl eq_refl)) as [r E]. destruct IH as [rs H]; [intros; apply S; right; assumption|].
    exists (r :: rs). constructor; assumption. }
  destruct R as [rs H]. exists rs. split; [exact F|]. split; [exact ex_valid|]. split; [exact H|].
  split; [rewrite <- (Forall2_len _ _ _ _ _ H); destruct (fit_spec _ _ _ _ F) as (_ & _ & _ & RW & _); rewrite RW, fit_rows_length; reflexivity|].
  rewrite (C64_indices _ _ _ _ ex_valid F). destruct (C08_indexing _ _ _ _ ex_valid F) as [_ [_ [_ [E _]]]]. rewrite E. reflexivity.
Qed.

Print Assumptions C63_scalars.
Print Assumptions C63_cut.
Print Assumptions C63_segments.
Print Assumptions C63_missing.
Print Assumptions C64_surfaces.
Print Assumptions C64_element.
Print Assumptions C64_indices.
Print Assumptions C64_row_indices.
Print Assumptions C64_arrays.
Print Assumptions C64_segment.
Print Assumptions C64_ground_element.
