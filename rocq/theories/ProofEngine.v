(** Lemmas about the engine: what a fit leaves behind and what a run computes. *)
From Coq Require Import Reals List Bool Arith String Lra Lia FunctionalExtensionality.
From Verif Require Import Num ModelTs ModelGeom ModelVF Basics SpecGeom ProofFit ProofIndex ProofGeom2 ModelLinalg ProofLinalg SpecEngine ProofRadiosity ModelParams SpecParams ProofParams ModelIrr SpecIrr ProofIrr ModelAOI ModelEngine.
Import ListNotations.
Open Scope R_scope.

Lemma bind_ok : forall (A B : Type) (x : result A) (f : A -> result B) b,
  bind x f = Ok b -> exists a, x = Ok a /\ f a = Ok b.
Proof. intros A B [a|e] f b H; [eauto | discriminate H]. Qed.

(* ------------------------------------------------------------------------- fit *)

(** What a successful fit leaves. *)
Definition fit_of (i : irr_inputs) : fit_inputs :=
  FitInputs (ii_zenith i) (ii_solar_azimuth i) (ii_tilt i) (ii_azimuth i).

Lemma engine_fit_arrays_inv : forall P e i e', engine_fit_arrays P e i = Ok e' ->
  exists a f st c rf rb,
    fit (pv_params (en_array e)) (ii_n i) (fit_of i) = Some a /\
    irr_fit P (en_irr e) i = Ok f /\
    im_rho_front (en_irr e) = Some rf /\ im_rho_back (en_irr e) = Some rb /\
    irr_transform (en_irr e) f a (fresh_store (pv_param_names (en_array e))) = Ok st /\
    calculator_fit (en_calc e) = Ok c /\
    e' = Engine (PVArray (pv_params (en_array e)) (pv_param_names (en_array e)) (Some a) st
                   (pv_vf (en_array e)) (pv_vf_aoi (en_array e)))
           (en_irr e) (Some f) c (en_fast_row e) (en_fast_seg e)
           (Some (ii_n i)) (Some (skip_step i)) (en_heap e).
Proof.
  intros P e i e' H. unfold engine_fit_arrays in H.
  apply bind_ok in H. destruct H as (arr & Ha & H).
  unfold pvarray_fit in Ha. fold (fit_of i) in Ha.
  destruct (fit (pv_params (en_array e)) (ii_n i) (fit_of i)) as [a|] eqn:F; [|discriminate Ha].
  apply (f_equal (fun r => match r with Ok x => x | Err _ => arr end)) in Ha.
  rewrite <- Ha in H. cbn [pv_params pv_param_names pv_fitted pv_store pv_vf pv_vf_aoi] in H.
  apply bind_ok in H. destruct H as (f & Hf & H).
  apply bind_ok in H. destruct H as (st & Hst & H).
  apply bind_ok in H. destruct H as (c & Hc & H).
  assert (R : exists rf rb, im_rho_front (en_irr e) = Some rf /\ im_rho_back (en_irr e) = Some rb).
  { unfold irr_transform in Hst. destruct (im_rho_front (en_irr e)), (im_rho_back (en_irr e));
      try discriminate Hst. eauto. }
  destruct R as (rf & rb & Rf & Rb). exists a, f, st, c, rf, rb.
  repeat (split; [assumption || reflexivity|]).
  apply (f_equal (fun r => match r with Ok x => x | Err _ => e end)) in H. symmetry; exact H.
Qed.

Lemma irr_fit_albedo : forall P m i f, irr_fit P m i = Ok f ->
  if_albedo f = ii_albedo i /\ if_n_steps f = ii_n i /\ if_faoi_ground f = (fun t => 1 - ii_albedo i t) /\
  if_direct f = fit_direct m i /\
  faoi_side (im_faoi_front m) (im_rho_front m) (aoi_front i) (ii_tilt i) = Ok (if_faoi_front f) /\
  faoi_side (im_faoi_back m) (im_rho_back m) (aoi_back i) (ii_tilt i) = Ok (if_faoi_back f).
Proof.
  intros P m i f H. unfold irr_fit in H. destruct (im_kind m).
  - unfold fit_isotropic in H. apply bind_ok in H. destruct H as (ff & A & H).
    apply bind_ok in H. destruct H as (fb & B & H). inversion H; subst. cbn. tauto.
  - unfold fit_hybrid in H. destruct (perez_diffuse_luminance _ _ _); [|discriminate H].
    apply bind_ok in H. destruct H as (ff & A & H).
    apply bind_ok in H. destruct H as (fb & B & H). inversion H; subst. cbn. tauto.
Qed.

(** Engine left by a fit with formatted inputs [i], seen from outside. *)
Record fitted_engine (P : pvlib) (e : engine) (i : irr_inputs) (a : fitted) (f : irr_fitted)
    (rf rb : R) : Prop := FittedEngine {
  fe_valid : valid_params (pv_params (en_array e));
  fe_fit : fit (pv_params (en_array e)) (ii_n i) (fit_of i) = Some a;
  fe_array : pv_fitted (en_array e) = Some a;
  fe_irr : irr_fit P (en_irr e) i = Ok f;
  fe_irr_fitted : en_irr_fitted e = Some f;
  fe_front : im_rho_front (en_irr e) = Some rf;
  fe_back : im_rho_back (en_irr e) = Some rb;
  fe_store : forall s c, in_category a s c -> forall k v,
    NoDup (map fst (cat_dict (en_irr e) rf rb f a c s)) ->
    In (k, v) (cat_dict (en_irr e) rf rb f a c s) ->
    get_param (pv_store (en_array e)) s k = Ok v;
  fe_aoi : forall m, ca_aoi (en_calc e) = Some m ->
    exists af, aoi_fit m = Ok af /\ ca_aoi_fitted (en_calc e) = Some af
}.

Lemma engine_fit_arrays_fitted : forall P e0 i e,
  valid_params (pv_params (en_array e0)) -> engine_fit_arrays P e0 i = Ok e ->
  exists a f rf rb, fitted_engine P e i a f rf rb.
Proof.
  intros P e0 i e V H. destruct (engine_fit_arrays_inv _ _ _ _ H)
    as (a & f & st & c & rf & rb & F & I & Rf & Rb & T & C & ->).
  exists a, f, rf, rb.
  destruct (transform_store _ _ _ a (en_irr e0) rf rb f (fresh_store (pv_param_names (en_array e0)))
    V F Rf Rb) as (st' & E & S).
  rewrite T in E. inversion E; subst st'.
  constructor; cbn [en_array en_irr en_irr_fitted en_calc pv_params pv_fitted pv_store];
    try assumption; try reflexivity.
  - intros s cat Hc k v ND IN. unfold get_param. rewrite (S s cat k Hc).
    rewrite (overlay_in _ _ _ v ND IN). reflexivity.
  - intros m Hm. unfold calculator_fit in C.
    destruct (ca_aoi (en_calc e0)) as [m0|] eqn:E0.
    + apply bind_ok in C. destruct C as (af & A & C). inversion C; subst c.
      cbn in Hm. inversion Hm; subst m0. exists af. split; [exact A | reflexivity].
    + inversion C; subst c. congruence.
Qed.

(* ------------------------------------------------- keys written by [transform] *)

Lemma nodup_dec : forall l : list string,
  (if list_eq_dec String.string_dec (nodup String.string_dec l) l then True else False) -> NoDup l.
Proof.
  intros l. destruct (list_eq_dec _ _ _) as [E|]; [|contradiction]. intros _. rewrite <- E.
  apply NoDup_nodup.
Qed.

Lemma cat_dict_nodup : forall m rf rb f a c s, NoDup (map fst (cat_dict m rf rb f a c s)).
Proof.
  intros m rf rb f a c s. unfold cat_dict. apply nodup_dec.
  destruct (im_kind m), c as [sh|i [] sh]; exact I.
Qed.

Section Keys.
  Variables (P : pvlib) (e : engine) (i : irr_inputs) (a : fitted) (f : irr_fitted) (rf rb : R).
  Hypothesis FE : fitted_engine P e i a f rf rb.

  Definition cat_rho (c : category) : ts R :=
    match c with CGround _ => ii_albedo i | CRow _ b _ => fun _ => if b then rb else rf end.

  Definition cat_of (b : by_cat) (c : category) : ts R :=
    match c with CGround sh => gnd_pick b sh | CRow _ back sh => cat_pick b back sh end.

  (** Horizon component: nothing on the ground, shaded by the neighbours on the back. *)
  Definition cat_horizon (c : category) (s : ts_surface) : ts R :=
    match c with
    | CGround _ => zeros
    | CRow j true _ => fun t => if_horizon_back f t * (1 - back_pct (en_irr e) a j [s] t / 100)
    | CRow _ false _ => if_horizon_front f
    end.

  Definition cat_comp (c : category) : by_comp :=
    match c with
    | CGround _ => ByComp (if_faoi_ground f) (if_faoi_ground f) (if_faoi_ground f)
    | CRow _ b _ => if b then if_faoi_back f else if_faoi_front f
    end.

  Lemma fe_value : forall s c k v, in_category a s c ->
    In (k, v) (cat_dict (en_irr e) rf rb f a c s) -> get_param (pv_store (en_array e)) s k = Ok v.
  Proof. intros s c k v H. apply (fe_store _ _ _ _ _ _ _ FE s c H). apply cat_dict_nodup. Qed.

  Lemma albedo_eq : if_albedo f = ii_albedo i.
  Proof. exact (proj1 (irr_fit_albedo _ _ _ _ (fe_irr _ _ _ _ _ _ _ FE))). Qed.

  Lemma key_rho : forall s c, in_category a s c ->
    get_param (pv_store (en_array e)) s "rho" = Ok (PArr (cat_rho c)).
  Proof.
    intros s c H. apply (fe_value s c _ _ H). unfold cat_dict, cat_rho. rewrite <- albedo_eq.
    destruct (im_kind (en_irr e)), c as [sh|j [] sh]; cbn; tauto.
  Qed.
  Lemma key_inv_rho : forall s c, in_category a s c ->
    get_param (pv_store (en_array e)) s "inv_rho" = Ok (PArr (fun t => 1 / cat_rho c t)).
  Proof.
    intros s c H. apply (fe_value s c _ _ H). unfold cat_dict, cat_rho. rewrite <- albedo_eq.
    destruct (im_kind (en_irr e)), c as [sh|j [] sh]; cbn; tauto.
  Qed.
  Lemma key_direct : forall s c, in_category a s c ->
    get_param (pv_store (en_array e)) s "direct" = Ok (PArr (cat_of (if_direct f) c)).
  Proof.
    intros s c H. apply (fe_value s c _ _ H). unfold cat_dict, cat_of.
    destruct (im_kind (en_irr e)), c as [sh|j [] sh]; cbn; tauto.
  Qed.
  Lemma key_direct_abs : forall s c, in_category a s c ->
    get_param (pv_store (en_array e)) s "direct_absorbed" =
    Ok (PArr (fun t => co_direct (cat_comp c) t * cat_of (if_direct f) c t)).
  Proof.
    intros s c H. apply (fe_value s c _ _ H). unfold cat_dict, cat_of, cat_comp.
    destruct (im_kind (en_irr e)), c as [sh|j [] sh]; cbn; tauto.
  Qed.
  Definition cat_perez (c : category) : ts R :=
    match c with
    | CGround sh => if sh then irr_gnd_shaded f else irr_gnd_illum f
    | CRow _ b sh => perez_pick f b sh
    end.
  Lemma key_perez : forall s c, in_category a s c ->
    get_param (pv_store (en_array e)) s "total_perez" = Ok (PArr (cat_perez c)).
  Proof.
    intros s c H. apply (fe_value s c _ _ H). unfold cat_dict, cat_perez.
    destruct (im_kind (en_irr e)), c as [sh|j [] sh]; cbn; tauto.
  Qed.

  Hypothesis HY : im_kind (en_irr e) = HybridPerezOrdered.
  Lemma key_circ : forall s c, in_category a s c ->
    get_param (pv_store (en_array e)) s "circumsolar" = Ok (PArr (cat_of (if_circumsolar f) c)).
  Proof.
    intros s c H. apply (fe_value s c _ _ H). unfold cat_dict, cat_of. rewrite HY.
    destruct c as [sh|j [] sh]; cbn; tauto.
  Qed.
  Lemma key_circ_abs : forall s c, in_category a s c ->
    get_param (pv_store (en_array e)) s "circumsolar_absorbed" =
    Ok (PArr (fun t => co_circumsolar (cat_comp c) t * cat_of (if_circumsolar f) c t)).
  Proof.
    intros s c H. apply (fe_value s c _ _ H). unfold cat_dict, cat_of, cat_comp. rewrite HY.
    destruct c as [sh|j [] sh]; cbn; tauto.
  Qed.
  Lemma key_horizon : forall s c, in_category a s c ->
    get_param (pv_store (en_array e)) s "horizon" = Ok (PArr (cat_horizon c s)).
  Proof.
    intros s c H. apply (fe_value s c _ _ H). unfold cat_dict, cat_horizon. rewrite HY.
    destruct c as [sh|j [] sh]; cbn; tauto.
  Qed.
  Lemma key_horizon_abs : forall s c, in_category a s c ->
    exists v, get_param (pv_store (en_array e)) s "horizon_absorbed" = Ok (PArr v) /\
      forall t, v t = co_horizon (cat_comp c) t * cat_horizon c s t.
  Proof.
    intros s c H. pose proof (fun k v => fe_value s c k v H) as V. unfold cat_dict in V. rewrite HY in V.
    destruct c as [sh|j [] sh]; (eexists; split; [apply V; cbn; do 8 right; left; reflexivity|]);
      intro t; cbn; unfold zeros; lra.
  Qed.
End Keys.

(* ------------------------------------------------------------------------ run *)

Lemma map_result_ok : forall (A B : Type) (f : A -> result B) (g : A -> B) l,
  (forall x, In x l -> f x = Ok (g x)) -> map_result f l = Ok (map g l).
Proof.
  induction l as [|x l IH]; intro H; [reflexivity|]. cbn [map_result map].
  rewrite (H x (or_introl eq_refl)), IH; [reflexivity | intros; apply H; right; assumption].
Qed.

(** Numerical value of a parameter, 0 if there is none. *)
Definition num_of (st : pstore) (s : ts_surface) (k : string) : ts R :=
  match get_param st s k with Ok (PArr v) => v | _ => fun _ => 0 end.
Definition numeric (st : pstore) (s : ts_surface) (k : string) : Prop :=
  get_param st s k = Ok (PArr (num_of st s k)).

Lemma numeric_intro : forall st s k v, get_param st s k = Ok (PArr v) ->
  numeric st s k /\ num_of st s k = v.
Proof. intros st s k v H. unfold numeric, num_of. rewrite H. split; reflexivity. Qed.

Lemma get_num_ok : forall st s k, numeric st s k -> get_num st s k = Ok (num_of st s k).
Proof. intros st s k H. unfold get_num. rewrite H. reflexivity. Qed.

(** Sum of the values of several parameters of a surface, from left to right. *)
Definition comps_sum (st : pstore) (s : ts_surface) (ks : list string) : ts R :=
  fun t => fold_left (fun v k => v + num_of st s k t) ks 0.

Lemma sum_components_ok : forall st s ks, (forall k, In k ks -> numeric st s k) ->
  sum_components st s ks = Ok (comps_sum st s ks).
Proof.
  intros st s ks. unfold sum_components, comps_sum.
  change (fun t : nat => fold_left (fun v k => v + num_of st s k t) ks 0)
    with (fun t : nat => fold_left (fun v k => v + num_of st s k t) ks ((fun _ => 0) t)).
  generalize (fun _ : nat => 0). induction ks as [|k ks IH]; intros v H; [reflexivity|].
  cbn [fold_result fold_left]. rewrite (get_num_ok st s k (H k (or_introl eq_refl))). cbn [bind].
  rewrite IH by (intros; apply H; right; assumption). reflexivity.
Qed.

(** All the parameters read by a full mode run are there. *)
Definition ready (k : irr_kind) (st : pstore) (surfs : list ts_surface) : Prop :=
  forall s, In s surfs ->
    (forall c, In c (irradiance_comp k) -> numeric st s c) /\
    (forall c, In c (irradiance_comp_absorbed k) -> numeric st s c) /\
    numeric st s "inv_rho" /\ numeric st s "rho" /\ numeric st s "total_perez".

Lemma fitted_ready : forall P e i a f rf rb, fitted_engine P e i a f rf rb ->
  ready (im_kind (en_irr e)) (pv_store (en_array e)) (all_ts_surfaces a).
Proof.
  intros P e i a f rf rb FE s I. destruct (category_exists a s I) as [c C].
  assert (Nd := proj1 (numeric_intro _ _ _ _ (key_direct _ _ _ _ _ _ _ FE s c C))).
  assert (Na := proj1 (numeric_intro _ _ _ _ (key_direct_abs _ _ _ _ _ _ _ FE s c C))).
  split; [|split; [|split; [|split]]].
  - destruct (im_kind (en_irr e)) eqn:K; intros k H; cbn in H;
      repeat (destruct H as [<-|H]; [try exact Nd|]); try contradiction.
    + exact (proj1 (numeric_intro _ _ _ _ (key_circ _ _ _ _ _ _ _ FE K s c C))).
    + exact (proj1 (numeric_intro _ _ _ _ (key_horizon _ _ _ _ _ _ _ FE K s c C))).
  - destruct (im_kind (en_irr e)) eqn:K; intros k H; cbn in H;
      repeat (destruct H as [<-|H]; [try exact Na|]); try contradiction.
    + exact (proj1 (numeric_intro _ _ _ _ (key_circ_abs _ _ _ _ _ _ _ FE K s c C))).
    + destruct (key_horizon_abs _ _ _ _ _ _ _ FE K s c C) as (v & E & _).
      exact (proj1 (numeric_intro _ _ _ _ E)).
  - exact (proj1 (numeric_intro _ _ _ _ (key_inv_rho _ _ _ _ _ _ _ FE s c C))).
  - exact (proj1 (numeric_intro _ _ _ _ (key_rho _ _ _ _ _ _ _ FE s c C))).
  - exact (proj1 (numeric_intro _ _ _ _ (key_perez _ _ _ _ _ _ _ FE s c C))).
Qed.

Lemma modeling_vectors_ok : forall k f st surfs, ready k st surfs ->
  full_ts_modeling_vectors k f st surfs =
  Ok (map (fun s => comps_sum st s (irradiance_comp k)) surfs ++ [if_isotropic_luminance f],
      map (fun s => num_of st s "rho") surfs ++ [fun _ => SKY_REFLECTIVITY_DUMMY],
      map (fun s => num_of st s "inv_rho") surfs ++ [fun _ => SKY_REFLECTIVITY_DUMMY],
      map (fun s => num_of st s "total_perez") surfs ++ [if_isotropic_luminance f]).
Proof.
  intros k f st surfs H. unfold full_ts_modeling_vectors, ts_modeling_vectors.
  rewrite (map_result_ok _ _ _ (fun s => comps_sum st s (irradiance_comp k)))
    by (intros s I; apply sum_components_ok; apply (H s I)).
  rewrite (map_result_ok _ _ _ (fun s => num_of st s "inv_rho"))
    by (intros s I; apply get_num_ok; apply (H s I)).
  rewrite (map_result_ok _ _ _ (fun s => num_of st s "rho"))
    by (intros s I; apply get_num_ok; apply (H s I)).
  rewrite (map_result_ok _ _ _ (fun s => num_of st s "total_perez"))
    by (intros s I; apply get_num_ok; apply (H s I)).
  reflexivity.
Qed.

Lemma absorbed_ok : forall k st surfs, ready k st surfs ->
  summed_absorbed k st surfs =
  Ok (map (fun s => comps_sum st s (irradiance_comp_absorbed k)) surfs).
Proof.
  intros k st surfs H. unfold summed_absorbed. apply map_result_ok.
  intros s I. apply sum_components_ok. apply (H s I).
Qed.

Lemma row_of_map : forall (g : ts_surface -> ts R) surfs (l : list (ts R)) k s,
  nth_error surfs k = Some s -> row_of (map g surfs ++ l) k = g s.
Proof.
  intros g surfs l k s H. unfold row_of.
  assert (L : (k < List.length surfs)%nat) by (apply nth_error_Some; congruence).
  rewrite app_nth1 by (rewrite map_length; exact L).
  apply nth_error_nth. rewrite nth_error_map, H. reflexivity.
Qed.
Lemma row_of_last : forall (g : ts_surface -> ts R) surfs x,
  row_of (map g surfs ++ [x]) (List.length surfs) = x.
Proof.
  intros g surfs x. unfold row_of. rewrite app_nth2; rewrite map_length; [|lia].
  rewrite Nat.sub_diag. reflexivity.
Qed.

(** Writing the results. *)
Definition result_hist (surfs : list ts_surface) (q0 qinc iso refl qabs : nat -> ts R) : history :=
  map (fun ks : nat * ts_surface => (PartSurface (snd ks),
        [("q0", PArr (q0 (fst ks))); ("qinc", PArr (qinc (fst ks)));
         ("isotropic", PArr (iso (fst ks))); ("reflection", PArr (refl (fst ks)));
         ("qabs", PArr (qabs (fst ks)))]%string))
    (combine (seq 0 (List.length surfs)) surfs).

Lemma write_results_hist : forall st surfs q0 qinc iso refl qabs,
  write_results st surfs q0 qinc iso refl qabs =
  run_history st (result_hist surfs q0 qinc iso refl qabs).
Proof.
  intros. unfold write_results, run_history, result_hist.
  generalize (combine (seq 0 (List.length surfs)) surfs). intro l. revert st.
  induction l as [|x l IH]; intro st; [reflexivity|]. cbn [map fold_left]. rewrite IH. reflexivity.
Qed.

Lemma result_hist_ids : forall surfs q0 qinc iso refl qabs,
  hist_ids (result_hist surfs q0 qinc iso refl qabs) = map s_id surfs.
Proof.
  intros. unfold result_hist, hist_ids. generalize 0%nat.
  induction surfs as [|s l IH]; intro m; [reflexivity|]. cbn. rewrite IH. reflexivity.
Qed.

Definition result_key (k : string) : bool :=
  existsb (String.eqb k) ["q0"; "qinc"; "isotropic"; "reflection"; "qabs"]%string.

Lemma write_results_get : forall st surfs q0 qinc iso refl qabs j s,
  NoDup (map s_id surfs) -> nth_error surfs j = Some s ->
  let st' := write_results st surfs q0 qinc iso refl qabs in
  get_param st' s "q0" = Ok (PArr (q0 j)) /\
  get_param st' s "qinc" = Ok (PArr (qinc j)) /\
  get_param st' s "isotropic" = Ok (PArr (iso j)) /\
  get_param st' s "reflection" = Ok (PArr (refl j)) /\
  get_param st' s "qabs" = Ok (PArr (qabs j)).
Proof.
  intros st surfs q0 qinc iso refl qabs j s N H st'.
  assert (K : forall k, ps_surf st' (s_id s) k =
    overlay [("q0", PArr (q0 j)); ("qinc", PArr (qinc j)); ("isotropic", PArr (iso j));
             ("reflection", PArr (refl j)); ("qabs", PArr (qabs j))]%string k (ps_surf st (s_id s) k)).
  { intro k. unfold st'. rewrite write_results_hist.
    apply history_once with (p := PartSurface s).
    - rewrite result_hist_ids. exact N.
    - unfold result_hist. apply in_map_iff. exists (j, s). split; [reflexivity|].
      exact (in_combine_nth _ _ 0%nat j s H).
    - left; reflexivity. }
  unfold get_param. rewrite !K. cbn. repeat split.
Qed.

Lemma write_results_other : forall st surfs q0 qinc iso refl qabs x k,
  result_key k = false ->
  ps_surf (write_results st surfs q0 qinc iso refl qabs) x k = ps_surf st x k.
Proof.
  intros st surfs q0 qinc iso refl qabs x k H. rewrite write_results_hist.
  apply history_untouched. intros u I [_ K]. unfold result_hist in I. apply in_map_iff in I.
  destruct I as (ks & <- & _). cbn in K. unfold result_key in H.
  cbn in H. repeat (apply orb_false_iff in H; destruct H as [? H]).
  repeat match goal with E : (_ =? _)%string = false |- _ => apply String.eqb_neq in E end.
  intuition congruence.
Qed.

Lemma write_results_dicts : forall st surfs q0 qinc iso refl qabs,
  ps_ground (write_results st surfs q0 qinc iso refl qabs) = ps_ground st /\
  ps_element (write_results st surfs q0 qinc iso refl qabs) = ps_element st.
Proof.
  intros. unfold write_results. generalize (combine (seq 0 (List.length surfs)) surfs). intro l.
  revert st. induction l as [|x l IH]; intro st; [split; reflexivity|]. cbn [fold_left].
  match goal with |- context [fold_left _ l ?s] => destruct (IH s) as [A B] end.
  rewrite A, B. split; reflexivity.
Qed.

Lemma inv_stack_ok : forall n N A inv, inv_stack n N A = Ok inv ->
  forall t, (t < n)%nat -> linalg_inv N (A t) = Some (inv t).
Proof.
  intros n N A inv H t T. unfold inv_stack in H.
  destruct (forallb _ _) eqn:E; [|discriminate H]. inversion H; subst inv.
  rewrite forallb_forall in E. specialize (E t ltac:(apply in_seq; lia)). cbn beta in E.
  destruct (linalg_inv N (A t)); [reflexivity | discriminate E].
Qed.

Lemma inv_stack_total : forall n N A, (forall t, (t < n)%nat -> exists B, linalg_inv N (A t) = Some B) ->
  exists inv, inv_stack n N A = Ok inv.
Proof.
  intros n N A H. unfold inv_stack.
  assert (E : forallb (fun t => match linalg_inv N (A t) with Some _ => true | None => false end)
     (seq 0 n) = true).
  { apply forallb_forall. intros t I. apply in_seq in I. destruct (H t ltac:(lia)) as [B ->]. reflexivity. }
  rewrite E. eauto.
Qed.

(* ----------------------------------------------------- description of a full run *)

Section FullRun.
  Variables (k : irr_kind) (a : fitted) (f : irr_fitted) (st : pstore) (c : calculator).
  Definition fr_surfs : list ts_surface := all_ts_surfaces a.
  Definition fr_n : nat := n_ts_surfaces a.
  Definition fr_irr (t : nat) : vector :=
    column (map (fun s => comps_sum st s (irradiance_comp k)) fr_surfs ++ [if_isotropic_luminance f]) t.
  Definition fr_rho (t : nat) : vector :=
    column (map (fun s => num_of st s "rho") fr_surfs ++ [fun _ => SKY_REFLECTIVITY_DUMMY]) t.
  Definition fr_invrho (t : nat) : vector :=
    column (map (fun s => num_of st s "inv_rho") fr_surfs ++ [fun _ => SKY_REFLECTIVITY_DUMMY]) t.
  Definition fr_abs (t : nat) : vector :=
    column (map (fun s => comps_sum st s (irradiance_comp_absorbed k)) fr_surfs) t.
  Definition fr_F : ts matrix := build_vf_matrix a.
  Definition fr_system (t : nat) : matrix := system_matrix (fr_invrho t) (fr_F t).
  Definition fr_aoi : ts matrix := fun t =>
    match ca_aoi c, ca_aoi_fitted c with
    | Some _, Some af => aoi_update af a t (fr_F t)
    | _, _ => diffuse_aoi (fr_rho t) (fr_F t)
    end.
  Variable inv : ts matrix.
  Definition fr_q0 (t : nat) : vector := mat_vec (S fr_n) (inv t) (fr_irr t).
  Definition fr_qinc (t : nat) : vector := mat_vec (S fr_n) (diag_matrix (fr_invrho t)) (fr_q0 t).
  Definition fr_iso (i t : nat) : R := fr_F t i fr_n * fr_irr t fr_n.
  Definition fr_refl (i t : nat) : R := fr_qinc t i - fr_irr t i - fr_iso i t.
  Definition fr_qabs (i t : nat) : R := mat_vec (S fr_n) (fr_aoi t) (fr_q0 t) i + fr_abs t i.
  Definition fr_store : pstore :=
    write_results st fr_surfs (fun i t => fr_q0 t i) (fun i t => fr_qinc t i) fr_iso fr_refl fr_qabs.
End FullRun.

(** Everything that a full run leaves unchanged or writes. *)
Lemma run_full_spec : forall e a f,
  pv_fitted (en_array e) = Some a -> en_irr_fitted e = Some f ->
  ready (im_kind (en_irr e)) (pv_store (en_array e)) (all_ts_surfaces a) ->
  (ca_aoi (en_calc e) <> None -> ca_aoi_fitted (en_calc e) <> None) ->
  run_full_mode e =
  do inv <- inv_stack (ft_n_states a) (S (fr_n a)) (fr_system a (pv_store (en_array e)));
  let k := im_kind (en_irr e) in
  let st := pv_store (en_array e) in
  let c := en_calc e in
  let r := hp_next (en_heap e) in
  let ra := match ca_aoi c with None => S r | Some _ => r end in
  Ok (Engine (PVArray (pv_params (en_array e)) (pv_param_names (en_array e)) (Some a)
                (fr_store k a f st c inv) (Some r) (Some ra))
        (en_irr e) (Some f) (Calculator (ca_aoi c) (ca_aoi_fitted c) (Some r) (Some ra))
        (en_fast_row e) (en_fast_seg e) (en_n_points e) (en_skip e)
        (match ca_aoi c with
         | None => snd (heap_alloc (snd (heap_alloc (en_heap e) (fr_F a)))
                          (fr_aoi a st c))
         | Some _ => heap_write (snd (heap_alloc (en_heap e) (fr_F a))) r (fr_aoi a st c)
         end)).
Proof.
  intros e a f HA HF RD HC. unfold run_full_mode. rewrite HA, HF.
  rewrite (modeling_vectors_ok _ _ _ _ RD). cbn [bind heap_alloc].
  cbn [hp_get]. rewrite Nat.eqb_refl. cbn beta iota.
  fold (fr_n a).
  change (fun t : nat => system_matrix
    (column (map (fun s => num_of (pv_store (en_array e)) s "inv_rho") (all_ts_surfaces a) ++
       [fun _ => SKY_REFLECTIVITY_DUMMY]) t) (build_vf_matrix a t))
    with (fr_system a (pv_store (en_array e))).
  destruct (inv_stack (ft_n_states a) (S (fr_n a)) (fr_system a (pv_store (en_array e)))) as [inv|]; [|reflexivity].
  cbn [bind]. unfold build_vf_aoi.
  destruct (ca_aoi (en_calc e)) as [m|] eqn:CA.
  - destruct (ca_aoi_fitted (en_calc e)) as [af|] eqn:CF; [|exfalso; apply HC; congruence].
    cbn [bind hp_get hp_next heap_write]. rewrite (absorbed_ok _ _ _ RD). cbn [bind].
    cbn [snd]. unfold heap_write. cbn [hp_get hp_next].
    unfold fr_store, fr_qabs, fr_aoi, fr_q0, fr_qinc, fr_refl, fr_iso, fr_irr, fr_abs, fr_rho,
      fr_invrho, fr_F, fr_n, fr_surfs, fr_q0. rewrite CA, CF. cbn [hp_get].
    rewrite Nat.eqb_refl. reflexivity.
  - cbn [bind hp_get hp_next heap_alloc snd]. rewrite (absorbed_ok _ _ _ RD). cbn [bind].
    unfold fr_store, fr_qabs, fr_aoi, fr_q0, fr_qinc, fr_refl, fr_iso, fr_irr, fr_abs, fr_rho,
      fr_invrho, fr_F, fr_n, fr_surfs, fr_q0. rewrite CA. cbn [hp_get hp_next].
    rewrite !Nat.eqb_refl. reflexivity.
Qed.

(* -------------------------------------------------------------- solution of a run *)

Lemma total_isum : forall (A : Type) (g : A -> R) (h : nat -> R) l,
  (forall k x, nth_error l k = Some x -> g x = h k) -> total g l = isum (List.length l) h.
Proof.
  intros A g h l H.
  assert (K : forall m, (forall k x, nth_error l k = Some x -> g x = h (m + k)%nat) ->
     total g l = isum (List.length l) (fun k => h (m + k)%nat)).
  { clear H. induction l as [|x l IH]; intros m H; [reflexivity|].
    cbn [total List.length]. rewrite (H 0%nat x eq_refl).
    rewrite (isum_split (S (List.length l)) 1) by lia.
    replace (S (List.length l) - 1)%nat with (List.length l) by lia.
    rewrite (IH (S m)).
    - replace (isum 1 (fun k => h (m + k)%nat)) with (h (m + 0)%nat) by (cbn; ring).
      f_equal. apply isum_ext. intros k _. f_equal. lia.
    - intros k y E. rewrite (H (S k) y E). f_equal. lia. }
  rewrite (K 0%nat); [reflexivity | exact H].
Qed.

Section Solution.
  Variables (P : pvlib) (e : engine) (i : irr_inputs) (a : fitted) (f : irr_fitted) (rf rb : R).
  Hypothesis FE : fitted_engine P e i a f rf rb.
  Let st := pv_store (en_array e).
  Let k := im_kind (en_irr e).
  Variable inv : ts matrix.
  Hypothesis INV : inv_stack (ft_n_states a) (S (fr_n a)) (fr_system a st) = Ok inv.
  Variable t : nat.
  Hypothesis T : (t < ft_n_states a)%nat.
  Hypothesis Alb : ii_albedo i t <> 0.
  Hypothesis Rf : rf <> 0.
  Hypothesis Rb : rb <> 0.

  Let N := fr_n a.
  Let F := fr_F a t.
  Let q0 := fr_q0 k a f st inv t.
  Let qinc := fr_qinc k a f st inv t.

  Lemma fr_n_length : N = List.length (all_ts_surfaces a).
  Proof. unfold N, fr_n. apply n_ts_surfaces_length. Qed.

  Lemma surf_at : forall j, (j < N)%nat -> exists s, nth_error (all_ts_surfaces a) j = Some s /\ In s (all_ts_surfaces a).
  Proof.
    intros j H. rewrite fr_n_length in H. apply nth_error_Some in H.
    destruct (nth_error (all_ts_surfaces a) j) as [s|] eqn:E; [|congruence].
    exists s. split; [reflexivity | exact (nth_error_In _ _ E)].
  Qed.

  Lemma cat_rho_nz : forall c, cat_rho i rf rb c t <> 0.
  Proof. intros [sh|j [] sh]; assumption. Qed.

  Lemma rho_of : forall s c, in_category a s c -> num_of st s "rho" = cat_rho i rf rb c.
  Proof. intros s c C. exact (proj2 (numeric_intro _ _ _ _ (key_rho _ _ _ _ _ _ _ FE s c C))). Qed.
  Lemma inv_rho_of : forall s c, in_category a s c ->
    num_of st s "inv_rho" = (fun t => 1 / cat_rho i rf rb c t).
  Proof. intros s c C. exact (proj2 (numeric_intro _ _ _ _ (key_inv_rho _ _ _ _ _ _ _ FE s c C))). Qed.

  Lemma fr_rho_at : forall j s, nth_error (all_ts_surfaces a) j = Some s -> fr_rho a st t j = num_of st s "rho" t.
  Proof. intros j s H. unfold fr_rho, column, fr_surfs. rewrite (row_of_map _ _ _ _ s H). reflexivity. Qed.
  Lemma fr_invrho_at : forall j s, nth_error (all_ts_surfaces a) j = Some s -> fr_invrho a st t j = num_of st s "inv_rho" t.
  Proof. intros j s H. unfold fr_invrho, column, fr_surfs. rewrite (row_of_map _ _ _ _ s H). reflexivity. Qed.
  Lemma fr_irr_at : forall j s, nth_error (all_ts_surfaces a) j = Some s ->
    fr_irr k a f st t j = comps_sum st s (irradiance_comp k) t.
  Proof. intros j s H. unfold fr_irr, column, fr_surfs. rewrite (row_of_map _ _ _ _ s H). reflexivity. Qed.
  Lemma fr_irr_sky : fr_irr k a f st t N = if_isotropic_luminance f t.
  Proof. rewrite fr_n_length. unfold fr_irr, column, fr_surfs. rewrite row_of_last. reflexivity. Qed.
  Lemma fr_invrho_sky : fr_invrho a st t N = 1.
  Proof. rewrite fr_n_length. unfold fr_invrho, column, fr_surfs. rewrite row_of_last. reflexivity. Qed.
  Lemma fr_rho_sky : fr_rho a st t N = 1.
  Proof. rewrite fr_n_length. unfold fr_rho, column, fr_surfs. rewrite row_of_last. reflexivity. Qed.

  Lemma fr_rho_inv : forall j, (j <= N)%nat -> fr_rho a st t j * fr_invrho a st t j = 1.
  Proof.
    intros j H. destruct (Nat.eq_dec j N) as [->|E].
    - rewrite fr_rho_sky, fr_invrho_sky. lra.
    - destruct (surf_at j ltac:(lia)) as (s & Es & Is). destruct (category_exists a s Is) as [c C].
      rewrite (fr_rho_at j s Es), (fr_invrho_at j s Es), (rho_of s c C), (inv_rho_of s c C).
      field. apply cat_rho_nz.
  Qed.

  (** The radiosities solve the system. *)
  Lemma fr_solves : forall j, (j <= N)%nat ->
    fr_invrho a st t j * q0 j - isum (S N) (fun l => F j l * q0 l) = fr_irr k a f st t j.
  Proof.
    intros j H.
    pose proof (inv_stack_ok _ _ _ _ INV t T) as L.
    pose proof (proj2 (linalg_inv_some (S N) (fr_system a st t) (inv t) q0 (fr_irr k a f st t) L)) as S1.
    rewrite <- (S1 (fun l _ => eq_refl) j ltac:(lia)).
    unfold fr_system, system_matrix. rewrite mat_vec_system by lia. reflexivity.
  Qed.

  Lemma fr_qinc_eq : forall j, (j <= N)%nat -> qinc j = fr_invrho a st t j * q0 j.
  Proof. intros j H. unfold qinc, fr_qinc. apply mat_vec_diag. unfold N, fr_n in H. unfold fr_n. lia. Qed.

  Lemma fr_q0_eq : forall j, (j <= N)%nat -> q0 j = fr_rho a st t j * qinc j.
  Proof.
    intros j H. rewrite (fr_qinc_eq j H). rewrite <- Rmult_assoc, (fr_rho_inv j H). lra.
  Qed.

  Hypothesis sky_row : forall j, F N j = 0.

  Lemma fr_q0_sky : q0 N = if_isotropic_luminance f t.
  Proof.
    pose proof (fr_solves N ltac:(lia)) as S. rewrite fr_invrho_sky, fr_irr_sky in S.
    rewrite isum_zero in S by (intros l _; rewrite sky_row; lra). lra.
  Qed.

  (** Balance, by index. *)
  Lemma fr_balance : radiosity_balance N F (fr_rho a st t)
    (fun j => fr_irr k a f st t j + F j N * if_isotropic_luminance f t) qinc.
  Proof.
    intros j H. rewrite sum_below_isum.
    pose proof (fr_solves j ltac:(lia)) as S. rewrite <- (fr_qinc_eq j ltac:(lia)) in S.
    cbn [isum] in S. rewrite fr_q0_sky in S.
    rewrite (isum_ext N (fun j0 => F j j0 * (fr_rho a st t j0 * qinc j0)) (fun l => F j l * q0 l)).
    - lra.
    - intros l L. rewrite (fr_q0_eq l) by lia. reflexivity.
  Qed.

  Lemma fr_refl_eq : forall j, (j < N)%nat ->
    fr_refl k a f st inv j t = sum_below N (fun l => F j l * (fr_rho a st t l * qinc l)).
  Proof.
    intros j H. unfold fr_refl, fr_iso. fold qinc F N. rewrite fr_irr_sky.
    pose proof (fr_balance j H) as B. fold N. lra.
  Qed.
End Solution.
