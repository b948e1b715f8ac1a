(** Properties of the engine in full mode: statements, with examples that meet the
    hypotheses. Proofs are in ProofEngine.v and ProofRadiosity.v. *)
From Coq Require Import Reals List Bool Arith String Lra Lia FunctionalExtensionality.
From Verif Require Import Num ModelTs ModelGeom ModelVF Basics SpecGeom SpecVF ProofFit ProofIndex ProofGeom2 PropGeom PropVF ModelLinalg ProofLinalg SpecEngine ProofRadiosity ModelParams SpecParams ProofParams ModelIrr SpecIrr ProofIrr ModelAOI ModelEngine SpecRun ProofEngine.
Import ListNotations.
Open Scope R_scope.

Lemma engine_fit_fitted : forall P e0 raw e,
  valid_params (pv_params (en_array e0)) -> engine_fit P e0 raw = Ok e ->
  exists i a f rf rb, format_inputs raw = Ok i /\ fitted_engine P e i a f rf rb.
Proof.
  intros P e0 raw e V H. unfold engine_fit in H. apply bind_ok in H. destruct H as (i & Hi & H).
  destruct (engine_fit_arrays_fitted _ _ _ _ V H) as (a & f & rf & rb & FE).
  exists i, a, f, rf, rb. tauto.
Qed.

Lemma fe_n : forall P e i a f rf rb, fitted_engine P e i a f rf rb -> ft_n_states a = ii_n i.
Proof. intros P e i a f rf rb FE. exact (proj1 (fit_spec _ _ _ _ (fe_fit _ _ _ _ _ _ _ FE))). Qed.

Lemma fe_sky_row : forall P e i a f rf rb, fitted_engine P e i a f rf rb ->
  forall t j, fr_F a t (fr_n a) j = 0.
Proof.
  intros P e i a f rf rb FE t j. unfold fr_F, fr_n.
  assert (I : exists x, In x (all_ts_surfaces a)).
  { pose proof (fe_fit _ _ _ _ _ _ _ FE) as F. pose proof (fe_valid _ _ _ _ _ _ _ FE) as V.
    pose proof (fit_ids _ _ _ _ V F) as E.
    destruct (all_ts_surfaces a) as [|x l]; [|exists x; left; reflexivity].
    exfalso. destruct V as (_ & _ & V & _).
    destruct (pa_n_pvrows (pv_params (en_array e))) as [|n]; [lia|]. discriminate E. }
  destruct I as [x I].
  exact (proj2 (proj2 (proj2 (C13_closure _ _ _ _ t x (fe_valid _ _ _ _ _ _ _ FE) (fe_fit _ _ _ _ _ _ _ FE) I))) j).
Qed.

Lemma fe_calc : forall P e i a f rf rb, fitted_engine P e i a f rf rb ->
  ca_aoi (en_calc e) <> None -> ca_aoi_fitted (en_calc e) <> None.
Proof.
  intros P e i a f rf rb FE H. destruct (ca_aoi (en_calc e)) as [m|] eqn:E; [|congruence].
  destruct (fe_aoi _ _ _ _ _ _ _ FE m E) as (af & _ & E2). congruence.
Qed.

(** What a successful run wrote, surface by surface. *)
Lemma run_full_values : forall P e i a f rf rb e', fitted_engine P e i a f rf rb ->
  run_full_mode e = Ok e' ->
  exists inv, inv_stack (ft_n_states a) (S (fr_n a)) (fr_system a (pv_store (en_array e))) = Ok inv /\
    pv_fitted (en_array e') = Some a /\ en_irr_fitted e' = Some f /\ en_irr e' = en_irr e /\
    en_calc e' = Calculator (ca_aoi (en_calc e)) (ca_aoi_fitted (en_calc e)) (ca_vf (en_calc e')) (ca_vf_aoi (en_calc e')) /\
    pv_store (en_array e') = fr_store (im_kind (en_irr e)) a f (pv_store (en_array e)) (en_calc e) inv.
Proof.
  intros P e i a f rf rb e' FE H.
  rewrite (run_full_spec e a f (fe_array _ _ _ _ _ _ _ FE) (fe_irr_fitted _ _ _ _ _ _ _ FE)
    (fitted_ready _ _ _ _ _ _ _ FE) (fe_calc _ _ _ _ _ _ _ FE)) in H.
  apply bind_ok in H. destruct H as (inv & I & H). exists inv. split; [exact I|].
  cbn zeta in H. inversion H; subst e'. cbn. repeat split.
Qed.

Lemma comps_sources : forall k st s t x, light_sources k st s t x ->
  comps_sum st s (irradiance_comp k) t = x.
Proof.
  intros k st s t x H. destruct k; cbn in H; unfold comps_sum; cbn [irradiance_comp fold_left].
  - destruct H as (v & E & <-). rewrite (proj2 (numeric_intro _ _ _ _ E)). lra.
  - destruct H as (d & c & h & (v1 & E1 & <-) & (v2 & E2 & <-) & (v3 & E3 & <-) & ->).
    rewrite (proj2 (numeric_intro _ _ _ _ E1)), (proj2 (numeric_intro _ _ _ _ E2)),
      (proj2 (numeric_intro _ _ _ _ E3)). lra.
Qed.

Lemma numeric_value : forall st s k t, numeric st s k -> value_at st s k t (num_of st s k t).
Proof. intros st s k t H. exists (num_of st s k). split; [exact H | reflexivity]. Qed.

Lemma sources_comps : forall k st s t, (forall c, In c (irradiance_comp k) -> numeric st s c) ->
  light_sources k st s t (comps_sum st s (irradiance_comp k) t).
Proof.
  intros k st s t H. destruct k; cbn; unfold comps_sum; cbn [irradiance_comp fold_left].
  - exists (num_of st s "direct"). split; [apply H; cbn; tauto | lra].
  - exists (num_of st s "direct" t), (num_of st s "circumsolar" t), (num_of st s "horizon" t).
    repeat (split; [apply numeric_value, H; cbn; tauto|]). lra.
Qed.

Lemma absorbed_comps : forall k st s t, (forall c, In c (irradiance_comp_absorbed k) -> numeric st s c) ->
  absorbed_sources k st s t (comps_sum st s (irradiance_comp_absorbed k) t).
Proof.
  intros k st s t H. destruct k; cbn; unfold comps_sum; cbn [irradiance_comp_absorbed fold_left].
  - exists (num_of st s "direct_absorbed"). split; [apply H; cbn; tauto | lra].
  - exists (num_of st s "direct_absorbed" t), (num_of st s "circumsolar_absorbed" t), (num_of st s "horizon_absorbed" t).
    repeat (split; [apply numeric_value, H; cbn; tauto|]). lra.
Qed.

(** Parameters not written by a run. *)
Lemma fr_store_other : forall k a f st c inv s key, result_key key = false ->
  get_param (fr_store k a f st c inv) s key = get_param st s key.
Proof.
  intros k a f st c inv s key H. unfold get_param, fr_store. rewrite write_results_other by exact H.
  reflexivity.
Qed.
Lemma num_of_other : forall k a f st c inv s key, result_key key = false ->
  num_of (fr_store k a f st c inv) s key = num_of st s key.
Proof. intros. unfold num_of. rewrite fr_store_other by assumption. reflexivity. Qed.
Lemma value_other : forall k a f st c inv s key t x, result_key key = false ->
  value_at st s key t x -> value_at (fr_store k a f st c inv) s key t x.
Proof. intros k a f st c inv s key t x H (v & E & V). exists v. rewrite fr_store_other by exact H. tauto. Qed.
Lemma sources_other : forall k kk a f st c inv s t x,
  light_sources k st s t x -> light_sources k (fr_store kk a f st c inv) s t x.
Proof.
  intros k kk a f st c inv s t x H. destruct k; cbn in *.
  - apply value_other; [reflexivity | exact H].
  - destruct H as (d & ci & h & A & B & C & D). exists d, ci, h.
    split; [|split; [|split]]; [apply value_other; [reflexivity | assumption].. | exact D].
Qed.
Lemma absorbed_other : forall k kk a f st c inv s t x,
  absorbed_sources k st s t x -> absorbed_sources k (fr_store kk a f st c inv) s t x.
Proof.
  intros k kk a f st c inv s t x H. destruct k; cbn in *.
  - apply value_other; [reflexivity | exact H].
  - destruct H as (d & ci & h & A & B & C & D). exists d, ci, h.
    split; [|split; [|split]]; [apply value_other; [reflexivity | assumption].. | exact D].
Qed.

(** C19. *)
Theorem C19_radiosity_balance : forall P e0 raw e e',
  valid_params (pv_params (en_array e0)) ->
  engine_fit P e0 raw = Ok e -> run_full_mode e = Ok e' ->
  exists i a f rf rb,
    format_inputs raw = Ok i /\ pv_fitted (en_array e') = Some a /\ en_irr_fitted e' = Some f /\
    im_rho_front (en_irr e0) = Some rf /\ im_rho_back (en_irr e0) = Some rb /\
    forall t, (t < ii_n i)%nat -> ii_albedo i t <> 0 -> rf <> 0 -> rb <> 0 ->
    let st := pv_store (en_array e') in
    let surfs := all_ts_surfaces a in
    exists qinc rho src : ts_surface -> R,
      forall s, In s surfs ->
        let reflected := total (fun x => vf a t s x * (rho x * qinc x)) surfs in
        value_at st s "qinc" t (qinc s) /\
        value_at st s "rho" t (rho s) /\
        light_sources (im_kind (en_irr e0)) st s t (src s) /\
        qinc s = src s + vf_sky a t s * irr_sky_luminance f t + reflected /\
        value_at st s "isotropic" t (vf_sky a t s * irr_sky_luminance f t) /\
        value_at st s "reflection" t reflected /\
        value_at st s "q0" t (rho s * qinc s) /\
        (forall sh, in_category a s (CGround sh) -> rho s = ii_albedo i t) /\
        (forall j sh, in_category a s (CRow j false sh) -> rho s = rf) /\
        (forall j sh, in_category a s (CRow j true sh) -> rho s = rb).
Proof.
  intros P e0 raw e e' V Fi Ru. destruct (engine_fit_fitted _ _ _ _ V Fi) as (i & a & f & rf & rb & Hi & FE).
  destruct (run_full_values _ _ _ _ _ _ _ _ FE Ru) as (inv & INV & A & If & Ie & _ & ST).
  assert (E0 : en_irr e = en_irr e0).
  { unfold engine_fit in Fi. apply bind_ok in Fi. destruct Fi as (i' & _ & Fi).
    destruct (engine_fit_arrays_inv _ _ _ _ Fi) as (? & ? & ? & ? & ? & ? & _ & _ & _ & _ & _ & _ & ->). reflexivity. }
  exists i, a, f, rf, rb. split; [exact Hi|]. split; [exact A|]. split; [exact If|].
  rewrite <- E0. split; [exact (fe_front _ _ _ _ _ _ _ FE)|]. split; [exact (fe_back _ _ _ _ _ _ _ FE)|].
  intros t T Al Rf Rb st surfs. rewrite <- (fe_n _ _ _ _ _ _ _ FE) in T.
  set (k := im_kind (en_irr e)) in *. set (st0 := pv_store (en_array e)) in *.
  pose proof (fe_sky_row _ _ _ _ _ _ _ FE t) as SR.
  pose proof (fitted_ready _ _ _ _ _ _ _ FE) as RD. fold st0 k in RD.
  exists (fun s => fr_qinc k a f st0 inv t (surf_index a s)), (fun s => num_of st0 s "rho" t),
    (fun s => comps_sum st0 s (irradiance_comp k) t).
  intros s Is. destruct (In_nth_error _ _ Is) as [j Ej].
  pose proof (fe_valid _ _ _ _ _ _ _ FE) as V'. pose proof (fe_fit _ _ _ _ _ _ _ FE) as F'.
  pose proof (surf_index_nth _ _ _ _ _ _ V' F' Ej) as Sj.
  assert (Lj : (j < fr_n a)%nat).
  { unfold fr_n. rewrite n_ts_surfaces_length. apply nth_error_Some. unfold surfs in Ej. rewrite Ej. discriminate. }
  cbn zeta. rewrite Sj.
  destruct (write_results_get st0 (fr_surfs a) (fun i t => fr_q0 k a f st0 inv t i)
     (fun i t => fr_qinc k a f st0 inv t i) (fr_iso k a f st0) (fr_refl k a f st0 inv)
     (fr_qabs k a f st0 (en_calc e) inv) j s (fit_ids_nodup _ _ _ _ V' F') Ej) as (W0 & W1 & W2 & W3 & W4).
  fold (fr_store k a f st0 (en_calc e) inv) in W0, W1, W2, W3, W4. rewrite <- ST in W0, W1, W2, W3, W4.
  assert (RF : fr_refl k a f st0 inv j t =
    total (fun x => vf a t s x * (num_of st0 x "rho" t * fr_qinc k a f st0 inv t (surf_index a x))) surfs).
  { unfold st0, k. rewrite (fr_refl_eq _ _ _ _ _ _ _ FE inv INV t T Al Rf Rb SR j Lj).
    rewrite sum_below_isum. symmetry. fold st0 k. rewrite (total_isum _ _
      (fun l => fr_F a t j l * (fr_rho a st0 t l * fr_qinc k a f st0 inv t l))).
    - unfold fr_n. rewrite n_ts_surfaces_length. reflexivity.
    - intros l x Ex. unfold vf. rewrite (surf_index_nth _ _ _ _ _ _ V' F' Ex), Sj.
      unfold st0. rewrite (fr_rho_at e a t l x Ex). reflexivity. }
  assert (IS : fr_iso k a f st0 j t = vf_sky a t s * irr_sky_luminance f t).
  { unfold fr_iso, vf_sky, irr_sky_luminance. rewrite Sj. unfold k, st0. rewrite fr_irr_sky. reflexivity. }
  split; [exists (fun t => fr_qinc k a f st0 inv t j); split; [exact W1 | reflexivity]|].
  split; [unfold st; rewrite ST; apply value_other; [reflexivity|]; apply numeric_value; apply (RD s Is)|].
  split; [unfold st; rewrite ST; apply sources_other; apply sources_comps; apply (RD s Is)|].
  split.
  { rewrite <- RF, <- IS. unfold fr_refl. unfold k, st0. rewrite (fr_irr_at e a f t j s Ej). ring. }
  split; [exists (fr_iso k a f st0 j); split; [exact W2 | exact IS]|].
  split; [exists (fr_refl k a f st0 inv j); split; [exact W3 | exact RF]|].
  split.
  { exists (fun t => fr_q0 k a f st0 inv t j). split; [exact W0|].
    unfold k, st0. rewrite (fr_q0_eq _ _ _ _ _ _ _ FE inv t T Al Rf Rb j) by lia.
    rewrite (fr_rho_at e a t j s Ej). reflexivity. }
  split; [|split]; intros; unfold st0;
    erewrite (rho_of _ _ _ _ _ _ _ FE s) by eassumption; reflexivity.
Qed.
Print Assumptions C19_radiosity_balance.
