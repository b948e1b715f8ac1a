(** Properties of fits and of full mode runs: statements, with examples that meet the
    hypotheses. *)
From Coq Require Import Reals List Bool Arith String Lra Lia FunctionalExtensionality.
From Verif Require Import Num ModelTs ModelGeom ModelVF Basics SpecGeom SpecVF ProofFit ProofIndex ProofGeom2 PropGeom ProofVF2 PropVF ProofNight ModelLinalg ProofLinalg SpecEngine ProofRadiosity ModelParams SpecParams ProofParams ModelIrr SpecIrr ProofIrr ProofSky ModelAOI ModelEngine SpecRun ProofEngine PropEngine ProofRun.
Import ListNotations.
Open Scope R_scope.

(* ------------------------------------------------------------------------- fits *)

(** C50: when a fit succeeds. *)
Theorem C50_fit_succeeds : forall P e0 raw, valid_params (pv_params (en_array e0)) ->
  ((exists e, engine_fit P e0 raw = Ok e) <->
   well_shaped raw /\ im_rho_front (en_irr e0) <> None /\ im_rho_back (en_irr e0) <> None /\
   (forall m, ca_aoi (en_calc e0) = Some m -> am_n m <> 0%nat)).
Proof.
  intros P e0 raw V.
  assert (SH : (exists i, format_inputs raw = Ok i) <-> well_shaped raw).
  { destruct raw as [tm dni dhi zen saz tilt az alb ghi]. unfold well_shaped, format_inputs, format_scalars.
    cbn [ri_time ri_dni ri_dhi ri_zenith ri_solar_azimuth ri_tilt ri_azimuth ri_albedo ri_ghi].
    destruct dni as [d|n d]; cbn [is_scalar].
    - destruct tm as [x1|n1 x1]; cbn [wrap bind shape];
        [|split; [intros [i H]; discriminate H | intros (o & A & B & _); congruence]].
      destruct dhi as [x2|n2 x2]; cbn [wrap bind shape];
        [|split; [intros [i H]; discriminate H | intros (o & A & B & C & _); congruence]].
      destruct zen as [x3|n3 x3]; cbn [wrap bind shape];
        [|split; [intros [i H]; discriminate H | intros (o & A & B & C & D & _); congruence]].
      destruct saz as [x4|n4 x4]; cbn [wrap bind shape];
        [|split; [intros [i H]; discriminate H | intros (o & A & B & C & D & E & _); congruence]].
      destruct tilt as [x5|n5 x5]; cbn [wrap bind shape];
        [|split; [intros [i H]; discriminate H | intros (o & A & B & C & D & E & F & _); congruence]].
      destruct az as [x6|n6 x6]; cbn [wrap bind shape];
        [|split; [intros [i H]; discriminate H | intros (o & A & B & C & D & E & F & G & _); congruence]].
      assert (GH : (exists g', match ghi with None => Ok None | Some g => do g' <- wrap g; Ok (Some g') end = Ok g' /\
          match g' with None => True | Some g => exists y, g = NArray 1 y end) \/
         (exists n y, ghi = Some (NArray n y))).
      { destruct ghi as [[g|n g]|]; cbn [wrap bind];
          [left; eexists; split; [reflexivity | cbn; eauto] | right; eauto | left; eexists; split; [reflexivity | exact I]]. }
      destruct GH as [(g' & EG & YG) | (n & y & ->)].
      + rewrite EG. cbn [bind num_len as_array ri_dni ri_time ri_dhi ri_zenith ri_solar_azimuth ri_tilt ri_azimuth ri_albedo ri_ghi Nat.eqb].
        assert (GS : forall g, ghi = Some g -> shape g = None).
        { intros g ->. destruct g; [reflexivity | discriminate EG]. }
        assert (GA : exists r, match g' with None => Ok None | Some g => do g' <- as_array 1 g; Ok (Some g') end = Ok r).
        { destruct g' as [g|]; [destruct YG as [y ->]; cbn; eauto | eauto]. }
        destruct GA as [r GA]. split.
        * intros [i H]. exists None. repeat (split; [reflexivity|]). split; [exact GS|].
          destruct alb as [al|m al]; [left; reflexivity|right]. cbn [as_array bind] in H.
          destruct (Nat.eqb_spec m 1) as [->|]; [reflexivity | discriminate H].
        * intros (o & A & _ & _ & _ & _ & _ & _ & _ & AL). subst o.
          destruct alb as [al|m al].
          -- cbn [bind]. rewrite GA. cbn [bind]. eauto.
          -- destruct AL as [AL|AL]; [discriminate AL|]. cbn in AL. inversion AL; subst m.
             cbn [as_array Nat.eqb bind]. rewrite GA. cbn [bind]. eauto.
      + cbn [wrap bind]. split; [intros [i H]; discriminate H|].
        intros (o & A & B & _ & _ & _ & _ & _ & G & _). specialize (G _ eq_refl). cbn in G, B. congruence.
    - cbn [bind num_len ri_dni ri_time ri_dhi ri_zenith ri_solar_azimuth ri_tilt ri_azimuth ri_albedo ri_ghi].
      assert (AS : forall A (x : num A), (exists v, as_array n x = Ok v) <-> shape x = Some n).
      { intros A [x|m x]; cbn; [split; [intros [v H]; discriminate H | discriminate]|].
        destruct (Nat.eqb_spec m n) as [->|N]; [split; eauto|].
        split; [intros [v H]; discriminate H | intro H; congruence]. }
      split.
      + intros [i H]. exists (Some n). cbn [shape].
        apply bind_ok in H. destruct H as (v1 & H1 & H). apply bind_ok in H. destruct H as (v2 & H2 & H).
        apply bind_ok in H. destruct H as (v3 & H3 & H). apply bind_ok in H. destruct H as (v4 & H4 & H).
        apply bind_ok in H. destruct H as (v5 & H5 & H). apply bind_ok in H. destruct H as (v6 & H6 & H).
        apply bind_ok in H. destruct H as (v7 & H7 & H). apply bind_ok in H. destruct H as (v8 & H8 & H).
        apply bind_ok in H. destruct H as (v9 & H9 & _).
        repeat (split; [first [reflexivity | apply AS; eexists; eassumption]|]). split.
        * intros g ->. apply bind_ok in H9. destruct H9 as (g' & G & _). apply AS. eauto.
        * destruct alb as [al|m al]; [left; reflexivity | right; apply AS; eauto].
      + intros (o & A1 & A2 & A3 & A4 & A5 & A6 & A7 & A8 & A9). 
        assert (O : o = Some n) by (symmetry; exact A2). rewrite O in A1, A2, A3, A4, A5, A6, A7, A8, A9.
        apply AS in A1, A2, A3, A4, A5, A6, A7.
        destruct A1 as [v1 ->], A2 as [v2 ->], A3 as [v3 ->], A4 as [v4 ->], A5 as [v5 ->], A6 as [v6 ->], A7 as [v7 ->].
        cbn [bind].
        assert (G : exists r, match ghi with None => Ok None | Some g => do g' <- as_array n g; Ok (Some g') end = Ok r).
        { destruct ghi as [g|]; [|eauto]. pose proof (A8 g eq_refl) as E. apply AS in E. destruct E as [v ->]. cbn. eauto. }
        destruct G as [r G]. destruct alb as [al|m al].
        * cbn [bind]. rewrite G. cbn [bind]. eauto.
        * destruct A9 as [A9|A9]; [discriminate A9|]. apply AS in A9. destruct A9 as [v8 ->]. cbn [bind]. rewrite G. cbn [bind]. eauto. }
  rewrite <- SH. split.
  - intros [e Fi]. unfold engine_fit in Fi. apply bind_ok in Fi. destruct Fi as (i & Hi & Fi).
    destruct (engine_fit_arrays_inv _ _ _ _ Fi) as (a & f & st & c & rf & rb & F & I & Rf & Rb & T & C & ->).
    split; [eauto|]. split; [congruence|]. split; [congruence|].
    intros m M. unfold calculator_fit in C. rewrite M in C. apply bind_ok in C. destruct C as (af & A & _).
    unfold aoi_fit in A. intro Z. rewrite Z in A. discriminate A.
  - intros ([i Hi] & Rf & Rb & M). unfold engine_fit. rewrite Hi. cbn [bind]. unfold engine_fit_arrays, pvarray_fit.
    destruct (im_rho_front (en_irr e0)) as [rf|] eqn:Ef; [|congruence].
    destruct (im_rho_back (en_irr e0)) as [rb|] eqn:Eb; [|congruence].
    destruct (fit_total (pv_params (en_array e0)) (ii_n i)
       (FitInputs (ii_zenith i) (ii_solar_azimuth i) (ii_tilt i) (ii_azimuth i)) (proj1 (proj2 (proj2 V)))) as [a F].
    rewrite F. cbn [bind pv_fitted pv_store].
    destruct (irr_fit_total P _ i rf rb Ef Eb) as [f I]. rewrite I. cbn [bind].
    destruct (transform_store _ _ _ a (en_irr e0) rf rb f (fresh_store (pv_param_names (en_array e0))) V F Ef Eb) as (st & T & _).
    rewrite T. cbn [bind]. unfold calculator_fit. destruct (ca_aoi (en_calc e0)) as [m|] eqn:CA; [|cbn; eauto].
    unfold aoi_fit. destruct (Nat.eqb_spec (am_n m) 0) as [Z|_]; [exfalso; exact (M m eq_refl Z)|]. cbn. eauto.
Qed.
Print Assumptions C50_fit_succeeds.

(** Concrete engines: three rows, two timesteps, the second one with inter-row shading. *)
Definition ex_raw : raw_inputs :=
  RawInputs (NArray 2 (fun t => t)) (NArray 2 (fun _ => 1000)) (NArray 2 (fun _ => 100))
    (NArray 2 (fi_zenith ex_f)) (NArray 2 (fi_azimuth ex_f)) (NArray 2 (fi_tilt ex_f))
    (NArray 2 (fi_surf_azimuth ex_f)) (NScalar (1 / 5)) None.
Definition ex_model (k : irr_kind) : irr_model :=
  IrrModel k (Some (1 / 100)) (Some (3 / 100)) (1 / 10) (1 / 20) None None 6 30 "uniform_disk".
Definition ex_engine (k : irr_kind) (c : calculator) : engine :=
  engine_init (pvarray_init ex_p []) (Some c) (Some (ex_model k)) None None.

Lemma ex_engine_fit : forall P k c, (forall m, ca_aoi c = Some m -> am_n m <> 0%nat) ->
  exists e, engine_fit P (ex_engine k c) ex_raw = Ok e.
Proof.
  intros P k c H. apply C50_fit_succeeds; [exact ex_valid|]. split.
  - exists (Some 2%nat). cbn. repeat (split; [reflexivity|]). split; [discriminate | left; reflexivity].
  - cbn. split; [discriminate|]. split; [discriminate | exact H].
Qed.
Example C50_example : forall P k, exists e, engine_fit P (ex_engine k default_calculator) ex_raw = Ok e.
Proof. intros. apply ex_engine_fit. cbn. discriminate. Qed.

(** The array, seen at one timestep, is one for which view factors are fractions. The sun may
    be above or below the horizon: below, the line of the sun is what counts ([sun_up]). *)
Definition physical (e0 : engine) (i : irr_inputs) (a : fitted) (t : nat) : Prop :=
  exists al, scene (pv_params (en_array e0)) (ii_n i)
    (sun_up (FitInputs (ii_zenith i) (ii_solar_azimuth i) (ii_tilt i) (ii_azimuth i))) a t al.
Lemma physical_day : forall e0 i a t al,
  scene (pv_params (en_array e0)) (ii_n i) (FitInputs (ii_zenith i) (ii_solar_azimuth i) (ii_tilt i) (ii_azimuth i)) a t al ->
  physical e0 i a t.
Proof. intros e0 i a t al SC. exists al. exact (scene_up _ _ _ _ _ _ SC). Qed.
(** Reflectivities between 0 and [r]. *)
Definition reflects (e0 : engine) (i : irr_inputs) (t : nat) (r : R) : Prop :=
  (forall x, im_rho_front (en_irr e0) = Some x -> 0 < x <= r) /\
  (forall x, im_rho_back (en_irr e0) = Some x -> 0 < x <= r) /\
  0 < ii_albedo i t <= r.

Lemma ex_physical : forall P k c e i a, engine_fit P (ex_engine k c) ex_raw = Ok e ->
  format_inputs ex_raw = Ok i -> pv_fitted (en_array e) = Some a ->
  ii_n i = 2%nat /\ forall t, (t < 2)%nat ->
  physical (ex_engine k c) i a t /\ reflects (ex_engine k c) i t (1 / 5).
Proof.
  intros P k c e i a Fi Hi Ha. inversion Hi; subst i. cbn [ii_n]. split; [reflexivity|]. intros t T.
  destruct (engine_fit_fitted P (ex_engine k c) ex_raw e ex_valid Fi) as (i & a' & f & rf & rb & Hi' & FE).
  rewrite Hi in Hi'. inversion Hi'; subst i. clear Hi'.
  rewrite (fe_array _ _ _ _ _ _ _ FE) in Ha. inversion Ha; subst a'.
  pose proof (fe_fit _ _ _ _ _ _ _ FE) as F. unfold fit_of in F.
  rewrite (proj1 (engine_fit_params _ _ _ _ Fi)) in F. cbn in F.
  change (fit ex_p 2 ex_f = Some a) in F. destruct (ex_scene a F) as [S0 S1]. split.
  - destruct t as [|[|]]; [apply (physical_day _ _ _ _ (PI / 4)); exact S0 | apply (physical_day _ _ _ _ (PI / 6)); exact S1 | lia].
  - unfold reflects. cbn. split; [intros x E; inversion E; lra|]. split; [intros x E; inversion E; lra | lra].
Qed.

Lemma physical_nonneg : forall e0 i a t, physical e0 i a t -> forall j k, 0 <= fr_F a t j k.
Proof. intros e0 i a t (al & S) j k. apply (C14_fractions _ _ _ _ _ _ j k S). Qed.

(* ----------------------------------------------------------------------- C20 *)

Theorem C20_unique_solution : forall n (rho : nat -> R) (F : nat -> nat -> R) (b : nat -> R),
  (forall i, (i < n)%nat -> 0 < rho i < 1) ->
  (forall i j, (i < n)%nat -> (j < n)%nat -> 0 <= F i j) ->
  (forall i, (i < n)%nat -> sum_below n (F i) <= 1) ->
  exists x, (forall i, (i < n)%nat -> 1 / rho i * x i - sum_below n (fun j => F i j * x j) = b i) /\
    forall y, (forall i, (i < n)%nat -> 1 / rho i * y i - sum_below n (fun j => F i j * y j) = b i) ->
    forall i, (i < n)%nat -> y i = x i.
Proof.
  intros n rho F b R NN RS.
  destruct (system_invertible n rho F) as [B HB].
  - intros i I. apply R; exact I.
  - exact NN.
  - intros i I. pose proof (RS i I) as S. rewrite sum_below_isum in S.
    assert (0 <= isum n (F i)) by (apply isum_nonneg; intros; apply NN; assumption).
    pose proof (R i I). nra.
  - assert (EQ : forall x, (forall i, (i < n)%nat -> 1 / rho i * x i - sum_below n (fun j => F i j * x j) = b i) <->
       (forall i, (i < n)%nat -> mat_vec n (mat_sub (diag_matrix (fun i => / rho i)) F) x i = b i)).
    { intro x. split; intros H i I; specialize (H i I); rewrite sum_below_isum in *; rewrite mat_vec_system in * by exact I;
        unfold Rdiv in *; rewrite Rmult_1_l in *; exact H. }
    exists (mat_vec n B b). split.
    + apply EQ. apply (linalg_inv_some n _ B _ b HB). reflexivity.
    + intros y Hy. exact (proj1 (linalg_inv_some n _ B y b HB) (proj1 (EQ y) Hy)).
Qed.
Print Assumptions C20_unique_solution.

(** The run of a fitted engine succeeds: no singular matrix, no missing parameter. *)
Theorem C20_run_succeeds : forall P e0 raw e i a,
  valid_params (pv_params (en_array e0)) -> engine_fit P e0 raw = Ok e ->
  format_inputs raw = Ok i -> pv_fitted (en_array e) = Some a ->
  (forall t, (t < ii_n i)%nat -> physical e0 i a t /\ exists r, r < 1 /\ reflects e0 i t r) ->
  exists e', run_full_mode e = Ok e'.
Proof.
  intros P e0 raw e i a V Fi Hi Ha PH.
  destruct (engine_fit_fitted _ _ _ _ V Fi) as (i' & a' & f & rf & rb & Hi' & FE).
  rewrite Hi in Hi'. inversion Hi'; subst i'.
  rewrite (fe_array _ _ _ _ _ _ _ FE) in Ha. inversion Ha; subst a'.
  destruct (engine_fit_params _ _ _ _ Fi) as (EP & EI & _).
  rewrite (run_full_spec e a f (fe_array _ _ _ _ _ _ _ FE) (fe_irr_fitted _ _ _ _ _ _ _ FE)
    (fitted_ready _ _ _ _ _ _ _ FE) (fe_calc _ _ _ _ _ _ _ FE)).
  destruct (inv_stack_total (ft_n_states a) (S (fr_n a)) (fr_system a (pv_store (en_array e)))) as [inv ->].
  - intros t T. rewrite (fe_n _ _ _ _ _ _ _ FE) in T. destruct (PH t T) as (S & r & R1 & Rf & Rb & Al).
    apply (fr_invertible _ _ _ _ _ _ _ FE).
    + exact (physical_nonneg _ _ _ _ S).
    + specialize (Rf rf). rewrite <- EI in Rf. specialize (Rf (fe_front _ _ _ _ _ _ _ FE)). lra.
    + specialize (Rb rb). rewrite <- EI in Rb. specialize (Rb (fe_back _ _ _ _ _ _ _ FE)). lra.
    + lra.
  - cbn [bind]. eauto.
Qed.
Print Assumptions C20_run_succeeds.

Lemma ex_run : forall P k c, (forall m, ca_aoi c = Some m -> am_n m <> 0%nat) ->
  exists e e', engine_fit P (ex_engine k c) ex_raw = Ok e /\ run_full_mode e = Ok e'.
Proof.
  intros P k c H. destruct (ex_engine_fit P k c H) as [e Fi].
  destruct (engine_fit_fitted P (ex_engine k c) ex_raw e ex_valid Fi) as (i & a & f & rf & rb & Hi & FE).
  destruct (ex_physical P k c e i a Fi Hi (fe_array _ _ _ _ _ _ _ FE)) as [N PH].
  destruct (C20_run_succeeds P (ex_engine k c) ex_raw e i a ex_valid Fi Hi (fe_array _ _ _ _ _ _ _ FE)) as [e' Ru].
  - intros t T. rewrite N in T. destruct (PH t T) as [A B]. split; [exact A|]. exists (1 / 5). split; [lra | exact B].
  - exists e, e'. tauto.
Qed.
Example C20_example : forall P k, exists e e',
  engine_fit P (ex_engine k default_calculator) ex_raw = Ok e /\ run_full_mode e = Ok e'.
Proof. intros. apply ex_run. cbn. discriminate. Qed.

(** A run and its setting, for the theorems below. *)
Definition full_run (P : pvlib) (e0 : engine) (raw : raw_inputs) (i : irr_inputs) (a : fitted)
    (f : irr_fitted) (e' : engine) : Prop :=
  valid_params (pv_params (en_array e0)) /\ format_inputs raw = Ok i /\
  (exists e, engine_fit P e0 raw = Ok e /\ run_full_mode e = Ok e') /\
  pv_fitted (en_array e') = Some a /\ en_irr_fitted e' = Some f.

Lemma ex_full_run : forall P k c, (forall m, ca_aoi c = Some m -> am_n m <> 0%nat) ->
  exists i a f e', full_run P (ex_engine k c) ex_raw i a f e' /\ ii_n i = 2%nat /\
    forall t, (t < 2)%nat -> physical (ex_engine k c) i a t /\ reflects (ex_engine k c) i t (1 / 5).
Proof.
  intros P k c H. destruct (ex_run P k c H) as (e & e' & Fi & Ru).
  destruct (engine_fit_fitted P (ex_engine k c) ex_raw e ex_valid Fi) as (i & a & f & rf & rb & Hi & FE).
  destruct (run_points _ _ _ _ _ _ _ _ FE Ru) as (_ & _ & A & If & _).
  destruct (ex_physical P k c e i a Fi Hi (fe_array _ _ _ _ _ _ _ FE)) as [N PH].
  exists i, a, f, e'. split; [|split; [exact N | exact PH]].
  split; [exact ex_valid|]. split; [exact Hi|]. split; [exists e; tauto|]. tauto.
Qed.

Lemma full_run_inv : forall P e0 raw i a f e', full_run P e0 raw i a f e' ->
  exists e rf rb, fitted_engine P e i a f rf rb /\ run_full_mode e = Ok e' /\ en_irr e = en_irr e0 /\
    ca_aoi (en_calc e) = ca_aoi (en_calc e0) /\
    im_rho_front (en_irr e0) = Some rf /\ im_rho_back (en_irr e0) = Some rb.
Proof.
  intros P e0 raw i a f e' (V & Hi & (e & Fi & Ru) & Ha & Hf).
  destruct (engine_fit_fitted _ _ _ _ V Fi) as (i' & a' & f' & rf & rb & Hi' & FE).
  rewrite Hi in Hi'. inversion Hi'; subst i'.
  destruct (run_points _ _ _ _ _ _ _ _ FE Ru) as (inv & _ & A & If & _).
  rewrite Ha in A. inversion A; subst a'. rewrite Hf in If. inversion If; subst f'.
  destruct (engine_fit_params _ _ _ _ Fi) as (_ & EI & EC).
  exists e, rf, rb. split; [exact FE|]. split; [exact Ru|]. split; [exact EI|]. split; [exact EC|]. rewrite <- EI.
  split; [exact (fe_front _ _ _ _ _ _ _ FE) | exact (fe_back _ _ _ _ _ _ _ FE)].
Qed.

(** By index: nothing more than [published_index] and the range of the coefficients. *)
Lemma physical_run : forall P e0 raw i a f e' t r (qinc rho src : ts_surface -> R),
  full_run P e0 raw i a f e' -> (t < ii_n i)%nat -> physical e0 i a t -> reflects e0 i t r ->
  published (im_kind (en_irr e0)) (pv_store (en_array e')) (all_ts_surfaces a) t qinc rho src ->
  exists q rh s0, radiosity_balance (fr_n a) (fr_F a t) rh
      (fun j => s0 j + fr_F a t j (fr_n a) * irr_sky_luminance f t) q /\
    (forall l x, nth_error (all_ts_surfaces a) l = Some x ->
       (l < fr_n a)%nat /\ surf_index a x = l /\ qinc x = q l /\ rho x = rh l /\ src x = s0 l) /\
    (forall l, (l < fr_n a)%nat -> exists x, nth_error (all_ts_surfaces a) l = Some x /\ In x (all_ts_surfaces a)) /\
    (forall l, (l < fr_n a)%nat -> 0 <= rh l <= r) /\
    (forall l j, 0 <= fr_F a t l j) /\
    (forall l, (l < fr_n a)%nat -> isum (fr_n a) (fr_F a t l) <= 1) /\
    exists p n fi, valid_params p /\ fit p n fi = Some a.
Proof.
  intros P e0 raw i a f e' t r qinc rho src FR T PH (Rf & Rb & Al) PB.
  destruct (full_run_inv _ _ _ _ _ _ _ FR) as (e & rf & rb & FE & Ru & EI & _ & Ef & Eb).
  specialize (Rf rf Ef). specialize (Rb rb Eb). rewrite <- EI in PB.
  destruct (published_index _ _ _ _ _ _ _ _ t qinc rho src FE Ru T ltac:(lra) ltac:(lra) ltac:(lra) PB)
    as (q & rh & s0 & B & X & Y & Z).
  exists q, rh, s0. split; [exact B|]. split; [exact X|]. split; [exact Y|].
  split; [intros l L; destruct (Z l L) as [->|[->| ->]]; lra|].
  pose proof (physical_nonneg _ _ _ _ PH) as NN. split; [exact NN|]. split.
  - intros l L. apply Rle_trans with (isum (S (fr_n a)) (fr_F a t l)).
    + apply isum_init_le. apply NN.
    + apply (row_sum_le _ _ _ _ _ _ _ FE). lia.
  - exists (pv_params (en_array e)), (ii_n i), (fit_of i).
    split; [exact (fe_valid _ _ _ _ _ _ _ FE) | exact (fe_fit _ _ _ _ _ _ _ FE)].
Qed.

(** C20: what is published is the only solution of the balance. *)
Theorem C20_only_solution : forall P e0 raw i a f e' t r (qinc rho src q : ts_surface -> R),
  full_run P e0 raw i a f e' -> (t < ii_n i)%nat -> physical e0 i a t -> reflects e0 i t r -> r < 1 ->
  published (im_kind (en_irr e0)) (pv_store (en_array e')) (all_ts_surfaces a) t qinc rho src ->
  (forall s, In s (all_ts_surfaces a) ->
     q s = src s + vf_sky a t s * irr_sky_luminance f t
           + total (fun x => vf a t s x * (rho x * q x)) (all_ts_surfaces a)) ->
  forall s, In s (all_ts_surfaces a) -> q s = qinc s.
Proof.
  intros P e0 raw i a f e' t r qinc rho src q FR T PH RE R1 PB HQ s Is.
  destruct (physical_run _ _ _ _ _ _ _ _ _ _ _ _ FR T PH RE PB) as (q' & rh & s0 & B & X & Y & Z & NN & RS & p & n & fi & V & F).
  destruct (In_nth_error _ _ Is) as [j Ej]. destruct (X j s Ej) as (L & _ & Eq & _). rewrite Eq.
  set (qi := fun l => match nth_error (all_ts_surfaces a) l with Some x => q x | None => 0 end).
  replace (q s) with (qi j) by (unfold qi; rewrite Ej; reflexivity).
  refine (balance_unique (fr_n a) (fr_F a t) rh _ qi q' r Z R1 (fun i j _ _ => NN i j) RS _ B j L).
  intros l Ll. destruct (Y l Ll) as (x & Ex & Ix). destruct (X l x Ex) as (_ & Sx & _ & _ & Es).
  unfold qi at 1. rewrite Ex, (HQ x Ix). unfold vf_sky. rewrite Sx, Es. f_equal.
  apply (surf_total p n fi a t x l (fun j => rh j * qi j) (fun x => rho x * q x) V F Ex).
  intros m y Ey. destruct (X m y Ey) as (_ & _ & _ & -> & _). unfold qi. rewrite Ey. reflexivity.
Qed.
Print Assumptions C20_only_solution.

(* ----------------------------------------------------------------------- C21 *)

Theorem C21_bounds : forall P e0 raw i a f e' t r (qinc rho src : ts_surface -> R),
  full_run P e0 raw i a f e' -> (t < ii_n i)%nat -> physical e0 i a t -> reflects e0 i t r -> r < 1 ->
  published (im_kind (en_irr e0)) (pv_store (en_array e')) (all_ts_surfaces a) t qinc rho src ->
  let received s := src s + vf_sky a t s * irr_sky_luminance f t in
  (forall s, In s (all_ts_surfaces a) -> 0 <= received s) ->
  forall s, In s (all_ts_surfaces a) ->
    0 <= qinc s /\ received s <= qinc s /\
    (forall M, (forall s', In s' (all_ts_surfaces a) -> received s' <= M) -> qinc s <= M / (1 - r)) /\
    Un_cv (fun k => bounced a t rho received k s) (qinc s).
Proof.
  intros P e0 raw i a f e' t r qinc rho src FR T PH RE R1 PB received SP s Is.
  destruct (physical_run _ _ _ _ _ _ _ _ _ _ _ _ FR T PH RE PB) as (q' & rh & s0 & B & X & Y & Z & NN & RS & p & n & fi & V & F).
  destruct (In_nth_error _ _ Is) as [j Ej]. destruct (X j s Ej) as (L & Sj & Eq & _ & Es). rewrite Eq.
  set (s1 := fun j => s0 j + fr_F a t j (fr_n a) * irr_sky_luminance f t) in *.
  assert (RV : forall l x, nth_error (all_ts_surfaces a) l = Some x -> received x = s1 l).
  { intros l x Ex. destruct (X l x Ex) as (_ & Sx & _ & _ & E). unfold received, vf_sky, s1. rewrite Sx, E. reflexivity. }
  assert (S1 : forall l, (l < fr_n a)%nat -> 0 <= s1 l).
  { intros l Ll. destruct (Y l Ll) as (x & Ex & Ix). rewrite <- (RV l x Ex). apply SP. exact Ix. }
  pose proof (fun i j (_ : (i < fr_n a)%nat) (_ : (j < fr_n a)%nat) => NN i j) as NN'.
  split; [exact (balance_nonneg _ _ _ _ _ r Z R1 NN' RS B S1 j L)|].
  split; [rewrite (RV j s Ej); exact (balance_ge_source _ _ _ _ _ r Z R1 NN' RS B S1 j L)|].
  split.
  - intros M HM. refine (balance_upper _ _ _ _ _ r Z R1 NN' RS B M _ _ j L).
    + apply Rle_trans with (received s); [apply SP; exact Is | apply HM; exact Is].
    + intros l Ll. destruct (Y l Ll) as (x & Ex & Ix). rewrite <- (RV l x Ex). apply HM. exact Ix.
  - intros eps He. destruct (bounces_limit _ _ _ _ _ r Z R1 NN' RS B S1 j L eps He) as [N HN].
    exists N. intros k Hk. specialize (HN k Hk).
    rewrite (bounced_index p n fi a t rho received rh s1 V F) with (l := j); [exact HN | | exact Ej].
    intros l x Ex. split; [destruct (X l x Ex) as (_ & _ & _ & E & _); exact E | exact (RV l x Ex)].
Qed.
Print Assumptions C21_bounds.

(** Two runs on the same geometry with the same reflectivities: more light, more light. *)
Theorem C21_monotone : forall P e0 raw i a f e' P' e0' raw' i' f' e'' t r
    (qinc rho src qinc' src' : ts_surface -> R),
  full_run P e0 raw i a f e' -> full_run P' e0' raw' i' a f' e'' ->
  (t < ii_n i)%nat -> (t < ii_n i')%nat -> physical e0 i a t -> physical e0' i' a t ->
  reflects e0 i t r -> reflects e0' i' t r -> r < 1 ->
  published (im_kind (en_irr e0)) (pv_store (en_array e')) (all_ts_surfaces a) t qinc rho src ->
  published (im_kind (en_irr e0')) (pv_store (en_array e'')) (all_ts_surfaces a) t qinc' rho src' ->
  irr_sky_luminance f t <= irr_sky_luminance f' t ->
  (forall s, In s (all_ts_surfaces a) -> src s <= src' s) ->
  forall s, In s (all_ts_surfaces a) -> qinc s <= qinc' s.
Proof.
  intros P e0 raw i a f e' P' e0' raw' i' f' e'' t r qinc rho src qinc' src' FR FR' T T' PH PH' RE RE' R1 PB PB' SK SR s Is.
  destruct (physical_run _ _ _ _ _ _ _ _ _ _ _ _ FR T PH RE PB) as (q & rh & s0 & B & X & Y & Z & NN & RS & p & n & fi & V & F).
  destruct (physical_run _ _ _ _ _ _ _ _ _ _ _ _ FR' T' PH' RE' PB') as (q1 & rh1 & s1 & B1 & X1 & _ & _).
  destruct (In_nth_error _ _ Is) as [j Ej].
  destruct (X j s Ej) as (L & _ & -> & _). destruct (X1 j s Ej) as (_ & _ & -> & _).
  assert (RH : forall l, (l < fr_n a)%nat -> rh1 l = rh l).
  { intros l Ll. destruct (Y l Ll) as (x & Ex & _). destruct (X l x Ex) as (_ & _ & _ & <- & _).
    destruct (X1 l x Ex) as (_ & _ & _ & <- & _). reflexivity. }
  assert (B1' : radiosity_balance (fr_n a) (fr_F a t) rh (fun j => s1 j + fr_F a t j (fr_n a) * irr_sky_luminance f' t) q1).
  { intros l Ll. rewrite (B1 l Ll), !sum_below_isum. f_equal. apply isum_ext. intros m Hm. rewrite (RH m Hm). reflexivity. }
  refine (balance_monotone _ _ _ _ _ q q1 r Z R1 (fun i j _ _ => NN i j) RS B B1' _ j L).
  intros l Ll. destruct (Y l Ll) as (x & Ex & Ix). destruct (X l x Ex) as (_ & _ & _ & _ & <-).
  destruct (X1 l x Ex) as (_ & _ & _ & _ & <-). pose proof (SR x Ix). pose proof (NN l (fr_n a)). nra.
Qed.
Print Assumptions C21_monotone.

(* ----------------------------------------------------------------------- C22 *)

Theorem C22_components : forall P e0 raw i a f e' t s,
  full_run P e0 raw i a f e' -> In s (all_ts_surfaces a) ->
  let st := pv_store (en_array e') in
  exists src iso refl, light_sources (im_kind (en_irr e0)) st s t src /\
    value_at st s "isotropic" t iso /\ value_at st s "reflection" t refl /\
    value_at st s "qinc" t (src + iso + refl).
Proof.
  intros P e0 raw i a f e' t s FR Is st.
  destruct (full_run_inv _ _ _ _ _ _ _ FR) as (e & rf & rb & FE & Ru & EI & _).
  destruct (run_points _ _ _ _ _ _ _ _ FE Ru) as (inv & INV & A & If & RP).
  destruct (RP t s Is) as [j PT]. rewrite <- EI.
  exists (fr_irr (im_kind (en_irr e)) a f (pv_store (en_array e)) t j),
    (fr_iso (im_kind (en_irr e)) a f (pv_store (en_array e)) j t),
    (fr_refl (im_kind (en_irr e)) a f (pv_store (en_array e)) inv j t).
  split; [exact (rp_src _ _ _ _ _ _ _ _ _ _ PT)|]. split; [exact (rp_iso _ _ _ _ _ _ _ _ _ _ PT)|].
  split; [exact (rp_refl _ _ _ _ _ _ _ _ _ _ PT)|].
  replace (_ + _ + _) with (fr_qinc (im_kind (en_irr e)) a f (pv_store (en_array e)) inv t j).
  - exact (rp_qinc _ _ _ _ _ _ _ _ _ _ PT).
  - unfold fr_refl. ring.
Qed.
Print Assumptions C22_components.
