(** What an engine is set up with and which timesteps it marks (C76). *)
From Coq Require Import Reals List Bool Arith String Lra Lia FunctionalExtensionality.
From Verif Require Import Num ModelTs ModelGeom ModelVF Basics SpecGeom ProofFit ModelParams SpecParams ModelIrr SpecIrr SpecEngine ModelAOI SpecAOI
  ModelEngine ModelRun ProofIrr ProofEngine PropEngine SpecRun ProofRun PropRun PropGeom PropAOI PropLocal PropInit.
Import ListNotations.
Open Scope R_scope.

(* ---------------------------------------------------------------------- settings *)

(** The AOI methods of a calculator made with these functions: none unless both are given. *)
Inductive losses : option (R -> R) -> option (R -> R) -> nat -> option aoi_methods -> Prop :=
| losses_both : forall f b n m, am_front m = f -> am_back m = b -> am_n m = n -> losses (Some f) (Some b) n (Some m)
| losses_front : forall f n, losses (Some f) None n None
| losses_back : forall b n, losses None (Some b) n None
| losses_none : forall n, losses None None n None.

(** An engine that nothing was done with yet, with the settings of a simulation. *)
Definition set_up (s : simulation) (e : engine) : Prop :=
  pv_params (en_array e) = si_array s /\ pv_param_names (en_array e) = [] /\ pv_fitted (en_array e) = None /\
  pv_store (en_array e) = fresh_store [] /\ pv_vf (en_array e) = None /\ pv_vf_aoi (en_array e) = None /\
  en_irr e = si_irr s /\ en_irr_fitted e = None /\
  losses (si_faoi_front s) (si_faoi_back s) (si_n_sections s) (ca_aoi (en_calc e)) /\
  ca_aoi_fitted (en_calc e) = None /\ ca_vf (en_calc e) = None /\ ca_vf_aoi (en_calc e) = None /\
  en_fast_row e = si_fast_row s /\ en_fast_seg e = si_fast_seg s /\ en_n_points e = None /\ en_skip e = None /\
  hp_next (en_heap e) = 0%nat /\ forall r t i j, hp_get (en_heap e) r t i j = 0.

(** The functional interface is the sequence of calls on a fresh engine with the given
    settings: fit, then the full mode, or the fast mode if there is an index of a row. *)
Theorem C76_run : forall P build s raw r,
  run_timeseries_engine P build s raw = Ok r <->
  exists e0 e e', set_up s e0 /\ engine_fit P e0 raw = Ok e /\
    (si_fast_row s = None -> run_full_mode e = Ok e') /\
    (forall k, si_fast_row s = Some k -> run_fast_mode e (Some k) (si_fast_seg s) = Ok e') /\
    build (en_array e') = Ok r.
Proof.
  intros P build s raw r.
  assert (U : forall e0, set_up s e0 <-> e0 = new_engine s).
  { intros [arr irr fi ca row seg np sk hp]. unfold set_up, new_engine, engine_init, pvarray_init.
    destruct arr as [pp nm ft st v1 v2], ca as [m mf w1 w2], hp as [nx gt].
    cbn [en_array en_irr en_irr_fitted en_calc en_fast_row en_fast_seg en_n_points en_skip en_heap pv_params pv_param_names pv_fitted pv_store pv_vf pv_vf_aoi
         ca_aoi ca_aoi_fitted ca_vf ca_vf_aoi hp_next hp_get]. split.
    - intros (-> & -> & -> & -> & -> & -> & -> & -> & L & -> & -> & -> & -> & -> & -> & -> & -> & Z).
      assert (EG : gt = (fun _ _ _ _ => 0)) by (do 4 (apply functional_extensionality; intro); apply Z). rewrite EG.
      unfold calculator_init. inversion L as [f b n m0 F1 F2 F3 E1 E2 E3 E4 | f n E1 E2 E3 E4 | b n E1 E2 E3 E4 | n E1 E2 E3 E4]; try reflexivity.
      destruct m0; cbn in F1, F2, F3; subst. reflexivity.
    - intros E. injection E as -> -> -> -> -> -> -> -> -> -> -> -> -> -> -> -> -> ->.
      do 8 (split; [reflexivity|]). split; [|repeat split].
      unfold calculator_init. cbn. destruct (si_faoi_front s), (si_faoi_back s); constructor; reflexivity. }
  assert (FK : forall e k, engine_fit P (new_engine s) raw = Ok e -> si_fast_row s = Some k ->
            run_fast_mode e None None = run_fast_mode e (Some k) (si_fast_seg s)).
  { intros e k E K. unfold engine_fit in E. apply bind_ok in E as (i & _ & E).
    apply engine_fit_arrays_inv in E as (a & f & st & c & rf & rb & _ & _ & _ & _ & _ & _ & ->). unfold run_fast_mode.
    cbn [en_array en_irr en_irr_fitted en_calc en_fast_row en_fast_seg en_n_points en_skip en_heap]. unfold new_engine, engine_init. cbn [en_fast_row en_fast_seg]. rewrite K. destruct (si_fast_seg s); reflexivity. }
  unfold run_timeseries_engine. split.
  - intros H. apply bind_ok in H as (e & E & H). apply bind_ok in H as (e' & E' & H). exists (new_engine s), e, e'.
    split; [apply U; reflexivity|]. split; [exact E|].
    destruct (si_fast_row s) as [k|] eqn:K; (split; [intros Q|split; [intros k' Q|exact H]]); try discriminate Q; try exact E'.
    injection Q as <-. rewrite <- (FK e k E eq_refl). exact E'.
  - intros (e0 & e & e' & S0 & E & R1 & R2 & B). apply U in S0. subst e0. rewrite E. cbn [bind].
    destruct (si_fast_row s) as [k|] eqn:K; [rewrite (FK e k E eq_refl), (R2 k eq_refl)|rewrite (R1 eq_refl)]; cbn [bind]; exact B.
Qed.

(** An engine made without models: hybrid Perez model for opaque modules without AOI losses,
    where the surfaces reflect 1% in front and 3% at the back. *)
Theorem C76_defaults : forall P arr row seg raw e,
  valid_params (pv_params arr) -> engine_fit P (engine_init arr None None row seg) raw = Ok e ->
  exists a, pv_fitted (en_array e) = Some a /\ im_kind (en_irr e) = HybridPerezOrdered /\
    im_transparency (en_irr e) = 0 /\ im_spacing (en_irr e) = 0 /\ im_faoi_front (en_irr e) = None /\ im_faoi_back (en_irr e) = None /\
    im_horizon_band_angle (en_irr e) = 13 / 2 /\ im_circumsolar_angle (en_irr e) = 30 /\
    im_circumsolar_model (en_irr e) = "uniform_disk"%string /\ ca_aoi (en_calc e) = None /\
    forall s t,
      (forall j sh, in_category a s (CRow j false sh) -> value_at (pv_store (en_array e)) s "rho" t (1 / 100)) /\
      (forall j sh, in_category a s (CRow j true sh) -> value_at (pv_store (en_array e)) s "rho" t (3 / 100)).
Proof.
  intros P arr row seg raw e V Fi. set (e0 := engine_init arr None None row seg) in *.
  assert (V' : valid_params (pv_params (en_array e0))) by exact V.
  destruct (engine_fit_fitted P e0 raw e V' Fi) as (i & a & f & rf & rb & Hi & FE).
  pose proof (engine_fit_params _ _ _ _ Fi) as (_ & EI & EC).
  assert (R1 : rf = 1 / 100). { pose proof (fe_front _ _ _ _ _ _ _ FE) as Q. rewrite EI in Q. cbn in Q. congruence. }
  assert (R2 : rb = 3 / 100). { pose proof (fe_back _ _ _ _ _ _ _ FE) as Q. rewrite EI in Q. cbn in Q. congruence. }
  subst rf rb. exists a. split; [exact (fe_array _ _ _ _ _ _ _ FE)|]. rewrite EI.
  do 5 (split; [reflexivity|]). split; [cbn; unfold DEFAULT_HORIZON_BAND_ANGLE; lra|]. do 2 (split; [reflexivity|]).
  split; [rewrite EC; reflexivity|]. intros s t.
  split; intros j sh C; pose proof (key_rho _ _ _ _ _ _ _ FE s _ C) as K; exact (ex_intro _ _ (conj K eq_refl)).
Qed.

(* ------------------------------------------------------------- timesteps to skip *)

(** Timesteps that [fit] marks: sun below the horizon, negative light or no light at all. *)
Theorem C76_marked : forall P e0 raw e, engine_fit P e0 raw = Ok e ->
  exists i m, format_inputs raw = Ok i /\ en_skip e = Some m /\ en_n_points e = Some (ii_n i) /\
  forall t, m t = true <->
    90 < ii_zenith i t \/ ii_dni i t < 0 \/ ii_dhi i t < 0 \/ (ii_dni i t = 0 /\ ii_dhi i t = 0).
Proof.
  intros P e0 raw e H. unfold engine_fit in H. apply bind_ok in H as (i & Hi & H).
  apply engine_fit_arrays_inv in H as (a & f & st & c & rf & rb & _ & _ & _ & _ & _ & _ & ->).
  exists i, (skip_step i). split; [exact Hi|]. split; [reflexivity|]. split; [reflexivity|]. intros t.
  unfold skip_step. rewrite !orb_true_iff, andb_true_iff, !Rltb_true, !Reqb_true. tauto.
Qed.

(** The same engine with other marks. *)
Definition marking (m : option (ts bool)) (e : engine) : engine :=
  Engine (en_array e) (en_irr e) (en_irr_fitted e) (en_calc e) (en_fast_row e) (en_fast_seg e) (en_n_points e) m (en_heap e).

(** The marks are not used: no timestep is skipped, results are calculated at all of them. *)
Theorem C76_unused : forall m e,
  (forall e', run_full_mode e = Ok e' -> run_full_mode (marking m e) = Ok (marking m e')) /\
  (forall r s e', run_fast_mode e r s = Ok e' -> run_fast_mode (marking m e) r s = Ok (marking m e')).
Proof.
  intros m e. split.
  - intros e' H. unfold run_full_mode in *. unfold marking at 1 2 3 4 5 6 7 8 9 10 11 12 13 14 15 16.
    cbn [en_array en_irr en_irr_fitted en_calc en_fast_row en_fast_seg en_n_points en_heap] in *. cbv zeta in *.
    destruct (pv_fitted (en_array e)) as [a|]; [|discriminate]. destruct (en_irr_fitted e) as [f|]; [|discriminate].
    apply bind_ok in H as ([[[irr rho] invrho] tot] & E1 & H). rewrite E1. cbn [bind].
    destruct (heap_alloc (en_heap e) (build_vf_matrix a)) as [r h1].
    apply bind_ok in H as (inv & E2 & H). rewrite E2. cbn [bind].
    apply bind_ok in H as ([ra h2] & E3 & H). rewrite E3. cbn [bind].
    apply bind_ok in H as (abs & E4 & H). rewrite E4. cbn [bind]. injection H as <-. reflexivity.
  - intros r s e' H. unfold run_fast_mode in *. cbn [marking en_array en_irr en_irr_fitted en_calc en_fast_row en_fast_seg en_n_points en_skip en_heap].
    destruct (pv_fitted (en_array e)) as [a|]; [|discriminate]. destruct (en_irr_fitted e) as [f|]; [|discriminate].
    destruct (match r with Some k => Some k | None => en_fast_row e end) as [k|]; [|discriminate].
    apply bind_ok in H as (row & E1 & H). rewrite E1. cbn [bind].
    apply bind_ok in H as (st & E2 & H). rewrite E2. cbn [bind]. injection H as <-. reflexivity.
Qed.

(** Two timesteps without any light, and an engine made without models: both timesteps are
    marked, and the run calculates them. *)
Definition dark_raw : raw_inputs :=
  RawInputs (NArray 2 (fun t => t)) (NArray 2 (fun _ => 0)) (NArray 2 (fun _ => 0))
    (NArray 2 (fi_zenith ex_f)) (NArray 2 (fi_azimuth ex_f)) (NArray 2 (fi_tilt ex_f))
    (NArray 2 (fi_surf_azimuth ex_f)) (NScalar (1 / 5)) None.
Definition plain_engine : engine := engine_init (pvarray_init ex_p []) None None None None.

Example C76_case : forall P, exists e e' m,
  engine_fit P plain_engine dark_raw = Ok e /\ run_full_mode e = Ok e' /\
  en_skip e = Some m /\ m 0%nat = true /\ m 1%nat = true.
Proof.
  intros P.
  assert (K : exists e, engine_fit P plain_engine dark_raw = Ok e).
  { apply C50_fit_succeeds; [exact ex_valid|]. split.
    - exists (Some 2%nat). cbn. repeat (split; [reflexivity|]). split; [discriminate | left; reflexivity].
    - cbn. split; [discriminate|]. split; [discriminate | discriminate]. }
  destruct K as [e E]. destruct (engine_fit_fitted P plain_engine dark_raw e ex_valid E) as (i & a & f & rf & rb & Hi & FE).
  assert (Fa : fit ex_p 2 ex_f = Some a).
  { pose proof E as E'. unfold engine_fit in E'. rewrite Hi in E'. cbn [bind] in E'.
    apply engine_fit_arrays_inv in E' as (a' & f' & st & c & rf' & rb' & A & _ & _ & _ & _ & _ & ->).
    pose proof (fe_array _ _ _ _ _ _ _ FE) as Q. cbn in Q. injection Q as <-. inversion Hi; subst i. exact A. }
  destruct (ex_engine_fit P HybridPerezOrdered default_calculator ltac:(cbn; discriminate)) as [e1 E1].
  destruct (engine_fit_fitted P (ex_engine HybridPerezOrdered default_calculator) ex_raw e1 ex_valid E1) as (i1 & a1 & f1 & rf1 & rb1 & Hi1 & FE1).
  destruct (ex_physical P _ _ e1 i1 a1 E1 Hi1 (fe_array _ _ _ _ _ _ _ FE1)) as [N1 PH].
  assert (Fa1 : fit ex_p 2 ex_f = Some a1).
  { pose proof E1 as E'. unfold engine_fit in E'. rewrite Hi1 in E'. cbn [bind] in E'.
    apply engine_fit_arrays_inv in E' as (a' & f' & st & c & rf' & rb' & A & _ & _ & _ & _ & _ & ->).
    pose proof (fe_array _ _ _ _ _ _ _ FE1) as Q. cbn in Q. injection Q as <-. inversion Hi1; subst i1. exact A. }
  rewrite Fa in Fa1. injection Fa1 as <-.
  destruct (C20_run_succeeds P plain_engine dark_raw e i a ex_valid E Hi (fe_array _ _ _ _ _ _ _ FE)) as [e' R].
  { intros t T. inversion Hi; subst i. inversion Hi1; subst i1. cbn [ii_n] in T. destruct (PH t T) as [A B]. split; [exact A|].
    exists (1 / 5). split; [lra|]. exact B. }
  destruct (C76_marked P plain_engine dark_raw e E) as (i' & m & Hi' & M & _ & W). inversion Hi'; subst i'. cbn in W.
  exists e, e', m. split; [exact E|]. split; [exact R|]. split; [exact M|]. split; apply W; right; right; right; split; reflexivity.
Qed.

(** A simulation with AOI losses, run with the functional interface. *)
Definition lossy_sim : simulation :=
  Simulation ex_p (ex_model HybridPerezOrdered) (Some (fun _ => 1)) (Some (fun _ => 1 / 2)) 5 None None.

Example C76_run_case : forall P, run_timeseries_engine P (fun _ => Ok []) lossy_sim ex_raw = Ok [] /\
  exists e0 m, set_up lossy_sim e0 /\ ca_aoi (en_calc e0) = Some m /\ am_back m 30 = 1 / 2.
Proof.
  intros P.
  assert (R : run_timeseries_engine P (fun _ => Ok []) lossy_sim ex_raw = Ok []).
  { destruct (ex_run P HybridPerezOrdered (calculator_init (Some (fun _ => 1)) (Some (fun _ => 1 / 2)) 5)) as (e & e' & E & E').
    { intros m H. cbn in H. injection H as <-. discriminate. }
    unfold run_timeseries_engine. change (new_engine lossy_sim) with (ex_engine HybridPerezOrdered (calculator_init (Some (fun _ => 1)) (Some (fun _ => 1 / 2)) 5)).
    rewrite E. cbn [bind si_fast_row lossy_sim]. rewrite E'. reflexivity. }
  split; [exact R|]. apply C76_run in R as (e0 & e & e' & S0 & _). exists e0.
  pose proof S0 as (_ & _ & _ & _ & _ & _ & _ & _ & L & _). cbn [si_faoi_front si_faoi_back lossy_sim] in L.
  inversion L as [f b n m F B N E1 E2 E3 E4 | | |]. exists m. split; [exact S0|]. split; [reflexivity|]. rewrite B. reflexivity.
Qed.

Print Assumptions C76_run.
Print Assumptions C76_defaults.
Print Assumptions C76_marked.
Print Assumptions C76_unused.
