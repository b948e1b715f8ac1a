(** Construction and inputs of an engine: C37 (reflectivity) and C29 (scalar inputs). *)
From Coq Require Import Reals List Bool Arith String Lra Lia FunctionalExtensionality.
From Verif Require Import Num ModelTs ModelGeom ModelVF Basics SpecGeom ProofFit ModelParams SpecParams ModelIrr SpecIrr SpecEngine ModelAOI SpecAOI
  ModelEngine ProofIrr ProofEngine PropEngine SpecRun ProofRun PropRun PropGeom PropAOI PropLocal.
Import ListNotations.
Open Scope R_scope.

(* --------------------------------------------------------------------------- C37 *)

(** [x] is the value chosen among a value given by the user, a value calculated and a
    default value: the first that exists. *)
Inductive chosen : option R -> option R -> R -> R -> Prop :=
| chosen_user : forall r c d, chosen (Some r) c d r
| chosen_calculated : forall r d, chosen None (Some r) d r
| chosen_default : forall d, chosen None None d d.

(** Reflectivity of a surface of which the fraction [f x] of the light arriving at [x]
    degrees is absorbed, under an isotropic light (in [n] sections). *)
Definition average_reflectivity (f : R -> R) (n : nat) : R :=
  1 - sum_below n (fun k => f (mid_angle n k) * seen_between (cut_angle n k) (cut_angle n (S k))).

(** C37. Choice of the value. *)
Theorem C37_precedence : forall user calculated default x,
  initialize_rho user calculated default = x <-> chosen user calculated default x.
Proof.
  intros u c d x. split.
  - intros <-. destruct u; [constructor|]. destruct c; constructor.
  - intros []; reflexivity.
Qed.

(** C37. The engine made by [with_rho_initialization]: the reflectivity of a side is the
    user's one, or else the one calculated from the AOI losses of that side. Nothing else
    is changed. It is made exactly when the calculator has AOI methods (with sections). *)
Theorem C37_engine : forall arr calc irr row seg,
  (forall e, with_rho_initialization arr calc irr row seg = Ok e ->
   exists m rf rb, ca_aoi calc = Some m /\ (0 < am_n m)%nat /\
     chosen (im_rho_front irr) (Some (average_reflectivity (am_front m) (am_n m))) (1 / 100) rf /\
     chosen (im_rho_back irr) (Some (average_reflectivity (am_back m) (am_n m))) (3 / 100) rb /\
     e = engine_init arr (Some calc)
           (Some (IrrModel (im_kind irr) (Some rf) (Some rb) (im_transparency irr) (im_spacing irr) (im_faoi_front irr)
                    (im_faoi_back irr) (im_horizon_band_angle irr) (im_circumsolar_angle irr) (im_circumsolar_model irr)))
           row seg) /\
  ((exists e, with_rho_initialization arr calc irr row seg = Ok e) <->
   exists m, ca_aoi calc = Some m /\ (0 < am_n m)%nat).
Proof.
  intros arr calc irr row seg. unfold with_rho_initialization. destruct (ca_aoi calc) as [m|].
  2: { split; [discriminate|]. split; [intros [e H]; discriminate | intros (m & H & _); discriminate]. }
  pose proof (C38_rho m false) as [F0 F1]. pose proof (C38_rho m true) as [_ B1].
  destruct (Nat.eq_dec (am_n m) 0) as [Z|Z].
  { rewrite (F0 Z). cbn [bind]. split; [discriminate|]. split; [intros [e H]; discriminate|].
    intros (m' & E & L). injection E as <-. lia. }
  destruct (F1 Z) as (rf & -> & Ef & _). destruct (B1 Z) as (rb & -> & Eb & _). cbn [bind].
  split; [|split; [intros _; exists m; split; [reflexivity | lia] | eauto]].
  intros e H. injection H as <-.
  exists m, (initialize_rho (im_rho_front irr) (Some rf) DEFAULT_RHO_FRONT),
    (initialize_rho (im_rho_back irr) (Some rb) DEFAULT_RHO_BACK).
  split; [reflexivity|]. split; [lia|]. unfold average_reflectivity. cbn in Ef, Eb. rewrite <- Ef, <- Eb.
  split; [apply C37_precedence; reflexivity|]. split; [apply C37_precedence; reflexivity | reflexivity].
Qed.

(** C37. The values chosen are the reflectivities of the surfaces of the two sides of all
    the rows in the simulations that follow. *)
Theorem C37_used : forall P arr calc irr row seg e0 raw e,
  valid_params (pv_params arr) ->
  with_rho_initialization arr calc irr row seg = Ok e0 -> engine_fit P e0 raw = Ok e ->
  exists m a rf rb, ca_aoi calc = Some m /\ pv_fitted (en_array e) = Some a /\
    chosen (im_rho_front irr) (Some (average_reflectivity (am_front m) (am_n m))) (1 / 100) rf /\
    chosen (im_rho_back irr) (Some (average_reflectivity (am_back m) (am_n m))) (3 / 100) rb /\
    forall s t, 
      (forall j sh, in_category a s (CRow j false sh) -> value_at (pv_store (en_array e)) s "rho" t rf) /\
      (forall j sh, in_category a s (CRow j true sh) -> value_at (pv_store (en_array e)) s "rho" t rb).
Proof.
  intros P arr calc irr row seg e0 raw e V W Fi.
  destruct (proj1 (C37_engine arr calc irr row seg) e0 W) as (m & rf & rb & M & N & Cf & Cb & ->).
  match type of Fi with engine_fit _ ?q _ = _ => set (e0 := q) in * end.
  assert (V' : valid_params (pv_params (en_array e0))) by exact V.
  destruct (engine_fit_fitted P e0 raw e V' Fi) as (i & a & f & rf' & rb' & Hi & FE).
  pose proof (engine_fit_params _ _ _ _ Fi) as (_ & EI & _).
  assert (R1 : rf' = rf). { pose proof (fe_front _ _ _ _ _ _ _ FE) as Q. rewrite EI in Q. cbn in Q. congruence. }
  assert (R2 : rb' = rb). { pose proof (fe_back _ _ _ _ _ _ _ FE) as Q. rewrite EI in Q. cbn in Q. congruence. }
  subst rf' rb'. exists m, a, rf, rb. split; [exact M|]. split; [exact (fe_array _ _ _ _ _ _ _ FE)|].
  split; [exact Cf|]. split; [exact Cb|]. intros s t.
  split; intros j sh C; pose proof (key_rho _ _ _ _ _ _ _ FE s _ C) as K; exact (ex_intro _ _ (conj K eq_refl)).
Qed.

(** C37. Initialising again the irradiance model of the engine, with any calculator, leaves
    it as it is. *)
Theorem C37_twice : forall arr calc irr row seg e arr' calc' row' seg' e',
  with_rho_initialization arr calc irr row seg = Ok e ->
  with_rho_initialization arr' calc' (en_irr e) row' seg' = Ok e' ->
  en_irr e' = en_irr e.
Proof.
  intros arr calc irr row seg e arr' calc' row' seg' e' H H'.
  destruct (proj1 (C37_engine _ _ _ _ _) _ H) as (m & rf & rb & _ & _ & _ & _ & ->).
  destruct (proj1 (C37_engine _ _ _ _ _) _ H') as (m' & rf' & rb' & _ & _ & C1 & C2 & ->).
  cbn in C1, C2 |- *. inversion C1; inversion C2; subst. reflexivity.
Qed.

(** C37. The default value cannot be reached: without AOI methods the call fails, even if
    the user gave both reflectivities. *)
Theorem C37_default_refuted : forall arr irr row seg, exists calc,
  with_rho_initialization arr calc irr row seg = Err AttributeError.
Proof. intros. exists default_calculator. reflexivity. Qed.

(** Two sections, the front reflectivity given as an array (ignored), the back one by the
    user. *)
Definition ri_irr : irr_model := IrrModel HybridPerezOrdered None (Some (1 / 50)) 0 0 None None 6 30 "uniform_disk".
Definition ri_calc : calculator := calculator_init (Some (fun _ => 4 / 5)) (Some (fun _ => 9 / 10)) 2.
Example C37_example : forall P, exists e0 e,
  with_rho_initialization (pvarray_init ex_p []) ri_calc ri_irr None None = Ok e0 /\
  engine_fit P e0 ex_raw = Ok e /\ valid_params (pv_params (en_array e0)) /\
  im_rho_front (en_irr e0) = Some (1 / 5) /\ im_rho_back (en_irr e0) = Some (1 / 50).
Proof.
  intro P. pose proof (C37_engine (pvarray_init ex_p []) ri_calc ri_irr None None) as [D S].
  destruct (proj2 S) as [e0 H0]. { eexists. split; [reflexivity | cbn; lia]. }
  exists e0. destruct (D e0 H0) as (m & rf & rb & M & _ & Cf & Cb & E). cbn in M. injection M as <-.
  cbn in Cf, Cb. assert (rb = 1 / 50) by (inversion Cb; reflexivity). assert (rf = 1 / 5).
  { inversion Cf. subst rf. clear Cf. unfold average_reflectivity.
    destruct (proj2 (C38_rho (AOIMethods (fun _ => 4 / 5) (fun _ => 9 / 10) 2) false) ltac:(cbn; lia)) as (r' & _ & A & _ & B & _).
    cbn [am_n am_front am_back] in A, B. rewrite <- A, (B (4 / 5) (fun _ _ => eq_refl)). lra. }
  subst rf rb. destruct (proj2 (C50_fit_succeeds P e0 ex_raw ltac:(rewrite E; exact ex_valid))) as [e Fi].
  - split; [exact ex_raw_shaped|]. rewrite E. cbn. repeat split; try discriminate. intros m Q. injection Q as <-. cbn. lia.
  - exists e. rewrite E in *. split; [exact H0|]. split; [exact Fi|]. split; [exact ex_valid|]. split; reflexivity.
Qed.

Print Assumptions C37_precedence.
Print Assumptions C37_engine.
Print Assumptions C37_used.
Print Assumptions C37_twice.
Print Assumptions C37_default_refuted.

(* --------------------------------------------------------------------------- C29 *)

(** All inputs are floats (the albedo too), or the same as arrays of one element. *)
Definition scalar_inputs (time : nat) (dni dhi zenith solar_azimuth tilt azimuth : R) (albedo : num R) (ghi : option R) : raw_inputs :=
  RawInputs (NScalar time) (NScalar dni) (NScalar dhi) (NScalar zenith) (NScalar solar_azimuth) (NScalar tilt)
    (NScalar azimuth) albedo (option_map NScalar ghi).
Definition one {A : Type} (x : A) : num A := NArray 1 (fun _ => x).
Definition one_inputs (time : nat) (dni dhi zenith solar_azimuth tilt azimuth : R) (albedo : num R) (ghi : option R) : raw_inputs :=
  RawInputs (one time) (one dni) (one dhi) (one zenith) (one solar_azimuth) (one tilt) (one azimuth) albedo (option_map one ghi).

(** C29. Scalars are arrays of one element. *)
Theorem C29_scalars : forall P e time dni dhi zenith solar_azimuth tilt azimuth albedo ghi,
  engine_fit P e (scalar_inputs time dni dhi zenith solar_azimuth tilt azimuth albedo ghi) =
  engine_fit P e (one_inputs time dni dhi zenith solar_azimuth tilt azimuth albedo ghi).
Proof. intros. unfold engine_fit. f_equal. destruct ghi; reflexivity. Qed.

(** The same inputs with another albedo. *)
Definition with_albedo (i : raw_inputs) (albedo : num R) : raw_inputs :=
  RawInputs (ri_time i) (ri_dni i) (ri_dhi i) (ri_zenith i) (ri_solar_azimuth i) (ri_tilt i) (ri_azimuth i) albedo (ri_ghi i).

(** C29. A scalar albedo is a constant albedo array, one value per timestep. *)
Theorem C29_albedo : forall P e i r,
  engine_fit P e (with_albedo i (NScalar r)) =
  engine_fit P e (with_albedo i (NArray (n_timesteps i) (fun _ => r))).
Proof.
  intros P e i r. unfold engine_fit. f_equal.
  assert (K : (fun _ : nat => r * 1) = (fun _ => r)) by (apply functional_extensionality; intro; ring).
  destruct i as [tm dn dh ze sa ti az al gh]. unfold with_albedo, n_timesteps. cbn [ri_time ri_dni ri_dhi ri_zenith ri_solar_azimuth ri_tilt ri_azimuth ri_albedo ri_ghi].
  destruct dn as [d|n d]; cbn [shape].
  - unfold format_inputs, format_scalars. cbn [ri_dni is_scalar ri_time ri_dhi ri_zenith ri_solar_azimuth ri_tilt ri_azimuth ri_albedo ri_ghi].
    destruct tm; cbn [wrap bind]; [|reflexivity]. destruct dh; cbn [wrap bind]; [|reflexivity]. destruct ze; cbn [wrap bind]; [|reflexivity].
    destruct sa; cbn [wrap bind]; [|reflexivity]. destruct ti; cbn [wrap bind]; [|reflexivity]. destruct az; cbn [wrap bind]; [|reflexivity].
    destruct gh as [[g|? ?]|]; cbn; rewrite ?K; reflexivity.
  - unfold format_inputs, format_scalars.
    cbn [ri_dni is_scalar ri_time ri_dhi ri_zenith ri_solar_azimuth ri_tilt ri_azimuth ri_albedo ri_ghi bind num_len].
    assert (A : as_array n (NArray n (fun _ => r)) = Ok (fun _ : nat => r)) by (cbn; rewrite Nat.eqb_refl; reflexivity).
    rewrite A, K. reflexivity.
Qed.

(** Four inputs for one simulation: floats, arrays of one element, constant albedo. *)
Example C29_example : forall P k, exists e, 
  engine_fit P (fx_engine k) (scalar_inputs 3 1000 100 60 90 60 90 (NScalar (1 / 5)) (Some 600)) = Ok e /\
  engine_fit P (fx_engine k) (one_inputs 3 1000 100 60 90 60 90 (NScalar (1 / 5)) (Some 600)) = Ok e /\
  engine_fit P (fx_engine k) (one_inputs 3 1000 100 60 90 60 90 (one (1 / 5)) (Some 600)) = Ok e /\
  engine_fit P (fx_engine k) (scalar_inputs 3 1000 100 60 90 60 90 (one (1 / 5)) (Some 600)) = Ok e.
Proof.
  intros P k. destruct (fx_engine_fit P k (scalar_inputs 3 1000 100 60 90 60 90 (NScalar (1 / 5)) (Some 600))) as [e E].
  - exists None. cbn. repeat (split; [reflexivity|]). split; [|left; reflexivity]. intros g Q. injection Q as <-. reflexivity.
  - exists e. split; [exact E|]. split; [rewrite <- C29_scalars; exact E|]. split.
    + rewrite <- C29_scalars. etransitivity; [|exact E]. symmetry.
      exact (C29_albedo P (fx_engine k) (scalar_inputs 3 1000 100 60 90 60 90 (NScalar 0) (Some 600)) (1 / 5)).
    + etransitivity; [|exact E]. symmetry.
      exact (C29_albedo P (fx_engine k) (scalar_inputs 3 1000 100 60 90 60 90 (NScalar 0) (Some 600)) (1 / 5)).
Qed.

Print Assumptions C29_scalars.
Print Assumptions C29_albedo.
