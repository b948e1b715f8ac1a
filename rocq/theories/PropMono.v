(** How the light received in full mode depends on the reflectivities and on the sources. *)
From Coq Require Import Reals List Bool Arith String Lra Lia.
From Verif Require Import Num ModelTs ModelGeom ModelVF Basics SpecGeom SpecVF ProofFit ProofIndex ProofGeom2 PropGeom ProofMatrix ProofVF ProofVF2 PropVF ModelLinalg ProofLinalg SpecEngine ProofRadiosity ModelParams SpecParams ProofParams ModelIrr SpecIrr ProofIrr ModelAOI ModelEngine SpecRun ProofEngine PropEngine ProofRun PropRun PropAbs PropFastRun.
From Verif Require PropInit.
Import ListNotations.
Open Scope R_scope.

Lemma balance_monotone_rho : forall n F rho rho' s s' q q' r,
  (forall i, (i < n)%nat -> 0 <= rho i <= r) -> (forall i, (i < n)%nat -> rho i <= rho' i <= r) -> r < 1 ->
  (forall i j, (i < n)%nat -> (j < n)%nat -> 0 <= F i j) ->
  (forall i, (i < n)%nat -> isum n (F i) <= 1) ->
  radiosity_balance n F rho s q -> radiosity_balance n F rho' s' q' ->
  (forall i, (i < n)%nat -> 0 <= s i <= s' i) -> forall i, (i < n)%nat -> q i <= q' i.
Proof.
  intros n F rho rho' s s' q q' r H0 H1 R1 NN RS B B' SS i Hi.
  assert (Q : forall i, (i < n)%nat -> 0 <= q i).
  { apply (balance_nonneg n F rho s q r H0 R1 NN RS B). intros l L. apply SS; exact L. }
  (* the first balance, seen with the greater reflectivities, has smaller sources *)
  refine (balance_monotone n F rho' (fun l => s l - isum n (fun j => F l j * ((rho' j - rho j) * q j))) s' q q' r _ R1 NN RS _ B' _ i Hi).
  - intros l L. specialize (H0 l L). specialize (H1 l L). lra.
  - intros l L. rewrite (B l L) at 1. rewrite !sum_below_isum.
    assert (E : isum n (fun j => F l j * (rho' j * q j)) =
      isum n (fun j => F l j * (rho j * q j)) + isum n (fun j => F l j * ((rho' j - rho j) * q j))).
    { rewrite <- isum_plus. apply isum_ext. intros m _. ring. }
    change (sum_below n (fun j => F l j * (rho' j * q j))) with (isum n (fun j => F l j * (rho' j * q j))).
    rewrite E. lra.
  - intros l L. destruct (SS l L) as [_ Sl].
    assert (0 <= isum n (fun j => F l j * ((rho' j - rho j) * q j))).
    { apply isum_nonneg. intros m M. apply Rmult_le_pos; [apply NN; assumption|].
      apply Rmult_le_pos; [destruct (H1 m M); lra | apply Q; exact M]. }
    lra.
Qed.

(* ----------------------------------------------------------------------- C71 *)

Theorem C71_reflectivity : forall P e0 raw i a f e' P' e0' raw' i' f' e'' t r
    (qinc rho src qinc' rho' src' : ts_surface -> R),
  full_run P e0 raw i a f e' -> full_run P' e0' raw' i' a f' e'' ->
  (t < ii_n i)%nat -> (t < ii_n i')%nat -> physical e0 i a t -> physical e0' i' a t ->
  reflects e0 i t r -> reflects e0' i' t r -> r < 1 ->
  published (im_kind (en_irr e0)) (pv_store (en_array e')) (all_ts_surfaces a) t qinc rho src ->
  published (im_kind (en_irr e0')) (pv_store (en_array e'')) (all_ts_surfaces a) t qinc' rho' src' ->
  irr_sky_luminance f t <= irr_sky_luminance f' t ->
  (forall s, In s (all_ts_surfaces a) ->
     0 <= src s + vf_sky a t s * irr_sky_luminance f t /\ src s <= src' s /\ rho s <= rho' s) ->
  forall s, In s (all_ts_surfaces a) -> qinc s <= qinc' s.
Proof.
  intros P e0 raw i a f e' P' e0' raw' i' f' e'' t r qinc rho src qinc' rho' src' FR FR' T T' PH PH' RE RE' R1 PB PB' SK SR s Is.
  destruct (physical_run _ _ _ _ _ _ _ _ _ _ _ _ FR T PH RE PB) as (q & rh & s0 & B & X & Y & Z & NN & RS & p & n & fi & V & F).
  destruct (physical_run _ _ _ _ _ _ _ _ _ _ _ _ FR' T' PH' RE' PB') as (q1 & rh1 & s1 & B1 & X1 & _ & Z1 & _).
  destruct (In_nth_error _ _ Is) as [j Ej].
  destruct (X j s Ej) as (L & _ & -> & _). destruct (X1 j s Ej) as (_ & _ & -> & _).
  refine (balance_monotone_rho _ _ rh rh1 _ _ q q1 r Z _ R1 (fun i j _ _ => NN i j) RS B B1 _ j L).
  - intros l Ll. destruct (Y l Ll) as (x & Ex & Ix). destruct (X l x Ex) as (_ & _ & _ & <- & _).
    specialize (Z1 l Ll). destruct (X1 l x Ex) as (_ & _ & _ & E1 & _). rewrite <- E1 in *.
    destruct (SR x Ix) as (_ & _ & ?). lra.
  - intros l Ll. destruct (Y l Ll) as (x & Ex & Ix). destruct (X l x Ex) as (_ & Sx & _ & _ & <-).
    destruct (X1 l x Ex) as (_ & _ & _ & _ & <-). destruct (SR x Ix) as (U0 & U & _).
    unfold vf_sky in U0. rewrite Sx in U0. pose proof (NN l (fr_n a)).
    split; [exact U0 | nra].
Qed.
Print Assumptions C71_reflectivity.


(** With another albedo only the albedo changes in the formatted inputs, and the irradiance
    model derives the same sources and sky. *)
Lemma format_albedo : forall raw al i i', format_inputs raw = Ok i ->
  format_inputs (PropInit.with_albedo raw al) = Ok i' ->
  i' = IrrInputs (ii_n i) (ii_time i) (ii_dni i) (ii_dhi i) (ii_zenith i) (ii_solar_azimuth i)
         (ii_tilt i) (ii_azimuth i) (ii_albedo i') (ii_ghi i).
Proof.
  intros raw al i i' H H'. unfold format_inputs in *.
  apply bind_ok in H. destruct H as (x & X & H). apply bind_ok in H'. destruct H' as (x' & X' & H').
  assert (E : x' = PropInit.with_albedo x al).
  { unfold format_scalars, PropInit.with_albedo in *. cbn [ri_dni ri_time ri_dhi ri_zenith ri_solar_azimuth ri_tilt ri_azimuth ri_albedo ri_ghi] in *.
    destruct (is_scalar (ri_dni raw)).
    - repeat (apply bind_ok in X; let y := fresh "y" in let Y := fresh "Y" in destruct X as (y & Y & X); rewrite Y in X'; cbn [bind] in X').
      inversion X; subst x. inversion X'. reflexivity.
    - inversion X; subst x. inversion X'. reflexivity. }
  subst x'. clear X X'. unfold PropInit.with_albedo in H'.
  cbn [ri_dni ri_time ri_dhi ri_zenith ri_solar_azimuth ri_tilt ri_azimuth ri_albedo ri_ghi] in *.
  do 7 (apply bind_ok in H; let y := fresh "y" in let Y := fresh "Y" in destruct H as (y & Y & H); rewrite Y in H'; cbn [bind] in H').
  apply bind_ok in H. destruct H as (z & _ & H). apply bind_ok in H'. destruct H' as (z' & _ & H').
  apply bind_ok in H. destruct H as (g & G & H). rewrite G in H'. cbn [bind] in H'.
  inversion H. inversion H'. reflexivity.
Qed.

Lemma fit_albedo : forall P m i al f f', irr_fit P m i = Ok f ->
  irr_fit P m (IrrInputs (ii_n i) (ii_time i) (ii_dni i) (ii_dhi i) (ii_zenith i) (ii_solar_azimuth i)
         (ii_tilt i) (ii_azimuth i) al (ii_ghi i)) = Ok f' ->
  if_direct f' = if_direct f /\ if_circumsolar f' = if_circumsolar f /\
  if_horizon_front f' = if_horizon_front f /\ if_horizon_back f' = if_horizon_back f /\
  if_isotropic_luminance f' = if_isotropic_luminance f.
Proof.
  intros P m i al f f' H H'. unfold irr_fit in *. destruct (im_kind m).
  - unfold fit_isotropic in *.
    change (aoi_front _) with (aoi_front i) in H' at 1. change (aoi_back _) with (aoi_back i) in H' at 1.
    cbn [ii_tilt] in H'.
    apply bind_ok in H. destruct H as (ff & FF & H). rewrite FF in H'. cbn [bind] in H'.
    apply bind_ok in H. destruct H as (fb & FB & H). rewrite FB in H'. cbn [bind] in H'.
    inversion H. inversion H'. cbn. tauto.
  - unfold fit_hybrid in *.
    change (perez_inputs _) with (perez_inputs i) in H' at 1.
    destruct (perez_diffuse_luminance P 2 (perez_inputs i)) as [outs|]; [|discriminate].
    change (aoi_front _) with (aoi_front i) in H' at 1. change (aoi_back _) with (aoi_back i) in H' at 1.
    cbn [ii_tilt] in H'.
    apply bind_ok in H. destruct H as (ff & FF & H). rewrite FF in H'. cbn [bind] in H'.
    apply bind_ok in H. destruct H as (fb & FB & H). rewrite FB in H'. cbn [bind] in H'.
    inversion H. inversion H'. cbn. tauto.
Qed.

(** Sources found on the surfaces after a run. *)
Lemma run_sources : forall P e0 raw i a f e' s c, full_run P e0 raw i a f e' -> in_category a s c ->
  exists rf rb, im_rho_front (en_irr e0) = Some rf /\ im_rho_back (en_irr e0) = Some rb /\
  get_param (pv_store (en_array e')) s "rho" = Ok (PArr (cat_rho i rf rb c)) /\
  get_param (pv_store (en_array e')) s "direct" = Ok (PArr (cat_of (if_direct f) c)) /\
  (im_kind (en_irr e0) = HybridPerezOrdered ->
   get_param (pv_store (en_array e')) s "circumsolar" = Ok (PArr (cat_of (if_circumsolar f) c)) /\
   get_param (pv_store (en_array e')) s "horizon" =
     Ok (PArr (match c with
               | CGround _ => zeros
               | CRow j true _ => fun t => if_horizon_back f t * (1 - back_pct (en_irr e0) a j [s] t / 100)
               | CRow _ false _ => if_horizon_front f
               end))).
Proof.
  intros P e0 raw i a f e' s c FR C.
  destruct (full_run_inv _ _ _ _ _ _ _ FR) as (e & rf & rb & FE & Ru & EI & _ & Ef & Eb).
  destruct (run_full_values _ _ _ _ _ _ _ _ FE Ru) as (inv & _ & _ & _ & _ & _ & ST).
  exists rf, rb. split; [exact Ef|]. split; [exact Eb|]. rewrite ST.
  rewrite !fr_store_other by reflexivity.
  split; [exact (key_rho _ _ _ _ _ _ _ FE s c C)|]. split; [exact (key_direct _ _ _ _ _ _ _ FE s c C)|].
  intro HY. rewrite <- EI in HY |- *.
  split; [exact (key_circ _ _ _ _ _ _ _ FE HY s c C)|].
  pose proof (key_horizon _ _ _ _ _ _ _ FE HY s c C) as K. unfold cat_horizon in K.
  destruct c as [sh|j [] sh]; exact K.
Qed.

Lemma run_fits : forall P e0 raw i a f e', full_run P e0 raw i a f e' ->
  fit (pv_params (en_array e0)) (ii_n i) (fit_of i) = Some a /\ irr_fit P (en_irr e0) i = Ok f.
Proof.
  intros P e0 raw i a f e' (V & Hi & (e & Fi & Ru) & Ha & Hf).
  destruct (engine_fit_fitted _ _ _ _ V Fi) as (i' & a' & f' & rf & rb & Hi' & FE).
  rewrite Hi in Hi'. inversion Hi'; subst i'.
  destruct (run_points _ _ _ _ _ _ _ _ FE Ru) as (inv & _ & A & If & _).
  rewrite Ha in A. inversion A; subst a'. rewrite Hf in If. inversion If; subst f'.
  destruct (engine_fit_params _ _ _ _ Fi) as (EP & EI & _).
  pose proof (fe_fit _ _ _ _ _ _ _ FE). pose proof (fe_irr _ _ _ _ _ _ _ FE). rewrite EP, EI in *. tauto.
Qed.

(** Same engine, same inputs but for the albedo: same geometry, same sources, and at a
    timestep where the albedo is greater every surface receives at least as much light.
    Without AOI losses every PV row surface absorbs at least as much too. *)
Theorem C71_albedo : forall P e0 raw al i a f e' i' a' f' e'' t r
    (qinc rho src qinc' rho' src' : ts_surface -> R),
  full_run P e0 raw i a f e' -> full_run P e0 (PropInit.with_albedo raw al) i' a' f' e'' ->
  (t < ii_n i)%nat -> physical e0 i a t -> reflects e0 i t r -> reflects e0 i' t r -> r < 1 ->
  published (im_kind (en_irr e0)) (pv_store (en_array e')) (all_ts_surfaces a) t qinc rho src ->
  published (im_kind (en_irr e0)) (pv_store (en_array e'')) (all_ts_surfaces a) t qinc' rho' src' ->
  (forall s, In s (all_ts_surfaces a) -> 0 <= src s + vf_sky a t s * irr_sky_luminance f t) ->
  ii_albedo i t <= ii_albedo i' t ->
  a' = a /\ irr_sky_luminance f' t = irr_sky_luminance f t /\
  forall s, In s (all_ts_surfaces a) -> src' s = src s /\ qinc s <= qinc' s /\
    (ca_aoi (en_calc e0) = None -> im_faoi_front (en_irr e0) = None -> im_faoi_back (en_irr e0) = None ->
     forall j back shaded x x', in_category a s (CRow j back shaded) ->
       value_at (pv_store (en_array e')) s "qabs" t x ->
       value_at (pv_store (en_array e'')) s "qabs" t x' -> x <= x').
Proof.
  intros P e0 raw al i a f e' i' a' f' e'' t r qinc rho src qinc' rho' src' FR FR' T PH RE RE' R1 PB PB' NN AL.
  pose proof FR as (V & Hi & _). pose proof FR' as (_ & Hi' & _).
  pose proof (format_albedo _ _ _ _ Hi Hi') as EI.
  destruct (run_fits _ _ _ _ _ _ _ FR) as (FA & FI). destruct (run_fits _ _ _ _ _ _ _ FR') as (FA' & FI').
  assert (N' : ii_n i' = ii_n i) by (rewrite EI; reflexivity).
  assert (FO : fit_of i' = fit_of i) by (rewrite EI; reflexivity).
  assert (Ea : a' = a). { rewrite N', FO, FA in FA'. inversion FA'. reflexivity. }
  subst a'. rewrite EI in FI'. destruct (fit_albedo _ _ _ _ _ _ FI FI') as (Dd & Dc & Df & Db & Dl).
  assert (SK : irr_sky_luminance f' t = irr_sky_luminance f t) by (unfold irr_sky_luminance; rewrite Dl; reflexivity).
  split; [reflexivity|]. split; [exact SK|].
  assert (T' : (t < ii_n i')%nat) by (rewrite N'; exact T).
  assert (PH' : physical e0 i' a t).
  { destruct PH as (al0 & PH). exists al0. rewrite EI. exact PH. }
  assert (SS : forall s, In s (all_ts_surfaces a) -> src' s = src s /\ rho s <= rho' s /\
     forall j back shaded, in_category a s (CRow j back shaded) -> rho' s = rho s).
  { intros s Is. destruct (category_exists a s Is) as (c0 & C0).
    destruct (PB s Is) as (_ & P2 & P3). destruct (PB' s Is) as (_ & P2' & P3').
    assert (RR : forall c, in_category a s c -> rho s <= rho' s /\ match c with CRow _ _ _ => rho' s = rho s | _ => True end).
    { intros c C. destruct (run_sources _ _ _ _ _ _ _ s c FR C) as (rf & rb & Rf & Rb & K1 & _).
      destruct (run_sources _ _ _ _ _ _ _ s c FR' C) as (rf' & rb' & Rf' & Rb' & K1' & _).
      rewrite Rf in Rf'. inversion Rf'; subst rf'. rewrite Rb in Rb'. inversion Rb'; subst rb'.
      destruct P2 as (v & G & <-). destruct P2' as (v' & G' & <-).
      rewrite K1 in G. inversion G; subst v. rewrite K1' in G'. inversion G'; subst v'.
      destruct c as [sh|j b sh]; cbn [cat_rho]; [split; [exact AL|exact Logic.I] | split; [lra|reflexivity]]. }
    split; [|split; [exact (proj1 (RR c0 C0)) | intros j b sh C; exact (proj2 (RR _ C))]].
    destruct (run_sources _ _ _ _ _ _ _ s c0 FR C0) as (rf & rb & Rf & Rb & _ & K2 & K3).
    destruct (run_sources _ _ _ _ _ _ _ s c0 FR' C0) as (rf' & rb' & Rf' & Rb' & _ & K2' & K3').
    rewrite Dd, <- K2 in K2'.
    refine (sources_fun (im_kind (en_irr e0)) (pv_store (en_array e'')) s t _ _ P3' _).
    unfold light_sources, value_at in P3 |- *. destruct (im_kind (en_irr e0)).
    - rewrite K2'. exact P3.
    - destruct (K3 eq_refl) as (Kc & Kh). destruct (K3' eq_refl) as (Kc' & Kh').
      rewrite Dc, <- Kc in Kc'. rewrite Df, Db, <- Kh in Kh'. rewrite K2', Kc', Kh'. exact P3. }
  assert (QQ : forall s, In s (all_ts_surfaces a) -> qinc s <= qinc' s).
  { apply (C71_reflectivity P e0 raw i a f e' P e0 (PropInit.with_albedo raw al) i' f' e'' t r qinc rho src qinc' rho' src' FR FR' T T' PH PH' RE RE' R1 PB PB').
    - rewrite SK. lra.
    - intros s Is. destruct (SS s Is) as (E & R & _). rewrite E. split; [apply NN; exact Is|]. split; [lra|exact R]. }
  intros s Is. destruct (SS s Is) as (E & _ & RC). split; [exact E|]. split; [apply QQ; exact Is|].
  intros NA NF NB j back sh x x' C VX VX'. specialize (RC j back sh C). specialize (QQ s Is).
  destruct RE as (R2 & R3 & R4). destruct RE' as (R2' & R3' & R4').
  assert (ZF : im_rho_front (en_irr e0) <> Some 0) by (intro H; specialize (R2 0 H); lra).
  assert (ZB : im_rho_back (en_irr e0) <> Some 0) by (intro H; specialize (R3 0 H); lra).
  destruct (C23_absorbed _ _ _ _ _ _ _ t s FR NA NF NB T ltac:(lra) ZF ZB Is) as (q0 & r0 & s0 & A1 & A2 & A3 & _).
  destruct (C23_absorbed _ _ _ _ _ _ _ t s FR' NA NF NB T' ltac:(lra) ZF ZB Is) as (q1 & r1 & s1 & B1 & B2 & B3 & _).
  destruct (PB s Is) as (P1 & P2 & _). destruct (PB' s Is) as (P1' & P2' & _).
  rewrite (value_at_fun _ _ _ _ _ _ A1 P1), (value_at_fun _ _ _ _ _ _ A2 P2) in A3.
  rewrite (value_at_fun _ _ _ _ _ _ B1 P1'), (value_at_fun _ _ _ _ _ _ B2 P2'), RC in B3.
  rewrite (value_at_fun _ _ _ _ _ _ VX A3), (value_at_fun _ _ _ _ _ _ VX' B3).
  assert (rho s <= 1).
  { destruct (run_sources _ _ _ _ _ _ _ s _ FR C) as (rf & rb & Rf & Rb & K1 & _).
    destruct P2 as (v & G & <-). rewrite K1 in G. inversion G; subst v. cbn [cat_rho].
    specialize (R2 rf Rf). specialize (R3 rb Rb). destruct back; lra. }
  apply Rmult_le_compat_l; lra.
Qed.
Print Assumptions C71_albedo.

(** Another run of the example engine, on inputs with the same angles. *)
Lemma ex_other_run : forall P raw' i i' a f e' al, full_run P (ex_engine IsotropicOrdered default_calculator) ex_raw i a f e' ->
  ii_n i = 2%nat ->
  (forall t, (t < 2)%nat -> physical (ex_engine IsotropicOrdered default_calculator) i a t /\
     reflects (ex_engine IsotropicOrdered default_calculator) i t (1 / 5)) ->
  (exists e1, engine_fit P (ex_engine IsotropicOrdered default_calculator) raw' = Ok e1) ->
  format_inputs raw' = Ok i' -> ii_n i' = ii_n i -> fit_of i' = fit_of i ->
  (forall t, ii_albedo i' t = al) -> 1 / 5 <= al < 1 ->
  exists f' e'', full_run P (ex_engine IsotropicOrdered default_calculator) raw' i' a f' e'' /\
    forall t, (t < 2)%nat -> reflects (ex_engine IsotropicOrdered default_calculator) i' t al.
Proof.
  intros P raw' i i' a f e' al. set (e0 := ex_engine IsotropicOrdered default_calculator).
  intros FR N PH (e1 & Fi1) Hi' EN EF AL HA.
  assert (V : valid_params (pv_params (en_array e0))) by exact ex_valid.
  destruct (engine_fit_fitted P e0 raw' e1 V Fi1) as (i2 & a' & f1 & rf1 & rb1 & Hi2 & FE1).
  rewrite Hi' in Hi2. inversion Hi2; subst i2. clear Hi2.
  assert (Ea : a' = a).
  { destruct (run_fits _ _ _ _ _ _ _ FR) as (FA & _). pose proof (fe_fit _ _ _ _ _ _ _ FE1) as FA1.
    destruct (engine_fit_params _ _ _ _ Fi1) as (EP & _ & _). rewrite EP, EN, EF, FA in FA1. inversion FA1. reflexivity. }
  subst a'.
  assert (RW : forall t, (t < 2)%nat -> physical e0 i' a t /\ reflects e0 i' t al).
  { intros t Ht. destruct (PH t Ht) as ((al0 & Sc) & (W1 & W2 & _)). split.
    - exists al0. rewrite EN. change (FitInputs (ii_zenith i') (ii_solar_azimuth i') (ii_tilt i') (ii_azimuth i')) with (fit_of i').
      rewrite EF. exact Sc.
    - split; [intros x Hx; specialize (W1 x Hx); lra|]. split; [intros x Hx; specialize (W2 x Hx); lra|].
      rewrite AL. lra. }
  destruct (C20_run_succeeds P e0 raw' e1 i' a V Fi1 Hi' (fe_array _ _ _ _ _ _ _ FE1)) as (e2 & Ru2).
  { intros t T. rewrite EN, N in T. destruct (RW t T) as (A & B). split; [exact A|]. exists al. split; [lra|exact B]. }
  destruct (run_points _ _ _ _ _ _ _ _ FE1 Ru2) as (_ & _ & A2 & I2 & _).
  exists f1, e2. split; [|intros t Ht; exact (proj2 (RW t Ht))].
  split; [exact V|]. split; [exact Hi'|]. split; [exists e1; tauto|]. tauto.
Qed.

(** With an albedo of 0.6 instead of 0.2. *)
Example C71_example : forall P, exists i a f e' i' f' e'' qinc rho src qinc' rho' src',
  let e0 := ex_engine IsotropicOrdered default_calculator in
  let raw' := PropInit.with_albedo ex_raw (NScalar (6 / 10)) in
  full_run P e0 ex_raw i a f e' /\ full_run P e0 raw' i' a f' e'' /\ (1 < ii_n i)%nat /\
  physical e0 i a 1 /\ reflects e0 i 1 (6 / 10) /\ reflects e0 i' 1 (6 / 10) /\
  published IsotropicOrdered (pv_store (en_array e')) (all_ts_surfaces a) 1 qinc rho src /\
  published IsotropicOrdered (pv_store (en_array e'')) (all_ts_surfaces a) 1 qinc' rho' src' /\
  ii_albedo i 1%nat < ii_albedo i' 1%nat /\
  exists s, In s (all_ts_surfaces a) /\ rho s = 2 / 10 /\ rho' s = 6 / 10.
Proof.
  intro P. set (e0 := ex_engine IsotropicOrdered default_calculator).
  set (raw' := PropInit.with_albedo ex_raw (NScalar (6 / 10))).
  destruct (ex_full_run P IsotropicOrdered default_calculator ltac:(discriminate)) as (i & a & f & e' & FR & N & PH).
  destruct (PH 1%nat ltac:(lia)) as (P1 & (RE1 & RE2 & RE3)).
  assert (V : valid_params (pv_params (en_array e0))) by exact ex_valid.
  assert (FX : exists e1, engine_fit P e0 raw' = Ok e1).
  { apply C50_fit_succeeds; [exact V|]. split.
    - exists (Some 2%nat). cbn. repeat (split; [reflexivity|]). split; [discriminate | left; reflexivity].
    - cbn. split; [discriminate|]. split; discriminate. }
  assert (HX : exists i', format_inputs raw' = Ok i') by (eexists; reflexivity). destruct HX as (i' & Hi').
  pose proof FR as (_ & Hi & _). pose proof (format_albedo _ _ _ _ Hi Hi') as EI.
  assert (AL' : forall t, ii_albedo i' t = 6 / 10).
  { intro t. cbn in Hi'. inversion Hi'. cbn. lra. }
  assert (AL : forall t, ii_albedo i t = 2 / 10).
  { intro t. cbn in Hi. inversion Hi. cbn. lra. }
  destruct (ex_other_run P raw' i i' a f e' (6 / 10) FR N PH FX Hi' ltac:(rewrite EI; reflexivity) ltac:(rewrite EI; reflexivity) AL' ltac:(lra))
    as (f1 & e2 & FR' & RW).
  destruct (published_exists _ _ _ _ _ _ _ 1%nat FR) as (q & rh & sr & PB).
  destruct (published_exists _ _ _ _ _ _ _ 1%nat FR') as (q' & rh' & sr' & PB').
  exists i, a, f, e', i', f1, e2, q, rh, sr, q', rh', sr'. cbv zeta.
  split; [exact FR|]. split; [exact FR'|]. split; [lia|]. split; [exact P1|].
  split; [split; [intros x Hx; specialize (RE1 x Hx); lra|]; split; [intros x Hx; specialize (RE2 x Hx); lra|]; lra|].
  split; [exact (RW 1%nat ltac:(lia))|]. split; [exact PB|]. split; [exact PB'|].
  split; [rewrite AL, AL'; lra|].
  destruct (run_fits _ _ _ _ _ _ _ FR) as (FA & _).
  destruct (categories_inhabited _ _ _ _ V FA (CGround false) Logic.I) as (s & C).
  pose proof (category_surface _ _ _ C) as Is. exists s. split; [exact Is|].
  destruct (run_sources _ _ _ _ _ _ _ s _ FR C) as (rf & rb & _ & _ & K & _).
  destruct (run_sources _ _ _ _ _ _ _ s _ FR' C) as (rf' & rb' & _ & _ & K' & _).
  destruct (PB s Is) as (_ & (v & G & <-) & _). destruct (PB' s Is) as (_ & (v' & G' & <-) & _).
  rewrite K in G. inversion G. rewrite K' in G'. inversion G'. split; [apply AL | apply AL'].
Qed.

(* ----------------------------------------------------------------------- C72 *)

(** Sources and skies add up: so do the irradiances. *)
Theorem C72_superposition : forall P e0 raw i a f e' P1 e1 raw1 i1 f1 e1' P2 e2 raw2 i2 f2 e2' t r x y
    (qinc rho src qinc1 src1 qinc2 src2 : ts_surface -> R),
  full_run P e0 raw i a f e' -> full_run P1 e1 raw1 i1 a f1 e1' -> full_run P2 e2 raw2 i2 a f2 e2' ->
  (t < ii_n i)%nat -> (t < ii_n i1)%nat -> (t < ii_n i2)%nat ->
  physical e0 i a t -> physical e1 i1 a t -> physical e2 i2 a t ->
  reflects e0 i t r -> reflects e1 i1 t r -> reflects e2 i2 t r -> r < 1 ->
  published (im_kind (en_irr e0)) (pv_store (en_array e')) (all_ts_surfaces a) t qinc rho src ->
  published (im_kind (en_irr e1)) (pv_store (en_array e1')) (all_ts_surfaces a) t qinc1 rho src1 ->
  published (im_kind (en_irr e2)) (pv_store (en_array e2')) (all_ts_surfaces a) t qinc2 rho src2 ->
  irr_sky_luminance f2 t = x * irr_sky_luminance f t + y * irr_sky_luminance f1 t ->
  (forall s, In s (all_ts_surfaces a) -> src2 s = x * src s + y * src1 s) ->
  forall s, In s (all_ts_surfaces a) -> qinc2 s = x * qinc s + y * qinc1 s.
Proof.
  intros P e0 raw i a f e' P1 e1 raw1 i1 f1 e1' P2 e2 raw2 i2 f2 e2' t r x y qinc rho src qinc1 src1 qinc2 src2
    FR FR1 FR2 T T1 T2 PH PH1 PH2 RE RE1 RE2 R1 PB PB1 PB2 SK SR s Is.
  destruct (physical_run _ _ _ _ _ _ _ _ _ _ _ _ FR T PH RE PB) as (q & rh & s0 & B & X & Y & Z & NN & RS & _).
  destruct (physical_run _ _ _ _ _ _ _ _ _ _ _ _ FR1 T1 PH1 RE1 PB1) as (q1 & rh1 & s1 & B1 & X1 & _).
  destruct (physical_run _ _ _ _ _ _ _ _ _ _ _ _ FR2 T2 PH2 RE2 PB2) as (q2 & rh2 & s2 & B2 & X2 & _).
  destruct (In_nth_error _ _ Is) as [j Ej].
  destruct (X j s Ej) as (L & _ & -> & _). destruct (X1 j s Ej) as (_ & _ & -> & _). destruct (X2 j s Ej) as (_ & _ & -> & _).
  assert (RH : forall l, (l < fr_n a)%nat -> rh1 l = rh l /\ rh2 l = rh l).
  { intros l Ll. destruct (Y l Ll) as (u & Eu & _). destruct (X l u Eu) as (_ & _ & _ & <- & _).
    destruct (X1 l u Eu) as (_ & _ & _ & <- & _). destruct (X2 l u Eu) as (_ & _ & _ & <- & _). tauto. }
  symmetry.
  refine (balance_unique (fr_n a) (fr_F a t) rh (fun j => s2 j + fr_F a t j (fr_n a) * irr_sky_luminance f2 t)
            (fun l => x * q l + y * q1 l) q2 r Z R1 (fun i j _ _ => NN i j) RS _ _ j L).
  - intros l Ll. rewrite (B l Ll) at 1. rewrite (B1 l Ll) at 1. rewrite SK.
    destruct (Y l Ll) as (u & Eu & Iu). destruct (X l u Eu) as (_ & _ & _ & _ & Es).
    destruct (X1 l u Eu) as (_ & _ & _ & _ & Es1). destruct (X2 l u Eu) as (_ & _ & _ & _ & Es2).
    pose proof (SR u Iu) as SU. rewrite Es, Es1, Es2 in SU. rewrite SU.
    assert (E : sum_below (fr_n a) (fun j => fr_F a t l j * (rh j * (x * q j + y * q1 j))) =
      x * sum_below (fr_n a) (fun j => fr_F a t l j * (rh j * q j)) +
      y * sum_below (fr_n a) (fun j => fr_F a t l j * (rh1 j * q1 j))).
    { change sum_below with isum. rewrite <- !isum_scal, <- isum_plus. apply isum_ext. intros m M.
      destruct (RH m M) as (-> & _). ring. }
    rewrite E. ring.
  - intros l Ll. rewrite (B2 l Ll) at 1. f_equal. change sum_below with isum. apply isum_ext. intros m M.
    destruct (RH m M) as (_ & ->). reflexivity.
Qed.
Print Assumptions C72_superposition.

(** The same weather and angles, with [k] times as much light. *)
Definition scale_num (k : R) (x : num R) : num R :=
  match x with NScalar v => NScalar (k * v) | NArray n v => NArray n (fun t => k * v t) end.
Definition scale_light (k : R) (raw : raw_inputs) : raw_inputs :=
  RawInputs (ri_time raw) (scale_num k (ri_dni raw)) (scale_num k (ri_dhi raw)) (ri_zenith raw)
    (ri_solar_azimuth raw) (ri_tilt raw) (ri_azimuth raw) (ri_albedo raw)
    (option_map (scale_num k) (ri_ghi raw)).

Lemma wrap_scale : forall k x y, wrap x = Ok y -> exists y', wrap (scale_num k x) = Ok y' /\ y' = scale_num k y.
Proof. intros k [v|n v] y H; [|discriminate]. cbn in H. inversion H. cbn. eexists. split; reflexivity. Qed.
Lemma array_scale : forall k n x y, as_array n x = Ok y -> as_array n (scale_num k x) = Ok (fun t => k * y t).
Proof. intros k n [v|m v] y H; [discriminate|]. cbn in *. destruct (Nat.eqb m n); inversion H. reflexivity. Qed.
Lemma len_scale : forall k (x : num R), num_len (scale_num k x) = num_len x.
Proof. intros k [v|n v]; reflexivity. Qed.

Lemma format_scale : forall k raw i, format_inputs raw = Ok i ->
  exists g, format_inputs (scale_light k raw) =
  Ok (IrrInputs (ii_n i) (ii_time i) (fun t => k * ii_dni i t) (fun t => k * ii_dhi i t) (ii_zenith i)
        (ii_solar_azimuth i) (ii_tilt i) (ii_azimuth i) (ii_albedo i) g).
Proof.
  intros k raw i H. unfold format_inputs in *.
  apply bind_ok in H. destruct H as (x & X & H).
  assert (E : format_scalars (scale_light k raw) = Ok (scale_light k x)).
  { unfold format_scalars in *. unfold scale_light. cbn [ri_dni ri_time ri_dhi ri_zenith ri_solar_azimuth ri_tilt ri_azimuth ri_albedo ri_ghi].
    replace (is_scalar (scale_num k (ri_dni raw))) with (is_scalar (ri_dni raw)) by (destruct (ri_dni raw); reflexivity).
    destruct (is_scalar (ri_dni raw)).
    - repeat (apply bind_ok in X; let y := fresh "y" in let Y := fresh "Y" in destruct X as (y & Y & X)).
      inversion X; subst x. clear X. cbn [ri_dni ri_time ri_dhi ri_zenith ri_solar_azimuth ri_tilt ri_azimuth ri_albedo ri_ghi].
      destruct (wrap_scale k _ _ Y0) as (d & W & ->). destruct (wrap_scale k _ _ Y1) as (d1 & W1 & ->).
      rewrite Y, W, W1, Y2, Y3, Y4, Y5. cbn [bind].
      destruct (ri_ghi raw) as [g|].
      + apply bind_ok in Y6. destruct Y6 as (g' & G & Y6). inversion Y6; subst y6.
        destruct (wrap_scale k _ _ G) as (d2 & W2 & ->). cbn [option_map]. rewrite W2. reflexivity.
      + inversion Y6; subst y6. reflexivity.
    - inversion X; subst x. reflexivity. }
  rewrite E. cbn [bind]. clear E X. unfold scale_light.
  cbn [ri_dni ri_time ri_dhi ri_zenith ri_solar_azimuth ri_tilt ri_azimuth ri_albedo ri_ghi].
  rewrite len_scale.
  do 9 (apply bind_ok in H; let y := fresh "y" in let Y := fresh "Y" in destruct H as (y & Y & H)).
  rewrite Y. rewrite (array_scale k _ _ _ Y0), (array_scale k _ _ _ Y1), Y2, Y3, Y4, Y5, Y6. cbn [bind].
  inversion H; subst i. cbn [ii_n ii_time ii_dni ii_dhi ii_zenith ii_solar_azimuth ii_tilt ii_azimuth ii_albedo].
  destruct (ri_ghi x) as [g|]; cbn [option_map].
  - apply bind_ok in Y7. destruct Y7 as (g' & G & _). rewrite (array_scale k _ _ _ G). cbn [bind]. eexists. reflexivity.
  - eexists. reflexivity.
Qed.

Lemma fit_scale : forall P m k i g f f', im_kind m = IsotropicOrdered -> irr_fit P m i = Ok f ->
  irr_fit P m (IrrInputs (ii_n i) (ii_time i) (fun t => k * ii_dni i t) (fun t => k * ii_dhi i t) (ii_zenith i)
        (ii_solar_azimuth i) (ii_tilt i) (ii_azimuth i) (ii_albedo i) g) = Ok f' ->
  (forall c t, cat_of (if_direct f') c t = k * cat_of (if_direct f) c t) /\
  (forall t, irr_sky_luminance f' t = k * irr_sky_luminance f t).
Proof.
  intros P m k i g f f' K H H'. unfold irr_fit in *. rewrite K in *. unfold fit_isotropic in *.
  change (aoi_front _) with (aoi_front i) in H' at 1. change (aoi_back _) with (aoi_back i) in H' at 1.
  cbn [ii_tilt] in H'.
  apply bind_ok in H. destruct H as (ff & FF & H). rewrite FF in H'. cbn [bind] in H'.
  apply bind_ok in H. destruct H as (fb & FB & H). rewrite FB in H'. cbn [bind] in H'.
  inversion H. inversion H'. clear. split; [|reflexivity].
  set (ii := IrrInputs _ _ _ _ _ _ _ _ _ _).
  assert (EB : aoi_back ii = aoi_back i) by reflexivity. assert (EF : aoi_front ii = aoi_front i) by reflexivity.
  assert (EI : front_is_illum ii = front_is_illum i) by reflexivity.
  intros [[]|j [] []] t; cbn [cat_of gnd_pick cat_pick if_direct fit_direct bc_ground_illum bc_ground_shaded
    bc_front_illum bc_front_shaded bc_back_illum bc_back_shaded]; rewrite ?EB, ?EF, ?EI; unfold through_modules;
    cbn [ii ii_dni ii_zenith]; unfold np_where; try destruct (front_is_illum i t); cbn [negb]; ring.
Qed.

(** With the isotropic model, [k] times as much light everywhere: every surface receives
    [k] times as much. *)
Theorem C72_scaling : forall P e0 raw k i a f e' i' a' f' e'' t r (qinc rho src qinc' rho' src' : ts_surface -> R),
  im_kind (en_irr e0) = IsotropicOrdered ->
  full_run P e0 raw i a f e' -> full_run P e0 (scale_light k raw) i' a' f' e'' ->
  (t < ii_n i)%nat -> physical e0 i a t -> reflects e0 i t r -> r < 1 ->
  published IsotropicOrdered (pv_store (en_array e')) (all_ts_surfaces a) t qinc rho src ->
  published IsotropicOrdered (pv_store (en_array e'')) (all_ts_surfaces a) t qinc' rho' src' ->
  a' = a /\ forall s, In s (all_ts_surfaces a) -> qinc' s = k * qinc s.
Proof.
  intros P e0 raw k i a f e' i' a' f' e'' t r qinc rho src qinc' rho' src' K FR FR' T PH RE R1 PB PB'.
  pose proof FR as (V & Hi & _). pose proof FR' as (_ & Hi' & _).
  destruct (format_scale k raw i Hi) as (g & EI). rewrite Hi' in EI. inversion EI as [EI']. clear EI.
  destruct (run_fits _ _ _ _ _ _ _ FR) as (FA & FI). destruct (run_fits _ _ _ _ _ _ _ FR') as (FA' & FI').
  assert (N' : ii_n i' = ii_n i) by (rewrite EI'; reflexivity).
  assert (FO : fit_of i' = fit_of i) by (rewrite EI'; reflexivity).
  assert (Ea : a' = a). { rewrite N', FO, FA in FA'. inversion FA'. reflexivity. }
  subst a'. split; [reflexivity|].
  assert (T' : (t < ii_n i')%nat) by (rewrite N'; exact T).
  assert (PH' : physical e0 i' a t) by (destruct PH as (al0 & PH); exists al0; rewrite EI'; exact PH).
  assert (RE' : reflects e0 i' t r) by (rewrite EI'; exact RE).
  assert (AL : ii_albedo i' = ii_albedo i) by (rewrite EI'; reflexivity).
  rewrite EI' in FI'. destruct (fit_scale _ _ _ _ _ _ _ K FI FI') as (SD & SK).
  assert (SS : forall s, In s (all_ts_surfaces a) -> src' s = k * src s /\ rho' s = rho s).
  { intros s Is. destruct (category_exists a s Is) as (c & C).
    destruct (run_sources _ _ _ _ _ _ _ s c FR C) as (rf & rb & Rf & Rb & K1 & K2 & _).
    destruct (run_sources _ _ _ _ _ _ _ s c FR' C) as (rf' & rb' & Rf' & Rb' & K1' & K2' & _).
    rewrite Rf in Rf'. inversion Rf'; subst rf'. rewrite Rb in Rb'. inversion Rb'; subst rb'.
    destruct (PB s Is) as (_ & (v & G & <-) & (w & W & <-)). destruct (PB' s Is) as (_ & (v' & G' & <-) & (w' & W' & <-)).
    rewrite K1 in G. rewrite K1' in G'. rewrite K2 in W. rewrite K2' in W'.
    inversion G. inversion G'. inversion W. inversion W'. split; [apply SD|]. 
    destruct c; cbn [cat_rho]; [rewrite AL; reflexivity | reflexivity]. }
  assert (PB2 : published IsotropicOrdered (pv_store (en_array e'')) (all_ts_surfaces a) t qinc' rho src').
  { intros s Is. destruct (PB' s Is) as (A & B & C). rewrite (proj2 (SS s Is)) in B. tauto. }
  intros s Is. rewrite <- K in PB, PB2.
  rewrite (C72_superposition _ _ _ _ _ _ _ _ _ _ _ _ _ _ _ _ _ _ _ t r k 0 qinc rho src qinc src qinc' src'
    FR FR FR' T T T' PH PH PH' RE RE RE' R1 PB PB PB2); [ring | rewrite SK; ring | | exact Is].
  intros u Iu. rewrite (proj1 (SS u Iu)). ring.
Qed.
Print Assumptions C72_scaling.

(** Twice as much light on the example. *)
Example C72_example : forall P, exists i a f e' i' f' e'' qinc rho src qinc' rho' src',
  let e0 := ex_engine IsotropicOrdered default_calculator in
  full_run P e0 ex_raw i a f e' /\ full_run P e0 (scale_light 2 ex_raw) i' a f' e'' /\ (1 < ii_n i)%nat /\
  physical e0 i a 1 /\ reflects e0 i 1 (1 / 5) /\
  published IsotropicOrdered (pv_store (en_array e')) (all_ts_surfaces a) 1 qinc rho src /\
  published IsotropicOrdered (pv_store (en_array e'')) (all_ts_surfaces a) 1 qinc' rho' src' /\
  ii_dni i 1%nat = 1000 /\ ii_dni i' 1%nat = 2000.
Proof.
  intro P. set (e0 := ex_engine IsotropicOrdered default_calculator).
  destruct (ex_full_run P IsotropicOrdered default_calculator ltac:(discriminate)) as (i & a & f & e' & FR & N & PH).
  assert (V : valid_params (pv_params (en_array e0))) by exact ex_valid.
  assert (FX : exists e1, engine_fit P e0 (scale_light 2 ex_raw) = Ok e1).
  { apply C50_fit_succeeds; [exact V|]. split.
    - exists (Some 2%nat). cbn. repeat (split; [reflexivity|]). split; [discriminate | left; reflexivity].
    - cbn. split; [discriminate|]. split; discriminate. }
  pose proof FR as (_ & Hi & _). destruct (format_scale 2 ex_raw i Hi) as (g & Hi').
  destruct (ex_other_run P (scale_light 2 ex_raw) i _ a f e' (1 / 5) FR N PH FX Hi' eq_refl eq_refl) as (f1 & e2 & FR' & RW).
  { intro t. cbn in Hi. inversion Hi. cbn. lra. }
  { lra. }
  destruct (published_exists _ _ _ _ _ _ _ 1%nat FR) as (q & rh & sr & PB).
  destruct (published_exists _ _ _ _ _ _ _ 1%nat FR') as (q' & rh' & sr' & PB').
  do 13 eexists. cbv zeta. split; [exact FR|]. split; [exact FR'|]. split; [lia|].
  destruct (PH 1%nat ltac:(lia)) as (P1 & RE). split; [exact P1|]. split; [exact RE|].
  split; [exact PB|]. split; [exact PB'|]. cbn [ii_dni]. cbn in Hi. inversion Hi. cbn. split; lra.
Qed.
