(** What full mode publishes is the solution of the equation of light exchange written with
    the view factors of the textbook. *)
From Coq Require Import Reals List Bool Arith String Lra Lia.
From Verif Require Import Num ModelTs ModelGeom ModelVF Basics SpecGeom SpecVF SpecSight ProofFit ProofIndex ProofGeom2 PropGeom ProofMatrix ProofVF ProofVF2 PropVF ProofNight ModelLinalg ProofLinalg SpecEngine ProofRadiosity ModelParams SpecParams ProofParams ModelIrr SpecIrr ProofIrr ModelAOI ModelEngine SpecRun ProofEngine PropEngine ProofRun PropRun PropAbs ProofEnergy PropZones PropEnergy PropSight.
Import ListNotations.
Open Scope R_scope.

(** The surfaces wider than the tolerance of the package, 10 nm. *)
Definition wide (t : nat) (s : ts_surface) : Prop := 1 / 100000000 < s_length s t.
Definition wide_surfaces (t : nat) (l : list ts_surface) : list ts_surface :=
  filter (fun s => if Rlt_dec (1 / 100000000) (s_length s t) then true else false) l.

(** [q] balances the exchanges between the surfaces [l]: each receives light from its
    sources, from the surfaces in sight in proportion to the view factors [F], and from a
    uniform sky for what is left of its view. *)
Definition light_balance (l : list ts_surface) (F : ts_surface -> ts_surface -> R) (src rho : ts_surface -> R)
    (sky : R) (q : ts_surface -> R) : Prop :=
  forall s, In s l ->
    q s = src s + (1 - total (F s) l) * sky + total (fun x => F s x * (rho x * q x)) l.

(** [F] gives the view factors of the textbook between the wide surfaces of the array. *)
Definition textbook_factors (p : pvarray_params) (a : fitted) (t : nat) (F : ts_surface -> ts_surface -> R) : Prop :=
  forall x nx y ny, placed a t x nx -> placed a t y ny -> wide t x -> wide t y ->
    view_factor (opaque_array p a t) (s_coords x t) nx (s_coords y t) ny (F x y).

Lemma tolerance_value : DISTANCE_TOLERANCE = 1 / 100000000.
Proof. unfold DISTANCE_TOLERANCE. lra. Qed.

Lemma in_wide : forall t l s, In s (wide_surfaces t l) <-> In s l /\ wide t s.
Proof.
  intros t l s. unfold wide_surfaces, wide. rewrite filter_In.
  destruct (Rlt_dec (1 / 100000000) (s_length s t)); intuition congruence.
Qed.

Lemma total_wide : forall t l (g : ts_surface -> R), (forall s, In s l -> ~ wide t s -> g s = 0) ->
  total g (wide_surfaces t l) = total g l.
Proof.
  intros t l g. induction l as [|s l IH]; intro H; [reflexivity|].
  specialize (IH (fun x Ix => H x (or_intror Ix))). unfold wide_surfaces in *. cbn [filter].
  pose proof (H s (or_introl eq_refl)) as Hs. unfold wide in Hs. 
  destruct (Rlt_dec (1 / 100000000) (s_length s t)) as [Z|Z].
  - cbn [total]. rewrite IH. reflexivity.
  - cbn [total]. rewrite (Hs Z), IH. ring.
Qed.

Lemma surface_placed : forall a t s, In s (all_ts_surfaces a) -> exists nx, placed a t s nx.
Proof.
  intros a t s Is. unfold all_ts_surfaces in Is. apply in_app_or in Is. destruct Is as [Is|Is].
  - exists (0, 1). apply on_ground. exact Is.
  - apply in_flat_map in Is. destruct Is as (row & Ir & Is). apply In_nth_error in Ir. destruct Ir as [i Ei].
    unfold row_surfaces in Is. apply in_app_or in Is. destruct Is as [Is|Is].
    + eexists. exact (on_side a t s i row false Ei Is).
    + eexists. exact (on_side a t s i row true Ei Is).
Qed.

(** C89: whatever the view factors of the textbook are, a distribution of light balances the
    exchanges computed with them exactly when it is the published one, on all surfaces
    wider than the tolerance. *)
Theorem C89_rendering : forall P e0 raw i a f e' t r (F : ts_surface -> ts_surface -> R) (qinc rho src q : ts_surface -> R),
  full_run P e0 raw i a f e' -> (t < ii_n i)%nat -> physical e0 i a t -> reflects e0 i t r -> r < 1 ->
  no_sliver_surface a t ->
  published (im_kind (en_irr e0)) (pv_store (en_array e')) (all_ts_surfaces a) t qinc rho src ->
  textbook_factors (pv_params (en_array e0)) a t F ->
  let surfs := wide_surfaces t (all_ts_surfaces a) in
  (light_balance surfs F src rho (irr_sky_luminance f t) q <-> forall s, In s surfs -> q s = qinc s).
Proof.
  intros P e0 raw i a f e' t r F qinc rho src q FR T PH RE R1 NS PB TF surfs.
  pose proof RE as (RF & RB & AL).
  assert (BAL : forall s, In s (all_ts_surfaces a) -> qinc s = (src s + vf_sky a t s * irr_sky_luminance f t)
             + total (fun x => vf a t s x * (rho x * qinc x)) (all_ts_surfaces a)).
  { apply (run_balance _ _ _ _ _ _ _ _ _ _ _ FR T ltac:(lra)) in PB; [exact (proj2 PB)|..]; intro Z;
      [specialize (RF 0 Z) | specialize (RB 0 Z)]; lra. }
  destruct PH as (al & SC). pose proof SC as (V & FT & _). pose proof (no_sliver_film a t NS) as NF.
  set (all := all_ts_surfaces a) in *. 
  assert (EQF : forall s x, In s surfs -> In x surfs -> F s x = vf a t s x).
  { intros s x Is Ix. apply in_wide in Is. apply in_wide in Ix. destruct Is as [Is Ws], Ix as [Ix Wx].
    destruct (surface_placed a t s Is) as [ns Ps]. destruct (surface_placed a t x Ix) as [nx Px].
    pose proof (TF s ns x nx Ps Px Ws Wx) as H. unfold wide in Ws, Wx. rewrite <- tolerance_value in Ws, Wx.
    apply (C85_unique _ _ _ _ _ _ _ _ _ _ (F s x) SC T Ps Px Ws Wx). exact H. }
  assert (ZR : forall s x, In s all -> In x all -> ~ wide t x -> vf a t s x = 0).
  { intros s x Is Ix Nx. destruct (NS x Ix) as [Z|Z]; [|contradiction].
    exact (vf_to_point _ _ _ a t V FT s x Is Ix Z). }
  assert (SUM : forall s g, In s surfs -> total (fun x => F s x * g x) surfs = total (fun x => vf a t s x * g x) all).
  { intros s g Is. rewrite <- (total_wide t all (fun x => vf a t s x * g x)).
    - apply total_eq. intros x Ix. rewrite (EQF s x Is Ix). reflexivity.
    - intros x Ix Nx. rewrite (ZR s x (proj1 (proj1 (in_wide _ _ _) Is)) Ix Nx). ring. }
  assert (SKY : forall s, In s surfs -> 1 - total (F s) surfs = vf_sky a t s).
  { intros s Is. pose proof (SUM s (fun _ => 1) Is) as E. apply in_wide in Is. destruct Is as [Is Ws].
    destruct (vf_closed _ _ _ a t V FT NF s Is) as [Z|Z]; [unfold wide in Ws; lra|].
    replace (total (F s) surfs) with (total (fun x => F s x * 1) surfs) by (apply total_eq; intros; ring).
    rewrite E. unfold all. lra. }
  assert (SHORT : forall s, In s all -> ~ wide t s -> forall g, total (fun x => vf a t s x * g x) all = 0).
  { intros s Is Ns g. destruct (NS s Is) as [Z|Z]; [|contradiction].
    destruct (C13_closure _ _ _ a t s V FT Is) as (_ & K & _). pose proof DISTANCE_TOLERANCE_pos. specialize (K ltac:(lra)).
    transitivity (total (fun _ : ts_surface => 0) all); [|apply total_zero].
    apply total_eq. intros x Ix. unfold vf. rewrite K. ring. }
  split.
  - intros B s Is. set (q' := fun s => if Rlt_dec (1 / 100000000) (s_length s t) then q s else qinc s).
    assert (Q : forall x, In x surfs -> q' x = q x).
    { intros x Ix. apply in_wide in Ix. destruct Ix as [_ W]. unfold q'.
      destruct (Rlt_dec (1 / 100000000) (s_length x t)); [reflexivity | contradiction]. }
    rewrite <- (Q s Is). 
    apply (C20_only_solution P e0 raw i a f e' t r qinc rho src q' FR T (ex_intro _ al SC) RE R1 PB).
    + intros x Ix. fold all. destruct (Rlt_dec (1 / 100000000) (s_length x t)) as [W|W].
      * assert (Sx : In x surfs) by (apply in_wide; split; assumption).
        rewrite (Q x Sx), <- (SUM x (fun y => rho y * q' y) Sx), (B x Sx), (SKY x Sx). f_equal.
        apply total_eq. intros y Iy. rewrite (Q y Iy). reflexivity.
      * rewrite (SHORT x Ix W). transitivity (qinc x).
        { unfold q'. destruct (Rlt_dec (1 / 100000000) (s_length x t)); [contradiction | reflexivity]. }
        rewrite (BAL x Ix), (SHORT x Ix W). ring.
    + exact (proj1 (proj1 (in_wide _ _ _) Is)).
  - intros E s Is. rewrite (E s Is), (SKY s Is), (BAL s (proj1 (proj1 (in_wide _ _ _) Is))).
    rewrite <- (SUM s (fun x => rho x * qinc x) Is). f_equal. apply total_eq. intros x Ix. rewrite (E x Ix). reflexivity.
Qed.
Print Assumptions C89_rendering.

(** There are such view factors. *)
Theorem C89_factors : forall p n fi a t al, scene p n fi a t al -> (t < n)%nat ->
  exists F, textbook_factors p a t F.
Proof.
  intros p n fi a t al SC T. exists (vf a t). intros x nx y ny X Y Wx Wy. unfold wide in Wx, Wy. rewrite <- tolerance_value in Wx, Wy.
  exact (C85_textbook p n fi a t al x nx y ny SC T X Y Wx Wy).
Qed.
Print Assumptions C89_factors.

(** Three rows with shading between them: many wide surfaces. *)
Example C89_example : forall P, exists i a f e' qinc rho src F,
  let e0 := ex_engine IsotropicOrdered default_calculator in
  full_run P e0 ex_raw i a f e' /\ (1 < ii_n i)%nat /\ physical e0 i a 1 /\ reflects e0 i 1 (1 / 5) /\ no_sliver_surface a 1 /\
  published IsotropicOrdered (pv_store (en_array e')) (all_ts_surfaces a) 1 qinc rho src /\
  textbook_factors (pv_params (en_array e0)) a 1 F /\ (exists s, In s (wide_surfaces 1 (all_ts_surfaces a))) /\
  light_balance (wide_surfaces 1 (all_ts_surfaces a)) F src rho (irr_sky_luminance f 1%nat) qinc.
Proof.
  intro P. destruct (C61_example P) as (i & a & f & e' & qinc & rho & src & FR & N & _ & _ & _ & PH & RE & NS & PB & _).
  pose proof PH as (al & SC). destruct (C89_factors _ _ _ _ _ _ SC N) as [F TF].
  exists i, a, f, e', qinc, rho, src, F. cbv zeta. repeat (split; [assumption|]). split.
  - assert (FX : fit ex_p 2 ex_f = Some a).
    { destruct FR as (_ & Hi & _). destruct SC as (_ & FX & _). rewrite fit_sun_up in FX. cbn in Hi. injection Hi as <-. exact FX. }
    destruct (C13_example a FX) as (x & Ix & Lx & _). exists x. apply in_wide. split; [exact Ix|].
    unfold wide. rewrite <- tolerance_value. exact Lx.
  - apply (C89_rendering P _ ex_raw i a f e' 1 (1 / 5) F qinc rho src qinc FR N PH RE ltac:(lra) NS PB TF). reflexivity.
Qed.
