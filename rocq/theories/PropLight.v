(** What full mode publishes with the isotropic sky, from the inputs of the engine to the
    incident light: the light of the sun where it is seen, a uniform sky, and the reflections
    exchanged with the view factors of the textbook. *)
From Coq Require Import Reals List Bool Arith ZArith String Lra Lia.
From Verif Require Import Num ModelTs ModelGeom ModelVF Basics SpecGeom SpecSun SpecVF SpecSight ProofFit ProofIndex ProofGeom2 PropGeom ProofMatrix ProofVF ProofVF2 PropVF ProofNight ModelLinalg ProofLinalg SpecEngine ProofRadiosity ModelParams SpecParams ProofParams ModelIrr SpecIrr ProofIrr ModelAOI ModelEngine SpecRun ProofEngine PropEngine ProofRun PropRun PropAbs PropIrr PropSky ProofEnergy PropZones PropEnergy PropSight PropSun PropRender.
Import ListNotations.
Open Scope R_scope.

(** Light of the sun received at the point [q] of a surface of normal [nq] (in the vertical
    plane across the rows). Sun at the zenith and azimuth angles [zen] and [saz], in the
    direction [al] of the plane; [dni]: light on a surface that faces the sun. Where the sun is
    hidden, the fraction [through] is left. *)
Definition beam_light (opaque : pt -> Prop) (dni zen saz axis al through : R) (q : pt) (nq : R * R) (x : R) : Prop :=
  let c := fst nq * (sind zen * sind (saz - axis)) + snd nq * cosd zen in
  (sees_sky opaque q nq al -> x = dni * c) /\
  (~ sees_sky opaque q nq al -> x = dni * Rmax 0 c * through).

(** [x] is the light of the sun received at every point of the surface [s]. *)
Definition beam_on (p : pvarray_params) (i : irr_inputs) (a : fitted) (t : nat) (al through : R) (s : ts_surface) (x : R) : Prop :=
  forall ns z, placed a t s ns -> 0 < z < 1 ->
    beam_light (opaque_array p a t) (ii_dni i t) (ii_zenith i t) (ii_solar_azimuth i t) (pa_axis_azimuth p) al through
      (point_at (s_coords s t) z) ns x.

(** Reflectivity of the surfaces, as given to the engine. *)
Definition reflectivity (a : fitted) (rf rb albedo : R) (rho : ts_surface -> R) : Prop :=
  forall s, (In s (gnd_surfaces (ft_ground a)) -> rho s = albedo) /\
    forall j row (b : bool), nth_error (ft_rows a) j = Some row ->
      In s (side_surfaces (if b then row_back row else row_front row)) -> rho s = (if b then rb else rf).

Lemma low_edge_point : forall w d h r i lo hi z,
  point_at (Line (point_from_low_edge w d h r i lo) (point_from_low_edge w d h r i hi)) z
  = point_from_low_edge w d h r i (lo + z * (hi - lo)).
Proof.
  intros. unfold point_at, point_from_low_edge, row_point. cbn [px py b1 b2]. destruct (Rlt_dec 0 r); f_equal; ring.
Qed.

Lemma opaque_row : forall p a t j s, (j < pa_n_pvrows p)%nat -> - (pa_width p / 2) <= s <= pa_width p / 2 ->
  opaque_array p a t (row_point (INR j * pa_distance p) (pa_height p) (ft_rotation a t) s).
Proof.
  intros p a t j s J S. right. exists j, (if Rlt_dec 0 (ft_rotation a t) then pa_width p / 2 + s else pa_width p / 2 - s).
  split; [exact J|]. unfold point_from_low_edge. destruct (Rlt_dec 0 (ft_rotation a t)); (split; [lra|]); f_equal; ring.
Qed.

Lemma opaque_inv : forall p a t z, opaque_array p a t z -> 0 < py z ->
  exists j s, (j < pa_n_pvrows p)%nat /\ - (pa_width p / 2) <= s <= pa_width p / 2 /\
    z = row_point (INR j * pa_distance p) (pa_height p) (ft_rotation a t) s.
Proof.
  intros p a t z [Z|(j & e & J & E & ->)] Y; [lra|].
  exists j, (if Rlt_dec 0 (ft_rotation a t) then - (pa_width p / 2) + e else pa_width p / 2 - e).
  split; [exact J|]. unfold point_from_low_edge. destruct (Rlt_dec 0 (ft_rotation a t)); (split; [lra|reflexivity]).
Qed.

Lemma sun_ground : forall p n f a t al y z,
  scene p n f a t al -> sin (al - ft_rotation a t * PI / 180) <> 0 ->
  In y (gnd_surfaces (ft_ground a)) -> 0 < s_length y t -> 0 < z < 1 ->
  (s_shaded y = false <-> sees_sky (opaque_array p a t) (point_at (s_coords y t) z) (0, 1) al).
Proof.
  intros p n f a t al y z (V & F & SA & NS & HR & HG & HF) SN Iy Ly Z.
  destruct (gnd_shape p n f a t al V F SA NS HR HG y Iy) as (Sy & G1 & G2 & _).
  set (g1 := px (b1 (s_coords y t))) in *. set (g2 := px (b2 (s_coords y t))) in *.
  set (x := g1 + z * (g2 - g1)).
  assert (X : g1 < x < g2) by (unfold x; split; nra).
  assert (E : point_at (s_coords y t) z = Pt x 0).
  { pose proof (f_equal (fun l => py (b1 l)) Sy) as Y1. pose proof (f_equal (fun l => py (b2 l)) Sy) as Y2. cbn in Y1, Y2.
    unfold point_at. fold g1 g2. rewrite Y1, Y2. unfold x. f_equal; ring. }
  rewrite E. pose proof (C69_ground_surfaces p n f a t al y x V F SA NS HR SN HG Iy X) as C.
  destruct SA as ((A0 & A1) & _). assert (SAL : 0 < sin al) by (apply sin_gt_0; lra).
  split.
  - intro SH. split; [cbn [fst snd]; lra|]. intros r Hr O.
    destruct (opaque_inv p a t _ O) as (j & s & J & S & Q).
    { cbn [py]. assert (0 < r * sin al) by (apply Rmult_lt_0_compat; lra). lra. }
    assert (s_shaded y = true); [|congruence]. apply (proj2 C). exists j. split; [exact J|]. exists s. split; [exact S|].
    rewrite <- Q. exists r. cbn [px py]. auto.
  - intros (_ & O). destruct (s_shaded y) eqn:SH; [|reflexivity].
    destruct (proj1 C eq_refl) as (j & J & s & S & k & K & KX & KY). exfalso. apply (O k K). cbn [px py] in *.
    replace (Pt (x + k * cos al) (0 + k * sin al)) with (row_point (INR j * pa_distance p) (pa_height p) (ft_rotation a t) s).
    + apply opaque_row; assumption.
    + rewrite <- KX, <- KY. destruct (row_point (INR j * pa_distance p) (pa_height p) (ft_rotation a t) s). reflexivity.
Qed.

Lemma side_dot : forall r b al,
  fst (side_normal r b) * cos al + snd (side_normal r b) * sin al = (if b then - sin (al - r * PI / 180) else sin (al - r * PI / 180)).
Proof. intros r b al. rewrite sin_minus. unfold side_normal. destruct b; cbn [fst snd]; ring. Qed.

(** Seen from a row, only the other rows can hide a sun that is above the horizon. *)
Lemma hidden_row : forall p a t al i e b,
  0 < sin al -> 0 < py (point_from_low_edge (pa_width p) (pa_distance p) (pa_height p) (ft_rotation a t) i e) ->
  let q := point_from_low_edge (pa_width p) (pa_distance p) (pa_height p) (ft_rotation a t) i e in
  0 < fst (side_normal (ft_rotation a t) b) * cos al + snd (side_normal (ft_rotation a t) b) * sin al ->
  (sees_sky (opaque_array p a t) q (side_normal (ft_rotation a t) b) al <->
   ~ hidden_from_sun (pa_n_pvrows p) (pa_width p) (pa_distance p) (pa_height p) (ft_rotation a t) al i q).
Proof.
  intros p a t al i e b SAL PY q DOT. split.
  - intros (_ & O) (j & s & J & _ & S & k & K & KX & KY). apply (O k K). rewrite <- KX, <- KY.
    pose proof (opaque_row p a t j s J S) as H. destruct (row_point (INR j * pa_distance p) (pa_height p) (ft_rotation a t) s). exact H.
  - intro H. split; [exact DOT|]. intros k K O.
    destruct (opaque_inv p a t _ O) as (j & s & J & S & Q).
    { cbn [py]. assert (0 < k * sin al) by (apply Rmult_lt_0_compat; lra). fold q in PY. lra. }
    apply H. exists j, s. split; [exact J|]. split; [|split; [exact S|]].
    + intros ->. pose proof (f_equal px Q) as QX. pose proof (f_equal py Q) as QY.
      unfold q, point_from_low_edge, row_point in QX, QY. cbn [px py] in QX, QY.
      set (e' := if Rlt_dec 0 (ft_rotation a t) then - (pa_width p / 2) + e else pa_width p / 2 - e) in *.
      rewrite side_dot, sin_minus in DOT. set (c := cos (ft_rotation a t * PI / 180)) in *. set (u := sin (ft_rotation a t * PI / 180)) in *.
      assert (KX : k * cos al = (s - e') * c) by lra. assert (KY : k * sin al = (s - e') * u) by lra.
      assert (K0 : k * (sin al * c - cos al * u) = 0).
      { replace (k * (sin al * c - cos al * u)) with (k * sin al * c - k * cos al * u) by ring. rewrite KX, KY. ring. }
      apply Rmult_integral in K0. destruct b; lra.
    + exists k. split; [exact K|]. rewrite <- Q. cbn [px py]. auto.
Qed.

Lemma low_edge_up : forall p a t i e, valid_params p -> 0 <= e <= pa_width p ->
  pa_width p / 2 * Rabs (sin (ft_rotation a t * PI / 180)) < pa_height p ->
  0 < py (point_from_low_edge (pa_width p) (pa_distance p) (pa_height p) (ft_rotation a t) i e).
Proof.
  intros p a t i e V E H. unfold point_from_low_edge, row_point. cbn [py]. set (u := sin (ft_rotation a t * PI / 180)) in *.
  set (s := if Rlt_dec 0 (ft_rotation a t) then - (pa_width p / 2) + e else pa_width p / 2 - e).
  assert (S : Rabs s <= pa_width p / 2) by (apply Rabs_le; unfold s; destruct (Rlt_dec 0 (ft_rotation a t)); lra).
  assert (K : Rabs (s * u) <= pa_width p / 2 * Rabs u) by (rewrite Rabs_mult; apply Rmult_le_compat_r; [apply Rabs_pos|exact S]).
  assert (- Rabs (s * u) <= s * u) by (unfold Rabs; destruct (Rcase_abs (s * u)); lra). lra.
Qed.

Lemma sun_side : forall p n f a t al i row (b : bool) x z,
  scene p n f a t al ->
  nth_error (ft_rows a) i = Some row -> In x (side_surfaces (if b then row_back row else row_front row)) ->
  0 < s_length x t -> 0 < z < 1 ->
  0 < fst (side_normal (ft_rotation a t) b) * cos al + snd (side_normal (ft_rotation a t) b) * sin al ->
  (s_shaded x = false <-> sees_sky (opaque_array p a t) (point_at (s_coords x t) z) (side_normal (ft_rotation a t) b) al).
Proof.
  intros p n f a t al i row b x z (V & F & SA & NS & HR & HG & HF) Ei Ix Lx Z DOT.
  pose proof SA as ((A0 & A1) & _). assert (SAL : 0 < sin al) by (apply sin_gt_0; lra).
  destruct (C06_side_partition p n f a t i row b V F HR Ei) as (_ & _ & PT).
  assert (Ix' : exists k seg, nth_error (side_segments (if b then row_back row else row_front row)) k = Some seg /\ (In x (seg_illum seg) \/ In x (seg_shaded seg))).
  { unfold side_surfaces in Ix. apply in_flat_map in Ix. destruct Ix as (seg & Ig & Is). apply In_nth_error in Ig. destruct Ig as [k Ek].
    exists k, seg. split; [exact Ek|]. unfold seg_surfaces in Is. apply in_app_or in Is. exact Is. }
  destruct Ix' as (k & seg & Ek & Is). destruct (PT k seg Ek) as (il & sh & lo & hi & m & E1 & E2 & S1 & S2 & L0 & M & H0 & _ & _ & SG & NZ & ZR).
  set (P := point_from_low_edge (pa_width p) (pa_distance p) (pa_height p) (ft_rotation a t) i) in *.
  destruct (Req_dec (ft_rotation a t) 0) as [RZ|RZ].
  - destruct (ZR RZ) as (SZ & SI).
    assert (X : x = il) by (rewrite E1, E2 in Is; destruct Is as [[<-|[]]|[<-|[]]]; [reflexivity|lra]).
    subst x. split; [intros _|intros _; exact S1].
    assert (exists e, 0 <= e <= pa_width p /\ point_at (s_coords il t) z = P e) as (e & E & ->).
    { rewrite SI. destruct SG as [-> | ->]; unfold P; rewrite low_edge_point; eexists; (split; [|reflexivity]); nra. }
    apply (hidden_row p a t al i e b SAL (low_edge_up p a t i e V E HG) DOT).
    intros (j & s & J & JI & S & kk & K & KX & KY). unfold P, point_from_low_edge, row_point in KY. cbn [py] in KY.
    rewrite RZ in KY. replace (0 * PI / 180) with 0 in KY by field. rewrite sin_0 in KY.
    assert (0 < kk * sin al) by (apply Rmult_lt_0_compat; lra). lra.
  - destruct (NZ RZ) as (CS & CI & _).
    assert (exists l h, s_coords x t = Line (P l) (P h) /\ 0 <= l /\ l <= h /\ h <= pa_width p) as (l & h & CX & B0 & B1 & B2).
    { rewrite E1, E2 in Is. destruct Is as [[<-|[]]|[<-|[]]]; [exists m, hi | exists lo, m]; repeat (split; [first [assumption|lra]|]); lra. }
    assert (LH : l < h).
    { destruct (Req_dec l h) as [->|]; [|lra]. exfalso. unfold s_length in Lx. rewrite CX in Lx. unfold line_length in Lx. cbn [b1 b2] in Lx.
      match type of Lx with 0 < sqrt ?v => replace v with 0 in Lx by ring end. rewrite sqrt_0 in Lx. lra. }
    rewrite CX. unfold P. rewrite low_edge_point. fold P. set (e := l + z * (h - l)). assert (E : l < e < h) by (unfold e; split; nra).
    pose proof (C05_shade_is_geometric p n f a t al i row x l h e V F SA HR RZ Ei) as C. cbv zeta in C. fold P in C.
    assert (C' := C). clear C.
    assert (H : sun_in_front al (ft_rotation a t) /\ In x (side_surfaces (row_front row)) \/ sun_behind al (ft_rotation a t) /\ In x (side_surfaces (row_back row))).
    { unfold sun_in_front, sun_behind. unfold side_normal in DOT. destruct b; cbn [fst snd] in DOT; [right|left]; (split; [lra|exact Ix]). }
    specialize (C' H CX B0 E B2).
    pose proof (hidden_row p a t al i e b SAL (low_edge_up p a t i e V ltac:(lra) HG) DOT) as K. cbv zeta in K. fold P in K. rewrite K.
    destruct (s_shaded x); split; try congruence; intuition congruence.
Qed.

Lemma side_category : forall a s i row (b : bool), nth_error (ft_rows a) i = Some row ->
  In s (side_surfaces (if b then row_back row else row_front row)) -> exists sh, in_category a s (CRow i b sh).
Proof.
  intros a s i row b Ei Is. unfold side_surfaces in Is. apply in_flat_map in Is. destruct Is as (seg & Ig & Is).
  unfold seg_surfaces in Is. apply in_app_or in Is. destruct Is as [Is|Is]; [exists false|exists true]; exists row, seg; auto.
Qed.

Lemma ground_category : forall a s, In s (gnd_surfaces (ft_ground a)) -> exists sh, in_category a s (CGround sh).
Proof.
  intros a s Is. unfold gnd_surfaces in Is. apply in_app_or in Is.
  destruct Is as [Is|Is]; apply in_flat_map in Is; destruct Is as (el & Ie & Is); [exists true|exists false]; exists el; auto.
Qed.

(** C91: the direct light published on a surface is, at each of its points, the light of the
    sun if the line towards it meets nothing, and what the modules let through otherwise. *)
Theorem C91_sun : forall P e0 raw i a f e' t al s x,
  full_run P e0 raw i a f e' ->
  scene (pv_params (en_array e0)) (ii_n i) (FitInputs (ii_zenith i) (ii_solar_azimuth i) (ii_tilt i) (ii_azimuth i)) a t al ->
  (exists j : Z, ii_azimuth i t - pa_axis_azimuth (pv_params (en_array e0)) = 90 + 180 * IZR j) ->
  sin (al - ft_rotation a t * PI / 180) <> 0 ->
  In s (all_ts_surfaces a) -> 0 < s_length s t ->
  value_at (pv_store (en_array e')) s "direct" t x ->
  beam_on (pv_params (en_array e0)) i a t al (let_through (im_spacing (en_irr e0)) (im_transparency (en_irr e0))) s x.
Proof.
  intros P e0 raw i a f e' t al s x FR SC (j & EJ) SN Is Ls VX ns z PL Z.
  pose proof FR as (V & Hi & (e & Fi & Ru) & Ha' & Hf).
  destruct (C30_direct P e0 raw e V Fi) as (i' & a' & Hi' & Ha & C30). rewrite Hi in Hi'. injection Hi' as <-.
  destruct (engine_fit_fitted P e0 raw e V Fi) as (i' & a'' & f' & rf & rb & Hi' & FE). rewrite Hi in Hi'. injection Hi' as <-.
  pose proof (fe_array _ _ _ _ _ _ _ FE) as A2. rewrite Ha in A2. injection A2 as <-.
  destruct (run_full_values _ _ _ _ _ _ _ _ FE Ru) as (inv & _ & A3 & _ & _ & _ & ST). rewrite Ha' in A3. injection A3 as <-.
  set (p := pv_params (en_array e0)) in *. set (g := FitInputs (ii_zenith i) (ii_solar_azimuth i) (ii_tilt i) (ii_azimuth i)) in *.
  pose proof SC as (_ & F & SA & NS & HR & HG & HF). pose proof SA as ((AL0 & AL1) & k & K0 & KC & KS).
  destruct (fit_spec _ _ _ _ F) as (_ & ER & _).
  assert (SUN : sun_cosine (ii_tilt i t) (ii_azimuth i t) (ii_zenith i t) (ii_solar_azimuth i t) = k * sin (al - ft_rotation a t * PI / 180)).
  { rewrite ER. exact (sun_cosine_plane _ _ _ _ _ al k j KC KS EJ). }
  change (sin (fi_zenith g t * PI / 180) * sin ((fi_azimuth g t - pa_axis_azimuth p) * PI / 180))
    with (sind (ii_zenith i t) * sind (ii_solar_azimuth i t - pa_axis_azimuth p)) in KC.
  change (cos (fi_zenith g t * PI / 180)) with (cosd (ii_zenith i t)) in KS.
  set (tau := let_through (im_spacing (en_irr e0)) (im_transparency (en_irr e0))) in *.
  assert (XC : forall c, in_category a s c -> x = ii_dni i t * incidence (ii_tilt i t) (ii_azimuth i t) (ii_zenith i t) (ii_solar_azimuth i t) c * (if s_shaded s then tau else 1)).
  { intros c Hc. rewrite (category_shaded _ _ _ _ _ _ t V F HR Hc). apply (value_at_fun _ _ _ _ _ _ VX). rewrite ST. apply value_other; [reflexivity|].
    exact (C30 t s c Hc). }
  assert (SAL : 0 < sin al) by (apply sin_gt_0; lra). unfold beam_light. rewrite <- KC, <- KS. cbv zeta.
  inversion PL as [i0 row b Ei Ix E | Ig E]; subst ns.
  - destruct (side_category a s i0 row b Ei Ix) as (sh & Hc). pose proof (XC _ Hc) as X.
    replace (fst (side_normal (ft_rotation a t) b) * (k * cos al) + snd (side_normal (ft_rotation a t) b) * (k * sin al))
      with (k * (fst (side_normal (ft_rotation a t) b) * cos al + snd (side_normal (ft_rotation a t) b) * sin al)) by ring.
    set (dot := fst (side_normal (ft_rotation a t) b) * cos al + snd (side_normal (ft_rotation a t) b) * sin al).
    assert (IN : incidence (ii_tilt i t) (ii_azimuth i t) (ii_zenith i t) (ii_solar_azimuth i t) (CRow i0 b sh) = Rmax 0 (k * dot)).
    { cbn [incidence]. unfold dot. rewrite side_dot, SUN. destruct b; f_equal; ring. }
    rewrite IN in X. destruct (Rlt_dec 0 dot) as [D|D].
    + assert (0 < k * dot) by (apply Rmult_lt_0_compat; lra). rewrite (Rmax_right 0 (k * dot)) in * by lra.
      pose proof (sun_side p _ g a t al i0 row b s z SC Ei Ix Ls Z D) as K. rewrite X. split; intro H1.
      * rewrite (proj2 K H1). ring.
      * destruct (s_shaded s); [ring|]. exfalso. apply H1, K. reflexivity.
    + assert (N : k * dot <= 0) by nra. rewrite (Rmax_left 0 (k * dot)) in * by lra. split; intro H1.
      * destruct H1 as (H1 & _). fold dot in H1. contradiction.
      * rewrite X. ring.
  - destruct (ground_category a s Ig) as (sh & Hc). pose proof (XC _ Hc) as X. cbn [incidence] in X. rewrite <- KS in X. cbn [fst snd].
    assert (0 < k * sin al) by (apply Rmult_lt_0_compat; lra).
    replace (0 * (k * cos al) + 1 * (k * sin al)) with (k * sin al) by ring. rewrite (Rmax_right 0 (k * sin al)) by lra.
    pose proof (sun_ground p _ g a t al s z SC SN Ig Ls Z) as K. rewrite X. split; intro H1.
    + rewrite (proj2 K H1). ring.
    + destruct (s_shaded s); [ring|]. exfalso. apply H1, K. reflexivity.
Qed.
Print Assumptions C91_sun.

Lemma beam_unique : forall o dni zen saz axis al through q nq x y,
  beam_light o dni zen saz axis al through q nq x -> beam_light o dni zen saz axis al through q nq y -> x = y.
Proof.
  intros o dni zen saz axis al through q nq x y (X1 & X2) (Y1 & Y2). 
  destruct (Classical_Prop.classic (sees_sky o q nq al)) as [H|H].
  - rewrite (X1 H), (Y1 H). reflexivity.
  - rewrite (X2 H), (Y2 H). reflexivity.
Qed.

(** C91: with the isotropic sky model, a distribution of light is the published one exactly
    when it balances the light of the sun where it is seen, a sky of uniform luminance, and the
    reflections, with the view factors of the textbook and the reflectivities that were given. *)
Theorem C91_light : forall P e0 raw i a f e' t al r rf rb (F : ts_surface -> ts_surface -> R) (sun rho q : ts_surface -> R),
  full_run P e0 raw i a f e' -> im_kind (en_irr e0) = IsotropicOrdered -> (t < ii_n i)%nat ->
  scene (pv_params (en_array e0)) (ii_n i) (FitInputs (ii_zenith i) (ii_solar_azimuth i) (ii_tilt i) (ii_azimuth i)) a t al ->
  (exists j : Z, ii_azimuth i t - pa_axis_azimuth (pv_params (en_array e0)) = 90 + 180 * IZR j) ->
  sin (al - ft_rotation a t * PI / 180) <> 0 ->
  reflects e0 i t r -> r < 1 -> no_sliver_surface a t ->
  im_rho_front (en_irr e0) = Some rf -> im_rho_back (en_irr e0) = Some rb -> reflectivity a rf rb (ii_albedo i t) rho ->
  textbook_factors (pv_params (en_array e0)) a t F ->
  let surfs := wide_surfaces t (all_ts_surfaces a) in
  (forall s, In s surfs ->
     beam_on (pv_params (en_array e0)) i a t al (let_through (im_spacing (en_irr e0)) (im_transparency (en_irr e0))) s (sun s)) ->
  (light_balance surfs F sun rho (ii_dhi i t) q <->
   forall s, In s surfs -> value_at (pv_store (en_array e')) s "qinc" t (q s)).
Proof.
  intros P e0 raw i a f e' t al r rf rb F sun rho q FR IK T SC PE SN RE R1 NS RF RB RH TF surfs SUN.
  pose proof FR as (V & Hi & (e & Fi & Ru) & Ha' & Hf).
  destruct (C19_radiosity_balance P e0 raw e e' V Fi Ru) as (i' & a' & f' & rf' & rb' & Hi' & Ha2 & Hf2 & RF' & RB' & C19).
  rewrite Hi in Hi'. injection Hi' as <-. rewrite Ha' in Ha2. injection Ha2 as <-. rewrite RF in RF'. injection RF' as <-. rewrite RB in RB'. injection RB' as <-.
  rewrite Hf in Hf2. injection Hf2 as <-.
  pose proof RE as (RF1 & RB1 & AL1). pose proof (RF1 _ RF) as RF2. pose proof (RB1 _ RB) as RB2.
  destruct (C19 t T ltac:(lra) ltac:(lra) ltac:(lra)) as (qinc & rho' & src & B). clear C19.
  assert (PB : published (im_kind (en_irr e0)) (pv_store (en_array e')) (all_ts_surfaces a) t qinc rho' src).
  { intros s Is. destruct (B s Is) as (B1 & B2 & B3 & _). auto. }
  assert (SKY : irr_sky_luminance f t = ii_dhi i t).
  { destruct (engine_fit_fitted P e0 raw e V Fi) as (i' & a'' & f' & rf'' & rb'' & Hi' & FE). rewrite Hi in Hi'. injection Hi' as <-.
    destruct (run_full_values _ _ _ _ _ _ _ _ FE Ru) as (inv & _ & _ & A3 & _). rewrite Hf in A3. injection A3 as <-.
    pose proof (C53_sky P e0 raw e i f t V Fi Hi (fe_irr_fitted _ _ _ _ _ _ _ FE) T) as K. rewrite IK in K. exact K. }
  assert (ES : forall s, In s surfs -> sun s = src s /\ rho s = rho' s).
  { intros s Is. pose proof Is as Is'. apply in_wide in Is. destruct Is as [Is Ws].
    destruct (B s Is) as (_ & _ & B3 & _ & _ & _ & _ & BG & BF & BB). split.
    - rewrite IK in B3. cbn [light_sources] in B3. unfold wide in Ws.
      pose proof (C91_sun P e0 raw i a f e' t al s (src s) FR SC PE SN Is ltac:(lra) B3) as D.
      destruct (surface_placed a t s Is) as [ns PL]. 
      exact (beam_unique _ _ _ _ _ _ _ _ _ _ _ (SUN s Is' ns (1 / 2) PL ltac:(lra)) (D ns (1 / 2) PL ltac:(lra))).
    - destruct (RH s) as (RG & RS). destruct (surface_placed a t s Is) as [ns PL]. inversion PL as [i0 row b Ei Ix E | Ig E].
      + rewrite (RS i0 row b Ei Ix). destruct (side_category a s i0 row b Ei Ix) as (sh & Hc). destruct b; symmetry; eauto.
      + rewrite (RG Ig). destruct (ground_category a s Ig) as (sh & Hc). symmetry. eauto. }
  pose proof (C89_rendering P e0 raw i a f e' t r F qinc rho' src q FR T (physical_day _ _ _ _ _ SC) RE R1 NS PB TF) as C. cbv zeta in C.
  rewrite SKY in C. fold surfs in C.
  assert (LB : light_balance surfs F sun rho (ii_dhi i t) q <-> light_balance surfs F src rho' (ii_dhi i t) q).
  { unfold light_balance. split; intros H s Is; rewrite (H s Is), (proj1 (ES s Is)); f_equal; apply total_eq; intros y Iy; rewrite (proj2 (ES y Iy)); reflexivity. }
  rewrite LB, C. split; intros H s Is; pose proof (proj1 (B s (proj1 (proj1 (in_wide _ _ _) Is)))) as K.
  - rewrite (H s Is). exact K.
  - exact (value_at_fun _ _ _ _ _ _ (H s Is) K).
Qed.
Print Assumptions C91_light.

(** Three rows that shade each other, sun at 30 degrees above the horizon: the sunlight and the
    reflectivities exist, and the published light balances them. *)
Example C91_example : forall P, exists i a f e' sun rho q F,
  let e0 := ex_engine IsotropicOrdered default_calculator in
  let p := pv_params (en_array e0) in
  let through := let_through (im_spacing (en_irr e0)) (im_transparency (en_irr e0)) in
  let surfs := wide_surfaces 1 (all_ts_surfaces a) in
  full_run P e0 ex_raw i a f e' /\ (1 < ii_n i)%nat /\
  scene p (ii_n i) (FitInputs (ii_zenith i) (ii_solar_azimuth i) (ii_tilt i) (ii_azimuth i)) a 1 (PI / 6) /\
  (exists j : Z, ii_azimuth i 1%nat - pa_axis_azimuth p = 90 + 180 * IZR j) /\
  sin (PI / 6 - ft_rotation a 1%nat * PI / 180) <> 0 /\
  reflects e0 i 1 (1 / 5) /\ no_sliver_surface a 1 /\ reflectivity a (1 / 100) (3 / 100) (ii_albedo i 1%nat) rho /\
  textbook_factors p a 1 F /\ (exists s, In s surfs) /\
  (forall s, In s surfs -> beam_on p i a 1 (PI / 6) through s (sun s)) /\
  light_balance surfs F sun rho (ii_dhi i 1%nat) q.
Proof.
  intro P. destruct (C61_example P) as (i & a & f & e' & qinc & rh & src & FR & N & _ & _ & _ & PH & RE & NS & PB & _).
  pose proof FR as (V & Hi & (e & Fi & Ru) & Ha' & Hf).
  assert (FX : fit ex_p 2 ex_f = Some a).
  { destruct PH as (al & SC). destruct SC as (_ & FX & _). rewrite fit_sun_up in FX. cbn in Hi. injection Hi as <-. exact FX. }
  destruct (ex_sunny i a FX Hi) as (_ & _ & _ & _ & SN & _ & _ & PE).
  assert (SC : scene ex_p (ii_n i) (FitInputs (ii_zenith i) (ii_solar_azimuth i) (ii_tilt i) (ii_azimuth i)) a 1 (PI / 6)).
  { cbn in Hi. injection Hi as <-. exact (proj2 (ex_scene a FX)). }
  destruct (C89_factors _ _ _ _ _ _ SC N) as [F TF].
  set (e0 := ex_engine IsotropicOrdered default_calculator) in *.
  destruct (C19_radiosity_balance P e0 ex_raw e e' V Fi Ru) as (i' & a' & f' & rf & rb & Hi' & Ha2 & _ & RF & RB & C19).
  rewrite Hi in Hi'. injection Hi' as <-. rewrite Ha' in Ha2. injection Ha2 as <-. 
  assert (RF0 : im_rho_front (en_irr e0) = Some (1 / 100)) by reflexivity. assert (RB0 : im_rho_back (en_irr e0) = Some (3 / 100)) by reflexivity.
  rewrite RF0 in RF. injection RF as <-. rewrite RB0 in RB. injection RB as <-.
  destruct (C19 1%nat N) as (qi & rho' & src' & B); [destruct RE; lra|lra|lra|].
  assert (RH : reflectivity a (1 / 100) (3 / 100) (ii_albedo i 1%nat) rho').
  { intro s. split.
    - intro Ig. destruct (ground_category a s Ig) as (sh & Hc). destruct (B s (category_surface _ _ _ Hc)) as (_ & _ & _ & _ & _ & _ & _ & BG & _). eauto.
    - intros j row b Ej Is. destruct (side_category a s j row b Ej Is) as (sh & Hc).
      destruct (B s (category_surface _ _ _ Hc)) as (_ & _ & _ & _ & _ & _ & _ & _ & BF & BB). destruct b; eauto. }
  assert (SU : forall s, In s (wide_surfaces 1 (all_ts_surfaces a)) ->
    beam_on ex_p i a 1 (PI / 6) (let_through (im_spacing (en_irr e0)) (im_transparency (en_irr e0))) s (src' s)).
  { intros s Is. apply in_wide in Is. destruct Is as [Is Ws]. unfold wide in Ws. destruct (B s Is) as (_ & _ & B3 & _).
    exact (C91_sun P e0 ex_raw i a f e' 1 (PI / 6) s (src' s) FR SC PE SN Is ltac:(lra) B3). }
  exists i, a, f, e', src', rho', qi, F. cbv zeta. fold e0.
  split; [exact FR|]. split; [exact N|]. split; [exact SC|]. split; [exact PE|]. split; [exact SN|]. split; [exact RE|]. split; [exact NS|].
  split; [exact RH|]. split; [exact TF|]. split.
  - destruct (C13_example a FX) as (x & Ix & Lx & _). exists x. apply in_wide. split; [exact Ix|].
    unfold wide. rewrite <- tolerance_value. exact Lx.
  - split; [exact SU|].
    apply (C91_light P e0 ex_raw i a f e' 1 (PI / 6) (1 / 5) (1 / 100) (3 / 100) F src' rho' qi FR eq_refl N SC PE SN RE ltac:(lra) NS RF0 RB0 RH TF SU).
    intros s Is. apply in_wide in Is. exact (proj1 (B s (proj1 Is))).
Qed.
