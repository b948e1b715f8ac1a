(** What a surface of a module side takes of uniform light, with AOI methods: statements,
    with examples that meet the hypotheses. Proofs are in ProofWhole.v. *)
From Coq Require Import Reals List Bool Arith String Lra Lia.
From Verif Require Import Num ModelTs ModelGeom ModelVF Basics SpecGeom SpecVF ProofFit ProofRow ProofTele ProofIndex ProofGeom ProofGeom2 PropGeom ProofMatrix ProofVF ProofVF2 PropVF ModelLinalg ProofLinalg SpecEngine ProofRadiosity ModelParams SpecParams ProofParams ModelIrr SpecIrr ProofIrr ProofSky ModelAOI ProofAOI SpecAOI PropAOI ModelEngine SpecRun ProofEngine PropEngine PropIrr ProofRun PropRun ProofLoss PropAbs PropLoss PropFast PropEnergy ProofWhole.
Import ListNotations.
Open Scope R_scope.

(** Part of uniform light that surface [x] takes at timestep [t]: sum of its row of the
    matrix, over the surfaces and the sky. *)
Definition taken (a : fitted) (M : ts (nat -> nat -> R)) (t : nat) (x : ts_surface) : R :=
  sum_over (seq 0 (S (n_ts_surfaces a))) (fun j => M t (surf_index a x) j).

Lemma taken_eq : forall p n f a M t x, valid_params p -> fit p n f = Some a ->
  taken a M t x = rsum (map (fun y => M t (surf_index a x) (surf_index a y)) (all_ts_surfaces a)) + M t (surf_index a x) (n_ts_surfaces a).
Proof.
  intros p n f a M t x V F. unfold taken. rewrite sum_over_seq. cbn [isum]. f_equal.
  rewrite <- (isum_surfaces p n f a V F (fun j => M t (surf_index a x) j)). reflexivity.
Qed.

Lemma rho_weights : forall m back rho, rho_from_faoi_fn m back = Ok rho ->
  sum_below (am_n m) (fun k => (if back then am_back m else am_front m) (mid_angle (am_n m) k) *
    seen_between (cut_angle (am_n m) k) (cut_angle (am_n m) (S k))) = 1 - rho.
Proof.
  intros m back rho H. destruct (C38_rho m back) as [Z N]. destruct (Nat.eq_dec (am_n m) 0) as [E|E].
  - rewrite (Z E) in H. discriminate.
  - destruct (N E) as (r & Hr & Q & _). assert (ER : r = rho) by congruence. cbv zeta in Q. rewrite <- ER, Q. ring.
Qed.

(** C73. A surface of a module side takes of uniform light no more than the part given by
    [rho_from_faoi_fn], plus the largest section of the integral for each thing seen. *)
Theorem C73_at_most : forall P e0 raw i a f e' m M t k row (back : bool) x top rho,
  full_run P e0 raw i a f e' -> ca_aoi (en_calc e0) = Some m -> published_vf_aoi e' M ->
  (t < ii_n i)%nat -> physical e0 i a t ->
  nth_error (ft_rows a) k = Some row -> In x (side_surfaces (if back then row_back row else row_front row)) ->
  DISTANCE_TOLERANCE < s_length x t ->
  (forall z, 0 <= z <= 180 -> 0 <= aoi_of m back z <= top) ->
  rho_from_faoi_fn m back = Ok rho ->
  taken a M t x <= (1 - rho) + INR (S (n_ts_surfaces a)) * (top * sin (PI / (2 * INR (am_n m)))).
Proof.
  intros P e0 raw i a f e' m M t k row back x top rho FR HA PM T PH Hr Hx Lx FB RH.
  destruct (loss_matrix _ _ _ _ _ _ _ _ _ FR HA PM) as (af & AF & EM & V & F).
  destruct PH as (al & _ & FU & SA & NS & HR & HG & HF). clear F. rename FU into F.
  rewrite (taken_eq _ _ _ _ _ _ _ V F), EM, <- (rho_weights m back rho RH).
  assert (X : exists r, nth_error (ft_rows a) k = Some r /\ In x (side_surfaces (side_of back r))).
  { exists row. split; [exact Hr | destruct back; exact Hx]. }
  exact (whole_upper _ _ _ a t al V F SA NS HR HG HF T k back x X Lx m af AF top FB).
Qed.
Print Assumptions C73_at_most.

(** The line of the row meets the ground between its two ends, -100 and 100. *)
Definition meets_ground (row : ts_pvrow) (t : nat) : Prop :=
  exists g, -100 <= g <= 100 /\ turn (Pt g 0) (b1 (row_coords row t)) (b2 (row_coords row t)) = 0.

(** The end of the ground that is looked at is hidden by the neighbour, if there is one. *)
Definition ground_end_hidden (p : pvarray_params) (a : fitted) (t k : nat) (back : bool) (c : pt) : Prop :=
  let left := looks_left (ft_rotation a t) back in
  forall o, neighbour_edge p a t left k = Some o ->
  seen_towards left (Some o) c (Pt (if left then -100 else 100) 0) = o.

Lemma ground_met : forall p n f a t k row, valid_params p -> fit p n f = Some a -> ft_rotation a t <> 0 ->
  -180 < ft_rotation a t < 180 -> nth_error (ft_rows a) k = Some row -> meets_ground row t ->
  -100 <= INR k * pa_distance p - pa_height p * cosd (ft_rotation a t) / sind (ft_rotation a t) <= 100.
Proof.
  intros p n f a t k row V F Nz HR Hr (g & G & T). destruct (fit_rows_nth_error _ _ _ _ _ _ F Hr) as [_ ->].
  destruct (fit_spec _ _ _ _ F) as [_ [Er _]]. pose proof (sin_zero a t HR) as SZ. rewrite fit_row_coords in T. rewrite Er in *.
  set (r := fit_rotation p f t) in *. cbn [b1 b2] in T. unfold turn, row_point in T. cbn [px py] in T.
  change (cos (r * PI / 180)) with (cosd r) in T. change (sin (r * PI / 180)) with (sind r) in T.
  destruct V as (W & _).
  assert (S : sind r <> 0).
  { intro S0. apply Nz. apply SZ. exact S0. }
  replace (INR k * pa_distance p - pa_height p * cosd r / sind r) with g; [exact G|].
  apply (Rmult_eq_reg_r (sind r)); [|exact S]. apply (Rmult_eq_reg_l (pa_width p)); [|lra].
  replace (pa_width p * ((INR k * pa_distance p - pa_height p * cosd r / sind r) * sind r)) with
    (pa_width p * (INR k * pa_distance p * sind r - pa_height p * cosd r)) by (field; exact S).
  lra.
Qed.

(** C73. It takes no less than that part, up to the tolerance on angles for each thing
    seen, when the row meets the ground inside and the neighbour hides the end of it. *)
Theorem C73_at_least : forall P e0 raw i a f e' m M t k row (back : bool) x top rho,
  full_run P e0 raw i a f e' -> ca_aoi (en_calc e0) = Some m -> published_vf_aoi e' M ->
  (t < ii_n i)%nat -> physical e0 i a t ->
  nth_error (ft_rows a) k = Some row -> In x (side_surfaces (if back then row_back row else row_front row)) ->
  DISTANCE_TOLERANCE < s_length x t ->
  (forall z, 0 <= z <= 180 -> 0 <= aoi_of m back z <= top) ->
  rho_from_faoi_fn m back = Ok rho ->
  (forall s, In s (all_ts_surfaces a) -> no_sliver_length DISTANCE_TOLERANCE (s_length s t)) ->
  let p := pv_params (en_array e0) in
  DISTANCE_TOLERANCE <= pa_distance p -> DISTANCE_TOLERANCE <= pa_height p ->
  ft_rotation a t <> 0 -> meets_ground row t -> ground_end_hidden p a t k back (s_centroid x t) ->
  (1 - rho) - INR (S (n_ts_surfaces a)) * (top * (DISTANCE_TOLERANCE * PI / 360)) <= taken a M t x.
Proof.
  intros P e0 raw i a f e' m M t k row back x top rho FR HA PM T PH Hr Hx Lx FB RH SL p TD TP Nz MG EH.
  destruct (loss_matrix _ _ _ _ _ _ _ _ _ FR HA PM) as (af & AF & EM & V & F). fold p in V, F.
  destruct PH as (al & _ & FU & SA & NS & HR & HG & HF). clear F. rename FU into F. fold p in SA, NS, HG, HF.
  rewrite (taken_eq _ _ _ _ _ _ _ V F), EM, <- (rho_weights m back rho RH).
  assert (X : exists r, nth_error (ft_rows a) k = Some r /\ In x (side_surfaces (side_of back r))).
  { exists row. split; [exact Hr | destruct back; exact Hx]. }
  apply (whole_lower _ _ _ a t al V F SA NS HR HG HF T k back x X Lx m af AF top FB SL TD TP Nz
           (ground_met p _ _ a t k row V F Nz HR Hr MG)).
  intro Eg. pose proof (proj1 (fit_rows_nth_error _ _ _ _ _ _ F Hr)) as Hk.
  unfold tow. rewrite (neighbour_eq p _ _ a t V F HR T _ k Hk), Eg.
  assert (EN : neighbour_edge p a t (looks_left (ft_rotation a t) back) k =
    Some (row_lowest_pt (ft_rows a) (next (looks_left (ft_rotation a t) back) k) t))
    by (rewrite (neighbour_eq p _ _ a t V F HR T _ k Hk), Eg; reflexivity).
  specialize (EH _ EN). unfold far. destruct ground_bounds as [GB1 GB2].
  rewrite GB1, GB2. etransitivity; [exact EH|].
  apply (row_lowest p _ _ a t V F HR). apply (next_lt p _ k Hk Eg).
Qed.
Print Assumptions C73_at_least.

(* --------------------------------------------------------------------- examples, refutation *)

Lemma ex_run_fit : forall P k c i a f e', full_run P (ex_engine k c) ex_raw i a f e' -> fit ex_p 2 ex_f = Some a.
Proof.
  intros P k c i a f e' (V & Hi & (e1 & Fi & Ru1) & Ha & Hf).
  destruct (engine_fit_fitted P _ _ _ V Fi) as (i1 & a1 & f1 & rf1 & rb1 & Hi1 & FE1).
  destruct (run_points _ _ _ _ _ _ _ _ FE1 Ru1) as (_ & _ & A1 & _). rewrite Ha in A1. inversion A1; subst a1.
  pose proof (fe_fit _ _ _ _ _ _ _ FE1) as F1. destruct (engine_fit_params _ _ _ _ Fi) as (EP & _). rewrite EP in F1.
  inversion Hi1; subst i1. exact F1.
Qed.

Lemma ex_turn : forall a, fit ex_p 2 ex_f = Some a ->
  ft_rotation a 1%nat = -60 /\ sind (-60) = - (sqrt 3 / 2) /\ cosd (-60) = 1 / 2.
Proof.
  intros a Ha. destruct (fit_spec _ _ _ _ Ha) as [_ [Er _]]. rewrite Er, ex_rot1. split; [reflexivity|].
  unfold sind, cosd, deg2rad. replace (-60 * PI / 180) with (- (PI / 3)) by field.
  rewrite sin_neg, cos_neg, sin_PI3, cos_PI3. split; field.
Qed.

(** One surface of the back of row 2 is at least 1 m long. *)
Lemma ex_long_back : forall a, fit ex_p 2 ex_f = Some a ->
  exists row y, nth_error (ft_rows a) 2 = Some row /\ In y (side_surfaces (row_back row)) /\ 1 <= s_length y 1%nat.
Proof.
  intros a Ha. set (row := fit_row ex_p (fit_alpha ex_p ex_f) (fit_rotation ex_p ex_f) 2).
  assert (Hrow : nth_error (ft_rows a) 2 = Some row) by (rewrite (fit_rows_at _ _ _ _ Ha), fit_rows_eq; reflexivity).
  destruct (ex_turn a Ha) as (R1 & _).
  destruct (C06_side_partition ex_p 2 ex_f a 1 2 row true ex_valid Ha ltac:(rewrite R1; lra) Hrow) as [NB [_ SB]].
  cbn [pa_cut ex_p Nat.eqb negb andb] in NB. cbv beta iota in SB.
  destruct (side_segments (row_back row)) as [| sg [|]] eqn:EB; try discriminate NB.
  destruct (SB 0%nat sg eq_refl) as [il [sh [lo [hi [m [G1 [G2 [_ [_ [L0 [Lm [Lh [Lw [_ [_ [RB _]]]]]]]]]]]]]]]].
  destruct (RB ltac:(rewrite R1; lra)) as [Esh [Eil _]].
  assert (A1 : s_length sh 1%nat = m - lo) by (unfold s_length; rewrite Esh; apply low_point_dist; lra).
  assert (A2 : s_length il 1%nat = hi - m) by (unfold s_length; rewrite Eil; apply low_point_dist; lra).
  cbn [pa_cut ex_p Nat.eqb negb andb pa_width INR] in Lw.
  exists row. destruct (Rle_dec 1 (s_length sh 1%nat)) as [L|L]; [exists sh | exists il]; (split; [exact Hrow|]; split; [|lra]);
    unfold side_surfaces; rewrite EB; cbn [flat_map]; unfold seg_surfaces; rewrite G1, G2; cbn; auto.
Qed.

Lemma ex_uy : forall a, fit ex_p 2 ex_f = Some a -> ProofVF.uy a 1 = sqrt 3 / 2.
Proof.
  intros a Ha. destruct (ex_turn a Ha) as (R1 & S1 & _). unfold ProofVF.uy, up_y. rewrite R1.
  destruct (Rlt_dec 0 (-60)); [lra|]. rewrite S1. lra.
Qed.

(** The row of a surface does not add up to at most one: with an AOI function that is one
    everywhere, for which [rho_from_faoi_fn] gives no reflection at all, and one section,
    the surface takes twice the light that arrives. *)
Theorem C73_refuted : forall P, exists e0 raw i a f e' m M t k row x,
  full_run P e0 raw i a f e' /\ ca_aoi (en_calc e0) = Some m /\ published_vf_aoi e' M /\
  (t < ii_n i)%nat /\ physical e0 i a t /\
  nth_error (ft_rows a) k = Some row /\ In x (side_surfaces (row_front row)) /\ s_length x t = 1 / 2 /\
  (forall z, aoi_of m false z = 1) /\ rho_from_faoi_fn m false = Ok 0 /\
  taken a (build_vf_matrix a) t x = 1 /\ 2 <= taken a M t x.
Proof.
  intro P. set (m := AOIMethods (fun _ => 1) (fun _ => 1) 1).
  destruct (ex_full_run P IsotropicOrdered (ex_aoi m)) as (i & a & f & e' & FR & N & PH).
  { intros m' E. cbn in E. inversion E; subst m'. cbn. lia. }
  destruct (PH 1%nat ltac:(lia)) as [P1 _]. pose proof (ex_run_fit _ _ _ _ _ _ _ FR) as F.
  destruct (ex_surfaces a F) as (row & x & _ & Hr & Hx & _ & _ & _ & Lx & _ & Tol).
  destruct (ex_long_back a F) as (row2 & y & Hr2 & Hy & Ly).
  destruct (run_matrices _ _ _ _ _ _ _ FR) as (e & rf & rb & inv & FE & Ru & EI & EC & INV & PA & PV & RE).
  eexists _, _, i, a, f, e', m, _, 1%nat, 1%nat, row, x.
  split; [exact FR|]. split; [reflexivity|]. split; [exact PA|]. split; [lia|]. split; [exact P1|].
  split; [exact Hr|]. split; [exact Hx|]. split; [exact Lx|]. split; [reflexivity|].
  split.
  { destruct (proj2 (C38_rho m false) ltac:(cbn; lia)) as (r & E & _ & _ & C & _). rewrite E. f_equal.
    rewrite (C 1 (fun _ _ => eq_refl)). lra. }
  split.
  { destruct (C13_closure ex_p 2 ex_f a 1 x ex_valid F (in_all_row a 1 row false x Hr Hx)) as (S1 & _). apply S1. lra. }
  destruct (loss_matrix _ _ _ _ _ _ _ m _ FR eq_refl PA) as (af & AF & EM & _ & _).
  rewrite (taken_eq _ _ _ _ _ _ _ ex_valid F), EM.
  destruct (ex_scene a F) as [_ (V & _ & SA & NS & HR & HG & HF)]. destruct (ex_turn a F) as (R1 & _).
  assert (LL : looks_left (ft_rotation a 1%nat) false = false) by (rewrite R1; unfold looks_left; destruct (Rlt_dec 0 (-60)); [lra | reflexivity]).
  pose proof PI_4 as P4. pose proof PI_RGT_0 as PP. pose proof sqrt3 as S3.
  apply (counted_twice ex_p 2 ex_f a 1 (PI / 6) V F SA NS HR HG HF ltac:(lia) 1 false x
    (ex_intro _ row (conj Hr Hx)) ltac:(lra) m af AF 1 ltac:(intros; cbn; lra) eq_refl ltac:(reflexivity)) with (y := y);
    rewrite ?LL, ?(ex_uy a F), ?ex_distance.
  - reflexivity.
  - unfold DISTANCE_TOLERANCE. lra.
  - cbn [pa_height ex_p]. unfold DISTANCE_TOLERANCE. lra.
  - exists row2. split; [exact Hr2 | exact Hy].
  - lra.
  - cbn [pa_width ex_p]. unfold DISTANCE_TOLERANCE. nra.
  - cbn [pa_width ex_p]. unfold DISTANCE_TOLERANCE. nra.
Qed.
Print Assumptions C73_refuted.

(** A run that meets the hypotheses of both bounds: default number of sections, nothing
    lost at normal incidence and everything at grazing incidence, surface of row 1 that
    sees the ground, row 2 and the sky. *)
Example C73_example : forall P, exists m i a f e' M row x rho,
  let e0 := ex_engine HybridPerezOrdered (ex_aoi m) in
  full_run P e0 ex_raw i a f e' /\ am_n m = 300%nat /\ am_front m 90 = 1 /\ am_front m 0 = 0 /\
  published_vf_aoi e' M /\ (1 < ii_n i)%nat /\ physical e0 i a 1 /\
  nth_error (ft_rows a) 1 = Some row /\ In x (side_surfaces (row_front row)) /\
  DISTANCE_TOLERANCE < s_length x 1%nat /\
  (forall z, 0 <= z <= 180 -> 0 <= aoi_of m false z <= 1) /\
  rho_from_faoi_fn m false = Ok rho /\
  (forall s, In s (all_ts_surfaces a) -> no_sliver_length DISTANCE_TOLERANCE (s_length s 1%nat)) /\
  DISTANCE_TOLERANCE <= pa_distance (pv_params (en_array e0)) /\ DISTANCE_TOLERANCE <= pa_height (pv_params (en_array e0)) /\
  ft_rotation a 1%nat <> 0 /\ meets_ground row 1 /\
  ground_end_hidden (pv_params (en_array e0)) a 1 1 false (s_centroid x 1%nat) /\
  neighbour_edge (pv_params (en_array e0)) a 1 (looks_left (ft_rotation a 1%nat) false) 1 <> None.
Proof.
  intro P. set (m := AOIMethods (fun x => 1 - ((90 - x) / 90) ^ 2) (fun x => 1 - ((90 - x) / 90) ^ 2) 300).
  destruct (ex_full_run P HybridPerezOrdered (ex_aoi m)) as (i & a & f & e' & FR & N & PH).
  { intros m' E. cbn in E. inversion E; subst m'. cbn. lia. }
  destruct (PH 1%nat ltac:(lia)) as [P1 _]. pose proof (ex_run_fit _ _ _ _ _ _ _ FR) as F.
  destruct (ex_surfaces a F) as (row & x & _ & Hr & Hx & _ & _ & _ & Lx & _ & Tol).
  destruct (run_matrices _ _ _ _ _ _ _ FR) as (e & rf & rb & inv & FE & Ru & EI & EC & INV & PA & PV & RE).
  destruct (proj2 (C38_rho m false) ltac:(cbn; lia)) as (rho & ER & _).
  destruct (ex_turn a F) as (R1 & S1 & C1). pose proof sqrt3 as S3.
  assert (SS : sqrt 3 * sqrt 3 = 3) by (apply sqrt_sqrt; lra).
  assert (LL : looks_left (ft_rotation a 1%nat) false = false) by (rewrite R1; unfold looks_left; destruct (Rlt_dec 0 (-60)); [lra | reflexivity]).
  exists m, i, a, f, e'. eexists. exists row, x, rho. cbv zeta. split; [exact FR|]. split; [reflexivity|].
  split; [cbn; lra|]. split; [cbn; field|]. split; [exact PA|]. split; [lia|]. split; [exact P1|].
  split; [exact Hr|]. split; [exact Hx|]. split; [lra|].
  split.
  { intros z Hz. unfold aoi_of, m. cbn [am_front]. set (u := (90 - z) / 90). assert (-1 <= u <= 1) by (unfold u; lra). split; nra. }
  split; [exact ER|].
  split.
  { intros s Hs. destruct (ex_no_sliver a F s Hs) as [Z0|Z0]; [left; exact Z0 | right; unfold DISTANCE_TOLERANCE; lra]. }
  change (pv_params (en_array (ex_engine HybridPerezOrdered (ex_aoi m)))) with ex_p.
  split; [rewrite ex_distance; unfold DISTANCE_TOLERANCE; lra|].
  split; [cbn [pa_height ex_p]; unfold DISTANCE_TOLERANCE; lra|].
  split; [rewrite R1; lra|].
  split.
  { destruct (fit_rows_nth_error _ _ _ _ _ _ F Hr) as [_ ->]. exists (3 + sqrt 3). split; [lra|].
    rewrite fit_row_coords, ex_distance, ex_rot1. cbn [b1 b2 INR pa_height pa_width ex_p]. unfold turn, row_point. cbn [px py].
    change (cos (-60 * PI / 180)) with (cosd (-60)). change (sin (-60 * PI / 180)) with (sind (-60)). rewrite S1, C1. nra. }
  rewrite LL. split; [|cbn; discriminate].
  unfold ground_end_hidden. rewrite LL. intros o Ho. cbn [neighbour_edge ex_p pa_n_pvrows Nat.ltb Nat.leb] in Ho.
  destruct (ex_scene a F) as [_ (V & _ & _ & _ & HR & HG & _)].
  destruct (c_margin ex_p 2 ex_f a 1 V F HR 1 false x (ex_intro _ row (conj Hr Hx))) as (e1 & E1 & Ec).
  rewrite Lx in E1. cbn [pa_width ex_p] in E1.
  unfold seen_towards. destruct (Rlt_dec _ _) as [H|H]; [reflexivity|]. exfalso. apply H. clear H.
  injection Ho as <-. rewrite Ec, RP_point. unfold point_from_low_edge. rewrite R1. destruct (Rlt_dec 0 (-60)); [lra|].
  cbn [pa_width pa_height ex_p]. rewrite ex_distance. unfold turn, row_point. cbn [px py INR].
  change (cos (-60 * PI / 180)) with (cosd (-60)). change (sin (-60 * PI / 180)) with (sind (-60)). rewrite S1, C1. nra.
Qed.
