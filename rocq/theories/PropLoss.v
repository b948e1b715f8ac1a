(** AOI losses in a full mode run, and matrices published by a run: statements, with
    examples that meet the hypotheses. *)
From Coq Require Import Reals List Bool Arith String Lra Lia FunctionalExtensionality.
From Verif Require Import Num ModelTs ModelGeom ModelVF Basics SpecGeom SpecVF ProofFit ProofIndex ProofGeom2 PropGeom ProofMatrix ProofVF ProofVF2 PropVF ModelLinalg ProofLinalg SpecEngine ProofRadiosity ModelParams SpecParams ProofParams ModelIrr SpecIrr ProofIrr ProofSky ModelAOI ProofAOI SpecAOI PropAOI ModelEngine SpecRun ProofEngine PropEngine PropIrr ProofRun PropRun ProofLoss PropAbs.
Import ListNotations.
Open Scope R_scope.

(* -------------------------------------------------------------- published matrices *)

(** The two matrices left by a run, and where they are. *)
Lemma run_matrices : forall P e0 raw i a f e', full_run P e0 raw i a f e' ->
  exists e rf rb inv, fitted_engine P e i a f rf rb /\ run_full_mode e = Ok e' /\ en_irr e = en_irr e0 /\
    ca_aoi (en_calc e) = ca_aoi (en_calc e0) /\
    inv_stack (ft_n_states a) (S (fr_n a)) (fr_system a (pv_store (en_array e))) = Ok inv /\
    published_vf_aoi e' (fr_aoi a (pv_store (en_array e)) (en_calc e)) /\
    published_vf e' (match ca_aoi (en_calc e0) with
                     | None => build_vf_matrix a
                     | Some _ => fr_aoi a (pv_store (en_array e)) (en_calc e)
                     end) /\
    (pv_vf (en_array e') = pv_vf_aoi (en_array e') <-> ca_aoi (en_calc e0) <> None).
Proof.
  intros P e0 raw i a f e' FR. destruct (full_run_inv _ _ _ _ _ _ _ FR) as (e & rf & rb & FE & Ru & EI & EC & _).
  exists e, rf, rb. pose proof Ru as Ru'.
  rewrite (run_full_spec e a f (fe_array _ _ _ _ _ _ _ FE) (fe_irr_fitted _ _ _ _ _ _ _ FE)
    (fitted_ready _ _ _ _ _ _ _ FE) (fe_calc _ _ _ _ _ _ _ FE)) in Ru.
  apply bind_ok in Ru. destruct Ru as (inv & INV & H). exists inv. cbn zeta in H. inversion H; subst e'. clear H.
  repeat (split; [assumption|]). split; [|split].
  - eexists. split; [cbn; reflexivity|]. cbn [en_heap]. rewrite EC. destruct (ca_aoi (en_calc e0)).
    + cbn [heap_write heap_alloc snd hp_get hp_next]. rewrite Nat.eqb_refl. reflexivity.
    + cbn [heap_alloc snd hp_get hp_next]. rewrite Nat.eqb_refl. reflexivity.
  - eexists. split; [cbn; reflexivity|]. cbn [en_heap]. rewrite EC. destruct (ca_aoi (en_calc e0)).
    + cbn [heap_write heap_alloc snd hp_get hp_next]. rewrite Nat.eqb_refl. reflexivity.
    + cbn [heap_alloc snd hp_get hp_next]. rewrite Nat.eqb_refl.
      destruct (Nat.eqb_spec (hp_next (en_heap e)) (S (hp_next (en_heap e)))); [lia|]. reflexivity.
  - cbn [pv_vf pv_vf_aoi en_array]. rewrite EC. destruct (ca_aoi (en_calc e0)); split; intro H; try discriminate; try reflexivity.
    + exfalso. inversion H. lia.
    + congruence.
Qed.

Lemma published_vf_fun : forall e M M', published_vf e M -> published_vf e M' -> M = M'.
Proof. intros e M M' (r & E & <-) (r' & E' & <-). rewrite E in E'. inversion E'. reflexivity. Qed.
Lemma published_vf_aoi_fun : forall e M M', published_vf_aoi e M -> published_vf_aoi e M' -> M = M'.
Proof. intros e M M' (r & E & <-) (r' & E' & <-). rewrite E in E'. inversion E'. reflexivity. Qed.

(** C24. Without AOI methods the two published matrices are two different objects: the
    view factors (whose rows add up to one by C13), and the view factors times the part
    absorbed by the surface that receives. With AOI methods they are one object. *)
Theorem C24_no_aoi : forall P e0 raw i a f e', full_run P e0 raw i a f e' -> ca_aoi (en_calc e0) = None ->
  published_vf e' (build_vf_matrix a) /\
  (exists M, published_vf_aoi e' M /\
     forall t x rho, In x (all_ts_surfaces a) -> value_at (pv_store (en_array e')) x "rho" t rho ->
     forall j, M t (surf_index a x) j = (1 - rho) * build_vf_matrix a t (surf_index a x) j) /\
  pv_vf (en_array e') <> pv_vf_aoi (en_array e').
Proof.
  intros P e0 raw i a f e' FR NA.
  destruct (run_matrices _ _ _ _ _ _ _ FR) as (e & rf & rb & inv & FE & Ru & EI & EC & INV & PA & PV & RE).
  rewrite NA in PV. split; [exact PV|]. split.
  - eexists. split; [exact PA|]. intros t x rho Is W j. unfold fr_aoi. rewrite EC, NA. unfold diffuse_aoi.
    destruct (run_points _ _ _ _ _ _ _ _ FE Ru) as (inv' & _ & _ & _ & RP). destruct (RP t x Is) as [k PT].
    rewrite (rp_index _ _ _ _ _ _ _ _ _ _ PT). rewrite (value_at_fun _ _ _ _ _ _ W (rp_rho _ _ _ _ _ _ _ _ _ _ PT)). reflexivity.
  - intro H. apply RE in H. congruence.
Qed.
Print Assumptions C24_no_aoi.

Theorem C24_with_aoi : forall P e0 raw i a f e' m, full_run P e0 raw i a f e' -> ca_aoi (en_calc e0) = Some m ->
  pv_vf (en_array e') = pv_vf_aoi (en_array e') /\ (forall M, published_vf e' M <-> published_vf_aoi e' M).
Proof.
  intros P e0 raw i a f e' m FR HA.
  destruct (run_matrices _ _ _ _ _ _ _ FR) as (e & rf & rb & inv & FE & Ru & EI & EC & INV & PA & PV & RE).
  assert (E : pv_vf (en_array e') = pv_vf_aoi (en_array e')) by (apply RE; congruence).
  split; [exact E|]. intro M. unfold published_vf, published_vf_aoi. rewrite E. reflexivity.
Qed.
Print Assumptions C24_with_aoi.

(* ------------------------------------------------------------------------- C51 *)

Section Loss.
  Variables (P : pvlib) (e0 : engine) (raw : raw_inputs) (i : irr_inputs) (a : fitted) (f : irr_fitted) (e' : engine)
            (m : aoi_methods) (M : ts (nat -> nat -> R)).
  Hypothesis FR : full_run P e0 raw i a f e'.
  Hypothesis HA : ca_aoi (en_calc e0) = Some m.
  Hypothesis PM : published_vf_aoi e' M.

  Lemma loss_matrix : exists af, aoi_fit m = Ok af /\
    (forall t, M t = aoi_update af a t (build_vf_matrix a t)) /\
    valid_params (pv_params (en_array e0)) /\
    fit (pv_params (en_array e0)) (ii_n i) (FitInputs (ii_zenith i) (ii_solar_azimuth i) (ii_tilt i) (ii_azimuth i)) = Some a.
  Proof.
    destruct (run_matrices _ _ _ _ _ _ _ FR) as (e & rf & rb & inv & FE & Ru & EI & EC & INV & PA & PV & RE).
    rewrite HA in EC. destruct (fe_aoi _ _ _ _ _ _ _ FE m EC) as (af & A & B). exists af. split; [exact A|].
    rewrite (published_vf_aoi_fun _ _ _ PM PA). split; [intro t; unfold fr_aoi; rewrite EC, B; reflexivity|].
    destruct FR as (V & Hi & (e1 & Fi & Ru1) & Ha & Hf). split; [exact V|].
    destruct (engine_fit_fitted _ _ _ _ V Fi) as (i1 & a1 & f1 & rf1 & rb1 & Hi1 & FE1).
    rewrite Hi in Hi1. inversion Hi1; subst i1.
    destruct (run_points _ _ _ _ _ _ _ _ FE1 Ru1) as (_ & _ & A1 & _). rewrite Ha in A1. inversion A1; subst a1.
    pose proof (fe_fit _ _ _ _ _ _ _ FE1) as F1. destruct (engine_fit_params _ _ _ _ Fi) as (EP & _). rewrite EP in F1. exact F1.
  Qed.
End Loss.

Definition aoi_of (m : aoi_methods) (back : bool) : R -> R := if back then am_back m else am_front m.

Theorem C51_ground : forall P e0 raw i a f e' m M t k row (back left : bool) x y,
  full_run P e0 raw i a f e' -> ca_aoi (en_calc e0) = Some m -> published_vf_aoi e' M ->
  (t < ii_n i)%nat -> physical e0 i a t ->
  nth_error (ft_rows a) k = Some row -> In x (side_surfaces (if back then row_back row else row_front row)) ->
  In y (gnd_side_of_cut_point (ft_ground a) left k) ->
  DISTANCE_TOLERANCE < s_length x t -> DISTANCE_TOLERANCE < s_length y t ->
  let c := s_centroid x t in
  let rot := ft_rotation a t in
  let towards := seen_towards left (neighbour_edge (pv_params (en_array e0)) a t left k) c in
  let v := M t (surf_index a x) (surf_index a y) in
  (left = looks_left rot back ->
   seen_from DISTANCE_TOLERANCE (aoi_of m back) (am_n m) rot back c
     (towards (b1 (s_coords y t))) (towards (b2 (s_coords y t))) v) /\
  (left <> looks_left rot back -> v = 0).
Proof.
  intros P e0 raw i a f e' m M t k row back left x y FR HA PM T PH Hr Hx Hy Lx Ly c rot towards v.
  destruct (loss_matrix _ _ _ _ _ _ _ _ _ FR HA PM) as (af & AF & EM & V & F).
  destruct PH as (al & _ & FU & SA & NS & HR & HG & HF). clear F. rename FU into F.
  pose proof (loss_ground _ _ _ _ t al V F SA NS HR HG HF T m af AF (build_vf_matrix a t) k back left x y) as L.
  cbn zeta in L. unfold v. rewrite EM.
  specialize (L ltac:(exists row; split; [exact Hr | destruct back; exact Hx]) Hy Lx Ly).
  destruct (Bool.eqb left (looks_left (ft_rotation a t) back)) eqn:E.
  - apply eqb_prop in E. split; [intros _; exact L | intro; contradiction].
  - apply eqb_false_iff in E. split; [intro; contradiction | intros _; exact L].
Qed.
Print Assumptions C51_ground.

Theorem C51_rows : forall P e0 raw i a f e' m M t k l row row' (back back' : bool) x y,
  full_run P e0 raw i a f e' -> ca_aoi (en_calc e0) = Some m -> published_vf_aoi e' M ->
  (t < ii_n i)%nat -> physical e0 i a t ->
  nth_error (ft_rows a) k = Some row -> In x (side_surfaces (if back then row_back row else row_front row)) ->
  nth_error (ft_rows a) l = Some row' -> In y (side_surfaces (if back' then row_back row' else row_front row')) ->
  DISTANCE_TOLERANCE < s_length x t -> DISTANCE_TOLERANCE < s_length y t ->
  let rot := ft_rotation a t in
  let facing := back' = negb back /\ (if looks_left rot back then k = S l else l = S k) in
  let v := M t (surf_index a x) (surf_index a y) in
  (facing -> seen_from DISTANCE_TOLERANCE (aoi_of m back) (am_n m) rot back (s_centroid x t)
     (b1 (s_coords y t)) (b2 (s_coords y t)) v) /\
  (~ facing -> v = 0).
Proof.
  intros P e0 raw i a f e' m M t k l row row' back back' x y FR HA PM T PH Hr Hx Hr' Hy Lx Ly rot facing v.
  destruct (loss_matrix _ _ _ _ _ _ _ _ _ FR HA PM) as (af & AF & EM & V & F).
  destruct PH as (al & _ & FU & SA & NS & HR & HG & HF). clear F. rename FU into F.
  unfold v. rewrite EM.
  apply (loss_row _ _ _ _ t al V F NS HR HG HF T m af AF (build_vf_matrix a t) k l back back' x y).
  - exists row. split; [exact Hr | destruct back; exact Hx].
  - exists row'. split; [exact Hr' | destruct back'; exact Hy].
  - exact Lx.
  - exact Ly.
  - reflexivity.
Qed.
Print Assumptions C51_rows.

(** The [k]-th opening is at the left of row [k]. *)
Theorem C51_sky : forall P e0 raw i a f e' m M t k row (back : bool) x,
  full_run P e0 raw i a f e' -> ca_aoi (en_calc e0) = Some m -> published_vf_aoi e' M ->
  (t < ii_n i)%nat -> physical e0 i a t ->
  nth_error (ft_rows a) k = Some row -> In x (side_surfaces (if back then row_back row else row_front row)) ->
  DISTANCE_TOLERANCE < s_length x t ->
  let rot := ft_rotation a t in
  exists q1 q2, sky_opening a t (if looks_left rot back then k else S k) q1 q2 /\
    (DISTANCE_TOLERANCE <= euclid q1 q2 ->
     seen_from DISTANCE_TOLERANCE (aoi_of m back) (am_n m) rot back (s_centroid x t) q1 q2
       (M t (surf_index a x) (n_ts_surfaces a))).
Proof.
  intros P e0 raw i a f e' m M t k row back x FR HA PM T PH Hr Hx Lx rot.
  destruct (loss_matrix _ _ _ _ _ _ _ _ _ FR HA PM) as (af & AF & EM & V & F).
  destruct PH as (al & _ & FU & SA & NS & HR & HG & HF). clear F. rename FU into F.
  rewrite EM.
  apply (loss_sky _ _ _ _ t al V F NS HR HG HF T m af AF (build_vf_matrix a t) k back x); [|exact Lx].
  exists row. split; [exact Hr | destruct back; exact Hx].
Qed.
Print Assumptions C51_sky.

Theorem C51_short : forall P e0 raw i a f e' m M t k row (back : bool) x j,
  full_run P e0 raw i a f e' -> ca_aoi (en_calc e0) = Some m -> published_vf_aoi e' M ->
  nth_error (ft_rows a) k = Some row -> In x (side_surfaces (if back then row_back row else row_front row)) ->
  s_length x t < DISTANCE_TOLERANCE -> (j <= n_ts_surfaces a)%nat ->
  M t (surf_index a x) j = 0.
Proof.
  intros P e0 raw i a f e' m M t k row back x j FR HA PM Hr Hx Lx Hj.
  destruct (loss_matrix _ _ _ _ _ _ _ _ _ FR HA PM) as (af & AF & EM & V & F).
  rewrite EM. apply (loss_short _ _ _ _ t 0 V F m af (build_vf_matrix a t) k back x j); auto.
  exists row. split; [exact Hr | destruct back; exact Hx].
Qed.
Print Assumptions C51_short.

(** The rows of the ground surfaces are left as they are. *)
Theorem C51_ground_rows : forall P e0 raw i a f e' m M t x j,
  full_run P e0 raw i a f e' -> ca_aoi (en_calc e0) = Some m -> published_vf_aoi e' M ->
  In x (gnd_surfaces (ft_ground a)) ->
  M t (surf_index a x) j = build_vf_matrix a t (surf_index a x) j.
Proof.
  intros P e0 raw i a f e' m M t x j FR HA PM Hx.
  destruct (loss_matrix _ _ _ _ _ _ _ _ _ FR HA PM) as (af & AF & EM & V & F).
  rewrite EM. apply aoi_cell_gnd_row. intros k b y Y E.
  pose proof (row_surf_all a k b y Y) as Ya.
  apply (idx_inj a _ _ _ V F x y (in_all_gnd a x Hx) Ya) in E. subst y.
  exact (row_not_gnd a _ _ _ V F k b x Y Hx).
Qed.
Print Assumptions C51_ground_rows.

(** Absorbed light of any run, with or without AOI methods. *)
Theorem C51_absorbed : forall P e0 raw i a f e' M t s (q0 : ts_surface -> R),
  full_run P e0 raw i a f e' -> published_vf_aoi e' M -> (t < ii_n i)%nat ->
  In s (all_ts_surfaces a) ->
  (forall y, In y (all_ts_surfaces a) -> value_at (pv_store (en_array e')) y "q0" t (q0 y)) ->
  exists src, absorbed_sources (im_kind (en_irr e0)) (pv_store (en_array e')) s t src /\
    value_at (pv_store (en_array e')) s "qabs" t
      (src + total (fun y => M t (surf_index a s) (surf_index a y) * q0 y) (all_ts_surfaces a)
       + M t (surf_index a s) (n_ts_surfaces a) * irr_sky_luminance f t).
Proof.
  intros P e0 raw i a f e' M t s q0 FR PM T Is Q.
  destruct (run_matrices _ _ _ _ _ _ _ FR) as (e & rf & rb & inv0 & FE & Ru & EI & EC & INV0 & PA & _ & _).
  rewrite (published_vf_aoi_fun _ _ _ PM PA). rewrite <- EI.
  destruct (run_points _ _ _ _ _ _ _ _ FE Ru) as (inv & INV & A & If & RP).
  destruct (RP t s Is) as [j PT]. set (k := im_kind (en_irr e)) in *. set (st0 := pv_store (en_array e)) in *.
  eexists. split; [exact (rp_abs _ _ _ _ _ _ _ _ _ _ PT)|].
  match goal with |- value_at _ _ _ _ ?x => replace x with (fr_qabs k a f st0 (en_calc e) inv j t) end;
    [exact (rp_qabs _ _ _ _ _ _ _ _ _ _ PT)|].
  unfold fr_qabs, mat_vec. rewrite np_sum_isum. cbn [isum]. rewrite (rp_index _ _ _ _ _ _ _ _ _ _ PT).
  assert (N : (t < ft_n_states a)%nat) by (rewrite (fe_n _ _ _ _ _ _ _ FE); exact T).
  assert (SK : fr_q0 k a f st0 inv t (fr_n a) = irr_sky_luminance f t).
  { exact (fr_q0_sky e a f inv INV t N (fe_sky_row _ _ _ _ _ _ _ FE t)). }
  rewrite SK.
  rewrite (total_isum _ _ (fun l => fr_aoi a st0 (en_calc e) t j l * fr_q0 k a f st0 inv t l)).
  - unfold fr_n. rewrite n_ts_surfaces_length. ring.
  - intros l y Ey. pose proof (nth_error_In _ _ Ey) as Iy. destruct (RP t y Iy) as [l' PY].
    pose proof (fe_valid _ _ _ _ _ _ _ FE) as V. pose proof (fe_fit _ _ _ _ _ _ _ FE) as F.
    pose proof (surf_index_nth _ _ _ _ _ _ V F Ey) as El. rewrite (rp_index _ _ _ _ _ _ _ _ _ _ PY) in El. subst l'.
    rewrite (rp_index _ _ _ _ _ _ _ _ _ _ PY).
    rewrite (value_at_fun _ _ _ _ _ _ (Q y Iy) (rp_q0 _ _ _ _ _ _ _ _ _ _ PY)). reflexivity.
Qed.
Print Assumptions C51_absorbed.

(** A side whose AOI function vanishes absorbs nothing of the light from the surroundings. *)
Theorem C51_black : forall P e0 raw i a f e' m M t k row (back : bool) x j,
  full_run P e0 raw i a f e' -> ca_aoi (en_calc e0) = Some m -> published_vf_aoi e' M ->
  nth_error (ft_rows a) k = Some row -> In x (side_surfaces (if back then row_back row else row_front row)) ->
  (forall z, 0 <= z <= 180 -> aoi_of m back z = 0) -> (j <= n_ts_surfaces a)%nat ->
  M t (surf_index a x) j = 0.
Proof.
  intros P e0 raw i a f e' m M t k row back x j FR HA PM Hr Hx Z Hj.
  destruct (loss_matrix _ _ _ _ _ _ _ _ _ FR HA PM) as (af & AF & EM & V & F).
  rewrite EM. apply (loss_black _ _ _ _ t 0 V F m af AF (build_vf_matrix a t) k back x j); auto.
  exists row. split; [exact Hr | destruct back; exact Hx].
Qed.
Print Assumptions C51_black.

(* --------------------------------------------------------- examples, refutation of C24 *)

Definition ex_aoi (m : aoi_methods) : calculator := Calculator (Some m) None None None.

(** The published view factors of a run with AOI methods are not the ones of the run: a
    surface 2 m long, whose factors add up to one, is left with a row of zeros. *)
Theorem C24_refuted : forall P, exists e0 raw i a f e' m M t x,
  full_run P e0 raw i a f e' /\ ca_aoi (en_calc e0) = Some m /\ published_vf e' M /\
  (t < ii_n i)%nat /\ physical e0 i a t /\ In x (all_ts_surfaces a) /\ s_length x t = 2 /\
  sum_over (seq 0 (S (n_ts_surfaces a))) (fun j => build_vf_matrix a t (surf_index a x) j) = 1 /\
  forall j, (j <= n_ts_surfaces a)%nat -> M t (surf_index a x) j = 0.
Proof.
  intro P. set (m := AOIMethods (fun _ => 0) (fun _ => 0) 1).
  destruct (ex_full_run P IsotropicOrdered (ex_aoi m)) as (i & a & f & e' & FR & N & PH).
  { intros m' E. cbn in E. inversion E; subst m'. cbn. lia. }
  destruct (PH 1%nat ltac:(lia)) as [P1 _].
  assert (F : fit ex_p 2 ex_f = Some a).
  { destruct FR as (V & Hi & (e1 & Fi & Ru1) & Ha & Hf).
    destruct (engine_fit_fitted P _ _ _ V Fi) as (i1 & a1 & f1 & rf1 & rb1 & Hi1 & FE1).
    destruct (run_points _ _ _ _ _ _ _ _ FE1 Ru1) as (_ & _ & A1 & _). rewrite Ha in A1. inversion A1; subst a1.
    pose proof (fe_fit _ _ _ _ _ _ _ FE1) as F1. destruct (engine_fit_params _ _ _ _ Fi) as (EP & _). rewrite EP in F1.
    inversion Hi1; subst i1. exact F1. }
  destruct (ex_surfaces a F) as (row & _ & y & Hr & _ & Hy & _ & _ & _ & Ly & Tol).
  destruct (run_matrices _ _ _ _ _ _ _ FR) as (e & rf & rb & inv & FE & Ru & EI & EC & INV & PA & PV & RE).
  cbn [ex_engine en_calc engine_init ex_aoi ca_aoi] in PV.
  eexists _, _, i, a, f, e', m, _, 1%nat, y.
  split; [exact FR|]. split; [reflexivity|]. split; [exact PV|]. split; [lia|]. split; [exact P1|].
  pose proof (in_all_row a 1 row true y Hr Hy) as Iy. split; [exact Iy|]. split; [exact Ly|]. split.
  - destruct (C13_closure ex_p 2 ex_f a 1 y ex_valid F Iy) as (S1 & _). apply S1. lra.
  - intros j J. refine (C51_black P _ _ i a f e' m _ 1%nat 1%nat row true y j FR eq_refl PA Hr Hy _ J). reflexivity.
Qed.
Print Assumptions C24_refuted.

(** Runs with AOI methods that meet the hypotheses of C51: nothing lost at normal
    incidence, everything at grazing incidence; both sides of a row of the middle. *)
Example C51_example : forall P, exists m i a f e' M row x y,
  full_run P (ex_engine HybridPerezOrdered (ex_aoi m)) ex_raw i a f e' /\ am_front m 90 = 1 /\ am_front m 0 = 0 /\
  published_vf_aoi e' M /\ (1 < ii_n i)%nat /\ physical (ex_engine HybridPerezOrdered (ex_aoi m)) i a 1 /\
  nth_error (ft_rows a) 1 = Some row /\ In x (side_surfaces (row_front row)) /\ In y (side_surfaces (row_back row)) /\
  DISTANCE_TOLERANCE < s_length x 1%nat /\ DISTANCE_TOLERANCE < s_length y 1%nat.
Proof.
  intro P. set (m := AOIMethods (fun x => 1 - ((90 - x) / 90) ^ 2) (fun x => 1 - ((90 - x) / 90) ^ 2) 300).
  destruct (ex_full_run P HybridPerezOrdered (ex_aoi m)) as (i & a & f & e' & FR & N & PH).
  { intros m' E. cbn in E. inversion E; subst m'. cbn. lia. }
  destruct (PH 1%nat ltac:(lia)) as [P1 _].
  assert (F : fit ex_p 2 ex_f = Some a).
  { destruct FR as (V & Hi & (e1 & Fi & Ru1) & Ha & Hf).
    destruct (engine_fit_fitted P _ _ _ V Fi) as (i1 & a1 & f1 & rf1 & rb1 & Hi1 & FE1).
    destruct (run_points _ _ _ _ _ _ _ _ FE1 Ru1) as (_ & _ & A1 & _). rewrite Ha in A1. inversion A1; subst a1.
    pose proof (fe_fit _ _ _ _ _ _ _ FE1) as F1. destruct (engine_fit_params _ _ _ _ Fi) as (EP & _). rewrite EP in F1.
    inversion Hi1; subst i1. exact F1. }
  destruct (ex_surfaces a F) as (row & x & y & Hr & Hx & Hy & _ & _ & Lx & Ly & Tol).
  destruct (run_matrices _ _ _ _ _ _ _ FR) as (e & rf & rb & inv & FE & Ru & EI & EC & INV & PA & PV & RE).
  eexists m, i, a, f, e', _, row, x, y. split; [exact FR|].
  split; [cbn; lra|]. split; [cbn; field|]. split; [exact PA|]. split; [lia|]. split; [exact P1|].
  split; [exact Hr|]. split; [exact Hx|]. split; [exact Hy|]. lra.
Qed.
