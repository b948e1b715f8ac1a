(** How the light received in fast mode compares with the one of full mode. *)
From Coq Require Import Reals List Bool Arith String Lra Lia.
From Verif Require Import Num ModelTs ModelGeom ModelVF Basics SpecGeom SpecVF ProofFit ProofIndex ProofGeom2 PropGeom ProofMatrix ProofVF ProofVF2 PropVF ProofNight ProofFast PropFast ModelLinalg ProofLinalg SpecEngine ProofRadiosity ModelParams SpecParams ProofParams ModelIrr SpecIrr ProofIrr ModelAOI ModelEngine SpecRun ProofEngine PropEngine ProofRun PropRun PropAbs ProofHistory PropFastRun ProofEnergy PropLocal.
Import ListNotations.
Open Scope R_scope.

Lemma total_sum_over : forall (A : Type) (g : A -> R) l, sum_over l g = total g l.
Proof. intros A g l. rewrite sum_over_rsum, <- py_sum_rsum. apply total_py_sum. Qed.

Lemma total_const : forall (A : Type) (g h : A -> R) (x : R) l, (forall y, In y l -> h y = x) ->
  total (fun y => g y * h y) l = total g l * x.
Proof.
  intros A g h x l H. rewrite <- total_scal. apply total_eq. intros y I. rewrite (H y I). reflexivity.
Qed.

(** Light reflected by the surfaces seen from [s], by categories. *)
Lemma total_by_category : forall (a : fitted) (g h : ts_surface -> R) (gs gl ps pl b : R),
  (forall y, in_category a y (CGround true) -> h y = gs) ->
  (forall y, in_category a y (CGround false) -> h y = gl) ->
  (forall y j, in_category a y (CRow j false true) -> h y = ps) ->
  (forall y j, in_category a y (CRow j false false) -> h y = pl) ->
  (forall y j sh, in_category a y (CRow j true sh) -> h y = b) ->
  total (fun y => g y * h y) (all_ts_surfaces a) =
    total g (flat_map el_surfaces (gnd_shadows (ft_ground a))) * gs +
    total g (flat_map el_surfaces (gnd_illum (ft_ground a))) * gl +
    total g (flat_map (fun r => flat_map seg_shaded (side_segments (row_front r))) (ft_rows a)) * ps +
    total g (flat_map (fun r => flat_map seg_illum (side_segments (row_front r))) (ft_rows a)) * pl +
    total g (flat_map (fun r => side_surfaces (row_back r)) (ft_rows a)) * b.
Proof.
  intros a g h gs gl ps pl b H1 H2 H3 H4 H5. unfold all_ts_surfaces, gnd_surfaces. rewrite !total_app.
  rewrite (total_const _ g h gs) by (intros y I; apply H1; apply in_flat_map in I; exact I).
  rewrite (total_const _ g h gl) by (intros y I; apply H2; apply in_flat_map in I; exact I).
  assert (K : forall l, (forall row, In row l -> In row (ft_rows a)) ->
    total (fun y => g y * h y) (flat_map row_surfaces l) =
    total g (flat_map (fun r => flat_map seg_shaded (side_segments (row_front r))) l) * ps +
    total g (flat_map (fun r => flat_map seg_illum (side_segments (row_front r))) l) * pl +
    total g (flat_map (fun r => side_surfaces (row_back r)) l) * b).
  { induction l as [|row l IH]; intro L; cbn [flat_map]; [unfold total; cbn; ring|].
    rewrite !total_app, IH by (intros; apply L; right; assumption). unfold row_surfaces. rewrite !total_app.
    destruct (In_nth_error _ _ (L row (or_introl eq_refl))) as [j Hj].
    rewrite (total_const _ g h b (side_surfaces (row_back row))).
    2:{ intros y I. unfold side_surfaces in I. apply in_flat_map in I. destruct I as (sg & Is & Iy). unfold seg_surfaces in Iy. apply in_app_or in Iy.
        destruct Iy as [Iy|Iy]; [apply (H5 y j false) | apply (H5 y j true)]; exists row, sg; auto. }
    assert (F : forall m, (forall sg, In sg m -> In sg (side_segments (row_front row))) ->
      total (fun y => g y * h y) (flat_map seg_surfaces m) = total g (flat_map seg_shaded m) * ps + total g (flat_map seg_illum m) * pl).
    { induction m as [|sg m IHm]; intro M; cbn [flat_map]; [unfold total; cbn; ring|].
      rewrite !total_app, IHm by (intros; apply M; right; assumption). unfold seg_surfaces. rewrite !total_app.
      rewrite (total_const _ g h ps (seg_shaded sg)) by (intros y I; apply (H3 y j); exists row, sg; split; [exact Hj|]; split; [apply M; left; reflexivity | exact I]).
      rewrite (total_const _ g h pl (seg_illum sg)) by (intros y I; apply (H4 y j); exists row, sg; split; [exact Hj|]; split; [apply M; left; reflexivity | exact I]).
      ring. }
    unfold side_surfaces at 1. rewrite (F (side_segments (row_front row)) (fun _ I => I)). ring. }
  rewrite (K (ft_rows a) (fun _ I => I)). ring.
Qed.

Lemma value_eq : forall st s k t x y, value_at st s k t x -> x = y -> value_at st s k t y.
Proof. intros st s k t x y H <-. exact H. Qed.

Lemma chosen_back : forall e0 a r sg k s, chosen e0 a r sg k s ->
  exists row, nth_error (ft_rows a) k = Some row /\ In s (side_surfaces (row_back row)).
Proof.
  intros e0 a r sg k s (_ & row & seg & Hr & Is & Hg). exists row. split; [exact Hr|]. unfold side_surfaces. apply in_flat_map.
  exists seg. split; [destruct (match sg with Some j => Some j | None => en_fast_seg e0 end); [eapply nth_error_In; exact Hg | exact Hg]|].
  unfold in_segment in Is. unfold seg_surfaces. apply in_or_app. tauto.
Qed.

(** C78. In fast mode a surface of the back receives, besides its own light and the sky, what
    the surfaces that it sees in full mode reflect once of their [total_perez]. *)
Theorem C78_one_bounce : forall P e0 raw i a f r sg e1 e' k s t (rho perez : ts_surface -> R),
  fast_run P e0 raw i a f r sg e1 e' -> chosen e0 a r sg k s -> (t < ii_n i)%nat -> physical e0 i a t ->
  (forall y, In y (all_ts_surfaces a) -> no_sliver_length DISTANCE_TOLERANCE (s_length y t)) ->
  DISTANCE_TOLERANCE < s_length s t -> ground_in_reach (pv_params (en_array e0)) a t k (s_coords s t) ->
  let st := pv_store (en_array e') in
  let surfs := all_ts_surfaces a in
  (forall y, In y surfs -> value_at st y "rho" t (rho y) /\ value_at st y "total_perez" t (perez y)) ->
  let reflected := total (fun y => vf a t s y * (rho y * perez y)) surfs in
  exists src, light_sources (im_kind (en_irr e0)) st s t src /\
    value_at st s "qinc" t (src + vf_sky a t s * irr_sky_luminance f t + reflected) /\
    value_at st s "isotropic" t (vf_sky a t s * irr_sky_luminance f t) /\
    value_at st s "reflection" t reflected.
Proof.
  intros P e0 raw i a f r sg e1 e' k s t rho perez H C Ht [al SC] NSl Hl GR st surfs VA reflected.
  destruct (C25_fast_qinc P e0 raw i a f r sg e1 e' k s t H C) as (v & _ & Ev & Q).
  destruct (chosen_value _ _ _ _ _ _ _ _ _ _ H) as (rf & rb & FE & EI & S & Rf & _).
  destruct (chosen_back _ _ _ _ _ _ C) as (row & Hr & Hs).
  pose proof SC as (V & Fi & _).
  destruct (C18_surfaces_defined _ _ _ a t al k row s SC Hr Hs Hl) as [x Hx].
  { intro N. unfold ground_in_reach in GR. cbv zeta in GR. rewrite N in GR. exact GR. }
  destruct (C17_surface _ _ _ a t al k row s x SC Ht NSl Hr Hs Hl Hx) as (X1 & X2 & X3 & X4). destruct (X4 GR) as [X5 X6].
  assert (NP : ~ In "total_perez"%string run_keys) by (cbn; intuition discriminate).
  assert (NR : ~ In "rho"%string run_keys) by (cbn; intuition discriminate).
  assert (PZ : forall y c, in_category a y c -> rho y = cat_rho i rf rb c t /\ perez y = cat_perez f c t).
  { intros y c Cy. assert (Iy : In y surfs) by (apply (category_surface a y c Cy)).
    destruct (VA y Iy) as [V1 V2]. apply (value_back e1 e' y _ t _ S NR) in V1. apply (value_back e1 e' y _ t _ S NP) in V2.
    destruct V1 as (w1 & E1 & <-). destruct V2 as (w2 & E2 & <-).
    rewrite (key_rho _ _ _ _ _ _ _ FE y c Cy) in E1. rewrite (key_perez _ _ _ _ _ _ _ FE y c Cy) in E2.
    inversion E1. inversion E2. split; reflexivity. }
  destruct (categories_inhabited _ _ _ a V Fi (CGround true) I) as [y1 C1].
  destruct (categories_inhabited _ _ _ a V Fi (CGround false) I) as [y2 C2].
  assert (Hk : (k < pa_n_pvrows (pv_params (en_array e0)))%nat) by (apply (row_lt _ _ _ a Fi _ _ Hr)).
  destruct (categories_inhabited _ _ _ a V Fi (CRow k false true) Hk) as [y3 C3].
  destruct (categories_inhabited _ _ _ a V Fi (CRow k false false) Hk) as [y4 C4].
  assert (IN : forall y c, in_category a y c -> value_at st y "total_perez" t (perez y)) by (intros y c Cy; apply VA; apply (category_surface a y c Cy)).
  destruct (Q x rf y1 y2 y3 y4 k k _ _ _ _ ltac:(rewrite Ev; exact Hx) Rf C1 (IN _ _ C1) C2 (IN _ _ C2) C3 (IN _ _ C3) C4 (IN _ _ C4))
    as (src & LS & Q1 & Q2 & _ & _ & _ & _ & Q3 & _). clear Q.
  rewrite (proj2 (PZ _ _ C1)), (proj2 (PZ _ _ C2)), (proj2 (PZ _ _ C3)), (proj2 (PZ _ _ C4)) in Q1, Q2.
  assert (ER : reflected =
    to_gnd_shaded x * ii_albedo i t * cat_perez f (CGround true) t + to_gnd_illum x * ii_albedo i t * cat_perez f (CGround false) t +
    to_pvrow_shaded x * rf * cat_perez f (CRow k false true) t + to_pvrow_illum x * rf * cat_perez f (CRow k false false) t).
  { unfold reflected, surfs. rewrite (total_by_category a (fun y => vf a t s y) (fun y => rho y * perez y)
      (ii_albedo i t * cat_perez f (CGround true) t) (ii_albedo i t * cat_perez f (CGround false) t)
      (rf * cat_perez f (CRow k false true) t) (rf * cat_perez f (CRow k false false) t) 0).
    - rewrite !total_sum_over in X1, X2, X3, X5. unfold vf. rewrite <- X1, <- X2, <- X3, <- X5. ring.
    - intros y Cy. destruct (PZ _ _ Cy) as [-> ->]. reflexivity.
    - intros y Cy. destruct (PZ _ _ Cy) as [-> ->]. reflexivity.
    - intros y j Cy. destruct (PZ _ _ Cy) as [-> ->]. reflexivity.
    - intros y j Cy. destruct (PZ _ _ Cy) as [-> ->]. reflexivity.
    - intros y j sh Cy. destruct (PZ _ _ Cy) as [-> ->]. cbn. unfold zeros. ring. }
  unfold vf_sky. rewrite <- X6, ER. exists src. split; [exact LS|]. split; [|split].
  - eapply value_eq; [exact Q1|]. ring.
  - eapply value_eq; [exact Q3|]. ring.
  - eapply value_eq; [exact Q2|]. ring.
Qed.
Print Assumptions C78_one_bounce.

Lemma value_unique : forall st s k t x y, value_at st s k t x -> value_at st s k t y -> x = y.
Proof. intros st s k t x y (v & E & <-) (w & E' & <-). congruence. Qed.
Lemma sources_unique : forall k st s t x y, light_sources k st s t x -> light_sources k st s t y -> x = y.
Proof. intros k st s t x y H H'. rewrite <- (comps_sources _ _ _ _ _ H), <- (comps_sources _ _ _ _ _ H'). reflexivity. Qed.

(** The difference between the two modes comes from the light that the surfaces seen receive:
    [total_perez] in fast mode, the light of the balance in full mode. *)
Theorem C78_difference : forall P e0 raw i a f r sg e1 e' e'' k s t rr (rho perez q : ts_surface -> R) x,
  full_run P e0 raw i a f e'' -> fast_run P e0 raw i a f r sg e1 e' -> chosen e0 a r sg k s ->
  (t < ii_n i)%nat -> physical e0 i a t -> reflects e0 i t rr ->
  (forall y, In y (all_ts_surfaces a) -> no_sliver_length DISTANCE_TOLERANCE (s_length y t)) ->
  DISTANCE_TOLERANCE < s_length s t -> ground_in_reach (pv_params (en_array e0)) a t k (s_coords s t) ->
  (forall y, In y (all_ts_surfaces a) ->
     value_at (pv_store (en_array e'')) y "rho" t (rho y) /\
     value_at (pv_store (en_array e'')) y "total_perez" t (perez y) /\
     value_at (pv_store (en_array e'')) y "qinc" t (q y)) ->
  value_at (pv_store (en_array e')) s "qinc" t x ->
  x - q s = total (fun y => vf a t s y * (rho y * (perez y - q y))) (all_ts_surfaces a).
Proof.
  intros P e0 raw i a f r sg e1 e' e'' k s t rr rho perez q x FU FA C Ht PH RE NSl Hl GR VA Vx.
  pose proof FU as (V & Hi & (e & Fi & Ru) & A'' & F'').
  pose proof FA as (_ & _ & (eb & runs & Fib & RU & EX & RF) & A' & F').
  assert (eb = e) by congruence. subst eb.
  pose proof (run_full_same_fit _ _ Ru) as S0. pose proof (runs_same_fit _ _ _ _ RU EX) as S1. pose proof (run_fast_same_fit _ _ _ _ RF) as S2.
  assert (NP : ~ In "total_perez"%string run_keys) by (cbn; intuition discriminate).
  assert (NR : ~ In "rho"%string run_keys) by (cbn; intuition discriminate).
  assert (TR : forall y key z, ~ In key run_keys -> value_at (pv_store (en_array e'')) y key t z -> value_at (pv_store (en_array e')) y key t z).
  { intros y key z N H. apply (value_back e1 e' y key t z S2 N). apply (value_back e e1 y key t z S1 N). apply (value_back e e'' y key t z S0 N). exact H. }
  destruct (C78_one_bounce P e0 raw i a f r sg e1 e' k s t rho perez FA C Ht PH NSl Hl GR) as (src & LS & Q & _).
  { intros y Iy. destruct (VA y Iy) as (V1 & V2 & _). split; apply TR; assumption. }
  rewrite (value_unique _ _ _ _ _ _ Vx Q). clear Vx Q x.
  destruct (C19_radiosity_balance P e0 raw e e'' V Fi Ru) as (i' & a' & f' & rf & rb & Hi' & A2 & F2 & R1 & R2 & B).
  assert (i' = i) by congruence. assert (a' = a) by congruence. assert (f' = f) by congruence. subst i' a' f'.
  destruct RE as (RA & RB & RC).
  destruct (B t Ht ltac:(lra) ltac:(specialize (RA _ R1); lra) ltac:(specialize (RB _ R2); lra)) as (qi & rh & so & BA). clear B.
  assert (EQ : forall y, In y (all_ts_surfaces a) -> qi y = q y /\ rh y = rho y).
  { intros y Iy. destruct (VA y Iy) as (V1 & _ & V3). destruct (BA y Iy) as (W1 & W2 & _).
    split; eapply value_unique; eassumption. }
  destruct (chosen_back _ _ _ _ _ _ C) as (row & Hr & Hs).
  assert (Is : In s (all_ts_surfaces a)) by (apply (in_all_row a k row true s Hr Hs)).
  destruct (BA s Is) as (_ & _ & LS2 & E & _). destruct (EQ s Is) as [Es _]. rewrite Es in E.
  assert (ES : so s = src).
  { apply (sources_back e e'' _ _ _ _ S0) in LS2. apply (sources_back e1 e' _ _ _ _ S2) in LS. apply (sources_back e e1 _ _ _ _ S1) in LS.
    exact (sources_unique _ _ _ _ _ _ LS2 LS). }
  rewrite E, ES.
  assert (T1 : total (fun y => vf a t s y * (rh y * qi y)) (all_ts_surfaces a) = total (fun y => vf a t s y * (rho y * q y)) (all_ts_surfaces a)).
  { apply total_eq. intros y Iy. destruct (EQ y Iy) as [-> ->]. reflexivity. }
  cbv beta zeta. rewrite T1.
  rewrite (total_eq _ (fun y => vf a t s y * (rho y * (perez y - q y))) (fun y => vf a t s y * (rho y * perez y) - vf a t s y * (rho y * q y))) by (intros; ring).
  rewrite total_minus. ring.
Qed.
Print Assumptions C78_difference.

(** So the two modes are apart by at most the part of the view that is not sky, times the
    largest reflectivity, times the largest error on what a surface receives; fast mode is
    above full mode if [total_perez] is nowhere below what full mode finds, and they agree
    if it is the same. *)
Theorem C78_bounds : forall P e0 raw i a f r sg e1 e' e'' k s t rr (perez q : ts_surface -> R) x lo hi,
  full_run P e0 raw i a f e'' -> fast_run P e0 raw i a f r sg e1 e' -> chosen e0 a r sg k s ->
  (t < ii_n i)%nat -> physical e0 i a t -> reflects e0 i t rr ->
  (forall y, In y (all_ts_surfaces a) -> no_sliver_length DISTANCE_TOLERANCE (s_length y t)) ->
  DISTANCE_TOLERANCE < s_length s t -> ground_in_reach (pv_params (en_array e0)) a t k (s_coords s t) ->
  lo <= 0 <= hi ->
  (forall y, In y (all_ts_surfaces a) -> 
     value_at (pv_store (en_array e'')) y "total_perez" t (perez y) /\
     value_at (pv_store (en_array e'')) y "qinc" t (q y) /\
     (vf a t s y <> 0 -> lo <= perez y - q y <= hi)) ->
  value_at (pv_store (en_array e')) s "qinc" t x ->
  rr * (1 - vf_sky a t s) * lo <= x - q s <= rr * (1 - vf_sky a t s) * hi.
Proof.
  intros P e0 raw i a f r sg e1 e' e'' k s t rr perez q x lo hi FU FA C Ht PH RE NSl Hl GR LH VA Vx.
  pose proof FU as (V & Hi & (e & Fi & Ru) & A'' & F'').
  destruct (C19_radiosity_balance P e0 raw e e'' V Fi Ru) as (i' & a' & f' & rf & rb & Hi' & A2 & F2 & R1 & R2 & B).
  assert (i' = i) by congruence. assert (a' = a) by congruence. assert (f' = f) by congruence. subst i' a' f'.
  pose proof RE as (RA & RB & RC).
  destruct (B t Ht ltac:(lra) ltac:(specialize (RA _ R1); lra) ltac:(specialize (RB _ R2); lra)) as (qi & rho & so & BA). clear B.
  assert (D := C78_difference P e0 raw i a f r sg e1 e' e'' k s t rr rho perez q x FU FA C Ht PH RE NSl Hl GR).
  rewrite D; clear D; [|intros y Iy; destruct (VA y Iy) as (V1 & V2 & _); destruct (BA y Iy) as (_ & W & _); auto | exact Vx].
  assert (RR : forall y, In y (all_ts_surfaces a) -> 0 <= rho y <= rr).
  { intros y Iy. destruct (BA y Iy) as (_ & _ & _ & _ & _ & _ & _ & G1 & G2 & G3).
    destruct (category_exists a y Iy) as [[sh|j [] sh] Cy].
    - rewrite (G1 sh Cy). lra.
    - rewrite (G3 j sh Cy). specialize (RB _ R2). lra.
    - rewrite (G2 j sh Cy). specialize (RA _ R1). lra. }
  destruct (chosen_back _ _ _ _ _ _ C) as (row & Hr & Hs).
  assert (Is : In s (all_ts_surfaces a)) by (apply (in_all_row a k row true s Hr Hs)).
  pose proof (physical_nonneg _ _ _ _ PH) as PN.
  assert (N : forall y, In y (all_ts_surfaces a) -> 0 <= vf a t s y) by (intros y _; apply PN).
  assert (SUM : total (fun y => vf a t s y) (all_ts_surfaces a) = 1 - vf_sky a t s).
  { destruct PH as (al & V' & FT & _).
    assert (NF : no_film a t) by (intros y Iy; destruct (NSl y Iy) as [Z|Z]; [left | right]; lra).
    destruct (vf_closed _ _ _ a t V' FT NF s Is) as [Z|Z]; [pose proof DISTANCE_TOLERANCE_pos; lra|].
    rewrite (total_eq _ (fun y => vf a t s y) (fun y => vf a t s y * 1)) by (intros; ring). lra. }
  rewrite <- SUM. split.
  - replace (rr * total (fun y => vf a t s y) (all_ts_surfaces a) * lo) with (total (fun y => (rr * lo) * vf a t s y) (all_ts_surfaces a)) by (rewrite (total_mult _ (rr * lo) (fun y => vf a t s y)); ring).
    apply ProofEnergy.total_le. intros y Iy. specialize (N y Iy). specialize (RR y Iy). destruct (VA y Iy) as (_ & _ & K).
    destruct (Req_dec (vf a t s y) 0) as [-> | NZ]; [lra|]. specialize (K NZ).
    assert (rr * lo <= rho y * (perez y - q y)) by nra. nra.
  - replace (rr * total (fun y => vf a t s y) (all_ts_surfaces a) * hi) with (total (fun y => (rr * hi) * vf a t s y) (all_ts_surfaces a)) by (rewrite (total_mult _ (rr * hi) (fun y => vf a t s y)); ring).
    apply ProofEnergy.total_le. intros y Iy. specialize (N y Iy). specialize (RR y Iy). destruct (VA y Iy) as (_ & _ & K).
    destruct (Req_dec (vf a t s y) 0) as [-> | NZ]; [lra|]. specialize (K NZ).
    assert (rho y * (perez y - q y) <= rr * hi) by nra. nra.
Qed.
Print Assumptions C78_bounds.

(** The upper half of the back of the second of three rows, in an engine with the inputs of
    the examples, at the second timestep: full mode, then fast mode. *)
Lemma fx_upper : forall a, fit fx_p 2 ex_f = Some a ->
  exists row sg s, nth_error (ft_rows a) 1 = Some row /\ In sg (side_segments (row_back row)) /\ seg_illum sg = [s] /\
    DISTANCE_TOLERANCE < s_length s 1%nat /\ ground_in_reach fx_p a 1 1 (s_coords s 1%nat).
Proof.
  intros a Ha. pose proof (fx_rot a Ha) as R1. pose proof sqrt3 as S3. destruct (fx_scene a Ha) as (V & Fi & SA & NS & HR & HG & HF).
  destruct (fx_case a Ha 1 0 ltac:(lia) ltac:(cbn; lia)) as (row & sg & v & lo & Hrow & Hsg & _).
  destruct (C06_side_partition fx_p 2 ex_f a 1 1 row true V Fi HR Hrow) as [_ [_ SP]]. cbv beta iota in SP.
  destruct (SP 0%nat sg Hsg) as (il & sh & l & hi & m & E1 & _ & _ & _ & L0 & Lm & Lh & Lw & Ll & _ & Co & _).
  clear lo v. rewrite R1 in Ll, Co. destruct (Rlt_dec 0 (-60)); [lra|]. destruct (Co ltac:(lra)) as (_ & C & Em). clear Co.
  change (INR (pa_cut fx_p 1 true)) with 2 in *. change (pa_width fx_p) with 2 in *. change (pa_height fx_p) with 3 in *. cbn [INR] in Ll.
  assert (l = 1) by lra. assert (hi = 2) by lra. subst l hi.
  assert (M : m = 1).
  { pose proof (fx_shaded a Ha 1 row true Hrow) as Z. cbn [side_of] in Z. rewrite Em. minmax; lra. }
  clear Em. subst m. exists row, sg, il. split; [exact Hrow|]. split; [eapply nth_error_In; exact Hsg|]. split; [exact E1|].
  assert (D3 : pa_distance fx_p = 3) by (unfold pa_distance, fx_p; simpl; field).
  split.
  { unfold s_length. rewrite C. pose proof tol_small as T.
    pose proof (ProofRow.low_point_dist (INR 1 * pa_distance fx_p) 3 2 (-60) 1 2 ltac:(lra)) as E.
    change (DISTANCE_TOLERANCE < line_length (Line (ProofRow.low_point (INR 1 * pa_distance fx_p) 3 2 (-60) 1) (ProofRow.low_point (INR 1 * pa_distance fx_p) 3 2 (-60) 2))).
    rewrite E. lra. }
  assert (PP : forall i e, point_from_low_edge 2 (pa_distance fx_p) 3 (-60) i e =
     Pt (INR i * 3 + (1 - e) / 2) (3 - (1 - e) * (sqrt 3 / 2))).
  { intros i e. unfold point_from_low_edge, row_point. destruct (Rlt_dec 0 (-60)); [lra |]. rewrite D3.
    replace (-60 * PI / 180) with (- (PI / 3)) by field. rewrite sin_neg, cos_neg, sin_PI3, cos_PI3. f_equal; field. }
  assert (LL : looks_left (-60) true = true) by (unfold looks_left; destruct (Rlt_dec 0 (-60)); [lra | reflexivity]).
  assert (SS : sqrt 3 * sqrt 3 = 3) by (apply sqrt_sqrt; lra).
  unfold ground_in_reach. cbv zeta. rewrite R1, LL. cbn [neighbour_edge Nat.sub Nat.eqb].
  do 2 eexists. exists (3 + sqrt 3). split; [left; exact C|].
  rewrite ?R1. change (pa_width fx_p) with 2. change (pa_height fx_p) with 3. rewrite !PP. cbn [py px INR].
  split; [lra|]. unfold turn. cbv beta iota zeta. cbn [px py INR]. split; [nra|]. split; [lra | nra].
Qed.

Example C78_case : forall P kd, exists i a f e1 e' s,
  let e0 := fx_engine kd in
  full_run P e0 ex_raw i a f e1 /\ fast_run P e0 ex_raw i a f (Some 1%nat) None e1 e' /\
  chosen e0 a (Some 1%nat) None 1 s /\ (1 < ii_n i)%nat /\ physical e0 i a 1 /\ reflects e0 i 1 (1 / 5) /\
  (forall y, In y (all_ts_surfaces a) -> no_sliver_length DISTANCE_TOLERANCE (s_length y 1%nat)) /\
  DISTANCE_TOLERANCE < s_length s 1%nat /\ ground_in_reach (pv_params (en_array e0)) a 1 1 (s_coords s 1%nat) /\
  exists rho perez q x,
   (forall y, In y (all_ts_surfaces a) ->
     value_at (pv_store (en_array e1)) y "rho" 1 (rho y) /\
     value_at (pv_store (en_array e1)) y "total_perez" 1 (perez y) /\
     value_at (pv_store (en_array e1)) y "qinc" 1 (q y)) /\
   value_at (pv_store (en_array e')) s "qinc" 1 x /\
   x - q s = total (fun y => vf a 1 s y * (rho y * (perez y - q y))) (all_ts_surfaces a).
Proof.
  intros P kd. destruct (fx_engine_fit P kd ex_raw ex_raw_shaped) as [e Fi]. destruct (fx_full P kd e Fi) as [e1 Ru].
  destruct (fx_array P kd e Fi) as (a & A & F).
  destruct (engine_fit_fitted P (fx_engine kd) ex_raw e fx_valid Fi) as (i & a' & f & rf & rb & Hi & FE).
  assert (a' = a) by (pose proof (fe_array _ _ _ _ _ _ _ FE); congruence). subst a'.
  assert (EX : exec_all P e [RunFull] = Ok e1) by (cbn [exec_all exec]; rewrite Ru; reflexivity).
  destruct (fx_fast P kd ex_raw e fx_valid Fi [RunFull] e1 eq_refl EX) as [e' RF].
  pose proof (run_full_same_fit _ _ Ru) as S1. pose proof (run_fast_same_fit _ _ _ _ RF) as S2.
  destruct (fx_upper a F) as (row & sg & s & Hr & Hg & Es & Ls & GR).
  assert (FU : full_run P (fx_engine kd) ex_raw i a f e1).
  { split; [exact fx_valid|]. split; [exact Hi|]. split; [eauto|].
    rewrite (sf_fitted _ _ S1), (sf_irr_fitted _ _ S1). split; [exact A | exact (fe_irr_fitted _ _ _ _ _ _ _ FE)]. }
  assert (FA : fast_run P (fx_engine kd) ex_raw i a f (Some 1%nat) None e1 e').
  { split; [exact fx_valid|]. split; [exact Hi|]. split; [exists e, [RunFull]; auto|].
    rewrite (sf_fitted _ _ S2), (sf_irr_fitted _ _ S2), (sf_fitted _ _ S1), (sf_irr_fitted _ _ S1).
    split; [exact A | exact (fe_irr_fitted _ _ _ _ _ _ _ FE)]. }
  assert (CH : chosen (fx_engine kd) a (Some 1%nat) None 1 s).
  { split; [reflexivity|]. exists row, sg. split; [exact Hr|]. split; [unfold in_segment; rewrite Es; left; left; reflexivity | exact Hg]. }
  assert (N : (1 < ii_n i)%nat) by (inversion Hi; subst i; cbn; lia).
  assert (PH : physical (fx_engine kd) i a 1) by (inversion Hi; subst i; apply (physical_day _ _ _ _ (PI / 6)); exact (fx_scene a F)).
  assert (RE : reflects (fx_engine kd) i 1 (1 / 5)).
  { inversion Hi; subst i. split; [|split]; cbn; [intros r E; inversion E; lra | intros r E; inversion E; lra | lra]. }
  exists i, a, f, e1, e', s. cbv zeta. split; [exact FU|]. split; [exact FA|]. split; [exact CH|]. split; [exact N|]. split; [exact PH|].
  split; [exact RE|]. split; [exact (fx_no_slivers a F)|]. split; [exact Ls|]. split; [exact GR|].
  destruct (C19_radiosity_balance P (fx_engine kd) ex_raw e e1 fx_valid Fi Ru) as (i' & a' & f' & rf' & rb' & Hi' & A2 & F2 & R1 & R2 & B).
  assert (i' = i) by congruence. subst i'.
  assert (a' = a) by (destruct FU as (_ & _ & _ & X & _); congruence). subst a'.
  destruct RE as (RA & RB & RC).
  destruct (B 1%nat N ltac:(lra) ltac:(specialize (RA _ R1); lra) ltac:(specialize (RB _ R2); lra)) as (qi & rh & so & BA). clear B.
  assert (NP : ~ In "total_perez"%string run_keys) by (cbn; intuition discriminate).
  assert (VP : forall y, In y (all_ts_surfaces a) -> value_at (pv_store (en_array e1)) y "total_perez" 1 (num_of (pv_store (en_array e)) y "total_perez" 1%nat)).
  { intros y Iy. destruct (category_exists a y Iy) as [c Cy]. apply (value_back e e1 y _ 1%nat _ S1 NP).
    exists (cat_perez f c). pose proof (key_perez _ _ _ _ _ _ _ FE y c Cy) as K. split; [exact K|]. unfold num_of. rewrite K. reflexivity. }
  exists rh, (fun y => num_of (pv_store (en_array e)) y "total_perez" 1%nat), qi.
  destruct (C78_one_bounce P (fx_engine kd) ex_raw i a f (Some 1%nat) None e1 e' 1%nat s 1%nat rh
     (fun y => num_of (pv_store (en_array e)) y "total_perez" 1%nat) FA CH N PH (fx_no_slivers a F) Ls GR) as (src & _ & Q & _).
  { intros y Iy. assert (NR : ~ In "rho"%string run_keys) by (cbn; intuition discriminate).
    split; [apply (value_back e1 e' y _ 1%nat _ S2 NR); apply (BA y Iy) | apply (value_back e1 e' y _ 1%nat _ S2 NP); apply (VP y Iy)]. }
  eexists. assert (VA : forall y, In y (all_ts_surfaces a) ->
     value_at (pv_store (en_array e1)) y "rho" 1 (rh y) /\
     value_at (pv_store (en_array e1)) y "total_perez" 1 (num_of (pv_store (en_array e)) y "total_perez" 1%nat) /\
     value_at (pv_store (en_array e1)) y "qinc" 1 (qi y)).
  { intros y Iy. split; [apply (BA y Iy)|]. split; [apply (VP y Iy) | apply (BA y Iy)]. }
  split; [exact VA|]. split; [exact Q|].
  exact (C78_difference P (fx_engine kd) ex_raw i a f (Some 1%nat) None e1 e' e1 1%nat s 1%nat (1 / 5) rh _ qi _ FU FA CH N PH
    (conj RA (conj RB RC)) (fx_no_slivers a F) Ls GR VA Q).
Qed.

(** Fast mode is linear in the light too: if the [total_perez] of the surfaces, the sky and the
    sources of a surface are combined, so is the light it receives. *)
Theorem C72_fast : forall P e0 raw i f r sg e1 e' P1 e01 raw1 i1 f1 r1 sg1 e11 e1' P2 e02 raw2 i2 f2 r2 sg2 e12 e2'
    a k s t x y (perez perez1 perez2 : ts_surface -> R) src src1 src2 q q1 q2,
  fast_run P e0 raw i a f r sg e1 e' -> fast_run P1 e01 raw1 i1 a f1 r1 sg1 e11 e1' -> fast_run P2 e02 raw2 i2 a f2 r2 sg2 e12 e2' ->
  chosen e0 a r sg k s -> chosen e01 a r1 sg1 k s -> chosen e02 a r2 sg2 k s ->
  get_vf_ts_pvrow_element k (s_coords s) (ft_rows a) (ft_ground a) (ft_rotation a) (ft_width a) t <> None ->
  ii_albedo i1 t = ii_albedo i t -> ii_albedo i2 t = ii_albedo i t ->
  im_rho_front (en_irr e01) = im_rho_front (en_irr e0) -> im_rho_front (en_irr e02) = im_rho_front (en_irr e0) ->
  let st := pv_store (en_array e') in let st1 := pv_store (en_array e1') in let st2 := pv_store (en_array e2') in
  (forall y, In y (all_ts_surfaces a) -> value_at st y "total_perez" t (perez y) /\
     value_at st1 y "total_perez" t (perez1 y) /\ value_at st2 y "total_perez" t (perez2 y)) ->
  light_sources (im_kind (en_irr e0)) st s t src -> light_sources (im_kind (en_irr e01)) st1 s t src1 ->
  light_sources (im_kind (en_irr e02)) st2 s t src2 ->
  value_at st s "qinc" t q -> value_at st1 s "qinc" t q1 -> value_at st2 s "qinc" t q2 ->
  (forall z, In z (all_ts_surfaces a) -> perez2 z = x * perez z + y * perez1 z) ->
  irr_sky_luminance f2 t = x * irr_sky_luminance f t + y * irr_sky_luminance f1 t ->
  src2 = x * src + y * src1 ->
  q2 = x * q + y * q1.
Proof.
  intros P e0 raw i f r sg e1 e' P1 e01 raw1 i1 f1 r1 sg1 e11 e1' P2 e02 raw2 i2 f2 r2 sg2 e12 e2'
    a k s t x y perez perez1 perez2 src src1 src2 q q1 q2 H H1 H2 C C1 C2 VN AL1 AL2 RF1 RF2 st st1 st2 VA LS LS1 LS2 Q Q1 Q2 PZ SK SR.
  destruct (get_vf_ts_pvrow_element k (s_coords s) (ft_rows a) (ft_ground a) (ft_rotation a) (ft_width a) t) as [v|] eqn:Hv; [clear VN | congruence].
  assert (G : forall P e0 raw i f r sg e1 e' perez src q, fast_run P e0 raw i a f r sg e1 e' -> chosen e0 a r sg k s ->
    (forall y, In y (all_ts_surfaces a) -> value_at (pv_store (en_array e')) y "total_perez" t (perez y)) ->
    light_sources (im_kind (en_irr e0)) (pv_store (en_array e')) s t src -> value_at (pv_store (en_array e')) s "qinc" t q ->
    exists rf, im_rho_front (en_irr e0) = Some rf /\ forall y1 y2 y3 y4 j3 j4,
      in_category a y1 (CGround true) -> in_category a y2 (CGround false) -> in_category a y3 (CRow j3 false true) -> in_category a y4 (CRow j4 false false) ->
      q = to_gnd_shaded v * ii_albedo i t * perez y1 + to_gnd_illum v * ii_albedo i t * perez y2 + to_pvrow_shaded v * rf * perez y3 +
          to_pvrow_illum v * rf * perez y4 + to_sky v * irr_sky_luminance f t + src).
  { clear - Hv. intros P e0 raw i f r sg e1 e' perez src q H C VA LS Q.
    destruct (chosen_value _ _ _ _ _ _ _ _ _ _ H) as (rf & rb & _ & _ & _ & Rf & _). exists rf. split; [exact Rf|].
    destruct (C25_fast_qinc P e0 raw i a f r sg e1 e' k s t H C) as (w & _ & Ew & X).
    intros y1 y2 y3 y4 j3 j4 C1 C2 C3 C4.
    assert (IN : forall y c, in_category a y c -> value_at (pv_store (en_array e')) y "total_perez" t (perez y)) by (intros y c Cy; apply VA; apply (category_surface a y c Cy)).
    destruct (X v rf y1 y2 y3 y4 j3 j4 _ _ _ _ ltac:(rewrite Ew; exact Hv) Rf C1 (IN _ _ C1) C2 (IN _ _ C2) C3 (IN _ _ C3) C4 (IN _ _ C4)) as (src' & LS' & Q' & _).
    rewrite (value_unique _ _ _ _ _ _ Q Q'), (sources_unique _ _ _ _ _ _ LS LS'). reflexivity. }
  destruct (G _ _ _ _ _ _ _ _ _ perez src q H C (fun y I => proj1 (VA y I)) LS Q) as (rf & Rf & E).
  destruct (G _ _ _ _ _ _ _ _ _ perez1 src1 q1 H1 C1 (fun y I => proj1 (proj2 (VA y I))) LS1 Q1) as (rf1 & Rf1 & E1).
  destruct (G _ _ _ _ _ _ _ _ _ perez2 src2 q2 H2 C2 (fun y I => proj2 (proj2 (VA y I))) LS2 Q2) as (rf2 & Rf2 & E2).
  assert (rf1 = rf) by congruence. assert (rf2 = rf) by congruence. subst rf1 rf2.
  destruct (chosen_value _ _ _ _ _ _ _ _ _ _ H) as (rf' & rb' & FE & _).
  pose proof (categories_inhabited _ _ _ _ (fe_valid _ _ _ _ _ _ _ FE) (fe_fit _ _ _ _ _ _ _ FE)) as CI.
  assert (N0 : (0 < pa_n_pvrows (pv_params (en_array e1)))%nat) by apply (fe_valid _ _ _ _ _ _ _ FE).
  destruct (CI (CGround true) I) as [y1 K1]. destruct (CI (CGround false) I) as [y2 K2].
  destruct (CI (CRow 0 false true) N0) as [y3 K3]. destruct (CI (CRow 0 false false) N0) as [y4 K4].
  rewrite (E y1 y2 y3 y4 _ _ K1 K2 K3 K4), (E1 y1 y2 y3 y4 _ _ K1 K2 K3 K4), (E2 y1 y2 y3 y4 _ _ K1 K2 K3 K4), SK, SR, AL1, AL2.
  rewrite !PZ by (eapply category_surface; eassumption). ring.
Qed.
Print Assumptions C72_fast.

(** The fast run of [C78_case] as a mixture of itself and itself. *)
Example C72_fast_case : forall P kd, exists i a f e1 e' s perez src q,
  let e0 := fx_engine kd in let st := pv_store (en_array e') in
  fast_run P e0 ex_raw i a f (Some 1%nat) None e1 e' /\ chosen e0 a (Some 1%nat) None 1 s /\
  get_vf_ts_pvrow_element 1 (s_coords s) (ft_rows a) (ft_ground a) (ft_rotation a) (ft_width a) 1 <> None /\
  (forall y, In y (all_ts_surfaces a) -> value_at st y "total_perez" 1 (perez y)) /\
  light_sources kd st s 1 src /\ value_at st s "qinc" 1 q /\
  (forall y, In y (all_ts_surfaces a) -> perez y = 1 / 4 * perez y + 3 / 4 * perez y).
Proof.
  intros P kd.
  destruct (C78_case P kd) as (i & a & f & e1 & e' & s & FU & FA & CH & N & PH & RE & NS & Ls & GR & rho & perez & q & x & VA & Q & _).
  assert (S : same_fit e1 e') by (destruct FA as (_ & _ & (e & runs & _ & _ & _ & RF) & _); exact (run_fast_same_fit _ _ _ _ RF)).
  assert (NP : ~ In "total_perez"%string run_keys) by (cbn; intuition discriminate).
  assert (VP : forall y, In y (all_ts_surfaces a) -> value_at (pv_store (en_array e')) y "rho" 1 (rho y) /\ value_at (pv_store (en_array e')) y "total_perez" 1 (perez y)).
  { intros y Iy. destruct (VA y Iy) as (V1 & V2 & _). split.
    - apply (value_back e1 e' y _ 1%nat _ S); [cbn; intuition discriminate|exact V1].
    - apply (value_back e1 e' y _ 1%nat _ S); [exact NP|exact V2]. }
  destruct (C78_one_bounce P (fx_engine kd) ex_raw i a f (Some 1%nat) None e1 e' 1%nat s 1%nat rho perez FA CH N PH NS Ls GR VP) as (src & LS & Q' & _).
  exists i, a, f, e1, e', s, perez, src, x. cbv zeta. split; [exact FA|]. split; [exact CH|].
  split.
  { destruct PH as [al SC]. destruct (chosen_back _ _ _ _ _ _ CH) as (row & Hr & Hs).
    destruct (C18_surfaces_defined _ _ _ a 1%nat al 1%nat row s SC Hr Hs Ls) as [v Hv]; [|congruence].
    intro Nn. unfold ground_in_reach in GR. cbv zeta in GR. rewrite Nn in GR. exact GR. }
  split; [exact (fun y Iy => proj2 (VP y Iy))|]. split; [exact LS|]. split; [exact Q|]. intros; lra.
Qed.
