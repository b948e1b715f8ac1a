(** View factors from the ground to the sky in full mode, against integrals over the
    directions in which nothing is in the way. *)
From Coq Require Import Reals List Bool Arith String Lra Lia Permutation.
From Coquelicot Require Import Coquelicot.
From Verif Require Import Num ModelTs ModelGeom ModelVF Basics SpecGeom SpecVF SpecSight ProofSight ProofSkyView ProofGroundSky ProofShade ProofRow ProofAngles ProofFit ProofIndex ProofGeom ProofGeom2 PropGeom ProofString ProofMatrix ProofTele ProofVF ProofVF2 PropVF ProofFast PropFast SpecParams ProofParams SpecRun ProofEngine ProofRun ProofEnergy PropModes PropZones PropSight.
Import ListNotations.
Open Scope R_scope.

Lemma sky_view_opaque : forall p n f a t al x nx v, scene p n f a t al ->
  sky_view (Op (pa_n_pvrows p) (- (pa_width p / 2) * up_x (ft_rotation a t)) (pa_height p - pa_width p / 2 * up_y (ft_rotation a t))
    (up_x (ft_rotation a t)) (up_y (ft_rotation a t)) (pa_distance p) (pa_width p)) x nx v ->
  sky_view (opaque_array p a t) x nx v.
Proof.
  intros p n f a t al x nx v SC (F & A & B). exists F. split; [|exact B]. intros s S. destruct (A s S) as (g & G & I). exists g. split; [|exact I].
  intros th T. destruct (G th T) as [G1 G2].
  assert (E : sees_sky (opaque_array p a t) (point_at x s) nx th <-> sees_sky (Op (pa_n_pvrows p) (- (pa_width p / 2) * up_x (ft_rotation a t))
     (pa_height p - pa_width p / 2 * up_y (ft_rotation a t)) (up_x (ft_rotation a t)) (up_y (ft_rotation a t)) (pa_distance p) (pa_width p)) (point_at x s) nx th).
  { unfold sees_sky. split; intros [H1 H2]; (split; [exact H1|]); intros r R Z; apply (H2 r R); apply (opaque_eq p a t); exact Z. }
  rewrite E. split; assumption.
Qed.

Lemma rows_upto : forall (A : Type) (h : A -> R) (v : nat -> R) l, (forall j x, nth_error l j = Some x -> h x = v j) ->
  total h l = upto v (List.length l).
Proof.
  intros A h v l. induction l as [|x l IH] using rev_ind; intro H; [reflexivity|].
  rewrite total_app, app_length, Nat.add_1_r. cbn [total upto]. rewrite IH.
  - rewrite (H (List.length l) x); [ring|]. rewrite nth_error_app2, Nat.sub_diag by lia. reflexivity.
  - intros j y E. apply H. rewrite nth_error_app1; [exact E | apply nth_error_Some; congruence].
Qed.

(** C90: the part of the view of a ground surface that goes to the sky in full mode is the mean,
    over its points, of half of the integral of the cosine over the directions in which no row
    is in the way. *)
Theorem C90_ground : forall p n f a t al y,
  scene p n f a t al -> (t < n)%nat -> no_slivers_now a t ->
  In y (gnd_surfaces (ft_ground a)) -> DISTANCE_TOLERANCE < s_length y t ->
  sky_view (opaque_array p a t) (s_coords y t) (0, 1) (vf_sky a t y).
Proof.
  intros p n f a t al y SC Ht NSl Hy Ly. pose proof SC as (V & Fi & SA & NS & HR & HG & HF). pose proof DISTANCE_TOLERANCE_pos as T0.
  destruct (facts p n f a t al SC) as (F1 & F2 & F3 & F4 & F5 & F6 & _).
  set (r := ft_rotation a t) in *. set (w := pa_width p) in *. set (D := pa_distance p) in *. set (ux := up_x r) in *. set (uy := up_y r) in *.
  set (L0 := - (w / 2) * ux) in *. set (Lly := pa_height p - w / 2 * uy) in *. set (N := pa_n_pvrows p) in *.
  assert (LN : List.length (ft_rows a) = N) by (rewrite (fit_rows_at _ _ _ _ Fi); apply fit_rows_length).
  assert (LR : forall j, (j < N)%nat -> exists left, In y (gnd_side_of_cut_point (ft_ground a) left j)).
  { intros j J. destruct (fit_left_right p n f a t al j V Fi SA NS HR HG J) as (cut & _ & _ & _ & PM & _).
    pose proof (Permutation_in y PM Hy) as Q. apply in_app_or in Q. destruct Q; [exists true | exists false]; assumption. }
  destruct (gnd_shape p n f a t al V Fi SA NS HR HG y Hy) as (Sy & G1 & G2 & _ & _).
  set (g1 := px (b1 (s_coords y t))) in *. set (g2 := px (b2 (s_coords y t))) in *. clearbody g1 g2.
  change (s_coords y t = Line (gr g1) (gr g2)) in Sy. assert (G : g1 < g2) by lra.
  set (zm := (g1 + g2) / 2). set (lf := fun j => if Rlt_dec (Mz L0 Lly ux uy D j zm) 0 then true else false).
  assert (SD : forall j, (j < N)%nat -> In y (gnd_side_of_cut_point (ft_ground a) (lf j) j) /\ forall z, g1 < z < g2 -> 0 < dirn (lf j) * Mz L0 Lly ux uy D j z).
  { intros j J. destruct (LR j J) as [left Hl]. destruct (ground_ahead p n f a t al SC j left y J Hl ltac:(lra)) as (h1 & h2 & Sy' & _ & _ & Gz).
    rewrite Sy in Sy'. pose proof (f_equal (fun l => px (b1 l)) Sy') as E1. pose proof (f_equal (fun l => px (b2 l)) Sy') as E2. cbn in E1, E2. subst h1 h2.
    assert (E : lf j = left).
    { specialize (Gz zm ltac:(unfold zm; lra)). unfold lf. fold r w D ux uy L0 Lly in Gz. destruct (Rlt_dec (Mz L0 Lly ux uy D j zm) 0) as [C|C]; destruct left; cbn [dirn] in Gz; try reflexivity; exfalso; lra. }
    rewrite E. split; [exact Hl | exact Gz]. }
  pose proof (ground_sky N L0 Lly ux uy D w F1 F2 F3 F4 F5 F6 lf (fun j => neighbour_edge p a t (lf j) j) g1 g2 G) as K.
  specialize (K ltac:(intros j J; apply (neighbour_next p n a t Ht _ j J)) (fun j J => proj2 (SD j J))).
  rewrite Sy. apply (sky_view_opaque p n f a t al _ _ _ SC). fold r w D ux uy L0 Lly N.
  match type of K with sky_view _ _ _ ?v => replace (vf_sky a t y) with v; [exact K|] end. clear K.
  assert (NF : no_film a t) by exact NSl.
  destruct (vf_closed p n f a t V Fi NF y (in_all_gnd _ _ Hy)) as [Z|Z]; [lra|].
  assert (E : total (fun x => vf a t y x * 1) (all_ts_surfaces a) = upto (fun j => w / (g2 - g1) * hottel_ground (lf j) (neighbour_edge p a t (lf j) j) (Pr L0 Lly ux uy D j 0) (Pr L0 Lly ux uy D j w) (gr g1) (gr g2)) N); [|lra].
  unfold all_ts_surfaces. rewrite total_app, total_flat.
  rewrite (total_ext _ _ (fun _ => 0)) by (intros x Hx; unfold vf; rewrite (C15_ground p n f a t y x V Fi Hy Hx); ring).
  rewrite total_zero, Rplus_0_l, <- LN. apply rows_upto. intros j row Hr.
  assert (J : (j < N)%nat) by exact (row_lt p n f a Fi _ _ Hr).
  unfold row_surfaces. rewrite total_app.
  assert (RC : forall b : bool, total (fun x => vf a t y x * 1) (side_surfaces (if b then row_back row else row_front row)) =
     sum_over (side_surfaces (if b then row_back row else row_front row)) (fun x => s_length x t * vf a t x y) / (g2 - g1)).
  { intro b. rewrite total_sum_over. unfold Rdiv. rewrite <- total_scal. apply total_ext. intros x Hx.
    pose proof (vf_reciprocal p n f a t V Fi NF y x (in_all_gnd _ _ Hy) (in_all_row _ _ _ _ _ Hr Hx)) as Q.
    rewrite <- Q, G2. field. lra. }
  rewrite (RC false), (RC true).
  pose proof (fun b => C84_side_ground p n f a t al j row b (lf j) y SC Ht NSl Hr (proj1 (SD j J))) as C. cbv zeta in C.
  rewrite (C false), (C true). clear C RC. rewrite Sy. cbn [b1 b2].
  unfold on_row. fold w D r. 
  assert (PE : forall e, point_from_low_edge w D (pa_height p) r j e = Pr L0 Lly ux uy D j e) by (intro e; exact (PQ p a t j e)).
  rewrite !PE. set (h := hottel_ground _ _ _ _ _ _).
  assert (LK : looks_left r true = negb (looks_left r false)) by (unfold looks_left; destruct (Rlt_dec 0 r); reflexivity).
  rewrite LK. destruct (lf j), (looks_left r false); cbn [Bool.eqb negb]; field; lra.
Qed.
Print Assumptions C90_ground.

(** It is the only such number. *)
Theorem C90_unique : forall p n f a t al y v,
  scene p n f a t al -> (t < n)%nat -> no_slivers_now a t ->
  In y (gnd_surfaces (ft_ground a)) -> DISTANCE_TOLERANCE < s_length y t ->
  (sky_view (opaque_array p a t) (s_coords y t) (0, 1) v <-> v = build_vf_matrix a t (surf_index a y) (n_ts_surfaces a)).
Proof.
  intros p n f a t al y v SC Ht NSl Hy Ly. pose proof (C90_ground p n f a t al y SC Ht NSl Hy Ly) as E.
  split; [intro H; exact (sky_view_unique _ _ _ _ _ H E) | intros ->; exact E].
Qed.
Print Assumptions C90_unique.

(** Where the sky is seen between two angles, this is the notion of C86. *)
Lemma sky_factor_view : forall O x nx v, sky_factor O x nx v -> sky_view O x nx v.
Proof.
  intros O x nx v (F & A & B). exists F. split; [|exact B]. intros s S. destruct (A s S) as (t1 & t2 & T1 & T2 & SEE & I).
  set (q := point_at x s) in *. pose proof PI_RGT_0 as P0.
  set (c := fun th => (fst nx * cos th + snd nx * sin th) / 2) in *.
  exists (fun th => if ClassicalDedekindReals.sig_not_dec (sees_sky O q nx th) then c th else 0). split.
  - intros th _. destruct (ClassicalDedekindReals.sig_not_dec (sees_sky O q nx th)) as [N|N]; split; intro H; try reflexivity; contradiction.
  - replace (F s) with (plus (plus 0 (F s)) 0) by (unfold plus; cbn; ring).
    assert (Z : forall a b, 0 <= a <= b -> b <= PI -> (forall th, a < th < b -> th < t1 \/ t2 < th) ->
       is_RInt (fun th => if ClassicalDedekindReals.sig_not_dec (sees_sky O q nx th) then c th else 0) a b 0).
    { intros a b AB BP OUT. apply (is_RInt_ext (V := R_NormedModule) (fun _ => 0)).
      - rewrite Rmin_left, Rmax_right by lra. intros th T. specialize (OUT th T). destruct (ClassicalDedekindReals.sig_not_dec (sees_sky O q nx th)) as [N|N]; [|reflexivity].
        exfalso. apply N. intro K. apply (SEE th) in K; lra.
      - pose proof (is_RInt_const (V := R_NormedModule) a b (0 : R)) as K.
        change (is_RInt (fun _ : R => 0) a b ((b - a) * 0)) in K. rewrite Rmult_0_r in K. exact K. }
    apply (is_RInt_Chasles (V := R_NormedModule) _ 0 t2 PI); [apply (is_RInt_Chasles (V := R_NormedModule) _ 0 t1 t2)|].
    + apply Z; try lra. intros; lra.
    + eapply (is_RInt_ext (V := R_NormedModule)); [|exact I]. rewrite Rmin_left, Rmax_right by lra. intros th T.
      destruct (ClassicalDedekindReals.sig_not_dec (sees_sky O q nx th)) as [N|N]; [reflexivity|]. exfalso. apply N. apply (SEE th); lra.
    + apply Z; try lra. intros; lra.
Qed.

(** The definition on a known case: a point of open ground sees the whole sky. *)
Example C90_open : sky_of_point (fun z => py z <= 0) (Pt 0 0) (0, 1) 1.
Proof.
  exists (fun th => sin th / 2). split; [|exact half_turn].
  intros th T. cbn [fst snd]. split; [intros _; field|]. intro N. exfalso. apply N. pose proof (sin_gt_0 th ltac:(lra) ltac:(lra)) as S0.
  split; [cbn [fst snd]; lra|]. intros r R. cbn [py px]. assert (0 < r * sin th) by (apply Rmult_lt_0_compat; assumption). lra.
Qed.

(** There are wide ground surfaces. *)
Lemma wide_ground : forall p n f a t al, scene p n f a t al -> (t < n)%nat -> (0 < pa_n_pvrows p)%nat -> no_slivers_now a t ->
  exists y, In y (gnd_surfaces (ft_ground a)) /\ DISTANCE_TOLERANCE < s_length y t.
Proof.
  intros p n f a t al SC Ht N0 NSl. pose proof SC as (V & Fi & SA & NS & HR & HG & HF).
  destruct (Exists_dec (fun y => DISTANCE_TOLERANCE < s_length y t) (gnd_surfaces (ft_ground a)) (fun y => Rlt_dec _ _)) as [E|E].
  { apply Exists_exists in E. exact E. }
  exfalso.
  assert (Z : forall left, rsum (map (fun s => px (b2 (s_coords s t)) - px (b1 (s_coords s t))) (gnd_side_of_cut_point (ft_ground a) left 0)) = 0).
  { intro left. rewrite <- (rsum_zeros _ (gnd_side_of_cut_point (ft_ground a) left 0)). apply rsum_map_ext. intros s Hs.
    pose proof (in_gnd_side _ _ _ _ _ _ _ Fi N0 Hs) as Gs. destruct (gnd_shape p n f a t al V Fi SA NS HR HG s Gs) as (_ & _ & G2 & _).
    destruct (NSl s (in_all_gnd _ _ Gs)) as [K|K]; [lra|]. exfalso. apply E. apply Exists_exists. exists s. split; [exact Gs | lra]. }
  pose proof (gnd_telescope p n f a t al V Fi SA NS HR HG 0 true (fun x => x) N0) as T1. pose proof (gnd_telescope p n f a t al V Fi SA NS HR HG 0 false (fun x => x) N0) as T2.
  cbv beta in T1, T2. rewrite (Z true) in T1. rewrite (Z false) in T2. unfold MIN_X_GROUND, MAX_X_GROUND in *. lra.
Qed.

Example C90_example : forall a, fit fx_p 2 ex_f = Some a ->
  scene fx_p 2 ex_f a 1 (PI / 6) /\ no_slivers_now a 1 /\
  exists y, In y (gnd_surfaces (ft_ground a)) /\ DISTANCE_TOLERANCE < s_length y 1%nat.
Proof.
  intros a F. pose proof (fx_scene a F) as SC. assert (NS : no_slivers_now a 1) by exact (fx_no_slivers a F).
  split; [exact SC|]. split; [exact NS|]. exact (wide_ground _ _ _ _ _ _ SC ltac:(lia) ltac:(cbn; lia) NS).
Qed.
