(** What a module surface sees of the sky (C75): statements, with examples that meet the
    hypotheses. *)
From Coq Require Import Reals List Bool Arith Lra Lia.
From Verif Require Import Num Basics ModelTs ModelGeom ModelVF SpecGeom SpecVF ProofGround ProofShade ProofRow ProofAngles ProofString ProofFit ProofGeom ProofGeom2
  ProofCut ProofTele ProofMatrix ProofVF ProofVF2 ProofEnds ProofFast PropGeom PropVF PropFast ProofOpen.
Import ListNotations.
Open Scope R_scope.

(** Part of the light that leaves the piece [A B] of a row, with [B] the upper end, above
    the directions towards [T] (difference of two strings). *)
Definition seen_above (A B T : pt) : R := (euclid A B + euclid B T - euclid A T) / (2 * euclid A B).

(** The same above an unlimited flat ground, for the front or the back of a row. *)
Definition seen_above_horizon (is_back : bool) (rotation : R) : R :=
  (1 + (if is_back then -1 else 1) * cos (rotation * PI / 180)) / 2.

(** A surface [x] of side [b] of row [i], with lower end [A] and upper end [B] at timestep
    [t], on a line that meets the ground at abscissa [c]. *)
Definition sky_case (p : pvarray_params) (n : nat) (f : fit_inputs) (a : fitted) (t : nat) (al : R)
    (i : nat) (row : ts_pvrow) (b : bool) (x : ts_surface) (A B : pt) (c : R) : Prop :=
  scene p n f a t al /\
  nth_error (ft_rows a) i = Some row /\ In x (side_surfaces (if b then row_back row else row_front row)) /\
  DISTANCE_TOLERANCE < s_length x t /\
  (s_coords x t = Line A B \/ s_coords x t = Line B A) /\ py A <= py B /\ turn (Pt c 0) A B = 0.
Definition no_slivers_at (n : nat) (a : fitted) (t : nat) : Prop :=
  (t < n)%nat /\ forall s, In s (all_ts_surfaces a) -> no_sliver_length DISTANCE_TOLERANCE (s_length s t).

(** Far end of the ground on the side looked at. *)
Definition ground_end (left : bool) : pt := Pt (if left then -100 else 100) 0.

Ltac open_case H :=
  destruct H as ((V & Fi & SA & NS & HR & HG & HF) & Hr & Hx & Lx & HAB & Hy & Hc).

(** No row on the side looked at: the sky begins where the ground ends, below the horizon. *)
Theorem C75_edge : forall p n f a t al i row b x A B c,
  sky_case p n f a t al i row b x A B c -> no_slivers_at n a t -> -100 <= c <= 100 ->
  let left := looks_left (ft_rotation a t) b in
  neighbour_edge p a t left i = None ->
  let sky := build_vf_matrix a t (surf_index a x) (n_ts_surfaces a) in
  sky = seen_above A B (ground_end left) /\ seen_above_horizon b (ft_rotation a t) < sky.
Proof.
  intros p n f a t al i row b x A B c H [Ht NSl] Bc left E sky. open_case H.
  assert (Q : sky = seen_above A B (ground_end left)).
  { exact (open_free p n f a t al V Fi SA NS HR HG HF i row b x Hr Hx Lx A B c HAB Hy Hc Ht NSl Bc E). }
  split; [exact Q |]. rewrite Q.
  exact (open_beyond p n f a t V Fi HR HG i row b x Hr Hx Lx A B c HAB Hy Hc Bc).
Qed.
Print Assumptions C75_edge.

(** A row on the side looked at, whose lower edge hides the end of the ground: the sky
    begins at its upper edge, above the horizon. *)
Theorem C75_between : forall p n f a t al i row b x A B c o,
  sky_case p n f a t al i row b x A B c -> no_slivers_at n a t -> -100 <= c <= 100 ->
  let left := looks_left (ft_rotation a t) b in
  neighbour_edge p a t left i = Some o ->
  0 <= (if left then turn (ground_end left) o A else turn (ground_end left) A o) ->
  let sky := build_vf_matrix a t (surf_index a x) (n_ts_surfaces a) in
  (forall j, (if left then i = S j else j = S i) ->
   sky = seen_above A B (point_from_low_edge (pa_width p) (pa_distance p) (pa_height p) (ft_rotation a t) j (pa_width p))) /\
  sky < seen_above_horizon b (ft_rotation a t).
Proof.
  intros p n f a t al i row b x A B c o H [Ht NSl] Bc left E Hid sky. open_case H.
  destruct (open_between p n f a t al V Fi SA NS HR HG HF i row b x Hr Hx Lx A B c HAB Hy Hc o Ht NSl Bc E) as [_ Q].
  pose proof (open_hidden p n f a t V Fi HR HG i row b x Hr Hx Lx A B c HAB Hy Hc o E Hid) as Z.
  fold left in Q, Z. rewrite Z in Q. fold sky in Q.
  destruct (open_neighbour p n f a t Fi i row b Hr o E) as [Eg _]. fold left in Eg.
  assert (Q' : sky = seen_above A B (RP p a t (next left i) (pa_width p))).
  { unfold seen_above. rewrite Q. unfold Rdiv. ring. }
  split.
  - intros j J. rewrite Q', RP_point. replace (next left i) with j; [reflexivity |].
    unfold next. destruct left; lia.
  - rewrite Q'. exact (open_below p n f a t V Fi HR HG HF i row b x Hr Hx Lx A B c HAB Hy Hc Eg).
Qed.
Print Assumptions C75_between.

(** In general the end of the ground, where it is in sight under the lower edge of the next
    row, adds to it. *)
Theorem C75_gap : forall p n f a t al i row b x A B c o j,
  sky_case p n f a t al i row b x A B c -> no_slivers_at n a t -> -100 <= c <= 100 ->
  let left := looks_left (ft_rotation a t) b in
  neighbour_edge p a t left i = Some o -> (if left then i = S j else j = S i) ->
  let T := point_from_low_edge (pa_width p) (pa_distance p) (pa_height p) (ft_rotation a t) j (pa_width p) in
  let under := (taut_string left (Some o) B (ground_end left) - taut_string left (Some o) A (ground_end left)
                - (euclid B o - euclid A o)) / 2 in
  0 <= under /\
  build_vf_matrix a t (surf_index a x) (n_ts_surfaces a) = seen_above A B T + under / euclid A B.
Proof.
  intros p n f a t al i row b x A B c o j H [Ht NSl] Bc left E J T under. open_case H.
  destruct (open_between p n f a t al V Fi SA NS HR HG HF i row b x Hr Hx Lx A B c HAB Hy Hc o Ht NSl Bc E) as [G Q].
  split; [exact G |]. rewrite Q. unfold seen_above, T. fold left. rewrite RP_point.
  replace (next left i) with j; [reflexivity |]. unfold next. destruct left; lia.
Qed.
Print Assumptions C75_gap.

(** A side with no row before it whose line meets the ground plane outside of the modelled
    ground sees nothing but sky, whatever its tilt. *)
Theorem C75_off_ground : forall p n f a t al i row b x A B c,
  sky_case p n f a t al i row b x A B c ->
  let left := looks_left (ft_rotation a t) b in
  neighbour_edge p a t left i = None -> (if left then c <= -100 else 100 <= c) ->
  build_vf_matrix a t (surf_index a x) (n_ts_surfaces a) = 1.
Proof.
  intros p n f a t al i row b x A B c H left E Off. open_case H.
  apply (open_off p n f a t al V Fi SA NS HR HG HF i row b x Hr Hx Lx).
  - exact (open_cut_off p n f a t V Fi HR HG i row b x Hr Hx Lx A B c HAB Hy Hc Off).
  - pose proof (neighbour_obs p a t left i (open_row p n f a Fi i row Hr)) as N. rewrite E in N. unfold obs in N. fold left.
    destruct (is_edge p left i); [reflexivity | discriminate].
Qed.
Print Assumptions C75_off_ground.

(** The higher a surface lies on its side, the more sky it sees. *)
Definition end_hidden (p : pvarray_params) (a : fitted) (t i : nat) (left : bool) (A : pt) : Prop :=
  forall o, neighbour_edge p a t left i = Some o ->
    0 <= (if left then turn (ground_end left) o A else turn (ground_end left) A o).

Theorem C75_higher : forall p n f a t al i row b x A B y A' B' c,
  sky_case p n f a t al i row b x A B c -> sky_case p n f a t al i row b y A' B' c ->
  no_slivers_at n a t -> -100 <= c <= 100 -> py B <= py A' ->
  let left := looks_left (ft_rotation a t) b in
  end_hidden p a t i left A -> end_hidden p a t i left A' ->
  build_vf_matrix a t (surf_index a x) (n_ts_surfaces a) <=
  build_vf_matrix a t (surf_index a y) (n_ts_surfaces a).
Proof.
  intros p n f a t al i row b x A B y A' B' c H H' Hn Bc Up left Hid Hid'.
  assert (K : exists T, build_vf_matrix a t (surf_index a x) (n_ts_surfaces a) = seen_above A B T /\
                        build_vf_matrix a t (surf_index a y) (n_ts_surfaces a) = seen_above A' B' T).
  { destruct (neighbour_edge p a t left i) as [o |] eqn:E.
    - assert (J : exists j, if left then i = S j else j = S i).
      { destruct left; [| eauto]. destruct i as [| j]; [discriminate | eauto]. }
      destruct J as [j J].
      exists (point_from_low_edge (pa_width p) (pa_distance p) (pa_height p) (ft_rotation a t) j (pa_width p)). split.
      + exact (proj1 (C75_between p n f a t al i row b x A B c o H Hn Bc E (Hid o E)) j J).
      + exact (proj1 (C75_between p n f a t al i row b y A' B' c o H' Hn Bc E (Hid' o E)) j J).
    - exists (ground_end left). split.
      + exact (proj1 (C75_edge p n f a t al i row b x A B c H Hn Bc E)).
      + exact (proj1 (C75_edge p n f a t al i row b y A' B' c H' Hn Bc E)). }
  destruct K as (T & -> & ->).
  pose proof H as H1. open_case H1.
  destruct (open_ends p n f a t V Fi HR HG i row b x Hr Hx Lx A B c HAB Hy Hc) as (lo & hi & L0 & Hw & Lh & Nz & U & EA & EB & _ & _ & El & _).
  destruct (open_length t x Lx A B HAB) as [Le L1]. rewrite El in Le.
  destruct H' as (_ & _ & Hx' & Lx' & HAB' & Hy' & Hc').
  destruct (open_ends p n f a t V Fi HR HG i row b y Hr Hx' Lx' A' B' c HAB' Hy' Hc') as (lo' & hi' & L0' & Hw' & Lh' & _ & _ & EA' & EB' & _ & _ & El' & _).
  destruct (open_length t y Lx' A' B' HAB') as [Le' L1']. rewrite El' in Le'.
  set (O := Lp p a t i). set (vx := up_x (ft_rotation a t)). set (vy := up_y (ft_rotation a t)).
  assert (RPe : forall e, RP p a t i e = Pt (px O + e * vx) (py O + e * vy)).
  { intro e. unfold O, Lp, RP. rewrite (low_point_line _ _ _ _ e). reflexivity. }
  unfold uy in U. fold vy in U.
  assert (Ord : hi <= lo').
  { rewrite EB, EA', !RPe in Up. cbn [py] in Up. apply (Rmult_le_reg_r vy); lra. }
  pose proof (slopes T O vx vy lo hi lo' hi' Lh Ord Lh') as S. cbv beta zeta in S. rewrite <- !RPe, <- EA, <- EB, <- EA', <- EB' in S.
  unfold seen_above. rewrite Le, Le', !euclid_distance, !(dist_sym _ T).
  replace ((hi - lo + distance T B - distance T A) / (2 * (hi - lo))) with (/ 2 + (distance T B - distance T A) / (hi - lo) / 2) by (field; lra).
  replace ((hi' - lo' + distance T B' - distance T A') / (2 * (hi' - lo'))) with (/ 2 + (distance T B' - distance T A') / (hi' - lo') / 2) by (field; lra).
  lra.
Qed.
Print Assumptions C75_higher.

(* --------------------------------------------------------------------- examples *)

(** Illuminated surface of segment [k] of a side of the example, in closed form. *)
Lemma fx_point : forall i e, point_from_low_edge 2 (pa_distance fx_p) 3 (-60) i e =
  Pt (INR i * 3 + (1 - e) / 2) (3 - (1 - e) * (sqrt 3 / 2)).
Proof.
  intros i e. unfold point_from_low_edge, row_point. destruct (Rlt_dec 0 (-60)); [lra |].
  replace (pa_distance fx_p) with 3 by (unfold pa_distance, fx_p; simpl; field).
  replace (-60 * PI / 180) with (- (PI / 3)) by field. rewrite sin_neg, cos_neg, sin_PI3, cos_PI3. f_equal; field.
Qed.

Lemma fx_piece : forall a i b k, fit fx_p 2 ex_f = Some a -> (i < 3)%nat -> (k < pa_cut fx_p i b)%nat ->
  let lo := (INR (pa_cut fx_p i b) - 1 - INR k) * (2 / INR (pa_cut fx_p i b)) in
  let hi := lo + 2 / INR (pa_cut fx_p i b) in
  let P := point_from_low_edge 2 (pa_distance fx_p) 3 (-60) i in
  exists row x m, nth_error (ft_rows a) i = Some row /\ lo <= m <= Rmax lo (1 / 2) /\
    sky_case fx_p 2 ex_f a 1 (PI / 6) i row b x (P m) (P hi) (INR i * 3 + sqrt 3).
Proof.
  intros a i b k Ha Hi Hk lo hi P. pose proof (fx_scene a Ha) as Sc. pose proof Sc as Sc'. destruct Sc' as (V & Fi & SA & NS & HR & HG & HF).
  pose proof (fx_rot a Ha) as R1.
  assert (Hrow : exists row, nth_error (ft_rows a) i = Some row).
  { destruct (nth_error (ft_rows a) i) eqn:E; [eauto |]. exfalso. apply nth_error_None in E.
    rewrite (rows_length fx_p 2 ex_f a Fi) in E. change (pa_n_pvrows fx_p) with 3%nat in E. lia. }
  destruct Hrow as [row Hrow].
  destruct (C06_side_partition fx_p 2 ex_f a 1 i row b V Fi HR Hrow) as [N [_ SP]]. cbv zeta in N, SP.
  destruct (nth_error (side_segments (if b then row_back row else row_front row)) k) as [sg |] eqn:Hsg.
  2:{ exfalso. apply nth_error_None in Hsg. lia. }
  destruct (SP k sg Hsg) as [il [sh [lo0 [hi0 [m [E1 [E2 [_ [_ [L0 [Lm [Lh [Lw [Ll [Co [Cz _]]]]]]]]]]]]]]]].
  rewrite R1 in Ll, Cz. destruct (Rlt_dec 0 (-60)); [lra |]. change (pa_width fx_p) with 2 in *. change (pa_height fx_p) with 3 in *.
  assert (E0 : lo0 = lo) by (unfold lo; exact Ll). assert (E0' : hi0 = hi) by (unfold hi; lra).
  assert (W : 1 <= 2 / INR (pa_cut fx_p i b)).
  { cbn [pa_cut fx_p]. destruct (Nat.eqb i 1 && b); cbn [INR]; lra. }
  destruct (Cz ltac:(lra)) as [_ [Ci Em]]. rewrite E0' in Ci, Em, Lm, Lh. rewrite E0 in Em, Lm, L0. clear E0 E0' Ll Co Cz.
  assert (Mm : m <= Rmax lo (1 / 2)).
  { rewrite Em. assert (Hs : side_shaded_length (if b then row_back row else row_front row) 1%nat <= 1 / 2).
    { destruct (fx_shaded a Ha i row b Hrow) as [E | E]; unfold side_of in E; rewrite E; lra. }
    minmax; lra. }
  exists row, il, m. split; [exact Hrow |]. split; [lra |].
  assert (Hm : hi - m >= 1 / 2).
  { assert (Rmax lo (1 / 2) <= lo + 1 / 2) by (minmax; lra). unfold hi. lra. }
  assert (Len : s_length il 1%nat = hi - m).
  { unfold s_length. rewrite Ci. apply low_point_dist. lra. }
  split; [exact Sc |]. split; [exact Hrow |]. split.
  { unfold side_surfaces. apply in_flat_map. exists sg. split; [eapply nth_error_In; exact Hsg |].
    unfold seg_surfaces. rewrite E1. cbn. auto. }
  split; [rewrite Len; pose proof tol_small; lra |]. split; [left; exact Ci |].
  unfold P. rewrite !fx_point. cbn [px py]. pose proof sqrt3 as S3. split; [nra |].
  unfold turn. cbn [px py]. assert (SS : sqrt 3 * sqrt 3 = 3) by (apply sqrt_sqrt; lra). nra.
Qed.

Lemma fx_end_hidden : forall a m, fit fx_p 2 ex_f = Some a -> 0 <= m <= 2 -> 1 / 2 <= m ->
  end_hidden fx_p a 1 1 true (point_from_low_edge 2 (pa_distance fx_p) 3 (-60) 1 m).
Proof.
  intros a m Ha M M1 o E. unfold neighbour_edge in E. cbv beta zeta in E. rewrite (fx_rot a Ha) in E.
  change (pa_width fx_p) with 2 in E. change (pa_height fx_p) with 3 in E. injection E as <-.
  rewrite !fx_point. unfold turn, ground_end. cbn [px py INR]. pose proof sqrt3 as S3. nra.
Qed.

(** Backs at a rotation of -60 degrees: the one of row 0 has no row behind it and sees more
    than a quarter, the upper half of the one of row 1 less. *)
Example C75_case : forall a, fit fx_p 2 ex_f = Some a ->
  exists row0 x A B row1 y A' B',
    sky_case fx_p 2 ex_f a 1 (PI / 6) 0 row0 true x A B (sqrt 3) /\
    sky_case fx_p 2 ex_f a 1 (PI / 6) 1 row1 true y A' B' (3 + sqrt 3) /\
    1 / 4 < build_vf_matrix a 1 (surf_index a x) (n_ts_surfaces a) /\
    build_vf_matrix a 1 (surf_index a y) (n_ts_surfaces a) < 1 / 4 /\
    build_vf_matrix a 1 (surf_index a y) (n_ts_surfaces a) =
      seen_above A' B' (Pt (-1 / 2) (3 + sqrt 3 / 2)).
Proof.
  intros a Ha. pose proof sqrt3 as S3. pose proof (fx_rot a Ha) as R1.
  assert (LL : looks_left (-60) true = true) by (unfold looks_left; destruct (Rlt_dec 0 (-60)); [lra | reflexivity]).
  assert (NSl : no_slivers_at 2 a 1) by (split; [lia | exact (fx_no_slivers a Ha)]).
  assert (HZ : seen_above_horizon true (-60) = 1 / 4).
  { unfold seen_above_horizon. replace (-60 * PI / 180) with (- (PI / 3)) by field. rewrite cos_neg, cos_PI3. field. }
  destruct (fx_piece a 0 true 0 Ha ltac:(lia) ltac:(cbn; lia)) as (row0 & x & m & _ & _ & C0).
  destruct (fx_piece a 1 true 0 Ha ltac:(lia) ltac:(cbn; lia)) as (row1 & y & m' & _ & M' & C1).
  replace (INR 0 * 3 + sqrt 3) with (sqrt 3) in C0 by (cbn [INR]; ring). replace (INR 1 * 3 + sqrt 3) with (3 + sqrt 3) in C1 by (cbn [INR]; ring).
  do 8 eexists. split; [exact C0 |]. split; [exact C1 |].
  destruct (C75_edge _ _ _ _ _ _ _ _ _ _ _ _ _ C0 NSl ltac:(lra)) as [_ K0].
  { rewrite R1, LL. reflexivity. }
  change (INR (pa_cut fx_p 1 true)) with 2 in M'. cbn [INR] in M'.
  assert (M'' : m' = 1) by (revert M'; minmax; lra).
  destruct (neighbour_edge fx_p a 1 true 1) as [o |] eqn:E; [| discriminate].
  pose proof (C75_between _ _ _ _ _ _ _ _ _ _ _ _ _ o C1 NSl ltac:(lra)) as K. cbv zeta in K. rewrite R1, LL in K.
  destruct (K E) as [K1 K2]; [apply (fx_end_hidden a m' Ha); [lra | lra | exact E] |].
  rewrite R1, HZ in K0. rewrite HZ in K2. split; [exact K0 |]. split; [exact K2 |].
  rewrite (K1 0%nat eq_refl). f_equal. change (pa_width fx_p) with 2. change (pa_height fx_p) with 3. rewrite fx_point. cbn [INR]. f_equal; field.
Qed.

(** One row, both sides cut in two: the upper half of the back sees at least as much sky as
    the lower half. *)
Definition hx_p : pvarray_params := PVArrayParams 0 (2 / 3) 3 2 1 (fun _ _ => 2%nat).

Section One.
Variable a : fitted.
Hypothesis Ha : fit hx_p 2 ex_f = Some a.

Lemma hx_rot : ft_rotation a 1%nat = -60.
Proof. destruct (fit_spec _ _ _ _ Ha) as [_ [Er _]]. rewrite Er. exact ex_rot1. Qed.

Lemma hx_scene : scene hx_p 2 ex_f a 1 (PI / 6).
Proof.
  pose proof hx_rot as R1.
  split; [unfold valid_params, hx_p; simpl; split; [lra |]; split; [lra |]; split; [lia |]; intros; lia |].
  split; [exact Ha |]. split; [exact ex_sun1 |].
  destruct (fit_spec _ _ _ _ Ha) as [_ [Er _]]. split; [rewrite Er; exact ex_nosliver1 |].
  rewrite R1. split; [lra |]. split; [| intro; lra].
  assert (Rabs (sin (-60 * PI / 180)) <= 1) by (apply Rabs_le; apply SIN_bound).
  change (2 / 2 * Rabs (sin (-60 * PI / 180)) < 3). lra.
Qed.

Lemma hx_breakpoint : forall x, breakpoint hx_p (-60) (PI / 6) x ->
  exists k s, x = k + s * sqrt 3 /\ In (k, s) [(-100, 0); (100, 0); (-2, -3); (2, -3); (0, 1)].
Proof.
  intros x Hx. pose proof sqrt3 as S3. assert (SS : sqrt 3 * sqrt 3 = 3) by (apply sqrt_sqrt; lra).
  assert (M : mid_shadow (pa_height hx_p) (PI / 6) = -3 * sqrt 3).
  { unfold mid_shadow. rewrite sin_PI6, cos_PI6. change (pa_height hx_p) with 3. field. }
  assert (Hf : half_shadow (pa_width hx_p) (-60) (PI / 6) = 2).
  { unfold half_shadow. rewrite rr60, sin_PI6. replace (PI / 6 - - (PI / 3)) with (PI / 2) by field.
    rewrite sin_PI2, Rabs_R1. change (pa_width hx_p) with 2. field. }
  assert (C : pa_height hx_p * cos (rr (-60)) / sin (rr (-60)) = - sqrt 3).
  { rewrite rr60, sin_neg, cos_neg, sin_PI3, cos_PI3. change (pa_height hx_p) with 3.
    apply (Rmult_eq_reg_r (sqrt 3)); [| lra]. transitivity (-3); [field; lra | lra]. }
  assert (Cl : forall y, -100 <= y <= 100 -> clip_gnd y = y).
  { intros y Hy. unfold clip_gnd. minmax; lra. }
  unfold breakpoint in Hx. rewrite M, Hf, C in Hx. change (pa_n_pvrows hx_p) with 1%nat in Hx.
  destruct Hx as [E | [E | [j [Hj Hx]]]].
  - exists (-100), 0. split; [lra | cbn [In]; auto].
  - exists 100, 0. split; [lra | cbn [In]; auto].
  - destruct j as [| j]; [| lia]. cbn [INR] in Hx. destruct Hx as [E | [E | E]]; rewrite Cl in E by lra.
    + exists (-2), (-3). split; [lra | cbn [In]; auto 20].
    + exists 2, (-3). split; [lra | cbn [In]; auto 20].
    + exists 0, 1. split; [lra | cbn [In]; auto 20].
Qed.

Lemma hx_piece : forall row b k sg, nth_error (ft_rows a) 0 = Some row ->
  nth_error (side_segments (side_of b row)) k = Some sg ->
  let P := point_from_low_edge 2 (pa_distance hx_p) 3 (-60) 0 in
  exists il sh, seg_surfaces sg = [il; sh] /\ s_coords il 1%nat = Line (P (1 - INR k)) (P (2 - INR k)) /\ s_length sh 1%nat = 0.
Proof.
  intros row b k sg Hrow Hk P. destruct hx_scene as (V & Fi & SA & NS & HR & HG & HF). pose proof hx_rot as R1.
  destruct (C06_side_partition hx_p 2 ex_f a 1 0 row b V Fi HR Hrow) as [N [_ SP]]. cbv zeta in N, SP.
  change (if b then row_back row else row_front row) with (side_of b row) in *.
  destruct (SP k sg Hk) as [il [sh [lo [hi [m [E1 [E2 [_ [_ [L0 [Lm [Lh [Lw [Ll [_ [RB _]]]]]]]]]]]]]]]].
  destruct (RB ltac:(rewrite R1; lra)) as [Esh [Eil Em]]. rewrite R1 in Ll, Esh, Eil.
  destruct (Rlt_dec 0 (-60)); [lra |]. change (pa_cut hx_p 0 b) with 2%nat in *. change (pa_width hx_p) with 2 in *.
  cbn [INR] in Lw, Ll.
  assert (Z : side_shaded_length (side_of b row) 1%nat = 0).
  { assert (H2 : ft_rotation a 1%nat <> 0) by (rewrite R1; lra).
    destruct (fit_shaded_lengths_eq _ _ _ _ _ _ _ V Ha HR H2 Hrow) as [F B].
    assert (Z : row_sl hx_p ex_f 0 1 = (0, 0)).
    { unfold row_sl, fit_shading, interrow_shading, row_shaded_lengths. cbn [pa_n_pvrows hx_p Nat.ltb Nat.leb Nat.eqb fst snd].
      unfold np_where. destruct (Rltb _ _); reflexivity. }
    rewrite Z in F, B. destruct b; cbn [side_of]; [exact B | exact F]. }
  assert (K : (k < 2)%nat) by (rewrite <- N; apply nth_error_Some; congruence).
  assert (E : m = lo /\ lo = 1 - INR k /\ hi = 2 - INR k).
  { rewrite Z in Em. assert (INR k <= 1) by (replace 1 with (INR 1) by reflexivity; apply le_INR; lia). revert Em. minmax; lra. }
  destruct E as (-> & <- & <-). exists il, sh. split; [unfold seg_surfaces; rewrite E1, E2; reflexivity |].
  split; [exact Eil |]. unfold s_length. rewrite Esh. transitivity (lo - lo); [apply low_point_dist; lra | ring].
Qed.

Lemma hx_row : exists row, nth_error (ft_rows a) 0 = Some row.
Proof.
  destruct (nth_error (ft_rows a) 0) eqn:E; [eauto |]. exfalso. apply nth_error_None in E.
  rewrite (rows_length hx_p 2 ex_f a Ha) in E. cbn in E. lia.
Qed.

Lemma hx_length : forall x u, s_coords x 1%nat = Line (point_from_low_edge 2 (pa_distance hx_p) 3 (-60) 0 (1 - u)) (point_from_low_edge 2 (pa_distance hx_p) 3 (-60) 0 (2 - u)) ->
  s_length x 1%nat = 1.
Proof.
  intros x u E. unfold s_length. rewrite E. pose proof (low_point_dist (INR 0 * pa_distance hx_p) 3 2 (-60) (1 - u) (2 - u) ltac:(lra)) as LD.
  transitivity (2 - u - (1 - u)); [exact LD | ring].
Qed.

Lemma hx_no_slivers : no_slivers_at 2 a 1.
Proof.
  split; [lia |]. intros s Hs. destruct hx_scene as (V & Fi & SA & NS & HR & HG & HF). pose proof hx_rot as R1. pose proof tol_small as T.
  assert (T1 : DISTANCE_TOLERANCE < 1 / 1000) by (unfold DISTANCE_TOLERANCE; lra).
  unfold all_ts_surfaces in Hs. apply in_app_or in Hs. destruct Hs as [Hs | Hs].
  - destruct (gnd_shape _ _ _ _ _ _ V Fi SA NS HR HG s Hs) as [_ [L [E _]]].
    destruct (fit_ground_ends _ _ _ _ _ _ s V Fi SA NS HR ltac:(rewrite R1; lra) HG Hs) as [B1 B2].
    rewrite R1 in B1, B2. destruct (hx_breakpoint _ B1) as [k [u [E1 I1]]]. destruct (hx_breakpoint _ B2) as [k' [u' [E2 I2]]].
    rewrite E. rewrite E1, E2 in *. clear E E1 E2 B1 B2. pose proof sqrt3 as S3. unfold no_sliver_length.
    cbn [In] in I1, I2.
    repeat (destruct I1 as [I1 | I1]; [inversion I1; subst k u; clear I1;
      repeat (destruct I2 as [I2 | I2]; [inversion I2; subst k' u'; clear I2; lra |]); destruct I2 |]). destruct I1.
  - apply in_flat_map in Hs. destruct Hs as [row [Hrow Hs]]. apply In_nth_error in Hrow. destruct Hrow as [i Hrow].
    pose proof (row_lt hx_p 2 ex_f a Ha _ _ Hrow) as Hi. change (pa_n_pvrows hx_p) with 1%nat in Hi.
    assert (i = 0%nat) by lia. subst i.
    unfold row_surfaces in Hs. apply in_app_or in Hs.
    assert (Hb : exists b, In s (side_surfaces (side_of b row))).
    { destruct Hs; [exists false | exists true]; assumption. }
    destruct Hb as [b Hb]. unfold side_surfaces in Hb. apply in_flat_map in Hb. destruct Hb as [sg [Hsg Hb]].
    apply In_nth_error in Hsg. destruct Hsg as [k Hk].
    destruct (hx_piece row b k sg Hrow Hk) as (il & sh & E & C & Z). rewrite E in Hb. unfold no_sliver_length.
    destruct Hb as [<- | [<- | []]]; [rewrite (hx_length _ _ C) | rewrite Z]; lra.
Qed.

Lemma hx_sky : forall row k, nth_error (ft_rows a) 0 = Some row -> (k < 2)%nat -> exists x,
  sky_case hx_p 2 ex_f a 1 (PI / 6) 0 row true x
    (point_from_low_edge 2 (pa_distance hx_p) 3 (-60) 0 (1 - INR k)) (point_from_low_edge 2 (pa_distance hx_p) 3 (-60) 0 (2 - INR k)) (sqrt 3).
Proof.
  intros row k Hrow Hk. pose proof hx_scene as Sc. pose proof Sc as (V & Fi & SA & NS & HR & HG & HF).
  destruct (C06_side_partition hx_p 2 ex_f a 1 0 row true V Fi HR Hrow) as [N _]. cbv zeta in N. change (pa_cut hx_p 0 true) with 2%nat in N.
  destruct (nth_error (side_segments (side_of true row)) k) as [sg |] eqn:Hsg.
  2:{ exfalso. apply nth_error_None in Hsg. cbn [side_of] in Hsg. rewrite N in Hsg. lia. }
  destruct (hx_piece row true k sg Hrow Hsg) as (il & sh & E & C & _). exists il.
  split; [exact Sc |]. split; [exact Hrow |]. split.
  { unfold side_surfaces. apply in_flat_map. exists sg. split; [eapply nth_error_In; exact Hsg |]. rewrite E. cbn. auto. }
  split; [rewrite (hx_length _ _ C); unfold DISTANCE_TOLERANCE; lra |]. split; [left; exact C |].
  unfold point_from_low_edge, row_point. destruct (Rlt_dec 0 (-60)); [lra |].
  replace (-60 * PI / 180) with (- (PI / 3)) by field. rewrite sin_neg, cos_neg, sin_PI3, cos_PI3.
  pose proof sqrt3 as S3. assert (SS : sqrt 3 * sqrt 3 = 3) by (apply sqrt_sqrt; lra).
  unfold turn. cbn [px py INR]. set (u := INR k). clearbody u. split; [nra | nra].
Qed.

End One.

Example C75_higher_case : forall a, fit hx_p 2 ex_f = Some a ->
  exists row low high A B A' B',
    sky_case hx_p 2 ex_f a 1 (PI / 6) 0 row true low A B (sqrt 3) /\
    sky_case hx_p 2 ex_f a 1 (PI / 6) 0 row true high A' B' (sqrt 3) /\ py A < py A' /\
    build_vf_matrix a 1 (surf_index a low) (n_ts_surfaces a) <= build_vf_matrix a 1 (surf_index a high) (n_ts_surfaces a).
Proof.
  intros a Ha. destruct (hx_row a Ha) as [row Hrow]. pose proof sqrt3 as S3.
  destruct (hx_sky a Ha row 0 Hrow ltac:(lia)) as [y Cy]. destruct (hx_sky a Ha row 1 Hrow ltac:(lia)) as [x Cx].
  replace (2 - INR 1) with 1 in Cx by (cbn [INR]; ring). replace (1 - INR 1) with 0 in Cx by (cbn [INR]; ring).
  replace (2 - INR 0) with 2 in Cy by (cbn [INR]; ring). replace (1 - INR 0) with 1 in Cy by (cbn [INR]; ring).
  assert (LL : looks_left (ft_rotation a 1%nat) true = true) by (rewrite (hx_rot a Ha); unfold looks_left; destruct (Rlt_dec 0 (-60)); [lra | reflexivity]).
  exists row, x, y. do 4 eexists. split; [exact Cx |]. split; [exact Cy |]. split.
  - unfold point_from_low_edge, row_point. destruct (Rlt_dec 0 (-60)); [lra |].
    replace (-60 * PI / 180) with (- (PI / 3)) by field. rewrite sin_neg, cos_neg, sin_PI3, cos_PI3. cbn [py]. lra.
  - apply (C75_higher _ _ _ _ _ _ _ _ _ _ _ _ _ _ _ _ Cx Cy (hx_no_slivers a Ha)); [lra | lra | |];
      rewrite LL; intros o E; discriminate E.
Qed.

(** Forty rows with the same geometry: the front of the last one, 117 m away from the first
    one, is tilted by 60 degrees and sees nothing but sky. *)
Definition ox_p : pvarray_params := PVArrayParams 0 (2 / 3) 3 2 40 (fun _ _ => 1%nat).

Lemma ox_distance : pa_distance ox_p = 3.
Proof. unfold pa_distance, ox_p. simpl. field. Qed.

Example C75_off_ground_case : exists a row x, fit ox_p 2 ex_f = Some a /\ nth_error (ft_rows a) 39 = Some row /\
  In x (side_surfaces (row_front row)) /\ DISTANCE_TOLERANCE < s_length x 1%nat /\
  build_vf_matrix a 1 (surf_index a x) (n_ts_surfaces a) = 1 /\
  seen_above_horizon false (ft_rotation a 1%nat) = 3 / 4.
Proof.
  destruct (fit_total ox_p 2 ex_f ltac:(simpl; lia)) as [a Ha]. pose proof sqrt3 as S3. pose proof tol_small as T0.
  assert (R1 : ft_rotation a 1%nat = -60) by (destruct (fit_spec _ _ _ _ Ha) as [_ [Er _]]; rewrite Er; exact ex_rot1).
  assert (V : valid_params ox_p).
  { unfold valid_params, ox_p; simpl. split; [lra |]. split; [lra |]. split; [lia |]. intros. lia. }
  assert (Sc : scene ox_p 2 ex_f a 1 (PI / 6)).
  { split; [exact V |]. split; [exact Ha |]. split; [exact ex_sun1 |].
    destruct (fit_spec _ _ _ _ Ha) as [_ [Er _]]. split; [rewrite Er; exact ex_nosliver1 |].
    rewrite R1. split; [lra |]. split; [| intro; lra].
    assert (Rabs (sin (-60 * PI / 180)) <= 1) by (apply Rabs_le; apply SIN_bound).
    change (2 / 2 * Rabs (sin (-60 * PI / 180)) < 3). lra. }
  assert (HR : -180 < ft_rotation a 1%nat < 180) by (rewrite R1; lra).
  pose proof (row_of ox_p 2 ex_f a Ha 39 ltac:(cbn; lia)) as Hrow. set (row := fit_row _ _ _ 39) in Hrow.
  destruct (C06_side_partition ox_p 2 ex_f a 1 39 row false V Ha HR Hrow) as [N [_ SP]]. cbv zeta in N, SP.
  change (pa_cut ox_p 39 false) with 1%nat in *. cbv beta iota in N, SP.
  destruct (side_segments (row_front row)) as [| sg [|]] eqn:Hs; try discriminate.
  destruct (SP 0%nat sg eq_refl) as [il [sh [lo [hi [m [E1 [E2 [_ [_ [L0 [Lm [Lh [Lw [Ll [Co [Cz _]]]]]]]]]]]]]]]].
  rewrite R1 in Ll, Cz. destruct (Rlt_dec 0 (-60)); [lra |]. change (pa_width ox_p) with 2 in *. change (pa_height ox_p) with 3 in *.
  cbn [INR] in Ll, Lw. assert (Z : lo = 0) by lra. assert (Z' : hi = 2) by lra. clear Ll Lw. subst lo hi.
  destruct (Cz ltac:(lra)) as [Cs [Ci Em]].
  set (P := point_from_low_edge 2 (pa_distance ox_p) 3 (-60) 39) in *.
  assert (PP : forall e, P e = Pt (INR 39 * 3 + (1 - e) / 2) (3 - (1 - e) * (sqrt 3 / 2))).
  { intros e. unfold P, point_from_low_edge, row_point. destruct (Rlt_dec 0 (-60)); [lra |]. rewrite ox_distance.
    replace (-60 * PI / 180) with (- (PI / 3)) by field. rewrite sin_neg, cos_neg, sin_PI3, cos_PI3. f_equal; field. }
  assert (I39 : INR 39 = 39) by (rewrite INR_IZR_INZ; reflexivity).
  assert (HZ : seen_above_horizon false (-60) = 3 / 4).
  { unfold seen_above_horizon. replace (-60 * PI / 180) with (- (PI / 3)) by field. rewrite cos_neg, cos_PI3. field. }
  assert (LL : looks_left (-60) false = false) by (unfold looks_left; destruct (Rlt_dec 0 (-60)); [lra | reflexivity]).
  assert (SS : sqrt 3 * sqrt 3 = 3) by (apply sqrt_sqrt; lra).
  assert (K : forall x u v, In x (seg_surfaces sg) -> u <= v -> s_coords x 1%nat = Line (P u) (P v) -> DISTANCE_TOLERANCE < s_length x 1%nat ->
    sky_case ox_p 2 ex_f a 1 (PI / 6) 39 row false x (P u) (P v) (117 + sqrt 3)).
  { intros x u v Hx Huv Hc Hl. split; [exact Sc |]. split; [exact Hrow |].
    split; [unfold side_surfaces; rewrite Hs; cbn [flat_map]; rewrite app_nil_r; exact Hx |].
    split; [exact Hl |]. split; [left; exact Hc |]. rewrite !PP. cbn [px py]. split; [nra |]. unfold turn. cbn [px py]. rewrite I39. nra. }
  assert (C : exists x u v, In x (seg_surfaces sg) /\ u <= v /\ s_coords x 1%nat = Line (P u) (P v) /\ DISTANCE_TOLERANCE < s_length x 1%nat).
  { destruct (Rle_lt_dec m 1).
    - exists il, m, 2. split; [unfold seg_surfaces; rewrite E1; cbn; auto |]. split; [lra |]. split; [exact Ci |].
      unfold s_length. rewrite Ci. pose proof (low_point_dist (INR 39 * pa_distance ox_p) 3 2 (-60) m 2 ltac:(lra)) as LD.
      apply Rlt_le_trans with (2 - m); [lra | apply Req_le; symmetry; exact LD].
    - exists sh, 0, m. split; [unfold seg_surfaces; rewrite E1, E2; cbn; auto |]. split; [lra |]. split; [exact Cs |].
      unfold s_length. rewrite Cs. pose proof (low_point_dist (INR 39 * pa_distance ox_p) 3 2 (-60) 0 m ltac:(lra)) as LD.
      apply Rlt_le_trans with (m - 0); [lra | apply Req_le; symmetry; exact LD]. }
  destruct C as (x & u & v & Hx & Huv & Hc & Hl). pose proof (K x u v Hx Huv Hc Hl) as SC.
  exists a, row, x. split; [exact Ha |]. split; [exact Hrow |]. split; [exact (proj1 (proj2 (proj2 SC))) |]. split; [exact Hl |].
  split; [| rewrite R1; exact HZ].
  apply (C75_off_ground _ _ _ _ _ _ _ _ _ _ _ _ _ SC); rewrite R1, LL; [reflexivity | lra].
Qed.
