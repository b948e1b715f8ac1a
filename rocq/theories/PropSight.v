(** The view factors of full mode are the view factors of the textbook: means of integrals of
    Lambert's law over what is in sight. *)
From Coq Require Import Reals List Bool Arith String Lra Lia Permutation.
From Coquelicot Require Import Coquelicot.
From Verif Require Import Num ModelTs ModelGeom ModelVF Basics SpecGeom SpecVF SpecSight ProofSight ProofShade ProofRow ProofAngles ProofFit ProofIndex ProofGeom ProofGeom2 PropGeom ProofString ProofMatrix ProofTele ProofVF ProofVF2 PropVF SpecRun PropZones.
Import ListNotations.
Open Scope R_scope.

(** [x] is a surface of the array, on a side of a row or on the ground, with the normal [nx]. *)
Inductive placed (a : fitted) (t : nat) (x : ts_surface) : R * R -> Prop :=
| on_side : forall i row (b : bool), nth_error (ft_rows a) i = Some row ->
    In x (side_surfaces (if b then row_back row else row_front row)) ->
    placed a t x (side_normal (ft_rotation a t) b)
| on_ground : In x (gnd_surfaces (ft_ground a)) -> placed a t x (0, 1).

Definition opaque_array (p : pvarray_params) (a : fitted) (t : nat) : pt -> Prop :=
  ground_and_rows (pa_n_pvrows p) (pa_width p) (pa_distance p) (pa_height p) (ft_rotation a t).

Lemma side_normal_dirn : forall r b, side_normal r b = (dirn (looks_left r b) * up_y r, - dirn (looks_left r b) * up_x r).
Proof.
  intros r b. unfold side_normal, looks_left, up_y, up_x, dirn, sind, cosd, deg2rad.
  destruct (Rlt_dec 0 r), b; cbn [negb]; f_equal; ring.
Qed.
Lemma looks_left_negb : forall r b, looks_left r (negb b) = negb (looks_left r b).
Proof. intros. unfold looks_left. destruct (Rlt_dec 0 r); reflexivity. Qed.

Section Scene.
Variables (p : pvarray_params) (n : nat) (f : fit_inputs) (a : fitted) (t : nat) (al : R).
Hypothesis SC : scene p n f a t al.
Hypothesis Ht : (t < n)%nat.
Let r := ft_rotation a t.
Let w := pa_width p.
Let D := pa_distance p.
Let ux := up_x r.
Let uy := up_y r.
Let L0 := - (w / 2) * ux.
Let Ly := pa_height p - w / 2 * uy.
Let N := pa_n_pvrows p.
Let P (i : nat) (e : R) : pt := point_from_low_edge (pa_width p) (pa_distance p) (pa_height p) (ft_rotation a t) i e.
Let Q := Pr L0 Ly ux uy D.
Let O := Op N L0 Ly ux uy D w.

Lemma PQ : forall i e, P i e = Q i e.
Proof.
  intros i e. unfold P, Q, Pr, point_from_low_edge. rewrite row_point_eq. fold w D r. unfold L0, Ly, ux, uy, up_x, up_y.
  destruct (Rlt_dec 0 r); f_equal; field.
Qed.
Lemma facts : 0 < Ly /\ 0 <= uy /\ ux * ux + uy * uy = 1 /\ 0 < D /\ 0 < w /\ (uy = 0 -> w <= D) /\ (uy = 0 -> r = 0).
Proof.
  destruct SC as (V & Fi & SA & NS & HR & HG & HF).
  assert (U0 : uy = 0 -> r = 0). { intro Z. destruct (Req_dec r 0) as [E|E]; [exact E|]. pose proof (up_y_pos r HR E). unfold uy in Z. lra. }
  repeat split.
  - pose proof (Lp_y p a t V HG 0%nat) as Y. unfold Lp in Y. rewrite (RP_point p a t) in Y. fold (P 0 0) in Y. rewrite PQ in Y. unfold Q, Pr in Y. cbn [py] in Y. lra.
  - apply up_y_nonneg. exact HR.
  - apply up_unit.
  - apply pa_distance_pos. exact V.
  - apply V.
  - intro Z. apply HF. apply U0. exact Z.
  - exact U0.
Qed.
Lemma opaque_eq : forall z, opaque_array p a t z <-> O z.
Proof.
  intro z. unfold opaque_array, ground_and_rows, O, Op. fold w D r N.
  split; (intros [Z | (j & e & J & E & Z)]; [left; exact Z | right; exists j, e; split; [exact J|]; split; [exact E|]]); rewrite Z; [| symmetry]; apply PQ.
Qed.
Lemma factor_opaque : forall x nx y ny v, view_factor O x nx y ny v -> view_factor (opaque_array p a t) x nx y ny v.
Proof.
  intros x nx y ny v (F & A & B). exists F. split; [|exact B]. intros s S. destruct (A s S) as (s1 & s2 & H1 & H2 & H3 & H4).
  exists s1, s2. split; [exact H1|]. split; [exact H2|]. split; [|exact H4]. intros s' S' N1 N2. rewrite <- (H3 s' S' N1 N2).
  unfold in_sight. split; intros (I1 & I2 & I3); (split; [exact I1|]; split; [exact I2|]); intros s'' S'' Z; apply (I3 s'' S''); apply opaque_eq; exact Z.
Qed.

Lemma neighbour_next : forall left i, (i < N)%nat -> next_row N L0 Ly ux uy D left i (neighbour_edge p a t left i).
Proof.
  intros left i Hi. unfold neighbour_edge, next_row. fold N. destruct left.
  - destruct i as [|j]; cbn [dirn].
    + intros j J. pose proof (pos_INR j). cbn [INR]. lra.
    + exists j. split; [lia|]. split; [rewrite S_INR; ring|]. apply PQ.
  - destruct (Nat.ltb_spec (S i) N) as [L|L]; cbn [dirn].
    + exists (S i). split; [exact L|]. split; [rewrite S_INR; ring|]. apply PQ.
    + intros j J. assert (LE : (j <= i)%nat) by lia. apply le_INR in LE. lra.
Qed.

(** Ground on a side of a cut point is on this side of the plane of the row. *)
Lemma ground_ahead : forall i left y, (i < N)%nat -> In y (gnd_side_of_cut_point (ft_ground a) left i) -> 0 < s_length y t ->
  exists g1 g2, s_coords y t = Line (gr g1) (gr g2) /\ g1 < g2 /\ s_length y t = g2 - g1 /\
    forall z, g1 < z < g2 -> 0 < dirn left * Mz L0 Ly ux uy D i z.
Proof.
  intros i left y Hi Hy L. destruct SC as (V & Fi & SA & NS & HR & HG & HF). destruct facts as (F1 & F2 & F3 & F4 & F5 & F6 & F7).
  pose proof (in_gnd_side _ _ _ _ _ _ _ Fi Hi Hy) as Gy.
  destruct (gnd_shape p n f a t al V Fi SA NS HR HG y Gy) as (Sy & G1 & G2 & _ & _).
  set (g1 := px (b1 (s_coords y t))) in *. set (g2 := px (b2 (s_coords y t))) in *. exists g1, g2. split; [exact Sy|]. split; [lra|]. split; [exact G2|].
  pose proof (gnd_visible p n f a t al V Fi SA NS HR HG i left y Hi Hy) as K. unfold ogl, ogr in K. fold g1 g2 in K.
  specialize (K ltac:(destruct left; lra)).
  assert (KM : 0 <= dirn left * Mz L0 Ly ux uy D i (if left then g2 else g1)).
  { revert K. unfold side_k, OL, Lp, oux, ProofVF.uy. rewrite (RP_point p a t). fold (P i 0). rewrite PQ. unfold Q, Pr, Mz, orient, mir, dirn. fold r ux uy.
    destruct left; cbn [px py]; intro K; lra. }
  intros z Z. destruct (Req_dec uy 0) as [U|U].
  - unfold Mz in *. rewrite U in *. assert (UX : ux = 1 \/ ux = -1).
    { assert (Z' : (ux - 1) * (ux + 1) = 0) by lra. apply Rmult_integral in Z'. destruct Z'; [left|right]; lra. }
    destruct left; cbn [dirn] in *; destruct UX as [UX | UX]; rewrite UX in *; lra.
  - assert (U0 : 0 < uy) by lra. unfold Mz in *. destruct left; cbn [dirn] in *.
    + assert (0 < uy * (g2 - z)) by (apply Rmult_lt_0_compat; lra). lra.
    + assert (0 < uy * (z - g1)) by (apply Rmult_lt_0_compat; lra). lra.
Qed.

Lemma piece_length : forall i x lo hi, is_piece_of_row p a t i x lo hi -> s_length x t = hi - lo.
Proof.
  intros i x lo hi (A & B & C & E). destruct facts as (F1 & F2 & F3 & F4 & F5 & F6 & F7).
  assert (Le : euclid (P i lo) (P i hi) = hi - lo).
  { rewrite !PQ. unfold Q. rewrite Pr_dist by exact F3. apply Rabs_right. lra. }
  unfold s_length. destruct E as [-> | ->]; rewrite line_length_dist; cbn [b1 b2]; [| rewrite dist_sym]; rewrite <- Le, euclid_distance; reflexivity.
Qed.
(** The two orders of the ends of a piece of row. *)
Lemma either_way : forall i x lo hi (T : line -> Prop), is_piece_of_row p a t i x lo hi ->
  T (Line (Q i lo) (Q i hi)) -> (forall l, T l -> T (flip l)) -> T (s_coords x t).
Proof.
  intros i x lo hi T (_ & _ & _ & E) H Fl. destruct E as [-> | ->].
  - change (T (Line (P i lo) (P i hi))). rewrite !PQ. exact H.
  - change (T (flip (Line (P i lo) (P i hi)))). apply Fl. rewrite !PQ. exact H.
Qed.

Lemma row_ground : forall i row (b : bool) x y, nth_error (ft_rows a) i = Some row -> In x (side_surfaces (if b then row_back row else row_front row)) ->
  In y (gnd_surfaces (ft_ground a)) -> DISTANCE_TOLERANCE < s_length x t -> DISTANCE_TOLERANCE < s_length y t ->
  view_factor (opaque_array p a t) (s_coords x t) (side_normal r b) (s_coords y t) (0, 1) (vf a t x y) /\
  view_factor (opaque_array p a t) (s_coords y t) (0, 1) (s_coords x t) (side_normal r b) (vf a t y x).
Proof.
  intros i row b x y Hr Hx Hy Lx Lgy. pose proof SC as (V & Fi & SA & NS & HR & HG & HF). destruct facts as (F1 & F2 & F3 & F4 & F5 & F6 & F7).
  pose proof DISTANCE_TOLERANCE_pos as T0.
  assert (Hi : (i < N)%nat) by exact (row_lt p n f a Fi _ _ Hr).
  assert (LR : exists left, In y (gnd_side_of_cut_point (ft_ground a) left i)).
  { destruct (fit_left_right p n f a t al i V Fi SA NS HR HG Hi) as (cut & _ & _ & _ & PM & _).
    apply (Permutation_in y PM) in Hy. apply in_app_or in Hy. destruct Hy; [exists true | exists false]; assumption. }
  destruct LR as [left Hl].
  destruct (C49_row_to_ground p n f a t al i row b x y left SC Ht Hr Hx Hl Lx Lgy) as (lo & hi & PC & E).
  destruct (ground_ahead i left y Hi Hl ltac:(lra)) as (g1 & g2 & Sy & G & Gl & Gz).
  pose proof (piece_length i x lo hi PC) as Lxe. pose proof PC as (P1 & P2 & P3 & _). fold w in P3.
  assert (RC : vf a t y x = (hi - lo) / (g2 - g1) * vf a t x y).
  { unfold vf. pose proof (reciprocity p n f a t V Fi x y (in_all_row _ _ _ _ _ Hr Hx) (in_all_gnd _ _ Hy) Lx Lgy) as RC.
    rewrite Lxe, Gl in RC. apply (Rmult_eq_reg_l (g2 - g1)); [|lra]. rewrite <- RC. field. lra. }
  rewrite side_normal_dirn. fold uy ux. set (fl := looks_left r b) in *.
  unfold vf in RC |- *. rewrite RC.
  destruct (Bool.eqb left (looks_left (ft_rotation a t) b)) eqn:EL.
  - apply eqb_prop in EL. fold r fl in EL. 
    destruct (ground_view N L0 Ly ux uy D w F1 F2 F3 F4 fl i (neighbour_edge p a t fl i) lo hi g1 g2) as [A B]; auto; try lra.
    { rewrite <- EL. exact Gz. }
    { apply neighbour_next. exact Hi. }
    rewrite E, Sy, EL. cbn [b1 b2]. fold (P i lo) (P i hi). rewrite !PQ. split.
    + apply (either_way i x lo hi (fun l => view_factor (opaque_array p a t) l _ _ _ _) PC).
      * apply factor_opaque. exact A.
      * intros l. apply factor_flip_x.
    + apply (either_way i x lo hi (fun l => view_factor (opaque_array p a t) _ _ l _ _) PC).
      * apply factor_opaque. exact B.
      * intros l. apply factor_flip_y.
  - rewrite E. apply eqb_false_iff in EL. fold r fl in EL. rewrite Rmult_0_r.
    assert (ND : forall s s', 0 < s < 1 -> 0 < s' < 1 -> ~ in_sight O (point_at (Line (Q i lo) (Q i hi)) s) (dirn fl * uy, - dirn fl * ux) (point_at (s_coords y t) s') (0, 1)).
    { intros s s' S S'. replace (point_at (Line (Q i lo) (Q i hi)) s) with (Q i (lo + s * (hi - lo))) by (unfold point_at, Q, Pr; cbn [b1 b2 px py]; f_equal; ring).
      rewrite Sy. replace (point_at (Line (gr g1) (gr g2)) s') with (gr (g1 + s' * (g2 - g1))) by (unfold point_at, gr; cbn [b1 b2 px py]; f_equal; ring).
      apply ground_behind. assert (0 < dirn left * Mz L0 Ly ux uy D i (g1 + s' * (g2 - g1))) by (apply Gz; nra).
      destruct left, fl; cbn [dirn] in *; try congruence; lra. }
    split.
    + apply (either_way i x lo hi (fun l => view_factor (opaque_array p a t) l _ _ _ _) PC).
      * apply factor_opaque. apply factor_none. exact ND.
      * intros l. apply factor_flip_x.
    + apply (either_way i x lo hi (fun l => view_factor (opaque_array p a t) _ _ l _ _) PC).
      * apply factor_opaque. apply factor_none. intros s s' S S' C. apply in_sight_sym in C. exact (ND s' s S' S C).
      * intros l. apply factor_flip_y.
Qed.

Lemma row_row : forall i j row rowj (b c : bool) x y, nth_error (ft_rows a) i = Some row -> nth_error (ft_rows a) j = Some rowj ->
  In x (side_surfaces (if b then row_back row else row_front row)) -> In y (side_surfaces (if c then row_back rowj else row_front rowj)) ->
  DISTANCE_TOLERANCE < s_length x t -> DISTANCE_TOLERANCE < s_length y t ->
  view_factor (opaque_array p a t) (s_coords x t) (side_normal r b) (s_coords y t) (side_normal r c) (vf a t x y).
Proof.
  intros i j row rowj b c x y Hr Hj Hx Hy Lx Lgy. pose proof SC as (V & Fi & SA & NS & HR & HG & HF). destruct facts as (F1 & F2 & F3 & F4 & F5 & F6 & F7).
  assert (Hi : (i < N)%nat) by exact (row_lt p n f a Fi _ _ Hr). assert (Hjl : (j < N)%nat) by exact (row_lt p n f a Fi _ _ Hj).
  destruct (C49_row_to_row p n f a t al i j row rowj b c x y SC Ht Hr Hj Hx Hy Lx Lgy) as (lo & hi & lo' & hi' & PC & PC' & E).
  pose proof PC as (P1 & P2 & P3 & _). pose proof PC' as (P1' & P2' & P3' & _). fold w in P3, P3'.
  rewrite !side_normal_dirn. fold uy ux. set (fl := looks_left r b) in *.
  apply (either_way i x lo hi (fun l => view_factor (opaque_array p a t) l _ _ _ _) PC); [|intros l; apply factor_flip_x].
  apply (either_way j y lo' hi' (fun l => view_factor (opaque_array p a t) _ _ l _ _) PC'); [|intros l; apply factor_flip_y].
  apply factor_opaque. unfold vf. destruct E as [[[-> FC] ->] | [NF ->]].
  - fold (P i lo) (P i hi) (P j lo') (P j hi'). rewrite !PQ, looks_left_negb. fold fl. fold r fl in FC. apply rows_view; auto; try lra.
    destruct fl; subst; rewrite S_INR; cbn [dirn]; ring.
  - apply factor_none. intros s s' S S'.
    replace (point_at (Line (Q i lo) (Q i hi)) s) with (Q i (lo + s * (hi - lo))) by (unfold point_at, Q, Pr; cbn [b1 b2 px py]; f_equal; ring).
    replace (point_at (Line (Q j lo') (Q j hi')) s') with (Q j (lo' + s' * (hi' - lo'))) by (unfold point_at, Q, Pr; cbn [b1 b2 px py]; f_equal; ring).
    unfold O, Q. rewrite see_row; auto; try nra. intros (U & EL & EJ). apply NF. fold r fl. split.
    + unfold fl in EL. rewrite <- looks_left_negb in EL. unfold looks_left in EL. destruct (Rlt_dec 0 r), b, c; cbn in EL |- *; congruence.
    + destruct fl; cbn [dirn] in EJ.
      * apply INR_eq. rewrite S_INR. lra.
      * apply INR_eq. rewrite S_INR. lra.
Qed.

Lemma ground_flat : forall y, In y (gnd_surfaces (ft_ground a)) -> forall s, py (point_at (s_coords y t) s) = 0.
Proof.
  intros y Hy s. destruct SC as (V & Fi & SA & NS & HR & HG & HF).
  destruct (gnd_shape p n f a t al V Fi SA NS HR HG y Hy) as (Sy & _). rewrite Sy. unfold point_at, gp. cbn [b1 b2 px py]. ring.
Qed.
End Scene.

(** C85: each entry of the matrix of view factors, between two surfaces longer than the
    tolerance, is the mean over the points of the first surface of the integral of Lambert's law
    over the part of the second one that can be seen from there, the ground and all rows being
    opaque. *)
Theorem C85_textbook : forall p n f a t al x nx y ny,
  scene p n f a t al -> (t < n)%nat -> placed a t x nx -> placed a t y ny ->
  DISTANCE_TOLERANCE < s_length x t -> DISTANCE_TOLERANCE < s_length y t ->
  view_factor (opaque_array p a t) (s_coords x t) nx (s_coords y t) ny (vf a t x y).
Proof.
  intros p n f a t al x nx y ny SC Ht X Y Lx Ly. destruct X as [i row b Hr Hx | Hx], Y as [j rowj c Hj Hy | Hy].
  - exact (row_row p n f a t al SC Ht i j row rowj b c x y Hr Hj Hx Hy Lx Ly).
  - exact (proj1 (row_ground p n f a t al SC Ht i row b x y Hr Hx Hy Lx Ly)).
  - exact (proj2 (row_ground p n f a t al SC Ht j rowj c y x Hj Hy Hx Ly Lx)).
  - assert (Z : vf a t x y = 0) by (destruct SC as (V & Fi & _); exact (C15_ground p n f a t x y V Fi Hx Hy)).
    rewrite Z. apply factor_none. intros s s' _ _ (A & _). unfold ahead in A. cbn [fst snd] in A.
    rewrite (ground_flat p n f a t al SC x Hx), (ground_flat p n f a t al SC y Hy) in A. lra.
Qed.
Print Assumptions C85_textbook.

(** C85: there is one such number only, so that this determines the entry. *)
Theorem C85_unique : forall p n f a t al x nx y ny v,
  scene p n f a t al -> (t < n)%nat -> placed a t x nx -> placed a t y ny ->
  DISTANCE_TOLERANCE < s_length x t -> DISTANCE_TOLERANCE < s_length y t ->
  (view_factor (opaque_array p a t) (s_coords x t) nx (s_coords y t) ny v <-> v = vf a t x y).
Proof.
  intros p n f a t al x nx y ny v SC Ht X Y Lx Ly. pose proof (C85_textbook p n f a t al x nx y ny SC Ht X Y Lx Ly) as E. split.
  - intro H. exact (view_factor_unique _ _ _ _ _ _ _ H E).
  - intros ->. exact E.
Qed.
Print Assumptions C85_unique.

(** The definition on a known case: two parallel plates of width 1 at the distance 1. *)
Example C85_plates : view_factor (fun _ => False) (Line (Pt 0 1) (Pt 1 1)) (0, -1) (Line (Pt 0 0) (Pt 1 0)) (0, 1) (sqrt 2 - 1).
Proof.
  set (x := Line (Pt 0 1) (Pt 1 1)). set (y := Line (Pt 0 0) (Pt 1 0)).
  assert (PX : forall s, point_at x s = Pt s 1) by (intro; unfold point_at, x; cbn; f_equal; ring).
  assert (PY : forall s, point_at y s = Pt s 0) by (intro; unfold point_at, y; cbn; f_equal; ring).
  assert (LX : euclid (b1 x) (b2 x) = 1) by (unfold euclid, dist2, x; cbn [b1 b2 px py]; replace ((0 - 1) * (0 - 1) + (1 - 1) * (1 - 1)) with 1 by ring; apply sqrt_1).
  assert (LY : euclid (b1 y) (b2 y) = 1) by (unfold euclid, dist2, y; cbn [b1 b2 px py]; replace ((0 - 1) * (0 - 1) + (0 - 0) * (0 - 0)) with 1 by ring; apply sqrt_1).
  assert (E : forall u v, euclid (Pt u 1) (Pt v 0) = sqrt (1 + (u - v) * (u - v))) by (intros; unfold euclid, dist2; cbn [px py]; f_equal; ring).
  replace (sqrt 2 - 1) with (1 * -1 / (2 * euclid (b1 x) (b2 x)) * bracket x y (Pt 0 5) (-1) 0 0 0).
  - apply (strings_both (fun _ => False) x y (0, -1) (0, 1) (Pt 0 5) 1 (-1) (-1) 0 0 0).
    + rewrite LX. unfold x, way. cbn. ring.
    + rewrite LX. unfold x, way. cbn. ring.
    + rewrite LY. unfold y, way. cbn. ring.
    + rewrite LY. unfold y, way. cbn. ring.
    + lra.
    + lra.
    + intros. rewrite PX, PY. unfold dist2. cbn [px py]. nra.
    + intros. rewrite PX. unfold dist2. cbn [px py]. nra.
    + intros. rewrite PY. unfold dist2. cbn [px py]. nra.
    + intros s s' _ _ Z. exfalso. lra.
    + intros s s' _ _. split; [intros _; lra|]. intros _. rewrite PX, PY. unfold in_sight, ahead. cbn [fst snd px py]. repeat split; try lra. tauto.
  - rewrite LX. unfold bracket, string_at. rewrite !PX, !PY. repeat (destruct (Rlt_dec _ _) as [?|_]; [exfalso; lra|]). rewrite !E.
    replace (1 + (1 - 1) * (1 - 1)) with 1 by ring. replace (1 + (0 - 0) * (0 - 0)) with 1 by ring.
    replace (1 + (1 - 0) * (1 - 0)) with 2 by ring. replace (1 + (0 - 1) * (0 - 1)) with 2 by ring. rewrite sqrt_1. field.
Qed.

(** In the example, at t = 1: the shaded part of the front of row 1, of length 1/2, and a part of
    the back of row 2 that faces it. *)
Example C85_example : exists a x y nx ny,
  scene ex_p 2 ex_f a 1 (PI / 6) /\ placed a 1 x nx /\ placed a 1 y ny /\
  DISTANCE_TOLERANCE < s_length x 1%nat /\ DISTANCE_TOLERANCE < s_length y 1%nat /\ s_length x 1%nat = 1 / 2 /\
  exists row row2, nth_error (ft_rows a) 1 = Some row /\ nth_error (ft_rows a) 2 = Some row2 /\
    In x (side_surfaces (row_front row)) /\ In y (side_surfaces (row_back row2)) /\
    looks_left (ft_rotation a 1%nat) false = false /\ looks_left (ft_rotation a 1%nat) true = true.
Proof.
  destruct ex_fit as [a Ha]. destruct (ex_scene a Ha) as [_ SC]. destruct (ex_surfaces a Ha) as (row & x & _ & Hr & Hx & _ & _ & _ & Lx & _ & T).
  assert (R2 : exists row2, nth_error (ft_rows a) 2 = Some row2).
  { destruct (nth_error (ft_rows a) 2) eqn:E; [eauto|]. exfalso. apply nth_error_None in E. rewrite (rows_length ex_p 2 ex_f a Ha) in E. change (pa_n_pvrows ex_p) with 3%nat in E. lia. }
  destruct R2 as [row2 Hr2]. pose proof SC as (_ & _ & _ & _ & HR & _).
  assert (Y : exists y, In y (side_surfaces (row_back row2)) /\ DISTANCE_TOLERANCE < s_length y 1%nat).
  { destruct (C06_side_partition ex_p 2 ex_f a 1 2 row2 true ex_valid Ha HR Hr2) as [NB [_ SB]]. cbn [pa_cut ex_p Nat.eqb negb andb] in NB.
    assert (One : exists sg, side_segments (row_back row2) = [sg]) by (destruct (side_segments (row_back row2)) as [|sg [|]]; try discriminate; eauto).
    destruct One as [sg ES]. destruct (SB 0%nat sg ltac:(rewrite ES; reflexivity)) as (il & sh & lo & hi & m & E1 & E2 & _).
    pose proof (side_width ex_p 2 ex_f a 1 2 row2 true ex_valid Ha HR Hr2) as W. cbn [pa_width ex_p] in W.
    unfold side_of, side_surfaces in W. rewrite ES in W. cbn [flat_map] in W. unfold seg_surfaces in W. rewrite E1, E2 in W. cbn in W.
    unfold side_surfaces. rewrite ES. cbn [flat_map]. unfold seg_surfaces. rewrite E1, E2. cbn [List.app].
    destruct (Rlt_dec DISTANCE_TOLERANCE (s_length il 1%nat)) as [L|L].
    - exists il. split; [cbn; auto | exact L].
    - exists sh. split; [cbn; auto | lra]. }
  destruct Y as (y & Hy & Ly). destruct (fit_spec _ _ _ _ Ha) as [_ [Er _]].
  assert (Rn : ft_rotation a 1%nat = -60) by (rewrite Er; apply ex_rot1).
  exists a, x, y, (side_normal (ft_rotation a 1%nat) false), (side_normal (ft_rotation a 1%nat) true).
  split; [exact SC|]. split; [apply (on_side a 1 x 1 row false Hr Hx)|]. split; [apply (on_side a 1 y 2 row2 true Hr2 Hy)|].
  split; [lra|]. split; [exact Ly|]. split; [exact Lx|]. exists row, row2. rewrite Rn. unfold looks_left. destruct (Rlt_dec 0 (-60)); [lra|]. repeat split; assumption.
Qed.
