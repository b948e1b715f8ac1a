(** Consequences for the view factor matrix: reciprocity, sums, bounds, visibility,
    and Hottel's formula. *)
From Coq Require Import Reals List Bool Arith Lra Lia Permutation.
From Verif Require Import Num ModelTs ModelGeom ModelVF Basics SpecGeom SpecVF ProofGround ProofShade ProofRow ProofAngles ProofFit ProofCut ProofIndex ProofGeom ProofGeom2 ProofString ProofMatrix ProofTele ProofVF.
Import ListNotations.
Open Scope R_scope.

Lemma sum_over_rsum : forall (A : Type) (l : list A) (f : A -> R), sum_over l f = rsum (map f l).
Proof. intros. unfold sum_over. induction (map f l); cbn; congruence. Qed.

Lemma euclid_distance : forall p q, euclid p q = distance p q.
Proof. intros p q. unfold euclid, dist2, distance, Rsqr. apply f_equal. ring. Qed.

Section NoGeometry.
Variables (p : pvarray_params) (n : nat) (f : fit_inputs) (a : fitted) (t : nat).
Hypothesis V : valid_params p.
Hypothesis F : fit p n f = Some a.

Let idx := surf_index a.
Let ns := n_ts_surfaces a.
Let E := build_vf_matrix a t.

Lemma idx_lt : forall s, In s (all_ts_surfaces a) -> (idx s < ns)%nat.
Proof. intros s H. apply (surf_index_lt _ _ _ _ V F s H). Qed.

Lemma entry_pre : forall x y, In y (all_ts_surfaces a) -> E (idx x) (idx y) = pre_sky a t (idx x) (idx y).
Proof. intros x y H. apply vf_cell. apply idx_lt; auto. Qed.

(** A pair that is not of one of the two kinds, in either order, has zero cells. *)
Lemma entry_nonzero : forall x y, In x (all_ts_surfaces a) -> In y (all_ts_surfaces a) ->
  pre_sky a t (idx x) (idx y) <> 0 ->
  exists v, (pair_of a t x y v \/ pair_of a t y x v) /\
    is_empty (ft_n_states a) x = false /\ is_empty (ft_n_states a) y = false.
Proof.
  intros x y Ax Ay H. apply (pre_sky_other a) in H. destruct H as [x' [y' [v [Hp [Ex [Ey [[K1 K2] | [K1 K2]]]]]]]];
    destruct (pair_in_all _ _ _ _ F _ _ _ _ Hp) as [Ax' Ay']; exists v.
  - apply (surf_index_inj _ _ _ _ _ _ V F Ax Ax') in K1. apply (surf_index_inj _ _ _ _ _ _ V F Ay Ay') in K2. subst. auto.
  - apply (surf_index_inj _ _ _ _ _ _ V F Ax Ay') in K1. apply (surf_index_inj _ _ _ _ _ _ V F Ay Ax') in K2. subst. auto.
Qed.

Lemma pair_value_reciprocal : forall x y v, pair_of a t x y v ->
  (DISTANCE_TOLERANCE < s_length y t -> s_length x t * fst v = s_length y t * snd v) /\
  (s_length y t <= DISTANCE_TOLERANCE -> snd v = 0) /\ (s_length x t <= DISTANCE_TOLERANCE -> fst v = 0 /\ snd v = 0).
Proof.
  pose proof DISTANCE_TOLERANCE_pos as T0.
  intros x y v [[i [row [b [left [_ [_ [_ ->]]]]]]] | [i [row [row' [b [_ [_ [_ [_ ->]]]]]]]]].
  - unfold vf_pvrow_surf_to_gnd_surf. cbn [fst snd].
    match goal with |- context [ _ * fst (?u, _) ] => idtac | _ => idtac end.
    set (vf := if left then _ else _). split; [| split].
    + intro H. rewrite (proj2 (Rltb_true _ _) H). cbn [np_where]. field. lra.
    + intro H. rewrite (proj2 (Rltb_false _ _) H). reflexivity.
    + intro H. assert (Z : vf = 0).
      { unfold vf. rewrite vf_s2s_short, vf_hottel_short by exact H.
        unfold np_where. destruct (left && (i =? 0)%nat || negb left && (i =? length (ft_rows a) - 1)%nat)%bool, left, b, (Rltb 0 (ft_rotation a t)); reflexivity. }
      rewrite Z. split; [reflexivity |]. unfold np_where. destruct (Rltb DISTANCE_TOLERANCE (s_length y t)); unfold Rdiv; ring.
  - unfold vf_pvrow_pair. cbn [fst snd]. set (vf := np_where (if b then _ else _) _ _). split; [| split].
    + intro H. rewrite (proj2 (Rltb_true _ _) H). cbn [np_where]. field. lra.
    + intro H. rewrite (proj2 (Rltb_false _ _) H). reflexivity.
    + intro H. assert (Z : vf = 0).
      { unfold vf. rewrite vf_s2s_short by exact H. unfold np_where. destruct (if b then _ else _); reflexivity. }
      rewrite Z. split; [reflexivity |]. unfold np_where. destruct (Rltb DISTANCE_TOLERANCE (s_length y t)); unfold Rdiv; ring.
Qed.

Lemma reciprocity : forall x y, In x (all_ts_surfaces a) -> In y (all_ts_surfaces a) ->
  DISTANCE_TOLERANCE < s_length x t -> DISTANCE_TOLERANCE < s_length y t ->
  s_length x t * E (idx x) (idx y) = s_length y t * E (idx y) (idx x).
Proof.
  intros x y Ax Ay Lx Ly. rewrite !entry_pre by auto.
  assert (Q : forall x y v, pair_of a t x y v -> is_empty (ft_n_states a) x = false -> is_empty (ft_n_states a) y = false ->
     DISTANCE_TOLERANCE < s_length y t ->
     s_length x t * pre_sky a t (idx x) (idx y) = s_length y t * pre_sky a t (idx y) (idx x)).
  { intros x0 y0 v Hp Ex Ey Hl. destruct (pre_sky_pair _ _ _ _ V F _ _ _ _ Hp Ex Ey) as [H1 H2].
    unfold idx. rewrite H1, H2. apply (pair_value_reciprocal _ _ _ Hp). exact Hl. }
  destruct (Req_dec (pre_sky a t (idx x) (idx y)) 0) as [Z | Z]; [destruct (Req_dec (pre_sky a t (idx y) (idx x)) 0) as [Z' | Z'] |].
  - rewrite Z, Z'. ring.
  - destruct (entry_nonzero _ _ Ay Ax Z') as [v [[Hp | Hp] [E1 E2]]]; [symmetry |]; eapply Q; eauto.
  - destruct (entry_nonzero _ _ Ax Ay Z) as [v [[Hp | Hp] [E1 E2]]]; [| symmetry]; eapply Q; eauto.
Qed.

(** Rows of the matrix of surfaces which are not above the tolerance are zero. *)
Lemma short_zero : forall x y, In x (all_ts_surfaces a) -> In y (all_ts_surfaces a) ->
  s_length x t <= DISTANCE_TOLERANCE -> pre_sky a t (idx x) (idx y) = 0.
Proof.
  intros x y Ax Ay Lx. destruct (Req_dec (pre_sky a t (idx x) (idx y)) 0) as [Z | Z]; auto. exfalso.
  destruct (entry_nonzero _ _ Ax Ay Z) as [v [[Hp | Hp] [E1 E2]]];
    destruct (pair_value_reciprocal _ _ _ Hp) as [_ [K1 K2]]; apply Z; unfold idx.
  - destruct (pre_sky_pair _ _ _ _ V F _ _ _ _ Hp E1 E2) as [-> _]. apply K2. exact Lx.
  - destruct (pre_sky_pair _ _ _ _ V F _ _ _ _ Hp E2 E1) as [_ ->]. apply K1. exact Lx.
Qed.

Lemma surface_at : forall k, (k < ns)%nat -> exists s, In s (all_ts_surfaces a) /\ idx s = k /\ nth_error (all_ts_surfaces a) k = Some s.
Proof.
  intros k Hk. destruct (nth_error (all_ts_surfaces a) k) as [s |] eqn:E1.
  - exists s. split; [eapply nth_error_In; eauto |]. split; [| reflexivity]. apply (surf_index_nth _ _ _ _ _ _ V F E1).
  - apply nth_error_None in E1. unfold ns in Hk. rewrite n_ts_surfaces_length in Hk. lia.
Qed.

Lemma sums_to_one : forall x, In x (all_ts_surfaces a) ->
  (DISTANCE_TOLERANCE < s_length x t -> sum_over (seq 0 (S ns)) (fun j => E (idx x) j) = 1) /\
  (s_length x t <= DISTANCE_TOLERANCE -> forall j, E (idx x) j = 0) /\
  E (idx x) (idx x) = 0 /\
  (forall j, E ns j = 0).
Proof.
  intros x Ax. destruct (surf_index_lt _ _ _ _ V F x Ax) as [Hlt Hnth]. fold idx in Hlt, Hnth.
  pose proof (vf_sky_cell a t (idx x) x Hnth) as Sk. split; [| split; [| split]].
  - intro L. rewrite sum_over_rsum, rsum_seq. cbn [isum]. fold E ns in Sk. rewrite Sk, (proj2 (Rltb_true _ _) L).
    rewrite (isum_ext ns (fun j => E (idx x) j) (fun j => pre_sky a t (idx x) j)); [ring |].
    intros j Hj. apply vf_cell. exact Hj.
  - intros L j. destruct (lt_eq_lt_dec j ns) as [[Hj | ->] | Hj].
    + destruct (surface_at j Hj) as [s [As [<- _]]]. rewrite entry_pre by auto. apply short_zero; auto.
    + fold E ns in Sk. rewrite Sk, (proj2 (Rltb_false _ _) L). reflexivity.
    + unfold E. rewrite build_vf_matrix_eq, clear_sky_cells, Hnth. fold ns. rewrite (proj2 (Nat.eqb_neq j ns)) by lia.
      unfold set_sky_column. rewrite (proj2 (Nat.eqb_neq j ns)) by lia. rewrite andb_false_r.
      apply (pre_sky_range _ _ _ _ V F). right. unfold ns in Hj. lia.
  - rewrite entry_pre by auto. destruct (Req_dec (pre_sky a t (idx x) (idx x)) 0) as [Z | Z]; auto.
    destruct (entry_nonzero _ _ Ax Ax Z) as [v [Hp _]]. exfalso.
    destruct Hp as [Hp | Hp]; exact (pair_asym _ _ _ _ V F _ _ _ _ _ Hp Hp).
  - intro j. apply (vf_sky_row _ _ _ _ V F).
Qed.
End NoGeometry.

Section Geometry.
Variables (p : pvarray_params) (n : nat) (f : fit_inputs) (a : fitted) (t : nat) (al : R).
Hypothesis V : valid_params p.
Hypothesis F : fit p n f = Some a.
Hypothesis SA : sun_angle (fi_zenith f t) (fi_azimuth f t) (pa_axis_azimuth p) al.
Hypothesis NS : ~ shading_sliver DISTANCE_TOLERANCE (pa_width p) (pa_distance p) al (ft_rotation a t).
Hypothesis HR : -180 < ft_rotation a t < 180.
Hypothesis HG : pa_width p / 2 * Rabs (sin (ft_rotation a t * PI / 180)) < pa_height p.
Hypothesis HF : ft_rotation a t = 0 -> pa_width p <= pa_distance p.

Let idx := surf_index a.
Let ns := n_ts_surfaces a.
Let E := build_vf_matrix a t.

Lemma surface_row_or_gnd : forall x, In x (all_ts_surfaces a) ->
  In x (gnd_surfaces (ft_ground a)) \/ exists i row b, nth_error (ft_rows a) i = Some row /\ In x (side_surfaces (side_of b row)).
Proof.
  intros x H. unfold all_ts_surfaces in H. apply in_app_or in H. destruct H as [H | H]; auto.
  right. apply in_flat_map in H. destruct H as [row [Hr Hx]]. apply In_nth_error in Hr. destruct Hr as [i Hi].
  exists i, row. unfold row_surfaces in Hx. apply in_app_or in Hx. destruct Hx; [exists false | exists true]; auto.
Qed.

Lemma pre_sum_le : forall x, In x (all_ts_surfaces a) -> isum ns (fun j => pre_sky a t (idx x) j) <= 1.
Proof.
  intros x Ax. unfold ns. rewrite (isum_surfaces _ _ _ _ V F (fun j => pre_sky a t (idx x) j)).
  destruct (Rle_lt_dec (s_length x t) DISTANCE_TOLERANCE) as [L | L].
  - rewrite rsum_map_zero; [lra |]. intros y Ay. exact (short_zero _ _ _ _ t V F x y Ax Ay L).
  - destruct (surface_row_or_gnd x Ax) as [G | [i [row [b [Hr Hx]]]]].
    + exact (gnd_sum_le p n f a t al V F SA NS HR HG x G L).
    + exact (row_sum_le p n f a t al V F SA NS HR HG HF i row b x Hr Hx L).
Qed.

Lemma entries_fraction : forall k j, 0 <= E k j <= 1.
Proof.
  pose proof (cells_nonneg p n f a t al V F SA NS HR HG HF) as C0.
  intros k j. destruct (lt_dec k ns) as [Hk | Hk].
  2:{ unfold E. rewrite build_vf_matrix_eq, clear_sky_cells.
      assert (Z : nth_error (all_ts_surfaces a) k = None) by (apply nth_error_None; unfold ns in Hk; rewrite n_ts_surfaces_length in Hk; lia).
      rewrite Z. unfold set_sky_column. fold ns. rewrite (proj2 (Nat.ltb_ge k ns)) by lia. cbn [andb].
      rewrite (pre_sky_range _ _ _ _ V F) by (left; unfold ns in Hk; lia). lra. }
  destruct (surface_at _ _ _ _ V F k Hk) as [x [Ax [<- Hx]]].
  pose proof (pre_sum_le x Ax) as Sm.
  destruct (lt_eq_lt_dec j ns) as [[Hj | ->] | Hj].
  - unfold E. rewrite vf_cell by exact Hj. split; [apply C0 |].
    apply Rle_trans with (2 := Sm). apply (isum_in_le ns (fun j => pre_sky a t (idx x) j) j); auto.
  - unfold E, ns. rewrite (vf_sky_cell a t _ x Hx). destruct (Rltb DISTANCE_TOLERANCE (s_length x t)); [| lra].
    fold ns. assert (0 <= isum ns (fun j => pre_sky a t (idx x) j)) by (apply isum_nonneg; auto). unfold idx in *. lra.
  - unfold E. rewrite build_vf_matrix_eq, clear_sky_cells, Hx. fold ns. rewrite (proj2 (Nat.eqb_neq j ns)) by lia.
    unfold set_sky_column. rewrite (proj2 (Nat.eqb_neq j ns)) by lia. rewrite andb_false_r.
    rewrite (pre_sky_range _ _ _ _ V F) by (right; unfold ns in Hj; lia). lra.
Qed.

(* ------------------------------------------------------------- Hottel's formula *)

Lemma taut_str : forall left o q g, taut_string left o q (gp g) =
  str (option_map (orient left) o) (orient left q) (og left g).
Proof.
  intros left o q g. unfold taut_string, str. destruct o as [o |]; cbn [option_map].
  - assert (Ec : (if left then turn (gp g) o q else turn (gp g) q o) = crs (gp (og left g)) (orient left q) (orient left o)).
    { unfold turn, crs, og, orient, mir, gp. destruct left; cbn [px py]; ring. }
    rewrite Ec. rewrite <- orient_gp, !dist_orient, !euclid_distance. reflexivity.
  - rewrite <- orient_gp, dist_orient. apply euclid_distance.
Qed.

(** Neighbour of row [i] in direction [left], if any. *)
Definition neighbour_edge (left : bool) (i : nat) : option pt :=
  let P j := point_from_low_edge (pa_width p) (pa_distance p) (pa_height p) (ft_rotation a t) j 0 in
  if left then match i with 0%nat => None | S j => Some (P j) end
  else if Nat.ltb (S i) (pa_n_pvrows p) then Some (P (S i)) else None.

Lemma RP_point : forall i e, RP p a t i e = point_from_low_edge (pa_width p) (pa_distance p) (pa_height p) (ft_rotation a t) i e.
Proof. intros. unfold RP, point_from_low_edge. reflexivity. Qed.

(** A side looks to the left: the front when the rotation is positive, the back
    otherwise. *)
Definition looks_left (rotation : R) (is_back : bool) : bool :=
  if Rlt_dec 0 rotation then negb is_back else is_back.

Lemma looks_left_eq : forall r b, looks_left r b = xorb b (Rltb 0 r).
Proof.
  intros r b. unfold looks_left. destruct (Rlt_dec 0 r) as [H | H].
  - rewrite (proj2 (Rltb_true 0 r) H). destruct b; reflexivity.
  - rewrite (proj2 (Rltb_false 0 r)) by lra. destruct b; reflexivity.
Qed.

Lemma neighbour_obs : forall left i, (i < pa_n_pvrows p)%nat ->
  option_map (orient left) (neighbour_edge left i) = obs p a t left i.
Proof.
  intros left i Hi. unfold obs. destruct (is_edge p left i) eqn:Eg; unfold neighbour_edge; cbn [is_edge] in *.
  - destruct left; apply Nat.eqb_eq in Eg.
    + subst i. reflexivity.
    + rewrite (proj2 (Nat.ltb_ge (S i) (pa_n_pvrows p))) by lia. reflexivity.
  - rewrite <- (orient_next p a t left i Hi Eg).
    destruct left; apply Nat.eqb_neq in Eg.
    + destruct i as [| j]; [lia |]. cbn [option_map next]. rewrite Nat.sub_1_r. reflexivity.
    + rewrite (proj2 (Nat.ltb_lt (S i) (pa_n_pvrows p))) by lia. cbn [option_map next].
      replace (i + 1)%nat with (S i) by lia. reflexivity.
Qed.

Let P (i : nat) (e : R) : pt := point_from_low_edge (pa_width p) (pa_distance p) (pa_height p) (ft_rotation a t) i e.

Lemma RPp : forall i e, RP p a t i e = P i e.
Proof. intros. apply RP_point. Qed.

Definition is_piece_of_row (i : nat) (s : ts_surface) (lo hi : R) : Prop :=
  0 <= lo /\ lo < hi /\ hi <= pa_width p /\
  (s_coords s t = Line (P i lo) (P i hi) \/ s_coords s t = Line (P i hi) (P i lo)).

Lemma hottel_row_ground : forall i row b x y left, (t < n)%nat ->
  nth_error (ft_rows a) i = Some row -> In x (side_surfaces (side_of b row)) ->
  In y (gnd_side_of_cut_point (ft_ground a) left i) ->
  DISTANCE_TOLERANCE < s_length x t -> DISTANCE_TOLERANCE < s_length y t ->
  exists lo hi, is_piece_of_row i x lo hi /\
    E (idx x) (idx y) =
      if Bool.eqb left (looks_left (ft_rotation a t) b)
      then hottel_ground left (neighbour_edge left i) (P i lo) (P i hi) (b1 (s_coords y t)) (b2 (s_coords y t))
      else 0.
Proof.
  intros i row b x y left Ht Hr Hx Hy Lx Ly. pose proof DISTANCE_TOLERANCE_pos as T0. pose proof (row_lt p n f a F _ _ Hr) as Hi.
  destruct (surface_spans p n f a t V F HR i row b x Hr Hx) as [lo [hi [E1 [E2 [Elo [Ehi [El Ec]]]]]]].
  exists lo, hi. split; [unfold is_piece_of_row; repeat split; try lra; exact Ec |].
  pose proof (in_gnd_side _ _ _ _ _ _ _ F Hi Hy) as Gy.
  rewrite (entry_pre _ _ _ _ t V F) by (apply in_all_gnd; exact Gy).
  pose proof (cell_row_gnd_exact p n f a t al V F SA NS HR HG i row b left x y Ht Hr Hx Hy (or_intror Lx) (or_intror Ly)) as Q.
  rewrite looks_left_eq. destruct (gnd_shape p n f a t al V F SA NS HR HG y Gy) as [Sy _].
  rewrite (Rmult_comm (s_length x t)) in Q. destruct (Bool.eqb left (xorb b (Rltb 0 (ft_rotation a t)))).
  2:{ apply Rmult_integral in Q. destruct Q as [Q | Q]; [exact Q | lra]. }
  assert (Hh : hottel_ground left (neighbour_edge left i) (P i lo) (P i hi) (b1 (s_coords y t)) (b2 (s_coords y t)) =
               xpiece p a t left i x y / (2 * s_length x t)).
  { unfold hottel_ground, xpiece, gpiece. rewrite <- (neighbour_obs left i Hi), Elo, Ehi, (RPp i lo), (RPp i hi).
    assert (Lw : euclid (P i lo) (P i hi) = s_length x t).
    { rewrite euclid_distance. unfold s_length. destruct Ec as [-> | ->]; rewrite line_length_dist; cbn [b1 b2]; [| rewrite dist_sym]; rewrite (RPp i lo), (RPp i hi); reflexivity. }
    rewrite Lw. apply f_equal2; [| reflexivity]. unfold ogl, ogr. rewrite Sy. cbn [b1 b2]. destruct left.
    - rewrite !taut_str. cbn [og]. unfold gp; cbn [px]. unfold og. ring.
    - rewrite !taut_str. cbn [og]. unfold gp; cbn [px]. unfold og. ring. }
  rewrite Hh. apply (Rmult_eq_reg_r (s_length x t)); [| lra]. unfold idx. rewrite Q. field. lra.
Qed.

Lemma hottel_row_row : forall i j row rowj b c x y, (t < n)%nat ->
  nth_error (ft_rows a) i = Some row -> nth_error (ft_rows a) j = Some rowj ->
  In x (side_surfaces (side_of b row)) -> In y (side_surfaces (side_of c rowj)) ->
  DISTANCE_TOLERANCE < s_length x t -> DISTANCE_TOLERANCE < s_length y t ->
  exists lo hi lo' hi', is_piece_of_row i x lo hi /\ is_piece_of_row j y lo' hi' /\
    (((c = negb b /\ if looks_left (ft_rotation a t) b then i = S j else j = S i) /\
      E (idx x) (idx y) = hottel_rows (P i lo) (P i hi) (P j lo') (P j hi')) \/
     (~ (c = negb b /\ if looks_left (ft_rotation a t) b then i = S j else j = S i) /\ E (idx x) (idx y) = 0)).
Proof.
  intros i j row rowj b c x y Ht Hr Hj Hx Hy Lx Ly. pose proof DISTANCE_TOLERANCE_pos as T0.
  pose proof (row_lt p n f a F _ _ Hr) as Hi. pose proof (row_lt p n f a F _ _ Hj) as Hjl.
  destruct (surface_spans p n f a t V F HR i row b x Hr Hx) as [lo [hi [E1 [E2 [Elo [Ehi [El Ec]]]]]]].
  destruct (surface_spans p n f a t V F HR j rowj c y Hj Hy) as [lo' [hi' [E1' [E2' [Elo' [Ehi' [El' Ec']]]]]]].
  exists lo, hi, lo', hi'. split; [unfold is_piece_of_row; repeat split; try lra; exact Ec |].
  split; [unfold is_piece_of_row; repeat split; try lra; exact Ec' |].
  rewrite (entry_pre _ _ _ _ t V F) by (exact (in_all_row _ _ _ _ _ Hj Hy)).
  destruct (bool_dec c (negb b)) as [-> | Nc].
  2:{ right. split; [tauto |]. apply (cell_rows_zero p n f a t V F i j row rowj b c x y Hr Hj Hx Hy). tauto. }
  pose proof (cell_row_row_exact p n f a t V F HR HF i j row rowj b x y Ht Hr Hj Hx Hy (or_intror Lx) (or_intror Ly)) as Q.
  rewrite looks_left_eq. rewrite (Rmult_comm (s_length x t)) in Q. set (fl := xorb b (Rltb 0 (ft_rotation a t))) in *.
  assert (Lw : euclid (P i lo) (P i hi) = s_length x t).
  { rewrite euclid_distance. unfold s_length. destruct Ec as [-> | ->]; rewrite line_length_dist; cbn [b1 b2]; [| rewrite dist_sym]; rewrite (RPp i lo), (RPp i hi); reflexivity. }
  assert (Dc : (if fl then i = S j else j = S i) <-> (Nat.eqb j (next fl i) && negb (is_edge p fl i))%bool = true).
  { rewrite andb_true_iff, negb_true_iff, Nat.eqb_eq. unfold next, is_edge. destruct fl; rewrite Nat.eqb_neq; lia. }
  destruct (Nat.eqb j (next fl i) && negb (is_edge p fl i))%bool.
  - left. split; [split; [reflexivity | apply Dc; reflexivity] |]. apply (Rmult_eq_reg_r (s_length x t)); [| lra].
    unfold idx. rewrite Q. unfold hottel_rows, cross. rewrite Lw, Elo, Ehi, Elo', Ehi', (RPp i lo), (RPp i hi), (RPp j lo'), (RPp j hi'), !euclid_distance. field. lra.
  - right. split; [intros [_ K]; apply Dc in K; discriminate |]. apply Rmult_integral in Q. destruct Q as [Q | Q]; [exact Q | lra].
Qed.
End Geometry.

(* --------------------------------------------------------------------- visibility *)

(** [x] is on a side of a row that looks towards [y], which is on the ground or on the
    opposite side of the next row in that direction. *)
Definition looks_at (a : fitted) (t : nat) (x y : ts_surface) : Prop :=
  exists i row (is_back : bool), nth_error (ft_rows a) i = Some row /\
    In x (side_surfaces (if is_back then row_back row else row_front row)) /\
    let left := looks_left (ft_rotation a t) is_back in
    (In y (gnd_side_of_cut_point (ft_ground a) left i) \/
     exists j row', nth_error (ft_rows a) j = Some row' /\
       In y (side_surfaces (if is_back then row_front row' else row_back row')) /\
       (if left then i = S j else j = S i)).

Lemma pair_faces : forall a t x y v, pair_of a t x y v -> fst v <> 0 \/ snd v <> 0 -> looks_at a t x y.
Proof.
  intros a t x y v [[i [row [b [left [Hr [Hx [Hy ->]]]]]]] | [i [row [row' [b [Hr [Hr' [Hx [Hy ->]]]]]]]]] Hv.
  - exists i, row, b. split; [exact Hr |]. split; [destruct b; exact Hx |]. left.
    rewrite looks_left_eq. assert (K : left = xorb b (Rltb 0 (ft_rotation a t))); [| rewrite <- K; exact Hy].
    unfold vf_pvrow_surf_to_gnd_surf in Hv. cbn [fst snd] in Hv.
    destruct left, b, (Rltb 0 (ft_rotation a t)); try reflexivity; exfalso; cbn [np_where] in Hv;
      destruct Hv as [Hv | Hv]; try (apply Hv; reflexivity);
      apply Hv; unfold np_where; destruct (Rltb DISTANCE_TOLERANCE (s_length y t)); unfold Rdiv; ring.
  - exists i, row, b. split; [exact Hr |]. split; [destruct b; exact Hx |]. right.
    exists (S i), row'. split; [exact Hr' |]. split; [destruct b; exact Hy |].
    rewrite looks_left_eq. unfold vf_pvrow_pair in Hv. cbn [fst snd] in Hv.
    destruct b, (Rltb 0 (ft_rotation a t)); cbn [xorb]; try reflexivity; exfalso; cbn [np_where negb] in Hv;
      destruct Hv as [Hv | Hv]; try (apply Hv; reflexivity);
      apply Hv; unfold np_where; destruct (Rltb DISTANCE_TOLERANCE (s_length y t)); unfold Rdiv; ring.
Qed.

Lemma visibility : forall p n f a t x y, valid_params p -> fit p n f = Some a ->
  In x (all_ts_surfaces a) -> In y (all_ts_surfaces a) ->
  build_vf_matrix a t (surf_index a x) (surf_index a y) <> 0 -> looks_at a t x y \/ looks_at a t y x.
Proof.
  intros p n f a t x y V F Ax Ay H. rewrite (entry_pre _ _ _ _ t V F) in H by auto.
  destruct (entry_nonzero _ _ _ _ t V F x y Ax Ay H) as [v [[Hp | Hp] [Ex Ey]]].
  - left. apply (pair_faces _ _ _ _ _ Hp). left.
    destruct (pre_sky_pair _ _ _ _ V F _ _ _ _ Hp Ex Ey) as [E1 _]. rewrite <- E1. exact H.
  - right. apply (pair_faces _ _ _ _ _ Hp). right.
    destruct (pre_sky_pair _ _ _ _ V F _ _ _ _ Hp Ey Ex) as [_ E1]. rewrite <- E1. exact H.
Qed.

(* --------------------------------------------------------------------- additivity *)

Lemma hottel_additive : forall high low o w left y lo hi l, contiguous lo hi l ->
  vf_hottel_gnd_surf high low (Pt lo y) (Pt hi y) o w left =
  sum_over l (fun i => vf_hottel_gnd_surf high low (Pt (fst i) y) (Pt (snd i) y) o w left).
Proof.
  intros high low o w left y lo hi l C. rewrite sum_over_rsum. destruct (Rle_lt_dec w DISTANCE_TOLERANCE) as [W | W].
  - rewrite vf_hottel_short by exact W. rewrite rsum_map_zero; [reflexivity |]. intros. apply vf_hottel_short. exact W.
  - set (G := fun g => (if left then 1 else -1) / (2 * w) *
       (hottel_string_length high (Pt g y) o left - hottel_string_length low (Pt g y) o left)).
    assert (K : forall u v, vf_hottel_gnd_surf high low (Pt u y) (Pt v y) o w left = G v - G u).
    { intros u v. unfold vf_hottel_gnd_surf, G. rewrite (proj2 (Rltb_true _ _) W). cbn [np_where].
      pose proof DISTANCE_TOLERANCE_pos. destruct left; field; lra. }
    rewrite K, (rsum_map_ext _ _ (fun i => G (snd i) - G (fst i))) by (intros; apply K).
    symmetry. apply (contiguous_telescope G _ _ _ C).
Qed.

(** The ground from [lo] to [hi] is on one side of the line through [P] and [Q]. *)
Definition ground_on_side (left : bool) (P Q : pt) (lo hi : R) : Prop :=
  if left then 0 <= turn (Pt hi 0) P Q else 0 <= turn (Pt lo 0) Q P.

Lemma free_piece : forall left P Q u v, 0 < py P <= py Q -> u <= v -> ground_on_side left P Q u v ->
  0 <= gpiece None (orient left P) (orient left Q) (if left then - v else u) (if left then - u else v).
Proof.
  intros left P Q u v HP Huv Hs.
  destruct (Req_dec (distance P Q) 0) as [Z | Nz].
  - assert (Es : P = Q).
    { unfold distance in Z. rewrite <- !Rsqr_pow2 in Z. apply sqrt_eq_0 in Z; [| pose proof (Rle_0_sqr (py Q - py P)); pose proof (Rle_0_sqr (px Q - px P)); lra].
      pose proof (Rle_0_sqr (py Q - py P)) as A1. pose proof (Rle_0_sqr (px Q - px P)) as A2.
      assert (B1 : Rsqr (py Q - py P) = 0) by lra. assert (B2 : Rsqr (px Q - px P) = 0) by lra.
      apply Rsqr_0_uniq in B1, B2. destruct P as [xP yP], Q as [xQ yQ]. cbn [px py] in *. f_equal; lra. }
    subst Q. unfold gpiece, str. lra.
  - pose proof (dist_pos P Q) as D0. set (d := distance P Q) in *. assert (Hd : 0 < d) by lra.
    set (L := orient left P). set (ux := (px (orient left Q) - px L) / d). set (uy := (py Q - py P) / d).
    assert (Hdd : d * d = Rsqr (py Q - py P) + Rsqr (px Q - px P)).
    { unfold d, distance. rewrite <- !Rsqr_pow2. rewrite sqrt_sqrt; [ring | apply Rplus_le_le_0_compat; apply Rle_0_sqr]. }
    assert (Hx2 : Rsqr (px (orient left Q) - px L) = Rsqr (px Q - px P)).
    { unfold L, orient, mir. destruct left; cbn [px]; unfold Rsqr; ring. }
    assert (Hu : ux * ux + uy * uy = 1).
    { unfold ux, uy. replace ((px (orient left Q) - px L) / d * ((px (orient left Q) - px L) / d) + (py Q - py P) / d * ((py Q - py P) / d))
        with ((Rsqr (px (orient left Q) - px L) + Rsqr (py Q - py P)) / (d * d)) by (unfold Rsqr; field; lra).
      rewrite Hx2, Hdd. field. rewrite <- Hdd. apply Rgt_not_eq. apply Rmult_lt_0_compat; lra. }
    assert (E0 : L = rp L ux uy 0) by (unfold rp; destruct L as [lx ly]; cbn [px py]; f_equal; ring).
    assert (E1 : orient left Q = rp L ux uy d).
    { unfold rp. assert (px L + d * ux = px (orient left Q)) by (unfold ux; field; lra).
      assert (py L + d * uy = py (orient left Q)) by (unfold uy, L; rewrite !orient_y; field; lra).
      rewrite H, H0. destruct (orient left Q); reflexivity. }
    rewrite E1. rewrite E0 at 1. rewrite gpiece_piece. apply piece_none_nonneg; auto.
    + unfold L. rewrite orient_y. lra.
    + unfold uy. apply Rmult_le_pos; [lra | left; apply Rinv_0_lt_compat; lra].
    + lra.
    + destruct left; lra.
    + assert (K : 0 <= (d - 0) * side_k L ux uy (if left then - v else u)).
      { rewrite <- crs_rp, <- E0, <- E1. unfold ground_on_side, turn in Hs. unfold crs, L, orient, mir, gp.
        destruct left; cbn [px py] in *; lra. }
      destruct (Rle_lt_dec 0 (side_k L ux uy (if left then - v else u))) as [B | B]; auto.
      exfalso. assert (0 < d * - side_k L ux uy (if left then - v else u)) by (apply Rmult_lt_0_compat; lra). lra.
Qed.

Lemma ground_side_inside : forall left P Q lo hi u v, py P <= py Q -> lo <= u -> v <= hi ->
  ground_on_side left P Q lo hi -> ground_on_side left P Q u v.
Proof.
  intros left P Q lo hi u v HP H1 H2. unfold ground_on_side, turn. destruct left; cbn [px py]; intro H.
  - assert (0 <= (hi - v) * (py Q - py P)) by (apply Rmult_le_pos; lra). lra.
  - assert (0 <= (u - lo) * (py Q - py P)) by (apply Rmult_le_pos; lra). lra.
Qed.

Lemma free_additive : forall left P Q c w lo hi l, contiguous lo hi l -> 0 < py P <= py Q ->
  (c = Line P Q \/ c = Line Q P) -> ground_on_side left P Q lo hi ->
  vf_surface_to_surface c (Line (Pt lo 0) (Pt hi 0)) w =
  sum_over l (fun i => vf_surface_to_surface c (Line (Pt (fst i) 0) (Pt (snd i) 0)) w).
Proof.
  intros left P Q c w lo hi l C HP Hc Hs. rewrite sum_over_rsum. destruct (Rle_lt_dec w DISTANCE_TOLERANCE) as [W | W].
  - rewrite vf_s2s_short by exact W. rewrite rsum_map_zero; [reflexivity |]. intros. apply vf_s2s_short. exact W.
  - set (s := fun (q : pt) (g : R) => distance (gp g) q).
    set (G := fun g : R => (if left then 1 else -1) / (2 * w) * (s Q g - s P g)).
    assert (K : forall u v, u <= v -> ground_on_side left P Q u v ->
              vf_surface_to_surface c (Line (Pt u 0) (Pt v 0)) w = G v - G u).
    { intros u v Huv Hg. rewrite (vf_s2s_cross c _ w P Q (gp u) (gp v)); auto.
      rewrite (cross_gpiece_abs left). pose proof (free_piece left P Q u v HP Huv Hg) as Nn.
      rewrite Rabs_right by lra. unfold gpiece, G, s, str. pose proof DISTANCE_TOLERANCE_pos.
      destruct left; cbn [orient].
      - change (gp (- u)) with (gp (og true u)). change (gp (- v)) with (gp (og true v)).
        change (mir P) with (orient true P). change (mir Q) with (orient true Q).
        rewrite <- !orient_gp, !dist_orient. field. lra.
      - field. lra. }
    rewrite K; [| exact (contiguous_le _ _ _ C) | exact Hs].
    rewrite (rsum_map_ext _ _ (fun i => G (snd i) - G (fst i))).
    + symmetry. apply (contiguous_telescope G _ _ _ C).
    + intros [u v] Hi. cbn [fst snd]. destruct (contiguous_inside _ _ _ C u v Hi) as [I1 [I2 I3]].
      apply K; auto. eapply ground_side_inside; eauto. lra.
Qed.
