(** The view factors of fast mode, against those of the textbook. *)
From Coq Require Import Reals List Bool Arith Lra Lia.
From Coquelicot Require Import Coquelicot.
From Verif Require Import Num ModelTs ModelGeom ModelVF Basics SpecGeom SpecVF SpecSight ProofSight ProofSkyView ProofGround ProofShade ProofRow ProofAngles ProofString ProofFit ProofGeom ProofGeom2
  ProofCut ProofIndex ProofTele ProofMatrix ProofVF ProofVF2 ProofEnds ProofFast PropGeom PropVF PropFast ProofOpen PropOpen PropSight PropSkyView.
Import ListNotations.
Open Scope R_scope.

(** A factor towards a part of a ground segment whose other points are not in sight. *)
Lemma view_extend : forall O q nq g1 u1 u2 g2 v, g1 <= u1 -> u1 < u2 -> u2 <= g2 ->
  (forall z, g1 < z < g2 -> z <= u1 \/ u2 <= z -> ~ in_sight O q nq (gr z) (0, 1)) ->
  view_from_point O q nq (Line (gr u1) (gr u2)) (0, 1) v -> view_from_point O q nq (Line (gr g1) (gr g2)) (0, 1) v.
Proof.
  intros O q nq g1 u1 u2 g2 v H1 H2 H3 NS (s1 & s2 & S1 & S2 & S3 & S4). set (k := (u2 - u1) / (g2 - g1)). set (c := (u1 - g1) / (g2 - g1)).
  assert (PT : forall h1 h2 s, point_at (Line (gr h1) (gr h2)) s = gr (h1 + s * (h2 - h1))) by (intros; unfold point_at, gr; cbn [b1 b2 px py]; f_equal; ring).
  assert (LE : forall h1 h2, h1 < h2 -> euclid (b1 (Line (gr h1) (gr h2))) (b2 (Line (gr h1) (gr h2))) = h2 - h1) by (intros; cbn [b1 b2]; rewrite gr_dist; apply Rabs_right; lra).
  assert (K : 0 < k) by (apply Rmult_lt_0_compat; [lra | apply Rinv_0_lt_compat; lra]).
  assert (KS : forall s, g1 + (k * s + c) * (g2 - g1) = u1 + s * (u2 - u1)) by (intro; unfold k, c; field; lra).
  assert (C0 : 0 <= c) by (apply Rmult_le_pos; [lra | left; apply Rinv_0_lt_compat; lra]).
  assert (C1 : k + c <= 1) by (unfold k, c; apply (Rmult_le_reg_r (g2 - g1)); [lra|]; replace (((u2 - u1) / (g2 - g1) + (u1 - g1) / (g2 - g1)) * (g2 - g1)) with (u2 - g1) by (field; lra); lra).
  assert (KI : forall s, k * ((s - c) / k) + c = s) by (intro; field; lra).
  exists (k * s1 + c), (k * s2 + c). split; [nra|]. split; [nra|]. split.
  - intros s S N1 N2. rewrite PT. set (s' := (s - c) / k). assert (ES : s = k * s' + c) by (symmetry; apply KI). rewrite ES, KS.
    assert (B : k * s1 + c < k * s' + c < k * s2 + c <-> s1 < s' < s2).
    { assert (M : forall x y, k * x + c < k * y + c <-> x < y) by (intros x y; split; intro; [apply (Rmult_lt_reg_l k); lra | apply Rplus_lt_compat_r; apply Rmult_lt_compat_l; assumption]).
      rewrite !M. reflexivity. }
    rewrite B. assert (N1' : s' <> s1) by (intros E; apply N1; rewrite ES, E; reflexivity). assert (N2' : s' <> s2) by (intros E; apply N2; rewrite ES, E; reflexivity).
    assert (GZ : g1 < u1 + s' * (u2 - u1) < g2) by (rewrite <- KS, <- ES; nra).
    destruct (Rle_dec s' 0) as [Q|Q]; [|destruct (Rle_dec 1 s') as [Q'|Q']].
    + split; [|lra]. intro I. exfalso. apply (NS (u1 + s' * (u2 - u1)) GZ); [left; nra | exact I].
    + split; [|lra]. intro I. exfalso. apply (NS (u1 + s' * (u2 - u1)) GZ); [right; nra | exact I].
    + specialize (S3 s' ltac:(lra) N1' N2'). rewrite PT in S3. exact S3.
  - rewrite (LE u1 u2) in S4 by lra. rewrite (LE g1 g2) by lra.
    pose proof (is_RInt_comp_lin (V := R_NormedModule) (fun s => lambert q nq (point_at (Line (gr u1) (gr u2)) s) (0, 1) * (u2 - u1)) (/ k) (- c / k) (k * s1 + c) (k * s2 + c) v) as CL.
    replace (/ k * (k * s1 + c) + - c / k) with s1 in CL by (field; lra). replace (/ k * (k * s2 + c) + - c / k) with s2 in CL by (field; lra).
    apply (is_RInt_ext (V := R_NormedModule)) with (2 := CL S4). intros s _. unfold scal; cbn; unfold mult; cbn. rewrite !PT.
    replace (u1 + (/ k * s + - c / k) * (u2 - u1)) with (g1 + s * (g2 - g1)).
    + match goal with |- ?x = ?y => change (@eq R x y) end. unfold k. field. split; lra.
    + rewrite <- KS. replace (k * (/ k * s + - c / k) + c) with s by (field; lra). reflexivity.
Qed.

(** [cf] are the coordinates of a segment of the back of a row or of a surface of it. *)
Definition back_element (row : ts_pvrow) (cf : ts line) : Prop :=
  (exists sg, In sg (side_segments (row_back row)) /\ cf = seg_coords sg) \/
  (exists s, In s (side_surfaces (row_back row)) /\ cf = s_coords s).

(** The fast-mode factors [v] of an element of the back of row [i], at a timestep where the rows
    are not flat. *)
Definition element_case (p : pvarray_params) (n : nat) (f : fit_inputs) (a : fitted) (t : nat) (al : R)
    (i : nat) (row : ts_pvrow) (cf : ts line) (v : fast_vf) : Prop :=
  scene p n f a t al /\ ft_rotation a t <> 0 /\ nth_error (ft_rows a) i = Some row /\ back_element row cf /\
  DISTANCE_TOLERANCE < line_length (cf t) /\
  get_vf_ts_pvrow_element i cf (ft_rows a) (ft_ground a) (ft_rotation a) (ft_width a) t = Some v.

Definition next_index (left : bool) (i j : nat) : Prop := if left then i = Datatypes.S j else j = Datatypes.S i.

Section Case.
Variables (p : pvarray_params) (n : nat) (f : fit_inputs) (a : fitted) (t : nat) (al : R) (i : nat) (row : ts_pvrow) (cf : ts line) (v : fast_vf).
Hypothesis EC : element_case p n f a t al i row cf v.
Let r := ft_rotation a t.
Let w := pa_width p.
Let D := pa_distance p.
Let ux := up_x r.
Let uy := up_y r.
Let L0 := - (w / 2) * ux.
Let Ly := pa_height p - w / 2 * uy.
Let N := pa_n_pvrows p.
Let Q := Pr L0 Ly ux uy D.
Let left := looks_left r true.

Lemma ec_part : exists xs, back_part p a t i row cf xs.
Proof.
  destruct EC as ((V & Fi & SA & NS & HR & HG & HF) & Nz & Hr & [(sg & Hs & ->) | (s & Hs & ->)] & Hl & Hv); eexists.
  - exact (segment_part p n f a t V Fi HR i row Hr sg Hs Hl).
  - exact (surface_part p n f a t V Fi HR i row Hr s Hs Hl).
Qed.

Lemma RQ : forall j e, RP p a t j e = Q j e.
Proof. intros. rewrite (RP_point p a t). exact (PQ p a t j e). Qed.

Lemma ec_shape : exists lo hi gnd, 0 <= lo /\ lo < hi /\ hi <= w /\ line_length (cf t) = hi - lo /\
  (cf t = Line (Q i lo) (Q i hi) \/ cf t = Line (Q i hi) (Q i lo)) /\
  lowest_point (cf t) = Q i lo /\ highest_point (cf t) = Q i hi /\
  v = fast_result p a t i lo hi gnd /\
  (is_edge p left i = false -> gnd = (hi - lo - echi p a t i lo hi (Lp p a t (next left i))) / (2 * (hi - lo))).
Proof.
  destruct ec_part as (xs & lo & hi & H1 & H2 & H3 & H4 & H5 & H6 & H7 & _). pose proof DISTANCE_TOLERANCE_pos as T0.
  destruct EC as ((V & Fi & SA & NS & HR & HG & HF) & Nz & Hr & _ & Hl & Hv).
  assert (Hi : (i < N)%nat) by exact (row_lt p n f a Fi _ _ Hr).
  destruct (fast_any p n f a t al V Fi SA NS HR HG HF i lo hi (cf t) Hi H1 H2 H3 H5 H6 H7 cf eq_refl v Hv) as (gnd & Ev & Eg).
  exists lo, hi, gnd. rewrite <- !RQ. repeat (split; [lra || assumption|]).
  assert (LF : left = negb (Rltb 0 (ft_rotation a t))) by (unfold left, looks_left, Rltb; fold r; destruct (Rlt_dec 0 r); reflexivity).
  intro E.
  rewrite (fast_gnd_ok p n f a t V Fi HR HG i lo hi (cf t) Hi H1 H2 H5 H6 H7) in Eg by (rewrite <- LF, E; discriminate).
  apply (f_equal (fun o => match o with Some x => x | None => 0 end)) in Eg. cbv beta iota in Eg. rewrite <- Eg. unfold fast_gnd.
  rewrite <- LF, E. reflexivity.
Qed.

Lemma ec_next : forall j, (j < N)%nat -> next_index left i j -> is_edge p left i = false /\ next left i = j /\ INR j = INR i + dirn left.
Proof.
  intros j Hj E. unfold next_index in E. unfold is_edge, next, dirn, left in *. fold N. destruct (looks_left r true); subst; rewrite S_INR.
  - split; [reflexivity|]. split; [lia | ring].
  - split; [apply Nat.eqb_neq; lia|]. split; [lia | ring].
Qed.

Lemma ec_facts : 0 < Ly /\ 0 < uy /\ ux * ux + uy * uy = 1 /\ 0 < D /\ 0 < w.
Proof.
  destruct EC as (SC & Nz & _). destruct (facts p n f a t al SC) as (F1 & F2 & F3 & F4 & F5 & _ & F7).
  repeat (split; [lra || assumption|]). destruct (Req_dec uy 0) as [E|E]; [exfalso; apply Nz; exact (F7 E)|]. change (0 <= uy) in F2.
  split; [lra|]. auto.
Qed.

Lemma ec_sky : forall j, (j < N)%nat -> next_index left i j ->
  sky_factor (opaque_array p a t) (cf t) (side_normal r true) (to_sky v).
Proof.
  intros j Hj E. destruct (ec_next j Hj E) as (Eg & En & Ej). destruct ec_facts as (F1 & F2 & F3 & F4 & F5).
  destruct ec_shape as (lo & hi & gnd & H1 & H2 & H3 & H4 & H5 & H6 & H7 & Ev & G). specialize (G Eg).
  pose proof EC as (SC & _).
  assert (LF : left = negb (Rltb 0 (ft_rotation a t))) by (unfold left, looks_left, Rltb; fold r; destruct (Rlt_dec 0 r); reflexivity).
  apply (sky_opaque p n f a t al); [exact SC|]. fold r w ux uy D L0 Ly. rewrite side_normal_dirn. fold left ux uy.
  apply (either_end (fun l => sky_factor _ l _ _) _ (Q i lo) (Q i hi) H5); [|intros l'; apply sky_flip].
  replace (to_sky v) with ((euclid (Q i lo) (Q i hi) + euclid (Q i hi) (Q j w) - euclid (Q i lo) (Q j w)) / (2 * euclid (Q i lo) (Q i hi))).
  - apply sky_next; auto.
  - rewrite Ev. unfold fast_result. cbn [to_sky]. rewrite <- LF, Eg, G, En. unfold echi. rewrite <- !euclid_distance, !RQ.
    assert (LX : euclid (Q i lo) (Q i hi) = hi - lo) by (unfold Q; rewrite Pr_dist by exact F3; apply Rabs_right; lra).
    rewrite LX, (euclid_sym (Q i hi)), (euclid_sym (Q i lo)). fold w. field. lra.
Qed.

Lemma ec_row : forall j lo' hi', (j < N)%nat -> next_index left i j -> 0 <= lo' < hi' -> hi' <= w ->
  exists lo hi, (cf t = Line (Q i lo) (Q i hi) \/ cf t = Line (Q i hi) (Q i lo)) /\ hi - lo = line_length (cf t) /\
  view_factor (opaque_array p a t) (cf t) (side_normal r true) (Line (Q j lo') (Q j hi')) (side_normal r false)
   ((echi p a t i lo hi (RP p a t j lo') - echi p a t i lo hi (RP p a t j hi')) / (2 * (hi - lo))) /\
  v = fast_result p a t i lo hi (to_gnd_total v).
Proof.
  intros j lo' hi' Hj E H' H''. destruct (ec_next j Hj E) as (Eg & En & Ej). destruct ec_facts as (F1 & F2 & F3 & F4 & F5).
  destruct ec_shape as (lo & hi & gnd & H1 & H2 & H3 & H4 & H5 & H6 & H7 & Ev & G). specialize (G Eg).
  pose proof EC as (SC & _ & Hr & _). pose proof SC as (_ & Fi & _). assert (Hi : (i < N)%nat) by exact (row_lt p n f a Fi _ _ Hr).
  exists lo, hi. split; [exact H5|]. split; [lra|]. split.
  - apply (either_end (fun l => view_factor _ l _ _ _ _) _ (Q i lo) (Q i hi) H5); [|intros l'; apply factor_flip_x].
    apply (factor_opaque p a t). rewrite !side_normal_dirn. fold left uy ux. rewrite (looks_left_negb r true : looks_left r false = negb left).
    assert (LX : euclid (Q i lo) (Q i hi) = hi - lo) by (unfold Q; rewrite Pr_dist by exact F3; apply Rabs_right; lra).
    replace ((echi p a t i lo hi (RP p a t j lo') - echi p a t i lo hi (RP p a t j hi')) / (2 * (hi - lo))) with (hottel_rows (Q i lo) (Q i hi) (Q j lo') (Q j hi')).
    + apply rows_view; auto; lra.
    + unfold hottel_rows, echi. rewrite LX, <- !euclid_distance, !RQ, (euclid_sym (Q j lo')), (euclid_sym (Q j hi')), (euclid_sym (Q j lo')), (euclid_sym (Q j hi')). field. lra.
  - rewrite Ev at 1. rewrite Ev. reflexivity.
Qed.

Let c0 := INR i * D - pa_height p * cos (rr r) / sin (rr r).

Lemma ec_cut : cutp a t i = XFin c0.
Proof.
  pose proof EC as ((V & Fi & SA & NS & HR & HG & HF) & Nz & Hr & _). assert (Hi : (i < N)%nat) by exact (row_lt p n f a Fi _ _ Hr).
  rewrite (cutp_eq p n f a t Fi i Hi), (fit_cut_point p (fit_alpha p f) (fit_rotation p f) i t (above p n f a t Fi HG) (HRf p n f a t Fi HR)).
  rewrite <- (r_eq p n f a t Fi). destruct (Req_EM_T (ft_rotation a t) 0); [contradiction | reflexivity].
Qed.

(** The ground between [g1] and [g2], of which the part between [u1] and [u2] is in front. *)
Lemma ec_ground_part : forall lo hi g1 g2 u1 u2 x, 0 <= lo -> lo < hi -> hi <= w ->
  (cf t = Line (Q i lo) (Q i hi) \/ cf t = Line (Q i hi) (Q i lo)) ->
  -100 <= g1 -> g1 < g2 -> g2 <= 100 ->
  u1 = (if left then np_max (np_min g1 c0) (-100) else np_min (np_max g1 c0) 100) ->
  u2 = (if left then np_max (np_min g2 c0) (-100) else np_min (np_max g2 c0) 100) ->
  x = (if left then ephi p a t i lo hi u2 - ephi p a t i lo hi u1 else ephi p a t i lo hi u1 - ephi p a t i lo hi u2) / (2 * (hi - lo)) ->
  view_factor (opaque_array p a t) (cf t) (side_normal r true) (Line (gr g1) (gr g2)) (0, 1) x.
Proof.
  intros lo hi g1 g2 u1 u2 x H1 H2 H3 H5 I1 G12 I3 UE1 UE2 EX. destruct ec_facts as (F1 & F2 & F3 & F4 & F5).
  pose proof EC as (SC & Nz & Hr & _). pose proof SC as (V & Fi & SA & NS & HR & HG & HF). assert (Hi : (i < N)%nat) by exact (row_lt p n f a Fi _ _ Hr).
  assert (LF : negb (Rltb 0 (ft_rotation a t)) = left) by (unfold left, looks_left, Rltb; fold r; destruct (Rlt_dec 0 r); reflexivity).
  assert (MC : forall z, Mz L0 Ly ux uy D i z = uy * (z - c0)).
  { intro z. assert (Sn : sin (rr r) <> 0).
    { intro E. change (0 < (if Rlt_dec 0 r then sin (rr r) else - sin (rr r))) in F2. rewrite E in F2. destruct (Rlt_dec 0 r); lra. }
    unfold Mz, L0, Ly, c0. assert (UX : ux * sin (rr r) = uy * cos (rr r)).
    { unfold ux, uy, up_x, up_y, sind, cosd, rr. destruct (Rlt_dec 0 r); ring. }
    replace (pa_height p * cos (rr r) / sin (rr r)) with (pa_height p * (cos (rr r) / sin (rr r))) by (field; exact Sn).
    assert (U2 : ux = uy * (cos (rr r) / sin (rr r))) by (apply (Rmult_eq_reg_r (sin (rr r))); [rewrite UX; field; exact Sn | exact Sn]).
    rewrite U2 at 2. rewrite U2. ring. }
  apply (either_end (fun l => view_factor _ l _ _ _ _) _ (Q i lo) (Q i hi) H5); [|intros l'; apply factor_flip_x].
  apply (factor_opaque p a t). rewrite side_normal_dirn. fold left uy ux.
  assert (PX : forall s, point_at (Line (Q i lo) (Q i hi)) s = Q i (lo + s * (hi - lo))) by (intro; unfold point_at, Q, Pr; cbn [b1 b2 px py]; f_equal; ring).
  assert (BH : forall s z, 0 < s < 1 -> dirn left * (z - c0) <= 0 -> ~ in_sight (Op N L0 Ly ux uy D w) (point_at (Line (Q i lo) (Q i hi)) s) (dirn left * uy, - dirn left * ux) (gr z) (0, 1)).
  { intros s z S Z. rewrite PX. apply ground_behind. rewrite MC. replace (dirn left * (uy * (z - c0))) with (uy * (dirn left * (z - c0))) by ring. nra. }
  destruct (Rlt_dec u1 u2) as [U12|U12].
  - assert (UU : g1 <= u1 /\ u2 <= g2 /\ 0 <= dirn left * (u1 - c0) /\ 0 <= dirn left * (u2 - c0) /\
      (forall z, g1 < z < g2 -> z <= u1 \/ u2 <= z -> dirn left * (z - c0) <= 0)).
    { clear - I1 I3 G12 UE1 UE2 U12. rewrite UE1, UE2 in *. clear UE1 UE2. clearbody c0. revert U12. unfold dirn.
      destruct left; minmax; intros; repeat split; try lra; intros z Z [Z'|Z']; lra. }
    destruct UU as (U1 & U2 & U3 & U4 & U5).
    destruct (ground_view N L0 Ly ux uy D w F1 ltac:(lra) F3 F4 left i (neighbour_edge p a t left i) lo hi u1 u2) as [GV _]; auto; try lra.
    { intros z Z. rewrite MC. assert (0 < dirn left * (z - c0)) by (clear - Z U3 U4; destruct left; cbn [dirn] in *; lra).
      replace (dirn left * (uy * (z - c0))) with (uy * (dirn left * (z - c0))) by ring. apply Rmult_lt_0_compat; lra. }
    { exact (PropSight.neighbour_next p (Datatypes.S t) a t (Nat.lt_succ_diag_r t) left i Hi). }
    fold Q in GV. 
    replace x with (hottel_ground left (neighbour_edge p a t left i) (Q i lo) (Q i hi) (gr u1) (gr u2)).
    + destruct GV as (G & A & B). exists G. split; [|exact B]. intros s S. apply (view_extend _ _ _ g1 u1 u2 g2); [exact U1 | exact U12 | exact U2 | | exact (A s S)].
      intros z Z Z'. apply BH; auto.
    + assert (LX : euclid (Q i lo) (Q i hi) = hi - lo) by (unfold Q; rewrite Pr_dist by exact F3; apply Rabs_right; lra).
      rewrite EX. unfold hottel_ground. rewrite LX. apply f_equal2; [|reflexivity].
      change (gr u1) with (gp u1). change (gr u2) with (gp u2). unfold ephi, phi. rewrite LF.
      destruct left eqn:El; rewrite !taut_str, <- !RQ, <- !orient_RP, <- (neighbour_obs p a t _ i Hi); ring.
  - assert (ULE : u1 <= u2) by (clear - UE1 UE2 G12; rewrite UE1, UE2; clear UE1 UE2; clearbody c0; destruct left; minmax; lra).
    assert (E12 : u1 = u2) by lra. replace x with 0 by (rewrite EX, E12; destruct left; field; lra).
    apply factor_none. intros s s' S S'. 
    replace (point_at (Line (gr g1) (gr g2)) s') with (gr (g1 + s' * (g2 - g1))) by (unfold point_at, gr; cbn [b1 b2 px py]; f_equal; ring).
    apply BH; [exact S|]. assert (GZ : g1 < g1 + s' * (g2 - g1) < g2) by nra. set (z := g1 + s' * (g2 - g1)) in *. clearbody z.
    clear - I1 I3 G12 UE1 UE2 E12 GZ. rewrite UE1, UE2 in E12. clear UE1 UE2. clearbody c0. revert E12. unfold dirn.
    destruct left; minmax; intros; lra.
Qed.


Lemma ec_shadow : forall m e x, nth_error (gnd_shadows (ft_ground a)) m = Some e -> nth_error (to_each_gnd_shadow v) m = Some x ->
  0 < line_length (el_coords e t) ->
  view_factor (opaque_array p a t) (cf t) (side_normal r true) (el_coords e t) (0, 1) x.
Proof.
  intros m e x He Hx LE. destruct ec_facts as (F1 & F2 & F3 & F4 & F5).
  destruct ec_shape as (lo & hi & gnd & H1 & H2 & H3 & H4 & H5 & H6 & H7 & Ev & _).
  pose proof EC as (SC & Nz & Hr & _). pose proof SC as (V & Fi & SA & NS & HR & HG & HF). assert (Hi : (i < N)%nat) by exact (row_lt p n f a Fi _ _ Hr).
  assert (LF : negb (Rltb 0 (ft_rotation a t)) = left) by (unfold left, looks_left, Rltb; fold r; destruct (Rlt_dec 0 r); reflexivity).
  destruct (shadow_parts p n f a t al V Fi SA NS HR HG i Hi e (nth_error_In _ _ He)) as (Ep & B1 & B2 & B3 & P0 & T0). rewrite LF in *.
  set (part := if left then coords_left_of_cut_point (el_coords e t) (cutp a t i) else coords_right_of_cut_point (el_coords e t) (cutp a t i)) in *.
  set (u1 := px (b1 part)) in *. set (u2 := px (b2 part)) in *.
  pose proof (ground_elements_in_ground _ _ _ _ _ e t (fit_ground_ordered _ _ _ _ Fi) (raw_ord p n f a t al V Fi SA NS) (in_or_app _ _ _ (or_introl (nth_error_In _ _ He)))) as (I1 & I2 & I3).
  set (g1 := px (b1 (el_coords e t))) in *. set (g2 := px (b2 (el_coords e t))) in *.
  assert (EL : el_coords e t = Line (gr g1) (gr g2)).
  { pose proof (f_equal (fun l => py (b1 l)) Ep) as Y1. pose proof (f_equal (fun l => py (b2 l)) Ep) as Y2. unfold gp in Y1, Y2. cbn [b1 b2 py] in Y1, Y2.
    unfold part in Y1, Y2. unfold g1, g2, gr. destruct (el_coords e t) as [[x1 y1] [x2 y2]].
    destruct left; cbn [coords_left_of_cut_point coords_right_of_cut_point b1 b2 px py] in Y1, Y2 |- *; subst; reflexivity. }
  assert (G12 : g1 < g2).
  { rewrite EL, line_length_dist, <- euclid_distance in LE. cbn [b1 b2] in LE. rewrite gr_dist in LE. rewrite Rabs_right in LE by lra. lra. }
  assert (EX : x = (if left then ephi p a t i lo hi u2 - ephi p a t i lo hi u1 else ephi p a t i lo hi u1 - ephi p a t i lo hi u2) / (2 * (hi - lo))).
  { rewrite Ev in Hx. unfold fast_result in Hx. cbn [to_each_gnd_shadow] in Hx. rewrite (map_nth_error _ _ _ He) in Hx.
    apply (f_equal (fun o => match o with Some x => x | None => 0 end)) in Hx. cbv beta iota in Hx. rewrite <- Hx. f_equal.
    set (S := fun g => if left then ephi p a t i lo hi g else - ephi p a t i lo hi g).
    rewrite LF. rewrite (rsum_map_ext _ _ (fun s => S (px (b2 (s_coords s t))) - S (px (b1 (s_coords s t))))).
    - rewrite (T0 S). unfold S. destruct left; ring.
    - intros s _. unfold epiece, S. rewrite LF. destruct left; ring. }
  rewrite EL. clear EL LE. apply (ec_ground_part lo hi g1 g2 u1 u2); auto; unfold u1, u2, part; rewrite ec_cut; destruct left; reflexivity.
Qed.

(** A row that faces no other row, whose cut point is on the ground. *)
Lemma ec_edge : is_edge p left i = true -> cut_in_view a t i left ->
  view_factor (opaque_array p a t) (cf t) (side_normal r true) (Line (Pt (-100) 0) (Pt 100 0)) (0, 1) (to_gnd_total v) /\
  to_pvrow_total v = 0 /\ to_pvrow_shaded v = 0.
Proof.
  intros Eg CV. destruct ec_part as (xs & lo & hi & H1 & H2 & H3 & H4 & H5 & H6 & H7 & _). pose proof DISTANCE_TOLERANCE_pos as T0.
  pose proof EC as ((V & Fi & SA & NS & HR & HG & HF) & Nz & Hr & _ & Hl & Hv).
  assert (Hi : (i < N)%nat) by exact (row_lt p n f a Fi _ _ Hr).
  assert (LF : negb (Rltb 0 (ft_rotation a t)) = left) by (unfold left, looks_left, Rltb; fold r; destruct (Rlt_dec 0 r); reflexivity).
  destruct (fast_any p n f a t al V Fi SA NS HR HG HF i lo hi (cf t) Hi H1 H2 H3 H5 H6 H7 cf eq_refl v Hv) as (gnd & Ev & G).
  rewrite (fast_gnd_ok p n f a t V Fi HR HG i lo hi (cf t) Hi H1 H2 H5 H6 H7 (fun _ => cut_in_view_reached a t i CV)) in G.
  apply (f_equal (fun o => match o with Some x => x | None => 0 end)) in G. cbv beta iota in G. unfold fast_gnd in G. rewrite LF, Eg in G.
  rewrite Ev. unfold fast_result. cbn [to_gnd_total to_pvrow_total to_pvrow_shaded]. rewrite LF, Eg, <- G. split; [|auto].
  change (Pt (-100) 0) with (gr (-100)). change (Pt 100 0) with (gr 100).
  assert (C : if left then -100 <= c0 else c0 <= 100).
  { pose proof (cut_in_view_reached a t i CV) as K. unfold cut_reached in K. rewrite LF, ec_cut in K. destruct left; exact K. }
  assert (CX : cutx p f t i = np_min (np_max c0 (-100)) 100).
  { rewrite (cutp_cutx p n f a t Fi i Hi), ec_cut. unfold ck, xclip. change MIN_X_GROUND with (-100). change MAX_X_GROUND with 100. minmax; lra. }
  pose proof H5 as H5'. rewrite !RQ in H5'.
  apply (ec_ground_part lo hi (-100) 100 (if left then -100 else np_min (np_max (-100) c0) 100) (if left then np_max (np_min 100 c0) (-100) else 100)); auto; try lra.
  - destruct left; [clear - C | reflexivity]. minmax; lra.
  - destruct left; [reflexivity | clear - C]. minmax; lra.
  - f_equal. rewrite CX. destruct left; [f_equal | f_equal]; f_equal; clear - C; minmax; lra.
Qed.

(** The array turned upside down: the ground plane takes the place of the sky. *)
Definition over (z : pt) : pt := Pt (px z) (2 * pa_height p - py z).

Lemma ec_over : forall j e, over (Q j e) = Pr (L0 + w * ux) Ly (- ux) uy D j (w - e).
Proof. intros. unfold over, Q, Pr, Ly. cbn [px py]. f_equal; field. Qed.

Lemma ec_down : forall q nx z, 0 < py q < 2 * pa_height p ->
  sky_from_point (Op N (L0 + w * ux) Ly (- ux) uy D w) (over q) (fst nx, - snd nx) z ->
  ground_from_point (opaque_array p a t) q nx z.
Proof.
  intros q nx z HQ (t1 & t2 & T1 & T2 & T3 & T4). exists t1, t2. split; [exact T1|]. split; [exact T2|]. split.
  - intros th TH N1 N2. rewrite <- (T3 th TH N1 N2). unfold sees_ground, sees_sky. cbn [fst snd].
    replace (fst nx * cos th + - snd nx * sin th) with (fst nx * cos th - snd nx * sin th) by ring.
    pose proof (sin_gt_0 th ltac:(lra) ltac:(lra)) as SP. destruct ec_facts as (F1 & F2 & F3 & F4 & F5).
    assert (OV : forall r', over (Pt (px q + r' * cos th) (py q - r' * sin th)) = Pt (px (over q) + r' * cos th) (py (over q) + r' * sin th)) by (intro; unfold over; cbn [px py]; f_equal; ring).
    split; intros [I1 I2]; (split; [exact I1|]).
    + intros r' R' [Z | (j & e & J & E & Z)].
      * unfold over in Z. cbn [px py] in Z. assert (0 < r' * sin th) by (apply Rmult_lt_0_compat; lra). lra.
      * rewrite <- OV in Z. replace e with (w - (w - e)) in Z by ring. rewrite <- ec_over in Z.
        assert (Z' : Pt (px q + r' * cos th) (py q - r' * sin th) = Q j (w - e)).
        { pose proof (f_equal px Z) as Z1. pose proof (f_equal py Z) as Z2. unfold over in Z1, Z2. destruct (Q j (w - e)) as [qx qy]. cbn [px py] in Z1, Z2. f_equal; lra. }
        apply (I2 r' R').
        -- apply (f_equal py) in Z'. unfold Q, Pr in Z'. cbn [py] in Z'. rewrite Z'. assert (0 <= (w - e) * uy) by (apply Rmult_le_pos; lra). lra.
        -- rewrite Z'. apply (opaque_eq p a t). right. exists j, (w - e). split; [exact J|]. split; [change (0 <= w - e <= w); lra | reflexivity].
    + intros r' R' PY Z. apply (opaque_eq p a t) in Z. destruct Z as [Z | (j & e & J & E & Z)]; [cbn [py] in Z; lra|].
      apply (I2 r' R'). rewrite <- OV, Z. fold r ux uy w D L0 Ly Q. rewrite ec_over. right. exists j, (w - e). split; [exact J|]. split; [change (0 <= e <= w) in E; lra | reflexivity].
  - apply (is_RInt_ext (V := R_NormedModule)) with (2 := T4). intros th _. cbn [fst snd].
    match goal with |- ?x = ?y => change (@eq R x y) end. field.
Qed.

Lemma ec_ground : forall j, (j < N)%nat -> next_index left i j ->
  ground_factor (opaque_array p a t) (cf t) (side_normal r true) (to_gnd_total v).
Proof.
  intros j Hj E. destruct (ec_next j Hj E) as (Eg & En & Ej). destruct ec_facts as (F1 & F2 & F3 & F4 & F5).
  destruct ec_shape as (lo & hi & gnd & H1 & H2 & H3 & H4 & H5 & H6 & H7 & Ev & G). specialize (G Eg).
  assert (LX : forall X Y V e e', e < e' -> euclid (Pr X Y (- ux) uy V i e) (Pr X Y (- ux) uy V i e') = e' - e) by (intros; rewrite Pr_dist by lra; apply Rabs_right; lra).
  assert (OE : forall x y, euclid (over x) (over y) = euclid x y) by (intros; unfold euclid, dist2, over; cbn [px py]; f_equal; ring).
  destruct (sky_next N (L0 + w * ux) Ly (- ux) uy D w F1 F2 ltac:(lra) F4 left i j (w - hi) (w - lo) ltac:(lra) ltac:(lra) Hj Ej) as (G' & A & B).
  assert (GF : ground_factor (opaque_array p a t) (Line (Q i lo) (Q i hi)) (side_normal r true) (to_gnd_total v)).
  { exists (fun s => G' (1 - s)). split.
    - intros s S. assert (S' : 0 < 1 - s < 1) by lra. pose proof (A (1 - s) S') as A'. rewrite side_normal_dirn. fold left ux uy.
      assert (PT : point_at (Line (Q i lo) (Q i hi)) s = Q i (lo + s * (hi - lo))) by (unfold point_at, Q, Pr; cbn [b1 b2 px py]; f_equal; ring).
      assert (Y : 0 < py (Q i (lo + s * (hi - lo))) < 2 * pa_height p).
      { assert (0 <= lo + s * (hi - lo) <= w) by nra. unfold Q, Pr, Ly in *. cbn [py]. assert (0 <= (lo + s * (hi - lo)) * uy) by (apply Rmult_le_pos; lra).
        assert ((lo + s * (hi - lo)) * uy <= w * uy) by (apply Rmult_le_compat_r; lra). lra. }
      rewrite PT. apply ec_down; [exact Y|]. cbn [fst snd].
      replace (over (Q i (lo + s * (hi - lo)))) with (point_at (Line (Pr (L0 + w * ux) Ly (- ux) uy D i (w - hi)) (Pr (L0 + w * ux) Ly (- ux) uy D i (w - lo))) (1 - s)).
      + replace (- (- dirn left * ux)) with (- dirn left * - ux) by ring. exact A'.
      + rewrite ec_over. unfold point_at, Pr. cbn [b1 b2 px py]. f_equal; ring.
    - apply is_RInt_flip in B. replace (1 - 1) with 0 in B by ring. replace (1 - 0) with 1 in B by ring.
      match type of B with is_RInt _ _ _ ?z => replace (to_gnd_total v) with z; [exact B|] end.
      rewrite LX by lra. replace (Pr (L0 + w * ux) Ly (- ux) uy D j w) with (over (Q j 0)) by (rewrite ec_over; f_equal; ring).
      rewrite <- !ec_over, !OE. rewrite Ev. unfold fast_result. cbn [to_gnd_total]. rewrite G, En. unfold echi, Lp. rewrite <- !euclid_distance, !RQ.
      rewrite (euclid_sym (Q i hi)), (euclid_sym (Q i lo)). f_equal; ring. }
  destruct H5 as [-> | ->]; [exact GF|].
  destruct GF as (K & KA & KB). exists (fun s => K (1 - s)). split.
  - intros s S. change (Line (Q i hi) (Q i lo)) with (flip (Line (Q i lo) (Q i hi))). rewrite point_at_flip. apply KA. lra.
  - apply is_RInt_flip in KB. replace (1 - 1) with 0 in KB by ring. replace (1 - 0) with 1 in KB by ring. exact KB.
Qed.
End Case.

Lemma ground_from_point_unique : forall O q nq v v', ground_from_point O q nq v -> ground_from_point O q nq v' -> v = v'.
Proof.
  intros O q nq v v' (s1 & s2 & A & B & C & I) (t1 & t2 & A' & B' & C' & I').
  assert (H : forall s, 0 < s < PI -> s <> s1 -> s <> s2 -> s <> t1 -> s <> t2 -> (s1 < s < s2 <-> t1 < s < t2)).
  { intros s S N1 N2 N3 N4. rewrite <- (C s S N1 N2). apply C'; auto. }
  destruct (Rlt_dec s1 s2) as [L|L].
  - destruct (same_angles s1 s2 t1 t2) as [-> ->]; auto; try lra. apply (is_RInt_unique (V := R_CompleteNormedModule)) in I. apply (is_RInt_unique (V := R_CompleteNormedModule)) in I'. congruence.
  - destruct (Rlt_dec t1 t2) as [L'|L'].
    + destruct (same_angles t1 t2 s1 s2) as [-> ->]; auto; try lra. intros s S N1 N2 N3 N4. symmetry. apply H; auto.
    + assert (s2 = s1) by lra. assert (t2 = t1) by lra. subst.
      apply (is_RInt_unique (V := R_CompleteNormedModule)) in I. apply (is_RInt_unique (V := R_CompleteNormedModule)) in I'. rewrite (RInt_point (V := R_CompleteNormedModule)) in I, I'. congruence.
Qed.
Lemma ground_factor_unique : forall O x nx v v', ground_factor O x nx v -> ground_factor O x nx v' -> v = v'.
Proof.
  intros O x nx v v' (F & A & I) (F' & A' & I').
  assert (E : is_RInt F' 0 1 v).
  { apply (is_RInt_ext (V := R_NormedModule) F); [|exact I]. rewrite Rmin_left, Rmax_right by lra. intros s S.
    exact (ground_from_point_unique _ _ _ _ _ (A s S) (A' s S)). }
  apply (is_RInt_unique (V := R_CompleteNormedModule)) in E. apply (is_RInt_unique (V := R_CompleteNormedModule)) in I'. congruence.
Qed.

(** C88: for an element of the back of a row that faces another row, the fast-mode factor to the
    sky is the one of the textbook, and no other number. No condition on where the modelled
    ground ends. *)
Theorem C88_sky : forall p n f a t al i row cf v j z,
  element_case p n f a t al i row cf v ->
  (j < pa_n_pvrows p)%nat -> next_index (looks_left (ft_rotation a t) true) i j ->
  (sky_factor (opaque_array p a t) (cf t) (side_normal (ft_rotation a t) true) z <-> z = to_sky v).
Proof.
  intros p n f a t al i row cf v j z EC Hj E. pose proof (ec_sky p n f a t al i row cf v EC j Hj E) as T.
  split; [intro H; exact (sky_factor_unique _ _ _ _ _ H T) | intros ->; exact T].
Qed.
Print Assumptions C88_sky.

(** C88: and the factor to the ground is the one to the whole unbounded ground plane. *)
Theorem C88_ground : forall p n f a t al i row cf v j z,
  element_case p n f a t al i row cf v ->
  (j < pa_n_pvrows p)%nat -> next_index (looks_left (ft_rotation a t) true) i j ->
  (ground_factor (opaque_array p a t) (cf t) (side_normal (ft_rotation a t) true) z <-> z = to_gnd_total v).
Proof.
  intros p n f a t al i row cf v j z EC Hj E. pose proof (ec_ground p n f a t al i row cf v EC j Hj E) as T.
  split; [intro H; exact (ground_factor_unique _ _ _ _ _ H T) | intros ->; exact T].
Qed.
Print Assumptions C88_ground.

(** C88: the factors to the front of the other row are those of the textbook to its whole width,
    to the part in shade (the lower one) and to the part in the light. *)
Theorem C88_row : forall p n f a t al i row cf v j rowj z,
  element_case p n f a t al i row cf v ->
  nth_error (ft_rows a) j = Some rowj -> next_index (looks_left (ft_rotation a t) true) i j ->
  let P e := point_from_low_edge (pa_width p) (pa_distance p) (pa_height p) (ft_rotation a t) j e in
  let shade := side_shaded_length (row_front rowj) t in
  let factor lo hi z := view_factor (opaque_array p a t) (cf t) (side_normal (ft_rotation a t) true) (Line (P lo) (P hi)) (side_normal (ft_rotation a t) false) z in
  (factor 0 (pa_width p) z <-> z = to_pvrow_total v) /\
  (0 < shade -> (factor 0 shade z <-> z = to_pvrow_shaded v)) /\ (shade <= 0 -> to_pvrow_shaded v = 0) /\
  (shade < pa_width p -> (factor shade (pa_width p) z <-> z = to_pvrow_illum v)).
Proof.
  intros p n f a t al i row cf v j rowj z EC Hrj E P shade factor. pose proof EC as ((V & Fi & SA & NS & HR & HG & HF) & Nz & Hr & _).
  assert (Hj : (j < pa_n_pvrows p)%nat) by exact (row_lt p n f a Fi _ _ Hrj).
  destruct (ec_next p n f a t al i row cf v EC j Hj E) as (Eg & En & _).
  assert (LF : negb (Rltb 0 (ft_rotation a t)) = looks_left (ft_rotation a t) true) by (unfold looks_left, Rltb; destruct (Rlt_dec 0 (ft_rotation a t)); reflexivity).
  assert (SH : fsl a t j = shade) by (unfold fsl, shade; rewrite (nth_error_nth _ _ _ Hrj); reflexivity).
  pose proof (front_shaded_telescope p n f a t V Fi HR j (fun _ => 0) Hj) as [SB _]. rewrite SH in SB.
  assert (W : 0 < pa_width p) by apply V.
  assert (FA : forall lo' hi', 0 <= lo' < hi' -> hi' <= pa_width p -> exists lo hi, hi - lo = line_length (cf t) /\
     factor lo' hi' ((echi p a t i lo hi (RP p a t j lo') - echi p a t i lo hi (RP p a t j hi')) / (2 * (hi - lo))) /\
     v = fast_result p a t i lo hi (to_gnd_total v)).
  { intros lo' hi' H1 H2. destruct (ec_row p n f a t al i row cf v EC j lo' hi' Hj E H1 H2) as (lo & hi & _ & L & T & R). exists lo, hi. split; [exact L|]. split; [|exact R].
    unfold factor, P. rewrite !(PQ p a t). exact T. }
  assert (IFF : forall lo' hi' y, factor lo' hi' y -> (factor lo' hi' z <-> z = y)).
  { intros lo' hi' y T. split; [intro H; exact (view_factor_unique _ _ _ _ _ _ _ H T) | intros ->; exact T]. }
  split; [|split; [|split]].
  - destruct (FA 0 (pa_width p) ltac:(lra) ltac:(lra)) as (lo & hi & L & T & R). apply IFF.
    rewrite R. unfold fast_result. cbn [to_pvrow_total]. rewrite LF, Eg, En. exact T.
  - intro S. destruct (FA 0 shade ltac:(lra) ltac:(lra)) as (lo & hi & L & T & R). apply IFF.
    rewrite R. unfold fast_result. cbn [to_pvrow_shaded]. rewrite LF, Eg, En, SH. exact T.
  - intro S. destruct (FA 0 (pa_width p) ltac:(lra) ltac:(lra)) as (lo & hi & L & T & R). rewrite R. unfold fast_result. cbn [to_pvrow_shaded]. rewrite LF, Eg, En, SH.
    replace shade with 0 by lra. unfold Lp. unfold Rdiv. rewrite Rminus_diag_eq by reflexivity. apply Rmult_0_l.
  - intro S. destruct (FA shade (pa_width p) ltac:(lra) ltac:(lra)) as (lo & hi & L & T & R). apply IFF.
    rewrite R. unfold fast_result. cbn [to_pvrow_illum]. rewrite LF, Eg, En, SH.
    match type of T with factor _ _ ?x => match goal with |- factor _ _ ?y => replace y with x; [exact T | unfold Rdiv; ring] end end.
Qed.
Print Assumptions C88_row.

(** C88: the factor to each shadow on the ground is the one of the textbook to the whole shadow,
    whether or not there is a row next to this one. *)
Theorem C88_shadow : forall p n f a t al i row cf v k e x z,
  element_case p n f a t al i row cf v ->
  nth_error (gnd_shadows (ft_ground a)) k = Some e -> nth_error (to_each_gnd_shadow v) k = Some x ->
  0 < line_length (el_coords e t) ->
  (view_factor (opaque_array p a t) (cf t) (side_normal (ft_rotation a t) true) (el_coords e t) (0, 1) z <-> z = x).
Proof.
  intros p n f a t al i row cf v k e x z EC He Hx L. pose proof (ec_shadow p n f a t al i row cf v EC k e x He Hx L) as T.
  split; [intro H; exact (view_factor_unique _ _ _ _ _ _ _ H T) | intros ->; exact T].
Qed.
Print Assumptions C88_shadow.

(** C88: for a row that faces no other row, with its cut point on the ground, the factor to the
    ground is the one of the textbook to the modelled ground, from -100 to 100. *)
Theorem C88_edge : forall p n f a t al i row cf v z,
  element_case p n f a t al i row cf v ->
  let left := looks_left (ft_rotation a t) true in
  (forall j, (j < pa_n_pvrows p)%nat -> ~ next_index left i j) -> cut_in_view a t i left ->
  (view_factor (opaque_array p a t) (cf t) (side_normal (ft_rotation a t) true) (Line (Pt (-100) 0) (Pt 100 0)) (0, 1) z <-> z = to_gnd_total v) /\
  to_pvrow_total v = 0 /\ to_pvrow_shaded v = 0.
Proof.
  intros p n f a t al i row cf v z EC left NB CV. pose proof EC as ((_ & Fi & _) & _ & Hr & _).
  assert (Hi : (i < pa_n_pvrows p)%nat) by exact (row_lt p n f a Fi _ _ Hr).
  assert (Eg : is_edge p left i = true).
  { unfold is_edge, next_index in *. destruct left.
    - destruct i as [|k]; [reflexivity|]. exfalso. apply (NB k); [lia | reflexivity].
    - apply Nat.eqb_eq. destruct (Nat.eq_dec i (pa_n_pvrows p - 1)) as [E|E]; [exact E|]. exfalso. apply (NB (Datatypes.S i)); [lia | reflexivity]. }
  destruct (ec_edge p n f a t al i row cf v EC Eg CV) as [T R]. split; [|exact R].
  split; [intro H; exact (view_factor_unique _ _ _ _ _ _ _ H T) | intros ->; exact T].
Qed.
Print Assumptions C88_edge.

(** The lower half of the back of row 1 in the example of C17: fast mode publishes the factors of
    the textbook, and full mode strictly less ground. *)
Example C88_example : exists a row sg v, fit fx_p 2 ex_f = Some a /\
  element_case fx_p 2 ex_f a 1 (PI / 6) 1 row (seg_coords sg) v /\ next_index (looks_left (ft_rotation a 1%nat) true) 1 0 /\
  ground_factor (opaque_array fx_p a 1) (seg_coords sg 1%nat) (side_normal (-60) true) (to_gnd_total v) /\
  full_mode a 1 (seg_surfaces sg) (gnd_surfaces (ft_ground a)) < line_length (seg_coords sg 1%nat) * to_gnd_total v.
Proof.
  destruct C17_example as (a & Ha & row & _ & sg & _ & v & _ & (SC & Ht & NSl & Hr & Hs & Hl & Hv) & _ & LT). exists a, row, sg, v.
  pose proof (fx_rot a Ha) as R1.
  assert (EC : element_case fx_p 2 ex_f a 1 (PI / 6) 1 row (seg_coords sg) v).
  { split; [exact SC|]. split; [rewrite R1; lra|]. split; [exact Hr|]. split; [left; exists sg; auto|]. split; [exact Hl | exact Hv]. }
  assert (NI : next_index (looks_left (ft_rotation a 1%nat) true) 1 0).
  { rewrite R1. unfold next_index, looks_left. destruct (Rlt_dec 0 (-60)); [lra | reflexivity]. }
  split; [exact Ha|]. split; [exact EC|]. split; [exact NI|]. split; [|exact LT].
  pose proof (C88_ground fx_p 2 ex_f a 1 (PI / 6) 1 row (seg_coords sg) v 0 (to_gnd_total v) EC ltac:(cbn; lia) NI) as K. rewrite R1 in K. apply K. reflexivity.
Qed.

(** The back of row 0, which looks left where there is no other row, and sees the ground from its
    cut point at [sqrt 3] on. *)
Example C88_edge_example : exists a row sg v, fit fx_p 2 ex_f = Some a /\
  element_case fx_p 2 ex_f a 1 (PI / 6) 0 row (seg_coords sg) v /\
  (forall j, ~ next_index (looks_left (ft_rotation a 1%nat) true) 0 j) /\ cut_in_view a 1 0 (looks_left (ft_rotation a 1%nat) true) /\
  view_factor (opaque_array fx_p a 1) (seg_coords sg 1%nat) (side_normal (-60) true) (Line (Pt (-100) 0) (Pt 100 0)) (0, 1) (to_gnd_total v).
Proof.
  destruct fx_fit as [a Ha]. exists a.
  destruct (fx_case a Ha 0 0 ltac:(lia) ltac:(cbn; lia)) as [row [sg [v [lo [_ [_ [(SC & Ht & NSl & Hr & Hs & Hl & Hv) _]]]]]]].
  exists row, sg, v. pose proof (fx_rot a Ha) as R1. pose proof sqrt3 as S3.
  assert (LL : looks_left (ft_rotation a 1%nat) true = true) by (rewrite R1; unfold looks_left; destruct (Rlt_dec 0 (-60)); [lra | reflexivity]).
  assert (EC : element_case fx_p 2 ex_f a 1 (PI / 6) 0 row (seg_coords sg) v).
  { split; [exact SC|]. split; [rewrite R1; lra|]. split; [exact Hr|]. split; [left; exists sg; auto|]. split; [exact Hl | exact Hv]. }
  assert (NX : forall j, ~ next_index (looks_left (ft_rotation a 1%nat) true) 0 j) by (intros j H; rewrite LL in H; discriminate H).
  assert (CV : cut_in_view a 1 0 (looks_left (ft_rotation a 1%nat) true)).
  { rewrite LL. unfold cut_in_view. pose proof (ec_cut fx_p 2 ex_f a 1 (PI / 6) 0 row (seg_coords sg) v EC) as C. unfold cutp in C.
    destruct (nth_error (gnd_cut_points (ft_ground a)) 0) as [cut|] eqn:E.
    - rewrite (nth_error_nth _ _ _ E) in C. exists cut. split; [reflexivity|]. rewrite C. cbn [xle]. rewrite R1, rr60, sin_neg, cos_neg, sin_PI3, cos_PI3. cbn [INR].
      change (pa_height fx_p) with 3. apply Rle_trans with 0; [lra|]. replace (0 * pa_distance fx_p - 3 * (1 / 2) / - (sqrt 3 / 2)) with (3 / sqrt 3) by (field; lra).
      apply Rlt_le, Rdiv_lt_0_compat; lra.
    - apply nth_error_None in E. rewrite nth_overflow in C by exact E. discriminate C. }
  split; [exact Ha|]. split; [exact EC|]. split; [exact NX|]. split; [exact CV|].
  rewrite <- R1. apply (C88_edge fx_p 2 ex_f a 1 (PI / 6) 0 row (seg_coords sg) v (to_gnd_total v) EC); [intros j _; apply NX | exact CV | reflexivity].
Qed.
