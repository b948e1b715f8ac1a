(** Sums over the surfaces of a PV row side, and over the ground surfaces on one side of
    a cut point, that telescope. *)
From Coq Require Import Reals List Bool Arith Lra Lia Permutation.
From Verif Require Import Num ModelTs ModelGeom Basics SpecGeom ProofGround ProofShade ProofRow ProofFit ProofCut ProofGeom ProofString.
Import ListNotations.
Open Scope R_scope.

(* -------------------------------------------------------------------- PV row side *)

(** Unit vector from the lower to the upper edge. *)
Definition up_x (r : R) : R := if Rlt_dec 0 r then cosd r else - cosd r.
Definition up_y (r : R) : R := if Rlt_dec 0 r then sind r else - sind r.

Lemma up_unit : forall r, up_x r * up_x r + up_y r * up_y r = 1.
Proof. intros. pose proof (sc_1 r). unfold up_x, up_y. destruct (Rlt_dec 0 r); lra. Qed.

Lemma up_y_pos : forall r, -180 < r < 180 -> r <> 0 -> 0 < up_y r.
Proof.
  intros r H N. unfold up_y. destruct (Rlt_dec 0 r).
  - apply sind_pos. lra.
  - pose proof (sind_neg r). lra.
Qed.

Lemma up_flat : up_x 0 = -1 /\ up_y 0 = 0.
Proof. unfold up_x, up_y. destruct (Rlt_dec 0 0); [lra |]. rewrite sind_0, cosd_0. lra. Qed.

Lemma up_y_nonneg : forall r, -180 < r < 180 -> 0 <= up_y r.
Proof.
  intros r H. destruct (Req_dec r 0) as [-> | N]; [destruct up_flat; lra |].
  left. apply up_y_pos; auto.
Qed.

Lemma low_point_line : forall xc yc w r e,
  low_point xc yc w r e =
  Pt (px (low_point xc yc w r 0) + e * up_x r) (py (low_point xc yc w r 0) + e * up_y r).
Proof.
  intros. unfold low_point. rewrite !row_point_eq. unfold from_low_end, up_x, up_y. cbn [px py].
  destruct (Rlt_dec 0 r); f_equal; ring.
Qed.

Lemma low_point_y : forall xc yc w r e e', -180 < r < 180 -> e <= e' ->
  py (low_point xc yc w r e) <= py (low_point xc yc w r e').
Proof.
  intros xc yc w r e e' H He. rewrite (low_point_line _ _ _ _ e), (low_point_line _ _ _ _ e'). cbn [py].
  pose proof (up_y_nonneg r H). assert (e * up_y r <= e' * up_y r) by (apply Rmult_le_compat_r; auto). lra.
Qed.

(** Lower and upper ends of a line between two points of the row. *)
Lemma line_ends : forall xc yc w r e e', -180 < r < 180 -> r <> 0 -> e <= e' ->
  highest_point (Line (low_point xc yc w r e) (low_point xc yc w r e')) = low_point xc yc w r e' /\
  lowest_point (Line (low_point xc yc w r e) (low_point xc yc w r e')) = low_point xc yc w r e /\
  highest_point (Line (low_point xc yc w r e') (low_point xc yc w r e)) = low_point xc yc w r e' /\
  lowest_point (Line (low_point xc yc w r e') (low_point xc yc w r e)) = low_point xc yc w r e.
Proof.
  intros xc yc w r e e' H N He. pose proof (low_point_y xc yc w r e e' H He) as Y.
  assert (S : py (low_point xc yc w r e') <= py (low_point xc yc w r e) ->
              low_point xc yc w r e = low_point xc yc w r e').
  { intro K. f_equal. rewrite (low_point_line _ _ _ _ e), (low_point_line _ _ _ _ e') in K. cbn [py] in K.
    pose proof (up_y_pos r H N). nra. }
  unfold highest_point, lowest_point. cbn [b1 b2].
  destruct (Rleb_spec (py (low_point xc yc w r e')) (py (low_point xc yc w r e))) as [A | A];
  destruct (Rleb_spec (py (low_point xc yc w r e)) (py (low_point xc yc w r e'))) as [B | B]; try lra;
  cbn [np_where]; try rewrite <- (S A); destruct (low_point xc yc w r e) as [x y], (low_point xc yc w r e') as [x' y'];
  cbn [px py np_where]; auto.
Qed.

Lemma flat_ends : forall xc yc w e e', e' <= e ->
  let P := low_point xc yc w 0 in
  highest_point (Line (P e) (P e')) = P e /\ lowest_point (Line (P e) (P e')) = P e'.
Proof.
  intros xc yc w e e' H P. unfold P.
  assert (Y : py (low_point xc yc w 0 e) = py (low_point xc yc w 0 e')).
  { rewrite (low_point_line _ _ _ _ e), (low_point_line _ _ _ _ e'). cbn [py].
    destruct up_flat as [_ ->]. ring. }
  unfold highest_point, lowest_point. cbn [b1 b2]. rewrite Y.
  assert (E : Rleb (py (low_point xc yc w 0 e')) (py (low_point xc yc w 0 e')) = true) by (apply Rleb_true; lra).
  rewrite E. unfold np_where. rewrite <- Y at 1.
  destruct (low_point xc yc w 0 e), (low_point xc yc w 0 e'). auto.
Qed.

Lemma low_point_flat_eq : forall xc yc w s, row_point xc yc 0 s = low_point xc yc w 0 (w / 2 - s).
Proof.
  intros. unfold low_point, from_low_end. destruct (Rlt_dec 0 0); [lra |]. f_equal. ring.
Qed.

Definition spans_between (P : R -> pt) (lo hi : R) (t : nat) (s : ts_surface) : Prop :=
  exists e e', lo <= e <= e' /\ e' <= hi /\ s_lowest s t = P e /\ s_highest s t = P e' /\
    s_length s t = e' - e /\
    (s_coords s t = Line (P e) (P e') \/ s_coords s t = Line (P e') (P e)).

Lemma seg_surfaces_ends : forall row bk xc yc w rot cut sl nv t i,
  0 < w -> -180 < rot t < 180 -> (i < cut)%nat -> 0 <= sl t <= w ->
  let P := low_point xc yc w (rot t) in
  let lo := seg_lo w (rot t) cut i in
  let hi := seg_hi w (rot t) cut i in
  let c t := segment_coords xc yc w (rot t) cut (sl t) i in
  let il := TsSurface (SidRow row bk i false) (fun t => snd (fst (c t))) nv false in
  let sh := TsSurface (SidRow row bk i true) (fun t => snd (c t)) nv true in
  spans_between P lo hi t il /\ spans_between P lo hi t sh /\
  forall F : pt -> R,
    (F (s_highest il t) - F (s_lowest il t)) + (F (s_highest sh t) - F (s_lowest sh t)) = F (P hi) - F (P lo).
Proof.
  intros row bk xc yc w rot cut sl nv t i Hw Hr Hi Hs P lo hi c il sh.
  assert (C0 : (0 < cut)%nat) by lia.
  assert (Hlh : lo <= hi).
  { pose proof (seg_hi_lo w (rot t) cut i). assert (0 < w / INR cut) by (apply Rdiv_lt_0_compat; [auto | apply lt_0_INR; auto]).
    unfold lo, hi. lra. }
  destruct (Req_dec (rot t) 0) as [Z | Nz].
  - pose proof (segment_coords_flat xc yc w cut (sl t) i) as E. cbv zeta in E.
    assert (E1 : row_point xc yc 0 (- (w / 2) + INR i * (w / INR cut)) = P hi).
    { rewrite (low_point_flat_eq xc yc w). unfold P, hi, seg_hi. rewrite Z. f_equal.
      destruct (Rlt_dec 0 0); [lra |]. field. apply not_0_INR. lia. }
    assert (E2 : row_point xc yc 0 (- (w / 2) + (INR i + 1) * (w / INR cut)) = P lo).
    { rewrite (low_point_flat_eq xc yc w). unfold P, lo, seg_lo. rewrite Z. f_equal.
      destruct (Rlt_dec 0 0); [lra |]. field. apply not_0_INR. lia. }
    assert (Ec : c t = (Line (P hi) (P lo), Line (P hi) (P lo), Line (P hi) (P hi))).
    { unfold c. rewrite Z, E, E1, E2. reflexivity. }
    assert (EL : forall e e', e' <= e -> highest_point (Line (P e) (P e')) = P e /\ lowest_point (Line (P e) (P e')) = P e').
    { intros e e' He. unfold P. rewrite Z. apply flat_ends. auto. }
    destruct (EL hi lo Hlh) as [A1 A2]. destruct (EL hi hi) as [B1 B2]; [lra |].
    unfold spans_between, il, sh, s_highest, s_lowest, s_length. cbn [s_coords]. rewrite Ec. cbn [fst snd].
    rewrite A1, A2, B1, B2. split; [| split].
    + exists lo, hi. repeat split; auto; try lra.
      transitivity (line_length (Line (P lo) (P hi))); [| apply low_point_dist; auto].
      unfold line_length. cbn [b1 b2]. f_equal. ring.
    + exists hi, hi. repeat split; auto; try lra. apply low_point_dist. lra.
    + intro F. ring.
  - pose proof (segment_coords_nonflat xc yc w (rot t) cut (sl t) i Hw Hr Nz C0) as E. cbv zeta in E.
    fold lo hi in E.
    set (m := Rmax lo (Rmin (sl t) hi)) in *.
    assert (Hm : lo <= m <= hi) by (unfold m; minmax; lra).
    unfold spans_between, il, sh, s_highest, s_lowest, s_length. cbn [s_coords]. unfold c. rewrite E. cbn [fst snd].
    destruct (line_ends xc yc w (rot t) m hi Hr Nz) as [A1 [A2 _]]; [lra |].
    destruct (line_ends xc yc w (rot t) lo m Hr Nz) as [B1 [B2 _]]; [lra |].
    rewrite A1, A2, B1, B2. rewrite !low_point_dist by lra. split; [| split].
    + exists m, hi. repeat split; auto; lra.
    + exists lo, m. repeat split; auto; lra.
    + intro F. unfold P. ring.
Qed.

Lemma side_spans : forall row bk xc yc w rot cut sl nv t s,
  0 < w -> -180 < rot t < 180 -> 0 <= sl t <= w ->
  In s (side_surfaces (side_from_raw_inputs row bk xc yc w rot cut sl nv)) ->
  spans_between (low_point xc yc w (rot t)) 0 w t s.
Proof.
  intros row bk xc yc w rot cut sl nv t s Hw Hr Hs H. unfold side_surfaces, side_from_raw_inputs in H.
  cbn [side_segments] in H. apply in_flat_map in H. destruct H as [g [Hg H]].
  apply in_map_iff in Hg. destruct Hg as [i [<- Hi]]. apply in_seq in Hi.
  destruct (seg_surfaces_ends row bk xc yc w rot cut sl nv t i) as [A [B _]]; auto; [lia |].
  destruct (seg_bounds w (rot t) cut i) as [K1 K2]; [auto | lia |].
  assert (W : forall s', spans_between (low_point xc yc w (rot t)) (seg_lo w (rot t) cut i) (seg_hi w (rot t) cut i) t s' ->
              spans_between (low_point xc yc w (rot t)) 0 w t s').
  { intros s' [e [e' [He [He' R]]]]. exists e, e'. repeat split; try tauto; lra. }
  unfold seg_surfaces in H. cbn [seg_illum seg_shaded app] in H.
  destruct H as [<- | [<- | []]]; apply W; auto.
Qed.

(** Sum over the surfaces of a side of the increase of any function of the position. *)
Lemma side_telescope : forall row bk xc yc w rot cut sl nv t (F : pt -> R),
  0 < w -> -180 < rot t < 180 -> (0 < cut)%nat -> 0 <= sl t <= w ->
  rsum (map (fun s => F (s_highest s t) - F (s_lowest s t))
         (side_surfaces (side_from_raw_inputs row bk xc yc w rot cut sl nv))) =
  F (low_point xc yc w (rot t) w) - F (low_point xc yc w (rot t) 0).
Proof.
  intros row bk xc yc w rot cut sl nv t F Hw Hr Hc Hs. unfold side_surfaces, side_from_raw_inputs.
  cbn [side_segments]. rewrite rsum_flat_map, map_map.
  set (P := low_point xc yc w (rot t)).
  rewrite (rsum_map_ext _ _ (fun i => F (P (seg_hi w (rot t) cut i)) - F (P (seg_lo w (rot t) cut i)))).
  2:{ intros i Hi. apply in_seq in Hi.
      destruct (seg_surfaces_ends row bk xc yc w rot cut sl nv t i) as [_ [_ E]]; auto; [lia |].
      unfold seg_surfaces. cbn [seg_illum seg_shaded app map rsum]. unfold P. rewrite <- (E F). ring. }
  rewrite rsum_seq. assert (N : INR cut <> 0) by (apply not_0_INR; lia).
  assert (E0 : INR cut * (w / INR cut) = w) by (field; auto).
  destruct (Rlt_dec 0 (rot t)) as [L | L].
  - rewrite (isum_ext _ _ (fun i => F (P (INR (S i) * (w / INR cut))) - F (P (INR i * (w / INR cut))))).
    + rewrite (isum_telescope cut (fun i => F (P (INR i * (w / INR cut))))). cbn [INR]. rewrite E0, Rmult_0_l. reflexivity.
    + intros i _. unfold seg_hi, seg_lo. destruct (Rlt_dec 0 (rot t)); [| contradiction]. rewrite S_INR. reflexivity.
  - rewrite (isum_ext _ _ (fun i => (fun i => - F (P (w - INR i * (w / INR cut)))) (S i) - (fun i => - F (P (w - INR i * (w / INR cut)))) i)).
    + rewrite (isum_telescope cut (fun i => - F (P (w - INR i * (w / INR cut))))). cbn [INR]. rewrite E0, Rmult_0_l.
      replace (w - w) with 0 by ring. replace (w - 0) with w by ring. ring.
    + intros i _. unfold seg_hi, seg_lo. destruct (Rlt_dec 0 (rot t)); [contradiction |]. rewrite S_INR. ring.
Qed.

(* -------------------------------------------------------------------------- ground *)

Lemma end_to_end_telescope : forall (F : R -> R) lo hi l, end_to_end lo hi l ->
  rsum (map (fun i => F (snd i) - F (fst i)) l) = F hi - F lo.
Proof. intros F lo hi l H. induction H; cbn [map rsum fst snd]; lra. Qed.

Lemma contiguous_telescope : forall (F : R -> R) lo hi l, contiguous lo hi l ->
  rsum (map (fun i => F (snd i) - F (fst i)) l) = F hi - F lo.
Proof. intros F lo hi l H. induction H; cbn [map rsum fst snd]; lra. Qed.

Lemma min_max_sum : forall (F : R -> R) x c, F (Rmin x c) + F (Rmax x c) = F x + F c.
Proof. intros. minmax; lra. Qed.

Definition ext_diff (F : R -> R) (t : nat) (l : ts line) : R := F (px (b2 (l t))) - F (px (b1 (l t))).

(** Pieces of an element on the left of the [i]-th cut point. *)
Lemma left_pieces : forall (F : R -> R) t cuts i ci c,
  not_nan t cuts -> sorted_cuts t cuts -> in_ground (c t) -> nth_error cuts i = Some ci ->
  rsum (map (ext_diff F t) (firstn (S i) (create_coords c cuts))) =
  F (Rmin (px (b2 (c t))) (ck (ci t))) - F (Rmin (px (b1 (c t))) (ck (ci t))).
Proof.
  intros F t. induction cuts as [| k cuts IH]; intros i ci c Hn Hs Hc Hi; [destruct i; discriminate |].
  assert (Hk : k t <> XNaN) by (apply Hn; left; auto).
  destruct (left_x (c t) (k t) Hk Hc) as [L1 L2]. destruct (right_x (c t) (k t) Hk Hc) as [R1 R2].
  assert (L : ext_diff F t (fun t => coords_left_of_cut_point (c t) (k t)) =
     F (Rmin (px (b2 (c t))) (ck (k t))) - F (Rmin (px (b1 (c t))) (ck (k t)))).
  { unfold ext_diff. rewrite L1, L2. reflexivity. }
  destruct i as [| i].
  - cbn in Hi. injection Hi as <-. cbn [create_coords firstn map rsum]. rewrite L. ring.
  - cbn in Hi. assert (Kc : ck (k t) <= ck (ci t)).
    { apply (Hs 0%nat (S i) k ci); [lia | reflexivity | exact Hi]. }
    cbn [create_coords]. rewrite firstn_cons. cbn [map rsum]. rewrite L.
    pose proof (IH i ci (fun t => coords_right_of_cut_point (c t) (k t))) as Q.
    etransitivity; [apply f_equal2; [reflexivity | apply Q] |].
    5:{ cbv beta. rewrite R1, R2.
      assert (E : forall x, F (Rmin x (ck (k t))) + F (Rmin (Rmax x (ck (k t))) (ck (ci t))) = F (Rmin x (ck (ci t))) + F (ck (k t))).
      { intro x. minmax; try lra. }
      pose proof (E (px (b1 (c t)))). pose proof (E (px (b2 (c t)))). lra. }
    + intros x Hx. apply Hn. right. auto.
    + eapply sorted_cuts_tail; eauto.
    + apply right_in_ground; auto.
    + exact Hi.
Qed.

Lemma right_pieces : forall (F : R -> R) t cuts i ci c,
  not_nan t cuts -> sorted_cuts t cuts -> in_ground (c t) -> nth_error cuts i = Some ci ->
  rsum (map (ext_diff F t) (skipn (S i) (create_coords c cuts))) =
  F (Rmax (px (b2 (c t))) (ck (ci t))) - F (Rmax (px (b1 (c t))) (ck (ci t))).
Proof.
  intros F t cuts i ci c Hn Hs Hc Hi.
  pose proof (left_pieces F t cuts i ci c Hn Hs Hc Hi) as L.
  pose proof (end_to_end_telescope F _ _ _ (create_coords_end_to_end cuts c t Hn Hc)) as A.
  rewrite map_map in A.
  change (rsum (map (ext_diff F t) (create_coords c cuts)) = F (px (b2 (c t))) - F (px (b1 (c t)))) in A.
  rewrite <- (firstn_skipn (S i) (create_coords c cuts)), map_app, rsum_app in A.
  pose proof (min_max_sum F (px (b1 (c t))) (ck (ci t))). pose proof (min_max_sum F (px (b2 (c t))) (ck (ci t))).
  lra.
Qed.

Lemma el_side_coords : forall mkid sh c cuts i left, (i < length cuts)%nat ->
  map s_coords (el_side (make_element mkid sh c cuts) left i) =
  (if left then firstn (S i) else skipn (S i)) (create_coords c cuts).
Proof.
  intros mkid sh c cuts i left Hi. destruct (el_side_spec mkid sh c cuts i Hi) as [A B].
  assert (E : map s_coords (el_surfaces (make_element mkid sh c cuts)) = create_coords c cuts).
  { unfold make_element. destruct cuts as [| k cuts]; [cbn in Hi; lia |]. cbn [el_surfaces].
    rewrite map_map. cbn [s_coords]. rewrite (map_snd_enum _ _ (fun x => x)). apply map_id. }
  destruct left; [rewrite A, <- firstn_map, E | rewrite B, <- skipn_map, E]; reflexivity.
Qed.

Lemma gnd_side_telescope : forall (F : R -> R) y flag shadows cuts g i ci t (left : bool),
  ground_from_ordered_shadows y flag shadows cuts = Some g ->
  raw_ordered t (flag t) shadows -> not_nan t cuts -> sorted_cuts t cuts ->
  nth_error cuts i = Some ci ->
  rsum (map (fun s => ext_diff F t (s_coords s)) (gnd_side_of_cut_point g left i)) =
  if left then F (ck (ci t)) - F MIN_X_GROUND else F MAX_X_GROUND - F (ck (ci t)).
Proof.
  intros F y flag shadows cuts g i ci t left Hg Ho Hn Hs Hi.
  assert (Li : (i < length cuts)%nat) by (apply nth_error_Some; congruence).
  set (G := fun x => if left then F (Rmin x (ck (ci t))) else F (Rmax x (ck (ci t)))).
  assert (El : forall e, In e (gnd_shadows g ++ gnd_illum g) ->
     rsum (map (fun s => ext_diff F t (s_coords s)) (el_side e left i)) =
     G (snd (x_extent (el_coords e t))) - G (fst (x_extent (el_coords e t)))).
  { intros e He. pose proof (ground_elements_in_ground _ _ _ _ _ _ _ Hg Ho He) as I.
    destruct (ground_elements _ _ _ _ _ _ Hg He) as [mkid [sh [c [-> Ec]]]]. rewrite Ec in *.
    rewrite <- (map_map s_coords (ext_diff F t)), el_side_coords by auto. unfold G. cbn [fst snd x_extent].
    destruct left; [apply (left_pieces F t cuts i ci c) | apply (right_pieces F t cuts i ci c)]; auto. }
  pose proof (contiguous_telescope G _ _ _ (ground_tiles _ _ _ _ _ _ Hg Ho)) as T.
  assert (I : forall l1 l2 : list (R * R), rsum (map (fun i => G (snd i) - G (fst i)) (interleave l1 l2)) =
     rsum (map (fun i => G (snd i) - G (fst i)) l1) + rsum (map (fun i => G (snd i) - G (fst i)) l2)).
  { clear. induction l1 as [| a l1 IH]; intros [| b l2]; cbn [interleave map rsum]; try lra.
    rewrite IH. lra. }
  rewrite I in T. rewrite !map_map in T.
  unfold gnd_side_of_cut_point. rewrite map_app, rsum_app, !rsum_flat_map.
  rewrite (rsum_map_ext _ _ (fun e => G (snd (x_extent (el_coords e t))) - G (fst (x_extent (el_coords e t)))) (gnd_shadows g)).
  2:{ intros. apply El. apply in_or_app. auto. }
  rewrite (rsum_map_ext _ _ (fun e => G (snd (x_extent (el_coords e t))) - G (fst (x_extent (el_coords e t)))) (gnd_illum g)).
  2:{ intros. apply El. apply in_or_app. auto. }
  rewrite Rplus_comm, T. unfold G. pose proof (ck_bounds (ci t)) as B. destruct left.
  - rewrite (Rmin_right MAX_X_GROUND) by lra. rewrite (Rmin_left MIN_X_GROUND) by lra. reflexivity.
  - rewrite (Rmax_left MAX_X_GROUND) by lra. rewrite (Rmax_right MIN_X_GROUND) by lra. reflexivity.
Qed.

(* ------------------------------------------------------------------- shaded parts *)

(** Shaded surfaces of a side: from the lower edge up to the shaded length. *)
Lemma side_shaded_telescope : forall row bk xc yc w rot cut sl nv t (F : pt -> R),
  0 < w -> -180 < rot t < 180 -> (0 < cut)%nat -> 0 <= sl t <= w ->
  let side := side_from_raw_inputs row bk xc yc w rot cut sl nv in
  let P := low_point xc yc w (rot t) in
  0 <= side_shaded_length side t <= w /\
  rsum (map (fun s => F (s_highest s t) - F (s_lowest s t)) (flat_map seg_shaded (side_segments side))) =
  F (P (side_shaded_length side t)) - F (P 0).
Proof.
  intros row bk xc yc w rot cut sl nv t F Hw Hr Hc Hs side P.
  destruct (Req_dec (rot t) 0) as [Z | Nz].
  - assert (E0 : forall i, snd (segment_coords xc yc w (rot t) cut (sl t) i) =
                  Line (row_point xc yc 0 (- (w / 2) + INR i * (w / INR cut))) (row_point xc yc 0 (- (w / 2) + INR i * (w / INR cut)))).
    { intro i. rewrite Z. rewrite (segment_coords_flat xc yc w cut (sl t) i). reflexivity. }
    assert (L0 : side_shaded_length side t = 0).
    { unfold side_shaded_length, side, side_from_raw_inputs. cbn [side_segments]. rewrite map_map. cbn [seg_shaded].
      rewrite py_sum_map_seq. apply isum_zero. intros i _. unfold coll_length, s_length. cbn [map s_coords].
      rewrite py_sum_rsum. cbn [rsum]. rewrite E0, line_length_dist. cbn [b1 b2]. rewrite dist_self. ring. }
    rewrite L0. split; [lra |]. rewrite Rminus_diag_eq by reflexivity.
    apply rsum_map_zero. intros s Hs'. apply in_flat_map in Hs'. destruct Hs' as [sg [Hsg Hs']].
    unfold side, side_from_raw_inputs in Hsg. cbn [side_segments] in Hsg. apply in_map_iff in Hsg. destruct Hsg as [i [<- _]].
    cbn [seg_shaded] in Hs'. destruct Hs' as [<- | []]. unfold s_highest, s_lowest. cbn [s_coords]. rewrite E0.
    unfold highest_point, lowest_point. cbn [b1 b2]. unfold np_where.
    match goal with |- context [if ?b then _ else _] => destruct b end; lra.
  - assert (Es : side_shaded_length side t = sl t) by (apply side_shaded_length_eq; auto). rewrite Es. split; [auto |].
    unfold side, side_from_raw_inputs. cbn [side_segments]. rewrite rsum_flat_map, map_map.
    set (K := fun e => F (P (Rmin (sl t) e))).
    rewrite (rsum_map_ext _ _ (fun i => K (seg_hi w (rot t) cut i) - K (seg_lo w (rot t) cut i))).
    2:{ intros i Hi. apply in_seq in Hi. cbn [seg_shaded map rsum]. unfold s_highest, s_lowest. cbn [s_coords].
        rewrite (segment_coords_nonflat xc yc w (rot t) cut (sl t) i) by (auto; lia). cbn [snd].
        set (lo := seg_lo w (rot t) cut i). set (hi := seg_hi w (rot t) cut i). set (m := Rmax lo (Rmin (sl t) hi)).
        assert (Hlh : lo <= hi).
        { pose proof (seg_hi_lo w (rot t) cut i). assert (0 < w / INR cut) by (apply Rdiv_lt_0_compat; [auto | apply lt_0_INR; auto]).
          unfold lo, hi. lra. }
        assert (lo <= m) by (unfold m; apply Rmax_l).
        destruct (line_ends xc yc w (rot t) lo m Hr Nz) as [B1 [B2 _]]; [lra |]. rewrite B1, B2.
        unfold K, m. fold P. destruct (Rle_lt_dec lo (sl t)) as [A | A].
        - rewrite (Rmin_right (sl t) lo) by lra. rewrite Rmax_right by (apply Rmin_glb; lra). ring.
        - rewrite (Rmin_left (sl t) lo), (Rmin_left (sl t) hi) by lra. rewrite Rmax_left by lra. ring. }
    rewrite rsum_seq. assert (N : INR cut <> 0) by (apply not_0_INR; lia).
    assert (E0 : INR cut * (w / INR cut) = w) by (field; auto).
    destruct (Rlt_dec 0 (rot t)) as [L | L].
    + rewrite (isum_ext _ _ (fun i => K (INR (S i) * (w / INR cut)) - K (INR i * (w / INR cut)))).
      * rewrite (isum_telescope cut (fun i => K (INR i * (w / INR cut)))). cbn [INR]. rewrite E0, Rmult_0_l.
        unfold K. rewrite (Rmin_left (sl t) w), (Rmin_right (sl t) 0) by lra. reflexivity.
      * intros i _. unfold seg_hi, seg_lo. destruct (Rlt_dec 0 (rot t)); [| contradiction]. rewrite S_INR. reflexivity.
    + rewrite (isum_ext _ _ (fun i => (fun i => - K (w - INR i * (w / INR cut))) (S i) - (fun i => - K (w - INR i * (w / INR cut))) i)).
      * rewrite (isum_telescope cut (fun i => - K (w - INR i * (w / INR cut)))). cbn [INR]. rewrite E0, Rmult_0_l.
        replace (w - w) with 0 by ring. replace (w - 0) with w by ring.
        unfold K. rewrite (Rmin_left (sl t) w), (Rmin_right (sl t) 0) by lra. ring.
      * intros i _. unfold seg_hi, seg_lo. destruct (Rlt_dec 0 (rot t)); [contradiction |]. rewrite S_INR. ring.
Qed.

(** A segment and its surfaces. *)
Lemma side_segment_telescope : forall row bk xc yc w rot cut sl nv t sg,
  0 < w -> -180 < rot t < 180 -> 0 <= sl t <= w ->
  In sg (side_segments (side_from_raw_inputs row bk xc yc w rot cut sl nv)) ->
  let P := low_point xc yc w (rot t) in
  exists lo hi, 0 <= lo /\ lo < hi /\ hi <= w /\ hi - lo = w / INR cut /\
    (seg_coords sg t = Line (P lo) (P hi) \/ seg_coords sg t = Line (P hi) (P lo)) /\
    lowest_point (seg_coords sg t) = P lo /\ highest_point (seg_coords sg t) = P hi /\
    (forall s, In s (seg_surfaces sg) -> spans_between P lo hi t s) /\
    (forall F : pt -> R, rsum (map (fun s => F (s_highest s t) - F (s_lowest s t)) (seg_surfaces sg)) = F (P hi) - F (P lo)).
Proof.
  intros row bk xc yc w rot cut sl nv t sg Hw Hr Hs Hin P.
  unfold side_from_raw_inputs in Hin. cbn [side_segments] in Hin. apply in_map_iff in Hin.
  destruct Hin as [i [<- Hi]]. apply in_seq in Hi. assert (C0 : (0 < cut)%nat) by lia.
  destruct (seg_surfaces_ends row bk xc yc w rot cut sl nv t i Hw Hr ltac:(lia) Hs) as [Si [Ss E]].
  destruct (seg_bounds w (rot t) cut i Hw ltac:(lia)) as [B1 B2]. pose proof (seg_hi_lo w (rot t) cut i) as B3.
  assert (0 < w / INR cut) by (apply Rdiv_lt_0_compat; [auto | apply lt_0_INR; auto]).
  exists (seg_lo w (rot t) cut i), (seg_hi w (rot t) cut i). fold P in Si, Ss, E.
  split; [lra |]. split; [lra |]. split; [lra |]. split; [exact B3 |].
  cbn [seg_coords].
  assert (Q : (fst (fst (segment_coords xc yc w (rot t) cut (sl t) i)) = Line (P (seg_lo w (rot t) cut i)) (P (seg_hi w (rot t) cut i)) \/
     fst (fst (segment_coords xc yc w (rot t) cut (sl t) i)) = Line (P (seg_hi w (rot t) cut i)) (P (seg_lo w (rot t) cut i))) /\
     lowest_point (fst (fst (segment_coords xc yc w (rot t) cut (sl t) i))) = P (seg_lo w (rot t) cut i) /\
     highest_point (fst (fst (segment_coords xc yc w (rot t) cut (sl t) i))) = P (seg_hi w (rot t) cut i)).
  { destruct (Req_dec (rot t) 0) as [Z | Nz].
    - assert (E1 : row_point xc yc 0 (- (w / 2) + INR i * (w / INR cut)) = P (seg_hi w (rot t) cut i)).
      { rewrite (low_point_flat_eq xc yc w). unfold P, seg_hi. rewrite Z. f_equal.
        destruct (Rlt_dec 0 0); [lra |]. field. apply not_0_INR. lia. }
      assert (E2 : row_point xc yc 0 (- (w / 2) + (INR i + 1) * (w / INR cut)) = P (seg_lo w (rot t) cut i)).
      { rewrite (low_point_flat_eq xc yc w). unfold P, seg_lo. rewrite Z. f_equal.
        destruct (Rlt_dec 0 0); [lra |]. field. apply not_0_INR. lia. }
      assert (E3 : fst (fst (segment_coords xc yc w (rot t) cut (sl t) i)) = Line (P (seg_hi w (rot t) cut i)) (P (seg_lo w (rot t) cut i))).
      { rewrite <- E1, <- E2, Z, segment_coords_flat. reflexivity. }
      rewrite E3. split; [right; reflexivity |]. unfold P. revert B3 H. rewrite Z. intros B3 H.
      split; apply flat_ends; lra.
    - rewrite (segment_coords_nonflat xc yc w (rot t) cut (sl t) i Hw Hr Nz C0). cbn [fst]. fold P.
      destruct (line_ends xc yc w (rot t) (seg_lo w (rot t) cut i) (seg_hi w (rot t) cut i) Hr Nz) as [L1 [L2 [L3 L4]]]; [lra |].
      fold P in L1, L2, L3, L4. destruct (Rlt_dec 0 (rot t)); auto. }
  destruct Q as [Q1 [Q2 Q3]]. split; [exact Q1 |]. split; [exact Q2 |]. split; [exact Q3 |]. split.
  - intros s Hin. unfold seg_surfaces in Hin. cbn [seg_illum seg_shaded app] in Hin. destruct Hin as [<- | [<- | []]]; assumption.
  - intro F. unfold seg_surfaces. cbn [seg_illum seg_shaded app map rsum]. rewrite <- (E F). ring.
Qed.

(** Surfaces of a ground element on one side of a cut point, and the whole part of
    the element on that side. *)
Lemma el_side_telescope : forall (F : R -> R) y flag shadows cuts g i ci t (left : bool) e,
  ground_from_ordered_shadows y flag shadows cuts = Some g ->
  raw_ordered t (flag t) shadows -> not_nan t cuts -> sorted_cuts t cuts ->
  nth_error cuts i = Some ci -> In e (gnd_shadows g ++ gnd_illum g) ->
  let part := if left then coords_left_of_cut_point (el_coords e t) (ci t) else coords_right_of_cut_point (el_coords e t) (ci t) in
  rsum (map (fun s => ext_diff F t (s_coords s)) (el_side e left i)) = F (px (b2 part)) - F (px (b1 part)) /\
  in_ground part /\ py (b1 part) = y /\ py (b2 part) = y /\
  (if left then px (b2 part) <= ck (ci t) else ck (ci t) <= px (b1 part)).
Proof.
  intros F y flag shadows cuts g i ci t left e Hg Ho Hn Hs Hi He part.
  assert (Li : (i < length cuts)%nat) by (apply nth_error_Some; congruence).
  assert (Nc : ci t <> XNaN) by (apply Hn; eapply nth_error_In; eauto).
  pose proof (ground_elements_in_ground _ _ _ _ _ _ _ Hg Ho He) as I.
  destruct (ground_elements_y _ _ _ _ _ _ t Hg He) as [Y1 Y2].
  destruct (ground_elements _ _ _ _ _ _ Hg He) as [mkid [sh [c [-> Ec]]]]. rewrite Ec in *.
  rewrite <- (map_map s_coords (ext_diff F t)), el_side_coords by auto.
  unfold part. rewrite ?Ec. destruct left.
  - destruct (left_x (c t) (ci t) Nc I) as [X1 X2]. rewrite (left_pieces F t cuts i ci c), X1, X2 by auto.
    split; [reflexivity |]. split; [apply left_in_ground; auto |]. split; [exact Y1 |]. split; [exact Y2 |]. apply Rmin_r.
  - destruct (right_x (c t) (ci t) Nc I) as [X1 X2]. rewrite (right_pieces F t cuts i ci c), X1, X2 by auto.
    split; [reflexivity |]. split; [apply right_in_ground; auto |]. split; [exact Y1 |]. split; [exact Y2 |]. apply Rmax_r.
Qed.
