(** Lemmas on segments, distances and containment (proofs for C40-C43). *)
From Coq Require Import Reals List Bool Arith String Lra Lia Psatz.
From Verif Require Import Num ModelTs ModelGeom ModelVF ModelParams ModelLinalg ModelShapely
  Basics SpecGeom SpecShapely.
Import ListNotations.
Open Scope R_scope.

Lemma gap_dist : forall p q, distance p q = gap p q.
Proof. intros p q. unfold distance, gap, dist2. f_equal. ring. Qed.

Lemma length_seg : forall l, line_length l = seg_length l.
Proof. intros l. unfold line_length, seg_length, gap, dist2. f_equal. ring. Qed.

Lemma gap_sym : forall p q, gap p q = gap q p.
Proof. intros p q. unfold gap, dist2. f_equal. ring. Qed.

Lemma gap_nonneg : forall p q, 0 <= gap p q.
Proof. intros. apply sqrt_pos. Qed.

Lemma gap_triangle : forall p q r, gap p r <= gap p q + gap q r.
Proof.
  assert (E : forall a b, gap a b = dist_euc (px a) (py a) (px b) (py b)).
  { intros a b. unfold gap, dist2, dist_euc, Rsqr. reflexivity. }
  intros p q r. rewrite !E. apply triangle.
Qed.

Lemma seg_point_0 : forall l, seg_point l 0 = b1 l.
Proof. intros [[x1 y1] [x2 y2]]. unfold seg_point. cbn [b1 b2 px py]. f_equal; ring. Qed.

Lemma seg_point_1 : forall l, seg_point l 1 = b2 l.
Proof. intros [[x1 y1] [x2 y2]]. unfold seg_point. cbn [b1 b2 px py]. f_equal; ring. Qed.

(** The distance computed by GEOS is the smallest distance to a point of the segment. *)
Lemma dist_point_line_min : forall l p,
  (exists q, on_segment l q /\ dist_point_line l p = gap p q) /\
  (forall q, on_segment l q -> dist_point_line l p <= gap p q).
Proof.
  intros l p. unfold dist_point_line.
  set (A := b1 l). set (B := b2 l).
  set (dx := px B - px A). set (dy := py B - py A).
  set (ux := px p - px A). set (uy := py p - py A).
  assert (D2 : forall k, dist2 p (seg_point l k)
                         = (ux - k * dx) * (ux - k * dx) + (uy - k * dy) * (uy - k * dy)).
  { intros k. unfold dist2, seg_point, ux, uy, dx, dy. fold A B. cbn [px py]. ring. }
  assert (EA : A = seg_point l 0) by (symmetry; apply seg_point_0).
  assert (EB : B = seg_point l 1) by (symmetry; apply seg_point_1).
  assert (GA : distance A p = sqrt (ux * ux + uy * uy)).
  { rewrite gap_dist, gap_sym. unfold gap. rewrite EA, D2. f_equal. ring. }
  assert (GB : distance B p = sqrt ((ux - dx) * (ux - dx) + (uy - dy) * (uy - dy))).
  { rewrite gap_dist, gap_sym. unfold gap. rewrite EB, D2. f_equal. ring. }
  assert (G : forall k, gap p (seg_point l k)
      = sqrt ((ux - k * dx) * (ux - k * dx) + (uy - k * dy) * (uy - k * dy)))
    by (intros; unfold gap; rewrite D2; reflexivity).
  destruct (Req_EM_T (dx ^ 2 + dy ^ 2) 0) as [E|E].
  - assert (dx = 0) by (apply Rsqr_0_uniq; unfold Rsqr; nra).
    assert (dy = 0) by (apply Rsqr_0_uniq; unfold Rsqr; nra).
    split.
    + exists A. split; [exists 0; split; [lra | exact EA] | rewrite gap_dist; apply gap_sym].
    + intros q (k & Hk & ->). rewrite G, GA. apply sqrt_le_1_alt. nra.
  - assert (L : 0 < dx ^ 2 + dy ^ 2) by nra.
    set (L2 := dx ^ 2 + dy ^ 2) in *.
    set (r := (ux * dx + uy * dy) / L2).
    assert (Hr : ux * dx + uy * dy = r * L2) by (unfold r; field; lra).
    destruct (Rle_dec r 0) as [R0|R0]; [| destruct (Rle_dec 1 r) as [R1|R1]].
    + split.
      * exists A. split; [exists 0; split; [lra | exact EA] | rewrite gap_dist; apply gap_sym].
      * intros q (k & Hk & ->). rewrite G, GA. apply sqrt_le_1_alt.
        assert (r * L2 <= 0) by nra.
        assert (0 <= k * (k * L2)) by (apply Rmult_le_pos; [lra| apply Rmult_le_pos; lra]).
        assert (0 <= k * (- (r * L2))) by (apply Rmult_le_pos; lra).
        unfold L2 in *. nra.
    + split.
      * exists B. split; [exists 1; split; [lra | exact EB] | rewrite gap_dist; apply gap_sym].
      * intros q (k & Hk & ->). rewrite G, GB. apply sqrt_le_1_alt.
        assert (0 <= (1 - k) * ((2 * r - 1 - k) * L2)).
        { apply Rmult_le_pos; [lra|]. apply Rmult_le_pos; lra. }
        replace ((ux - k * dx) * (ux - k * dx) + (uy - k * dy) * (uy - k * dy))
          with ((ux - dx) * (ux - dx) + (uy - dy) * (uy - dy)
                + (2 * (1 - k) * (ux * dx + uy * dy) - (1 - k) * (1 + k) * L2))
          by (unfold L2; ring).
        rewrite Hr. nra.
    + set (s := ((py A - py p) * dx - (px A - px p) * dy) / L2).
      assert (Hs : ux * dy - uy * dx = s * L2).
      { unfold s, ux, uy. field. lra. }
      assert (Q : forall k, (ux - k * dx) * (ux - k * dx) + (uy - k * dy) * (uy - k * dy)
                            = (s * s + (k - r) * (k - r)) * L2).
      { intros k.
        assert (Z : L2 * ((ux - k * dx) * (ux - k * dx) + (uy - k * dy) * (uy - k * dy))
                    = L2 * ((s * s + (k - r) * (k - r)) * L2)).
        { replace (L2 * ((s * s + (k - r) * (k - r)) * L2))
            with ((s * L2) * (s * L2) + (r * L2) * (r * L2) - 2 * k * L2 * (r * L2)
                  + k * k * L2 * L2) by ring.
          rewrite <- Hs, <- Hr. unfold L2. ring. }
        apply Rmult_eq_reg_l in Z; [exact Z | lra]. }
      assert (V : Rabs s * sqrt L2 = sqrt (s * s * L2)).
      { rewrite sqrt_mult by nra. f_equal. symmetry. apply sqrt_Rsqr_abs. }
      rewrite V. split.
      * exists (seg_point l r). split; [exists r; split; [lra | reflexivity]|].
        rewrite G, Q. f_equal. ring.
      * intros q (k & Hk & ->). rewrite G, Q. apply sqrt_le_1_alt.
        assert (0 <= (k - r) * (k - r) * L2)
          by (apply Rmult_le_pos; [apply (Rle_0_sqr (k - r)) | lra]). lra.
Qed.

Lemma contains_near : forall l p, contains l p = true <-> near DISTANCE_TOLERANCE l p.
Proof.
  intros l p. unfold contains, near. rewrite Rltb_true.
  destruct (dist_point_line_min l p) as [(q & Hq & E) M]. split.
  - intros H. exists q. split; [exact Hq | rewrite <- E; exact H].
  - intros (q' & Hq' & H). specialize (M q' Hq'). lra.
Qed.

Lemma boundary_ok : forall l, b1 l <> b2 l -> boundary l = Ok (b1 l, b2 l).
Proof.
  intros [[x1 y1] [x2 y2]] H. unfold boundary. cbn [b1 b2 px py] in *.
  destruct (Reqb_spec x1 x2); [| reflexivity].
  destruct (Reqb_spec y1 y2); [| reflexivity]. subst. contradiction.
Qed.

Lemma boundary_err : forall l, b1 l = b2 l -> boundary l = Err ValueError.
Proof.
  intros l H. unfold boundary. rewrite H.
  destruct (Reqb_spec (px (b2 l)) (px (b2 l))); [| congruence].
  destruct (Reqb_spec (py (b2 l)) (py (b2 l))); [reflexivity | congruence].
Qed.

Lemma boundary_inv : forall l e, boundary l = Ok e -> e = (b1 l, b2 l) /\ b1 l <> b2 l.
Proof.
  intros l e H. assert (D : b1 l <> b2 l).
  { intros E. rewrite (boundary_err l E) in H. discriminate. }
  rewrite (boundary_ok l D) in H. injection H as <-. auto.
Qed.

(* ------------------------------------------------------- positions along a line *)

Section Along.
Variables x y c s : R.
Hypothesis unit : c * c + s * s = 1.

Lemma along_inj : forall a b, along x y c s a = along x y c s b -> a = b.
Proof.
  intros a b H. unfold along in H. injection H as H1 H2.
  assert (E1 : a * c = b * c) by lra. assert (E2 : a * s = b * s) by lra.
  replace a with (a * c * c + a * s * s) by (rewrite <- (Rmult_1_r a) at 3; rewrite <- unit; ring).
  rewrite E1, E2. rewrite <- (Rmult_1_r b) at 3. rewrite <- unit. ring.
Qed.

Lemma gap_along : forall a b, gap (along x y c s a) (along x y c s b) = Rabs (a - b).
Proof.
  intros a b. unfold gap, dist2, along. cbn [px py].
  replace ((x + a * c - (x + b * c)) * (x + a * c - (x + b * c))
           + (y + a * s - (y + b * s)) * (y + a * s - (y + b * s)))
    with ((a - b) * (a - b) * (c * c + s * s)) by ring.
  rewrite unit, Rmult_1_r. apply sqrt_Rsqr_abs.
Qed.

Lemma seg_point_along : forall a b k,
  seg_point (Line (along x y c s a) (along x y c s b)) k = along x y c s ((1 - k) * a + k * b).
Proof. intros. unfold seg_point, along. cbn [b1 b2 px py]. f_equal; ring. Qed.

Lemma on_segment_along : forall a b t,
  on_segment (Line (along x y c s a) (along x y c s b)) (along x y c s t)
  <-> Rmin a b <= t <= Rmax a b.
Proof.
  intros a b t. unfold on_segment. split.
  - intros (k & Hk & E). rewrite seg_point_along in E. apply along_inj in E. subst t.
    unfold Rmin, Rmax. destruct (Rle_dec a b); split; nra.
  - intros H. destruct (Req_dec a b) as [E|E].
    + subst b. rewrite Rmin_left, Rmax_left in H by lra.
      exists 0. split; [lra|]. rewrite seg_point_along. f_equal. lra.
    + exists ((t - a) / (b - a)).
      assert (D : b - a <> 0) by lra.
      rewrite seg_point_along. split.
      * unfold Rmin, Rmax in H. destruct (Rle_dec a b).
        -- split; [apply Rmult_le_pos; [lra | left; apply Rinv_0_lt_compat; lra]|].
           apply (Rmult_le_reg_r (b - a)); [lra|]. unfold Rdiv.
           rewrite Rmult_assoc, Rinv_l by lra. lra.
        -- replace ((t - a) / (b - a)) with ((a - t) / (a - b)) by (field; lra).
           split; [apply Rmult_le_pos; [lra | left; apply Rinv_0_lt_compat; lra]|].
           apply (Rmult_le_reg_r (a - b)); [lra|]. unfold Rdiv.
           rewrite Rmult_assoc, Rinv_l by lra. lra.
      * f_equal. field. lra.
Qed.

Lemma on_segment_is_along : forall a b p,
  on_segment (Line (along x y c s a) (along x y c s b)) p -> exists t, p = along x y c s t.
Proof. intros a b p (k & _ & ->). rewrite seg_point_along. eauto. Qed.

(** Containment of a position: within the tolerance of the interval. *)
Lemma contains_along : forall a b t,
  contains (Line (along x y c s a) (along x y c s b)) (along x y c s t) = true
  <-> Rmin a b - DISTANCE_TOLERANCE < t < Rmax a b + DISTANCE_TOLERANCE.
Proof.
  intros a b t. rewrite contains_near. unfold near. pose proof DISTANCE_TOLERANCE_pos as T.
  split.
  - intros (q & Hq & G). destruct (on_segment_is_along _ _ _ Hq) as (u & ->).
    rewrite on_segment_along in Hq. rewrite gap_along in G. apply Rabs_def2 in G. lra.
  - intros H.
    assert (M : Rmin a b <= Rmax a b) by (unfold Rmin, Rmax; destruct (Rle_dec a b); lra).
    exists (along x y c s (Rmax (Rmin a b) (Rmin t (Rmax a b)))).
    rewrite on_segment_along, gap_along.
    split.
    + split; [apply Rmax_l|]. apply Rmax_lub; [lra | apply Rmin_r].
    + revert H M. generalize (Rmin a b), (Rmax a b). intros lo hi H M.
      unfold Rmin, Rmax, Rabs. destruct (Rle_dec t hi);
      repeat match goal with |- context [Rle_dec ?a ?b] => destruct (Rle_dec a b) end;
      match goal with |- context [Rcase_abs ?a] => destruct (Rcase_abs a) end; lra.
Qed.

Lemma length_along : forall a b,
  line_length (Line (along x y c s a) (along x y c s b)) = Rabs (a - b).
Proof. intros. rewrite length_seg. unfold seg_length. cbn [b1 b2]. apply gap_along. Qed.

End Along.
