(** [projection] (proofs for C41). *)
From Coq Require Import Reals List Bool Arith String Lra Lia Psatz.
From Verif Require Import Num ModelTs ModelGeom ModelVF ModelParams ModelLinalg ModelShapely
  Basics ProofLinalg SpecGeom SpecShapely ProofShapely.
Import ListNotations.
Open Scope R_scope.

Lemma mat_vec_2 : forall M v i, mat_vec 2 M v i = M i 0%nat * v 0%nat + M i 1%nat * v 1%nat.
Proof. intros. unfold mat_vec. rewrite np_sum_isum. cbn [isum]. ring. Qed.

Lemma inv2 : forall a b d e c f, a * e - b * d <> 0 ->
  exists W, linalg_inv 2 (matrix2 a b d e) = Some W /\
    let X := mat_vec 2 W (vector2 c f) in
    a * X 0%nat + b * X 1%nat = c /\ d * X 0%nat + e * X 1%nat = f.
Proof.
  intros a b d e c f D.
  destruct (linalg_inv 2 (matrix2 a b d e)) as [W|] eqn:E.
  - exists W. split; [reflexivity|]. intros X.
    pose proof (linalg_inv_some 2 _ W X (vector2 c f) E) as [_ H].
    assert (H' := H (fun i _ => eq_refl)).
    pose proof (H' 0%nat ltac:(lia)) as H0. pose proof (H' 1%nat ltac:(lia)) as H1.
    rewrite mat_vec_2 in H0, H1. cbn in H0, H1. split; assumption.
  - exfalso. destruct (linalg_inv_none 2 _ E) as (v & (j & Hj & Nv) & H).
    pose proof (H 0%nat ltac:(lia)) as H0. pose proof (H 1%nat ltac:(lia)) as H1.
    rewrite mat_vec_2 in H0, H1. cbn in H0, H1.
    assert (v 0%nat * (a * e - b * d) = 0).
    { replace (v 0%nat * (a * e - b * d))
        with (e * (a * v 0%nat + b * v 1%nat) - b * (d * v 0%nat + e * v 1%nat)) by ring.
      rewrite H0, H1. ring. }
    assert (v 1%nat * (a * e - b * d) = 0).
    { replace (v 1%nat * (a * e - b * d))
        with (a * (d * v 0%nat + e * v 1%nat) - d * (a * v 0%nat + b * v 1%nat)) by ring.
      rewrite H0, H1. ring. }
    assert (j = 0 \/ j = 1)%nat as [-> | ->] by lia; apply Nv; nra.
Qed.

(** Points of the line carrying a segment. *)
Lemma on_line : forall l p, b1 l <> b2 l ->
  - (py (b2 l) - py (b1 l)) * (px p - px (b1 l)) + (px (b2 l) - px (b1 l)) * (py p - py (b1 l)) = 0 ->
  exists m, p = seg_point l m.
Proof.
  intros [[x1 y1] [x2 y2]] [x y] N H. unfold seg_point. cbn [b1 b2 px py] in *.
  set (dx := x2 - x1) in *. set (dy := y2 - y1) in *.
  assert (L : 0 < dx * dx + dy * dy).
  { destruct (Req_dec dx 0) as [E|E]; [| nra]. destruct (Req_dec dy 0) as [F|F]; [| nra].
    exfalso. apply N. f_equal; unfold dx, dy in *; lra. }
  exists (((x - x1) * dx + (y - y1) * dy) / (dx * dx + dy * dy)).
  set (k := ((x - x1) * dx + (y - y1) * dy) / (dx * dx + dy * dy)).
  assert (K : k * (dx * dx + dy * dy) = (x - x1) * dx + (y - y1) * dy) by (unfold k; field; lra).
  f_equal.
  - apply (Rmult_eq_reg_r (dx * dx + dy * dy)); [| lra].
    replace (((1 - k) * x1 + k * x2) * (dx * dx + dy * dy))
      with (x1 * (dx * dx + dy * dy) + k * (dx * dx + dy * dy) * dx) by (unfold dx, dy; ring).
    rewrite K. assert (Z : dx * (y - y1) * dy = dy * (x - x1) * dy) by (f_equal; lra). lra.
  - apply (Rmult_eq_reg_r (dx * dx + dy * dy)); [| lra].
    replace (((1 - k) * y1 + k * y2) * (dx * dx + dy * dy))
      with (y1 * (dx * dx + dy * dy) + k * (dx * dx + dy * dy) * dy) by (unfold dx, dy; ring).
    rewrite K. assert (Z : dx * (y - y1) * dx = dy * (x - x1) * dx) by (f_equal; lra). lra.
Qed.

Lemma seg_length_pos : forall l, b1 l <> b2 l -> 0 < seg_length l.
Proof.
  intros [[x1 y1] [x2 y2]] N. unfold seg_length, gap, dist2. cbn [b1 b2 px py] in *.
  apply sqrt_lt_R0.
  pose proof (Rle_0_sqr (x1 - x2)) as A. pose proof (Rle_0_sqr (y1 - y2)) as B. unfold Rsqr in *.
  destruct (Req_dec x1 x2) as [E|E].
  - destruct (Req_dec y1 y2) as [F|F]; [exfalso; apply N; congruence|].
    assert (0 < Rsqr (y1 - y2)) by (apply Rsqr_pos_lt; lra). unfold Rsqr in *. lra.
  - assert (0 < Rsqr (x1 - x2)) by (apply Rsqr_pos_lt; lra). unfold Rsqr in *. lra.
Qed.

Lemma gap_seg_point : forall l m, gap (b1 l) (seg_point l m) = Rabs m * seg_length l.
Proof.
  intros [[x1 y1] [x2 y2]] m. unfold gap, seg_length, gap, dist2, seg_point. cbn [b1 b2 px py].
  rewrite <- sqrt_Rsqr_abs, <- sqrt_mult; [| apply Rle_0_sqr | apply Rplus_le_le_0_compat; apply Rle_0_sqr].
  f_equal. unfold Rsqr. ring.
Qed.

Lemma gap_seg_point2 : forall l m, gap (b2 l) (seg_point l m) = Rabs (1 - m) * seg_length l.
Proof.
  intros [[x1 y1] [x2 y2]] m. unfold gap, seg_length, gap, dist2, seg_point. cbn [b1 b2 px py].
  rewrite <- sqrt_Rsqr_abs, <- sqrt_mult; [| apply Rle_0_sqr | apply Rplus_le_le_0_compat; apply Rle_0_sqr].
  f_equal. unfold Rsqr. ring.
Qed.

Lemma contained_iff : forall l m, b1 l <> b2 l ->
  let p := seg_point l m in
  (Rltb (dist_point_line l p) DISTANCE_TOLERANCE && Rleb (distance (b1 l) p) (line_length l)
   && Rleb (distance (b2 l) p) (line_length l)) = true <-> on_segment l p.
Proof.
  intros l m N p. pose proof (seg_length_pos l N) as L.
  rewrite !gap_dist, length_seg. unfold p. rewrite gap_seg_point, gap_seg_point2.
  rewrite !andb_true_iff, !Rleb_true. split.
  - intros [[_ H1] H2]. exists m. split; [| reflexivity].
    assert (Rabs m <= 1) by nra. assert (Rabs (1 - m) <= 1) by nra.
    unfold Rabs in *. destruct (Rcase_abs m), (Rcase_abs (1 - m)); lra.
  - intros H. split; [split|].
    + apply contains_near. exists (seg_point l m). split; [exact H|].
      unfold gap, dist2. rewrite !Rminus_diag_eq by reflexivity.
      rewrite !Rmult_0_l, Rplus_0_l, sqrt_0. apply DISTANCE_TOLERANCE_pos.
    + destruct H as (k & Hk & E).
      assert (A : gap (b1 l) (seg_point l m) = Rabs k * seg_length l) by (rewrite E; apply gap_seg_point).
      rewrite gap_seg_point in A. rewrite A. rewrite Rabs_right by lra. nra.
    + destruct H as (k & Hk & E).
      assert (A : gap (b2 l) (seg_point l m) = Rabs (1 - k) * seg_length l)
        by (rewrite E; apply gap_seg_point2).
      rewrite gap_seg_point2 in A. rewrite A. rewrite Rabs_right by lra. nra.
Qed.

Lemma meets_unique : forall q v l p p', cross v l <> 0 -> meets q v l p -> meets q v l p' -> p = p'.
Proof.
  intros [qx qy] [v0 v1] [[x1 y1] [x2 y2]] p p' D [(k & ->) (m & E)] [(k' & ->) (m' & E')].
  unfold cross, seg_point in *. cbn [fst snd b1 b2 px py] in *.
  injection E as E1 E2. injection E' as E1' E2'.
  assert ((k - k') * (v0 * (y2 - y1) - v1 * (x2 - x1)) = 0).
  { assert (A : (k - k') * v0 = (m - m') * (x2 - x1)) by lra.
    assert (B : (k - k') * v1 = (m - m') * (y2 - y1)) by lra.
    replace ((k - k') * (v0 * (y2 - y1) - v1 * (x2 - x1)))
      with ((k - k') * v0 * (y2 - y1) - (k - k') * v1 * (x2 - x1)) by ring.
    rewrite A, B. ring. }
  assert (k = k') by (apply Rmult_integral in H; destruct H; [lra | contradiction]).
  subst k'. reflexivity.
Qed.

(** What [projection] computes when the direction is not near-parallel. *)
Lemma projection_eq : forall q v l mc, b1 l <> b2 l -> TOL_COLLINEAR <= Rabs (cross v l) ->
  exists p m, meets q v l p /\ p = seg_point l m /\
    projection q v l mc
    = Ok (if negb mc then GPoint p
          else if Rltb (dist_point_line l p) DISTANCE_TOLERANCE
                  && Rleb (distance (b1 l) p) (line_length l)
                  && Rleb (distance (b2 l) p) (line_length l)
          then (if Rltb (distance (b1 l) p) DISTANCE_TOLERANCE then GPoint (b1 l)
                else if Rltb (distance (b2 l) p) DISTANCE_TOLERANCE then GPoint (b2 l)
                else GPoint p)
          else GEmpty).
Proof.
  intros q v l mc N C. unfold projection. rewrite (boundary_ok l N). cbn [bind].
  cbv zeta.
  assert (T : 0 < TOL_COLLINEAR) by (unfold TOL_COLLINEAR; lra).
  set (x1 := px (b1 l)). set (y1 := py (b1 l)). set (x2 := px (b2 l)). set (y2 := py (b2 l)).
  assert (NC : are_2d_vecs_collinear (- snd v, fst v) (- (y2 - y1), x2 - x1) = false).
  { unfold are_2d_vecs_collinear. apply Rltb_false. cbn [fst snd].
    replace (- fst v * - (y2 - y1) + - snd v * (x2 - x1)) with (cross v l)
      by (unfold cross, x1, x2, y1, y2; ring). exact C. }
  rewrite NC.
  assert (C0 : cross v l <> 0).
  { intros E. rewrite E, Rabs_R0 in C. lra. }
  destruct (inv2 (- snd v) (fst v) (- (y2 - y1)) (x2 - x1)
              (- (- snd v * px q + fst v * py q)) (- (- (y2 - y1) * x1 + (x2 - x1) * y1)))
    as (W & -> & H).
  { intros E. apply C0. unfold cross. fold x1 x2 y1 y2. lra. }
  cbv zeta in H. set (X := mat_vec 2 W _) in *. destruct H as [H1 H2].
  set (p := Pt (- X 0%nat) (- X 1%nat)).
  assert (Hl : exists m, p = seg_point l m).
  { apply on_line; [exact N|]. fold x1 x2 y1 y2. unfold p; cbn [px py]. nra. }
  destruct Hl as (m & Em).
  assert (Hv : exists k, p = Pt (px q + k * fst v) (py q + k * snd v)).
  { assert (Nv : px q <> px q + fst v \/ py q <> py q + snd v).
    { destruct (Req_dec (fst v) 0) as [E|E]; [| left; lra]. right. intros F.
      apply C0. unfold cross. rewrite E. assert (snd v = 0) by lra. rewrite H. ring. }
    destruct (on_line (Line q (Pt (px q + fst v) (py q + snd v))) p) as (k & Ek).
    - cbn [b1 b2]. intros E. destruct q as [qx qy]. cbn [px py] in *. injection E as E1 E2. lra.
    - cbn [b1 b2 px py]. unfold p; cbn [px py]. nra.
    - exists k. rewrite Ek. unfold seg_point. cbn [b1 b2 px py]. f_equal; ring. }
  exists p, m. split; [split; [exact Hv | exists m; exact Em]|]. split; [exact Em|].
  destruct mc; cbn [negb]; [| reflexivity].
  destruct (_ && _ && _); [| reflexivity].
  destruct (Rltb (distance (b1 l) p) DISTANCE_TOLERANCE); [reflexivity|].
  destruct (Rltb (distance (b2 l) p) DISTANCE_TOLERANCE); reflexivity.
Qed.
