(** Angles: arctan2, rotation sign convention (C10), 2D sun vector (C11). *)
From Coq Require Import Reals List Bool Arith ZArith Lra Lia Psatz.
From Verif Require Import Num ModelTs ModelGeom Basics.
Import ListNotations.
Open Scope R_scope.

Definition hyp (x y : R) : R := sqrt (x * x + y * y).

Lemma hyp_pos : forall x y, (x <> 0 \/ y <> 0) -> 0 < hyp x y.
Proof. intros. unfold hyp. apply sqrt_lt_R0. destruct H; nra. Qed.

Lemma hyp_scale : forall x y, 0 < x -> sqrt (1 + Rsqr (y / x)) = hyp x y / x.
Proof.
  intros. unfold hyp. assert (E : 1 + Rsqr (y / x) = (x * x + y * y) / Rsqr x).
  { unfold Rsqr. field. lra. }
  rewrite E. rewrite sqrt_div_alt by (unfold Rsqr; nra).
  rewrite sqrt_Rsqr by lra. reflexivity.
Qed.

Lemma hyp_scale_neg : forall x y, x < 0 -> sqrt (1 + Rsqr (y / x)) = hyp x y / - x.
Proof.
  intros. replace (y / x) with (- y / - x) by (field; lra).
  rewrite hyp_scale by lra. unfold hyp. f_equal. f_equal. ring.
Qed.

Lemma cos_atan2 : forall y x, (x <> 0 \/ y <> 0) -> cos (atan2 y x) = x / hyp x y.
Proof.
  intros y x H. pose proof (hyp_pos x y H) as HP. unfold atan2.
  destruct (Rlt_dec 0 x).
  - rewrite cos_atan, hyp_scale by lra. field. lra.
  - destruct (Rlt_dec x 0).
    + destruct (Rle_dec 0 y).
      * rewrite neg_cos, cos_atan, hyp_scale_neg by lra. field. lra.
      * rewrite cos_minus, cos_PI, sin_PI, cos_atan, hyp_scale_neg by lra. field. lra.
    + assert (x = 0) by lra. subst x. unfold Rdiv. rewrite Rmult_0_l.
      destruct (Rlt_dec 0 y); [apply cos_PI2 |].
      destruct (Rlt_dec y 0); [rewrite cos_neg; apply cos_PI2 |].
      exfalso. destruct H; lra.
Qed.

Lemma sin_atan2 : forall y x, (x <> 0 \/ y <> 0) -> sin (atan2 y x) = y / hyp x y.
Proof.
  intros y x H. pose proof (hyp_pos x y H) as HP. unfold atan2.
  destruct (Rlt_dec 0 x).
  - rewrite sin_atan, hyp_scale by lra. field. lra.
  - destruct (Rlt_dec x 0).
    + destruct (Rle_dec 0 y).
      * rewrite neg_sin, sin_atan, hyp_scale_neg by lra. field. lra.
      * rewrite sin_minus, cos_PI, sin_PI, sin_atan, hyp_scale_neg by lra. field. lra.
    + assert (x = 0) by lra. subst x.
      destruct (Rlt_dec 0 y).
      * rewrite sin_PI2. unfold hyp. replace (0 * 0 + y * y) with (Rsqr y) by (unfold Rsqr; ring).
        rewrite sqrt_Rsqr by lra. field. lra.
      * destruct (Rlt_dec y 0).
        -- rewrite sin_neg, sin_PI2. unfold hyp.
           replace (0 * 0 + y * y) with (Rsqr (- y)) by (unfold Rsqr; ring).
           rewrite sqrt_Rsqr by lra. field. lra.
        -- exfalso. destruct H; lra.
Qed.

Lemma atan2_range : forall y x, 0 < y -> 0 < atan2 y x < PI.
Proof.
  intros y x Hy. pose proof PI_RGT_0. unfold atan2.
  destruct (Rlt_dec 0 x).
  - pose proof (atan_bound (y / x)).
    assert (0 < atan (y / x)).
    { rewrite <- atan_0. apply atan_increasing. apply Rdiv_lt_0_compat; lra. }
    lra.
  - destruct (Rlt_dec x 0).
    + destruct (Rle_dec 0 y); [| lra].
      pose proof (atan_bound (y / x)).
      assert (atan (y / x) < 0).
      { rewrite <- atan_0. apply atan_increasing.
        replace (y / x) with (- (y / - x)) by (field; lra).
        assert (0 < y / - x) by (apply Rdiv_lt_0_compat; lra). lra. }
      lra.
    + destruct (Rlt_dec 0 y); lra.
Qed.

(** Angles in (0, PI) compare like the cross product of their directions. *)
Lemma angle_lt_cross : forall a b, 0 < a < PI -> 0 < b < PI ->
  (a < b <-> 0 < cos a * sin b - sin a * cos b).
Proof.
  intros a b Ha Hb.
  replace (cos a * sin b - sin a * cos b) with (sin (b - a)) by (rewrite sin_minus; ring).
  split; intros.
  - apply sin_gt_0; lra.
  - apply Rnot_le_lt. intro C.
    assert (sin (b - a) <= 0); [| lra].
    replace (b - a) with (- (a - b)) by ring. rewrite sin_neg.
    assert (0 <= sin (a - b)) by (apply sin_ge_0; lra). lra.
Qed.

Lemma atan2_lt_cross : forall y1 x1 y2 x2, 0 < y1 -> 0 < y2 ->
  (atan2 y1 x1 < atan2 y2 x2 <-> 0 < x1 * y2 - y1 * x2).
Proof.
  intros y1 x1 y2 x2 H1 H2.
  pose proof (atan2_range y1 x1 H1) as A1. pose proof (atan2_range y2 x2 H2) as A2.
  rewrite (angle_lt_cross _ _ A1 A2).
  rewrite !cos_atan2, !sin_atan2 by lra.
  assert (P1 : 0 < hyp x1 y1) by (apply hyp_pos; lra).
  assert (P2 : 0 < hyp x2 y2) by (apply hyp_pos; lra).
  replace (x1 / hyp x1 y1 * (y2 / hyp x2 y2) - y1 / hyp x1 y1 * (x2 / hyp x2 y2))
    with ((x1 * y2 - y1 * x2) / (hyp x1 y1 * hyp x2 y2)) by (field; lra).
  assert (P : 0 < hyp x1 y1 * hyp x2 y2) by nra.
  set (Q := hyp x1 y1 * hyp x2 y2) in *. set (N := x1 * y2 - y1 * x2).
  split; intros.
  - replace N with (N / Q * Q) by (field; lra). nra.
  - apply Rdiv_lt_0_compat; lra.
Qed.

(* ------------------------------------------------------------ python modulo *)

Lemma py_mod_range : forall x m, 0 < m -> 0 <= py_mod x m < m.
Proof.
  intros x m Hm. unfold py_mod.
  pose proof (base_Int_part (x / m)) as [B1 B2].
  assert (E : x = m * (x / m)) by (field; lra).
  set (q := x / m) in *. set (k := IZR (Int_part q)) in *. rewrite E. split; nra.
Qed.

Lemma py_mod_unique : forall x m r k, 0 < m -> 0 <= r < m -> x = m * IZR k + r -> py_mod x m = r.
Proof.
  intros x m r k Hm Hr Hx. unfold py_mod.
  assert (E : Int_part (x / m) = k).
  { assert (E : x / m = IZR k + r / m) by (rewrite Hx; field; lra).
    rewrite E.
    assert (0 <= r / m) by (apply Rmult_le_pos; [lra | apply Rlt_le, Rinv_0_lt_compat; lra]).
    assert (r / m < 1).
    { apply (Rmult_lt_reg_r m); [lra |]. unfold Rdiv. rewrite Rmult_assoc, Rinv_l; lra. }
    unfold Int_part. rewrite <- (tech_up (IZR k + r / m) (k + 1)%Z); [lia | |]; rewrite plus_IZR; lra. }
  rewrite E, Hx. ring.
Qed.

Lemma py_mod_decomp : forall x m, exists k, x = m * IZR k + py_mod x m.
Proof. intros. exists (Int_part (x / m)). unfold py_mod. ring. Qed.

Lemma py_mod_shift : forall x m k, 0 < m -> py_mod (x + m * IZR k) m = py_mod x m.
Proof.
  intros. destruct (py_mod_decomp x m) as [j E].
  apply (py_mod_unique _ _ _ (j + k)%Z); auto.
  - apply py_mod_range; auto.
  - rewrite plus_IZR. rewrite E at 1. ring.
Qed.

(* ------------------------------------------------------------ C10 *)

Lemma rotation_cases : forall sa aa tilt,
  (180 < py_mod (sa - aa) 360 -> get_rotation sa aa tilt = tilt) /\
  (py_mod (sa - aa) 360 <= 180 -> get_rotation sa aa tilt = - tilt).
Proof.
  intros. unfold get_rotation. cbv zeta. split; intros.
  - rewrite (proj2 (Rltb_true _ _) H). cbn [np_where].
    destruct (Reqb_spec tilt 0); cbn [np_where]; lra.
  - rewrite (proj2 (Rltb_false _ _) H). cbn [np_where].
    destruct (Reqb_spec tilt 0); cbn [np_where]; lra.
Qed.

Lemma rotation_turns : forall sa aa tilt j k,
  get_rotation (sa + 360 * IZR j) (aa + 360 * IZR k) tilt = get_rotation sa aa tilt.
Proof.
  intros. unfold get_rotation.
  replace (sa + 360 * IZR j - (aa + 360 * IZR k)) with (sa - aa + 360 * IZR (j - k)).
  - rewrite py_mod_shift by lra. reflexivity.
  - rewrite minus_IZR. ring.
Qed.

Lemma rotation_flip : forall sa aa tilt,
  py_mod (sa - aa) 360 <> 0 -> py_mod (sa - aa) 360 <> 180 ->
  get_rotation (sa + 180) aa tilt = - get_rotation sa aa tilt.
Proof.
  intros sa aa tilt H0 H1.
  pose proof (py_mod_range (sa - aa) 360) as R.
  destruct (py_mod_decomp (sa - aa) 360) as [k E].
  destruct (rotation_cases sa aa tilt) as [A1 A2].
  destruct (rotation_cases (sa + 180) aa tilt) as [B1 B2].
  destruct (Rlt_dec 180 (py_mod (sa - aa) 360)).
  - rewrite A1 by auto. apply B2.
    rewrite (py_mod_unique _ 360 (py_mod (sa - aa) 360 - 180) (k + 1)).
    + lra.
    + lra.
    + lra.
    + rewrite plus_IZR. lra.
  - rewrite A2 by lra. rewrite B1; [ring |].
    rewrite (py_mod_unique _ 360 (py_mod (sa - aa) 360 + 180) k); lra.
Qed.

Lemma rotation_abs : forall sa aa tilt, Rabs (get_rotation sa aa tilt) = Rabs tilt.
Proof.
  intros. destruct (rotation_cases sa aa tilt) as [A1 A2].
  destruct (Rlt_dec 180 (py_mod (sa - aa) 360)).
  - rewrite A1; auto.
  - rewrite A2 by lra. apply Rabs_Ropp.
Qed.

(* ------------------------------------------------------------ C11 *)

Lemma cos_turn : forall x k, cos (x + 2 * IZR k * PI) = cos x.
Proof.
  intros. destruct (Z_le_dec 0 k).
  - rewrite <- (cos_period x (Z.to_nat k)). f_equal.
    rewrite INR_IZR_INZ, Z2Nat.id by lia. ring.
  - rewrite <- (cos_period (x + 2 * IZR k * PI) (Z.to_nat (- k))). f_equal.
    rewrite INR_IZR_INZ, Z2Nat.id by lia. rewrite opp_IZR. ring.
Qed.

Lemma cosd_turn : forall x k, cosd (x + 360 * IZR k) = cosd x.
Proof.
  intros. unfold cosd. replace (deg2rad (x + 360 * IZR k)) with (deg2rad x + 2 * IZR k * PI).
  - apply cos_turn.
  - unfold deg2rad. field.
Qed.

Lemma cosd_bound : forall x, -1 <= cosd x <= 1.
Proof. intros; unfold cosd; apply COS_bound. Qed.
