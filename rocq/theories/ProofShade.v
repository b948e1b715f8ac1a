(** Inter-row shading: closed forms and geometric meaning (C04, C05, C07). *)
From Coq Require Import Reals List Bool Arith Lra Lia Psatz.
From Verif Require Import Num ModelTs ModelGeom Basics SpecGeom.
Import ListNotations.
Open Scope R_scope.

Definition rr (rotation : R) : R := deg2rad rotation.

(** Closed form of the intermediate length [delta]. *)
Lemma interrow_delta_eq : forall d al r, sin (al - rr r) <> 0 ->
  interrow_delta d al r = d * sin al / sin (al - rr r).
Proof.
  intros d al r H. unfold interrow_delta.
  rewrite deg2rad_plus, !deg2rad_minus, deg2rad_rad2deg, deg2rad_90.
  fold (rr r).
  replace (PI / 2 - rr r + al) with (PI / 2 + (al - rr r)) by ring.
  unfold tan.
  rewrite <- cos_sin.
  replace (cos (PI / 2 + (al - rr r))) with (- sin (al - rr r)).
  2:{ rewrite (sin_cos (al - rr r)). ring. }
  rewrite sin_shift, cos_shift.
  assert (E : sin al = sin (al - rr r) * cos (rr r) + cos (al - rr r) * sin (rr r)).
  { rewrite <- sin_plus. f_equal. ring. }
  rewrite E. field. exact H.
Qed.

(** Shaded lengths in terms of [delta]. *)
Lemma interrow_shading_cases : forall n d w al r,
  (1 < n)%nat -> 0 < d -> 0 < w -> 0 < sin al -> sin (al - rr r) <> 0 ->
  let k := d * sin al / Rabs (sin (al - rr r)) in
  0 < k /\
  (0 < sin (al - rr r) -> interrow_shading n d w al r = (Rmax 0 (w - k), 0)) /\
  (sin (al - rr r) < 0 -> interrow_shading n d w al r = (0, Rmax 0 (w - k))).
Proof.
  intros n d w al r Hn Hd Hw Ha Hs k.
  assert (Hk : 0 < k).
  { unfold k. apply Rdiv_lt_0_compat; [nra | apply Rabs_pos_lt; auto]. }
  split; [exact Hk |].
  unfold interrow_shading. cbv zeta. apply Nat.ltb_lt in Hn. rewrite Hn.
  rewrite interrow_delta_eq by auto.
  split; intros H.
  - assert (E : d * sin al / sin (al - rr r) = k).
    { unfold k. rewrite Rabs_right by lra. reflexivity. }
    rewrite E. rewrite (np_max_Rmax 0 (w - k)), (np_max_Rmax 0 (w + k)). f_equal.
    + destruct (Rltb_spec w (Rmax 0 (w - k))); simpl; [| reflexivity].
      unfold Rmax in *. destruct (Rle_dec 0 (w - k)); lra.
    + rewrite (Rmax_right 0 (w + k)) by lra.
      destruct (Rltb_spec w (w + k)); simpl; [reflexivity | lra].
  - assert (E : d * sin al / sin (al - rr r) = - k).
    { unfold k. rewrite Rabs_left by lra. field. lra. }
    rewrite E.
    replace (w - - k) with (w + k) by ring. replace (w + - k) with (w - k) by ring.
    rewrite (np_max_Rmax 0 (w - k)), (np_max_Rmax 0 (w + k)). f_equal.
    + rewrite (Rmax_right 0 (w + k)) by lra.
      destruct (Rltb_spec w (w + k)); simpl; [reflexivity | lra].
    + destruct (Rltb_spec w (Rmax 0 (w - k))); simpl; [| reflexivity].
      unfold Rmax in *. destruct (Rle_dec 0 (w - k)); lra.
Qed.

Lemma interrow_shading_single : forall d w al r, interrow_shading 1 d w al r = (0, 0).
Proof. intros; reflexivity. Qed.

Lemma interrow_shading_bounds : forall n d w al r, 0 < w ->
  0 <= fst (interrow_shading n d w al r) <= w /\ 0 <= snd (interrow_shading n d w al r) <= w.
Proof.
  intros. unfold interrow_shading. destruct (Nat.ltb 1 n); simpl; [| lra].
  rewrite (np_max_Rmax 0 (w - interrow_delta d al r)), (np_max_Rmax 0 (w + interrow_delta d al r)).
  split; unfold np_where.
  - destruct (Rltb_spec w (Rmax 0 (w - interrow_delta d al r))); [lra |].
    split; [apply Rmax_l | lra].
  - destruct (Rltb_spec w (Rmax 0 (w + interrow_delta d al r))); [lra |].
    split; [apply Rmax_l | lra].
Qed.

(** Signed distance along row [i] of the points that are hidden by a point of the
    row which is [m] rows away (m counted positively to the right). *)
Lemma ray_between_rows : forall d al r s s' k m xc yc,
  0 < sin al -> sin (al - rr r) <> 0 ->
  xc + m * d + s' * cos (rr r) = xc + s * cos (rr r) + k * cos al ->
  yc + s' * sin (rr r) = yc + s * sin (rr r) + k * sin al ->
  s' - s = - m * (d * sin al / sin (al - rr r)) /\
  k * sin (al - rr r) = - m * d * sin (rr r).
Proof.
  intros d al r s s' k m xc yc Ha Hs H1 H2.
  set (c := cos (rr r)) in *. set (q := sin (rr r)) in *.
  assert (E : sin (al - rr r) = sin al * c - cos al * q).
  { rewrite sin_minus. unfold c, q. ring. }
  assert (A1 : m * d + (s' - s) * c = k * cos al) by lra.
  assert (A2 : (s' - s) * q = k * sin al) by lra.
  assert (B : (s' - s) * sin (al - rr r) = - m * d * sin al).
  { rewrite E.
    assert (C1 : (m * d + (s' - s) * c) * sin al = k * cos al * sin al) by (rewrite A1; ring).
    assert (C2 : ((s' - s) * q) * cos al = k * sin al * cos al) by (rewrite A2; ring).
    lra. }
  split.
  - apply (Rmult_eq_reg_r (sin (al - rr r))); [| auto].
    rewrite B. field. auto.
  - rewrite E.
    assert (k * sin al * c - k * cos al * q = - m * d * q); [| lra].
    rewrite <- A2, <- A1. ring.
Qed.

Lemma ray_between_rows_conv : forall d al r s m xc yc,
  0 < sin al -> sin (al - rr r) <> 0 ->
  let s' := s - m * (d * sin al / sin (al - rr r)) in
  let k := - m * d * sin (rr r) / sin (al - rr r) in
  xc + m * d + s' * cos (rr r) = xc + s * cos (rr r) + k * cos al /\
  yc + s' * sin (rr r) = yc + s * sin (rr r) + k * sin al.
Proof.
  intros d al r s m xc yc Ha Hs s' k.
  unfold s', k.
  assert (E : sin (al - rr r) = sin al * cos (rr r) - cos al * sin (rr r)) by apply sin_minus.
  split.
  - replace (xc + m * d + (s - m * (d * sin al / sin (al - rr r))) * cos (rr r))
      with (xc + s * cos (rr r) + m * d * (sin (al - rr r) - sin al * cos (rr r)) / sin (al - rr r))
      by (field; auto).
    rewrite E at 1. field. auto.
  - field. auto.
Qed.

(** The point at signed distance [s] from the centre of row [i] is hidden from the
    sun by another row of the array ([n] rows, spacing [d], width [w]). *)
Definition hidden_by_another_row (n : nat) (d w yc r al : R) (i : nat) (s : R) : Prop :=
  exists j s', (j < n)%nat /\ j <> i /\ - (w / 2) <= s' <= w / 2 /\
    towards_sun al (row_point (INR i * d) yc r s) (row_point (INR j * d) yc r s').

(** Distance from the low end of the row. *)
Definition from_low_end (w r e : R) : R := if Rlt_dec 0 r then - (w / 2) + e else w / 2 - e.

Lemma sgn1 : forall a d q S, 0 < d -> 0 < q * S -> (0 < - a * d * q * S <-> a < 0).
Proof.
  intros a d q S Hd HP. replace (- a * d * q * S) with (- a * (d * (q * S))) by ring.
  assert (0 < d * (q * S)) by (apply Rmult_lt_0_compat; auto).
  set (P := d * (q * S)) in *. split; intros; nra.
Qed.

Lemma sgn2 : forall a d q S, 0 < d -> q * S < 0 -> (0 < - a * d * q * S <-> 0 < a).
Proof.
  intros a d q S Hd HP. replace (- a * d * q * S) with (a * (d * (- (q * S)))) by ring.
  assert (0 < d * (- (q * S))) by (apply Rmult_lt_0_compat; lra).
  set (P := d * - (q * S)) in *. split; intros; nra.
Qed.

Lemma INR_diff_ge1 : forall i j, (i < j)%nat -> 1 <= INR j - INR i.
Proof. intros. rewrite <- minus_INR by lia. replace 1 with (INR 1) by reflexivity. apply le_INR. lia. Qed.

Lemma hidden_iff : forall n d w yc r al i e,
  (i < n)%nat -> 0 < d -> 0 < w -> -180 < r < 180 -> r <> 0 ->
  0 < sin al -> sin (al - rr r) <> 0 -> 0 < e < w ->
  let sl := row_shaded_lengths n i r (interrow_shading n d w al r) in
  (hidden_by_another_row n d w yc r al i (from_low_end w r e) <-> e <= fst sl \/ e <= snd sl).
Proof.
  intros n d w yc r al i e Hi Hd Hw Hr Hr0 Ha Hs He sl.
  assert (Hq : 0 < r -> 0 < sin (rr r)).
  { intros. unfold rr. apply (sind_pos r). lra. }
  assert (Hq' : r < 0 -> sin (rr r) < 0).
  { intros. unfold rr. apply (sind_neg r). lra. }
  set (D := d * sin al / sin (al - rr r)) in *.
  (* reformulation of "hidden" *)
  assert (HID : hidden_by_another_row n d w yc r al i (from_low_end w r e) <->
     exists j, (j < n)%nat /\ j <> i /\
       - (w / 2) <= from_low_end w r e - (INR j - INR i) * D <= w / 2 /\
       0 < - (INR j - INR i) * d * sin (rr r) / sin (al - rr r)).
  { unfold hidden_by_another_row, towards_sun, row_point.
    fold (rr r). change (r * PI / 180) with (rr r).
    split.
    - intros [j [s' [Hj [Hne [Hs' [k [Hk [E1 E2]]]]]]]].
      simpl in E1, E2.
      destruct (ray_between_rows d al r (from_low_end w r e) s' k (INR j - INR i) (INR i * d) yc)
        as [F1 F2]; auto.
      + rewrite <- E1. ring.
      + exists j. split; [auto |]. split; [auto |]. fold D in F1.
        split; [lra |].
        replace (- (INR j - INR i) * d * sin (rr r) / sin (al - rr r)) with k; [auto |].
        rewrite <- F2. field. auto.
    - intros [j [Hj [Hne [Hs' Hk]]]].
      exists j, (from_low_end w r e - (INR j - INR i) * D).
      split; [auto |]. split; [auto |]. split; [auto |].
      exists (- (INR j - INR i) * d * sin (rr r) / sin (al - rr r)).
      split; [auto |]. simpl.
      destruct (ray_between_rows_conv d al r (from_low_end w r e) (INR j - INR i) (INR i * d) yc)
        as [F1 F2]; auto.
      fold D in F1, F2. split; [rewrite <- F1; ring | auto]. }
  rewrite HID. clear HID.
  assert (SG : forall x, (0 < x / sin (al - rr r) <-> 0 < x * sin (al - rr r))).
  { intros x. split; intros.
    - replace (x * sin (al - rr r)) with (x / sin (al - rr r) * (sin (al - rr r) * sin (al - rr r)))
        by (field; auto).
      apply Rmult_lt_0_compat; nra.
    - replace (x / sin (al - rr r)) with (x * sin (al - rr r) / (sin (al - rr r) * sin (al - rr r)))
        by (field; auto).
      apply Rdiv_lt_0_compat; nra. }
  destruct (Nat.eq_dec n 1) as [N1 | N1].
  { (* a single row *)
    subst n. assert (i = 0%nat) by lia. subst i. unfold sl.
    rewrite interrow_shading_single. simpl. unfold np_where.
    split; intros H.
    - destruct H as [j [Hj [Hne _]]]. lia.
    - destruct (Rltb 0 r); simpl in H; lra. }
  assert (Hn : (1 < n)%nat) by lia.
  destruct (interrow_shading_cases n d w al r Hn Hd Hw Ha Hs) as [Hk [HF HB]].
  set (k := d * sin al / Rabs (sin (al - rr r))) in *.
  assert (M0 : forall x, e <= Rmax 0 x <-> e <= x).
  { intros x. unfold Rmax. destruct (Rle_dec 0 x); split; lra. }
  destruct (Rlt_dec 0 r) as [Rp | Rn].
  - (* tilted to the left: the low end is on the left *)
    assert (Hsin := Hq Rp).
    unfold from_low_end. destruct (Rlt_dec 0 r) as [_ | C]; [| contradiction].
    assert (Tl : Rltb 0 r = true) by (apply Rltb_true; auto).
    destruct (Rlt_dec 0 (sin (al - rr r))) as [P | NP].
    + (* sun in front: hidden by rows on the left *)
      assert (ED : D = k) by (unfold D, k; rewrite Rabs_right by lra; reflexivity).
      unfold sl. rewrite (HF P). unfold row_shaded_lengths. rewrite Tl. simpl.
      split.
      * intros [j [Hj [Hne [Hb Hc]]]].
        apply SG in Hc. apply sgn1 in Hc; [| auto | nra].
        assert (H : INR j < INR i) by lra.
        apply INR_lt in H. pose proof (INR_diff_ge1 _ _ H).
        destruct (Nat.eqb_spec i 0); [lia |].
        destruct (Nat.eqb_spec i (n - 1)); simpl; left; apply M0; nra.
      * intros Hsl.
        assert (Hi0 : i <> 0%nat).
        { intro. subst i. simpl in Hsl. lra. }
        destruct (Nat.eqb_spec i 0); [lia |].
        assert (e <= w - k).
        { destruct (Nat.eqb_spec i (n - 1)); simpl in Hsl; destruct Hsl as [Hsl | Hsl];
            try (apply (proj1 (M0 _)) in Hsl; lra); lra. }
        exists (i - 1)%nat. split; [lia |]. split; [lia |].
        rewrite minus_INR by lia. simpl INR.
        split; [lra |].
        apply SG. apply sgn1; [auto | nra | lra].
    + (* sun behind: hidden by rows on the right *)
      assert (NS : sin (al - rr r) < 0) by lra.
      assert (ED : D = - k) by (unfold D, k; rewrite Rabs_left by lra; field; lra).
      unfold sl. rewrite (HB NS). unfold row_shaded_lengths. rewrite Tl. simpl.
      split.
      * intros [j [Hj [Hne [Hb Hc]]]].
        apply SG in Hc. apply sgn2 in Hc; [| auto | nra].
        assert (H : INR i < INR j) by lra.
        apply INR_lt in H. pose proof (INR_diff_ge1 _ _ H).
        destruct (Nat.eqb_spec i 0); simpl.
        -- right. apply M0. nra.
        -- destruct (Nat.eqb_spec i (n - 1)); [lia |]. simpl. right. apply M0. nra.
      * intros Hsl.
        assert (Hi0 : i <> (n - 1)%nat).
        { intro. subst i. destruct (Nat.eqb_spec (n - 1) 0); [lia |].
          rewrite Nat.eqb_refl in Hsl. simpl in Hsl. lra. }
        assert (e <= w - k).
        { destruct (Nat.eqb_spec i 0); simpl in Hsl;
            [| destruct (Nat.eqb_spec i (n - 1)); [lia | simpl in Hsl]];
            destruct Hsl as [Hsl | Hsl]; try (apply (proj1 (M0 _)) in Hsl; lra); lra. }
        exists (i + 1)%nat. split; [lia |]. split; [lia |].
        rewrite plus_INR. simpl INR.
        split; [lra |].
        apply SG. apply sgn2; [auto | nra | lra].
  - (* tilted to the right: the low end is on the right *)
    assert (Rn' : r < 0) by lra. assert (Hsin := Hq' Rn').
    unfold from_low_end. destruct (Rlt_dec 0 r) as [C | _]; [contradiction |].
    assert (Tl : Rltb 0 r = false) by (apply Rltb_false; lra).
    destruct (Rlt_dec 0 (sin (al - rr r))) as [P | NP].
    + assert (ED : D = k) by (unfold D, k; rewrite Rabs_right by lra; reflexivity).
      unfold sl. rewrite (HF P). unfold row_shaded_lengths. rewrite Tl. simpl.
      split.
      * intros [j [Hj [Hne [Hb Hc]]]].
        apply SG in Hc. apply sgn2 in Hc; [| auto | nra].
        assert (H : INR i < INR j) by lra.
        apply INR_lt in H. pose proof (INR_diff_ge1 _ _ H).
        destruct (Nat.eqb_spec i 0); simpl.
        -- left. apply M0. nra.
        -- destruct (Nat.eqb_spec i (n - 1)); [lia |]. simpl. left. apply M0. nra.
      * intros Hsl.
        assert (Hi0 : i <> (n - 1)%nat).
        { intro. subst i. destruct (Nat.eqb_spec (n - 1) 0); [lia |].
          rewrite Nat.eqb_refl in Hsl. simpl in Hsl. lra. }
        assert (e <= w - k).
        { destruct (Nat.eqb_spec i 0); simpl in Hsl;
            [| destruct (Nat.eqb_spec i (n - 1)); [lia | simpl in Hsl]];
            destruct Hsl as [Hsl | Hsl]; try (apply (proj1 (M0 _)) in Hsl; lra); lra. }
        exists (i + 1)%nat. split; [lia |]. split; [lia |].
        rewrite plus_INR. simpl INR.
        split; [lra |].
        apply SG. apply sgn2; [auto | nra | lra].
    + assert (NS : sin (al - rr r) < 0) by lra.
      assert (ED : D = - k) by (unfold D, k; rewrite Rabs_left by lra; field; lra).
      unfold sl. rewrite (HB NS). unfold row_shaded_lengths. rewrite Tl. simpl.
      split.
      * intros [j [Hj [Hne [Hb Hc]]]].
        apply SG in Hc. apply sgn1 in Hc; [| auto | nra].
        assert (H : INR j < INR i) by lra.
        apply INR_lt in H. pose proof (INR_diff_ge1 _ _ H).
        destruct (Nat.eqb_spec i 0); [lia |].
        destruct (Nat.eqb_spec i (n - 1)); simpl; right; apply M0; nra.
      * intros Hsl.
        assert (Hi0 : i <> 0%nat).
        { intro. subst i. simpl in Hsl. lra. }
        destruct (Nat.eqb_spec i 0); [lia |].
        assert (e <= w - k).
        { destruct (Nat.eqb_spec i (n - 1)); simpl in Hsl; destruct Hsl as [Hsl | Hsl];
            try (apply (proj1 (M0 _)) in Hsl; lra); lra. }
        exists (i - 1)%nat. split; [lia |]. split; [lia |].
        rewrite minus_INR by lia. simpl INR.
        split; [lra |].
        apply SG. apply sgn1; [auto | nra | lra].
Qed.
