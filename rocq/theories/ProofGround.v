(** Ground elements: tiling (C01), cutting (C02), left/right lookup (C03). *)
From Coq Require Import Reals List Bool Arith Lra Lia.
From Verif Require Import Num ModelTs ModelGeom Basics SpecGeom.
Import ListNotations.
Open Scope R_scope.

(* ------------------------------------------------------- clipping *)

Definition ck (c : xr) : R := xclip c MIN_X_GROUND MAX_X_GROUND.

Ltac gb := unfold MIN_X_GROUND, MAX_X_GROUND in *.

Lemma ck_bounds : forall c, MIN_X_GROUND <= ck c <= MAX_X_GROUND.
Proof. intros; unfold ck; destruct c; simpl; gb; minmax; lra. Qed.

Lemma min_cut_clip : forall x c, c <> XNaN -> MIN_X_GROUND <= x <= MAX_X_GROUND ->
  min_cut_max_lo x c MIN_X_GROUND = Rmin x (ck c).
Proof.
  intros x c Hc Hx; unfold ck; destruct c; simpl; gb; try congruence;
    minmax; try lra.
Qed.

Lemma max_cut_clip : forall x c, c <> XNaN -> MIN_X_GROUND <= x <= MAX_X_GROUND ->
  max_cut_min_hi x c MAX_X_GROUND = Rmax x (ck c).
Proof.
  intros x c Hc Hx; unfold ck; destruct c; simpl; gb; try congruence;
    minmax; try lra.
Qed.

Lemma xclip_mono : forall a b, xle a b -> ck a <= ck b.
Proof.
  intros a b H; unfold ck; destruct a, b; simpl in *; try contradiction; gb; minmax; lra.
Qed.

(** Element inside the ground, at one timestep. *)
Definition in_ground (l : line) : Prop :=
  MIN_X_GROUND <= px (b1 l) /\ px (b1 l) <= px (b2 l) /\ px (b2 l) <= MAX_X_GROUND.

Lemma left_extent : forall l c, c <> XNaN -> in_ground l ->
  x_extent (coords_left_of_cut_point l c) = (Rmin (px (b1 l)) (ck c), Rmin (px (b2 l)) (ck c)).
Proof.
  intros l c Hc [H1 [H2 H3]]. unfold x_extent, coords_left_of_cut_point. simpl.
  rewrite !min_cut_clip by (auto; lra). reflexivity.
Qed.

Lemma right_extent : forall l c, c <> XNaN -> in_ground l ->
  x_extent (coords_right_of_cut_point l c) = (Rmax (px (b1 l)) (ck c), Rmax (px (b2 l)) (ck c)).
Proof.
  intros l c Hc [H1 [H2 H3]]. unfold x_extent, coords_right_of_cut_point. simpl.
  rewrite !max_cut_clip by (auto; lra). reflexivity.
Qed.

Lemma right_x : forall l c, c <> XNaN -> in_ground l ->
  px (b1 (coords_right_of_cut_point l c)) = Rmax (px (b1 l)) (ck c) /\
  px (b2 (coords_right_of_cut_point l c)) = Rmax (px (b2 l)) (ck c).
Proof.
  intros l c Hc H. pose proof (right_extent l c Hc H) as E. unfold x_extent in E.
  split; [apply (f_equal fst) in E | apply (f_equal snd) in E]; exact E.
Qed.

Lemma left_x : forall l c, c <> XNaN -> in_ground l ->
  px (b1 (coords_left_of_cut_point l c)) = Rmin (px (b1 l)) (ck c) /\
  px (b2 (coords_left_of_cut_point l c)) = Rmin (px (b2 l)) (ck c).
Proof.
  intros l c Hc H. pose proof (left_extent l c Hc H) as E. unfold x_extent in E.
  split; [apply (f_equal fst) in E | apply (f_equal snd) in E]; exact E.
Qed.

Lemma right_in_ground : forall l c, c <> XNaN -> in_ground l ->
  in_ground (coords_right_of_cut_point l c).
Proof.
  intros l c Hc H. destruct (right_x l c Hc H) as [E1 E2]. pose proof (ck_bounds c).
  destruct H as [H1 [H2 H3]]. unfold in_ground. rewrite E1, E2. minmax; lra.
Qed.

Lemma left_in_ground : forall l c, c <> XNaN -> in_ground l ->
  in_ground (coords_left_of_cut_point l c).
Proof.
  intros l c Hc H. destruct (left_x l c Hc H) as [E1 E2]. pose proof (ck_bounds c).
  destruct H as [H1 [H2 H3]]. unfold in_ground. rewrite E1, E2. minmax; lra.
Qed.

Lemma end_to_end_empty : forall L m, end_to_end m m L -> forall x, end_to_end x x L.
Proof.
  intros L. induction L; intros m H x.
  - apply end_to_end_nil.
  - inversion H; subst.
    + apply end_to_end_point. eapply IHL; eauto.
    + exfalso. assert (G : forall l a b, end_to_end a b l -> a <= b).
      { clear. intros l a b H. induction H; lra. }
      apply G in H5. lra.
Qed.

(* ------------------------------------------------------- C02 *)

Lemma create_coords_length : forall cuts c, length (create_coords c cuts) = S (length cuts).
Proof. induction cuts; simpl; intros; auto. Qed.

Definition not_nan (t : nat) (cuts : list (ts xr)) : Prop :=
  forall c, In c cuts -> c t <> XNaN.

Lemma create_coords_end_to_end : forall cuts c t,
  not_nan t cuts -> in_ground (c t) ->
  end_to_end (px (b1 (c t))) (px (b2 (c t)))
    (map (fun l => x_extent (l t)) (create_coords c cuts)).
Proof.
  induction cuts as [| k cuts IH]; intros c t Hn Hg.
  - simpl. unfold x_extent. destruct Hg as [H1 [H2 H3]].
    destruct (Req_dec (px (b1 (c t))) (px (b2 (c t)))) as [E | E].
    + rewrite E. apply end_to_end_point. apply end_to_end_nil.
    + apply end_to_end_cons; [lra | apply end_to_end_nil].
  - simpl.
    assert (Hk : k t <> XNaN) by (apply Hn; left; auto).
    rewrite left_extent by auto.
    destruct (right_x (c t) (k t) Hk Hg) as [E1 E2].
    assert (R := right_in_ground (c t) (k t) Hk Hg).
    assert (N : not_nan t cuts) by (intros q Hq; apply Hn; right; auto).
    assert (IH' := IH (fun t => coords_right_of_cut_point (c t) (k t)) t N R).
    cbv beta in IH'. rewrite E1, E2 in IH'. clear E1 E2 R.
    destruct Hg as [H1 [H2 H3]].
    set (x1 := px (b1 (c t))) in *. set (x2 := px (b2 (c t))) in *. set (m := ck (k t)) in *.
    destruct (Rle_dec m x1) as [L1 | L1].
    + (* cut on the left of the element *)
      rewrite (Rmin_right x1 m) by lra. rewrite (Rmin_right x2 m) by lra.
      rewrite (Rmax_left x1 m) in IH' by lra. rewrite (Rmax_left x2 m) in IH' by lra.
      apply end_to_end_point. exact IH'.
    + destruct (Rle_dec x2 m) as [L2 | L2].
      * rewrite (Rmin_left x1 m) by lra. rewrite (Rmin_left x2 m) by lra.
        rewrite (Rmax_right x1 m) in IH' by lra. rewrite (Rmax_right x2 m) in IH' by lra.
        destruct (Req_dec x1 x2) as [E | E].
        -- rewrite E. apply end_to_end_point. eapply end_to_end_empty. exact IH'.
        -- apply end_to_end_cons; [lra |]. eapply end_to_end_empty. exact IH'.
      * rewrite (Rmin_left x1 m) by lra. rewrite (Rmin_right x2 m) by lra.
        rewrite (Rmax_right x1 m) in IH' by lra. rewrite (Rmax_left x2 m) in IH' by lra.
        apply end_to_end_cons; [lra | exact IH'].
Qed.

Lemma create_coords_in_ground : forall cuts c t,
  not_nan t cuts -> in_ground (c t) ->
  forall l, In l (create_coords c cuts) -> in_ground (l t).
Proof.
  induction cuts as [| k cuts IH]; intros c t Hn Hg l Hl; simpl in Hl.
  - destruct Hl as [Hl | []]. subst. exact Hg.
  - assert (Hk : k t <> XNaN) by (apply Hn; left; auto).
    destruct Hl as [Hl | Hl].
    + subst. apply left_in_ground; auto.
    + eapply (IH (fun t => coords_right_of_cut_point (c t) (k t)) t).
      * intros q Hq; apply Hn; right; auto.
      * apply right_in_ground; auto.
      * exact Hl.
Qed.

Lemma create_coords_y : forall cuts c t y,
  py (b1 (c t)) = y -> py (b2 (c t)) = y ->
  forall l, In l (create_coords c cuts) -> py (b1 (l t)) = y /\ py (b2 (l t)) = y.
Proof.
  induction cuts as [| k cuts IH]; intros c t y H1 H2 l Hl; simpl in Hl.
  - destruct Hl as [Hl | []]. subst. auto.
  - destruct Hl as [Hl | Hl].
    + subst. simpl. auto.
    + eapply (IH (fun t => coords_right_of_cut_point (c t) (k t)) t y); eauto.
Qed.

Lemma end_to_end_le : forall lo hi l, end_to_end lo hi l -> lo <= hi.
Proof. intros lo hi l H; induction H; lra. Qed.

Lemma end_to_end_total : forall lo hi l, end_to_end lo hi l -> total_length l = hi - lo.
Proof.
  intros lo hi l H; induction H; unfold total_length in *; simpl; try lra.
Qed.

Lemma end_to_end_inside : forall lo hi l, end_to_end lo hi l ->
  forall a b, In (a, b) l -> a <> b -> lo <= a /\ a < b /\ b <= hi.
Proof.
  intros lo hi l H; induction H; intros x y Hin Hne; simpl in Hin.
  - contradiction.
  - destruct Hin as [E | Hin]; [inversion E; subst; congruence | apply IHend_to_end; auto].
  - destruct Hin as [E | Hin].
    + inversion E; subst. apply end_to_end_le in H0. lra.
    + destruct (IHend_to_end x y Hin Hne) as [A [B C]]. lra.
Qed.

Lemma end_to_end_cover : forall lo hi l, end_to_end lo hi l -> lo < hi ->
  forall x, lo <= x <= hi -> exists a b, In (a, b) l /\ a < b /\ a <= x <= b.
Proof.
  intros lo hi l H; induction H; intros Hlt x Hx.
  - lra.
  - destruct (IHend_to_end Hlt x Hx) as [p [q [I J]]]. exists p, q. simpl. auto.
  - destruct (Rle_dec x m).
    + exists lo, m. simpl. split; auto. lra.
    + pose proof (end_to_end_le _ _ _ H0).
      destruct IHend_to_end with (x := x) as [p [q [I J]]]; [lra | lra |].
      exists p, q. simpl. auto.
Qed.

(* ------------------------------------------------------- C01 *)

Lemma contiguous_le : forall lo hi l, contiguous lo hi l -> lo <= hi.
Proof. intros lo hi l H; induction H; lra. Qed.

Lemma contiguous_total : forall lo hi l, contiguous lo hi l -> total_length l = hi - lo.
Proof. intros lo hi l H; induction H; unfold total_length in *; simpl; lra. Qed.

Lemma contiguous_inside : forall lo hi l, contiguous lo hi l ->
  forall a b, In (a, b) l -> lo <= a /\ a <= b /\ b <= hi.
Proof.
  intros lo hi l H; induction H; intros x y Hin; simpl in Hin.
  - contradiction.
  - destruct Hin as [E | Hin].
    + inversion E; subst. apply contiguous_le in H0. lra.
    + destruct (IHcontiguous x y Hin) as [A [B C]]. lra.
Qed.

(** Clipped shadows in left to right order, at one timestep. *)
Inductive ordered_from (t : nat) : R -> list (ts line) -> Prop :=
| ordered_nil : forall x, x <= MAX_X_GROUND -> ordered_from t x []
| ordered_cons : forall x (s : ts line) l,
    x <= px (b1 (s t)) -> px (b1 (s t)) <= px (b2 (s t)) ->
    ordered_from t (px (b2 (s t))) l -> ordered_from t x (s :: l).

Lemma illum_tiles : forall y t shadows next,
  ordered_from t (next t) shadows ->
  contiguous (next t) MAX_X_GROUND
    (interleave (map (fun l => x_extent (l t)) (illum_coords y next shadows))
                (map (fun l => x_extent (l t)) shadows)).
Proof.
  intros y t shadows. induction shadows as [| s rest IH]; intros next H.
  - simpl. inversion H; subst. apply contiguous_cons; [assumption | apply contiguous_nil].
  - inversion H; subst. simpl. unfold x_extent at 1. simpl.
    apply contiguous_cons; [assumption |].
    unfold x_extent at 1. apply contiguous_cons; [assumption |].
    apply (IH (fun t => px (b2 (s t)))). assumption.
Qed.

Lemma illum_coords_y : forall y t shadows next l,
  In l (illum_coords y next shadows) -> py (b1 (l t)) = y /\ py (b2 (l t)) = y.
Proof.
  intros y t shadows. induction shadows as [| s rest IH]; intros next l H; simpl in H.
  - destruct H as [H | []]. subst. simpl. auto.
  - destruct H as [H | H].
    + subst. simpl. auto.
    + eapply IH; eauto.
Qed.

Lemma interleave_in : forall (A : Type) (l1 l2 : list A) x,
  In x (interleave l1 l2) <-> In x l1 \/ In x l2.
Proof.
  induction l1; intros l2 x; simpl; [tauto |].
  destruct l2; simpl; [tauto |]. rewrite IHl1. tauto.
Qed.

Lemma interleave_total : forall l1 l2,
  total_length (interleave l1 l2) = total_length l1 + total_length l2.
Proof.
  unfold total_length. induction l1; intros l2; simpl; [lra |].
  destruct l2; simpl; [lra |]. rewrite IHl1. lra.
Qed.

Lemma el_coords_make : forall mkid sh c cuts, el_coords (make_element mkid sh c cuts) = c.
Proof. intros; unfold make_element; destruct cuts; reflexivity. Qed.

Lemma map_snd_enum : forall (A B : Type) (f : A -> B) (l : list A) s,
  map (fun es => f (snd es)) (combine (seq s (length l)) l) = map f l.
Proof. induction l; intros; simpl; auto. f_equal. auto. Qed.

Lemma map_el_coords_shadows : forall y shadows cuts,
  map el_coords (shadow_elements y shadows cuts) =
  map (fun s t => clip_shadow y (s t)) shadows.
Proof.
  intros. unfold shadow_elements. rewrite map_map.
  erewrite map_ext; [| intros; apply el_coords_make].
  apply (map_snd_enum _ _ (fun (s : ts (xr * xr)) (t : nat) => clip_shadow y (s t))).
Qed.

Lemma line_length_flat : forall l y, py (b1 l) = y -> py (b2 l) = y ->
  px (b1 l) <= px (b2 l) -> line_length l = snd (x_extent l) - fst (x_extent l).
Proof.
  intros l y H1 H2 H3. unfold line_length, x_extent. cbn [fst snd]. rewrite H1, H2.
  replace ((y - y) ^ 2 + (px (b2 l) - px (b1 l)) ^ 2) with (Rsqr (px (b2 l) - px (b1 l)))
    by (unfold Rsqr; ring).
  apply sqrt_Rsqr. lra.
Qed.

Lemma rsum_lengths : forall (t : nat) y (l : list (ts line)),
  (forall c, In c l -> py (b1 (c t)) = y /\ py (b2 (c t)) = y /\ px (b1 (c t)) <= px (b2 (c t))) ->
  rsum (map (fun c => line_length (c t)) l) = total_length (map (fun c => x_extent (c t)) l).
Proof.
  intros t y l H. induction l; simpl; [reflexivity |].
  unfold total_length in *. simpl. rewrite <- IHl by (intros; apply H; right; auto).
  destruct (H a (or_introl eq_refl)) as [A [B C]].
  rewrite (line_length_flat _ y) by auto. reflexivity.
Qed.
