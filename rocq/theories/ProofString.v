(** Geometry of Hottel's strings: plane geometry used for the view factors. *)
From Coq Require Import Reals List Bool Arith Lra Lia Psatz Rgeom.
From Verif Require Import Num ModelTs Basics ProofAngles.
Import ListNotations.
Open Scope R_scope.

Lemma dist_sym : forall p q, distance p q = distance q p.
Proof. intros. unfold distance. f_equal. ring. Qed.

Lemma dist_pos : forall p q, 0 <= distance p q.
Proof. intros. apply sqrt_pos. Qed.

Lemma dist_euc_eq : forall p q, distance p q = dist_euc (px p) (py p) (px q) (py q).
Proof. intros. unfold distance, dist_euc. f_equal. unfold Rsqr. ring. Qed.

Lemma dist_tri : forall p q r, distance p r <= distance p q + distance q r.
Proof. intros. rewrite !dist_euc_eq. apply triangle. Qed.

Lemma dist_self : forall p, distance p p = 0.
Proof. intros. unfold distance. rewrite <- sqrt_0. f_equal. ring. Qed.

Lemma line_length_dist : forall l, line_length l = distance (b1 l) (b2 l).
Proof. reflexivity. Qed.

(** Point at fraction [k] of the segment from [p] to [q]. *)
Definition between (p q : pt) (k : R) : pt :=
  Pt (px p + k * (px q - px p)) (py p + k * (py q - py p)).

Lemma dist_between_l : forall p q k, 0 <= k -> distance p (between p q k) = k * distance p q.
Proof.
  intros p q k Hk. unfold distance, between. cbn [px py].
  replace ((py p + k * (py q - py p) - py p) ^ 2 + (px p + k * (px q - px p) - px p) ^ 2)
    with (k * k * ((py q - py p) ^ 2 + (px q - px p) ^ 2)) by ring.
  rewrite sqrt_mult_alt by nra. rewrite sqrt_square by auto. reflexivity.
Qed.

Lemma between_sym : forall p q k, between p q k = between q p (1 - k).
Proof. intros. unfold between. f_equal; ring. Qed.

Lemma dist_between_r : forall p q k, k <= 1 -> distance (between p q k) q = (1 - k) * distance p q.
Proof.
  intros. rewrite dist_sym, between_sym, (dist_sym p q). apply dist_between_l. lra.
Qed.

Lemma dist_between : forall p q k, 0 <= k <= 1 ->
  distance p (between p q k) + distance (between p q k) q = distance p q.
Proof. intros. rewrite dist_between_l, dist_between_r by lra. ring. Qed.

(** Cross product of [p - o] and [q - o]: positive when [q] is on the left of the ray
    from [o] to [p]. *)
Definition crs (o p q : pt) : R :=
  (px p - px o) * (py q - py o) - (py p - py o) * (px q - px o).

(** Diagonals of a convex quadrilateral are longer than two opposite sides. *)
Lemma diagonals : forall A B C D,
  0 <= crs A C B -> crs A C D <= 0 -> crs B D A <= 0 -> 0 <= crs B D C ->
  0 < crs A C B - crs A C D ->
  distance A B + distance C D <= distance A C + distance B D.
Proof.
  intros A B C D H1 H2 H3 H4 H5.
  set (k := crs A C B / (crs A C B - crs A C D)).
  set (m := - crs B D A / (crs B D C - crs B D A)).
  assert (E : crs B D C - crs B D A = crs A C B - crs A C D) by (unfold crs; ring).
  assert (Hk : 0 <= k <= 1).
  { unfold k. split.
    - apply Rmult_le_pos; [auto | left; apply Rinv_0_lt_compat; auto].
    - apply (Rmult_le_reg_r (crs A C B - crs A C D)); [auto |]. unfold Rdiv.
      rewrite Rmult_assoc, Rinv_l by lra. lra. }
  assert (Hm : 0 <= m <= 1).
  { unfold m. rewrite E. split.
    - apply Rmult_le_pos; [lra | left; apply Rinv_0_lt_compat; auto].
    - apply (Rmult_le_reg_r (crs A C B - crs A C D)); [auto |]. unfold Rdiv.
      rewrite Rmult_assoc, Rinv_l by lra. lra. }
  assert (X : between B D k = between A C m).
  { unfold between, k, m. rewrite E. unfold crs in *. f_equal; field; lra. }
  rewrite <- (dist_between A C m Hm), <- (dist_between B D k Hk), X.
  pose proof (dist_tri A (between A C m) B). pose proof (dist_tri C (between A C m) D).
  rewrite (dist_sym (between A C m) B) in H. rewrite (dist_sym C (between A C m)) in H0. lra.
Qed.

(** Two points [p], [q] above the ground, seen from two points [gl <= gr] of the ground; [p]
    is on the left of [q] as seen from both: crossed strings are longer. *)
Definition gp (x : R) : pt := Pt x 0.

Lemma crossed_strings : forall p q gl gr,
  0 < py p -> 0 < py q -> gl <= gr ->
  0 <= crs (gp gl) q p -> 0 <= crs (gp gr) q p ->
  distance (gp gl) p + distance (gp gr) q <= distance (gp gr) p + distance (gp gl) q.
Proof.
  intros p q gl gr Hp Hq Hg H1 H2.
  destruct (Rle_lt_or_eq_dec _ _ Hg) as [L | E]; [| subst; lra].
  pose proof (diagonals (gp gl) p q (gp gr)) as D.
  assert (A1 : crs (gp gl) q (gp gr) = - (py q * (gr - gl))) by (unfold crs, gp; cbn [px py]; ring).
  assert (A2 : crs p (gp gr) (gp gl) = - (py p * (gr - gl))) by (unfold crs, gp; cbn [px py]; ring).
  assert (A3 : crs p (gp gr) q = crs (gp gr) q p) by (unfold crs, gp; cbn [px py]; ring).
  assert (0 < py p * (gr - gl)) by (apply Rmult_lt_0_compat; lra).
  assert (0 < py q * (gr - gl)) by (apply Rmult_lt_0_compat; lra).
  assert (G : distance (gp gl) p + distance q (gp gr) <= distance (gp gl) q + distance p (gp gr)).
  { apply D; lra. }
  rewrite (dist_sym q (gp gr)), (dist_sym p (gp gr)) in G. lra.
Qed.

(* ------------------------------------------------- strings around an obstruction *)

(** Length of the string from the ground point [g] to [p], which goes around the point
    [O] (if any) when [O] is on the left of the ray from [g] to [p]. *)
Definition str (O : option pt) (p : pt) (g : R) : R :=
  match O with
  | Some o => if Rlt_dec 0 (crs (gp g) p o) then distance (gp g) o + distance o p
              else distance (gp g) p
  | None => distance (gp g) p
  end.

(** A root of an affine function that changes sign. *)
Lemma affine_root : forall a b x y, x <= y -> a + b * x <= 0 -> 0 <= a + b * y ->
  exists m, x <= m <= y /\ a + b * m = 0.
Proof.
  intros a b x y H Hx Hy. destruct (Req_dec b 0) as [-> | Nb].
  - exists x. split; lra.
  - exists (- a / b). assert (E : a + b * (- a / b) = 0) by (field; auto). split; [| exact E].
    assert (Hbm : b * (- a / b) = - a) by (field; auto).
    set (m := - a / b) in *. destruct (Rle_lt_dec x y); [| lra].
    destruct (Rtotal_order b 0) as [Lb | [Eb | Gb]]; [| contradiction |].
    + (* decreasing: only a constant interval is possible *)
      assert (b * y <= b * x) by nra. assert (b * x = b * m) by lra.
      assert (x = m) by (apply (Rmult_eq_reg_l b); auto). lra.
    + split; apply (Rmult_le_reg_l b); lra.
Qed.

(** A row seen from the ground on its right: lower edge [L], unit vector [(ux, uy)] from
    the lower to the upper edge; [O] is the lower edge of the next row on the right. *)
Section Right.
Variables (L : pt) (ux uy d : R).
Hypothesis HL : 0 < py L.
Hypothesis Hu : ux * ux + uy * uy = 1.
Hypothesis Huy : 0 <= uy.
Hypothesis Hd : 0 < d.

Definition rp (e : R) : pt := Pt (px L + e * ux) (py L + e * uy).
Definition ob_pt : pt := Pt (px L + d) (py L).
(** Zero on the line of the row, positive on its right. *)
Definition side_k (g : R) : R := ux * py L - uy * (px L - g).
Definition ob (e g : R) : R := e * (side_k g - uy * d) - d * py L.

Lemma rp_0 : rp 0 = L.
Proof. unfold rp. destruct L as [x y]. cbn [px py]. f_equal; ring. Qed.
Lemma rp_y : forall e, 0 <= e -> py L <= py (rp e).
Proof. intros. unfold rp. cbn [py]. nra. Qed.
Lemma rp_dist : forall e1 e2, e1 <= e2 -> distance (rp e1) (rp e2) = e2 - e1.
Proof.
  intros. unfold distance, rp. cbn [px py].
  replace ((py L + e2 * uy - (py L + e1 * uy)) ^ 2 + (px L + e2 * ux - (px L + e1 * ux)) ^ 2)
    with ((e2 - e1) * (e2 - e1)) by (transitivity ((e2 - e1) * (e2 - e1) * (ux * ux + uy * uy)); [rewrite Hu; ring | ring]).
  apply sqrt_square. lra.
Qed.
Lemma crs_rp : forall g e1 e2, crs (gp g) (rp e2) (rp e1) = (e2 - e1) * side_k g.
Proof. intros. unfold crs, gp, rp, side_k. cbn [px py]. ring. Qed.
Lemma crs_ob : forall g e, crs (gp g) (rp e) ob_pt = ob e g.
Proof. intros. unfold crs, gp, rp, ob_pt, ob, side_k. cbn [px py]. ring. Qed.
Lemma side_k_mono : forall g g', g <= g' -> side_k g <= side_k g'.
Proof. intros. unfold side_k. nra. Qed.
Lemma ob_mono_g : forall e g g', 0 <= e -> g <= g' -> ob e g <= ob e g'.
Proof.
  intros e g g' He H. unfold ob. pose proof (side_k_mono _ _ H).
  assert (e * side_k g <= e * side_k g') by (apply Rmult_le_compat_l; auto). lra.
Qed.
(** If a point of the row is hidden, so are the ones above it. *)
Lemma ob_mono_e : forall e1 e2 g, 0 <= e1 <= e2 -> 0 <= ob e1 g -> 0 <= ob e2 g.
Proof.
  intros e1 e2 g He H. unfold ob in *. assert (0 < d * py L) by (apply Rmult_lt_0_compat; auto).
  assert (0 < side_k g - uy * d) by nra.
  assert (e1 * (side_k g - uy * d) <= e2 * (side_k g - uy * d)) by (apply Rmult_le_compat_r; lra). lra.
Qed.
Lemma ob_le_e : forall e1 e2 g, 0 <= e1 <= e2 -> ob e2 g <= 0 -> ob e1 g <= 0.
Proof.
  intros e1 e2 g He H. destruct (Rle_lt_dec (ob e1 g) 0); auto.
  unfold ob in *. assert (0 < d * py L) by (apply Rmult_lt_0_compat; auto).
  assert (0 < side_k g - uy * d) by nra.
  assert (e1 * (side_k g - uy * d) <= e2 * (side_k g - uy * d)) by (apply Rmult_le_compat_r; lra). lra.
Qed.
Lemma ob_low : forall g, ob 0 g < 0.
Proof. intros. unfold ob. assert (0 < d * py L) by (apply Rmult_lt_0_compat; auto). lra. Qed.

Lemma ob_between : forall e g, 0 <= e -> ob e g = 0 ->
  distance (gp g) ob_pt + distance ob_pt (rp e) = distance (gp g) (rp e).
Proof.
  intros e g He H. pose proof (rp_y e He) as Hy.
  set (k := py L / py (rp e)).
  assert (Hk : 0 <= k <= 1).
  { unfold k. split.
    - apply Rmult_le_pos; [lra | left; apply Rinv_0_lt_compat; lra].
    - apply (Rmult_le_reg_r (py (rp e))); [lra |]. unfold Rdiv. rewrite Rmult_assoc, Rinv_l by lra. lra. }
  assert (E : ob_pt = between (gp g) (rp e) k).
  { rewrite <- crs_ob in H. unfold crs, gp in H. cbn [px py] in H.
    unfold between, k, gp. cbn [px py]. unfold ob_pt at 1. f_equal.
    - apply (Rmult_eq_reg_r (py (rp e))); [| lra].
      replace ((g + py L / py (rp e) * (px (rp e) - g)) * py (rp e))
        with (g * py (rp e) + py L * (px (rp e) - g)) by (field; lra).
      unfold ob_pt in H. cbn [px py] in H. lra.
    - field. lra. }
  rewrite E. apply dist_between; auto.
Qed.

Lemma str_free : forall e g, 0 <= e -> ob e g <= 0 -> str (Some ob_pt) (rp e) g = distance (gp g) (rp e).
Proof. intros. unfold str. rewrite crs_ob. destruct (Rlt_dec 0 (ob e g)); [lra | reflexivity]. Qed.
Lemma str_bent : forall e g, 0 <= e -> 0 <= ob e g ->
  str (Some ob_pt) (rp e) g = distance (gp g) ob_pt + distance ob_pt (rp e).
Proof.
  intros. unfold str. rewrite crs_ob. destruct (Rlt_dec 0 (ob e g)); [reflexivity |].
  symmetry. apply ob_between; lra.
Qed.

(** Crossed minus uncrossed strings between [e1..e2] on the row and [gl..gr] on the ground. *)
Definition piece (O : option pt) (e1 e2 gl gr : R) : R :=
  (str O (rp e1) gr - str O (rp e1) gl) - (str O (rp e2) gr - str O (rp e2) gl).

Lemma piece_split : forall O e1 e2 gl m gr,
  piece O e1 e2 gl gr = piece O e1 e2 gl m + piece O e1 e2 m gr.
Proof. intros. unfold piece. ring. Qed.
Lemma piece_split_e : forall O e1 m e2 gl gr,
  piece O e1 e2 gl gr = piece O e1 m gl gr + piece O m e2 gl gr.
Proof. intros. unfold piece. ring. Qed.

Lemma piece_none_nonneg : forall e1 e2 gl gr,
  0 <= e1 <= e2 -> gl <= gr -> 0 <= side_k gl -> 0 <= piece None e1 e2 gl gr.
Proof.
  intros e1 e2 gl gr He Hg Hk. pose proof (side_k_mono _ _ Hg).
  pose proof (rp_y e1). pose proof (rp_y e2).
  pose proof (crossed_strings (rp e1) (rp e2) gl gr) as C. rewrite !crs_rp in C.
  assert (distance (gp gl) (rp e1) + distance (gp gr) (rp e2) <= distance (gp gr) (rp e1) + distance (gp gl) (rp e2)).
  { apply C; try lra; apply Rmult_le_pos; lra. }
  unfold piece, str. lra.
Qed.

Lemma piece_free : forall e1 e2 gl gr, 0 <= e1 <= e2 -> gl <= gr -> ob e2 gr <= 0 ->
  piece (Some ob_pt) e1 e2 gl gr = piece None e1 e2 gl gr.
Proof.
  intros e1 e2 gl gr He Hg Ho.
  assert (ob e2 gl <= 0) by (eapply Rle_trans; [apply ob_mono_g; [lra | exact Hg] | auto]).
  unfold piece. rewrite !str_free; try lra; try (eapply ob_le_e; eauto; lra).
  unfold str. reflexivity.
Qed.

Lemma piece_half : forall e1 e2 gl gr, 0 <= e1 <= e2 -> gl <= gr -> 0 <= ob e2 gl -> ob e1 gr <= 0 ->
  0 <= piece (Some ob_pt) e1 e2 gl gr.
Proof.
  intros e1 e2 gl gr He Hg H2 H1.
  assert (0 <= ob e2 gr) by (eapply Rle_trans; [exact H2 | apply ob_mono_g; lra]).
  assert (ob e1 gl <= 0) by (eapply Rle_trans; [apply ob_mono_g; [lra | exact Hg] | auto]).
  unfold piece. rewrite (str_free e1 gr), (str_free e1 gl), (str_bent e2 gr), (str_bent e2 gl) by lra.
  pose proof (crossed_strings (rp e1) ob_pt gl gr) as C.
  assert (E : forall g, crs (gp g) ob_pt (rp e1) = - ob e1 g) by (intro; rewrite <- crs_ob; unfold crs; ring).
  rewrite !E in C. pose proof (rp_y e1).
  assert (distance (gp gl) (rp e1) + distance (gp gr) ob_pt <= distance (gp gr) (rp e1) + distance (gp gl) ob_pt).
  { apply C; try lra; unfold ob_pt; cbn [py]; lra. }
  lra.
Qed.

Lemma piece_full : forall e1 e2 gl gr, 0 <= e1 <= e2 -> gl <= gr -> 0 <= ob e1 gl ->
  piece (Some ob_pt) e1 e2 gl gr = 0.
Proof.
  intros e1 e2 gl gr He Hg H1.
  assert (0 <= ob e1 gr) by (eapply Rle_trans; [exact H1 | apply ob_mono_g; lra]).
  unfold piece. rewrite !str_bent; try lra; try (eapply ob_mono_e; eauto; lra).
Qed.

Lemma ob_root : forall e x y, x <= y -> ob e x <= 0 -> 0 <= ob e y ->
  exists m, x <= m <= y /\ ob e m = 0.
Proof.
  intros e x y H Hx Hy.
  assert (E : forall g, ob e g = (e * (ux * py L - uy * px L - uy * d) - d * py L) + (e * uy) * g)
    by (intro; unfold ob, side_k; ring).
  rewrite E in Hx, Hy. destruct (affine_root _ _ _ _ H Hx Hy) as [m [Hm Em]].
  exists m. rewrite E. auto.
Qed.

Lemma piece_low_free : forall e1 e2 gl gr, 0 <= e1 <= e2 -> gl <= gr -> 0 <= side_k gl -> ob e1 gr <= 0 ->
  0 <= piece (Some ob_pt) e1 e2 gl gr.
Proof.
  intros e1 e2 gl gr He Hg Hk H1.
  destruct (Rle_lt_dec (ob e2 gr) 0) as [A | A].
  - rewrite piece_free by auto. apply piece_none_nonneg; auto.
  - destruct (Rle_lt_dec 0 (ob e2 gl)) as [B | B].
    + apply piece_half; auto.
    + destruct (ob_root e2 gl gr) as [m [Hm Em]]; try lra.
      rewrite (piece_split _ _ _ gl m gr).
      assert (0 <= piece (Some ob_pt) e1 e2 gl m).
      { rewrite piece_free; try lra. apply piece_none_nonneg; auto; lra. }
      assert (0 <= piece (Some ob_pt) e1 e2 m gr) by (apply piece_half; lra). lra.
Qed.

Lemma piece_some_nonneg : forall e1 e2 gl gr, 0 <= e1 <= e2 -> gl <= gr -> 0 <= side_k gl ->
  0 <= piece (Some ob_pt) e1 e2 gl gr.
Proof.
  intros e1 e2 gl gr He Hg Hk.
  destruct (Rle_lt_dec (ob e1 gr) 0) as [A | A]; [apply piece_low_free; auto |].
  destruct (Rle_lt_dec 0 (ob e1 gl)) as [B | B]; [rewrite piece_full by auto; lra |].
  destruct (ob_root e1 gl gr) as [m [Hm Em]]; try lra.
  rewrite (piece_split _ _ _ gl m gr), (piece_full _ _ m gr) by lra.
  assert (0 <= piece (Some ob_pt) e1 e2 gl m) by (apply piece_low_free; lra). lra.
Qed.

(* ---------------------------------------------------------- bounds on the strings *)

(** Difference of the strings to the two ends of a stretch of the row. *)
Definition phi (O : option pt) (e1 e2 g : R) : R := str O (rp e2) g - str O (rp e1) g.
(** Difference of the distances from a point to the two ends. *)
Definition chi (e1 e2 : R) (q : pt) : R := distance q (rp e2) - distance q (rp e1).

Lemma piece_phi : forall O e1 e2 gl gr, piece O e1 e2 gl gr = phi O e1 e2 gl - phi O e1 e2 gr.
Proof. intros. unfold piece, phi. ring. Qed.

Lemma chi_bound : forall e1 e2 q, e1 <= e2 -> - (e2 - e1) <= chi e1 e2 q <= e2 - e1.
Proof.
  intros e1 e2 q H. unfold chi. pose proof (rp_dist e1 e2 H) as D.
  pose proof (dist_tri q (rp e1) (rp e2)). pose proof (dist_tri q (rp e2) (rp e1)).
  rewrite (dist_sym (rp e2) (rp e1)) in *. lra.
Qed.

Lemma phi_none_bound : forall e1 e2 g, e1 <= e2 -> - (e2 - e1) <= phi None e1 e2 g <= e2 - e1.
Proof. intros. unfold phi, str. apply (chi_bound e1 e2 (gp g)). auto. Qed.

Lemma ob_root_e : forall e1 e2 g, e1 <= e2 -> ob e1 g <= 0 -> 0 <= ob e2 g ->
  exists m, e1 <= m <= e2 /\ ob m g = 0.
Proof.
  intros e1 e2 g H H1 H2. unfold ob in *.
  destruct (affine_root (- (d * py L)) (side_k g - uy * d) e1 e2 H) as [m [Hm Em]]; try lra.
  exists m. split; [auto | lra].
Qed.

Lemma phi_some_le : forall e1 e2 g, 0 <= e1 <= e2 -> phi (Some ob_pt) e1 e2 g <= e2 - e1.
Proof.
  intros e1 e2 g He. unfold phi.
  destruct (Rle_lt_dec (ob e2 g) 0) as [A | A].
  - rewrite !str_free; try lra; try (eapply ob_le_e; eauto; lra).
    pose proof (chi_bound e1 e2 (gp g)). unfold chi in H. lra.
  - destruct (Rle_lt_dec 0 (ob e1 g)) as [B | B].
    + rewrite !str_bent by lra. pose proof (chi_bound e1 e2 ob_pt). unfold chi in H. lra.
    + rewrite (str_bent e2), (str_free e1) by lra.
      destruct (ob_root_e e1 e2 g) as [m [Hm Em]]; try lra.
      pose proof (ob_between m g) as X. specialize (X ltac:(lra) Em).
      pose proof (dist_tri ob_pt (rp m) (rp e2)) as T1. rewrite (rp_dist m e2) in T1 by lra.
      pose proof (dist_tri (gp g) (rp e1) (rp m)) as T2. rewrite (rp_dist e1 m) in T2 by lra. lra.
Qed.

Lemma phi_some_ge : forall e1 e2 g, 0 <= e1 <= e2 -> 0 <= side_k g -> chi e1 e2 ob_pt <= phi (Some ob_pt) e1 e2 g.
Proof.
  intros e1 e2 g He Hk. unfold phi, chi.
  destruct (Rle_lt_dec 0 (ob e1 g)) as [B | B].
  - rewrite !str_bent; try lra. eapply ob_mono_e; eauto.
  - rewrite (str_free e1) by lra. destruct (Rle_lt_dec 0 (ob e2 g)) as [A | A].
    + rewrite (str_bent e2) by lra. pose proof (dist_tri (gp g) ob_pt (rp e1)). lra.
    + rewrite (str_free e2) by lra.
      pose proof (diagonals (gp g) (rp e1) (rp e2) ob_pt) as D.
      rewrite crs_rp, crs_ob in D.
      assert (E1 : crs (rp e1) ob_pt (gp g) = ob e1 g) by (unfold crs, rp, ob_pt, gp, ob, side_k; cbn [px py]; ring).
      assert (E2 : crs (rp e1) ob_pt (rp e2) = (e2 - e1) * d * uy) by (unfold crs, rp, ob_pt; cbn [px py]; ring).
      rewrite E1, E2 in D.
      assert (0 <= (e2 - e1) * side_k g) by (apply Rmult_le_pos; lra).
      assert (0 <= (e2 - e1) * d * uy) by (apply Rmult_le_pos; [apply Rmult_le_pos |]; lra).
      rewrite (dist_sym ob_pt (rp e2)), (dist_sym ob_pt (rp e1)). lra.
Qed.

(** Points of the next row. *)
Definition np (f : R) : pt := Pt (px L + d + f * ux) (py L + f * uy).
Lemma np_0 : np 0 = ob_pt.
Proof. unfold np, ob_pt. f_equal; ring. Qed.

Lemma dist_horizontal : forall x y z, x <= z -> distance (Pt x y) (Pt z y) = z - x.
Proof.
  intros. unfold distance. cbn [px py]. replace ((y - y) ^ 2 + (z - x) ^ 2) with ((z - x) * (z - x)) by ring.
  apply sqrt_square. lra.
Qed.

Lemma chi_np_mono : forall e1 e2 f1 f2, 0 <= e1 <= e2 -> 0 <= f1 <= f2 ->
  (uy = 0 -> exists k, e1 * ux <= k /\ e2 * ux <= k /\ k <= d + f1 * ux /\ k <= d + f2 * ux) ->
  chi e1 e2 (np f2) <= chi e1 e2 (np f1).
Proof.
  intros e1 e2 f1 f2 He Hf Hflat. unfold chi.
  destruct (Req_dec uy 0) as [Z | Z].
  - destruct (Hflat Z) as [k [U1 [U2 [U3 U4]]]]. unfold np, rp. rewrite Z, !Rmult_0_r, !Rplus_0_r.
    assert (forall f e, e <= k -> k <= d + f -> distance (Pt (px L + d + f) (py L)) (Pt (px L + e) (py L)) = d + f - e).
    { intros. rewrite dist_sym, dist_horizontal by lra. ring. }
    rewrite !H by lra. lra.
  - pose proof (diagonals (np f1) (rp e1) (rp e2) (np f2)) as D.
    assert (E1 : crs (np f1) (rp e2) (rp e1) = (e2 - e1) * d * uy) by (unfold crs, np, rp; cbn [px py]; ring).
    assert (E2 : crs (np f1) (rp e2) (np f2) = - ((f2 - f1) * d * uy)) by (unfold crs, np, rp; cbn [px py]; ring).
    assert (E3 : crs (rp e1) (np f2) (np f1) = - ((f2 - f1) * d * uy)) by (unfold crs, np, rp; cbn [px py]; ring).
    assert (E4 : crs (rp e1) (np f2) (rp e2) = (e2 - e1) * d * uy) by (unfold crs, np, rp; cbn [px py]; ring).
    rewrite E1, E2, E3, E4 in D.
    assert (0 < d * uy) by (apply Rmult_lt_0_compat; lra).
    assert (0 <= (e2 - e1) * d * uy) by (rewrite Rmult_assoc; apply Rmult_le_pos; lra).
    assert (0 <= (f2 - f1) * d * uy) by (rewrite Rmult_assoc; apply Rmult_le_pos; lra).
    destruct (Req_dec e1 e2) as [-> | Ne]; [lra |].
    assert (0 < (e2 - e1) * d * uy) by (rewrite Rmult_assoc; apply Rmult_lt_0_compat; lra).
    rewrite (dist_sym (np f2) (rp e2)), (dist_sym (np f2) (rp e1)). lra.
Qed.

(* ---------------------------------------------------------- seen from the ground *)

(** Difference of the strings from the two ends of a ground stretch. *)
Definition psi0 (p : pt) (gl gr : R) : R := distance (gp gr) p - distance (gp gl) p.
Definition psi (O : option pt) (e gl gr : R) : R := str O (rp e) gr - str O (rp e) gl.

Lemma piece_psi : forall O e1 e2 gl gr, piece O e1 e2 gl gr = psi O e1 gl gr - psi O e2 gl gr.
Proof. intros. unfold piece, psi. ring. Qed.

Lemma psi_low : forall gl gr, psi (Some ob_pt) 0 gl gr = psi0 L gl gr.
Proof.
  intros. unfold psi, psi0. rewrite !str_free; try lra; try (left; apply ob_low). rewrite rp_0. reflexivity.
Qed.

Lemma psi_ge : forall e gl gr, 0 <= e -> gl <= gr -> psi0 ob_pt gl gr <= psi (Some ob_pt) e gl gr.
Proof.
  intros e gl gr He Hg. unfold psi, psi0. pose proof (rp_y e He).
  assert (E : forall g, crs (gp g) ob_pt (rp e) = - ob e g) by (intro; rewrite <- crs_ob; unfold crs; ring).
  pose proof (crossed_strings (rp e) ob_pt) as C.
  destruct (Rle_lt_dec (ob e gr) 0) as [A | A].
  - assert (ob e gl <= 0) by (eapply Rle_trans; [apply ob_mono_g; eauto | auto]).
    rewrite !str_free by auto. specialize (C gl gr). rewrite !E in C.
    assert (distance (gp gl) (rp e) + distance (gp gr) ob_pt <= distance (gp gr) (rp e) + distance (gp gl) ob_pt).
    { apply C; try lra; unfold ob_pt; cbn [py]; lra. }
    lra.
  - rewrite (str_bent e gr) by lra. destruct (Rle_lt_dec (ob e gl) 0) as [B | B].
    + rewrite (str_free e gl) by lra. pose proof (dist_tri (gp gl) ob_pt (rp e)). lra.
    + rewrite (str_bent e gl) by lra. lra.
Qed.

(** Ground between the lines of this row and of the next one: nothing is hidden. *)
Lemma strip_free : forall e g, 0 <= e -> side_k g <= uy * d -> ob e g <= 0.
Proof.
  intros e g He H. unfold ob. assert (0 < d * py L) by (apply Rmult_lt_0_compat; auto).
  assert (0 <= e * (uy * d - side_k g)) by (apply Rmult_le_pos; lra). lra.
Qed.

End Right.

Lemma psi0_bound : forall p gl gr, gl <= gr -> - (gr - gl) <= psi0 p gl gr <= gr - gl.
Proof.
  intros p gl gr H. unfold psi0. assert (D : distance (gp gl) (gp gr) = gr - gl) by (apply dist_horizontal; auto).
  pose proof (dist_tri (gp gl) (gp gr) p). pose proof (dist_tri (gp gr) (gp gl) p).
  rewrite (dist_sym (gp gr) (gp gl)) in *. lra.
Qed.

Lemma psi0_left_right : forall p q gl gr, 0 < py p -> py q = py p -> px p <= px q -> gl <= gr ->
  psi0 q gl gr <= psi0 p gl gr.
Proof.
  intros p q gl gr Hp Hq Hx Hg. unfold psi0. pose proof (crossed_strings p q gl gr) as C.
  assert (E : forall g, crs (gp g) q p = py p * (px q - px p)) by (intro; unfold crs, gp; cbn [px py]; rewrite Hq; ring).
  rewrite !E in C. assert (0 <= py p * (px q - px p)) by (apply Rmult_le_pos; lra).
  assert (distance (gp gl) p + distance (gp gr) q <= distance (gp gr) p + distance (gp gl) q) by (apply C; lra).
  lra.
Qed.
