(** View factors to the sky as integrals over directions. *)
From Coq Require Import Reals List Bool Arith Lra Lia.
From Coquelicot Require Import Coquelicot.
From Verif Require Import Num ModelGeom SpecGeom SpecVF SpecSight ProofSight ProofVF2 ProofOpen.
Open Scope R_scope.

Lemma unit_angle : forall x y, x * x + y * y = 1 -> 0 <= y -> exists th, 0 <= th <= PI /\ cos th = x /\ sin th = y.
Proof.
  intros x y U Y. assert (X : -1 <= x <= 1) by nra. exists (acos x). split; [apply acos_bound|]. split; [apply cos_acos; exact X|].
  rewrite sin_acos by exact X. replace (1 - Rsqr x) with (Rsqr y) by (unfold Rsqr; lra). apply sqrt_Rsqr. exact Y.
Qed.
Lemma sin_sign : forall d, - PI < d < PI -> (0 < sin d <-> 0 < d).
Proof.
  intros d D. split; intro H.
  - apply Rnot_le_lt. intro C. assert (sin d <= 0); [|lra]. destruct (Req_dec d 0) as [->|N]; [rewrite sin_0; lra|].
    pose proof (sin_gt_0 (- d) ltac:(lra) ltac:(lra)) as P. rewrite sin_neg in P. lra.
  - apply sin_gt_0; lra.
Qed.

(** The directions between [c] and the direction of the row [(ux, uy)]. *)
Lemma sky_wedge : forall O q k ux uy cx cy, (k = 1 \/ k = -1) -> ux * ux + uy * uy = 1 -> 0 < uy -> cx * cx + cy * cy = 1 -> 0 <= cy ->
  0 < k * (uy * cx - ux * cy) ->
  (forall th, 0 < th < PI -> (sees_sky O q (k * uy, - k * ux) th <->
     0 < k * (uy * cos th - ux * sin th) /\ 0 < k * (cx * sin th - cy * cos th))) ->
  sky_from_point O q (k * uy, - k * ux) ((1 - (ux * cx + uy * cy)) / 2).
Proof.
  intros O q k ux uy cx cy K U UY C CY NC SEE. destruct (unit_angle ux uy U ltac:(lra)) as (ph & P & P1 & P2). destruct (unit_angle cx cy C CY) as (tc & T & T1 & T2).
  subst. pose proof PI_RGT_0 as PI0.
  assert (PHI : 0 < ph < PI). { split; apply Rnot_le_lt; intro Q; [assert (E : ph = 0) by lra; rewrite E, sin_0 in UY | assert (E : ph = PI) by lra; rewrite E, sin_PI in UY]; lra. }
  replace (cos ph * cos tc + sin ph * sin tc) with (cos (ph - tc)) by apply cos_minus.
  assert (N1 : forall th, sin ph * cos th - cos ph * sin th = sin (ph - th)) by (intro; rewrite sin_minus; ring).
  assert (N2 : forall th, cos tc * sin th - sin tc * cos th = sin (th - tc)) by (intro; rewrite sin_minus; ring).
  rewrite N1 in NC.
  assert (S2 : forall th, 0 < th < PI -> th <> tc -> - PI < th - tc < PI) by (intros; lra).
  destruct K as [-> | ->].
  - assert (L : tc < ph) by (assert (0 < ph - tc); [apply sin_sign; lra | lra]).
    exists tc, ph. split; [lra|]. split; [lra|]. split.
    + intros th TH Nt Np. rewrite (SEE th TH), N1, N2, !Rmult_1_l. rewrite (sin_sign (ph - th)), (sin_sign (th - tc)) by lra. lra.
    + apply (is_RInt_ext (V := R_NormedModule) (fun th => sin (ph - th) / 2)).
      { intros th _. cbn [fst snd]. rewrite sin_minus. match goal with |- ?a = ?b => change (@eq R a b) end. unfold Rdiv. ring. }
      replace ((1 - cos (ph - tc)) / 2) with (minus (cos (ph - ph) / 2) (cos (ph - tc) / 2)).
      2:{ unfold minus, plus, opp; cbn. replace (ph - ph) with 0 by ring. rewrite cos_0. field. }
      apply (is_RInt_derive (V := R_CompleteNormedModule) (fun th => cos (ph - th) / 2)).
      * intros th _. auto_derive; [exact Logic.I|]. unfold Rminus. field.
      * intros th _. apply (ex_derive_continuous (K := R_AbsRing) (V := R_NormedModule)). auto_derive. exact Logic.I.
  - assert (L : ph < tc). { assert (0 < tc - ph); [apply sin_sign; [lra|] | lra]. replace (tc - ph) with (- (ph - tc)) by ring. rewrite sin_neg. lra. }
    exists ph, tc. split; [lra|]. split; [lra|]. split.
    + intros th TH Np Nt. rewrite (SEE th TH), N1, N2.
      replace (-1 * sin (ph - th)) with (sin (th - ph)) by (replace (th - ph) with (- (ph - th)) by ring; rewrite sin_neg; ring).
      replace (-1 * sin (th - tc)) with (sin (tc - th)) by (replace (tc - th) with (- (th - tc)) by ring; rewrite sin_neg; ring).
      rewrite (sin_sign (th - ph)), (sin_sign (tc - th)) by lra. lra.
    + apply (is_RInt_ext (V := R_NormedModule) (fun th => sin (th - ph) / 2)).
      { intros th _. cbn [fst snd]. rewrite sin_minus. match goal with |- ?a = ?b => change (@eq R a b) end. unfold Rdiv. ring. }
      replace ((1 - cos (ph - tc)) / 2) with (minus (- cos (tc - ph) / 2) (- cos (ph - ph) / 2)).
      2:{ unfold minus, plus, opp; cbn. replace (ph - ph) with 0 by ring. replace (tc - ph) with (- (ph - tc)) by ring. rewrite cos_neg, cos_0. field. }
      apply (is_RInt_derive (V := R_CompleteNormedModule) (fun th => - cos (th - ph) / 2)).
      * intros th _. auto_derive; [exact Logic.I|]. unfold Rminus. field.
      * intros th _. apply (ex_derive_continuous (K := R_AbsRing) (V := R_NormedModule)). auto_derive. exact Logic.I.
Qed.

Lemma sky_flip : forall O x nx v, sky_factor O x nx v -> sky_factor O (flip x) nx v.
Proof.
  intros O x nx v (F & A & B). exists (fun s => F (1 - s)). split.
  - intros s S. rewrite point_at_flip. apply A. lra.
  - apply is_RInt_flip in B. replace (1 - 1) with 0 in B by ring. replace (1 - 0) with 1 in B by ring. exact B.
Qed.

Section Rows.
Variables (n : nat) (L0 Ly ux uy D w : R).
Hypothesis HLy : 0 < Ly.
Hypothesis U : 0 < uy.
Hypothesis Hu : ux * ux + uy * uy = 1.
Hypothesis HD : 0 < D.
Hypothesis Hw : 0 < w.
Let P := Pr L0 Ly ux uy D.
Let O := Op n L0 Ly ux uy D w.

Lemma ray_row : forall i e r th j e', Pt (px (P i e) + r * cos th) (py (P i e) + r * sin th) = P j e' ->
  r * (uy * cos th - ux * sin th) = (INR j - INR i) * (D * uy) /\ e * uy + r * sin th = e' * uy.
Proof.
  intros i e r th j e' H. unfold P, Pr in H. cbn [px py] in H. injection H as H1 H2.
  assert (E : e * uy + r * sin th = e' * uy) by lra. split; [|exact E].
  replace (r * (uy * cos th - ux * sin th)) with (uy * (L0 + INR i * D + e * ux + r * cos th) - uy * (L0 + INR i * D) - ux * (e * uy + r * sin th)) by ring.
  rewrite H1, E. ring.
Qed.

Lemma front_eq : forall k th, fst (k * uy, - k * ux) * cos th + snd (k * uy, - k * ux) * sin th = k * (uy * cos th - ux * sin th).
Proof. intros. cbn [fst snd]. ring. Qed.

Lemma sky_point_none : forall (left : bool) i e, 0 <= e <= w -> (forall j, (j < n)%nat -> ~ 0 < dirn left * (INR j - INR i)) ->
  sky_from_point O (P i e) (dirn left * uy, - dirn left * ux) ((1 - dirn left * ux) / 2).
Proof.
  intros left i e E NB. set (k := dirn left) in *. assert (K : k = 1 \/ k = -1) by apply dirn_cases. assert (KK : k * k = 1) by (destruct K as [-> | ->]; ring).
  replace (k * ux) with (ux * k + uy * 0) by ring. apply sky_wedge; auto; try lra.
  - replace (k * (uy * k - ux * 0)) with (k * k * uy) by ring. rewrite KK. lra.
  - intros th TH. unfold sees_sky. rewrite front_eq. pose proof (sin_gt_0 th ltac:(lra) ltac:(lra)) as SP.
    replace (k * (k * sin th - 0 * cos th)) with (k * k * sin th) by ring. rewrite KK, Rmult_1_l. split; [intros [A _]; split; [exact A | exact SP]|].
    intros [A _]. split; [exact A|]. intros r R [Z | (j & e' & J & E' & Z)].
    + unfold P, Pr in Z. cbn [py] in Z. assert (0 < r * sin th) by (apply Rmult_lt_0_compat; lra). nra.
    + destruct (ray_row _ _ _ _ _ _ Z) as [Z1 _]. apply (NB j J). fold k.
      assert (0 < r * (k * (uy * cos th - ux * sin th))) by (apply Rmult_lt_0_compat; lra).
      replace (r * (k * (uy * cos th - ux * sin th))) with (k * (r * (uy * cos th - ux * sin th))) in H by ring. rewrite Z1 in H.
      apply Rnot_le_lt. intro Q. assert (0 < D * uy) by (apply Rmult_lt_0_compat; lra). nra.
Qed.

Lemma sky_point_next : forall (left : bool) i i' e, 0 <= e <= w -> (i' < n)%nat -> INR i' = INR i + dirn left ->
  sky_from_point O (P i e) (dirn left * uy, - dirn left * ux) ((1 - cosine (ux, uy) (P i e) (P i' w)) / 2).
Proof.
  intros left i i' e E Hi' Ei'. set (k := dirn left) in *. assert (K : k = 1 \/ k = -1) by apply dirn_cases. assert (KK : k * k = 1) by (destruct K as [-> | ->]; ring).
  set (tx := k * D + (w - e) * ux). set (ty := (w - e) * uy).
  assert (DU : 0 < D * uy) by (apply Rmult_lt_0_compat; lra).
  assert (TN : k * (uy * tx - ux * ty) = D * uy) by (unfold tx, ty; replace (k * (uy * (k * D + (w - e) * ux) - ux * ((w - e) * uy))) with (k * k * (D * uy)) by ring; rewrite KK; ring).
  assert (TP : 0 < tx * tx + ty * ty).
  { destruct (Rlt_dec 0 (tx * tx + ty * ty)) as [Q|Q]; [exact Q|]. exfalso.
    pose proof (Rle_0_sqr tx) as S1. pose proof (Rle_0_sqr ty) as S2. unfold Rsqr in S1, S2.
    assert (tx = 0) by (apply Rsqr_0_uniq; unfold Rsqr; lra). assert (ty = 0) by (apply Rsqr_0_uniq; unfold Rsqr; lra).
    rewrite H, H0 in TN. lra. }
  set (m := sqrt (tx * tx + ty * ty)). assert (M : 0 < m) by (apply sqrt_lt_R0; exact TP). assert (MM : m * m = tx * tx + ty * ty) by (apply sqrt_sqrt; lra).
  assert (EC : euclid (P i e) (P i' w) = m).
  { unfold euclid, m, dist2, P, Pr. cbn [px py]. rewrite Ei'. unfold tx, ty. f_equal. ring. }
  replace (cosine (ux, uy) (P i e) (P i' w)) with (ux * (tx / m) + uy * (ty / m)).
  2:{ unfold cosine. rewrite EC. unfold ahead, P, Pr. cbn [fst snd px py]. rewrite Ei'. unfold tx, ty. field. lra. }
  assert (TY : 0 <= ty) by (unfold ty; apply Rmult_le_pos; lra).
  apply sky_wedge; auto.
  - replace (tx / m * (tx / m) + ty / m * (ty / m)) with ((tx * tx + ty * ty) / (m * m)) by (field; lra). rewrite <- MM. field. lra.
  - unfold Rdiv. apply Rmult_le_pos; [exact TY | left; apply Rinv_0_lt_compat; exact M].
  - replace (k * (uy * (tx / m) - ux * (ty / m))) with (k * (uy * tx - ux * ty) / m) by (field; lra). rewrite TN. apply Rdiv_lt_0_compat; lra.
  - intros th TH. unfold sees_sky. rewrite front_eq. pose proof (sin_gt_0 th ltac:(lra) ltac:(lra)) as SP.
    set (nd := k * (uy * cos th - ux * sin th)).
    assert (CR : k * (tx / m * sin th - ty / m * cos th) = (D * sin th - (w - e) * nd) / m).
    { apply (Rmult_eq_reg_r m); [|lra]. replace (k * (tx / m * sin th - ty / m * cos th) * m) with (k * (tx * sin th - ty * cos th)) by (field; lra).
      replace ((D * sin th - (w - e) * nd) / m * m) with (D * sin th - (w - e) * nd) by (field; lra). unfold tx, ty, nd.
      replace (k * ((k * D + (w - e) * ux) * sin th - (w - e) * uy * cos th)) with (k * k * (D * sin th) - (w - e) * (k * (uy * cos th - ux * sin th))) by ring. rewrite KK. ring. }
    assert (CP : 0 < k * (tx / m * sin th - ty / m * cos th) <-> 0 < D * sin th - (w - e) * nd).
    { rewrite CR. split; intro H.
      - apply (Rmult_lt_compat_r m) in H; [|exact M]. replace ((D * sin th - (w - e) * nd) / m * m) with (D * sin th - (w - e) * nd) in H by (field; lra). lra.
      - apply Rdiv_lt_0_compat; lra. }
    rewrite CP. split; intros [A B]; (split; [exact A|]).
    + apply Rnot_le_lt. intro Q. apply (B (D * uy / nd)); [apply Rdiv_lt_0_compat; lra|]. right. exists i', (e + D * sin th / nd). split; [exact Hi'|].
      assert (0 < D * sin th / nd) by (apply Rdiv_lt_0_compat; [apply Rmult_lt_0_compat; lra | exact A]). split.
      * split; [lra|]. assert (D * sin th / nd <= w - e); [|lra]. apply (Rmult_le_reg_r nd); [exact A|].
        replace (D * sin th / nd * nd) with (D * sin th) by (unfold Rdiv; rewrite Rmult_assoc, Rinv_l by lra; ring). lra.
      * unfold P, Pr. cbn [px py]. rewrite Ei'. f_equal.
        -- apply (Rmult_eq_reg_r nd); [|lra].
           assert (I1 : D * uy / nd * nd = D * uy) by (unfold Rdiv; rewrite Rmult_assoc, Rinv_l by lra; ring).
           assert (I2 : D * sin th / nd * nd = D * sin th) by (unfold Rdiv; rewrite Rmult_assoc, Rinv_l by lra; ring).
           replace ((L0 + INR i * D + e * ux + D * uy / nd * cos th) * nd) with ((L0 + INR i * D + e * ux) * nd + D * uy / nd * nd * cos th) by ring. rewrite I1.
           replace ((L0 + (INR i + k) * D + (e + D * sin th / nd) * ux) * nd) with ((L0 + INR i * D + e * ux) * nd + k * D * nd + (D * sin th / nd * nd) * ux) by ring. rewrite I2.
           replace (k * D * nd) with (k * k * (D * (uy * cos th - ux * sin th))) by (unfold nd; ring). rewrite KK. ring.
        -- apply (Rmult_eq_reg_r nd); [|lra]. unfold Rdiv. rewrite !Rmult_plus_distr_r.
           replace (D * uy * / nd * sin th * nd) with (D * uy * sin th * (/ nd * nd)) by ring.
           replace (D * sin th * / nd * uy * nd) with (D * uy * sin th * (/ nd * nd)) by ring. ring.
    + intros r R [Z | (j & e' & J & E' & Z)].
      * unfold P, Pr in Z. cbn [py] in Z. assert (0 < r * sin th) by (apply Rmult_lt_0_compat; lra). nra.
      * destruct (ray_row _ _ _ _ _ _ Z) as [Z1 Z2].
        assert (H : 0 < r * nd) by (apply Rmult_lt_0_compat; lra).
        assert (RN : r * nd = k * (INR j - INR i) * (D * uy)) by (unfold nd; replace (r * (k * (uy * cos th - ux * sin th))) with (k * (r * (uy * cos th - ux * sin th))) by ring; rewrite Z1; ring).
        assert (J0 : 0 < k * (INR j - INR i)) by (apply Rnot_le_lt; intro Q; rewrite RN in H; nra).
        apply int_ge1 in J0; [|exact K].
        assert (R1 : D * uy <= r * nd) by (rewrite RN; nra).
        assert (R2 : r * sin th <= (w - e) * uy) by (assert (e' * uy <= w * uy) by (apply Rmult_le_compat_r; lra); lra).
        assert (R3 : D * uy * sin th <= (w - e) * uy * nd).
        { apply Rle_trans with (r * nd * sin th); [apply Rmult_le_compat_r; lra|]. replace (r * nd * sin th) with (r * sin th * nd) by ring. apply Rmult_le_compat_r; lra. }
        assert (D * sin th <= (w - e) * nd) by (apply (Rmult_le_reg_r uy); lra). lra.
Qed.

Lemma sky_none : forall (left : bool) i lo hi, 0 <= lo < hi -> hi <= w -> (forall j, (j < n)%nat -> ~ 0 < dirn left * (INR j - INR i)) ->
  sky_factor O (Line (P i lo) (P i hi)) (dirn left * uy, - dirn left * ux) ((1 - dirn left * ux) / 2).
Proof.
  intros left i lo hi E1 E2 NB. exists (fun _ => (1 - dirn left * ux) / 2). split.
  - intros s S. replace (point_at (Line (P i lo) (P i hi)) s) with (P i (lo + s * (hi - lo))) by (unfold point_at, P, Pr; cbn [b1 b2 px py]; f_equal; ring).
    apply sky_point_none; [nra | exact NB].
  - pose proof (is_RInt_const (V := R_NormedModule) 0 1 ((1 - dirn left * ux) / 2)) as C. unfold scal in C; cbn in C. unfold mult in C; cbn in C.
    rewrite Rminus_0_r, Rmult_1_l in C. exact C.
Qed.

Lemma sky_next : forall (left : bool) i i' lo hi, 0 <= lo < hi -> hi <= w -> (i' < n)%nat -> INR i' = INR i + dirn left ->
  let T := P i' w in let A := P i lo in let B := P i hi in
  sky_factor O (Line A B) (dirn left * uy, - dirn left * ux) ((euclid A B + euclid B T - euclid A T) / (2 * euclid A B)).
Proof.
  intros left i i' lo hi E1 E2 Hi' Ei' T A B.
  assert (LX : euclid A B = hi - lo) by (unfold A, B, P; rewrite Pr_dist by exact Hu; apply Rabs_right; lra).
  set (x := Line A B).
  assert (PX : forall s, point_at x s = P i (lo + s * (hi - lo))) by (intro; unfold point_at, x, A, B, P, Pr; cbn [b1 b2 px py]; f_equal; ring).
  assert (TD : forall s, 0 < dist2 T (point_at x s)).
  { intro s. rewrite PX. unfold T. set (e := lo + s * (hi - lo)).
    destruct (Rlt_dec 0 (dist2 (P i' w) (P i e))) as [Q|Q]; [exact Q|]. exfalso. unfold dist2 in Q.
    pose proof (Rle_0_sqr (px (P i' w) - px (P i e))) as S1. pose proof (Rle_0_sqr (py (P i' w) - py (P i e))) as S2. unfold Rsqr in S1, S2.
    assert (Z1 : px (P i' w) - px (P i e) = 0) by (apply Rsqr_0_uniq; unfold Rsqr; lra).
    assert (Z2 : py (P i' w) - py (P i e) = 0) by (apply Rsqr_0_uniq; unfold Rsqr; lra).
    unfold P, Pr in Z1, Z2. cbn [px py] in Z1, Z2. rewrite Ei' in Z1. assert (w = e) by (apply (Rmult_eq_reg_r uy); lra). subst e. rewrite <- H in Z1.
    assert (ZZ : dirn left * D = 0) by lra. apply Rmult_integral in ZZ. destruct (dirn_cases left) as [Q'|Q']; rewrite Q' in ZZ; lra. }
  exists (fun s => (1 - cosine (ux, uy) (point_at x s) T) / 2). split.
  - intros s S. rewrite PX. apply sky_point_next; auto. nra.
  - pose proof (ftc (fun s => euclid T (point_at x s)) (fun s => cosine (way x) T (point_at x s)) 0 1) as FT.
    assert (I1 : is_RInt (fun s => cosine (way x) T (point_at x s)) 0 1 (euclid T (point_at x 1) - euclid T (point_at x 0))).
    { apply FT; [lra | intros; apply dist_derive; apply TD | intros; apply cosine_continuous; apply TD]. }
    pose proof (is_RInt_const (V := R_NormedModule) 0 1 (1 / 2)) as C.
    apply (is_RInt_scal (V := R_NormedModule) _ _ _ (1 / (2 * (hi - lo)))) in I1.
    pose proof (is_RInt_plus (V := R_NormedModule) _ _ _ _ _ _ C I1) as S.
    match type of S with is_RInt _ _ _ ?z => replace ((euclid A B + euclid B T - euclid A T) / (2 * euclid A B)) with z end.
    + apply (is_RInt_ext (V := R_NormedModule)) with (2 := S). intros s _. unfold plus, scal; cbn. unfold mult; cbn.
      assert (CC : cosine (way x) T (point_at x s) = - (hi - lo) * cosine (ux, uy) (point_at x s) T).
      { unfold cosine. rewrite (euclid_sym T). unfold ahead, way, x, A, B, P, Pr. cbn [fst snd b1 b2 px py]. unfold Rdiv. ring. }
      rewrite CC. field. lra.
    + unfold plus, scal; cbn. unfold mult; cbn. rewrite !PX. replace (lo + 1 * (hi - lo)) with hi by ring. replace (lo + 0 * (hi - lo)) with lo by ring.
      fold A B. rewrite LX, (euclid_sym T B), (euclid_sym T A). field. lra.
Qed.

(** Strings to a point [E] of the ground ahead. *)
Lemma string_slope : forall k i lo hi E d h, (k = 1 \/ k = -1) -> lo < hi -> 0 < d -> d <= k * (px E - px (P i hi)) ->
  0 <= py (P i hi) - py E <= h -> euclid (P i hi) E - euclid (P i lo) E + (hi - lo) * (k * ux) <= (hi - lo) * (h / d).
Proof.
  intros k i lo hi E d h K L D0 HX HY. set (B := P i hi) in *. set (A := P i lo).
  set (X := k * (px E - px B)) in *. set (Y := py B - py E) in *. set (m := hi - lo). assert (M : 0 < m) by (unfold m; lra).
  assert (KK : k * k = 1) by (destruct K as [-> | ->]; ring).
  set (rb := euclid B E). set (ra := euclid A E).
  assert (RB : rb * rb = X * X + Y * Y).
  { unfold rb, euclid. rewrite sqrt_sqrt; [|unfold dist2; pose proof (Rle_0_sqr (px B - px E)); pose proof (Rle_0_sqr (py B - py E)); unfold Rsqr in *; lra].
    unfold dist2, X, Y. replace (k * (px E - px B) * (k * (px E - px B))) with (k * k * ((px E - px B) * (px E - px B))) by ring. rewrite KK. ring. }
  assert (RA : ra * ra = dist2 A E) by (unfold ra, euclid; apply sqrt_sqrt; unfold dist2; pose proof (Rle_0_sqr (px A - px E)); pose proof (Rle_0_sqr (py A - py E)); unfold Rsqr in *; lra).
  assert (RA' : ra * ra = rb * rb + 2 * m * (k * ux * X - uy * Y) + m * m).
  { rewrite RA, RB. assert (AX : px A = px B - m * ux) by (unfold A, B, P, Pr, m; cbn [px]; ring). assert (AY : py A = py B - m * uy) by (unfold A, B, P, Pr, m; cbn [py]; ring).
    unfold dist2. rewrite AX, AY. replace (m * m) with (m * m * (ux * ux + uy * uy)) by (rewrite Hu; ring).
    replace (px E) with (px B + k * X) by (unfold X; replace (k * (k * (px E - px B))) with (k * k * (px E - px B)) by ring; rewrite KK; ring).
    replace (py E) with (py B - Y) by (unfold Y; ring). replace (X * X) with (k * k * (X * X)) by (rewrite KK; ring). ring. }
  assert (RB0 : 0 <= rb) by apply sqrt_pos. assert (RA0 : 0 <= ra) by apply sqrt_pos.
  assert (RBX : X <= rb) by (apply Rsqr_incr_0_var; [unfold Rsqr; nra | exact RB0]).
  assert (RBp : 0 < rb) by lra.
  set (q := (k * ux * X - uy * Y) / rb).
  assert (Q : q * rb = k * ux * X - uy * Y) by (unfold q; field; lra).
  assert (UX : (k * ux) * (k * ux) + uy * uy = 1) by (replace (k * ux * (k * ux)) with (k * k * (ux * ux)) by ring; rewrite KK; lra).
  assert (Q2 : q * q <= 1).
  { assert (q * q * (rb * rb) <= rb * rb); [|apply (Rmult_le_reg_r (rb * rb)); nra].
    replace (q * q * (rb * rb)) with ((q * rb) * (q * rb)) by ring. rewrite Q, RB. set (c := k * ux) in *. clearbody c.
    pose proof (Rle_0_sqr (c * Y + uy * X)) as SQ. unfold Rsqr in SQ.
    replace (X * X + Y * Y) with ((c * c + uy * uy) * (X * X + Y * Y)) by (rewrite UX; ring). lra. }
  assert (CS : rb + m * q <= ra).
  { destruct (Rle_dec (rb + m * q) 0) as [N|N]; [lra|]. apply Rsqr_incr_0_var; [|exact RA0]. unfold Rsqr. rewrite RA'.
    replace ((rb + m * q) * (rb + m * q)) with (rb * rb + 2 * m * (q * rb) + m * m * (q * q)) by ring. rewrite Q.
    assert (m * m * (q * q) <= m * m * 1) by (apply Rmult_le_compat_l; nra). lra. }
  assert (S : k * ux - q <= h / d).
  { set (c := k * ux) in *. clearbody c.
    assert (Z : (c - q) * (c - q) <= 2 * (1 - X / rb)).
    { replace (c - q) with (c * (1 - X / rb) + uy * (Y / rb)) by (unfold q; field; lra).
      assert (YY : Y / rb * (Y / rb) = 1 - X / rb * (X / rb)).
      { replace (1 - X / rb * (X / rb)) with ((rb * rb - X * X) / (rb * rb)) by (field; lra). replace (rb * rb - X * X) with (Y * Y) by lra. field. lra. }
      set (u1 := 1 - X / rb) in *. set (v1 := Y / rb) in *.
      pose proof (Rle_0_sqr (c * v1 - uy * u1)) as SQ. unfold Rsqr in SQ.
      replace (2 * u1) with ((c * c + uy * uy) * (u1 * u1 + v1 * v1)); [lra|]. rewrite UX, YY. unfold u1. ring. }
    assert (W : 2 * (1 - X / rb) <= h / d * (h / d)).
    { apply Rle_trans with (Y / X * (Y / X)).
      - apply (Rmult_le_reg_r (rb * (X * X))); [apply Rmult_lt_0_compat; [lra | apply Rmult_lt_0_compat; lra]|].
        replace (2 * (1 - X / rb) * (rb * (X * X))) with (2 * (rb - X) * (X * X)) by (field; lra).
        replace (Y / X * (Y / X) * (rb * (X * X))) with (Y * Y * rb) by (field; lra).
        replace (Y * Y) with ((rb - X) * (rb + X)) by lra.
        replace ((rb - X) * (rb + X) * rb) with ((rb - X) * ((rb + X) * rb)) by ring. rewrite (Rmult_comm 2), Rmult_assoc.
        apply Rmult_le_compat_l; [lra|].
        assert (X * X <= rb * rb) by (apply Rmult_le_compat; lra). assert (X * X <= X * rb) by (apply Rmult_le_compat_l; lra). lra.
      - assert (YX : 0 <= Y / X <= h / d).
        { split; [apply Rmult_le_pos; [lra | left; apply Rinv_0_lt_compat; lra]|].
          apply Rmult_le_compat; [lra | left; apply Rinv_0_lt_compat; lra | lra | apply Rinv_le_contravar; lra]. }
        apply Rmult_le_compat; lra. }
    assert (HD0 : 0 <= h / d) by (apply Rmult_le_pos; [lra | left; apply Rinv_0_lt_compat; lra]).
    destruct (Rle_dec (c - q) 0) as [N|N]; [lra|]. apply Rsqr_incr_0_var; [unfold Rsqr; lra | exact HD0]. }
  fold rb ra m. assert (m * (k * ux - q) <= m * (h / d)) by (apply Rmult_le_compat_l; lra). lra.
Qed.

(** Strings to the lower edge of the next row. *)
Lemma edge_slope : forall k i i' lo hi, (k = 1 \/ k = -1) -> 0 <= lo < hi -> INR i' = INR i + k ->
  0 <= euclid (P i hi) (P i' 0) - euclid (P i lo) (P i' 0) + (hi - lo) * (k * ux).
Proof.
  intros k i i' lo hi K L Ei'. assert (KK : k * k = 1) by (destruct K as [-> | ->]; ring). set (c := k * ux).
  assert (C2 : c * c <= 1) by (unfold c; replace (k * ux * (k * ux)) with (k * k * (ux * ux)) by ring; rewrite KK; nra).
  assert (E : forall e, euclid (P i e) (P i' 0) = sqrt (D * D - 2 * (c * D * e) + e * e)).
  { intro e. unfold euclid, dist2, P, Pr. cbn [px py]. rewrite Ei'. unfold c. f_equal.
    replace (D * D) with (k * k * (D * D)) by (rewrite KK; ring). replace (e * e) with (e * e * (ux * ux + uy * uy)) by (rewrite Hu; ring). ring. }
  rewrite !E. clearbody c. clear E.
  assert (POS : forall e, 0 <= D * D - 2 * (c * D * e) + e * e).
  { intro e. replace (D * D - 2 * (c * D * e) + e * e) with ((D - c * e) * (D - c * e) + (1 - c * c) * (e * e)) by ring.
    pose proof (Rle_0_sqr (D - c * e)) as S1. pose proof (Rle_0_sqr e) as S2. unfold Rsqr in *.
    assert (0 <= (1 - c * c) * (e * e)) by (apply Rmult_le_pos; lra). lra. }
  set (al := sqrt (D * D - 2 * (c * D * lo) + lo * lo)). set (ah := sqrt (D * D - 2 * (c * D * hi) + hi * hi)).
  assert (AL : al * al = D * D - 2 * (c * D * lo) + lo * lo) by (apply sqrt_sqrt; apply POS).
  assert (AH : ah * ah = D * D - 2 * (c * D * hi) + hi * hi) by (apply sqrt_sqrt; apply POS).
  assert (AL0 : 0 <= al) by apply sqrt_pos. assert (AH0 : 0 <= ah) by apply sqrt_pos.
  set (m := hi - lo). assert (al - m * c <= ah); [|lra].
  destruct (Rle_dec (al - m * c) 0) as [N|N]; [lra|]. apply Rsqr_incr_0_var; [|exact AH0]. unfold Rsqr. rewrite AH.
  replace ((al - m * c) * (al - m * c)) with (al * al - 2 * m * c * al + m * m * (c * c)) by ring. rewrite AL.
  assert (KEY : 0 <= 2 * c * (al - D) + (hi + lo) - m * (c * c)).
  { destruct (Rle_dec 0 c) as [C0|C0].
    - assert (D - c * lo <= al).
      { destruct (Rle_dec (D - c * lo) 0); [lra|]. apply Rsqr_incr_0_var; [|exact AL0]. unfold Rsqr. rewrite AL.
        assert (0 <= (1 - c * c) * (lo * lo)) by (apply Rmult_le_pos; nra). lra. }
      assert (c * (D - c * lo) <= c * al) by (apply Rmult_le_compat_l; lra).
      assert (0 <= (1 - c * c) * (hi + lo)) by (apply Rmult_le_pos; lra). unfold m. lra.
    - assert (al <= D + lo).
      { apply Rsqr_incr_0_var; [|lra]. unfold Rsqr. rewrite AL. assert (0 <= (1 + c) * (D * lo)); [|lra]. apply Rmult_le_pos; [nra | apply Rmult_le_pos; lra]. }
      assert (- c * al <= - c * (D + lo)) by (apply Rmult_le_compat_l; lra).
      assert (0 <= (1 + c) * (1 + c) * lo) by (apply Rmult_le_pos; [apply Rle_0_sqr | lra]).
      assert (0 <= (1 - c * c) * (hi - lo)) by (apply Rmult_le_pos; lra).
      assert (0 <= (1 - c * c) * lo) by (apply Rmult_le_pos; lra). unfold m. lra. }
  assert (0 <= m * (2 * c * (al - D) + (hi + lo) - m * (c * c))) by (apply Rmult_le_pos; [unfold m; lra | exact KEY]). unfold m in *. lra.
Qed.

Lemma gap_bound : forall (left : bool) i i' lo hi g d h, let k := dirn left in let E := Pt g 0 in let o := P i' 0 in
  0 <= lo < hi -> INR i' = INR i + k -> 0 < d -> d <= k * (g - px (P i lo)) -> d <= k * (g - px (P i hi)) -> py (P i hi) <= h ->
  ~ 0 <= (if left then turn E o (P i lo) else turn E (P i lo) o) ->
  taut_string left (Some o) (P i hi) E - taut_string left (Some o) (P i lo) E - (euclid (P i hi) o - euclid (P i lo) o) <= (hi - lo) * (h / d).
Proof.
  intros left i i' lo hi g d h k E o L Ei' D0 Dl Dh Hh NA. assert (K : k = 1 \/ k = -1) by apply dirn_cases.
  set (tr := fun e => if left then turn E o (P i e) else turn E (P i e) o).
  assert (TA : tr lo < 0) by (unfold tr; apply Rnot_le_lt; exact NA).
  assert (AFF : forall s, tr (lo + s * (hi - lo)) = tr lo + s * (tr hi - tr lo)) by (intro s; unfold tr, turn, P, Pr; case left; cbn [px py]; ring).
  assert (YB : 0 < Ly + hi * uy) by (assert (0 < hi * uy) by (apply Rmult_lt_0_compat; lra); lra).
  assert (H0 : 0 <= h / d) by (apply Rmult_le_pos; [unfold P, Pr in Hh; cbn [py] in Hh; lra | left; apply Rinv_0_lt_compat; lra]).
  assert (STR : forall e, lo < e <= hi -> euclid (P i e) E - euclid (P i lo) E - (euclid (P i e) o - euclid (P i lo) o) <= (e - lo) * (h / d)).
  { intros e He. pose proof (edge_slope k i i' lo e K ltac:(lra) Ei') as S1.
    pose proof (string_slope k i lo e E d h K ltac:(lra) D0) as S2.
    assert (X1 : d <= k * (px E - px (P i e))).
    { unfold E. cbn [px]. replace (k * (g - px (P i e))) with ((1 - (e - lo) / (hi - lo)) * (k * (g - px (P i lo))) + (e - lo) / (hi - lo) * (k * (g - px (P i hi)))) by (unfold P, Pr; cbn [px]; field; lra).
      set (z := (e - lo) / (hi - lo)). assert (Z : 0 <= z <= 1).
      { unfold z. split; [apply Rmult_le_pos; [lra | left; apply Rinv_0_lt_compat; lra]|]. apply (Rmult_le_reg_r (hi - lo)); [lra|]. unfold Rdiv. rewrite Rmult_assoc, Rinv_l by lra. lra. }
      assert ((1 - z) * d <= (1 - z) * (k * (g - px (P i lo)))) by (apply Rmult_le_compat_l; lra).
      assert (z * d <= z * (k * (g - px (P i hi)))) by (apply Rmult_le_compat_l; lra). lra. }
    assert (X2 : 0 <= py (P i e) - py E <= h).
    { revert Hh. unfold E, P, Pr. cbn [py]. intro Hh. assert (0 <= e * uy) by (apply Rmult_le_pos; lra). assert (e * uy <= hi * uy) by (apply Rmult_le_compat_r; lra). lra. }
    specialize (S2 X1 X2). fold o in S1. lra. }
  unfold taut_string. fold (tr lo) (tr hi). destruct (Rlt_dec 0 (tr lo)) as [Q|_]; [lra|]. destruct (Rlt_dec 0 (tr hi)) as [Q|Q].
  - set (s := tr lo / (tr lo - tr hi)). assert (S : 0 < s < 1).
    { unfold s. replace (tr lo / (tr lo - tr hi)) with (- tr lo / (tr hi - tr lo)) by (field; lra). split; [apply Rdiv_lt_0_compat; lra|].
      apply (Rmult_lt_reg_r (tr hi - tr lo)); [lra|]. unfold Rdiv. rewrite Rmult_assoc, Rinv_l by lra. lra. }
    set (e := lo + s * (hi - lo)). assert (He : lo < e < hi) by (unfold e; nra).
    assert (T0 : tr e = 0) by (unfold e; rewrite AFF; unfold s; field; lra).
    specialize (STR e ltac:(lra)). set (C := P i e) in *.
    assert (YC : 0 < py C /\ py o <= py C) by (unfold C, o, P, Pr; cbn [py]; assert (0 <= e * uy) by (apply Rmult_le_pos; lra); lra). destruct YC as [YC YO].
    assert (YO' : 0 < py o) by (unfold o, P, Pr; cbn [py]; lra).
    assert (MX : o = mix (1 - py o / py C) C E).
    { assert (TT : (px C - g) * py o = py C * (px o - g)).
      { revert T0. unfold tr. fold C. unfold turn, E. cbn [px py]. case left; intro T0; lra. }
      destruct o as [ox oy]. unfold mix, E. cbn [px py] in *. f_equal; apply (Rmult_eq_reg_r (py C)); try lra.
      - replace ((px C + (1 - oy / py C) * (g - px C)) * py C) with (py C * g + oy * (px C - g)) by (field; lra). lra.
      - field. lra. }
    assert (Z : 0 <= py o / py C <= 1).
    { split; [apply Rmult_le_pos; [lra | left; apply Rinv_0_lt_compat; lra]|]. apply (Rmult_le_reg_r (py C)); [lra|]. unfold Rdiv. rewrite Rmult_assoc, Rinv_l by lra. lra. }
    assert (D1 : euclid C o = (1 - py o / py C) * euclid C E).
    { rewrite !euclid_distance. rewrite MX at 1. apply dist_scaled. lra. }
    assert (D2 : euclid E o = py o / py C * euclid C E).
    { rewrite (euclid_sym C), !euclid_distance. replace o with (mix (py o / py C) E C) at 1; [apply dist_scaled; lra|].
      rewrite MX at 2. unfold mix. f_equal; ring. }
    rewrite (euclid_sym o), (euclid_sym E (P i lo)).
    assert ((e - lo) * (h / d) <= (hi - lo) * (h / d)) by (apply Rmult_le_compat_r; lra). lra.
  - rewrite !(euclid_sym E). apply STR. lra.
Qed.
End Rows.

Lemma same_angles : forall s1 s2 t1 t2, 0 <= s1 <= s2 -> s2 <= PI -> 0 <= t1 <= t2 -> t2 <= PI ->
  (forall s, 0 < s < PI -> s <> s1 -> s <> s2 -> s <> t1 -> s <> t2 -> (s1 < s < s2 <-> t1 < s < t2)) ->
  s1 < s2 -> s1 = t1 /\ s2 = t2.
Proof.
  intros s1 s2 t1 t2 A B C D0 H L. pose proof PI_RGT_0 as P0. assert (I0 : 0 < / PI) by (apply Rinv_0_lt_compat; exact P0).
  assert (SC : forall a b, a < b <-> a / PI < b / PI).
  { intros a b. split; intro Q; [apply Rmult_lt_compat_r; lra|]. apply (Rmult_lt_reg_r (/ PI)); [exact I0 | exact Q]. }
  assert (LE : forall a b, a <= b -> a / PI <= b / PI) by (intros a b Q; apply Rmult_le_compat_r; lra).
  assert (Z0 : 0 / PI = 0) by (unfold Rdiv; ring). assert (Z1 : PI / PI = 1) by (field; lra).
  destruct (same_part (s1 / PI) (s2 / PI) (t1 / PI) (t2 / PI)) as [E1 E2].
  - rewrite <- Z0. split; apply LE; lra.
  - rewrite <- Z1. apply LE; lra.
  - rewrite <- Z0. split; apply LE; lra.
  - rewrite <- Z1. apply LE; lra.
  - intros s S N1 N2 N3 N4. assert (ES : s = s * PI / PI) by (field; lra). rewrite ES, <- !SC. apply H.
    + nra.
    + intro Q. apply N1. rewrite <- Q. exact ES.
    + intro Q. apply N2. rewrite <- Q. exact ES.
    + intro Q. apply N3. rewrite <- Q. exact ES.
    + intro Q. apply N4. rewrite <- Q. exact ES.
  - apply (proj1 (SC s1 s2)). exact L.
  - split; apply (Rmult_eq_reg_r (/ PI)); lra.
Qed.

Lemma sky_from_point_unique : forall O q nq v v', sky_from_point O q nq v -> sky_from_point O q nq v' -> v = v'.
Proof.
  intros O q nq v v' (s1 & s2 & A & B & C & I) (t1 & t2 & A' & B' & C' & I').
  assert (H : forall s, 0 < s < PI -> s <> s1 -> s <> s2 -> s <> t1 -> s <> t2 -> (s1 < s < s2 <-> t1 < s < t2)).
  { intros s S N1 N2 N3 N4. rewrite <- (C s S N1 N2). apply C'; auto. }
  destruct (Rlt_dec s1 s2) as [L|L].
  - destruct (same_angles s1 s2 t1 t2) as [-> ->]; auto; try lra. apply (is_RInt_unique (V := R_CompleteNormedModule)) in I. apply (is_RInt_unique (V := R_CompleteNormedModule)) in I'. congruence.
  - destruct (Rlt_dec t1 t2) as [L'|L'].
    + destruct (same_angles t1 t2 s1 s2) as [-> ->]; auto; try lra. intros s S N1 N2 N3 N4. symmetry. apply H; auto.
    + assert (s2 = s1) by lra. assert (t2 = t1) by lra. subst.
      apply (is_RInt_unique (V := R_CompleteNormedModule)) in I. apply (is_RInt_unique (V := R_CompleteNormedModule)) in I'. rewrite (RInt_point (V := R_CompleteNormedModule)) in I, I'. congruence.
Qed.
Lemma sky_factor_unique : forall O x nx v v', sky_factor O x nx v -> sky_factor O x nx v' -> v = v'.
Proof.
  intros O x nx v v' (F & A & I) (F' & A' & I').
  assert (E : is_RInt F' 0 1 v).
  { apply (is_RInt_ext (V := R_NormedModule) F); [|exact I]. rewrite Rmin_left, Rmax_right by lra. intros s S.
    exact (sky_from_point_unique _ _ _ _ _ (A s S) (A' s S)). }
  apply (is_RInt_unique (V := R_CompleteNormedModule)) in E. apply (is_RInt_unique (V := R_CompleteNormedModule)) in I'. congruence.
Qed.
