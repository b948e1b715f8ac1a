(** Hottel's strings are integrals of Lambert's law over what is in sight. *)
From Coq Require Import Reals List Bool Arith Lra Lia.
From Coquelicot Require Import Coquelicot.
From Verif Require Import Num SpecGeom SpecVF SpecSight.
Open Scope R_scope.

(* ------------------------------------------------------------------ calculus *)

Lemma ftc : forall (K k : R -> R) a b, a <= b -> (forall x, a <= x <= b -> is_derive K x (k x)) ->
  (forall x, a <= x <= b -> continuous k x) -> is_RInt k a b (K b - K a).
Proof.
  intros K k a b H D C. change (K b - K a) with (minus (K b) (K a)).
  apply (is_RInt_derive (V := R_CompleteNormedModule) K k); rewrite Rmin_left, Rmax_right by exact H; assumption.
Qed.

(** The part of 0 to 1 where a linear function is negative, and the integral over it. *)
Lemma clip : forall (K k : R -> R) A B Kb,
  (forall s, 0 <= s <= 1 -> is_derive K s (k s)) -> (forall s, 0 <= s <= 1 -> continuous k s) ->
  (forall s, 0 <= s <= 1 -> A * s + B = 0 -> K s = Kb) ->
  let Kc s := if Rlt_dec 0 (A * s + B) then Kb else K s in
  exists s1 s2, 0 <= s1 <= s2 /\ s2 <= 1 /\
    (forall s, 0 < s < 1 -> s <> s1 -> s <> s2 -> (A * s + B < 0 <-> s1 < s < s2)) /\
    is_RInt k s1 s2 (Kc 1 - Kc 0).
Proof.
  intros K k A B Kb D C Z Kc. unfold Kc. rewrite Rmult_0_r, Rmult_1_r, Rplus_0_l.
  assert (I0 : is_RInt k 0 0 0) by exact (is_RInt_point (V := R_NormedModule) k 0).
  destruct (Rlt_dec 0 (A + B)) as [P1 | P1], (Rlt_dec 0 B) as [P0 | P0].
  - exists 0, 0. split; [lra|]. split; [lra|]. split.
    + intros s S _ _. split; intro H; [|lra]. exfalso.
      assert (E : A * s + B = s * (A + B) + (1 - s) * B) by ring.
      assert (0 < s * (A + B)) by (apply Rmult_lt_0_compat; lra). assert (0 < (1 - s) * B) by (apply Rmult_lt_0_compat; lra). lra.
    + replace (Kb - Kb) with 0 by ring. exact I0.
  - assert (HA : 0 < A) by lra. set (r := - B / A).
    assert (R0 : 0 <= r) by (unfold r; apply Rmult_le_pos; [lra | left; apply Rinv_0_lt_compat; exact HA]).
    assert (RE : A * r + B = 0) by (unfold r; field; lra).
    assert (R1 : r <= 1) by (apply (Rmult_le_reg_l A); lra).
    exists 0, r. split; [lra|]. split; [lra|]. split.
    + intros s S N1 N2. split; intro H.
      * split; [lra|]. apply (Rmult_lt_reg_l A); lra.
      * assert (A * s < A * r) by (apply Rmult_lt_compat_l; lra). lra.
    + rewrite <- (Z r) by lra. apply ftc; [lra | intros; apply D; lra | intros; apply C; lra].
  - assert (HA : A < 0) by lra. set (r := - B / A).
    assert (RE : A * r + B = 0) by (unfold r; field; lra).
    assert (R0 : 0 < r) by (apply (Rmult_lt_reg_l (- A)); lra).
    assert (R1 : r <= 1) by (apply (Rmult_le_reg_l (- A)); lra).
    exists r, 1. split; [lra|]. split; [lra|]. split.
    + intros s S N1 N2. split; intro H.
      * split; [|lra]. apply (Rmult_lt_reg_l (- A)); lra.
      * assert (- A * r < - A * s) by (apply Rmult_lt_compat_l; lra). lra.
    + rewrite <- (Z r) by lra. apply ftc; [lra | intros; apply D; lra | intros; apply C; lra].
  - destruct (Req_dec B 0) as [B0 | B0]; [destruct (Req_dec A 0) as [A0 | A0]|].
    + exists 0, 0. split; [lra|]. split; [lra|]. split.
      * intros s S _ _. subst. lra.
      * rewrite (Z 0), (Z 1) by (subst; lra). replace (Kb - Kb) with 0 by ring. exact I0.
    + exists 0, 1. split; [lra|]. split; [lra|]. split.
      * intros s S _ _. split; intro H; [lra|]. subst B. assert (A < 0) by lra.
        assert (0 < s * - A) by (apply Rmult_lt_0_compat; lra). lra.
      * apply ftc; [lra | exact D | exact C].
    + exists 0, 1. split; [lra|]. split; [lra|]. split.
      * intros s S _ _. split; intro H; [lra|].
        assert (E : A * s + B = s * (A + B) + (1 - s) * B) by ring.
        assert (0 < (1 - s) * - B) by (apply Rmult_lt_0_compat; lra).
        assert (0 <= s * - (A + B)) by (apply Rmult_le_pos; lra). lra.
      * apply ftc; [lra | exact D | exact C].
Qed.

(** A function that follows [T2] where a linear function is positive and [T1] elsewhere. *)
Lemma bent : forall (T1 T2 c1 c2 : R -> R) A B,
  (forall s, 0 <= s <= 1 -> is_derive T1 s (c1 s)) -> (forall s, 0 <= s <= 1 -> continuous c1 s) ->
  (forall s, 0 <= s <= 1 -> is_derive T2 s (c2 s)) -> (forall s, 0 <= s <= 1 -> continuous c2 s) ->
  (forall s, 0 <= s <= 1 -> A * s + B = 0 -> T1 s = T2 s) ->
  let pick (f g : R -> R) s := if Rlt_dec 0 (A * s + B) then g s else f s in
  is_RInt (pick c1 c2) 0 1 (pick T1 T2 1 - pick T1 T2 0).
Proof.
  intros T1 T2 c1 c2 A B D1 C1 D2 C2 Z pick.
  assert (E1 : forall a b, 0 <= a <= b -> b <= 1 -> (forall s, a < s < b -> A * s + B <= 0) -> is_RInt (pick c1 c2) a b (T1 b - T1 a)).
  { intros a b H1 H2 H. apply (is_RInt_ext (V := R_NormedModule) c1).
    - rewrite Rmin_left, Rmax_right by lra. intros s S. unfold pick. destruct (Rlt_dec 0 (A * s + B)); [|reflexivity]. specialize (H s S). lra.
    - apply ftc; [lra | intros; apply D1; lra | intros; apply C1; lra]. }
  assert (E2 : forall a b, 0 <= a <= b -> b <= 1 -> (forall s, a < s < b -> 0 < A * s + B) -> is_RInt (pick c1 c2) a b (T2 b - T2 a)).
  { intros a b H1 H2 H. apply (is_RInt_ext (V := R_NormedModule) c2).
    - rewrite Rmin_left, Rmax_right by lra. intros s S. unfold pick. destruct (Rlt_dec 0 (A * s + B)); [reflexivity|]. specialize (H s S). lra.
    - apply ftc; [lra | intros; apply D2; lra | intros; apply C2; lra]. }
  assert (MIX : forall s, 0 < s < 1 -> A * s + B = s * (A * 1 + B) + (1 - s) * (A * 0 + B)) by (intros; ring).
  change (pick T1 T2 1) with (if Rlt_dec 0 (A * 1 + B) then T2 1 else T1 1). change (pick T1 T2 0) with (if Rlt_dec 0 (A * 0 + B) then T2 0 else T1 0).
  destruct (Rlt_dec 0 (A * 1 + B)) as [P1 | P1], (Rlt_dec 0 (A * 0 + B)) as [P0 | P0].
  - apply E2; try lra. intros s S. rewrite MIX by lra.
    assert (0 < s * (A * 1 + B)) by (apply Rmult_lt_0_compat; lra). assert (0 < (1 - s) * (A * 0 + B)) by (apply Rmult_lt_0_compat; lra). lra.
  - assert (HA : 0 < A) by lra. set (r := - B / A).
    assert (RE : A * r + B = 0) by (unfold r; field; lra).
    assert (R0 : 0 <= r) by (apply (Rmult_le_reg_l A); lra).
    assert (R1 : r <= 1) by (apply (Rmult_le_reg_l A); lra).
    replace (T2 1 - T1 0) with (plus (T1 r - T1 0) (T2 1 - T2 r)) by (rewrite (Z r) by lra; unfold plus; cbn; ring).
    apply (is_RInt_Chasles (V := R_NormedModule) _ 0 r 1); [apply E1 | apply E2]; try lra.
    + intros s S. assert (A * s < A * r) by (apply Rmult_lt_compat_l; lra). lra.
    + intros s S. assert (A * r < A * s) by (apply Rmult_lt_compat_l; lra). lra.
  - assert (HA : A < 0) by lra. set (r := - B / A).
    assert (RE : A * r + B = 0) by (unfold r; field; lra).
    assert (R0 : 0 <= r) by (apply (Rmult_le_reg_l (- A)); lra).
    assert (R1 : r <= 1) by (apply (Rmult_le_reg_l (- A)); lra).
    replace (T1 1 - T2 0) with (plus (T2 r - T2 0) (T1 1 - T1 r)) by (rewrite (Z r) by lra; unfold plus; cbn; ring).
    apply (is_RInt_Chasles (V := R_NormedModule) _ 0 r 1); [apply E2 | apply E1]; try lra.
    + intros s S. assert (- A * s < - A * r) by (apply Rmult_lt_compat_l; lra). lra.
    + intros s S. assert (- A * r < - A * s) by (apply Rmult_lt_compat_l; lra). lra.
  - apply E1; try lra. intros s S. rewrite MIX by lra.
    assert (0 <= s * - (A * 1 + B)) by (apply Rmult_le_pos; lra). assert (0 <= (1 - s) * - (A * 0 + B)) by (apply Rmult_le_pos; lra). lra.
Qed.

(* ----------------------------------------------------------- distances and cosines *)

Definition way (l : line) : R * R := (px (b2 l) - px (b1 l), py (b2 l) - py (b1 l)).
Definition cosine (v : R * R) (q p : pt) : R := ahead v q p / euclid q p.

Lemma euclid_sym : forall p q, euclid p q = euclid q p.
Proof. intros. unfold euclid, dist2. f_equal. ring. Qed.
Lemma euclid_pos : forall q p, 0 < dist2 q p -> 0 < euclid q p.
Proof. intros. apply sqrt_lt_R0. assumption. Qed.
Lemma euclid_sq : forall q p, euclid q p * euclid q p = dist2 q p.
Proof. intros. unfold euclid. apply sqrt_sqrt. unfold dist2. pose proof (Rle_0_sqr (px q - px p)). pose proof (Rle_0_sqr (py q - py p)). unfold Rsqr in *. lra. Qed.

Lemma dist_derive : forall g x s, 0 < dist2 g (point_at x s) ->
  is_derive (fun s => euclid g (point_at x s)) s (cosine (way x) g (point_at x s)).
Proof.
  intros [gx gy] [[x1 y1] [x2 y2]] s H. unfold cosine, ahead, way, euclid. unfold dist2, point_at in *. cbn [fst snd px py b1 b2] in *.
  auto_derive.
  - exact H.
  - unfold Rminus in *. match goal with |- context [sqrt ?e] => set (S := e) in * end.
    assert (0 < sqrt S) by (apply sqrt_lt_R0; exact H). field. lra.
Qed.

(** Cosine of the angle between a fixed direction and the way to a point that moves along a
    segment. *)
Lemma cosine_derive : forall v q y s, 0 < dist2 q (point_at y s) ->
  is_derive (fun s => cosine v q (point_at y s)) s
    ((fst v * (py (point_at y s) - py q) - snd v * (px (point_at y s) - px q)) *
     (fst (way y) * (py (point_at y s) - py q) - snd (way y) * (px (point_at y s) - px q)) / (euclid q (point_at y s)) ^ 3).
Proof.
  intros [vx vy] [gx gy] [[x1 y1] [x2 y2]] s H. unfold cosine, ahead, way, euclid. unfold dist2, point_at in *. cbn [fst snd px py b1 b2] in *.
  auto_derive.
  - split; [exact H|]. split; [|exact Logic.I]. apply Rgt_not_eq. apply sqrt_lt_R0. exact H.
  - unfold Rminus in *. match goal with |- context [sqrt ?e] => set (S := e) in * end.
    assert (Q : 0 < sqrt S) by (apply sqrt_lt_R0; exact H). assert (E : sqrt S * sqrt S = S) by (apply sqrt_sqrt; lra).
    apply (Rmult_eq_reg_r (sqrt S ^ 3)); [|apply pow_nonzero; lra].
    transitivity ((vx * (x2 + - x1) + vy * (y2 + - y1)) * (sqrt S * sqrt S) - (vx * (x1 + s * (x2 + - x1) + - gx) + vy * (y1 + s * (y2 + - y1) + - gy)) *
       ((x2 + - x1) * (x1 + s * (x2 + - x1) + - gx) + (y2 + - y1) * (y1 + s * (y2 + - y1) + - gy))).
    + field. lra.
    + unfold Rdiv. rewrite Rmult_assoc, Rinv_l, Rmult_1_r by (apply pow_nonzero; lra). rewrite E. unfold S. ring.
Qed.

Lemma lambert_continuous : forall q nq y ny c s, 0 < dist2 q (point_at y s) ->
  continuous (fun s => lambert q nq (point_at y s) ny * c) s.
Proof.
  intros [gx gy] [nx ny'] [[x1 y1] [x2 y2]] [mx my] c s H. apply (ex_derive_continuous (K := R_AbsRing) (V := R_NormedModule)).
  unfold lambert, ahead, euclid. unfold dist2, point_at in *. cbn [fst snd px py b1 b2] in *.
  assert (Q : sqrt ((gx - (x1 + s * (x2 - x1))) * (gx - (x1 + s * (x2 - x1))) + (gy - (y1 + s * (y2 - y1))) * (gy - (y1 + s * (y2 - y1)))) <> 0).
  { apply Rgt_not_eq, sqrt_lt_R0. exact H. }
  auto_derive. repeat split; try exact H; try exact Q. apply Rmult_integral_contrapositive_currified; [lra | exact Q].
Qed.

Lemma cosine_continuous : forall v g x s, 0 < dist2 g (point_at x s) ->
  continuous (fun s => cosine v g (point_at x s)) s.
Proof.
  intros v g x s H. apply (ex_derive_continuous (K := R_AbsRing) (V := R_NormedModule)).
  eexists. apply cosine_derive. exact H.
Qed.

(** Lambert's law along a segment is the derivative of half a cosine. *)
Lemma lambert_primitive : forall q v k e y ny, 
  fst ny * euclid (b1 y) (b2 y) = e * snd (way y) -> snd ny * euclid (b1 y) (b2 y) = - e * fst (way y) ->
  forall s, 0 < dist2 q (point_at y s) ->
  is_derive (fun s => - (k * e / 2) * cosine v q (point_at y s)) s
    (lambert q (k * snd v, - k * fst v) (point_at y s) ny * euclid (b1 y) (b2 y)).
Proof.
  intros q v k e y ny N1 N2 s H.
  pose proof (is_derive_scal (fun s => cosine v q (point_at y s)) s (- (k * e / 2)) _ (cosine_derive v q y s H)) as D.
  pose proof (euclid_pos _ _ H) as Q.
  match type of D with is_derive _ _ ?d => replace (lambert _ _ _ _ * _) with d; [exact D|] end.
  unfold lambert, ahead. cbn [fst snd].
  set (p := point_at y s) in *.
  transitivity ((k * snd v * (px p - px q) + - k * fst v * (py p - py q)) *
     (fst ny * euclid (b1 y) (b2 y) * (px q - px p) + snd ny * euclid (b1 y) (b2 y) * (py q - py p)) / (2 * euclid q p ^ 3)).
  - rewrite N1, N2. field. lra.
  - field. lra.
Qed.

(** Two points in the same direction. *)
Lemma cosine_between : forall v q p t, 0 < dist2 q p -> 0 < t -> cosine v q (point_at (Line q p) t) = cosine v q p.
Proof.
  intros v q p t H T. pose proof (euclid_pos _ _ H) as Q. unfold cosine.
  assert (E : euclid q (point_at (Line q p) t) = t * euclid q p).
  { unfold euclid. replace (dist2 q (point_at (Line q p) t)) with (t * t * dist2 q p) by (unfold dist2, point_at; cbn; ring).
    rewrite sqrt_mult by nra. rewrite sqrt_square by lra. reflexivity. }
  rewrite E. unfold ahead, point_at. cbn [px py b1 b2]. field. lra.
Qed.
Lemma euclid_between : forall q p t, 0 <= t <= 1 -> euclid q (point_at (Line q p) t) + euclid (point_at (Line q p) t) p = euclid q p.
Proof.
  intros q p t T. unfold euclid.
  replace (dist2 q (point_at (Line q p) t)) with (t * t * dist2 q p) by (unfold dist2, point_at; cbn; ring).
  replace (dist2 (point_at (Line q p) t) p) with ((1 - t) * (1 - t) * dist2 q p) by (unfold dist2, point_at; cbn; ring).
  assert (0 <= dist2 q p) by (rewrite <- euclid_sq; apply Rle_0_sqr).
  rewrite (sqrt_mult (t * t)), (sqrt_mult ((1 - t) * (1 - t))) by nra. rewrite !sqrt_square by lra. ring.
Qed.

(* ------------------------------------------------------------------ view factors *)

Lemma in_sight_sym : forall O q nq p np, in_sight O q nq p np -> in_sight O p np q nq.
Proof.
  intros O q nq p np (A & B & C). split; [exact B|]. split; [exact A|]. intros s S Z. apply (C (1 - s)); [lra|].
  replace (point_at (Line q p) (1 - s)) with (point_at (Line p q) s); [exact Z|]. unfold point_at. cbn. f_equal; ring.
Qed.

Definition flip (l : line) : line := Line (b2 l) (b1 l).
Lemma point_at_flip : forall l s, point_at (flip l) s = point_at l (1 - s).
Proof. intros. unfold point_at, flip. cbn. f_equal; ring. Qed.

Lemma is_RInt_flip : forall (f : R -> R) a b v, is_RInt f a b v -> is_RInt (fun s => f (1 - s)) (1 - b) (1 - a) v.
Proof.
  intros f a b v H. 
  assert (G : is_RInt f (-1 * (1 - a) + 1) (-1 * (1 - b) + 1) v) by (replace (-1 * (1 - a) + 1) with a by ring; replace (-1 * (1 - b) + 1) with b by ring; exact H).
  apply (is_RInt_comp_lin (V := R_NormedModule)) in G. apply (is_RInt_swap (V := R_NormedModule)) in G.
  apply (is_RInt_opp (V := R_NormedModule)) in G. rewrite opp_opp in G.
  apply (is_RInt_ext (V := R_NormedModule) (fun y => opp (scal (-1) (f (-1 * y + 1))))); [|exact G].
  intros x _. unfold opp, scal; cbn. unfold mult; cbn. replace (-1 * x + 1) with (1 - x) by ring. ring.
Qed.

Lemma view_flip_y : forall O q nq y ny v, view_from_point O q nq y ny v -> view_from_point O q nq (flip y) ny v.
Proof.
  intros O q nq y ny v (s1 & s2 & A & B & C & D). exists (1 - s2), (1 - s1). split; [lra|]. split; [lra|]. split.
  - intros s S N1 N2. rewrite point_at_flip. rewrite (C (1 - s)) by lra. lra.
  - apply is_RInt_flip in D. apply (is_RInt_ext (V := R_NormedModule) (fun s => lambert q nq (point_at y (1 - s)) ny * euclid (b1 y) (b2 y))); [|exact D].
    intros s _. rewrite point_at_flip. cbn [flip b1 b2]. rewrite (euclid_sym (b2 y)). reflexivity.
Qed.
Lemma factor_flip_y : forall O x nx y ny v, view_factor O x nx y ny v -> view_factor O x nx (flip y) ny v.
Proof. intros O x nx y ny v (F & A & B). exists F. split; [|exact B]. intros s S. apply view_flip_y. auto. Qed.
Lemma factor_flip_x : forall O x nx y ny v, view_factor O x nx y ny v -> view_factor O (flip x) nx y ny v.
Proof.
  intros O x nx y ny v (F & A & B). exists (fun s => F (1 - s)). split.
  - intros s S. rewrite point_at_flip. apply A. lra.
  - apply is_RInt_flip in B. replace (1 - 1) with 0 in B by ring. replace (1 - 0) with 1 in B by ring. exact B.
Qed.

(** Nothing in sight. *)
Lemma factor_none : forall O x nx y ny,
  (forall s s', 0 < s < 1 -> 0 < s' < 1 -> ~ in_sight O (point_at x s) nx (point_at y s') ny) -> view_factor O x nx y ny 0.
Proof.
  intros O x nx y ny H. exists (fun _ => 0). split.
  - intros s S. exists 0, 0. split; [lra|]. split; [lra|]. split.
    + intros s' S' _ _. split; [intro C; destruct (H s s' S S' C) | lra].
    + exact (is_RInt_point (V := R_NormedModule) _ 0).
  - pose proof (is_RInt_const (V := R_NormedModule) 0 1 0) as C. unfold scal in C; cbn in C. unfold mult in C; cbn in C.
    replace ((1 - 0) * 0) with 0 in C by ring. exact C.
Qed.

(** There is only one view factor. *)
Lemma same_part : forall s1 s2 t1 t2, 0 <= s1 <= s2 -> s2 <= 1 -> 0 <= t1 <= t2 -> t2 <= 1 ->
  (forall s, 0 < s < 1 -> s <> s1 -> s <> s2 -> s <> t1 -> s <> t2 -> (s1 < s < s2 <-> t1 < s < t2)) ->
  s1 < s2 -> s1 = t1 /\ s2 = t2.
Proof.
  intros s1 s2 t1 t2 A B C D H L.
  assert (M : t1 < t2).
  { apply Rnot_le_lt. intro Q. assert (t2 = t1) by lra. subst t2.
    destruct (Rle_lt_dec t1 ((s1 + s2) / 2)) as [X|X].
    - destruct (H (((s1 + s2) / 2 + s2) / 2) ltac:(lra) ltac:(lra) ltac:(lra) ltac:(lra) ltac:(lra)) as [Y _]. lra.
    - destruct (H ((s1 + (s1 + s2) / 2) / 2) ltac:(lra) ltac:(lra) ltac:(lra) ltac:(lra) ltac:(lra)) as [Y _]. lra. }
  assert (W : forall a b c d, 0 <= a -> a < b -> b <= 1 -> 0 <= c -> c < d -> d <= 1 -> 
     (forall s, 0 < s < 1 -> s <> a -> s <> b -> s <> c -> s <> d -> (a < s < b -> c < s < d)) -> c <= a /\ b <= d).
  { clear. intros a b c d A B C D E F H. split; apply Rnot_lt_le; intro Q.
    - destruct (Rle_lt_dec b c) as [X|X].
      + specialize (H ((a + b) / 2) ltac:(lra) ltac:(lra) ltac:(lra) ltac:(lra) ltac:(lra) ltac:(lra)). lra.
      + specialize (H ((a + c) / 2) ltac:(lra) ltac:(lra) ltac:(lra) ltac:(lra) ltac:(lra) ltac:(lra)). lra.
    - destruct (Rle_lt_dec d a) as [X|X].
      + specialize (H ((a + b) / 2) ltac:(lra) ltac:(lra) ltac:(lra) ltac:(lra) ltac:(lra) ltac:(lra)). lra.
      + specialize (H ((b + d) / 2) ltac:(lra) ltac:(lra) ltac:(lra) ltac:(lra) ltac:(lra) ltac:(lra)). lra. }
  destruct (W s1 s2 t1 t2) as [W1 W2]; try lra.
  { intros s S N1 N2 N3 N4 K. apply (H s S N1 N2 N3 N4). exact K. }
  destruct (W t1 t2 s1 s2) as [W3 W4]; try lra.
  intros s S N1 N2 N3 N4 K. apply (H s S N3 N4 N1 N2). exact K.
Qed.

Lemma view_from_point_unique : forall O q nq y ny v v', view_from_point O q nq y ny v -> view_from_point O q nq y ny v' -> v = v'.
Proof.
  intros O q nq y ny v v' (s1 & s2 & A & B & C & I) (t1 & t2 & A' & B' & C' & I').
  assert (H : forall s, 0 < s < 1 -> s <> s1 -> s <> s2 -> s <> t1 -> s <> t2 -> (s1 < s < s2 <-> t1 < s < t2)).
  { intros s S N1 N2 N3 N4. rewrite <- (C s S N1 N2). apply C'; auto. }
  destruct (Rlt_dec s1 s2) as [L|L].
  - destruct (same_part s1 s2 t1 t2) as [-> ->]; auto; try lra. apply (is_RInt_unique (V := R_CompleteNormedModule)) in I. apply (is_RInt_unique (V := R_CompleteNormedModule)) in I'. congruence.
  - destruct (Rlt_dec t1 t2) as [L'|L'].
    + destruct (same_part t1 t2 s1 s2) as [-> ->]; auto; try lra. intros s S N1 N2 N3 N4. symmetry. apply H; auto.
    + assert (s2 = s1) by lra. assert (t2 = t1) by lra. subst.
      apply (is_RInt_unique (V := R_CompleteNormedModule)) in I. apply (is_RInt_unique (V := R_CompleteNormedModule)) in I'. rewrite (RInt_point (V := R_CompleteNormedModule)) in I, I'. congruence.
Qed.

Lemma view_factor_unique : forall O x nx y ny v v', view_factor O x nx y ny v -> view_factor O x nx y ny v' -> v = v'.
Proof.
  intros O x nx y ny v v' (F & A & I) (F' & A' & I').
  assert (E : is_RInt F' 0 1 v).
  { apply (is_RInt_ext (V := R_NormedModule) F); [|exact I]. rewrite Rmin_left, Rmax_right by lra. intros s S.
    exact (view_from_point_unique _ _ _ _ _ _ _ (A s S) (A' s S)). }
  apply (is_RInt_unique (V := R_CompleteNormedModule)) in E. apply (is_RInt_unique (V := R_CompleteNormedModule)) in I'. congruence.
Qed.

(** The general case: what is in sight of each other is where a bilinear function is negative;
    where it is positive the string between the two points bends at [o]. *)
Section Strings.
Variables (O : pt -> Prop) (x y : line) (nx ny : R * R) (o : pt) (k e a0 a1 a2 a3 : R).
Let X := point_at x.
Let Y := point_at y.
Let ell (s s' : R) : R := a0 + a1 * s + a2 * s' + a3 * (s * s').
Definition string_at (s s' : R) : R :=
  if Rlt_dec 0 (a0 + a1 * s + a2 * s' + a3 * (s * s')) then euclid (point_at x s) o + euclid o (point_at y s') else euclid (point_at x s) (point_at y s').
Hypothesis Hx1 : fst nx * euclid (b1 x) (b2 x) = k * snd (way x).
Hypothesis Hx2 : snd nx * euclid (b1 x) (b2 x) = - k * fst (way x).
Hypothesis Hy1 : fst ny * euclid (b1 y) (b2 y) = e * snd (way y).
Hypothesis Hy2 : snd ny * euclid (b1 y) (b2 y) = - e * fst (way y).
Hypothesis Lx : 0 < euclid (b1 x) (b2 x).
Hypothesis XY : forall s s', 0 <= s <= 1 -> 0 <= s' <= 1 -> 0 < dist2 (X s) (Y s').
Hypothesis XO : forall s, 0 <= s <= 1 -> 0 < dist2 (X s) o.
Hypothesis COL : forall s s', 0 <= s <= 1 -> 0 <= s' <= 1 -> ell s s' = 0 -> exists t, 0 < t <= 1 /\ o = point_at (Line (X s) (Y s')) t.
Hypothesis SEE : forall s s', 0 < s < 1 -> 0 < s' < 1 -> (in_sight O (X s) nx (Y s') ny <-> ell s s' < 0).

Let len := euclid (b1 x) (b2 x).
Let v := (fst (way x) / len, snd (way x) / len).

Lemma strings_view : view_factor O x nx y ny (k * e / (2 * len) * (string_at 1 1 - string_at 0 1 - string_at 1 0 + string_at 0 0)).
Proof.
  assert (NX : nx = (k * snd v, - k * fst v)).
  { unfold v. cbn [fst snd]. fold len in Lx, Hx1, Hx2. rewrite (surjective_pairing nx). f_equal; apply (Rmult_eq_reg_r len); try lra.
    - rewrite Hx1. field. lra.
    - rewrite Hx2. field. lra. }
  set (tgt := fun s s' => if Rlt_dec 0 (ell s s') then cosine v (X s) o else cosine v (X s) (Y s')).
  exists (fun s => - (k * e / 2) * tgt s 1 - - (k * e / 2) * tgt s 0). split.
  - intros s S. fold (X s).
    destruct (clip (fun s' => - (k * e / 2) * cosine v (X s) (Y s')) (fun s' => lambert (X s) nx (Y s') ny * euclid (b1 y) (b2 y))
                (a2 + a3 * s) (a0 + a1 * s) (- (k * e / 2) * cosine v (X s) o)) as (s1 & s2 & A & B & C & D).
    + intros s' S'. rewrite NX. apply lambert_primitive; [exact Hy1 | exact Hy2 | apply XY; lra].
    + intros s' S'. apply lambert_continuous. apply XY; lra.
    + intros s' S' Z. assert (S0 : 0 <= s <= 1) by lra. assert (Z' : ell s s' = 0) by (rewrite <- Z; unfold ell; ring).
      destruct (COL s s' S0 S' Z') as (t & T & ->). f_equal. symmetry. apply cosine_between; [apply XY; lra | lra].
    + exists s1, s2. split; [exact A|]. split; [exact B|]. split.
      * intros s' S' N1 N2. fold (Y s'). rewrite (SEE s s' S S'). rewrite <- (C s' S' N1 N2).
        assert (EE : ell s s' = (a2 + a3 * s) * s' + (a0 + a1 * s)) by (unfold ell; ring). rewrite EE. reflexivity.
      * revert D. cbv beta zeta. unfold tgt.
        replace (ell s 1) with ((a2 + a3 * s) * 1 + (a0 + a1 * s)) by (unfold ell; ring).
        replace (ell s 0) with ((a2 + a3 * s) * 0 + (a0 + a1 * s)) by (unfold ell; ring).
        intro D. destruct (Rlt_dec 0 ((a2 + a3 * s) * 1 + (a0 + a1 * s))), (Rlt_dec 0 ((a2 + a3 * s) * 0 + (a0 + a1 * s))); exact D.
  - assert (ST : forall s', 0 <= s' <= 1 -> is_RInt (fun s => - len * tgt s s') 0 1 (string_at 1 s' - string_at 0 s')).
    { intros s' S'.
      pose proof (bent (fun s => euclid (Y s') (X s)) (fun s => euclid o (Y s') + euclid o (X s))
                   (fun s => cosine (way x) (Y s') (X s)) (fun s => cosine (way x) o (X s)) (a1 + a3 * s') (a0 + a2 * s')) as W.
      cbv beta zeta in W.
      apply (is_RInt_ext (V := R_NormedModule)
         (fun s => if Rlt_dec 0 ((a1 + a3 * s') * s + (a0 + a2 * s')) then cosine (way x) o (X s) else cosine (way x) (Y s') (X s))).
      { intros s _. unfold tgt. replace (ell s s') with ((a1 + a3 * s') * s + (a0 + a2 * s')) by (unfold ell; ring).
        assert (CC : forall g, cosine (way x) g (X s) = - len * cosine v (X s) g).
        { intro g. unfold cosine. rewrite (euclid_sym g). unfold v, ahead. cbn [fst snd]. fold len in Lx. unfold Rdiv. set (i := / euclid (X s) g). field. lra. }
        rewrite !CC. destruct (Rlt_dec 0 ((a1 + a3 * s') * s + (a0 + a2 * s'))); reflexivity. }
      replace (string_at 1 s' - string_at 0 s') with
        ((if Rlt_dec 0 ((a1 + a3 * s') * 1 + (a0 + a2 * s')) then euclid o (Y s') + euclid o (X 1) else euclid (Y s') (X 1)) -
         (if Rlt_dec 0 ((a1 + a3 * s') * 0 + (a0 + a2 * s')) then euclid o (Y s') + euclid o (X 0) else euclid (Y s') (X 0))).
      - apply W.
        + intros s S. apply dist_derive. replace (dist2 (Y s') (point_at x s)) with (dist2 (X s) (Y s')) by (unfold dist2, X; ring). apply XY; lra.
        + intros s S. apply cosine_continuous. replace (dist2 (Y s') (point_at x s)) with (dist2 (X s) (Y s')) by (unfold dist2, X; ring). apply XY; lra.
        + intros s S. replace (cosine (way x) o (X s)) with (plus 0 (cosine (way x) o (X s))) by (unfold plus; cbn; ring).
          apply (is_derive_plus (V := R_NormedModule) (fun _ => euclid o (Y s'))).
          * apply (is_derive_const (V := R_NormedModule)).
          * apply dist_derive. replace (dist2 o (point_at x s)) with (dist2 (X s) o) by (unfold dist2, X; ring). apply XO; lra.
        + intros s S. apply cosine_continuous. replace (dist2 o (point_at x s)) with (dist2 (X s) o) by (unfold dist2, X; ring). apply XO; lra.
        + intros s S Z. destruct (COL s s' S S') as (t & T & E); [unfold ell; rewrite <- Z; ring|].
          rewrite (euclid_sym (Y s')), (euclid_sym o (X s)), Rplus_comm. rewrite E. symmetry. apply euclid_between. lra.
      - unfold string_at. fold (Y s') (X 1) (X 0).
        replace (a0 + a1 * 1 + a2 * s' + a3 * (1 * s')) with ((a1 + a3 * s') * 1 + (a0 + a2 * s')) by ring.
        replace (a0 + a1 * 0 + a2 * s' + a3 * (0 * s')) with ((a1 + a3 * s') * 0 + (a0 + a2 * s')) by ring.
        rewrite !(euclid_sym o (X _)), !(euclid_sym (Y s')), !(Rplus_comm (euclid o (Y s'))). reflexivity. }
    pose proof (ST 1 ltac:(lra)) as S1. pose proof (ST 0 ltac:(lra)) as S0.
    apply (is_RInt_scal (V := R_NormedModule) _ _ _ (k * e / (2 * len))) in S1. apply (is_RInt_scal (V := R_NormedModule) _ _ _ (k * e / (2 * len))) in S0.
    pose proof (is_RInt_minus (V := R_NormedModule) _ _ _ _ _ _ S1 S0) as D.
    assert (LP : 0 < len) by exact Lx.
    match type of D with is_RInt _ _ _ ?d => replace (k * e / (2 * len) * _) with d end.
    + apply (is_RInt_ext (V := R_NormedModule)) with (2 := D). intros s _. unfold minus, plus, opp, scal; cbn. unfold mult; cbn. field. lra.
    + unfold minus, plus, opp, scal; cbn. unfold mult; cbn. ring.
Qed.
End Strings.

(* ------------------------------------------------------------- from both ends *)

Section Both.
Variables (O : pt -> Prop) (x y : line) (nx ny : R * R) (o : pt) (k e a0 a1 a2 a3 : R).
Let X := point_at x.
Let Y := point_at y.
Let ell (s s' : R) : R := a0 + a1 * s + a2 * s' + a3 * (s * s').
Hypothesis Hx1 : fst nx * euclid (b1 x) (b2 x) = k * snd (way x).
Hypothesis Hx2 : snd nx * euclid (b1 x) (b2 x) = - k * fst (way x).
Hypothesis Hy1 : fst ny * euclid (b1 y) (b2 y) = e * snd (way y).
Hypothesis Hy2 : snd ny * euclid (b1 y) (b2 y) = - e * fst (way y).
Hypothesis Lx : 0 < euclid (b1 x) (b2 x).
Hypothesis Ly : 0 < euclid (b1 y) (b2 y).
Hypothesis XY : forall s s', 0 <= s <= 1 -> 0 <= s' <= 1 -> 0 < dist2 (X s) (Y s').
Hypothesis XO : forall s, 0 <= s <= 1 -> 0 < dist2 (X s) o.
Hypothesis YO : forall s, 0 <= s <= 1 -> 0 < dist2 (Y s) o.
Hypothesis COL : forall s s', 0 <= s <= 1 -> 0 <= s' <= 1 -> ell s s' = 0 -> exists t, 0 < t < 1 /\ o = point_at (Line (X s) (Y s')) t.
Hypothesis SEE : forall s s', 0 < s < 1 -> 0 < s' < 1 -> (in_sight O (X s) nx (Y s') ny <-> ell s s' < 0).

Definition bracket : R :=
  string_at x y o a0 a1 a2 a3 1 1 - string_at x y o a0 a1 a2 a3 0 1 - string_at x y o a0 a1 a2 a3 1 0 + string_at x y o a0 a1 a2 a3 0 0.

Lemma strings_both :
  view_factor O x nx y ny (k * e / (2 * euclid (b1 x) (b2 x)) * bracket) /\
  view_factor O y ny x nx (k * e / (2 * euclid (b1 y) (b2 y)) * bracket).
Proof.
  split.
  - apply strings_view; auto. intros s s' S S' Z. destruct (COL s s' S S' Z) as (t & T & E). exists t. split; [lra | exact E].
  - assert (SW : forall s s', string_at y x o a0 a2 a1 a3 s s' = string_at x y o a0 a1 a2 a3 s' s).
    { intros s s'. unfold string_at. replace (a0 + a2 * s + a1 * s' + a3 * (s * s')) with (a0 + a1 * s' + a2 * s + a3 * (s' * s)) by ring.
      rewrite (euclid_sym (point_at y s)), (euclid_sym o (point_at x s')), (euclid_sym (point_at y s) (point_at x s')), (Rplus_comm (euclid o _)). reflexivity. }
    replace (k * e / (2 * euclid (b1 y) (b2 y)) * bracket) with
      (e * k / (2 * euclid (b1 y) (b2 y)) * (string_at y x o a0 a2 a1 a3 1 1 - string_at y x o a0 a2 a1 a3 0 1 - string_at y x o a0 a2 a1 a3 1 0 + string_at y x o a0 a2 a1 a3 0 0)).
    + apply strings_view; auto.
      * intros s s' S S'. replace (dist2 (point_at y s) (point_at x s')) with (dist2 (X s') (Y s)) by (unfold dist2, X, Y; ring). apply XY; auto.
      * intros s s' S S' Z. destruct (COL s' s S' S) as (t & T & E); [unfold ell; rewrite <- Z; ring|]. exists (1 - t). split; [lra|].
        rewrite E. unfold point_at. cbn. f_equal; ring.
      * intros s s' S S'. pose proof (SEE s' s S' S) as Q. unfold ell in Q.
        replace (a0 + a2 * s + a1 * s' + a3 * (s * s')) with (a0 + a1 * s' + a2 * s + a3 * (s' * s)) by ring. rewrite <- Q.
        split; apply in_sight_sym.
    + rewrite !SW. unfold bracket. unfold Rdiv. ring.
Qed.
End Both.

(* --------------------------------------------------------------- rows above ground *)

Section Rows.
Variables (n : nat) (L0 Ly ux uy D w : R).
Hypothesis HLy : 0 < Ly.
Hypothesis Huy : 0 <= uy.
Hypothesis Hu : ux * ux + uy * uy = 1.
Hypothesis HD : 0 < D.
Hypothesis Hw : 0 < w.

Definition Pr (j : nat) (e : R) : pt := Pt (L0 + INR j * D + e * ux) (Ly + e * uy).
Definition Op (z : pt) : Prop := py z <= 0 \/ exists j e, (j < n)%nat /\ 0 <= e <= w /\ z = Pr j e.
Definition gr (z : R) : pt := Pt z 0.
Definition Mz (i : nat) (z : R) : R := uy * (z - (L0 + INR i * D)) + ux * Ly.

Lemma Pr_dist : forall i e e', euclid (Pr i e) (Pr i e') = Rabs (e' - e).
Proof.
  intros. unfold euclid. replace (dist2 (Pr i e) (Pr i e')) with (Rsqr (e' - e)).
  - apply sqrt_Rsqr_abs.
  - unfold dist2, Pr, Rsqr. cbn [px py]. replace ((e' - e) * (e' - e)) with ((e' - e) * (e' - e) * (ux * ux + uy * uy)) by (rewrite Hu; ring). ring.
Qed.
Lemma gr_dist : forall z z', euclid (gr z) (gr z') = Rabs (z' - z).
Proof.
  intros. unfold euclid. replace (dist2 (gr z) (gr z')) with (Rsqr (z' - z)) by (unfold dist2, gr, Rsqr; cbn [px py]; ring). apply sqrt_Rsqr_abs.
Qed.
Lemma above_ground : forall i e z, 0 <= e -> 0 < dist2 (Pr i e) (gr z).
Proof.
  intros i e z E. unfold dist2, Pr, gr. cbn [px py]. assert (0 < Ly + e * uy) by nra.
  assert (0 < (Ly + e * uy - 0) * (Ly + e * uy - 0)) by (rewrite Rminus_0_r; apply Rmult_lt_0_compat; lra).
  pose proof (Rle_0_sqr (L0 + INR i * D + e * ux - z)) as Q. unfold Rsqr in Q. lra.
Qed.

(** A row crosses the way from a point of row [i] to a ground point. *)
Lemma crossed : forall i e z k s j e', (k = 1 \/ k = -1) -> 0 <= e -> 0 < s < 1 -> 0 < k * Mz i z ->
  point_at (Line (Pr i e) (gr z)) s = Pr j e' ->
  s * Mz i z = (INR j - INR i) * D * uy /\ e * uy - s * (Ly + e * uy) = e' * uy.
Proof.
  intros i e z k s j e' K E S M H. unfold point_at, Pr, gr in H. cbn [b1 b2 px py] in H. injection H as H1 H2.
  assert (E2 : e * uy - s * (Ly + e * uy) = e' * uy) by lra. split; [|exact E2]. unfold Mz.
  replace (s * (uy * (z - (L0 + INR i * D)) + ux * Ly)) with
    (uy * (L0 + INR i * D + e * ux + s * (z - (L0 + INR i * D + e * ux))) - uy * (L0 + INR i * D + e * ux) + s * ux * (Ly + e * uy)) by ring.
  rewrite H1. replace (s * ux * (Ly + e * uy)) with (ux * (s * (Ly + e * uy))) by ring.
  replace (s * (Ly + e * uy)) with (e * uy - e' * uy) by lra. ring.
Qed.

Lemma int_ge1 : forall k i j, (k = 1 \/ k = -1) -> 0 < k * (INR j - INR i) -> 1 <= k * (INR j - INR i).
Proof.
  intros k i j K H. destruct K as [-> | ->].
  - assert (L : (i < j)%nat) by (apply INR_lt; lra). apply le_INR in L. rewrite S_INR in L. lra.
  - assert (L : (j < i)%nat) by (apply INR_lt; lra). apply le_INR in L. rewrite S_INR in L. lra.
Qed.

(** What a point of row [i] sees of the ground, in the direction [k]. *)
Lemma see_ground_free : forall i e z k, (k = 1 \/ k = -1) -> 0 <= e <= w -> 0 < k * Mz i z ->
  (uy = 0 \/ forall j, (j < n)%nat -> ~ 0 < k * (INR j - INR i)) ->
  in_sight Op (Pr i e) (k * uy, - k * ux) (gr z) (0, 1).
Proof.
  intros i e z k K E M NB. split; [|split].
  - unfold ahead, Pr, gr. cbn [fst snd px py]. replace (k * uy * (z - (L0 + INR i * D + e * ux)) + - k * ux * (0 - (Ly + e * uy))) with (k * Mz i z) by (unfold Mz; ring). exact M.
  - unfold ahead, Pr, gr. cbn [fst snd px py]. nra.
  - intros s S [Z | (j & e' & J & E' & Z)].
    + unfold point_at, Pr, gr in Z. cbn [b1 b2 px py] in Z. assert (0 < (1 - s) * (Ly + e * uy)) by (apply Rmult_lt_0_compat; nra). lra.
    + destruct (crossed _ _ _ _ _ _ _ K (proj1 E) S M Z) as [C1 C2].
      assert (SM : 0 < k * (s * Mz i z)) by (replace (k * (s * Mz i z)) with (s * (k * Mz i z)) by ring; apply Rmult_lt_0_compat; lra).
      rewrite C1 in SM. destruct NB as [U | NB].
      * rewrite U in SM. lra.
      * apply (NB j J). apply Rnot_le_lt. intro Q. assert (k * (INR j - INR i) * (D * uy) <= 0) by (assert (0 <= D * uy) by nra; nra). lra.
Qed.

Lemma see_ground : forall i i' e z k, (k = 1 \/ k = -1) -> 0 <= e <= w -> 0 < k * Mz i z -> 0 < uy ->
  (i' < n)%nat -> INR i' = INR i + k ->
  (in_sight Op (Pr i e) (k * uy, - k * ux) (gr z) (0, 1) <-> k * e * Mz i z - D * (Ly + e * uy) < 0).
Proof.
  intros i i' e z k K E M U Hi' Ei'. assert (KK : k * k = 1) by (destruct K as [-> | ->]; ring).
  assert (HP : 0 < Ly + e * uy) by nra. split.
  - intros (_ & _ & H). apply Rnot_le_lt. intro Q.
    set (s := D * uy / (k * Mz i z)).
    assert (SM : s * (k * Mz i z) = D * uy) by (unfold s, Rdiv; rewrite Rmult_assoc, Rinv_l by lra; ring).
    assert (S0 : 0 < s) by (unfold s; apply Rdiv_lt_0_compat; [apply Rmult_lt_0_compat; lra | exact M]).
    assert (BND : s * (Ly + e * uy) <= e * uy).
    { apply (Rmult_le_reg_r (k * Mz i z)); [exact M|]. replace (s * (Ly + e * uy) * (k * Mz i z)) with (D * (Ly + e * uy) * uy) by (replace (s * (Ly + e * uy) * (k * Mz i z)) with (s * (k * Mz i z) * (Ly + e * uy)) by ring; rewrite SM; ring).
      replace (e * uy * (k * Mz i z)) with (k * e * Mz i z * uy) by ring. apply Rmult_le_compat_r; lra. }
    assert (S1 : s < 1). { apply (Rmult_lt_reg_r (Ly + e * uy)); [exact HP|]. lra. }
    apply (H s); [lra|]. right. exists i', ((e * uy - s * (Ly + e * uy)) / uy). split; [exact Hi'|].
    assert (EE : (e * uy - s * (Ly + e * uy)) / uy * uy = e * uy - s * (Ly + e * uy)) by (field; lra). split.
    + split.
      * apply (Rmult_le_reg_r uy); [exact U|]. rewrite EE. lra.
      * apply (Rmult_le_reg_r uy); [exact U|]. rewrite EE. assert (0 < s * (Ly + e * uy)) by (apply Rmult_lt_0_compat; lra). nra.
    + unfold point_at, Pr, gr. cbn [b1 b2 px py]. rewrite EE, Ei'. f_equal; [|ring].
      apply (Rmult_eq_reg_r uy); [|lra].
      replace ((L0 + (INR i + k) * D + (e * uy - s * (Ly + e * uy)) / uy * ux) * uy) with
        ((L0 + (INR i + k) * D) * uy + ((e * uy - s * (Ly + e * uy)) / uy * uy) * ux) by ring. rewrite EE.
      assert (SM' : s * Mz i z = k * (D * uy)) by (rewrite <- SM; replace (k * (s * (k * Mz i z))) with (k * k * (s * Mz i z)) by ring; rewrite KK; ring).
      unfold Mz in SM'. lra.
  - intro Q. split; [|split].
    + unfold ahead, Pr, gr. cbn [fst snd px py]. replace (k * uy * (z - (L0 + INR i * D + e * ux)) + - k * ux * (0 - (Ly + e * uy))) with (k * Mz i z) by (unfold Mz; ring). exact M.
    + unfold ahead, Pr, gr. cbn [fst snd px py]. lra.
    + intros s S [Z | (j & e' & J & E' & Z)].
      * unfold point_at, Pr, gr in Z. cbn [b1 b2 px py] in Z. assert (0 < (1 - s) * (Ly + e * uy)) by (apply Rmult_lt_0_compat; lra). lra.
      * destruct (crossed _ _ _ _ _ _ _ K (proj1 E) S M Z) as [C1 C2].
        assert (SM : 0 < k * (s * Mz i z)) by (replace (k * (s * Mz i z)) with (s * (k * Mz i z)) by ring; apply Rmult_lt_0_compat; lra).
        assert (J0 : 0 < k * (INR j - INR i)).
        { rewrite C1 in SM. apply Rnot_le_lt. intro Q'. assert (k * (INR j - INR i) * (D * uy) <= 0) by (assert (0 < D * uy) by (apply Rmult_lt_0_compat; lra); nra). lra. }
        apply int_ge1 in J0; [|exact K].
        assert (S1 : D * uy <= s * (k * Mz i z)).
        { replace (s * (k * Mz i z)) with (k * (s * Mz i z)) by ring. rewrite C1. replace (k * ((INR j - INR i) * D * uy)) with (k * (INR j - INR i) * (D * uy)) by ring.
          assert (0 < D * uy) by (apply Rmult_lt_0_compat; lra). nra. }
        assert (S2 : s * (Ly + e * uy) <= e * uy) by (assert (0 <= e' * uy) by nra; lra).
        assert (S3 : D * uy * (Ly + e * uy) <= e * uy * (k * Mz i z)).
        { apply Rle_trans with (s * (k * Mz i z) * (Ly + e * uy)); [apply Rmult_le_compat_r; lra|].
          replace (s * (k * Mz i z) * (Ly + e * uy)) with (s * (Ly + e * uy) * (k * Mz i z)) by ring. apply Rmult_le_compat_r; lra. }
        assert (S4 : D * (Ly + e * uy) <= e * (k * Mz i z)) by (apply (Rmult_le_reg_r uy); lra). lra.
Qed.

(** The lower edge of the next row on the way. *)
Lemma under_edge : forall i i' e z k, (k = 1 \/ k = -1) -> 0 <= e -> 0 < uy -> INR i' = INR i + k ->
  k * e * Mz i z - D * (Ly + e * uy) = 0 ->
  exists t, 0 < t < 1 /\ Pr i' 0 = point_at (Line (Pr i e) (gr z)) t.
Proof.
  intros i i' e z k K E U Ei' Q. assert (KK : k * k = 1) by (destruct K as [-> | ->]; ring).
  assert (HP : 0 < Ly + e * uy) by nra. exists (e * uy / (Ly + e * uy)).
  assert (T : e * uy / (Ly + e * uy) * (Ly + e * uy) = e * uy) by (field; lra). set (t := e * uy / (Ly + e * uy)) in *.
  assert (E0 : 0 < e). { destruct E as [E | E]; [exact E|]. subst e. assert (0 < D * (Ly + 0 * uy)) by (apply Rmult_lt_0_compat; lra). lra. }
  split; [split|].
  - unfold t. apply Rdiv_lt_0_compat; [apply Rmult_lt_0_compat; lra | exact HP].
  - apply (Rmult_lt_reg_r (Ly + e * uy)); [exact HP|]. lra.
  - unfold point_at, Pr, gr. cbn [b1 b2 px py]. f_equal; [|rewrite Rmult_0_l; lra].
    rewrite Ei'. apply (Rmult_eq_reg_r (Ly + e * uy)); [|lra].
    assert (Q' : e * Mz i z = k * (D * (Ly + e * uy))) by (replace (D * (Ly + e * uy)) with (k * e * Mz i z) by lra; replace (k * (k * e * Mz i z)) with (k * k * (e * Mz i z)) by ring; rewrite KK; ring).
    replace ((L0 + INR i * D + e * ux + t * (z - (L0 + INR i * D + e * ux))) * (Ly + e * uy)) with
      ((L0 + INR i * D + e * ux) * (Ly + e * uy) + (t * (Ly + e * uy)) * (z - (L0 + INR i * D + e * ux))) by ring. rewrite T.
    unfold Mz in Q'. lra.
Qed.

Definition dirn (left : bool) : R := if left then -1 else 1.
Lemma dirn_cases : forall left, dirn left = 1 \/ dirn left = -1.
Proof. intros []; cbn; auto. Qed.

Lemma taut_next : forall (left : bool) i i' e z, INR i' = INR i + dirn left ->
  taut_string left (Some (Pr i' 0)) (Pr i e) (gr z) =
  if Rlt_dec 0 (dirn left * e * Mz i z - D * (Ly + e * uy)) then euclid (Pr i e) (Pr i' 0) + euclid (Pr i' 0) (gr z) else euclid (Pr i e) (gr z).
Proof.
  intros left i i' e z Ei. unfold taut_string.
  replace (if left then turn (gr z) (Pr i' 0) (Pr i e) else turn (gr z) (Pr i e) (Pr i' 0)) with (dirn left * e * Mz i z - D * (Ly + e * uy)).
  - rewrite (euclid_sym (gr z) (Pr i' 0)), (euclid_sym (Pr i' 0) (Pr i e)), (euclid_sym (gr z) (Pr i e)), (Rplus_comm (euclid (Pr i' 0) (gr z))). reflexivity.
  - unfold turn, Mz, Pr, gr, dirn in *. cbn [px py]. rewrite Ei. destruct left; ring.
Qed.

Definition next_row (left : bool) (i : nat) (nb : option pt) : Prop :=
  match nb with
  | Some o => exists i', (i' < n)%nat /\ INR i' = INR i + dirn left /\ o = Pr i' 0
  | None => forall j, (j < n)%nat -> ~ 0 < dirn left * (INR j - INR i)
  end.

Lemma ground_view : forall (left : bool) i nb lo hi g1 g2, 0 <= lo < hi -> hi <= w -> g1 < g2 ->
  (forall z, g1 < z < g2 -> 0 < dirn left * Mz i z) -> next_row left i nb -> (uy = 0 -> w <= D) ->
  let v := hottel_ground left nb (Pr i lo) (Pr i hi) (gr g1) (gr g2) in
  let nx := (dirn left * uy, - dirn left * ux) in
  view_factor Op (Line (Pr i lo) (Pr i hi)) nx (Line (gr g1) (gr g2)) (0, 1) v /\
  view_factor Op (Line (gr g1) (gr g2)) (0, 1) (Line (Pr i lo) (Pr i hi)) nx ((hi - lo) / (g2 - g1) * v).
Proof.
  intros left i nb lo hi g1 g2 E1 E2 G M NB FL v nx.
  assert (LX : euclid (Pr i lo) (Pr i hi) = hi - lo) by (rewrite Pr_dist; apply Rabs_right; lra).
  assert (LY : euclid (gr g1) (gr g2) = g2 - g1) by (rewrite gr_dist; apply Rabs_right; lra).
  set (x := Line (Pr i lo) (Pr i hi)). set (y := Line (gr g1) (gr g2)).
  assert (PX : forall s, point_at x s = Pr i (lo + s * (hi - lo))) by (intro; unfold point_at, x, Pr; cbn [b1 b2 px py]; f_equal; ring).
  assert (PY : forall s, point_at y s = gr (g1 + s * (g2 - g1))) by (intro; unfold point_at, y, gr; cbn [b1 b2 px py]; f_equal; ring).
  assert (HX1 : fst nx * euclid (b1 x) (b2 x) = dirn left * snd (way x)) by (unfold nx, x, way; cbn [fst snd b1 b2]; rewrite LX; unfold Pr; cbn [px py]; ring).
  assert (HX2 : snd nx * euclid (b1 x) (b2 x) = - dirn left * fst (way x)) by (unfold nx, x, way; cbn [fst snd b1 b2]; rewrite LX; unfold Pr; cbn [px py]; ring).
  assert (HY1 : fst (0, 1) * euclid (b1 y) (b2 y) = -1 * snd (way y)) by (unfold y, way; cbn [fst snd b1 b2]; rewrite LY; unfold gr; cbn [px py]; ring).
  assert (HY2 : snd (0, 1) * euclid (b1 y) (b2 y) = - (-1) * fst (way y)) by (unfold y, way; cbn [fst snd b1 b2]; rewrite LY; unfold gr; cbn [px py]; ring).
  assert (in01 : forall s, 0 <= s <= 1 -> lo <= lo + s * (hi - lo) <= hi) by (intros s S; nra).
  assert (in01' : forall s, 0 < s < 1 -> g1 < g1 + s * (g2 - g1) < g2) by (intros s S; nra).
  assert (LX0 : 0 < euclid (b1 x) (b2 x)) by (unfold x; cbn [b1 b2]; rewrite LX; lra).
  assert (LY0 : 0 < euclid (b1 y) (b2 y)) by (unfold y; cbn [b1 b2]; rewrite LY; lra).
  assert (XYd : forall s s', 0 <= s <= 1 -> 0 <= s' <= 1 -> 0 < dist2 (point_at x s) (point_at y s')).
  { intros s s' S S'. rewrite PX, PY. apply above_ground. specialize (in01 s S). lra. }
  assert (EX : x = Line (Pr i lo) (Pr i hi)) by reflexivity. assert (EY : y = Line (gr g1) (gr g2)) by reflexivity.
  assert (X0 : point_at x 0 = Pr i lo) by (rewrite PX; f_equal; ring). assert (X1 : point_at x 1 = Pr i hi) by (rewrite PX; f_equal; ring).
  assert (Y0 : point_at y 0 = gr g1) by (rewrite PY; f_equal; ring). assert (Y1 : point_at y 1 = gr g2) by (rewrite PY; f_equal; ring).
  assert (LXx : euclid (b1 x) (b2 x) = hi - lo) by exact LX. assert (LYy : euclid (b1 y) (b2 y) = g2 - g1) by exact LY.
  destruct (Req_dec uy 0) as [U0 | Un]; [|destruct nb as [o|]].
  - (* flat rows *)
    destruct (strings_both Op x y nx (0, 1) (Pt 0 (-1)) (dirn left) (-1) (-1) 0 0 0 HX1 HX2 HY1 HY2 LX0 LY0 XYd) as [A B].
    + intros s S. rewrite PX. unfold dist2, Pr. cbn [px py]. specialize (in01 s S). assert (0 <= (lo + s * (hi - lo)) * uy) by nra.
      pose proof (Rle_0_sqr (L0 + INR i * D + (lo + s * (hi - lo)) * ux - 0)) as Q. unfold Rsqr in Q. nra.
    + intros s S. rewrite PY. unfold dist2, gr. cbn [px py]. pose proof (Rle_0_sqr (g1 + s * (g2 - g1) - 0)) as Q. unfold Rsqr in Q. lra.
    + intros s s' _ _ Z. exfalso. lra.
    + intros s s' S S'. split; [intros _; lra|]. intros _. rewrite PX, PY. apply see_ground_free; auto using dirn_cases.
      specialize (in01 s ltac:(lra)). lra.
    + assert (TS : forall e z, lo <= e <= hi -> g1 <= z <= g2 -> taut_string left nb (Pr i e) (gr z) = euclid (Pr i e) (gr z)).
      { intros e z Ee _. destruct nb as [o|]; [|unfold taut_string; apply euclid_sym]. destruct NB as (i' & Hi' & Ei' & ->).
        rewrite (taut_next left i i' e z Ei'). destruct (Rlt_dec _ _) as [C|C]; [|reflexivity]. exfalso.
        specialize (M ((g1 + g2) / 2) ltac:(lra)). unfold Mz in M, C. rewrite U0 in *. specialize (FL eq_refl).
        assert (UX : ux * ux = 1) by nra.
        assert (KU : 0 < dirn left * ux) by (apply (Rmult_lt_reg_r Ly); [exact HLy | nra]).
        assert (KU1 : dirn left * ux = 1). { assert (QQ : (dirn left * ux) * (dirn left * ux) = 1) by (destruct (dirn_cases left) as [-> | ->]; nra). nra. }
        replace (dirn left * e * (0 * (z - (L0 + INR i * D)) + ux * Ly) - D * (Ly + e * 0)) with ((dirn left * ux) * (e * Ly) - D * Ly) in C by ring.
        rewrite KU1 in C. nra. }
      assert (BR : bracket x y (Pt 0 (-1)) (-1) 0 0 0 = euclid (Pr i hi) (gr g2) - euclid (Pr i lo) (gr g2) - euclid (Pr i hi) (gr g1) + euclid (Pr i lo) (gr g1)).
      { unfold bracket, string_at. rewrite X0, X1, Y0, Y1. repeat (destruct (Rlt_dec _ _) as [?|_]; [exfalso; lra|]). reflexivity. }
      assert (VV : dirn left * -1 / (2 * euclid (b1 x) (b2 x)) * bracket x y (Pt 0 (-1)) (-1) 0 0 0 = v).
      { rewrite BR, LXx. unfold v, hottel_ground. rewrite LX. destruct left; rewrite !TS by lra; unfold dirn; field; lra. }
      rewrite VV in A. split; [exact A|].
      replace ((hi - lo) / (g2 - g1) * v) with (dirn left * -1 / (2 * euclid (b1 y) (b2 y)) * bracket x y (Pt 0 (-1)) (-1) 0 0 0); [exact B|].
      rewrite <- VV, LXx, LYy. field. lra.
  - (* a row in the way *)
    destruct NB as (i' & Hi' & Ei' & ->). assert (U : 0 < uy) by lra. set (k := dirn left) in *.
    set (m0 := Mz i g1). set (m1 := uy * (g2 - g1)).
    assert (MM : forall s', Mz i (g1 + s' * (g2 - g1)) = m0 + s' * m1) by (intro; unfold Mz, m0, m1, Mz; ring).
    set (a0 := k * lo * m0 - D * Ly - D * lo * uy). set (a1 := (hi - lo) * (k * m0 - D * uy)). set (a2 := k * lo * m1). set (a3 := k * (hi - lo) * m1).
    assert (EL : forall s s', a0 + a1 * s + a2 * s' + a3 * (s * s') = k * (lo + s * (hi - lo)) * Mz i (g1 + s' * (g2 - g1)) - D * (Ly + (lo + s * (hi - lo)) * uy)).
    { intros s s'. rewrite MM. unfold a0, a1, a2, a3. ring. }
    destruct (strings_both Op x y nx (0, 1) (Pr i' 0) k (-1) a0 a1 a2 a3 HX1 HX2 HY1 HY2 LX0 LY0 XYd) as [A B].
    + intros s S. rewrite PX. specialize (in01 s S).
      destruct (Req_dec (lo + s * (hi - lo)) 0) as [Z | Z].
      * rewrite Z. unfold dist2, Pr. cbn [px py]. rewrite Ei'.
        replace (L0 + INR i * D + 0 * ux - (L0 + (INR i + k) * D + 0 * ux)) with (- k * D) by ring.
        assert (KK : k * k = 1) by (destruct (dirn_cases left) as [Q|Q]; fold k in Q; rewrite Q; ring).
        replace (- k * D * (- k * D)) with (k * k * (D * D)) by ring. rewrite KK. nra.
      * unfold dist2, Pr. cbn [px py]. pose proof (Rle_0_sqr (L0 + INR i * D + (lo + s * (hi - lo)) * ux - (L0 + INR i' * D + 0 * ux))) as Q. unfold Rsqr in Q.
        assert (0 < (lo + s * (hi - lo)) * uy) by (apply Rmult_lt_0_compat; lra). nra.
    + intros s S. rewrite PY. replace (dist2 (gr (g1 + s * (g2 - g1))) (Pr i' 0)) with (dist2 (Pr i' 0) (gr (g1 + s * (g2 - g1)))) by (unfold dist2; ring).
      apply above_ground. lra.
    + intros s s' S S' Z. rewrite EL in Z. rewrite PX, PY. apply (under_edge i i' _ _ k); auto.
      * apply dirn_cases.
      * specialize (in01 s S). lra.
    + intros s s' S S'. rewrite EL, PX, PY. apply (see_ground i i'); auto.
      * apply dirn_cases.
      * specialize (in01 s ltac:(lra)). lra.
    + assert (TS : forall s s', string_at x y (Pr i' 0) a0 a1 a2 a3 s s' = taut_string left (Some (Pr i' 0)) (Pr i (lo + s * (hi - lo))) (gr (g1 + s' * (g2 - g1)))).
      { intros s s'. rewrite (taut_next left i i' _ _ Ei'). unfold string_at. rewrite EL, PX, PY. reflexivity. }
      assert (BR : bracket x y (Pr i' 0) a0 a1 a2 a3 = taut_string left (Some (Pr i' 0)) (Pr i hi) (gr g2) - taut_string left (Some (Pr i' 0)) (Pr i lo) (gr g2) - taut_string left (Some (Pr i' 0)) (Pr i hi) (gr g1) + taut_string left (Some (Pr i' 0)) (Pr i lo) (gr g1)).
      { unfold bracket. rewrite !TS. replace (lo + 1 * (hi - lo)) with hi by ring. replace (lo + 0 * (hi - lo)) with lo by ring.
        replace (g1 + 1 * (g2 - g1)) with g2 by ring. replace (g1 + 0 * (g2 - g1)) with g1 by ring. reflexivity. }
      assert (VV : k * -1 / (2 * euclid (b1 x) (b2 x)) * bracket x y (Pr i' 0) a0 a1 a2 a3 = v).
      { rewrite BR, LXx. unfold v, hottel_ground. rewrite LX. unfold k. destruct left; unfold dirn; field; lra. }
      rewrite VV in A. split; [exact A|].
      replace ((hi - lo) / (g2 - g1) * v) with (k * -1 / (2 * euclid (b1 y) (b2 y)) * bracket x y (Pr i' 0) a0 a1 a2 a3); [exact B|].
      rewrite <- VV, LXx, LYy. field. lra.
  - (* nothing in the way *)
    destruct (strings_both Op x y nx (0, 1) (Pt 0 (-1)) (dirn left) (-1) (-1) 0 0 0 HX1 HX2 HY1 HY2 LX0 LY0 XYd) as [A B].
    + intros s S. rewrite PX. unfold dist2, Pr. cbn [px py]. specialize (in01 s S). assert (0 <= (lo + s * (hi - lo)) * uy) by nra.
      pose proof (Rle_0_sqr (L0 + INR i * D + (lo + s * (hi - lo)) * ux - 0)) as Q. unfold Rsqr in Q. nra.
    + intros s S. rewrite PY. unfold dist2, gr. cbn [px py]. pose proof (Rle_0_sqr (g1 + s * (g2 - g1) - 0)) as Q. unfold Rsqr in Q. lra.
    + intros s s' _ _ Z. exfalso. lra.
    + intros s s' S S'. split; [intros _; lra|]. intros _. rewrite PX, PY. apply see_ground_free; auto using dirn_cases.
      specialize (in01 s ltac:(lra)). lra.
    + assert (BR : bracket x y (Pt 0 (-1)) (-1) 0 0 0 = euclid (Pr i hi) (gr g2) - euclid (Pr i lo) (gr g2) - euclid (Pr i hi) (gr g1) + euclid (Pr i lo) (gr g1)).
      { unfold bracket, string_at. rewrite X0, X1, Y0, Y1. repeat (destruct (Rlt_dec _ _) as [?|_]; [exfalso; lra|]). reflexivity. }
      assert (VV : dirn left * -1 / (2 * euclid (b1 x) (b2 x)) * bracket x y (Pt 0 (-1)) (-1) 0 0 0 = v).
      { rewrite BR, LXx. unfold v, hottel_ground, taut_string. rewrite LX. rewrite (euclid_sym (Pr i hi) (gr g1)), (euclid_sym (Pr i hi) (gr g2)), (euclid_sym (Pr i lo) (gr g1)), (euclid_sym (Pr i lo) (gr g2)). destruct left; unfold dirn; field; lra. }
      rewrite VV in A. split; [exact A|].
      replace ((hi - lo) / (g2 - g1) * v) with (dirn left * -1 / (2 * euclid (b1 y) (b2 y)) * bracket x y (Pt 0 (-1)) (-1) 0 0 0); [exact B|].
      rewrite <- VV, LXx, LYy. field. lra.
Qed.

(** Ground behind a side is not in its sight. *)
Lemma ground_behind : forall (left : bool) i e z, dirn left * Mz i z <= 0 ->
  ~ in_sight Op (Pr i e) (dirn left * uy, - dirn left * ux) (gr z) (0, 1).
Proof.
  intros left i e z H (A & _). unfold ahead, Pr, gr in A. cbn [fst snd px py] in A.
  replace (dirn left * uy * (z - (L0 + INR i * D + e * ux)) + - dirn left * ux * (0 - (Ly + e * uy))) with (dirn left * Mz i z) in A by (unfold Mz; ring). lra.
Qed.

(** Points of two rows. *)
Lemma ahead_row : forall (left : bool) i j e e', ahead (dirn left * uy, - dirn left * ux) (Pr i e) (Pr j e') = dirn left * (INR j - INR i) * (D * uy).
Proof. intros. unfold ahead, Pr. cbn [fst snd px py]. ring. Qed.

Lemma between_rows : forall i j e e' s m e'', point_at (Line (Pr i e) (Pr j e')) s = Pr m e'' -> 0 < uy ->
  s * (INR j - INR i) = INR m - INR i.
Proof.
  intros i j e e' s m e'' H U. unfold point_at, Pr in H. cbn [b1 b2 px py] in H. injection H as H1 H2.
  assert (E : e + s * (e' - e) = e'') by (apply (Rmult_eq_reg_r uy); lra). rewrite <- E in H1.
  apply (Rmult_eq_reg_r D); lra.
Qed.

Lemma see_row : forall (left left' : bool) i j e e', (i < n)%nat -> (j < n)%nat -> 0 <= e <= w -> 0 <= e' <= w ->
  in_sight Op (Pr i e) (dirn left * uy, - dirn left * ux) (Pr j e') (dirn left' * uy, - dirn left' * ux) <->
  (0 < uy /\ left' = negb left /\ INR j = INR i + dirn left).
Proof.
  intros left left' i j e e' Hi Hj E E'. split.
  - intros (A & B & C). rewrite ahead_row in A, B.
    assert (U : 0 < uy). { apply Rnot_le_lt. intro Q. assert (uy = 0) by lra. subst. rewrite H in A. lra. }
    assert (DU : 0 < D * uy) by (apply Rmult_lt_0_compat; lra).
    assert (A' : 0 < dirn left * (INR j - INR i)) by nra. assert (B' : 0 < dirn left' * (INR i - INR j)) by nra.
    split; [exact U|]. split; [destruct left, left'; cbn in *; try reflexivity; exfalso; lra|].
    pose proof (int_ge1 _ _ _ (dirn_cases left) A') as A1. destruct (Req_dec (dirn left * (INR j - INR i)) 1) as [Q | Q].
    { destruct left; cbn in *; lra. }
    exfalso. set (d := dirn left * (INR j - INR i)) in *. assert (S : 0 < / d < 1).
    { split; [apply Rinv_0_lt_compat; lra|]. rewrite <- Rinv_1. apply Rinv_lt_contravar; lra. }
    apply (C (/ d) S). right.
    assert (EX : exists m, (m < n)%nat /\ INR m = INR i + dirn left).
    { clear A1 Q S C A; unfold d in A'; clear d; destruct left; cbn [dirn] in *.
      - assert (L : (j < i)%nat) by (apply INR_lt; lra). exists (i - 1)%nat. split; [lia|]. rewrite minus_INR by lia. change (INR 1) with 1. lra.
      - assert (L : (i < j)%nat) by (apply INR_lt; lra). exists (i + 1)%nat. split; [lia|]. rewrite plus_INR. change (INR 1) with 1. lra. }
    destruct EX as (m & Hm & Em). exists m, (e + / d * (e' - e)). split; [exact Hm|]. split; [nra|].
    unfold point_at, Pr. cbn [b1 b2 px py]. rewrite Em. f_equal; [|ring].
    assert (JJ : / d * (INR j - INR i) = dirn left).
    { assert (KK : dirn left * dirn left = 1) by (destruct left; cbn; ring). apply (Rmult_eq_reg_l (dirn left)); [|destruct left; cbn; lra].
      rewrite KK. replace (dirn left * (/ d * (INR j - INR i))) with (/ d * d) by (unfold d; ring). apply Rinv_l. lra. }
    replace (L0 + INR i * D + e * ux + / d * (L0 + INR j * D + e' * ux - (L0 + INR i * D + e * ux))) with
      (L0 + INR i * D + (/ d * (INR j - INR i)) * D + (e + / d * (e' - e)) * ux) by ring. rewrite JJ. ring.
  - intros (U & -> & Ej). assert (DU : 0 < D * uy) by (apply Rmult_lt_0_compat; lra).
    split; [|split].
    + rewrite ahead_row, Ej. replace (dirn left * (INR i + dirn left - INR i) * (D * uy)) with (dirn left * dirn left * (D * uy)) by ring. destruct left; cbn; lra.
    + rewrite ahead_row, Ej. replace (dirn (negb left) * (INR i - (INR i + dirn left)) * (D * uy)) with (- (dirn (negb left) * dirn left) * (D * uy)) by ring. destruct left; cbn; lra.
    + intros s S [Z | (m & e'' & Hm & E'' & Z)].
      * unfold point_at, Pr in Z. cbn [b1 b2 px py] in Z. assert (0 <= (1 - s) * e * uy) by (apply Rmult_le_pos; [apply Rmult_le_pos; lra | lra]).
        assert (0 <= s * e' * uy) by (apply Rmult_le_pos; [apply Rmult_le_pos; lra | lra]). lra.
      * pose proof (between_rows _ _ _ _ _ _ _ Z U) as Q. rewrite Ej in Q.
        assert (P : 0 < dirn left * (INR m - INR i)) by (rewrite <- Q; destruct left; cbn; lra).
        pose proof (int_ge1 _ _ _ (dirn_cases left) P) as Q1. rewrite <- Q in Q1. destruct left; cbn in Q1; lra.
Qed.

Lemma rows_view : forall (left : bool) i j lo hi lo' hi', (i < n)%nat -> (j < n)%nat -> 0 <= lo < hi -> hi <= w -> 0 <= lo' < hi' -> hi' <= w ->
  INR j = INR i + dirn left -> (uy = 0 -> w <= D) ->
  view_factor Op (Line (Pr i lo) (Pr i hi)) (dirn left * uy, - dirn left * ux) (Line (Pr j lo') (Pr j hi')) (dirn (negb left) * uy, - dirn (negb left) * ux)
    (hottel_rows (Pr i lo) (Pr i hi) (Pr j lo') (Pr j hi')).
Proof.
  intros left i j lo hi lo' hi' Hi Hj E1 E2 E1' E2' Ej FL.
  assert (LX : euclid (Pr i lo) (Pr i hi) = hi - lo) by (rewrite Pr_dist; apply Rabs_right; lra).
  assert (LY : euclid (Pr j lo') (Pr j hi') = hi' - lo') by (rewrite Pr_dist; apply Rabs_right; lra).
  set (x := Line (Pr i lo) (Pr i hi)). set (y := Line (Pr j lo') (Pr j hi')).
  assert (PX : forall s, point_at x s = Pr i (lo + s * (hi - lo))) by (intro; unfold point_at, x, Pr; cbn [b1 b2 px py]; f_equal; ring).
  assert (PY : forall s, point_at y s = Pr j (lo' + s * (hi' - lo'))) by (intro; unfold point_at, y, Pr; cbn [b1 b2 px py]; f_equal; ring).
  assert (in01 : forall s, 0 <= s <= 1 -> 0 <= lo + s * (hi - lo) <= w) by (intros s S; nra).
  assert (in01' : forall s, 0 <= s <= 1 -> 0 <= lo' + s * (hi' - lo') <= w) by (intros s S; nra).
  assert (KK : dirn left * dirn left = 1) by (destruct left; cbn; ring).
  destruct (Req_dec uy 0) as [U0 | Un].
  - (* flat rows do not see each other *)
    replace (hottel_rows (Pr i lo) (Pr i hi) (Pr j lo') (Pr j hi')) with 0.
    + apply factor_none. intros s s' S S'. rewrite PX, PY. rewrite (see_row left (negb left) i j); auto; try lra.
      * apply in01; lra.
      * apply in01'; lra.
    + specialize (FL U0). assert (UX : ux * ux = 1) by (rewrite U0 in Hu; lra).
      assert (DD : forall e e', 0 <= e <= w -> 0 <= e' <= w -> euclid (Pr i e) (Pr j e') = D + dirn left * ux * (e' - e)).
      { intros e e' He He'. unfold euclid.
        replace (dist2 (Pr i e) (Pr j e')) with (Rsqr (D + dirn left * ux * (e' - e))).
        - rewrite sqrt_Rsqr; [reflexivity|].
          assert (KU : dirn left * ux = 1 \/ dirn left * ux = -1). { assert (UU : ux = 1 \/ ux = -1) by (assert (Z : (ux - 1) * (ux + 1) = 0) by lra; apply Rmult_integral in Z; destruct Z; [left|right]; lra). destruct left; cbn; destruct UU as [-> | ->]; lra. }
          destruct KU as [-> | ->]; lra.
        - unfold dist2, Pr, Rsqr. cbn [px py]. rewrite U0, Ej. transitivity (D * D + 2 * (dirn left * ux * (e' - e)) * D + (dirn left * dirn left) * (ux * ux) * ((e' - e) * (e' - e))); [ring|].
          rewrite KK. transitivity (dirn left * dirn left * (D * D) + 2 * (dirn left * ux * (e' - e)) * D + ux * ux * ((e' - e) * (e' - e))); [rewrite KK; ring|]. ring. }
      unfold hottel_rows. rewrite !DD by lra. unfold Rdiv. ring.
  - assert (U : 0 < uy) by lra. assert (DU : 0 < D * uy) by (apply Rmult_lt_0_compat; lra).
    destruct (strings_both Op x y (dirn left * uy, - dirn left * ux) (dirn (negb left) * uy, - dirn (negb left) * ux) (Pt 0 (-1)) (dirn left) (dirn (negb left)) (-1) 0 0 0) as [A _].
    + unfold x, way; cbn [fst snd b1 b2]; rewrite LX; unfold Pr; cbn [px py]; ring.
    + unfold x, way; cbn [fst snd b1 b2]; rewrite LX; unfold Pr; cbn [px py]; ring.
    + unfold y, way; cbn [fst snd b1 b2]; rewrite LY; unfold Pr; cbn [px py]; ring.
    + unfold y, way; cbn [fst snd b1 b2]; rewrite LY; unfold Pr; cbn [px py]; ring.
    + unfold x; cbn [b1 b2]; rewrite LX; lra.
    + unfold y; cbn [b1 b2]; rewrite LY; lra.
    + intros s s' S S'. rewrite PX, PY. set (e := lo + s * (hi - lo)). set (e' := lo' + s' * (hi' - lo')).
      pose proof (ahead_row left i j e e') as H. rewrite Ej in H. replace (dirn left * (INR i + dirn left - INR i) * (D * uy)) with (dirn left * dirn left * (D * uy)) in H by ring. rewrite KK in H.
      destruct (Rlt_dec 0 (dist2 (Pr i e) (Pr j e'))) as [Q|Q]; [exact Q|]. exfalso. unfold dist2 in Q.
      pose proof (Rle_0_sqr (px (Pr i e) - px (Pr j e'))) as S1. pose proof (Rle_0_sqr (py (Pr i e) - py (Pr j e'))) as S2. unfold Rsqr in S1, S2.
      assert (Z1 : px (Pr i e) - px (Pr j e') = 0) by (apply Rsqr_0_uniq; unfold Rsqr; lra).
      assert (Z2 : py (Pr i e) - py (Pr j e') = 0) by (apply Rsqr_0_uniq; unfold Rsqr; lra).
      unfold ahead in H. replace (px (Pr j e') - px (Pr i e)) with 0 in H by lra. replace (py (Pr j e') - py (Pr i e)) with 0 in H by lra. lra.
    + intros s S. rewrite PX. unfold dist2, Pr. cbn [px py]. specialize (in01 s S). assert (0 <= (lo + s * (hi - lo)) * uy) by nra.
      pose proof (Rle_0_sqr (L0 + INR i * D + (lo + s * (hi - lo)) * ux - 0)) as Q. unfold Rsqr in Q. nra.
    + intros s S. rewrite PY. unfold dist2, Pr. cbn [px py]. specialize (in01' s S). assert (0 <= (lo' + s * (hi' - lo')) * uy) by nra.
      pose proof (Rle_0_sqr (L0 + INR j * D + (lo' + s * (hi' - lo')) * ux - 0)) as Q. unfold Rsqr in Q. nra.
    + intros s s' _ _ Z. exfalso. lra.
    + intros s s' S S'. split; [intros _; lra|]. intros _. rewrite PX, PY. apply see_row; auto.
      * apply in01; lra.
      * apply in01'; lra.
    + assert (BR : bracket x y (Pt 0 (-1)) (-1) 0 0 0 = euclid (Pr i hi) (Pr j hi') - euclid (Pr i lo) (Pr j hi') - euclid (Pr i hi) (Pr j lo') + euclid (Pr i lo) (Pr j lo')).
      { unfold bracket, string_at. rewrite !PX, !PY. repeat (destruct (Rlt_dec _ _) as [?|_]; [exfalso; lra|]).
        replace (lo + 1 * (hi - lo)) with hi by ring. replace (lo + 0 * (hi - lo)) with lo by ring.
        replace (lo' + 1 * (hi' - lo')) with hi' by ring. replace (lo' + 0 * (hi' - lo')) with lo' by ring. reflexivity. }
      rewrite BR in A. revert A. unfold x at 2 3. cbn [b1 b2]. rewrite LX. intro A.
      match type of A with view_factor _ _ _ _ _ ?v => replace (hottel_rows (Pr i lo) (Pr i hi) (Pr j lo') (Pr j hi')) with v; [exact A|] end.
      unfold hottel_rows. rewrite LX. destruct left; cbn [dirn negb]; field; lra.
Qed.
End Rows.
