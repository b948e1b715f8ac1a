(** AOI losses against the integral that they approximate. *)
From Coq Require Import Reals List Bool Arith String Lra Lia.
From Coquelicot Require Import Coquelicot.
From Verif Require Import Num ModelTs ModelGeom ModelVF Basics SpecGeom SpecVF ModelParams ModelAOI SpecEngine SpecIrr SpecAOI PropAOI ModelIrr ModelEngine SpecRun ProofVF2 PropVF PropRun PropLoss.
Open Scope R_scope.

(** Light from the angle [z] (degrees from the plane), per degree: the derivative of
    [seen_between], weighted with [f]. *)
Definition aoi_density (f : R -> R) (z : R) : R := f z * (sin (z * PI / 180) * (PI / 360)).

(** The exact factor for what is seen between two angles in any order. *)
Definition aoi_exact (f : R -> R) (x y : R) : R := RInt (aoi_density f) (Rmin x y) (Rmax x y).

(** Slope of at most [L] from 0 to 180 degrees. *)
Definition lipschitz (f : R -> R) (L : R) : Prop :=
  forall x y, 0 <= x <= 180 -> 0 <= y <= 180 -> Rabs (f x - f y) <= L * Rabs (x - y).

(** [V] is the exact factor for what a point [c] of a side of the row sees between the points
    [q1] and [q2]: [seen_from] with the integral. *)
Definition exactly_seen (f : R -> R) (rotation : R) (back : bool) (c q1 q2 : pt) (V : R) : Prop :=
  exists theta1 theta2, seen_under rotation back c q1 theta1 /\ seen_under rotation back c q2 theta2 /\
    V = aoi_exact f theta1 theta2.

(* ------------------------------------------------------------------ integrals *)

Definition weight (z : R) : R := sin (z * PI / 180) * (PI / 360).

Lemma weight_pos : forall z, 0 <= z <= 180 -> 0 <= weight z.
Proof.
  intros z [Z0 Z1]. unfold weight. pose proof PI_RGT_0. apply Rmult_le_pos; [|lra]. apply sin_ge_0.
  - apply Rmult_le_pos; [apply Rmult_le_pos; lra | lra].
  - apply Rle_trans with (180 * PI / 180); [|lra]. unfold Rdiv. apply Rmult_le_compat_r; [lra|]. apply Rmult_le_compat_r; lra.
Qed.

Lemma weight_continuous : forall z, continuous weight z.
Proof.
  intro z. apply (ex_derive_continuous (K := R_AbsRing) (V := R_NormedModule)). unfold weight. auto_derive. exact Logic.I.
Qed.

Lemma seen_derive : forall z, is_derive (fun z => - cos (z * PI / 180) / 2) z (weight z).
Proof.
  intro z. unfold weight. auto_derive; [exact Logic.I|]. change (z * PI / 180) with (z * PI * / 180).
  generalize (sin (z * PI * / 180)). intro s. field.
Qed.

Lemma is_RInt_weight : forall a b, is_RInt weight a b (seen_between a b).
Proof.
  intros a b. replace (seen_between a b) with (minus (- cos (b * PI / 180) / 2) (- cos (a * PI / 180) / 2)).
  - apply (is_RInt_derive (V := R_CompleteNormedModule) (fun z => - cos (z * PI / 180) / 2)).
    + intros; apply seen_derive.
    + intros; apply weight_continuous.
  - unfold seen_between, minus, plus, opp. cbn. field.
Qed.

(** [f] outside of 0 to 180 degrees does not matter. *)
Definition held (f : R -> R) (z : R) : R := f (Rmin (Rmax z 0) 180).

Lemma held_id : forall f z, 0 <= z <= 180 -> held f z = f z.
Proof. intros f z Z. unfold held. rewrite Rmax_left, Rmin_left by lra. reflexivity. Qed.

Lemma held_range : forall z, 0 <= Rmin (Rmax z 0) 180 <= 180.
Proof. intro z. unfold Rmin, Rmax. destruct (Rle_dec z 0); destruct (Rle_dec _ 180); lra. Qed.

Lemma held_near : forall z w, Rabs (Rmin (Rmax z 0) 180 - Rmin (Rmax w 0) 180) <= Rabs (z - w).
Proof.
  intros z w. unfold Rmin, Rmax, Rabs.
  destruct (Rle_dec z 0); destruct (Rle_dec w 0);
    repeat match goal with |- context [Rle_dec ?a ?b] => destruct (Rle_dec a b) end;
    repeat match goal with |- context [Rcase_abs ?a] => destruct (Rcase_abs a) end; lra.
Qed.

Lemma held_continuous : forall f L, lipschitz f L -> 0 <= L -> forall z, continuous (held f) z.
Proof.
  intros f L HL L0 z. apply continuity_pt_filterlim. intros eps He.
  exists (eps / (L + 1)). split; [apply Rdiv_lt_0_compat; lra|]. intros w (_ & Hw).
  unfold dist in *. cbn in *. unfold R_dist in *.
  apply Rle_lt_trans with (L * Rabs (w - z)).
  - unfold held. eapply Rle_trans; [apply HL; apply held_range|]. apply Rmult_le_compat_l; [exact L0 | apply held_near].
  - apply Rle_lt_trans with ((L + 1) * Rabs (w - z)); [pose proof (Rabs_pos (w - z)); lra|].
    replace eps with ((L + 1) * (eps / (L + 1))) by (field; lra). apply Rmult_lt_compat_l; lra.
Qed.

Section Integral.
  Variables (f : R -> R) (L : R).
  Hypothesis HL : lipschitz f L.
  Hypothesis L0 : 0 <= L.

  Lemma density_integrable : forall a b, 0 <= a <= 180 -> 0 <= b <= 180 -> ex_RInt (aoi_density f) a b.
  Proof.
    intros a b A B. apply (ex_RInt_ext (V := R_NormedModule) (fun z => held f z * weight z)).
    - intros z Z. unfold aoi_density, weight. rewrite held_id; [reflexivity|].
      unfold Rmin, Rmax in Z. destruct (Rle_dec a b); lra.
    - apply (ex_RInt_continuous (V := R_CompleteNormedModule)). intros z _.
      apply (continuous_mult (K := R_AbsRing)); [apply (held_continuous f L HL L0) | apply weight_continuous].
  Qed.

  (** A piece, with the value of [f] at a point at most [d] away from it. *)
  Lemma piece_close : forall a b m d, 0 <= a -> a <= b -> b <= 180 -> 0 <= m <= 180 ->
    (forall z, a <= z <= b -> Rabs (z - m) <= d) ->
    Rabs (f m * seen_between a b - RInt (aoi_density f) a b) <= L * d * seen_between a b.
  Proof.
    intros a b m d A AB B M D.
    assert (I : is_RInt (aoi_density f) a b (RInt (aoi_density f) a b)) by (apply (RInt_correct (V := R_CompleteNormedModule)), density_integrable; lra).
    assert (K : forall c, is_RInt (fun z => c * weight z) a b (c * seen_between a b)).
    { intro c. apply (is_RInt_scal (V := R_NormedModule) weight a b c). apply is_RInt_weight. }
    assert (N : forall z, a < z < b -> (f m - L * d) * weight z <= aoi_density f z <= (f m + L * d) * weight z).
    { intros z Z. unfold aoi_density. fold (weight z). pose proof (weight_pos z ltac:(lra)) as W.
      pose proof (HL z m ltac:(lra) M) as H. pose proof (D z ltac:(lra)) as D'.
      assert (H' : Rabs (f z - f m) <= L * d) by (eapply Rle_trans; [exact H | apply Rmult_le_compat_l; assumption]).
      assert (H2 := Rle_trans _ _ _ (Rle_abs _) H').
      assert (H3 := Rle_trans _ _ _ (Rle_abs _) (Rle_trans _ _ _ (Req_le _ _ (Rabs_Ropp _)) H')).
      split; apply Rmult_le_compat_r; lra. }
    pose proof (is_RInt_le _ _ a b _ _ AB (K (f m - L * d)) I (fun z Z => proj1 (N z Z))) as U1.
    pose proof (is_RInt_le _ _ a b _ _ AB I (K (f m + L * d)) (fun z Z => proj2 (N z Z))) as U2.
    apply Rabs_le. split; lra.
  Qed.

  Lemma sections_integral : forall lo hi n j, (0 < n)%nat -> 0 <= lo -> lo <= hi -> hi <= 180 -> (j <= n)%nat ->
    sum_below j (fun k => RInt (aoi_density f) (clamp lo hi (cut_angle n k)) (clamp lo hi (cut_angle n (S k)))) =
    RInt (aoi_density f) (clamp lo hi (cut_angle n 0)) (clamp lo hi (cut_angle n j)).
  Proof.
    intros lo hi n j N A B C. induction j as [|j IH]; intro J.
    - cbn [sum_below]. rewrite (RInt_point (V := R_CompleteNormedModule)). reflexivity.
    - cbn [sum_below]. rewrite IH by lia.
      assert (RG : forall k, 0 <= clamp lo hi (cut_angle n k) <= 180) by (intro k; pose proof (clamp_range lo hi (cut_angle n k) B); lra).
      apply (RInt_Chasles (V := R_CompleteNormedModule)); apply density_integrable; apply RG.
  Qed.
End Integral.

Lemma seen_small : forall a b, a <= b -> 0 <= a -> b <= 180 -> seen_between a b <= (b - a) * (PI / 360).
Proof.
  intros a b AB A B. pose proof PI_RGT_0 as P.
  pose proof (is_RInt_const (V := R_NormedModule) a b (PI / 360)) as K.
  refine (is_RInt_le weight (fun _ => PI / 360) a b _ _ AB (is_RInt_weight a b) K _).
  intros z _. unfold weight. pose proof (SIN_bound (z * PI / 180)).
  rewrite <- (Rmult_1_l (PI / 360)) at 2. apply Rmult_le_compat_r; lra.
Qed.

Lemma sum_below_abs : forall n g h, (forall k, (k < n)%nat -> Rabs (g k) <= h k) -> Rabs (sum_below n g) <= sum_below n h.
Proof.
  induction n as [|n IH]; intros g h H; cbn [sum_below]; [rewrite Rabs_R0; lra|].
  eapply Rle_trans; [apply Rabs_triang|]. apply Rplus_le_compat; [apply IH; intros; apply H; lia | apply H; lia].
Qed.

Lemma sum_below_plus : forall n g h, sum_below n (fun k => g k + h k) = sum_below n g + sum_below n h.
Proof. induction n as [|n IH]; intros g h; cbn [sum_below]; [ring | rewrite IH; ring]. Qed.

Lemma sum_below_minus : forall n g h, sum_below n (fun k => g k - h k) = sum_below n g - sum_below n h.
Proof. induction n as [|n IH]; intros g h; cbn [sum_below]; [ring | rewrite IH; ring]. Qed.

Section Refine.
  Variables (f : R -> R) (L c : R) (n : nat) (lo hi : R).
  Hypothesis HL : lipschitz f L.
  Hypothesis L0 : 0 <= L.
  Hypothesis HC : forall z, 0 <= z <= 180 -> Rabs (f z) <= c.
  Hypothesis N : (0 < n)%nat.
  Hypothesis A : 0 <= lo.
  Hypothesis AB : lo <= hi.
  Hypothesis B : hi <= 180.

  Lemma c_pos : 0 <= c.
  Proof. eapply Rle_trans; [apply Rabs_pos | apply (HC 0); lra]. Qed.

  Lemma INR_pos : 0 < INR n.
  Proof. apply lt_0_INR, N. Qed.

  Lemma exact_small : Rabs (RInt (aoi_density f) lo hi) <= c * ((hi - lo) * (PI / 360)).
  Proof.
    apply Rle_trans with (c * seen_between lo hi); [|apply Rmult_le_compat_l; [apply c_pos | apply seen_small; assumption]].
    assert (I : is_RInt (aoi_density f) lo hi (RInt (aoi_density f) lo hi))
      by (apply (RInt_correct (V := R_CompleteNormedModule)), (density_integrable f L HL L0); lra).
    assert (K : forall c, is_RInt (fun z => c * weight z) lo hi (c * seen_between lo hi))
      by (intro d; apply (is_RInt_scal (V := R_NormedModule) weight lo hi d), is_RInt_weight).
    assert (D : forall z, lo < z < hi -> - c * weight z <= aoi_density f z <= c * weight z).
    { intros z Z. unfold aoi_density. fold (weight z). pose proof (weight_pos z ltac:(lra)) as W.
      pose proof (HC z ltac:(lra)) as H'. assert (H2 := Rle_trans _ _ _ (Rle_abs _) H').
      assert (H3 := Rle_trans _ _ _ (Rle_abs _) (Rle_trans _ _ _ (Req_le _ _ (Rabs_Ropp _)) H')).
      split; apply Rmult_le_compat_r; lra. }
    pose proof (is_RInt_le _ _ lo hi _ _ AB (K (- c)) I (fun z Z => proj1 (D z Z))) as U1.
    pose proof (is_RInt_le _ _ lo hi _ _ AB I (K c) (fun z Z => proj2 (D z Z))) as U2.
    apply Rabs_le. split; lra.
  Qed.

  Let S_ k := seen_between (cut_angle n k) (cut_angle n (S k)).
  Let C_ k := seen_between (clamp lo hi (cut_angle n k)) (clamp lo hi (cut_angle n (S k))).
  Let E_ k := RInt (aoi_density f) (clamp lo hi (cut_angle n k)) (clamp lo hi (cut_angle n (S k))).
  Let V_ k := if section_met n k lo hi then f (mid_angle n k) * S_ k else 0.

  Lemma section_close : forall k, (k < n)%nat ->
    Rabs (V_ k - E_ k) <= L * (90 / INR n) * C_ k + c * ((if section_met n k lo hi then 1 * S_ k else 0) - C_ k).
  Proof.
    intros k K. pose proof INR_pos as P.
    pose proof (cut_range n k ltac:(lia) N) as C0. pose proof (cut_range n (S k) ltac:(lia) N) as C1.
    pose proof (section_width n k N) as W. pose proof (mid_range n k K) as MR.
    assert (Dp : 0 < 180 / INR n) by (apply Rdiv_lt_0_compat; lra).
    assert (Out : clamp lo hi (cut_angle n k) = clamp lo hi (cut_angle n (S k)) ->
      Rabs (0 - E_ k) <= L * (90 / INR n) * C_ k + c * (0 - C_ k)).
    { intro X. unfold E_, C_. rewrite X, (RInt_point (V := R_CompleteNormedModule)). unfold seen_between, zero. cbn.
      rewrite Rminus_0_r, Rabs_R0. lra. }
    unfold V_, section_met. destruct (Rle_dec lo (cut_angle n (S k))) as [X|X].
    2:{ apply Out. rewrite !clamp_low by lra. reflexivity. }
    destruct (Rlt_dec (cut_angle n k) hi) as [Y|Y].
    2:{ apply Out. rewrite !clamp_high by lra. reflexivity. }
    clear Out.
    assert (a1 : cut_angle n k <= clamp lo hi (cut_angle n k)).
    { unfold clamp. apply Rmin_glb; [apply Rmax_l | lra]. }
    assert (a2 : clamp lo hi (cut_angle n (S k)) <= cut_angle n (S k)).
    { unfold clamp. rewrite Rmax_left by lra. apply Rmin_l. }
    pose proof (clamp_mono lo hi (cut_angle n k) (cut_angle n (S k)) ltac:(lra)) as a3.
    assert (SC : C_ k <= S_ k) by (unfold C_, S_; apply seen_mono; lra).
    assert (D : forall z, clamp lo hi (cut_angle n k) <= z <= clamp lo hi (cut_angle n (S k)) -> Rabs (z - mid_angle n k) <= 90 / INR n).
    { intros z Z. unfold mid_angle. rewrite W. replace (90 / INR n) with (180 / INR n / 2) by (field; lra). apply Rabs_le. lra. }
    pose proof (piece_close f L HL L0 (clamp lo hi (cut_angle n k)) (clamp lo hi (cut_angle n (S k))) (mid_angle n k) (90 / INR n) ltac:(lra) a3 ltac:(lra) MR D) as PC. fold (C_ k) in PC. fold (E_ k) in PC.
    replace (f (mid_angle n k) * S_ k - E_ k) with ((f (mid_angle n k) * C_ k - E_ k) + f (mid_angle n k) * (S_ k - C_ k)) by ring.
    eapply Rle_trans; [apply Rabs_triang|]. apply Rplus_le_compat; [exact PC|].
    rewrite Rabs_mult, (Rabs_pos_eq (S_ k - C_ k)), Rmult_1_l by lra. apply Rmult_le_compat_r; [lra | apply HC, MR].
  Qed.

  Lemma refine_wide : DISTANCE_TOLERANCE <= hi - lo ->
    Rabs (aoi_seen DISTANCE_TOLERANCE f n lo hi - RInt (aoi_density f) lo hi) <= (90 * L + PI * c) / INR n.
  Proof.
    intro T. pose proof INR_pos as P. pose proof PI_RGT_0 as PP.
    assert (EX : RInt (aoi_density f) lo hi = sum_below n E_).
    { unfold E_. rewrite (sections_integral f L HL L0 lo hi n n N A AB B ltac:(lia)), cut_0, (cut_n n N).
      rewrite clamp_low, clamp_high by lra. reflexivity. }
    assert (CX : sum_below n C_ = seen_between lo hi) by (apply clamp_total; assumption).
    pose proof (proj2 (aoi_seen_bounds (fun _ => 1) n lo hi 1 1 N A AB B ltac:(lra) ltac:(intros; lra) T)) as U.
    unfold aoi_seen in U |- *. destruct (Rlt_dec (hi - lo) DISTANCE_TOLERANCE) as [X|_]; [lra|].
    rewrite EX. change (sum_below n _) with (sum_below n V_) at 1. rewrite <- sum_below_minus.
    eapply Rle_trans; [apply sum_below_abs, section_close|].
    rewrite sum_below_plus, sum_below_scal, sum_below_scal, sum_below_minus, CX.
    set (d := 180 / INR n) in *. assert (Dp : 0 < d) by (unfold d; apply Rdiv_lt_0_compat; lra).
    set (X := sum_below n (fun k => if section_met n k lo hi then 1 * S_ k else 0)).
    change (X <= 1 * seen_between (Rmax 0 (lo - d)) (Rmin 180 (hi + d))) in U.
    assert (l1 : Rmax 0 (lo - d) <= lo) by (apply Rmax_lub; lra). assert (l2 : hi <= Rmin 180 (hi + d)) by (apply Rmin_glb; lra).
    assert (l3 : 0 <= Rmax 0 (lo - d)) by apply Rmax_l. assert (l4 : Rmin 180 (hi + d) <= 180) by apply Rmin_l.
    assert (l5 : lo - d <= Rmax 0 (lo - d)) by apply Rmax_r. assert (l6 : Rmin 180 (hi + d) <= hi + d) by apply Rmin_r.
    assert (PD : 0 < PI / 360) by lra.
    assert (X1 : X - seen_between lo hi <= 2 * (d * (PI / 360))).
    { pose proof (seen_small _ lo l1 l3 ltac:(lra)) as Q1. pose proof (seen_small hi _ l2 ltac:(lra) l4) as Q2.
      assert ((lo - Rmax 0 (lo - d)) * (PI / 360) <= d * (PI / 360)) by (apply Rmult_le_compat_r; lra).
      assert ((Rmin 180 (hi + d) - hi) * (PI / 360) <= d * (PI / 360)) by (apply Rmult_le_compat_r; lra).
      pose proof (seen_chain (Rmax 0 (lo - d)) lo hi). pose proof (seen_chain (Rmax 0 (lo - d)) hi (Rmin 180 (hi + d))). lra. }
    assert (X2 : c * (X - seen_between lo hi) <= c * (2 * (d * (PI / 360)))) by (apply Rmult_le_compat_l; [apply c_pos | exact X1]).
    assert (X3 : L * (90 / INR n) * seen_between lo hi <= L * (90 / INR n) * 1).
    { apply Rmult_le_compat_l; [|apply seen_le_1]. apply Rmult_le_pos; [exact L0|]. apply Rlt_le, Rdiv_lt_0_compat; lra. }
    replace ((90 * L + PI * c) / INR n) with (L * (90 / INR n) * 1 + c * (2 * (d * (PI / 360)))) by (unfold d; field; lra).
    lra.
  Qed.

  Lemma refine_any :
    Rabs (aoi_seen DISTANCE_TOLERANCE f n lo hi - RInt (aoi_density f) lo hi) <=
      (90 * L + PI * c) / INR n + c * (DISTANCE_TOLERANCE * (PI / 360)).
  Proof.
    pose proof INR_pos as P. pose proof PI_RGT_0 as PP. pose proof c_pos as C0.
    assert (T0 : 0 < DISTANCE_TOLERANCE) by (unfold DISTANCE_TOLERANCE; lra).
    assert (Z1 : 0 <= (90 * L + PI * c) / INR n).
    { apply Rmult_le_pos; [|apply Rlt_le, Rinv_0_lt_compat, P].
      assert (0 <= PI * c) by (apply Rmult_le_pos; lra). lra. }
    assert (Z2 : 0 <= c * (DISTANCE_TOLERANCE * (PI / 360))).
    { apply Rmult_le_pos; [exact C0|]. apply Rmult_le_pos; lra. }
    destruct (Rlt_le_dec (hi - lo) DISTANCE_TOLERANCE) as [X|X]; [|pose proof (refine_wide X); lra].
    unfold aoi_seen. destruct (Rlt_dec (hi - lo) DISTANCE_TOLERANCE) as [_|X']; [|lra].
    rewrite Rminus_0_l, Rabs_Ropp. pose proof exact_small as E.
    assert (c * ((hi - lo) * (PI / 360)) <= c * (DISTANCE_TOLERANCE * (PI / 360))); [|lra].
    apply Rmult_le_compat_l; [exact C0|]. apply Rmult_le_compat_r; lra.
  Qed.
End Refine.

Lemma lipschitz_pos : forall f L, lipschitz f L -> 0 <= L.
Proof.
  intros f L H. specialize (H 180 0 ltac:(lra) ltac:(lra)). pose proof (Rabs_pos (f 180 - f 0)).
  rewrite Rminus_0_r, (Rabs_pos_eq 180) in H by lra. lra.
Qed.

Lemma between_exact : forall f n x y L c, (0 < n)%nat -> 0 <= x <= 180 -> 0 <= y <= 180 ->
  lipschitz f L -> (forall z, 0 <= z <= 180 -> Rabs (f z) <= c) ->
  let v := aoi_seen_between DISTANCE_TOLERANCE f n x y in
  Rabs (v - aoi_exact f x y) <= (90 * L + PI * c) / INR n + c * (DISTANCE_TOLERANCE * (PI / 360)) /\
  (DISTANCE_TOLERANCE <= Rabs (y - x) -> Rabs (v - aoi_exact f x y) <= (90 * L + PI * c) / INR n).
Proof.
  intros f n x y L c N X Y HL HC v. pose proof (lipschitz_pos f L HL) as L0. unfold v, aoi_seen_between, aoi_exact.
  assert (l1 : 0 <= Rmin x y) by (apply Rmin_glb; lra). assert (l2 : Rmax x y <= 180) by (apply Rmax_lub; lra).
  assert (l3 : Rmin x y <= Rmax x y) by (apply Rle_trans with x; [apply Rmin_l | apply Rmax_l]).
  split; [exact (refine_any f L c n _ _ HL L0 HC N l1 l3 l2)|].
  intro T. apply (refine_wide f L c n _ _ HL L0 HC N l1 l3 l2). eapply Rle_trans; [exact T|]. apply Req_le.
  unfold Rmin, Rmax. destruct (Rle_dec x y); [rewrite Rabs_pos_eq by lra; ring|]. rewrite Rabs_left by lra. ring.
Qed.

Lemma fit_sections : forall m af, aoi_fit m = Ok af -> (0 < am_n m)%nat.
Proof. intros m af H. unfold aoi_fit in H. destruct (Nat.eqb (am_n m) 0) eqn:E; [discriminate|]. apply Nat.eqb_neq in E. lia. Qed.

(* --------------------------------------------------------------------- theorems *)

(** Between two angles. *)
Theorem C81_between : forall m af x y (back : bool) L c, aoi_fit m = Ok af ->
  let f := if back then am_back m else am_front m in
  0 <= x <= 180 -> 0 <= y <= 180 -> lipschitz f L -> (forall z, 0 <= z <= 180 -> Rabs (f z) <= c) ->
  let error := Rabs (vf_aoi_between af x y back - aoi_exact f x y) in
  error <= (90 * L + PI * c) / INR (am_n m) + c * (DISTANCE_TOLERANCE * (PI / 360)) /\
  (DISTANCE_TOLERANCE <= Rabs (y - x) -> error <= (90 * L + PI * c) / INR (am_n m)).
Proof.
  intros m af x y back L c AF f X Y HL HC error. unfold error. rewrite (wedge_spec m af x y back AF).
  exact (between_exact f (am_n m) x y L c (fit_sections m af AF) X Y HL HC).
Qed.
Print Assumptions C81_between.

(** More and more sections. *)
Theorem C81_limit : forall front rear x y (back : bool) L,
  let f := if back then rear else front in
  0 <= x <= 180 -> 0 <= y <= 180 -> lipschitz f L -> DISTANCE_TOLERANCE <= Rabs (y - x) ->
  exists v, (forall n, exists af, aoi_fit (AOIMethods front rear (S n)) = Ok af /\ v n = vf_aoi_between af x y back) /\
    Un_cv v (aoi_exact f x y).
Proof.
  intros front rear x y back L f X Y HL T.
  exists (fun n => aoi_seen_between DISTANCE_TOLERANCE f (S n) x y). split.
  - intro n. assert (Q : exists af, aoi_fit (AOIMethods front rear (S n)) = Ok af) by (eexists; reflexivity). destruct Q as (af & AF).
    exists af. split; [exact AF|]. rewrite (wedge_spec _ af x y back AF). reflexivity.
  - pose proof (lipschitz_pos f L HL) as L0. set (c := Rabs (f 0) + L * 180).
    assert (HC : forall z, 0 <= z <= 180 -> Rabs (f z) <= c).
    { intros z Z. replace (f z) with (f 0 + (f z - f 0)) by ring. eapply Rle_trans; [apply Rabs_triang|]. apply Rplus_le_compat_l.
      eapply Rle_trans; [apply HL; lra|]. apply Rmult_le_compat_l; [exact L0|]. rewrite Rminus_0_r, Rabs_pos_eq; lra. }
    intros eps He. set (K := 90 * L + PI * c). destruct (archimed (K / eps)) as (Ar & _).
    exists (Z.to_nat (up (K / eps))). intros n Hn. unfold R_dist.
    eapply Rle_lt_trans; [apply (between_exact f (S n) x y L c ltac:(lia) X Y HL HC), T|]. fold K.
    assert (P : 0 < INR (S n)) by (apply lt_0_INR; lia).
    assert (Q : K / eps < INR (S n)).
    { eapply Rlt_le_trans; [exact Ar|]. apply Rle_trans with (INR (Z.to_nat (up (K / eps)))).
      - rewrite INR_IZR_INZ. apply IZR_le. lia.
      - apply le_INR. lia. }
    apply Rmult_lt_reg_r with (INR (S n)); [exact P|]. unfold Rdiv. rewrite Rmult_assoc, Rinv_l, Rmult_1_r by lra.
    apply Rmult_lt_compat_r with (r := eps) in Q; [|exact He]. unfold Rdiv in Q. rewrite Rmult_assoc, Rinv_l, Rmult_1_r in Q by lra. lra.
Qed.
Print Assumptions C81_limit.

Lemma exact_constant : forall k x y, x <= y -> aoi_exact (fun _ => k) x y = k * seen_between x y.
Proof.
  intros k x y H. unfold aoi_exact. rewrite Rmin_left, Rmax_right by exact H. apply is_RInt_unique.
  apply (is_RInt_scal (V := R_NormedModule) weight x y k). apply is_RInt_weight.
Qed.

(** The reflectivity made from an AOI function. *)
Theorem C81_rho : forall m (back : bool) r L, rho_from_faoi_fn m back = Ok r ->
  let f := if back then am_back m else am_front m in
  lipschitz f L -> Rabs (r - (1 - aoi_exact f 0 180)) <= 90 * L / INR (am_n m).
Proof.
  intros m back r L H f HL. pose proof (lipschitz_pos f L HL) as L0.
  destruct (Nat.eq_dec (am_n m) 0) as [Z|Z].
  { rewrite (proj1 (C38_rho m back) Z) in H. discriminate. }
  destruct (proj2 (C38_rho m back) Z) as (r' & H' & E & _). assert (Q : r = r') by congruence. rewrite Q, E. clear Q H H' E.
  assert (N : (0 < am_n m)%nat) by lia. set (n := am_n m) in *. assert (P : 0 < INR n) by (apply lt_0_INR, N).
  unfold aoi_exact. rewrite Rmin_left, Rmax_right by lra.
  assert (CL : forall k, (k <= n)%nat -> clamp 0 180 (cut_angle n k) = cut_angle n k)
    by (intros k K; apply clamp_id, cut_range; assumption).
  replace (RInt (aoi_density f) 0 180) with (sum_below n (fun k => RInt (aoi_density f) (cut_angle n k) (cut_angle n (S k)))).
  2:{ rewrite <- (clamp_low 0 180 (cut_angle n 0)) at 1 by (rewrite ?cut_0; lra).
      rewrite <- (clamp_high 0 180 (cut_angle n n)) at 2 by (rewrite ?(cut_n n N); lra).
      rewrite <- (sections_integral f L HL L0 0 180 n n N) by (try lra; lia).
      apply sum_below_ext. intros k K. rewrite !CL by lia. reflexivity. }
  match goal with |- Rabs (1 - ?u - (1 - ?w)) <= _ => replace (1 - u - (1 - w)) with (- (u - w)) by ring end.
  rewrite Rabs_Ropp, <- sum_below_minus.
  eapply Rle_trans; [apply (sum_below_abs n _ (fun k => L * (90 / INR n) * seen_between (cut_angle n k) (cut_angle n (S k))))|].
  - intros k K. pose proof (cut_range n k ltac:(lia) N) as C0. pose proof (cut_range n (S k) ltac:(lia) N) as C1.
    pose proof (section_width n k N) as W. assert (Dp : 0 < 180 / INR n) by (apply Rdiv_lt_0_compat; lra).
    apply (piece_close f L HL L0); try lra; [apply mid_range, K|].
    intros w Hw. unfold mid_angle. rewrite W. replace (90 / INR n) with (180 / INR n / 2) by (field; lra). apply Rabs_le. lra.
  - rewrite sum_below_scal, sections_telescope, cut_0, (cut_n n N), seen_full. apply Req_le. field. lra.
Qed.
Print Assumptions C81_rho.

(** The factors published by a full run. *)
Lemma seen_refined : forall f n rot back c q1 q2 v L k, (0 < n)%nat ->
  seen_from DISTANCE_TOLERANCE f n rot back c q1 q2 v -> lipschitz f L -> (forall z, 0 <= z <= 180 -> Rabs (f z) <= k) ->
  exists V, exactly_seen f rot back c q1 q2 V /\
    Rabs (v - V) <= (90 * L + PI * k) / INR n + k * (DISTANCE_TOLERANCE * (PI / 360)).
Proof.
  intros f n rot back c q1 q2 v L k N (x & y & X & Y & E) HL HC. exists (aoi_exact f x y).
  split; [exists x, y; tauto|]. rewrite E. apply between_exact; try assumption; [apply X | apply Y].
Qed.

Lemma run_sections : forall P e0 raw i a f e' m M, full_run P e0 raw i a f e' -> ca_aoi (en_calc e0) = Some m ->
  published_vf_aoi e' M -> (0 < am_n m)%nat.
Proof.
  intros P e0 raw i a f e' m M FR HA PM. destruct (loss_matrix _ _ _ _ _ _ _ _ _ FR HA PM) as (af & AF & _).
  exact (fit_sections m af AF).
Qed.

Theorem C81_ground : forall P e0 raw i a f e' m M t k row (back left : bool) x y L h,
  full_run P e0 raw i a f e' -> ca_aoi (en_calc e0) = Some m -> published_vf_aoi e' M ->
  (t < ii_n i)%nat -> physical e0 i a t ->
  nth_error (ft_rows a) k = Some row -> In x (side_surfaces (if back then row_back row else row_front row)) ->
  In y (gnd_side_of_cut_point (ft_ground a) left k) ->
  DISTANCE_TOLERANCE < s_length x t -> DISTANCE_TOLERANCE < s_length y t ->
  let rot := ft_rotation a t in
  left = looks_left rot back ->
  lipschitz (aoi_of m back) L -> (forall z, 0 <= z <= 180 -> Rabs (aoi_of m back z) <= h) ->
  let towards := seen_towards left (neighbour_edge (pv_params (en_array e0)) a t left k) (s_centroid x t) in
  exists V, exactly_seen (aoi_of m back) rot back (s_centroid x t) (towards (b1 (s_coords y t))) (towards (b2 (s_coords y t))) V /\
    Rabs (M t (surf_index a x) (surf_index a y) - V) <=
      (90 * L + PI * h) / INR (am_n m) + h * (DISTANCE_TOLERANCE * (PI / 360)).
Proof.
  intros P e0 raw i a f e' m M t k row back left x y L h FR HA PM T PH Hr Hx Hy Lx Ly rot LL HL HC towards.
  apply seen_refined; try assumption; [exact (run_sections _ _ _ _ _ _ _ _ _ FR HA PM)|].
  exact (proj1 (C51_ground _ _ _ _ _ _ _ _ _ _ _ _ _ _ _ _ FR HA PM T PH Hr Hx Hy Lx Ly) LL).
Qed.
Print Assumptions C81_ground.

Theorem C81_rows : forall P e0 raw i a f e' m M t k l row row' (back : bool) x y L h,
  full_run P e0 raw i a f e' -> ca_aoi (en_calc e0) = Some m -> published_vf_aoi e' M ->
  (t < ii_n i)%nat -> physical e0 i a t ->
  nth_error (ft_rows a) k = Some row -> In x (side_surfaces (if back then row_back row else row_front row)) ->
  nth_error (ft_rows a) l = Some row' -> In y (side_surfaces (if back then row_front row' else row_back row')) ->
  DISTANCE_TOLERANCE < s_length x t -> DISTANCE_TOLERANCE < s_length y t ->
  let rot := ft_rotation a t in
  (if looks_left rot back then k = S l else l = S k) ->
  lipschitz (aoi_of m back) L -> (forall z, 0 <= z <= 180 -> Rabs (aoi_of m back z) <= h) ->
  exists V, exactly_seen (aoi_of m back) rot back (s_centroid x t) (b1 (s_coords y t)) (b2 (s_coords y t)) V /\
    Rabs (M t (surf_index a x) (surf_index a y) - V) <=
      (90 * L + PI * h) / INR (am_n m) + h * (DISTANCE_TOLERANCE * (PI / 360)).
Proof.
  intros P e0 raw i a f e' m M t k l row row' back x y L h FR HA PM T PH Hr Hx Hr' Hy Lx Ly rot FA HL HC.
  apply seen_refined; try assumption; [exact (run_sections _ _ _ _ _ _ _ _ _ FR HA PM)|].
  refine (proj1 (C51_rows _ _ _ _ _ _ _ _ _ _ _ _ _ _ back (negb back) _ _ FR HA PM T PH Hr Hx Hr' _ Lx Ly) (conj eq_refl FA)).
  destruct back; exact Hy.
Qed.
Print Assumptions C81_rows.

Theorem C81_sky : forall P e0 raw i a f e' m M t k row (back : bool) x L h,
  full_run P e0 raw i a f e' -> ca_aoi (en_calc e0) = Some m -> published_vf_aoi e' M ->
  (t < ii_n i)%nat -> physical e0 i a t ->
  nth_error (ft_rows a) k = Some row -> In x (side_surfaces (if back then row_back row else row_front row)) ->
  DISTANCE_TOLERANCE < s_length x t ->
  let rot := ft_rotation a t in
  lipschitz (aoi_of m back) L -> (forall z, 0 <= z <= 180 -> Rabs (aoi_of m back z) <= h) ->
  exists q1 q2, sky_opening a t (if looks_left rot back then k else S k) q1 q2 /\
    (DISTANCE_TOLERANCE <= euclid q1 q2 ->
     exists V, exactly_seen (aoi_of m back) rot back (s_centroid x t) q1 q2 V /\
       Rabs (M t (surf_index a x) (n_ts_surfaces a) - V) <=
         (90 * L + PI * h) / INR (am_n m) + h * (DISTANCE_TOLERANCE * (PI / 360))).
Proof.
  intros P e0 raw i a f e' m M t k row back x L h FR HA PM T PH Hr Hx Lx rot HL HC.
  destruct (C51_sky _ _ _ _ _ _ _ _ _ _ _ _ _ _ FR HA PM T PH Hr Hx Lx) as (q1 & q2 & SO & SF).
  exists q1, q2. split; [exact SO|]. intro D.
  apply seen_refined; try assumption; [exact (run_sections _ _ _ _ _ _ _ _ _ FR HA PM) | exact (SF D)].
Qed.
Print Assumptions C81_sky.

(** Nothing lost at normal incidence, everything at grazing incidence, 300 sections (the
    function of C51_example): the factors are within 0.02 of the exact ones. *)
Example C81_example :
  let f := fun x => 1 - ((90 - x) / 90) ^ 2 in
  lipschitz f (1 / 45) /\ (forall z, 0 <= z <= 180 -> Rabs (f z) <= 1) /\
  exists af, aoi_fit (AOIMethods f f 300) = Ok af /\
    Rabs (vf_aoi_between af 30 120 false - aoi_exact f 30 120) <= 2 / 100.
Proof.
  intro f. assert (HL : lipschitz f (1 / 45)).
  { intros x y X Y. unfold f. replace (1 - ((90 - x) / 90) ^ 2 - (1 - ((90 - y) / 90) ^ 2)) with ((180 - x - y) / 8100 * (x - y)) by field.
    rewrite Rabs_mult. apply Rmult_le_compat_r; [apply Rabs_pos|]. apply Rabs_le. lra. }
  assert (HC : forall z, 0 <= z <= 180 -> Rabs (f z) <= 1).
  { intros z Z. unfold f. apply Rabs_le.
    assert (W : -1 <= (90 - z) / 90 <= 1) by lra. generalize dependent ((90 - z) / 90). intros w W. clear - W. split; nra. }
  split; [exact HL|]. split; [exact HC|].
  assert (Q : exists af, aoi_fit (AOIMethods f f 300) = Ok af) by (eexists; reflexivity). destruct Q as (af & AF).
  exists af. split; [exact AF|].
  pose proof (proj2 (C81_between (AOIMethods f f 300) af 30 120 false (1 / 45) 1 AF ltac:(lra) ltac:(lra) HL HC)) as B. cbn [am_front am_n] in B.
  eapply Rle_trans; [apply B; rewrite Rabs_pos_eq; unfold DISTANCE_TOLERANCE; lra|].
  replace (INR 300) with 300 by (rewrite INR_IZR_INZ; reflexivity).
  pose proof PI_4. lra.
Qed.
