(** The radiosity system: nonsingularity, sign, bounds, monotonicity, and finite
    reflections. *)
From Coq Require Import Reals List Bool Arith Lra Lia Psatz.
From Verif Require Import Num ModelTs ModelGeom ModelVF ModelLinalg Basics ProofLinalg SpecEngine.
Import ListNotations.
Open Scope R_scope.

Lemma sum_below_isum : forall n f, sum_below n f = isum n f.
Proof. induction n; simpl; intros; [reflexivity | rewrite IHn; reflexivity]. Qed.

(** Index of a largest value. *)
Lemma argmax : forall n (f : nat -> R), (0 < n)%nat ->
  exists k, (k < n)%nat /\ forall i, (i < n)%nat -> f i <= f k.
Proof.
  induction n; intros f N; [lia |].
  destruct n as [| n].
  - exists 0%nat. split; [lia |]. intros i I. replace i with 0%nat by lia. lra.
  - destruct (IHn f ltac:(lia)) as [k [K H]].
    destruct (Rle_lt_dec (f (S n)) (f k)).
    + exists k. split; [lia |]. intros i I.
      destruct (Nat.eq_dec i (S n)); [subst; assumption | apply H; lia].
    + exists (S n). split; [lia |]. intros i I.
      destruct (Nat.eq_dec i (S n)); [subst; lra |]. specialize (H i ltac:(lia)). lra.
Qed.

Lemma argmin : forall n (f : nat -> R), (0 < n)%nat ->
  exists k, (k < n)%nat /\ forall i, (i < n)%nat -> f k <= f i.
Proof.
  intros n f N. destruct (argmax n (fun i => - f i) N) as [k [K H]].
  exists k. split; [exact K |]. intros i I. specialize (H i I). lra.
Qed.

Lemma isum_scal_r : forall n f c, isum n (fun i => f i * c) = isum n f * c.
Proof. intros. rewrite Rmult_comm, <- isum_scal. apply isum_ext. intros. ring. Qed.

(* --------------------------------------------------- the matrix of the code *)

Lemma mat_vec_system : forall n d F v i, (i < n)%nat ->
  mat_vec n (mat_sub (diag_matrix d) F) v i = d i * v i - isum n (fun j => F i j * v j).
Proof.
  intros n d F v i I. unfold mat_vec. rewrite np_sum_isum. unfold mat_sub.
  rewrite (isum_ext n _ (fun k => diag_matrix d i k * v k - F i k * v k)) by (intros; ring).
  rewrite isum_minus. f_equal. rewrite (isum_delta n _ i I).
  - unfold diag_matrix. rewrite Nat.eqb_refl. reflexivity.
  - intros j J Ji. unfold diag_matrix. destruct (Nat.eqb_spec i j); [lia | ring].
Qed.

Lemma mat_vec_diag : forall n d v i, (i < n)%nat -> mat_vec n (diag_matrix d) v i = d i * v i.
Proof.
  intros n d v i I. unfold mat_vec. rewrite np_sum_isum, (isum_delta n _ i I).
  - unfold diag_matrix. rewrite Nat.eqb_refl. reflexivity.
  - intros j J Ji. unfold diag_matrix. destruct (Nat.eqb_spec i j); [lia | ring].
Qed.

Section System.
Variables (n : nat) (rho : nat -> R) (F : nat -> nat -> R).
Hypothesis rho_pos : forall i, (i < n)%nat -> 0 < rho i.
Hypothesis F_nonneg : forall i j, (i < n)%nat -> (j < n)%nat -> 0 <= F i j.
(** Less than all the light comes back. *)
Hypothesis absorbing : forall i, (i < n)%nat -> rho i * isum n (F i) < 1.

Let A : matrix := mat_sub (diag_matrix (fun i => / rho i)) F.

Lemma system_kernel : forall v, (forall i, (i < n)%nat -> mat_vec n A v i = 0) ->
  forall i, (i < n)%nat -> v i = 0.
Proof.
  intros v H.
  destruct n as [| m] eqn:En; [intros; lia |]. rewrite <- En in *.
  destruct (argmax n (fun i => Rabs (v i)) ltac:(lia)) as [k [K Mx]].
  assert (E : v k = rho k * isum n (fun j => F k j * v j)).
  { pose proof (H k K) as Hk. unfold A in Hk. rewrite mat_vec_system in Hk by exact K.
    assert (P := rho_pos k K).
    replace (v k) with (rho k * (/ rho k * v k)) by (field; lra). f_equal. lra. }
  assert (B : Rabs (v k) <= (rho k * isum n (F k)) * Rabs (v k)).
  { rewrite E at 1. rewrite Rabs_mult, (Rabs_pos_eq (rho k)) by (left; apply rho_pos; exact K).
    rewrite Rmult_assoc. apply Rmult_le_compat_l; [left; apply rho_pos; exact K |].
    eapply Rle_trans; [apply isum_abs_le |].
    rewrite <- isum_scal_r. apply isum_le. intros j J.
    rewrite Rabs_mult, (Rabs_pos_eq (F k j)) by (apply F_nonneg; assumption).
    apply Rmult_le_compat_l; [apply F_nonneg; assumption | apply (Mx j J)]. }
  assert (Z : Rabs (v k) = 0).
  { pose proof (Rabs_pos (v k)). pose proof (absorbing k K). nra. }
  intros i I. specialize (Mx i I). rewrite Z in Mx. pose proof (Rabs_pos (v i)).
  destruct (Req_dec (v i) 0) as [| Nz]; [assumption |].
  apply Rabs_pos_lt in Nz. lra.
Qed.

Lemma system_invertible : exists B, linalg_inv n A = Some B.
Proof.
  destruct (linalg_inv n A) as [B |] eqn:E; [exists B; reflexivity |].
  destruct (linalg_inv_none n A E) as [v [[j [J Nz]] H]].
  exfalso. apply Nz. apply (system_kernel v H j J).
Qed.

(** Non-negative sources give non-negative solutions. *)
Lemma system_nonneg : forall v e, (forall i, (i < n)%nat -> mat_vec n A v i = e i) ->
  (forall i, (i < n)%nat -> 0 <= e i) -> forall i, (i < n)%nat -> 0 <= v i.
Proof.
  intros v e H P.
  destruct n as [| m] eqn:En; [intros; lia |]. rewrite <- En in *.
  destruct (argmin n v ltac:(lia)) as [k [K Mn]].
  assert (E : v k = rho k * (e k + isum n (fun j => F k j * v j))).
  { pose proof (H k K) as Hk. unfold A in Hk. rewrite mat_vec_system in Hk by exact K.
    assert (Q := rho_pos k K).
    replace (v k) with (rho k * (/ rho k * v k)) at 1 by (field; lra). f_equal. lra. }
  assert (B : isum n (F k) * v k <= isum n (fun j => F k j * v j)).
  { rewrite <- isum_scal_r. apply isum_le. intros j J.
    apply Rmult_le_compat_l; [apply F_nonneg; assumption | apply (Mn j J)]. }
  assert (Z : 0 <= v k).
  { destruct (Rle_lt_dec 0 (v k)) as [| L]; [assumption | exfalso].
    pose proof (rho_pos k K). pose proof (absorbing k K). pose proof (P k K).
    assert (rho k * (isum n (F k) * v k) <= v k).
    { rewrite E at 2. apply Rmult_le_compat_l; lra. }
    nra. }
  intros i I. specialize (Mn i I). lra.
Qed.

End System.

(* ------------------------------------------------------ the balance of flux *)

Section Balance.
Variables (n : nat) (F : nat -> nat -> R) (rho s q : nat -> R) (r : R).
Hypothesis rho_range : forall i, (i < n)%nat -> 0 <= rho i <= r.
Hypothesis r_lt_1 : r < 1.
Hypothesis F_nonneg : forall i j, (i < n)%nat -> (j < n)%nat -> 0 <= F i j.
Hypothesis F_rows : forall i, (i < n)%nat -> isum n (F i) <= 1.
Hypothesis bal : radiosity_balance n F rho s q.

Lemma bal_isum : forall i, (i < n)%nat -> q i = s i + isum n (fun j => F i j * (rho j * q j)).
Proof. intros i I. rewrite <- sum_below_isum. apply bal. exact I. Qed.

Lemma balance_nonneg : (forall i, (i < n)%nat -> 0 <= s i) -> forall i, (i < n)%nat -> 0 <= q i.
Proof.
  intros P.
  destruct n as [| m] eqn:En; [intros; lia |]. rewrite <- En in *.
  destruct (argmin n q ltac:(lia)) as [k [K Mn]].
  assert (Z : 0 <= q k).
  { destruct (Rle_lt_dec 0 (q k)) as [| L]; [assumption | exfalso].
    assert (Hr : 0 <= r) by (pose proof (rho_range k K); lra).
    assert (B : r * q k <= isum n (fun j => F k j * (rho j * q j))).
    { apply Rle_trans with (isum n (fun j => F k j * (r * q k))).
      - rewrite isum_scal_r. pose proof (F_rows k K).
        assert (0 <= isum n (F k)) by (apply isum_nonneg; intros; apply F_nonneg; assumption).
        assert (r * q k <= 0) by nra. nra.
      - apply isum_le. intros j J. apply Rmult_le_compat_l; [apply F_nonneg; assumption |].
        pose proof (rho_range j J). pose proof (Mn j J). nra. }
    pose proof (bal_isum k K). pose proof (P k K). nra. }
  intros i I. specialize (Mn i I). lra.
Qed.

Lemma balance_upper : forall S, 0 <= S -> (forall i, (i < n)%nat -> s i <= S) ->
  forall i, (i < n)%nat -> q i <= S / (1 - r).
Proof.
  intros S S0 HS.
  destruct n as [| m] eqn:En; [intros; lia |]. rewrite <- En in *.
  destruct (argmax n q ltac:(lia)) as [k [K Mx]].
  assert (Hr : 0 <= r) by (pose proof (rho_range k K); lra).
  assert (D : 0 <= S / (1 - r))
    by (apply Rmult_le_pos; [exact S0 | left; apply Rinv_0_lt_compat; lra]).
  assert (Z : q k <= S / (1 - r)).
  { destruct (Rle_lt_dec (q k) 0) as [| L]; [lra |].
    assert (B : isum n (fun j => F k j * (rho j * q j)) <= r * q k).
    { apply Rle_trans with (isum n (fun j => F k j * (r * q k))).
      - apply isum_le. intros j J. apply Rmult_le_compat_l; [apply F_nonneg; assumption |].
        pose proof (rho_range j J). pose proof (Mx j J). nra.
      - rewrite isum_scal_r. pose proof (F_rows k K).
        assert (0 <= isum n (F k)) by (apply isum_nonneg; intros; apply F_nonneg; assumption).
        assert (0 <= r * q k) by nra. nra. }
    pose proof (bal_isum k K). pose proof (HS k K).
    apply Rmult_le_reg_r with (1 - r); [lra |]. unfold Rdiv.
    rewrite Rmult_assoc, Rinv_l by lra. nra. }
  intros i I. specialize (Mx i I). lra.
Qed.

Hypothesis s_nonneg : forall i, (i < n)%nat -> 0 <= s i.

Lemma balance_ge_source : forall i, (i < n)%nat -> s i <= q i.
Proof.
  intros i I. rewrite (bal_isum i I).
  assert (0 <= isum n (fun j => F i j * (rho j * q j))).
  { apply isum_nonneg. intros j J. apply Rmult_le_pos; [apply F_nonneg; assumption |].
    apply Rmult_le_pos; [apply rho_range; exact J | apply balance_nonneg; assumption]. }
  lra.
Qed.

Lemma bounces_S : forall k i, bounces n F rho s (S k) i =
  s i + isum n (fun j => F i j * (rho j * bounces n F rho s k j)).
Proof. intros. cbn [bounces]. rewrite sum_below_isum. reflexivity. Qed.

Lemma bounces_error : forall Q, (forall i, (i < n)%nat -> q i <= Q) ->
  forall k i, (i < n)%nat -> 0 <= q i - bounces n F rho s k i <= r ^ k * Q.
Proof.
  intros Q HQ. induction k; intros i I.
  - simpl. pose proof (balance_ge_source i I). pose proof (s_nonneg i I). pose proof (HQ i I). lra.
  - assert (Hr : 0 <= r) by (pose proof (rho_range i I); lra).
    rewrite bounces_S, (bal_isum i I).
    assert (E : s i + isum n (fun j => F i j * (rho j * q j))
                - (s i + isum n (fun j => F i j * (rho j * bounces n F rho s k j)))
                = isum n (fun j => F i j * (rho j * (q j - bounces n F rho s k j)))).
    { replace (s i + isum n (fun j => F i j * (rho j * q j))
                - (s i + isum n (fun j => F i j * (rho j * bounces n F rho s k j))))
        with (isum n (fun j => F i j * (rho j * q j))
              - isum n (fun j => F i j * (rho j * bounces n F rho s k j))) by ring.
      rewrite <- isum_minus. apply isum_ext. intros. ring. }
    rewrite E. split.
    + apply isum_nonneg. intros j J. apply Rmult_le_pos; [apply F_nonneg; assumption |].
      apply Rmult_le_pos; [apply rho_range; exact J | apply IHk; exact J].
    + assert (HQ0 : 0 <= r ^ k * Q) by (pose proof (IHk i I); lra).
      apply Rle_trans with (isum n (fun j => F i j * (r * (r ^ k * Q)))).
      * apply isum_le. intros j J. apply Rmult_le_compat_l; [apply F_nonneg; assumption |].
        pose proof (IHk j J). pose proof (rho_range j J).
        apply Rmult_le_compat; lra.
      * rewrite isum_scal_r. simpl. pose proof (F_rows i I).
        assert (0 <= r * (r ^ k * Q)) by (apply Rmult_le_pos; assumption).
        nra.
Qed.

Lemma bounces_limit : forall i, (i < n)%nat -> Un_cv (fun k => bounces n F rho s k i) (q i).
Proof.
  intros i I.
  assert (Hr : 0 <= r) by (pose proof (rho_range i I); lra).
  destruct (argmax n q ltac:(lia)) as [m [Mm Mx]].
  assert (Q0 : 0 <= q m) by (apply balance_nonneg; assumption).
  intros eps He.
  assert (Hy : 0 < eps / (q m + 1)) by (apply Rmult_lt_0_compat; [exact He | apply Rinv_0_lt_compat; lra]).
  destruct (pow_lt_1_zero r ltac:(rewrite Rabs_pos_eq; lra) _ Hy) as [N HN].
  exists N. intros k Kn. unfold R_dist.
  pose proof (bounces_error (q m) Mx k i I) as [E1 E2].
  rewrite Rabs_minus_sym, Rabs_pos_eq by exact E1.
  specialize (HN k Kn). rewrite Rabs_pos_eq in HN by (apply pow_le; exact Hr).
  assert (Hp : 0 <= r ^ k) by (apply pow_le; exact Hr).
  apply Rle_lt_trans with (r ^ k * (q m + 1)); [nra |].
  replace eps with (eps / (q m + 1) * (q m + 1)) by (field; lra).
  apply Rmult_lt_compat_r; lra.
Qed.

End Balance.

Lemma balance_monotone : forall n F rho s s' q q' r,
  (forall i, (i < n)%nat -> 0 <= rho i <= r) -> r < 1 ->
  (forall i j, (i < n)%nat -> (j < n)%nat -> 0 <= F i j) ->
  (forall i, (i < n)%nat -> isum n (F i) <= 1) ->
  radiosity_balance n F rho s q -> radiosity_balance n F rho s' q' ->
  (forall i, (i < n)%nat -> s i <= s' i) -> forall i, (i < n)%nat -> q i <= q' i.
Proof.
  intros n F rho s s' q q' r Hr R1 FN FR B B' Hs i I.
  assert (0 <= q' i - q i); [| lra].
  apply (balance_nonneg n F rho (fun i => s' i - s i) (fun i => q' i - q i) r); auto.
  - intros j J. pose proof (B j J) as E. pose proof (B' j J) as E'.
    rewrite sum_below_isum in *. rewrite E, E' at 1.
    rewrite (isum_ext n (fun j0 => F j j0 * (rho j0 * (q' j0 - q j0)))
               (fun j0 => F j j0 * (rho j0 * q' j0) - F j j0 * (rho j0 * q j0))) by (intros; ring).
    rewrite isum_minus. ring.
  - intros j J. specialize (Hs j J). lra.
Qed.

(** With absolute values: the balance determines the solution. *)
Lemma balance_unique : forall n F rho s q q' r,
  (forall i, (i < n)%nat -> 0 <= rho i <= r) -> r < 1 ->
  (forall i j, (i < n)%nat -> (j < n)%nat -> 0 <= F i j) ->
  (forall i, (i < n)%nat -> isum n (F i) <= 1) ->
  radiosity_balance n F rho s q -> radiosity_balance n F rho s q' ->
  forall i, (i < n)%nat -> q i = q' i.
Proof.
  intros n F rho s q q' r Hr R1 FN FR B B' i I. apply Rle_antisym.
  - apply (balance_monotone n F rho s s q q' r); auto. intros; lra.
  - apply (balance_monotone n F rho s s q' q r); auto. intros; lra.
Qed.
