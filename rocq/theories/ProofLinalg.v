(** Correctness of the Gauss-Jordan inverse, and properties of the radiosity system
    [(1/rho - F) q = e]. *)
From Coq Require Import Reals List Bool Arith Lra Lia Psatz.
From Verif Require Import Num ModelTs ModelGeom ModelVF ModelLinalg Basics.
Import ListNotations.
Open Scope R_scope.

(* ------------------------------------------------------------ more on sums *)

Lemma isum_split_one : forall n f k, (k < n)%nat ->
  isum n f = f k + isum n (fun i => if Nat.eqb i k then 0 else f i).
Proof.
  induction n; intros f k K; [lia |]. simpl.
  destruct (Nat.eq_dec k n) as [E | E].
  - subst. rewrite Nat.eqb_refl.
    rewrite (isum_ext n (fun i => if Nat.eqb i n then 0 else f i) f).
    + ring.
    + intros i I. destruct (Nat.eqb_spec i n); [lia | reflexivity].
  - rewrite (IHn f k) by lia. destruct (Nat.eqb_spec n k); [lia | ring].
Qed.

Lemma isum_delta : forall n f k, (k < n)%nat ->
  (forall i, (i < n)%nat -> i <> k -> f i = 0) -> isum n f = f k.
Proof.
  intros n f k K H. rewrite (isum_split_one n f k K).
  rewrite isum_zero; [ring |]. intros i I.
  destruct (Nat.eqb_spec i k); [reflexivity | auto].
Qed.

Lemma isum_minus : forall n f g, isum n (fun i => f i - g i) = isum n f - isum n g.
Proof. induction n; simpl; intros; [ring | rewrite IHn; ring]. Qed.

Lemma isum_split : forall n m f, (m <= n)%nat ->
  isum n f = isum m f + isum (n - m) (fun i => f (m + i)%nat).
Proof.
  induction n; intros m f M.
  - replace m with 0%nat by lia. simpl. ring.
  - destruct (Nat.eq_dec m (S n)) as [E | E].
    + subst. rewrite Nat.sub_diag. simpl. ring.
    + replace (S n - m)%nat with (S (n - m)) by lia. simpl.
      rewrite (IHn m f) by lia. replace (m + (n - m))%nat with n by lia. ring.
Qed.

(* ------------------------------------------------------------ Gauss-Jordan *)

Definition dotn (n : nat) (a b : nat -> R) : R := isum n (fun j => a j * b j).

Lemma dotn_lin : forall n a c b v, dotn n (fun j => a j - c * b j) v = dotn n a v - c * dotn n b v.
Proof.
  intros. unfold dotn. rewrite <- isum_scal, <- isum_minus. apply isum_ext. intros. ring.
Qed.

Lemma dotn_scal : forall n a c v, dotn n (fun j => a j / c) v = dotn n a v / c.
Proof.
  intros. unfold dotn, Rdiv. rewrite (Rmult_comm (isum n _)), <- isum_scal.
  apply isum_ext. intros. ring.
Qed.

(** Left part times [x] minus right part times [y], on row [i]. *)
Definition resid (n : nat) (M : matrix) (x y : vector) (i : nat) : R :=
  dotn n (fun j => M i j) x - dotn n (fun j => M i (n + j)%nat) y.

Definition solves (n : nat) (M : matrix) (x y : vector) : Prop :=
  forall i, (i < n)%nat -> resid n M x y i = 0.

Lemma resid_step_k : forall n M x y k r, resid n (gj_step M k r) x y k = resid n M x y r / M r k.
Proof.
  intros. unfold resid, gj_step. rewrite Nat.eqb_refl.
  rewrite (dotn_scal n (fun j => M r j)), (dotn_scal n (fun j => M r (n + j)%nat)).
  unfold Rdiv. ring.
Qed.

Lemma resid_step_i : forall n M x y k r i, i <> k ->
  let s := if Nat.eqb i r then k else i in
  resid n (gj_step M k r) x y i = resid n M x y s - M s k * (resid n M x y r / M r k).
Proof.
  intros n M x y k r i I s. unfold resid, gj_step.
  destruct (Nat.eqb_spec i k); [contradiction |]. fold s.
  rewrite (dotn_lin n (fun j => M s j) (M s k) (fun j => M r j / M r k) x).
  rewrite (dotn_lin n (fun j => M s (n + j)%nat) (M s k) (fun j => M r (n + j)%nat / M r k) y).
  rewrite (dotn_scal n (fun j => M r j)), (dotn_scal n (fun j => M r (n + j)%nat)).
  unfold Rdiv. ring.
Qed.

Lemma solves_step : forall n M x y k r, (k <= r)%nat -> (r < n)%nat -> M r k <> 0 ->
  (solves n (gj_step M k r) x y <-> solves n M x y).
Proof.
  intros n M x y k r K Rn P. split; intros H i I.
  - assert (Er : resid n M x y r = 0).
    { pose proof (H k ltac:(lia)) as E. rewrite resid_step_k in E.
      replace (resid n M x y r) with (resid n M x y r / M r k * M r k) by (field; exact P).
      rewrite E. ring. }
    assert (G : forall j, (j < n)%nat -> j <> k ->
                resid n M x y (if Nat.eqb j r then k else j) = 0).
    { intros j J Jk. pose proof (H j J) as E. rewrite (resid_step_i n M x y k r j Jk) in E.
      rewrite Er in E. unfold Rdiv in E. rewrite Rmult_0_l, Rmult_0_r in E. lra. }
    destruct (Nat.eq_dec i r) as [-> | Ir]; [exact Er |].
    destruct (Nat.eq_dec i k) as [-> | Ik].
    + specialize (G r Rn ltac:(lia)). rewrite Nat.eqb_refl in G. exact G.
    + specialize (G i I Ik). destruct (Nat.eqb_spec i r); [contradiction | exact G].
  - destruct (Nat.eq_dec i k) as [-> | Ik].
    + rewrite resid_step_k, (H r Rn). unfold Rdiv. ring.
    + rewrite (resid_step_i n M x y k r i Ik), (H r Rn).
      rewrite (H (if Nat.eqb i r then k else i)); [unfold Rdiv; ring |].
      destruct (Nat.eqb i r); lia.
Qed.

(** The first [k] columns have been reduced. *)
Definition reduced (n : nat) (M : matrix) (k : nat) : Prop :=
  forall i j, (i < n)%nat -> (j < k)%nat -> M i j = if Nat.eqb i j then 1 else 0.

Lemma reduced_step : forall n M k r, (k <= r)%nat -> (r < n)%nat -> M r k <> 0 ->
  reduced n M k -> reduced n (gj_step M k r) (S k).
Proof.
  intros n M k r K Rn P H i j I J. unfold gj_step.
  destruct (Nat.eq_dec j k) as [-> | Jk].
  - destruct (Nat.eqb_spec i k).
    + subst. field. exact P.
    + field. exact P.
  - assert (Erj : M r j = 0).
    { rewrite H by lia. destruct (Nat.eqb_spec r j); [lia | reflexivity]. }
    rewrite Erj. destruct (Nat.eqb_spec i k).
    + subst. destruct (Nat.eqb_spec k j); [lia |]. unfold Rdiv. ring.
    + replace (0 / M r k) with 0 by (unfold Rdiv; ring). rewrite Rmult_0_r, Rminus_0_r.
      destruct (Nat.eqb_spec i r).
      * subst. rewrite H by lia.
        destruct (Nat.eqb_spec k j); [lia |]. destruct (Nat.eqb_spec r j); [lia | reflexivity].
      * apply H; lia.
Qed.

Lemma find_pivot_some : forall m M c r0 r, find_pivot M c r0 m = Some r ->
  (r0 <= r < r0 + m)%nat /\ M r c <> 0.
Proof.
  induction m; simpl; intros M c r0 r E; [discriminate |].
  unfold Reqb in E. destruct (Req_EM_T (M r0 c) 0).
  - apply IHm in E. split; [lia | tauto].
  - inversion E. subst. split; [lia | assumption].
Qed.

Lemma find_pivot_none : forall m M c r0, find_pivot M c r0 m = None ->
  forall r, (r0 <= r < r0 + m)%nat -> M r c = 0.
Proof.
  induction m; simpl; intros M c r0 E r K; [lia |].
  unfold Reqb in E. destruct (Req_EM_T (M r0 c) 0); [| discriminate].
  destruct (Nat.eq_dec r r0); [subst; assumption |].
  apply (IHm M c (S r0) E). lia.
Qed.

Lemma gj_loop_some : forall m n M k M', (k + m = n)%nat -> reduced n M k ->
  gj_loop n M k m = Some M' ->
  reduced n M' n /\ (forall x y, solves n M' x y <-> solves n M x y).
Proof.
  induction m; intros n M k M' K H E; cbn [gj_loop] in E.
  - inversion E. subst M'. replace n with k by lia.
    split; [replace k with n in H by lia; replace k with n by lia; exact H | tauto].
  - destruct (find_pivot M k k (n - k)) as [r |] eqn:Ep; [| discriminate].
    destruct (find_pivot_some _ _ _ _ _ Ep) as [Kr P].
    destruct (IHm n (gj_step M k r) (S k) M' ltac:(lia)
                (reduced_step n M k r ltac:(lia) ltac:(lia) P H) E) as [A B].
    split; [exact A |]. intros x y. rewrite (B x y).
    apply solves_step; [lia | lia | exact P].
Qed.

Definition kernel_vec (M : matrix) (k : nat) : vector :=
  fun j => if Nat.eqb j k then 1 else if Nat.ltb j k then - M j k else 0.

Lemma kernel_vec_solves : forall n M k, (k < n)%nat -> reduced n M k ->
  (forall r, (k <= r < n)%nat -> M r k = 0) ->
  solves n M (kernel_vec M k) (fun _ => 0).
Proof.
  intros n M k K H Z i I. unfold resid.
  assert (E2 : dotn n (fun j => M i (n + j)%nat) (fun _ => 0) = 0)
    by (unfold dotn; apply isum_zero; intros; ring).
  rewrite E2. unfold dotn. rewrite (isum_split_one _ _ k K).
  unfold kernel_vec at 1. rewrite Nat.eqb_refl.
  destruct (lt_dec i k) as [Ik | Ik].
  - rewrite (isum_delta n _ i I).
    + destruct (Nat.eqb_spec i k); [lia |]. unfold kernel_vec.
      destruct (Nat.eqb_spec i k); [lia |]. destruct (Nat.ltb_spec i k); [| lia].
      rewrite (H i i I Ik), Nat.eqb_refl. ring.
    + intros j J Ji. destruct (Nat.eqb_spec j k) as [| Jk]; [reflexivity |].
      unfold kernel_vec. destruct (Nat.eqb_spec j k); [contradiction |].
      destruct (Nat.ltb_spec j k); [| ring].
      rewrite (H i j I) by assumption. destruct (Nat.eqb_spec i j); [lia | ring].
  - rewrite (Z i) by lia. rewrite isum_zero; [ring |].
    intros j J. destruct (Nat.eqb_spec j k) as [| Jk]; [reflexivity |].
    unfold kernel_vec. destruct (Nat.eqb_spec j k); [contradiction |].
    destruct (Nat.ltb_spec j k); [| ring].
    rewrite (H i j I) by assumption. destruct (Nat.eqb_spec i j); [lia | ring].
Qed.

Lemma gj_loop_none : forall m n M k, (k + m = n)%nat -> reduced n M k ->
  gj_loop n M k m = None ->
  exists v, (exists j, (j < n)%nat /\ v j <> 0) /\ solves n M v (fun _ => 0).
Proof.
  induction m; intros n M k K H E; cbn [gj_loop] in E; [discriminate |].
  destruct (find_pivot M k k (n - k)) as [r |] eqn:Ep.
  - destruct (find_pivot_some _ _ _ _ _ Ep) as [Kr P].
    destruct (IHm n (gj_step M k r) (S k) ltac:(lia)
                (reduced_step n M k r ltac:(lia) ltac:(lia) P H) E) as [v [V S]].
    exists v. split; [exact V |]. apply (solves_step n M v _ k r); [lia | lia | exact P | exact S].
  - exists (kernel_vec M k). split.
    + exists k. split; [lia |]. unfold kernel_vec. rewrite Nat.eqb_refl. lra.
    + apply kernel_vec_solves; [lia | exact H |].
      intros r Hr. apply (find_pivot_none _ _ _ _ Ep). lia.
Qed.

Lemma reduced_0 : forall n M, reduced n M 0.
Proof. intros n M i j I J. lia. Qed.

Lemma solves_augment : forall n A x y,
  solves n (augment n A) x y <-> (forall i, (i < n)%nat -> mat_vec n A x i = y i).
Proof.
  intros n A x y.
  assert (G : forall i, (i < n)%nat -> resid n (augment n A) x y i = mat_vec n A x i - y i).
  { intros i I. unfold resid. f_equal.
    - unfold mat_vec. rewrite np_sum_isum. unfold dotn. apply isum_ext. intros j J.
      unfold augment. destruct (Nat.ltb_spec j n); [reflexivity | lia].
    - unfold dotn. rewrite (isum_delta n _ i I).
      + unfold augment. destruct (Nat.ltb_spec (n + i) n); [lia |].
        replace (n + i - n)%nat with i by lia. rewrite Nat.eqb_refl. ring.
      + intros j J Ji. unfold augment. destruct (Nat.ltb_spec (n + j) n); [lia |].
        replace (n + j - n)%nat with j by lia.
        destruct (Nat.eqb_spec j i); [contradiction | ring]. }
  split; intros H i I.
  - specialize (H i I). rewrite G in H by exact I. lra.
  - rewrite G by exact I. rewrite (H i I). ring.
Qed.

Theorem linalg_inv_some : forall n A B x y, linalg_inv n A = Some B ->
  ((forall i, (i < n)%nat -> mat_vec n A x i = y i) <->
   (forall i, (i < n)%nat -> x i = mat_vec n B y i)).
Proof.
  intros n A B x y E. unfold linalg_inv in E.
  destruct (gj_loop n (augment n A) 0 n) as [M |] eqn:L; [| discriminate].
  inversion E as [EB]. clear E.
  destruct (gj_loop_some n n _ 0 M eq_refl (reduced_0 _ _) L) as [Rd Sv].
  rewrite <- solves_augment, <- Sv.
  assert (G : forall i, (i < n)%nat ->
              resid n M x y i = x i - mat_vec n (fun i j => M i (n + j)%nat) y i).
  { intros i I. unfold resid. f_equal.
    - unfold dotn. rewrite (isum_delta n _ i I).
      + rewrite (Rd i i I I), Nat.eqb_refl. ring.
      + intros j J Ji. rewrite (Rd i j I J). destruct (Nat.eqb_spec i j); [lia | ring].
    - unfold mat_vec. rewrite np_sum_isum. reflexivity. }
  split; intros H i I.
  - specialize (H i I). rewrite (G i I) in H. lra.
  - rewrite (G i I), (H i I). ring.
Qed.

Theorem linalg_inv_none : forall n A, linalg_inv n A = None ->
  exists v, (exists j, (j < n)%nat /\ v j <> 0) /\
            forall i, (i < n)%nat -> mat_vec n A v i = 0.
Proof.
  intros n A E. unfold linalg_inv in E.
  destruct (gj_loop n (augment n A) 0 n) as [M |] eqn:L; [discriminate |].
  destruct (gj_loop_none n n _ 0 eq_refl (reduced_0 _ _) L) as [v [V S]].
  exists v. split; [exact V |]. apply (solves_augment n A v (fun _ => 0)). exact S.
Qed.
