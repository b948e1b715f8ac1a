(** Elementary lemmas about the numeric vocabulary of Num.v. *)
From Coq Require Import Reals List Bool Arith Lra Lia Psatz.
From Verif Require Import Num.
Import ListNotations.
Open Scope R_scope.

Lemma Rltb_true : forall x y, Rltb x y = true <-> x < y.
Proof. intros; unfold Rltb; destruct (Rlt_dec x y); split; intros; auto; discriminate. Qed.
Lemma Rltb_false : forall x y, Rltb x y = false <-> y <= x.
Proof. intros; unfold Rltb; destruct (Rlt_dec x y); split; intros; auto; try discriminate; lra. Qed.
Lemma Rleb_true : forall x y, Rleb x y = true <-> x <= y.
Proof. intros; unfold Rleb; destruct (Rle_dec x y); split; intros; auto; discriminate. Qed.
Lemma Rleb_false : forall x y, Rleb x y = false <-> y < x.
Proof. intros; unfold Rleb; destruct (Rle_dec x y); split; intros; auto; try discriminate; lra. Qed.
Lemma Reqb_true : forall x y, Reqb x y = true <-> x = y.
Proof. intros; unfold Reqb; destruct (Req_EM_T x y); split; intros; auto; discriminate. Qed.
Lemma Reqb_false : forall x y, Reqb x y = false <-> x <> y.
Proof. intros; unfold Reqb; destruct (Req_EM_T x y); split; intros; auto; try discriminate; contradiction. Qed.

Lemma Rltb_spec : forall x y, BoolSpec (x < y) (y <= x) (Rltb x y).
Proof. intros; unfold Rltb; destruct (Rlt_dec x y); constructor; lra. Qed.
Lemma Rleb_spec : forall x y, BoolSpec (x <= y) (y < x) (Rleb x y).
Proof. intros; unfold Rleb; destruct (Rle_dec x y); constructor; lra. Qed.
Lemma Reqb_spec : forall x y, BoolSpec (x = y) (x <> y) (Reqb x y).
Proof. intros; unfold Reqb; destruct (Req_EM_T x y); constructor; auto. Qed.

(** Case analysis on the boolean comparisons of the goal. *)
Ltac rb :=
  repeat match goal with
  | |- context [Rltb ?x ?y] => destruct (Rltb_spec x y)
  | |- context [Rleb ?x ?y] => destruct (Rleb_spec x y)
  | |- context [Reqb ?x ?y] => destruct (Reqb_spec x y)
  | H : context [Rltb ?x ?y] |- _ => destruct (Rltb_spec x y)
  | H : context [Rleb ?x ?y] |- _ => destruct (Rleb_spec x y)
  | H : context [Reqb ?x ?y] |- _ => destruct (Reqb_spec x y)
  end; simpl in *.

Lemma np_max_Rmax : forall x y, np_max x y = Rmax x y.
Proof. intros; unfold np_max, Rmax; destruct (Rle_dec x y); reflexivity. Qed.
Lemma np_min_Rmin : forall x y, np_min x y = Rmin x y.
Proof. intros; unfold np_min, Rmin; destruct (Rle_dec x y); reflexivity. Qed.

Ltac minmax := unfold np_max, np_min, Rmax, Rmin in *;
  repeat match goal with
  | |- context [Rle_dec ?a ?b] => destruct (Rle_dec a b)
  | H : context [Rle_dec ?a ?b] |- _ => destruct (Rle_dec a b)
  end.

(* ------------------------------------------------------------------- sums *)

(** Ordinary (right) sum of a list. *)
Fixpoint rsum (l : list R) : R :=
  match l with [] => 0 | x :: r => x + rsum r end.

Lemma fold_left_Rplus : forall l a, fold_left Rplus l a = a + rsum l.
Proof. induction l; simpl; intros; [ring | rewrite IHl; ring]. Qed.

Lemma py_sum_rsum : forall l, py_sum l = rsum l.
Proof. intros; unfold py_sum; rewrite fold_left_Rplus; ring. Qed.

Lemma rsum_app : forall a b, rsum (a ++ b) = rsum a + rsum b.
Proof. induction a; simpl; intros; [ring | rewrite IHa; ring]. Qed.

Lemma rsum_nonneg : forall l, (forall x, In x l -> 0 <= x) -> 0 <= rsum l.
Proof.
  induction l; simpl; intros; [lra |].
  assert (0 <= a) by auto. assert (0 <= rsum l) by (apply IHl; auto). lra.
Qed.

Lemma rsum_map_scal : forall (A : Type) (f : A -> R) c l,
  rsum (map (fun x => c * f x) l) = c * rsum (map f l).
Proof. induction l; simpl; [ring | rewrite IHl; ring]. Qed.

Lemma rsum_map_plus : forall (A : Type) (f g : A -> R) l,
  rsum (map (fun x => f x + g x) l) = rsum (map f l) + rsum (map g l).
Proof. induction l; simpl; [ring | rewrite IHl; ring]. Qed.

Lemma rsum_map_minus : forall (A : Type) (f g : A -> R) l,
  rsum (map (fun x => f x - g x) l) = rsum (map f l) - rsum (map g l).
Proof. induction l; simpl; [ring | rewrite IHl; ring]. Qed.

Lemma rsum_map_ext : forall (A : Type) (f g : A -> R) l,
  (forall x, In x l -> f x = g x) -> rsum (map f l) = rsum (map g l).
Proof.
  induction l; simpl; intros; [reflexivity |].
  rewrite H by auto. rewrite IHl by auto. reflexivity.
Qed.

Lemma rsum_map_le : forall (A : Type) (f g : A -> R) l,
  (forall x, In x l -> f x <= g x) -> rsum (map f l) <= rsum (map g l).
Proof.
  induction l; simpl; intros; [lra |].
  assert (f a <= g a) by auto.
  assert (rsum (map f l) <= rsum (map g l)) by auto. lra.
Qed.

Lemma rsum_map_zero : forall (A : Type) (f : A -> R) l,
  (forall x, In x l -> f x = 0) -> rsum (map f l) = 0.
Proof.
  induction l; simpl; intros; [reflexivity |].
  rewrite H by auto. rewrite IHl by auto. ring.
Qed.

Lemma rsum_map_const : forall (A : Type) (c : R) (l : list A),
  rsum (map (fun _ => c) l) = INR (length l) * c.
Proof.
  induction l; simpl length; simpl map; simpl rsum; [simpl; ring |].
  rewrite IHl. rewrite S_INR. ring.
Qed.

Lemma rsum_flat_map : forall (A B : Type) (f : B -> R) (g : A -> list B) l,
  rsum (map f (flat_map g l)) = rsum (map (fun x => rsum (map f (g x))) l).
Proof.
  induction l; simpl; [reflexivity |].
  rewrite map_app, rsum_app, IHl. reflexivity.
Qed.

Lemma rsum_in_le : forall l x, (forall y, In y l -> 0 <= y) -> In x l -> x <= rsum l.
Proof.
  induction l; simpl; intros; [contradiction |].
  assert (0 <= rsum l) by (apply rsum_nonneg; auto).
  destruct H0.
  - subst. lra.
  - assert (x <= rsum l) by auto. assert (0 <= a) by auto. lra.
Qed.

(** Sum over the indices [0..n-1]. *)
Fixpoint isum (n : nat) (f : nat -> R) : R :=
  match n with O => 0 | S k => isum k f + f k end.

Lemma rsum_seq : forall n f, rsum (map f (seq 0 n)) = isum n f.
Proof.
  induction n; intros; [reflexivity |].
  rewrite seq_S, map_app, rsum_app, IHn. simpl. ring.
Qed.

Lemma np_sum_isum : forall n f, np_sum n f = isum n f.
Proof. intros; unfold np_sum; rewrite py_sum_rsum; apply rsum_seq. Qed.

Lemma isum_ext : forall n f g, (forall i, (i < n)%nat -> f i = g i) -> isum n f = isum n g.
Proof.
  induction n; simpl; intros; [reflexivity |].
  rewrite (IHn f g) by auto. rewrite H by lia. reflexivity.
Qed.

Lemma isum_plus : forall n f g, isum n (fun i => f i + g i) = isum n f + isum n g.
Proof. induction n; simpl; intros; [ring | rewrite IHn; ring]. Qed.

Lemma isum_scal : forall n c f, isum n (fun i => c * f i) = c * isum n f.
Proof. induction n; simpl; intros; [ring | rewrite IHn; ring]. Qed.

Lemma isum_le : forall n f g, (forall i, (i < n)%nat -> f i <= g i) -> isum n f <= isum n g.
Proof.
  induction n; simpl; intros; [lra |].
  assert (isum n f <= isum n g) by auto. assert (f n <= g n) by auto. lra.
Qed.

Lemma isum_nonneg : forall n f, (forall i, (i < n)%nat -> 0 <= f i) -> 0 <= isum n f.
Proof.
  induction n; simpl; intros; [lra |].
  assert (0 <= isum n f) by auto. assert (0 <= f n) by auto. lra.
Qed.

Lemma isum_zero : forall n f, (forall i, (i < n)%nat -> f i = 0) -> isum n f = 0.
Proof.
  induction n; simpl; intros; [reflexivity |].
  rewrite IHn by auto. rewrite H by auto. ring.
Qed.

Lemma isum_const : forall n c, isum n (fun _ => c) = INR n * c.
Proof.
  induction n; intros; [simpl; ring |].
  rewrite S_INR. simpl isum. rewrite IHn. ring.
Qed.

Lemma isum_telescope : forall n f, isum n (fun i => f (S i) - f i) = f n - f 0%nat.
Proof. induction n; simpl; intros; [ring | rewrite IHn; ring]. Qed.

Lemma isum_Sl : forall n f, isum (S n) f = f 0%nat + isum n (fun i => f (S i)).
Proof.
  induction n; intros; [simpl; ring |].
  change (isum (S (S n)) f) with (isum (S n) f + f (S n)).
  rewrite IHn. simpl. ring.
Qed.

Lemma isum_swap : forall n m f,
  isum n (fun i => isum m (fun j => f i j)) = isum m (fun j => isum n (fun i => f i j)).
Proof.
  induction n; simpl; intros.
  - symmetry. apply isum_zero. auto.
  - rewrite IHn. rewrite <- isum_plus. reflexivity.
Qed.

Lemma isum_in_le : forall n f k, (forall i, (i < n)%nat -> 0 <= f i) -> (k < n)%nat -> f k <= isum n f.
Proof.
  induction n; simpl; intros; [lia |].
  assert (0 <= isum n f) by (apply isum_nonneg; auto).
  destruct (Nat.eq_dec k n).
  - subst. lra.
  - assert (f k <= isum n f) by (apply IHn; auto; lia).
    assert (0 <= f n) by auto. lra.
Qed.

Lemma isum_abs_le : forall n f, Rabs (isum n f) <= isum n (fun i => Rabs (f i)).
Proof.
  induction n; simpl; intros.
  - rewrite Rabs_R0. lra.
  - eapply Rle_trans; [apply Rabs_triang |]. specialize (IHn f). lra.
Qed.

(* --------------------------------------------------------- list utilities *)

Lemma combine_seq_length : forall (A : Type) (l : list A),
  length (combine (seq 0 (length l)) l) = length l.
Proof. intros. rewrite combine_length, seq_length. lia. Qed.

Lemma nth_error_combine : forall (A B : Type) (la : list A) (lb : list B) k a b,
  nth_error la k = Some a -> nth_error lb k = Some b ->
  nth_error (combine la lb) k = Some (a, b).
Proof.
  induction la; intros.
  - destruct k; discriminate.
  - destruct lb; [destruct k; discriminate |].
    destruct k; simpl in *.
    + congruence.
    + auto.
Qed.

Lemma nth_error_combine_inv : forall (A B : Type) (la : list A) (lb : list B) k a b,
  nth_error (combine la lb) k = Some (a, b) ->
  nth_error la k = Some a /\ nth_error lb k = Some b.
Proof.
  induction la; intros.
  - destruct k; discriminate.
  - destruct lb; [destruct k; discriminate |].
    destruct k; simpl in *.
    + inversion H; auto.
    + auto.
Qed.

Lemma nth_error_seq : forall n s k, (k < n)%nat -> nth_error (seq s n) k = Some (s + k)%nat.
Proof.
  induction n; intros; [lia |].
  destruct k; simpl.
  - f_equal; lia.
  - rewrite IHn by lia. f_equal; lia.
Qed.

Lemma nth_error_seq_inv : forall n s k x, nth_error (seq s n) k = Some x ->
  (k < n)%nat /\ x = (s + k)%nat.
Proof.
  intros. assert (k < n)%nat.
  { rewrite <- (seq_length n s). apply nth_error_Some. congruence. }
  rewrite nth_error_seq in H by assumption. inversion H. auto.
Qed.

Lemma nth_error_enum : forall (A : Type) (l : list A) k x,
  nth_error (combine (seq 0 (length l)) l) k = Some x <->
  exists y, x = (k, y) /\ nth_error l k = Some y.
Proof.
  intros. split; intros.
  - destruct x as [i y]. apply nth_error_combine_inv in H. destruct H.
    apply nth_error_seq_inv in H. destruct H. subst. exists y. auto.
  - destruct H as [y [? ?]]. subst. apply nth_error_combine; auto.
    rewrite nth_error_seq; auto. apply nth_error_Some. congruence.
Qed.

Lemma in_enum : forall (A : Type) (l : list A) i y,
  In (i, y) (combine (seq 0 (length l)) l) <-> nth_error l i = Some y.
Proof.
  intros. split; intros.
  - apply In_nth_error in H. destruct H as [k H].
    apply nth_error_enum in H. destruct H as [z [? ?]]. inversion H; subst. auto.
  - eapply nth_error_In with (n := i). apply nth_error_enum. exists y; auto.
Qed.

Lemma fold_left_add_acc : forall l a, fold_left Nat.add l a = (a + fold_left Nat.add l 0)%nat.
Proof.
  induction l; simpl; intros; [lia |].
  rewrite IHl. rewrite (IHl a). lia.
Qed.

Lemma fold_left_add_flat_map : forall (A B : Type) (f : A -> list B) l,
  fold_left Nat.add (map (fun x => length (f x)) l) 0%nat = length (flat_map f l).
Proof.
  induction l; simpl; [reflexivity |].
  rewrite app_length. rewrite fold_left_add_acc. rewrite IHl. reflexivity.
Qed.

Lemma DISTANCE_TOLERANCE_pos : 0 < DISTANCE_TOLERANCE.
Proof. unfold DISTANCE_TOLERANCE. lra. Qed.

Lemma ground_bounds : MIN_X_GROUND = -100 /\ MAX_X_GROUND = 100.
Proof. unfold MIN_X_GROUND, MAX_X_GROUND. lra. Qed.

(* ---------------------------------------------------------- trigonometry *)

Lemma sind_0 : sind 0 = 0.
Proof. unfold sind, deg2rad. replace (0 * PI / 180) with 0 by field. apply sin_0. Qed.
Lemma cosd_0 : cosd 0 = 1.
Proof. unfold cosd, deg2rad. replace (0 * PI / 180) with 0 by field. apply cos_0. Qed.
Lemma deg2rad_180 : deg2rad 180 = PI.
Proof. unfold deg2rad. field. Qed.
Lemma deg2rad_90 : deg2rad 90 = PI / 2.
Proof. unfold deg2rad. field. Qed.
Lemma deg2rad_plus : forall x y, deg2rad (x + y) = deg2rad x + deg2rad y.
Proof. intros; unfold deg2rad; field. Qed.
Lemma deg2rad_minus : forall x y, deg2rad (x - y) = deg2rad x - deg2rad y.
Proof. intros; unfold deg2rad; field. Qed.
Lemma deg2rad_opp : forall x, deg2rad (- x) = - deg2rad x.
Proof. intros; unfold deg2rad; field. Qed.
Lemma deg2rad_rad2deg : forall x, deg2rad (rad2deg x) = x.
Proof. intros; unfold deg2rad, rad2deg; field; apply PI_neq0. Qed.
Lemma rad2deg_deg2rad : forall x, rad2deg (deg2rad x) = x.
Proof. intros; unfold deg2rad, rad2deg; field; apply PI_neq0. Qed.

Lemma cosd_180 : forall x, cosd (x + 180) = - cosd x.
Proof. intros; unfold cosd. rewrite deg2rad_plus, deg2rad_180. apply neg_cos. Qed.
Lemma sind_180 : forall x, sind (x + 180) = - sind x.
Proof. intros; unfold sind. rewrite deg2rad_plus, deg2rad_180. apply neg_sin. Qed.
Lemma cosd_opp : forall x, cosd (- x) = cosd x.
Proof. intros; unfold cosd. rewrite deg2rad_opp. apply cos_neg. Qed.
Lemma sind_opp : forall x, sind (- x) = - sind x.
Proof. intros; unfold sind. rewrite deg2rad_opp. apply sin_neg. Qed.
Lemma sc_1 : forall x, sind x * sind x + cosd x * cosd x = 1.
Proof. intros; unfold sind, cosd. pose proof (sin2_cos2 (deg2rad x)). unfold Rsqr in H. lra. Qed.

Lemma deg2rad_lt : forall x y, x < y -> deg2rad x < deg2rad y.
Proof. intros; unfold deg2rad. pose proof PI_RGT_0. nra. Qed.

Lemma sind_pos : forall x, 0 < x < 180 -> 0 < sind x.
Proof.
  intros. unfold sind. apply sin_gt_0.
  - unfold deg2rad. pose proof PI_RGT_0. nra.
  - rewrite <- deg2rad_180. apply deg2rad_lt. lra.
Qed.
Lemma sind_neg : forall x, -180 < x < 0 -> sind x < 0.
Proof.
  intros. replace x with (- - x) by ring. rewrite sind_opp.
  assert (0 < sind (- x)) by (apply sind_pos; lra). lra.
Qed.
Lemma cosd_pos : forall x, -90 < x < 90 -> 0 < cosd x.
Proof.
  intros. unfold cosd. apply cos_gt_0.
  - replace (- (PI / 2)) with (deg2rad (-90)) by (unfold deg2rad; field). apply deg2rad_lt. lra.
  - rewrite <- deg2rad_90. apply deg2rad_lt. lra.
Qed.
