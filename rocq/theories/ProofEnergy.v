(** Conservation of energy and reciprocity of exchanges: proofs. *)
From Coq Require Import Reals List Bool Arith String Lra Lia.
From Verif Require Import Num ModelTs ModelGeom ModelVF ModelParams SpecParams SpecVF Basics ProofGeom
  ProofFit ProofIndex ProofMatrix ProofVF ProofVF2 ModelIrr SpecIrr ModelEngine SpecEngine SpecRun ProofLinalg ProofRadiosity ProofParams ProofEngine ProofRun.
Import ListNotations.
Open Scope R_scope.

(* ------------------------------------------------------------- sums over lists *)

Lemma total_eq : forall (A : Type) (f g : A -> R) l, (forall x, In x l -> f x = g x) -> total f l = total g l.
Proof. induction l as [|x l IH]; intro H; cbn; [reflexivity|]. rewrite H by now left. rewrite IH; [reflexivity|]. intros; apply H; now right. Qed.
Lemma total_plus : forall (A : Type) (f g : A -> R) l, total (fun x => f x + g x) l = total f l + total g l.
Proof. induction l; cbn; lra. Qed.
Lemma total_minus : forall (A : Type) (f g : A -> R) l, total (fun x => f x - g x) l = total f l - total g l.
Proof. induction l; cbn; lra. Qed.
Lemma total_mult : forall (A : Type) c (f : A -> R) l, total (fun x => c * f x) l = c * total f l.
Proof. induction l; cbn; lra. Qed.
Lemma total_zero : forall (A : Type) (l : list A), total (fun _ => 0) l = 0.
Proof. induction l; cbn; lra. Qed.
Lemma total_le : forall (A : Type) (f g : A -> R) l, (forall x, In x l -> f x <= g x) -> total f l <= total g l.
Proof.
  induction l as [|x l IH]; intro H; cbn; [lra|]. pose proof (H x (or_introl eq_refl)).
  assert (total f l <= total g l) by (apply IH; intros; apply H; now right). lra.
Qed.
Lemma total_swap : forall (A B : Type) (g : A -> B -> R) l m,
  total (fun x => total (fun y => g x y) m) l = total (fun y => total (fun x => g x y) l) m.
Proof.
  induction l as [|x l IH]; intro m; cbn.
  - symmetry. apply total_zero.
  - rewrite IH, total_plus. reflexivity.
Qed.

Section Exchange.
Context {A : Type} (l : list A) (len : A -> R) (F : A -> A -> R).
Hypothesis rec : forall x y, In x l -> In y l -> len x * F x y = len y * F y x.

(** What the surfaces send to each other is what they receive from each other. *)
Lemma exchange : forall u v : A -> R,
  total (fun x => len x * (u x * total (fun y => F x y * v y) l)) l =
  total (fun x => len x * (v x * total (fun y => F x y * u y) l)) l.
Proof.
  intros u v.
  rewrite (total_eq _ _ (fun x => total (fun y => len x * F x y * (u x * v y)) l)).
  2: { intros x _. rewrite <- !total_mult. apply total_eq. intros; ring. }
  rewrite total_swap. apply total_eq. intros y Y.
  rewrite <- !total_mult. apply total_eq. intros x X. pose proof (rec x y X Y) as E.
  replace (len x * F x y * (u x * v y)) with (u x * v y * (len x * F x y)) by ring. rewrite E. ring.
Qed.

Variable Fs : A -> R.
Hypothesis closed : forall x, In x l -> len x = 0 \/ total (fun y => F x y * 1) l + Fs x = 1.

Lemma energy : forall r rho q : A -> R,
  (forall x, In x l -> q x = r x + total (fun y => F x y * (rho y * q y)) l) ->
  total (fun x => len x * r x) l =
  total (fun x => len x * ((1 - rho x) * q x)) l + total (fun x => len x * (Fs x * (rho x * q x))) l.
Proof.
  intros r rho q H.
  pose proof (exchange (fun _ => 1) (fun x => rho x * q x)) as X. cbv beta in X.
  assert (E1 : total (fun x => len x * r x) l =
     total (fun x => len x * q x) l - total (fun x => len x * (1 * total (fun y => F x y * (rho y * q y)) l)) l).
  { rewrite <- total_minus. apply total_eq. intros x I. rewrite (H x I) at 1. ring. }
  rewrite E1, X.
  assert (E2 : total (fun x => len x * (rho x * q x * total (fun y => F x y * 1) l)) l =
     total (fun x => len x * (rho x * q x) - len x * (Fs x * (rho x * q x))) l).
  { apply total_eq. intros x I. destruct (closed x I) as [Z|Z]; [rewrite Z; ring|].
    replace (total (fun y => F x y * 1) l) with (1 - Fs x) by lra. ring. }
  rewrite E2, total_minus.
  rewrite (total_eq _ (fun x => len x * ((1 - rho x) * q x)) (fun x => len x * q x - len x * (rho x * q x))) by (intros; ring).
  rewrite total_minus. ring.
Qed.

(** Two distributions of light on the same surfaces. *)
Lemma cross : forall r r' rho q q' : A -> R,
  (forall x, In x l -> q x = r x + total (fun y => F x y * (rho y * q y)) l) ->
  (forall x, In x l -> q' x = r' x + total (fun y => F x y * (rho y * q' y)) l) ->
  total (fun x => len x * (rho x * (q x * r' x))) l = total (fun x => len x * (rho x * (q' x * r x))) l.
Proof.
  intros r r' rho q q' H H'.
  pose proof (exchange (fun x => rho x * q x) (fun x => rho x * q' x)) as X. cbv beta in X.
  assert (E : forall r q q' : A -> R, (forall x, In x l -> q' x = r x + total (fun y => F x y * (rho y * q' y)) l) ->
     total (fun x => len x * (rho x * (q x * r x))) l =
     total (fun x => len x * (rho x * (q x * q' x))) l - total (fun x => len x * (rho x * q x * total (fun y => F x y * (rho y * q' y)) l)) l).
  { intros r0 q0 q1 K. rewrite <- total_minus. apply total_eq. intros x I. rewrite (K x I) at 1. ring. }
  rewrite (E r' q q' H'), (E r q' q H), X. f_equal. apply total_eq. intros; ring.
Qed.
End Exchange.

(* ------------------------------------------------------- the view factor matrix *)

Lemma point_ends : forall c : line, line_length c = 0 -> b1 c = b2 c.
Proof.
  intros [[x1 y1] [x2 y2]] H. unfold line_length, distance in H. cbn [b1 b2 px py] in *.
  apply sqrt_eq_0 in H; [|apply Rplus_le_le_0_compat; apply pow2_ge_0].
  pose proof (pow2_ge_0 (y2 - y1)). pose proof (pow2_ge_0 (x2 - x1)).
  assert (X : (x2 - x1) ^ 2 = 0) by lra. assert (Y : (y2 - y1) ^ 2 = 0) by lra.
  rewrite <- Rsqr_pow2 in X, Y. apply Rsqr_eq_0 in X. apply Rsqr_eq_0 in Y. f_equal; lra.
Qed.
Lemma s2s_point : forall c c' w, b1 c' = b2 c' -> vf_surface_to_surface c c' w = 0.
Proof.
  intros c c' w H. unfold vf_surface_to_surface. rewrite H. unfold np_where. destruct (Rltb _ _); [|reflexivity].
  replace (_ - _) with 0 by ring. rewrite Rabs_R0. unfold Rdiv. ring.
Qed.
Lemma hottel_point : forall h lo p ob w b, vf_hottel_gnd_surf h lo p p ob w b = 0.
Proof.
  intros. unfold vf_hottel_gnd_surf, np_where. destruct (Rltb _ _); [|reflexivity]. destruct b; unfold Rdiv; ring.
Qed.

Section Entries.
Variables (p : pvarray_params) (n : nat) (fi : fit_inputs) (a : fitted) (t : nat).
Hypothesis V : valid_params p.
Hypothesis FT : fit p n fi = Some a.

Lemma pair_to_point : forall x y v, pair_of a t x y v -> s_length y t = 0 -> fst v = 0 /\ snd v = 0.
Proof.
  intros x y v P Z. pose proof DISTANCE_TOLERANCE_pos. destruct (pair_value_reciprocal a t x y v P) as (_ & K & _).
  split; [|apply K; lra]. clear K.
  unfold s_length in Z. apply point_ends in Z.
  destruct P as [[i [row [b [left [_ [_ [_ ->]]]]]]] | [i [row [row' [b [_ [_ [_ [_ ->]]]]]]]]].
  - unfold vf_pvrow_surf_to_gnd_surf. cbn [fst]. rewrite s2s_point by exact Z. rewrite Z, hottel_point.
    unfold np_where. destruct (left && _ || _)%bool, left, b, (Rltb 0 (ft_rotation a t)); reflexivity.
  - unfold vf_pvrow_pair. cbn [fst]. rewrite s2s_point by exact Z. unfold np_where. destruct (if b then _ else _); reflexivity.
Qed.

Definition no_film : Prop := forall s, In s (all_ts_surfaces a) -> s_length s t = 0 \/ DISTANCE_TOLERANCE < s_length s t.

Lemma vf_to_point : forall x y, In x (all_ts_surfaces a) -> In y (all_ts_surfaces a) -> s_length y t = 0 -> vf a t x y = 0.
Proof.
  intros x y X Y Z. unfold vf. rewrite (entry_pre p n fi a t V FT) by auto.
  destruct (Req_dec (pre_sky a t (surf_index a x) (surf_index a y)) 0) as [K|K]; [exact K|]. exfalso.
  destruct (entry_nonzero p n fi a t V FT x y X Y K) as [v [[Hp | Hp] [E1 E2]]]; apply K.
  - destruct (pre_sky_pair p n fi a V FT t x y v Hp E1 E2) as [-> _]. apply (pair_to_point x y v Hp Z).
  - destruct (pre_sky_pair p n fi a V FT t y x v Hp E2 E1) as [_ ->].
    pose proof DISTANCE_TOLERANCE_pos. destruct (pair_value_reciprocal a t y x v Hp) as (_ & _ & K2). apply K2. lra.
Qed.

Lemma vf_reciprocal : no_film -> forall x y, In x (all_ts_surfaces a) -> In y (all_ts_surfaces a) ->
  s_length x t * vf a t x y = s_length y t * vf a t y x.
Proof.
  intros NF x y X Y. destruct (NF x X) as [Zx|Zx]; [|destruct (NF y Y) as [Zy|Zy]].
  - rewrite Zx, (vf_to_point y x Y X Zx). ring.
  - rewrite Zy, (vf_to_point x y X Y Zy). ring.
  - exact (reciprocity p n fi a t V FT x y X Y Zx Zy).
Qed.

Lemma vf_closed : no_film -> forall x, In x (all_ts_surfaces a) ->
  s_length x t = 0 \/ total (fun y => vf a t x y * 1) (all_ts_surfaces a) + vf_sky a t x = 1.
Proof.
  intros NF x X. destruct (NF x X) as [Z|Z]; [now left|right].
  destruct (sums_to_one p n fi a t V FT x X) as [S _]. specialize (S Z).
  destruct (In_nth_error _ _ X) as [j Ej].
  rewrite (surf_total p n fi a t x j (fun _ => 1) (fun _ => 1) V FT Ej) by reflexivity.
  unfold vf_sky. rewrite sum_over_rsum, rsum_seq in S. cbn [isum] in S. etransitivity; [|exact S]. clear S.
  pose proof (surf_index_nth _ _ _ _ _ _ V FT Ej) as Ix. rewrite Ix. unfold fr_n, fr_F.
  rewrite sum_below_isum. f_equal. apply isum_ext. intros; ring.
Qed.
End Entries.
