(** Rounding errors of the arithmetic of ModelFloat.v. *)
From Coq Require Import Reals ZArith List Lra Lia Psatz.
From Flocq Require Import Core Binary Bits Relative.
From Verif Require Import ModelFloat.
Import ListNotations.
Open Scope R_scope.

(* ------------------------------------------------------------ any rounding *)
Section Rounding.
  Variables (rnd : R -> R) (u h : R).
  Hypothesis u_range : 0 <= u <= / 1000.
  Hypothesis h_range : 0 <= h <= u.
  Hypothesis rnd_err : forall x, Rabs (rnd x - x) <= u * Rabs x + h * h.

  Definition norm2 (x y : R) : R := sqrt (x * x + y * y).

  Lemma norm2_nonneg x y : 0 <= norm2 x y.
  Proof. apply sqrt_pos. Qed.

  Lemma norm2_sqr x y : norm2 x y * norm2 x y = x * x + y * y.
  Proof. apply sqrt_sqrt. nra. Qed.

  Lemma norm2_le x y a : 0 <= a -> x * x + y * y <= a * a -> norm2 x y <= a.
  Proof.
    intros H E. pose proof (norm2_sqr x y). pose proof (norm2_nonneg x y). nra.
  Qed.

  Lemma norm2_ge x y a : a * a <= x * x + y * y -> a <= norm2 x y.
  Proof.
    intros E. pose proof (norm2_sqr x y). pose proof (norm2_nonneg x y). nra.
  Qed.

  Lemma norm2_abs_x x y : Rabs x <= norm2 x y.
  Proof. apply norm2_ge. rewrite <- Rabs_mult, Rabs_pos_eq; nra. Qed.

  Lemma norm2_abs_y x y : Rabs y <= norm2 x y.
  Proof. apply norm2_ge. rewrite <- Rabs_mult, Rabs_pos_eq; nra. Qed.

  Lemma norm2_triangle a b c d : norm2 (a + c) (b + d) <= norm2 a b + norm2 c d.
  Proof.
    pose proof (norm2_nonneg a b). pose proof (norm2_nonneg c d).
    pose proof (norm2_sqr a b). pose proof (norm2_sqr c d).
    apply norm2_le; [lra|].
    assert (a * c + b * d <= norm2 a b * norm2 c d); [|nra].
    destruct (Rle_lt_dec (a * c + b * d) 0); [nra|].
    assert (0 <= norm2 a b * norm2 c d) by nra.
    assert ((a * c + b * d) * (a * c + b * d) <= (norm2 a b * norm2 c d) * (norm2 a b * norm2 c d)).
    { replace ((norm2 a b * norm2 c d) * (norm2 a b * norm2 c d)) with
        ((norm2 a b * norm2 a b) * (norm2 c d * norm2 c d)) by ring.
      rewrite H1, H2. pose proof (Rle_0_sqr (a * d - b * c)). unfold Rsqr in *. nra. }
    nra.
  Qed.

  (** Rounding of both coordinates of a vector. *)
  Lemma norm2_rnd x y : Rabs (norm2 (rnd x) (rnd y) - norm2 x y) <= u * norm2 x y + 2 * (h * h).
  Proof.
    pose proof (rnd_err x) as Ex. pose proof (rnd_err y) as Ey.
    set (a := rnd x - x) in *. set (b := rnd y - y) in *.
    assert (E : norm2 a b <= u * norm2 x y + 2 * (h * h)).
    { pose proof (norm2_nonneg x y). pose proof (norm2_sqr x y).
      pose proof (norm2_abs_x x y). pose proof (norm2_abs_y x y).
      pose proof (Rabs_pos x). pose proof (Rabs_pos y). pose proof (Rabs_pos a). pose proof (Rabs_pos b).
      assert (X : Rabs x * Rabs x = x * x) by (rewrite <- Rabs_mult; apply Rabs_pos_eq; nra).
      assert (Y : Rabs y * Rabs y = y * y) by (rewrite <- Rabs_mult; apply Rabs_pos_eq; nra).
      assert (A : a * a = Rabs a * Rabs a) by (rewrite <- Rabs_mult, Rabs_pos_eq; nra).
      assert (B : b * b = Rabs b * Rabs b) by (rewrite <- Rabs_mult, Rabs_pos_eq; nra).
      assert (0 <= h * h) by nra.
      assert (0 <= u * norm2 x y) by nra.
      apply norm2_le; [nra|]. rewrite A, B.
      assert (Rabs a * Rabs a <= (u * Rabs x + h * h) * (u * Rabs x + h * h)) by nra.
      assert (Rabs b * Rabs b <= (u * Rabs y + h * h) * (u * Rabs y + h * h)) by nra.
      assert (u * Rabs x <= u * norm2 x y) by nra. assert (u * Rabs y <= u * norm2 x y) by nra.
      assert ((u * norm2 x y) * (u * norm2 x y) = (u * Rabs x) * (u * Rabs x) + (u * Rabs y) * (u * Rabs y)).
      { replace ((u * norm2 x y) * (u * norm2 x y)) with (u * u * (norm2 x y * norm2 x y)) by ring.
        rewrite H0, <- X, <- Y. ring. }
      nra. }
    apply Rabs_le. split.
    - assert (norm2 x y <= norm2 (rnd x) (rnd y) + norm2 a b); [|lra].
      replace (norm2 a b) with (norm2 (- a) (- b)) by (unfold norm2; f_equal; ring).
      eapply Rle_trans; [|apply norm2_triangle]. unfold a, b. right. f_equal; ring.
    - assert (norm2 (rnd x) (rnd y) <= norm2 x y + norm2 a b); [|lra].
      eapply Rle_trans; [|apply norm2_triangle]. unfold a, b. right. f_equal; ring.
  Qed.

  Lemma sqrt_up s a b : 0 <= a -> 0 <= b -> s <= a * a + b * b -> sqrt s <= a + b.
  Proof.
    intros Ha Hb E. destruct (Rle_lt_dec s 0) as [N|P].
    - rewrite sqrt_neg_0 by exact N. lra.
    - apply Rsqr_incr_0_var; [|lra]. rewrite Rsqr_sqrt by lra. unfold Rsqr. nra.
  Qed.

  Lemma sqrt_down s a b : 0 <= b -> a * a - b * b <= s -> a - b <= sqrt s.
  Proof.
    intros Hb E. destruct (Rle_lt_dec a b) as [L|G].
    - pose proof (sqrt_pos s). lra.
    - apply Rsqr_incr_0_var; [|apply sqrt_pos]. rewrite Rsqr_sqrt by nra. unfold Rsqr. nra.
  Qed.

  (** The distance, as computed. *)
  Definition r_norm (x y : R) : R :=
    rnd (sqrt (rnd (rnd (rnd x * rnd x) + rnd (rnd y * rnd y)))).

  Lemma r_norm_err x y : Rabs (r_norm x y - norm2 x y) <= 301 / 100 * u * norm2 x y + 4 * h.
  Proof.
    unfold r_norm. pose proof (norm2_rnd x y) as V.
    set (X := rnd x) in *. set (Y := rnd y) in *.
    set (d := norm2 x y) in *. set (d' := norm2 X Y) in *.
    pose proof (norm2_nonneg x y) as P. fold d in P.
    pose proof (norm2_nonneg X Y) as P'. fold d' in P'.
    pose proof (norm2_sqr X Y) as Q. fold d' in Q.
    pose proof (rnd_err (X * X)) as A. rewrite (Rabs_pos_eq (X * X)) in A by nra.
    pose proof (rnd_err (Y * Y)) as B. rewrite (Rabs_pos_eq (Y * Y)) in B by nra.
    set (a := rnd (X * X)) in *. set (b := rnd (Y * Y)) in *.
    apply Rabs_le_inv in A. apply Rabs_le_inv in B. apply Rabs_le_inv in V.
    pose proof (rnd_err (a + b)) as C. set (s := rnd (a + b)) in *. apply Rabs_le_inv in C.
    assert (H2 : 0 <= h * h <= h / 1000) by nra.
    assert (uhh : 0 <= u * (h * h) <= h * h / 1000) by (clear - H2 u_range; nra).
    assert (Sab : (1 - u) * (d' * d') - 2 * (h * h) <= a + b <= (1 + u) * (d' * d') + 2 * (h * h)) by (rewrite Q; lra).
    assert (Dd : 0 <= d' * d') by (clear - P'; nra).
    assert (uDd : 0 <= u * (d' * d') <= d' * d' / 1000) by (clear - Dd u_range; nra).
    assert (Aab : Rabs (a + b) <= (1 + u) * (d' * d') + 2 * (h * h)) by (apply Rabs_le; lra).
    pose proof (Rabs_pos (a + b)) as Pab.
    assert (Up : s <= ((1 + u) * d') * ((1 + u) * d') + (2 * h) * (2 * h)).
    { assert (u * Rabs (a + b) <= u * ((1 + u) * (d' * d') + 2 * (h * h))) by (apply Rmult_le_compat_l; lra). lra. }
    assert (Dn : ((1 - u) * d') * ((1 - u) * d') - (2 * h) * (2 * h) <= s).
    { assert (E : (1 - u) * (1 - u) * (d' * d') - 3 * (h * h) <= a + b - u * Rabs (a + b)).
      { destruct (Rle_lt_dec 0 (a + b)) as [N|N].
        - rewrite Rabs_pos_eq by exact N.
          assert ((1 - u) * ((1 - u) * (d' * d') - 2 * (h * h)) <= (1 - u) * (a + b)) by (apply Rmult_le_compat_l; lra). lra.
        - rewrite Rabs_left by exact N.
          assert (u * - (a + b) <= u * (2 * (h * h))) by (apply Rmult_le_compat_l; lra).
          assert ((1 - u) * ((1 - u) * (d' * d')) <= 1 * ((1 - u) * (d' * d'))) by (apply Rmult_le_compat_r; lra). lra. }
      lra. }
    pose proof (sqrt_up s ((1 + u) * d') (2 * h) ltac:(apply Rmult_le_pos; lra) ltac:(lra) Up) as U.
    pose proof (sqrt_down s ((1 - u) * d') (2 * h) ltac:(lra) Dn) as D.
    pose proof (rnd_err (sqrt s)) as F. rewrite (Rabs_pos_eq (sqrt s)) in F by apply sqrt_pos.
    apply Rabs_le_inv in F. pose proof (sqrt_pos s) as Ps.
    set (q := sqrt s) in *. set (r := rnd q) in *.
    assert (ud : 0 <= u * d) by (apply Rmult_le_pos; lra).
    assert (uud : 0 <= u * (u * d) <= / 1000 * (u * d)) by (split; [apply Rmult_le_pos | apply Rmult_le_compat_r]; lra).
    assert (uh : 0 <= u * h <= / 1000 * h) by (split; [apply Rmult_le_pos | apply Rmult_le_compat_r]; lra).
    assert (ud' : u * d' <= u * (d + (u * d + 2 * (h * h)))) by (apply Rmult_le_compat_l; lra).
    assert (uq : u * q <= u * ((1 + u) * d' + 2 * h)) by (apply Rmult_le_compat_l; lra).
    assert (uud' : u * (u * d') <= / 1000 * (u * d')) by (apply Rmult_le_compat_r; [apply Rmult_le_pos|]; lra).
    apply Rabs_le. split; lra.
  Qed.

  Lemma r_sum_err l1 l2 L1 L2 : 0 <= L1 -> 0 <= L2 ->
    Rabs (l1 - L1) <= 301 / 100 * u * L1 + 4 * h -> Rabs (l2 - L2) <= 301 / 100 * u * L2 + 4 * h ->
    Rabs (rnd (l1 + l2) - (L1 + L2)) <= 402 / 100 * u * (L1 + L2) + 9 * h.
  Proof.
    intros P1 P2 E1 E2. apply Rabs_le_inv in E1. apply Rabs_le_inv in E2.
    pose proof (rnd_err (l1 + l2)) as F. apply Rabs_le_inv in F.
    assert (H2 : 0 <= h * h <= h / 1000) by nra.
    set (L := L1 + L2) in *. assert (uL : 0 <= u * L) by (apply Rmult_le_pos; unfold L; lra).
    assert (uuL : 0 <= u * (u * L) <= / 1000 * (u * L)) by (split; [apply Rmult_le_pos | apply Rmult_le_compat_r]; lra).
    assert (uh : 0 <= u * h <= / 1000 * h) by (split; [apply Rmult_le_pos | apply Rmult_le_compat_r]; lra).
    assert (El : - (301 / 100 * (u * L) + 8 * h) <= l1 + l2 - L <= 301 / 100 * (u * L) + 8 * h) by (unfold L; lra).
    assert (A : Rabs (l1 + l2) <= L + 301 / 100 * (u * L) + 8 * h) by (apply Rabs_le; unfold L in *; lra).
    assert (uA : u * Rabs (l1 + l2) <= u * (L + 301 / 100 * (u * L) + 8 * h)) by (apply Rmult_le_compat_l; lra).
    apply Rabs_le. split; lra.
  Qed.

  Lemma r_vf_err l1 l2 l3 l4 w' L1 L2 L3 L4 w :
    0 <= L1 -> 0 <= L2 -> 0 <= L3 -> 0 <= L4 -> 0 < w -> 2 * w <= L1 + L2 + L3 + L4 ->
    100 * h <= u * w ->
    Rabs (l1 - L1) <= 301 / 100 * u * L1 + 4 * h -> Rabs (l2 - L2) <= 301 / 100 * u * L2 + 4 * h ->
    Rabs (l3 - L3) <= 301 / 100 * u * L3 + 4 * h -> Rabs (l4 - L4) <= 301 / 100 * u * L4 + 4 * h ->
    Rabs (w' - w) <= 301 / 100 * u * w + 4 * h ->
    let num := Rabs (rnd (rnd (l3 + l4) - rnd (l1 + l2))) in
    let den := rnd (2 * w') in
    w <= den /\ num <= 2 * (L1 + L2 + L3 + L4) /\
    Rabs (rnd (num / den) - Rabs (L3 + L4 - (L1 + L2)) / (2 * w)) <=
      12 * u * ((L1 + L2 + L3 + L4) / (2 * w)).
  Proof.
    intros P1 P2 P3 P4 Pw Sw Hw E1 E2 E3 E4 Ew num den.
    pose proof (r_sum_err l1 l2 L1 L2 P1 P2 E1 E2) as S1.
    pose proof (r_sum_err l3 l4 L3 L4 P3 P4 E3 E4) as S2.
    set (s1 := rnd (l1 + l2)) in *. set (s2 := rnd (l3 + l4)) in *.
    set (S := L1 + L2 + L3 + L4) in *.
    set (T := L3 + L4 - (L1 + L2)) in *.
    apply Rabs_le_inv in S1. apply Rabs_le_inv in S2. apply Rabs_le_inv in Ew.
    pose proof (rnd_err (s2 - s1)) as F. apply Rabs_le_inv in F.
    assert (H2 : 0 <= h * h <= h / 1000) by nra.
    assert (uh : 0 <= u * h <= / 1000 * h) by (split; [apply Rmult_le_pos | apply Rmult_le_compat_r]; lra).
    assert (PS : 0 <= S) by (unfold S; lra).
    assert (uS : 0 <= u * S) by (apply Rmult_le_pos; lra).
    assert (uuS : 0 <= u * (u * S) <= / 1000 * (u * S)) by (split; [apply Rmult_le_pos | apply Rmult_le_compat_r]; lra).
    assert (uw : 0 <= u * w) by (apply Rmult_le_pos; lra).
    assert (uwS : 2 * (u * w) <= u * S).
    { replace (2 * (u * w)) with (u * (2 * w)) by ring. apply Rmult_le_compat_l; lra. }
    assert (Es : - (402 / 100 * (u * S) + 18 * h) <= s2 - s1 - T <= 402 / 100 * (u * S) + 18 * h) by (unfold S, T in *; lra).
    assert (AT : - S <= T <= S) by (unfold S, T; lra).
    assert (A : Rabs (s2 - s1) <= S + 402 / 100 * (u * S) + 18 * h) by (apply Rabs_le; lra).
    assert (uA : u * Rabs (s2 - s1) <= u * (S + 402 / 100 * (u * S) + 18 * h)) by (apply Rmult_le_compat_l; lra).
    assert (Et : Rabs (rnd (s2 - s1) - T) <= 525 / 100 * (u * S)) by (apply Rabs_le; lra).
    assert (En : Rabs (num - Rabs T) <= 525 / 100 * (u * S)).
    { unfold num. eapply Rle_trans; [apply Rabs_triang_inv2|]. exact Et. }
    apply Rabs_le_inv in En.
    assert (NT : 0 <= Rabs T <= S) by (split; [apply Rabs_pos | apply Rabs_le; lra]).
    set (N := Rabs T) in *.
    assert (Pn : 0 <= num) by apply Rabs_pos.
    assert (uS1 : u * S <= S / 1000) by (replace (S / 1000) with (/ 1000 * S) by field; apply Rmult_le_compat_r; lra).
    assert (Nn : num <= 101 / 100 * S) by lra.
    (* the denominator *)
    pose proof (rnd_err (2 * w')) as G. apply Rabs_le_inv in G. fold den in G.
    assert (uuw : 0 <= u * (u * w) <= / 1000 * (u * w)) by (split; [apply Rmult_le_pos | apply Rmult_le_compat_r]; lra).
    assert (Aw : Rabs (2 * w') <= 2 * w + 602 / 100 * (u * w) + 8 * h) by (apply Rabs_le; lra).
    assert (uAw : u * Rabs (2 * w') <= u * (2 * w + 602 / 100 * (u * w) + 8 * h)) by (apply Rmult_le_compat_l; lra).
    assert (Ed : - (815 / 100 * (u * w)) <= den - 2 * w <= 815 / 100 * (u * w)) by lra.
    assert (uw1 : u * w <= / 1000 * w) by (apply Rmult_le_compat_r; lra).
    assert (Dw : 199 / 100 * w <= den) by lra.
    split; [lra|]. split; [lra|].
    (* the quotient *)
    assert (Pd : 0 < den) by lra.
    assert (Pdw : 0 < den * (2 * w)) by (apply Rmult_lt_0_compat; lra).
    assert (K : Rabs (num / den - N / (2 * w)) <= 101 / 10 * u * (S / (2 * w))).
    { replace (num / den - N / (2 * w)) with (((num - N) * (2 * w) - N * (den - 2 * w)) / (den * (2 * w))) by (field; lra).
      unfold Rdiv at 1. rewrite Rabs_mult, (Rabs_pos_eq (/ _)) by (left; apply Rinv_0_lt_compat; exact Pdw).
      apply Rmult_le_reg_r with (den * (2 * w)); [exact Pdw|].
      rewrite Rmult_assoc, Rinv_l, Rmult_1_r by (apply Rgt_not_eq; exact Pdw).
      replace (101 / 10 * u * (S / (2 * w)) * (den * (2 * w))) with (101 / 10 * (u * S) * den) by (field; lra).
      assert (X1 : Rabs ((num - N) * (2 * w)) <= 525 / 100 * (u * S) * (2 * w)).
      { rewrite Rabs_mult, (Rabs_pos_eq (2 * w)) by lra. apply Rmult_le_compat_r; [lra|]. apply Rabs_le; lra. }
      assert (X2 : Rabs (N * (den - 2 * w)) <= S * (815 / 100 * (u * w))).
      { rewrite Rabs_mult, (Rabs_pos_eq N) by lra. apply Rmult_le_compat; try lra; [apply Rabs_pos|]. apply Rabs_le; lra. }
      eapply Rle_trans; [apply (Rabs_triang _ (- _))|]. rewrite Rabs_Ropp.
      assert (u * S * w * (199 / 100) <= u * S * den).
      { rewrite Rmult_assoc. apply Rmult_le_compat_l; lra. }
      assert (0 <= u * S * w) by (apply Rmult_le_pos; lra).
      lra. }
    pose proof (rnd_err (num / den)) as Q. apply Rabs_le_inv in Q. apply Rabs_le_inv in K.
    assert (Pq : 0 <= num / den) by (apply Rmult_le_pos; [lra|]; left; apply Rinv_0_lt_compat; lra).
    rewrite Rabs_pos_eq in Q by exact Pq.
    set (r := S / (2 * w)) in *.
    assert (R1 : 1 <= r). { unfold r. apply Rmult_le_reg_r with (2 * w); [lra|]. unfold Rdiv. rewrite Rmult_assoc, Rinv_l; lra. }
    assert (Qr : num / den <= 102 / 100 * r).
    { apply Rmult_le_reg_r with den; [lra|]. unfold Rdiv at 1. rewrite Rmult_assoc, Rinv_l, Rmult_1_r by lra.
      assert (S = r * (2 * w)) by (unfold r; field; lra).
      assert (r * (199 / 100 * w) <= r * den) by (apply Rmult_le_compat_l; lra).
      assert (0 <= r * w) by (apply Rmult_le_pos; lra). lra. }
    assert (uQ : u * (num / den) <= u * (102 / 100 * r)) by (apply Rmult_le_compat_l; lra).
    assert (ur : u <= u * r) by (rewrite <- (Rmult_1_r u) at 1; apply Rmult_le_compat_l; lra).
    assert (wr : u * w <= u * S / 2) by lra.
    assert (hu : h * h <= u / 1000) by lra.
    apply Rabs_le. split; lra.
  Qed.

  (** A product and a quotient: [f * x / y]. *)
  Lemma r_ratio_err f x y : 0 <= f -> 0 <= x -> 0 < y ->
    Rabs (rnd (rnd (f * x) / y) * y - f * x) <= 201 / 100 * u * (f * x) + 2 * (h * h) + y * (h * h).
  Proof.
    intros Pf Px Py. set (p := f * x). assert (Pp : 0 <= p) by (apply Rmult_le_pos; assumption).
    pose proof (rnd_err p) as F. rewrite (Rabs_pos_eq p) in F by exact Pp. apply Rabs_le_inv in F.
    set (q := rnd p) in *. pose proof (rnd_err (q / y)) as G. set (r := rnd (q / y)) in *.
    assert (E : Rabs (r * y - q) <= u * Rabs q + y * (h * h)).
    { replace (r * y - q) with ((r - q / y) * y) by (field; lra).
      rewrite Rabs_mult, (Rabs_pos_eq y) by lra.
      eapply Rle_trans; [apply Rmult_le_compat_r; [lra | exact G]|].
      unfold Rdiv. rewrite Rabs_mult, (Rabs_pos_eq (/ y)) by (left; apply Rinv_0_lt_compat; lra).
      right. field. lra. }
    assert (H2 : 0 <= h * h <= h / 1000) by nra.
    assert (up : 0 <= u * p) by (apply Rmult_le_pos; lra).
    assert (uup : 0 <= u * (u * p) <= / 1000 * (u * p)) by (split; [apply Rmult_le_pos | apply Rmult_le_compat_r]; lra).
    assert (uh : 0 <= u * (h * h) <= / 1000 * (h * h)) by (split; [apply Rmult_le_pos | apply Rmult_le_compat_r]; lra).
    assert (A : Rabs q <= p + u * p + h * h) by (apply Rabs_le; lra).
    assert (uA : u * Rabs q <= u * (p + u * p + h * h)) by (apply Rmult_le_compat_l; lra).
    apply Rabs_le_inv in E. apply Rabs_le. split; lra.
  Qed.
End Rounding.

(* ------------------------------------------------------------ doubles *)
Notation B := (B2R 53 1024).
Notation fin := (is_finite 53 1024).

(** Rounding to the nearest double, ties to even (without overflow). *)
Definition rnd64 (x : R) : R := round radix2 (FLT_exp (-1074) 53) ZnearestE x.
Definition u64 : R := / 9007199254740992.
Definition h64 : R := bpow radix2 (-537).

Lemma u64_range : 0 <= u64 <= / 1000.
Proof. unfold u64. lra. Qed.

Lemma h64_small : 0 <= h64 <= / 1000000000000000000000000000000 * u64.
Proof.
  unfold h64, u64. split; [apply bpow_ge_0|].
  apply Rle_trans with (bpow radix2 (-200)); [apply bpow_le; lia|].
  cbn. lra.
Qed.

Lemma h64_range : 0 <= h64 <= u64.
Proof. pose proof h64_small. pose proof u64_range. lra. Qed.

Lemma rnd64_err x : Rabs (rnd64 x - x) <= u64 * Rabs x + h64 * h64.
Proof.
  unfold rnd64. destruct (error_N_FLT radix2 (-1074) 53 eq_refl (fun x => negb (Z.even x)) x) as (e & n & He & Hn & _ & ->).
  replace (x * (1 + e) + n - x) with (e * x + n) by ring.
  eapply Rle_trans; [apply Rabs_triang|]. rewrite Rabs_mult. apply Rplus_le_compat.
  - apply Rmult_le_compat_r; [apply Rabs_pos|]. eapply Rle_trans; [exact He|]. unfold u64. cbn. lra.
  - eapply Rle_trans; [exact Hn|].
    assert (E : h64 * h64 = bpow radix2 (-1074)) by (unfold h64; rewrite <- bpow_plus; reflexivity).
    rewrite E. pose proof (bpow_gt_0 radix2 (-1074)) as P. set (b := bpow radix2 (-1074)) in *. clearbody b. lra.
Qed.

Lemma rnd64_nonneg x : 0 <= x -> 0 <= rnd64 x.
Proof.
  intros H. unfold rnd64. apply round_ge_generic.
  - apply FLT_exp_valid. reflexivity.
  - apply valid_rnd_N.
  - apply generic_format_0.
  - exact H.
Qed.

Definition huge : R := 1000000000000000000000000000000000000000000000000000000000000.

Lemma rnd64_lt x : Rabs x <= huge -> Rabs (rnd64 x) < bpow radix2 1024.
Proof.
  intros H. pose proof (rnd64_err x) as E. pose proof u64_range. pose proof h64_range. pose proof (Rabs_pos x).
  apply Rlt_trans with (bpow radix2 300); [|apply bpow_lt; lia].
  assert (Rabs (rnd64 x) <= Rabs (rnd64 x - x) + Rabs x).
  { replace (rnd64 x) with (rnd64 x - x + x) at 1 by ring. apply Rabs_triang. }
  assert (u64 * Rabs x <= / 1000 * huge) by (apply Rmult_le_compat; lra).
  assert (h64 * h64 <= 1) by nra.
  apply Rle_lt_trans with (2 * huge); [unfold huge in *; lra | unfold huge; cbn; lra].
Qed.

Lemma lt_bool x : Rabs x <= huge -> Rlt_bool (Rabs (rnd64 x)) (bpow radix2 1024) = true.
Proof. intros H. apply Rlt_bool_true, rnd64_lt, H. Qed.

Lemma fadd_ok x y : fin x = true -> fin y = true -> Rabs (B x + B y) <= huge ->
  fin (fadd x y) = true /\ B (fadd x y) = rnd64 (B x + B y).
Proof.
  intros Fx Fy H. pose proof (Bplus_correct 53 1024 eq_refl eq_refl binop_nan_pl64 BinarySingleNaN.mode_NE x y Fx Fy) as E.
  pose proof (lt_bool _ H) as L. unfold rnd64 in L.
  change (SpecFloat.fexp 53 1024) with (FLT_exp (-1074) 53) in E. cbn [BinarySingleNaN.round_mode] in E.
  rewrite L in E. destruct E as (E1 & E2 & _). split; assumption.
Qed.

Lemma fsub_ok x y : fin x = true -> fin y = true -> Rabs (B x - B y) <= huge ->
  fin (fsub x y) = true /\ B (fsub x y) = rnd64 (B x - B y).
Proof.
  intros Fx Fy H. pose proof (Bminus_correct 53 1024 eq_refl eq_refl binop_nan_pl64 BinarySingleNaN.mode_NE x y Fx Fy) as E.
  pose proof (lt_bool _ H) as L. unfold rnd64 in L.
  change (SpecFloat.fexp 53 1024) with (FLT_exp (-1074) 53) in E. cbn [BinarySingleNaN.round_mode] in E.
  rewrite L in E. destruct E as (E1 & E2 & _). split; assumption.
Qed.

Lemma fmul_ok x y : fin x = true -> fin y = true -> Rabs (B x * B y) <= huge ->
  fin (fmul x y) = true /\ B (fmul x y) = rnd64 (B x * B y).
Proof.
  intros Fx Fy H. pose proof (Bmult_correct 53 1024 eq_refl eq_refl binop_nan_pl64 BinarySingleNaN.mode_NE x y) as E.
  pose proof (lt_bool _ H) as L. unfold rnd64 in L.
  change (SpecFloat.fexp 53 1024) with (FLT_exp (-1074) 53) in E. cbn [BinarySingleNaN.round_mode] in E.
  rewrite L, Fx, Fy in E. destruct E as (E1 & E2 & _). split; assumption.
Qed.

Lemma fquo_ok x y : fin x = true -> B y <> 0 -> Rabs (B x / B y) <= huge ->
  fin (fquo x y) = true /\ B (fquo x y) = rnd64 (B x / B y).
Proof.
  intros Fx Ny H. pose proof (Bdiv_correct 53 1024 eq_refl eq_refl binop_nan_pl64 BinarySingleNaN.mode_NE x y Ny) as E.
  pose proof (lt_bool _ H) as L. unfold rnd64 in L.
  change (SpecFloat.fexp 53 1024) with (FLT_exp (-1074) 53) in E. cbn [BinarySingleNaN.round_mode] in E.
  rewrite L, Fx in E. destruct E as (E1 & E2 & _). split; assumption.
Qed.

Lemma fsqrt_ok x : fin x = true -> 0 <= B x -> fin (fsqrt x) = true /\ B (fsqrt x) = rnd64 (sqrt (B x)).
Proof.
  intros Fx P. destruct (Bsqrt_correct 53 1024 eq_refl eq_refl unop_nan_pl64 BinarySingleNaN.mode_NE x) as (E1 & E2 & _).
  split; [|exact E1]. unfold fsqrt, b64_sqrt. cbv zeta. rewrite E2.
  destruct x as [s|s|s pl e|s m e b]; try discriminate; [reflexivity|].
  destruct s; [exfalso | reflexivity]. cbn in P. unfold F2R in P. cbn [Fnum Fexp] in P.
  pose proof (bpow_gt_0 radix2 e). assert (IZR (Z.neg m) < 0) by (apply IZR_lt; lia). nra.
Qed.

Lemma fabs_ok x : fin (fabs x) = fin x /\ B (fabs x) = Rabs (B x).
Proof. split; [apply is_finite_Babs | apply B2R_Babs]. Qed.

Lemma fgt_ok x y : fin x = true -> fin y = true -> fgt x y = true <-> B y < B x.
Proof.
  intros Fx Fy. unfold fgt, b64_compare. rewrite Bcompare_correct by assumption.
  destruct (Rcompare_spec (B x) (B y)); split; intros; try discriminate; try reflexivity; lra.
Qed.

Lemma B_two : B f_two = 2.
Proof. cbn. unfold F2R. cbn. lra. Qed.
Lemma B_one : B f_one = 1.
Proof. cbn. unfold F2R. cbn. lra. Qed.
Lemma B_zero : B f_zero = 0.
Proof. reflexivity. Qed.
Lemma B_tolerance : Rabs (B f_tolerance - / 100000000) <= / 1000000000000000000000000.
Proof. cbn. unfold F2R. cbn. apply Rabs_le. split; lra. Qed.
