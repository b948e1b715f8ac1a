(** C77: what double precision makes of the view factors between surfaces.

    The other theorems compute with real numbers. These ones are about the numbers numpy
    computes with (ModelFloat.v), compared with the exact values. *)
From Coq Require Import Reals ZArith List Lra Lia Psatz.
From Flocq Require Import Core Binary Bits.
From Verif Require Import Num SpecGeom SpecVF ModelFloat ProofFloat.
Import ListNotations.
Open Scope R_scope.

(** A double is a number (neither infinite nor NaN), not above 1e9 in absolute value. *)
Definition number (x : float) : Prop := is_finite 53 1024 x = true /\ Rabs (B2R 53 1024 x) <= 1000000000.
Definition point_ok (p : fpt) : Prop := number (fx p) /\ number (fy p).
Definition line_ok (l : fline) : Prop := point_ok (fb1 l) /\ point_ok (fb2 l).
(** The real number, point it stands for. *)
Definition val (x : float) : R := B2R 53 1024 x.
Definition exact_pt (p : fpt) : pt := Pt (val (fx p)) (val (fy p)).
(** Half the distance between 1 and the next double. *)
Definition unit_roundoff : R := / 2 ^ 53.

(** The four strings between the ends of two segments, crossed and uncrossed, and the width of
    the first. *)
Definition crossed (l1 l2 : fline) : R :=
  euclid (exact_pt (fb1 l1)) (exact_pt (fb2 l2)) + euclid (exact_pt (fb2 l1)) (exact_pt (fb1 l2)).
Definition uncrossed (l1 l2 : fline) : R :=
  euclid (exact_pt (fb1 l1)) (exact_pt (fb1 l2)) + euclid (exact_pt (fb2 l1)) (exact_pt (fb2 l2)).
Definition width (l : fline) : R := euclid (exact_pt (fb1 l)) (exact_pt (fb2 l)).
(** Hottel's formula. *)
Definition exact_vf (l1 l2 : fline) : R := Rabs (crossed l1 l2 - uncrossed l1 l2) / (2 * width l1).

Lemma roundoff_u64 : unit_roundoff = u64.
Proof. unfold unit_roundoff, u64. f_equal. lra. Qed.

Lemma euclid_norm p q : euclid (exact_pt p) (exact_pt q) =
  norm2 (val (fy q) - val (fy p)) (val (fx q) - val (fx p)).
Proof. unfold euclid, dist2, norm2, exact_pt. cbn [px py]. f_equal. ring. Qed.

Lemma euclid_sym' p q : euclid p q = euclid q p.
Proof. unfold euclid, dist2. f_equal. ring. Qed.

Lemma euclid_tri p q r : euclid p r <= euclid p q + euclid q r.
Proof.
  assert (E : forall a b, euclid a b = norm2 (py b - py a) (px b - px a)) by (intros; unfold euclid, dist2, norm2; f_equal; ring).
  rewrite !E. replace (py r - py p) with ((py q - py p) + (py r - py q)) by ring.
  replace (px r - px p) with ((px q - px p) + (px r - px q)) by ring. apply norm2_triangle.
Qed.

Lemma euclid_pos p q : 0 <= euclid p q.
Proof. apply sqrt_pos. Qed.

Lemma euclid_small p q : point_ok p -> point_ok q -> euclid (exact_pt p) (exact_pt q) <= 4000000000.
Proof.
  intros [[_ X1] [_ Y1]] [[_ X2] [_ Y2]]. rewrite euclid_norm. unfold val.
  apply Rabs_le_inv in X1, X2, Y1, Y2. apply norm2_le; [lra|].
  assert (D : forall a b, -1000000000 <= a <= 1000000000 -> -1000000000 <= b <= 1000000000 ->
    (a - b) * (a - b) <= 4000000000000000000) by (intros a b ? ?; nra).
  pose proof (D _ _ X2 X1). pose proof (D _ _ Y2 Y1). lra.
Qed.

Lemma rnd64_small x : Rabs (rnd64 x) <= 1001 / 1000 * Rabs x + 1.
Proof.
  pose proof (rnd64_err x) as E. pose proof u64_range. pose proof h64_range. pose proof (Rabs_pos x).
  assert (Rabs (rnd64 x) <= Rabs (rnd64 x - x) + Rabs x).
  { replace (rnd64 x) with (rnd64 x - x + x) at 1 by ring. apply Rabs_triang. }
  assert (u64 * Rabs x <= / 1000 * Rabs x) by (apply Rmult_le_compat_r; lra).
  assert (h64 * h64 <= 1) by nra. lra.
Qed.

Lemma distance_ok p q : point_ok p -> point_ok q ->
  fin (f_distance p q) = true /\ 0 <= B (f_distance p q) /\
  Rabs (B (f_distance p q) - euclid (exact_pt p) (exact_pt q)) <=
    301 / 100 * u64 * euclid (exact_pt p) (exact_pt q) + 4 * h64.
Proof.
  intros [[FX1 X1] [FY1 Y1]] [[FX2 X2] [FY2 Y2]]. rewrite euclid_norm.
  unfold val, f_distance. apply Rabs_le_inv in X1, X2, Y1, Y2.
  assert (Hy : Rabs (B (fy q) - B (fy p)) <= 2000000000) by (apply Rabs_le; lra).
  assert (Hx : Rabs (B (fx q) - B (fx p)) <= 2000000000) by (apply Rabs_le; lra).
  destruct (fsub_ok _ _ FY2 FY1) as [Fdy Edy]; [unfold huge; lra|].
  destruct (fsub_ok _ _ FX2 FX1) as [Fdx Edx]; [unfold huge; lra|].
  set (dy := fsub (fy q) (fy p)) in *. set (dx := fsub (fx q) (fx p)) in *. cbv zeta.
  pose proof (rnd64_small (B (fy q) - B (fy p))) as Sy. rewrite <- Edy in Sy.
  pose proof (rnd64_small (B (fx q) - B (fx p))) as Sx. rewrite <- Edx in Sx.
  assert (SQ : forall a, Rabs a <= 3000000000 -> Rabs (a * a) <= 9000000000000000000).
  { intros a Ha. rewrite Rabs_mult. pose proof (Rabs_pos a). nra. }
  assert (Qy := SQ (B dy) ltac:(lra)). assert (Qx := SQ (B dx) ltac:(lra)).
  destruct (fmul_ok dy dy Fdy Fdy) as [Fyy Eyy]; [unfold huge; lra|].
  destruct (fmul_ok dx dx Fdx Fdx) as [Fxx Exx]; [unfold huge; lra|].
  pose proof (rnd64_small (B dy * B dy)) as Syy. rewrite <- Eyy in Syy.
  pose proof (rnd64_small (B dx * B dx)) as Sxx. rewrite <- Exx in Sxx.
  assert (Pyy : 0 <= B (fmul dy dy)) by (rewrite Eyy; apply rnd64_nonneg; nra).
  assert (Pxx : 0 <= B (fmul dx dx)) by (rewrite Exx; apply rnd64_nonneg; nra).
  rewrite Rabs_pos_eq in Syy by exact Pyy. rewrite Rabs_pos_eq in Sxx by exact Pxx.
  destruct (fadd_ok _ _ Fyy Fxx) as [Fs Es]; [rewrite Rabs_pos_eq by lra; unfold huge; lra|].
  assert (Ps : 0 <= B (fadd (fmul dy dy) (fmul dx dx))) by (rewrite Es; apply rnd64_nonneg; lra).
  destruct (fsqrt_ok _ Fs Ps) as [Fr Er]. split; [exact Fr|]. rewrite Er. split; [apply rnd64_nonneg, sqrt_pos|].
  rewrite Es, Eyy, Exx, Edy, Edx.
  exact (r_norm_err rnd64 u64 h64 u64_range h64_range rnd64_err (B (fy q) - B (fy p)) (B (fx q) - B (fx p))).
Qed.

Lemma length_distance l : f_length l = f_distance (fb1 l) (fb2 l).
Proof. reflexivity. Qed.

(** A distance is a number, never negative, with three units of rounding at most (and at most
    1e-150 m of underflow). *)
Theorem C77_distance p q : point_ok p -> point_ok q ->
  is_finite 53 1024 (f_distance p q) = true /\ 0 <= val (f_distance p q) /\
  Rabs (val (f_distance p q) - euclid (exact_pt p) (exact_pt q)) <=
    4 * unit_roundoff * euclid (exact_pt p) (exact_pt q) + / 10 ^ 150.
Proof.
  intros Hp Hq. destruct (distance_ok p q Hp Hq) as (F & P & E). split; [exact F|]. split; [exact P|].
  rewrite roundoff_u64. eapply Rle_trans; [exact E|].
  pose proof (euclid_pos (exact_pt p) (exact_pt q)). pose proof u64_range.
  assert (0 <= u64 * euclid (exact_pt p) (exact_pt q)) by (apply Rmult_le_pos; lra).
  assert (4 * h64 <= / 10 ^ 150); [|lra]. unfold h64.
  apply Rle_trans with (4 * bpow radix2 (-510)); [apply Rmult_le_compat_l; [lra|]; apply bpow_le; lia|].
  cbn. lra.
Qed.

Section Pair.
  Variables l1 l2 : fline.
  Hypothesis ok1 : line_ok l1.
  Hypothesis ok2 : line_ok l2.

  Lemma strings_ge : 2 * width l1 <= crossed l1 l2 + uncrossed l1 l2.
  Proof.
    unfold width, crossed, uncrossed.
    pose proof (euclid_tri (exact_pt (fb1 l1)) (exact_pt (fb1 l2)) (exact_pt (fb2 l1))).
    pose proof (euclid_tri (exact_pt (fb1 l1)) (exact_pt (fb2 l2)) (exact_pt (fb2 l1))).
    rewrite (euclid_sym' (exact_pt (fb1 l2)) (exact_pt (fb2 l1))) in *.
    rewrite (euclid_sym' (exact_pt (fb2 l2)) (exact_pt (fb2 l1))) in *. lra.
  Qed.

  Lemma wide : fgt (f_length l1) f_tolerance = true -> / 101000000 <= width l1.
  Proof.
    intros G. destruct ok1 as [o1 o2]. destruct (distance_ok _ _ o1 o2) as (F & P & E).
    apply fgt_ok in G; [|exact F | reflexivity]. rewrite length_distance in G.
    pose proof B_tolerance as T. apply Rabs_le_inv in T. apply Rabs_le_inv in E. fold (width l1) in E.
    pose proof (euclid_pos (exact_pt (fb1 l1)) (exact_pt (fb2 l1))) as W. fold (width l1) in W.
    pose proof u64_range. pose proof h64_small.
    assert (u64 * width l1 <= / 100000 * width l1) by (apply Rmult_le_compat_r; [exact W | unfold u64; lra]).
    unfold u64 in *. lra.
  Qed.

  Lemma vf_ok : fgt (f_length l1) f_tolerance = true ->
    let v := f_vf_surface_to_surface l1 l2 (f_length l1) in
    fin v = true /\ 0 <= B v /\ B v <= 200000000000000000000 /\
    Rabs (B v - exact_vf l1 l2) <= 12 * u64 * ((crossed l1 l2 + uncrossed l1 l2) / (2 * width l1)).
  Proof.
    intros G v. pose proof (wide G) as W. destruct ok1 as [a1 a2]. destruct ok2 as [c1 c2].
    destruct (distance_ok _ _ a1 c1) as (F1 & P1 & E1). destruct (distance_ok _ _ a2 c2) as (F2 & P2 & E2).
    destruct (distance_ok _ _ a1 c2) as (F3 & P3 & E3). destruct (distance_ok _ _ a2 c1) as (F4 & P4 & E4).
    destruct (distance_ok _ _ a1 a2) as (Fw & Pw & Ew).
    pose proof (euclid_small _ _ a1 c1) as M1. pose proof (euclid_small _ _ a2 c2) as M2.
    pose proof (euclid_small _ _ a1 c2) as M3. pose proof (euclid_small _ _ a2 c1) as M4.
    pose proof (euclid_small _ _ a1 a2 ) as Mw.
    unfold v, f_vf_surface_to_surface. rewrite G. cbv zeta.
    set (d1 := f_distance (fb1 l1) (fb1 l2)) in *. set (d2 := f_distance (fb2 l1) (fb2 l2)) in *.
    set (d3 := f_distance (fb1 l1) (fb2 l2)) in *. set (d4 := f_distance (fb2 l1) (fb1 l2)) in *.
    rewrite length_distance. set (dw := f_distance (fb1 l1) (fb2 l1)) in *.
    set (L1 := euclid (exact_pt (fb1 l1)) (exact_pt (fb1 l2))) in *.
    set (L2 := euclid (exact_pt (fb2 l1)) (exact_pt (fb2 l2))) in *.
    set (L3 := euclid (exact_pt (fb1 l1)) (exact_pt (fb2 l2))) in *.
    set (L4 := euclid (exact_pt (fb2 l1)) (exact_pt (fb1 l2))) in *.
    fold (width l1) in Ew, Mw.
    assert (N1 : 0 <= L1) by apply euclid_pos. assert (N2 : 0 <= L2) by apply euclid_pos.
    assert (N3 : 0 <= L3) by apply euclid_pos. assert (N4 : 0 <= L4) by apply euclid_pos.
    pose proof strings_ge as S2. unfold crossed, uncrossed in S2. fold L1 L2 L3 L4 in S2.
    pose proof h64_small as Hh. pose proof u64_range as Hu.
    assert (Hw : 100 * h64 <= u64 * width l1).
    { apply Rle_trans with (u64 * / 101000000); [lra|]. apply Rmult_le_compat_l; lra. }
    destruct (r_vf_err rnd64 u64 h64 u64_range h64_range rnd64_err (B d1) (B d2) (B d3) (B d4) (B dw)
      L1 L2 L3 L4 (width l1) N1 N2 N3 N4 ltac:(lra) ltac:(lra) Hw E1 E2 E3 E4 Ew) as (Den & Num & Err).
    assert (BD : forall d L, Rabs (B d - L) <= 301 / 100 * u64 * L + 4 * h64 -> 0 <= L -> L <= 4000000000 -> B d <= 5000000000).
    { intros d L E Z K. apply Rabs_le_inv in E. assert (u64 * L <= / 1000 * 4000000000) by (apply Rmult_le_compat; lra).
      assert (h64 <= 1) by (unfold u64 in *; lra). lra. }
    assert (Q1 := BD _ _ E1 N1 M1). assert (Q2 := BD _ _ E2 N2 M2). assert (Q3 := BD _ _ E3 N3 M3).
    assert (Q4 := BD _ _ E4 N4 M4). assert (Qw := BD _ _ Ew ltac:(lra) Mw).
    destruct (fadd_ok d1 d2 F1 F2) as [Fs1 Es1]; [rewrite Rabs_pos_eq by lra; unfold huge; lra|].
    destruct (fadd_ok d3 d4 F3 F4) as [Fs2 Es2]; [rewrite Rabs_pos_eq by lra; unfold huge; lra|].
    assert (T1 := rnd64_small (B d1 + B d2)). rewrite <- Es1, (Rabs_pos_eq (_ + _)) in T1 by lra.
    assert (T2 := rnd64_small (B d3 + B d4)). rewrite <- Es2, (Rabs_pos_eq (_ + _)) in T2 by lra.
    apply Rabs_le_inv in T1. apply Rabs_le_inv in T2.
    destruct (fsub_ok _ _ Fs2 Fs1) as [Fd Ed]; [apply Rabs_le; unfold huge; lra|].
    destruct (fabs_ok (fsub (fadd d3 d4) (fadd d1 d2))) as [Fa Ea]. rewrite Fd in Fa.
    destruct (fmul_ok f_two dw eq_refl Fw) as [Fm Em]; [rewrite B_two, Rabs_pos_eq by lra; unfold huge; lra|].
    rewrite B_two in Em. rewrite <- Em in Den.
    rewrite <- Es1, <- Es2, <- Ed, <- Ea, <- Em in Err. rewrite <- Es1, <- Es2, <- Ed, <- Ea in Num.
    set (num := fabs (fsub (fadd d3 d4) (fadd d1 d2))) in *. set (den := fmul f_two dw) in *.
    assert (Pn : 0 <= B num) by (rewrite Ea; apply Rabs_pos).
    assert (Pq : 0 <= B num / B den) by (apply Rmult_le_pos; [lra|]; left; apply Rinv_0_lt_compat; lra).
    assert (Uq : B num / B den <= 40000000000 * 101000000).
    { apply Rmult_le_reg_r with (B den); [lra|]. unfold Rdiv. rewrite Rmult_assoc, Rinv_l, Rmult_1_r by lra. lra. }
    destruct (fquo_ok num den Fa) as [Fq Eq]; [lra | rewrite Rabs_pos_eq by exact Pq; unfold huge; lra|].
    split; [exact Fq|]. rewrite Eq. split; [apply rnd64_nonneg, Pq|]. split.
    - pose proof (rnd64_small (B num / B den)) as K. rewrite (Rabs_pos_eq (B num / B den)) in K by exact Pq.
      pose proof (Rle_abs (rnd64 (B num / B den))). lra.
    - unfold exact_vf, crossed, uncrossed. fold L1 L2 L3 L4.
      replace (L3 + L4 + (L1 + L2)) with (L1 + L2 + L3 + L4) by ring. exact Err.
  Qed.
End Pair.

(** A view factor is a number, never negative. It is within twelve units of rounding of the
    exact one, times the length of the strings over the width of the surface: the formula
    subtracts long strings from one another, so narrow surfaces are the ones that lose digits.
    Around the tolerance of 1e-8 m it may be zero instead. *)
Theorem C77_view_factor l1 l2 : line_ok l1 -> line_ok l2 ->
  let v := f_vf_surface_to_surface l1 l2 (f_length l1) in
  let close := Rabs (val v - exact_vf l1 l2) <=
                 12 * unit_roundoff * ((crossed l1 l2 + uncrossed l1 l2) / (2 * width l1)) in
  is_finite 53 1024 v = true /\ 0 <= val v /\
  (val v = 0 \/ close) /\
  (100000001 / 10 ^ 16 <= width l1 -> close) /\
  (width l1 <= 99999999 / 10 ^ 16 -> val v = 0).
Proof.
  intros o1 o2 v close. unfold close, val. rewrite roundoff_u64.
  assert (Z : fgt (f_length l1) f_tolerance = false -> v = f_zero) by (intros G; unfold v, f_vf_surface_to_surface; rewrite G; reflexivity).
  pose proof (vf_ok l1 l2 o1 o2) as K. pose proof (wide l1 o1) as Wd.
  assert (T : fgt (f_length l1) f_tolerance = true <-> B f_tolerance < B (f_length l1)).
  { apply fgt_ok; [|reflexivity]. destruct o1 as [a1 a2]. apply (distance_ok _ _ a1 a2). }
  assert (D : - (/ 1000000000000 * width l1 + / 1000000000000000000000000) <= B (f_length l1) - width l1 <= / 1000000000000 * width l1 + / 1000000000000000000000000).
  { destruct o1 as [a1 a2]. destruct (distance_ok _ _ a1 a2) as (_ & _ & E). rewrite length_distance. fold (width l1) in E.
    apply Rabs_le_inv in E. pose proof (euclid_pos (exact_pt (fb1 l1)) (exact_pt (fb2 l1))) as P. fold (width l1) in P.
    assert (301 / 100 * u64 * width l1 <= / 1000000000000 * width l1) by (apply Rmult_le_compat_r; [exact P | unfold u64; lra]).
    pose proof h64_small. unfold u64 in *. lra. }
  pose proof B_tolerance as Tol. apply Rabs_le_inv in Tol.
  destruct (fgt (f_length l1) f_tolerance) eqn:G.
  - destruct (K eq_refl) as (F & P & _ & E). split; [exact F|]. split; [exact P|]. split; [right; exact E|].
    split; [intros _; exact E|]. intros W. exfalso. apply proj1 in T. specialize (T eq_refl). lra.
  - rewrite (Z eq_refl). split; [reflexivity|]. split; [apply Rle_refl|]. split; [left; reflexivity|].
    split; [|reflexivity]. intros W. exfalso. assert (false = true); [|discriminate]. apply T. lra.
Qed.

(** With coordinates up to a kilometre and surfaces of a millimetre or more, that is less than
    1e-8. *)
Theorem C77_usual l1 l2 : line_ok l1 -> line_ok l2 ->
  (forall p, In p [fb1 l1; fb2 l1; fb1 l2; fb2 l2] -> Rabs (val (fx p)) <= 1000 /\ Rabs (val (fy p)) <= 1000) ->
  / 1000 <= width l1 ->
  Rabs (val (f_vf_surface_to_surface l1 l2 (f_length l1)) - exact_vf l1 l2) <= / 10 ^ 8.
Proof.
  intros o1 o2 K W. destruct (C77_view_factor l1 l2 o1 o2) as (_ & _ & _ & E & _).
  specialize (E ltac:(lra)). cbv zeta in E. eapply Rle_trans; [exact E|].
  assert (D : forall p q, In p [fb1 l1; fb2 l1; fb1 l2; fb2 l2] -> In q [fb1 l1; fb2 l1; fb1 l2; fb2 l2] ->
    euclid (exact_pt p) (exact_pt q) <= 3000).
  { intros p q Hp Hq. destruct (K p Hp) as [X1 Y1]. destruct (K q Hq) as [X2 Y2]. rewrite euclid_norm.
    apply Rabs_le_inv in X1, X2, Y1, Y2. apply norm2_le; [lra|].
    assert (Z : forall a b, -1000 <= a <= 1000 -> -1000 <= b <= 1000 -> (a - b) * (a - b) <= 4000000) by (intros a b ? ?; nra).
    pose proof (Z _ _ X2 X1). pose proof (Z _ _ Y2 Y1). lra. }
  assert (S : crossed l1 l2 + uncrossed l1 l2 <= 12000).
  { unfold crossed, uncrossed.
    pose proof (D (fb1 l1) (fb2 l2) ltac:(cbn; tauto) ltac:(cbn; tauto)). pose proof (D (fb2 l1) (fb1 l2) ltac:(cbn; tauto) ltac:(cbn; tauto)).
    pose proof (D (fb1 l1) (fb1 l2) ltac:(cbn; tauto) ltac:(cbn; tauto)). pose proof (D (fb2 l1) (fb2 l2) ltac:(cbn; tauto) ltac:(cbn; tauto)). lra. }
  assert (Q : (crossed l1 l2 + uncrossed l1 l2) / (2 * width l1) <= 6000000).
  { apply Rmult_le_reg_r with (2 * width l1); [lra|]. unfold Rdiv. rewrite Rmult_assoc, Rinv_l, Rmult_1_r by lra. lra. }
  rewrite roundoff_u64. apply Rle_trans with (12 * u64 * 6000000); [|unfold u64; lra].
  apply Rmult_le_compat_l; [unfold u64; lra | exact Q].
Qed.

Lemma length_rel l : line_ok l -> fgt (f_length l) f_tolerance = true ->
  fin (f_length l) = true /\ / 102000000 <= B (f_length l) <= 5000000000 /\ 0 < width l /\
  - (31 / 10 * (u64 * width l)) <= B (f_length l) - width l <= 31 / 10 * (u64 * width l).
Proof.
  intros o G. pose proof (wide l o G) as W. destruct o as [a1 a2]. destruct (distance_ok _ _ a1 a2) as (F & P & E).
  pose proof (euclid_small _ _ a1 a2) as M. rewrite length_distance. fold (width l) in *. split; [exact F|].
  apply Rabs_le_inv in E. pose proof h64_small as H. pose proof u64_range as U.
  assert (Hw : u64 * / 101000000 <= u64 * width l) by (apply Rmult_le_compat_l; lra).
  assert (Us : 0 <= u64 * width l <= / 10000000 * width l) by (split; [apply Rmult_le_pos; lra | apply Rmult_le_compat_r; [lra | unfold u64; lra]]).
  split; [lra|]. split; [lra|]. lra.
Qed.

(** The two view factors of a pair are reciprocal up to nine units of rounding. *)
Theorem C77_reciprocity li lj : line_ok li -> line_ok lj ->
  let vij := fst (f_vf_pair li lj) in
  let vji := snd (f_vf_pair li lj) in
  is_finite 53 1024 vji = true /\ 0 <= val vji /\
  (100000001 / 10 ^ 16 <= width li -> 100000001 / 10 ^ 16 <= width lj ->
   Rabs (width lj * val vji - width li * val vij) <= 9 * unit_roundoff * (width li * val vij) + / 10 ^ 150).
Proof.
  intros oi oj. unfold f_vf_pair. cbv zeta. cbn [fst snd]. unfold val. rewrite roundoff_u64.
  assert (Wd : forall l, line_ok l -> 100000001 / 10 ^ 16 <= width l -> fgt (f_length l) f_tolerance = true).
  { intros l o W. apply fgt_ok; [|reflexivity|].
    - destruct o as [a1 a2]. apply (distance_ok _ _ a1 a2).
    - destruct o as [a1 a2]. destruct (distance_ok _ _ a1 a2) as (_ & _ & E). rewrite length_distance. fold (width l) in E.
      apply Rabs_le_inv in E. pose proof B_tolerance as Tol. apply Rabs_le_inv in Tol. pose proof h64_small.
      assert (301 / 100 * u64 * width l <= / 1000000000000 * width l) by (apply Rmult_le_compat_r; [lra | unfold u64; lra]).
      unfold u64 in *. lra. }
  destruct (C77_view_factor li lj oi oj) as (Fv & Pv & _). unfold val in Pv.
  set (v := f_vf_surface_to_surface li lj (f_length li)) in *.
  destruct (fgt (f_length lj) f_tolerance) eqn:Gj.
  2:{ split; [reflexivity|]. split; [apply Rle_refl|]. intros _ W. rewrite (Wd lj oj W) in Gj. discriminate. }
  destruct (length_rel lj oj Gj) as (Fj & Bj & Pj & Ej).
  assert (Uv : B v <= 200000000000000000000).
  { destruct (fgt (f_length li) f_tolerance) eqn:Gi.
    - apply (vf_ok li lj oi oj Gi).
    - unfold v, f_vf_surface_to_surface. rewrite Gi. cbn. lra. }
  assert (Li : fin (f_length li) = true /\ 0 <= B (f_length li) <= 5000000000).
  { destruct oi as [a1 a2]. destruct (distance_ok _ _ a1 a2) as (F & P & E). rewrite length_distance. split; [exact F|].
    split; [exact P|]. pose proof (euclid_small _ _ a1 a2) as M. apply Rabs_le_inv in E.
    pose proof (euclid_pos (exact_pt (fb1 li)) (exact_pt (fb2 li))).
    assert (u64 * euclid (exact_pt (fb1 li)) (exact_pt (fb2 li)) <= / 1000 * 4000000000) by (apply Rmult_le_compat; try lra; apply u64_range).
    pose proof h64_small. unfold u64 in *. lra. }
  destruct Li as (Fi & Bi).
  assert (M : 0 <= B v * B (f_length li) <= 200000000000000000000 * 5000000000) by (split; [apply Rmult_le_pos; lra | apply Rmult_le_compat; lra]).
  destruct (fmul_ok v (f_length li) Fv Fi) as [Fm Em]; [rewrite Rabs_pos_eq by lra; unfold huge; lra|].
  pose proof (rnd64_small (B v * B (f_length li))) as Sm. rewrite (Rabs_pos_eq (_ * _)) in Sm by lra.
  assert (Pm : 0 <= rnd64 (B v * B (f_length li))) by (apply rnd64_nonneg; lra).
  rewrite Rabs_pos_eq in Sm by exact Pm. rewrite <- Em in Sm, Pm.
  set (m := fmul v (f_length li)) in *.
  assert (Pq : 0 <= B m / B (f_length lj)) by (apply Rmult_le_pos; [lra|]; left; apply Rinv_0_lt_compat; lra).
  assert (Uq : B m / B (f_length lj) <= 10 ^ 50).
  { apply Rmult_le_reg_r with (B (f_length lj)); [lra|]. unfold Rdiv. rewrite Rmult_assoc, Rinv_l, Rmult_1_r by lra. lra. }
  destruct (fquo_ok m (f_length lj) Fm) as [Fq Eq]; [lra | rewrite Rabs_pos_eq by exact Pq; unfold huge; lra|].
  split; [exact Fq|]. rewrite Eq. split; [apply rnd64_nonneg, Pq|]. intros Wi _.
  destruct (length_rel li oi (Wd li oi Wi)) as (_ & _ & Pi & Ei).
  rewrite Em.
  pose proof (r_ratio_err rnd64 u64 h64 u64_range h64_range rnd64_err (B v) (B (f_length li)) (B (f_length lj)) Pv ltac:(lra) ltac:(lra)) as R0.
  set (r := rnd64 (rnd64 (B v * B (f_length li)) / B (f_length lj))) in *.
  assert (Pr : 0 <= r) by (unfold r; apply rnd64_nonneg; rewrite <- Em; exact Pq).
  assert (Tiny : 2 * (h64 * h64) + B (f_length lj) * (h64 * h64) <= / 10 ^ 151).
  { assert (h64 * h64 <= / 10 ^ 200).
    { unfold h64. rewrite <- bpow_plus. apply Rle_trans with (bpow radix2 (-700)); [apply bpow_le; lia | cbn; lra]. }
    assert (Hh : 0 <= h64 * h64) by (apply Rmult_le_pos; apply h64_small).
    assert (B (f_length lj) * (h64 * h64) <= 5000000000 * / 10 ^ 200) by (apply Rmult_le_compat; lra). lra. }
  apply Rabs_le_inv in R0. set (t := 2 * (h64 * h64) + B (f_length lj) * (h64 * h64)) in *.
  assert (U : 0 <= u64 <= / 100000000) by (unfold u64; lra).
  set (wi := width li) in *. set (wj := width lj) in *. set (ci := B (f_length li)) in *. set (cj := B (f_length lj)) in *.
  set (x := B v) in *.
  set (p := wi * x). set (a := cj * r). set (q := ci * x).
  assert (Pp : 0 <= p) by (apply Rmult_le_pos; lra).
  assert (E1 : - (31 / 10 * (u64 * p)) <= q - p <= 31 / 10 * (u64 * p)).
  { unfold p, q. replace (u64 * (wi * x)) with (u64 * wi * x) by ring.
    pose proof (Rmult_le_compat_r x _ _ Pv (proj1 Ei)). pose proof (Rmult_le_compat_r x _ _ Pv (proj2 Ei)). lra. }
  assert (E2 : - (31 / 10 * (u64 * (wj * r))) <= a - wj * r <= 31 / 10 * (u64 * (wj * r))).
  { unfold a. replace (u64 * (wj * r)) with (u64 * wj * r) by ring.
    pose proof (Rmult_le_compat_r r _ _ Pr (proj1 Ej)). pose proof (Rmult_le_compat_r r _ _ Pr (proj2 Ej)). lra. }
  assert (E3 : - (201 / 100 * (u64 * q) + t) <= a - q <= 201 / 100 * (u64 * q) + t).
  { unfold a, q, t. rewrite (Rmult_comm cj r), (Rmult_comm ci x). lra. }
  set (z := wj * r) in *. assert (Pz : 0 <= z) by (apply Rmult_le_pos; lra).
  assert (Pt : 0 <= t). { unfold t. assert (0 <= h64 * h64) by (apply Rmult_le_pos; apply h64_small). assert (0 <= cj * (h64 * h64)) by (apply Rmult_le_pos; lra). lra. }
  assert (Up : 0 <= u64 * p <= / 100000000 * p) by (split; [apply Rmult_le_pos | apply Rmult_le_compat_r]; lra).
  assert (Uz : 0 <= u64 * z <= / 100000000 * z) by (split; [apply Rmult_le_pos | apply Rmult_le_compat_r]; lra).
  assert (Uqq : u64 * q <= u64 * (101 / 100 * p)) by (apply Rmult_le_compat_l; lra).
  assert (Q0 : 0 <= u64 * q) by (apply Rmult_le_pos; lra).
  assert (Z1 : z <= 102 / 100 * p + 2 * t) by lra.
  assert (Uzz : u64 * z <= u64 * (102 / 100 * p + 2 * t)) by (apply Rmult_le_compat_l; lra).
  assert (Ut : u64 * t <= 1 * t) by (apply Rmult_le_compat_r; lra).
  apply Rabs_le. fold p. split; lra.
Qed.

(* ------------------------------------------------------------ the sky column *)
(** Exact sum of the values, and of their absolute values. *)
Definition exact_sum (l : list float) : R := fold_right Rplus 0 (map val l).
Definition exact_sum_abs (l : list float) : R := fold_right Rplus 0 (map (fun x => Rabs (val x)) l).

Lemma fold_plus_app a b : fold_right Rplus 0 (a ++ b) = fold_right Rplus 0 a + fold_right Rplus 0 b.
Proof. induction a as [|x a IH]; cbn; [|rewrite IH]; lra. Qed.

Lemma exact_sum_app a b : exact_sum (a ++ b) = exact_sum a + exact_sum b.
Proof. unfold exact_sum. rewrite map_app. apply fold_plus_app. Qed.

Lemma exact_sum_abs_app a b : exact_sum_abs (a ++ b) = exact_sum_abs a + exact_sum_abs b.
Proof. unfold exact_sum_abs. rewrite map_app. apply fold_plus_app. Qed.

Lemma exact_sum_le l : Rabs (exact_sum l) <= exact_sum_abs l.
Proof.
  unfold exact_sum, exact_sum_abs. induction l as [|x l IH]; cbn; [rewrite Rabs_R0; lra|].
  eapply Rle_trans; [apply Rabs_triang|]. lra.
Qed.

Lemma exact_sum_abs_pos l : 0 <= exact_sum_abs l.
Proof. eapply Rle_trans; [apply Rabs_pos | apply exact_sum_le]. Qed.

Lemma summands_pos o : 1 <= INR (length (summands o)).
Proof.
  apply (le_INR 1). induction o as [v|l IHl r IHr]; cbn [summands]; [apply le_n|]. rewrite app_length. lia.
Qed.

Lemma f_sum_ok o : (forall v, In v (summands o) -> fin v = true) -> exact_sum_abs (summands o) <= 1000000000 ->
  INR (length (summands o)) <= 1000000 ->
  fin (f_sum o) = true /\
  Rabs (B (f_sum o) - exact_sum (summands o)) <=
    2 * INR (length (summands o)) * u64 * exact_sum_abs (summands o) + (2 * INR (length (summands o)) - 1) * h64.
Proof.
  induction o as [v|l IHl r IHr]; intros Hf Hs Hn.
  - cbn [summands f_sum] in *. split; [apply Hf; left; reflexivity|].
    unfold exact_sum, exact_sum_abs, val in *. cbn in *. rewrite Rplus_0_r, Rminus_eq_0, Rabs_R0.
    pose proof (Rabs_pos (B v)). pose proof u64_range. pose proof h64_range.
    assert (0 <= u64 * (Rabs (B v) + 0)) by (apply Rmult_le_pos; lra). lra.
  - cbn [summands f_sum] in *. rewrite app_length, plus_INR, exact_sum_abs_app, exact_sum_app in *.
    pose proof (exact_sum_abs_pos (summands l)) as Al. pose proof (exact_sum_abs_pos (summands r)) as Ar.
    pose proof (summands_pos l) as Nl. pose proof (summands_pos r) as Nr.
    destruct IHl as [Fl El]; [intros v Hv; apply Hf, in_or_app; auto | lra | lra |].
    destruct IHr as [Fr Er]; [intros v Hv; apply Hf, in_or_app; auto | lra | lra |].
    pose proof (exact_sum_le (summands l)) as Sl. pose proof (exact_sum_le (summands r)) as Sr.
    set (nl := INR (length (summands l))) in *. set (nr := INR (length (summands r))) in *.
    set (al := exact_sum_abs (summands l)) in *. set (ar := exact_sum_abs (summands r)) in *.
    set (sl := exact_sum (summands l)) in *. set (sr := exact_sum (summands r)) in *.
    apply Rabs_le_inv in El, Er, Sl, Sr.
    pose proof u64_range as U. pose proof h64_small as H.
    set (n := nl + nr) in *. set (a := al + ar) in *.
    assert (un : 0 <= n * u64 <= 1000000 * u64) by (split; [apply Rmult_le_pos; unfold n; lra | apply Rmult_le_compat_r; lra]).
    assert (hn : 0 <= n * h64 <= 1000000 * h64) by (split; [apply Rmult_le_pos; unfold n; lra | apply Rmult_le_compat_r; lra]).
    (* the errors of the two halves together *)
    assert (L : 2 * nl * u64 * al + 2 * nr * u64 * ar <= 2 * (n - 1) * u64 * a).
    { assert (u64 * al * nl <= u64 * al * (n - 1)) by (apply Rmult_le_compat_l; [apply Rmult_le_pos; lra | unfold n; lra]).
      assert (u64 * ar * nr <= u64 * ar * (n - 1)) by (apply Rmult_le_compat_l; [apply Rmult_le_pos; lra | unfold n; lra]).
      unfold a. lra. }
    assert (Pa : 0 <= a) by (unfold a; lra).
    assert (ua : 0 <= u64 * a) by (apply Rmult_le_pos; lra).
    assert (e0 : 0 <= 2 * (n - 1) * u64 * a <= / 100 * a).
    { split.
      - replace (2 * (n - 1) * u64 * a) with (2 * ((n - 1) * (u64 * a))) by ring. assert (0 <= (n - 1) * (u64 * a)) by (apply Rmult_le_pos; unfold n; lra). lra.
      - apply Rmult_le_compat_r; [exact Pa|]. unfold u64 in *. lra. }
    set (e := 2 * (n - 1) * u64 * a) in *.
    assert (E : - (e + (2 * n - 2) * h64) <= B (f_sum l) + B (f_sum r) - (sl + sr) <= e + (2 * n - 2) * h64) by (unfold n; lra).
    assert (S : Rabs (B (f_sum l) + B (f_sum r)) <= 102 / 100 * a + 2 * (n * h64)) by (apply Rabs_le; unfold a in *; lra).
    assert (h1 : 1000000 * h64 <= / 1000000) by (unfold u64 in *; lra).
    destruct (fadd_ok _ _ Fl Fr) as [Fs Es]; [unfold huge; unfold a in *; lra|].
    split; [exact Fs|]. rewrite Es.
    pose proof (rnd64_err (B (f_sum l) + B (f_sum r))) as Q. apply Rabs_le_inv in Q.
    assert (uS : u64 * Rabs (B (f_sum l) + B (f_sum r)) <= u64 * (102 / 100 * a + 2 * (n * h64))) by (apply Rmult_le_compat_l; lra).
    assert (unh : u64 * (n * h64) <= / 1000 * h64).
    { replace (u64 * (n * h64)) with (n * u64 * h64) by ring. apply Rmult_le_compat_r; [lra | unfold u64 in *; lra]. }
    assert (hh : h64 * h64 <= / 1000 * h64) by (apply Rmult_le_compat_r; [lra | unfold u64 in *; lra]).
    assert (Fin : 2 * n * u64 * a = e + 2 * (u64 * a)) by (unfold e; ring).
    rewrite Fin. apply Rabs_le. split; lra.
Qed.

(** The row of a surface sums to one up to rounding, whatever the order numpy sums in, and
    whether or not its view factors are themselves exact. *)
Theorem C77_sky o : (forall v, In v (summands o) -> is_finite 53 1024 v = true) ->
  exact_sum_abs (summands o) <= 1000000000 -> (length (summands o) <= 1000 * 1000)%nat ->
  is_finite 53 1024 (f_sky o) = true /\
  Rabs (exact_sum (summands o) + val (f_sky o) - 1) <=
    4 * INR (length (summands o)) * unit_roundoff * (1 + exact_sum_abs (summands o)).
Proof.
  intros Hf Hs Hn. rewrite roundoff_u64.
  assert (Hn' : INR (length (summands o)) <= 1000000).
  { apply le_INR in Hn. rewrite mult_INR in Hn. replace (INR 1000) with 1000 in Hn by (rewrite INR_IZR_INZ; reflexivity). lra. }
  destruct (f_sum_ok o Hf Hs Hn') as [F E]. pose proof (exact_sum_le (summands o)) as S.
  pose proof (summands_pos o) as N. pose proof (exact_sum_abs_pos (summands o)) as A.
  set (n := INR (length (summands o))) in *. set (a := exact_sum_abs (summands o)) in *. set (s := exact_sum (summands o)) in *.
  apply Rabs_le_inv in E, S. pose proof u64_range as U. pose proof h64_small as H.
  assert (un : 0 <= n * u64 <= 1000000 * u64) by (split; [apply Rmult_le_pos; lra | apply Rmult_le_compat_r; lra]).
  assert (hn : 0 <= n * h64 <= 1000000 * h64) by (split; [apply Rmult_le_pos; lra | apply Rmult_le_compat_r; lra]).
  assert (una : 0 <= n * u64 * a <= 1000000 * u64 * a) by (split; [apply Rmult_le_pos; lra | apply Rmult_le_compat_r; lra]).
  assert (ua : 0 <= u64 * a <= / 1000000000 * a) by (split; [apply Rmult_le_pos; lra | apply Rmult_le_compat_r; [lra | unfold u64; lra]]).
  assert (u1 : u64 <= n * u64) by (rewrite <- (Rmult_1_l u64) at 1; apply Rmult_le_compat_r; lra).
  assert (h1 : 1000000 * h64 <= / 1000000 * u64) by lra.
  assert (M : Rabs (1 - B (f_sum o)) <= 1 + 101 / 100 * a + / 1000) by (apply Rabs_le; unfold u64 in *; lra).
  destruct (fsub_ok f_one (f_sum o) eq_refl F) as [Fs Es].
  { rewrite B_one. unfold huge. lra. }
  split; [exact Fs|]. unfold val. unfold f_sky. rewrite Es, B_one.
  pose proof (rnd64_err (1 - B (f_sum o))) as Q. apply Rabs_le_inv in Q.
  assert (uM : u64 * Rabs (1 - B (f_sum o)) <= u64 * (1 + 101 / 100 * a + / 1000)) by (apply Rmult_le_compat_l; lra).
  assert (hh : h64 * h64 <= / 1000 * h64) by (apply Rmult_le_compat_r; [lra | unfold u64 in *; lra]).
  assert (u1a : u64 * a <= n * u64 * a) by (apply Rmult_le_compat_r; lra).
  assert (Hu : h64 <= / 1000000 * u64) by (unfold u64 in *; lra).
  apply Rabs_le. split; lra.
Qed.

(* ------------------------------------------------------------ a case *)
(** Two vertical segments of one metre facing each other at one metre: the view factor is the
    square root of two minus one, the double computed is 7461808180621108 / 2^54. *)
Definition seg_left : fline := FLine (FPt f_zero f_zero) (FPt f_zero f_one).
Definition seg_right : fline := FLine (FPt f_one f_zero) (FPt f_one f_one).

Example C77_case : line_ok seg_left /\ line_ok seg_right /\ width seg_left = 1 /\
  exact_vf seg_left seg_right = sqrt 2 - 1 /\
  val (f_vf_surface_to_surface seg_left seg_right (f_length seg_left)) = 7461808180621108 / 2 ^ 54.
Proof.
  assert (Z : number f_zero) by (split; [reflexivity | cbn; rewrite Rabs_R0; lra]).
  assert (O : number f_one) by (split; [reflexivity | rewrite B_one, Rabs_R1; lra]).
  assert (V0 : val f_zero = 0) by reflexivity. assert (V1 : val f_one = 1) by apply B_one.
  assert (E1 : sqrt 1 = 1) by apply sqrt_1.
  assert (W : width seg_left = 1).
  { unfold width, euclid, dist2, exact_pt, seg_left. cbn [fb1 fb2 fx fy px py]. rewrite V0, V1.
    replace ((0 - 0) * (0 - 0) + (0 - 1) * (0 - 1)) with 1 by ring. exact E1. }
  split; [repeat split; assumption || apply Z || apply O|]. split; [repeat split; assumption || apply Z || apply O|].
  split; [exact W|]. split.
  - unfold exact_vf. rewrite W. unfold crossed, uncrossed, euclid, dist2, exact_pt, seg_left, seg_right.
    cbn [fb1 fb2 fx fy px py]. rewrite V0, V1.
    replace ((0 - 1) * (0 - 1) + (0 - 1) * (0 - 1)) with 2 by ring.
    replace ((0 - 1) * (0 - 1) + (1 - 0) * (1 - 0)) with 2 by ring.
    replace ((0 - 1) * (0 - 1) + (0 - 0) * (0 - 0)) with 1 by ring.
    replace ((0 - 1) * (0 - 1) + (1 - 1) * (1 - 1)) with 1 by ring.
    rewrite E1. assert (1 <= sqrt 2) by (rewrite <- E1; apply sqrt_le_1; lra).
    rewrite Rabs_pos_eq by lra. field.
  - unfold val. rewrite <- FF2R_B2FF. match goal with |- context [B2FF ?p ?e ?x] => let y := eval vm_compute in (B2FF p e x) in replace (B2FF p e x) with y by (vm_compute; reflexivity) end. cbn. unfold F2R. cbn. lra.
Qed.

(** A subtraction that loses everything: with surfaces a millimetre wide and ten thousand
    kilometres apart, the four strings round to the same double. *)
Definition f_milli : float := B754_finite 53 1024 false 4611686018427388 (-62) eq_refl.
Definition f_far : float := B754_finite 53 1024 false 5368709120000000 (-29) eq_refl.
Example C77_case_lost :
  let l1 := FLine (FPt f_zero f_zero) (FPt f_zero f_milli) in
  let l2 := FLine (FPt f_far f_zero) (FPt f_far f_milli) in
  line_ok l1 /\ line_ok l2 /\ val (f_vf_surface_to_surface l1 l2 (f_length l1)) = 0 /\ 0 < exact_vf l1 l2.
Proof.
  cbv zeta.
  assert (Z : number f_zero) by (split; [reflexivity | cbn; rewrite Rabs_R0; lra]).
  assert (Vm : val f_milli = 4611686018427388 / 2 ^ 62) by (unfold val; cbn; unfold F2R; cbn; lra).
  assert (Vf : val f_far = 10000000) by (unfold val; cbn; unfold F2R; cbn; lra).
  assert (M : number f_milli) by (split; [reflexivity | change (Rabs (val f_milli) <= 1000000000); rewrite Vm; apply Rabs_le; lra]).
  assert (F : number f_far) by (split; [reflexivity | change (Rabs (val f_far) <= 1000000000); rewrite Vf; apply Rabs_le; lra]).
  split; [repeat split; assumption || apply Z || apply M|]. split; [repeat split; assumption || apply F || apply M || apply Z|].
  split; [unfold val; rewrite <- FF2R_B2FF; match goal with |- context [B2FF ?p ?e ?x] => let y := eval vm_compute in (B2FF p e x) in replace (B2FF p e x) with y by (vm_compute; reflexivity) end; reflexivity|].
  assert (V0 : val f_zero = 0) by reflexivity.
  unfold exact_vf, crossed, uncrossed, width, euclid, dist2, exact_pt. cbn [fb1 fb2 fx fy px py]. rewrite V0, Vf.
  assert (Pm : 0 < val f_milli) by (rewrite Vm; lra). set (m := val f_milli) in *. clearbody m.
  replace ((0 - 10000000) * (0 - 10000000) + (0 - 0) * (0 - 0)) with (10000000 * 10000000) by ring.
  replace ((0 - 10000000) * (0 - 10000000) + (m - m) * (m - m)) with (10000000 * 10000000) by ring.
  replace ((0 - 10000000) * (0 - 10000000) + (0 - m) * (0 - m)) with (10000000 * 10000000 + m * m) by ring.
  replace ((0 - 10000000) * (0 - 10000000) + (m - 0) * (m - 0)) with (10000000 * 10000000 + m * m) by ring.
  replace ((0 - 0) * (0 - 0) + (0 - m) * (0 - m)) with (m * m) by ring.
  assert (L : sqrt (10000000 * 10000000) < sqrt (10000000 * 10000000 + m * m)) by (apply sqrt_lt_1; nra).
  rewrite (sqrt_square m) by lra. apply Rmult_lt_0_compat; [|apply Rinv_0_lt_compat; lra].
  rewrite Rabs_pos_eq by lra. lra.
Qed.

(** A surface that sees 1/4 twice: summed in one order or the other, the sky gets one half. *)
Definition f_quarter : float := B754_finite 53 1024 false 4503599627370496 (-54) eq_refl.
Example C77_sky_case :
  let o := Node (Leaf f_quarter) (Node (Leaf f_zero) (Leaf f_quarter)) in
  (forall v, In v (summands o) -> is_finite 53 1024 v = true) /\ exact_sum_abs (summands o) = / 2 /\
  val (f_sky o) = / 2.
Proof.
  cbv zeta. assert (Q : val f_quarter = / 4) by (unfold val; cbn; unfold F2R; cbn; lra).
  split; [cbn; intros v [<-|[<-|[<-|[]]]]; reflexivity|]. split.
  - unfold exact_sum_abs. cbn [summands app map fold_right]. rewrite Q. change (val f_zero) with 0.
    rewrite Rabs_R0, Rabs_pos_eq by lra. lra.
  - unfold val. rewrite <- FF2R_B2FF. match goal with |- context [B2FF ?p ?e ?x] => let y := eval vm_compute in (B2FF p e x) in replace (B2FF p e x) with y by (vm_compute; reflexivity) end. cbn. unfold F2R. cbn. lra.
Qed.

Print Assumptions C77_distance.
Print Assumptions C77_view_factor.
Print Assumptions C77_usual.
Print Assumptions C77_reciprocity.
Print Assumptions C77_sky.
