(** View factors from the ground to the sky, through the gaps between the rows. *)
From Coq Require Import Reals List Bool Arith Lra Lia.
From Coquelicot Require Import Coquelicot.
From Verif Require Import Num SpecGeom SpecVF SpecSight ProofSight ProofSkyView.
Open Scope R_scope.

(** Half of the integral of the sine over the directions whose cosine is between two numbers. *)
Lemma slab : forall (f : R -> R) u1 u2, -1 < u1 -> u1 <= u2 -> u2 < 1 ->
  (forall th, 0 < th < PI -> u1 < cos th < u2 -> f th = sin th / 2) ->
  (forall th, 0 < th < PI -> cos th < u1 \/ u2 < cos th -> f th = 0) ->
  is_RInt f 0 PI ((u2 - u1) / 2).
Proof.
  intros f u1 u2 H1 H2 H3 IN OUT. pose proof PI_RGT_0 as P0.
  destruct (acos_bound_lt u1 ltac:(lra)) as [A1 A2]. destruct (acos_bound_lt u2 ltac:(lra)) as [B1 B2].
  set (a := acos u1) in *. set (b := acos u2) in *.
  assert (Ca : cos a = u1) by (apply cos_acos; lra). assert (Cb : cos b = u2) by (apply cos_acos; lra).
  assert (BA : b <= a). { apply Rnot_lt_le. intro C. pose proof (cos_decreasing_1 a b ltac:(lra) ltac:(lra) ltac:(lra) ltac:(lra) C). lra. }
  assert (Z : forall x y, 0 <= x <= y -> y <= PI -> (forall th, x < th < y -> f th = 0) -> is_RInt f x y 0).
  { intros x y X Y H. apply (is_RInt_ext (V := R_NormedModule) (fun _ => 0)).
    - rewrite Rmin_left, Rmax_right by lra. intros th T. symmetry. apply H. exact T.
    - pose proof (is_RInt_const (V := R_NormedModule) x y (0 : R)) as K.
      change (is_RInt (fun _ : R => 0) x y ((y - x) * 0)) in K. rewrite Rmult_0_r in K. exact K. }
  replace ((u2 - u1) / 2) with (plus (plus 0 ((u2 - u1) / 2)) 0) by (unfold plus; cbn; ring).
  apply (is_RInt_Chasles (V := R_NormedModule) _ 0 a PI); [apply (is_RInt_Chasles (V := R_NormedModule) _ 0 b a)|].
  - apply Z; try lra. intros th T. apply OUT; [lra|]. right.
    pose proof (cos_decreasing_1 th b ltac:(lra) ltac:(lra) ltac:(lra) ltac:(lra) ltac:(lra)). lra.
  - apply (is_RInt_ext (V := R_NormedModule) (fun th => sin th / 2)).
    + rewrite Rmin_left, Rmax_right by lra. intros th T. symmetry. apply IN; [lra|].
      pose proof (cos_decreasing_1 th a ltac:(lra) ltac:(lra) ltac:(lra) ltac:(lra) ltac:(lra)).
      pose proof (cos_decreasing_1 b th ltac:(lra) ltac:(lra) ltac:(lra) ltac:(lra) ltac:(lra)). lra.
    + replace ((u2 - u1) / 2) with (- cos a / 2 - - cos b / 2) by (rewrite Ca, Cb; field).
      apply (ftc (fun th => - cos th / 2)); [exact BA| |].
      * intros th _. auto_derive; [exact Logic.I|]. field.
      * intros th _. apply (ex_derive_continuous (K := R_AbsRing) (V := R_NormedModule)). auto_derive. exact Logic.I.
  - apply Z; try lra. intros th T. apply OUT; [lra|]. left.
    pose proof (cos_decreasing_1 a th ltac:(lra) ltac:(lra) ltac:(lra) ltac:(lra) ltac:(lra)). lra.
Qed.

(* ------------------------------------------------------------- intervals in a line *)

Fixpoint upto (h : nat -> R) (m : nat) : R := match m with O => 0 | S i => upto h i + h i end.

Section Cover.
Variables (n : nat) (A B : nat -> R) (lf : nat -> bool).
Definition iv_lo (j : nat) : R := if lf j then B j else A j.
Definition iv_hi (j : nat) : R := if lf j then A j else B j.
Hypothesis HA : forall j, (j < n)%nat -> -1 < A j < 1.
Hypothesis HB : forall j, (j < n)%nat -> -1 < B j < 1.
Hypothesis LH : forall j, (j < n)%nat -> iv_lo j < iv_hi j.
Hypothesis IA : forall j, (S j < n)%nat -> A j < A (S j).
Hypothesis IB : forall j, (S j < n)%nat -> B j < B (S j).
Hypothesis IL : forall j, (S j < n)%nat -> lf j = true -> lf (S j) = true.

Lemma lo_inc : forall j, (S j < n)%nat -> iv_lo j < iv_lo (S j).
Proof.
  intros j J. specialize (IA j J). specialize (IB j J). specialize (IL j J). pose proof (LH j ltac:(lia)). unfold iv_lo, iv_hi in *.
  destruct (lf j); [rewrite IL by reflexivity; exact IB|]. destruct (lf (S j)); lra.
Qed.
Lemma hi_inc : forall j, (S j < n)%nat -> iv_hi j < iv_hi (S j).
Proof.
  intros j J. specialize (IA j J). specialize (IB j J). specialize (IL j J). pose proof (LH (S j) ltac:(lia)). unfold iv_lo, iv_hi in *.
  destruct (lf j); [rewrite IL by reflexivity; exact IA|]. destruct (lf (S j)); lra.
Qed.

Definition within (j : nat) (u : R) : Prop := iv_lo j <= u <= iv_hi j.
(** The part of an interval that the intervals before leave free. *)
Definition start (j : nat) : R := match j with O => iv_lo O | S i => Rmax (iv_lo (S i)) (iv_hi i) end.
Definition fresh (j : nat) (u : R) : R :=
  if Rle_dec (iv_lo j) u then if Rle_dec u (iv_hi j) then
    match j with O => 1 | S i => if Rlt_dec (iv_hi i) u then 1 else 0 end
  else 0 else 0.

Lemma hi_before : forall m j, (j <= m)%nat -> (m < n)%nat -> iv_hi j <= iv_hi m.
Proof.
  intros m j J M. induction m; [replace j with O by lia; lra|]. destruct (Nat.eq_dec j (S m)) as [->|N]; [lra|].
  pose proof (hi_inc m M). specialize (IHm ltac:(lia) ltac:(lia)). lra.
Qed.

Lemma cover_once : forall u m, (m <= n)%nat ->
  (upto (fun j => fresh j u) m = 1 /\ exists j, (j < m)%nat /\ within j u) \/
  (upto (fun j => fresh j u) m = 0 /\ forall j, (j < m)%nat -> ~ within j u).
Proof.
  intros u m M. induction m as [|m IH]; [right; split; [reflexivity | intros; lia]|]. specialize (IH ltac:(lia)). cbn [upto].
  assert (F : (fresh m u = 1 /\ within m u /\ (forall j, (j < m)%nat -> ~ within j u)) \/
              (fresh m u = 0 /\ (within m u -> exists j, (j < m)%nat /\ within j u))).
  { unfold fresh, within at 1 3. destruct (Rle_dec (iv_lo m) u) as [C1|C1]; [|right; split; [reflexivity | lra]].
    destruct (Rle_dec u (iv_hi m)) as [C2|C2]; [|right; split; [reflexivity | lra]].
    destruct m as [|i]; [left; split; [reflexivity|]; split; [lra|]; intros; lia|].
    destruct (Rlt_dec (iv_hi i) u) as [C3|C3].
    - left. split; [reflexivity|]. split; [lra|]. intros j J W. unfold within in W. pose proof (hi_before i j ltac:(lia) ltac:(lia)). lra.
    - right. split; [reflexivity|]. intros _. exists i. split; [lia|]. unfold within. pose proof (lo_inc i ltac:(lia)). lra. }
  destruct F as [(F1 & F2 & F3)|(F1 & F2)], IH as [(E & j & J & W)|(E & N)]; rewrite E, F1.
  - exfalso. exact (F3 j J W).
  - left. split; [ring|]. exists m. split; [lia | exact F2].
  - left. split; [ring|]. exists j. split; [lia | exact W].
  - right. split; [ring|]. intros j J. destruct (Nat.eq_dec j m) as [->|Nm]; [|apply N; lia].
    intro W. destruct (F2 W) as (j' & J' & W'). exact (N j' J' W').
Qed.

Lemma fresh_int : forall j, (j < n)%nat -> is_RInt (fun th => sin th / 2 * fresh j (cos th)) 0 PI ((iv_hi j - start j) / 2).
Proof.
  intros j J. pose proof (LH j J) as L.
  assert (B1 : -1 < iv_lo j /\ iv_hi j < 1) by (pose proof (HA j J); pose proof (HB j J); unfold iv_lo, iv_hi in *; destruct (lf j); lra).
  assert (ST : iv_lo j <= start j <= iv_hi j).
  { unfold start. destruct j as [|i]; [lra|]. pose proof (hi_inc i J). split; [apply Rmax_l | apply Rmax_lub; lra]. }
  apply slab; try lra.
  - intros th _ C. unfold fresh. destruct (Rle_dec (iv_lo j) (cos th)); [|lra]. destruct (Rle_dec (cos th) (iv_hi j)); [|lra].
    destruct j as [|i]; [ring|]. unfold start in C. pose proof (Rmax_r (iv_lo (S i)) (iv_hi i)). destruct (Rlt_dec (iv_hi i) (cos th)); [ring | lra].
  - intros th _ C. unfold fresh. destruct (Rle_dec (iv_lo j) (cos th)); [|ring]. destruct (Rle_dec (cos th) (iv_hi j)); [|ring].
    destruct j as [|i]; [unfold start in C; lra|]. destruct (Rlt_dec (iv_hi i) (cos th)); [|ring]. 
    exfalso. destruct C as [C|C]; [|lra]. unfold start in C. pose proof (Rmax_lub_lt (iv_lo (S i)) (iv_hi i) (cos th)). 
    unfold Rmax in C. destruct (Rle_dec (iv_lo (S i)) (iv_hi i)); lra.
Qed.

Lemma half_turn : is_RInt (fun th => sin th / 2) 0 PI 1.
Proof.
  pose proof PI_RGT_0. replace 1 with (- cos PI / 2 - - cos 0 / 2) by (rewrite cos_PI, cos_0; field).
  apply (ftc (fun th => - cos th / 2)); [lra| |].
  - intros th _. auto_derive; [exact Logic.I|]. field.
  - intros th _. apply (ex_derive_continuous (K := R_AbsRing) (V := R_NormedModule)). auto_derive. exact Logic.I.
Qed.

Lemma cover_int : forall m, (m <= n)%nat ->
  is_RInt (fun th => sin th / 2 * (1 - upto (fun j => fresh j (cos th)) m)) 0 PI (1 - upto (fun j => (iv_hi j - start j) / 2) m).
Proof.
  induction m as [|m IH]; intro M; cbn [upto].
  - rewrite Rminus_0_r. apply (is_RInt_ext (V := R_NormedModule) (fun th => sin th / 2)); [|exact half_turn].
    intros th _. match goal with |- ?a = ?b => change (@eq R a b) end. ring.
  - specialize (IH ltac:(lia)). pose proof (fresh_int m ltac:(lia)) as F.
    pose proof (is_RInt_minus (V := R_NormedModule) _ _ _ _ _ _ IH F) as H.
    replace (1 - (upto (fun j => (iv_hi j - start j) / 2) m + (iv_hi m - start m) / 2)) with (minus (1 - upto (fun j => (iv_hi j - start j) / 2) m) ((iv_hi m - start m) / 2)) by (unfold minus, plus, opp; cbn; ring).
    eapply (is_RInt_ext (V := R_NormedModule)); [|exact H].
    intros th _. unfold minus, plus, opp; cbn. ring.
Qed.

(** The same total counted by rows: what each lets be seen of itself under its neighbour. *)
Definition top (j : nat) : R :=
  if lf j then match j with O => B O | S i => Rmax (B (S i)) (A i) end
  else if lt_dec (S j) n then Rmin (B j) (A (S j)) else B j.
Definition share (j : nat) : R := (if lf j then A j - top j else top j - A j) / 2.

Lemma shares : forall m, (m <= n)%nat ->
  upto (fun j => (iv_hi j - start j) / 2) m = upto share m +
  match m with O => 0 | S i => if lf i then 0 else (B i - top i) / 2 end.
Proof.
  induction m as [|m IH]; intro M; cbn [upto]; [ring|]. rewrite IH by lia. clear IH.
  unfold share, start, iv_hi, iv_lo, top.
  destruct m as [|i].
  - destruct (lf O); [field|]. destruct (lt_dec 1 n); field.
  - pose proof (IL i ltac:(lia)) as L. pose proof (LH i ltac:(lia)) as L0. pose proof (LH (S i) ltac:(lia)) as L1. pose proof (IA i ltac:(lia)). pose proof (IB i ltac:(lia)).
    unfold iv_lo, iv_hi in L0, L1.
    destruct (lf i).
    + rewrite L in * by reflexivity. field.
    + destruct (lt_dec (S i) n) as [_|K]; [|lia]. destruct (lf (S i)).
      * rewrite (Rmin_left (B i) (A (S i))), (Rmax_left (B (S i)) (B i)), (Rmax_left (B (S i)) (A i)) by lra. field.
      * destruct (lt_dec (S (S i)) n); unfold Rmin, Rmax; destruct (Rle_dec (B i) (A (S i))), (Rle_dec (A (S i)) (B i)); try destruct (Rle_dec (B (S i)) (A (S (S i)))); lra.
Qed.

Theorem cover : is_RInt (fun th => sin th / 2 * (1 - upto (fun j => fresh j (cos th)) n)) 0 PI (1 - upto share n).
Proof.
  pose proof (cover_int n (Nat.le_refl n)) as H. rewrite (shares n (Nat.le_refl n)) in H.
  assert (Z : forall m, m = n -> match m with O => 0 | S i => if lf i then 0 else (B i - top i) / 2 end = 0).
  { intros [|i] M; [reflexivity|]. unfold top. destruct (lf i); [reflexivity|]. destruct (lt_dec (S i) n); [lia | field]. }
  rewrite (Z n eq_refl), Rplus_0_r in H. exact H.
Qed.
End Cover.

(* ------------------------------------------------------------------- directions *)

Lemma cos_less : forall a b, 0 <= a <= PI -> 0 <= b <= PI -> (cos a < cos b <-> b < a).
Proof.
  intros a b A B. split; intro H.
  - apply cos_decreasing_0; lra.
  - apply cos_decreasing_1; lra.
Qed.

Lemma turn_sign : forall X Y c s, 0 < Y -> 0 < s -> c * c + s * s = 1 ->
  (X / sqrt (X * X + Y * Y) < c <-> 0 < Y * c - X * s) /\ (c < X / sqrt (X * X + Y * Y) <-> Y * c - X * s < 0).
Proof.
  intros X Y c s HY Hs U. assert (R2 : 0 < X * X + Y * Y) by nra. set (r := sqrt (X * X + Y * Y)).
  assert (R0 : 0 < r) by (apply sqrt_lt_R0; exact R2). assert (RR : r * r = X * X + Y * Y) by (apply sqrt_sqrt; lra).
  destruct (unit_angle (X / r) (Y / r)) as (al & A & A1 & A2).
  { replace (X / r * (X / r) + Y / r * (Y / r)) with ((X * X + Y * Y) / (r * r)) by (field; lra). rewrite RR. field. lra. }
  { apply Rlt_le. apply Rdiv_lt_0_compat; lra. }
  destruct (unit_angle c s U ltac:(lra)) as (th & T & T1 & T2). pose proof PI_RGT_0 as P0.
  assert (AI : 0 < al < PI).
  { assert (0 < sin al) by (rewrite A2; apply Rdiv_lt_0_compat; lra).
    split; apply Rnot_le_lt; intro Q; [assert (E : al = 0) by lra; rewrite E, sin_0 in * | assert (E : al = PI) by lra; rewrite E, sin_PI in *]; lra. }
  assert (TI : 0 < th < PI).
  { split; apply Rnot_le_lt; intro Q; [assert (E : th = 0) by lra; rewrite E, sin_0 in * | assert (E : th = PI) by lra; rewrite E, sin_PI in *]; lra. }
  assert (E : Y * c - X * s = r * sin (al - th)).
  { rewrite sin_minus, A1, A2, T1, T2. field. lra. }
  assert (E' : - (Y * c - X * s) = r * sin (th - al)).
  { rewrite E. replace (th - al) with (- (al - th)) by ring. rewrite sin_neg. ring. }
  rewrite <- A1. rewrite <- T1 in E, E' |- *. rewrite !cos_less by lra.
  assert (RP : forall d, 0 < r * d <-> 0 < d).
  { intro d. split; intro H; [apply (Rmult_lt_reg_l r); lra | apply Rmult_lt_0_compat; assumption]. }
  split.
  - rewrite E, RP, sin_sign by lra. lra.
  - transitivity (0 < r * sin (th - al)); [rewrite RP, sin_sign by lra; lra | lra].
Qed.

Section Ground.
Variables (n : nat) (L0 Ly ux uy D w : R).
Hypothesis HLy : 0 < Ly.
Hypothesis Huy : 0 <= uy.
Hypothesis Hu : ux * ux + uy * uy = 1.
Hypothesis HD : 0 < D.
Hypothesis Hw : 0 < w.
Hypothesis FL : uy = 0 -> w <= D.
Let P := Pr L0 Ly ux uy D.
Let O := Op n L0 Ly ux uy D w.
Let M := Mz L0 Ly ux uy D.

(** Cosine of the elevation of a point above the horizon, seen from the ground. *)
Definition sg (z : R) (q : pt) : R := (px q - z) / euclid q (gr z).

Lemma sg_eq : forall z q, sg z q = (px q - z) / sqrt ((px q - z) * (px q - z) + py q * py q).
Proof. intros z q. unfold sg, euclid, dist2, gr. cbn [px py]. rewrite Rminus_0_r. reflexivity. Qed.

Lemma sg_dir : forall z q th, 0 < py q -> 0 < th < PI ->
  (sg z q < cos th <-> 0 < py q * cos th - (px q - z) * sin th) /\ (cos th < sg z q <-> py q * cos th - (px q - z) * sin th < 0).
Proof.
  intros z q th Y T. rewrite sg_eq. apply turn_sign; [exact Y | apply sin_gt_0; lra|].
  pose proof (sin2_cos2 th) as E. unfold Rsqr in E. lra.
Qed.

Lemma sg_unit : forall z q, 0 < py q -> let r := euclid q (gr z) in
  0 < r /\ sg z q * sg z q + py q / r * (py q / r) = 1 /\ 0 < py q / r /\ sg z q * r = px q - z.
Proof.
  intros z q Y r. assert (R2 : 0 < dist2 q (gr z)).
  { unfold dist2, gr. cbn [px py]. rewrite Rminus_0_r. pose proof (Rle_0_sqr (px q - z)) as Q. unfold Rsqr in Q. assert (0 < py q * py q) by (apply Rmult_lt_0_compat; assumption). lra. }
  pose proof (euclid_pos _ _ R2) as R0. pose proof (euclid_sq q (gr z)) as RR. fold r in R0, RR. split; [exact R0|].
  split; [|split; [apply Rdiv_lt_0_compat; assumption | unfold sg; fold r; field; lra]].
  unfold sg. fold r. replace ((px q - z) / r * ((px q - z) / r) + py q / r * (py q / r)) with (((px q - z) * (px q - z) + py q * py q) / (r * r)) by (field; lra).
  rewrite RR. unfold dist2 in *. cbn [gr px py] in *. rewrite Rminus_0_r in *. field. lra.
Qed.

Lemma sg_less : forall z q q', 0 < py q -> 0 < py q' -> (sg z q < sg z q' <-> 0 < py q * (px q' - z) - (px q - z) * py q').
Proof.
  intros z q q' Y Y'. destruct (sg_unit z q' Y') as (R0 & U & S0 & E). cbv zeta in *. set (r := euclid q' (gr z)) in *.
  rewrite (sg_eq z q). rewrite (proj1 (turn_sign (px q - z) (py q) (sg z q') (py q' / r) Y S0 U)).
  replace (py q * (px q' - z) - (px q - z) * py q') with (r * (py q * sg z q' - (px q - z) * (py q' / r))).
  - split; intro H; [apply Rmult_lt_0_compat; assumption | apply (Rmult_lt_reg_l r); lra].
  - rewrite <- E. field. lra.
Qed.

Lemma sg_range : forall z q, 0 < py q -> -1 < sg z q < 1.
Proof.
  intros z q Y. destruct (sg_unit z q Y) as (_ & U & S & _). cbv zeta in *. set (s := py q / euclid q (gr z)) in *.
  assert (0 < s * s) by (apply Rmult_lt_0_compat; exact S). nra.
Qed.

Lemma P_above : forall j e, 0 <= e -> 0 < py (P j e).
Proof. intros j e E. unfold P, Pr. cbn [py]. nra. Qed.

Section Point.
Variables (z : R) (lf : nat -> bool).
Hypothesis SIDE : forall j, (j < n)%nat -> 0 < dirn (lf j) * M j z.
Let A (j : nat) : R := sg z (P j 0).
Let B (j : nat) : R := sg z (P j w).

Lemma ab_order : forall j, (A j < B j <-> 0 < M j z) /\ (B j < A j <-> M j z < 0).
Proof.
  intro j. unfold A, B. rewrite !sg_less by (apply P_above; lra).
  replace (py (P j 0) * (px (P j w) - z) - (px (P j 0) - z) * py (P j w)) with (w * M j z) by (unfold P, Pr, M, Mz; cbn [px py]; ring).
  replace (py (P j w) * (px (P j 0) - z) - (px (P j w) - z) * py (P j 0)) with (w * - M j z) by (unfold P, Pr, M, Mz; cbn [px py]; ring).
  split; (split; intro H; [apply (Rmult_lt_reg_l w) | apply (Rmult_lt_compat_l w) in H]; lra).
Qed.

Lemma pt_LH : forall j, (j < n)%nat -> iv_lo A B lf j < iv_hi A B lf j.
Proof.
  intros j J. specialize (SIDE j J). destruct (ab_order j) as [O1 O2]. unfold iv_lo, iv_hi. destruct (lf j); cbn [dirn] in SIDE; [apply O2 | apply O1]; lra.
Qed.
Lemma pt_IA : forall j, A j < A (S j).
Proof.
  intro j. unfold A. rewrite sg_less by (apply P_above; lra). unfold P, Pr. cbn [px py]. rewrite S_INR.
  assert (0 < Ly * D) by (apply Rmult_lt_0_compat; assumption). nra.
Qed.
Lemma pt_IB : forall j, B j < B (S j).
Proof.
  intro j. unfold B. rewrite sg_less by (apply P_above; lra). unfold P, Pr. cbn [px py]. rewrite S_INR.
  assert (0 < (Ly + w * uy) * D) by (apply Rmult_lt_0_compat; [nra | assumption]). nra.
Qed.
Lemma pt_IL : forall j, (S j < n)%nat -> lf j = true -> lf (S j) = true.
Proof.
  intros j J E. pose proof (SIDE j ltac:(lia)) as H1. pose proof (SIDE (S j) J) as H2. rewrite E in H1. destruct (lf (S j)); [reflexivity|]. exfalso.
  cbn [dirn] in *. unfold M, Mz in *. rewrite S_INR in H2. assert (0 <= uy * D) by (apply Rmult_le_pos; lra). lra.
Qed.

Lemma hits : forall j th, (j < n)%nat -> 0 < th < PI ->
  ((exists r e, 0 < r /\ 0 <= e <= w /\ Pt (z + r * cos th) (0 + r * sin th) = P j e) <-> within A B lf j (cos th)).
Proof.
  intros j th J T. pose proof (sin_gt_0 th ltac:(lra) ltac:(lra)) as S0.
  pose proof (sg_dir z (P j 0) th (P_above j 0 ltac:(lra)) T) as [A1 A2]. pose proof (sg_dir z (P j w) th (P_above j w ltac:(lra)) T) as [B1 B2].
  fold (A j) in A1, A2. fold (B j) in B1, B2.
  set (f0 := py (P j 0) * cos th - (px (P j 0) - z) * sin th) in *. set (fw := py (P j w) * cos th - (px (P j w) - z) * sin th) in *.
  assert (LIN : forall e, w * (py (P j e) * cos th - (px (P j e) - z) * sin th) = (w - e) * f0 + e * fw).
  { intro e. unfold f0, fw, P, Pr. cbn [px py]. ring. }
  pose proof (pt_LH j J) as LH. unfold within, iv_lo, iv_hi in *.
  split.
  - intros (r & e & R0 & E & H). pose proof (f_equal px H) as HX. pose proof (f_equal py H) as HY. cbn [px py] in HX, HY.
    specialize (LIN e). rewrite <- HX, <- HY in LIN.
    assert (Z : (w - e) * f0 + e * fw = 0) by (rewrite <- LIN; ring).
    assert (NN : ~ (0 < f0 /\ 0 < fw)). { intros [N1 N2]. assert (0 <= (w - e) * f0) by (apply Rmult_le_pos; lra). assert (0 <= e * fw) by (apply Rmult_le_pos; lra).
      destruct (Req_dec e 0) as [->|Ne]; [rewrite Rminus_0_r in *; assert (0 < w * f0) by (apply Rmult_lt_0_compat; lra); lra|].
      assert (0 < e * fw) by (apply Rmult_lt_0_compat; lra). lra. }
    assert (NP : ~ (f0 < 0 /\ fw < 0)). { intros [N1 N2]. assert (0 <= (w - e) * - f0) by (apply Rmult_le_pos; lra). assert (0 <= e * - fw) by (apply Rmult_le_pos; lra).
      destruct (Req_dec e 0) as [->|Ne]; [rewrite Rminus_0_r in *; assert (0 < w * - f0) by (apply Rmult_lt_0_compat; lra); lra|].
      assert (0 < e * - fw) by (apply Rmult_lt_0_compat; lra). lra. }
    clear LIN. destruct (lf j); split; apply Rnot_lt_le; intro C.
    + apply NP. split; [apply A2; lra | apply B2; exact C].
    + apply NN. split; [apply A1; exact C | apply B1; lra].
    + apply NP. split; [apply A2; exact C | apply B2; lra].
    + apply NN. split; [apply A1; lra | apply B1; exact C].
  - intro H.
    assert (SG : (0 <= f0 /\ fw <= 0 /\ f0 <> fw) \/ (f0 <= 0 /\ 0 <= fw /\ f0 <> fw)).
    { assert (NE : f0 <> fw -> f0 <> fw) by auto.
      destruct (lf j); [right | left].
      - assert (F0 : f0 <= 0) by (apply Rnot_lt_le; intro C; apply A1 in C; lra). assert (Fw : 0 <= fw) by (apply Rnot_lt_le; intro C; apply B2 in C; lra).
        split; [exact F0|]. split; [exact Fw|]. intro E. assert (f0 = 0) by lra. assert (fw = 0) by lra.
        assert (~ cos th < A j) by (intro C; apply A2 in C; lra). assert (~ B j < cos th) by (intro C; apply B1 in C; lra). lra.
      - assert (F0 : 0 <= f0) by (apply Rnot_lt_le; intro C; apply A2 in C; lra). assert (Fw : fw <= 0) by (apply Rnot_lt_le; intro C; apply B1 in C; lra).
        split; [exact F0|]. split; [exact Fw|]. intro E. assert (f0 = 0) by lra. assert (fw = 0) by lra.
        assert (~ A j < cos th) by (intro C; apply A1 in C; lra). assert (~ cos th < B j) by (intro C; apply B2 in C; lra). lra. }
    set (e := w * (f0 / (f0 - fw))).
    assert (Q : 0 <= f0 / (f0 - fw) <= 1).
    { destruct SG as [(S1 & S2 & S3)|(S1 & S2 & S3)].
      - split; [apply Rmult_le_pos; [lra | apply Rlt_le, Rinv_0_lt_compat; lra]|]. apply (Rmult_le_reg_r (f0 - fw)); [lra|]. unfold Rdiv. rewrite Rmult_assoc, Rinv_l by lra. lra.
      - replace (f0 / (f0 - fw)) with (- f0 / (fw - f0)) by (field; lra).
        split; [apply Rmult_le_pos; [lra | apply Rlt_le, Rinv_0_lt_compat; lra]|]. apply (Rmult_le_reg_r (fw - f0)); [lra|]. unfold Rdiv. rewrite Rmult_assoc, Rinv_l by lra. lra. }
    assert (E : 0 <= e <= w) by (unfold e; nra).
    assert (Z : py (P j e) * cos th = (px (P j e) - z) * sin th).
    { assert (K : w * (py (P j e) * cos th - (px (P j e) - z) * sin th) = 0).
      { rewrite LIN. unfold e. field. destruct SG as [(_ & _ & S3)|(_ & _ & S3)]; intro; apply S3; lra. }
      apply Rmult_integral in K. destruct K; lra. }
    pose proof (P_above j e ltac:(lra)) as PY.
    exists (py (P j e) / sin th), e. split; [apply Rdiv_lt_0_compat; assumption|]. split; [exact E|].
    replace (py (P j e) / sin th * cos th) with (px (P j e) - z) by (apply (Rmult_eq_reg_r (sin th)); [|lra]; replace (py (P j e) / sin th * cos th * sin th) with (py (P j e) * cos th) by (field; lra); lra).
    replace (py (P j e) / sin th * sin th) with (py (P j e)) by (field; lra). unfold P, Pr. cbn [px py]. f_equal; ring.
Qed.

Lemma ground_point : sky_of_point O (gr z) (0, 1) (1 - upto (share n A B lf) n).
Proof.
  exists (fun th => sin th / 2 * (1 - upto (fun j => fresh A B lf j (cos th)) n)). split.
  - intros th T. pose proof (sin_gt_0 th ltac:(lra) ltac:(lra)) as S0.
    assert (SEE : sees_sky O (gr z) (0, 1) th <-> forall j, (j < n)%nat -> ~ within A B lf j (cos th)).
    { unfold sees_sky. cbn [fst snd gr px py]. split.
      - intros [_ H] j J W. apply (hits j th J T) in W. destruct W as (r & e & R0 & E & Q). apply (H r R0). right. exists j, e. repeat split; try assumption; lra.
      - intro H. split; [lra|]. intros r R0 [Y|(j & e & J & E & Q)].
        + cbn [py] in Y. assert (0 < r * sin th) by (apply Rmult_lt_0_compat; assumption). lra.
        + apply (H j J). apply (hits j th J T). exists r, e. tauto. }
    cbn [fst snd].
    destruct (cover_once n A B lf pt_LH (fun j _ => pt_IA j) (fun j _ => pt_IB j) pt_IL (cos th) n (Nat.le_refl n)) as [(E & j & J & W)|(E & N)]; rewrite E.
    + split; [intro S; exfalso; exact (proj1 SEE S j J W) | intros _; ring].
    + split; [intros _; field | intro S; exfalso; apply S, SEE; exact N].
  - apply cover; [..|exact pt_IL].
    + intros j _. apply sg_range, P_above. lra.
    + intros j _. apply sg_range, P_above. lra.
    + exact pt_LH.
    + intros j _. apply pt_IA.
    + intros j _. apply pt_IB.
Qed.
End Point.

(* ------------------------------------------------------- mean over a ground surface *)

Lemma sg_above : forall z q, 0 < py q -> 0 < dist2 q (gr z).
Proof.
  intros z q Y. unfold dist2, gr. cbn [px py]. rewrite Rminus_0_r. pose proof (Rle_0_sqr (px q - z)) as Q. unfold Rsqr in Q.
  assert (0 < py q * py q) by (apply Rmult_lt_0_compat; assumption). lra.
Qed.

Lemma pt_at : forall g1 g2 s, point_at (Line (gr g1) (gr g2)) s = gr (g1 + s * (g2 - g1)).
Proof. intros. unfold point_at, gr. cbn [b1 b2 px py]. f_equal. ring. Qed.

Lemma cosine_sg : forall g1 g2 q z, cosine (way (Line (gr g1) (gr g2))) q (gr z) = - (g2 - g1) * sg z q.
Proof. intros. unfold cosine, ahead, way, sg, gr. cbn [b1 b2 px py fst snd]. unfold Rdiv. ring. Qed.

Lemma share_core : forall (left : bool) j q a b g1 g2 (h : R -> R), g1 < g2 -> 0 < py q ->
  (forall s, 0 < s < 1 -> h s = dirn left * ((if Rlt_dec 0 (a * s + b) then sg (g1 + s * (g2 - g1)) q else sg (g1 + s * (g2 - g1)) (P j w)) - sg (g1 + s * (g2 - g1)) (P j 0)) / 2) ->
  (forall s, 0 <= s <= 1 -> a * s + b = 0 -> euclid (P j w) (gr (g1 + s * (g2 - g1))) = euclid (P j w) q + euclid q (gr (g1 + s * (g2 - g1)))) ->
  let T s := if Rlt_dec 0 (a * s + b) then euclid (P j w) q + euclid q (gr (g1 + s * (g2 - g1))) else euclid (P j w) (gr (g1 + s * (g2 - g1))) in
  is_RInt h 0 1 (dirn left / (2 * (g2 - g1)) * ((euclid (P j 0) (gr g2) - euclid (P j 0) (gr g1)) - (T 1 - T 0))).
Proof.
  intros left j q a b g1 g2 h G Yq H Z T. set (y := Line (gr g1) (gr g2)).
  assert (PY : forall s, point_at y s = gr (g1 + s * (g2 - g1))) by (intro; apply pt_at).
  assert (DD : forall q s, 0 < py q -> is_derive (fun s => euclid q (gr (g1 + s * (g2 - g1)))) s (cosine (way y) q (point_at y s))).
  { intros q' s Y'. apply (is_derive_ext (fun s => euclid q' (point_at y s))); [intro; rewrite PY; reflexivity|].
    apply dist_derive. rewrite PY. apply sg_above. exact Y'. }
  assert (CC : forall q s, 0 < py q -> continuous (fun s => cosine (way y) q (point_at y s)) s).
  { intros q' s Y'. apply cosine_continuous. rewrite PY. apply sg_above. exact Y'. }
  pose proof (P_above j w ltac:(lra)) as Yw. pose proof (P_above j 0 ltac:(lra)) as Y0.
  pose proof (bent (fun s => euclid (P j w) (gr (g1 + s * (g2 - g1)))) (fun s => euclid (P j w) q + euclid q (gr (g1 + s * (g2 - g1))))
    (fun s => cosine (way y) (P j w) (point_at y s)) (fun s => cosine (way y) q (point_at y s)) a b) as BT.
  specialize (BT (fun s _ => DD _ s Yw) (fun s _ => CC _ s Yw)).
  assert (D2 : forall s, 0 <= s <= 1 -> is_derive (fun s => euclid (P j w) q + euclid q (gr (g1 + s * (g2 - g1)))) s (cosine (way y) q (point_at y s))).
  { intros s _. replace (cosine (way y) q (point_at y s)) with (plus 0 (cosine (way y) q (point_at y s))) by (unfold plus; cbn; ring).
    apply (is_derive_plus (K := R_AbsRing) (V := R_NormedModule) (fun _ => euclid (P j w) q)); [apply (is_derive_const (K := R_AbsRing) (V := R_NormedModule)) | apply DD; exact Yq]. }
  specialize (BT D2 (fun s _ => CC _ s Yq) Z). cbv zeta in BT.
  pose proof (ftc (fun s => euclid (P j 0) (gr (g1 + s * (g2 - g1)))) (fun s => cosine (way y) (P j 0) (point_at y s)) 0 1 ltac:(lra) (fun s _ => DD _ s Y0) (fun s _ => CC _ s Y0)) as FT.
  cbv beta in FT.
  replace (g1 + 1 * (g2 - g1)) with g2 in FT by ring. replace (g1 + 0 * (g2 - g1)) with g1 in FT by ring.
  pose proof (is_RInt_scal (V := R_NormedModule) _ _ _ (dirn left / (2 * (g2 - g1))) _ (is_RInt_minus (V := R_NormedModule) _ _ _ _ _ _ FT BT)) as RI.
  eapply (is_RInt_ext (V := R_NormedModule)); [|exact RI].
  rewrite Rmin_left, Rmax_right by lra. intros s S. rewrite (H s S), PY. 
  match goal with |- ?a = ?b => change (@eq R a b) end. unfold scal, minus, plus, opp. cbn. unfold mult. cbn.
  destruct (Rlt_dec 0 (a * s + b)); unfold y; rewrite !cosine_sg; field; lra.
Qed.

Lemma top_next : forall (lf : nat -> bool) z j i', (j < n)%nat -> (i' < n)%nat -> INR i' = INR j + dirn (lf j) ->
  top n (fun j => sg z (P j 0)) (fun j => sg z (P j w)) lf j =
  if Rlt_dec 0 (dirn (lf j) * w * M j z - D * (Ly + w * uy)) then sg z (P i' 0) else sg z (P j w).
Proof.
  intros lf z j i' J I' E. pose proof (P_above j w ltac:(lra)) as Yw. pose proof (P_above i' 0 ltac:(lra)) as Y0.
  pose proof (sg_less z (P i' 0) (P j w) Y0 Yw) as C1. pose proof (sg_less z (P j w) (P i' 0) Yw Y0) as C2.
  assert (E1 : py (P i' 0) * (px (P j w) - z) - (px (P i' 0) - z) * py (P j w) = w * M j z - dirn (lf j) * (D * (Ly + w * uy))).
  { unfold P, Pr, M, Mz. cbn [px py]. rewrite E. ring. }
  replace (py (P j w) * (px (P i' 0) - z) - (px (P j w) - z) * py (P i' 0)) with (- (w * M j z - dirn (lf j) * (D * (Ly + w * uy)))) in C2 by (rewrite <- E1; ring).
  rewrite E1 in C1. clear E1. unfold top. destruct (lf j); cbn [dirn] in *.
  - destruct j as [|i]; [exfalso; cbn [INR] in E; pose proof (pos_INR i'); lra|].
    assert (i' = i) as -> by (apply INR_eq; rewrite S_INR in E; lra).
    unfold Rmax. destruct (Rle_dec (sg z (P (S i) w)) (sg z (P i 0))) as [Q|Q], (Rlt_dec 0 (-1 * w * M (S i) z - D * (Ly + w * uy))) as [C|C]; try reflexivity; [|exfalso].
    + assert (~ sg z (P (S i) w) < sg z (P i 0)) by (intro K; apply C2 in K; lra). lra.
    + apply Q. apply Rlt_le. apply C2. lra.
  - assert (i' = S j) as -> by (apply INR_eq; rewrite S_INR; exact E). destruct (lt_dec (S j) n); [|lia].
    unfold Rmin. destruct (Rle_dec (sg z (P j w)) (sg z (P (S j) 0))) as [Q|Q], (Rlt_dec 0 (1 * w * M j z - D * (Ly + w * uy))) as [C|C]; try reflexivity; exfalso.
    + assert (sg z (P (S j) 0) < sg z (P j w)) by (apply C1; lra). lra.
    + apply C. assert (K : sg z (P (S j) 0) < sg z (P j w)) by lra. apply C1 in K. lra.
Qed.

Lemma top_none : forall (lf : nat -> bool) z j, (j < n)%nat -> (forall i, (i < n)%nat -> ~ 0 < dirn (lf j) * (INR i - INR j)) ->
  top n (fun j => sg z (P j 0)) (fun j => sg z (P j w)) lf j = sg z (P j w).
Proof.
  intros lf z j J H. unfold top. destruct (lf j); cbn [dirn] in H.
  - destruct j as [|i]; [reflexivity|]. exfalso. apply (H i ltac:(lia)). rewrite S_INR. lra.
  - destruct (lt_dec (S j) n) as [L|L]; [|reflexivity]. exfalso. apply (H (S j) L). rewrite S_INR. lra.
Qed.

Lemma taut_low : forall (left : bool) j i' z, INR i' = INR j + dirn left -> taut_string left (Some (P i' 0)) (P j 0) (gr z) = euclid (P j 0) (gr z).
Proof.
  intros left j i' z E. unfold P. rewrite (taut_next L0 Ly ux uy D left j i' 0 z E).
  destruct (Rlt_dec _ _) as [C|C]; [|reflexivity]. exfalso. assert (0 < D * Ly) by (apply Rmult_lt_0_compat; assumption). lra.
Qed.

Lemma share_int : forall (lf : nat -> bool) j nb g1 g2, (j < n)%nat -> g1 < g2 -> next_row n L0 Ly ux uy D (lf j) j nb ->
  (forall z, g1 < z < g2 -> 0 < dirn (lf j) * M j z) ->
  is_RInt (fun s => share n (fun j => sg (g1 + s * (g2 - g1)) (P j 0)) (fun j => sg (g1 + s * (g2 - g1)) (P j w)) lf j) 0 1
    (w / (g2 - g1) * hottel_ground (lf j) nb (P j 0) (P j w) (gr g1) (gr g2)).
Proof.
  intros lf j nb g1 g2 J G NB SD.
  assert (LX : euclid (P j 0) (P j w) = w).
  { unfold P. rewrite Pr_dist by exact Hu. rewrite Rminus_0_r. apply Rabs_right. lra. }
  set (k := dirn (lf j)).
  assert (SH : forall s, share n (fun j => sg (g1 + s * (g2 - g1)) (P j 0)) (fun j => sg (g1 + s * (g2 - g1)) (P j w)) lf j
    = k * (top n (fun j => sg (g1 + s * (g2 - g1)) (P j 0)) (fun j => sg (g1 + s * (g2 - g1)) (P j w)) lf j - sg (g1 + s * (g2 - g1)) (P j 0)) / 2).
  { intro s. unfold share, k. destruct (lf j); cbn [dirn]; field. }
  destruct nb as [o|].
  - destruct NB as (i' & I' & E & ->). fold k in E.
    set (a := k * w * uy * (g2 - g1)). set (b := k * w * M j g1 - D * (Ly + w * uy)).
    assert (AB : forall s, a * s + b = k * w * M j (g1 + s * (g2 - g1)) - D * (Ly + w * uy)) by (intro; unfold a, b, M, Mz; ring).
    pose proof (share_core (lf j) j (P i' 0) a b g1 g2 (fun s => share n (fun j => sg (g1 + s * (g2 - g1)) (P j 0)) (fun j => sg (g1 + s * (g2 - g1)) (P j w)) lf j) G (P_above i' 0 ltac:(lra))) as C.
    specialize (C ltac:(intros s _; cbv beta; rewrite SH, (top_next lf _ j i' J I' E), AB; reflexivity)).
    fold k in C.
    assert (EDGE : forall s, 0 <= s <= 1 -> a * s + b = 0 -> euclid (P j w) (gr (g1 + s * (g2 - g1))) = euclid (P j w) (P i' 0) + euclid (P i' 0) (gr (g1 + s * (g2 - g1)))).
    { intros s S Z. rewrite AB in Z. destruct (Req_dec uy 0) as [U|U].
      - assert (K2 : k = 1 \/ k = -1) by apply dirn_cases. specialize (FL U). specialize (SD ((g1 + g2) / 2) ltac:(lra)). fold k in SD.
        unfold M, Mz in Z, SD. rewrite U in Z, SD. assert (UX : ux * ux = 1) by (rewrite U in Hu; lra).
        assert (KU : 0 < k * ux) by (apply (Rmult_lt_reg_r Ly); [exact HLy | lra]).
        assert (KU1 : k * ux = 1). { assert (QQ : (k * ux) * (k * ux) = 1) by (destruct K2 as [-> | ->]; lra). nra. }
        assert (WD : w = D). { apply (Rmult_eq_reg_r Ly); [|lra]. replace (w * Ly) with (k * ux * (w * Ly)) by (rewrite KU1; ring). lra. }
        assert (EQ : P j w = P i' 0).
        { unfold P, Pr. rewrite E, U, WD. f_equal; [|ring]. assert (ux = k) by (destruct K2 as [K2|K2]; rewrite K2 in *; lra). subst ux. ring. }
        rewrite EQ. assert (Z0 : euclid (P i' 0) (P i' 0) = 0) by (unfold P; rewrite Pr_dist by exact Hu; rewrite Rminus_0_r, Rabs_R0; reflexivity).
        rewrite Z0. ring.
      - assert (U0 : 0 < uy) by lra.
        destruct (under_edge L0 Ly ux uy D HLy HD j i' w (g1 + s * (g2 - g1)) k (dirn_cases _) ltac:(lra) U0 E Z) as (tt & T1 & T2).
        fold (P i' 0) in T2. fold (P j w) in T2. rewrite T2. symmetry. apply euclid_between. lra. }
    specialize (C EDGE). cbv beta zeta in C. rewrite !AB in C.
    replace (g1 + 1 * (g2 - g1)) with g2 in C by ring. replace (g1 + 0 * (g2 - g1)) with g1 in C by ring.
    assert (TN : forall z, taut_string (lf j) (Some (P i' 0)) (P j w) (gr z) =
      if Rlt_dec 0 (k * w * M j z - D * (Ly + w * uy)) then euclid (P j w) (P i' 0) + euclid (P i' 0) (gr z) else euclid (P j w) (gr z))
      by (intro; exact (taut_next L0 Ly ux uy D (lf j) j i' w _ E)).
    rewrite <- !TN in C. clear TN.
    match type of C with is_RInt _ _ _ ?v => match goal with |- is_RInt _ _ _ ?v' => replace v' with v; [exact C|] end end.
    unfold hottel_ground. rewrite LX. fold (P i' 0) (P j w) in *. unfold k in *. 
    destruct (lf j); cbn [dirn] in *; rewrite !taut_low by exact E; field; lra.
  - pose proof (share_core (lf j) j (P j w) 0 (-1) g1 g2 (fun s => share n (fun j => sg (g1 + s * (g2 - g1)) (P j 0)) (fun j => sg (g1 + s * (g2 - g1)) (P j w)) lf j) G (P_above j w ltac:(lra))) as C.
    specialize (C ltac:(intros s _; cbv beta; rewrite SH, (top_none lf _ j J NB); destruct (Rlt_dec 0 (0 * s + -1)); [exfalso; lra | reflexivity])).
    specialize (C ltac:(intros s _ Z; exfalso; lra)). cbv beta zeta in C.
    destruct (Rlt_dec 0 (0 * 1 + -1)) as [Q|_]; [exfalso; lra|]. destruct (Rlt_dec 0 (0 * 0 + -1)) as [Q|_]; [exfalso; lra|].
    replace (g1 + 1 * (g2 - g1)) with g2 in C by ring. replace (g1 + 0 * (g2 - g1)) with g1 in C by ring.
    match type of C with is_RInt _ _ _ ?v => match goal with |- is_RInt _ _ _ ?v' => replace v' with v; [exact C|] end end.
    unfold hottel_ground, taut_string. rewrite LX. rewrite (euclid_sym (P j 0) (gr g1)), (euclid_sym (P j 0) (gr g2)), (euclid_sym (P j w) (gr g1)), (euclid_sym (P j w) (gr g2)).
    unfold k. destruct (lf j); cbn [dirn]; field; lra.
Qed.

Lemma upto_int : forall (h : R -> nat -> R) (v : nat -> R) m, (forall j, (j < m)%nat -> is_RInt (fun s => h s j) 0 1 (v j)) ->
  is_RInt (fun s => 1 - upto (h s) m) 0 1 (1 - upto v m).
Proof.
  intros h v m. induction m as [|m IH]; intro H; cbn [upto].
  - pose proof (is_RInt_const (V := R_NormedModule) 0 1 (1 - 0)) as K. change (is_RInt (fun _ : R => 1 - 0) 0 1 ((1 - 0) * (1 - 0))) in K.
    replace ((1 - 0) * (1 - 0)) with (1 - 0) in K by ring. exact K.
  - pose proof (is_RInt_minus (V := R_NormedModule) _ _ _ _ _ _ (IH (fun j J => H j ltac:(lia))) (H m ltac:(lia))) as K.
    replace (1 - (upto v m + v m)) with (minus (1 - upto v m) (v m)) by (unfold minus, plus, opp; cbn; ring).
    eapply (is_RInt_ext (V := R_NormedModule)); [|exact K]. intros s _. unfold minus, plus, opp; cbn. ring.
Qed.

Theorem ground_sky : forall (lf : nat -> bool) (nb : nat -> option pt) g1 g2, g1 < g2 ->
  (forall j, (j < n)%nat -> next_row n L0 Ly ux uy D (lf j) j (nb j)) ->
  (forall j, (j < n)%nat -> forall z, g1 < z < g2 -> 0 < dirn (lf j) * M j z) ->
  sky_view O (Line (gr g1) (gr g2)) (0, 1)
    (1 - upto (fun j => w / (g2 - g1) * hottel_ground (lf j) (nb j) (P j 0) (P j w) (gr g1) (gr g2)) n).
Proof.
  intros lf nb g1 g2 G NB SD.
  exists (fun s => 1 - upto (share n (fun j => sg (g1 + s * (g2 - g1)) (P j 0)) (fun j => sg (g1 + s * (g2 - g1)) (P j w)) lf) n). split.
  - intros s S. rewrite pt_at. apply ground_point. intros j J. apply SD; [exact J | nra].
  - apply upto_int. intros j J. apply share_int; auto.
Qed.
End Ground.

Lemma sky_of_point_unique : forall O q nq v v', sky_of_point O q nq v -> sky_of_point O q nq v' -> v = v'.
Proof.
  intros O q nq v v' (g & A & B) (g' & A' & B'). pose proof PI_RGT_0.
  rewrite <- (is_RInt_unique (V := R_CompleteNormedModule) _ _ _ _ B), <- (is_RInt_unique (V := R_CompleteNormedModule) _ _ _ _ B').
  apply (RInt_ext (V := R_CompleteNormedModule)). rewrite Rmin_left, Rmax_right by lra. intros th T. match goal with |- ?a = ?b => change (@eq R a b) end.
  destruct (Req_dec (g th) (g' th)) as [E|E]; [exact E|]. exfalso.
  destruct (A th T) as [A1 A2], (A' th T) as [A1' A2'].
  assert (N : ~ sees_sky O q nq th) by (intro S; apply E; rewrite (A1 S), (A1' S); reflexivity).
  apply E. rewrite (A2 N), (A2' N). reflexivity.
Qed.
Lemma sky_view_unique : forall O x nx v v', sky_view O x nx v -> sky_view O x nx v' -> v = v'.
Proof.
  intros O x nx v v' (F & A & B) (F' & A' & B').
  rewrite <- (is_RInt_unique (V := R_CompleteNormedModule) _ _ _ _ B), <- (is_RInt_unique (V := R_CompleteNormedModule) _ _ _ _ B').
  apply (RInt_ext (V := R_CompleteNormedModule)). rewrite Rmin_left, Rmax_right by lra. intros s S.
  exact (sky_of_point_unique _ _ _ _ _ (A s S) (A' s S)).
Qed.
