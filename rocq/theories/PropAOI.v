(** AOI losses: C38, C39, C51. *)
From Coq Require Import Reals List Bool Arith String Lra Lia.
From Verif Require Import Num ModelTs ModelGeom ModelVF Basics SpecGeom SpecVF ProofFit ProofCut ProofIndex ProofGeom ProofGeom2 PropGeom ProofAngles ProofString ProofMatrix ProofVF ProofVF2 PropVF ModelParams ModelAOI ProofAOI SpecEngine SpecAOI ModelIrr SpecIrr ProofHorizon.
Import ListNotations.
Open Scope R_scope.

(* ------------------------------------------------------------------- basic facts *)

Lemma np_sum_first : forall n g, np_sum n g = sum_below n g.
Proof. intros. rewrite np_sum_isum. reflexivity. Qed.

Lemma sum_below_ext : forall n g h, (forall k, (k < n)%nat -> g k = h k) -> sum_below n g = sum_below n h.
Proof. induction n as [|n IH]; intros g h H; [reflexivity|]. cbn. rewrite (IH g h), (H n); [reflexivity| lia |]. intros; apply H; lia. Qed.
Lemma sum_below_le : forall n g h, (forall k, (k < n)%nat -> g k <= h k) -> sum_below n g <= sum_below n h.
Proof. induction n as [|n IH]; intros g h H; [cbn; lra|]. cbn. pose proof (IH g h ltac:(intros; apply H; lia)). pose proof (H n ltac:(lia)). lra. Qed.
Lemma sum_below_zero : forall n, sum_below n (fun _ => 0) = 0.
Proof. induction n as [|n IH]; [reflexivity|]. cbn. rewrite IH. ring. Qed.
Lemma sum_below_scal : forall n c g, sum_below n (fun k => c * g k) = c * sum_below n g.
Proof. induction n as [|n IH]; intros c g; cbn; [ring|]. rewrite IH. ring. Qed.

Lemma cut_angles : forall n k, (0 < n)%nat -> section_low n k = cut_angle n k /\ section_high n k = cut_angle n (S k)
  /\ section_middle n k = mid_angle n k.
Proof.
  intros n k H. unfold section_high, section_middle, section_low, mid_angle, aoi_interval, aoi_angles, cut_angle.
  rewrite !S_INR. change (INR 0) with 0. assert (0 < INR n) by (apply lt_0_INR; exact H). repeat split; field; lra.
Qed.

Lemma cut_range : forall n k, (k <= n)%nat -> (0 < n)%nat -> 0 <= cut_angle n k <= 180.
Proof.
  intros n k K N. unfold cut_angle. assert (0 < INR n) by (apply lt_0_INR; exact N).
  pose proof (le_INR _ _ K). pose proof (pos_INR k). split.
  - apply Rmult_le_pos; [nra | left; apply Rinv_0_lt_compat; assumption].
  - apply (Rmult_le_reg_r (INR n)); [assumption|]. unfold Rdiv. rewrite Rmult_assoc, Rinv_l by lra. nra.
Qed.
Lemma cut_lt : forall n k j, (0 < n)%nat -> (k < j)%nat -> cut_angle n k < cut_angle n j.
Proof.
  intros n k j N K. unfold cut_angle. assert (0 < INR n) by (apply lt_0_INR; exact N).
  apply Rmult_lt_compat_r; [apply Rinv_0_lt_compat; assumption|]. pose proof (lt_INR _ _ K). lra.
Qed.
Lemma cut_le : forall n k j, (0 < n)%nat -> (k <= j)%nat -> cut_angle n k <= cut_angle n j.
Proof. intros n k j N K. destruct (le_lt_eq_dec _ _ K) as [L| ->]; [left; apply cut_lt; assumption | lra]. Qed.
Lemma mid_range : forall n k, (k < n)%nat -> 0 <= mid_angle n k <= 180.
Proof. intros n k K. pose proof (cut_range n k ltac:(lia) ltac:(lia)). pose proof (cut_range n (S k) ltac:(lia) ltac:(lia)). unfold mid_angle. lra. Qed.

Lemma cos_deg_le : forall x y, 0 <= x -> x <= y -> y <= 180 -> cos (y * PI / 180) <= cos (x * PI / 180).
Proof. intros x y X XY Y. pose proof PI_RGT_0. apply cos_decr_1; nra. Qed.
Lemma seen_nonneg : forall x y, 0 <= x -> x <= y -> y <= 180 -> 0 <= seen_between x y.
Proof. intros x y X XY Y. pose proof (cos_deg_le x y X XY Y). unfold seen_between. lra. Qed.
Lemma seen_chain : forall x y z, seen_between x y + seen_between y z = seen_between x z.
Proof. intros. unfold seen_between. lra. Qed.
Lemma seen_full : seen_between 0 180 = 1.
Proof.
  unfold seen_between. replace (0 * PI / 180) with 0 by field. replace (180 * PI / 180) with PI by field.
  rewrite cos_0, cos_PI. field.
Qed.
Lemma seen_le_1 : forall x y, seen_between x y <= 1.
Proof. intros. unfold seen_between. pose proof (COS_bound (x * PI / 180)). pose proof (COS_bound (y * PI / 180)). lra. Qed.

Lemma aoi_vf_section : forall n k, (k < n)%nat ->
  aoi_vf (section_low n k) (section_high n k) = seen_between (cut_angle n k) (cut_angle n (S k)).
Proof.
  intros n k K. destruct (cut_angles n k ltac:(lia)) as (-> & -> & _). unfold aoi_vf, seen_between, cosd, deg2rad.
  pose proof (cos_deg_le (cut_angle n k) (cut_angle n (S k))) as C.
  pose proof (cut_range n k ltac:(lia) ltac:(lia)). pose proof (cut_range n (S k) ltac:(lia) ltac:(lia)).
  pose proof (cut_lt n k (S k) ltac:(lia) ltac:(lia)).
  rewrite Rabs_right by (apply Rle_ge; specialize (C ltac:(lra) ltac:(lra) ltac:(lra)); lra). field.
Qed.

Lemma sections_telescope : forall n j, sum_below j (fun k => seen_between (cut_angle n k) (cut_angle n (S k))) = seen_between (cut_angle n 0) (cut_angle n j).
Proof. intros n j. induction j as [|j IH]; cbn [sum_below]; [unfold seen_between; lra|]. rewrite IH. apply seen_chain. Qed.
Lemma cut_0 : forall n, cut_angle n 0 = 0.
Proof. intro n. unfold cut_angle. cbn. unfold Rdiv. rewrite Rmult_0_r, Rmult_0_l. reflexivity. Qed.
Lemma cut_n : forall n, (0 < n)%nat -> cut_angle n n = 180.
Proof. intros n H. unfold cut_angle. field. apply not_0_INR. lia. Qed.

(* ------------------------------------------------------------------------- C38 *)

Theorem C38_sections : forall n, (0 < n)%nat ->
  sum_below n (fun k => aoi_vf (section_low n k) (section_high n k)) = 1 /\
  section_low n 0 = 0 /\ section_high n (n - 1) = 180 /\
  forall k, section_high n k = section_low n (S k) /\ section_low n k < section_middle n k < section_high n k /\
    ((k < n)%nat -> 0 < aoi_vf (section_low n k) (section_high n k)).
Proof.
  intros n N. split.
  { rewrite (sum_below_ext _ _ _ (aoi_vf_section n)), sections_telescope, cut_0, (cut_n n N). apply seen_full. }
  destruct (cut_angles n 0 N) as (-> & _). destruct (cut_angles n (n - 1) N) as (_ & -> & _).
  replace (S (n - 1)) with n by lia. rewrite cut_0, (cut_n n N). split; [reflexivity|]. split; [reflexivity|].
  intro k. destruct (cut_angles n k N) as (A & B & C). destruct (cut_angles n (S k) N) as (A' & _).
  split; [congruence|]. rewrite A, B, C. pose proof (cut_lt n k (S k) N ltac:(lia)).
  split; [unfold mid_angle; lra|]. intro K. rewrite <- A, <- B, (aoi_vf_section n k K). unfold seen_between.
  pose proof (cut_range n k ltac:(lia) N). pose proof (cut_range n (S k) ltac:(lia) N). pose proof PI_RGT_0.
  assert (cos (cut_angle n (S k) * PI / 180) < cos (cut_angle n k * PI / 180)); [|lra].
  apply cos_decreasing_1; nra.
Qed.
Print Assumptions C38_sections.

Theorem C38_rho : forall m back,
  (am_n m = 0%nat -> rho_from_faoi_fn m back = Err IndexError) /\
  (am_n m <> 0%nat -> exists r, rho_from_faoi_fn m back = Ok r /\
     let f := if back then am_back m else am_front m in
     r = 1 - sum_below (am_n m) (fun k =>
           f (mid_angle (am_n m) k) * seen_between (cut_angle (am_n m) k) (cut_angle (am_n m) (S k))) /\
     ((forall x, 0 <= x <= 180 -> 0 <= f x <= 1) -> 0 <= r <= 1) /\
     (forall c, (forall x, 0 <= x <= 180 -> f x = c) -> r = 1 - c) /\
     (forall lo hi, (forall x, 0 <= x <= 180 -> lo <= f x <= hi) -> 1 - hi <= r <= 1 - lo)).
Proof.
  intros m back. unfold rho_from_faoi_fn. split.
  { intros ->. reflexivity. }
  intro N. rewrite (proj2 (Nat.eqb_neq _ _) N). cbn zeta. eexists. split; [reflexivity|].
  set (n := am_n m) in *. set (f := if back then am_back m else am_front m).
  assert (E : np_sum n (fun k => f (section_middle n k) * aoi_vf (section_low n k) (section_high n k)) =
    sum_below n (fun k => f (mid_angle n k) * seen_between (cut_angle n k) (cut_angle n (S k)))).
  { rewrite np_sum_first. apply sum_below_ext. intros k K. rewrite (aoi_vf_section n k K).
    destruct (cut_angles n k ltac:(lia)) as (_ & _ & ->). reflexivity. }
  rewrite E. clear E. split; [reflexivity|].
  assert (T : sum_below n (fun k => seen_between (cut_angle n k) (cut_angle n (S k))) = 1).
  { rewrite sections_telescope, cut_0, (cut_n n ltac:(lia)). apply seen_full. }
  assert (S0 : forall k, (k < n)%nat -> 0 <= seen_between (cut_angle n k) (cut_angle n (S k))).
  { intros k K. pose proof (cut_range n k ltac:(lia) ltac:(lia)). pose proof (cut_range n (S k) ltac:(lia) ltac:(lia)).
    pose proof (cut_lt n k (S k) ltac:(lia) ltac:(lia)). apply seen_nonneg; lra. }
  assert (B : forall lo hi, (forall x, 0 <= x <= 180 -> lo <= f x <= hi) ->
    lo <= sum_below n (fun k => f (mid_angle n k) * seen_between (cut_angle n k) (cut_angle n (S k))) <= hi).
  { intros lo hi H. rewrite <- (Rmult_1_r lo), <- (Rmult_1_r hi), <- T, <- !sum_below_scal.
    split; apply sum_below_le; intros k K; pose proof (H _ (mid_range n k K)); pose proof (S0 k K); nra. }
  split; [|split].
  - intro H. pose proof (B 0 1 H). lra.
  - intros c H. pose proof (B c c (fun x X => conj (Req_le_sym _ _ (H x X)) (Req_le _ _ (H x X)))). lra.
  - intros lo hi H. pose proof (B lo hi H). lra.
Qed.
Print Assumptions C38_rho.

Example C38_example : exists r, rho_from_faoi_fn (AOIMethods (fun x => if Rlt_dec x 90 then x / 90 else 0) (fun _ => 4 / 5) 2) true = Ok r /\
  r = 1 / 5 /\ exists r', rho_from_faoi_fn (AOIMethods (fun x => if Rlt_dec x 90 then x / 90 else 0) (fun _ => 4 / 5) 2) false = Ok r' /\
  r' = 3 / 4.
Proof.
  set (m := AOIMethods (fun x => if Rlt_dec x 90 then x / 90 else 0) (fun _ => 4 / 5) 2).
  destruct (proj2 (C38_rho m true) ltac:(cbn; lia)) as (r & E & _ & _ & C & _). exists r. split; [exact E|].
  split; [rewrite (C (4 / 5) (fun _ _ => eq_refl)); lra|].
  destruct (proj2 (C38_rho m false) ltac:(cbn; lia)) as (r' & E' & D & _). exists r'. split; [exact E'|].
  rewrite D. unfold m, mid_angle, cut_angle, seen_between. cbn [am_n am_front sum_below INR].
  destruct (Rlt_dec _ 90) as [L|L]; [|lra]. destruct (Rlt_dec _ 90) as [L'|L']; [lra|].
  replace (180 * 0 / (1 + 1) * PI / 180) with 0 by field. replace (180 * 1 / (1 + 1) * PI / 180) with (PI / 2) by field.
  replace (180 * (1 + 1) / (1 + 1) * PI / 180) with PI by field. rewrite cos_0, cos_PI2, cos_PI. field.
Qed.

(* ------------------------------------------------------------------------- C39 *)

Lemma sq2 : forall x, x ^ 2 = x * x.
Proof. intro x. ring. Qed.

Lemma norm_pos : forall x y, (x, y) <> (0, 0) -> 0 < x * x + y * y.
Proof.
  intros x y H. destruct (Req_dec x 0) as [->|X].
  - assert (y <> 0) by (intros ->; apply H; reflexivity). assert (0 < y * y) by nra. lra.
  - assert (0 < x * x) by nra. nra.
Qed.

Lemma cauchy : forall a b c d, (a * c + b * d) * (a * c + b * d) <= (a * a + b * b) * (c * c + d * d).
Proof. intros. assert (0 <= (a * d - b * c) * (a * d - b * c)) by (apply Rle_0_sqr). nra. Qed.

Lemma clip_id : forall x, -1 <= x <= 1 -> clip1 x = x.
Proof. intros x X. unfold clip1. rewrite np_min_Rmin, np_max_Rmax. rewrite Rmax_left, Rmin_left by lra. reflexivity. Qed.
Lemma clip_range : forall x, -1 <= clip1 x <= 1.
Proof.
  intro x. unfold clip1. rewrite np_min_Rmin, np_max_Rmax. split; [apply Rmin_glb; [apply Rmax_r | lra] | apply Rmin_r].
Qed.

Lemma cos_ratio : forall u v, u <> (0, 0) -> v <> (0, 0) ->
  let nu := sqrt (fst u ^ 2 + snd u ^ 2) in let nv := sqrt (fst v ^ 2 + snd v ^ 2) in
  0 < nu * nv /\ -1 <= (fst u * fst v + snd u * snd v) / (nu * nv) <= 1.
Proof.
  intros [a b] [c d] U V. cbn [fst snd]. rewrite !sq2.
  pose proof (norm_pos _ _ U) as PU. pose proof (norm_pos _ _ V) as PV.
  rewrite <- sqrt_mult by lra. set (q := (a * a + b * b) * (c * c + d * d)).
  assert (Q : 0 < q) by (apply Rmult_lt_0_compat; assumption).
  pose proof (sqrt_lt_R0 _ Q) as S. split; [exact S|].
  assert (A : Rabs (a * c + b * d) <= sqrt q).
  { rewrite <- sqrt_Rsqr_abs. apply sqrt_le_1_alt. unfold Rsqr. apply cauchy. }
  pose proof (Rle_abs (a * c + b * d)). pose proof (Rle_abs (- (a * c + b * d))) as A'. rewrite Rabs_Ropp in A'.
  split.
  - apply (Rmult_le_reg_r (sqrt q)); [exact S|]. unfold Rdiv. rewrite Rmult_assoc, Rinv_l by lra. lra.
  - apply (Rmult_le_reg_r (sqrt q)); [exact S|]. unfold Rdiv. rewrite Rmult_assoc, Rinv_l by lra. lra.
Qed.

(** The angle of incidence is the angle between the two vectors. *)
Theorem C39_angle : forall u c p, u <> (0, 0) -> p <> c ->
  let v := (px p - px c, py p - py c) in
  angle_between u v (calculate_aoi_angle u c p) /\
  forall theta, angle_between u v theta -> theta = calculate_aoi_angle u c p.
Proof.
  intros u c p U PC v.
  assert (Vn : v <> (0, 0)).
  { intro E. apply PC. unfold v in E. inversion E. destruct p as [x y], c as [x' y']. cbn in *. f_equal; lra. }
  pose proof (cos_ratio u v U Vn) as [PN B]. cbn zeta in PN, B.
  set (nu := sqrt (fst u ^ 2 + snd u ^ 2)) in *. set (nv := sqrt (fst v ^ 2 + snd v ^ 2)) in *.
  set (dot := fst u * fst v + snd u * snd v) in *.
  assert (E : calculate_aoi_angle u c p = rad2deg (acos (dot / (nu * nv)))).
  { unfold calculate_aoi_angle. fold v. fold dot nu nv. unfold fdiv. destruct (Req_EM_T (nu * nv) 0); [lra|].
    rewrite clip_id by exact B. reflexivity. }
  pose proof PI_RGT_0 as PI0. pose proof (acos_bound (dot / (nu * nv))) as AB.
  assert (NU : sqrt (fst u * fst u + snd u * snd u) = nu) by (unfold nu; rewrite !sq2; reflexivity).
  assert (NV : sqrt (fst v * fst v + snd v * snd v) = nv) by (unfold nv; rewrite !sq2; reflexivity).
  split.
  - rewrite E. split.
    + unfold rad2deg. split.
      * apply Rmult_le_pos; [nra | left; apply Rinv_0_lt_compat; exact PI0].
      * apply (Rmult_le_reg_r PI); [exact PI0|]. unfold Rdiv. rewrite Rmult_assoc, Rinv_l by lra. nra.
    + rewrite NU, NV. replace (rad2deg (acos (dot / (nu * nv))) * PI / 180) with (acos (dot / (nu * nv))) by (unfold rad2deg; field; lra).
      rewrite cos_acos by exact B. unfold dot. field. split; intro Z; rewrite Z in PN; lra.
  - intros theta [[T1 T2] T]. rewrite NU, NV in T. fold dot in T. rewrite E, T.
    replace (nu * nv * cos (theta * PI / 180) / (nu * nv)) with (cos (theta * PI / 180)) by (field; split; intro Z; rewrite Z in PN; lra).
    rewrite acos_cos by nra. unfold rad2deg. field. lra.
Qed.
Print Assumptions C39_angle.

Theorem C39_range : forall u c p, 0 <= calculate_aoi_angle u c p <= 180.
Proof.
  intros u c p. unfold calculate_aoi_angle. cbn zeta. set (x := clip1 _). pose proof (acos_bound x) as A. pose proof PI_RGT_0.
  unfold rad2deg. split.
  - apply Rmult_le_pos; [nra | left; apply Rinv_0_lt_compat; assumption].
  - apply (Rmult_le_reg_r PI); [assumption|]. unfold Rdiv. rewrite Rmult_assoc, Rinv_l by lra. nra.
Qed.
Print Assumptions C39_range.

(** The function made from a module of the Sandia database takes the loss at the angle
    from the normal of the surface, on the side that is looked at; the angle it is given is
    measured from the surface. *)
Theorem C39_sandia : forall sapm u v theta phi, u <> (0, 0) -> v <> (0, 0) ->
  0 <= fst u * snd v - snd u * fst v ->
  angle_between u v theta -> angle_between (- snd u, fst u) v phi ->
  sandia_faoi sapm theta = sapm phi /\ 0 <= phi <= 90 /\
  sandia_faoi sapm (180 - theta) = sandia_faoi sapm theta.
Proof.
  intros sapm u v theta phi U V X [[T1 T2] T] [[P1 P2] P]. cbn [fst snd] in P.
  pose proof PI_RGT_0 as PI0. destruct (cos_ratio u v U V) as [PN _]. cbn zeta in PN.
  rewrite !sq2 in PN. set (N := sqrt (fst u * fst u + snd u * snd u) * sqrt (fst v * fst v + snd v * snd v)) in *.
  replace (- snd u * - snd u + fst u * fst u) with (fst u * fst u + snd u * snd u) in P by ring. fold N in P.
  assert (S0 : 0 <= sin (theta * PI / 180)) by (apply sin_ge_0; nra).
  assert (C0 : 0 <= cos (phi * PI / 180)).
  { destruct (Rle_dec 0 (cos (phi * PI / 180))); [assumption|]. exfalso. nra. }
  assert (NN : N * N = (fst u * fst u + snd u * snd u) * (fst v * fst v + snd v * snd v)).
  { unfold N. set (A := fst u * fst u + snd u * snd u). set (B := fst v * fst v + snd v * snd v).
    assert (0 <= A) by (unfold A; pose proof (Rle_0_sqr (fst u)); pose proof (Rle_0_sqr (snd u)); unfold Rsqr in *; lra).
    assert (0 <= B) by (unfold B; pose proof (Rle_0_sqr (fst v)); pose proof (Rle_0_sqr (snd v)); unfold Rsqr in *; lra).
    replace (sqrt A * sqrt B * (sqrt A * sqrt B)) with (sqrt A * sqrt A * (sqrt B * sqrt B)) by ring.
    rewrite !sqrt_sqrt by assumption. reflexivity. }
  assert (L : (N * cos (theta * PI / 180)) * (N * cos (theta * PI / 180)) + (N * cos (phi * PI / 180)) * (N * cos (phi * PI / 180)) = N * N).
  { rewrite <- T, <- P, NN. ring. }
  pose proof (sin2_cos2 (theta * PI / 180)) as SC. unfold Rsqr in SC.
  assert (E : cos (phi * PI / 180) = sin (theta * PI / 180)).
  { assert (Q : cos (phi * PI / 180) * cos (phi * PI / 180) = sin (theta * PI / 180) * sin (theta * PI / 180)).
    { apply (Rmult_eq_reg_l (N * N)); [|nra]. nra. }
    nra. }
  set (w := if Rle_dec 90 theta then theta - 90 else 90 - theta).
  assert (W : 0 <= w <= 90) by (unfold w; destruct (Rle_dec 90 theta); lra).
  assert (CW : cos (w * PI / 180) = sin (theta * PI / 180)).
  { unfold w. destruct (Rle_dec 90 theta).
    - replace ((theta - 90) * PI / 180) with (- (PI / 2 - theta * PI / 180)) by field. rewrite cos_neg. apply cos_shift.
    - replace ((90 - theta) * PI / 180) with (PI / 2 - theta * PI / 180) by field. apply cos_shift. }
  assert (PW : phi = w).
  { assert (Q : phi * PI / 180 = w * PI / 180) by (apply cos_inj; [nra|nra|congruence]).
    apply (Rmult_eq_reg_r PI); [|lra]. lra. }
  split; [|split].
  - unfold sandia_faoi, np_where. rewrite PW. unfold w. f_equal.
    destruct (Rleb 90 theta) eqn:H; destruct (Rle_dec 90 theta); try reflexivity;
      [apply Rleb_true in H | apply Rleb_false in H]; lra.
  - lra.
  - unfold sandia_faoi, np_where. f_equal.
    destruct (Rleb 90 theta) eqn:H; destruct (Rleb 90 (180 - theta)) eqn:H';
      rewrite ?Rleb_true, ?Rleb_false in H; rewrite ?Rleb_true, ?Rleb_false in H'; try lra.
Qed.
Print Assumptions C39_sandia.

(** Light that comes at 30 degrees from the surface is 60 degrees away from the normal. *)
Example C39_sandia_case : forall sapm, sandia_faoi sapm 30 = sapm 60 /\ sandia_faoi sapm 150 = sapm 60 /\
  angle_between (2, 0) (sqrt 3, 1) 30 /\ angle_between (-0, 2) (sqrt 3, 1) 60.
Proof.
  intros sapm.
  assert (A : angle_between (2, 0) (sqrt 3, 1) 30).
  { split; [lra|]. cbn [fst snd]. replace (30 * PI / 180) with (PI / 6) by field. rewrite cos_PI6.
    rewrite (sqrt_sqrt 3) by lra. replace (2 * 2 + 0 * 0) with (2 * 2) by ring. replace (3 + 1 * 1) with (2 * 2) by ring.
    rewrite sqrt_square by lra. field. }
  assert (B : angle_between (-0, 2) (sqrt 3, 1) 60).
  { split; [lra|]. cbn [fst snd]. replace (60 * PI / 180) with (PI / 3) by field. rewrite cos_PI3.
    rewrite (sqrt_sqrt 3) by lra. replace (-0 * -0 + 2 * 2) with (2 * 2) by ring. replace (3 + 1 * 1) with (2 * 2) by ring.
    rewrite sqrt_square by lra. field. }
  destruct (C39_sandia sapm (2, 0) (sqrt 3, 1) 30 60) as (E & _ & F); auto.
  - intros H. apply (f_equal fst) in H. cbn in H. lra.
  - intros H. apply (f_equal snd) in H. cbn in H. lra.
  - cbn [fst snd]. lra.
  - replace (180 - 30) with 150 in F by ring. rewrite F. auto.
Qed.

Theorem C39_symmetric : forall u v c,
  calculate_aoi_angle u c (Pt (px c + fst v) (py c + snd v)) =
  calculate_aoi_angle v c (Pt (px c + fst u) (py c + snd u)).
Proof.
  intros [a b] [x y] [cx cy]. unfold calculate_aoi_angle. cbn [fst snd px py].
  replace (cx + x - cx) with x by ring. replace (cy + y - cy) with y by ring.
  replace (cx + a - cx) with a by ring. replace (cy + b - cy) with b by ring.
  rewrite (Rmult_comm a x), (Rmult_comm b y), (Rmult_comm (sqrt (a ^ 2 + b ^ 2))). reflexivity.
Qed.
Print Assumptions C39_symmetric.

Example C39_angle_example : forall c, calculate_aoi_angle (-2, 0) c (Pt (px c + 1) (py c + 1)) = 135.
Proof.
  intro c. symmetry. apply C39_angle.
  - intro E. inversion E. lra.
  - intro E. apply (f_equal px) in E. cbn in E. lra.
  - cbn [px py fst snd]. split; [lra|]. replace (px c + 1 - px c) with 1 by ring. replace (py c + 1 - py c) with 1 by ring.
    cbn [fst snd]. replace (-2 * -2 + 0 * 0) with (2 * 2) by ring. rewrite sqrt_square by lra.
    replace (1 * 1 + 1 * 1) with 2 by ring. replace (135 * PI / 180) with (3 * (PI / 4)) by field.
    rewrite cos_3PI4. pose proof (sqrt_def 2 ltac:(lra)). assert (0 < sqrt 2) by (apply sqrt_lt_R0; lra). field_simplify; [|lra]. lra.
Qed.

(** The wedge: the sum over the sections met. *)
Lemma wedge_spec : forall m af x y (back : bool), aoi_fit m = Ok af ->
  vf_aoi_between af x y back =
  aoi_seen_between DISTANCE_TOLERANCE (if back then am_back m else am_front m) (am_n m) x y.
Proof.
  intros m af x y back H. unfold aoi_fit in H. destruct (Nat.eqb_spec (am_n m) 0) as [Z|NZ]; [discriminate|].
  inversion H; subst af. clear H. unfold vf_aoi_between, aoi_seen_between.
  assert (E1 : np_where (Rltb x y) x y = Rmin x y).
  { unfold np_where, Rmin. destruct (Rltb_spec x y), (Rle_dec x y); try reflexivity; lra. }
  assert (E2 : np_where (Rltb x y) y x = Rmax x y).
  { unfold np_where, Rmax. destruct (Rltb_spec x y), (Rle_dec x y); try reflexivity; lra. }
  rewrite E1, E2. set (lo := Rmin x y). set (hi := Rmax x y).
  assert (LH : lo <= hi) by (unfold lo, hi; apply Rle_trans with x; [apply Rmin_l | apply Rmax_l]).
  unfold vf_aoi_wedge, aoi_seen, np_where. rewrite Rabs_right by lra.
  destruct (Rltb_spec (hi - lo) DISTANCE_TOLERANCE) as [L|L]; destruct (Rlt_dec (hi - lo) DISTANCE_TOLERANCE) as [L'|L']; try lra; try reflexivity.
  rewrite np_sum_first. cbn [af_n]. apply sum_below_ext. intros k K. unfold vfaoi_integrand.
  cbn [af_low af_high af_integrand_front af_integrand_back]. rewrite (aoi_vf_section _ _ K).
  destruct (cut_angles (am_n m) k ltac:(lia)) as (-> & -> & ->). unfold section_met, np_where.
  destruct (Rleb_spec lo (cut_angle (am_n m) (S k))) as [A|A]; destruct (Rle_dec lo (cut_angle (am_n m) (S k))) as [A'|A']; try lra;
  cbn [andb]; [|destruct back; reflexivity].
  destruct (Rltb_spec (cut_angle (am_n m) k) hi) as [B|B]; destruct (Rlt_dec (cut_angle (am_n m) k) hi) as [B'|B']; try lra;
  destruct back; reflexivity.
Qed.

Definition clamp (lo hi x : R) : R := Rmin (Rmax x lo) hi.

Lemma clamp_range : forall lo hi x, lo <= hi -> lo <= clamp lo hi x <= hi.
Proof. intros. unfold clamp, Rmin, Rmax. destruct (Rle_dec x lo); destruct (Rle_dec _ hi); lra. Qed.
Lemma clamp_mono : forall lo hi x y, x <= y -> clamp lo hi x <= clamp lo hi y.
Proof. intros. unfold clamp. apply Rle_min_compat_r, Rle_max_compat_r. assumption. Qed.
Lemma clamp_id : forall lo hi x, lo <= x <= hi -> clamp lo hi x = x.
Proof. intros. unfold clamp. rewrite Rmax_left, Rmin_left by lra. reflexivity. Qed.
Lemma clamp_low : forall lo hi x, lo <= hi -> x <= lo -> clamp lo hi x = lo.
Proof. intros. unfold clamp. rewrite Rmax_right, Rmin_left by lra. reflexivity. Qed.
Lemma clamp_high : forall lo hi x, lo <= hi -> hi <= x -> clamp lo hi x = hi.
Proof. intros. unfold clamp. rewrite Rmax_left, Rmin_right by lra. reflexivity. Qed.

Lemma clamp_telescope : forall lo hi n j,
  sum_below j (fun k => seen_between (clamp lo hi (cut_angle n k)) (clamp lo hi (cut_angle n (S k)))) =
  seen_between (clamp lo hi (cut_angle n 0)) (clamp lo hi (cut_angle n j)).
Proof. intros lo hi n j. induction j as [|j IH]; cbn [sum_below]; [unfold seen_between; lra|]. rewrite IH. apply seen_chain. Qed.

Lemma clamp_total : forall lo hi n, (0 < n)%nat -> 0 <= lo -> lo <= hi -> hi <= 180 ->
  sum_below n (fun k => seen_between (clamp lo hi (cut_angle n k)) (clamp lo hi (cut_angle n (S k)))) = seen_between lo hi.
Proof.
  intros lo hi n N L LH H. rewrite clamp_telescope, cut_0, (cut_n n N), clamp_low, clamp_high by lra. reflexivity.
Qed.

Lemma seen_mono : forall x y x' y', 0 <= x' -> x' <= x -> x <= y -> y <= y' -> y' <= 180 -> seen_between x y <= seen_between x' y'.
Proof.
  intros. rewrite <- (seen_chain x' x y'), <- (seen_chain x y y').
  pose proof (seen_nonneg x' x ltac:(lra) ltac:(lra) ltac:(lra)). pose proof (seen_nonneg y y' ltac:(lra) ltac:(lra) ltac:(lra)). lra.
Qed.

Lemma section_width : forall n k, (0 < n)%nat -> cut_angle n (S k) = cut_angle n k + 180 / INR n.
Proof. intros n k N. unfold cut_angle. rewrite S_INR. field. apply not_0_INR. lia. Qed.

(** Between which bounds the AOI weighted view factor lies. *)
Lemma aoi_seen_bounds : forall f n lo hi fl fh, (0 < n)%nat -> 0 <= lo -> lo <= hi -> hi <= 180 -> 0 <= fl ->
  (forall x, 0 <= x <= 180 -> fl <= f x <= fh) -> DISTANCE_TOLERANCE <= hi - lo ->
  fl * seen_between lo hi <= aoi_seen DISTANCE_TOLERANCE f n lo hi
    <= fh * seen_between (Rmax 0 (lo - 180 / INR n)) (Rmin 180 (hi + 180 / INR n)).
Proof.
  intros f n lo hi fl fh N L LH H F0 FB TT. unfold aoi_seen. destruct (Rlt_dec (hi - lo) DISTANCE_TOLERANCE) as [Q|Q]; [lra|]. clear Q.
  assert (IN : 0 < 180 / INR n) by (apply Rdiv_lt_0_compat; [lra | apply lt_0_INR; exact N]).
  set (d := 180 / INR n) in *. set (lo' := Rmax 0 (lo - d)). set (hi' := Rmin 180 (hi + d)).
  assert (L1 : 0 <= lo' <= lo) by (unfold lo', Rmax; destruct (Rle_dec 0 (lo - d)); lra).
  assert (H1 : hi <= hi' <= 180) by (unfold hi', Rmin; destruct (Rle_dec 180 (hi + d)); lra).
  assert (B1 : forall k, (k < n)%nat -> cut_angle n (S k) = cut_angle n k + d) by (intros; apply section_width; exact N).
  assert (FH : 0 <= fh) by (pose proof (FB 0 ltac:(lra)); lra).
  split.
  - rewrite <- (clamp_total lo hi n N L LH H), <- sum_below_scal. apply sum_below_le. intros k K.
    pose proof (cut_range n k ltac:(lia) N) as C0. pose proof (cut_range n (S k) ltac:(lia) N) as C1. specialize (B1 k K).
    pose proof (clamp_range lo hi (cut_angle n k) LH). pose proof (clamp_range lo hi (cut_angle n (S k)) LH).
    pose proof (clamp_mono lo hi (cut_angle n k) (cut_angle n (S k)) ltac:(lra)).
    unfold section_met. destruct (Rle_dec lo (cut_angle n (S k))) as [A|A].
    + destruct (Rlt_dec (cut_angle n k) hi) as [B|B].
      * pose proof (FB _ (mid_range n k K)) as FM.
        assert (S0 : 0 <= seen_between (clamp lo hi (cut_angle n k)) (clamp lo hi (cut_angle n (S k)))) by (apply seen_nonneg; lra).
        assert (SM : seen_between (clamp lo hi (cut_angle n k)) (clamp lo hi (cut_angle n (S k))) <= seen_between (cut_angle n k) (cut_angle n (S k))).
        { destruct (Rle_lt_dec (cut_angle n k) lo) as [W|W].
          - rewrite (clamp_low lo hi (cut_angle n k) LH W). apply seen_mono; try lra.
            unfold clamp. rewrite Rmax_left by lra. apply Rmin_l.
          - rewrite (clamp_id lo hi (cut_angle n k)) by lra. apply seen_mono; try lra.
            + rewrite <- (clamp_id lo hi (cut_angle n k)) at 1 by lra. assumption.
            + unfold clamp. rewrite Rmax_left by lra. apply Rmin_l. }
        nra.
      * rewrite !clamp_high by lra. unfold seen_between. lra.
    + rewrite !clamp_low by lra. unfold seen_between. lra.
  - rewrite <- (clamp_total lo' hi' n N) by lra. rewrite <- sum_below_scal. apply sum_below_le. intros k K.
    pose proof (cut_range n k ltac:(lia) N) as C0. pose proof (cut_range n (S k) ltac:(lia) N) as C1. specialize (B1 k K).
    pose proof (clamp_range lo' hi' (cut_angle n k) ltac:(lra)). pose proof (clamp_range lo' hi' (cut_angle n (S k)) ltac:(lra)).
    pose proof (clamp_mono lo' hi' (cut_angle n k) (cut_angle n (S k)) ltac:(lra)).
    assert (Z : 0 <= fh * seen_between (clamp lo' hi' (cut_angle n k)) (clamp lo' hi' (cut_angle n (S k)))).
    { apply Rmult_le_pos; [exact FH | apply seen_nonneg; lra]. }
    unfold section_met. destruct (Rle_dec lo (cut_angle n (S k))) as [A|A]; [|exact Z].
    destruct (Rlt_dec (cut_angle n k) hi) as [B|B]; [|exact Z].
    assert (lo' <= cut_angle n k) by (unfold lo', Rmax; destruct (Rle_dec 0 (lo - d)); lra).
    assert (cut_angle n (S k) <= hi') by (unfold hi', Rmin; destruct (Rle_dec 180 (hi + d)); lra).
    rewrite !clamp_id by lra. pose proof (FB _ (mid_range n k K)).
    assert (0 <= seen_between (cut_angle n k) (cut_angle n (S k))) by (apply seen_nonneg; lra). nra.
Qed.

Lemma aoi_seen_mono : forall f g n lo hi tol, (forall x, 0 <= x <= 180 -> f x <= g x) ->
  aoi_seen tol f n lo hi <= aoi_seen tol g n lo hi.
Proof.
  intros f g n lo hi tol H. unfold aoi_seen. destruct (Rlt_dec (hi - lo) tol); [lra|]. apply sum_below_le. intros k K.
  destruct (section_met n k lo hi); [|lra]. pose proof (H _ (mid_range n k K)).
  pose proof (cut_range n k ltac:(lia) ltac:(lia)). pose proof (cut_range n (S k) ltac:(lia) ltac:(lia)).
  pose proof (cut_lt n k (S k) ltac:(lia) ltac:(lia)).
  pose proof (seen_nonneg (cut_angle n k) (cut_angle n (S k)) ltac:(lra) ltac:(lra) ltac:(lra)). nra.
Qed.

Theorem C39_wedge : forall m af x y (back : bool), aoi_fit m = Ok af ->
  let f := if back then am_back m else am_front m in
  let v := vf_aoi_between af x y back in
  v = aoi_seen_between DISTANCE_TOLERANCE f (am_n m) x y /\
  (0 <= x <= 180 -> 0 <= y <= 180 ->
   (forall z, 0 <= z <= 180 -> 0 <= f z) -> 0 <= v) /\
  (0 <= x <= 180 -> 0 <= y <= 180 ->
   forall c, (forall z, 0 <= z <= 180 -> 0 <= f z <= c) -> v <= c) /\
  ((forall z, 0 <= z <= 180 -> f z = 0) -> v = 0) /\
  (Rabs (y - x) < DISTANCE_TOLERANCE -> v = 0) /\
  vf_aoi_between af y x back = v.
Proof.
  intros m af x y back H f v. pose proof (wedge_spec m af x y back H) as E. fold f v in E.
  assert (NZ : (0 < am_n m)%nat).
  { unfold aoi_fit in H. destruct (Nat.eqb_spec (am_n m) 0); [discriminate | lia]. }
  assert (MM : forall a b, Rmin a b <= Rmax a b) by (intros; apply Rle_trans with a; [apply Rmin_l | apply Rmax_l]).
  assert (G : forall g, (forall z, 0 <= z <= 180 -> g z = 0) -> aoi_seen_between DISTANCE_TOLERANCE g (am_n m) x y = 0).
  { intros g Z. unfold aoi_seen_between, aoi_seen. destruct (Rlt_dec _ DISTANCE_TOLERANCE); [reflexivity|].
    rewrite (sum_below_ext _ _ (fun _ => 0)); [apply sum_below_zero|]. intros k K. rewrite (Z _ (mid_range _ k K)). destruct (section_met _ _ _ _); ring. }
  split; [exact E|]. split; [|split; [|split; [|split]]].
  - intros X Y F0. rewrite E, <- (G (fun _ => 0) (fun _ _ => eq_refl)). apply aoi_seen_mono. exact F0.
  - intros X Y c FC. assert (0 <= c) by (pose proof (FC 0 ltac:(lra)); lra). rewrite E. unfold aoi_seen_between.
    destruct (Rlt_dec (Rmax x y - Rmin x y) DISTANCE_TOLERANCE) as [L|L].
    + unfold aoi_seen. destruct (Rlt_dec _ DISTANCE_TOLERANCE); [assumption | lra].
    + destruct (aoi_seen_bounds f (am_n m) (Rmin x y) (Rmax x y) 0 c NZ) as [_ U]; try lra; try assumption.
      * apply Rmin_glb; lra.
      * apply MM.
      * apply Rmax_lub; lra.
      * refine (Rle_trans _ _ _ U _). match goal with |- c * ?s <= c => assert (s <= 1) by apply seen_le_1 end. nra.
  - intro F0. rewrite E. apply G. exact F0.
  - intro D. rewrite E. unfold aoi_seen_between, aoi_seen. destruct (Rlt_dec _ DISTANCE_TOLERANCE) as [L|L]; [reflexivity|]. exfalso. apply L.
    unfold Rabs, Rmin, Rmax in *. destruct (Rle_dec x y); destruct (Rcase_abs (y - x)); lra.
  - unfold v. rewrite !(wedge_spec m af _ _ back H). unfold aoi_seen_between. rewrite Rmin_comm, Rmax_comm. reflexivity.
Qed.
Print Assumptions C39_wedge.

Theorem C39_monotone : forall m m' af af' x y (back : bool), aoi_fit m = Ok af -> aoi_fit m' = Ok af' ->
  am_n m = am_n m' ->
  let f := if back then am_back m else am_front m in
  let f' := if back then am_back m' else am_front m' in
  (forall z, 0 <= z <= 180 -> f z <= f' z) ->
  vf_aoi_between af x y back <= vf_aoi_between af' x y back.
Proof.
  intros m m' af af' x y back H H' N f f' L. rewrite (wedge_spec m af x y back H), (wedge_spec m' af' x y back H'), <- N.
  unfold aoi_seen_between. apply aoi_seen_mono. exact L.
Qed.
Print Assumptions C39_monotone.

(** Accuracy: whatever the AOI function, between its bounds, the wedge is at least the
    exact view factor of the wedge and at most the one of the wedge widened by one
    section on each side. *)
Theorem C39_accuracy : forall m af x y (back : bool) fl fh, aoi_fit m = Ok af ->
  let f := if back then am_back m else am_front m in
  0 <= x -> x <= y -> y <= 180 -> DISTANCE_TOLERANCE <= y - x ->
  0 <= fl -> (forall z, 0 <= z <= 180 -> fl <= f z <= fh) ->
  let d := 180 / INR (am_n m) in
  fl * seen_between x y <= vf_aoi_between af x y back
    <= fh * seen_between (Rmax 0 (x - d)) (Rmin 180 (y + d)).
Proof.
  intros m af x y back fl fh H f X XY Y D F0 FB d. rewrite (wedge_spec m af x y back H). unfold aoi_seen_between.
  rewrite Rmin_left, Rmax_right by lra. apply aoi_seen_bounds; try assumption.
  unfold aoi_fit in H. destruct (Nat.eqb_spec (am_n m) 0); [discriminate | lia].
Qed.
Print Assumptions C39_accuracy.

Example C39_wedge_example : exists af, aoi_fit (AOIMethods (fun _ => 1) (fun _ => 1 / 2) 4) = Ok af /\
  vf_aoi_between af 50 60 true = 1 / 2 * seen_between 45 90.
Proof.
  set (m := AOIMethods (fun _ => 1) (fun _ => 1 / 2) 4). assert (E : exists af, aoi_fit m = Ok af) by (eexists; reflexivity).
  destruct E as [af E]. exists af. split; [exact E|]. rewrite (wedge_spec m af 50 60 true E). unfold m. clear E af m.
  unfold aoi_seen_between. rewrite Rmin_left, Rmax_right by lra. unfold aoi_seen. cbn [am_n am_back].
  destruct (Rlt_dec _ _) as [L|L]; [unfold DISTANCE_TOLERANCE in L; lra|].
  cbn [sum_below]. unfold section_met, cut_angle. cbn [INR].
  repeat match goal with |- context [Rle_dec ?a ?b] => destruct (Rle_dec a b); [try (exfalso; lra) | try (exfalso; lra)] end;
  repeat match goal with |- context [Rlt_dec ?a ?b] => destruct (Rlt_dec a b); [try (exfalso; lra) | try (exfalso; lra)] end.
  replace (180 * 1 / (1 + 1 + 1 + 1)) with 45 by field. replace (180 * (1 + 1) / (1 + 1 + 1 + 1)) with 90 by field. ring.
Qed.
