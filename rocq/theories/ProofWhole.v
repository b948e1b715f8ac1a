(** The AOI weighted view factors of a surface of a row, added up: wedges that tile the
    half plane in front of the surface. *)
From Coq Require Import Reals List Bool Arith String Lra Lia Permutation.
From Verif Require Import Num ModelTs ModelGeom ModelVF Basics SpecGeom SpecVF ProofShade ProofFit ProofGround ProofCut ProofRow ProofIndex ProofGeom ProofGeom2 PropGeom ProofAngles ProofString ProofMatrix ProofTele ProofVF ProofVF2 PropVF ModelParams ModelAOI ProofAOI SpecEngine SpecAOI PropAOI ModelIrr SpecIrr ProofHorizon ProofLoss.
Import ListNotations.
Open Scope R_scope.

(* ----------------------------------------------------------------- sections of angle *)

Section Sections.
Variables (f : R -> R) (n : nat) (c : R).
Hypothesis N : (0 < n)%nat.
Hypothesis FB : forall x, 0 <= x <= 180 -> 0 <= f x <= c.

Let wt (k : nat) : R := f (mid_angle n k) * seen_between (cut_angle n k) (cut_angle n (S k)).
(** Sections that start before an angle. *)
Definition started (th : R) : R := sum_below n (fun k => if Rlt_dec (cut_angle n k) th then wt k else 0).
(** Weighted view factor up to an angle. *)
Definition swept (th : R) : R :=
  sum_below n (fun k => f (mid_angle n k) * seen_between (Rmin th (cut_angle n k)) (Rmin th (cut_angle n (S k)))).
Definition widest : R := c * sin (PI / (2 * INR n)).

Lemma nn : 0 < INR n.
Proof. apply lt_0_INR. exact N. Qed.
Lemma c_nonneg : 0 <= c.
Proof. pose proof (FB 0 ltac:(lra)). lra. Qed.
Lemma fm_range : forall k, (k < n)%nat -> 0 <= f (mid_angle n k) <= c.
Proof. intros k K. apply FB. apply mid_range. exact K. Qed.

Lemma half_turn_small : 0 <= PI / (2 * INR n) <= PI / 2.
Proof.
  pose proof nn as H. assert (1 <= INR n) by (change 1 with (INR 1); apply le_INR; lia). pose proof PI_RGT_0. split.
  - apply Rlt_le. apply Rdiv_lt_0_compat; lra.
  - apply (Rmult_le_reg_r (2 * INR n)); [lra|]. unfold Rdiv at 1. rewrite Rmult_assoc, Rinv_l by lra. nra.
Qed.

Lemma seen_section : forall k, (k < n)%nat ->
  0 <= seen_between (cut_angle n k) (cut_angle n (S k)) <= sin (PI / (2 * INR n)).
Proof.
  intros k K. pose proof nn as H. split.
  - apply seen_nonneg; [apply (cut_range n k); lia | apply cut_le; [exact N | lia] | apply (cut_range n (S k)); lia].
  - unfold seen_between. rewrite form2.
    replace ((cut_angle n k * PI / 180 - cut_angle n (S k) * PI / 180) / 2) with (- (PI / (2 * INR n))).
    + rewrite sin_neg. set (s := sin ((cut_angle n k * PI / 180 + cut_angle n (S k) * PI / 180) / 2)).
      assert (s <= 1) by apply SIN_bound. assert (0 <= sin (PI / (2 * INR n))).
      { pose proof half_turn_small. pose proof PI_RGT_0. apply sin_ge_0; lra. }
      nra.
    + unfold cut_angle. rewrite S_INR. field. lra.
Qed.

Lemma widest_nonneg : 0 <= widest.
Proof.
  unfold widest. apply Rmult_le_pos; [apply c_nonneg|]. pose proof half_turn_small. pose proof PI_RGT_0. apply sin_ge_0; lra.
Qed.

Lemma wt_range : forall k, (k < n)%nat -> 0 <= wt k <= widest.
Proof.
  intros k K. pose proof (fm_range k K) as F1. pose proof (seen_section k K) as S1. unfold wt, widest.
  split; [apply Rmult_le_pos; lra|]. apply Rmult_le_compat; lra.
Qed.

Lemma sum_below_minus : forall j g h, sum_below j (fun k => g k - h k) = sum_below j g - sum_below j h.
Proof. induction j; intros; cbn; [ring|]. rewrite IHj. ring. Qed.
Lemma sum_below_plus : forall j g h, sum_below j (fun k => g k + h k) = sum_below j g + sum_below j h.
Proof. induction j; intros; cbn; [ring|]. rewrite IHj. ring. Qed.

Lemma started_mono : forall x y, x <= y -> started x <= started y.
Proof.
  intros x y L. apply sum_below_le. intros k K. pose proof (wt_range k K).
  destruct (Rlt_dec (cut_angle n k) x), (Rlt_dec (cut_angle n k) y); lra.
Qed.

(** At most one section holds an angle, its start excepted. *)
Lemma one_section : forall lo j, (j <= n)%nat ->
  sum_below j (fun k => if Rlt_dec (cut_angle n k) lo then if Rle_dec lo (cut_angle n (S k)) then wt k else 0 else 0)
  <= if Rle_dec lo (cut_angle n j) then widest else 0.
Proof.
  intros lo. induction j as [|j IH]; intros J.
  - cbn [sum_below]. pose proof widest_nonneg. destruct (Rle_dec lo _); lra.
  - cbn [sum_below]. specialize (IH ltac:(lia)). pose proof (wt_range j ltac:(lia)) as W. pose proof widest_nonneg as W0.
    pose proof (cut_lt n j (S j) N ltac:(lia)) as C.
    destruct (Rle_dec lo (cut_angle n j)) as [L1|L1].
    + destruct (Rlt_dec (cut_angle n j) lo) as [L2|L2]; [lra|]. destruct (Rle_dec lo (cut_angle n (S j))); lra.
    + destruct (Rlt_dec (cut_angle n j) lo) as [L2|L2]; [|lra]. destruct (Rle_dec lo (cut_angle n (S j))); lra.
Qed.

Lemma wedge_upper : forall lo hi, lo <= hi ->
  aoi_seen DISTANCE_TOLERANCE f n lo hi <= started hi - started lo + widest.
Proof.
  intros lo hi L. pose proof (started_mono lo hi L) as M. pose proof widest_nonneg as W0. unfold aoi_seen.
  destruct (Rlt_dec (hi - lo) DISTANCE_TOLERANCE) as [_|_]; [lra|].
  pose proof (one_section lo n (Nat.le_refl n)) as O.
  assert (E : sum_below n (fun k => if section_met n k lo hi then wt k else 0) <=
    sum_below n (fun k => (if Rlt_dec (cut_angle n k) hi then wt k else 0) - (if Rlt_dec (cut_angle n k) lo then wt k else 0) +
      (if Rlt_dec (cut_angle n k) lo then if Rle_dec lo (cut_angle n (S k)) then wt k else 0 else 0))).
  { apply sum_below_le. intros k K. pose proof (wt_range k K) as Wk. unfold section_met.
    destruct (Rle_dec lo (cut_angle n (S k))), (Rlt_dec (cut_angle n k) hi), (Rlt_dec (cut_angle n k) lo); lra. }
  eapply Rle_trans; [exact E|]. rewrite sum_below_plus, sum_below_minus. unfold started in *.
  destruct (Rle_dec lo (cut_angle n n)); lra.
Qed.

(** Exactly, without the tolerance: the section in which a wedge starts is counted whole. *)
Lemma clamp_min : forall lo hi x, lo <= hi -> seen_between (Rmin lo x) (Rmin hi x) = seen_between lo (clamp lo hi x).
Proof.
  intros lo hi x L. unfold clamp, Rmin, Rmax. repeat destruct (Rle_dec _ _); try reflexivity; try (exfalso; lra); unfold seen_between;
  first [lra | replace x with lo by lra; lra | replace x with hi by lra; lra | replace hi with lo by lra; lra ].
Qed.

Lemma seen_anti : forall x y, seen_between x y = - seen_between y x.
Proof. intros. unfold seen_between. lra. Qed.

Lemma swept_diff : forall lo hi, lo <= hi ->
  swept hi - swept lo = sum_below n (fun k => f (mid_angle n k) *
     seen_between (clamp lo hi (cut_angle n k)) (clamp lo hi (cut_angle n (S k)))).
Proof.
  intros lo hi L. unfold swept. rewrite <- sum_below_minus. apply sum_below_ext. intros k K.
  rewrite <- Rmult_minus_distr_l. f_equal.
  pose proof (clamp_min lo hi (cut_angle n k) L) as A. pose proof (clamp_min lo hi (cut_angle n (S k)) L) as B.
  unfold seen_between in *. lra.
Qed.

Lemma swept_mono : forall lo hi, 0 <= lo -> lo <= hi -> hi <= 180 -> swept lo <= swept hi.
Proof.
  intros lo hi L0 L H. pose proof (swept_diff lo hi L) as E.
  assert (0 <= sum_below n (fun k => f (mid_angle n k) * seen_between (clamp lo hi (cut_angle n k)) (clamp lo hi (cut_angle n (S k))))); [|lra].
  rewrite <- (sum_below_zero n). apply sum_below_le. intros k K. pose proof (fm_range k K).
  apply Rmult_le_pos; [lra|]. pose proof (clamp_range lo hi (cut_angle n k) L). pose proof (clamp_range lo hi (cut_angle n (S k)) L).
  apply seen_nonneg; [lra | | lra]. apply clamp_mono. apply cut_le; [exact N | lia].
Qed.

Lemma seen_narrow : forall lo hi, 0 <= lo -> lo <= hi -> hi <= 180 -> seen_between lo hi <= (hi - lo) * PI / 360.
Proof.
  intros lo hi L0 L H. unfold seen_between. rewrite form2. pose proof PI_RGT_0 as PP.
  replace ((lo * PI / 180 - hi * PI / 180) / 2) with (- ((hi - lo) * PI / 360)) by field. rewrite sin_neg.
  set (s := sin ((lo * PI / 180 + hi * PI / 180) / 2)). set (y := (hi - lo) * PI / 360).
  assert (Y : 0 <= y <= PI / 2).
  { unfold y. split; [apply Rmult_le_pos; [apply Rmult_le_pos; lra | lra]|]. nra. }
  assert (S0 : 0 <= s <= 1).
  { split; [|apply SIN_bound]. unfold s. apply sin_ge_0; nra. }
  assert (S1 : 0 <= sin y) by (apply sin_ge_0; lra).
  assert (S2 : sin y <= y).
  { destruct (Req_dec y 0) as [->|Z]; [rewrite sin_0; lra|]. apply Rlt_le. apply sin_lt_x. lra. }
  nra.
Qed.

Lemma swept_narrow : forall lo hi, 0 <= lo -> lo <= hi -> hi <= 180 -> swept hi - swept lo <= c * ((hi - lo) * PI / 360).
Proof.
  intros lo hi L0 L H. rewrite (swept_diff lo hi L). pose proof c_nonneg as C0.
  apply Rle_trans with (c * seen_between lo hi).
  - rewrite <- (clamp_total lo hi n N L0 L H), <- sum_below_scal. apply sum_below_le. intros k K. pose proof (fm_range k K).
    apply Rmult_le_compat_r; [|lra]. pose proof (clamp_range lo hi (cut_angle n k) L). pose proof (clamp_range lo hi (cut_angle n (S k)) L).
    apply seen_nonneg; [lra | | lra]. apply clamp_mono. apply cut_le; [exact N | lia].
  - apply Rmult_le_compat_l; [exact C0|]. apply seen_narrow; assumption.
Qed.

Definition narrowest : R := c * (DISTANCE_TOLERANCE * PI / 360).

Lemma wedge_lower : forall lo hi, 0 <= lo -> lo <= hi -> hi <= 180 ->
  swept hi - swept lo - narrowest <= aoi_seen DISTANCE_TOLERANCE f n lo hi.
Proof.
  intros lo hi L0 L H. pose proof c_nonneg as C0. pose proof PI_RGT_0 as PP. pose proof DISTANCE_TOLERANCE_pos as T0.
  unfold narrowest. unfold aoi_seen. destruct (Rlt_dec (hi - lo) DISTANCE_TOLERANCE) as [Q|Q].
  - pose proof (swept_narrow lo hi L0 L H) as A.
    assert (c * ((hi - lo) * PI / 360) <= c * (DISTANCE_TOLERANCE * PI / 360)); [|lra].
    apply Rmult_le_compat_l; [exact C0|]. nra.
  - assert (Z : 0 <= c * (DISTANCE_TOLERANCE * PI / 360)) by (apply Rmult_le_pos; [exact C0 | nra]).
    assert (swept hi - swept lo <= sum_below n (fun k => if section_met n k lo hi then wt k else 0)); [|unfold wt in *; lra].
    rewrite (swept_diff lo hi L). apply sum_below_le. intros k K. pose proof (fm_range k K) as Fk. pose proof (wt_range k K) as Wk.
    pose proof (cut_range n k ltac:(lia) N) as R1. pose proof (cut_range n (S k) ltac:(lia) N) as R2.
    pose proof (cut_le n k (S k) N ltac:(lia)) as CL.
    unfold section_met. destruct (Rle_dec lo (cut_angle n (S k))) as [A|A]; [destruct (Rlt_dec (cut_angle n k) hi) as [B|B]|].
    + unfold wt. apply Rmult_le_compat_l; [lra|]. unfold clamp, Rmin, Rmax.
      destruct (Rle_dec (cut_angle n k) lo); destruct (Rle_dec (cut_angle n (S k)) lo);
      repeat destruct (Rle_dec _ _); apply seen_mono; lra.
    + rewrite (clamp_high lo hi (cut_angle n k)), (clamp_high lo hi (cut_angle n (S k))) by lra. unfold seen_between. lra.
    + rewrite (clamp_low lo hi (cut_angle n k)), (clamp_low lo hi (cut_angle n (S k))) by lra. unfold seen_between. lra.
Qed.

(** Over the half turn both are what is not reflected on average. *)
Lemma started_all : started 180 - started 0 = sum_below n wt.
Proof.
  unfold started. rewrite <- sum_below_minus. apply sum_below_ext. intros k K. pose proof (cut_range n k ltac:(lia) N) as A.
  assert (cut_angle n k < 180) by (rewrite <- (cut_n n N); apply cut_lt; [exact N | exact K]).
  destruct (Rlt_dec (cut_angle n k) 180); [|lra]. destruct (Rlt_dec (cut_angle n k) 0); lra.
Qed.
Lemma swept_all : swept 180 - swept 0 = sum_below n wt.
Proof.
  rewrite (swept_diff 0 180 ltac:(lra)). apply sum_below_ext. intros k K.
  rewrite !clamp_id; [reflexivity | apply cut_range; [lia | exact N] | apply cut_range; [lia | exact N]].
Qed.
End Sections.

(* -------------------------------------------------------------------- order of angles *)

Lemma sqrt_weigh : forall x X y Y, 0 <= x -> 0 <= y -> 0 <= X -> 0 <= Y -> x * x * X <= y * y * Y -> x * sqrt X <= y * sqrt Y.
Proof.
  intros x X y Y Hx Hy HX HY H.
  rewrite <- (sqrt_square x Hx) at 1. rewrite <- (sqrt_square y Hy) at 1. rewrite <- !sqrt_mult by nra. apply sqrt_le_1; nra.
Qed.

Lemma ratio_order : forall a1 b1 a2 b2, 0 <= b1 -> 0 <= b2 -> a1 * b2 <= a2 * b1 ->
  (0 < b1 \/ 0 < b2 \/ a1 <= 0 \/ 0 <= a2) ->
  a1 * sqrt (a2 * a2 + b2 * b2) <= a2 * sqrt (a1 * a1 + b1 * b1).
Proof.
  intros a1 b1 a2 b2 B1 B2 H ND.
  assert (Q1 : 0 <= a1 * a1 + b1 * b1) by nra. assert (Q2 : 0 <= a2 * a2 + b2 * b2) by nra.
  pose proof (sqrt_pos (a1 * a1 + b1 * b1)) as S1. pose proof (sqrt_pos (a2 * a2 + b2 * b2)) as S2.
  destruct (Rle_dec a1 0) as [A1|A1]; destruct (Rle_dec 0 a2) as [A2|A2].
  - nra.
  - assert (- a2 * sqrt (a1 * a1 + b1 * b1) <= - a1 * sqrt (a2 * a2 + b2 * b2)); [|lra].
    apply sqrt_weigh; try lra. assert ((- a2 * b1) * (- a2 * b1) <= (- a1 * b2) * (- a1 * b2)); [|nra].
    apply Rmult_le_compat; nra.
  - apply sqrt_weigh; try lra. assert ((a1 * b2) * (a1 * b2) <= (a2 * b1) * (a2 * b1)); [|nra].
    apply Rmult_le_compat; nra.
  - exfalso. destruct ND as [Z|[Z|[Z|Z]]]; nra.
Qed.

Lemma cos_deg_inv : forall x y, 0 <= x <= 180 -> 0 <= y <= 180 -> cos (y * PI / 180) <= cos (x * PI / 180) -> x <= y.
Proof.
  intros x y X Y H. pose proof PI_RGT_0. destruct (Rle_dec x y) as [L|L]; [exact L|]. exfalso.
  assert (cos (x * PI / 180) < cos (y * PI / 180)); [|lra]. apply cos_decreasing_1; nra.
Qed.

Lemma angle_order : forall (l : bool) a1 s1 th1 a2 s2 th2, 0 <= th1 <= 180 -> 0 <= th2 <= 180 -> 0 < s1 -> 0 < s2 ->
  (if l then -1 else 1) * a1 = s1 * cos (th1 * PI / 180) -> (if l then -1 else 1) * a2 = s2 * cos (th2 * PI / 180) ->
  a1 * s2 <= a2 * s1 -> if l then th1 <= th2 else th2 <= th1.
Proof.
  intros l a1 s1 th1 a2 s2 th2 R1 R2 P1 P2 E1 E2 O. set (c1 := cos (th1 * PI / 180)) in *. set (c2 := cos (th2 * PI / 180)) in *.
  assert (PP : 0 < s1 * s2) by (apply Rmult_lt_0_compat; assumption).
  destruct l; apply cos_deg_inv; try assumption; fold c1 c2; apply (Rmult_le_reg_l (s1 * s2)); try exact PP.
  - replace a1 with (- (s1 * c1)) in O by lra. replace a2 with (- (s2 * c2)) in O by lra. lra.
  - replace a1 with (s1 * c1) in O by lra. replace a2 with (s2 * c2) in O by lra. lra.
Qed.

Lemma angle_end : forall (l : bool) s th, 0 <= th <= 180 -> 0 < s ->
  (if l then -1 else 1) * s = s * cos (th * PI / 180) -> th = if l then 180 else 0.
Proof.
  intros l s th R P E. set (k := cos (th * PI / 180)) in *.
  assert (C : k = if l then -1 else 1) by (apply (Rmult_eq_reg_l s); [destruct l; lra | lra]).
  destruct l; (apply Rle_antisym; [try lra | try lra]); apply cos_deg_inv; try lra; fold k; rewrite C.
  - replace (180 * PI / 180) with PI by field. rewrite cos_PI. lra.
  - replace (0 * PI / 180) with 0 by field. rewrite cos_0. lra.
Qed.

Lemma sin_abs_le : forall y, Rabs (sin y) <= Rabs y.
Proof.
  assert (P : forall y, 0 <= y -> Rabs (sin y) <= y).
  { intros y Y. destruct (Rle_dec y 1) as [L|L].
    - pose proof PI2_1 as P2. pose proof PI_RGT_0.
      assert (S0 : 0 <= sin y) by (apply sin_ge_0; lra). rewrite Rabs_right by lra.
      destruct (Req_dec y 0) as [-> | N]; [rewrite sin_0; lra|]. apply Rlt_le. apply sin_lt_x. lra.
    - apply Rle_trans with 1; [|lra]. apply Rabs_le. apply SIN_bound. }
  intro y. destruct (Rle_dec 0 y) as [L|L].
  - rewrite (Rabs_right y) by lra. apply P. exact L.
  - rewrite (Rabs_left y) by lra. rewrite <- Rabs_Ropp, <- sin_neg. apply P. lra.
Qed.

Lemma angle_sine : forall (sg a b s th : R), sg * sg = 1 -> 0 <= th <= 180 -> 0 <= b -> 0 < s -> s * s = a * a + b * b ->
  sg * a = s * cos (th * PI / 180) -> b = s * sin (th * PI / 180).
Proof.
  intros sg a b s th G R B S E H. pose proof PI_RGT_0 as PP.
  assert (S0 : 0 <= sin (th * PI / 180)) by (apply sin_ge_0; nra).
  pose proof (sin2_cos2 (th * PI / 180)) as Q. unfold Rsqr in Q.
  set (si := sin (th * PI / 180)) in *. set (co := cos (th * PI / 180)) in *.
  assert (A : a * a = s * co * (s * co)) by (rewrite <- H; transitivity (sg * sg * (a * a)); [rewrite G; ring | ring]).
  assert (BB : b * b = s * si * (s * si)).
  { transitivity (s * s * (si * si + co * co) - s * co * (s * co)); [rewrite Q; lra | ring]. }
  assert (P : 0 <= s * si) by (apply Rmult_le_pos; lra).
  apply Rsqr_inj; [exact B | exact P | unfold Rsqr; exact BB].
Qed.

Lemma sqrt_ge : forall d z, 0 <= d -> d * d <= z -> d <= sqrt z.
Proof. intros d z D H. rewrite <- (sqrt_square d D). apply sqrt_le_1; [nra | | exact H]. apply Rle_trans with (d * d); [nra | exact H]. Qed.

(** Conditions on the orientation in the code, in terms of the direction of view. *)
Lemma gnd_select : forall (l bk tl : bool) v,
  (if l then (if bk then np_where tl 0 v else np_where tl v 0) else (if bk then np_where tl v 0 else np_where tl 0 v)) =
  if Bool.eqb l (xorb bk tl) then v else 0.
Proof. intros [] [] []; reflexivity. Qed.
Lemma row_select : forall (bk tl : bool) v, np_where (if bk then tl else negb tl) v 0 = if xorb bk tl then 0 else v.
Proof. intros [] []; reflexivity. Qed.

(* -------------------------------------------------------- what a surface of a row sees *)

Lemma rsum_map_opp : forall (A : Type) (g : A -> R) l, rsum (map (fun z => - g z) l) = - rsum (map g l).
Proof. induction l; simpl; [ring | rewrite IHl; ring]. Qed.
Lemma rsum_map_member : forall (A : Type) (g : A -> R) l y, In y l -> (forall z, In z l -> 0 <= g z) -> g y <= rsum (map g l).
Proof.
  induction l as [|z l IH]; cbn [In map rsum]; intros y Y N; [contradiction|].
  assert (0 <= rsum (map g l)) by (rewrite <- (rsum_map_zero A (fun _ => 0) l) by reflexivity; apply rsum_map_le; intros u U; apply N; right; exact U).
  destruct Y as [->|Y]; [lra|]. pose proof (IH y Y (fun u U => N u (or_intror U))). pose proof (N z (or_introl eq_refl)). lra.
Qed.

Section Whole.
Variables (p : pvarray_params) (n : nat) (f : fit_inputs) (a : fitted) (t : nat) (al : R).
Hypothesis V : valid_params p.
Hypothesis F : fit p n f = Some a.
Hypothesis SA : sun_angle (fi_zenith f t) (fi_azimuth f t) (pa_axis_azimuth p) al.
Hypothesis NS : ~ shading_sliver DISTANCE_TOLERANCE (pa_width p) (pa_distance p) al (ft_rotation a t).
Hypothesis HR : -180 < ft_rotation a t < 180.
Hypothesis HG : pa_width p / 2 * Rabs (sin (ft_rotation a t * PI / 180)) < pa_height p.
Hypothesis HF : ft_rotation a t = 0 -> pa_width p <= pa_distance p.
Hypothesis Ht : (t < n)%nat.

Let r := ft_rotation a t.
Let w := pa_width p.
Let D := pa_distance p.
Let tl := Rltb 0 r.
Let row_surf i (b : bool) x := exists row, nth_error (ft_rows a) i = Some row /\ In x (side_surfaces (side_of b row)).
Let Rp := RP p a t.
Let uy := ProofVF.uy a t.

Variables (i : nat) (b : bool) (x : ts_surface).
Hypothesis X : row_surf i b x.
Hypothesis Lx : DISTANCE_TOLERANCE < s_length x t.

Let left := looks_left r b.
Let c := s_centroid x t.
Let ux := oux a t left.
Let nx := next left i.
Let edge := is_edge p left i.

Lemma Hi : (i < pa_n_pvrows p)%nat.
Proof. exact (row_surf_lt a p n f F i b x X). Qed.

(** Coordinates of a point in the frame of the row, seen from the surface: towards the
    upper edge, and away from the row. *)
Definition wa (q : pt) : R := ux * (px (orient left q) - px (orient left c)) + uy * (py q - py c).
Definition wb (q : pt) : R := uy * (px (orient left q) - px (orient left c)) - ux * (py q - py c).
Definition TH (q : pt) : R := calculate_aoi_angle (s_uvec x t) c q.

Lemma unit_frame : ux * ux + uy * uy = 1.
Proof. apply (oux_unit a t). Qed.

Lemma along_eq : forall q,
  fst (along_row r b) * (px q - px c) + snd (along_row r b) * (py q - py c) = (if left then -1 else 1) * wa q.
Proof.
  intro q. unfold wa, ux, uy, oux, ProofVF.uy, left, looks_left, along_row, up_x, up_y, cosd, sind, deg2rad. fold r.
  destruct (Rlt_dec 0 r), b; cbn [negb fst snd orient mir px]; ring.
Qed.

Lemma frame_norm : forall q, (px q - px c) * (px q - px c) + (py q - py c) * (py q - py c) = wa q * wa q + wb q * wb q.
Proof.
  intro q. unfold wa, wb. pose proof unit_frame as U.
  assert (E : (px (orient left q) - px (orient left c)) * (px (orient left q) - px (orient left c)) = (px q - px c) * (px q - px c))
    by (case left; cbn [orient mir px]; ring).
  set (dx := px (orient left q) - px (orient left c)) in *. set (dy := py q - py c). rewrite <- E.
  transitivity ((dx * dx + dy * dy) * (ux * ux + uy * uy)); [rewrite U; ring | ring].
Qed.

Lemma TH_eq : forall q, q <> c ->
  0 <= TH q <= 180 /\ (if left then -1 else 1) * wa q = sqrt (wa q * wa q + wb q * wb q) * cos (TH q * PI / 180).
Proof.
  intros q Q. pose proof (angle_seen p n f a t al V F NS HR HG HF i b x q X Q) as [B A]. split; [exact B|].
  cbn [fst snd] in A. fold r c in A. rewrite along_eq, frame_norm in A. rewrite A. clear A.
  replace (fst (along_row r b) * fst (along_row r b) + snd (along_row r b) * snd (along_row r b)) with 1.
  - rewrite sqrt_1. unfold TH, c. ring.
  - unfold along_row. pose proof (sin2_cos2 (r * PI / 180)) as S. unfold Rsqr in S. destruct b; cbn [fst snd]; lra.
Qed.

Lemma norm_pos_c : forall q, q <> c -> 0 < sqrt (wa q * wa q + wb q * wb q).
Proof.
  intros q Q. apply sqrt_lt_R0. rewrite <- frame_norm.
  pose proof (Rle_0_sqr (px q - px c)) as S1. pose proof (Rle_0_sqr (py q - py c)) as S2. unfold Rsqr in S1, S2. destruct (Req_dec (px q) (px c)) as [E|E].
  - destruct (Req_dec (py q) (py c)) as [E'|E'].
    + exfalso. apply Q. destruct q, c. cbn in E, E'. congruence.
    + assert (0 < (py q - py c) * (py q - py c)) by (apply Rlt_0_sqr; lra). lra.
  - assert (0 < (px q - px c) * (px q - px c)) by (apply Rlt_0_sqr; lra). lra.
Qed.

(** Further from the lower edge, seen from the surface. *)
Lemma TH_order : forall q1 q2, q1 <> c -> q2 <> c -> 0 <= wb q1 -> 0 <= wb q2 ->
  wa q1 * wb q2 <= wa q2 * wb q1 -> (0 < wb q1 \/ 0 < wb q2 \/ wa q1 <= 0 \/ 0 <= wa q2) ->
  if left then TH q1 <= TH q2 else TH q2 <= TH q1.
Proof.
  intros q1 q2 N1 N2 B1 B2 H ND. destruct (TH_eq q1 N1) as [R1 E1]. destruct (TH_eq q2 N2) as [R2 E2].
  pose proof (ratio_order _ _ _ _ B1 B2 H ND) as O. pose proof (norm_pos_c q1 N1) as P1. pose proof (norm_pos_c q2 N2) as P2.
  apply (angle_order left _ _ _ _ _ _ R1 R2 P1 P2 E1 E2 O).
Qed.

(** Angle between two points which are not behind the row. *)
Lemma TH_apart : forall q1 q2, q1 <> c -> q2 <> c -> 0 <= wb q1 -> 0 <= wb q2 ->
  Rabs (wa q1 * wb q2 - wa q2 * wb q1) <=
  sqrt (wa q1 * wa q1 + wb q1 * wb q1) * sqrt (wa q2 * wa q2 + wb q2 * wb q2) * (Rabs (TH q1 - TH q2) * PI / 180).
Proof.
  intros q1 q2 N1 N2 B1 B2. destruct (TH_eq q1 N1) as [R1 E1]. destruct (TH_eq q2 N2) as [R2 E2].
  pose proof (norm_pos_c q1 N1) as P1. pose proof (norm_pos_c q2 N2) as P2.
  pose proof (sqrt_sqrt (wa q1 * wa q1 + wb q1 * wb q1) ltac:(nra)) as S1.
  pose proof (sqrt_sqrt (wa q2 * wa q2 + wb q2 * wb q2) ltac:(nra)) as S2.
  set (s1 := sqrt (wa q1 * wa q1 + wb q1 * wb q1)) in *. set (s2 := sqrt (wa q2 * wa q2 + wb q2 * wb q2)) in *.
  set (sg := if left then -1 else 1) in *. assert (G : sg * sg = 1) by (unfold sg; case left; lra).
  pose proof (angle_sine sg _ _ _ _ G R1 B1 P1 S1 E1) as F1. pose proof (angle_sine sg _ _ _ _ G R2 B2 P2 S2 E2) as F2.
  assert (A1 : wa q1 = sg * (s1 * cos (TH q1 * PI / 180))) by (rewrite <- E1; transitivity (sg * sg * wa q1); [rewrite G; ring | ring]).
  assert (A2 : wa q2 = sg * (s2 * cos (TH q2 * PI / 180))) by (rewrite <- E2; transitivity (sg * sg * wa q2); [rewrite G; ring | ring]).
  assert (EQ : wa q1 * wb q2 - wa q2 * wb q1 = sg * (s1 * s2 * sin ((TH q2 - TH q1) * PI / 180))).
  { replace ((TH q2 - TH q1) * PI / 180) with (TH q2 * PI / 180 - TH q1 * PI / 180) by field. rewrite sin_minus.
    rewrite A1, A2, F1, F2. ring. }
  rewrite EQ, Rabs_mult. assert (GA : Rabs sg = 1) by (unfold sg; case left; [rewrite Rabs_left by lra; ring | apply Rabs_R1]).
  rewrite GA, Rmult_1_l, Rabs_mult. pose proof (Rmult_lt_0_compat _ _ P1 P2) as PP. rewrite (Rabs_right (s1 * s2)) by lra.
  apply Rmult_le_compat_l; [lra|]. eapply Rle_trans; [apply sin_abs_le|]. right. pose proof PI_RGT_0.
  replace ((TH q2 - TH q1) * PI / 180) with ((TH q2 - TH q1) * (PI / 180)) by field. rewrite Rabs_mult, (Rabs_right (PI / 180)) by lra.
  rewrite Rabs_minus_sym. field.
Qed.

Lemma TH_up : forall q, q <> c -> wb q = 0 -> 0 <= wa q -> TH q = if left then 180 else 0.
Proof.
  intros q Q B A. destruct (TH_eq q Q) as [R E]. pose proof (norm_pos_c q Q) as P. rewrite B in E, P.
  replace (wa q * wa q + 0 * 0) with (wa q * wa q) in E, P by ring. rewrite sqrt_square in E, P by exact A.
  exact (angle_end left _ _ R P E).
Qed.
Lemma TH_down : forall q, q <> c -> wb q = 0 -> wa q <= 0 -> TH q = if left then 0 else 180.
Proof.
  intros q Q B A. destruct (TH_eq q Q) as [R E]. pose proof (norm_pos_c q Q) as P. rewrite B in E, P.
  replace (wa q * wa q + 0 * 0) with ((- wa q) * (- wa q)) in E, P by ring. rewrite sqrt_square in E, P by lra.
  rewrite (angle_end (negb left) (- wa q) (TH q) R P); [case left; reflexivity|].
  rewrite <- E. case left; cbn [negb]; ring.
Qed.

(** The centroid is a point of the row, strictly inside. *)
Lemma c_inside : exists e, 0 < e < w /\ c = Rp i e.
Proof.
  destruct (surface_centroid p n f a t V F HR HG i b x X Lx) as (e & E & Ec & _). exists e. split; [exact E | exact Ec].
Qed.
Lemma c_margin : exists e, s_length x t / 2 <= e <= w - s_length x t / 2 /\ c = Rp i e.
Proof.
  destruct X as (row & E & I). pose proof DISTANCE_TOLERANCE_pos.
  destruct (surface_spans p n f a t V F HR i row b x E I) as [lo [hi [E1 [E2 [Elo [Ehi [El Ec]]]]]]].
  fold w in E2. exists ((lo + hi) / 2). split; [lra|].
  unfold c, s_centroid, line_centroid, Rp, RP, low_point in *. rewrite !row_point_eq in Ec. rewrite row_point_eq.
  assert (M : from_low_end (pa_width p) (ft_rotation a t) ((lo + hi) / 2) =
    (from_low_end (pa_width p) (ft_rotation a t) lo + from_low_end (pa_width p) (ft_rotation a t) hi) / 2).
  { unfold from_low_end. destruct (Rlt_dec 0 (ft_rotation a t)); lra. }
  rewrite M. destruct Ec as [-> | ->]; cbn [b1 b2 px py]; f_equal; field.
Qed.
Lemma c_high : 0 < py c.
Proof. destruct (surface_centroid p n f a t V F HR HG i b x X Lx) as (e & _ & _ & C). exact C. Qed.

(** Coordinates of the points of the chain. *)
Lemma own_coords : forall e, c = Rp i e -> forall e', wa (Rp i e') = e' - e /\ wb (Rp i e') = 0.
Proof.
  intros e Ec e'. unfold wa, wb. rewrite Ec. unfold Rp. rewrite <- (orient_y left (RP p a t i e')), <- (orient_y left (RP p a t i e)). rewrite !orient_RP. unfold rp. cbn [px py].
  fold ux uy. pose proof unit_frame as U. split; [|ring].
  transitivity ((e' - e) * (ux * ux + uy * uy)); [ring | rewrite U; ring].
Qed.
Lemma next_coords : edge = false -> forall e, c = Rp i e -> forall e',
  wa (Rp nx e') = D * ux + (e' - e) /\ wb (Rp nx e') = D * uy.
Proof.
  intros Eg e Ec e'. unfold wa, wb. rewrite Ec. unfold Rp, nx.
  rewrite <- (orient_y left (RP p a t (next left i) e')), <- (orient_y left (RP p a t i e)).
  rewrite (orient_next_RP p a t left i e' Hi Eg), orient_RP. unfold rp, np. cbn [px py].
  fold ux uy D. pose proof unit_frame as U. split; [|ring].
  transitivity (D * ux + (e' - e) * (ux * ux + uy * uy)); [ring | rewrite U; ring].
Qed.
Lemma gnd_coords : forall g, wb (gp g) = uy * (og left g - px (orient left c)) + ux * py c /\
  wa (gp g) = ux * (og left g - px (orient left c)) - uy * py c /\ wb (gp g) = side_k (OL p a t left i) ux uy (og left g).
Proof.
  intro g. destruct c_inside as (e & E & Ec). unfold wa, wb. rewrite orient_gp. cbn [px py gp].
  split; [ring|]. split; [ring|]. rewrite Ec. unfold Rp. rewrite <- (orient_y left (RP p a t i e)). rewrite orient_RP.
  unfold rp, side_k. fold ux uy. cbn [px py]. ring.
Qed.

(** In the order met when turning from the lower edge to the upper edge. *)
Definition ahead (q1 q2 : pt) : Prop := if left then TH q1 <= TH q2 else TH q2 <= TH q1.

Lemma uy0 : 0 <= uy.
Proof. apply (uy_nonneg a t HR). Qed.
Lemma D0 : 0 < D.
Proof. apply (D_pos p V). Qed.
Lemma flat_frame : uy = 0 -> (ux = 1 \/ ux = -1) /\ w <= D.
Proof.
  intro U. split.
  - pose proof unit_frame as E. rewrite U in E. assert (Q : (ux - 1) * (ux + 1) = 0) by nra.
    apply Rmult_integral in Q. destruct Q; [left | right]; lra.
  - apply HF. destruct (Req_dec (ft_rotation a t) 0) as [Z|Z]; [exact Z|]. pose proof (up_y_pos _ HR Z) as P.
    exfalso. change (up_y (ft_rotation a t) = 0) in U. lra.
Qed.

Lemma gnd_neq : forall g, gp g <> c.
Proof. intros g E. pose proof c_high as C. rewrite <- E in C. cbn in C. lra. Qed.
Lemma next_neq : edge = false -> forall e', 0 <= e' <= w -> Rp nx e' <> c.
Proof.
  intros Eg e' E' Q. destruct c_inside as (e & E & Ec). rewrite Ec in Q. symmetry in Q.
  apply (Rp_inj p a t V HR HF) in Q; [|exact E|exact E']. destruct Q as [Q _]. unfold nx, next, edge, is_edge in *.
  pose proof Hi. revert Eg Q. case left; intros Eg Q; [apply Nat.eqb_neq in Eg|]; lia.
Qed.
Lemma top_neq : Rp i w <> c.
Proof.
  intro Q. destruct c_inside as (e & E & Ec). rewrite Ec in Q. symmetry in Q. pose proof (w_pos p V) as W.
  apply (Rp_inj p a t V HR HF) in Q; [|exact E|fold w in W |- *; lra]. lra.
Qed.

(** A point of the ground which is not behind the row is below the surface or in front. *)
Lemma gnd_low : forall g, 0 < wb (gp g) \/ wb (gp g) < 0 \/ (wb (gp g) = 0 /\ wa (gp g) < 0).
Proof.
  intro g. destruct (gnd_coords g) as (B & A & _). pose proof c_high as C. pose proof unit_frame as U. pose proof uy0 as U0.
  set (s := og left g - px (orient left c)) in *. destruct (Rtotal_order (wb (gp g)) 0) as [L|[E|L]]; auto.
  right; right. split; [exact E|]. rewrite A. rewrite E in B.
  assert (M : (ux * s - uy * py c) * uy = - py c).
  { transitivity (ux * (uy * s) - uy * uy * py c); [ring|]. replace (uy * s) with (- (ux * py c)) by lra.
    transitivity (- (ux * ux + uy * uy) * py c); [ring | rewrite U; ring]. }
  destruct (Rle_dec 0 (ux * s - uy * py c)); [exfalso; nra | lra].
Qed.

Lemma gnd_ahead : forall g1 g2, og left g1 <= og left g2 -> 
  wa (gp g1) * wb (gp g2) <= wa (gp g2) * wb (gp g1) /\ wb (gp g1) <= wb (gp g2).
Proof.
  intros g1 g2 L. destruct (gnd_coords g1) as (B1 & A1 & _). destruct (gnd_coords g2) as (B2 & A2 & _).
  rewrite A1, A2, B1, B2. pose proof c_high as C. pose proof unit_frame as U. pose proof uy0 as U0.
  set (s1 := og left g1 - px (orient left c)). set (s2 := og left g2 - px (orient left c)).
  assert (S : s1 <= s2) by (unfold s1, s2; lra). split; [|nra].
  assert (E : (ux * s2 - uy * py c) * (uy * s1 + ux * py c) - (ux * s1 - uy * py c) * (uy * s2 + ux * py c) = py c * (s2 - s1) * (ux * ux + uy * uy)) by ring.
  rewrite U in E. assert (0 <= py c * (s2 - s1)) by (apply Rmult_le_pos; lra). lra.
Qed.

Lemma hidden_eq : forall g o, (if left then turn (gp g) o c else turn (gp g) c o) = wa (gp g) * wb o - wa o * wb (gp g).
Proof.
  intros g o. unfold wa, wb. pose proof unit_frame as U.
  transitivity ((if left then turn (gp g) o c else turn (gp g) c o) * (ux * ux + uy * uy)); [rewrite U; ring|].
  unfold turn. case left; cbn [orient mir px py gp]; ring.
Qed.

(** What is seen in the direction of a point of the ground. *)
Definition tow (g : R) : pt := seen_towards left (neighbour_edge p a t left i) c (gp g).
Lemma tow_eq : forall g, tow g = if edge then gp g else
  if Rlt_dec (wa (Rp nx 0) * wb (gp g)) (wa (gp g) * wb (Rp nx 0)) then Rp nx 0 else gp g.
Proof.
  intro g. unfold tow. rewrite (neighbour_eq p n f a t V F HR Ht left i Hi). fold edge. destruct edge eqn:Eg; [reflexivity|].
  rewrite (row_lowest p n f a t V F HR) by (apply (next_lt p left i Hi Eg)). fold nx. change (Lp p a t nx) with (Rp nx 0).
  unfold seen_towards. rewrite hidden_eq.
  destruct (Rlt_dec 0 _), (Rlt_dec _ _); try reflexivity; exfalso; lra.
Qed.
Lemma tow_neq : forall g, tow g <> c.
Proof. intro g. apply seen_towards_neq. exact c_high. Qed.

(** In a flat scene the neighbour hides no ground. *)
Lemma hidden_tilted : edge = false -> forall g, 0 <= wb (gp g) ->
  wa (Rp nx 0) * wb (gp g) < wa (gp g) * wb (Rp nx 0) -> 0 < uy.
Proof.
  intros Eg g B H. pose proof uy0 as U0. destruct (Rle_lt_or_eq_dec _ _ U0) as [L|Z]; [exact L|]. exfalso. symmetry in Z.
  destruct (flat_frame Z) as [UX WD]. destruct c_inside as (e & E & Ec). destruct (next_coords Eg e Ec 0) as [A1 B1].
  rewrite A1, B1, Z in H. destruct (gnd_coords g) as (Bg & _). rewrite Z in Bg. pose proof c_high as C. pose proof D0.
  destruct UX as [U1|U1]; rewrite U1 in *; [|nra].
  assert (0 < D * 1 + (0 - e)) by lra. nra.
Qed.

Lemma tow_low : forall g, 0 <= wb (gp g) -> 0 <= wb (tow g) /\ (0 < wb (tow g) \/ wa (tow g) <= 0).
Proof.
  intros g B. assert (Q : 0 <= wb (gp g) /\ (0 < wb (gp g) \/ wa (gp g) <= 0)).
  { split; [exact B|]. destruct (gnd_low g) as [L|[L|[_ L]]]; [left; exact L | lra | right; lra]. }
  rewrite tow_eq. destruct edge eqn:Eg; [exact Q|]. destruct (Rlt_dec _ _) as [H|H]; [|exact Q].
  destruct c_inside as (e & E & Ec). destruct (next_coords Eg e Ec 0) as [A1 B1]. rewrite B1.
  pose proof (hidden_tilted Eg g B H) as U. pose proof D0 as DD. assert (0 < D * uy) by (apply Rmult_lt_0_compat; lra). lra.
Qed.

Lemma tow_ahead : forall g1 g2, og left g1 <= og left g2 -> 0 <= wb (gp g1) -> ahead (tow g1) (tow g2).
Proof.
  intros g1 g2 L B1. destruct (gnd_ahead g1 g2 L) as [C12 B12]. assert (B2 : 0 <= wb (gp g2)) by lra.
  destruct (tow_low g1 B1) as [T1 N1]. destruct (tow_low g2 B2) as [T2 N2].
  apply (TH_order _ _ (tow_neq g1) (tow_neq g2) T1 T2); [|destruct N1; auto].
  rewrite !tow_eq. destruct edge eqn:Eg; [exact C12|].
  destruct c_inside as (e & E & Ec). destruct (next_coords Eg e Ec 0) as [Ao Bo].
  set (o := Rp nx 0) in *.
  destruct (Rlt_dec (wa o * wb (gp g1)) (wa (gp g1) * wb o)) as [H1|H1]; destruct (Rlt_dec (wa o * wb (gp g2)) (wa (gp g2) * wb o)) as [H2|H2]; try lra.
  exfalso. pose proof (hidden_tilted Eg g1 B1 H1) as U. pose proof D0 as DD.
  assert (PB : 0 < wb o) by (rewrite Bo; apply Rmult_lt_0_compat; lra).
  assert (H2' : wa (gp g2) * wb o <= wa o * wb (gp g2)) by lra.
  destruct (Rle_lt_or_eq_dec _ _ B2) as [P2|Z2].
  - assert (Q1 : wa o * wb (gp g1) * wb (gp g2) < wa (gp g1) * wb o * wb (gp g2)) by (apply Rmult_lt_compat_r; assumption).
    assert (Q2 : wa (gp g1) * wb (gp g2) * wb o <= wa (gp g2) * wb (gp g1) * wb o) by (apply Rmult_le_compat_r; lra).
    assert (Q3 : wa (gp g2) * wb o * wb (gp g1) <= wa o * wb (gp g2) * wb (gp g1)) by (apply Rmult_le_compat_r; lra).
    lra.
  - assert (Z1 : wb (gp g1) = 0) by lra. destruct (gnd_low g1) as [G|[G|[_ G]]]; [lra | lra |]. rewrite Z1 in H1. nra.
Qed.

Lemma far_ahead : edge = false -> forall g, 0 <= wb (gp g) -> ahead (tow g) (Rp nx 0).
Proof.
  intros Eg g B. destruct (tow_low g B) as [T1 N1]. pose proof uy0 as U0. pose proof D0 as DD.
  destruct c_inside as (e & E & Ec). destruct (next_coords Eg e Ec 0) as [Ao Bo].
  assert (PB : 0 <= wb (Rp nx 0)) by (rewrite Bo; apply Rmult_le_pos; lra). pose proof (w_pos p V) as W. fold w in W.
  apply (TH_order _ _ (tow_neq g) (next_neq Eg 0 ltac:(lra)) T1 PB); [|destruct N1; auto].
  rewrite tow_eq, Eg. destruct (Rlt_dec _ _) as [H|H]; lra.
Qed.

Lemma row_ahead : edge = false -> forall e1 e2, 0 <= e1 -> e1 <= e2 -> e2 <= w -> ahead (Rp nx e1) (Rp nx e2).
Proof.
  intros Eg e1 e2 E0 E12 E3. pose proof uy0 as U0. pose proof D0 as DD.
  destruct c_inside as (e & E & Ec). destruct (next_coords Eg e Ec e1) as [A1 B1]. destruct (next_coords Eg e Ec e2) as [A2 B2].
  assert (PB : 0 <= D * uy) by (apply Rmult_le_pos; lra).
  apply (TH_order _ _ (next_neq Eg e1 ltac:(lra)) (next_neq Eg e2 ltac:(lra))); rewrite ?B1, ?B2, ?A1, ?A2; try exact PB.
  - apply Rmult_le_compat_r; lra.
  - destruct (Rle_lt_or_eq_dec _ _ U0) as [L|Z]; [left; apply Rmult_lt_0_compat; lra|]. symmetry in Z.
    destruct (flat_frame Z) as [[-> | ->] WD]; right; right; [right | left]; lra.
Qed.

Lemma TH_range : forall q, q <> c -> 0 <= TH q <= 180.
Proof. intros q Q. apply TH_eq. exact Q. Qed.
Lemma TH_top : TH (Rp i w) = if left then 180 else 0.
Proof.
  destruct c_inside as (e & E & Ec). destruct (own_coords e Ec w) as [A B]. apply TH_up; [exact top_neq | exact B | rewrite A; lra].
Qed.

(** The far end of the ground, and the point where the row cuts it. *)
Definition far : R := if left then MIN_X_GROUND else MAX_X_GROUND.
Let cut := cutx p f t i.

Lemma far_front : cut <> far -> 0 <= wb (gp far).
Proof.
  intro Nf. destruct (gnd_coords far) as (_ & _ & ->). destruct ground_bounds as [GB1 GB2].
  unfold cut, far in *. rewrite GB1, GB2 in *. destruct (Req_dec (ft_rotation a t) 0) as [Z | Nz].
  - rewrite (cutx_flat p n f a t F HR HG i Z) in Nf.
    assert (L : left = true) by (destruct left; [reflexivity | exfalso; apply Nf; reflexivity]).
    pose proof (OL_y p a t V HG left i) as Y. unfold side_k, ux, uy, oux, ProofVF.uy. rewrite Z in *. destruct up_flat as [-> ->].
    rewrite L in *. cbn [og]. lra.
  - destruct (side_k_cut p a t HR left i Nz) as [_ E]. unfold ux, uy. rewrite E. apply Rmult_le_pos; [apply uy0 |].
    rewrite (cutx_eq p n f a t F HR HG i Nz) in Nf. unfold ck, xclip in Nf. rewrite GB1, GB2 in Nf.
    unfold og. revert Nf. case left; intro Nf; minmax; lra.
Qed.

(** Where the row cuts the ground inside its ends, it is seen along the row. *)
Lemma cut_bottom : ft_rotation a t <> 0 -> -100 <= INR i * D - pa_height p * cosd r / sind r <= 100 ->
  TH (tow cut) = if left then 0 else 180.
Proof.
  intros Nz B. destruct ground_bounds as [GB1 GB2].
  assert (Ec : cut = INR i * D - pa_height p * cosd r / sind r).
  { unfold cut. rewrite (cutx_eq p n f a t F HR HG i Nz). unfold ck, xclip. rewrite GB1, GB2. fold D r. minmax; lra. }
  assert (W0 : wb (gp cut) = 0).
  { destruct (gnd_coords cut) as (_ & _ & ->). rewrite Ec. exact (proj1 (side_k_cut p a t HR left i Nz)). }
  assert (W1 : wa (gp cut) < 0) by (destruct (gnd_low cut) as [G|[G|[_ G]]]; lra).
  assert (ET : tow cut = gp cut).
  { rewrite tow_eq. destruct edge eqn:Eg; [reflexivity|]. destruct (Rlt_dec _ _) as [H|H]; [exfalso | reflexivity].
    rewrite W0 in H. destruct c_inside as (e & E & Ece). destruct (next_coords Eg e Ece 0) as [_ Bo]. rewrite Bo in H.
    assert (0 <= D * uy) by (pose proof D0; pose proof uy0; apply Rmult_le_pos; lra). nra. }
  rewrite ET. apply TH_down; [apply gnd_neq | exact W0 | lra].
Qed.

Section Measure.
Variable W : R -> R.
Hypothesis WM : forall y z, 0 <= y -> y <= z -> z <= 180 -> W y <= W z.

Definition Z (q : pt) : R := if left then W (TH q) else - W (TH q).
(** Measure of what is seen between two points. *)
Definition Vw (q1 q2 : pt) : R := W (Rmax (TH q1) (TH q2)) - W (Rmin (TH q1) (TH q2)).

Lemma Vw_sym : forall q1 q2, Vw q1 q2 = Vw q2 q1.
Proof. intros. unfold Vw. rewrite Rmin_comm, Rmax_comm. reflexivity. Qed.
Lemma Vw_ahead : forall q1 q2, ahead q1 q2 -> Vw q1 q2 = Z q2 - Z q1.
Proof.
  intros q1 q2. unfold ahead, Vw, Z. case left; intro H.
  - rewrite Rmax_right, Rmin_left by exact H. reflexivity.
  - rewrite Rmax_left, Rmin_right by exact H. ring.
Qed.
Lemma Vw_same : forall q, Vw q q = 0.
Proof. intro q. unfold Vw. rewrite Rmax_left, Rmin_left by lra. ring. Qed.

Lemma Z_ahead : forall q1 q2, q1 <> c -> q2 <> c -> ahead q1 q2 -> Z q1 <= Z q2.
Proof.
  intros q1 q2 N1 N2. pose proof (TH_range q1 N1) as R1. pose proof (TH_range q2 N2) as R2. unfold ahead, Z. case left; intro H.
  - apply WM; lra.
  - apply Ropp_le_contravar. apply WM; lra.
Qed.
Definition bottom : R := if left then W 0 else - W 180.
Lemma Z_top : Z (Rp i w) = W 180 - W 0 + bottom.
Proof. unfold Z, bottom. rewrite TH_top. case left; ring. Qed.
Lemma Z_bottom : forall q, q <> c -> bottom <= Z q.
Proof. intros q Q. pose proof (TH_range q Q) as R. unfold Z, bottom. case left; [|apply Ropp_le_contravar]; apply WM; lra. Qed.
Lemma top_ahead : forall q, q <> c -> ahead q (Rp i w).
Proof. intros q Q. pose proof (TH_range q Q) as R. unfold ahead. rewrite TH_top. case left; lra. Qed.

Definition gnd_piece (y : ts_surface) : R := Vw (tow (px (b1 (s_coords y t)))) (tow (px (b2 (s_coords y t)))).
Definition row_piece (y : ts_surface) : R := Vw (b1 (s_coords y t)) (b2 (s_coords y t)).
Definition sky_from : pt := if edge then gp far else Rp nx w.

Lemma sky_from_neq : sky_from <> c.
Proof.
  unfold sky_from. destruct edge eqn:Eg; [apply gnd_neq|]. pose proof (w_pos p V) as Wp. fold w in Wp. apply (next_neq Eg). lra.
Qed.

Lemma gnd_pieces : rsum (map gnd_piece (gnd_side_of_cut_point (ft_ground a) left i)) = Z (tow far) - Z (tow cut).
Proof.
  set (G := fun g => if left then - Z (tow g) else Z (tow g)).
  rewrite (rsum_map_ext _ _ (fun s => G (px (b2 (s_coords s t))) - G (px (b1 (s_coords s t))))).
  - rewrite (gnd_telescope p n f a t al V F SA NS HR HG i left G Hi). unfold G, far, cut. case left; ring.
  - intros y Hy. destruct (gnd_shape p n f a t al V F SA NS HR HG y (in_gnd_side _ _ _ _ _ _ _ F Hi Hy)) as (_ & L & _).
    unfold gnd_piece. destruct (Rle_lt_or_eq_dec _ _ L) as [LT|EQ].
    + pose proof (gnd_visible p n f a t al V F SA NS HR HG i left y Hi Hy) as GV.
      assert (AH : ahead (tow (if left then px (b2 (s_coords y t)) else px (b1 (s_coords y t))))
                         (tow (if left then px (b1 (s_coords y t)) else px (b2 (s_coords y t))))).
      { apply tow_ahead; [unfold og; case left; lra|].
        destruct (gnd_coords (if left then px (b2 (s_coords y t)) else px (b1 (s_coords y t)))) as (_ & _ & ->).
        replace (og left _) with (ogl t left y) by (unfold og, ogl; case left; reflexivity).
        apply GV. unfold ogl, ogr. case left; lra. }
      revert AH. unfold G. case left; intro AH.
      * rewrite Vw_sym, (Vw_ahead _ _ AH). ring.
      * rewrite (Vw_ahead _ _ AH). ring.
    + rewrite EQ, Vw_same. ring.
Qed.

Lemma row_pieces : edge = false -> forall row, nth_error (ft_rows a) nx = Some row ->
  rsum (map row_piece (side_surfaces (side_of (negb b) row))) = Z (Rp nx w) - Z (Rp nx 0).
Proof.
  intros Eg row Hr. pose proof (surface_telescope p n f a t V F HR nx row (negb b) Z Hr) as T.
  change (Z (RP p a t nx (pa_width p)) - Z (Lp p a t nx)) with (Z (Rp nx w) - Z (Rp nx 0)) in T. rewrite <- T.
  apply rsum_map_ext. intros y Hy.
  destruct (surface_spans p n f a t V F HR nx row (negb b) y Hr Hy) as [lo [hi [E1 [E2 [Elo [Ehi [_ Ec]]]]]]].
  fold w in E2. fold Rp in Elo, Ehi, Ec. rewrite Elo, Ehi. pose proof (row_ahead Eg lo hi ltac:(lra) ltac:(lra) E2) as A.
  unfold row_piece. destruct Ec as [-> | ->]; cbn [b1 b2]; [|rewrite Vw_sym]; apply (Vw_ahead _ _ A).
Qed.

Let nrow := fit_row p (fit_alpha p f) (fit_rotation p f) nx.
Definition row_total : R := if edge then 0 else rsum (map row_piece (side_surfaces (side_of (negb b) nrow))).
Definition pieces_total : R :=
  rsum (map gnd_piece (gnd_side_of_cut_point (ft_ground a) left i)) + row_total + Vw sky_from (Rp i w).

Lemma pieces_eq : pieces_total =
  W 180 - W 0 + (bottom - Z (tow cut)) + (if edge then 0 else Z (tow far) - Z (Rp nx 0)).
Proof.
  unfold pieces_total, row_total. rewrite gnd_pieces, (Vw_ahead _ _ (top_ahead _ sky_from_neq)), Z_top. unfold sky_from.
  destruct edge eqn:Eg.
  - rewrite (tow_eq far), Eg. ring.
  - rewrite (row_pieces Eg nrow); [ring|]. apply (row_of p n f a F). apply (next_lt p left i Hi Eg).
Qed.

Lemma pieces_upper : pieces_total <= W 180 - W 0.
Proof.
  rewrite pieces_eq. pose proof (Z_bottom (tow cut) (tow_neq cut)) as B. destruct edge eqn:Eg; [lra|].
  pose proof (w_pos p V) as Wp. fold w in Wp. pose proof (next_neq Eg 0 ltac:(lra)) as N0. pose proof (Z_bottom _ N0) as B0.
  destruct (Req_dec cut far) as [E|E]; [rewrite E; lra|]. pose proof (far_front E) as FF.
  pose proof (Z_ahead _ _ (tow_neq far) N0 (far_ahead Eg far FF)). lra.
Qed.

(** Nothing is left out when the row cuts the ground between its ends, and the far end of
    the ground is hidden by the neighbour, if there is one. *)
Lemma pieces_exact : ft_rotation a t <> 0 -> -100 <= INR i * D - pa_height p * cosd r / sind r <= 100 ->
  (edge = false -> tow far = Rp nx 0) -> pieces_total = W 180 - W 0.
Proof.
  intros Nz B FH. rewrite pieces_eq. unfold bottom, Z at 1. rewrite (cut_bottom Nz B). destruct edge.
  - case left; ring.
  - rewrite (FH eq_refl). case left; ring.
Qed.
End Measure.

(* ------------------------------------------------------------------------- the cells *)

Variables (m : aoi_methods) (af : aoi_fitted).
Hypothesis AF : aoi_fit m = Ok af.
Let M := aoi_update af a t (build_vf_matrix a t).
Let idx := surf_index a.
Let bet q1 q2 := vf_aoi_between af (TH q1) (TH q2) b.

Lemma sts_cases : forall c2, 
  vf_aoi_surface_to_surface (ft_n_states a) af x c2 b t = 0 \/
  vf_aoi_surface_to_surface (ft_n_states a) af x c2 b t = bet (b1 (c2 t)) (b2 (c2 t)).
Proof.
  intros c2. unfold vf_aoi_surface_to_surface. destruct (is_empty _ x || coords_empty _ c2)%bool; [left; reflexivity|].
  unfold np_where. destruct (Rltb _ _ || Rltb _ _)%bool; [left; reflexivity | right; reflexivity].
Qed.
Lemma sts_long : forall c2, DISTANCE_TOLERANCE <= line_length (c2 t) ->
  vf_aoi_surface_to_surface (ft_n_states a) af x c2 b t = bet (b1 (c2 t)) (b2 (c2 t)).
Proof.
  intros c2 Lc. unfold vf_aoi_surface_to_surface. rewrite (empty_short p n f a t F x Ht Lx), (coords_not_empty p n f a t F Ht c2 Lc).
  cbn [orb]. unfold np_where. rewrite (proj2 (Rltb_false (s_length x t) _)), (proj2 (Rltb_false (line_length (c2 t)) _)) by lra.
  reflexivity.
Qed.

Lemma gnd_cell : forall left' y, In y (gnd_side_of_cut_point (ft_ground a) left' i) ->
  let v := M (idx x) (idx y) in
  let v' := bet (tow (px (b1 (s_coords y t)))) (tow (px (b2 (s_coords y t)))) in
  (left' <> left -> v = 0) /\ (left' = left -> (v = 0 \/ v = v') /\ (DISTANCE_TOLERANCE < s_length y t -> v = v')).
Proof.
  intros left' y Y v v'. unfold v, M, idx.
  rewrite (aoi_cell_gnd af a t p n f V F _ i b left' x y X Y). unfold aoi_gnd_value, vf_aoi_pvrow_surf_to_gnd_surf.
  rewrite (empty_short p n f a t F x Ht Lx). cbn [orb].
  pose proof (in_gnd_side _ _ _ _ _ _ _ F Hi Y) as Gy.
  destruct (gnd_shape p n f a t al V F SA NS HR HG y Gy) as [Sy _].
  rewrite (rows_length p n f a F). fold c.
  assert (LE : left = xorb b tl) by (unfold left; apply looks_left_eq).
  assert (ANG : left' = left -> forall g, (if (left' && Nat.eqb i 0 || negb left' && Nat.eqb i (pa_n_pvrows p - 1))%bool
             then calculate_aoi_angle (s_uvec x t) c (gp g)
             else aoi_angle_w_obstruction (s_uvec x t) c (gp g) (row_lowest_pt (ft_rows a) (if left' then (i - 1)%nat else (i + 1)%nat) t) left') =
             TH (tow g)).
  { intros -> g. unfold tow, TH. rewrite (neighbour_eq p n f a t V F HR Ht left i Hi).
    assert (EE : (left && Nat.eqb i 0 || negb left && Nat.eqb i (pa_n_pvrows p - 1))%bool = is_edge p left i).
    { unfold is_edge. case left; cbn [andb negb]; [apply orb_false_r | reflexivity]. }
    rewrite EE. destruct (is_edge p left i) eqn:Eg; [reflexivity|].
    rewrite obstruction_angle; [reflexivity | exact c_high |].
    change (if left then (i - 1)%nat else (i + 1)%nat) with (next left i).
    rewrite (row_lowest p n f a t V F HR) by (apply (next_lt p left i Hi Eg)). apply (Lp_y p a t V HG). }
  fold r. fold tl. rewrite gnd_select, <- LE.
  split.
  - intro NE. rewrite (proj2 (eqb_false_iff left' left) NE). destruct (is_empty _ y); reflexivity.
  - intro E. specialize (ANG E). rewrite E in *. rewrite eqb_reflx.
    assert (V' : forall g1 g2, s_coords y t = Line (gp g1) (gp g2) -> v' = bet (tow g1) (tow g2)) by (intros g1 g2 Q; unfold v'; rewrite Q; reflexivity).
    rewrite (V' _ _ Sy). rewrite Sy. cbn [b1 b2]. rewrite !ANG. clear ANG V'. unfold bet. split.
    + destruct (is_empty _ y); [left; reflexivity|]. unfold np_where.
      destruct (Rltb (s_length x t) DISTANCE_TOLERANCE || Rltb (s_length y t) DISTANCE_TOLERANCE)%bool; auto.
    + intro Ly. rewrite (empty_short p n f a t F y Ht Ly). unfold np_where.
      rewrite (proj2 (Rltb_false (s_length x t) _)), (proj2 (Rltb_false (s_length y t) _)) by lra. reflexivity.
Qed.

Lemma row_cell : forall j b' y, row_surf j b' y ->
  let v := M (idx x) (idx y) in
  let v' := bet (b1 (s_coords y t)) (b2 (s_coords y t)) in
  let facing := b' = negb b /\ edge = false /\ j = nx in
  (~ facing -> v = 0) /\ (facing -> (v = 0 \/ v = v') /\ (DISTANCE_TOLERANCE < s_length y t -> v = v')).
Proof.
  intros j b' y Y v v' facing.
  assert (FE : facing <-> b' = negb b /\ (if left then i = S j else j = S i)).
  { unfold facing, nx, next, edge, is_edge. pose proof Hi as HI. pose proof (row_surf_lt a p n f F j b' y Y) as HJ. case left.
    - rewrite Nat.eqb_neq. intuition lia.
    - rewrite Nat.eqb_neq. intuition lia. }
  assert (LE : left = xorb b tl) by (unfold left; apply looks_left_eq).
  assert (OT : ~ (b' = negb b /\ (j = S i \/ i = S j)) -> v = 0).
  { intro NF. unfold v, M, idx. rewrite (aoi_cell_other af a t p n f V F _ i b j b' x y X Y NF).
    destruct X as (row & Hr & Hx), Y as (row' & Hr' & Hy).
    destruct (Req_dec (build_vf_matrix a t (surf_index a x) (surf_index a y)) 0) as [Q|Q]; [exact Q|]. exfalso.
    destruct (C15_rows p n f a t i j row row' b b' x y V F Hr Hr' Hx Hy Q) as [Q1 Q2]. apply NF. split; [exact Q1|].
    destruct (looks_left _ b); auto. }
  assert (LL : line_length (s_coords y t) = s_length y t) by reflexivity.
  pose proof (sts_cases (s_coords y)) as SC. fold v' in SC. pose proof (sts_long (s_coords y)) as SL. rewrite LL in SL. fold v' in SL.
  destruct (Bool.bool_dec b' (negb b)) as [->|NC].
  2:{ split; [intros _; apply OT; tauto | intros [Q _]; contradiction]. }
  destruct (Nat.eq_dec j (S i)) as [->|N1].
  - destruct (aoi_cell_row af a t p n f V F (build_vf_matrix a t) i b x y X Y) as [E _]. fold idx M v in E. rewrite FE, E.
    unfold aoi_row_value. cbn [fst]. fold r. fold tl. rewrite row_select, <- LE. case left.
    + split; [reflexivity | intros [_ Q]; lia].
    + split; [intro Q; exfalso; apply Q; auto|]. intros _. split; [exact SC|]. intro Ly. apply SL. lra.
  - destruct (Nat.eq_dec i (S j)) as [EI|N2].
    + assert (X' : row_surf (S j) (negb (negb b)) x) by (rewrite negb_involutive, <- EI; exact X).
      destruct (aoi_cell_row af a t p n f V F (build_vf_matrix a t) j (negb b) y x Y X') as [_ E]. fold idx M v in E.
      rewrite FE, E. unfold aoi_row_value. cbn [snd]. fold r. fold tl. rewrite row_select, negb_involutive.
      replace (xorb (negb b) tl) with (negb left) by (rewrite LE; apply negb_xorb_l). case left; cbn [negb].
      * split; [intro Q; exfalso; apply Q; auto|]. intros _. split; [exact SC|]. intro Ly. apply SL. lra.
      * split; [reflexivity | intros [_ Q]; lia].
    + rewrite FE. split; [intros _; apply OT; intros [_ [Q|Q]]; lia | intros [_ Q]; revert Q; case left; lia].
Qed.

Lemma row_highest : forall j, (j < pa_n_pvrows p)%nat -> row_highest_pt (ft_rows a) j t = Rp j w.
Proof.
  intros j Hj. unfold row_highest_pt. rewrite (fit_rows_at p n f a F), fit_rows_nth by exact Hj.
  rewrite fit_row_coords. rewrite <- (r_eq p n f a t F). unfold Rp, RP. fold D w r. pose proof (w_pos p V) as Wp. fold w in Wp.
  destruct (Req_dec r 0) as [Q | Nz].
  - rewrite Q. rewrite !(low_point_flat_eq _ _ w).
    replace (w / 2 - - (w / 2)) with w by field. replace (w / 2 - w / 2) with 0 by ring.
    apply (proj1 (flat_ends (INR j * D) (pa_height p) w w 0 (Rlt_le _ _ Wp))).
  - destruct (line_ends (INR j * D) (pa_height p) w r 0 w HR Nz) as [A [_ [B _]]]; [lra |].
    unfold low_point, from_low_end in *. destruct (Rlt_dec 0 r).
    + replace (- (w / 2) + 0) with (- (w / 2)) in * by ring. replace (- (w / 2) + w) with (w / 2) in * by field. exact A.
    + replace (w / 2 - 0) with (w / 2) in * by ring. replace (w / 2 - w) with (- (w / 2)) in * by field. exact B.
Qed.

Lemma bet_sym : forall q1 q2, bet q1 q2 = bet q2 q1.
Proof.
  intros q1 q2. unfold bet. rewrite !(wedge_spec m af _ _ b AF). unfold aoi_seen_between. rewrite Rmin_comm, Rmax_comm. reflexivity.
Qed.

Lemma top_height : pa_height p <= py (Rp i w).
Proof.
  unfold Rp, RP, low_point. rewrite row_point_eq. cbn [py]. fold w r. unfold from_low_end. pose proof (w_pos p V) as Wp. fold w in Wp.
  pose proof uy0 as U. unfold uy, ProofVF.uy, up_y in U. fold r in U. destruct (Rlt_dec 0 r).
  - replace (- (w / 2) + w) with (w / 2) by field. nra.
  - replace (w / 2 - w) with (- (w / 2)) by field. nra.
Qed.

Lemma sky_cell :
  let v := M (idx x) (n_ts_surfaces a) in
  let v' := bet sky_from (Rp i w) in
  (v = 0 \/ v = v') /\ (DISTANCE_TOLERANCE <= D -> DISTANCE_TOLERANCE <= pa_height p -> v = v').
Proof.
  intros v v'. unfold v, M, idx. rewrite (aoi_cell_sky af a t p n f V F _ i b x X). unfold aoi_sky_value. fold r. fold tl.
  set (line := dummy_sky (ft_rows a) (gnd_y (ft_ground a)) (if xorb tl b then i else (i + 1)%nat)).
  assert (LE : left = xorb tl b) by (unfold left; rewrite xorb_comm; apply looks_left_eq).
  assert (GY : gnd_y (ft_ground a) = 0).
  { destruct (fit_spec _ _ _ _ F) as (_ & _ & _ & _ & G0). unfold ground_from_pvrows in G0. apply ground_from_ordered_spec in G0.
    destruct G0 as [-> _]. reflexivity. }
  pose proof Hi as HI.
  assert (LI : line t = if left then Line sky_from (Rp i w) else Line (Rp i w) sky_from).
  { unfold line. rewrite <- LE. unfold dummy_sky. rewrite GY, (rows_length p n f a F). unfold sky_from, far, edge, is_edge, nx, next.
    case left.
    - destruct (Nat.eqb_spec i 0) as [Q|Q].
      + rewrite (row_highest 0) by lia. rewrite Q. reflexivity.
      + rewrite (proj2 (Nat.ltb_lt i (pa_n_pvrows p)) HI), !row_highest by lia. reflexivity.
    - rewrite (proj2 (Nat.eqb_neq (i + 1) 0)) by lia. destruct (Nat.eqb_spec i (pa_n_pvrows p - 1)) as [Q|Q].
      + rewrite (proj2 (Nat.ltb_ge (i + 1) (pa_n_pvrows p))) by lia. rewrite row_highest by lia. rewrite <- Q. reflexivity.
      + rewrite (proj2 (Nat.ltb_lt (i + 1) (pa_n_pvrows p))) by lia. rewrite !row_highest by lia.
        replace (i + 1 - 1)%nat with i by lia. reflexivity. }
  assert (BE : bet (b1 (line t)) (b2 (line t)) = v') by (rewrite LI; unfold v'; case left; cbn [b1 b2]; [reflexivity | apply bet_sym]).
  split.
  - destruct (sts_cases line) as [E|E]; [left; exact E | right; rewrite E; exact BE].
  - intros TD TH0. rewrite (sts_long line); [exact BE|].
    assert (LS : DISTANCE_TOLERANCE <= line_length (Line sky_from (Rp i w))).
    { pose proof DISTANCE_TOLERANCE_pos as T0. unfold line_length. cbn [b1 b2]. unfold sky_from. destruct edge eqn:Eg.
      - cbn [gp px py]. pose proof top_height as TT.
        apply sqrt_ge; [lra|]. pose proof (Rle_0_sqr (px (Rp i w) - far)) as S2. unfold Rsqr in S2.
        assert (DISTANCE_TOLERANCE * DISTANCE_TOLERANCE <= (py (Rp i w) - 0) * (py (Rp i w) - 0)) by (apply Rmult_le_compat; lra). lra.
      - assert (E : (px (Rp nx w) - px (Rp i w)) * (px (Rp nx w) - px (Rp i w)) = D * D /\ py (Rp nx w) = py (Rp i w)).
        { unfold Rp, nx, next, RP, low_point. rewrite !row_point_eq. cbn [px py]. fold D. split; [|reflexivity].
          unfold edge, is_edge in Eg. revert Eg. case left; intro Eg.
          - apply Nat.eqb_neq in Eg. rewrite minus_INR by lia. cbn [INR]. ring.
          - rewrite plus_INR. cbn [INR]. ring. }
        destruct E as [E1 E2]. apply sqrt_ge; [lra|]. rewrite E2.
        assert (DISTANCE_TOLERANCE * DISTANCE_TOLERANCE <= D * D) by (apply Rmult_le_compat; lra). lra. }
    rewrite LI. revert LS. case left; [auto|]. intro LS. eapply Rle_trans; [exact LS|]. right. unfold line_length. cbn [b1 b2]. f_equal. ring.
Qed.

(* ------------------------------------------------------------------------- the sums *)

(** A quantity bounded by [Q] on what is seen and not positive elsewhere. *)
Lemma visible_sum : forall G QG QR : ts_surface -> R,
  (forall left' y, In y (gnd_side_of_cut_point (ft_ground a) left' i) -> left' <> left -> G y <= 0) ->
  (forall y, In y (gnd_side_of_cut_point (ft_ground a) left i) -> G y <= QG y) ->
  (forall j b' y, row_surf j b' y -> ~ (b' = negb b /\ edge = false /\ j = nx) -> G y <= 0) ->
  (forall y, row_surf nx (negb b) y -> edge = false -> G y <= QR y) ->
  rsum (map G (all_ts_surfaces a)) <=
  rsum (map QG (gnd_side_of_cut_point (ft_ground a) left i)) +
  (if edge then 0 else rsum (map QR (side_surfaces (side_of (negb b) (fit_row p (fit_alpha p f) (fit_rotation p f) nx))))).
Proof.
  intros G QG QR HO HV HN HW. rewrite (sum_all p n f a F). apply Rplus_le_compat.
  - rewrite (sum_gnd p n f a F i G Hi).
    assert (A : rsum (map G (gnd_side_of_cut_point (ft_ground a) left i)) <= rsum (map QG (gnd_side_of_cut_point (ft_ground a) left i)))
      by (apply rsum_map_le; exact HV).
    assert (B : rsum (map G (gnd_side_of_cut_point (ft_ground a) (negb left) i)) <= 0).
    { apply rsum_map_nonpos_le. intros y Y. apply (HO _ y Y). case left; discriminate. }
    revert A B. generalize (rsum (map QG (gnd_side_of_cut_point (ft_ground a) left i))). intro z. case left; cbn [negb]; intros; lra.
  - set (fr := fit_row p (fit_alpha p f) (fit_rotation p f)) in *.
    assert (RS : forall j b' y, (j < pa_n_pvrows p)%nat -> In y (side_surfaces (side_of b' (fr j))) -> row_surf j b' y).
    { intros j b' y Hj Y. exists (fr j). split; [apply (row_of p n f a F j Hj) | exact Y]. }
    assert (OFF : forall j b', (j < pa_n_pvrows p)%nat -> ~ (b' = negb b /\ edge = false /\ j = nx) ->
       rsum (map G (side_surfaces (side_of b' (fr j)))) <= 0).
    { intros j b' Hj NF. apply rsum_map_nonpos_le. intros y Y. apply (HN j b' y (RS j b' y Hj Y) NF). }
    destruct edge eqn:Eg.
    + rewrite <- (isum_zero (pa_n_pvrows p) (fun _ => 0)) by reflexivity. apply isum_le. intros j Hj.
      pose proof (OFF j false Hj ltac:(intros (_ & Q & _); discriminate)). pose proof (OFF j true Hj ltac:(intros (_ & Q & _); discriminate)). lra.
    + pose proof (next_lt p left i Hi Eg) as Hn. fold nx in Hn.
      assert (ON : rsum (map G (side_surfaces (side_of (negb b) (fr nx)))) <= rsum (map QR (side_surfaces (side_of (negb b) (fr nx))))).
      { apply rsum_map_le. intros y Y. apply HW; [exact (RS nx (negb b) y Hn Y) | reflexivity]. }
      eapply Rle_trans; [apply (isum_le _ _ (fun j => if Nat.eqb j nx then rsum (map QR (side_surfaces (side_of (negb b) (fr nx)))) else 0))|].
      * intros j Hj. destruct (Nat.eqb_spec j nx) as [->|NE].
        -- pose proof (OFF nx b Hn ltac:(intros (Q & _); revert Q; case b; discriminate)) as OB.
           revert ON OB. generalize (rsum (map QR (side_surfaces (side_of (negb b) (fr nx))))). intro z. case b; cbn [negb]; intros; lra.
        -- pose proof (OFF j false Hj ltac:(intros (_ & _ & Q); contradiction)). pose proof (OFF j true Hj ltac:(intros (_ & _ & Q); contradiction)). lra.
      * rewrite (isum_single p _ _ nx Hn); [rewrite Nat.eqb_refl; lra|]. intros j _ NE. rewrite (proj2 (Nat.eqb_neq j nx) NE). reflexivity.
Qed.

(** Between the sum of the weights of all the sections, and that sum plus one section for
    each surface. *)
Let fn := if b then am_back m else am_front m.
Let ns := n_ts_surfaces a.
Variable top : R.
Hypothesis FB : forall z, 0 <= z <= 180 -> 0 <= fn z <= top.
Let wsum := sum_below (am_n m) (fun k => fn (mid_angle (am_n m) k) * seen_between (cut_angle (am_n m) k) (cut_angle (am_n m) (S k))).

Lemma nsec : (0 < am_n m)%nat.
Proof. pose proof AF as H. unfold aoi_fit in H. destruct (Nat.eqb_spec (am_n m) 0); [discriminate | lia]. Qed.

Lemma bet_upper : forall q1 q2, bet q1 q2 <= Vw (started fn (am_n m)) q1 q2 + widest (am_n m) top.
Proof.
  intros q1 q2. unfold bet. rewrite (wedge_spec m af _ _ b AF). unfold aoi_seen_between, Vw. fold fn.
  apply (wedge_upper fn (am_n m) top nsec FB). apply Rle_trans with (TH q1); [apply Rmin_l | apply Rmax_l].
Qed.
Lemma Vw_nonneg : forall W, (forall y z, 0 <= y -> y <= z -> z <= 180 -> W y <= W z) ->
  forall q1 q2, q1 <> c -> q2 <> c -> 0 <= Vw W q1 q2.
Proof.
  intros W WM q1 q2 N1 N2. pose proof (TH_range q1 N1). pose proof (TH_range q2 N2). unfold Vw.
  assert (W (Rmin (TH q1) (TH q2)) <= W (Rmax (TH q1) (TH q2))); [|lra].
  apply WM; unfold Rmin, Rmax; destruct (Rle_dec _ _); lra.
Qed.
Lemma bet_lower : forall q1 q2, q1 <> c -> q2 <> c ->
  Vw (swept fn (am_n m)) q1 q2 - narrowest top <= bet q1 q2.
Proof.
  intros q1 q2 N1 N2. unfold bet. rewrite (wedge_spec m af _ _ b AF). unfold aoi_seen_between, Vw. fold fn.
  pose proof (TH_range q1 N1). pose proof (TH_range q2 N2).
  apply (wedge_lower fn (am_n m) top nsec FB); unfold Rmin, Rmax; destruct (Rle_dec _ _); lra.
Qed.

Lemma started_M : forall y z, 0 <= y -> y <= z -> z <= 180 -> started fn (am_n m) y <= started fn (am_n m) z.
Proof. intros y z _ H _. apply (started_mono fn (am_n m) top nsec FB). exact H. Qed.
Lemma swept_M : forall y z, 0 <= y -> y <= z -> z <= 180 -> swept fn (am_n m) y <= swept fn (am_n m) z.
Proof. intros y z H0 H H1. apply (swept_mono fn (am_n m) top nsec FB); assumption. Qed.

Lemma row_neq : forall y, row_surf nx (negb b) y -> edge = false -> b1 (s_coords y t) <> c /\ b2 (s_coords y t) <> c.
Proof.
  intros y (row & Hr & Hy) Eg.
  destruct (surface_spans p n f a t V F HR nx row (negb b) y Hr Hy) as [lo [hi [E1 [E2 [_ [_ [_ Ec]]]]]]].
  fold w in E2. fold Rp in Ec.
  assert (0 <= lo <= w /\ 0 <= hi <= w) as [A1 A2] by lra.
  destruct Ec as [-> | ->]; cbn [b1 b2]; split; apply (next_neq Eg); assumption.
Qed.

Lemma surfaces_const : forall k, rsum (map (fun _ => k) (all_ts_surfaces a)) = INR ns * k.
Proof. intro k. rewrite rsum_map_const. unfold ns. rewrite <- n_ts_surfaces_length. reflexivity. Qed.

Lemma whole_upper :
  rsum (map (fun y => M (idx x) (idx y)) (all_ts_surfaces a)) + M (idx x) ns <= wsum + INR (S ns) * widest (am_n m) top.
Proof.
  set (K := widest (am_n m) top). pose proof (widest_nonneg fn (am_n m) top nsec FB) as K0. fold K in K0.
  set (W := started fn (am_n m)).
  assert (TOT : rsum (map (fun y => M (idx x) (idx y) - K) (all_ts_surfaces a)) <=
    rsum (map (gnd_piece W) (gnd_side_of_cut_point (ft_ground a) left i)) + row_total W).
  { unfold row_total. apply (visible_sum (fun y => M (idx x) (idx y) - K) (gnd_piece W) (row_piece W)).
    - intros left' y Y NE. rewrite (proj1 (gnd_cell left' y Y) NE). lra.
    - intros y Y. destruct (proj2 (gnd_cell left y Y) eq_refl) as [[-> | ->] _].
      + pose proof (Vw_nonneg W started_M (tow (px (b1 (s_coords y t)))) (tow (px (b2 (s_coords y t)))) (tow_neq _) (tow_neq _)).
        unfold gnd_piece. lra.
      + pose proof (bet_upper (tow (px (b1 (s_coords y t)))) (tow (px (b2 (s_coords y t))))). unfold gnd_piece. fold W K in H. lra.
    - intros j b' y Y NF. rewrite (proj1 (row_cell j b' y Y) NF). lra.
    - intros y Y Eg. destruct (proj2 (row_cell nx (negb b) y Y) (conj eq_refl (conj Eg eq_refl))) as [[-> | ->] _].
      + destruct (row_neq y Y Eg) as [N1 N2]. pose proof (Vw_nonneg W started_M _ _ N1 N2). unfold row_piece. lra.
      + pose proof (bet_upper (b1 (s_coords y t)) (b2 (s_coords y t))). unfold row_piece. fold W K in H. lra. }
  assert (SKY : M (idx x) ns <= Vw W sky_from (Rp i w) + K).
  { destruct (proj1 sky_cell) as [E|E]; fold ns in E; rewrite E.
    - pose proof (Vw_nonneg W started_M _ _ sky_from_neq top_neq). lra.
    - apply bet_upper. }
  rewrite rsum_map_minus, surfaces_const in TOT. pose proof (pieces_upper W started_M) as PU. unfold pieces_total in PU.
  pose proof (started_all fn (am_n m) nsec) as SA'. fold wsum W in SA'. rewrite S_INR. lra.
Qed.

Lemma whole_lower : no_slivers a t -> DISTANCE_TOLERANCE <= D -> DISTANCE_TOLERANCE <= pa_height p ->
  r <> 0 -> -100 <= INR i * D - pa_height p * cosd r / sind r <= 100 -> (edge = false -> tow far = Rp nx 0) ->
  wsum - INR (S ns) * narrowest top <= rsum (map (fun y => M (idx x) (idx y)) (all_ts_surfaces a)) + M (idx x) ns.
Proof.
  intros NSl TD TH0 Nz CB FH.
  set (K := narrowest top).
  assert (K0 : 0 <= K).
  { unfold K, narrowest. pose proof (FB 0 ltac:(lra)). pose proof PI_RGT_0. pose proof DISTANCE_TOLERANCE_pos. apply Rmult_le_pos; [lra|]. nra. }
  set (W := swept fn (am_n m)).
  assert (TOT : rsum (map (fun y => - (M (idx x) (idx y) + K)) (all_ts_surfaces a)) <=
    rsum (map (fun y => - gnd_piece W y) (gnd_side_of_cut_point (ft_ground a) left i)) +
    (if edge then 0 else rsum (map (fun y => - row_piece W y) (side_surfaces (side_of (negb b) (fit_row p (fit_alpha p f) (fit_rotation p f) nx)))))).
  { apply (visible_sum (fun y => - (M (idx x) (idx y) + K)) (fun y => - gnd_piece W y) (fun y => - row_piece W y)).
    - intros left' y Y NE. rewrite (proj1 (gnd_cell left' y Y) NE). lra.
    - intros y Y. pose proof (in_gnd_side _ _ _ _ _ _ _ F Hi Y) as Gy. destruct (proj2 (gnd_cell left y Y) eq_refl) as [Q1 Q2].
      destruct (NSl y (in_all_gnd _ _ Gy)) as [Z0|L].
      + destruct (gnd_shape p n f a t al V F SA NS HR HG y Gy) as (_ & _ & LL & _). unfold gnd_piece.
        replace (px (b2 (s_coords y t))) with (px (b1 (s_coords y t))) in * by lra. rewrite Vw_same.
        destruct Q1 as [-> | ->]; [lra|].
        pose proof (bet_lower (tow (px (b1 (s_coords y t)))) (tow (px (b1 (s_coords y t)))) (tow_neq _) (tow_neq _)) as B.
        rewrite Vw_same in B. fold K in B. lra.
      + rewrite (Q2 L). pose proof (bet_lower (tow (px (b1 (s_coords y t)))) (tow (px (b2 (s_coords y t)))) (tow_neq _) (tow_neq _)) as B.
        unfold gnd_piece. fold W K in B. lra.
    - intros j b' y Y NF. rewrite (proj1 (row_cell j b' y Y) NF). lra.
    - intros y Y Eg. destruct (proj2 (row_cell nx (negb b) y Y) (conj eq_refl (conj Eg eq_refl))) as [Q1 Q2].
      destruct (row_neq y Y Eg) as [N1 N2]. pose proof (bet_lower _ _ N1 N2) as B. fold W K in B. unfold row_piece.
      destruct (NSl y (row_surf_all a nx (negb b) y Y)) as [Z0|L].
      + assert (EQ : b1 (s_coords y t) = b2 (s_coords y t)).
        { destruct Y as (row & Hr & Hy).
          destruct (surface_spans p n f a t V F HR nx row (negb b) y Hr Hy) as [lo [hi [E1 [E2 [_ [_ [LL Ec]]]]]]].
          assert (hi = lo) by lra. subst hi. destruct Ec as [-> | ->]; reflexivity. }
        rewrite EQ in *. rewrite Vw_same in *. destruct Q1 as [-> | ->]; lra.
      + rewrite (Q2 L). lra. }
  assert (SKY : Vw W sky_from (Rp i w) - K <= M (idx x) ns).
  { pose proof (proj2 sky_cell TD TH0) as E. fold ns in E. rewrite E. apply (bet_lower _ _ sky_from_neq top_neq). }
  assert (OPP : forall (A : Type) (g : A -> R) l, rsum (map (fun y => - g y) l) = - rsum (map g l)).
  { intros A g l. induction l as [|z l IH]; cbn [map rsum]; [ring | rewrite IH; ring]. }
  rewrite OPP, rsum_map_plus, surfaces_const in TOT. rewrite OPP in TOT.
  pose proof (pieces_exact W Nz CB FH) as PU. unfold pieces_total, row_total in PU.
  pose proof (swept_all fn (am_n m) nsec) as SA'. fold wsum W in SA'. rewrite S_INR.
  revert TOT PU. case edge; intros TOT PU; [|rewrite OPP in TOT]; lra.
Qed.
(** No cell of the row is negative, so the row adds up to at least the cell of a surface of
    the neighbour. *)
Lemma bet_nonneg : forall q1 q2, q1 <> c -> q2 <> c -> 0 <= bet q1 q2.
Proof.
  intros q1 q2 N1 N2. destruct (C39_wedge m af (TH q1) (TH q2) b AF) as (_ & H & _).
  apply H; [apply TH_range; assumption | apply TH_range; assumption | intros z Hz; apply (FB z Hz)].
Qed.
Lemma at_least : forall y, row_surf nx (negb b) y -> edge = false ->
  M (idx x) (idx y) <= rsum (map (fun y => M (idx x) (idx y)) (all_ts_surfaces a)).
Proof.
  intros y Y Eg.
  assert (ROW : forall y, row_surf nx (negb b) y -> 0 <= M (idx x) (idx y)).
  { intros z Zs. destruct (row_neq z Zs Eg) as [N1 N2].
    destruct (proj2 (row_cell nx (negb b) z Zs) (conj eq_refl (conj Eg eq_refl))) as [[-> | ->] _]; [lra | apply bet_nonneg; assumption]. }
  pose proof (visible_sum (fun y => - M (idx x) (idx y)) (fun _ => 0) (fun y => - M (idx x) (idx y))) as VS.
  rewrite Eg in VS.
  assert (HN : rsum (map (fun y => - M (idx x) (idx y)) (all_ts_surfaces a)) <=
     0 + rsum (map (fun y => - M (idx x) (idx y)) (side_surfaces (side_of (negb b) (fit_row p (fit_alpha p f) (fit_rotation p f) nx))))).
  { eapply Rle_trans; [apply VS|].
    - intros left' z Zs NE. rewrite (proj1 (gnd_cell left' z Zs) NE). lra.
    - intros z Zs. destruct (proj2 (gnd_cell left z Zs) eq_refl) as [[-> | ->] _]; [lra|].
      pose proof (bet_nonneg (tow (px (b1 (s_coords z t)))) (tow (px (b2 (s_coords z t)))) (tow_neq _) (tow_neq _)). lra.
    - intros j b' z Zs NF. rewrite (proj1 (row_cell j b' z Zs)); [lra|]. rewrite Eg. exact NF.
    - intros z Zs _. lra.
    - apply Rplus_le_compat_r. rewrite rsum_map_const. lra. }
  rewrite !rsum_map_opp in HN.
  destruct Y as (row & Hr & Hy). destruct (fit_rows_nth_error _ _ _ _ _ _ F Hr) as [Hn Er].
  assert (G : M (idx x) (idx y) <= rsum (map (fun y => M (idx x) (idx y)) (side_surfaces (side_of (negb b) (fit_row p (fit_alpha p f) (fit_rotation p f) nx))))).
  { rewrite <- Er. apply (rsum_map_member _ (fun y => M (idx x) (idx y)) _ y Hy). intros z Hz. apply ROW. exists row. split; assumption. }
  lra.
Qed.

(** With a single section, a wedge of any size counts as the whole half turn. *)
Lemma wedge_one : am_n m = 1%nat -> (forall z, 0 <= z <= 180 -> fn z = 1) -> forall q1 q2, q1 <> c -> q2 <> c ->
  DISTANCE_TOLERANCE <= Rabs (TH q1 - TH q2) -> bet q1 q2 = 1.
Proof.
  intros N1 FO q1 q2 A1 A2 L. unfold bet. rewrite (wedge_spec m af _ _ b AF). fold fn. rewrite N1.
  unfold aoi_seen_between, aoi_seen. pose proof (TH_range q1 A1). pose proof (TH_range q2 A2). pose proof DISTANCE_TOLERANCE_pos.
  assert (E : Rmax (TH q1) (TH q2) - Rmin (TH q1) (TH q2) = Rabs (TH q1 - TH q2)).
  { unfold Rmax, Rmin, Rabs. destruct (Rle_dec _ _), (Rcase_abs _); lra. }
  assert (0 <= Rmin (TH q1) (TH q2) <= 180) by (unfold Rmin; destruct (Rle_dec _ _); lra).
  destruct (Rlt_dec _ DISTANCE_TOLERANCE) as [L'|_]; [lra|]. cbn [sum_below]. unfold section_met, mid_angle, cut_angle. cbn [INR].
  destruct (Rle_dec _ _) as [_|B]; [|exfalso; apply B; lra]. destruct (Rlt_dec _ _) as [_|B]; [|exfalso; apply B; lra].
  rewrite FO by lra. unfold seen_between. replace (180 * 0 / 1 * PI / 180) with 0 by field. replace (180 * 1 / 1 * PI / 180) with PI by field.
  rewrite cos_0, cos_PI. field.
Qed.

Lemma near_norm : edge = false -> forall e, 0 < e < w -> c = Rp i e -> forall e', 0 <= e' <= w ->
  sqrt (wa (Rp nx e') * wa (Rp nx e') + wb (Rp nx e') * wb (Rp nx e')) <= D + w.
Proof.
  intros Eg e E Ec e' E'. destruct (next_coords Eg e Ec e') as [-> ->]. pose proof unit_frame as U. pose proof D0.
  rewrite <- (sqrt_square (D + w)) by lra. apply sqrt_le_1_alt.
  replace ((D * ux + (e' - e)) * (D * ux + (e' - e)) + D * uy * (D * uy)) with (D * D * (ux * ux + uy * uy) + 2 * (D * (ux * (e' - e))) + (e' - e) * (e' - e)) by ring.
  rewrite U. assert (B : -1 <= ux <= 1) by (split; nra).
  assert (A : ux * (e' - e) <= w) by (destruct (Rle_dec 0 (e' - e)); nra).
  assert (D * (ux * (e' - e)) <= D * w) by (apply Rmult_le_compat_l; lra).
  assert ((e' - e) * (e' - e) <= w * w) by nra. nra.
Qed.
Lemma next_apart : edge = false -> forall e, 0 < e < w -> c = Rp i e -> forall e1 e2, 0 <= e1 <= w -> 0 <= e2 <= w ->
  D * uy * Rabs (e1 - e2) <= (D + w) * (D + w) * (Rabs (TH (Rp nx e1) - TH (Rp nx e2)) * PI / 180).
Proof.
  intros Eg e E Ec e1 e2 E1 E2. pose proof D0. pose proof uy0.
  destruct (next_coords Eg e Ec e1) as [A1 B1]. destruct (next_coords Eg e Ec e2) as [A2 B2].
  assert (0 <= D * uy) by (apply Rmult_le_pos; lra).
  pose proof (TH_apart (Rp nx e1) (Rp nx e2) (next_neq Eg e1 E1) (next_neq Eg e2 E2) ltac:(rewrite B1; lra) ltac:(rewrite B2; lra)) as T.
  pose proof (near_norm Eg e E Ec e1 E1) as N1. pose proof (near_norm Eg e E Ec e2 E2) as N2.
  replace (wa (Rp nx e1) * wb (Rp nx e2) - wa (Rp nx e2) * wb (Rp nx e1)) with (D * uy * (e1 - e2)) in T by (rewrite A1, A2, B1, B2; ring).
  rewrite Rabs_mult, (Rabs_pos_eq (D * uy)) in T by lra. eapply Rle_trans; [exact T|].
  apply Rmult_le_compat_r.
  - pose proof (Rabs_pos (TH (Rp nx e1) - TH (Rp nx e2))). pose proof PI_RGT_0. nra.
  - apply Rmult_le_compat; try apply sqrt_pos; assumption.
Qed.
Lemma top_apart : edge = false -> D * uy <= (D + w) * (Rabs (TH (Rp nx w) - TH (Rp i w)) * PI / 180).
Proof.
  intro Eg. destruct c_inside as (e & E & Ec). pose proof D0. pose proof uy0.
  destruct (next_coords Eg e Ec w) as [A1 B1]. destruct (own_coords e Ec w) as [A2 B2].
  assert (0 <= D * uy) by (apply Rmult_le_pos; lra).
  pose proof (TH_apart (Rp nx w) (Rp i w) (next_neq Eg w ltac:(lra)) top_neq ltac:(rewrite B1; lra) ltac:(rewrite B2; lra)) as T.
  pose proof (near_norm Eg e E Ec w ltac:(lra)) as N1.
  set (s1 := sqrt (wa (Rp nx w) * wa (Rp nx w) + wb (Rp nx w) * wb (Rp nx w))) in *.
  rewrite B1, A2, B2 in T.
  replace ((w - e) * (w - e) + 0 * 0) with ((w - e) * (w - e)) in T by ring. rewrite sqrt_square in T by lra.
  replace (wa (Rp nx w) * 0 - (w - e) * (D * uy)) with (- ((w - e) * (D * uy))) in T by ring.
  rewrite Rabs_Ropp, Rabs_pos_eq in T by (apply Rmult_le_pos; lra).
  set (d := Rabs (TH (Rp nx w) - TH (Rp i w)) * PI / 180) in *.
  assert (d0 : 0 <= d) by (unfold d; pose proof (Rabs_pos (TH (Rp nx w) - TH (Rp i w))); pose proof PI_RGT_0; nra).
  assert (Q : D * uy <= s1 * d) by (apply (Rmult_le_reg_l (w - e)); lra).
  eapply Rle_trans; [exact Q|]. apply Rmult_le_compat_r; assumption.
Qed.

(** A surface of the neighbour and the sky, each counted as the whole half turn. *)
Lemma counted_twice : am_n m = 1%nat -> (forall z, 0 <= z <= 180 -> fn z = 1) -> edge = false ->
  DISTANCE_TOLERANCE <= D -> DISTANCE_TOLERANCE <= pa_height p ->
  forall y, row_surf nx (negb b) y -> DISTANCE_TOLERANCE < s_length y t ->
  DISTANCE_TOLERANCE * ((D + w) * (D + w)) * PI / 180 <= D * uy * s_length y t ->
  DISTANCE_TOLERANCE * (D + w) * PI / 180 <= D * uy ->
  2 <= rsum (map (fun y => M (idx x) (idx y)) (all_ts_surfaces a)) + M (idx x) ns.
Proof.
  intros N1 FO Eg TD TP y Y Ly S1 S2. pose proof D0. pose proof PI_RGT_0.
  destruct c_inside as (e & E & Ec). destruct (row_neq y Y Eg) as [Q1 Q2].
  pose proof (at_least y Y Eg) as A.
  rewrite (proj2 (proj2 (row_cell nx (negb b) y Y) (conj eq_refl (conj Eg eq_refl))) Ly) in A.
  rewrite (wedge_one N1 FO _ _ Q1 Q2) in A.
  - pose proof (proj2 sky_cell TD TP) as SK. unfold ns. rewrite SK. unfold sky_from. rewrite Eg.
    rewrite (wedge_one N1 FO _ _ (next_neq Eg w ltac:(lra)) top_neq); [lra|].
    pose proof (top_apart Eg) as T. apply (Rmult_le_reg_l ((D + w) * PI / 180)); [nra|]. lra.
  - destruct Y as (row & Hr & Hy).
    destruct (surface_spans p n f a t V F HR nx row (negb b) y Hr Hy) as [lo [hi [E1 [E2 [_ [_ [EL EC]]]]]]].
    fold w in E2. fold Rp in EC. rewrite EL in S1.
    apply (Rmult_le_reg_l ((D + w) * (D + w) * PI / 180)); [assert (0 < (D + w) * (D + w)) by nra; nra|].
    destruct EC as [-> | ->]; cbn [b1 b2].
    + pose proof (next_apart Eg e E Ec lo hi ltac:(lra) ltac:(lra)) as T. rewrite Rabs_left1 in T at 1 by lra. lra.
    + pose proof (next_apart Eg e E Ec hi lo ltac:(lra) ltac:(lra)) as T. rewrite (Rabs_pos_eq (hi - lo)) in T by lra. lra.
Qed.
End Whole.
