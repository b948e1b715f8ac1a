(** Lemmas on the sky part of the irradiance models: angles of incidence, Perez
    recursion, circumsolar and horizon band shading. *)
From Coq Require Import Reals List Bool Arith String Lra Lia FunctionalExtensionality.
From Verif Require Import Num ModelTs ModelGeom ModelVF Basics ProofAngles ModelParams SpecParams ModelIrr SpecIrr.
Import ListNotations.
Open Scope R_scope.

(* ------------------------------------------------------------------------ angles *)

Lemma cosd_minus : forall x y, cosd (x - y) = cosd x * cosd y + sind x * sind y.
Proof. intros. unfold cosd, sind. rewrite deg2rad_minus. apply cos_minus. Qed.
Lemma sind_turn : forall x k, sind (x + 360 * IZR k) = sind x.
Proof.
  intros. unfold sind. rewrite <- !cos_shift.
  replace (PI / 2 - deg2rad (x + 360 * IZR k)) with (PI / 2 - deg2rad x + 2 * IZR (- k) * PI).
  - apply cos_turn.
  - rewrite opp_IZR. unfold deg2rad. field.
Qed.

Lemma aoi_projection_dot : forall tilt az z saz,
  aoi_projection tilt az z saz = sun_cosine tilt az z saz.
Proof.
  intros. unfold aoi_projection, sun_cosine, dot3, surface_normal, sun_direction.
  rewrite cosd_minus. ring.
Qed.

Lemma sun_cosine_bound : forall tilt az z saz, -1 <= sun_cosine tilt az z saz <= 1.
Proof.
  intros. rewrite <- aoi_projection_dot. unfold aoi_projection.
  pose proof (sc_1 tilt) as A. pose proof (sc_1 z) as B. pose proof (cosd_bound (saz - az)) as C.
  set (c := cosd (saz - az)) in *. set (ct := cosd tilt) in *. set (st := sind tilt) in *.
  set (cz := cosd z) in *. set (sz := sind z) in *. clearbody c ct st cz sz.
  assert (K : Rabs (st * sz * c) <= Rabs (st * sz)).
  { rewrite Rabs_mult. rewrite <- (Rmult_1_r (Rabs (st * sz))) at 2.
    apply Rmult_le_compat_l; [apply Rabs_pos|]. apply Rabs_le. lra. }
  assert (L : Rabs (ct * cz) + Rabs (st * sz) <= 1).
  { rewrite !Rabs_mult.
    assert (E1 : Rabs st * Rabs st + Rabs ct * Rabs ct = 1).
    { rewrite <- !Rabs_mult. rewrite !Rabs_right; nra. }
    assert (E2 : Rabs sz * Rabs sz + Rabs cz * Rabs cz = 1).
    { rewrite <- !Rabs_mult. rewrite !Rabs_right; nra. }
    pose proof (Rle_0_sqr (Rabs ct - Rabs cz)) as Q1. pose proof (Rle_0_sqr (Rabs st - Rabs sz)) as Q2.
    unfold Rsqr in Q1, Q2. lra. }
  pose proof (Rle_abs (ct * cz)) as Q1. pose proof (Rle_abs (- (ct * cz))) as Q2.
  rewrite Rabs_Ropp in Q2.
  pose proof (Rle_abs (st * sz * c)) as Q3. pose proof (Rle_abs (- (st * sz * c))) as Q4.
  rewrite Rabs_Ropp in Q4. lra.
Qed.

Lemma cosd_aoi : forall tilt az z saz,
  cosd (aoi_function tilt az z saz) = sun_cosine tilt az z saz.
Proof.
  intros. unfold cosd, aoi_function. rewrite deg2rad_rad2deg, cos_acos.
  - apply aoi_projection_dot.
  - rewrite aoi_projection_dot. apply sun_cosine_bound.
Qed.

Lemma aoi_range : forall tilt az z saz, 0 <= aoi_function tilt az z saz <= 180.
Proof.
  intros. unfold aoi_function, rad2deg. pose proof (acos_bound (aoi_projection tilt az z saz)) as B.
  pose proof PI_RGT_0. split.
  - unfold Rdiv. apply Rmult_le_pos; [nra | left; apply Rinv_0_lt_compat; lra].
  - apply (Rmult_le_reg_r PI); [lra|]. unfold Rdiv. rewrite Rmult_assoc, Rinv_l by lra. nra.
Qed.

Lemma cosd_back : forall x, cosd (180 - x) = - cosd x.
Proof.
  intros. replace (180 - x) with (- x + 180) by ring. rewrite cosd_180, cosd_opp. reflexivity.
Qed.
Lemma sind_back : forall x, sind (180 - x) = sind x.
Proof.
  intros. replace (180 - x) with (- x + 180) by ring. rewrite sind_180, sind_opp. ring.
Qed.

Lemma cosd_nonneg_iff : forall x, 0 <= x <= 180 -> (x <= 90 <-> 0 <= cosd x).
Proof.
  intros x H. split; intro K.
  - unfold cosd. apply cos_ge_0; unfold deg2rad; pose proof PI_RGT_0; nra.
  - destruct (Rle_dec x 90) as [|N]; [assumption|]. exfalso.
    assert (C : 0 < cosd (180 - x)) by (apply cosd_pos; lra). rewrite cosd_back in C. lra.
Qed.

Lemma front_is_illum_spec : forall i t,
  front_is_illum i t = Rleb 0 (sun_cosine (ii_tilt i t) (ii_azimuth i t) (ii_zenith i t) (ii_solar_azimuth i t)).
Proof.
  intros i t. unfold front_is_illum, aoi_front. rewrite <- cosd_aoi.
  pose proof (cosd_nonneg_iff _ (aoi_range (ii_tilt i t) (ii_azimuth i t) (ii_zenith i t) (ii_solar_azimuth i t))) as H.
  unfold Rleb. destruct (Rle_dec _ 90), (Rle_dec 0 _); try reflexivity; tauto.
Qed.

Lemma direct_front : forall m i t,
  bc_front_illum (fit_direct m i) t =
  ii_dni i t * Rmax 0 (sun_cosine (ii_tilt i t) (ii_azimuth i t) (ii_zenith i t) (ii_solar_azimuth i t)).
Proof.
  intros m i t. cbn [fit_direct bc_front_illum]. unfold np_where. rewrite front_is_illum_spec.
  unfold aoi_front. rewrite cosd_aoi. unfold Rleb, Rmax. destruct (Rle_dec 0 _); lra.
Qed.
Lemma direct_back : forall m i t,
  bc_back_illum (fit_direct m i) t =
  ii_dni i t * Rmax 0 (- sun_cosine (ii_tilt i t) (ii_azimuth i t) (ii_zenith i t) (ii_solar_azimuth i t)).
Proof.
  intros m i t. cbn [fit_direct bc_back_illum]. unfold np_where. rewrite front_is_illum_spec.
  unfold aoi_back, aoi_front. rewrite cosd_back, cosd_aoi. unfold Rleb, Rmax.
  destruct (Rle_dec 0 (sun_cosine _ _ _ _)) as [A|A]; cbn [negb]; destruct (Rle_dec 0 (- _)) as [B|B]; try lra.
  assert (sun_cosine (ii_tilt i t) (ii_azimuth i t) (ii_zenith i t) (ii_solar_azimuth i t) = 0) by lra. nra.
Qed.

(* ------------------------------------------------------------------------ Perez *)

Lemma mod_turn : forall x, exists k, py_mod x 360 = x + 360 * IZR k.
Proof. intro x. destruct (py_mod_decomp x 360) as [k E]. exists (- k)%Z. rewrite opp_IZR. lra. Qed.

Lemma flip_normal : forall r, surface_normal (pr_tilt (flip_row r)) (pr_azimuth (flip_row r))
  = opp3 (surface_normal (pr_tilt r) (pr_azimuth r)).
Proof.
  intro r. cbn [flip_row pr_tilt pr_azimuth]. destruct (mod_turn (pr_azimuth r - 180)) as [k ->].
  unfold surface_normal, opp3. rewrite cosd_turn, sind_turn, sind_back, cosd_back.
  replace (pr_azimuth r - 180) with (- (180 - pr_azimuth r)) by ring.
  rewrite cosd_opp, sind_opp, sind_back, cosd_back. repeat f_equal; ring.
Qed.

Lemma dot3_opp : forall u v, dot3 (opp3 u) v = - dot3 u v.
Proof. intros [[a b] c] [[x y] z]. cbn. ring. Qed.

Lemma flip_not_back : forall r, sun_hits_back r = true -> sun_hits_back (flip_row r) = false.
Proof.
  intros r H. unfold sun_hits_back in *. rewrite aoi_projection_dot in *.
  apply andb_true_iff in H. destruct H as [H _]. apply andb_false_iff. left.
  unfold sun_cosine in *. rewrite flip_normal, dot3_opp.
  change (pr_zenith (flip_row r)) with (pr_zenith r).
  change (pr_solar_azimuth (flip_row r)) with (pr_solar_azimuth r).
  unfold Rltb in *. destruct (Rlt_dec _ 0) in H; [|discriminate H].
  destruct (Rlt_dec _ 0); [lra | reflexivity].
Qed.

Lemma flip_filter : forall l, filter sun_hits_back (map flip_row (filter sun_hits_back l)) = [].
Proof.
  induction l as [|r l IH]; [reflexivity|]. cbn. destruct (sun_hits_back r) eqn:E; [|exact IH].
  cbn. rewrite (flip_not_back r E). exact IH.
Qed.

(** What the function returns for one row. *)
Definition perez_value (P : pvlib) (r : perez_row) : perez_out :=
  let o := perez_one P r in
  PerezOut (po_luminance_horizon o)
    (po_luminance_circumsolar (perez_one P (if sun_hits_back r then flip_row r else r)))
    (po_luminance_isotropic o) (po_poa_horizon o) (po_poa_circumsolar o).

Lemma perez_value_front : forall P r, sun_hits_back r = false -> perez_value P r = perez_one P r.
Proof. intros P r H. unfold perez_value. rewrite H. destruct (perez_one P r). reflexivity. Qed.

Lemma adjust_back_value : forall P l,
  adjust_back l (map (perez_one P) l) (map (perez_one P) (map flip_row (filter sun_hits_back l)))
  = map (perez_value P) l.
Proof.
  intros P. induction l as [|r l IH]; [reflexivity|]. cbn [map filter adjust_back].
  destruct (sun_hits_back r) eqn:E.
  - cbn [map]. rewrite IH. f_equal. unfold perez_value. rewrite E. reflexivity.
  - rewrite IH, perez_value_front by exact E. reflexivity.
Qed.

Lemma perez_two : forall P n rows, perez_diffuse_luminance P (S (S n)) rows = Some (map (perez_value P) rows).
Proof.
  intros P n rows. change (perez_diffuse_luminance P (S (S n)) rows) with
    (match map flip_row (filter sun_hits_back rows) with
      | [] => Some (map (perez_one P) rows)
      | _ :: _ =>
          match perez_diffuse_luminance P (S n) (map flip_row (filter sun_hits_back rows)) with
          | None => None
          | Some backs => Some (adjust_back rows (map (perez_one P) rows) backs)
          end
      end).
  destruct (map flip_row (filter sun_hits_back rows)) as [|b l] eqn:E.
  - f_equal. apply map_ext_in. intros r I. rewrite perez_value_front; [reflexivity|].
    destruct (sun_hits_back r) eqn:H; [|reflexivity].
    assert (K : In r (filter sun_hits_back rows)) by (apply filter_In; tauto).
    apply (in_map flip_row) in K. rewrite E in K. contradiction.
  - rewrite <- E. cbn [perez_diffuse_luminance]. rewrite flip_filter. cbn [map].
    rewrite adjust_back_value. reflexivity.
Qed.

Lemma perez_one_level : forall P rows,
  (forall r, In r rows -> sun_hits_back r = false) <-> perez_diffuse_luminance P 1 rows <> None.
Proof.
  intros P rows. cbn [perez_diffuse_luminance]. split.
  - intro H. replace (filter sun_hits_back rows) with (@nil perez_row); [discriminate|].
    induction rows as [|r l IH]; [reflexivity|]. cbn. rewrite (H r (or_introl eq_refl)).
    apply IH. intros x I. apply H. right. exact I.
  - intros H r I. destruct (sun_hits_back r) eqn:E; [|reflexivity].
    exfalso. apply H. destruct (map flip_row (filter sun_hits_back rows)) eqn:M; [|reflexivity].
    assert (K : In r (filter sun_hits_back rows)) by (apply filter_In; tauto).
    apply (in_map flip_row) in K. rewrite M in K. contradiction.
Qed.

Lemma irr_fit_total : forall P m i rf rb, im_rho_front m = Some rf -> im_rho_back m = Some rb ->
  exists f, irr_fit P m i = Ok f.
Proof.
  intros P m i rf rb F B. unfold irr_fit, fit_isotropic, fit_hybrid. rewrite perez_two, F, B.
  destruct (im_kind m), (im_faoi_front m), (im_faoi_back m); cbn; eexists; reflexivity.
Qed.

(* ------------------------------------------------------------- circumsolar shading *)

(** Area of the part of the unit disk at the right of abscissa [x]. *)
Definition cap (x : R) : R := acos x - x * sqrt (1 - x ^ 2).

Lemma acos_decr : forall x y, -1 <= x -> x < y -> y <= 1 -> acos y < acos x.
Proof.
  intros x y A B C. destruct (Rlt_dec (acos y) (acos x)) as [|N]; [assumption|]. exfalso.
  pose proof (acos_bound x). pose proof (acos_bound y).
  assert (K : cos (acos y) <= cos (acos x)) by (apply cos_decr_1; lra).
  rewrite !cos_acos in K; lra.
Qed.

Lemma cap_angle : forall x, -1 <= x <= 1 -> cap x = acos x - sin (acos x) * cos (acos x).
Proof.
  intros x H. unfold cap. rewrite sin_acos, cos_acos by exact H. unfold Rsqr.
  replace (x ^ 2) with (x * x) by ring. ring.
Qed.

Lemma cap_lip : forall x y, -1 <= x -> x <= y -> y <= 1 -> 0 <= cap x - cap y <= 2 * (y - x).
Proof.
  intros x y A B C. destruct B as [B | ->]; [|split; lra].
  pose proof (acos_decr x y A B C) as D. rewrite !cap_angle by lra.
  pose proof (acos_bound x) as Bx. pose proof (acos_bound y) as By.
  assert (Ex : x = cos (acos x)) by (symmetry; apply cos_acos; lra).
  assert (Ey : y = cos (acos y)) by (symmetry; apply cos_acos; lra).
  revert Ex Ey D Bx By. generalize (acos x) as u. generalize (acos y) as v. intros v u -> -> D Bu Bv.
  split.
  - destruct (MVT_cor2 (fun t => t - sin t * cos t) (fun t => 2 * (sin t * sin t)) v u D) as (c & E & I).
    { intros c _. replace (2 * (sin c * sin c)) with (1 - (cos c * cos c + sin c * - sin c)).
      - apply (derivable_pt_lim_minus id (fun t => sin t * cos t) c 1);
          [apply derivable_pt_lim_id|].
        apply (derivable_pt_lim_mult sin cos); [apply derivable_pt_lim_sin | apply derivable_pt_lim_cos].
      - pose proof (sin2_cos2 c) as Q. unfold Rsqr in Q. nra. }
    cbn beta in E. rewrite E. apply Rmult_le_pos; [nra | lra].
  - destruct (MVT_cor2 (fun t => t - sin t * cos t + 2 * cos t) (fun t => 2 * (sin t * sin t) - 2 * sin t) v u D) as (c & E & I).
    { intros c _. replace (2 * (sin c * sin c) - 2 * sin c) with
        ((1 - (cos c * cos c + sin c * - sin c)) + (2 * - sin c)).
      - apply (derivable_pt_lim_plus (fun t => t - sin t * cos t) (fun t => 2 * cos t)).
        + apply (derivable_pt_lim_minus id (fun t => sin t * cos t) c 1);
            [apply derivable_pt_lim_id|].
          apply (derivable_pt_lim_mult sin cos); [apply derivable_pt_lim_sin | apply derivable_pt_lim_cos].
        + apply (derivable_pt_lim_scal cos). apply derivable_pt_lim_cos.
      - pose proof (sin2_cos2 c) as Q. unfold Rsqr in Q. nra. }
    assert (S0 : 0 <= sin c) by (apply sin_ge_0; lra). pose proof (SIN_bound c) as S1.
    cbn beta in E. assert (2 * (sin c * sin c) - 2 * sin c <= 0) by nra.
    assert ((2 * (sin c * sin c) - 2 * sin c) * (u - v) <= 0) by nra. lra.
Qed.

Lemma cap_1 : cap 1 = 0.
Proof. unfold cap. rewrite acos_1. replace (1 - 1 ^ 2) with 0 by ring. rewrite sqrt_0. ring. Qed.
Lemma acos_m1 : acos (-1) = PI.
Proof. replace (-1) with (- (1)) by ring. rewrite acos_opp, acos_1. ring. Qed.
Lemma cap_m1 : cap (-1) = PI.
Proof.
  unfold cap. rewrite acos_m1. replace (1 - (-1) ^ 2) with 0 by ring. rewrite sqrt_0. ring.
Qed.
Lemma cap_opp : forall x, cap (- x) = PI - cap x.
Proof.
  intro x. unfold cap. rewrite acos_opp. replace ((- x) ^ 2) with (x ^ 2) by ring. ring.
Qed.

Lemma disk_low : forall p, p <= 0 -> uniform_disk_shading p = 0.
Proof.
  intros p H. unfold uniform_disk_shading, RADIUS_CIRCUMSOLAR, Rleb.
  destruct (Rle_dec _ 0) as [|N]; [reflexivity | exfalso; apply N; lra].
Qed.
Lemma disk_high : forall p, 100 <= p -> uniform_disk_shading p = 100.
Proof.
  intros p H. unfold uniform_disk_shading, RADIUS_CIRCUMSOLAR, Rleb, Rltb.
  destruct (Rle_dec (p / 100 * (2 * 1)) 0); [exfalso; lra|].
  destruct (Rle_dec (p / 100 * (2 * 1)) 1); [exfalso; lra|]. rewrite andb_false_r.
  destruct (Rlt_dec (p / 100 * (2 * 1)) (2 * 1)); [exfalso; lra|]. rewrite andb_false_r. reflexivity.
Qed.

Lemma disk_sector : forall c, 0 <= c <= 2 ->
  (1 / 2 * 1 ^ 2 * (2 * acos ((1 - c) / 1)) - 1 / 2 * 1 ^ 2 * sin (2 * acos ((1 - c) / 1))) = cap (1 - c).
Proof.
  intros c H. replace ((1 - c) / 1) with (1 - c) by field. rewrite sin_2a, cap_angle by lra. field.
Qed.

Lemma disk_cap : forall p, 0 <= p <= 100 -> uniform_disk_shading p = 100 / PI * cap (1 - p / 50).
Proof.
  intros p H. pose proof PI_RGT_0 as PP.
  destruct (Req_dec p 0) as [-> | N0].
  { rewrite disk_low by lra. replace (1 - 0 / 50) with 1 by field. rewrite cap_1. ring. }
  destruct (Req_dec p 100) as [-> | N1].
  { rewrite disk_high by lra. replace (1 - 100 / 50) with (-1) by field. rewrite cap_m1. field. lra. }
  unfold uniform_disk_shading, RADIUS_CIRCUMSOLAR, Rleb, Rltb.
  destruct (Rle_dec (p / 100 * (2 * 1)) 0); [exfalso; lra|].
  destruct (Rlt_dec 0 (p / 100 * (2 * 1))); [|exfalso; lra].
  destruct (Rle_dec (p / 100 * (2 * 1)) 1); cbn [andb].
  - rewrite disk_sector by lra. replace (1 - p / 100 * (2 * 1)) with (1 - p / 50) by field. field. lra.
  - destruct (Rlt_dec 1 (p / 100 * (2 * 1))); [|exfalso; lra].
    destruct (Rlt_dec (p / 100 * (2 * 1)) (2 * 1)); [|exfalso; lra]. cbn [andb].
    rewrite disk_sector by lra.
    replace (1 - (2 * 1 - p / 100 * (2 * 1))) with (- (1 - p / 50)) by field.
    rewrite cap_opp. field. lra.
Qed.

Lemma disk_lip : forall p q, p <= q ->
  0 <= uniform_disk_shading q - uniform_disk_shading p <= 4 / PI * (q - p).
Proof.
  intros p q H. pose proof PI_RGT_0 as PP.
  assert (IP : 0 < / PI) by (apply Rinv_0_lt_compat; lra).
  assert (K : forall a b, 0 <= a -> a <= b -> b <= 100 ->
     0 <= uniform_disk_shading b - uniform_disk_shading a <= 4 / PI * (b - a)).
  { intros a b A B C. rewrite !disk_cap by lra.
    pose proof (cap_lip (1 - b / 50) (1 - a / 50) ltac:(lra) ltac:(lra) ltac:(lra)) as L.
    replace (100 / PI * cap (1 - b / 50) - 100 / PI * cap (1 - a / 50))
      with (100 * (/ PI * (cap (1 - b / 50) - cap (1 - a / 50)))) by (field; lra).
    replace (4 / PI * (b - a)) with (100 * (/ PI * (2 * (1 - a / 50 - (1 - b / 50))))) by (field; lra).
    split; [nra|]. apply Rmult_le_compat_l; [lra|]. apply Rmult_le_compat_l; lra. }
  assert (Q : 0 <= 4 / PI) by (unfold Rdiv; nra).
  pose proof (K 0 100 ltac:(lra) ltac:(lra) ltac:(lra)) as K01.
  rewrite (disk_low 0) in * by lra. rewrite (disk_high 100) in * by lra.
  destruct (Rle_dec q 0) as [Q0|Q0].
  { rewrite !disk_low by lra. split; [lra|]. assert (0 <= 4 / PI * (q - p)) by nra. lra. }
  destruct (Rle_dec 100 p) as [P1|P1].
  { rewrite !disk_high by lra. split; [lra|]. assert (0 <= 4 / PI * (q - p)) by nra. lra. }
  destruct (Rle_dec p 0) as [P0|P0].
  - rewrite (disk_low p) by lra. destruct (Rle_dec 100 q) as [Q1|Q1].
    + rewrite (disk_high q) by lra. assert (4 / PI * (100 - 0) <= 4 / PI * (q - p)) by (apply Rmult_le_compat_l; lra). lra.
    + pose proof (K 0 q ltac:(lra) ltac:(lra) ltac:(lra)) as K1. rewrite (disk_low 0) in K1 by lra.
      assert (4 / PI * (q - 0) <= 4 / PI * (q - p)) by (apply Rmult_le_compat_l; lra). lra.
  - destruct (Rle_dec 100 q) as [Q1|Q1].
    + rewrite (disk_high q) by lra.
      pose proof (K p 100 ltac:(lra) ltac:(lra) ltac:(lra)) as K1. rewrite (disk_high 100) in K1 by lra.
      assert (4 / PI * (100 - p) <= 4 / PI * (q - p)) by (apply Rmult_le_compat_l; lra). lra.
    + apply K; lra.
Qed.

Lemma disk_complement : forall p, uniform_disk_shading p + uniform_disk_shading (100 - p) = 100.
Proof.
  intro p. pose proof PI_RGT_0 as PP.
  destruct (Rle_dec p 0); [rewrite disk_low, disk_high by lra; ring|].
  destruct (Rle_dec 100 p); [rewrite disk_high, disk_low by lra; ring|].
  rewrite !disk_cap by lra. replace (1 - (100 - p) / 50) with (- (1 - p / 50)) by field.
  rewrite cap_opp. field. lra.
Qed.

Lemma derivable_ext : forall f g x l d, 0 < d -> (forall y, Rabs (y - x) < d -> f y = g y) ->
  derivable_pt_lim f x l -> derivable_pt_lim g x l.
Proof.
  intros f g x l d D E H eps P. destruct (H eps P) as [del K].
  assert (M : 0 < Rmin d del) by (apply Rmin_pos; [exact D | apply cond_pos]).
  exists (mkposreal _ M). intros h N L. cbn in L.
  pose proof (Rmin_l d del). pose proof (Rmin_r d del).
  rewrite <- !E.
  - apply K; [exact N | lra].
  - rewrite Rminus_diag_eq by reflexivity. rewrite Rabs_R0. exact D.
  - replace (x + h - x) with h by ring. lra.
Qed.

Lemma cap_deriv : forall x, -1 < x < 1 -> derivable_pt_lim cap x (- 2 * sqrt (1 - x ^ 2)).
Proof.
  intros x H. unfold cap.
  assert (S : 0 < 1 - x ^ 2) by nra. assert (SS : 0 < sqrt (1 - x ^ 2)) by (apply sqrt_lt_R0; exact S).
  replace (- 2 * sqrt (1 - x ^ 2)) with
    (- 1 / sqrt (1 - x²) - (1 * sqrt (1 - x ^ 2) + x * (/ (2 * sqrt (1 - x ^ 2)) * (0 - 2 * x ^ 1)))).
  - apply (derivable_pt_lim_minus acos (fun y => y * sqrt (1 - y ^ 2))).
    + pose proof (derive_pt_acos x H) as D. apply derive_pt_eq in D. exact D.
    + apply (derivable_pt_lim_mult id (fun y => sqrt (1 - y ^ 2))); [apply derivable_pt_lim_id|].
      apply (derivable_pt_lim_comp (fun y => 1 - y ^ 2) sqrt).
      * apply (derivable_pt_lim_minus (fun _ => 1) (fun y => y ^ 2)); [apply derivable_pt_lim_const|].
        apply (derivable_pt_lim_pow x 2).
      * apply derivable_pt_lim_sqrt. exact S.
  - unfold Rsqr. replace (x * x) with (x ^ 2) by ring.
    assert (Q : sqrt (1 - x ^ 2) * sqrt (1 - x ^ 2) = 1 - x ^ 2) by (apply sqrt_sqrt; lra).
    revert SS Q. generalize (sqrt (1 - x ^ 2)) as r. intros r SS Q.
    apply (Rmult_eq_reg_r r); [|lra].
    replace ((-1 / r - (1 * r + x * (/ (2 * r) * (0 - 2 * x ^ 1)))) * r)
      with (-1 - r * r + x ^ 2) by (field; lra). rewrite Q. lra.
Qed.

Lemma disk_deriv : forall p, 0 < p < 100 ->
  derivable_pt_lim uniform_disk_shading p (4 / PI * sqrt (1 - (1 - p / 50) ^ 2)).
Proof.
  intros p H. pose proof PI_RGT_0 as PP.
  apply (derivable_ext (fun p => 100 / PI * cap (1 - p / 50)) _ _ _ (Rmin p (100 - p))).
  - apply Rmin_pos; lra.
  - intros y L. symmetry. apply disk_cap.
    pose proof (Rmin_l p (100 - p)). pose proof (Rmin_r p (100 - p)).
    apply Rabs_def2 in L. lra.
  - replace (4 / PI * sqrt (1 - (1 - p / 50) ^ 2)) with
      (100 / PI * (- 2 * sqrt (1 - (1 - p / 50) ^ 2) * (0 - / 50 * 1))) by (field; lra).
    apply (derivable_pt_lim_scal (fun p => cap (1 - p / 50))).
    apply (derivable_pt_lim_comp (fun p => 1 - p / 50) cap).
    + apply (derivable_pt_lim_minus (fun _ => 1) (fun p => p / 50)); [apply derivable_pt_lim_const|].
      apply (derivable_ext (fun p => / 50 * p) _ _ _ 1); [lra | intros; unfold Rdiv; ring |].
      apply (derivable_pt_lim_scal id). apply derivable_pt_lim_id.
    + apply cap_deriv. lra.
Qed.

(* ---------------------------------------------------------------- gaussian shading *)

Section Gauss.
  Variable erf : R -> R.
  Hypothesis odd : forall x, erf (- x) = - erf x.
  Hypothesis incr : forall x y, x < y -> erf x < erf y.

  Let s3 := N_SIGMA * SIGMA.
  Lemma s3_pos : 0 < s3.
  Proof.
    unfold s3, N_SIGMA, SIGMA. assert (0 < sqrt 2) by (apply sqrt_lt_R0; lra).
    unfold Rdiv. rewrite Rmult_1_l. assert (0 < / sqrt 2) by (apply Rinv_0_lt_compat; lra). lra.
  Qed.
  Lemma gauss_mid : forall p, 0 <= p <= 100 ->
    gaussian_shading erf p = 50 * (erf (s3 * (p / 50 - 1)) + erf s3) / erf s3.
  Proof.
    intros p H. unfold gaussian_shading, Rltb.
    destruct (Rlt_dec p 0); [exfalso; lra|]. destruct (Rlt_dec 100 p); [exfalso; lra|].
    unfold integral_default_gaussian, GAUSSIAN_DIAMETER_CIRCUMSOLAR.
    replace (- N_SIGMA * SIGMA) with (- s3) by (unfold s3; ring). fold s3.
    replace (- s3 + p / 100 * (2 * N_SIGMA * SIGMA)) with (s3 * (p / 50 - 1)) by (unfold s3; field).
    rewrite odd. assert (0 < erf s3).
    { pose proof s3_pos as S. pose proof (incr (- s3) s3 ltac:(lra)) as I. rewrite odd in I. lra. }
    field. lra.
  Qed.
  Lemma gauss_den : 0 < erf s3.
  Proof.
    pose proof s3_pos as S. pose proof (incr (- s3) s3 ltac:(lra)) as I. rewrite odd in I. lra.
  Qed.
  Lemma gauss_low : forall p, p <= 0 -> gaussian_shading erf p = 0.
  Proof.
    intros p H. destruct (Req_dec p 0) as [-> | N].
    - rewrite gauss_mid by lra. replace (s3 * (0 / 50 - 1)) with (- s3) by field. rewrite odd.
      pose proof gauss_den. field. lra.
    - unfold gaussian_shading, Rltb. destruct (Rlt_dec p 0); [reflexivity | exfalso; lra].
  Qed.
  Lemma gauss_high : forall p, 100 <= p -> gaussian_shading erf p = 100.
  Proof.
    intros p H. destruct (Req_dec p 100) as [-> | N].
    - rewrite gauss_mid by lra. replace (s3 * (100 / 50 - 1)) with s3 by field.
      pose proof gauss_den. field. lra.
    - unfold gaussian_shading, Rltb. destruct (Rlt_dec p 0); [exfalso; lra|].
      destruct (Rlt_dec 100 p); [reflexivity | exfalso; lra].
  Qed.
  Lemma erf_0 : erf 0 = 0.
  Proof. pose proof (odd 0) as H. rewrite Ropp_0 in H. lra. Qed.
  Lemma gauss_half : gaussian_shading erf 50 = 50.
  Proof.
    rewrite gauss_mid by lra. replace (s3 * (50 / 50 - 1)) with 0 by field. rewrite erf_0.
    pose proof gauss_den. field. lra.
  Qed.
  Lemma gauss_strict : forall p q, 0 <= p -> p < q -> q <= 100 ->
    gaussian_shading erf p < gaussian_shading erf q.
  Proof.
    intros p q A B C. rewrite !gauss_mid by lra. pose proof gauss_den as D. pose proof s3_pos as S.
    assert (I : erf (s3 * (p / 50 - 1)) < erf (s3 * (q / 50 - 1))) by (apply incr; nra).
    unfold Rdiv. apply Rmult_lt_compat_r; [apply Rinv_0_lt_compat; lra | lra].
  Qed.
  Lemma gauss_mono : forall p q, p <= q -> gaussian_shading erf p <= gaussian_shading erf q.
  Proof.
    intros p q H.
    assert (R : forall p, 0 <= p <= 100 -> 0 <= gaussian_shading erf p <= 100).
    { intros r B. split.
      - destruct (Req_dec r 0) as [-> | N]; [rewrite gauss_low; lra|].
        rewrite <- (gauss_low 0) by lra. left. apply gauss_strict; lra.
      - destruct (Req_dec r 100) as [-> | N]; [rewrite gauss_high; lra|].
        rewrite <- (gauss_high 100) by lra. left. apply gauss_strict; lra. }
    destruct (Rle_dec q 0); [rewrite !gauss_low by lra; lra|].
    destruct (Rle_dec 100 p); [rewrite !gauss_high by lra; lra|].
    destruct (Rle_dec p 0).
    - rewrite (gauss_low p) by lra. destruct (Rle_dec 100 q); [rewrite gauss_high by lra; lra|]. apply R; lra.
    - destruct (Rle_dec 100 q); [rewrite (gauss_high q) by lra; apply R; lra|].
      destruct (Req_dec p q) as [-> | N]; [lra|]. left. apply gauss_strict; lra.
  Qed.
  Lemma gauss_complement : forall p, gaussian_shading erf p + gaussian_shading erf (100 - p) = 100.
  Proof.
    intro p. destruct (Rle_dec p 0); [rewrite gauss_low, gauss_high by lra; ring|].
    destruct (Rle_dec 100 p); [rewrite gauss_high, gauss_low by lra; ring|].
    rewrite !gauss_mid by lra. replace (s3 * ((100 - p) / 50 - 1)) with (- (s3 * (p / 50 - 1))) by field.
    rewrite odd. pose proof gauss_den. field. lra.
  Qed.
End Gauss.

(* ------------------------------------------------------------------- horizon band *)

Lemma band_spec : forall x b, 0 < b ->
  horizon_band_shading x b = Rmax 0 (Rmin 100 (100 * x / b)).
Proof.
  intros x b B. unfold horizon_band_shading, np_where, Rleb, Rltb.
  assert (I : 0 < / b) by (apply Rinv_0_lt_compat; exact B).
  assert (E : b * / b = 1) by (apply Rinv_r; lra).
  assert (Q : 100 * x / b = 100 * (x * / b)) by (unfold Rdiv; ring).
  destruct (Rle_dec b x) as [H|H].
  - destruct (Rle_dec 0 x); destruct (Rlt_dec x b); try (exfalso; lra); cbn.
    + assert (1 <= x * / b) by (rewrite <- E; apply Rmult_le_compat_r; lra).
      rewrite Rmin_left by lra. rewrite Rmax_right; lra.
  - destruct (Rle_dec 0 x) as [P|P]; destruct (Rlt_dec x b); try (exfalso; lra); cbn.
    + assert (x * / b <= 1) by (rewrite <- E; apply Rmult_le_compat_r; lra).
      assert (0 <= x * / b) by nra.
      rewrite Rmin_right by lra. rewrite Rmax_right; lra.
    + assert (x * / b <= 0) by nra. rewrite Rmin_right by lra. rewrite Rmax_left; lra.
Qed.
