(** Elevation of the neighbours seen from the surfaces of a row. *)
From Coq Require Import Reals List Bool Arith String Lra Lia.
From Verif Require Import Num ModelTs ModelGeom ModelVF Basics SpecGeom ProofAngles ProofShade ProofRow ProofFit ProofGeom ProofGeom2 ModelParams SpecParams ModelIrr SpecIrr ProofSky ProofIrr.
Import ListNotations.
Open Scope R_scope.

Lemma elevation_unique : forall p q e, seen_at_elevation p q e -> py p <= py q -> elevation_angle p q = e.
Proof.
  intros p q e (E & N & H) Y. unfold elevation_angle.
  pose proof PI_RGT_0 as PP.
  assert (DR : 0 <= deg2rad e <= PI / 2) by (unfold deg2rad; split; nra).
  assert (S0 : 0 <= sind e) by (unfold sind; apply sin_ge_0; lra).
  assert (C0 : 0 <= cosd e) by (unfold cosd; apply cos_ge_0; lra).
  pose proof (sc_1 e) as SC.
  destruct (Req_EM_T (px q - px p) 0) as [X|X].
  - rewrite X, Rabs_R0 in H. assert (D : py q - py p <> 0).
    { intro D. apply N. destruct p, q. cbn in *. f_equal; lra. }
    assert (C : cosd e = 0) by nra.
    destruct (Req_dec e 90) as [->|NE]; [reflexivity|]. exfalso.
    assert (0 < cosd e) by (apply cosd_pos; lra). lra.
  - assert (AX : 0 < Rabs (px q - px p)) by (apply Rabs_pos_lt; exact X).
    assert (C : 0 < cosd e).
    { destruct C0 as [C0|C0]; [exact C0|]. exfalso. rewrite <- C0 in *. nra. }
    assert (E90 : e < 90).
    { destruct (Rlt_dec e 90); [assumption|]. exfalso. replace e with 90 in C by lra.
      unfold cosd in C. rewrite deg2rad_90, cos_PI2 in C. lra. }
    assert (T : Rabs ((py q - py p) / (px q - px p)) = tan (deg2rad e)).
    { unfold Rdiv. rewrite Rabs_mult, Rabs_inv, (Rabs_right (py q - py p)) by lra.
      unfold tan. fold (sind e) (cosd e).
      apply (Rmult_eq_reg_r (Rabs (px q - px p) * cosd e)); [|nra].
      field_simplify; [|lra|lra]. rewrite Rmult_comm. nra. }
    assert (AT : forall x, Rabs (atan x) = atan (Rabs x)).
    { intro x. destruct (Rle_dec 0 x) as [Hx|Hx].
      - rewrite (Rabs_right x) by lra. apply Rabs_right. destruct Hx as [Hx|<-]; [|rewrite atan_0; lra].
        rewrite <- atan_0. left. apply atan_increasing. exact Hx.
      - rewrite (Rabs_left x) by lra. rewrite atan_opp. apply Rabs_left.
        rewrite <- atan_0. apply atan_increasing. lra. }
    rewrite AT, T, atan_tan.
    + apply rad2deg_deg2rad.
    + split; [lra|]. unfold deg2rad. nra.
Qed.

Lemma elevation_range : forall p q, py p <= py q -> p <> q -> seen_at_elevation p q (elevation_angle p q).
Proof.
  intros p q Y N. unfold elevation_angle. pose proof PI_RGT_0 as PP.
  destruct (Req_EM_T (px q - px p) 0) as [X|X].
  - split; [lra|]. split; [exact N|]. rewrite X, Rabs_R0. unfold cosd. rewrite deg2rad_90, cos_PI2. ring.
  - set (z := (py q - py p) / (px q - px p)).
    assert (AX : 0 < Rabs (px q - px p)) by (apply Rabs_pos_lt; exact X).
    pose proof (atan_bound z) as B.
    assert (B2 : 0 <= Rabs (atan z) < PI / 2).
    { split; [apply Rabs_pos|]. apply Rabs_def1; lra. }
    split.
    { unfold rad2deg. split.
      - unfold Rdiv. apply Rmult_le_pos; [lra | left; apply Rinv_0_lt_compat; lra].
      - apply (Rmult_le_reg_r PI); [lra|]. unfold Rdiv. rewrite Rmult_assoc, Rinv_l by lra. lra. }
    split; [exact N|]. unfold sind, cosd. rewrite deg2rad_rad2deg.
    assert (C : 0 < cos (Rabs (atan z))) by (apply cos_gt_0; lra).
    assert (T : tan (Rabs (atan z)) = Rabs z).
    { unfold Rabs. destruct (Rcase_abs (atan z)) as [A|A].
      - rewrite tan_neg, tan_atan. destruct (Rcase_abs z); [reflexivity|]. exfalso.
        assert (atan 0 <= atan z) by (destruct (Rge_le _ _ r) as [L|<-]; [left; apply atan_increasing; exact L | lra]).
        rewrite atan_0 in *. lra.
      - rewrite tan_atan. destruct (Rcase_abs z) as [L|]; [|reflexivity]. exfalso.
        apply atan_increasing in L. rewrite atan_0 in L. lra. }
    replace (sin (Rabs (atan z))) with (tan (Rabs (atan z)) * cos (Rabs (atan z))) by (unfold tan; field; lra).
    rewrite T. unfold z, Rdiv. rewrite Rabs_mult, Rabs_inv, (Rabs_right (py q - py p)) by lra. field. lra.
Qed.

(** Coordinates of the surfaces of a row. *)
Lemma side_surface_on_row : forall row bk xc yc w rot cut sl nv t s,
  0 < w -> -180 < rot t < 180 -> (0 < cut)%nat -> 0 <= sl t <= w ->
  In s (side_surfaces (side_from_raw_inputs row bk xc yc w rot cut sl nv)) ->
  s_nvec s t = nv t /\
  exists u v, - (w / 2) <= u <= w / 2 /\ - (w / 2) <= v <= w / 2 /\
    s_coords s t = Line (row_point xc yc (rot t) u) (row_point xc yc (rot t) v).
Proof.
  intros row bk xc yc w rot cut sl nv t s W R C SL I. split.
  { unfold side_surfaces, side_from_raw_inputs in I. cbn [side_segments] in I.
    apply in_flat_map in I. destruct I as [g [Hg I]].
    apply in_map_iff in Hg. destruct Hg as [i [E _]]. subst g.
    unfold seg_surfaces in I. cbn [seg_illum seg_shaded app] in I.
    destruct I as [E|[E|[]]]; subst s; reflexivity. }
  destruct (Req_dec (rot t) 0) as [Z|Z].
  - unfold side_surfaces, side_from_raw_inputs in I. cbn [side_segments] in I.
    apply in_flat_map in I. destruct I as [g [Hg I]].
    apply in_map_iff in Hg. destruct Hg as [i [E Hi]]. apply in_seq in Hi. subst g.
    unfold seg_surfaces in I. cbn [seg_illum seg_shaded app] in I.
    pose proof (segment_coords_flat xc yc w cut (sl t) i) as F. cbn zeta in F. rewrite <- Z in F.
    assert (IC : 0 < INR cut) by (apply lt_0_INR; lia).
    assert (B : 0 <= INR i /\ INR i + 1 <= INR cut).
    { split; [apply pos_INR|]. rewrite <- S_INR. apply le_INR. lia. }
    assert (Q : 0 <= INR i * (w / INR cut) /\ (INR i + 1) * (w / INR cut) <= w).
    { assert (WC : 0 < w / INR cut) by (apply Rdiv_lt_0_compat; assumption).
      assert (WE : INR cut * (w / INR cut) = w) by (field; lra). split; nra. }
    assert (WC : 0 < w / INR cut) by (apply Rdiv_lt_0_compat; assumption).
    destruct I as [E|[E|[]]]; subst s; cbn [s_coords]; rewrite F; cbn [fst snd];
      do 2 eexists; (split; [|split; [|reflexivity]]); lra.
  - destruct (side_surface_interval row bk xc yc w rot cut sl nv t s W R Z C SL I) as (lo & hi & A & B & E & _).
    exists (from_low_end w (rot t) lo), (from_low_end w (rot t) hi). rewrite E.
    unfold low_point, from_low_end. destruct (Rlt_dec 0 (rot t)); (split; [|split; [|reflexivity]]); lra.
Qed.

Lemma back_surface_on_row : forall p n f a t i row s,
  valid_params p -> fit p n f = Some a -> -180 < ft_rotation a t < 180 ->
  nth_error (ft_rows a) i = Some row -> In s (side_surfaces (row_back row)) ->
  s_nvec s t = (pa_width p * sin (ft_rotation a t * PI / 180), - (pa_width p * cos (ft_rotation a t * PI / 180))) /\
  exists u, - (pa_width p / 2) <= u <= pa_width p / 2 /\
    s_centroid s t = row_point (INR i * pa_distance p) (pa_height p) (ft_rotation a t) u.
Proof.
  intros p n f a t i row s V F R E I.
  destruct (fit_rows_nth_error _ _ _ _ _ _ F E) as [L ->].
  pose proof (fit_spec _ _ _ _ F) as (_ & RO & _). rewrite RO in *.
  destruct (row_sl_bounds p f i t V) as [_ B].
  rewrite fit_row_back in I. destruct V as (W & G & N & K).
  apply side_surface_on_row with (t := t) in I; [|exact W | exact R | apply K | exact B].
  destruct I as (NV & u & v & U & U' & C). split.
  - rewrite NV. cbn zeta. rewrite full_coords_points. unfold normal_vec_front, row_point. cbn [px py b1 b2 fst snd].
    f_equal; field.
  - exists ((u + v) / 2). split; [lra|]. unfold s_centroid. rewrite C. unfold line_centroid, row_point. cbn [px py b1 b2].
    f_equal; field.
Qed.

Lemma highest_point_row : forall xc yc w r, 0 < w ->
  top_end (Line (row_point xc yc r (- (w / 2))) (row_point xc yc r (w / 2)))
    (highest_point (Line (row_point xc yc r (- (w / 2))) (row_point xc yc r (w / 2)))).
Proof.
  intros. set (c := Line _ _). unfold highest_point, top_end, Rleb, np_where.
  destruct (Rle_dec (py (b2 c)) (py (b1 c))) as [L|L].
  - split; [left; destruct (b1 c); reflexivity|]. cbn [py]. lra.
  - split; [right; destruct (b2 c); reflexivity|]. cbn [py]. lra.
Qed.

(** Shading of the horizon band for a back surface. *)
Lemma back_pct_spec : forall p n f a m t j row s,
  valid_params p -> fit p n f = Some a -> -180 < ft_rotation a t < 180 ->
  nth_error (ft_rows a) j = Some row -> In s (side_surfaces (row_back row)) ->
  0 < im_horizon_band_angle m ->
  let pct := back_pct m a j [s] t in
  0 <= pct <= 100 /\
  (fst (s_nvec s t) = 0 -> pct = 0) /\
  (0 < fst (s_nvec s t) -> nth_error (ft_rows a) (S j) = None -> pct = 0) /\
  (fst (s_nvec s t) < 0 -> j = 0%nat -> pct = 0) /\
  (forall k row', (0 < fst (s_nvec s t) /\ k = S j \/ fst (s_nvec s t) < 0 /\ j = S k) ->
     nth_error (ft_rows a) k = Some row' ->
     exists q e, top_end (row_coords row' t) q /\ py (s_centroid s t) <= py q /\
       seen_at_elevation (s_centroid s t) q e /\
       pct = Rmax 0 (Rmin 100 (100 * e / im_horizon_band_angle m))).
Proof.
  intros p n f a m t j row s V F R E I B. cbn zeta. unfold back_pct, horizon_shading_pct.
  destruct (back_surface_on_row _ _ _ _ _ _ _ _ V F R E I) as (NV & u & U & CE). rewrite NV. cbn [fst].
  pose proof (fit_spec _ _ _ _ F) as (_ & RO & WI & RW & _).
  assert (LR : List.length (ft_rows a) = pa_n_pvrows p) by (rewrite RW; apply fit_rows_length).
  destruct (fit_rows_nth_error _ _ _ _ _ _ F E) as [LJ _].
  pose proof (proj1 V) as W. pose proof PI_RGT_0 as PP. pose proof (pa_distance_pos p V) as D.
  set (r := ft_rotation a t) in *.
  assert (SG : (0 < r -> 0 < sin (r * PI / 180)) /\ (r < 0 -> sin (r * PI / 180) < 0) /\ (r = 0 -> sin (r * PI / 180) = 0)).
  { split; [|split]; intro H.
    - apply (sind_pos r). lra.
    - apply (sind_neg r). lra.
    - rewrite H. replace (0 * PI / 180) with 0 by field. apply sin_0. }
  destruct SG as (SP & SN & SZ).
  assert (SI : (0 < pa_width p * sin (r * PI / 180) <-> 0 < r) /\ (pa_width p * sin (r * PI / 180) < 0 <-> r < 0) /\
     (pa_width p * sin (r * PI / 180) = 0 <-> r = 0)).
  { destruct (Rtotal_order r 0) as [Q|[Q|Q]].
    - pose proof (SN Q). repeat split; intro; try lra; nra.
    - pose proof (SZ Q) as Z. rewrite Z, Rmult_0_r. repeat split; intro; lra.
    - pose proof (SP Q). repeat split; intro; try lra; nra. }
  destruct SI as (IP & IN & IZ).
  (* elevation of the top of a neighbour *)
  assert (EL : forall k row', nth_error (ft_rows a) k = Some row' -> k <> j ->
     (r = 0 -> elevation_angle (s_centroid s t) (highest_point (row_coords row' t)) = 0 \/ (j < k)%nat) /\
     (((0 <= r /\ k = S j) \/ (r <= 0 /\ j = S k)) -> r <> 0 ->
     exists e, py (s_centroid s t) <= py (highest_point (row_coords row' t)) /\
       seen_at_elevation (s_centroid s t) (highest_point (row_coords row' t)) e /\
       elevation_angle (s_centroid s t) (highest_point (row_coords row' t)) = e)).
  { intros k row' Ek Nk. destruct (fit_rows_nth_error _ _ _ _ _ _ F Ek) as [LK ->].
    rewrite fit_row_coords, <- RO. fold r. rewrite CE.
    set (cs := cos (r * PI / 180)) in *. set (sn := sin (r * PI / 180)) in *.
    split.
    - intro Z. destruct (lt_dec j k) as [|G]; [right; assumption|]. left.
      assert (S0 : sn = 0) by (apply SZ; exact Z).
      assert (C1 : cs = 1) by (unfold cs; rewrite Z; replace (0 * PI / 180) with 0 by field; apply cos_0).
      unfold highest_point, row_point, np_where, Rleb. cbn [b1 b2 px py]. fold cs sn. rewrite S0, C1.
      destruct (Rle_dec _ _) as [_|X]; [|exfalso; apply X; lra].
      assert (KJ : INR k + 1 <= INR j) by (rewrite <- S_INR; apply le_INR; lia).
      unfold elevation_angle. cbn [px py].
      destruct (Req_EM_T _ 0) as [X|X].
      + exfalso. assert (INR k * pa_distance p + pa_distance p <= INR j * pa_distance p) by nra. lra.
      + replace (pa_height p + - (pa_width p / 2) * 0 - (pa_height p + u * 0)) with 0 by ring.
        unfold Rdiv at 1. rewrite Rmult_0_l, atan_0, Rabs_R0. unfold rad2deg. field. lra.
    - intros CA RN. assert (NZ : sn <> 0).
      { intro Z. apply RN. apply IZ. rewrite Z. ring. }
      set (c := Line _ _).
      pose proof (highest_point_row (INR k * pa_distance p) (pa_height p) (pa_width p) r W) as (_ & T1 & T2).
      fold c in T1, T2. unfold c, row_point in T1, T2. cbn [b1 b2 py] in T1, T2. fold cs sn in T1, T2. fold (row_point) in *.
      assert (Y : pa_height p + u * sn <= py (highest_point c)).
      { fold c in T1, T2. 
        destruct (Rle_dec 0 sn).
        - apply Rle_trans with (pa_height p + pa_width p / 2 * sn); [nra|]. exact T2.
        - apply Rle_trans with (pa_height p + - (pa_width p / 2) * sn); [nra|]. exact T1. }
      assert (NE : row_point (INR j * pa_distance p) (pa_height p) r u <> highest_point c).
      { intro Q. unfold highest_point, np_where, Rleb, c, row_point in Q. cbn [b1 b2 px py] in Q. fold cs sn in Q.
        destruct (Rle_dec _ _) as [L|L].
        - assert (sn < 0) by nra. inversion Q as [[Q1 Q2]].
          assert (u = - (pa_width p / 2)) by nra. subst u.
          assert (INR j * pa_distance p = INR k * pa_distance p) by lra.
          assert (INR j = INR k) by nra. apply Nk. symmetry. apply INR_eq. assumption.
        - assert (0 < sn) by nra. inversion Q as [[Q1 Q2]].
          assert (u = pa_width p / 2) by nra. subst u.
          assert (INR j * pa_distance p = INR k * pa_distance p) by lra.
          assert (INR j = INR k) by nra. apply Nk. symmetry. apply INR_eq. assumption. }
      exists (elevation_angle (row_point (INR j * pa_distance p) (pa_height p) r u) (highest_point c)).
      assert (Y' : py (row_point (INR j * pa_distance p) (pa_height p) r u) <= py (highest_point c)) by exact Y.
      split; [exact Y'|]. split; [apply elevation_range; assumption | reflexivity]. }
  assert (BR : forall x, 0 <= horizon_band_shading x (im_horizon_band_angle m) <= 100).
  { intro x. rewrite band_spec by exact B. split; [apply Rmax_l | apply Rmax_lub; [lra | apply Rmin_l]]. }
  cbv iota. unfold np_where, Rltb.
  assert (NTH : forall k, (k < pa_n_pvrows p)%nat -> nth_error (ft_rows a) k = Some (nth k (ft_rows a) dummy_row)).
  { intros k Hk. apply nth_error_nth'. rewrite LR. exact Hk. }
  split; [|split; [|split; [|split]]].
  - destruct (Rlt_dec 0 r).
    + destruct (Nat.eqb j (List.length (ft_rows a) - 1)); [lra | apply BR].
    + destruct (Nat.eqb j 0); [lra | apply BR].
  - intro H. apply IZ in H. destruct (Rlt_dec 0 r); [exfalso; lra|].
    destruct (Nat.eqb_spec j 0); [reflexivity|].
    destruct (EL (j - 1)%nat _ (NTH (j - 1)%nat ltac:(lia)) ltac:(lia)) as [Z _].
    destruct (Z H) as [-> | Q]; [|exfalso; lia].
    rewrite band_spec by exact B. replace (100 * 0 / im_horizon_band_angle m) with 0 by (field; lra).
    rewrite Rmin_right by lra. apply Rmax_left. lra.
  - intros H N. apply IP in H. destruct (Rlt_dec 0 r); [|exfalso; lra].
    apply nth_error_None in N. rewrite LR in *.
    destruct (Nat.eqb_spec j (pa_n_pvrows p - 1)); [reflexivity | exfalso; lia].
  - intros H ->. apply IN in H. destruct (Rlt_dec 0 r); [exfalso; lra|]. reflexivity.
  - intros k row' CA Ek. pose proof (proj1 (fit_rows_nth_error _ _ _ _ _ _ F Ek)) as LK.
    assert (NK : k <> j) by (destruct CA as [[_ ->]|[_ ->]]; lia).
    assert (CR : ((0 <= r /\ k = S j) \/ (r <= 0 /\ j = S k)) /\ r <> 0).
    { destruct CA as [[H ->]|[H ->]]; [apply IP in H | apply IN in H]; split; try lra; [left|right]; split; try lra; reflexivity. }
    destruct (EL k row' Ek NK) as [_ G]. destruct (G (proj1 CR) (proj2 CR)) as (e & Y & SE & EQ).
    exists (highest_point (row_coords row' t)), e. split.
    { destruct (fit_rows_nth_error _ _ _ _ _ _ F Ek) as [_ ->]. rewrite fit_row_coords. apply highest_point_row. exact W. }
    split; [exact Y|]. split; [exact SE|].
    rewrite <- EQ, <- band_spec by exact B.
    destruct CA as [[H ->]|[H ->]].
    + apply IP in H. destruct (Rlt_dec 0 r); [|exfalso; lra].
      destruct (Nat.eqb_spec j (List.length (ft_rows a) - 1)); [exfalso; lia|].
      rewrite (nth_error_nth (ft_rows a) (j + 1) (x := row')); [reflexivity|].
      rewrite <- Ek. f_equal. lia.
    + apply IN in H. destruct (Rlt_dec 0 r); [exfalso; lra|]. cbn [Nat.eqb].
      replace (S k - 1)%nat with k by lia. rewrite (nth_error_nth (ft_rows a) k (x := row')); [reflexivity | exact Ek].
Qed.
