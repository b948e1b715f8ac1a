(** PV rows: end points (C09), segments and shading of a side (C06). *)
From Coq Require Import Reals List Bool Arith Lra Lia Psatz.
From Verif Require Import Num ModelTs ModelGeom Basics SpecGeom ProofShade.
Import ListNotations.
Open Scope R_scope.

(** Point at distance [e] from the low end of the row. *)
Definition low_point (xc yc w r e : R) : pt := row_point xc yc r (from_low_end w r e).

Lemma row_point_eq : forall xc yc r s, row_point xc yc r s = Pt (s * cosd r + xc) (s * sind r + yc).
Proof. intros. unfold row_point, cosd, sind, deg2rad. f_equal; ring. Qed.

Lemma row_point_dist : forall xc yc r s s',
  line_length (Line (row_point xc yc r s) (row_point xc yc r s')) = Rabs (s' - s).
Proof.
  intros. unfold line_length, row_point. cbn [b1 b2 px py].
  set (c := cos (r * PI / 180)). set (q := sin (r * PI / 180)).
  assert (H : q * q + c * c = 1) by (pose proof (sin2_cos2 (r * PI / 180)); unfold Rsqr in H; auto).
  replace ((yc + s' * q - (yc + s * q)) ^ 2 + (xc + s' * c - (xc + s * c)) ^ 2)
    with ((s' - s) * (s' - s) * (q * q + c * c)) by ring.
  rewrite H, Rmult_1_r. fold (Rsqr (s' - s)). apply sqrt_Rsqr_abs.
Qed.

Lemma low_point_dist : forall xc yc w r e e', e <= e' ->
  line_length (Line (low_point xc yc w r e) (low_point xc yc w r e')) = e' - e.
Proof.
  intros. unfold low_point. rewrite row_point_dist. unfold from_low_end.
  destruct (Rlt_dec 0 r).
  - rewrite Rabs_right; lra.
  - rewrite Rabs_left1; lra.
Qed.

Lemma full_coords_points : forall xc yc w r,
  full_coords xc yc w r = Line (row_point xc yc r (- (w / 2))) (row_point xc yc r (w / 2)).
Proof.
  intros. unfold full_coords. rewrite cosd_180, sind_180. rewrite !row_point_eq.
  f_equal; f_equal; ring.
Qed.

(** Distances from the low end of the row of the two ends of segment [i] out of
    [cut]. *)
Definition seg_lo (w r : R) (cut i : nat) : R :=
  if Rlt_dec 0 r then INR i * (w / INR cut) else w - (INR i + 1) * (w / INR cut).
Definition seg_hi (w r : R) (cut i : nat) : R :=
  if Rlt_dec 0 r then (INR i + 1) * (w / INR cut) else w - INR i * (w / INR cut).

Lemma seg_hi_lo : forall w r cut i, seg_hi w r cut i - seg_lo w r cut i = w / INR cut.
Proof. intros; unfold seg_hi, seg_lo; destruct (Rlt_dec 0 r); ring. Qed.

Lemma shading_point_eq : forall xc yc w r sl, r <> 0 ->
  shading_point xc yc w r sl = low_point xc yc w r sl.
Proof.
  intros. unfold shading_point, low_point. rewrite cosd_180, sind_180. cbv zeta.
  rewrite row_point_eq. unfold from_low_end.
  destruct (Rleb_spec 0 r); cbn [np_where]; destruct (Rlt_dec 0 r); try lra; f_equal; ring.
Qed.

Lemma segment_coords_nonflat : forall xc yc w r cut sl i,
  0 < w -> -180 < r < 180 -> r <> 0 -> (0 < cut)%nat ->
  let lo := seg_lo w r cut i in
  let hi := seg_hi w r cut i in
  let m := Rmax lo (Rmin sl hi) in
  let P := low_point xc yc w r in
  segment_coords xc yc w r cut sl i =
    (if Rlt_dec 0 r then Line (P lo) (P hi) else Line (P hi) (P lo),
     Line (P m) (P hi), Line (P lo) (P m)).
Proof.
  intros xc yc w r cut sl i Hw Hr Hr0 Hc lo hi m P.
  assert (HL : 0 < w / INR cut).
  { apply Rdiv_lt_0_compat; [auto | apply lt_0_INR; auto]. }
  set (L := w / INR cut) in *.
  assert (Hlh : lo < hi) by (pose proof (seg_hi_lo w r cut i); fold lo hi L in H; lra).
  unfold segment_coords. rewrite shading_point_eq by auto. rewrite cosd_180, sind_180.
  fold L. fold P. cbv zeta.
  rewrite (proj2 (Reqb_false r 0) Hr0). change (negb false) with true. rewrite !andb_true_r.
  destruct (Rlt_dec 0 r) as [Rp | Rn].
  - assert (Hs : 0 < sind r) by (apply sind_pos; lra).
    rewrite (proj2 (Rleb_true 0 r)) by lra. cbn [np_where].
    assert (Plo : Pt ((w / 2 - INR i * L) * - cosd r + xc) ((w / 2 - INR i * L) * - sind r + yc) = P lo).
    { unfold P, low_point. rewrite row_point_eq. unfold from_low_end, lo, seg_lo.
      destruct (Rlt_dec 0 r); [| contradiction]. fold L. f_equal; ring. }
    assert (Phi : Pt ((w / 2 - (INR i + 1) * L) * - cosd r + xc) ((w / 2 - (INR i + 1) * L) * - sind r + yc) = P hi).
    { unfold P, low_point. rewrite row_point_eq. unfold from_low_end, hi, seg_hi.
      destruct (Rlt_dec 0 r); [| contradiction]. fold L. f_equal; ring. }
    rewrite Plo, Phi. clear Plo Phi.
    assert (Hy : forall e e', py (P e) < py (P e') <-> e < e').
    { intros. unfold P, low_point. rewrite !row_point_eq. unfold from_low_end. simpl.
      destruct (Rlt_dec 0 r); [| contradiction]. split; intros; nra. }
    clearbody P. destruct (Rltb_spec (py (P hi)) (py (P sl))) as [A | A]; cbn [negb]; rewrite ?andb_true_r, ?andb_false_r; cbn [np_where].
    + apply (proj1 (Hy _ _)) in A.
      assert (E : m = hi) by (unfold m; minmax; lra). rewrite E. reflexivity.
    + assert (A' : sl <= hi).
      { apply Rnot_lt_le. intro. apply (proj2 (Hy _ _)) in H. lra. }
      destruct (Rltb_spec (py (P lo)) (py (P sl))) as [B | B]; cbn [negb]; rewrite ?andb_true_r, ?andb_false_r; cbn [np_where].
      * apply (proj1 (Hy _ _)) in B. assert (E : m = sl) by (unfold m; minmax; lra). rewrite E. reflexivity.
      * assert (B' : sl <= lo).
        { apply Rnot_lt_le. intro. apply (proj2 (Hy _ _)) in H. lra. }
        assert (E : m = lo) by (unfold m; minmax; lra). rewrite E. reflexivity.
  - assert (Hs : sind r < 0) by (apply sind_neg; lra).
    rewrite (proj2 (Rleb_false 0 r)) by lra. cbn [np_where].
    assert (Phi : Pt ((w / 2 - INR i * L) * - cosd r + xc) ((w / 2 - INR i * L) * - sind r + yc) = P hi).
    { unfold P, low_point. rewrite row_point_eq. unfold from_low_end, hi, seg_hi.
      destruct (Rlt_dec 0 r); [contradiction |]. fold L. f_equal; field. }
    assert (Plo : Pt ((w / 2 - (INR i + 1) * L) * - cosd r + xc) ((w / 2 - (INR i + 1) * L) * - sind r + yc) = P lo).
    { unfold P, low_point. rewrite row_point_eq. unfold from_low_end, lo, seg_lo.
      destruct (Rlt_dec 0 r); [contradiction |]. fold L. f_equal; field. }
    rewrite Plo, Phi. clear Plo Phi.
    assert (Hy : forall e e', py (P e) < py (P e') <-> e < e').
    { intros. unfold P, low_point. rewrite !row_point_eq. unfold from_low_end. simpl.
      destruct (Rlt_dec 0 r); [contradiction |]. split; intros; nra. }
    clearbody P. destruct (Rltb_spec (py (P hi)) (py (P sl))) as [A | A]; cbn [negb]; rewrite ?andb_true_r, ?andb_false_r; cbn [np_where].
    + apply (proj1 (Hy _ _)) in A.
      assert (E : m = hi) by (unfold m; minmax; lra). rewrite E. reflexivity.
    + assert (A' : sl <= hi).
      { apply Rnot_lt_le. intro. apply (proj2 (Hy _ _)) in H. lra. }
      destruct (Rltb_spec (py (P lo)) (py (P sl))) as [B | B]; cbn [negb]; rewrite ?andb_true_r, ?andb_false_r; cbn [np_where].
      * apply (proj1 (Hy _ _)) in B. assert (E : m = sl) by (unfold m; minmax; lra). rewrite E. reflexivity.
      * assert (B' : sl <= lo).
        { apply Rnot_lt_le. intro. apply (proj2 (Hy _ _)) in H. lra. }
        assert (E : m = lo) by (unfold m; minmax; lra). rewrite E. reflexivity.
Qed.

Lemma segment_coords_flat : forall xc yc w cut sl i,
  let s1 := - (w / 2) + INR i * (w / INR cut) in
  let s2 := - (w / 2) + (INR i + 1) * (w / INR cut) in
  let P s := row_point xc yc 0 s in
  segment_coords xc yc w 0 cut sl i = (Line (P s1) (P s2), Line (P s1) (P s2), Line (P s1) (P s1)).
Proof.
  intros. unfold segment_coords, shading_point. rewrite cosd_180, sind_180. cbv zeta.
  rewrite (proj2 (Reqb_true 0 0) eq_refl). simpl negb. rewrite !andb_false_r. cbn [np_where].
  rewrite (proj2 (Rleb_true 0 0)) by lra. cbn [np_where].
  unfold P, s1, s2. rewrite !row_point_eq.
  replace ((w / 2 - INR i * (w / INR cut)) * - cosd 0 + xc)
    with ((- (w / 2) + INR i * (w / INR cut)) * cosd 0 + xc) by ring.
  replace ((w / 2 - INR i * (w / INR cut)) * - sind 0 + yc)
    with ((- (w / 2) + INR i * (w / INR cut)) * sind 0 + yc) by ring.
  replace ((w / 2 - (INR i + 1) * (w / INR cut)) * - cosd 0 + xc)
    with ((- (w / 2) + (INR i + 1) * (w / INR cut)) * cosd 0 + xc) by ring.
  replace ((w / 2 - (INR i + 1) * (w / INR cut)) * - sind 0 + yc)
    with ((- (w / 2) + (INR i + 1) * (w / INR cut)) * sind 0 + yc) by ring.
  reflexivity.
Qed.

Lemma seg_bounds : forall w r cut i, 0 < w -> (i < cut)%nat ->
  0 <= seg_lo w r cut i /\ seg_hi w r cut i <= w.
Proof.
  intros w r cut i Hw Hi.
  assert (Hc : 0 < INR cut) by (apply lt_0_INR; lia).
  assert (Hi' : INR i + 1 <= INR cut).
  { rewrite <- S_INR. apply le_INR. lia. }
  assert (0 <= INR i) by apply pos_INR.
  assert (E : w = INR cut * (w / INR cut)) by (field; lra).
  assert (0 < w / INR cut) by (apply Rdiv_lt_0_compat; auto).
  set (L := w / INR cut) in *.
  unfold seg_lo, seg_hi. fold L. destruct (Rlt_dec 0 r).
  - split; [nra |]. rewrite E. nra.
  - split; [| nra]. rewrite E at 1. nra.
Qed.

Lemma py_sum_map_seq : forall n f, py_sum (map f (seq 0 n)) = isum n f.
Proof. intros. rewrite py_sum_rsum. apply rsum_seq. Qed.

(** Shaded length of a side. *)
Lemma side_shaded_length_eq : forall row bk xc yc w rot cut sl nv t,
  0 < w -> -180 < rot t < 180 -> rot t <> 0 -> (0 < cut)%nat -> 0 <= sl t <= w ->
  side_shaded_length (side_from_raw_inputs row bk xc yc w rot cut sl nv) t = sl t.
Proof.
  intros row bk xc yc w rot cut sl nv t Hw Hr Hr0 Hc Hsl.
  unfold side_shaded_length, side_from_raw_inputs. cbn [side_segments].
  rewrite map_map. cbn [seg_shaded]. rewrite py_sum_map_seq.
  unfold coll_length, s_length. cbn [map s_coords].
  set (L := w / INR cut).
  assert (HL : 0 < L) by (apply Rdiv_lt_0_compat; [auto | apply lt_0_INR; auto]).
  assert (EW : INR cut * L = w) by (unfold L; field; apply not_0_INR; lia).
  transitivity (isum cut (fun i =>
    Rmin (sl t) (seg_hi w (rot t) cut i) - Rmin (sl t) (seg_lo w (rot t) cut i))).
  - apply isum_ext. intros i Hi.
    rewrite (segment_coords_nonflat xc yc w (rot t) cut (sl t) i) by auto. cbn [snd].
    rewrite py_sum_rsum. cbn [rsum]. rewrite Rplus_0_r.
    pose proof (seg_bounds w (rot t) cut i Hw Hi) as [B1 B2].
    pose proof (seg_hi_lo w (rot t) cut i) as B3. fold L in B3.
    rewrite low_point_dist by (apply Rmax_l). minmax; lra.
  - unfold seg_hi, seg_lo. fold L. destruct (Rlt_dec 0 (rot t)).
    + rewrite (isum_ext cut _ (fun i => (fun k => Rmin (sl t) (INR k * L)) (S i)
                                        - (fun k => Rmin (sl t) (INR k * L)) i)).
      * rewrite (isum_telescope cut (fun k => Rmin (sl t) (INR k * L))). rewrite EW. simpl. minmax; lra.
      * intros i Hi. cbv beta. rewrite S_INR. reflexivity.
    + rewrite (isum_ext cut _ (fun i => (fun k => - Rmin (sl t) (w - INR k * L)) (S i)
                                        - (fun k => - Rmin (sl t) (w - INR k * L)) i)).
      * rewrite (isum_telescope cut (fun k => - Rmin (sl t) (w - INR k * L))).
        rewrite EW. simpl. minmax; lra.
      * intros i Hi. cbv beta. rewrite S_INR. lra.
Qed.

Lemma side_length_eq : forall row bk xc yc w rot cut sl nv t,
  0 < w -> -180 < rot t < 180 -> (0 < cut)%nat ->
  side_length (side_from_raw_inputs row bk xc yc w rot cut sl nv) t = w.
Proof.
  intros row bk xc yc w rot cut sl nv t Hw Hr Hc.
  unfold side_length, side_from_raw_inputs. cbn [side_segments].
  rewrite map_map. rewrite py_sum_map_seq.
  assert (Hc' : INR cut <> 0) by (apply not_0_INR; lia).
  transitivity (isum cut (fun _ => w / INR cut)).
  - apply isum_ext. intros i Hi. unfold seg_length, coll_length, s_length. cbn [seg_illum seg_shaded map].
    rewrite !py_sum_rsum. cbn [rsum s_coords]. rewrite !Rplus_0_r.
    destruct (Req_dec (rot t) 0) as [E | E].
    + rewrite E. rewrite segment_coords_flat. cbn [fst snd]. rewrite !row_point_dist.
      assert (0 < w / INR cut) by (apply Rdiv_lt_0_compat; [auto | apply lt_0_INR; lia]).
      rewrite Rminus_diag_eq with (r1 := - (w / 2) + INR i * (w / INR cut)) by reflexivity.
      rewrite Rabs_R0. rewrite Rabs_right; lra.
    + rewrite (segment_coords_nonflat xc yc w (rot t) cut (sl t) i) by auto. cbn [fst snd].
      pose proof (seg_hi_lo w (rot t) cut i) as B3.
      assert (0 < w / INR cut) by (apply Rdiv_lt_0_compat; [auto | apply lt_0_INR; lia]).
      set (lo := seg_lo w (rot t) cut i) in *. set (hi := seg_hi w (rot t) cut i) in *.
      rewrite !low_point_dist by (minmax; lra). lra.
  - rewrite isum_const. field. auto.
Qed.
