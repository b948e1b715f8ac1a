(** Sides and rows made from coordinates (C55, C56), merged surfaces (C57). *)
From Coq Require Import Reals List Bool Arith String Lra Lia Psatz.
From Verif Require Import Num ModelTs ModelGeom ModelVF ModelParams ModelLinalg ModelShapely
  Basics SpecGeom SpecShapely ProofAngles ProofShapely ProofProj ProofCutPoint PropShapely.
Import ListNotations.
Open Scope R_scope.
Open Scope list_scope.

Local Notation tol := DISTANCE_TOLERANCE.

(* ------------------------------------------------------------------ lemmas *)

Lemma interpolate_eq : forall l f, interpolate l f = seg_point l f.
Proof. intros. unfold interpolate, seg_point. f_equal; ring. Qed.

Lemma fraction_eq : forall n k, fraction n k = INR k / INR n.
Proof. intros. unfold fraction, Rdiv. ring. Qed.

Lemma INR_pos : forall n, (1 <= n)%nat -> 0 < INR n.
Proof. intros. apply lt_0_INR. lia. Qed.

(** Coordinates of the k-th of [n] equal parts. *)
Definition kth_line (l : line) (n k : nat) : line :=
  Line (seg_point l (INR k / INR n)) (seg_point l (INR (S k) / INR n)).

Lemma side_lines_eq : forall l n, (1 <= n)%nat -> side_lines l n = map (kth_line l n) (seq 0 n).
Proof.
  intros l n Hn. unfold side_lines. destruct (Nat.eqb_spec n 1) as [->|N].
  - cbn [seq map]. unfold kth_line. cbn [INR]. replace (0 / 1) with 0 by field. replace (1 / 1) with 1 by field.
    rewrite seg_point_0, seg_point_1. destruct l; reflexivity.
  - apply map_ext. intros k. rewrite !interpolate_eq, !fraction_eq. reflexivity.
Qed.

Lemma kth_delta : forall l n k, (1 <= n)%nat ->
  px (b2 (kth_line l n k)) - px (b1 (kth_line l n k)) = (px (b2 l) - px (b1 l)) / INR n /\
  py (b2 (kth_line l n k)) - py (b1 (kth_line l n k)) = (py (b2 l) - py (b1 l)) / INR n.
Proof.
  intros l n k Hn. pose proof (INR_pos n Hn). unfold kth_line, seg_point. cbn [b1 b2 px py].
  rewrite S_INR. split; field; lra.
Qed.

Lemma kth_ends : forall l n k, (1 <= n)%nat -> b1 l <> b2 l ->
  b1 (kth_line l n k) <> b2 (kth_line l n k).
Proof.
  intros l n k Hn N E. pose proof (INR_pos n Hn) as P.
  destruct (kth_delta l n k Hn) as [Dx Dy]. rewrite E in Dx, Dy.
  apply N. destruct l as [[x1 y1] [x2 y2]]. cbn [b1 b2 px py] in *.
  assert (Z : forall d, d / INR n = 0 -> d = 0).
  { intros d Hd. apply (Rmult_eq_reg_r (/ INR n)); [unfold Rdiv in Hd; lra |].
    apply Rinv_neq_0_compat; lra. }
  f_equal; [assert (x2 - x1 = 0) by (apply Z; lra) | assert (y2 - y1 = 0) by (apply Z; lra)]; lra.
Qed.

Lemma kth_length : forall l n k, (1 <= n)%nat -> seg_length (kth_line l n k) = seg_length l / INR n.
Proof.
  intros l n k Hn. pose proof (INR_pos n Hn) as P. destruct (kth_delta l n k Hn) as [Dx Dy].
  unfold seg_length, gap, dist2.
  replace ((px (b1 (kth_line l n k)) - px (b2 (kth_line l n k)))
           * (px (b1 (kth_line l n k)) - px (b2 (kth_line l n k)))
           + (py (b1 (kth_line l n k)) - py (b2 (kth_line l n k)))
           * (py (b1 (kth_line l n k)) - py (b2 (kth_line l n k))))
    with (((px (b1 l) - px (b2 l)) * (px (b1 l) - px (b2 l))
           + (py (b1 l) - py (b2 l)) * (py (b1 l) - py (b2 l))) * Rsqr (/ INR n)).
  - rewrite sqrt_mult; [| apply Rplus_le_le_0_compat; apply Rle_0_sqr | apply Rle_0_sqr].
    rewrite sqrt_Rsqr; [reflexivity|]. left. apply Rinv_0_lt_compat. exact P.
  - replace (px (b1 (kth_line l n k)) - px (b2 (kth_line l n k)))
      with (- ((px (b2 l) - px (b1 l)) / INR n)) by lra.
    replace (py (b1 (kth_line l n k)) - py (b2 (kth_line l n k)))
      with (- ((py (b2 l) - py (b1 l)) / INR n)) by lra.
    unfold Rsqr, Rdiv. ring.
Qed.

(** Normal vector of the k-th part. *)
Definition part_nvec (l : line) (nvec : option (R * R)) (n : nat) : R * R :=
  match nvec with
  | Some v => v
  | None => (- ((py (b2 l) - py (b1 l)) / INR n), (px (b2 l) - px (b1 l)) / INR n)
  end.

Lemma side_from_coords_eq : forall l shaded nvec n names, (1 <= n)%nat ->
  (nvec = None -> b1 l <> b2 l) ->
  side_from_coords l shaded nvec n names
  = Ok (map (fun k => one_segment (kth_line l n k) (part_nvec l nvec n) shaded names) (seq 0 n)).
Proof.
  intros l shaded nvec n names Hn D. unfold side_from_coords. rewrite (side_lines_eq l n Hn).
  rewrite (segs_from_lines_ok (fun _ => part_nvec l nvec n)).
  - cbn [bind]. rewrite map_map. apply (side_init_ok nat (seq 0 n) _ (fun _ => part_nvec l nvec n)).
    + intros; apply one_segment_direction.
    + intros. ring.
  - intros l0 H. apply in_map_iff in H. destruct H as (k & <- & _).
    destruct nvec as [v|]; [reflexivity|].
    split; [apply kth_ends; auto|]. destruct (kth_delta l n k Hn) as [Dx Dy].
    unfold part_nvec. rewrite Dx, Dy. reflexivity.
Qed.

Lemma one_segment_length : forall l n (shaded : bool) names,
  sg_length (one_segment l n shaded names) = seg_length l /\
  sg_shaded_length (one_segment l n shaded names) = (if shaded then seg_length l else 0) /\
  sg_n_surfaces (one_segment l n shaded names) = 1%nat.
Proof.
  intros l n [|] names; unfold sg_length, sg_shaded_length, sg_n_surfaces, sc_length, sc_n_surfaces,
    one_segment; cbn [sg_illum sg_shaded sc_surfaces map List.length];
    rewrite !py_sum_rsum; cbn [rsum]; unfold su_length, init_surface; cbn [su_line];
    rewrite ?length_seg; repeat split; try ring.
Qed.

Lemma sum_const_seq : forall n (f : nat -> R) v, (forall k, f k = v) ->
  py_sum (map f (seq 0 n)) = INR n * v.
Proof.
  intros n f v H. rewrite py_sum_rsum, (rsum_map_ext _ f (fun _ => v)) by auto.
  rewrite rsum_map_const, seq_length. reflexivity.
Qed.

Lemma count_const_seq : forall n (f : nat -> nat), (forall k, f k = 1%nat) ->
  fold_left Nat.add (map f (seq 0 n)) 0%nat = n.
Proof.
  intros n f H. rewrite (map_ext f (fun _ => 1%nat)) by auto.
  assert (G : forall m a b, fold_left Nat.add (map (fun _ : nat => 1%nat) (seq a m)) b = (b + m)%nat).
  { induction m as [|m IH]; intros a b; cbn [seq map fold_left]; [lia | rewrite IH; lia]. }
  rewrite G. lia.
Qed.

(* ---------------------------------------------------------------------- C55 *)

(** A side made from the coordinates of a line and cut in [n]: [n] segments, the k-th with
    one surface covering the k-th n-th of the line in the direction of the line, all of the
    same length and shading, with the given normal vector or else one at a right angle to
    the line; the lengths add up to that of the line. *)
Theorem C55_side : forall l shaded nvec n names, (1 <= n)%nat -> b1 l <> b2 l ->
  exists sd, side_from_coords l shaded nvec n names = Ok sd /\
    List.length sd = n /\
    (forall k, (k < n)%nat -> exists g s, nth_error sd k = Some g /\
       sc_surfaces (if shaded then sg_shaded g else sg_illum g) = [s] /\
       sc_surfaces (if shaded then sg_illum g else sg_shaded g) = [] /\
       su_line s = Line (seg_point l (INR k / INR n)) (seg_point l (INR (S k) / INR n)) /\
       su_shaded s = shaded /\ su_names s = names /\
       seg_length (su_line s) = seg_length l / INR n /\
       match nvec with
       | Some v => su_nvec s = v
       | None => su_nvec s = (- ((py (b2 l) - py (b1 l)) / INR n), (px (b2 l) - px (b1 l)) / INR n)
       end) /\
    sd_length sd = seg_length l /\
    sd_shaded_length sd = (if shaded then seg_length l else 0) /\
    sd_n_surfaces sd = n.
Proof.
  intros l shaded nvec n names Hn N. pose proof (INR_pos n Hn) as P.
  rewrite (side_from_coords_eq l shaded nvec n names Hn (fun _ => N)).
  eexists. split; [reflexivity|]. split; [rewrite map_length, seq_length; reflexivity|]. split.
  - intros k Hk. eexists _, (init_surface (kth_line l n k) (part_nvec l nvec n) shaded names).
    split.
    + apply map_nth_error. apply (nth_error_seq n 0 k Hk).
    + cbn [Nat.add]. destruct shaded; cbn [one_segment sg_illum sg_shaded sc_surfaces];
        (do 2 (split; [reflexivity|])); (split; [reflexivity|]); (split; [reflexivity|]);
        (split; [reflexivity|]); (split; [apply kth_length; exact Hn|]); destruct nvec; reflexivity.
  - unfold sd_length, sd_shaded_length, sd_n_surfaces. rewrite !map_map. split; [| split].
    + rewrite (sum_const_seq n _ (seg_length l / INR n)).
      * field. lra.
      * intros k. destruct (one_segment_length (kth_line l n k) (part_nvec l nvec n) shaded names)
          as (-> & _). apply kth_length. exact Hn.
    + rewrite (sum_const_seq n _ (if shaded then seg_length l / INR n else 0)).
      * destruct shaded; field; lra.
      * intros k. destruct (one_segment_length (kth_line l n k) (part_nvec l nvec n) shaded names)
          as (_ & -> & _). destruct shaded; [apply kth_length; exact Hn | reflexivity].
    + apply count_const_seq. intros k.
      destruct (one_segment_length (kth_line l n k) (part_nvec l nvec n) shaded names)
        as (_ & _ & H). exact H.
Qed.

(** The segments follow one another. *)
Theorem C55_contiguous : forall l shaded nvec n names sd k g g',
  side_from_coords l shaded nvec n names = Ok sd -> (1 <= n)%nat -> b1 l <> b2 l ->
  nth_error sd k = Some g -> nth_error sd (S k) = Some g' ->
  exists s s', sg_surfaces g = [s] /\ sg_surfaces g' = [s'] /\ b2 (su_line s) = b1 (su_line s').
Proof.
  intros l shaded nvec n names sd k g g' E Hn N H H'.
  destruct (C55_side l shaded nvec n names Hn N) as (sd' & E' & L & P & _).
  rewrite E in E'. injection E' as <-.
  assert (Hk : (S k < n)%nat).
  { rewrite <- L. apply nth_error_Some. congruence. }
  destruct (P k ltac:(lia)) as (g1 & s & G & S1 & S2 & SL & _).
  destruct (P (S k) Hk) as (g2 & s' & G' & S1' & S2' & SL' & _).
  rewrite G in H. rewrite G' in H'. injection H as ->. injection H' as ->.
  exists s, s'. unfold sg_surfaces.
  split; [| split; [| rewrite SL, SL'; reflexivity]]; destruct shaded;
    rewrite ?S1, ?S2, ?S1', ?S2'; reflexivity.
Qed.

(** A line without extent is accepted only with a normal vector. *)
Theorem C55_degenerate : forall l shaded n names, (1 <= n)%nat -> b1 l = b2 l ->
  side_from_coords l shaded None n names = Err ValueError.
Proof.
  intros l shaded n names Hn E. unfold side_from_coords. rewrite (side_lines_eq l n Hn).
  destruct n as [|n]; [lia|]. cbn [seq map segs_from_lines].
  unfold sg_from_coords, sc_from_coords, pvsurface_init.
  rewrite boundary_err; [reflexivity|].
  unfold kth_line, seg_point. cbn [b1 b2]. rewrite E. f_equal; ring.
Qed.

Example C55_case : exists sd,
  side_from_coords (Line (Pt 0 1) (Pt 3 1)) false None 3 [] = Ok sd /\
  List.length sd = 3%nat /\ sd_length sd = 3.
Proof.
  destruct (C55_side (Line (Pt 0 1) (Pt 3 1)) false None 3 []) as (sd & E & L & _ & S & _); [lia| |].
  - cbn [b1 b2]. intros F. injection F as F. lra.
  - exists sd. split; [exact E|]. split; [exact L|]. rewrite S. unfold seg_length, gap, dist2.
    cbn [b1 b2 px py]. replace ((0 - 3) * (0 - 3) + (1 - 1) * (1 - 1)) with (Rsqr 3) by (unfold Rsqr; ring).
    apply sqrt_Rsqr. lra.
Qed.

Print Assumptions C55_side.
Print Assumptions C55_contiguous.
Print Assumptions C55_degenerate.

(* ---------------------------------------------------------------------- C56 *)

(** A PV row made from its center, tilt and width: the two sides lie on the segment of that
    width centred there and turned by the rotation angle; the front normal vectors point to
    the front side of the rotated plane, the back ones to the other side. *)
Theorem C56_row : forall xc yc tilt width saz aaz shaded nf nb names,
  (1 <= nf)%nat -> (1 <= nb)%nat -> 0 < width ->
  let rot := get_rotation saz aaz tilt in
  exists r, pvrow_from_center xc yc tilt width saz aaz shaded None nf nb names = Ok r /\
    rw_line r = Line (row_point xc yc rot (- (width / 2))) (row_point xc yc rot (width / 2)) /\
    List.length (rw_front r) = nf /\ List.length (rw_back r) = nb /\
    sd_length (rw_front r) = width /\ sd_length (rw_back r) = width /\
    (forall g s, In g (rw_front r) -> In s (sg_surfaces g) ->
       su_nvec s = (- sin (rot * PI / 180) * (width / INR nf), cos (rot * PI / 180) * (width / INR nf))
       /\ su_shaded s = shaded) /\
    (forall g s, In g (rw_back r) -> In s (sg_surfaces g) ->
       su_nvec s = (sin (rot * PI / 180) * (width / INR nf), - cos (rot * PI / 180) * (width / INR nf))
       /\ su_shaded s = shaded) /\
    (forall k, (k < nb)%nat -> exists g s, nth_error (rw_back r) k = Some g /\ sg_surfaces g = [s] /\
       su_line s = Line (row_point xc yc rot (- (width / 2) + INR k * (width / INR nb)))
                        (row_point xc yc rot (- (width / 2) + INR (S k) * (width / INR nb)))) /\
    (forall k, (k < nf)%nat -> exists g s, nth_error (rw_front r) k = Some g /\ sg_surfaces g = [s] /\
       su_line s = Line (row_point xc yc rot (- (width / 2) + INR k * (width / INR nf)))
                        (row_point xc yc rot (- (width / 2) + INR (S k) * (width / INR nf)))).
Proof.
  intros xc yc tilt width saz aaz shaded nf nb names Hf Hb Hw rot.
  pose proof (INR_pos nf Hf) as Pf. pose proof (INR_pos nb Hb) as Pb.
  set (l := Line (row_point xc yc rot (- (width / 2))) (row_point xc yc rot (width / 2))).
  assert (EL : coords_from_center_tilt_length xc yc tilt width saz aaz = l).
  { unfold coords_from_center_tilt_length, l, row_point. fold rot.
    rewrite cosd_180, sind_180. unfold cosd, sind, deg2rad. f_equal; f_equal; field. }
  assert (U : cos (rot * PI / 180) * cos (rot * PI / 180) + sin (rot * PI / 180) * sin (rot * PI / 180) = 1).
  { pose proof (sin2_cos2 (rot * PI / 180)) as H. unfold Rsqr in H. lra. }
  assert (A : forall t, row_point xc yc rot t = along xc yc (cos (rot * PI / 180)) (sin (rot * PI / 180)) t)
    by reflexivity.
  assert (SL : seg_length l = width).
  { unfold seg_length, l. cbn [b1 b2]. rewrite !A, (gap_along _ _ _ _ U).
    unfold Rabs. destruct (Rcase_abs _); lra. }
  assert (N : b1 l <> b2 l).
  { unfold l. cbn [b1 b2]. rewrite !A. intros F. apply (along_inj _ _ _ _ U) in F. lra. }
  assert (KL : forall n k, (1 <= n)%nat -> kth_line l n k
            = Line (row_point xc yc rot (- (width / 2) + INR k * (width / INR n)))
                   (row_point xc yc rot (- (width / 2) + INR (S k) * (width / INR n)))).
  { intros n k Hn. pose proof (INR_pos n Hn). unfold kth_line, l. rewrite !A, !seg_point_along.
    f_equal; f_equal; field; lra. }
  unfold pvrow_from_center, pvrow_from_coords. rewrite EL.
  rewrite (side_from_coords_eq l shaded None nf names Hf (fun _ => N)). cbn [bind].
  assert (DN : sd_nvec (map (fun k => one_segment (kth_line l nf k) (part_nvec l None nf) shaded names)
                            (seq 0 nf)) = Ok (Some (part_nvec l None nf))).
  { destruct nf as [|m]; [lia|]. cbn [seq map sd_nvec]. destruct shaded; reflexivity. }
  rewrite DN. cbn [bind].
  rewrite (side_from_coords_eq l shaded (Some _) nb names Hb (fun _ => N)). cbn [bind].
  eexists. split; [reflexivity|]. cbn [rw_line rw_front rw_back]. split; [reflexivity|].
  rewrite !map_length, !seq_length. do 2 (split; [reflexivity|]).
  assert (SDL : forall n v, (1 <= n)%nat ->
    sd_length (map (fun k => one_segment (kth_line l n k) v shaded names) (seq 0 n)) = width).
  { intros n v Hn. pose proof (INR_pos n Hn). unfold sd_length. rewrite map_map.
    rewrite (sum_const_seq n _ (seg_length l / INR n)).
    - rewrite SL. field. lra.
    - intros k. destruct (one_segment_length (kth_line l n k) v shaded names) as (-> & _).
      apply kth_length. exact Hn. }
  split; [apply SDL; exact Hf|]. split; [apply SDL; exact Hb|].
  assert (IN : forall n v g s, In g (map (fun k => one_segment (kth_line l n k) v shaded names) (seq 0 n)) ->
    In s (sg_surfaces g) -> su_nvec s = v /\ su_shaded s = shaded).
  { intros n v g s Hg Hs. apply in_map_iff in Hg. destruct Hg as (k & <- & _).
    destruct shaded; cbn in Hs; destruct Hs as [<-|[]]; split; reflexivity. }
  assert (PN : part_nvec l None nf
    = (- sin (rot * PI / 180) * (width / INR nf), cos (rot * PI / 180) * (width / INR nf))).
  { unfold part_nvec, l, row_point. cbn [b1 b2 px py]. f_equal; field; lra. }
  split; [| split; [| split]].
  - intros g s Hg Hs. destruct (IN _ _ _ _ Hg Hs) as [-> ->]. split; [exact PN | reflexivity].
  - intros g s Hg Hs. destruct (IN _ _ _ _ Hg Hs) as [-> ->]. split; [| reflexivity].
    unfold part_nvec at 1. rewrite PN. cbn [fst snd]. f_equal; ring.
  - intros k Hk. eexists _, _. split; [apply map_nth_error; apply (nth_error_seq nb 0 k Hk)|].
    cbn [Nat.add]. rewrite (KL nb k Hb). destruct shaded; split; reflexivity.
  - intros k Hk. eexists _, _. split; [apply map_nth_error; apply (nth_error_seq nf 0 k Hk)|].
    cbn [Nat.add]. rewrite (KL nf k Hf). destruct shaded; split; reflexivity.
Qed.

(** With a normal vector given, the front surfaces have it and the back ones its opposite. *)
Theorem C56_normal_given : forall l shaded nv nf nb names,
  (1 <= nf)%nat -> (1 <= nb)%nat ->
  exists r, pvrow_from_coords l shaded (Some nv) nf nb names = Ok r /\ rw_line r = l /\
    List.length (rw_front r) = nf /\ List.length (rw_back r) = nb /\
    (forall g s, In g (rw_front r) -> In s (sg_surfaces g) -> su_nvec s = nv /\ su_shaded s = shaded) /\
    (forall g s, In g (rw_back r) -> In s (sg_surfaces g) -> su_nvec s = (- fst nv, - snd nv) /\ su_shaded s = shaded).
Proof.
  intros l shaded nv nf nb names Hf Hb. unfold pvrow_from_coords.
  rewrite (side_from_coords_eq l shaded (Some nv) nf names Hf) by discriminate. cbn [bind].
  rewrite (side_from_coords_eq l shaded (Some (- fst nv, - snd nv)) nb names Hb) by discriminate. cbn [bind].
  eexists. split; [reflexivity|]. cbn [rw_line rw_front rw_back]. split; [reflexivity|].
  rewrite !map_length, !seq_length. do 2 (split; [reflexivity|]).
  assert (IN : forall n v g s, In g (map (fun k => one_segment (kth_line l n k) v shaded names) (seq 0 n)) ->
    In s (sg_surfaces g) -> su_nvec s = v /\ su_shaded s = shaded).
  { intros n v g s Hg Hs. apply in_map_iff in Hg. destruct Hg as (k & <- & _).
    destruct shaded; cbn in Hs; destruct Hs as [<-|[]]; split; reflexivity. }
  split; intros g s Hg Hs; destruct (IN _ _ _ _ Hg Hs) as [-> ->]; split; reflexivity.
Qed.

(** Highest and lowest points of a row. *)
Theorem C56_highest_lowest : forall r hi lo, rw_highest r = Ok hi -> rw_lowest r = Ok lo ->
  (hi = b1 (rw_line r) \/ hi = b2 (rw_line r)) /\ (lo = b1 (rw_line r) \/ lo = b2 (rw_line r)) /\
  (forall q, on_segment (rw_line r) q -> py lo <= py q <= py hi).
Proof.
  intros r hi lo H L. unfold rw_highest, rw_lowest in *.
  destruct (boundary (rw_line r)) as [[e1 e2]|] eqn:B; [| discriminate].
  apply boundary_inv in B. destruct B as [B _]. injection B as -> ->.
  cbn [bind] in *. injection H as <-. injection L as <-.
  set (l := rw_line r).
  split; [destruct (Rltb _ _); auto|]. split; [destruct (Rltb _ _); auto|].
  intros q (k & Hk & ->). unfold seg_point. cbn [py].
  destruct (Rltb_spec (py (b2 l)) (py (b1 l))), (Rltb_spec (py (b1 l)) (py (b2 l))); split; nra.
Qed.

(** For a row that lies flat the two coincide, instead of being the two ends. *)
Theorem C56_flat_refuted : forall r, b1 (rw_line r) <> b2 (rw_line r) ->
  py (b1 (rw_line r)) = py (b2 (rw_line r)) ->
  rw_highest r = Ok (b2 (rw_line r)) /\ rw_lowest r = Ok (b2 (rw_line r)).
Proof.
  intros r N E. unfold rw_highest, rw_lowest. rewrite (boundary_ok _ N). cbn [bind]. rewrite E.
  rewrite (proj2 (Rltb_false _ _) (Rle_refl _)). split; reflexivity.
Qed.

Print Assumptions C56_row.
Print Assumptions C56_normal_given.
Print Assumptions C56_highest_lowest.
Print Assumptions C56_flat_refuted.

(* ---------------------------------------------------------------------- C57 *)

Lemma np_min_mono : forall f a b, (forall x y, x <= y -> f x <= f y) ->
  np_min (f a) (f b) = f (np_min a b).
Proof.
  intros f a b M. unfold np_min. destruct (Rle_dec a b) as [H|H].
  - destruct (Rle_dec (f a) (f b)) as [K|K]; [reflexivity|]. elim K. apply M. exact H.
  - destruct (Rle_dec (f a) (f b)) as [K|K]; [| reflexivity].
    apply Rle_antisym; [exact K|]. apply M. lra.
Qed.

Lemma np_max_mono : forall f a b, (forall x y, x <= y -> f x <= f y) ->
  np_max (f a) (f b) = f (np_max a b).
Proof.
  intros f a b M. unfold np_max. destruct (Rle_dec a b) as [H|H].
  - destruct (Rle_dec (f a) (f b)) as [K|K]; [reflexivity|]. elim K. apply M. exact H.
  - destruct (Rle_dec (f a) (f b)) as [K|K]; [| reflexivity].
    apply Rle_antisym; [apply M; lra | exact K].
Qed.

Lemma min_list_mono : forall f l, l <> [] -> (forall x y, x <= y -> f x <= f y) ->
  min_list (map f l) = f (min_list l).
Proof.
  intros f l N M. unfold min_list.
  assert (H : hd 0 (map f l) = f (hd 0 l)) by (destruct l; [contradiction | reflexivity]).
  rewrite H. generalize (hd 0 l). intros a. clear N H.
  induction l as [|b l IH]; [reflexivity|]. cbn [map fold_right]. rewrite IH. apply np_min_mono. exact M.
Qed.

Lemma max_list_mono : forall f l, l <> [] -> (forall x y, x <= y -> f x <= f y) ->
  max_list (map f l) = f (max_list l).
Proof.
  intros f l N M. unfold max_list.
  assert (H : hd 0 (map f l) = f (hd 0 l)) by (destruct l; [contradiction | reflexivity]).
  rewrite H. generalize (hd 0 l). intros a. clear N H.
  induction l as [|b l IH]; [reflexivity|]. cbn [map fold_right]. rewrite IH. apply np_max_mono. exact M.
Qed.

Lemma min_list_spec : forall l, l <> [] -> In (min_list l) l /\ forall x, In x l -> min_list l <= x.
Proof.
  intros l N. unfold min_list.
  assert (G : forall m a, (In (fold_right np_min a m) (a :: m)) /\
                          (forall x, In x m -> fold_right np_min a m <= x)).
  { induction m as [|b m IH]; intros a; [split; [left; reflexivity | intros x []]|].
    cbn [fold_right]. destruct (IH a) as [I B]. unfold np_min at 1 3.
    destruct (Rle_dec b (fold_right np_min a m)) as [H|H]; split.
    - right; left; reflexivity.
    - intros x [<-|Hx]; [lra | specialize (B x Hx); lra].
    - destruct I as [I|I]; [left; exact I | right; right; exact I].
    - intros x [<-|Hx]; [lra | apply B; exact Hx]. }
  destruct l as [|a l]; [contradiction|]. cbn [hd].
  destruct (G (a :: l) a) as [[I|I] B]; split; try exact B; [rewrite <- I; left; reflexivity | exact I].
Qed.

Lemma max_list_spec : forall l, l <> [] -> In (max_list l) l /\ forall x, In x l -> x <= max_list l.
Proof.
  intros l N. unfold max_list.
  assert (G : forall m a, (In (fold_right np_max a m) (a :: m)) /\
                          (forall x, In x m -> x <= fold_right np_max a m)).
  { induction m as [|b m IH]; intros a; [split; [left; reflexivity | intros x []]|].
    cbn [fold_right]. destruct (IH a) as [I B]. unfold np_max at 1 3.
    destruct (Rle_dec b (fold_right np_max a m)) as [H|H]; split.
    - destruct I as [I|I]; [left; exact I | right; right; exact I].
    - intros x [<-|Hx]; [lra | apply B; exact Hx].
    - right; left; reflexivity.
    - intros x [<-|Hx]; [lra | specialize (B x Hx); lra]. }
  destruct l as [|a l]; [contradiction|]. cbn [hd].
  destruct (G (a :: l) a) as [[I|I] B]; split; try exact B; [rewrite <- I; left; reflexivity | exact I].
Qed.

(** End positions of a list of pieces of a line. *)
Definition end_positions (ps : list (R * R)) : list R := flat_map (fun i => [fst i; snd i]) ps.

(** Surfaces on one line that does not go down to the right are merged in one surface from
    the first of their ends to the last, with the orientation of the first. *)
Theorem C57_merge : forall x y c s (ps : list (R * R)) col f s1,
  c * c + s * s = 1 -> 0 <= c -> 0 <= s ->
  map su_line (sc_surfaces col) = map (fun i => Line (along x y c s (fst i)) (along x y c s (snd i))) ps ->
  (2 <= List.length ps)%nat -> sc_shaded col = Some f -> hd_error (sc_surfaces col) = Some s1 ->
  exists col' m lo hi, merge_surfaces col = Ok col' /\ sc_surfaces col' = [m] /\
    sc_shaded col' = Some f /\ su_shaded m = f /\ su_nvec m = su_nvec s1 /\ su_names m = su_names s1 /\
    su_line m = Line (along x y c s lo) (along x y c s hi) /\
    In lo (end_positions ps) /\ In hi (end_positions ps) /\
    (forall t, In t (end_positions ps) -> lo <= t <= hi).
Proof.
  intros x y c s ps col f s1 U Hc Hs E L F H1.
  assert (XS : xs_of (sc_surfaces col) = map (fun t => x + t * c) (end_positions ps)).
  { unfold xs_of, end_positions. clear - E. revert ps E.
    induction (sc_surfaces col) as [|a l IH]; intros [|i ps] E; try discriminate; [reflexivity|].
    cbn [map] in E. injection E as E1 E2. cbn [flat_map]. rewrite map_app, (IH ps E2), E1. reflexivity. }
  assert (YS : ys_of (sc_surfaces col) = map (fun t => y + t * s) (end_positions ps)).
  { unfold ys_of, end_positions. clear - E. revert ps E.
    induction (sc_surfaces col) as [|a l IH]; intros [|i ps] E; try discriminate; [reflexivity|].
    cbn [map] in E. injection E as E1 E2. cbn [flat_map]. rewrite map_app, (IH ps E2), E1. reflexivity. }
  assert (NE : end_positions ps <> []) by (destruct ps; [cbn in L; lia | discriminate]).
  assert (Mx : forall a b, a <= b -> x + a * c <= x + b * c) by (intros; nra).
  assert (My : forall a b, a <= b -> y + a * s <= y + b * s) by (intros; nra).
  assert (LE : List.length (sc_surfaces col) = List.length ps).
  { rewrite <- (map_length su_line), E, map_length. reflexivity. }
  unfold merge_surfaces.
  destruct (sc_surfaces col) as [|a [|b l]] eqn:ES; cbn [List.length] in LE; try lia.
  rewrite <- ES in *. rewrite F. cbn [pvsurface_init bind].
  rewrite ES in H1. cbn [hd_error] in H1. injection H1 as ->.
  eexists _, _, (min_list (end_positions ps)), (max_list (end_positions ps)).
  split; [reflexivity|]. cbn [sc_surfaces sc_shaded su_shaded su_nvec su_names su_line].
  do 5 (split; [reflexivity|]). split; [| split; [| split]].
  - rewrite XS, YS, !min_list_mono, !max_list_mono by assumption. reflexivity.
  - apply min_list_spec. exact NE.
  - apply max_list_spec. exact NE.
  - intros t Ht. split; [apply min_list_spec | apply max_list_spec]; assumption.
Qed.

(** Nothing happens to a collection of at most one surface. *)
Theorem C57_single : forall col, (List.length (sc_surfaces col) <= 1)%nat -> merge_surfaces col = Ok col.
Proof.
  intros col H. unfold merge_surfaces. destruct (sc_surfaces col) as [|a [|b l]]; cbn in H; try reflexivity. lia.
Qed.

(** On a line that goes down to the right, the merged surface is on the wrong diagonal. *)
Definition down_surface (x1 y1 x2 y2 : R) : pv_surface :=
  PVSurface (Line (Pt x1 y1) (Pt x2 y2)) (1, 1) true None [] (fun _ => None).
Theorem C57_descending_refuted :
  exists col', merge_surfaces (ShadeColl [down_surface 0 2 1 1; down_surface 1 1 2 0] (Some true) true [])
               = Ok col' /\
    exists m, sc_surfaces col' = [m] /\ su_line m = Line (Pt 0 0) (Pt 2 2) /\
              ~ on_segment (su_line m) (Pt 0 2).
Proof.
  unfold merge_surfaces, min_list, max_list, np_min, np_max.
  cbn [sc_surfaces sc_shaded sc_collinear sc_names xs_of ys_of flat_map app down_surface su_line
       b1 b2 px py fold_right hd].
  repeat match goal with |- context [Rle_dec ?a ?b] =>
    match a with context [Rle_dec] => fail 1 | _ => idtac end;
    match b with context [Rle_dec] => fail 1 | _ => idtac end;
    destruct (Rle_dec a b); try (exfalso; lra) end.
  eexists. split; [reflexivity|]. eexists. split; [reflexivity|]. cbn [su_line].
  split; [reflexivity|]. intros (k & _ & E). unfold seg_point in E. cbn [b1 b2 px py] in E.
  injection E as E1 E2. lra.
Qed.

Example C57_case : exists col' m,
  merge_surfaces (ShadeColl [flat_surface 3 5 true; flat_surface 0 1 true] (Some true) true []) = Ok col' /\
  sc_surfaces col' = [m] /\ su_line m = Line (along 0 0 1 0 0) (along 0 0 1 0 5).
Proof.
  destruct (C57_merge 0 0 1 0 [(3, 5); (0, 1)]
              (ShadeColl [flat_surface 3 5 true; flat_surface 0 1 true] (Some true) true []) true
              (flat_surface 3 5 true)) as (col' & m & lo & hi & E & S & _ & _ & _ & _ & Lm & I1 & I2 & B);
    try lra; try reflexivity.
  - cbn [sc_surfaces map flat_surface su_line fst snd]. rewrite !flat_as_along. reflexivity.
  - exists col', m. split; [exact E|]. split; [exact S|]. rewrite Lm.
    cbn [end_positions flat_map app In fst snd] in *.
    assert (lo = 0) as -> by (pose proof (B 0); pose proof (B lo); intuition lra).
    assert (hi = 5) as -> by (pose proof (B 5); pose proof (B hi); intuition lra).
    reflexivity.
Qed.

Print Assumptions C57_merge.
Print Assumptions C57_single.
Print Assumptions C57_descending_refuted.
