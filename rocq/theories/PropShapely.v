(** Properties of the geometry of one timestep: differences of segments (C40), projections
    (C41), cuts (C42), shading of collections (C43), sides and rows made from coordinates
    (C55, C56), merged surfaces (C57). *)
From Coq Require Import Reals List Bool Arith String Lra Lia Psatz.
From Verif Require Import Num ModelTs ModelGeom ModelVF ModelParams ModelLinalg ModelShapely
  Basics SpecGeom SpecShapely ProofAngles ProofShapely ProofDiff ProofProj ProofCutPoint.
Import ListNotations.
Open Scope R_scope.
Open Scope list_scope.

Local Notation tol := DISTANCE_TOLERANCE.

(* ---------------------------------------------------------------------- C40 *)

(** The containment test means: less than the tolerance away from a point of the
    segment. *)
Theorem C40_contains : forall l p, contains l p = true <-> near tol l p.
Proof. exact contains_near. Qed.

(** Two segments of one line, with positions [a, b] and [u, v] along it in any order, the
    ends equal or apart, the second not sticking out of the first on both sides: the
    difference covers the points of the first that are not in the second, apart from the
    end points, and has the right length. *)
Theorem C40_difference : forall x y c s a b u v,
  c * c + s * s = 1 -> a <> b -> u <> v ->
  apart tol a b -> apart tol u v ->
  apart tol a u -> apart tol a v -> apart tol b u -> apart tol b v ->
  ~ (Rmin u v < Rmin a b /\ Rmax a b < Rmax u v) ->
  let U := Line (along x y c s a) (along x y c s b) in
  let V := Line (along x y c s u) (along x y c s v) in
  exists g, difference U V = Ok g /\
    (forall p, p <> b1 U -> p <> b2 U -> p <> b1 V -> p <> b2 V ->
       (covers g p <-> on_segment U p /\ ~ on_segment V p)) /\
    (forall p, covers g p -> on_segment U p) /\
    geom_length g = Rabs (a - b) - overlap a b u v.
Proof.
  intros x y c s a b u v unit Nab Nuv Sab Suv Sau Sav Sbu Sbv NC U V.
  destruct (difference_removes x y c s unit a b u v Nab Nuv Sab Suv Sau Sav Sbu Sbv NC)
    as (l & E & R1 & R2 & _ & R4).
  exists (pieces x y c s l). split; [exact E|]. split; [| split].
  - intros p P1 P2 P3 P4. split.
    + intros C. destruct (covers_pieces_along x y c s l p C) as (t & ->).
      unfold U, V. rewrite !(on_segment_along x y c s unit).
      apply (covers_pieces x y c s unit) in C. apply R1; [..| exact C];
        intros ->; [apply P3 | apply P4 | apply P1 | apply P2]; reflexivity.
    + intros [H N]. destruct (on_segment_is_along x y c s a b p H) as (t & ->).
      unfold U, V in *. rewrite (on_segment_along x y c s unit) in *.
      apply (covers_pieces x y c s unit). apply R1;
        try (intros ->; first [apply P3; reflexivity | apply P4; reflexivity
                              | apply P1; reflexivity | apply P2; reflexivity]).
      split; [exact H | exact N].
  - intros p C. destruct (covers_pieces_along x y c s l p C) as (t & ->).
    apply (covers_pieces x y c s unit) in C. destruct C as (i & Hi & Ht).
    unfold U. rewrite (on_segment_along x y c s unit). specialize (R2 i Hi). lra.
  - rewrite (length_pieces x y c s unit). exact R4.
Qed.

(** Each piece keeps the direction of the first segment and is longer than the tolerance. *)
Theorem C40_pieces_oriented : forall x y c s a b u v,
  c * c + s * s = 1 -> a <> b -> u <> v ->
  apart tol a b -> apart tol u v ->
  apart tol a u -> apart tol a v -> apart tol b u -> apart tol b v ->
  ~ (Rmin u v < Rmin a b /\ Rmax a b < Rmax u v) ->
  exists ps : list (R * R),
    difference (Line (along x y c s a) (along x y c s b)) (Line (along x y c s u) (along x y c s v))
    = Ok (match map (fun i => Line (along x y c s (fst i)) (along x y c s (snd i))) ps with
          | [] => GEmpty | [l] => GLine l | ls => GMultiLine ls end) /\
    (List.length ps <= 2)%nat /\
    forall i, In i ps -> tol < Rabs (fst i - snd i) /\ 0 < (snd i - fst i) * (b - a).
Proof.
  intros x y c s a b u v unit Nab Nuv Sab Suv Sau Sav Sbu Sbv NC.
  destruct (difference_removes x y c s unit a b u v Nab Nuv Sab Suv Sau Sav Sbu Sbv NC)
    as (l & E & _ & _ & R3 & _).
  exists l. split; [exact E|]. split; [| exact R3].
  destruct (Nat.le_gt_cases (List.length l) 2) as [H|H]; [exact H|]. exfalso.
  unfold difference in E.
  rewrite (boundary_ok (Line _ _)) in E by (cbn [b1 b2]; apply (along_neq x y c s unit); assumption).
  rewrite (boundary_ok (Line _ _)) in E by (cbn [b1 b2]; apply (along_neq x y c s unit); assumption).
  cbn [bind b1 b2] in E. unfold pieces in E. cbv zeta in E.
  destruct l as [|i1 [|i2 [|i3 l]]]; cbn [List.length] in H; try lia.
  cbn [map] in E.
  repeat match type of E with context [if ?b then _ else _] => destruct b end;
    cbn [filter] in E;
    repeat match type of E with context [if ?b then _ else _] => destruct b end;
    discriminate E.
Qed.

(** The excluded case is a defect: when the second segment sticks out on both sides, the
    first is returned instead of nothing. *)
Theorem C40_covering_refuted : forall x y c s a b u v,
  c * c + s * s = 1 -> a <> b -> u <> v ->
  Rmin u v <= Rmin a b - tol -> Rmax a b + tol <= Rmax u v ->
  let U := Line (along x y c s a) (along x y c s b) in
  let V := Line (along x y c s u) (along x y c s v) in
  difference U V = Ok (GLine U) /\ (forall p, on_segment U p -> on_segment V p).
Proof.
  intros x y c s a b u v unit Nab Nuv H1 H2 U V. split.
  - exact (difference_covered x y c s unit a b u v Nab Nuv H1 H2).
  - intros p H. destruct (on_segment_is_along x y c s a b p H) as (t & ->).
    unfold U, V in *. rewrite (on_segment_along x y c s unit) in *.
    pose proof DISTANCE_TOLERANCE_pos. lra.
Qed.

(** Segments of any direction: disjoint and not near one another, or of no extent. *)
Theorem C40_away : forall u v, b1 u <> b2 u -> b1 v <> b2 v ->
  ~ near tol u (b1 v) -> ~ near tol u (b2 v) -> difference u v = Ok (GLine u).
Proof. exact difference_unchanged. Qed.

Theorem C40_degenerate : forall u v, b1 u = b2 u \/ b1 v = b2 v -> difference u v = Err ValueError.
Proof.
  intros u v H. unfold difference.
  destruct (Req_EM_T 0 0) as [_|]; [| congruence].
  destruct (boundary u) as [[ub1 ub2]|e] eqn:Eu.
  - apply boundary_inv in Eu. destruct Eu as [_ N]. destruct H as [H|H]; [contradiction|].
    cbn [bind]. rewrite (boundary_err v H). reflexivity.
  - assert (D : b1 u = b2 u \/ b1 u <> b2 u).
    { destruct (boundary u) as [z|] eqn:F; [discriminate|].
      unfold boundary in F. destruct u as [[x1 y1] [x2 y2]]. cbn [b1 b2 px py] in *.
      destruct (Reqb_spec x1 x2) as [->|]; [| right; congruence].
      destruct (Reqb_spec y1 y2) as [->|]; [left; reflexivity | right; congruence]. }
    destruct D as [D|D]; [rewrite (boundary_err u D) in Eu; injection Eu as <-; reflexivity|].
    rewrite (boundary_ok u D) in Eu. discriminate.
Qed.

(** A case: removing the positions 2 to 1 from 0 to 3 on a line going down leaves two pieces. *)
Example C40_case : exists g,
  difference (Line (along 1 2 (3 / 5) (- 4 / 5) 0) (along 1 2 (3 / 5) (- 4 / 5) 3))
             (Line (along 1 2 (3 / 5) (- 4 / 5) 2) (along 1 2 (3 / 5) (- 4 / 5) 1)) = Ok g /\
  geom_length g = 2 /\ covers g (along 1 2 (3 / 5) (- 4 / 5) (5 / 2)).
Proof.
  assert (T : 0 < tol < 1 / 2) by (unfold DISTANCE_TOLERANCE; lra).
  assert (A : forall p q, 1 <= Rabs (p - q) -> apart tol p q) by (intros; right; lra).
  destruct (C40_difference 1 2 (3 / 5) (- 4 / 5) 0 3 2 1) as (g & E & P & _ & L); try lra;
    try (apply A; unfold Rabs; destruct (Rcase_abs _); lra).
  { unfold Rmin, Rmax. destruct (Rle_dec 2 1), (Rle_dec 0 3); lra. }
  exists g. split; [exact E|]. split.
  - rewrite L. unfold overlap.
    rewrite (Rmax_left 2 1), (Rmin_right 2 1), (Rmax_right 0 3), (Rmin_left 0 3) by lra.
    rewrite (Rmin_right 3 2), (Rmax_right 0 1), Rmax_right by lra.
    unfold Rabs. destruct (Rcase_abs _); lra.
  - assert (U : 3 / 5 * (3 / 5) + - 4 / 5 * (- 4 / 5) = 1) by lra.
    apply P; cbn [b1 b2]; try (intros F; apply (along_inj _ _ _ _ U) in F; lra).
    rewrite !(on_segment_along _ _ _ _ U). unfold Rmin, Rmax.
    destruct (Rle_dec 2 1), (Rle_dec 0 3); lra.
Qed.

Print Assumptions C40_contains.
Print Assumptions C40_difference.
Print Assumptions C40_pieces_oriented.
Print Assumptions C40_covering_refuted.
Print Assumptions C40_away.
Print Assumptions C40_degenerate.

(* ---------------------------------------------------------------------- C41 *)

(** Not near-parallel: there is one point on both lines, and it is returned. When it has to
    be on the segment: nothing if it is not, the end point if it is less than the tolerance
    away from an end. *)
Theorem C41_projection : forall q v l, b1 l <> b2 l -> TOL_COLLINEAR <= Rabs (cross v l) ->
  exists p, meets q v l p /\ (forall p', meets q v l p' -> p' = p) /\
    projection q v l false = Ok (GPoint p) /\
    (~ on_segment l p -> projection q v l true = Ok GEmpty) /\
    (on_segment l p ->
       (tol <= gap (b1 l) p -> tol <= gap (b2 l) p -> projection q v l true = Ok (GPoint p)) /\
       (gap (b1 l) p < tol -> projection q v l true = Ok (GPoint (b1 l))) /\
       (tol <= gap (b1 l) p -> gap (b2 l) p < tol -> projection q v l true = Ok (GPoint (b2 l)))).
Proof.
  intros q v l N C.
  assert (C0 : cross v l <> 0).
  { intros E. rewrite E, Rabs_R0 in C. pose proof TOL_COLLINEAR_pos. lra. }
  destruct (projection_eq q v l false N C) as (p & m & M & Em & E).
  destruct (projection_eq q v l true N C) as (p2 & m2 & M2 & _ & E2).
  rewrite (meets_unique q v l p2 p C0 M2 M) in E2. clear p2 m2 M2.
  exists p. split; [exact M|]. split; [intros p' M'; exact (meets_unique q v l p' p C0 M' M)|].
  split; [exact E|].
  pose proof (contained_iff l m N) as CI. cbv zeta in CI. rewrite <- Em in CI.
  split.
  - intros O. rewrite E2. cbn [negb]. destruct (_ && _ && _); [exfalso; apply O; apply CI; reflexivity|].
    reflexivity.
  - intros O. rewrite E2. cbn [negb]. apply CI in O. rewrite O. rewrite !gap_dist.
    repeat split; intros.
    + rewrite (proj2 (Rltb_false _ _) H), (proj2 (Rltb_false _ _) H0). reflexivity.
    + rewrite (proj2 (Rltb_true _ _) H). reflexivity.
    + rewrite (proj2 (Rltb_false _ _) H), (proj2 (Rltb_true _ _) H0). reflexivity.
Qed.

(** Near-parallel, or a segment without extent. *)
Theorem C41_parallel : forall q v l mc, b1 l <> b2 l -> Rabs (cross v l) < TOL_COLLINEAR ->
  projection q v l mc = Ok GEmpty.
Proof.
  intros q v l mc N C. unfold projection. rewrite (boundary_ok l N). cbn [bind]. cbv zeta.
  replace (are_2d_vecs_collinear _ _) with true; [reflexivity|].
  symmetry. unfold are_2d_vecs_collinear. apply Rltb_true. cbn [fst snd].
  replace (- fst v * - (py (b2 l) - py (b1 l)) + - snd v * (px (b2 l) - px (b1 l))) with (cross v l)
    by (unfold cross; ring). exact C.
Qed.

Theorem C41_degenerate : forall q v l mc, b1 l = b2 l -> projection q v l mc = Err ValueError.
Proof. intros q v l mc E. unfold projection. rewrite (boundary_err l E). reflexivity. Qed.

(** The test is on the cross product, not on the angle: a short enough segment counts as
    parallel to any direction, even to one at a right angle. *)
Theorem C41_short_segment_refuted :
  let l := Line (Pt 0 0) (Pt (/ 1000000) 0) in
  let p := Pt (/ 2000000) 0 in
  meets (Pt (/ 2000000) 1) (0, 1) l p /\ on_segment l p /\ tol < gap (b1 l) p /\
  projection (Pt (/ 2000000) 1) (0, 1) l true = Ok GEmpty.
Proof.
  cbv zeta. split; [| split; [| split]].
  - split; [exists (-1) | exists (1 / 2)]; unfold seg_point; cbn [b1 b2 px py fst snd]; f_equal; lra.
  - exists (1 / 2). split; [lra|]. unfold seg_point; cbn [b1 b2 px py]; f_equal; lra.
  - unfold gap, dist2. cbn [b1 px py].
    replace ((0 - / 2000000) * (0 - / 2000000) + (0 - 0) * (0 - 0)) with (Rsqr (/ 2000000))
      by (unfold Rsqr; lra).
    rewrite sqrt_Rsqr by lra. unfold DISTANCE_TOLERANCE. lra.
  - apply C41_parallel.
    + cbn [b1 b2]. intros E. injection E as E. lra.
    + unfold cross, TOL_COLLINEAR. cbn [fst snd b1 b2 px py].
      replace (0 * (0 - 0) - 1 * (/ 1000000 - 0)) with (- / 1000000) by lra.
      rewrite Rabs_Ropp, Rabs_right by lra. lra.
Qed.

Example C41_case : 
  projection (Pt 1 2) (1, -2) (Line (Pt 0 0) (Pt 4 0)) true = Ok (GPoint (Pt 2 0)).
Proof.
  assert (C : TOL_COLLINEAR <= Rabs (cross (1, -2) (Line (Pt 0 0) (Pt 4 0)))).
  { unfold cross, TOL_COLLINEAR. cbn [fst snd b1 b2 px py].
    replace (1 * (0 - 0) - -2 * (4 - 0)) with 8 by lra. rewrite Rabs_right; lra. }
  assert (N : b1 (Line (Pt 0 0) (Pt 4 0)) <> b2 (Line (Pt 0 0) (Pt 4 0))).
  { cbn [b1 b2]. intros E. injection E as E. lra. }
  destruct (C41_projection (Pt 1 2) (1, -2) _ N C) as (p & _ & U & _ & _ & H).
  assert (M : meets (Pt 1 2) (1, -2) (Line (Pt 0 0) (Pt 4 0)) (Pt 2 0)).
  { split; [exists 1 | exists (1 / 2)]; unfold seg_point; cbn [b1 b2 px py fst snd]; f_equal; lra. }
  rewrite <- (U _ M) in H.
  assert (O : on_segment (Line (Pt 0 0) (Pt 4 0)) (Pt 2 0)).
  { exists (1 / 2). split; [lra|]. unfold seg_point; cbn [b1 b2 px py]; f_equal; lra. }
  assert (G : forall a, Rabs (a - 2) = 2 -> tol <= gap (Pt a 0) (Pt 2 0)).
  { intros a Ha. unfold gap, dist2. cbn [px py].
    replace ((a - 2) * (a - 2) + (0 - 0) * (0 - 0)) with (Rsqr (a - 2)) by (unfold Rsqr; ring).
    rewrite sqrt_Rsqr_abs, Ha. unfold DISTANCE_TOLERANCE. lra. }
  destruct (H O) as [H1 _].
  apply H1; cbn [b1 b2]; apply G; unfold Rabs; destruct (Rcase_abs _); lra.
Qed.

Print Assumptions C41_projection.
Print Assumptions C41_parallel.
Print Assumptions C41_degenerate.
Print Assumptions C41_short_segment_refuted.

(* ---------------------------------------------------------------------- C42 *)

(** The first surface that the point cuts is replaced by its two parts, the second at the
    end of the list; everything else is unchanged. The total length is the same when the
    point is on the surface, and at most twice the tolerance more otherwise. *)
Theorem C42_cut : forall c p l1 s l2,
  sc_surfaces c = l1 ++ s :: l2 ->
  (forall s', In s' l1 -> ~ cuttable tol s' p) ->
  (forall s', In s' l1 -> near tol (su_line s') p -> b1 (su_line s') <> b2 (su_line s')) ->
  cuttable tol s p ->
  exists c' s1 s2, sc_cut_at_point c p = Ok c' /\
    sc_surfaces c' = l1 ++ s1 :: l2 ++ [s2] /\
    sc_shaded c' = sc_shaded c /\ sc_collinear c' = sc_collinear c /\ sc_names c' = sc_names c /\
    part_of s (Line (b1 (su_line s)) p) s1 /\ part_of s (Line p (b2 (su_line s))) s2 /\
    (on_segment (su_line s) p -> sc_length c' = sc_length c) /\
    sc_length c <= sc_length c' < sc_length c + 2 * tol.
Proof.
  intros c p l1 s l2 E N D C. unfold sc_cut_at_point. rewrite E, (cut_loop_some l1 s l2 p N D C).
  cbn [bind].
  eexists _, (init_surface (Line (b1 (su_line s)) p) (su_nvec s) (su_shaded s) (su_names s)),
          (init_surface (Line p (b2 (su_line s))) (su_nvec s) (su_shaded s) (su_names s)).
  split; [reflexivity|]. cbn [sc_surfaces sc_shaded sc_collinear sc_names].
  split; [rewrite <- app_assoc; reflexivity|]. do 3 (split; [reflexivity|]).
  split; [apply init_part_of|]. split; [apply init_part_of|].
  match goal with |- (_ -> sc_length ?d = _) /\ _ =>
    assert (T : sc_length d = sc_length c
      + (gap (b1 (su_line s)) p + gap p (b2 (su_line s)) - seg_length (su_line s))) end.
  { unfold sc_length. cbn [sc_surfaces]. rewrite <- app_assoc. cbn [app].
    rewrite E. apply cut_total; reflexivity. }
  rewrite T.
  destruct (cut_length (su_line s) p) as [L1 L2]. split.
  - intros O. rewrite (L1 O). ring.
  - destruct C as [C _]. specialize (L2 C). lra.
Qed.

(** A point that cuts no surface changes nothing. *)
Theorem C42_no_cut : forall c p,
  (forall s, In s (sc_surfaces c) -> ~ cuttable tol s p) ->
  (forall s, In s (sc_surfaces c) -> near tol (su_line s) p -> b1 (su_line s) <> b2 (su_line s)) ->
  sc_cut_at_point c p = Ok c.
Proof. intros c p N D. unfold sc_cut_at_point. rewrite cut_loop_none by assumption. reflexivity. Qed.

(** In particular an end point, or a point away from all the surfaces. *)
Theorem C42_end_or_outside : forall c p,
  (forall s, In s (sc_surfaces c) -> b1 (su_line s) <> b2 (su_line s) /\
     (p = b1 (su_line s) \/ p = b2 (su_line s) \/ ~ near tol (su_line s) p)) ->
  sc_cut_at_point c p = Ok c.
Proof.
  intros c p H. apply C42_no_cut.
  - intros s Hs (C1 & C2 & C3).
    assert (Z : forall q, gap q q = 0).
    { intros q. unfold gap, dist2. rewrite !Rminus_diag_eq by reflexivity.
      rewrite Rmult_0_l, Rplus_0_l. apply sqrt_0. }
    pose proof DISTANCE_TOLERANCE_pos.
    destruct (H s Hs) as (_ & [->|[->|O]]); [rewrite Z in C2; lra | rewrite Z in C3; lra | contradiction].
  - intros s Hs _. apply H; assumption.
Qed.

(** A segment is cut in its illuminated part when the point is near it, else in its shaded
    part. *)
Theorem C42_segment : forall g p s,
  sc_surfaces (sg_illum g) <> [] ->
  (In s (sc_surfaces (sg_illum g)) -> near tol (su_line s) p ->
     forall c, sc_cut_at_point (sg_illum g) p = Ok c ->
     sg_cut_at_point g p = Ok (PVSegment c (sg_shaded g) (sg_cache g))) /\
  ((forall s', In s' (sc_surfaces (sg_illum g)) -> ~ near tol (su_line s') p) ->
     In s (sc_surfaces (sg_shaded g)) -> near tol (su_line s) p ->
     forall c, sc_cut_at_point (sg_shaded g) p = Ok c ->
     sg_cut_at_point g p = Ok (PVSegment (sg_illum g) c (sg_cache g))) /\
  ((forall s', In s' (sg_surfaces g) -> ~ near tol (su_line s') p) -> sg_cut_at_point g p = Ok g).
Proof.
  intros g p s NE.
  assert (CA : forall l, l <> [] ->
    (contains_any l p = true <-> exists s, In s l /\ near tol (su_line s) p)).
  { intros l NL. unfold contains_any. destruct l as [|a l]; [contradiction|].
    rewrite existsb_exists. split; intros (s' & I & H); exists s'; split; auto;
      apply contains_near; exact H. }
  assert (NE2 : sg_surfaces g <> []).
  { unfold sg_surfaces. destruct (sc_surfaces (sg_illum g)); [contradiction | discriminate]. }
  split; [| split].
  - intros I H c E. unfold sg_cut_at_point.
    assert (A : contains_any (sg_surfaces g) p = true).
    { apply CA; [exact NE2|]. exists s. split; [apply in_or_app; left; exact I | exact H]. }
    assert (B : contains_any (sc_surfaces (sg_illum g)) p = true) by (apply CA; eauto).
    rewrite A, B, E. reflexivity.
  - intros NI I H c E. unfold sg_cut_at_point.
    assert (A : contains_any (sg_surfaces g) p = true).
    { apply CA; [exact NE2|]. exists s. split; [apply in_or_app; right; exact I | exact H]. }
    assert (B : contains_any (sc_surfaces (sg_illum g)) p = false).
    { apply not_true_is_false. rewrite (CA _ NE). intros (s' & I' & H'). exact (NI s' I' H'). }
    rewrite A, B, E. reflexivity.
  - intros N. unfold sg_cut_at_point.
    assert (A : contains_any (sg_surfaces g) p = false).
    { apply not_true_is_false. rewrite (CA _ NE2). intros (s' & I' & H'). exact (N s' I' H'). }
    rewrite A. reflexivity.
Qed.

(** A fully shaded segment is never cut: its empty illuminated part is found to contain
    the point. *)
Theorem C42_fully_shaded_refuted : forall g p, sc_surfaces (sg_illum g) = [] ->
  sg_cut_at_point g p = Ok g.
Proof.
  intros g p E. unfold sg_cut_at_point. rewrite E. cbn [contains_any].
  destruct (contains_any _ p); [| reflexivity].
  unfold sc_cut_at_point. rewrite E. cbn [cut_loop bind].
  destruct g as [il sh ca]. reflexivity.
Qed.

(** A side is cut in the one segment that is near the point; the others are left as they
    are. It is left as it is when no segment is near the point. *)
Theorem C42_side : forall sd p,
  let away := fun g => forall s, In s (sg_surfaces g) -> ~ near tol (su_line s) p in
  ((forall g, In g sd -> away g) -> sd_cut_at_point sd p = Ok sd) /\
  (forall sd1 g sd2 s, sd = sd1 ++ g :: sd2 ->
     (forall g', In g' sd1 \/ In g' sd2 -> away g') ->
     In s (sg_surfaces g) -> near tol (su_line s) p ->
     (forall g', sg_cut_at_point g p = Ok g' -> sd_cut_at_point sd p = Ok (sd1 ++ g' :: sd2)) /\
     (forall x, sg_cut_at_point g p = Err x -> sd_cut_at_point sd p = Err x)).
Proof.
  intros sd p away.
  assert (NC : forall g, away g -> sg_cut_at_point g p = Ok g).
  { intros g A. destruct (sc_surfaces (sg_illum g)) as [|a l] eqn:E; [apply C42_fully_shaded_refuted; exact E|].
    destruct (C42_segment g p a ltac:(rewrite E; discriminate)) as (_ & _ & H). apply H. exact A. }
  assert (NS : forall l, (forall g, In g l -> away g) -> cut_segments l p = Ok l).
  { induction l as [|g l IH]; intro A; [reflexivity|]. cbn [cut_segments].
    rewrite (NC g (A g (or_introl eq_refl))). cbn [bind]. rewrite IH by (intros; apply A; right; assumption). reflexivity. }
  split.
  - intro A. unfold sd_cut_at_point. rewrite (NS sd A). destruct (contains_any _ p); reflexivity.
  - intros sd1 g sd2 s -> A I H.
    assert (C : contains_any (sd_surfaces (sd1 ++ g :: sd2)) p = true).
    { assert (IN : In s (sd_surfaces (sd1 ++ g :: sd2))).
      { unfold sd_surfaces. apply in_flat_map. exists g. split; [apply in_elt | exact I]. }
      unfold contains_any. destruct (sd_surfaces (sd1 ++ g :: sd2)) as [|a l]; [destruct IN|].
      apply existsb_exists. exists s. split; [exact IN | apply contains_near; exact H]. }
    unfold sd_cut_at_point. rewrite C.
    assert (D : cut_segments (sd1 ++ g :: sd2) p = do g' <- sg_cut_at_point g p; Ok (sd1 ++ g' :: sd2)).
    { clear C. induction sd1 as [|a l IH]; cbn [app cut_segments].
      - rewrite NS by (intros; apply A; right; assumption). destruct (sg_cut_at_point g p); reflexivity.
      - rewrite (NC a (A a (or_introl (or_introl eq_refl)))). cbn [bind].
        rewrite IH by (intros g' [Q|Q]; apply A; [left; right; exact Q | right; exact Q]).
        destruct (sg_cut_at_point g p); reflexivity. }
    rewrite D. split; intros y E; rewrite E; reflexivity.
Qed.

(** The cached list of surfaces of a segment is not updated by a cut. *)
Theorem C42_cache_refuted : forall g p g', sg_cut_at_point (snd (sg_all_surfaces g)) p = Ok g' ->
  fst (sg_all_surfaces g') = fst (sg_all_surfaces g).
Proof.
  intros [il sh ca] p g' H. unfold sg_all_surfaces, sg_cut_at_point in *.
  destruct ca as [l|]; cbn [sg_cache snd fst sg_illum sg_shaded] in *;
    (destruct (contains_any _ p); [destruct (contains_any _ p)|]);
    try (destruct (sc_cut_at_point _ p); cbn [bind] in H; [| discriminate]);
    injection H as <-; reflexivity.
Qed.

(** A case: an illuminated surface from (0, 0) to (4, 0) after another one, cut at (1, 0). *)
Definition flat_surface (x1 x2 : R) (sh : bool) : pv_surface :=
  PVSurface (Line (Pt x1 0) (Pt x2 0)) (0, 1) sh None [] (fun _ => None).
Lemma flat_as_along : forall x, Pt x 0 = along 0 0 1 0 x.
Proof. intros. unfold along. f_equal; ring. Qed.
Lemma flat_near : forall x1 x2 sh x,
  near tol (su_line (flat_surface x1 x2 sh)) (Pt x 0) <-> Rmin x1 x2 - tol < x < Rmax x1 x2 + tol.
Proof.
  intros. rewrite <- contains_near. unfold flat_surface. cbn [su_line]. rewrite !flat_as_along.
  apply contains_along. ring.
Qed.
Lemma flat_gap : forall a b, gap (Pt a 0) (Pt b 0) = Rabs (a - b).
Proof. intros. rewrite !flat_as_along. apply gap_along. ring. Qed.

Example C42_case : exists c',
  sc_cut_at_point (ShadeColl [flat_surface (-3) (-2) false; flat_surface 0 4 false] (Some false) true [])
                  (Pt 1 0) = Ok c' /\
  map su_line (sc_surfaces c')
  = [Line (Pt (-3) 0) (Pt (-2) 0); Line (Pt 0 0) (Pt 1 0); Line (Pt 1 0) (Pt 4 0)] /\
  sc_length c' = 5.
Proof.
  assert (T : 0 < tol < 1 / 2) by (unfold DISTANCE_TOLERANCE; lra).
  set (c := ShadeColl _ _ _ _).
  assert (N : ~ near tol (su_line (flat_surface (-3) (-2) false)) (Pt 1 0)).
  { rewrite flat_near. unfold Rmin, Rmax. destruct (Rle_dec (-3) (-2)); lra. }
  destruct (C42_cut c (Pt 1 0) [flat_surface (-3) (-2) false] (flat_surface 0 4 false) [] eq_refl)
    as (c' & s1 & s2 & E & ES & _ & _ & _ & P1 & P2 & L & _).
  - intros s' [<-|[]] (C & _). contradiction.
  - intros s' [<-|[]] C. contradiction.
  - split; [| split].
    + rewrite flat_near. unfold Rmin, Rmax. destruct (Rle_dec 0 4); lra.
    + cbn [flat_surface su_line b1]. rewrite flat_gap. unfold Rabs. destruct (Rcase_abs _); lra.
    + cbn [flat_surface su_line b2]. rewrite flat_gap. unfold Rabs. destruct (Rcase_abs _); lra.
  - exists c'. split; [exact E|]. split.
    + rewrite ES. cbn [map app]. destruct P1 as [-> _]. destruct P2 as [-> _]. reflexivity.
    + rewrite L.
      * unfold sc_length. rewrite py_sum_rsum. cbn [c sc_surfaces map rsum]. unfold su_length.
        rewrite !length_seg. unfold seg_length. cbn [flat_surface su_line b1 b2].
        rewrite !flat_gap. unfold Rabs. repeat destruct (Rcase_abs _); lra.
      * exists (1 / 4). split; [lra|]. unfold seg_point. cbn [flat_surface su_line b1 b2 px py].
        f_equal; lra.
Qed.

(** A side of two segments cut at (1, 0). *)
Example C42_side_case : exists g' g2,
  let seg x1 x2 := PVSegment (ShadeColl [flat_surface x1 x2 false] (Some false) true []) (ShadeColl [] (Some true) true []) None in
  g2 = seg 4 8 /\ sd_cut_at_point [seg 0 4; g2] (Pt 1 0) = Ok [g'; g2] /\
  map su_line (sg_surfaces g') = [Line (Pt 0 0) (Pt 1 0); Line (Pt 1 0) (Pt 4 0)].
Proof.
  assert (T : 0 < tol < 1 / 2) by (unfold DISTANCE_TOLERANCE; lra).
  set (seg := fun x1 x2 => PVSegment (ShadeColl [flat_surface x1 x2 false] (Some false) true []) (ShadeColl [] (Some true) true []) None).
  assert (N1 : near tol (su_line (flat_surface 0 4 false)) (Pt 1 0)).
  { rewrite flat_near. unfold Rmin, Rmax. destruct (Rle_dec 0 4); lra. }
  destruct (C42_cut (ShadeColl [flat_surface 0 4 false] (Some false) true []) (Pt 1 0) [] (flat_surface 0 4 false) [] eq_refl)
    as (c' & s1 & s2 & E & ES & _ & _ & _ & P1 & P2 & _).
  - intros s' [].
  - intros s' [].
  - split; [exact N1|]. split; cbn [flat_surface su_line b1 b2]; rewrite flat_gap; unfold Rabs; destruct (Rcase_abs _); lra.
  - pose proof (proj1 (C42_segment (seg 0 4) (Pt 1 0) (flat_surface 0 4 false) ltac:(discriminate)) (or_introl eq_refl) N1 c' E) as CG.
    eexists _, (seg 4 8). cbv zeta. split; [reflexivity|].
    destruct (C42_side [seg 0 4; seg 4 8] (Pt 1 0)) as [_ H].
    destruct (H [] (seg 0 4) [seg 4 8] (flat_surface 0 4 false) eq_refl) as [H1 _].
    + intros g [[]|[<-|[]]] s I. cbn in I. destruct I as [<-|[]]. rewrite flat_near. unfold Rmin, Rmax. destruct (Rle_dec 4 8); lra.
    + left. reflexivity.
    + exact N1.
    + split; [exact (H1 _ CG)|]. unfold sg_surfaces. cbn [sg_illum sg_shaded seg sc_surfaces]. rewrite ES. cbn [app map].
      destruct P1 as [-> _]. destruct P2 as [-> _]. reflexivity.
Qed.

(** A fully shaded segment from (0, 0) to (4, 0) is not cut at (1, 0), although its surface
    would be. *)
Example C42_fully_shaded_case :
  let g := PVSegment (ShadeColl [] (Some false) true []) (ShadeColl [flat_surface 0 4 true] (Some true) true []) None in
  cuttable tol (flat_surface 0 4 true) (Pt 1 0) /\ sg_cut_at_point g (Pt 1 0) = Ok g.
Proof.
  assert (T : 0 < tol < 1 / 2) by (unfold DISTANCE_TOLERANCE; lra).
  split; [| apply C42_fully_shaded_refuted; reflexivity].
  split; [| split].
  - rewrite flat_near. unfold Rmin, Rmax. destruct (Rle_dec 0 4); lra.
  - cbn [flat_surface su_line b1]. rewrite flat_gap. unfold Rabs. destruct (Rcase_abs _); lra.
  - cbn [flat_surface su_line b2]. rewrite flat_gap. unfold Rabs. destruct (Rcase_abs _); lra.
Qed.

Print Assumptions C42_cut.
Print Assumptions C42_no_cut.
Print Assumptions C42_end_or_outside.
Print Assumptions C42_segment.
Print Assumptions C42_side.
Print Assumptions C42_fully_shaded_refuted.
Print Assumptions C42_cache_refuted.

(* ---------------------------------------------------------------------- C43 *)

(** A list with both shaded and illuminated surfaces is refused, any other list is
    accepted, and the collection has the shading of its surfaces. *)
Theorem C43_mixed : forall l sh names,
  shade_collection l sh names = Err PVFactorsError
  <-> exists s s', In s l /\ In s' l /\ su_shaded s = true /\ su_shaded s' = false.
Proof.
  intros l sh names. unfold shade_collection.
  destruct (uniform_shading_cases l) as [[-> H]|[-> (s & s' & I & I' & D)]]; cbn [bind].
  - split; [discriminate|]. intros (s & s' & I & I' & A & B). rewrite (H s s' I I'), B in A. discriminate.
  - split; [| reflexivity]. intros _.
    destruct (su_shaded s) eqn:A, (su_shaded s') eqn:B; try congruence;
      [exists s, s' | exists s', s]; auto.
Qed.

Theorem C43_uniform : forall l sh names,
  (forall s s', In s l -> In s' l -> su_shaded s = su_shaded s') ->
  exists c, shade_collection l sh names = Ok c /\ sc_surfaces c = l /\ sc_names c = names /\
    (forall s, In s l -> sc_shaded c = Some (su_shaded s)) /\ (l = [] -> sc_shaded c = sh).
Proof.
  intros l sh names H. unfold shade_collection.
  destruct (uniform_shading_cases l) as [[-> _]|[_ (s & s' & I & I' & D)]].
  - eexists. split; [reflexivity|]. cbn [sc_surfaces sc_names sc_shaded]. do 2 (split; [reflexivity|]).
    split; [| intros ->; reflexivity].
    intros s I. destruct l as [|a l]; [destruct I|]. cbn [get_shading]. f_equal.
    apply H; [left; auto | exact I].
  - elim D. auto.
Qed.

(** A segment accepted by the constructor has only illuminated surfaces in the one
    collection and only shaded ones in the other. *)
Theorem C43_segment : forall li fi ni ls fs nss il sh,
  shade_collection li fi ni = Ok il -> shade_collection ls fs nss = Ok sh ->
  (forall g, pvsegment_init il sh = Ok g ->
     sg_illum g = il /\ sg_shaded g = sh /\
     (forall s, In s li -> su_shaded s = false) /\ (forall s, In s ls -> su_shaded s = true)) /\
  ((exists s, In s li /\ su_shaded s = true) \/ (exists s, In s ls /\ su_shaded s = false) ->
     pvsegment_init il sh = Err AssertionError).
Proof.
  intros li fi ni ls fs nss il sh Ei Es.
  assert (F : forall l f n c, shade_collection l f n = Ok c ->
              forall s, In s l -> sc_shaded c = Some (su_shaded s)).
  { intros l f n c E s I. unfold shade_collection in E.
    destruct (uniform_shading_cases l) as [[U H]|[U _]]; rewrite U in E; [| discriminate].
    cbn [bind] in E. injection E as <-. cbn [sc_shaded]. destruct l as [|a l]; [destruct I|].
    cbn [get_shading]. f_equal. apply H; [left; auto | exact I]. }
  pose proof (F _ _ _ _ Ei) as Fi. pose proof (F _ _ _ _ Es) as Fs. clear F. split.
  - intros g H. unfold pvsegment_init in H.
    destruct (sc_shaded sh) as [[|]|] eqn:Esh; try discriminate.
    assert (G : exists u, segment_check il sh = Ok u /\ g = PVSegment il sh None /\ sc_shaded il <> Some true).
    { destruct (sc_shaded il) as [[|]|] eqn:Eil; try discriminate;
        (destruct (segment_check il sh) as [u|]; [| discriminate]; cbn [bind] in H;
         injection H as <-; exists u; repeat split; discriminate). }
    destruct G as (u & _ & -> & NI). cbn [sg_illum sg_shaded]. do 2 (split; [reflexivity|]). split.
    + intros s I. specialize (Fi s I). destruct (su_shaded s); [congruence | reflexivity].
    + intros s I. specialize (Fs s I). congruence.
  - intros [(s & I & H)|(s & I & H)]; unfold pvsegment_init.
    + rewrite (Fi s I), H. destruct (sc_shaded sh) as [[|]|]; reflexivity.
    + rewrite (Fs s I), H. reflexivity.
Qed.

Example C43_case :
  shade_collection [flat_surface 0 1 true; flat_surface 1 2 false] None [] = Err PVFactorsError /\
  exists c, shade_collection [flat_surface 0 1 true; flat_surface 1 2 true] None [] = Ok c /\
            sc_shaded c = Some true.
Proof. split; [reflexivity | eexists; split; reflexivity]. Qed.

Print Assumptions C43_mixed.
Print Assumptions C43_uniform.
Print Assumptions C43_segment.
