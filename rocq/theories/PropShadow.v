(** Shadows cast on the segments and sides of one timestep (C67). *)
From Coq Require Import Reals List Bool Arith String Lra Lia Psatz.
From Verif Require Import Num ModelTs ModelGeom ModelVF ModelParams ModelLinalg ModelShapely ModelShadow
  Basics SpecGeom SpecShapely SpecShadow ProofShapely ProofCutPoint ProofShadow PropShapely.
Import ListNotations.
Open Scope R_scope.
Open Scope list_scope.

Local Notation tol := DISTANCE_TOLERANCE.

(* ------------------------------------------------------------------ lemmas *)

Section Cast.
Variables x y c s : R.
Hypothesis unit : c * c + s * s = 1.
Local Notation at_ := (along x y c s).
Local Notation L a b := (Line (at_ a) (at_ b)).
Local Notation ends_of := (lines_at x y c s).

Lemma untouched : forall a b u v, a <> b -> u <> v ->
  buffer_intersects (L a b) (L u v) = false -> cut_out a b u v = [(a, b)].
Proof.
  intros a b u v N M H. unfold buffer_intersects in H.
  pose proof (near_part_spec x y c s unit u v a b M) as K.
  destruct (near_part (L u v) (L a b)) as [i|]; [discriminate|].
  unfold cut_out. destruct (Rlt_dec (Rmax (Rmin a b) (Rmin u v)) (Rmin (Rmax a b) (Rmax u v))) as [O|O]; [|reflexivity].
  exfalso. set (m := Rmax (Rmin a b) (Rmin u v)) in *.
  assert (T := tol_pos).
  apply (K ((m - u) / (v - u))).
  - assert (B : Rmin u v <= m <= Rmax u v) by (subst m; rmm; lra). clearbody m.
    destruct (Rlt_dec u v) as [D|D].
    + rewrite Rmin_left, Rmax_right in B by lra. split.
      * apply (Rmult_le_reg_r (v - u)); [lra|]. replace ((m - u) / (v - u) * (v - u)) with (m - u) by (field; lra). lra.
      * apply (Rmult_le_reg_r (v - u)); [lra|]. replace ((m - u) / (v - u) * (v - u)) with (m - u) by (field; lra). lra.
    + rewrite Rmin_right, Rmax_left in B by lra. replace ((m - u) / (v - u)) with ((u - m) / (u - v)) by (field; lra). split.
      * apply (Rmult_le_reg_r (u - v)); [lra|]. replace ((u - m) / (u - v) * (u - v)) with (u - m) by (field; lra). lra.
      * apply (Rmult_le_reg_r (u - v)); [lra|]. replace ((u - m) / (u - v) * (u - v)) with (u - m) by (field; lra). lra.
  - rewrite <- to_pos by lra. unfold close. subst m. rmm; lra.
Qed.

Lemma surface_less_lines : forall S a b u v, su_line S = L a b -> a <> b -> u <> v ->
  map su_line (surface_less S (L u v)) = ends_of (cut_out a b u v) /\
  forall S', In S' (surface_less S (L u v)) -> S' = S \/ part_of S (su_line S') S'.
Proof.
  intros S a b u v E N M. unfold surface_less. rewrite E. destruct (buffer_intersects (L a b) (L u v)) eqn:B.
  - rewrite (line_difference_along x y c s unit) by exact N. split; [rewrite map_map; cbn [su_line]; apply map_id|].
    intros S' I. right. apply in_map_iff in I. destruct I as (l & <- & I). apply init_part_of.
  - rewrite (untouched a b u v N M B). cbn. rewrite E. split; [reflexivity|]. intros S' [<-|[]]. left. reflexivity.
Qed.

Definition cut_all (u v : R) (ps : list (R * R)) : list (R * R) := flat_map (fun i => cut_out (fst i) (snd i) u v) ps.

Lemma remove_lines : forall l ps u v, map su_line l = ends_of ps -> (forall i, In i ps -> fst i <> snd i) -> u <> v ->
  map su_line (flat_map (fun S => surface_less S (L u v)) l) = ends_of (cut_all u v ps) /\
  forall S', In S' (flat_map (fun S => surface_less S (L u v)) l) ->
    exists S, In S l /\ (S' = S \/ part_of S (su_line S') S').
Proof.
  induction l as [|S l IH]; intros [|[a b] ps] u v E N M; try discriminate; [split; [reflexivity|intros S' []]|].
  cbn [map lines_at fst snd] in E. injection E as E1 E2.
  destruct (surface_less_lines S a b u v E1 (N (a, b) (or_introl eq_refl)) M) as [H1 H2].
  destruct (IH ps u v E2 (fun i I => N i (or_intror I)) M) as [H3 H4].
  cbn [flat_map cut_all fst snd]. unfold lines_at. rewrite !map_app. fold (cut_all u v ps). split.
  - rewrite H1, H3. reflexivity.
  - intros S' I. apply in_app_iff in I. destruct I as [I|I].
    + exists S. split; [left; reflexivity|]. apply H2. exact I.
    + destruct (H4 S' I) as (S0 & I0 & P). exists S0. split; [right; exact I0|exact P].
Qed.

Lemma cut_all_spec : forall ps u v, (forall i, In i ps -> fst i <> snd i) -> u <> v ->
  (forall i, In i (cut_all u v ps) -> fst i <> snd i) /\
  (forall t, lies_in (cut_all u v ps) t -> lies_in ps t /\ ~ Rmin u v < t < Rmax u v) /\
  (forall t, lies_in ps t -> ~ between u v t -> lies_in (cut_all u v ps) t) /\
  full_length (cut_all u v ps) = full_length ps - shared u v ps.
Proof.
  intros ps u v N M. induction ps as [|[a b] ps IH]; cbn [cut_all flat_map fst snd].
  - split; [intros i []|]. split; [intros t (i & [] & _)|]. split; [intros t (i & [] & _)|]. cbn. ring.
  - destruct (cut_out_spec a b u v (N (a, b) (or_introl eq_refl)) M) as (A1 & A2 & A3 & A4).
    destruct (IH (fun i I => N i (or_intror I))) as (B1 & B2 & B3 & B4). fold (cut_all u v ps).
    assert (LI : forall p q t, lies_in (p ++ q) t <-> lies_in p t \/ lies_in q t).
    { intros p q t. unfold lies_in. split.
      - intros (i & I & H). apply in_app_iff in I. destruct I as [I|I]; [left|right]; exists i; split; assumption.
      - intros [(i & I & H)|(i & I & H)]; exists i; (split; [apply in_app_iff; tauto|exact H]). }
    assert (LC : forall t, lies_in ((a, b) :: ps) t <-> between a b t \/ lies_in ps t).
    { intro t. unfold lies_in. split.
      - intros (i & [<-|I] & H); [left; exact H|right; exists i; split; assumption].
      - intros [H|(i & I & H)]; [exists (a, b); split; [left; reflexivity|exact H]|exists i; split; [right; exact I|exact H]]. }
    split; [|split; [|split]].
    + intros i I. apply in_app_iff in I. destruct I as [I|I]; [exact (proj1 (A1 i I))|exact (B1 i I)].
    + intros t H. apply LI in H. rewrite LC. destruct H as [H|H]; [destruct (A2 t H)|destruct (B2 t H)]; tauto.
    + intros t H K. apply LI. apply LC in H. destruct H as [H|H]; [left; apply A3; assumption|right; apply B3; assumption].
    + assert (TA : forall p q, full_length (p ++ q) = full_length p + full_length q).
      { intros p q. unfold full_length. induction p as [|i p IHp]; cbn [app fold_right]; [ring|]. rewrite IHp. ring. }
      rewrite TA, A4, B4. unfold full_length, shared. cbn [fold_right fst snd]. ring.
Qed.

Lemma lines_total : forall l ps, map su_line l = ends_of ps -> py_sum (map su_length l) = full_length ps.
Proof.
  intros l ps E. rewrite py_sum_rsum. revert ps E. induction l as [|S l IH]; intros [|i ps] E; try discriminate; [reflexivity|].
  cbn [map lines_at] in E. injection E as E1 E2. cbn [map rsum fold_right full_length]. fold (full_length ps).
  unfold su_length at 1. rewrite E1, (length_along x y c s unit), Rabs_minus_sym. f_equal. apply (IH ps E2).
Qed.
End Cast.

(* --------------------------------------------------------------------- C67 *)

(** The illuminated surfaces are pieces [ps] of one line and the shadow runs along the
    line from [p] to [q]. If the part of the shadow that is at most the tolerance away from
    the surfaces goes from [lo] to [hi], then this part becomes one shaded surface, in the
    direction of the shadow; the illuminated surfaces are the same outside of it, and none
    is left inside; they keep their normal vectors and shading, and those that are cut have no
    parameter set. *)
Theorem C67_shadow : forall x y c s ps p q lo hi g,
  c * c + s * s = 1 -> map su_line (sc_surfaces (sg_illum g)) = lines_at x y c s ps ->
  (forall i, In i ps -> fst i <> snd i) -> p <> q -> lo < hi ->
  (forall t, caught tol p q ps t <-> lo <= t <= hi) ->
  sc_collinear (sg_illum g) = true -> sc_shaded (sg_shaded g) = Some true ->
  exists g' new ps',
    sg_cast_shadow g (Line (along x y c s p) (along x y c s q)) = Ok g' /\
    sc_surfaces (sg_shaded g') = sc_surfaces (sg_shaded g) ++ [new] /\
    (p < q -> su_line new = Line (along x y c s lo) (along x y c s hi)) /\
    (q < p -> su_line new = Line (along x y c s hi) (along x y c s lo)) /\
    su_shaded new = true /\ su_index new = None /\ su_names new = sc_names (sg_shaded g) /\
    (forall k, su_params new k = if in_dec string_dec k (sc_names (sg_shaded g)) then Some SNone else None) /\
    (forall S, hd_error (sc_surfaces (sg_illum g)) = Some S -> su_nvec new = su_nvec S) /\
    sc_shaded (sg_shaded g') = Some true /\ sc_shaded (sg_illum g') = sc_shaded (sg_illum g) /\
    sc_names (sg_shaded g') = sc_names (sg_shaded g) /\ sc_names (sg_illum g') = sc_names (sg_illum g) /\
    sc_collinear (sg_illum g') = true /\
    map su_line (sc_surfaces (sg_illum g')) = lines_at x y c s ps' /\
    (forall i, In i ps' -> fst i <> snd i) /\
    (forall t, t < lo \/ hi < t -> (lies_in ps' t <-> lies_in ps t)) /\
    (forall t, lo < t < hi -> ~ lies_in ps' t) /\
    (forall S', In S' (sc_surfaces (sg_illum g')) ->
       exists S, In S (sc_surfaces (sg_illum g)) /\ (S' = S \/ part_of S (su_line S') S')) /\
    sc_length (sg_illum g') = sc_length (sg_illum g) - shared lo hi ps /\
    sg_shaded_length g' = sg_shaded_length g + (hi - lo).
Proof.
  intros x y c s ps p q lo hi g U E N PQ LH C COL SH.
  set (u := if Rlt_dec p q then lo else hi). set (v := if Rlt_dec p q then hi else lo).
  assert (UV : u <> v) by (subst u v; destruct (Rlt_dec p q); lra).
  assert (Mn : Rmin u v = lo) by (subst u v; destruct (Rlt_dec p q); rmm; lra).
  assert (Mx : Rmax u v = hi) by (subst u v; destruct (Rlt_dec p q); rmm; lra).
  assert (BI : buffer_intersection (lines_at x y c s ps) (Line (along x y c s p) (along x y c s q))
               = GLine (Line (along x y c s u) (along x y c s v))).
  { rewrite (intersection_line x y c s U p q ps lo hi PQ LH C). subst u v. destruct (Rlt_dec p q); reflexivity. }
  destruct (sc_surfaces (sg_illum g)) as [|S0 rest] eqn:ES.
  { exfalso. destruct ps; [|discriminate]. destruct (proj2 (C lo) ltac:(lra)) as (_ & i & [] & _). }
  destruct (remove_lines x y c s U _ ps u v E N UV) as [RL RP].
  destruct (cut_all_spec ps u v N UV) as (K1 & K2 & K3 & K4). rewrite Mn, Mx in K2.
  unfold sg_cast_shadow. rewrite ES, E, BI.
  assert (NV : sg_nvec g = Ok (Some (su_nvec S0))).
  { unfold sg_nvec, sc_is_empty, sc_nvec. rewrite ES, COL. reflexivity. }
  rewrite NV. unfold add_linestring, pvsurface_init. rewrite SH. cbn [bind].
  set (new := PVSurface _ _ _ _ _ _). eexists. exists new, (cut_all u v ps). split; [reflexivity|].
  cbn [sg_shaded sg_illum add_pvsurface remove_linestring sc_surfaces sc_shaded]. rewrite ES.
  assert (LN : sg_shaded_length {| sg_illum := remove_linestring (sg_illum g) (Line (along x y c s u) (along x y c s v)); sg_shaded := add_pvsurface (sg_shaded g) new; sg_cache := sg_cache g |}
               = sg_shaded_length g + (hi - lo)).
  { unfold sg_shaded_length, sc_length. cbn [sg_shaded add_pvsurface sc_surfaces]. rewrite !py_sum_rsum, map_app, rsum_app. cbn [map rsum fold_right].
    unfold su_length at 2. subst new. cbn [su_line]. rewrite (length_along x y c s U). subst u v. destruct (Rlt_dec p q); unfold Rabs; destruct (Rcase_abs _); lra. }
  split; [reflexivity|].
  split; [intro H; subst new u v; cbn [su_line]; destruct (Rlt_dec p q); [reflexivity|lra]|].
  split; [intro H; subst new u v; cbn [su_line]; destruct (Rlt_dec p q); [lra|reflexivity]|].
  do 3 (split; [reflexivity|]). split; [intro k; subst new; cbn [su_params]; apply existsb_in_dec|]. split; [intros S HS; injection HS as <-; reflexivity|].
  split; [exact SH|]. do 3 (split; [reflexivity|]). split; [exact COL|]. split; [exact RL|]. split; [exact K1|].
  split; [intros t T; split; [intro H; exact (proj1 (K2 t H))|intro H; apply K3; [exact H|unfold between; rewrite Mn, Mx; lra]]|].
  split; [intros t T H; destruct (K2 t H); tauto|]. split; [exact RP|]. split; [|exact LN].
  unfold sc_length. cbn [sc_surfaces remove_linestring]. rewrite ES, (lines_total x y c s U _ _ RL), (lines_total x y c s U _ _ E), K4. f_equal.
  unfold shared. assert (O : forall a b, overlap a b u v = overlap a b lo hi).
  { intros a b. unfold overlap. rewrite Mn, Mx. replace (Rmax lo hi) with hi by (rmm; lra). replace (Rmin lo hi) with lo by (rmm; lra). reflexivity. }
  clear - O. induction ps as [|i ps IH]; [reflexivity|]. cbn [fold_right]. rewrite O, IH. reflexivity.
Qed.

(** A shadow with no point at most the tolerance away from an illuminated surface changes
    nothing. *)
Theorem C67_missed : forall x y c s ps p q g,
  c * c + s * s = 1 -> map su_line (sc_surfaces (sg_illum g)) = lines_at x y c s ps -> p <> q ->
  (forall t, ~ caught tol p q ps t) ->
  sg_cast_shadow g (Line (along x y c s p) (along x y c s q)) = Ok g.
Proof.
  intros x y c s ps p q g U E PQ C. unfold sg_cast_shadow.
  rewrite E, (intersection_empty x y c s U p q ps PQ C). reflexivity.
Qed.

(** A shadow that reaches illuminated surfaces in two places that are apart is refused. *)
Theorem C67_parts : forall x y c s ps p q g t1 t2 t3,
  c * c + s * s = 1 -> map su_line (sc_surfaces (sg_illum g)) = lines_at x y c s ps -> p <> q ->
  caught tol p q ps t1 -> caught tol p q ps t3 -> t1 < t2 < t3 -> ~ caught tol p q ps t2 ->
  sg_cast_shadow g (Line (along x y c s p) (along x y c s q)) = Err NotImplementedError.
Proof.
  intros x y c s ps p q g t1 t2 t3 U E PQ C1 C3 O C2. unfold sg_cast_shadow. rewrite E.
  destruct (intersection_gap x y c s U p q ps t1 t2 t3 PQ C1 C3 O C2) as (ls & ->). reflexivity.
Qed.

(** A shadow inside a single illuminated surface: the lengths are those of the shadow and of
    the rest, and the total length does not change. *)
Theorem C67_inside : forall x y c s a b p q g,
  c * c + s * s = 1 -> map su_line (sc_surfaces (sg_illum g)) = lines_at x y c s [(a, b)] ->
  a <> b -> p <> q -> between a b p -> between a b q ->
  sc_collinear (sg_illum g) = true -> sc_shaded (sg_shaded g) = Some true ->
  exists g' new,
    sg_cast_shadow g (Line (along x y c s p) (along x y c s q)) = Ok g' /\
    sc_surfaces (sg_shaded g') = sc_surfaces (sg_shaded g) ++ [new] /\
    su_line new = Line (along x y c s p) (along x y c s q) /\
    sg_shaded_length g' = sg_shaded_length g + Rabs (q - p) /\
    sc_length (sg_illum g') = sc_length (sg_illum g) - Rabs (q - p) /\
    sg_length g' = sg_length g.
Proof.
  intros x y c s a b p q g U E AB PQ P Q COL SH. unfold between in P, Q. assert (T := tol_pos).
  destruct (C67_shadow x y c s [(a, b)] p q (Rmin p q) (Rmax p q) g U E) as
    (g' & new & ps' & H1 & H2 & H3 & H4 & _ & _ & _ & _ & _ & _ & _ & _ & _ & _ & _ & _ & _ & _ & _ & H5 & H6);
    try assumption.
  - intros i [<-|[]]. exact AB.
  - rmm; lra.
  - intro t. unfold caught, close_any, between. split; [intros (H & _); exact H|]. intro H. split; [exact H|].
    exists (a, b). split; [left; reflexivity|]. unfold close. cbn [fst snd]. rmm; lra.
  - assert (SL : shared (Rmin p q) (Rmax p q) [(a, b)] = Rabs (q - p)).
    { unfold shared, overlap. cbn [fold_right fst snd]. unfold Rabs. destruct (Rcase_abs (q - p)); rmm; lra. }
    assert (DL : Rmax p q - Rmin p q = Rabs (q - p)) by (unfold Rabs; destruct (Rcase_abs (q - p)); rmm; lra).
    exists g', new. split; [exact H1|]. split; [exact H2|]. split.
    + destruct (Rlt_dec p q) as [D|D]; [rewrite (H3 D)|rewrite (H4 ltac:(lra))]; f_equal; f_equal; rmm; lra.
    + rewrite DL in H6. rewrite SL in H5. split; [exact H6|]. split; [exact H5|]. unfold sg_length, sg_shaded_length in *. lra.
Qed.

(** The total length never shrinks and grows by at most twice the tolerance, for a single
    illuminated surface that the shadow overlaps. *)
Theorem C67_total : forall x y c s a b p q g,
  c * c + s * s = 1 -> map su_line (sc_surfaces (sg_illum g)) = lines_at x y c s [(a, b)] ->
  a <> b -> p <> q -> 0 < overlap a b p q ->
  sc_collinear (sg_illum g) = true -> sc_shaded (sg_shaded g) = Some true ->
  exists g', sg_cast_shadow g (Line (along x y c s p) (along x y c s q)) = Ok g' /\
    sc_length (sg_illum g') = sc_length (sg_illum g) - overlap a b p q /\
    sg_length g <= sg_length g' <= sg_length g + 2 * tol.
Proof.
  intros x y c s a b p q g U E AB PQ O COL SH. unfold overlap in O. assert (T := tol_pos).
  set (lo := Rmax (Rmin a b - tol) (Rmin p q)). set (hi := Rmin (Rmax a b + tol) (Rmax p q)).
  destruct (C67_shadow x y c s [(a, b)] p q lo hi g U E) as
    (g' & new & ps' & H1 & _ & _ & _ & _ & _ & _ & _ & _ & _ & _ & _ & _ & _ & _ & _ & _ & _ & _ & H5 & H6);
    try assumption.
  - intros i [<-|[]]. exact AB.
  - subst lo hi. rmm; lra.
  - intro t. unfold caught, close_any, between. subst lo hi. split.
    + intros (H & i & [<-|[]] & K). unfold close in K. cbn [fst snd] in K. rmm; lra.
    + intro H. split; [rmm; lra|]. exists (a, b). split; [left; reflexivity|]. unfold close. cbn [fst snd]. rmm; lra.
  - assert (SL : shared lo hi [(a, b)] = overlap a b p q).
    { unfold shared, overlap. cbn [fold_right fst snd]. subst lo hi. rmm; lra. }
    assert (B : overlap a b p q <= hi - lo <= overlap a b p q + 2 * tol) by (unfold overlap; subst lo hi; rmm; lra).
    exists g'. rewrite SL in H5. split; [exact H1|]. split; [exact H5|]. unfold sg_length, sg_shaded_length in *. lra.
Qed.

(** A shadow that only reaches a surface at one point is an error: there is no line string
    of one point. *)
Theorem C67_touch : forall x y c s ps p q g t0,
  c * c + s * s = 1 -> map su_line (sc_surfaces (sg_illum g)) = lines_at x y c s ps -> p <> q ->
  (forall t, caught tol p q ps t <-> t = t0) ->
  sg_cast_shadow g (Line (along x y c s p) (along x y c s q)) = Err ValueError.
Proof.
  intros x y c s ps p q g t0 U E PQ C. unfold sg_cast_shadow. rewrite E.
  rewrite (intersection_point x y c s U p q ps t0 PQ C). reflexivity.
Qed.

(** Not so: casting the same shadow again changes nothing. A shadow strictly inside a surface
    leaves two illuminated surfaces, and its second cast is an error. *)
Theorem C67_again_refuted : forall x y c s a b p q g,
  c * c + s * s = 1 -> map su_line (sc_surfaces (sg_illum g)) = lines_at x y c s [(a, b)] ->
  a < p -> p + 2 * tol < q -> q < b ->
  sc_collinear (sg_illum g) = true -> sc_shaded (sg_shaded g) = Some true ->
  let shadow := Line (along x y c s p) (along x y c s q) in
  exists g', sg_cast_shadow g shadow = Ok g' /\ sg_cast_shadow g' shadow = Err NotImplementedError.
Proof.
  intros x y c s a b p q g U E AP PQ QB COL SH shadow. assert (T := tol_pos).
  destruct (C67_shadow x y c s [(a, b)] p q p q g U E) as
    (g' & new & ps' & H1 & _ & _ & _ & _ & _ & _ & _ & _ & _ & _ & _ & _ & _ & H2 & H3 & H4 & H5 & _);
    try assumption; try lra.
  - intros i [<-|[]]. cbn. lra.
  - intro t. unfold caught, close_any, between. split; [intros (H & _); rmm; lra|]. intro H. split; [rmm; lra|].
    exists (a, b). split; [left; reflexivity|]. unfold close. cbn [fst snd]. rmm; lra.
  - exists g'. split; [exact H1|].
    assert (LI : forall t, a <= t <= b -> lies_in [(a, b)] t).
    { intros t H. exists (a, b). split; [left; reflexivity|]. unfold between. cbn [fst snd]. rmm; lra. }
    apply (C67_parts x y c s ps' p q g' p ((p + q) / 2) q U H2); [lra| | |lra|].
    + set (t := Rmax a (p - tol)). destruct (proj2 (H4 t ltac:(subst t; rmm; lra)) (LI t ltac:(subst t; rmm; lra))) as (i & I & B).
      split; [unfold between; rmm; lra|]. exists i. split; [exact I|]. unfold close, between in *.
      assert (p - tol <= t <= p) by (subst t; rmm; lra). lra.
    + set (t := Rmin b (q + tol)). destruct (proj2 (H4 t ltac:(subst t; rmm; lra)) (LI t ltac:(subst t; rmm; lra))) as (i & I & B).
      split; [unfold between; rmm; lra|]. exists i. split; [exact I|]. unfold close, between in *.
      assert (q <= t <= q + tol) by (subst t; rmm; lra). lra.
    + intros (_ & i & I & CL). unfold close in CL. pose proof (H3 i I) as NI.
      set (m := Rmin (fst i) (snd i)) in *. set (M := Rmax (fst i) (snd i)) in *.
      assert (MM : m < M) by (subst m M; rmm; lra).
      assert (F : forall t, p < t < q -> ~ m <= t <= M).
      { intros t Ht K. apply (H5 t Ht). exists i. split; [exact I|exact K]. }
      destruct (Rle_dec M p) as [Z|Z]; [lra|]. destruct (Rle_dec q m) as [Z2|Z2]; [lra|].
      assert (Y : Rmax m p < Rmin M q) by (rmm; lra).
      apply (F ((Rmax m p + Rmin M q) / 2)); rmm; lra.
Qed.

(** Not so: a shadow that stops where a segment starts leaves it alone. It adds to the segment a
    shaded surface, as long as the tolerance, that lies outside of it. *)
Theorem C67_neighbour_refuted : forall x y c s a b p g,
  c * c + s * s = 1 -> map su_line (sc_surfaces (sg_illum g)) = lines_at x y c s [(a, b)] ->
  a < b -> p + tol < a ->
  sc_collinear (sg_illum g) = true -> sc_shaded (sg_shaded g) = Some true ->
  exists g' new, sg_cast_shadow g (Line (along x y c s p) (along x y c s a)) = Ok g' /\
    sc_surfaces (sg_shaded g') = sc_surfaces (sg_shaded g) ++ [new] /\
    su_line new = Line (along x y c s (a - tol)) (along x y c s a) /\
    sc_length (sg_illum g') = sc_length (sg_illum g) /\
    sg_length g' = sg_length g + tol.
Proof.
  intros x y c s a b p g U E AB PA COL SH. assert (T := tol_pos).
  destruct (C67_shadow x y c s [(a, b)] p a (a - tol) a g U E) as
    (g' & new & ps' & H1 & H2 & H3 & _ & _ & _ & _ & _ & _ & _ & _ & _ & _ & _ & _ & _ & _ & _ & _ & H5 & H6);
    try assumption; try lra.
  - intros i [<-|[]]. cbn. lra.
  - intro t. unfold caught, close_any, between. split.
    + intros (H & i & [<-|[]] & K). unfold close in K. cbn [fst snd] in K. rmm; lra.
    + intro H. split; [rmm; lra|]. exists (a, b). split; [left; reflexivity|]. unfold close. cbn [fst snd]. rmm; lra.
  - exists g', new. split; [exact H1|]. split; [exact H2|]. split; [apply H3; lra|].
    assert (SL : shared (a - tol) a [(a, b)] = 0) by (unfold shared, overlap; cbn [fold_right fst snd]; rmm; lra).
    rewrite SL in H5. split; [lra|]. unfold sg_length, sg_shaded_length in *. lra.
Qed.

(** Not so: the list of all the surfaces follows a shadow. Read before, it is kept. *)
Theorem C67_stale_refuted : forall x y c s a b p q g,
  c * c + s * s = 1 -> map su_line (sc_surfaces (sg_illum g)) = lines_at x y c s [(a, b)] ->
  a <> b -> p <> q -> between a b p -> between a b q ->
  sc_collinear (sg_illum g) = true -> sc_shaded (sg_shaded g) = Some true ->
  let g1 := snd (sg_all_surfaces g) in
  exists g', sg_cast_shadow g1 (Line (along x y c s p) (along x y c s q)) = Ok g' /\
    fst (sg_all_surfaces g') = fst (sg_all_surfaces g) /\
    List.length (sc_surfaces (sg_shaded g')) = S (List.length (sc_surfaces (sg_shaded g))).
Proof.
  intros x y c s a b p q g U E AB PQ P Q COL SH g1.
  assert (G1 : sg_illum g1 = sg_illum g /\ sg_shaded g1 = sg_shaded g /\ sg_cache g1 = Some (fst (sg_all_surfaces g))).
  { subst g1. unfold sg_all_surfaces. destruct (sg_cache g) as [l|] eqn:Ec; cbn [fst snd sg_illum sg_shaded sg_cache]; auto. }
  destruct G1 as (G1 & G2 & G3).
  destruct (C67_inside x y c s a b p q g1 U) as (g' & new & H1 & H2 & _);
    try assumption; try (rewrite G1; assumption); try (rewrite G2; assumption).
  exists g'. split; [exact H1|]. rewrite H2, G2, app_length, Nat.add_1_r. split; [|reflexivity].
  unfold sg_cast_shadow in H1.
  destruct (buffer_intersection _ _); try discriminate.
  - injection H1 as <-. unfold sg_all_surfaces at 1. rewrite G3. reflexivity.
  - destruct (sg_nvec g1) as [n|]; [|discriminate]. cbn [bind] in H1.
    destruct (add_linestring _ _ _) as [sh|]; [|discriminate]. cbn [bind] in H1. injection H1 as <-.
    unfold sg_all_surfaces at 1. cbn [sg_cache]. rewrite G3. reflexivity.
Qed.

(** Removing a line from a collection: the surfaces that it does not come near are kept as they
    are, with their index and their parameters; the parts of the others are new surfaces. *)
Theorem C67_untouched : forall x y c s a b p q coll S, c * c + s * s = 1 -> p <> q ->
  In S (sc_surfaces coll) -> su_line S = Line (along x y c s a) (along x y c s b) ->
  (forall t, between p q t -> ~ close tol a b t) ->
  In S (sc_surfaces (remove_linestring coll (Line (along x y c s p) (along x y c s q)))).
Proof.
  intros x y c s a b p q coll S U N I E FAR. cbn [remove_linestring sc_surfaces]. apply in_flat_map. exists S. split; [exact I|].
  unfold surface_less, buffer_intersects. rewrite E. pose proof (near_part_spec x y c s U p q a b N) as K.
  destruct (near_part _ _) as [i|]; [|left; reflexivity]. exfalso. destruct K as ((K0 & K1) & K2 & K).
  destruct (proj1 (K (fst i))) as [B C]; [lra|]. refine (FAR _ _ C). unfold between.
  set (k := fst i) in *. clearbody k. unfold Rmin, Rmax. destruct (Rle_dec p q); split; nra.
Qed.

Theorem C67_touched : forall x y c s a b p q t S S', c * c + s * s = 1 -> p <> q ->
  su_line S = Line (along x y c s a) (along x y c s b) -> between p q t -> close tol a b t ->
  In S' (surface_less S (Line (along x y c s p) (along x y c s q))) -> part_of S (su_line S') S'.
Proof.
  intros x y c s a b p q t S S' U N E B C I. unfold surface_less, buffer_intersects in I. rewrite E in I.
  pose proof (near_part_spec x y c s U p q a b N) as K. destruct (near_part _ _) as [i|].
  - apply in_map_iff in I. destruct I as (l & <- & _). apply init_part_of.
  - exfalso. assert (Q : forall n d, 0 < d -> 0 <= n <= d -> 0 <= n / d <= 1).
    { intros n d D H. assert (0 < / d) by (apply Rinv_0_lt_compat; exact D). assert (d * / d = 1) by (apply Rinv_r; lra). unfold Rdiv. nra. }
    apply (K ((t - p) / (q - p))).
    + unfold between in B. unfold Rmin, Rmax in B. destruct (Rle_dec p q).
      * apply Q; lra.
      * replace ((t - p) / (q - p)) with ((p - t) / (p - q)) by (field; lra).
        apply Q; lra.
    + replace (p + (t - p) / (q - p) * (q - p)) with t by (field; lra). exact C.
Qed.

(** A shadow on a side is a shadow on each of its segments. *)
Theorem C67_side : forall sd l sd',
  sd_cast_shadow sd l = Ok sd' <-> Forall2 (fun g g' => sg_cast_shadow g l = Ok g') sd sd'.
Proof.
  induction sd as [|g sd IH]; intros l sd'; cbn [sd_cast_shadow].
  - split; [intro H; injection H as <-; constructor|intro H; inversion H; reflexivity].
  - split.
    + intro H. destruct (sg_cast_shadow g l) as [g'|] eqn:E; [|discriminate]. cbn [bind] in H.
      destruct (sd_cast_shadow sd l) as [r|] eqn:Er; [|discriminate]. cbn [bind] in H. injection H as <-.
      constructor; [exact E|]. apply IH. exact Er.
    + intro H. inversion H as [|? g' ? r E F]; subst. rewrite E. cbn [bind]. apply IH in F. rewrite F. reflexivity.
Qed.

(* ------------------------------------------------------------------ examples *)

(** A segment from 0 to 10 and a shadow from 7 to 3: the shaded part goes from 7 to 3 and
    the illuminated length is 6. *)
Definition shadow_case : pv_segment :=
  PVSegment (ShadeColl [flat_surface 0 10 false] (Some false) true [])
    (ShadeColl [] (Some true) true []) None.

(** Two lit surfaces, the line removed from the second one. *)
Example C67_untouched_example :
  let coll := ShadeColl [flat_surface 0 1 false; flat_surface 5 10 false] (Some false) true [] in
  (forall t, between 6 7 t -> ~ close tol 0 1 t) /\
  In (flat_surface 0 1 false) (sc_surfaces (remove_linestring coll (Line (along 0 0 1 0 6) (along 0 0 1 0 7)))).
Proof.
  assert (F : forall t, between 6 7 t -> ~ close tol 0 1 t).
  { intros t [B _] [_ C]. rewrite Rmin_left in B by lra. rewrite Rmax_right in C by lra. unfold DISTANCE_TOLERANCE in C. lra. }
  split; [exact F|]. apply (C67_untouched 0 0 1 0 0 1 6 7); [ring|lra|left; reflexivity| |exact F].
  unfold flat_surface, along. cbn. f_equal; f_equal; ring.
Qed.

Lemma shadow_case_lines : map su_line (sc_surfaces (sg_illum shadow_case)) = lines_at 0 0 1 0 [(0, 10)].
Proof. cbn [shadow_case sg_illum sc_surfaces map flat_surface su_line lines_at fst snd]. rewrite !flat_as_along. reflexivity. Qed.

Example C67_case : exists g' new,
  sg_cast_shadow shadow_case (Line (Pt 7 0) (Pt 3 0)) = Ok g' /\
  sc_surfaces (sg_shaded g') = [new] /\ su_line new = Line (Pt 7 0) (Pt 3 0) /\
  sg_shaded_length g' = 4 /\ sc_length (sg_illum g') = 6.
Proof.
  destruct (C67_inside 0 0 1 0 0 10 7 3 shadow_case) as (g' & new & H1 & H2 & H3 & H4 & H5 & _);
    try lra; try reflexivity; try exact shadow_case_lines; try (unfold between; rmm; lra).
  rewrite <- !flat_as_along in H1, H3. exists g', new. split; [exact H1|]. split; [exact H2|]. split; [exact H3|].
  rewrite H4, H5. unfold sg_shaded_length, sc_length, shadow_case. cbn [sg_shaded sg_illum sc_surfaces map].
  rewrite !py_sum_rsum. cbn [rsum fold_right]. unfold su_length, flat_surface. cbn [su_line].
  rewrite !flat_as_along, (length_along 0 0 1 0) by lra.
  replace (Rabs (3 - 7)) with 4 by (unfold Rabs; destruct (Rcase_abs _); lra).
  replace (Rabs (0 - 10)) with 10 by (unfold Rabs; destruct (Rcase_abs _); lra). split; lra.
Qed.

Example C67_again_case : exists g',
  sg_cast_shadow shadow_case (Line (Pt 3 0) (Pt 7 0)) = Ok g' /\
  sg_cast_shadow g' (Line (Pt 3 0) (Pt 7 0)) = Err NotImplementedError.
Proof.
  destruct (C67_again_refuted 0 0 1 0 0 10 3 7 shadow_case) as (g' & H1 & H2);
    try lra; try reflexivity; try exact shadow_case_lines; try (unfold tol; lra).
  rewrite <- !flat_as_along in H1, H2. exists g'. split; assumption.
Qed.

Print Assumptions C67_shadow.
Print Assumptions C67_missed.
Print Assumptions C67_parts.
Print Assumptions C67_inside.
Print Assumptions C67_total.
Print Assumptions C67_touch.
Print Assumptions C67_again_refuted.
Print Assumptions C67_neighbour_refuted.
Print Assumptions C67_stale_refuted.
Print Assumptions C67_untouched.
Print Assumptions C67_touched.
Print Assumptions C67_side.
