(** Rows that have a neighbour in front of their back are alike in fast mode (C93): what they see
    of the sky, of the ground and of the neighbour does not depend on the row nor on the number
    of rows. *)
From Coq Require Import Reals List Bool Arith ZArith String Lra Lia.
From Verif Require Import Num ModelTs ModelGeom ModelVF Basics SpecGeom SpecVF ProofFit ProofIndex ProofGeom ProofGeom2 PropGeom ModelLinalg ModelParams SpecParams ModelIrr SpecIrr ProofIrr ModelAOI ModelEngine SpecRun ProofEngine PropEngine ProofRun PropRun ProofAverage ProofHistory PropFastRun.
Import ListNotations.
Open Scope R_scope.

(** Arrays with the same rows, except for their number and their cuts. *)
Definition same_rows (p p' : pvarray_params) : Prop :=
  pa_width p' = pa_width p /\ pa_gcr p' = pa_gcr p /\ pa_height p' = pa_height p /\ pa_axis_azimuth p' = pa_axis_azimuth p.

(** The back of row [k] of [n] rows looks at a neighbour: to the right when the rotation is
    positive, to the left otherwise. *)
Definition back_has_neighbour (n k : nat) (rotation : R) : Prop :=
  (k < n)%nat /\ (0 < rotation -> (k + 1 < n)%nat) /\ (rotation <= 0 -> (0 < k)%nat).

(** A line moved along the ground. *)
Definition slide (d : R) (l : line) : line :=
  Line (Pt (px (b1 l) + d) (py (b1 l))) (Pt (px (b2 l) + d) (py (b2 l))).
Definition slide_pt (d : R) (q : pt) : pt := Pt (px q + d) (py q).

Lemma slide_ends : forall d l, b1 (slide d l) = slide_pt d (b1 l) /\ b2 (slide d l) = slide_pt d (b2 l).
Proof. intros. split; reflexivity. Qed.
Lemma slide_distance : forall d a b, distance (slide_pt d a) (slide_pt d b) = distance a b.
Proof. intros d a b. unfold distance, slide_pt. cbn [px py]. f_equal. ring. Qed.
Lemma slide_length : forall d l, line_length (slide d l) = line_length l.
Proof. intros d l. unfold line_length, slide. cbn [px py b1 b2]. f_equal. ring. Qed.
Lemma slide_vss : forall d l m w, vf_surface_to_surface (slide d l) (slide d m) w = vf_surface_to_surface l m w.
Proof. intros. unfold vf_surface_to_surface. rewrite !(proj1 (slide_ends _ _)), !(proj2 (slide_ends _ _)), !slide_distance. reflexivity. Qed.
Lemma slide_lowest : forall d l, lowest_point (slide d l) = slide_pt d (lowest_point l).
Proof. intros d [a b]. unfold lowest_point, slide, slide_pt. cbn [px py b1 b2]. destruct (Rleb (py b) (py a)); reflexivity. Qed.
Lemma slide_shaded : forall d xc yc w s b r q,
  create_shaded_side_coords (xc + d) yc w s b r (slide_pt d q) = slide d (create_shaded_side_coords xc yc w s b r q).
Proof.
  intros. unfold create_shaded_side_coords, slide, slide_pt. cbn [px py b1 b2]. f_equal. f_equal. destruct b; cbn [np_where]; ring.
Qed.
Lemma slide_full : forall d xc yc w r, full_coords (xc + d) yc w r = slide d (full_coords xc yc w r).
Proof. intros. unfold full_coords, slide. cbn [px py b1 b2]. f_equal; f_equal; ring. Qed.
Lemma slide_segment : forall d xc yc w r n sl i,
  segment_coords (xc + d) yc w r n sl i =
  let c := segment_coords xc yc w r n sl i in (slide d (fst (fst c)), slide d (snd (fst c)), slide d (snd c)).
Proof.
  intros d xc yc w r n sl i. unfold segment_coords, shading_point. cbv zeta. cbn [fst snd].
  assert (PT : forall x y z, x = y + d -> Pt x z = slide_pt d (Pt y z)) by (intros x y z ->; reflexivity).
  assert (LN : forall a b, Line (slide_pt d a) (slide_pt d b) = slide d (Line a b)) by reflexivity.
  assert (EQ : forall x, x + (xc + d) = (x + xc) + d) by (intro; ring).
  rewrite !EQ.
  destruct (Rleb 0 r); cbn [np_where px py];
  repeat match goal with |- context [Rltb ?a ?b] => destruct (Rltb a b) end;
  destruct (Reqb r 0); cbn [andb negb np_where]; reflexivity.
Qed.

Section Two.
Variables (p p' : pvarray_params) (n n' : nat) (f : fit_inputs) (a a' : fitted) (t k k' : nat).
Hypothesis V : valid_params p.
Hypothesis V' : valid_params p'.
Hypothesis F : fit p n f = Some a.
Hypothesis F' : fit p' n' f = Some a'.
Hypothesis SR : same_rows p p'.
Hypothesis RR : -180 < ft_rotation a t < 180.
Hypothesis NB : back_has_neighbour (pa_n_pvrows p) k (ft_rotation a t).
Hypothesis NB' : back_has_neighbour (pa_n_pvrows p') k' (ft_rotation a t).
Let d := (INR k' - INR k) * pa_distance p.
Let al := fit_alpha p f.
Let rot := fit_rotation p f.

Lemma same_distance : pa_distance p' = pa_distance p.
Proof. destruct SR as (A & B & _). unfold pa_distance. rewrite A, B. reflexivity. Qed.
Lemma same_alpha : fit_alpha p' f = al.
Proof. destruct SR as (_ & _ & _ & A). unfold fit_alpha, al. rewrite A. reflexivity. Qed.
Lemma same_rotation : fit_rotation p' f = rot.
Proof. destruct SR as (_ & _ & _ & A). unfold fit_rotation, rot. rewrite A. reflexivity. Qed.
Lemma rot_a : ft_rotation a = rot.
Proof. exact (proj1 (proj2 (fit_spec _ _ _ _ F))). Qed.
Lemma rot_a' : ft_rotation a' = rot.
Proof. rewrite <- same_rotation. exact (proj1 (proj2 (fit_spec _ _ _ _ F'))). Qed.

(** Neighbours of the two rows, [m] and [m'], are as far from each other as the two rows. *)
Lemma center_slide : forall m m', INR m' - INR m = INR k' - INR k -> row_center p' m' = (fst (row_center p m) + d, snd (row_center p m)).
Proof.
  intros m m' E. unfold row_center. cbn [fst snd]. rewrite same_distance. destruct SR as (_ & _ & -> & _). f_equal.
  unfold d. rewrite <- E. ring.
Qed.

Lemma row_at : forall m, (m < pa_n_pvrows p)%nat -> nth m (ft_rows a) dummy_row = fit_row p al rot m.
Proof. intros m M. rewrite (proj1 (proj2 (proj2 (proj2 (fit_spec _ _ _ _ F))))). apply fit_rows_nth. exact M. Qed.
Lemma row_at' : forall m, (m < pa_n_pvrows p')%nat -> nth m (ft_rows a') dummy_row = fit_row p' al rot m.
Proof.
  intros m M. rewrite (proj1 (proj2 (proj2 (proj2 (fit_spec _ _ _ _ F'))))), same_alpha, same_rotation. apply fit_rows_nth. exact M.
Qed.

Lemma coords_slide : forall m m', (m < pa_n_pvrows p)%nat -> (m' < pa_n_pvrows p')%nat -> INR m' - INR m = INR k' - INR k ->
  row_coords (nth m' (ft_rows a') dummy_row) t = slide d (row_coords (nth m (ft_rows a) dummy_row) t) /\
  row_xc (nth m' (ft_rows a') dummy_row) = row_xc (nth m (ft_rows a) dummy_row) + d /\
  row_yc (nth m' (ft_rows a') dummy_row) = row_yc (nth m (ft_rows a) dummy_row).
Proof.
  intros m m' M M' E. rewrite row_at, row_at' by assumption. unfold fit_row, pvrow_from_raw_inputs. cbn [row_coords row_xc row_yc].
  rewrite (center_slide m m' E). cbn [fst snd]. destruct SR as (-> & _). rewrite slide_full. auto.
Qed.

Lemma more_rows : (1 < pa_n_pvrows p)%nat /\ (1 < pa_n_pvrows p')%nat.
Proof.
  destruct NB as (A & B & C), NB' as (A' & B' & C'). destruct (Rlt_le_dec 0 (ft_rotation a t)) as [H|H].
  - specialize (B H). specialize (B' H). lia.
  - specialize (C H). specialize (C' H). lia.
Qed.

Lemma same_shading : fit_shading p' al rot t = fit_shading p al rot t.
Proof.
  destruct more_rows as [M M']. unfold fit_shading, interrow_shading.
  rewrite (proj2 (Nat.ltb_lt _ _) M), (proj2 (Nat.ltb_lt _ _) M'), same_distance. destruct SR as (-> & _). reflexivity.
Qed.

(** The back of the two rows has the same shaded length. *)
Lemma back_shading : snd (row_shaded_lengths (pa_n_pvrows p') k' (rot t) (fit_shading p' al rot t)) =
                     snd (row_shaded_lengths (pa_n_pvrows p) k (rot t) (fit_shading p al rot t)).
Proof.
  rewrite same_shading. set (sl := fit_shading p al rot t). rewrite <- rot_a.
  assert (ONE : forall N m, back_has_neighbour N m (ft_rotation a t) -> snd (row_shaded_lengths N m (ft_rotation a t) sl) = snd sl).
  { intros N m (A & B & C). unfold row_shaded_lengths.
    destruct (Rltb 0 (ft_rotation a t)) eqn:E; cbn [np_where].
    - apply Rltb_true in E. specialize (B E). destruct (Nat.eqb_spec m 0); [reflexivity|]. destruct (Nat.eqb_spec m (N - 1)); [lia|reflexivity].
    - assert (H : ft_rotation a t <= 0) by (destruct (Rle_lt_dec (ft_rotation a t) 0) as [H|H]; [exact H|apply Rltb_true in H; congruence]).
      specialize (C H). destruct (Nat.eqb_spec m 0); [lia|]. destruct (Nat.eqb_spec m (N - 1)); reflexivity. }
  rewrite !ONE by assumption. reflexivity.
Qed.

(** The front of the neighbours has the same shaded length. *)
Lemma front_shading : forall m m',
  (0 < ft_rotation a t -> m = (k + 1)%nat /\ m' = (k' + 1)%nat) -> (ft_rotation a t <= 0 -> (m + 1)%nat = k /\ (m' + 1)%nat = k') ->
  side_shaded_length (row_front (nth m' (ft_rows a') dummy_row)) t = side_shaded_length (row_front (nth m (ft_rows a) dummy_row)) t.
Proof.
  intros m m' RT LF.
  assert (M : (m < pa_n_pvrows p)%nat /\ (m' < pa_n_pvrows p')%nat).
  { destruct NB as (A & B & C), NB' as (A' & B' & C'). destruct (Rlt_le_dec 0 (ft_rotation a t)) as [H|H].
    - specialize (B H). specialize (B' H). specialize (RT H). lia.
    - specialize (LF H). lia. }
  destruct M as [M M'].
  assert (IR : nth_error (ft_rows a) m = Some (nth m (ft_rows a) dummy_row)).
  { apply nth_error_nth'. rewrite (proj1 (proj2 (proj2 (proj2 (fit_spec _ _ _ _ F))))), fit_rows_length. exact M. }
  assert (IR' : nth_error (ft_rows a') m' = Some (nth m' (ft_rows a') dummy_row)).
  { apply nth_error_nth'. rewrite (proj1 (proj2 (proj2 (proj2 (fit_spec _ _ _ _ F'))))), fit_rows_length. exact M'. }
  assert (RE : ft_rotation a' t = ft_rotation a t) by (rewrite rot_a, rot_a'; reflexivity).
  destruct (Req_dec (ft_rotation a t) 0) as [Z|Z].
  - assert (FLAT : forall q nn b i row, valid_params q -> fit q nn f = Some b -> ft_rotation b t = 0 ->
       nth_error (ft_rows b) i = Some row -> side_shaded_length (row_front row) t = 0).
    { intros q nn b i row Vq Fq Zq Iq. unfold side_shaded_length. rewrite py_sum_rsum.
      assert (EA : forall g, In g (side_segments (row_front row)) -> coll_length (seg_shaded g) t = 0).
      { intros g Ig. apply In_nth_error in Ig. destruct Ig as (j & Ij).
        assert (Rq : -180 < ft_rotation b t < 180) by (rewrite Zq; lra).
        exact (proj2 (proj2 (proj2 (C06_lengths q nn f b t i row Vq Fq Rq Iq) false j g Ij)) Zq). }
      induction (side_segments (row_front row)) as [|g l IH]; [reflexivity|]. cbn [map rsum].
      rewrite (EA g (or_introl eq_refl)), IH; [ring|]. intros g' Ig'. apply EA. right. exact Ig'. }
    assert (Z' : ft_rotation a' t = 0) by (rewrite RE; exact Z).
    transitivity 0; [exact (FLAT _ _ _ _ _ V' F' Z' IR') | symmetry; exact (FLAT _ _ _ _ _ V F Z IR)].
  - assert (RR' : -180 < ft_rotation a' t < 180) by (rewrite RE; exact RR).
    assert (Z' : ft_rotation a' t <> 0) by (rewrite RE; exact Z).
    rewrite (proj1 (fit_shaded_lengths_eq _ _ _ _ _ _ _ V F RR Z IR)), (proj1 (fit_shaded_lengths_eq _ _ _ _ _ _ _ V' F' RR' Z' IR')).
    unfold row_sl. rewrite same_alpha, same_rotation. fold al rot. rewrite same_shading. set (sl := fit_shading p al rot t). rewrite <- rot_a.
    unfold row_shaded_lengths. destruct NB as (A & B & C), NB' as (A' & B' & C').
    destruct (Rltb 0 (ft_rotation a t)) eqn:E; cbn [np_where].
    + apply Rltb_true in E. destruct (RT E) as [-> ->].
      destruct (Nat.eqb_spec (k + 1) 0); [lia|]. destruct (Nat.eqb_spec (k' + 1) 0); [lia|].
      destruct (Nat.eqb (k + 1) (pa_n_pvrows p - 1)), (Nat.eqb (k' + 1) (pa_n_pvrows p' - 1)); reflexivity.
    + assert (H : ft_rotation a t <= 0) by (destruct (Rle_lt_dec (ft_rotation a t) 0) as [H|H]; [exact H|apply Rltb_true in H; congruence]).
      destruct (LF H) as [<- <-].
      destruct (Nat.eqb_spec m (pa_n_pvrows p - 1)); [lia|]. destruct (Nat.eqb_spec m' (pa_n_pvrows p' - 1)); [lia|].
      destruct (Nat.eqb m 0), (Nat.eqb m' 0); reflexivity.
Qed.

Lemma rows_count : List.length (ft_rows a) = pa_n_pvrows p /\ List.length (ft_rows a') = pa_n_pvrows p'.
Proof.
  rewrite (proj1 (proj2 (proj2 (proj2 (fit_spec _ _ _ _ F))))), (proj1 (proj2 (proj2 (proj2 (fit_spec _ _ _ _ F'))))), !fit_rows_length. auto.
Qed.

Lemma lowest_slide : forall m m', (m < pa_n_pvrows p)%nat -> (m' < pa_n_pvrows p')%nat -> INR m' - INR m = INR k' - INR k ->
  row_lowest_pt (ft_rows a') m' t = slide_pt d (row_lowest_pt (ft_rows a) m t).
Proof. intros m m' M M' E. unfold row_lowest_pt. rewrite (proj1 (coords_slide m m' M M' E)). apply slide_lowest. Qed.

Lemma same_views : forall el el', el' t = slide d (el t) ->
  exists v v', get_vf_ts_pvrow_element k el (ft_rows a) (ft_ground a) (ft_rotation a) (ft_width a) t = Some v /\
    get_vf_ts_pvrow_element k' el' (ft_rows a') (ft_ground a') (ft_rotation a') (ft_width a') t = Some v' /\
    to_gnd_total v' = to_gnd_total v /\ to_pvrow_total v' = to_pvrow_total v /\ to_pvrow_shaded v' = to_pvrow_shaded v /\
    to_pvrow_illum v' = to_pvrow_illum v /\ to_sky v' = to_sky v.
Proof.
  intros el el' E. unfold get_vf_ts_pvrow_element. rewrite E. cbv zeta.
  assert (RE : ft_rotation a' t = ft_rotation a t) by (rewrite rot_a, rot_a'; reflexivity).
  assert (WE : ft_width a' = ft_width a).
  { rewrite (proj1 (proj2 (proj2 (fit_spec _ _ _ _ F)))), (proj1 (proj2 (proj2 (fit_spec _ _ _ _ F')))). exact (proj1 SR). }
  rewrite RE, WE, slide_length. destruct rows_count as [LA LA'].
  pose proof NB as (K & KR & KL). pose proof NB' as (K' & KR' & KL').
  assert (G : exists x, calculate_vf_to_gnd (ft_rows a) (el t) k (gnd_y (ft_ground a)) (nth k (gnd_cut_points (ft_ground a)) dummy_cut t)
       (line_length (el t)) (Rltb 0 (ft_rotation a t)) t = Some x /\
     calculate_vf_to_gnd (ft_rows a') (slide d (el t)) k' (gnd_y (ft_ground a')) (nth k' (gnd_cut_points (ft_ground a')) dummy_cut t)
       (line_length (el t)) (Rltb 0 (ft_rotation a t)) t = Some x).
  { unfold calculate_vf_to_gnd. rewrite LA, LA'. destruct (Rltb 0 (ft_rotation a t)) eqn:S0; cbn [np_where].
    - apply Rltb_true in S0. specialize (KR S0). specialize (KR' S0).
      destruct (Nat.eqb_spec k (pa_n_pvrows p - 1)); [lia|]. destruct (Nat.eqb_spec k' (pa_n_pvrows p' - 1)); [lia|].
      eexists. split; [reflexivity|]. f_equal.
      rewrite (lowest_slide k k') by (auto; reflexivity). rewrite (lowest_slide (k + 1) (k' + 1)) by (auto; rewrite !plus_INR; ring).
      exact (slide_vss d (el t) (Line _ _) _).
    - assert (H : ft_rotation a t <= 0) by (destruct (Rle_lt_dec (ft_rotation a t) 0) as [H|H]; [exact H|apply Rltb_true in H; congruence]).
      specialize (KL H). specialize (KL' H). destruct (Nat.eqb_spec k 0); [lia|]. destruct (Nat.eqb_spec k' 0); [lia|].
      eexists. split; [reflexivity|]. f_equal.
      rewrite (lowest_slide k k') by (auto; reflexivity).
      rewrite (lowest_slide (k - 1) (k' - 1)) by (try lia; rewrite !minus_INR by lia; ring).
      exact (slide_vss d (el t) (Line _ _) _). }
  assert (PR : calculate_vf_to_pvrow (ft_rows a') (slide d (el t)) k' (line_length (el t)) (Rltb 0 (ft_rotation a t)) (ft_width a) (ft_rotation a t) t =
     calculate_vf_to_pvrow (ft_rows a) (el t) k (line_length (el t)) (Rltb 0 (ft_rotation a t)) (ft_width a) (ft_rotation a t) t).
  { unfold calculate_vf_to_pvrow. rewrite LA, LA'. cbv zeta. destruct (Rltb 0 (ft_rotation a t)) eqn:S0; cbn [np_where].
    - apply Rltb_true in S0. specialize (KR S0). specialize (KR' S0).
      destruct (Nat.eqb_spec k (pa_n_pvrows p - 1)); [lia|]. destruct (Nat.eqb_spec k' (pa_n_pvrows p' - 1)); [lia|]. cbn [fst snd].
      destruct (coords_slide (k + 1) (k' + 1)) as (-> & -> & ->); [exact KR | exact KR' | rewrite !plus_INR; ring |].
      rewrite (front_shading (k + 1) (k' + 1)); [| auto | intro; lra].
      rewrite slide_lowest, slide_shaded, !slide_vss. reflexivity.
    - assert (H : ft_rotation a t <= 0) by (destruct (Rle_lt_dec (ft_rotation a t) 0) as [H|H]; [exact H|apply Rltb_true in H; congruence]).
      specialize (KL H). specialize (KL' H). destruct (Nat.eqb_spec k 0); [lia|]. destruct (Nat.eqb_spec k' 0); [lia|]. cbn [fst snd].
      destruct (coords_slide (k - 1) (k' - 1)) as (-> & -> & ->); [lia | lia | rewrite !minus_INR by lia; ring |].
      rewrite (front_shading (k - 1) (k' - 1)); [| intro; lra | intro; lia].
      rewrite slide_lowest, slide_shaded, !slide_vss. reflexivity. }
  destruct G as (x & -> & ->). rewrite PR. eexists. eexists. split; [reflexivity|]. split; [reflexivity|]. cbn. auto.
Qed.

Lemma same_surfaces : forall row row' j seg seg',
  nth_error (ft_rows a) k = Some row -> nth_error (ft_rows a') k' = Some row' ->
  pa_cut p' k' true = pa_cut p k true ->
  nth_error (side_segments (row_back row)) j = Some seg -> nth_error (side_segments (row_back row')) j = Some seg' ->
  seg_coords seg' t = slide d (seg_coords seg t) /\
  exists lit shaded lit' shaded', seg_illum seg = [lit] /\ seg_shaded seg = [shaded] /\ seg_illum seg' = [lit'] /\ seg_shaded seg' = [shaded'] /\
    s_coords lit' t = slide d (s_coords lit t) /\ s_coords shaded' t = slide d (s_coords shaded t).
Proof.
  intros row row' j seg seg' HR HR' CU HS HS'.
  destruct (fit_rows_nth_error _ _ _ _ _ _ F HR) as [K ->]. destruct (fit_rows_nth_error _ _ _ _ _ _ F' HR') as [K' ->].
  rewrite same_alpha, same_rotation in HS'. fold al rot in HS.
  unfold fit_row, pvrow_from_raw_inputs, side_from_raw_inputs in HS, HS'. cbn [row_back side_segments] in HS, HS'.
  rewrite CU in HS'. rewrite nth_error_map in HS, HS'.
  destruct (nth_error (seq 0 (pa_cut p k true)) j) as [i|]; [|discriminate]. cbn [option_map] in HS, HS'.
  assert (KEY : segment_coords (fst (row_center p' k')) (snd (row_center p' k')) (pa_width p') (rot t) (pa_cut p k true)
      (snd (row_shaded_lengths (pa_n_pvrows p') k' (rot t) (fit_shading p' al rot t))) i =
    let c := segment_coords (fst (row_center p k)) (snd (row_center p k)) (pa_width p) (rot t) (pa_cut p k true)
      (snd (row_shaded_lengths (pa_n_pvrows p) k (rot t) (fit_shading p al rot t))) i in
    (slide d (fst (fst c)), slide d (snd (fst c)), slide d (snd c))).
  { rewrite (center_slide k k' eq_refl), back_shading. destruct SR as (-> & _). cbn [fst snd]. apply slide_segment. }
  injection HS as <-. injection HS' as <-. cbn [seg_coords seg_illum seg_shaded].
  split; [exact (f_equal (fun z => fst (fst z)) KEY)|]. do 4 eexists. do 4 (split; [reflexivity|]). cbn [s_coords].
  split; [exact (f_equal (fun z => snd (fst z)) KEY) | exact (f_equal snd KEY)].
Qed.
End Two.

(** C93: fast-mode view factors of elements at the same place on the backs of two rows, of the
    same or of different arrays. *)
Theorem C93_views : forall p p' n n' f a a' t k k' el el',
  valid_params p -> valid_params p' -> fit p n f = Some a -> fit p' n' f = Some a' ->
  same_rows p p' -> -180 < ft_rotation a t < 180 ->
  back_has_neighbour (pa_n_pvrows p) k (ft_rotation a t) -> back_has_neighbour (pa_n_pvrows p') k' (ft_rotation a t) ->
  el' t = slide ((INR k' - INR k) * pa_distance p) (el t) ->
  exists v v', get_vf_ts_pvrow_element k el (ft_rows a) (ft_ground a) (ft_rotation a) (ft_width a) t = Some v /\
    get_vf_ts_pvrow_element k' el' (ft_rows a') (ft_ground a') (ft_rotation a') (ft_width a') t = Some v' /\
    to_gnd_total v' = to_gnd_total v /\ to_pvrow_total v' = to_pvrow_total v /\ to_pvrow_shaded v' = to_pvrow_shaded v /\
    to_pvrow_illum v' = to_pvrow_illum v /\ to_sky v' = to_sky v.
Proof. intros p p' n n' f a a' t k k' el el' V V' F F' SR RR NB NB'. exact (same_views p p' n n' f a a' t k k' V V' F F' SR RR NB NB' el el'). Qed.
Print Assumptions C93_views.

(** C93: the surfaces of the backs of two such rows, cut the same way, are at the same places. *)
Theorem C93_surfaces : forall p p' n n' f a a' t k k' row row' j seg seg',
  fit p n f = Some a -> fit p' n' f = Some a' -> same_rows p p' ->
  back_has_neighbour (pa_n_pvrows p) k (ft_rotation a t) -> back_has_neighbour (pa_n_pvrows p') k' (ft_rotation a t) ->
  nth_error (ft_rows a) k = Some row -> nth_error (ft_rows a') k' = Some row' -> pa_cut p' k' true = pa_cut p k true ->
  nth_error (side_segments (row_back row)) j = Some seg -> nth_error (side_segments (row_back row')) j = Some seg' ->
  let d := (INR k' - INR k) * pa_distance p in
  seg_coords seg' t = slide d (seg_coords seg t) /\
  exists lit shaded lit' shaded', seg_illum seg = [lit] /\ seg_shaded seg = [shaded] /\ seg_illum seg' = [lit'] /\ seg_shaded seg' = [shaded'] /\
    s_coords lit' t = slide d (s_coords lit t) /\ s_coords shaded' t = slide d (s_coords shaded t).
Proof.
  intros p p' n n' f a a' t k k' row row' j seg seg' F F' SR NB NB' HR HR' CU HS HS'.
  exact (same_surfaces p p' n n' f a a' t k k' F F' SR NB NB' row row' j seg seg' HR HR' CU HS HS').
Qed.
Print Assumptions C93_surfaces.

(** C93: what a fast run publishes on such surfaces. *)
Theorem C93_run : forall P e0 e0' raw i i' a a' f f' r r' sg sg' e1 e1' e2 e2' k k' s s' t,
  fast_run P e0 raw i a f r sg e1 e2 -> fast_run P e0' raw i' a' f' r' sg' e1' e2' ->
  en_irr e0' = en_irr e0 -> chosen e0 a r sg k s -> chosen e0' a' r' sg' k' s' ->
  let p := pv_params (en_array e0) in let p' := pv_params (en_array e0') in
  same_rows p p' -> -180 < ft_rotation a t < 180 ->
  back_has_neighbour (pa_n_pvrows p) k (ft_rotation a t) -> back_has_neighbour (pa_n_pvrows p') k' (ft_rotation a t) ->
  s_coords s' t = slide ((INR k' - INR k) * pa_distance p) (s_coords s t) ->
  forall key, In key ["isotropic"; "reflection_pvrow_shaded"; "reflection_pvrow_illum"]%string ->
  exists z, value_at (pv_store (en_array e2)) s key t z /\ value_at (pv_store (en_array e2')) s' key t z.
Proof.
  intros P e0 e0' raw i i' a a' f f' r r' sg sg' e1 e1' e2 e2' k k' s s' t H H' EI C C' p p' SR RR NB NB' ES key IK.
  pose proof (proj1 (proj2 H)) as Hi. pose proof (proj1 (proj2 H')) as Hi'.
  assert (Ei : i' = i) by (rewrite Hi in Hi'; injection Hi' as <-; reflexivity). subst i'. clear Hi Hi'.
  pose proof (proj1 H) as V. pose proof (proj1 H') as V'.
  destruct (fast_run_inv _ _ _ _ _ _ _ _ _ _ H) as (rf & rb & _ & _ & FE & I1 & _ & Rf & EP & _).
  destruct (fast_run_inv _ _ _ _ _ _ _ _ _ _ H') as (rf' & rb' & _ & _ & FE' & I1' & _ & Rf' & EP' & _).
  pose proof (fe_fit _ _ _ _ _ _ _ FE) as F. rewrite EP in F. pose proof (fe_fit _ _ _ _ _ _ _ FE') as F'. rewrite EP' in F'.
  pose proof (fe_irr _ _ _ _ _ _ _ FE) as Q. rewrite I1 in Q. pose proof (fe_irr _ _ _ _ _ _ _ FE') as Q'. rewrite I1', EI in Q'.
  assert (Ef : f' = f) by (clear - Q Q'; congruence). subst f'. clear Q Q' FE FE'.
  destruct (chosen_value _ _ _ _ _ _ _ _ _ _ H) as (rf2 & rb2 & _ & _ & _ & Rf2 & VAL).
  destruct (chosen_value _ _ _ _ _ _ _ _ _ _ H') as (rf2' & rb2' & _ & _ & _ & Rf2' & VAL').
  assert (Er : rf2' = rf2) by (clear - Rf2 Rf2' EI; rewrite EI in Rf2'; congruence). subst rf2'.
  destruct (C93_views p p' _ _ _ a a' t k k' (s_coords s) (s_coords s') V V' F F' SR RR NB NB' ES) as (v & v' & G & G' & _ & _ & E1 & E2 & E3).
  assert (X : forall fld, vf_value fld (fa_vf a k s) t = fld v) by (intro; unfold vf_value, fa_vf; rewrite G; reflexivity).
  assert (X' : forall fld, vf_value fld (fa_vf a' k' s') t = fld v') by (intro; unfold vf_value, fa_vf; rewrite G'; reflexivity).
  destruct IK as [<-|[<-|[<-|[]]]].
  - exists (fa_iso f a k s t). split; eexists; (split; [first [apply (VAL k s _ _ C) | apply (VAL' k' s' _ _ C')]; cbn; do 6 right; left; reflexivity|]).
    + reflexivity.
    + unfold fa_iso. rewrite X, X', E3. reflexivity.
  - exists (fa_ps rf2 f a k s t). split; eexists; (split; [first [apply (VAL k s _ _ C) | apply (VAL' k' s' _ _ C')]; cbn; do 4 right; left; reflexivity|]).
    + reflexivity.
    + unfold fa_ps. rewrite X, X', E1. reflexivity.
  - exists (fa_pi rf2 f a k s t). split; eexists; (split; [first [apply (VAL k s _ _ C) | apply (VAL' k' s' _ _ C')]; cbn; do 5 right; left; reflexivity|]).
    + reflexivity.
    + unfold fa_pi. rewrite X, X', E2. reflexivity.
Qed.
Print Assumptions C93_run.

(** Concrete case: at both timesteps of the example, which has three rows turned to the right, the
    backs of rows 1 and 2 look at a neighbour; row 2 is the last one, row 1 is not. The same rows
    in an array of ten rows are alike too. *)
Definition ex_p10 : pvarray_params :=
  PVArrayParams 0 (2 / 3) 3 2 10 (fun i b => if andb (Nat.eqb i 0) (negb b) then 2%nat else 1%nat).
Lemma ex_valid10 : valid_params ex_p10.
Proof.
  unfold valid_params, ex_p10; simpl. split; [lra |]. split; [lra |]. split; [lia |].
  intros. destruct (Nat.eqb i 0 && negb b); lia.
Qed.

Definition ex_engine10 (k : irr_kind) : engine := engine_init (pvarray_init ex_p10 []) (Some default_calculator) (Some (ex_model k)) None None.

Lemma fast_run_of : forall P e0 e j, valid_params (pv_params (en_array e0)) -> engine_fit P e0 ex_raw = Ok e ->
  en_fast_seg e0 = None -> (j < pa_n_pvrows (pv_params (en_array e0)))%nat ->
  exists e2 i a f, fast_run P e0 ex_raw i a f (Some j) None e e2 /\ fit (pv_params (en_array e0)) (ii_n i) ex_f = Some a.
Proof.
  intros P e0 e j V Fi SG J.
  destruct (engine_fit_fitted P e0 ex_raw e V Fi) as (i & a & f & rf & rb & Hi & FE).
  assert (EX : exec_all P e [] = Ok e) by reflexivity.
  destruct (proj2 (C25_succeeds P e0 ex_raw e [] e (Some j) None V Fi eq_refl EX)) as (e' & RF).
  { exists j. split; [reflexivity|]. split; [exact J|]. rewrite SG. exact Logic.I. }
  pose proof (run_fast_same_fit _ _ _ _ RF) as S2.
  pose proof (fe_fit _ _ _ _ _ _ _ FE) as F. rewrite (proj1 (ProofRun.engine_fit_params _ _ _ _ Fi)) in F.
  exists e', i, a, f. split.
  - split; [exact V|]. split; [exact Hi|]. split; [exists e, []; tauto|]. rewrite (sf_fitted _ _ S2), (sf_irr_fitted _ _ S2).
    split; [exact (fe_array _ _ _ _ _ _ _ FE) | exact (fe_irr_fitted _ _ _ _ _ _ _ FE)].
  - inversion Hi; subst i; exact F.
Qed.

Lemma back_segment : forall p n f a j, valid_params p -> fit p n f = Some a -> (j < pa_n_pvrows p)%nat ->
  exists row seg, nth_error (ft_rows a) j = Some row /\ nth_error (side_segments (row_back row)) 0 = Some seg.
Proof.
  intros p n f a j V F J.
  assert (IR : nth_error (ft_rows a) j = Some (nth j (ft_rows a) dummy_row)).
  { apply nth_error_nth'. rewrite (proj1 (proj2 (proj2 (proj2 (fit_spec _ _ _ _ F))))), fit_rows_length. exact J. }
  eexists. assert (HS : exists seg, nth_error (side_segments (row_back (nth j (ft_rows a) dummy_row))) 0 = Some seg).
  { destruct (fit_rows_nth_error _ _ _ _ _ _ F IR) as [_ ->]. rewrite fit_row_back. unfold side_from_raw_inputs. cbn [side_segments].
    destruct V as (_ & _ & _ & CU). pose proof (CU j true). destruct (pa_cut p j true) as [|c]; [lia|]. cbn [seq map nth_error]. eexists. reflexivity. }
  destruct HS as (seg & HS). exists seg. split; [exact IR | exact HS].
Qed.

(** The last row of the three and the row 7 of the ten: the lit surfaces of their backs. *)
Example C93_example : forall P kd, exists i i' a a' f f' e1 e1' e2 e2' s s' t,
  fast_run P (ex_engine kd default_calculator) ex_raw i a f (Some 2%nat) None e1 e2 /\
  fast_run P (ex_engine10 kd) ex_raw i' a' f' (Some 7%nat) None e1' e2' /\
  en_irr (ex_engine10 kd) = en_irr (ex_engine kd default_calculator) /\
  chosen (ex_engine kd default_calculator) a (Some 2%nat) None 2 s /\ chosen (ex_engine10 kd) a' (Some 7%nat) None 7 s' /\
  same_rows ex_p ex_p10 /\ -180 < ft_rotation a t < 180 /\
  back_has_neighbour 3 2 (ft_rotation a t) /\ back_has_neighbour 10 7 (ft_rotation a t) /\
  s_coords s' t = slide ((INR 7 - INR 2) * pa_distance ex_p) (s_coords s t) /\
  (forall z, value_at (pv_store (en_array e2)) s "isotropic" t z <-> value_at (pv_store (en_array e2')) s' "isotropic" t z).
Proof.
  intros P kd.
  destruct (ex_engine_fit P kd default_calculator ltac:(discriminate)) as [e Fi].
  assert (Fi' : exists e', engine_fit P (ex_engine10 kd) ex_raw = Ok e').
  { apply C50_fit_succeeds; [exact ex_valid10|]. split.
    - exists (Some 2%nat). cbn. repeat (split; [reflexivity|]). split; [discriminate | left; reflexivity].
    - cbn. split; [discriminate|]. split; [discriminate | discriminate]. }
  destruct Fi' as [e' Fi'].
  destruct (fast_run_of P (ex_engine kd default_calculator) e 2 ex_valid Fi eq_refl ltac:(cbn; lia)) as (e2 & i & a & f & FR & F).
  destruct (fast_run_of P (ex_engine10 kd) e' 7 ex_valid10 Fi' eq_refl ltac:(cbn; lia)) as (e2' & i' & a' & f' & FR' & F').
  change (fit ex_p (ii_n i) ex_f = Some a) in F. change (fit ex_p10 (ii_n i') ex_f = Some a') in F'.
  assert (SR : same_rows ex_p ex_p10) by (repeat split; reflexivity).
  assert (RT : ft_rotation a 1%nat = -60) by (rewrite (proj1 (proj2 (fit_spec _ _ _ _ F))); exact ex_rot1).
  assert (NB : back_has_neighbour 3 2 (ft_rotation a 1%nat)) by (rewrite RT; split; [lia|]; split; [intro; lra | intro; lia]).
  assert (NB' : back_has_neighbour 10 7 (ft_rotation a 1%nat)) by (rewrite RT; split; [lia|]; split; [intro; lra | intro; lia]).
  destruct (back_segment _ _ _ _ 2 ex_valid F ltac:(cbn; lia)) as (row & seg & HR & HS).
  destruct (back_segment _ _ _ _ 7 ex_valid10 F' ltac:(cbn; lia)) as (row' & seg' & HR' & HS').
  destruct (C93_surfaces ex_p ex_p10 _ _ ex_f a a' 1 2 7 row row' 0 seg seg' F F' SR NB NB' HR HR' eq_refl HS HS')
    as (_ & lit & sh & lit' & sh' & L & _ & L' & _ & E & _).
  assert (C : chosen (ex_engine kd default_calculator) a (Some 2%nat) None 2 lit).
  { split; [reflexivity|]. exists row, seg. split; [exact HR|]. split; [left; rewrite L; left; reflexivity | exact (nth_error_In _ _ HS)]. }
  assert (C' : chosen (ex_engine10 kd) a' (Some 7%nat) None 7 lit').
  { split; [reflexivity|]. exists row', seg'. split; [exact HR'|]. split; [left; rewrite L'; left; reflexivity | exact (nth_error_In _ _ HS')]. }
  assert (RR : -180 < ft_rotation a 1%nat < 180) by (rewrite RT; lra).
  exists i, i', a, a', f, f', e, e', e2, e2', lit, lit', 1%nat.
  do 2 (split; [assumption|]). split; [reflexivity|]. do 7 (split; [assumption|]).
  destruct (C93_run P _ _ ex_raw i i' a a' f f' _ _ _ _ e e' e2 e2' 2 7 lit lit' 1 FR FR' eq_refl C C' SR RR NB NB' E "isotropic"%string
    (or_introl eq_refl)) as (z & (w & A & B) & (w' & A' & B')).
  intro y. split; intros (u & U & Y); [exists w' | exists w]; (split; [assumption|]); congruence.
Qed.
