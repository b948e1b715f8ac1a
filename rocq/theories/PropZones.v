(** View factors between whole sides, ground surfaces and the sky in full mode: they add up
    over the surfaces of a side and do not depend on how sides are cut. *)
From Coq Require Import Reals List Bool Arith String Lra Lia Permutation.
From Verif Require Import Num ModelTs ModelGeom ModelVF Basics SpecGeom SpecVF ProofShade ProofRow ProofAngles ProofFit ProofIndex ProofGeom ProofGeom2 PropGeom ProofString ProofMatrix ProofTele ProofVF ProofVF2 PropVF ProofNight ProofFast PropFast ModelLinalg ProofLinalg SpecEngine ProofRadiosity ModelParams SpecParams ProofParams ModelIrr SpecIrr ProofIrr ModelAOI ModelEngine SpecRun ProofEngine PropEngine ProofRun PropRun PropAbs ProofHistory PropFastRun ProofEnergy PropLocal PropModes PropUncut.
Import ListNotations.
Open Scope R_scope.

(** No surface is a sliver: each has no length or more than the tolerance. *)
Definition no_slivers_now (a : fitted) (t : nat) : Prop :=
  forall s, In s (all_ts_surfaces a) -> no_sliver_length DISTANCE_TOLERANCE (s_length s t).

(** Points of row [i], by their distance from its low edge. *)
Definition on_row (p : pvarray_params) (a : fitted) (t i : nat) (e : R) : pt :=
  point_from_low_edge (pa_width p) (pa_distance p) (pa_height p) (ft_rotation a t) i e.

Lemma rsum_zeros : forall (A : Type) (l : list A), rsum (map (fun _ => 0) l) = 0.
Proof. induction l; cbn [map rsum]; lra. Qed.

(* ------------------------------------------------------------------ whole sides *)

Lemma width_dist : forall p n f a t i, valid_params p -> fit p n f = Some a ->
  euclid (on_row p a t i 0) (on_row p a t i (pa_width p)) = pa_width p.
Proof.
  intros p n f a t i V Fi. unfold on_row. rewrite <- !(RP_point p a t), euclid_distance. apply (along p a t i). destruct V; lra.
Qed.

(** C84: what the surfaces of a side exchange with a ground surface is what the whole side,
    uncut, exchanges with it by Hottel's strings. *)
Theorem C84_side_ground : forall p n f a t al i row (b left : bool) y,
  scene p n f a t al -> (t < n)%nat -> no_slivers_now a t ->
  nth_error (ft_rows a) i = Some row -> In y (gnd_side_of_cut_point (ft_ground a) left i) ->
  let P := on_row p a t i in
  sum_over (side_surfaces (if b then row_back row else row_front row)) (fun x => s_length x t * vf a t x y) =
  if Bool.eqb left (looks_left (ft_rotation a t) b)
  then pa_width p * hottel_ground left (neighbour_edge p a t left i) (P 0) (P (pa_width p)) (b1 (s_coords y t)) (b2 (s_coords y t))
  else 0.
Proof.
  intros p n f a t al i row b left y (V & Fi & SA & NS & HR & HG & HF) Ht NSl Hr Hy P.
  pose proof (row_lt p n f a Fi _ _ Hr) as Hi. pose proof (in_gnd_side _ _ _ _ _ _ _ Fi Hi Hy) as Gy.
  change (if b then row_back row else row_front row) with (side_of b row).
  rewrite sum_over_rsum, looks_left_eq.
  set (G := fun q => (str (obs p a t left i) (orient left q) (ogl t left y) - str (obs p a t left i) (orient left q) (ogr t left y)) / 2).
  assert (E : forall x, In x (side_surfaces (side_of b row)) ->
     s_length x t * vf a t x y = if Bool.eqb left (xorb b (Rltb 0 (ft_rotation a t))) then G (s_highest x t) - G (s_lowest x t) else 0).
  { intros x Hx. unfold vf. rewrite (entry_pre _ _ _ _ t V Fi) by (apply in_all_gnd; exact Gy).
    rewrite (cell_row_gnd_exact p n f a t al V Fi SA NS HR HG i row b left x y Ht Hr Hx Hy (NSl x (in_all_row _ _ _ _ _ Hr Hx)) (NSl y (in_all_gnd _ _ Gy))).
    destruct (Bool.eqb left (xorb b (Rltb 0 (ft_rotation a t)))); [|reflexivity]. unfold xpiece, gpiece, G. lra. }
  rewrite (rsum_map_ext _ _ _ _ E).
  destruct (Bool.eqb left (xorb b (Rltb 0 (ft_rotation a t)))).
  2:{ apply rsum_zeros. }
  rewrite (surface_telescope p n f a t V Fi HR i row b G Hr). unfold Lp.
  unfold hottel_ground. unfold P. rewrite (width_dist p n f a t i V Fi).
  destruct (gnd_shape p n f a t al V Fi SA NS HR HG y Gy) as [Sy _]. assert (W : 0 < pa_width p) by apply V.
  rewrite Sy. cbn [b1 b2]. unfold G, on_row. rewrite <- !(RP_point p a t), <- (neighbour_obs p a t left i Hi). unfold ogl, ogr.
  destruct left; rewrite !taut_str; unfold og; cbn [px gp]; field; lra.
Qed.
Print Assumptions C84_side_ground.

(** C84: the same between two sides. *)
Theorem C84_sides : forall p n f a t al i j row rowj (b c : bool),
  scene p n f a t al -> (t < n)%nat -> no_slivers_now a t ->
  nth_error (ft_rows a) i = Some row -> nth_error (ft_rows a) j = Some rowj ->
  let facing := c = negb b /\ (if looks_left (ft_rotation a t) b then i = S j else j = S i) in
  let w := pa_width p in
  let exchanged := sum_over (side_surfaces (if b then row_back row else row_front row)) (fun x =>
     sum_over (side_surfaces (if c then row_back rowj else row_front rowj)) (fun y => s_length x t * vf a t x y)) in
  (facing -> exchanged = w * hottel_rows (on_row p a t i 0) (on_row p a t i w) (on_row p a t j 0) (on_row p a t j w)) /\
  (~ facing -> exchanged = 0).
Proof.
  intros p n f a t al i j row rowj b c (V & Fi & SA & NS & HR & HG & HF) Ht NSl Hr Hj facing w exchanged.
  change (if b then row_back row else row_front row) with (side_of b row) in exchanged.
  change (if c then row_back rowj else row_front rowj) with (side_of c rowj) in exchanged.
  assert (Z : forall g : ts_surface -> ts_surface -> R, (forall x y, In x (side_surfaces (side_of b row)) -> In y (side_surfaces (side_of c rowj)) -> g x y = 0) ->
     sum_over (side_surfaces (side_of b row)) (fun x => sum_over (side_surfaces (side_of c rowj)) (fun y => g x y)) = 0).
  { clear. intros g E. rewrite sum_over_rsum. rewrite (rsum_map_ext _ _ (fun _ => 0)).
    - apply rsum_zeros.
    - intros x Hx. rewrite sum_over_rsum. rewrite (rsum_map_ext _ _ (fun _ => 0)) by (intros y Hy; apply E; assumption).
      apply rsum_zeros. }
  split.
  - intros [-> Hf]. set (c := negb b) in *.
    assert (E : forall x y, In x (side_surfaces (side_of b row)) -> In y (side_surfaces (side_of c rowj)) ->
       s_length x t * vf a t x y = (distance (s_lowest x t) (s_highest y t) + distance (s_highest x t) (s_lowest y t) - distance (s_lowest x t) (s_lowest y t) - distance (s_highest x t) (s_highest y t)) / 2).
    { intros x y Hx Hy. unfold vf. rewrite (entry_pre _ _ _ _ t V Fi) by (exact (in_all_row _ _ _ _ _ Hj Hy)).
      rewrite (cell_row_row_exact p n f a t V Fi HR HF i j row rowj b x y Ht Hr Hj Hx Hy (NSl x (in_all_row _ _ _ _ _ Hr Hx)) (NSl y (in_all_row _ _ _ _ _ Hj Hy))).
      pose proof (row_lt p n f a Fi _ _ Hr) as Hi. pose proof (row_lt p n f a Fi _ _ Hj) as Hjl.
      rewrite looks_left_eq in Hf. set (fl := xorb b (Rltb 0 (ft_rotation a t))) in *.
      assert (Dc : (Nat.eqb j (next fl i) && negb (is_edge p fl i))%bool = true).
      { rewrite andb_true_iff, negb_true_iff, Nat.eqb_eq. unfold next, is_edge. destruct fl; rewrite Nat.eqb_neq; lia. }
      rewrite Dc. reflexivity. }
    unfold exchanged. rewrite sum_over_rsum.
    set (H := fun u v => distance u v).
    set (K := fun u => (distance u (RP p a t j 0) - distance u (RP p a t j w)) / 2).
    rewrite (rsum_map_ext _ _ (fun x => K (s_highest x t) - K (s_lowest x t))).
    + rewrite (surface_telescope p n f a t V Fi HR i row b K Hr). unfold K, Lp. unfold hottel_rows, w. rewrite (width_dist p n f a t i V Fi).
      unfold on_row. rewrite <- !(RP_point p a t), !euclid_distance. assert (W : 0 < pa_width p) by apply V. field. lra.
    + intros x Hx. rewrite sum_over_rsum.
      rewrite (rsum_map_ext _ _ (fun y => (fun v => (distance (s_lowest x t) v - distance (s_highest x t) v) / 2) (s_highest y t) - (fun v => (distance (s_lowest x t) v - distance (s_highest x t) v) / 2) (s_lowest y t))).
      * rewrite (surface_telescope p n f a t V Fi HR j rowj c (fun v => (distance (s_lowest x t) v - distance (s_highest x t) v) / 2) Hj). unfold K, Lp, w. lra.
      * intros y Hy. rewrite (E x y Hx Hy). cbv beta. lra.
  - intro Nf. apply Z. intros x y Hx Hy.
    destruct (Req_dec (vf a t x y) 0) as [-> | N]; [ring|]. exfalso. apply Nf.
    exact (C15_rows p n f a t i j row rowj b c x y V Fi Hr Hj Hx Hy N).
Qed.
Print Assumptions C84_sides.

(* ------------------------------------------------------------- independent of cuts *)

(** A ground surface, or a side of a row as a whole. *)
Inductive zone : Type :=
| OnGround (y : ts_surface)
| OnSide (k : nat) (back : bool).

Definition is_zone (a : fitted) (z : zone) : Prop :=
  match z with
  | OnGround y => In y (gnd_surfaces (ft_ground a))
  | OnSide k _ => (k < List.length (ft_rows a))%nat
  end.
Definition zone_surfaces (a : fitted) (z : zone) : list ts_surface :=
  match z with
  | OnGround y => [y]
  | OnSide k back => match nth_error (ft_rows a) k with
                     | Some row => side_surfaces (if back then row_back row else row_front row)
                     | None => []
                     end
  end.

(** What two zones exchange: length times view factor. *)
Definition exchanged (a : fitted) (t : nat) (z z' : zone) : R :=
  sum_over (zone_surfaces a z) (fun x => sum_over (zone_surfaces a z') (fun y => s_length x t * vf a t x y)).
Definition exchanged_sky (a : fitted) (t : nat) (z : zone) : R :=
  sum_over (zone_surfaces a z) (fun x => s_length x t * vf_sky a t x).
Definition zone_length (a : fitted) (t : nat) (z : zone) : R := sum_over (zone_surfaces a z) (fun x => s_length x t).

Lemma sum_swap : forall (A B : Type) (g : A -> B -> R) l m,
  sum_over l (fun x => sum_over m (g x)) = sum_over m (fun y => sum_over l (fun x => g x y)).
Proof.
  intros A B g l m. rewrite !sum_over_rsum.
  rewrite (rsum_map_ext _ (fun x => sum_over m (g x)) (fun x => rsum (map (g x) m))) by (intros; apply sum_over_rsum).
  rewrite (rsum_map_ext _ (fun y => sum_over l (fun x => g x y)) (fun y => rsum (map (fun x => g x y) l))) by (intros; apply sum_over_rsum).
  induction l as [|x l IH]; cbn [map rsum]; [symmetry; apply rsum_zeros|]. rewrite IH, <- rsum_map_plus. reflexivity.
Qed.

Lemma zone_in : forall a z x, is_zone a z -> In x (zone_surfaces a z) -> In x (all_ts_surfaces a).
Proof.
  intros a [y | k b] x Z Hx; cbn [zone_surfaces] in Hx.
  - destruct Hx as [<- | []]. apply in_all_gnd. exact Z.
  - destruct (nth_error (ft_rows a) k) as [row|] eqn:E; [|destruct Hx]. exact (in_all_row a k row b x E Hx).
Qed.

Lemma exchanged_sym : forall p n f a t al z z', scene p n f a t al -> no_slivers_now a t -> is_zone a z -> is_zone a z' ->
  exchanged a t z z' = exchanged a t z' z.
Proof.
  intros p n f a t al z z' (V & Fi & _) NSl Z Z'. unfold exchanged. rewrite sum_swap, !sum_over_rsum.
  apply rsum_map_ext. intros y Hy. rewrite !sum_over_rsum. apply rsum_map_ext. intros x Hx.
  exact (vf_reciprocal p n f a t V Fi NSl x y (zone_in a z x Z Hx) (zone_in a z' y Z' Hy)).
Qed.

Lemma zone_row : forall a k b, is_zone a (OnSide k b) -> exists row, nth_error (ft_rows a) k = Some row /\
  zone_surfaces a (OnSide k b) = side_surfaces (side_of b row).
Proof.
  intros a k b Z. cbn [is_zone zone_surfaces] in *. destruct (nth_error (ft_rows a) k) as [row|] eqn:E.
  - exists row. split; reflexivity.
  - apply nth_error_None in E. lia.
Qed.

Section Cuts.
Variables (p p' : pvarray_params) (n : nat) (f : fit_inputs) (a a' : fitted) (t : nat) (al al' : R).
Hypothesis SC : scene p n f a t al.
Hypothesis SC' : scene p' n f a' t al'.
Hypothesis D : differ_in_cut p p'.
Hypothesis Ht : (t < n)%nat.
Hypothesis NSl : no_slivers_now a t.
Hypothesis NSl' : no_slivers_now a' t.

Lemma cut_same : ft_ground a' = ft_ground a /\ ft_rotation a' = ft_rotation a /\ List.length (ft_rows a') = List.length (ft_rows a) /\
  pa_width p' = pa_width p /\ (forall i e, on_row p' a' t i e = on_row p a t i e) /\
  (forall left i, neighbour_edge p' a' t left i = neighbour_edge p a t left i).
Proof.
  destruct SC as (V & Fi & _). destruct SC' as (V' & Fi' & _).
  destruct (fit_spec _ _ _ _ Fi) as (_ & Er & Ew & Erow & Eg). destruct (fit_spec _ _ _ _ Fi') as (_ & Er' & Ew' & Erow' & Eg').
  rewrite Erow in Eg. rewrite Erow' in Eg'.
  assert (RC : map row_coords (fit_rows p' (fit_alpha p' f) (fit_rotation p' f)) = map row_coords (fit_rows p (fit_alpha p f) (fit_rotation p f))).
  { destruct D as [cut ->]. rewrite !fit_rows_eq, !map_map. reflexivity. }
  rewrite RC in Eg'.
  assert (EA : fit_alpha p' f = fit_alpha p f) by (destruct D as [cut ->]; reflexivity).
  assert (ER : fit_rotation p' f = fit_rotation p f) by (destruct D as [cut ->]; reflexivity).
  assert (ES : fit_shading p' = fit_shading p) by (destruct D as [cut ->]; reflexivity).
  rewrite EA, ER, ES in Eg'.
  split; [congruence|]. assert (ERR : ft_rotation a' = ft_rotation a) by congruence. split; [exact ERR|].
  split; [rewrite Erow, Erow', !fit_rows_length; destruct D as [cut ->]; reflexivity|].
  split; [destruct D as [cut ->]; reflexivity|].
  split; [intros i e; unfold on_row; rewrite ERR; destruct D as [cut ->]; reflexivity|].
  intros left i. unfold neighbour_edge. rewrite ERR. destruct D as [cut ->]. reflexivity.
Qed.

Lemma cut_zone : forall z, is_zone a z <-> is_zone a' z.
Proof. destruct cut_same as (EG & _ & EL & _). intros [y | k b]; cbn [is_zone]; rewrite ?EG, ?EL; tauto. Qed.

Lemma single : forall (A : Type) (g : A -> R) (x : A), sum_over [x] g = g x.
Proof. intros. unfold sum_over. cbn [map fold_right]. ring. Qed.

(** Each ground surface is on one side of the cut point of each row. *)
Lemma ground_some_side : forall i y, (i < pa_n_pvrows p)%nat -> In y (gnd_surfaces (ft_ground a)) ->
  exists left, In y (gnd_side_of_cut_point (ft_ground a) left i).
Proof.
  intros i y Hi Hy. destruct SC as (V & Fi & SA & NS & HR & HG & HF).
  destruct (fit_left_right p n f a t al i V Fi SA NS HR HG Hi) as (cut & _ & _ & _ & PM & _).
  apply (Permutation_in y PM) in Hy. apply in_app_or in Hy. destruct Hy; [exists true | exists false]; assumption.
Qed.

Lemma side_ground_free : forall k b y, is_zone a (OnSide k b) -> In y (gnd_surfaces (ft_ground a)) ->
  exchanged a' t (OnSide k b) (OnGround y) = exchanged a t (OnSide k b) (OnGround y).
Proof.
  intros k b y Z Hy. destruct cut_same as (EG & ER & EL & EW & EP & EN).
  destruct (zone_row a k b Z) as (row & Hr & Er). destruct (zone_row a' k b (proj1 (cut_zone _) Z)) as (row' & Hr' & Er').
  assert (Hk : (k < pa_n_pvrows p)%nat) by (destruct SC as (_ & Fi & _); exact (row_lt p n f a Fi _ _ Hr)).
  destruct (ground_some_side k y Hk Hy) as [left Hl].
  unfold exchanged. rewrite Er, Er'. cbn [zone_surfaces].
  assert (L : forall c l, sum_over l (fun x => sum_over [y] (fun y0 => s_length x t * vf c t x y0)) = sum_over l (fun x => s_length x t * vf c t x y)).
  { intros c l. rewrite !sum_over_rsum. apply rsum_map_ext. intros x _. apply single. }
  rewrite !L.
  pose proof (C84_side_ground p n f a t al k row b left y SC Ht NSl Hr Hl) as Q.
  pose proof (C84_side_ground p' n f a' t al' k row' b left y SC' Ht NSl' Hr' ltac:(rewrite EG; exact Hl)) as Q'.
  cbv zeta in Q, Q'. change (if b then row_back row else row_front row) with (side_of b row) in Q.
  change (if b then row_back row' else row_front row') with (side_of b row') in Q'.
  rewrite Q, Q', ER, EW, !EP, EN. reflexivity.
Qed.

Lemma ground_ground : forall c pc y y', valid_params pc -> fit pc n f = Some c -> In y (gnd_surfaces (ft_ground c)) -> In y' (gnd_surfaces (ft_ground c)) ->
  exchanged c t (OnGround y) (OnGround y') = 0.
Proof.
  intros c pc y y' V Fi Hy Hy'. unfold exchanged. cbn [zone_surfaces]. rewrite !single. unfold vf.
  rewrite (C15_ground pc n f c t y y' V Fi Hy Hy'). ring.
Qed.

Lemma exchanged_free : forall z z', is_zone a z -> is_zone a z' -> exchanged a' t z z' = exchanged a t z z'.
Proof.
  intros z z' Z Z'. destruct cut_same as (EG & ER & EL & EW & EP & EN).
  destruct z as [y | k b], z' as [y' | k' b'].
  - destruct SC as (V & Fi & _). destruct SC' as (V' & Fi' & _).
    rewrite (ground_ground a p y y' V Fi Z Z'). cbn [is_zone] in Z, Z'. rewrite <- EG in Z, Z'. exact (ground_ground a' p' y y' V' Fi' Z Z').
  - rewrite (exchanged_sym p n f a t al _ _ SC NSl Z Z').
    rewrite (exchanged_sym p' n f a' t al' _ _ SC' NSl' (proj1 (cut_zone _) Z) (proj1 (cut_zone _) Z')).
    apply side_ground_free; assumption.
  - apply side_ground_free; assumption.
  - destruct (zone_row a k b Z) as (row & Hr & Er). destruct (zone_row a' k b (proj1 (cut_zone _) Z)) as (row1 & Hr1 & Er1).
    destruct (zone_row a k' b' Z') as (row' & Hr' & Er'). destruct (zone_row a' k' b' (proj1 (cut_zone _) Z')) as (row1' & Hr1' & Er1').
    unfold exchanged. rewrite Er, Er', Er1, Er1'.
    pose proof (C84_sides p n f a t al k k' row row' b b' SC Ht NSl Hr Hr') as Q.
    pose proof (C84_sides p' n f a' t al' k k' row1 row1' b b' SC' Ht NSl' Hr1 Hr1') as Q'. cbv zeta in Q, Q'.
    rewrite ER, EW, !EP in Q'. destruct Q as [Q1 Q2]. destruct Q' as [Q1' Q2'].
    assert (DEC : let F := b' = negb b /\ (if looks_left (ft_rotation a t) b then k = S k' else k' = S k) in F \/ ~ F).
    { cbv zeta. destruct (bool_dec b' (negb b)), (looks_left (ft_rotation a t) b), (Nat.eq_dec k (S k')), (Nat.eq_dec k' (S k)); tauto. }
    cbv zeta in DEC. destruct DEC as [Fc | Fc].
    + etransitivity; [exact (Q1' Fc) | symmetry; exact (Q1 Fc)].
    + etransitivity; [exact (Q2' Fc) | symmetry; exact (Q2 Fc)].
Qed.
End Cuts.

(** Everything around a zone: the sky gets what the zones leave. *)
Lemma side_width : forall p n f a t i row b, valid_params p -> fit p n f = Some a -> -180 < ft_rotation a t < 180 -> nth_error (ft_rows a) i = Some row ->
  sum_over (side_surfaces (side_of b row)) (fun s => s_length s t) = pa_width p.
Proof.
  intros p n f a t i row b V Fi HR Hr. rewrite sum_over_rsum.
  rewrite (rsum_map_ext _ _ (fun s => distance (Lp p a t i) (s_highest s t) - distance (Lp p a t i) (s_lowest s t))).
  - rewrite (surface_telescope p n f a t V Fi HR i row b (distance (Lp p a t i)) Hr). rewrite dist_self, along by (destruct V; lra). ring.
  - intros s Hs. destruct (surface_spans p n f a t V Fi HR i row b s Hr Hs) as (lo & hi & B1 & B2 & B3 & B4 & B5 & _).
    rewrite B3, B4, B5, !along by lra. reflexivity.
Qed.

Lemma sum_minus : forall (A : Type) (g h : A -> R) l, sum_over l (fun x => g x - h x) = sum_over l g - sum_over l h.
Proof. intros. rewrite !sum_over_rsum. apply rsum_diff. Qed.

Lemma total_sum : forall (A : Type) (g : A -> R) l, total g l = sum_over l g.
Proof. intros A g l. unfold sum_over. induction l as [|x l IH]; cbn; [reflexivity|]. rewrite IH. reflexivity. Qed.

Lemma rows_index : forall (A : Type) (d : A) l (g : A -> R), sum_over l g = sum_over (seq 0 (List.length l)) (fun k => match nth_error l k with Some r => g r | None => 0 end).
Proof.
  intros A d l g. rewrite !sum_over_rsum. f_equal. induction l as [|x l IH]; [reflexivity|].
  cbn [List.length seq map nth_error]. f_equal. rewrite IH, <- seq_shift, map_map. reflexivity.
Qed.

Lemma sky_rest : forall p n f a t al z, scene p n f a t al -> no_slivers_now a t -> is_zone a z ->
  exchanged_sky a t z = zone_length a t z - sum_over (gnd_surfaces (ft_ground a)) (fun y => exchanged a t z (OnGround y))
    - sum_over (seq 0 (List.length (ft_rows a))) (fun k => exchanged a t z (OnSide k false) + exchanged a t z (OnSide k true)).
Proof.
  intros p n f a t al z (V & Fi & _) NSl Z. unfold exchanged_sky, zone_length.
  set (zs := zone_surfaces a z).
  assert (E : forall x, In x zs -> s_length x t * vf_sky a t x = s_length x t
     - sum_over (gnd_surfaces (ft_ground a)) (fun y => s_length x t * vf a t x y)
     - sum_over (ft_rows a) (fun r => sum_over (side_surfaces (row_front r)) (fun y => s_length x t * vf a t x y) + sum_over (side_surfaces (row_back r)) (fun y => s_length x t * vf a t x y))).
  { intros x Hx. pose proof (vf_closed p n f a t V Fi NSl x (zone_in a z x Z Hx)) as C.
    assert (T : total (fun y => s_length x t * vf a t x y) (all_ts_surfaces a) =
       sum_over (gnd_surfaces (ft_ground a)) (fun y => s_length x t * vf a t x y) +
       sum_over (ft_rows a) (fun r => sum_over (side_surfaces (row_front r)) (fun y => s_length x t * vf a t x y) + sum_over (side_surfaces (row_back r)) (fun y => s_length x t * vf a t x y))).
    { rewrite total_sum. unfold all_ts_surfaces, sum_over. rewrite map_app.
      change (fold_right Rplus 0) with rsum. rewrite rsum_app. f_equal. rewrite rsum_flat_map.
      apply rsum_map_ext. intros r _. unfold row_surfaces. rewrite map_app, rsum_app. reflexivity. }
    rewrite total_mult in T. destruct C as [C | C].
    - rewrite C in *. rewrite Rmult_0_l in T |- *. lra.
    - rewrite (total_eq _ _ (vf a t x)) in C by (intros; ring).
      assert (K : s_length x t * (total (vf a t x) (all_ts_surfaces a) + vf_sky a t x) = s_length x t) by (rewrite C; ring).
      rewrite Rmult_plus_distr_l in K. change (fun y => vf a t x y) with (vf a t x) in T. rewrite T in K. lra. }
  rewrite sum_over_rsum, (rsum_map_ext _ _ _ _ E), <- sum_over_rsum. rewrite !sum_minus. f_equal; [f_equal|].
  - unfold exchanged. fold zs. cbn [zone_surfaces].
    rewrite sum_swap, !sum_over_rsum. apply rsum_map_ext. intros y _. rewrite !sum_over_rsum. apply rsum_map_ext. intros x _. symmetry. apply single.
  - rewrite sum_swap.
    etransitivity; [apply (rows_index _ dummy_row)|]. rewrite !sum_over_rsum. apply rsum_map_ext. intros k Hk.
    apply in_seq in Hk. unfold exchanged. fold zs. cbn [zone_surfaces].
    destruct (nth_error (ft_rows a) k) as [r|] eqn:Er; [|apply nth_error_None in Er; lia].
    rewrite !sum_over_rsum, <- rsum_map_plus. reflexivity.
Qed.

(** C84: cutting the sides in other ways changes nothing of what sides, ground surfaces and the
    sky exchange. *)
Theorem C84_cut_free : forall p p' n f a a' t al al' z,
  scene p n f a t al -> scene p' n f a' t al' -> differ_in_cut p p' -> (t < n)%nat ->
  no_slivers_now a t -> no_slivers_now a' t -> is_zone a z ->
  is_zone a' z /\ zone_length a' t z = zone_length a t z /\
  (forall z', is_zone a z' -> exchanged a' t z z' = exchanged a t z z') /\ exchanged_sky a' t z = exchanged_sky a t z.
Proof.
  intros p p' n f a a' t al al' z SC SC' D Ht NSl NSl' Z.
  pose proof (proj1 (cut_zone p p' n f a a' t al al' SC SC' D z) Z) as Z'.
  destruct (cut_same p p' n f a a' t al al' SC SC' D) as (EG & ER & EL & EW & _).
  assert (X : forall z', is_zone a z' -> exchanged a' t z z' = exchanged a t z z')
    by (intros z' Hz'; exact (exchanged_free p p' n f a a' t al al' SC SC' D Ht NSl NSl' z z' Z Hz')).
  assert (L : zone_length a' t z = zone_length a t z).
  { destruct z as [y | k b]; [reflexivity|]. unfold zone_length.
    destruct (zone_row a k b Z) as (row & Hr & ->). destruct (zone_row a' k b Z') as (row' & Hr' & ->).
    destruct SC as (V & Fi & _ & _ & HR & _). destruct SC' as (V' & Fi' & _ & _ & HR' & _).
    rewrite (side_width p n f a t k row b V Fi HR Hr), (side_width p' n f a' t k row' b V' Fi' HR' Hr'). exact EW. }
  split; [exact Z'|]. split; [exact L|]. split; [exact X|].
  rewrite (sky_rest p n f a t al z SC NSl Z), (sky_rest p' n f a' t al' z SC' NSl' Z'), L, EG, EL. f_equal; [f_equal|].
  - rewrite !sum_over_rsum. apply rsum_map_ext. intros y Hy. apply X. exact Hy.
  - rewrite !sum_over_rsum. apply rsum_map_ext. intros k Hk. apply in_seq in Hk.
    rewrite !X by (cbn [is_zone]; lia). reflexivity.
Qed.
Print Assumptions C84_cut_free.

Lemma run_fit : forall P e0 raw i a f e', full_run P e0 raw i a f e' ->
  fit (pv_params (en_array e0)) (ii_n i) (fit_of i) = Some a /\ irr_fit P (en_irr e0) i = Ok f.
Proof.
  intros P e0 raw i a f e' (V & Hi & (e & Fi & Ru) & Ha & Hf).
  destruct (engine_fit_fitted _ _ _ _ V Fi) as (i' & a' & f' & rf & rb & Hi' & FE).
  rewrite Hi in Hi'. inversion Hi'; subst i'.
  destruct (run_points _ _ _ _ _ _ _ _ FE Ru) as (inv & _ & A & If & _).
  rewrite Ha in A. inversion A; subst a'. rewrite Hf in If. inversion If; subst f'.
  destruct (engine_fit_params _ _ _ _ Fi) as (EP & EI & _). rewrite <- EP, <- EI.
  split; [exact (fe_fit _ _ _ _ _ _ _ FE) | exact (fe_irr _ _ _ _ _ _ _ FE)].
Qed.

(** C84: so the isotropic light on each side and on each ground surface in full mode is the same. *)
Theorem C84_runs : forall P e0 e0' raw i i' a a' f f' e' e'' t z (x x' : ts_surface -> R),
  full_run P e0 raw i a f e' -> full_run P e0' raw i' a' f' e'' ->
  differ_in_cut (pv_params (en_array e0)) (pv_params (en_array e0')) -> en_irr e0' = en_irr e0 ->
  (t < ii_n i)%nat -> physical e0 i a t -> no_slivers_now a t -> no_slivers_now a' t -> is_zone a z ->
  ii_albedo i t <> 0 -> im_rho_front (en_irr e0) <> Some 0 -> im_rho_back (en_irr e0) <> Some 0 ->
  (forall s, In s (zone_surfaces a z) -> value_at (pv_store (en_array e')) s "isotropic" t (x s)) ->
  (forall s, In s (zone_surfaces a' z) -> value_at (pv_store (en_array e'')) s "isotropic" t (x' s)) ->
  sum_over (zone_surfaces a' z) (fun s => s_length s t * x' s) = sum_over (zone_surfaces a z) (fun s => s_length s t * x s).
Proof.
  intros P e0 e0' raw i i' a a' f f' e' e'' t z x x' H H' D EI Ht PH NSl NSl' Z Al Rf Rb HS HS'.
  assert (Ei : i' = i) by (destruct H as (_ & A & _); destruct H' as (_ & A' & _); congruence). subst i'.
  assert (VAL : forall Pv E0 RAW I0 A0 F0 E1 s y, full_run Pv E0 RAW I0 A0 F0 E1 -> (t < ii_n I0)%nat -> ii_albedo I0 t <> 0 ->
     im_rho_front (en_irr E0) <> Some 0 -> im_rho_back (en_irr E0) <> Some 0 -> In s (all_ts_surfaces A0) ->
     value_at (pv_store (en_array E1)) s "isotropic" t y -> y = vf_sky A0 t s * irr_sky_luminance F0 t).
  { clear. intros P e0 raw i a f e' s y (V & Hi & (e & Fi & Ru) & Ha & Hf) T Al Rf Rb Is Vy.
    destruct (C19_radiosity_balance P e0 raw e e' V Fi Ru) as (i1 & a1 & f1 & rf & rb & Hi1 & Ha1 & Hf1 & E1 & E2 & X).
    assert (i1 = i) by congruence. assert (a1 = a) by congruence. assert (f1 = f) by congruence. subst i1 a1 f1.
    destruct (X t T Al ltac:(congruence) ltac:(congruence)) as (qinc & rho & src & Y).
    destruct (Y s Is) as (_ & _ & _ & _ & W & _). exact (value_unique _ _ _ _ _ _ Vy W). }
  destruct (run_fit _ _ _ _ _ _ _ H) as [Fi IR]. destruct (run_fit _ _ _ _ _ _ _ H') as [Fi' IR'].
  rewrite EI in IR'. assert (f' = f) by congruence. subst f'.
  destruct PH as [al SC]. pose proof SC as (V & _ & SA & NS & HR & HG & HF).
  pose proof (proj1 H') as V'. set (p := pv_params (en_array e0)) in *. set (p' := pv_params (en_array e0')) in *.
  assert (SC' : scene p' (ii_n i) (sun_up (fit_of i)) a' t al).
  { destruct (fit_spec _ _ _ _ Fi) as (_ & Er & _). destruct (fit_spec _ _ _ _ Fi') as (_ & Er' & _).
    assert (ER : ft_rotation a' = ft_rotation a) by (rewrite Er, Er'; destruct D as [cut ->]; reflexivity).
    unfold scene. rewrite ER. split; [exact V'|]. split; [rewrite fit_sun_up; exact Fi'|]. destruct D as [cut ->].
    exact (conj SA (conj NS (conj HR (conj HG HF)))). }
  destruct (C84_cut_free p p' (ii_n i) (sun_up (fit_of i)) a a' t al al z SC SC' D Ht NSl NSl' Z) as (Z' & _ & _ & SK).
  unfold exchanged_sky in SK. rewrite !sum_over_rsum in *.
  rewrite (rsum_map_ext _ (fun s => s_length s t * x' s) (fun s => irr_sky_luminance f t * (s_length s t * vf_sky a' t s))).
  2:{ intros s Is. rewrite (VAL _ _ _ _ _ _ _ s _ H' Ht Al ltac:(rewrite EI; exact Rf) ltac:(rewrite EI; exact Rb) (zone_in a' z s Z' Is) (HS' s Is)). ring. }
  rewrite (rsum_map_ext _ (fun s => s_length s t * x s) (fun s => irr_sky_luminance f t * (s_length s t * vf_sky a t s))).
  2:{ intros s Is. rewrite (VAL _ _ _ _ _ _ _ s _ H Ht Al Rf Rb (zone_in a z s Z Is) (HS s Is)). ring. }
  rewrite !rsum_map_scal, SK. reflexivity.
Qed.
Print Assumptions C84_runs.

(* ----------------------------------------------------------------------- example *)

(** The example array of [PropFast], cut in any way. *)
Lemma cut_scene : forall p a t, differ_in_cut fx_p p -> valid_params p -> fit p 2 ex_f = Some a -> (t < 2)%nat ->
  exists al, scene p 2 ex_f a t al.
Proof.
  intros p a t [cut E] V F T. subst p. destruct (fit_spec _ _ _ _ F) as [_ [Er _]].
  destruct t as [|[|]]; [| |lia].
  - exists (PI / 4). split; [exact V|]. split; [exact F|]. split; [exact ex_sun0|]. rewrite Er. split; [exact ex_nosliver0|].
    change (fit_rotation _ _) with (fit_rotation ex_p ex_f). rewrite ex_rot0. split; [lra|].
    assert (B : forall x, 2 / 2 * Rabs (sin x) < 3).
    { intro x. assert (Rabs (sin x) <= 1) by (apply Rabs_le; apply SIN_bound). lra. }
    split; [apply B | intro; lra].
  - exists (PI / 6). destruct fx_fit as [a0 F0]. destruct (fx_scene a0 F0) as (_ & _ & SA & NS & HR & HG & HF).
    destruct (fit_spec _ _ _ _ F0) as [_ [Er0 _]]. rewrite Er0 in *. unfold scene. rewrite Er.
    exact (conj V (conj F (conj SA (conj NS (conj HR (conj HG HF)))))).
Qed.

Lemma zone_run : forall P p kd, differ_in_cut fx_p p -> valid_params p ->
  let e0 := engine_init (pvarray_init p []) None (Some (ex_model kd)) None None in
  exists i a f e', full_run P e0 ex_raw i a f e' /\ fit p 2 ex_f = Some a /\ ii_n i = 2%nat /\ ii_albedo i 1%nat = 1 / 5 /\ fit_of i = ex_f.
Proof.
  intros P p kd D V e0.
  assert (EF : exists e, engine_fit P e0 ex_raw = Ok e).
  { apply C50_fit_succeeds; [exact V|]. split; [exact ex_raw_shaped|]. cbn. repeat split; discriminate. }
  destruct EF as [e Fi]. destruct (engine_fit_fitted P e0 ex_raw e V Fi) as (i & a & f & rf & rb & Hi & FE).
  assert (F : fit p 2 ex_f = Some a).
  { pose proof (fe_fit _ _ _ _ _ _ _ FE) as F. unfold fit_of in F.
    rewrite (proj1 (ProofRun.engine_fit_params _ _ _ _ Fi)) in F. inversion Hi; subst i. exact F. }
  assert (RF : exists e', run_full_mode e = Ok e').
  { apply (C20_run_succeeds P e0 ex_raw e i a V Fi Hi (fe_array _ _ _ _ _ _ _ FE)). inversion Hi; subst i. cbn [ii_n]. intros t T. split.
    - destruct (cut_scene p a t D V F T) as [al SC]. apply (physical_day _ _ _ _ al). exact SC.
    - exists (1 / 5). split; [lra|]. split; [|split]; cbn.
      + intros r E. inversion E. lra.
      + intros r E. inversion E. lra.
      + lra. }
  destruct RF as [e' RF]. pose proof (run_full_same_fit _ _ RF) as S.
  exists i, a, f, e'. split.
  - split; [exact V|]. split; [exact Hi|]. split; [exists e; auto|]. rewrite (sf_fitted _ _ S), (sf_irr_fitted _ _ S).
    split; [exact (fe_array _ _ _ _ _ _ _ FE) | exact (fe_irr_fitted _ _ _ _ _ _ _ FE)].
  - split; [exact F|]. inversion Hi; subst i. repeat split; cbn; lra.
Qed.

(** No surface of the uncut array is a sliver at timestep 1. *)
Lemma ux_none : forall a, fit ux_p 2 ex_f = Some a -> no_slivers_now a 1.
Proof.
  intros a Ha s Hs. destruct fx_fit as [a0 Ha0].
  assert (D : differ_in_cut fx_p ux_p) by (exists (fun _ _ => 1%nat); reflexivity).
  destruct (cut_scene ux_p a 1 D ux_valid Ha ltac:(lia)) as [al SC]. pose proof (fx_scene a0 Ha0) as SC0.
  unfold all_ts_surfaces in Hs. apply in_app_or in Hs. destruct Hs as [Hs | Hs].
  - apply (fx_no_slivers a0 Ha0). unfold all_ts_surfaces. apply in_or_app. left.
    destruct (cut_same fx_p ux_p 2 ex_f a0 a 1 (PI / 6) al SC0 SC D) as [E _]. rewrite E in Hs. exact Hs.
  - apply in_flat_map in Hs. destruct Hs as [row [Hrow Hs]]. apply In_nth_error in Hrow. destruct Hrow as [i Hrow].
    unfold row_surfaces in Hs. apply in_app_or in Hs.
    assert (Hb : exists b, In s (side_surfaces (side_of b row))).
    { destruct Hs; [exists false | exists true]; assumption. }
    destruct Hb as [b Hb].
    assert (R1 : ft_rotation a 1%nat = -60) by (destruct (fit_spec _ _ _ _ Ha) as [_ [Er _]]; rewrite Er; exact ex_rot1).
    assert (H1 : -180 < ft_rotation a 1%nat < 180) by (rewrite R1; lra).
    assert (H2 : ft_rotation a 1%nat <> 0) by (rewrite R1; lra).
    pose proof (fx_rot a0 Ha0) as R0.
    assert (Hrow0 : exists row0, nth_error (ft_rows a0) i = Some row0).
    { destruct (nth_error (ft_rows a0) i) eqn:E; [eauto|]. exfalso. apply nth_error_None in E.
      assert (L : (i < List.length (ft_rows a))%nat) by (apply nth_error_Some; congruence).
      rewrite (rows_length fx_p 2 ex_f a0 Ha0) in E. rewrite (rows_length ux_p 2 ex_f a Ha) in L.
      change (pa_n_pvrows fx_p) with 3%nat in E. change (pa_n_pvrows ux_p) with 3%nat in L. lia. }
    destruct Hrow0 as [row0 Hrow0].
    assert (SH : side_shaded_length (side_of b row) 1%nat = 0 \/ side_shaded_length (side_of b row) 1%nat = 1 / 2).
    { pose proof (fx_shaded a0 Ha0 i row0 b Hrow0) as X.
      destruct (fit_shaded_lengths_eq ux_p 2 ex_f a 1 i row ux_valid Ha H1 H2 Hrow) as [A1 A2].
      destruct (fit_shaded_lengths_eq fx_p 2 ex_f a0 1 i row0 fx_valid Ha0 ltac:(rewrite R0; lra) ltac:(rewrite R0; lra) Hrow0) as [B1 B2].
      destruct b; cbn [side_of] in *; [rewrite B2 in X; rewrite A2 | rewrite B1 in X; rewrite A1]; exact X. }
    pose proof tol_small as T. assert (T1 : DISTANCE_TOLERANCE < 1 / 1000) by (unfold DISTANCE_TOLERANCE; lra).
    unfold side_surfaces in Hb. apply in_flat_map in Hb. destruct Hb as [sg [Hsg Hb]]. apply In_nth_error in Hsg. destruct Hsg as [k Hk].
    destruct (C06_side_partition ux_p 2 ex_f a 1 i row b ux_valid Ha H1 Hrow) as [N [_ SP]].
    change (if b then row_back row else row_front row) with (side_of b row) in *.
    destruct (SP k sg Hk) as [il [sh [lo [hi [m [E1 [E2 [_ [_ [L0 [Lm [Lh [Lw [Ll [_ [RB _]]]]]]]]]]]]]]]].
    destruct (RB ltac:(rewrite R1; lra)) as [Esh [Eil Em]].
    assert (Len : s_length s 1%nat = m - lo \/ s_length s 1%nat = hi - m).
    { unfold seg_surfaces in Hb. rewrite E1, E2 in Hb. cbn [app In] in Hb. destruct Hb as [<- | [<- | []]].
      - right. unfold s_length. rewrite Eil. apply low_point_dist. lra.
      - left. unfold s_length. rewrite Esh. apply low_point_dist. lra. }
    assert (K : (k < 1)%nat) by (change (pa_cut ux_p i b) with 1%nat in N; rewrite <- N; apply nth_error_Some; congruence).
    assert (k = 0%nat) by lia. subst k. rewrite R1 in Ll. destruct (Rlt_dec 0 (-60)); [lra|].
    cbn [pa_cut ux_p pa_width INR] in Lw, Ll.
    unfold no_sliver_length. destruct SH as [Z | Z]; rewrite Z in Em; revert Em; minmax; intro; lra.
Qed.

(** Full mode of the two arrays meets the hypotheses of [C84_cut_free] and [C84_runs], for the
    back of row 1: two segments in one and one in the other. *)
Example C84_example : forall P kd, exists i a a' f f' e' e'' row row',
  let e0 := fx_engine kd in let e0' := ux_engine kd in
  full_run P e0 ex_raw i a f e' /\ full_run P e0' ex_raw i a' f' e'' /\
  differ_in_cut (pv_params (en_array e0)) (pv_params (en_array e0')) /\ en_irr e0' = en_irr e0 /\
  (1 < ii_n i)%nat /\ physical e0 i a 1 /\ physical e0' i a' 1 /\ no_slivers_now a 1 /\ no_slivers_now a' 1 /\
  is_zone a (OnSide 1 true) /\
  ii_albedo i 1%nat <> 0 /\ im_rho_front (en_irr e0) <> Some 0 /\ im_rho_back (en_irr e0) <> Some 0 /\
  nth_error (ft_rows a) 1 = Some row /\ nth_error (ft_rows a') 1 = Some row' /\
  List.length (side_segments (row_back row)) = 2%nat /\ List.length (side_segments (row_back row')) = 1%nat /\
  exchanged_sky a' 1 (OnSide 1 true) = exchanged_sky a 1 (OnSide 1 true) /\ zone_length a 1 (OnSide 1 true) = 2.
Proof.
  intros P kd.
  assert (D : differ_in_cut fx_p ux_p) by (exists (fun _ _ => 1%nat); reflexivity).
  destruct (zone_run P fx_p kd ltac:(exists (pa_cut fx_p); reflexivity) fx_valid) as (i & a & f & e' & H & F & N & AL & FI). fold (fx_engine kd) in H.
  destruct (zone_run P ux_p kd D ux_valid) as (i' & a' & f' & e'' & H' & F' & _ & _ & FI'). fold (ux_engine kd) in H'.
  assert (i' = i) by (destruct H as (_ & A & _); destruct H' as (_ & A' & _); congruence). subst i'.
  assert (R1 : exists row, nth_error (ft_rows a) 1 = Some row).
  { destruct (nth_error (ft_rows a) 1) eqn:E; [eauto|]. exfalso. apply nth_error_None in E.
    rewrite (rows_length fx_p 2 ex_f a F) in E. change (pa_n_pvrows fx_p) with 3%nat in E. lia. }
  assert (R2 : exists row, nth_error (ft_rows a') 1 = Some row).
  { destruct (nth_error (ft_rows a') 1) eqn:E; [eauto|]. exfalso. apply nth_error_None in E.
    rewrite (rows_length ux_p 2 ex_f a' F') in E. change (pa_n_pvrows ux_p) with 3%nat in E. lia. }
  destruct R1 as [row Hr]. destruct R2 as [row' Hr'].
  pose proof (fx_scene a F) as SC. pose proof SC as (_ & _ & _ & _ & HR & _).
  destruct (cut_scene ux_p a' 1 D ux_valid F' ltac:(lia)) as [al' SC']. pose proof SC' as (_ & _ & _ & _ & HR' & _).
  assert (NS : no_slivers_now a 1) by exact (fx_no_slivers a F).
  pose proof (ux_none a' F') as NS'.
  assert (Z : is_zone a (OnSide 1 true)).
  { cbn [is_zone]. apply nth_error_Some. congruence. }
  exists i, a, a', f, f', e', e'', row, row'. cbv zeta.
  split; [exact H|]. split; [exact H'|]. split; [exact D|]. split; [reflexivity|]. split; [rewrite N; lia|].
  split; [apply (physical_day _ _ _ _ (PI / 6)); rewrite N; unfold fit_of in FI; rewrite FI; exact SC|].
  split; [apply (physical_day _ _ _ _ al'); rewrite N; unfold fit_of in FI; rewrite FI; exact SC'|].
  split; [exact NS|]. split; [exact NS'|]. split; [exact Z|].
  split; [rewrite AL; lra|]. split; [cbn; intro X; inversion X; lra|]. split; [cbn; intro X; inversion X; lra|].
  split; [exact Hr|]. split; [exact Hr'|].
  split; [exact (proj1 (C06_side_partition fx_p 2 ex_f a 1 1 row true fx_valid F HR Hr))|].
  split; [exact (proj1 (C06_side_partition ux_p 2 ex_f a' 1 1 row' true ux_valid F' HR' Hr'))|].
  destruct (C84_cut_free fx_p ux_p 2 ex_f a a' 1 (PI / 6) al' (OnSide 1 true) SC SC' D ltac:(lia) NS NS' Z) as (_ & _ & _ & E).
  split; [exact E|].
  unfold zone_length. cbn [zone_surfaces]. rewrite Hr.
  exact (side_width fx_p 2 ex_f a 1 1 row true fx_valid F HR Hr).
Qed.
