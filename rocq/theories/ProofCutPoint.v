(** Cutting collections, uniform shading, sides made from coordinates (proofs for C42,
    C43, C55-C57). *)
From Coq Require Import Reals List Bool Arith String Lra Lia Psatz.
From Verif Require Import Num ModelTs ModelGeom ModelVF ModelParams ModelLinalg ModelShapely
  Basics SpecGeom SpecShapely ProofShapely ProofProj.
Import ListNotations.
Open Scope R_scope.
Open Scope list_scope.

Definition init_surface (l : line) (n : R * R) (shaded : bool) (names : list string) : pv_surface :=
  PVSurface l n shaded None names (fun k => if existsb (String.eqb k) names then Some SNone else None).

Lemma existsb_in_dec : forall (B : Type) k names (a b : B),
  (if existsb (String.eqb k) names then a else b) = if in_dec string_dec k names then a else b.
Proof.
  intros B k names a b.
  destruct (in_dec string_dec k names) as [H|H]; destruct (existsb (String.eqb k) names) eqn:E; auto.
  - exfalso. apply not_true_iff_false in E. apply E. apply existsb_exists.
    exists k. split; [exact H | apply String.eqb_refl].
  - exfalso. apply existsb_exists in E. destruct E as (x & Hx & Ex).
    apply String.eqb_eq in Ex. subst. contradiction.
Qed.

Lemma init_part_of : forall s l, part_of s l (init_surface l (su_nvec s) (su_shaded s) (su_names s)).
Proof.
  intros s l. unfold part_of, init_surface. cbn.
  repeat split. intros k. apply existsb_in_dec.
Qed.

Lemma cut_test : forall s p,
  (contains (su_line s) p = true /\ DISTANCE_TOLERANCE < distance (b1 (su_line s)) p
   /\ DISTANCE_TOLERANCE < distance (b2 (su_line s)) p) <-> cuttable DISTANCE_TOLERANCE s p.
Proof. intros s p. unfold cuttable. rewrite contains_near, !gap_dist. tauto. Qed.

Lemma cuttable_ends : forall s p, cuttable DISTANCE_TOLERANCE s p -> b1 (su_line s) <> b2 (su_line s).
Proof.
  intros s p ((q & (k & Hk & ->) & G) & H1 & H2) E.
  assert (A : seg_point (su_line s) k = b1 (su_line s)).
  { unfold seg_point. rewrite <- E. destruct (b1 (su_line s)) as [xx yy]. cbn [px py]. f_equal; ring. }
  rewrite A, gap_sym in G. lra.
Qed.

Lemma cut_loop_skip : forall s r p, ~ cuttable DISTANCE_TOLERANCE s p ->
  (near DISTANCE_TOLERANCE (su_line s) p -> b1 (su_line s) <> b2 (su_line s)) ->
  cut_loop (s :: r) p = do x <- cut_loop r p;
                        Ok (match x with Some (r', s2) => Some (s :: r', s2) | None => None end).
Proof.
  intros s r p N D. cbn [cut_loop].
  destruct (contains (su_line s) p) eqn:C; [| reflexivity].
  assert (E := D (proj1 (contains_near _ _) C)).
  rewrite (boundary_ok _ E). cbn [bind].
  destruct (Rltb_spec DISTANCE_TOLERANCE (distance (b1 (su_line s)) p)) as [A|A]; [| reflexivity].
  destruct (Rltb_spec DISTANCE_TOLERANCE (distance (b2 (su_line s)) p)) as [B|B]; [| reflexivity].
  exfalso. apply N. apply cut_test. auto.
Qed.

Lemma cut_loop_none : forall l p,
  (forall s, In s l -> ~ cuttable DISTANCE_TOLERANCE s p) ->
  (forall s, In s l -> near DISTANCE_TOLERANCE (su_line s) p -> b1 (su_line s) <> b2 (su_line s)) ->
  cut_loop l p = Ok None.
Proof.
  induction l as [|s l IH]; intros p N D; [reflexivity|].
  rewrite cut_loop_skip; [| apply N; left; auto | apply D; left; auto].
  rewrite IH; [reflexivity | |]; intros; [apply N | apply D]; try (right; assumption); assumption.
Qed.

Lemma cut_loop_some : forall l1 s l2 p,
  (forall s', In s' l1 -> ~ cuttable DISTANCE_TOLERANCE s' p) ->
  (forall s', In s' l1 -> near DISTANCE_TOLERANCE (su_line s') p -> b1 (su_line s') <> b2 (su_line s')) ->
  cuttable DISTANCE_TOLERANCE s p ->
  cut_loop (l1 ++ s :: l2) p
  = Ok (Some (l1 ++ init_surface (Line (b1 (su_line s)) p) (su_nvec s) (su_shaded s) (su_names s) :: l2,
              init_surface (Line p (b2 (su_line s))) (su_nvec s) (su_shaded s) (su_names s))).
Proof.
  induction l1 as [|a l1 IH]; intros s l2 p N D C.
  - cbn [app cut_loop]. pose proof (cuttable_ends s p C) as E. apply cut_test in C.
    destruct C as (C & A & B). rewrite C, (boundary_ok _ E). cbn [bind].
    apply Rltb_true in A, B. rewrite A, B. reflexivity.
  - cbn [app]. rewrite cut_loop_skip; [| apply N; left; auto | apply D; left; auto].
    rewrite IH; [reflexivity | | | exact C]; intros; [apply N | apply D]; try (right; assumption); assumption.
Qed.

Lemma py_sum_map_app : forall (f : pv_surface -> R) a b,
  py_sum (map f (a ++ b)) = py_sum (map f a) + py_sum (map f b).
Proof. intros. rewrite !py_sum_rsum, map_app, rsum_app. reflexivity. Qed.

Lemma cut_length : forall l p, 
  (on_segment l p -> gap (b1 l) p + gap p (b2 l) = seg_length l) /\
  (near DISTANCE_TOLERANCE l p ->
   seg_length l <= gap (b1 l) p + gap p (b2 l) < seg_length l + 2 * DISTANCE_TOLERANCE).
Proof.
  intros l p.
  assert (S : forall q, on_segment l q -> gap (b1 l) q + gap q (b2 l) = seg_length l).
  { intros q (k & Hk & ->). rewrite (gap_sym _ (b2 l)), gap_seg_point, gap_seg_point2.
    rewrite !Rabs_right by lra. ring. }
  split; [apply S|]. intros (q & Hq & G). specialize (S q Hq).
  pose proof (gap_triangle (b1 l) p (b2 l)). unfold seg_length in *.
  pose proof (gap_triangle (b1 l) q p). pose proof (gap_triangle p q (b2 l)).
  rewrite (gap_sym q p) in *. lra.
Qed.

Lemma cut_total : forall l1 s l2 p s1 s2,
  su_line s1 = Line (b1 (su_line s)) p -> su_line s2 = Line p (b2 (su_line s)) ->
  py_sum (map su_length (l1 ++ s1 :: l2 ++ [s2]))
  = py_sum (map su_length (l1 ++ s :: l2))
    + (gap (b1 (su_line s)) p + gap p (b2 (su_line s)) - seg_length (su_line s)).
Proof.
  intros l1 s l2 p s1 s2 E1 E2. rewrite !py_sum_rsum, !map_app, !rsum_app.
  cbn [map rsum]. rewrite map_app, rsum_app. cbn [map rsum].
  unfold su_length. rewrite E1, E2, !length_seg. unfold seg_length. cbn [b1 b2]. ring.
Qed.

(* ------------------------------------------------------------------ shading *)

Lemma same_shading_cases : forall l b,
  (same_shading b l = Ok tt /\ forall s, In s l -> su_shaded s = b) \/
  (same_shading b l = Err PVFactorsError /\ exists s, In s l /\ su_shaded s <> b).
Proof.
  induction l as [|s l IH]; intros b.
  - left. split; [reflexivity | intros s []].
  - cbn [same_shading]. destruct (Bool.eqb b (su_shaded s)) eqn:E.
    + apply eqb_prop in E. destruct (IH b) as [[H A]|[H (s' & I & A)]].
      * left. split; [exact H|]. intros s' [<-|I]; [congruence | auto].
      * right. split; [exact H|]. exists s'. split; [right; exact I | exact A].
    + right. split; [reflexivity|]. exists s. split; [left; auto|]. intros F.
      rewrite F, eqb_reflx in E. discriminate.
Qed.

Lemma uniform_shading_cases : forall l,
  (check_uniform_shading l = Ok tt /\ forall s s', In s l -> In s' l -> su_shaded s = su_shaded s') \/
  (check_uniform_shading l = Err PVFactorsError /\
   exists s s', In s l /\ In s' l /\ su_shaded s <> su_shaded s').
Proof.
  intros [|a l].
  - left. split; [reflexivity | intros s s' []].
  - cbn [check_uniform_shading]. destruct (same_shading_cases l (su_shaded a)) as [[H A]|[H (s & I & A)]].
    + left. split; [exact H|].
      intros s s' [<-|I] [<-|I']; try rewrite (A _ I); try rewrite (A _ I'); auto.
    + right. split; [exact H|]. exists s, a. repeat split; [right; auto | left; auto | exact A].
Qed.

(* --------------------------------------------------- sides from coordinates *)

Lemma perp_self : forall n : R * R, - snd n * fst n + fst n * snd n = 0.
Proof. intros; ring. Qed.

Lemma TOL_COLLINEAR_pos : 0 < TOL_COLLINEAR.
Proof. unfold TOL_COLLINEAR. lra. Qed.

Lemma sc_from_coords_ok : forall l shaded nvec names n,
  match nvec with Some n0 => n = n0
  | None => b1 l <> b2 l /\ n = (- (py (b2 l) - py (b1 l)), px (b2 l) - px (b1 l)) end ->
  sc_from_coords l shaded nvec names
  = Ok (ShadeColl [init_surface l n shaded names] (Some shaded) true names).
Proof.
  intros l shaded nvec names n H. unfold sc_from_coords, pvsurface_init.
  destruct nvec as [n0|].
  - subst n0. reflexivity.
  - destruct H as [D ->]. rewrite (boundary_ok _ D). reflexivity.
Qed.

Definition one_segment (l : line) (n : R * R) (shaded : bool) (names : list string) : pv_segment :=
  let full := ShadeColl [init_surface l n shaded names] (Some shaded) true names in
  let empty := ShadeColl [] (Some (negb shaded)) true names in
  if shaded then PVSegment empty full None else PVSegment full empty None.

Lemma sg_from_coords_ok : forall l shaded nvec names n,
  match nvec with Some n0 => n = n0
  | None => b1 l <> b2 l /\ n = (- (py (b2 l) - py (b1 l)), px (b2 l) - px (b1 l)) end ->
  sg_from_coords l shaded nvec names = Ok (one_segment l n shaded names).
Proof.
  intros l shaded nvec names n H. unfold sg_from_coords.
  rewrite (sc_from_coords_ok l shaded nvec names n H). cbn [bind].
  destruct shaded; reflexivity.
Qed.

Lemma segs_from_lines_ok : forall (nv : line -> R * R) shaded nvec names ls,
  (forall l, In l ls -> match nvec with Some n0 => nv l = n0
     | None => b1 l <> b2 l /\ nv l = (- (py (b2 l) - py (b1 l)), px (b2 l) - px (b1 l)) end) ->
  segs_from_lines ls shaded nvec names = Ok (map (fun l => one_segment l (nv l) shaded names) ls).
Proof.
  intros nv shaded nvec names. induction ls as [|l ls IH]; intros H; [reflexivity|].
  cbn [segs_from_lines map]. rewrite (sg_from_coords_ok l shaded nvec names (nv l) (H l (or_introl eq_refl))).
  cbn [bind]. rewrite IH by (intros; apply H; right; assumption). reflexivity.
Qed.

Lemma one_segment_direction : forall l n shaded names,
  sg_direction (one_segment l n shaded names) = Ok (Some n).
Proof. intros l n [|] names; reflexivity. Qed.

Lemma all_along_ok : forall u l,
  (forall n, In (Some n) l -> fst u * fst n + snd u * snd n = 0) -> all_along u l = true.
Proof.
  intros u. induction l as [|[n|] l IH]; intros H; [reflexivity | |].
  - cbn [all_along]. rewrite (H n (or_introl eq_refl)), Rabs_R0.
    destruct (Rltb_spec 0 TOL_COLLINEAR) as [_|F].
    + apply IH. intros. apply H. right; assumption.
    + pose proof TOL_COLLINEAR_pos. lra.
  - apply IH. intros. apply H. right; assumption.
Qed.

Lemma side_init_ok : forall (A : Type) (ls : list A) (g : A -> pv_segment) (nv : A -> R * R),
  (forall a, In a ls -> sg_direction (g a) = Ok (Some (nv a))) ->
  (forall a b, In a ls -> In b ls -> - snd (nv a) * fst (nv b) + fst (nv a) * snd (nv b) = 0) ->
  side_init (map g ls) = Ok (map g ls).
Proof.
  intros A ls g nv D P. unfold side_init.
  set (dirs := fix dirs (l : list pv_segment) : result (list (option (R * R))) := _).
  assert (E : forall l, (forall a, In a l -> sg_direction (g a) = Ok (Some (nv a))) ->
                        dirs (map g l) = Ok (map (fun a => Some (nv a)) l)).
  { induction l as [|a l IH]; intros H; [reflexivity|].
    cbn [map]. change (dirs (g a :: map g l))
      with (do n <- sg_direction (g a); do ns <- dirs (map g l); Ok (n :: ns)).
    rewrite (H a (or_introl eq_refl)), IH by (intros; apply H; right; assumption). reflexivity. }
  rewrite (E ls D). cbn [bind]. unfold check_collinear.
  replace (is_collinear (map (fun a => Some (nv a)) ls)) with true; [reflexivity|].
  symmetry. destruct ls as [|a ls]; [reflexivity|]. cbn [map is_collinear].
  apply all_along_ok. intros n Hn. apply in_map_iff in Hn. destruct Hn as (b & Eb & Hb).
  injection Eb as <-. cbn [fst snd]. apply P; [left; auto | right; exact Hb].
Qed.
