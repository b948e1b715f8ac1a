(** Shadows cast along a straight line (proofs for C67). *)
From Coq Require Import Reals List Bool Arith String Lra Lia Psatz.
From Verif Require Import Num ModelTs ModelGeom ModelVF ModelParams ModelLinalg ModelShapely ModelShadow
  Basics SpecGeom SpecShapely SpecShadow ProofShapely.
Import ListNotations.
Open Scope R_scope.

Notation tol := DISTANCE_TOLERANCE.

Ltac rmm :=
  unfold Rmin, Rmax in *;
  repeat match goal with
  | |- context [Rle_dec ?a ?b] => destruct (Rle_dec a b); try (exfalso; lra)
  | H : context [Rle_dec ?a ?b] |- _ => destruct (Rle_dec a b); try (exfalso; lra)
  end.

(* ------------------------------------------------------------ unions of intervals *)

Definition inside (k : R) (l : list (R * R)) : Prop := exists i, In i l /\ fst i <= k <= snd i.

(** Intervals that are apart and sorted, from [lo] on. *)
Fixpoint spaced (lo : R) (l : list (R * R)) : Prop :=
  match l with [] => True | i :: r => lo < fst i /\ fst i <= snd i /\ spaced (snd i) r end.

Lemma spaced_weaken : forall l lo lo', lo' <= lo -> spaced lo l -> spaced lo' l.
Proof. intros [|i l] lo lo' H S; [exact S|]. cbn in *. destruct S as (A & B & C). repeat split; try assumption. lra. Qed.

Lemma inside_add : forall l i k, fst i <= snd i -> (forall j, In j l -> fst j <= snd j) ->
  (inside k (add_interval i l) <-> fst i <= k <= snd i \/ inside k l).
Proof.
  induction l as [|j l IH]; intros i k Hi Hl; cbn [add_interval].
  - split; [intros (x & [<-|[]] & H); left; exact H|]. intros [H|(x & [] & _)]. exists i. split; [left; reflexivity|exact H].
  - assert (Hj := Hl j (or_introl eq_refl)). assert (Hr : forall j0, In j0 l -> fst j0 <= snd j0) by (intros; apply Hl; right; assumption).
    assert (IC : inside k (j :: l) <-> fst j <= k <= snd j \/ inside k l).
    { split; [intros (x & [<-|I] & H); [left; exact H|right; exists x; split; assumption]|].
      intros [H|(x & I & H)]; [exists j; split; [left; reflexivity|exact H]|exists x; split; [right; exact I|exact H]]. }
    destruct (Rlt_dec (snd i) (fst j)) as [L|L].
    + split; [intros (x & [<-|I] & H); [left; exact H|right; exists x; split; assumption]|].
      intros [H|(x & I & H)]; [exists i; split; [left; reflexivity|exact H]|exists x; split; [right; exact I|exact H]].
    + destruct (Rlt_dec (snd j) (fst i)) as [L2|L2].
      * assert (E : inside k (j :: add_interval i l) <-> fst j <= k <= snd j \/ inside k (add_interval i l)).
        { split; [intros (x & [<-|I] & H); [left; exact H|right; exists x; split; assumption]|].
          intros [H|(x & I & H)]; [exists j; split; [left; reflexivity|exact H]|exists x; split; [right; exact I|exact H]]. }
        rewrite E, (IH i k Hi Hr), IC. tauto.
      * rewrite (IH (Rmin (fst i) (fst j), Rmax (snd i) (snd j)) k); [|cbn; rmm; lra|exact Hr]. rewrite IC. cbn [fst snd].
        split; [intros [H|H]; [|tauto]|intros [H|[H|H]]; [left; rmm; lra|left; rmm; lra|right; exact H]].
        destruct (Rle_dec (fst i) k) as [A|A]; [destruct (Rle_dec k (snd i)) as [B|B]; [left; lra|]|]; right; left; rmm; lra.
Qed.

Lemma spaced_valid : forall l lo, spaced lo l -> forall j, In j l -> lo < fst j /\ fst j <= snd j.
Proof.
  induction l as [|i l IH]; intros lo S j I; [destruct I|]. destruct S as (A & B & C). destruct I as [<-|I]; [split; assumption|].
  destruct (IH _ C j I). split; [lra|assumption].
Qed.

Lemma spaced_add : forall l i lo, fst i <= snd i -> lo < fst i -> spaced lo l -> spaced lo (add_interval i l).
Proof.
  induction l as [|j l IH]; intros i lo Hi L S; cbn [add_interval]; [cbn; auto|].
  destruct S as (A & B & C). destruct (Rlt_dec (snd i) (fst j)) as [L1|L1]; [cbn; auto|].
  destruct (Rlt_dec (snd j) (fst i)) as [L2|L2].
  - cbn. split; [exact A|]. split; [exact B|]. apply IH; assumption.
  - apply IH; cbn [fst snd]; [rmm; lra|rmm; lra|]. apply (spaced_weaken _ (snd j)); [lra|exact C].
Qed.

(** A union of intervals that has no gap is a single one. *)
Lemma spaced_single : forall l lo a b, spaced lo l -> (forall k, inside k l <-> a <= k <= b) -> a <= b -> l = [(a, b)].
Proof.
  intros [|i [|j l]] lo a b S E AB.
  - exfalso. destruct (proj2 (E a) ltac:(lra)) as (x & [] & _).
  - destruct S as (_ & V & _). destruct i as [u v]. cbn in V.
    assert (U : a <= u <= b) by (apply E; exists (u, v); cbn; split; [auto|lra]).
    assert (W : a <= v <= b) by (apply E; exists (u, v); cbn; split; [auto|lra]).
    destruct (proj2 (E a) ltac:(lra)) as (z & [<-|[]] & Z). destruct (proj2 (E b) ltac:(lra)) as (z' & [<-|[]] & Z'). cbn in Z, Z'.
    f_equal. f_equal; lra.
  - exfalso. destruct S as (A & B & C & D & F).
    assert (Ia : a <= snd i <= b) by (apply E; exists i; cbn; split; [auto|lra]).
    assert (Ib : a <= fst j <= b) by (apply E; exists j; cbn; split; [auto|lra]).
    destruct (proj2 (E ((snd i + fst j) / 2)) ltac:(lra)) as (z & [<-|[<-|I]] & Z); [lra|lra|].
    destruct (spaced_valid _ _ F z I). lra.
Qed.

(* ------------------------------------------------------------- on a straight line *)

Section Shadow.
Variables x y c s : R.
Hypothesis unit : c * c + s * s = 1.
Notation at_ := (along x y c s).
Notation L a b := (Line (at_ a) (at_ b)).
Notation ends_of := (lines_at x y c s).
Notation close := (close tol).
Notation close_any := (close_any tol).
Notation caught := (caught tol).

Lemma position_along : forall p q t, p <> q -> position (L p q) (at_ t) = (t - p) / (q - p).
Proof.
  intros p q t N. unfold position, along. cbn [b1 b2 px py].
  replace ((x + t * c - (x + p * c)) * (x + q * c - (x + p * c)) + (y + t * s - (y + p * s)) * (y + q * s - (y + p * s)))
    with ((t - p) * (q - p) * (c * c + s * s)) by ring.
  replace ((x + q * c - (x + p * c)) ^ 2 + (y + q * s - (y + p * s)) ^ 2) with ((q - p) * (q - p) * (c * c + s * s)) by ring.
  rewrite unit. field. lra.
Qed.
Lemma interpolate_along : forall p q k, interpolate (L p q) k = at_ (p + k * (q - p)).
Proof. intros p q k. unfold interpolate, along. cbn [b1 b2 px py]. f_equal; ring. Qed.

Lemma pos_lower : forall p q A k, p <> q -> 0 < (q - p) -> ((A - p) / (q - p) <= k <-> A <= p + k * (q - p)).
Proof.
  intros p q A k N D. split; intro H.
  - apply (Rmult_le_compat_r (q - p)) in H; [|lra]. replace ((A - p) / (q - p) * (q - p)) with (A - p) in H by (field; lra). lra.
  - apply (Rmult_le_reg_r (q - p)); [exact D|]. replace ((A - p) / (q - p) * (q - p)) with (A - p) by (field; lra). lra.
Qed.

Lemma tol_pos : 0 < tol.
Proof. unfold tol. lra. Qed.

Lemma near_part_spec : forall p q a b, p <> q ->
  match near_part (L p q) (L a b) with
  | Some i => 0 <= fst i <= snd i /\ snd i <= 1 /\
      forall k, fst i <= k <= snd i <-> 0 <= k <= 1 /\ close a b (p + k * (q - p))
  | None => forall k, 0 <= k <= 1 -> ~ close a b (p + k * (q - p))
  end.
Proof.
  intros p q a b N. unfold near_part. cbn [b1 b2]. rewrite !position_along by exact N.
  rewrite (length_along x y c s unit p q). set (lo := Rmax 0 _). set (hi := Rmin 1 _).
  assert (T := tol_pos).
  assert (K : forall k, lo <= k <= hi <-> 0 <= k <= 1 /\ close a b (p + k * (q - p))).
  { intro k. subst lo hi. unfold SpecShadow.close.
    assert (W : forall z, z <> 0 -> Rabs z * (1 / Rabs z) = 1) by (intros z Z; field; apply Rabs_no_R0; exact Z).
    destruct (Rlt_dec p q) as [D|D].
    - assert (Q : 0 < q - p) by lra.
      replace (Rabs (p - q)) with (q - p) by (rewrite Rabs_left; lra).
      assert (M1 : Rmin ((a - p) / (q - p)) ((b - p) / (q - p)) - tol / (q - p) = ((Rmin a b - tol) - p) / (q - p)).
      { unfold Rmin. destruct (Rle_dec a b) as [H|H]; destruct (Rle_dec ((a - p) / (q - p)) ((b - p) / (q - p))) as [H2|H2]; try (field; lra).
        - exfalso. apply H2. apply Rmult_le_compat_r; [left; apply Rinv_0_lt_compat; exact Q|lra].
        - assert (a = b). { assert (b <= a) by lra. apply Rle_antisym; [|lra]. apply (Rmult_le_compat_r (q - p)) in H2; [|lra].
            replace ((a - p) / (q - p) * (q - p)) with (a - p) in H2 by (field; lra). replace ((b - p) / (q - p) * (q - p)) with (b - p) in H2 by (field; lra). lra. }
          subst b. field; lra. }
      assert (M2 : Rmax ((a - p) / (q - p)) ((b - p) / (q - p)) + tol / (q - p) = ((Rmax a b + tol) - p) / (q - p)).
      { unfold Rmax. destruct (Rle_dec a b) as [H|H]; destruct (Rle_dec ((a - p) / (q - p)) ((b - p) / (q - p))) as [H2|H2]; try (field; lra).
        - exfalso. apply H2. apply Rmult_le_compat_r; [left; apply Rinv_0_lt_compat; exact Q|lra].
        - assert (a = b). { assert (b <= a) by lra. apply Rle_antisym; [|lra]. apply (Rmult_le_compat_r (q - p)) in H2; [|lra].
            replace ((a - p) / (q - p) * (q - p)) with (a - p) in H2 by (field; lra). replace ((b - p) / (q - p) * (q - p)) with (b - p) in H2 by (field; lra). lra. }
          subst b. field; lra. }
      rewrite M1, M2.
      assert (U : k <= (Rmax a b + tol - p) / (q - p) <-> p + k * (q - p) <= Rmax a b + tol).
      { split; intro H.
        - apply (Rmult_le_compat_r (q - p)) in H; [|lra]. replace ((Rmax a b + tol - p) / (q - p) * (q - p)) with (Rmax a b + tol - p) in H by (field; lra). lra.
        - apply (Rmult_le_reg_r (q - p)); [exact Q|]. replace ((Rmax a b + tol - p) / (q - p) * (q - p)) with (Rmax a b + tol - p) by (field; lra). lra. }
      pose proof (pos_lower p q (Rmin a b - tol) k N Q) as LW.
      set (z1 := (Rmin a b - tol - p) / (q - p)) in *. set (z2 := (Rmax a b + tol - p) / (q - p)) in *.
      split; intro H.
      + split; [rmm; lra|]. split; [apply LW; revert H; unfold Rmax at 1; destruct (Rle_dec 0 z1); lra|].
        apply U. revert H. unfold Rmin at 1. destruct (Rle_dec 1 z2); lra.
      + destruct H as (H & H1 & H2). apply LW in H1. apply U in H2. split; [apply Rmax_lub; lra|apply Rmin_glb; lra].
    - assert (Q : 0 < p - q) by lra.
      replace (Rabs (p - q)) with (p - q) by (rewrite Rabs_right; lra).
      assert (FL : forall z, (z - p) / (q - p) = (p - z) / (p - q)) by (intro z; field; lra). rewrite !FL.
      assert (M1 : Rmin ((p - a) / (p - q)) ((p - b) / (p - q)) - tol / (p - q) = (p - (Rmax a b + tol)) / (p - q)).
      { unfold Rmin, Rmax. destruct (Rle_dec a b) as [H|H]; destruct (Rle_dec ((p - a) / (p - q)) ((p - b) / (p - q))) as [H2|H2]; try (field; lra).
        - assert (a = b). { apply Rle_antisym; [lra|]. apply (Rmult_le_compat_r (p - q)) in H2; [|lra].
            replace ((p - a) / (p - q) * (p - q)) with (p - a) in H2 by (field; lra). replace ((p - b) / (p - q) * (p - q)) with (p - b) in H2 by (field; lra). lra. }
          subst b. field; lra.
        - exfalso. apply H2. apply Rmult_le_compat_r; [left; apply Rinv_0_lt_compat; exact Q|lra]. }
      assert (M2 : Rmax ((p - a) / (p - q)) ((p - b) / (p - q)) + tol / (p - q) = (p - (Rmin a b - tol)) / (p - q)).
      { unfold Rmin, Rmax. destruct (Rle_dec a b) as [H|H]; destruct (Rle_dec ((p - a) / (p - q)) ((p - b) / (p - q))) as [H2|H2]; try (field; lra).
        - assert (a = b). { apply Rle_antisym; [lra|]. apply (Rmult_le_compat_r (p - q)) in H2; [|lra].
            replace ((p - a) / (p - q) * (p - q)) with (p - a) in H2 by (field; lra). replace ((p - b) / (p - q) * (p - q)) with (p - b) in H2 by (field; lra). lra. }
          subst b. field; lra.
        - exfalso. apply H2. apply Rmult_le_compat_r; [left; apply Rinv_0_lt_compat; exact Q|lra]. }
      rewrite M1, M2.
      assert (LW : (p - (Rmax a b + tol)) / (p - q) <= k <-> p + k * (q - p) <= Rmax a b + tol).
      { split; intro H.
        - apply (Rmult_le_compat_r (p - q)) in H; [|lra]. replace ((p - (Rmax a b + tol)) / (p - q) * (p - q)) with (p - (Rmax a b + tol)) in H by (field; lra). lra.
        - apply (Rmult_le_reg_r (p - q)); [exact Q|]. replace ((p - (Rmax a b + tol)) / (p - q) * (p - q)) with (p - (Rmax a b + tol)) by (field; lra). lra. }
      assert (U : k <= (p - (Rmin a b - tol)) / (p - q) <-> Rmin a b - tol <= p + k * (q - p)).
      { split; intro H.
        - apply (Rmult_le_compat_r (p - q)) in H; [|lra]. replace ((p - (Rmin a b - tol)) / (p - q) * (p - q)) with (p - (Rmin a b - tol)) in H by (field; lra). lra.
        - apply (Rmult_le_reg_r (p - q)); [exact Q|]. replace ((p - (Rmin a b - tol)) / (p - q) * (p - q)) with (p - (Rmin a b - tol)) by (field; lra). lra. }
      set (z1 := (p - (Rmax a b + tol)) / (p - q)) in *. set (z2 := (p - (Rmin a b - tol)) / (p - q)) in *.
      split; intro H.
      + split; [rmm; lra|]. split; [apply U; revert H; unfold Rmin at 1; destruct (Rle_dec 1 z2); lra|].
        apply LW. revert H. unfold Rmax at 1. destruct (Rle_dec 0 z1); lra.
      + destruct H as (H & H1 & H2). apply U in H1. apply LW in H2. split; [apply Rmax_lub; lra|apply Rmin_glb; lra]. }
  destruct (Rle_dec lo hi) as [H|H]; cbn [fst snd].
  - assert (0 <= lo) by apply Rmax_l. assert (hi <= 1) by apply Rmin_l. repeat split; try lra; apply K; assumption.
  - intros k Hk C. apply H. assert (lo <= k <= hi) by (apply K; split; assumption). lra.
Qed.


Lemma near_parts_spec : forall p q ps, p <> q ->
  spaced (-1) (near_parts (L p q) (ends_of ps)) /\
  forall k, inside k (near_parts (L p q) (ends_of ps)) <-> 0 <= k <= 1 /\ close_any ps (p + k * (q - p)).
Proof.
  intros p q ps N. induction ps as [|[a b] ps [S IH]]; cbn [lines_at map near_parts fst snd].
  - split; [exact Logic.I|]. intro k. split; [intros (z & [] & _)|intros (_ & z & [] & _)].
  - pose proof (near_part_spec p q a b N) as NP. fold (lines_at x y c s ps).
    assert (CA : forall t, close_any ((a, b) :: ps) t <-> close a b t \/ close_any ps t).
    { intro t. split; [intros (z & [<-|I] & H); [left; exact H|right; exists z; split; assumption]|].
      intros [H|(z & I & H)]; [exists (a, b); split; [left; reflexivity|exact H]|exists z; split; [right; exact I|exact H]]. }
    destruct (near_part (L p q) (L a b)) as [i|].
    + destruct NP as (A & B & K). split; [apply spaced_add; [lra|lra|exact S]|].
      intro k. rewrite inside_add; [|lra|intros j J; exact (proj2 (spaced_valid _ _ S j J))]. rewrite IH, K, CA. tauto.
    + split; [exact S|]. intro k. rewrite IH, CA. split; [tauto|]. intros (H & [C|C]); [exfalso; exact (NP k H C)|tauto].
Qed.


Lemma caught_pos : forall p q ps k, p <> q -> (0 <= k <= 1 /\ close_any ps (p + k * (q - p)) <-> caught p q ps (p + k * (q - p))).
Proof.
  intros p q ps k N. unfold SpecShadow.caught, between. assert (E : 0 <= k <= 1 <-> Rmin p q <= p + k * (q - p) <= Rmax p q); [|tauto].
  destruct (Rlt_dec p q) as [D|D].
  - rewrite Rmin_left, Rmax_right by lra. split; intro H; [nra|]. split.
    + apply (Rmult_le_reg_r (q - p)); lra. + apply (Rmult_le_reg_r (q - p)); lra.
  - rewrite Rmin_right, Rmax_left by lra. split; intro H; [nra|]. split.
    + apply (Rmult_le_reg_r (p - q)); lra. + apply (Rmult_le_reg_r (p - q)); lra.
Qed.

Lemma to_pos : forall p q t, p <> q -> t = p + (t - p) / (q - p) * (q - p).
Proof. intros. field. lra. Qed.

Lemma intersection_empty : forall p q ps, p <> q -> (forall t, ~ caught p q ps t) ->
  buffer_intersection (ends_of ps) (L p q) = GEmpty.
Proof.
  intros p q ps N E. destruct (near_parts_spec p q ps N) as [S K]. unfold buffer_intersection.
  destruct (near_parts (L p q) (ends_of ps)) as [|i l]; [reflexivity|]. exfalso.
  apply (E (p + fst i * (q - p))). apply caught_pos; [exact N|]. apply K. exists i. split; [left; reflexivity|].
  destruct S as (_ & V & _). lra.
Qed.

Lemma intersection_line : forall p q ps lo hi, p <> q -> lo < hi -> (forall t, caught p q ps t <-> lo <= t <= hi) ->
  buffer_intersection (ends_of ps) (L p q) = GLine (if Rlt_dec p q then L lo hi else L hi lo).
Proof.
  intros p q ps lo hi N LH E. destruct (near_parts_spec p q ps N) as [S K]. unfold buffer_intersection.
  assert (F : forall k, inside k (near_parts (L p q) (ends_of ps)) <-> lo <= p + k * (q - p) <= hi).
  { intro k. rewrite K, caught_pos by exact N. apply E. }
  destruct (Rlt_dec p q) as [D|D].
  - rewrite (spaced_single _ _ ((lo - p) / (q - p)) ((hi - p) / (q - p)) S).
    + cbn [fst snd]. destruct (Req_EM_T ((lo - p) / (q - p)) ((hi - p) / (q - p))) as [Z|Z].
      * exfalso. apply (f_equal (fun z => p + z * (q - p))) in Z. rewrite <- !to_pos in Z by exact N. lra.
      * rewrite !interpolate_along, <- !to_pos by exact N. reflexivity.
    + intro k. rewrite F. assert (Q : 0 < q - p) by lra. rewrite (pos_lower p q lo k N Q).
      split; intros (H1 & H2); (split; [exact H1|]).
      * apply (Rmult_le_reg_r (q - p)); [exact Q|]. replace ((hi - p) / (q - p) * (q - p)) with (hi - p) by (field; lra). lra.
      * apply (Rmult_le_compat_r (q - p)) in H2; [|lra]. replace ((hi - p) / (q - p) * (q - p)) with (hi - p) in H2 by (field; lra). lra.
    + apply Rmult_le_compat_r; [left; apply Rinv_0_lt_compat; lra|lra].
  - assert (Q : 0 < p - q) by lra. rewrite (spaced_single _ _ ((hi - p) / (q - p)) ((lo - p) / (q - p)) S).
    + cbn [fst snd]. destruct (Req_EM_T ((hi - p) / (q - p)) ((lo - p) / (q - p))) as [Z|Z].
      * exfalso. apply (f_equal (fun z => p + z * (q - p))) in Z. rewrite <- !to_pos in Z by exact N. lra.
      * rewrite !interpolate_along, <- !to_pos by exact N. reflexivity.
    + intro k. rewrite F. assert (FL : forall z, (z - p) / (q - p) = (p - z) / (p - q)) by (intro z; field; lra). rewrite !FL.
      split; intros (H1 & H2); split.
      * apply (Rmult_le_reg_r (p - q)); [exact Q|]. replace ((p - hi) / (p - q) * (p - q)) with (p - hi) by (field; lra). lra.
      * apply (Rmult_le_reg_r (p - q)); [exact Q|]. replace ((p - lo) / (p - q) * (p - q)) with (p - lo) by (field; lra). lra.
      * apply (Rmult_le_compat_r (p - q)) in H2; [|lra]. replace ((p - lo) / (p - q) * (p - q)) with (p - lo) in H2 by (field; lra). lra.
      * apply (Rmult_le_compat_r (p - q)) in H1; [|lra]. replace ((p - hi) / (p - q) * (p - q)) with (p - hi) in H1 by (field; lra). lra.
    + assert (FL : forall z, (z - p) / (q - p) = (p - z) / (p - q)) by (intro z; field; lra). rewrite !FL.
      apply Rmult_le_compat_r; [left; apply Rinv_0_lt_compat; lra|lra].
Qed.

Lemma intersection_point : forall p q ps t0, p <> q -> (forall t, caught p q ps t <-> t = t0) ->
  buffer_intersection (ends_of ps) (L p q) = GPoint (at_ t0).
Proof.
  intros p q ps t0 N E. destruct (near_parts_spec p q ps N) as [S K]. unfold buffer_intersection.
  rewrite (spaced_single _ _ ((t0 - p) / (q - p)) ((t0 - p) / (q - p)) S); [|intro k|lra].
  - cbn [fst snd]. destruct (Req_EM_T ((t0 - p) / (q - p)) ((t0 - p) / (q - p))) as [Z|Z]; [|congruence].
    rewrite interpolate_along, <- to_pos by exact N. reflexivity.
  - rewrite K, caught_pos, E by exact N. split; intro H.
    + subst t0. replace ((p + k * (q - p) - p) / (q - p)) with k by (field; lra). lra.
    + assert (k = (t0 - p) / (q - p)) as -> by lra. field. lra.
Qed.

Lemma intersection_gap : forall p q ps t1 t2 t3, p <> q -> caught p q ps t1 -> caught p q ps t3 -> t1 < t2 < t3 -> ~ caught p q ps t2 ->
  exists ls, buffer_intersection (ends_of ps) (L p q) = GMultiLine ls.
Proof.
  intros p q ps t1 t2 t3 N C1 C3 O C2. destruct (near_parts_spec p q ps N) as [S K]. unfold buffer_intersection.
  assert (F : forall t, inside ((t - p) / (q - p)) (near_parts (L p q) (ends_of ps)) <-> caught p q ps t).
  { intro t. rewrite K, caught_pos by exact N. rewrite <- to_pos by exact N. reflexivity. }
  destruct (near_parts (L p q) (ends_of ps)) as [|i [|j l]].
  - exfalso. destruct (proj2 (F t1) C1) as (z & [] & _).
  - exfalso. destruct (proj2 (F t1) C1) as (z & [<-|[]] & Z1). destruct (proj2 (F t3) C3) as (z & [<-|[]] & Z3).
    apply C2. apply F. exists i. split; [left; reflexivity|].
    destruct (Rlt_dec p q) as [D|D].
    + assert (M : forall u v, u < v -> (u - p) / (q - p) <= (v - p) / (q - p)) by (intros; apply Rmult_le_compat_r; [left; apply Rinv_0_lt_compat; lra|lra]).
      pose proof (M t1 t2 ltac:(lra)). pose proof (M t2 t3 ltac:(lra)). lra.
    + assert (M : forall u v, u < v -> (v - p) / (q - p) <= (u - p) / (q - p)).
      { intros u v H. replace ((v - p) / (q - p)) with ((p - v) / (p - q)) by (field; lra). replace ((u - p) / (q - p)) with ((p - u) / (p - q)) by (field; lra).
        apply Rmult_le_compat_r; [left; apply Rinv_0_lt_compat; lra|lra]. }
      pose proof (M t1 t2 ltac:(lra)). pose proof (M t2 t3 ltac:(lra)). lra.
  - eexists. reflexivity.
Qed.

(** What is left of the piece from [a] to [b] without the positions from [u] to [v]. *)
Definition cut_out (a b u v : R) : list (R * R) :=
  let m := Rmax (Rmin a b) (Rmin u v) in
  let M := Rmin (Rmax a b) (Rmax u v) in
  if Rlt_dec m M then
    if Rlt_dec a b then (if Rlt_dec a m then [(a, m)] else []) ++ (if Rlt_dec M b then [(M, b)] else [])
    else (if Rlt_dec M a then [(a, M)] else []) ++ (if Rlt_dec b m then [(m, b)] else [])
  else [(a, b)].

Lemma scale_min : forall a d x y, 0 < d -> Rmin (a + x * d) (a + y * d) = a + Rmin x y * d.
Proof. intros a d x' y' D. unfold Rmin. destruct (Rle_dec x' y'), (Rle_dec (a + x' * d) (a + y' * d)); try reflexivity; nra. Qed.
Lemma scale_max : forall a d x y, 0 < d -> Rmax (a + x * d) (a + y * d) = a + Rmax x y * d.
Proof. intros a d x' y' D. unfold Rmax. destruct (Rle_dec x' y'), (Rle_dec (a + x' * d) (a + y' * d)); try reflexivity; nra. Qed.
Lemma flip_min : forall a d x y, d < 0 -> Rmin (a + x * d) (a + y * d) = a + Rmax x y * d.
Proof. intros a d x' y' D. unfold Rmin, Rmax. destruct (Rle_dec x' y'), (Rle_dec (a + x' * d) (a + y' * d)); try reflexivity; nra. Qed.
Lemma flip_max : forall a d x y, d < 0 -> Rmax (a + x * d) (a + y * d) = a + Rmin x y * d.
Proof. intros a d x' y' D. unfold Rmin, Rmax. destruct (Rle_dec x' y'), (Rle_dec (a + x' * d) (a + y' * d)); try reflexivity; nra. Qed.

Lemma line_difference_along : forall a b u v, a <> b ->
  line_difference (L a b) (L u v) = ends_of (cut_out a b u v).
Proof.
  intros a b u v N. unfold line_difference. cbn [b1 b2]. rewrite !position_along by exact N.
  set (pu := (u - a) / (b - a)). set (pv := (v - a) / (b - a)).
  assert (Eu : u = a + pu * (b - a)) by (unfold pu; field; lra).
  assert (Ev : v = a + pv * (b - a)) by (unfold pv; field; lra).
  clearbody pu pv. subst u v. set (d := b - a). assert (B : b = a + 1 * d) by (unfold d; ring). assert (A : a = a + 0 * d) by ring.
  assert (D : d <> 0) by (unfold d; lra). unfold cut_out.
  assert (I : forall k, interpolate (L a b) k = at_ (a + k * d)) by (intro k; apply interpolate_along). rewrite !I.
  destruct (Rlt_dec a b) as [AB|AB].
  - assert (P : 0 < d) by (unfold d; lra).
    replace (Rmin a b) with a by (rewrite Rmin_left; lra). replace (Rmax a b) with b by (rewrite Rmax_right; lra).
    rewrite scale_min, scale_max by exact P.
    replace (Rmax a (a + Rmin pu pv * d)) with (a + Rmax 0 (Rmin pu pv) * d) by (rewrite A at 2; rewrite scale_max by exact P; reflexivity).
    replace (Rmin b (a + Rmax pu pv * d)) with (a + Rmin 1 (Rmax pu pv) * d) by (rewrite B at 1; rewrite scale_min by exact P; reflexivity).
    set (lo := Rmax 0 _). set (hi := Rmin 1 _). clearbody d. subst b.
    repeat match goal with |- context [Rlt_dec ?x ?y] => destruct (Rlt_dec x y) end; try reflexivity; exfalso; nra.
  - assert (P : d < 0) by (unfold d; lra).
    replace (Rmin a b) with b by (rewrite Rmin_right; lra). replace (Rmax a b) with a by (rewrite Rmax_left; lra).
    rewrite flip_min, flip_max by exact P.
    replace (Rmax b (a + Rmax pu pv * d)) with (a + Rmin 1 (Rmax pu pv) * d) by (rewrite B at 1; rewrite flip_max by exact P; reflexivity).
    replace (Rmin a (a + Rmin pu pv * d)) with (a + Rmax 0 (Rmin pu pv) * d) by (rewrite A at 2; rewrite flip_min by exact P; reflexivity).
    set (lo := Rmax 0 _). set (hi := Rmin 1 _). clearbody d. subst b.
    repeat match goal with |- context [Rlt_dec ?x ?y] => destruct (Rlt_dec x y) end; try reflexivity; exfalso; nra.
Qed.

Lemma cut_out_spec : forall a b u v, a <> b -> u <> v ->
  (forall i, In i (cut_out a b u v) -> fst i <> snd i /\ (a < b <-> fst i < snd i)) /\
  (forall t, lies_in (cut_out a b u v) t -> between a b t /\ ~ Rmin u v < t < Rmax u v) /\
  (forall t, between a b t -> ~ between u v t -> lies_in (cut_out a b u v) t) /\
  full_length (cut_out a b u v) = Rabs (b - a) - overlap a b u v.
Proof.
  intros a b u v N M. unfold cut_out, lies_in, between, full_length, overlap.
  assert (F : (Rmin u v < Rmax u v)) by (rmm; lra). set (lo := Rmin u v) in *. set (hi := Rmax u v) in *. clearbody lo hi.
  destruct (Rlt_dec a b) as [AB|AB].
  - replace (Rmin a b) with a by (rewrite Rmin_left; lra). replace (Rmax a b) with b by (rewrite Rmax_right; lra).
    rewrite (Rabs_right (b - a)) by lra.
    destruct (Rlt_dec (Rmax a lo) (Rmin b hi)) as [O|O];
      [destruct (Rlt_dec a (Rmax a lo)) as [P1|P1]; destruct (Rlt_dec (Rmin b hi) b) as [P2|P2]|]; cbn [app fold_right fst snd];
      (split; [|split; [|split]]);
      try (intros i Hi; cbn in Hi; repeat (destruct Hi as [<-|Hi]); try contradiction; cbn [fst snd]; rmm; lra);
      try (intros t (i & Hi & T); cbn in Hi; repeat (destruct Hi as [<-|Hi]); try contradiction; cbn [fst snd] in T; rmm; lra);
      try (unfold Rabs; repeat match goal with |- context [Rcase_abs ?z] => destruct (Rcase_abs z) end; rmm; lra).
    + intros t T1 T2. destruct (Rle_dec t lo); [exists (a, Rmax a lo)|exists (Rmin b hi, b)]; cbn [fst snd]; (split; [cbn; auto|]); rmm; lra.
    + intros t T1 T2. exists (a, Rmax a lo); cbn [fst snd]; (split; [cbn; auto|]); rmm; lra.
    + intros t T1 T2. exists (Rmin b hi, b); cbn [fst snd]; (split; [cbn; auto|]); rmm; lra.
    + intros t T1 T2. exists (a, b). cbn [fst snd]. split; [cbn; auto|]. rmm; lra.
  - replace (Rmin a b) with b by (rewrite Rmin_right; lra). replace (Rmax a b) with a by (rewrite Rmax_left; lra).
    rewrite (Rabs_left (b - a)) by lra.
    destruct (Rlt_dec (Rmax b lo) (Rmin a hi)) as [O|O];
      [destruct (Rlt_dec (Rmin a hi) a) as [P1|P1]; destruct (Rlt_dec b (Rmax b lo)) as [P2|P2]|]; cbn [app fold_right fst snd];
      (split; [|split; [|split]]);
      try (intros i Hi; cbn in Hi; repeat (destruct Hi as [<-|Hi]); try contradiction; cbn [fst snd]; rmm; lra);
      try (intros t (i & Hi & T); cbn in Hi; repeat (destruct Hi as [<-|Hi]); try contradiction; cbn [fst snd] in T; rmm; lra);
      try (unfold Rabs; repeat match goal with |- context [Rcase_abs ?z] => destruct (Rcase_abs z) end; rmm; lra).
    + intros t T1 T2. destruct (Rle_dec t lo); [exists (Rmax b lo, b)|exists (a, Rmin a hi)]; cbn [fst snd]; (split; [cbn; auto|]); rmm; lra.
    + intros t T1 T2. exists (a, Rmin a hi); cbn [fst snd]; (split; [cbn; auto|]); rmm; lra.
    + intros t T1 T2. exists (Rmax b lo, b); cbn [fst snd]; (split; [cbn; auto|]); rmm; lra.
    + intros t T1 T2. exists (a, b). cbn [fst snd]. split; [cbn; auto|]. rmm; lra.
Qed.
End Shadow.
