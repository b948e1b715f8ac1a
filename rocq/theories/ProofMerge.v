(** Proofs about merging the shadows of a ground snapshot. *)
From Coq Require Import Reals List Bool Arith String Lra Lia.
From Verif Require Import Num ModelTs ModelGeom ModelVF ModelParams ModelShapely ModelSnapshot.
From Verif Require Import Basics SpecGeom SpecSnapshot ProofGround ProofShade ProofRow ProofFit ProofCut ProofIndex ProofSnapshot.
From Verif Require ProofShapely.
Import ListNotations.
Open Scope R_scope.

(** A loop over the surfaces of an element, without merging. *)
Lemma merge_rest : forall names b s r p,
  merge_element names b false (s :: r) p =
  Ok (if b then (p, s :: r) else (Some (last (s :: r) s), removelast (s :: r))).
Proof.
  intros names b s r. revert s. induction r as [|s' r IH]; intros s p.
  - cbn. destruct b; reflexivity.
  - change (merge_element names b false (s :: s' :: r) p)
      with (do (q, out) <- merge_element names b false (s' :: r) p; Ok (q, s :: out)).
    rewrite IH. destruct b; [reflexivity|]. cbn [bind]. f_equal. f_equal.
    change (last (s :: s' :: r) s) with (last (s' :: r) s). f_equal.
    clear. revert s s'. induction r as [|x r IH]; intros; [reflexivity|]. cbn [last] in *. destruct r; [reflexivity|]. apply IH.
Qed.

Lemma last_default : forall (A : Type) (l : list A) x d d', last (x :: l) d = last (x :: l) d'.
Proof. intros A l. induction l as [|y l IH]; intros; [reflexivity|]. apply (IH y). Qed.

Definition join (names : list string) (m s : pv_surface) : pv_surface :=
  let p := b1 (su_line m) in
  let q := b2 (su_line s) in
  PVSurface (Line p q) (- (py q - py p), px q - px p) true (su_index s) names (su_params s).
Definition joined (names : list string) (pending : option pv_surface) (s : pv_surface) : pv_surface :=
  match pending with Some m => join names m s | None => s end.

Lemma merged_ok : forall names m s, b1 (su_line m) <> b2 (su_line m) -> b1 (su_line s) <> b2 (su_line s) ->
  b1 (su_line m) <> b2 (su_line s) -> merged_surface names m s = Ok (join names m s).
Proof.
  intros names m s A B C. unfold merged_surface. rewrite !ProofShapely.boundary_ok by assumption.
  unfold pvsurface_init. rewrite ProofShapely.boundary_ok by exact C. reflexivity.
Qed.

Lemma merge_first : forall names b s r p,
  (forall m, p = Some m -> b1 (su_line m) <> b2 (su_line m) /\ b1 (su_line s) <> b2 (su_line s) /\
                           b1 (su_line m) <> b2 (su_line s)) ->
  let full := joined names p s :: r in
  merge_element names b true (s :: r) p =
  Ok (if b then (p, full) else (Some (last full s), removelast full)).
Proof.
  intros names b s r p H full.
  assert (E : (match p with Some m => merged_surface names m s | None => Ok s end) = Ok (joined names p s)).
  { destruct p as [m|]; [|reflexivity]. destruct (H m eq_refl) as (A & B & C). apply merged_ok; assumption. }
  cbn [merge_element]. rewrite E. cbn [bind]. destruct r as [|s' r]; [destruct b; reflexivity|].
  rewrite merge_rest. unfold full. destruct b; [reflexivity|]. cbn [bind]. f_equal. f_equal. f_equal.
  change (last (joined names p s :: s' :: r) s) with (last (s' :: r) s). apply last_default.
Qed.

(** The surfaces follow one another from left to right. *)
Inductive chain : R -> R -> list pv_surface -> Prop :=
| chain_nil : forall x, chain x x []
| chain_cons : forall lo hi s l, px (b1 (su_line s)) = lo -> lo < px (b2 (su_line s)) ->
    chain (px (b2 (su_line s))) hi l -> chain lo hi (s :: l).
Lemma chain_app : forall l lo m hi r, chain lo m l -> chain m hi r -> chain lo hi (l ++ r).
Proof.
  induction l as [|s l IH]; intros lo m hi r H K; inversion H; subst; [exact K|]. cbn. constructor; auto. eapply IH; eauto.
Qed.
Lemma chain_split : forall l lo hi r, chain lo hi (l ++ r) -> exists m, chain lo m l /\ chain m hi r.
Proof.
  induction l as [|s l IH]; intros lo hi r H; [exists lo; split; [constructor|exact H]|]. cbn in H. inversion H; subst.
  destruct (IH _ _ _ H6) as (m & A & B). exists m. split; [constructor; auto|exact B].
Qed.
Lemma chain_le : forall l lo hi, chain lo hi l -> lo <= hi.
Proof. induction l; intros lo hi H; inversion H; subst; [lra|]. specialize (IHl _ _ H6). lra. Qed.
Lemma chain_contiguous : forall l lo hi, chain lo hi l -> contiguous lo hi (map extent l).
Proof.
  induction l; intros lo hi H; inversion H; subst; cbn; [constructor|]. unfold extent at 1, x_extent.
  constructor; [lra|]. apply IHl. assumption.
Qed.
Lemma px_ends : forall l, px (b1 l) < px (b2 l) -> b1 l <> b2 l.
Proof. intros l H E. rewrite E in H. lra. Qed.

(** [starting] with a pending surface. *)
Definition starting' (p : option pv_surface) (els : list (list pv_surface)) : list pv_surface :=
  match p with
  | None => starting els
  | Some m => m :: flat_map (@tl pv_surface) els
  end.

Definition plain (y : R) (names : list string) (s : pv_surface) : Prop :=
  flat_at y s /\ su_shaded s = true /\ su_names s = names.

Lemma join_plain : forall y names m s, plain y names m -> plain y names s ->
  px (b1 (su_line m)) < px (b2 (su_line s)) -> plain y names (join names m s).
Proof.
  intros y names m s ((A1 & A2 & A3 & A4 & A5) & _ & _) ((B1 & B2 & B3 & B4 & B5) & _ & _) L.
  unfold plain, flat_at, join; cbn. repeat split; try assumption; lra.
Qed.

Lemma Forall2_refl' : forall (A : Type) (P : A -> A -> Prop), (forall x, P x x) -> forall l, Forall2 P l l.
Proof. intros A P H. induction l; constructor; auto. Qed.

Lemma split_last : forall (A : Type) (s : A) r d, s :: r = removelast (s :: r) ++ [last (s :: r) d].
Proof. intros. apply app_removelast_last. discriminate. Qed.

Lemma merge_chain : forall y names els p start lo hi,
  els <> [] -> (forall ss, In ss els -> ss <> []) ->
  (forall s, In s (List.concat els) -> plain y names s) ->
  chain lo hi (List.concat els) ->
  match p with
  | None => start = lo
  | Some m => plain y names m /\ px (b1 (su_line m)) = start /\ px (b2 (su_line m)) = lo
  end ->
  exists out, merge_elements names els p = Ok out /\
    chain start hi out /\ (forall o, In o out -> plain y names o) /\
    Forall2 same_start out (starting' p els) /\ Forall2 same_end out (ending els).
Proof.
  intros y names els. induction els as [|ss els IH]; intros p start lo hi NE N0 PL CH PE; [congruence|].
  destruct ss as [|s r]; [exfalso; apply (N0 []); [now left|reflexivity]|].
  cbn [List.concat] in CH, PL.
  destruct (chain_split _ _ _ _ CH) as (m & C1 & C2).
  assert (SL : px (b1 (su_line s)) = lo /\ lo < px (b2 (su_line s)) /\ chain (px (b2 (su_line s))) m r).
  { inversion C1; subst. auto. }
  destruct SL as (S1 & S2 & S3).
  assert (PS : plain y names s) by (apply PL; now left).
  set (s' := joined names p s).
  assert (PS' : plain y names s' /\ px (b1 (su_line s')) = start /\ b2 (su_line s') = b2 (su_line s) /\
                start < px (b2 (su_line s)) /\ same_end s' s).
  { unfold s'. destruct p as [q|]; cbn.
    - destruct PE as (Q1 & Q2 & Q3). assert (start < px (b2 (su_line s))). { destruct Q1 as ((_ & _ & _ & Q & _) & _). lra. }
      split; [apply join_plain; auto; lra|]. repeat split; auto.
    - subst start. repeat split; auto; apply PS. }
  destruct PS' as (P1 & P2 & P3 & P4 & P5).
  assert (HF : forall b, merge_element names b true (s :: r) p =
     Ok (if b then (p, s' :: r) else (Some (last (s' :: r) s), removelast (s' :: r)))).
  { intro b. apply merge_first. intros q ->. destruct PE as (Q1 & Q2 & Q3).
    destruct Q1 as ((_ & _ & _ & Q & _) & _). split; [apply px_ends; lra|]. split; [apply px_ends; lra|].
    intro E. assert (px (b1 (su_line q)) = px (b2 (su_line s))) by (rewrite E; reflexivity). lra. }
  assert (CF : chain start m (s' :: r)).
  { constructor; [exact P2| |]; rewrite P3; assumption. }
  assert (PF : forall o, In o (s' :: r) -> plain y names o).
  { intros o [<-|I]; [exact P1|]. apply PL. cbn. right. apply in_or_app. now left. }
  destruct els as [|ss2 els].
  - (* last element *)
    cbn [merge_elements]. rewrite HF. cbn [bind]. exists (s' :: r ++ []). split; [reflexivity|]. rewrite app_nil_r.
    cbn in C2. inversion C2; subst. split; [exact CF|]. split; [exact PF|]. split.
    + unfold starting', starting, s'. destruct p as [q|]; cbn.
      * rewrite app_nil_r. constructor; [reflexivity|]. apply Forall2_refl'. reflexivity.
      * rewrite app_nil_r. constructor; [reflexivity|]. apply Forall2_refl'. reflexivity.
    + unfold ending; cbn. constructor; [exact P5|]. apply Forall2_refl'. repeat split.
  - (* an element follows *)
    set (rest := ss2 :: els) in *. cbn [merge_elements]. unfold rest at 1. rewrite HF. cbn [bind].
    set (lst := last (s' :: r) s). 
    assert (SP : s' :: r = removelast (s' :: r) ++ [lst]) by apply split_last.
    assert (CF' := CF). rewrite SP in CF'. destruct (chain_split _ _ _ _ CF') as (k & K1 & K2).
    inversion K2 as [|? ? ? ? L1 L2 L3]; subst. inversion L3; subst.
    assert (PLst : plain y names lst) by (apply PF; rewrite SP; apply in_or_app; right; now left).
    destruct (IH (Some lst) (px (b1 (su_line lst))) (px (b2 (su_line lst))) hi) as (out & E & O1 & O2 & O3 & O4).
    { discriminate. }
    { intros x X. apply N0. now right. }
    { intros x X. apply PL. apply in_or_app. now right. }
    { exact C2. }
    { auto. }
    rewrite E. cbn [bind]. exists (removelast (s' :: r) ++ out). split; [reflexivity|].
    split; [eapply chain_app; eauto|]. split.
    { intros o I. apply in_app_or in I. destruct I as [I|I]; [|apply O2; exact I].
      apply PF. rewrite SP. apply in_or_app. now left. }
    split.
    + (* starts *)
      assert (ST : Forall2 same_start (removelast (s' :: r) ++ out) ((s' :: r) ++ flat_map (@tl pv_surface) rest)).
      { rewrite SP at 2. rewrite <- app_assoc. apply Forall2_app; [apply Forall2_refl'; reflexivity|]. exact O3. }
      unfold starting', starting, s' in *. destruct p as [q|]; cbn in *.
      * inversion ST as [|o ? out' ? Q1 Q2 Q3 Q4]; subst.
        constructor; [exact Q1|exact Q2].
      * exact ST.
    + (* ends *)
      unfold ending. change (removelast ((s :: r) :: rest)) with ((s :: r) :: removelast rest).
      change (last ((s :: r) :: rest) []) with (last rest []).
      cbn [flat_map]. rewrite <- app_assoc. apply Forall2_app; [|exact O4].
      destruct r as [|s2 r]; [constructor|].
      change (removelast (s' :: s2 :: r)) with (s' :: removelast (s2 :: r)).
      change (removelast (s :: s2 :: r)) with (s :: removelast (s2 :: r)).
      constructor; [exact P5|]. apply Forall2_refl'. repeat split.
Qed.
