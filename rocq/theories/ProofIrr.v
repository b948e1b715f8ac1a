(** The parameters of the surfaces after [transform]. *)
From Coq Require Import Reals List Bool Arith String Lra Lia Permutation.
From Verif Require Import Num ModelTs ModelGeom ModelVF Basics SpecGeom ProofFit ProofIndex ProofGeom2 ModelParams SpecParams ProofParams ModelIrr SpecIrr.
Import ListNotations.
Open Scope R_scope.

(* --------------------------------------------------- histories of distinct parts *)

Definition hist_ids (h : history) : list sid := flat_map (fun u => part_ids (fst u)) h.

Lemma in_part_touch : forall x k u, touches x k u -> In x (part_ids (fst u)).
Proof. intros x k u [H _]. apply in_part_ids. exact H. Qed.

Lemma history_once : forall h st p d x k, NoDup (hist_ids h) -> In (p, d) h -> In x (part_ids p) ->
  ps_surf (run_history st h) x k = overlay d k (ps_surf st x k).
Proof.
  induction h as [|u h IH]; intros st p d x k N I X; [destruct I|].
  unfold hist_ids in N. cbn [flat_map] in N.
  change (run_history st (u :: h)) with (run_history (update_part st (fst u) (snd u)) h).
  assert (Dj : forall y, In y (part_ids (fst u)) -> ~ In y (hist_ids h)).
  { intros y Y Z. clear -N Y Z. induction (part_ids (fst u)) as [|z l IHl]; [destruct Y|].
    cbn in N. inversion N as [|? ? N1 N2]; subst. destruct Y as [->|Y].
    - apply N1, in_or_app; right; exact Z.
    - exact (IHl N2 Y). }
  destruct I as [->|I].
  - cbn [fst snd] in *. rewrite history_untouched.
    + rewrite (part_updated st p d x k). destruct (in_dec sid_eq_dec x (part_ids p)); [reflexivity|contradiction].
    + intros u' I' T. apply (Dj x X). unfold hist_ids. apply in_flat_map. exists u'.
      split; [exact I'|]. exact (in_part_touch _ _ _ T).
  - assert (N2 : NoDup (hist_ids h)).
    { clear -N. induction (part_ids (fst u)); [exact N|]. cbn in N. inversion N; auto. }
    rewrite (IH _ p d x k N2 I X). f_equal. apply update_untouched.
    intro T. apply (Dj x (in_part_touch _ _ _ T)). unfold hist_ids. apply in_flat_map.
    exists (p, d). split; [exact I | exact X].
Qed.

(* ------------------------------------------------------- history of a transform *)

Section Hist.
  Variable a : fitted.
  Variable G : bool -> dict.
  Variable D : nat -> bool -> bool -> list ts_surface -> dict.

  Definition seg_hist (i : nat) (b : bool) (seg : ts_segment) : history :=
    [(PartCollection (seg_illum seg), D i b false (seg_illum seg));
     (PartCollection (seg_shaded seg), D i b true (seg_shaded seg))].
  Definition side_hist (i : nat) (b : bool) (s : ts_side) : history :=
    flat_map (seg_hist i b) (side_segments s).
  Definition row_hist (ir : nat * ts_pvrow) : history :=
    side_hist (fst ir) false (row_front (snd ir)) ++ side_hist (fst ir) true (row_back (snd ir)).
  Definition rows_hist : history :=
    flat_map row_hist (combine (seq 0 (List.length (ft_rows a))) (ft_rows a)).
  Definition full_hist : history :=
    (PartGroundIllum (ft_ground a), G false) :: (PartGroundShaded (ft_ground a), G true) :: rows_hist.

  Lemma side_hist_ids : forall i b s, hist_ids (side_hist i b s) = map s_id (side_surfaces s).
  Proof.
    intros i b s. unfold hist_ids, side_hist, side_surfaces.
    induction (side_segments s) as [|g l IH]; [reflexivity|].
    cbn [flat_map seg_hist]. rewrite map_app, <- IH. unfold seg_hist. cbn [app flat_map fst part_ids].
    unfold seg_surfaces. rewrite map_app, <- app_assoc. reflexivity.
  Qed.

  Lemma hist_ids_app : forall h1 h2, hist_ids (h1 ++ h2) = hist_ids h1 ++ hist_ids h2.
  Proof. intros; unfold hist_ids; apply flat_map_app. Qed.

  Lemma row_hist_ids : forall ir, hist_ids (row_hist ir) = map s_id (row_surfaces (snd ir)).
  Proof.
    intros. unfold row_hist, row_surfaces. rewrite hist_ids_app, !side_hist_ids, map_app. reflexivity.
  Qed.

  Lemma rows_hist_ids : hist_ids rows_hist = map s_id (flat_map row_surfaces (ft_rows a)).
  Proof.
    unfold rows_hist. generalize 0%nat. induction (ft_rows a) as [|r l IH]; intro m; [reflexivity|].
    cbn [List.length seq combine flat_map]. rewrite hist_ids_app, row_hist_ids, map_app, IH. reflexivity.
  Qed.

  Lemma map_flat_map : forall (A B C : Type) (g : B -> C) (h : A -> list B) l,
    map g (flat_map h l) = flat_map (fun x => map g (h x)) l.
  Proof. induction l as [|x l IH]; cbn; [|rewrite map_app, IH]; reflexivity. Qed.

  Lemma full_hist_ids : Permutation (hist_ids full_hist) (map s_id (all_ts_surfaces a)).
  Proof.
    unfold full_hist, hist_ids. cbn [flat_map fst part_ids]. fold (hist_ids rows_hist).
    rewrite rows_hist_ids. unfold all_ts_surfaces, gnd_surfaces.
    rewrite !map_app, !map_flat_map, app_assoc. apply Permutation_app_tail.
    apply Permutation_app_comm.
  Qed.

  Lemma full_hist_nodup : NoDup (map s_id (all_ts_surfaces a)) -> NoDup (hist_ids full_hist).
  Proof. intro H. eapply Permutation_NoDup; [apply Permutation_sym, full_hist_ids | exact H]. Qed.

  Lemma in_combine_nth : forall (A : Type) (l : list A) m i x,
    nth_error l i = Some x -> In ((m + i)%nat, x) (combine (seq m (List.length l)) l).
  Proof.
    induction l as [|y l IH]; intros m [|i] x H; try discriminate H.
    - inversion H; subst. left. rewrite Nat.add_0_r. reflexivity.
    - right. replace (m + S i)%nat with (S m + i)%nat by lia. apply IH. exact H.
  Qed.

  (** Value of the parameters of the surfaces of a row after the history. *)
  Lemma full_hist_row : forall st i row (b sh : bool) seg x k,
    NoDup (map s_id (all_ts_surfaces a)) ->
    nth_error (ft_rows a) i = Some row ->
    In seg (side_segments (if b then row_back row else row_front row)) ->
    In x (map s_id (if sh then seg_shaded seg else seg_illum seg)) ->
    ps_surf (run_history st full_hist) x k =
    overlay (D i b sh (if sh then seg_shaded seg else seg_illum seg)) k (ps_surf st x k).
  Proof.
    intros st i row b sh seg x k N R S X.
    apply history_once with (p := PartCollection (if sh then seg_shaded seg else seg_illum seg));
      [exact (full_hist_nodup N) | | exact X].
    right; right. unfold rows_hist. apply in_flat_map. exists (i, row). split.
    - exact (in_combine_nth _ _ 0%nat i row R).
    - unfold row_hist. cbn [fst snd]. apply in_or_app. destruct b; [right | left];
        unfold side_hist; apply in_flat_map; exists seg; (split; [exact S|]);
        unfold seg_hist; destruct sh; [right; left | left | right; left | left]; reflexivity.
  Qed.

  Lemma full_hist_ground : forall st (sh : bool) s k,
    NoDup (map s_id (all_ts_surfaces a)) ->
    in_elements s (if sh then gnd_shadows (ft_ground a) else gnd_illum (ft_ground a)) ->
    ps_surf (run_history st full_hist) (s_id s) k = overlay (G sh) k (ps_surf st (s_id s) k).
  Proof.
    intros st sh s k N H.
    apply history_once with
      (p := if sh then PartGroundShaded (ft_ground a) else PartGroundIllum (ft_ground a)).
    - exact (full_hist_nodup N).
    - destruct sh; [right; left | left]; reflexivity.
    - apply in_part_ids. exists s. split; [|reflexivity]. destruct sh; exact H.
  Qed.
End Hist.

Lemma run_hist_flat : forall (A : Type) (h : A -> history) l st,
  run_history st (flat_map h l) = fold_left (fun st x => run_history st (h x)) l st.
Proof.
  induction l as [|x l IH]; intro st; [reflexivity|].
  cbn [flat_map fold_left]. rewrite run_history_app. apply IH.
Qed.

Lemma fold_combine : forall (A B : Type) (f : B -> A -> B) (l : list A) m b,
  fold_left (fun b (ix : nat * A) => f b (snd ix)) (combine (seq m (List.length l)) l) b
  = fold_left f l b.
Proof.
  induction l as [|x l IH]; intros m b; [reflexivity|]. cbn [List.length seq combine fold_left snd].
  apply IH.
Qed.

Lemma fold_left_ext : forall (A B : Type) (f g : B -> A -> B) l b,
  (forall b x, In x l -> f b x = g b x) -> fold_left f l b = fold_left g l b.
Proof.
  induction l as [|x l IH]; intros b H; [reflexivity|]. cbn [fold_left].
  rewrite (H b x (or_introl eq_refl)). apply IH. intros; apply H; right; assumption.
Qed.

(* -------------------------------------------------------------- isotropic model *)

Definition cat_pick (b : by_cat) (back sh : bool) : ts R :=
  match back, sh with
  | false, false => bc_front_illum b
  | false, true => bc_front_shaded b
  | true, false => bc_back_illum b
  | true, true => bc_back_shaded b
  end.
Definition gnd_pick (b : by_cat) (sh : bool) : ts R :=
  if sh then bc_ground_shaded b else bc_ground_illum b.
Definition perez_pick (f : irr_fitted) (back sh : bool) : ts R :=
  if back then zeros else if sh then irr_pvrow_shaded f else irr_pvrow_illum f.

Definition iso_gnd (f : irr_fitted) (sh : bool) : dict :=
  dict_isotropic (gnd_pick (if_direct f) sh) (if_albedo f) (fun t => 1 / if_albedo f t)
    (if sh then irr_gnd_shaded f else irr_gnd_illum f) (if_faoi_ground f).
Definition iso_row (rf rb : R) (f : irr_fitted) (_ : nat) (back sh : bool) (_ : list ts_surface) : dict :=
  dict_isotropic (cat_pick (if_direct f) back sh) (fun _ => if back then rb else rf)
    (fun _ => 1 / (if back then rb else rf)) (perez_pick f back sh)
    (co_direct (if back then if_faoi_back f else if_faoi_front f)).

Lemma transform_isotropic_hist : forall rf rb f a st,
  transform_isotropic rf rb f a st = run_history st (full_hist a (iso_gnd f) (iso_row rf rb f)).
Proof.
  intros rf rb f a st. unfold transform_isotropic, full_hist.
  match goal with |- _ = run_history ?s (?u :: ?v :: ?h) =>
    change (run_history s (u :: v :: h)) with
      (run_history (update_part (update_part s (fst u) (snd u)) (fst v) (snd v)) h) end.
  cbn [fst snd update_part]. unfold rows_hist. rewrite run_hist_flat.
  rewrite <- (fold_combine _ _ _ (ft_rows a) 0).
  apply fold_left_ext. intros st' [i row] _. unfold row_hist. rewrite run_history_app.
  cbn [fst snd]. unfold side_hist. rewrite !run_hist_flat. reflexivity.
Qed.

(* ----------------------------------------------------------------- hybrid model *)

Definition hyb_gnd (f : irr_fitted) (sh : bool) : dict :=
  dict_hybrid (gnd_pick (if_direct f) sh) (gnd_pick (if_circumsolar f) sh) zeros (if_albedo f)
    (fun t => 1 / if_albedo f t) (if sh then irr_gnd_shaded f else irr_gnd_illum f)
    (ByComp (if_faoi_ground f) (if_faoi_ground f) (if_faoi_ground f)) zeros.

Definition back_pct (m : irr_model) (a : fitted) (i : nat) (l : list ts_surface) : ts R :=
  fun t => horizon_shading_pct m (ft_rows a)
             (s_centroid (match l with s :: _ => s | [] => TsSurface (SidRow 0 true 0 false) (fun _ => Line (Pt 0 0) (Pt 0 0)) (fun _ => (0, 0)) false end) t)
             i (Rltb 0 (ft_rotation a t)) true t.

Definition hyb_row (m : irr_model) (rf rb : R) (f : irr_fitted) (a : fitted) (i : nat)
    (back sh : bool) (l : list ts_surface) : dict :=
  let d := cat_pick (if_direct f) back sh in
  let c := cat_pick (if_circumsolar f) back sh in
  if back then
    dict_hybrid d c (fun t => if_horizon_back f t * (1 - back_pct m a i l t / 100))
      (fun _ => rb) (fun _ => 1 / rb) zeros (if_faoi_back f)
      (fun t => co_horizon (if_faoi_back f) t * if_horizon_back f t * (1 - back_pct m a i l t / 100))
    ++ [("horizon_unshaded", PArr (if_horizon_back f));
        ("horizon_shd_pct", PArr (back_pct m a i l))]%string
  else
    dict_hybrid d c (if_horizon_front f) (fun _ => rf) (fun _ => 1 / rf)
      (perez_pick f false sh) (if_faoi_front f)
      (fun t => co_horizon (if_faoi_front f) t * if_horizon_front f t).

Lemma fold_result_pure : forall (A B : Type) (f : B -> A -> result B) (g : B -> A -> B) l b,
  (forall b x, In x l -> f b x = Ok (g b x)) -> fold_result f l b = Ok (fold_left g l b).
Proof.
  induction l as [|x l IH]; intros b H; [reflexivity|]. cbn [fold_result fold_left].
  rewrite (H b x (or_introl eq_refl)). cbn [bind]. apply IH. intros; apply H; right; assumption.
Qed.

(** Every segment has one illuminated and one shaded surface. *)
Definition singletons (a : fitted) : Prop :=
  forall row seg, In row (ft_rows a) ->
    In seg (side_segments (row_front row)) \/ In seg (side_segments (row_back row)) ->
    exists il sh, seg_illum seg = [il] /\ seg_shaded seg = [sh].

Lemma transform_hybrid_hist : forall m rf rb f a st, singletons a ->
  transform_hybrid m rf rb f a st =
  Ok (run_history st (full_hist a (hyb_gnd f) (hyb_row m rf rb f a))).
Proof.
  intros m rf rb f a st S. unfold transform_hybrid, full_hist.
  match goal with |- _ = Ok (run_history ?s (?u :: ?v :: ?h)) =>
    change (run_history s (u :: v :: h)) with
      (run_history (update_part (update_part s (fst u) (snd u)) (fst v) (snd v)) h) end.
  cbn [fst snd update_part]. unfold rows_hist. rewrite run_hist_flat.
  apply fold_result_pure. intros st' [i row] I.
  assert (Ir : In row (ft_rows a)) by exact (in_combine_r _ _ _ _ I).
  unfold row_hist. rewrite run_history_app. cbn [fst snd]. unfold side_hist. rewrite !run_hist_flat.
  apply fold_result_pure. intros st2 seg J.
  destruct (S row seg Ir (or_intror J)) as (il & sh & E1 & E2).
  unfold transform_back_coll, seg_hist. rewrite E1, E2. reflexivity.
Qed.

Lemma fit_singletons : forall p n f a, fit p n f = Some a -> singletons a.
Proof.
  intros p n f a F row seg I J. apply In_nth_error in I. destruct I as [i I].
  destruct (fit_rows_nth_error _ _ _ _ _ _ F I) as [_ ->].
  destruct J as [J|J]; unfold fit_row, pvrow_from_raw_inputs in J; cbn [row_front row_back] in J;
    unfold side_from_raw_inputs in J; cbn [side_segments] in J; apply in_map_iff in J;
    destruct J as (k & <- & _); cbn [seg_illum seg_shaded]; eauto.
Qed.

(* ---------------------------------------------------------------- both models *)

(** Dictionary written on the surfaces of a category ([s]: the surface itself). *)
Definition cat_dict (m : irr_model) (rf rb : R) (f : irr_fitted) (a : fitted) (c : category)
    (s : ts_surface) : dict :=
  match im_kind m, c with
  | IsotropicOrdered, CGround sh => iso_gnd f sh
  | IsotropicOrdered, CRow i b sh => iso_row rf rb f i b sh [s]
  | HybridPerezOrdered, CGround sh => hyb_gnd f sh
  | HybridPerezOrdered, CRow i b sh => hyb_row m rf rb f a i b sh [s]
  end.

Lemma transform_store : forall p n fi a m rf rb f st,
  valid_params p -> fit p n fi = Some a ->
  im_rho_front m = Some rf -> im_rho_back m = Some rb ->
  exists st', irr_transform m f a st = Ok st' /\
    forall s c k, in_category a s c ->
      ps_surf st' (s_id s) k = overlay (cat_dict m rf rb f a c s) k (ps_surf st (s_id s) k).
Proof.
  intros p n fi a m rf rb f st V F Rf Rb.
  pose proof (fit_ids_nodup _ _ _ _ V F) as ND. pose proof (fit_singletons _ _ _ _ F) as Sg.
  unfold irr_transform. rewrite Rf, Rb. unfold cat_dict.
  assert (K : forall row seg sh s, In row (ft_rows a) ->
    In seg (side_segments (row_front row)) \/ In seg (side_segments (row_back row)) ->
    In s (if sh : bool then seg_shaded seg else seg_illum seg) ->
    (if sh then seg_shaded seg else seg_illum seg) = [s]).
  { intros row seg sh s I J H. destruct (Sg row seg I J) as (il & sd & E1 & E2).
    destruct sh; rewrite ?E1, ?E2 in *; destruct H as [->|[]]; reflexivity. }
  destruct (im_kind m).
  - eexists. split; [reflexivity|]. rewrite transform_isotropic_hist.
    intros s [sh|i b sh] k H.
    + apply full_hist_ground; assumption.
    + destruct H as (row & seg & R & I & Hs).
      rewrite <- (K row seg sh s (nth_error_In _ _ R) ltac:(destruct b; tauto) Hs).
      apply full_hist_row with (row := row); [assumption..|]. apply in_map; exact Hs.
  - rewrite transform_hybrid_hist by exact Sg. eexists. split; [reflexivity|].
    intros s [sh|i b sh] k H.
    + apply full_hist_ground; assumption.
    + destruct H as (row & seg & R & I & Hs).
      rewrite <- (K row seg sh s (nth_error_In _ _ R) ltac:(destruct b; tauto) Hs).
      apply full_hist_row with (row := row); [assumption..|]. apply in_map; exact Hs.
Qed.

(** Every surface has a category. *)
Lemma category_exists : forall a s, In s (all_ts_surfaces a) -> exists c, in_category a s c.
Proof.
  intros a s H. unfold all_ts_surfaces, gnd_surfaces in H.
  apply in_app_or in H. destruct H as [H|H].
  - apply in_app_or in H. destruct H as [H|H]; apply in_flat_map in H; destruct H as (e & A & B).
    + exists (CGround true), e. tauto.
    + exists (CGround false), e. tauto.
  - apply in_flat_map in H. destruct H as (row & R & H). apply In_nth_error in R. destruct R as [i R].
    unfold row_surfaces, side_surfaces in H. apply in_app_or in H.
    destruct H as [H|H]; apply in_flat_map in H; destruct H as (seg & I & H);
      unfold seg_surfaces in H; apply in_app_or in H; destruct H as [H|H].
    + exists (CRow i false false), row, seg. tauto.
    + exists (CRow i false true), row, seg. tauto.
    + exists (CRow i true false), row, seg. tauto.
    + exists (CRow i true true), row, seg. tauto.
Qed.

Lemma category_surface : forall a s c, in_category a s c -> In s (all_ts_surfaces a).
Proof.
  intros a s [sh|i b sh] H; unfold all_ts_surfaces, gnd_surfaces; apply in_or_app.
  - left. apply in_or_app. destruct H as (e & A & B).
    destruct sh; [left|right]; apply in_flat_map; eauto.
  - right. destruct H as (row & seg & R & I & Hs). apply in_flat_map. exists row.
    split; [exact (nth_error_In _ _ R)|]. unfold row_surfaces, side_surfaces. apply in_or_app.
    destruct b; [right|left]; apply in_flat_map; exists seg; (split; [exact I|]);
      unfold seg_surfaces; apply in_or_app; destruct sh; tauto.
Qed.
