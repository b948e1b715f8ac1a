(** Which parameters the surfaces of the PV rows have after a fit and a run does not depend
    on the inputs of the fit (lemmas for C28). *)
From Coq Require Import Reals List Bool Arith String Lra Lia.
From Verif Require Import Num ModelTs ModelGeom ModelVF Basics SpecGeom ProofFit ProofIndex ModelParams SpecParams ProofParams
  ModelIrr SpecIrr ModelAOI ModelLinalg ModelEngine ProofIrr ProofEngine PropEngine SpecRun ProofRun ProofHistory ProofLocal2.
Import ListNotations.
Open Scope R_scope.

Definition kind (o : option pval) : nat :=
  match o with None => 0 | Some PNone => 1 | Some (PArr _) => 2 | Some (PVF _) => 3 end%nat.
Definition same_id (s s' : ts_surface) : Prop := s_id s' = s_id s.
Definition seg_twin (g g' : ts_segment) : Prop :=
  Forall2 same_id (seg_illum g) (seg_illum g') /\ Forall2 same_id (seg_shaded g) (seg_shaded g').
Definition side_twin (d d' : ts_side) : Prop := Forall2 seg_twin (side_segments d) (side_segments d').
Definition row_twin (r r' : ts_pvrow) : Prop :=
  side_twin (row_front r) (row_front r') /\ side_twin (row_back r) (row_back r').

Lemma Forall2_maps : forall (A B C : Type) (Q : B -> C -> Prop) (g : A -> B) (h : A -> C) l,
  (forall x, In x l -> Q (g x) (h x)) -> Forall2 Q (map g l) (map h l).
Proof. intros A B C Q g h l. induction l as [|x l IH]; intro H; cbn; constructor; [apply H; left; reflexivity | apply IH; intros; apply H; right; assumption]. Qed.

Lemma fit_rows_eq : forall p n f a, fit p n f = Some a -> ft_rows a = fit_rows p (fit_alpha p f) (fit_rotation p f).
Proof. intros p n f a H. unfold fit in H. destruct (ground_from_pvrows _ _ _ _ _); [|discriminate]. injection H as <-. reflexivity. Qed.

Lemma fit_twin : forall p n f a n' f' a', fit p n f = Some a -> fit p n' f' = Some a' ->
  Forall2 row_twin (ft_rows a) (ft_rows a').
Proof.
  intros p n f a n' f' a' H H'. rewrite (fit_rows_eq _ _ _ _ H), (fit_rows_eq _ _ _ _ H'). unfold fit_rows.
  apply Forall2_maps. intros i _.
  assert (K : forall j b xc yc w r c sl nv r' sl' nv',
    side_twin (side_from_raw_inputs j b xc yc w r c sl nv) (side_from_raw_inputs j b xc yc w r' c sl' nv')).
  { intros. unfold side_twin, side_from_raw_inputs. cbn [side_segments]. apply Forall2_maps. intros x _.
    split; cbn; constructor; try constructor; reflexivity. }
  split; apply K.
Qed.

Lemma Forall2_in : forall (A B : Type) (Q : A -> B -> Prop) l l' x, Forall2 Q l l' -> In x l -> exists y, In y l' /\ Q x y.
Proof.
  intros A B Q l l' x H. induction H as [|a b l l' AB H IH]; intros I; [destruct I|].
  destruct I as [->|I]; [exists b; split; [left; reflexivity | exact AB]|]. destruct (IH I) as (y & Y & QY). exists y. split; [right; exact Y | exact QY].
Qed.
Lemma Forall2_nth : forall (A B : Type) (Q : A -> B -> Prop) l l', Forall2 Q l l' -> forall k,
  match nth_error l k, nth_error l' k with Some x, Some y => Q x y | None, None => True | _, _ => False end.
Proof. intros A B Q l l' H. induction H as [|a b l l' AB H IH]; intros [|k]; cbn; auto. apply IH. Qed.

Lemma twin_find : forall a a' s i b sh, Forall2 row_twin (ft_rows a) (ft_rows a') -> in_category a s (CRow i b sh) ->
  exists s', s_id s' = s_id s /\ in_category a' s' (CRow i b sh).
Proof.
  intros a a' s i b sh T (row & seg & R & G & I). pose proof (Forall2_nth _ _ _ _ _ T i) as N. rewrite R in N.
  destruct (nth_error (ft_rows a') i) as [row'|] eqn:R'; [|contradiction]. destruct N as [N1 N2].
  assert (SD : side_twin (if b then row_back row else row_front row) (if b then row_back row' else row_front row')) by (destruct b; assumption).
  destruct (Forall2_in _ _ _ _ _ _ SD G) as (seg' & G' & [T1 T2]).
  assert (L : Forall2 same_id (if sh then seg_shaded seg else seg_illum seg) (if sh then seg_shaded seg' else seg_illum seg')) by (destruct sh; assumption).
  destruct (Forall2_in _ _ _ _ _ _ L I) as (s' & I' & Q). exists s'. split; [exact Q|]. exists row', seg'. auto.
Qed.

(** Surfaces of the rows. *)
Definition row_id (a : fitted) (x : sid) : Prop := exists s i b sh, in_category a s (CRow i b sh) /\ s_id s = x.

Definition kin (Q : sid -> Prop) (st st' : pstore) : Prop :=
  forall x k, Q x -> kind (ps_surf st x k) = kind (ps_surf st' x k).
Definition dkin (d d' : dict) : Prop := Forall2 (fun u v => fst u = fst v /\ kind (Some (snd u)) = kind (Some (snd v))) d d'.

Lemma dict_update_kin : forall d d', dkin d d' -> forall p p' k, kind (p k) = kind (p' k) ->
  kind (dict_update p d k) = kind (dict_update p' d' k).
Proof.
  intros d d' H. induction H as [|u v d d' [U1 U2] H IH]; intros p p' k K; [exact K|]. unfold dict_update in *. cbn [fold_left].
  apply IH. rewrite U1. destruct (String.eqb k (fst v)); [exact U2 | exact K].
Qed.

Lemma surf_update_kin : forall Q st st' s s' d d', kin Q st st' -> same_id s s' -> dkin d d' ->
  kin Q (surf_update st s d) (surf_update st' s' d').
Proof.
  intros Q st st' s s' d d' K I D x k X. cbn [surf_update ps_surf]. rewrite I.
  destruct (sid_eq_dec x (s_id s)); [|apply K, X]. apply dict_update_kin; [exact D | apply K, X].
Qed.

Definition both {A B : Type} (_ : A) (_ : B) : Prop := True.

Lemma get_num_kin : forall Q st st' s s' name, kin Q st st' -> same_id s s' -> Q (s_id s) ->
  res_rel both (get_num st s name) (get_num st' s' name).
Proof.
  intros Q st st' s s' name K I X. unfold get_num, get_param. rewrite I. pose proof (K (s_id s) name X) as E.
  destruct (ps_surf st (s_id s) name) as [[| |]|], (ps_surf st' (s_id s) name) as [[| |]|]; cbn in *; try discriminate; try exact I; try reflexivity.
Qed.

Lemma Forall2_weaken : forall (A B : Type) (Q S : A -> B -> Prop) l l', (forall x y, Q x y -> S x y) -> Forall2 Q l l' -> Forall2 S l l'.
Proof. intros A B Q S l l' H F. induction F; constructor; auto. Qed.
Lemma Forall2_In_l : forall (A B : Type) (Q : A -> B -> Prop) l l', Forall2 Q l l' -> Forall2 (fun x y => Q x y /\ In x l) l l'.
Proof.
  intros A B Q l l' H. induction H as [|a b l l' AB H IH]; constructor; [split; [exact AB | left; reflexivity]|].
  eapply Forall2_weaken; [|exact IH]. cbn. intros x y [U V]. auto.
Qed.

Lemma sum_components_kin : forall Q st st' s s' comps, kin Q st st' -> same_id s s' -> Q (s_id s) ->
  res_rel both (sum_components st s comps) (sum_components st' s' comps).
Proof.
  intros Q st st' s s' comps K I X. unfold sum_components. apply fold_result_rel with (S := eq).
  - intros a a' b b' _ <-. eapply res_bind; [exact (get_num_kin Q st st' s s' b K I X)|]. intros u v _. exact Logic.I.
  - apply Forall2_same.
  - exact Logic.I.
Qed.

Lemma coll_ww_kin : forall Q st st' l l' name, kin Q st st' -> Forall2 same_id l l' -> (forall s, In s l -> Q (s_id s)) ->
  res_rel both (coll_param_ww st l name) (coll_param_ww st' l' name).
Proof.
  intros Q st st' l l' name K F X. unfold coll_param_ww. apply fold_result_rel with (S := fun x y => same_id x y /\ In x l).
  - intros a a' s s' _ [I J]. eapply res_bind; [exact (get_num_kin Q st st' s s' name K I (X s J))|]. intros u v _. exact Logic.I.
  - apply Forall2_In_l, F.
  - exact Logic.I.
Qed.

Lemma side_ww_kin : forall Q st st' d d' name, kin Q st st' -> side_twin d d' ->
  (forall g s, In g (side_segments d) -> In s (seg_illum g) \/ In s (seg_shaded g) -> Q (s_id s)) ->
  res_rel both (side_param_ww st d name) (side_param_ww st' d' name).
Proof.
  intros Q st st' d d' name K T X. unfold side_param_ww. apply fold_result_rel with (S := fun x y => seg_twin x y /\ In x (side_segments d)).
  - intros a a' g g' _ [[T1 T2] J]. eapply (res_bind _ _ _ _ both); [|intros u v _; exact Logic.I].
    unfold seg_param_ww. eapply res_bind; [apply (coll_ww_kin Q _ _ _ _ name K T1); intros s Hs; apply (X g s J); auto|]. intros u v _.
    eapply res_bind; [apply (coll_ww_kin Q _ _ _ _ name K T2); intros s Hs; apply (X g s J); auto|]. intros ? ? _. exact Logic.I.
  - apply Forall2_In_l, T.
  - exact Logic.I.
Qed.

(** The fit. *)
Lemma overlay_kin : forall d d', dkin d d' -> NoDup (map fst d) -> forall k o o', kind o = kind o' -> kind (overlay d k o) = kind (overlay d' k o').
Proof.
  intros d d' D _ k o o' H.
  pose proof (dict_update_kin d d' D (fun _ => o) (fun _ => o') k H) as E.
  rewrite !dict_update_overlay in E. exact E.
Qed.

Lemma cat_dict_kin : forall m rf rb f a f' a' i b sh s s',
  dkin (cat_dict m rf rb f a (CRow i b sh) s) (cat_dict m rf rb f' a' (CRow i b sh) s').
Proof.
  intros. unfold dkin, cat_dict. destruct (im_kind m), b; cbn; repeat (constructor; [split; reflexivity|]); constructor.
Qed.

(** Two engines whose arrays are alike and whose row surfaces have the same parameters. *)
Definition ekin (e e' : engine) : Prop :=
  exists a a', pv_fitted (en_array e) = Some a /\ pv_fitted (en_array e') = Some a' /\
    Forall2 row_twin (ft_rows a) (ft_rows a') /\ Forall2 same_id (all_ts_surfaces a) (all_ts_surfaces a') /\
    kin (row_id a) (pv_store (en_array e)) (pv_store (en_array e')) /\
    en_irr e' = en_irr e /\ en_fast_row e' = en_fast_row e /\ en_fast_seg e' = en_fast_seg e.

Lemma same_ids : forall l l', map s_id l = map s_id l' -> Forall2 same_id l l'.
Proof.
  induction l as [|s l IH]; intros [|s' l'] H; try discriminate; constructor.
  - unfold same_id. cbn [map] in H. congruence.
  - apply IH. cbn [map] in H. congruence.
Qed.

Lemma fit_kin : forall P e0 i e i' e', valid_params (pv_params (en_array e0)) ->
  engine_fit P e0 i = Ok e -> engine_fit P e0 i' = Ok e' -> ekin e e'.
Proof.
  intros P e0 i e i' e' V H H'. unfold engine_fit in *. apply bind_ok in H. destruct H as (ii & _ & H).
  apply bind_ok in H'. destruct H' as (ii' & _ & H').
  destruct (engine_fit_arrays_inv _ _ _ _ H) as (a & f & st & c & rf & rb & F & I & Rf & Rb & T & C & ->).
  destruct (engine_fit_arrays_inv _ _ _ _ H') as (a' & f' & st' & c' & rf' & rb' & F' & I' & Rf' & Rb' & T' & C' & ->).
  assert (rf' = rf) by congruence. assert (rb' = rb) by congruence. subst rf' rb'.
  exists a, a'. cbn. split; [reflexivity|]. split; [reflexivity|].
  pose proof (fit_twin _ _ _ _ _ _ _ F F') as TW. split; [exact TW|].
  split; [apply same_ids; rewrite (fit_ids _ _ _ _ V F), (fit_ids _ _ _ _ V F'); reflexivity|].
  split; [|repeat split]. intros x k (s & j & b & sh & CS & <-).
  destruct (twin_find a a' s j b sh TW CS) as (s' & E & CS').
  destruct (transform_store _ _ _ _ (en_irr e0) rf rb f (fresh_store (pv_param_names (en_array e0))) V F Rf Rb) as (q & Q & QS).
  destruct (transform_store _ _ _ _ (en_irr e0) rf rb f' (fresh_store (pv_param_names (en_array e0))) V F' Rf Rb) as (q' & Q' & QS').
  assert (q = st) by congruence. assert (q' = st') by congruence. subst q q'.
  rewrite (QS s _ k CS), <- E, (QS' s' _ k CS'). apply overlay_kin; [apply cat_dict_kin | apply cat_dict_nodup | reflexivity].
Qed.

Lemma combine_ids : forall l l' m, Forall2 same_id l l' ->
  Forall2 (fun x y : nat * ts_surface => same_id (snd x) (snd y)) (combine (seq m (List.length l)) l) (combine (seq m (List.length l')) l').
Proof. intros l l' m H. revert m. induction H as [|s s' l l' S H IH]; intro m; cbn; constructor; [exact S | apply IH]. Qed.

Lemma full_kin : forall e e' r r', ekin e e' -> run_full_mode e = Ok r -> run_full_mode e' = Ok r' -> ekin r r'.
Proof.
  intros e e' r r' (a & a' & A & A' & TW & ID & K & R1 & R2 & R3) H H'. unfold run_full_mode in H, H'. rewrite A in H. rewrite A' in H'.
  destruct (en_irr_fitted e) as [f|]; [|discriminate]. destruct (en_irr_fitted e') as [f'|]; [|discriminate].
  apply bind_ok in H. destruct H as ([[[irr rho] inv] per] & _ & H). cbn [heap_alloc] in H.
  apply bind_ok in H. destruct H as (B & _ & H). apply bind_ok in H. destruct H as ([ra h] & _ & H).
  apply bind_ok in H. destruct H as (ab & _ & H). injection H as <-.
  apply bind_ok in H'. destruct H' as ([[[irr' rho'] inv'] per'] & _ & H'). cbn [heap_alloc] in H'.
  apply bind_ok in H'. destruct H' as (B' & _ & H'). apply bind_ok in H'. destruct H' as ([ra' h'] & _ & H').
  apply bind_ok in H'. destruct H' as (ab' & _ & H'). injection H' as <-.
  exists a, a'. cbn [en_array pv_fitted pv_store en_irr en_fast_row en_fast_seg].
  split; [reflexivity|]. split; [reflexivity|]. split; [exact TW|]. split; [exact ID|]. split; [|auto].
  unfold write_results. apply fold_left_rel with (S := fun x y : nat * ts_surface => same_id (snd x) (snd y)).
  - intros st st' x y KK S. apply surf_update_kin; [exact KK | exact S|]. unfold dkin. repeat (constructor; [split; reflexivity|]). constructor.
  - apply combine_ids, ID.
  - exact K.
Qed.

Lemma fast_surface_kin : forall Q m f a k f' a' st st' s s', kin Q st st' -> same_id s s' -> Q (s_id s) ->
  res_rel (kin Q) (fast_surface m f a k st s) (fast_surface m f' a' k st' s').
Proof.
  intros Q m f a k f' a' st st' s s' K I X. unfold fast_surface.
  eapply (res_bind _ _ _ _ (kin Q)).
  - unfold update_sky_term. eapply res_bind; [exact (sum_components_kin Q st st' s s' _ K I X)|]. intros u v _.
    apply surf_update_kin; [exact K | exact I|]. constructor; [split; reflexivity | constructor].
  - intros q q' KQ. destruct (im_rho_front m); [|reflexivity].
    eapply (res_bind _ _ _ _ both); [exact (get_num_kin Q q q' s s' _ KQ I X)|]. intros u v _.
    apply surf_update_kin; [exact KQ | exact I|]. unfold dkin. repeat (constructor; [split; reflexivity|]). constructor.
Qed.

Lemma fast_segment_kin : forall Q m f a k f' a' st st' g g', kin Q st st' -> seg_twin g g' -> (forall s, In s (seg_surfaces g) -> Q (s_id s)) ->
  res_rel (kin Q) (fast_segment m f a k st g) (fast_segment m f' a' k st' g').
Proof.
  intros Q m f a k f' a' st st' g g' K [T1 T2] X. unfold fast_segment.
  apply fold_result_rel with (S := fun x y => same_id x y /\ In x (seg_surfaces g)).
  - intros q q' s s' KQ [I J]. apply fast_surface_kin; auto.
  - apply Forall2_In_l. unfold seg_surfaces. apply Forall2_app; assumption.
  - exact K.
Qed.

Lemma fast_kin : forall e e' row seg, ekin e e' -> en_irr_fitted e <> None -> en_irr_fitted e' <> None ->
  res_rel ekin (run_fast_mode e row seg) (run_fast_mode e' row seg).
Proof.
  intros e e' row seg (a & a' & A & A' & TW & ID & K & R1 & R2 & R3) NF NF'. unfold run_fast_mode. rewrite A, A', R1, R2, R3.
  destruct (en_irr_fitted e) as [f|]; [|congruence]. destruct (en_irr_fitted e') as [f'|]; [|congruence].
  destruct (match row with Some k => Some k | None => en_fast_row e end) as [k|]; [|reflexivity].
  assert (G : res_rel (fun r r' => row_twin r r' /\ nth_error (ft_rows a) k = Some r) (list_get (ft_rows a) k) (list_get (ft_rows a') k)).
  { unfold list_get. pose proof (Forall2_nth _ _ _ _ _ TW k) as N. destruct (nth_error (ft_rows a) k), (nth_error (ft_rows a') k); try contradiction; [split; auto | reflexivity]. }
  eapply res_bind; [exact G|]. intros r r' [[_ TB] NR].
  assert (X : forall g, In g (side_segments (row_back r)) -> forall s, In s (seg_surfaces g) -> row_id a (s_id s)).
  { intros g J s Hs. unfold seg_surfaces in Hs. apply in_app_iff in Hs. destruct Hs as [Hs|Hs]; [exists s, k, true, false | exists s, k, true, true];
      (split; [|reflexivity]); exists r, g; auto. }
  eapply (res_bind _ _ _ _ (kin (row_id a))).
  - destruct (match seg with Some j => Some j | None => en_fast_seg e end) as [j|].
    + eapply (res_bind _ _ _ _ (fun g g' => seg_twin g g' /\ In g (side_segments (row_back r)))).
      * unfold list_get. pose proof (Forall2_nth _ _ _ _ _ TB j) as N.
        destruct (nth_error (side_segments (row_back r)) j) as [g|] eqn:E, (nth_error (side_segments (row_back r')) j); try contradiction; [|reflexivity].
        split; [exact N | exact (nth_error_In _ _ E)].
      * intros g g' [T J]. apply fast_segment_kin; [exact K | exact T | exact (X g J)].
    + apply fold_result_rel with (S := fun x y => seg_twin x y /\ In x (side_segments (row_back r))).
      * intros q q' g g' KQ [T J]. apply fast_segment_kin; [exact KQ | exact T | exact (X g J)].
      * apply Forall2_In_l, TB.
      * exact K.
  - intros q q' KQ. exists a, a'. cbn. repeat (split; [reflexivity || assumption|]). repeat split; assumption.
Qed.
