(** Each timestep of a simulation is computed independently of the others: irradiance
    models, parameter dictionaries and runs. *)
From Coq Require Import Reals List Bool Arith String Lra Lia FunctionalExtensionality.
From Verif Require Import Num ModelTs ModelGeom ModelVF Basics SpecGeom ProofFit ProofIndex ProofMatrix ProofTele ModelParams SpecParams
  ModelIrr ModelAOI ModelLinalg ModelEngine ProofIrr ProofSky ProofLocal.
Import ListNotations.
Open Scope R_scope.

(* ------------------------------------------------------- computations that may fail *)

Definition res_rel {A B : Type} (Q : A -> B -> Prop) (x : result A) (y : result B) : Prop :=
  match x, y with
  | Ok a, Ok b => Q a b
  | Err e, Err e' => e = e'
  | _, _ => False
  end.
Lemma res_bind : forall (A B C D : Type) (Q : A -> B -> Prop) (S : C -> D -> Prop) x y f g,
  res_rel Q x y -> (forall a b, Q a b -> res_rel S (f a) (g b)) -> res_rel S (bind x f) (bind y g).
Proof. intros A B C D Q S [a|e] [b|e'] f g H K; cbn in *; try contradiction; auto. Qed.
Lemma fold_left_rel : forall (A A' B B' : Type) (Q : A -> A' -> Prop) (S : B -> B' -> Prop) g g',
  (forall a a' b b', Q a a' -> S b b' -> Q (g a b) (g' a' b')) ->
  forall l l', Forall2 S l l' -> forall a a', Q a a' -> Q (fold_left g l a) (fold_left g' l' a').
Proof. intros A A' B B' Q S g g' H l l' F. induction F; intros a a' K; cbn; auto. Qed.
Lemma fold_result_rel : forall (A A' B B' : Type) (Q : A -> A' -> Prop) (S : B -> B' -> Prop) g g',
  (forall a a' b b', Q a a' -> S b b' -> res_rel Q (g a b) (g' a' b')) ->
  forall l l', Forall2 S l l' -> forall a a', Q a a' -> res_rel Q (fold_result g l a) (fold_result g' l' a').
Proof.
  intros A A' B B' Q S g g' H l l' F. induction F; intros a a' K; cbn; [exact K|].
  apply (res_bind _ _ _ _ Q); [apply H; assumption | intros; apply IHF; assumption].
Qed.
Lemma map_result_rel : forall (B B' C C' : Type) (S : B -> B' -> Prop) (Q : C -> C' -> Prop) g g',
  (forall b b', S b b' -> res_rel Q (g b) (g' b')) ->
  forall l l', Forall2 S l l' -> res_rel (Forall2 Q) (map_result g l) (map_result g' l').
Proof.
  intros B B' C C' S Q g g' H l l' F. induction F; cbn; [constructor|].
  apply (res_bind _ _ _ _ Q); [apply H; assumption | intros a b K].
  apply (res_bind _ _ _ _ (Forall2 Q)); [exact IHF | intros u v W; cbn; constructor; assumption].
Qed.
Lemma Forall2_map_r : forall (A B : Type) (g : A -> B) l, Forall2 (fun x y => y = g x) l (map g l).
Proof. intros A B g l. induction l; cbn; constructor; auto. Qed.
Lemma Forall2_same : forall (A : Type) (l : list A), Forall2 eq l l.
Proof. intros A l. induction l; constructor; auto. Qed.

Section Local.
Variable t : nat.

(* ------------------------------------------------------------------- inputs *)

Definition sl_irr (i : irr_inputs) : irr_inputs :=
  IrrInputs 1 (only t (ii_time i)) (only t (ii_dni i)) (only t (ii_dhi i)) (only t (ii_zenith i))
    (only t (ii_solar_azimuth i)) (only t (ii_tilt i)) (only t (ii_azimuth i)) (only t (ii_albedo i))
    (option_map (only t) (ii_ghi i)).

(** Same value at [t] of the batch and at the only timestep. *)
Definition at_t {A : Type} (x y : ts A) : Prop := x t = y 0%nat.
Definition cat_at (b c : by_cat) : Prop :=
  at_t (bc_ground_illum b) (bc_ground_illum c) /\ at_t (bc_ground_shaded b) (bc_ground_shaded c) /\
  at_t (bc_front_illum b) (bc_front_illum c) /\ at_t (bc_front_shaded b) (bc_front_shaded c) /\
  at_t (bc_back_illum b) (bc_back_illum c) /\ at_t (bc_back_shaded b) (bc_back_shaded c).
Definition comp_at (b c : by_comp) : Prop :=
  at_t (co_direct b) (co_direct c) /\ at_t (co_circumsolar b) (co_circumsolar c) /\ at_t (co_horizon b) (co_horizon c).
Record irr_at (f g : irr_fitted) : Prop := IrrAt {
  ia_albedo : at_t (if_albedo f) (if_albedo g);
  ia_ghi : at_t (if_ghi f) (if_ghi g);
  ia_dhi : at_t (if_dhi f) (if_dhi g);
  ia_lum : at_t (if_isotropic_luminance f) (if_isotropic_luminance g);
  ia_direct : cat_at (if_direct f) (if_direct g);
  ia_circ : cat_at (if_circumsolar f) (if_circumsolar g);
  ia_hf : at_t (if_horizon_front f) (if_horizon_front g);
  ia_hb : at_t (if_horizon_back f) (if_horizon_back g);
  ia_pfi : at_t (if_perez_front_illum f) (if_perez_front_illum g);
  ia_pfs : at_t (if_perez_front_shaded f) (if_perez_front_shaded g);
  ia_pgs : at_t (if_perez_ground_shaded f) (if_perez_ground_shaded g);
  ia_ff : comp_at (if_faoi_front f) (if_faoi_front g);
  ia_fb : comp_at (if_faoi_back f) (if_faoi_back g);
  ia_fg : at_t (if_faoi_ground f) (if_faoi_ground g)
}.

Lemma ghi_at : forall i, at_t (fit_ghi i) (fit_ghi (sl_irr i)).
Proof. intros [n tm a b c d e h al [g|]]; reflexivity. Qed.
Lemma poa_at : forall P i, at_t (fit_poa_global P i) (fit_poa_global P (sl_irr i)).
Proof. intros P i. unfold at_t, fit_poa_global. rewrite (ghi_at i). reflexivity. Qed.
Lemma faoi_at : forall fn rho (x y u v : ts R), at_t x y -> at_t u v -> res_rel comp_at (faoi_side fn rho x u) (faoi_side fn rho y v).
Proof.
  intros [f|] [r|] x y u v H K; cbn; try reflexivity; unfold comp_at, at_t in *; cbn; rewrite ?H, ?K; auto.
Qed.

Lemma perez_nth : forall P i, (t < ii_n i)%nat ->
  perez_value P (PerezRow (ii_time i t) (ii_tilt i t) (ii_azimuth i t) (ii_zenith i t) (ii_solar_azimuth i t)
    (ii_dni i t) (ii_dhi i t)) = nth t (map (perez_value P) (perez_inputs i)) perez_out0.
Proof.
  intros P i T. unfold perez_inputs. rewrite map_map.
  match goal with |- _ = nth t (map ?g _) _ => rewrite (nth_indep _ _ (g 0%nat)) by (rewrite map_length, seq_length; exact T);
    rewrite (map_nth g) end.
  rewrite seq_nth by exact T. reflexivity.
Qed.

Lemma irr_fit_at : forall P m i, (t < ii_n i)%nat -> res_rel irr_at (irr_fit P m i) (irr_fit P m (sl_irr i)).
Proof.
  intros P m i T. unfold irr_fit. destruct (im_kind m).
  - unfold fit_isotropic.
    apply (res_bind _ _ _ _ comp_at); [apply faoi_at; reflexivity | intros a b H].
    apply (res_bind _ _ _ _ comp_at); [apply faoi_at; reflexivity | intros c d K]. cbn [res_rel].
    constructor; cbn; try exact H; try exact K; try reflexivity; try apply ghi_at; try apply poa_at;
      try (unfold cat_at, at_t; cbn; repeat split; reflexivity).
    unfold at_t. rewrite (poa_at P i). reflexivity.
  - unfold fit_hybrid. rewrite !perez_two.
    apply (res_bind _ _ _ _ comp_at); [apply faoi_at; reflexivity | intros a b H].
    apply (res_bind _ _ _ _ comp_at); [apply faoi_at; reflexivity | intros c d K]. cbn [res_rel].
    assert (E : nth t (map (perez_value P) (perez_inputs i)) perez_out0 =
                nth 0 (map (perez_value P) (perez_inputs (sl_irr i))) perez_out0).
    { rewrite <- (perez_nth P i T). reflexivity. }
    constructor; cbn; try exact H; try exact K; try reflexivity; try apply ghi_at; try apply poa_at;
      try (unfold at_t; cbn; unfold fit_circumsolar, poa_circumsolar_back; cbn;
           try rewrite (poa_at P i); rewrite E; reflexivity);
      try (unfold cat_at, at_t, fit_circumsolar, poa_circumsolar_back; cbn; rewrite ?E; repeat split; reflexivity).
Qed.

(* -------------------------------------------------------------- dictionaries *)

Definition pval_at (x y : pval) : Prop :=
  match x, y with
  | PNone, PNone => True
  | PArr a, PArr b => at_t a b
  | PVF v, PVF w => at_t v w
  | _, _ => False
  end.
Definition params_at (p q : params) : Prop :=
  forall k, match p k, q k with Some x, Some y => pval_at x y | None, None => True | _, _ => False end.
Definition dict_at (d e : dict) : Prop := Forall2 (fun x y => fst x = fst y /\ pval_at (snd x) (snd y)) d e.
Record store_at (s r : pstore) : Prop := StoreAt {
  sa_surf : forall x, params_at (ps_surf s x) (ps_surf r x);
  sa_ground : forall b, params_at (ps_ground s b) (ps_ground r b);
  sa_element : forall b k, params_at (ps_element s b k) (ps_element r b k)
}.

Lemma update_at : forall d e, dict_at d e -> forall p q, params_at p q -> params_at (dict_update p d) (dict_update q e).
Proof.
  intros d e H p q K. unfold dict_update.
  refine (fold_left_rel _ _ _ _ params_at _ _ _ _ _ _ H p q K).
  intros a a' [k x] [k' y] Q [E F] k0. cbn in *. subst k'. destruct (String.eqb k0 k); [exact F | apply Q].
Qed.
Lemma fresh_at : forall names, store_at (fresh_store names) (fresh_store names).
Proof.
  intro names. assert (H : params_at (dict_fromkeys names) (dict_fromkeys names)).
  { intro k. unfold dict_fromkeys. destruct (existsb _ _); exact I. }
  constructor; intros; exact H.
Qed.
Definition of_t (s s' : ts_surface) : Prop := s' = sl_surface t s.
Lemma surf_update_at : forall s s' st st' d e, of_t s s' -> store_at st st' -> dict_at d e ->
  store_at (surf_update st s d) (surf_update st' s' e).
Proof.
  intros s s' st st' d e -> [A B C] D. constructor; cbn; try assumption.
  intro x. destruct (sid_eq_dec x (s_id s)); [apply update_at; auto | apply A].
Qed.
Lemma coll_update_at : forall l st st' d e, store_at st st' -> dict_at d e ->
  store_at (coll_update st l d) (coll_update st' (map (sl_surface t) l) e).
Proof.
  intros l st st' d e H D. unfold coll_update.
  refine (fold_left_rel _ _ _ _ store_at of_t _ _ _ _ _ (Forall2_map_r _ _ _ _) _ _ H).
  intros. apply surf_update_at; assumption.
Qed.
Lemma ground_dict_at : forall b st st' d e, store_at st st' -> dict_at d e ->
  store_at (ground_dict_update st b d) (ground_dict_update st' b e).
Proof.
  intros b st st' d e [A B C] D. constructor; cbn; try assumption.
  intro x. destruct (Bool.eqb x b); [apply update_at; auto | apply B].
Qed.
Lemma element_dict_at : forall b j st st' d e, store_at st st' -> dict_at d e ->
  store_at (element_dict_update st b j d) (element_dict_update st' b j e).
Proof.
  intros b j st st' d e [A B C] D. constructor; cbn; try assumption.
  intros x k. destruct (Bool.eqb x b && Nat.eqb k j); [apply update_at; auto | apply C].
Qed.
Lemma elements_update_at : forall b els st st' d e, store_at st st' -> dict_at d e ->
  store_at (elements_update st b els d) (elements_update st' b (map (sl_element t) els) e).
Proof.
  intros b els st st' d e H D. unfold elements_update. rewrite map_length, combine_map_r, fold_left_map. cbn [fst snd].
  refine (fold_left_rel _ _ _ _ store_at eq _ _ _ _ _ (Forall2_same _ _) _ _ H).
  intros a a' [k x] [k' y] Q E. inversion E; subst. cbn [fst snd].
  change (el_surfaces (sl_element t y)) with (map (sl_surface t) (el_surfaces y)).
  apply coll_update_at; [apply element_dict_at; assumption | exact D].
Qed.
Lemma gnd_illum_at : forall g st st' d e, store_at st st' -> dict_at d e ->
  store_at (gnd_update_illum st g d) (gnd_update_illum st' (sl_ground t g) e).
Proof. intros. unfold gnd_update_illum. apply elements_update_at; [apply ground_dict_at; assumption | assumption]. Qed.
Lemma gnd_shaded_at : forall g st st' d e, store_at st st' -> dict_at d e ->
  store_at (gnd_update_shaded st g d) (gnd_update_shaded st' (sl_ground t g) e).
Proof. intros. unfold gnd_update_shaded. apply elements_update_at; [apply ground_dict_at; assumption | assumption]. Qed.

Lemma dict_iso_at : forall a b c d e a' b' c' d' e', at_t a a' -> at_t b b' -> at_t c c' -> at_t d d' -> at_t e e' ->
  dict_at (dict_isotropic a b c d e) (dict_isotropic a' b' c' d' e').
Proof.
  intros. unfold dict_isotropic, dict_at. repeat constructor; cbn; try assumption. unfold at_t in *. congruence.
Qed.
Lemma dict_hyb_at : forall a b c d e f g h a' b' c' d' e' f' g' h', at_t a a' -> at_t b b' -> at_t c c' -> at_t d d' ->
  at_t e e' -> at_t f f' -> comp_at g g' -> at_t h h' ->
  dict_at (dict_hybrid a b c d e f g h) (dict_hybrid a' b' c' d' e' f' g' h').
Proof.
  intros a b c d e f g h a' b' c' d' e' f' g' h' A B C D E F [G1 [G2 G3]] H. unfold dict_hybrid, dict_at.
  repeat constructor; cbn; try assumption; unfold at_t in *; congruence.
Qed.

Lemma nth_row_at : forall rows j, row_coords (nth j (map (sl_row t) rows) dummy_row) 0%nat = row_coords (nth j rows dummy_row) t.
Proof. intros. rewrite sl_nth_row. reflexivity. Qed.
Lemma pct_at : forall m rows p j tl b, horizon_shading_pct m (map (sl_row t) rows) p j tl b 0 = horizon_shading_pct m rows p j tl b t.
Proof. intros. unfold horizon_shading_pct. rewrite map_length, !nth_row_at. reflexivity. Qed.

Lemma back_coll_at : forall m rb f f' a j d d' c c' l st st', irr_at f f' -> at_t d d' -> at_t c c' -> store_at st st' ->
  res_rel store_at (transform_back_coll m rb f a j d c l st)
    (transform_back_coll m rb f' (sl_fitted t a) j d' c' (map (sl_surface t) l) st').
Proof.
  intros m rb f f' a j d d' c c' l st st' H D C S. unfold transform_back_coll.
  destruct l as [|s l]; [reflexivity|]. cbn [map first_surface bind res_rel].
  change (sl_surface t s :: map (sl_surface t) l) with (map (sl_surface t) (s :: l)).
  apply coll_update_at; [exact S|]. destruct H as [_ _ _ _ _ _ _ HB _ _ _ _ FB _].
  assert (Q : forall u (v : dict) u' v', dict_at u u' -> dict_at v v' -> dict_at (u ++ v) (u' ++ v'))
    by (intros; apply Forall2_app; assumption).
  pose proof (proj2 (proj2 FB)) as FH. unfold at_t in HB, FH.
  apply Q.
  - apply dict_hyb_at; try assumption; try reflexivity; unfold at_t; cbn [sl_fitted ft_rows ft_rotation]; 
      rewrite pct_at, ?HB, ?FH; reflexivity.
  - repeat constructor; cbn [fst snd pval_at]; try exact HB. unfold at_t. cbn [sl_fitted ft_rows ft_rotation].
    rewrite pct_at. reflexivity.
Qed.

Lemma transform_at : forall m f f' a st st', irr_at f f' -> store_at st st' ->
  res_rel store_at (irr_transform m f a st) (irr_transform m f' (sl_fitted t a) st').
Proof.
  intros m f f' a st st' H S. unfold irr_transform.
  destruct (im_rho_front m) as [rf|]; [|reflexivity]. destruct (im_rho_back m) as [rb|]; [|reflexivity].
  pose proof (ia_direct _ _ H) as (D1 & D2 & D3 & D4 & D5 & D6).
  pose proof (ia_circ _ _ H) as (C1 & C2 & C3 & C4 & C5 & C6).
  pose proof (ia_ff _ _ H) as (F1 & F2 & F3). pose proof (ia_fb _ _ H) as (B1 & B2 & B3).
  pose proof H as [A1 A2 A3 A4 _ _ A7 A8 A9 A10 A11 AF AB A14].
  assert (IA : at_t (fun t => 1 / if_albedo f t) (fun t => 1 / if_albedo f' t)) by (unfold at_t in *; rewrite A1; reflexivity).
  destruct (im_kind m).
  - cbn [res_rel]. unfold transform_isotropic.
    refine (fold_left_rel _ _ _ _ store_at (fun r r' => r' = sl_row t r) _ _ _ _ _ (Forall2_map_r _ _ _ _) _ _ _).
    + intros s s' r r' Q ->.
      assert (W : forall x x' y y', dict_at x x' -> dict_at y y' -> forall segs u u', store_at u u' ->
        store_at (fold_left (fun st seg => coll_update (coll_update st (seg_illum seg) x) (seg_shaded seg) y) segs u)
          (fold_left (fun st seg => coll_update (coll_update st (seg_illum seg) x') (seg_shaded seg) y') (map (sl_segment t) segs) u')).
      { intros x x' y y' X Y segs u u' U.
        refine (fold_left_rel _ _ _ _ store_at (fun r r' => r' = sl_segment t r) _ _ _ _ _ (Forall2_map_r _ _ _ _) _ _ U).
        intros v v' g g' V ->. cbn [sl_segment seg_illum seg_shaded].
        apply coll_update_at; [apply coll_update_at; assumption | assumption]. }
      cbn [sl_row row_front row_back sl_side side_segments].
      apply W; try apply dict_iso_at; try assumption; try reflexivity.
      apply W; try apply dict_iso_at; try assumption; try reflexivity.
    + apply gnd_shaded_at; [apply gnd_illum_at; [exact S|] |]; apply dict_iso_at; assumption.
  - unfold transform_hybrid. cbn [sl_fitted ft_rows]. rewrite map_length, combine_map_r.
    refine (fold_result_rel _ _ _ _ store_at (fun r r' => r' = (fst r, sl_row t (snd r))) _ _ _ _ _ (Forall2_map_r _ _ _ _) _ _ _).
    + intros s s' [j r] r' Q ->. cbn [fst snd].
      assert (HF : at_t (fun t => co_horizon (if_faoi_front f) t * if_horizon_front f t)
                        (fun t => co_horizon (if_faoi_front f') t * if_horizon_front f' t))
        by (unfold at_t in *; rewrite F3, A7; reflexivity).
      cbn [sl_row row_front row_back sl_side side_segments].
      refine (fold_result_rel _ _ _ _ store_at (fun r r' => r' = sl_segment t r) _ _ _ _ _ (Forall2_map_r _ _ _ _) _ _ _).
      * intros u u' g g' U ->. cbn [sl_segment seg_illum seg_shaded].
        apply (res_bind _ _ _ _ store_at); [|intros v v' V]; apply back_coll_at; assumption.
      * refine (fold_left_rel _ _ _ _ store_at (fun r r' => r' = sl_segment t r) _ _ _ _ _ (Forall2_map_r _ _ _ _) _ _ Q).
        intros v v' g g' V ->. cbn [sl_segment seg_illum seg_shaded].
        apply coll_update_at; [apply coll_update_at; [exact V|] |]; apply dict_hyb_at; try assumption; reflexivity.
    + apply gnd_shaded_at; [apply gnd_illum_at; [exact S|] |]; apply dict_hyb_at; try assumption; try reflexivity;
        repeat split; assumption.
Qed.

(* --------------------------------------------------------------- reading values *)

Lemma get_at : forall st st' s s' name, store_at st st' -> of_t s s' -> res_rel at_t (get_num st s name) (get_num st' s' name).
Proof.
  intros st st' s s' name [A _ _] ->. unfold get_num, get_param. specialize (A (s_id s) name). cbn [sl_surface s_id].
  destruct (ps_surf st (s_id s) name) as [[| |]|], (ps_surf st' (s_id s) name) as [[| |]|]; cbn in *; try contradiction; auto.
Qed.
Lemma sum_at : forall st st' s s' comps, store_at st st' -> of_t s s' ->
  res_rel at_t (sum_components st s comps) (sum_components st' s' comps).
Proof.
  intros st st' s s' comps H E. unfold sum_components.
  refine (fold_result_rel _ _ _ _ at_t eq _ _ _ _ _ (Forall2_same _ _) _ _ _); [|reflexivity].
  intros v v' c c' V <-. apply (res_bind _ _ _ _ at_t); [apply get_at; assumption|].
  intros p q K. cbn. unfold at_t in *. rewrite V, K. reflexivity.
Qed.
Lemma vectors_at : forall k f f' st st' l, irr_at f f' -> store_at st st' ->
  res_rel (fun x y => Forall2 at_t (fst (fst (fst x))) (fst (fst (fst y))) /\ Forall2 at_t (snd (fst (fst x))) (snd (fst (fst y))) /\
                      Forall2 at_t (snd (fst x)) (snd (fst y)))
    (full_ts_modeling_vectors k f st l) (full_ts_modeling_vectors k f' st' (map (sl_surface t) l)).
Proof.
  intros k f f' st st' l H S. unfold full_ts_modeling_vectors, ts_modeling_vectors.
  pose proof (Forall2_map_r _ _ (sl_surface t) l) as L.
  assert (G : forall name, res_rel (Forall2 at_t) (map_result (fun s => get_num st s name) l)
            (map_result (fun s => get_num st' s name) (map (sl_surface t) l))).
  { intro name. refine (map_result_rel _ _ _ _ _ _ _ _ _ _ _ L). intros. apply get_at; assumption. }
  apply (res_bind _ _ _ _ (fun x y => Forall2 at_t (fst (fst (fst x))) (fst (fst (fst y))) /\ Forall2 at_t (snd (fst (fst x))) (snd (fst (fst y))) /\
                      Forall2 at_t (snd (fst x)) (snd (fst y)))).
  - apply (res_bind _ _ _ _ (Forall2 at_t)).
    { refine (map_result_rel _ _ _ _ _ _ _ _ _ _ _ L). intros. apply sum_at; assumption. }
    intros i i' I. apply (res_bind _ _ _ _ (Forall2 at_t)); [apply G|]. intros j j' J.
    apply (res_bind _ _ _ _ (Forall2 at_t)); [apply G|]. intros r r' R0.
    apply (res_bind _ _ _ _ (Forall2 at_t)); [apply G|]. intros q q' R1. cbn. auto.
  - intros [[[i r] j] q] [[[i' r'] j'] q'] (A & B & C). cbn in *. pose proof (ia_lum _ _ H) as LM.
    repeat split; apply Forall2_app; try assumption; constructor; try constructor; try exact LM; reflexivity.
Qed.
Lemma absorbed_at : forall k st st' l, store_at st st' ->
  res_rel (Forall2 at_t) (summed_absorbed k st l) (summed_absorbed k st' (map (sl_surface t) l)).
Proof.
  intros k st st' l S. unfold summed_absorbed.
  refine (map_result_rel _ _ _ _ _ _ _ _ _ _ _ (Forall2_map_r _ _ (sl_surface t) l)). intros. apply sum_at; assumption.
Qed.
Lemma column_at : forall l l', Forall2 at_t l l' -> column l t = column l' 0.
Proof.
  intros l l' F. apply functional_extensionality. unfold column, row_of.
  induction F as [|x y l l' E F IH]; intros [|k]; try reflexivity; [exact E | apply IH].
Qed.

(** Weighted averages over collections, segments, sides. *)
Lemma coll_ww_at : forall st st' l name, store_at st st' ->
  res_rel at_t (coll_param_ww st l name) (coll_param_ww st' (map (sl_surface t) l) name).
Proof.
  intros st st' l name S. unfold coll_param_ww.
  refine (fold_result_rel _ _ _ _ at_t of_t _ _ _ _ _ (Forall2_map_r _ _ (sl_surface t) l) _ _ _); [|reflexivity].
  intros v v' s s' V E. apply (res_bind _ _ _ _ at_t); [apply get_at; assumption|].
  intros p q K. cbn. rewrite E. unfold at_t in *. rewrite V, K. reflexivity.
Qed.
Lemma seg_ww_at : forall st st' g name, store_at st st' ->
  res_rel at_t (seg_param_ww st g name) (seg_param_ww st' (sl_segment t g) name).
Proof.
  intros st st' g name S. unfold seg_param_ww. cbn [sl_segment seg_illum seg_shaded].
  apply (res_bind _ _ _ _ at_t); [apply coll_ww_at, S|]. intros p q K.
  apply (res_bind _ _ _ _ at_t); [apply coll_ww_at, S|]. intros p' q' K'. cbn. unfold at_t in *. rewrite K, K'. reflexivity.
Qed.
Lemma side_ww_at : forall st st' d name, store_at st st' ->
  res_rel at_t (side_param_ww st d name) (side_param_ww st' (sl_side t d) name).
Proof.
  intros st st' d name S. unfold side_param_ww. cbn [sl_side side_segments].
  refine (fold_result_rel _ _ _ _ at_t (fun g g' => g' = sl_segment t g) _ _ _ _ _ (Forall2_map_r _ _ _ _) _ _ _); [|reflexivity].
  intros v v' s s' V ->. apply (res_bind _ _ _ _ at_t); [apply seg_ww_at; assumption|].
  intros p q K. cbn. unfold at_t in *. rewrite V, K. reflexivity.
Qed.
End Local.
