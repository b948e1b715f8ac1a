(** Properties of the fast mode of the engine: statements, with an example that meets
    the hypotheses. Lemmas are in ProofHistory.v. *)
From Coq Require Import Reals List Bool Arith String Lra Lia FunctionalExtensionality.
From Verif Require Import Num ModelTs ModelGeom ModelVF Basics SpecGeom ProofShade ProofRow ProofFit ProofIndex ProofGeom2 PropGeom SpecVF ProofTele ProofVF ProofVF2 ProofFast PropVF PropFast ModelLinalg ProofLinalg SpecEngine ProofRadiosity ModelParams SpecParams ProofParams ModelIrr SpecIrr ProofIrr ModelAOI ModelEngine SpecRun ProofEngine PropEngine ProofRun PropRun ProofHistory.
Import ListNotations.
Open Scope R_scope.

(** A fast mode run and its setting: a fit, any runs, then the fast mode. *)
Definition fast_run (P : pvlib) (e0 : engine) (raw : raw_inputs) (i : irr_inputs) (a : fitted)
    (f : irr_fitted) (r sg : option nat) (e1 e' : engine) : Prop :=
  valid_params (pv_params (en_array e0)) /\ format_inputs raw = Ok i /\
  (exists e runs, engine_fit P e0 raw = Ok e /\ forallb is_run runs = true /\
     exec_all P e runs = Ok e1 /\ run_fast_mode e1 r sg = Ok e') /\
  pv_fitted (en_array e') = Some a /\ en_irr_fitted e' = Some f.

(** The row and the surfaces that the call is about: those of the back of the chosen
    row, or of the chosen segment of it. *)
Definition chosen (e0 : engine) (a : fitted) (r sg : option nat) (k : nat) (s : ts_surface) : Prop :=
  match r with Some j => Some j | None => en_fast_row e0 end = Some k /\
  exists row seg, nth_error (ft_rows a) k = Some row /\ in_segment s seg /\
    match (match sg with Some j => Some j | None => en_fast_seg e0 end) with
    | Some j => nth_error (side_segments (row_back row)) j = Some seg
    | None => In seg (side_segments (row_back row))
    end.

Lemma engine_fit_fast : forall P e0 raw e, engine_fit P e0 raw = Ok e ->
  en_fast_row e = en_fast_row e0 /\ en_fast_seg e = en_fast_seg e0.
Proof.
  intros P e0 raw e H. unfold engine_fit in H. apply bind_ok in H. destruct H as (i & _ & H).
  destruct (engine_fit_arrays_inv _ _ _ _ H) as (? & ? & ? & ? & ? & ? & _ & _ & _ & _ & _ & _ & ->).
  split; reflexivity.
Qed.

Lemma chosen_list : forall e0 a r sg k l s, pick r (en_fast_row e0) = Some k ->
  fast_surfaces a k (pick sg (en_fast_seg e0)) l -> (chosen e0 a r sg k s <-> In s l).
Proof.
  intros e0 a r sg k l s K (row & Hr & L). unfold chosen. fold (pick r (en_fast_row e0)) (pick sg (en_fast_seg e0)).
  rewrite K. split.
  - intros (_ & row' & seg & Hr' & I & J). rewrite Hr in Hr'. inversion Hr'; subst row'.
    destruct (pick sg (en_fast_seg e0)) as [j|].
    + destruct L as (g & Hg & ->). rewrite Hg in J. inversion J; subst seg. apply in_or_app. exact I.
    + subst l. unfold side_surfaces. apply in_flat_map. exists seg. split; [exact J|]. apply in_or_app. exact I.
  - intro I. split; [reflexivity|]. exists row. destruct (pick sg (en_fast_seg e0)) as [j|].
    + destruct L as (g & Hg & ->). exists g. split; [exact Hr|]. split; [apply in_app_or; exact I | exact Hg].
    + subst l. unfold side_surfaces in I. apply in_flat_map in I. destruct I as (g & Ig & Is). exists g.
      split; [exact Hr|]. split; [apply in_app_or; exact Is | exact Ig].
Qed.

(** What is known about a fast run. *)
Lemma fast_run_inv : forall P e0 raw i a f r sg e1 e', fast_run P e0 raw i a f r sg e1 e' ->
  exists rf rb k l, fitted_engine P e1 i a f rf rb /\ en_irr e1 = en_irr e0 /\ same_fit e1 e' /\
    im_rho_front (en_irr e0) = Some rf /\ pv_params (en_array e1) = pv_params (en_array e0) /\
    pick r (en_fast_row e0) = Some k /\ fast_surfaces a k (pick sg (en_fast_seg e0)) l /\
    en_heap e' = en_heap e1 /\ pv_vf (en_array e') = pv_vf (en_array e1) /\
    pv_vf_aoi (en_array e') = pv_vf_aoi (en_array e1) /\
    (forall s key, In s l -> ps_surf (pv_store (en_array e')) (s_id s) key =
       overlay (fa_dict (im_kind (en_irr e0)) rf f a k (pv_store (en_array e1)) s) key
         (ps_surf (pv_store (en_array e1)) (s_id s) key)) /\
    (forall x, ~ In x (map s_id l) -> ps_surf (pv_store (en_array e')) x = ps_surf (pv_store (en_array e1)) x).
Proof.
  intros P e0 raw i a f r sg e1 e' (V & Hi & (e & runs & Fi & RU & EX & RF) & Ha & Hf).
  destruct (engine_fit_fitted _ _ _ _ V Fi) as (i' & a' & f' & rf & rb & Hi' & FE).
  rewrite Hi in Hi'. inversion Hi'; subst i'. clear Hi'.
  pose proof (runs_same_fit _ _ _ _ RU EX) as S. pose proof (same_fit_fitted _ _ _ _ _ _ _ _ S FE) as FE1.
  pose proof (run_fast_same_fit _ _ _ _ RF) as S2.
  assert (a' = a) by (pose proof (sf_fitted _ _ S2) as E; rewrite Ha, (fe_array _ _ _ _ _ _ _ FE1) in E; congruence). subst a'.
  assert (f' = f) by (pose proof (sf_irr_fitted _ _ S2) as E; rewrite Hf, (fe_irr_fitted _ _ _ _ _ _ _ FE1) in E; congruence). subst f'.
  destruct (ProofRun.engine_fit_params _ _ _ _ Fi) as (EP & EI & _). destruct (engine_fit_fast _ _ _ _ Fi) as (ER & ES).
  destruct (run_fast_inv _ _ _ _ RF) as (a2 & f2 & k & l & A & F & K & L).
  rewrite (fe_array _ _ _ _ _ _ _ FE1) in A. inversion A; subst a2.
  rewrite (fe_irr_fitted _ _ _ _ _ _ _ FE1) in F. inversion F; subst f2. clear A F.
  pose proof (fitted_ready _ _ _ _ _ _ _ FE1) as RD.
  destruct (fast_surfaces_all _ _ _ _ L) as [LA LN].
  destruct (fast_list_ok (en_irr e1) f a k rf l (pv_store (en_array e1)) (fe_front _ _ _ _ _ _ _ FE1)
    (LN (fit_ids_nodup _ _ _ _ (fe_valid _ _ _ _ _ _ _ FE1) (fe_fit _ _ _ _ _ _ _ FE1)))) as (st' & E & B & C & _ & _).
  { intros s I. apply (RD s (LA s I)). }
  rewrite (run_fast_list e1 a f k r sg (fe_array _ _ _ _ _ _ _ FE1) (fe_irr_fitted _ _ _ _ _ _ _ FE1) K l L) in RF.
  rewrite E in RF. cbn [bind] in RF. inversion RF; subst e'.
  exists rf, rb, k, l. rewrite <- EI, <- (sf_irr _ _ S). rewrite <- ER, <- (sf_row _ _ S), <- ES, <- (sf_seg _ _ S).
  split; [exact FE1|]. split; [reflexivity|]. split; [exact S2|].
  split; [exact (fe_front _ _ _ _ _ _ _ FE1)|]. split; [rewrite (sf_params _ _ S); exact EP|].
  split; [exact K|]. split; [exact L|]. cbn. repeat (split; [reflexivity|]). split; assumption.
Qed.

(** Reading a parameter of a chosen surface. *)
Lemma chosen_value : forall P e0 raw i a f r sg e1 e', fast_run P e0 raw i a f r sg e1 e' ->
  exists rf rb, fitted_engine P e1 i a f rf rb /\ en_irr e1 = en_irr e0 /\ same_fit e1 e' /\
    im_rho_front (en_irr e0) = Some rf /\
    forall k s key v, chosen e0 a r sg k s ->
      In (key, v) (fa_dict (im_kind (en_irr e0)) rf f a k (pv_store (en_array e1)) s) ->
      In s (all_ts_surfaces a) /\ get_param (pv_store (en_array e')) s key = Ok v.
Proof.
  intros P e0 raw i a f r sg e1 e' H.
  destruct (fast_run_inv _ _ _ _ _ _ _ _ _ _ H) as (rf & rb & k & l & FE & EI & S & Rf & _ & K & L & _ & _ & _ & B & _).
  exists rf, rb. repeat (split; [assumption|]). intros k' s key v C I.
  assert (k' = k) by (destruct C as [E _]; unfold pick in K; congruence). subst k'.
  apply (chosen_list _ _ _ _ _ _ _ K L) in C. split; [exact (proj1 (fast_surfaces_all _ _ _ _ L) s C)|].
  unfold get_param. rewrite (B s key C). rewrite (overlay_in _ _ _ v); [reflexivity| |exact I].
  rewrite fa_dict_keys. exact fast_keys_nodup.
Qed.

Lemma other_key : forall e1 e' s key, same_fit e1 e' -> ~ In key run_keys ->
  get_param (pv_store (en_array e')) s key = get_param (pv_store (en_array e1)) s key.
Proof. intros e1 e' s key S N. unfold get_param. rewrite (sf_surf _ _ S) by exact N. reflexivity. Qed.
Lemma value_back : forall e1 e' s key t x, same_fit e1 e' -> ~ In key run_keys ->
  (value_at (pv_store (en_array e')) s key t x <-> value_at (pv_store (en_array e1)) s key t x).
Proof. intros. unfold value_at. rewrite (other_key e1 e') by assumption. tauto. Qed.
Lemma sources_back : forall e1 e' k s t x, same_fit e1 e' ->
  (light_sources k (pv_store (en_array e')) s t x <-> light_sources k (pv_store (en_array e1)) s t x).
Proof.
  intros e1 e' k s t x S.
  assert (K : forall c, In c (irradiance_comp HybridPerezOrdered) -> ~ In c run_keys) by apply comps_not_run.
  destruct k; cbn [light_sources].
  - apply (value_back e1 e'); [exact S|]. apply K; cbn; tauto.
  - split; intros (d & c & h & A & B & C & D); exists d, c, h;
      (rewrite ?(value_back e1 e') in * by (try exact S; apply K; cbn; tauto)); tauto.
Qed.

(** There are surfaces of every category. *)
Lemma make_element_inhabited : forall mkid sh c cut cuts, exists y, In y (el_surfaces (make_element mkid sh c (cut :: cuts))).
Proof.
  intros mkid sh c cut cuts. pose proof (make_element_ids mkid sh c (cut :: cuts) ltac:(discriminate)) as E.
  destruct (el_surfaces (make_element mkid sh c (cut :: cuts))) as [|y l]; [discriminate E|].
  exists y. left; reflexivity.
Qed.

Lemma categories_inhabited : forall p n f a, valid_params p -> fit p n f = Some a ->
  forall c, match c with CGround _ => True | CRow j _ _ => (j < pa_n_pvrows p)%nat end -> exists y, in_category a y c.
Proof.
  intros p n f a V F [sh|j b sh] H.
  - pose proof (fit_ground_ordered _ _ _ _ F) as G. destruct V as (_ & _ & N & _).
    rewrite fit_rows_eq in G. destruct (pa_n_pvrows p) as [|m]; [lia|]. cbn [seq map] in G.
    unfold ground_from_ordered_shadows in G.
    set (cut := fun t : nat => cut_point (row_coords (fit_row p (fit_alpha p f) (fit_rotation p f) 0) t)
                 (fit_rotation p f t) pa_y_ground) in G.
    match type of G with context [fix_overlaps ?fl (?x :: ?l)] =>
      assert (E : exists y r, fix_overlaps fl (x :: l) = y :: r) by (destruct l; cbn [fix_overlaps]; eauto) end.
    destruct E as (y0 & r0 & E). rewrite E in G. clear E.
    match type of G with context [cut :: ?l] => set (cuts := l) in G end. clearbody cut cuts.
    unfold shadow_elements in G. cbn [List.length seq combine map illum_elements illum_coords fst snd] in G.
    destruct (make_element_inhabited (SidShadow 0) true (fun t => clip_shadow pa_y_ground (y0 t)) cut cuts) as [y1 I1].
    match type of G with context [make_element (SidIllum 0) false ?c (cut :: cuts)] =>
      destruct (make_element_inhabited (SidIllum 0) false c cut cuts) as [y2 I2] end.
    cbn [fst snd] in *.
    match type of G with Some ?g = _ =>
      assert (EG : ft_ground a = g) by (inversion G; reflexivity) end.
    destruct sh; [exists y1 | exists y2]; cbn [in_category]; unfold in_elements; rewrite EG;
      cbn [gnd_shadows gnd_illum]; (eexists; split; [left; reflexivity|]; assumption).
  - destruct (nth_error (ft_rows a) j) as [row|] eqn:Hr.
    2:{ apply nth_error_None in Hr. rewrite (rows_length p n f a F) in Hr. lia. }
    destruct (fit_rows_nth_error _ _ _ _ _ _ F Hr) as [_ Er]. pose proof V as (_ & _ & _ & CU).
    assert (SG : exists seg y, In seg (side_segments (if b then row_back row else row_front row)) /\
               In y (if sh then seg_shaded seg else seg_illum seg)).
    { rewrite Er. unfold fit_row, pvrow_from_raw_inputs. cbn [row_back row_front].
      pose proof (CU j b) as Hc.
      destruct b; unfold side_from_raw_inputs; cbn [side_segments];
        (destruct (pa_cut p j _) as [|m]; [lia|]); cbn [seq map]; destruct sh;
        (do 2 eexists; split; [left; reflexivity|]; left; reflexivity). }
    destruct SG as (seg & y & I1 & I2). exists y. exists row, seg. repeat split; assumption.
Qed.

(** C25: the incident irradiance published by the fast mode, from published light. *)
Theorem C25_fast_qinc : forall P e0 raw i a f r sg e1 e' k s t,
  fast_run P e0 raw i a f r sg e1 e' -> chosen e0 a r sg k s ->
  let st := pv_store (en_array e') in
  exists v, get_param st s "view_factors" = Ok (PVF v) /\
  (forall t, v t = get_vf_ts_pvrow_element k (s_coords s) (ft_rows a) (ft_ground a) (ft_rotation a) (ft_width a) t) /\
  forall x rf y1 y2 y3 y4 j3 j4 g_shaded g_lit p_shaded p_lit,
  v t = Some x -> im_rho_front (en_irr e0) = Some rf ->
  in_category a y1 (CGround true) -> value_at st y1 "total_perez" t g_shaded ->
  in_category a y2 (CGround false) -> value_at st y2 "total_perez" t g_lit ->
  in_category a y3 (CRow j3 false true) -> value_at st y3 "total_perez" t p_shaded ->
  in_category a y4 (CRow j4 false false) -> value_at st y4 "total_perez" t p_lit ->
  let ground_shaded := to_gnd_shaded x * ii_albedo i t * g_shaded in
  let ground_lit := to_gnd_illum x * ii_albedo i t * g_lit in
  let row_shaded := to_pvrow_shaded x * rf * p_shaded in
  let row_lit := to_pvrow_illum x * rf * p_lit in
  let sky := to_sky x * irr_sky_luminance f t in
  exists src, light_sources (im_kind (en_irr e0)) st s t src /\
    value_at st s "qinc" t (ground_shaded + ground_lit + row_shaded + row_lit + sky + src) /\
    value_at st s "reflection" t (ground_shaded + ground_lit + row_shaded + row_lit) /\
    value_at st s "reflection_gnd_shaded" t ground_shaded /\
    value_at st s "reflection_gnd_illum" t ground_lit /\
    value_at st s "reflection_pvrow_shaded" t row_shaded /\
    value_at st s "reflection_pvrow_illum" t row_lit /\
    value_at st s "isotropic" t sky /\ value_at st s "sky_term" t src.
Proof.
  intros P e0 raw i a f r sg e1 e' k s t H C st.
  destruct (chosen_value _ _ _ _ _ _ _ _ _ _ H) as (rf & rb & FE & EI & S & Rf & VAL).
  pose proof (fun key v => VAL k s key v C) as W. clear VAL.
  exists (fa_vf a k s). split; [apply W; cbn; tauto|]. split; [reflexivity|].
  intros x rf' y1 y2 y3 y4 j3 j4 gs gl ps pl Hx Rf' C1 V1 C2 V2 C3 V3 C4 V4. cbn zeta.
  rewrite Rf in Rf'. inversion Rf'; subst rf'. clear Rf'.
  assert (Is : In s (all_ts_surfaces a)) by (eapply W; left; reflexivity).
  assert (NR : ~ In "total_perez"%string run_keys) by (cbn; intuition discriminate).
  assert (PZ : forall y c z, in_category a y c -> value_at st y "total_perez" t z -> z = cat_perez f c t).
  { intros y c z Cy Vy. apply (value_back e1 e' y _ t z S NR) in Vy. destruct Vy as (w & E & <-).
    rewrite (key_perez _ _ _ _ _ _ _ FE y c Cy) in E. inversion E. reflexivity. }
  rewrite (PZ _ _ _ C1 V1), (PZ _ _ _ C2 V2), (PZ _ _ _ C3 V3), (PZ _ _ _ C4 V4).
  cbn [cat_perez perez_pick].
  pose proof (fe_irr _ _ _ _ _ _ _ FE) as FI. destruct (irr_fit_albedo _ _ _ _ FI) as (AL & _). rewrite <- AL.
  set (k0 := im_kind (en_irr e0)) in *.
  exists (fa_sky k0 (pv_store (en_array e1)) s t).
  assert (X : forall fld, vf_value fld (fa_vf a k s) t = fld x) by (intro; unfold vf_value; rewrite Hx; reflexivity).
  assert (VV : forall key w, In (key, PArr w) (fa_dict k0 rf f a k (pv_store (en_array e1)) s) -> forall z, w t = z -> value_at st s key t z).
  { intros key w I z E. exists w. split; [apply W; exact I | exact E]. }
  split.
  { apply (sources_back e1 e' _ _ _ _ S). unfold k0. rewrite <- EI. apply sources_comps. apply (fitted_ready _ _ _ _ _ _ _ FE s Is). }
  split; [eapply VV; [cbn; right; left; reflexivity|]; unfold fa_gs, fa_gi, fa_ps, fa_pi, fa_iso; rewrite !X; reflexivity|].
  split; [eapply VV; [cbn; do 7 right; left; reflexivity|]; unfold fa_gs, fa_gi, fa_ps, fa_pi, fa_iso; rewrite !X; reflexivity|].
  split; [eapply VV; [cbn; do 2 right; left; reflexivity|]; unfold fa_gs; rewrite X; reflexivity|].
  split; [eapply VV; [cbn; do 3 right; left; reflexivity|]; unfold fa_gi; rewrite X; reflexivity|].
  split; [eapply VV; [cbn; do 4 right; left; reflexivity|]; unfold fa_ps; rewrite X; reflexivity|].
  split; [eapply VV; [cbn; do 5 right; left; reflexivity|]; unfold fa_pi; rewrite X; reflexivity|].
  split; [eapply VV; [cbn; do 6 right; left; reflexivity|]; unfold fa_iso; rewrite X; reflexivity|].
  eapply VV; [cbn; left; reflexivity|]. reflexivity.
Qed.
Print Assumptions C25_fast_qinc.

(** C25: the call succeeds exactly when the row and the segment exist. *)
Theorem C25_succeeds : forall P e0 raw e runs e1 r sg,
  valid_params (pv_params (en_array e0)) -> engine_fit P e0 raw = Ok e ->
  forallb is_run runs = true -> exec_all P e runs = Ok e1 ->
  let p := pv_params (en_array e0) in
  ((exists e', run_fast_mode e1 r sg = Ok e') <->
   exists k, match r with Some j => Some j | None => en_fast_row e0 end = Some k /\ (k < pa_n_pvrows p)%nat /\
     match (match sg with Some j => Some j | None => en_fast_seg e0 end) with
     | Some j => (j < pa_cut p k true)%nat
     | None => True
     end).
Proof.
  intros P e0 raw e runs e1 r sg V Fi RU EX p.
  destruct (engine_fit_fitted _ _ _ _ V Fi) as (i & a & f & rf & rb & Hi & FE).
  pose proof (runs_same_fit _ _ _ _ RU EX) as S. pose proof (same_fit_fitted _ _ _ _ _ _ _ _ S FE) as FE1.
  destruct (ProofRun.engine_fit_params _ _ _ _ Fi) as (EP & EI & _). destruct (engine_fit_fast _ _ _ _ Fi) as (ER & ES).
  rewrite <- ER, <- (sf_row _ _ S), <- ES, <- (sf_seg _ _ S). fold (pick r (en_fast_row e1)) (pick sg (en_fast_seg e1)).
  assert (Ep : pv_params (en_array e1) = p) by (rewrite (sf_params _ _ S); exact EP).
  pose proof (fe_fit _ _ _ _ _ _ _ FE1) as FT. rewrite Ep in FT.
  assert (LR : List.length (ft_rows a) = pa_n_pvrows p) by (apply (rows_length p (ii_n i) (fit_of i) a FT)).
  assert (LS : forall k row, nth_error (ft_rows a) k = Some row -> List.length (side_segments (row_back row)) = pa_cut p k true).
  { intros k row Hr. destruct (fit_rows_nth_error _ _ _ _ _ _ FT Hr) as [_ ->]. rewrite ProofGeom.fit_row_back.
    unfold side_from_raw_inputs. cbn [side_segments]. rewrite map_length, seq_length. reflexivity. }
  split.
  - intros (e' & H). destruct (run_fast_inv _ _ _ _ H) as (a2 & f2 & k & l & A & F & K & row & Hr & L).
    rewrite (fe_array _ _ _ _ _ _ _ FE1) in A. inversion A; subst a2.
    exists k. split; [exact K|]. split; [rewrite <- LR; apply nth_error_Some; congruence|].
    destruct (pick sg (en_fast_seg e1)) as [j|]; [|exact I]. destruct L as (g & Hg & _).
    rewrite <- (LS k row Hr). apply nth_error_Some. congruence.
  - intros (k & K & Lk & Lj).
    destruct (nth_error (ft_rows a) k) as [row|] eqn:Hr; [|apply nth_error_None in Hr; lia].
    assert (L : exists l, fast_surfaces a k (pick sg (en_fast_seg e1)) l).
    { destruct (pick sg (en_fast_seg e1)) as [j|] eqn:Ej.
      - destruct (nth_error (side_segments (row_back row)) j) as [g|] eqn:Hg;
          [|apply nth_error_None in Hg; rewrite (LS k row Hr) in Hg; lia].
        exists (seg_surfaces g), row. split; [exact Hr|]. exists g. tauto.
      - exists (side_surfaces (row_back row)), row. tauto. }
    destruct L as [l L]. rewrite (run_fast_list e1 a f k r sg (fe_array _ _ _ _ _ _ _ FE1) (fe_irr_fitted _ _ _ _ _ _ _ FE1) K l L).
    destruct (fast_surfaces_all _ _ _ _ L) as [LA LN].
    destruct (fast_list_ok (en_irr e1) f a k rf l (pv_store (en_array e1)) (fe_front _ _ _ _ _ _ _ FE1)
      (LN (fit_ids_nodup _ _ _ _ (fe_valid _ _ _ _ _ _ _ FE1) (fe_fit _ _ _ _ _ _ _ FE1)))) as (st' & E & _).
    { intros s I. apply (fitted_ready _ _ _ _ _ _ _ FE1 s (LA s I)). }
    rewrite E. cbn [bind]. eauto.
Qed.

(** An index of row or of segment that does not exist is an [IndexError]. *)
Theorem C25_out_of_range : forall P e0 raw e runs e1 r sg k,
  valid_params (pv_params (en_array e0)) -> engine_fit P e0 raw = Ok e ->
  forallb is_run runs = true -> exec_all P e runs = Ok e1 ->
  let p := pv_params (en_array e0) in
  match r with Some j => Some j | None => en_fast_row e0 end = Some k ->
  (pa_n_pvrows p <= k)%nat \/
  (exists j, match sg with Some j => Some j | None => en_fast_seg e0 end = Some j /\ (pa_cut p k true <= j)%nat) ->
  run_fast_mode e1 r sg = Err IndexError.
Proof.
  intros P e0 raw e runs e1 r sg k V Fi RU EX p Hk Out.
  destruct (engine_fit_fitted _ _ _ _ V Fi) as (i & a & f & rf & rb & Hi & FE).
  pose proof (runs_same_fit _ _ _ _ RU EX) as S. pose proof (same_fit_fitted _ _ _ _ _ _ _ _ S FE) as FE1.
  destruct (ProofRun.engine_fit_params _ _ _ _ Fi) as (EP & EI & _). destruct (engine_fit_fast _ _ _ _ Fi) as (ER & ES).
  rewrite <- ER, <- (sf_row _ _ S) in Hk. rewrite <- ES, <- (sf_seg _ _ S) in Out.
  assert (Ep : pv_params (en_array e1) = p) by (rewrite (sf_params _ _ S); exact EP).
  pose proof (fe_fit _ _ _ _ _ _ _ FE1) as FT. rewrite Ep in FT.
  assert (LR : List.length (ft_rows a) = pa_n_pvrows p) by (apply (rows_length p (ii_n i) (fit_of i) a FT)).
  unfold run_fast_mode. rewrite (fe_array _ _ _ _ _ _ _ FE1), (fe_irr_fitted _ _ _ _ _ _ _ FE1), Hk. unfold list_get at 1.
  destruct (nth_error (ft_rows a) k) as [row|] eqn:Hr; [|reflexivity]. cbn [bind].
  destruct Out as [Out|(j & Hj & Out)]; [assert (k < List.length (ft_rows a))%nat by (apply nth_error_Some; congruence); lia|].
  rewrite Hj. unfold list_get. destruct (nth_error (side_segments (row_back row)) j) as [g|] eqn:Hg; [|reflexivity].
  exfalso. assert (LS : List.length (side_segments (row_back row)) = pa_cut p k true).
  { destruct (fit_rows_nth_error _ _ _ _ _ _ FT Hr) as [_ ->]. rewrite ProofGeom.fit_row_back.
    unfold side_from_raw_inputs. cbn [side_segments]. rewrite map_length, seq_length. reflexivity. }
  assert (j < List.length (side_segments (row_back row)))%nat by (apply nth_error_Some; congruence). lia.
Qed.
Print Assumptions C25_succeeds.
Print Assumptions C25_out_of_range.

(** C25: the call changes nothing else. *)
Theorem C25_nothing_else : forall P e0 raw i a f r sg e1 e',
  fast_run P e0 raw i a f r sg e1 e' ->
  (forall s key, In s (all_ts_surfaces a) -> (forall k, ~ chosen e0 a r sg k s) ->
     get_param (pv_store (en_array e')) s key = get_param (pv_store (en_array e1)) s key) /\
  (forall s key, ~ In key ["sky_term"; "qinc"; "reflection"; "isotropic"; "view_factors"; "reflection_gnd_shaded";
      "reflection_gnd_illum"; "reflection_pvrow_shaded"; "reflection_pvrow_illum"]%string ->
     In s (all_ts_surfaces a) ->
     get_param (pv_store (en_array e')) s key = get_param (pv_store (en_array e1)) s key) /\
  (forall M, published_vf e' M <-> published_vf e1 M) /\
  (forall M, published_vf_aoi e' M <-> published_vf_aoi e1 M) /\
  pv_fitted (en_array e') = pv_fitted (en_array e1).
Proof.
  intros P e0 raw i a f r sg e1 e' H.
  destruct (fast_run_inv _ _ _ _ _ _ _ _ _ _ H) as (rf & rb & k & l & FE & EI & S & Rf & _ & K & L & HH & HV & HA & B & O).
  assert (ID : forall s, In s (all_ts_surfaces a) -> In (s_id s) (map s_id l) -> In s l).
  { intros s Is J. apply in_map_iff in J. destruct J as (y & E & Iy).
    replace s with y; [exact Iy|]. pose proof (proj1 (fast_surfaces_all _ _ _ _ L) y Iy) as Ia.
    pose proof (fit_ids_nodup _ _ _ _ (fe_valid _ _ _ _ _ _ _ FE) (fe_fit _ _ _ _ _ _ _ FE)) as N.
    clear - E Is Ia N. induction (all_ts_surfaces a) as [|z m IH]; [contradiction|].
    cbn in N. inversion N as [|? ? N1 N2]; subst. destruct Is as [->|Is], Ia as [->|Ia]; auto.
    - exfalso; apply N1. rewrite <- E. apply in_map; exact Ia.
    - exfalso; apply N1. rewrite E. apply in_map; exact Is. }
  split; [|split; [|split; [|split]]].
  - intros s key Is N. unfold get_param. rewrite O; [reflexivity|]. intro J. apply (N k).
    apply (chosen_list _ _ _ _ _ _ _ K L). apply ID; assumption.
  - intros s key N Is. unfold get_param. destruct (in_dec sid_eq_dec (s_id s) (map s_id l)) as [J|J].
    + rewrite (B s key (ID s Is J)). rewrite overlay_none; [reflexivity|]. rewrite fa_dict_keys. cbn in N |- *. tauto.
    + rewrite O by exact J. reflexivity.
  - intro M. unfold published_vf. rewrite HV, HH. tauto.
  - intro M. unfold published_vf_aoi. rewrite HA, HH. tauto.
  - exact (sf_fitted _ _ S).
Qed.
Print Assumptions C25_nothing_else.

(** C18 for the surfaces that the fast mode works on. *)
Theorem C18_surfaces : forall p n f a t al k row s v,
  scene p n f a t al ->
  nth_error (ft_rows a) k = Some row -> In s (side_surfaces (row_back row)) ->
  DISTANCE_TOLERANCE < s_length s t ->
  get_vf_ts_pvrow_element k (s_coords s) (ft_rows a) (ft_ground a) (ft_rotation a) (ft_width a) t = Some v ->
  to_sky v + to_gnd_total v + to_pvrow_total v = 1 /\
  to_gnd_total v = to_gnd_shaded v + to_gnd_illum v /\
  to_pvrow_total v = to_pvrow_shaded v + to_pvrow_illum v /\
  (forall x, In x [to_gnd_shaded v; to_gnd_illum v; to_pvrow_shaded v; to_pvrow_illum v; to_sky v] -> 0 <= x <= 1).
Proof.
  intros p n f a t al k row s v (V & Fi & SA & NS & HR & HG & HF) Hr Hs Hl Hv.
  destruct (surface_spans p n f a t V Fi HR k row true s Hr Hs) as (lo & hi & B1 & B2 & B3 & B4 & B5 & B6).
  assert (Hk : (k < pa_n_pvrows p)%nat) by (apply (row_lt p n f a Fi _ _ Hr)).
  assert (Hlo : 0 <= lo) by lra. assert (Hlh : DISTANCE_TOLERANCE < hi - lo) by lra.
  destruct (fast_any p n f a t al V Fi SA NS HR HG HF k lo hi (s_coords s t) Hk Hlo Hlh B2 B6 B3 B4 (s_coords s) eq_refl v Hv)
    as (gnd & Ev & Eg).
  pose proof (fast_bounds_any p n f a t al V Fi SA NS HR HG HF k lo hi (s_coords s t) Hk Hlo Hlh B2 B6 B3 B4 gnd Eg) as B.
  cbv zeta in B. rewrite <- Ev in B. destruct B as (_ & C1 & C2 & C3 & C4 & C5 & C6 & C7).
  assert (E : to_gnd_total v = to_gnd_shaded v + to_gnd_illum v /\ to_pvrow_total v = to_pvrow_shaded v + to_pvrow_illum v /\
     to_sky v + to_gnd_total v + to_pvrow_total v = 1).
  { clear - Hv. revert Hv. unfold get_vf_ts_pvrow_element. cbv zeta.
    destruct (calculate_vf_to_gnd _ _ _ _ _ _ _ _); [| discriminate]. intro H.
    apply (f_equal (fun o => match o with Some x => x | None => v end)) in H. cbv beta iota in H. rewrite <- H.
    cbn [to_each_gnd_shadow to_gnd_shaded to_gnd_illum to_gnd_total to_pvrow_total to_pvrow_shaded to_pvrow_illum to_sky].
    repeat split; ring. }
  destruct E as (E1 & E2 & E3). split; [exact E3|]. split; [exact E1|]. split; [exact E2|].
  intros x Hx. cbn [In] in Hx. destruct Hx as [<-|[<-|[<-|[<-|[<-|[]]]]]]; lra.
Qed.
Print Assumptions C18_surfaces.

(** The factors of a surface are defined under the same condition as those of a segment. *)
Theorem C18_surfaces_defined : forall p n f a t al k row s,
  scene p n f a t al ->
  nth_error (ft_rows a) k = Some row -> In s (side_surfaces (row_back row)) ->
  DISTANCE_TOLERANCE < s_length s t ->
  let left := looks_left (ft_rotation a t) true in
  (neighbour_edge p a t left k = None -> cut_in_view a t k left) ->
  exists v, get_vf_ts_pvrow_element k (s_coords s) (ft_rows a) (ft_ground a) (ft_rotation a) (ft_width a) t = Some v.
Proof.
  intros p n f a t al k row s (V & Fi & SA & NS & HR & HG & HF) Hr Hs Hl left Hc.
  destruct (surface_spans p n f a t V Fi HR k row true s Hr Hs) as (lo & hi & B1 & B2 & B3 & B4 & B5 & B6).
  assert (Hk : (k < pa_n_pvrows p)%nat) by (apply (row_lt p n f a Fi _ _ Hr)).
  assert (Hlo : 0 <= lo) by lra. assert (Hlh : DISTANCE_TOLERANCE < hi - lo) by lra.
  eexists. apply (fast_values p n f a t al V Fi SA NS HR HG HF k lo hi (s_coords s t) Hk Hlo Hlh B2 B6 B3 B4 (s_coords s) eq_refl).
  intro Eg. apply cut_in_view_reached. apply Hc.
  pose proof (neighbour_obs p a t left k Hk) as E. change (negb (Rltb 0 (ft_rotation a t))) with (xorb true (Rltb 0 (ft_rotation a t))) in Eg.
  rewrite <- looks_left_eq in Eg. fold left in Eg. unfold obs in E. rewrite Eg in E.
  destruct (neighbour_edge p a t left k); [discriminate | reflexivity].
Qed.
Print Assumptions C18_surfaces_defined.

Lemma ex_back : forall a, fit ex_p 2 ex_f = Some a -> exists row s v,
  nth_error (ft_rows a) 1 = Some row /\ In s (side_surfaces (row_back row)) /\ DISTANCE_TOLERANCE < s_length s 1%nat /\
  get_vf_ts_pvrow_element 1 (s_coords s) (ft_rows a) (ft_ground a) (ft_rotation a) (ft_width a) 1 = Some v.
Proof.
  intros a F. destruct (PropVF.ex_surfaces a F) as (row & x & y & Hr & _ & Hy & _ & _ & _ & Ly & T).
  destruct (ex_scene a F) as [_ S1].
  assert (Tl : DISTANCE_TOLERANCE < s_length y 1%nat) by lra.
  destruct (C18_surfaces_defined _ _ _ a 1 _ 1 row y S1 Hr Hy Tl) as [v Hv].
  - destruct (fit_spec _ _ _ _ F) as [_ [Er _]]. rewrite Er, ex_rot1. unfold looks_left.
    destruct (Rlt_dec 0 (-60)); [lra|]. discriminate.
  - exists row, y, v. tauto.
Qed.

(** C25: more albedo, more light on the ground and on the rows, more sky luminance or
    more light from the model's own sources never give less incident irradiance. *)
Theorem C25_monotone : forall P e0 raw i f r sg e1 e' P' e0' raw' i' f' r' sg' e1' e'' a k s t,
  fast_run P e0 raw i a f r sg e1 e' -> fast_run P' e0' raw' i' a f' r' sg' e1' e'' ->
  chosen e0 a r sg k s -> chosen e0' a r' sg' k s ->
  physical e0 i a t -> DISTANCE_TOLERANCE < s_length s t ->
  let st := pv_store (en_array e') in
  let st' := pv_store (en_array e'') in
  get_vf_ts_pvrow_element k (s_coords s) (ft_rows a) (ft_ground a) (ft_rotation a) (ft_width a) t <> None ->
  0 <= ii_albedo i t <= ii_albedo i' t ->
  (forall rf rf', im_rho_front (en_irr e0) = Some rf -> im_rho_front (en_irr e0') = Some rf' -> 0 <= rf <= rf') ->
  (forall y c x x', in_category a y c -> value_at st y "total_perez" t x -> value_at st' y "total_perez" t x' -> 0 <= x <= x') ->
  irr_sky_luminance f t <= irr_sky_luminance f' t ->
  (forall x x', light_sources (im_kind (en_irr e0)) st s t x -> light_sources (im_kind (en_irr e0')) st' s t x' -> x <= x') ->
  exists q q', value_at st s "qinc" t q /\ value_at st' s "qinc" t q' /\ q <= q'.
Proof.
  intros P e0 raw i f r sg e1 e' P' e0' raw' i' f' r' sg' e1' e'' a k s t H H' C C' (al & SC) LN st st' VN AL RF PZ SK SRC.
  destruct (chosen_value _ _ _ _ _ _ _ _ _ _ H) as (rf & rb & FE & EI & S & Rf & VAL).
  destruct (chosen_value _ _ _ _ _ _ _ _ _ _ H') as (rf' & rb' & FE' & EI' & S' & Rf' & VAL').
  specialize (RF rf rf' Rf Rf').
  assert (Is : In s (all_ts_surfaces a)) by (eapply (VAL k s "sky_term"%string); [exact C | left; reflexivity]).
  set (k0 := im_kind (en_irr e0)) in *. set (k0' := im_kind (en_irr e0')) in *.
  destruct (VAL k s "qinc"%string _ C ltac:(cbn; right; left; reflexivity)) as [_ Q].
  destruct (VAL' k s "qinc"%string _ C' ltac:(cbn; right; left; reflexivity)) as [_ Q'].
  eexists. eexists. split; [eexists; split; [exact Q | reflexivity]|]. split; [eexists; split; [exact Q' | reflexivity]|].
  cbn beta. unfold fa_gs, fa_gi, fa_ps, fa_pi, fa_iso, vf_value.
  assert (Kv : fa_vf a k s t = get_vf_ts_pvrow_element k (s_coords s) (ft_rows a) (ft_ground a) (ft_rotation a) (ft_width a) t) by reflexivity.
  destruct (fa_vf a k s t) as [x|]; [|congruence]. clear VN.
  destruct C as (_ & row & seg & Hr & Hseg & Hj).
  assert (Hs : In s (side_surfaces (row_back row))).
  { unfold side_surfaces. apply in_flat_map. exists seg. split; [|apply in_or_app; exact Hseg].
    destruct (match sg with Some j => Some j | None => en_fast_seg e0 end); [exact (nth_error_In _ _ Hj) | exact Hj]. }
  destruct (C18_surfaces _ _ _ _ t al k row s x SC Hr Hs LN (eq_sym Kv)) as (_ & _ & _ & BD).
  assert (B1 := proj1 (BD _ (or_introl eq_refl))).
  assert (B2 := proj1 (BD _ (or_intror (or_introl eq_refl)))).
  assert (B3 := proj1 (BD _ (or_intror (or_intror (or_introl eq_refl))))).
  assert (B4 := proj1 (BD _ (or_intror (or_intror (or_intror (or_introl eq_refl)))))).
  assert (B5 := proj1 (BD _ (or_intror (or_intror (or_intror (or_intror (or_introl eq_refl))))))).
  assert (NR : ~ In "total_perez"%string run_keys) by (cbn; intuition discriminate).
  assert (PE : forall c y, in_category a y c -> 0 <= cat_perez f c t <= cat_perez f' c t).
  { intros c y Cy. apply (PZ y c); [exact Cy| |].
    - apply (value_back e1 e' y _ t _ S NR). eexists; split; [exact (key_perez _ _ _ _ _ _ _ FE y c Cy) | reflexivity].
    - apply (value_back e1' e'' y _ t _ S' NR). eexists; split; [exact (key_perez _ _ _ _ _ _ _ FE' y c Cy) | reflexivity]. }
  assert (EX : forall c, match c with CGround _ => True | CRow j b _ => j = 0%nat /\ b = false end -> exists y, in_category a y c).
  { clear - FE. pose proof (fe_fit _ _ _ _ _ _ _ FE) as FT. pose proof (fe_valid _ _ _ _ _ _ _ FE) as V.
    pose proof (categories_inhabited _ _ _ _ V FT) as CI. intros [sh|j b sh] H; [exact (CI (CGround sh) I)|]. destruct H as [-> ->].
    apply (CI (CRow 0 false sh)). apply V. }
  assert (P1 : 0 <= irr_gnd_shaded f t <= irr_gnd_shaded f' t) by (destruct (EX (CGround true) I) as [y Cy]; exact (PE _ y Cy)).
  assert (P2 : 0 <= irr_gnd_illum f t <= irr_gnd_illum f' t) by (destruct (EX (CGround false) I) as [y Cy]; exact (PE _ y Cy)).
  assert (P3 : 0 <= irr_pvrow_shaded f t <= irr_pvrow_shaded f' t)
    by (destruct (EX (CRow 0 false true) (conj eq_refl eq_refl)) as [y Cy]; exact (PE _ y Cy)).
  assert (P4 : 0 <= irr_pvrow_illum f t <= irr_pvrow_illum f' t)
    by (destruct (EX (CRow 0 false false) (conj eq_refl eq_refl)) as [y Cy]; exact (PE _ y Cy)).
  assert (SS : fa_sky k0 (pv_store (en_array e1)) s t <= fa_sky k0' (pv_store (en_array e1')) s t).
  { apply SRC.
    - apply (sources_back e1 e' _ _ _ _ S). unfold k0, fa_sky. rewrite <- EI. apply sources_comps. apply (fitted_ready _ _ _ _ _ _ _ FE s Is).
    - apply (sources_back e1' e'' _ _ _ _ S'). unfold k0', fa_sky. rewrite <- EI'. apply sources_comps. apply (fitted_ready _ _ _ _ _ _ _ FE' s Is). }
  destruct (irr_fit_albedo _ _ _ _ (fe_irr _ _ _ _ _ _ _ FE)) as (-> & _).
  destruct (irr_fit_albedo _ _ _ _ (fe_irr _ _ _ _ _ _ _ FE')) as (-> & _).
  assert (M : forall u c c' z z', 0 <= u -> 0 <= c <= c' -> 0 <= z <= z' -> u * c * z <= u * c' * z').
  { intros u c c' z z' U [? ?] [? ?]. rewrite !Rmult_assoc. apply Rmult_le_compat_l; [exact U|].
    apply Rmult_le_compat; assumption. }
  pose proof (M _ _ _ _ _ B1 AL P1). pose proof (M _ _ _ _ _ B2 AL P2).
  pose proof (M _ _ _ _ _ B3 RF P3). pose proof (M _ _ _ _ _ B4 RF P4).
  pose proof (Rmult_le_compat_l _ _ _ B5 SK). lra.
Qed.
Print Assumptions C25_monotone.

(** Concrete case: a fit of the array of three rows, a full run, then the fast mode on the
    back of the middle row. Every hypothesis of the theorems above is met. *)
Example C25_example : forall P kd, exists e1 e' i a f k s v t,
  fast_run P (ex_engine kd default_calculator) ex_raw i a f (Some 1%nat) None e1 e' /\
  chosen (ex_engine kd default_calculator) a (Some 1%nat) None k s /\ (t < ii_n i)%nat /\
  physical (ex_engine kd default_calculator) i a t /\ DISTANCE_TOLERANCE < s_length s t /\
  get_vf_ts_pvrow_element k (s_coords s) (ft_rows a) (ft_ground a) (ft_rotation a) (ft_width a) t = Some v.
Proof.
  intros P kd. set (e0 := ex_engine kd default_calculator).
  destruct (ex_run P kd default_calculator ltac:(discriminate)) as (e & e1 & Fi & Ru). fold e0 in Fi.
  destruct (engine_fit_fitted P e0 ex_raw e ex_valid Fi) as (i & a & f & rf & rb & Hi & FE).
  destruct (ex_physical P kd default_calculator e i a Fi Hi (fe_array _ _ _ _ _ _ _ FE)) as (N & PH).
  assert (EX : exec_all P e [RunFull] = Ok e1) by (cbn; rewrite Ru; reflexivity).
  assert (RU : forallb is_run [RunFull] = true) by reflexivity.
  destruct (proj2 (C25_succeeds P e0 ex_raw e [RunFull] e1 (Some 1%nat) None ex_valid Fi RU EX)) as (e' & RF).
  { exists 1%nat. split; [reflexivity|]. split; [cbn; lia | exact I]. }
  pose proof (run_full_same_fit _ _ Ru) as S1. pose proof (run_fast_same_fit _ _ _ _ RF) as S2.
  pose proof (fe_fit _ _ _ _ _ _ _ FE) as F. unfold fit_of in F. rewrite (proj1 (ProofRun.engine_fit_params _ _ _ _ Fi)) in F.
  assert (F' : fit ex_p 2 ex_f = Some a) by (inversion Hi; subst i; exact F).
  destruct (ex_back a F') as (row & s & v & Hr & Hs & Ln & Hv).
  exists e1, e', i, a, f, 1%nat, s, v, 1%nat.
  split; [split; [exact ex_valid|]; split; [exact Hi|]; split; [exists e, [RunFull]; tauto|]|].
  { rewrite (sf_fitted _ _ S2), (sf_fitted _ _ S1), (sf_irr_fitted _ _ S2), (sf_irr_fitted _ _ S1).
    split; [exact (fe_array _ _ _ _ _ _ _ FE) | exact (fe_irr_fitted _ _ _ _ _ _ _ FE)]. }
  split.
  { split; [reflexivity|]. unfold side_surfaces in Hs. apply in_flat_map in Hs. destruct Hs as (g & Ig & Is).
    exists row, g. split; [exact Hr|]. split; [apply in_app_or; exact Is | exact Ig]. }
  split; [rewrite N; lia|]. split; [apply PH; lia|]. split; assumption.
Qed.

(** The engine of the example has three rows, none of them cut. *)
Example C25_out_of_range_case : forall P kd, exists e e1,
  engine_fit P (ex_engine kd default_calculator) ex_raw = Ok e /\ exec_all P e [RunFull] = Ok e1 /\
  run_fast_mode e1 (Some 3%nat) None = Err IndexError /\ run_fast_mode e1 (Some 1%nat) (Some 1%nat) = Err IndexError /\
  exists e', run_fast_mode e1 (Some 1%nat) None = Ok e'.
Proof.
  intros P kd. set (e0 := ex_engine kd default_calculator).
  destruct (ex_run P kd default_calculator ltac:(discriminate)) as (e & e1 & Fi & Ru). fold e0 in Fi.
  assert (EX : exec_all P e [RunFull] = Ok e1) by (cbn; rewrite Ru; reflexivity).
  assert (RU : forallb is_run [RunFull] = true) by reflexivity.
  exists e, e1. split; [exact Fi|]. split; [exact EX|]. split; [|split].
  - apply (C25_out_of_range P e0 ex_raw e [RunFull] e1 (Some 3%nat) None 3%nat ex_valid Fi RU EX eq_refl). left. cbn. lia.
  - apply (C25_out_of_range P e0 ex_raw e [RunFull] e1 (Some 1%nat) (Some 1%nat) 1%nat ex_valid Fi RU EX eq_refl). right.
    exists 1%nat. split; [reflexivity|]. cbn. lia.
  - apply (proj2 (C25_succeeds P e0 ex_raw e [RunFull] e1 (Some 1%nat) None ex_valid Fi RU EX)).
    exists 1%nat. split; [reflexivity|]. split; [cbn; lia | exact I].
Qed.
