(** C54: the report of the example builder. *)
From Coq Require Import Reals List Bool Arith ZArith String Lra Lia Permutation FunctionalExtensionality.
From Verif Require Import Num ModelTs ModelGeom ModelVF Basics SpecGeom ProofFit ProofIndex ModelParams SpecParams ProofParams PropParams
  ModelIrr SpecIrr ModelAOI ModelLinalg ModelEngine ProofIrr PropIrr ProofEngine PropEngine SpecRun ProofRun PropRun ProofHistory PropGeom PropFast PropFastRun
  ProofLocal ProofLocal2 ProofLocal3 PropLocal ProofKinds PropInit ModelRun PropParallel.
Import ListNotations.
Open Scope R_scope.

(** The keys of the report, and the side and the parameter each is about. *)
Definition report_keys : list (string * bool * string) :=
  [("qinc_front", false, "qinc"); ("qinc_back", true, "qinc"); ("iso_front", false, "isotropic"); ("iso_back", true, "isotropic")]%string.

(** Surfaces of the side of a PV row. *)
Definition of_side (a : fitted) (k : nat) (back : bool) (l : list ts_surface) : Prop :=
  exists row, nth_error (ft_rows a) k = Some row /\ l = side_surfaces (if back then row_back row else row_front row).

Lemma side_category : forall a k back row s, nth_error (ft_rows a) k = Some row ->
  In s (side_surfaces (if back : bool then row_back row else row_front row)) -> exists sh, in_category a s (CRow k back sh).
Proof.
  intros a k back row s R I. unfold side_surfaces in I. apply in_flat_map in I. destruct I as (g & G & I). unfold seg_surfaces in I.
  apply in_app_or in I. destruct I as [I|I]; [exists false | exists true]; exists row, g; repeat split; assumption.
Qed.
Lemma fitted_rows : forall P e i a f rf rb, fitted_engine P e i a f rf rb -> List.length (ft_rows a) = pa_n_pvrows (pv_params (en_array e)).
Proof.
  intros P e i a f rf rb FE. destruct (fit_spec _ _ _ _ (fe_fit _ _ _ _ _ _ _ FE)) as (_ & _ & _ & -> & _). apply fit_rows_length.
Qed.
Lemma row_category_id : forall p n f a x j b sh, fit p n f = Some a -> in_category a x (CRow j b sh) -> exists k sh', s_id x = SidRow j b k sh'.
Proof.
  intros p n f a x j b sh F (row & g & R & G & X). destruct (fit_spec _ _ _ _ F) as (_ & _ & _ & E & _). rewrite E in R. rewrite ProofFit.fit_rows_eq in R. rewrite nth_error_map in R.
  destruct (nth_error (seq 0 (pa_n_pvrows p)) j) as [j'|] eqn:J; [|discriminate]. cbn in R. injection R as R.
  assert (j' = j). { pose proof (nth_error_nth _ _ 0%nat J) as Q. assert (L : (j < pa_n_pvrows p)%nat) by (rewrite <- (seq_length (pa_n_pvrows p) 0); apply nth_error_Some; rewrite J; discriminate). rewrite seq_nth in Q by exact L. cbn in Q. congruence. }
  subst j'.
  assert (I : In (s_id x) (map s_id (side_surfaces (if b then row_back row else row_front row)))).
  { apply in_map. unfold side_surfaces. apply in_flat_map. exists g. split; [exact G|]. unfold seg_surfaces. apply in_or_app. destruct sh; [right|left]; exact X. }
  assert (Q : map s_id (side_surfaces (if b then row_back row else row_front row)) = flat_map (fun i => [SidRow j b i false; SidRow j b i true]) (seq 0 (pa_cut p j b))).
  { rewrite <- R. destruct b; unfold fit_row, pvrow_from_raw_inputs; cbn [row_back row_front]; apply side_ids. }
  rewrite Q in I. apply in_flat_map in I. destruct I as (k & _ & [I|[I|[]]]); eauto.
Qed.

(** C54. After a run in full mode with at least two PV rows, the report has exactly these
    four keys; each list has one value per timestep, in order, and it is the mean of the
    published values over the surfaces of that side of the second PV row, weighted by
    their lengths. *)
Theorem C54_report : forall P s raw i a f e',
  full_run P (new_engine s) raw i a f e' -> si_fast_row s = None -> (2 <= pa_n_pvrows (si_array s))%nat ->
  exists r, run_timeseries_engine P example_fn_build_report s raw = Ok r /\
    map fst r = map (fun x => fst (fst x)) report_keys /\
    forall key back name, In (key, back, name) report_keys ->
    exists vs surfs, In (key, vs) r /\ List.length vs = ii_n i /\ of_side a 1 back surfs /\
    forall t, (t < ii_n i)%nat -> 0 < total (fun x => s_length x t) surfs ->
    exists q, (forall x, In x surfs -> value_at (pv_store (en_array e')) x name t (q x)) /\
      is_weighted_average surfs (fun x => s_length x t) q (nth t vs 0).
Proof.
  intros P s raw i a f e' FR FM NR. pose proof FR as (V & Hi & (e & F & R) & A & _).
  destruct (engine_fit_fitted P (new_engine s) raw e V F) as (i' & a' & f' & rf & rb & Hi' & FE). assert (i' = i) by congruence. subst i'.
  pose proof (run_full_same_fit _ _ R) as SF. pose proof (fe_array _ _ _ _ _ _ _ (same_fit_fitted _ _ _ _ _ _ _ _ SF FE)) as A2.
  assert (a' = a) by congruence. subst a'. pose proof (fe_n _ _ _ _ _ _ _ FE) as N.
  assert (RW : exists row, nth_error (ft_rows a) 1 = Some row).
  { destruct (nth_error (ft_rows a) 1) as [row|] eqn:E; [exists row; reflexivity|]. exfalso. apply nth_error_None in E.
    pose proof (fitted_rows _ _ _ _ _ _ _ FE) as L. destruct (engine_fit_params _ _ _ _ F) as [Q _]. rewrite Q in L. cbn in L. lia. }
  destruct RW as [row RW]. set (st := pv_store (en_array e')).
  assert (NUM : forall back name x, In name ["qinc"; "isotropic"]%string -> In x (side_surfaces (if back : bool then row_back row else row_front row)) -> get_param st x name = Ok (PArr (num_of st x name))).
  { intros back name x NM I. destruct (side_category a 1 back row x RW I) as [sh C].
    destruct (C22_components P (new_engine s) raw i a f e' 0 x FR (category_surface _ _ _ C)) as (src & iso & refl & _ & (v1 & V1 & _) & _ & (v2 & V2 & _)).
    fold st in V1, V2. destruct NM as [<-|[<-|[]]]; [apply (numeric_intro _ _ _ _ V2) | apply (numeric_intro _ _ _ _ V1)]. }
  assert (W : forall back name, In name ["qinc"; "isotropic"]%string -> exists v, row_side_weighted (en_array e') 1 back name = Ok v /\
    forall t, 0 < total (fun x => s_length x t) (side_surfaces (if back : bool then row_back row else row_front row)) ->
    is_weighted_average (side_surfaces (if back : bool then row_back row else row_front row)) (fun x => s_length x t) (fun x => num_of st x name t) (v t)).
  { intros back name NM. unfold row_side_weighted. rewrite A2, RW. fold st.
    destruct (proj2 (proj2 (C36_additive st name (fun x => num_of st x name) 0))) as [Q _].
    destruct (Q (if back then row_back row else row_front row)) as (w & ws & W & _); [intros x I; apply (NUM back name x NM I)|].
    unfold side_param_weighted. rewrite W. cbn [bind]. eexists. split; [reflexivity|]. intros t T.
    destruct (C36_collections st name (fun x => num_of st x name) t) as (_ & _ & CC).
    destruct (CC (if back then row_back row else row_front row) (fun x I => NUM back name x NM I) T) as (z & Z & AV & _).
    unfold side_param_weighted in Z. rewrite W in Z. cbn [bind] in Z. injection Z as <-. exact AV. }
  destruct (W false "qinc"%string) as (v1 & W1 & Z1); [cbn; tauto|]. destruct (W true "qinc"%string) as (v2 & W2 & Z2); [cbn; tauto|].
  destruct (W false "isotropic"%string) as (v3 & W3 & Z3); [cbn; tauto|]. destruct (W true "isotropic"%string) as (v4 & W4 & Z4); [cbn; tauto|].
  eexists. split; [|split].
  - unfold run_timeseries_engine. rewrite F. cbn [bind]. rewrite FM, R. cbn [bind]. unfold example_fn_build_report. rewrite W1, W2, W3, W4. reflexivity.
  - reflexivity.
  - unfold to_list. rewrite A2, N. intros key back name I.
    assert (G : forall v b m, (In m ["qinc"; "isotropic"]%string) ->
      (forall t, 0 < total (fun x => s_length x t) (side_surfaces (if b : bool then row_back row else row_front row)) ->
         is_weighted_average (side_surfaces (if b : bool then row_back row else row_front row)) (fun x => s_length x t) (fun x => num_of st x m t) (v t)) ->
      List.length (map v (seq 0 (ii_n i))) = ii_n i /\ of_side a 1 b (side_surfaces (if b : bool then row_back row else row_front row)) /\
      forall t, (t < ii_n i)%nat -> 0 < total (fun x => s_length x t) (side_surfaces (if b : bool then row_back row else row_front row)) ->
      exists q, (forall x, In x (side_surfaces (if b : bool then row_back row else row_front row)) -> value_at st x m t (q x)) /\
        is_weighted_average (side_surfaces (if b : bool then row_back row else row_front row)) (fun x => s_length x t) q (nth t (map v (seq 0 (ii_n i))) 0)).
    { intros v b m M Z. split; [rewrite map_length, seq_length; reflexivity|]. split; [exists row; split; [exact RW | reflexivity]|].
      intros t T L. exists (fun x => num_of st x m t). split; [intros x I0; exists (num_of st x m); split; [apply (NUM b m x M I0) | reflexivity]|].
      rewrite nth_indep with (d' := v 0%nat) by (rewrite map_length, seq_length; exact T). rewrite map_nth, seq_nth by exact T. apply Z, L. }
    cbn in I. destruct I as [I|[I|[I|[I|[]]]]]; injection I as <- <- <-.
    + eexists _, _. split; [left; reflexivity | apply (G v1 false "qinc"%string); [cbn; tauto | exact Z1]].
    + eexists _, _. split; [right; left; reflexivity | apply (G v2 true "qinc"%string); [cbn; tauto | exact Z2]].
    + eexists _, _. split; [right; right; left; reflexivity | apply (G v3 false "isotropic"%string); [cbn; tauto | exact Z3]].
    + eexists _, _. split; [right; right; right; left; reflexivity | apply (G v4 true "isotropic"%string); [cbn; tauto | exact Z4]].
Qed.

(** With a single PV row the builder raises [IndexError]; no PV row at index 1. *)
Theorem C54_one_row : forall P s raw i a f e',
  full_run P (new_engine s) raw i a f e' -> si_fast_row s = None -> (pa_n_pvrows (si_array s) <= 1)%nat ->
  run_timeseries_engine P example_fn_build_report s raw = Err IndexError.
Proof.
  intros P s raw i a f e' (V & Hi & (e & F & R) & A & _) FM NR.
  destruct (engine_fit_fitted P (new_engine s) raw e V F) as (i' & a' & f' & rf & rb & Hi' & FE).
  pose proof (run_full_same_fit _ _ R) as SF. pose proof (fe_array _ _ _ _ _ _ _ (same_fit_fitted _ _ _ _ _ _ _ _ SF FE)) as A2.
  assert (a' = a) by congruence. subst a'.
  assert (RW : nth_error (ft_rows a) 1 = None).
  { apply nth_error_None. pose proof (fitted_rows _ _ _ _ _ _ _ FE) as L. destruct (engine_fit_params _ _ _ _ F) as [Q _]. rewrite Q in L. cbn in L. lia. }
  unfold run_timeseries_engine. rewrite F. cbn [bind]. rewrite FM, R. cbn [bind]. unfold example_fn_build_report, row_side_weighted. rewrite A2, RW. reflexivity.
Qed.

Lemma fit_no_qinc : forall P s raw e a x c, valid_params (si_array s) -> engine_fit P (new_engine s) raw = Ok e -> pv_fitted (en_array e) = Some a ->
  in_category a x c -> get_param (pv_store (en_array e)) x "qinc" = Err KeyError.
Proof.
  intros P s raw e a x c V H A C. unfold engine_fit in H. apply bind_ok in H. destruct H as (ii & _ & H).
  destruct (engine_fit_arrays_inv _ _ _ _ H) as (a' & f & st & cc & rf & rb & F & _ & Rf & Rb & T & _ & ->). cbn in A. injection A as ->.
  destruct (transform_store _ _ _ _ (en_irr (new_engine s)) rf rb f (fresh_store (pv_param_names (en_array (new_engine s)))) V F Rf Rb) as (q & Q & QS).
  assert (q = st) by congruence. subst q. unfold get_param. cbn [en_array pv_store]. rewrite (QS x c _ C), overlay_none; [reflexivity|].
  unfold cat_dict. destruct (im_kind (en_irr (new_engine s))), c as [[]|? [] []]; cbn; intuition discriminate.
Qed.

(** The documentation says "with full or fast mode simulations" (report.py:5-7). In fast mode
    the builder always fails: the front of the PV rows has no ["qinc"]. *)
Theorem C54_fast_mode_refuted : forall P s raw k r,
  valid_params (si_array s) -> si_fast_row s = Some k ->
  run_timeseries_engine P example_fn_build_report s raw <> Ok r.
Proof.
  intros P s raw k r V FM H. unfold run_timeseries_engine in H. rewrite FM in H. apply bind_ok in H. destruct H as (e & F & H).
  apply bind_ok in H. destruct H as (e' & R & H). unfold example_fn_build_report in H. apply bind_ok in H. destruct H as (v & W & _).
  destruct (engine_fit_fitted P (new_engine s) raw e V F) as (i & a & f & rf & rb & Hi & FE).
  pose proof (run_fast_same_fit _ _ _ _ R) as SF. pose proof (same_fit_fitted _ _ _ _ _ _ _ _ SF FE) as FE'.
  assert (FR : fast_run P (new_engine s) raw i a f None None e e').
  { split; [exact V|]. split; [exact Hi|]. split; [exists e, []; repeat split; auto|]. split; [exact (fe_array _ _ _ _ _ _ _ FE') | exact (fe_irr_fitted _ _ _ _ _ _ _ FE')]. }
  unfold row_side_weighted in W. rewrite (fe_array _ _ _ _ _ _ _ FE') in W. destruct (nth_error (ft_rows a) 1) as [row|] eqn:RW; [|discriminate].
  unfold side_param_weighted in W. apply bind_ok in W. destruct W as (w & W & _).
  assert (LT : (1 < pa_n_pvrows (si_array s))%nat).
  { assert (L : (1 < List.length (ft_rows a))%nat) by (apply nth_error_Some; rewrite RW; discriminate).
    rewrite (fitted_rows _ _ _ _ _ _ _ FE) in L. destruct (engine_fit_params _ _ _ _ F) as [Q _]. rewrite Q in L. exact L. }
  pose proof (fe_fit _ _ _ _ _ _ _ FE) as FF. destruct (engine_fit_params _ _ _ _ F) as [Q _]. rewrite Q in FF.
  destruct (categories_inhabited _ _ _ _ V FF (CRow 1 false false) LT) as (x & C).
  pose proof C as (row' & g & R' & G & X). assert (row' = row) by congruence. subst row'.
  destruct (proj1 (proj2 (proj2 (C36_all_surfaces_needed (pv_store (en_array e')) "qinc" w))) (row_front row) x W) as (z & Z).
  { exists g. split; [exact G|]. left. exact X. }
  destruct (C25_nothing_else _ _ _ _ _ _ _ _ _ _ FR) as (NE & _). rewrite (NE x _ (category_surface _ _ _ C)) in Z.
  - rewrite (fit_no_qinc P s raw e a x _ V F (fe_array _ _ _ _ _ _ _ FE) C) in Z. discriminate.
  - intros j (_ & row2 & g2 & R2 & I2 & CH).
    assert (C2 : exists sh, in_category a x (CRow j true sh)).
    { assert (G2 : In g2 (side_segments (row_back row2))) by (cbn in CH; destruct (si_fast_seg s); [apply nth_error_In in CH|]; exact CH).
      destruct I2 as [I2|I2]; [exists false | exists true]; exists row2, g2; repeat split; assumption. }
    destruct C2 as [sh C2]. destruct (row_category_id _ _ _ _ _ _ _ _ FF C) as (k1 & s1 & E1).
    destruct (row_category_id _ _ _ _ _ _ _ _ FF C2) as (k2 & s2 & E2). congruence.
Qed.

(** Five timesteps, in one process and in three. *)
Example C54_example : forall P k, exists i a f e' r,
  full_run P (new_engine (px_sim k None)) ex_raw i a f e' /\ (2 <= pa_n_pvrows (si_array (px_sim k None)))%nat /\
  run_timeseries_engine P example_fn_build_report (px_sim k None) ex_raw = Ok r.
Proof.
  intros P k. destruct (fx_engine_fit P k ex_raw ex_raw_shaped) as [e F]. destruct (fx_full P k e F) as [e' R].
  destruct (engine_fit_fitted P (fx_engine k) ex_raw e fx_valid F) as (i & a & f & rf & rb & Hi & FE).
  pose proof (same_fit_fitted _ _ _ _ _ _ _ _ (run_full_same_fit _ _ R) FE) as FE'.
  assert (FR : full_run P (new_engine (px_sim k None)) ex_raw i a f e').
  { split; [exact fx_valid|]. split; [exact Hi|]. split; [exists e; split; assumption|]. split; [exact (fe_array _ _ _ _ _ _ _ FE') | exact (fe_irr_fitted _ _ _ _ _ _ _ FE')]. }
  destruct (C54_report P (px_sim k None) ex_raw i a f e' FR eq_refl) as (r & H & _); [cbn; lia|].
  exists i, a, f, e', r. split; [exact FR|]. split; [cbn; lia | exact H].
Qed.

(** Reports are merged key by key, with the keys of the first one: a key that another one does
    not have is a [KeyError], and nothing else goes wrong. *)
Lemma lookup_ok : forall r k, In k (map fst r) -> exists v, lookup r k = Ok v.
Proof.
  induction r as [|[k' v] r IH]; intros k I; [destruct I|]. cbn [lookup].
  destruct (String.eqb_spec k k') as [->|N]; [eauto|]. destruct I as [I|I]; [cbn in I; congruence|]. apply IH. exact I.
Qed.
Lemma lookup_missing : forall r k, ~ In k (map fst r) -> lookup r k = Err KeyError.
Proof.
  induction r as [|[k' v] r IH]; intros k I; [reflexivity|]. cbn [lookup].
  destruct (String.eqb_spec k k') as [->|N]; [exfalso; apply I; left; reflexivity|]. apply IH. intro K. apply I. right. exact K.
Qed.
Lemma extend_keys : forall r o, (exists r', extend_report r o = Ok r' /\ map fst r' = map fst r) \/ extend_report r o = Err KeyError.
Proof.
  intros r o. unfold extend_report. induction r as [|[k v] r IH]; [left; exists []; split; reflexivity|].
  cbn [map_result fst snd]. destruct (lookup o k) as [w|e] eqn:L.
  - cbn [bind]. destruct IH as [(r' & -> & E)| ->]; [left; cbn [bind]; eexists; split; [reflexivity|]; cbn; congruence | right; reflexivity].
  - right. cbn [bind]. destruct (in_dec string_dec k (map fst o)) as [I|N].
    + destruct (lookup_ok o k I) as [w W]. rewrite L in W. discriminate.
    + rewrite lookup_missing in L by exact N. injection L as <-. reflexivity.
Qed.
Lemma extend_error : forall r o, extend_report r o = Err KeyError <-> exists k, In k (map fst r) /\ ~ In k (map fst o).
Proof.
  intros r o. unfold extend_report. induction r as [|[k v] r IH]; cbn [map_result map fst snd]; [split; [discriminate | intros (k & [] & _)]|].
  destruct (in_dec string_dec k (map fst o)) as [I|N].
  - destruct (lookup_ok o k I) as [w ->]. cbn [bind].
    destruct (extend_keys r o) as [(r' & E & _)|E]; unfold extend_report in E; rewrite E in *; cbn [bind].
    + split; [discriminate|]. intros (k' & [<-|J] & M); [contradiction|]. exfalso. assert (X : Ok r' = Err KeyError) by (apply IH; eauto). discriminate.
    + split; [|reflexivity]. intros _. destruct (proj1 IH eq_refl) as (k' & J & M). exists k'. split; [right; exact J | exact M].
  - rewrite lookup_missing by exact N. cbn [bind]. split; [|reflexivity]. intros _. exists k. split; [left; reflexivity | exact N].
Qed.
Theorem C54_merge_keys : forall r others,
  (merge_reports (r :: others) = Err KeyError <-> exists o k, In o others /\ In k (map fst r) /\ ~ In k (map fst o)) /\
  ((exists r', merge_reports (r :: others) = Ok r' /\ map fst r' = map fst r) <->
   forall o k, In o others -> In k (map fst r) -> In k (map fst o)).
Proof.
  intros r others. cbn [merge_reports].
  assert (A : (fold_result extend_report others r = Err KeyError /\ exists o k, In o others /\ In k (map fst r) /\ ~ In k (map fst o)) \/
    ((exists r', fold_result extend_report others r = Ok r' /\ map fst r' = map fst r) /\ forall o k, In o others -> In k (map fst r) -> In k (map fst o))).
  { revert r. induction others as [|o others IH]; intro r; cbn [fold_result].
    - right. split; [eauto | intros o k []].
    - destruct (extend_keys r o) as [(r' & E & KE)|E]; rewrite E; cbn [bind].
      + destruct (IH r') as [[F (o' & k & Io & Ik & N)]|[(r'' & F & KF) K]].
        * left. split; [exact F|]. exists o', k. rewrite KE in Ik. split; [right; exact Io | tauto].
        * right. split; [exists r''; split; [exact F | congruence]|]. intros o' k [<-|Io] Ik.
          -- destruct (in_dec string_dec k (map fst o)) as [I|N]; [exact I|]. exfalso.
             assert (X : extend_report r o = Err KeyError) by (apply extend_error; eauto). congruence.
          -- apply (K o' k Io). rewrite KE. exact Ik.
      + left. split; [reflexivity|]. apply extend_error in E. destruct E as (k & Ik & N). exists o, k. split; [left; reflexivity | tauto]. }
  destruct A as [[F X]|[(r' & F & KF) K]]; rewrite F.
  - split; [tauto|]. split; [intros (r' & D & _); discriminate|]. intro K. destruct X as (o & k & Io & Ik & N). exfalso. apply N. eauto.
  - split; [split; [discriminate|]; intros (o & k & Io & Ik & N); exfalso; apply N; eauto|]. split; [intros _; exact K | eauto].
Qed.
Example C54_merge_keys_case :
  merge_reports [[("a", [1]); ("b", [2])]; [("b", [3]); ("a", [4]); ("c", [])]]%string = Ok [("a", [1; 4]); ("b", [2; 3])]%string /\
  merge_reports [[("a", [1]); ("b", [2])]; [("b", [3])]]%string = Err KeyError.
Proof. split; reflexivity. Qed.

Print Assumptions C54_report.
Print Assumptions C54_one_row.
Print Assumptions C54_fast_mode_refuted.
Print Assumptions C54_merge_keys.
