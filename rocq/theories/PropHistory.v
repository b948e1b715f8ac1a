(** Properties of histories of calls on one engine object: statements, with examples
    that meet the hypotheses. *)
From Coq Require Import Reals List Bool Arith String Lra Lia FunctionalExtensionality.
From Verif Require Import Num ModelTs ModelGeom ModelVF Basics SpecGeom ProofFit ProofIndex PropGeom ModelLinalg ProofLinalg SpecEngine ModelParams SpecParams ProofParams ModelIrr SpecIrr ProofIrr ModelAOI ModelEngine SpecRun ProofEngine PropEngine ProofRun PropRun ProofHistory PropFastRun.
Import ListNotations.
Open Scope R_scope.

(** Everything that can be read on two engines is the same, apart from the view factor
    matrices: geometry, parameters of all surfaces, fitted irradiance model, AOI tables,
    number of points, flags, constructor arguments. *)
Definition same_state (e e' : engine) : Prop :=
  pv_params (en_array e') = pv_params (en_array e) /\
  pv_param_names (en_array e') = pv_param_names (en_array e) /\
  pv_fitted (en_array e') = pv_fitted (en_array e) /\
  pv_store (en_array e') = pv_store (en_array e) /\
  en_irr e' = en_irr e /\ en_irr_fitted e' = en_irr_fitted e /\
  ca_aoi (en_calc e') = ca_aoi (en_calc e) /\ ca_aoi_fitted (en_calc e') = ca_aoi_fitted (en_calc e) /\
  en_fast_row e' = en_fast_row e /\ en_fast_seg e' = en_fast_seg e /\
  en_n_points e' = en_n_points e /\ en_skip e' = en_skip e.

(** The view factor matrices found on the PV array and on the calculator. *)
Definition deref (e : engine) (r : option nat) : option (ts (nat -> nat -> R)) :=
  match r with Some k => Some (hp_get (en_heap e) k) | None => None end.
Definition same_matrices (e e' : engine) : Prop :=
  deref e' (pv_vf (en_array e')) = deref e (pv_vf (en_array e)) /\
  deref e' (pv_vf_aoi (en_array e')) = deref e (pv_vf_aoi (en_array e)) /\
  deref e' (ca_vf (en_calc e')) = deref e (ca_vf (en_calc e)) /\
  deref e' (ca_vf_aoi (en_calc e')) = deref e (ca_vf_aoi (en_calc e)).

(** Two calls end in the same way: same error, or same state, and the same matrices if
    [m] holds. *)
Definition same_end (m : Prop) (x y : result engine) : Prop :=
  match x, y with
  | Ok e, Ok e' => same_state e e' /\ (m -> same_matrices e e')
  | Err a, Err b => a = b
  | _, _ => False
  end.

(** Constructor arguments, which no call changes. *)
Definition same_args (e e' : engine) : Prop :=
  pv_params (en_array e') = pv_params (en_array e) /\
  pv_param_names (en_array e') = pv_param_names (en_array e) /\
  en_irr e' = en_irr e /\
  ca_aoi (en_calc e') = ca_aoi (en_calc e) /\
  (ca_aoi (en_calc e) = None -> ca_aoi_fitted (en_calc e') = ca_aoi_fitted (en_calc e)) /\
  en_fast_row e' = en_fast_row e /\ en_fast_seg e' = en_fast_seg e.

Lemma same_args_trans : forall e1 e2 e3, same_args e1 e2 -> same_args e2 e3 -> same_args e1 e3.
Proof.
  intros e1 e2 e3 (A1 & A2 & A3 & A4 & A5 & A6 & A7) (B1 & B2 & B3 & B4 & B5 & B6 & B7).
  repeat split; try congruence. intro N. rewrite B5 by congruence. auto.
Qed.

Lemma same_fit_args : forall e e', same_fit e e' -> same_args e e'.
Proof. intros e e' []. repeat split; auto. Qed.

Lemma calculator_fit_inv : forall c c', calculator_fit c = Ok c' ->
  ca_aoi c' = ca_aoi c /\ (ca_aoi c = None -> c' = c).
Proof.
  intros c c' H. unfold calculator_fit in H. destruct (ca_aoi c) as [m|] eqn:E.
  - apply bind_ok in H. destruct H as (x & _ & H). inversion H; subst. cbn. split; [reflexivity | discriminate].
  - inversion H; subst. split; [exact E | reflexivity].
Qed.

Lemma fit_args : forall P e i e', engine_fit P e i = Ok e' -> same_args e e'.
Proof.
  intros P e i e' H. unfold engine_fit in H. apply bind_ok in H. destruct H as (j & _ & H).
  destruct (engine_fit_arrays_inv _ _ _ _ H) as (a & f & st & c & rf & rb & _ & _ & _ & _ & _ & C & ->).
  destruct (calculator_fit_inv _ _ C) as [E N]. repeat split; cbn; auto. intro K. rewrite (N K). reflexivity.
Qed.

Lemma exec_args : forall P l e e', exec_all P e l = Ok e' -> same_args e e'.
Proof.
  intros P l. induction l as [|c l IH]; intros e e' H; cbn [exec_all] in H.
  - inversion H; subst. repeat split; auto.
  - apply bind_ok in H. destruct H as (e1 & A & B). apply (same_args_trans _ e1); [|apply IH; exact B].
    destruct c; cbn [exec] in A; [apply (fit_args _ _ _ _ A) | apply same_fit_args, run_full_same_fit, A
      | apply same_fit_args, (run_fast_same_fit _ _ _ _ A)].
Qed.

Lemma fit_same_end : forall P e e' i, same_args e e' -> same_end (same_matrices e e') (engine_fit P e i) (engine_fit P e' i).
Proof.
  intros P e e' i (A1 & A2 & A3 & A4 & A5 & A6 & A7). unfold engine_fit.
  destruct (format_inputs i) as [j|x]; cbn [bind same_end]; [|reflexivity].
  unfold engine_fit_arrays, pvarray_fit. rewrite A1, A2, A3.
  destruct (fit (pv_params (en_array e)) (ii_n j) _) as [a|]; cbn [bind]; [|reflexivity].
  destruct (irr_fit P (en_irr e) j) as [f|x]; cbn [bind pv_fitted pv_store]; [|reflexivity].
  destruct (irr_transform (en_irr e) f a _) as [st|x]; cbn [bind]; [|reflexivity].
  unfold calculator_fit. rewrite A4. destruct (ca_aoi (en_calc e)) as [m|] eqn:E.
  - destruct (aoi_fit m) as [af|x]; cbn [bind same_end]; [|reflexivity].
    split; [repeat split; cbn; auto | intro M; exact M].
  - cbn [bind same_end]. split; [repeat split; cbn; auto; congruence | intro M; exact M].
Qed.

Lemma same_state_heap : forall e e', same_state e e' -> exists v va cv cva h,
  e' = Engine (PVArray (pv_params (en_array e)) (pv_param_names (en_array e)) (pv_fitted (en_array e))
                 (pv_store (en_array e)) v va) (en_irr e) (en_irr_fitted e)
        (Calculator (ca_aoi (en_calc e)) (ca_aoi_fitted (en_calc e)) cv cva)
        (en_fast_row e) (en_fast_seg e) (en_n_points e) (en_skip e) h.
Proof.
  intros e [[p n f s v va] i fi [ca caf cv cva] r sg np sk h] H. unfold same_state in H; cbn in H.
  destruct H as (-> & -> & -> & -> & -> & -> & -> & -> & -> & -> & -> & ->). exists v, va, cv, cva, h. reflexivity.
Qed.

Lemma full_same_end : forall e e', same_state e e' -> same_end True (run_full_mode e) (run_full_mode e').
Proof.
  intros e e' H. destruct (same_state_heap _ _ H) as (v & va & cv & cva & h & ->).
  unfold run_full_mode. cbn [en_array pv_fitted en_irr_fitted en_irr pv_store en_calc en_heap].
  destruct (pv_fitted (en_array e)) as [a|] eqn:EA; [|reflexivity].
  destruct (en_irr_fitted e) as [f|] eqn:EF; [|reflexivity].
  destruct (full_ts_modeling_vectors _ _ _ _) as [[[[irr rho] invrho] tot]|x]; cbn [bind]; [|reflexivity].
  unfold heap_alloc. cbn [hp_get]. rewrite !Nat.eqb_refl.
  destruct (inv_stack _ _ _) as [inv|x]; cbn [bind]; [|reflexivity].
  unfold build_vf_aoi. cbn [ca_aoi ca_aoi_fitted].
  destruct (ca_aoi (en_calc e)) as [m|] eqn:EC.
  - destruct (ca_aoi_fitted (en_calc e)) as [af|] eqn:ED; cbn [bind]; [|reflexivity].
    unfold heap_write. cbn [hp_get]. rewrite !Nat.eqb_refl.
    destruct (summed_absorbed _ _ _) as [ab|x]; cbn [bind same_end]; [|reflexivity].
    split.
    + repeat split; cbn; auto.
    + intros _. unfold same_matrices, deref. cbn [en_array pv_vf pv_vf_aoi en_calc ca_vf ca_vf_aoi en_heap hp_get].
      rewrite !Nat.eqb_refl. repeat split.
  - cbn [bind]. unfold heap_alloc. cbn [hp_get hp_next fst snd]. rewrite !Nat.eqb_refl.
    destruct (summed_absorbed _ _ _) as [ab|x]; cbn [bind same_end]; [|reflexivity].
    split.
    + repeat split; cbn; auto.
    + intros _. unfold same_matrices, deref. cbn [en_array pv_vf pv_vf_aoi en_calc ca_vf ca_vf_aoi en_heap hp_get].
      assert (N : forall x, Nat.eqb x (S x) = false) by (intro x; apply Nat.eqb_neq; lia).
      rewrite !Nat.eqb_refl, !N. repeat split.
Qed.

Lemma fast_same_end : forall e e' r s, same_state e e' ->
  same_end (same_matrices e e') (run_fast_mode e r s) (run_fast_mode e' r s).
Proof.
  intros e e' r s H. destruct (same_state_heap _ _ H) as (v & va & cv & cva & h & ->).
  unfold run_fast_mode. cbn [en_array pv_fitted en_irr_fitted en_irr pv_store en_calc en_heap en_fast_row en_fast_seg].
  destruct (pv_fitted (en_array e)) as [a|] eqn:EA; [|reflexivity].
  destruct (en_irr_fitted e) as [f|] eqn:EF; [|reflexivity].
  destruct (match r with Some k => Some k | None => en_fast_row e end) as [k|]; [|reflexivity].
  destruct (list_get (ft_rows a) k) as [row|x]; cbn [bind]; [|reflexivity].
  match goal with |- context [bind ?m _] => destruct m as [st|x] end; cbn [bind same_end]; [|reflexivity].
  split; [repeat split; cbn; auto|]. intro M. exact M.
Qed.


Lemma same_state_args : forall e e', same_state e e' -> same_args e e'.
Proof. intros e e' H. unfold same_state in H. repeat split; tauto. Qed.

Lemma same_end_weaken : forall (m m' : Prop) x y, (m' -> m) -> same_end m x y -> same_end m' x y.
Proof. intros m m' [e|a] [e'|b] H; cbn [same_end]; auto. intros [A B]. split; auto. Qed.

Lemma exec_same_end : forall P l e e' (m : Prop), same_state e e' -> (m -> same_matrices e e') ->
  same_end (m \/ In RunFull l) (exec_all P e l) (exec_all P e' l).
Proof.
  intros P l. induction l as [|c l IH]; intros e e' m S M; cbn [exec_all].
  - cbn [same_end In]. split; [exact S|]. intros [H|[]]. auto.
  - assert (B : same_end (m \/ c = RunFull) (exec P e c) (exec P e' c)).
    { destruct c; cbn [exec].
      - apply (same_end_weaken (same_matrices e e')); [intros [H|H]; [auto|discriminate]|].
        apply fit_same_end, same_state_args, S.
      - apply (same_end_weaken True); [auto | apply full_same_end, S].
      - apply (same_end_weaken (same_matrices e e')); [intros [H|H]; [auto|discriminate]|].
        apply fast_same_end, S. }
    destruct (exec P e c) as [e1|x], (exec P e' c) as [e1'|y]; cbn [same_end bind] in *; try contradiction; [|exact B].
    destruct B as [B1 B2]. apply (same_end_weaken ((m \/ c = RunFull) \/ In RunFull l)).
    + cbn [In]. tauto.
    + apply IH; assumption.
Qed.

(** C26. After any history of calls, with any inputs, a fit and the calls that follow end
    as they would on the engine as it was built: same errors, same values everywhere, and
    the same matrices as soon as a full mode run follows the fit. *)
Theorem C26_last_fit : forall P e0 history e raw calls,
  exec_all P e0 history = Ok e ->
  same_end (In RunFull calls) (exec_all P e0 (Fit raw :: calls)) (exec_all P e (Fit raw :: calls)).
Proof.
  intros P e0 history e raw calls H. cbn [exec_all exec].
  pose proof (fit_same_end P e0 e raw (exec_args _ _ _ _ H)) as F.
  destruct (engine_fit P e0 raw) as [e1|x], (engine_fit P e raw) as [e1'|y]; cbn [same_end bind] in *;
    try contradiction; [|exact F].
  destruct F as [S _]. apply (same_end_weaken (False \/ In RunFull calls)); [tauto|].
  apply exec_same_end; [exact S | intros []].
Qed.

(** A history in which calls may raise. A call that raises keeps the arguments that the
    engine, the array, the irradiance model and the calculator were made with, which no
    method assigns, and may leave anything in all their other attributes (this covers what
    fit and the runs write before they raise: engine.py:152-175, 204-261, 300-382). *)
Inductive attempts (P : pvlib) : engine -> list call -> engine -> Prop :=
| attempts_none : forall e, attempts P e [] e
| attempts_done : forall e c e1 l e2, exec P e c = Ok e1 -> attempts P e1 l e2 -> attempts P e (c :: l) e2
| attempts_raised : forall e c x e1 l e2, exec P e c = Err x -> same_args e e1 ->
    attempts P e1 l e2 -> attempts P e (c :: l) e2.

Theorem C26_failures : forall P e0 history e raw calls,
  attempts P e0 history e ->
  same_end (In RunFull calls) (exec_all P e0 (Fit raw :: calls)) (exec_all P e (Fit raw :: calls)).
Proof.
  intros P e0 history e raw calls H.
  assert (A : same_args e0 e).
  { induction H as [e | e c e1 l e2 E _ IH | e c x e1 l e2 _ A _ IH].
    - unfold same_args. repeat split; auto.
    - apply (same_args_trans e e1); [|exact IH]. apply (exec_args P [c] e e1). cbn [exec_all]. rewrite E. reflexivity.
    - exact (same_args_trans e e1 e2 A IH). }
  cbn [exec_all exec]. pose proof (fit_same_end P e0 e raw A) as F.
  destruct (engine_fit P e0 raw) as [e1|x], (engine_fit P e raw) as [e1'|y]; cbn [same_end bind] in *;
    try contradiction; [|exact F].
  destruct F as [S _]. apply (same_end_weaken (False \/ In RunFull calls)); [tauto|].
  apply exec_same_end; [exact S | intros []].
Qed.
Print Assumptions C26_failures.

(* ----------------------------------------------------------------- repeated runs *)

(** The store [st'] is [st] where the surfaces of [l] were given the values [D]. *)
Definition overlaid (l : list ts_surface) (D : ts_surface -> dict) (st st' : pstore) : Prop :=
  (forall s k, In s l -> ps_surf st' (s_id s) k = overlay (D s) k (ps_surf st (s_id s) k)) /\
  (forall x, ~ In x (map s_id l) -> ps_surf st' x = ps_surf st x) /\
  ps_ground st' = ps_ground st /\ ps_element st' = ps_element st.

(** Position of a surface, to index the results of a full run. *)
Fixpoint place (l : list ts_surface) (x : sid) : nat :=
  match l with
  | [] => 0
  | s :: r => if sid_eq_dec (s_id s) x then 0 else S (place r x)
  end.
Lemma place_nth : forall l s, In s l -> exists s', nth_error l (place l (s_id s)) = Some s' /\ s_id s' = s_id s.
Proof.
  induction l as [|y l IH]; intros s []; cbn [place].
  - subst y. destruct (sid_eq_dec (s_id s) (s_id s)); [|congruence]. exists s. split; reflexivity.
  - destruct (sid_eq_dec (s_id y) (s_id s)) as [E|N]; [exists y; split; [reflexivity | exact E]|]. apply IH; assumption.
Qed.

Lemma write_results_overlaid : forall st surfs q0 qinc iso refl qabs, NoDup (map s_id surfs) ->
  overlaid surfs (fun s => let j := place surfs (s_id s) in
      [("q0", PArr (q0 j)); ("qinc", PArr (qinc j)); ("isotropic", PArr (iso j));
       ("reflection", PArr (refl j)); ("qabs", PArr (qabs j))]%string)
    st (write_results st surfs q0 qinc iso refl qabs).
Proof.
  intros st surfs q0 qinc iso refl qabs N. split; [|split; [|apply write_results_dicts]].
  - intros s k I. cbv zeta. destruct (place_nth surfs s I) as (s' & E & Ei).
    set (j := place surfs (s_id s)) in *. clearbody j. rewrite <- Ei.
    rewrite write_results_hist. apply history_once with (p := PartSurface s').
    + rewrite result_hist_ids. exact N.
    + unfold result_hist. apply in_map_iff. exists (j, s'). split; [reflexivity|].
      exact (in_combine_nth _ _ 0%nat _ s' E).
    + left; reflexivity.
  - intros x X. apply functional_extensionality. intro k. rewrite write_results_hist.
    apply history_untouched. intros u I [T _]. apply X. unfold result_hist in I. apply in_map_iff in I.
    destruct I as ([j s] & <- & J). apply in_combine_r in J. cbn in T. apply in_map_iff.
    destruct T as (s' & A & B). exists s. subst s'. split; [exact B | exact J].
Qed.

Lemma full_shape : forall P e i a f rf rb e1, fitted_engine P e i a f rf rb -> same_fit e e1 ->
  match run_full_mode e, run_full_mode e1 with
  | Ok e', Ok e1' => same_matrices e' e1' /\ exists D,
      overlaid (all_ts_surfaces a) D (pv_store (en_array e)) (pv_store (en_array e')) /\
      overlaid (all_ts_surfaces a) D (pv_store (en_array e1)) (pv_store (en_array e1')) /\
      forall s, map fst (D s) = full_keys
  | Err x, Err y => x = y
  | _, _ => False
  end.
Proof.
  intros P e i a f rf rb e1 FE S. pose proof (same_fit_fitted _ _ _ _ _ _ _ _ S FE) as FE1.
  assert (AO : forall e0, fitted_engine P e0 i a f rf rb -> ca_aoi (en_calc e0) <> None -> ca_aoi_fitted (en_calc e0) <> None).
  { intros e0 F0 N. destruct (ca_aoi (en_calc e0)) as [m|] eqn:E; [|congruence].
    destruct (fe_aoi _ _ _ _ _ _ _ F0 m E) as (af & _ & ->). discriminate. }
  rewrite (run_full_spec e a f (fe_array _ _ _ _ _ _ _ FE) (fe_irr_fitted _ _ _ _ _ _ _ FE) (fitted_ready _ _ _ _ _ _ _ FE) (AO e FE)).
  rewrite (run_full_spec e1 a f (fe_array _ _ _ _ _ _ _ FE1) (fe_irr_fitted _ _ _ _ _ _ _ FE1) (fitted_ready _ _ _ _ _ _ _ FE1) (AO e1 FE1)).
  rewrite (sf_irr _ _ S). set (k := im_kind (en_irr e)).
  set (st := pv_store (en_array e)). set (st1 := pv_store (en_array e1)).
  assert (X : forall x key, ~ In key run_keys -> ps_surf st1 x key = ps_surf st x key) by (apply (sf_surf _ _ S)).
  assert (Q1 : fr_irr k a f st1 = fr_irr k a f st).
  { apply functional_extensionality. intro t. unfold fr_irr. f_equal. f_equal. apply map_ext. intro s.
    apply comps_sum_ext. intros c C. apply X. apply (comps_not_run k c C). }
  assert (Q2 : fr_rho a st1 = fr_rho a st).
  { apply functional_extensionality. intro t. unfold fr_rho. f_equal. f_equal. apply map_ext. intro s.
    apply num_of_ext, X. cbn. intuition discriminate. }
  assert (Q3 : fr_invrho a st1 = fr_invrho a st).
  { apply functional_extensionality. intro t. unfold fr_invrho. f_equal. f_equal. apply map_ext. intro s.
    apply num_of_ext, X. cbn. intuition discriminate. }
  assert (Q4 : fr_abs k a st1 = fr_abs k a st).
  { apply functional_extensionality. intro t. unfold fr_abs. f_equal. apply map_ext. intro s.
    apply comps_sum_ext. intros c C. apply X. apply (comps_abs_not_run k c C). }
  assert (Q5 : fr_system a st1 = fr_system a st) by (unfold fr_system; rewrite Q3; reflexivity).
  assert (Q6 : fr_aoi a st1 (en_calc e1) = fr_aoi a st (en_calc e)).
  { unfold fr_aoi. rewrite Q2, (sf_aoi _ _ S), (sf_aoi_fitted _ _ S). reflexivity. }
  rewrite Q5. destruct (inv_stack _ _ _) as [inv|x]; cbn [bind]; [|reflexivity]. cbv zeta.
  fold st1 st. rewrite Q6.
  assert (ND : NoDup (map s_id (fr_surfs a))) by exact (fit_ids_nodup _ _ _ _ (fe_valid _ _ _ _ _ _ _ FE) (fe_fit _ _ _ _ _ _ _ FE)).
  split.
  - rewrite (sf_aoi _ _ S). unfold same_matrices, deref, heap_alloc, heap_write.
    cbn [en_array pv_vf pv_vf_aoi en_calc ca_vf ca_vf_aoi en_heap fst snd hp_get hp_next].
    assert (N : forall x, Nat.eqb x (Datatypes.S x) = false) by (intro x; apply Nat.eqb_neq; lia).
    destruct (ca_aoi (en_calc e)); cbn [hp_get hp_next]; rewrite ?Nat.eqb_refl, ?N; repeat split.
  - cbn [en_array pv_store]. unfold fr_store. fold st st1. fold (fr_surfs a).
    eexists. split; [apply write_results_overlaid, ND|]. split.
    + unfold fr_q0, fr_qinc, fr_refl, fr_qabs, fr_iso, fr_qinc, fr_q0. rewrite Q1, Q3, Q4, Q6.
      apply write_results_overlaid, ND.
    + reflexivity.
Qed.

Lemma fast_shape : forall P e i a f rf rb e1 r sg, fitted_engine P e i a f rf rb -> same_fit e e1 ->
  match run_fast_mode e r sg, run_fast_mode e1 r sg with
  | Ok e', Ok e1' => exists D l k, 
      pick r (en_fast_row e) = Some k /\ fast_surfaces a k (pick sg (en_fast_seg e)) l /\
      overlaid l D (pv_store (en_array e)) (pv_store (en_array e')) /\
      overlaid l D (pv_store (en_array e1)) (pv_store (en_array e1')) /\
      (forall s, map fst (D s) = fast_keys) /\
      en_heap e1' = en_heap e1 /\ pv_vf (en_array e1') = pv_vf (en_array e1) /\
      pv_vf_aoi (en_array e1') = pv_vf_aoi (en_array e1) /\ en_calc e1' = en_calc e1
  | Err x, Err y => x = y
  | _, _ => False
  end.
Proof.
  intros P e i a f rf rb e1 r sg FE S. pose proof (same_fit_fitted _ _ _ _ _ _ _ _ S FE) as FE1.
  assert (C : (exists k l, pick r (en_fast_row e) = Some k /\ fast_surfaces a k (pick sg (en_fast_seg e)) l) \/
    exists x, run_fast_mode e r sg = Err x /\ run_fast_mode e1 r sg = Err x).
  { unfold run_fast_mode. rewrite (fe_array _ _ _ _ _ _ _ FE), (fe_array _ _ _ _ _ _ _ FE1),
      (fe_irr_fitted _ _ _ _ _ _ _ FE), (fe_irr_fitted _ _ _ _ _ _ _ FE1), (sf_row _ _ S), (sf_seg _ _ S).
    fold (pick r (en_fast_row e)) (pick sg (en_fast_seg e)).
    destruct (pick r (en_fast_row e)) as [k|]; [|right; eexists; split; reflexivity].
    unfold list_get. destruct (nth_error (ft_rows a) k) as [row|] eqn:Hr; [|right; eexists; split; reflexivity].
    cbn [bind]. destruct (pick sg (en_fast_seg e)) as [j|].
    - destruct (nth_error (side_segments (row_back row)) j) as [g|] eqn:Hg; [|right; eexists; split; reflexivity].
      left. exists k, (seg_surfaces g). split; [reflexivity|]. exists row. split; [exact Hr|]. exists g. tauto.
    - left. exists k, (side_surfaces (row_back row)). split; [reflexivity|]. exists row. split; [exact Hr | reflexivity]. }
  destruct C as [(k & l & K & L)|(x & -> & ->)]; [|reflexivity].
  destruct (fast_surfaces_all _ _ _ _ L) as [LA LN].
  pose proof (LN (fit_ids_nodup _ _ _ _ (fe_valid _ _ _ _ _ _ _ FE) (fe_fit _ _ _ _ _ _ _ FE))) as ND.
  assert (Z : forall e0, fitted_engine P e0 i a f rf rb -> same_fit e e0 -> exists st', 
    run_fast_mode e0 r sg = Ok (with_store e0 a f st') /\
    overlaid l (fa_dict (im_kind (en_irr e)) rf f a k (pv_store (en_array e))) (pv_store (en_array e0)) st').
  { intros e0 F0 S0.
    destruct (fast_list_ok (en_irr e0) f a k rf l (pv_store (en_array e0)) (fe_front _ _ _ _ _ _ _ F0) ND) as (st' & E & B & C & G1 & G2).
    { intros s I. apply (fitted_ready _ _ _ _ _ _ _ F0 s (LA s I)). }
    exists st'. rewrite (run_fast_list e0 a f k r sg (fe_array _ _ _ _ _ _ _ F0) (fe_irr_fitted _ _ _ _ _ _ _ F0)
      ltac:(rewrite (sf_row _ _ S0); exact K) l ltac:(rewrite (sf_seg _ _ S0); exact L)).
    rewrite E. split; [reflexivity|]. split; [|split; [exact C|split; assumption]].
    intros s key I. rewrite (B s key I). rewrite (sf_irr _ _ S0).
    unfold fa_dict, fa_sky. rewrite (comps_sum_ext (pv_store (en_array e)) (pv_store (en_array e0))); [reflexivity|].
    intros c I2. apply (sf_surf _ _ S0). apply (comps_not_run _ _ I2). }
  destruct (Z e FE (same_fit_refl e)) as (st' & -> & O1). destruct (Z e1 FE1 S) as (st1' & -> & O2).
  eexists _, l, k. split; [exact K|]. split; [exact L|]. split; [exact O1|]. split; [exact O2|].
  split; [intro s; apply fa_dict_keys|]. repeat split.
Qed.

Lemma overlay_def : forall d k v, In k (map fst d) -> exists w, overlay d k v = Some w.
Proof.
  induction d as [|[k' x] d IH]; intros k v H; [contradiction|]. cbn [overlay].
  destruct (String.eqb k k') eqn:E.
  - destruct (in_dec string_dec k (map fst d)) as [J|J]; [apply IH, J|]. rewrite overlay_none by exact J.
    exists x. reflexivity.
  - apply IH. destruct H as [H|H]; [|exact H]. cbn in H. subst. rewrite String.eqb_refl in E. discriminate.
Qed.
Lemma NoDup_map_inj : forall (A B : Type) (g : A -> B) l x y, NoDup (map g l) -> In x l -> In y l -> g x = g y -> x = y.
Proof.
  intros A B g l x y. induction l as [|z l IH]; intros N I J E; [destruct I|]. cbn in N. inversion N as [|? ? N1 N2]; subst.
  destruct I as [->|I], J as [->|J]; auto.
  - exfalso. apply N1. rewrite E. apply in_map. exact J.
  - exfalso. apply N1. rewrite <- E. apply in_map. exact I.
Qed.

(** What a run publishes: for the full mode, on every surface of the array; for the fast
    mode, on the back of the chosen row, or on the chosen segment of it. *)
Definition published_by (e0 : engine) (a : fitted) (c : call) (s : ts_surface) (key : string) : Prop :=
  match c with
  | Fit _ => False
  | RunFull => In s (all_ts_surfaces a) /\ In key ["q0"; "qinc"; "isotropic"; "reflection"; "qabs"]%string
  | RunFast r sg => (exists k, chosen e0 a r sg k s) /\
      In key ["sky_term"; "qinc"; "reflection_gnd_shaded"; "reflection_gnd_illum";
              "reflection_pvrow_shaded"; "reflection_pvrow_illum"; "isotropic"; "reflection";
              "view_factors"]%string
  end.

(** The setting: a fit, then any runs. *)
Definition after_runs (P : pvlib) (e0 : engine) (raw : raw_inputs) (a : fitted) (e e1 : engine) : Prop :=
  valid_params (pv_params (en_array e0)) /\ engine_fit P e0 raw = Ok e /\
  pv_fitted (en_array e) = Some a /\
  exists runs, forallb is_run runs = true /\ exec_all P e runs = Ok e1.

Lemma run_shape : forall P e i a f rf rb e1 c, fitted_engine P e i a f rf rb -> same_fit e e1 -> is_run c = true ->
  match exec P e c, exec P e1 c with
  | Ok e', Ok e1' => (c = RunFull -> same_matrices e' e1') /\ 
      ((exists r sg, c = RunFast r sg) -> same_matrices e1 e1') /\ exists l D,
      overlaid l D (pv_store (en_array e)) (pv_store (en_array e')) /\
      overlaid l D (pv_store (en_array e1)) (pv_store (en_array e1')) /\
      (forall s, In s l -> In s (all_ts_surfaces a)) /\
      forall s, In s (all_ts_surfaces a) -> forall key, (In s l /\ In key (map fst (D s)) <-> published_by e a c s key)
  | Err x, Err y => x = y
  | _, _ => False
  end.
Proof.
  intros P e i a f rf rb e1 c FE S R. destruct c as [raw| |r sg]; [discriminate R| |]; cbn [exec].
  - pose proof (full_shape _ _ _ _ _ _ _ _ FE S) as H.
    destruct (run_full_mode e), (run_full_mode e1); try exact H.
    destruct H as (M & D & O1 & O2 & K). split; [intros _; exact M|]. split; [intros (? & ? & ?); discriminate|].
    exists (all_ts_surfaces a), D. split; [exact O1|]. split; [exact O2|]. split; [auto|].
    intros s I key. cbn [published_by]. rewrite K. reflexivity.
  - pose proof (fast_shape _ _ _ _ _ _ _ _ r sg FE S) as H.
    destruct (run_fast_mode e r sg), (run_fast_mode e1 r sg) as [e1'|]; try exact H.
    destruct H as (D & l & k & K & L & O1 & O2 & Ks & H1 & H2 & H3 & H4).
    split; [discriminate|].
    split; [intros _; unfold same_matrices, deref; rewrite H1, H2, H3, H4; repeat split|].
    exists l, D. split; [exact O1|]. split; [exact O2|]. split; [apply (fast_surfaces_all _ _ _ _ L)|].
    intros s I key. cbn [published_by]. rewrite Ks. pose proof (chosen_list e a r sg k l s K L) as C.
    split; intros [A B]; (split; [|exact B]).
    + exists k. apply C, A.
    + destruct A as [k' A]. apply C. assert (k' = k) by (destruct A as [E _]; unfold pick in K; congruence).
      subst k'. exact A.
Qed.

Lemma chosen_args : forall e0 e a r sg k s, en_fast_row e = en_fast_row e0 -> en_fast_seg e = en_fast_seg e0 ->
  chosen e a r sg k s = chosen e0 a r sg k s.
Proof. intros e0 e a r sg k s A B. unfold chosen. rewrite A, B. reflexivity. Qed.

Lemma published_args : forall e0 e a c s key, en_fast_row e = en_fast_row e0 -> en_fast_seg e = en_fast_seg e0 ->
  published_by e a c s key <-> published_by e0 a c s key.
Proof.
  intros e0 e a [raw| |r sg] s key A B; cbn [published_by]; [tauto|tauto|].
  split; intros ((k & K) & I); (split; [|exact I]); exists k;
    [rewrite <- (chosen_args e0 e) | rewrite (chosen_args e0 e)]; assumption.
Qed.

(** C26. After a fit and any runs, a run ends as it would right after the fit: same error,
    or same values of all that it publishes, and it changes nothing else. *)
Theorem C26_last_run : forall P e0 raw a e e1 c, after_runs P e0 raw a e e1 -> is_run c = true ->
  match exec P e c, exec P e1 c with
  | Ok e2, Ok e3 => forall s, In s (all_ts_surfaces a) ->
      (forall key, published_by e0 a c s key ->
         exists v, get_param (pv_store (en_array e2)) s key = Ok v /\
                   get_param (pv_store (en_array e3)) s key = Ok v) /\
      (forall key, ~ published_by e0 a c s key ->
         get_param (pv_store (en_array e3)) s key = get_param (pv_store (en_array e1)) s key) /\
      (c = RunFull -> same_matrices e2 e3) /\ (c <> RunFull -> same_matrices e1 e3)
  | Err x, Err y => x = y
  | _, _ => False
  end.
Proof.
  intros P e0 raw a e e1 c (V & Fi & Ha & runs & RU & EX) R.
  destruct (engine_fit_fitted _ _ _ _ V Fi) as (i & a' & f & rf & rb & _ & FE).
  assert (a' = a) by (pose proof (fe_array _ _ _ _ _ _ _ FE); congruence). subst a'.
  pose proof (runs_same_fit _ _ _ _ RU EX) as S. destruct (engine_fit_fast _ _ _ _ Fi) as (ER & ES).
  pose proof (run_shape _ _ _ _ _ _ _ _ _ FE S R) as H.
  pose proof (fit_ids_nodup _ _ _ _ (fe_valid _ _ _ _ _ _ _ FE) (fe_fit _ _ _ _ _ _ _ FE)) as ND.
  destruct (exec P e c) as [e2|x], (exec P e1 c) as [e3|y]; try exact H.
  destruct H as (M1 & M2 & l & D & (B1 & C1 & _) & (B2 & C2 & _) & LA & PB). intros s I.
  split; [|split; [|split; [exact M1|]]].
  - intros key K. rewrite <- (published_args e0 e) in K by assumption. apply (PB s I) in K. destruct K as [Il Ik].
    unfold get_param. rewrite (B1 s key Il), (B2 s key Il).
    rewrite (overlay_some (D s) key (ps_surf (pv_store (en_array e1)) (s_id s) key) (ps_surf (pv_store (en_array e)) (s_id s) key) Ik).
    destruct (overlay_def (D s) key (ps_surf (pv_store (en_array e)) (s_id s) key) Ik) as [v ->].
    exists v. split; reflexivity.
  - intros key K. rewrite <- (published_args e0 e) in K by assumption. rewrite <- (PB s I) in K.
    unfold get_param. destruct (in_dec sid_eq_dec (s_id s) (map s_id l)) as [J|J].
    + apply in_map_iff in J. destruct J as (s' & Es & Is'). assert (s' = s).
      { apply (NoDup_map_inj _ _ s_id (all_ts_surfaces a)); auto. }
      subst s'. rewrite (B2 s key Is'). rewrite overlay_none; [reflexivity | tauto].
    + rewrite (C2 _ J). reflexivity.
  - intro N. destruct c as [x| |r sg]; [discriminate R | congruence|]. apply M2. exists r, sg. reflexivity.
Qed.

(** C26. Running twice in a row gives the same result as running once. *)
Theorem C26_twice : forall P e0 raw a e e1 c e2, after_runs P e0 raw a e e1 -> is_run c = true ->
  exec P e1 c = Ok e2 -> exists e3, exec P e2 c = Ok e3 /\ same_state e2 e3 /\ same_matrices e2 e3.
Proof.
  intros P e0 raw a e e1 c e2 (V & Fi & Ha & runs & RU & EX) R E2.
  destruct (engine_fit_fitted _ _ _ _ V Fi) as (i & a' & f & rf & rb & _ & FE).
  assert (a' = a) by (pose proof (fe_array _ _ _ _ _ _ _ FE); congruence). subst a'.
  pose proof (same_fit_fitted _ _ _ _ _ _ _ _ (runs_same_fit _ _ _ _ RU EX) FE) as FE1.
  assert (S : same_fit e1 e2).
  { apply (runs_same_fit P [c]); [cbn; rewrite R; reflexivity | cbn [exec_all]; rewrite E2; reflexivity]. }
  pose proof (run_shape _ _ _ _ _ _ _ _ _ FE1 S R) as H. rewrite E2 in H.
  destruct (exec P e2 c) as [e3|y] eqn:E3; [|contradiction].
  destruct H as (M1 & M2 & l & D & (B1 & C1 & G1 & K1) & (B2 & C2 & G2 & K2) & _). exists e3.
  split; [reflexivity|].
  assert (S3 : same_fit e2 e3).
  { apply (runs_same_fit P [c]); [cbn; rewrite R; reflexivity | cbn [exec_all]; rewrite E3; reflexivity]. }
  split.
  - assert (ST : pv_store (en_array e3) = pv_store (en_array e2)).
    { assert (P3 : ps_surf (pv_store (en_array e3)) = ps_surf (pv_store (en_array e2))).
      { apply functional_extensionality. intro x. destruct (in_dec sid_eq_dec x (map s_id l)) as [J|J].
        - apply in_map_iff in J. destruct J as (s & <- & I). apply functional_extensionality. intro key.
          rewrite (B2 s key I), (B1 s key I). apply overlay_idem.
        - apply (C2 x J). }
      destruct (pv_store (en_array e3)), (pv_store (en_array e2)); cbn in *; subst; reflexivity. }
    destruct S3. repeat split; assumption.
  - destruct c as [x| |r sg]; [discriminate R | apply M1; reflexivity | apply M2; exists r, sg; reflexivity].
Qed.

(** C26 (finding). The matrices are not reset by a fit nor by the fast mode: until the next
    full mode run, those found on the array are the ones of an earlier fit. *)
Theorem C26_stale_matrices : forall P e c e', c <> RunFull -> exec P e c = Ok e' -> same_matrices e e'.
Proof.
  intros P e c e' N H. destruct c as [raw| |r sg]; [|congruence|]; cbn [exec] in H.
  - unfold engine_fit in H. apply bind_ok in H. destruct H as (i & _ & H).
    destruct (engine_fit_arrays_inv _ _ _ _ H) as (a & f & st & c & rf & rb & _ & _ & _ & _ & _ & C & ->).
    unfold same_matrices, deref. cbn [en_array pv_vf pv_vf_aoi en_calc en_heap].
    unfold calculator_fit in C. destruct (ca_aoi (en_calc e)) as [m|].
    + apply bind_ok in C. destruct C as (af & _ & C). inversion C; subst. repeat split.
    + inversion C; subst. repeat split.
  - unfold run_fast_mode in H. destruct (pv_fitted (en_array e)) as [a|]; [|discriminate H].
    destruct (en_irr_fitted e) as [f|]; [|discriminate H].
    destruct (match r with Some k => Some k | None => en_fast_row e end) as [k|]; [|discriminate H].
    apply bind_ok in H. destruct H as (row & _ & H). apply bind_ok in H. destruct H as (st & _ & H).
    inversion H; subst. repeat split.
Qed.

(* ---------------------------------------------------------------------- example *)

(** Any well shaped inputs may come between two fits with the same inputs. *)
Example C26_example : forall P kd other, well_shaped other -> exists e e',
  exec_all P (ex_engine kd default_calculator) [Fit ex_raw; RunFull; Fit other] = Ok e /\
  exec_all P e [Fit ex_raw; RunFull] = Ok e' /\ In RunFull [RunFull] /\
  (exists a e1, after_runs P (ex_engine kd default_calculator) ex_raw a e1 e1 /\ exists s,
     published_by (ex_engine kd default_calculator) a RunFull s "qabs").
Proof.
  intros P kd other W. set (e0 := ex_engine kd default_calculator).
  destruct (ex_run P kd default_calculator ltac:(discriminate)) as (e1 & e2 & Fi & Ru). fold e0 in Fi.
  assert (E2 : exec_all P e0 [Fit ex_raw; RunFull] = Ok e2) by (cbn [exec_all exec]; rewrite Fi; cbn [bind]; rewrite Ru; reflexivity).
  destruct (exec_args _ _ _ _ E2) as (A1 & _ & A3 & A4 & _).
  destruct (proj2 (C50_fit_succeeds P e2 other ltac:(rewrite A1; exact ex_valid))) as [e3 F3].
  { rewrite A3, A4. cbn. repeat split; try discriminate. exact W. }
  exists e3. assert (E3 : exec_all P e0 [Fit ex_raw; RunFull; Fit other] = Ok e3).
  { cbn [exec_all exec] in E2 |- *. rewrite Fi in *. cbn [bind] in *. rewrite Ru in *. cbn [bind] in *.
    rewrite F3. reflexivity. }
  pose proof (C26_last_fit P e0 _ e3 ex_raw [RunFull] E3) as H. rewrite E2 in H.
  destruct (exec_all P e3 [Fit ex_raw; RunFull]) as [e'|]; [|contradiction]. exists e'.
  split; [exact E3|]. split; [reflexivity|]. split; [left; reflexivity|].
  destruct (engine_fit_fitted P e0 ex_raw e1 ex_valid Fi) as (i & a & f & rf & rb & Hi & FE).
  exists a, e1. split.
  - split; [exact ex_valid|]. split; [exact Fi|]. split; [exact (fe_array _ _ _ _ _ _ _ FE)|].
    exists []. split; reflexivity.
  - destruct (categories_inhabited _ _ _ _ (fe_valid _ _ _ _ _ _ _ FE) (fe_fit _ _ _ _ _ _ _ FE) (CGround false) I) as [y Y].
    exists y. split; [exact (category_surface _ _ _ Y)|]. cbn; tauto.
Qed.

(** A run before any fit raises, a fit with vectors of different lengths too; whatever they
    leave, fit and run then do as on a new engine. *)
Example C26_failures_case : forall P kd e raw bad,
  let e0 := ex_engine kd default_calculator in
  bad = RawInputs (NArray 2 (fun t => t)) (NArray 3 (fun _ => 1000)) (ri_dhi raw) (ri_zenith raw) (ri_solar_azimuth raw)
          (ri_tilt raw) (ri_azimuth raw) (ri_albedo raw) (ri_ghi raw) ->
  same_args e0 e ->
  (exists x, exec P e0 RunFull = Err x) /\ (exists x, exec P e0 (Fit bad) = Err x) /\
  attempts P e0 [RunFull; Fit bad] e /\ exists e', exec_all P e [Fit ex_raw; RunFull] = Ok e'.
Proof.
  intros P kd e raw bad e0 B A.
  assert (R : exec P e0 RunFull = Err AttributeError) by reflexivity.
  assert (F : exists x, exec P e0 (Fit bad) = Err x).
  { destruct (exec P e0 (Fit bad)) as [e1|x] eqn:E; [exfalso | eauto]. cbn [exec] in E.
    destruct (proj1 (C50_fit_succeeds P e0 bad ex_valid) (ex_intro _ e1 E)) as [(n & W) _].
    subst bad. cbn in W. destruct W as (W1 & W2 & _). congruence. }
  split; [eauto|]. split; [exact F|]. destruct F as [x F].
  assert (T : attempts P e0 [RunFull; Fit bad] e).
  { apply (attempts_raised P e0 RunFull AttributeError e0); [exact R | unfold same_args; repeat split; auto |].
    apply (attempts_raised P e0 (Fit bad) x e); [exact F | exact A |]. constructor. }
  split; [exact T|]. pose proof (C26_failures P e0 _ e ex_raw [RunFull] T) as H.
  destruct (ex_run P kd default_calculator ltac:(discriminate)) as (e1 & e2 & Fi & Ru).
  assert (E2 : exec_all P e0 [Fit ex_raw; RunFull] = Ok e2) by (cbn [exec_all exec]; unfold e0; rewrite Fi; cbn [bind]; rewrite Ru; reflexivity).
  rewrite E2 in H. destruct (exec_all P e [Fit ex_raw; RunFull]) as [e'|]; [eauto | contradiction].
Qed.

Print Assumptions C26_last_fit.
Print Assumptions C26_last_run.
Print Assumptions C26_twice.
Print Assumptions C26_stale_matrices.
