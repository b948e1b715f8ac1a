(** C27: each timestep is computed independently of the others. *)
From Coq Require Import Reals List Bool Arith String Lra Lia FunctionalExtensionality.
From Verif Require Import Num ModelTs ModelGeom ModelVF Basics SpecGeom SpecVF ProofFit ProofIndex ProofMatrix ModelParams SpecParams
  ModelIrr SpecIrr ModelAOI ModelLinalg ModelEngine ProofIrr PropIrr ProofEngine PropEngine SpecRun ProofRun PropRun ProofHistory PropGeom PropVF ProofNight PropFast PropFastRun
  ProofLocal ProofLocal2 ProofLocal3.
Import ListNotations.
Open Scope R_scope.

(* ------------------------------------------------------------------- vocabulary *)

(** Value of an input at a timestep (a float has the same value at all of them). *)
Definition value {A : Type} (x : num A) (t : nat) : A :=
  match x with NScalar r => r | NArray _ a => a t end.
Definition n_timesteps (i : raw_inputs) : nat :=
  match shape (ri_dni i) with None => 1%nat | Some n => n end.

(** The inputs [i] at timestep [t] are the inputs [j] at timestep [u]. *)
Definition same_inputs (i : raw_inputs) (t : nat) (j : raw_inputs) (u : nat) : Prop :=
  value (ri_time i) t = value (ri_time j) u /\ value (ri_dni i) t = value (ri_dni j) u /\
  value (ri_dhi i) t = value (ri_dhi j) u /\ value (ri_zenith i) t = value (ri_zenith j) u /\
  value (ri_solar_azimuth i) t = value (ri_solar_azimuth j) u /\ value (ri_tilt i) t = value (ri_tilt j) u /\
  value (ri_azimuth i) t = value (ri_azimuth j) u /\ value (ri_albedo i) t = value (ri_albedo j) u /\
  option_map (fun x => value x t) (ri_ghi i) = option_map (fun x => value x u) (ri_ghi j).

(** The timestep [t] of the inputs [i], alone. *)
Definition alone_num {A : Type} (x : num A) (t : nat) : num A := NArray 1 (fun _ => value x t).
Definition alone (i : raw_inputs) (t : nat) : raw_inputs :=
  RawInputs (alone_num (ri_time i) t) (alone_num (ri_dni i) t) (alone_num (ri_dhi i) t) (alone_num (ri_zenith i) t)
    (alone_num (ri_solar_azimuth i) t) (alone_num (ri_tilt i) t) (alone_num (ri_azimuth i) t) (alone_num (ri_albedo i) t)
    (option_map (fun x => alone_num x t) (ri_ghi i)).

(** The same value was read in both cases: at [t] in the first, at [u] in the second. *)
Definition same_series (x : result (ts R)) (t : nat) (y : result (ts R)) (u : nat) : Prop :=
  match x, y with
  | Ok v, Ok w => v t = w u
  | Err e, Err e' => e = e'
  | _, _ => False
  end.
Definition same_param (x : result pval) (t : nat) (y : result pval) (u : nat) : Prop :=
  match x, y with
  | Ok PNone, Ok PNone => True
  | Ok (PArr v), Ok (PArr w) => v t = w u
  | Ok (PVF v), Ok (PVF w) => v t = w u
  | Err e, Err e' => e = e'
  | _, _ => False
  end.

(** [ts_pvrows[k].front.get_param_weighted(name)], or [back]. *)
Definition side_result (e : engine) (k : nat) (back : bool) (name : string) : result (ts R) :=
  match pv_fitted (en_array e) with
  | None => Err AttributeError
  | Some a =>
      match nth_error (ft_rows a) k with
      | None => Err IndexError
      | Some row => side_param_weighted (pv_store (en_array e)) (if back then row_back row else row_front row) name
      end
  end.

(** Everything that the engine [e] publishes at [t] is what [e'] publishes at [u]: the same
    surfaces at the same places, with the same values, and the same averages over the sides
    of the rows. *)
Definition same_results (e : engine) (t : nat) (e' : engine) (u : nat) : Prop :=
  exists a a', pv_fitted (en_array e) = Some a /\ pv_fitted (en_array e') = Some a' /\
    Forall2 (fun s s' => s_id s = s_id s' /\ s_shaded s = s_shaded s' /\ s_coords s t = s_coords s' u /\
        forall name, same_param (get_param (pv_store (en_array e)) s name) t (get_param (pv_store (en_array e')) s' name) u)
      (all_ts_surfaces a) (all_ts_surfaces a') /\
    ft_rotation a t = ft_rotation a' u /\
    forall k back name, same_series (side_result e k back name) t (side_result e' k back name) u.

Definition same_matrices_at (e : engine) (t : nat) (e' : engine) (u : nat) : Prop :=
  (exists M M', published_vf e M /\ published_vf e' M' /\ M t = M' u) /\
  (exists M M', published_vf_aoi e M /\ published_vf_aoi e' M' /\ M t = M' u).

(** No surface has at [t] a length strictly between 0 and the tolerance. *)
Definition no_sliver_at (e : engine) (t : nat) : Prop :=
  forall a s, pv_fitted (en_array e) = Some a -> In s (all_ts_surfaces a) ->
    s_length s t = 0 \/ DISTANCE_TOLERANCE <= s_length s t.

(* ----------------------------------------------------------------------- proofs *)

Lemma as_array_ok : forall (A : Type) n (x : num A) v, as_array n x = Ok v -> x = NArray n v.
Proof.
  intros A n [r|m a] v H; cbn in H; [discriminate|]. destruct (Nat.eqb m n) eqn:E; [|discriminate].
  apply Nat.eqb_eq in E. congruence.
Qed.

Lemma format_alone : forall i ii t, format_inputs i = Ok ii ->
  format_inputs (alone i t) = Ok (sl_irr t ii) /\ ii_n ii = n_timesteps i.
Proof.
  intros i ii t H. unfold format_inputs in H. apply bind_ok in H. destruct H as (i' & FS & H).
  assert (K : alone i' t = alone i t /\ num_len (ri_dni i') = n_timesteps i).
  { unfold format_scalars in FS. unfold n_timesteps. destruct (ri_dni i) as [d|n d] eqn:D; cbn [is_scalar] in FS.
    - destruct i as [tm dn dh ze sa ti az al gh]. cbn [ri_time ri_dni ri_dhi ri_zenith ri_solar_azimuth ri_tilt ri_azimuth ri_albedo ri_ghi] in *.
      subst dn. destruct tm, dh, ze, sa, ti, az; cbn in FS; try discriminate.
      destruct gh as [[g|? ?]|]; cbn in FS; try discriminate; injection FS as <-; split; reflexivity.
    - injection FS as <-. rewrite D. split; reflexivity. }
  destruct K as [K1 K2]. rewrite <- K1, <- K2. clear K1 K2 FS i.
  destruct i' as [tm dn dh ze sa ti az al gh]. cbn [ri_time ri_dni ri_dhi ri_zenith ri_solar_azimuth ri_tilt ri_azimuth ri_albedo ri_ghi] in *.
  apply bind_ok in H. destruct H as (v1 & E1 & H). apply as_array_ok in E1. subst tm.
  apply bind_ok in H. destruct H as (v2 & E2 & H). apply as_array_ok in E2. rewrite E2 in H |- *. cbn [num_len] in H |- *.
  set (n := num_len dn) in *. clearbody n. clear dn E2.
  apply bind_ok in H. destruct H as (v3 & E3 & H). apply as_array_ok in E3. subst dh.
  apply bind_ok in H. destruct H as (v4 & E4 & H). apply as_array_ok in E4. subst ze.
  apply bind_ok in H. destruct H as (v5 & E5 & H). apply as_array_ok in E5. subst sa.
  apply bind_ok in H. destruct H as (v6 & E6 & H). apply as_array_ok in E6. subst ti.
  apply bind_ok in H. destruct H as (v7 & E7 & H). apply as_array_ok in E7. subst az.
  apply bind_ok in H. destruct H as (v8 & E8 & H). apply bind_ok in H. destruct H as (v9 & E9 & H). injection H as <-.
  split; [|reflexivity]. cbn -[as_array].
  assert (A8 : v8 t = value al t).
  { destruct al as [r|m x]; [injection E8 as <-; cbn; ring | apply as_array_ok in E8; injection E8 as -> ->; reflexivity]. }
  unfold sl_irr, only. cbn. rewrite A8.
  destruct gh as [g|]; cbn -[as_array] in E9 |- *.
  - apply bind_ok in E9. destruct E9 as (g' & G & E9). apply as_array_ok in G. subst g. injection E9 as <-. reflexivity.
  - injection E9 as <-. reflexivity.
Qed.

Lemma same_alone : forall i t j u, same_inputs i t j u -> alone i t = alone j u.
Proof.
  intros i t j u (H1 & H2 & H3 & H4 & H5 & H6 & H7 & H8 & H9). unfold alone, alone_num.
  rewrite H1, H2, H3, H4, H5, H6, H7, H8. f_equal.
  destruct (ri_ghi i), (ri_ghi j); cbn in *; try discriminate; [injection H9 as ->|]; reflexivity.
Qed.

(** An engine, and the engine of its timestep [t] alone. *)
Definition mats_at (t : nat) (e e' : engine) : Prop :=
  (exists v, pv_vf (en_array e) = Some v /\ pv_vf (en_array e') = Some v /\ at_t t (hp_get (en_heap e) v) (hp_get (en_heap e') v)) /\
  (exists v, pv_vf_aoi (en_array e) = Some v /\ pv_vf_aoi (en_array e') = Some v /\ at_t t (hp_get (en_heap e) v) (hp_get (en_heap e') v)).

Lemma engine_fit_at : forall P e0 i e t, engine_fit P e0 i = Ok e -> (t < n_timesteps i)%nat ->
  exists e', engine_fit P e0 (alone i t) = Ok e' /\ engine_at t (n_timesteps i) e e'.
Proof.
  intros P e0 i e t H T. unfold engine_fit in *. apply bind_ok in H. destruct H as (ii & F & H).
  destruct (format_alone _ _ t F) as [F' N]. rewrite F'. cbn [bind]. rewrite <- N in T |- *.
  pose proof (fit_at t P e0 ii T) as K. rewrite H in K.
  destruct (engine_fit_arrays P e0 (sl_irr t ii)) as [e'|]; cbn in K; [|contradiction]. exists e'. auto.
Qed.

Lemma run_keeps : forall P e c r, is_run c = true -> exec P e c = Ok r ->
  pv_params (en_array r) = pv_params (en_array e) /\ pv_fitted (en_array r) = pv_fitted (en_array e).
Proof.
  intros P e [x| |row seg] r R H; [discriminate| |]; cbn [exec] in H.
  - unfold run_full_mode in H. destruct (pv_fitted (en_array e)) as [a|]; [|discriminate]. destruct (en_irr_fitted e) as [f|]; [|discriminate].
    apply bind_ok in H. destruct H as ([[[irr rho] inv] per] & _ & H). cbn [heap_alloc] in H.
    apply bind_ok in H. destruct H as (B & _ & H). apply bind_ok in H. destruct H as ([ra h] & _ & H).
    apply bind_ok in H. destruct H as (ab & _ & H). injection H as <-. split; reflexivity.
  - unfold run_fast_mode in H. destruct (pv_fitted (en_array e)) as [a|]; [|discriminate]. destruct (en_irr_fitted e) as [f|]; [|discriminate].
    destruct (match row with Some k => Some k | None => en_fast_row e end); [|discriminate].
    apply bind_ok in H. destruct H as (rw & _ & H). apply bind_ok in H. destruct H as (st & _ & H). injection H as <-. split; reflexivity.
Qed.

Lemma fast_keeps : forall e r s e', run_fast_mode e r s = Ok e' ->
  pv_vf (en_array e') = pv_vf (en_array e) /\ pv_vf_aoi (en_array e') = pv_vf_aoi (en_array e) /\ en_heap e' = en_heap e.
Proof.
  intros e row seg e' H. unfold run_fast_mode in H. destruct (pv_fitted (en_array e)) as [a|]; [|discriminate]. destruct (en_irr_fitted e) as [f|]; [|discriminate].
  destruct (match row with Some k => Some k | None => en_fast_row e end); [|discriminate].
  apply bind_ok in H. destruct H as (rw & _ & H). apply bind_ok in H. destruct H as (st & _ & H). injection H as <-. repeat split.
Qed.

Lemma runs_at : forall P t n runs, forallb is_run runs = true -> (t < n)%nat ->
  forall e e' r, engine_at t n e e' -> valid_params (pv_params (en_array e)) ->
  (In RunFull runs -> no_sliver_at e t) -> exec_all P e runs = Ok r ->
  exists r', exec_all P e' runs = Ok r' /\ engine_at t n r r' /\
    (mats_at t e e' \/ In RunFull runs -> mats_at t r r') /\ pv_fitted (en_array r) = pv_fitted (en_array e).
Proof.
  intros P t n runs. induction runs as [|c runs IH]; intros R T e e' r EA V NS EX.
  { cbn in EX. injection EX as <-. exists e'. cbn. tauto. }
  cbn [forallb] in R. apply andb_prop in R. destruct R as [Rc R]. cbn [exec_all] in EX |- *.
  apply bind_ok in EX. destruct EX as (e1 & E1 & EX). destruct (run_keeps _ _ _ _ Rc E1) as [PP FP].
  assert (K : exists e1', exec P e' c = Ok e1' /\ engine_at t n e1 e1' /\ (mats_at t e e' \/ c = RunFull -> mats_at t e1 e1')).
  { destruct c as [x| |row seg]; [discriminate| |]; cbn [exec] in *.
    - pose proof (full_at t n e e' EA T V (fun a A s I => NS (or_introl eq_refl) a s A I)) as F. rewrite E1 in F.
      destruct F as (r' & F1 & F2 & F3 & F4). exists r'. split; [exact F1|]. split; [exact F2|]. intros _. split; assumption.
    - pose proof (fast_at t n e e' row seg EA) as F. rewrite E1 in F. destruct (run_fast_mode e' row seg) as [e1'|] eqn:E1'; [|contradiction].
      exists e1'. split; [reflexivity|]. split; [exact F|]. intros [M|M]; [|discriminate].
      destruct (fast_keeps _ _ _ _ E1) as (Q1 & Q2 & Q3). destruct (fast_keeps _ _ _ _ E1') as (Q1' & Q2' & Q3').
      unfold mats_at in *. rewrite Q1, Q2, Q3, Q1', Q2', Q3'. exact M. }
  destruct K as (e1' & E1' & EA1 & M1). rewrite E1'. cbn [bind].
  destruct (IH R T e1 e1' r EA1) as (r' & X & Y & Z & W).
  - rewrite PP. exact V.
  - intros I a s A. rewrite FP in A. apply NS; [right; exact I | exact A].
  - exact EX.
  - exists r'. split; [exact X|]. split; [exact Y|]. split; [|congruence]. intros [M|[M|M]]; apply Z; auto.
Qed.

Lemma runs_fail : forall P n runs, forallb is_run runs = true -> (0 < n)%nat ->
  forall e e' x, (forall t, (t < n)%nat -> engine_at t n e (e' t)) -> valid_params (pv_params (en_array e)) ->
  (In RunFull runs -> forall t, (t < n)%nat -> no_sliver_at e t) -> exec_all P e runs = Err x ->
  exists t, (t < n)%nat /\ exec_all P (e' t) runs = Err x.
Proof.
  intros P n runs. induction runs as [|c runs IH]; intros R T e e' x EA V NS EX; [discriminate|].
  cbn [forallb] in R. apply andb_prop in R. destruct R as [Rc R]. cbn [exec_all] in EX |- *.
  destruct (exec P e c) as [e1|y] eqn:E1; cbn [bind] in EX.
  - destruct (run_keeps _ _ _ _ Rc E1) as [PP FP].
    assert (K : forall t, (t < n)%nat -> exists e1', exec P (e' t) c = Ok e1' /\ engine_at t n e1 e1').
    { intros t L. destruct (runs_at P t n [c]) with (e := e) (e' := e' t) (r := e1) as (r' & A & B & _); auto.
      - cbn. rewrite Rc. reflexivity.
      - intros [->|[]]. apply NS; [left; reflexivity | exact L].
      - cbn [exec_all]. rewrite E1. reflexivity.
      - cbn [exec_all] in A. destruct (exec P (e' t) c) as [q|]; [|discriminate]. injection A as ->. exists r'. auto. }
    pose (g := fun t => match exec P (e' t) c with Ok q => q | Err _ => e1 end).
    destruct (IH R T e1 g x) as (t & L & F).
    + intros t L. destruct (K t L) as (q & Q1 & Q2). unfold g. rewrite Q1. exact Q2.
    + rewrite PP. exact V.
    + intros I t L a s A. rewrite FP in A. apply NS; [right; exact I | exact L | exact A].
    + exact EX.
    + exists t. split; [exact L|]. destruct (K t L) as (q & Q1 & Q2). unfold g in F. rewrite Q1 in F |- *. exact F.
  - injection EX as <-. destruct c as [z| |row seg]; [discriminate| |]; cbn [exec] in *.
    + destruct (full_fails n e e' y EA T V) as (t & L & F); [|exact E1|].
      * intros a t A L s I. exact (NS (or_introl eq_refl) t L a s A I).
      * exists t. split; [exact L|]. rewrite F. reflexivity.
    + exists 0%nat. split; [exact T|]. pose proof (fast_at 0 n e (e' 0%nat) row seg (EA _ T)) as F. rewrite E1 in F.
      destruct (run_fast_mode (e' 0%nat) row seg) as [|z]; cbn in F; [contradiction|]. subst z. reflexivity.
Qed.

Lemma side_length_at : forall t d, side_length (sl_side t d) 0%nat = side_length d t.
Proof.
  intros t d. unfold side_length. cbn [sl_side side_segments]. rewrite map_map. f_equal. apply map_ext. intro g.
  unfold seg_length, coll_length. cbn [sl_segment seg_illum seg_shaded]. rewrite !map_map. reflexivity.
Qed.

(** What is found at [t] is determined by the engine of this timestep. *)
Lemma results_at : forall t n e u m e' x, engine_at t n e x -> engine_at u m e' x -> same_results e t e' u.
Proof.
  intros t n e u m e' x A B.
  pose proof A as [_ _ _ _ _ _ _ _ (a & fi & A1 & A2 & _) _ SA]. pose proof B as [_ _ _ _ _ _ _ _ (b & fj & B1 & B2 & _) _ SB].
  assert (E : sl_fitted t a = sl_fitted u b) by congruence. exists a, b. split; [exact A1|]. split; [exact B1|].
  assert (PA : forall s s' name, s_id s = s_id s' ->
     same_param (get_param (pv_store (en_array e)) s name) t (get_param (pv_store (en_array e')) s' name) u).
  { intros s s' name I. unfold get_param. rewrite <- I. pose proof (sa_surf _ _ _ SA (s_id s) name) as P1.
    pose proof (sa_surf _ _ _ SB (s_id s) name) as P2.
    destruct (ps_surf (pv_store (en_array x)) (s_id s) name) as [v|].
    - destruct (ps_surf (pv_store (en_array e)) (s_id s) name) as [v1|]; [|contradiction].
      destruct (ps_surf (pv_store (en_array e')) (s_id s) name) as [v2|]; [|contradiction].
      destruct v, v1, v2; cbn in *; try contradiction; unfold at_t in *; congruence.
    - destruct (ps_surf (pv_store (en_array e)) (s_id s) name) as [v1|]; [contradiction|].
      destruct (ps_surf (pv_store (en_array e')) (s_id s) name) as [v2|]; [contradiction | reflexivity]. }
  split; [|split].
  - assert (G : forall l l', map (sl_surface t) l = map (sl_surface u) l' ->
      Forall2 (fun s s' => s_id s = s_id s' /\ s_shaded s = s_shaded s' /\ s_coords s t = s_coords s' u /\
        forall name, same_param (get_param (pv_store (en_array e)) s name) t (get_param (pv_store (en_array e')) s' name) u) l l').
    { induction l as [|s l IH]; intros [|s' l'] Q; try discriminate; constructor.
      - assert (Q1 : sl_surface t s = sl_surface u s') by (cbn [map] in Q; congruence).
        assert (I : s_id s = s_id s') by exact (f_equal s_id Q1). split; [exact I|]. split; [exact (f_equal s_shaded Q1)|].
        split; [exact (f_equal (fun s => s_coords s 0%nat) Q1)|]. intro name. apply PA, I.
      - apply IH. cbn [map] in Q. congruence. }
    apply G. rewrite <- !sl_all, E. reflexivity.
  - exact (f_equal (fun a => ft_rotation a 0%nat) E).
  - intros k back name. unfold side_result. rewrite A1, B1.
    assert (RW : option_map (sl_row t) (nth_error (ft_rows a) k) = option_map (sl_row u) (nth_error (ft_rows b) k)).
    { pose proof (f_equal ft_rows E) as Q. cbn [sl_fitted ft_rows] in Q. rewrite <- !nth_error_map, Q. reflexivity. }
    destruct (nth_error (ft_rows a) k) as [r|], (nth_error (ft_rows b) k) as [r'|]; cbn in RW; try discriminate; [|reflexivity].
    assert (SR : sl_side t (side_of back r) = sl_side u (side_of back r')).
    { rewrite <- !sl_side_of. congruence. }
    change (if back then row_back r else row_front r) with (side_of back r).
    change (if back then row_back r' else row_front r') with (side_of back r').
    pose proof (side_ww_at t _ _ (side_of back r) name SA) as W1. pose proof (side_ww_at u _ _ (side_of back r') name SB) as W2.
    rewrite SR in W1. unfold side_param_weighted.
    destruct (side_param_ww (pv_store (en_array x)) (sl_side u (side_of back r')) name) as [w|z];
      destruct (side_param_ww (pv_store (en_array e)) (side_of back r) name) as [v1|y1]; cbn in W1; try contradiction;
      destruct (side_param_ww (pv_store (en_array e')) (side_of back r') name) as [v2|y2]; cbn in W2; try contradiction; cbn; [|congruence].
    unfold per_length, at_t in *. rewrite W1, W2, <- (side_length_at t), <- (side_length_at u), SR. reflexivity.
Qed.

Lemma matrices_at : forall t e u e' x, mats_at t e x -> mats_at u e' x -> same_matrices_at e t e' u.
Proof.
  intros t e u e' x [(v & A1 & A2 & A3) (w & B1 & B2 & B3)] [(v' & C1 & C2 & C3) (w' & D1 & D2 & D3)].
  assert (v' = v) by congruence. assert (w' = w) by congruence. subst v' w'. split.
  - exists (hp_get (en_heap e) v), (hp_get (en_heap e') v). split; [exists v; auto|]. split; [exists v; auto|]. unfold at_t in *. congruence.
  - exists (hp_get (en_heap e) w), (hp_get (en_heap e') w). split; [exists w; auto|]. split; [exists w; auto|]. unfold at_t in *. congruence.
Qed.

(* ---------------------------------------------------------------------- theorems *)

(** C27. Two simulations of the same array, fitted with inputs that agree at a timestep of
    each, publish the same results at these timesteps, whatever the other timesteps, their
    number and the positions; for any sequence of runs in full and fast mode. The condition
    on the lengths is only needed for the full mode. *)
Theorem C27_independent : forall P e0 i t j u runs e e',
  valid_params (pv_params (en_array e0)) ->
  (t < n_timesteps i)%nat -> (u < n_timesteps j)%nat -> same_inputs i t j u ->
  forallb is_run runs = true ->
  exec_all P e0 (Fit i :: runs) = Ok e -> exec_all P e0 (Fit j :: runs) = Ok e' ->
  (In RunFull runs -> no_sliver_at e t) ->
  same_results e t e' u /\ (In RunFull runs -> same_matrices_at e t e' u).
Proof.
  intros P e0 i t j u runs e e' V T U SI R EX EX' NS. cbn [exec_all exec] in EX, EX'.
  apply bind_ok in EX. destruct EX as (e1 & F1 & EX). apply bind_ok in EX'. destruct EX' as (e1' & F1' & EX').
  destruct (engine_fit_at _ _ _ _ t F1 T) as (x & X & XA). destruct (engine_fit_at _ _ _ _ u F1' U) as (y & Y & YA).
  rewrite (same_alone _ _ _ _ SI) in X. assert (y = x) by congruence. subst y.
  destruct (ProofRun.engine_fit_params _ _ _ _ F1) as (EP & _). destruct (ProofRun.engine_fit_params _ _ _ _ F1') as (EP' & _).
  assert (FK : forall q r, exec_all P q runs = Ok r -> pv_fitted (en_array r) = pv_fitted (en_array q)).
  { clear - R. revert R. induction runs as [|c l IH]; intros R q r H; [injection H as <-; reflexivity|].
    cbn [forallb] in R. apply andb_prop in R. cbn [exec_all] in H. apply bind_ok in H. destruct H as (q1 & Q1 & H).
    rewrite (IH (proj2 R) _ _ H). apply (run_keeps _ _ _ _ (proj1 R) Q1). }
  assert (NS1 : In RunFull runs -> no_sliver_at e1 t).
  { intros I a s A. apply (NS I). rewrite (FK _ _ EX). exact A. }
  assert (NS2 : In RunFull runs -> no_sliver_at e1' u).
  { intros I b s B Hs. pose proof XA as [_ _ _ _ _ _ _ _ (a & fi & A1 & A2 & _) _ _]. pose proof YA as [_ _ _ _ _ _ _ _ (b0 & fj & B1 & B2 & _) _ _].
    assert (b0 = b) by congruence. subst b0. assert (E : sl_fitted t a = sl_fitted u b) by congruence.
    assert (Q : In (sl_surface u s) (map (sl_surface t) (all_ts_surfaces a))).
    { rewrite <- sl_all, E, sl_all. apply in_map, Hs. }
    apply in_map_iff in Q. destruct Q as (s0 & Q & I0).
    assert (L : s_length s0 t = s_length s u).
    { pose proof (f_equal (fun s => s_length s 0%nat) Q) as QL. exact QL. }
    rewrite <- L. exact (NS1 I a s0 A1 I0). }
  destruct (runs_at P t _ runs R T e1 x e XA ltac:(rewrite EP; exact V) NS1 EX) as (r & E1 & A1 & M1 & _).
  destruct (runs_at P u _ runs R U e1' x e' YA ltac:(rewrite EP'; exact V) NS2 EX') as (r' & E2 & A2 & M2 & _).
  assert (r' = r) by congruence. subst r'.
  split; [exact (results_at _ _ _ _ _ _ _ A1 A2)|]. intro I. exact (matrices_at _ _ _ _ _ (M1 (or_intror I)) (M2 (or_intror I))).
Qed.

(** C27. In particular, reading off one timestep of a batch gives what the simulation of
    this timestep alone gives; and this simulation succeeds if the batch does. *)
Theorem C27_alone : forall P e0 i t runs e,
  valid_params (pv_params (en_array e0)) -> (t < n_timesteps i)%nat -> forallb is_run runs = true ->
  exec_all P e0 (Fit i :: runs) = Ok e -> (In RunFull runs -> no_sliver_at e t) ->
  exists e', exec_all P e0 (Fit (alone i t) :: runs) = Ok e' /\ same_results e t e' 0 /\
    (In RunFull runs -> same_matrices_at e t e' 0).
Proof.
  intros P e0 i t runs e V T R EX NS. pose proof EX as EX0. cbn [exec_all exec] in EX |- *.
  apply bind_ok in EX. destruct EX as (e1 & F1 & EX). destruct (engine_fit_at _ _ _ _ t F1 T) as (x & X & XA).
  destruct (ProofRun.engine_fit_params _ _ _ _ F1) as (EP & _).
  assert (NS1 : In RunFull runs -> no_sliver_at e1 t).
  { assert (FK : forall q r, exec_all P q runs = Ok r -> pv_fitted (en_array r) = pv_fitted (en_array q)).
    { clear - R. revert R. induction runs as [|c l IH]; intros R q r H; [injection H as <-; reflexivity|].
      cbn [forallb] in R. apply andb_prop in R. cbn [exec_all] in H. apply bind_ok in H. destruct H as (q1 & Q1 & H).
      rewrite (IH (proj2 R) _ _ H). apply (run_keeps _ _ _ _ (proj1 R) Q1). }
    intros I a s A. apply (NS I). rewrite (FK _ _ EX). exact A. }
  destruct (runs_at P t _ runs R T e1 x e XA ltac:(rewrite EP; exact V) NS1 EX) as (r & E1 & _).
  exists r. assert (EX' : exec_all P e0 (Fit (alone i t) :: runs) = Ok r) by (cbn [exec_all exec]; rewrite X; exact E1).
  split; [rewrite X; exact E1|].
  apply (C27_independent P e0 i t (alone i t) 0 runs e r); auto.
  unfold same_inputs. cbn. repeat split. destruct (ri_ghi i); reflexivity.
Qed.

(** C27. A batch of well shaped inputs is computed without error exactly when each of its
    timesteps alone is. *)
Theorem C27_success : forall P e0 i runs e,
  valid_params (pv_params (en_array e0)) -> (0 < n_timesteps i)%nat -> forallb is_run runs = true ->
  engine_fit P e0 i = Ok e -> (In RunFull runs -> forall t, (t < n_timesteps i)%nat -> no_sliver_at e t) ->
  ((exists r, exec_all P e0 (Fit i :: runs) = Ok r) <->
   forall t, (t < n_timesteps i)%nat -> exists r, exec_all P e0 (Fit (alone i t) :: runs) = Ok r).
Proof.
  intros P e0 i runs e V Z R F NS. cbn [exec_all exec]. rewrite F. cbn [bind].
  destruct (ProofRun.engine_fit_params _ _ _ _ F) as (EP & _). split.
  - intros (r & EX) t T. destruct (engine_fit_at _ _ _ _ t F T) as (x & X & XA).
    destruct (runs_at P t _ runs R T e x r XA ltac:(rewrite EP; exact V) (fun I => NS I t T) EX) as (r' & E1 & _).
    exists r'. rewrite X. exact E1.
  - intro H. destruct (exec_all P e runs) as [r|x] eqn:EX; [exists r; reflexivity|]. exfalso.
    pose (g := fun t => match engine_fit P e0 (alone i t) with Ok q => q | Err _ => e end).
    destruct (runs_fail P _ runs R Z e g x) as (t & T & K); auto.
    + intros t T. destruct (engine_fit_at _ _ _ _ t F T) as (q & Q & QA). unfold g. rewrite Q. exact QA.
    + rewrite EP. exact V.
    + destruct (H t T) as (r & Hr). unfold g in K. destruct (engine_fit P e0 (alone i t)); cbn in Hr; congruence.
Qed.

(* ----------------------------------------------------------------------- example *)

(** A batch of two timesteps, and another where its second timestep is the first of three. *)
Definition fx_engine (k : irr_kind) : engine :=
  engine_init (pvarray_init fx_p []) None (Some (ex_model k)) None None.
Definition fx_other (x : R) : raw_inputs :=
  RawInputs (NArray 3 (fun t => if Nat.eqb t 0 then 1%nat else 5%nat)) (NArray 3 (fun t => if Nat.eqb t 0 then 1000 else x))
    (NArray 3 (fun t => if Nat.eqb t 0 then 100 else x)) (NArray 3 (fun t => if Nat.eqb t 0 then 60 else x))
    (NArray 3 (fun t => if Nat.eqb t 0 then 90 else x)) (NArray 3 (fun t => if Nat.eqb t 0 then 60 else x))
    (NArray 3 (fun t => if Nat.eqb t 0 then 90 else x)) (NArray 3 (fun t => if Nat.eqb t 0 then 1 / 5 else x)) None.
Lemma fx_engine_fit : forall P k raw, well_shaped raw -> exists e, engine_fit P (fx_engine k) raw = Ok e.
Proof.
  intros P k raw W. apply C50_fit_succeeds; [exact fx_valid|]. split; [exact W|]. cbn. repeat split; discriminate.
Qed.
Lemma ex_raw_shaped : well_shaped ex_raw.
Proof. exists (Some 2%nat). cbn. repeat (split; [reflexivity|]). split; [discriminate | left; reflexivity]. Qed.
Lemma fx_array : forall P k e, engine_fit P (fx_engine k) ex_raw = Ok e ->
  exists a, pv_fitted (en_array e) = Some a /\ fit fx_p 2 ex_f = Some a.
Proof.
  intros P k e Fi. destruct (engine_fit_fitted P (fx_engine k) ex_raw e fx_valid Fi) as (i & a & f & rf & rb & Hi & FE).
  exists a. split; [exact (fe_array _ _ _ _ _ _ _ FE)|]. pose proof (fe_fit _ _ _ _ _ _ _ FE) as F. unfold fit_of in F.
  rewrite (proj1 (engine_fit_params _ _ _ _ Fi)) in F. inversion Hi; subst i. exact F.
Qed.
Lemma fx_slivers : forall P k e, engine_fit P (fx_engine k) ex_raw = Ok e -> no_sliver_at e 1.
Proof.
  intros P k e Fi a s Ha I. destruct (fx_array P k e Fi) as (a' & A & F). assert (a' = a) by congruence. subst a'.
  destruct (fx_no_slivers a F s I) as [Z|Z]; [left; exact Z | right; lra].
Qed.
Lemma fx_full : forall P k e, engine_fit P (fx_engine k) ex_raw = Ok e -> exists e', run_full_mode e = Ok e'.
Proof.
  intros P k e Fi. destruct (fx_array P k e Fi) as (a & A & F).
  destruct (engine_fit_fitted P (fx_engine k) ex_raw e fx_valid Fi) as (i & a' & f & rf & rb & Hi & FE).
  apply (C20_run_succeeds P (fx_engine k) ex_raw e i a fx_valid Fi Hi A). inversion Hi; subst i. cbn [ii_n]. intros t T. split.
  - destruct (fit_spec _ _ _ _ F) as [_ [Er _]].
    assert (B : forall x, 2 / 2 * Rabs (sin x) < 3).
    { intro x. assert (Rabs (sin x) <= 1) by (apply Rabs_le; apply SIN_bound). lra. }
    destruct t as [|[|]]; [apply (physical_day _ _ _ _ (PI / 4)) | apply (physical_day _ _ _ _ (PI / 6)); exact (fx_scene a F) | lia].
    split; [exact fx_valid|]. split; [exact F|]. split; [exact ex_sun0|]. rewrite Er. split; [exact ex_nosliver0|].
    change (fit_rotation _ _) with (fit_rotation ex_p ex_f). rewrite ex_rot0. split; [lra|]. split; [apply B | intro; lra].
  - exists (1 / 5). split; [lra|]. split; [|split]; cbn.
    + intros r E. inversion E. lra.
    + intros r E. inversion E. lra.
    + lra.
Qed.
Lemma fx_fast : forall P k raw e, valid_params (pv_params (en_array (fx_engine k))) -> engine_fit P (fx_engine k) raw = Ok e ->
  forall runs e1, forallb is_run runs = true -> exec_all P e runs = Ok e1 -> exists e2, run_fast_mode e1 (Some 1%nat) None = Ok e2.
Proof.
  intros P k raw e V Fi runs e1 R EX. apply (C25_succeeds P (fx_engine k) raw e runs e1 (Some 1%nat) None V Fi R EX).
  exists 1%nat. cbn. split; [reflexivity|]. split; [lia | exact I].
Qed.

(** The second timestep of [ex_raw] in full mode, then in fast mode with an engine fitted
    with any other companion timesteps. *)
Example C27_example : forall P k x, exists e e1 e2 e3,
  valid_params (pv_params (en_array (fx_engine k))) /\
  engine_fit P (fx_engine k) ex_raw = Ok e /\ no_sliver_at e 1 /\
  exec_all P (fx_engine k) [Fit ex_raw; RunFull; RunFast (Some 1%nat) None] = Ok e1 /\ no_sliver_at e1 1 /\
  (1 < n_timesteps ex_raw)%nat /\ (0 < n_timesteps (fx_other x))%nat /\ same_inputs ex_raw 1 (fx_other x) 0 /\
  exec_all P (fx_engine k) [Fit ex_raw; RunFast (Some 1%nat) None] = Ok e2 /\
  exec_all P (fx_engine k) [Fit (fx_other x); RunFast (Some 1%nat) None] = Ok e3.
Proof.
  intros P k x. destruct (fx_engine_fit P k ex_raw ex_raw_shaped) as [e Fi]. destruct (fx_full P k e Fi) as [f Ru].
  assert (W : well_shaped (fx_other x)).
  { exists (Some 3%nat). cbn. repeat (split; [reflexivity|]). split; [discriminate | right; reflexivity]. }
  destruct (fx_engine_fit P k _ W) as [e' Fi'].
  assert (RE : exec_all P e [RunFull] = Ok f) by (cbn [exec_all exec]; rewrite Ru; reflexivity).
  destruct (fx_fast P k ex_raw e fx_valid Fi [RunFull] f eq_refl RE) as [e1 R1].
  destruct (fx_fast P k ex_raw e fx_valid Fi [] e eq_refl eq_refl) as [e2 R2].
  destruct (fx_fast P k _ e' fx_valid Fi' [] e' eq_refl eq_refl) as [e3 R3].
  exists e, e1, e2, e3. pose proof (fx_slivers P k e Fi) as NS.
  split; [exact fx_valid|]. split; [exact Fi|]. split; [exact NS|].
  split; [cbn [exec_all exec]; rewrite Fi; cbn [bind]; rewrite Ru; cbn [bind]; rewrite R1; reflexivity|].
  split.
  { intros a s A. apply NS. rewrite <- A.
    destruct (run_keeps P e RunFull f eq_refl Ru) as [_ K1]. destruct (run_keeps P f (RunFast (Some 1%nat) None) e1 eq_refl R1) as [_ K2]. congruence. }
  split; [cbn; lia|]. split; [cbn; lia|]. split; [unfold same_inputs; cbn; repeat split|].
  split; cbn [exec_all exec]; rewrite ?Fi, ?Fi'; cbn [bind]; rewrite ?R2, ?R3; reflexivity.
Qed.

Print Assumptions C27_independent.
Print Assumptions C27_alone.
Print Assumptions C27_success.
