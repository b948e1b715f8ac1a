(** Lemmas about full mode runs: existence of the solution, what a run leaves. *)
From Coq Require Import Reals List Bool Arith String Lra Lia FunctionalExtensionality.
From Verif Require Import Num ModelTs ModelGeom ModelVF Basics SpecGeom SpecVF ProofFit ProofIndex ProofGeom2 PropGeom ProofVF2 PropVF ModelLinalg ProofLinalg SpecEngine ProofRadiosity ModelParams SpecParams ProofParams ModelIrr SpecIrr ProofIrr ProofSky ModelAOI ModelEngine SpecRun ProofEngine PropEngine.
Import ListNotations.
Open Scope R_scope.

Lemma sum_over_seq : forall n g, sum_over (seq 0 n) g = isum n g.
Proof. intros. rewrite sum_over_rsum, rsum_seq. reflexivity. Qed.

(** Sum of a row of the view factor matrix, by index. *)
Lemma row_sum_le : forall P e i a f rf rb, fitted_engine P e i a f rf rb ->
  forall t j, (j <= fr_n a)%nat -> isum (S (fr_n a)) (fr_F a t j) <= 1.
Proof.
  intros P e i a f rf rb FE t j J.
  pose proof (fe_valid _ _ _ _ _ _ _ FE) as V. pose proof (fe_fit _ _ _ _ _ _ _ FE) as F.
  destruct (Nat.eq_dec j (fr_n a)) as [->|N].
  - rewrite isum_zero; [lra|]. intros l _. exact (fe_sky_row _ _ _ _ _ _ _ FE t l).
  - destruct (surf_at a j ltac:(lia)) as (s & Es & Is).
    pose proof (surf_index_nth _ _ _ _ _ _ V F Es) as Sj.
    destruct (C13_closure _ _ _ _ t s V F Is) as (A & B & _). rewrite Sj in A, B.
    destruct (Rlt_dec DISTANCE_TOLERANCE (s_length s t)) as [L|L].
    + apply A in L. rewrite sum_over_seq in L. right. exact L.
    + rewrite isum_zero; [lra|]. intros l _. unfold fr_F. apply B. lra.
Qed.

Lemma isum_init_le : forall n (g : nat -> R), 0 <= g n -> isum n g <= isum (S n) g.
Proof. intros n g H. cbn [isum]. lra. Qed.

Section Solvable.
  Variables (P : pvlib) (e : engine) (i : irr_inputs) (a : fitted) (f : irr_fitted) (rf rb : R).
  Hypothesis FE : fitted_engine P e i a f rf rb.
  Variable t : nat.
  Hypothesis NN : forall j k, 0 <= fr_F a t j k.
  Hypothesis Rf : 0 < rf < 1.
  Hypothesis Rb : 0 < rb < 1.
  Hypothesis Al : 0 < ii_albedo i t < 1.

  Lemma cat_rho_range : forall c, 0 < cat_rho i rf rb c t < 1.
  Proof. intros [sh|j [] sh]; assumption. Qed.

  Lemma fr_invrho_range : forall j, (j < fr_n a)%nat ->
    exists r, 0 < r < 1 /\ fr_invrho a (pv_store (en_array e)) t j = / r /\
      fr_rho a (pv_store (en_array e)) t j = r.
  Proof.
    intros j J. destruct (surf_at a j J) as (s & Es & Is). destruct (category_exists a s Is) as [c C].
    exists (cat_rho i rf rb c t). split; [apply cat_rho_range|].
    rewrite (fr_invrho_at e a t j s Es), (fr_rho_at e a t j s Es).
    rewrite (inv_rho_of _ _ _ _ _ _ _ FE s c C), (rho_of _ _ _ _ _ _ _ FE s c C).
    split; [|reflexivity]. unfold Rdiv. lra.
  Qed.

  Lemma fr_invertible : exists B, linalg_inv (S (fr_n a)) (fr_system a (pv_store (en_array e)) t) = Some B.
  Proof.
    set (N := fr_n a). set (st := pv_store (en_array e)).
    assert (RP : forall j, (j < S N)%nat -> 0 < / fr_invrho a st t j <= 1 /\ / / fr_invrho a st t j = fr_invrho a st t j).
    { intros j J. destruct (Nat.eq_dec j N) as [->|Nj].
      - unfold st, N. rewrite fr_invrho_sky. rewrite !Rinv_1. lra.
      - destruct (fr_invrho_range j ltac:(unfold N in *; lia)) as (r & Hr & E & _).
        unfold st. rewrite E, Rinv_inv. lra. }
    destruct (system_invertible (S N) (fun j => / fr_invrho a st t j) (fr_F a t)) as [B HB].
    - intros j J. apply RP; exact J.
    - intros; apply NN.
    - intros j J. pose proof (row_sum_le _ _ _ _ _ _ _ FE t j ltac:(unfold N in *; lia)) as RS.
      fold N in RS. assert (0 <= isum (S N) (fr_F a t j)) by (apply isum_nonneg; intros; apply NN).
      destruct (Nat.eq_dec j N) as [->|Nj].
      + rewrite (isum_zero (S N)) by (intros l _; exact (fe_sky_row _ _ _ _ _ _ _ FE t l)). lra.
      + destruct (fr_invrho_range j ltac:(unfold N in *; lia)) as (r & Hr & E & _).
        unfold st. rewrite E, Rinv_inv. nra.
    - exists B. rewrite <- HB. unfold fr_system, system_matrix. fold st N. clear HB B.
      f_equal. f_equal. f_equal. apply functional_extensionality. intro j. rewrite Rinv_inv. reflexivity.
  Qed.
End Solvable.

Lemma value_at_fun : forall st s k t x y, value_at st s k t x -> value_at st s k t y -> x = y.
Proof.
  intros st s k t x y (v & E & <-) (w & E' & <-). rewrite E in E'.
  apply (f_equal (fun o => match o with Ok (PArr v) => v t | _ => 0 end)) in E'. exact E'.
Qed.
Lemma sources_fun : forall k st s t x y, light_sources k st s t x -> light_sources k st s t y -> x = y.
Proof.
  intros k st s t x y H H'. destruct k; cbn in *; [exact (value_at_fun _ _ _ _ _ _ H H')|].
  destruct H as (d & c & h & A & B & C & ->), H' as (d' & c' & h' & A' & B' & C' & ->).
  rewrite (value_at_fun _ _ _ _ _ _ A A'), (value_at_fun _ _ _ _ _ _ B B'), (value_at_fun _ _ _ _ _ _ C C'). reflexivity.
Qed.
Lemma absorbed_fun : forall k st s t x y, absorbed_sources k st s t x -> absorbed_sources k st s t y -> x = y.
Proof.
  intros k st s t x y H H'. destruct k; cbn in *; [exact (value_at_fun _ _ _ _ _ _ H H')|].
  destruct H as (d & c & h & A & B & C & ->), H' as (d' & c' & h' & A' & B' & C' & ->).
  rewrite (value_at_fun _ _ _ _ _ _ A A'), (value_at_fun _ _ _ _ _ _ B B'), (value_at_fun _ _ _ _ _ _ C C'). reflexivity.
Qed.

(** What a run published on one surface. *)
Record run_point (k : irr_kind) (a : fitted) (f : irr_fitted) (st : pstore) (c : calculator)
    (inv : ts matrix) (st' : pstore) (t : nat) (s : ts_surface) (j : nat) : Prop := RunPoint {
  rp_nth : nth_error (all_ts_surfaces a) j = Some s;
  rp_lt : (j < fr_n a)%nat;
  rp_index : surf_index a s = j;
  rp_q0 : value_at st' s "q0" t (fr_q0 k a f st inv t j);
  rp_qinc : value_at st' s "qinc" t (fr_qinc k a f st inv t j);
  rp_iso : value_at st' s "isotropic" t (fr_iso k a f st j t);
  rp_refl : value_at st' s "reflection" t (fr_refl k a f st inv j t);
  rp_qabs : value_at st' s "qabs" t (fr_qabs k a f st c inv j t);
  rp_rho : value_at st' s "rho" t (fr_rho a st t j);
  rp_src : light_sources k st' s t (fr_irr k a f st t j);
  rp_abs : absorbed_sources k st' s t (fr_abs k a st t j)
}.

Lemma run_points : forall P e i a f rf rb e', fitted_engine P e i a f rf rb -> run_full_mode e = Ok e' ->
  exists inv, inv_stack (ft_n_states a) (S (fr_n a)) (fr_system a (pv_store (en_array e))) = Ok inv /\
    pv_fitted (en_array e') = Some a /\ en_irr_fitted e' = Some f /\
    forall t s, In s (all_ts_surfaces a) -> exists j,
      run_point (im_kind (en_irr e)) a f (pv_store (en_array e)) (en_calc e) inv (pv_store (en_array e')) t s j.
Proof.
  intros P e i a f rf rb e' FE Ru.
  destruct (run_full_values _ _ _ _ _ _ _ _ FE Ru) as (inv & INV & A & If & Ie & _ & ST).
  exists inv. split; [exact INV|]. split; [exact A|]. split; [exact If|].
  intros t s Is. destruct (In_nth_error _ _ Is) as [j Ej]. exists j.
  pose proof (fe_valid _ _ _ _ _ _ _ FE) as V. pose proof (fe_fit _ _ _ _ _ _ _ FE) as F.
  set (k := im_kind (en_irr e)) in *. set (st0 := pv_store (en_array e)) in *.
  pose proof (fitted_ready _ _ _ _ _ _ _ FE s Is) as RD. fold st0 k in RD.
  destruct (write_results_get st0 (fr_surfs a) (fun i t => fr_q0 k a f st0 inv t i)
     (fun i t => fr_qinc k a f st0 inv t i) (fr_iso k a f st0) (fr_refl k a f st0 inv)
     (fr_qabs k a f st0 (en_calc e) inv) j s (fit_ids_nodup _ _ _ _ V F) Ej) as (W0 & W1 & W2 & W3 & W4).
  fold (fr_store k a f st0 (en_calc e) inv) in W0, W1, W2, W3, W4. rewrite <- ST in W0, W1, W2, W3, W4.
  assert (L : (j < fr_n a)%nat).
  { unfold fr_n. rewrite n_ts_surfaces_length. apply nth_error_Some. rewrite Ej. discriminate. }
  constructor.
  - exact Ej.
  - exact L.
  - exact (surf_index_nth _ _ _ _ _ _ V F Ej).
  - eexists; split; [exact W0 | reflexivity].
  - eexists; split; [exact W1 | reflexivity].
  - eexists; split; [exact W2 | reflexivity].
  - eexists; split; [exact W3 | reflexivity].
  - eexists; split; [exact W4 | reflexivity].
  - unfold st0. rewrite (fr_rho_at e a t j s Ej). rewrite ST. apply value_other; [reflexivity|].
    apply numeric_value, RD.
  - unfold k, st0. rewrite (fr_irr_at e a f t j s Ej), ST. apply sources_other, sources_comps, RD.
  - rewrite ST. apply absorbed_other.
    replace (fr_abs k a st0 t j) with (comps_sum st0 s (irradiance_comp_absorbed k) t); [apply absorbed_comps, RD|].
    unfold fr_abs, column, fr_surfs, row_of.
    rewrite (nth_error_nth _ _ _ (map_nth_error (fun s => comps_sum st0 s (irradiance_comp_absorbed k)) _ _ Ej)).
    reflexivity.
Qed.

Lemma engine_fit_params : forall P e0 raw e, engine_fit P e0 raw = Ok e ->
  pv_params (en_array e) = pv_params (en_array e0) /\ en_irr e = en_irr e0 /\ ca_aoi (en_calc e) = ca_aoi (en_calc e0).
Proof.
  intros P e0 raw e Fi. unfold engine_fit in Fi. apply bind_ok in Fi. destruct Fi as (i & _ & Fi).
  destruct (engine_fit_arrays_inv _ _ _ _ Fi) as (? & ? & ? & c & ? & ? & _ & _ & _ & _ & _ & C & ->).
  cbn. split; [reflexivity|]. split; [reflexivity|]. unfold calculator_fit in C.
  destruct (ca_aoi (en_calc e0)) eqn:E; [|inversion C; subst c; exact E].
  apply bind_ok in C. destruct C as (af & _ & C). inversion C; subst c. reflexivity.
Qed.

(** From surfaces to indices. *)
Lemma surf_total : forall p n fi a t s j (h : nat -> R) (g : ts_surface -> R),
  valid_params p -> fit p n fi = Some a -> nth_error (all_ts_surfaces a) j = Some s ->
  (forall l x, nth_error (all_ts_surfaces a) l = Some x -> g x = h l) ->
  total (fun x => vf a t s x * g x) (all_ts_surfaces a) =
  sum_below (fr_n a) (fun l => fr_F a t j l * h l).
Proof.
  intros p n fi a t s j h g V F Ej H. rewrite sum_below_isum.
  rewrite (total_isum _ _ (fun l => fr_F a t j l * h l)).
  - unfold fr_n. rewrite n_ts_surfaces_length. reflexivity.
  - intros l x Ex. unfold vf. rewrite (surf_index_nth _ _ _ _ _ _ V F Ex), (surf_index_nth _ _ _ _ _ _ V F Ej).
    rewrite (H l x Ex). reflexivity.
Qed.

Lemma bounced_index : forall p n fi a t (rho recv : ts_surface -> R) (rho' recv' : nat -> R),
  valid_params p -> fit p n fi = Some a ->
  (forall l x, nth_error (all_ts_surfaces a) l = Some x -> rho x = rho' l /\ recv x = recv' l) ->
  forall k l x, nth_error (all_ts_surfaces a) l = Some x ->
  bounced a t rho recv k x = bounces (fr_n a) (fr_F a t) rho' recv' k l.
Proof.
  intros p n fi a t rho recv rho' recv' V F H k.
  induction k as [|k IH]; intros l x E; cbn [bounced bounces]; [exact (proj2 (H l x E))|].
  rewrite (proj2 (H l x E)). f_equal.
  apply (surf_total p n fi a t x l (fun j => rho' j * bounces (fr_n a) (fr_F a t) rho' recv' k j)
           (fun x => rho x * bounced a t rho recv k x) V F E).
  intros j y Ey. rewrite (proj1 (H j y Ey)), (IH j y Ey). reflexivity.
Qed.

(** Published values, by index. *)
Lemma published_index : forall P e i a f rf rb e' t (qinc rho src : ts_surface -> R),
  fitted_engine P e i a f rf rb -> run_full_mode e = Ok e' -> (t < ii_n i)%nat ->
  ii_albedo i t <> 0 -> rf <> 0 -> rb <> 0 ->
  published (im_kind (en_irr e)) (pv_store (en_array e')) (all_ts_surfaces a) t qinc rho src ->
  exists q r s0, radiosity_balance (fr_n a) (fr_F a t) r
      (fun j => s0 j + fr_F a t j (fr_n a) * irr_sky_luminance f t) q /\
    (forall l x, nth_error (all_ts_surfaces a) l = Some x ->
       (l < fr_n a)%nat /\ surf_index a x = l /\ qinc x = q l /\ rho x = r l /\ src x = s0 l) /\
    (forall l, (l < fr_n a)%nat -> exists x, nth_error (all_ts_surfaces a) l = Some x /\ In x (all_ts_surfaces a)) /\
    (forall l, (l < fr_n a)%nat -> r l = ii_albedo i t \/ r l = rf \/ r l = rb).
Proof.
  intros P e i a f rf rb e' t qinc rho src FE Ru T Al Rf Rb PB.
  destruct (run_points _ _ _ _ _ _ _ _ FE Ru) as (inv & INV & A & If & RP).
  rewrite <- (fe_n _ _ _ _ _ _ _ FE) in T.
  exists (fr_qinc (im_kind (en_irr e)) a f (pv_store (en_array e)) inv t), (fr_rho a (pv_store (en_array e)) t),
    (fr_irr (im_kind (en_irr e)) a f (pv_store (en_array e)) t).
  split; [exact (fr_balance _ _ _ _ _ _ _ FE inv INV t T Al Rf Rb (fe_sky_row _ _ _ _ _ _ _ FE t))|].
  split; [|split; [exact (surf_at a)|]].
  - intros l x Ex. pose proof (nth_error_In _ _ Ex) as Ix.
    destruct (PB x Ix) as (P1 & P2 & P3). destruct (RP t x Ix) as [j PT].
    assert (j = l).
    { rewrite <- (rp_index _ _ _ _ _ _ _ _ _ _ PT).
      exact (surf_index_nth _ _ _ _ _ _ (fe_valid _ _ _ _ _ _ _ FE) (fe_fit _ _ _ _ _ _ _ FE) Ex). }
    subst j. split; [exact (rp_lt _ _ _ _ _ _ _ _ _ _ PT)|].
    split; [exact (rp_index _ _ _ _ _ _ _ _ _ _ PT)|].
    split; [exact (value_at_fun _ _ _ _ _ _ P1 (rp_qinc _ _ _ _ _ _ _ _ _ _ PT))|].
    split; [exact (value_at_fun _ _ _ _ _ _ P2 (rp_rho _ _ _ _ _ _ _ _ _ _ PT))|].
    exact (sources_fun _ _ _ _ _ _ P3 (rp_src _ _ _ _ _ _ _ _ _ _ PT)).
  - intros l L. destruct (surf_at a l L) as (s & Es & Is). destruct (category_exists a s Is) as [c C].
    rewrite (fr_rho_at e a t l s Es), (rho_of _ _ _ _ _ _ _ FE s c C).
    destruct c as [sh|j [] sh]; cbn; tauto.
Qed.
