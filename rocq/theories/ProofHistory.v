(** Lemmas about sequences of calls on an engine: what the fast mode writes, what runs
    leave alone, and engines that cannot be told apart. *)
From Coq Require Import Reals List Bool Arith String Lra Lia FunctionalExtensionality.
From Verif Require Import Num ModelTs ModelGeom ModelVF Basics SpecGeom ProofFit ProofIndex ProofGeom2 PropGeom ModelLinalg ProofLinalg SpecEngine ProofRadiosity ModelParams SpecParams ProofParams ModelIrr SpecIrr ProofIrr ModelAOI ModelEngine SpecRun ProofEngine PropEngine ProofRun.
Import ListNotations.
Open Scope R_scope.

(* -------------------------------------------------------------------- fast mode *)

Definition fast_keys : list string :=
  ["sky_term"; "qinc"; "reflection_gnd_shaded"; "reflection_gnd_illum";
   "reflection_pvrow_shaded"; "reflection_pvrow_illum"; "isotropic"; "reflection";
   "view_factors"]%string.
Definition full_keys : list string := ["q0"; "qinc"; "isotropic"; "reflection"; "qabs"]%string.
(** Parameters that some run writes. *)
Definition run_keys : list string := fast_keys ++ full_keys.

Section FastValues.
  Variables (k : irr_kind) (rf : R) (f : irr_fitted) (a : fitted) (idx : nat) (st : pstore) (s : ts_surface).
  Definition fa_vf : ts (option fast_vf) :=
    fun t => get_vf_ts_pvrow_element idx (s_coords s) (ft_rows a) (ft_ground a) (ft_rotation a) (ft_width a) t.
  Definition fa_gs (t : nat) : R := vf_value to_gnd_shaded fa_vf t * if_albedo f t * irr_gnd_shaded f t.
  Definition fa_gi (t : nat) : R := vf_value to_gnd_illum fa_vf t * if_albedo f t * irr_gnd_illum f t.
  Definition fa_ps (t : nat) : R := vf_value to_pvrow_shaded fa_vf t * rf * irr_pvrow_shaded f t.
  Definition fa_pi (t : nat) : R := vf_value to_pvrow_illum fa_vf t * rf * irr_pvrow_illum f t.
  Definition fa_iso (t : nat) : R := vf_value to_sky fa_vf t * irr_sky_luminance f t.
  Definition fa_sky : ts R := comps_sum st s (irradiance_comp k).
  Definition fa_dict : dict :=
    [("sky_term", PArr fa_sky);
     ("qinc", PArr (fun t => fa_gs t + fa_gi t + fa_ps t + fa_pi t + fa_iso t + fa_sky t));
     ("reflection_gnd_shaded", PArr fa_gs); ("reflection_gnd_illum", PArr fa_gi);
     ("reflection_pvrow_shaded", PArr fa_ps); ("reflection_pvrow_illum", PArr fa_pi);
     ("isotropic", PArr fa_iso);
     ("reflection", PArr (fun t => fa_gs t + fa_gi t + fa_ps t + fa_pi t));
     ("view_factors", PVF fa_vf)]%string.
End FastValues.

Lemma fast_surface_ok : forall m f a idx st s rf, im_rho_front m = Some rf ->
  (forall c, In c (irradiance_comp (im_kind m)) -> numeric st s c) ->
  exists st', fast_surface m f a idx st s = Ok st' /\
    updated st st' [s_id s] (fa_dict (im_kind m) rf f a idx st s) /\
    ps_ground st' = ps_ground st /\ ps_element st' = ps_element st.
Proof.
  intros m f a idx st s rf R N. unfold fast_surface, update_sky_term.
  rewrite (sum_components_ok _ _ _ N). cbn [bind]. rewrite R.
  set (st1 := surf_update st s [("sky_term"%string, PArr (comps_sum st s (irradiance_comp (im_kind m))))]).
  assert (G : get_num st1 s "sky_term" = Ok (comps_sum st s (irradiance_comp (im_kind m)))).
  { unfold get_num, get_param, st1, surf_update. cbn [ps_surf]. destruct (sid_eq_dec (s_id s) (s_id s)); [|congruence].
    rewrite dict_update_overlay. reflexivity. }
  cbn zeta. rewrite G. cbn [bind]. eexists. split; [reflexivity|]. split; [|split; reflexivity].
  intros x key.
  match goal with |- ps_surf (surf_update st1 s ?d) x key = _ =>
    rewrite (surf_updated st1 s d x key) end.
  unfold st1. rewrite (surf_updated st s [("sky_term"%string, PArr (comps_sum st s (irradiance_comp (im_kind m))))] x key).
  destruct (in_dec sid_eq_dec x [s_id s]); reflexivity.
Qed.

Lemma fold_result_app : forall (A B : Type) (f : A -> B -> result A) l m x,
  fold_result f (l ++ m) x = do y <- fold_result f l x; fold_result f m y.
Proof.
  induction l as [|b l IH]; intros m x; [reflexivity|]. cbn [app fold_result].
  destruct (f x b); [apply IH | reflexivity].
Qed.
Lemma fold_result_flat : forall (A B C : Type) (f : A -> B -> result A) (g : C -> list B) l x,
  fold_result (fun y c => fold_result f (g c) y) l x = fold_result f (flat_map g l) x.
Proof.
  induction l as [|c l IH]; intros x; [reflexivity|]. cbn [flat_map fold_result].
  rewrite fold_result_app. destruct (fold_result f (g c) x); [apply IH | reflexivity].
Qed.

(** Sums of components do not change when other parameters do. *)
Lemma num_of_ext : forall st st' s k, ps_surf st' (s_id s) k = ps_surf st (s_id s) k -> num_of st' s k = num_of st s k.
Proof. intros st st' s k H. unfold num_of, get_param. rewrite H. reflexivity. Qed.
Lemma comps_sum_ext : forall st st' s ks,
  (forall k, In k ks -> ps_surf st' (s_id s) k = ps_surf st (s_id s) k) -> comps_sum st' s ks = comps_sum st s ks.
Proof.
  intros st st' s ks H. apply functional_extensionality. intro t. unfold comps_sum.
  generalize 0 at 1 2. revert H. induction ks as [|k ks IH]; intros H z; [reflexivity|]. cbn [fold_left].
  rewrite (num_of_ext st st' s k) by (apply H; left; reflexivity). apply IH. intros; apply H; right; assumption.
Qed.
Lemma numeric_ext : forall st st' s k, ps_surf st' (s_id s) k = ps_surf st (s_id s) k -> numeric st s k -> numeric st' s k.
Proof.
  intros st st' s k H N. unfold numeric. rewrite (num_of_ext st st' s k H). unfold get_param. rewrite H. exact N.
Qed.

Lemma comps_not_run : forall k c, In c (irradiance_comp k) -> ~ In c run_keys.
Proof. intros [] c H; cbn in *; intuition (subst; discriminate). Qed.
Lemma comps_abs_not_run : forall k c, In c (irradiance_comp_absorbed k) -> ~ In c run_keys.
Proof. intros [] c H; cbn in *; intuition (subst; discriminate). Qed.

Lemma fa_dict_keys : forall k rf f a idx st s, map fst (fa_dict k rf f a idx st s) = fast_keys.
Proof. reflexivity. Qed.
Lemma fast_keys_nodup : NoDup fast_keys.
Proof. apply nodup_dec. exact I. Qed.

Lemma overlay_some : forall d k v w, In k (map fst d) -> overlay d k v = overlay d k w.
Proof.
  induction d as [|[k' x] d IH]; intros k v w H; [contradiction|]. cbn [overlay].
  destruct (String.eqb_spec k k') as [->|N]; [reflexivity|]. apply IH.
  destruct H as [H|H]; [cbn in H; congruence | exact H].
Qed.

(** The fast mode on a list of surfaces. *)
Lemma fast_list_ok : forall m f a idx rf l st, im_rho_front m = Some rf -> NoDup (map s_id l) ->
  (forall s, In s l -> forall c, In c (irradiance_comp (im_kind m)) -> numeric st s c) ->
  exists st', fold_result (fast_surface m f a idx) l st = Ok st' /\
    (forall s k, In s l -> ps_surf st' (s_id s) k = overlay (fa_dict (im_kind m) rf f a idx st s) k (ps_surf st (s_id s) k)) /\
    (forall x, ~ In x (map s_id l) -> ps_surf st' x = ps_surf st x) /\
    ps_ground st' = ps_ground st /\ ps_element st' = ps_element st.
Proof.
  intros m f a idx rf l. induction l as [|s l IH]; intros st R ND H.
  - exists st. split; [reflexivity|]. split; [intros s k []|]. repeat split.
  - inversion ND as [|? ? NI ND']; subst.
    destruct (fast_surface_ok m f a idx st s rf R (H s (or_introl eq_refl))) as (st1 & E1 & U & G1 & G2).
    assert (O : forall x, x <> s_id s -> ps_surf st1 x = ps_surf st x).
    { intros x Nx. apply functional_extensionality. intro k. rewrite U.
      destruct (in_dec sid_eq_dec x [s_id s]) as [[E|[]]|_]; [congruence | reflexivity]. }
    assert (NE : forall y, In y l -> s_id y <> s_id s).
    { intros y Iy E. apply NI. rewrite <- E. apply in_map. exact Iy. }
    destruct (IH st1 R ND') as (st2 & E2 & A & B & C & D).
    { intros y Iy c Ic. apply (numeric_ext st); [rewrite (O _ (NE y Iy)); reflexivity|].
      apply H; [right|]; assumption. }
    exists st2. cbn [fold_result]. rewrite E1. cbn [bind]. split; [exact E2|].
    split; [|split; [|split; congruence]].
    + intros y k [<-|Iy].
      * rewrite (B _ NI). rewrite U. destruct (in_dec sid_eq_dec (s_id s) [s_id s]) as [_|N]; [reflexivity|].
        exfalso. apply N. left; reflexivity.
      * rewrite (A y k Iy), (O _ (NE y Iy)). unfold fa_dict, fa_sky. rewrite (comps_sum_ext st st1 y); [reflexivity|].
        intros c _. rewrite (O _ (NE y Iy)). reflexivity.
    + intros x Nx. cbn [map In] in Nx. rewrite B by tauto. apply O. intro E; apply Nx; left; congruence.
Qed.

(** Surfaces computed by [run_fast_mode] with row [k] and optional segment [j]. *)
Definition fast_surfaces (a : fitted) (k : nat) (j : option nat) (l : list ts_surface) : Prop :=
  exists row, nth_error (ft_rows a) k = Some row /\
  match j with
  | None => l = side_surfaces (row_back row)
  | Some j => exists g, nth_error (side_segments (row_back row)) j = Some g /\ l = seg_surfaces g
  end.
Definition pick (given default : option nat) : option nat :=
  match given with Some k => Some k | None => default end.

Definition with_store (e : engine) (a : fitted) (f : irr_fitted) (st : pstore) : engine :=
  Engine (PVArray (pv_params (en_array e)) (pv_param_names (en_array e)) (Some a) st
                    (pv_vf (en_array e)) (pv_vf_aoi (en_array e)))
            (en_irr e) (Some f) (en_calc e) (en_fast_row e) (en_fast_seg e)
            (en_n_points e) (en_skip e) (en_heap e).

Lemma run_fast_list : forall e a f k r sg,
  pv_fitted (en_array e) = Some a -> en_irr_fitted e = Some f -> pick r (en_fast_row e) = Some k ->
  forall l, fast_surfaces a k (pick sg (en_fast_seg e)) l ->
  run_fast_mode e r sg =
  do st <- fold_result (fast_surface (en_irr e) f a k) l (pv_store (en_array e)); Ok (with_store e a f st).
Proof.
  intros e a f k r sg A F K l (row & Hr & L). unfold run_fast_mode. fold (pick r (en_fast_row e)) (pick sg (en_fast_seg e)).
  rewrite A, F, K. unfold list_get at 1. rewrite Hr. cbn [bind]. destruct (pick sg (en_fast_seg e)) as [j|].
  - destruct L as (g & Hg & ->). unfold list_get. rewrite Hg. reflexivity.
  - subst l. unfold side_surfaces. rewrite <- fold_result_flat. reflexivity.
Qed.

Lemma run_fast_inv : forall e r sg e', run_fast_mode e r sg = Ok e' ->
  exists a f k l, pv_fitted (en_array e) = Some a /\ en_irr_fitted e = Some f /\ pick r (en_fast_row e) = Some k /\
    fast_surfaces a k (pick sg (en_fast_seg e)) l.
Proof.
  intros e r sg e' H. unfold run_fast_mode in H. fold (pick r (en_fast_row e)) (pick sg (en_fast_seg e)) in H.
  destruct (pv_fitted (en_array e)) as [a|]; [|discriminate H].
  destruct (en_irr_fitted e) as [f|]; [|discriminate H].
  destruct (pick r (en_fast_row e)) as [k|]; [|discriminate H].
  apply bind_ok in H. destruct H as (row & Hr & H). unfold list_get in Hr.
  destruct (nth_error (ft_rows a) k) as [row'|] eqn:Er; [|discriminate Hr]. inversion Hr; subst row'.
  exists a, f, k. unfold fast_surfaces. destruct (pick sg (en_fast_seg e)) as [j|].
  - apply bind_ok in H. destruct H as (st & H & _). apply bind_ok in H. destruct H as (g & Hg & _).
    unfold list_get in Hg. destruct (nth_error (side_segments (row_back row)) j) as [g'|] eqn:Eg; [|discriminate Hg].
    inversion Hg; subst g'. exists (seg_surfaces g). repeat (split; [reflexivity|]). exists row. split; [exact Er|]. eauto.
  - exists (side_surfaces (row_back row)). repeat (split; [reflexivity|]). exists row. split; [exact Er | reflexivity].
Qed.

Lemma in_row_all : forall a k row s, nth_error (ft_rows a) k = Some row -> In s (side_surfaces (row_back row)) ->
  In s (all_ts_surfaces a).
Proof.
  intros a k row s Hr Hs. unfold all_ts_surfaces. apply in_or_app. right. apply in_flat_map. exists row.
  split; [exact (nth_error_In _ _ Hr)|]. unfold row_surfaces. apply in_or_app. right. exact Hs.
Qed.

Lemma NoDup_sublist_map : forall (A B : Type) (g : A -> B) l1 l2 l3,
  NoDup (map g (l1 ++ l2 ++ l3)) -> NoDup (map g l2).
Proof.
  intros A B g l1 l2 l3 H. rewrite !map_app in H.
  induction (map g l1) as [|x m IH]; [|inversion H; auto]. cbn [app] in H.
  induction (map g l2) as [|y m IH]; [constructor|]. cbn [app] in H. inversion H; subst.
  constructor; [|auto]. intro I. match goal with N : ~ In y _ |- _ => apply N end. apply in_or_app. left; exact I.
Qed.
Lemma flat_map_around : forall (A B : Type) (g : A -> list B) l x, In x l ->
  exists l1 l3, flat_map g l = l1 ++ g x ++ l3.
Proof.
  intros A B g l x H. apply in_split in H. destruct H as (m1 & m2 & ->).
  exists (flat_map g m1), (flat_map g m2). rewrite flat_map_app. reflexivity.
Qed.

Lemma fast_surfaces_all : forall a k j l, fast_surfaces a k j l ->
  (forall s, In s l -> In s (all_ts_surfaces a)) /\
  (NoDup (map s_id (all_ts_surfaces a)) -> NoDup (map s_id l)).
Proof.
  intros a k j l (row & Hr & L).
  assert (AR : exists l1 l3, all_ts_surfaces a = l1 ++ side_surfaces (row_back row) ++ l3).
  { unfold all_ts_surfaces. destruct (flat_map_around _ _ row_surfaces _ _ (nth_error_In _ _ Hr)) as (m1 & m3 & E).
    rewrite E. unfold row_surfaces at 1. exists (gnd_surfaces (ft_ground a) ++ m1 ++ side_surfaces (row_front row)), m3.
    rewrite <- !app_assoc. reflexivity. }
  assert (AL : exists l1 l3, all_ts_surfaces a = l1 ++ l ++ l3).
  { destruct j as [j|]; [|subst l; exact AR]. destruct L as (g & Hg & ->). destruct AR as (l1 & l3 & E).
    destruct (flat_map_around _ _ seg_surfaces _ _ (nth_error_In _ _ Hg)) as (m1 & m3 & E').
    fold (side_surfaces (row_back row)) in E'. rewrite E' in E. exists (l1 ++ m1), (m3 ++ l3).
    rewrite E, <- !app_assoc. reflexivity. }
  destruct AL as (l1 & l3 & E). rewrite E. split.
  - intros s I. apply in_or_app; right. apply in_or_app; left. exact I.
  - apply NoDup_sublist_map.
Qed.

(* ------------------------------------------------------------- runs after a fit *)

(** Everything that runs do not write is the same. *)
Record same_fit (e e' : engine) : Prop := SameFit {
  sf_params : pv_params (en_array e') = pv_params (en_array e);
  sf_names : pv_param_names (en_array e') = pv_param_names (en_array e);
  sf_fitted : pv_fitted (en_array e') = pv_fitted (en_array e);
  sf_irr : en_irr e' = en_irr e;
  sf_irr_fitted : en_irr_fitted e' = en_irr_fitted e;
  sf_aoi : ca_aoi (en_calc e') = ca_aoi (en_calc e);
  sf_aoi_fitted : ca_aoi_fitted (en_calc e') = ca_aoi_fitted (en_calc e);
  sf_row : en_fast_row e' = en_fast_row e;
  sf_seg : en_fast_seg e' = en_fast_seg e;
  sf_points : en_n_points e' = en_n_points e;
  sf_skip : en_skip e' = en_skip e;
  sf_ground : ps_ground (pv_store (en_array e')) = ps_ground (pv_store (en_array e));
  sf_element : ps_element (pv_store (en_array e')) = ps_element (pv_store (en_array e));
  sf_surf : forall x k, ~ In k run_keys -> ps_surf (pv_store (en_array e')) x k = ps_surf (pv_store (en_array e)) x k
}.

Lemma same_fit_refl : forall e, same_fit e e.
Proof. intro e. constructor; reflexivity. Qed.
Lemma same_fit_trans : forall e1 e2 e3, same_fit e1 e2 -> same_fit e2 e3 -> same_fit e1 e3.
Proof.
  intros e1 e2 e3 [] []. constructor; try (etransitivity; eassumption).
  intros x k N. rewrite <- sf_surf0 by exact N. auto.
Qed.

Lemma not_run_result : forall k, ~ In k run_keys -> result_key k = false.
Proof.
  intros k H. unfold result_key. destruct (existsb _ _) eqn:E; [|reflexivity]. exfalso. apply H.
  apply existsb_exists in E. destruct E as (x & I & E). apply String.eqb_eq in E. subst x.
  unfold run_keys. apply in_or_app. right. exact I.
Qed.

Lemma run_full_same_fit : forall e e', run_full_mode e = Ok e' -> same_fit e e'.
Proof.
  intros e e' H. unfold run_full_mode in H.
  destruct (pv_fitted (en_array e)) as [a|] eqn:A; [|discriminate H].
  destruct (en_irr_fitted e) as [f|] eqn:F; [|discriminate H].
  apply bind_ok in H. destruct H as ([[[irr rho] invrho] per] & _ & H).
  destruct (heap_alloc (en_heap e) (build_vf_matrix a)) as [r h1].
  apply bind_ok in H. destruct H as (inv & _ & H). cbn zeta in H.
  apply bind_ok in H. destruct H as ([ra h2] & _ & H).
  apply bind_ok in H. destruct H as (abs & _ & H).
  match type of H with context [write_results ?st ?l ?q0 ?qi ?is ?re ?qa] =>
    set (st' := write_results st l q0 qi is re qa) in H;
    assert (W : forall x k, result_key k = false -> ps_surf st' x k = ps_surf st x k)
      by (intros; apply write_results_other; assumption);
    destruct (write_results_dicts st l q0 qi is re qa) as [G1 G2]; fold st' in G1, G2 end.
  clearbody st'.
  inversion H; subst e'. constructor; cbn; try reflexivity; try congruence.
  intros x k N. apply W. apply not_run_result. exact N.
Qed.

Lemma fast_surface_inv : forall m f a idx st s st', fast_surface m f a idx st s = Ok st' ->
  ps_ground st' = ps_ground st /\ ps_element st' = ps_element st /\
  forall x k, ~ In k run_keys -> ps_surf st' x k = ps_surf st x k.
Proof.
  intros m f a idx st s st' H. unfold fast_surface, update_sky_term in H.
  apply bind_ok in H. destruct H as (st1 & H1 & H). apply bind_ok in H1. destruct H1 as (v & _ & H1).
  inversion H1; subst st1. destruct (im_rho_front m); [|discriminate H]. cbn zeta in H.
  apply bind_ok in H. destruct H as (sky & _ & H). inversion H; subst st'. split; [reflexivity|]. split; [reflexivity|].
  intros x k N. 
  match goal with |- ps_surf (surf_update ?st1 s ?d) x k = _ =>
    rewrite (surf_updated st1 s d x k) end.
  assert (K : forall st0 d, (forall z, In z (map fst d) -> In z run_keys) ->
    (if in_dec sid_eq_dec x [s_id s] then overlay d k (ps_surf st0 x k) else ps_surf st0 x k) = ps_surf st0 x k).
  { intros st0 d Hd. destruct (in_dec _ _ _); [|reflexivity]. apply overlay_none. intro I. apply N, Hd, I. }
  rewrite K by (cbn; intuition). rewrite (surf_updated st s [("sky_term"%string, PArr v)] x k). apply K.
  cbn; intuition.
Qed.

Lemma fold_fast_inv : forall m f a idx l st st', fold_result (fast_surface m f a idx) l st = Ok st' ->
  ps_ground st' = ps_ground st /\ ps_element st' = ps_element st /\
  forall x k, ~ In k run_keys -> ps_surf st' x k = ps_surf st x k.
Proof.
  induction l as [|s l IH]; intros st st' H.
  - inversion H; subst. repeat split.
  - cbn [fold_result] in H. apply bind_ok in H. destruct H as (st1 & H1 & H2).
    destruct (fast_surface_inv _ _ _ _ _ _ _ H1) as (A & B & C). destruct (IH _ _ H2) as (A' & B' & C').
    split; [congruence|]. split; [congruence|]. intros x k N. rewrite C' by exact N. auto.
Qed.

Lemma run_fast_same_fit : forall e r sg e', run_fast_mode e r sg = Ok e' -> same_fit e e'.
Proof.
  intros e r sg e' H. destruct (run_fast_inv _ _ _ _ H) as (a & f & k & l & A & F & K & L).
  rewrite (run_fast_list e a f k r sg A F K l L) in H. apply bind_ok in H. destruct H as (st & E & H).
  inversion H; subst e'. destruct (fold_fast_inv _ _ _ _ _ _ _ E) as (G1 & G2 & G3).
  constructor; cbn; try reflexivity; try congruence; assumption.
Qed.

(** Calls other than [fit]. *)
Definition is_run (c : call) : bool := match c with Fit _ => false | _ => true end.

Lemma runs_same_fit : forall P l e e', forallb is_run l = true -> exec_all P e l = Ok e' -> same_fit e e'.
Proof.
  induction l as [|c l IH]; intros e e' R H.
  - inversion H; subst. apply same_fit_refl.
  - cbn [forallb] in R. apply andb_prop in R. destruct R as [R1 R2]. cbn [exec_all] in H.
    apply bind_ok in H. destruct H as (e1 & H1 & H2). apply (same_fit_trans e e1); [|exact (IH _ _ R2 H2)].
    destruct c; cbn in *; [discriminate R1 | apply run_full_same_fit | eapply run_fast_same_fit]; eassumption.
Qed.

Lemma same_fit_fitted : forall P e e' i a f rf rb, same_fit e e' -> fitted_engine P e i a f rf rb ->
  fitted_engine P e' i a f rf rb.
Proof.
  intros P e e' i a f rf rb S FE. destruct FE. constructor.
  - rewrite (sf_params _ _ S). assumption.
  - rewrite (sf_params _ _ S). assumption.
  - rewrite (sf_fitted _ _ S). assumption.
  - rewrite (sf_irr _ _ S). assumption.
  - rewrite (sf_irr_fitted _ _ S). assumption.
  - rewrite (sf_irr _ _ S). assumption.
  - rewrite (sf_irr _ _ S). assumption.
  - rewrite (sf_irr _ _ S). intros s c C k v ND I. unfold get_param. rewrite (sf_surf _ _ S).
    + exact (fe_store s c C k v ND I).
    + assert (K : In k (map fst (cat_dict (en_irr e) rf rb f a c s))) by (apply in_map_iff; exists (k, v); tauto).
      clear - K. intro R. unfold cat_dict in K.
      destruct (im_kind (en_irr e)), c as [sh|j [] sh]; cbn in K, R; intuition (subst; discriminate).
  - rewrite (sf_aoi _ _ S). intros m Hm. rewrite (sf_aoi_fitted _ _ S). auto.
Qed.
