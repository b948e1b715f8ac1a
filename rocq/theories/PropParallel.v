(** C28: a parallel run gives the report of a serial run. *)
From Coq Require Import Reals List Bool Arith ZArith String Lra Lia Permutation Sorted FunctionalExtensionality.
From Verif Require Import Num ModelTs ModelGeom ModelVF Basics SpecGeom ProofFit ProofIndex ModelParams SpecParams
  ModelIrr SpecIrr ModelAOI ModelLinalg ModelEngine ProofIrr PropIrr ProofEngine PropEngine SpecRun ProofRun PropRun ProofHistory PropGeom PropFastRun
  ProofLocal ProofLocal2 ProofLocal3 PropLocal ProofKinds PropInit ModelRun PropFast.
Import ListNotations.
Open Scope R_scope.

(* ------------------------------------------------------------------- vocabulary *)

(** Reports made of columns: each has a key, and its values are calculated timestep by
    timestep from averages over sides of PV rows. *)
Record column_spec : Type := Column {
  cl_key : string;
  cl_reads : list (nat * bool * string);   (* PV row, back side, name of the parameter *)
  cl_value : list R -> R
}.
Definition column_series (arr : pvarray) (c : column_spec) : result (string * ts R) :=
  do vs <- map_result (fun x => row_side_weighted arr (fst (fst x)) (snd (fst x)) (snd x)) (cl_reads c);
  Ok (cl_key c, fun t => cl_value c (map (fun v => v t) vs)).
Definition build_columns (cols : list column_spec) (arr : pvarray) : result report :=
  do l <- map_result (column_series arr) cols;
  Ok (map (fun kv => (fst kv, to_list arr (snd kv))) l).

(** The columns of [example_fn_build_report]. *)
Definition example_columns : list column_spec :=
  [Column "qinc_front" [(1%nat, false, "qinc")] (fun l => hd 0 l); Column "qinc_back" [(1%nat, true, "qinc")] (fun l => hd 0 l);
   Column "iso_front" [(1%nat, false, "isotropic")] (fun l => hd 0 l); Column "iso_back" [(1%nat, true, "isotropic")] (fun l => hd 0 l)]%string.

(** No surface is a sliver, at any timestep. *)
Definition no_slivers_in (P : pvlib) (s : simulation) (i : raw_inputs) : Prop :=
  forall e t, engine_fit P (new_engine s) i = Ok e -> (t < n_timesteps i)%nat -> no_sliver_at e t.

Lemma example_build : forall arr, example_fn_build_report arr = build_columns example_columns arr.
Proof.
  intro arr. unfold example_fn_build_report, build_columns, example_columns, column_series. cbn.
  destruct (row_side_weighted arr 1 false "qinc"); cbn; [|reflexivity].
  destruct (row_side_weighted arr 1 true "qinc"); cbn; [|reflexivity].
  destruct (row_side_weighted arr 1 false "isotropic"); cbn; [|reflexivity].
  destruct (row_side_weighted arr 1 true "isotropic"); reflexivity.
Qed.

(* ------------------------------------------------------------------- splitting *)

Lemma list_sum_repeat : forall x n, list_sum (repeat x n) = (n * x)%nat.
Proof. intros x n. induction n as [|n IH]; [reflexivity|]. cbn [repeat]. cbn. fold (list_sum (repeat x n)). lia. Qed.
Lemma sizes_length : forall n k, (0 < k)%nat -> List.length (section_sizes n k) = k.
Proof. intros n k K. unfold section_sizes. rewrite app_length, !repeat_length. pose proof (Nat.mod_upper_bound n k). lia. Qed.
Lemma sizes_sum : forall n k, (0 < k)%nat -> list_sum (section_sizes n k) = n.
Proof.
  intros n k K. unfold section_sizes. rewrite list_sum_app, !list_sum_repeat.
  pose proof (Nat.mod_upper_bound n k ltac:(lia)). pose proof (Nat.div_mod n k ltac:(lia)) as D. set (q := (n / k)%nat) in *. set (r := (n mod k)%nat) in *. nia.
Qed.
Lemma firstn_S_sum : forall l j, list_sum (firstn (S j) l) = (list_sum (firstn j l) + nth j l 0)%nat.
Proof.
  induction l as [|x l IH]; intros [|j]; [reflexivity | reflexivity | cbn; lia|].
  change (firstn (S (S j)) (x :: l)) with (x :: firstn (S j) l). change (firstn (S j) (x :: l)) with (x :: firstn j l).
  change (list_sum (x :: firstn (S j) l)) with (x + list_sum (firstn (S j) l))%nat. change (list_sum (x :: firstn j l)) with (x + list_sum (firstn j l))%nat.
  rewrite IH. change (nth (S j) (x :: l) 0%nat) with (nth j l 0%nat). lia.
Qed.
Definition part_size (n k j : nat) : nat := (div_point n k (S j) - div_point n k j)%nat.
Lemma div_next : forall n k j, div_point n k (S j) = (div_point n k j + part_size n k j)%nat.
Proof. intros. unfold part_size, div_point. rewrite firstn_S_sum. lia. Qed.
Lemma div_zero : forall n k, div_point n k 0 = 0%nat.
Proof. reflexivity. Qed.
Lemma div_last : forall n k, (0 < k)%nat -> div_point n k k = n.
Proof. intros n k K. unfold div_point. rewrite <- (sizes_length n k K) at 1. rewrite firstn_all. apply sizes_sum, K. Qed.
Lemma div_le : forall n k j, (0 < k)%nat -> (j <= k)%nat -> (div_point n k j <= n)%nat.
Proof.
  intros n k j K J. rewrite <- (div_last n k K) at 2.
  assert (M : forall m, (j <= m)%nat -> (div_point n k j <= div_point n k m)%nat).
  { intros m L. induction L; [lia|]. rewrite div_next. lia. }
  apply M, J.
Qed.
Lemma find_part : forall n k t, (0 < k)%nat -> (t < n)%nat ->
  exists j u, (j < k)%nat /\ (u < part_size n k j)%nat /\ t = (div_point n k j + u)%nat.
Proof.
  intros n k t K T. rewrite <- (div_last n k K) in T.
  cut (forall m, (m <= k)%nat -> (t < div_point n k m)%nat ->
    exists j u, (j < k)%nat /\ (u < part_size n k j)%nat /\ t = (div_point n k j + u)%nat); [intro C; exact (C k (Nat.le_refl k) T)|].
  clear T. intros m M T. induction m as [|m IH]; [rewrite div_zero in T; lia|].
  destruct (Nat.lt_ge_cases t (div_point n k m)) as [L|L]; [apply IH; lia|].
  exists m, (t - div_point n k m)%nat. rewrite div_next in T. split; [lia|]. split; lia.
Qed.

(* --------------------------------------------------------------------- sorting *)

Fixpoint insert_nat (x : nat) (l : list nat) : list nat :=
  match l with [] => [x] | y :: r => if Nat.leb x y then x :: l else y :: insert_nat x r end.
Lemma sort_map : forall (g : nat -> report) l, sort_reports (map (fun j => (g j, j)) l) = map (fun j => (g j, j)) (fold_right insert_nat [] l).
Proof.
  intros g l. induction l as [|x l IH]; [reflexivity|]. cbn [map sort_reports fold_right]. unfold sort_reports in IH. rewrite IH.
  generalize (fold_right insert_nat [] l). intro m. induction m as [|y m IHm]; [reflexivity|]. cbn. destruct (Nat.leb x y); [reflexivity|]. cbn. rewrite IHm. reflexivity.
Qed.
Lemma insert_perm : forall x l, Permutation (insert_nat x l) (x :: l).
Proof.
  intros x l. induction l as [|y l IH]; [reflexivity|]. cbn. destruct (Nat.leb x y); [reflexivity|].
  rewrite IH. apply perm_swap.
Qed.
Lemma insert_sorted : forall x l, StronglySorted le l -> StronglySorted le (insert_nat x l).
Proof.
  intros x l H. induction H as [|y l H IH F]; cbn; [repeat constructor|]. destruct (Nat.leb_spec x y) as [L|L].
  - constructor; [constructor; assumption|]. constructor; [exact L|]. eapply Forall_impl; [|exact F]. cbn. intros; lia.
  - constructor; [exact IH|]. rewrite Forall_forall in *. intros z Z. apply (Permutation_in _ (insert_perm x l)) in Z.
    destruct Z as [<-|Z]; [lia | apply F, Z].
Qed.
Lemma sorted_unique : forall l l', StronglySorted le l -> StronglySorted le l' -> Permutation l l' -> l = l'.
Proof.
  intros l l' H. revert l'. induction H as [|x l H IH F]; intros l' H' P.
  - apply Permutation_nil in P. congruence.
  - destruct H' as [|y l' H' F']; [apply Permutation_sym, Permutation_nil in P; discriminate|].
    rewrite Forall_forall in F, F'.
    assert (x = y).
    { assert (A : In x (y :: l')) by (eapply Permutation_in; [exact P | left; reflexivity]).
      assert (B : In y (x :: l)) by (eapply Permutation_in; [apply Permutation_sym, P | left; reflexivity]).
      destruct A as [A|A]; [congruence|]. destruct B as [B|B]; [congruence|]. pose proof (F _ B). pose proof (F' _ A). lia. }
    subst y. f_equal. apply IH; [exact H'|]. eapply Permutation_cons_inv; exact P.
Qed.
Lemma seq_sorted : forall n m, StronglySorted le (seq m n).
Proof.
  induction n as [|n IH]; intro m; cbn; constructor; [apply IH|]. apply Forall_forall. intros x X. apply in_seq in X. lia.
Qed.
Lemma sort_order : forall g order k, Permutation order (seq 0 k) ->
  sort_reports (map (fun j => (g j, j)) order) = map (fun j => (g j, j)) (seq 0 k).
Proof.
  intros g order k P. rewrite sort_map. f_equal. apply sorted_unique.
  - clear P. induction order as [|x l IH]; cbn; [constructor | apply insert_sorted, IH].
  - apply seq_sorted.
  - rewrite <- P. clear P. induction order as [|x l IH]; cbn; [constructor|]. rewrite insert_perm, IH. reflexivity.
Qed.

(* --------------------------------------------------------------------- merging *)

Definition part_of (l : list (string * ts R)) (d n : nat) : report := map (fun kv => (fst kv, map (snd kv) (seq d n))) l.

Lemma lookup_part : forall l d n kv, NoDup (map fst l) -> In kv l -> lookup (part_of l d n) (fst kv) = Ok (map (snd kv) (seq d n)).
Proof.
  induction l as [|[x v] l IH]; intros d n [k w] N I; [destruct I|]. cbn [map fst] in N. inversion N as [|? ? N1 N2]; subst.
  cbn [part_of map lookup fst snd]. destruct I as [E|I]; [injection E as -> ->; rewrite String.eqb_refl; reflexivity|].
  destruct (String.eqb_spec k x) as [E|E].
  - exfalso. apply N1. rewrite <- E. exact (in_map fst _ _ I).
  - exact (IH d n (k, w) N2 I).
Qed.
Lemma map_result_all : forall (A B : Type) (g : A -> result B) (h : A -> B) l, (forall x, In x l -> g x = Ok (h x)) -> map_result g l = Ok (map h l).
Proof.
  intros A B g h l. induction l as [|x l IH]; intro H; [reflexivity|]. cbn. rewrite (H x (or_introl eq_refl)). cbn [bind].
  rewrite IH by (intros; apply H; right; assumption). reflexivity.
Qed.
Lemma extend_part : forall l d n m, NoDup (map fst l) -> extend_report (part_of l d n) (part_of l (d + n) m) = Ok (part_of l d (n + m)).
Proof.
  intros l d n m N. unfold extend_report.
  rewrite (map_result_all _ _ _ (fun kv : string * list R => (fst kv, match lookup (part_of l (d + n) m) (fst kv) with Ok v => snd kv ++ v | Err _ => [] end))).
  - apply f_equal. unfold part_of at 2 3. rewrite map_map. apply map_ext_in. intros kv I. cbn [fst snd]. rewrite (lookup_part l _ m kv N I).
    rewrite seq_app, map_app. reflexivity.
  - intros kv I. unfold part_of in I. apply in_map_iff in I. destruct I as (kv' & <- & I). cbn [fst snd]. rewrite (lookup_part l _ m kv' N I). reflexivity.
Qed.
Lemma merge_parts : forall l n k, NoDup (map fst l) -> (0 < k)%nat ->
  merge_reports (map (fun j => part_of l (div_point n k j) (part_size n k j)) (seq 0 k)) = Ok (part_of l 0 n).
Proof.
  intros l n k N K.
  assert (G : forall m j, (j + m <= k)%nat ->
    fold_result extend_report (map (fun j => part_of l (div_point n k j) (part_size n k j)) (seq j m)) (part_of l 0 (div_point n k j)) =
    Ok (part_of l 0 (div_point n k (j + m)))).
  { induction m as [|m IH]; intros j J; cbn [seq map fold_result]; [rewrite Nat.add_0_r; reflexivity|].
    pose proof (extend_part l 0 (div_point n k j) (part_size n k j) N) as E. cbn [Nat.add] in E. rewrite E. cbn [bind].
    rewrite <- div_next, IH by lia. f_equal. f_equal. f_equal. lia. }
  destruct k as [|k']; [lia|]. set (k := S k') in *. unfold merge_reports. replace (seq 0 k) with (0%nat :: seq 1 k') by reflexivity.
  cbn [map]. rewrite div_zero. replace (part_size n k 0) with (div_point n k 1) by (rewrite div_next, div_zero; reflexivity).
  rewrite G by lia. cbn [Nat.add]. f_equal. f_equal. apply div_last. lia.
Qed.

(* ------------------------------------------------------------------ the chunks *)

(** Inputs that are all arrays of [n] values. *)
Definition arrays (n : nat) (i : raw_inputs) : Prop :=
  shape (ri_time i) = Some n /\ shape (ri_dni i) = Some n /\ shape (ri_dhi i) = Some n /\ shape (ri_zenith i) = Some n /\
  shape (ri_solar_azimuth i) = Some n /\ shape (ri_tilt i) = Some n /\ shape (ri_azimuth i) = Some n /\ shape (ri_albedo i) = Some n /\
  (forall g, ri_ghi i = Some g -> shape g = Some n).

Lemma arrays_shaped : forall n i, arrays n i -> well_shaped i /\ n_timesteps i = n.
Proof.
  intros n i (H1 & H2 & H3 & H4 & H5 & H6 & H7 & H8 & H9). split.
  - exists (Some n). repeat (split; [assumption|]). right. exact H8.
  - unfold n_timesteps. rewrite H2. reflexivity.
Qed.

Lemma albedo_arrays : forall i, well_shaped i -> shape (ri_dni i) <> None ->
  exists i', iterable_albedo i = Ok i' /\ arrays (n_timesteps i) i' /\ n_timesteps i' = n_timesteps i /\
    forall P e, engine_fit P e i' = engine_fit P e i.
Proof.
  intros i (o & H1 & H2 & H3 & H4 & H5 & H6 & H7 & H8 & H9) D. rewrite H2 in D. destruct o as [n|]; [|congruence].
  assert (N : n_timesteps i = n) by (unfold n_timesteps; rewrite H2; reflexivity). rewrite N.
  unfold iterable_albedo. destruct (ri_albedo i) as [r|m b] eqn:B.
  - destruct (ri_dni i) as [d|n' d] eqn:E; [discriminate|]. cbn in H2. injection H2 as ->.
    eexists. split; [reflexivity|]. rewrite <- E. split; [|split].
    + unfold arrays. cbn. rewrite E. repeat (split; [assumption || reflexivity|]). assumption.
    + unfold n_timesteps. cbn. rewrite E. reflexivity.
    + intros P e. pose proof (C29_albedo P e i r) as K. rewrite N in K. unfold with_albedo in K.
      assert (Q : (fun _ : nat => r * 1) = (fun _ => r)) by (apply functional_extensionality; intro; ring). rewrite Q, <- K.
      f_equal. rewrite <- B. destruct i; reflexivity.
  - exists i. split; [reflexivity|]. split; [|split; [exact N | reflexivity]].
    unfold arrays. rewrite B. destruct H9 as [H9|H9]; [discriminate|]. repeat (split; [assumption|]). assumption.
Qed.

Lemma fold_of_array : forall (A : Type) n k j (x : num A), shape x = Some n ->
  exists y, fold_of k j x = Ok y /\ shape y = Some (part_size n k j) /\ forall t, value y t = value x (div_point n k j + t).
Proof.
  intros A n k j [r|m a] H; [discriminate|]. cbn in H. injection H as ->. eexists. split; [reflexivity|].
  split; [reflexivity | intro; reflexivity].
Qed.

Lemma fold_arrays : forall n k j i, arrays n i ->
  exists f, fold_inputs k j i = Ok f /\ arrays (part_size n k j) f /\ forall t, same_inputs i (div_point n k j + t) f t.
Proof.
  intros n k j i (H1 & H2 & H3 & H4 & H5 & H6 & H7 & H8 & H9). unfold fold_inputs.
  destruct (fold_of_array _ n k j _ H1) as (y1 & -> & S1 & V1). destruct (fold_of_array _ n k j _ H2) as (y2 & -> & S2 & V2).
  destruct (fold_of_array _ n k j _ H3) as (y3 & -> & S3 & V3). destruct (fold_of_array _ n k j _ H4) as (y4 & -> & S4 & V4).
  destruct (fold_of_array _ n k j _ H5) as (y5 & -> & S5 & V5). destruct (fold_of_array _ n k j _ H6) as (y6 & -> & S6 & V6).
  destruct (fold_of_array _ n k j _ H7) as (y7 & -> & S7 & V7). destruct (fold_of_array _ n k j _ H8) as (y8 & -> & S8 & V8).
  cbn [bind]. destruct (ri_ghi i) as [g|] eqn:G.
  - destruct (fold_of_array _ n k j _ (H9 g eq_refl)) as (y9 & -> & S9 & V9). cbn [bind]. eexists. split; [reflexivity|].
    split; [unfold arrays; cbn; repeat (split; [assumption|]); intros q Q; injection Q as <-; exact S9|].
    intro t. unfold same_inputs. rewrite G. cbn. rewrite V1, V2, V3, V4, V5, V6, V7, V8, V9. repeat split.
  - cbn [bind]. eexists. split; [reflexivity|].
    split; [unfold arrays; cbn; repeat (split; [assumption|]); discriminate|].
    intro t. unfold same_inputs. rewrite G. cbn. rewrite V1, V2, V3, V4, V5, V6, V7, V8. repeat split.
Qed.

(** Slivers are the same in two fits that agree at a timestep. *)
Lemma sliver_transfer : forall P e0 i t j u e e', (t < n_timesteps i)%nat -> (u < n_timesteps j)%nat -> same_inputs i t j u ->
  engine_fit P e0 i = Ok e -> engine_fit P e0 j = Ok e' -> no_sliver_at e t -> no_sliver_at e' u.
Proof.
  intros P e0 i t j u e1 e1' T U SI F1 F1' NS1.
  destruct (engine_fit_at _ _ _ _ t F1 T) as (x & X & XA). destruct (engine_fit_at _ _ _ _ u F1' U) as (y & Y & YA).
  rewrite (same_alone _ _ _ _ SI) in X. assert (y = x) by congruence. subst y.
  intros b s B Hs. pose proof XA as [_ _ _ _ _ _ _ _ (a & fi & A1 & A2 & _) _ _]. pose proof YA as [_ _ _ _ _ _ _ _ (b0 & fj & B1 & B2 & _) _ _].
  assert (b0 = b) by congruence. subst b0. assert (E : sl_fitted t a = sl_fitted u b) by congruence.
  assert (Q : In (sl_surface u s) (map (sl_surface t) (all_ts_surfaces a))).
  { rewrite <- sl_all, E, sl_all. apply in_map, Hs. }
  apply in_map_iff in Q. destruct Q as (s0 & Q & I0).
  assert (L : s_length s0 t = s_length s u).
  { pose proof (f_equal (fun s => s_length s 0%nat) Q) as QL. exact QL. }
  rewrite <- L. exact (NS1 a s0 A1 I0).
Qed.

(** The run made after the fit. *)
Definition run_of (s : simulation) : call := match si_fast_row s with None => RunFull | Some _ => RunFast None None end.
Lemma run_of_run : forall s, forallb is_run [run_of s] = true.
Proof. intro s. unfold run_of. destruct (si_fast_row s); reflexivity. Qed.
Lemma run_of_full : forall s, In RunFull [run_of s] -> si_fast_row s = None.
Proof. intros s [H|[]]. unfold run_of in H. destruct (si_fast_row s); [discriminate | reflexivity]. Qed.
Lemma timeseries_exec : forall P build s i, run_timeseries_engine P build s i =
  do e <- exec_all P (new_engine s) [Fit i; run_of s]; build (en_array e).
Proof.
  intros P build s i. unfold run_timeseries_engine, run_of. cbn [exec_all exec]. destruct (engine_fit P (new_engine s) i); cbn [bind]; [|reflexivity].
  destruct (si_fast_row s); cbn [exec]; [destruct (run_fast_mode a None None) | destruct (run_full_mode a)]; reflexivity.
Qed.

Lemma empty_full : forall P e0 i e, valid_params (pv_params (en_array e0)) -> engine_fit P e0 i = Ok e -> n_timesteps i = 0%nat ->
  exists e', run_full_mode e = Ok e'.
Proof.
  intros P e0 i e V F N. destruct (engine_fit_fitted _ _ _ _ V F) as (ii & a & f & rf & rb & Hi & FE).
  apply (C20_run_succeeds P e0 i e ii a V F Hi (fe_array _ _ _ _ _ _ _ FE)). intros t T.
  destruct (format_alone _ _ 0 Hi) as [_ L]. lia.
Qed.

Section Parallel.
  Variable P : pvlib.
  Variable s : simulation.
  Variables (n k : nat) (i : raw_inputs).
  Hypothesis V : valid_params (si_array s).
  Hypothesis A : arrays n i.
  Hypothesis K : (0 < k)%nat.
  Hypothesis NS : si_fast_row s = None -> no_slivers_in P s i.

  Let e0 := new_engine s.
  Let V0 : valid_params (pv_params (en_array e0)) := V.
  Let W : well_shaped i := proj1 (arrays_shaped n i A).
  Let N : n_timesteps i = n := proj2 (arrays_shaped n i A).

  Lemma fit_either : forall f x, well_shaped f -> well_shaped x -> (exists e, engine_fit P e0 f = Ok e) -> exists e, engine_fit P e0 x = Ok e.
  Proof.
    intros f x Wf Wx H. apply C50_fit_succeeds in H; [|exact V0]. apply C50_fit_succeeds; [exact V0|]. tauto.
  Qed.

  Lemma chunk_sliver : forall j f e e1, fold_inputs k j i = Ok f -> (j < k)%nat -> engine_fit P e0 i = Ok e -> engine_fit P e0 f = Ok e1 ->
    In RunFull [run_of s] -> forall u, (u < part_size n k j)%nat -> no_sliver_at e1 u.
  Proof.
    intros j f e e1 F J Fi Ff R u U. destruct (fold_arrays n k j i A) as (f' & F' & AF & SI). assert (f' = f) by congruence. subst f'.
    pose proof (proj2 (arrays_shaped _ _ AF)) as NF.
    assert (T : (div_point n k j + u < n)%nat).
    { pose proof (div_next n k j). pose proof (div_le n k (S j) K ltac:(lia)). lia. }
    apply (sliver_transfer P e0 i (div_point n k j + u) f u e e1); auto; [rewrite N; exact T | rewrite NF; exact U|].
    apply (NS (run_of_full s R) e _ Fi). rewrite N. exact T.
  Qed.

  Lemma chunk_ok : forall j f, (j < k)%nat -> fold_inputs k j i = Ok f ->
    (exists e, exec_all P e0 [Fit i; run_of s] = Ok e) -> exists e, exec_all P e0 [Fit f; run_of s] = Ok e.
  Proof.
    intros j f J F [e EX]. destruct (fold_arrays n k j i A) as (f' & F' & AF & SI). assert (f' = f) by congruence. subst f'.
    destruct (arrays_shaped _ _ AF) as [WF NF]. pose proof EX as EX0. cbn [exec_all exec] in EX. apply bind_ok in EX. destruct EX as (e1 & Fi & EX).
    destruct (fit_either i f W WF (ex_intro _ e1 Fi)) as [e2 Ff].
    assert (D : (exists r, si_fast_row s = Some r) \/ si_fast_row s = None) by (case (si_fast_row s); eauto). destruct D as [[r FR]|FR].
    - unfold run_of in *. rewrite FR in *. cbn [exec_all exec] in *. rewrite Ff. cbn [bind].
      pose proof (fast_kin e1 e2 None None (fit_kin P e0 i e1 f e2 V0 Fi Ff)) as KN.
      apply bind_ok in EX. destruct EX as (q & Q & EX). rewrite Q in KN.
      destruct (run_fast_mode e2 None None) as [q'|]; [exists q'; reflexivity|].
      exfalso. apply KN.
      + destruct (engine_fit_fitted _ _ _ _ V0 Fi) as (? & ? & ? & ? & ? & _ & FE). rewrite (fe_irr_fitted _ _ _ _ _ _ _ FE). discriminate.
      + destruct (engine_fit_fitted _ _ _ _ V0 Ff) as (? & ? & ? & ? & ? & _ & FE). rewrite (fe_irr_fitted _ _ _ _ _ _ _ FE). discriminate.
    - destruct (Nat.eq_dec (part_size n k j) 0) as [Z|Z].
      + destruct (empty_full P e0 f e2 V0 Ff) as [q Q]; [congruence|]. exists q. unfold run_of. rewrite FR. cbn [exec_all exec]. rewrite Ff. cbn [bind]. rewrite Q. reflexivity.
      + assert (B : (div_point n k j + part_size n k j <= n)%nat) by (rewrite <- div_next; apply div_le; [exact K | lia]).
        apply (C27_success P e0 f [run_of s] e2 V0 ltac:(lia) (run_of_run s) Ff).
        * intros R u U. apply (chunk_sliver j f e1 e2 F J Fi Ff R). rewrite <- NF. exact U.
        * intros u U. rewrite NF in U. rewrite <- (same_alone _ _ _ _ (SI u)).
          refine (proj1 (C27_success P e0 i [run_of s] e1 V0 _ (run_of_run s) Fi _) (ex_intro _ e EX0) _ _); [lia| |lia].
          intros R t T. apply (NS (run_of_full s R) e1 t Fi T).
  Qed.

  Lemma serial_ok : (forall j, (j < k)%nat -> exists f e, fold_inputs k j i = Ok f /\ exec_all P e0 [Fit f; run_of s] = Ok e) ->
    exists e, exec_all P e0 [Fit i; run_of s] = Ok e.
  Proof.
    intro H. destruct (H 0%nat K) as (f0 & e00 & F0 & EX0). destruct (fold_arrays n k 0 i A) as (f' & F' & AF & _). assert (f' = f0) by congruence. subst f'.
    pose proof EX0 as EX. cbn [exec_all exec] in EX. apply bind_ok in EX. destruct EX as (e1 & Ff & EX).
    destruct (fit_either f0 i (proj1 (arrays_shaped _ _ AF)) W (ex_intro _ e1 Ff)) as [e2 Fi].
    assert (D : (exists r, si_fast_row s = Some r) \/ si_fast_row s = None) by (case (si_fast_row s); eauto). destruct D as [[r FR]|FR].
    - unfold run_of in *. rewrite FR in *. cbn [exec_all exec] in *. rewrite Fi. cbn [bind].
      pose proof (fast_kin e1 e2 None None (fit_kin P e0 f0 e1 i e2 V0 Ff Fi)) as KN.
      apply bind_ok in EX. destruct EX as (q & Q & EX). rewrite Q in KN.
      destruct (run_fast_mode e2 None None) as [q'|]; [exists q'; reflexivity|].
      exfalso. apply KN.
      + destruct (engine_fit_fitted _ _ _ _ V0 Ff) as (? & ? & ? & ? & ? & _ & FE). rewrite (fe_irr_fitted _ _ _ _ _ _ _ FE). discriminate.
      + destruct (engine_fit_fitted _ _ _ _ V0 Fi) as (? & ? & ? & ? & ? & _ & FE). rewrite (fe_irr_fitted _ _ _ _ _ _ _ FE). discriminate.
    - destruct (Nat.eq_dec n 0) as [Z|Z].
      + destruct (empty_full P e0 i e2 V0 Fi) as [q Q]; [congruence|]. exists q. unfold run_of. rewrite FR. cbn [exec_all exec]. rewrite Fi. cbn [bind]. rewrite Q. reflexivity.
      + apply (C27_success P e0 i [run_of s] e2 V0 ltac:(lia) (run_of_run s) Fi).
        * intros R t T. apply (NS (run_of_full s R) e2 t Fi T).
        * intros t T. rewrite N in T. destruct (find_part n k t K T) as (j & u & J & U & ->).
          destruct (H j J) as (f & e & F & E). destruct (fold_arrays n k j i A) as (f' & F2 & AF2 & SI). assert (f' = f) by congruence. subst f'.
          rewrite (same_alone _ _ _ _ (SI u)). destruct (arrays_shaped _ _ AF2) as [_ NF].
          pose proof E as E1. cbn [exec_all exec] in E1. apply bind_ok in E1. destruct E1 as (e3 & Ff3 & _).
          refine (proj1 (C27_success P e0 f [run_of s] e3 V0 _ (run_of_run s) Ff3 _) (ex_intro _ e E) _ _); [lia| |lia].
          intros R v Vv. apply (chunk_sliver j f e2 e3 F J Fi Ff3 R). rewrite <- NF. exact Vv.
  Qed.
End Parallel.

(* ------------------------------------------------------------------- the reports *)

Lemma side_weighted_kin : forall e e' k b name, ekin e e' ->
  res_rel both (row_side_weighted (en_array e) k b name) (row_side_weighted (en_array e') k b name).
Proof.
  intros e e' k b name (a & a' & A & A' & RW & _ & KN & _). unfold row_side_weighted. rewrite A, A'.
  pose proof (Forall2_nth _ _ _ _ _ RW k) as TW.
  destruct (nth_error (ft_rows a) k) as [r|] eqn:R; destruct (nth_error (ft_rows a') k) as [r'|]; try contradiction; [|reflexivity].
  unfold side_param_weighted. eapply res_bind with (Q := both); [|intros; exact Logic.I].
  destruct TW as [TF TB].
  apply (side_ww_kin (row_id a)); [exact KN | destruct b; assumption|].
  intros g s0 G [S0|S0]; [exists s0, k, b, false | exists s0, k, b, true]; (split; [|reflexivity]); exists r, g; repeat split; assumption.
Qed.

(** Values of a column of one run at [d + u] are those of the other at [u]. *)
Definition shifted (d n : nat) (v w : ts R) : Prop := forall u, (u < n)%nat -> v (d + u)%nat = w u.

Lemma columns_shifted : forall arr arr' d n cols,
  (forall k b name, res_rel (shifted d n) (row_side_weighted arr k b name) (row_side_weighted arr' k b name)) ->
  res_rel (Forall2 (fun x y => fst x = fst y /\ shifted d n (snd x) (snd y))) (map_result (column_series arr) cols) (map_result (column_series arr') cols).
Proof.
  intros arr arr' d n cols H. apply (map_result_rel _ _ _ _ eq); [|apply Forall2_same]. intros c c' <-. unfold column_series.
  eapply res_bind with (Q := Forall2 (shifted d n)).
  - apply (map_result_rel _ _ _ _ eq); [|apply Forall2_same]. intros x y <-. apply H.
  - intros l l' F. cbn. split; [reflexivity|]. intros u U. f_equal. induction F as [|v w l l' Q F IH]; [reflexivity|]. cbn. rewrite (Q u U), IH. reflexivity.
Qed.
Lemma column_keys : forall arr cols l, map_result (column_series arr) cols = Ok l -> map fst l = map cl_key cols.
Proof.
  intros arr cols. induction cols as [|c cols IH]; intros l H; cbn in H; [injection H as <-; reflexivity|].
  apply bind_ok in H. destruct H as ([k v] & H1 & H). apply bind_ok in H. destruct H as (l' & H2 & H). injection H as <-. cbn. rewrite (IH _ H2).
  unfold column_series in H1. apply bind_ok in H1. destruct H1 as (vs & _ & H1). injection H1 as <- _. reflexivity.
Qed.
Lemma shifted_list : forall d n v w, shifted d n v w -> map v (seq d n) = map w (seq 0 n).
Proof.
  intros d n v w H.
  assert (G : forall q m, (m + q <= n)%nat -> map v (seq (d + m) q) = map w (seq m q)).
  { induction q as [|q IH]; intros m L; [reflexivity|]. cbn. rewrite H by lia. rewrite <- Nat.add_succ_r, IH by lia. reflexivity. }
  rewrite <- (Nat.add_0_r d) at 1. apply G. lia.
Qed.

Lemma shifted_part : forall d n l l', Forall2 (fun x y : string * ts R => fst x = fst y /\ shifted d n (snd x) (snd y)) l l' ->
  part_of l' 0 n = part_of l d n.
Proof.
  intros d n l l' H. induction H as [|[x v] [y w] l l' [Q1 Q2] H IH]; [reflexivity|]. cbn [part_of map fst snd] in *.
  rewrite Q1, (shifted_list _ _ _ _ Q2). apply (f_equal2 cons); [reflexivity | exact IH].
Qed.

Section Report.
  Variable P : pvlib.
  Variable s : simulation.
  Variables (n k : nat) (i : raw_inputs).
  Hypothesis V : valid_params (si_array s).
  Hypothesis A : arrays n i.
  Hypothesis K : (0 < k)%nat.
  Hypothesis NS : si_fast_row s = None -> no_slivers_in P s i.

  Lemma run_states : forall f e, exec_all P (new_engine s) [Fit f; run_of s] = Ok e ->
    exists e1 a, engine_fit P (new_engine s) f = Ok e1 /\ exec_all P e1 [run_of s] = Ok e /\
      pv_fitted (en_array e) = Some a /\ pv_fitted (en_array e1) = Some a /\ ft_n_states a = n_timesteps f.
  Proof.
    intros f e EX. cbn [exec_all] in EX. apply bind_ok in EX. destruct EX as (e1 & F & EX). exists e1.
    destruct (engine_fit_fitted P (new_engine s) f e1 V F) as (ii & a & g & rf & rb & Hi & FE). exists a.
    split; [exact F|]. split; [exact EX|]. pose proof (runs_same_fit P _ _ _ (run_of_run s) EX) as SF.
    split; [exact (fe_array _ _ _ _ _ _ _ (same_fit_fitted _ _ _ _ _ _ _ _ SF FE))|]. split; [exact (fe_array _ _ _ _ _ _ _ FE)|].
    rewrite (fe_n _ _ _ _ _ _ _ FE). apply (format_alone f ii 0 Hi).
  Qed.

  Lemma chunk_kin : forall f e e', exec_all P (new_engine s) [Fit i; run_of s] = Ok e -> exec_all P (new_engine s) [Fit f; run_of s] = Ok e' -> ekin e e'.
  Proof.
    intros f e e' E E'. destruct (run_states _ _ E) as (e1 & a & F & R & _). destruct (run_states _ _ E') as (e1' & a' & F' & R' & _).
    pose proof (fit_kin P (new_engine s) i e1 f e1' V F F') as KN. unfold run_of in *. destruct (si_fast_row s) as [r|]; cbn [exec_all exec] in R, R';
      apply bind_ok in R; destruct R as (q & R & Q); injection Q as <-; apply bind_ok in R'; destruct R' as (q' & R' & Q); injection Q as <-.
    - pose proof (fast_kin e1 e1' None None KN) as FK. rewrite R, R' in FK. apply FK.
      + destruct (engine_fit_fitted P (new_engine s) _ _ V F) as (? & ? & ? & ? & ? & _ & FE). rewrite (fe_irr_fitted _ _ _ _ _ _ _ FE). discriminate.
      + destruct (engine_fit_fitted P (new_engine s) _ _ V F') as (? & ? & ? & ? & ? & _ & FE). rewrite (fe_irr_fitted _ _ _ _ _ _ _ FE). discriminate.
    - exact (full_kin _ _ _ _ KN R R').
  Qed.

  Lemma chunk_shifted : forall j f e e', (j < k)%nat -> fold_inputs k j i = Ok f ->
    exec_all P (new_engine s) [Fit i; run_of s] = Ok e -> exec_all P (new_engine s) [Fit f; run_of s] = Ok e' ->
    forall r b name, res_rel (shifted (div_point n k j) (part_size n k j)) (row_side_weighted (en_array e) r b name) (row_side_weighted (en_array e') r b name).
  Proof.
    intros j f e e' J F E E' r b name. destruct (fold_arrays n k j i A) as (f' & F' & AF & SI). assert (f' = f) by congruence. subst f'.
    destruct (arrays_shaped _ _ AF) as [_ NF]. destruct (arrays_shaped _ _ A) as [_ N].
    pose proof (side_weighted_kin e e' r b name (chunk_kin f e e' E E')) as KN.
    assert (B : (div_point n k j + part_size n k j <= n)%nat) by (rewrite <- div_next; apply div_le; [exact K | lia]).
    assert (SR : forall u, (u < part_size n k j)%nat -> same_results e (div_point n k j + u) e' u).
    { intros u U. refine (proj1 (C27_independent P (new_engine s) i (div_point n k j + u) f u [run_of s] e e' V _ _ (SI u) (run_of_run s) E E' _)); [lia | lia |].
      intro R. destruct (run_states _ _ E) as (e1 & a & Fi & _ & A2 & A1 & _). pose proof (NS (run_of_full s R) e1 (div_point n k j + u)%nat Fi ltac:(lia)) as Q.
      intros a0 s0 A0 S0. apply (Q a0 s0); congruence. }
    destruct (row_side_weighted (en_array e) r b name) as [v|x] eqn:X; destruct (row_side_weighted (en_array e') r b name) as [w|y] eqn:Y; try contradiction; [|exact KN].
    intros u U. destruct (SR u U) as (_ & _ & _ & _ & _ & _ & SS). specialize (SS r b name). unfold same_series in SS.
    change (side_result e r b name) with (row_side_weighted (en_array e) r b name) in SS. change (side_result e' r b name) with (row_side_weighted (en_array e') r b name) in SS.
    rewrite X, Y in SS. exact SS.
  Qed.

  Lemma report_of_run : forall cols f e, exec_all P (new_engine s) [Fit f; run_of s] = Ok e ->
    build_columns cols (en_array e) = do l <- map_result (column_series (en_array e)) cols; Ok (part_of l 0 (n_timesteps f)).
  Proof.
    intros cols f e E. destruct (run_states _ _ E) as (e1 & a & _ & _ & A2 & _ & L). unfold build_columns. destruct (map_result (column_series (en_array e)) cols); [|reflexivity].
    cbn [bind]. unfold part_of, to_list. rewrite A2, L. reflexivity.
  Qed.

  Lemma chunk_report : forall cols j f e l, (j < k)%nat -> fold_inputs k j i = Ok f ->
    exec_all P (new_engine s) [Fit i; run_of s] = Ok e -> map_result (column_series (en_array e)) cols = Ok l ->
    run_timeseries_engine P (build_columns cols) s f = Ok (part_of l (div_point n k j) (part_size n k j)).
  Proof.
    intros cols j f e l J F E L. destruct (chunk_ok P s n k i V A K NS j f J F (ex_intro _ e E)) as [e' E'].
    rewrite timeseries_exec, E'. cbn [bind]. rewrite (report_of_run _ _ _ E').
    pose proof (columns_shifted _ _ _ _ cols (chunk_shifted j f e e' J F E E')) as H. rewrite L in H.
    destruct (map_result (column_series (en_array e')) cols) as [l'|]; [|contradiction]. cbn [bind]. apply f_equal.
    destruct (fold_arrays n k j i A) as (f' & F' & AF & _). assert (f' = f) by congruence. subst f'. rewrite (proj2 (arrays_shaped _ _ AF)).
    apply shifted_part, H.
  Qed.

  Lemma parallel_arrays : forall cols order r, NoDup (map cl_key cols) -> Permutation order (seq 0 k) ->
    (do indexed <- map_result (run_serially P (build_columns cols) s k i) order; merge_reports (map fst (sort_reports indexed))) = Ok r <->
    run_timeseries_engine P (build_columns cols) s i = Ok r.
  Proof.
    intros cols order r ND PM. destruct (arrays_shaped _ _ A) as [_ N].
    assert (G : forall e l, exec_all P (new_engine s) [Fit i; run_of s] = Ok e -> map_result (column_series (en_array e)) cols = Ok l ->
      (do indexed <- map_result (run_serially P (build_columns cols) s k i) order; merge_reports (map fst (sort_reports indexed))) = Ok (part_of l 0 n)).
    { intros e l E L.
      rewrite (map_result_all _ _ _ (fun j => (part_of l (div_point n k j) (part_size n k j), j))).
      - cbn [bind]. rewrite (sort_order (fun j => part_of l (div_point n k j) (part_size n k j)) order k PM), map_map. cbn [fst]. apply merge_parts; [|exact K].
        rewrite (column_keys _ _ _ L). exact ND.
      - intros j J. apply (Permutation_in _ PM), in_seq in J. unfold run_serially. destruct (fold_arrays n k j i A) as (f & F & _). rewrite F. cbn [bind].
        rewrite (chunk_report cols j f e l ltac:(lia) F E L). reflexivity. }
    split; intro H.
    - destruct (bind_ok _ _ _ _ _ H) as (indexed & H1 & _).
      assert (C : forall j, (j < k)%nat -> exists f x, fold_inputs k j i = Ok f /\ run_timeseries_engine P (build_columns cols) s f = Ok x).
      { intros j J. assert (I : In j order) by (apply (Permutation_in _ (Permutation_sym PM)), in_seq; lia).
        assert (Q : exists x, run_serially P (build_columns cols) s k i j = Ok x).
        { revert indexed H1. clear - I. induction order as [|y o IH]; intros l H; [destruct I|]. cbn in H. apply bind_ok in H. destruct H as (x & H1 & H).
          destruct I as [<-|I]; [exists x; exact H1|]. apply bind_ok in H. destruct H as (l' & H2 & _). exact (IH I l' H2). }
        destruct Q as [x Q]. unfold run_serially in Q. apply bind_ok in Q. destruct Q as (f & F & Q). apply bind_ok in Q. destruct Q as (y & Q & _). exists f, y. split; assumption. }
      assert (E : exists e, exec_all P (new_engine s) [Fit i; run_of s] = Ok e).
      { apply (serial_ok P s n k i V A K NS). intros j J. destruct (C j J) as (f & x & F & Q). rewrite timeseries_exec in Q. apply bind_ok in Q. destruct Q as (e & Q & _). exists f, e. split; assumption. }
      destruct E as [e E]. destruct (C 0%nat K) as (f & x & F & Q). rewrite timeseries_exec in Q. apply bind_ok in Q. destruct Q as (e' & E' & Q).
      pose proof (columns_shifted _ _ _ _ cols (chunk_shifted 0 f e e' K F E E')) as CS. unfold build_columns in Q. apply bind_ok in Q. destruct Q as (l' & L' & _). rewrite L' in CS.
      destruct (map_result (column_series (en_array e)) cols) as [l|] eqn:L; [|contradiction].
      rewrite timeseries_exec, E. cbn [bind]. rewrite (report_of_run _ _ _ E), L. cbn [bind]. rewrite N. rewrite <- (G e l E L). exact H.
    - pose proof H as H0. rewrite timeseries_exec in H. apply bind_ok in H. destruct H as (e & E & H). rewrite (report_of_run _ _ _ E) in H. apply bind_ok in H. destruct H as (l & L & H).
      rewrite (G e l E L), <- N. exact H.
  Qed.
End Report.

(* ------------------------------------------------------------------ the theorems *)

(** C28. A parallel run returns a report if and only if the serial run does, and then the
    same one: for any number of processes, for any order in which the workers are run, for
    any report made of columns with distinct keys. In full mode, no surface may have a
    length strictly between 0 and the tolerance (see C27). *)
Theorem C28_parallel : forall P s raw cols n_processes cpu_count k order,
  valid_params (si_array s) -> well_shaped raw -> shape (ri_dni raw) <> None ->
  NoDup (map cl_key cols) ->
  n_workers n_processes cpu_count = Ok k -> Permutation order (seq 0 k) ->
  (si_fast_row s = None -> no_slivers_in P s raw) ->
  forall r, run_parallel_engine P (build_columns cols) merge_reports s n_processes cpu_count order raw = Ok r <->
    run_timeseries_engine P (build_columns cols) s raw = Ok r.
Proof.
  intros P s raw cols np cpu k order V W D ND NW PM NS r.
  destruct (albedo_arrays raw W D) as (i & AL & A & N & FI).
  assert (K : (0 < k)%nat).
  { unfold n_workers in NW. destruct (Z.leb_spec (if Z.eqb np (-1) then Z.of_nat cpu else np) 0); [discriminate|]. injection NW as <-. lia. }
  assert (NS' : si_fast_row s = None -> no_slivers_in P s i).
  { intros Q e t F T. apply (NS Q e t); [rewrite <- FI; exact F | rewrite <- N; exact T]. }
  pose proof (parallel_arrays P s _ k i V A K NS' cols order r ND PM) as H.
  unfold run_parallel_engine. rewrite NW, AL. cbn [bind]. rewrite H.
  unfold run_timeseries_engine. rewrite FI. reflexivity.
Qed.

(** For the example report builder. *)
Corollary C28_example_report : forall P s raw n_processes cpu_count k order,
  valid_params (si_array s) -> well_shaped raw -> shape (ri_dni raw) <> None ->
  n_workers n_processes cpu_count = Ok k -> Permutation order (seq 0 k) ->
  (si_fast_row s = None -> no_slivers_in P s raw) ->
  forall r, run_parallel_engine P example_fn_build_report merge_reports s n_processes cpu_count order raw = Ok r <->
    run_timeseries_engine P example_fn_build_report s raw = Ok r.
Proof.
  intros P s raw np cpu k order V W D NW PM NS r.
  assert (E : example_fn_build_report = build_columns example_columns) by (apply functional_extensionality, example_build).
  rewrite E. apply C28_parallel with (k := k); auto. apply nodup_dec. vm_compute. exact Logic.I.
Qed.

(** What [n_processes] may be: [-1] for all processors, or a positive number. *)
Theorem C28_processes : forall n_processes cpu_count k,
  n_workers n_processes cpu_count = Ok k <->
  (n_processes = (-1)%Z /\ (0 < cpu_count)%nat /\ k = cpu_count) \/ (0 < n_processes)%Z /\ Z.of_nat k = n_processes.
Proof.
  intros np cpu k. unfold n_workers. destruct (Z.eqb_spec np (-1)) as [->|E].
  - destruct (Z.leb_spec (Z.of_nat cpu) 0); split; intro H0; [discriminate | lia | injection H0 as <-; left; rewrite Nat2Z.id; lia|].
    destruct H0 as [(_ & _ & ->)|]; [rewrite Nat2Z.id; reflexivity | lia].
  - destruct (Z.leb_spec np 0); split; intro H0; [discriminate | lia | injection H0 as <-; right; lia|].
    destruct H0 as [|[H1 <-]]; [lia|]. rewrite Nat2Z.id. reflexivity.
Qed.

(** Parallel runs need arrays: floats are refused, whatever the number of processes. *)
Theorem C28_scalars_refused : forall P build merge s n_processes cpu_count order raw,
  well_shaped raw -> shape (ri_dni raw) = None -> order <> [] ->
  exists e, run_parallel_engine P build merge s n_processes cpu_count order raw = Err e.
Proof.
  intros P build merge s np cpu order raw (o & H1 & H2 & H3 & H4 & H5 & H6 & H7 & H8 & H9) D O.
  assert (T : shape (ri_time raw) = None) by congruence. unfold run_parallel_engine. destruct (n_workers np cpu) as [k|e]; [|exists e; reflexivity]. cbn [bind].
  unfold iterable_albedo. destruct (ri_albedo raw) as [r|m b].
  - destruct (ri_dni raw) as [x|m x]; [exists TypeError; reflexivity | discriminate D].
  - cbn [bind]. destruct order as [|j order]; [congruence|]. exists TypeError. cbn [map_result]. unfold run_serially at 1, fold_inputs.
    destruct (ri_time raw) as [x|m' x]; [reflexivity | discriminate T].
Qed.

(** Timesteps that are all the second one of [ex_raw]. *)
Definition px_sim (k : irr_kind) (row : option nat) : simulation := Simulation fx_p (ex_model k) None None 5 row None.
Definition px_raw (m : nat) : raw_inputs :=
  RawInputs (NArray m (fun _ => 1%nat)) (NArray m (fun _ => 1000)) (NArray m (fun _ => 100)) (NArray m (fun _ => 60)) (NArray m (fun _ => 90))
    (NArray m (fun _ => 60)) (NArray m (fun _ => 90)) (NScalar (1 / 5)) None.

Lemma px_new : forall k, new_engine (px_sim k None) = fx_engine k.
Proof. reflexivity. Qed.
Lemma px_shaped : forall m, well_shaped (px_raw m).
Proof. intro m. exists (Some m). cbn. repeat (split; [reflexivity|]). split; [discriminate | left; reflexivity]. Qed.
Lemma px_slivers : forall P k m, no_slivers_in P (px_sim k None) (px_raw m).
Proof.
  intros P k m e t F T. rewrite px_new in F. destruct (fx_engine_fit P k ex_raw ex_raw_shaped) as [e1 F1].
  apply (sliver_transfer P (fx_engine k) ex_raw 1 (px_raw m) t e1 e); auto.
  - unfold same_inputs. cbn. repeat split; symmetry; assumption || reflexivity.
  - apply (fx_slivers P k e1 F1).
Qed.

(** Full mode; and fast mode with three timesteps two of which are arbitrary. *)
Example C28_example : forall P k x,
  (valid_params (si_array (px_sim k None)) /\ well_shaped (px_raw 5) /\ shape (ri_dni (px_raw 5)) <> None /\
   no_slivers_in P (px_sim k None) (px_raw 5) /\ n_workers (-1) 3 = Ok 3%nat /\ Permutation [2; 0; 1]%nat (seq 0 3) /\
   map (part_size 5 3) [0; 1; 2]%nat = [2; 2; 1]%nat) /\
  (valid_params (si_array (px_sim k (Some 1%nat))) /\ well_shaped (fx_other x) /\ shape (ri_dni (fx_other x)) <> None /\
   n_workers 2 3 = Ok 2%nat /\ map (part_size 3 2) [0; 1]%nat = [2; 1]%nat).
Proof.
  intros P k x. split.
  - split; [exact fx_valid|]. split; [apply px_shaped|]. split; [discriminate|]. split; [apply px_slivers|]. split; [reflexivity|].
    split; [|reflexivity]. cbn. apply (Permutation_trans (perm_swap 0%nat 2%nat [1%nat])). apply perm_skip. apply perm_swap.
  - split; [exact fx_valid|]. split; [|repeat split; discriminate].
    exists (Some 3%nat). cbn. repeat (split; [reflexivity|]). split; [discriminate | right; reflexivity].
Qed.

Print Assumptions C28_parallel.
Print Assumptions C28_example_report.
Print Assumptions C28_processes.
Print Assumptions C28_scalars_refused.
