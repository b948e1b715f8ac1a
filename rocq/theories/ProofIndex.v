(** Indexing of the surfaces of a fitted array (C08). *)
From Coq Require Import Reals List Bool Arith Lra Lia Psatz Permutation.
From Verif Require Import Num ModelTs ModelGeom Basics SpecGeom ProofGround ProofShade ProofRow ProofAngles ProofFit ProofCut.
Import ListNotations.
Open Scope R_scope.

(* ------------------------------------------------------- index_all *)

Lemma index_fold_notin : forall (l : list (nat * ts_surface)) m x,
  ~ In x (map (fun ks => s_id (snd ks)) l) ->
  fold_left (fun (m : sid -> option nat) (ks : nat * ts_surface) =>
     fun x => if sid_eq_dec x (s_id (snd ks)) then Some (fst ks) else m x) l m x = m x.
Proof.
  induction l; intros m x H; simpl; [reflexivity |].
  rewrite IHl by (intro; apply H; right; auto).
  destruct (sid_eq_dec x (s_id (snd a))); [exfalso; apply H; left; auto | reflexivity].
Qed.

Lemma index_fold_in : forall (l : list (nat * ts_surface)) m k s,
  NoDup (map (fun ks => s_id (snd ks)) l) -> In (k, s) l ->
  fold_left (fun (m : sid -> option nat) (ks : nat * ts_surface) =>
     fun x => if sid_eq_dec x (s_id (snd ks)) then Some (fst ks) else m x) l m (s_id s) = Some k.
Proof.
  induction l; intros m k s N H; [destruct H |].
  simpl in N. inversion N; subst. destruct H as [E | H].
  - subst a. cbn [fold_left fst snd]. rewrite index_fold_notin by auto. cbn [fst snd] in *.
    destruct (sid_eq_dec (s_id s) (s_id s)); congruence.
  - cbn [fold_left]. apply IHl; auto.
Qed.

Lemma index_all_nth : forall l k s, NoDup (map s_id l) ->
  nth_error l k = Some s -> index_all l (s_id s) = Some k.
Proof.
  intros l k s N H. unfold index_all. apply index_fold_in.
  - rewrite (map_snd_enum _ _ s_id). auto.
  - apply in_enum. auto.
Qed.

(* ------------------------------------------------------- distinct identities *)

Lemma NoDup_flat_map : forall (A B : Type) (f : A -> list B) l,
  NoDup l -> (forall x, In x l -> NoDup (f x)) ->
  (forall x y b, In x l -> In y l -> In b (f x) -> In b (f y) -> x = y) ->
  NoDup (flat_map f l).
Proof.
  intros A B f l. induction l; intros N H D; simpl; [constructor |].
  inversion N; subst.
  assert (G : forall l1 l2 : list B, NoDup l1 -> NoDup l2 -> (forall b, In b l1 -> ~ In b l2) -> NoDup (l1 ++ l2)).
  { clear. induction l1; intros l2 N1 N2 D; simpl; auto. inversion N1; subst. constructor.
    - rewrite in_app_iff. intros [C | C]; [auto |]. apply (D a); simpl; auto.
    - apply IHl1; auto. intros b Hb. apply D. right; auto. }
  apply G.
  - apply H. left; auto.
  - apply IHl; auto; intros.
    + apply H; right; auto.
    + eapply D; eauto; right; auto.
  - intros b Hb C. apply in_flat_map in C. destruct C as [y [Hy C]].
    assert (a = y) by (eapply (D a y b); simpl; auto). subst. contradiction.
Qed.

Lemma NoDup_app2 : forall (B : Type) (l1 l2 : list B),
  NoDup l1 -> NoDup l2 -> (forall b, In b l1 -> ~ In b l2) -> NoDup (l1 ++ l2).
Proof.
  induction l1; intros l2 N1 N2 D; simpl; auto. inversion N1; subst. constructor.
  - rewrite in_app_iff. intros [C | C]; [auto |]. apply (D a); simpl; auto.
  - apply IHl1; auto. intros b Hb. apply D. right; auto.
Qed.

Lemma make_element_ids : forall mkid sh c cuts, cuts <> [] ->
  map s_id (el_surfaces (make_element mkid sh c cuts)) = map mkid (seq 0 (S (length cuts))).
Proof.
  intros mkid sh c cuts H. unfold make_element. destruct cuts as [| c0 cuts]; [congruence |].
  set (q := c0 :: cuts). cbn [el_surfaces]. rewrite map_map. cbn [s_id].
  rewrite (create_coords_length q c). 
  assert (G : forall (A : Type) (l : list A) s n, length l = n ->
     map (fun x : nat * A => mkid (fst x)) (combine (seq s n) l) = map mkid (seq s n)).
  { intros A l. induction l; intros s n E; simpl in E; subst n; simpl; [reflexivity |].
    f_equal. apply IHl. reflexivity. }
  apply G. apply create_coords_length.
Qed.

Lemma enum_map : forall (A B C : Type) (F : nat -> A -> B) (G : nat -> C) (l : list A) (h : B -> list C) (k : nat -> list C) s,
  (forall i a, h (F i a) = k i) ->
  flat_map h (map (fun es => F (fst es) (snd es)) (combine (seq s (length l)) l)) = flat_map k (seq s (length l)).
Proof.
  intros A B C F G l h k. induction l; intros s H; simpl; [reflexivity |].
  rewrite H. f_equal. apply IHl. auto.
Qed.

Lemma map_flat_map : forall (A B C : Type) (f : B -> C) (g : A -> list B) l,
  map f (flat_map g l) = flat_map (fun x => map f (g x)) l.
Proof. intros. induction l; simpl; auto. rewrite map_app. f_equal. auto. Qed.

(** Identities of the ground surfaces. *)
Lemma gnd_ids : forall y flag shadows cuts g,
  ground_from_ordered_shadows y flag shadows cuts = Some g -> cuts <> [] ->
  let ns := length shadows in
  map s_id (gnd_surfaces g) =
    flat_map (fun e => map (SidShadow e) (seq 0 (S (length cuts)))) (seq 0 ns) ++
    flat_map (fun e => map (SidIllum e) (seq 0 (S (length cuts)))) (seq 0 (S ns)).
Proof.
  intros y flag shadows cuts g Hg Hne ns.
  destruct (ground_from_ordered_spec _ _ _ _ _ Hg) as [_ [_ [Es [_ [Ei _]]]]].
  unfold gnd_surfaces. rewrite map_app, !map_flat_map.
  assert (Lf : forall l, length (fix_overlaps flag l) = length l).
  { induction l as [| a [| b l] IH]; [reflexivity | reflexivity |].
    change (fix_overlaps flag (a :: b :: l)) with
      ((fun t => (fst (a t), np_where (flag t) (fst (b t)) (snd (a t)))) :: fix_overlaps flag (b :: l)).
    cbn [length]. rewrite IH. reflexivity. }
  f_equal.
  - rewrite Es. unfold shadow_elements.
    rewrite (enum_map _ _ _ (fun i a => make_element (SidShadow i) true (fun t => clip_shadow y (a t)) cuts)
               (fun i => SidShadow i 0)
               _ (fun x => map s_id (el_surfaces x)) (fun e => map (SidShadow e) (seq 0 (S (length cuts))))).
    + rewrite Lf. reflexivity.
    + intros. apply make_element_ids. auto.
  - assert (Lsh : length (gnd_shadows g) = ns).
    { rewrite Es. unfold shadow_elements. rewrite map_length, combine_seq_length, Lf. reflexivity. }
    unfold illum_elements in Ei. destruct (gnd_shadows g) as [| e0 es] eqn:Eg; [discriminate |].
    assert (E' := f_equal (fun o => match o with Some x => x | None => [] end) Ei).
    cbv beta iota zeta in E'. rewrite <- E'.
    rewrite (enum_map _ _ _ (fun i a => make_element (SidIllum i) false a cuts)
               (fun i => SidIllum i 0)
               _ (fun x => map s_id (el_surfaces x)) (fun e => map (SidIllum e) (seq 0 (S (length cuts))))).
    + assert (Li : forall y l nx, length (illum_coords y nx l) = S (length l)).
      { clear. induction l; intros; simpl; auto. }
      rewrite Li, map_length, Lsh. reflexivity.
    + intros. apply make_element_ids. auto.
Qed.

Lemma side_ids : forall row bk xc yc w rot cut sl nv,
  map s_id (side_surfaces (side_from_raw_inputs row bk xc yc w rot cut sl nv)) =
  flat_map (fun i => [SidRow row bk i false; SidRow row bk i true]) (seq 0 cut).
Proof.
  intros. unfold side_surfaces, side_from_raw_inputs. cbn [side_segments].
  rewrite map_flat_map. rewrite flat_map_concat_map, map_map. rewrite flat_map_concat_map. reflexivity.
Qed.

Definition row_ids (p : pvarray_params) (i : nat) : list sid :=
  flat_map (fun k => [SidRow i false k false; SidRow i false k true]) (seq 0 (pa_cut p i false)) ++
  flat_map (fun k => [SidRow i true k false; SidRow i true k true]) (seq 0 (pa_cut p i true)).

Lemma fit_row_ids : forall p al rot i, map s_id (row_surfaces (fit_row p al rot i)) = row_ids p i.
Proof.
  intros. unfold row_surfaces, fit_row, pvrow_from_raw_inputs. cbn [row_front row_back].
  rewrite map_app, !side_ids. reflexivity.
Qed.

Lemma fit_ground_ordered : forall p n f a, fit p n f = Some a ->
  ground_from_ordered_shadows pa_y_ground
    (fun t => direct_shading_flag (fit_shading p (fit_alpha p f) (fit_rotation p f) t))
    (map (fun c t => shadow_coords (c t) (fit_alpha p f t) pa_y_ground)
       (map row_coords (fit_rows p (fit_alpha p f) (fit_rotation p f))))
    (map (fun c t => cut_point (c t) (fit_rotation p f t) pa_y_ground)
       (map row_coords (fit_rows p (fit_alpha p f) (fit_rotation p f)))) = Some (ft_ground a).
Proof.
  intros p n f a H. destruct (fit_spec _ _ _ _ H) as [_ [_ [_ [E G]]]].
  unfold ground_from_pvrows in G. rewrite E in G. exact G.
Qed.

Lemma fit_ids : forall p n f a, valid_params p -> fit p n f = Some a ->
  map s_id (all_ts_surfaces a) =
    (flat_map (fun e => map (SidShadow e) (seq 0 (S (pa_n_pvrows p)))) (seq 0 (pa_n_pvrows p)) ++
     flat_map (fun e => map (SidIllum e) (seq 0 (S (pa_n_pvrows p)))) (seq 0 (S (pa_n_pvrows p)))) ++
    flat_map (row_ids p) (seq 0 (pa_n_pvrows p)).
Proof.
  intros p n f a [_ [_ [Hn _]]] H. unfold all_ts_surfaces. rewrite map_app.
  pose proof (fit_ground_ordered _ _ _ _ H) as G.
  apply gnd_ids in G.
  - rewrite !map_length, fit_rows_length in G. rewrite G. f_equal.
    destruct (fit_spec _ _ _ _ H) as [_ [_ [_ [E _]]]]. rewrite E, fit_rows_eq.
    rewrite map_flat_map. rewrite !flat_map_concat_map, map_map. f_equal. apply map_ext.
    intros. apply fit_row_ids.
  - intro C. apply (f_equal (@length _)) in C. rewrite !map_length, fit_rows_length in C.
    simpl in C. lia.
Qed.

Lemma NoDup_map_inj : forall (A B : Type) (f : A -> B) l,
  (forall x y, f x = f y -> x = y) -> NoDup l -> NoDup (map f l).
Proof.
  intros A B f l I N. induction N; simpl; constructor; auto.
  rewrite in_map_iff. intros [y [E Hy]]. apply I in E. subst. contradiction.
Qed.

Lemma NoDup_row_side : forall i b m,
  NoDup (flat_map (fun k => [SidRow i b k false; SidRow i b k true]) (seq 0 m)).
Proof.
  intros. apply NoDup_flat_map.
  - apply seq_NoDup.
  - intros. constructor; [simpl; intuition congruence |]. constructor; [simpl; tauto | constructor].
  - intros x y b0 _ _ H1 H2. simpl in H1, H2. intuition congruence.
Qed.

Lemma in_row_ids : forall p i x, In x (row_ids p i) ->
  exists b k s, x = SidRow i b k s.
Proof.
  intros p i x H. unfold row_ids in H. apply in_app_or in H.
  destruct H as [H | H]; apply in_flat_map in H; destruct H as [k [_ H]]; simpl in H;
    destruct H as [H | [H | []]]; eauto.
Qed.

Lemma fit_ids_nodup : forall p n f a, valid_params p -> fit p n f = Some a ->
  NoDup (map s_id (all_ts_surfaces a)).
Proof.
  intros p n f a Hv H. rewrite (fit_ids _ _ _ _ Hv H).
  apply NoDup_app2; [apply NoDup_app2 | |].
  - apply NoDup_flat_map; [apply seq_NoDup | intros; apply NoDup_map_inj; [congruence | apply seq_NoDup] |].
    intros x y b _ _ H1 H2. apply in_map_iff in H1. apply in_map_iff in H2.
    destruct H1 as [k1 [E1 _]], H2 as [k2 [E2 _]]. congruence.
  - apply NoDup_flat_map; [apply seq_NoDup | intros; apply NoDup_map_inj; [congruence | apply seq_NoDup] |].
    intros x y b _ _ H1 H2. apply in_map_iff in H1. apply in_map_iff in H2.
    destruct H1 as [k1 [E1 _]], H2 as [k2 [E2 _]]. congruence.
  - intros b H1 H2. apply in_flat_map in H1. apply in_flat_map in H2.
    destruct H1 as [e1 [_ H1]], H2 as [e2 [_ H2]]. apply in_map_iff in H1. apply in_map_iff in H2.
    destruct H1 as [k1 [E1 _]], H2 as [k2 [E2 _]]. congruence.
  - apply NoDup_flat_map; [apply seq_NoDup | |].
    + intros i _. unfold row_ids. apply NoDup_app2; try apply NoDup_row_side.
      intros b H1 H2. apply in_flat_map in H1. apply in_flat_map in H2.
      destruct H1 as [k1 [_ H1]], H2 as [k2 [_ H2]]. simpl in H1, H2. intuition congruence.
    + intros x y b _ _ H1 H2. apply in_row_ids in H1. apply in_row_ids in H2.
      destruct H1 as [? [? [? E1]]], H2 as [? [? [? E2]]]. congruence.
  - intros b H1 H2. apply in_flat_map in H2. destruct H2 as [i [_ H2]]. apply in_row_ids in H2.
    destruct H2 as [? [? [? E2]]]. apply in_app_or in H1.
    destruct H1 as [H1 | H1]; apply in_flat_map in H1; destruct H1 as [e [_ H1]];
      apply in_map_iff in H1; destruct H1 as [k [E1 _]]; congruence.
Qed.

Lemma gnd_n_length : forall g, gnd_n_ts_surfaces g = length (gnd_surfaces g).
Proof.
  intros. unfold gnd_n_ts_surfaces, gnd_surfaces. rewrite app_length.
  rewrite !fold_left_add_flat_map. reflexivity.
Qed.

Lemma row_n_length : forall r, row_n_ts_surfaces r = length (row_surfaces r).
Proof.
  intros. unfold row_n_ts_surfaces, row_surfaces, side_n_ts_surfaces, side_surfaces.
  rewrite app_length. rewrite <- !fold_left_add_flat_map.
  assert (E : forall l, map seg_n_ts_surfaces l = map (fun x => length (seg_surfaces x)) l).
  { intros. apply map_ext. intros. unfold seg_n_ts_surfaces, seg_surfaces. rewrite app_length. reflexivity. }
  rewrite !E. reflexivity.
Qed.

Lemma n_ts_surfaces_length : forall a, n_ts_surfaces a = length (all_ts_surfaces a).
Proof.
  intros. unfold n_ts_surfaces, all_ts_surfaces. rewrite fold_left_add_acc, app_length.
  rewrite gnd_n_length. f_equal.
  rewrite <- (fold_left_add_flat_map _ _ row_surfaces). f_equal. apply map_ext. apply row_n_length.
Qed.

Lemma length_flat_map_const : forall (A B : Type) (f : A -> list B) m l,
  (forall x, In x l -> length (f x) = m) -> length (flat_map f l) = (length l * m)%nat.
Proof.
  intros A B f m l. induction l; intros H; simpl; auto.
  rewrite app_length, IHl by (intros; apply H; right; auto). rewrite H by (left; auto). reflexivity.
Qed.

Lemma fit_count : forall p n f a, valid_params p -> fit p n f = Some a ->
  let N := pa_n_pvrows p in
  n_ts_surfaces a =
  ((2 * N + 1) * (N + 1) +
   2 * fold_right Nat.add 0 (map (fun i => pa_cut p i false + pa_cut p i true) (seq 0 N)))%nat.
Proof.
  intros p n f a Hv H N. rewrite n_ts_surfaces_length. rewrite <- (map_length s_id).
  rewrite (fit_ids _ _ _ _ Hv H). fold N. rewrite !app_length.
  rewrite !(length_flat_map_const _ _ _ (S N)) by (intros; rewrite map_length, seq_length; auto).
  rewrite !seq_length. 
  assert (E : forall l, length (flat_map (row_ids p) l) =
     (2 * fold_right Nat.add 0 (map (fun i => pa_cut p i false + pa_cut p i true) l))%nat).
  { induction l; simpl; auto. rewrite app_length, IHl. unfold row_ids. rewrite app_length.
    rewrite !(length_flat_map_const _ _ _ 2%nat) by (intros; reflexivity). rewrite !seq_length. lia. }
  rewrite E. lia.
Qed.

Lemma surf_index_nth : forall p n f a k s, valid_params p -> fit p n f = Some a ->
  nth_error (all_ts_surfaces a) k = Some s -> surf_index a s = k.
Proof.
  intros p n f a k s Hv H Hk. unfold surf_index.
  rewrite (index_all_nth _ k s); auto. eapply fit_ids_nodup; eauto.
Qed.

Lemma surf_index_inj : forall p n f a s s', valid_params p -> fit p n f = Some a ->
  In s (all_ts_surfaces a) -> In s' (all_ts_surfaces a) ->
  surf_index a s = surf_index a s' -> s = s'.
Proof.
  intros p n f a s s' Hv H Hs Hs' E. apply In_nth_error in Hs. apply In_nth_error in Hs'.
  destruct Hs as [k Hk], Hs' as [k' Hk'].
  rewrite (surf_index_nth _ _ _ _ k s Hv H Hk) in E.
  rewrite (surf_index_nth _ _ _ _ k' s' Hv H Hk') in E. congruence.
Qed.
