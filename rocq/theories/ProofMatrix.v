(** The view factor matrix: from the loops of in-place writes to the value of each
    cell. *)
From Coq Require Import Reals List Bool Arith Lra Lia Permutation.
From Verif Require Import Num ModelTs ModelGeom ModelVF Basics ProofFit ProofCut ProofIndex ProofGeom2.
Import ListNotations.
Open Scope R_scope.

(* ------------------------------------------------------------ lists of writes *)

Definition write : Type := (nat * nat) * R.
Definition apply_ws (ws : list write) (M : matrix) : matrix :=
  fold_left (fun M w => mset M (fst (fst w)) (snd (fst w)) (snd w)) ws M.

Lemma mset_same : forall M i j v, mset M i j v i j = v.
Proof. intros. unfold mset. rewrite !Nat.eqb_refl. reflexivity. Qed.

Lemma mset_other : forall M i j v a b, (a, b) <> (i, j) -> mset M i j v a b = M a b.
Proof.
  intros. unfold mset. destruct (Nat.eqb_spec a i), (Nat.eqb_spec b j); cbn [andb]; auto.
  subst. contradiction.
Qed.

Lemma apply_ws_app : forall l1 l2 M, apply_ws (l1 ++ l2) M = apply_ws l2 (apply_ws l1 M).
Proof. intros. unfold apply_ws. apply fold_left_app. Qed.

Lemma apply_ws_notin : forall ws M a b, ~ In (a, b) (map fst ws) -> apply_ws ws M a b = M a b.
Proof.
  induction ws as [| [[i j] v] ws IH]; intros M a b H; [reflexivity |].
  cbn [apply_ws fold_left fst snd]. fold (apply_ws ws (mset M i j v)).
  rewrite IH by (intro; apply H; right; auto). apply mset_other.
  intro E. apply H. left. symmetry. exact E.
Qed.

Lemma apply_ws_in : forall ws M a b v,
  In ((a, b), v) ws -> (forall v', In ((a, b), v') ws -> v' = v) -> apply_ws ws M a b = v.
Proof.
  intros ws. induction ws as [| [[i j] w] ws IH] using rev_ind; intros M a b v Hin Hall; [destruct Hin |].
  rewrite apply_ws_app. cbn [apply_ws fold_left fst snd].
  destruct (Nat.eq_dec a i) as [Ea | Na].
  - destruct (Nat.eq_dec b j) as [Eb | Nb].
    + subst. rewrite mset_same. apply Hall. apply in_or_app. right. left. reflexivity.
    + rewrite mset_other by congruence. apply IH.
      * apply in_app_or in Hin. destruct Hin as [Hin | [E | []]]; [auto | congruence].
      * intros. apply Hall. apply in_or_app. auto.
  - rewrite mset_other by congruence. apply IH.
    + apply in_app_or in Hin. destruct Hin as [Hin | [E | []]]; [auto | congruence].
    + intros. apply Hall. apply in_or_app. auto.
Qed.

Lemma fold_apply_ws : forall (A : Type) (step : matrix -> A -> matrix) (ws : A -> list write) l M,
  (forall x M, In x l -> step M x = apply_ws (ws x) M) ->
  fold_left step l M = apply_ws (flat_map ws l) M.
Proof.
  induction l as [| x l IH]; intros M H; [reflexivity |].
  cbn [fold_left flat_map]. rewrite apply_ws_app. rewrite (H x M) by (left; auto).
  apply IH. intros. apply H. right. auto.
Qed.

(* -------------------------------------------------------- the writes of the loops *)

Section Writes.
Variable n : nat.
Variable idx : ts_surface -> nat.

Definition pair_writes (x y : ts_surface) (v : R * R) : list write :=
  [((idx x, idx y), fst v); ((idx y, idx x), snd v)].

Definition inner_writes (x : ts_surface) (ys : list ts_surface) (vf : ts_surface -> ts_surface -> R * R) : list write :=
  flat_map (fun y => if is_empty n y then [] else pair_writes x y (vf x y)) ys.

Lemma inner_fold : forall x ys vf M,
  fold_left (fun M y => if is_empty n y then M else mset2 idx x y (vf x y) M) ys M =
  apply_ws (inner_writes x ys vf) M.
Proof.
  intros. apply fold_apply_ws. intros y M' _. destruct (is_empty n y); reflexivity.
Qed.

Lemma loop_pairs_writes : forall xs ys vf M,
  loop_pairs n idx xs ys vf M =
  apply_ws (flat_map (fun x => if is_empty n x then [] else inner_writes x ys vf) xs) M.
Proof.
  intros. unfold loop_pairs. apply fold_apply_ws. intros x M' _.
  destruct (is_empty n x); [reflexivity |]. apply inner_fold.
Qed.

Lemma loop_gnd_writes : forall xs ls rs vfl vfr M,
  loop_gnd n idx xs ls rs vfl vfr M =
  apply_ws (flat_map (fun x => if is_empty n x then []
                               else inner_writes x ls vfl ++ inner_writes x rs vfr) xs) M.
Proof.
  intros. unfold loop_gnd. apply fold_apply_ws. intros x M' _.
  destruct (is_empty n x); [reflexivity |]. cbv zeta.
  rewrite !inner_fold, apply_ws_app. reflexivity.
Qed.

Lemma in_inner : forall x ys vf w, In w (inner_writes x ys vf) <->
  exists y, In y ys /\ is_empty n y = false /\ In w (pair_writes x y (vf x y)).
Proof.
  intros. unfold inner_writes. rewrite in_flat_map. split.
  - intros [y [Hy Hw]]. exists y. destruct (is_empty n y); [destruct Hw | auto].
  - intros [y [Hy [He Hw]]]. exists y. rewrite He. auto.
Qed.

Lemma in_pairs : forall xs ys vf w,
  In w (flat_map (fun x => if is_empty n x then [] else inner_writes x ys vf) xs) <->
  exists x y, In x xs /\ In y ys /\ is_empty n x = false /\ is_empty n y = false /\
              In w (pair_writes x y (vf x y)).
Proof.
  intros. rewrite in_flat_map. split.
  - intros [x [Hx Hw]]. destruct (is_empty n x) eqn:E; [destruct Hw |].
    apply in_inner in Hw. destruct Hw as [y [Hy [He Hw]]]. exists x, y. auto.
  - intros [x [y [Hx [Hy [Ex [Ey Hw]]]]]]. exists x. rewrite Ex. split; auto.
    apply in_inner. exists y. auto.
Qed.

Lemma in_gnd_loop : forall xs ls rs vfl vfr w,
  In w (flat_map (fun x => if is_empty n x then []
                           else inner_writes x ls vfl ++ inner_writes x rs vfr) xs) <->
  exists (left : bool) x y, In x xs /\ In y (if left then ls else rs) /\
     is_empty n x = false /\ is_empty n y = false /\
     In w (pair_writes x y ((if left then vfl else vfr) x y)).
Proof.
  intros. rewrite in_flat_map. split.
  - intros [x [Hx Hw]]. destruct (is_empty n x) eqn:E; [destruct Hw |].
    apply in_app_or in Hw. destruct Hw as [Hw | Hw]; apply in_inner in Hw;
      destruct Hw as [y [Hy [He Hw]]]; [exists true, x, y | exists false, x, y]; auto.
  - intros [left [x [y [Hx [Hy [Ex [Ey Hw]]]]]]]. exists x. rewrite Ex. split; auto.
    apply in_or_app. destruct left; [left | right]; apply in_inner; exists y; auto.
Qed.

End Writes.

Definition side_of (b : bool) (r : ts_pvrow) : ts_side := if b then row_back r else row_front r.

(** All the writes of [vf_pvrow_gnd_surf]. *)
Definition gnd_writes (n : nat) (idx : ts_surface -> nat) (rows : list ts_pvrow) (g : ts_ground)
    (tl : bool) (t : nat) : list write :=
  flat_map (fun ir : nat * ts_pvrow =>
     let (i, row) := ir in
     let ls := gnd_side_of_cut_point g true i in
     let rs := gnd_side_of_cut_point g false i in
     let W b := flat_map (fun x => if is_empty n x then [] else
                   inner_writes n idx x ls (vf_pvrow_surf_to_gnd_surf rows tl i b true t) ++
                   inner_writes n idx x rs (vf_pvrow_surf_to_gnd_surf rows tl i b false t))
                (side_surfaces (side_of b row)) in
     W false ++ W true) (combine (seq 0 (length rows)) rows).

Lemma vf_pvrow_gnd_writes : forall n idx rows g tl t M,
  vf_pvrow_gnd_surf n idx rows g tl t M = apply_ws (gnd_writes n idx rows g tl t) M.
Proof.
  intros. unfold vf_pvrow_gnd_surf, gnd_writes. apply fold_apply_ws. intros [i row] M' _.
  rewrite !loop_gnd_writes, apply_ws_app. reflexivity.
Qed.

Lemma in_gnd_writes : forall n idx rows g tl t w,
  In w (gnd_writes n idx rows g tl t) <->
  exists i row (b left : bool) x y, nth_error rows i = Some row /\
    In x (side_surfaces (side_of b row)) /\ In y (gnd_side_of_cut_point g left i) /\
    is_empty n x = false /\ is_empty n y = false /\
    In w (pair_writes idx x y (vf_pvrow_surf_to_gnd_surf rows tl i b left t x y)).
Proof.
  intros. unfold gnd_writes. rewrite in_flat_map. split.
  - intros [[i row] [Hr Hw]]. apply in_enum in Hr. cbv zeta in Hw.
    apply in_app_or in Hw. destruct Hw as [Hw | Hw]; apply in_gnd_loop in Hw;
      destruct Hw as [left [x [y [Hx [Hy [Ex [Ey Hw]]]]]]];
      [exists i, row, false, left, x, y | exists i, row, true, left, x, y];
      repeat split; auto; destruct left; auto.
  - intros [i [row [b [left [x [y [Hr [Hx [Hy [Ex [Ey Hw]]]]]]]]]]].
    exists (i, row). split; [apply in_enum; auto |]. cbv zeta. apply in_or_app.
    destruct b; [right | left]; apply in_gnd_loop; exists left, x, y;
      repeat split; auto; destruct left; auto.
Qed.

(** All the writes of [vf_pvrow_to_pvrow]. *)
Definition row_writes (n : nat) (idx : ts_surface -> nat) (rows : list ts_pvrow)
    (tl : bool) (t : nat) : list write :=
  flat_map (fun ir : nat * ts_pvrow =>
     let (i, row) := ir in
     let right_row := nth (i + 1) rows dummy_row in
     let W b := flat_map (fun x => if is_empty n x then [] else
                   inner_writes n idx x (side_surfaces (side_of (negb b) right_row))
                     (vf_pvrow_pair (if b then tl else negb tl) t))
                (side_surfaces (side_of b row)) in
     W false ++ W true) (combine (seq 0 (length rows - 1)) (removelast rows)).

Lemma vf_pvrow_pvrow_writes : forall n idx rows tl t M,
  vf_pvrow_to_pvrow n idx rows tl t M = apply_ws (row_writes n idx rows tl t) M.
Proof.
  intros. unfold vf_pvrow_to_pvrow, row_writes. apply fold_apply_ws. intros [i row] M' _.
  rewrite !loop_pairs_writes, apply_ws_app. reflexivity.
Qed.

Lemma length_removelast : forall (A : Type) (l : list A), length (removelast l) = (length l - 1)%nat.
Proof.
  intros A l. destruct l as [| x l]; [reflexivity |].
  rewrite (app_removelast_last x (l := x :: l)) at 2 by discriminate.
  rewrite app_length; cbn [length]; lia.
Qed.

Lemma nth_error_removelast : forall (A : Type) (l : list A) i x,
  nth_error (removelast l) i = Some x <-> nth_error l i = Some x /\ (S i < length l)%nat.
Proof.
  intros A l i x. destruct l as [| y l].
  - destruct i; cbn; split; [discriminate | intros [? ?]; discriminate | discriminate | intros [? ?]; discriminate].
  - assert (E : y :: l = removelast (y :: l) ++ [last (y :: l) y]) by (apply app_removelast_last; discriminate).
    pose proof (length_removelast _ (y :: l)) as L.
    remember (removelast (y :: l)) as r. split.
    + intro H. assert (i < length r)%nat by (apply nth_error_Some; congruence).
      rewrite E at 1. rewrite nth_error_app1 by auto. split; [auto | cbn [length] in *; lia].
    + intros [H K]. rewrite E in H. rewrite nth_error_app1 in H; [auto | cbn [length] in *; lia].
Qed.

Lemma in_row_writes : forall n idx rows tl t w,
  In w (row_writes n idx rows tl t) <->
  exists i row row' (b : bool) x y, nth_error rows i = Some row /\ nth_error rows (S i) = Some row' /\
    In x (side_surfaces (side_of b row)) /\ In y (side_surfaces (side_of (negb b) row')) /\
    is_empty n x = false /\ is_empty n y = false /\
    In w (pair_writes idx x y (vf_pvrow_pair (if b then tl else negb tl) t x y)).
Proof.
  intros. unfold row_writes. rewrite in_flat_map.
  assert (K : forall i row, In (i, row) (combine (seq 0 (length rows - 1)) (removelast rows)) <->
              nth_error rows i = Some row /\ (S i < length rows)%nat).
  { intros. rewrite <- length_removelast, in_enum, nth_error_removelast. tauto. }
  assert (N : forall i, (S i < length rows)%nat -> nth_error rows (S i) = Some (nth (i + 1) rows dummy_row)).
  { intros. rewrite Nat.add_1_r. apply nth_error_nth'. auto. }
  split.
  - intros [[i row] [Hr Hw]]. apply K in Hr. destruct Hr as [Hr Hl]. cbv zeta in Hw.
    apply in_app_or in Hw. destruct Hw as [Hw | Hw]; apply in_pairs in Hw;
      destruct Hw as [x [y [Hx [Hy [Ex [Ey Hw]]]]]];
      [exists i, row, (nth (i + 1) rows dummy_row), false, x, y
      |exists i, row, (nth (i + 1) rows dummy_row), true, x, y]; repeat split; auto.
  - intros [i [row [row' [b [x [y [Hr [Hr' [Hx [Hy [Ex [Ey Hw]]]]]]]]]]]].
    assert (Hl : (S i < length rows)%nat) by (apply nth_error_Some; congruence).
    exists (i, row). split; [apply K; auto |]. cbv zeta. rewrite (N i Hl) in Hr'.
    injection Hr' as Hr'. rewrite Hr'.
    apply in_or_app. destruct b; [right | left]; apply in_pairs; exists x, y; repeat split; auto.
Qed.

(* ---------------------------------------------------- identities and membership *)

Lemma fit_side_ids : forall p n f a i row b x, valid_params p -> fit p n f = Some a ->
  nth_error (ft_rows a) i = Some row -> In x (side_surfaces (side_of b row)) ->
  exists k s, s_id x = SidRow i b k s.
Proof.
  intros p n f a i row b x V F Hr Hx. destruct (fit_rows_nth_error _ _ _ _ _ _ F Hr) as [_ ->].
  apply (in_map s_id) in Hx.
  assert (E : exists c, map s_id (side_surfaces (side_of b (fit_row p (fit_alpha p f) (fit_rotation p f) i))) =
    flat_map (fun k => [SidRow i b k false; SidRow i b k true]) (seq 0 c)).
  { destruct b; cbn [side_of].
    - eexists. rewrite ProofGeom.fit_row_back. apply side_ids.
    - eexists. rewrite ProofGeom.fit_row_front. apply side_ids. }
  destruct E as [c E]. rewrite E in Hx. apply in_flat_map in Hx.
  destruct Hx as [k [_ [H | [H | []]]]]; eauto.
Qed.

Lemma fit_gnd_ids : forall p n f a y, valid_params p -> fit p n f = Some a ->
  In y (gnd_surfaces (ft_ground a)) ->
  (exists e k, s_id y = SidShadow e k) \/ (exists e k, s_id y = SidIllum e k).
Proof.
  intros p n f a y V F Hy. pose proof (fit_ground_ordered _ _ _ _ F) as G.
  apply gnd_ids in G.
  2:{ rewrite fit_rows_eq. destruct V as [_ [_ [N _]]]. destruct (pa_n_pvrows p); [lia | discriminate]. }
  apply (in_map s_id) in Hy. rewrite G in Hy. apply in_app_or in Hy.
  destruct Hy as [Hy | Hy]; apply in_flat_map in Hy; destruct Hy as [e [_ Hy]]; apply in_map_iff in Hy;
    destruct Hy as [k [Hk _]]; eauto.
Qed.

Lemma in_all_row : forall a i row b x, nth_error (ft_rows a) i = Some row ->
  In x (side_surfaces (side_of b row)) -> In x (all_ts_surfaces a).
Proof.
  intros a i row b x Hr Hx. unfold all_ts_surfaces. apply in_or_app. right. apply in_flat_map.
  exists row. split; [eapply nth_error_In; eauto |]. unfold row_surfaces. apply in_or_app.
  destruct b; auto.
Qed.

Lemma fit_gnd_perm : forall p n f a i, fit p n f = Some a -> (i < pa_n_pvrows p)%nat ->
  Permutation (gnd_surfaces (ft_ground a))
    (gnd_side_of_cut_point (ft_ground a) true i ++ gnd_side_of_cut_point (ft_ground a) false i).
Proof.
  intros p n f a i F Hi. eapply gnd_side_partition; [apply (fit_ground_ordered _ _ _ _ F) |].
  rewrite !map_length, fit_rows_length. auto.
Qed.

Lemma in_gnd_side : forall p n f a i left y, fit p n f = Some a -> (i < pa_n_pvrows p)%nat ->
  In y (gnd_side_of_cut_point (ft_ground a) left i) -> In y (gnd_surfaces (ft_ground a)).
Proof.
  intros p n f a i left y F Hi Hy. apply (Permutation_in y (Permutation_sym (fit_gnd_perm _ _ _ _ _ F Hi))).
  apply in_or_app. destruct left; auto.
Qed.

Lemma in_all_gnd : forall a y, In y (gnd_surfaces (ft_ground a)) -> In y (all_ts_surfaces a).
Proof. intros. unfold all_ts_surfaces. apply in_or_app. auto. Qed.

Lemma NoDup_app_disjoint : forall (A : Type) (l1 l2 : list A) x, NoDup (l1 ++ l2) -> In x l1 -> In x l2 -> False.
Proof.
  induction l1 as [| y l1 IH]; intros l2 x H H1 H2; [destruct H1 |].
  cbn in H. inversion H; subst. destruct H1 as [-> | H1]; [| eauto].
  apply H4. apply in_or_app. auto.
Qed.

Lemma fit_all_nodup : forall p n f a, valid_params p -> fit p n f = Some a -> NoDup (all_ts_surfaces a).
Proof. intros. eapply NoDup_map_inv. eapply fit_ids_nodup; eauto. Qed.

Lemma fit_gnd_nodup : forall p n f a, valid_params p -> fit p n f = Some a -> NoDup (gnd_surfaces (ft_ground a)).
Proof.
  intros p n f a V F. pose proof (fit_all_nodup _ _ _ _ V F) as H. unfold all_ts_surfaces in H.
  revert H. generalize (gnd_surfaces (ft_ground a)) (flat_map row_surfaces (ft_rows a)).
  induction l as [| x l IH]; intros l' H; [constructor |]. cbn in H. inversion H; subst.
  constructor; [intro; apply H2; apply in_or_app; auto | eauto].
Qed.

Lemma gnd_side_excl : forall p n f a i y, valid_params p -> fit p n f = Some a -> (i < pa_n_pvrows p)%nat ->
  In y (gnd_side_of_cut_point (ft_ground a) true i) ->
  In y (gnd_side_of_cut_point (ft_ground a) false i) -> False.
Proof.
  intros p n f a i y V F Hi. apply NoDup_app_disjoint.
  eapply Permutation_NoDup; [apply (fit_gnd_perm _ _ _ _ _ F Hi) | eapply fit_gnd_nodup; eauto].
Qed.

Lemma gnd_side_same : forall p n f a i y l l', valid_params p -> fit p n f = Some a -> (i < pa_n_pvrows p)%nat ->
  In y (gnd_side_of_cut_point (ft_ground a) l i) ->
  In y (gnd_side_of_cut_point (ft_ground a) l' i) -> l = l'.
Proof.
  intros p n f a i y l l' V F Hi H H'. destruct l, l'; auto; exfalso;
    eapply gnd_side_excl; eauto.
Qed.

(* --------------------------------------------------------- cells before the sky *)

Definition pre_sky (a : fitted) (t : nat) : matrix :=
  let tl := Rltb 0 (ft_rotation a t) in
  vf_pvrow_to_pvrow (ft_n_states a) (surf_index a) (ft_rows a) tl t
    (vf_pvrow_gnd_surf (ft_n_states a) (surf_index a) (ft_rows a) (ft_ground a) tl t (fun _ _ => 0)).

Lemma build_vf_matrix_eq : forall a t, build_vf_matrix a t =
  clear_sky_of_points (n_ts_surfaces a) t (all_ts_surfaces a)
    (set_sky_column (n_ts_surfaces a) (pre_sky a t)).
Proof. reflexivity. Qed.

Definition all_writes (a : fitted) (t : nat) : list write :=
  let tl := Rltb 0 (ft_rotation a t) in
  gnd_writes (ft_n_states a) (surf_index a) (ft_rows a) (ft_ground a) tl t ++
  row_writes (ft_n_states a) (surf_index a) (ft_rows a) tl t.

Lemma pre_sky_writes : forall a t, pre_sky a t = apply_ws (all_writes a t) (fun _ _ => 0).
Proof.
  intros. unfold pre_sky, all_writes. cbv zeta.
  rewrite vf_pvrow_pvrow_writes, vf_pvrow_gnd_writes, apply_ws_app. reflexivity.
Qed.

(** A row surface and a ground surface between which view factors are written. *)
Definition gnd_pair (a : fitted) (t : nat) (x y : ts_surface) (v : R * R) : Prop :=
  exists i row (b left : bool), nth_error (ft_rows a) i = Some row /\
    In x (side_surfaces (side_of b row)) /\ In y (gnd_side_of_cut_point (ft_ground a) left i) /\
    v = vf_pvrow_surf_to_gnd_surf (ft_rows a) (Rltb 0 (ft_rotation a t)) i b left t x y.

(** Surfaces of opposite sides of neighbouring rows. *)
Definition row_pair (a : fitted) (t : nat) (x y : ts_surface) (v : R * R) : Prop :=
  exists i row row' (b : bool), nth_error (ft_rows a) i = Some row /\ nth_error (ft_rows a) (S i) = Some row' /\
    In x (side_surfaces (side_of b row)) /\ In y (side_surfaces (side_of (negb b) row')) /\
    v = vf_pvrow_pair (if b then Rltb 0 (ft_rotation a t) else negb (Rltb 0 (ft_rotation a t))) t x y.

Definition pair_of (a : fitted) (t : nat) (x y : ts_surface) (v : R * R) : Prop :=
  gnd_pair a t x y v \/ row_pair a t x y v.

Lemma in_all_writes : forall a t w, In w (all_writes a t) <->
  exists x y v, pair_of a t x y v /\ is_empty (ft_n_states a) x = false /\
    is_empty (ft_n_states a) y = false /\ In w (pair_writes (surf_index a) x y v).
Proof.
  intros. unfold all_writes. cbv zeta. rewrite in_app_iff, in_gnd_writes, in_row_writes. split.
  - intros [[i [row [b [l [x [y [Hr [Hx [Hy [Ex [Ey Hw]]]]]]]]]]] |
            [i [row [row' [b [x [y [Hr [Hr' [Hx [Hy [Ex [Ey Hw]]]]]]]]]]]]].
    + exists x, y. eexists. split; [| split; [exact Ex | split; [exact Ey | exact Hw]]].
      left. exists i, row, b, l. repeat split; auto.
    + exists x, y. eexists. split; [| split; [exact Ex | split; [exact Ey | exact Hw]]].
      right. exists i, row, row', b. repeat split; auto.
  - intros [x [y [v [[[i [row [b [l [Hr [Hx [Hy ->]]]]]]] |
                     [i [row [row' [b [Hr [Hr' [Hx [Hy ->]]]]]]]]] [Ex [Ey Hw]]]]]].
    + left. exists i, row, b, l, x, y. repeat split; auto.
    + right. exists i, row, row', b, x, y. repeat split; auto.
Qed.

Section Fitted.
Variables (p : pvarray_params) (n : nat) (f : fit_inputs) (a : fitted).
Hypothesis V : valid_params p.
Hypothesis F : fit p n f = Some a.

Lemma pair_in_all : forall t x y v, pair_of a t x y v ->
  In x (all_ts_surfaces a) /\ In y (all_ts_surfaces a).
Proof.
  intros t x y v [[i [row [b [l [Hr [Hx [Hy _]]]]]]] | [i [row [row' [b [Hr [Hr' [Hx [Hy _]]]]]]]]].
  - destruct (fit_rows_nth_error _ _ _ _ _ _ F Hr) as [Hi _].
    split; [exact (in_all_row _ _ _ _ _ Hr Hx) | apply in_all_gnd; exact (in_gnd_side _ _ _ _ _ _ _ F Hi Hy)].
  - split; [exact (in_all_row _ _ _ _ _ Hr Hx) | exact (in_all_row _ _ _ _ _ Hr' Hy)].
Qed.

(** Identity of the first surface of a pair: a row surface; of the second: a ground
    surface or a surface of the next row on the other side. *)
Lemma pair_ids : forall t x y v, pair_of a t x y v ->
  exists i b k s, s_id x = SidRow i b k s /\
    ((exists e m, s_id y = SidShadow e m) \/ (exists e m, s_id y = SidIllum e m) \/
     (exists m s', s_id y = SidRow (S i) (negb b) m s')).
Proof.
  intros t x y v [[i [row [b [l [Hr [Hx [Hy _]]]]]]] | [i [row [row' [b [Hr [Hr' [Hx [Hy _]]]]]]]]].
  - destruct (fit_side_ids _ _ _ _ _ _ _ _ V F Hr Hx) as [k [s E]]. exists i, b, k, s. split; [auto |].
    assert (Hi : (i < pa_n_pvrows p)%nat) by (destruct (fit_rows_nth_error _ _ _ _ _ _ F Hr); auto).
    destruct (fit_gnd_ids _ _ _ _ y V F (in_gnd_side _ _ _ _ _ _ _ F Hi Hy)); auto.
  - destruct (fit_side_ids _ _ _ _ _ _ _ _ V F Hr Hx) as [k [s E]]. exists i, b, k, s. split; [auto |].
    destruct (fit_side_ids _ _ _ _ _ _ _ _ V F Hr' Hy) as [m [s' E']]. right. right. eauto.
Qed.

Lemma pair_unique : forall t x y v v', pair_of a t x y v -> pair_of a t x y v' -> v = v'.
Proof.
  intros t x y v v' [[i [row [b [l [Hr [Hx [Hy E]]]]]]] | [i [row [row' [b [Hr [Hr' [Hx [Hy E]]]]]]]]]
    [[j [rowj [bj [lj [Kr [Kx [Ky E']]]]]]] | [j [rowj [rowj' [bj [Kr [Kr' [Kx [Ky E']]]]]]]]].
  - destruct (fit_side_ids _ _ _ _ _ _ _ _ V F Hr Hx) as [k [s I1]].
    destruct (fit_side_ids _ _ _ _ _ _ _ _ V F Kr Kx) as [k' [s' I2]].
    rewrite I1 in I2. injection I2 as -> -> _ _.
    assert (Hi : (j < pa_n_pvrows p)%nat) by (destruct (fit_rows_nth_error _ _ _ _ _ _ F Hr); auto).
    rewrite (gnd_side_same _ _ _ _ _ _ _ _ V F Hi Hy Ky) in E. congruence.
  - assert (Hi : (i < pa_n_pvrows p)%nat) by (destruct (fit_rows_nth_error _ _ _ _ _ _ F Hr); auto).
    pose proof (fit_gnd_ids _ _ _ _ y V F (in_gnd_side _ _ _ _ _ _ _ F Hi Hy)) as I1.
    destruct (fit_side_ids _ _ _ _ _ _ _ _ V F Kr' Ky) as [k' [s' I2]].
    destruct I1 as [[? [? I1]] | [? [? I1]]]; congruence.
  - assert (Hi : (j < pa_n_pvrows p)%nat) by (destruct (fit_rows_nth_error _ _ _ _ _ _ F Kr); auto).
    pose proof (fit_gnd_ids _ _ _ _ y V F (in_gnd_side _ _ _ _ _ _ _ F Hi Ky)) as I1.
    destruct (fit_side_ids _ _ _ _ _ _ _ _ V F Hr' Hy) as [k' [s' I2]].
    destruct I1 as [[? [? I1]] | [? [? I1]]]; congruence.
  - destruct (fit_side_ids _ _ _ _ _ _ _ _ V F Hr Hx) as [k [s I1]].
    destruct (fit_side_ids _ _ _ _ _ _ _ _ V F Kr Kx) as [k' [s' I2]].
    rewrite I1 in I2. injection I2 as -> -> _ _. congruence.
Qed.

Lemma pair_asym : forall t x y v v', pair_of a t x y v -> pair_of a t y x v' -> False.
Proof.
  intros t x y v v' H H'. destruct (pair_ids _ _ _ _ H) as [i [b [k [s [I1 I2]]]]].
  destruct (pair_ids _ _ _ _ H') as [j [c [m [s' [J1 J2]]]]].
  destruct I2 as [[? [? I2]] | [[? [? I2]] | [? [? I2]]]]; try congruence.
  destruct J2 as [[? [? J2]] | [[? [? J2]] | [? [? J2]]]]; try congruence.
  rewrite I1 in J2. rewrite J1 in I2. injection J2 as J2 _ _ _. injection I2 as I2 _ _ _. lia.
Qed.

(** Value of the cells of a pair. *)
Lemma pre_sky_pair : forall t x y v, pair_of a t x y v ->
  is_empty (ft_n_states a) x = false -> is_empty (ft_n_states a) y = false ->
  pre_sky a t (surf_index a x) (surf_index a y) = fst v /\
  pre_sky a t (surf_index a y) (surf_index a x) = snd v.
Proof.
  intros t x y v H Ex Ey. destruct (pair_in_all _ _ _ _ H) as [Ax Ay]. rewrite pre_sky_writes.
  assert (K : forall x' y' v', pair_of a t x' y' v' ->
     (surf_index a x' = surf_index a x -> surf_index a y' = surf_index a y -> v' = v) /\
     (surf_index a x' = surf_index a y -> surf_index a y' = surf_index a x -> False)).
  { intros x' y' v' H'. destruct (pair_in_all _ _ _ _ H') as [Ax' Ay']. split; intros E1 E2.
    - apply (surf_index_inj _ _ _ _ _ _ V F Ax' Ax) in E1. apply (surf_index_inj _ _ _ _ _ _ V F Ay' Ay) in E2.
      subst. eapply pair_unique; eauto.
    - apply (surf_index_inj _ _ _ _ _ _ V F Ax' Ay) in E1. apply (surf_index_inj _ _ _ _ _ _ V F Ay' Ax) in E2.
      subst. eapply pair_asym; eauto. }
  split; apply apply_ws_in.
  - apply in_all_writes. exists x, y, v. repeat split; auto. left. reflexivity.
  - intros v' Hv. apply in_all_writes in Hv. destruct Hv as [x' [y' [w [H' [_ [_ Hw]]]]]].
    destruct (K _ _ _ H') as [K1 K2]. destruct Hw as [Hw | [Hw | []]]; injection Hw as E1 E2 E3; subst v'.
    + f_equal. auto. + exfalso. apply K2; auto.
  - apply in_all_writes. exists x, y, v. repeat split; auto. right. left. reflexivity.
  - intros v' Hv. apply in_all_writes in Hv. destruct Hv as [x' [y' [w [H' [_ [_ Hw]]]]]].
    destruct (K _ _ _ H') as [K1 K2]. destruct Hw as [Hw | [Hw | []]]; injection Hw as E1 E2 E3; subst v'.
    + exfalso. apply K2; auto. + f_equal. auto.
Qed.

(** Every other cell is zero. *)
Lemma pre_sky_other : forall t k m, pre_sky a t k m <> 0 ->
  exists x y v, pair_of a t x y v /\ is_empty (ft_n_states a) x = false /\ is_empty (ft_n_states a) y = false /\
    ((k = surf_index a x /\ m = surf_index a y) \/ (k = surf_index a y /\ m = surf_index a x)).
Proof.
  intros t k m H. rewrite pre_sky_writes in H.
  destruct (in_dec (fun x y : nat * nat => ltac:(decide equality; apply Nat.eq_dec)) (k, m) (map fst (all_writes a t)))
    as [Hin | Hn].
  - apply in_map_iff in Hin. destruct Hin as [[km w] [E Hw]]. cbn in E. subst km.
    apply in_all_writes in Hw. destruct Hw as [x [y [v [Hp [Ex [Ey Hw]]]]]].
    exists x, y, v. repeat split; auto. destruct Hw as [Hw | [Hw | []]]; injection Hw as E1 E2 E3; auto.
  - rewrite apply_ws_notin in H by auto. contradiction.
Qed.

Lemma surf_index_lt : forall s, In s (all_ts_surfaces a) ->
  (surf_index a s < n_ts_surfaces a)%nat /\ nth_error (all_ts_surfaces a) (surf_index a s) = Some s.
Proof.
  intros s H. apply In_nth_error in H. destruct H as [k Hk].
  rewrite (surf_index_nth _ _ _ _ _ _ V F Hk). split; auto.
  rewrite n_ts_surfaces_length. apply nth_error_Some. congruence.
Qed.

Lemma pre_sky_range : forall t k m, (n_ts_surfaces a <= k \/ n_ts_surfaces a <= m)%nat -> pre_sky a t k m = 0.
Proof.
  intros t k m H. destruct (Req_dec (pre_sky a t k m) 0) as [E | E]; auto. exfalso.
  apply pre_sky_other in E. destruct E as [x [y [v [Hp [_ [_ K]]]]]].
  destruct (pair_in_all _ _ _ _ Hp) as [Ax Ay].
  destruct (surf_index_lt _ Ax), (surf_index_lt _ Ay). destruct K as [[-> ->] | [-> ->]]; lia.
Qed.

End Fitted.

(* ----------------------------------------------------------------- sky column *)

Lemma clear_sky_cells : forall ns t surfs M k m,
  clear_sky_of_points ns t surfs M k m =
  match nth_error surfs k with
  | Some s => if Nat.eqb m ns then np_where (Rltb DISTANCE_TOLERANCE (s_length s t)) (M k ns) 0 else M k m
  | None => M k m
  end.
Proof.
  intros ns t surfs M k m. unfold clear_sky_of_points.
  set (step := fun (M : matrix) (is : nat * ts_surface) => let (i, s) := is in
       mset M i ns (np_where (Rltb DISTANCE_TOLERANCE (s_length s t)) (M i ns) 0)).
  assert (G : forall l b M k m, fold_left step (combine (seq b (length l)) l) M k m =
     if le_dec b k then match nth_error l (k - b) with
       | Some s => if Nat.eqb m ns then np_where (Rltb DISTANCE_TOLERANCE (s_length s t)) (M k ns) 0 else M k m
       | None => M k m end else M k m).
  { clear. induction l as [| s l IH]; intros b M k m.
    - cbn. destruct (le_dec b k); [destruct (k - b)%nat |]; reflexivity.
    - cbn [length seq combine fold_left]. rewrite IH. unfold step.
      destruct (le_dec (S b) k) as [L | L].
      + destruct (le_dec b k); [| lia]. replace (k - b)%nat with (S (k - S b)) by lia. cbn [nth_error].
        destruct (nth_error l (k - S b)).
        * rewrite !mset_other by (intro E; injection E; lia). reflexivity.
        * rewrite !mset_other by (intro E; injection E; lia). reflexivity.
      + destruct (Nat.eq_dec k b) as [-> | Nk].
        * destruct (le_dec b b); [| lia]. rewrite Nat.sub_diag. cbn [nth_error].
          destruct (Nat.eqb_spec m ns) as [-> | Nm].
          -- rewrite mset_same. reflexivity.
          -- rewrite mset_other; [reflexivity | intro E; injection E; auto].
        * destruct (le_dec b k); [lia |]. rewrite mset_other; [reflexivity | intro E; injection E; lia]. }
  rewrite (G surfs 0%nat M k m). destruct (le_dec 0 k); [| lia]. rewrite Nat.sub_0_r. reflexivity.
Qed.

Section Final.
Variables (p : pvarray_params) (n : nat) (f : fit_inputs) (a : fitted).
Hypothesis V : valid_params p.
Hypothesis F : fit p n f = Some a.
Let ns := n_ts_surfaces a.

Lemma vf_cell : forall t k m, (m < ns)%nat -> build_vf_matrix a t k m = pre_sky a t k m.
Proof.
  intros t k m H. rewrite build_vf_matrix_eq, clear_sky_cells. unfold ns in H.
  assert (E : Nat.eqb m (n_ts_surfaces a) = false) by (apply Nat.eqb_neq; lia). rewrite E.
  unfold set_sky_column. rewrite E, andb_false_r. destruct (nth_error _ k); reflexivity.
Qed.

Lemma vf_sky_cell : forall t k s, nth_error (all_ts_surfaces a) k = Some s ->
  build_vf_matrix a t k ns =
  if Rltb DISTANCE_TOLERANCE (s_length s t) then 1 - isum ns (fun j => pre_sky a t k j) else 0.
Proof.
  intros t k s H. rewrite build_vf_matrix_eq, clear_sky_cells, H. unfold ns. rewrite Nat.eqb_refl.
  unfold np_where, set_sky_column. rewrite Nat.eqb_refl, andb_true_r.
  assert (L : (k < n_ts_surfaces a)%nat) by (rewrite n_ts_surfaces_length; apply nth_error_Some; congruence).
  apply Nat.ltb_lt in L. rewrite L. rewrite np_sum_isum. reflexivity.
Qed.

Lemma vf_sky_row : forall t m, build_vf_matrix a t ns m = 0.
Proof.
  intros t m. rewrite build_vf_matrix_eq, clear_sky_cells. unfold ns.
  assert (E : nth_error (all_ts_surfaces a) (n_ts_surfaces a) = None)
    by (apply nth_error_None; rewrite n_ts_surfaces_length; lia).
  rewrite E. unfold set_sky_column. rewrite Nat.ltb_irrefl. cbn [andb].
  apply (pre_sky_range _ _ _ _ V F). left. lia.
Qed.

Lemma isum_surfaces : forall (G : nat -> R),
  isum ns G = rsum (map (fun s => G (surf_index a s)) (all_ts_surfaces a)).
Proof.
  intros G. unfold ns. rewrite n_ts_surfaces_length, <- rsum_seq.
  assert (E : map (fun s => surf_index a s) (all_ts_surfaces a) = seq 0 (length (all_ts_surfaces a))).
  { assert (G' : forall l b, (forall k s, nth_error l k = Some s -> surf_index a s = (b + k)%nat) ->
      map (surf_index a) l = seq b (length l)).
    { clear. induction l as [| s l IH]; intros b H; [reflexivity |]. cbn [map length seq]. f_equal.
      - rewrite (H 0%nat s) by reflexivity. lia.
      - apply IH. intros k s' Hk. rewrite (H (S k) s') by exact Hk. lia. }
    apply G'. intros k s Hk. rewrite (surf_index_nth _ _ _ _ _ _ V F Hk). lia. }
  rewrite <- E, map_map. reflexivity.
Qed.
End Final.
