(** Cells of the matrix updated with the AOI methods. *)
From Coq Require Import Reals List Bool Arith String Lra Lia.
From Verif Require Import Num ModelTs ModelGeom ModelVF Basics SpecGeom ProofFit ProofIndex ProofGeom2 ProofMatrix ModelParams ModelAOI.
Import ListNotations.
Open Scope R_scope.

Section AOIWrites.
Variables (af : aoi_fitted) (a : fitted) (t : nat).
Let n := ft_n_states a.
Let idx := surf_index a.
Let tl := Rltb 0 (ft_rotation a t).
Let rows := ft_rows a.
Let sky := n_ts_surfaces a.

Definition aoi_gnd_value (i : nat) (b left : bool) (x y : ts_surface) : R :=
  vf_aoi_pvrow_surf_to_gnd_surf n af rows tl i b left t x y.
Definition aoi_row_value (b : bool) (x y : ts_surface) : R * R :=
  (np_where (if b then tl else negb tl) (vf_aoi_surface_to_surface n af x (s_coords y) b t) 0,
   np_where (if b then tl else negb tl) (vf_aoi_surface_to_surface n af y (s_coords x) (negb b) t) 0).
Definition aoi_sky_value (i : nat) (b : bool) (x : ts_surface) : R :=
  vf_aoi_surface_to_surface n af x (dummy_sky rows (gnd_y (ft_ground a)) (if xorb tl b then i else (i + 1)%nat)) b t.

Definition aoi_gnd_writes : list write :=
  flat_map (fun ir : nat * ts_pvrow =>
     let (i, row) := ir in
     let W b := flat_map (fun x =>
         map (fun y => ((idx x, idx y), aoi_gnd_value i b true x y)) (gnd_side_of_cut_point (ft_ground a) true i) ++
         map (fun y => ((idx x, idx y), aoi_gnd_value i b false x y)) (gnd_side_of_cut_point (ft_ground a) false i))
       (side_surfaces (side_of b row)) in
     W false ++ W true) (combine (seq 0 (List.length rows)) rows).
Definition aoi_row_writes : list write :=
  flat_map (fun ir : nat * ts_pvrow =>
     let (i, row) := ir in
     let right_row := nth (i + 1) rows dummy_row in
     let W b := flat_map (fun x => flat_map (fun y => pair_writes idx x y (aoi_row_value b x y))
         (side_surfaces (side_of (negb b) right_row))) (side_surfaces (side_of b row)) in
     W false ++ W true) (combine (seq 0 (List.length rows - 1)) (removelast rows)).
Definition aoi_sky_writes : list write :=
  flat_map (fun ir : nat * ts_pvrow =>
     let (i, row) := ir in
     let W b := map (fun x => ((idx x, sky), aoi_sky_value i b x)) (side_surfaces (side_of b row)) in
     W false ++ W true) (combine (seq 0 (List.length rows)) rows).

Lemma fold_map_ws : forall (A : Type) (step : matrix -> A -> matrix) (w : A -> write) l M,
  (forall x M, In x l -> step M x = apply_ws [w x] M) -> fold_left step l M = apply_ws (map w l) M.
Proof.
  intros A step w l M H. rewrite (fold_apply_ws A step (fun x => [w x]) l M H).
  assert (E : flat_map (fun x => [w x]) l = map w l) by (clear H; induction l as [|x l IH]; [reflexivity|]; cbn; f_equal; exact IH).
  rewrite E. reflexivity.
Qed.

Lemma aoi_update_writes : forall M, aoi_update af a t M =
  apply_ws (aoi_gnd_writes ++ aoi_row_writes ++ aoi_sky_writes) M.
Proof.
  intro M. rewrite !apply_ws_app. unfold aoi_update. fold n idx tl rows sky.
  assert (G : forall M, vf_aoi_pvrow_to_gnd n af idx rows (ft_ground a) tl t M = apply_ws aoi_gnd_writes M).
  { intro M0. unfold vf_aoi_pvrow_to_gnd, aoi_gnd_writes. apply fold_apply_ws. intros [i row] M1 _.
    rewrite apply_ws_app. cbv zeta.
    assert (L : forall b M, loop_write_gnd idx (side_surfaces (side_of b row))
        (gnd_side_of_cut_point (ft_ground a) true i) (gnd_side_of_cut_point (ft_ground a) false i)
        (aoi_gnd_value i b true) (aoi_gnd_value i b false) M =
      apply_ws (flat_map (fun x =>
         map (fun y => ((idx x, idx y), aoi_gnd_value i b true x y)) (gnd_side_of_cut_point (ft_ground a) true i) ++
         map (fun y => ((idx x, idx y), aoi_gnd_value i b false x y)) (gnd_side_of_cut_point (ft_ground a) false i))
       (side_surfaces (side_of b row))) M).
    { intros b M2. unfold loop_write_gnd. apply fold_apply_ws. intros x M3 _. rewrite apply_ws_app. cbv zeta.
      rewrite <- (fold_map_ws _ (fun M y => mset M (idx x) (idx y) (aoi_gnd_value i b true x y)) (fun y => ((idx x, idx y), aoi_gnd_value i b true x y))) by reflexivity.
      rewrite <- (fold_map_ws _ (fun M y => mset M (idx x) (idx y) (aoi_gnd_value i b false x y)) (fun y => ((idx x, idx y), aoi_gnd_value i b false x y))) by reflexivity.
      reflexivity. }
    rewrite <- (L false), <- (L true). reflexivity. }
  assert (Rw : forall M, vf_aoi_pvrow_to_pvrow n af idx rows tl t M = apply_ws aoi_row_writes M).
  { intro M0. unfold vf_aoi_pvrow_to_pvrow, aoi_row_writes. apply fold_apply_ws. intros [i row] M1 _.
    rewrite apply_ws_app. cbv zeta.
    assert (L : forall b xs ys M, loop_aoi_pairs n af idx xs ys b (if b then tl else negb tl) t M =
      apply_ws (flat_map (fun x => flat_map (fun y => pair_writes idx x y (aoi_row_value b x y)) ys) xs) M).
    { intros b xs ys M2. unfold loop_aoi_pairs. apply fold_apply_ws. intros x M3 _. apply fold_apply_ws.
      intros y M4 _. reflexivity. }
    rewrite <- (L false), <- (L true). reflexivity. }
  assert (Sk : forall M, vf_aoi_pvrow_to_sky n af idx sky rows (ft_ground a) tl t M = apply_ws aoi_sky_writes M).
  { intro M0. unfold vf_aoi_pvrow_to_sky, aoi_sky_writes. apply fold_apply_ws. intros [i row] M1 _.
    rewrite apply_ws_app. cbv zeta.
    rewrite <- (fold_map_ws _ (fun M s => mset M (idx s) sky (aoi_sky_value i false s)) (fun s => ((idx s, sky), aoi_sky_value i false s))) by reflexivity.
    rewrite <- (fold_map_ws _ (fun M s => mset M (idx s) sky (aoi_sky_value i true s)) (fun s => ((idx s, sky), aoi_sky_value i true s))) by reflexivity.
    unfold aoi_sky_value. cbn [side_of]. destruct tl; reflexivity. }
  rewrite G, Rw, Sk. reflexivity.
Qed.

Lemma in_aoi_gnd : forall w, In w aoi_gnd_writes <->
  exists i row (b left : bool) x y, nth_error rows i = Some row /\
    In x (side_surfaces (side_of b row)) /\ In y (gnd_side_of_cut_point (ft_ground a) left i) /\
    w = ((idx x, idx y), aoi_gnd_value i b left x y).
Proof.
  intro w. unfold aoi_gnd_writes. rewrite in_flat_map. split.
  - intros ([i row] & I & W). apply in_enum in I.
    assert (L : exists b, In w (flat_map (fun x =>
         map (fun y => ((idx x, idx y), aoi_gnd_value i b true x y)) (gnd_side_of_cut_point (ft_ground a) true i) ++
         map (fun y => ((idx x, idx y), aoi_gnd_value i b false x y)) (gnd_side_of_cut_point (ft_ground a) false i))
       (side_surfaces (side_of b row)))).
    { apply in_app_or in W. destruct W as [W|W]; [exists false | exists true]; exact W. }
    destruct L as [b L]. apply in_flat_map in L. destruct L as (x & X & L).
    apply in_app_or in L. destruct L as [L|L]; apply in_map_iff in L; destruct L as (y & <- & Y);
      [exists i, row, b, true, x, y | exists i, row, b, false, x, y]; tauto.
  - intros (i & row & b & left & x & y & I & X & Y & ->). exists (i, row). split; [apply in_enum; exact I|].
    apply in_or_app. destruct b; [right | left]; apply in_flat_map; exists x; (split; [exact X|]);
      apply in_or_app; destruct left; [left | right | left | right]; apply in_map_iff; exists y; tauto.
Qed.

Lemma in_aoi_row : forall w, In w aoi_row_writes <->
  exists i row row' (b : bool) x y, nth_error rows i = Some row /\ nth_error rows (S i) = Some row' /\
    In x (side_surfaces (side_of b row)) /\ In y (side_surfaces (side_of (negb b) row')) /\
    In w (pair_writes idx x y (aoi_row_value b x y)).
Proof.
  intro w. unfold aoi_row_writes. rewrite in_flat_map. split.
  - intros ([i row] & I & W). rewrite <- length_removelast in I. apply in_enum in I.
    apply nth_error_removelast in I. destruct I as [I L].
    destruct (nth_error rows (S i)) as [row'|] eqn:E; [|apply nth_error_None in E; lia].
    assert (N : nth (i + 1) rows dummy_row = row') by (apply nth_error_nth; rewrite Nat.add_1_r; exact E).
    rewrite N in W. apply in_app_or in W.
    assert (Q : exists b, In w (flat_map (fun x => flat_map (fun y => pair_writes idx x y (aoi_row_value b x y))
         (side_surfaces (side_of (negb b) row'))) (side_surfaces (side_of b row)))).
    { destruct W as [W|W]; [exists false | exists true]; exact W. }
    destruct Q as [b Q]. apply in_flat_map in Q. destruct Q as (x & X & Q). apply in_flat_map in Q.
    destruct Q as (y & Y & Q). exists i, row, row', b, x, y. tauto.
  - intros (i & row & row' & b & x & y & I & I' & X & Y & W). exists (i, row). split.
    + rewrite <- length_removelast. apply in_enum. apply nth_error_removelast. split; [exact I|].
      apply nth_error_Some. rewrite I'. discriminate.
    + assert (N : nth (i + 1) rows dummy_row = row') by (apply nth_error_nth; rewrite Nat.add_1_r; exact I').
      rewrite N. apply in_or_app. destruct b; [right | left]; apply in_flat_map; exists x; (split; [exact X|]);
        apply in_flat_map; exists y; (split; [exact Y | exact W]).
Qed.

Lemma in_aoi_sky : forall w, In w aoi_sky_writes <->
  exists i row (b : bool) x, nth_error rows i = Some row /\
    In x (side_surfaces (side_of b row)) /\ w = ((idx x, sky), aoi_sky_value i b x).
Proof.
  intro w. unfold aoi_sky_writes. rewrite in_flat_map. split.
  - intros ([i row] & I & W). apply in_enum in I. apply in_app_or in W.
    destruct W as [W|W]; apply in_map_iff in W; destruct W as (x & <- & X);
      [exists i, row, false, x | exists i, row, true, x]; tauto.
  - intros (i & row & b & x & I & X & ->). exists (i, row). split; [apply in_enum; exact I|].
    apply in_or_app. destruct b; [right | left]; apply in_map_iff; exists x; tauto.
Qed.

(** All the cells of the updated matrix. *)
Variables (p : pvarray_params) (nn : nat) (f : fit_inputs).
Hypothesis (V : valid_params p) (F : fit p nn f = Some a).

Let row_surf (i : nat) (b : bool) (x : ts_surface) : Prop :=
  exists row, nth_error rows i = Some row /\ In x (side_surfaces (side_of b row)).

Lemma row_surf_fun : forall i b i' b' x, row_surf i b x -> row_surf i' b' x -> i = i' /\ b = b'.
Proof.
  intros i b i' b' x (r & I & X) (r' & I' & X').
  destruct (fit_side_ids _ _ _ _ _ _ _ _ V F I X) as (k & s & E).
  destruct (fit_side_ids _ _ _ _ _ _ _ _ V F I' X') as (k' & s' & E'). rewrite E in E'. inversion E'. auto.
Qed.
Lemma row_surf_lt : forall i b x, row_surf i b x -> (i < pa_n_pvrows p)%nat.
Proof.
  intros i b x (r & I & _). destruct (fit_rows_nth_error _ _ _ _ _ _ F I); assumption.
Qed.
Lemma row_surf_all : forall i b x, row_surf i b x -> In x (all_ts_surfaces a).
Proof. intros i b x (r & I & X). exact (in_all_row _ _ _ _ _ I X). Qed.
Lemma row_not_gnd : forall i b x, row_surf i b x -> In x (gnd_surfaces (ft_ground a)) -> False.
Proof.
  intros i b x (r & I & X) G. destruct (fit_side_ids _ _ _ _ _ _ _ _ V F I X) as (k & s & E).
  destruct (fit_gnd_ids _ _ _ _ _ V F G) as [(e & m & E')|(e & m & E')]; congruence.
Qed.
Lemma idx_inj : forall x y, In x (all_ts_surfaces a) -> In y (all_ts_surfaces a) -> idx x = idx y -> x = y.
Proof.
  intros x y X Y E. destruct (surf_index_lt p nn f a V F x X) as [_ A]. destruct (surf_index_lt p nn f a V F y Y) as [_ B].
  unfold idx in E. rewrite E in A. congruence.
Qed.
Lemma idx_not_sky : forall x, In x (all_ts_surfaces a) -> idx x <> sky.
Proof. intros x X. destruct (surf_index_lt p nn f a V F x X) as [L _]. unfold idx, sky. lia. Qed.

(** What may be written in a cell. *)
Lemma aoi_write_inv : forall k m v, In ((k, m), v) (aoi_gnd_writes ++ aoi_row_writes ++ aoi_sky_writes) ->
  (exists i b left x y, row_surf i b x /\ In y (gnd_side_of_cut_point (ft_ground a) left i) /\
     k = idx x /\ m = idx y /\ v = aoi_gnd_value i b left x y) \/
  (exists i b x y, row_surf i b x /\ row_surf (S i) (negb b) y /\
     ((k = idx x /\ m = idx y /\ v = fst (aoi_row_value b x y)) \/
      (k = idx y /\ m = idx x /\ v = snd (aoi_row_value b x y)))) \/
  (exists i b x, row_surf i b x /\ k = idx x /\ m = sky /\ v = aoi_sky_value i b x).
Proof.
  intros k m v W. apply in_app_or in W. destruct W as [W|W]; [|apply in_app_or in W; destruct W as [W|W]].
  - apply in_aoi_gnd in W. destruct W as (i & row & b & l & x & y & I & X & Y & E). inversion E.
    left. exists i, b, l, x, y. split; [exists row; tauto | tauto].
  - apply in_aoi_row in W. destruct W as (i & row & row' & b & x & y & I & I' & X & Y & W).
    right; left. exists i, b, x, y. split; [exists row; tauto|]. split; [exists row'; tauto|].
    destruct W as [W|[W|[]]]; inversion W; tauto.
  - apply in_aoi_sky in W. destruct W as (i & row & b & x & I & X & E). inversion E.
    right; right. exists i, b, x. split; [exists row; tauto | tauto].
Qed.

Lemma aoi_cell_gnd : forall M i b left x y, row_surf i b x ->
  In y (gnd_side_of_cut_point (ft_ground a) left i) ->
  aoi_update af a t M (idx x) (idx y) = aoi_gnd_value i b left x y.
Proof.
  intros M i b left x y X Y. rewrite aoi_update_writes. pose proof (row_surf_lt _ _ _ X) as L.
  pose proof (in_gnd_side _ _ _ _ _ _ _ F L Y) as G. pose proof (in_all_gnd _ _ G) as GA.
  apply apply_ws_in.
  - apply in_or_app. left. apply in_aoi_gnd. destruct X as (row & I & X). exists i, row, b, left, x, y. tauto.
  - intros v W. apply aoi_write_inv in W.
    destruct W as [(i' & b' & l' & x' & y' & X' & Y' & E1 & E2 & ->) |
                  [(i' & b' & x' & y' & X' & Y' & [(E1 & E2 & _)|(E1 & E2 & _)]) | (i' & b' & x' & X' & E1 & E2 & _)]].
    + pose proof (row_surf_lt _ _ _ X') as L'.
      pose proof (in_gnd_side _ _ _ _ _ _ _ F L' Y') as G'.
      apply idx_inj in E1; [|eapply row_surf_all; eassumption | eapply row_surf_all; eassumption].
      apply idx_inj in E2; [|exact GA | exact (in_all_gnd _ _ G')]. subst x' y'.
      destruct (row_surf_fun _ _ _ _ _ X X') as [<- <-].
      rewrite (gnd_side_same _ _ _ _ _ _ _ _ V F L Y Y'). reflexivity.
    + exfalso. apply idx_inj in E2; [|exact GA | eapply row_surf_all; eassumption]. subst y'. exact (row_not_gnd _ _ _ Y' G).
    + exfalso. apply idx_inj in E2; [|exact GA | eapply row_surf_all; eassumption]. subst x'. exact (row_not_gnd _ _ _ X' G).
    + exfalso. exact (idx_not_sky _ GA E2).
Qed.

Lemma aoi_cell_row : forall M i b x y, row_surf i b x -> row_surf (S i) (negb b) y ->
  aoi_update af a t M (idx x) (idx y) = fst (aoi_row_value b x y) /\
  aoi_update af a t M (idx y) (idx x) = snd (aoi_row_value b x y).
Proof.
  intros M i b x y X Y.
  pose proof (row_surf_all _ _ _ X) as XA. pose proof (row_surf_all _ _ _ Y) as YA.
  assert (W0 : forall w, In w (pair_writes idx x y (aoi_row_value b x y)) -> In w (aoi_gnd_writes ++ aoi_row_writes ++ aoi_sky_writes)).
  { intros w W. apply in_or_app. right. apply in_or_app. left. apply in_aoi_row.
    destruct X as (row & I & X), Y as (row' & I' & Y). exists i, row, row', b, x, y. tauto. }
  assert (U : forall x' y' v, (x' = x /\ y' = y) \/ (x' = y /\ y' = x) ->
     In ((idx x', idx y'), v) (aoi_gnd_writes ++ aoi_row_writes ++ aoi_sky_writes) ->
     v = if Nat.eqb (idx x') (idx x) then fst (aoi_row_value b x y) else snd (aoi_row_value b x y)).
  { intros x' y' v Q W.
    assert (X'A : In x' (all_ts_surfaces a)) by (destruct Q as [[-> _]|[-> _]]; assumption).
    assert (Y'A : In y' (all_ts_surfaces a)) by (destruct Q as [[_ ->]|[_ ->]]; assumption).
    apply aoi_write_inv in W.
    destruct W as [(i' & b' & l' & u & w & U & W & E1 & E2 & _) |
                  [(i' & b' & u & w & U & W & [(E1 & E2 & ->)|(E1 & E2 & ->)]) | (i' & b' & u & U & E1 & E2 & _)]].
    - exfalso. pose proof (in_gnd_side _ _ _ _ _ _ _ F (row_surf_lt _ _ _ U) W) as G.
      apply idx_inj in E2; [|assumption | exact (in_all_gnd _ _ G)]. subst w.
      destruct Q as [[_ ->]|[_ ->]]; [exact (row_not_gnd _ _ _ Y G) | exact (row_not_gnd _ _ _ X G)].
    - apply idx_inj in E1; [|assumption | eapply row_surf_all; eassumption].
      apply idx_inj in E2; [|assumption | eapply row_surf_all; eassumption]. subst u w.
      destruct Q as [[-> ->]|[-> ->]].
      + rewrite Nat.eqb_refl. destruct (row_surf_fun _ _ _ _ _ X U) as [_ <-]. reflexivity.
      + destruct (row_surf_fun _ _ _ _ _ X W) as [A _]. destruct (row_surf_fun _ _ _ _ _ Y U) as [B _]. lia.
    - apply idx_inj in E1; [|assumption | eapply row_surf_all; eassumption].
      apply idx_inj in E2; [|assumption | eapply row_surf_all; eassumption]. subst u w.
      destruct Q as [[-> ->]|[-> ->]].
      + destruct (row_surf_fun _ _ _ _ _ X W) as [A _]. destruct (row_surf_fun _ _ _ _ _ Y U) as [B _]. lia.
      + destruct (Nat.eqb_spec (idx y) (idx x)) as [E|_].
        * apply idx_inj in E; try assumption. subst y. destruct (row_surf_fun _ _ _ _ _ X Y) as [A _]. lia.
        * destruct (row_surf_fun _ _ _ _ _ X U) as [_ <-]. reflexivity.
    - exfalso. exact (idx_not_sky _ Y'A E2). }
  rewrite aoi_update_writes. split; apply apply_ws_in.
  - apply W0. left. reflexivity.
  - intros v W. rewrite (U x y v (or_introl (conj eq_refl eq_refl)) W), Nat.eqb_refl. reflexivity.
  - apply W0. right; left. reflexivity.
  - intros v W. rewrite (U y x v (or_intror (conj eq_refl eq_refl)) W).
    destruct (Nat.eqb_spec (idx y) (idx x)) as [E|_]; [|reflexivity].
    apply idx_inj in E; try assumption. subst y. destruct (row_surf_fun _ _ _ _ _ X Y) as [A _]. lia.
Qed.

Lemma aoi_cell_sky : forall M i b x, row_surf i b x ->
  aoi_update af a t M (idx x) sky = aoi_sky_value i b x.
Proof.
  intros M i b x X. rewrite aoi_update_writes. apply apply_ws_in.
  - apply in_or_app. right. apply in_or_app. right. apply in_aoi_sky. destruct X as (row & I & X). exists i, row, b, x. tauto.
  - intros v W. apply aoi_write_inv in W.
    destruct W as [(i' & b' & l' & x' & y' & X' & Y' & _ & E2 & _) |
                  [(i' & b' & x' & y' & X' & Y' & [(_ & E2 & _)|(_ & E2 & _)]) | (i' & b' & x' & X' & E1 & _ & ->)]].
    + exfalso. symmetry in E2. apply idx_not_sky in E2; [exact E2|].
      exact (in_all_gnd _ _ (in_gnd_side _ _ _ _ _ _ _ F (row_surf_lt _ _ _ X') Y')).
    + exfalso. symmetry in E2. apply idx_not_sky in E2; [exact E2 | eapply row_surf_all; eassumption].
    + exfalso. symmetry in E2. apply idx_not_sky in E2; [exact E2 | eapply row_surf_all; eassumption].
    + apply idx_inj in E1; [|eapply row_surf_all; eassumption | eapply row_surf_all; eassumption]. subst x'.
      destruct (row_surf_fun _ _ _ _ _ X X') as [<- <-]. reflexivity.
Qed.

(** Rows of the ground surfaces and of the sky, and cells between surfaces of rows which
    are not on opposite sides of neighbouring rows: not written. *)
Lemma aoi_cell_gnd_row : forall M k m, (forall i b x, row_surf i b x -> k <> idx x) ->
  aoi_update af a t M k m = M k m.
Proof.
  intros M k m H. rewrite aoi_update_writes. apply apply_ws_notin. intro I. apply in_map_iff in I.
  destruct I as ([[k' m'] v] & E & W). cbn in E. inversion E; subst k' m'. apply aoi_write_inv in W.
  destruct W as [(i' & b' & l' & x' & y' & X' & Y' & E1 & _) |
                  [(i' & b' & x' & y' & X' & Y' & [(E1 & _)|(E1 & _)]) | (i' & b' & x' & X' & E1 & _)]];
  first [exact (H _ _ _ X' E1) | exact (H _ _ _ Y' E1)].
Qed.
Lemma aoi_cell_other : forall M i b i' b' x y, row_surf i b x -> row_surf i' b' y ->
  ~ (b' = negb b /\ (i' = S i \/ i = S i')) ->
  aoi_update af a t M (idx x) (idx y) = M (idx x) (idx y).
Proof.
  intros M i b i' b' x y X Y N. rewrite aoi_update_writes. apply apply_ws_notin. intro I. apply in_map_iff in I.
  pose proof (row_surf_all _ _ _ X) as XA. pose proof (row_surf_all _ _ _ Y) as YA.
  destruct I as ([[k' m'] v] & E & W). cbn in E. inversion E; subst k' m'. apply aoi_write_inv in W.
  destruct W as [(j & c & l' & u & w & U & W & E1 & E2 & _) |
                  [(j & c & u & w & U & W & [(E1 & E2 & _)|(E1 & E2 & _)]) | (j & c & u & U & E1 & E2 & _)]].
  - pose proof (in_gnd_side _ _ _ _ _ _ _ F (row_surf_lt _ _ _ U) W) as G.
    apply idx_inj in E2; [|assumption | exact (in_all_gnd _ _ G)]. subst w. exact (row_not_gnd _ _ _ Y G).
  - apply idx_inj in E1; [|assumption | eapply row_surf_all; eassumption].
    apply idx_inj in E2; [|assumption | eapply row_surf_all; eassumption]. subst u w.
    destruct (row_surf_fun _ _ _ _ _ X U) as [-> ->]. destruct (row_surf_fun _ _ _ _ _ Y W) as [-> ->]. apply N. tauto.
  - apply idx_inj in E1; [|assumption | eapply row_surf_all; eassumption].
    apply idx_inj in E2; [|assumption | eapply row_surf_all; eassumption]. subst u w.
    destruct (row_surf_fun _ _ _ _ _ X W) as [-> ->]. destruct (row_surf_fun _ _ _ _ _ Y U) as [-> ->]. apply N.
    rewrite negb_involutive. tauto.
  - exact (idx_not_sky _ YA E2).
Qed.
End AOIWrites.
