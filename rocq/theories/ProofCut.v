(** Surfaces on each side of a cut point (C02, C03) and the cut points of an
    ordered array. *)
From Coq Require Import Reals List Bool Arith Lra Lia Psatz Permutation.
From Verif Require Import Num ModelTs ModelGeom Basics SpecGeom ProofGround ProofShade ProofRow ProofAngles ProofFit.
Import ListNotations.
Open Scope R_scope.

(* ------------------------------------------------------- surface_dict *)

Lemma fold_append_left : forall l d k j, NoDup l ->
  fold_left (fun d i => dict_append_left d i k) l d j =
  if in_dec Nat.eq_dec j l then (fst (d j) ++ [k], snd (d j)) else d j.
Proof.
  induction l as [| a l IH]; intros d k j N; simpl.
  - destruct (d j); reflexivity.
  - inversion N; subst. rewrite IH by auto. unfold dict_append_left.
    destruct (in_dec Nat.eq_dec j l), (Nat.eq_dec a j); subst; try contradiction;
      repeat match goal with |- context [Nat.eqb ?x ?y] => destruct (Nat.eqb_spec x y) end;
      try congruence; try reflexivity.
Qed.

Lemma fold_append_right : forall l d k j, NoDup l ->
  fold_left (fun d i => dict_append_right d i k) l d j =
  if in_dec Nat.eq_dec j l then (fst (d j), snd (d j) ++ [k]) else d j.
Proof.
  induction l as [| a l IH]; intros d k j N; simpl.
  - destruct (d j); reflexivity.
  - inversion N; subst. rewrite IH by auto. unfold dict_append_right.
    destruct (in_dec Nat.eq_dec j l), (Nat.eq_dec a j); subst; try contradiction;
      repeat match goal with |- context [Nat.eqb ?x ?y] => destruct (Nat.eqb_spec x y) end;
      try congruence; try reflexivity.
Qed.

Lemma dict_step_eq : forall n d k j, (k < n)%nat -> (j < n)%nat ->
  dict_step n d k j =
  if le_dec k j then (fst (d j) ++ [k], snd (d j)) else (fst (d j), snd (d j) ++ [k]).
Proof.
  intros n d k j Hk Hj. unfold dict_step.
  rewrite fold_append_right by apply seq_NoDup.
  rewrite fold_append_left by apply seq_NoDup.
  destruct (in_dec Nat.eq_dec j (seq 0 k)) as [I | I];
  destruct (in_dec Nat.eq_dec j (seq k (n - k))) as [J | J];
  destruct (le_dec k j); rewrite in_seq in I, J; try lia; reflexivity.
Qed.

Lemma create_dict_fold : forall n j m, (j < n)%nat -> (m <= n)%nat ->
  fold_left (dict_step n) (seq 0 m) (fun _ => ([], [])) j =
  (seq 0 (Nat.min (S j) m), seq (S j) (m - S j)).
Proof.
  intros n j m Hj. induction m; intros Hm.
  - simpl. reflexivity.
  - rewrite seq_S, fold_left_app. cbn [fold_left]. rewrite Nat.add_0_l.
    rewrite dict_step_eq by lia. rewrite IHm by lia. cbn [fst snd].
    destruct (le_dec m j).
    + replace (Nat.min (S j) m) with m by lia. replace (Nat.min (S j) (S m)) with (S m) by lia.
      rewrite seq_S. replace (m - S j)%nat with 0%nat by lia. replace (S m - S j)%nat with 0%nat by lia.
      reflexivity.
    + replace (Nat.min (S j) m) with (S j) by lia. replace (Nat.min (S j) (S m)) with (S j) by lia.
      replace (S m - S j)%nat with (S (m - S j)) by lia. rewrite (seq_S (m - S j) (S j)).
      replace (S j + (m - S j))%nat with m by lia. reflexivity.
Qed.

Lemma create_dict_eq : forall n j, (j < n)%nat ->
  create_dict n j = (seq 0 (S j), seq (S j) (n - j)).
Proof.
  intros n j H. unfold create_dict. rewrite fold_append_right by apply seq_NoDup.
  rewrite create_dict_fold by lia.
  destruct (in_dec Nat.eq_dec j (seq 0 n)) as [I | I]; rewrite in_seq in I; [| lia].
  cbn [fst snd]. replace (Nat.min (S j) n) with (S j) by lia.
  replace (n - j)%nat with (S (n - S j)) by lia. rewrite (seq_S (n - S j) (S j)).
  replace (S j + (n - S j))%nat with n by lia. reflexivity.
Qed.

(* ------------------------------------------------------- positions of pieces *)

(** Cut points sorted from left to right at one timestep. *)
Definition sorted_cuts (t : nat) (cuts : list (ts xr)) : Prop :=
  forall i j ci cj, (i <= j)%nat -> nth_error cuts i = Some ci -> nth_error cuts j = Some cj ->
    ck (ci t) <= ck (cj t).

Lemma sorted_cuts_tail : forall t c cuts, sorted_cuts t (c :: cuts) -> sorted_cuts t cuts.
Proof. intros t c cuts H i j ci cj Hij Hi Hj. apply (H (S i) (S j)); simpl; auto; lia. Qed.

(** Pieces keep being on the right of a point that is on the left of the element
    and of all remaining cut points. *)
Lemma pieces_above : forall cuts c t x,
  not_nan t cuts -> in_ground (c t) -> x <= px (b1 (c t)) ->
  (forall k, In k cuts -> x <= ck (k t)) ->
  forall l, In l (create_coords c cuts) -> x <= px (b1 (l t)).
Proof.
  induction cuts as [| k cuts IH]; intros c t x Hn Hg Hx Hk l Hl; simpl in Hl.
  - destruct Hl as [E | []]. subst. auto.
  - assert (Nk : k t <> XNaN) by (apply Hn; left; auto).
    destruct Hl as [E | Hl].
    + subst. destruct (left_x (c t) (k t) Nk Hg) as [E1 _]. rewrite E1.
      apply Rmin_glb; auto. apply Hk. left; auto.
    + apply (IH (fun t => coords_right_of_cut_point (c t) (k t)) t x).
      * intros q Hq. apply Hn. right; auto.
      * apply right_in_ground; auto.
      * destruct (right_x (c t) (k t) Nk Hg) as [E1 _]. rewrite E1.
        apply Rle_trans with (px (b1 (c t))); auto. apply Rmax_l.
      * intros q Hq. apply Hk. right; auto.
      * auto.
Qed.

Lemma piece_left_of_cut : forall cuts c t i k ci l,
  not_nan t cuts -> sorted_cuts t cuts -> in_ground (c t) ->
  nth_error cuts i = Some ci -> (k <= i)%nat ->
  nth_error (create_coords c cuts) k = Some l -> px (b2 (l t)) <= ck (ci t).
Proof.
  induction cuts as [| q cuts IH]; intros c t i k ci l Hn Hs Hg Hi Hki Hk.
  - destruct i; discriminate.
  - assert (Nq : q t <> XNaN) by (apply Hn; left; auto).
    simpl in Hk. destruct k.
    + simpl in Hk. inversion Hk; subst. destruct (left_x (c t) (q t) Nq Hg) as [_ E2].
      rewrite E2. apply Rle_trans with (ck (q t)); [apply Rmin_r |].
      apply (Hs 0%nat i); simpl; auto; lia.
    + simpl in Hk. destruct i; [lia |]. simpl in Hi.
      apply (IH (fun t => coords_right_of_cut_point (c t) (q t)) t i k ci l); auto.
      * intros p Hp. apply Hn. right; auto.
      * eapply sorted_cuts_tail; eauto.
      * apply right_in_ground; auto.
      * lia.
Qed.

Lemma piece_right_of_cut : forall cuts c t i k ci l,
  not_nan t cuts -> sorted_cuts t cuts -> in_ground (c t) ->
  nth_error cuts i = Some ci -> (i < k)%nat ->
  nth_error (create_coords c cuts) k = Some l -> ck (ci t) <= px (b1 (l t)).
Proof.
  induction cuts as [| q cuts IH]; intros c t i k ci l Hn Hs Hg Hi Hki Hk.
  - destruct i; discriminate.
  - assert (Nq : q t <> XNaN) by (apply Hn; left; auto).
    simpl in Hk. destruct k; [lia |]. simpl in Hk.
    destruct i.
    + simpl in Hi. inversion Hi; subst ci.
      apply nth_error_In in Hk.
      apply (pieces_above cuts (fun t => coords_right_of_cut_point (c t) (q t)) t (ck (q t))).
      * intros p Hp. apply Hn. right; auto.
      * apply right_in_ground; auto.
      * destruct (right_x (c t) (q t) Nq Hg) as [E1 _]. rewrite E1. apply Rmax_r.
      * intros p Hp. apply In_nth_error in Hp. destruct Hp as [m Hm].
        apply (Hs 0%nat (S m)); simpl; auto; lia.
      * auto.
    + simpl in Hi.
      apply (IH (fun t => coords_right_of_cut_point (c t) (q t)) t i k ci l); auto.
      * intros p Hp. apply Hn. right; auto.
      * eapply sorted_cuts_tail; eauto.
      * apply right_in_ground; auto.
      * lia.
Qed.

(** Surfaces of an element. *)
Lemma make_element_surfaces : forall mkid sh c cuts k s,
  nth_error (el_surfaces (make_element mkid sh c cuts)) k = Some s ->
  s_id s = mkid k /\ s_shaded s = sh /\ nth_error (create_coords c cuts) k = Some (s_coords s)
  /\ cuts <> [].
Proof.
  intros mkid sh c cuts k s H. unfold make_element in H.
  destruct cuts as [| c0 cuts]; [destruct k; discriminate |].
  cbn [el_surfaces] in H.
  rewrite nth_error_map in H.
  destruct (nth_error (combine _ _) k) as [[k' c'] |] eqn:E; [| discriminate].
  simpl in H. inversion H; subst. cbn [s_id s_shaded s_coords].
  apply nth_error_combine_inv in E. destruct E as [E1 E2].
  apply nth_error_seq_inv in E1. destruct E1 as [E1 E3]. subst k'.
  rewrite Nat.add_0_l. split; [auto |]. split; [auto |]. split; [auto | discriminate].
Qed.

Lemma make_element_length : forall mkid sh c cuts, cuts <> [] ->
  length (el_surfaces (make_element mkid sh c cuts)) = S (length cuts).
Proof.
  intros mkid sh c cuts H. unfold make_element. destruct cuts; [congruence |].
  cbn [el_surfaces]. rewrite map_length, combine_length, seq_length, create_coords_length. lia.
Qed.

Lemma skipn_nth_cons : forall (A : Type) (l : list A) s a,
  nth_error l s = Some a -> skipn s l = a :: skipn (S s) l.
Proof.
  intros A l. induction l; intros s x H; destruct s; simpl in *; try discriminate.
  - inversion H; reflexivity.
  - apply IHl. auto.
Qed.

Lemma flat_map_nth_seq : forall (A : Type) (l : list A) n s, (s + n <= length l)%nat ->
  flat_map (fun k => match nth_error l k with Some x => [x] | None => [] end) (seq s n)
  = firstn n (skipn s l).
Proof.
  intros A l n. induction n; intros s H; cbn [seq flat_map]; [reflexivity |].
  destruct (nth_error l s) eqn:E.
  - rewrite IHn by lia. rewrite (skipn_nth_cons _ l s a E). reflexivity.
  - apply nth_error_None in E. lia.
Qed.

Lemma el_side_spec : forall mkid sh c cuts i, (i < length cuts)%nat ->
  let e := make_element mkid sh c cuts in
  el_side e true i = firstn (S i) (el_surfaces e) /\
  el_side e false i = skipn (S i) (el_surfaces e).
Proof.
  intros mkid sh c cuts i Hi e.
  assert (Hne : cuts <> []) by (destruct cuts; [simpl in Hi; lia | discriminate]).
  assert (Hl : length (el_surfaces e) = S (length cuts)) by (apply make_element_length; auto).
  assert (Hd : el_dict e i = (seq 0 (S i), seq (S i) (length cuts - i))).
  { unfold e, make_element. destruct cuts; [congruence |]. cbn [el_dict]. apply create_dict_eq; auto. }
  unfold el_side. rewrite Hd. cbn [fst snd]. split.
  - rewrite flat_map_nth_seq by lia. reflexivity.
  - rewrite flat_map_nth_seq by lia. apply firstn_all2. rewrite skipn_length. lia.
Qed.

Lemma el_side_sound : forall mkid sh c cuts i ci t s,
  not_nan t cuts -> sorted_cuts t cuts -> in_ground (c t) -> nth_error cuts i = Some ci ->
  let e := make_element mkid sh c cuts in
  (In s (el_side e true i) -> px (b2 (s_coords s t)) <= ck (ci t)) /\
  (In s (el_side e false i) -> ck (ci t) <= px (b1 (s_coords s t))).
Proof.
  intros mkid sh c cuts i ci t s Hn Hs Hg Hi e.
  assert (Hlt : (i < length cuts)%nat) by (apply nth_error_Some; congruence).
  destruct (el_side_spec mkid sh c cuts i Hlt) as [L Rr]. fold e in L, Rr.
  rewrite L, Rr. split; intros H; apply In_nth_error in H; destruct H as [k Hk].
  - assert (k < S i)%nat.
    { assert (nth_error (firstn (S i) (el_surfaces e)) k <> None) by congruence.
      apply nth_error_Some in H. rewrite firstn_length in H. lia. }
    assert (Hk' : nth_error (el_surfaces e) k = Some s).
    { rewrite <- (firstn_skipn (S i) (el_surfaces e)). rewrite nth_error_app1; auto.
      apply nth_error_Some. congruence. }
    apply make_element_surfaces in Hk'. destruct Hk' as [_ [_ [Hc _]]].
    apply (piece_left_of_cut cuts c t i k ci); auto. lia.
  - assert (Hk' : nth_error (el_surfaces e) (S i + k) = Some s).
    { assert (Hl : length (el_surfaces e) = S (length cuts)).
      { apply make_element_length. destruct cuts; [simpl in Hlt; lia | discriminate]. }
      assert (Hf : length (firstn (S i) (el_surfaces e)) = S i) by (rewrite firstn_length; lia).
      rewrite <- (firstn_skipn (S i) (el_surfaces e)).
      rewrite nth_error_app2 by lia. rewrite Hf.
      replace (S i + k - S i)%nat with k by lia. exact Hk. }
    apply make_element_surfaces in Hk'. destruct Hk' as [_ [_ [Hc _]]].
    apply (piece_right_of_cut cuts c t i (S i + k)%nat ci); auto. lia.
Qed.

(** The two sides of a cut point partition the surfaces of the ground. *)
Lemma flat_map_perm2 : forall (A B : Type) (f g h : A -> list B) l,
  (forall x, In x l -> h x = f x ++ g x) ->
  Permutation (flat_map h l) (flat_map f l ++ flat_map g l).
Proof.
  intros A B f g h l. induction l; intros H; simpl; [constructor |].
  rewrite H by (left; auto).
  assert (IH := IHl (fun x Hx => H x (or_intror Hx))).
  rewrite <- !app_assoc. apply Permutation_app_head.
  rewrite app_assoc. rewrite (Permutation_app_comm (flat_map f l) (g a)).
  rewrite <- app_assoc. apply Permutation_app_head. exact IH.
Qed.

(* ------------------------------------------------------- elements of a ground *)

(** Every element of a ground built from ordered shadows is made by
    [make_element] with the cut points of the ground, on coordinates inside the
    ground. *)
Lemma ground_elements : forall y flag shadows cuts g e,
  ground_from_ordered_shadows y flag shadows cuts = Some g ->
  In e (gnd_shadows g ++ gnd_illum g) ->
  exists mkid sh c, e = make_element mkid sh c cuts /\ el_coords e = c.
Proof.
  intros y flag shadows cuts g e Hg He.
  destruct (ground_from_ordered_spec _ _ _ _ _ Hg) as [_ [_ [Es [_ [Ei _]]]]].
  apply in_app_or in He. destruct He as [He | He].
  - rewrite Es in He. unfold shadow_elements in He. apply in_map_iff in He.
    destruct He as [[k s] [E _]]. subst e. eexists _, _, _. split; [reflexivity |].
    apply el_coords_make.
  - unfold illum_elements in Ei. destruct (gnd_shadows g); [discriminate |].
    assert (E' := f_equal (fun o => match o with Some x => x | None => [] end) Ei).
    cbv beta iota zeta in E'. rewrite <- E' in He. apply in_map_iff in He.
    destruct He as [[k s] [E _]]. subst e. eexists _, _, _. split; [reflexivity |].
    apply el_coords_make.
Qed.

Lemma ground_elements_in_ground : forall y flag shadows cuts g e t,
  ground_from_ordered_shadows y flag shadows cuts = Some g ->
  raw_ordered t (flag t) shadows ->
  In e (gnd_shadows g ++ gnd_illum g) ->
  in_ground (el_coords e t).
Proof.
  intros y flag shadows cuts g e t Hg Ho He.
  pose proof (contiguous_inside _ _ _ (ground_tiles _ _ _ _ _ _ Hg Ho)) as I.
  destruct (I (px (b1 (el_coords e t))) (px (b2 (el_coords e t)))) as [A [B C]].
  { apply interleave_in. apply in_app_or in He. destruct He as [He | He]; [right | left];
      apply in_map_iff; exists e; auto. }
  unfold in_ground. auto.
Qed.

Lemma gnd_side_partition : forall y flag shadows cuts g i,
  ground_from_ordered_shadows y flag shadows cuts = Some g ->
  (i < length cuts)%nat ->
  Permutation (gnd_surfaces g)
    (gnd_side_of_cut_point g true i ++ gnd_side_of_cut_point g false i).
Proof.
  intros y flag shadows cuts g i Hg Hi.
  unfold gnd_surfaces, gnd_side_of_cut_point.
  assert (P : forall l, (forall e, In e l -> In e (gnd_shadows g ++ gnd_illum g)) ->
    Permutation (flat_map el_surfaces l)
      (flat_map (fun e => el_side e true i) l ++ flat_map (fun e => el_side e false i) l)).
  { intros l Hl. apply flat_map_perm2. intros e He.
    destruct (ground_elements _ _ _ _ _ e Hg (Hl e He)) as [mkid [sh [c [E _]]]]. subst e.
    destruct (el_side_spec mkid sh c cuts i Hi) as [L Rr]. rewrite L, Rr.
    symmetry. apply firstn_skipn. }
  rewrite (P (gnd_shadows g)) by (intros; apply in_or_app; auto).
  rewrite (P (gnd_illum g)) by (intros; apply in_or_app; auto).
  rewrite <- !app_assoc. apply Permutation_app_head.
  rewrite !app_assoc. apply Permutation_app_tail. apply Permutation_app_comm.
Qed.

Lemma gnd_side_sound : forall y flag shadows cuts g i ci t s,
  ground_from_ordered_shadows y flag shadows cuts = Some g ->
  raw_ordered t (flag t) shadows -> not_nan t cuts -> sorted_cuts t cuts ->
  nth_error cuts i = Some ci ->
  (In s (gnd_side_of_cut_point g true i) -> px (b2 (s_coords s t)) <= ck (ci t)) /\
  (In s (gnd_side_of_cut_point g false i) -> ck (ci t) <= px (b1 (s_coords s t))).
Proof.
  intros y flag shadows cuts g i ci t s Hg Ho Hn Hs Hi.
  assert (K : forall e, In e (gnd_shadows g ++ gnd_illum g) ->
    (In s (el_side e true i) -> px (b2 (s_coords s t)) <= ck (ci t)) /\
    (In s (el_side e false i) -> ck (ci t) <= px (b1 (s_coords s t)))).
  { intros e He. destruct (ground_elements _ _ _ _ _ e Hg He) as [mkid [sh [c [E Ec]]]].
    pose proof (ground_elements_in_ground _ _ _ _ _ e t Hg Ho He) as G. rewrite Ec in G.
    subst e. apply el_side_sound; auto. }
  unfold gnd_side_of_cut_point.
  split; intros H; apply in_app_or in H; destruct H as [H | H]; apply in_flat_map in H;
    destruct H as [e [He Hs']]; eapply K; eauto; apply in_or_app; auto.
Qed.

(** Surfaces of the ground: inside the ground, flat at the ground height. *)
Lemma gnd_surface_in_ground : forall y flag shadows cuts g t s,
  ground_from_ordered_shadows y flag shadows cuts = Some g ->
  raw_ordered t (flag t) shadows -> not_nan t cuts ->
  In s (gnd_surfaces g) ->
  in_ground (s_coords s t).
Proof.
  intros y flag shadows cuts g t s Hg Ho Hn Hs.
  unfold gnd_surfaces in Hs. rewrite <- flat_map_app in Hs. apply in_flat_map in Hs.
  destruct Hs as [e [He Hs]].
  pose proof (ground_elements_in_ground _ _ _ _ _ e t Hg Ho He) as G.
  destruct (ground_elements _ _ _ _ _ e Hg He) as [mkid [sh [c [E Ec]]]].
  rewrite Ec in G. subst e. apply In_nth_error in Hs. destruct Hs as [k Hk].
  apply make_element_surfaces in Hk. destruct Hk as [_ [_ [Hc _]]].
  apply nth_error_In in Hc. eapply create_coords_in_ground; eauto.
Qed.

Lemma ground_elements_y : forall y flag shadows cuts g e t,
  ground_from_ordered_shadows y flag shadows cuts = Some g ->
  In e (gnd_shadows g ++ gnd_illum g) ->
  py (b1 (el_coords e t)) = y /\ py (b2 (el_coords e t)) = y.
Proof.
  intros y flag shadows cuts g e t Hg He.
  destruct (ground_from_ordered_spec _ _ _ _ _ Hg) as [_ [_ [_ [Es [_ Ei]]]]].
  apply in_app_or in He. destruct He as [He | He]; apply (in_map el_coords) in He.
  - rewrite Es in He. apply in_map_iff in He. destruct He as [s [E _]].
    rewrite <- E. simpl. auto.
  - rewrite Ei in He. eapply illum_coords_y; eauto.
Qed.

Lemma gnd_surface_y : forall y flag shadows cuts g t s,
  ground_from_ordered_shadows y flag shadows cuts = Some g ->
  In s (gnd_surfaces g) ->
  py (b1 (s_coords s t)) = y /\ py (b2 (s_coords s t)) = y.
Proof.
  intros y flag shadows cuts g t s Hg Hs.
  unfold gnd_surfaces in Hs. rewrite <- flat_map_app in Hs. apply in_flat_map in Hs.
  destruct Hs as [e [He Hs]].
  destruct (ground_elements_y _ _ _ _ _ e t Hg He) as [Y1 Y2].
  destruct (ground_elements _ _ _ _ _ e Hg He) as [mkid [sh [c [E Ec]]]].
  rewrite Ec in Y1, Y2. subst e. apply In_nth_error in Hs. destruct Hs as [k Hk].
  apply make_element_surfaces in Hk. destruct Hk as [_ [_ [Hc _]]].
  apply nth_error_In in Hc. eapply create_coords_y; eauto.
Qed.

(** C02: pieces of an element. *)
Lemma element_pieces : forall mkid sh c cuts t,
  cuts <> [] -> not_nan t cuts -> in_ground (c t) ->
  let e := make_element mkid sh c cuts in
  length (el_surfaces e) = S (length cuts) /\
  end_to_end (px (b1 (c t))) (px (b2 (c t)))
    (map (fun s => x_extent (s_coords s t)) (el_surfaces e)).
Proof.
  intros mkid sh c cuts t Hne Hn Hg e. split; [apply make_element_length; auto |].
  assert (E : map (fun s => x_extent (s_coords s t)) (el_surfaces e) =
              map (fun l => x_extent (l t)) (create_coords c cuts)).
  { unfold e, make_element. destruct cuts; [congruence |]. cbn [el_surfaces]. rewrite map_map.
    cbn [s_coords]. apply (map_snd_enum _ _ (fun l : ts line => x_extent (l t))). }
  rewrite E. apply create_coords_end_to_end; auto.
Qed.

(* ------------------------------------------------------- cut points of an ordered array *)

Definition above_ground (p : pvarray_params) (r : R) : Prop :=
  pa_width p / 2 * Rabs (sin (rr r)) < pa_height p.

Lemma fit_cut_point : forall p al rot i t,
  above_ground p (rot t) -> -180 < rot t < 180 ->
  cut_point (row_coords (fit_row p al rot i) t) (rot t) pa_y_ground =
  if Req_EM_T (rot t) 0 then XPInf
  else XFin (INR i * pa_distance p - pa_height p * cos (rr (rot t)) / sin (rr (rot t))).
Proof.
  intros p al rot i t Ha Hr. rewrite fit_row_coords. unfold cut_point, div_tan. cbn [b1].
  change (deg2rad (rot t)) with (rr (rot t)).
  unfold row_point. change (rot t * PI / 180) with (rr (rot t)). cbn [px py].
  unfold above_ground in Ha.
  destruct (Req_EM_T (rot t) 0) as [E | E].
  - rewrite E in *.
    assert (Z : rr 0 = 0) by (unfold rr, deg2rad; field). rewrite Z in *.
    rewrite sin_0 in *. rewrite cos_0. rewrite Rabs_R0 in Ha.
    destruct (Req_EM_T 0 0) as [_ | N]; [| lra].
    destruct (Rlt_dec 0 1) as [_ | N]; [| lra].
    unfold pa_y_ground. destruct (Rlt_dec 0 _) as [_ | N]; [reflexivity | lra].
  - assert (S : sin (rr (rot t)) <> 0).
    { change (sin (rr (rot t))) with (sind (rot t)). destruct (Rlt_dec 0 (rot t)).
      - pose proof (sind_pos (rot t)). lra.
      - pose proof (sind_neg (rot t)). lra. }
    destruct (Req_EM_T (sin (rr (rot t))) 0) as [N | _]; [contradiction |].
    cbn [xsub]. f_equal. unfold pa_y_ground. field. auto.
Qed.

Lemma fit_cuts : forall p al rot t,
  valid_params p -> above_ground p (rot t) -> -180 < rot t < 180 ->
  let cuts := map (fun c t => cut_point (c t) (rot t) pa_y_ground)
                (map row_coords (fit_rows p al rot)) in
  length cuts = pa_n_pvrows p /\ not_nan t cuts /\ sorted_cuts t cuts.
Proof.
  intros p al rot t Hv Ha Hr cuts.
  pose proof (pa_distance_pos p Hv) as Hd.
  assert (N : forall i c, nth_error cuts i = Some c ->
    c t = cut_point (row_coords (fit_row p al rot i) t) (rot t) pa_y_ground).
  { intros i c H. unfold cuts in H. rewrite map_map, fit_rows_eq, map_map in H.
    rewrite nth_error_map in H. destruct (nth_error (seq 0 (pa_n_pvrows p)) i) eqn:E; [| discriminate].
    apply nth_error_seq_inv in E. destruct E as [_ E]. subst n. simpl in H. inversion H. reflexivity. }
  split; [| split].
  - unfold cuts. rewrite !map_length. apply fit_rows_length.
  - intros c Hc. apply In_nth_error in Hc. destruct Hc as [i Hi]. rewrite (N i c Hi).
    rewrite fit_cut_point by auto. destruct (Req_EM_T (rot t) 0); discriminate.
  - intros i j ci cj Hij Hi Hj. rewrite (N i ci Hi), (N j cj Hj).
    rewrite !fit_cut_point by auto.
    apply xclip_mono. destruct (Req_EM_T (rot t) 0); simpl; [auto |].
    apply le_INR in Hij. nra.
Qed.

Lemma fix_overlaps_length : forall flag l, length (fix_overlaps flag l) = length l.
Proof.
  intros flag l. induction l as [| a [| b l] IH]; [reflexivity | reflexivity |].
  change (fix_overlaps flag (a :: b :: l)) with
    ((fun t => (fst (a t), np_where (flag t) (fst (b t)) (snd (a t)))) :: fix_overlaps flag (b :: l)).
  cbn [length]. rewrite IH. reflexivity.
Qed.

Lemma illum_coords_length : forall y l nx, length (illum_coords y nx l) = S (length l).
Proof. induction l; intros; simpl; auto. Qed.

Lemma ground_shapes : forall y flag shadows cuts g,
  ground_from_ordered_shadows y flag shadows cuts = Some g ->
  length (gnd_shadows g) = length shadows /\ length (gnd_illum g) = S (length shadows) /\
  (forall e, In e (gnd_shadows g) -> el_shaded e = true) /\
  (forall e, In e (gnd_illum g) -> el_shaded e = false).
Proof.
  intros y flag shadows cuts g Hg.
  destruct (ground_from_ordered_spec _ _ _ _ _ Hg) as [_ [_ [Es [Es2 [Ei Ei2]]]]].
  assert (L : length (gnd_shadows g) = length shadows).
  { rewrite <- (map_length el_coords), Es2, map_length. apply fix_overlaps_length. }
  split; [auto |]. split; [| split].
  - rewrite <- (map_length el_coords), Ei2, illum_coords_length, map_length, L. reflexivity.
  - intros e He. rewrite Es in He. unfold shadow_elements in He. apply in_map_iff in He.
    destruct He as [x [E _]]. subst e. unfold make_element. destruct cuts; reflexivity.
  - intros e He. unfold illum_elements in Ei. destruct (gnd_shadows g); [discriminate |].
    assert (E' := f_equal (fun o => match o with Some x => x | None => [] end) Ei).
    cbv beta iota zeta in E'. rewrite <- E' in He. apply in_map_iff in He.
    destruct He as [x [E _]]. subst e. unfold make_element. destruct cuts; reflexivity.
Qed.
