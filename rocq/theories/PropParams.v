(** Properties of the parameter dictionaries: statements, with examples that meet the
    hypotheses. Proofs are in ProofParams.v. *)
From Coq Require Import Reals List Bool Arith String Lra Lia.
From Verif Require Import Num ModelTs ModelGeom ModelVF Basics SpecGeom ProofGround ProofRow ProofFit ProofCut ProofIndex ProofGeom ProofGeom2 PropGeom PropVF ModelParams SpecParams ProofParams.
Import ListNotations.
Open Scope R_scope.

(** C36. The call [r] succeeds and its value at [t] is the average of the values [v] of
    the surfaces weighted by their lengths: between any bounds of the values of the
    surfaces that are not empty, and the common value if they are all equal. *)
Definition averages (r : result (ts R)) (l : list ts_surface) (v : ts_surface -> ts R) (t : nat) : Prop :=
  exists w, r = Ok w /\
    is_weighted_average l (fun s => s_length s t) (fun s => v s t) (w t) /\
    (forall lo hi, (forall s, In s l -> 0 < s_length s t -> lo <= v s t <= hi) -> lo <= w t <= hi) /\
    (forall c, (forall s, In s l -> v s t = c) -> w t = c).

Lemma averages_intro : forall (r : result (ts R)) l v t w len,
  r = Ok (per_length w len) -> w t = total (fun s => s_length s t * v s t) l ->
  len t = total (fun s => s_length s t) l -> 0 < total (fun s => s_length s t) l ->
  averages r l v t.
Proof.
  intros r l v t w len E W L P. exists (per_length w len). split; [exact E|].
  assert (A : is_weighted_average l (fun s => s_length s t) (fun s => v s t) (per_length w len t)).
  { unfold is_weighted_average, per_length. rewrite <- L, <- W. apply fdiv_average. rewrite L. lra. }
  assert (B : forall lo hi, (forall s, In s l -> 0 < s_length s t -> lo <= v s t <= hi) ->
     lo <= per_length w len t <= hi).
  { intros lo hi H.
    apply (average_bounds _ l (fun s => s_length s t) (fun s => v s t)); try assumption.
    intros s _. unfold s_length, line_length. apply sqrt_pos. }
  split; [exact A|]. split; [exact B|].
  intros c H. destruct (B c c); [|lra]. intros s I _. rewrite (H s I). lra.
Qed.

Theorem C36_collections : forall st name v t,
  (forall l, (forall s, In s l -> get_param st s name = Ok (PArr (v s))) ->
     0 < total (fun s => s_length s t) l ->
     averages (coll_param_weighted st l name) l v t) /\
  (forall g, (forall s, In s (seg_surfaces g) -> get_param st s name = Ok (PArr (v s))) ->
     0 < total (fun s => s_length s t) (seg_surfaces g) ->
     averages (seg_param_weighted st g name) (seg_surfaces g) v t) /\
  (forall d, (forall s, In s (side_surfaces d) -> get_param st s name = Ok (PArr (v s))) ->
     0 < total (fun s => s_length s t) (side_surfaces d) ->
     averages (side_param_weighted st d name) (side_surfaces d) v t).
Proof.
  intros st name v t. split; [|split]; intros x H P.
  - destruct (coll_ww _ _ _ _ H) as (w & E & W).
    eapply averages_intro with (w := w); [unfold coll_param_weighted; rewrite E; reflexivity | apply W | | exact P].
    unfold coll_length. apply total_py_sum.
  - destruct (seg_ww _ _ _ _ H) as (w & E & W).
    eapply averages_intro with (w := w); [unfold seg_param_weighted; rewrite E; reflexivity | apply W | | exact P].
    apply seg_length_total.
  - destruct (side_ww _ _ _ _ H) as (w & E & W).
    eapply averages_intro with (w := w); [unfold side_param_weighted; rewrite E; reflexivity | apply W | | exact P].
    apply side_length_total.
Qed.
Print Assumptions C36_collections.

Lemma scene_elements : forall p n f a t al e, scene p n f a t al ->
  In e (gnd_shadows (ft_ground a) ++ gnd_illum (ft_ground a)) ->
  line_length (el_coords e t) = total (fun s => s_length s t) (el_surfaces e).
Proof.
  intros p n f a t al e (V & Fi & SA & NS & HR & HG & HF) I.
  pose proof (fit_ground_ordered _ _ _ _ Fi) as G.
  destruct (fit_spec _ _ _ _ Fi) as [_ [Er _]]. rewrite Er in *.
  pose proof (fit_raw_ordered' p f t al V SA NS) as O.
  destruct (fit_cuts p (fit_alpha p f) (fit_rotation p f) t V HG HR) as [Lc [Nn _]].
  destruct (ground_elements _ _ _ _ _ e G I) as (mkid & sh & c & Ee & Ec).
  destruct (ground_elements_in_ground _ _ _ _ _ e t G O I) as [A [B C]].
  destruct (ground_elements_y _ _ _ _ _ e t G I) as [Y1 Y2].
  rewrite Ec in *.
  destruct (element_cutting mkid sh c (map (fun c t => cut_point (c t) (fit_rotation p f t) pa_y_ground)
                (map row_coords (fit_rows p (fit_alpha p f) (fit_rotation p f)))) t)
    as (_ & _ & L & _).
  - intro E. apply (f_equal (@List.length _)) in E. rewrite Lc in E. cbn in E.
    destruct V as (_ & _ & V & _). lia.
  - exact Nn.
  - exact A.
  - exact B.
  - exact C.
  - congruence.
  - rewrite <- L, Ee. unfold coll_length. apply total_py_sum.
Qed.

(** Ground of an array with the sun up (for which the length of the ground elements,
    the divisor, is the total length of their surfaces). *)
Theorem C36_ground : forall p n f a t al st name v,
  scene p n f a t al ->
  (forall s, In s (gnd_surfaces (ft_ground a)) -> get_param st s name = Ok (PArr (v s))) ->
  (forall e, In e (gnd_shadows (ft_ground a) ++ gnd_illum (ft_ground a)) ->
     0 < total (fun s => s_length s t) (el_surfaces e) ->
     averages (el_param_weighted st e name) (el_surfaces e) v t) /\
  averages (gnd_param_weighted st (ft_ground a) name) (gnd_surfaces (ft_ground a)) v t.
Proof.
  intros p n f a t al st name v S H.
  assert (EqS : flat_map el_surfaces (gnd_shadows (ft_ground a) ++ gnd_illum (ft_ground a))
                = gnd_surfaces (ft_ground a)) by (unfold gnd_surfaces; apply flat_map_app).
  rewrite <- EqS in H. split.
  - intros e I P. pose proof (has_values_in _ _ _ _ _ _ H e I) as He.
    destruct (coll_ww _ _ _ _ He) as (w & E & W).
    eapply averages_intro with (w := w);
      [unfold el_param_weighted, el_param_ww; rewrite E; reflexivity | apply W | | exact P].
    exact (scene_elements _ _ _ _ _ _ e S I).
  - destruct (gnd_ww _ _ _ _ H) as (w & E & W). rewrite EqS in W.
    assert (L : gnd_length (ft_ground a) t = total (fun s => s_length s t) (gnd_surfaces (ft_ground a))).
    { unfold gnd_length. rewrite total_py_sum, <- EqS, total_flat. apply total_ext.
      intros e I. exact (scene_elements _ _ _ _ _ _ e S I). }
    eapply averages_intro with (w := w);
      [unfold gnd_param_weighted; rewrite E; reflexivity | apply W | exact L | rewrite <- L].
    destruct S as (V & Fi & SA & NS & HR & HG & HF).
    pose proof (fit_ground_ordered _ _ _ _ Fi) as G.
    destruct (fit_spec _ _ _ _ Fi) as [_ [Er _]]. rewrite Er in *.
    rewrite (ground_length_200 _ _ _ _ _ t G (fit_raw_ordered' p f t al V SA NS)). lra.
Qed.
Print Assumptions C36_ground.

(** The un-normalised value of any part is the sum over its surfaces of length times
    value: it is additive over the surfaces, the segments of a side and the elements of
    the ground. *)
Theorem C36_additive : forall st name v t,
  (forall l, (forall s, In s l -> get_param st s name = Ok (PArr (v s))) ->
     exists w, coll_param_ww st l name = Ok w /\ w t = total (fun s => s_length s t * v s t) l) /\
  (forall g, (forall s, In s (seg_surfaces g) -> get_param st s name = Ok (PArr (v s))) ->
     exists w, seg_param_ww st g name = Ok w /\ w t = total (fun s => s_length s t * v s t) (seg_surfaces g)) /\
  (forall d, (forall s, In s (side_surfaces d) -> get_param st s name = Ok (PArr (v s))) ->
     exists w ws, side_param_ww st d name = Ok w /\
       w t = total (fun s => s_length s t * v s t) (side_surfaces d) /\
       (forall g, In g (side_segments d) -> seg_param_ww st g name = Ok (ws g)) /\
       w t = total (fun g => ws g t) (side_segments d)) /\
  (forall g, (forall s, In s (gnd_surfaces g) -> get_param st s name = Ok (PArr (v s))) ->
     exists w ws, gnd_param_ww st g name = Ok w /\
       w t = total (fun s => s_length s t * v s t) (gnd_surfaces g) /\
       (forall e, In e (gnd_shadows g ++ gnd_illum g) -> el_param_ww st e name = Ok (ws e)) /\
       w t = total (fun e => ws e t) (gnd_shadows g ++ gnd_illum g)).
Proof.
  intros st name v t. repeat split.
  - intros l H. destruct (coll_ww _ _ _ _ H) as (w & E & W). eauto.
  - intros l H. destruct (seg_ww _ _ _ _ H) as (w & E & W). eauto.
  - intros d H. destruct (side_ww _ _ _ _ H) as (w & E & W).
    exists w, (fun g => match seg_param_ww st g name with Ok x => x | Err _ => fun _ => 0 end).
    split; [exact E|]. split; [apply W|].
    assert (K : forall g, In g (side_segments d) -> exists x, seg_param_ww st g name = Ok x /\
        forall t, x t = total (fun s => s_length s t * v s t) (seg_surfaces g)).
    { intros g I. apply seg_ww. exact (has_values_in _ _ _ seg_surfaces _ _ H g I). }
    split.
    + intros g I. destruct (K g I) as (x & X & _). rewrite X. reflexivity.
    + rewrite W. unfold side_surfaces. rewrite total_flat. apply total_ext. intros g I.
      destruct (K g I) as (x & X & Y). rewrite X, Y. reflexivity.
  - intros g H.
    assert (EqS : flat_map el_surfaces (gnd_shadows g ++ gnd_illum g) = gnd_surfaces g)
      by (unfold gnd_surfaces; apply flat_map_app).
    rewrite <- EqS in *. destruct (gnd_ww _ _ _ _ H) as (w & E & W).
    exists w, (fun e => match el_param_ww st e name with Ok x => x | Err _ => fun _ => 0 end).
    split; [exact E|]. split; [apply W|].
    assert (K : forall e, In e (gnd_shadows g ++ gnd_illum g) -> exists x, el_param_ww st e name = Ok x /\
        forall t, x t = total (fun s => s_length s t * v s t) (el_surfaces e)).
    { intros e I. apply coll_ww. exact (has_values_in _ _ _ el_surfaces _ _ H e I). }
    split.
    + intros e I. destruct (K e I) as (x & X & _). rewrite X. reflexivity.
    + rewrite W, total_flat. apply total_ext. intros e I.
      destruct (K e I) as (x & X & Y). rewrite X, Y. reflexivity.
Qed.
Print Assumptions C36_additive.

(** A weighted value exists only if all the surfaces of the part have a numerical
    value: nothing is silently left out. *)
Theorem C36_all_surfaces_needed : forall st name w,
  (forall l s, coll_param_ww st l name = Ok w -> In s l -> exists v, get_param st s name = Ok (PArr v)) /\
  (forall g s, seg_param_ww st g name = Ok w -> in_segment s g -> exists v, get_param st s name = Ok (PArr v)) /\
  (forall d s, side_param_ww st d name = Ok w -> in_side s d -> exists v, get_param st s name = Ok (PArr v)) /\
  (forall g s, gnd_param_ww st g name = Ok w -> in_part s (PartGround g) ->
     exists v, get_param st s name = Ok (PArr v)).
Proof.
  intros st name w. repeat split; intros x s H I.
  - exact (coll_ww_ok _ _ _ _ H s I).
  - exact (seg_ww_ok _ _ _ _ H s I).
  - exact (side_ww_ok _ _ _ _ H s I).
  - exact (gnd_ww_ok _ _ _ _ H s I).
Qed.
Print Assumptions C36_all_surfaces_needed.

(** Example: two surfaces of lengths 1 and 3 with values 10 and 20 give 17.5. *)
Definition ex_surf (k : nat) (len : R) : ts_surface :=
  TsSurface (SidRow 0 false k false) (fun _ => Line (Pt 0 0) (Pt len 0)) (fun _ => (0, 1)) false.
Lemma ex_surf_length : forall k len t, 0 <= len -> s_length (ex_surf k len) t = len.
Proof.
  intros k len t H. unfold s_length, ex_surf. cbn [s_coords].
  rewrite (line_length_flat _ 0); cbn; lra.
Qed.
Example C36_example :
  let st := surf_update (surf_update (fresh_store []) (ex_surf 0 1) [("qinc"%string, PArr (fun _ => 10))])
              (ex_surf 1 3) [("qinc"%string, PArr (fun _ => 20))] in
  exists w, coll_param_weighted st [ex_surf 0 1; ex_surf 1 3] "qinc" = Ok w /\ w 0%nat = 35 / 2.
Proof.
  cbn zeta.
  set (st := surf_update _ _ _).
  set (v := fun s => if sid_eq_dec (s_id s) (SidRow 0 false 0 false) then (fun _ : nat => 10) else (fun _ => 20)).
  destruct (C36_collections st "qinc" v 0%nat) as (C & _).
  destruct (C [ex_surf 0 1; ex_surf 1 3]) as (w & E & A & _).
  - intros s [<-|[<-|[]]]; reflexivity.
  - cbn [total]. rewrite !ex_surf_length; lra.
  - exists w. split; [exact E|]. unfold is_weighted_average in A. cbn [total] in A.
    rewrite !ex_surf_length in A by lra.
    change (v (ex_surf 0 1) 0%nat) with 10 in A. change (v (ex_surf 1 3) 0%nat) with 20 in A. lra.
Qed.

(** C46. After any history of updates of parts of the array, the value of key [k] of the
    surface [s] is the one given by the last update of a part containing [s] by a
    dictionary with the key [k] ... *)
Theorem C46_last_update : forall st before p d after s k v,
  in_part s p -> NoDup (map fst d) -> In (k, v) d ->
  (forall u, In u after -> ~ touches (s_id s) k u) ->
  get_param (run_history st (before ++ (p, d) :: after)) s k = Ok v.
Proof.
  intros st before p d after s k v P N I A. unfold get_param.
  rewrite run_history_app.
  change (run_history (run_history st before) ((p, d) :: after))
    with (run_history (update_part (run_history st before) p d) after).
  rewrite history_untouched by exact A.
  rewrite (update_touched _ p d (s_id s) k v N I); [reflexivity | eauto].
Qed.
Print Assumptions C46_last_update.

(** ... and the original value if there is no such update. *)
Theorem C46_untouched : forall st h s k,
  (forall u, In u h -> ~ touches (s_id s) k u) ->
  get_param (run_history st h) s k = get_param st s k.
Proof. intros st h s k H. unfold get_param. rewrite history_untouched by exact H. reflexivity. Qed.
Print Assumptions C46_untouched.

(** An update of the ground also reaches the dictionaries of the ground itself and of
    all its elements, which so agree with their surfaces. *)
Theorem C46_ground_in_sync : forall st g d k v, NoDup (map fst d) -> In (k, v) d ->
  let st' := gnd_update st g d in
  (forall shaded, ps_ground st' shaded k = Some v) /\
  (forall (shaded : bool) e, (e < List.length (if shaded then gnd_shadows g else gnd_illum g))%nat ->
     ps_element st' shaded e k = Some v) /\
  (forall s, in_part s (PartGround g) -> get_param st' s k = Ok v).
Proof.
  intros st g d k v N I st'. split; [|split].
  - intro b. destruct (gnd_update_dicts st g d b k) as [E _]. unfold st'. rewrite E.
    apply overlay_in; assumption.
  - intros b e He. destruct (gnd_update_dicts st g d b k) as [_ E]. unfold st'. rewrite (E e He).
    apply overlay_in; assumption.
  - intros s P. unfold get_param. unfold st'.
    change (gnd_update st g d) with (update_part st (PartGround g) d).
    rewrite (update_touched st (PartGround g) d (s_id s) k v N I); [reflexivity | eauto].
Qed.
Print Assumptions C46_ground_in_sync.

(** The parts of a fitted array are made of surfaces with different identities, so an
    update of a row does not reach the ground nor another row: the surfaces of a fitted
    array outside the part keep all their values. *)
Theorem C46_other_surfaces : forall p n f a st part d s k,
  valid_params p -> fit p n f = Some a -> In s (all_ts_surfaces a) ->
  (forall s', in_part s' part -> In s' (all_ts_surfaces a)) -> ~ in_part s part ->
  get_param (update_part st part d) s k = get_param st s k.
Proof.
  intros p n f a st q d s k V F I P Nq.
  apply (C46_untouched st [(q, d)] s k). intros u [<-|[]] [(s' & P' & E) _]. apply Nq.
  cbn [fst] in P'. pose proof (P s' P') as I'.
  replace s with s'; [exact P'|].
  apply In_nth_error in I. apply In_nth_error in I'. destruct I as [i Hi], I' as [j Hj].
  assert (Eij : i = j).
  { pose proof (fit_ids_nodup _ _ _ _ V F) as ND.
    apply (proj1 (NoDup_nth_error (map s_id (all_ts_surfaces a))) ND).
    - rewrite map_length. apply nth_error_Some. congruence.
    - rewrite !nth_error_map, Hi, Hj. cbn. congruence. }
  subst j. congruence.
Qed.
Print Assumptions C46_other_surfaces.

(** An update of the array reaches all its surfaces, and the dictionaries of its ground. *)
Theorem C46_array : forall st a d k v, NoDup (map fst d) -> In (k, v) d ->
  let st' := array_update st a d in
  (forall s, In s (all_ts_surfaces a) -> get_param st' s k = Ok v) /\
  (forall shaded, ps_ground st' shaded k = Some v) /\
  (forall (shaded : bool) e,
     (e < List.length (if shaded then gnd_shadows (ft_ground a) else gnd_illum (ft_ground a)))%nat ->
     ps_element st' shaded e k = Some v).
Proof.
  intros st a d k v N I st'.
  assert (D : ps_ground st' = ps_ground (gnd_update st (ft_ground a) d) /\
              ps_element st' = ps_element (gnd_update st (ft_ground a) d)).
  { unfold st', array_update. generalize (gnd_update st (ft_ground a) d) as st0.
    induction (ft_rows a) as [|r l IH]; intro st0; [split; reflexivity|]. cbn [fold_left].
    destruct (IH (row_update st0 r d)) as [A B]. rewrite A, B. clear IH A B.
    assert (SD : forall s0 sd, ps_ground (side_update s0 sd d) = ps_ground s0 /\
                               ps_element (side_update s0 sd d) = ps_element s0).
    { intros s0 sd. unfold side_update. revert s0. induction (side_segments sd) as [|g gs IH]; intro s0; [split; reflexivity|].
      cbn [fold_left]. destruct (IH (seg_update s0 g d)) as [A B]. rewrite A, B. unfold seg_update.
      destruct (coll_update_other (seg_shaded g) (coll_update s0 (seg_illum g) d) d) as [A1 B1].
      destruct (coll_update_other (seg_illum g) s0 d) as [A2 B2]. rewrite A1, B1, A2, B2. split; reflexivity. }
    unfold row_update. destruct (SD (side_update st0 (row_front r) d) (row_back r)) as [A1 B1].
    destruct (SD st0 (row_front r)) as [A2 B2]. rewrite A1, B1, A2, B2. split; reflexivity. }
  destruct D as [D1 D2]. rewrite D1, D2.
  destruct (C46_ground_in_sync st (ft_ground a) d k v N I) as (G1 & G2 & _).
  split; [|split; [exact G1|exact G2]].
  intros s S. unfold get_param. unfold st'. change (array_update st a d) with (update_part st (PartArray a) d).
  rewrite (update_touched st (PartArray a) d (s_id s) k v N I); [reflexivity|]. exists s. split; [|reflexivity].
  cbn [in_part]. unfold all_ts_surfaces in S. rewrite in_app_iff in S. destruct S as [S|S].
  - left. unfold gnd_surfaces in S. rewrite in_app_iff, !in_flat_map in S. unfold in_elements. tauto.
  - right. apply in_flat_map in S. destruct S as (r & R & S). exists r. split; [exact R|].
    unfold row_surfaces, side_surfaces in S. rewrite in_app_iff, !in_flat_map in S.
    unfold in_side, in_segment. destruct S as [(g & G & S)|(g & G & S)]; [left|right];
      (exists g; split; [exact G|]; unfold seg_surfaces in S; rewrite in_app_iff in S; exact S).
Qed.
Print Assumptions C46_array.

Example C46_example :
  let s := ex_surf 0 1 in let s' := ex_surf 1 3 in
  let g := TsSegment (fun _ => Line (Pt 0 0) (Pt 4 0)) [s] [s'] (fun _ => (0, 1)) in
  let h := [(PartSegment g, [("q0", PArr (fun _ => 1)); ("qinc", PArr (fun _ => 2))]);
            (PartSurface s, [("qinc", PArr (fun _ => 3))])]%string in
  let st := run_history (fresh_store ["qabs"%string]) h in
  get_param st s "q0" = Ok (PArr (fun _ => 1)) /\ get_param st s "qinc" = Ok (PArr (fun _ => 3)) /\
  get_param st s' "qinc" = Ok (PArr (fun _ => 2)) /\ get_param st s "qabs" = Ok PNone /\
  get_param st s "missing" = Err KeyError.
Proof. repeat split. Qed.
