(** Proofs about the ground built for one timestep. *)
From Coq Require Import Reals List Bool Arith String Lra Lia.
From Verif Require Import Num ModelTs ModelGeom ModelVF ModelParams ModelShapely ModelSnapshot.
From Verif Require Import Basics SpecGeom SpecSnapshot ProofGround ProofShade ProofRow ProofFit ProofCut ProofIndex ProofSnapshot ProofMerge.
From Verif Require ProofShapely.
Import ListNotations.
Open Scope R_scope.

Lemma rightward_app : forall l lo hi r a, lo <= a -> chain a hi l -> rightward hi (map extent r) ->
  rightward lo (map extent (l ++ r)).
Proof.
  induction l as [|s l IH]; intros lo hi r a L C R; inversion C; subst; cbn.
  - destruct r as [|x r]; [constructor|]. cbn in *. inversion R; subst. econstructor; eauto. lra.
  - unfold extent at 1, x_extent. constructor; [lra|lra|]. eapply IH; [|eassumption|exact R]. lra.
Qed.
Lemma rightward_weaken : forall l lo lo', lo' <= lo -> rightward lo l -> rightward lo' l.
Proof. intros l lo lo' L H. inversion H; subst; constructor; auto; lra. Qed.

Lemma chain_within : forall l lo hi, chain lo hi l -> l <> [] -> forall x, within x (map extent l) <-> lo <= x <= hi.
Proof.
  induction l as [|s l IH]; intros lo hi C N x; [congruence|]. inversion C as [|? ? ? ? E L C']; subst.
  assert (LE := chain_le _ _ _ C'). split.
  - intros (a & b & [I|I] & H).
    + unfold extent, x_extent in I. injection I as <- <-. lra.
    + destruct l as [|s2 l]; [destruct I|]. assert (W : within x (map extent (s2 :: l))) by (exists a, b; auto).
      apply (IH _ _ C' ltac:(discriminate)) in W. lra.
  - intro H. destruct (Rle_dec x (px (b2 (su_line s)))) as [K|K].
    + exists (px (b1 (su_line s))), (px (b2 (su_line s))). split; [now left|lra].
    + destruct l as [|s2 l]. { inversion C'; subst. lra. }
      assert (W : within x (map extent (s2 :: l))) by (apply (IH _ _ C' ltac:(discriminate)); lra).
      destruct W as (a & b & I & W). exists a, b. split; [now right|exact W].
Qed.

Definition rsumlen (l : list pv_surface) : R := fold_right Rplus 0 (map (fun o => line_length (su_line o)) l).
Lemma rsumlen_app : forall l r, rsumlen (l ++ r) = rsumlen l + rsumlen r.
Proof. induction l as [|s l IH]; intro r; unfold rsumlen in *; cbn; [lra|]. rewrite IH. lra. Qed.
Lemma flat_len : forall y o, flat_at y o -> line_length (su_line o) = px (b2 (su_line o)) - px (b1 (su_line o)).
Proof.
  intros y o (A & B & _ & L & _). rewrite (line_length_flat _ y A B) by lra. reflexivity.
Qed.
Lemma chain_rsumlen : forall y l lo hi, chain lo hi l -> (forall o, In o l -> flat_at y o) -> rsumlen l = hi - lo.
Proof.
  intros y. induction l as [|s l IH]; intros lo hi C F; inversion C; subst; unfold rsumlen in *; cbn; [lra|].
  rewrite (IH _ _ H5) by (intros; apply F; now right). rewrite (flat_len y) by (apply F; now left). lra.
Qed.

Lemma pt_eta : forall q, Pt (px q) (py q) = q.
Proof. intros [a b]. reflexivity. Qed.

Section Ground.
Variables (y : R) (flag : ts bool) (shadows : list (ts (xr * xr))) (cuts : list (ts xr)) (g : ts_ground) (idx : nat) (e : snap_env).
Hypothesis G : ground_from_ordered_shadows y flag shadows cuts = Some g.
Hypothesis RO : raw_ordered idx (flag idx) shadows.
Hypothesis CN : cuts <> [].
Hypothesis NN : not_nan idx cuts.
Hypothesis NS : forall s, In s (gnd_surfaces g) -> s_length s idx = 0 \/ tol < s_length s idx.

Definition lo_of (el : ts_ground_element) : R := px (b1 (el_coords el idx)).
Definition hi_of (el : ts_ground_element) : R := px (b2 (el_coords el idx)).

Lemma el_facts : forall el, In el (gnd_shadows g ++ gnd_illum g) ->
  in_ground (el_coords el idx) /\ py (b1 (el_coords el idx)) = y /\ py (b2 (el_coords el idx)) = y.
Proof.
  intros el I. split; [exact (ground_elements_in_ground _ _ _ _ _ _ _ G RO I)|].
  exact (ground_elements_y _ _ _ _ _ _ idx G I).
Qed.
Lemma el_len : forall el, In el (gnd_shadows g ++ gnd_illum g) -> line_length (el_coords el idx) = hi_of el - lo_of el.
Proof.
  intros el I. destruct (el_facts el I) as ((A & B & C) & Y1 & Y2). rewrite (line_length_flat _ y Y1 Y2 B). reflexivity.
Qed.
Lemma el_surf_in : forall el s, In el (gnd_shadows g ++ gnd_illum g) -> In s (el_surfaces el) -> In s (gnd_surfaces g).
Proof.
  intros el s I J. unfold gnd_surfaces. apply in_app_or in I. apply in_or_app.
  destruct I as [I|I]; [left|right]; apply in_flat_map; exists el; auto.
Qed.
Lemma ground_sid : forall el s, In el (gnd_shadows g ++ gnd_illum g) -> In s (el_surfaces el) ->
  nvec_at s idx = None /\ s_shaded s = el_shaded el.
Proof.
  intros el s I J.
  destruct (ground_from_ordered_spec _ _ _ _ _ G) as (_ & _ & ES & _ & EI & _).
  apply in_app_or in I. destruct I as [I|I].
  - rewrite ES in I. unfold shadow_elements in I. apply in_map_iff in I. destruct I as ([k c] & <- & _). cbn [fst snd] in J.
    apply In_nth_error in J. destruct J as (j & J). apply make_element_surfaces in J. destruct J as (A & B & _).
    unfold nvec_at. rewrite A, B. split; [reflexivity|]. unfold make_element. destruct cuts; reflexivity.
  - unfold illum_elements in EI. destruct (gnd_shadows g) as [|e0 es]; [discriminate|]. assert (E' := f_equal (fun o => match o with Some x => x | None => [] end) EI).
    cbv beta iota zeta in E'. rewrite <- E' in I.
    apply in_map_iff in I. destruct I as ([k c] & <- & _). cbn [fst snd] in J.
    apply In_nth_error in J. destruct J as (j & J). apply make_element_surfaces in J. destruct J as (A & B & _).
    unfold nvec_at. rewrite A, B. split; [reflexivity|]. unfold make_element. destruct cuts; reflexivity.
Qed.

(** Pieces that are not points, from end to end. *)
Lemma pieces_chain : forall ss lo hi,
  (forall s, In s ss -> py (b1 (s_coords s idx)) = y /\ py (b2 (s_coords s idx)) = y /\
     px (b1 (s_coords s idx)) <= px (b2 (s_coords s idx)) /\ (s_length s idx = 0 \/ tol < s_length s idx)) ->
  end_to_end lo hi (map (fun s => x_extent (s_coords s idx)) ss) ->
  chain lo hi (map (snap e idx) (longer idx ss)).
Proof.
  pose proof tol_pos as TP.
  induction ss as [|s ss IH]; intros lo hi H E; cbn in E.
  - inversion E; subst. constructor.
  - destruct (H s (or_introl eq_refl)) as (Y1 & Y2 & L & Z).
    assert (LE : s_length s idx = px (b2 (s_coords s idx)) - px (b1 (s_coords s idx))).
    { unfold s_length. rewrite (line_length_flat _ y Y1 Y2 L). reflexivity. }
    assert (H' : forall s, In s ss -> py (b1 (s_coords s idx)) = y /\ py (b2 (s_coords s idx)) = y /\
     px (b1 (s_coords s idx)) <= px (b2 (s_coords s idx)) /\ (s_length s idx = 0 \/ tol < s_length s idx)) by (intros; apply H; now right).
    unfold longer. cbn [filter]. fold (longer idx ss).
    inversion E as [|lo' hi' a l E' Q1 Q2|lo' m hi' l L' E' Q1 Q2]; subst.
    + assert (K : Rltb tol (s_length s idx) = false).
      { apply Rltb_false. rewrite LE. unfold x_extent in *. lra. }
      rewrite K. apply IH; assumption.
    + assert (K : Rltb tol (s_length s idx) = true).
      { apply Rltb_true. destruct Z as [Z|Z]; [unfold x_extent in *; lra|exact Z]. }
      rewrite K. cbn [map]. constructor; [reflexivity|exact L'|]. apply IH; assumption.
Qed.

Lemma np_chain : forall el, In el (gnd_shadows g ++ gnd_illum g) -> chain (lo_of el) (hi_of el) (np e idx el).
Proof.
  intros el I. destruct (ground_elements _ _ _ _ _ _ G I) as (mkid & sh & c & E & EC).
  destruct (el_facts el I) as (IG & Y1 & Y2).
  unfold np. apply pieces_chain.
  - intros s J. assert (J' := el_surf_in el s I J).
    destruct (gnd_surface_y _ _ _ _ _ idx s G J') as [A B].
    destruct (gnd_surface_in_ground _ _ _ _ _ _ _ G RO NN J') as (_ & L & _). auto.
  - unfold lo_of, hi_of. rewrite EC in *. subst el. apply element_pieces; assumption.
Qed.

Lemma np_flat : forall el o, In el (gnd_shadows g ++ gnd_illum g) -> In o (np e idx el) ->
  flat_at y o /\ su_shaded o = el_shaded el /\ su_names o = sn_names e.
Proof.
  intros el o I J. unfold np in J. apply in_map_iff in J. destruct J as (s & <- & J).
  unfold longer in J. apply filter_In in J. destruct J as [J L]. apply Rltb_true in L.
  destruct (ground_sid el s I J) as [N SH]. assert (J' := el_surf_in el s I J).
  destruct (gnd_surface_y _ _ _ _ _ idx s G J') as [A B].
  destruct (gnd_surface_in_ground _ _ _ _ _ _ _ G RO NN J') as (_ & LE & _).
  unfold flat_at, snap; cbn. rewrite N. cbn. rewrite A, B. pose proof tol_pos.
  assert (s_length s idx = px (b2 (s_coords s idx)) - px (b1 (s_coords s idx))).
  { unfold s_length. rewrite (line_length_flat _ y A B LE). reflexivity. }
  repeat split; try lra. exact SH.
Qed.

Lemma np_nil : forall el, In el (gnd_shadows g ++ gnd_illum g) -> (np e idx el = [] <-> lo_of el = hi_of el).
Proof.
  intros el I. pose proof (np_chain el I) as C. split; intro H.
  - rewrite H in C. inversion C; reflexivity.
  - destruct (np e idx el) as [|o l]; [reflexivity|]. inversion C as [|? ? ? ? A B D]; subst.
    apply chain_le in D. lra.
Qed.

Lemma np_long : forall el, In el (gnd_shadows g ++ gnd_illum g) -> np e idx el <> [] -> tol < line_length (el_coords el idx).
Proof.
  intros el I N. rewrite (el_len el I). pose proof (np_chain el I) as C.
  destruct (np e idx el) as [|o l] eqn:E; [congruence|]. inversion C as [|? ? ? ? A B D]; subst.
  apply chain_le in D.
  assert (J : In o (np e idx el)) by (rewrite E; now left).
  unfold np in J. apply in_map_iff in J. destruct J as (s & <- & J).
  unfold longer in J. apply filter_In in J. destruct J as [J L]. apply Rltb_true in L.
  assert (J' := el_surf_in el s I J).
  destruct (gnd_surface_y _ _ _ _ _ idx s G J') as [Y1 Y2].
  destruct (gnd_surface_in_ground _ _ _ _ _ _ _ G RO NN J') as (_ & LE & _).
  unfold s_length in L. rewrite (line_length_flat _ y Y1 Y2 LE) in L. unfold x_extent in L. cbn in *. lra.
Qed.

Lemma not_points_np : forall els, incl els (gnd_shadows g ++ gnd_illum g) ->
  flat_map (np e idx) (not_points els idx) = flat_map (np e idx) els.
Proof.
  induction els as [|el els IH]; intro I; [reflexivity|]. unfold not_points in *. cbn [filter flat_map].
  assert (J : In el (gnd_shadows g ++ gnd_illum g)) by (apply I; now left).
  rewrite <- IH by (intros x X; apply I; now right).
  destruct (Rltb tol (line_length (el_coords el idx))) eqn:K; [reflexivity|].
  apply Rltb_false in K. destruct (np e idx el) as [|o l] eqn:E; [reflexivity|].
  pose proof (np_long el J ltac:(rewrite E; discriminate)). lra.
Qed.
Lemma not_points_in : forall els el, In el (not_points els idx) -> In el els /\ tol < line_length (el_coords el idx).
Proof. intros els el H. unfold not_points in H. apply filter_In in H. destruct H as [A B]. apply Rltb_true in B. auto. Qed.
Lemma not_points_nonempty : forall els el, incl els (gnd_shadows g ++ gnd_illum g) -> In el (not_points els idx) -> np e idx el <> [].
Proof.
  intros els el I H. apply not_points_in in H. destruct H as [A B]. intro N.
  apply (np_nil el (I _ A)) in N. rewrite (el_len el (I _ A)) in B. pose proof tol_pos. lra.
Qed.
Lemma not_points_len : forall els, incl els (gnd_shadows g ++ gnd_illum g) ->
  rsum (map (fun el => line_length (el_coords el idx)) (not_points els idx))
  = rsum (map (fun el => line_length (el_coords el idx)) els).
Proof.
  induction els as [|el els IH]; intro I; [reflexivity|]. unfold not_points in *. cbn [filter map rsum].
  rewrite <- IH by (intros x X; apply I; now right).
  destruct (Rltb tol (line_length (el_coords el idx))) eqn:K; [reflexivity|].
  apply Rltb_false in K. assert (J : In el (gnd_shadows g ++ gnd_illum g)) by (apply I; now left).
  destruct (np e idx el) as [|o l] eqn:E.
  - apply (np_nil el J) in E. rewrite (el_len el J), E. lra.
  - pose proof (np_long el J ltac:(rewrite E; discriminate)). lra.
Qed.

(** Elements from left to right. *)
Inductive els_from : R -> list ts_ground_element -> Prop :=
| els_nil : forall x, els_from x []
| els_cons : forall x el l, x <= lo_of el -> els_from (hi_of el) l -> els_from x (el :: l).
Lemma els_weaken : forall l x x', x' <= x -> els_from x l -> els_from x' l.
Proof. intros l x x' L H. inversion H; subst; constructor; auto; lra. Qed.

Lemma lo_hi : forall el, In el (gnd_shadows g ++ gnd_illum g) -> lo_of el <= hi_of el.
Proof. intros el I. destruct (el_facts el I) as ((_ & L & _) & _). exact L. Qed.

Lemma els_not_points : forall l x, incl l (gnd_shadows g ++ gnd_illum g) -> els_from x l -> els_from x (not_points l idx).
Proof.
  induction l as [|el l IH]; intros x I H; [constructor|]. inversion H; subst. unfold not_points in *. cbn [filter].
  assert (K := lo_hi el (I _ (or_introl eq_refl))).
  assert (I' : incl l (gnd_shadows g ++ gnd_illum g)) by (intros z Z; apply I; now right).
  destruct (Rltb tol (line_length (el_coords el idx))); [constructor; auto|].
  apply IH; [exact I'|]. eapply els_weaken; [|eassumption]. lra.
Qed.

Lemma rsum_fold : forall l, fold_right Rplus 0 l = rsum l.
Proof. induction l; cbn; [reflexivity|]. rewrite IHl. reflexivity. Qed.

(** Without merging. *)
Lemma np_stands : forall sh els, incl els (gnd_shadows g ++ gnd_illum g) -> (forall el, In el els -> el_shaded el = sh) ->
  els_from MIN_X_GROUND els -> stands_for y sh idx els (flat_map (np e idx) els).
Proof.
  intros sh els I SH EF. unfold stands_for. split; [|split; [|split]].
  - intros o J. apply in_flat_map in J. destruct J as (el & J & K). destruct (np_flat el o (I _ J) K) as (A & B & _).
    split; [exact A|]. rewrite B. apply SH; exact J.
  - clear SH. revert EF. generalize MIN_X_GROUND. induction els as [|el els IH]; intros x EF; [constructor|].
    inversion EF; subst. cbn [flat_map]. eapply rightward_app; [|apply np_chain; apply I; now left|].
    + assumption.
    + apply IH; [intros z Z; apply I; now right|assumption].
  - intro x. split.
    + intros (a & b & J & H). apply in_map_iff in J. destruct J as (o & E & J). apply in_flat_map in J. destruct J as (el & J & K).
      exists el. split; [exact J|]. assert (W : within x (map extent (np e idx el))) by (exists a, b; split; [rewrite <- E; apply in_map; exact K|exact H]).
      assert (N : np e idx el <> []) by (intro Z; rewrite Z in K; destruct K).
      apply (chain_within _ _ _ (np_chain el (I _ J)) N) in W.
      split; [|exact W]. assert (N' : lo_of el <> hi_of el) by (intro Z; apply (np_nil el (I _ J)) in Z; congruence).
      pose proof (lo_hi el (I _ J)). unfold lo_of, hi_of in *. lra.
    + intros (el & J & L & H). assert (N : np e idx el <> []) by (intro Z; apply (np_nil el (I _ J)) in Z; unfold lo_of, hi_of in Z; lra).
      assert (W : within x (map extent (np e idx el))) by (apply (chain_within _ _ _ (np_chain el (I _ J)) N); exact H).
      destruct W as (a & b & W & Q). exists a, b. split; [|exact Q]. apply in_map_iff in W. destruct W as (o & E & W).
      apply in_map_iff. exists o. split; [exact E|]. apply in_flat_map. exists el. auto.
  - fold (rsumlen (flat_map (np e idx) els)). rewrite rsum_fold. clear SH EF.
    induction els as [|el els IH]; [reflexivity|]. cbn [flat_map map rsum]. rewrite rsumlen_app, IH by (intros z Z; apply I; now right).
    assert (J : In el (gnd_shadows g ++ gnd_illum g)) by (apply I; now left).
    rewrite (chain_rsumlen y _ _ _ (np_chain el J)) by (intros o K; apply (np_flat el o J K)). rewrite (el_len el J). lra.
Qed.

(* ------------------------------------------------- order of the elements *)

Lemma els_of_lines : forall els x,
  ordered_from idx x (map el_coords els) -> els_from x els.
Proof.
  induction els as [|el els IH]; intros x H; [constructor|]. cbn in H. inversion H; subst. constructor; [assumption|].
  apply IH. assumption.
Qed.
Lemma ordered_shadows : ordered_from idx MIN_X_GROUND (map el_coords (gnd_shadows g)).
Proof.
  destruct (ground_from_ordered_spec _ _ _ _ _ G) as (_ & _ & _ & EM & _). rewrite EM. apply fix_overlaps_ordered; [exact RO|].
  destruct shadows as [|a l]; [unfold MIN_X_GROUND, MAX_X_GROUND; lra|]. apply ck_bounds.
Qed.
Lemma els_shadows : els_from MIN_X_GROUND (gnd_shadows g).
Proof. apply els_of_lines. exact ordered_shadows. Qed.
Lemma illum_ordered : forall ls next, ordered_from idx (next idx) ls -> forall els,
  map el_coords els = illum_coords y next ls -> els_from (next idx) els.
Proof.
  induction ls as [|s ls IH]; intros next H els E; cbn in E.
  - destruct els as [|el [|? ?]]; try discriminate. injection E as E. constructor; [|constructor].
    unfold lo_of. rewrite E. cbn. lra.
  - destruct els as [|el els]; [discriminate|]. cbn in E. injection E as E1 E2. inversion H as [|? ? ? A B C]; subst.
    constructor; [unfold lo_of; rewrite E1; cbn; lra|].
    apply (els_weaken _ (px (b2 (s idx)))); [unfold hi_of; rewrite E1; cbn; lra|].
    apply (IH (fun t => px (b2 (s t)))); assumption.
Qed.
Lemma els_illum : els_from MIN_X_GROUND (gnd_illum g).
Proof.
  destruct (ground_from_ordered_spec _ _ _ _ _ G) as (_ & _ & _ & _ & _ & EM).
  apply (illum_ordered (map el_coords (gnd_shadows g)) (fun _ => MIN_X_GROUND)); [exact ordered_shadows|exact EM].
Qed.

(** Shadows that touch. *)
Inductive touch : R -> R -> list ts_ground_element -> Prop :=
| touch_nil : forall x, touch x x []
| touch_cons : forall x hi el l, lo_of el = x -> touch (hi_of el) hi l -> touch x hi (el :: l).

Lemma touch_fix : flag idx = true -> forall l els x, map el_coords els = map (fun s t => clip_shadow y (s t)) (fix_overlaps flag l) ->
  match l with [] => True | a :: _ => x = ck (fst (a idx)) end -> exists hi, touch x hi els.
Proof.
  intros F. induction l as [|a l IH]; intros els x E X.
  - destruct els; [|discriminate]. exists x. constructor.
  - destruct l as [|b l].
    + destruct els as [|el [|? ?]]; try discriminate. injection E as E. exists (hi_of el). subst x. constructor; [|constructor].
      unfold lo_of. rewrite E. reflexivity.
    + destruct els as [|el els]; [discriminate|]. cbn [fix_overlaps map] in E. injection E as E1 E2.
      destruct (IH els (ck (fst (b idx))) E2 eq_refl) as (hi & T). exists hi. subst x. constructor.
      * unfold lo_of. rewrite E1. reflexivity.
      * unfold hi_of. rewrite E1. cbn. rewrite F. exact T.
Qed.
Lemma touch_shadows : flag idx = true -> exists lo hi, touch lo hi (gnd_shadows g).
Proof.
  intro F. destruct (ground_from_ordered_spec _ _ _ _ _ G) as (_ & _ & _ & EM & _).
  exists (match shadows with [] => 0 | a :: _ => ck (fst (a idx)) end).
  apply (touch_fix F shadows); [exact EM|]. destruct shadows; [exact Logic.I|reflexivity].
Qed.
Lemma touch_not_points : forall l lo hi, incl l (gnd_shadows g ++ gnd_illum g) -> touch lo hi l -> touch lo hi (not_points l idx).
Proof.
  induction l as [|el l IH]; intros lo hi I T; inversion T; subst; [constructor|]. unfold not_points in *. cbn [filter].
  assert (I' : incl l (gnd_shadows g ++ gnd_illum g)) by (intros z Z; apply I; now right).
  assert (J : In el (gnd_shadows g ++ gnd_illum g)) by (apply I; now left).
  destruct (Rltb tol (line_length (el_coords el idx))) eqn:K; [constructor; auto|].
  apply Rltb_false in K. destruct (np e idx el) as [|o r] eqn:E.
  - apply (np_nil el J) in E. rewrite E. apply IH; assumption.
  - pose proof (np_long el J ltac:(rewrite E; discriminate)). lra.
Qed.
Lemma touch_chain : forall l lo hi, incl l (gnd_shadows g ++ gnd_illum g) -> touch lo hi l -> chain lo hi (flat_map (np e idx) l).
Proof.
  induction l as [|el l IH]; intros lo hi I T; inversion T; subst; [constructor|]. cbn. eapply chain_app.
  - apply np_chain. apply I. now left.
  - apply IH; [intros z Z; apply I; now right|assumption].
Qed.

Lemma shadow_incl : incl (gnd_shadows g) (gnd_shadows g ++ gnd_illum g).
Proof. intros x X. apply in_or_app. now left. Qed.
Lemma illum_incl : incl (gnd_illum g) (gnd_shadows g ++ gnd_illum g).
Proof. intros x X. apply in_or_app. now right. Qed.
Lemma np_incl : forall els, incl els (gnd_shadows g ++ gnd_illum g) -> incl (not_points els idx) (gnd_shadows g ++ gnd_illum g).
Proof. intros els I x X. apply I. apply (not_points_in els x X). Qed.

Lemma chain_stands : forall sh els l lo hi, incl els (gnd_shadows g ++ gnd_illum g) ->
  els <> [] -> (forall el, In el els -> tol < line_length (el_coords el idx)) ->
  (forall el, In el els -> el_shaded el = sh) -> els_from MIN_X_GROUND els ->
  touch lo hi els -> chain lo hi l -> (forall o, In o l -> flat_at y o /\ su_shaded o = sh) ->
  stands_for y sh idx els l.
Proof.
  intros sh els l lo hi I NE LO SH EF T C P.
  destruct (np_stands sh els I SH EF) as (_ & _ & A3 & A4).
  pose proof (touch_chain els lo hi I T) as C0.
  assert (NEl : flat_map (np e idx) els <> []).
  { destruct els as [|el els]; [congruence|]. assert (J : In el (gnd_shadows g ++ gnd_illum g)) by (apply I; now left).
    pose proof (LO el (or_introl eq_refl)) as L. cbn. intro Z. apply app_eq_nil in Z. destruct Z as [Z _].
    apply (np_nil el J) in Z. rewrite (el_len el J) in L. pose proof tol_pos. lra. }
  assert (LT : lo < hi).
  { destruct (flat_map (np e idx) els) as [|o r]; [congruence|]. inversion C0 as [|? ? ? ? Q1 Q2 Q3]; subst. apply chain_le in Q3. lra. }
  assert (NL : l <> []) by (intro Z; subst l; inversion C; lra).
  assert (LM : MIN_X_GROUND <= lo).
  { inversion T as [|? ? el r Q1 Q2]; subst; [congruence|]. inversion EF; subst. assumption. }
  split; [exact P|]. split; [|split].
  - rewrite <- (app_nil_r l). eapply rightward_app; [exact LM|exact C|constructor].
  - intro x. rewrite (chain_within l lo hi C NL). rewrite <- A3. rewrite (chain_within _ _ _ C0 NEl). reflexivity.
  - rewrite <- A4. fold (rsumlen l) (rsumlen (flat_map (np e idx) els)).
    rewrite (chain_rsumlen y l lo hi C) by (intros o O; apply P; exact O).
    rewrite (chain_rsumlen y _ lo hi C0); [reflexivity|].
    intros o O. apply in_flat_map in O. destruct O as (el & J & K). apply (np_flat el o (I _ J) K).
Qed.

(** The elements that are not points stand for all of them. *)
Lemma stands_not_points : forall sh els l, incl els (gnd_shadows g ++ gnd_illum g) ->
  stands_for y sh idx (not_points els idx) l -> stands_for y sh idx els l.
Proof.
  intros sh els l I (A1 & A2 & A3 & A4). split; [exact A1|]. split; [exact A2|]. split.
  - intro x. rewrite A3. split; intros (el & J & L & H).
    + exists el. split; [apply (not_points_in els el J)|auto].
    + exists el. split; [|auto]. unfold not_points. apply filter_In. split; [exact J|]. apply Rltb_true.
      apply np_long; [apply I; exact J|]. intro Z. apply (np_nil el (I _ J)) in Z. unfold lo_of, hi_of in Z. lra.
  - rewrite A4, !rsum_fold. apply not_points_len. exact I.
Qed.

(** One surface per element. *)
Definition whole (names : list string) (sh : bool) (ps : sparams) (l : line) : pv_surface :=
  PVSurface l (- (py (b2 l) - py (b1 l)), px (b2 l) - px (b1 l)) sh None names ps.
Lemma plain_surfaces_eq : forall sh ps ls, (forall l, In l ls -> b1 l <> b2 l) ->
  plain_surfaces e sh ps ls = Ok (map (whole (sn_names e) sh ps) ls).
Proof.
  induction ls as [|l ls IH]; intro H; [reflexivity|]. cbn [plain_surfaces map]. unfold plain_surface, pvsurface_init.
  rewrite ProofShapely.boundary_ok by (apply H; now left). cbn [bind]. rewrite IH by (intros; apply H; now right). reflexivity.
Qed.
Lemma whole_flat : forall names sh ps l, py (b1 l) = y -> py (b2 l) = y -> px (b1 l) < px (b2 l) ->
  flat_at y (whole names sh ps l).
Proof. intros names sh ps l A B L. unfold flat_at, whole; cbn. repeat split; try assumption; lra. Qed.
Lemma np_pos : forall els el, incl els (gnd_shadows g ++ gnd_illum g) -> In el (not_points els idx) -> lo_of el < hi_of el.
Proof.
  intros els el I J. apply not_points_in in J. destruct J as [J L]. rewrite (el_len el (I _ J)) in L. pose proof tol_pos. lra.
Qed.
Lemma whole_stands : forall names sh ps els, incl els (gnd_shadows g ++ gnd_illum g) -> els_from MIN_X_GROUND els ->
  stands_for y sh idx els (map (whole names sh ps) (map (fun el => el_coords el idx) (not_points els idx))).
Proof.
  intros names sh ps els I EF. apply stands_not_points; [exact I|].
  pose proof (els_not_points els _ I EF) as EN. pose proof (np_incl els I) as IN. rewrite map_map.
  assert (PO : forall el, In el (not_points els idx) -> lo_of el < hi_of el) by (intros el J; apply (np_pos els el I J)).
  revert EN IN PO. generalize (not_points els idx) as l. intros l EN IN PO. split; [|split; [|split]].
  - intros o J. apply in_map_iff in J. destruct J as (el & <- & J). destruct (el_facts el (IN _ J)) as (_ & Y1 & Y2).
    split; [|reflexivity]. apply whole_flat; auto. apply (PO el J).
  - revert EN. generalize MIN_X_GROUND. induction l as [|el l IH]; intros x EN; [constructor|]. inversion EN; subst. cbn.
    constructor; [assumption|apply PO; now left|]. apply IH; auto.
    + intros z Z; apply IN; now right.
    + intros z Z; apply PO; now right.
  - intro x. split.
    + intros (a & b & J & H). rewrite map_map in J. apply in_map_iff in J. destruct J as (el & E & J).
      unfold extent, x_extent, whole in E; cbn in E. injection E as <- <-. exists el. split; [exact J|]. split; [apply (PO el J)|exact H].
    + intros (el & J & L & H). exists (lo_of el), (hi_of el). split; [|exact H]. rewrite map_map. apply in_map_iff. exists el. split; [reflexivity|exact J].
  - rewrite map_map. reflexivity.
Qed.

Lemma in_shadow_np : forall s, In s (List.concat (map (np e idx) (not_points (gnd_shadows g) idx))) -> plain y (sn_names e) s.
Proof.
  intros s H. rewrite <- flat_map_concat_map in H. apply in_flat_map in H. destruct H as (el & J & K).
  apply not_points_in in J. destruct J as [J _]. destruct (np_flat el s (shadow_incl _ J) K) as (A & B & C).
  destruct (ground_shapes _ _ _ _ _ G) as (_ & _ & SH & _). rewrite (SH el J) in B. repeat split; auto; apply A.
Qed.

Lemma merged_shadows : flag idx = true -> (1 < List.length (not_points (gnd_shadows g) idx))%nat ->
  exists out, merge_elements (sn_names e) (map (np e idx) (not_points (gnd_shadows g) idx)) None = Ok out /\
    stands_for y true idx (gnd_shadows g) out /\ (forall o, In o out -> plain y (sn_names e) o) /\
    (exists lo hi, contiguous lo hi (map extent out)) /\
    Forall2 same_start out (starting (map (np e idx) (not_points (gnd_shadows g) idx))) /\
    Forall2 same_end out (ending (map (np e idx) (not_points (gnd_shadows g) idx))).
Proof.
  intros F L. destruct (touch_shadows F) as (lo & hi & T).
  pose proof (touch_not_points _ _ _ shadow_incl T) as TN.
  pose proof (np_incl _ shadow_incl) as IN.
  pose proof (touch_chain _ _ _ IN TN) as C. rewrite flat_map_concat_map in C.
  destruct (merge_chain y (sn_names e) (map (np e idx) (not_points (gnd_shadows g) idx)) None lo lo hi) as (out & E & O1 & O2 & O3 & O4).
  - destruct (not_points (gnd_shadows g) idx); [cbn in L; lia|discriminate].
  - intros ss J. apply in_map_iff in J. destruct J as (el & <- & J). apply (not_points_nonempty _ _ shadow_incl J).
  - exact in_shadow_np.
  - exact C.
  - reflexivity.
  - exists out. split; [exact E|]. split.
    + apply stands_not_points; [exact shadow_incl|].
      apply (chain_stands true _ out lo hi IN).
      * destruct (not_points (gnd_shadows g) idx); [cbn in L; lia|discriminate].
      * intros el J. apply (not_points_in _ _ J).
      * intros el J. destruct (ground_shapes _ _ _ _ _ G) as (_ & _ & SH & _). apply SH. apply (not_points_in _ _ J).
      * apply els_not_points; [exact shadow_incl|exact els_shadows].
      * exact TN.
      * exact O1.
      * intros o O. destruct (O2 o O) as (A & B & _). auto.
    + split; [exact O2|]. split; [exists lo, hi; apply chain_contiguous; exact O1|]. auto.
Qed.

(* ------------------------------------------------------------ the ground *)

Lemma from_lists_ok : forall names sh il xm yy,
  (forall o, In o sh -> flat_at y o /\ su_shaded o = true) -> (forall o, In o il -> flat_at y o /\ su_shaded o = false) ->
  pvground_from_lists names sh il xm yy =
  Ok ([PVSegment (ShadeColl il (Some false) true names) (ShadeColl sh (Some true) true names) None],
      Line (Pt (fst (match xm with Some m => m | None => (MIN_X_GROUND, MAX_X_GROUND) end)) yy)
           (Pt (snd (match xm with Some m => m | None => (MIN_X_GROUND, MAX_X_GROUND) end)) yy)).
Proof.
  intros names sh il xm yy A B.
  assert (Z : forall o o', In o (il ++ sh) -> In o' (il ++ sh) ->
     fst (su_nvec o) * snd (su_nvec o') = snd (su_nvec o) * fst (su_nvec o')).
  { assert (Z : forall o, In o (il ++ sh) -> fst (su_nvec o) = 0).
    { intros o I. apply in_app_or in I. destruct I as [I|I]; [destruct (B o I) as ((_ & _ & N & _) & _)|destruct (A o I) as ((_ & _ & N & _) & _)]; exact N. }
    intros o o' I I'. rewrite (Z o I), (Z o' I'). ring. }
  unfold pvground_from_lists. destruct (match xm with Some m => m | None => (MIN_X_GROUND, MAX_X_GROUND) end) as [x1 x2]. cbn [fst snd].
  rewrite (collection_ok true).
  2:{ intros o I; apply (A o I). }
  2:{ intros o o' I I'. apply Z; apply in_or_app; now right. }
  cbn [bind]. rewrite (collection_ok false).
  2:{ intros o I; apply (B o I). }
  2:{ intros o o' I I'. apply Z; apply in_or_app; now left. }
  cbn [bind]. rewrite segment_ok by exact Z. cbn [bind].
  rewrite side_ok; [reflexivity| |].
  - intros q [<-|[]]. split; reflexivity.
  - intros o o' I I'. cbn in I, I'. rewrite app_nil_r in I, I'. apply Z; assumption.
Qed.

Lemma touch_ends : forall l lo hi d, touch lo hi l -> l <> [] -> lo = lo_of (hd d l) /\ hi = hi_of (last l d).
Proof.
  induction l as [|el l IH]; intros lo hi d T N; [congruence|]. inversion T; subst. split; [reflexivity|].
  destruct l as [|el2 l]; [inversion H4; reflexivity|]. destruct (IH _ _ d H4 ltac:(discriminate)) as [_ E]. exact E.
Qed.

Definition merging (merge : bool) : bool := merge && flag idx && Nat.ltb 1 (List.length (not_points (gnd_shadows g) idx)).

Definition il_of (cutp : bool) : list pv_surface :=
  if cutp then flat_map (np e idx) (gnd_illum g)
  else map (whole (sn_names e) false (params_at (ps_ground (sn_store e) false) idx))
         (map (fun el => el_coords el idx) (not_points (gnd_illum g) idx)).

Lemma gnd_flag : gnd_flag_overlap g = flag /\ gnd_y g = y.
Proof.
  revert G. unfold ground_from_ordered_shadows. destruct (illum_elements _ _ _); [|discriminate]. intro H. injection H as <-. split; reflexivity.
Qed.

Lemma ground_at_full : forall xm merge cutp, exists sh,
  ground_at e g idx xm merge cutp =
  Ok ([PVSegment (ShadeColl (il_of cutp) (Some false) true (sn_names e)) (ShadeColl sh (Some true) true (sn_names e)) None],
      Line (Pt (fst (match xm with Some m => m | None => (MIN_X_GROUND, MAX_X_GROUND) end)) y)
           (Pt (snd (match xm with Some m => m | None => (MIN_X_GROUND, MAX_X_GROUND) end)) y)) /\
  stands_for y true idx (gnd_shadows g) sh /\ stands_for y false idx (gnd_illum g) (il_of cutp) /\
  (merging merge = false ->
     sh = if cutp then flat_map (np e idx) (gnd_shadows g)
          else map (whole (sn_names e) true (params_at (ps_ground (sn_store e) true) idx))
                 (map (fun el => el_coords el idx) (not_points (gnd_shadows g) idx))) /\
  (merging merge = true -> cutp = true ->
     (exists lo hi, contiguous lo hi (map extent sh)) /\ (forall o, In o sh -> plain y (sn_names e) o) /\
     Forall2 same_start sh (starting (map (np e idx) (not_points (gnd_shadows g) idx))) /\
     Forall2 same_end sh (ending (map (np e idx) (not_points (gnd_shadows g) idx)))) /\
  (merging merge = true -> cutp = false ->
     exists lo hi, sh = [whole (sn_names e) true (params_at (ps_ground (sn_store e) true) idx) (Line (Pt lo y) (Pt hi y))] /\
       touch lo hi (not_points (gnd_shadows g) idx)).
Proof.
  intros xm merge cutp.
  destruct gnd_flag as [GF GY]. destruct (ground_shapes _ _ _ _ _ G) as (_ & _ & SSH & SIL).
  pose proof (np_stands true (gnd_shadows g) shadow_incl SSH els_shadows) as ST1.
  pose proof (np_stands false (gnd_illum g) illum_incl SIL els_illum) as ST2.
  pose proof (whole_stands (sn_names e) true (params_at (ps_ground (sn_store e) true) idx) _ shadow_incl els_shadows) as ST3.
  pose proof (whole_stands (sn_names e) false (params_at (ps_ground (sn_store e) false) idx) _ illum_incl els_illum) as ST4.
  assert (WN : forall els, incl els (gnd_shadows g ++ gnd_illum g) ->
            forall l, In l (map (fun el => el_coords el idx) (not_points els idx)) -> b1 l <> b2 l).
  { intros els I l J. apply in_map_iff in J. destruct J as (el & <- & J). apply px_ends. apply (np_pos els el I J). }
  assert (STI : stands_for y false idx (gnd_illum g) (il_of cutp)) by (unfold il_of; destruct cutp; assumption).
  unfold merging. destruct cutp.
  - (* broken up at the cut points *)
    assert (E : exists sh, (if merge then merge_shadow_surfaces e (gnd_flag_overlap g idx) (not_points (gnd_shadows g) idx) idx
                 else elements_at e (not_points (gnd_shadows g) idx) idx) = Ok sh /\ stands_for y true idx (gnd_shadows g) sh /\
        (merging merge = false -> sh = flat_map (np e idx) (gnd_shadows g)) /\
        (merging merge = true -> 
          (exists lo hi, contiguous lo hi (map extent sh)) /\ (forall o, In o sh -> plain y (sn_names e) o) /\
          Forall2 same_start sh (starting (map (np e idx) (not_points (gnd_shadows g) idx))) /\
          Forall2 same_end sh (ending (map (np e idx) (not_points (gnd_shadows g) idx))))).
    { unfold merging, merge_shadow_surfaces. rewrite GF. destruct merge; cbn [andb].
      - destruct (flag idx && Nat.ltb 1 (List.length (not_points (gnd_shadows g) idx))) eqn:K.
        + rewrite each_element_eq. cbn [bind]. apply andb_prop in K. destruct K as [K1 K2]. apply Nat.ltb_lt in K2.
          destruct (merged_shadows K1 K2) as (out & E & O1 & O2 & O3 & O4 & O5). exists out. split; [exact E|]. split; [exact O1|].
          split; [discriminate|]. intros _. auto.
        + rewrite elements_at_eq, not_points_np by exact shadow_incl. eexists. split; [reflexivity|]. split; [exact ST1|].
          split; [reflexivity|discriminate].
      - rewrite elements_at_eq, not_points_np by exact shadow_incl. eexists. split; [reflexivity|]. split; [exact ST1|].
        split; [reflexivity|discriminate]. }
    destruct E as (sh & E & S1 & S2 & S3). exists sh. unfold ground_at. rewrite E. cbn [bind]. rewrite elements_at_eq. cbn [bind].
    rewrite from_lists_ok; [|apply S1|exact (proj1 STI)]. rewrite GY. unfold merging in *.
    split; [reflexivity|]. split; [exact S1|]. split; [exact STI|]. split; [exact S2|]. split; [auto|discriminate].
  - (* whole elements *)
    set (P := params_at (ps_ground (sn_store e) true) idx) in *.
    assert (E : exists sh,
       (if merge && gnd_flag_overlap g idx && Nat.ltb 1 (List.length (not_points (gnd_shadows g) idx)) then
                   match not_points (gnd_shadows g) idx with
                   | first :: _ =>
                       plain_surfaces e true P
                         [Line (b1 (el_coords first idx)) (b2 (el_coords (last (not_points (gnd_shadows g) idx) first) idx))]
                   | [] => Ok []
                   end
                 else plain_surfaces e true P (map (fun el => el_coords el idx) (not_points (gnd_shadows g) idx))) = Ok sh /\
        stands_for y true idx (gnd_shadows g) sh /\
        (merging merge = false -> sh = map (whole (sn_names e) true P) (map (fun el => el_coords el idx) (not_points (gnd_shadows g) idx))) /\
        (merging merge = true -> exists lo hi, sh = [whole (sn_names e) true P (Line (Pt lo y) (Pt hi y))] /\
           touch lo hi (not_points (gnd_shadows g) idx))).
    { rewrite GF. unfold merging.
      destruct (merge && flag idx && Nat.ltb 1 (List.length (not_points (gnd_shadows g) idx))) eqn:K.
      - apply andb_prop in K. destruct K as [K K2]. apply andb_prop in K. destruct K as [_ K1]. apply Nat.ltb_lt in K2.
        destruct (touch_shadows K1) as (lo & hi & T). pose proof (touch_not_points _ _ _ shadow_incl T) as TN.
        assert (NE : not_points (gnd_shadows g) idx <> []) by (intro Z; rewrite Z in K2; cbn in K2; lia).
        pose proof (np_incl _ shadow_incl) as IN.
        destruct (not_points (gnd_shadows g) idx) as [|el0 l0] eqn:EN; [congruence|].
        change (b1 (el_coords el0 idx)) with (b1 (el_coords (hd el0 (el0 :: l0)) idx)). rewrite <- EN in *.
        destruct (touch_ends _ _ _ el0 TN NE) as [TL TH].
        assert (I0 : In (hd el0 (not_points (gnd_shadows g) idx)) (gnd_shadows g ++ gnd_illum g)).
        { apply IN. rewrite EN. now left. }
        assert (I1 : In (last (not_points (gnd_shadows g) idx) el0) (gnd_shadows g ++ gnd_illum g)).
        { apply IN. destruct (exists_last NE) as (l' & x & EX). rewrite EX, last_last. apply in_or_app. right. now left. }
        destruct (el_facts _ I0) as (_ & Y1 & _). destruct (el_facts _ I1) as (_ & _ & Y2).
        assert (B1 : b1 (el_coords (hd el0 (not_points (gnd_shadows g) idx)) idx) = Pt lo y).
        { unfold lo_of in TL. rewrite <- Y1, TL. symmetry. apply pt_eta. }
        assert (B2 : b2 (el_coords (last (not_points (gnd_shadows g) idx) el0) idx) = Pt hi y).
        { unfold hi_of in TH. rewrite <- Y2, TH. symmetry. apply pt_eta. }
        rewrite B1, B2.
        assert (LT : lo < hi).
        { pose proof (touch_chain _ _ _ IN TN) as C. 
          assert (NP : flat_map (np e idx) (not_points (gnd_shadows g) idx) <> []).
          { rewrite EN. cbn. intro Z. apply app_eq_nil in Z. destruct Z as [Z _].
            apply (not_points_nonempty (gnd_shadows g) el0 shadow_incl); [rewrite EN; now left|exact Z]. }
          destruct (flat_map (np e idx) (not_points (gnd_shadows g) idx)) as [|o r]; [congruence|].
          inversion C as [|? ? ? ? Q1 Q2 Q3]; subst. apply chain_le in Q3. lra. }
        assert (C : chain lo hi [whole (sn_names e) true P (Line (Pt lo y) (Pt hi y))]).
        { constructor; cbn; auto. constructor. }
        rewrite plain_surfaces_eq by (intros l [<-|[]]; apply px_ends; cbn; lra). eexists. split; [reflexivity|].
        split; [|split; [discriminate|intros _; exists lo, hi; auto]]. 
        apply stands_not_points; [exact shadow_incl|].
        apply (chain_stands true _ _ lo hi IN NE).
        + intros el J. apply (not_points_in _ _ J).
        + intros el J. apply SSH. apply (not_points_in _ _ J).
        + apply els_not_points; [exact shadow_incl|exact els_shadows].
        + exact TN.
        + exact C.
        + intros o [<-|[]]. split; [|reflexivity]. apply whole_flat; cbn; auto.
      - rewrite plain_surfaces_eq by (apply WN; exact shadow_incl). eexists. split; [reflexivity|]. split; [exact ST3|].
        split; [reflexivity|discriminate]. }
    destruct E as (sh & E & S1 & S2 & S3). exists sh. unfold ground_at. cbv zeta. fold P. rewrite E. cbn [bind].
    rewrite plain_surfaces_eq by (apply WN; exact illum_incl). cbn [bind].
    assert (STI' := STI). unfold il_of in STI'.
    rewrite from_lists_ok; [|apply S1|exact (proj1 STI')]. rewrite GY. unfold merging in *.
    split; [reflexivity|]. split; [exact S1|]. split; [exact STI|]. split; [exact S2|]. split; [discriminate|auto].
Qed.
End Ground.
