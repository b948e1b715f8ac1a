(** Lemmas about the parameter dictionaries. *)
From Coq Require Import Reals List Bool Arith String Lra Lia.
From Verif Require Import Num ModelTs ModelGeom Basics ModelParams SpecParams.
Import ListNotations.
Open Scope R_scope.

(* ------------------------------------------------------------------ dictionaries *)

(** Value of the last binding of [k] in [d], [v] if there is none. *)
Fixpoint overlay (d : dict) (k : string) (v : option pval) : option pval :=
  match d with
  | [] => v
  | (k', w) :: r => overlay r k (if String.eqb k k' then Some w else v)
  end.

Lemma dict_update_overlay : forall d p k, dict_update p d k = overlay d k (p k).
Proof.
  induction d as [|[k' w] d IH]; intros p k; [reflexivity|].
  unfold dict_update in *. cbn [fold_left overlay fst snd]. rewrite IH. reflexivity.
Qed.

Lemma overlay_none : forall d k v, ~ In k (map fst d) -> overlay d k v = v.
Proof.
  induction d as [|[k' w] d IH]; intros k v H; [reflexivity|]. cbn [overlay].
  cbn [map fst In] in H. destruct (String.eqb_spec k k') as [E|E].
  - exfalso; apply H; left; congruence.
  - apply IH; tauto.
Qed.

Lemma overlay_in : forall d k v w, NoDup (map fst d) -> In (k, w) d -> overlay d k v = Some w.
Proof.
  induction d as [|[k' w'] d IH]; intros k v w N I; [destruct I|].
  cbn [map fst] in N. inversion N as [|? ? N1 N2]; subst. cbn [overlay].
  destruct I as [I|I].
  - inversion I; subst. rewrite String.eqb_refl. apply overlay_none; exact N1.
  - apply IH; assumption.
Qed.

Lemma overlay_idem : forall d k v, overlay d k (overlay d k v) = overlay d k v.
Proof.
  assert (H : forall d k, (forall v, overlay d k v = v) \/ exists w, forall v, overlay d k v = Some w).
  { induction d as [|[k' w] d IH]; intros k; [left; reflexivity|]. cbn [overlay].
    destruct (IH k) as [E|[w' E]].
    - destruct (String.eqb k k'); [right; exists w | left]; intro v; apply E.
    - right; exists w'; intro; apply E. }
  intros d k v. destruct (H d k) as [E|[w E]]; rewrite !E; reflexivity.
Qed.

(* ------------------------------------------------------------------------ updates *)

(** [st'] is [st] where exactly the surfaces with an identity in [ids] got [d]. *)
Definition updated (st st' : pstore) (ids : list sid) (d : dict) : Prop :=
  forall x k, ps_surf st' x k =
    if in_dec sid_eq_dec x ids then overlay d k (ps_surf st x k) else ps_surf st x k.

Lemma updated_nil : forall st st' d, ps_surf st' = ps_surf st -> updated st st' [] d.
Proof. intros st st' d H x k. cbn. rewrite H. reflexivity. Qed.

Lemma updated_app : forall st st1 st2 l1 l2 d,
  updated st st1 l1 d -> updated st1 st2 l2 d -> updated st st2 (l1 ++ l2) d.
Proof.
  intros st st1 st2 l1 l2 d H1 H2 x k. rewrite (H2 x k), (H1 x k).
  destruct (in_dec sid_eq_dec x l1) as [I1|I1], (in_dec sid_eq_dec x l2) as [I2|I2],
    (in_dec sid_eq_dec x (l1 ++ l2)) as [I|I]; try reflexivity;
    try (exfalso; rewrite in_app_iff in I; tauto).
  apply overlay_idem.
Qed.

Lemma surf_updated : forall st s d, updated st (surf_update st s d) [s_id s] d.
Proof.
  intros st s d x k. unfold surf_update. cbn [ps_surf].
  destruct (sid_eq_dec x (s_id s)) as [E|E], (in_dec sid_eq_dec x [s_id s]) as [I|I];
    try reflexivity.
  - apply dict_update_overlay.
  - exfalso; apply I; left; congruence.
  - exfalso; destruct I as [I|[]]; congruence.
Qed.

Lemma fold_updated : forall (A : Type) (up : pstore -> A -> pstore) (ids : A -> list sid) d,
  (forall st x, updated st (up st x) (ids x) d) ->
  forall l st, updated st (fold_left up l st) (flat_map ids l) d.
Proof.
  intros A up ids d H. induction l as [|x l IH]; intro st.
  - apply updated_nil. reflexivity.
  - cbn [fold_left flat_map]. eapply updated_app; [apply H | apply IH].
Qed.

Lemma flat_map_single : forall (A B : Type) (f : A -> B) l, flat_map (fun x => [f x]) l = map f l.
Proof. induction l as [|x l IH]; cbn; [|rewrite IH]; reflexivity. Qed.

Lemma coll_updated : forall st l d, updated st (coll_update st l d) (map s_id l) d.
Proof.
  intros st l d. unfold coll_update. rewrite <- flat_map_single.
  apply fold_updated. intros; apply surf_updated.
Qed.

Lemma seg_updated : forall st g d, updated st (seg_update st g d) (map s_id (seg_surfaces g)) d.
Proof.
  intros st g d. unfold seg_update, seg_surfaces. rewrite map_app.
  eapply updated_app; apply coll_updated.
Qed.

Lemma side_updated : forall st s d, updated st (side_update st s d) (map s_id (side_surfaces s)) d.
Proof.
  intros st s d. unfold side_update, side_surfaces. 
  rewrite (flat_map_concat_map seg_surfaces), concat_map, map_map, <- flat_map_concat_map.
  apply fold_updated. intros; apply seg_updated.
Qed.

Lemma row_updated : forall st r d,
  updated st (row_update st r d)
    (map s_id (side_surfaces (row_front r)) ++ map s_id (side_surfaces (row_back r))) d.
Proof. intros st r d. eapply updated_app; apply side_updated. Qed.

Lemma elements_updated : forall st sh els d,
  updated st (elements_update st sh els d) (flat_map (fun e => map s_id (el_surfaces e)) els) d.
Proof.
  intros st sh els d. unfold elements_update.
  assert (E : forall m, flat_map (fun e => map s_id (el_surfaces e)) els =
     flat_map (fun ke : nat * ts_ground_element => map s_id (el_surfaces (snd ke)))
       (combine (seq m (List.length els)) els)).
  { induction els as [|e els IH]; intro m; [reflexivity|]. cbn. f_equal. apply IH. }
  rewrite (E 0%nat). apply fold_updated. intros st' ke.
  apply (updated_app _ (element_dict_update st' sh (fst ke) d) _ []);
    [apply updated_nil; reflexivity | apply coll_updated].
Qed.

Lemma gnd_illum_updated : forall st g d,
  updated st (gnd_update_illum st g d) (flat_map (fun e => map s_id (el_surfaces e)) (gnd_illum g)) d.
Proof.
  intros st g d. apply (updated_app _ (ground_dict_update st false d) _ []);
    [apply updated_nil; reflexivity | apply elements_updated].
Qed.
Lemma gnd_shaded_updated : forall st g d,
  updated st (gnd_update_shaded st g d)
    (flat_map (fun e => map s_id (el_surfaces e)) (gnd_shadows g)) d.
Proof.
  intros st g d. apply (updated_app _ (ground_dict_update st true d) _ []);
    [apply updated_nil; reflexivity | apply elements_updated].
Qed.

(** Surfaces of a part. *)
Definition part_ids (p : part) : list sid :=
  match p with
  | PartSurface s => [s_id s]
  | PartCollection l => map s_id l
  | PartSegment g => map s_id (seg_surfaces g)
  | PartSide d => map s_id (side_surfaces d)
  | PartRow r => map s_id (side_surfaces (row_front r)) ++ map s_id (side_surfaces (row_back r))
  | PartGround g => flat_map (fun e => map s_id (el_surfaces e)) (gnd_illum g)
                    ++ flat_map (fun e => map s_id (el_surfaces e)) (gnd_shadows g)
  | PartGroundIllum g => flat_map (fun e => map s_id (el_surfaces e)) (gnd_illum g)
  | PartGroundShaded g => flat_map (fun e => map s_id (el_surfaces e)) (gnd_shadows g)
  | PartArray a =>
      (flat_map (fun e => map s_id (el_surfaces e)) (gnd_illum (ft_ground a))
       ++ flat_map (fun e => map s_id (el_surfaces e)) (gnd_shadows (ft_ground a)))
      ++ flat_map (fun r => map s_id (side_surfaces (row_front r)) ++ map s_id (side_surfaces (row_back r)))
           (ft_rows a)
  end.

Lemma part_updated : forall st p d, updated st (update_part st p d) (part_ids p) d.
Proof.
  intros st p d. destruct p; cbn [update_part part_ids].
  - apply surf_updated.
  - apply coll_updated.
  - apply seg_updated.
  - apply side_updated.
  - apply row_updated.
  - eapply updated_app; [apply gnd_illum_updated | apply gnd_shaded_updated].
  - apply gnd_illum_updated.
  - apply gnd_shaded_updated.
  - eapply updated_app; [eapply updated_app; [apply gnd_illum_updated | apply gnd_shaded_updated] |].
    apply fold_updated. intros; apply row_updated.
Qed.

Lemma in_seg_ids : forall g x, In x (map s_id (seg_surfaces g)) <->
  exists s, in_segment s g /\ s_id s = x.
Proof.
  intros g x. unfold seg_surfaces, in_segment. rewrite in_map_iff. split.
  - intros (s & E & I). exists s. rewrite in_app_iff in I. tauto.
  - intros (s & I & E). exists s. rewrite in_app_iff. tauto.
Qed.

Lemma in_side_ids : forall g x, In x (map s_id (side_surfaces g)) <->
  exists s, in_side s g /\ s_id s = x.
Proof.
  intros g x. unfold side_surfaces, in_side. rewrite in_map_iff. split.
  - intros (s & E & I). exists s. apply in_flat_map in I. destruct I as (y & Y & I).
    split; [|exact E]. exists y. split; [exact Y|]. unfold seg_surfaces in I.
    rewrite in_app_iff in I. exact I.
  - intros (s & (y & Y & I) & E). exists s. split; [exact E|]. apply in_flat_map. exists y.
    split; [exact Y|]. unfold seg_surfaces. rewrite in_app_iff. exact I.
Qed.

Lemma in_elements_ids : forall l x,
  In x (flat_map (fun e => map s_id (el_surfaces e)) l) <-> exists s, in_elements s l /\ s_id s = x.
Proof.
  intros l x. rewrite in_flat_map. unfold in_elements. split.
  - intros (e & I & J). apply in_map_iff in J. destruct J as (s & E & J). exists s.
    split; [exists e; tauto | exact E].
  - intros (s & (e & I & J) & E). exists e. split; [exact I|]. apply in_map_iff. exists s; tauto.
Qed.

Lemma in_part_ids : forall p x, In x (part_ids p) <-> exists s, in_part s p /\ s_id s = x.
Proof.
  intros p x. destruct p; cbn [part_ids in_part].
  - split; [intros [E|[]]; eauto | intros (? & -> & E); left; exact E].
  - rewrite in_map_iff. split; intros (y & A & B); exists y; tauto.
  - apply in_seg_ids.
  - apply in_side_ids.
  - rewrite in_app_iff, !in_side_ids. split.
    + intros [(s & A & B)|(s & A & B)]; exists s; tauto.
    + intros (s & [A|A] & B); [left|right]; exists s; tauto.
  - rewrite in_app_iff, !in_elements_ids. split.
    + intros [(s & A & B)|(s & A & B)]; exists s; tauto.
    + intros (s & [A|A] & B); [left|right]; exists s; tauto.
  - apply in_elements_ids.
  - apply in_elements_ids.
  - rewrite !in_app_iff, !in_elements_ids, in_flat_map. split.
    + intros [[(s & A & B)|(s & A & B)]|(r & R & I)]; [exists s; tauto | exists s; tauto |].
      rewrite in_app_iff, !in_side_ids in I. destruct I as [(s & A & B)|(s & A & B)]; exists s;
        (split; [right; exists r; tauto | exact B]).
    + intros (s & [[A|A]|(r & R & A)] & B); [left; left; exists s; tauto | left; right; exists s; tauto |].
      right. exists r. split; [exact R|]. rewrite in_app_iff, !in_side_ids.
      destruct A as [A|A]; [left|right]; exists s; tauto.
Qed.

Lemma update_untouched : forall st u x k, ~ touches x k u ->
  ps_surf (update_part st (fst u) (snd u)) x k = ps_surf st x k.
Proof.
  intros st [p d] x k H. cbn [fst snd]. rewrite (part_updated st p d x k).
  destruct (in_dec sid_eq_dec x (part_ids p)) as [I|I]; [|reflexivity].
  apply overlay_none. intro K. apply H. split; [apply in_part_ids; exact I | exact K].
Qed.

Lemma history_untouched : forall h st x k, (forall u, In u h -> ~ touches x k u) ->
  ps_surf (run_history st h) x k = ps_surf st x k.
Proof.
  induction h as [|u h IH]; intros st x k H; [reflexivity|].
  cbn [run_history fold_left]. fold (run_history (update_part st (fst u) (snd u)) h).
  rewrite IH by (intros; apply H; right; assumption).
  apply update_untouched. apply H; left; reflexivity.
Qed.

Lemma update_touched : forall st p d x k v, NoDup (map fst d) -> In (k, v) d ->
  (exists s, in_part s p /\ s_id s = x) ->
  ps_surf (update_part st p d) x k = Some v.
Proof.
  intros st p d x k v N I P. rewrite (part_updated st p d x k).
  destruct (in_dec sid_eq_dec x (part_ids p)) as [J|J].
  - apply overlay_in; assumption.
  - exfalso; apply J; apply in_part_ids; exact P.
Qed.

Lemma run_history_app : forall h1 h2 st,
  run_history st (h1 ++ h2) = run_history (run_history st h1) h2.
Proof. intros; unfold run_history; apply fold_left_app. Qed.

(* ------------------------------- dictionaries of the ground and of its elements *)

Lemma coll_update_other : forall l st d,
  ps_ground (coll_update st l d) = ps_ground st /\ ps_element (coll_update st l d) = ps_element st.
Proof.
  induction l as [|s l IH]; intros st d; [split; reflexivity|].
  unfold coll_update in *. cbn [fold_left]. destruct (IH (surf_update st s d) d) as [A B].
  rewrite A, B. split; reflexivity.
Qed.

Lemma fold_element : forall sh d (l : list (nat * ts_ground_element)) st,
  let st' := fold_left (fun st (ke : nat * ts_ground_element) =>
               coll_update (element_dict_update st sh (fst ke) d) (el_surfaces (snd ke)) d) l st in
  ps_ground st' = ps_ground st /\
  forall b e k, ps_element st' b e k =
    if Bool.eqb b sh && existsb (Nat.eqb e) (map fst l) then overlay d k (ps_element st b e k)
    else ps_element st b e k.
Proof.
  intros sh d. induction l as [|ke l IH]; intro st; cbn zeta.
  - split; [reflexivity|]. intros b e k. cbn. rewrite andb_false_r. reflexivity.
  - cbn [fold_left]. specialize (IH (coll_update (element_dict_update st sh (fst ke) d)
      (el_surfaces (snd ke)) d)). cbn zeta in IH. destruct IH as [IG IE].
    destruct (coll_update_other (el_surfaces (snd ke)) (element_dict_update st sh (fst ke) d) d)
      as [CG CE].
    split; [rewrite IG, CG; reflexivity|]. intros b e k. rewrite IE, CE.
    cbn [element_dict_update ps_element map existsb].
    destruct (Bool.eqb b sh); cbn [andb]; [|reflexivity].
    destruct (Nat.eqb e (fst ke)); cbn [orb].
    + rewrite dict_update_overlay. destruct (existsb _ _); [apply overlay_idem | reflexivity].
    + reflexivity.
Qed.

Lemma existsb_seq : forall n e, existsb (Nat.eqb e) (seq 0 n) = Nat.ltb e n.
Proof.
  intros n e. destruct (Nat.ltb_spec e n) as [H|H].
  - apply existsb_exists. exists e. rewrite in_seq, Nat.eqb_refl. split; [lia|reflexivity].
  - destruct (existsb _ _) eqn:E; [|reflexivity]. apply existsb_exists in E.
    destruct E as (x & I & X). apply in_seq in I. apply Nat.eqb_eq in X. lia.
Qed.

Lemma map_fst_combine : forall (A B : Type) (l : list A) (m : list B),
  List.length l = List.length m -> map fst (combine l m) = l.
Proof.
  induction l as [|x l IH]; intros [|y m] H; try discriminate H; [reflexivity|].
  cbn. rewrite IH; [reflexivity|]. inversion H; reflexivity.
Qed.

Lemma elements_update_dicts : forall st sh els d,
  ps_ground (elements_update st sh els d) = ps_ground st /\
  forall b e k, ps_element (elements_update st sh els d) b e k =
    if Bool.eqb b sh && Nat.ltb e (List.length els) then overlay d k (ps_element st b e k)
    else ps_element st b e k.
Proof.
  intros st sh els d. unfold elements_update.
  destruct (fold_element sh d (combine (seq 0 (List.length els)) els) st) as [A B].
  split; [exact A|]. intros b e k. rewrite B, map_fst_combine by (rewrite seq_length; reflexivity).
  rewrite existsb_seq. reflexivity.
Qed.

Lemma gnd_update_dicts : forall st g d sh k,
  ps_ground (gnd_update st g d) sh k = overlay d k (ps_ground st sh k) /\
  forall e, (e < List.length (if sh then gnd_shadows g else gnd_illum g))%nat ->
    ps_element (gnd_update st g d) sh e k = overlay d k (ps_element st sh e k).
Proof.
  intros st g d sh k. unfold gnd_update, gnd_update_shaded, gnd_update_illum.
  set (st1 := elements_update (ground_dict_update st false d) false (gnd_illum g) d).
  destruct (elements_update_dicts (ground_dict_update st false d) false (gnd_illum g) d) as [G1 E1].
  destruct (elements_update_dicts (ground_dict_update st1 true d) true (gnd_shadows g) d) as [G2 E2].
  fold st1 in G1, E1. rewrite G2. cbn [ground_dict_update ps_ground]. rewrite G1.
  cbn [ground_dict_update ps_ground]. split.
  - destruct sh; cbn [Bool.eqb]; rewrite dict_update_overlay; reflexivity.
  - intros e He. rewrite E2. cbn [ground_dict_update ps_element]. rewrite E1.
    cbn [ground_dict_update ps_element].
    destruct sh; cbn [Bool.eqb andb]; apply Nat.ltb_lt in He; rewrite He; reflexivity.
Qed.

(* -------------------------------------------------------------- weighted averages *)

Lemma total_py_sum : forall (A : Type) (f : A -> R) l, py_sum (map f l) = total f l.
Proof.
  intros A f l. rewrite py_sum_rsum. induction l as [|x l IH]; [reflexivity|].
  cbn [map total]. rewrite <- IH. reflexivity.
Qed.

Lemma total_app : forall (A : Type) (f : A -> R) l m, total f (l ++ m) = total f l + total f m.
Proof. induction l as [|x l IH]; intro m; cbn; [|rewrite IH]; lra. Qed.

Lemma total_flat : forall (A B : Type) (g : A -> list B) (f : B -> R) l,
  total f (flat_map g l) = total (fun x => total f (g x)) l.
Proof. induction l as [|x l IH]; cbn; [|rewrite total_app, IH]; reflexivity. Qed.

Lemma total_ext : forall (A : Type) (f g : A -> R) l, (forall x, In x l -> f x = g x) ->
  total f l = total g l.
Proof.
  induction l as [|x l IH]; intro H; [reflexivity|]. cbn.
  rewrite (H x), IH; [reflexivity | intros; apply H; right; assumption | left; reflexivity].
Qed.

Lemma total_le : forall (A : Type) (f g : A -> R) l, (forall x, In x l -> f x <= g x) ->
  total f l <= total g l.
Proof.
  induction l as [|x l IH]; intro H; cbn; [lra|].
  pose proof (H x (or_introl eq_refl)).
  pose proof (IH (fun y I => H y (or_intror I))). lra.
Qed.

Lemma total_scal : forall (A : Type) (c : R) (f : A -> R) l, total (fun x => f x * c) l = total f l * c.
Proof. induction l as [|x l IH]; cbn; [|rewrite IH]; lra. Qed.

Lemma average_bounds : forall (A : Type) (l : list A) len v w lo hi,
  is_weighted_average l len v w -> (forall x, In x l -> 0 <= len x) -> 0 < total len l ->
  (forall x, In x l -> 0 < len x -> lo <= v x <= hi) -> lo <= w <= hi.
Proof.
  intros A l len v w lo hi H P T B. unfold is_weighted_average in H.
  assert (L : total len l * lo <= total (fun x => len x * v x) l).
  { rewrite <- total_scal. apply total_le. intros x I. pose proof (P x I).
    destruct (Req_dec (len x) 0) as [E|E]; [rewrite E; lra|].
    destruct (B x I ltac:(lra)). nra. }
  assert (U : total (fun x => len x * v x) l <= total len l * hi).
  { rewrite <- total_scal. apply total_le. intros x I. pose proof (P x I).
    destruct (Req_dec (len x) 0) as [E|E]; [rewrite E; lra|].
    destruct (B x I ltac:(lra)). nra. }
  rewrite <- H in L, U. split; nra.
Qed.

(** The surfaces of [l] have numerical values [v]. *)
Definition has_values (st : pstore) (name : string) (l : list ts_surface) (v : ts_surface -> ts R) : Prop :=
  forall s, In s l -> get_param st s name = Ok (PArr (v s)).

Lemma has_values_app : forall st name l m v, has_values st name (l ++ m) v <->
  has_values st name l v /\ has_values st name m v.
Proof.
  unfold has_values; intros; split.
  - intro H; split; intros; apply H; apply in_or_app; tauto.
  - intros [H1 H2] s I. apply in_app_or in I. destruct I; auto.
Qed.

Lemma coll_ww_acc : forall st name l v (acc : ts R), has_values st name l v ->
  exists w, fold_result (fun (v : ts R) s => do p <- get_num st s name;
                 Ok (fun t => v t + s_length s t * p t)) l acc = Ok w /\
  forall t, w t = acc t + total (fun s => s_length s t * v s t) l.
Proof.
  intros st name. induction l as [|s l IH]; intros v acc H.
  - exists acc. split; [reflexivity|]. intro t; cbn; lra.
  - cbn [fold_result]. unfold get_num at 1. rewrite (H s (or_introl eq_refl)). cbn [bind].
    destruct (IH v (fun t => acc t + s_length s t * v s t)) as (w & E & W).
    { intros x I; apply H; right; exact I. }
    exists w. split; [exact E|]. intro t. rewrite W. cbn [total]. lra.
Qed.

Lemma coll_ww : forall st name l v, has_values st name l v ->
  exists w, coll_param_ww st l name = Ok w /\
  forall t, w t = total (fun s => s_length s t * v s t) l.
Proof.
  intros st name l v H. destruct (coll_ww_acc st name l v (fun _ => 0) H) as (w & E & W).
  exists w. split; [exact E|]. intro t. rewrite W. lra.
Qed.

Lemma seg_ww : forall st name g v, has_values st name (seg_surfaces g) v ->
  exists w, seg_param_ww st g name = Ok w /\
  forall t, w t = total (fun s => s_length s t * v s t) (seg_surfaces g).
Proof.
  intros st name g v H. unfold seg_surfaces in H. apply has_values_app in H. destruct H as [H1 H2].
  destruct (coll_ww _ _ _ _ H1) as (w1 & E1 & W1). destruct (coll_ww _ _ _ _ H2) as (w2 & E2 & W2).
  unfold seg_param_ww. rewrite E1, E2. cbn [bind]. eexists. split; [reflexivity|].
  intro t. unfold seg_surfaces. rewrite total_app, W1, W2. reflexivity.
Qed.

Lemma fold_ww : forall (A : Type) (ww : A -> result (ts R)) (surfs : A -> list ts_surface)
    (val : ts_surface -> nat -> R) l (acc : ts R),
  (forall x, In x l -> exists w, ww x = Ok w /\ forall t, w t = total (fun s => val s t) (surfs x)) ->
  exists w, fold_result (fun (v : ts R) x => do p <- ww x; Ok (fun t => v t + p t)) l acc = Ok w /\
  forall t, w t = acc t + total (fun s => val s t) (flat_map surfs l).
Proof.
  intros A ww surfs val. induction l as [|x l IH]; intros acc H.
  - exists acc. split; [reflexivity|]. intro t; cbn; lra.
  - destruct (H x (or_introl eq_refl)) as (w & E & W). cbn [fold_result]. rewrite E. cbn [bind].
    destruct (IH (fun t => acc t + w t)) as (w' & E' & W').
    { intros y I; apply H; right; exact I. }
    exists w'. split; [exact E'|]. intro t. rewrite W'. cbn [flat_map]. rewrite total_app, W. lra.
Qed.

Lemma has_values_in : forall st name (A : Type) (surfs : A -> list ts_surface) l v,
  has_values st name (flat_map surfs l) v -> forall x, In x l -> has_values st name (surfs x) v.
Proof. intros st name A surfs l v H x I s J. apply H. apply in_flat_map. eauto. Qed.

Lemma side_ww : forall st name g v, has_values st name (side_surfaces g) v ->
  exists w, side_param_ww st g name = Ok w /\
  forall t, w t = total (fun s => s_length s t * v s t) (side_surfaces g).
Proof.
  intros st name g v H.
  destruct (fold_ww _ (fun x => seg_param_ww st x name) seg_surfaces
    (fun s t => s_length s t * v s t) (side_segments g) (fun _ => 0)) as (w & E & W).
  { intros x I. apply seg_ww. exact (has_values_in _ _ _ _ _ _ H x I). }
  exists w. split; [exact E|]. intro t. rewrite W. unfold side_surfaces. lra.
Qed.

Lemma gnd_ww : forall st name g v,
  has_values st name (flat_map el_surfaces (gnd_shadows g ++ gnd_illum g)) v ->
  exists w, gnd_param_ww st g name = Ok w /\
  forall t, w t = total (fun s => s_length s t * v s t)
    (flat_map el_surfaces (gnd_shadows g ++ gnd_illum g)).
Proof.
  intros st name g v H.
  destruct (fold_ww _ (fun x => el_param_ww st x name) el_surfaces
    (fun s t => s_length s t * v s t) (gnd_shadows g ++ gnd_illum g) (fun _ => 0)) as (w & E & W).
  { intros x I. apply coll_ww. exact (has_values_in _ _ _ _ _ _ H x I). }
  exists w. split; [exact E|]. intro t. rewrite W. lra.
Qed.

Lemma seg_length_total : forall g t, seg_length g t = total (fun s => s_length s t) (seg_surfaces g).
Proof.
  intros g t. unfold seg_length, coll_length, seg_surfaces. rewrite total_app, !total_py_sum.
  reflexivity.
Qed.

Lemma side_length_total : forall g t, side_length g t = total (fun s => s_length s t) (side_surfaces g).
Proof.
  intros g t. unfold side_length, side_surfaces. rewrite total_py_sum, total_flat.
  apply total_ext. intros; apply seg_length_total.
Qed.

Lemma fdiv_average : forall a b, b <> 0 -> fdiv a b * b = a.
Proof. intros a b H. unfold fdiv. destruct (Req_EM_T b 0); [contradiction|]. field. exact H. Qed.

Lemma fold_result_ok : forall (A B : Type) (f : A -> B -> result A) l a w,
  fold_result f l a = Ok w -> forall x, In x l -> exists a' w', f a' x = Ok w'.
Proof.
  intros A B f. induction l as [|y l IH]; intros a w H x I; [destruct I|].
  cbn [fold_result] in H. destruct (f a y) as [b|e] eqn:E; [|discriminate H]. cbn [bind] in H.
  destruct I as [->|I]; [eauto | exact (IH b w H x I)].
Qed.

Lemma coll_ww_ok : forall st l name w, coll_param_ww st l name = Ok w ->
  forall s, In s l -> exists v, get_param st s name = Ok (PArr v).
Proof.
  intros st l name w H s I. destruct (fold_result_ok _ _ _ _ _ _ H s I) as (a & b & E).
  unfold get_num in E. destruct (get_param st s name) as [[| v |]|]; try discriminate E. eauto.
Qed.

Lemma seg_ww_ok : forall st g name w, seg_param_ww st g name = Ok w ->
  forall s, in_segment s g -> exists v, get_param st s name = Ok (PArr v).
Proof.
  intros st g name w H s I. unfold seg_param_ww in H.
  destruct (coll_param_ww st (seg_illum g) name) as [a|] eqn:EA; [|discriminate H].
  destruct (coll_param_ww st (seg_shaded g) name) as [b|] eqn:EB; [|discriminate H].
  destruct I as [I|I]; [exact (coll_ww_ok _ _ _ _ EA s I) | exact (coll_ww_ok _ _ _ _ EB s I)].
Qed.

Lemma side_ww_ok : forall st d name w, side_param_ww st d name = Ok w ->
  forall s, in_side s d -> exists v, get_param st s name = Ok (PArr v).
Proof.
  intros st d name w H s (g & G & I). destruct (fold_result_ok _ _ _ _ _ _ H g G) as (a & b & E).
  destruct (seg_param_ww st g name) as [x|] eqn:X; [|discriminate E].
  exact (seg_ww_ok _ _ _ _ X s I).
Qed.

Lemma gnd_ww_ok : forall st g name w, gnd_param_ww st g name = Ok w ->
  forall s, in_elements s (gnd_illum g) \/ in_elements s (gnd_shadows g) ->
  exists v, get_param st s name = Ok (PArr v).
Proof.
  intros st g name w H s I.
  assert (J : exists e, In e (gnd_shadows g ++ gnd_illum g) /\ In s (el_surfaces e)).
  { destruct I as [(e & A & B)|(e & A & B)]; exists e; rewrite in_app_iff; tauto. }
  destruct J as (e & A & B). destruct (fold_result_ok _ _ _ _ _ _ H e A) as (a & b & E).
  unfold el_param_ww in E. destruct (coll_param_ww st (el_surfaces e) name) as [x|] eqn:X; [|discriminate E].
  exact (coll_ww_ok _ _ _ _ X s B).
Qed.
