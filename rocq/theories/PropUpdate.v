(** Updates of the parameters of one timestep (C65) and collections of a segment after any
    sequence of operations (C66). *)
From Coq Require Import Reals List Bool Arith String Lra Lia Psatz.
From Verif Require Import Num ModelTs ModelGeom ModelVF ModelParams ModelLinalg ModelShapely ModelShadow
  Basics SpecGeom SpecShapely ProofShapely ProofCutPoint PropShapely.
Import ListNotations.
Open Scope R_scope.
Open Scope list_scope.

Local Notation tol := DISTANCE_TOLERANCE.

(* --------------------------------------------------------------------- C65 *)

(** The surface [s'] is [s] with the values of the dictionary [d]. *)
Definition given (d : sdict) (s s' : pv_surface) : Prop :=
  su_line s' = su_line s /\ su_nvec s' = su_nvec s /\ su_shaded s' = su_shaded s /\
  su_index s' = su_index s /\ su_names s' = su_names s /\
  (forall k v, In (k, v) d -> su_params s' k = Some v) /\
  (forall k, ~ In k (map fst d) -> su_params s' k = su_params s k).

Lemma sparams_update_other : forall d p k, ~ In k (map fst d) -> sparams_update p d k = p k.
Proof.
  induction d as [|[k' v'] d IH]; intros p k H; [reflexivity|]. unfold sparams_update in *. cbn [fold_left fst snd map In] in *.
  rewrite IH by tauto. destruct (String.eqb_spec k k'); [exfalso; apply H; left; congruence|reflexivity].
Qed.
Lemma sparams_update_in : forall d p k v, NoDup (map fst d) -> In (k, v) d -> sparams_update p d k = Some v.
Proof.
  induction d as [|[k' v'] d IH]; intros p k v N I; [destruct I|]. cbn [map fst] in N. inversion N as [|? ? N1 N2]; subst.
  destruct I as [I|I].
  - injection I as -> ->. change (sparams_update p ((k, v) :: d)) with (sparams_update (fun k' => if String.eqb k' k then Some v else p k') d).
    rewrite sparams_update_other by exact N1. rewrite String.eqb_refl. reflexivity.
  - exact (IH _ k v N2 I).
Qed.

Lemma su_update_given : forall d s, NoDup (map fst d) -> given d s (su_update s d).
Proof.
  intros d s N. unfold given, su_update. cbn [su_line su_nvec su_shaded su_index su_names su_params].
  do 5 (split; [reflexivity|]). split; [intros; apply sparams_update_in; assumption|intros; apply sparams_update_other; assumption].
Qed.

Lemma Forall2_map_r : forall (A : Type) (P : A -> A -> Prop) (f : A -> A) l, (forall x, P x (f x)) -> Forall2 P l (map f l).
Proof. intros A P f l H. induction l; cbn; constructor; auto. Qed.

Lemma sg_update_surfaces : forall g d, sg_surfaces (sg_update g d) = map (fun s => su_update s d) (sg_surfaces g).
Proof. intros g d. unfold sg_surfaces. rewrite map_app. reflexivity. Qed.
Lemma sd_update_surfaces : forall sd d, sd_surfaces (sd_update sd d) = map (fun s => su_update s d) (sd_surfaces sd).
Proof.
  intros sd d. unfold sd_surfaces, sd_update. induction sd as [|g sd IH]; [reflexivity|]. cbn [map flat_map].
  rewrite IH, sg_update_surfaces, map_app. reflexivity.
Qed.

(** An update of a row, a side, a segment or a collection gives the values to each of its
    surfaces, and changes nothing else. *)
Theorem C65_given : forall d, NoDup (map fst d) ->
  (forall c, Forall2 (given d) (sc_surfaces c) (sc_surfaces (sc_update c d)) /\
             sc_shaded (sc_update c d) = sc_shaded c) /\
  (forall g, Forall2 (given d) (sc_surfaces (sg_illum g)) (sc_surfaces (sg_illum (sg_update g d))) /\
             Forall2 (given d) (sc_surfaces (sg_shaded g)) (sc_surfaces (sg_shaded (sg_update g d))) /\
             fst (sg_all_surfaces (sg_update g d)) = sg_surfaces (sg_update g d)) /\
  (forall sd, Forall2 (given d) (sd_surfaces sd) (sd_surfaces (sd_update sd d)) /\
              List.length (sd_update sd d) = List.length sd) /\
  (forall r, Forall2 (given d) (sd_surfaces (rw_front r)) (sd_surfaces (rw_front (rw_update r d))) /\
             Forall2 (given d) (sd_surfaces (rw_back r)) (sd_surfaces (rw_back (rw_update r d))) /\
             Forall2 (given d) (rw_surfaces r) (rw_surfaces (rw_update r d)) /\
             rw_line (rw_update r d) = rw_line r).
Proof.
  intros d N. assert (G := fun s => su_update_given d s N).
  split; [|split; [|split]].
  - intro c. split; [apply Forall2_map_r; exact G|reflexivity].
  - intro g. split; [apply Forall2_map_r; exact G|]. split; [apply Forall2_map_r; exact G|reflexivity].
  - intro sd. rewrite sd_update_surfaces. split; [apply Forall2_map_r; exact G|apply map_length].
  - intro r. unfold rw_surfaces. cbn [rw_update rw_front rw_back rw_line]. rewrite !sd_update_surfaces, <- map_app.
    repeat split; apply Forall2_map_r; exact G.
Qed.

(** The weighted average of a value just given to all the surfaces is this value. *)
Lemma sc_ww_given : forall d k v l acc, NoDup (map fst d) -> In (k, SNum v) d ->
  fold_result (fun a s => do p <- su_num s k; Ok (a + p * su_length s)) (map (fun s => su_update s d) l) acc
  = Ok (acc + v * py_sum (map su_length l)).
Proof.
  intros d k v l acc N I. rewrite py_sum_rsum. revert acc. induction l as [|s l IH]; intro acc; cbn [map fold_result rsum fold_right].
  - f_equal. ring.
  - assert (E : su_num (su_update s d) k = Ok v).
    { unfold su_num, su_update. cbn [su_params]. rewrite (sparams_update_in _ _ _ _ N I). reflexivity. }
    rewrite E. cbn [bind]. rewrite IH. f_equal. unfold su_length at 1. cbn [su_update su_line]. fold (su_length s).
    unfold rsum. ring.
Qed.
Lemma sc_length_update : forall c d, sc_length (sc_update c d) = sc_length c.
Proof. intros c d. unfold sc_length. cbn [sc_update sc_surfaces]. rewrite map_map. reflexivity. Qed.
Lemma sg_ww_given : forall d k v g, NoDup (map fst d) -> In (k, SNum v) d -> sg_param_ww (sg_update g d) k = Ok (v * sg_length g).
Proof.
  intros d k v g N I. unfold sg_param_ww, sc_param_ww. cbn [sg_update sg_shaded sg_illum sc_update sc_surfaces].
  rewrite !(sc_ww_given d k v) by assumption. cbn [bind]. f_equal. unfold sg_length, sc_length. ring.
Qed.
Lemma sg_length_update : forall g d, sg_length (sg_update g d) = sg_length g.
Proof. intros g d. unfold sg_length. cbn [sg_update sg_shaded sg_illum]. rewrite !sc_length_update. reflexivity. Qed.
Lemma sd_ww_given : forall d k v sd acc, NoDup (map fst d) -> In (k, SNum v) d ->
  fold_result (fun a g => do p <- sg_param_ww g k; Ok (a + p)) (sd_update sd d) acc = Ok (acc + v * sd_length sd).
Proof.
  intros d k v sd acc N I. unfold sd_length. rewrite py_sum_rsum. revert acc. induction sd as [|g sd IH]; intro acc.
  - cbn. f_equal. ring.
  - cbn [sd_update map fold_result]. rewrite (sg_ww_given d k v g N I). cbn [bind]. unfold sd_update in IH. rewrite IH. f_equal.
    unfold rsum. cbn [map fold_right]. ring.
Qed.

Theorem C65_average : forall d k v, NoDup (map fst d) -> In (k, SNum v) d ->
  (forall c, sc_length c <> 0 -> sc_param_weighted (sc_update c d) k = Ok v) /\
  (forall g, sg_length g <> 0 -> sg_param_weighted (sg_update g d) k = Ok v) /\
  (forall sd, sd_length sd <> 0 -> sd_param_weighted (sd_update sd d) k = Ok v).
Proof.
  intros d k v N I.
  assert (F : forall a, a <> 0 -> fdiv (v * a) a = v).
  { intros a H. unfold fdiv. destruct (Req_EM_T a 0); [contradiction|]. field. exact H. }
  split; [|split].
  - intros c H. unfold sc_param_weighted, sc_param_ww. cbn [sc_update sc_surfaces].
    rewrite (sc_ww_given d k v) by assumption. cbn [bind]. f_equal. fold (sc_update c d). rewrite sc_length_update.
    unfold sc_length in *. rewrite Rplus_0_l. apply F. exact H.
  - intros g H. unfold sg_param_weighted. rewrite (sg_ww_given d k v g N I). cbn [bind]. rewrite sg_length_update. f_equal. apply F. exact H.
  - intros sd H. unfold sd_param_weighted, sd_param_ww. rewrite (sd_ww_given d k v) by assumption. cbn [bind].
    replace (sd_length (sd_update sd d)) with (sd_length sd).
    + f_equal. rewrite Rplus_0_l. apply F. exact H.
    + unfold sd_length, sd_update. rewrite map_map. f_equal. apply map_ext. intro g. symmetry. apply sg_length_update.
Qed.

(** A surface on which the value is not set, or is not a number, has no average: the average
    raises (as after a shadow is cast, C67_shadow: the values of the new surface are None). *)
Theorem C65_no_value : forall c k before s after,
  sc_surfaces c = before ++ s :: after ->
  (forall x, In x before -> exists v, su_params x k = Some (SNum v)) ->
  (su_params s k = Some SNone -> sc_param_weighted c k = Err TypeError) /\
  (su_params s k = None -> sc_param_weighted c k = Err KeyError).
Proof.
  intros c k before s after E B.
  assert (K : forall e acc, su_num s k = Err e ->
    fold_result (fun a x => do p <- su_num x k; Ok (a + p * su_length x)) (before ++ s :: after) acc = Err e).
  { clear E. intros e acc N. revert acc. induction before as [|x l IH]; intro acc; cbn [app fold_result].
    - rewrite N. reflexivity.
    - destruct (B x (or_introl eq_refl)) as [v V]. unfold su_num at 1. rewrite V. cbn [bind].
      apply IH. intros y I. apply B. right. exact I. }
  unfold sc_param_weighted, sc_param_ww. rewrite E.
  split; intro N; [rewrite (K TypeError 0) | rewrite (K KeyError 0)]; try reflexivity; unfold su_num; rewrite N; reflexivity.
Qed.
Example C65_no_value_case :
  let s v := PVSurface (Line (Pt 0 0) (Pt 1 0)) (0, 1) false None ["qinc"%string] (fun k => if String.eqb k "qinc" then v else None) in
  sc_param_weighted (ShadeColl [s (Some (SNum 2)); s (Some SNone); s None] None true []) "qinc" = Err TypeError /\
  sc_param_weighted (ShadeColl [s (Some (SNum 2)); s None; s (Some SNone)] None true []) "qinc" = Err KeyError.
Proof. split; reflexivity. Qed.

(** A parameter that one of the surfaces does not have: no average. *)
Example C65_case :
  let g := PVSegment (ShadeColl [flat_surface 0 1 false; flat_surface 3 5 false] (Some false) true [])
             (ShadeColl [flat_surface 1 3 true] (Some true) true []) None in
  sg_param_weighted g "qinc" = Err KeyError /\
  sg_param_weighted (sg_update g [("qinc"%string, SNum 7)]) "qinc" = Ok 7.
Proof.
  split; [reflexivity|].
  destruct (C65_average [("qinc"%string, SNum 7)] "qinc" 7) as (_ & H & _).
  - constructor; [intros []|constructor].
  - left. reflexivity.
  - apply H. unfold sg_length, sc_length. cbn [sg_shaded sg_illum sc_surfaces map]. rewrite !py_sum_rsum. cbn [rsum fold_right].
    unfold su_length, flat_surface. cbn [su_line]. rewrite !flat_as_along, !(length_along 0 0 1 0) by lra.
    rewrite !Rabs_left by lra. lra.
Qed.

(* --------------------------------------------------------------------- C66 *)

(** One operation on a segment; the new collections come from the constructor. *)
Inductive changed : pv_segment -> pv_segment -> Prop :=
| Cut : forall g p g', sg_cut_at_point g p = Ok g' -> changed g g'
| Cast : forall g l g', sg_cast_shadow g l = Ok g' -> changed g g'
| Merge : forall g g', merge_shaded_areas [g] = Ok [g'] -> changed g g'
| Update : forall g d, changed g (sg_update g d)
| Read : forall g, changed g (snd (sg_all_surfaces g))
| SetShaded : forall g l f n c g', shade_collection l f n = Ok c -> set_shaded g c = Ok g' -> changed g g'
| SetIllum : forall g l f n c g', shade_collection l f n = Ok c -> set_illum g c = Ok g' -> changed g g'
| DelShaded : forall g, changed g (del_shaded g)
| DelIllum : forall g, changed g (del_illum g).

(** A segment built by the constructor, and changed in any way. *)
Inductive lived : pv_segment -> Prop :=
| Built : forall li fi ni il ls fs ns sh g,
    shade_collection li fi ni = Ok il -> shade_collection ls fs ns = Ok sh ->
    pvsegment_init il sh = Ok g -> lived g
| Changed : forall g g', lived g -> changed g g' -> lived g'.

Definition all_are (b : bool) (c : shade_coll) : Prop := forall s, In s (sc_surfaces c) -> su_shaded s = b.

(** Collections separate the surfaces by their shading. *)
Definition separated (g : pv_segment) : Prop :=
  all_are false (sg_illum g) /\ all_are true (sg_shaded g) /\
  sc_shaded (sg_illum g) <> Some true /\ sc_shaded (sg_shaded g) = Some true.

Lemma shade_collection_all : forall l f n c, shade_collection l f n = Ok c ->
  sc_surfaces c = l /\ (forall s, In s l -> sc_shaded c = Some (su_shaded s)).
Proof.
  intros l f n c E. unfold shade_collection in E.
  destruct (uniform_shading_cases l) as [[U H]|[U _]]; rewrite U in E; [|discriminate].
  cbn [bind] in E. injection E as <-. cbn [sc_surfaces sc_shaded]. split; [reflexivity|]. intros s I.
  destruct l as [|a l]; [destruct I|]. cbn [get_shading]. f_equal. apply H; [left; reflexivity|exact I].
Qed.

Lemma cut_loop_all : forall b p l l' s2, (forall s, In s l -> su_shaded s = b) -> cut_loop l p = Ok (Some (l', s2)) ->
  (forall s, In s l' -> su_shaded s = b) /\ su_shaded s2 = b.
Proof.
  intros b p. induction l as [|s l IH]; intros l' s2 H E; [discriminate|]. cbn [cut_loop] in E.
  assert (NX : forall l' s2, (do x <- cut_loop l p; Ok (match x with Some (r', s2) => Some (s :: r', s2) | None => None end)) = Ok (Some (l', s2)) ->
               (forall s, In s l' -> su_shaded s = b) /\ su_shaded s2 = b).
  { intros m t X. destruct (cut_loop l p) as [[[r' t']|]|]; cbn [bind] in X; try discriminate. injection X as <- <-.
    destruct (IH r' t' (fun s I => H s (or_intror I)) eq_refl) as [A B]. split; [|exact B].
    intros z [<-|I]; [apply H; left; reflexivity|apply A; exact I]. }
  destruct (contains (su_line s) p); [|exact (NX _ _ E)].
  destruct (boundary (su_line s)) as [[e1 e2]|]; [|discriminate]. cbn [bind] in E.
  destruct (_ && _); [|exact (NX _ _ E)]. cbn [pvsurface_init bind] in E. injection E as <- <-.
  split; [|cbn; apply H; left; reflexivity]. intros z [<-|I]; [cbn; apply H; left; reflexivity|apply H; right; exact I].
Qed.

Lemma sc_cut_all : forall b c p c', all_are b c -> sc_cut_at_point c p = Ok c' -> all_are b c' /\ sc_shaded c' = sc_shaded c.
Proof.
  intros b c p c' H E. unfold sc_cut_at_point in E. destruct (cut_loop (sc_surfaces c) p) as [[[l s2]|]|] eqn:C; cbn [bind] in E; try discriminate;
    injection E as <-; [|split; [exact H|reflexivity]].
  destruct (cut_loop_all b p _ _ _ H C) as [A B]. split; [|reflexivity]. intros s I. cbn [sc_surfaces] in I. apply in_app_iff in I.
  destruct I as [I|[<-|[]]]; [apply A; exact I|exact B].
Qed.

Lemma changed_separated : forall g g', separated g -> changed g g' -> separated g'.
Proof.
  intros g g' (A & B & C & D) H.
  destruct H as [g p g' E|g l g' E|g g' E|g d|g|g l f n c g' Ec E|g l f n c g' Ec E|g|g].
  - unfold sg_cut_at_point in E. destruct (contains_any (sg_surfaces g) p); [|injection E as <-; repeat split; assumption].
    destruct (contains_any (sc_surfaces (sg_illum g)) p).
    + destruct (sc_cut_at_point (sg_illum g) p) as [c|] eqn:X; cbn [bind] in E; [|discriminate]. injection E as <-.
      destruct (sc_cut_all false _ _ _ A X) as [P Q]. unfold separated. cbn [sg_illum sg_shaded]. rewrite Q. repeat split; assumption.
    + destruct (sc_cut_at_point (sg_shaded g) p) as [c|] eqn:X; cbn [bind] in E; [|discriminate]. injection E as <-.
      destruct (sc_cut_all true _ _ _ B X) as [P Q]. unfold separated. cbn [sg_illum sg_shaded]. rewrite Q. repeat split; assumption.
  - unfold sg_cast_shadow in E. destruct (buffer_intersection _ _) as [| |i|]; try discriminate; [injection E as <-; repeat split; assumption|].
    destruct (sg_nvec g) as [n|]; cbn [bind] in E; [|discriminate].
    unfold add_linestring in E. rewrite D in E.
    destruct (match n with Some n0 => Ok (Some n0) | None => sc_nvec (sg_shaded g) end) as [n'|]; cbn [bind] in E; [|discriminate].
    destruct (pvsurface_init i n' true None (sc_names (sg_shaded g)) None) as [x|] eqn:X; cbn [bind] in E; [|discriminate]. injection E as <-.
    assert (SX : su_shaded x = true).
    { unfold pvsurface_init in X. destruct n' as [n'|]; cbn [bind] in X; [injection X as <-; reflexivity|].
      destruct (boundary i) as [[e1 e2]|]; cbn [bind] in X; [injection X as <-; reflexivity|discriminate]. }
    split; [|split; [|split; [exact C|exact D]]].
    + intros s I. cbn [sg_illum remove_linestring sc_surfaces] in I. apply in_flat_map in I. destruct I as (s0 & I0 & I).
      unfold surface_less in I. destruct (buffer_intersects (su_line s0) i).
      * apply in_map_iff in I. destruct I as (l' & <- & _). cbn. apply A. exact I0.
      * destruct I as [<-|[]]. apply A. exact I0.
    + intros s I. cbn [sg_shaded add_pvsurface sc_surfaces] in I. apply in_app_iff in I. destruct I as [I|[<-|[]]]; [apply B; exact I|exact SX].
  - cbn [merge_shaded_areas] in E. destruct (merge_surfaces (sg_shaded g)) as [c|] eqn:X; cbn [bind] in E; [|discriminate]. injection E as <-.
    unfold merge_surfaces in X. destruct (sc_surfaces (sg_shaded g)) as [|s1 [|s2 r]] eqn:ES.
    + injection X as <-. repeat split; assumption.
    + injection X as <-. repeat split; assumption.
    + rewrite D in X. cbn [pvsurface_init bind] in X. injection X as <-. split; [exact A|]. split; [|split; [exact C|reflexivity]].
      intros s I. cbn [sg_shaded sc_surfaces] in I. destruct I as [<-|[]]. reflexivity.
  - split; [|split; [|split; [exact C|exact D]]]; intros s I; cbn [sg_update sg_illum sg_shaded sc_update sc_surfaces] in I;
      apply in_map_iff in I; destruct I as (s0 & <- & I); cbn; [apply A|apply B]; exact I.
  - unfold sg_all_surfaces. destruct (sg_cache g); repeat split; assumption.
  - destruct (shade_collection_all _ _ _ _ Ec) as [S1 S2]. unfold set_shaded in E. destruct (sc_shaded c) as [[|]|] eqn:Ef; try discriminate.
    injection E as <-. split; [exact A|]. split; [|split; [exact C|exact Ef]]. intros s I. cbn [sg_shaded] in I. rewrite S1 in I.
    specialize (S2 s I). congruence.
  - destruct (shade_collection_all _ _ _ _ Ec) as [S1 S2]. unfold set_illum in E.
    assert (NF : sc_shaded c <> Some true) by (intro Z; rewrite Z in E; discriminate).
    assert (g' = PVSegment c (sg_shaded g) (sg_cache g)) as -> by (destruct (sc_shaded c) as [[|]|]; congruence).
    split; [|split; [exact B|split; [exact NF|exact D]]]. intros s I. cbn [sg_illum] in I. rewrite S1 in I. specialize (S2 s I).
    destruct (su_shaded s); [congruence|reflexivity].
  - split; [exact A|]. split; [intros s []|]. split; [exact C|reflexivity].
  - split; [intros s []|]. split; [exact B|]. split; [discriminate|exact D].
Qed.

Lemma lived_separated : forall g, lived g -> separated g.
Proof.
  intros g H. induction H as [li fi ni il ls fs ns sh g Ei Es E|g g' _ IH C]; [|exact (changed_separated _ _ IH C)].
  destruct (C43_segment _ _ _ _ _ _ _ _ Ei Es) as [P _]. destruct (P g E) as (Q1 & Q2 & P1 & P2).
  unfold separated. rewrite Q1, Q2. clear Q1 Q2.
  destruct (shade_collection_all _ _ _ _ Ei) as [S1 _]. destruct (shade_collection_all _ _ _ _ Es) as [S2 _].
  unfold pvsegment_init in E. destruct (sc_shaded sh) as [[|]|] eqn:Esh; try discriminate.
  split; [intros s I; apply P1; rewrite <- S1; exact I|]. split; [intros s I; apply P2; rewrite <- S2; exact I|].
  split; [|reflexivity]. intro Z. rewrite Z in E. discriminate.
Qed.

(** After any sequence of cuts, shadows, merges, updates, replacements and deletions of
    collections, a surface is in the shaded collection exactly when it is shaded, and the
    shaded length is the total length of the shaded surfaces. *)
Theorem C66_separated : forall g, lived g ->
  (forall s, In s (sg_surfaces g) -> (su_shaded s = true <-> In s (sc_surfaces (sg_shaded g)))) /\
  (forall s, In s (sg_surfaces g) -> (su_shaded s = false <-> In s (sc_surfaces (sg_illum g)))) /\
  sg_shaded_length g = py_sum (map (fun s => seg_length (su_line s)) (filter su_shaded (sg_surfaces g))) /\
  sg_length g = py_sum (map (fun s => seg_length (su_line s)) (sg_surfaces g)) /\
  sg_n_surfaces g = List.length (sg_surfaces g).
Proof.
  intros g L. destruct (lived_separated g L) as (A & B & C & D). unfold sg_surfaces.
  assert (LE : forall l, map su_length l = map (fun s => seg_length (su_line s)) l).
  { intro l. apply map_ext. intro s. unfold su_length. apply length_seg. }
  split; [|split; [|split; [|split]]].
  - intros s I. apply in_app_iff in I. split; [|apply B]. intro H. destruct I as [I|I]; [|exact I]. rewrite (A s I) in H. discriminate.
  - intros s I. apply in_app_iff in I. split; [|apply A]. intro H. destruct I as [I|I]; [exact I|]. rewrite (B s I) in H. discriminate.
  - unfold sg_shaded_length, sc_length. rewrite LE, filter_app.
    assert (F1 : filter su_shaded (sc_surfaces (sg_illum g)) = []).
    { unfold all_are in A. induction (sc_surfaces (sg_illum g)) as [|s l IH]; [reflexivity|]. cbn [filter]. rewrite (A s (or_introl eq_refl)).
      apply IH. intros z I. apply A. right. exact I. }
    assert (F2 : filter su_shaded (sc_surfaces (sg_shaded g)) = sc_surfaces (sg_shaded g)).
    { unfold all_are in B. induction (sc_surfaces (sg_shaded g)) as [|s l IH]; [reflexivity|]. cbn [filter]. rewrite (B s (or_introl eq_refl)).
      f_equal. apply IH. intros z I. apply B. right. exact I. }
    rewrite F1, F2. reflexivity.
  - unfold sg_length, sc_length. rewrite !LE, !py_sum_rsum, map_app, rsum_app. ring.
  - unfold sg_n_surfaces, sc_n_surfaces. rewrite app_length. reflexivity.
Qed.

(** What the setters accept, and what the deleters leave. *)
Theorem C66_setters : forall g l f n c, shade_collection l f n = Ok c ->
  ((exists s, In s l /\ su_shaded s = false) -> set_shaded g c = Err AssertionError) /\
  ((exists s, In s l /\ su_shaded s = true) -> set_illum g c = Err AssertionError) /\
  (forall g', set_shaded g c = Ok g' -> sc_surfaces (sg_shaded g') = l /\ sg_illum g' = sg_illum g) /\
  (forall g', set_illum g c = Ok g' -> sc_surfaces (sg_illum g') = l /\ sg_shaded g' = sg_shaded g) /\
  ((forall s, In s l -> su_shaded s = true) -> l <> [] -> exists g', set_shaded g c = Ok g') /\
  ((forall s, In s l -> su_shaded s = false) -> l <> [] -> exists g', set_illum g c = Ok g') /\
  sg_shaded_length (del_shaded g) = 0 /\ sg_illum (del_shaded g) = sg_illum g /\
  sc_length (sg_illum (del_illum g)) = 0 /\ sg_shaded (del_illum g) = sg_shaded g.
Proof.
  intros g l f n c E. destruct (shade_collection_all _ _ _ _ E) as [S1 S2]. unfold set_shaded, set_illum.
  split; [intros (s & I & H); rewrite (S2 s I), H; reflexivity|].
  split; [intros (s & I & H); rewrite (S2 s I), H; reflexivity|].
  split; [intros g' H; destruct (sc_shaded c) as [[|]|]; try discriminate; injection H as <-; split; [exact S1|reflexivity]|].
  split; [intros g' H; destruct (sc_shaded c) as [[|]|]; try discriminate; injection H as <-; (split; [exact S1|reflexivity])|].
  split; [intros H N; destruct l as [|s l]; [congruence|]; rewrite (S2 s (or_introl eq_refl)), (H s (or_introl eq_refl)); eauto|].
  split; [intros H N; destruct l as [|s l]; [congruence|]; rewrite (S2 s (or_introl eq_refl)), (H s (or_introl eq_refl)); eauto|].
  repeat split.
Qed.

(** Not so: the setters refuse what the constructor refuses. A collection in another direction
    is accepted. *)
Theorem C66_direction_refuted :
  let up := PVSurface (Line (Pt 1 0) (Pt 1 2)) (-1, 0) true None [] (fun _ => None) in
  exists il c g g', shade_collection [flat_surface 0 1 false] None [] = Ok il /\
    shade_collection [up] None [] = Ok c /\
    pvsegment_init il c = Err AssertionError /\
    pvsegment_init il (empty_collection true) = Ok g /\
    set_shaded g c = Ok g'.
Proof.
  eexists _, _, _, _. split; [reflexivity|]. split; [reflexivity|]. split; [|split; reflexivity].
  unfold pvsegment_init, segment_check, are_2d_vecs_collinear, sc_nvec, sc_is_empty, Rltb.
  cbn [sc_shaded sc_collinear sc_surfaces get_shading is_collinear surf_nvecs map all_along andb orb su_shaded su_nvec flat_surface bind fst snd].
  destruct (Rlt_dec _ _) as [H|H]; [|reflexivity]. exfalso. unfold TOL_COLLINEAR in H. unfold Rabs in H. destruct (Rcase_abs _); lra.
Qed.

(** Not so: a surface added to a collection has the shading of the collection. *)
Theorem C66_added_refuted :
  let c := add_pvsurface (ShadeColl [flat_surface 0 1 true] (Some true) true []) (flat_surface 1 2 false) in
  sc_shaded c = Some true /\ exists s, In s (sc_surfaces c) /\ su_shaded s = false.
Proof. split; [reflexivity|]. exists (flat_surface 1 2 false). split; [right; left; reflexivity|reflexivity]. Qed.

(** Two directions that the package takes for the same: their cross product is below 1e-5. *)
Definition same_direction (n n' : R * R) : Prop := Rabs (fst n * snd n' - snd n * fst n') < 1 / 100000.

(** Collections made from surfaces, then extended, cut and updated. *)
Inductive grown : shade_coll -> Prop :=
| GNew : forall l f n c, shade_collection l f n = Ok c -> grown c
| GAdd : forall c s, grown c -> grown (add_pvsurface c s)
| GLine : forall c l nv c', grown c -> add_linestring c l nv = Ok c' -> grown c'
| GCut : forall c p c', grown c -> sc_cut_at_point c p = Ok c' -> grown c'
| GUpdate : forall c d, grown c -> grown (sc_update c d).

Definition lined (l : list (R * R)) : Prop :=
  match l with [] => True | n :: _ => forall n', In n' l -> same_direction n n' end.

Lemma same_direction_refl : forall n, same_direction n n.
Proof. intro n. unfold same_direction. replace (fst n * snd n - snd n * fst n) with 0 by ring. rewrite Rabs_R0. lra. Qed.

Lemma is_collinear_lined : forall l, is_collinear (surf_nvecs l) = true <-> lined (map su_nvec l).
Proof.
  assert (A : forall u l, all_along (- snd u, fst u) (surf_nvecs l) = true <-> forall n, In n (map su_nvec l) -> same_direction u n).
  { intros u. induction l as [|s l IH]; cbn [surf_nvecs map all_along fst snd In]; [split; [intros _ n []|reflexivity]|].
    replace (Rabs (- snd u * fst (su_nvec s) + fst u * snd (su_nvec s))) with (Rabs (fst u * snd (su_nvec s) - snd u * fst (su_nvec s)))
      by (f_equal; ring).
    destruct (Rltb_spec (Rabs (fst u * snd (su_nvec s) - snd u * fst (su_nvec s))) TOL_COLLINEAR) as [H|H]; unfold TOL_COLLINEAR in H.
    - rewrite IH. split; [intros B n [<-|I]; [unfold same_direction; lra|exact (B n I)] | intros B n I; apply B; right; exact I].
    - split; [discriminate|]. intro B. exfalso. specialize (B _ (or_introl eq_refl)). unfold same_direction in B. lra. }
  intros [|s l]; cbn [surf_nvecs map is_collinear lined]; [tauto|]. rewrite A. split.
  - intros H n [<-|I]; [apply same_direction_refl | exact (H n I)].
  - intros H n I. apply H. right. exact I.
Qed.

Lemma cut_loop_nvecs : forall p l l' s2, cut_loop l p = Ok (Some (l', s2)) ->
  map su_nvec l' = map su_nvec l /\ In (su_nvec s2) (map su_nvec l).
Proof.
  intros p. induction l as [|s l IH]; intros l' s2 E; [discriminate|]. cbn [cut_loop] in E.
  assert (NX : forall l' s2, (do x <- cut_loop l p; Ok (match x with Some (r', s2) => Some (s :: r', s2) | None => None end)) = Ok (Some (l', s2)) ->
               map su_nvec l' = map su_nvec (s :: l) /\ In (su_nvec s2) (map su_nvec (s :: l))).
  { intros m t X. destruct (cut_loop l p) as [[[r' t']|]|]; cbn [bind] in X; try discriminate. injection X as <- <-.
    destruct (IH r' t' eq_refl) as [A B]. cbn [map]. rewrite A. split; [reflexivity|right; exact B]. }
  destruct (contains (su_line s) p); [|exact (NX _ _ E)].
  destruct (boundary (su_line s)) as [[e1 e2]|]; [|discriminate]. cbn [bind] in E.
  destruct (_ && _); [|exact (NX _ _ E)]. cbn [pvsurface_init bind] in E. injection E as <- <-.
  cbn [map su_nvec]. split; [reflexivity|left; reflexivity].
Qed.

(** The normal vector of such a collection is that of its first surface, when all surfaces
    have its direction; asking for it is an error otherwise. *)
Theorem C66_direction : forall c, grown c ->
  match sc_surfaces c with
  | [] => sc_nvec c = Ok None
  | s :: _ =>
      ((forall s', In s' (sc_surfaces c) -> same_direction (su_nvec s) (su_nvec s')) ->
         sc_nvec c = Ok (Some (su_nvec s))) /\
      ((exists s', In s' (sc_surfaces c) /\ ~ same_direction (su_nvec s) (su_nvec s')) ->
         sc_nvec c = Err PVFactorsError)
  end.
Proof.
  intros c G.
  assert (H : sc_collinear c = true <-> lined (map su_nvec (sc_surfaces c))).
  { assert (AD : forall c s, sc_collinear (add_pvsurface c s) = true <-> lined (map su_nvec (sc_surfaces (add_pvsurface c s)))).
    { intros. apply is_collinear_lined. }
    induction G as [l f n c E|c s G IH|c l nv c' G IH E|c p c' G IH E|c d G IH].
    - unfold shade_collection in E. destruct (check_uniform_shading l); [|discriminate]. injection E as <-. apply is_collinear_lined.
    - apply AD.
    - unfold add_linestring in E. destruct (match nv with Some n => Ok (Some n) | None => sc_nvec c end) as [n|]; [|discriminate]. cbn [bind] in E.
      destruct (sc_shaded c) as [b|]; [|discriminate].
      destruct (pvsurface_init l n b None (sc_names c) None) as [s|]; [|discriminate]. cbn [bind] in E. injection E as <-. apply AD.
    - unfold sc_cut_at_point in E. destruct (cut_loop (sc_surfaces c) p) as [[[l s2]|]|] eqn:C; cbn [bind] in E; try discriminate;
        injection E as <-; [|exact IH].
      cbn [sc_collinear sc_surfaces]. destruct (cut_loop_nvecs _ _ _ _ C) as [A B]. rewrite map_app, A. cbn [map]. rewrite IH.
      destruct (map su_nvec (sc_surfaces c)) as [|n r]; [destruct B|]. cbn [app lined]. split.
      + intros K n' [<-|I]; [apply same_direction_refl|]. apply in_app_iff in I. destruct I as [I|[<-|[]]]; apply K; [right; exact I|exact B].
      + intros K n' I. apply K. destruct I as [<-|I]; [left; reflexivity|right; apply in_app_iff; left; exact I].
    - cbn [sc_update sc_collinear sc_surfaces]. rewrite map_map. rewrite IH. 
      replace (map (fun x => su_nvec (su_update x d)) (sc_surfaces c)) with (map su_nvec (sc_surfaces c)); [tauto|].
      apply map_ext. intro x. reflexivity. }
  unfold sc_nvec. destruct (sc_surfaces c) as [|s l] eqn:E.
  - cbn in H. rewrite (proj2 H Logic.I). reflexivity.
  - split.
    + intro K. rewrite (proj2 H); [reflexivity|]. intros n' I. apply in_map_iff in I. destruct I as (s' & <- & I). apply K; exact I.
    + intros (s' & I & N). destruct (sc_collinear c); [|reflexivity]. exfalso. apply N.
      apply (proj1 H eq_refl). apply in_map. exact I.
Qed.

(** A segment is made from illuminated and shaded surfaces exactly when the illuminated ones
    have one direction, the shaded ones too, and the two directions are the same. *)
Theorem C66_straight : forall li ni ls nss il sh,
  shade_collection li (Some false) ni = Ok il -> shade_collection ls (Some true) nss = Ok sh ->
  (forall s, In s li -> su_shaded s = false) -> (forall s, In s ls -> su_shaded s = true) ->
  let straight := lined (map su_nvec li) /\ lined (map su_nvec ls) /\
    (forall s s', hd_error li = Some s -> hd_error ls = Some s' -> same_direction (su_nvec s) (su_nvec s')) in
  (straight -> pvsegment_init il sh = Ok (PVSegment il sh None)) /\
  (~ straight -> pvsegment_init il sh = Err AssertionError).
Proof.
  intros li ni ls nss il sh Ei Es Hi Hs straight.
  assert (G : forall l b n c, shade_collection l (Some b) n = Ok c -> (forall s, In s l -> su_shaded s = b) ->
     sc_surfaces c = l /\ sc_shaded c = Some b /\ (sc_collinear c = true <-> lined (map su_nvec l))).
  { intros l b n c E H. unfold shade_collection in E. destruct (check_uniform_shading l); [|discriminate]. cbn [bind] in E. injection E as <-.
    cbn [sc_surfaces sc_shaded sc_collinear]. split; [reflexivity|]. split; [|apply is_collinear_lined].
    destruct l as [|s l]; [reflexivity|]. cbn [get_shading]. rewrite (H s (or_introl eq_refl)). reflexivity. }
  destruct (G _ _ _ _ Ei Hi) as (I1 & I2 & I3). destruct (G _ _ _ _ Es Hs) as (S1 & S2 & S3). clear G.
  unfold pvsegment_init. rewrite I2, S2. unfold segment_check, sc_is_empty, sc_nvec. rewrite I1, S1.
  assert (D : forall n n', are_2d_vecs_collinear n n' = true <-> same_direction n n').
  { intros n n'. unfold are_2d_vecs_collinear, same_direction. rewrite Rltb_true. 
    replace (- snd n * fst n' + fst n * snd n') with (fst n * snd n' - snd n * fst n') by ring. unfold TOL_COLLINEAR. split; intro; lra. }
  destruct (sc_collinear il) eqn:Ci, (sc_collinear sh) eqn:Cs; cbn [andb bind].
  - pose proof (proj1 I3 eq_refl) as L1. pose proof (proj1 S3 eq_refl) as L2.
    destruct li as [|s li]; [split; [reflexivity | intro N; exfalso; apply N; split; [exact L1 | split; [exact L2 | discriminate]]]|].
    destruct ls as [|s' ls]; [cbn [orb bind]; split; [reflexivity | intro N; exfalso; apply N; split; [exact L1 | split; [exact L2 | discriminate]]]|].
    cbn [orb bind]. destruct (are_2d_vecs_collinear (su_nvec s) (su_nvec s')) eqn:E; cbn [bind].
    + split; [reflexivity|]. intro N. exfalso. apply N. split; [exact L1|]. split; [exact L2|].
      intros u u' U U'. injection U as <-. injection U' as <-. apply D. exact E.
    + split; [|reflexivity]. intros (_ & _ & H). specialize (H s s' eq_refl eq_refl). apply D in H. congruence.
  - split; [|reflexivity]. intros (_ & H & _). apply S3 in H. discriminate.
  - split; [|reflexivity]. intros (H & _ & _). apply I3 in H. discriminate.
  - split; [|reflexivity]. intros (H & _ & _). apply I3 in H. discriminate.
Qed.

(** Not so after [merge_surfaces]: a single surface is left, and asking for its direction is
    still an error. *)
Theorem C66_direction_merged_refuted :
  let up := PVSurface (Line (Pt 1 0) (Pt 1 2)) (-1, 0) true None [] (fun _ => None) in
  exists c c' s, grown c /\ merge_surfaces c = Ok c' /\ sc_surfaces c' = [s] /\ sc_nvec c' = Err PVFactorsError.
Proof.
  set (up := PVSurface (Line (Pt 1 0) (Pt 1 2)) (-1, 0) true None [] (fun _ => None)). cbv zeta.
  exists (ShadeColl [flat_surface 0 1 true; up] (Some true) false []).
  assert (K : is_collinear (surf_nvecs [flat_surface 0 1 true; up]) = false).
  { apply not_true_is_false. rewrite is_collinear_lined. cbn [map lined]. intro H.
    specialize (H (-1, 0) (or_intror (or_introl eq_refl))). unfold same_direction, flat_surface in H. cbn [su_nvec fst snd] in H.
    unfold Rabs in H. destruct (Rcase_abs _); lra. }
  eexists _, _. split.
  - apply (GNew [flat_surface 0 1 true; up] None []). unfold shade_collection.
    change (check_uniform_shading [flat_surface 0 1 true; up]) with (@Ok unit tt). cbn [bind]. rewrite K. reflexivity.
  - unfold merge_surfaces. cbn [sc_surfaces sc_shaded pvsurface_init bind]. split; [reflexivity|]. split; reflexivity.
Qed.

Example C66_case : exists il g, shade_collection [flat_surface 0 4 false] None [] = Ok il /\
  pvsegment_init il (empty_collection true) = Ok g /\ lived g /\ lived (del_illum g) /\
  sg_length (del_illum g) = 0 /\ sg_length g = 4.
Proof.
  eexists _, _. split; [reflexivity|]. split; [reflexivity|].
  assert (LV : lived (PVSegment (ShadeColl [flat_surface 0 4 false] (Some false) true []) (empty_collection true) None)).
  { eapply (Built [flat_surface 0 4 false] None [] _ [] (Some true) [] (empty_collection true)); reflexivity. }
  split; [exact LV|]. split; [exact (Changed _ _ LV (DelIllum _))|].
  unfold sg_length, sc_length, del_illum. cbn [sg_shaded sg_illum sc_surfaces empty_collection map]. rewrite !py_sum_rsum. cbn [rsum fold_right].
  split; [lra|]. unfold su_length, flat_surface. cbn [su_line]. rewrite !flat_as_along, (length_along 0 0 1 0) by lra.
  rewrite Rabs_left by lra. lra.
Qed.

(** Two illuminated surfaces and a shaded one on a line, and a shaded collection with a corner. *)
Example C66_straight_case :
  let up := PVSurface (Line (Pt 3 0) (Pt 3 2)) (-1, 0) true None [] (fun _ => None) in
  let li := [flat_surface 0 1 false; flat_surface 1 2 false] in
  let straight ls := lined (map su_nvec li) /\ lined (map su_nvec ls) /\
    (forall s s', hd_error li = Some s -> hd_error ls = Some s' -> same_direction (su_nvec s) (su_nvec s')) in
  straight [flat_surface 2 3 true] /\ ~ straight [flat_surface 2 3 true; up].
Proof.
  cbv zeta. split.
  - cbn [map lined hd_error flat_surface su_nvec]. split; [|split].
    + intros n [<-|[<-|[]]]; apply same_direction_refl.
    + intros n [<-|[]]; apply same_direction_refl.
    + intros s s' E E'. injection E as <-. injection E' as <-. apply same_direction_refl.
  - intros (_ & H & _). cbn [map lined] in H. specialize (H (-1, 0) (or_intror (or_introl eq_refl))).
    unfold same_direction, flat_surface in H. cbn [su_nvec fst snd] in H. unfold Rabs in H. destruct (Rcase_abs _); lra.
Qed.

Example C66_direction_case : exists c, grown c /\ List.length (sc_surfaces c) = 3%nat /\
  exists s, hd_error (sc_surfaces c) = Some s /\ sc_nvec c = Ok (Some (su_nvec s)).
Proof.
  assert (G : grown (add_pvsurface (ShadeColl [flat_surface 0 1 true; flat_surface 1 2 true] (Some true)
                (is_collinear (surf_nvecs [flat_surface 0 1 true; flat_surface 1 2 true])) []) (flat_surface 2 3 true))).
  { apply GAdd. apply (GNew [flat_surface 0 1 true; flat_surface 1 2 true] None []). reflexivity. }
  eexists. split; [exact G|]. split; [reflexivity|]. exists (flat_surface 0 1 true). split; [reflexivity|].
  apply (C66_direction _ G). intros s' [<-|[<-|[<-|[]]]]; apply same_direction_refl.
Qed.

Print Assumptions C65_given.
Print Assumptions C65_average.
Print Assumptions C65_no_value.
Print Assumptions C66_separated.
Print Assumptions C66_setters.
Print Assumptions C66_direction_refuted.
Print Assumptions C66_added_refuted.
Print Assumptions C66_direction.
Print Assumptions C66_straight.
Print Assumptions C66_direction_merged_refuted.
