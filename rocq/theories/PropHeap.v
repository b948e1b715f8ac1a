(** Objects in memory: segments made by the library share nothing, so each behaves as a
    value of its own; what is shared by default arguments and by lists (C79). *)
From Coq Require Import Reals List Bool Arith String Lra Lia.
From Verif Require Import Num ModelTs ModelGeom ModelVF ModelParams ModelShapely ModelShadow ModelHeap
  Basics SpecGeom SpecShapely SpecShadow SpecHeap ProofShapely ProofShadow ProofHeap PropShapely PropShadow PropSide.
Import ListNotations.
Open Scope R_scope.
Open Scope list_scope.

(* ------------------------------------------------------------------ programs *)

Lemma some_eq : forall A (x y : A), Some x = Some y -> x = y.
Proof. intros A x y H. injection H. auto. Qed.

(** After any program that makes segments from coordinates and calls their methods, on one
    segment or on all those of a side, each segment is what it would be on its own, calls
    that raise included. No two segments have anything in common. The lengths and numbers of
    surfaces that the collections report are those of their surfaces. *)
Theorem C79_isolated : forall cs segs h, run_program cs loaded = (segs, h) ->
  map (value_of h) segs = values_of_program cs /\
  (forall i j s s', i <> j -> nth_error segs i = Some s -> nth_error segs j = Some s' -> apart (owned h s) (owned h s')) /\
  (forall s, In s segs ->
     hsg_shaded_length h s = sg_shaded_length (seg_view h s) /\
     hsc_length h (so_illum (h_segs h s)) = sc_length (sg_illum (seg_view h s)) /\
     hsg_n_surfaces h s = sg_n_surfaces (seg_view h s)).
Proof.
  intros cs segs h E. destruct (program_good cs) as (OK & AP & VS & _). rewrite E in *. cbn [fst snd] in *.
  split; [exact VS|]. split; [exact AP|]. intros s Is. destruct (OK s Is) as (OC & OD & _).
  assert (L : forall c, coll_ok h c -> hsc_length h c = sc_length (coll_view h c)).
  { intros c (_ & _ & G). unfold hsc_length, lines_length, sc_length. rewrite G. unfold coll_view. cbn [sc_surfaces].
    rewrite map_map. reflexivity. }
  split; [apply L, OD|]. split; [apply L, OC | reflexivity].
Qed.

(** One call of a method, after any program: it returns or raises what it does on the
    value; nothing that existed and is not part of the segment changes; nothing at all is
    seen to change when it raises. *)
Theorem C79_method : forall cs segs h k s o, run_program cs loaded = (segs, h) -> nth_error segs k = Some s ->
  (forall v, op_value o (value_of h s) = Ok v ->
     fst (do_op o s h) = Ok tt /\ value_of (snd (do_op o s h)) s = v) /\
  (forall e, op_value o (value_of h s) = Err e ->
     fst (do_op o s h) = Err e /\ forall s', In s' segs -> value_of (snd (do_op o s h)) s' = value_of h s') /\
  (forall x, (x < h_next h)%nat -> ~ In x (owned h s) -> same_at h (snd (do_op o s h)) x) /\
  (forall s', In s' segs -> s' <> s -> value_of (snd (do_op o s h)) s' = value_of h s').
Proof.
  intros cs segs h k s o E Hk. pose proof (program_good cs) as G. rewrite E in G. cbn [fst snd] in G.
  pose proof G as (OK & AP & VS & _). assert (Is : In s segs) by (eapply nth_error_In; exact Hk).
  destruct (op_does o s h (OK s Is)) as (OK' & FR & GR & R).
  assert (OTH : forall s', In s' segs -> s' <> s -> value_of (snd (do_op o s h)) s' = value_of h s').
  { intros s' I' D. destruct (In_nth_error _ _ I') as (j & Ej).
    apply (seg_apart h (snd (do_op o s h)) (owned h s) s' (OK s' I') FR). apply (AP k j s s'); [|exact Hk | exact Ej].
    intros <-. congruence. }
  split; [intros v Ev; rewrite Ev in R; exact R|].
  split. { intros e Ee. rewrite Ee in R. destruct R as (R1 & R2). split; [exact R1|]. intros s' I'.
    destruct (Nat.eq_dec s' s) as [->|D]; [exact R2 | apply OTH; assumption]. }
  split; [exact (proj2 FR) | exact OTH].
Qed.

(** A call on all the segments of a side stops at the first that raises: the segments before
    it have changed, it and those after it have not. *)
Theorem C79_side : forall cs segs h ks o r h', run_program cs loaded = (segs, h) -> NoDup ks ->
  (forall k, In k ks -> (k < List.length segs)%nat) ->
  side_op o (map (fun k => nth k segs 0%nat) ks) h = (r, h') ->
  exists done rest, ks = done ++ rest /\
  (forall k, In k done -> op_value o (value_of h (nth k segs 0%nat)) = Ok (value_of h' (nth k segs 0%nat))) /\
  (forall k, (k < List.length segs)%nat -> ~ In k done -> value_of h' (nth k segs 0%nat) = value_of h (nth k segs 0%nat)) /\
  match r with
  | Ok _ => rest = []
  | Err e => exists k rest', rest = k :: rest' /\ op_value o (value_of h (nth k segs 0%nat)) = Err e
  end.
Proof.
  intros cs segs h ks o r h' E ND LT. rewrite side_op_each. pose proof (program_good cs) as G. rewrite E in G. cbn [fst snd] in G.
  remember (values_of_program cs) as vs eqn:Evs. clear Evs E cs. revert h vs G r h'. induction ks as [|k ks IH]; intros h vs G r h' E.
  - inversion E; subst. exists [], []. split; [reflexivity|]. split; [intros k []|]. split; reflexivity.
  - assert (Lk : (k < List.length segs)%nat) by (apply LT; left; reflexivity).
    assert (Hk : nth_error segs k = Some (nth k segs 0%nat)) by (apply nth_error_nth', Lk).
    apply NoDup_cons_iff in ND. destruct ND as (Nk & ND).
    destruct (step_op o h segs vs k _ G Hk) as (v & Ev & R).
    assert (Av : v = value_of h (nth k segs 0%nat)).
    { destruct G as (_ & _ & VS & _). rewrite <- VS, nth_error_map, Hk in Ev. symmetry. apply some_eq, Ev. }
    assert (OLD : forall j h1 vs1, good h1 segs vs1 -> nth_error vs1 j = nth_error vs j -> (j < List.length segs)%nat ->
      value_of h1 (nth j segs 0%nat) = value_of h (nth j segs 0%nat)).
    { intros j h1 vs1 (_ & _ & V1 & _) X Lj. destruct G as (_ & _ & V0 & _). rewrite <- V1, <- V0, !nth_error_map in X.
      rewrite (nth_error_nth' segs 0%nat Lj) in X. apply some_eq, X. }
    cbn [map on_segments] in E. unfold mbind in E. destruct (do_op o (nth k segs 0%nat) h) as [r1 h1] eqn:Ed. cbn [fst snd] in R.
    subst v. destruct (op_value o (value_of h (nth k segs 0%nat))) as [v'|e] eqn:Eo; destruct R as (-> & G1).
    + assert (Lv : (k < List.length vs)%nat) by (apply nth_error_Some; congruence).
      destruct (IH ND ltac:(intros; apply LT; right; assumption) h1 _ G1 r h' E) as (done & rest & S1 & S2 & S3 & S4).
      assert (O1 : forall j, j <> k -> (j < List.length segs)%nat -> value_of h1 (nth j segs 0%nat) = value_of h (nth j segs 0%nat)).
      { intros j D Lj. apply (OLD j h1 _ G1); [|exact Lj]. rewrite nth_replace by exact Lv.
        apply Nat.eqb_neq in D. rewrite D. reflexivity. }
      assert (V1 : value_of h1 (nth k segs 0%nat) = v').
      { destruct G1 as (_ & _ & V1 & _). pose proof (nth_replace _ k v' vs k Lv) as X. rewrite Nat.eqb_refl in X.
        rewrite <- V1, nth_error_map, Hk in X. apply some_eq, X. }
      assert (Nd : ~ In k done) by (intro X; apply Nk; rewrite S1; apply in_or_app; left; exact X).
      exists (k :: done), rest. split; [rewrite S1; reflexivity|]. split; [|split].
      * intros j [<-|X]; [rewrite Eo, (S3 k Lk Nd), V1; reflexivity|]. rewrite <- (S2 j X). rewrite O1; [reflexivity | intros ->; tauto|].
        apply LT. right. rewrite S1. apply in_or_app. left. exact X.
      * intros j Lj X. rewrite S3 by (try exact Lj; intro Y; apply X; right; exact Y). apply O1; [|exact Lj]. intros ->. apply X. left. reflexivity.
      * destruct r as [u|e]; [exact S4|]. destruct S4 as (j & rest' & -> & Ej). exists j, rest'. split; [reflexivity|].
        rewrite O1 in Ej; [exact Ej | |].
        -- intros ->. apply Nk. rewrite S1. apply in_or_app. right. left. reflexivity.
        -- apply LT. right. rewrite S1. apply in_or_app. right. left. reflexivity.
    + inversion E; subst r h'. exists [], (k :: ks). split; [reflexivity|]. split; [intros j []|].
      split; [|exists k, ks; split; [reflexivity | exact Eo]].
      intros j Lj _. apply (OLD j h1 vs G1); [reflexivity | exact Lj].
Qed.

(** The defaults of [PVSegment] are never touched by such a program: [PVSegment()] is empty
    at any time. *)
Theorem C79_defaults : forall cs segs h, run_program cs loaded = (segs, h) ->
  exists s h', hsg_init None None h = (Ok s, h') /\ hsg_length h' s = 0 /\ hsg_n_surfaces h' s = 0%nat /\ ~ In s segs.
Proof.
  intros cs segs h E. pose proof (program_good cs) as G. rewrite E in G. cbn [fst snd] in G.
  destruct G as (OK & _ & _ & _ & N4 & IT).
  destruct (IT 0%nat ltac:(lia)) as (_ & _ & C0 & _). destruct (IT 1%nat ltac:(lia)) as (_ & _ & C1 & _).
  destruct (IT 2%nat ltac:(lia)) as (_ & L2 & _). destruct (IT 3%nat ltac:(lia)) as (_ & L3 & _). cbn in C0, C1, L2, L3.
  unfold hsg_init. rewrite !bind_view, bind_lift. unfold coll_view, list_surfaces, default_illum, default_shaded. rewrite C0, C1. cbn [co_list].
  rewrite L2, L3. cbn [map co_shaded co_collinear co_names pvsegment_init sc_shaded segment_check sc_collinear andb sc_is_empty sc_surfaces orb bind].
  eexists _, _. split; [reflexivity|]. unfold both_geoms. rewrite C0, C1. split; [|split].
  - unfold hsg_length. cbn [h_segs]. rewrite put_same. reflexivity.
  - unfold hsg_n_surfaces, list_surfaces. cbn [h_segs h_colls h_lists h_surfs]. rewrite put_same. cbn [so_illum so_shaded].
    rewrite C0, C1. cbn [co_list]. rewrite L2, L3. reflexivity.
  - intro X. apply OK in X. destruct X as (_ & _ & _ & _ & _ & X). lia.
Qed.

(** The geometry of the segment itself: without merges and cuts, its length is that of its
    surfaces. *)
Definition keeps_length (o : seg_op) : Prop := match o with Cut _ | MergeShaded => False | _ => True end.
Definition keeps_lengths (c : call) : Prop := match c with New _ _ _ _ => True | On _ o | OnSide _ o => keeps_length o end.

Lemma fresh_op : forall o v v', keeps_length o -> sv_geom v = lines_of (sv_seg v) -> op_value o v = Ok v' ->
  sv_geom v' = lines_of (sv_seg v').
Proof.
  intros o [s g] v' K F E. cbn [sv_geom sv_seg] in F. destruct o as [l|p| |d| | |l b n names|l b n names]; cbn in K; try contradiction; cbn [op_value sv_seg sv_geom] in E.
  - unfold sg_cast_shadow in E. destruct (buffer_intersection _ l); cbn [bind] in E; try discriminate.
    + inversion E. exact F.
    + destruct (sg_nvec s); cbn [bind] in E; [|discriminate]. destruct (add_linestring _ _ _); cbn [bind] in E; [|discriminate].
      inversion E. reflexivity.
  - inversion E. cbn [sv_geom sv_seg]. rewrite F. unfold lines_of, sg_update, sc_update. cbn [sg_shaded sg_illum sc_surfaces].
    rewrite !map_map. reflexivity.
  - inversion E. reflexivity.
  - inversion E. reflexivity.
  - destruct (sc_from_coords _ _ _ _); cbn [bind] in E; [|discriminate]. destruct (set_shaded _ _); cbn [bind] in E; [|discriminate]. inversion E. reflexivity.
  - destruct (sc_from_coords _ _ _ _); cbn [bind] in E; [|discriminate]. destruct (set_illum _ _); cbn [bind] in E; [|discriminate]. inversion E. reflexivity.
Qed.
Definition fresh (vs : list seg_value) : Prop := forall k v, nth_error vs k = Some v -> sv_geom v = lines_of (sv_seg v).
Lemma fresh_ops : forall o ks vs, keeps_length o -> fresh vs -> fresh (on_values o ks vs).
Proof.
  intros o. induction ks as [|k ks IH]; intros vs K F; [exact F|]. cbn [on_values].
  destruct (nth_error vs k) as [v|] eqn:Ek; [|apply IH; assumption]. destruct (op_value o v) as [v'|e] eqn:Eo; [|exact F].
  apply IH; [exact K|]. intros j w Ej. rewrite nth_replace in Ej by (apply nth_error_Some; congruence).
  destruct (Nat.eqb j k); [|exact (F j w Ej)]. inversion Ej; subst w. exact (fresh_op o v v' K (F k v Ek) Eo).
Qed.

Theorem C79_length : forall cs segs h s, Forall keeps_lengths cs -> run_program cs loaded = (segs, h) -> In s segs ->
  hsg_length h s = sg_length (seg_view h s).
Proof.
  intros cs segs h s K E Is. destruct (C79_isolated cs segs h E) as (VS & _ & _).
  assert (F : fresh (values_of_program cs)).
  { unfold values_of_program.
    enough (X : forall cs vs, Forall keeps_lengths cs -> fresh vs -> fresh (fold_left (fun vs c => step_value c vs) cs vs)).
    { apply X; [exact K|]. intros [|k] v; discriminate. }
    clear. induction cs as [|c cs IH]; intros vs K F; [exact F|]. inversion K; subst. cbn [fold_left]. apply IH; [assumption|].
    destruct c as [l b n names|k o|ks o]; cbn [step_value].
    - destruct (sg_from_coords l b n names) as [v|e]; [|exact F]. intros j w Ej.
      destruct (Nat.lt_ge_cases j (List.length vs)) as [L|L].
      + rewrite nth_error_app1 in Ej by exact L. exact (F j w Ej).
      + rewrite nth_error_app2 in Ej by exact L. destruct (j - List.length vs)%nat as [|q]; cbn in Ej; [inversion Ej; reflexivity | destruct q; discriminate].
    - apply fresh_ops; assumption.
    - apply fresh_ops; assumption. }
  destruct (In_nth_error _ _ Is) as (k & Ek). specialize (F k (value_of h s)). rewrite <- VS in F.
  rewrite nth_error_map, Ek in F. specialize (F eq_refl). cbn [value_of sv_geom sv_seg] in F.
  unfold hsg_length, lines_length, sg_length, sc_length. rewrite F. unfold lines_of. rewrite map_app, !py_sum_rsum, rsum_app, !map_map. reflexivity.
Qed.

(** Then a cut in memory is the cut of C42. *)
Theorem C79_cut : forall v p, sv_geom v = lines_of (sv_seg v) -> sg_cache (sv_seg v) = None ->
  op_value (Cut p) v = do s <- sg_cut_at_point (sv_seg v) p; Ok (SegValue s (sv_geom v)).
Proof.
  intros [[il sh ca] g] p F C. cbn [sv_geom sv_seg sg_cache] in *. subst g ca. cbn [op_value sv_geom sv_seg sg_illum sg_shaded].
  unfold sg_cut_at_point. cbn [sg_illum sg_shaded sg_cache]. unfold sg_surfaces. cbn [sg_illum sg_shaded].
  assert (G : geom_contains (lines_of (PVSegment il sh None)) p = contains_any (sc_surfaces il ++ sc_surfaces sh) p).
  { unfold lines_of. cbn [sg_shaded sg_illum]. rewrite <- map_app, geom_contains_any. unfold contains_any.
    destruct (sc_surfaces il) as [|a l]; destruct (sc_surfaces sh) as [|b l']; cbn [app]; rewrite ?app_nil_r; try reflexivity.
    cbn [existsb]. rewrite !existsb_app. cbn [existsb].
    destruct (contains (su_line a) p), (contains (su_line b) p), (existsb (fun s => contains (su_line s) p) l),
      (existsb (fun s => contains (su_line s) p) l'); reflexivity. }
  rewrite G. destruct (contains_any (sc_surfaces il ++ sc_surfaces sh) p); [|reflexivity].
  destruct (contains_any (sc_surfaces il) p).
  - destruct (sc_cut_at_point il p); reflexivity.
  - destruct (sc_cut_at_point sh p); reflexivity.
Qed.

(* --------------------------------------------------------- what is shared, what is stale *)

(** Two surfaces of a flat row, as made by [from_linestring_coords]. *)
Definition flat (a b : R) : line := Line (Pt a 0) (Pt b 0).
Definition flat_coll (a b : R) (sh : bool) : M nat := hsc_from_coords (flat a b) sh (Some (0, 1)) [].

(** Two segments that are given an illuminated collection each, and the default for the
    other; a shadow is cast on the first; then an empty segment is made. *)
Definition sharing : M (nat * nat * nat) :=
  do! c1 <- flat_coll 0 10 false;
  do! s1 <- hsg_init (Some c1) None;
  do! c2 <- flat_coll 20 30 false;
  do! s2 <- hsg_init (Some c2) None;
  do! _ <- hsg_cast_shadow s1 (flat 3 7);
  do! s3 <- hsg_init None None;
  ret (s1, s2, s3).

Lemma flat_length : forall a b, a <= b -> line_length (flat a b) = b - a.
Proof.
  intros a b L. unfold flat. rewrite !flat_as_along, (length_along 0 0 1 0) by lra.
  rewrite Rabs_left1 by lra. ring.
Qed.
Lemma cast_inside : forall a b p q v, map su_line (sc_surfaces (sg_illum v)) = [flat a b] -> a < b -> p < q -> a <= p -> q <= b ->
  sc_collinear (sg_illum v) = true -> sc_shaded (sg_shaded v) = Some true ->
  exists v' new, sg_cast_shadow v (flat p q) = Ok v' /\ sc_surfaces (sg_shaded v') = sc_surfaces (sg_shaded v) ++ [new] /\
    su_line new = flat p q /\ sc_length (sg_illum v') = sc_length (sg_illum v) - (q - p) /\
    buffer_intersection (map su_line (sc_surfaces (sg_illum v))) (flat p q) = GLine (flat p q).
Proof.
  intros a b p q v E AB PQ AP QB C S.
  destruct (C67_inside 0 0 1 0 a b p q v) as (v' & new & H1 & H2 & H3 & H4 & H5 & _); try lra; try assumption.
  { rewrite E. cbn [lines_at map fst snd]. unfold flat. rewrite !flat_as_along. reflexivity. }
  { unfold between. rmm; lra. } { unfold between. rmm; lra. }
  rewrite <- !flat_as_along in H1, H3. fold (flat p q) in H1, H3.
  exists v', new. split; [exact H1|]. split; [exact H2|]. split; [exact H3|].
  rewrite (Rabs_right (q - p)) in H5 by lra. split; [exact H5|].
  unfold sg_cast_shadow in H1. destruct (buffer_intersection (map su_line (sc_surfaces (sg_illum v))) (flat p q)) as [|z|i|zs]; try discriminate.
  - inversion H1. subst v'. apply (f_equal (@List.length _)) in H2. rewrite app_length in H2. cbn in H2. lia.
  - destruct (sg_nvec v) as [o|e]; cbn [bind] in H1; [|discriminate]. unfold add_linestring in H1. rewrite S in H1.
    destruct (match o with Some n => Ok (Some n) | None => sc_nvec (sg_shaded v) end) as [n|]; cbn [bind] in H1; [|discriminate].
    destruct (pvsurface_init i n true None (sc_names (sg_shaded v)) None) as [su|] eqn:Es; cbn [bind] in H1; [|discriminate].
    inversion H1; subst v'. cbn [sg_shaded add_pvsurface sc_surfaces] in H2. apply app_inv_head in H2. inversion H2; subst su.
    assert (X : su_line new = i) by (unfold pvsurface_init in Es; destruct (match n with Some _ => _ | None => _ end) in Es; cbn [bind] in Es; inversion Es; reflexivity).
    congruence.
Qed.

(** The memory after [flat_coll], and after a segment made of that collection and of the
    default. *)
Definition with_flat (a b : R) (sh : bool) (h : heap) : heap :=
  let n := h_next h in
  Heap (put (h_surfs h) n (flat_surface a b sh)) (put (h_lists h) (S n) [n])
    (put (h_colls h) (S (S n)) (CollObj (S n) (Some sh) true [] [flat a b])) (h_segs h) (S (S (S n))).
Lemma flat_coll_eq : forall a b sh h, flat_coll a b sh h = (Ok (S (S (h_next h))), with_flat a b sh h).
Proof.
  intros a b sh h. unfold flat_coll, hsc_from_coords, pvsurface_init. cbn [bind existsb]. rewrite bind_lift.
  unfold mbind at 1 2, new_surf, new_list. cbn [h_surfs h_lists h_colls h_segs h_next].
  unfold hsc_init. rewrite bind_list. cbn [h_lists]. rewrite put_same. cbn [map h_surfs]. rewrite put_same.
  reflexivity.
Qed.
Lemma init_flat : forall a b h, h_colls h default_shaded = CollObj 3 (Some true) true [] [] -> h_lists h 3%nat = [] ->
  (4 <= h_next h)%nat -> let h1 := with_flat a b false h in
  hsg_init (Some (S (S (h_next h)))) None h1 =
  (Ok (h_next h1), Heap (h_surfs h1) (h_lists h1) (h_colls h1)
     (put (h_segs h1) (h_next h1) (SegObj (S (S (h_next h))) default_shaded [flat a b])) (S (h_next h1))).
Proof.
  intros a b h C L N h1. unfold hsg_init. rewrite !bind_view, bind_lift.
  assert (E1 : h_colls h1 (S (S (h_next h))) = CollObj (S (h_next h)) (Some false) true [] [flat a b]) by (unfold h1, with_flat; cbn; apply put_same).
  assert (E2 : h_colls h1 default_shaded = CollObj 3 (Some true) true [] []).
  { unfold h1, with_flat. cbn [h_colls]. rewrite put_other by (unfold default_shaded; lia). exact C. }
  assert (E3 : h_lists h1 3%nat = []).
  { unfold h1, with_flat. cbn [h_lists]. rewrite put_other by lia. exact L. }
  assert (E4 : h_lists h1 (S (h_next h)) = [h_next h]) by (unfold h1, with_flat; cbn; apply put_same).
  unfold coll_view, list_surfaces. rewrite E1, E2. cbn [co_list co_shaded co_collinear co_names]. rewrite E3, E4. cbn [map].
  unfold pvsegment_init, segment_check. cbn [sc_shaded sc_collinear andb sc_is_empty sc_surfaces orb bind].
  unfold new_seg, both_geoms. rewrite E1, E2. reflexivity.
Qed.

(** Not so in general: a segment that is not touched keeps its shading. Segments made by
    [PVSegment(illum_collection=...)] share the default shaded collection, with each other
    and with every later segment: after a shadow on the first, 4 of the second are shaded
    (its own length still being 10), and [PVSegment()] has a length of 4. *)
Theorem C79_shared_refuted : exists s1 s2 s3 h, sharing loaded = (Ok (s1, s2, s3), h) /\
  hsg_shaded_length h s1 = 4 /\ hsg_shaded_length h s2 = 4 /\ hsg_length h s2 = 10 /\
  hsg_length h s3 = 4 /\ s1 <> s2 /\ s2 <> s3.
Proof.
  unfold sharing.
  set (m := fun f : nat * nat -> M (nat * nat * nat) => do! c1 <- flat_coll 0 10 false; do! s1 <- hsg_init (Some c1) None;
    do! c2 <- flat_coll 20 30 false; do! s2 <- hsg_init (Some c2) None; f (s1, s2)).
  change (exists s1 s2 s3 h, m (fun x => do! _ <- hsg_cast_shadow (fst x) (flat 3 7); do! s3 <- hsg_init None None; ret (fst x, snd x, s3)) loaded = (Ok (s1, s2, s3), h) /\
    hsg_shaded_length h s1 = 4 /\ hsg_shaded_length h s2 = 4 /\ hsg_length h s2 = 10 /\ hsg_length h s3 = 4 /\ s1 <> s2 /\ s2 <> s3).
  assert (B : exists h1, (forall f, m f loaded = f (7%nat, 11%nat) h1) /\ h_next h1 = 12%nat /\
    h_segs h1 7%nat = SegObj 6 1 [flat 0 10] /\ h_segs h1 11%nat = SegObj 10 1 [flat 20 30] /\
    h_colls h1 1%nat = CollObj 3 (Some true) true [] [] /\ h_colls h1 0%nat = CollObj 2 (Some false) true [] [] /\
    h_colls h1 6%nat = CollObj 5 (Some false) true [] [flat 0 10] /\
    h_lists h1 3%nat = [] /\ h_lists h1 2%nat = [] /\ h_lists h1 5%nat = [4%nat] /\
    su_line (h_surfs h1 4%nat) = flat 0 10).
  { unfold m. eexists. split.
    { intro f. rewrite (mbind_ok _ _ _ _ _ _ _ (flat_coll_eq 0 10 false loaded)).
      rewrite (mbind_ok _ _ _ _ _ _ _ (init_flat 0 10 loaded eq_refl eq_refl ltac:(cbn; lia))).
      rewrite (mbind_ok _ _ _ _ _ _ _ (flat_coll_eq 20 30 false _)).
      match goal with |- context [with_flat 20 30 false ?h] => rewrite (mbind_ok _ _ _ _ _ _ _ (init_flat 20 30 h eq_refl eq_refl ltac:(cbn; lia))) end.
      reflexivity. }
    cbn [h_next h_segs h_colls h_lists h_surfs with_flat loaded put Nat.eqb]. repeat split. }
  destruct B as (h1 & B & N & G7 & G11 & C1 & C0 & C6 & L3 & L2 & L5 & S4).
  assert (OW6 : owned_coll h1 6 = [6; 5; 4]%nat) by (unfold owned_coll; rewrite C6; cbn [co_list]; rewrite L5; reflexivity).
  assert (OW1 : owned_coll h1 1 = [1; 3]%nat) by (unfold owned_coll; rewrite C1; cbn [co_list]; rewrite L3; reflexivity).
  assert (OK : seg_ok h1 7).
  { unfold seg_ok. rewrite G7. cbn [so_illum so_shaded]. unfold two_colls, coll_ok. rewrite OW6, OW1, N.
    unfold list_surfaces. rewrite C6, C1. cbn [co_list co_geom]. rewrite L5, L3. cbn [map]. rewrite S4.
    assert (X : forall l : list nat, (if list_eq_dec Nat.eq_dec (nodup Nat.eq_dec l) l then True else False) -> NoDup l).
    { intros l Q. destruct (list_eq_dec Nat.eq_dec (nodup Nat.eq_dec l) l) as [<-|]; [apply NoDup_nodup | contradiction]. }
    split; [split; [apply X; exact Logic.I|]; split; [intros x Ix; cbn in Ix; lia | reflexivity]|].
    split; [split; [apply X; exact Logic.I|]; split; [intros x Ix; cbn in Ix; lia | reflexivity]|].
    split; [intros x Ix Iy; cbn in Ix, Iy; lia|]. split; [cbn; lia|]. split; [cbn; lia | lia]. }
  assert (V : seg_view h1 7 = PVSegment (ShadeColl [h_surfs h1 4%nat] (Some false) true []) (ShadeColl [] (Some true) true []) None).
  { unfold seg_view. rewrite G7. unfold coll_view, list_surfaces. cbn [so_illum so_shaded]. rewrite C6, C1. cbn [co_list]. rewrite L5, L3. reflexivity. }
  destruct (cast_inside 0 10 3 7 (seg_view h1 7)) as (v' & new & E1 & E2 & E3 & E4 & E5);
    [rewrite V; cbn; rewrite S4; reflexivity | lra | lra | lra | lra | rewrite V; reflexivity | rewrite V; reflexivity |].
  destruct (op_does (Cast (flat 3 7)) 7 h1 OK) as (OK' & FR & GR & R). cbn [op_value value_of sv_seg sv_geom do_op] in *.
  rewrite E1, E5 in R. cbn [bind] in R. destruct R as (R1 & R2).
  rewrite B. cbn [fst snd]. destruct (hsg_cast_shadow 7 (flat 3 7) h1) as [r2 h2] eqn:Ec. cbn [fst snd] in *. subst r2.
  rewrite (mbind_ok _ _ _ _ _ _ _ Ec).
  assert (OWN : owned h1 7 = [7; 6; 5; 4; 1; 3]%nat) by (unfold owned; rewrite G7; cbn [so_illum so_shaded]; rewrite OW6, OW1; reflexivity).
  rewrite OWN in FR.
  assert (G7' : so_shaded (h_segs h2 7) = 1%nat).
  { pose proof (cast_keeps 7 (flat 3 7) h1 OK) as X. rewrite Ec in X. cbn [snd] in X. rewrite X, G7. reflexivity. }
  destruct (proj2 FR 11%nat ltac:(lia) ltac:(cbn; lia)) as (_ & _ & _ & G11'). rewrite G11 in G11'.
  destruct (proj2 FR 0%nat ltac:(lia) ltac:(cbn; lia)) as (_ & _ & C0' & _). rewrite C0 in C0'.
  destruct (proj2 FR 2%nat ltac:(lia) ltac:(cbn; lia)) as (_ & L2' & _). rewrite L2 in L2'.
  assert (SV : coll_view h2 1 = sg_shaded v').
  { apply (f_equal sv_seg) in R2. cbn [sv_seg] in R2. apply (f_equal sg_shaded) in R2. unfold value_of, seg_view in R2. cbn [sv_seg sg_shaded] in R2. rewrite G7' in R2. exact R2. }
  assert (SH : sc_shaded (coll_view h2 1) = Some true /\ sc_collinear (coll_view h2 1) = true).
  { rewrite SV. unfold sg_cast_shadow in E1. rewrite E5, V in E1. cbn in E1. inversion E1. split; reflexivity. }
  assert (LS : list_surfaces h2 1 = [new]).
  { apply (f_equal sc_surfaces) in SV. cbn [coll_view sc_surfaces] in SV. rewrite SV, E2, V. reflexivity. }
  assert (GE : co_geom (h_colls h2 1) = [flat 3 7]).
  { destruct OK' as (_ & (_ & _ & X) & _). rewrite G7', LS in X. rewrite X. cbn. rewrite E3. reflexivity. }
  assert (N2 := proj1 FR). 
  assert (PI : exists x, pvsegment_init (coll_view h2 0) (coll_view h2 1) = Ok x).
  { unfold coll_view at 1, list_surfaces. rewrite C0'. cbn [co_list co_shaded co_collinear co_names]. rewrite L2'. cbn [map].
    unfold pvsegment_init, segment_check. destruct SH as (-> & ->). cbn. eexists. reflexivity. }
  destruct PI as (x & PI).
  assert (EI : hsg_init None None h2 = new_seg (SegObj 0 1 [flat 3 7]) h2).
  { unfold hsg_init, default_illum, default_shaded. rewrite !bind_view, bind_lift, PI. unfold both_geoms. rewrite C0', GE. reflexivity. }
  rewrite (mbind_ok _ _ _ _ _ _ _ EI). exists 7%nat, 11%nat, (h_next h2). eexists. split; [reflexivity|].
  unfold hsg_shaded_length, hsg_length, hsc_length. cbn [h_segs h_colls]. rewrite put_same, !put_other by lia.
  rewrite G7', G11'. cbn [so_shaded so_geom]. rewrite GE. unfold lines_length. cbn [map]. rewrite !py_sum_rsum. cbn [rsum fold_right].
  rewrite !flat_length by lra. repeat split; try lra; try lia.
Qed.

(** Not so: collections are what their own methods made them. Two collections made of the
    same list: a surface added to one is in the list of the other, whose length does not
    tell. *)
Theorem C79_list_refuted : forall s s',
  exists c1 c2 h,
  (do! a <- new_surf s; do! l <- new_list [a];
   do! c1 <- hsc_init l None []; do! c2 <- hsc_init l None [];
   do! a' <- new_surf s'; do! _ <- hsc_add_pvsurface c1 a'; ret (c1, c2)) loaded = (Ok (c1, c2), h) /\ c1 <> c2 /\
  list_surfaces h c1 = [s; s'] /\ list_surfaces h c2 = [s; s'] /\
  hsc_length h c1 = su_length s + su_length s' /\ hsc_length h c2 = su_length s.
Proof.
  intros s s'.
  set (fs := put (fun _ : nat => no_surface) 4 s).
  set (fl := put (fun _ : nat => @nil nat) 5 [4%nat]).
  set (C := CollObj 5 (Some (su_shaded s)) true [] [su_line s]).
  set (fc := put (put (h_colls loaded) 6 C) 7 C).
  unfold mbind at 1 2, new_surf at 1, new_list at 1. cbn [h_next loaded h_surfs h_lists h_colls h_segs].
  fold fs. fold fl.
  assert (H1 : forall g n, hsc_init 5 None [] (Heap fs fl g (fun _ => no_segment) n) = (Ok n, Heap fs fl (put g n C) (fun _ => no_segment) (S n))).
  { intros g n. unfold hsc_init. rewrite bind_list. cbn [h_lists]. unfold fl. rewrite put_same. cbn [map h_surfs]. unfold fs. rewrite put_same. reflexivity. }
  rewrite (mbind_ok _ _ _ _ _ _ _ (H1 _ _)). rewrite (mbind_ok _ _ _ _ _ _ _ (H1 _ _)).
  unfold mbind at 1, new_surf. cbn [h_next h_surfs h_lists h_colls h_segs].
  change (put (put (fun a => if (a =? default_illum)%nat then CollObj 2 (Some false) true [] [] else CollObj 3 (Some true) true [] []) 6 C) 7 C) with fc.
  set (fs' := put fs 8 s').
  assert (H2 : hsc_add_pvsurface 6 8 (Heap fs' fl fc (fun _ => no_segment) 9) =
    (Ok tt, Heap fs' (put fl 5 [4; 8]%nat) (put fc 6 (CollObj 5 (Some (su_shaded s)) (is_collinear (surf_nvecs [s; s'])) [] [su_line s; su_line s'])) (fun _ => no_segment) 9)).
  { reflexivity. }
  rewrite (mbind_ok _ _ _ _ _ _ _ H2). exists 6%nat, 7%nat. eexists. split; [reflexivity|]. split; [lia|].
  split; [reflexivity|]. split; [reflexivity|]. unfold hsc_length. cbn [h_colls].
  rewrite put_same, put_other by lia. unfold fc. rewrite put_same. unfold C. cbn [co_geom]. unfold lines_length. cbn [map].
  rewrite !py_sum_rsum. cbn [rsum fold_right]. unfold su_length. split; ring.
Qed.

(** Not so with merges: the length of a segment is that of its surfaces. A shaded part from
    0 to 1, another one from 3 to 4 after a shadow, then a merge: the surfaces have a length
    of 5, the segment says 3. *)
Theorem C79_stale_refuted : exists segs h s,
  run_program [New (flat 0 1) true (Some (0, 1)) []; On 0 (ReplaceIllum (flat 2 4) false (Some (0, 1)) []);
               On 0 (Cast (flat 3 4)); On 0 MergeShaded] loaded = (segs, h) /\
  segs = [s] /\ hsg_length h s = 3 /\ sg_length (seg_view h s) = 5.
Proof.
  set (cs := [New (flat 0 1) true (Some (0, 1)) []; On 0 (ReplaceIllum (flat 2 4) false (Some (0, 1)) []);
              On 0 (Cast (flat 3 4)); On 0 MergeShaded]).
  destruct (run_program cs loaded) as [segs h] eqn:E. destruct (C79_isolated cs segs h E) as (VS & _).
  set (v0 := PVSegment (ShadeColl [] (Some false) true []) (ShadeColl [flat_surface 0 1 true] (Some true) true []) None).
  set (v1 := PVSegment (ShadeColl [flat_surface 2 4 false] (Some false) true []) (ShadeColl [flat_surface 0 1 true] (Some true) true []) None).
  destruct (cast_inside 2 4 3 4 v1) as (v2 & new & A1 & A2 & A3 & A4 & A5); try reflexivity; try lra.
  assert (S2 : sc_shaded (sg_shaded v2) = Some true).
  { unfold sg_cast_shadow in A1. rewrite A5 in A1. cbn in A1. inversion A1. reflexivity. }
  assert (L2 : sc_length (sg_illum v2) = 1).
  { rewrite A4. unfold v1, sc_length. cbn [sg_illum sc_surfaces map]. rewrite py_sum_rsum. cbn [rsum fold_right].
    unfold su_length, flat_surface. cbn [su_line]. fold (flat 2 4). rewrite flat_length by lra. lra. }
  cbn [v1 sg_shaded sc_surfaces app] in A2.
  assert (M : exists m, merge_surfaces (sg_shaded v2) = Ok m /\ map su_line (sc_surfaces m) = [flat 0 4]).
  { unfold merge_surfaces. rewrite A2, S2. unfold pvsurface_init. cbn [bind]. eexists. split; [reflexivity|]. cbn [sc_surfaces map su_line].
    unfold xs_of, ys_of. cbn [flat_map su_line flat_surface app]. rewrite A3. unfold flat. cbn [b1 b2 px py].
    unfold min_list, max_list. cbn [hd fold_right].
    replace (np_min 0 (np_min 1 (np_min 3 (np_min 4 0)))) with 0 by (unfold np_min; repeat destruct (Rle_dec _ _); lra).
    replace (np_max 0 (np_max 1 (np_max 3 (np_max 4 0)))) with 4 by (unfold np_max; repeat destruct (Rle_dec _ _); lra).
    replace (np_min 0 (np_min 0 (np_min 0 (np_min 0 0)))) with 0 by (unfold np_min; repeat destruct (Rle_dec _ _); lra).
    replace (np_max 0 (np_max 0 (np_max 0 (np_max 0 0)))) with 0 by (unfold np_max; repeat destruct (Rle_dec _ _); lra). reflexivity. }
  destruct M as (m & M1 & M2).
  assert (P : values_of_program cs = [SegValue (PVSegment (sg_illum v2) m None) (lines_of v2)]).
  { unfold values_of_program, cs. cbn [fold_left step_value].
    change (sg_from_coords (flat 0 1) true (Some (0, 1)) []) with (Ok v0). cbn [app on_values nth_error].
    change (op_value (ReplaceIllum (flat 2 4) false (Some (0, 1)) []) (SegValue v0 (lines_of v0))) with (Ok (SegValue v1 (lines_of v1))).
    cbn [replace firstn skipn app nth_error]. cbn [op_value sv_seg sv_geom]. rewrite A1, A5. cbn [bind replace firstn skipn app nth_error op_value sv_seg sv_geom].
    rewrite M1. reflexivity. }
  rewrite P in VS. assert (LN := f_equal (@List.length _) VS). rewrite map_length in LN.
  destruct segs as [|s [|s' segs]]; cbn in LN; try lia. clear LN. apply (f_equal (hd (value_of h s))) in VS. cbn [map hd] in VS.
  exists [s], h, s. split; [reflexivity|]. split; [reflexivity|].
  assert (V1 := f_equal sv_seg VS). assert (V2 := f_equal sv_geom VS). cbn [value_of sv_seg sv_geom] in V1, V2.
  assert (SL : forall c, lines_length (map su_line (sc_surfaces c)) = sc_length c) by (intro c; unfold lines_length, sc_length; rewrite map_map; reflexivity).
  split.
  - unfold hsg_length. rewrite V2. unfold lines_of, lines_length. rewrite map_app, py_sum_rsum, rsum_app, <- !py_sum_rsum.
    change (py_sum (map line_length (map su_line (sc_surfaces (sg_illum v2))))) with (lines_length (map su_line (sc_surfaces (sg_illum v2)))).
    rewrite SL, L2, A2. cbn [map]. rewrite A3, py_sum_rsum. cbn [rsum fold_right flat_surface su_line]. fold (flat 0 1).
    rewrite !flat_length by lra. lra.
  - rewrite V1. unfold sg_length. cbn [sg_shaded sg_illum]. rewrite L2, <- SL, M2. unfold lines_length. rewrite py_sum_rsum.
    cbn [map rsum fold_right]. rewrite flat_length by lra. lra.
Qed.

(** Two segments from 0 to 10 and from 20 to 30, a shadow from 3 to 7 on the side that they
    form: the first has 4 shaded and 6 illuminated, the second has not changed. *)
Example C79_case : exists s1 s2 h,
  run_program [New (flat 0 10) false (Some (0, 1)) []; New (flat 20 30) false (Some (0, 1)) []; On 0 (Cast (flat 3 7))] loaded = ([s1; s2], h) /\
  hsg_shaded_length h s1 = 4 /\ hsg_length h s1 = 10 /\ hsg_shaded_length h s2 = 0 /\ hsg_length h s2 = 10.
Proof.
  set (cs := [New (flat 0 10) false (Some (0, 1)) []; New (flat 20 30) false (Some (0, 1)) []; On 0 (Cast (flat 3 7))]).
  destruct (run_program cs loaded) as [segs h] eqn:E. destruct (C79_isolated cs segs h E) as (VS & _ & LV).
  set (v := fun a b => PVSegment (ShadeColl [flat_surface a b false] (Some false) true []) (ShadeColl [] (Some true) true []) None).
  destruct (cast_inside 0 10 3 7 (v 0 10)) as (v2 & new & A1 & A2 & A3 & A4 & A5); try reflexivity; try lra.
  assert (P : values_of_program cs = [SegValue v2 (lines_of v2); SegValue (v 20 30) [flat 20 30]]).
  { unfold values_of_program, cs. cbn [fold_left step_value].
    change (sg_from_coords (flat 0 10) false (Some (0, 1)) []) with (Ok (v 0 10)).
    change (sg_from_coords (flat 20 30) false (Some (0, 1)) []) with (Ok (v 20 30)). cbn [app on_values nth_error].
    cbn [op_value sv_seg sv_geom]. rewrite A1, A5. reflexivity. }
  rewrite P in VS. assert (LN := f_equal (@List.length _) VS). rewrite map_length in LN.
  destruct segs as [|s1 [|s2 [|s3 segs]]]; cbn in LN; try lia. clear LN.
  assert (V1 := f_equal (hd (value_of h s1)) VS). assert (V2 := f_equal (fun l => hd (value_of h s1) (tl l)) VS). cbn [map hd tl] in V1, V2.
  assert (W1 := f_equal sv_seg V1). assert (W2 := f_equal sv_seg V2). cbn [value_of sv_seg] in W1, W2.
  assert (K : Forall keeps_lengths cs) by (repeat constructor).
  exists s1, s2, h. split; [reflexivity|].
  destruct (LV s1 ltac:(left; reflexivity)) as (B1 & _). destruct (LV s2 ltac:(right; left; reflexivity)) as (B2 & _).
  rewrite B1, B2, (C79_length cs _ h s1 K E), (C79_length cs _ h s2 K E), W1, W2 by (cbn; tauto).
  unfold sg_length. rewrite A4. unfold sg_shaded_length, sc_length. rewrite A2. cbn [v sg_shaded sg_illum sc_surfaces app map].
  rewrite !py_sum_rsum. cbn [rsum fold_right]. unfold su_length. rewrite A3. cbn [flat_surface su_line]. fold (flat 0 10) (flat 20 30).
  rewrite !flat_length by lra. repeat split; lra.
Qed.

Print Assumptions C79_isolated.
Print Assumptions C79_method.
Print Assumptions C79_side.
Print Assumptions C79_defaults.
Print Assumptions C79_length.
Print Assumptions C79_cut.
Print Assumptions C79_shared_refuted.
Print Assumptions C79_list_refuted.
Print Assumptions C79_stale_refuted.
