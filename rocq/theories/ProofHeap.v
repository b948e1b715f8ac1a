(** Objects in memory and values (ModelHeap.v): each method does in memory what it does to a
    value, and leaves alone what is not part of the object. *)
From Coq Require Import Reals List Bool Arith String Lia.
From Verif Require Import Num ModelTs ModelGeom ModelVF ModelParams ModelShapely ModelShadow ModelHeap SpecHeap.
Import ListNotations.
Open Scope R_scope.

(* ---------------------------------------------------------------------- frames *)

Definition frame (h h' : heap) (F : list nat) : Prop :=
  (h_next h <= h_next h')%nat /\ forall x, (x < h_next h)%nat -> ~ In x F -> same_at h h' x.

Lemma frame_refl : forall h F, frame h h F.
Proof. intros h F. split; [lia|]. intros x _ _. repeat split. Qed.
Lemma frame_trans : forall h h1 h2 F G, frame h h1 F -> frame h1 h2 G ->
  (forall x, In x G -> In x F \/ (h_next h <= x)%nat) -> frame h h2 F.
Proof.
  intros h h1 h2 F G (N1 & S1) (N2 & S2) I. split; [lia|]. intros x L NI.
  destruct (S1 x L NI) as (A & B & C & D). destruct (S2 x ltac:(lia)) as (A' & B' & C' & D').
  { intro X. destruct (I x X); [tauto | lia]. }
  repeat split; congruence.
Qed.
Lemma frame_weak : forall h h' F G, frame h h' F -> incl F G -> frame h h' G.
Proof. intros h h' F G (N & S) I. split; [exact N|]. intros x L NI. apply S; [exact L|]. intro X. apply NI, I, X. Qed.

Lemma put_same : forall A (f : nat -> A) a v, put f a v a = v.
Proof. intros A f a v. unfold put. rewrite Nat.eqb_refl. reflexivity. Qed.
Lemma put_other : forall A (f : nat -> A) a v x, x <> a -> put f a v x = f x.
Proof. intros A f a v x N. unfold put. apply Nat.eqb_neq in N. rewrite N. reflexivity. Qed.

Ltac other := rewrite put_other by (first [lia | congruence | intros ->; tauto]).

Lemma map_frame : forall h h' F l, frame h h' F -> (forall x, In x l -> (x < h_next h)%nat /\ ~ In x F) ->
  map (h_surfs h') l = map (h_surfs h) l.
Proof.
  intros h h' F l (_ & S) L. apply map_ext_in. intros x X. destruct (L x X) as (A & B). apply (S x A B).
Qed.

(** A collection that nothing else changes keeps its value. *)
Lemma owned_coll_frame : forall h h' F c, frame h h' F -> (forall x, In x (owned_coll h c) -> (x < h_next h)%nat /\ ~ In x F) ->
  owned_coll h' c = owned_coll h c /\ coll_view h' c = coll_view h c /\ h_colls h' c = h_colls h c /\ list_surfaces h' c = list_surfaces h c.
Proof.
  intros h h' F c FR L. pose proof FR as (_ & S).
  destruct (L c ltac:(left; reflexivity)) as (A & B). destruct (S c A B) as (_ & _ & EC & _).
  destruct (L (co_list (h_colls h c)) ltac:(right; left; reflexivity)) as (A1 & B1). destruct (S _ A1 B1) as (_ & EL & _).
  assert (EO : owned_coll h' c = owned_coll h c) by (unfold owned_coll; rewrite EC, EL; reflexivity).
  assert (ES : list_surfaces h' c = list_surfaces h c).
  { unfold list_surfaces. rewrite EC, EL. apply (map_frame h h' F); [exact FR|]. intros x X. apply L. right. right. exact X. }
  split; [exact EO|]. split; [unfold coll_view; rewrite ES, EC; reflexivity|]. split; [exact EC | exact ES].
Qed.

(* ---------------------------------------------------------------- new surfaces *)

Lemma new_surfs_spec : forall l h, exists addrs h', new_surfs l h = (Ok addrs, h') /\ frame h h' [] /\ NoDup addrs /\
  (forall a, In a addrs -> (h_next h <= a < h_next h')%nat) /\ map (h_surfs h') addrs = l /\
  h_lists h' = h_lists h /\ h_colls h' = h_colls h /\ h_segs h' = h_segs h.
Proof.
  induction l as [|s l IH]; intro h; cbn [new_surfs].
  - exists [], h. split; [reflexivity|]. split; [apply frame_refl|]. split; [constructor|]. split; [intros a []|]. repeat split.
  - unfold mbind at 1, new_surf at 1.
    set (h1 := Heap (put (h_surfs h) (h_next h) s) (h_lists h) (h_colls h) (h_segs h) (S (h_next h))).
    destruct (IH h1) as (addrs & h' & E & FR & ND & LT & MP & EL & EC & ES). unfold mbind. rewrite E. cbn [ret].
    exists (h_next h :: addrs), h'. split; [reflexivity|].
    assert (F1 : frame h h1 []).
    { split; [cbn; lia|]. intros x L _. repeat split. cbn. other. reflexivity. }
    split; [apply (frame_trans h h1 h' [] [] F1 FR); intros x []|].
    split; [constructor; [intro X; apply LT in X; cbn in X; lia | exact ND]|].
    assert (N1 : (S (h_next h) <= h_next h')%nat) by (destruct FR as (N & _); exact N).
    split. { intros a [<-|X]; [lia|]. apply LT in X. cbn in X. lia. }
    split; [|split; [exact EL|]; split; [exact EC | exact ES]].
    cbn [map]. f_equal; [|exact MP]. destruct FR as (_ & S). destruct (S (h_next h) ltac:(cbn; lia) ltac:(intros [])) as (-> & _).
    cbn. apply put_same.
Qed.

(* ---------------------------------------------------------------------- loops *)

Lemma remove_loop_spec : forall l addrs h, (forall a, In a addrs -> (a < h_next h)%nat) -> NoDup addrs ->
  exists new h', hremove_loop l addrs h = (Ok new, h') /\ frame h h' [] /\ NoDup new /\
  (forall a, In a new -> (a < h_next h')%nat /\ (In a addrs \/ (h_next h <= a)%nat)) /\
  map (h_surfs h') new = flat_map (fun s => surface_less s l) (map (h_surfs h) addrs) /\
  h_lists h' = h_lists h /\ h_colls h' = h_colls h /\ h_segs h' = h_segs h.
Proof.
  intros l. induction addrs as [|a r IH]; intros h L ND; cbn [hremove_loop].
  - exists [], h. split; [reflexivity|]. split; [apply frame_refl|]. split; [constructor|]. split; [intros a []|]. repeat split.
  - unfold mbind at 1, get_surf at 1. inversion ND as [|? ? Na Nr]; subst.
    assert (G : exists kept h1, (if buffer_intersects (su_line (h_surfs h a)) l then new_surfs (surface_less (h_surfs h a) l) else ret [a]) h = (Ok kept, h1) /\
      frame h h1 [] /\ NoDup kept /\ (forall x, In x kept -> (x < h_next h1)%nat /\ (x = a \/ (h_next h <= x)%nat)) /\
      map (h_surfs h1) kept = surface_less (h_surfs h a) l /\
      h_lists h1 = h_lists h /\ h_colls h1 = h_colls h /\ h_segs h1 = h_segs h).
    { destruct (buffer_intersects (su_line (h_surfs h a)) l) eqn:B.
      - destruct (new_surfs_spec (surface_less (h_surfs h a) l) h) as (kept & h1 & E & FR & NK & LT & MP & R).
        exists kept, h1. split; [exact E|]. split; [exact FR|]. split; [exact NK|]. split; [intros x X; apply LT in X; split; [lia | right; lia]|].
        split; [exact MP | exact R].
      - exists [a], h. split; [reflexivity|]. split; [apply frame_refl|]. split; [constructor; [intros []|constructor]|].
        split; [intros x [<-|[]]; split; [apply L; left; reflexivity | left; reflexivity]|].
        split; [|repeat split]. unfold surface_less. rewrite B. reflexivity. }
    destruct G as (kept & h1 & E & FR & NK & LK & MP & EL & EC & ES). unfold mbind at 1. rewrite E.
    pose proof FR as (N1 & _).
    destruct (IH h1) as (rest & h2 & E2 & FR2 & NR & LR & MP2 & EL2 & EC2 & ES2).
    { intros x X. specialize (L x (or_intror X)). lia. } { exact Nr. }
    unfold mbind. rewrite E2. cbn [ret]. exists (kept ++ rest), h2. split; [reflexivity|].
    pose proof FR2 as (N2 & _).
    split; [apply (frame_trans h h1 h2 [] [] FR FR2); intros x []|].
    assert (L1 : forall x, In x r -> (x < h_next h)%nat) by (intros x X; apply L; right; exact X).
    assert (DJ : forall x, In x kept -> ~ In x rest).
    { intros x K X. destruct (LK x K) as (Lx & D). destruct (LR x X) as (_ & D'). destruct D as [->|D]; destruct D' as [D'|D'].
      - tauto.
      - specialize (L a (or_introl eq_refl)). lia.
      - apply L1 in D'. lia.
      - lia. }
    split. { clear - NK NR DJ. induction kept as [|k ks IHk]; [exact NR|]. inversion NK; subst. cbn. constructor.
      - rewrite in_app_iff. intros [X|X]; [tauto | apply (DJ k); [left; reflexivity | exact X]].
      - apply IHk; [assumption|]. intros x X. apply DJ. right. exact X. }
    split. { intros x X. apply in_app_or in X. destruct X as [X|X].
      - destruct (LK x X) as (Lx & D). split; [lia|]. destruct D as [->|D]; [left; left; reflexivity | right; exact D].
      - destruct (LR x X) as (Lx & D). split; [lia|]. destruct D as [D|D]; [left; right; exact D | right; lia]. }
    split; [|split; [congruence|]; split; congruence].
    rewrite map_app. cbn [map flat_map]. f_equal.
    + rewrite <- MP. apply (map_frame h1 h2 []); [exact FR2|]. intros x X. split; [apply LK, X | intros []].
    + rewrite MP2. f_equal. apply (map_frame h h1 []); [exact FR|]. intros x X. split; [apply L1, X | intros []].
Qed.

Lemma cut_loop_spec : forall p addrs h, (forall a, In a addrs -> (a < h_next h)%nat) -> NoDup addrs ->
  exists r h', hcut_loop addrs p h = (r, h') /\ frame h h' [] /\ h_lists h' = h_lists h /\ h_colls h' = h_colls h /\ h_segs h' = h_segs h /\
  match cut_loop (map (h_surfs h) addrs) p with
  | Err e => r = Err e
  | Ok None => r = Ok None
  | Ok (Some (vs, v2)) => exists l a2, r = Ok (Some (l, a2)) /\ NoDup (l ++ [a2]) /\
      (forall x, In x (l ++ [a2]) -> (x < h_next h')%nat /\ (In x addrs \/ (h_next h <= x)%nat)) /\
      map (h_surfs h') (l ++ [a2]) = vs ++ [v2]
  end.
Proof.
  intros p. induction addrs as [|a r IH]; intros h L ND; cbn [hcut_loop cut_loop map].
  - exists (Ok None), h. split; [reflexivity|]. split; [apply frame_refl|]. repeat split.
  - inversion ND as [|? ? Na Nr]; subst. unfold mbind at 1, get_surf at 1.
    set (s := h_surfs h a). 
    assert (NX : exists r' h', mbind (hcut_loop r p) (fun x => ret (match x with Some (r', s2) => Some (a :: r', s2) | None => None end)) h = (r', h') /\
      frame h h' [] /\ h_lists h' = h_lists h /\ h_colls h' = h_colls h /\ h_segs h' = h_segs h /\
      match (do x <- cut_loop (map (h_surfs h) r) p; Ok (match x with Some (r', s2) => Some (s :: r', s2) | None => None end)) with
      | Err e => r' = Err e
      | Ok None => r' = Ok None
      | Ok (Some (vs, v2)) => exists l a2, r' = Ok (Some (l, a2)) /\ NoDup (l ++ [a2]) /\
          (forall x, In x (l ++ [a2]) -> (x < h_next h')%nat /\ (In x (a :: r) \/ (h_next h <= x)%nat)) /\
          map (h_surfs h') (l ++ [a2]) = vs ++ [v2]
      end).
    { destruct (IH h) as (r' & h' & E & FR & EL & EC & ES & V).
      { intros x X. apply L. right. exact X. } { exact Nr. }
      unfold mbind. rewrite E. destruct (cut_loop (map (h_surfs h) r) p) as [[[vs v2]|]|e] eqn:CL; cbn [bind].
      - destruct V as (l & a2 & -> & N & LX & MP). cbn [ret].
        exists (Ok (Some (a :: l, a2))), h'. split; [reflexivity|]. split; [exact FR|]. split; [exact EL|]. split; [exact EC|]. split; [exact ES|].
        exists (a :: l), a2. split; [reflexivity|].
        assert (La : (a < h_next h)%nat) by (apply L; left; reflexivity).
        split. { cbn. constructor; [|exact N]. intro X. destruct (LX a X) as (_ & [D|D]); [tauto | lia]. }
        pose proof FR as (NN & SS).
        split. { intros x [<-|X]; [split; [lia | left; left; reflexivity]|]. destruct (LX x X) as (A & [D|D]); split; try exact A; [left; right; exact D | right; exact D]. }
        cbn [map app]. f_equal; [|exact MP]. apply (SS a La). intros [].
      - subst r'. exists (Ok None), h'. cbn [ret]. repeat (split; [first [reflexivity | assumption]|]). reflexivity.
      - subst r'. exists (Err e), h'. repeat (split; [first [reflexivity | assumption]|]). reflexivity. }
    destruct (contains (su_line s) p) eqn:CT; [|exact NX].
    unfold mbind at 1, lift at 1. destruct (boundary (su_line s)) as [[e1 e2]|e] eqn:BO; cbn [bind].
    + destruct (Rltb DISTANCE_TOLERANCE (distance e1 p) && Rltb DISTANCE_TOLERANCE (distance e2 p)) eqn:DD; [|exact NX].
      unfold pvsurface_init at 1 2. cbn [bind]. unfold lift, new_surf, mbind, ret.
      set (s1 := PVSurface (Line e1 p) (su_nvec s) (su_shaded s) None (su_names s) _).
      set (s2 := PVSurface (Line p e2) (su_nvec s) (su_shaded s) None (su_names s) _).
      eexists _, _. split; [reflexivity|]. cbn [h_next h_surfs h_lists h_colls h_segs].
      split. { split; [cbn; lia|]. intros x Lx _. repeat split. cbn. rewrite !put_other by lia. reflexivity. }
      split; [reflexivity|]. split; [reflexivity|]. split; [reflexivity|].
      exists (h_next h :: r), (S (h_next h)). split; [reflexivity|].
      assert (Lr : forall x, In x r -> (x < h_next h)%nat) by (intros x X; apply L; right; exact X).
      split. { cbn. constructor.
        - rewrite in_app_iff. intros [X|[X|[]]]; [apply Lr in X; lia | lia].
        -
          clear - Nr Lr. induction r as [|y ys IHy]; cbn; [constructor; [intros [] | constructor]|]. inversion Nr; subst. constructor.
          + rewrite in_app_iff. intros [X|[X|[]]]; [tauto|]. specialize (Lr y (or_introl eq_refl)). lia.
          + apply IHy; [assumption|]. intros x X. apply Lr. right. exact X. }
      split. { cbn. intros x [<-|X]; [split; [lia | right; lia]|]. apply in_app_or in X. destruct X as [X|[<-|[]]]; [|split; [lia | right; lia]].
        specialize (Lr x X). split; [lia | left; right; exact X]. }
      cbn [map app]. f_equal.
      * rewrite put_other by lia. rewrite put_same. reflexivity.
      * rewrite map_app. cbn [map]. rewrite put_same. f_equal. apply map_ext_in. intros x X. specialize (Lr x X). rewrite !put_other by lia. reflexivity.
    + exists (Err e), h. split; [reflexivity|]. split; [apply frame_refl|]. repeat split.
Qed.

Lemma update_loop_spec : forall d addrs h, NoDup addrs ->
  exists h', hupdate_loop addrs d h = (Ok tt, h') /\ frame h h' addrs /\
  map (h_surfs h') addrs = map (fun s => su_update s d) (map (h_surfs h) addrs) /\
  h_lists h' = h_lists h /\ h_colls h' = h_colls h /\ h_segs h' = h_segs h /\ h_next h' = h_next h.
Proof.
  intro d. induction addrs as [|a r IH]; intros h ND; cbn [hupdate_loop].
  - exists h. split; [reflexivity|]. split; [apply frame_refl|]. repeat split.
  - inversion ND as [|? ? Na Nr]; subst. unfold mbind at 1, get_surf at 1. unfold mbind at 1, set_surf at 1.
    set (h1 := Heap (put (h_surfs h) a (su_update (h_surfs h a) d)) (h_lists h) (h_colls h) (h_segs h) (h_next h)).
    destruct (IH h1 Nr) as (h' & E & FR & MP & EL & EC & ES & EN). exists h'. split; [exact E|].
    assert (F1 : frame h h1 (a :: r)).
    { split; [cbn; lia|]. intros x _ NI. repeat split. cbn. cbn in NI. rewrite put_other by (intros ->; tauto). reflexivity. }
    split; [apply (frame_trans h h1 h' (a :: r) r F1 FR); intros x X; left; right; exact X|].
    split; [|split; [exact EL|]; split; [exact EC|]; split; [exact ES | exact EN]].
    cbn [map]. f_equal.
    + destruct FR as (_ & SS).
      assert (X : h_surfs h' a = h_surfs h1 a).
      { destruct (Nat.lt_ge_cases a (h_next h1)) as [La|La]; [apply (SS a La Na)|].
        clear - E Na La EN. clearbody h1. revert h1 h' E Na La EN. induction r as [|y ys IHy]; intros h1 h' E Na La EN; cbn in E.
        - inversion E. reflexivity.
        - unfold mbind, get_surf, set_surf in E. specialize (IHy _ _ E). cbn in IHy. rewrite IHy; [apply put_other; intros ->; apply Na; left; reflexivity | | exact La | exact EN].
          intro X. apply Na. right. exact X. }
      rewrite X. cbn. apply put_same.
    + rewrite MP. f_equal. apply map_ext_in. intros x X. cbn. other. reflexivity.
Qed.

(* ------------------------------------------------------------------ collections *)

Definition coll_ok (h : heap) (c : nat) : Prop :=
  NoDup (owned_coll h c) /\ (forall x, In x (owned_coll h c) -> (x < h_next h)%nat) /\
  co_geom (h_colls h c) = map su_line (list_surfaces h c).

(** A call of a method of the collection [c]. *)
Definition coll_does (h h' : heap) (c : nat) (r : result unit) (v : result shade_coll) : Prop :=
  coll_ok h' c /\ frame h h' (owned_coll h c) /\
  (forall x, In x (owned_coll h' c) -> In x (owned_coll h c) \/ (h_next h <= x)%nat) /\ h_segs h' = h_segs h /\
  match v with
  | Ok v' => r = Ok tt /\ coll_view h' c = v'
  | Err e => r = Err e /\ coll_view h' c = coll_view h c
  end.

Lemma nothing_done : forall h c, coll_ok h c -> coll_does h h c (Ok tt) (Ok (coll_view h c)).
Proof.
  intros h c OK. split; [exact OK|]. split; [apply frame_refl|]. split; [intros x X; left; exact X|]. split; [reflexivity|]. split; reflexivity.
Qed.

(** New objects elsewhere change nothing. *)
Lemma ok_frame : forall h h' c, coll_ok h c -> frame h h' [] -> coll_ok h' c /\ owned_coll h' c = owned_coll h c /\
  coll_view h' c = coll_view h c /\ h_colls h' c = h_colls h c /\ list_surfaces h' c = list_surfaces h c.
Proof.
  intros h h' c (ND & LT & GE) FR.
  destruct (owned_coll_frame h h' [] c FR) as (E1 & E2 & E3 & E4); [intros x X; split; [apply LT, X | intros []]|].
  split; [|tauto]. unfold coll_ok. rewrite E1, E3, E4. split; [exact ND|]. split; [|exact GE].
  intros x X. apply LT in X. destruct FR as (N & _). lia.
Qed.

Lemma raised : forall h h' c e, coll_ok h c -> frame h h' [] -> h_segs h' = h_segs h -> coll_does h h' c (Err e) (Err e).
Proof.
  intros h h' c e OK FR ES. destruct (ok_frame h h' c OK FR) as (OK' & EO & EV & _). split; [exact OK'|].
  split; [apply (frame_weak h h' []); [exact FR | intros x []]|]. split; [rewrite EO; intros x X; left; exact X|].
  split; [exact ES|]. split; [reflexivity | exact EV].
Qed.
Lemma kept : forall h h' c, coll_ok h c -> frame h h' [] -> h_segs h' = h_segs h -> coll_does h h' c (Ok tt) (Ok (coll_view h c)).
Proof.
  intros h h' c OK FR ES. destruct (raised h h' c KeyError OK FR ES) as (A & B & C & D & E). split; [exact A|]. split; [exact B|].
  split; [exact C|]. split; [exact D|]. split; [reflexivity | apply E].
Qed.

(** The list of [c] changed in place ([l'] in place of its list). *)
Lemma in_place : forall h h1 c addrs' col vs,
  coll_ok h c -> frame h h1 [] -> h_lists h1 = h_lists h -> h_colls h1 = h_colls h -> h_segs h1 = h_segs h ->
  NoDup addrs' -> (forall x, In x addrs' -> (x < h_next h1)%nat /\ (In x (h_lists h (co_list (h_colls h c))) \/ (h_next h <= x)%nat)) ->
  map (h_surfs h1) addrs' = vs ->
  let l := co_list (h_colls h c) in
  let h2 := Heap (h_surfs h1) (put (h_lists h1) l addrs') (h_colls h1) (h_segs h1) (h_next h1) in
  coll_does h (snd (refresh c l col h2)) c (fst (refresh c l col h2))
    (Ok (ShadeColl vs (co_shaded (h_colls h c)) col (co_names (h_colls h c)))).
Proof.
  intros h h1 c addrs' col vs OK FR EL EC ES ND LA MP l h2.
  pose proof OK as (NO & LO & GE).
  unfold refresh, set_coll. cbn [fst snd]. set (h3 := Heap _ _ _ _ _). pose proof FR as (N1 & S1).
  assert (C3 : h_colls h3 c = CollObj l (co_shaded (h_colls h c)) col (co_names (h_colls h c)) (map su_line vs)).
  { unfold h3. cbn. rewrite put_same, EC, put_same. f_equal. rewrite <- MP, map_map. reflexivity. }
  assert (L3 : h_lists h3 l = addrs') by (unfold h3; cbn; apply put_same).
  assert (S3 : list_surfaces h3 c = vs).
  { unfold list_surfaces. rewrite C3. cbn [co_list]. rewrite L3. exact MP. }
  assert (O3 : owned_coll h3 c = c :: l :: addrs') by (unfold owned_coll; rewrite C3; cbn [co_list]; rewrite L3; reflexivity).
  unfold owned_coll in NO, LO. fold l in NO, LO. apply NoDup_cons_iff in NO. destruct NO as (NIc & NO'). apply NoDup_cons_iff in NO'. destruct NO' as (NIl & NO'').
  assert (Lc : (c < h_next h)%nat) by (apply LO; left; reflexivity). assert (Ll : (l < h_next h)%nat) by (apply LO; right; left; reflexivity).
  split; [|split; [|split; [|split; [|split]]]].
  - unfold coll_ok. rewrite O3, C3, S3. split; [|split].
    + constructor; [|constructor; [|exact ND]].
      * intros [X|X]; [apply NIc; left; exact X|]. destruct (LA c X) as (_ & [D|D]); [apply NIc; right; exact D | lia].
      * intros X. destruct (LA l X) as (_ & [D|D]); [tauto | lia].
    + change (h_next h3) with (h_next h1). intros x [<-|[<-|X]]; [lia | lia | apply LA, X].
    + reflexivity.
  - split; [change (h_next h3) with (h_next h1); exact N1|]. intros x Lx NI.
    unfold owned_coll in NI. fold l in NI. destruct (S1 x Lx ltac:(intros [])) as (A & B & C & D).
    unfold h3, h2. split; [exact A|]. cbn [h_lists h_colls h_segs]. split; [|split; [|exact D]].
    + rewrite put_other; [exact B|]. intros ->. apply NI. right. left. reflexivity.
    + rewrite put_other; [exact C|]. intros ->. apply NI. left. reflexivity.
  - rewrite O3. unfold owned_coll. fold l. intros x [<-|[<-|X]]; [left; left; reflexivity | left; right; left; reflexivity|].
    destruct (LA x X) as (_ & [D|D]); [left; right; right; exact D | right; exact D].
  - unfold h3. cbn. exact ES.
  - reflexivity.
  - unfold coll_view. rewrite S3, C3. reflexivity.
Qed.

(** A new list for [c]. *)
Lemma new_list_for : forall h h1 c addrs' col vs,
  coll_ok h c -> frame h h1 [] -> h_lists h1 = h_lists h -> h_colls h1 = h_colls h -> h_segs h1 = h_segs h ->
  NoDup addrs' -> (forall x, In x addrs' -> (x < h_next h1)%nat /\ (In x (h_lists h (co_list (h_colls h c))) \/ (h_next h <= x)%nat)) ->
  map (h_surfs h1) addrs' = vs ->
  let m := do! a <- new_list addrs'; refresh c a col in
  coll_does h (snd (m h1)) c (fst (m h1))
    (Ok (ShadeColl vs (co_shaded (h_colls h c)) col (co_names (h_colls h c)))).
Proof.
  intros h h1 c addrs' col vs OK FR EL EC ES ND LA MP m.
  pose proof OK as (NO & LO & GE). pose proof FR as (N1 & S1).
  unfold m, mbind, new_list, refresh, set_coll. cbn [fst snd h_lists h_colls h_surfs h_segs h_next].
  set (l := h_next h1). set (h3 := Heap _ _ _ _ _).
  assert (C3 : h_colls h3 c = CollObj l (co_shaded (h_colls h c)) col (co_names (h_colls h c)) (map su_line vs)).
  { unfold h3. cbn. rewrite put_same, EC, put_same. f_equal. rewrite <- MP, map_map. reflexivity. }
  assert (L3 : h_lists h3 l = addrs') by (unfold h3; cbn; apply put_same).
  assert (S3 : list_surfaces h3 c = vs).
  { unfold list_surfaces. rewrite C3. cbn [co_list]. rewrite L3. exact MP. }
  assert (O3 : owned_coll h3 c = c :: l :: addrs') by (unfold owned_coll; rewrite C3; cbn [co_list]; rewrite L3; reflexivity).
  set (l0 := co_list (h_colls h c)) in *.
  unfold owned_coll in NO, LO. fold l0 in NO, LO. apply NoDup_cons_iff in NO. destruct NO as (NIc & NO').
  assert (Lc : (c < h_next h)%nat) by (apply LO; left; reflexivity).
  split; [|split; [|split; [|split; [|split]]]].
  - unfold coll_ok. rewrite O3, C3, S3. split; [|split].
    + constructor; [|constructor; [|exact ND]].
      * intros [X|X]; [unfold l in X; lia|]. destruct (LA c X) as (_ & [D|D]); [apply NIc; right; exact D | lia].
      * intros X. apply LA in X. unfold l in X. lia.
    + change (h_next h3) with (S (h_next h1)). intros x [<-|[<-|X]]; [lia | unfold l; lia | apply LA in X; lia].
    + reflexivity.
  - split; [change (h_next h3) with (S (h_next h1)); lia|]. intros x Lx NI.
    unfold owned_coll in NI. fold l0 in NI. destruct (S1 x Lx ltac:(intros [])) as (A & B & C & D).
    unfold h3. split; [exact A|]. cbn [h_lists h_colls h_segs]. split; [|split; [|exact D]].
    + rewrite put_other; [exact B | unfold l; lia].
    + rewrite put_other; [exact C|]. intros ->. apply NI. left. reflexivity.
  - rewrite O3. unfold owned_coll. fold l0. intros x [<-|[<-|X]]; [left; left; reflexivity | right; unfold l; lia|].
    destruct (LA x X) as (_ & [D|D]); [left; right; right; exact D | right; exact D].
  - unfold h3. cbn. exact ES.
  - reflexivity.
  - unfold coll_view. rewrite S3, C3. reflexivity.
Qed.

Definition does (m : M unit) (h : heap) (c : nat) (v : result shade_coll) : Prop :=
  coll_does h (snd (m h)) c (fst (m h)) v.

Lemma list_nodup : forall h c, coll_ok h c -> NoDup (h_lists h (co_list (h_colls h c))) /\
  forall x, In x (h_lists h (co_list (h_colls h c))) -> (x < h_next h)%nat.
Proof.
  intros h c (NO & LO & _). unfold owned_coll in *. inversion NO as [|? ? _ N1]; subst. inversion N1; subst.
  split; [assumption|]. intros x X. apply LO. right. right. exact X.
Qed.

Lemma nodup_snoc : forall (l : list nat) a, NoDup l -> ~ In a l -> NoDup (l ++ [a]).
Proof.
  intros l a N NI. induction l as [|y ys IH]; cbn; [constructor; [intros [] | constructor]|]. inversion N; subst. constructor.
  - rewrite in_app_iff. intros [X|[X|[]]]; [tauto|]. apply NI. left. auto.
  - apply IH; [assumption|]. intro X. apply NI. right. exact X.
Qed.

Lemma frame_new_surf : forall h s, frame h (Heap (put (h_surfs h) (h_next h) s) (h_lists h) (h_colls h) (h_segs h) (S (h_next h))) [].
Proof. intros h s. split; [cbn; lia|]. intros x L _. repeat split. cbn. rewrite put_other by lia. reflexivity. Qed.

Lemma mbind_ok : forall A B (m : M A) (f : A -> M B) h x h', m h = (Ok x, h') -> mbind m f h = f x h'.
Proof. intros A B m f h x h' E. unfold mbind. rewrite E. reflexivity. Qed.
Lemma mbind_err : forall A B (m : M A) (f : A -> M B) h e h', m h = (Err e, h') -> mbind m f h = (Err e, h').
Proof. intros A B m f h e h' E. unfold mbind. rewrite E. reflexivity. Qed.
Lemma bind_lift : forall A B (r : result A) (f : A -> M B) h,
  mbind (lift r) f h = match r with Ok x => f x h | Err e => (Err e, h) end.
Proof. reflexivity. Qed.
Lemma bind_view : forall A c (f : shade_coll -> M A) h, mbind (view_coll c) f h = f (coll_view h c) h.
Proof. reflexivity. Qed.
Lemma bind_view_seg : forall A c (f : pv_segment -> M A) h, mbind (view_seg c) f h = f (seg_view h c) h.
Proof. reflexivity. Qed.
Lemma bind_coll : forall A c (f : coll_obj -> M A) h, mbind (get_coll c) f h = f (h_colls h c) h.
Proof. reflexivity. Qed.
Lemma bind_seg : forall A c (f : seg_obj -> M A) h, mbind (get_seg c) f h = f (h_segs h c) h.
Proof. reflexivity. Qed.
Lemma bind_list : forall A c (f : list nat -> M A) h, mbind (get_list c) f h = f (h_lists h c) h.
Proof. reflexivity. Qed.

Lemma add_pvsurface_does : forall c s h, coll_ok h c ->
  does (do! a <- new_surf s; hsc_add_pvsurface c a) h c (Ok (add_pvsurface (coll_view h c) s)).
Proof.
  intros c s h OK. unfold does. unfold new_surf. erewrite mbind_ok by reflexivity. set (h1 := Heap _ _ _ _ _).
  destruct (list_nodup h c OK) as (NL & LL).
  assert (LT : forall x, In x (h_lists h (co_list (h_colls h c)) ++ [h_next h]) ->
    (x < h_next h1)%nat /\ (In x (h_lists h (co_list (h_colls h c))) \/ (h_next h <= x)%nat)).
  { intros x X. apply in_app_or in X. destruct X as [X|[<-|[]]]; [split; [apply LL in X; cbn; lia | left; exact X] | cbn; split; [lia | right; lia]]. }
  assert (MP : map (h_surfs h1) (h_lists h (co_list (h_colls h c)) ++ [h_next h]) = list_surfaces h c ++ [s]).
  { rewrite map_app. cbn [map]. f_equal; [|cbn; rewrite put_same; reflexivity].
    apply (map_frame h h1 []); [apply frame_new_surf|]. intros x X. split; [apply LL, X | intros []]. }
  assert (NI : ~ In (h_next h) (h_lists h (co_list (h_colls h c)))) by (intro X; apply LL in X; lia).
  pose proof (in_place h h1 c _ (is_collinear (surf_nvecs (list_surfaces h c ++ [s]))) _ OK (frame_new_surf h s) eq_refl eq_refl eq_refl (nodup_snoc _ _ NL NI) LT MP) as G.
  unfold hsc_add_pvsurface. rewrite bind_coll, bind_list. unfold set_list. erewrite mbind_ok by reflexivity. rewrite bind_view.
  replace (sc_surfaces (coll_view _ c)) with (list_surfaces h c ++ [s]).
  2:{ cbn [sc_surfaces coll_view]. unfold list_surfaces at 2. cbn [h_colls h_lists h_surfs]. rewrite put_same. symmetry. exact MP. }
  unfold add_pvsurface. cbn [sc_surfaces coll_view sc_shaded sc_names].
  exact G.
Qed.

Lemma add_linestring_does : forall c l n h, coll_ok h c ->
  does (hsc_add_linestring c l n) h c (add_linestring (coll_view h c) l n).
Proof.
  intros c l n h OK. unfold does, hsc_add_linestring. rewrite bind_view, bind_lift. unfold add_linestring.
  destruct (match n with Some n0 => Ok (Some n0) | None => sc_nvec (coll_view h c) end) as [n'|e] eqn:EN; cbn [bind];
    [|cbn; apply raised; [exact OK | apply frame_refl | reflexivity]].
  cbn [sc_shaded coll_view]. destruct (co_shaded (h_colls h c)) as [b|] eqn:ESh;
    [|cbn; apply raised; [exact OK | apply frame_refl | reflexivity]].
  rewrite bind_lift. cbn [sc_names coll_view].
  destruct (pvsurface_init l n' b None (co_names (h_colls h c)) None) as [s|e]; cbn [bind];
    [|cbn; apply raised; [exact OK | apply frame_refl | reflexivity]].
  exact (add_pvsurface_does c s h OK).
Qed.

Lemma remove_linestring_does : forall c l h, coll_ok h c ->
  does (hsc_remove_linestring c l) h c (Ok (remove_linestring (coll_view h c) l)).
Proof.
  intros c l h OK. unfold does, hsc_remove_linestring. rewrite bind_coll, bind_list. destruct (list_nodup h c OK) as (NL & LL).
  destruct (remove_loop_spec l _ h LL NL) as (new & h1 & E & FR & ND & LA & MP & EL & EC & ES).
  rewrite (mbind_ok _ _ _ _ _ _ _ E).
  apply (new_list_for h h1 c new _ _ OK FR EL EC ES ND LA MP).
Qed.

Lemma merge_does : forall c h, coll_ok h c -> does (hsc_merge_surfaces c) h c (merge_surfaces (coll_view h c)).
Proof.
  intros c h OK. unfold does, hsc_merge_surfaces. rewrite bind_coll, bind_view.
  assert (SV : sc_surfaces (coll_view h c) = list_surfaces h c) by reflexivity. rewrite SV.
  destruct (list_surfaces h c) as [|s1 [|s2 r]] eqn:EL0.
  - replace (merge_surfaces (coll_view h c)) with (Ok (coll_view h c)) by (unfold merge_surfaces; rewrite SV; reflexivity). apply nothing_done, OK.
  - replace (merge_surfaces (coll_view h c)) with (Ok (coll_view h c)) by (unfold merge_surfaces; rewrite SV; reflexivity). apply nothing_done, OK.
  - rewrite bind_lift. unfold merge_surfaces. rewrite SV. cbn [coll_view sc_shaded sc_collinear sc_names].
    destruct (co_shaded (h_colls h c)) as [b|] eqn:ESh; [|cbn; apply raised; [exact OK | apply frame_refl | reflexivity]].
    unfold pvsurface_init. cbn [bind sc_surfaces]. set (s := PVSurface _ _ _ _ _ _).
    destruct (new_surfs_spec [s] h) as (addrs & h1 & E & FR & ND & LT & MP & EL & EC & ES).
    rewrite (mbind_ok _ _ _ _ _ _ _ E).
    pose proof (new_list_for h h1 c addrs (co_collinear (h_colls h c)) [s] OK FR EL EC ES ND) as G. rewrite ESh in G. apply G; [|exact MP].
    intros x X. apply LT in X. split; [lia | right; lia].
Qed.

Lemma cut_does : forall c p h, coll_ok h c -> does (hsc_cut_at_point c p) h c (sc_cut_at_point (coll_view h c) p).
Proof.
  intros c p h OK. unfold does, hsc_cut_at_point. rewrite bind_coll, bind_list. destruct (list_nodup h c OK) as (NL & LL).
  destruct (cut_loop_spec p _ h LL NL) as (r & h1 & E & FR & EL & EC & ES & V).
  unfold sc_cut_at_point. cbn [sc_surfaces coll_view]. fold (list_surfaces h c) in V.
  destruct (cut_loop (list_surfaces h c) p) as [[[vs v2]|]|e]; cbn [bind].
  - destruct V as (l & a2 & -> & ND & LA & MP). rewrite (mbind_ok _ _ _ _ _ _ _ E).
    pose proof (in_place h h1 c _ (co_collinear (h_colls h c)) _ OK FR EL EC ES ND LA MP) as G.
    unfold set_list. erewrite mbind_ok by reflexivity. exact G.
  - subst r. rewrite (mbind_ok _ _ _ _ _ _ _ E). apply kept; [exact OK | exact FR | exact ES].
  - subst r. rewrite (mbind_err _ _ _ _ _ _ _ E). apply raised; [exact OK | exact FR | exact ES].
Qed.

Lemma update_does : forall c d h, coll_ok h c -> does (hsc_update c d) h c (Ok (sc_update (coll_view h c) d)).
Proof.
  intros c d h OK. unfold does, hsc_update. rewrite bind_coll, bind_list.
  destruct (list_nodup h c OK) as (NL & LL). pose proof OK as (NO & LO & GE).
  destruct (update_loop_spec d _ h NL) as (h' & E & FR & MP & EL & EC & ES & EN). rewrite E. cbn [fst snd].
  assert (S' : list_surfaces h' c = map (fun s => su_update s d) (list_surfaces h c)).
  { unfold list_surfaces at 1. rewrite EC, EL. exact MP. }
  assert (O' : owned_coll h' c = owned_coll h c) by (unfold owned_coll; rewrite EC, EL; reflexivity).
  split; [|split; [|split; [|split; [|split]]]].
  - unfold coll_ok. rewrite O', EN, EC, S'. split; [exact NO|]. split; [exact LO|]. rewrite GE, map_map. reflexivity.
  - apply (frame_weak _ _ _ _ FR). intros x X. right. right. exact X.
  - rewrite O'. tauto.
  - exact ES.
  - reflexivity.
  - unfold coll_view, sc_update. rewrite S', EC. reflexivity.
Qed.

(* -------------------------------------------------------------------- segments *)

Lemma apart_sym : forall l l', apart l l' -> apart l' l.
Proof. intros l l' A x X Y. exact (A x Y X). Qed.

(** Two collections of the segment at [s], in either order. *)
Definition two_colls (h : heap) (s c d : nat) : Prop :=
  coll_ok h c /\ coll_ok h d /\ apart (owned_coll h c) (owned_coll h d) /\
  ~ In s (owned_coll h c) /\ ~ In s (owned_coll h d) /\ (s < h_next h)%nat.
Definition seg_ok (h : heap) (s : nat) : Prop := two_colls h s (so_illum (h_segs h s)) (so_shaded (h_segs h s)).

Lemma two_sym : forall h s c d, two_colls h s c d -> two_colls h s d c.
Proof. intros h s c d (A & B & C & D & E & F). split; [exact B|]. split; [exact A|]. split; [apply apart_sym, C|]. tauto. Qed.

Lemma touch : forall h h' s c d r v, two_colls h s c d -> coll_does h h' c r v ->
  two_colls h' s c d /\ coll_view h' d = coll_view h d /\ owned_coll h' d = owned_coll h d /\ h_colls h' d = h_colls h d.
Proof.
  intros h h' s c d r v (OC & OD & AP & NC & ND & L) (OC' & FR & GR & ES & _).
  destruct (owned_coll_frame h h' _ d FR) as (E1 & E2 & E3 & E4).
  { intros x X. split; [apply OD, X | intro Y; exact (AP x Y X)]. }
  split; [|tauto]. split; [exact OC'|]. destruct FR as (N & _).
  split. { destruct OD as (A & B & C). unfold coll_ok. rewrite E1, E3, E4. split; [exact A|]. split; [|exact C]. intros x X. apply B in X. lia. }
  rewrite E1. split. { intros x X Y. destruct (GR x X) as [Z|Z]; [exact (AP x Z Y)|]. apply OD in Y. lia. }
  split. { intro X. destruct (GR s X) as [Z|Z]; [tauto | lia]. }
  split; [exact ND | lia].
Qed.

(** A call of a method of the segment [s]. *)
Definition seg_does (h h' : heap) (s : nat) (r : result unit) (v : result seg_value) : Prop :=
  seg_ok h' s /\ frame h h' (owned h s) /\
  (forall x, In x (owned h' s) -> In x (owned h s) \/ (h_next h <= x)%nat) /\
  match v with
  | Ok v' => r = Ok tt /\ value_of h' s = v'
  | Err e => r = Err e /\ value_of h' s = value_of h s
  end.
Definition sdoes (m : M unit) (h : heap) (s : nat) (v : result seg_value) : Prop :=
  seg_does h (snd (m h)) s (fst (m h)) v.

(** One of the two collections changed by its own method. *)
Lemma on_illum : forall h h' s r v, seg_ok h s -> coll_does h h' (so_illum (h_segs h s)) r v ->
  seg_does h h' s r (do c <- v; Ok (SegValue (PVSegment c (sg_shaded (seg_view h s)) None) (so_geom (h_segs h s)))).
Proof.
  intros h h' s r v OK CD. pose proof (touch _ _ _ _ _ _ _ OK CD) as (OK' & EV & EO & _).
  destruct CD as (_ & FR & GR & ES & V).
  assert (Es : h_segs h' s = h_segs h s) by (rewrite ES; reflexivity).
  split; [unfold seg_ok; rewrite Es; exact OK'|].
  split; [apply (frame_weak _ _ _ _ FR); intros x X; right; apply in_or_app; left; exact X|].
  split. { unfold owned. rewrite Es. intros x [<-|X]; [left; left; reflexivity|]. apply in_app_or in X. destruct X as [X|X].
    - destruct (GR x X) as [Z|Z]; [left; right; apply in_or_app; left; exact Z | right; exact Z].
    - rewrite EO in X. left. right. apply in_or_app. right. exact X. }
  destruct v as [c|e]; cbn [bind]; destruct V as (-> & E); split; try reflexivity; unfold value_of, seg_view; rewrite Es, E, EV; reflexivity.
Qed.
Lemma on_shaded : forall h h' s r v, seg_ok h s -> coll_does h h' (so_shaded (h_segs h s)) r v ->
  seg_does h h' s r (do c <- v; Ok (SegValue (PVSegment (sg_illum (seg_view h s)) c None) (so_geom (h_segs h s)))).
Proof.
  intros h h' s r v OK CD. pose proof (touch _ _ _ _ _ _ _ (two_sym _ _ _ _ OK) CD) as (OK' & EV & EO & _).
  destruct CD as (_ & FR & GR & ES & V).
  assert (Es : h_segs h' s = h_segs h s) by (rewrite ES; reflexivity).
  split; [unfold seg_ok; rewrite Es; apply two_sym; exact OK'|].
  split; [apply (frame_weak _ _ _ _ FR); intros x X; right; apply in_or_app; right; exact X|].
  split. { unfold owned. rewrite Es. intros x [<-|X]; [left; left; reflexivity|]. apply in_app_or in X. destruct X as [X|X].
    - rewrite EO in X. left. right. apply in_or_app. left. exact X.
    - destruct (GR x X) as [Z|Z]; [left; right; apply in_or_app; right; exact Z | right; exact Z]. }
  destruct v as [c|e]; cbn [bind]; destruct V as (-> & E); split; try reflexivity; unfold value_of, seg_view; rewrite Es, E, EV; reflexivity.
Qed.

Lemma seg_nothing : forall h s, seg_ok h s -> seg_does h h s (Ok tt) (Ok (value_of h s)).
Proof. intros h s OK. split; [exact OK|]. split; [apply frame_refl|]. split; [tauto|]. split; reflexivity. Qed.
Lemma seg_raised : forall h s e, seg_ok h s -> seg_does h h s (Err e) (Err e).
Proof. intros h s e OK. split; [exact OK|]. split; [apply frame_refl|]. split; [tauto|]. split; reflexivity. Qed.

(** One method after another. *)
Lemma seg_then : forall h h1 h2 s r v, seg_does h h1 s (Ok tt) (Ok v) -> seg_does h1 h2 s r (Ok (value_of h2 s)) -> r = Ok tt ->
  seg_does h h2 s (Ok tt) (Ok (value_of h2 s)).
Proof.
  intros h h1 h2 s r v (_ & F1 & G1 & _) (OK & F2 & G2 & _) _. split; [exact OK|].
  assert (N1 := proj1 F1).
  split; [apply (frame_trans h h1 h2 _ _ F1 F2); exact G1|].
  split; [|split; reflexivity]. intros x X. destruct (G2 x X) as [Y|Y]; [exact (G1 x Y) | right; lia].
Qed.

(** The collections of [s] set to [c] and [d], which are its own or new. *)
Lemma set_colls_does : forall h h1 s c d, (s < h_next h)%nat -> ~ In s (owned h s) \/ True ->
  frame h h1 [] -> two_colls h1 s c d ->
  (forall x, In x (owned_coll h1 c) \/ In x (owned_coll h1 d) -> In x (owned h s) \/ (h_next h <= x)%nat) ->
  let h2 := snd (set_colls s c d h1) in
  seg_does h h2 s (Ok tt)
    (Ok (SegValue (PVSegment (coll_view h1 c) (coll_view h1 d) None)
           (lines_of (PVSegment (coll_view h1 c) (coll_view h1 d) None)))).
Proof.
  intros h h1 s c d Ls _ FR (OC & OD & AP & NC & ND & L1) IN h2. unfold set_colls, set_seg in h2. cbn [snd] in h2.
  assert (Es : h_segs h2 s = SegObj c d (both_geoms h1 c d)) by (unfold h2; cbn; apply put_same).
  assert (FO : forall x, owned_coll h2 x = owned_coll h1 x) by reflexivity.
  split; [|split; [|split; [|split]]].
  - unfold seg_ok. rewrite Es. cbn [so_illum so_shaded]. split; [exact OC|]. split; [exact OD|]. tauto.
  - destruct FR as (N & S1). split; [exact N|]. intros x Lx NI. destruct (S1 x Lx ltac:(intros [])) as (A & B & C & D).
    repeat split; try assumption. unfold h2. cbn [h_segs]. rewrite put_other; [exact D|]. intros ->. apply NI. left. reflexivity.
  - unfold owned at 1. rewrite Es. cbn [so_illum so_shaded]. intros x [<-|X]; [left; left; reflexivity|]. apply in_app_or in X.
    apply IN. exact X.
  - reflexivity.
  - unfold value_of, seg_view. rewrite Es. cbn [so_illum so_shaded so_geom]. f_equal.
    unfold lines_of, both_geoms. cbn [sg_shaded sg_illum coll_view sc_surfaces]. f_equal; [apply OD | apply OC].
Qed.

(** Like [set_colls_does], after methods of the collections of [s]. *)
Lemma set_same_colls : forall h s, seg_ok h s ->
  let o := h_segs h s in let h2 := snd (set_colls s (so_illum o) (so_shaded o) h) in
  seg_does h h2 s (Ok tt) (Ok (SegValue (seg_view h s) (lines_of (seg_view h s)))).
Proof.
  intros h s OK o h2. pose proof OK as (_ & _ & _ & _ & _ & L).
  apply (set_colls_does h h s _ _ L (or_intror Logic.I) (frame_refl h []) OK).
  intros x X. left. unfold owned. right. apply in_or_app. exact X.
Qed.

Lemma cast_does : forall l s h, seg_ok h s -> sdoes (hsg_cast_shadow s l) h s (op_value (Cast l) (value_of h s)).
Proof.
  intros l s h OK. unfold sdoes, hsg_cast_shadow, op_value, sg_cast_shadow. rewrite bind_seg, bind_coll.
  cbn [sv_seg sv_geom value_of seg_view sg_illum sg_shaded sg_cache]. set (o := h_segs h s).
  assert (GE : co_geom (h_colls h (so_illum o)) = map su_line (sc_surfaces (coll_view h (so_illum o)))) by apply OK.
  rewrite GE. destruct (buffer_intersection (map su_line (sc_surfaces (coll_view h (so_illum o)))) l) as [|p|i|ls]; cbn [bind].
  - apply seg_nothing, OK.
  - apply seg_raised, OK.
  - rewrite bind_view_seg, bind_lift. fold o. change (PVSegment (coll_view h (so_illum o)) (coll_view h (so_shaded o)) None) with (seg_view h s).
    destruct (sg_nvec (seg_view h s)) as [n|e]; cbn [bind]; [|apply seg_raised, OK].
    pose proof (add_linestring_does (so_shaded o) i n h ltac:(apply OK)) as A. unfold does in A.
    destruct (hsc_add_linestring (so_shaded o) i n h) as [r1 h1] eqn:E1. cbn [fst snd] in A.
    destruct (add_linestring (coll_view h (so_shaded o)) i n) as [sh|e] eqn:EA; cbn [bind].
    + destruct (on_shaded h h1 s _ _ OK A) as (OK1 & F1 & G1 & _). destruct A as (CO & FR & GR & ES & -> & EV).
      rewrite (mbind_ok _ _ _ _ _ _ _ E1).
      assert (Eo : h_segs h1 s = o) by (rewrite ES; reflexivity).
      pose proof OK1 as OKc. unfold seg_ok in OKc. rewrite Eo in OKc.
      pose proof (remove_linestring_does (so_illum o) i h1 ltac:(apply OKc)) as B. unfold does in B.
      destruct (hsc_remove_linestring (so_illum o) i h1) as [r2 h2] eqn:E2. cbn [fst snd] in B.
      pose proof (touch _ _ _ _ _ _ _ OKc B) as (OK2 & EV2 & _).
      pose proof B as (_ & _ & _ & ES2 & -> & EVi).
      pose proof B as B'. rewrite <- Eo in B' at 1. destruct (on_illum h1 h2 s _ _ OK1 B') as (OKs2 & F2 & G2 & _). clear B'.
      assert (Eo2 : h_segs h2 s = o) by (rewrite ES2; exact Eo).
      rewrite (mbind_ok _ _ _ _ _ _ _ E2).
      pose proof (set_same_colls h2 s OKs2) as D. cbv zeta in D. rewrite Eo2 in D.
      change (fst (set_colls s (so_illum o) (so_shaded o) h2)) with (Ok tt).
      destruct D as (D1 & D2 & D3 & _ & D5).
      split; [exact D1|].
      split; [apply (frame_trans h h1 _ _ (owned h1 s) F1); [apply (frame_trans h1 h2 _ _ (owned h2 s) F2 D2 G2) | exact G1]|].
      assert (N1 := proj1 F1). assert (N2 := proj1 F2).
      split. { intros x X. destruct (D3 x X) as [Y|Y]; [|right; lia]. destruct (G2 x Y) as [Z|Z]; [exact (G1 x Z) | right; lia]. }
      split; [reflexivity|]. rewrite D5.
      assert (SV : seg_view h2 s = PVSegment (remove_linestring (coll_view h (so_illum o)) i) sh None).
      { unfold seg_view. rewrite Eo2, EVi, EV2, EV. f_equal. f_equal.
        destruct (owned_coll_frame h h1 _ (so_illum o) FR) as (_ & X & _); [|exact X].
        destruct OK as (OC & OD & AP & _). fold o in OC, OD, AP. intros x X. split; [apply OC, X | exact (AP x X)]. }
      rewrite SV. reflexivity.
    + pose proof (on_shaded h h1 s _ _ OK A) as G. cbn [bind] in G. destruct A as (_ & _ & _ & _ & -> & _).
      rewrite (mbind_err _ _ _ _ _ _ _ E1). exact G.
  - apply seg_raised, OK.
Qed.

(** A shadow leaves a segment its two collections. *)
Lemma cast_keeps : forall s l h, seg_ok h s ->
  so_shaded (h_segs (snd (hsg_cast_shadow s l h)) s) = so_shaded (h_segs h s).
Proof.
  intros s l h OK. unfold hsg_cast_shadow. rewrite bind_seg, bind_coll.
  destruct (buffer_intersection _ l) as [|p|i|ls]; try reflexivity. rewrite bind_view_seg, bind_lift.
  destruct (sg_nvec (seg_view h s)) as [n|e]; [|reflexivity].
  pose proof (add_linestring_does (so_shaded (h_segs h s)) i n h ltac:(apply OK)) as A. unfold does in A.
  destruct (hsc_add_linestring (so_shaded (h_segs h s)) i n h) as [[[]|e] h1] eqn:E1; cbn [fst snd] in A.
  - rewrite (mbind_ok _ _ _ _ _ _ _ E1).
    destruct (hsc_remove_linestring (so_illum (h_segs h s)) i h1) as [[[]|e] h2] eqn:E2.
    + rewrite (mbind_ok _ _ _ _ _ _ _ E2). cbn. rewrite put_same. reflexivity.
    + exfalso. unfold hsc_remove_linestring in E2. rewrite bind_coll, bind_list in E2.
      destruct (on_shaded h h1 s _ _ OK A) as (OK1 & _). destruct A as (_ & _ & _ & ES & _). unfold seg_ok in OK1. rewrite ES in OK1.
      destruct (list_nodup h1 _ (proj1 OK1)) as (ND & LT).
      destruct (remove_loop_spec i (h_lists h1 (co_list (h_colls h1 (so_illum (h_segs h s))))) h1) as (new & h3 & E3 & _); [|exact ND|].
      { exact LT. }
      rewrite (mbind_ok _ _ _ _ _ _ _ E3) in E2. discriminate.
  - rewrite (mbind_err _ _ _ _ _ _ _ E1). cbn [snd]. destruct A as (_ & _ & _ & -> & _). reflexivity.
Qed.

Lemma geom_contains_any : forall l p, geom_contains (map su_line l) p = contains_any l p.
Proof.
  intros [|s l] p; [reflexivity|]. unfold geom_contains, contains_any. cbn [map existsb]. f_equal.
  induction l as [|a r IH]; [reflexivity|]. cbn. rewrite IH. reflexivity.
Qed.

Lemma scut_does : forall p s h, seg_ok h s -> sdoes (hsg_cut_at_point s p) h s (op_value (Cut p) (value_of h s)).
Proof.
  intros p s h OK. unfold sdoes, hsg_cut_at_point, op_value. rewrite bind_seg, bind_coll. cbn [sv_seg sv_geom value_of seg_view sg_illum sg_shaded].
  set (o := h_segs h s).
  assert (GE : co_geom (h_colls h (so_illum o)) = map su_line (sc_surfaces (coll_view h (so_illum o)))) by apply OK.
  rewrite GE, geom_contains_any. destruct (geom_contains (so_geom o) p); [|apply seg_nothing, OK].
  destruct (contains_any (sc_surfaces (coll_view h (so_illum o))) p).
  - apply (on_illum h _ s _ _ OK). apply cut_does. apply OK.
  - apply (on_shaded h _ s _ _ OK). apply cut_does. apply OK.
Qed.

Lemma smerge_does : forall s h, seg_ok h s -> sdoes (hsg_merge_shaded s) h s (op_value MergeShaded (value_of h s)).
Proof.
  intros s h OK. unfold sdoes, hsg_merge_shaded, op_value. rewrite bind_seg. cbn [sv_seg sv_geom value_of].
  apply (on_shaded h _ s _ _ OK). apply merge_does. apply OK.
Qed.

Lemma supdate_does : forall d s h, seg_ok h s -> sdoes (hsg_update s d) h s (op_value (Update d) (value_of h s)).
Proof.
  intros d s h OK. unfold sdoes, hsg_update, op_value. rewrite bind_seg. cbn [sv_seg sv_geom value_of]. set (o := h_segs h s).
  pose proof (update_does (so_shaded o) d h ltac:(apply OK)) as A. unfold does in A.
  destruct (hsc_update (so_shaded o) d h) as [r1 h1] eqn:E1. cbn [fst snd] in A.
  destruct (on_shaded h h1 s _ _ OK A) as (OK1 & F1 & G1 & _). pose proof A as (_ & FR & _ & ES & -> & EV).
  pose proof (touch _ _ _ _ _ _ _ (two_sym _ _ _ _ OK) A) as (_ & EVi & _).
  rewrite (mbind_ok _ _ _ _ _ _ _ E1).
  assert (Eo : h_segs h1 s = o) by (rewrite ES; reflexivity).
  assert (OKc := OK1). unfold seg_ok in OKc. rewrite Eo in OKc.
  pose proof (update_does (so_illum o) d h1 ltac:(apply OKc)) as B. unfold does in B.
  destruct (hsc_update (so_illum o) d h1) as [r2 h2] eqn:E2. cbn [fst snd] in *.
  pose proof (touch _ _ _ _ _ _ _ OKc B) as (_ & EVs & _).
  pose proof B as B'. rewrite <- Eo in B' at 1. destruct (on_illum h1 h2 s _ _ OK1 B') as (OKs2 & F2 & G2 & _). clear B'.
  destruct B as (_ & _ & _ & ES2 & -> & EV2).
  split; [exact OKs2|]. split; [apply (frame_trans h h1 _ _ (owned h1 s) F1 F2 G1)|]. assert (N1 := proj1 F1).
  split. { intros x X. destruct (G2 x X) as [Z|Z]; [exact (G1 x Z) | right; lia]. }
  split; [reflexivity|]. unfold value_of, seg_view at 1. rewrite ES2, Eo, EV2, EVs, EV. fold o in EVi. rewrite EVi. reflexivity.
Qed.

(* -------------------------------------------------------------- new collections *)

Definition new_coll_done (h h' : heap) (c : nat) (v : shade_coll) : Prop :=
  frame h h' [] /\ coll_ok h' c /\ (forall x, In x (owned_coll h' c) -> (h_next h <= x)%nat) /\
  coll_view h' c = v /\ h_segs h' = h_segs h.

(** A collection made of surfaces that are new. *)
Lemma init_does : forall addrs h shaded names v,
  (forall x, In x addrs -> (x < h_next h)%nat) -> NoDup addrs ->
  shade_collection (map (h_surfs h) addrs) shaded names = Ok v ->
  exists c h', (do! ls <- new_list addrs; hsc_init ls shaded names) h = (Ok c, h') /\
  frame h h' [] /\ coll_ok h' c /\ (forall x, In x (owned_coll h' c) -> (h_next h <= x)%nat \/ In x addrs) /\
  coll_view h' c = v /\ h_segs h' = h_segs h.
Proof.
  intros addrs h shaded names v LT ND E.
  unfold mbind, new_list, hsc_init, mbind, get_list, lift, new_coll. cbn [h_lists h_surfs]. rewrite put_same, E.
  cbn [h_colls h_segs h_next]. eexists _, _. split; [reflexivity|].
  set (l := h_next h). set (c := S l).
  assert (V : sc_surfaces v = map (h_surfs h) addrs).
  { unfold shade_collection in E. destruct (check_uniform_shading (map (h_surfs h) addrs)); cbn in E; [inversion E; reflexivity | discriminate]. }
  set (h' := Heap _ _ _ _ _).
  assert (C' : h_colls h' c = CollObj l (sc_shaded v) (sc_collinear v) (sc_names v) (map su_line (sc_surfaces v))) by (unfold h'; cbn; apply put_same).
  assert (L' : h_lists h' l = addrs) by (unfold h'; cbn; apply put_same).
  assert (S' : list_surfaces h' c = sc_surfaces v) by (unfold list_surfaces; rewrite C'; cbn [co_list]; rewrite L', V; reflexivity).
  assert (O' : owned_coll h' c = c :: l :: addrs) by (unfold owned_coll; rewrite C'; cbn [co_list]; rewrite L'; reflexivity).
  split. { split; [cbn; lia|]. intros x L _. repeat split; cbn; rewrite put_other by (unfold c, l; lia); reflexivity. }
  split. { unfold coll_ok. rewrite O', C', S'. split; [|split; [|reflexivity]].
    - constructor; [|constructor; [|exact ND]].
      + intros [X|X]; [unfold c in X; lia|]. apply LT in X. unfold c, l in X. lia.
      + intro X. apply LT in X. unfold l in X. lia.
    - cbn [h_next h']. intros x [<-|[<-|X]]; [unfold c; lia | lia | apply LT in X; unfold l; lia]. }
  split. { rewrite O'. intros x [<-|[<-|X]]; [left; unfold c, l; lia | left; unfold l; lia | right; exact X]. }
  split; [|reflexivity]. unfold coll_view. rewrite S', C'. destruct v; reflexivity.
Qed.

Lemma from_coords_does : forall l b n names h,
  match sc_from_coords l b n names with
  | Ok v => exists c h', hsc_from_coords l b n names h = (Ok c, h') /\ new_coll_done h h' c v
  | Err e => hsc_from_coords l b n names h = (Err e, h)
  end.
Proof.
  intros l b n names h. unfold sc_from_coords, hsc_from_coords. rewrite bind_lift.
  destruct (pvsurface_init l n b None names None) as [s|e]; cbn [bind]; [|reflexivity].
  destruct (shade_collection [s] (Some b) names) as [v|e] eqn:E; [|discriminate].
  unfold new_surf at 1. erewrite mbind_ok by reflexivity. set (h1 := Heap _ _ _ _ _).
  destruct (init_does [h_next h] h1 (Some b) names v) as (c & h' & R & FR & OK & IN & VI & ES).
  - intros x [<-|[]]. cbn. lia.
  - constructor; [intros [] | constructor].
  - cbn [map]. replace (h_surfs h1 (h_next h)) with s by (cbn; rewrite put_same; reflexivity). exact E.
  - exists c, h'. split; [exact R|]. split; [|split; [exact OK|]; split; [|split; [exact VI | exact ES]]].
    + apply (frame_trans h h1 h' [] [] (frame_new_surf h s) FR). intros x [].
    + intros x X. destruct (IN x X) as [Y|[<-|[]]]; [cbn in Y; lia | lia].
Qed.

Lemma empty_does : forall b names h, exists c h', hsc_empty b names h = (Ok c, h') /\
  new_coll_done h h' c (ShadeColl [] (Some b) true names).
Proof.
  intros b names h. destruct (init_does [] h (Some b) names (ShadeColl [] (Some b) true names)) as (c & h' & R & FR & OK & IN & VI & ES).
  - intros x [].
  - constructor.
  - reflexivity.
  - exists c, h'. split; [exact R|]. split; [exact FR|]. split; [exact OK|]. split; [|split; [exact VI | exact ES]].
    intros x X. destruct (IN x X) as [Y|[]]. exact Y.
Qed.

Lemma seg_frame : forall h h' s, seg_ok h s -> frame h h' [] -> seg_ok h' s /\ owned h' s = owned h s /\ value_of h' s = value_of h s /\ h_segs h' s = h_segs h s.
Proof.
  intros h h' s (OC & OD & AP & NC & ND & L) FR.
  assert (Es : h_segs h' s = h_segs h s) by (apply (proj2 FR s L); intros []).
  destruct (ok_frame h h' _ OC FR) as (OC' & EC & VC & _). destruct (ok_frame h h' _ OD FR) as (OD' & ED & VD & _).
  split. { unfold seg_ok. rewrite Es. split; [exact OC'|]. split; [exact OD'|]. rewrite EC, ED. destruct FR as (N & _). repeat split; try assumption. lia. }
  split; [unfold owned; rewrite Es, EC, ED; reflexivity|]. split; [|exact Es].
  unfold value_of, seg_view. rewrite Es, VC, VD. reflexivity.
Qed.
Lemma seg_raised_frame : forall h h' s e, seg_ok h s -> frame h h' [] -> seg_does h h' s (Err e) (Err e).
Proof.
  intros h h' s e OK FR. destruct (seg_frame h h' s OK FR) as (OK' & EO & EV & _). split; [exact OK'|].
  split; [apply (frame_weak h h' []); [exact FR | intros x []]|]. split; [rewrite EO; tauto|]. split; [reflexivity | exact EV].
Qed.

(** A new collection in place of one of those of [s]. *)
Lemma new_illum : forall h h1 s c v, seg_ok h s -> new_coll_done h h1 c v ->
  let s' := PVSegment v (coll_view h (so_shaded (h_segs h s))) None in
  seg_does h (snd (set_colls s c (so_shaded (h_segs h1 s)) h1)) s (Ok tt) (Ok (SegValue s' (lines_of s'))).
Proof.
  intros h h1 s c v OK (FR & OC & NEW & VI & ES). pose proof OK as (_ & OD & _ & _ & ND & L).
  destruct (seg_frame h h1 s OK FR) as (_ & _ & _ & Es). rewrite Es. set (o := h_segs h s) in *.
  destruct (ok_frame h h1 _ OD FR) as (OD' & ED & VD & _). rewrite <- VI, <- VD.
  apply (set_colls_does h h1 s c (so_shaded o) L (or_intror Logic.I) FR).
  - split; [exact OC|]. split; [exact OD'|]. rewrite ED. split. { intros x X Y. apply NEW in X. apply OD in Y. lia. }
    split; [intro X; apply NEW in X; lia|]. split; [exact ND|]. destruct FR as (N & _). lia.
  - intros x [X|X]; [right; apply NEW, X|]. left. right. apply in_or_app. right. rewrite ED in X. exact X.
Qed.
Lemma new_shaded : forall h h1 s c v, seg_ok h s -> new_coll_done h h1 c v ->
  let s' := PVSegment (coll_view h (so_illum (h_segs h s))) v None in
  seg_does h (snd (set_colls s (so_illum (h_segs h1 s)) c h1)) s (Ok tt) (Ok (SegValue s' (lines_of s'))).
Proof.
  intros h h1 s c v OK (FR & OC & NEW & VI & ES). pose proof OK as (OD & _ & _ & ND & _ & L).
  destruct (seg_frame h h1 s OK FR) as (_ & _ & _ & Es). rewrite Es. set (o := h_segs h s) in *.
  destruct (ok_frame h h1 _ OD FR) as (OD' & ED & VD & _). rewrite <- VI, <- VD.
  apply (set_colls_does h h1 s (so_illum o) c L (or_intror Logic.I) FR).
  - split; [exact OD'|]. split; [exact OC|]. rewrite ED. split. { intros x Y X. apply NEW in X. apply OD in Y. lia. }
    split; [exact ND|]. split; [intro X; apply NEW in X; lia|]. destruct FR as (N & _). lia.
  - intros x [X|X]; [|right; apply NEW, X]. left. right. apply in_or_app. left. rewrite ED in X. exact X.
Qed.

Lemma op_does : forall o s h, seg_ok h s -> sdoes (do_op o s) h s (op_value o (value_of h s)).
Proof.
  intros [l|p| |d| | |l b n names|l b n names] s h OK; cbn [do_op].
  - apply cast_does, OK.
  - apply scut_does, OK.
  - apply smerge_does, OK.
  - apply supdate_does, OK.
  - unfold sdoes, hdel_shaded, op_value. rewrite bind_seg. destruct (empty_does true [] h) as (c & h1 & E & N).
    rewrite (mbind_ok _ _ _ _ _ _ _ E). pose proof (new_shaded h h1 s c _ OK N) as G.
    destruct N as (FR & _). destruct (seg_frame h h1 s OK FR) as (_ & _ & _ & Es). rewrite Es in G. exact G.
  - unfold sdoes, hdel_illum, op_value. rewrite bind_seg. destruct (empty_does false [] h) as (c & h1 & E & N).
    rewrite (mbind_ok _ _ _ _ _ _ _ E). pose proof (new_illum h h1 s c _ OK N) as G.
    destruct N as (FR & _). destruct (seg_frame h h1 s OK FR) as (_ & _ & _ & Es). rewrite Es in G. exact G.
  - unfold sdoes, op_value. pose proof (from_coords_does l b n names h) as X. cbn [sv_seg sv_geom value_of].
    destruct (sc_from_coords l b n names) as [v|e]; cbn [bind]; [|rewrite (mbind_err _ _ _ _ _ _ _ X); apply seg_raised, OK].
    destruct X as (c & h1 & E & N). rewrite (mbind_ok _ _ _ _ _ _ _ E). pose proof (new_shaded h h1 s c _ OK N) as G.
    destruct N as (FR & _ & _ & VI & _).
    unfold hset_shaded, set_shaded. rewrite bind_seg, bind_view, VI. destruct (sc_shaded v) as [[]|]; cbn [bind]; [exact G| |];
      cbn [fst snd raise]; apply seg_raised_frame; assumption.
  - unfold sdoes, op_value. pose proof (from_coords_does l b n names h) as X. cbn [sv_seg sv_geom value_of].
    destruct (sc_from_coords l b n names) as [v|e]; cbn [bind]; [|rewrite (mbind_err _ _ _ _ _ _ _ X); apply seg_raised, OK].
    destruct X as (c & h1 & E & N). rewrite (mbind_ok _ _ _ _ _ _ _ E). pose proof (new_illum h h1 s c _ OK N) as G.
    destruct N as (FR & _ & _ & VI & _).
    unfold hset_illum, set_illum. rewrite bind_seg, bind_view, VI. destruct (sc_shaded v) as [[]|]; cbn [bind]; [|exact G|exact G].
    cbn [fst snd raise]; apply seg_raised_frame; assumption.
Qed.

(* ------------------------------------------------------------------ new segments *)

Lemma sg_init_does : forall h i s vi vs, coll_ok h i -> coll_ok h s -> apart (owned_coll h i) (owned_coll h s) ->
  coll_view h i = vi -> coll_view h s = vs ->
  match pvsegment_init vi vs with
  | Ok v => exists a h', hsg_init (Some i) (Some s) h = (Ok a, h') /\ frame h h' [] /\ seg_ok h' a /\
      (forall x, In x (owned h' a) -> x = h_next h \/ In x (owned_coll h i) \/ In x (owned_coll h s)) /\
      value_of h' a = SegValue v (lines_of v)
  | Err e => hsg_init (Some i) (Some s) h = (Err e, h)
  end.
Proof.
  intros h i s vi vs OI OS AP <- <-. unfold hsg_init. rewrite !bind_view, bind_lift.
  destruct (pvsegment_init (coll_view h i) (coll_view h s)) as [v|e] eqn:E; [|reflexivity].
  assert (V : v = PVSegment (coll_view h i) (coll_view h s) None).
  { unfold pvsegment_init in E. destruct (sc_shaded (coll_view h s)) as [[]|]; try discriminate.
    destruct (sc_shaded (coll_view h i)) as [[]|]; try discriminate;
      (destruct (segment_check (coll_view h i) (coll_view h s)); cbn in E; [inversion E; reflexivity | discriminate]). }
  unfold new_seg. eexists _, _. split; [reflexivity|]. set (a := h_next h). set (h' := Heap _ _ _ _ _).
  assert (Es : h_segs h' a = SegObj i s (both_geoms h i s)) by (unfold h'; cbn; apply put_same).
  assert (FR : frame h h' []).
  { split; [cbn; lia|]. intros x L _. repeat split. cbn. rewrite put_other by (unfold a; lia). reflexivity. }
  destruct (ok_frame h h' i OI FR) as (OI' & EI & VI & _). destruct (ok_frame h h' s OS FR) as (OS' & ES & VS & _).
  split; [exact FR|].
  split. { unfold seg_ok. rewrite Es. cbn [so_illum so_shaded]. split; [exact OI'|]. split; [exact OS'|]. rewrite EI, ES. split; [exact AP|].
    split; [intro X; apply OI in X; unfold a in X; lia|]. split; [intro X; apply OS in X; unfold a in X; lia|]. cbn. unfold a. lia. }
  split. { unfold owned. rewrite Es. cbn [so_illum so_shaded]. rewrite EI, ES. intros x [<-|X]; [left; reflexivity|]. right. apply in_app_or, X. }
  unfold value_of, seg_view. rewrite Es. cbn [so_illum so_shaded so_geom]. rewrite VI, VS, V. f_equal.
  unfold lines_of, both_geoms. cbn [sg_shaded sg_illum coll_view sc_surfaces]. f_equal; [apply OS | apply OI].
Qed.

Lemma sg_from_coords_does : forall l b n names h,
  match sg_from_coords l b n names with
  | Ok v => exists s h', hsg_from_coords l b n names h = (Ok s, h') /\ frame h h' [] /\ seg_ok h' s /\
      (forall x, In x (owned h' s) -> (h_next h <= x)%nat) /\ value_of h' s = SegValue v (lines_of v)
  | Err e => exists h', hsg_from_coords l b n names h = (Err e, h') /\ frame h h' []
  end.
Proof.
  intros l b n names h. unfold sg_from_coords, hsg_from_coords. pose proof (from_coords_does l b n names h) as X.
  destruct (sc_from_coords l b n names) as [col|e]; cbn [bind];
    [|exists h; rewrite (mbind_err _ _ _ _ _ _ _ X); split; [reflexivity | apply frame_refl]].
  destruct X as (c & h1 & E1 & FR1 & OC1 & NEW1 & VC1 & ES1). rewrite (mbind_ok _ _ _ _ _ _ _ E1).
  change (shade_collection [] (Some (negb b)) names) with (Ok (ShadeColl [] (Some (negb b)) true names)). cbn [bind].
  destruct (empty_does (negb b) names h1) as (d & h2 & E2 & FR2 & OC2 & NEW2 & VC2 & ES2). rewrite (mbind_ok _ _ _ _ _ _ _ E2).
  destruct (ok_frame h1 h2 c OC1 FR2) as (OC1' & EO & VC1' & _).
  assert (FR : frame h h2 []) by (apply (frame_trans h h1 h2 [] [] FR1 FR2); intros x []).
  assert (AP : apart (owned_coll h2 c) (owned_coll h2 d)).
  { intros x A B. rewrite EO in A. apply OC1 in A. apply NEW2 in B. lia. }
  assert (N1 := proj1 FR1). assert (N2 := proj1 FR2).
  destruct b.
  - pose proof (sg_init_does h2 d c _ col OC2 OC1' (apart_sym _ _ AP) VC2 ltac:(rewrite VC1'; exact VC1)) as G.
    destruct (pvsegment_init (ShadeColl [] (Some (negb true)) true names) col) as [v|e].
    + destruct G as (a & h' & E & F & OK & IN & V). exists a, h'. split; [exact E|]. split; [apply (frame_trans h h2 h' [] [] FR F); intros x []|].
      split; [exact OK|]. split; [|exact V]. intros x X. destruct (IN x X) as [->|[Y|Y]]; [lia | apply NEW2 in Y; lia | rewrite EO in Y; apply NEW1, Y].
    + exists h2. split; [exact G | exact FR].
  - pose proof (sg_init_does h2 c d col _ OC1' OC2 AP ltac:(rewrite VC1'; exact VC1) VC2) as G.
    destruct (pvsegment_init col (ShadeColl [] (Some (negb false)) true names)) as [v|e].
    + destruct G as (a & h' & E & F & OK & IN & V). exists a, h'. split; [exact E|]. split; [apply (frame_trans h h2 h' [] [] FR F); intros x []|].
      split; [exact OK|]. split; [|exact V]. intros x X. destruct (IN x X) as [->|[Y|Y]]; [lia | rewrite EO in Y; apply NEW1, Y | apply NEW2 in Y; lia].
    + exists h2. split; [exact G | exact FR].
Qed.

(* ---------------------------------------------------------------------- programs *)

(** What holds while the program of SpecHeap.v runs. *)
Definition all_apart (h : heap) (segs : list nat) : Prop :=
  forall i j s s', i <> j -> nth_error segs i = Some s -> nth_error segs j = Some s' -> apart (owned h s) (owned h s').
Definition intact (h : heap) : Prop := forall x, (x < 4)%nat -> same_at loaded h x.
Definition good (h : heap) (segs : list nat) (vs : list seg_value) : Prop :=
  (forall s, In s segs -> seg_ok h s) /\ all_apart h segs /\ map (value_of h) segs = vs /\
  (forall s x, In s segs -> In x (owned h s) -> (4 <= x)%nat) /\ (4 <= h_next h)%nat /\ intact h.

Lemma good_loaded : good loaded [] [].
Proof.
  split; [intros s []|]. split; [intros [|i] j s s' _ X; discriminate|]. split; [reflexivity|]. split; [intros s x []|].
  split; [cbn; lia|]. intros x _. repeat split.
Qed.

Lemma owned_below : forall h s x, seg_ok h s -> In x (owned h s) -> (x < h_next h)%nat.
Proof.
  intros h s x (OC & OD & _ & _ & _ & L) [<-|X]; [exact L|]. apply in_app_or in X. destruct X as [X|X]; [apply OC, X | apply OD, X].
Qed.

(** What is done to other objects changes nothing. *)
Lemma seg_apart : forall h h' F s, seg_ok h s -> frame h h' F -> apart F (owned h s) ->
  seg_ok h' s /\ owned h' s = owned h s /\ value_of h' s = value_of h s.
Proof.
  intros h h' F s OK FR AP. pose proof OK as (OC & OD & A & NC & ND & L).
  assert (Es : h_segs h' s = h_segs h s) by (apply (proj2 FR s L); intro X; apply (AP s X); left; reflexivity).
  destruct (owned_coll_frame h h' F (so_illum (h_segs h s)) FR) as (E1 & E2 & E3 & E4).
  { intros x X. split; [apply OC, X|]. intro Y. apply (AP x Y). right. apply in_or_app. left. exact X. }
  destruct (owned_coll_frame h h' F (so_shaded (h_segs h s)) FR) as (D1 & D2 & D3 & D4).
  { intros x X. split; [apply OD, X|]. intro Y. apply (AP x Y). right. apply in_or_app. right. exact X. }
  assert (N := proj1 FR).
  split; [|split; [unfold owned; rewrite Es, E1, D1; reflexivity | unfold value_of, seg_view; rewrite Es, E2, D2; reflexivity]].
  unfold seg_ok. rewrite Es. split; [|split; [|rewrite E1, D1; repeat split; try assumption; lia]].
  - destruct OC as (a & b & c). unfold coll_ok. rewrite E1, E3, E4. split; [exact a|]. split; [|exact c]. intros x X. apply b in X. lia.
  - destruct OD as (a & b & c). unfold coll_ok. rewrite D1, D3, D4. split; [exact a|]. split; [|exact c]. intros x X. apply b in X. lia.
Qed.

Lemma replace_length : forall A k (x : A) l, (k < List.length l)%nat -> List.length (replace k x l) = List.length l.
Proof.
  intros A k x l L. unfold replace. rewrite app_length, firstn_length. cbn [List.length]. rewrite skipn_length. lia.
Qed.
Lemma nth_replace : forall A k (x : A) l j, (k < List.length l)%nat ->
  nth_error (replace k x l) j = if Nat.eqb j k then Some x else nth_error l j.
Proof.
  intros A k x l. revert k. induction l as [|y l IH]; intros k j L; [cbn in L; lia|]. destruct k as [|k].
  - destruct j; reflexivity.
  - destruct j as [|j]; [reflexivity|]. cbn in L. cbn. apply (IH k j). lia.
Qed.
Lemma nth_ext_error : forall A (l l' : list A), (forall j, nth_error l j = nth_error l' j) -> l = l'.
Proof.
  induction l as [|x l IH]; intros [|y l'] H; [reflexivity | specialize (H 0%nat); discriminate | specialize (H 0%nat); discriminate|].
  pose proof (H 0%nat) as H0. cbn in H0. inversion H0. f_equal. apply IH. intro j. exact (H (S j)).
Qed.

Lemma step_op : forall o h segs vs k s, good h segs vs -> nth_error segs k = Some s ->
  exists v, nth_error vs k = Some v /\
  match op_value o v with
  | Ok v' => fst (do_op o s h) = Ok tt /\ good (snd (do_op o s h)) segs (replace k v' vs)
  | Err e => fst (do_op o s h) = Err e /\ good (snd (do_op o s h)) segs vs
  end.
Proof.
  intros o h segs vs k s (OK & AP & VS & G4 & N4 & IT) Hk.
  assert (Is : In s segs) by (eapply nth_error_In; exact Hk).
  exists (value_of h s). split; [rewrite <- VS; apply map_nth_error, Hk|].
  destruct (op_does o s h (OK s Is)) as (OK' & FR & GR & R). set (h' := snd (do_op o s h)) in *.
  assert (N := proj1 FR).
  assert (OTH : forall j s', j <> k -> nth_error segs j = Some s' -> seg_ok h' s' /\ owned h' s' = owned h s' /\ value_of h' s' = value_of h s').
  { intros j s' D E. apply (seg_apart h h' (owned h s) s' (OK s' ltac:(eapply nth_error_In; exact E)) FR). apply (AP k j s s'); auto. }
  assert (AP' : all_apart h' segs).
  { intros i j a b D Ea Eb. destruct (Nat.eq_dec i k) as [->|Di].
    - rewrite Hk in Ea. inversion Ea; subst a. destruct (OTH j b ltac:(auto) Eb) as (_ & -> & _).
      intros x X Y. destruct (GR x X) as [Z|Z]; [exact (AP k j s b D Hk Eb x Z Y)|].
      apply owned_below in Y; [lia|]. apply OK. eapply nth_error_In; exact Eb.
    - destruct (OTH i a Di Ea) as (_ & EOa & _). rewrite EOa. destruct (Nat.eq_dec j k) as [->|Dj].
      + rewrite Hk in Eb. inversion Eb; subst b. intros x Y X. destruct (GR x X) as [Z|Z]; [exact (AP i k a s D Ea Hk x Y Z)|].
        apply owned_below in Y; [lia|]. apply OK. eapply nth_error_In; exact Ea.
      + destruct (OTH j b Dj Eb) as (_ & -> & _). exact (AP i j a b D Ea Eb). }
  assert (REST : forall vs', map (value_of h') segs = vs' -> good h' segs vs').
  { intros vs' E. split; [|split; [exact AP'|]; split; [exact E|]; split; [|split; [lia|]]].
    - intros a Ia. destruct (In_nth_error _ _ Ia) as (j & Ej). destruct (Nat.eq_dec j k) as [->|D].
      + rewrite Hk in Ej. inversion Ej. subst a. exact OK'.
      + apply (OTH j a D Ej).
    - intros a x Ia X. destruct (In_nth_error _ _ Ia) as (j & Ej). destruct (Nat.eq_dec j k) as [->|D].
      + rewrite Hk in Ej. inversion Ej. subst a. destruct (GR x X) as [Y|Y]; [exact (G4 s x Is Y) | lia].
      + destruct (OTH j a D Ej) as (_ & EO & _). rewrite EO in X. exact (G4 a x Ia X).
    - intros x L. destruct (IT x L) as (A & B & C & D). destruct (proj2 FR x ltac:(lia)) as (A' & B' & C' & D').
      { intro X. apply (G4 s x Is) in X. lia. }
      repeat split; congruence. }
  assert (LK : (k < List.length vs)%nat) by (rewrite <- VS, map_length; apply nth_error_Some; congruence).
  destruct (op_value o (value_of h s)) as [v'|e]; destruct R as (R1 & R2); (split; [exact R1|]); apply REST; apply nth_ext_error; intro j.
  - rewrite (nth_replace _ k v' vs j LK). rewrite nth_error_map. destruct (Nat.eqb_spec j k) as [->|D].
    + rewrite Hk. cbn. congruence.
    + rewrite <- VS, nth_error_map. destruct (nth_error segs j) as [a|] eqn:Ej; [|reflexivity]. cbn. destruct (OTH j a D Ej) as (_ & _ & ->). reflexivity.
  - rewrite <- VS, !nth_error_map. destruct (nth_error segs j) as [a|] eqn:Ej; [|reflexivity]. cbn. destruct (Nat.eq_dec j k) as [->|D].
    + rewrite Hk in Ej. inversion Ej; subst a. congruence.
    + destruct (OTH j a D Ej) as (_ & _ & ->). reflexivity.
Qed.

Definition segments_of (segs : list nat) (ks : list nat) : list nat :=
  flat_map (fun k => match nth_error segs k with Some s => [s] | None => [] end) ks.

Lemma side_op_each : forall o ss, side_op o ss = on_segments (do_op o) ss.
Proof. intros [] ss; reflexivity. Qed.

Lemma steps_op : forall o segs ks h vs, good h segs vs ->
  good (snd (side_op o (segments_of segs ks) h)) segs (on_values o ks vs).
Proof.
  intros o segs ks h vs G. rewrite side_op_each. revert h vs G. induction ks as [|k ks IH]; intros h vs G; [exact G|].
  cbn [segments_of flat_map on_values].
  fold (segments_of segs ks). destruct (nth_error segs k) as [s|] eqn:Ek.
  - destruct (step_op o h segs vs k s G Ek) as (v & Ev & R). rewrite Ev. cbn [app on_segments]. unfold mbind.
    destruct (do_op o s h) as [r h'] eqn:Ed. cbn [fst snd] in R. destruct (op_value o v) as [v'|e]; destruct R as (-> & R).
    + apply IH, R.
    + exact R.
  - assert (Ev : nth_error vs k = None).
    { destruct G as (_ & _ & VS & _). rewrite <- VS, nth_error_map, Ek. reflexivity. }
    rewrite Ev. cbn [app]. apply IH, G.
Qed.

Lemma step_good : forall c segs h vs, good h segs vs -> good (snd (step c (segs, h))) (fst (step c (segs, h))) (step_value c vs).
Proof.
  intros [l b n names|k o|ks o] segs h vs G.
  - cbn [step step_value]. pose proof (sg_from_coords_does l b n names h) as X. pose proof G as (OK & AP & VS & G4 & N4 & IT).
    destruct (sg_from_coords l b n names) as [v|e].
    + destruct X as (s & h' & E & FR & OKs & NEW & EV). rewrite E. cbn [fst snd]. assert (N := proj1 FR).
      assert (OTH : forall a, In a segs -> seg_ok h' a /\ owned h' a = owned h a /\ value_of h' a = value_of h a).
      { intros a Ia. destruct (seg_frame h h' a (OK a Ia) FR) as (A & B & C & _). tauto. }
      assert (OLD : forall a x, In a segs -> In x (owned h' a) -> (x < h_next h)%nat).
      { intros a x Ia X. destruct (OTH a Ia) as (_ & EO & _). rewrite EO in X. exact (owned_below h a x (OK a Ia) X). }
      split; [|split; [|split; [|split; [|split; [lia|]]]]].
      * intros a Ia. apply in_app_or in Ia. destruct Ia as [Ia|[<-|[]]]; [apply OTH, Ia | exact OKs].
      * intros i j a a' D Ea Ea'. 
        assert (C : forall m y, nth_error (segs ++ [s]) m = Some y -> (nth_error segs m = Some y /\ In y segs) \/ (y = s /\ m = List.length segs)).
        { intros m y Em. destruct (Nat.lt_ge_cases m (List.length segs)) as [Lm|Lm].
          - rewrite nth_error_app1 in Em by exact Lm. left. split; [exact Em | eapply nth_error_In; exact Em].
          - rewrite nth_error_app2 in Em by exact Lm. destruct (m - List.length segs)%nat as [|q] eqn:Q.
            + cbn in Em. inversion Em. right. split; [reflexivity | lia].
            + cbn in Em. destruct q; discriminate. }
        destruct (C i a Ea) as [[Ei Ia]|[-> ->]]; destruct (C j a' Ea') as [[Ej Ia']|[-> ->]].
        -- destruct (OTH a Ia) as (_ & -> & _). destruct (OTH a' Ia') as (_ & -> & _). exact (AP i j a a' D Ei Ej).
        -- intros x X Y. apply (OLD a x Ia) in X. apply NEW in Y. lia.
        -- intros x X Y. apply (OLD a' x Ia') in Y. apply NEW in X. lia.
        -- congruence.
      * rewrite map_app. cbn [map]. rewrite EV, <- VS. f_equal. apply map_ext_in. intros a Ia. apply OTH, Ia.
      * intros a x Ia X. apply in_app_or in Ia. destruct Ia as [Ia|[<-|[]]].
        -- destruct (OTH a Ia) as (_ & EO & _). rewrite EO in X. exact (G4 a x Ia X).
        -- apply NEW in X. lia.
      * intros x L. destruct (IT x L) as (A & B & C & D). destruct (proj2 FR x ltac:(lia) ltac:(intros [])) as (A' & B' & C' & D').
        repeat split; congruence.
    + destruct X as (h' & E & FR). rewrite E. cbn [fst snd]. assert (N := proj1 FR).
      assert (OTH : forall a, In a segs -> seg_ok h' a /\ owned h' a = owned h a /\ value_of h' a = value_of h a).
      { intros a Ia. destruct (seg_frame h h' a (OK a Ia) FR) as (A & B & C & _). tauto. }
      split; [|split; [|split; [|split; [|split; [lia|]]]]].
      * intros a Ia. apply OTH, Ia.
      * intros i j a a' D Ea Ea'. pose proof (nth_error_In _ _ Ea) as Ia. pose proof (nth_error_In _ _ Ea') as Ia'.
        destruct (OTH a Ia) as (_ & -> & _). destruct (OTH a' Ia') as (_ & -> & _). exact (AP i j a a' D Ea Ea').
      * rewrite <- VS. apply map_ext_in. intros a Ia. apply OTH, Ia.
      * intros a x Ia X. destruct (OTH a Ia) as (_ & EO & _). rewrite EO in X. exact (G4 a x Ia X).
      * intros x L. destruct (IT x L) as (A & B & C & D). destruct (proj2 FR x ltac:(lia) ltac:(intros [])) as (A' & B' & C' & D').
        repeat split; congruence.
  - assert (Q := steps_op o segs [k] h vs G). rewrite side_op_each in Q. cbn [segments_of flat_map] in Q. rewrite app_nil_r in Q.
    cbn [step step_value]. destruct (nth_error segs k) as [s|]; [|exact Q].
    cbn [on_segments app] in Q. cbn [fst snd].
    unfold mbind, ret in Q. destruct (do_op o s h) as [[[]|e] h']; exact Q.
  - cbn [step step_value fst snd]. apply steps_op, G.
Qed.

Lemma program_good : forall cs, good (snd (run_program cs loaded)) (fst (run_program cs loaded)) (values_of_program cs).
Proof.
  intro cs. unfold run_program, values_of_program.
  enough (X : forall cs segs h vs, good h segs vs ->
    good (snd (fold_left (fun st c => step c st) cs (segs, h))) (fst (fold_left (fun st c => step c st) cs (segs, h)))
         (fold_left (fun vs c => step_value c vs) cs vs)) by (apply X, good_loaded).
  clear cs. induction cs as [|c cs IH]; intros segs h vs G; [exact G|]. cbn [fold_left].
  pose proof (step_good c segs h vs G) as Q. destruct (step c (segs, h)) as [segs' h']. apply IH, Q.
Qed.
