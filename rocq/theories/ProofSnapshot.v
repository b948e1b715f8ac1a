(** Proofs about the geometry built for one timestep. *)
From Coq Require Import Reals List Bool Arith String Lra Lia.
From Verif Require Import Num ModelTs ModelGeom ModelVF ModelParams ModelShapely ModelSnapshot.
From Verif Require Import Basics SpecGeom SpecSnapshot ProofGround ProofShade ProofRow ProofFit ProofCut ProofIndex.
From Verif Require SpecShapely ProofShapely ProofCutPoint.
Import ListNotations.
Open Scope R_scope.

Notation tol := DISTANCE_TOLERANCE.

(** What a surface is at a timestep. *)
Definition snap (e : snap_env) (idx : nat) (s : ts_surface) : pv_surface :=
  let l := s_coords s idx in
  PVSurface l
    match nvec_at s idx with
    | Some n => n
    | None => (- (py (b2 l) - py (b1 l)), px (b2 l) - px (b1 l))
    end
    (s_shaded s) (sn_index e s) (sn_names e) (params_at (ps_surf (sn_store e) (s_id s)) idx).

Lemma snap_same : forall e idx s, same_at e idx s (snap e idx s).
Proof.
  intros. unfold same_at, snap; cbn. repeat split. intro k. unfold params_at.
  destruct (ps_surf (sn_store e) (s_id s) k) as [[| |]|]; reflexivity || exact Logic.I.
Qed.

Lemma tol_pos : 0 < tol.
Proof. unfold DISTANCE_TOLERANCE. lra. Qed.

Lemma length_ends : forall l, 0 < line_length l -> b1 l <> b2 l.
Proof.
  intros [[x1 y1] [x2 y2]] H E. unfold line_length in H. cbn in H, E. injection E as -> ->.
  replace ((y2 - y2) * ((y2 - y2) * 1) + (x2 - x2) * ((x2 - x2) * 1)) with 0 in H by ring.
  rewrite sqrt_0 in H. lra.
Qed.

Lemma surface_at_eq : forall e s idx,
  surface_at e s idx = Ok (if Rltb (s_length s idx) tol then None else Some (snap e idx s)).
Proof.
  intros e s idx. unfold surface_at. destruct (Rltb (s_length s idx) tol) eqn:H; [reflexivity|].
  apply Rltb_false in H. pose proof tol_pos.
  unfold pvsurface_init, snap. destruct (nvec_at s idx) as [n|]; [reflexivity|].
  rewrite ProofShapely.boundary_ok; [reflexivity|]. apply length_ends. unfold s_length in H. lra.
Qed.

(** Surfaces that are not dropped. *)
Definition kept (idx : nat) (l : list ts_surface) : list ts_surface :=
  filter (fun s => negb (Rltb (s_length s idx) tol)) l.
Lemma surfaces_at_eq : forall e idx l, surfaces_at e l idx = Ok (map (snap e idx) (kept idx l)).
Proof.
  intros e idx. induction l as [|s l IH]; [reflexivity|]. cbn [surfaces_at kept filter map].
  rewrite surface_at_eq. cbn [bind]. rewrite IH. cbn [bind].
  destruct (Rltb (s_length s idx) tol); reflexivity.
Qed.

Definition longer (idx : nat) (l : list ts_surface) : list ts_surface :=
  filter (fun s => Rltb tol (s_length s idx)) l.
Lemma kept_longer : forall idx l, kept idx (longer idx l) = longer idx l.
Proof.
  intros idx. induction l as [|s l IH]; [reflexivity|]. unfold longer, kept in *. cbn [filter].
  destruct (Rltb tol (s_length s idx)) eqn:H; [|exact IH]. cbn [filter]. rewrite IH.
  apply Rltb_true in H. destruct (Rltb (s_length s idx) tol) eqn:K; [|reflexivity].
  apply Rltb_true in K. lra.
Qed.

Definition np (e : snap_env) (idx : nat) (el : ts_ground_element) : list pv_surface :=
  map (snap e idx) (longer idx (el_surfaces el)).
Lemma non_point_eq : forall e el idx, non_point_surfaces_at e el idx = Ok (np e idx el).
Proof. intros. unfold non_point_surfaces_at. rewrite surfaces_at_eq. fold (longer idx (el_surfaces el)). rewrite kept_longer. reflexivity. Qed.
Lemma elements_at_eq : forall e idx els, elements_at e els idx = Ok (flat_map (np e idx) els).
Proof.
  intros e idx. induction els as [|el els IH]; [reflexivity|]. cbn [elements_at flat_map].
  rewrite non_point_eq. cbn [bind]. rewrite IH. reflexivity.
Qed.
Lemma each_element_eq : forall e idx els, each_element_at e els idx = Ok (map (np e idx) els).
Proof.
  intros e idx. induction els as [|el els IH]; [reflexivity|]. cbn [each_element_at map].
  rewrite non_point_eq. cbn [bind]. rewrite IH. reflexivity.
Qed.

(* ------------------------------------------------------------ collections *)

Lemma collinear_cross : forall l : list (option (R * R)),
  (forall n n', In (Some n) l -> In (Some n') l -> fst n * snd n' = snd n * fst n') -> is_collinear l = true.
Proof.
  assert (TC : 0 < TOL_COLLINEAR) by apply ProofCutPoint.TOL_COLLINEAR_pos.
  assert (A : forall u l, (forall n, In (Some n) l -> fst u * fst n + snd u * snd n = 0) -> all_along u l = true).
  { induction l as [|[n|] l IH]; intro H; cbn; [reflexivity | |apply IH; intros; apply H; now right].
    rewrite (H n) by (now left). rewrite Rabs_R0. destruct (Rltb 0 TOL_COLLINEAR) eqn:K.
    - apply IH; intros; apply H; now right.
    - apply Rltb_false in K. lra. }
  induction l as [|[n|] l IH]; intro H; cbn; [reflexivity | |apply IH; intros; apply H; now right].
  apply A. intros n' I. cbn. specialize (H n n' (or_introl eq_refl) (or_intror I)). lra.
Qed.

Lemma uniform_ok : forall b l, (forall s, In s l -> su_shaded s = b) -> check_uniform_shading l = Ok tt.
Proof.
  intros b [|s l] H; [reflexivity|]. cbn. rewrite (H s) by (now left).
  assert (K : forall s, In s l -> su_shaded s = b) by (intros; apply H; now right). clear H.
  induction l as [|x l IH]; [reflexivity|]. cbn. rewrite (K x) by (now left). rewrite Bool.eqb_reflx.
  apply IH. intros; apply K; now right.
Qed.

Definition parallel_nvecs (l : list pv_surface) : Prop :=
  forall s s', In s l -> In s' l -> fst (su_nvec s) * snd (su_nvec s') = snd (su_nvec s) * fst (su_nvec s').

Lemma collection_ok : forall b l names, (forall s, In s l -> su_shaded s = b) -> parallel_nvecs l ->
  shade_collection l (Some b) names = Ok (ShadeColl l (Some b) true names).
Proof.
  intros b l names H P. unfold shade_collection. rewrite (uniform_ok b l H). cbn [bind].
  rewrite collinear_cross.
  - unfold get_shading. destruct l as [|s l]; [reflexivity|]. rewrite (H s) by (now left). reflexivity.
  - intros n n' I I'. unfold surf_nvecs in *. apply in_map_iff in I, I'.
    destruct I as (s & E & I), I' as (s' & E' & I'). injection E as <-. injection E' as <-. apply P; assumption.
Qed.

Lemma segment_ok : forall il sh ni ns, (forall s s', In s (il ++ sh) -> In s' (il ++ sh) ->
    fst (su_nvec s) * snd (su_nvec s') = snd (su_nvec s) * fst (su_nvec s')) ->
  pvsegment_init (ShadeColl il (Some false) true ni) (ShadeColl sh (Some true) true ns)
  = Ok (PVSegment (ShadeColl il (Some false) true ni) (ShadeColl sh (Some true) true ns) None).
Proof.
  intros il sh ni ns P. unfold pvsegment_init; cbn [sc_shaded]. unfold segment_check; cbn [sc_collinear andb].
  unfold sc_is_empty, sc_nvec; cbn [sc_surfaces sc_collinear]. destruct il as [|s il], sh as [|s' sh]; try reflexivity.
  cbn [orb bind]. unfold are_2d_vecs_collinear.
  assert (E : - snd (su_nvec s) * fst (su_nvec s') + fst (su_nvec s) * snd (su_nvec s') = 0).
  { specialize (P s s' (or_introl eq_refl) ltac:(apply in_or_app; right; left; reflexivity)). lra. }
  rewrite E, Rabs_R0. destruct (Rltb 0 TOL_COLLINEAR) eqn:K; [reflexivity|]. apply Rltb_false in K.
  pose proof ProofCutPoint.TOL_COLLINEAR_pos. lra.
Qed.

(** Normal vectors of the segments of a side. *)
Lemma side_ok : forall segs, 
  (forall g, In g segs -> sc_collinear (sg_illum g) = true /\ sc_collinear (sg_shaded g) = true) ->
  (forall s s', In s (flat_map sg_surfaces segs) -> In s' (flat_map sg_surfaces segs) ->
    fst (su_nvec s) * snd (su_nvec s') = snd (su_nvec s) * fst (su_nvec s')) ->
  side_init segs = Ok segs.
Proof.
  intros segs C P. unfold side_init.
  set (dirs := fix dirs (l : list pv_segment) : result (list (option (R * R))) :=
              match l with
              | [] => Ok []
              | s :: r => do n <- sg_direction s; do ns <- dirs r; Ok (n :: ns)
              end).
  assert (D : forall l, incl l segs -> exists ns, dirs l = Ok ns /\
     forall n, In (Some n) ns -> exists s, In s (flat_map sg_surfaces l) /\ su_nvec s = n).
  { induction l as [|g l IH]; intro L; [exists []; split; [reflexivity|intros n []]|].
    destruct IH as (ns & E & H); [intros x I; apply L; now right|]. cbn [dirs]. 
    assert (G : exists d, sg_direction g = Ok d /\ forall n, d = Some n -> exists s, In s (sg_surfaces g) /\ su_nvec s = n).
    { destruct (C g (L g (or_introl eq_refl))) as [C1 C2]. unfold sg_direction, sg_nvec, sc_is_empty, sc_nvec, sg_surfaces.
      rewrite C1, C2.
      destruct (sc_surfaces (sg_illum g)) as [|a il] eqn:Ei, (sc_surfaces (sg_shaded g)) as [|b sh] eqn:Es; cbn.
      - exists None. split; [reflexivity|discriminate].
      - exists (Some (su_nvec b)). split; [reflexivity|]. intros n Hn; injection Hn as <-. exists b; split; [now left|reflexivity].
      - exists (Some (su_nvec a)). split; [reflexivity|]. intros n Hn; injection Hn as <-. exists a; split; [now left|reflexivity].
      - exists (Some (su_nvec a)). split; [reflexivity|]. intros n Hn; injection Hn as <-. exists a; split; [now left|reflexivity]. }
    destruct G as (d & Ed & Hd). rewrite Ed. cbn [bind]. rewrite E. cbn [bind]. exists (d :: ns). split; [reflexivity|].
    intros n [Q|Q].
    - destruct (Hd n Q) as (s & I & N). exists s. split; [apply in_or_app; left; exact I|exact N].
    - destruct (H n Q) as (s & I & N). exists s. split; [apply in_or_app; right; exact I|exact N]. }
  destruct (D segs (fun x I => I)) as (ns & E & H). rewrite E. cbn [bind]. unfold check_collinear.
  rewrite collinear_cross; [reflexivity|]. intros n n' I I'.
  destruct (H n I) as (s & J & <-), (H n' I') as (s' & J' & <-). apply P; assumption.
Qed.

(* ------------------------------------------------------------ PV rows *)

(** Sides as the array builds them. *)
Definition row_side (sd : ts_side) : Prop :=
  forall g, In g (side_segments sd) ->
    (forall s, In s (seg_illum g) -> s_shaded s = false) /\
    (forall s, In s (seg_shaded g) -> s_shaded s = true) /\
    (forall s, In s (seg_surfaces g) -> s_nvec s = side_nvec sd /\ exists r b k f, s_id s = SidRow r b k f).

Lemma raw_side_ok : forall row bk xc yc w rot cut sl nv, row_side (side_from_raw_inputs row bk xc yc w rot cut sl nv).
Proof.
  intros. intros g G. cbn in G. apply in_map_iff in G. destruct G as (i & <- & _). cbn.
  repeat split.
  - intros s [<-|[]]. reflexivity.
  - intros s [<-|[]]. reflexivity.
  - destruct H as [<-|[<-|[]]]; reflexivity.
  - destruct H as [<-|[<-|[]]]; cbn; eauto.
Qed.

Definition seg_snap (e : snap_env) (idx : nat) (g : ts_segment) : pv_segment :=
  PVSegment (ShadeColl (map (snap e idx) (kept idx (seg_illum g))) (Some false) true [])
            (ShadeColl (map (snap e idx) (kept idx (seg_shaded g))) (Some true) true []) None.

Lemma kept_in : forall idx l s, In s (kept idx l) <-> In s l /\ tol <= s_length s idx.
Proof.
  intros. unfold kept. rewrite filter_In. split; intros [A B]; (split; [exact A|]).
  - destruct (Rltb (s_length s idx) tol) eqn:K; [discriminate|]. apply Rltb_false in K. lra.
  - destruct (Rltb (s_length s idx) tol) eqn:K; [|reflexivity]. apply Rltb_true in K. lra.
Qed.
Lemma snap_in_kept : forall e idx l x, In x (map (snap e idx) (kept idx l)) ->
  exists s, In s l /\ tol <= s_length s idx /\ x = snap e idx s.
Proof.
  intros e idx l x H. apply in_map_iff in H. destruct H as (s & <- & I). apply kept_in in I. exists s. tauto.
Qed.

Lemma side_at_eq : forall e sd idx, row_side sd ->
  side_at e sd idx = Ok (map (seg_snap e idx) (side_segments sd)).
Proof.
  intros e sd idx H. unfold side_at.
  assert (NV : forall g s, In g (side_segments sd) -> In s (seg_surfaces g) -> su_nvec (snap e idx s) = side_nvec sd idx).
  { intros g s G I. destruct (H g G) as (_ & _ & K). destruct (K s I) as [N (r & b & k & f & E)]. unfold snap, nvec_at; cbn.
    rewrite E, N. reflexivity. }
  assert (A : forall l, incl l (side_segments sd) -> segments_at e l idx = Ok (map (seg_snap e idx) l)).
  { induction l as [|g l IH]; intro L; [reflexivity|]. cbn [segments_at map].
    assert (G : In g (side_segments sd)) by (apply L; now left).
    destruct (H g G) as (Hi & Hs & _).
    assert (NK : forall x, In x (map (snap e idx) (kept idx (seg_illum g)) ++ map (snap e idx) (kept idx (seg_shaded g))) ->
              su_nvec x = side_nvec sd idx).
    { intros x I. apply in_app_or in I. destruct I as [I|I]; apply snap_in_kept in I; destruct I as (s & I & _ & ->);
        apply (NV g); try exact G; unfold seg_surfaces; apply in_or_app; tauto. }
    assert (S : segment_at e g idx = Ok (seg_snap e idx g)).
    { unfold segment_at, coll_at. rewrite !surfaces_at_eq. cbn [bind].
      rewrite (collection_ok false).
      2:{ intros x I. apply snap_in_kept in I. destruct I as (s & I & _ & ->). cbn. apply Hi; exact I. }
      2:{ intros x x' I I'. rewrite (NK x), (NK x') by (apply in_or_app; tauto). ring. }
      cbn [bind]. rewrite (collection_ok true).
      2:{ intros x I. apply snap_in_kept in I. destruct I as (s & I & _ & ->). cbn. apply Hs; exact I. }
      2:{ intros x x' I I'. rewrite (NK x), (NK x') by (apply in_or_app; tauto). ring. }
      cbn [bind]. apply segment_ok. intros x x' I I'. rewrite (NK x), (NK x') by assumption. ring. }
    rewrite S. cbn [bind]. rewrite IH by (intros x I; apply L; now right). reflexivity. }
  rewrite (A _ (fun x I => I)). cbn [bind]. apply side_ok.
  - intros g G. apply in_map_iff in G. destruct G as (t & <- & _). split; reflexivity.
  - assert (NK : forall x, In x (flat_map sg_surfaces (map (seg_snap e idx) (side_segments sd))) -> su_nvec x = side_nvec sd idx).
    { intros x I. apply in_flat_map in I. destruct I as (g & G & I). apply in_map_iff in G. destruct G as (t & <- & G).
      unfold sg_surfaces in I; cbn in I. apply in_app_or in I.
      destruct I as [I|I]; apply snap_in_kept in I; destruct I as (s & I & _ & ->);
        apply (NV t); try exact G; unfold seg_surfaces; apply in_or_app; tauto. }
    intros x x' I I'. rewrite (NK x), (NK x') by assumption. ring.
Qed.
