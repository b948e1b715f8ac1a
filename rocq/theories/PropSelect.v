(** The ground is made by choosing coordinates, not by computing new ones. *)
From Coq Require Import Reals List Bool Arith Lra Lia.
From Flocq Require Import Core.
From Verif Require Import Num ModelTs ModelGeom Basics.
Import ListNotations.
Open Scope R_scope.

(** Two shadow ends or cut points in a relation: of the same kind, and in [Q] when finite. *)
Definition xrel (Q : R -> R -> Prop) (a b : xr) : Prop :=
  match a, b with
  | XFin x, XFin y => Q x y
  | XNInf, XNInf => True
  | XPInf, XPInf => True
  | XNaN, XNaN => True
  | _, _ => False
  end.

(** Two lines with the same heights and ends in [Q]. *)
Definition line_rel (Q : R -> R -> Prop) (l l' : line) : Prop :=
  Q (px (b1 l)) (px (b1 l')) /\ Q (px (b2 l)) (px (b2 l')) /\ py (b1 l) = py (b1 l') /\ py (b2 l) = py (b2 l').

(** The same surface, and the same element, but for coordinates. *)
Definition surface_rel (Q : R -> R -> Prop) (t : nat) (s s' : ts_surface) : Prop :=
  s_id s = s_id s' /\ s_shaded s = s_shaded s' /\ line_rel Q (s_coords s t) (s_coords s' t).
Definition element_rel (Q : R -> R -> Prop) (t : nat) (e e' : ts_ground_element) : Prop :=
  line_rel Q (el_coords e t) (el_coords e' t) /\ el_shaded e = el_shaded e' /\
  Forall2 (surface_rel Q t) (el_surfaces e) (el_surfaces e') /\ (forall k, el_dict e k = el_dict e' k).

(** A relation kept by minimum and maximum. *)
Definition ordered_rel (Q : R -> R -> Prop) : Prop :=
  forall a a' b b', Q a a' -> Q b b' -> Q (Rmin a b) (Rmin a' b') /\ Q (Rmax a b) (Rmax a' b').

Section Related.
  Variable Q : R -> R -> Prop.
  Hypothesis OQ : ordered_rel Q.
  Hypothesis Qlo : Q (-100) (-100).
  Hypothesis Qhi : Q 100 100.

  Lemma q_min : forall a a' b b', Q a a' -> Q b b' -> Q (np_min a b) (np_min a' b').
  Proof. intros a a' b b' A B. exact (proj1 (OQ a a' b b' A B)). Qed.
  Lemma q_max : forall a a' b b', Q a a' -> Q b b' -> Q (np_max a b) (np_max a' b').
  Proof.
    intros a a' b b' A B. replace (np_max a b) with (Rmax a b) by (unfold np_max, Rmax; destruct (Rle_dec a b); destruct (Rle_dec b a); lra).
    replace (np_max a' b') with (Rmax a' b') by (unfold np_max, Rmax; destruct (Rle_dec a' b'); destruct (Rle_dec b' a'); lra).
    exact (proj2 (OQ a a' b b' A B)).
  Qed.

  Lemma q_lo : Q MIN_X_GROUND MIN_X_GROUND.
  Proof. exact Qlo. Qed.
  Lemma q_hi : Q MAX_X_GROUND MAX_X_GROUND.
  Proof. exact Qhi. Qed.
  Hint Resolve q_lo q_hi q_min q_max : qrel.

  Lemma q_clip : forall a a', xrel Q a a' -> Q (xclip a MIN_X_GROUND MAX_X_GROUND) (xclip a' MIN_X_GROUND MAX_X_GROUND).
  Proof. intros [|x| |] [|x'| |] H; cbn in H; try contradiction; cbn [xclip]; auto with qrel. Qed.
  Lemma q_left : forall x x' a a', Q x x' -> xrel Q a a' -> Q (min_cut_max_lo x a MIN_X_GROUND) (min_cut_max_lo x' a' MIN_X_GROUND).
  Proof. intros x x' [|r| |] [|r'| |] X H; cbn in H; try contradiction; cbn [min_cut_max_lo]; auto with qrel. Qed.
  Lemma q_right : forall x x' a a', Q x x' -> xrel Q a a' -> Q (max_cut_min_hi x a MAX_X_GROUND) (max_cut_min_hi x' a' MAX_X_GROUND).
  Proof. intros x x' [|r| |] [|r'| |] X H; cbn in H; try contradiction; cbn [max_cut_min_hi]; auto with qrel. Qed.

  Variable t : nat.

  Lemma create_related : forall cuts cuts' c c', Forall2 (fun k k' : ts xr => xrel Q (k t) (k' t)) cuts cuts' ->
    line_rel Q (c t) (c' t) ->
    Forall2 (fun l l' : ts line => line_rel Q (l t) (l' t)) (create_coords c cuts) (create_coords c' cuts').
  Proof.
    intros cuts cuts' c c' H. revert c c'. induction H as [|k k' cuts cuts' K H IH]; intros c c' (A & B & C & D); cbn [create_coords].
    - constructor; [|constructor]. exact (conj A (conj B (conj C D))).
    - constructor.
      + unfold coords_left_of_cut_point. repeat split; cbn [b1 b2 px py]; try assumption; apply q_left; assumption.
      + apply IH. unfold coords_right_of_cut_point. repeat split; cbn [b1 b2 px py]; try assumption; apply q_right; assumption.
  Qed.

  Lemma Forall2_numbered : forall (A B : Type) (P : A -> A -> Prop) (P' : B -> B -> Prop) (f f' : nat * A -> B) l l',
    (forall k x x', P x x' -> P' (f (k, x)) (f' (k, x'))) -> Forall2 P l l' -> forall m,
    Forall2 P' (map f (combine (seq m (length l)) l)) (map f' (combine (seq m (length l')) l')).
  Proof.
    intros A B P P' f f' l l' H F. induction F as [|x x' l l' X F IH]; intro m; cbn [length seq combine map]; constructor.
    - apply H, X.
    - apply IH.
  Qed.

  Lemma element_related : forall mkid shaded c c' cuts cuts', Forall2 (fun k k' : ts xr => xrel Q (k t) (k' t)) cuts cuts' ->
    line_rel Q (c t) (c' t) -> element_rel Q t (make_element mkid shaded c cuts) (make_element mkid shaded c' cuts').
  Proof.
    intros mkid shaded c c' cuts cuts' H C. pose proof (create_related cuts cuts' c c' H C) as CR. inversion H as [|k k' cs cs' K H' E1 E2].
    - split; [exact C|]. split; [reflexivity|]. split; [constructor | reflexivity].
    - subst cuts cuts'. unfold make_element. split; [exact C|]. split; [reflexivity|]. cbn [el_surfaces el_dict]. split.
      + apply (Forall2_numbered _ _ (fun l l' : ts line => line_rel Q (l t) (l' t))); [|exact CR].
        intros j x x' X. split; [reflexivity|]. split; [reflexivity | exact X].
      + intro j. assert (L : forall (A : Type) (P : A -> A -> Prop) l l', Forall2 P l l' -> length l = length l')
          by (intros A P l l' F; induction F; cbn [length]; congruence).
        rewrite (L _ _ _ _ H). reflexivity.
  Qed.

  Lemma overlaps_related : forall flag flag' shadows shadows', flag t = flag' t ->
    Forall2 (fun s s' : ts (xr * xr) => xrel Q (fst (s t)) (fst (s' t)) /\ xrel Q (snd (s t)) (snd (s' t))) shadows shadows' ->
    Forall2 (fun s s' : ts (xr * xr) => xrel Q (fst (s t)) (fst (s' t)) /\ xrel Q (snd (s t)) (snd (s' t)))
      (fix_overlaps flag shadows) (fix_overlaps flag' shadows').
  Proof.
    intros flag flag' shadows shadows' E F. induction F as [|s s' l l' X F IH]; [constructor|].
    inversion F as [|u u' m m' U F' E1 E2]; subst; cbn [fix_overlaps].
    - constructor; [exact X | constructor].
    - constructor; [|exact IH]. cbn [fst snd]. split; [apply X|]. rewrite E. destruct (flag' t); cbn [np_where]; [apply U | apply X].
  Qed.

  Lemma illum_related : forall y ls ls' x x', Q (x t) (x' t) ->
    Forall2 (fun l l' : ts line => line_rel Q (l t) (l' t)) ls ls' ->
    Forall2 (fun l l' : ts line => line_rel Q (l t) (l' t)) (illum_coords y x ls) (illum_coords y x' ls').
  Proof.
    intros y ls ls' x x' X F. revert x x' X. induction F as [|l l' ls ls' L F IH]; intros x x' X; cbn [illum_coords].
    - constructor; [|constructor]. repeat split; cbn [b1 b2 px py]; auto with qrel.
    - constructor; [|apply IH; apply L]. repeat split; cbn [b1 b2 px py]; [exact X | apply L].
  Qed.

  Lemma ground_related : forall y flag flag' shadows shadows' cuts cuts' g,
    flag t = flag' t ->
    Forall2 (fun s s' : ts (xr * xr) => xrel Q (fst (s t)) (fst (s' t)) /\ xrel Q (snd (s t)) (snd (s' t))) shadows shadows' ->
    Forall2 (fun k k' : ts xr => xrel Q (k t) (k' t)) cuts cuts' ->
    ground_from_ordered_shadows y flag shadows cuts = Some g ->
    exists g', ground_from_ordered_shadows y flag' shadows' cuts' = Some g' /\
      Forall2 (element_rel Q t) (gnd_shadows g) (gnd_shadows g') /\
      Forall2 (element_rel Q t) (gnd_illum g) (gnd_illum g').
  Proof.
    intros y flag flag' shadows shadows' cuts cuts' g E S C. unfold ground_from_ordered_shadows.
    pose proof (overlaps_related flag flag' shadows shadows' E S) as O.
    set (fs := fix_overlaps flag shadows) in *. set (fs' := fix_overlaps flag' shadows') in *.
    assert (SH : Forall2 (element_rel Q t) (shadow_elements y fs cuts) (shadow_elements y fs' cuts')).
    { apply (Forall2_numbered _ _ (fun s s' : ts (xr * xr) => xrel Q (fst (s t)) (fst (s' t)) /\ xrel Q (snd (s t)) (snd (s' t)))); [|exact O].
      intros k s s' (A & B). cbn [fst snd]. apply element_related; [exact C|]. unfold clip_shadow.
      repeat split; cbn [b1 b2 px py]; apply q_clip; assumption. }
    assert (LC : Forall2 (fun l l' : ts line => line_rel Q (l t) (l' t)) (map el_coords (shadow_elements y fs cuts)) (map el_coords (shadow_elements y fs' cuts'))).
    { clear - SH. induction SH as [|e e' l l' X F IH]; cbn [map]; constructor; [apply X | exact IH]. }
    unfold illum_elements. set (sh := shadow_elements y fs cuts) in *. set (sh' := shadow_elements y fs' cuts') in *.
    assert (IL : forall x x' : ts R, Q (x t) (x' t) -> Forall2 (element_rel Q t)
       (map (fun es => make_element (SidIllum (fst es)) false (snd es) cuts) (combine (seq 0 (length (illum_coords y x (map el_coords sh)))) (illum_coords y x (map el_coords sh))))
       (map (fun es => make_element (SidIllum (fst es)) false (snd es) cuts') (combine (seq 0 (length (illum_coords y x' (map el_coords sh')))) (illum_coords y x' (map el_coords sh'))))).
    { intros x x' X. apply (Forall2_numbered _ _ (fun l l' : ts line => line_rel Q (l t) (l' t))); [|apply illum_related; [exact X | exact LC]].
      intros k l l' L. cbn [fst snd]. apply element_related; [exact C | exact L]. }
    specialize (IL (fun _ => MIN_X_GROUND) (fun _ => MIN_X_GROUND) q_lo). destruct SH as [|e e' l l' X F]; [discriminate|].
    intro G. injection G as <-. eexists. split; [reflexivity|]. cbn [gnd_shadows gnd_illum]. split; [constructor; assumption | exact IL].
  Qed.

  Lemma surfaces_related : forall l l', Forall2 (element_rel Q t) l l' -> Forall2 (surface_rel Q t) (flat_map el_surfaces l) (flat_map el_surfaces l').
  Proof.
    intros l l' F. induction F as [|e e' l l' (_ & _ & X & _) F IH]; cbn [flat_map]; [constructor|]. apply Forall2_app; assumption.
  Qed.
End Related.

(* --------------------------------------------------------------------- theorems *)

(** Ends and cut points moved by a function. *)
Definition xmoved (phi : R -> R) (a : xr) : xr := match a with XFin x => XFin (phi x) | _ => a end.
Definition moved (phi : R -> R) (l : line) : line :=
  Line (Pt (phi (px (b1 l))) (py (b1 l))) (Pt (phi (px (b2 l))) (py (b2 l))).

Lemma Forall2_maps : forall (A B : Type) (P : A -> A -> Prop) (f f' : A -> B) l l',
  (forall x x', P x x' -> f' x' = f x) -> Forall2 P l l' -> map f' l' = map f l.
Proof. intros A B P f f' l l' H F. induction F as [|x x' l l' X F IH]; cbn [map]; [reflexivity|]. rewrite IH, (H x x' X). reflexivity. Qed.

Lemma moved_rel : forall phi l l', line_rel (fun a b => b = phi a) l l' -> l' = moved phi l.
Proof. intros phi [[a b] [c d]] [[a' b'] [c' d']] (A & B & C & D). cbn in *. subst. reflexivity. Qed.

Lemma xmoved_rel : forall phi a, xrel (fun a b => b = phi a) a (xmoved phi a).
Proof. intros phi [|x| |]; cbn; auto. Qed.

Lemma Forall2_map_self : forall (A : Type) (P : A -> A -> Prop) (f : A -> A) l, (forall x, In x l -> P x (f x)) -> Forall2 P l (map f l).
Proof.
  intros A P f l. induction l as [|x l IH]; intro H; cbn [map]; constructor; [apply H; left; reflexivity|].
  apply IH. intros y Y. apply H. right. exact Y.
Qed.

(** A non-decreasing function that leaves the ends of the ground in place (rounding to
    doubles, for instance): the ground made from moved shadow ends and cut points is the
    ground moved. *)
Theorem C82_moved : forall phi y flag shadows cuts g,
  (forall a b, a <= b -> phi a <= phi b) -> phi (-100) = -100 -> phi 100 = 100 ->
  ground_from_ordered_shadows y flag shadows cuts = Some g ->
  exists g', ground_from_ordered_shadows y flag
      (map (fun s t => (xmoved phi (fst (s t)), xmoved phi (snd (s t)))) shadows)
      (map (fun c t => xmoved phi (c t)) cuts) = Some g' /\
    forall t,
    map (fun e => el_coords e t) (gnd_shadows g') = map (fun e => moved phi (el_coords e t)) (gnd_shadows g) /\
    map (fun e => el_coords e t) (gnd_illum g') = map (fun e => moved phi (el_coords e t)) (gnd_illum g) /\
    map (fun s => (s_id s, s_shaded s, s_coords s t)) (gnd_surfaces g') =
    map (fun s => (s_id s, s_shaded s, moved phi (s_coords s t))) (gnd_surfaces g).
Proof.
  intros phi y flag shadows cuts g M Lo Hi G. set (Q := fun a b : R => b = phi a).
  assert (OQ : ordered_rel Q).
  { intros a a' b b' -> ->. unfold Q, Rmin, Rmax.
    split; destruct (Rle_dec a b) as [X|X]; destruct (Rle_dec (phi a) (phi b)) as [Y|Y]; try reflexivity;
      try (specialize (M a b X); lra); specialize (M b a ltac:(lra)); lra. }
  assert (K : forall t, exists g', ground_from_ordered_shadows y flag
      (map (fun s t => (xmoved phi (fst (s t)), xmoved phi (snd (s t)))) shadows)
      (map (fun c t => xmoved phi (c t)) cuts) = Some g' /\
      Forall2 (element_rel Q t) (gnd_shadows g) (gnd_shadows g') /\ Forall2 (element_rel Q t) (gnd_illum g) (gnd_illum g')).
  { intro t. refine (ground_related Q OQ (eq_sym Lo) (eq_sym Hi) t y flag flag shadows _ cuts _ g eq_refl _ _ G).
    - apply Forall2_map_self. intros s _. cbn [fst snd]. split; apply xmoved_rel.
    - apply Forall2_map_self. intros s _. apply xmoved_rel. }
  destruct (K 0%nat) as (g' & G' & _). exists g'. split; [exact G'|]. intro t. destruct (K t) as (g'' & G'' & S & I).
  rewrite G' in G''. injection G'' as <-.
  assert (ER : forall e e', element_rel Q t e e' -> el_coords e' t = moved phi (el_coords e t)) by (intros e e' (X & _); apply moved_rel, X).
  assert (SR : forall s s', surface_rel Q t s s' -> (s_id s', s_shaded s', s_coords s' t) = (s_id s, s_shaded s, moved phi (s_coords s t))).
  { intros s s' (A & B & C). rewrite A, B, (moved_rel phi _ _ C). reflexivity. }
  split; [exact (Forall2_maps _ _ _ _ _ _ _ ER S)|]. split; [exact (Forall2_maps _ _ _ _ _ _ _ ER I)|].
  unfold gnd_surfaces. apply (Forall2_maps _ _ (surface_rel Q t)); [exact SR|].
  apply Forall2_app; apply surfaces_related; assumption.
Qed.
Print Assumptions C82_moved.

(** Every coordinate of the ground is a shadow end, a cut point or an end of the ground: what
    holds of these holds of all. *)
Theorem C82_selected : forall (D : R -> Prop) y flag shadows cuts g t,
  D (-100) -> D 100 ->
  (forall s x, In s shadows -> fst (s t) = XFin x \/ snd (s t) = XFin x -> D x) ->
  (forall c x, In c cuts -> c t = XFin x -> D x) ->
  ground_from_ordered_shadows y flag shadows cuts = Some g ->
  (forall e, In e (gnd_shadows g ++ gnd_illum g) -> D (px (b1 (el_coords e t))) /\ D (px (b2 (el_coords e t)))) /\
  (forall s, In s (gnd_surfaces g) -> D (px (b1 (s_coords s t))) /\ D (px (b2 (s_coords s t)))).
Proof.
  intros D y flag shadows cuts g t Lo Hi HS HC G. set (Q := fun a b : R => a = b /\ D a).
  assert (OQ : ordered_rel Q).
  { intros a a' b b' (-> & A) (-> & B). unfold Q, Rmin, Rmax. destruct (Rle_dec a' b'); repeat split; assumption. }
  assert (X : forall a : xr, (forall x, a = XFin x -> D x) -> xrel Q a a) by (intros [|x| |] H; cbn; auto; split; [reflexivity | apply H; reflexivity]).
  destruct (ground_related Q OQ (conj eq_refl Lo) (conj eq_refl Hi) t y flag flag shadows shadows cuts cuts g eq_refl) as (g' & G' & S & I).
  - rewrite <- (map_id shadows) at 2. apply Forall2_map_self. intros s Is. split; apply X; intros x E; apply (HS s x Is); [left | right]; exact E.
  - rewrite <- (map_id cuts) at 2. apply Forall2_map_self. intros c Ic. apply X. intros x E. exact (HC c x Ic E).
  - exact G.
  - assert (F1 : forall (A : Type) (P : A -> A -> Prop) l l' x, Forall2 P l l' -> In x l -> exists x', P x x').
    { intros A P l l' x F. induction F as [|z z' l l' Z F IH]; intros []; [subst; eauto | auto]. }
    assert (LR : forall l l', line_rel Q l l' -> D (px (b1 l)) /\ D (px (b2 l))) by (intros l l' ((_ & A) & (_ & B) & _); split; assumption).
    pose proof (Forall2_app S I) as SI. split.
    + intros e Ie. destruct (F1 _ _ _ _ e SI Ie) as (e' & (L & _)). exact (LR _ _ L).
    + intros s Is. pose proof (Forall2_app (surfaces_related Q t _ _ S) (surfaces_related Q t _ _ I)) as SS.
      destruct (F1 _ _ _ _ s SS Is) as (s' & (_ & _ & L)). exact (LR _ _ L).
Qed.
Print Assumptions C82_selected.

(** Shadow ends and cut points off by at most [eps]: so are the ends of every piece of the
    ground. *)
Theorem C82_error : forall eps y flag shadows shadows' cuts cuts' g t, 0 <= eps ->
  let close := xrel (fun a b => Rabs (a - b) <= eps) in
  Forall2 (fun s s' : ts (xr * xr) => close (fst (s t)) (fst (s' t)) /\ close (snd (s t)) (snd (s' t))) shadows shadows' ->
  Forall2 (fun k k' : ts xr => close (k t) (k' t)) cuts cuts' ->
  ground_from_ordered_shadows y flag shadows cuts = Some g ->
  exists g', ground_from_ordered_shadows y flag shadows' cuts' = Some g' /\
    Forall2 (fun e e' => line_rel (fun a b => Rabs (a - b) <= eps) (el_coords e t) (el_coords e' t))
      (gnd_shadows g ++ gnd_illum g) (gnd_shadows g' ++ gnd_illum g') /\
    Forall2 (fun s s' => s_id s = s_id s' /\ s_shaded s = s_shaded s' /\
        line_rel (fun a b => Rabs (a - b) <= eps) (s_coords s t) (s_coords s' t))
      (gnd_surfaces g) (gnd_surfaces g').
Proof.
  intros eps y flag shadows shadows' cuts cuts' g t E0 close S C G. set (Q := fun a b : R => Rabs (a - b) <= eps) in *.
  assert (OQ : ordered_rel Q).
  { intros a a' b b' A B. unfold Q in *.
    assert (A1 := Rle_trans _ _ _ (Rle_abs _) A). assert (A2 := Rle_trans _ _ _ (Rle_abs _) (Rle_trans _ _ _ (Req_le _ _ (Rabs_Ropp _)) A)).
    assert (B1 := Rle_trans _ _ _ (Rle_abs _) B). assert (B2 := Rle_trans _ _ _ (Rle_abs _) (Rle_trans _ _ _ (Req_le _ _ (Rabs_Ropp _)) B)).
    unfold Rmin, Rmax. destruct (Rle_dec a b); destruct (Rle_dec a' b'); split; apply Rabs_le; lra. }
  assert (Z : forall x, Q x x) by (intro x; unfold Q; rewrite Rminus_diag_eq, Rabs_R0 by reflexivity; exact E0).
  destruct (ground_related Q OQ (Z _) (Z _) t y flag flag shadows shadows' cuts cuts' g eq_refl S C G) as (g' & G' & SH & IL).
  exists g'. split; [exact G'|]. split.
  - pose proof (Forall2_app SH IL) as F. clear - F. induction F as [|e e' l l' (X & _) F IH]; constructor; assumption.
  - exact (Forall2_app (surfaces_related Q t _ _ SH) (surfaces_related Q t _ _ IL)).
Qed.
Print Assumptions C82_error.

(** Doubles. *)
Definition is_double (x : R) : Prop := generic_format radix2 (FLT_exp (-1074) 53) x.
Definition to_double (x : R) : R := round radix2 (FLT_exp (-1074) 53) ZnearestE x.

Lemma double_ends : is_double (-100) /\ is_double 100.
Proof.
  assert (H : is_double 100).
  { apply generic_format_FLT. exists (Float radix2 25 2); [unfold F2R; cbn; lra | reflexivity | cbn; lia]. }
  split; [|exact H]. replace (-100) with (- 100) by lra. apply generic_format_opp, H.
Qed.

(** Ends and cut points computed in double precision: the coordinates of the ground are
    doubles, the code makes no rounding error in cutting, and the ground is that made of the
    exact ends and cut points, rounded. *)
Theorem C82_double : forall y flag shadows cuts g,
  ground_from_ordered_shadows y flag shadows cuts = Some g ->
  exists g', ground_from_ordered_shadows y flag
      (map (fun s t => (xmoved to_double (fst (s t)), xmoved to_double (snd (s t)))) shadows)
      (map (fun c t => xmoved to_double (c t)) cuts) = Some g' /\
    forall t,
    map (fun s => (s_id s, s_shaded s, s_coords s t)) (gnd_surfaces g') =
    map (fun s => (s_id s, s_shaded s, moved to_double (s_coords s t))) (gnd_surfaces g) /\
    forall s, In s (gnd_surfaces g') -> is_double (px (b1 (s_coords s t))) /\ is_double (px (b2 (s_coords s t))).
Proof.
  intros y flag shadows cuts g G. destruct double_ends as (Lo & Hi).
  destruct (C82_moved to_double y flag shadows cuts g) as (g' & G' & M).
  - intros a b H. apply round_le; [apply FLT_exp_valid; reflexivity | apply valid_rnd_N | exact H].
  - apply round_generic; [apply valid_rnd_N | exact Lo].
  - apply round_generic; [apply valid_rnd_N | exact Hi].
  - exact G.
  - exists g'. split; [exact G'|]. intro t. split; [apply M|].
    assert (GF : forall x, is_double (to_double x)) by (intro x; apply generic_format_round; [apply FLT_exp_valid; reflexivity | apply valid_rnd_N]).
    refine (proj2 (C82_selected is_double y flag _ _ g' t Lo Hi _ _ G')).
    + intros s x Is E. apply in_map_iff in Is. destruct Is as (s0 & <- & _). cbn [fst snd] in E.
      destruct E as [E|E]; [destruct (fst (s0 t)) | destruct (snd (s0 t))]; cbn [xmoved] in E; inversion E; apply GF.
    + intros c x Ic E. apply in_map_iff in Ic. destruct Ic as (c0 & <- & _). cbv beta in E.
      destruct (c0 t); cbn [xmoved] in E; inversion E; apply GF.
Qed.
Print Assumptions C82_double.

(** Two shadows and a cut point, a third of a metre off the grid of doubles. *)
Example C82_example :
  let shadows := [fun _ : nat => (XFin (-1 / 3), XFin (1 / 3)); fun _ => (XFin 2, XPInf)] in
  let cuts := [fun _ : nat => XFin (1 / 7)] in
  exists g, ground_from_ordered_shadows 0 (fun _ => false) shadows cuts = Some g /\
    map (fun e => (px (b1 (el_coords e 0%nat)), px (b2 (el_coords e 0%nat)))) (gnd_shadows g) = [(-1 / 3, 1 / 3); (2, 100)] /\
    map (fun s => px (b1 (s_coords s 0%nat))) (firstn 2 (gnd_surfaces g)) = [-1 / 3; 1 / 7].
Proof.
  intros shadows cuts. eexists. split; [reflexivity|]. cbn. unfold np_min, np_max, MIN_X_GROUND, MAX_X_GROUND.
  repeat match goal with |- context [Rle_dec ?a ?b] =>
    lazymatch a with context [Rle_dec] => fail | _ => destruct (Rle_dec a b); try lra end end. split; reflexivity.
Qed.
