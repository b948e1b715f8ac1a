(** [difference] of two collinear segments (proofs for C40). *)
From Coq Require Import Reals List Bool Arith String Lra Lia Psatz.
From Verif Require Import Num ModelTs ModelGeom ModelVF ModelParams ModelLinalg ModelShapely
  Basics SpecGeom SpecShapely ProofShapely.
Import ListNotations.
Open Scope R_scope.

Section Diff.
Variables x y c s : R.
Hypothesis unit : c * c + s * s = 1.
Notation at_ := (along x y c s).

(** Geometry made of the pieces between pairs of positions. *)
Definition pieces (l : list (R * R)) : geom :=
  match map (fun i => Line (at_ (fst i)) (at_ (snd i))) l with
  | [] => GEmpty
  | [l] => GLine l
  | ls => GMultiLine ls
  end.

Lemma covers_pieces : forall l t,
  covers (pieces l) (at_ t) <-> exists i, In i l /\ Rmin (fst i) (snd i) <= t <= Rmax (fst i) (snd i).
Proof.
  intros l t. unfold pieces. destruct l as [|i [|j l]].
  - cbn. split; [tauto | intros (i & [] & _)].
  - cbn [map covers]. rewrite (on_segment_along x y c s unit). split.
    + intros H. exists i. split; [left; reflexivity | exact H].
    + intros (k & [<-|[]] & H). exact H.
  - cbn [map covers]. split.
    + intros (l0 & [<-|[<-|H]] & O).
      * rewrite (on_segment_along x y c s unit) in O. exists i. split; [left; auto | exact O].
      * rewrite (on_segment_along x y c s unit) in O. exists j. split; [right; left; auto | exact O].
      * apply in_map_iff in H. destruct H as (k & <- & H).
        rewrite (on_segment_along x y c s unit) in O. exists k. split; [right; right; auto | exact O].
    + intros (k & H & O). exists (Line (at_ (fst k)) (at_ (snd k))).
      rewrite (on_segment_along x y c s unit). split; [| exact O].
      apply (in_map (fun i => Line (at_ (fst i)) (at_ (snd i))) (i :: j :: l) k H).
Qed.

Lemma covers_pieces_along : forall l p, covers (pieces l) p -> exists t, p = at_ t.
Proof.
  intros l p. unfold pieces. destruct l as [|i [|j l]]; cbn [map covers].
  - tauto.
  - apply on_segment_is_along.
  - intros (l0 & [<-|[<-|H]] & O); try (eapply on_segment_is_along; exact O).
    apply in_map_iff in H. destruct H as (k & <- & _). eapply on_segment_is_along; exact O.
Qed.

Lemma length_pieces : forall l,
  geom_length (pieces l) = fold_right Rplus 0 (map (fun i => Rabs (fst i - snd i)) l).
Proof.
  intros l.
  assert (E : forall i, seg_length (Line (at_ (fst i)) (at_ (snd i))) = Rabs (fst i - snd i)).
  { intros i. unfold seg_length. cbn [b1 b2]. apply (gap_along x y c s unit). }
  unfold pieces. destruct l as [|i [|j l]].
  - reflexivity.
  - cbn [map geom_length fold_right]. rewrite E. lra.
  - cbn [map geom_length fold_right]. rewrite !E. do 2 apply f_equal.
    induction l as [|k l IH]; [reflexivity|]. cbn [map fold_right]. rewrite E, IH. reflexivity.
Qed.

Lemma not_contains_along : forall a b t,
  contains (Line (at_ a) (at_ b)) (at_ t) = false
  <-> t <= Rmin a b - DISTANCE_TOLERANCE \/ Rmax a b + DISTANCE_TOLERANCE <= t.
Proof.
  intros a b t. pose proof (contains_along x y c s unit a b t) as H.
  destruct (contains _ _).
  - split; [discriminate|]. destruct H as [H _]. specialize (H eq_refl). lra.
  - split; [| reflexivity]. intros _. destruct H as [_ H].
    destruct (Rlt_dec (Rmin a b - DISTANCE_TOLERANCE) t); [| lra].
    destruct (Rlt_dec t (Rmax a b + DISTANCE_TOLERANCE)); [| lra].
    discriminate H. lra.
Qed.

Lemma along_neq : forall a b, a <> b -> at_ a <> at_ b.
Proof. intros a b H E. apply H. exact (along_inj x y c s unit a b E). Qed.

(** One-dimensional content of the difference. *)
Definition removes (a b u v : R) (l : list (R * R)) : Prop :=
  (forall t, t <> u -> t <> v -> t <> a -> t <> b ->
     ((exists i, In i l /\ Rmin (fst i) (snd i) <= t <= Rmax (fst i) (snd i))
      <-> Rmin a b <= t <= Rmax a b /\ ~ (Rmin u v <= t <= Rmax u v))) /\
  (forall i, In i l -> Rmin a b <= Rmin (fst i) (snd i) /\ Rmax (fst i) (snd i) <= Rmax a b) /\
  (forall i, In i l -> DISTANCE_TOLERANCE < Rabs (fst i - snd i) /\ 0 < (snd i - fst i) * (b - a)) /\
  fold_right Rplus 0 (map (fun i => Rabs (fst i - snd i)) l) = Rabs (a - b) - overlap a b u v.

Ltac rmm :=
  unfold Rmin, Rmax in *;
  repeat match goal with
  | |- context [Rle_dec ?a ?b] => destruct (Rle_dec a b); try (exfalso; lra)
  | H : context [Rle_dec ?a ?b] |- _ => destruct (Rle_dec a b); try (exfalso; lra)
  end.

Ltac rab :=
  unfold Rabs in *;
  repeat match goal with
  | |- context [Rcase_abs ?a] => destruct (Rcase_abs a); try (exfalso; lra)
  | H : context [Rcase_abs ?a] |- _ => destruct (Rcase_abs a); try (exfalso; lra)
  end.

Ltac dec_contains :=
  repeat match goal with
  | |- context [contains (Line (along _ _ _ _ ?a) (along _ _ _ _ ?b)) (along _ _ _ _ ?t)] =>
      let E := fresh "E" in
      destruct (contains (Line (at_ a) (at_ b)) (at_ t)) eqn:E;
      [ apply (contains_along x y c s unit) in E | apply not_contains_along in E ];
      rmm; try (exfalso; lra); clear E
  end.

Ltac dec_length :=
  repeat match goal with
  | |- context [Rltb DISTANCE_TOLERANCE (line_length (Line (along _ _ _ _ ?a) (along _ _ _ _ ?b)))] =>
      rewrite (length_along x y c s unit a b);
      let E := fresh "E" in
      destruct (Rltb_spec DISTANCE_TOLERANCE (Rabs (a - b))) as [E|E];
      rab; try (exfalso; lra); clear E
  end.

Ltac prove_removes :=
  unfold removes, overlap; cbn [map fold_right fst snd];
  split; [| split; [| split]];
  [ let t := fresh "t" in
    intros t ? ? ? ?; split;
    [ let i := fresh in let H := fresh in let H2 := fresh in
      intros (i & H & H2); cbn [In] in H;
      repeat (destruct H as [H|H]; [subst i; cbn [fst snd] in *; rmm; split; [lra| intros ?; lra] |]);
      destruct H
    | let H := fresh in let N := fresh in
      intros (H & N); rmm;
      first [ exfalso; apply N; lra
            | eexists; split; [left; reflexivity|]; cbn [fst snd]; rmm; lra
            | match type of N with
              | ~ (?lo <= ?t0 <= ?hi) =>
                  destruct (Rlt_dec t0 lo);
                  first [ exfalso; apply N; lra
                        | eexists; split; [left; reflexivity|]; cbn [fst snd]; rmm; lra
                        | eexists; split; [right; left; reflexivity|]; cbn [fst snd]; rmm; lra
                        | destruct (Rlt_dec hi t0);
                          first [ exfalso; apply N; lra
                                | eexists; split; [left; reflexivity|]; cbn [fst snd]; rmm; lra
                                | eexists; split; [right; left; reflexivity|]; cbn [fst snd]; rmm; lra ] ]
              end ] ]
  | let i := fresh in let H := fresh in
    intros i H; cbn [In] in H;
    repeat (destruct H as [H|H]; [subst i; cbn [fst snd]; rmm; lra |]); destruct H
  | let i := fresh in let H := fresh in
    intros i H; cbn [In] in H;
    repeat (destruct H as [H|H]; [subst i; cbn [fst snd]; split; [rab; lra | nra] |]); destruct H
  | rmm; rab; lra ].

Lemma difference_removes : forall a b u v,
  a <> b -> u <> v ->
  apart DISTANCE_TOLERANCE a b -> apart DISTANCE_TOLERANCE u v ->
  apart DISTANCE_TOLERANCE a u -> apart DISTANCE_TOLERANCE a v ->
  apart DISTANCE_TOLERANCE b u -> apart DISTANCE_TOLERANCE b v ->
  ~ (Rmin u v < Rmin a b /\ Rmax a b < Rmax u v) ->
  exists l, difference (Line (at_ a) (at_ b)) (Line (at_ u) (at_ v)) = Ok (pieces l) /\
            removes a b u v l.
Proof.
  intros a b u v Nab Nuv Sab Suv Sau Sav Sbu Sbv NC.
  pose proof DISTANCE_TOLERANCE_pos as T.
  unfold difference.
  rewrite (boundary_ok (Line (at_ a) (at_ b))) by (cbn [b1 b2]; apply along_neq; assumption).
  rewrite (boundary_ok (Line (at_ u) (at_ v))) by (cbn [b1 b2]; apply along_neq; assumption).
  cbn [b1 b2 bind]. cbv beta iota zeta.
  assert (Dab : a + DISTANCE_TOLERANCE < b \/ b + DISTANCE_TOLERANCE < a)
    by (destruct Sab; [contradiction | rab; lra]).
  assert (Duv : u + DISTANCE_TOLERANCE < v \/ v + DISTANCE_TOLERANCE < u)
    by (destruct Suv; [contradiction | rab; lra]).
  clear Sab Suv Nab Nuv.
  assert (tri : forall p q, apart DISTANCE_TOLERANCE p q ->
      p + DISTANCE_TOLERANCE < q \/ p = q \/ q + DISTANCE_TOLERANCE < p)
    by (intros p q [E|E]; [auto | rab; lra]).
  apply tri in Sau. apply tri in Sav. apply tri in Sbu. apply tri in Sbv. clear tri.
  destruct Dab as [Dab|Dab]; destruct Duv as [Duv|Duv];
  destruct Sau as [Sau|[Sau|Sau]]; destruct Sav as [Sav|[Sav|Sav]];
  try (exfalso; lra);
  destruct Sbu as [Sbu|[Sbu|Sbu]]; try (exfalso; lra);
  destruct Sbv as [Sbv|[Sbv|Sbv]]; try (exfalso; lra);
  try (exfalso; apply NC; rmm; split; lra); clear NC.
  all: dec_contains.
  all: cbn [filter].
  all: dec_length.
  all: match goal with
       | |- exists l, Ok GEmpty = _ /\ _ => exists []; split; [reflexivity|]
       | |- exists l, Ok (GLine (Line (along _ _ _ _ ?p) (along _ _ _ _ ?q))) = _ /\ _ =>
           exists [(p, q)]; split; [reflexivity|]
       | |- exists l, Ok (GMultiLine [Line (along _ _ _ _ ?p) (along _ _ _ _ ?q);
                                      Line (along _ _ _ _ ?p') (along _ _ _ _ ?q')]) = _ /\ _ =>
           exists [(p, q); (p', q')]; split; [reflexivity|]
       end.
  all: prove_removes.
Qed.

Lemma difference_covered : forall a b u v, a <> b -> u <> v ->
  Rmin u v <= Rmin a b - DISTANCE_TOLERANCE -> Rmax a b + DISTANCE_TOLERANCE <= Rmax u v ->
  difference (Line (at_ a) (at_ b)) (Line (at_ u) (at_ v)) = Ok (GLine (Line (at_ a) (at_ b))).
Proof.
  intros a b u v Nab Nuv H1 H2. pose proof DISTANCE_TOLERANCE_pos as T.
  unfold difference.
  rewrite (boundary_ok (Line (at_ a) (at_ b))) by (cbn [b1 b2]; apply along_neq; assumption).
  rewrite (boundary_ok (Line (at_ u) (at_ v))) by (cbn [b1 b2]; apply along_neq; assumption).
  cbn [b1 b2 bind]. cbv beta iota zeta.
  assert (C1 : contains (Line (at_ a) (at_ b)) (at_ u) = false)
    by (apply not_contains_along; rmm; lra).
  assert (C2 : contains (Line (at_ a) (at_ b)) (at_ v) = false)
    by (apply not_contains_along; rmm; lra).
  rewrite C1, C2. reflexivity.
Qed.
End Diff.

(** Whatever the two segments: when neither end of the second is near the first, the first
    is returned as it is. *)
Lemma difference_unchanged : forall u v, b1 u <> b2 u -> b1 v <> b2 v ->
  ~ near DISTANCE_TOLERANCE u (b1 v) -> ~ near DISTANCE_TOLERANCE u (b2 v) ->
  difference u v = Ok (GLine u).
Proof.
  intros u v Hu Hv N1 N2. unfold difference.
  rewrite (boundary_ok u Hu), (boundary_ok v Hv). cbn [bind].
  rewrite <- contains_near in N1, N2. apply not_true_is_false in N1, N2.
  rewrite N1, N2. reflexivity.
Qed.
