(** Proofs that the averages over the geometry of one timestep are those of the series. *)
From Coq Require Import Reals List Bool Arith String Lra Lia.
From Verif Require Import Num ModelTs ModelGeom ModelVF ModelParams ModelShapely ModelSnapshot.
From Verif Require Import Basics SpecGeom SpecParams SpecSnapshot ProofParams ProofSnapshot.
Import ListNotations.
Open Scope R_scope.

Lemma snap_num : forall e idx s name v, get_param (sn_store e) s name = Ok (PArr v) ->
  su_num (snap e idx s) name = Ok (v idx).
Proof.
  intros e idx s name v H. unfold get_param in H. unfold su_num, snap; cbn. unfold params_at.
  destruct (ps_surf (sn_store e) (s_id s) name) as [w|]; [|discriminate]. injection H as ->. reflexivity.
Qed.

Lemma snap_coll_ww : forall e idx name v l sh c ns acc, has_values (sn_store e) name l v ->
  fold_result (fun v s => do p <- su_num s name; Ok (v + p * su_length s)) (sc_surfaces (ShadeColl (map (snap e idx) l) sh c ns)) acc
  = Ok (acc + total (fun s => s_length s idx * v s idx) l).
Proof.
  intros e idx name v l sh c ns. cbn [sc_surfaces]. induction l as [|s l IH]; intros acc H; cbn [map fold_result total].
  - f_equal. unfold total; cbn. ring.
  - rewrite (snap_num e idx s name (v s)) by (apply H; now left). cbn [bind]. rewrite IH by (intros x X; apply H; now right).
    f_equal. unfold total; cbn. unfold su_length, s_length, snap; cbn. ring.
Qed.

Lemma kept_incl : forall idx l s, In s (kept idx l) -> In s l.
Proof. intros idx l s H. apply kept_in in H. tauto. Qed.
Lemma longer_incl : forall idx l s, In s (longer idx l) -> In s l.
Proof. intros idx l s H. unfold longer in H. apply filter_In in H. tauto. Qed.

Lemma kept_total : forall (f : ts_surface -> R) idx l,
  (forall s, In s l -> s_length s idx = 0 \/ tol <= s_length s idx) ->
  (forall s, s_length s idx = 0 -> f s = 0) -> total f (kept idx l) = total f l.
Proof.
  intros f idx l H F. induction l as [|s l IH]; [reflexivity|]. unfold kept in *. cbn [filter].
  rewrite <- (IH ltac:(intros; apply H; now right)) || idtac.
  destruct (Rltb (s_length s idx) tol) eqn:K; cbn [negb].
  - apply Rltb_true in K. destruct (H s (or_introl eq_refl)) as [Z|Z]; [|lra].
    unfold total in *; cbn. rewrite (F s Z), IH by (intros; apply H; now right). ring.
  - unfold total in *; cbn. rewrite IH by (intros; apply H; now right). reflexivity.
Qed.
Lemma longer_total : forall (f : ts_surface -> R) idx l,
  (forall s, In s l -> s_length s idx = 0 \/ tol < s_length s idx) ->
  (forall s, s_length s idx = 0 -> f s = 0) -> total f (longer idx l) = total f l.
Proof.
  intros f idx l H F. induction l as [|s l IH]; [reflexivity|]. unfold longer in *. cbn [filter].
  destruct (Rltb tol (s_length s idx)) eqn:K.
  - unfold total in *; cbn. rewrite IH by (intros; apply H; now right). reflexivity.
  - apply Rltb_false in K. destruct (H s (or_introl eq_refl)) as [Z|Z]; [|lra].
    unfold total in *; cbn. rewrite (F s Z), IH by (intros; apply H; now right). ring.
Qed.

Lemma snap_length_total : forall e idx l, py_sum (map su_length (map (snap e idx) l)) = total (fun s => s_length s idx) l.
Proof. intros. rewrite map_map. rewrite total_py_sum. reflexivity. Qed.

Section Side.
Variables (e : snap_env) (sd : ts_side) (idx : nat).
Hypothesis NS : forall s, In s (side_surfaces sd) -> s_length s idx = 0 \/ tol <= s_length s idx.

Lemma seg_ns : forall g, In g (side_segments sd) -> forall s, In s (seg_surfaces g) -> s_length s idx = 0 \/ tol <= s_length s idx.
Proof. intros g G s S. apply NS. unfold side_surfaces. apply in_flat_map. exists g; auto. Qed.

Lemma seg_snap_length : forall g, In g (side_segments sd) ->
  sg_length (seg_snap e idx g) = seg_length g idx /\ sg_shaded_length (seg_snap e idx g) = seg_shaded_length g idx.
Proof.
  intros g G. pose proof (seg_ns g G) as N.
  unfold sg_length, sg_shaded_length, seg_length, seg_shaded_length, sc_length, coll_length, seg_snap; cbn [sg_illum sg_shaded sc_surfaces].
  rewrite !snap_length_total. rewrite !kept_total; auto.
  - rewrite !total_py_sum. split; [ring|reflexivity].
  - intros s S; apply N; apply in_or_app; now left.
  - intros s S; apply N; apply in_or_app; now right.
Qed.

Lemma side_snap_length :
  sd_length (map (seg_snap e idx) (side_segments sd)) = side_length sd idx /\
  sd_shaded_length (map (seg_snap e idx) (side_segments sd)) = side_shaded_length sd idx.
Proof.
  unfold sd_length, sd_shaded_length, side_length, side_shaded_length. rewrite !map_map, !total_py_sum. split; apply total_ext; intros g G.
  - apply (seg_snap_length g G).
  - apply (seg_snap_length g G).
Qed.

Lemma seg_snap_ww : forall g name v, In g (side_segments sd) -> has_values (sn_store e) name (seg_surfaces g) v ->
  sg_param_ww (seg_snap e idx g) name = Ok (total (fun s => s_length s idx * v s idx) (seg_surfaces g)).
Proof.
  intros g name v G H. pose proof (seg_ns g G) as N. unfold seg_surfaces in *. apply has_values_app in H. destruct H as [Hi Hs].
  unfold sg_param_ww, sc_param_ww, seg_snap; cbn [sg_illum sg_shaded].
  rewrite (snap_coll_ww e idx name v (kept idx (seg_shaded g))) by (intros s S; apply Hs; apply (kept_incl idx _ _ S)). cbn [bind].
  rewrite (snap_coll_ww e idx name v (kept idx (seg_illum g))) by (intros s S; apply Hi; apply (kept_incl idx _ _ S)). cbn [bind].
  f_equal. rewrite !kept_total.
  - rewrite total_app. ring.
  - intros s S; apply N; apply in_or_app; now left.
  - intros s Z. rewrite Z. ring.
  - intros s S; apply N; apply in_or_app; now right.
  - intros s Z. rewrite Z. ring.
Qed.

Lemma side_snap_ww : forall name v, has_values (sn_store e) name (side_surfaces sd) v ->
  sd_param_ww (map (seg_snap e idx) (side_segments sd)) name = Ok (total (fun s => s_length s idx * v s idx) (side_surfaces sd)).
Proof.
  intros name v H. unfold sd_param_ww, side_surfaces in *.
  assert (A : forall l acc, incl l (side_segments sd) ->
    fold_result (fun v s => do p <- sg_param_ww s name; Ok (v + p)) (map (seg_snap e idx) l) acc
    = Ok (acc + total (fun s => s_length s idx * v s idx) (flat_map seg_surfaces l))).
  { induction l as [|g l IH]; intros acc I; cbn [map fold_result flat_map]; [unfold total; cbn; f_equal; ring|].
    assert (G : In g (side_segments sd)) by (apply I; now left).
    rewrite (seg_snap_ww g name v G) by (apply (has_values_in _ _ _ _ _ _ H g G)). cbn [bind].
    rewrite IH by (intros x X; apply I; now right). rewrite total_app. f_equal. ring. }
  rewrite (A _ 0 (fun x X => X)). f_equal. ring.
Qed.
End Side.
