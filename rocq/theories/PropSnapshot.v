(** Properties of the geometry built for one timestep ([at] methods). *)
From Coq Require Import Reals List Bool Arith String Lra Lia.
From Verif Require Import Num ModelTs ModelGeom ModelVF ModelParams ModelShapely ModelSnapshot.
From Verif Require Import Basics SpecGeom SpecParams SpecSnapshot ProofGround ProofShade ProofRow ProofFit ProofCut ProofIndex ProofGeom ProofGeom2 ProofParams ProofSnapshot ProofMerge ProofGroundAt ProofAverage.
From Verif Require ProofShapely PropGeom.
Import ListNotations.
Open Scope R_scope.

(* ------------------------------------------------------------------------ *)
(** Conditions on an array at a timestep: those of C01 and C03 (sun above the horizon, no
    shaded strip narrower than the tolerance, rows above the ground), and no ground
    surface narrower than the tolerance but not a point. *)
Definition regular (p : pvarray_params) (f : fit_inputs) (a : fitted) (idx : nat) : Prop :=
  valid_params p /\
  (exists al, sun_angle (fi_zenith f idx) (fi_azimuth f idx) (pa_axis_azimuth p) al /\
     ~ shading_sliver tol (pa_width p) (pa_distance p) al (ft_rotation a idx)) /\
  -180 < ft_rotation a idx < 180 /\
  pa_width p / 2 * Rabs (sin (ft_rotation a idx * PI / 180)) < pa_height p /\
  (forall s, In s (gnd_surfaces (ft_ground a)) -> s_length s idx = 0 \/ tol < s_length s idx).

Lemma regular_ground : forall p n f a idx, fit p n f = Some a -> regular p f a idx ->
  exists flag shadows cuts,
    ground_from_ordered_shadows 0 flag shadows cuts = Some (ft_ground a) /\
    raw_ordered idx (flag idx) shadows /\ cuts <> [] /\ not_nan idx cuts.
Proof.
  intros p n f a idx F (V & (al & SA & SL) & RR & AB & _).
  pose proof (fit_ground_ordered p n f a F) as GO. destruct (fit_spec p n f a F) as (_ & ER & _).
  rewrite ER in *.
  eexists _, _, _. split; [exact GO|]. split; [exact (fit_raw_ordered' p f idx al V SA SL)|].
  destruct (fit_cuts p (fit_alpha p f) (fit_rotation p f) idx V) as (L & NN & _).
  - exact AB.
  - exact RR.
  - split; [|exact NN]. intro Z. rewrite Z in L. destruct V as (_ & _ & N & _). cbn in L. lia.
Qed.

Lemma kept_images : forall e idx l, images e idx l (map (snap e idx) (kept idx l)).
Proof.
  intros e idx l. unfold images, kept. induction l as [|s l IH]; [constructor|]. cbn [filter].
  destruct (Rle_dec (1 / 100000000) (s_length s idx)) as [L|L].
  - replace (Rltb (s_length s idx) tol) with false by (symmetry; apply Rltb_false; unfold DISTANCE_TOLERANCE; lra). cbn. constructor; [apply snap_same|exact IH].
  - replace (Rltb (s_length s idx) tol) with true by (symmetry; apply Rltb_true; unfold DISTANCE_TOLERANCE; lra). exact IH.
Qed.
Lemma longer_lasting : forall idx l, longer idx l = lasting idx l.
Proof.
  intros idx l. unfold longer, lasting. induction l as [|s l IH]; [reflexivity|]. cbn [filter]. rewrite IH.
  destruct (Rlt_dec (1 / 100000000) (s_length s idx)) as [L|L].
  - replace (Rltb tol (s_length s idx)) with true by (symmetry; apply Rltb_true; unfold DISTANCE_TOLERANCE; lra). reflexivity.
  - replace (Rltb tol (s_length s idx)) with false by (symmetry; apply Rltb_false; unfold DISTANCE_TOLERANCE; lra). reflexivity.
Qed.
Lemma not_points_lasting : forall idx l, not_points l idx = lasting_elements idx l.
Proof.
  intros idx l. unfold not_points, lasting_elements. induction l as [|s l IH]; [reflexivity|]. cbn [filter]. rewrite IH.
  destruct (Rlt_dec (1 / 100000000) (line_length (el_coords s idx))) as [L|L].
  - replace (Rltb tol (line_length (el_coords s idx))) with true by (symmetry; apply Rltb_true; unfold DISTANCE_TOLERANCE; lra). reflexivity.
  - replace (Rltb tol (line_length (el_coords s idx))) with false by (symmetry; apply Rltb_false; unfold DISTANCE_TOLERANCE; lra). reflexivity.
Qed.
Lemma snap_all : forall e idx l, Forall2 (same_at e idx) l (map (snap e idx) l).
Proof. intros e idx. induction l; constructor; auto. apply snap_same. Qed.
Lemma np_lasting : forall e idx els,
  Forall2 (same_at e idx) (lasting idx (flat_map el_surfaces els)) (flat_map (np e idx) els).
Proof.
  intros e idx els. induction els as [|el els IH]; [constructor|]. cbn [flat_map]. unfold lasting in *. rewrite filter_app.
  apply Forall2_app; [|exact IH]. fold (lasting idx (el_surfaces el)). rewrite <- longer_lasting. apply snap_all.
Qed.

(* ------------------------------------------------------------------------ *)
(** C44. Elements whose surfaces follow one another: the merged surfaces cover the same
    stretch without gaps, one fewer for each pair of neighbouring elements; they start
    where the surfaces started and end where they ended, except where two elements meet;
    each one has the parameters and the index of the last surface that it covers. *)
Lemma contiguous_chain : forall y l lo hi, contiguous lo hi (map extent l) -> (forall s, In s l -> flat_at y s) ->
  chain lo hi l.
Proof.
  intros y. induction l as [|s l IH]; intros lo hi C F; cbn in C; inversion C; subst; [constructor|].
  assert (FS := F s (or_introl eq_refl)). destruct FS as (_ & _ & _ & L & _).
  constructor; [reflexivity|exact L|]. apply IH; [assumption|]. intros; apply F; now right.
Qed.
Lemma starting_length : forall els, els <> [] -> (forall ss, In ss els -> ss <> []) ->
  (List.length (starting els) + List.length els = S (List.length (List.concat els)))%nat.
Proof.
  intros [|ss els] N H; [congruence|]. unfold starting. cbn [hd tl List.length List.concat]. rewrite !app_length.
  assert (A : (List.length (flat_map (@tl pv_surface) els) + List.length els = List.length (List.concat els))%nat).
  { assert (H' : forall ss, In ss els -> ss <> []) by (intros; apply H; now right). clear N H. induction els as [|s2 els IH]; [reflexivity|].
    cbn [flat_map List.length List.concat]. rewrite !app_length. specialize (IH ltac:(intros; apply H'; now right)).
    destruct s2 as [|x s2]; [exfalso; apply (H' []); [now left|reflexivity]|]. cbn. lia. }
  lia.
Qed.
Lemma Forall2_len : forall (A B : Type) (P : A -> B -> Prop) l m, Forall2 P l m -> List.length l = List.length m.
Proof. intros A B P l m H. induction H; cbn; auto. Qed.

Theorem C44_merge : forall y names els lo hi,
  els <> [] -> (forall ss, In ss els -> ss <> []) ->
  (forall s, In s (List.concat els) -> flat_at y s /\ su_shaded s = true /\ su_names s = names) ->
  contiguous lo hi (map extent (List.concat els)) ->
  exists out, merge_elements names els None = Ok out /\
    contiguous lo hi (map extent out) /\
    (List.length out + List.length els = S (List.length (List.concat els)))%nat /\
    Forall2 same_start out (starting els) /\ Forall2 same_end out (ending els) /\
    (forall o, In o out -> flat_at y o /\ su_shaded o = true /\ su_names o = names).
Proof.
  intros y names els lo hi N H P C.
  destruct (merge_chain y names els None lo lo hi N H P) as (out & E & O1 & O2 & O3 & O4).
  - apply (contiguous_chain y); [exact C|]. intros s S; apply P; exact S.
  - reflexivity.
  - exists out. split; [exact E|]. split; [apply chain_contiguous; exact O1|]. split; [|auto].
    cbn in O3. rewrite (Forall2_len _ _ _ _ _ O3). apply starting_length; assumption.
Qed.

(** On the ground of an array. *)
Theorem C44_array : forall p n f a idx e, fit p n f = Some a -> regular p f a idx ->
  gnd_flag_overlap (ft_ground a) idx = true ->
  (1 < List.length (lasting_elements idx (gnd_shadows (ft_ground a))))%nat ->
  exists out pieces, merge_shadow_surfaces e true (lasting_elements idx (gnd_shadows (ft_ground a))) idx = Ok out /\
    stands_for 0 true idx (gnd_shadows (ft_ground a)) out /\
    (exists lo hi, contiguous lo hi (map extent out)) /\
    Forall2 (fun el ss => Forall2 (same_at e idx) (lasting idx (el_surfaces el)) ss)
      (lasting_elements idx (gnd_shadows (ft_ground a))) pieces /\
    Forall2 same_start out (starting pieces) /\ Forall2 same_end out (ending pieces) /\
    (List.length out + List.length pieces = S (List.length (List.concat pieces)))%nat.
Proof.
  intros p n f a idx e F R FL L. destruct (regular_ground p n f a idx F R) as (flag & shadows & cuts & G & RO & CN & NN).
  destruct R as (_ & _ & _ & _ & NS). destruct (gnd_flag _ _ _ _ _ _ G NS) as [GF _]. rewrite GF in FL.
  rewrite <- !not_points_lasting in *.
  destruct (merged_shadows 0 flag shadows cuts _ idx e G RO CN NN NS FL L) as (out & E & O1 & O2 & O3 & O4 & O5).
  exists out, (map (np e idx) (not_points (gnd_shadows (ft_ground a)) idx)).
  unfold merge_shadow_surfaces. cbn [andb]. replace (Nat.ltb 1 _) with true by (symmetry; apply Nat.ltb_lt; exact L).
  rewrite each_element_eq. cbn [bind]. split; [exact E|]. split; [exact O1|]. split; [exact O3|]. split.
  { induction (not_points (gnd_shadows (ft_ground a)) idx) as [|el l IH]; constructor.
    - rewrite <- longer_lasting. apply snap_all.
    - clear - e. induction l; constructor; auto. rewrite <- longer_lasting. apply snap_all. }
  split; [exact O4|]. split; [exact O5|]. rewrite (Forall2_len _ _ _ _ _ O4). apply starting_length.
  - destruct (not_points (gnd_shadows (ft_ground a)) idx); [cbn in L; lia|discriminate].
  - intros ss J. apply in_map_iff in J. destruct J as (el & <- & J).
    exact (not_points_nonempty 0 flag shadows cuts _ idx e G RO CN NN NS _ _ (shadow_incl _) J).
Qed.

(** A shadow longer than the tolerance that is cut into pieces that are not: the surface
    kept for merging is lost, here a shadow of one metre. *)
Definition sliver_els : list ts_ground_element :=
  [TsGroundElement (fun _ => Line (Pt 0 0) (Pt 1 0))
     [TsSurface (SidShadow 0 0) (fun _ => Line (Pt 0 0) (Pt 1 0)) (fun _ => (0, 0)) true]
     (fun _ => ([], [])) true;
   TsGroundElement (fun _ => Line (Pt 1 0) (Pt (1 + 3 / 2 * tol) 0))
     [TsSurface (SidShadow 1 0) (fun _ => Line (Pt 1 0) (Pt (1 + 3 / 4 * tol) 0)) (fun _ => (0, 0)) true;
      TsSurface (SidShadow 1 1) (fun _ => Line (Pt (1 + 3 / 4 * tol) 0) (Pt (1 + 3 / 2 * tol) 0)) (fun _ => (0, 0)) true]
     (fun _ => ([], [])) true].
Lemma flat_length : forall a b y, a <= b -> line_length (Line (Pt a y) (Pt b y)) = b - a.
Proof.
  intros a b y H. unfold line_length. cbn. replace ((y - y) * ((y - y) * 1) + (b - a) * ((b - a) * 1)) with (Rsqr (b - a)) by (unfold Rsqr; ring).
  apply sqrt_Rsqr. lra.
Qed.
Theorem C44_pending_lost_refuted : forall e idx,
  lasting_elements idx sliver_els = sliver_els /\
  merge_shadow_surfaces e true sliver_els idx = Ok [].
Proof.
  intros e idx. pose proof tol_pos as T. split.
  - rewrite <- not_points_lasting. unfold not_points, sliver_els. cbn [filter el_coords]. rewrite !flat_length by lra.
    replace (Rltb tol (1 - 0)) with true by (symmetry; apply Rltb_true; unfold DISTANCE_TOLERANCE; lra).
    replace (Rltb tol (1 + 3 / 2 * tol - 1)) with true by (symmetry; apply Rltb_true; lra). reflexivity.
  - unfold merge_shadow_surfaces. cbn [andb sliver_els List.length Nat.ltb Nat.leb]. rewrite each_element_eq. cbn [bind].
    change (map (np e idx) sliver_els) with [np e idx (nth 0 sliver_els (hd (TsGroundElement (fun _ => Line (Pt 0 0) (Pt 0 0)) [] (fun _ => ([], [])) true) sliver_els));
      np e idx (nth 1 sliver_els (hd (TsGroundElement (fun _ => Line (Pt 0 0) (Pt 0 0)) [] (fun _ => ([], [])) true) sliver_els))].
    unfold np, longer, sliver_els. cbn [nth hd el_surfaces filter]. unfold s_length. cbn [s_coords]. rewrite !flat_length by lra.
    replace (Rltb tol (1 - 0)) with true by (symmetry; apply Rltb_true; unfold DISTANCE_TOLERANCE; lra).
    replace (Rltb tol (1 + 3 / 4 * tol - 1)) with false by (symmetry; apply Rltb_false; lra).
    replace (Rltb tol (1 + 3 / 2 * tol - (1 + 3 / 4 * tol))) with false by (symmetry; apply Rltb_false; lra).
    reflexivity.
Qed.

(* ------------------------------------------------------------------------ *)
(** C45. Asked at timestep 0, the ground gives exactly its surfaces longer than the
    tolerance; at any other timestep, it gives those of timestep 0 again. *)
Theorem C45_first_timestep : forall e g,
  exists il sh, non_point_illum_surfaces_at e g 0 = Ok il /\ non_point_shaded_surfaces_at e g 0 = Ok sh /\
    Forall2 (same_at e 0) (lasting 0 (flat_map el_surfaces (gnd_illum g))) il /\
    Forall2 (same_at e 0) (lasting 0 (flat_map el_surfaces (gnd_shadows g))) sh /\
    gnd_non_point_surfaces_at e g 0 = Ok (il ++ sh) /\
    n_non_point_surfaces_at e g 0 = Ok (List.length (lasting 0 (gnd_surfaces g))).
Proof.
  intros e g. unfold gnd_non_point_surfaces_at, n_non_point_surfaces_at, gnd_non_point_surfaces_at, non_point_illum_surfaces_at, non_point_shaded_surfaces_at.
  rewrite !elements_at_eq. cbn [bind]. eexists _, _. split; [reflexivity|]. split; [reflexivity|].
  split; [apply np_lasting|]. split; [apply np_lasting|]. split; [reflexivity|]. f_equal.
  rewrite app_length. rewrite <- (Forall2_len _ _ _ _ _ (np_lasting e 0 (gnd_illum g))), <- (Forall2_len _ _ _ _ _ (np_lasting e 0 (gnd_shadows g))).
  unfold gnd_surfaces, lasting. rewrite filter_app, app_length. lia.
Qed.

(** A ground element does look at the timestep. *)
Theorem C45_element : forall e el idx, exists l, non_point_surfaces_at e el idx = Ok l /\
  Forall2 (same_at e idx) (lasting idx (el_surfaces el)) l.
Proof.
  intros e el idx. exists (np e idx el). split; [apply non_point_eq|]. rewrite <- longer_lasting. apply snap_all.
Qed.

(** A shadow of one metre at timestep 0 that is a point at timestep 1. *)
Definition shrinking : ts_ground :=
  TsGround
    [TsGroundElement (fun t => if Nat.eqb t 0 then Line (Pt 0 0) (Pt 1 0) else Line (Pt 0 0) (Pt 0 0))
       [TsSurface (SidShadow 0 0) (fun t => if Nat.eqb t 0 then Line (Pt 0 0) (Pt 1 0) else Line (Pt 0 0) (Pt 0 0))
          (fun _ => (0, 0)) true] (fun _ => ([], [])) true]
    [] (fun _ => false) [] 0.
Theorem C45_index_ignored_refuted : forall e,
  (forall g idx, non_point_shaded_surfaces_at e g idx = non_point_shaded_surfaces_at e g 0 /\
     non_point_illum_surfaces_at e g idx = non_point_illum_surfaces_at e g 0 /\
     n_non_point_surfaces_at e g idx = n_non_point_surfaces_at e g 0) /\
  lasting 1 (gnd_surfaces shrinking) = [] /\ n_non_point_surfaces_at e shrinking 1 = Ok 1%nat.
Proof.
  intros e. split; [intros; repeat split|]. pose proof tol_pos. split.
  - rewrite <- longer_lasting. unfold longer, shrinking, gnd_surfaces. cbn [gnd_shadows gnd_illum flat_map el_surfaces app filter].
    unfold s_length. cbn [s_coords Nat.eqb]. rewrite flat_length by lra.
    replace (Rltb tol (0 - 0)) with false by (symmetry; apply Rltb_false; lra). reflexivity.
  - destruct (C45_first_timestep e shrinking) as (_ & _ & _ & _ & _ & _ & _ & E).
    change (n_non_point_surfaces_at e shrinking 1) with (n_non_point_surfaces_at e shrinking 0). rewrite E.
    rewrite <- longer_lasting. unfold longer, shrinking, gnd_surfaces. cbn [gnd_shadows gnd_illum flat_map el_surfaces app filter].
    unfold s_length. cbn [s_coords Nat.eqb]. rewrite flat_length by lra.
    replace (Rltb tol (1 - 0)) with true by (symmetry; apply Rltb_true; unfold DISTANCE_TOLERANCE; lra). reflexivity.
Qed.

(* ------------------------------------------------------------------------ *)
(** C58. Ground at one timestep, with or without merged shadows, with or without cut
    points: the shaded surfaces stand for the shadows, the others for the rest, the
    ground is 200 m long and its shaded length is that of the timeseries ground. *)
Definition x_limits (xm : option (R * R)) : R * R := match xm with Some m => m | None => (-100, 100) end.

Lemma stands_length : forall y sh idx els l, stands_for y sh idx els l ->
  py_sum (map su_length l) = py_sum (map (fun el => line_length (el_coords el idx)) els).
Proof. intros y sh idx els l (_ & _ & _ & E). rewrite !py_sum_rsum. rewrite <- !rsum_fold. exact E. Qed.

Theorem C58_ground : forall p n f a idx e xm merge cutp, fit p n f = Some a -> regular p f a idx ->
  let g := ft_ground a in
  exists seg, ground_at e g idx xm merge cutp =
      Ok ([seg], Line (Pt (fst (x_limits xm)) 0) (Pt (snd (x_limits xm)) 0)) /\
    stands_for 0 true idx (gnd_shadows g) (sc_surfaces (sg_shaded seg)) /\
    stands_for 0 false idx (gnd_illum g) (sc_surfaces (sg_illum seg)) /\
    sd_length [seg] = 200 /\ sd_shaded_length [seg] = gnd_shaded_length g idx.
Proof.
  intros p n f a idx e xm merge cutp F R g. subst g. destruct (regular_ground p n f a idx F R) as (flag & shadows & cuts & G & RO & CN & NN).
  destruct R as (_ & _ & _ & _ & NS).
  destruct (ground_at_full 0 flag shadows cuts _ idx e G RO CN NN NS xm merge cutp) as (sh & E & S1 & S2 & _).
  eexists. rewrite E. destruct ground_bounds as [B1 B2]. rewrite B1, B2. split; [destruct xm; reflexivity|].
  cbn [sg_shaded sg_illum sc_surfaces]. split; [exact S1|]. split; [exact S2|].
  unfold sd_length, sd_shaded_length, sg_length, sg_shaded_length, sc_length. cbn [map sg_shaded sg_illum sc_surfaces].
  rewrite (stands_length _ _ _ _ _ S1), (stands_length _ _ _ _ _ S2).
  pose proof (ground_length_200 _ _ _ _ _ idx G RO) as L. unfold gnd_length in L. unfold gnd_shaded_length.
  rewrite map_app, !py_sum_rsum, rsum_app in L. rewrite !py_sum_rsum. cbn [rsum]. split; lra.
Qed.

(** A ground without any shadow or cut, [PVGround.as_flat]. *)
Theorem C58_flat : forall names xm shaded y, fst (x_limits xm) < snd (x_limits xm) ->
  exists seg s, pvground_as_flat names xm shaded y =
      Ok ([seg], Line (Pt (fst (x_limits xm)) y) (Pt (snd (x_limits xm)) y)) /\
    sc_surfaces (if shaded then sg_shaded seg else sg_illum seg) = [s] /\
    sc_surfaces (if shaded then sg_illum seg else sg_shaded seg) = [] /\
    su_line s = Line (Pt (fst (x_limits xm)) y) (Pt (snd (x_limits xm)) y) /\
    su_nvec s = (0, 1) /\ su_shaded s = shaded /\ su_names s = names /\
    sd_length [seg] = snd (x_limits xm) - fst (x_limits xm).
Proof.
  intros names xm shaded y L. destruct ground_bounds as [B1 B2]. unfold pvground_as_flat. rewrite B1, B2.
  replace (match xm with Some m => m | None => (-100, 100) end) with (x_limits xm) by (destruct xm; reflexivity).
  destruct (x_limits xm) as [x0 x1]. cbn [fst snd] in *.
  destruct shaded; cbn; eexists _, _; (split; [reflexivity|]); repeat split; unfold sd_length, sg_length, sc_length, su_length; cbn;
    rewrite flat_length by lra; lra.
Qed.

(** The surfaces of the ground: those of the timeseries ground that are not points, when
    the shadows are not merged; one for each element without cut points. *)
Theorem C58_modes : forall p n f a idx e xm merge cutp, fit p n f = Some a -> regular p f a idx ->
  let g := ft_ground a in
  let merging := merge && gnd_flag_overlap g idx && Nat.ltb 1 (List.length (lasting_elements idx (gnd_shadows g))) in
  exists seg orig, ground_at e g idx xm merge cutp = Ok ([seg], orig) /\
    (cutp = true -> Forall2 (same_at e idx) (lasting idx (flat_map el_surfaces (gnd_illum g))) (sc_surfaces (sg_illum seg))) /\
    (cutp = false -> Forall2 (fun el o => su_line o = el_coords el idx /\ su_index o = None /\ su_names o = sn_names e /\
                               su_params o = params_at (ps_ground (sn_store e) false) idx)
        (lasting_elements idx (gnd_illum g)) (sc_surfaces (sg_illum seg))) /\
    (cutp = true -> merging = false ->
       Forall2 (same_at e idx) (lasting idx (flat_map el_surfaces (gnd_shadows g))) (sc_surfaces (sg_shaded seg))) /\
    (cutp = false -> merging = false ->
       Forall2 (fun el o => su_line o = el_coords el idx /\ su_index o = None /\ su_names o = sn_names e /\
                  su_params o = params_at (ps_ground (sn_store e) true) idx)
        (lasting_elements idx (gnd_shadows g)) (sc_surfaces (sg_shaded seg))) /\
    (cutp = true -> merging = true -> Ok (sc_surfaces (sg_shaded seg)) =
       merge_shadow_surfaces e true (lasting_elements idx (gnd_shadows g)) idx) /\
    (cutp = false -> merging = true ->
       exists o, sc_surfaces (sg_shaded seg) = [o] /\ su_index o = None /\ su_names o = sn_names e /\
         su_params o = params_at (ps_ground (sn_store e) true) idx).
Proof.
  intros p n f a idx e xm merge cutp F R g mg. subst g. destruct (regular_ground p n f a idx F R) as (flag & shadows & cuts & G & RO & CN & NN).
  destruct R as (_ & _ & _ & _ & NS). destruct (gnd_flag _ _ _ _ _ _ G NS) as [GF _].
  destruct (ground_at_full 0 flag shadows cuts _ idx e G RO CN NN NS xm merge cutp) as (sh & E & S1 & S2 & M0 & M1 & M2).
  assert (EM : mg = merging flag (ft_ground a) idx merge).
  { unfold mg, merging. rewrite GF, not_points_lasting. reflexivity. }
  eexists _, _. rewrite E. split; [reflexivity|]. cbn [sg_shaded sg_illum sc_surfaces].
  assert (WH : forall b l, Forall2 (fun el o => su_line o = el_coords el idx /\ su_index o = None /\ su_names o = sn_names e /\
      su_params o = params_at (ps_ground (sn_store e) b) idx) l
      (map (whole (sn_names e) b (params_at (ps_ground (sn_store e) b) idx)) (map (fun el => el_coords el idx) l))).
  { induction l; constructor; auto. }
  split; [intros ->; apply np_lasting|]. split; [intros ->; cbn [il_of]; rewrite not_points_lasting; apply WH|].
  split; [intros -> Z; rewrite EM in Z; rewrite (M0 Z); apply np_lasting|].
  split; [intros -> Z; rewrite EM in Z; rewrite (M0 Z); rewrite not_points_lasting; apply WH|].
  split.
  - intros -> Z. unfold ground_at in E. unfold mg in Z. rewrite <- not_points_lasting in *. apply andb_prop in Z as [Z Z3]. apply andb_prop in Z as [Z1 Z2].
    rewrite Z1, Z2 in E. cbn [bind] in E. destruct (merge_shadow_surfaces e true (not_points (gnd_shadows (ft_ground a)) idx) idx) as [l|]; [|discriminate].
    cbn [bind] in E. rewrite elements_at_eq in E. cbn [bind] in E. f_equal.
    unfold pvground_from_lists in E. destruct (match xm with None => _ | Some m => m end) as [x0 x1].
    unfold shade_collection in E. destruct (check_uniform_shading l); [|discriminate]. cbn [bind] in E.
    destruct (check_uniform_shading (flat_map (np e idx) (gnd_illum (ft_ground a)))); [|discriminate]. cbn [bind] in E.
    match type of E with context [pvsegment_init ?x ?y] => destruct (pvsegment_init x y) as [sg|] eqn:PS; [|discriminate] end. cbn [bind] in E.
    destruct (side_init [sg]) as [sd|] eqn:SI; [|discriminate]. cbn [bind] in E.
    assert (SD : sd = [sg]). { unfold side_init in SI. destruct (sg_direction sg) as [dd|]; [|discriminate]. cbn [bind] in SI.
      destruct (check_collinear [dd]); [|discriminate]. cbn in SI. congruence. }
    subst sd. apply (f_equal (fun r => match r with Ok x => map (fun s => sc_surfaces (sg_shaded s)) (fst x) | Err _ => [] end)) in E. cbn in E.
    injection E as E. rewrite <- E. unfold pvsegment_init in PS. cbn [sc_shaded] in PS.
    destruct (get_shading l (Some true)) as [[|]|]; try discriminate.
    destruct (get_shading (flat_map (np e idx) (gnd_illum (ft_ground a))) (Some false)) as [[|]|]; try discriminate;
    match type of PS with bind ?x _ = _ => destruct x; [|discriminate] end; cbn [bind] in PS; injection PS as <-; reflexivity.
  - intros -> Z. rewrite EM in Z. destruct (M2 Z eq_refl) as (lo & hi & -> & _). eexists. repeat split.
Qed.

(* ------------------------------------------------------------------------ *)
(** C59. A PV row at one timestep. *)
Lemma fitted_row : forall p n f a row, fit p n f = Some a -> In row (ft_rows a) ->
  row_side (row_front row) /\ row_side (row_back row).
Proof.
  intros p n f a row F I. destruct (fit_spec p n f a F) as (_ & _ & _ & ER & _). rewrite ER in I.
  unfold fit_rows in I. apply in_map_iff in I. destruct I as (i & <- & _). split; apply raw_side_ok.
Qed.

Definition segment_like (e : snap_env) (idx : nat) (nv : R * R) (g : ts_segment) (x : pv_segment) : Prop :=
  images e idx (seg_illum g) (sc_surfaces (sg_illum x)) /\
  images e idx (seg_shaded g) (sc_surfaces (sg_shaded x)) /\
  sc_shaded (sg_illum x) = Some false /\ sc_shaded (sg_shaded x) = Some true /\
  (forall s, In s (sg_surfaces x) -> su_nvec s = nv).

Lemma side_like : forall e idx sd, row_side sd ->
  Forall2 (segment_like e idx (side_nvec sd idx)) (side_segments sd) (map (seg_snap e idx) (side_segments sd)).
Proof.
  intros e idx sd H. unfold row_side in H. induction (side_segments sd) as [|g l IH]; [constructor|]. cbn [map]. constructor.
  - split; [apply kept_images|]. split; [apply kept_images|]. split; [reflexivity|]. split; [reflexivity|].
    intros s I. unfold sg_surfaces, seg_snap in I. cbn [sg_illum sg_shaded sc_surfaces] in I.
    destruct (H g (or_introl eq_refl)) as (_ & _ & HN).
    assert (Q : exists s0, In s0 (seg_surfaces g) /\ s = snap e idx s0).
    { apply in_app_or in I as [I|I]; apply snap_in_kept in I; destruct I as (s0 & I & _ & ->); exists s0; split; auto;
        unfold seg_surfaces; apply in_or_app; auto. }
    destruct Q as (s0 & I0 & ->). destruct (HN s0 I0) as (EN & r & b & k & fl & ES). unfold snap, nvec_at. rewrite ES. cbn [su_nvec]. now rewrite EN.
  - apply IH. intros; apply H; now right.
Qed.

Theorem C59_row : forall p n f a row idx e, fit p n f = Some a -> In row (ft_rows a) ->
  exists r, pvrow_at e row idx = Ok r /\ rw_line r = row_coords row idx /\
    Forall2 (segment_like e idx (side_nvec (row_front row) idx)) (side_segments (row_front row)) (rw_front r) /\
    Forall2 (segment_like e idx (side_nvec (row_back row) idx)) (side_segments (row_back row)) (rw_back r) /\
    images e idx (row_surfaces row) (flat_map (fun g => sc_surfaces (sg_illum g) ++ sc_surfaces (sg_shaded g)) (rw_front r ++ rw_back r)) /\
    (py (b1 (row_coords row idx)) <> py (b2 (row_coords row idx)) ->
       rw_highest r = Ok (highest_point (row_coords row idx)) /\ rw_lowest r = Ok (lowest_point (row_coords row idx))).
Proof.
  intros p n f a row idx e F I. destruct (fitted_row p n f a row F I) as [RF RB].
  unfold pvrow_at. rewrite (side_at_eq e _ idx RF), (side_at_eq e _ idx RB). cbn [bind]. eexists. split; [reflexivity|].
  cbn [rw_line rw_front rw_back]. split; [reflexivity|]. split; [apply side_like; exact RF|]. split; [apply side_like; exact RB|]. split.
  - rewrite <- map_app. unfold row_surfaces, side_surfaces. rewrite <- flat_map_app. unfold images.
    induction (side_segments (row_front row) ++ side_segments (row_back row)) as [|g l IH]; [constructor|].
    cbn [flat_map map]. unfold seg_surfaces at 1. rewrite !filter_app. apply Forall2_app; [|exact IH].
    apply Forall2_app; apply kept_images.
  - intros N. unfold rw_highest, rw_lowest. cbn [rw_line].
    assert (NB : b1 (row_coords row idx) <> b2 (row_coords row idx)) by congruence.
    rewrite ProofShapely.boundary_ok by exact NB. cbn [bind]. cbv beta iota zeta. unfold highest_point, lowest_point, np_where.
    destruct (Rltb (py (b2 (row_coords row idx))) (py (b1 (row_coords row idx)))) eqn:L1;
    destruct (Rltb (py (b1 (row_coords row idx))) (py (b2 (row_coords row idx)))) eqn:L2;
    destruct (Rleb (py (b2 (row_coords row idx))) (py (b1 (row_coords row idx)))) eqn:L3; rewrite ?pt_eta; auto; exfalso;
    repeat match goal with
    | H : Rltb _ _ = true |- _ => apply Rltb_true in H
    | H : Rltb _ _ = false |- _ => apply Rltb_false in H
    | H : Rleb _ _ = true |- _ => apply Rleb_true in H
    | H : Rleb _ _ = false |- _ => apply Rleb_false in H end; lra.
Qed.

(** Indices: a surface of the snapshot has the position of its timeseries surface in the
    list of all surfaces. *)
Theorem C59_indices : forall p n f a names st row idx k s, valid_params p -> fit p n f = Some a -> In row (ft_rows a) ->
  nth_error (all_ts_surfaces a) k = Some s -> In s (row_surfaces row) -> tol <= s_length s idx ->
  exists r x, pvrow_at (fitted_env names st a) row idx = Ok r /\ In x (rw_surfaces r) /\
    su_index x = Some k /\ su_line x = s_coords s idx.
Proof.
  intros p n f a names st row idx k s V F I K J L. destruct (C59_row p n f a row idx (fitted_env names st a) F I) as (r & E & _ & _ & _ & IM & _).
  exists r. unfold images in IM.
  assert (Q : In s (filter (fun s => if Rle_dec (1 / 100000000) (s_length s idx) then true else false) (row_surfaces row))).
  { apply filter_In. split; [exact J|]. destruct (Rle_dec (1 / 100000000) (s_length s idx)) as [_|N]; [reflexivity|]. unfold DISTANCE_TOLERANCE in L. lra. }
  revert IM Q. generalize (filter (fun s => if Rle_dec (1 / 100000000) (s_length s idx) then true else false) (row_surfaces row)). intros l IM Q.
  assert (X : exists x, In x (flat_map (fun g => sc_surfaces (sg_illum g) ++ sc_surfaces (sg_shaded g)) (rw_front r ++ rw_back r)) /\
    same_at (fitted_env names st a) idx s x).
  { induction IM; [contradiction|]. destruct Q as [->|Q]; [eexists; split; [now left|assumption]|].
    destruct (IHIM Q) as (z & Z1 & Z2). exists z. split; [now right|exact Z2]. }
  destruct X as (x & X1 & X2 & _ & X3 & _). exists x. split; [exact E|].
  split; [unfold rw_surfaces, sd_surfaces; rewrite <- flat_map_app; exact X1|].
  split; [|exact X2]. rewrite X3. cbn. f_equal. exact (surf_index_nth p n f a k s V F K).
Qed.

(* ------------------------------------------------------------------------ *)
(** C60. Averages over a part of a snapshot are those of the timeseries part at that
    timestep, when no surface is narrower than the tolerance without being a point. *)
Theorem C60_side : forall p n f a row bk idx e name v w, fit p n f = Some a -> In row (ft_rows a) ->
  let sd := if bk : bool then row_back row else row_front row in
  (forall s, In s (side_surfaces sd) -> s_length s idx = 0 \/ tol <= s_length s idx) ->
  (forall s, In s (side_surfaces sd) -> get_param (sn_store e) s name = Ok (PArr (v s))) ->
  side_param_weighted (sn_store e) sd name = Ok w ->
  exists r, pvrow_at e row idx = Ok r /\
    let x := if bk then rw_back r else rw_front r in
    sd_length x = side_length sd idx /\ sd_shaded_length x = side_shaded_length sd idx /\
    sd_param_weighted x name = Ok (w idx).
Proof.
  intros p n f a row bk idx e name v w F I sd NS HV W. destruct (fitted_row p n f a row F I) as [RF RB].
  unfold pvrow_at. rewrite (side_at_eq e _ idx RF), (side_at_eq e _ idx RB). cbn [bind]. eexists. split; [reflexivity|].
  cbn [rw_back rw_front].
  replace (if bk then map (seg_snap e idx) (side_segments (row_back row)) else map (seg_snap e idx) (side_segments (row_front row)))
    with (map (seg_snap e idx) (side_segments sd)) by (unfold sd; destruct bk; reflexivity).
  destruct (side_snap_length e sd idx NS) as [L1 L2]. split; [exact L1|]. split; [exact L2|].
  unfold sd_param_weighted. rewrite (side_snap_ww e sd idx NS name v HV). cbn [bind]. rewrite L1. f_equal.
  destruct (side_ww _ _ _ _ HV) as (w0 & E & W0). unfold side_param_weighted in W. rewrite E in W. cbn [bind] in W. injection W as <-.
  unfold per_length. now rewrite W0.
Qed.

Lemma np_map : forall e idx els, flat_map (np e idx) els = map (snap e idx) (longer idx (flat_map el_surfaces els)).
Proof.
  intros e idx els. induction els as [|el els IH]; [reflexivity|]. cbn [flat_map]. unfold longer in *. rewrite filter_app, map_app, <- IH. reflexivity.
Qed.

Theorem C60_ground : forall p n f a idx e xm name v w, fit p n f = Some a -> regular p f a idx ->
  let g := ft_ground a in
  (forall s, In s (gnd_surfaces g) -> get_param (sn_store e) s name = Ok (PArr (v s))) ->
  gnd_param_weighted (sn_store e) g name = Ok w ->
  exists segs orig, ground_at e g idx xm false true = Ok (segs, orig) /\ sd_param_weighted segs name = Ok (w idx).
Proof.
  intros p n f a idx e xm name v w F R g HV W. subst g.
  destruct (C58_ground p n f a idx e xm false true F R) as (sg & ES & _ & _ & L & _).
  destruct (regular_ground p n f a idx F R) as (flag & shadows & cuts & G & RO & CN & NN).
  pose proof (ground_length_200 _ _ _ _ _ idx G RO) as L200.
  destruct R as (_ & _ & _ & _ & NS).
  destruct (ground_at_full 0 flag shadows cuts _ idx e G RO CN NN NS xm false true) as (sh & E & S1 & S2 & M0 & _).
  rewrite E in ES. apply (f_equal (fun r => match r with Ok x => fst x | Err _ => [] end)) in ES. cbn [fst] in ES. rewrite E. eexists _, _. split; [reflexivity|].
  unfold sd_param_weighted. rewrite ES, L, <- ES. unfold sd_param_ww. cbn [fold_result]. unfold sg_param_ww. cbn [sg_shaded sg_illum].
  rewrite (M0 eq_refl). cbn [il_of]. rewrite !np_map. unfold gnd_surfaces in HV.
  assert (HV1 : has_values (sn_store e) name (flat_map el_surfaces (gnd_shadows (ft_ground a))) v) by (intros s J; apply HV; apply in_or_app; now left).
  assert (HV2 : has_values (sn_store e) name (flat_map el_surfaces (gnd_illum (ft_ground a))) v) by (intros s J; apply HV; apply in_or_app; now right).
  unfold sc_param_ww. rewrite !(snap_coll_ww e idx name v).
  2: { intros s J. apply HV2. apply longer_incl in J. exact J. }
  2: { intros s J. apply HV1. apply longer_incl in J. exact J. }
  cbn [bind]. f_equal.
  assert (Z : forall s, s_length s idx = 0 -> s_length s idx * v s idx = 0) by (intros s Z; rewrite Z; ring).
  unfold gnd_surfaces in NS.
  rewrite !longer_total; try exact Z; try (intros s J; apply NS; apply in_or_app; tauto).
  destruct (gnd_ww (sn_store e) name (ft_ground a) v) as (w0 & E0 & W0).
  { rewrite flat_map_app. exact HV. }
  unfold gnd_param_weighted in W. rewrite E0 in W. cbn [bind] in W. injection W as <-. unfold per_length. rewrite W0, L200.
  f_equal. rewrite flat_map_app, total_app. lra.
Qed.

(** Merging loses the value of the left part: two shadows of one metre that receive 100
    and 50 W/m2 become one of two metres that receives 50 W/m2. *)
Definition lit (lo hi q : R) : pv_surface :=
  PVSurface (Line (Pt lo 0) (Pt hi 0)) (0, hi - lo) true None ["qinc"%string] (fun _ => Some (SNum q)).
Theorem C60_merged_refuted : exists out,
  merge_elements ["qinc"%string] [[lit 0 1 100]; [lit 1 2 50]] None = Ok out /\
  sc_length (ShadeColl out (Some true) true []) = 2 /\
  sc_param_ww (ShadeColl out (Some true) true []) "qinc" = Ok 100 /\
  sc_param_ww (ShadeColl [lit 0 1 100; lit 1 2 50] (Some true) true []) "qinc" = Ok 150.
Proof.
  destruct (C44_merge 0 ["qinc"%string] [[lit 0 1 100]; [lit 1 2 50]] 0 2) as (out & E & _ & LN & S1 & S2 & P).
  - discriminate.
  - intros ss [<-|[<-|[]]]; discriminate.
  - intros s [<-|[<-|[]]]; repeat split; cbn; lra.
  - cbn. unfold extent, x_extent. cbn. repeat constructor; lra.
  - exists out. split; [exact E|]. cbn in LN, S1, S2. inversion S1 as [|o s out' l' H1 H2]; subst. inversion H2; subst.
    inversion S2 as [|o2 s2 out2 l2 (B & PA & _) _]; subst. cbn in H1, B, PA. unfold same_start in H1.
    assert (LL : su_length o = 2).
    { unfold su_length. destruct (su_line o) as [u w]. cbn in H1, B. subst. cbn [su_line]. rewrite flat_length; lra. }
    assert (L1 : su_length (lit 0 1 100) = 1) by (unfold su_length; cbn; rewrite flat_length; lra).
    assert (L2 : su_length (lit 1 2 50) = 1) by (unfold su_length; cbn; rewrite flat_length; lra).
    unfold sc_length, sc_param_ww. cbn [sc_surfaces map fold_result]. unfold su_num. rewrite PA. cbn [lit su_params bind].
    fold (lit 0 1 100) (lit 1 2 50). rewrite LL, L1, L2. unfold py_sum. cbn [fold_left]. repeat split; try (f_equal); lra.
Qed.

(* ------------------------------------------------------------------------ *)
(** Example: the array of PropGeom at timestep 1. The three shadows overlap; the ground
    is cut at the positions sqrt 3 + 3 k, the first one being inside the last shadow. *)
Notation q3 := (sqrt 3).
Lemma q3_bounds : 173 / 100 < q3 < 174 / 100.
Proof.
  split.
  - rewrite <- (sqrt_Rsqr (173 / 100)) by lra. apply sqrt_lt_1; unfold Rsqr; lra.
  - rewrite <- (sqrt_Rsqr (174 / 100)) by lra. apply sqrt_lt_1; unfold Rsqr; lra.
Qed.
Lemma q3_sq : q3 * q3 = 3.
Proof. apply sqrt_sqrt. lra. Qed.

Ltac plain_term x := lazymatch x with context [Rmin _ _] => fail | context [Rmax _ _] => fail | _ => idtac end.
Ltac inner_minmax := repeat match goal with
  | |- context [Rmin ?x ?y] => plain_term x; plain_term y;
      first [rewrite (Rmin_left x y) by lra | rewrite (Rmin_right x y) by lra]
  | |- context [Rmax ?x ?y] => plain_term x; plain_term y;
      first [rewrite (Rmax_right x y) by lra | rewrite (Rmax_left x y) by lra]
  end.

Section Example.
Import PropGeom.
Let al := fit_alpha ex_p ex_f.
Let rot := fit_rotation ex_p ex_f.
Lemma ex_al1 : al 1%nat = PI / 6.
Proof. apply (fit_alpha_sun_angle ex_p ex_f 1 (PI / 6)). exact ex_sun1. Qed.
Lemma ex_shadow : forall i, shadow_coords (row_coords (fit_row ex_p al rot i) 1%nat) (al 1%nat) pa_y_ground
  = (XFin (INR i * 3 - 2 - 3 * q3), XFin (INR i * 3 + 2 - 3 * q3)).
Proof.
  intros i. rewrite fit_row_coords. unfold pa_y_ground. rewrite ex_al1. rewrite shadow_coords_row.
  - unfold mid_shadow, half_shadow. unfold rot. change (rr (fit_rotation ex_p ex_f 1%nat)) with (fit_rotation ex_p ex_f 1%nat * PI / 180).
    rewrite ex_sin1, Rabs_R1, ex_distance, sin_PI6, cos_PI6. cbn [ex_p pa_height pa_width]. f_equal; f_equal; field.
  - rewrite sin_PI6. lra.
  - cbn. lra.
Qed.
Lemma ex_above : above_ground ex_p (rot 1%nat).
Proof.
  unfold above_ground, rot. rewrite ex_rot1. cbn [ex_p pa_height pa_width]. pose proof (SIN_bound (rr (-60))).
  assert (Rabs (sin (rr (-60))) <= 1) by (apply Rabs_le; exact H). lra.
Qed.
Lemma ex_cut : forall i, cut_point (row_coords (fit_row ex_p al rot i) 1%nat) (rot 1%nat) pa_y_ground = XFin (INR i * 3 + q3).
Proof.
  intros i. pose proof q3_bounds. pose proof q3_sq. rewrite fit_cut_point; [|exact ex_above|unfold rot; rewrite ex_rot1; lra].
  unfold rot. rewrite ex_rot1. destruct (Req_EM_T (-60) 0); [lra|]. rewrite ex_distance. cbn [ex_p pa_height]. f_equal.
  unfold rr, deg2rad. replace (-60 * PI / 180) with (- (PI / 3)) by field. rewrite sin_neg, cos_neg, sin_PI3, cos_PI3.
  assert (E : 3 * (1 / 2) / - (q3 / 2) = - q3).
  { apply (Rmult_eq_reg_r (- (q3 / 2))); [|lra]. unfold Rdiv at 1. rewrite Rmult_assoc, Rinv_l by lra. lra. }
  lra.
Qed.

Lemma piece_regular : forall mkid sh c cuts s,
  map (fun k => k 1%nat) cuts = [XFin (0 * 3 + q3); XFin (1 * 3 + q3); XFin (2 * 3 + q3)] ->
  In s (el_surfaces (make_element mkid sh c cuts)) ->
  py (b1 (c 1%nat)) = 0 -> py (b2 (c 1%nat)) = 0 ->
  In (x_extent (c 1%nat)) [(-2 - 3 * q3, 1 - 3 * q3); (1 - 3 * q3, 4 - 3 * q3); (4 - 3 * q3, 8 - 3 * q3);
     (-100, -2 - 3 * q3); (1 - 3 * q3, 1 - 3 * q3); (4 - 3 * q3, 4 - 3 * q3); (8 - 3 * q3, 100)] ->
  s_length s 1%nat = 0 \/ tol < s_length s 1%nat.
Proof.
  intros mkid sh c cuts s EC I Y1 Y2 X. pose proof q3_bounds as Q.
  destruct cuts as [|k0 [|k1 [|k2 [|]]]]; try discriminate. cbn [map] in EC. injection EC as E0 E1 E2.
  apply In_nth_error in I. destruct I as (j & J). apply make_element_surfaces in J. destruct J as (_ & _ & J & _).
  unfold s_length. cbn [create_coords] in J.
  assert (IG : in_ground (c 1%nat)).
  { unfold in_ground. gb. unfold x_extent in X. repeat destruct X as [X|X]; try contradiction;
      pose proof (f_equal fst X) as A; pose proof (f_equal snd X) as B; cbn [fst snd] in A, B; rewrite <- A, <- B; lra. }
  assert (C0 : ck (k0 1%nat) = q3 /\ ck (k1 1%nat) = 3 + q3 /\ ck (k2 1%nat) = 6 + q3 /\ k0 1%nat <> XNaN /\ k1 1%nat <> XNaN /\ k2 1%nat <> XNaN).
  { rewrite E0, E1, E2. unfold ck, xclip. gb. repeat split; try discriminate; minmax; lra. }
  destruct C0 as (C0 & C1 & C2 & N0 & N1 & N2).
  pose proof (left_x (c 1%nat) _ N0 IG) as [A0 B0]. pose proof (right_x (c 1%nat) _ N0 IG) as [A0' B0'].
  pose proof (right_in_ground _ _ N0 IG) as IG1.
  pose proof (left_x _ _ N1 IG1) as [A1 B1]. pose proof (right_x _ _ N1 IG1) as [A1' B1'].
  pose proof (right_in_ground _ _ N1 IG1) as IG2.
  pose proof (left_x _ _ N2 IG2) as [A2 B2]. pose proof (right_x _ _ N2 IG2) as [A2' B2'].
  assert (LEN : forall l, py (b1 l) = 0 -> py (b2 l) = 0 -> px (b1 l) <= px (b2 l) -> line_length l = px (b2 l) - px (b1 l)).
  { intros [[x0 y0] [x1 y1]] Z0 Z1 L. cbn in Z0, Z1, L. subst. cbn [px b1 b2]. apply flat_length. exact L. }
  rewrite C0, C1, C2 in *. rewrite A0', B0' in *. rewrite A1', B1' in *.
  unfold x_extent in X.
  assert (XX : exists a b, px (b1 (c 1%nat)) = a /\ px (b2 (c 1%nat)) = b /\ In (a, b) [(-2 - 3 * q3, 1 - 3 * q3); (1 - 3 * q3, 4 - 3 * q3); (4 - 3 * q3, 8 - 3 * q3);
     (-100, -2 - 3 * q3); (1 - 3 * q3, 1 - 3 * q3); (4 - 3 * q3, 4 - 3 * q3); (8 - 3 * q3, 100)]) by eauto.
  clear X. destruct XX as (a & b & EA & EB & X). rewrite EA, EB in *.
  unfold DISTANCE_TOLERANCE.
  destruct j as [|[|[|[|j]]]]; cbn [nth_error] in J; [| | | |destruct j; discriminate]; injection J as J; rewrite <- J; cbv beta;
  (rewrite LEN; [|exact Y1|exact Y2|]); rewrite ?A0, ?B0, ?A1, ?B1, ?A2, ?B2, ?A2', ?B2'; clear - X Q;
  repeat destruct X as [X|X]; try contradiction; pose proof (f_equal fst X) as A; pose proof (f_equal snd X) as B; cbn [fst snd] in A, B; subst a b; clear X;
  inner_minmax; try lra; try (left; lra); try (right; lra).
Qed.

Lemma ex_regular : exists a, fit ex_p 2 ex_f = Some a /\ regular ex_p ex_f a 1 /\
  gnd_flag_overlap (ft_ground a) 1%nat = true /\
  (1 < List.length (lasting_elements 1 (gnd_shadows (ft_ground a))))%nat.
Proof.
  destruct ex_fit as [a F]. exists a. split; [exact F|]. pose proof q3_bounds as Q.
  destruct (fit_spec _ _ _ _ F) as (_ & ER & _).
  destruct (C04_example a F) as [FL _].
  pose proof (fit_ground_ordered _ _ _ _ F) as G.
  destruct (ground_from_ordered_spec _ _ _ _ _ G) as (_ & _ & _ & ES & _ & EI).
  assert (GF : direct_shading_flag (fit_shading ex_p al rot 1%nat) = true).
  { rewrite <- FL. unfold ground_from_ordered_shadows in G. cbv zeta in G. destruct (illum_elements _ _ _); [|discriminate]. injection G as <-. reflexivity. }
  assert (CX : forall x, -100 <= x <= 100 -> xclip (XFin x) MIN_X_GROUND MAX_X_GROUND = x).
  { intros x H. unfold xclip. gb. minmax; lra. }
  assert (XS : map (fun el => el_coords el 1%nat) (gnd_shadows (ft_ground a)) =
    [Line (Pt (-2 - 3 * q3) 0) (Pt (1 - 3 * q3) 0); Line (Pt (1 - 3 * q3) 0) (Pt (4 - 3 * q3) 0); Line (Pt (4 - 3 * q3) 0) (Pt (8 - 3 * q3) 0)]).
  { rewrite <- (map_map el_coords (fun l : ts line => l 1%nat)), ES. rewrite ProofFit.fit_rows_eq. cbn [ex_p pa_n_pvrows seq map fix_overlaps].
    fold al rot. unfold clip_shadow. cbn [fst snd]. rewrite GF. cbn [np_where]. rewrite !ex_shadow. cbn [fst snd].
    rewrite !CX by (cbn [INR]; lra). unfold pa_y_ground. cbn [INR]. repeat (f_equal; try lra). }
  assert (XI : map (fun el => el_coords el 1%nat) (gnd_illum (ft_ground a)) =
    [Line (Pt (-100) 0) (Pt (-2 - 3 * q3) 0); Line (Pt (1 - 3 * q3) 0) (Pt (1 - 3 * q3) 0); Line (Pt (4 - 3 * q3) 0) (Pt (4 - 3 * q3) 0);
     Line (Pt (8 - 3 * q3) 0) (Pt 100 0)]).
  { rewrite <- (map_map el_coords (fun l : ts line => l 1%nat)), EI.
    assert (LS : exists s0 s1 s2, gnd_shadows (ft_ground a) = [s0; s1; s2]).
    { apply (f_equal (@List.length _)) in XS. rewrite map_length in XS. destruct (gnd_shadows (ft_ground a)) as [|s0 [|s1 [|s2 [|]]]]; try discriminate. eauto. }
    destruct LS as (s0 & s1 & s2 & LS). rewrite LS in *. cbn [map] in XS. injection XS as X0 X1 X2. cbn [map illum_coords].
    rewrite X0, X1, X2. cbn [px b1 b2]. destruct ground_bounds as [B1 B2]. rewrite B1, B2. reflexivity. }
  split; [|split; [exact FL|]].
  - split; [exact ex_valid|]. split; [exists (PI / 6); split; [exact ex_sun1|rewrite ER; exact ex_nosliver1]|].
    rewrite ER. split; [rewrite ex_rot1; lra|]. split; [exact ex_above|].
    intros s I. unfold gnd_surfaces in I. rewrite <- flat_map_app in I. apply in_flat_map in I. destruct I as (el & IE & I).
    destruct (ground_elements _ _ _ _ _ el G IE) as (mkid & sh & c & EE & EC). rewrite EE in I.
    assert (XX : In (el_coords el 1%nat) (map (fun el => el_coords el 1%nat) (gnd_shadows (ft_ground a) ++ gnd_illum (ft_ground a)))) by (apply (in_map (fun el => el_coords el 1%nat)); exact IE).
    rewrite map_app, XS, XI in XX. rewrite EC in XX.
    refine (piece_regular mkid sh c _ s _ I _ _ _).
    + rewrite ProofFit.fit_rows_eq. cbn [ex_p pa_n_pvrows seq map]. fold al rot. rewrite !ex_cut. cbn [INR]. repeat f_equal. all: try lra.
    + cbn [app] in XX. repeat destruct XX as [XX|XX]; try contradiction; rewrite <- XX; reflexivity.
    + cbn [app] in XX. repeat destruct XX as [XX|XX]; try contradiction; rewrite <- XX; reflexivity.
    + cbn [app] in XX. unfold x_extent. cbn [In]. repeat destruct XX as [XX|XX]; try contradiction; rewrite <- XX; cbn [px b1 b2]; tauto.
  - rewrite <- not_points_lasting. unfold not_points.
    destruct (gnd_shadows (ft_ground a)) as [|s0 [|s1 [|s2 [|]]]]; try discriminate. cbn [map] in XS. injection XS as X0 X1 X2.
    cbn [filter]. rewrite X0, X1, X2. rewrite !flat_length by lra.
    replace (Rltb tol (1 - 3 * q3 - (-2 - 3 * q3))) with true by (symmetry; apply Rltb_true; unfold DISTANCE_TOLERANCE; lra).
    replace (Rltb tol (4 - 3 * q3 - (1 - 3 * q3))) with true by (symmetry; apply Rltb_true; unfold DISTANCE_TOLERANCE; lra).
    destruct (Rltb tol _); cbn; lia.
Qed.
End Example.

Example C44_example : exists a e out, fit PropGeom.ex_p 2 PropGeom.ex_f = Some a /\
  merge_shadow_surfaces e true (lasting_elements 1 (gnd_shadows (ft_ground a))) 1 = Ok out /\
  stands_for 0 true 1 (gnd_shadows (ft_ground a)) out.
Proof.
  destruct ex_regular as (a & F & R & FL & L). exists a.
  set (e := SnapEnv [] (PStore (fun _ _ => None) (fun _ _ => None) (fun _ _ _ => None)) (fun _ => None)). exists e.
  destruct (C44_array _ _ _ _ 1 e F R FL L) as (out & ps & E & S & _). exists out. auto.
Qed.
Example C58_example : exists a e seg l, fit PropGeom.ex_p 2 PropGeom.ex_f = Some a /\
  ground_at e (ft_ground a) 1 None true true = Ok ([seg], l) /\ sd_length [seg] = 200.
Proof.
  destruct ex_regular as (a & F & R & FL & L). exists a.
  set (e := SnapEnv [] (PStore (fun _ _ => None) (fun _ _ => None) (fun _ _ _ => None)) (fun _ => None)). exists e.
  destruct (C58_ground _ _ _ _ 1 e None true true F R) as (seg & E & _ & _ & S & _). eauto.
Qed.

(** Front of the first row, cut in two segments of one metre, half a metre being shaded. *)
Lemma ex_front : forall a row, fit PropGeom.ex_p 2 PropGeom.ex_f = Some a -> nth_error (ft_rows a) 0 = Some row ->
  forall s, In s (side_surfaces (row_front row)) -> s_length s 1%nat = 0 \/ s_length s 1%nat = 1 / 2 \/ s_length s 1%nat = 1.
Proof.
  intros a row F N s I. destruct (fit_spec _ _ _ _ F) as (_ & _ & _ & EW & _). rewrite EW in N.
  rewrite ProofFit.fit_rows_eq in N. cbn [PropGeom.ex_p pa_n_pvrows seq map nth_error] in N. injection N as <-.
  fold PropGeom.ex_p in I.
  assert (SH : fit_shading PropGeom.ex_p (fit_alpha PropGeom.ex_p PropGeom.ex_f) (fit_rotation PropGeom.ex_p PropGeom.ex_f) 1%nat = (1 / 2, 0)).
  { unfold fit_shading. rewrite ex_al1. assert (S1 := PropGeom.ex_sin1).
    destruct (interrow_shading_cases (pa_n_pvrows PropGeom.ex_p) (pa_distance PropGeom.ex_p) (pa_width PropGeom.ex_p) (PI / 6)
      (fit_rotation PropGeom.ex_p PropGeom.ex_f 1%nat)) as (_ & H & _).
    - cbn; lia.
    - rewrite PropGeom.ex_distance; lra.
    - cbn; lra.
    - rewrite sin_PI6; lra.
    - unfold rr, deg2rad. rewrite S1. lra.
    - rewrite H; unfold rr, deg2rad; rewrite S1; [|lra]. rewrite Rabs_R1, sin_PI6, PropGeom.ex_distance. cbn [pa_width PropGeom.ex_p].
      f_equal. rewrite Rmax_right; lra. }
  unfold fit_row, pvrow_from_raw_inputs in I. cbn [row_front] in I. unfold side_from_raw_inputs, side_surfaces in I. cbn [side_segments] in I.
  change (pa_cut PropGeom.ex_p 0 false) with 2%nat in I. cbn [seq map flat_map app] in I. unfold seg_surfaces in I. cbn [seg_illum seg_shaded app] in I.
  assert (RS : fst (row_shaded_lengths (pa_n_pvrows PropGeom.ex_p) 0 (fit_rotation PropGeom.ex_p PropGeom.ex_f 1%nat)
      (fit_shading PropGeom.ex_p (fit_alpha PropGeom.ex_p PropGeom.ex_f) (fit_rotation PropGeom.ex_p PropGeom.ex_f) 1%nat)) = 1 / 2).
  { rewrite SH, PropGeom.ex_rot1. unfold row_shaded_lengths. cbn [Nat.eqb fst snd]. replace (Rltb 0 (-60)) with false by (symmetry; apply Rltb_false; lra). reflexivity. }
  unfold s_length.
  repeat destruct I as [I|I]; try contradiction; rewrite <- I; cbn [s_coords]; rewrite RS, PropGeom.ex_rot1;
  (rewrite segment_coords_nonflat; [|cbn; lra|lra|lra|lia]); cbv zeta; cbn [fst snd]; unfold seg_lo, seg_hi; cbn [pa_width PropGeom.ex_p INR];
  destruct (Rlt_dec 0 (-60)); try lra; rewrite low_point_dist; inner_minmax; lra.
Qed.

(** Every surface receives 100 W/m2 if it is not shaded, 40 W/m2 if it is. *)
Definition ex_store : pstore :=
  PStore (fun i k => Some (PArr (fun _ => match i with SidRow _ _ _ b => if b then 40 else 100 | _ => 10 end)))
         (fun _ _ => None) (fun _ _ _ => None).
Example C60_example : exists a row r w, fit PropGeom.ex_p 2 PropGeom.ex_f = Some a /\ nth_error (ft_rows a) 0 = Some row /\
  pvrow_at (fitted_env ["qinc"%string] ex_store a) row 1 = Ok r /\
  side_param_weighted ex_store (row_front row) "qinc" = Ok w /\
  sd_param_weighted (rw_front r) "qinc" = Ok (w 1%nat) /\
  sd_length (rw_front r) = side_length (row_front row) 1%nat.
Proof.
  destruct PropGeom.ex_fit as [a F]. destruct (nth_error (ft_rows a) 0) as [row|] eqn:N.
  2: { destruct (fit_spec _ _ _ _ F) as (_ & _ & _ & EW & _). rewrite EW in N. apply nth_error_None in N. rewrite fit_rows_length in N. cbn in N. lia. }
  pose proof (ex_front a row F N) as L. exists a, row.
  destruct (side_ww ex_store "qinc" (row_front row) (fun s _ => match s_id s with SidRow _ _ _ b => if b then 40 else 100 | _ => 10 end)) as (w & E & _).
  { intros s _. reflexivity. }
  destruct (C60_side _ _ _ _ row false 1 (fitted_env ["qinc"%string] ex_store a) "qinc"
    (fun s _ => match s_id s with SidRow _ _ _ b => if b then 40 else 100 | _ => 10 end)
    (per_length w (side_length (row_front row))) F (nth_error_In _ _ N)) as (r & Er & L1 & _ & W).
  - intros s I. destruct (L s I) as [H|[H|H]]; rewrite H; unfold DISTANCE_TOLERANCE; lra.
  - intros s _. reflexivity.
  - cbn [sn_store fitted_env]. unfold side_param_weighted. now rewrite E.
  - exists r, (per_length w (side_length (row_front row))). split; [exact F|]. split; [exact N|]. split; [exact Er|].
    split; [unfold side_param_weighted; now rewrite E|]. split; [exact W|exact L1].
Qed.

Example C60_ground_example : exists a segs orig w, fit PropGeom.ex_p 2 PropGeom.ex_f = Some a /\
  ground_at (fitted_env ["qinc"%string] ex_store a) (ft_ground a) 1 None false true = Ok (segs, orig) /\
  gnd_param_weighted ex_store (ft_ground a) "qinc" = Ok w /\ sd_param_weighted segs "qinc" = Ok (w 1%nat).
Proof.
  destruct ex_regular as (a & F & R & _). exists a.
  destruct (gnd_ww ex_store "qinc" (ft_ground a) (fun s _ => match s_id s with SidRow _ _ _ b => if b then 40 else 100 | _ => 10 end)) as (w & E & _).
  { intros s _. reflexivity. }
  destruct (C60_ground _ _ _ _ 1 (fitted_env ["qinc"%string] ex_store a) None "qinc"
    (fun s _ => match s_id s with SidRow _ _ _ b => if b then 40 else 100 | _ => 10 end)
    (per_length w (gnd_length (ft_ground a))) F R) as (segs & orig & Eg & W).
  - intros s _. reflexivity.
  - cbn [sn_store fitted_env]. unfold gnd_param_weighted. now rewrite E.
  - exists segs, orig, (per_length w (gnd_length (ft_ground a))). split; [exact F|]. split; [exact Eg|].
    split; [unfold gnd_param_weighted; now rewrite E|exact W].
Qed.

Print Assumptions C44_merge.
Print Assumptions C44_array.
Print Assumptions C44_pending_lost_refuted.
Print Assumptions C45_first_timestep.
Print Assumptions C45_element.
Print Assumptions C45_index_ignored_refuted.
Print Assumptions C58_ground.
Print Assumptions C58_modes.
Print Assumptions C59_row.
Print Assumptions C59_indices.
Print Assumptions C60_side.
Print Assumptions C60_ground.
Print Assumptions C60_merged_refuted.
Print Assumptions C58_flat.
