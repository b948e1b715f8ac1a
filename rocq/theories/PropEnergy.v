(** Energy balance of the whole array and reciprocity of exchanges, in full mode. *)
From Coq Require Import Reals List Bool Arith String Lra Lia.
From Verif Require Import Num ModelTs ModelGeom ModelVF Basics SpecGeom SpecVF ProofFit ProofIndex ProofGeom2 PropGeom ProofMatrix ProofVF ProofVF2 PropVF ProofNight ModelLinalg ProofLinalg SpecEngine ProofRadiosity ModelParams SpecParams ProofParams ModelIrr SpecIrr ProofIrr ModelAOI ModelEngine SpecRun ProofEngine PropEngine ProofRun PropRun PropAbs ProofEnergy.
From Verif Require Import ProofRow.
From Verif Require PropSnapshot.
Import ListNotations.
Open Scope R_scope.

(** No surface of the array is narrower than the tolerance of the package (10 nm) without
    being a point. *)
Definition no_sliver_surface (a : fitted) (t : nat) : Prop :=
  forall s, In s (all_ts_surfaces a) -> s_length s t = 0 \/ 1 / 100000000 < s_length s t.

Lemma no_sliver_film : forall a t, no_sliver_surface a t -> no_film a t.
Proof. intros a t H s I. destruct (H s I) as [Z|Z]; [now left|right]. unfold DISTANCE_TOLERANCE. lra. Qed.

Lemma run_balance : forall P e0 raw i a f e' t (qinc rho src : ts_surface -> R),
  full_run P e0 raw i a f e' -> (t < ii_n i)%nat -> ii_albedo i t <> 0 ->
  im_rho_front (en_irr e0) <> Some 0 -> im_rho_back (en_irr e0) <> Some 0 ->
  published (im_kind (en_irr e0)) (pv_store (en_array e')) (all_ts_surfaces a) t qinc rho src ->
  (exists p n fi, valid_params p /\ fit p n fi = Some a) /\
  forall s, In s (all_ts_surfaces a) ->
    qinc s = (src s + vf_sky a t s * irr_sky_luminance f t)
             + total (fun x => vf a t s x * (rho x * qinc x)) (all_ts_surfaces a).
Proof.
  intros P e0 raw i a f e' t qinc rho src FR T AL RF RB PB.
  destruct (full_run_inv _ _ _ _ _ _ _ FR) as (e & rf & rb & FE & Ru & EI & _ & Ef & Eb). rewrite <- EI in PB.
  pose proof (fe_valid _ _ _ _ _ _ _ FE) as V. pose proof (fe_fit _ _ _ _ _ _ _ FE) as FT.
  split; [eexists _, _, _; split; [exact V | exact FT]|].
  destruct (published_index _ _ _ _ _ _ _ _ t qinc rho src FE Ru T AL ltac:(congruence) ltac:(congruence) PB)
    as (q & rh & s0 & B & X & _ & _).
  intros s Is. destruct (In_nth_error _ _ Is) as [j Ej]. destruct (X j s Ej) as (L & Ix & Eq & Er & Es).
  rewrite (surf_total _ _ _ a t s j (fun l => rh l * q l) (fun x => rho x * qinc x) V FT Ej).
  - rewrite Eq, Es. unfold vf_sky. rewrite Ix. exact (B j L).
  - intros l x Ex. destruct (X l x Ex) as (_ & _ & -> & -> & _). reflexivity.
Qed.

(* ------------------------------------------------------------------------- C61 *)

(** C61. Energy is conserved at each timestep: the light that the surfaces receive from the
    sun and the sky (per metre of array) is what they absorb plus what goes back to the
    sky. *)
Theorem C61_energy : forall P e0 raw i a f e' t (qinc rho src : ts_surface -> R),
  full_run P e0 raw i a f e' -> (t < ii_n i)%nat -> ii_albedo i t <> 0 ->
  im_rho_front (en_irr e0) <> Some 0 -> im_rho_back (en_irr e0) <> Some 0 ->
  no_sliver_surface a t ->
  published (im_kind (en_irr e0)) (pv_store (en_array e')) (all_ts_surfaces a) t qinc rho src ->
  let surfs := all_ts_surfaces a in
  total (fun s => s_length s t * (src s + vf_sky a t s * irr_sky_luminance f t)) surfs =
  total (fun s => s_length s t * ((1 - rho s) * qinc s)) surfs +
  total (fun s => s_length s t * (vf_sky a t s * (rho s * qinc s))) surfs.
Proof.
  intros P e0 raw i a f e' t qinc rho src FR T AL RF RB NS PB surfs. unfold surfs.
  destruct (run_balance _ _ _ _ _ _ _ _ _ _ _ FR T AL RF RB PB) as ((p & n & fi & V & FT) & B).
  apply no_sliver_film in NS.
  exact (energy (all_ts_surfaces a) (fun s => s_length s t) (vf a t) (vf_reciprocal p n fi a t V FT NS) (vf_sky a t)
    (vf_closed p n fi a t V FT NS) (fun s => src s + vf_sky a t s * irr_sky_luminance f t) rho qinc B).
Qed.
Print Assumptions C61_energy.

(** The same with the published values only, when no angle of incidence losses are asked
    for: [qabs] absorbed, [q0] reflected, [iso] received from the isotropic sky. *)
Theorem C61_published : forall P e0 raw i a f e' t (src iso qabs q0 : ts_surface -> R),
  full_run P e0 raw i a f e' -> ca_aoi (en_calc e0) = None ->
  im_faoi_front (en_irr e0) = None -> im_faoi_back (en_irr e0) = None ->
  (t < ii_n i)%nat -> ii_albedo i t <> 0 ->
  im_rho_front (en_irr e0) <> Some 0 -> im_rho_back (en_irr e0) <> Some 0 ->
  no_sliver_surface a t ->
  let surfs := all_ts_surfaces a in
  let st := pv_store (en_array e') in
  (forall s, In s surfs -> light_sources (im_kind (en_irr e0)) st s t (src s) /\
     value_at st s "isotropic" t (iso s) /\ value_at st s "qabs" t (qabs s) /\ value_at st s "q0" t (q0 s)) ->
  total (fun s => s_length s t * (src s + iso s)) surfs =
  total (fun s => s_length s t * qabs s) surfs + total (fun s => s_length s t * (vf_sky a t s * q0 s)) surfs.
Proof.
  intros P e0 raw i a f e' t src iso qabs q0 FR NA NF NB T AL RF RB NS surfs st H.
  destruct (published_exists _ _ _ _ _ _ _ t FR) as (qinc & rho & src' & PB).
  pose proof (C61_energy _ _ _ _ _ _ _ _ _ _ _ FR T AL RF RB NS PB) as E. cbv zeta in E. fold surfs in E.
  pose proof FR as (V & Hi & (e & Fi & Ru) & Ha & Hf).
  destruct (C19_radiosity_balance P e0 raw e e' V Fi Ru) as (i' & a' & f' & rf & rb & Hi' & Ha' & Hf' & Ef & Eb & C19).
  rewrite Hi in Hi'. inversion Hi'; subst i'. rewrite Ha in Ha'. inversion Ha'; subst a'. rewrite Hf in Hf'. inversion Hf'; subst f'.
  destruct (C19 t T AL ltac:(congruence) ltac:(congruence)) as (qi & rh & sr & K). clear C19.
  rewrite (total_eq _ _ (fun s => s_length s t * (src' s + vf_sky a t s * irr_sky_luminance f t))).
  2: { intros s Is. destruct (K s Is) as (_ & _ & _ & _ & K5 & _). destruct (H s Is) as (H1 & H2 & _). destruct (PB s Is) as (_ & _ & P3).
       rewrite (sources_fun _ _ _ _ _ _ H1 P3), (value_at_fun _ _ _ _ _ _ H2 K5). reflexivity. }
  rewrite E. f_equal.
  - apply total_eq. intros s Is. destruct (H s Is) as (_ & _ & H3 & _). destruct (PB s Is) as (P1 & P2 & _).
    destruct (C23_absorbed P e0 raw i a f e' t s FR NA NF NB T AL RF RB Is) as (qq & rr & ss & V1 & V2 & V3 & _).
    rewrite (value_at_fun _ _ _ _ _ _ H3 V3), (value_at_fun _ _ _ _ _ _ V1 P1), (value_at_fun _ _ _ _ _ _ V2 P2). reflexivity.
  - apply total_eq. intros s Is. destruct (H s Is) as (_ & _ & _ & H4). destruct (PB s Is) as (P1 & P2 & _).
    destruct (K s Is) as (K1 & K2 & _ & _ & _ & _ & K7 & _).
    rewrite (value_at_fun _ _ _ _ _ _ H4 K7), (value_at_fun _ _ _ _ _ _ K1 P1), (value_at_fun _ _ _ _ _ _ K2 P2). reflexivity.
Qed.
Print Assumptions C61_published.

(** Consequently no light is created: the array absorbs at most what it receives. *)
Theorem C61_no_gain : forall P e0 raw i a f e' t r (qinc rho src : ts_surface -> R),
  full_run P e0 raw i a f e' -> (t < ii_n i)%nat -> physical e0 i a t -> reflects e0 i t r -> r < 1 ->
  no_sliver_surface a t ->
  published (im_kind (en_irr e0)) (pv_store (en_array e')) (all_ts_surfaces a) t qinc rho src ->
  let surfs := all_ts_surfaces a in
  let received s := src s + vf_sky a t s * irr_sky_luminance f t in
  (forall s, In s surfs -> 0 <= received s) ->
  0 <= total (fun s => s_length s t * ((1 - rho s) * qinc s)) surfs <= total (fun s => s_length s t * received s) surfs.
Proof.
  intros P e0 raw i a f e' t r qinc rho src FR T PH RE R1 NS PB surfs received SP. pose proof RE as (Rf & Rb & Al).
  assert (RF : im_rho_front (en_irr e0) <> Some 0) by (intro Z; specialize (Rf 0 Z); lra).
  assert (RB : im_rho_back (en_irr e0) <> Some 0) by (intro Z; specialize (Rb 0 Z); lra).
  pose proof (C61_energy _ _ _ _ _ _ _ _ _ _ _ FR T ltac:(lra) RF RB NS PB) as E. cbv zeta in E. fold surfs in E.
  destruct (physical_run _ _ _ _ _ _ _ _ _ _ _ _ FR T PH RE PB) as (q' & rh & s0 & _ & X & _ & Z & NN & _).
  assert (G : forall s, In s surfs -> 0 <= s_length s t /\ 0 <= qinc s /\ 0 <= rho s < 1 /\ 0 <= vf_sky a t s).
  { intros s Is. destruct (NS s Is) as [L|L]; (split; [lra|]);
    (split; [exact (proj1 (C21_bounds _ _ _ _ _ _ _ _ _ _ _ _ FR T PH RE R1 PB SP s Is))|]);
    (split; [|apply NN]); destruct (In_nth_error _ _ Is) as [j Ej]; destruct (X j s Ej) as (L' & _ & _ & -> & _);
    specialize (Z j L'); lra. }
  split.
  - rewrite <- (total_zero _ surfs). apply total_le. intros s Is. destruct (G s Is) as (G1 & G2 & G3 & _).
    apply Rmult_le_pos; [exact G1|]. apply Rmult_le_pos; lra.
  - unfold received. rewrite E. assert (0 <= total (fun s => s_length s t * (vf_sky a t s * (rho s * qinc s))) surfs); [|lra].
    rewrite <- (total_zero _ surfs). apply total_le. intros s Is. destruct (G s Is) as (G1 & G2 & G3 & G4).
    apply Rmult_le_pos; [exact G1|]. apply Rmult_le_pos; [exact G4|]. apply Rmult_le_pos; lra.
Qed.
Print Assumptions C61_no_gain.

(* ------------------------------------------------------------------------- C62 *)

(** C62. Reciprocity of exchanges: two runs on the same geometry with the same
    reflectivities. The light received from the sources of the second one, weighted by what
    the surfaces reflect in the first one, is the same with the runs exchanged. In
    particular what a lamp over surface [x] brings to surface [y] is what the same lamp over
    [y] brings to [x]. *)
Theorem C62_exchange : forall P e0 raw i a f e' P' e0' raw' i' f' e'' t
    (qinc rho src qinc' src' : ts_surface -> R),
  full_run P e0 raw i a f e' -> full_run P' e0' raw' i' a f' e'' ->
  (t < ii_n i)%nat -> (t < ii_n i')%nat -> ii_albedo i t <> 0 -> ii_albedo i' t <> 0 ->
  im_rho_front (en_irr e0) <> Some 0 -> im_rho_back (en_irr e0) <> Some 0 ->
  im_rho_front (en_irr e0') <> Some 0 -> im_rho_back (en_irr e0') <> Some 0 ->
  no_sliver_surface a t ->
  published (im_kind (en_irr e0)) (pv_store (en_array e')) (all_ts_surfaces a) t qinc rho src ->
  published (im_kind (en_irr e0')) (pv_store (en_array e'')) (all_ts_surfaces a) t qinc' rho src' ->
  let surfs := all_ts_surfaces a in
  let received s := src s + vf_sky a t s * irr_sky_luminance f t in
  let received' s := src' s + vf_sky a t s * irr_sky_luminance f' t in
  total (fun s => s_length s t * (rho s * (qinc s * received' s))) surfs =
  total (fun s => s_length s t * (rho s * (qinc' s * received s))) surfs.
Proof.
  intros P e0 raw i a f e' P' e0' raw' i' f' e'' t qinc rho src qinc' src' FR FR' T T' AL AL' RF RB RF' RB' NS PB PB' surfs rc rc'.
  destruct (run_balance _ _ _ _ _ _ _ _ _ _ _ FR T AL RF RB PB) as ((p & n & fi & V & FT) & B).
  destruct (run_balance _ _ _ _ _ _ _ _ _ _ _ FR' T' AL' RF' RB' PB') as (_ & B').
  apply no_sliver_film in NS.
  exact (cross surfs (fun s => s_length s t) (vf a t) (vf_reciprocal p n fi a t V FT NS) rc rc' rho qinc qinc' B B').
Qed.
Print Assumptions C62_exchange.

(* --------------------------------------------------------------------- examples *)

(** Three rows which shade each other: no sliver. *)
Lemma ex_no_sliver : forall a, fit ex_p 2 ex_f = Some a -> no_sliver_surface a 1.
Proof.
  intros a F s Is. unfold all_ts_surfaces in Is. apply in_app_or in Is. destruct Is as [Is|Is].
  - destruct PropSnapshot.ex_regular as (a' & F' & (_ & _ & _ & _ & NS) & _). rewrite F in F'. inversion F'; subst a'. destruct (NS s Is) as [Z|Z]; [now left|right]. unfold DISTANCE_TOLERANCE in Z. lra.
  - apply in_flat_map in Is. destruct Is as (row & Ir & Is). apply In_nth_error in Ir. destruct Ir as [i Ir].
    assert (I3 : (i < 3)%nat).
    { pose proof (nth_error_Some (ft_rows a) i) as [K _]. specialize (K ltac:(congruence)).
      rewrite (fit_rows_at _ _ _ _ F), fit_rows_eq in K. rewrite map_length, seq_length in K. exact K. }
    assert (NR : forall j, (j < 3)%nat -> exists r, nth_error (ft_rows a) j = Some r).
    { intros j J. rewrite (fit_rows_at _ _ _ _ F), fit_rows_eq. cbn [ex_p pa_n_pvrows seq map].
      destruct j as [|[|[|]]]; [eexists; reflexivity..|lia]. }
    destruct (NR 0%nat ltac:(lia)) as [r0 E0]. destruct (NR 1%nat ltac:(lia)) as [r1 E1]. destruct (NR 2%nat ltac:(lia)) as [r2 E2].
    destruct (C05_example a r1 F E1) as (RR & RZ & _ & F1 & B1).
    assert (RT : ft_rotation a 1%nat = -60) by (destruct (fit_spec _ _ _ _ F) as (_ & -> & _); exact ex_rot1).
    destruct (C07_outer_rows ex_p 2 ex_f a 1 r0 r2 ex_valid F RR RZ E0 E2) as (_ & O & M).
    destruct (O ltac:(lra)) as [B0 F2]. destruct (M 1%nat r1 ltac:(cbn; lia) E1) as [_ M']. destruct (M' ltac:(lra)) as [F0 B2].
    assert (SH : forall b : bool, let sd := if b then row_back row else row_front row in
       side_shaded_length sd 1%nat = 0 \/ side_shaded_length sd 1%nat = 1 / 2).
    { destruct i as [|[|[|]]]; try lia.
      - rewrite E0 in Ir. inversion Ir; subst row. intros []; cbv zeta; lra.
      - rewrite E1 in Ir. inversion Ir; subst row. intros []; cbv zeta; lra.
      - rewrite E2 in Ir. inversion Ir; subst row. intros []; cbv zeta; lra. }
    assert (SS : exists b : bool, In s (side_surfaces (if b then row_back row else row_front row))).
    { apply in_app_or in Is. destruct Is; [exists false | exists true]; assumption. }
    destruct SS as [b SS]. specialize (SH b). cbv zeta in SH.
    destruct (C06_side_partition ex_p 2 ex_f a 1 i row b ex_valid F RR Ir) as (_ & _ & SG).
    unfold side_surfaces in SS. apply in_flat_map in SS. destruct SS as (sg & Sg & SS).
    apply In_nth_error in Sg. destruct Sg as [k Sg].
    destruct (SG k sg Sg) as (il & sh & lo & hi & m & Ei & Es & _ & _ & L0 & Lm & Lh & Lw & Ll & _ & RN & _).
    destruct (RN RZ) as (Csh & Cil & Em). rewrite RT in Ll. destruct (Rlt_dec 0 (-60)) as [Bad|_]; [lra|].
    assert (LL : s_length sh 1%nat = m - lo /\ s_length il 1%nat = hi - m).
    { unfold s_length. rewrite Csh, Cil. split; apply low_point_dist; lra. }
    destruct LL as [Lsh Lil].
    assert (CU : pa_cut ex_p i b = 1%nat \/ pa_cut ex_p i b = 2%nat) by (cbn; destruct (_ && _)%bool; tauto).
    assert (CK : (k < pa_cut ex_p i b)%nat).
    { destruct (C06_side_partition ex_p 2 ex_f a 1 i row b ex_valid F RR Ir) as (NL & _). rewrite <- NL. apply nth_error_Some. congruence. }
    set (S := side_shaded_length (if b then row_back row else row_front row) 1%nat) in *. clearbody S. cbn [ex_p pa_width] in Lw, Ll.
    assert (QQ : (lo = 0 /\ hi = 2) \/ (lo = 0 /\ hi = 1) \/ (lo = 1 /\ hi = 2)).
    { fold ex_p in Lw, Ll. destruct CU as [CU|CU]; rewrite CU in *.
      - destruct k as [|]; [|lia]. cbn in Lw, Ll. left. lra.
      - destruct k as [|[|]]; [| |lia]; cbn in Lw, Ll; right; [right|left]; lra. }
    assert (MM : m = Rmax lo (Rmin hi S)) by exact Em. clear Em.
    unfold seg_surfaces in SS. rewrite Ei, Es in SS. cbn in SS.
    assert (IN : s = sh \/ s = il) by (destruct SS as [SS|[SS|SS]]; [right|left|contradiction]; congruence).
    destruct IN as [-> | ->]; [rewrite Lsh|rewrite Lil]; rewrite MM;
      destruct QQ as [[-> ->]|[[-> ->]|[-> ->]]]; destruct SH as [-> | ->];
      (rewrite ?(Rmin_right _ 0), ?(Rmin_right _ (1 / 2)) by lra); 
      (rewrite ?(Rmax_left 0 0), ?(Rmax_right 0 (1 / 2)), ?(Rmax_left 1 0), ?(Rmax_left 1 (1 / 2)) by lra); 
      first [left; lra | right; lra].
Qed.

Example C61_example : forall P, exists i a f e' qinc rho src,
  let e0 := ex_engine IsotropicOrdered default_calculator in
  full_run P e0 ex_raw i a f e' /\ (1 < ii_n i)%nat /\ ii_albedo i 1%nat <> 0 /\
  im_rho_front (en_irr e0) <> Some 0 /\ im_rho_back (en_irr e0) <> Some 0 /\
  physical e0 i a 1 /\ reflects e0 i 1 (1 / 5) /\ no_sliver_surface a 1 /\
  published IsotropicOrdered (pv_store (en_array e')) (all_ts_surfaces a) 1 qinc rho src /\
  forall s, In s (all_ts_surfaces a) -> 0 <= src s + vf_sky a 1 s * irr_sky_luminance f 1%nat.
Proof.
  intro P. destruct (C23_example P) as (i & a & f & e' & FR & N & PH & RE & qinc & rho & src & PB & NN).
  exists i, a, f, e', qinc, rho, src. cbv zeta. split; [exact FR|]. split; [exact N|]. pose proof RE as (_ & _ & AL).
  split; [lra|]. split; [cbn; intro Z; inversion Z; lra|]. split; [cbn; intro Z; inversion Z; lra|].
  split; [exact PH|]. split; [exact RE|]. split; [|split; [exact PB|exact NN]].
  apply ex_no_sliver. destruct PH as (al & SC). destruct FR as (_ & Hi & _). 
  destruct SC as (_ & F & _). rewrite fit_sun_up in F. cbn in Hi. injection Hi as <-. exact F.
Qed.
