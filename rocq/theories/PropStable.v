(** How far what is published moves when the numbers it is computed from do. *)
From Coq Require Import Reals List Bool Arith String Lra Lia.
From Verif Require Import Num ModelTs ModelGeom ModelVF Basics SpecGeom SpecVF ProofFit ProofIndex ProofGeom2 PropGeom ProofMatrix ProofVF ProofVF2 PropVF ModelLinalg ProofLinalg SpecEngine ProofRadiosity ModelParams SpecParams ProofParams ModelIrr SpecIrr ProofIrr ModelAOI ModelEngine SpecRun ProofEngine PropEngine ProofRun PropRun PropAbs PropFastRun.
Import ListNotations.
Open Scope R_scope.

(* ------------------------------------------------------------------ arithmetic *)

Lemma isum_abs : forall n f, Rabs (isum n f) <= isum n (fun i => Rabs (f i)).
Proof.
  induction n as [|n IH]; intro f; cbn [isum]; [rewrite Rabs_R0; lra|].
  eapply Rle_trans; [apply Rabs_triang|]. specialize (IH f). lra.
Qed.

Lemma isum_weight : forall n (g d : nat -> R) w m, (forall j, (j < n)%nat -> Rabs (d j) <= m) -> 0 <= m ->
  isum n (fun j => Rabs (g j)) <= w -> Rabs (isum n (fun j => g j * d j)) <= w * m.
Proof.
  intros n g d w m D M W. eapply Rle_trans; [apply isum_abs|].
  apply Rle_trans with (isum n (fun j => Rabs (g j) * m)).
  - apply isum_le. intros j J. rewrite Rabs_mult. apply Rmult_le_compat_l; [apply Rabs_pos | apply D, J].
  - rewrite isum_scal_r. apply Rmult_le_compat_r; assumption.
Qed.

Section Stable.
  Variable n : nat.
  Variables (F : nat -> nat -> R) (rho s q : nat -> R) (r : R).
  Hypothesis HR : forall i, (i < n)%nat -> 0 <= rho i <= r.
  Hypothesis R1 : r < 1.
  Hypothesis NN : forall i j, (i < n)%nat -> (j < n)%nat -> 0 <= F i j.
  Hypothesis RS : forall i, (i < n)%nat -> isum n (F i) <= 1.
  Hypothesis BA : radiosity_balance n F rho s q.

  Lemma stable_residual : forall q' eps,
    (forall i, (i < n)%nat -> Rabs (q' i - (s i + isum n (fun j => F i j * (rho j * q' j)))) <= eps) ->
    forall i, (i < n)%nat -> Rabs (q' i - q i) <= eps / (1 - r).
  Proof.
    intros q' eps H i I.
    assert (E0 : 0 <= eps) by (eapply Rle_trans; [apply Rabs_pos | apply (H i I)]).
    assert (X : forall c, c = 1 \/ c = -1 -> c * (q' i - q i) <= eps / (1 - r)).
    { intros c C.
      refine (balance_upper n F rho (fun i => c * (q' i - (s i + isum n (fun j => F i j * (rho j * q' j))))) (fun i => c * (q' i - q i)) r HR R1 NN RS _ eps E0 _ i I).
      - intros j J. pose proof (BA j J) as E. rewrite sum_below_isum in E. rewrite (sum_below_isum n (fun k => F j k * (rho k * (c * (q' k - q k))))).
        change (c * (q' j - q j) = c * (q' j - (s j + isum n (fun k => F j k * (rho k * q' k)))) + isum n (fun k => F j k * (rho k * (c * (q' k - q k))))).
        rewrite (isum_ext n (fun k => F j k * (rho k * (c * (q' k - q k)))) (fun k => c * (F j k * (rho k * q' k) - F j k * (rho k * q k)))) by (intros; ring).
        rewrite isum_scal, isum_minus. rewrite E at 1. ring.
      - intros j J. specialize (H j J). assert (H2 := Rle_trans _ _ _ (Rle_abs _) H). assert (H3 := Rle_trans _ _ _ (Rle_abs _) (Rle_trans _ _ _ (Req_le _ _ (Rabs_Ropp _)) H)). destruct C as [-> | ->]; lra. }
    pose proof (X 1 (or_introl eq_refl)). pose proof (X (-1) (or_intror eq_refl)). apply Rabs_le. lra.
  Qed.

  Lemma stable_perturbed : forall G s' q' kappa eta M,
    (forall i, (i < n)%nat -> isum n (fun j => Rabs (G i j - F i j * rho j)) <= kappa) -> kappa < 1 - r ->
    (forall i, (i < n)%nat -> Rabs (s' i - s i) <= eta) ->
    (forall i, (i < n)%nat -> Rabs (q i) <= M) ->
    (forall i, (i < n)%nat -> q' i = s' i + isum n (fun j => G i j * q' j)) ->
    forall i, (i < n)%nat -> Rabs (q' i - q i) <= (eta + kappa * M) / (1 - r - kappa).
  Proof.
    intros G s' q' kappa eta M HG K1 HS HM HQ i I.
    destruct (argmax n (fun j => Rabs (q' j - q j)) ltac:(lia)) as (k & Lk & Mx).
    set (m := Rabs (q' k - q k)) in *. assert (M0 : 0 <= m) by apply Rabs_pos.
    assert (MM : 0 <= M) by (eapply Rle_trans; [apply Rabs_pos | apply (HM i I)]).
    assert (Up : m <= (eta + kappa * M) / (1 - r - kappa)); [|eapply Rle_trans; [apply (Mx i I) | exact Up]].
    pose proof (BA k Lk) as E. rewrite sum_below_isum in E.
    assert (Sp : q' k - q k = (s' k - s k) + isum n (fun j => (G k j - F k j * rho j) * q' j) + isum n (fun j => (F k j * rho j) * (q' j - q j))).
    { rewrite (isum_ext n (fun j => (G k j - F k j * rho j) * q' j) (fun j => G k j * q' j - F k j * rho j * q' j)) by (intros; ring).
      rewrite (isum_ext n (fun j => (F k j * rho j) * (q' j - q j)) (fun j => F k j * rho j * q' j - F k j * (rho j * q j))) by (intros; ring).
      rewrite !isum_minus. rewrite (HQ k Lk), E at 1. ring. }
    assert (A2 : Rabs (isum n (fun j => (G k j - F k j * rho j) * q' j)) <= kappa * (M + m)).
    { apply isum_weight; [|lra | apply HG, Lk]. intros j J. replace (q' j) with (q j + (q' j - q j)) by ring.
      eapply Rle_trans; [apply Rabs_triang|]. pose proof (HM j J). pose proof (Mx j J). cbv beta in *. lra. }
    assert (A3 : Rabs (isum n (fun j => (F k j * rho j) * (q' j - q j))) <= r * m).
    { assert (R0 : 0 <= r) by (specialize (HR k Lk); lra).
      apply isum_weight; [exact Mx | exact M0|]. apply Rle_trans with (isum n (fun j => F k j * r)).
      - apply isum_le. intros j J. rewrite Rabs_pos_eq.
        + apply Rmult_le_compat_l; [apply NN; assumption | apply HR, J].
        + apply Rmult_le_pos; [apply NN; assumption | apply HR, J].
      - rewrite isum_scal_r. rewrite <- (Rmult_1_l r) at 2. apply Rmult_le_compat_r; [exact R0 | apply RS, Lk]. }
    assert (Fin : m <= eta + kappa * (M + m) + r * m).
    { unfold m at 1. rewrite Sp. eapply Rle_trans; [apply Rabs_triang|].
      apply Rplus_le_compat; [|exact A3]. eapply Rle_trans; [apply Rabs_triang|].
      apply Rplus_le_compat; [apply HS, Lk | exact A2]. }
    apply Rmult_le_reg_r with (1 - r - kappa); [lra|]. unfold Rdiv. rewrite Rmult_assoc, Rinv_l, Rmult_1_r by lra. lra.
  Qed.

  Lemma stable_bounces : forall M, (forall i, (i < n)%nat -> Rabs (s i) <= M) ->
    forall k i, (i < n)%nat -> Rabs (bounces n F rho s k i - q i) <= r ^ S k * M / (1 - r).
  Proof.
    intros M HM k i I. assert (R0 : 0 <= r) by (specialize (HR i I); lra).
    assert (MM : 0 <= M) by (eapply Rle_trans; [apply Rabs_pos | apply (HM i I)]).
    assert (ST : forall k i, (i < n)%nat -> Rabs (bounces n F rho s k i - bounces n F rho s (S k) i) <= r ^ S k * M).
    { assert (W : forall l (d : nat -> R) m, (l < n)%nat -> 0 <= m -> (forall j, (j < n)%nat -> Rabs (d j) <= m) ->
        Rabs (isum n (fun j => F l j * (rho j * d j))) <= r * m).
      { intros l d m Ll M0 D. rewrite (isum_ext n _ (fun j => (F l j * rho j) * d j)) by (intros; ring).
        apply isum_weight; [exact D | exact M0|]. apply Rle_trans with (isum n (fun j => F l j * r)).
        - apply isum_le. intros j J. rewrite Rabs_pos_eq.
          + apply Rmult_le_compat_l; [apply NN; assumption | apply HR, J].
          + apply Rmult_le_pos; [apply NN; assumption | apply HR, J].
        - rewrite isum_scal_r. rewrite <- (Rmult_1_l r) at 2. apply Rmult_le_compat_r; [exact R0 | apply RS, Ll]. }
      clear k i I. induction k as [|k IH]; intros i I.
      - rewrite bounces_S. cbn [bounces pow]. replace (s i - (s i + _)) with (- isum n (fun j => F i j * (rho j * s j))) by ring.
        rewrite Rabs_Ropp, Rmult_1_r. apply W; assumption.
      - rewrite (bounces_S n F rho s (S k)), (bounces_S n F rho s k).
        replace (s i + isum n (fun j => F i j * (rho j * bounces n F rho s k j)) - (s i + isum n (fun j => F i j * (rho j * bounces n F rho s (S k) j))))
          with (isum n (fun j => F i j * (rho j * (bounces n F rho s k j - bounces n F rho s (S k) j)))).
        + replace (r ^ S (S k) * M) with (r * (r ^ S k * M)) by (cbn [pow]; ring).
          apply W; [exact I | apply Rmult_le_pos; [apply pow_le, R0 | exact MM] | exact IH].
        + rewrite (isum_ext n _ (fun j => F i j * (rho j * bounces n F rho s k j) - F i j * (rho j * bounces n F rho s (S k) j))) by (intros; ring).
          rewrite isum_minus. ring. }
    apply stable_residual; [|exact I]. intros j J. rewrite <- bounces_S. apply ST, J.
  Qed.
End Stable.

(* --------------------------------------------------------------------- theorems *)

(** Whatever solver is used: a vector which meets the balance up to [eps] on each surface is
    within [eps / (1 - r)] of what is published. *)
Theorem C80_residual : forall P e0 raw i a f e' t r (qinc rho src q : ts_surface -> R) eps,
  full_run P e0 raw i a f e' -> (t < ii_n i)%nat -> physical e0 i a t -> reflects e0 i t r -> r < 1 ->
  published (im_kind (en_irr e0)) (pv_store (en_array e')) (all_ts_surfaces a) t qinc rho src ->
  (forall s, In s (all_ts_surfaces a) ->
     Rabs (q s - (src s + vf_sky a t s * irr_sky_luminance f t
                  + total (fun x => vf a t s x * (rho x * q x)) (all_ts_surfaces a))) <= eps) ->
  forall s, In s (all_ts_surfaces a) -> Rabs (q s - qinc s) <= eps / (1 - r).
Proof.
  intros P e0 raw i a f e' t r qinc rho src q eps FR T PH RE R1 PB HQ s Is.
  destruct (physical_run _ _ _ _ _ _ _ _ _ _ _ _ FR T PH RE PB) as (q' & rh & s0 & B & X & Y & Z & NN & RS & p & n & fi & V & F).
  destruct (In_nth_error _ _ Is) as [j Ej]. destruct (X j s Ej) as (L & _ & Eq & _). rewrite Eq.
  set (qi := fun l => match nth_error (all_ts_surfaces a) l with Some x => q x | None => 0 end).
  replace (q s) with (qi j) by (unfold qi; rewrite Ej; reflexivity).
  refine (stable_residual (fr_n a) (fr_F a t) rh _ q' r Z R1 (fun i j _ _ => NN i j) RS B qi eps _ j L).
  intros l Ll. destruct (Y l Ll) as (x & Ex & Ix). destruct (X l x Ex) as (_ & Sx & _ & _ & Es).
  specialize (HQ x Ix). unfold vf_sky in HQ. rewrite Sx, Es in HQ.
  rewrite (surf_total p n fi a t x l (fun j => rh j * qi j) (fun x => rho x * q x) V F Ex) in HQ.
  - rewrite sum_below_isum in HQ. unfold qi at 1. rewrite Ex. exact HQ.
  - intros m y Ey. destruct (X m y Ey) as (_ & _ & _ & -> & _). unfold qi. rewrite Ey. reflexivity.
Qed.
Print Assumptions C80_residual.

(** View factors, reflectivities and sources somewhat off (rounded, for instance): what comes
    out is off in proportion. [kappa]: how far what a surface is sent by the others may be,
    per unit of light. *)
Theorem C80_perturbed : forall P e0 raw i a f e' t r (qinc rho src : ts_surface -> R)
    (vf' : ts_surface -> ts_surface -> R) (rho' received' q' : ts_surface -> R) kappa eta M,
  full_run P e0 raw i a f e' -> (t < ii_n i)%nat -> physical e0 i a t -> reflects e0 i t r ->
  published (im_kind (en_irr e0)) (pv_store (en_array e')) (all_ts_surfaces a) t qinc rho src ->
  let received s := src s + vf_sky a t s * irr_sky_luminance f t in
  (forall s, In s (all_ts_surfaces a) ->
     total (fun x => Rabs (vf' s x * rho' x - vf a t s x * rho x)) (all_ts_surfaces a) <= kappa /\
     Rabs (received' s - received s) <= eta /\ Rabs (qinc s) <= M) ->
  kappa < 1 - r ->
  (forall s, In s (all_ts_surfaces a) ->
     q' s = received' s + total (fun x => vf' s x * (rho' x * q' x)) (all_ts_surfaces a)) ->
  forall s, In s (all_ts_surfaces a) -> Rabs (q' s - qinc s) <= (eta + kappa * M) / (1 - r - kappa).
Proof.
  intros P e0 raw i a f e' t r qinc rho src vf' rho' received' q' kappa eta M FR T PH RE PB received HK K1 HQ s Is.
  destruct (physical_run _ _ _ _ _ _ _ _ _ _ _ _ FR T PH RE PB) as (q & rh & s0 & B & X & Y & Z & NN & RS & p & n & fi & V & F).
  destruct (In_nth_error _ _ Is) as [j Ej]. destruct (X j s Ej) as (L & _ & Eq & _). rewrite Eq.
  assert (LN : List.length (all_ts_surfaces a) = fr_n a) by (unfold fr_n; rewrite n_ts_surfaces_length; reflexivity).
  set (at_ := fun (g : ts_surface -> R) l => match nth_error (all_ts_surfaces a) l with Some x => g x | None => 0 end).
  assert (AT : forall g l x, nth_error (all_ts_surfaces a) l = Some x -> at_ g l = g x) by (intros g l x E; unfold at_; rewrite E; reflexivity).
  set (G := fun l m => at_ (fun x => at_ (fun y => vf' x y * rho' y) m) l).
  assert (GE : forall l m x y, nth_error (all_ts_surfaces a) l = Some x -> nth_error (all_ts_surfaces a) m = Some y -> G l m = vf' x y * rho' y).
  { intros l m x y Ex Ey. unfold G. rewrite (AT _ l x Ex), (AT _ m y Ey). reflexivity. }
  assert (FE : forall l m x y, nth_error (all_ts_surfaces a) l = Some x -> nth_error (all_ts_surfaces a) m = Some y ->
     fr_F a t l m * rh m = vf a t x y * rho y).
  { intros l m x y Ex Ey. unfold vf. rewrite (surf_index_nth _ _ _ _ _ _ V F Ex), (surf_index_nth _ _ _ _ _ _ V F Ey).
    destruct (X m y Ey) as (_ & _ & _ & -> & _). reflexivity. }
  rewrite <- (AT q' j s Ej).
  assert (R0 : 0 <= kappa).
  { eapply Rle_trans; [|apply (HK s Is)]. rewrite (total_isum _ _ (fun m => Rabs (at_ (fun x => vf' s x * rho' x - vf a t s x * rho x) m))).
    - apply isum_nonneg. intros. apply Rabs_pos.
    - intros m y Ey. rewrite (AT _ m y Ey). reflexivity. }
  refine (stable_perturbed (fr_n a) (fr_F a t) rh _ q r Z (fun i j _ _ => NN i j) RS B G (at_ received') (at_ q') kappa eta M _ K1 _ _ _ j L).
  - intros l Ll. destruct (Y l Ll) as (x & Ex & Ix). eapply Rle_trans; [|apply (HK x Ix)]. apply Req_le.
    rewrite (total_isum _ _ (fun m => Rabs (G l m - fr_F a t l m * rh m))); [rewrite LN; reflexivity|].
    intros m y Ey. rewrite (GE l m x y Ex Ey), (FE l m x y Ex Ey). reflexivity.
  - intros l Ll. destruct (Y l Ll) as (x & Ex & Ix). rewrite (AT _ l x Ex). destruct (HK x Ix) as (_ & H & _).
    unfold received, vf_sky in H. destruct (X l x Ex) as (_ & Sx & _ & _ & Es). rewrite Sx, Es in H. exact H.
  - intros l Ll. destruct (Y l Ll) as (x & Ex & Ix). destruct (X l x Ex) as (_ & _ & <- & _). apply (HK x Ix).
  - intros l Ll. destruct (Y l Ll) as (x & Ex & Ix). rewrite (AT q' l x Ex), (AT received' l x Ex), (HQ x Ix). f_equal.
    rewrite (total_isum _ _ (fun m => G l m * at_ q' m)); [rewrite LN; reflexivity|].
    intros m y Ey. rewrite (GE l m x y Ex Ey), (AT q' m y Ey). ring.
Qed.
Print Assumptions C80_perturbed.

(** How many reflections matter: after [k] of them what is left out is at most
    [r ^ (k + 1) / (1 - r)] of the brightest source. *)
Theorem C80_bounces : forall P e0 raw i a f e' t r (qinc rho src : ts_surface -> R) M,
  full_run P e0 raw i a f e' -> (t < ii_n i)%nat -> physical e0 i a t -> reflects e0 i t r -> r < 1 ->
  published (im_kind (en_irr e0)) (pv_store (en_array e')) (all_ts_surfaces a) t qinc rho src ->
  let received s := src s + vf_sky a t s * irr_sky_luminance f t in
  (forall s, In s (all_ts_surfaces a) -> Rabs (received s) <= M) ->
  forall k s, In s (all_ts_surfaces a) ->
    Rabs (bounced a t rho received k s - qinc s) <= r ^ S k * M / (1 - r).
Proof.
  intros P e0 raw i a f e' t r qinc rho src M FR T PH RE R1 PB received HM k s Is.
  destruct (physical_run _ _ _ _ _ _ _ _ _ _ _ _ FR T PH RE PB) as (q' & rh & s0 & B & X & Y & Z & NN & RS & p & n & fi & V & F).
  destruct (In_nth_error _ _ Is) as [j Ej]. destruct (X j s Ej) as (L & Sj & Eq & _ & Es). rewrite Eq.
  set (s1 := fun j => s0 j + fr_F a t j (fr_n a) * irr_sky_luminance f t) in *.
  assert (RV : forall l x, nth_error (all_ts_surfaces a) l = Some x -> received x = s1 l).
  { intros l x Ex. destruct (X l x Ex) as (_ & Sx & _ & _ & E). unfold received, vf_sky, s1. rewrite Sx, E. reflexivity. }
  rewrite (bounced_index p n fi a t rho received rh s1 V F) with (l := j);
    [|intros l x Ex; split; [destruct (X l x Ex) as (_ & _ & _ & E & _); exact E | exact (RV l x Ex)] | exact Ej].
  refine (stable_bounces (fr_n a) (fr_F a t) rh s1 q' r Z R1 (fun i j _ _ => NN i j) RS B M _ k j L).
  intros l Ll. destruct (Y l Ll) as (x & Ex & Ix). rewrite <- (RV l x Ex). apply HM, Ix.
Qed.
Print Assumptions C80_bounces.

Lemma total_abs_bound : forall (A : Type) (g : A -> R) l x, In x l -> Rabs (g x) <= total (fun y => Rabs (g y)) l.
Proof.
  intros A g l x. induction l as [|y l IH]; intros []; cbn [total].
  - subst y. enough (0 <= total (fun y => Rabs (g y)) l) by lra. clear IH. induction l as [|z l IH]; cbn [total]; [lra|].
    pose proof (Rabs_pos (g z)). lra.
  - pose proof (Rabs_pos (g y)). specialize (IH H). lra.
Qed.

(** All view factors halved: the hypotheses are met, with what is published and the sources
    that would then give it. *)
Example C80_example : forall P, exists i a f e' qinc rho src (vf' : ts_surface -> ts_surface -> R) received' q' eta M,
  let e0 := ex_engine IsotropicOrdered default_calculator in
  let received s := src s + vf_sky a 1 s * irr_sky_luminance f 1%nat in
  full_run P e0 ex_raw i a f e' /\ (1 < ii_n i)%nat /\ physical e0 i a 1 /\ reflects e0 i 1 (1 / 5) /\
  published IsotropicOrdered (pv_store (en_array e')) (all_ts_surfaces a) 1 qinc rho src /\
  (forall s, In s (all_ts_surfaces a) ->
     total (fun x => Rabs (vf' s x * rho x - vf a 1 s x * rho x)) (all_ts_surfaces a) <= 1 / 10 /\
     Rabs (received' s - received s) <= eta /\ Rabs (qinc s) <= M) /\
  (forall s, In s (all_ts_surfaces a) ->
     q' s = received' s + total (fun x => vf' s x * (rho x * q' x)) (all_ts_surfaces a)) /\
  (forall s x, vf' s x = vf a 1 s x / 2).
Proof.
  intro P. set (e0 := ex_engine IsotropicOrdered default_calculator).
  destruct (ex_full_run P IsotropicOrdered default_calculator ltac:(discriminate)) as (i & a & f & e' & FR & N & PH).
  destruct (PH 1%nat ltac:(lia)) as (P1 & RE).
  destruct (published_exists _ _ _ _ _ _ _ 1%nat FR) as (qinc & rho & src & PB).
  set (vf' := fun s x => vf a 1 s x / 2).
  set (received' := fun s => qinc s - total (fun x => vf' s x * (rho x * qinc x)) (all_ts_surfaces a)).
  exists i, a, f, e', qinc, rho, src, vf', received', qinc.
  exists (total (fun s => Rabs (received' s - (src s + vf_sky a 1 s * irr_sky_luminance f 1%nat))) (all_ts_surfaces a)).
  exists (total (fun s => Rabs (qinc s)) (all_ts_surfaces a)). cbv zeta.
  split; [exact FR|]. split; [lia|]. split; [exact P1|]. split; [exact RE|]. split; [exact PB|].
  split; [|split; [intros s Is; unfold received'; ring | reflexivity]].
  intros s Is. split; [|split].
  - assert (T1 : (1 < ii_n i)%nat) by lia.
    destruct (physical_run _ _ _ _ _ _ _ _ _ _ _ _ FR T1 P1 RE PB) as (q & rh & s0 & B & X & Y & Z & NN & RS & p & n & fi & V & F).
    destruct (In_nth_error _ _ Is) as [j Ej]. destruct (X j s Ej) as (L & _).
    assert (LN : List.length (all_ts_surfaces a) = fr_n a) by (unfold fr_n; rewrite n_ts_surfaces_length; reflexivity).
    rewrite (total_isum _ _ (fun m => Rabs (fr_F a 1%nat j m / 2 * rh m - fr_F a 1%nat j m * rh m))).
    + rewrite LN. apply Rle_trans with (isum (fr_n a) (fun m => fr_F a 1%nat j m * (1 / 10))).
      * apply isum_le. intros m Lm. specialize (Z m Lm). specialize (NN j m).
        replace (fr_F a 1%nat j m / 2 * rh m - fr_F a 1%nat j m * rh m) with (- (fr_F a 1%nat j m * (rh m / 2))) by field.
        rewrite Rabs_Ropp, Rabs_pos_eq by (apply Rmult_le_pos; lra). apply Rmult_le_compat_l; lra.
      * rewrite isum_scal_r. specialize (RS j L). change (isum (fr_n a) (fr_F a 1%nat j) * (1 / 10) <= 1 / 10). lra.
    + intros m y Ey. unfold vf', vf. rewrite (surf_index_nth _ _ _ _ _ _ V F Ej), (surf_index_nth _ _ _ _ _ _ V F Ey).
      destruct (X m y Ey) as (_ & _ & _ & -> & _). reflexivity.
  - apply (total_abs_bound _ (fun s => received' s - (src s + vf_sky a 1 s * irr_sky_luminance f 1%nat)) _ s Is).
  - apply (total_abs_bound _ qinc _ s Is).
Qed.
