(** The hypotheses made on [math.erf] hold of the error function: a case for C33. *)
From Coq Require Import Reals Lra.
From Coquelicot Require Import Coquelicot.
Open Scope R_scope.

Definition erf_density (x : R) : R := 2 / sqrt PI * exp (- (x * x)).

(** The error function, as an integral. *)
Definition error_function (x : R) : R := RInt erf_density 0 x.

Lemma erf_density_continuous : forall x, continuous erf_density x.
Proof.
  intro x. apply (ex_derive_continuous (K := R_AbsRing) (V := R_NormedModule)). unfold erf_density. auto_derive. exact Logic.I.
Qed.
Lemma erf_density_integrable : forall a b, ex_RInt erf_density a b.
Proof. intros a b. apply (ex_RInt_continuous (V := R_CompleteNormedModule)). intros z _. apply erf_density_continuous. Qed.
Lemma erf_density_pos : forall x, 0 < erf_density x.
Proof.
  intro x. unfold erf_density. pose proof PI_RGT_0. assert (0 < sqrt PI) by (apply sqrt_lt_R0; lra).
  apply Rmult_lt_0_compat; [apply Rdiv_lt_0_compat; lra | apply exp_pos].
Qed.

Lemma error_function_derive : forall x, is_derive error_function x (erf_density x).
Proof.
  intro x. apply (is_derive_RInt erf_density error_function 0).
  - exists (mkposreal 1 Rlt_0_1). intros y _. apply (RInt_correct (V := R_CompleteNormedModule) erf_density 0 y). apply erf_density_integrable.
  - apply erf_density_continuous.
Qed.

(** Odd, increasing, with the derivative of the error function. *)
Example C33_density_case : exists erf,
  (forall x, erf (- x) = - erf x) /\ (forall x y, x < y -> erf x < erf y) /\
  (forall x, derivable_pt_lim erf x (2 / sqrt PI * exp (- (x * x)))).
Proof.
  exists error_function.
  assert (D : forall x, derivable_pt_lim error_function x (erf_density x)).
  { intro x. apply is_derive_Reals. apply error_function_derive. }
  split; [|split; [|exact D]].
  - (* the derivative of [erf (-x) + erf x] is zero *)
    intro x. assert (Z : error_function 0 = 0) by apply (RInt_point (V := R_CompleteNormedModule)).
    set (g := fun x => error_function (- x) + error_function x).
    assert (DG : forall c, derivable_pt_lim g c 0).
    { intro c. unfold g. replace 0 with (erf_density (- c) * -1 + erf_density c).
      - apply (derivable_pt_lim_plus (fun x => error_function (- x))); [|apply D].
        apply (derivable_pt_lim_comp Ropp error_function); [|apply D].
        apply (derivable_pt_lim_opp id c 1). apply derivable_pt_lim_id.
      - unfold erf_density. replace (- c * - c) with (c * c) by ring. ring. }
    assert (G0 : g 0 = 0) by (unfold g; rewrite Ropp_0, Z; ring).
    assert (GX : g x = g 0).
    { destruct (Rtotal_order x 0) as [L|[->|L]]; [|reflexivity|].
      - destruct (MVT_cor2 g (fun _ => 0) x 0 L (fun c _ => DG c)) as (c & E & _). lra.
      - destruct (MVT_cor2 g (fun _ => 0) 0 x L (fun c _ => DG c)) as (c & E & _). lra. }
    unfold g in GX at 1. lra.
  - intros x y L. destruct (MVT_cor2 error_function erf_density x y L (fun c _ => D c)) as (c & E & _).
    pose proof (erf_density_pos c). assert (0 < erf_density c * (y - x)) by (apply Rmult_lt_0_compat; lra). lra.
Qed.
Print Assumptions C33_density_case.
