(** Vocabulary of the statements about engine runs. *)
From Coq Require Import Reals List Bool Arith String.
From Verif Require Import Num ModelTs ModelGeom ModelVF ModelParams SpecParams ModelIrr SpecIrr ModelEngine.
Import ListNotations.
Open Scope R_scope.

(** [x] is the light that the surface [s] receives at [t] from the sun and the sky model
    itself, as published on the surface (everything but the isotropic sky and the
    reflections). *)
Definition light_sources (k : irr_kind) (st : pstore) (s : ts_surface) (t : nat) (x : R) : Prop :=
  match k with
  | IsotropicOrdered => value_at st s "direct" t x
  | HybridPerezOrdered => exists d c h, value_at st s "direct" t d /\
      value_at st s "circumsolar" t c /\ value_at st s "horizon" t h /\ x = d + c + h
  end.

(** The same for the absorbed light. *)
Definition absorbed_sources (k : irr_kind) (st : pstore) (s : ts_surface) (t : nat) (x : R) : Prop :=
  match k with
  | IsotropicOrdered => value_at st s "direct_absorbed" t x
  | HybridPerezOrdered => exists d c h, value_at st s "direct_absorbed" t d /\
      value_at st s "circumsolar_absorbed" t c /\ value_at st s "horizon_absorbed" t h /\ x = d + c + h
  end.

(** Surfaces, view factor between two surfaces and to the sky of the array [a] at [t]. *)
Definition vf (a : fitted) (t : nat) (x y : ts_surface) : R :=
  build_vf_matrix a t (surf_index a x) (surf_index a y).
Definition vf_sky (a : fitted) (t : nat) (x : ts_surface) : R :=
  build_vf_matrix a t (surf_index a x) (n_ts_surfaces a).

(** Calls on an engine. *)
Inductive call : Type :=
| Fit (i : raw_inputs)
| RunFull
| RunFast (pvrow_index segment_index : option nat).

Definition exec (P : pvlib) (e : engine) (c : call) : result engine :=
  match c with
  | Fit i => engine_fit P e i
  | RunFull => run_full_mode e
  | RunFast r s => run_fast_mode e r s
  end.
Fixpoint exec_all (P : pvlib) (e : engine) (l : list call) : result engine :=
  match l with
  | [] => Ok e
  | c :: r => do e' <- exec P e c; exec_all P e' r
  end.

(** Shape of a numerical input: nothing for a float, the length of an array. *)
Definition shape {A : Type} (x : num A) : option nat :=
  match x with NScalar _ => None | NArray n _ => Some n end.

(** All the inputs are floats, or all of them are arrays of one length; the albedo may be
    a float in any case. *)
Definition well_shaped (i : raw_inputs) : Prop :=
  exists o, shape (ri_time i) = o /\ shape (ri_dni i) = o /\ shape (ri_dhi i) = o /\
    shape (ri_zenith i) = o /\ shape (ri_solar_azimuth i) = o /\ shape (ri_tilt i) = o /\
    shape (ri_azimuth i) = o /\ (forall g, ri_ghi i = Some g -> shape g = o) /\
    (shape (ri_albedo i) = None \/
     shape (ri_albedo i) = Some (match o with None => 1%nat | Some n => n end)).

(** The values of incident irradiance, reflectivity and light from the sources published
    on the surfaces are [qinc], [rho] and [src]. *)
Definition published (k : irr_kind) (st : pstore) (surfs : list ts_surface) (t : nat)
    (qinc rho src : ts_surface -> R) : Prop :=
  forall s, In s surfs -> value_at st s "qinc" t (qinc s) /\ value_at st s "rho" t (rho s) /\
    light_sources k st s t (src s).

(** Light received after at most [k] reflections, when [recv] is what comes from the
    sources and the sky. *)
Fixpoint bounced (a : fitted) (t : nat) (rho recv : ts_surface -> R) (k : nat) (s : ts_surface) : R :=
  match k with
  | O => recv s
  | S k => recv s + total (fun x => vf a t s x * (rho x * bounced a t rho recv k x)) (all_ts_surfaces a)
  end.

(** The matrices published on the PV array by a run: values found through the references
    [ts_vf_matrix] and [ts_vf_aoi_matrix]. *)
Definition published_vf (e : engine) (M : ts (nat -> nat -> R)) : Prop :=
  exists r, pv_vf (en_array e) = Some r /\ hp_get (en_heap e) r = M.
Definition published_vf_aoi (e : engine) (M : ts (nat -> nat -> R)) : Prop :=
  exists r, pv_vf_aoi (en_array e) = Some r /\ hp_get (en_heap e) r = M.

(** [x] is the part of the light coming from the direction at [theta] degrees from the
    normal of a module side which is absorbed: value of the AOI function at the angle
    measured from the surface, or else what is not reflected. *)
Definition absorbed_part (faoi : option (R -> R)) (rho angle : R) : R :=
  match faoi with Some f => f angle | None => 1 - rho end.
