(** Model of /repo/pvfactors/geometry/timeseries.py (definitions only). *)
From Coq Require Import Reals List Bool Arith.
From Verif Require Import Num.
Import ListNotations.
Open Scope R_scope.

(** Euclidean distance between two points at one timestep:
    [VFTsMethods._distance], /repo/pvfactors/viewfactors/vfmethods.py:613-629. *)
Definition distance (p1 p2 : pt) : R :=
  sqrt ((py p2 - py p1) ^ 2 + (px p2 - px p1) ^ 2).

(** [TsLineCoords.length], timeseries.py:302-306. *)
Definition line_length (l : line) : R :=
  sqrt ((py (b2 l) - py (b1 l)) ^ 2 + (px (b2 l) - px (b1 l)) ^ 2).

(** [TsLineCoords.centroid], timeseries.py:313-318. *)
Definition line_centroid (l : line) : pt :=
  let dy := py (b2 l) - py (b1 l) in
  let dx := px (b2 l) - px (b1 l) in
  Pt (px (b1 l) + 1 / 2 * dx) (py (b1 l) + 1 / 2 * dy).

(** [TsLineCoords.highest_point], timeseries.py:320-327. *)
Definition highest_point (l : line) : pt :=
  let is_b1_highest := Rleb (py (b2 l)) (py (b1 l)) in
  Pt (np_where is_b1_highest (px (b1 l)) (px (b2 l)))
     (np_where is_b1_highest (py (b1 l)) (py (b2 l))).

(** [TsLineCoords.lowest_point], timeseries.py:329-336. *)
Definition lowest_point (l : line) : pt :=
  let is_b1_highest := Rleb (py (b2 l)) (py (b1 l)) in
  Pt (np_where is_b1_highest (px (b2 l)) (px (b1 l)))
     (np_where is_b1_highest (py (b2 l)) (py (b1 l))).

(** Identity of a [TsSurface] object. Python compares and mutates surfaces by
    reference; here the reference is the place where the object was created:
    the k-th surface of the e-th shadow / illuminated ground element
    (pvground.py:898-934), or the illuminated / shaded surface of a segment of a
    PV row side (pvrow.py:328-342). *)
Inductive sid : Type :=
| SidShadow (e k : nat)
| SidIllum (e k : nat)
| SidRow (row : nat) (is_back : bool) (seg : nat) (is_shaded : bool).

Definition sid_eq_dec : forall a b : sid, {a = b} + {a <> b}.
Proof. decide equality; try apply Nat.eq_dec; apply bool_dec. Defined.

(** [TsSurface], timeseries.py:112-141: coordinates over time, normal vector
    over time (when there is one), shading flag. The [index] attribute, assigned
    later by [_index_all_ts_surfaces], is kept in a separate map from identity to
    index; the [params] dictionaries are modelled in ModelParams.v. *)
Record ts_surface : Type := TsSurface {
  s_id : sid;
  s_coords : ts line;
  s_nvec : ts (R * R);
  s_shaded : bool
}.

(** [TsSurface.length], timeseries.py:230-233. *)
Definition s_length (s : ts_surface) : ts R := fun t => line_length (s_coords s t).

(** [TsSurface.is_empty], timeseries.py:252-256: one test for the whole series
    ([n] = number of timesteps). [np.nansum] skips NaN; the model has no NaN
    length. *)
Definition is_empty (n : nat) (s : ts_surface) : bool :=
  Rltb (np_sum n (s_length s)) DISTANCE_TOLERANCE.

(** [TsSurface.highest_point], [lowest_point], [centroid], timeseries.py:200-203,
    235-243. *)
Definition s_highest (s : ts_surface) : ts pt := fun t => highest_point (s_coords s t).
Definition s_lowest (s : ts_surface) : ts pt := fun t => lowest_point (s_coords s t).
Definition s_centroid (s : ts_surface) : ts pt := fun t => line_centroid (s_coords s t).

(** [TsSurface.u_vector], timeseries.py:245-250 (normal vector present). *)
Definition s_uvec (s : ts_surface) : ts (R * R) :=
  fun t => (- snd (s_nvec s t), fst (s_nvec s t)).

(** [TsShadeCollection.length], timeseries.py:35-41. *)
Definition coll_length (l : list ts_surface) : ts R :=
  fun t => py_sum (map (fun s => s_length s t) l).
