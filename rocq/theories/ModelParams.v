(** Model of the parameter dictionaries of the timeseries objects:
    /repo/pvfactors/geometry/{timeseries,pvrow,pvground}.py (definitions only). *)
From Coq Require Import Reals List Bool Arith String.
From Verif Require Import Num ModelTs ModelGeom ModelVF.
Import ListNotations.
Open Scope R_scope.

(** Python exceptions that the modelled code can raise, and computations that may
    raise one. The state left behind by a call that raises is not modelled. *)
Inductive error : Type :=
| KeyError | TypeError | AttributeError | IndexError | ValueError
| UnboundLocalError | LinAlgError | PVFactorsError | AssertionError | NotImplementedError.

Inductive result (A : Type) : Type :=
| Ok (a : A)
| Err (e : error).
Arguments Ok {A} a.
Arguments Err {A} e.

Definition bind {A B : Type} (x : result A) (f : A -> result B) : result B :=
  match x with Ok a => f a | Err e => Err e end.
Notation "'do' x <- e ; f" := (bind e (fun x => f))
  (at level 200, x pattern, e at level 100, f at level 200).

(** Left to right loop whose body may raise, e.g. engine.py:308-309. *)
Fixpoint fold_result {A B : Type} (f : A -> B -> result A) (l : list B) (a : A) : result A :=
  match l with
  | [] => Ok a
  | x :: r => do a' <- f a x; fold_result f r a'
  end.

(** Value of a parameter: [None] (from [dict.fromkeys], timeseries.py:139), a numpy
    vector over time, or the dictionary of view factors stored by the fast mode
    (engine.py:382). *)
Inductive pval : Type :=
| PNone
| PArr (a : ts R)
| PVF (v : ts (option fast_vf)).

(** A parameter dictionary, and [dict.update] with a literal dictionary
    (timeseries.py:220-228). Missing key: [None]. *)
Definition params : Type := string -> option pval.
Definition dict : Type := list (string * pval).
Definition dict_update (p : params) (d : dict) : params :=
  fold_left (fun (p : params) (kv : string * pval) =>
               fun k => if String.eqb k (fst kv) then Some (snd kv) else p k) d p.

(** [dict.fromkeys(param_names)], timeseries.py:139, pvground.py:64-65, 791. *)
Definition dict_fromkeys (names : list string) : params :=
  fun k => if existsb (String.eqb k) names then Some PNone else None.

(** All the parameter dictionaries of a PV array: those of the surfaces
    (timeseries.py:139), of the ground (illuminated / shaded, pvground.py:64-65)
    and of the ground elements (pvground.py:791). *)
Record pstore : Type := PStore {
  ps_surf : sid -> params;
  ps_ground : bool -> params;          (* indexed by: shaded *)
  ps_element : bool -> nat -> params   (* shaded, position of the element *)
}.

(** Dictionaries of newly created objects: timeseries.py:139, pvground.py:64-65,
    791. *)
Definition fresh_store (names : list string) : pstore :=
  PStore (fun _ => dict_fromkeys names) (fun _ => dict_fromkeys names)
         (fun _ _ => dict_fromkeys names).

(** [TsSurface.update_params], timeseries.py:220-228. *)
Definition surf_update (st : pstore) (s : ts_surface) (d : dict) : pstore :=
  PStore (fun x => if sid_eq_dec x (s_id s) then dict_update (ps_surf st x) d
                   else ps_surf st x)
         (ps_ground st) (ps_element st).

(** [TsShadeCollection.update_params], timeseries.py:84-93. *)
Definition coll_update (st : pstore) (l : list ts_surface) (d : dict) : pstore :=
  fold_left (fun st s => surf_update st s d) l st.

(** [TsSegment.update_params], pvrow.py:623-632. *)
Definition seg_update (st : pstore) (s : ts_segment) (d : dict) : pstore :=
  coll_update (coll_update st (seg_illum s) d) (seg_shaded s) d.

(** [TsSide.update_params], pvrow.py:458-467. *)
Definition side_update (st : pstore) (s : ts_side) (d : dict) : pstore :=
  fold_left (fun st g => seg_update st g d) (side_segments s) st.

(** [TsPVRow.update_params], pvrow.py:185-194. *)
Definition row_update (st : pstore) (r : ts_pvrow) (d : dict) : pstore :=
  side_update (side_update st (row_front r) d) (row_back r) d.

(** Update of the dictionary of the ground itself, pvground.py:331 and 347. *)
Definition ground_dict_update (st : pstore) (shaded : bool) (d : dict) : pstore :=
  PStore (ps_surf st)
    (fun b => if Bool.eqb b shaded then dict_update (ps_ground st b) d else ps_ground st b)
    (ps_element st).

(** Update of the dictionary of a ground element, pvground.py:333 and 349. *)
Definition element_dict_update (st : pstore) (shaded : bool) (e : nat) (d : dict) : pstore :=
  PStore (ps_surf st) (ps_ground st)
    (fun b k => if Bool.eqb b shaded && Nat.eqb k e then dict_update (ps_element st b k) d
                else ps_element st b k).

(** Loop of [update_illum_params] / [update_shaded_params] over the elements,
    pvground.py:332-335 and 348-351. *)
Definition elements_update (st : pstore) (shaded : bool) (els : list ts_ground_element)
    (d : dict) : pstore :=
  fold_left (fun st (ke : nat * ts_ground_element) =>
               coll_update (element_dict_update st shaded (fst ke) d) (el_surfaces (snd ke)) d)
            (combine (seq 0 (List.length els)) els) st.

(** [TsGround.update_illum_params], pvground.py:321-335. *)
Definition gnd_update_illum (st : pstore) (g : ts_ground) (d : dict) : pstore :=
  elements_update (ground_dict_update st false d) false (gnd_illum g) d.

(** [TsGround.update_shaded_params], pvground.py:337-351. *)
Definition gnd_update_shaded (st : pstore) (g : ts_ground) (d : dict) : pstore :=
  elements_update (ground_dict_update st true d) true (gnd_shadows g) d.

(** [TsGround.update_params], pvground.py:308-319. *)
Definition gnd_update (st : pstore) (g : ts_ground) (d : dict) : pstore :=
  gnd_update_shaded (gnd_update_illum st g d) g d.

(** [BasePVArray.update_params], base.py:1231-1240: the ground, then the PV rows. *)
Definition array_update (st : pstore) (a : fitted) (d : dict) : pstore :=
  fold_left (fun st r => row_update st r d) (ft_rows a) (gnd_update st (ft_ground a) d).

(** [TsSurface.get_param], timeseries.py:205-218 ([KeyError] if the name is not in
    the dictionary). *)
Definition get_param (st : pstore) (s : ts_surface) (name : string) : result pval :=
  match ps_surf st (s_id s) name with Some v => Ok v | None => Err KeyError end.

(** Use of a parameter in an arithmetic expression ([None] or a dictionary gives
    [TypeError]), e.g. timeseries.py:81. *)
Definition get_num (st : pstore) (s : ts_surface) (name : string) : result (ts R) :=
  do v <- get_param st s name;
  match v with PArr a => Ok a | _ => Err TypeError end.

(** Accumulation [value += ts_surf.length * ts_surf.get_param(param)]:
    [TsShadeCollection.get_param_ww], timeseries.py:64-82. *)
Definition coll_param_ww (st : pstore) (l : list ts_surface) (name : string) : result (ts R) :=
  fold_result (fun (v : ts R) s => do p <- get_num st s name;
                 Ok (fun t => v t + s_length s t * p t)) l (fun _ => 0).

(** [TsSegment.get_param_ww], pvrow.py:607-621. *)
Definition seg_param_ww (st : pstore) (s : ts_segment) (name : string) : result (ts R) :=
  do a <- coll_param_ww st (seg_illum s) name;
  do b <- coll_param_ww st (seg_shaded s) name;
  Ok (fun t => a t + b t).

(** [TsSide.get_param_ww], pvrow.py:434-456. *)
Definition side_param_ww (st : pstore) (s : ts_side) (name : string) : result (ts R) :=
  fold_result (fun (v : ts R) g => do p <- seg_param_ww st g name; Ok (fun t => v t + p t))
    (side_segments s) (fun _ => 0).

(** [TsGroundElement.get_param_ww], pvground.py:874-896. *)
Definition el_param_ww (st : pstore) (e : ts_ground_element) (name : string) : result (ts R) :=
  coll_param_ww st (el_surfaces e) name.

(** [TsGround.get_param_ww], pvground.py:369-393. *)
Definition gnd_param_ww (st : pstore) (g : ts_ground) (name : string) : result (ts R) :=
  fold_result (fun (v : ts R) e => do p <- el_param_ww st e name; Ok (fun t => v t + p t))
    (gnd_shadows g ++ gnd_illum g) (fun _ => 0).

(** Float division whose divisor may be zero (e.g. utils.py:115-117, models.py:1009,
    aoimethods.py:567 and the lengths below). The code then gets NaN or an infinity,
    which have no counterpart among the reals: 0 stands for them, and the theorems
    about the quotients assume a non-zero divisor. *)
Definition fdiv (a b : R) : R := if Req_EM_T b 0 then 0 else a / b.

(** Division by a length, timeseries.py:61-62, pvrow.py:431-432, 604-605,
    pvground.py:366-367, 871-872. *)
Definition per_length (v l : ts R) : ts R := fun t => fdiv (v t) (l t).

(** [get_param_weighted] of a collection (timeseries.py:48-62), a segment
    (pvrow.py:591-605), a side (pvrow.py:418-432), a ground element
    (pvground.py:858-872) and the ground (pvground.py:353-367). *)
Definition coll_param_weighted st l name : result (ts R) :=
  do v <- coll_param_ww st l name; Ok (per_length v (coll_length l)).
Definition seg_param_weighted st s name : result (ts R) :=
  do v <- seg_param_ww st s name; Ok (per_length v (seg_length s)).
Definition side_param_weighted st s name : result (ts R) :=
  do v <- side_param_ww st s name; Ok (per_length v (side_length s)).
Definition el_param_weighted st e name : result (ts R) :=
  do v <- el_param_ww st e name;
  Ok (per_length v (fun t => line_length (el_coords e t))).
Definition gnd_param_weighted st g name : result (ts R) :=
  do v <- gnd_param_ww st g name; Ok (per_length v (gnd_length g)).
