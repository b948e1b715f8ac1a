(** Independent vocabulary used to state the properties of the parameter dictionaries:
    histories of updates and length weighted averages. Nothing here refers to the way
    the code walks through its objects. *)
From Coq Require Import Reals List Bool Arith String.
From Verif Require Import Num ModelTs ModelGeom ModelParams.
Import ListNotations.
Open Scope R_scope.

(** Parts of a PV array that accept [update_params]. *)
Inductive part : Type :=
| PartSurface (s : ts_surface)
| PartCollection (l : list ts_surface)
| PartSegment (g : ts_segment)
| PartSide (s : ts_side)
| PartRow (r : ts_pvrow)
| PartGround (g : ts_ground)
| PartGroundIllum (g : ts_ground)
| PartGroundShaded (g : ts_ground)
| PartArray (a : fitted).

(** The surface [s] belongs to the part. *)
Definition in_segment (s : ts_surface) (g : ts_segment) : Prop :=
  In s (seg_illum g) \/ In s (seg_shaded g).
Definition in_side (s : ts_surface) (d : ts_side) : Prop :=
  exists g, In g (side_segments d) /\ in_segment s g.
Definition in_elements (s : ts_surface) (l : list ts_ground_element) : Prop :=
  exists e, In e l /\ In s (el_surfaces e).
Definition in_part (s : ts_surface) (p : part) : Prop :=
  match p with
  | PartSurface s' => s = s'
  | PartCollection l => In s l
  | PartSegment g => in_segment s g
  | PartSide d => in_side s d
  | PartRow r => in_side s (row_front r) \/ in_side s (row_back r)
  | PartGround g => in_elements s (gnd_illum g) \/ in_elements s (gnd_shadows g)
  | PartGroundIllum g => in_elements s (gnd_illum g)
  | PartGroundShaded g => in_elements s (gnd_shadows g)
  | PartArray a =>
      (in_elements s (gnd_illum (ft_ground a)) \/ in_elements s (gnd_shadows (ft_ground a))) \/
      exists r, In r (ft_rows a) /\ (in_side s (row_front r) \/ in_side s (row_back r))
  end.

(** The call [part.update_params(d)]. *)
Definition update_part (st : pstore) (p : part) (d : dict) : pstore :=
  match p with
  | PartSurface s => surf_update st s d
  | PartCollection l => coll_update st l d
  | PartSegment g => seg_update st g d
  | PartSide s => side_update st s d
  | PartRow r => row_update st r d
  | PartGround g => gnd_update st g d
  | PartGroundIllum g => gnd_update_illum st g d
  | PartGroundShaded g => gnd_update_shaded st g d
  | PartArray a => array_update st a d
  end.

(** A history of updates, oldest first. *)
Definition history : Type := list (part * dict).
Definition run_history (st : pstore) (h : history) : pstore :=
  fold_left (fun st u => update_part st (fst u) (snd u)) h st.

(** The update touches the value of key [k] of the object with identity [x]. *)
Definition touches (x : sid) (k : string) (u : part * dict) : Prop :=
  (exists s, in_part s (fst u) /\ s_id s = x) /\ In k (map fst (snd u)).

(** Sum over a list. *)
Fixpoint total {A : Type} (f : A -> R) (l : list A) : R :=
  match l with [] => 0 | x :: r => f x + total f r end.

(** [w] is the average of the values [v] with the weights [len] (of positive sum). *)
Definition is_weighted_average {A : Type} (l : list A) (len v : A -> R) (w : R) : Prop :=
  w * total len l = total (fun x => len x * v x) l.
