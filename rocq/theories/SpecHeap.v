(** Vocabulary for the theorems about objects in memory (PropHeap.v): what a segment is made
    of, and programs that make segments and call their methods. *)
From Coq Require Import Reals List Bool Arith String.
From Verif Require Import Num ModelTs ModelGeom ModelVF ModelParams ModelShapely ModelShadow ModelHeap.
Import ListNotations.
Open Scope R_scope.

(** Everything that the methods of a collection or of a segment may change: the object, its
    list(s) and its surfaces. *)
Definition owned_coll (h : heap) (c : nat) : list nat :=
  c :: co_list (h_colls h c) :: h_lists h (co_list (h_colls h c)).
Definition owned (h : heap) (s : nat) : list nat :=
  s :: owned_coll h (so_illum (h_segs h s)) ++ owned_coll h (so_shaded (h_segs h s)).

(** Nothing in common. *)
Definition apart (l l' : list nat) : Prop := forall x, In x l -> ~ In x l'.

(** The same objects at an address. *)
Definition same_at (h h' : heap) (x : nat) : Prop :=
  h_surfs h' x = h_surfs h x /\ h_lists h' x = h_lists h x /\ h_colls h' x = h_colls h x /\ h_segs h' x = h_segs h x.

(** A segment on its own, as a value: its collections, and the geometry that shapely holds
    for the segment. *)
Record seg_value : Type := SegValue { sv_seg : pv_segment; sv_geom : list line }.
Definition value_of (h : heap) (s : nat) : seg_value := SegValue (seg_view h s) (so_geom (h_segs h s)).

(** The lines of the surfaces of a segment, shaded ones first. *)
Definition lines_of (v : pv_segment) : list line :=
  map su_line (sc_surfaces (sg_shaded v)) ++ map su_line (sc_surfaces (sg_illum v)).

(** Methods of a segment. [Replace]: one of its collections is replaced by a new one made of
    one surface. *)
Inductive seg_op : Type :=
| Cast (l : line)
| Cut (p : pt)
| MergeShaded
| Update (d : sdict)
| DelShaded
| DelIllum
| ReplaceShaded (l : line) (shaded : bool) (nvec : option (R * R)) (names : list string)
| ReplaceIllum (l : line) (shaded : bool) (nvec : option (R * R)) (names : list string).

(** What each does in memory. *)
Definition do_op (o : seg_op) (s : nat) : M unit :=
  match o with
  | Cast l => hsg_cast_shadow s l
  | Cut p => hsg_cut_at_point s p
  | MergeShaded => hsg_merge_shaded s
  | Update d => hsg_update s d
  | DelShaded => hdel_shaded s
  | DelIllum => hdel_illum s
  | ReplaceShaded l b n names => do! c <- hsc_from_coords l b n names; hset_shaded s c
  | ReplaceIllum l b n names => do! c <- hsc_from_coords l b n names; hset_illum s c
  end.

(** On the segments of a side, with the method of the side where it has one. *)
Definition side_op (o : seg_op) (ss : list nat) : M unit :=
  match o with
  | Cast l => hsd_cast_shadow ss l
  | MergeShaded => hsd_merge_shaded_areas ss
  | Update d => hsd_update ss d
  | _ => on_segments (do_op o) ss
  end.

(** What each does to a value: the methods of ModelShapely.v and ModelShadow.v; the geometry
    of the segment is made again by shadows that meet it, setters and deleters. *)
Definition op_value (o : seg_op) (v : seg_value) : result seg_value :=
  let g := sv_geom v in
  let s := sv_seg v in
  match o with
  | Cast l =>
      do s' <- sg_cast_shadow s l;
      Ok (SegValue s' (match buffer_intersection (map su_line (sc_surfaces (sg_illum s))) l with
                       | GEmpty => g
                       | _ => lines_of s'
                       end))
  | Cut p =>
      if geom_contains g p then
        if contains_any (sc_surfaces (sg_illum s)) p then
          do c <- sc_cut_at_point (sg_illum s) p; Ok (SegValue (PVSegment c (sg_shaded s) None) g)
        else
          do c <- sc_cut_at_point (sg_shaded s) p; Ok (SegValue (PVSegment (sg_illum s) c None) g)
      else Ok v
  | MergeShaded => do c <- merge_surfaces (sg_shaded s); Ok (SegValue (PVSegment (sg_illum s) c None) g)
  | Update d => Ok (SegValue (sg_update s d) g)
  | DelShaded => Ok (SegValue (del_shaded s) (lines_of (del_shaded s)))
  | DelIllum => Ok (SegValue (del_illum s) (lines_of (del_illum s)))
  | ReplaceShaded l b n names =>
      do c <- sc_from_coords l b n names; do s' <- set_shaded s c; Ok (SegValue s' (lines_of s'))
  | ReplaceIllum l b n names =>
      do c <- sc_from_coords l b n names; do s' <- set_illum s c; Ok (SegValue s' (lines_of s'))
  end.

(** A program: segments are made from coordinates, methods are called on one of them (by
    its number), or on those of a side, one after the other until one raises. A call that
    raises does not end the program. *)
Inductive call : Type :=
| New (l : line) (shaded : bool) (nvec : option (R * R)) (names : list string)
| On (k : nat) (o : seg_op)
| OnSide (ks : list nat) (o : seg_op).

(** In memory: the addresses of the segments made so far. *)
Definition step (c : call) (st : list nat * heap) : list nat * heap :=
  let (segs, h) := st in
  match c with
  | New l b n names =>
      match hsg_from_coords l b n names h with
      | (Ok s, h') => (segs ++ [s], h')
      | (Err _, h') => (segs, h')
      end
  | On k o =>
      match nth_error segs k with
      | Some s => (segs, snd (do_op o s h))
      | None => st
      end
  | OnSide ks o =>
      (segs, snd (side_op o (flat_map (fun k => match nth_error segs k with Some s => [s] | None => [] end) ks) h))
  end.
Definition run_program (cs : list call) (h : heap) : list nat * heap :=
  fold_left (fun st c => step c st) cs ([], h).

(** As values, each segment on its own. *)
Definition replace {A : Type} (k : nat) (x : A) (l : list A) : list A := firstn k l ++ x :: skipn (S k) l.
Fixpoint on_values (o : seg_op) (ks : list nat) (vs : list seg_value) : list seg_value :=
  match ks with
  | [] => vs
  | k :: r =>
      match nth_error vs k with
      | None => on_values o r vs
      | Some v => match op_value o v with
                  | Ok v' => on_values o r (replace k v' vs)
                  | Err _ => vs
                  end
      end
  end.
Definition step_value (c : call) (vs : list seg_value) : list seg_value :=
  match c with
  | New l b n names =>
      match sg_from_coords l b n names with
      | Ok s => vs ++ [SegValue s (lines_of s)]
      | Err _ => vs
      end
  | On k o => on_values o [k] vs
  | OnSide ks o => on_values o ks vs
  end.
Definition values_of_program (cs : list call) : list seg_value :=
  fold_left (fun vs c => step_value c vs) cs [].
