(** Specification vocabulary for shadows cast along a straight line (C67): pieces of the
    line given by the positions of their ends. *)
From Coq Require Import Reals List Bool.
From Verif Require Import Num ModelTs ModelGeom ModelShapely SpecGeom SpecShapely.
Import ListNotations.
Open Scope R_scope.

(** Pieces of the line through [(x, y)] with direction [(c, s)]. *)
Definition lines_at (x y c s : R) (ps : list (R * R)) : list line :=
  map (fun i => Line (along x y c s (fst i)) (along x y c s (snd i))) ps.

(** A position between two others; a position in one of the pieces. *)
Definition between (a b t : R) : Prop := Rmin a b <= t <= Rmax a b.
Definition lies_in (ps : list (R * R)) (t : R) : Prop := exists i, In i ps /\ between (fst i) (snd i) t.

(** A position at most [d] away from a piece; from one of the pieces. *)
Definition close (d a b t : R) : Prop := Rmin a b - d <= t <= Rmax a b + d.
Definition close_any (d : R) (ps : list (R * R)) (t : R) : Prop :=
  exists i, In i ps /\ close d (fst i) (snd i) t.

(** Positions of a shadow from [p] to [q] that are at most [d] away from the pieces. *)
Definition caught (d p q : R) (ps : list (R * R)) (t : R) : Prop := between p q t /\ close_any d ps t.

(** Total length of pieces; length that they share with the interval from [u] to [v]. *)
Definition full_length (ps : list (R * R)) : R := fold_right (fun i r => Rabs (snd i - fst i) + r) 0 ps.
Definition shared (u v : R) (ps : list (R * R)) : R :=
  fold_right (fun i r => overlap (fst i) (snd i) u v + r) 0 ps.
