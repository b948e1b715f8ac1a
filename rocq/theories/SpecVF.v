(** Independent vocabulary used to state the view factor properties. Nothing here
    refers to the model of the code (only to the coordinates records of Num.v). *)
From Coq Require Import Reals List Bool Arith.
From Verif Require Import Num SpecGeom.
Import ListNotations.
Open Scope R_scope.

(** Length of the segment between two points. *)
Definition euclid (p q : pt) : R := sqrt (dist2 p q).

(** Orientation of the triangle [o p q]: positive when it turns counterclockwise. *)
Definition turn (o p q : pt) : R :=
  (px p - px o) * (py q - py o) - (py p - py o) * (px q - px o).

(** Length of a string pulled tight between the ground point [g] and the point [P] of
    a row. A neighbouring row, whose lower edge is [o], may stand in between, on the
    left or on the right of [P]: the string then has to pass under [o]. It does so
    without bending when [o] is above the segment from [g] to [P]. *)
Definition taut_string (left : bool) (neighbour : option pt) (P g : pt) : R :=
  match neighbour with
  | Some o =>
      if Rlt_dec 0 (if left then turn g o P else turn g P o)
      then euclid g o + euclid o P
      else euclid g P
  | None => euclid g P
  end.

(** Hottel's formula (crossed strings minus uncrossed strings over twice the length)
    between a piece of row, from [lo] to [hi], and a piece of ground from [gl] to
    [gr], looking to the left or to the right. *)
Definition hottel_ground (left : bool) (neighbour : option pt) (lo hi gl gr : pt) : R :=
  let near := if left then gr else gl in
  let far := if left then gl else gr in
  (taut_string left neighbour lo far + taut_string left neighbour hi near
   - taut_string left neighbour lo near - taut_string left neighbour hi far)
  / (2 * euclid lo hi).

(** The same without anything in between, between two pieces of rows given by their
    lower and upper ends. *)
Definition hottel_rows (lo hi lo' hi' : pt) : R :=
  (euclid lo hi' + euclid hi lo' - euclid lo lo' - euclid hi hi') / (2 * euclid lo hi).

(** Sum over a list. *)
Definition sum_over {A : Type} (l : list A) (f : A -> R) : R :=
  fold_right Rplus 0 (map f l).

(** No length strictly positive but not above the tolerance. *)
Definition no_sliver_length (tol l : R) : Prop := l = 0 \/ tol < l.
