(** Vocabulary used to state where the shadows of the rows are. Nothing here refers to the
    model of the code. *)
From Coq Require Import Reals List Arith.
From Verif Require Import Num SpecGeom.
Open Scope R_scope.

(** Row [i] (of width [w], centred on [(i * d, h)]) stands between the point of abscissa
    [x] of the ground (at height 0) and the sun. *)
Definition row_shades_ground (w d h rotation al : R) (i : nat) (x : R) : Prop :=
  exists s, - (w / 2) <= s <= w / 2 /\
    towards_sun al (Pt x 0) (row_point (INR i * d) h rotation s).

(** The shadow of every point of the [n] rows falls on the ground between -100 and 100. *)
Definition shadows_in_ground (n : nat) (w d h rotation al : R) : Prop :=
  forall i x, (i < n)%nat -> row_shades_ground w d h rotation al i x -> -100 <= x <= 100.
