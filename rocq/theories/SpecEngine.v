(** Independent vocabulary used to state the properties of the engine. Nothing here
    refers to the model of the code. *)
From Coq Require Import Reals List Bool Arith.
Import ListNotations.
Open Scope R_scope.

(** Sum of [f 0], ..., [f (n-1)]. *)
Fixpoint sum_below (n : nat) (f : nat -> R) : R :=
  match n with O => 0 | S k => sum_below k f + f k end.

(** Radiosity balance of [n] surfaces that exchange light by diffuse reflections:
    what a surface receives ([q i]) is what it receives from the light sources
    ([s i]), plus what the other surfaces reflect towards it. *)
Definition radiosity_balance (n : nat) (F : nat -> nat -> R) (rho s q : nat -> R) : Prop :=
  forall i, (i < n)%nat -> q i = s i + sum_below n (fun j => F i j * (rho j * q j)).

(** What the surfaces receive when at most [k] reflections are followed. *)
Fixpoint bounces (n : nat) (F : nat -> nat -> R) (rho s : nat -> R) (k : nat) : nat -> R :=
  match k with
  | O => s
  | S k' => fun i => s i + sum_below n (fun j => F i j * (rho j * bounces n F rho s k' j))
  end.
