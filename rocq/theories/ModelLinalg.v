(** Model of the numpy linear algebra used by
    /repo/pvfactors/engine.py:212-229 and 251 at one timestep (definitions only). *)
From Coq Require Import Reals List Bool Arith.
From Verif Require Import Num ModelTs ModelGeom ModelVF.
Import ListNotations.
Open Scope R_scope.

(** One timestep of a [surfaces x timesteps] array. *)
Definition vector : Type := nat -> R.

(** [np.einsum('ijk,ki->ji', M, v)] and [np.einsum('ijk,jk->ik', M, v)] at one
    timestep: the matrix-vector product (engine.py:226, 229, 251). *)
Definition mat_vec (n : nat) (M : matrix) (v : vector) : vector :=
  fun j => np_sum n (fun k => M j k * v k).

(** [invrho_ts_diag], engine.py:215-217: zeros, with the vector written on the
    diagonal. *)
Definition diag_matrix (v : vector) : matrix :=
  fun i j => if Nat.eqb i j then v i else 0.

(** [invrho_ts_diag - ts_vf_matrix_reshaped], engine.py:220. *)
Definition mat_sub (A B : matrix) : matrix := fun i j => A i j - B i j.

(** [np.linalg.inv], engine.py:223, at one timestep: Gauss-Jordan elimination in
    exact arithmetic on the augmented matrix [A | I] (columns [0..2n-1]).
    LAPACK's [gesv] also eliminates with row exchanges (it picks the largest
    pivot, which matters for rounding only; here the first non-zero one is
    taken). [None] is [LinAlgError] for a singular matrix. *)
Definition augment (n : nat) (A : matrix) : matrix :=
  fun i j => if Nat.ltb j n then A i j else if Nat.eqb (j - n) i then 1 else 0.

(** First row [r] of [k..k+m-1] with a non-zero entry in column [k]: the row
    exchange of [np.linalg.inv], engine.py:223. *)
Fixpoint find_pivot (M : matrix) (col r m : nat) : option nat :=
  match m with
  | O => None
  | S m' => if Reqb (M r col) 0 then find_pivot M col (S r) m' else Some r
  end.

(** Elimination of column [k] with pivot row [r] (exchange of rows [k] and [r],
    division of the pivot row, subtraction from all the others): step of
    [np.linalg.inv], engine.py:223. *)
Definition gj_step (M : matrix) (k r : nat) : matrix :=
  fun i j =>
    if Nat.eqb i k then M r j / M r k
    else let s := if Nat.eqb i r then k else i in
         M s j - M s k * (M r j / M r k).

(** Elimination of columns [k..k+m-1], engine.py:223. *)
Fixpoint gj_loop (n : nat) (M : matrix) (k m : nat) : option matrix :=
  match m with
  | O => Some M
  | S m' =>
      match find_pivot M k k (n - k) with
      | None => None
      | Some r => gj_loop n (gj_step M k r) (S k) m'
      end
  end.

Definition linalg_inv (n : nat) (A : matrix) : option matrix :=
  match gj_loop n (augment n A) 0 n with
  | None => None
  | Some M => Some (fun i j => M i (n + j)%nat)
  end.
