(** Model in IEEE 754 double precision of the arithmetic of the view factors between surfaces
    with nothing in between (definitions only). The rest of the model computes with real
    numbers; here the numbers are those numpy computes with: signed zeros, infinities, NaN,
    and every operation rounded to the nearest double, ties to even. The operations are those
    of Flocq (Bits.v).

    numpy computes [x**2] as [x * x]; additions, subtractions, products, quotients and square
    roots are correctly rounded. *)
From Coq Require Import ZArith List.
From Flocq Require Import Core Binary Bits.
Import ListNotations.

(** Element of a numpy array of dtype float. *)
Definition float : Type := binary64.
(** [+], [-], [*], [/], [np.sqrt], [np.abs] on such elements. *)
Definition fadd : float -> float -> float := b64_plus BinarySingleNaN.mode_NE.
Definition fsub : float -> float -> float := b64_minus BinarySingleNaN.mode_NE.
Definition fmul : float -> float -> float := b64_mult BinarySingleNaN.mode_NE.
Definition fquo : float -> float -> float := b64_div BinarySingleNaN.mode_NE.
Definition fsqrt : float -> float := b64_sqrt BinarySingleNaN.mode_NE.
Definition fabs : float -> float := b64_abs.
(** [x > y]; false when one is NaN. *)
Definition fgt (x y : float) : bool :=
  match b64_compare x y with Some Gt => true | _ => false end.

(** The literals [0.], [1.], [2.] of vfmethods.py and calculator.py. *)
Definition f_zero : float := B754_zero 53 1024 false.
Definition f_one : float := B754_finite 53 1024 false 4503599627370496 (-52) eq_refl.
Definition f_two : float := B754_finite 53 1024 false 4503599627370496 (-51) eq_refl.
(** [DISTANCE_TOLERANCE], config.py:32: the double nearest to 1e-8. *)
Definition f_tolerance : float := B754_finite 53 1024 false 6044629098073146 (-79) eq_refl.

(** [TsPointCoords] and [TsLineCoords] at one timestep, timeseries.py:258-341, 344-388. *)
Record fpt : Type := FPt { fx : float; fy : float }.
Record fline : Type := FLine { fb1 : fpt; fb2 : fpt }.

(** [_distance], vfmethods.py:613-629. *)
Definition f_distance (pt_1 pt_2 : fpt) : float :=
  let dy := fsub (fy pt_2) (fy pt_1) in
  let dx := fsub (fx pt_2) (fx pt_1) in
  fsqrt (fadd (fmul dy dy) (fmul dx dx)).

(** [TsLineCoords.length], timeseries.py:302-306. *)
Definition f_length (l : fline) : float :=
  let dy := fsub (fy (fb2 l)) (fy (fb1 l)) in
  let dx := fsub (fx (fb2 l)) (fx (fb1 l)) in
  fsqrt (fadd (fmul dy dy) (fmul dx dx)).

(** [_vf_surface_to_surface], vfmethods.py:582-611. *)
Definition f_vf_surface_to_surface (line_1 line_2 : fline) (width_1 : float) : float :=
  let length_1 := f_distance (fb1 line_1) (fb1 line_2) in
  let length_2 := f_distance (fb2 line_1) (fb2 line_2) in
  let length_3 := f_distance (fb1 line_1) (fb2 line_2) in
  let length_4 := f_distance (fb2 line_1) (fb1 line_2) in
  let sum_1 := fadd length_1 length_2 in
  let sum_2 := fadd length_3 length_4 in
  let vf_1_to_2 := fquo (fabs (fsub sum_2 sum_1)) (fmul f_two width_1) in
  if fgt width_1 f_tolerance then vf_1_to_2 else f_zero.

(** Body of the loops of [vf_pvrow_to_pvrow], vfmethods.py:215-222 and 237-244, for two sides
    that face each other at this timestep. *)
Definition f_vf_pair (surf_i surf_j : fline) : float * float :=
  let length_i := f_length surf_i in
  let length_j := f_length surf_j in
  let vf_i_to_j := f_vf_surface_to_surface surf_i surf_j length_i in
  let vf_j_to_i :=
    if fgt length_j f_tolerance then fquo (fmul vf_i_to_j length_i) length_j else f_zero in
  (vf_i_to_j, vf_j_to_i).

(** [np.sum] of a vector, in some order: numpy documents no order (it sums in blocks of 8 and
    by halves, or sequentially, depending on the memory layout), so the order is a parameter:
    a binary tree with the elements at its leaves. *)
Inductive sum_order : Type :=
| Leaf (v : float)
| Node (l r : sum_order).

(** The vector that is summed. *)
Fixpoint summands (o : sum_order) : list float :=
  match o with Leaf v => [v] | Node l r => summands l ++ summands r end.

(** The sum, in the given order. *)
Fixpoint f_sum (o : sum_order) : float :=
  match o with Leaf v => v | Node l r => fadd (f_sum l) (f_sum r) end.

(** Sky view factor of a surface whose row of the matrix is summed in the given order,
    calculator.py:104. *)
Definition f_sky (o : sum_order) : float := fsub f_one (f_sum o).
