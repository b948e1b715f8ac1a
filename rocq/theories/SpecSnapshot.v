(** Vocabulary of the statements about the geometry built for one timestep. *)
From Coq Require Import Reals List Bool Arith String.
From Verif Require Import Num ModelTs ModelGeom ModelVF ModelParams ModelShapely ModelSnapshot SpecGeom.
Import ListNotations.
Open Scope R_scope.

(** The surface [x] is what the timeseries surface [s] is at timestep [idx]: same
    coordinates, shading and index, the same parameters with the vectors replaced by
    their values at [idx]. *)
Definition same_at (e : snap_env) (idx : nat) (s : ts_surface) (x : pv_surface) : Prop :=
  su_line x = s_coords s idx /\ su_shaded x = s_shaded s /\ su_index x = sn_index e s /\
  su_names x = sn_names e /\
  forall k, match ps_surf (sn_store e) (s_id s) k, su_params x k with
            | None, None => True
            | Some PNone, Some SNone => True
            | Some (PArr a), Some (SNum v) => v = a idx
            | Some (PVF w), Some (SVF w') => w' = w
            | _, _ => False
            end.

(** Horizontal extent of a surface. *)
Definition extent (x : pv_surface) : R * R := x_extent (su_line x).

(** Horizontal surface at height [y], with its normal pointing straight up. *)
Definition flat_at (y : R) (x : pv_surface) : Prop :=
  py (b1 (su_line x)) = y /\ py (b2 (su_line x)) = y /\ fst (su_nvec x) = 0 /\
  px (b1 (su_line x)) < px (b2 (su_line x)) /\
  snd (su_nvec x) = px (b2 (su_line x)) - px (b1 (su_line x)).

(** A position on the ground is in one of the intervals. *)
Definition within (x : R) (l : list (R * R)) : Prop := exists a b, In (a, b) l /\ a <= x <= b.

(** Surfaces that start a merged surface: all but the first one of the elements that have
    an element before them; surfaces that end one: all but the last one of the elements
    that have an element after them. *)
Definition starting (els : list (list pv_surface)) : list pv_surface :=
  hd [] els ++ flat_map (@tl pv_surface) (tl els).
Definition ending (els : list (list pv_surface)) : list pv_surface :=
  flat_map (@removelast pv_surface) (removelast els) ++ last els [].

(** The intervals follow one another from left to right, starting at [lo] or later. *)
Inductive rightward : R -> list (R * R) -> Prop :=
| rightward_nil : forall lo, rightward lo []
| rightward_cons : forall lo a b l, lo <= a -> a < b -> rightward b l -> rightward lo ((a, b) :: l).

(** The surfaces [l] stand for the ground elements [els] at timestep [idx]: horizontal
    surfaces at height [y] with the given shading, ordered from left to right, covering
    the same stretch of ground, with the same total length. *)
Definition stands_for (y : R) (shaded : bool) (idx : nat) (els : list ts_ground_element)
    (l : list pv_surface) : Prop :=
  (forall o, In o l -> flat_at y o /\ su_shaded o = shaded) /\
  rightward MIN_X_GROUND (map extent l) /\
  (forall x, within x (map extent l) <->
     exists el, In el els /\ px (b1 (el_coords el idx)) < px (b2 (el_coords el idx)) /\
                px (b1 (el_coords el idx)) <= x <= px (b2 (el_coords el idx))) /\
  fold_right Rplus 0 (map (fun o => line_length (su_line o)) l)
  = fold_right Rplus 0 (map (fun el => line_length (el_coords el idx)) els).

(** Two surfaces that start at the same point; that end at the same point, with the same
    parameters and index. *)
Definition same_start (o s : pv_surface) : Prop := b1 (su_line o) = b1 (su_line s).
Definition same_end (o s : pv_surface) : Prop :=
  b2 (su_line o) = b2 (su_line s) /\ su_params o = su_params s /\ su_index o = su_index s.

(** Surfaces and elements that are not points at a timestep: longer than 1e-8 m. *)
Definition lasting (idx : nat) (l : list ts_surface) : list ts_surface :=
  filter (fun s => if Rlt_dec (1 / 100000000) (s_length s idx) then true else false) l.
Definition lasting_elements (idx : nat) (l : list ts_ground_element) : list ts_ground_element :=
  filter (fun el => if Rlt_dec (1 / 100000000) (line_length (el_coords el idx)) then true else false) l.

(** [xs] are the surfaces [l] at timestep [idx], less those that are points. *)
Definition images (e : snap_env) (idx : nat) (l : list ts_surface) (xs : list pv_surface) : Prop :=
  Forall2 (same_at e idx)
    (filter (fun s => if Rle_dec (1 / 100000000) (s_length s idx) then true else false) l) xs.
