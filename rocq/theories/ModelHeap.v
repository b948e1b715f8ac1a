(** Model of the objects of one timestep as objects in memory: surfaces, lists of surfaces,
    shade collections and PV segments have an address, hold addresses of each other and are
    changed in place (/repo/pvfactors/geometry/base.py; definitions only).

    ModelShapely.v and ModelShadow.v describe the same methods on values; the theorems of
    PropHeap.v say when the two agree. Left out here: the cached list of [all_surfaces]
    (ModelShapely.v), indices of segments, and the lists of parameter names, which are shared
    but which no method changes. *)
From Coq Require Import Reals List Bool Arith String.
From Verif Require Import Num ModelTs ModelGeom ModelVF ModelParams ModelShapely ModelShadow.
Import ListNotations.
Open Scope R_scope.

(** [ShadeCollection] in memory, base.py:347-354: the address of its list of surfaces, and
    the geometry that shapely made of the surfaces when it was last given them. *)
Record coll_obj : Type := CollObj {
  co_list : nat;
  co_shaded : option bool;
  co_collinear : bool;
  co_names : list string;
  co_geom : list line
}.

(** [PVSegment] in memory, base.py:632-637: the addresses of its collections, and its own
    geometry. *)
Record seg_obj : Type := SegObj {
  so_illum : nat;
  so_shaded : nat;
  so_geom : list line
}.

(** The memory: what is at each address, by kind of object, and the next free address. *)
Record heap : Type := Heap {
  h_surfs : nat -> pv_surface;
  h_lists : nat -> list nat;
  h_colls : nat -> coll_obj;
  h_segs : nat -> seg_obj;
  h_next : nat
}.

(** A call: what it returns or raises, and the memory that it leaves, in both cases (the
    semantics of Python; no code of /repo). *)
Definition M (A : Type) : Type := heap -> result A * heap.
Definition ret {A : Type} (x : A) : M A := fun h => (Ok x, h).
Definition raise {A : Type} (e : error) : M A := fun h => (Err e, h).
Definition mbind {A B : Type} (m : M A) (f : A -> M B) : M B :=
  fun h => match m h with
           | (Ok x, h') => f x h'
           | (Err e, h') => (Err e, h')
           end.
Notation "'do!' x <- m ; f" := (mbind m (fun x => f)) (at level 200, x pattern, m at level 100, f at level 200).
Definition lift {A : Type} (r : result A) : M A := fun h => (r, h).

(** Writing at an address, and new objects at the next free address (Python; no code of
    /repo). *)
Definition put {A : Type} (f : nat -> A) (a : nat) (v : A) : nat -> A :=
  fun x => if Nat.eqb x a then v else f x.
Definition set_surf (a : nat) (v : pv_surface) : M unit := fun h =>
  (Ok tt, Heap (put (h_surfs h) a v) (h_lists h) (h_colls h) (h_segs h) (h_next h)).
Definition set_list (a : nat) (v : list nat) : M unit := fun h =>
  (Ok tt, Heap (h_surfs h) (put (h_lists h) a v) (h_colls h) (h_segs h) (h_next h)).
Definition set_coll (a : nat) (v : coll_obj) : M unit := fun h =>
  (Ok tt, Heap (h_surfs h) (h_lists h) (put (h_colls h) a v) (h_segs h) (h_next h)).
Definition set_seg (a : nat) (v : seg_obj) : M unit := fun h =>
  (Ok tt, Heap (h_surfs h) (h_lists h) (h_colls h) (put (h_segs h) a v) (h_next h)).
Definition new_surf (v : pv_surface) : M nat := fun h =>
  (Ok (h_next h), Heap (put (h_surfs h) (h_next h) v) (h_lists h) (h_colls h) (h_segs h) (S (h_next h))).
Definition new_list (v : list nat) : M nat := fun h =>
  (Ok (h_next h), Heap (h_surfs h) (put (h_lists h) (h_next h) v) (h_colls h) (h_segs h) (S (h_next h))).
Definition new_coll (v : coll_obj) : M nat := fun h =>
  (Ok (h_next h), Heap (h_surfs h) (h_lists h) (put (h_colls h) (h_next h) v) (h_segs h) (S (h_next h))).
Definition new_seg (v : seg_obj) : M nat := fun h =>
  (Ok (h_next h), Heap (h_surfs h) (h_lists h) (h_colls h) (put (h_segs h) (h_next h) v) (S (h_next h))).
Fixpoint new_surfs (l : list pv_surface) : M (list nat) :=
  match l with
  | [] => ret []
  | s :: r => do! a <- new_surf s; do! as' <- new_surfs r; ret (a :: as')
  end.

(** The surfaces in the list of a collection, and the values of ModelShapely.v that a
    collection and a segment stand for (base.py:347-354, 632-637). *)
Definition list_surfaces (h : heap) (c : nat) : list pv_surface :=
  map (h_surfs h) (h_lists h (co_list (h_colls h c))).
Definition coll_view (h : heap) (c : nat) : shade_coll :=
  ShadeColl (list_surfaces h c) (co_shaded (h_colls h c)) (co_collinear (h_colls h c)) (co_names (h_colls h c)).
Definition seg_view (h : heap) (s : nat) : pv_segment :=
  PVSegment (coll_view h (so_illum (h_segs h s))) (coll_view h (so_shaded (h_segs h s))) None.
Definition view_coll (c : nat) : M shade_coll := fun h => (Ok (coll_view h c), h).
Definition view_seg (s : nat) : M pv_segment := fun h => (Ok (seg_view h s), h).
Definition get_coll (c : nat) : M coll_obj := fun h => (Ok (h_colls h c), h).
Definition get_seg (s : nat) : M seg_obj := fun h => (Ok (h_segs h s), h).
Definition get_list (a : nat) : M (list nat) := fun h => (Ok (h_lists h a), h).
Definition get_surf (a : nat) : M pv_surface := fun h => (Ok (h_surfs h a), h).

(** [ShadeCollection.__init__], base.py:330-354: the list that is passed becomes the list of
    the collection. *)
Definition hsc_init (l : nat) (shaded : option bool) (names : list string) : M nat :=
  do! addrs <- get_list l;
  fun h => (do! c <- lift (shade_collection (map (h_surfs h) addrs) shaded names);
            new_coll (CollObj l (sc_shaded c) (sc_collinear c) (sc_names c) (map su_line (sc_surfaces c)))) h.

(** The collection [c] with another list of surfaces, or with the same list after a change:
    shapely is given the surfaces again (base.py:415, 447-449, 473-474, 506). *)
Definition refresh (c l : nat) (collinear : bool) : M unit := fun h =>
  let o := h_colls h c in
  set_coll c (CollObj l (co_shaded o) collinear (co_names o) (map (fun a => su_line (h_surfs h a)) (h_lists h l))) h.

(** [ShadeCollection.add_pvsurface], base.py:405-415: appends to the list in place. *)
Definition hsc_add_pvsurface (c s : nat) : M unit :=
  do! o <- get_coll c;
  do! addrs <- get_list (co_list o);
  do! _ <- set_list (co_list o) (addrs ++ [s]);
  do! v <- view_coll c;
  refresh c (co_list o) (is_collinear (surf_nvecs (sc_surfaces v))).

(** [ShadeCollection.add_linestring], base.py:387-403 (see ModelShapely.v for a collection
    without shading). *)
Definition hsc_add_linestring (c : nat) (l : line) (nvec : option (R * R)) : M unit :=
  do! v <- view_coll c;
  do! n <- lift (match nvec with Some n => Ok (Some n) | None => sc_nvec v end);
  match sc_shaded v with
  | None => raise AttributeError
  | Some b =>
      do! s <- lift (pvsurface_init l n b None (sc_names v) None);
      do! a <- new_surf s;
      hsc_add_pvsurface c a
  end.

(** [ShadeCollection.remove_linestring], base.py:417-449: surfaces that the line does not meet
    are kept, the parts of the others are new; the collection gets a new list. *)
Fixpoint hremove_loop (l : line) (addrs : list nat) : M (list nat) :=
  match addrs with
  | [] => ret []
  | a :: r =>
      do! s <- get_surf a;
      do! kept <- (if buffer_intersects (su_line s) l then new_surfs (surface_less s l) else ret [a]);
      do! rest <- hremove_loop l r;
      ret (kept ++ rest)
  end.
Definition hsc_remove_linestring (c : nat) (l : line) : M unit :=
  do! o <- get_coll c;
  do! addrs <- get_list (co_list o);
  do! new <- hremove_loop l addrs;
  do! a <- new_list new;
  refresh c a (co_collinear o).

(** [ShadeCollection.merge_surfaces], base.py:459-474: a new list with one new surface. *)
Definition hsc_merge_surfaces (c : nat) : M unit :=
  do! o <- get_coll c;
  do! v <- view_coll c;
  match sc_surfaces v with
  | _ :: _ :: _ =>
      do! m <- lift (merge_surfaces v);
      do! addrs <- new_surfs (sc_surfaces m);
      do! a <- new_list addrs;
      refresh c a (co_collinear o)
  | _ => ret tt
  end.

(** [ShadeCollection.cut_at_point], base.py:476-508: the list is changed in place. *)
Fixpoint hcut_loop (addrs : list nat) (p : pt) : M (option (list nat * nat)) :=
  match addrs with
  | [] => ret None
  | a :: r =>
      do! s <- get_surf a;
      let next := do! x <- hcut_loop r p;
                  ret (match x with Some (r', s2) => Some (a :: r', s2) | None => None end) in
      if contains (su_line s) p then
        do! e <- lift (boundary (su_line s));
        let (e1, e2) := e in
        if Rltb DISTANCE_TOLERANCE (distance e1 p) && Rltb DISTANCE_TOLERANCE (distance e2 p) then
          do! s1 <- lift (pvsurface_init (Line e1 p) (Some (su_nvec s)) (su_shaded s) None (su_names s) None);
          do! s2 <- lift (pvsurface_init (Line p e2) (Some (su_nvec s)) (su_shaded s) None (su_names s) None);
          do! a1 <- new_surf s1;
          do! a2 <- new_surf s2;
          ret (Some (a1 :: r, a2))
        else next
      else next
  end.
Definition hsc_cut_at_point (c : nat) (p : pt) : M unit :=
  do! o <- get_coll c;
  do! addrs <- get_list (co_list o);
  do! x <- hcut_loop addrs p;
  match x with
  | None => ret tt
  | Some (l, s2) =>
      do! _ <- set_list (co_list o) (l ++ [s2]);
      refresh c (co_list o) (co_collinear o)
  end.

(** [ShadeCollection.update_params], base.py:551-560: the surfaces are changed in place. *)
Fixpoint hupdate_loop (addrs : list nat) (d : sdict) : M unit :=
  match addrs with
  | [] => ret tt
  | a :: r => do! s <- get_surf a; do! _ <- set_surf a (su_update s d); hupdate_loop r d
  end.
Definition hsc_update (c : nat) (d : sdict) : M unit :=
  do! o <- get_coll c;
  do! addrs <- get_list (co_list o);
  hupdate_loop addrs d.

(** Geometry of a segment: that of its two collections when shapely is given them
    (base.py:636-637, 711-712, 858-859, 866-867, 884-885, 891-892). *)
Definition both_geoms (h : heap) (il sh : nat) : list line :=
  co_geom (h_colls h sh) ++ co_geom (h_colls h il).
Definition set_colls (s il sh : nat) : M unit := fun h => set_seg s (SegObj il sh (both_geoms h il sh)) h.

(** [PVSegment.__init__], base.py:612-637. The defaults of the arguments are two collections
    made when the module is loaded: [default_illum] and [default_shaded]. *)
Definition default_illum : nat := 0.
Definition default_shaded : nat := 1.
Definition hsg_init (il sh : option nat) : M nat :=
  let i := match il with Some a => a | None => default_illum end in
  let s := match sh with Some a => a | None => default_shaded end in
  do! vi <- view_coll i;
  do! vs <- view_coll s;
  do! _ <- lift (pvsegment_init vi vs);
  fun h => new_seg (SegObj i s (both_geoms h i s)) h.

(** The memory when base.py has been loaded: the two default collections, with their empty
    lists at the addresses 2 and 3 (base.py:612-613); what is at the free addresses is never
    read. *)
Definition no_surface : pv_surface :=
  PVSurface (Line (Pt 0 0) (Pt 0 0)) (0, 0) false None [] (fun _ => None).
Definition no_segment : seg_obj := SegObj 0 0 [].
Definition loaded : heap :=
  Heap (fun _ => no_surface) (fun _ => [])
    (fun a => if Nat.eqb a default_illum then CollObj 2 (Some false) true [] []
              else CollObj 3 (Some true) true [] [])
    (fun _ => no_segment) 4.

(** [ShadeCollection.from_linestring_coords], base.py:583-602: a new list with a new
    surface. *)
Definition hsc_from_coords (l : line) (shaded : bool) (nvec : option (R * R)) (names : list string) : M nat :=
  do! s <- lift (pvsurface_init l nvec shaded None names None);
  do! a <- new_surf s;
  do! ls <- new_list [a];
  hsc_init ls (Some shaded) names.

(** [ShadeCollection(shaded=...)], base.py:345, 833-834, 865, 890: a new empty list. *)
Definition hsc_empty (shaded : bool) (names : list string) : M nat :=
  do! ls <- new_list [];
  hsc_init ls (Some shaded) names.

(** [PVSegment.from_linestring_coords], base.py:808-840. *)
Definition hsg_from_coords (l : line) (shaded : bool) (nvec : option (R * R)) (names : list string) : M nat :=
  do! col <- hsc_from_coords l shaded nvec names;
  do! other <- hsc_empty (negb shaded) names;
  if shaded then hsg_init (Some other) (Some col) else hsg_init (Some col) (Some other).

(** [PVSegment.cast_shadow], base.py:688-712. *)
Definition hsg_cast_shadow (s : nat) (l : line) : M unit :=
  do! o <- get_seg s;
  do! ci <- get_coll (so_illum o);
  match buffer_intersection (co_geom ci) l with
  | GEmpty => ret tt
  | GPoint _ => raise ValueError
  | GMultiLine _ => raise NotImplementedError
  | GLine i =>
      do! v <- view_seg s;
      do! n <- lift (sg_nvec v);
      do! _ <- hsc_add_linestring (so_shaded o) i n;
      do! _ <- hsc_remove_linestring (so_illum o) i;
      set_colls s (so_illum o) (so_shaded o)
  end.

(** [contains] on the geometry that shapely holds (utils.py:75 with base.py:723-724): see
    [contains_any]. *)
Definition geom_contains (g : list line) (p : pt) : bool :=
  match g with
  | [] => true
  | _ :: _ => existsb (fun l => contains l p) g
  end.

(** [PVSegment.cut_at_point], base.py:714-727: the geometry of the segment is not made
    again. *)
Definition hsg_cut_at_point (s : nat) (p : pt) : M unit :=
  do! o <- get_seg s;
  do! ci <- get_coll (so_illum o);
  if geom_contains (so_geom o) p then
    if geom_contains (co_geom ci) p then hsc_cut_at_point (so_illum o) p
    else hsc_cut_at_point (so_shaded o) p
  else ret tt.

(** [PVSegment.update_params], base.py:770-779. *)
Definition hsg_update (s : nat) (d : sdict) : M unit :=
  do! o <- get_seg s;
  do! _ <- hsc_update (so_shaded o) d;
  hsc_update (so_illum o) d.

(** Setters and deleters of the collections of a segment, base.py:847-892. *)
Definition hset_shaded (s c : nat) : M unit :=
  do! o <- get_seg s;
  do! v <- view_coll c;
  match sc_shaded v with
  | Some true => set_colls s (so_illum o) c
  | _ => raise AssertionError
  end.
Definition hset_illum (s c : nat) : M unit :=
  do! o <- get_seg s;
  do! v <- view_coll c;
  match sc_shaded v with
  | Some true => raise AssertionError
  | _ => set_colls s c (so_shaded o)
  end.
Definition hdel_shaded (s : nat) : M unit :=
  do! o <- get_seg s;
  do! c <- hsc_empty true [];
  set_colls s (so_illum o) c.
Definition hdel_illum (s : nat) : M unit :=
  do! o <- get_seg s;
  do! c <- hsc_empty false [];
  set_colls s c (so_shaded o).

(** [length] of a collection and of a segment (shapely, on the geometry that it holds),
    [PVSegment.shaded_length] (base.py:894-903) and [n_surfaces] (base.py:563-566,
    789-794). *)
Definition lines_length (g : list line) : R := py_sum (map line_length g).
Definition hsc_length (h : heap) (c : nat) : R := lines_length (co_geom (h_colls h c)).
Definition hsg_length (h : heap) (s : nat) : R := lines_length (so_geom (h_segs h s)).
Definition hsg_shaded_length (h : heap) (s : nat) : R := hsc_length h (so_shaded (h_segs h s)).
Definition hsg_n_surfaces (h : heap) (s : nat) : nat :=
  (List.length (list_surfaces h (so_illum (h_segs h s))) + List.length (list_surfaces h (so_shaded (h_segs h s))))%nat.

(** [BaseSide.cast_shadow], [merge_shaded_areas] and [update_params] (base.py:1046-1062,
    1120-1129) on the segments of a side, in order, until one raises. *)
Fixpoint on_segments (f : nat -> M unit) (segs : list nat) : M unit :=
  match segs with
  | [] => ret tt
  | s :: r => do! _ <- f s; on_segments f r
  end.
Definition hsd_cast_shadow (segs : list nat) (l : line) : M unit := on_segments (fun s => hsg_cast_shadow s l) segs.
Definition hsg_merge_shaded (s : nat) : M unit := do! o <- get_seg s; hsc_merge_surfaces (so_shaded o).
Definition hsd_merge_shaded_areas (segs : list nat) : M unit := on_segments hsg_merge_shaded segs.
Definition hsd_update (segs : list nat) (d : sdict) : M unit := on_segments (fun s => hsg_update s d) segs.
