(** What is drawn when a PV array is plotted at an index (C68). *)
From Coq Require Import Reals List Bool Arith String Lra Lia Permutation.
From Verif Require Import Num Basics ModelTs ModelGeom ModelVF ModelParams ModelEngine ModelShapely
  ModelSnapshot ModelViews ModelPlot SpecGeom SpecSnapshot ProofFit ProofIndex ProofSnapshot ProofGroundAt
  PropGeom PropSnapshot PropViews.
Import ListNotations.
Open Scope R_scope.
Open Scope list_scope.

(** Lines drawn with their colors, points marked in a color, texts written. *)
Definition lines_drawn (out : list drawing) : list (line * string) :=
  flat_map (fun d => match d with DrawLine l c => [(l, c)] | _ => [] end) out.
Definition points_drawn (color : string) (out : list drawing) : list pt :=
  flat_map (fun d => match d with DrawPoints ps c => if string_dec c color then ps else [] | _ => [] end) out.
Definition texts_drawn (out : list drawing) : list (pt * option nat) :=
  flat_map (fun d => match d with DrawText q k => [(q, k)] | _ => [] end) out.

(** The points marked are the end points of the lines, once in grey and once in black. *)
Definition ends_marked (out : list drawing) : Prop :=
  (forall q c, In q (points_drawn c out) -> c = "#999999" \/ c = "#000000")%string /\
  forall m q, (m = "#999999" \/ m = "#000000")%string ->
    (In q (points_drawn m out) <-> exists l c, In (l, c) (lines_drawn out) /\ (q = b1 l \/ q = b2 l)).

(** [q] is 20 cm away from the middle of the line, in the direction of [n]. *)
Definition beside (l : line) (n : R * R) (q : pt) : Prop :=
  exists k, 0 < k /\
    px q = (px (b1 l) + px (b2 l)) / 2 + k * fst n /\
    py q = (py (b1 l) + py (b2 l)) / 2 + k * snd n /\
    line_length (Line (Pt ((px (b1 l) + px (b2 l)) / 2) ((py (b1 l) + py (b2 l)) / 2)) q) = 1 / 5.

(** Surfaces of the timeseries that are not points, with the color they should have. *)
Definition colored (idx : nat) (c_shaded c_illum : string) (l : list ts_surface) : list (line * string) :=
  map (fun s => (s_coords s idx, if s_shaded s then c_shaded else c_illum))
    (filter (fun s => if Rle_dec (1 / 100000000) (s_length s idx) then true else false) l).

(* ------------------------------------------------------------------------ proofs *)

Lemma lines_app : forall x y, lines_drawn (x ++ y) = lines_drawn x ++ lines_drawn y.
Proof. intros. apply flat_map_app. Qed.
Lemma points_app : forall c x y, points_drawn c (x ++ y) = points_drawn c x ++ points_drawn c y.
Proof. intros. apply flat_map_app. Qed.
Lemma texts_app : forall x y, texts_drawn (x ++ y) = texts_drawn x ++ texts_drawn y.
Proof. intros. apply flat_map_app. Qed.

Lemma marked_nil : ends_marked [].
Proof. split; [intros q c []|]. intros m q _. cbn. split; [contradiction|]. intros (l & c & [] & _). Qed.
Lemma marked_app : forall x y, ends_marked x -> ends_marked y -> ends_marked (x ++ y).
Proof.
  intros x y [X0 X] [Y0 Y]. split.
  { intros q c. rewrite points_app, in_app_iff. intros [I|I]; eauto. }
  intros m q M. rewrite points_app, lines_app, in_app_iff. rewrite (X m q M), (Y m q M). split.
  - intros [(l & c & I & E)|(l & c & I & E)]; exists l, c; (split; [apply in_or_app; auto|exact E]).
  - intros (l & c & I & E). apply in_app_or in I as [I|I]; [left|right]; exists l, c; auto.
Qed.
Lemma marked_flat : forall (A : Type) (f : A -> list drawing) l, (forall x, In x l -> ends_marked (f x)) -> ends_marked (flat_map f l).
Proof. intros A f l H. induction l; cbn; [apply marked_nil|]. apply marked_app; [apply H; left; reflexivity|apply IHl; intros; apply H; right; assumption]. Qed.

(** The text part of the drawing of a surface. *)
Definition text_part (s : pv_surface) (wi : bool) : list drawing :=
  if wi then
     let (vx, vy) := su_nvec s in
     let norm := sqrt (vx * vx + vy * vy) in
     if Reqb norm 0 then []
     else
       let x := (px (b1 (su_line s)) + px (b2 (su_line s))) / 2 + ALPHA_TEXT * (vx / norm) in
       let y := (py (b1 (su_line s)) + py (b2 (su_line s))) / 2 + ALPHA_TEXT * (vy / norm) in
       if Rltb (Rabs x) (MAX_X_GROUND / 2) then [DrawText (Pt x y) (su_index s)] else []
   else [].
Lemma su_plot_eq : forall s c wi, su_plot s c wi =
  plot_coords (su_line s) ++ plot_bounds (su_line s) ++ plot_line (su_line s) c ++ text_part s wi.
Proof. reflexivity. Qed.
Lemma text_part_texts : forall s wi, lines_drawn (text_part s wi) = [] /\
  forall c, points_drawn c (text_part s wi) = [].
Proof.
  intros s wi. unfold text_part. destruct wi; [|split; intros; reflexivity]. destruct (su_nvec s) as [vx vy].
  destruct (Reqb _ 0); [split; intros; reflexivity|]. cbv zeta. destruct (Rltb _ _); split; intros; reflexivity.
Qed.
Lemma bounds_points : forall l, lines_drawn (plot_bounds l) = [] /\ texts_drawn (plot_bounds l) = [] /\
  (forall c, c <> "#000000"%string -> points_drawn c (plot_bounds l) = []) /\
  (forall q, In q (points_drawn "#000000" (plot_bounds l)) <-> q = b1 l \/ q = b2 l).
Proof.
  intros l. unfold plot_bounds, boundary.
  destruct (_ && _) eqn:E; (split; [reflexivity|]; split; [reflexivity|]); (split;
    [intros c N; cbn -[string_dec]; destruct (string_dec "#000000" c); [congruence|reflexivity]|]).
  - apply andb_true_iff in E as [X Y]. apply Reqb_true in X, Y.
    assert (B : b1 l = b2 l) by (destruct (b1 l), (b2 l); cbn in *; congruence).
    cbn. rewrite <- B. intros q. intuition auto.
  - cbn. intros q. intuition auto.
Qed.

Lemma su_plot_lines : forall s c wi, lines_drawn (su_plot s c wi) = [(su_line s, c)].
Proof.
  intros. rewrite su_plot_eq, !lines_app. destruct (bounds_points (su_line s)) as (-> & _). rewrite (proj1 (text_part_texts s wi)). reflexivity.
Qed.
Lemma su_plot_marked : forall s c wi, ends_marked (su_plot s c wi).
Proof.
  intros s c wi. destruct (bounds_points (su_line s)) as (_ & _ & B0 & B). split.
  - intros q m. rewrite su_plot_eq, !points_app, (proj2 (text_part_texts s wi)).
    destruct (string_dec m "#000000") as [->|N]; [auto|]. rewrite (B0 m N). cbn -[string_dec].
    destruct (string_dec "#999999" m) as [<-|N']; [auto|]. intros [].
  - intros m q M. rewrite su_plot_lines, su_plot_eq, !points_app, (proj2 (text_part_texts s wi)). cbn [plot_line points_drawn flat_map app].
    rewrite !app_nil_r.
    assert (E : In q (points_drawn m (plot_coords (su_line s)) ++ points_drawn m (plot_bounds (su_line s))) <-> q = b1 (su_line s) \/ q = b2 (su_line s)).
    { destruct M as [->| ->].
      - rewrite (B0 "#999999"%string) by discriminate. cbn. intuition auto.
      - cbn [plot_coords points_drawn flat_map app]. exact (B q). }
    change (In q (points_drawn m (plot_coords (su_line s)) ++ points_drawn m (plot_bounds (su_line s))) <->
      exists l c0, In (l, c0) [(su_line s, c)] /\ (q = b1 l \/ q = b2 l)).
    rewrite E. split.
    + intros H. exists (su_line s), c. split; [left; reflexivity|exact H].
    + intros (l & c' & [F|[]] & H). injection F as <- <-. exact H.
Qed.
Lemma su_plot_texts : forall s c wi, texts_drawn (su_plot s c wi) = texts_drawn (text_part s wi).
Proof. intros. rewrite su_plot_eq, !texts_app. destruct (bounds_points (su_line s)) as (_ & -> & _). reflexivity. Qed.

Lemma text_part_spec : forall s q k, fst (su_nvec s) <> 0 \/ snd (su_nvec s) <> 0 ->
  (In (q, k) (texts_drawn (text_part s true)) <->
   k = su_index s /\ beside (su_line s) (su_nvec s) q /\ Rabs (px q) < 50).
Proof.
  intros s q k N. unfold text_part. destruct (su_nvec s) as [vx vy]. cbn [fst snd] in N.
  assert (P : 0 < vx * vx + vy * vy).
  { pose proof (Rle_0_sqr vx). pose proof (Rle_0_sqr vy). unfold Rsqr in *. destruct N as [N|N]; apply Rsqr_pos_lt in N; unfold Rsqr in N; lra. }
  assert (Q : 0 < sqrt (vx * vx + vy * vy)) by (apply sqrt_lt_R0; exact P).
  assert (SS : sqrt (vx * vx + vy * vy) * sqrt (vx * vx + vy * vy) = vx * vx + vy * vy) by (apply sqrt_sqrt; lra).
  set (norm := sqrt (vx * vx + vy * vy)) in *.
  replace (Reqb norm 0) with false by (symmetry; apply Reqb_false; lra). cbv zeta.
  set (mx := (px (b1 (su_line s)) + px (b2 (su_line s))) / 2). set (my := (py (b1 (su_line s)) + py (b2 (su_line s))) / 2).
  unfold ALPHA_TEXT, MAX_X_GROUND.
  assert (B : beside (su_line s) (vx, vy) (Pt (mx + 20 / 100 * (vx / norm)) (my + 20 / 100 * (vy / norm)))).
  { exists (20 / 100 / norm). split; [apply Rdiv_lt_0_compat; lra|]. cbn [px py fst snd]. fold mx my.
    split; [field; lra|]. split; [field; lra|]. unfold line_length. cbn [b1 b2 px py].
    transitivity (sqrt ((1 / 5) * (1 / 5))); [|apply sqrt_square; lra]. f_equal.
    replace (_ + _) with (20 / 100 * (20 / 100) * ((vx * vx + vy * vy) / (norm * norm))) by (field; lra).
    rewrite SS. field. lra. }
  split.
  - intros I. destruct (Rltb _ _) eqn:L; [|destruct I]. apply Rltb_true in L. cbn in I. destruct I as [E|[]].
    injection E as <- <-. split; [reflexivity|]. split; [exact B|]. cbn [px]. lra.
  - intros (-> & B' & L).
    assert (E : q = Pt (mx + 20 / 100 * (vx / norm)) (my + 20 / 100 * (vy / norm))).
    { destruct B' as (j & J & X & Y & D). cbn [fst snd] in X, Y. fold mx my in X, Y, D. destruct q as [qx qy]. cbn [px py] in *. subst qx qy.
      unfold line_length in D. cbn [b1 b2 px py] in D.
      replace (sqrt _) with (j * norm) in D.
      - assert (j = 20 / 100 / norm) by (apply Rmult_eq_reg_r with norm; [rewrite D; field; lra|lra]). subst j. f_equal; field; lra.
      - rewrite <- (sqrt_square (j * norm)) by (apply Rmult_le_pos; lra). f_equal.
        replace (j * norm * (j * norm)) with (j * j * (norm * norm)) by ring. rewrite SS. ring. }
    subst q. cbn [px] in L. replace (Rltb _ _) with true by (symmetry; apply Rltb_true; lra). left. reflexivity.
Qed.

(** Lists of surfaces. *)
Lemma sc_plot_lines : forall c col wi, lines_drawn (sc_plot c col wi) = map (fun s => (su_line s, col)) (sc_surfaces c).
Proof. intros. unfold sc_plot. induction (sc_surfaces c); [reflexivity|]. cbn [flat_map map]. rewrite lines_app, su_plot_lines, IHl. reflexivity. Qed.
Lemma sd_plot_marked : forall sd cs ci wi, ends_marked (sd_plot sd cs ci wi).
Proof.
  intros. apply marked_flat. intros g _. apply marked_app; apply marked_flat; intros; apply su_plot_marked.
Qed.
Lemma sd_plot_no_text : forall sd cs ci, texts_drawn (sd_plot sd cs ci false) = [].
Proof.
  intros. assert (Q : forall l c, texts_drawn (flat_map (fun s => su_plot s c false) l) = []).
  { induction l; intros; [reflexivity|]. cbn [flat_map]. rewrite texts_app, su_plot_texts, IHl. reflexivity. }
  unfold sd_plot. induction sd as [|g l IH]; [reflexivity|]. cbn [flat_map]. rewrite texts_app, IH. unfold sg_plot, sc_plot.
  rewrite texts_app, !Q. reflexivity.
Qed.
Lemma sd_plot_texts : forall sd cs ci wi q, In q (texts_drawn (sd_plot sd cs ci wi)) <->
  exists s, In s (sd_surfaces sd) /\ In q (texts_drawn (text_part s wi)).
Proof.
  intros. assert (Q : forall l c, In q (texts_drawn (flat_map (fun s => su_plot s c wi) l)) <->
      exists s, In s l /\ In q (texts_drawn (text_part s wi))).
  { induction l; intros; [cbn; split; [contradiction|intros (s & [] & _)]|]. cbn [flat_map]. rewrite texts_app, su_plot_texts, in_app_iff, IHl. split.
    - intros [H|(s & I & H)]; [exists a|exists s]; cbn; auto.
    - intros (s & [<-|I] & H); [left; exact H|right; exists s; auto]. }
  unfold sd_plot, sd_surfaces. induction sd as [|g l IH]; [cbn; split; [contradiction|intros (s & [] & _)]|].
  cbn [flat_map]. rewrite texts_app, in_app_iff, IH. unfold sg_plot, sc_plot. rewrite texts_app, in_app_iff, !Q. unfold sg_surfaces. split.
  - intros [[(s & I & H)|(s & I & H)]|(s & I & H)]; exists s; rewrite !in_app_iff; auto.
  - intros (s & I & H). rewrite !in_app_iff in I. destruct I as [[I|I]|I]; [left; right|left; left|right]; eauto.
Qed.

Lemma colored_app : forall idx cs ci l m, colored idx cs ci (l ++ m) = colored idx cs ci l ++ colored idx cs ci m.
Proof. intros. unfold colored. rewrite filter_app, map_app. reflexivity. Qed.
Lemma colored_snap : forall e idx cs ci (b : bool) l, (forall s, In s l -> s_shaded s = b) ->
  map (fun s => (su_line s, if b then cs else ci)) (map (snap e idx) (kept idx l)) = colored idx cs ci l.
Proof.
  intros e idx cs ci b l H. unfold colored, kept. induction l as [|s l IH]; [reflexivity|]. cbn [filter].
  assert (E : negb (Rltb (s_length s idx) tol) = if Rle_dec (1 / 100000000) (s_length s idx) then true else false).
  { destruct (Rle_dec _ _) as [L|L].
    - replace (Rltb _ _) with false by (symmetry; apply Rltb_false; unfold DISTANCE_TOLERANCE; lra). reflexivity.
    - replace (Rltb _ _) with true by (symmetry; apply Rltb_true; unfold DISTANCE_TOLERANCE; lra). reflexivity. }
  rewrite E. destruct (Rle_dec _ _); [|apply IH; intros; apply H; right; assumption]. cbn [map].
  rewrite IH by (intros; apply H; right; assumption). rewrite (H s (or_introl eq_refl)). reflexivity.
Qed.

Lemma seg_plot_lines : forall e idx g cs ci wi,
  (forall s, In s (seg_illum g) -> s_shaded s = false) -> (forall s, In s (seg_shaded g) -> s_shaded s = true) ->
  Permutation (lines_drawn (sg_plot (seg_snap e idx g) cs ci wi)) (colored idx cs ci (seg_surfaces g)).
Proof.
  intros e idx g cs ci wi HI HS. unfold sg_plot. rewrite lines_app, !sc_plot_lines. unfold seg_snap. cbn [sg_shaded sg_illum sc_surfaces].
  unfold seg_surfaces. rewrite colored_app, <- (colored_snap e idx cs ci false _ HI), <- (colored_snap e idx cs ci true _ HS). apply Permutation_app_comm.
Qed.
Lemma side_plot_lines : forall e idx sd cs ci wi, row_side sd ->
  Permutation (lines_drawn (sd_plot (map (seg_snap e idx) (side_segments sd)) cs ci wi)) (colored idx cs ci (side_surfaces sd)).
Proof.
  intros e idx sd cs ci wi H. unfold row_side in H. unfold side_surfaces, sd_plot. induction (side_segments sd) as [|g l IH]; [constructor|].
  cbn [map flat_map]. rewrite lines_app, colored_app. apply Permutation_app.
  - destruct (H g (or_introl eq_refl)) as (H1 & H2 & _). apply seg_plot_lines; assumption.
  - apply IH. intros; apply H; right; assumption.
Qed.

(* ------------------------------------------------------------------- C68 *)

(** One timeseries surface: drawn when it is not a point. *)
Theorem C68_surface : forall e s idx c, exists out, surface_plot_at e s idx c = Ok out /\
  texts_drawn out = [] /\ ends_marked out /\
  (1 / 100000000 < s_length s idx -> lines_drawn out = [(s_coords s idx, c)]) /\
  (s_length s idx <= 1 / 100000000 -> lines_drawn out = []).
Proof.
  intros e s idx c. unfold surface_plot_at. destruct (Rltb tol (s_length s idx)) eqn:E.
  - apply Rltb_true in E. unfold DISTANCE_TOLERANCE in E. rewrite surface_at_eq.
    replace (Rltb (s_length s idx) tol) with false by (symmetry; apply Rltb_false; unfold DISTANCE_TOLERANCE; lra). cbn [bind].
    eexists. split; [reflexivity|]. split; [rewrite su_plot_texts; reflexivity|]. split; [apply su_plot_marked|].
    rewrite su_plot_lines. split; [reflexivity|lra].
  - apply Rltb_false in E. unfold DISTANCE_TOLERANCE in E. exists []. split; [reflexivity|]. split; [reflexivity|].
    split; [apply marked_nil|]. split; [lra|reflexivity].
Qed.

(** Segments and sides of the rows of a fitted array: each surface that is not a point is
    drawn once, in the color of its shading. *)
Theorem C68_sides : forall p n f a row idx e cs ci, fit p n f = Some a -> In row (ft_rows a) ->
  forall sd, sd = row_front row \/ sd = row_back row ->
  (exists out, side_plot_at e sd idx cs ci = Ok out /\ texts_drawn out = [] /\ ends_marked out /\
     Permutation (lines_drawn out) (colored idx cs ci (side_surfaces sd))) /\
  (forall g, In g (side_segments sd) ->
     exists out, segment_plot_at e g idx cs ci = Ok out /\ texts_drawn out = [] /\ ends_marked out /\
       Permutation (lines_drawn out) (colored idx cs ci (seg_surfaces g))).
Proof.
  intros p n f a row idx e cs ci F I sd S. destruct (fitted_row p n f a row F I) as [RF RB].
  assert (R : row_side sd) by (destruct S as [->| ->]; assumption). split.
  - unfold side_plot_at. rewrite (side_at_eq e _ idx R). cbn [bind]. eexists. split; [reflexivity|].
    split; [apply sd_plot_no_text|]. split; [apply sd_plot_marked|]. apply side_plot_lines. exact R.
  - intros g G. unfold segment_plot_at. rewrite (segment_at_eq e _ idx g R G). cbn [bind]. eexists. split; [reflexivity|].
    assert (E : forall wi, sg_plot (seg_snap e idx g) cs ci wi = sd_plot [seg_snap e idx g] cs ci wi).
    { intros. unfold sd_plot. cbn [flat_map]. rewrite app_nil_r. reflexivity. }
    rewrite E. split; [apply sd_plot_no_text|]. split; [apply sd_plot_marked|]. rewrite <- E.
    destruct (R g G) as (H1 & H2 & _). apply seg_plot_lines; assumption.
Qed.

Lemma rows_plot_eq : forall p n f a e idx wi, fit p n f = Some a -> forall rows, (forall r, In r rows -> In r (ft_rows a)) ->
  rows_plot_at e rows idx wi =
  Ok (flat_map (fun r => rw_plot (PVRow (map (seg_snap e idx) (side_segments (row_front r))) (map (seg_snap e idx) (side_segments (row_back r))) (row_coords r idx))
                 COLOR_PVROW_SHADED COLOR_PVROW_ILLUM wi) rows).
Proof.
  intros p n f a e idx wi F rows. induction rows as [|r rows IH]; intros H; [reflexivity|]. cbn [rows_plot_at flat_map].
  destruct (fitted_row p n f a r F (H r (or_introl eq_refl))) as [RF RB]. unfold row_plot_at, pvrow_at.
  rewrite (side_at_eq e _ idx RF), (side_at_eq e _ idx RB). cbn [bind]. rewrite IH by (intros; apply H; right; assumption). reflexivity.
Qed.

Lemma rows_plot_lines : forall p n f a e idx wi cs ci, fit p n f = Some a -> forall rows, (forall r, In r rows -> In r (ft_rows a)) ->
  Permutation (lines_drawn (flat_map (fun r => rw_plot (PVRow (map (seg_snap e idx) (side_segments (row_front r))) (map (seg_snap e idx) (side_segments (row_back r))) (row_coords r idx))
                 cs ci wi) rows))
    (colored idx cs ci (flat_map row_surfaces rows)).
Proof.
  intros p n f a e idx wi cs ci F rows. induction rows as [|r rows IH]; intros H; [constructor|]. cbn [flat_map].
  destruct (fitted_row p n f a r F (H r (or_introl eq_refl))) as [RF RB]. rewrite lines_app, colored_app. apply Permutation_app.
  - unfold rw_plot. cbn [rw_front rw_back]. unfold row_surfaces. rewrite lines_app, colored_app. apply Permutation_app; apply side_plot_lines; assumption.
  - apply IH. intros; apply H; right; assumption.
Qed.

(** One row, in the colors given. *)
Theorem C68_row : forall p n f a row idx e cs ci wi, fit p n f = Some a -> In row (ft_rows a) ->
  exists out, row_plot_at e row idx cs ci wi = Ok out /\ ends_marked out /\
    Permutation (lines_drawn out) (colored idx cs ci (row_surfaces row)) /\
    (wi = false -> texts_drawn out = []).
Proof.
  intros p n f a row idx e cs ci wi F I. destruct (fitted_row p n f a row F I) as [RF RB]. unfold row_plot_at, pvrow_at.
  rewrite (side_at_eq e _ idx RF), (side_at_eq e _ idx RB). cbn [bind]. eexists. split; [reflexivity|]. unfold rw_plot. cbn [rw_front rw_back].
  split; [apply marked_app; apply sd_plot_marked|]. split.
  - unfold row_surfaces. rewrite lines_app, colored_app. apply Permutation_app; apply side_plot_lines; assumption.
  - intros ->. rewrite texts_app, !sd_plot_no_text. reflexivity.
Qed.

Lemma row_nvec_nonzero : forall p n f a row idx s, valid_params p -> fit p n f = Some a -> In row (ft_rows a) -> In s (row_surfaces row) ->
  fst (s_nvec s idx) <> 0 \/ snd (s_nvec s idx) <> 0.
Proof.
  intros p n f a row idx s V F I J. destruct (fit_spec _ _ _ _ F) as (_ & _ & _ & RW & _). rewrite RW, fit_rows_eq in I.
  apply in_map_iff in I as (i & <- & _).
  assert (Q : forall b xc yc w rot cut sl nv x, In x (side_surfaces (side_from_raw_inputs i b xc yc w rot cut sl nv)) -> s_nvec x = nv).
  { intros b xc yc w rot cut sl nv x X. unfold side_surfaces in X. apply in_flat_map in X as (g & G & X).
    pose proof (raw_side_ok i b xc yc w rot cut sl nv g G) as (_ & _ & N). exact (proj1 (N x X)). }
  set (L := row_coords (fit_row p (fit_alpha p f) (fit_rotation p f) i) idx).
  assert (W : px (b2 L) - px (b1 L) <> 0 \/ py (b2 L) - py (b1 L) <> 0).
  { unfold L. rewrite fit_row_coords. unfold row_point. cbn [b1 b2 px py]. destruct V as (V & _).
    set (w := pa_width p) in *. set (th := fit_rotation p f idx * PI / 180). pose proof (sin2_cos2 th) as SC. unfold Rsqr in SC.
    destruct (Req_dec (cos th) 0) as [C|C]; [right|left].
    - intros E. assert (Z : w * sin th = 0) by (rewrite C in *; lra). apply Rmult_integral in Z as [Z|Z]; [lra|]. rewrite C, Z in SC. lra.
    - intros E. assert (Z : w * cos th = 0) by lra. apply Rmult_integral in Z as [Z|Z]; [lra|contradiction]. }
  unfold row_surfaces in J. apply in_app_or in J as [J|J]; unfold fit_row, pvrow_from_raw_inputs in J; cbn [row_front row_back] in J;
    apply Q in J; rewrite J; unfold normal_vec_front; cbn [fst snd];
    change (full_coords (fst (row_center p i)) (snd (row_center p i)) (pa_width p) (fit_rotation p f idx)) with L; lra.
Qed.

(** The texts: the indices of the surfaces drawn, 20 cm from their middle on the side their
    normal vector points to, less those at 50 m or more from the origin. *)
Theorem C68_labels : forall p n f a row idx names st cs ci q k, valid_params p -> fit p n f = Some a -> In row (ft_rows a) ->
  exists out, row_plot_at (fitted_env names st a) row idx cs ci true = Ok out /\
    (In (q, k) (texts_drawn out) <->
     exists s, In s (row_surfaces row) /\ 1 / 100000000 <= s_length s idx /\ k = Some (surf_index a s) /\
       beside (s_coords s idx) (s_nvec s idx) q /\ Rabs (px q) < 50).
Proof.
  intros p n f a row idx names st cs ci q k V F I. destruct (fitted_row p n f a row F I) as [RF RB]. unfold row_plot_at, pvrow_at.
  set (e := fitted_env names st a).
  rewrite (side_at_eq e _ idx RF), (side_at_eq e _ idx RB). cbn [bind]. eexists. split; [reflexivity|]. unfold rw_plot. cbn [rw_front rw_back].
  rewrite texts_app, in_app_iff, !sd_plot_texts.
  assert (G : forall sd, row_side sd -> (forall s, In s (side_surfaces sd) -> In s (row_surfaces row)) ->
    ((exists s, In s (sd_surfaces (map (seg_snap e idx) (side_segments sd))) /\ In (q, k) (texts_drawn (text_part s true))) <->
     exists s, In s (side_surfaces sd) /\ 1 / 100000000 <= s_length s idx /\ k = Some (surf_index a s) /\
       beside (s_coords s idx) (s_nvec s idx) q /\ Rabs (px q) < 50)).
  { intros sd R S.
    assert (X : forall x, In x (sd_surfaces (map (seg_snap e idx) (side_segments sd))) <->
       exists s, In s (side_surfaces sd) /\ tol <= s_length s idx /\ x = snap e idx s).
    { intros x. unfold sd_surfaces, side_surfaces. rewrite !in_flat_map. split.
      - intros (g & G & X). apply in_map_iff in G as (g0 & <- & G). unfold sg_surfaces, seg_snap in X. cbn [sg_illum sg_shaded sc_surfaces] in X.
        apply in_app_or in X as [X|X]; apply snap_in_kept in X as (s & X1 & X2 & X3); exists s;
          (split; [apply in_flat_map; exists g0; split; [exact G|unfold seg_surfaces; apply in_or_app; auto]|auto]).
      - intros (s & H & L & ->). apply in_flat_map in H as (g & G & H). exists (seg_snap e idx g). split; [apply in_map; exact G|].
        unfold sg_surfaces, seg_snap. cbn [sg_illum sg_shaded sc_surfaces]. unfold seg_surfaces in H. apply in_or_app.
        apply in_app_or in H as [H|H]; [left|right]; apply in_map; apply kept_in; auto. }
    assert (NV : forall s, In s (side_surfaces sd) -> su_nvec (snap e idx s) = s_nvec s idx).
    { intros s H. unfold side_surfaces in H. apply in_flat_map in H as (g & G & H). destruct (R g G) as (_ & _ & N).
      destruct (N s H) as (_ & r & b & j & sh & E). unfold snap, nvec_at. cbn [su_nvec]. rewrite E. reflexivity. }
    split.
    - intros (x & H & T). apply X in H as (s & H & L & ->). exists s.
      apply text_part_spec in T; [|rewrite (NV s H); exact (row_nvec_nonzero p n f a row idx s V F I (S s H))].
      rewrite (NV s H) in T. unfold DISTANCE_TOLERANCE in L. destruct T as (T1 & T2 & T3). split; [exact H|]. split; [lra|]. auto.
    - intros (s & H & L & K & B & A). exists (snap e idx s). split; [apply X; exists s; unfold DISTANCE_TOLERANCE; repeat split; [exact H|lra]|].
      apply text_part_spec; [rewrite (NV s H); exact (row_nvec_nonzero p n f a row idx s V F I (S s H))|]. rewrite (NV s H). auto. }
  rewrite (G _ RF), (G _ RB) by (intros s H; unfold row_surfaces; apply in_or_app; auto). unfold row_surfaces. split.
  - intros [(s & H & T)|(s & H & T)]; exists s; (split; [apply in_or_app; auto|exact T]).
  - intros (s & H & T). apply in_app_or in H as [H|H]; [left|right]; exists s; auto.
Qed.

(** The whole array: the ground first, its shadows in one color and the rest in another,
    then the rows; the limits of the axes leave half a spacing on each side. *)
Theorem C68_array : forall p n f a idx e merge cutp xm wi, fit p n f = Some a -> regular p f a idx ->
  exists out xlim ylim sh il rows, array_plot_at e p a idx merge cutp xm wi = Ok (out, xlim, ylim) /\
    lines_drawn out = map (fun o => (su_line o, "#A7A49D"%string)) sh ++ map (fun o => (su_line o, "#FFBB33"%string)) il ++ rows /\
    stands_for 0 true idx (gnd_shadows (ft_ground a)) sh /\
    stands_for 0 false idx (gnd_illum (ft_ground a)) il /\
    Permutation rows (colored idx "#ff0000" "#6699cc" (flat_map row_surfaces (ft_rows a))) /\
    ends_marked out /\ (wi = false -> texts_drawn out = []) /\
    xlim = (- (pa_distance p / 2), INR (pa_n_pvrows p - 1) * pa_distance p + pa_distance p / 2) /\
    ylim = (- pa_height p, pa_height p + pa_height p).
Proof.
  intros p n f a idx e merge cutp xm wi F R. destruct (C58_ground p n f a idx e xm merge cutp F R) as (seg & E & S1 & S2 & _).
  unfold array_plot_at, ground_plot_at. rewrite E. cbn [bind]. rewrite (rows_plot_eq p n f a e idx wi F (ft_rows a)) by auto. cbn [bind].
  eexists _, _, _, _, _, _. split; [reflexivity|]. split.
  { rewrite lines_app. unfold sd_plot at 1. cbn [flat_map]. rewrite app_nil_r. unfold sg_plot. rewrite lines_app, !sc_plot_lines.
    unfold COLOR_GROUND_SHADED, COLOR_GROUND_ILLUM. rewrite <- app_assoc. reflexivity. }
  split; [exact S1|]. split; [exact S2|]. split; [exact (rows_plot_lines p n f a e idx wi _ _ F (ft_rows a) (fun r H => H))|].
  split; [apply marked_app; [apply sd_plot_marked|apply marked_flat; intros; apply marked_app; apply sd_plot_marked]|].
  split.
  { intros ->. rewrite texts_app, sd_plot_no_text. cbn [app]. induction (ft_rows a) as [|r l IH]; [reflexivity|]. cbn [flat_map].
    rewrite texts_app, IH. unfold rw_plot. rewrite texts_app, !sd_plot_no_text. reflexivity. }
  destruct R as (V & _). destruct V as (_ & _ & N & _). rewrite minus_INR by lia. cbn [INR]. split; f_equal; lra.
Qed.

(** The text of a ground surface is written 20 cm above its middle. *)
Lemma flat_text : forall o q k, flat_at 0 o ->
  (In (q, k) (texts_drawn (text_part o true)) <->
   k = su_index o /\ q = Pt ((px (b1 (su_line o)) + px (b2 (su_line o))) / 2) (1 / 5) /\ Rabs (px q) < 50).
Proof.
  intros o q k (Y1 & Y2 & N1 & L & N2). rewrite text_part_spec by (right; lra).
  enough (E : beside (su_line o) (su_nvec o) q <-> q = Pt ((px (b1 (su_line o)) + px (b2 (su_line o))) / 2) (1 / 5)) by tauto.
  unfold beside, line_length, distance. cbn [b1 b2 px py]. rewrite N1, N2, Y1, Y2. split.
  - intros (c & C & E1 & E2 & E3). destruct q as [x y]. cbn [px py] in *. assert (P : 0 < y) by (rewrite E2; pose proof (Rmult_lt_0_compat c (px (b2 (su_line o)) - px (b1 (su_line o))) C ltac:(lra)); lra).
    assert (X : x = (px (b1 (su_line o)) + px (b2 (su_line o))) / 2) by lra. f_equal; [exact X|].
    rewrite <- E3. rewrite X. symmetry. match goal with |- sqrt ?z = _ => replace z with (y ^ 2) by (field) end. apply sqrt_pow2. lra.
  - intros ->. exists (1 / 5 / (px (b2 (su_line o)) - px (b1 (su_line o)))). cbn [px py]. split; [apply Rdiv_lt_0_compat; lra|].
    split; [lra|]. split; [field; lra|]. match goal with |- sqrt ?z = _ => replace z with ((1 / 5) ^ 2) by field end. apply sqrt_pow2. lra.
Qed.

(** The texts of the whole plot: the indices of the ground surfaces, which are not known
    without the cut points, and those of the row surfaces. *)
Theorem C68_array_labels : forall p n f a idx names st merge cutp xm, fit p n f = Some a -> regular p f a idx ->
  let e := fitted_env names st a in
  exists out xlim ylim seg orig, array_plot_at e p a idx merge cutp xm true = Ok (out, xlim, ylim) /\
    ground_at e (ft_ground a) idx xm merge cutp = Ok ([seg], orig) /\
    (forall q k, In (q, k) (texts_drawn out) <->
       Rabs (px q) < 50 /\
       ((exists o, (In o (sc_surfaces (sg_shaded seg)) \/ In o (sc_surfaces (sg_illum seg))) /\ k = su_index o /\
           q = Pt ((px (b1 (su_line o)) + px (b2 (su_line o))) / 2) (1 / 5)) \/
        (exists row s, In row (ft_rows a) /\ In s (row_surfaces row) /\ 1 / 100000000 <= s_length s idx /\
           k = Some (surf_index a s) /\ beside (s_coords s idx) (s_nvec s idx) q))) /\
    (cutp = false -> forall o, In o (sc_surfaces (sg_shaded seg)) \/ In o (sc_surfaces (sg_illum seg)) -> su_index o = None) /\
    (cutp = true -> forall o, In o (sc_surfaces (sg_illum seg)) ->
       exists s, In s (flat_map el_surfaces (gnd_illum (ft_ground a))) /\ su_line o = s_coords s idx /\ su_index o = Some (surf_index a s)).
Proof.
  intros p n f a idx names st merge cutp xm F R e.
  destruct (C58_ground p n f a idx e xm merge cutp F R) as (seg & E & S1 & S2 & _).
  destruct (C58_modes p n f a idx e xm merge cutp F R) as (seg' & orig & E' & M1 & M2 & _ & M4 & _ & M6).
  rewrite E in E'. injection E' as <- <-.
  unfold array_plot_at, ground_plot_at. rewrite E. cbn [bind]. rewrite (rows_plot_eq p n f a e idx true F (ft_rows a)) by auto. cbn [bind].
  do 5 eexists. split; [reflexivity|]. split; [reflexivity|]. split; [|split].
  - intros q k. rewrite texts_app, in_app_iff, sd_plot_texts.
    assert (G : (exists s, In s (sd_surfaces [seg]) /\ In (q, k) (texts_drawn (text_part s true))) <->
      (exists o, (In o (sc_surfaces (sg_shaded seg)) \/ In o (sc_surfaces (sg_illum seg))) /\ k = su_index o /\
           q = Pt ((px (b1 (su_line o)) + px (b2 (su_line o))) / 2) (1 / 5) /\ Rabs (px q) < 50)).
    { assert (J : forall o, In o (sd_surfaces [seg]) <-> (In o (sc_surfaces (sg_shaded seg)) \/ In o (sc_surfaces (sg_illum seg)))).
      { intros o. unfold sd_surfaces, sg_surfaces. cbn [flat_map]. rewrite app_nil_r, in_app_iff. tauto. }
      assert (FL : forall o, (In o (sc_surfaces (sg_shaded seg)) \/ In o (sc_surfaces (sg_illum seg))) -> flat_at 0 o).
      { intros o [I|I]; [apply (proj1 S1 o I)|apply (proj1 S2 o I)]. }
      split; intros (o & I & T); exists o.
      - apply J in I. split; [exact I|]. apply (flat_text o q k (FL o I)) in T. exact T.
      - split; [apply J; exact I|]. apply (flat_text o q k (FL o I)). exact T. }
    rewrite G. clear G.
    assert (T : In (q, k) (texts_drawn (flat_map (fun r => rw_plot (PVRow (map (seg_snap e idx) (side_segments (row_front r)))
         (map (seg_snap e idx) (side_segments (row_back r))) (row_coords r idx)) COLOR_PVROW_SHADED COLOR_PVROW_ILLUM true) (ft_rows a))) <->
       exists row s, In row (ft_rows a) /\ In s (row_surfaces row) /\ 1 / 100000000 <= s_length s idx /\
           k = Some (surf_index a s) /\ beside (s_coords s idx) (s_nvec s idx) q /\ Rabs (px q) < 50).
    { transitivity (exists row, In row (ft_rows a) /\ exists out, row_plot_at e row idx COLOR_PVROW_SHADED COLOR_PVROW_ILLUM true = Ok out /\ In (q, k) (texts_drawn out)).
      - unfold texts_drawn at 1. split.
        + intros T. apply in_flat_map in T as (d & D & T). apply in_flat_map in D as (row & I & D). exists row. split; [exact I|]. destruct (fitted_row p n f a row F I) as [RF RB].
          unfold row_plot_at, pvrow_at. rewrite (side_at_eq e _ idx RF), (side_at_eq e _ idx RB). cbn [bind]. eexists. split; [reflexivity|].
          unfold texts_drawn. apply in_flat_map. exists d. split; [exact D|exact T].
        + intros (row & I & out & E0 & T). destruct (fitted_row p n f a row F I) as [RF RB].
          unfold row_plot_at, pvrow_at in E0. rewrite (side_at_eq e _ idx RF), (side_at_eq e _ idx RB) in E0. cbn [bind] in E0. injection E0 as <-.
          unfold texts_drawn in T. apply in_flat_map in T as (d & D & T). apply in_flat_map. exists d. split; [apply in_flat_map; exists row; split; [exact I|exact D]|exact T].
      - split.
        + intros (row & I & out & E0 & T). exists row.
          destruct (C68_labels p n f a row idx names st COLOR_PVROW_SHADED COLOR_PVROW_ILLUM q k (proj1 R) F I) as (out' & E1 & W).
          fold e in E1. rewrite E0 in E1. injection E1 as <-. apply W in T as (s & T). exists s. tauto.
        + intros (row & s & I & T). exists row. split; [exact I|].
          destruct (C68_labels p n f a row idx names st COLOR_PVROW_SHADED COLOR_PVROW_ILLUM q k (proj1 R) F I) as (out' & E1 & W).
          exists out'. split; [exact E1|]. apply W. exists s. exact T. }
    rewrite T. split.
    + intros [(o & I & K & Q & B)|(row & s & I & J & L & K & Q & B)]; (split; [exact B|]); [left; exists o; auto|right; exists row, s; auto].
    + intros (B & [(o & I & K & Q)|(row & s & I & J & L & K & Q)]); [left; exists o; auto|right; exists row, s; auto 10].
  - intros C o I.
    assert (W : forall b l xs, Forall2 (fun el o => su_line o = el_coords el idx /\ su_index o = None /\ su_names o = sn_names e /\
                               su_params o = params_at (ps_ground (sn_store e) b) idx) l xs -> In o xs -> su_index o = None).
    { intros b l xs H. induction H as [|x y l xs Hx H IH]; [intros []|]. intros [<-|J]; [apply Hx|auto]. }
    destruct I as [I|I]; [|exact (W _ _ _ (M2 C) I)].
    destruct (_ && _) in M4, M6; [|exact (W _ _ _ (M4 C eq_refl) I)].
    destruct (M6 C eq_refl) as (o' & EO & N & _). rewrite EO in I. destruct I as [<-|[]]. exact N.
  - intros C o I. specialize (M1 C). unfold lasting in M1.
    assert (W : forall l xs, Forall2 (same_at e idx) l xs -> In o xs -> exists s, In s l /\ same_at e idx s o).
    { intros l xs H. induction H as [|x y l xs Hx H IH]; [intros []|]. intros [<-|J]; [exists x; cbn; auto|destruct (IH J) as (s & ? & ?); exists s; cbn; auto]. }
    destruct (W _ _ M1 I) as (s & J & A). apply filter_In in J as [J _]. exists s. split; [exact J|]. destruct A as (A1 & _ & A3 & _).
    split; [exact A1|]. rewrite A3. reflexivity.
Qed.

(** The array of [PropGeom] at its timestep 1. *)
Example C68_case : exists a out xlim ylim, fit ex_p 2 ex_f = Some a /\ regular ex_p ex_f a 1 /\
  array_plot_at (fitted_env [] (fresh_store []) a) ex_p a 1 true true None true = Ok (out, xlim, ylim) /\
  xlim = (- (3 / 2), 15 / 2) /\ ylim = (-3, 6).
Proof.
  destruct ex_regular as (a & F & R & _). exists a.
  destruct (C68_array ex_p 2 ex_f a 1 (fitted_env [] (fresh_store []) a) true true None true F R)
    as (out & xl & yl & _ & _ & _ & E & _ & _ & _ & _ & _ & _ & X & Y).
  exists out, xl, yl. split; [exact F|]. split; [exact R|]. split; [exact E|]. rewrite X, Y, ex_distance. cbn. split; f_equal; lra.
Qed.

Print Assumptions C68_surface.
Print Assumptions C68_sides.
Print Assumptions C68_row.
Print Assumptions C68_labels.
Print Assumptions C68_array.
Print Assumptions C68_array_labels.
