(** C05-C08: the canvas never draws outside its clip, clips nest as
    intersections, and flushing makes the terminal show the frame. *)
From Coq Require Import ZArith List Bool Arith Lia ZifyBool ZifyNat.
From Verif Require Import Canvas_Model Canvas_Spec Canvas_Proofs Flush_Proofs Frames_Proofs.
Import ListNotations.
Open Scope Z_scope.

Section Statements.
Context {Sym Color Bg : Type}.
Variable gw : Sym -> nat.
Variable space : Sym.
Variable sym_eqb : Sym -> Sym -> bool.
Variable color_eqb : Color -> Color -> bool.
Variable reset : Color.
Variable translucent : option Bg -> bool.
Variable resolve_bg : option Bg -> option Color -> option Color.

Notation cell := (@cell Sym Color).
Notation canvas := (@canvas Sym Color).
Notation term := (@term Sym Color).
Notation do_draw := (@do_draw Sym Color Bg gw space sym_eqb translucent resolve_bg).
Notation run := (@run Sym Color Bg gw space sym_eqb color_eqb reset translucent resolve_bg).
Notation run_events := (@run_events Sym Color Bg gw space sym_eqb color_eqb reset translucent resolve_bg).
Notation flushes_wf := (@flushes_wf Sym Color Bg gw space sym_eqb color_eqb reset translucent resolve_bg).

(** C05. After any history, any drawing request succeeds and leaves every cell
    outside any of the open clips as it was; nothing off the screen exists. *)
Theorem C05_draw_only_inside_clips : forall w h c0 ops c d,
  is_u16 w -> is_u16 h -> canvas_new space w h = Some c0 -> Forall op_i32 ops ->
  run c0 ops = Some c ->
  exists c', do_draw c d = Some c' /\
    length (cv_cells c') = (w * h)%nat /\
    cv_clips c' = cv_clips c /\ cv_prev c' = cv_prev c /\
    forall x y, on_screen w h x y ->
      (exists r, In r (open_clips ops) /\ contains_point r x y = false) ->
      cell_xy w (cv_cells c') x y = cell_xy w (cv_cells c) x y.
Proof. apply draw_safe. Qed.

(** C05. A history never panics once the canvas exists. *)
Theorem C05_history_runs : forall w h c0 ops,
  canvas_new space w h = Some c0 -> Forall op_i32 ops -> exists c, run c0 ops = Some c.
Proof.
  intros w h c0 ops E HF.
  destruct (run_good gw space sym_eqb color_eqb reset translucent resolve_bg w h ops [] c0 (new_good space w h c0 E) HF)
    as (c & Ec & _). eauto.
Qed.

(** C05, positive half: each glyph of a string that fits the screen and the open
    clips ends up in its cell with the requested colours and attributes. *)
Theorem C05_string_is_drawn : forall w h c0 ops c x y s1 g s2 fg bg at_,
  is_u16 w -> is_u16 h -> canvas_new space w h = Some c0 -> Forall op_i32 ops ->
  run c0 ops = Some c -> translucent bg = false -> (1 <= gw g)%nat ->
  let px := x + Z.of_nat (fold_right (fun s n => (gw s + n)%nat) 0%nat s1) in
  (forall k, 0 <= k < Z.of_nat (gw g) -> on_screen w h (px + k) y /\
     Forall (fun r => contains_point r (px + k) y = true) (open_clips ops)) ->
  exists c', put_str gw space sym_eqb translucent resolve_bg c x y (s1 ++ g :: s2) fg bg at_ = Some c' /\
    (exists b, cell_xy w (cv_cells c') px y = Some (Cell g (gw g) false fg b at_)) /\
    forall k, 1 <= k < Z.of_nat (gw g) ->
      exists b, cell_xy w (cv_cells c') (px + k) y = Some (Cell space 0 true fg b at_).
Proof. apply put_str_draws. Qed.

(** C06. The drawable region after any history is exactly the screen intersected
    with all regions pushed and not yet popped. *)
Theorem C06_clip_is_intersection : forall w h c0 ops c x y,
  is_u16 w -> is_u16 h -> canvas_new space w h = Some c0 -> Forall op_i32 ops ->
  run c0 ops = Some c -> is_i32 x -> is_i32 y ->
  (contains_point (current_clip c) x y = true <->
   on_screen w h x y /\ Forall (fun r => contains_point r x y = true) (open_clips ops)).
Proof. apply clip_exact. Qed.

(** C06. Popping restores what was there before the push. *)
Theorem C06_pop_restores : forall (c : canvas) r, pop_clip (push_clip c r) = c.
Proof. exact pop_push. Qed.

(** C07. If the terminal shows the previous frame, then after the commands of
    flush it shows the current frame, wherever its cursor was. *)
Theorem C07_diff_flush_shows_frame : forall w h cells prev (t : term),
  (forall a b, sym_eqb a b = true <-> a = b) -> (forall a b, color_eqb a b = true <-> a = b) ->
  wf_frame gw w h cells -> wf_frame gw w h prev -> shows reset w h t prev ->
  shows reset w h (exec_all gw reset w h t (flush_diff sym_eqb color_eqb reset w cells prev)) cells.
Proof. intros w h cells prev t H1 H2. exact (diff_shows gw space sym_eqb color_eqb reset H1 H2 w h cells prev t). Qed.

(** C07. The full repaint does so from any terminal state. *)
Theorem C07_full_flush_shows_frame : forall w h cells (t : term),
  (forall a b, sym_eqb a b = true <-> a = b) -> (forall a b, color_eqb a b = true <-> a = b) ->
  wf_frame gw w h cells ->
  shows reset w h (exec_all gw reset w h t (flush_full color_eqb reset w cells)) cells.
Proof. intros w h cells t H1 H2. exact (full_shows gw space sym_eqb color_eqb reset H1 H2 w h cells t). Qed.

(** C07. So the incremental flush and a full repaint give the same screen. *)
Theorem C07_diff_equals_full : forall w h cells prev (t t' : term) x y,
  (forall a b, sym_eqb a b = true <-> a = b) -> (forall a b, color_eqb a b = true <-> a = b) ->
  wf_frame gw w h cells -> wf_frame gw w h prev -> shows reset w h t prev ->
  (x < w)%nat -> (y < h)%nat ->
  t_scr (exec_all gw reset w h t (flush_diff sym_eqb color_eqb reset w cells prev)) y x =
  t_scr (exec_all gw reset w h t' (flush_full color_eqb reset w cells)) y x.
Proof.
  intros w h cells prev t t' x y H1 H2 W1 W2 S Hx Hy.
  destruct (nth_error cells (y * w + x)) as [c|] eqn:E.
  - rewrite (C07_diff_flush_shows_frame w h cells prev t H1 H2 W1 W2 S x y c Hx Hy E).
    now rewrite (C07_full_flush_shows_frame w h cells t' H1 H2 W1 x y c Hx Hy E).
  - apply nth_error_None in E. destruct W1 as [L _]. nia.
Qed.

(** C08. Any history of drawing, clipping, clearing, invalidating, flushing and
    foreign writes to the terminal (each repaired by an invalidate before the
    next flush), ending with a flush: the terminal shows the frame that was
    flushed, provided the flushed frames are well formed. *)
Theorem C08_history_shows_last_frame : forall w h c0 t0 l,
  (forall a b, sym_eqb a b = true <-> a = b) -> (forall a b, color_eqb a b = true <-> a = b) ->
  canvas_new space w h = Some c0 -> Forall event_i32 l ->
  flushes_wf w h (c0, t0) (l ++ [EOp OFlush]) -> invalidated true false (l ++ [EOp OFlush]) ->
  exists c t c' t', run_events w h (c0, t0) l = Some (c, t) /\
    run_events w h (c0, t0) (l ++ [EOp OFlush]) = Some (c', t') /\
    shows reset w h t' (cv_cells c).
Proof.
  intros w h c0 t0 l H1 H2.
  exact (hist_shown gw space sym_eqb color_eqb reset translucent resolve_bg H1 H2 w h c0 t0 l).
Qed.

(** C08. If only glyphs of width one are drawn, every frame is well formed. *)
Theorem C08_narrow_history_shows_last_frame : forall w h c0 t0 l,
  (forall a b, sym_eqb a b = true <-> a = b) -> (forall a b, color_eqb a b = true <-> a = b) ->
  canvas_new space w h = Some c0 -> gw space = 1%nat ->
  Forall event_i32 l -> Forall (event_narrow gw) l -> invalidated true false (l ++ [EOp OFlush]) ->
  exists c t c' t', run_events w h (c0, t0) l = Some (c, t) /\
    run_events w h (c0, t0) (l ++ [EOp OFlush]) = Some (c', t') /\
    shows reset w h t' (cv_cells c).
Proof.
  intros w h c0 t0 l H1 H2 E0 Hsp Hi Hn Hv. apply C08_history_shows_last_frame; auto.
  apply narrow_flushes_wf; auto; apply Forall_app; (split; [assumption|constructor; [exact I|constructor]]).
Qed.

(** C08. Wide glyphs: drawing a glyph between glyph boundaries keeps a frame
    well formed. *)
Theorem C08_aligned_glyph_keeps_wf : forall (c c' : canvas) x y g fg bg a,
  wf_frame gw (cv_w c) (cv_h c) (cv_cells c) -> (1 <= gw g)%nat ->
  starts (cv_w c) (cv_cells c) x y ->
  (x + Z.of_nat (gw g) < Z.of_nat (cv_w c) -> starts (cv_w c) (cv_cells c) (x + Z.of_nat (gw g)) y) ->
  put_char gw space sym_eqb translucent resolve_bg c x y g fg bg a = Some c' ->
  wf_frame gw (cv_w c') (cv_h c') (cv_cells c').
Proof.
  intros c c' x y g fg bg a Hwf Hg H1 H2 E. unfold put_char in E.
  destruct (put_grapheme_wf gw space sym_eqb color_eqb reset translucent resolve_bg c x y g fg bg a (current_clip c) Hwf Hg H1 H2)
    as (l' & E' & W & _).
  rewrite E in E'. injection E' as ->. exact W.
Qed.

(** C08. Strips (of clusters of any positive width) painted on rows without
    wide glyphs to the right of the left edge - a cleared canvas, say - give a
    well-formed frame. *)
Theorem C08_strips_keep_wf : forall (c c' : canvas) strips x y,
  wf_frame gw (cv_w c) (cv_h c) (cv_cells c) -> Forall (Forall (seg_sound gw)) strips ->
  (forall y', y <= y' -> 0 <= y' < Z.of_nat (cv_h c) -> row_free (cv_w c) (cv_cells c) x y') ->
  render_strips gw space sym_eqb translucent resolve_bg c strips x y = Some c' ->
  wf_frame gw (cv_w c') (cv_h c') (cv_cells c').
Proof.
  intros c c' strips x y Hwf Hs HF E.
  destruct (render_strips_wf gw space sym_eqb color_eqb reset translucent resolve_bg strips c x y Hwf Hs HF)
    as (l' & E' & W).
  rewrite E in E'. injection E' as ->. exact W.
Qed.

End Statements.

Print Assumptions C05_draw_only_inside_clips.
Print Assumptions C05_history_runs.
Print Assumptions C05_string_is_drawn.
Print Assumptions C06_clip_is_intersection.
Print Assumptions C06_pop_restores.
Print Assumptions C07_diff_flush_shows_frame.
Print Assumptions C07_full_flush_shows_frame.
Print Assumptions C07_diff_equals_full.
Print Assumptions C08_history_shows_last_frame.
Print Assumptions C08_narrow_history_shows_last_frame.
Print Assumptions C08_aligned_glyph_keeps_wf.
Print Assumptions C08_strips_keep_wf.

(** C06. Region::intersection contains exactly the points of both regions. *)
Theorem C06_intersection_contains : forall a b x y, region_i32 a -> region_i32 b ->
  is_i32 x -> is_i32 y ->
  contains_point (intersection a b) x y = contains_point a x y && contains_point b x y.
Proof. exact intersection_contains. Qed.
Print Assumptions C06_intersection_contains.

(** C06. [contains_point] is membership in the region as a set of points, when
    the right and bottom edges fit in i32. *)
Theorem C06_contains_point_set : forall r x y, region_i32 r ->
  is_i32 (rg_x r + rg_w r) -> is_i32 (rg_y r + rg_h r) ->
  (contains_point r x y = true <-> in_region r x y).
Proof.
  intros r x y _ H1 H2. unfold contains_point, in_region.
  rewrite (sat_add_id _ _ H1), (sat_add_id _ _ H2). lia.
Qed.
Print Assumptions C06_contains_point_set.

(** *** Concrete instances: symbols are numbers, 0 is the blank, symbols from 100
    on are two cells wide; colours and backgrounds are numbers, background 9
    is translucent. *)
Definition egw (s : nat) : nat := if (s <? 100)%nat then 1 else 2.
Definition etr (b : option nat) : bool := match b with Some 9%nat => true | _ => false end.
Definition eres (b : option nat) (old : option nat) : option nat :=
  match b with None => old | Some 9%nat => option_map (fun c => (c + 1)%nat) old | Some c => Some c end.
Definition erun := @run nat nat nat egw 0%nat Nat.eqb Nat.eqb 0%nat etr eres.
Definition eevents := @run_events nat nat nat egw 0%nat Nat.eqb Nat.eqb 0%nat etr eres.
Definition eop := @op nat nat nat.
Definition eterm : @term nat nat := Term (fun _ _ => TJunk) 3 7 (Pen 4%nat 5%nat attrs_default).
Definition row_of (r : option (@canvas nat nat * @term nat nat)) : list (@tcell nat nat) :=
  match r with None => [] | Some (_, t) => map (fun x => t_scr t 0%nat x) (seq 0 4) end.

(** Non-vacuity of C05/C06: nested clips, a wide glyph cut by the clip is not
    drawn, and the narrow one beside it is. *)
Example C05_witness :
  let ops : list eop := [OPush (Region 1 0 3 1); OPush (Region (-2) (-1) 5 9);
                         ODraw (DStr 0 0 [7; 100; 8; 101]%nat (Some 1%nat) None attrs_default)] in
  Forall op_i32 ops /\
  (exists c0, canvas_new 0%nat 4 1 = Some c0 /\
     exists c, erun c0 ops = Some c /\ map c_sym (cv_cells c) = [0; 100; 0; 0]%nat /\
     map c_cont (cv_cells c) = [false; false; true; false]) /\
  open_clips ops = [Region (-2) (-1) 5 9; Region 1 0 3 1].
Proof.
  split; [repeat constructor; cbn; unfold region_i32, is_i32; cbn; lia|]. split; [|reflexivity].
  eexists. split; [reflexivity|]. eexists. split; [reflexivity|]. split; reflexivity.
Qed.

(** Non-vacuity of C07/C08: two frames with wide glyphs, the second moves one by
    a column; the terminal follows. *)
Definition frames : list (@event nat nat nat) :=
  [EOp (ODraw (DStr 0 0 [100; 5]%nat (Some 1%nat) None attrs_default)); EOp OFlush;
   EOp OClear; EOp (ODraw (DStr 0 0 [6; 100]%nat (Some 2%nat) None attrs_default))].

Example C08_witness :
  (exists c0, canvas_new 0%nat 4 1 = Some c0 /\
    invalidated true false (frames ++ [EOp OFlush]) /\
    row_of (eevents 4 1 (c0, eterm) (frames ++ [EOp OFlush])) =
      [THead 6 1 (Pen 2 0 attrs_default); THead 100 2 (Pen 2 0 attrs_default); TTail;
       THead 0 1 (Pen 0 0 attrs_default)]%nat).
Proof. eexists. split; [reflexivity|]. split; [cbn; auto|]. vm_compute. reflexivity. Qed.

(** C07 refuted without well-formedness of the previous frame: a narrow glyph is
    drawn over the right half of a wide one, then the wide one is drawn again.
    The second flush writes nothing to the right half, although the frame
    differs from what the terminal shows. *)
Definition overdraw : list (@event nat nat nat) :=
  [EOp (ODraw (DChar 0 0 100%nat None None attrs_default));
   EOp (ODraw (DChar 1 0 5%nat None None attrs_default)); EOp OFlush; EOp OClear;
   EOp (ODraw (DChar 0 0 100%nat None None attrs_default))].
Theorem C07_overdrawn_wide_glyph_refuted :
  exists c0 c t c' t',
    canvas_new 0%nat 4 1 = Some c0 /\
    eevents 4 1 (c0, eterm) overdraw = Some (c, t) /\
    eevents 4 1 (c0, eterm) (overdraw ++ [EOp OFlush]) = Some (c', t') /\
    wf_frame egw 4 1 (cv_cells c) /\
    invalidated true false (overdraw ++ [EOp OFlush]) /\
    ~ shows 0%nat 4 1 t' (cv_cells c).
Proof.
  do 5 eexists. split; [reflexivity|]. split; [reflexivity|]. split; [reflexivity|]. split; [|split].
  - split; [reflexivity|]. intros x y c Hx Hy.
    assert (y = 0)%nat by lia. subst y.
    destruct x as [|[|[|[|x]]]]; [..|lia]; intros E; injection E as <-; (split; [intros; try lia; reflexivity|]);
    intros Hc; try discriminate; (split; [reflexivity|split; [cbn; lia|split; [cbn; lia|split]]]).
    + intros k c' Hk. assert (k = 1)%nat by (cbn in Hk; lia). subst k. intros E; injection E as <-. reflexivity.
    + intros c' _ E. injection E as <-. reflexivity.
    + intros k c' Hk. cbn in Hk. lia.
    + intros c' _ E. injection E as <-. reflexivity.
    + intros k c' Hk. cbn in Hk. lia.
    + intros c' Hk. cbn in Hk. lia.
  - cbn; auto.
  - intros H. specialize (H 1%nat 0%nat _ ltac:(lia) ltac:(lia) eq_refl). vm_compute in H. discriminate.
Qed.
Print Assumptions C07_overdrawn_wide_glyph_refuted.

(** C05/C08 finding: [Canvas::new] computes width * height in u16, so a terminal
    of 300 by 300 cells cannot be opened (each side alone fits). *)
Theorem C05_large_canvas_refuted :
  exists w h, is_u16 w /\ is_u16 h /\ @canvas_new nat nat 0%nat w h = None.
Proof. exists 300%nat, 300%nat. split; [|split]; [unfold is_u16; lia..|reflexivity]. Qed.
Print Assumptions C05_large_canvas_refuted.
