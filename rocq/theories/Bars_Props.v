(** C47, C64, C65, C66: scroll bars and scrolling containers. *)
From Coq Require Import ZArith QArith Qround List Bool Lia Lqa.
From Verif Require Import Float32_Model Float32_Proofs Scroll_Model Scroll_Spec Scroll_Proofs Bars_Model Bars_Spec Bars_Proofs Bars2_Proofs.
Import ListNotations.
Open Scope Z_scope.

(** ** C47: what a scroll bar shows *)

(** The rounding of f32 is one of the roundings quantified over below, and so is
    exact arithmetic. *)
Example roundings : rounding rnd32 /\ rounding exactly.
Proof. split; [apply rounding_rnd32|apply rounding_exact]. Qed.

(** Eighth by eighth: every cell of the bar is painted, nothing outside it is,
    and what shows is the thumb exactly between its two ends. *)
Theorem C47_picture : forall rnd, rounding rnd -> forall vertical r v w p,
  0 < a_w r -> 0 < a_h r -> let T := length_of vertical r in T <= 2 ^ 24 -> 0 < w < v -> v <= 2 ^ 24 -> v <> T -> 0 <= p <= v - w ->
  let ps := render_bar rnd vertical r (inject_Z v) (inject_Z w) (inject_Z p) true in
  let s := start8 rnd T (inject_Z v) (inject_Z w) (inject_Z p) in let e := end8 rnd T (inject_Z v) (inject_Z w) (inject_Z p) in
  0 <= s /\ s + 8 <= e /\
  (forall q, In q ps -> inside r (pt_x q) (pt_y q)) /\
  forall x y k, inside r x y -> 0 <= k < 8 ->
    exists q, shown ps x y = Some q /\
      (seen vertical q k = Some Thumb <-> s <= 8 * along vertical r x y + k < e) /\ (seen vertical q k = Some Track <-> ~ (s <= 8 * along vertical r x y + k < e)).
Proof.
  intros rnd R vertical r v w p W H T HT Hw Hv NE Hp ps s e.
  assert (T1 : 1 <= T) by (unfold T, length_of; destruct vertical; lia).
  destruct (eighths_ok rnd R T v w p ltac:(lia) Hw Hv Hp) as [S E]. fold s e in S, E. split; auto. split; auto.
  assert (PS : ps = stripe vertical r 0 T 32 None Track ++ paint_thumb vertical r s e).
  { unfold ps, render_bar. destruct (Z.leb_spec (a_h r) 0); [lia|]. destruct (Z.leb_spec (a_w r) 0); [lia|]. cbn [orb negb]. f_equal.
    assert (PV : (0 < inject_Z v)%Q) by (apply inj_pos; lia). assert (PW : (0 < inject_Z w)%Q) by (apply inj_pos; lia).
    assert (E2 : Qle_bool (inject_Z w) 0 = false) by (apply not_le_bool; auto). rewrite E2.
    assert (E3 : Qle_bool (inject_Z v) 0 = false) by (apply not_le_bool; auto). rewrite E3.
    assert (E4 : Qeq_bool (inject_Z v) (inject_Z T) = false) by (apply neq_bool; auto).
    unfold T, length_of in E4. rewrite E4. reflexivity. }
  rewrite PS. split.
  - intros q I. apply in_app_or in I. destruct I as [I|I]; [|eapply paint_thumb_inside; eauto].
    apply in_stripe in I. destruct I as (i & j & I & J & ->). unfold T, length_of, inside in *. destruct vertical; cbn; lia.
  - intros x y k I K. rewrite shown_app. pose proof (paint_thumb_seen vertical r s e x y k I S E K) as P. cbv zeta in P.
    destruct (shown (paint_thumb vertical r s e) x y) as [q|].
    + exists q. split; auto. rewrite P. destruct (Z.leb_spec s (8 * along vertical r x y + k)); destruct (Z.ltb_spec (8 * along vertical r x y + k) e); cbn [andb];
        (split; split; intros X; try lia; try reflexivity; try discriminate).
    + rewrite shown_stripe by (auto; unfold T; lia). exists (Put x y 32 None Track). split.
      * assert (L : 0 <= along vertical r x y < T) by (unfold inside, T, length_of, along in *; destruct vertical; lia).
        destruct (Z.leb_spec 0 (along vertical r x y)); [|lia]. destruct (Z.ltb_spec (along vertical r x y) T); [reflexivity|lia].
      * unfold seen, inked. cbn. destruct vertical; cbn; (split; split; intros X; try tauto; try discriminate).
Qed.
Print Assumptions C47_picture.
(** Without a thumb only the track is painted. *)
Theorem C47_plain_track : forall rnd vertical r v w p, 0 < a_w r -> 0 < a_h r ->
  let ps := render_bar rnd vertical r v w p false in
  (forall q, In q ps -> inside r (pt_x q) (pt_y q)) /\ forall x y k, inside r x y -> exists q, shown ps x y = Some q /\ seen vertical q k = Some Track.
Proof.
  intros rnd vertical r v w p W H ps.
  assert (PS : ps = stripe vertical r 0 (length_of vertical r) 32 None Track).
  { unfold ps, render_bar. destruct (Z.leb_spec (a_h r) 0); [lia|]. destruct (Z.leb_spec (a_w r) 0); [lia|]. cbn [orb negb]. apply app_nil_r. }
  rewrite PS. split.
  - intros q I. apply in_stripe in I. destruct I as (i & j & I & J & ->). unfold length_of, inside in *. destruct vertical; cbn; lia.
  - intros x y k I. rewrite shown_stripe by (auto; lia). exists (Put x y 32 None Track). split.
    + assert (L : 0 <= along vertical r x y < length_of vertical r) by (unfold inside, length_of, along in *; destruct vertical; lia).
      destruct (Z.leb_spec 0 (along vertical r x y)); [|lia]. destruct (Z.ltb_spec (along vertical r x y) (length_of vertical r)); [reflexivity|lia].
    + unfold seen, inked. cbn. destruct vertical; reflexivity.
Qed.
Print Assumptions C47_plain_track.
Example C47_picture_case :
  map (fun y => option_map (fun q => (pt_char q, pt_fg q, pt_bg q)) (shown (render_bar rnd32 true (Area 7 2 1 5) 20 6 5 true) 7 y)) [2; 3; 4; 5; 6]
  = [Some (32, None, Track); Some (9606, Some Thumb, Track); Some (9602, Some Track, Thumb); Some (32, None, Track); Some (32, None, Track)] /\
  (start8 rnd32 5 20 6 5, end8 rnd32 5 20 6 5) = (10, 22).
Proof. vm_compute. split; reflexivity. Qed.

(** With exact arithmetic the thumb stays in the track, starts at its start when
    nothing is scrolled, ends at its end when everything is, never moves back as
    the offset grows and keeps the length of its share of the content, at least
    one cell.  In eighths of a cell, as painted ... *)
Theorem C47_thumb_in_track : forall T v w p q, 1 <= T -> 0 < w < v -> 0 <= p <= q -> q <= v - w ->
  let s p := start8 exactly T (inject_Z v) (inject_Z w) (inject_Z p) in let e p := end8 exactly T (inject_Z v) (inject_Z w) (inject_Z p) in
  0 <= s p <= s q /\ e q <= 8 * T /\ e p - s p = Z.max 8 (ceil_ratio (8 * w * T) v) /\ s 0 = 0 /\ e (v - w) = 8 * T.
Proof. exact eighths_exact. Qed.
Print Assumptions C47_thumb_in_track.
(** ... and in whole cells, as clicks are judged. *)
Theorem C47_thumb_cells : forall T v w p q, 1 <= T -> 0 < w < v -> v <> T -> 0 <= p <= q -> q <= v - w ->
  let b p := thumb_bounds exactly T (inject_Z v) (inject_Z w) (inject_Z p) in
  0 <= fst (b p) <= fst (b q) /\ snd (b q) <= T /\ snd (b p) - fst (b p) = Z.max 1 (ceil_ratio (w * T) v) /\ b 0 = (0, snd (b p) - fst (b p)) /\ snd (b (v - w)) = T.
Proof. exact cells_exact. Qed.
Print Assumptions C47_thumb_cells.
(** With the rounding of f32: still monotone and never past the track by more
    than one cell, with its start inside. *)
Theorem C47_thumb_f32 : forall rnd, rounding rnd -> forall T v w p q, 1 <= T <= 2 ^ 24 -> 0 < w < v -> v <= 2 ^ 24 -> v <> T -> 0 <= p <= q -> q <= v - w ->
  let b p := thumb_bounds rnd T (inject_Z v) (inject_Z w) (inject_Z p) in
  0 <= fst (b p) <= fst (b q) /\ fst (b q) < snd (b q) <= T + 1 /\ fst (b q) <= T - 1 /\ snd (b p) - fst (b p) = snd (b q) - fst (b q).
Proof. exact cells_f32. Qed.
Print Assumptions C47_thumb_f32.
(** That one cell is real: 300 of 89999 rows in a track of 300. *)
Theorem C47_f32_refuted : exists T v w, 1 <= T <= 2 ^ 24 /\ 0 < w < v /\ v <= 2 ^ 24 /\ v <> T /\
  snd (thumb_bounds rnd32 T (inject_Z v) (inject_Z w) (inject_Z (v - w))) = T + 1.
Proof. exists 300, 89999, 300. vm_compute. repeat split; intros; discriminate. Qed.
Print Assumptions C47_f32_refuted.
(** Content as long as the track shows no thumb although it scrolls. *)
Theorem C47_equal_refuted : forall rnd vertical r w p, 0 < a_w r -> 0 < a_h r -> 0 < w < length_of vertical r ->
  forall x y k, inside r x y -> exists q, shown (render_bar rnd vertical r (inject_Z (length_of vertical r)) (inject_Z w) p true) x y = Some q /\ seen vertical q k = Some Track.
Proof.
  intros rnd vertical r w p W H L x y k I. destruct (C47_plain_track rnd vertical r (inject_Z (length_of vertical r)) (inject_Z w) p W H) as [_ P]. 
  assert (E : render_bar rnd vertical r (inject_Z (length_of vertical r)) (inject_Z w) p true = render_bar rnd vertical r (inject_Z (length_of vertical r)) (inject_Z w) p false).
  { unfold render_bar. destruct (Z.leb_spec (a_h r) 0); [lia|]. destruct (Z.leb_spec (a_w r) 0); [lia|]. cbn [orb negb].
    assert (Q : Qeq_bool (inject_Z (length_of vertical r)) (inject_Z (if vertical then a_h r else a_w r)) = true) by (apply Qeq_bool_iff; unfold length_of; destruct vertical; reflexivity).
    rewrite Q, !orb_true_r. reflexivity. }
  rewrite E. auto.
Qed.
Print Assumptions C47_equal_refuted.

(** ** C64: pressing and dragging *)

(** A press on the vertical bar of a container grabs the thumb when it hits it,
    and otherwise moves the content towards the press by at most one screenful. *)
Theorem C64_press : forall rnd, rounding rnd -> forall g s x y,
  let st := g_bars g in let l := compute_layout st (g_measure g) (g_inner g) in let c := record_layout (s_scroll s) l in
  let r := v_region st (g_inner g) (l_h l) in
  let b := thumb_bounds rnd (a_h r) (inject_Z (virtual_height c)) (inject_Z (viewport_height c)) (inject_Z (offset_y c)) in
  render_v st (l_v l) = true -> inside r x y -> offsets_ok c -> viewport_height c <= 2 ^ 24 ->
  exists s', on_scroll_event rnd st (g_measure g) (g_inner g) s (EPress x y) = Some s' /\
    offset_x (s_scroll s') = offset_x c /\
    (fst b <= y - a_y r < snd b -> s_drag s' = Some (true, y - a_y r - fst b) /\ s_scroll s' = c) /\
    (y - a_y r < fst b -> s_drag s' = s_drag s /\ offset_y c - viewport_height c <= offset_y (s_scroll s') <= offset_y c) /\
    (snd b <= y - a_y r -> fst b <= y - a_y r -> s_drag s' = s_drag s /\ offset_y c <= offset_y (s_scroll s') <= offset_y c + viewport_height c).
Proof. intros rnd R [st measure inner] s x y. destruct (layout_content st measure inner) as [CW CH]. exact (C64_press_lem rnd R st inner (compute_layout st measure inner) s x y CW CH). Qed.
Print Assumptions C64_press.
(** The same for the horizontal bar (away from the vertical one). *)
Theorem C64_press_horizontal : forall rnd, rounding rnd -> forall g s x y,
  let st := g_bars g in let l := compute_layout st (g_measure g) (g_inner g) in let c := record_layout (s_scroll s) l in
  let r := h_region st (g_inner g) (l_v l) in
  let b := thumb_bounds rnd (a_w r) (inject_Z (virtual_width c)) (inject_Z (viewport_width c)) (inject_Z (offset_x c)) in
  render_h st (l_h l) = true -> inside r x y -> render_v st (l_v l) = false \/ ~ inside (v_region st (g_inner g) (l_h l)) x y -> offsets_ok c -> viewport_width c <= 2 ^ 24 ->
  exists s', on_scroll_event rnd st (g_measure g) (g_inner g) s (EPress x y) = Some s' /\
    offset_y (s_scroll s') = offset_y c /\
    (fst b <= x - a_x r < snd b -> s_drag s' = Some (false, x - a_x r - fst b) /\ s_scroll s' = c) /\
    (x - a_x r < fst b -> s_drag s' = s_drag s /\ offset_x c - viewport_width c <= offset_x (s_scroll s') <= offset_x c) /\
    (snd b <= x - a_x r -> fst b <= x - a_x r -> s_drag s' = s_drag s /\ offset_x c <= offset_x (s_scroll s') <= offset_x c + viewport_width c).
Proof. intros rnd R [st measure inner] s x y. destruct (layout_content st measure inner) as [CW CH]. exact (C64_press_horizontal_lem rnd R st inner (compute_layout st measure inner) s x y CW CH). Qed.
Print Assumptions C64_press_horizontal.

(** Moving the pointer while the vertical thumb is held by its [grab]-th cell:
    with exact arithmetic the thumb follows to within one cell, as long as it is
    at least a cell long by its share and the target lies on the track. *)
Theorem C64_follows : forall g s x y button grab,
  let st := g_bars g in let c := record_layout (s_scroll s) (compute_layout st (g_measure g) (g_inner g)) in
  let r := v_region st (g_inner g) (show_h st c) in
  let T := a_h r in let v := virtual_height c in let w := viewport_height c in let k := y - a_y r - grab in
  s_drag s = Some (true, grab) -> 1 <= T < v -> 0 < w < v -> v <= w * T -> 0 <= k -> k + ceil_ratio (w * T) v <= T ->
  exists s', on_scroll_event exactly st (g_measure g) (g_inner g) s (EMove x y button) = Some s' /\
    s_drag s' = s_drag s /\ offset_x (s_scroll s') = offset_x c /\
    k - 1 <= fst (thumb_bounds exactly T (inject_Z v) (inject_Z w) (inject_Z (offset_y (s_scroll s')))) <= k.
Proof. intros [st measure inner] s x y button grab. exact (C64_follows_lem st inner (compute_layout st measure inner) s x y button grab). Qed.
Print Assumptions C64_follows.
(** The same for the horizontal thumb. *)
Theorem C64_follows_horizontal : forall g s x y button grab,
  let st := g_bars g in let c := record_layout (s_scroll s) (compute_layout st (g_measure g) (g_inner g)) in
  let r := h_region st (g_inner g) (show_v st c) in
  let T := a_w r in let v := virtual_width c in let w := viewport_width c in let k := x - a_x r - grab in
  s_drag s = Some (false, grab) -> 1 <= T < v -> 0 < w < v -> v <= w * T -> 0 <= k -> k + ceil_ratio (w * T) v <= T ->
  exists s', on_scroll_event exactly st (g_measure g) (g_inner g) s (EMove x y button) = Some s' /\
    s_drag s' = s_drag s /\ offset_y (s_scroll s') = offset_y c /\
    k - 1 <= fst (thumb_bounds exactly T (inject_Z v) (inject_Z w) (inject_Z (offset_x (s_scroll s')))) <= k.
Proof.
  intros [st measure inner] s x y button grab. cbn [g_bars g_measure g_inner]. set (l := compute_layout st measure inner). set (c := record_layout (s_scroll s) l). cbv zeta.
  intros D HT Hw WT K1 K2. cbn [on_scroll_event]. fold l. cbn [on_mouse]. unfold with_scroll. cbn [s_scroll s_drag s_hover]. rewrite D. unfold on_drag. fold c.
  set (r := h_region st inner (show_v st c)) in *. destruct (drag_exact (a_w r) (virtual_width c) (viewport_width c) (x - a_x r - grab) ltac:(lia) Hw) as (p & DP & _). rewrite DP.
  destruct (drag_lands (a_w r) (virtual_width c) (viewport_width c) _ p ltac:(lia) Hw WT ltac:(lia) K1 K2 DP) as [O F].
  destruct (scroll_to_some c (Some p) None) as (c' & E & _ & _ & _ & _ & OX & OY). rewrite E. cbn [option_map]. eexists. split; [reflexivity|]. cbn [s_drag s_scroll]. split; [auto|]. split; [exact OY|].
  assert (OE : offset_x c' = Qfloor p) by (rewrite OX; unfold max_scroll_x; lia). rewrite OE. exact F.
Qed.
Print Assumptions C64_follows_horizontal.
(** Dragging further never scrolls back, with any rounding. *)
Theorem C64_monotone : forall rnd, rounding rnd -> forall T v w k k' p p', w <= v -> Z.abs (v - w) <= 2 ^ 24 -> k <= k' ->
  drag_position rnd T v w k = Some p -> drag_position rnd T v w k' = Some p' -> (p <= p')%Q.
Proof.
  intros rnd R T v w k k' p p' WV V K. unfold drag_position. destruct (v =? 0); [discriminate|]. cbn [orb]. destruct (Qle_bool _ 0) eqn:B; [discriminate|].
  set (d := rnd (inject_Z T - _)%Q) in *. assert (D : (0 < d)%Q). { apply Qnot_le_lt. intros X. apply Qle_bool_iff in X. congruence. }
  intros E1 E2. inversion E1; inversion E2. apply (rnd_mono rnd R). apply Qmult_le_compat_r; [|apply rnd_nonneg; auto; rewrite Zle_Qle in WV; lra].
  apply (rnd_mono rnd R). unfold Qdiv. apply Qmult_le_compat_r; [rewrite <- Zle_Qle; auto|]. apply Qlt_le_weak, Qinv_lt_0_compat; auto.
Qed.
Print Assumptions C64_monotone.
(** A container of 10 by 10 with 25 rows of content. *)
Definition long_content (n : Z) : setting := Setting (Bars OHidden OAuto false 1 1 true) (fun r => (a_w r, n)) (Area 0 0 10 10).
Example C64_follows_case :
  let c := record_layout (s_scroll fresh) (compute_layout (g_bars (long_content 25)) (g_measure (long_content 25)) (g_inner (long_content 25))) in
  (a_h (v_region (g_bars (long_content 25)) (g_inner (long_content 25)) (show_h (g_bars (long_content 25)) c)), virtual_height c, viewport_height c, ceil_ratio (10 * 10) 25) = (10, 25, 10, 4) /\
  option_map (fun s => (offset_y (s_scroll s), s_drag s)) (run_events exactly fresh [(long_content 25, EPress 9 1); (long_content 25, EMove 9 5 true); (long_content 25, ERelease)]) = Some (10, None).
Proof. vm_compute. split; reflexivity. Qed.
(** Holding the thumb still may scroll: press, then a drag to the same cell. *)
Theorem C64_still_refuted : exists g es, Forall (fun ge => fst ge = g) es /\
  option_map (fun s => offset_y (s_scroll s)) (run_events rnd32 fresh es) = Some 1 /\
  option_map (fun s => (offset_y (s_scroll s), s_drag s)) (run_events rnd32 fresh (es ++ [(g, EPress 9 0); (g, EMove 9 0 true)])) = Some (0, Some (true, 0)).
Proof. exists (long_content 25), [(long_content 25, EWheel WDown false)]. split; [repeat constructor|]. vm_compute. split; reflexivity. Qed.
Print Assumptions C64_still_refuted.
(** Long content cannot be dragged to its end inside the bar. *)
Theorem C64_end_refuted : exists g, a_h (g_inner g) = 10 /\
  option_map (fun s => (offset_y (s_scroll s), max_scroll_y (s_scroll s))) (run_events rnd32 fresh [(g, EPress 9 0); (g, EMove 9 9 true)]) = Some (900, 990).
Proof. exists (long_content 1000). vm_compute. split; reflexivity. Qed.
Print Assumptions C64_end_refuted.

(** Letting go ends the drag: from then on, pointer movements leave the
    offsets to the layout alone, until something is pressed again. *)
Theorem C64_release : forall rnd g s, let st := g_bars g in let c := record_layout (s_scroll s) (compute_layout st (g_measure g) (g_inner g)) in
  (exists s', on_scroll_event rnd st (g_measure g) (g_inner g) s ERelease = Some s' /\ s_drag s' = None /\ s_scroll s' = c) /\
  (s_drag s = None -> forall x y button, exists s', on_scroll_event rnd st (g_measure g) (g_inner g) s (EMove x y button) = Some s' /\ s_drag s' = None /\ s_scroll s' = c).
Proof.
  intros rnd [st measure inner] s st0 c. cbn [g_bars g_measure g_inner] in *. subst st0. split.
  - eexists. split; [reflexivity|]. split; reflexivity.
  - intros D x y button. cbn [on_scroll_event on_mouse]. cbn [s_drag with_scroll]. rewrite D. eexists. split; [reflexivity|]. destruct button; split; cbn; auto.
Qed.
Print Assumptions C64_release.

(** ** C65: scrolling histories *)

(** Whatever is pressed, dragged or resized, in whatever order, the container
    never panics and never shows anything but its content where that is larger. *)
Theorem C65_always_in_range : forall rnd, rounding rnd -> forall es, exists s, run_events rnd fresh es = Some s /\ offsets_ok (s_scroll s).
Proof. intros rnd R es. destruct (fine_run rnd R es fresh fine_fresh) as (s & E & F). exists s. split; auto. apply F. Qed.
Print Assumptions C65_always_in_range.
(** An axis that is hidden never scrolls. *)
Theorem C65_hidden_axis : forall rnd, rounding rnd -> forall es,
  (Forall (fun ge => b_over_y (g_bars (fst ge)) = OHidden) es -> exists s, run_events rnd fresh es = Some s /\ offset_y (s_scroll s) = 0) /\
  (Forall (fun ge => b_over_x (g_bars (fst ge)) = OHidden) es -> exists s, run_events rnd fresh es = Some s /\ offset_x (s_scroll s) = 0).
Proof.
  intros rnd R es. destruct (fine_run rnd R es fresh fine_fresh) as (s & E & F). split; intros H; exists s; (split; [exact E|]).
  - apply (still_run_y rnd es fresh s H); [|exact E]. split; [reflexivity|discriminate].
  - apply (still_run_x rnd es fresh s H); [|exact E]. split; [reflexivity|discriminate].
Qed.
Print Assumptions C65_hidden_axis.
Example C65_case : option_map (fun s => (offset_x (s_scroll s), offset_y (s_scroll s)))
  (run_events rnd32 fresh [(long_content 25, ERelayout); (long_content 25, EKey KPageDown); (long_content 25, EKey KRight); (long_content 25, EWheel WDown false); (long_content 12, ERelayout)]) = Some (0, 2).
Proof. vm_compute. reflexivity. Qed.
(** An arrow key moves by one row or column, the wheel too, once the content is
    laid out; with shift or control the vertical wheel moves sideways.  The
    other axis stays, and so does an axis that is hidden or at its end. *)
Definition moved (max from by_ : Z) : Z := Z.max 0 (Z.min max (from + by_)).
Theorem C65_arrows : forall rnd g s k dx dy, offsets_ok (s_scroll s) ->
  In (k, (dx, dy)) [(KUp, (0, -1)); (KDown, (0, 1)); (KLeft, (-1, 0)); (KRight, (1, 0))] ->
  let c := s_scroll s in
  exists s', on_scroll_event rnd (g_bars g) (g_measure g) (g_inner g) s (EKey k) = Some s' /\ s_drag s' = s_drag s /\
    offset_x (s_scroll s') = (if allows (b_over_x (g_bars g)) then moved (max_scroll_x c) (offset_x c) dx else offset_x c) /\
    offset_y (s_scroll s') = (if allows (b_over_y (g_bars g)) then moved (max_scroll_y c) (offset_y c) dy else offset_y c).
Proof.
  intros rnd [st measure inner] s k dx dy [[X0 X1] [Y0 Y1]] I. cbn [g_bars g_measure g_inner on_scroll_event]. set (c := s_scroll s) in *.
  cbn [In] in I. repeat (destruct I as [I|I]; [inversion I; subst; clear I; cbn [on_key option_map]; eexists; split; [reflexivity|]; split; [reflexivity|];
    cbn [s_scroll with_scroll]; fold c in X0, X1, Y0, Y1 |- *; unfold moved, max_scroll_x, max_scroll_y in *; destruct (allows (b_over_x st)), (allows (b_over_y st)); cbn [scroll_up scroll_down scroll_left scroll_right set_x set_y offset_x offset_y]; unfold max_scroll_x, max_scroll_y; split; lia|]). destruct I.
Qed.
Print Assumptions C65_arrows.
Lemma wheel_moves : forall st c d shifted dx dy,
  In (d, shifted, (dx, dy)) [(WUp, false, (0, -1)); (WDown, false, (0, 1)); (WUp, true, (-1, 0)); (WDown, true, (1, 0));
                             (WLeft, false, (-1, 0)); (WRight, false, (1, 0)); (WLeft, true, (-1, 0)); (WRight, true, (1, 0))] -> offsets_ok c ->
    offset_x (on_wheel st c d shifted) = (if allows (b_over_x st) then moved (max_scroll_x c) (offset_x c) dx else offset_x c) /\
    offset_y (on_wheel st c d shifted) = (if allows (b_over_y st) then moved (max_scroll_y c) (offset_y c) dy else offset_y c).
Proof.
  intros st c d shifted dx dy I [[X0 X1] [Y0 Y1]].
  cbn [In] in I. repeat (destruct I as [I|I]; [inversion I; subst; clear I; unfold on_wheel, moved, max_scroll_x, max_scroll_y in *; destruct (allows (b_over_x st)), (allows (b_over_y st)); cbn [scroll_up scroll_down scroll_left scroll_right set_x set_y offset_x offset_y]; unfold max_scroll_x, max_scroll_y; split; lia|]). destruct I.
Qed.
Lemma wheel_event : forall rnd st inner l s d z, on_mouse rnd st inner l s (EWheel d z) = Some (with_scroll (with_scroll s (record_layout (s_scroll s) l)) (on_wheel st (record_layout (s_scroll s) l) d z)).
Proof. reflexivity. Qed.
Theorem C65_wheel : forall rnd g s d shifted dx dy, 
  In (d, shifted, (dx, dy)) [(WUp, false, (0, -1)); (WDown, false, (0, 1)); (WUp, true, (-1, 0)); (WDown, true, (1, 0));
                             (WLeft, false, (-1, 0)); (WRight, false, (1, 0)); (WLeft, true, (-1, 0)); (WRight, true, (1, 0))] ->
  let c := record_layout (s_scroll s) (compute_layout (g_bars g) (g_measure g) (g_inner g)) in offsets_ok c ->
  exists s', on_scroll_event rnd (g_bars g) (g_measure g) (g_inner g) s (EWheel d shifted) = Some s' /\ s_drag s' = s_drag s /\
    offset_x (s_scroll s') = (if allows (b_over_x (g_bars g)) then moved (max_scroll_x c) (offset_x c) dx else offset_x c) /\
    offset_y (s_scroll s') = (if allows (b_over_y (g_bars g)) then moved (max_scroll_y c) (offset_y c) dy else offset_y c).
Proof.
  intros rnd [st measure inner] s d shifted dx dy I. cbn [g_bars g_measure g_inner on_scroll_event]. generalize (compute_layout st measure inner). intros l O.
  rewrite wheel_event. eexists. split; [reflexivity|]. split; [reflexivity|]. exact (wheel_moves st _ d shifted dx dy I O).
Qed.
Print Assumptions C65_wheel.
Example C65_wheel_case : option_map (fun s => (offset_x (s_scroll s), offset_y (s_scroll s)))
  (run_events rnd32 fresh [(Setting (Bars OAuto OAuto false 1 1 true) (fun _ => (30, 40)) (Area 0 0 10 10), EWheel WDown true); (Setting (Bars OAuto OAuto false 1 1 true) (fun _ => (30, 40)) (Area 0 0 10 10), EWheel WDown false)]) = Some (1, 1).
Proof. vm_compute. reflexivity. Qed.
(** The Home and End keys reach the two ends of the axes that scroll. *)
Theorem C65_home_end : forall rnd, rounding rnd -> forall g s, max_scroll_x (s_scroll s) <= 2 ^ 24 -> max_scroll_y (s_scroll s) <= 2 ^ 24 ->
  (exists s', on_scroll_event rnd (g_bars g) (g_measure g) (g_inner g) s (EKey KHome) = Some s' /\
     offset_y (s_scroll s') = (if allows (b_over_y (g_bars g)) then 0 else offset_y (s_scroll s)) /\
     offset_x (s_scroll s') = (if allows (b_over_x (g_bars g)) then 0 else offset_x (s_scroll s))) /\
  (exists s', on_scroll_event rnd (g_bars g) (g_measure g) (g_inner g) s (EKey KEnd) = Some s' /\
     offset_y (s_scroll s') = (if allows (b_over_y (g_bars g)) then max_scroll_y (s_scroll s) else offset_y (s_scroll s)) /\
     offset_x (s_scroll s') = (if allows (b_over_x (g_bars g)) then max_scroll_x (s_scroll s) else offset_x (s_scroll s))).
Proof.
  intros rnd R [st measure inner] s MX MY. cbn [g_bars g_measure g_inner on_scroll_event on_key].
  assert (X0 : 0 <= max_scroll_x (s_scroll s)) by (unfold max_scroll_x; lia). assert (Y0 : 0 <= max_scroll_y (s_scroll s)) by (unfold max_scroll_y; lia).
  assert (F0 : Qfloor 0 = 0) by reflexivity.
  assert (FX : Qfloor (rnd (inject_Z (max_scroll_x (s_scroll s)))) = max_scroll_x (s_scroll s)) by (rewrite (Qfloor_comp _ _ (rnd_int rnd R (max_scroll_x (s_scroll s)) ltac:(lia))); apply Qfloor_Z).
  assert (FY : Qfloor (rnd (inject_Z (max_scroll_y (s_scroll s)))) = max_scroll_y (s_scroll s)) by (rewrite (Qfloor_comp _ _ (rnd_int rnd R (max_scroll_y (s_scroll s)) ltac:(lia))); apply Qfloor_Z).
  assert (Q0 : Qfloor (0 # 1) = 0) by reflexivity.
  split.
  - destruct (allows (b_over_y st)); destruct (allows (b_over_x st)); cbn [orb];
      try (match goal with |- context [scroll_to ?a ?x ?y] => destruct (scroll_to_some a x y) as (c' & E & _ & _ & _ & _ & OX & OY); rewrite E end);
      cbn [option_map]; (eexists; split; [reflexivity|]; cbn [s_scroll with_scroll]; split; try rewrite OY; try rewrite OX; rewrite ?F0, ?Q0; try lia; reflexivity).
  - destruct (allows (b_over_y st)); destruct (allows (b_over_x st)); cbn [orb];
      try (match goal with |- context [scroll_to ?a ?x ?y] => destruct (scroll_to_some a x y) as (c' & E & _ & _ & _ & _ & OX & OY); rewrite E end);
      cbn [option_map]; (eexists; split; [reflexivity|]; cbn [s_scroll with_scroll]; split; try rewrite OY; try rewrite OX; rewrite ?FX, ?FY; try lia; reflexivity).
Qed.
Print Assumptions C65_home_end.
(** Page Down skips no row, gets further in a window of two rows or more, and
    pressed often enough reaches the end; Page Up likewise reaches the start. *)
Definition pages (rnd : Q -> Q) (g : setting) (k : key) (n : nat) (s : scroller) : option scroller := run_events rnd s (repeat (g, EKey k) n).
Theorem C65_page_down : forall rnd, rounding rnd -> forall g s, allows (b_over_y (g_bars g)) = true -> offsets_ok (s_scroll s) ->
  2 <= viewport_height (s_scroll s) <= 2 ^ 24 ->
  (exists s', pages rnd g KPageDown 1 s = Some s' /\ offset_x (s_scroll s') = offset_x (s_scroll s) /\ offset_y (s_scroll s') <= offset_y (s_scroll s) + viewport_height (s_scroll s) /\
     (offset_y (s_scroll s) < offset_y (s_scroll s') \/ offset_y (s_scroll s') = max_scroll_y (s_scroll s))) /\
  forall n, (Z.of_nat n >= max_scroll_y (s_scroll s)) -> exists s', pages rnd g KPageDown n s = Some s' /\ offset_y (s_scroll s') = max_scroll_y (s_scroll s).
Proof.
  intros rnd R [st measure inner] s A [_ [Y0 Y1]] V. cbn [g_bars] in A. unfold pages.
  pose proof (page_le rnd R (viewport_height (s_scroll s)) ltac:(lia)) as P1. pose proof (page_pos rnd R _ (proj1 V)) as P2. set (a := page_amount rnd (viewport_height (s_scroll s))) in *.
  assert (O : offset_y (s_scroll s) <= max_scroll_y (s_scroll s)) by (unfold max_scroll_y; lia).
  split.
  - eexists. split; [cbn [repeat run_events g_bars on_scroll_event on_key option_map]; reflexivity|]. rewrite A. fold a. cbn [with_scroll s_scroll scroll_down set_y offset_x offset_y]. lia.
  - assert (G : forall n s, page_amount rnd (viewport_height (s_scroll s)) = a -> offset_y (s_scroll s) <= max_scroll_y (s_scroll s) ->
      exists s', run_events rnd s (repeat (Setting st measure inner, EKey KPageDown) n) = Some s' /\ offset_y (s_scroll s') = Z.min (offset_y (s_scroll s) + Z.of_nat n * a) (max_scroll_y (s_scroll s))).
    { induction n as [|n IH]; intros z PA OZ. { exists z. split; auto. cbn. lia. }
      cbn [repeat run_events g_bars g_measure g_inner on_scroll_event on_key option_map]. rewrite A, PA.
      destruct (IH (with_scroll z (scroll_down (s_scroll z) a))) as (s' & E & F); [exact PA|cbn; unfold max_scroll_y at 2; cbn; fold (max_scroll_y (s_scroll z)); lia|].
      exists s'. split; [exact E|]. rewrite F. replace (max_scroll_y (s_scroll (with_scroll z (scroll_down (s_scroll z) a)))) with (max_scroll_y (s_scroll z)) by reflexivity. replace (offset_y (s_scroll (with_scroll z (scroll_down (s_scroll z) a)))) with (Z.min (offset_y (s_scroll z) + a) (max_scroll_y (s_scroll z))) by reflexivity. rewrite Nat2Z.inj_succ; unfold Z.succ; rewrite Z.mul_add_distr_r; assert (0 <= Z.of_nat n * a) by nia; lia. }
    intros n N. destruct (G n s eq_refl O) as (s' & E & F). exists s'. split; [exact E|]. rewrite F. assert (Z.of_nat n <= Z.of_nat n * a) by nia. lia.
Qed.
Print Assumptions C65_page_down.
Theorem C65_page_up : forall rnd, rounding rnd -> forall g s, allows (b_over_y (g_bars g)) = true -> offsets_ok (s_scroll s) ->
  2 <= viewport_height (s_scroll s) <= 2 ^ 24 ->
  (exists s', pages rnd g KPageUp 1 s = Some s' /\ offset_x (s_scroll s') = offset_x (s_scroll s) /\ offset_y (s_scroll s) <= offset_y (s_scroll s') + viewport_height (s_scroll s) /\
     (offset_y (s_scroll s') < offset_y (s_scroll s) \/ offset_y (s_scroll s') = 0)) /\
  forall n, (Z.of_nat n >= max_scroll_y (s_scroll s)) -> exists s', pages rnd g KPageUp n s = Some s' /\ offset_y (s_scroll s') = 0.
Proof.
  intros rnd R [st measure inner] s A [_ [Y0 Y1]] V. cbn [g_bars] in A. unfold pages.
  pose proof (page_le rnd R (viewport_height (s_scroll s)) ltac:(lia)) as P1. pose proof (page_pos rnd R _ (proj1 V)) as P2. set (a := page_amount rnd (viewport_height (s_scroll s))) in *.
  assert (O : offset_y (s_scroll s) <= max_scroll_y (s_scroll s)) by (unfold max_scroll_y; lia).
  split.
  - eexists. split; [cbn [repeat run_events g_bars on_scroll_event on_key option_map]; reflexivity|]. rewrite A. fold a. cbn [with_scroll s_scroll scroll_up set_y offset_x offset_y]. lia.
  - assert (G : forall n s, page_amount rnd (viewport_height (s_scroll s)) = a -> 0 <= offset_y (s_scroll s) ->
      exists s', run_events rnd s (repeat (Setting st measure inner, EKey KPageUp) n) = Some s' /\ offset_y (s_scroll s') = Z.max (offset_y (s_scroll s) - Z.of_nat n * a) 0).
    { induction n as [|n IH]; intros z PA OZ. { exists z. split; auto. cbn. lia. }
      cbn [repeat run_events g_bars g_measure g_inner on_scroll_event on_key option_map]. rewrite A, PA.
      destruct (IH (with_scroll z (scroll_up (s_scroll z) a))) as (s' & E & F); [exact PA|cbn; lia|].
      exists s'. split; [exact E|]. rewrite F. cbn [with_scroll s_scroll scroll_up set_y offset_y]. rewrite Nat2Z.inj_succ; unfold Z.succ; rewrite Z.mul_add_distr_r; assert (0 <= Z.of_nat n * a) by nia; lia. }
    intros n N. destruct (G n s eq_refl ltac:(lia)) as (s' & E & F). exists s'. split; [exact E|]. rewrite F. assert (Z.of_nat n <= Z.of_nat n * a) by nia. lia.
Qed.
Print Assumptions C65_page_up.
(** In a window of one row the page keys do nothing, ever. *)
Theorem C65_one_row_refuted : forall g s n, viewport_height (s_scroll s) = 1 -> offsets_ok (s_scroll s) -> 0 <= virtual_height (s_scroll s) ->
  exists s', pages rnd32 g KPageDown n s = Some s' /\ offset_y (s_scroll s') = offset_y (s_scroll s).
Proof.
  intros [st measure inner] s n V [_ [Y0 Y1]] VV. unfold pages. assert (O : offset_y (s_scroll s) <= max_scroll_y (s_scroll s)) by (unfold max_scroll_y; lia). clear Y0 Y1 VV.
  revert s V O. induction n as [|n IH]; intros s V O. { exists s. split; auto. }
  cbn [repeat run_events g_bars g_measure g_inner on_scroll_event on_key option_map]. rewrite V. replace (page_amount rnd32 1) with 0 by (vm_compute; reflexivity).
  destruct (allows (b_over_y st)) eqn:A; [|apply (IH (with_scroll s (s_scroll s)) V O)].
  assert (D : offset_y (s_scroll (with_scroll s (scroll_down (s_scroll s) 0))) = offset_y (s_scroll s)). { replace (offset_y (s_scroll (with_scroll s (scroll_down (s_scroll s) 0)))) with (Z.min (offset_y (s_scroll s) + 0) (max_scroll_y (s_scroll s))) by reflexivity. lia. }
  rewrite <- D. apply IH; [exact V|]. rewrite D. exact O.
Qed.
Print Assumptions C65_one_row_refuted.

(** ** C66: bars and content share the container *)

(** When making room for a bar never makes an overflow go away, the layout is
    consistent: a bar is shown on an automatic axis exactly when the content does
    not fit what the bars leave, and it was measured in exactly that room. *)
Theorem C66_consistent : forall st measure inner, steady st measure inner ->
  let l := compute_layout st measure inner in
  l_content l = content_region st inner (l_v l) (l_h l) /\ (l_vw l, l_vh l) = measure (l_content l) /\
  (l_h l = true <-> (b_over_x st = OScroll \/ b_over_x st = OAuto /\ a_w (l_content l) < l_vw l)) /\
  (l_v l = true <-> (b_over_y st = OScroll \/ b_over_y st = OAuto /\ a_h (l_content l) < l_vh l)).
Proof.
  intros st measure inner S l. destruct (layout_settled st measure inner S) as (A & B & C & D). fold l in A, B, C, D. split; auto. split; auto. rewrite C, D. unfold needed.
  split.
  - destruct (b_over_x st); split; intros X; try reflexivity; auto; try discriminate.
    + right. split; auto. apply Z.ltb_lt. auto.
    + destruct X as [X|[_ X]]; [discriminate|]. apply Z.ltb_lt. auto.
    + destruct X as [X|[X _]]; discriminate.
  - destruct (b_over_y st); split; intros X; try reflexivity; auto; try discriminate.
    + right. split; auto. apply Z.ltb_lt. auto.
    + destruct X as [X|[_ X]]; [discriminate|]. apply Z.ltb_lt. auto.
    + destruct X as [X|[X _]]; discriminate.
Qed.
Print Assumptions C66_consistent.
(** Once a settled layout is recorded, whether a bar counts as shown is the same
    as in the layout, except that no bar counts where no row (column) is left. *)
Theorem C66_shown : forall st measure inner s, steady st measure inner ->
  let l := compute_layout st measure inner in let c := record_layout s l in
  show_v st c = l_v l && (match b_over_y st with OAuto => 0 <? a_h (l_content l) | _ => true end) /\
  show_h st c = l_h l && (match b_over_x st with OAuto => 0 <? a_w (l_content l) | _ => true end).
Proof.
  intros st measure inner s D l c. destruct (C66_consistent st measure inner D) as (L & M & H & V). fold l in L, M, V, H.
  assert (VH : viewport_height c = a_h (l_content l)) by reflexivity. assert (VW : viewport_width c = a_w (l_content l)) by reflexivity.
  assert (TH : virtual_height c = l_vh l) by reflexivity. assert (TW : virtual_width c = l_vw l) by reflexivity.
  unfold show_v, show_h. rewrite VH, VW, TH, TW. clearbody c l. 
  split.
  - clear H. destruct (b_over_y st), (l_v l) eqn:?, (Z.leb_spec (a_h (l_content l)) 0), (Z.ltb_spec 0 (a_h (l_content l))), (Z.ltb_spec (a_h (l_content l)) (l_vh l)); cbn; auto; try lia; exfalso; intuition (congruence || lia).
  - clear V. destruct (b_over_x st), (l_h l) eqn:?, (Z.leb_spec (a_w (l_content l)) 0), (Z.ltb_spec 0 (a_w (l_content l))), (Z.ltb_spec (a_w (l_content l)) (l_vw l)); cbn; auto; try lia; exfalso; intuition (congruence || lia).
Qed.
Print Assumptions C66_shown.
(** Content of a fixed size, and text as wide as its room that gets no shorter
    when squeezed, are steady. *)
Theorem C66_steady_cases : forall st inner, 0 <= b_size_v st -> 0 <= b_size_h st ->
  (forall w h, steady st (fun _ => (w, h)) inner) /\
  (forall tall, (forall a b, a <= b -> tall b <= tall a) -> steady st (fun r => (a_w r, tall (a_w r))) inner).
Proof.
  intros st inner V H. split.
  - intros w h sv sh sv' sh' A B. cbn. destruct sv, sh, sv', sh'; cbn; try (specialize (A eq_refl); discriminate); try (specialize (B eq_refl); discriminate); try (destruct (b_stable st && _)); cbn; lia.
  - intros tall T sv sh sv' sh' A B. cbn. split; [lia|]. intros X. eapply Z.le_lt_trans; [|eapply Z.lt_le_trans; [exact X|]].
    + destruct sh, sh'; try (specialize (B eq_refl); discriminate); lia.
    + apply T. destruct sv, sv'; try (specialize (A eq_refl); discriminate); cbn; try (destruct (b_stable st && _)); cbn; lia.
Qed.
Print Assumptions C66_steady_cases.
(** Bars that fit the container: content, bars and corner never overlap, stay
    inside and, unless room is kept for a bar that is not shown, cover it all. *)
Theorem C66_shared : forall st measure inner, steady st measure inner -> 0 <= b_size_v st <= a_w inner -> 0 <= b_size_h st <= a_h inner ->
  let l := compute_layout st measure inner in
  let v x y := l_v l = true /\ inside (v_region st inner (l_h l)) x y in let h x y := l_h l = true /\ inside (h_region st inner (l_v l)) x y in
  let corner x y := l_v l = true /\ l_h l = true /\ inside (corner_region st inner) x y in let content x y := inside (l_content l) x y in
  (forall x y, (content x y -> ~ v x y /\ ~ h x y /\ ~ corner x y) /\ (v x y -> ~ h x y /\ ~ corner x y) /\ (h x y -> ~ corner x y)) /\
  (forall x y, content x y \/ v x y \/ h x y \/ corner x y -> inside inner x y) /\
  (b_stable st = false -> forall x y, inside inner x y -> content x y \/ v x y \/ h x y \/ corner x y).
Proof.
  intros st measure inner S SV SH l. destruct (layout_settled st measure inner S) as (A & _). fold l in A. cbv zeta. rewrite A. clearbody l. clear A S.
  unfold inside, content_region, v_region, h_region, corner_region. cbn [a_x a_y a_w a_h].
  destruct (l_v l), (l_h l); cbn [orb]; (split; [|split]).
  all: try (intros x y; try (destruct (b_stable st && _)); cbn; lia).
  all: intros ST x y; rewrite ST; cbn; lia.
Qed.
Print Assumptions C66_shared.
Example C66_case : let st := Bars OAuto OAuto false 2 1 true in steady st (fun _ => (30, 40)) (Area 0 0 20 10) /\
  compute_layout st (fun _ => (30, 40)) (Area 0 0 20 10) = Layout (Area 0 0 18 9) 30 40 true true /\
  compute_layout st (fun _ => (19, 40)) (Area 0 0 20 10) = Layout (Area 0 0 18 9) 19 40 true true /\
  compute_layout st (fun _ => (18, 40)) (Area 0 0 20 10) = Layout (Area 0 0 18 10) 18 40 true false.
Proof. cbv zeta. split; [apply C66_steady_cases; cbn; lia|]. vm_compute. repeat split; reflexivity. Qed.
(** Content that is as tall as its room is wide: the three rounds end with a bar
    shown over content laid out without room for it. *)
Theorem C66_unsteady_refuted : exists st measure inner x y, b_size_v st <= a_w inner /\ b_size_h st <= a_h inner /\
  let l := compute_layout st measure inner in render_v st (l_v l) = true /\ inside (v_region st inner (l_h l)) x y /\ inside (l_content l) x y.
Proof. exists (Bars OHidden OAuto false 1 1 true), (fun r => (a_w r, a_w r)), (Area 0 0 10 9), 9, 0. vm_compute. repeat split; intros; discriminate. Qed.
Print Assumptions C66_unsteady_refuted.
(** A bar wider than the container reaches outside it. *)
Theorem C66_narrow_refuted : exists st measure inner x y, steady st measure inner /\
  let l := compute_layout st measure inner in render_v st (l_v l) = true /\ inside (v_region st inner (l_h l)) x y /\ ~ inside inner x y.
Proof.
  exists (Bars OHidden OAuto false 2 1 true), (fun _ => (1, 30)), (Area 5 0 1 9), 4, 0. split; [apply C66_steady_cases; cbn; lia|]. vm_compute. repeat split; try (intros; discriminate). intros [[X _] _]. apply X. reflexivity.
Qed.
Print Assumptions C66_narrow_refuted.
