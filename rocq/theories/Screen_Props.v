(** C91, C92: the classes of the screen, and scrolling it. *)
From Coq Require Import String ZArith QArith Qround List Bool Lia Sorted.
From Verif Require Import Text_Model Float32_Model Scroll_Model Scroll_Spec Scroll_Proofs Bars_Model Bars_Spec Bars2_Proofs Pointer_Model Screen_Model Screen_Spec Screen_Proofs.
Import ListNotations.
Open Scope Z_scope.

(** ** C91 *)

(** With thresholds in increasing order, and whatever happened before, the screen
    has for each axis the class of the greatest threshold its last size reached,
    and none if it is below all of them; before it has a size it has none. *)
Theorem C91_classes : forall hor ver l, increasing hor -> increasing ver ->
  match last_size None l with
  | Some (w, h) => exists a b, c_list (do_calls (screen_new hor ver) l) = a ++ b /\ classes_for hor w a /\ classes_for ver h b
  | None => c_list (do_calls (screen_new hor ver) l) = []
  end.
Proof.
  intros hor ver l A B.
  assert (M : forall b size, increasing b -> classes_for b size (matching b size)).
  { intros b size S. destruct (matching_at_most b size) as [E|(c & E)]; [right|left; exists c]; (split; [exact E|]); [now apply matching_none|now apply matching_reached]. }
  assert (H : forall l s, c_hor s = hor -> c_ver s = ver -> forall z, c_list s = match z with Some (w, h) => matching hor w ++ matching ver h | None => [] end ->
    c_list (do_calls s l) = match last_size z l with Some (w, h) => matching hor w ++ matching ver h | None => [] end).
  { clear. intros l. induction l as [|[w h|] l IH]; intros s A B z C; [exact C| |]; cbn [do_calls fold_left last_size]; apply IH; auto. cbn. now rewrite A, B. }
  specialize (H l (screen_new hor ver) eq_refl eq_refl None eq_refl). destruct (last_size None l) as [[w h]|]; [|exact H].
  exists (matching hor w), (matching ver h). split; [exact H|]. split; now apply M.
Qed.
Print Assumptions C91_classes.

(** There is only one such class. *)
Theorem C91_one : forall b size l l', increasing b -> classes_for b size l -> classes_for b size l' -> l = l'.
Proof.
  intros b size l l' S [(c & -> & H) | (-> & H)] [(d & -> & K) | (-> & K)]; [| | |reflexivity].
  - apply (matching_reached b size c S) in H. apply (matching_reached b size d S) in K. congruence.
  - destruct H as (t & I & L & _). specialize (K _ _ I). lia.
  - destruct K as (t & I & L & _). specialize (H _ _ I). lia.
Qed.
Print Assumptions C91_one.

(** ... and after a resize it asks for new styles exactly when it did before or its
    classes changed. *)
Theorem C91_repaint : forall s w h, c_dirty (resize s w h) = true <-> c_dirty s = true \/ c_list (resize s w h) <> c_list s.
Proof.
  intros s w h. unfold resize. cbn [c_dirty c_list]. set (l := matching _ _ ++ _). destruct (texts_eqb (c_list s) l) eqn:E.
  - apply texts_eqb_iff in E. split; [auto|]. intros [D|D]; [exact D|congruence].
  - split; [|reflexivity]. intros _. right. intros X. assert (texts_eqb (c_list s) l = true) by (now apply texts_eqb_iff). congruence.
Qed.
Print Assumptions C91_repaint.

(** By default: wide from 80 columns on, tall from 24 rows on. *)
Theorem C91_default : forall s w h, c_hor s = default_horizontal -> c_ver s = default_vertical -> 0 <= w -> 0 <= h ->
  c_list (resize s w h) = [if 80 <=? w then str "-wide" else str "-narrow"; if 24 <=? h then str "-tall" else str "-short"].
Proof.
  intros s w h A B W H. unfold resize. cbn [c_list]. rewrite A, B. unfold matching, default_horizontal, default_vertical. cbn [filter fst].
  rewrite (proj2 (Z.leb_le 0 w) W), (proj2 (Z.leb_le 0 h) H). destruct (80 <=? w), (24 <=? h); reflexivity.
Qed.
Print Assumptions C91_default.

(** Thresholds in another order: the last one listed that was reached wins. *)
Theorem C91_order_refuted : forall w c d, 80 <= w -> c <> d ->
  reached [(80, c); (0, d)] w c /\ matching [(80, c); (0, d)] w = [d].
Proof.
  intros w c d W N. split.
  - exists 80. split; [now left|]. split; [exact W|]. intros u e [E|[E|[]]] _; injection E as <- _; lia.
  - unfold matching. cbn [filter fst]. rewrite (proj2 (Z.leb_le 80 w) W), (proj2 (Z.leb_le 0 w) ltac:(lia)). reflexivity.
Qed.
Print Assumptions C91_order_refuted.

Example C91_sample : increasing default_horizontal /\
  c_list (do_calls (screen_new default_horizontal default_vertical) [Resize 120 20; Clean; Resize 79 24]) = [str "-narrow"; str "-tall"] /\
  c_dirty (do_calls (screen_new default_horizontal default_vertical) [Resize 120 20; Clean; Resize 90 23]) = false.
Proof. split; [repeat constructor|]. vm_compute. auto. Qed.

(** ** C92 *)

(** Whatever happens, in whatever order and whatever is on the screen: it never
    panics and its offsets are within the content. *)
Theorem C92_always_in_range : forall rnd, rounding rnd -> forall es, exists s, run_scenes rnd fresh es = Some s /\ offsets_ok (s_scroll s).
Proof. intros rnd R es. destruct (fine_scenes rnd R es fresh fine_fresh) as (s & E & F & _). eauto. Qed.
Print Assumptions C92_always_in_range.

(** A hidden axis never scrolls. *)
Theorem C92_hidden_axis : forall rnd, rounding rnd -> forall es,
  (Forall (fun ge => b_over_y (n_bars (fst ge)) = OHidden) es -> forall s, run_scenes rnd fresh es = Some s -> offset_y (s_scroll s) = 0) /\
  (Forall (fun ge => b_over_x (n_bars (fst ge)) = OHidden) es -> forall s, run_scenes rnd fresh es = Some s -> offset_x (s_scroll s) = 0).
Proof.
  intros rnd R es. split; intros F s E.
  - assert (S : still_y s) by (eapply still_scenes_y; eauto; split; [reflexivity|cbn; discriminate]). apply S.
  - assert (S : still_x s) by (eapply still_scenes_x; eauto; split; [reflexivity|cbn; discriminate]). apply S.
Qed.
Print Assumptions C92_hidden_axis.

(** Every cell of every child right of and below the corner can be scrolled into
    the content region. *)
Theorem C92_reach : forall st place inner s k x y, let l := snd (screen_layout place st inner) in let s' := screen_draw st place inner s in
  In k (fst (screen_layout place st inner)) -> 0 <= k_right k -> 0 <= k_bottom k -> inside (k_area k) x y ->
  a_x inner <= x -> a_y inner <= y -> 0 < a_w (l_content l) -> 0 < a_h (l_content l) ->
  exists ox oy, 0 <= ox <= max_scroll_x s' /\ 0 <= oy <= max_scroll_y s' /\ inside (l_content l) (x - ox) (y - oy).
Proof.
  intros st place inner s k x y. unfold screen_draw. destruct (layout_kids place st inner) as (base & H). destruct (screen_layout place st inner) as [kids l]. cbn [fst snd].
  destruct H as (_ & V & Bx & By & _ & C & _). intros I R B [Ix Iy] Lx Ly Pw Ph.
  destruct (extend_ge base kids (0, 0)) as (_ & _ & G). destruct (G k I) as [Gx Gy]. fold (virtual_size base kids) in Gx, Gy. rewrite <- V in Gx, Gy. cbn [fst snd] in Gx, Gy.
  exists (Z.max 0 (x - a_x inner - (a_w (l_content l) - 1))), (Z.max 0 (y - a_y inner - (a_h (l_content l) - 1))).
  assert (Cx : a_x (l_content l) = a_x inner) by (rewrite C; reflexivity). assert (Cy : a_y (l_content l) = a_y inner) by (rewrite C; reflexivity).
  unfold record_layout, max_scroll_x, max_scroll_y, inside. cbn. lia.
Qed.
Print Assumptions C92_reach.

(** And not beyond: as far right as possible, the child that ends last ends, with
    its margin, at the edge; the same downwards. *)
Theorem C92_no_further : forall st place inner s, let l := snd (screen_layout place st inner) in let s' := screen_draw st place inner s in
  (0 < max_scroll_x s' -> exists k, In k (fst (screen_layout place st inner)) /\
     a_x (k_area k) + a_w (k_area k) + k_right k - max_scroll_x s' = a_x (l_content l) + a_w (l_content l)) /\
  (0 < max_scroll_y s' -> exists k, In k (fst (screen_layout place st inner)) /\
     a_y (k_area k) + a_h (k_area k) + k_bottom k - max_scroll_y s' = a_y (l_content l) + a_h (l_content l)).
Proof.
  intros st place inner s. unfold screen_draw. pose proof (layout_room place st inner) as [Rw Rh].
  destruct (layout_kids place st inner) as (base & H). destruct (screen_layout place st inner) as [kids l]. cbn [fst snd] in *.
  destruct H as (_ & V & Bx & By & _ & C & _). destruct (extend_eq base kids (0, 0)) as [Ex Ey]. fold (virtual_size base kids) in Ex, Ey. rewrite <- V in Ex, Ey. cbn [fst snd] in Ex, Ey.
  assert (Cx : a_x (l_content l) = a_x inner) by (rewrite C; reflexivity). assert (Cy : a_y (l_content l) = a_y inner) by (rewrite C; reflexivity).
  assert (Mx : max_scroll_x (record_layout s l) = Z.max (l_vw l - a_w (l_content l)) 0) by reflexivity.
  assert (My : max_scroll_y (record_layout s l) = Z.max (l_vh l - a_h (l_content l)) 0) by reflexivity.
  split; intros P.
  - destruct Ex as [Ex|(k & I & Ex)]; [lia|]. exists k. split; [exact I|]. lia.
  - destruct Ey as [Ey|(k & I & Ey)]; [lia|]. exists k. split; [exact I|]. lia.
Qed.
Print Assumptions C92_no_further.

(** The bars: if there is nothing to scroll sideways and making the screen
    narrower for a bar never makes that bar unnecessary, the bars drawn are those
    room was made for, and the window is the room they leave. *)
Theorem C92_bars : forall st place inner s, let l := snd (screen_layout place st inner) in let s' := screen_draw st place inner s in
  let narrow := content_region st inner true false in
  (b_over_x st = OHidden \/ (b_over_x st = OAuto /\ b_stable st = false /\ fst (virtual_size inner (place inner)) <= a_w inner /\ fst (virtual_size narrow (place narrow)) <= a_w narrow)) ->
  (a_h inner < snd (virtual_size inner (place inner)) -> a_h inner < snd (virtual_size narrow (place narrow))) -> 0 <= a_h inner ->
  shows_v st s' = l_v l /\ shows_h st s' = l_h l /\ at_rest st inner s'.
Proof.
  intros st place inner s. cbn zeta. intros X M P. set (narrow := content_region st inner true false) in *.
  assert (K : shows_v st (screen_draw st place inner s) = l_v (snd (screen_layout place st inner)) /\
              shows_h st (screen_draw st place inner s) = l_h (snd (screen_layout place st inner))).
  { assert (Sv : shows_v st (screen_draw st place inner s) = needed (b_over_y st) (l_vh (snd (screen_layout place st inner))) (a_h (l_content (snd (screen_layout place st inner)))))
      by (unfold shows_v; destruct (b_over_y st); reflexivity).
    assert (Sh : shows_h st (screen_draw st place inner s) = needed (b_over_x st) (l_vw (snd (screen_layout place st inner))) (a_w (l_content (snd (screen_layout place st inner)))))
      by (unfold shows_h; destruct (b_over_x st); reflexivity).
    rewrite Sv, Sh. clear Sv Sh. unfold screen_layout.
    destruct (virtual_size inner (place inner)) as [ew eh] eqn:E. cbn [fst snd] in X, M.
    assert (H0 : needed (b_over_x st) ew (a_w inner) = false).
    { destruct X as [->|(-> & _ & X & _)]; [reflexivity|]. cbn. now apply Z.ltb_ge. }
    rewrite H0. destruct (needed (b_over_y st) eh (a_h inner)) eqn:V; cbn [andb].
    - fold narrow. destruct (a_w narrow <? a_w inner) eqn:W.
      + destruct (virtual_size narrow (place narrow)) as [fw fh] eqn:F. cbn [snd fst l_v l_h l_vw l_vh l_content] in *.
        assert (Hh : a_h narrow = a_h inner) by (unfold narrow, content_region; cbn; lia). rewrite Hh. split.
        * clear X. destruct (b_over_y st); cbn in V |- *; solve [reflexivity|discriminate|apply Z.ltb_lt; apply M; now apply Z.ltb_lt].
        * destruct X as [->|(-> & _ & _ & X)]; [reflexivity|]. cbn. now apply Z.ltb_ge.
      + cbn [snd l_v l_h l_vw l_vh l_content]. assert (Hh : a_h narrow = a_h inner) by (unfold narrow, content_region; cbn; lia). rewrite Hh.
        split; [exact V|]. apply Z.ltb_ge in W. destruct X as [->|(-> & _ & X & _)]; [reflexivity|]. change ((a_w narrow <? ew) = false). clearbody narrow. apply Z.ltb_ge. clear - X W. lia.
    - cbn [snd l_v l_h l_vw l_vh l_content]. assert (Hh : a_h (content_region st inner false false) = a_h inner) by (unfold content_region; cbn; lia). rewrite Hh.
      split; [exact V|]. destruct X as [->|(-> & St & X & _)]; [reflexivity|]. cbn. rewrite St. cbn. apply Z.ltb_ge. lia. }
  destruct K as [Kv Kh]. split; [exact Kv|]. split; [exact Kh|]. unfold at_rest. rewrite Kv, Kh. cbn zeta.
  destruct (layout_kids place st inner) as (base & H). destruct (screen_layout place st inner) as [kids l] eqn:E. cbn [snd] in *.
  destruct H as (_ & _ & _ & _ & _ & C & _). rewrite <- C. unfold screen_draw. rewrite E. cbn [snd]. split; [reflexivity|]. split; [reflexivity|].
  unfold offsets_ok, in_range, record_layout, set_viewport, set_virtual_size, reclamp, set_x, set_y, max_scroll_x, max_scroll_y. cbn. lia.
Qed.
Print Assumptions C92_bars.

(** Then nothing is drawn over anything else. *)
Theorem C92_apart : forall st place inner s, let l := snd (screen_layout place st inner) in let s' := screen_draw st place inner s in
  0 <= b_size_v st <= a_w inner -> 0 <= b_size_h st <= a_h inner -> shows_v st s' = l_v l -> shows_h st s' = l_h l ->
  (shows_v st s' = true -> apart (l_content l) (v_region st inner (shows_h st s'))) /\
  (shows_h st s' = true -> apart (l_content l) (h_region st inner (shows_v st s'))) /\
  (shows_v st s' = true -> apart (v_region st inner (shows_h st s')) (h_region st inner (shows_v st s'))).
Proof.
  intros st place inner s l s' Sv Sh Kv Kh. rewrite Kv, Kh. subst s'. unfold l in *. clear l Kv Kh.
  destruct (layout_kids place st inner) as (base & H). destruct (screen_layout place st inner) as [kids l]. cbn [snd] in *.
  destruct H as (_ & _ & _ & _ & _ & C & _). rewrite C. clear C. unfold apart, inside, content_region, v_region, h_region. cbn [a_x a_y a_w a_h].
  repeat split; intros E x y I J; rewrite E in *; cbn [orb] in *; destruct (l_v l), (l_h l); cbn [orb] in *; try discriminate; lia.
Qed.
Print Assumptions C92_apart.

(** The bars of the screen, [c] being its offsets with the size it has now: a press on
    the thumb grabs it at that cell and moves nothing; on the bar beside it, it moves
    the content towards the press by at most one screenful. *)
Theorem C92_press : forall rnd, rounding rnd -> forall g s x y, let st := n_bars g in
  let sv := shows_v st (s_scroll s) in let sh := shows_h st (s_scroll s) in let room := content_region st (n_inner g) sv sh in
  let c := set_viewport (s_scroll s) (a_w room) (a_h room) in
  offsets_ok c ->
  (let r := v_region st (n_inner g) sh in
   let b := thumb_bounds rnd (a_h r) (inject_Z (virtual_height c)) (inject_Z (viewport_height c)) (inject_Z (offset_y c)) in
   render_v st sv = true -> inside r x y -> 0 <= viewport_height c <= 2 ^ 24 ->
   exists s', screen_event rnd st (n_place g) (n_inner g) s (EPress x y) = Some s' /\
     offset_x (s_scroll s') = offset_x c /\
     (fst b <= y - a_y r < snd b -> s_drag s' = Some (true, y - a_y r - fst b) /\ s_scroll s' = c) /\
     (y - a_y r < fst b -> s_drag s' = s_drag s /\ offset_y c - viewport_height c <= offset_y (s_scroll s') <= offset_y c) /\
     (snd b <= y - a_y r -> fst b <= y - a_y r -> s_drag s' = s_drag s /\ offset_y c <= offset_y (s_scroll s') <= offset_y c + viewport_height c)) /\
  (let r := h_region st (n_inner g) sv in
   let b := thumb_bounds rnd (a_w r) (inject_Z (virtual_width c)) (inject_Z (viewport_width c)) (inject_Z (offset_x c)) in
   render_h st sh = true -> inside r x y -> render_v st sv = false \/ ~ inside (v_region st (n_inner g) sh) x y -> 0 <= viewport_width c <= 2 ^ 24 ->
   exists s', screen_event rnd st (n_place g) (n_inner g) s (EPress x y) = Some s' /\
     offset_y (s_scroll s') = offset_y c /\
     (fst b <= x - a_x r < snd b -> s_drag s' = Some (false, x - a_x r - fst b) /\ s_scroll s' = c) /\
     (x - a_x r < fst b -> s_drag s' = s_drag s /\ offset_x c - viewport_width c <= offset_x (s_scroll s') <= offset_x c) /\
     (snd b <= x - a_x r -> fst b <= x - a_x r -> s_drag s' = s_drag s /\ offset_x c <= offset_x (s_scroll s') <= offset_x c + viewport_width c)).
Proof.
  intros rnd R g s x y. cbv zeta. set (c := set_viewport _ _ _). intros OK. split.
  - set (r := v_region _ _ _). intros V [IX IY] VH. unfold screen_event. rewrite V. fold c r.
    assert (CP : contains_point r x y = true). { unfold contains_point. rewrite !andb_true_iff, !Z.leb_le, !Z.ltb_lt. lia. } rewrite CP. cbn [andb].
    eexists. split; [reflexivity|]. unfold on_bar. cbn [s_scroll with_scroll]. destruct (thumb_bounds _ _ _ _ _) as [ts te]. cbn [fst snd].
    pose proof (page_nonneg rnd R _ (proj1 VH)) as P0. pose proof (page_le rnd R (viewport_height c) ltac:(lia)) as P1. destruct OK as [_ [Y0 Y1]]. clearbody c r.
    destruct (Z.leb_spec ts (y - a_y r)); destruct (Z.ltb_spec (y - a_y r) te); cbn [andb].
    + cbn. repeat split; intros; try lia; reflexivity.
    + destruct (Z.ltb_spec (y - a_y r) ts); [lia|]. cbn. unfold max_scroll_y. repeat split; intros; try lia.
    + destruct (Z.ltb_spec (y - a_y r) ts); [|lia]. cbn. repeat split; intros; try lia.
    + destruct (Z.ltb_spec (y - a_y r) ts); [|lia]. cbn. repeat split; intros; try lia.
  - set (r := h_region _ _ _). intros V [IX IY] N VH. unfold screen_event. rewrite V. fold c r.
    assert (CP : contains_point r x y = true). { unfold contains_point. rewrite !andb_true_iff, !Z.leb_le, !Z.ltb_lt. lia. } rewrite CP. cbn [andb].
    assert (CV : render_v (n_bars g) (shows_v (n_bars g) (s_scroll s)) && contains_point (v_region (n_bars g) (n_inner g) (shows_h (n_bars g) (s_scroll s))) x y = false).
    { destruct N as [-> | N]; [reflexivity|]. destruct (contains_point (v_region _ _ _) x y) eqn:C; [|apply andb_false_r]. exfalso. apply N. unfold contains_point in C. rewrite !andb_true_iff, !Z.leb_le, !Z.ltb_lt in C. unfold inside. lia. }
    rewrite CV. eexists. split; [reflexivity|]. unfold on_bar. cbn [s_scroll with_scroll]. destruct (thumb_bounds _ _ _ _ _) as [ts te]. cbn [fst snd].
    pose proof (page_nonneg rnd R _ (proj1 VH)) as P0. pose proof (page_le rnd R (viewport_width c) ltac:(lia)) as P1. destruct OK as [[X0 X1] _]. clearbody c r.
    destruct (Z.leb_spec ts (x - a_x r)); destruct (Z.ltb_spec (x - a_x r) te); cbn [andb].
    + cbn. repeat split; intros; try lia; reflexivity.
    + destruct (Z.ltb_spec (x - a_x r) ts); [lia|]. cbn. unfold max_scroll_x. repeat split; intros; try lia.
    + destruct (Z.ltb_spec (x - a_x r) ts); [|lia]. cbn. repeat split; intros; try lia.
    + destruct (Z.ltb_spec (x - a_x r) ts); [|lia]. cbn. repeat split; intros; try lia.
Qed.
Print Assumptions C92_press.
(** With exact arithmetic a held thumb follows the pointer to within one cell, as
    long as it is at least a cell long by its share and the target is on the track. *)
Theorem C92_follows : forall g s x y button grab, let st := n_bars g in
  let sv := shows_v st (s_scroll s) in let sh := shows_h st (s_scroll s) in let room := content_region st (n_inner g) sv sh in
  let c := set_viewport (s_scroll s) (a_w room) (a_h room) in
  (let r := v_region st (n_inner g) (shows_h st c) in let T := a_h r in let v := virtual_height c in let w := viewport_height c in let k := y - a_y r - grab in
   s_drag s = Some (true, grab) -> 1 <= T < v -> 0 < w < v -> v <= w * T -> 0 <= k -> k + ceil_ratio (w * T) v <= T ->
   exists s', screen_event (fun q => q) st (n_place g) (n_inner g) s (EMove x y button) = Some s' /\ s_drag s' = s_drag s /\ offset_x (s_scroll s') = offset_x c /\
     k - 1 <= fst (thumb_bounds (fun q => q) T (inject_Z v) (inject_Z w) (inject_Z (offset_y (s_scroll s')))) <= k) /\
  (let r := h_region st (n_inner g) (shows_v st c) in let T := a_w r in let v := virtual_width c in let w := viewport_width c in let k := x - a_x r - grab in
   s_drag s = Some (false, grab) -> 1 <= T < v -> 0 < w < v -> v <= w * T -> 0 <= k -> k + ceil_ratio (w * T) v <= T ->
   exists s', screen_event (fun q => q) st (n_place g) (n_inner g) s (EMove x y button) = Some s' /\ s_drag s' = s_drag s /\ offset_y (s_scroll s') = offset_y c /\
     k - 1 <= fst (thumb_bounds (fun q => q) T (inject_Z v) (inject_Z w) (inject_Z (offset_x (s_scroll s')))) <= k).
Proof.
  intros g s x y button grab. cbv zeta. set (c := set_viewport _ _ _). split; intros D HT Hw WT K1 K2.
  - unfold screen_event. fold c. unfold with_scroll. cbn [s_scroll s_drag s_hover]. rewrite D. unfold screen_drag.
    set (r := v_region _ _ _) in *. destruct (drag_exact (a_h r) (virtual_height c) (viewport_height c) (y - a_y r - grab) ltac:(lia) Hw) as (p & DP & _). rewrite DP.
    destruct (drag_lands (a_h r) (virtual_height c) (viewport_height c) _ p ltac:(lia) Hw WT ltac:(lia) K1 K2 DP) as [O F].
    destruct (scroll_to_some c None (Some p)) as (c' & E & _ & _ & _ & _ & OX & OY). rewrite E. cbn [option_map]. eexists. split; [reflexivity|]. cbn [s_drag s_scroll]. split; [auto|]. split; [exact OX|].
    assert (OE : offset_y c' = Qfloor p) by (rewrite OY; unfold max_scroll_y; lia). rewrite OE. exact F.
  - unfold screen_event. fold c. unfold with_scroll. cbn [s_scroll s_drag s_hover]. rewrite D. unfold screen_drag.
    set (r := h_region _ _ _) in *. destruct (drag_exact (a_w r) (virtual_width c) (viewport_width c) (x - a_x r - grab) ltac:(lia) Hw) as (p & DP & _). rewrite DP.
    destruct (drag_lands (a_w r) (virtual_width c) (viewport_width c) _ p ltac:(lia) Hw WT ltac:(lia) K1 K2 DP) as [O F].
    destruct (scroll_to_some c (Some p) None) as (c' & E & _ & _ & _ & _ & OX & OY). rewrite E. cbn [option_map]. eexists. split; [reflexivity|]. cbn [s_drag s_scroll]. split; [auto|]. split; [exact OY|].
    assert (OE : offset_x c' = Qfloor p) by (rewrite OX; unfold max_scroll_x; lia). rewrite OE. exact F.
Qed.
Print Assumptions C92_follows.

(** The wheel brings every row into view, ... *)
Theorem C92_wheel_reaches : forall rnd g s y, at_rest (n_bars g) (n_inner g) (s_scroll s) -> shows_v (n_bars g) (s_scroll s) = true ->
  3 <= viewport_height (s_scroll s) -> 0 <= y < virtual_height (s_scroll s) ->
  exists es s', Forall (fun ge => fst ge = g /\ (snd ge = EWheel WUp false \/ snd ge = EWheel WDown false)) es /\
    run_scenes rnd s es = Some s' /\ offset_y (s_scroll s') <= y < offset_y (s_scroll s') + viewport_height (s_scroll s').
Proof.
  intros rnd g s y A V H Y. pose proof (offset_bounds _ (proj2 (proj2 A))) as O.
  set (n := Z.to_nat (offset_y (s_scroll s))). set (m := Z.to_nat (y / 3)).
  exists (repeat (g, EWheel WUp false) n ++ repeat (g, EWheel WDown false) m).
  rewrite run_scenes_app, (ups rnd g n s A V). set (s1 := with_scroll _ _).
  assert (O1 : offset_y (s_scroll s1) = 0) by (unfold s1, n; cbn [with_scroll s_scroll set_y offset_y]; rewrite Z2Nat.id by lia; lia).
  assert (A1 : at_rest (n_bars g) (n_inner g) (s_scroll s1)) by (unfold s1; cbn [with_scroll s_scroll]; apply rest_move; [exact A|unfold n; rewrite Z2Nat.id by lia; lia]).
  rewrite (downs rnd g m s1 A1 V). eexists. split; [|split; [reflexivity|]].
  - apply Forall_app. split; apply Forall_forall; intros e I; apply repeat_spec in I; subst e; cbn; auto.
  - cbn [with_scroll s_scroll set_y offset_y viewport_height]. rewrite O1. change (max_scroll_y (s_scroll s1)) with (max_scroll_y (s_scroll s)).
    change (viewport_height (s_scroll s1)) with (viewport_height (s_scroll s)).
    unfold m. rewrite Z2Nat.id by (apply Z.div_pos; lia). pose proof (Z.div_mod y 3 ltac:(lia)). pose proof (Z.mod_pos_bound y 3 ltac:(lia)). unfold max_scroll_y in *. lia.
Qed.
Print Assumptions C92_wheel_reaches.

(** ... unless the window is lower than three rows: then rows are skipped. *)
Theorem C92_wheel_skips_refuted : forall rnd g s es s', at_rest (n_bars g) (n_inner g) (s_scroll s) -> shows_v (n_bars g) (s_scroll s) = true ->
  viewport_height (s_scroll s) < 3 -> offset_y (s_scroll s) = 0 -> (exists k, virtual_height (s_scroll s) = viewport_height (s_scroll s) + 3 * k) ->
  Forall (fun ge => fst ge = g /\ (snd ge = EWheel WUp false \/ snd ge = EWheel WDown false)) es -> run_scenes rnd s es = Some s' ->
  ~ (offset_y (s_scroll s') <= 2 < offset_y (s_scroll s') + viewport_height (s_scroll s')).
Proof.
  intros rnd g s es s' A V H O (k & E) F R.
  assert (D : exists j, offset_y (s_scroll s) = 3 * j) by (exists 0; lia). clear O. revert s A V H E D R. induction F as [|[g' e] es [G W] F IH]; intros s A V H E [j D] R.
  - injection R as <-. destruct A as (_ & _ & [_ (P & _)]). lia.
  - cbn [fst snd] in G, W. subst g'. pose proof (offset_bounds _ (proj2 (proj2 A))) as O. cbn [run_scenes] in R.
    assert (M : exists i, max_scroll_y (s_scroll s) = 3 * i) by (exists (Z.max k 0); unfold max_scroll_y; lia). destruct M as [i M].
    assert (N : forall y, 0 <= y <= max_scroll_y (s_scroll s) -> (exists j, y = 3 * j) ->
      match Some (with_scroll s (set_y (s_scroll s) y)) with Some s1 => run_scenes rnd s1 es | None => None end = Some s' -> ~ (offset_y (s_scroll s') <= 2 < offset_y (s_scroll s') + viewport_height (s_scroll s'))).
    { intros y Y J R'. apply (IH (with_scroll s (set_y (s_scroll s) y))); auto. cbn [with_scroll s_scroll]. now apply rest_move. }
    destruct W as [-> | ->].
    + rewrite (wheel_up rnd _ (n_place g) _ _ A V) in R. eapply N; [| |exact R]; [lia|]. exists (Z.max (j - 1) 0). lia.
    + rewrite (wheel_down rnd _ (n_place g) _ _ A V) in R. eapply N; [| |exact R]; [lia|]. exists (Z.min (j + 1) i). lia.
Qed.
Print Assumptions C92_wheel_skips_refuted.

(** With both axes automatic, a bar at the bottom can hide the last rows: then a
    bar at the side is drawn for which no room was made, over the content. *)
Theorem C92_overlap_refuted : forall st place inner s, let l := snd (screen_layout place st inner) in let s' := screen_draw st place inner s in
  b_over_x st = OAuto -> b_over_y st = OAuto -> b_stable st = false -> b_visible st = true -> 0 < b_size_v st <= a_w inner -> b_size_h st < a_h inner ->
  a_w inner < fst (virtual_size inner (place inner)) -> a_h inner - b_size_h st < snd (virtual_size inner (place inner)) <= a_h inner ->
  l_v l = false /\ render_v st (shows_v st s') = true /\ exists x y, inside (l_content l) x y /\ inside (v_region st inner (shows_h st s')) x y.
Proof.
  intros st place inner s. cbn zeta. intros Ox Oy St Vi Sv Sh W H. unfold screen_draw, screen_layout.
  destruct (virtual_size inner (place inner)) as [ew eh]. cbn [fst snd] in W, H. rewrite Ox, Oy. cbn [needed].
  rewrite (proj2 (Z.ltb_ge (a_h inner) eh)), (proj2 (Z.ltb_lt (a_w inner) ew)) by lia. cbn [andb snd l_v l_content].
  unfold shows_v, shows_h. rewrite Ox, Oy. unfold can_scroll_x, can_scroll_y. cbn [record_layout set_viewport reclamp set_x set_y viewport_height virtual_height viewport_width virtual_width set_virtual_size l_content l_vw l_vh].
  unfold content_region. rewrite St. cbn [orb andb a_w a_h]. rewrite (proj2 (Z.ltb_lt (Z.max (a_h inner - b_size_h st) 0) eh)), (proj2 (Z.ltb_lt (Z.max (a_w inner - 0) 0) ew)) by lia.
  split; [reflexivity|]. split; [unfold render_v; rewrite Vi, (proj2 (Z.ltb_lt 0 (b_size_v st))) by lia; reflexivity|].
  exists (a_x inner + a_w inner - b_size_v st), (a_y inner). unfold inside, v_region. cbn [a_x a_y a_w a_h]. lia.
Qed.
Print Assumptions C92_overlap_refuted.

(** With a stable gutter and content that fits, the children are given the width
    of the gutter too and what they show there is cut off, with no bar in it. *)
Theorem C92_gutter_refuted : forall st place inner s k x y, let l := snd (screen_layout place st inner) in let s' := screen_draw st place inner s in
  b_over_x st = OHidden -> b_over_y st = OAuto -> b_stable st = true -> snd (virtual_size inner (place inner)) <= a_h inner ->
  In k (fst (screen_layout place st inner)) -> inside (k_area k) x y -> inside inner x y -> a_x inner + a_w inner - b_size_v st <= x ->
  fst (screen_layout place st inner) = place inner /\ shows_v st s' = false /\ ~ inside (l_content l) x y.
Proof.
  intros st place inner s k x y. cbn zeta. intros Ox Oy St H I J Ii X. unfold screen_draw. unfold screen_layout in *.
  destruct (virtual_size inner (place inner)) as [ew eh] eqn:E. cbn [fst snd] in H. rewrite Ox, Oy in *. cbn [needed] in *.
  rewrite (proj2 (Z.ltb_ge (a_h inner) eh)) in * by lia. cbn [andb fst snd l_content] in *. split; [reflexivity|]. split.
  - unfold shows_v, can_scroll_y. rewrite Oy. cbn [record_layout set_viewport reclamp set_x set_y viewport_height virtual_height set_virtual_size l_content l_vh]. apply Z.ltb_ge. unfold content_region. cbn. lia.
  - unfold inside, content_region in *. rewrite Oy, St. cbn [orb andb a_x a_y a_w a_h]. lia.
Qed.
Print Assumptions C92_gutter_refuted.

(** While nothing is dragged and no button is held, the bar marked is the one the
    pointer is on: the vertical one, else the horizontal one, else none. *)
Definition on_vertical (st : bars) (inner : area) (s : scroll) (x y : Z) : Prop :=
  shows_v st s = true /\ b_visible st = true /\ 0 < b_size_v st /\ inside (v_region st inner (shows_h st s)) x y.
Definition on_horizontal (st : bars) (inner : area) (s : scroll) (x y : Z) : Prop :=
  shows_h st s = true /\ b_visible st = true /\ 0 < b_size_h st /\ inside (h_region st inner (shows_v st s)) x y.
Theorem C92_hover : forall rnd st place inner s x y s', s_drag s = None -> screen_event rnd st place inner s (EMove x y false) = Some s' ->
  (s_hover s' = Some true <-> on_vertical st inner (s_scroll s) x y) /\
  (s_hover s' = Some false <-> on_horizontal st inner (s_scroll s) x y /\ ~ on_vertical st inner (s_scroll s) x y) /\ s_drag s' = None.
Proof.
  intros rnd st place inner s x y s' D E. unfold screen_event in E. cbn [with_scroll s_drag] in E. rewrite D in E. injection E as <-. cbn [s_hover s_drag].
  assert (V : render_v st (shows_v st (s_scroll s)) && contains_point (v_region st inner (shows_h st (s_scroll s))) x y = true <-> on_vertical st inner (s_scroll s) x y).
  { unfold render_v, contains_point, on_vertical, inside. rewrite !andb_true_iff, !Z.leb_le, !Z.ltb_lt. tauto. }
  assert (H : render_h st (shows_h st (s_scroll s)) && contains_point (h_region st inner (shows_v st (s_scroll s))) x y = true <-> on_horizontal st inner (s_scroll s) x y).
  { unfold render_h, contains_point, on_horizontal, inside. rewrite !andb_true_iff, !Z.leb_le, !Z.ltb_lt. tauto. }
  destruct (render_v _ _ && _); [|destruct (render_h _ _ && _)]; intuition congruence.
Qed.
Print Assumptions C92_hover.
(** Releasing the button ends a drag. *)
Theorem C92_release : forall rnd st place inner s s', screen_event rnd st place inner s ERelease = Some s' -> s_drag s' = None /\ s_hover s' = s_hover s.
Proof. intros rnd st place inner s s' E. injection E as <-. split; reflexivity. Qed.
Print Assumptions C92_release.
Example C92_hover_nonvacuous : exists s', screen_event (fun q => q) (Bars OScroll OScroll false 1 1 true) (fun _ => []) (Area 0 0 10 5) fresh (EMove 9 2 false) = Some s' /\ s_hover s' = Some true.
Proof. eexists. split; [reflexivity|reflexivity]. Qed.

(** Examples: a column of text as wide as what it is placed in, 40 rows high, on
    an 80 by 24 screen, and a picture 100 cells wide. *)
Definition column (h : Z) (c : area) : list kid := [Kid (Area (a_x c) (a_y c) (a_w c) h) 0 0].
Definition picture (w h : Z) (c : area) : list kid := [Kid (Area (a_x c) (a_y c) w h) 0 0].
Definition page : area := Area 0 0 80 24.
Definition downward : bars := Bars OHidden OAuto false 2 1 true.
Definition both : bars := Bars OAuto OAuto false 2 1 true.
Definition steady_gutter : bars := Bars OHidden OAuto true 2 1 true.
Definition drawn : scroller := with_scroll fresh (screen_draw downward (column 40) page (s_scroll fresh)).
Example C92_sample : at_rest downward page (s_scroll drawn) /\ shows_v downward (s_scroll drawn) = true /\ viewport_height (s_scroll drawn) = 24 /\
  viewport_width (s_scroll drawn) = 78 /\ virtual_height (s_scroll drawn) = 40 /\ max_scroll_y (s_scroll drawn) = 16 /\
  option_map (fun s => offset_y (s_scroll s)) (run_scenes exactly drawn (repeat (Scene downward (column 40) page, EWheel WDown false) 6)) = Some 16.
Proof. assert (A : at_rest downward page (s_scroll drawn)) by (unfold at_rest, offsets_ok, in_range; vm_compute; intuition congruence). split; [exact A|]. vm_compute. auto 10. Qed.
(** The hypotheses of C92_bars, C92_overlap_refuted, C92_wheel_skips_refuted and
    C92_gutter_refuted. *)
Example C92_bars_sample : let narrow := content_region downward page true false in
  b_over_x downward = OHidden /\ a_h page < snd (virtual_size page (column 40 page)) /\ a_h page < snd (virtual_size narrow (column 40 narrow)).
Proof. vm_compute. auto. Qed.
Example C92_overlap_sample : fst (virtual_size page (picture 100 24 page)) = 100 /\ snd (virtual_size page (picture 100 24 page)) = 24 /\
  l_v (snd (screen_layout (picture 100 24) both page)) = false /\ shows_v both (screen_draw both (picture 100 24) page (s_scroll fresh)) = true.
Proof. vm_compute. auto. Qed.
Definition low : scroller := with_scroll fresh (screen_draw downward (column 11) (Area 0 0 80 2) (s_scroll fresh)).
Example C92_skip_sample : at_rest downward (Area 0 0 80 2) (s_scroll low) /\ shows_v downward (s_scroll low) = true /\ viewport_height (s_scroll low) = 2 /\
  virtual_height (s_scroll low) = 2 + 3 * 3.
Proof. assert (A : at_rest downward (Area 0 0 80 2) (s_scroll low)) by (unfold at_rest, offsets_ok, in_range; vm_compute; intuition congruence). split; [exact A|]. vm_compute. auto. Qed.
Example C92_gutter_sample : inside (k_area (Kid (Area 0 0 80 10) 0 0)) 79 5 /\ inside page 79 5 /\
  fst (screen_layout (column 10) steady_gutter page) = [Kid (Area 0 0 80 10) 0 0] /\ a_w (l_content (snd (screen_layout (column 10) steady_gutter page))) = 78.
Proof. unfold inside. vm_compute. intuition congruence. Qed.
(** A press on the thumb of that page and a drag five cells down: the hypotheses of
    [C92_press] and [C92_follows]. *)
Example C92_drag_sample : let c := set_viewport (s_scroll drawn) 78 24 in
  content_region downward page true false = Area 0 0 78 24 /\ offsets_ok c /\ inside (v_region downward page false) 79 1 /\
  v_region downward page (shows_h downward c) = Area 78 0 2 24 /\ 1 <= 24 < virtual_height c /\ 0 < viewport_height c < virtual_height c /\
  virtual_height c <= viewport_height c * 24 /\ 0 <= 6 - 0 - 1 /\ 5 + ceil_ratio (24 * 24) 40 <= 24 /\
  option_map (fun s => (offset_y (s_scroll s), s_drag s)) (run_scenes exactly drawn [(Scene downward (column 40) page, EPress 79 1); (Scene downward (column 40) page, EMove 79 6 true)]) = Some (8, Some (true, 1)).
Proof. unfold offsets_ok, in_range, inside. vm_compute. intuition congruence. Qed.
