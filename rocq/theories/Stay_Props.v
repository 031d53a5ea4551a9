(** C123: content stays where it was scrolled to when a container is drawn again. *)
From Coq Require Import ZArith List Bool Lia.
From Verif Require Import Scroll_Model Scroll_Spec Bars_Model Stay_Model Stay_Spec Stay_Proofs.
From Verif Require Pointer_Model.
Import ListNotations.
Open Scope Z_scope.

(** However content, area, style and bars change from one drawing to the next: the new
    place is the one nearest to the old at which the larger of the two views lies inside
    the new content. *)
Theorem C123_place : forall v s d, 0 <= place v s ->
  nearest (place v s) (place v (draw s d)) (content v d) (Z.max (last_view v s) (room v d)).
Proof.
  intros v s d H. rewrite place_draw by exact H. unfold nearest, in_range. split; [lia|]. intros o O. lia.
Qed.
Print Assumptions C123_place.
(** So if the view did not become smaller it is the nearest of all places that show
    nothing beyond the end of the content. *)
Theorem C123_nearest : forall v s d, 0 <= place v s -> last_view v s <= room v d ->
  nearest (place v s) (place v (draw s d)) (content v d) (room v d).
Proof.
  intros v s d H L. pose proof (C123_place v s d H) as P. rewrite Z.max_r in P by exact L. exact P.
Qed.
Print Assumptions C123_nearest.
(** In any case nothing beyond the end is shown. *)
Theorem C123_inside : forall v s d, in_range (place v (draw s d)) (content v d) (room v d).
Proof.
  intros v s d. unfold in_range, place, content, room, draw, record_layout. destruct (layout_of d) as [[x y w h] vw vh sv sh].
  destruct s as [ox oy a b c e]. destruct v; cbn; unfold max_scroll_x, max_scroll_y; cbn; lia.
Qed.
Print Assumptions C123_inside.

(** A place that fits in all the drawings is kept in all of them. *)
Theorem C123_kept : forall v ds s, 0 <= place v s -> fits v (place v s) (last_view v s) ds ->
  place v (draws s ds) = place v s.
Proof.
  intros v ds. induction ds as [|d r IH]; intros s H F; [reflexivity|]. inversion F as [|last d' r' F1 F2 F3]; subst.
  assert (E : place v (draw s d) = place v s) by (rewrite place_draw by exact H; unfold in_range in F1, F2; lia).
  cbn [draws fold_left]. change (fold_left draw r (draw s d)) with (draws (draw s d) r). rewrite IH; [exact E|lia|].
  rewrite E, last_view_draw. exact F3.
Qed.
Print Assumptions C123_kept.
(** In particular: while the content keeps its length, any resizing that leaves the
    place valid keeps it, however often. *)
Theorem C123_resized : forall v ds s V, 0 <= place v s -> place v s + last_view v s <= V ->
  Forall (fun d => content v d = V /\ place v s + room v d <= V) ds ->
  place v (draws s ds) = place v s.
Proof.
  intros v ds s V H L F. apply C123_kept; [exact H|]. remember (place v s) as p eqn:EP. clear EP.
  revert L. generalize (last_view v s). induction F as [|d r [E R] F IH]; intros last L; constructor.
  - unfold in_range. lia.
  - unfold in_range. lia.
  - apply IH. exact R.
Qed.
Print Assumptions C123_resized.
(** Drawing never scrolls forward. *)
Theorem C123_never_forward : forall v ds s, 0 <= place v s -> 0 <= place v (draws s ds) <= place v s.
Proof.
  intros v ds. induction ds as [|d r IH]; intros s H; cbn [draws fold_left]; [lia|].
  change (fold_left draw r (draw s d)) with (draws (draw s d) r).
  pose proof (IH (draw s d) (place_draw_nonneg v s d)). rewrite (place_draw v s d H) in *. lia.
Qed.
Print Assumptions C123_never_forward.
(** Drawing the same again changes nothing. *)
Theorem C123_again : forall s d n, Nat.iter n (fun s => draw s d) (draw s d) = draw s d.
Proof.
  intros s d n. induction n as [|k IH]; [reflexivity|]. change (Nat.iter (S k) (fun s => draw s d) (draw s d)) with (draw (Nat.iter k (fun s => draw s d) (draw s d)) d).
  rewrite IH. apply scroll_same; [intros v|apply last_view_draw..|reflexivity|reflexivity].
  rewrite place_draw by apply place_draw_nonneg. rewrite last_view_draw. pose proof (C123_inside v s d) as [I J]. lia.
Qed.
Print Assumptions C123_again.

(** *** The screen *)
(** The screen keeps its place like a scrolling container. *)
Theorem C123_screen : forall p r w v, let s := Pointer_Model.p_scroll p in let d := Pointer_Model.draw_screen p r w in
  0 <= place v s ->
  (exists region, arranged_in p w region d) /\
  nearest (place v s) (place v (Pointer_Model.d_scroll d)) (recorded v (Pointer_Model.d_scroll d)) (Z.max (last_view v s) (side v (Pointer_Model.d_clip d))).
Proof.
  intros p r w v s d H. unfold d, Pointer_Model.draw_screen. cbv zeta.
  set (i := Pointer_Model.inner p r). destruct (Pointer_Model.p_extent p i (Pointer_Model.p_place p i w)) as [ew eh] eqn:E1.
  set (c := Pointer_Model.screen_content _ _ _ i). set (again := needed _ eh _ && _). clearbody again.
  assert (N : forall a b kids, nearest (place v s) (place v (set_viewport (set_virtual_size s a b) (a_w c) (a_h c)))
    (recorded v (set_viewport (set_virtual_size s a b) (a_w c) (a_h c))) (Z.max (last_view v s) (side v c)) /\ kids = kids :> list Pointer_Model.placement).
  { intros a b kids. split; [|reflexivity]. rewrite place_both, recorded_both, part_side by exact H. unfold nearest, in_range. split; [lia|]. intros o O. lia. }
  destruct again.
  - destruct (Pointer_Model.p_extent p c (Pointer_Model.p_place p c w)) as [fw fh] eqn:E2.
    cbn [Pointer_Model.d_scroll Pointer_Model.d_clip]. split; [|apply (N fw fh [])].
    exists c. unfold arranged_in. cbn [Pointer_Model.d_scroll Pointer_Model.d_kids]. split; [reflexivity|exact E2].
  - cbn [Pointer_Model.d_scroll Pointer_Model.d_clip]. split; [|apply (N ew eh [])].
    exists i. unfold arranged_in. cbn [Pointer_Model.d_scroll Pointer_Model.d_kids]. split; [reflexivity|exact E1].
Qed.
Print Assumptions C123_screen.

(** *** Containers *)
(** A container arranges its children without bars first.  A place that fits in that
    arrangement, with the old and the new area, and in the one drawn is kept. *)
Theorem C123_container : forall p r w v, let s := Pointer_Model.p_scroll p in let d := Pointer_Model.draw_container p r w in
  let i := Pointer_Model.inner p r in let whole := part v (Pointer_Model.p_extent p i (Pointer_Model.p_place p i w)) in
  0 <= b_size_v (Pointer_Model.p_bars p) -> 0 <= b_size_h (Pointer_Model.p_bars p) -> 0 <= side v i -> 0 <= place v s ->
  (exists region, arranged_in p w region d) /\
  0 <= place v (Pointer_Model.d_scroll d) <= place v s /\
  (in_range (place v s) whole (last_view v s) -> in_range (place v s) whole (side v i) ->
   in_range (place v s) (recorded v (Pointer_Model.d_scroll d)) (side v i) -> place v (Pointer_Model.d_scroll d) = place v s).
Proof.
  intros p r w v s d i whole B1 B2 I0 H. unfold d, Pointer_Model.draw_container. cbv zeta. fold i. fold s.
  subst whole. destruct (Pointer_Model.p_extent p i (Pointer_Model.p_place p i w)) as [ew eh] eqn:E1.
  set (s1 := set_viewport (set_virtual_size s ew eh) (a_w i) (a_h i)).
  set (c := Pointer_Model.container_content p s1 i). set (again := Pointer_Model.shows_v _ s1 && _). clearbody again.
  assert (P1 : place v s1 = Z.min (place v s) (Z.max 0 (part v (ew, eh) - Z.max (last_view v s) (side v i))))
    by (unfold s1; rewrite place_both, part_side by exact H; reflexivity).
  assert (L1 : last_view v s1 = side v i) by (unfold s1; rewrite view_both; apply part_side).
  assert (R1 : recorded v s1 = part v (ew, eh)) by (unfold s1; apply recorded_both).
  assert (RW : recorded false s1 = ew) by (unfold s1; apply recorded_both).
  assert (RH : recorded true s1 = eh) by (unfold s1; apply recorded_both).
  assert (C : side v c <= side v i).
  { unfold c, Pointer_Model.container_content. clear - B1 B2 I0.
    destruct (Pointer_Model.shows_v _ _ || _), (Pointer_Model.shows_h _ _ || _); destruct v; cbn in *; lia. }
  assert (P1n : 0 <= place v s1) by (rewrite P1; lia).
  destruct again.
  - destruct (Pointer_Model.p_extent p c (Pointer_Model.p_place p c w)) as [fw fh] eqn:E2. cbn [Pointer_Model.d_scroll].
    rewrite place_both, recorded_both, part_side, L1 by exact P1n. split; [|split].
    + exists c. unfold arranged_in. cbn [Pointer_Model.d_scroll Pointer_Model.d_kids]. rewrite !recorded_both. cbn [part fst snd].
      generalize (set_viewport (set_virtual_size s1 fw fh) (a_w c) (a_h c)). intros s2. split; [reflexivity|exact E2].
    + lia.
    + unfold in_range. intros F1 F2 F3. rewrite P1. lia.
  - cbn [Pointer_Model.d_scroll]. rewrite R1, P1. split; [|split].
    + exists i. unfold arranged_in. cbn [Pointer_Model.d_scroll Pointer_Model.d_kids]. rewrite RW, RH.
      clearbody s1. split; [reflexivity|exact E1].
    + lia.
    + unfold in_range. intros F1 F2 F3. lia.
Qed.
Print Assumptions C123_container.

(** *** Cases *)
Definition window (h len : Z) : drawing := Drawing (Bars OHidden OAuto false 1 1 true) (fun a => (a_w a, len)) (Area 0 0 20 h).
(** Ten lines of thirty, scrolled to line 12; lower, higher and lower again. *)
Example kept_12 : let s := Scroll 0 12 20 30 20 10 in
  fits true 12 10 [window 6 30; window 15 30; window 9 28] /\ map (fun n => place true (draws s (firstn n [window 6 30; window 15 30; window 9 28]))) [1; 2; 3]%nat = [12; 12; 12].
Proof.
  cbv zeta. split; [|vm_compute; reflexivity]. repeat (constructor; [vm_compute; split; [discriminate|right; discriminate]|vm_compute; split; [discriminate|right; discriminate]|]). constructor.
Qed.
(** Exception: if content and view become smaller together, a place that is still valid
    may be left: the old view is looked at first. *)
Theorem C123_jump_refuted : exists s d, offsets_ok s /\
  in_range (place true s) (content true d) (room true d) /\ place true (draw s d) <> place true s.
Proof.
  exists (Scroll 0 20 19 30 19 10), (window 5 28). vm_compute. repeat split; try discriminate; try (right; discriminate); left; reflexivity.
Qed.
Print Assumptions C123_jump_refuted.
(** Exception: a window made larger and small again has moved the content. *)
Theorem C123_forgets_refuted : exists d big s, draw s d = s /\ place true (draws s [big; d]) <> place true s.
Proof. exists (window 10 30), (window 20 30), (Scroll 0 20 19 30 19 10). split; [reflexivity|]. vm_compute. discriminate. Qed.
Print Assumptions C123_forgets_refuted.
(** Exception: beside its bar the content of a container may be longer than without it,
    as text wraps earlier.  Its end is never seen: wherever it is scrolled to, drawing
    goes back to where the content without the bar would end. *)
Definition narrow (at_ : Z) : Pointer_Model.pane :=
  Pointer_Model.Pane 0 0 0 0 (fun a _ => [(0%nat, Area (a_x a) (a_y a) (a_w a) (if a_w a <? 20 then 30 else 28))])
    (fun _ kids => match kids with (_, a) :: _ => (a_w a, a_h a) | [] => (0, 0) end)
    (Bars OHidden OAuto false 1 1 true) (Scroll 0 at_ 19 30 19 10) (fun _ => false).
Theorem C123_end_refuted : forall at_, 0 <= at_ -> let d := Pointer_Model.draw_container (narrow at_) (Area 0 0 20 10) (Pointer_Model.View 20 10) in
  recorded true (Pointer_Model.d_scroll d) = 30 /\ a_h (Pointer_Model.d_clip d) = 10 /\ place true (Pointer_Model.d_scroll d) + 10 <= 28.
Proof.
  intros at_ H d. unfold d, Pointer_Model.draw_container. cbv zeta. change (Pointer_Model.inner (narrow at_) (Area 0 0 20 10)) with (Area 0 0 20 10).
  change (Pointer_Model.p_extent (narrow at_) (Area 0 0 20 10) _) with (20, 28). cbv iota beta.
  set (s1 := set_viewport _ _ _).
  assert (V : Pointer_Model.shows_v (Pointer_Model.p_bars (narrow at_)) s1 = true) by reflexivity.
  assert (C : Pointer_Model.container_content (narrow at_) s1 (Area 0 0 20 10) = Area 0 0 19 10) by reflexivity.
  rewrite V, C. change (true && (a_w (Area 0 0 19 10) <? a_w (Area 0 0 20 10))) with true.
  change (Pointer_Model.p_extent (narrow at_) (Area 0 0 19 10) _) with (19, 30). cbv iota beta.
  cbn [Pointer_Model.d_scroll Pointer_Model.d_clip]. split; [apply recorded_both|]. split; [reflexivity|].
  assert (P1 : place true s1 = Z.min at_ 18) by (unfold s1; rewrite place_both by exact H; cbn; lia).
  rewrite place_both by lia. rewrite P1. lia.
Qed.
Print Assumptions C123_end_refuted.
(** A container where the hypotheses of [C123_container] hold at place 12. *)
Example container_12 : let p := narrow 12 in let r := Area 0 0 20 10 in
  place true (Pointer_Model.d_scroll (Pointer_Model.draw_container p r (Pointer_Model.View 20 10))) = 12 /\
  place true (Pointer_Model.d_scroll (Pointer_Model.draw_screen (narrow 20) r (Pointer_Model.View 20 10))) = 20.
Proof. vm_compute. split; reflexivity. Qed.
