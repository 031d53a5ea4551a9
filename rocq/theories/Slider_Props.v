(** C111: a scroll bar of its own.

    Histories are given with the latest event first.  [rnd] is the rounding of the
    arithmetic used, see Float32_Model. *)
From Coq Require Import ZArith QArith Qround Lqa Lia List Bool.
From Verif Require Import Float32_Model Float32_Proofs Scroll_Model Scroll_Spec Bars_Model Slider_Model Slider_Spec Slider_Proofs.
Import ListNotations.
Open Scope Z_scope.

(** *** What the bar shows *)

(** When all reports are of whole cells the bar shows exactly the last one. *)
Theorem C111_reports rnd vertical h : rounding rnd -> Forall whole_report h ->
  let b := after rnd vertical h in let s := last_report h in
  b_vertical b = vertical /\ b_virtual b = r_virtual s /\ b_window b = r_window s /\ b_position b = r_position s.
Proof. intros R F. cbn zeta. rewrite <- (proj1 (whole_lem rnd R h F)). exact (keeps rnd vertical h). Qed.

(** Whatever is reported, the sizes and the position come from one report. *)
Theorem C111_shows rnd vertical h :
  let b := after rnd vertical h in let s := shown rnd h in
  b_vertical b = vertical /\ b_virtual b = r_virtual s /\ b_window b = r_window s /\ b_position b = r_position s.
Proof. exact (keeps rnd vertical h). Qed.

(** The thumb is held exactly from a press on it to a release over the bar, by the
    cell that was pressed. *)
Theorem C111_held rnd vertical h g : b_look (after rnd vertical h) = Grabbed g <-> held rnd vertical h = Some g.
Proof.
  rewrite looks. unfold look_of. destruct (held rnd vertical h); [split; congruence | ].
  destruct (lit rnd vertical h); split; congruence.
Qed.
(** What the bar tells of its state: held, or else touched by the pointer. *)
Theorem C111_state rnd vertical h :
  state (after rnd vertical h) =
  match held rnd vertical h with Some _ => (false, true) | None => (lit rnd vertical h, false) end.
Proof.
  unfold state, is_hover, is_grabbed. rewrite looks. destruct (held rnd vertical h); [reflexivity | ].
  destruct (lit rnd vertical h); reflexivity.
Qed.

(** *** What the bar asks for *)

Theorem C111_press rnd vertical h x y r : over x y r ->
  let p := along vertical x y r in let (s, t) := thumb rnd vertical h r in
  answer rnd (Mouse Down x y r) (after rnd vertical h) =
  if p <? s then Some (if vertical then ScrollUp else ScrollLeft)
  else if p <? t then None
  else Some (if vertical then ScrollDown else ScrollRight).
Proof.
  intros O. apply over_iff in O. cbn zeta. cbn [answer]. unfold on_mouse. rewrite O. cbn [negb].
  rewrite bounds_thumb. destruct (keeps rnd vertical h) as (V & _). rewrite V. fold (along vertical x y r).
  destruct (thumb rnd vertical h r) as [s t].
  destruct (Z.leb_spec s (along vertical x y r)), (Z.ltb_spec (along vertical x y r) s), (Z.ltb_spec (along vertical x y r) t);
    try lia; reflexivity.
Qed.
Theorem C111_drag rnd vertical h x y r : over x y r ->
  answer rnd (Mouse Drag x y r) (after rnd vertical h) =
  match held rnd vertical h with
  | Some g => let p := dragged_to rnd (after rnd vertical h) r (along vertical x y r - g) in
              Some (if vertical then ScrollTo None (Some p) else ScrollTo (Some p) None)
  | None => None
  end.
Proof.
  intros O. apply over_iff in O. cbn [answer]. unfold on_mouse. rewrite O. cbn [negb].
  destruct (bounds _ _ r) as [s t]. rewrite looks. destruct (keeps rnd vertical h) as (V & _). rewrite V.
  unfold look_of. destruct (held rnd vertical h); [reflexivity | ]. destruct (lit rnd vertical h); reflexivity.
Qed.
Theorem C111_wheel rnd vertical h x y r : over x y r ->
  answer rnd (Mouse WheelDown x y r) (after rnd vertical h) = Some (if vertical then ScrollDown else ScrollRight) /\
  answer rnd (Mouse WheelUp x y r) (after rnd vertical h) = Some (if vertical then ScrollUp else ScrollLeft).
Proof.
  intros O. apply over_iff in O. cbn [answer]. unfold on_mouse. rewrite O. cbn [negb].
  destruct (bounds _ _ r) as [s t]. destruct (keeps rnd vertical h) as (V & _). rewrite V. auto.
Qed.
(** Nothing else makes the bar ask for anything. *)
Theorem C111_silent rnd vertical h e :
  match e with
  | Mouse m x y r => ~ over x y r \/ m = Moved \/ m = Up \/ m = Other
  | _ => True
  end -> answer rnd e (after rnd vertical h) = None.
Proof.
  destruct e as [m x y r | | | | ]; intros H; try reflexivity. cbn [answer]. unfold on_mouse.
  destruct (contains_point r x y) eqn:O; [ | reflexivity]. cbn [negb].
  destruct (bounds _ _ r) as [s t]. destruct H as [H | [-> | [-> | ->]]]; try reflexivity.
  apply over_iff in O. contradiction.
Qed.

(** Acting on a message moves the content to the allowed place nearest to the one
    asked for, on both axes. *)
Theorem C111_obeyed m s : offsets_ok s -> exists s', handle_scroll m s = Some s' /\
  virtual_width s' = virtual_width s /\ virtual_height s' = virtual_height s /\
  viewport_width s' = viewport_width s /\ viewport_height s' = viewport_height s /\
  nearest (wanted_x m (offset_x s)) (virtual_width s) (viewport_width s) (offset_x s') /\
  nearest (wanted_y m (offset_y s)) (virtual_height s) (viewport_height s) (offset_y s').
Proof. apply handled. Qed.

(** *** Dragging, in exact arithmetic *)
Definition exact (q : Q) : Q := q.

(** A thumb of at least a cell follows the pointer: scrolled to the place asked
    for, it is drawn with the held cell under the pointer. *)
Theorem C111_follows vertical h x y r g : over x y r -> held exact vertical h = Some g ->
  let s := shown exact h in let T := length_along vertical r in let p := along vertical x y r - g in
  1 <= T -> (0 < r_window s)%Q -> (r_window s < r_virtual s)%Q ->
  ~ (r_virtual s == inject_Z T)%Q -> (r_virtual s <= r_window s * inject_Z T)%Q ->
  exists q, answer exact (Mouse Drag x y r) (after exact vertical h) = Some (if vertical then ScrollTo None (Some q) else ScrollTo (Some q) None)
  /\ fst (thumb_bounds exact T (r_virtual s) (r_window s) q) = p
  /\ (0 <= p -> (inject_Z p + r_window s / r_virtual s * inject_Z T <= inject_Z T)%Q -> (0 <= q <= r_virtual s - r_window s)%Q).
Proof.
  cbn zeta. intros O G HT Hw Hv N W. rewrite (C111_drag exact vertical h x y r O), G. eexists. split; [reflexivity | ].
  destruct (keeps exact vertical h) as (V & A & B & C).
  assert (ET : track (after exact vertical h) r = length_along vertical r) by (unfold track, length_along; rewrite V; reflexivity).
  split.
  - exact (follows_lem _ _ _ HT Hw Hv _ r _ A B ET N W).
  - intros P0 P1. exact (range_lem _ _ _ HT Hw Hv _ r _ A B ET P0 P1).
Qed.

(** *** Colours *)

(** The colour shown is the one given for the state the bar is in, or else for the
    plainer state next to it. *)
Definition shades {C} (p : palette C) (hover active : bool) : C :=
  first_given (if active then [c_active _ p; c_hover _ p; c_normal _ p]
               else if hover then [c_hover _ p; c_normal _ p] else [c_normal _ p]) (c_fallback _ p).
Theorem C111_colours (C : Type) (thumb track : palette C) rnd vertical h :
  let b := after rnd vertical h in let (hover, active) := state b in
  current_colors C thumb track (b_look b) = (shades thumb hover active, shades track hover active).
Proof.
  unfold state, is_hover, is_grabbed. cbn zeta. destruct thumb as [n1 h1 a1 f1], track as [n2 h2 a2 f2].
  destruct (b_look (after rnd vertical h)); destruct n1, h1, a1, n2, h2, a2; reflexivity.
Qed.
(** The two bars of a scrolling widget: dragging or touching one says nothing of
    the other. *)
Theorem C111_two_bars (C : Type) (thumb track : palette C) vertical hover drag :
  let dragged := match drag with Some (v, _) => Bool.eqb v vertical | None => false end in
  let touched := match hover with Some v => Bool.eqb v vertical | None => false end in
  bar_colors C vertical thumb track hover drag = (shades thumb touched dragged, shades track touched dragged).
Proof.
  cbn zeta. unfold bar_colors. destruct thumb as [n1 h1 a1 f1], track as [n2 h2 a2 f2].
  destruct (match drag with Some (v, _) => _ | None => _ end); [ | destruct (match hover with Some v => _ | None => _ end)];
    destruct n1, h1, a1, n2, h2, a2; reflexivity.
Qed.

(** *** What does not hold *)

(** A release that is not over the bar leaves the thumb held, and pressing the
    track does not let go of it either; the next drag over the bar scrolls. *)
Theorem C111_release_refuted rnd vertical h g x y r : held rnd vertical h = Some g -> ~ over x y r ->
  held rnd vertical (Mouse Up x y r :: h) = Some g /\
  (forall x' y' r', over x' y' r' -> let (s, t) := thumb rnd vertical h r' in
     ~ (s <= along vertical x' y' r' < t) -> held rnd vertical (Mouse Down x' y' r' :: Mouse Up x y r :: h) = Some g) /\
  (forall x' y' r', over x' y' r' -> answer rnd (Mouse Drag x' y' r') (after rnd vertical (Mouse Up x y r :: h)) <> None).
Proof.
  intros G O. assert (NO : contains_point r x y = false).
  { apply not_true_is_false. intros Q. apply over_iff in Q. contradiction. }
  assert (U : held rnd vertical (Mouse Up x y r :: h) = Some g) by (cbn [held]; rewrite NO; exact G).
  split; [exact U | ]. split.
  - intros x' y' r' O'. destruct (thumb rnd vertical h r') as [s t] eqn:E. intros N.
    change (held rnd vertical (Mouse Down x' y' r' :: Mouse Up x y r :: h)) with
      (let (s, t) := thumb rnd vertical (Mouse Up x y r :: h) r' in
       let p := along vertical x' y' r' in
       if contains_point r' x' y' && (s <=? p) && (p <? t) then Some (p - s) else held rnd vertical (Mouse Up x y r :: h)).
    change (thumb rnd vertical (Mouse Up x y r :: h) r') with (thumb rnd vertical h r'). rewrite E. cbn zeta.
    destruct (Z.leb_spec s (along vertical x' y' r')), (Z.ltb_spec (along vertical x' y' r') t);
      rewrite ?andb_false_r; auto. lia.
  - intros x' y' r' O'. rewrite (C111_drag rnd vertical _ x' y' r' O'), U. discriminate.
Qed.

(** When the thumb ought to be shorter than a cell, no drag reaches the end. *)
Theorem C111_short_thumb_refuted vertical h x y r g q : over x y r -> held exact vertical h = Some g -> 0 <= g ->
  let s := shown exact h in let T := length_along vertical r in
  (0 < r_window s)%Q -> (r_window s < r_virtual s)%Q -> (r_window s * inject_Z T < r_virtual s)%Q ->
  answer exact (Mouse Drag x y r) (after exact vertical h) = Some (if vertical then ScrollTo None (Some q) else ScrollTo (Some q) None) ->
  (q < r_virtual s - r_window s)%Q.
Proof.
  cbn zeta. intros O G Hg Hw Hv S. rewrite (C111_drag exact vertical h x y r O), G.
  destruct (keeps exact vertical h) as (V & A & B & C).
  assert (ET : track (after exact vertical h) r = length_along vertical r) by (unfold track, length_along; rewrite V; reflexivity).
  assert (P : 0 <= along vertical x y r < length_along vertical r).
  { unfold along, length_along, over in *. destruct vertical; lia. }
  cbv zeta. intros E.
  assert (Q : q = dragged_to exact (after exact vertical h) r (along vertical x y r - g)) by (destruct vertical; congruence).
  rewrite Q. apply (short_lem (length_along vertical r)); auto; lia.
Qed.

(** When the content is exactly as long as the bar there is no thumb to hold, and a
    press anywhere scrolls down. *)
Theorem C111_equal_refuted rnd vertical h x y r : over x y r ->
  (r_virtual (shown rnd h) == inject_Z (length_along vertical r))%Q ->
  answer rnd (Mouse Down x y r) (after rnd vertical h) = Some (if vertical then ScrollDown else ScrollRight).
Proof.
  intros O E. pose proof (C111_press rnd vertical h x y r O) as P. cbv zeta in P.
  assert (Th : thumb rnd vertical h r = (0, 0)).
  { unfold thumb, thumb_bounds. rewrite (proj2 (Qeq_bool_iff _ _) E).
    destruct (Qle_bool (r_virtual _) (r_window _)); rewrite !orb_true_r; reflexivity. }
  rewrite Th in P. rewrite P. assert (0 <= along vertical x y r) by (unfold along, over in *; destruct vertical; lia).
  destruct (Z.ltb_spec (along vertical x y r) 0); [lia | reflexivity].
Qed.

(** Pressing the thumb and dragging it without moving along the bar scrolls, when the
    thumb does not start at the edge of a cell. *)
Theorem C111_jump_refuted : exists h r,
  let press := Mouse Down 0 0 r :: h in
  r_position (shown exact h) = inject_Z 9 /\
  exists q, answer exact (Mouse Drag 1 0 r) (after exact true press) = Some (ScrollTo None (Some q)) /\ (q == 0)%Q.
Proof.
  exists [Update (inject_Z 100) (inject_Z 50) (inject_Z 9)], (Area 0 0 2 10). cbv zeta.
  split; [reflexivity | ]. eexists. split; [vm_compute; reflexivity | reflexivity].
Qed.

(** A bar of ten cells, half of whose content is seen: the thumb is the first five
    cells, is pressed on its third cell and dragged three cells down. *)
Example C111_sample :
  let r := Area 10 5 2 10 in
  let h := [Mouse Down 10 7 r; Mouse Moved 11 7 r; Update (inject_Z 100) (inject_Z 50) 0] in
  over 10 10 r /\ Forall whole_report h /\ held exact true h = Some 2 /\
  thumb exact true h r = (0, 5) /\ state (after exact true h) = (false, true) /\
  state (after exact true (Mouse Up 11 9 r :: h)) = (true, false) /\
  state (after exact true (Mouse Moved 30 9 r :: Mouse Up 11 9 r :: h)) = (false, false) /\
  (exists q, answer exact (Mouse Drag 10 10 r) (after exact true h) = Some (ScrollTo None (Some q)) /\ (q == 30)%Q) /\
  answer exact (Mouse Down 10 12 r) (after exact true h) = Some ScrollDown /\
  answer rnd32 (Mouse Down 10 12 r) (after rnd32 true h) = Some ScrollDown /\
  handle_scroll ScrollDown (Scroll 0 3 50 100 50 50) = Some (Scroll 0 4 50 100 50 50) /\
  shades (Palette Z (Some 1) None (Some 3) 0) true false = 1 /\
  current_colors Z (Palette Z (Some 1) None (Some 3) 0) (Palette Z None None None 9) (Grabbed 2) = (3, 9).
Proof.
  cbv zeta. unfold over; cbn [a_x a_y a_w a_h].
  repeat match goal with |- _ /\ _ => split end;
    match goal with |- _ <= _ => lia | |- _ < _ => lia | |- exists _, _ => idtac | |- Forall _ _ => idtac | _ => vm_compute; reflexivity end.
  - repeat (apply Forall_cons || apply Forall_nil); cbn; auto.
    split; [ | split]; [exists 100 | exists 50 | exists 0]; split; (reflexivity || lia).
  - eexists. split; [vm_compute; reflexivity | reflexivity].
Qed.

Print Assumptions C111_reports.
Print Assumptions C111_shows.
Print Assumptions C111_held.
Print Assumptions C111_state.
Print Assumptions C111_press.
Print Assumptions C111_drag.
Print Assumptions C111_wheel.
Print Assumptions C111_silent.
Print Assumptions C111_obeyed.
Print Assumptions C111_follows.
Print Assumptions C111_colours.
Print Assumptions C111_two_bars.
Print Assumptions C111_release_refuted.
Print Assumptions C111_short_thumb_refuted.
Print Assumptions C111_equal_refuted.
Print Assumptions C111_jump_refuted.
