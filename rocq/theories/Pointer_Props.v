(** C57: a mouse event reaches the widget drawn under the pointer. *)
From Coq Require Import ZArith List Bool Lia.
From Verif Require Import Scroll_Model Bars_Model Pointer_Model Pointer_Spec Pointer_Proofs.
Import ListNotations.
Open Scope Z_scope.

(** *** In a tree of widgets that look where they draw *)

(** The leaf seen at a cell is the first to be handed an event there, and it is
    told the region it was drawn at; where no leaf is seen, none is asked. *)
Theorem C57_seen_first : forall v x y answers press w r, fair v x y w r ->
  first_asked x y answers press w r = seen_at x y w r v.
Proof. intros. unfold first_asked, seen_at. apply seen_first. assumption. Qed.
(** Nobody who has not drawn the cell, there and in that region, is ever asked. *)
Theorem C57_only_painters : forall v x y answers press w r c, fair v x y w r ->
  In c (fst (asked x y answers press w [] r)) -> In c (painted x y w [] r v).
Proof. intros v x y answers press w r c F. apply (seen_first v x y answers press w [] r F). Qed.
(** If the leaf that is seen answers, nobody else hears of the event. *)
Theorem C57_answer_ends : forall v x y answers press w r c, fair v x y w r ->
  seen_at x y w r v = Some c -> answers (fst c) = true ->
  asked x y answers press w [] r = ([c], true).
Proof.
  intros v x y answers press w r c F S A.
  destruct (seen_first v x y answers press w [] r F) as [H _]. unfold seen_at in S. rewrite S in H.
  destruct (asked_stops x y answers press w [] r) as [N Y].
  destruct (asked x y answers press w [] r) as [l b]. cbn [fst snd] in *.
  destruct l as [ | c' l]; [discriminate | ]. cbn in H. injection H as ->.
  destruct b.
  - destruct (Y eq_refl) as (m & e & E & M & _). destruct m as [ | c0 m]; cbn in E.
    + injection E as -> ->. reflexivity.
    + injection E as <- _. inversion M. congruence.
  - specialize (N eq_refl). inversion N. congruence.
Qed.

(** *** In any tree *)

(** The event goes from leaf to leaf until one answers; nobody is asked after. *)
Theorem C57_one_answer : forall x y answers press w r,
  let (l, b) := asked x y answers press w [] r in
  if b then exists before c, l = before ++ [c] /\ answers (fst c) = true /\ Forall (fun d => answers (fst d) = false) before
  else Forall (fun d => answers (fst d) = false) l.
Proof.
  intros. destruct (asked_stops x y answers press w [] r) as [N Y].
  destruct (asked x y answers press w [] r) as [l b]. cbn [fst snd] in *. destruct b; auto.
  destruct (Y eq_refl) as (m & e & E & M & A). eauto.
Qed.
(** No event reaches anything beneath a child that the root sees as blocking.
    Attr_Props.C57_root_blocks_refuted: the root sees none as such. *)
Theorem C57_modal : forall x y answers press blocks p kids r i c,
  blocks i = true -> (i < length kids)%nat ->
  In c (fst (asked x y answers press (Box (KApp blocks) p kids) [] r)) ->
  exists j rest, fst c = j :: rest /\ (i <= j)%nat.
Proof.
  intros x y answers press blocks p kids r i c B L I. cbn [asked] in I. unfold ask_app in I.
  apply in_turn_in in I. destruct I as (a & I & J). apply in_map_iff in I. destruct I as (j & <- & I).
  exists j. rewrite ask_kid_eq in J. destruct (nth_error kids j) as [w | ]; [ | destruct J].
  apply asked_under in J. destruct J as [rest J]. exists rest. split; [exact J | ].
  exact (up_to_block_rev blocks (length kids) i j B L I).
Qed.
(** Drawing a container a second time changes nothing, so that its scroll state
    agrees with what was drawn until it is scrolled again. *)
Theorem C57_drawn : forall k p r v,
  match k with KContainer | KScrollable | KScreen | KGrid => True | _ => False end ->
  0 <= b_size_v (p_bars p) -> 0 <= b_size_h (p_bars p) -> 0 < a_w r -> 0 < a_h r ->
  drawn k (scrolled_to p (d_scroll (draw k p r v))) r v.
Proof.
  intros k p r v K A B C D. unfold drawn. rewrite (draws_settle k p r v K A B C D). reflexivity.
Qed.
Print Assumptions C57_seen_first.
Print Assumptions C57_only_painters.
Print Assumptions C57_answer_ends.
Print Assumptions C57_one_answer.
Print Assumptions C57_modal.
Print Assumptions C57_drawn.

(** *** Trees that meet the conditions, and trees that do not *)

(** Children of the given heights one below the other, and what they need. *)
Fixpoint stack (i : nat) (y : Z) (hs : list Z) (r : area) : list placement :=
  match hs with [] => [] | h :: t => (i, Area (a_x r) y (a_w r) h) :: stack (S i) (y + h) t r end.
Definition column (hs : list Z) (r : area) (_ : view) : list placement := stack 0 (a_y r) hs r.
Definition row (ws : area -> view -> list Z) (r : area) (v : view) : list placement :=
  snd (fold_left (fun '(x, l) w => (x + w, l ++ [(length l, Area x (a_y r) w (a_h r))])) (ws r v) (a_x r, [])).
Definition extent (r : area) (l : list placement) : Z * Z :=
  fold_left (fun '(w, h) q => (Z.max w (a_x (snd q) - a_x r + a_w (snd q)), Z.max h (a_y (snd q) - a_y r + a_h (snd q)))) l (0, 0).
Definition pane_of (edge : Z) (place : area -> view -> list placement) (st : bars) (s : scroll) : pane :=
  Pane edge edge edge edge place extent st s (fun _ => false).
Definition plain : bars := Bars OHidden OHidden false 0 0 true.
Definition auto_bars : bars := Bars OAuto OAuto false 2 1 true.

(** An application whose screen holds two lines and, below them, a bordered
    scrollable box of nine lines, scrolled by two; an overlay shows one line at
    the bottom right. *)
Definition news : widget := Box KScrollable (pane_of 1 (column [3; 3; 3]) auto_bars (Scroll 0 2 8 9 8 4)) [Leaf; Leaf; Leaf].
Definition lines : widget := Box KContainer (pane_of 0 (column [1; 1]) plain (Scroll 0 0 12 2 12 2)) [Leaf; Leaf].
Definition screen : widget := Box KScreen (pane_of 0 (column [2; 6]) auto_bars (Scroll 0 0 12 8 12 8)) [lines; news].
Definition overlay : widget := Box KGrid (pane_of 0 (fun r v => [(0%nat, Area 6 7 6 1)]) plain scroll_default) [Leaf].
Definition app : widget := Box (KApp (fun _ => false)) (pane_of 0 (column []) plain scroll_default) [screen; overlay].
Definition terminal : area := Area 0 0 12 8.

Example C57_fair_ex : fair (view_of terminal) 3 4 app terminal.
Proof.
  unfold app, terminal. apply fair_app; [reflexivity | ]. repeat (apply Forall_cons; [ | ]); [ | | apply Forall_nil].
  - apply fair_box; [unfold sane; cbn; lia | intros c; reflexivity | vm_compute; reflexivity | vm_compute; lia | vm_compute | ].
    { cbn. repeat split; auto; try reflexivity. }
    intros i rg w I W. vm_compute in I. destruct I as [E | [E | []]]; injection E as <- <-; cbn in W; injection W as <-.
    + split; [apply snug_box; [exact Logic.I | unfold sane; cbn; lia] | cbn; discriminate].
    + split; [apply snug_box; [exact Logic.I | unfold sane; cbn; lia] | intros _].
      apply fair_box; [unfold sane; cbn; lia | intros c; reflexivity | vm_compute; reflexivity | vm_compute; lia | vm_compute | ].
      { reflexivity. }
      intros i rg w I W. vm_compute in I.
      destruct I as [E | [E | [E | []]]]; injection E as <- <-; cbn in W; injection W as <-; (split; [apply snug_leaf | intros _; apply fair_leaf]).
  - apply fair_box; [unfold sane; cbn; lia | intros c; reflexivity | vm_compute; reflexivity | vm_compute; lia | vm_compute | ].
    { cbn. unfold bare. cbn. auto. }
    intros i rg w I W. vm_compute in I. destruct I as [E | []]; injection E as <- <-; cbn in W; injection W as <-.
    split; [apply snug_leaf | intros _; apply fair_leaf].
Qed.
(** At column 3 and row 4 one sees the second news item, scrolled up. *)
Example C57_seen_ex :
  seen_at 3 4 app terminal (view_of terminal) = Some ([0; 1; 1]%nat, Area 1 4 8 3) /\
  first_asked 3 4 (fun _ => true) true app terminal = Some ([0; 1; 1]%nat, Area 1 4 8 3) /\
  (* below the overlay's line lies the news box's border *)
  seen_at 7 7 app terminal (view_of terminal) = Some ([1; 0]%nat, Area 6 7 6 1) /\
  first_asked 7 7 (fun _ => true) true app terminal = Some ([1; 0]%nat, Area 6 7 6 1).
Proof. repeat split; reflexivity. Qed.

Ltac everyone := let ans := fresh in let pr := fresh in
  intros ans pr; vm_compute; repeat (match goal with |- context [ans ?p] => destruct (ans p) end); destruct pr; reflexivity.
Ltac facts := repeat split; try (vm_compute; reflexivity); try everyone; try (vm_compute; congruence); try (vm_compute; lia).

(** A border or padding: the container looks for its children as if it had none,
    and a click on the first line goes to the second. *)
Theorem C57_border_refuted : exists p r x y,
  let w := Box KContainer p [Leaf; Leaf] in
  let v := view_of r in
  drawn KContainer p r v /\ apart KContainer p r v x y /\
  option_map fst (seen_at x y w r v) = Some [0%nat] /\
  forall answers press, option_map fst (first_asked x y answers press w r) = Some [1%nat].
Proof.
  exists (pane_of 1 (column [1; 1]) plain (Scroll 0 0 8 2 8 4)), (Area 0 0 10 6), 3, 1. cbv zeta.
  facts.
Qed.
(** Sizes in vw: a container that does not fill the terminal measures them
    against itself when it looks for the pointer, but against the terminal when
    it draws. *)
Theorem C57_view_units_refuted : exists p r v x y,
  let w := Box KScrollable p [Leaf; Leaf] in
  sane p /\ drawn KScrollable p r v /\ apart KScrollable p r v x y /\
  option_map fst (seen_at x y w r v) = Some [0%nat] /\
  forall answers press, option_map fst (first_asked x y answers press w r) = Some [1%nat].
Proof.
  exists (pane_of 0 (row (fun _ v => [vw_w v / 4; vw_w v / 4])) plain (Scroll 0 0 40 5 40 5)), (Area 0 0 40 5), (View 80 24), 15, 2. cbv zeta.
  facts.
Qed.
(** Children that overlap: the lowest is asked, the topmost is seen. *)
Theorem C57_overlap_refuted : exists p r x y,
  let v := view_of r in
  forall k, (k = KContainer \/ k = KScrollable \/ k = KScreen \/ k = KGrid) ->
  let w := Box k p [Leaf; Leaf] in
  looks_right k p r v x y /\ drawn k p r v /\
  option_map fst (seen_at x y w r v) = Some [1%nat] /\
  forall answers press, option_map fst (first_asked x y answers press w r) = Some [0%nat].
Proof.
  exists (pane_of 0 (fun r _ => [(0%nat, r); (1%nat, Area (a_x r + 1) (a_y r + 1) 3 2)]) plain (Scroll 0 0 10 5 10 5)), (Area 0 0 10 5), 2, 2.
  cbv zeta. intros k [-> | [-> | [-> | ->]]]; facts; left; split; reflexivity.
Qed.
(** A screen that is scrolled draws its docked children scrolled as well, but
    looks for them where they would be without: a click on the footer that is
    seen goes to the text, and one on the text to the footer. *)
Theorem C57_docked_refuted : exists p r x y x' y',
  let v := view_of r in let w := Box KScreen p [Leaf; Leaf] in
  drawn KScreen p r v /\ apart KScreen p r v x y /\
  option_map fst (seen_at x y w r v) = Some [1%nat] /\
  (forall answers press, first_asked x y answers press w r = None) /\
  seen_at x' y' w r v = None /\
  (forall answers press, option_map fst (first_asked x' y' answers press w r) = Some [1%nat]).
Proof.
  exists (Pane 0 0 0 0 (fun r _ => [(0%nat, Area 0 0 (a_w r) 3); (1%nat, Area 0 (a_h r - 1) (a_w r) 1)])
           (fun r l => (a_w r, 30)) (Bars OHidden OAuto false 2 1 true) (Scroll 0 5 38 30 38 10) (Nat.eqb 1)),
    (Area 0 0 40 10), 3, 4, 3, 9. cbv zeta.
  facts.
Qed.
(** A centred child that is wider than its parent is drawn beyond it, where no
    event reaches it. *)
Theorem C57_spill_refuted : exists p r x y,
  let v := view_of r in
  let w := Box KContainer p [Box (KCenter false 20 true) p [Leaf]] in
  looks_right KContainer p r v x y /\ drawn KContainer p r v /\
  option_map fst (seen_at x y w r v) = Some [0; 0]%nat /\
  forall answers press, first_asked x y answers press w r = None.
Proof.
  exists (pane_of 0 (fun r _ => [(0%nat, Area 0 0 10 3)]) plain (Scroll 0 0 10 3 30 5)), (Area 0 0 30 5), 15, 1. cbv zeta.
  facts.
Qed.
Print Assumptions C57_border_refuted.
Print Assumptions C57_view_units_refuted.
Print Assumptions C57_overlap_refuted.
Print Assumptions C57_docked_refuted.
Print Assumptions C57_spill_refuted.
