(** The event loop: redrawing (C55), restoring the terminal (C69) and tooltips (C70). *)
From Coq Require Import List Bool Arith ZArith Lia.
From Verif Require Import Text_Model Input_Model Loop_Model Loop_Spec Loop_Proofs.
Import ListNotations.

Section Redraw.
Variables (S V K E Msg Sz : Type).
Variables (quit recompose_wanted : S -> bool) (focus_index : S -> nat) (rebuild : S -> S) (refocus : nat -> S -> S) (fallback : S -> option S).
Variables (restyle : S -> S) (draw : S -> V).
Variables (tooltip_tick drain : S -> S * bool) (system_key : K -> bool) (open_palette : K -> S -> S)
          (key_focus : K -> S -> S * bool) (key_rest : K -> S -> S)
          (resize : Sz -> S -> S) (mouse : E -> S -> S) (message : Msg -> S -> S).
(** Resolving the styles a second time does not change the picture. *)
Hypothesis restyle_once : forall s, draw (restyle (restyle s)) = draw (restyle s).
Notation begin := (begin S V quit focus_index rebuild refocus fallback restyle draw).
Notation turn := (turn S V K E Msg Sz quit recompose_wanted focus_index rebuild refocus fallback restyle draw tooltip_tick drain system_key open_palette key_focus key_rest resize mouse message).
Notation turns := (turns S V K E Msg Sz quit recompose_wanted focus_index rebuild refocus fallback restyle draw tooltip_tick drain system_key open_palette key_focus key_rest resize mouse message).
Notation handled := (handled tooltip_tick drain system_key open_palette key_focus key_rest resize mouse message).
Notation redraws := (redraws recompose_wanted tooltip_tick drain system_key open_palette key_focus key_rest resize mouse message).
Notation current := (current restyle draw).
Notation picture := (picture restyle draw).

(** *** C55: after a mouse event, a resize, and the other events listed in
    [redraws], the loop waits with the screen showing the state. *)
Theorem C55_redrawn : forall (l : loop S V) (e : event K E Msg Sz), l_render l = false -> l_recompose l = false ->
  quit (handled (l_state l) e) = false ->
  redraws (l_state l) e \/ focus_index (handled (l_state l) e) <> l_last_focus l -> current (turn l e).
Proof. intros. eapply turn_redraws; eauto. Qed.

(** *** C55: from the start, and through any history in which each event either
    is one of those or does not change the picture, the screen is up to date. *)
Theorem C55_history : forall s blank (es : list (event K E Msg Sz)), quit s = false ->
  all_visible S V K E Msg Sz quit recompose_wanted focus_index rebuild refocus fallback restyle draw tooltip_tick drain system_key open_palette key_focus key_rest resize mouse message (begin s blank) es ->
  quit (l_state (turns (begin s blank) es)) = true \/ current (turns (begin s blank) es).
Proof.
  intros s blank es Q A. destruct (begin_current S V quit focus_index rebuild refocus fallback restyle draw restyle_once s blank Q) as (C & R & W).
  apply (turns_current S V K E Msg Sz); auto.
Qed.

(** *** C55, refuted: after any other key, and after any other message, the
    screen stays as it was, whatever the widgets and the application did with it. *)
Theorem C55_not_redrawn_refuted : forall (l : loop S V) (e : event K E Msg Sz), l_render l = false -> l_recompose l = false ->
  ~ redraws (l_state l) e -> focus_index (handled (l_state l) e) = l_last_focus l -> fallback (handled (l_state l) e) = None ->
  l_screen (turn l e) = l_screen l /\ l_state (turn l e) = handled (l_state l) e.
Proof. intros. eapply turn_ignored; eauto. Qed.

(** *** C55: nothing is handled or drawn after the application quits. *)
Theorem C55_quit : forall (l : loop S V) es es', quit (l_state (turns l es)) = true -> turns l (es ++ es') = turns l es.
Proof.
  intros l es es'. revert l. induction es as [|e es IH]; intros l Q; cbn [app Loop_Model.turns] in *.
  - destruct es'; cbn; [reflexivity|]. rewrite Q. reflexivity.
  - destruct (quit (l_state l)); [reflexivity|]. apply IH. exact Q.
Qed.
End Redraw.

(** A whole application with one focused Input: [clusters] as single characters. *)
Definition one_input_turns (es : list (event key unit unit unit)) : loop input text :=
  let gr := map (fun c => [c]) in
  let on_key := fun k s => match on_key gr s k with Some s' => s' | None => s end in
  let s0 := {| i_value := []; i_holder := None; i_cursor := 0; i_focused := true; i_shown := []; i_disabled := false; i_visible := true |} in
  turns input text key unit unit unit (fun _ => false) (fun _ => false) (fun _ => 0) (fun s => s) (fun _ s => s) (fun _ => None)
    (fun s => s) i_shown (fun s => (s, false)) (fun s => (s, false)) (fun _ => false) (fun _ s => s)
    (fun _ s => (s, false)) on_key (fun _ s => s) (fun _ s => s) (fun _ s => s)
    (begin input text (fun _ => false) (fun _ => 0) (fun s => s) (fun _ s => s) (fun _ => None) (fun s => s) i_shown s0 []) es.
(** *** C55, refuted: typed characters are in the value but not on the screen, until the mouse moves. *)
Theorem C55_typing_refuted :
  let l := one_input_turns [Key (KChar 104%Z); Key (KChar 105%Z)] in
  i_value (l_state l) = [104; 105]%Z /\ l_screen l = [] /\ i_shown (l_state l) <> [] /\
  l_screen (one_input_turns [Key (KChar 104%Z); Key (KChar 105%Z); Mouse tt]) = i_shown (l_state l).
Proof. vm_compute. repeat split; auto; discriminate. Qed.
(** A history meeting the hypothesis of [C55_history]: keys that change nothing, and a mouse event after one that does. *)
Example C55_example : let l := one_input_turns [OtherEvent; Mouse tt; Key KOther; Resize tt; PaletteTick; TooltipTick] in
  l_screen l = i_shown (l_state l) /\ l_render l = false /\ l_recompose l = false.
Proof. vm_compute. auto. Qed.

(** *** C69: whatever way the loop returns, with or without an error, the
    terminal is back to normal and that result is returned, provided the terminal
    accepts the commands. *)
Theorem C69_restored : forall works result t, (forall c, works c = true) -> result <> Panicked ->
  run_inner works result t = (normal, result).
Proof. intros works result t W N. unfold run_inner. cbn [execute]. rewrite !W. cbn. destruct result; [reflexivity|reflexivity|congruence]. Qed.
(** The same when only the commands actually used are known to work. *)
Theorem C69_restored_or_failed : forall works result t, result <> Panicked -> snd (run_inner works result t) = Done ->
  fst (run_inner works result t) = normal.
Proof.
  intros works result t N. unfold run_inner. cbn [execute].
  destruct (works RawOn); cbn; [|discriminate]. destruct (works EnterAlternate); cbn; [|discriminate]. destruct (works HideCursor); cbn; [|discriminate].
  destruct (works MouseOn); cbn; [|discriminate]. destruct result; cbn; try congruence;
  destruct (works MouseOff); cbn; try discriminate; destruct (works ShowCursor); cbn; try discriminate;
  destruct (works LeaveAlternate); cbn; try discriminate; destruct (works RawOff); cbn; try discriminate; reflexivity.
Qed.
(** A failing first command leaves the terminal alone. *)
Theorem C69_untouched : forall works result t, works RawOn = false -> run_inner works result t = (t, Failed).
Proof. intros works result t W. unfold run_inner. cbn [execute]. rewrite W. reflexivity. Qed.
(** *** C69, refuted: an error while the screen is set up leaves the terminal in raw mode. *)
Theorem C69_setup_refuted : forall works result t, works RawOn = true -> (works EnterAlternate && works HideCursor && works MouseOn) = false ->
  raw (fst (run_inner works result t)) = true /\ snd (run_inner works result t) = Failed.
Proof.
  intros works result t W H. unfold run_inner. cbn [execute]. rewrite W. destruct (works EnterAlternate); cbn; [|auto].
  destruct (works HideCursor); cbn; [|auto]. destruct (works MouseOn); [discriminate|cbn; auto].
Qed.
(** *** C69, refuted: a panic in the loop leaves raw mode, the alternate screen, the hidden cursor and mouse capture on. *)
Theorem C69_panic_refuted : forall works t, (forall c, works c = true) ->
  run_inner works Panicked t = ({| raw := true; alternate := true; cursor_hidden := true; mouse_capture := true |}, Panicked).
Proof. intros works t W. unfold run_inner. cbn [execute]. rewrite !W. reflexivity. Qed.
(** *** C69, refuted: an error in the clean-up leaves the rest of it undone and hides the error of the loop. *)
Theorem C69_cleanup_refuted : forall works result t, result <> Panicked -> works RawOn = true -> works EnterAlternate = true -> works HideCursor = true -> works MouseOn = true ->
  works MouseOff = false -> run_inner works result t = ({| raw := true; alternate := true; cursor_hidden := true; mouse_capture := true |}, Failed).
Proof. intros works result t N A B C D E. unfold run_inner. cbn [execute]. rewrite A, B, C, D. cbn. rewrite E. destruct result; [reflexivity|reflexivity|congruence]. Qed.

Section Tooltip.
Variable T : Type.
Variable eqb : T -> T -> bool.
Hypothesis eqb_iff : forall a b, eqb a b = true <-> a = b.
Variable width : T -> Z.
Variable delay : nat.
Arguments Tick {T}. Arguments Moved {T}. Arguments OtherMouse {T}. Arguments Rebuilt {T}.
Arguments p_deadline {T}. Arguments p_text {T}. Arguments p_visible {T}. Arguments p_mouse {T}. Arguments p_shown {T}.
Notation tip_run := (tip_run T eqb width delay).

(** *** C70: a tooltip on the screen belongs to the widget under the pointer: the
    pointer went to a place where that text is the tooltip, has not moved away since,
    the delay has passed, and the tooltip is centred below the pointer. *)
Theorem C70_shown : forall es t at_, p_shown (tip_run es) = Some (t, at_) ->
  exists before now pos after n, es = before ++ Moved now pos (Some t) :: after /\ Forall (resting pos t) after /\
    In (Tick n) after /\ now + delay <= n /\
    at_ = (Z.max 0 (fst pos - Z.quot (width t) 2), Z.max 0 (snd pos + 1))%Z.
Proof. intros es t at_ H. destruct (shown_means T eqb eqb_iff width delay es t at_ H) as (b & now & pos & a & n & H'). exists b, now, pos, a, n. exact H'. Qed.

(** *** C70: when the pointer comes to rest over a tooltip it is shown at the
    first tick after the delay; repeated move events at the same place do not put it off. *)
Theorem C70_appears : forall before now pos t mid n,
  p_mouse (tip_run before) <> Some pos \/ p_text (tip_run before) <> Some t ->
  Forall (fun e => resting pos t e /\ undisturbed e) mid -> now + delay <= n ->
  exists at_, p_shown (tip_run (before ++ Moved now pos (Some t) :: mid ++ [Tick n])) = Some (t, at_).
Proof. intros. eexists. apply rests; auto. Qed.

(** *** C70: moving away, moving off, pressing a button and scrolling take the tooltip down. *)
Theorem C70_taken_down : forall es,
  (forall now pos, p_shown (tip_run (es ++ [Moved now pos None])) = None) /\
  (forall now pos t, p_mouse (tip_run es) <> Some pos -> p_shown (tip_run (es ++ [Moved now pos (Some t)])) = None) /\
  p_shown (tip_run (es ++ [OtherMouse])) = None.
Proof.
  intros es. pose proof (hidden_inv T eqb width delay es) as H. rewrite run_snoc. cbn. set (p := tip_run es) in *. split; [|split].
  - intros now pos. rewrite run_snoc. cbn. fold p. destruct (p_visible p) eqn:Vp; auto.
  - intros now pos t N. rewrite run_snoc. cbn. fold p. destruct (p_mouse p) as [m|].
    + destruct (same_pos m pos) eqn:Q; [apply same_pos_iff in Q; congruence|]. cbn. rewrite andb_true_r. destruct (p_visible p) eqn:Vp; auto.
    + cbn. rewrite andb_true_r. destruct (p_visible p) eqn:Vp; auto.
  - destruct (p_visible p) eqn:Vp; auto.
Qed.

(** *** C70, refuted: rebuilding the tree takes a tooltip down for good while the
    pointer rests; no tick brings it back. *)
Theorem C70_rebuilt_refuted : forall es ns, p_visible (tip_run es) = true -> p_deadline (tip_run es) = None ->
  p_shown (tip_run (es ++ Rebuilt :: map Tick ns)) = None.
Proof.
  intros es ns Vs Dn. change (es ++ Rebuilt :: map Tick ns) with (es ++ [Rebuilt] ++ map Tick ns). rewrite app_assoc.
  assert (G : forall q, p_deadline q = None -> fold_left (tip_step T eqb width delay) (map Tick ns) q = q).
  { induction ns as [|n ns IH]; intros q Hq; [reflexivity|]. cbn. rewrite Hq. apply IH. exact Hq. }
  unfold tip_run. rewrite fold_left_app. fold (tip_run (es ++ [Rebuilt])). rewrite run_snoc, G; [reflexivity|exact Dn].
Qed.
End Tooltip.
(** The pointer moves over a button, rests, gets a second move event at the same place, and then leaves. *)
Example C70_example : let run := tip_run nat Nat.eqb (fun _ => 6%Z) 500 in
  let rest := [Moved nat 10 (1, 1)%Z None; Moved nat 20 (5, 4)%Z (Some 7); Tick nat 500; Moved nat 510 (5, 4)%Z (Some 7); Tick nat 519] in
  p_shown nat (run rest) = None /\ p_shown nat (run (rest ++ [Tick nat 520])) = Some (7, (2, 5)%Z) /\
  p_visible nat (run (rest ++ [Tick nat 520])) = true /\ p_deadline nat (run (rest ++ [Tick nat 520])) = None /\
  p_shown nat (run (rest ++ [Tick nat 520; Moved nat 530 (6, 4)%Z (Some 7)])) = None.
Proof. vm_compute. auto 6. Qed.

Print Assumptions C55_redrawn.
Print Assumptions C55_history.
Print Assumptions C55_not_redrawn_refuted.
Print Assumptions C55_quit.
Print Assumptions C55_typing_refuted.
Print Assumptions C69_restored.
Print Assumptions C69_restored_or_failed.
Print Assumptions C69_untouched.
Print Assumptions C69_setup_refuted.
Print Assumptions C69_panic_refuted.
Print Assumptions C69_cleanup_refuted.
Print Assumptions C70_shown.
Print Assumptions C70_appears.
Print Assumptions C70_taken_down.
Print Assumptions C70_rebuilt_refuted.
