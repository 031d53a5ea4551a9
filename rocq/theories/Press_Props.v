(** C87 and C88: what switches and buttons tell the application. *)
From Coq Require Import String ZArith List Bool Arith Lia.
From Verif Require Import Text_Model Canvas_Model Canvas_Spec Press_Model Press_Spec Press_Proofs.
Import ListNotations.
Open Scope Z_scope.

(** ** C87: Switch *)

(** After any calls, the next call sends a message exactly when it toggles the
    switch, and the message is the opposite of the value before. *)
Theorem C87_messages : forall v h e, Forall on_a_screen h -> on_a_screen e ->
  let s := fst (switch_run (switch_new v) h) in
  (forall m, snd (switch_step s e) = Some m <-> toggles h e /\ m = negb (w_value s)) /\
  (snd (switch_step s e) = None <-> ~ toggles h e).
Proof.
  intros v h e F Fe s. destruct (switch_message h v e F Fe) as (A & B & C). fold s in A, B, C.
  split; [intros m; split|split].
  - intros H. destruct (C m H). auto.
  - intros [T ->]. auto.
  - intros H T. rewrite (A T) in H. discriminate.
  - exact B.
Qed.
Print Assumptions C87_messages.

(** An application that starts from the first value, and applies its own
    [set_value] calls and the messages, always has the value of the switch. *)
Theorem C87_mirror : forall v h,
  w_value (fst (switch_run (switch_new v) h)) = mirror v h (snd (switch_run (switch_new v) h)).
Proof. intros v h. now apply switch_mirror. Qed.
Print Assumptions C87_mirror.

(** The text is always there and always ten characters long, and shows the
    value (or, while loading, the spinner). *)
Theorem C87_text : forall v h, Forall on_a_screen h ->
  let s := fst (switch_run (switch_new v) h) in
  exists t, switch_text s = Some t /\ length t = 10%nat /\
    (loading h = false -> firstn 5 (skipn 2 t) = if w_value s then str "  ON " else str " OFF ") /\
    (loading h = true -> exists f, In f spinner /\ firstn 5 (skipn 2 t) = str "  " ++ [f] ++ str "  ") /\
    (focused h = true <-> hd 0 t = 62) /\ (focused h = false <-> hd 0 t = 32).
Proof.
  intros v h F s. destruct (switch_agrees h v F) as [Af _ Al _ An]. fold s in Af, Al, An. rewrite <- Af, <- Al.
  unfold switch_text. destruct (w_loading s).
  - destruct (nth_error spinner (w_frame s)) as [f|] eqn:N.
    + cbn [option_map]. eexists. split; [reflexivity|]. apply nth_error_In in N.
      destruct (w_focused s); (split; [reflexivity|]); (split; [discriminate|]);
        (split; [intros _; exists f; split; [exact N|reflexivity]|]); cbn; split; split; (reflexivity || discriminate).
    + apply nth_error_None in N. change (length spinner) with 10%nat in N. lia.
  - eexists. split; [reflexivity|].
    destruct (w_focused s), (w_value s); (split; [reflexivity|]); (split; [intros _; reflexivity|]);
      (split; [discriminate|]); cbn; split; split; (reflexivity || discriminate).
Qed.
Print Assumptions C87_text.

(** Nothing the user can see changes unless a repaint is asked for: if the switch
    is still clean, it looks as it did. *)
Theorem C87_painted : forall s h, ~ In MarkClean h -> w_dirty (fst (switch_run s h)) = false ->
  switch_looks (fst (switch_run s h)) = switch_looks s.
Proof. intros s h N D. now apply (switch_clean h s N D). Qed.
Print Assumptions C87_painted.

(** A switch can take the focus exactly when keys could toggle it. *)
Theorem C87_focusable : forall v h, Forall on_a_screen h ->
  let s := fst (switch_run (switch_new v) h) in
  (switch_focusable s = true -> focused h = true -> toggles h (Key KEnter) /\ toggles h (Key KSpace)) /\
  (toggles h (Key KEnter) -> w_visible s = true -> switch_focusable s = true).
Proof.
  intros v h F s. destruct (switch_agrees h v F) as [Af Ad Al _ _]. fold s in Af, Ad, Al.
  unfold switch_focusable, toggles. rewrite Ad, Al. split.
  - intros H Hf. apply andb_true_iff in H. destruct H as [H H3]. apply andb_true_iff in H. destruct H as [_ H2].
    apply negb_true_iff in H2, H3. auto.
  - intros (-> & -> & _) ->. reflexivity.
Qed.
Print Assumptions C87_focusable.

Definition sw_region := Region 3 2 10 1.
Definition sw_history := [SetFocus true; Key KEnter; Mouse (MDown BLeft) 5 2 sw_region; Mouse MMoved 6 2 sw_region].
Example C87_sample : toggles sw_history (Mouse (MUp BLeft) 7 2 sw_region) /\
  snd (switch_run (switch_new false) (sw_history ++ [Mouse (MUp BLeft) 7 2 sw_region])) = [None; Some true; None; None; Some false] /\
  ~ toggles sw_history (Mouse (MUp BLeft) 13 2 sw_region) /\ Forall on_a_screen sw_history.
Proof.
  split; [|split; [reflexivity|split]].
  - split; [reflexivity|split; [reflexivity|]]. cbn. split; [unfold in_region; cbn; lia|].
    exists [SetFocus true; Key KEnter], (Mouse (MDown BLeft) 5 2 sw_region), [Mouse MMoved 6 2 sw_region].
    split; [reflexivity|]. split; [cbn; unfold in_region; cbn; split; [lia|auto]|]. constructor; [cbn; tauto|constructor].
  - intros (_ & _ & H & _). unfold in_region in H. cbn in H. lia.
  - repeat constructor; vm_compute; congruence.
Qed.

(** ** C88: Button *)

(** A button without an action sends its message exactly on a press; a button
    with an action never sends a message. *)
Theorem C88_messages : forall a handler h e, Forall on_a_screen h -> on_a_screen e ->
  snd (btn_step (fst (btn_run (btn_new a handler) h)) e) = Message <-> presses h e /\ a = None /\ handler = true.
Proof.
  intros a k h e F Fe. destruct (btn_presses h a k e F Fe) as [A B]. destruct (presses_dec h e F Fe) as [P|P].
  - destruct (A P) as [E _]. rewrite E. destruct a, k; split; try discriminate; try (intros (_ & ? & ?); discriminate); auto.
  - split; [|tauto]. intros H. exfalso.
    assert (T : e = TakeAction \/ e <> TakeAction) by (destruct e; (now left) || (right; discriminate)).
    destruct T as [-> | T]; [|destruct (B P T) as [E _]; congruence].
    cbn in H. destruct (b_pending _); discriminate.
Qed.
Print Assumptions C88_messages.

(** A button with an action hands it out exactly once after a press (several
    presses before it is taken count once). *)
Theorem C88_actions : forall a handler h x, Forall on_a_screen h ->
  snd (btn_step (fst (btn_run (btn_new a handler) h)) TakeAction) = Action x <-> a = Some x /\ waiting h.
Proof.
  intros a k h x F. pose proof (btn_waiting h a k F) as W. cbn. destruct a as [y|].
  - destruct W as [[-> W]|[-> W]].
    + split; [intros E; injection E as ->; auto|intros [E _]; congruence].
    + split; [discriminate|tauto].
  - rewrite W. split; [discriminate|]. intros [? _]. discriminate.
Qed.
Print Assumptions C88_actions.

(** Actions come out of [TakeAction] only. *)
Theorem C88_actions_only : forall a handler h e x, Forall on_a_screen h -> on_a_screen e ->
  snd (btn_step (fst (btn_run (btn_new a handler) h)) e) = Action x -> e = TakeAction.
Proof.
  intros a k h e x F Fe E. destruct (btn_presses h a k e F Fe) as [A B].
  assert (T : e = TakeAction \/ e <> TakeAction) by (destruct e; (now left) || (right; discriminate)).
  destruct T as [->|T]; [reflexivity|exfalso]. destruct (presses_dec h e F Fe) as [P|P].
  - destruct (A P) as [E2 _]. rewrite E2 in E. destruct a, k; discriminate.
  - destruct (B P T) as [E2 _]. congruence.
Qed.
Print Assumptions C88_actions_only.

(** The states that style rules can ask for do not change without asking for a
    repaint. *)
Theorem C88_painted : forall s h, ~ In MarkClean h -> b_dirty (fst (btn_run s h)) = false ->
  btn_states (fst (btn_run s h)) = btn_states s.
Proof. intros s h N D. now apply (btn_clean h s N D). Qed.
Print Assumptions C88_painted.

(** What a user would expect and does not get: a press ends when the pointer
    leaves.  A button pressed and left is pressed when, at any later time, a
    release comes over it — even one whose own press was elsewhere. *)
Theorem C88_leaving_refuted : exists h1 h2 x y r,
  Forall on_a_screen (h1 ++ ClearHover :: h2) /\
  (forall e, In e h2 -> match e with Mouse (MDown _) _ _ _ | SetActive _ | Key _ => False | _ => True end) /\
  snd (btn_step (fst (btn_run (btn_new None true) (h1 ++ ClearHover :: h2))) (Mouse (MUp BLeft) x y r)) = Message /\
  snd (switch_step (fst (switch_run (switch_new true) (h1 ++ ClearHover :: h2))) (Mouse (MUp BLeft) x y r)) = None.
Proof.
  exists [Mouse (MDown BLeft) 5 2 sw_region], [Mouse MMoved 6 2 sw_region], 6, 2, sw_region.
  split; [repeat constructor; vm_compute; congruence|]. split; [intros e [<-|[]]; exact I|]. split; reflexivity.
Qed.
Print Assumptions C88_leaving_refuted.

(** Nor does a button look at the focus, as a switch does. *)
Theorem C88_focus_refuted :
  snd (btn_step (btn_new None true) (Key KEnter)) = Message /\ b_focused (btn_new None true) = false /\
  snd (switch_step (switch_new true) (Key KEnter)) = None.
Proof. repeat split. Qed.
Print Assumptions C88_focus_refuted.

Example C88_sample : let h := [Mouse (MDown BLeft) 5 2 sw_region; Mouse (MUp BLeft) 6 2 sw_region; SetFocus true] in
  waiting h /\ snd (btn_step (fst (btn_run (btn_new (Some (str "quit")) true) h)) TakeAction) = Action (str "quit") /\
  ~ waiting (h ++ [TakeAction]).
Proof.
  cbn zeta. split; [|split; [reflexivity|]].
  - exists [Mouse (MDown BLeft) 5 2 sw_region], (Mouse (MUp BLeft) 6 2 sw_region), [SetFocus true]. split; [reflexivity|].
    split; [|intros [H|[]]; discriminate]. split; [reflexivity|]. split; [unfold in_region; cbn; lia|].
    exists [], (Mouse (MDown BLeft) 5 2 sw_region), []. split; [reflexivity|]. split; [|constructor]. split; [unfold in_region; cbn; lia|reflexivity].
  - rewrite waiting_snoc. intros [[_ []]|[_ H]]. congruence.
Qed.
