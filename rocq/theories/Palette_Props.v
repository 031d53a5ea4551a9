(** The command palette (C71-C73), for every interleaving of user input, provider
    tasks, timers and draining. *)
From Coq Require Import String List Arith Bool ZArith Lia Permutation Sorting.Sorted.
From Verif Require Import Text_Model Palette_Model Palette_Spec Palette_Proofs Keys_Proofs.
Import ListNotations.
Open Scope nat_scope.
Open Scope list_scope.
Notation length := List.length.
#[local] Arguments visible {P} _.
#[local] Arguments set_visible {P} _ _.
#[local] Arguments query {P} _.
#[local] Arguments set_query {P} _ _.
#[local] Arguments entries {P} _.
#[local] Arguments set_entries {P} _ _.
#[local] Arguments pending {P} _.
#[local] Arguments set_pending {P} _ _.
#[local] Arguments selected {P} _.
#[local] Arguments set_selected {P} _ _.
#[local] Arguments listed {P} _.
#[local] Arguments set_listed {P} _ _.
#[local] Arguments busy {P} _.
#[local] Arguments set_busy {P} _ _.
#[local] Arguments clear_current {P} _.
#[local] Arguments set_clear_current {P} _ _.
#[local] Arguments counter {P} _.
#[local] Arguments set_counter {P} _ _.
#[local] Arguments expected {P} _.
#[local] Arguments set_expected {P} _ _.
#[local] Arguments completed {P} _.
#[local] Arguments set_completed {P} _ _.
#[local] Arguments providers {P} _.
#[local] Arguments set_providers {P} _ _.
#[local] Arguments generation {P} _.
#[local] Arguments set_generation {P} _ _.
#[local] Arguments last_update {P} _.
#[local] Arguments set_last_update {P} _ _.
#[local] Arguments pending_action {P} _.
#[local] Arguments set_pending_action {P} _ _.
#[local] Arguments selected_action {P} _.
#[local] Arguments set_selected_action {P} _ _.
#[local] Arguments events {P} _.
#[local] Arguments set_events {P} _ _.
#[local] Arguments restore_focus {P} _.
#[local] Arguments set_restore_focus {P} _ _.
#[local] Arguments run_on_select {P} _.
#[local] Arguments now {P} _.
#[local] Arguments set_now {P} _ _.
#[local] Arguments tasks {P} _.
#[local] Arguments set_tasks {P} _ _.
#[local] Arguments channel {P} _.
#[local] Arguments set_channel {P} _ _.
#[local] Arguments enqueue {P} _ _.
#[local] Arguments sync {P} _.
#[local] Arguments emit {P} _.
#[local] Arguments normalize {P} _.
#[local] Arguments refresh {P} _.
#[local] Arguments cancel_search {P} _.
#[local] Arguments close_with {P} _ _.
#[local] Arguments begin_search {P} _ _.
#[local] Arguments receive {P} _ _.
#[local] Arguments timed_flush {P} _.
#[local] Arguments finish {P} _.
#[local] Arguments start_search {P} _ _.
#[local] Arguments open_with_focus {P} _ _.
#[local] Arguments set_providers_ {P} _ _.
#[local] Arguments activate {P} _.
#[local] Arguments submit {P} _.
#[local] Arguments move_selection {P} _ _.
#[local] Arguments arrow {P} _ _.
#[local] Arguments flush {P} _.
#[local] Arguments apply_update {P} _ _.
#[local] Arguments apply_all {P} _ _.
#[local] Arguments drain_updates {P} _.
#[local] Arguments palette_new {P} _.
#[local] Arguments Search {P} _ _ _.
#[local] Arguments BusyTimer {P} _.
#[local] Arguments NoMatchesTimer {P} _ _.
#[local] Arguments sends {P} _ _.
#[local] Arguments step {P} _ _ _.
#[local] Arguments run {P} _ _ _.
#[local] Arguments answered {P} _.
#[local] Arguments answers {P} _ _ _.
#[local] Arguments taken {P} _ _ _.
#[local] Arguments taken {P} _ _ _.
#[local] Arguments focus_owed {P} _ _ _ _.
#[local] Arguments quiet {P} _.

Section Schedules.
Variable P : Type.
Variable ask : P -> text -> list hit.
(** The palette of [CommandPalette::new] after the history [ls]. *)
Definition after (ls : list (label P)) : palette P := run ask (palette_new true) ls.
Definition then_ (p : palette P) (ls : list (label P)) : palette P := run ask p ls.

Lemma after_app : forall a b, after (a ++ b) = run ask (after a) b.
Proof. intros a b. unfold after, run. apply fold_left_app. Qed.

(** *** C71: when all providers have answered the current query, the list is exactly
    all their answers, best first and in order of arrival among equals, or the
    "No matches" line when a query found nothing. *)
Theorem C71_complete : forall ls, let p := after ls in
  visible p = true -> providers p <> [] -> answered p ->
  exists order, Permutation order (providers p) /\
    (ranking (answers ask (query p) order) (entries p) \/
     (answers ask (query p) order = [] /\ trim (query p) <> [] /\ entries p = [no_matches])).
Proof. intros ls p V N A. apply complete; auto. apply reachable_fit. Qed.

(** *** C71: that state is always reached once the tasks have run and the updates are
    drained, whatever happened before. *)
Theorem C71_settles : forall ls, visible (after ls) = true ->
  exists n, let q := run ask (after ls) (repeat (Finish P 0) n ++ [Drain P]) in
    visible q = true /\ query q = query (after ls) /\ providers q = providers (after ls) /\ answered q.
Proof. intros ls V. apply settles; [apply reachable_fit|exact V]. Qed.

Lemma after_cons : forall a l b, after (a ++ l :: b) = run ask (step ask (after a) l) b.
Proof. intros a l b. rewrite after_app. reflexivity. Qed.
Lemma edit_starts : forall p q, visible p = true -> q <> query p -> step ask p (Edit P q) = start_search q p.
Proof. intros p q V N. cbn [step]. apply text_eqb_no in N. rewrite V, N. reflexivity. Qed.
Lemma started_shows : forall E (s : palette P) rest, good P s -> searching P ask E s -> visible s = true -> Forall quiet rest -> visible (run ask s rest) = true ->
  query (run ask s rest) = query s /\ providers (run ask s rest) = providers s /\
  (entries (run ask s rest) = E \/ entries (run ask s rest) = [no_matches] \/
   forall e, In e (entries (run ask s rest)) -> exists x h, In x (providers s) /\ In h (ask x (trim (query s))) /\ stands_for h e).
Proof.
  intros E s rest G S V Q V'. assert (Gn : generation (run ask s rest) = generation s). { apply quiet_run; [split; [exact G|intros _; eexists; exact S]|exact Q]. }
  destruct (run_searching P ask rest _ s G V S V' Gn) as (S'' & Q'' & P''). split; [exact Q''|]. split; [exact P''|]. rewrite <- Q'', <- P''. apply shown_so_far. exact S''.
Qed.
Lemma edited_shows : forall (p : palette P) q rest, good P p -> visible p = true -> Forall quiet rest -> visible (run ask (start_search q p) rest) = true ->
  query (run ask (start_search q p) rest) = q /\ providers (run ask (start_search q p) rest) = providers p /\
  (entries (run ask (start_search q p) rest) = entries p \/ entries (run ask (start_search q p) rest) = [no_matches] \/
   forall e, In e (entries (run ask (start_search q p) rest)) -> exists x h, In x (providers p) /\ In h (ask x (trim q)) /\ stands_for h e).
Proof.
  intros p q rest (B & R & Sa) V Q. 
  destruct (start_good P ask q p) as [G' S']; [exact (base_ready _ _ _ B)|exact V|exact R|]. destruct (start_generation P q p) as (_ & _ & _ & Qe & Pe). destruct (start_rest P q p) as (Ve & _).
  generalize dependent (start_search q p). intros s G' S' Qe Pe Ve V'. rewrite V in Ve.
  destruct (started_shows _ s rest G' S' Ve Q V') as (H1 & H2 & H3). rewrite Qe, Pe in *. split; [exact H1|]. split; [exact H2|].
  destruct H3 as [H|[H|H]]; [|auto|auto].
  destruct (providers p); [|auto]. right. right. rewrite H. intros e [].
Qed.
(** *** C71: after the query was changed the list is the old one, the "No matches"
    line or answers to the new query only: never a mixture. *)
Theorem C71_not_mixed : forall before q rest, let p := after before in let p' := after (before ++ Edit P q :: rest) in
  visible p = true -> q <> query p -> Forall quiet rest -> visible p' = true ->
  query p' = q /\ providers p' = providers p /\
  (entries p' = entries p \/ entries p' = [no_matches] \/
   forall e, In e (entries p') -> exists x h, In x (providers p) /\ In h (ask x (trim q)) /\ stands_for h e).
Proof.
  intros before q rest. cbn zeta. rewrite after_cons. pose proof (proj1 (reachable_fit P ask before)) as G. fold (after before) in G.
  generalize dependent (after before). intros p G V Nq. rewrite (edit_starts p q V Nq). intros Q V'. exact (edited_shows p q rest G V Q V').
Qed.

(** *** C72: openings and closings take turns, beginning with an opening; highlights
    are reported only while the palette is open, and it is open exactly if the last
    of the other events was an opening. *)
Theorem C72_turns : forall ls, take_turns false (taken ask (palette_new true) ls) /\ visible (after ls) = open_after false (taken ask (palette_new true) ls).
Proof.
  intros ls. destruct (taken_turns P ask ls (palette_new true)) as (tail & T & St); [apply (reachable_fit P ask [])|]. cbn [events palette_new visible app] in *. rewrite T. split; [eapply status_turns; exact St|].
  assert (H : forall es o o', status o es = Some o' -> o' = open_after o es).
  { induction es as [|e es IH]; intros o o' H; cbn in *; [congruence|]. destruct e, o; try discriminate; auto. }
  apply H. exact St.
Qed.

(** *** C72: in an open palette a command is handed to the application only by
    choosing an entry that is shown and enabled: the highlighted one with Enter, the
    one clicked with the mouse.  The palette then closes, reporting it. *)
Theorem C72_chosen : forall ls l, let p := after ls in let p' := after (ls ++ [l]) in visible p = true ->
  pending_action p' = pending_action p \/ (l = TakeAction P /\ pending_action p' = None) \/
  exists i e a, (((l = Enter P \/ l = Submit P) /\ listed p = true /\ i = selected p) \/ l = ClickEntry P i true) /\
    nth_error (entries p) i = Some e /\ e_disabled e = false /\ e_action e = Some a /\ pending_action p' = Some a /\ visible p' = false /\
    exists hs, events p' = events p ++ hs ++ [Closed true] /\ Forall is_highlight hs.
Proof.
  intros ls l p p' V. unfold p'. rewrite after_app. cbn [run fold_left]. fold p. apply step_runs; [|exact V]. apply (reachable_fit P ask ls).
Qed.
Theorem C72_enter : forall ls e, let p := after ls in visible p = true -> listed p = true -> nth_error (entries p) (selected p) = Some e -> e_disabled e = false ->
  exists a, e_action e = Some a /\ forall k, k = Enter P \/ k = Submit P ->
    let p' := after (ls ++ [k]) in pending_action p' = Some a /\ visible p' = false /\ events p' = events p ++ [Closed true].
Proof.
  intros ls e p V L N D. destruct (submit_selected P p e (proj1 (reachable_fit P ask ls)) V L N D) as (a & A & H). exists a. split; [exact A|].
  intros k K. cbn zeta. rewrite after_app. fold p. cbn [run fold_left]. assert (step ask p k = submit p) as -> by (destruct K as [-> | ->]; cbn [step]; rewrite ?V; reflexivity). exact H.
Qed.
Lemma open_stays : forall f (p : palette P), visible p = true -> open_with_focus f p = p.
Proof. intros f p V. unfold open_with_focus. rewrite V. reflexivity. Qed.
Lemma providers_visible : forall ps (p : palette P), visible (set_providers_ ps p) = visible p.
Proof.
  intros ps p. unfold set_providers_. assert (V : visible (set_expected (length ps) (set_providers ps (cancel_search p))) = visible p) by reflexivity.
  generalize dependent (set_expected (length ps) (set_providers ps (cancel_search p))). intros q V. cbn zeta. destruct (visible q) eqn:Vq; [|congruence]. rewrite <- V, <- Vq. apply start_rest.
Qed.
Lemma drain_visible : forall p : palette P, visible (fst (drain_updates p)) = visible p.
Proof. intros p. assert (F : frame P (fst (drain_updates p)) (set_channel [] p)) by apply frame_apply_all. destruct F as (F1 & _). rewrite F1. reflexivity. Qed.
Lemma finish_visible : forall i (p : palette P), visible (step ask p (Finish P i)) = visible p.
Proof. intros i p. cbn [step]. destruct (take_nth i (tasks p)) as [[t r]|]; reflexivity. Qed.
Lemma edit_visible : forall q (p : palette P), visible (step ask p (Edit P q)) = visible p.
Proof. intros q p. cbn [step]. destruct (visible p && negb (text_eqb q (query p))); [apply start_rest|reflexivity]. Qed.
Lemma arrows_visible : forall f (p : palette P), visible (arrow f p) = visible p.
Proof. intros f p. apply frame_arrow. Qed.
Lemma activated_visible : forall p : palette P, good P p -> visible p = true -> visible (activate p) = false -> pending_action (activate p) <> None.
Proof.
  intros p G V Va. destruct (activate_runs P p G V) as [Hq|(e & a & _ & _ & _ & Hq & _)]; [rewrite Hq in Va; congruence|congruence].
Qed.
Lemma submitted_visible : forall p : palette P, good P p -> visible p = true -> visible (submit p) = false -> pending_action (submit p) <> None.
Proof.
  intros p G V. destruct (submit_cases P p) as [-> |[L ->]]; try apply G; [congruence|]. apply activated_visible; auto.
Qed.
Lemma clicked_visible : forall (p : palette P) i release, good P p -> visible p = true -> visible (step ask p (ClickEntry P i release)) = false -> release = true /\ pending_action (step ask p (ClickEntry P i release)) <> None.
Proof.
  intros p i release G V. cbn [step]. rewrite V. destruct (i <? length (entries p)) eqn:Li; cbn [andb]; [|congruence]. apply Nat.ltb_lt in Li.
  assert (F : frame P (emit (set_selected i p)) p) by (eapply frame_trans; [apply frame_emit|apply frame_selected]).
  assert (A : alike P (emit (set_selected i p)) (view P p)) by (eapply alike_trans; [apply emit_alike|apply selected_alike]).
  assert (Sl : selected (emit (set_selected i p)) = i) by (rewrite emit_selected; reflexivity).
  generalize dependent (emit (set_selected i p)). intros q F A Sl. cbn zeta. destruct F as (F1 & _ & F3 & _). intros V'. destruct release; [|congruence]. split; [reflexivity|]. apply activated_visible; [|congruence|exact V'].
  eapply surface_good; [exact G|exact A|exact F3|]. unfold in_range. destruct A as (_ & _ & A3 & _). cbn in A3. rewrite A3, Sl. left. exact Li.
Qed.
Lemma closed_events : forall p : palette P, visible p = true -> events (close_with false p) = events p ++ [Closed false] /\ pending_action (close_with false p) = pending_action p.
Proof. intros p V. destruct (close_alike P false p V) as (_ & _ & _ & E & Pa & _). auto. Qed.
Lemma step_visible : forall (p : palette P) l, visible p = true -> visible (step ask p l) = false ->
  match l with Close _ | Esc _ | ClickOutside _ | Enter _ | Submit _ | ClickEntry _ _ _ => True | _ => False end.
Proof.
  intros p l V. destruct l; auto; intros H; exfalso.
  - cbn [step] in H. rewrite (open_stays f p V) in H. congruence.
  - cbn [step] in H. rewrite providers_visible in H. congruence.
  - cbn [step] in H. rewrite V, arrows_visible in H. congruence.
  - cbn [step] in H. rewrite V, arrows_visible in H. congruence.
  - rewrite edit_visible in H. congruence.
  - assert (visible (step ask p (TakeAction P)) = visible p) as E by reflexivity. congruence.
  - assert (visible (step ask p (TakeEvents P)) = visible p) as E by reflexivity. congruence.
  - cbn [step] in H. rewrite V in H. congruence.
  - assert (visible (step ask p (Advance P ms)) = visible p) as E by reflexivity. congruence.
  - rewrite finish_visible in H. congruence.
  - cbn [step] in H. rewrite drain_visible in H. congruence.
Qed.
Lemma step_closes : forall (p : palette P) l, good P p -> visible p = true -> visible (step ask p l) = false ->
  (l = Close P \/ l = Esc P \/ l = ClickOutside P) /\ events (step ask p l) = events p ++ [Closed false] /\ pending_action (step ask p l) = pending_action p \/
  (l = Enter P \/ l = Submit P \/ exists i, l = ClickEntry P i true) /\ pending_action (step ask p l) <> None.
Proof.
  intros p l G V V'. pose proof (step_visible p l V V') as K. destruct l; try contradiction; clear K.
  - left. split; [auto|]. cbn [step]. exact (closed_events p V).
  - right. split; [auto|]. cbn [step] in *. exact (submitted_visible p G V V').
  - left. split; [auto|]. cbn [step]. rewrite V. exact (closed_events p V).
  - right. split; [auto|]. cbn [step] in *. rewrite V in *. exact (submitted_visible p G V V').
  - left. split; [auto|]. cbn [step]. rewrite V. exact (closed_events p V).
  - right. destruct (clicked_visible p i release G V V') as [-> H]. split; [eauto|exact H].
Qed.
(** *** C72: an open palette is closed by Escape, a click outside, [close] or a chosen
    command, and by nothing else. *)
Theorem C72_closed_by : forall ls l, let p := after ls in let p' := after (ls ++ [l]) in visible p = true -> visible p' = false ->
  (l = Close P \/ l = Esc P \/ l = ClickOutside P) /\ events p' = events p ++ [Closed false] /\ pending_action p' = pending_action p \/
  (l = Enter P \/ l = Submit P \/ exists i, l = ClickEntry P i true) /\ pending_action p' <> None.
Proof. intros ls l. cbn zeta. rewrite after_cons. exact (step_closes (after ls) l (proj1 (reachable_fit P ask ls))). Qed.

(** *** C72: a palette that does not run commands at once: the first Enter puts the
    highlighted command into the query line and hides the list, nothing is run; the
    second one, with nothing in between, closes the palette and hands it over. *)
Theorem C72_two_steps : forall p e a, let p1 := step ask p (Enter P) in let p2 := step ask p1 (Enter P) in
  run_on_select p = false -> visible p = true -> listed p = true -> nth_error (entries p) (selected p) = Some e -> e_disabled e = false -> e_action e = Some a ->
  visible p1 = true /\ listed p1 = false /\ query p1 = e_text e /\ pending_action p1 = pending_action p /\ events p1 = events p /\
  visible p2 = false /\ pending_action p2 = Some a /\ events p2 = events p1 ++ [Closed true].
Proof.
  intros p e a. cbv zeta. intros R V L N D A.
  assert (E1 : step ask p (Enter P) = submit p) by (cbn [step]; rewrite V; reflexivity). rewrite E1.
  assert (E2 : submit p = let q := set_listed false (set_selected_action (e_action e) (set_query (e_text e) p)) in refresh (sync (set_selected 0 (set_pending [] (set_entries [] q))))).
  { unfold submit. rewrite L. unfold activate. rewrite N, D, R. reflexivity. }
  rewrite E2, A. destruct p as [v qu en pe se li bu cc co ex cm pr ge la pa sa ev rf ru no ta ch]. cbn in V, L. subst. cbn. auto 10.
Qed.

(** *** C72: the focus to restore is the one at the opening, until it is given back. *)
Theorem C72_focus : forall ls, restore_focus (after ls) = focus_owed ask None (palette_new true) ls.
Proof.
  assert (H : forall ls p, fit P ask p -> restore_focus (run ask p ls) = focus_owed ask (restore_focus p) p ls).
  { induction ls as [|l ls IH]; intros p F; [reflexivity|]. cbn [run fold_left focus_owed]. fold (run ask (step ask p l) ls). rewrite IH by (apply step_fit; exact F). f_equal.
    destruct (step_restore P ask p l (proj1 F)) as [E|[V [(f & -> & E)|[-> E]]]].
    - destruct (visible p) eqn:V; [exact E|]. destruct l; try exact E; cbn [step] in *; [|rewrite V; reflexivity].
      revert E. unfold open_with_focus. rewrite V. intros _. match goal with |- restore_focus (start_search ?q ?x) = _ => destruct (start_rest P q x) as (_ & _ & R & _) end. rewrite R. unfold enqueue. cbn [set_events restore_focus].
      destruct (rest_sync P (set_visible true (set_restore_focus (Some f) p))) as (_ & _ & R' & _). rewrite R'. reflexivity.
    - rewrite V. exact E.
    - rewrite V. exact E. }
  intros ls. apply (H ls (palette_new true)). apply (reachable_fit P ask []).
Qed.

(** *** C73: the highlighted entry is always one of the list, and can be chosen if any
    can. *)
Theorem C73_selected : forall ls, let p := after ls in
  (entries p = [] /\ selected p = 0) \/
  exists e, nth_error (entries p) (selected p) = Some e /\ (e_disabled e = true -> forall e', In e' (entries p) -> e_disabled e' = true).
Proof.
  intros ls p. destruct (reachable_fit P ask ls) as [(B & _) _]. fold (after ls) in B. fold p in B. destruct (b_selected _ _ _ B) as [H|H]; [right|left; exact H].
  destruct (nth_error (entries p) (selected p)) as [e|] eqn:N; [|apply nth_error_None in N; lia]. exists e. split; [reflexivity|]. intros D e' I.
  destruct (b_entries _ _ _ B) as [F|F].
  - rewrite Forall_forall in F. destruct (F e (nth_error_In _ _ N)) as [D' _]. congruence.
  - rewrite F in I. destruct I as [<-|[]]. reflexivity.
Qed.
(** *** C73: Down and Up move the highlight by one and stop at the ends; nothing else
    of the list changes. *)
Theorem C73_arrows : forall ls, let p := after ls in visible p = true -> listed p = true ->
  selected (after (ls ++ [Down P])) = Nat.min (selected p + 1) (length (entries p) - 1) /\ selected (after (ls ++ [Up P])) = selected p - 1 /\
  entries (after (ls ++ [Down P])) = entries p /\ entries (after (ls ++ [Up P])) = entries p.
Proof.
  intros ls p V L. destruct (reachable_fit P ask ls) as [(B & _) _]. fold (after ls) in B. fold p in B. rewrite !after_app. fold p. cbn [run fold_left step]. rewrite V. unfold arrow. rewrite L. cbn [negb andb].
  pose proof (move_selected P true _ p B) as M1. pose proof (move_selected P false _ p B) as M2. cbn [andb] in M1, M2. rewrite M1, M2, Nat.add_1_r.
  split; [reflexivity|]. split; [reflexivity|]. split; apply move_alike.
Qed.
End Schedules.
Print Assumptions C71_complete.
Print Assumptions C71_settles.
Print Assumptions C71_not_mixed.
Print Assumptions C72_turns.
Print Assumptions C72_chosen.
Print Assumptions C72_enter.
Print Assumptions C72_two_steps.
Print Assumptions C72_closed_by.
Print Assumptions C72_focus.
Print Assumptions C73_selected.
Print Assumptions C73_arrows.

(** *** Concrete palettes.  Provider 0 knows "alpha" (score 5) and "beta" (score 9),
    provider 1 knows "gamma" (score 7); the query "x" finds nothing, "g" only gamma. *)
Definition hit_of (s : Z) (t : string) : hit := {| h_score := s; h_text := str t; h_action := str t |}.
Definition demo (x : nat) (q : text) : list hit :=
  if text_eqb q [] then (if x =? 0 then [hit_of 5 "alpha"; hit_of 9 "beta"] else [hit_of 7 "gamma"])
  else if text_eqb q (str "g") then (if x =? 0 then [] else [hit_of 7 "gamma"]) else [].
Definition opening : list (label nat) := [SetProviders nat [0; 1]; OpenFocus nat 3].
(** Both providers have answered. *)
Definition both : list (label nat) := opening ++ [Finish nat 1; Finish nat 1; Drain nat].
Example C71_example : let p := after nat demo both in
  visible p = true /\ providers p = [0; 1] /\ answered p /\ map e_text (entries p) = [str "beta"; str "gamma"; str "alpha"] /\ listed p = true /\ restore_focus p = Some 3.
Proof.
  vm_compute. repeat split; try reflexivity.
  - intros x q H. repeat (destruct H as [H|H]; [discriminate|]). exact H.
  - intros hs H. exact H.
Qed.
Example C71_not_mixed_example : let p := after nat demo (both ++ Edit nat (str "g") :: [Finish nat 2; Finish nat 2; Drain nat]) in
  visible p = true /\ map e_text (entries p) = [str "gamma"].
Proof. vm_compute. auto. Qed.
Example C71_no_matches_example : let p := after nat demo (both ++ Edit nat (str "x") :: [Finish nat 2; Finish nat 2; Drain nat; Finish nat 2; Drain nat]) in
  visible p = true /\ entries p = [no_matches].
Proof. vm_compute. auto. Qed.
Example C72_example : let p := after nat demo (both ++ [Down nat; Enter nat]) in
  visible p = false /\ pending_action p = Some (str "gamma") /\
  taken demo (palette_new true) (both ++ [Down nat; TakeEvents nat; Enter nat; TakeRestore nat; OpenFocus nat 4]) =
    [Opened; Highlighted 0 (str "beta") (str "beta"); Highlighted 1 (str "gamma") (str "gamma"); Closed true; Opened].
Proof. vm_compute. auto. Qed.

Example C72_two_steps_example : let p := run demo (palette_new false) (both ++ [Down nat]) in
  run_on_select p = false /\ visible p = true /\ listed p = true /\ option_map e_action (nth_error (entries p) (selected p)) = Some (Some (str "gamma")) /\
  query (step demo p (Enter nat)) = str "gamma" /\ pending_action (step demo (step demo p (Enter nat)) (Enter nat)) = Some (str "gamma").
Proof. vm_compute. auto 10. Qed.

(** *** C71 (refuted): Enter right after typing runs a command of the old list, here
    one that does not match what was typed. *)
Theorem C71_stale_refuted : let p := after nat demo (both ++ [Edit nat (str "g"); Enter nat]) in
  pending_action p = Some (str "beta") /\ forall x, ~ In (str "beta") (map h_text (demo x (str "g"))).
Proof. split; [vm_compute; reflexivity|]. intros x. unfold demo. cbn. destruct (x =? 0); cbn; [auto|intros [H|[]]; discriminate]. Qed.
Print Assumptions C71_stale_refuted.
(** *** C71 (refuted): answers that arrive after the palette was closed are listed in
    the closed palette; they are there when it is opened again, and Enter runs one
    before any provider has been asked again. *)
Definition late : list (label nat) := opening ++ [Finish nat 1; Finish nat 1; Esc nat; Drain nat].
Theorem C71_closed_refuted :
  visible (after nat demo late) = false /\ map e_text (entries (after nat demo late)) = [str "beta"; str "gamma"; str "alpha"] /\
  pending_action (after nat demo (late ++ [OpenFocus nat 3; Enter nat])) = Some (str "beta").
Proof. vm_compute. auto. Qed.
Print Assumptions C71_closed_refuted.
(** *** C71 (refuted): a busy timer that fires together with the last answer leaves the
    palette busy although everything has been answered, and nothing is left that would
    end it. *)
Theorem C71_busy_refuted : let p := after nat demo (opening ++ [Finish nat 1; Finish nat 1; Finish nat 0; Drain nat]) in
  busy p = true /\ answered p /\ tasks p = [] /\ channel p = [].
Proof. vm_compute. repeat split; auto. Qed.
Print Assumptions C71_busy_refuted.
(** *** C73 (refuted): the highlighted place, not the highlighted command, is kept when
    further answers arrive: delta is highlighted, then alpha is, and no key or click
    changed it. *)
Definition ask2 (x : nat) (q : text) : list hit := if x =? 0 then [hit_of 5 "alpha"; hit_of 4 "delta"] else [hit_of 7 "gamma"].
Theorem C73_shift_refuted :
  let ls := [SetProviders nat [0; 1]; OpenFocus nat 3; Advance nat 300; Finish nat 1; Drain nat; Down nat] in
  let p := after nat ask2 ls in let p' := after nat ask2 (ls ++ [Finish nat 1; Drain nat]) in
  option_map e_text (nth_error (entries p) (selected p)) = Some (str "delta") /\
  option_map e_text (nth_error (entries p') (selected p')) = Some (str "alpha").
Proof. vm_compute. auto. Qed.
Print Assumptions C73_shift_refuted.
