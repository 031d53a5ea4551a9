(** C108 and C109: who gets a key, when the application ends, and what the command
    palette does to the focus. *)
From Coq Require Import String ZArith List Bool Arith Lia.
From Verif Require Import Text_Model Tree_Model Tree_Spec Tree_Proofs Keys_Proofs.
From Verif Require Palette_Model Palette_Proofs Palette_Props Keys_Model.
From Verif Require Import Keypress_Model Keypress_Spec Keypress_Proofs Keypress_Proofs2.
Import ListNotations.
Notation length := List.length.
Open Scope nat_scope.
Open Scope list_scope.

Section Keypress.
Variables (W Msg P : Type).
Variable ask : P -> text -> list Palette_Model.hit.
Variable system : Keys_Model.event -> bool.
Variable widget_key : list nat -> Keys_Model.code -> W -> W * option Msg.
Variable screen_key : Keys_Model.code -> W -> W * option Msg.
Variable deliver : list nat -> Msg -> W -> W.
Variable typed : Keys_Model.code -> Palette_Model.palette P -> text.
Variable asked : W -> list text * W.
Variable on_action : text -> W -> bool * W * option text.
Variable on_key : Keys_Model.code -> W -> W * bool.
Variable command_providers : W -> list P.
Notation turn f g := (turn ask system widget_key screen_key deliver typed asked f g command_providers).
Notation turns f g := (turns ask system widget_key screen_key deliver typed asked f g command_providers).
Notation start := (start (P := P)).

Lemma turn_heard : forall e (s : state W P), s_quit s = false -> s_heard (turn on_action on_key s (Key e)) = s_heard (press ask system widget_key screen_key deliver typed asked on_action on_key command_providers e s) /\
  s_quit (turn on_action on_key s (Key e)) = s_quit (press ask system widget_key screen_key deliver typed asked on_action on_key command_providers e s).
Proof.
  intros e s Q. unfold Keypress_Model.turn. rewrite Q. cbn [handle].
  match goal with |- context [settle ?x] => destruct (beside_settle W P x) as (B1 & _ & _ & B4); destruct (s_quit x) eqn:E end; [auto|]. rewrite B1, B4. auto.
Qed.
Definition reached (scr : widget) (s : state W P) : Prop := exists w es, s = turns on_action on_key (start scr w) es /\ s_quit s = false.
Lemma reached_ok : forall scr s, usable scr -> (forall a w, snd (on_action a w) = None) -> reached scr s -> fits W P ask s /\ at_ok W P scr s /\ s_quit s = false.
Proof.
  intros scr s U C (w & es & -> & Q). destruct (turns_ok W Msg P ask system widget_key screen_key deliver typed asked on_action on_key command_providers scr U C es _ (start_ok W Msg P ask widget_key screen_key deliver asked on_action on_key command_providers scr U C w)) as [G|[F A]]; [congruence|auto].
Qed.

(** C108: a key is given to the palette alone while it is open; otherwise to the one
    widget that has the focus - after Tab or Shift+Tab has moved it - and then to the
    application's [on_key]; after that come the actions that were asked for. *)
Theorem C108_heard : forall scr s e, usable scr -> (forall a w, snd (on_action a w) = None) -> reached scr s -> system e = false ->
  let k := Keys_Model.k_code e in exists acts, Forall asked_for acts /\
  (is_open s = true -> s_heard (turn on_action on_key s (Key e)) = s_heard s ++ ToPalette k :: acts) /\
  (is_open s = false -> exists i q p, nth_error (focus_order scr) i = Some q /\ focus_is (s_screen s) q /\
     nth_error (focus_order scr) (moved k (length (focus_order scr)) i) = Some p /\
     s_heard (turn on_action on_key s (Key e)) = s_heard s ++ ToWidget p k :: ToApp k :: acts).
Proof.
  intros scr s e U C R Se k. destruct (reached_ok scr s U C R) as (F & A & Q). destruct (turn_heard e s Q) as [-> _].
  destruct (press_hears W Msg P ask system widget_key screen_key deliver typed asked on_action on_key command_providers e s Se) as (acts & H & Ha). fold k in H.
  exists acts. split; [exact Ha|]. destruct (move_ok W Msg P ask widget_key deliver scr U k s F) as (_ & M1 & M2). rewrite H. split; intros V; rewrite V.
  - destruct A as [[i A]|[f A]]; [destruct A; congruence|]. rewrite (M2 f A). unfold dispatched. destruct A as (_ & _ & _ & _ & _ & -> & _). reflexivity.
  - destruct A as [[i A]|[f A]]; [|destruct A; congruence]. pose proof A as (_ & _ & _ & q & A4 & A5 & _). exists i, q.
    destruct (M1 i A) as (_ & _ & _ & p & B4 & B5 & B6). exists p. split; [exact A4|]. split; [rewrite A5; apply (only_focus_is scr U), (nth_error_In _ _ A4)|]. split; [exact B4|].
    unfold dispatched. rewrite B6, B5. unfold only. rewrite follow_update_same. destruct (order_leaf scr p (nth_error_In _ _ B4)) as (d & -> & _). reflexivity.
Qed.

(** C108: the palette key reaches neither a widget nor [on_key]. *)
Theorem C108_system : forall (s : state W P) e, s_quit s = false -> system e = true ->
  exists handled, s_heard (turn on_action on_key s (Key e)) = s_heard s ++ [Act true (str "app.command_palette") handled].
Proof.
  intros s e Q Se. destruct (turn_heard e s Q) as [-> _]. apply press_system. exact Se.
Qed.

(** C108: with the default [on_key] the application ends exactly when [on_key] was
    given q or Esc, or a quit action was not handled by the application. *)
Theorem C108_quit : forall scr w es, (forall k w, on_key k w = default_on_key k w) ->
  s_quit (turns on_action on_key (start scr w) es) = true <-> Exists ends (s_heard (turns on_action on_key (start scr w) es)).
Proof.
  intros scr w es D. apply (told_turns W Msg P ask system widget_key screen_key deliver typed asked on_action on_key command_providers D es). apply told_start.
Qed.

(** C108 (refuted: what is typed into an input stays there): typing q ends the
    application whatever the widget that has the focus does with it. *)
Theorem C108_typing_quits_refuted : forall scr s e, usable scr -> (forall a w, snd (on_action a w) = None) -> (forall k w, on_key k w = default_on_key k w) ->
  reached scr s -> is_open s = false -> system e = false -> Keys_Model.k_code e = Keys_Model.Char 113%Z ->
  s_quit (turn on_action on_key s (Key e)) = true /\
  exists p, focus_is (s_screen s) p /\ In (ToWidget p (Keys_Model.Char 113%Z)) (s_heard (turn on_action on_key s (Key e))).
Proof.
  intros scr s e U C D R V Se K. destruct (C108_heard scr s e U C R Se) as (acts & _ & _ & H). rewrite K in H. destruct (H V) as (i & q & p & H1 & H2 & H3 & H4).
  cbn [moved] in H3. assert (p = q) as -> by congruence. destruct R as (w & es & E & Q). split.
  - pose proof (C108_quit scr w (es ++ [Key e]) D) as T. assert (X : turns on_action on_key (start scr w) (es ++ [Key e]) = turn on_action on_key s (Key e)).
    { rewrite E. unfold Keypress_Model.turns. rewrite fold_left_app. reflexivity. }
    rewrite X in T. apply T. rewrite H4. apply Exists_app. right. apply Exists_cons. right. apply Exists_cons. left. left. reflexivity.
  - exists q. split; [exact H2|]. rewrite H4. apply in_or_app. right. left. reflexivity.
Qed.

(** C109: when the palette is closed, the keys go to the one widget of the screen that
    has the focus; when it is open, to the palette, and no widget of the screen has
    the focus.  Nothing but the focus of the widgets ever changes. *)
Theorem C109_always : forall scr s, usable scr -> (forall a w, snd (on_action a w) = None) -> reached scr s ->
  unfocused (s_screen s) = unfocused scr /\
  (is_open s = false -> exists p, In p (focus_order scr) /\ s_path s = 0 :: p /\ focus_is (s_screen s) p) /\
  (is_open s = true -> s_path s = palette_path /\ s_pfocus s = true /\ focus_nowhere (s_screen s)).
Proof.
  intros scr s U C R. destruct (reached_ok scr s U C R) as (_ & A & _). split; [|split].
  - destruct A as [[i A]|[f A]]; [apply (alike_clear scr), (closed_clear W P scr U i s A)|]. destruct A as (_ & _ & _ & _ & -> & _). apply clear_shape.
  - intros V. destruct A as [[i A]|[f A]]; [|destruct A; congruence]. destruct A as (_ & _ & _ & p & A4 & A5 & A6). exists p. split; [apply (nth_error_In _ _ A4)|]. split; [exact A6|].
    rewrite A5. apply (only_focus_is scr U), (nth_error_In _ _ A4).
  - intros V. destruct A as [[i A]|[f A]]; [destruct A; congruence|]. destruct A as (_ & _ & _ & _ & A5 & A6 & A7). split; [exact A6|]. split; [exact A7|]. rewrite A5. apply (clear_nowhere scr U).
Qed.

(** C109: the palette key opens the palette unless the application handles the action
    itself, and does not close an open one. *)
Theorem C109_opens : forall scr s e, usable scr -> (forall a w, snd (on_action a w) = None) -> reached scr s -> system e = true ->
  is_open (turn on_action on_key s (Key e)) = is_open s || negb (fst (fst (on_action (str "app.command_palette") (s_world s)))).
Proof.
  intros scr s e U C R Se. destruct (reached_ok scr s U C R) as (F & A & Q). unfold Keypress_Model.turn. rewrite Q. cbn [handle]. unfold press. rewrite Se.
  set (s1 := act ask on_action command_providers true s (str "app.command_palette")).
  assert (K : is_open (drain ask s1) = is_open s || negb (fst (fst (on_action (str "app.command_palette") (s_world s))))).
  { pose proof (act_fits W P ask on_action command_providers true s (str "app.command_palette") F) as F1. fold s1 in F1. destruct (drain_same W P ask scr s1 F1) as (_ & D1 & D2 & _).
    destruct A as [[i A]|[f A]].
    - destruct (act_acted W Msg P ask widget_key screen_key deliver asked on_action on_key command_providers scr U C true s (str "app.command_palette") F) as (A1 & _). fold s1 in A1. rewrite (proj1 A). cbn [orb].
      pose proof (C (str "app.command_palette") (s_world s)) as Cn. destruct (on_action (str "app.command_palette") (s_world s)) as [[h w] f] eqn:Eh. cbn [fst snd] in *. subst f. destruct h; cbn [negb].
      + destruct (A1 i A) as [X|(_ & X & _)]; [exact (proj1 (D1 i X))|discriminate].
      + assert (O : is_open s1 = true).
        { unfold s1. rewrite (act_opens W P ask on_action command_providers true s (str "app.command_palette") w Eh eq_refl eq_refl eq_refl).
          match goal with |- is_open (focus_id palette_id ?x) = true => rewrite (beside_open W P x (focus_id palette_id x)) by apply beside_id end. apply open_again, F. }
        destruct (A1 i A) as [X|(X & _)]; [destruct X; congruence|]. exact (proj1 (D2 i X)).
    - pose proof (key_open W P ask on_action command_providers scr U C f s F A) as X. fold s1 in X. destruct (D2 f X) as [X' _]. rewrite X', (proj1 A). reflexivity. }
  match goal with |- is_open (if ?b then _ else _) = _ => destruct b end; [exact K|]. rewrite (beside_open W P (drain ask s1)); [exact K|apply beside_settle].
Qed.

(** C109: when the palette that was opened by its key is closed again, by whatever
    means, the focus is where it was; unless one of the actions asked for in between
    opened the palette anew. *)
Theorem C109_round_trip : forall scr s e es, usable scr -> (forall a w, snd (on_action a w) = None) -> reached scr s -> is_open s = false -> system e = true ->
  let run l := turns on_action on_key s (Key e :: l) in
  (forall a b, es = a ++ b -> b <> [] -> is_open (run a) = true) -> is_open (run es) = false -> s_quit (run es) = false ->
  (forall since, s_heard (run es) = s_heard s ++ since -> ~ Exists reopens since) ->
  s_screen (run es) = s_screen s /\ s_path (run es) = s_path s /\ s_cur (run es) = s_cur s.
Proof.
  intros scr s e es U C R V Se run O V' Q' N1. destruct (reached_ok scr s U C R) as (F & A & Q).
  destruct A as [[i A]|[f A]]; [|destruct A; congruence]. destruct (closed_clear W P scr U i s A) as [_ L].
  set (s1 := turn on_action on_key s (Key e)) in *. assert (RUN : forall l, run l = turns on_action on_key s1 l) by reflexivity.
  destruct es as [|e1 es1].
  { (* the palette key did not open it *)
    rewrite RUN in V', Q' |- *. cbn in V', Q' |- *. unfold s1 in *. unfold Keypress_Model.turn in *. rewrite Q in *. cbn [handle] in *. unfold press in *. rewrite Se in *.
    set (a := act ask on_action command_providers true s (str "app.command_palette")) in *.
    pose proof (act_fits W P ask on_action command_providers true s (str "app.command_palette") F) as F1. fold a in F1.
    destruct (drain_same W P ask scr a F1) as (D0 & D1 & D2 & _). destruct (settle_ok W Msg P ask widget_key deliver scr U _ D0) as (_ & T1 & T2 & _).
    destruct (act_acted W Msg P ask widget_key screen_key deliver asked on_action on_key command_providers scr U C true s (str "app.command_palette") F) as (A1 & _). fold a in A1.
    assert (K : closed_ok W P scr i (if s_quit (drain ask a) then drain ask a else settle (drain ask a))).
    { destruct (A1 i A) as [X|(X & _)]; [destruct (s_quit (drain ask a)); auto|]. exfalso. apply D2 in X. destruct (s_quit (drain ask a)); [|apply T2 in X]; destruct X; congruence. }
    destruct K as (_ & _ & K3 & p & K4 & K5 & K6). destruct A as (_ & _ & B3 & p' & B4 & B5 & B6). assert (p = p') as -> by congruence. rewrite K3, K5, K6, B3, B5, B6. auto. }
  assert (O1 : is_open s1 = true) by (apply (O [] (e1 :: es1)); [reflexivity|discriminate]).
  assert (Q1 : s_quit s1 = false).
  { destruct (s_quit s1) eqn:E; [|reflexivity]. rewrite RUN, (quit_stays W Msg P ask system widget_key screen_key deliver typed asked on_action on_key command_providers _ s1 E) in Q'. congruence. }
  assert (OK1 : fits W P ask s1 /\ open_ok W P scr i s1).
  { unfold s1, Keypress_Model.turn in O1, Q1 |- *. rewrite Q in O1, Q1 |- *. cbn [handle] in O1, Q1 |- *. unfold press in O1, Q1 |- *. rewrite Se in O1, Q1 |- *.
    set (a := act ask on_action command_providers true s (str "app.command_palette")) in *.
    pose proof (act_fits W P ask on_action command_providers true s (str "app.command_palette") F) as F1. fold a in F1.
    destruct (drain_same W P ask scr a F1) as (D0 & D1 & D2 & _). destruct (settle_ok W Msg P ask widget_key deliver scr U _ D0) as (T0 & T1 & T2 & _).
    destruct (act_acted W Msg P ask widget_key screen_key deliver asked on_action on_key command_providers scr U C true s (str "app.command_palette") F) as (A1 & _). fold a in A1.
    destruct (s_quit (drain ask a)) eqn:Qa; [congruence|]. split; [exact T0|]. destruct (A1 i A) as [X|(X & _)]; [|auto]. exfalso. apply D1, T1 in X. destruct X; congruence. }
  destruct OK1 as [F1 A1].
  destruct (turns_track W Msg P ask system widget_key screen_key deliver typed asked on_action on_key command_providers scr U C i (e1 :: es1) s1 L F1 A1 Q') as (hs & H1 & H2).
  { intros a b E B. apply (O a b E B). }
  assert (NR : ~ Exists reopens hs).
  { intros X. destruct (turn_grows W Msg P ask system widget_key screen_key deliver typed asked on_action on_key command_providers (Key e) s) as (h1 & G). fold s1 in G.
    apply (N1 (h1 ++ hs)); [rewrite RUN, H1, G, app_assoc; reflexivity|]. apply Exists_app. right. exact X. }
  destruct H2 as [[H2|H2]|H2]; [rewrite RUN in V'; destruct H2; congruence| |contradiction].
  rewrite RUN. destruct H2 as (_ & _ & K3 & p & K4 & K5 & K6). destruct A as (_ & _ & B3 & p' & B4 & B5 & B6). assert (p = p') as -> by congruence. rewrite K3, K5, K6, B3, B5, B6. auto.
Qed.
End Keypress.
Print Assumptions C108_heard. Print Assumptions C108_system. Print Assumptions C108_quit. Print Assumptions C108_typing_quits_refuted.
Print Assumptions C109_always. Print Assumptions C109_opens. Print Assumptions C109_round_trip.

Section Refuted.
Variables (W Msg P : Type).
Variable ask : P -> text -> list Palette_Model.hit.
Variable system : Keys_Model.event -> bool.
Variable widget_key : list nat -> Keys_Model.code -> W -> W * option Msg.
Variable screen_key : Keys_Model.code -> W -> W * option Msg.
Variable deliver : list nat -> Msg -> W -> W.
Variable typed : Keys_Model.code -> Palette_Model.palette P -> text.
Variable asked : W -> list text * W.
Variable on_key : Keys_Model.code -> W -> W * bool.
Variable command_providers : W -> list P.
Notation turns := (turns ask system widget_key screen_key deliver typed asked default_on_action on_key command_providers).
Notation start := (start (P := P)).

(** C108 (refuted: the commands the palette offers do what they say): unless the
    application implements them, of the standard commands only Quit has an effect. *)
Theorem C108_commands_do_nothing_refuted : forall b (s : state W P) c, In c default_commands -> c <> "app.quit"%string ->
  let s' := act ask default_on_action command_providers b s (str c) in
  s_screen s' = s_screen s /\ s_path s' = s_path s /\ s_palette s' = s_palette s /\ s_world s' = s_world s /\ s_quit s' = s_quit s.
Proof.
  intros b s c I N. repeat (destruct I as [<-|I]; [try (exfalso; apply N; reflexivity); repeat split|]). destruct I.
Qed.
Theorem C108_quit_command : In "app.quit"%string default_commands /\ forall b (s : state W P), s_quit (act ask default_on_action command_providers b s (str "app.quit")) = true.
Proof. split; [right; right; left; reflexivity|]. intros b s. destruct (act_hears W P ask default_on_action command_providers b s (str "app.quit")) as [_ ->]. apply orb_true_r. Qed.

(** C109 (refuted: the palette can always be left): on a screen without a widget that
    can have the focus, once the palette is open no key ever reaches it, the
    application hears no key, and neither can be ended without the mouse. *)
Theorem C109_stuck_refuted : forall scr w es e es', passive scr -> (forall w, fst (asked w) = []) -> Forall no_mouse es -> Forall no_mouse es' ->
  s_quit (turns (start scr w) es) = false -> system e = true ->
  let s := turns (start scr w) (es ++ Key e :: es') in
  is_open s = true /\ s_quit s = false /\ exists since, s_heard s = s_heard (turns (start scr w) es) ++ since /\ Forall unheard since.
Proof.
  intros scr w es e es' Pas As N1 N2 Q Se s. unfold s, Keypress_Model.turns. rewrite fold_left_app. cbn [fold_left].
  fold (turns (start scr w) es). set (s0 := turns (start scr w) es) in *.
  assert (I0 : idle W P ask scr s0).
  { destruct (turns_idle W Msg P ask system widget_key screen_key deliver typed asked on_key command_providers scr Pas As es (start scr w) N1) as [X|X].
    - right. apply (start_idle W P ask scr Pas).
    - unfold s0 in Q. congruence.
    - exact X. }
  clearbody s0.
  assert (T : turn ask system widget_key screen_key deliver typed asked default_on_action on_key command_providers s0 (Key e) = drain ask (act ask default_on_action command_providers true s0 (str "app.command_palette"))
    /\ is_open (drain ask (act ask default_on_action command_providers true s0 (str "app.command_palette"))) = true
    /\ idle W P ask scr (drain ask (act ask default_on_action command_providers true s0 (str "app.command_palette")))
    /\ s_quit (drain ask (act ask default_on_action command_providers true s0 (str "app.command_palette"))) = false
    /\ s_heard (drain ask (act ask default_on_action command_providers true s0 (str "app.command_palette"))) = s_heard s0 ++ [Act true (str "app.command_palette") false]).
  { destruct (key_idle W P ask command_providers scr Pas s0 I0) as [I1 O1].
    destruct (act_hears W P ask default_on_action command_providers true s0 (str "app.command_palette")) as [H1 H2]. cbn [fst] in H1, H2. rewrite Q in H2.
    unfold turn. rewrite Q. cbn [handle]. unfold press. rewrite Se.
    generalize dependent (act ask default_on_action command_providers true s0 (str "app.command_palette")). intros s1 I1 O1 H1 H2.
    destruct (drain_idle W P ask scr s1 I1) as [I2 O2]. change (s_quit (drain ask s1)) with (s_quit s1). change (s_heard (drain ask s1)) with (s_heard s1).
    assert (Q1 : s_quit s1 = false) by (rewrite H2; reflexivity). rewrite Q1. rewrite (settle_idle W P ask scr _ I2). split; [reflexivity|]. split; [rewrite O2; exact O1|]. split; [exact I2|]. split; [reflexivity|]. exact H1. }
  destruct T as (T & O1 & I1 & Q1 & H1). rewrite T. generalize dependent (drain ask (act ask default_on_action command_providers true s0 (str "app.command_palette"))). intros s1 T O1 I1 Q1 H1.
  destruct (turns_stuck W Msg P ask system widget_key screen_key deliver typed asked on_key command_providers scr Pas As es' s1 N2 I1 O1 Q1) as (A1 & A2 & hs & A3 & A4).
  unfold Keypress_Model.turns in A1, A2, A3. split; [exact A1|]. split; [exact A2|]. exists (Act true (str "app.command_palette") false :: hs). rewrite A3, H1, <- app_assoc. split; [reflexivity|].
  constructor; [right; reflexivity|exact A4].
Qed.
End Refuted.
Print Assumptions C108_commands_do_nothing_refuted. Print Assumptions C108_quit_command. Print Assumptions C109_stuck_refuted.

(** *** An application with two widgets, and one with none that can have the focus *)
Definition leaf (id : string) (can : bool) : widget := Leaf (WData (Some (str id)) (str "Input") true can false []).
Definition form : widget := Box (WData None (str "Screen") true false false []) [leaf "name" true; leaf "note" false; leaf "mail" true].
Definition sign : widget := Box (WData None (str "Screen") true false false []) [leaf "text" false].
Definition plain (k : Keys_Model.code) : Keys_Model.event := {| Keys_Model.k_code := k; Keys_Model.k_ctrl := false; Keys_Model.k_shift := false; Keys_Model.k_alt := false; Keys_Model.k_more := false |}.
Definition ctrl_p : Keys_Model.event := {| Keys_Model.k_code := Keys_Model.Char 112%Z; Keys_Model.k_ctrl := true; Keys_Model.k_shift := false; Keys_Model.k_alt := false; Keys_Model.k_more := false |}.
Definition is_system (e : Keys_Model.event) : bool := Keys_Model.k_ctrl e.
(** the palette offers one command; widgets remember nothing *)
Definition offers (c : text) (q : text) : list Palette_Model.hit := [{| Palette_Model.h_score := 1%Z; Palette_Model.h_text := c; Palette_Model.h_action := c |}].
Definition run (c : string) (on_action : text -> nat -> bool * nat * option text) (scr : widget) (es : list (happening nat)) : state nat text :=
  turns offers is_system (fun _ _ w => (S w, None)) (fun _ w => (w, @None unit)) (fun _ _ w => w) (fun _ p => Palette_Model.query _ p) (fun w => ([], w)) on_action
    default_on_key (fun _ => [str c]) (start scr 0) es.
Definition choose : list (happening nat) := [Key ctrl_p; Task 0; Task 0; Tick; Time 100; Task 0; Tick; Key (plain Keys_Model.Enter)].

Lemma form_usable : usable form.
Proof.
  split; [reflexivity| |discriminate|].
  - intros q H. vm_compute in H. repeat (destruct H as [<-|H]; [reflexivity|]). destruct H.
  - intros q H. vm_compute in H. repeat (destruct H as [<-|H]; [discriminate|]). destruct H.
Qed.
Lemma sign_passive : passive sign.
Proof. intros q H. vm_compute in H. repeat (destruct H as [<-|H]; [reflexivity|]). destruct H. Qed.

Example C108_example : let s := run "app.keys" default_on_action form [Key (plain Keys_Model.Tab); Key (plain Keys_Model.Up)] in
  s_heard s = [ToWidget [2] Keys_Model.Tab; ToApp Keys_Model.Tab; ToWidget [2] Keys_Model.Up; ToApp Keys_Model.Up] /\ is_open s = false /\ s_quit s = false /\ s_world s = 2.
Proof. vm_compute. auto. Qed.
Example C108_typing_example : s_quit (run "app.keys" default_on_action form [Key (plain (Keys_Model.Char 113%Z))]) = true.
Proof. reflexivity. Qed.
Example C108_command_example : s_quit (run "app.quit" default_on_action form choose) = true /\ s_quit (run "app.theme" default_on_action form choose) = false /\
  In (Act false (str "app.theme") false) (s_heard (run "app.theme" default_on_action form choose)).
Proof. vm_compute. auto 10. Qed.
Example C109_example : let s := run "app.keys" default_on_action form [Key (plain Keys_Model.Tab); Key ctrl_p; Key (plain (Keys_Model.Char 113%Z))] in
  is_open s = true /\ s_path s = palette_path /\ s_quit s = false.
Proof. vm_compute. auto. Qed.
Example C109_round_trip_example : let before := [Key (plain Keys_Model.Tab)] in let s := run "app.keys" default_on_action form (before ++ choose) in
  is_open s = false /\ s_path s = [0; 2] /\ s_quit s = false /\ s_path (run "app.keys" default_on_action form before) = [0; 2] /\
  is_open (run "app.keys" default_on_action form (before ++ removelast choose)) = true.
Proof. vm_compute. auto 10. Qed.
Example C109_stuck_example : let s := run "app.keys" default_on_action sign [Key (plain Keys_Model.Tab); Key ctrl_p; Key (plain Keys_Model.Esc); Key (plain Keys_Model.Enter); Key (plain (Keys_Model.Char 113%Z))] in
  is_open s = true /\ s_quit s = false /\ s_path s = line_path.
Proof. vm_compute. auto. Qed.

(** C109 (refuted: a command can move the focus): the focus that a chosen command
    asks for is taken away again when the palette gives the focus back. *)
Definition go (a : text) (w : nat) : bool * nat * option text := (text_eqb a (str "go"), w, if text_eqb a (str "go") then Some (str "mail") else None).
Theorem C109_command_focus_refuted : let s := run "go" go form choose in
  In (Act false (str "go") true) (s_heard s) /\ is_open s = false /\ focus_is (s_screen s) [0] /\
  s_path (act offers go (fun _ => []) false (start (P := text) form 0) (str "go")) = [0; 2].
Proof.
  split; [vm_compute; auto 10|]. split; [reflexivity|]. split; [|reflexivity].
  assert (s_screen (run "go" go form choose) = only form [0]) as -> by (vm_compute; reflexivity). apply (only_focus_is form form_usable). left. reflexivity.
Qed.
(** C109 (refuted: the focus is given back after any use): a command that opens the
    palette again makes it forget where the focus was. *)
Theorem C109_reopen_refuted : let s := run "command_palette" default_on_action form (Key (plain Keys_Model.Tab) :: choose ++ [Key (plain Keys_Model.Esc)]) in
  s_path (run "command_palette" default_on_action form [Key (plain Keys_Model.Tab)]) = [0; 2] /\ is_open s = false /\ s_quit s = false /\ s_path s = [0; 0].
Proof. vm_compute. auto. Qed.
Print Assumptions C109_command_focus_refuted. Print Assumptions C109_reopen_refuted.
