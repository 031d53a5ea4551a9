(** C108 and C109, what a key does: to the widget, the application, the palette and
    the focus. *)
From Coq Require Import String ZArith List Bool Arith Lia.
From Verif Require Import Text_Model Tree_Model Tree_Spec Tree_Proofs Keys_Proofs.
From Verif Require Palette_Model Palette_Proofs Palette_Props Keys_Model.
From Verif Require Import Keypress_Model Keypress_Spec Keypress_Proofs Keypress_Proofs2 Keypress_Props.
Import ListNotations.
Notation length := List.length.
Open Scope nat_scope.
Open Scope list_scope.

Section Providers.
Variable P : Type.
Variable ask : P -> text -> list Palette_Model.hit.
Import Palette_Model.
Notation prov := (providers P).
Lemma p_frame : forall q p, Palette_Proofs.frame P q p -> prov q = prov p.
Proof. intros q p (_ & _ & _ & H & _). exact H. Qed.
Lemma p_start : forall q p, prov (start_search P q p) = prov p.
Proof. intros q p. apply (Palette_Proofs.start_generation P q p). Qed.
Lemma p_open : forall f p, prov (step P ask p (OpenFocus P f)) = prov p.
Proof.
  intros f p. cbn [step]. unfold open_with_focus. destruct (visible P p); [reflexivity|]. rewrite p_start. unfold enqueue. cbn [set_events providers]. rewrite (p_frame _ _ (Palette_Proofs.frame_sync P _)). reflexivity.
Qed.
Lemma p_drain : forall p, prov (step P ask p (Drain P)) = prov p.
Proof. intros p. cbn [step]. unfold drain_updates. rewrite (p_frame _ _ (Palette_Proofs.frame_apply_all P _ _)). reflexivity. Qed.
Lemma p_events : forall p, prov (step P ask p (TakeEvents P)) = prov p. Proof. reflexivity. Qed.
Lemma given_providers : forall p ps, prov (step P ask p (SetProviders P ps)) = ps.
Proof. intros p ps. cbn [step]. unfold set_providers_. cbv zeta. match goal with |- context [if ?b then _ else _] => destruct b end; [rewrite p_start|]; reflexivity. Qed.
End Providers.

Section Keypress.
Variables (W Msg P : Type).
Variable ask : P -> text -> list Palette_Model.hit.
Variable system : Keys_Model.event -> bool.
Variable widget_key : list nat -> Keys_Model.code -> W -> W * option Msg.
Variable screen_key : Keys_Model.code -> W -> W * option Msg.
Variable deliver : list nat -> Msg -> W -> W.
Variable typed : Keys_Model.code -> Palette_Model.palette P -> text.
Variable asked : W -> list text * W.
Variable on_action : text -> W -> bool * W * option text.
Variable on_key : Keys_Model.code -> W -> W * bool.
Variable command_providers : W -> list P.
Notation turn := (turn ask system widget_key screen_key deliver typed asked on_action on_key command_providers).
Notation turns := (turns ask system widget_key screen_key deliver typed asked on_action on_key command_providers).
Notation start := (start (P := P)).
Notation act := (act ask on_action command_providers).
Notation actions := (actions ask asked on_action command_providers).
Notation dispatch := (dispatch ask widget_key screen_key deliver typed).
Notation press := (press ask system widget_key screen_key deliver typed asked on_action on_key command_providers).
Notation reached := (reached W Msg P ask system widget_key screen_key deliver typed asked on_action on_key command_providers).
Notation prun := (Palette_Model.run P ask).
Notation pstep := (Palette_Model.step P ask).
Notation state := (state W P).
Notation closed_ok := (closed_ok W P).
Notation open_ok := (open_ok W P).

Definition by_itself (p q : Palette_Model.palette P) : Prop := exists ls, Forall (unpressed P) ls /\ q = prun p ls.
Lemma by_refl : forall p, by_itself p p. Proof. intros p. exists []. auto. Qed.
Lemma by_step : forall p q l, by_itself p q -> unpressed P l -> by_itself p (pstep q l).
Proof.
  intros p q l (ls & F & ->) U. exists (ls ++ [l]). split; [apply Forall_app; auto|]. unfold Palette_Model.run. rewrite fold_left_app. reflexivity.
Qed.
Lemma by_trans : forall p q r, by_itself p q -> by_itself q r -> by_itself p r.
Proof. intros p q r (a & A1 & ->) (b & B1 & ->). exists (a ++ b). split; [apply Forall_app; auto|]. unfold Palette_Model.run. rewrite fold_left_app. reflexivity. Qed.

Lemma act_does : forall b (s : state) a, s_world (act b s a) = snd (fst (on_action a (s_world s))) /\ by_itself (s_palette s) (s_palette (act b s a)).
Proof.
  intros b s a. unfold Keypress_Model.act. destruct (on_action a (s_world s)) as [[h w] f]. cbn [fst snd].
  set (s1 := hear (Act b a h) (with_world w s)).
  set (s2 := match f with Some id => focus_id id s1 | None => s1 end).
  assert (B : s_palette s2 = s_palette s /\ s_world s2 = w) by (unfold s2; destruct f as [t|]; [destruct (beside_id W P t s1) as (_ & -> & -> & _); auto|auto]).
  clearbody s2. destruct B as [B1 B2].
  destruct h; [rewrite B1, B2; split; [reflexivity|apply by_refl]|]. destruct (quits a); [cbn; rewrite B1, B2; split; [reflexivity|apply by_refl]|].
  destruct (submits a). { cbn [with_palette s_world s_palette]. rewrite B1, B2. split; [reflexivity|]. apply by_step; [apply by_refl|exact I]. }
  destruct (opens a); [|rewrite B1, B2; split; [reflexivity|apply by_refl]]. cbv zeta.
  match goal with |- context [focus_id palette_id ?x] => destruct (beside_id W P palette_id x) as (_ & -> & -> & _) end.
  cbn [with_palette s_world s_palette]. rewrite B1, B2. split; [reflexivity|]. apply by_step; [apply by_step; [apply by_refl|exact I]|exact I].
Qed.
Lemma acts_do : forall l (s : state), s_world (fold_left (act false) l s) = acted_on on_action l (s_world s) /\ by_itself (s_palette s) (s_palette (fold_left (act false) l s)).
Proof.
  induction l as [|a l IH]; intros s; [split; [reflexivity|apply by_refl]|]. cbn [fold_left]. destruct (IH (act false s a)) as [-> I2]. destruct (act_does false s a) as [E1 E2].
  unfold acted_on. cbn [fold_left]. rewrite E1. split; [reflexivity|]. eapply by_trans; eauto.
Qed.
Lemma actions_do : forall s : state, s_world (actions s) = acted_on on_action (fst (asked (s_world s)) ++ waiting (s_palette s)) (snd (asked (s_world s))) /\
  by_itself (s_palette s) (s_palette (actions s)).
Proof.
  intros s. unfold Keypress_Model.actions. destruct (asked (s_world s)) as [l w]. cbn [fst snd].
  match goal with |- context [fold_left _ ?l ?x] => destruct (acts_do l x) as [-> B] end. split; [reflexivity|].
  eapply by_trans; [|exact B]. cbn [with_palette with_world s_palette]. apply by_step; [apply by_refl|exact I].
Qed.
Lemma back_does : forall s : state, s_world (give_back ask s) = s_world s /\ by_itself (s_palette s) (s_palette (give_back ask s)).
Proof.
  intros s. unfold give_back. destruct (is_open s); [split; [reflexivity|apply by_refl]|]. destruct (Palette_Model.restore_focus P (s_palette s)) as [n|]; [|split; [reflexivity|apply by_refl]].
  match goal with |- context [focus_index ?i ?x] => destruct (beside_index W P i x) as (_ & -> & -> & _) end. split; [reflexivity|]. cbn [with_palette s_palette]. apply by_step; [apply by_refl|exact I].
Qed.
Lemma drain_does : forall s : state, s_world (drain ask s) = s_world s /\ by_itself (s_palette s) (s_palette (drain ask s)).
Proof. intros s. split; [reflexivity|]. unfold drain. cbn [with_palette s_palette]. apply by_step; [apply by_step; [apply by_refl|exact I]|exact I]. Qed.
Lemma turn_does : forall (s : state) e, s_quit s = false -> s_world (turn s (Key e)) = s_world (press e s) /\ s_palette (turn s (Key e)) = s_palette (press e s).
Proof.
  intros s e Q. unfold Keypress_Model.turn. rewrite Q. cbn [handle].
  match goal with |- context [settle ?x] => destruct (beside_settle W P x) as (_ & B2 & B3 & _); destruct (s_quit x) eqn:E end; [auto|]. rewrite B2, B3. auto.
Qed.
Lemma press_does : forall e (s : state), system e = false -> let k := Keys_Model.k_code e in let d := tell_app on_key (is_open s) k (dispatch k (move k s)) in
  s_world (press e s) = acted_on on_action (fst (asked (s_world d)) ++ waiting (s_palette d)) (snd (asked (s_world d))) /\ by_itself (s_palette d) (s_palette (press e s)).
Proof.
  intros e s Se k d. unfold Keypress_Model.press. rewrite Se. fold k. cbv zeta. fold d.
  destruct (actions_do d) as [A1 A2]. destruct (back_does (actions d)) as [B1 B2]. destruct (drain_does (give_back ask (actions d))) as [C1 C2].
  rewrite C1, B1, A1. split; [reflexivity|]. eapply by_trans; [exact A2|]. eapply by_trans; eauto.
Qed.

(** C108: what a key does to a screen without the palette on it: the widget that has
    the focus (after Tab or Shift+Tab has moved it) deals with it, its message, if it
    gives one, is delivered from where it is, then the application's [on_key] deals
    with it, then the actions that wait.  The palette is not touched by the key. *)
Theorem C108_effect : forall scr s e, usable scr -> (forall a w, snd (on_action a w) = None) -> reached scr s -> system e = false -> is_open s = false ->
  let k := Keys_Model.k_code e in exists i q p, nth_error (focus_order scr) i = Some q /\ focus_is (s_screen s) q /\
    nth_error (focus_order scr) (moved k (length (focus_order scr)) i) = Some p /\
    (let w := fst (on_key k (answered_by deliver p (widget_key p k (s_world s)))) in
     s_world (turn s (Key e)) = acted_on on_action (fst (asked w) ++ waiting (s_palette s)) (snd (asked w))) /\
    (exists ls, Forall (unpressed P) ls /\ s_palette (turn s (Key e)) = prun (s_palette s) ls).
Proof.
  intros scr s e U C R Se V k. destruct (reached_ok W Msg P ask system widget_key screen_key deliver typed asked on_action on_key command_providers scr s U C R) as (F & A & Q).
  destruct A as [[i A]|[f A]]; [|destruct A; congruence]. pose proof A as (_ & _ & _ & q & A4 & A5 & _). exists i, q.
  destruct (move_ok W Msg P ask widget_key deliver scr U k s F) as (_ & M1 & _). destruct (M1 i A) as (_ & _ & _ & p & B4 & B5 & B6). exists p.
  split; [exact A4|]. split; [rewrite A5; apply (only_focus_is scr U), (nth_error_In _ _ A4)|]. split; [exact B4|].
  destruct (turn_does s e Q) as [-> ->]. destruct (press_does e s Se) as [P1 P2]. fold k in P1, P2. rewrite V in P1, P2.
  assert (D : exists h, dispatch k (move k s) = answer deliver p (widget_key p k (s_world s)) (hear h (move k s))).
  { exists (ToWidget p k). destruct (beside_move W P k s) as (_ & _ & MW & _). unfold Keypress_Model.dispatch. rewrite B6, B5. unfold only. rewrite follow_update_same. destruct (order_leaf scr p (nth_error_In _ _ B4)) as (d & -> & _).
    cbn [option_map]. rewrite MW. reflexivity. }
  destruct D as (h & D). destruct (beside_move W P k s) as (_ & MP & MW & _).
  assert (T : s_world (tell_app on_key false k (dispatch k (move k s))) = fst (on_key k (answered_by deliver p (widget_key p k (s_world s)))) /\
              s_palette (tell_app on_key false k (dispatch k (move k s))) = s_palette s).
  { rewrite D. unfold tell_app, answer, answered_by. cbn [with_world hear s_world]. destruct (widget_key p k (s_world s)) as [w1 m]. cbn [fst snd].
    destruct m as [m|]; (match goal with |- context [on_key k ?x] => destruct (on_key k x) as [w2 qq] end); cbn [or_quit with_world hear s_world s_palette fst]; rewrite MP; auto. }
  destruct T as [T1 T2]. rewrite T1, T2 in P1. rewrite T2 in P2. split; [exact P1|]. destruct P2 as (ls & L1 & L2). exists ls. auto.
Qed.
(** C108: an open palette does with a key what the key means, and after that only what
    actions and the arrival of answers do to it; neither the widgets nor [on_key] hear
    of the key. *)
Theorem C108_palette_key : forall scr s e, usable scr -> (forall a w, snd (on_action a w) = None) -> reached scr s -> system e = false -> is_open s = true ->
  let k := Keys_Model.k_code e in let p := pstep (s_palette s) (means P k (typed k (s_palette s))) in
  (exists ls, Forall (unpressed P) ls /\ s_palette (turn s (Key e)) = prun p ls) /\
  s_world (turn s (Key e)) = acted_on on_action (fst (asked (s_world s)) ++ waiting p) (snd (asked (s_world s))).
Proof.
  intros scr s e U C R Se V k p. destruct (reached_ok W Msg P ask system widget_key screen_key deliver typed asked on_action on_key command_providers scr s U C R) as (F & A & Q).
  destruct A as [[i A]|[f A]]; [destruct A; congruence|].
  destruct (move_ok W Msg P ask widget_key deliver scr U k s F) as (_ & _ & M2).
  destruct (turn_does s e Q) as [-> ->]. destruct (press_does e s Se) as [P1 P2]. fold k in P1, P2. rewrite V in P1, P2. rewrite (M2 f A) in P1, P2.
  assert (D : dispatch k s = with_palette p (hear (ToPalette k) s)).
  { unfold Keypress_Model.dispatch. destruct A as (_ & _ & _ & _ & _ & -> & _). rewrite V. unfold p, palette_label, means. destruct k; reflexivity. }
  unfold tell_app in P1, P2. rewrite D in P1, P2. cbn [with_palette hear s_palette s_world] in P1, P2. split; [|exact P1]. destruct P2 as (ls & L1 & L2). exists ls. auto.
Qed.
(** C108: the palette of a running application has been through a history of a
    palette, so that C71, C72 and C73 are about it. *)
Theorem C108_palette_history : forall scr w es, exists ls, s_palette (turns (start scr w) es) = prun (Palette_Model.palette_new P true) ls.
Proof.
  intros scr w es. assert (H : forall es s, (exists ls, s_palette s = prun (Palette_Model.palette_new P true) ls) -> exists ls, s_palette (turns s es) = prun (Palette_Model.palette_new P true) ls).
  { clear es scr w. induction es as [|e es IH]; intros s H; [exact H|]. cbn [Keypress_Model.turns fold_left]. apply IH. clear IH es.
    assert (ONE : forall (a b : Palette_Model.palette P), by_itself a b -> (exists ls, a = prun (Palette_Model.palette_new P true) ls) -> exists ls, b = prun (Palette_Model.palette_new P true) ls).
    { intros a b (m & _ & ->) (ls & ->). exists (ls ++ m). unfold Palette_Model.run. rewrite fold_left_app. reflexivity. }
    assert (LAB : forall (a : Palette_Model.palette P) l, (exists ls, a = prun (Palette_Model.palette_new P true) ls) -> exists ls, pstep a l = prun (Palette_Model.palette_new P true) ls).
    { intros a l (ls & ->). exists (ls ++ [l]). unfold Palette_Model.run. rewrite fold_left_app. reflexivity. }
    assert (K : exists ls, s_palette (handle ask system widget_key screen_key deliver typed asked on_action on_key command_providers s e) = prun (Palette_Model.palette_new P true) ls).
    { assert (CL : forall l, exists ls, s_palette (click ask asked on_action command_providers l s) = prun (Palette_Model.palette_new P true) ls).
      { intros l. unfold click. destruct (is_open s); [|exact H]. eapply ONE; [eapply by_trans; [apply actions_do|eapply by_trans; [apply back_does|apply drain_does]]|]. cbn [with_palette s_palette]. apply LAB, H. }
      destruct e as [e| |i r|ms|i| |f]; cbn [handle]; auto.
      - destruct (system e) eqn:Se.
        + unfold Keypress_Model.press. rewrite Se. eapply ONE; [eapply by_trans; [apply act_does|apply drain_does]|exact H].
        + destruct (press_does e s Se) as [_ P2]. eapply ONE; [exact P2|]. set (k := Keys_Model.k_code e). destruct (beside_move W P k s) as (_ & MP & _).
          assert (TP : forall b (x : state), s_palette (tell_app on_key b k x) = s_palette x) by (intros b x; unfold tell_app; destruct b; [|destruct (on_key k (s_world x))]; reflexivity).
          rewrite TP. set (x := move k s) in *. clearbody x. rewrite <- MP in H. clear - H LAB.
          unfold Keypress_Model.dispatch. destruct (s_path x) as [|[|[|[|n]]] r]; auto.
          * destruct (is_open x); cbn [answer with_world hear with_palette s_palette]; auto.
          * destruct (follow (s_screen x) r); auto.
          * destruct r as [|[|a] r]; cbn [with_palette s_palette hear]; auto; [destruct (is_open x); auto|]. destruct r as [|[|b] r]; auto. destruct r as [|[|[|c]] r]; auto. destruct r; auto.
      - cbn [with_palette s_palette]. apply LAB, H.
      - cbn [with_palette s_palette]. apply LAB, H.
      - eapply ONE; [apply drain_does|exact H].
      - eapply ONE; [apply drain_does|exact H]. }
    unfold Keypress_Model.turn. destruct (s_quit s); [exact H|]. destruct (s_quit (handle _ _ _ _ _ _ _ _ _ _ s e)); [exact K|].
    match goal with |- context [settle ?x] => destruct (beside_settle W P x) as (_ & -> & _) end. exact K. }
  apply H. exists []. unfold Keypress_Model.start. match goal with |- context [settle ?x] => destruct (beside_settle W P x) as (_ & -> & _) end.
  match goal with |- context [refocus 0 ?x] => destruct (beside_refocus W P 0 x) as (_ & -> & _) end.
  match goal with |- context [focus_at 0 ?x] => destruct (heard_focus_at W P 0 x) as (_ & -> & _) end. reflexivity.
Qed.

Lemma acts_closed : forall scr, usable scr -> (forall a w, snd (on_action a w) = None) -> forall l s i, fits W P ask s -> closed_ok scr i s ->
  exists hs, s_heard (fold_left (act false) l s) = s_heard s ++ hs /\ fits W P ask (fold_left (act false) l s) /\ (closed_ok scr i (fold_left (act false) l s) \/ Exists reopens hs).
Proof.
  intros scr U C. induction l as [|a l IH]; intros s i F H. { exists []. rewrite app_nil_r. auto. }
  cbn [fold_left]. destruct (act_hears W P ask on_action command_providers false s a) as [HH _]. cbn zeta in HH.
  pose proof (act_fits W P ask on_action command_providers false s a F) as F'.
  destruct (act_acted W Msg P ask widget_key screen_key deliver asked on_action on_key command_providers scr U C false s a F) as (A1 & _).
  destruct (A1 i H) as [X|(_ & X1 & X2)].
  - destruct (IH _ i F' X) as (hs & H1 & H2 & H3). rewrite H1, HH. eexists. split; [rewrite <- app_assoc; reflexivity|]. split; [exact H2|]. destruct H3 as [H3|H3]; [left; exact H3|right; apply Exists_app; right; exact H3].
  - destruct (acts_hear W P ask on_action command_providers l (act false s a)) as (hs & H1 & _). rewrite H1, HH. eexists. split; [rewrite <- app_assoc; reflexivity|].
    split; [|right; apply Exists_app; left; apply Exists_cons; left; rewrite X1; apply opens_iff; exact X2].
    clear - F'. revert F'. generalize (act false s a). induction l as [|b l IH]; intros x F; [exact F|]. cbn [fold_left]. apply IH. apply act_fits. exact F.
Qed.
(** C109: after a key the focus is where Tab or Shift+Tab moved it, or where it was,
    unless an action opened the palette. *)
Theorem C109_focus_after : forall scr s e, usable scr -> (forall a w, snd (on_action a w) = None) -> reached scr s -> system e = false -> is_open s = false ->
  (forall since, s_heard (turn s (Key e)) = s_heard s ++ since -> ~ Exists reopens since) ->
  exists i q p, nth_error (focus_order scr) i = Some q /\ focus_is (s_screen s) q /\
    nth_error (focus_order scr) (moved (Keys_Model.k_code e) (length (focus_order scr)) i) = Some p /\
    focus_is (s_screen (turn s (Key e))) p /\ s_path (turn s (Key e)) = 0 :: p.
Proof.
  intros scr s e U C R Se V N. destruct (reached_ok W Msg P ask system widget_key screen_key deliver typed asked on_action on_key command_providers scr s U C R) as (F & A & Q).
  destruct A as [[i A]|[f A]]; [|destruct A; congruence]. pose proof A as (_ & _ & _ & q & A4 & A5 & _). exists i, q.
  set (k := Keys_Model.k_code e) in *.
  destruct (move_ok W Msg P ask widget_key deliver scr U k s F) as (F1 & M1 & _). pose proof (M1 i A) as B. pose proof B as (_ & _ & _ & p & B4 & B5 & B6). exists p.
  split; [exact A4|]. split; [rewrite A5; apply (only_focus_is scr U), (nth_error_In _ _ A4)|]. split; [exact B4|].
  set (j := moved k (length (focus_order scr)) i) in *.
  destruct (dispatch_ok W Msg P ask widget_key screen_key deliver typed scr k (move k s) F1) as [D1 _]. destruct (D1 j B) as [F2 B2].
  destruct (tell_same W P ask on_key scr false k (dispatch k (move k s)) F2) as (F3 & T1 & _). pose proof (T1 j B2) as B3.
  set (d := tell_app on_key false k (dispatch k (move k s))) in *.
  assert (AC : exists hs, s_heard (actions d) = s_heard d ++ hs /\ fits W P ask (actions d) /\ (closed_ok scr j (actions d) \/ Exists reopens hs)).
  { unfold Keypress_Model.actions. destruct (asked (s_world d)) as [l w].
    match goal with |- context [fold_left (act false) ?l ?x] => destruct (acts_closed scr U C l x j) as (hs & H1 & H2 & H3) end.
    - apply (put_fits W P ask (Palette_Model.TakeAction P) (with_world w d)). exact F3.
    - apply (put_ok W P ask scr (Palette_Model.TakeAction P) (with_world w d)); [exact F3|intros []|discriminate|exact B3].
    - exists hs. auto. }
  destruct AC as (hs & H1 & H2 & H3).
  destruct (press_hears W Msg P ask system widget_key screen_key deliver typed asked on_action on_key command_providers e s Se) as (acts & PH & _).
  assert (CL : closed_ok scr j (turn s (Key e))).
  { destruct H3 as [H3|H3].
    - destruct (give_back_ok W Msg P ask widget_key deliver scr U (actions d) H2) as (G0 & G1 & _). destruct (drain_same W P ask scr _ G0) as (E0 & E1 & _).
      destruct (settle_ok W Msg P ask widget_key deliver scr U _ E0) as (_ & S1 & _).
      unfold Keypress_Model.turn. rewrite Q. cbn [handle]. unfold Keypress_Model.press. rewrite Se, V. fold k. fold d. cbv zeta. destruct (s_quit (drain ask (give_back ask (actions d)))); auto.
    - exfalso. destruct (turn_heard W Msg P ask system widget_key screen_key deliver typed asked on_action on_key command_providers e s Q) as [TH _].
      assert (HD : exists m, s_heard d = s_heard s ++ m).
      { destruct (beside_move W P k s) as (MH & _). destruct (dispatch_hears W Msg P ask widget_key screen_key deliver typed k (move k s)) as [DH _].
        unfold d, tell_app. destruct (on_key k _) as [w2 qq]. cbn [or_quit with_world hear s_heard]. rewrite DH, MH. eexists. rewrite <- !app_assoc. reflexivity. }
      destruct HD as (m & HD). apply (N (m ++ hs)); [|apply Exists_app; right; exact H3].
      rewrite TH. unfold Keypress_Model.press. rewrite Se, V. fold k. fold d. cbv zeta. destruct (give_back_beside W P ask (actions d)) as [GB _]. cbn [drain with_palette s_heard]. rewrite GB, H1, HD, app_assoc. reflexivity. }
  destruct CL as (_ & _ & _ & p' & K4 & K5 & K6). assert (p' = p) as -> by congruence. split; [rewrite K5; apply (only_focus_is scr U), (nth_error_In _ _ B4)|exact K6].
Qed.
(** C109: a palette that is opened asks the application's providers of that moment. *)
Theorem C109_providers : forall s e, s_quit s = false -> system e = true -> fst (fst (on_action (str "app.command_palette") (s_world s))) = false ->
  Palette_Model.providers P (s_palette (turn s (Key e))) = command_providers (s_world (turn s (Key e))).
Proof.
  intros s e Q Se H. destruct (turn_does s e Q) as [-> ->]. unfold Keypress_Model.press. rewrite Se. destruct (drain_does (act true s (str "app.command_palette"))) as [-> _].
  unfold drain. cbn [with_palette s_palette]. rewrite p_events, p_drain.
  destruct (act_does true s (str "app.command_palette")) as [-> _]. unfold Keypress_Model.act. destruct (on_action (str "app.command_palette") (s_world s)) as [[h w] f]. cbn [fst snd] in H |- *. subst h.
  change (quits (str "app.command_palette")) with false. change (submits (str "app.command_palette")) with false. change (opens (str "app.command_palette")) with true. cbn iota. cbv zeta.
  match goal with |- context [focus_id palette_id ?x] => destruct (beside_id W P palette_id x) as (_ & -> & _) end.
  cbn [with_palette s_palette]. rewrite p_open.
  set (s1 := hear _ (with_world w s)). set (s2 := match f with Some id => focus_id id s1 | None => s1 end).
  assert (B : s_world s2 = w) by (unfold s2; destruct f as [t|]; [destruct (beside_id W P t s1) as (_ & _ & -> & _)|]; reflexivity).
  rewrite B. apply given_providers.
Qed.
End Keypress.
Print Assumptions C108_effect. Print Assumptions C108_palette_key. Print Assumptions C108_palette_history.
Print Assumptions C109_focus_after. Print Assumptions C109_providers.

(** The application of Keypress_Props: after Tab and Enter the second widget was asked
    twice and has the focus, and the palette is untouched; opened, it offers the
    command, and Enter in it runs it without a widget being asked. *)
Example C108_effect_example : let s := run "app.keys" default_on_action form [Key (plain Keys_Model.Tab); Key (plain Keys_Model.Enter)] in
  s_world s = 2 /\ s_path s = [0; 2] /\ s_palette s = Palette_Model.palette_new text true /\
  let o := run "app.keys" default_on_action form (removelast choose) in
  is_open o = true /\ Palette_Model.providers text (s_palette o) = [str "app.keys"] /\ map Palette_Model.e_text (Palette_Model.entries text (s_palette o)) = [str "app.keys"] /\
  let c := run "app.keys" default_on_action form choose in is_open c = false /\ s_world c = 0 /\ In (Act false (str "app.keys") false) (s_heard c).
Proof. vm_compute. auto 12. Qed.
