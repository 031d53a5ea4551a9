(** Lemmas on switches and buttons. *)
From Coq Require Import String ZArith List Bool Arith Lia.
From Verif Require Import Text_Model Canvas_Model Canvas_Spec Canvas_Props Press_Model Press_Spec.
Import ListNotations.
Open Scope Z_scope.

Lemma latest_app : forall {A} (f : event -> option A) h d e,
  latest f d (h ++ [e]) = match f e with Some a => a | None => latest f d h end.
Proof. induction h as [|x h IH]; intros d e; cbn; [reflexivity|apply IH]. Qed.

Lemma switch_run_app : forall h s e,
  fst (switch_run s (h ++ [e])) = fst (switch_step (fst (switch_run s h)) e) /\
  snd (switch_run s (h ++ [e])) = snd (switch_run s h) ++ [snd (switch_step (fst (switch_run s h)) e)].
Proof.
  induction h as [|x h IH]; intros s e; cbn.
  - destruct (switch_step s e). auto.
  - destruct (switch_step s x) as [s1 m]. destruct (IH s1 e) as [A B].
    destruct (switch_run s1 (h ++ [e])) as [s2 ms]. destruct (switch_run s1 h) as [s3 ms3]. cbn in *. subst. auto.
Qed.
Lemma btn_run_app : forall h s e,
  fst (btn_run s (h ++ [e])) = fst (btn_step (fst (btn_run s h)) e) /\
  snd (btn_run s (h ++ [e])) = snd (btn_run s h) ++ [snd (btn_step (fst (btn_run s h)) e)].
Proof.
  induction h as [|x h IH]; intros s e; cbn.
  - destruct (btn_step s e). auto.
  - destruct (btn_step s x) as [s1 m]. destruct (IH s1 e) as [A B].
    destruct (btn_run s1 (h ++ [e])) as [s2 ms]. destruct (btn_run s1 h) as [s3 ms3]. cbn in *. subst. auto.
Qed.

(** "since an event of one kind, none of another kind" *)
Definition since (P : list event -> event -> Prop) (Q : event -> Prop) (h : list event) : Prop :=
  exists h1 e h2, h = h1 ++ e :: h2 /\ P h1 e /\ Forall (fun e' => ~ Q e') h2.
Lemma since_snoc : forall (P : list event -> event -> Prop) (Q : event -> Prop) h e, since P Q (h ++ [e]) <-> P h e \/ (since P Q h /\ ~ Q e).
Proof.
  intros P Q h e. split.
  - intros (h1 & x & h2 & E & Hp & Hq). destruct h2 as [|z h2 _] using rev_ind.
    + apply app_inj_tail in E. destruct E as [-> ->]. now left.
    + right. change (x :: h2 ++ [z]) with ((x :: h2) ++ [z]) in E. rewrite app_assoc in E. apply app_inj_tail in E. destruct E as [-> ->].
      apply Forall_app in Hq. destruct Hq as [Hq Hz]. split; [exists h1, x, h2; auto|now inversion Hz].
  - intros [H|[(h1 & x & h2 & -> & Hp & Hq) N]].
    + exists h, e, []. auto.
    + exists h1, x, (h2 ++ [e]). rewrite <- app_assoc. split; [reflexivity|]. split; [exact Hp|]. apply Forall_app. auto.
Qed.
Lemma since_nil : forall P Q, ~ since P Q [].
Proof. intros P Q (h1 & e & h2 & E & _). destruct h1; discriminate. Qed.

Lemma inside_iff : forall k x y r, on_a_screen (Mouse k x y r) -> contains_point r x y = true <-> in_region r x y.
Proof. intros k x y r (A & B & C). now apply C06_contains_point_set. Qed.

(** ** Switch *)
Record agrees (s : switch) (h : list event) : Prop := {
  ag_f : w_focused s = focused h; ag_d : w_disabled s = disabled h; ag_l : w_loading s = loading h;
  ag_a : w_active s = true <-> held h; ag_n : (w_frame s < 10)%nat }.

Lemma set_if_active : forall s b, w_active (set_if (w_active s) b s upd_active) = b.
Proof. intros [f h a v d vi l di n] b. unfold set_if. cbn. destruct a, b; reflexivity. Qed.

Lemma held_snoc : forall h e, held (h ++ [e]) <-> press_begins h e \/ (held h /\ ~ press_ends e).
Proof. intros. apply (since_snoc press_begins press_ends). Qed.

Lemma switch_agrees : forall h v, Forall on_a_screen h -> agrees (fst (switch_run (switch_new v) h)) h.
Proof.
  induction h as [|e h IH] using rev_ind; intros v F.
  - constructor; cbn; auto; try lia. split; [discriminate|]. intros H. destruct (since_nil _ _ H).
  - apply Forall_app in F. destruct F as [F Fe]. inversion Fe as [|? ? Oe _]; subst.
    destruct (switch_run_app h (switch_new v) e) as [-> _]. specialize (IH v F). destruct IH as [Af Ad Al Aa An].
    set (s := fst (switch_run (switch_new v) h)) in *. clearbody s.
    assert (Keep : forall b, w_active s = b -> (b = true <-> held h)) by (intros b <-; exact Aa).
    constructor.
    + unfold focused. rewrite latest_app. fold focused. fold (focused h). rewrite <- Af.
      destruct e as [k|k x y r|b|b|b| |b|b|b|b| | | | |]; cbn; unfold set_if, switch_key, switch_mouse, set_if;
        repeat match goal with |- context [if ?c then _ else _] => destruct c eqn:? end; try reflexivity;
        try (destruct k); cbn; repeat match goal with |- context [if ?c then _ else _] => destruct c eqn:? end; try reflexivity;
        try (apply Bool.eqb_prop in Heqb0; auto).
    + unfold disabled. rewrite latest_app. fold (disabled h). rewrite <- Ad.
      destruct e as [k|k x y r|b|b|b| |b|b|b|b| | | | |]; cbn; unfold set_if, switch_key, switch_mouse, set_if;
        repeat match goal with |- context [if ?c then _ else _] => destruct c eqn:? end; try reflexivity;
        try (destruct k); cbn; repeat match goal with |- context [if ?c then _ else _] => destruct c eqn:? end; try reflexivity;
        try (apply Bool.eqb_prop in Heqb0; auto).
    + unfold loading. rewrite latest_app. fold (loading h). rewrite <- Al.
      destruct e as [k|k x y r|b|b|b| |b|b|b|b| | | | |]; cbn; unfold set_if, switch_key, switch_mouse, set_if;
        repeat match goal with |- context [if ?c then _ else _] => destruct c eqn:? end; try reflexivity;
        try (destruct k); cbn; repeat match goal with |- context [if ?c then _ else _] => destruct c eqn:? end; try reflexivity;
        try (apply Bool.eqb_prop in Heqb0; auto).
    + rewrite held_snoc.
      destruct e as [k|k x y r|b|b|b| |b|b|b|b| | | | |].
      * cbn [press_begins press_ends]. assert (E : w_active (fst (switch_step s (Key k))) = w_active s).
        { cbn. unfold switch_key. destruct (w_disabled s || w_loading s || negb (w_focused s)); [reflexivity|]. destruct k; reflexivity. }
        rewrite E, Aa. tauto.
      * pose proof (inside_iff _ _ _ _ Oe) as In_. destruct k as [|bt|bt|]; cbn [press_begins press_ends switch_step switch_mouse fst].
        -- assert (E : w_active (set_if (w_hovered s) (contains_point r x y) s upd_hover) = w_active s) by (unfold set_if; destruct (Bool.eqb _ _); reflexivity).
           rewrite E, Aa. tauto.
        -- rewrite Ad, Al. destruct (contains_point r x y && negb (disabled h) && negb (loading h)) eqn:C.
           ++ cbn [fst]. rewrite set_if_active. apply andb_true_iff in C. destruct C as [C C3]. apply andb_true_iff in C. destruct C as [C1 C2].
              apply negb_true_iff in C2, C3. apply In_ in C1. split; [intros _; left; auto|auto].
           ++ cbn [fst]. rewrite Aa. split; [intros H; right; split; [exact H|auto]|]. intros [(H1 & H2 & H3)|[H _]]; [|exact H].
              exfalso. apply In_ in H1. rewrite H1, H2, H3 in C. discriminate.
        -- destruct (contains_point r x y && w_active s && negb (w_disabled s) && negb (w_loading s)); cbn [fst].
           ++ cbn. split; [discriminate|]. intros [[]|[_ H]]. destruct (H I).
           ++ rewrite set_if_active. split; [discriminate|]. intros [[]|[_ H]]. destruct (H I).
        -- cbn. rewrite Aa. tauto.
      * cbn [press_begins press_ends switch_step fst]. assert (E : w_active (set_if (w_focused s) b s upd_focus) = w_active s) by (unfold set_if; destruct (Bool.eqb _ _); reflexivity). rewrite E, Aa. tauto.
      * cbn [press_begins press_ends switch_step fst]. assert (E : w_active (set_if (w_hovered s) b s upd_hover) = w_active s) by (unfold set_if; destruct (Bool.eqb _ _); reflexivity). rewrite E, Aa. tauto.
      * cbn [switch_step fst]. rewrite set_if_active. destruct b; cbn; [tauto|]. split; [discriminate|]. intros [[]|[_ H]]. destruct (H I).
      * cbn [switch_step fst]. rewrite set_if_active. cbn. split; [discriminate|]. intros [[]|[_ H]]. destruct (H I).
      * cbn [press_begins press_ends switch_step fst]. assert (E : w_active (set_if (w_disabled s) b s upd_disabled) = w_active s) by (unfold set_if; destruct (Bool.eqb _ _); reflexivity). rewrite E, Aa. tauto.
      * cbn [press_begins press_ends switch_step fst]. assert (E : w_active (set_if (w_visible s) b s upd_visible) = w_active s) by (unfold set_if; destruct (Bool.eqb _ _); reflexivity). rewrite E, Aa. tauto.
      * cbn [press_begins press_ends switch_step fst]. assert (E : w_active (set_if (w_loading s) b s upd_loading) = w_active s) by (unfold set_if; destruct (Bool.eqb _ _); reflexivity). rewrite E, Aa. tauto.
      * cbn [press_begins press_ends switch_step fst]. assert (E : w_active (set_if (w_value s) b s upd_value) = w_active s) by (unfold set_if; destruct (Bool.eqb _ _); reflexivity). rewrite E, Aa. tauto.
      * cbn [press_begins press_ends switch_step fst tick upd_frame w_active]. rewrite Aa. tauto.
      * cbn. rewrite Aa. tauto.
      * cbn. rewrite Aa. tauto.
      * cbn. rewrite Aa. tauto.
      * cbn. rewrite Aa. tauto.
    + assert (M : ((w_frame s + 1) mod 10 < 10)%nat) by (apply Nat.mod_upper_bound; lia).
      destruct e as [k|k x y r|b|b|b| |b|b|b|b| | | | |]; cbn [switch_step fst]; unfold set_if, switch_key, switch_mouse, set_if, tick;
        repeat match goal with |- context [if ?c then _ else _] => destruct c end; try exact An; try exact M;
        destruct k; cbn; repeat match goal with |- context [if ?c then _ else _] => destruct c end; exact An.
Qed.

Lemma switch_message : forall h v e, Forall on_a_screen h -> on_a_screen e ->
  let s := fst (switch_run (switch_new v) h) in
  (toggles h e -> snd (switch_step s e) = Some (negb (w_value s))) /\
  (~ toggles h e -> snd (switch_step s e) = None) /\
  (forall m, snd (switch_step s e) = Some m -> m = negb (w_value s) /\ toggles h e).
Proof.
  intros h v e F Fe s. pose proof (switch_agrees h v F) as A. fold s in A. clearbody s. destruct A as [Af Ad Al Aa _].
  assert (D : toggles h e /\ snd (switch_step s e) = Some (negb (w_value s)) \/ ~ toggles h e /\ snd (switch_step s e) = None).
  { unfold toggles. rewrite <- Ad, <- Al, <- Af.
    destruct e as [k|k x y r|b|b|b| |b|b|b|b| | | | |]; try (right; split; [tauto|reflexivity]).
    - cbn. unfold switch_key. destruct (w_disabled s); [right; split; [intros [? _]; discriminate|reflexivity]|].
      destruct (w_loading s); [right; split; [intros (_ & ? & _); discriminate|reflexivity]|].
      destruct (w_focused s); cbn; [|right; split; [|reflexivity]; destruct k; intros (_ & _ & ?); try discriminate; contradiction].
      destruct k; cbn; auto. right. split; [tauto|reflexivity].
    - pose proof (inside_iff _ _ _ _ Fe) as In_. destruct k as [|bt|bt|]; try (right; split; [tauto|cbn; try destruct (_ && _); reflexivity]).
      cbn. rewrite <- Aa, <- In_. destruct (contains_point r x y), (w_active s), (w_disabled s), (w_loading s); cbn;
        ((left; repeat split; reflexivity) || (right; (split; [|reflexivity]); intros (? & ? & ? & ?); discriminate)). }
  destruct D as [[D1 D2]|[D1 D2]]; rewrite D2; (split; [|split]); intros; try tauto; try discriminate.
  injection H as <-. auto.
Qed.

Lemma mirror_app : forall h ms v e m, length h = length ms -> mirror v (h ++ [e]) (ms ++ [m]) = told (mirror v h ms) e m.
Proof. induction h as [|x h IH]; intros [|m' ms] v e m L; cbn in *; try lia; auto. Qed.
Lemma switch_run_length : forall h s, length (snd (switch_run s h)) = length h.
Proof.
  induction h as [|e h IH]; intros s; cbn; auto. destruct (switch_step s e) as [s1 m]. specialize (IH s1).
  destruct (switch_run s1 h). cbn in *. lia.
Qed.
Lemma switch_value_step : forall s e, w_value (fst (switch_step s e)) = told (w_value s) e (snd (switch_step s e)).
Proof.
  intros s e. destruct e as [k|k x y r|b|b|b| |b|b|b|b| | | | |]; cbn; unfold set_if, switch_key, switch_mouse, set_if;
    repeat match goal with |- context [if ?c then _ else _] => destruct c eqn:? end; cbn; try reflexivity;
    try (destruct k; cbn; repeat match goal with |- context [if ?c then _ else _] => destruct c eqn:? end; reflexivity);
    try (apply Bool.eqb_prop in Heqb0; auto).
Qed.
Lemma switch_mirror : forall h v s0, w_value s0 = v -> w_value (fst (switch_run s0 h)) = mirror v h (snd (switch_run s0 h)).
Proof.
  induction h as [|e h IH] using rev_ind; intros v s0 E; [exact E|].
  destruct (switch_run_app h s0 e) as [-> ->]. rewrite mirror_app by (symmetry; apply switch_run_length).
  rewrite <- (IH v s0 E). apply switch_value_step.
Qed.

Lemma switch_clean_step : forall s e, e <> MarkClean -> w_dirty (fst (switch_step s e)) = false ->
  w_dirty s = false /\ switch_looks (fst (switch_step s e)) = switch_looks s.
Proof.
  intros s e N. destruct e as [k|k x y r|b|b|b| |b|b|b|b| | | | |]; try congruence; cbn;
    unfold set_if, switch_key, switch_mouse, set_if; try (intros H; discriminate).
  - destruct (w_disabled s || w_loading s || negb (w_focused s)); cbn; [auto|]. destruct k; cbn; auto; discriminate.
  - destruct k; cbn; repeat match goal with |- context [if ?c then _ else _] => destruct c end; cbn; auto; try discriminate.
  - destruct (Bool.eqb _ _); cbn; auto; discriminate.
  - destruct (Bool.eqb _ _); cbn; auto; discriminate.
  - destruct (Bool.eqb _ _); cbn; auto; discriminate.
  - destruct (Bool.eqb (w_hovered s) false); cbn; destruct (Bool.eqb (w_active s) false); cbn; auto; discriminate.
  - destruct (Bool.eqb _ _); cbn; auto; discriminate.
  - destruct (Bool.eqb _ _); cbn; auto; discriminate.
  - destruct (Bool.eqb _ _); cbn; auto; discriminate.
  - destruct (Bool.eqb _ _); cbn; auto; discriminate.
  - destruct s as [f h a v d vi l di n]. cbn. destruct l; [discriminate|]. intros ->. auto.
  - auto.
Qed.
Lemma switch_clean : forall h s, ~ In MarkClean h -> w_dirty (fst (switch_run s h)) = false ->
  w_dirty s = false /\ switch_looks (fst (switch_run s h)) = switch_looks s.
Proof.
  induction h as [|e h IH] using rev_ind; intros s N D; [auto|].
  destruct (switch_run_app h s e) as [E _]. rewrite E in *.
  destruct (switch_clean_step (fst (switch_run s h)) e) as [A B]; [intros ->; apply N; apply in_or_app; right; now left|exact D|].
  destruct (IH s) as [C1 C2]; [intros I; apply N; apply in_or_app; now left|exact A|]. split; [exact C1|congruence].
Qed.

(** ** Button *)
Record bagrees (s : btn) (h : list event) : Prop := {
  bg_d : b_disabled s = disabled h; bg_a : b_active s = true <-> btn_held h }.

Lemma bset_if_active : forall s b, b_active (bset_if (b_active s) b s bupd_active) = b.
Proof. intros [f h a d di ac ha p] b. unfold bset_if. cbn. destruct a, b; reflexivity. Qed.
Lemma btn_held_snoc : forall h e, btn_held (h ++ [e]) <-> btn_press_begins h e \/ (btn_held h /\ ~ btn_press_ends e).
Proof. intros. apply (since_snoc btn_press_begins btn_press_ends). Qed.
Lemma press_active : forall s, b_active (fst (press s)) = b_active s /\ b_disabled (fst (press s)) = b_disabled s /\
  b_action (fst (press s)) = b_action s /\ b_handler (fst (press s)) = b_handler s.
Proof. intros s. unfold press. destruct (b_disabled s) eqn:E; [auto|]. destruct (b_action s) eqn:E2; cbn; auto. Qed.

Lemma btn_const : forall h s0, b_action (fst (btn_run s0 h)) = b_action s0 /\ b_handler (fst (btn_run s0 h)) = b_handler s0.
Proof.
  induction h as [|e h IH] using rev_ind; intros s0; [auto|].
  destruct (btn_run_app h s0 e) as [-> _]. destruct (IH s0) as [A B]. rewrite <- A, <- B. generalize (fst (btn_run s0 h)). clear. intros s.
  destruct e as [k|k x y r|b|b|b| |b|b|b|b| | | | |]; cbn; unfold bset_if; try (destruct (Bool.eqb _ _); auto); auto.
  - unfold btn_key. destruct (b_disabled s); auto. destruct k; auto; apply press_active.
  - unfold btn_mouse, bset_if. destruct k as [|[]|[]|]; auto.
    + destruct (Bool.eqb _ _); auto.
    + destruct (_ && _); auto. destruct (Bool.eqb _ _); auto.
    + destruct (b_active s); auto. destruct (_ && _); auto. destruct (press_active (bupd_active s false true)) as (_ & _ & A & B). rewrite A, B. auto.
Qed.

Lemma btn_agrees : forall h a k0, Forall on_a_screen h -> bagrees (fst (btn_run (btn_new a k0) h)) h.
Proof.
  induction h as [|e h IH] using rev_ind; intros a k0 F.
  - constructor; cbn; auto. split; [discriminate|]. intros H. destruct (since_nil _ _ H).
  - apply Forall_app in F. destruct F as [F Fe]. inversion Fe as [|? ? Oe _]; subst.
    destruct (btn_run_app h (btn_new a k0) e) as [-> _]. specialize (IH a k0 F). destruct IH as [Ad Aa].
    set (s := fst (btn_run (btn_new a k0) h)) in *. clearbody s.
    constructor.
    + unfold disabled. rewrite latest_app. fold (disabled h). rewrite <- Ad.
      destruct e as [k|k x y r|b|b|b| |b|b|b|b| | | | |]; cbn; unfold bset_if; try (destruct (Bool.eqb _ _); reflexivity); try reflexivity.
      * unfold btn_key. destruct (b_disabled s) eqn:E; [exact E|]. destruct k; try (destruct (press_active s) as (_ & P & _); congruence). exact E.
      * unfold btn_mouse, bset_if. destruct k as [|[]|[]|]; try reflexivity.
        -- destruct (Bool.eqb _ _); reflexivity.
        -- destruct (_ && _); [destruct (Bool.eqb _ _)|]; reflexivity.
        -- destruct (b_active s); [|reflexivity]. destruct (_ && _); [|reflexivity].
           destruct (press_active (bupd_active s false true)) as (_ & P & _). rewrite P. reflexivity.
    + rewrite btn_held_snoc. destruct e as [k|k x y r|b|b|b| |b|b|b|b| | | | |]; cbn [btn_press_begins btn_press_ends btn_step fst].
      * assert (E : b_active (fst (btn_key s k)) = b_active s).
        { unfold btn_key. destruct (b_disabled s); [reflexivity|]. destruct k; try apply press_active; reflexivity. }
        rewrite E, Aa. tauto.
      * pose proof (inside_iff _ _ _ _ Oe) as In_. unfold btn_mouse.
        destruct k as [|[]|[]|]; cbn [btn_press_begins btn_press_ends fst]; try (rewrite Aa; tauto).
        -- assert (E : b_active (bset_if (b_hovered s) (contains_point r x y) s bupd_hover) = b_active s) by (unfold bset_if; destruct (Bool.eqb _ _); reflexivity).
           rewrite E, Aa. tauto.
        -- rewrite Ad. destruct (contains_point r x y && negb (disabled h)) eqn:C; cbn [fst].
           ++ rewrite bset_if_active. apply andb_true_iff in C. destruct C as [C1 C2]. apply negb_true_iff in C2. apply In_ in C1. split; auto.
           ++ rewrite Aa. split; [intros H; right; split; [exact H|auto]|]. intros [(H1 & H2)|[H _]]; [|exact H].
              exfalso. apply In_ in H1. rewrite H1, H2 in C. discriminate.
        -- destruct (b_active s) eqn:Ea.
           ++ assert (E : b_active (fst (if contains_point r x y && negb (b_disabled s) then press (bupd_active s false true) else (bupd_active s false true, Nothing))) = false).
              { destruct (_ && _); [|reflexivity]. destruct (press_active (bupd_active s false true)) as (P & _). rewrite P. reflexivity. }
              rewrite E. split; [discriminate|]. intros [[]|[_ H]]. destruct (H I).
           ++ cbn [fst]. rewrite Ea. split; [discriminate|]. intros [[]|[_ H]]. destruct (H I).
      * assert (E : b_active (bset_if (b_focused s) b s bupd_focus) = b_active s) by (unfold bset_if; destruct (Bool.eqb _ _); reflexivity). rewrite E, Aa. tauto.
      * assert (E : b_active (bset_if (b_hovered s) b s bupd_hover) = b_active s) by (unfold bset_if; destruct (Bool.eqb _ _); reflexivity). rewrite E, Aa. tauto.
      * rewrite bset_if_active. destruct b; cbn; [tauto|]. split; [discriminate|]. intros [[]|[_ H]]. destruct (H I).
      * assert (E : b_active (bset_if (b_hovered s) false s bupd_hover) = b_active s) by (unfold bset_if; destruct (Bool.eqb _ _); reflexivity). rewrite E, Aa. tauto.
      * cbn. rewrite Aa. tauto.
      * rewrite Aa. tauto.
      * rewrite Aa. tauto.
      * rewrite Aa. tauto.
      * rewrite Aa. tauto.
      * cbn. rewrite Aa. tauto.
      * cbn. rewrite Aa. tauto.
      * cbn. rewrite Aa. tauto.
      * cbn. rewrite Aa. tauto.
Qed.

(** a call that presses the button is [press] (on a state that differs only in [active]) *)
Lemma btn_presses : forall h a k0 e, Forall on_a_screen h -> on_a_screen e ->
  let s := fst (btn_run (btn_new a k0) h) in
  (presses h e -> snd (btn_step s e) = match a with Some _ => Nothing | None => if k0 then Message else Nothing end /\
     b_pending (fst (btn_step s e)) = match a with Some x => Some x | None => b_pending s end) /\
  (~ presses h e -> e <> TakeAction -> snd (btn_step s e) = Nothing /\ b_pending (fst (btn_step s e)) = b_pending s).
Proof.
  intros h a k0 e F Fe s. pose proof (btn_agrees h a k0 F) as A. fold s in A. destruct A as [Ad Aa].
  destruct (btn_const h (btn_new a k0)) as [Ca Ck]. fold s in Ca, Ck. cbn in Ca, Ck. clearbody s.
  assert (P : forall s', b_disabled s' = false -> b_action s' = a -> b_handler s' = k0 ->
    snd (press s') = match a with Some _ => Nothing | None => if k0 then Message else Nothing end /\
    b_pending (fst (press s')) = match a with Some x => Some x | None => b_pending s' end).
  { intros s' E1 E2 E3. unfold press. rewrite E1, E2, E3. destruct a; cbn; auto. }
  unfold presses. rewrite <- Ad.
  destruct e as [k|k x y r|b|b|b| |b|b|b|b| | | | |];
    try (split; [tauto|intros _ ?; cbn; unfold bset_if; try destruct (Bool.eqb _ _); solve [auto|congruence]]).
  - cbn. unfold btn_key. destruct (b_disabled s) eqn:E; [split; [intros [? _]; discriminate|auto]|].
    destruct k; try (split; [intros _; apply P; auto|tauto]). split; [tauto|auto].
  - pose proof (inside_iff _ _ _ _ Fe) as In_.
    destruct k as [|[]|[]|]; try (split; [tauto|intros _ _; cbn; unfold bset_if; try destruct (_ && _); try destruct (Bool.eqb _ _); auto]).
    rewrite <- Aa, <- In_. cbn. destruct (b_active s); [|split; [intros (_ & _ & ?); discriminate|auto]].
    destruct (contains_point r x y); cbn; [|split; [intros (_ & ? & _); discriminate|auto]].
    destruct (b_disabled s) eqn:E; cbn; [split; [intros (? & _); discriminate|auto]|].
    split; [intros _; apply (P (bupd_active s false true)); auto|tauto].
Qed.

Lemma presses_dec : forall h e, Forall on_a_screen h -> on_a_screen e -> presses h e \/ ~ presses h e.
Proof.
  intros h e F Fe. destruct (btn_agrees h None false F) as [Ad Aa]. unfold presses.
  destruct (disabled h); [right; intros [? _]; discriminate|].
  destruct e as [[]|[|[]|[]|] x y r|b|b|b| |b|b|b|b| | | | |]; try tauto.
  pose proof (inside_iff _ _ _ _ Fe) as In_. rewrite <- Aa, <- In_.
  destruct (b_active _), (contains_point r x y); auto; right; intros (_ & ? & ?); discriminate.
Qed.

Lemma waiting_snoc : forall h e, waiting (h ++ [e]) <-> presses h e \/ (waiting h /\ e <> TakeAction).
Proof.
  intros h e. pose proof (since_snoc presses (fun x => x = TakeAction) h e) as S.
  assert (W : forall h, waiting h <-> since presses (fun x => x = TakeAction) h).
  { intros h'. unfold waiting, since. split; intros (h1 & x & h2 & A & B & C); exists h1, x, h2; (split; [exact A|split; [exact B|]]).
    - apply Forall_forall. intros z Z ->. contradiction.
    - intros I. rewrite Forall_forall in C. exact (C _ I eq_refl). }
  rewrite !W, S. tauto.
Qed.

Lemma btn_waiting : forall h a k0, Forall on_a_screen h ->
  match a with
  | Some x => (b_pending (fst (btn_run (btn_new a k0) h)) = Some x /\ waiting h) \/
              (b_pending (fst (btn_run (btn_new a k0) h)) = None /\ ~ waiting h)
  | None => b_pending (fst (btn_run (btn_new a k0) h)) = None
  end.
Proof.
  induction h as [|e h IH] using rev_ind; intros a k0 F.
  - destruct a; cbn; auto. right. split; [reflexivity|]. intros (h1 & e & h2 & E & _). destruct h1; discriminate.
  - apply Forall_app in F. destruct F as [F Fe]. inversion Fe as [|? ? Oe _]; subst.
    destruct (btn_run_app h (btn_new a k0) e) as [-> _]. specialize (IH a k0 F).
    destruct (btn_presses h a k0 e F Oe) as [P1 P2].
    assert (T : e = TakeAction \/ e <> TakeAction) by (destruct e; (now left) || (right; discriminate)).
    destruct T as [-> | T].
    + destruct a as [x|]; cbn.
      * right. split; [reflexivity|]. rewrite waiting_snoc. unfold presses. intros [[_ []]|[_ H]]. congruence.
      * reflexivity.
    + destruct (presses_dec h e F Oe) as [Q|Q].
      * destruct (P1 Q) as [_ E]. rewrite E. destruct a; [|exact IH]. left. split; [reflexivity|]. rewrite waiting_snoc. now left.
      * destruct (P2 Q T) as [_ E]. rewrite E. destruct a; [|exact IH]. rewrite waiting_snoc. tauto.
Qed.

Lemma btn_clean_step : forall s e, e <> MarkClean -> b_dirty (fst (btn_step s e)) = false ->
  b_dirty s = false /\ btn_states (fst (btn_step s e)) = btn_states s.
Proof.
  intros s e N. assert (P : forall s', b_dirty (fst (press s')) = b_dirty s' /\ btn_states (fst (press s')) = btn_states s').
  { intros s'. unfold press. destruct (b_disabled s'); [auto|]. destruct (b_action s'); auto. }
  destruct e as [k|k x y r|b|b|b| |b|b|b|b| | | | |]; try congruence; cbn;
    unfold bset_if; try (intros H; discriminate); try (destruct (Bool.eqb _ _); cbn; auto; discriminate); auto.
  - unfold btn_key. destruct (b_disabled s); auto. destruct k; auto; destruct (P s) as [-> ->]; auto.
  - unfold btn_mouse, bset_if. destruct k as [|[]|[]|]; cbn; auto.
    + destruct (Bool.eqb _ _); cbn; auto; discriminate.
    + destruct (_ && _); cbn; auto. destruct (Bool.eqb _ _); cbn; auto; discriminate.
    + destruct (b_active s); cbn; auto. destruct (_ && _); cbn; [|discriminate].
      destruct (P (bupd_active s false true)) as [-> ->]. cbn. discriminate.
Qed.
Lemma btn_clean : forall h s, ~ In MarkClean h -> b_dirty (fst (btn_run s h)) = false ->
  b_dirty s = false /\ btn_states (fst (btn_run s h)) = btn_states s.
Proof.
  induction h as [|e h IH] using rev_ind; intros s N D; [auto|].
  destruct (btn_run_app h s e) as [E _]. rewrite E in *.
  destruct (btn_clean_step (fst (btn_run s h)) e) as [A B]; [intros ->; apply N; apply in_or_app; right; now left|exact D|].
  destruct (IH s) as [C1 C2]; [intros I; apply N; apply in_or_app; now left|exact A|]. split; [exact C1|congruence].
Qed.
