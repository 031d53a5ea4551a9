(** Lemmas about the screen. *)
From Coq Require Import ZArith QArith Qround List Bool Lia Sorted.
From Verif Require Import Text_Model Float32_Model Scroll_Model Scroll_Spec Scroll_Proofs Bars_Model Bars_Spec Bars2_Proofs Pointer_Model Screen_Model Screen_Spec.
Import ListNotations.
Open Scope Z_scope.

(** *** Classes *)
Lemma last_of_in : forall {A} (l : list A) x, last_of l = Some x -> In x l.
Proof. induction l as [|a [|b l] IH]; intros x E; [discriminate|injection E as ->; now left|]. right. now apply IH. Qed.
Lemma last_of_none : forall {A} (l : list A), last_of l = None <-> l = [].
Proof. induction l as [|a [|b l] IH]; [tauto|split; discriminate|]. change (last_of (b :: l) = None <-> a :: b :: l = []). rewrite IH. split; discriminate. Qed.
Lemma last_of_max : forall b p, increasing b -> last_of b = Some p -> forall q, In q b -> fst q <= fst p.
Proof.
  induction b as [|a [|c b] IH]; intros p S E q I; [destruct I|destruct I as [->|[]]; injection E as ->; lia|].
  apply StronglySorted_inv in S. destruct S as [S F]. change (last_of (c :: b) = Some p) in E. destruct I as [<-|I].
  - pose proof (last_of_in _ _ E) as P. rewrite Forall_forall in F. specialize (F p P). lia.
  - now apply (IH p).
Qed.
Lemma increasing_filter : forall f b, increasing b -> increasing (filter f b).
Proof.
  intros f b S. induction S as [|a b S IH F]; [constructor|]. cbn. destruct (f a); [|exact IH]. constructor; [exact IH|].
  apply Forall_forall. intros q I. apply filter_In in I. rewrite Forall_forall in F. now apply F.
Qed.
Lemma increasing_inj : forall b t c d, increasing b -> In (t, c) b -> In (t, d) b -> c = d.
Proof.
  intros b t c d S. induction S as [|a b S IH F]; intros I J; [destruct I|]. rewrite Forall_forall in F.
  destruct I as [->|I]; destruct J as [J|J]; try congruence; auto; [specialize (F _ J)|subst a; specialize (F _ I)]; cbn in F; lia.
Qed.
Lemma matching_reached : forall b size c, increasing b -> (matching b size = [c] <-> reached b size c).
Proof.
  intros b size c S. unfold matching, reached. set (f := fun p : breakpoint => fst p <=? size).
  pose proof (increasing_filter f b S) as Sf.
  assert (Fi : forall t d, In (t, d) (filter f b) <-> In (t, d) b /\ t <= size).
  { intros t d. rewrite filter_In. unfold f. cbn. rewrite Z.leb_le. tauto. }
  change (match last_of (filter f b) with Some (_, c0) => [c0] | None => [] end = [c] <-> exists t, In (t, c) b /\ t <= size /\ (forall u d, In (u, d) b -> u <= size -> u <= t)).
  destruct (last_of (filter f b)) as [[t d]|] eqn:E.
  - pose proof (last_of_in _ _ E) as I. apply Fi in I. pose proof (last_of_max _ _ Sf E) as M. split.
    + intros X. assert (Q : d = c) by congruence. subst d. exists t. split; [tauto|]. split; [tauto|]. intros u e J L. apply (M (u, e)). apply Fi. tauto.
    + intros (u & J & L & G). f_equal. assert (u = t).
      { apply Z.le_antisymm; [apply (M (u, c)); apply Fi; tauto|apply (G t d); tauto]. }
      subst u. apply (increasing_inj b t d c S); tauto.
  - apply last_of_none in E. split; [discriminate|]. intros (u & J & L & _). assert (In (u, c) (filter f b)) by (apply Fi; tauto). rewrite E in H. destruct H.
Qed.
Lemma matching_none : forall b size, matching b size = [] <-> forall t c, In (t, c) b -> size < t.
Proof.
  intros b size. unfold matching. destruct (last_of _) as [[t d]|] eqn:E.
  - split; [discriminate|]. intros H. apply last_of_in in E. apply filter_In in E. destruct E as [I L]. specialize (H _ _ I). cbn in L. apply Z.leb_le in L. lia.
  - apply last_of_none in E. split; [|reflexivity]. intros _ t c I. destruct (Z.ltb_spec size t); [assumption|].
    assert (J : In (t, c) (filter (fun p : Z * text => fst p <=? size) b)) by (apply filter_In; split; [exact I|cbn; apply Z.leb_le; lia]). rewrite E in J. destruct J.
Qed.
Lemma matching_at_most : forall b size, matching b size = [] \/ exists c, matching b size = [c].
Proof. intros b size. unfold matching. destruct (last_of _) as [[t d]|]; eauto. Qed.
Lemma texts_eqb_iff : forall a b, texts_eqb a b = true <-> a = b.
Proof. intros a b. unfold texts_eqb. destruct (list_eq_dec (list_eq_dec Z.eq_dec) a b); split; congruence. Qed.

(** *** Extents *)
Lemma extend_ge : forall base kids s, fst s <= fst (fold_left (extend base) kids s) /\ snd s <= snd (fold_left (extend base) kids s) /\
  forall k, In k kids -> a_x (k_area k) - a_x base + a_w (k_area k) + k_right k <= fst (fold_left (extend base) kids s) /\
    a_y (k_area k) - a_y base + a_h (k_area k) + k_bottom k <= snd (fold_left (extend base) kids s).
Proof.
  intros base. induction kids as [|a kids IH]; intros s; cbn [fold_left].
  - split; [lia|]. split; [lia|]. intros k [].
  - destruct (IH (extend base s a)) as (A & B & C). unfold extend at 1 in A. unfold extend at 1 in B. cbn [fst snd] in A, B.
    revert A B. destruct (Z.ltb_spec (fst s) (a_x (k_area a) - a_x base + a_w (k_area a) + k_right a)); destruct (Z.ltb_spec (snd s) (a_y (k_area a) - a_y base + a_h (k_area a) + k_bottom a));
    intros A B; (split; [lia|]); (split; [lia|]); intros k [<-|I]; try (now apply C); lia.
Qed.
Lemma extend_eq : forall base kids s,
  (fst (fold_left (extend base) kids s) = fst s \/ exists k, In k kids /\ fst (fold_left (extend base) kids s) = a_x (k_area k) - a_x base + a_w (k_area k) + k_right k) /\
  (snd (fold_left (extend base) kids s) = snd s \/ exists k, In k kids /\ snd (fold_left (extend base) kids s) = a_y (k_area k) - a_y base + a_h (k_area k) + k_bottom k).
Proof.
  intros base. induction kids as [|a kids IH]; intros s; cbn [fold_left]; [split; now left|].
  destruct (IH (extend base s a)) as [A B]. split.
  - destruct A as [A|(k & I & A)]; [|right; exists k; split; [now right|exact A]]. rewrite A. unfold extend. cbn [fst].
    destruct (_ <? _); [right; exists a; split; [now left|reflexivity]|now left].
  - destruct B as [B|(k & I & B)]; [|right; exists k; split; [now right|exact B]]. rewrite B. unfold extend. cbn [snd].
    destruct (snd s <? _); [right; exists a; split; [now left|reflexivity]|now left].
Qed.

(** The kids of a layout were arranged in a region with the same corner, of which
    the extents are recorded. *)
Lemma layout_kids : forall place st inner, exists base, let '(kids, l) := screen_layout place st inner in
  kids = place base /\ (l_vw l, l_vh l) = virtual_size base kids /\ a_x base = a_x inner /\ a_y base = a_y inner /\
  (base = inner \/ (base = l_content l /\ l_v l = true)) /\
  l_content l = content_region st inner (l_v l) (l_h l) /\
  l_v l = needed (b_over_y st) (snd (virtual_size inner (place inner))) (a_h inner) /\
  l_h l = needed (b_over_x st) (fst (virtual_size inner (place inner))) (a_w inner).
Proof.
  intros place st inner. unfold screen_layout. destruct (virtual_size inner (place inner)) as [ew eh] eqn:E. cbn [fst snd].
  destruct (needed (b_over_y st) eh (a_h inner) && (_ <? a_w inner)) eqn:A.
  - set (c := content_region _ _ _ _) in *. exists c. destruct (virtual_size c (place c)) as [fw fh] eqn:F. cbn [l_vw l_vh l_content l_v l_h].
    apply andb_true_iff in A. rewrite F. repeat split; auto. right. split; [reflexivity|apply A].
  - exists inner. cbn [l_vw l_vh l_content l_v l_h]. rewrite E. repeat split; auto.
Qed.
Lemma layout_room : forall place st inner, 0 <= a_w (l_content (snd (screen_layout place st inner))) /\ 0 <= a_h (l_content (snd (screen_layout place st inner))).
Proof.
  intros place st inner. destruct (layout_kids place st inner) as (base & H). destruct (screen_layout place st inner) as [kids l]. cbn [snd].
  destruct H as (_ & _ & _ & _ & _ & -> & _). unfold content_region. cbn. lia.
Qed.

(** *** Histories *)
Section Float.
Variable rnd : Q -> Q.
Hypothesis R : rounding rnd.
Lemma fine_viewport : forall s w h, fine s -> 0 <= w -> 0 <= h -> fine (set_viewport s w h).
Proof.
  intros s w h F W H. destruct (fine_step s (Viewport w h) F I) as (s' & E & F'); [intros w0 h0 E; injection E as <- <-; auto|].
  cbn in E. injection E as <-. exact F'.
Qed.
Lemma fine_screen_wheel : forall st s d sh, fine s -> fine (screen_wheel st s d sh).
Proof.
  intros st s d sh F. unfold screen_wheel. destruct d, sh; repeat match goal with |- context [if ?b then _ else _] => destruct b end;
  auto; try (apply fine_up; auto; lia); try (apply fine_down; auto; lia); try (apply fine_left; auto; lia); apply fine_right; auto; lia.
Qed.
Lemma fine_screen_drag : forall st inner s vertical grab x y, fine s -> exists s', screen_drag rnd st inner s vertical grab x y = Some s' /\ fine s'.
Proof.
  intros st inner s vertical grab x y F. unfold screen_drag. destruct vertical; destruct (drag_position _ _ _ _ _); eauto; apply fine_to; auto.
Qed.
Lemma fine_screen_event : forall st place inner s e, fine (s_scroll s) -> exists s', screen_event rnd st place inner s e = Some s' /\ fine (s_scroll s').
Proof.
  intros st place inner s e F. unfold screen_event.
  set (c := content_region st inner _ _). set (s1 := with_scroll s _).
  assert (F1 : fine (s_scroll s1)).
  { cbn. apply fine_viewport; auto; unfold c, content_region; cbn; lia. }
  clearbody s1. clear c. destruct e; cbn zeta.
  - eauto.
  - eexists. split; [reflexivity|]. cbn. now apply fine_screen_wheel.
  - eexists. split; [reflexivity|]. destruct (_ && _); [now apply fine_bar|]. destruct (_ && _); [now apply fine_bar|exact F1].
  - destruct (s_drag s1) as [[vertical grab]|].
    + destruct (fine_screen_drag st inner (s_scroll s1) vertical grab x y F1) as (s2 & E & F2). rewrite E. cbn. eauto.
    + destruct button; eauto.
  - eauto.
  - eexists. split; [reflexivity|]. cbn. apply fine_record; auto; apply layout_room.
Qed.
Lemma fine_scenes : forall es s, fine (s_scroll s) -> exists s', run_scenes rnd s es = Some s' /\ fine (s_scroll s').
Proof.
  induction es as [|[g e] es IH]; intros s F; cbn [run_scenes]; [eauto|].
  destruct (fine_screen_event (n_bars g) (n_place g) (n_inner g) s e F) as (s1 & -> & F1). now apply IH.
Qed.

Lemma viewport_still_y : forall s w h, offset_y s = 0 -> offset_y (set_viewport s w h) = 0.
Proof. intros s w h H. cbn. rewrite H. unfold max_scroll_y. cbn. lia. Qed.
Lemma viewport_still_x : forall s w h, offset_x s = 0 -> offset_x (set_viewport s w h) = 0.
Proof. intros s w h H. cbn. rewrite H. unfold max_scroll_x. cbn. lia. Qed.
Lemma still_y_screen : forall st place inner s e s', b_over_y st = OHidden -> still_y s -> screen_event rnd st place inner s e = Some s' -> still_y s'.
Proof.
  intros st place inner s e s' H [Y D]. unfold screen_event.
  assert (Sv : forall x, shows_v st x = false) by (intros x; unfold shows_v; now rewrite H). rewrite (Sv (s_scroll s)).
  set (c := content_region st inner _ _). pose proof (viewport_still_y (s_scroll s) (a_w c) (a_h c) Y) as Y1. set (s1 := with_scroll s _).
  assert (Y1' : offset_y (s_scroll s1) = 0) by exact Y1. assert (D1 : forall g, s_drag s1 <> Some (true, g)) by exact D. clearbody s1. clear Y1 c.
  destruct e; cbn zeta.
  - intros E; injection E as <-. split; auto.
  - intros E; injection E as <-. split; [|exact D1]. cbn [s_scroll with_scroll]. unfold screen_wheel. rewrite Sv.
    destruct d, shifted; try (destruct (shows_h _ _)); cbn; auto.
  - unfold render_v. cbn [andb]. intros E; injection E as <-. destruct (_ && _); [|split; auto].
    unfold on_bar. destruct (thumb_bounds _ _ _ _ _) as [ts te]. destruct (_ && _); [split; [exact Y1'|cbn; discriminate]|].
    destruct (_ <? _); split; try exact Y1'; exact D1.
  - destruct (s_drag s1) as [[vertical grab]|] eqn:DR.
    + destruct vertical; [exfalso; eapply D1; reflexivity|]. unfold screen_drag. destruct (drag_position _ _ _ _ _) as [p|]; cbn [option_map].
      * destruct (scroll_to_some (s_scroll s1) (Some p) None) as (s2 & E2 & _ & _ & _ & _ & _ & O). rewrite E2. cbn. intros E; injection E as <-. split; cbn; [lia|rewrite DR; discriminate].
      * intros E; injection E as <-. split; [exact Y1'|cbn; rewrite DR; discriminate].
    + intros E; injection E as <-. destruct button; split; try exact Y1'; cbn; try rewrite DR; discriminate.
  - intros E; injection E as <-. split; [exact Y1'|cbn; discriminate].
  - intros E; injection E as <-. split; [|exact D]. cbn. now apply record_still_y.
Qed.
Lemma still_x_screen : forall st place inner s e s', b_over_x st = OHidden -> still_x s -> screen_event rnd st place inner s e = Some s' -> still_x s'.
Proof.
  intros st place inner s e s' H [Y D]. unfold screen_event.
  assert (Sv : forall x, shows_h st x = false) by (intros x; unfold shows_h; now rewrite H). rewrite (Sv (s_scroll s)).
  set (c := content_region st inner _ _). pose proof (viewport_still_x (s_scroll s) (a_w c) (a_h c) Y) as Y1. set (s1 := with_scroll s _).
  assert (Y1' : offset_x (s_scroll s1) = 0) by exact Y1. assert (D1 : forall g, s_drag s1 <> Some (false, g)) by exact D. clearbody s1. clear Y1 c.
  destruct e; cbn zeta.
  - intros E; injection E as <-. split; auto.
  - intros E; injection E as <-. split; [|exact D1]. cbn [s_scroll with_scroll]. unfold screen_wheel. rewrite Sv.
    destruct d, shifted; try (destruct (shows_v _ _)); cbn; auto.
  - unfold render_h. cbn [andb]. intros E; injection E as <-. destruct (_ && _); [|split; auto].
    unfold on_bar. destruct (thumb_bounds _ _ _ _ _) as [ts te]. destruct (_ && _); [split; [exact Y1'|cbn; discriminate]|].
    destruct (_ <? _); split; try exact Y1'; exact D1.
  - destruct (s_drag s1) as [[vertical grab]|] eqn:DR.
    + destruct vertical; [|exfalso; eapply D1; reflexivity]. unfold screen_drag. destruct (drag_position _ _ _ _ _) as [p|]; cbn [option_map].
      * destruct (scroll_to_some (s_scroll s1) None (Some p)) as (s2 & E2 & _ & _ & _ & _ & O & _). rewrite E2. cbn. intros E; injection E as <-. split; cbn; [lia|rewrite DR; discriminate].
      * intros E; injection E as <-. split; [exact Y1'|cbn; rewrite DR; discriminate].
    + intros E; injection E as <-. destruct button; split; try exact Y1'; cbn; try rewrite DR; discriminate.
  - intros E; injection E as <-. split; [exact Y1'|cbn; discriminate].
  - intros E; injection E as <-. split; [|exact D]. cbn. now apply record_still_x.
Qed.
Lemma still_scenes_y : forall es s s', Forall (fun ge => b_over_y (n_bars (fst ge)) = OHidden) es -> still_y s -> run_scenes rnd s es = Some s' -> still_y s'.
Proof.
  induction es as [|[g e] es IH]; intros s s' F S E; cbn in E; [injection E as <-; exact S|]. inversion F; subst.
  destruct (screen_event _ _ _ _ _ _) as [s1|] eqn:E1; [|discriminate]. apply (IH s1 s'); auto. eapply still_y_screen; eauto.
Qed.
Lemma still_scenes_x : forall es s s', Forall (fun ge => b_over_x (n_bars (fst ge)) = OHidden) es -> still_x s -> run_scenes rnd s es = Some s' -> still_x s'.
Proof.
  induction es as [|[g e] es IH]; intros s s' F S E; cbn in E; [injection E as <-; exact S|]. inversion F; subst.
  destruct (screen_event _ _ _ _ _ _) as [s1|] eqn:E1; [|discriminate]. apply (IH s1 s'); auto. eapply still_x_screen; eauto.
Qed.

(** *** The wheel *)
Lemma rest_viewport : forall st inner s, at_rest st inner s ->
  let c := content_region st inner (shows_v st s) (shows_h st s) in set_viewport s (a_w c) (a_h c) = s.
Proof.
  intros st inner s (W & H & O). cbn zeta. rewrite <- W, <- H. destruct O as [(A & B) (C & D)]. destruct s as [ox oy vw vh pw ph].
  unfold set_viewport, reclamp, set_x, set_y, max_scroll_x, max_scroll_y in *. cbn in *. f_equal; lia.
Qed.
Lemma rest_move : forall st inner s y, at_rest st inner s -> 0 <= y <= max_scroll_y s -> at_rest st inner (set_y s y).
Proof.
  intros st inner s y (W & H & O) Y. assert (Ev : shows_v st (set_y s y) = shows_v st s) by reflexivity. assert (Eh : shows_h st (set_y s y) = shows_h st s) by reflexivity.
  unfold at_rest. rewrite Ev, Eh. cbn zeta. split; [exact W|]. split; [exact H|]. destruct O as [A B]. split; [exact A|].
  unfold in_range, max_scroll_y in *. cbn. lia.
Qed.
Lemma wheel_down : forall st place inner s, at_rest st inner (s_scroll s) -> shows_v st (s_scroll s) = true ->
  screen_event rnd st place inner s (EWheel WDown false) = Some (with_scroll s (set_y (s_scroll s) (Z.min (offset_y (s_scroll s) + 3) (max_scroll_y (s_scroll s))))).
Proof.
  intros st place inner s A V. unfold screen_event. cbn zeta. rewrite (rest_viewport _ _ _ A). destruct s as [sc ho dr]. cbn [with_scroll s_scroll s_hover s_drag] in *. unfold screen_wheel. rewrite V. reflexivity.
Qed.
Lemma wheel_up : forall st place inner s, at_rest st inner (s_scroll s) -> shows_v st (s_scroll s) = true ->
  screen_event rnd st place inner s (EWheel WUp false) = Some (with_scroll s (set_y (s_scroll s) (Z.max (offset_y (s_scroll s) - 3) 0))).
Proof.
  intros st place inner s A V. unfold screen_event. cbn zeta. rewrite (rest_viewport _ _ _ A). destruct s as [sc ho dr]. cbn [with_scroll s_scroll s_hover s_drag] in *. unfold screen_wheel. rewrite V. reflexivity.
Qed.
Lemma offset_bounds : forall s, offsets_ok s -> 0 <= offset_y s <= max_scroll_y s.
Proof. intros s [_ (A & B)]. unfold max_scroll_y. lia. Qed.
Lemma downs : forall g n s, at_rest (n_bars g) (n_inner g) (s_scroll s) -> shows_v (n_bars g) (s_scroll s) = true ->
  run_scenes rnd s (repeat (g, EWheel WDown false) n) = Some (with_scroll s (set_y (s_scroll s) (Z.min (offset_y (s_scroll s) + 3 * Z.of_nat n) (max_scroll_y (s_scroll s))))).
Proof.
  intros g n. induction n as [|n IH]; intros s A V.
  - cbn [repeat run_scenes]. pose proof (offset_bounds _ (proj2 (proj2 A))). rewrite Z.min_l by lia. destruct s as [[ox oy vw vh pw ph] ho dr]. cbn. unfold with_scroll, set_y. cbn. repeat f_equal; lia.
  - cbn [repeat run_scenes]. rewrite (wheel_down _ _ _ _ A V). pose proof (offset_bounds _ (proj2 (proj2 A))). rewrite IH.
    + destruct s as [[ox oy vw vh pw ph] ho dr]. unfold with_scroll, set_y, max_scroll_y in *. cbn [s_scroll s_hover s_drag offset_x offset_y virtual_width virtual_height viewport_width viewport_height] in *. do 3 f_equal. lia.
    + cbn [s_scroll with_scroll]. apply rest_move; auto. lia.
    + exact V.
Qed.
Lemma ups : forall g n s, at_rest (n_bars g) (n_inner g) (s_scroll s) -> shows_v (n_bars g) (s_scroll s) = true ->
  run_scenes rnd s (repeat (g, EWheel WUp false) n) = Some (with_scroll s (set_y (s_scroll s) (Z.max (offset_y (s_scroll s) - 3 * Z.of_nat n) 0))).
Proof.
  intros g n. induction n as [|n IH]; intros s A V.
  - cbn [repeat run_scenes]. pose proof (offset_bounds _ (proj2 (proj2 A))). rewrite Z.max_l by lia. destruct s as [[ox oy vw vh pw ph] ho dr]. cbn. unfold with_scroll, set_y. cbn. repeat f_equal; lia.
  - cbn [repeat run_scenes]. rewrite (wheel_up _ _ _ _ A V). pose proof (offset_bounds _ (proj2 (proj2 A))). rewrite IH.
    + destruct s as [[ox oy vw vh pw ph] ho dr]. unfold with_scroll, set_y, max_scroll_y in *. cbn [s_scroll s_hover s_drag offset_x offset_y virtual_width virtual_height viewport_width viewport_height] in *. do 3 f_equal. lia.
    + cbn [s_scroll with_scroll]. apply rest_move; auto. lia.
    + exact V.
Qed.
Lemma run_scenes_app : forall a b s, run_scenes rnd s (a ++ b) = match run_scenes rnd s a with Some s1 => run_scenes rnd s1 b | None => None end.
Proof. induction a as [|[g e] a IH]; intros b s; [reflexivity|]. cbn. destruct (screen_event _ _ _ _ _ _); [apply IH|reflexivity]. Qed.
End Float.
