(** Lemmas about scrolling containers. *)
From Coq Require Import ZArith QArith Qround List Bool Lia Lqa.
From Verif Require Import Float32_Model Float32_Proofs Scroll_Model Scroll_Spec Scroll_Proofs Bars_Model Bars_Spec Bars_Proofs.
Import ListNotations.
Open Scope Z_scope.

Lemma not_le_bool : forall a b, (b < a)%Q -> Qle_bool a b = false.
Proof. intros a b H. destruct (Qle_bool a b) eqn:E; auto. apply Qle_bool_iff in E. exfalso. lra. Qed.
Lemma neq_bool : forall a b, a <> b -> Qeq_bool (inject_Z a) (inject_Z b) = false.
Proof. intros a b H. destruct (Qeq_bool (inject_Z a) (inject_Z b)) eqn:E; auto. apply Qeq_bool_iff in E. exfalso. unfold Qeq in E. cbn in E. lia. Qed.
(** *** Layout *)
Definition settled (st : bars) (measure : area -> Z * Z) (inner : area) (l : layout) : Prop :=
  l_content l = content_region st inner (l_v l) (l_h l) /\ (l_vw l, l_vh l) = measure (l_content l) /\
  l_h l = needed (b_over_x st) (l_vw l) (a_w (l_content l)) /\ l_v l = needed (b_over_y st) (l_vh l) (a_h (l_content l)).
Lemma layout_settled : forall st measure inner, steady st measure inner -> settled st measure inner (compute_layout st measure inner).
Proof.
  intros st measure inner S. unfold compute_layout. 
  assert (ST : forall n v h c vw vh, (v = true -> forall v' h', (v = true -> v' = true) -> (h = true -> h' = true) -> needed (b_over_y st) (snd (measure (content_region st inner v' h'))) (a_h (content_region st inner v' h')) = true) ->
     (h = true -> forall v' h', (v = true -> v' = true) -> (h = true -> h' = true) -> needed (b_over_x st) (fst (measure (content_region st inner v' h'))) (a_w (content_region st inner v' h')) = true) ->
     (n >= (if v then 0 else 1) + (if h then 0 else 1) + 1)%nat ->
     settled st measure inner (settle n st measure inner (Layout c vw vh v h))).
  { induction n as [|n IH]; intros v h c vw vh HV HH N; [destruct v, h; cbn in N; lia|]. cbn [settle l_v l_h].
    destruct (measure (content_region st inner v h)) as [vw' vh'] eqn:M.
    set (c' := content_region st inner v h) in *. set (nh := needed (b_over_x st) vw' (a_w c')). set (nv := needed (b_over_y st) vh' (a_h c')).
    destruct (Bool.eqb nh h && Bool.eqb nv v) eqn:E.
    - apply andb_true_iff in E. destruct E as [E1 E2]. apply eqb_prop in E1. apply eqb_prop in E2. unfold settled. cbn [l_content l_vw l_vh l_v l_h]. fold c'. rewrite M. repeat split; auto.
    - assert (V1 : v = true -> nv = true). { intros X. specialize (HV X v h ltac:(auto) ltac:(auto)). fold c' in HV. rewrite M in HV. exact HV. }
      assert (H1 : h = true -> nh = true). { intros X. specialize (HH X v h ltac:(auto) ltac:(auto)). fold c' in HH. rewrite M in HH. exact HH. }
      apply IH.
      + intros NV v' h' A B. unfold nv, needed in *. destruct (b_over_y st) eqn:OY; auto.
        apply Z.ltb_lt in NV. apply Z.ltb_lt.
        apply (proj2 (S v h v' h' (fun x => A (V1 x)) (fun x => B (H1 x)))). fold c'. rewrite M. exact NV.
      + intros NH v' h' A B. unfold nh, needed in *. destruct (b_over_x st) eqn:OX; auto.
        apply Z.ltb_lt in NH. apply Z.ltb_lt.
        apply (proj1 (S v h v' h' (fun x => A (V1 x)) (fun x => B (H1 x)))). fold c'. rewrite M. exact NH.
      + clearbody nh nv. clear -N E V1 H1. destruct v, h, nv, nh; cbn in *; try lia; try discriminate; try (specialize (V1 eq_refl); discriminate); try (specialize (H1 eq_refl); discriminate). }
  apply ST; try discriminate. cbn. lia.
Qed.

(** The hidden axis never gets a bar. *)
Lemma settle_hidden_y : forall n st measure inner l, b_over_y st = OHidden -> l_v l = false -> l_v (settle n st measure inner l) = false.
Proof.
  induction n as [|n IH]; intros st measure inner l H L; cbn [settle]; auto. destruct (measure _) as [vw vh]. unfold needed at 2 3. rewrite H.
  destruct (_ && _); auto.
Qed.
Lemma settle_hidden_x : forall n st measure inner l, b_over_x st = OHidden -> l_h l = false -> l_h (settle n st measure inner l) = false.
Proof.
  induction n as [|n IH]; intros st measure inner l H L; cbn [settle]; auto. destruct (measure _) as [vw vh]. unfold needed at 1 3. rewrite H.
  destruct (_ && _); auto.
Qed.
Lemma settle_content : forall n st measure inner l, 0 <= a_w (l_content l) \/ (0 < n)%nat -> 0 <= a_h (l_content l) \/ (0 < n)%nat ->
  0 <= a_w (l_content (settle n st measure inner l)) /\ 0 <= a_h (l_content (settle n st measure inner l)).
Proof.
  induction n as [|n IH]; intros st measure inner l A B; cbn [settle]; [lia|]. destruct (measure _) as [vw vh]. destruct (_ && _).
  - cbn. lia.
  - apply IH; left; cbn; lia.
Qed.
Lemma layout_content : forall st measure inner, 0 <= a_w (l_content (compute_layout st measure inner)) /\ 0 <= a_h (l_content (compute_layout st measure inner)).
Proof. intros. apply settle_content; right; lia. Qed.

(** *** Events *)
Section Events.
Variable rnd : Q -> Q.
Hypothesis R : rounding rnd.
Lemma page_nonneg : forall n, 0 <= n -> 0 <= page_amount rnd n.
Proof.
  intros n H. unfold page_amount. assert (A : (0 <= rnd (9 # 10))%Q) by (apply rnd_nonneg; auto; lra). assert (B : (0 <= inject_Z n)%Q) by (apply (inj_le 0); auto).
  assert (C : (0 <= rnd (inject_Z n * rnd (9 # 10)))%Q) by (apply rnd_nonneg; auto; nra). rewrite trunc_floor by auto. apply floor_nonneg. auto.
Qed.
Lemma page_le : forall n, 0 <= n <= 2 ^ 24 -> page_amount rnd n <= n.
Proof.
  intros n H. unfold page_amount. assert (A : (0 <= rnd (9 # 10))%Q) by (apply rnd_nonneg; auto; lra). assert (A1 : (rnd (9 # 10) <= 1)%Q) by (apply rnd_le_one; auto; lra).
  assert (B : (0 <= inject_Z n)%Q) by (apply (inj_le 0); lia).
  assert (C : (0 <= rnd (inject_Z n * rnd (9 # 10)))%Q) by (apply rnd_nonneg; auto; nra). rewrite trunc_floor by auto. apply floor_lub. apply rnd_le_int; auto; [lia|]. nra.
Qed.
Lemma page_pos : forall n, 2 <= n -> 1 <= page_amount rnd n.
Proof.
  intros n H. unfold page_amount. pose proof (rnd_rel rnd R (9 # 10) ltac:(lra)) as A. change (1 # 2 ^ 24)%Q with (1 # 16777216)%Q in A. assert (B : (2 <= inject_Z n)%Q) by (apply (inj_le 2); auto).
  assert (C : (inject_Z 1 <= rnd (inject_Z n * rnd (9 # 10)))%Q). { apply rnd_ge_int; auto; [lia|]. change (inject_Z 1) with 1%Q. nra. }
  change (inject_Z 1) with 1%Q in C. rewrite trunc_floor by lra. apply Qfloor_resp_le in C. exact C.
Qed.
Definition wide (s : scroll) : Prop := 0 <= viewport_width s /\ 0 <= viewport_height s.
Definition fine (s : scroll) : Prop := offsets_ok s /\ wide s.
Lemma fine_step : forall s o, fine s -> amount_nonneg o -> (forall w h, o = Viewport w h -> 0 <= w /\ 0 <= h) -> exists s', scroll_step s o = Some s' /\ fine s'.
Proof.
  intros s o [F W] A V. destruct (step_ok s o F A) as (s' & E & K). exists s'. split; auto. split; auto. destruct o; cbn in E; inversion E; subst; try exact W.
  - destruct (scroll_to_some s x y) as (s2 & E2 & _ & _ & X & Y & _). rewrite E2 in E. inversion E; subst. unfold wide. rewrite X, Y. exact W.
  - unfold wide. cbn. apply (V w h eq_refl).
Qed.
Lemma fine_op : forall s o, fine s -> amount_nonneg o -> (forall w h, o <> Viewport w h) -> exists s', scroll_step s o = Some s' /\ fine s'.
Proof. intros s o F A V. apply fine_step; auto. intros w h E. exfalso. eapply V; eauto. Qed.
Lemma fine_record : forall s l, fine s -> 0 <= a_w (l_content l) -> 0 <= a_h (l_content l) -> fine (record_layout s l).
Proof.
  intros s l F A B. unfold record_layout. destruct (fine_op s (Virtual (l_vw l) (l_vh l)) F I ltac:(discriminate)) as (s1 & E1 & F1). cbn in E1. inversion E1; subst s1.
  destruct (fine_step _ (Viewport (a_w (l_content l)) (a_h (l_content l))) F1 I) as (s2 & E2 & F2). { intros w h E. inversion E; subst; auto. } cbn in E2. inversion E2; subst s2. exact F2.
Qed.
Lemma fine_up : forall s a, fine s -> 0 <= a -> fine (scroll_up s a). Proof. intros s a F A. destruct (fine_op s (Up a) F A ltac:(discriminate)) as (s' & E & F'). inversion E; subst; auto. Qed.
Lemma fine_down : forall s a, fine s -> 0 <= a -> fine (scroll_down s a). Proof. intros s a F A. destruct (fine_op s (Down a) F A ltac:(discriminate)) as (s' & E & F'). inversion E; subst; auto. Qed.
Lemma fine_left : forall s a, fine s -> 0 <= a -> fine (scroll_left s a). Proof. intros s a F A. destruct (fine_op s (Left a) F A ltac:(discriminate)) as (s' & E & F'). inversion E; subst; auto. Qed.
Lemma fine_right : forall s a, fine s -> 0 <= a -> fine (scroll_right s a). Proof. intros s a F A. destruct (fine_op s (Right a) F A ltac:(discriminate)) as (s' & E & F'). inversion E; subst; auto. Qed.
Lemma fine_to : forall s x y, fine s -> exists s', scroll_to s x y = Some s' /\ fine s'. Proof. intros s x y F. apply (fine_op s (To x y) F I). discriminate. Qed.
Lemma fine_key : forall st s k, fine s -> exists s', on_key rnd st s k = Some s' /\ fine s'.
Proof.
  intros st s k F. pose proof (proj2 (proj2 F)) as W.
  destruct k; cbn [on_key]; try (destruct (allows _ || allows _); [apply fine_to; auto|exists s; auto]);
    eexists; (split; [reflexivity|]); try (destruct (allows _)); auto; try (apply fine_up || apply fine_down || apply fine_left || apply fine_right); auto; try lia; apply page_nonneg; auto.
Qed.
Lemma fine_wheel : forall st s d sh, fine s -> fine (on_wheel st s d sh).
Proof.
  intros st s d sh F. destruct d; cbn [on_wheel]; destruct sh; destruct (allows (b_over_x st)); destruct (allows (b_over_y st)); auto;
    (apply fine_up || apply fine_down || apply fine_left || apply fine_right); auto; lia.
Qed.
Lemma fine_bar : forall vertical s pos track, fine (s_scroll s) -> fine (s_scroll (on_bar rnd vertical s pos track)).
Proof.
  intros vertical s pos track F. unfold on_bar. pose proof (proj2 F) as [W1 W2]. destruct (if vertical then _ else _) as [ts te]. destruct (_ && _); [exact F|].
  destruct (_ <? _); destruct vertical; cbn [with_scroll s_scroll]; (apply fine_up || apply fine_down || apply fine_left || apply fine_right); auto; apply page_nonneg; auto.
Qed.
Lemma fine_drag : forall st inner s vertical grab x y, fine s -> exists s', on_drag rnd st inner s vertical grab x y = Some s' /\ fine s'.
Proof.
  intros st inner s vertical grab x y F. unfold on_drag. destruct vertical.
  - destruct (drag_position _ _ _ _ _); [apply fine_to; auto|exists s; auto].
  - destruct (drag_position _ _ _ _ _); [apply fine_to; auto|exists s; auto].
Qed.
Lemma fine_mouse : forall st inner l s e, fine (s_scroll s) -> 0 <= a_w (l_content l) -> 0 <= a_h (l_content l) -> exists s', on_mouse rnd st inner l s e = Some s' /\ fine (s_scroll s').
Proof.
  intros st inner l s e F A B. pose proof (fine_record (s_scroll s) l F A B) as FR.
  destruct e; cbn [on_mouse].
  - eexists. split; [reflexivity|]. exact FR.
  - eexists. split; [reflexivity|]. cbn [with_scroll s_scroll]. apply fine_wheel. exact FR.
  - eexists. split; [reflexivity|]. destruct (_ && _); [apply fine_bar; exact FR|]. destruct (_ && _); [apply fine_bar; exact FR|]. exact FR.
  - unfold with_scroll. cbn [s_drag s_scroll s_hover]. destruct (s_drag s) as [[vertical grab]|].
    + destruct (fine_drag st inner _ vertical grab x y FR) as (s' & E & F'). rewrite E. eexists. split; [reflexivity|]. exact F'.
    + eexists. split; [reflexivity|]. destruct button; exact FR.
  - eexists. split; [reflexivity|]. exact FR.
  - eexists. split; [reflexivity|]. exact FR.
Qed.
Lemma fine_event : forall g s e, fine (s_scroll s) -> exists s', on_scroll_event rnd (g_bars g) (g_measure g) (g_inner g) s e = Some s' /\ fine (s_scroll s').
Proof.
  intros [st measure inner] s e F. cbn [g_bars g_measure g_inner]. destruct (layout_content st measure inner) as [A B].
  destruct e; cbn [on_scroll_event]; try (apply fine_mouse; auto).
  destruct (fine_key st (s_scroll s) k F) as (s' & E & F'). rewrite E. eexists. split; [reflexivity|]. exact F'.
Qed.
Lemma fine_run : forall es s, fine (s_scroll s) -> exists s', run_events rnd s es = Some s' /\ fine (s_scroll s').
Proof.
  induction es as [|[g e] es IH]; intros s F; cbn [run_events]. { exists s. auto. }
  destruct (fine_event g s e F) as (s' & E & F'). rewrite E. apply IH. exact F'.
Qed.
Lemma fine_fresh : fine (s_scroll fresh).
Proof. unfold fine, offsets_ok, Scroll_Spec.in_range, wide. cbn. lia. Qed.

(** A hidden axis. *)
Definition still_y (s : scroller) : Prop := offset_y (s_scroll s) = 0 /\ forall g, s_drag s <> Some (true, g).
Definition still_x (s : scroller) : Prop := offset_x (s_scroll s) = 0 /\ forall g, s_drag s <> Some (false, g).
Lemma record_still_y : forall s l, offset_y s = 0 -> offset_y (record_layout s l) = 0.
Proof. intros s l H. unfold record_layout. cbn. rewrite H. unfold max_scroll_y. cbn. lia. Qed.
Lemma record_still_x : forall s l, offset_x s = 0 -> offset_x (record_layout s l) = 0.
Proof. intros s l H. unfold record_layout. cbn. rewrite H. unfold max_scroll_x. cbn. lia. Qed.
Lemma still_y_key : forall st s k s', b_over_y st = OHidden -> still_y s -> option_map (with_scroll s) (on_key rnd st (s_scroll s) k) = Some s' -> still_y s'.
Proof.
  intros st s k s' H [Y D].
  destruct k; cbn [on_key]; rewrite ?H; cbn [allows orb option_map]; try (intros E; inversion E; subst; split; cbn; auto; fail).
    + destruct (allows (b_over_x st)); intros E; inversion E; subst; split; cbn; auto.
    + destruct (allows (b_over_x st)); intros E; inversion E; subst; split; cbn; auto.
    + destruct (allows (b_over_x st)).
      * destruct (scroll_to_some (s_scroll s) (Some 0%Q) None) as (s2 & E2 & _ & _ & _ & _ & _ & O). rewrite E2. cbn. intros E; inversion E; subst. split; cbn; auto. lia.
      * intros E; inversion E; subst; split; cbn; auto.
    + destruct (allows (b_over_x st)).
      * destruct (scroll_to_some (s_scroll s) (Some (rnd (inject_Z (max_scroll_x (s_scroll s))))) None) as (s2 & E2 & _ & _ & _ & _ & _ & O). rewrite E2. cbn. intros E; inversion E; subst. split; cbn; auto. lia.
      * intros E; inversion E; subst; split; cbn; auto.
Qed.
Lemma still_y_mouse : forall st inner l s e s', b_over_y st = OHidden -> l_v l = false -> still_y s -> on_mouse rnd st inner l s e = Some s' -> still_y s'.
Proof.
  intros st inner l s e s' H LV [Y D]. pose proof (record_still_y (s_scroll s) l Y) as RY. destruct e; cbn [on_mouse].
  - intros E; inversion E; subst. split; [exact RY|exact D].
  - intros E; inversion E; subst. split; [|exact D]. cbn [s_scroll with_scroll]. destruct d; cbn [on_wheel]; rewrite ?H; cbn [allows]; destruct shifted; destruct (allows (b_over_x st)); cbn; auto.
  - rewrite LV. unfold render_v. cbn [andb]. intros E; inversion E; subst; clear E. destruct (_ && _).
    + unfold on_bar. cbn [s_scroll with_scroll]. destruct (thumb_bounds _ _ _ _ _) as [ts te]. destruct (_ && _); [split; [exact RY|cbn; intros g X; discriminate]|].
      destruct (_ <? _); split; try exact RY; exact D.
    + split; [exact RY|exact D].
  - unfold with_scroll. cbn [s_drag s_scroll s_hover]. destruct (s_drag s) as [[vertical grab]|] eqn:DR.
    + destruct vertical; [exfalso; eapply D; reflexivity|]. unfold on_drag. destruct (drag_position _ _ _ _ _) as [p|]; cbn [option_map].
      * destruct (scroll_to_some (record_layout (s_scroll s) l) (Some p) None) as (s2 & E2 & _ & _ & _ & _ & _ & O). rewrite E2. cbn. intros E; inversion E; subst. split; cbn; [lia|intros; congruence].
      * intros E; inversion E; subst. split; [exact RY|cbn; intros; congruence].
    + intros E; inversion E; subst. destruct button; split; try exact RY; cbn; intros; congruence.
  - intros E; inversion E; subst. split; [exact RY|cbn; intros; congruence].
  - intros E; inversion E; subst. split; [exact RY|exact D].
Qed.
Lemma still_y_event : forall g s e s', b_over_y (g_bars g) = OHidden -> still_y s -> on_scroll_event rnd (g_bars g) (g_measure g) (g_inner g) s e = Some s' -> still_y s'.
Proof.
  intros [st measure inner] s e s' H S. cbn [g_bars g_measure g_inner] in *.
  assert (L : l_v (compute_layout st measure inner) = false) by (apply settle_hidden_y; auto).
  destruct e; cbn [on_scroll_event]; try (apply still_y_mouse; auto). apply still_y_key; auto.
Qed.
Lemma still_x_key : forall st s k s', b_over_x st = OHidden -> still_x s -> option_map (with_scroll s) (on_key rnd st (s_scroll s) k) = Some s' -> still_x s'.
Proof.
  intros st s k s' H [Y D].
  destruct k; cbn [on_key]; rewrite ?H; cbn [allows orb option_map]; rewrite ?orb_false_r; try (intros E; inversion E; subst; split; cbn; auto; fail).
    + destruct (allows (b_over_y st)); intros E; inversion E; subst; split; cbn; auto.
    + destruct (allows (b_over_y st)); intros E; inversion E; subst; split; cbn; auto.
    + destruct (allows (b_over_y st)); intros E; inversion E; subst; split; cbn; auto.
    + destruct (allows (b_over_y st)); intros E; inversion E; subst; split; cbn; auto.
    + destruct (allows (b_over_y st)).
      * destruct (scroll_to_some (s_scroll s) None (Some 0%Q)) as (s2 & E2 & _ & _ & _ & _ & O & _). rewrite E2. cbn. intros E; inversion E; subst. split; cbn; auto. lia.
      * intros E; inversion E; subst; split; cbn; auto.
    + destruct (allows (b_over_y st)).
      * destruct (scroll_to_some (s_scroll s) None (Some (rnd (inject_Z (max_scroll_y (s_scroll s)))))) as (s2 & E2 & _ & _ & _ & _ & O & _). rewrite E2. cbn. intros E; inversion E; subst. split; cbn; auto. lia.
      * intros E; inversion E; subst; split; cbn; auto.
Qed.
Lemma still_x_mouse : forall st inner l s e s', b_over_x st = OHidden -> l_h l = false -> still_x s -> on_mouse rnd st inner l s e = Some s' -> still_x s'.
Proof.
  intros st inner l s e s' H LH [Y D]. pose proof (record_still_x (s_scroll s) l Y) as RY. destruct e; cbn [on_mouse].
  - intros E; inversion E; subst. split; [exact RY|exact D].
  - intros E; inversion E; subst. split; [|exact D]. cbn [s_scroll with_scroll]. destruct d; cbn [on_wheel]; rewrite ?H; cbn [allows]; destruct shifted; destruct (allows (b_over_y st)); cbn; auto.
  - rewrite LH. unfold render_h. cbn [andb]. intros E; inversion E; subst; clear E. destruct (_ && _).
    + unfold on_bar. cbn [s_scroll with_scroll]. destruct (thumb_bounds _ _ _ _ _) as [ts te]. destruct (_ && _); [split; [exact RY|cbn; intros g X; discriminate]|].
      destruct (_ <? _); split; try exact RY; exact D.
    + split; [exact RY|exact D].
  - unfold with_scroll. cbn [s_drag s_scroll s_hover]. destruct (s_drag s) as [[vertical grab]|] eqn:DR.
    + destruct vertical; [|exfalso; eapply D; reflexivity]. unfold on_drag. destruct (drag_position _ _ _ _ _) as [p|]; cbn [option_map].
      * destruct (scroll_to_some (record_layout (s_scroll s) l) None (Some p)) as (s2 & E2 & _ & _ & _ & _ & O & _). rewrite E2. cbn. intros E; inversion E; subst. split; cbn; [lia|intros; congruence].
      * intros E; inversion E; subst. split; [exact RY|cbn; intros; congruence].
    + intros E; inversion E; subst. destruct button; split; try exact RY; cbn; intros; congruence.
  - intros E; inversion E; subst. split; [exact RY|cbn; intros; congruence].
  - intros E; inversion E; subst. split; [exact RY|exact D].
Qed.
Lemma still_x_event : forall g s e s', b_over_x (g_bars g) = OHidden -> still_x s -> on_scroll_event rnd (g_bars g) (g_measure g) (g_inner g) s e = Some s' -> still_x s'.
Proof.
  intros [st measure inner] s e s' H S. cbn [g_bars g_measure g_inner] in *.
  assert (L : l_h (compute_layout st measure inner) = false) by (apply settle_hidden_x; auto).
  destruct e; cbn [on_scroll_event]; try (apply still_x_mouse; auto). apply still_x_key; auto.
Qed.
Lemma still_run_y : forall es s s', Forall (fun ge => b_over_y (g_bars (fst ge)) = OHidden) es -> still_y s -> run_events rnd s es = Some s' -> still_y s'.
Proof.
  induction es as [|[g e] es IH]; intros s s' F S; cbn [run_events]. { intros E; inversion E; subst; auto. }
  destruct (on_scroll_event _ _ _ _ _ _) as [s1|] eqn:E; [|discriminate]. apply IH; [exact (Forall_inv_tail F)|]. eapply still_y_event; eauto. exact (Forall_inv F).
Qed.
Lemma still_run_x : forall es s s', Forall (fun ge => b_over_x (g_bars (fst ge)) = OHidden) es -> still_x s -> run_events rnd s es = Some s' -> still_x s'.
Proof.
  induction es as [|[g e] es IH]; intros s s' F S; cbn [run_events]. { intros E; inversion E; subst; auto. }
  destruct (on_scroll_event _ _ _ _ _ _) as [s1|] eqn:E; [|discriminate]. apply IH; [exact (Forall_inv_tail F)|]. eapply still_x_event; eauto. exact (Forall_inv F).
Qed.
End Events.

(** *** Dragging with exact arithmetic *)
Lemma drag_exact : forall T v w k, 1 <= T -> 0 < w < v -> exists q, drag_position (fun q => q) T v w k = Some q /\ (q == inject_Z (k * v) / inject_Z T)%Q.
Proof.
  intros T v w k HT Hw. unfold drag_position. destruct (Z.eqb_spec v 0); [lia|]. cbn [orb].
  assert (PT : (0 < inject_Z T)%Q) by (apply inj_pos; lia). assert (PV : (0 < inject_Z v)%Q) by (apply inj_pos; lia).
  assert (WV : (inject_Z w < inject_Z v)%Q) by (rewrite <- Zlt_Qlt; lia).
  assert (E : (inject_Z T - inject_Z w / inject_Z v * inject_Z T == inject_Z T * (inject_Z v - inject_Z w) / inject_Z v)%Q) by (field; lra).
  assert (P : (0 < inject_Z T - inject_Z w / inject_Z v * inject_Z T)%Q).
  { rewrite E. apply Qlt_shift_div_l; auto. rewrite Qmult_0_l. nra. }
  destruct (Qle_bool _ 0) eqn:Q; [apply Qle_bool_iff in Q; apply Qlt_not_le in P; contradiction|]. eexists. split; [reflexivity|].
  rewrite inject_Z_mult. field. split; [lra|]. split; [lra|].
  clear E P. intros X. assert (Y : (inject_Z T * inject_Z v - inject_Z w * inject_Z T == inject_Z T * (inject_Z v - inject_Z w))%Q) by ring. rewrite Y in X. nra.
Qed.
Lemma floor_div : forall a b, 0 < b -> Qfloor (inject_Z a / inject_Z b) = a / b.
Proof.
  intros a b H. destruct b as [|b|b]; try lia. unfold Qdiv, Qinv, inject_Z. cbn [Qnum Qden]. unfold Qmult. cbn [Qnum Qden]. rewrite Z.mul_1_r, Pos.mul_1_l. reflexivity.
Qed.
Lemma ceil_div : forall a b, 0 < b -> Qceiling (inject_Z a / inject_Z b) = - (- a / b).
Proof.
  intros a b H. unfold Qceiling. assert (E : (- (inject_Z a / inject_Z b) == inject_Z (- a) / inject_Z b)%Q). { rewrite inject_Z_opp. field. intros X. assert (Y : (0 < inject_Z b)%Q) by (apply inj_pos; lia). lra. }
  rewrite (Qfloor_comp _ _ E), floor_div; auto.
Qed.

(** *** The thumb in eighths *)
Section Eighths.
Variable rnd : Q -> Q.
Hypothesis R : rounding rnd.
Lemma eighths_ok : forall T v w p, 1 <= T <= 2 ^ 24 -> 0 < w < v -> v <= 2 ^ 24 -> 0 <= p <= v - w ->
  let s := start8 rnd T (inject_Z v) (inject_Z w) (inject_Z p) in let e := end8 rnd T (inject_Z v) (inject_Z w) (inject_Z p) in 0 <= s /\ s + 8 <= e.
Proof.
  intros T v w p HT Hw Hv Hp. unfold end8. set (s := start8 _ _ _ _ _). cbv zeta.
  destruct (position_mono rnd R T v w HT Hw Hv p p ltac:(lia) ltac:(lia)) as [[P _] _]. destruct (thumb_range rnd R T v w HT Hw Hv) as [T1 _].
  split.
  - unfold s, start8. rewrite trunc_floor; [apply floor_nonneg|]; apply rnd_nonneg; auto; change (inject_Z 8) with 8%Q; lra.
  - assert (8 <= Qceiling (rnd (thumb_size rnd T (inject_Z v) (inject_Z w) * inject_Z 8))); [|lia]. apply ceil_ge. apply rnd_ge_int; auto; [lia|]. change (inject_Z 8) with 8%Q. lra.
Qed.
End Eighths.
Notation ex := exactly.
Lemma eighths_exact : forall T v w p q, 1 <= T -> 0 < w < v -> 0 <= p <= q -> q <= v - w ->
  let s p := start8 ex T (inject_Z v) (inject_Z w) (inject_Z p) in let e p := end8 ex T (inject_Z v) (inject_Z w) (inject_Z p) in
  0 <= s p <= s q /\ e q <= 8 * T /\ e p - s p = Z.max 8 (ceil_ratio (8 * w * T) v) /\ s 0 = 0 /\ e (v - w) = 8 * T.
Proof.
  intros T v w p q HT Hw Hp Hq s e. destruct (exact_position T v w HT Hw p q Hp Hq) as [[P1 P2] P3]. destruct (exact_range T v w HT Hw) as [T1 T2].
  set (th := thumb_size ex T (inject_Z v) (inject_Z w)) in *.
  assert (PT : (0 < inject_Z T)%Q) by (apply inj_pos; lia). assert (PV : (0 < inject_Z v)%Q) by (apply inj_pos; lia).
  assert (S : forall p, 0 <= p -> p <= v - w -> s p = Qfloor (thumb_position ex T (inject_Z v) (inject_Z w) (inject_Z p) * 8)).
  { intros x X1 X2. unfold s, start8. change (inject_Z 8) with 8%Q. apply trunc_floor. destruct (exact_position T v w HT Hw x x ltac:(lia) X2) as [[A _] _]. lra. }
  assert (EN : forall p, e p = s p + Qceiling (th * 8)) by reflexivity.
  assert (CE : forall x, Qfloor (inject_Z (8 * T) - x) = 8 * T - Qceiling x) by (intros; apply floor_sub_ceil).
  assert (TT : (inject_Z (8 * T) == inject_Z T * 8)%Q) by (rewrite inject_Z_mult; change (inject_Z 8) with 8%Q; ring).
  split; [|split; [|split; [|split]]].
  - rewrite !S by lia. split; [apply floor_nonneg; lra|]. apply Qfloor_resp_le. lra.
  - rewrite EN, S by lia. pose proof (CE (th * 8)%Q) as C. assert (Qfloor (thumb_position ex T (inject_Z v) (inject_Z w) (inject_Z q) * 8) <= Qfloor (inject_Z (8 * T) - th * 8)) by (apply Qfloor_resp_le; rewrite TT; lra). lia.
  - rewrite EN. replace (s p + Qceiling (th * 8) - s p) with (Qceiling (th * 8)) by lia. unfold th, thumb_size, ceil_ratio. rewrite <- ceil_div by lia.
    assert (E : (inject_Z w / (inject_Z v / inject_Z T) * 8 == inject_Z (8 * w * T) / inject_Z v)%Q). { rewrite !inject_Z_mult. change (inject_Z 8) with 8%Q. field. lra. }
    rewrite <- (Qceiling_comp _ _ E). unfold qmax. destruct (Qle_bool (inject_Z w / (inject_Z v / inject_Z T)) 1) eqn:B.
    + apply Qle_bool_iff in B. change (Qceiling (1 * 8)) with 8. assert (Qceiling (inject_Z w / (inject_Z v / inject_Z T) * 8) <= 8); [|lia]. apply ceil_lub. change (inject_Z 8) with 8%Q. lra.
    + assert (N : (1 <= inject_Z w / (inject_Z v / inject_Z T))%Q). { apply Qnot_lt_le. intros X. apply Qlt_le_weak, Qle_bool_iff in X. congruence. }
      assert (8 <= Qceiling (inject_Z w / (inject_Z v / inject_Z T) * 8)); [|lia]. apply ceil_ge. change (inject_Z 8) with 8%Q. lra.
  - rewrite S by lia. assert (E : (thumb_position ex T (inject_Z v) (inject_Z w) (inject_Z 0) * 8 == 0)%Q). { unfold thumb_position, Qdiv. change (inject_Z 0) with 0%Q. ring. } rewrite (Qfloor_comp _ _ E). reflexivity.
  - rewrite EN, S by lia. pose proof (exact_end T v w Hw) as X. fold th in X.
    assert (E : (thumb_position ex T (inject_Z v) (inject_Z w) (inject_Z (v - w)) * 8 == inject_Z (8 * T) - th * 8)%Q) by (rewrite X, TT; ring). rewrite (Qfloor_comp _ _ E), CE. lia.
Qed.
Lemma cells_exact : forall T v w p q, 1 <= T -> 0 < w < v -> v <> T -> 0 <= p <= q -> q <= v - w ->
  let b p := thumb_bounds ex T (inject_Z v) (inject_Z w) (inject_Z p) in
  0 <= fst (b p) <= fst (b q) /\ snd (b q) <= T /\ snd (b p) - fst (b p) = Z.max 1 (ceil_ratio (w * T) v) /\ b 0 = (0, snd (b p) - fst (b p)) /\ snd (b (v - w)) = T.
Proof.
  intros T v w p q HT Hw NE Hp Hq b. destruct (exact_position T v w HT Hw p q Hp Hq) as [[P1 P2] P3]. destruct (exact_range T v w HT Hw) as [T1 T2].
  set (th := thumb_size ex T (inject_Z v) (inject_Z w)) in *.
  assert (PT : (0 < inject_Z T)%Q) by (apply inj_pos; lia). assert (PV : (0 < inject_Z v)%Q) by (apply inj_pos; lia). assert (PW : (0 < inject_Z w)%Q) by (apply inj_pos; lia).
  assert (WV : (inject_Z w < inject_Z v)%Q) by (rewrite <- Zlt_Qlt; lia).
  assert (B : forall p, 0 <= p -> p <= v - w -> b p = (Qfloor (thumb_position ex T (inject_Z v) (inject_Z w) (inject_Z p)), Qfloor (thumb_position ex T (inject_Z v) (inject_Z w) (inject_Z p)) + Qceiling th)).
  { intros x X1 X2. unfold b, thumb_bounds. assert (E1 : Qle_bool (inject_Z v) (inject_Z w) = false) by (apply not_le_bool; auto). rewrite E1.
    assert (E2 : Qle_bool (inject_Z w) 0 = false) by (apply not_le_bool; auto). rewrite E2.
    assert (E3 : Qle_bool (inject_Z v) 0 = false) by (apply not_le_bool; auto). rewrite E3.
    assert (E4 : Qeq_bool (inject_Z v) (inject_Z T) = false) by (apply neq_bool; lia). rewrite E4.
    destruct (Z.eqb_spec T 0); [lia|]. cbn [orb]. fold th. rewrite trunc_floor; [reflexivity|]. destruct (exact_position T v w HT Hw x x ltac:(lia) X2) as [[A _] _]. exact A. }
  rewrite !B by lia. cbn [fst snd].
  split; [|split; [|split; [|split]]].
  - split; [apply floor_nonneg; lra|]. apply Qfloor_resp_le. lra.
  - pose proof (floor_sub_ceil T th) as C. assert (Qfloor (thumb_position ex T (inject_Z v) (inject_Z w) (inject_Z q)) <= Qfloor (inject_Z T - th)) by (apply Qfloor_resp_le; lra). lia.
  - replace (_ + Qceiling th - _) with (Qceiling th) by lia. unfold th, thumb_size, ceil_ratio. rewrite <- ceil_div by lia.
    assert (E : (inject_Z w / (inject_Z v / inject_Z T) == inject_Z (w * T) / inject_Z v)%Q). { rewrite !inject_Z_mult. field. lra. }
    rewrite <- (Qceiling_comp _ _ E). unfold qmax. destruct (Qle_bool (inject_Z w / (inject_Z v / inject_Z T)) 1) eqn:BB.
    + apply Qle_bool_iff in BB. change (Qceiling 1) with 1. assert (Qceiling (inject_Z w / (inject_Z v / inject_Z T)) <= 1); [|lia]. apply ceil_lub. exact BB.
    + assert (N : (1 <= inject_Z w / (inject_Z v / inject_Z T))%Q). { apply Qnot_lt_le. intros X. apply Qlt_le_weak, Qle_bool_iff in X. congruence. }
      assert (1 <= Qceiling (inject_Z w / (inject_Z v / inject_Z T))); [|lia]. apply ceil_ge. exact N.
  - assert (E : (thumb_position ex T (inject_Z v) (inject_Z w) (inject_Z 0) == 0)%Q). { unfold thumb_position, Qdiv. change (inject_Z 0) with 0%Q. ring. } rewrite (Qfloor_comp _ _ E). change (Qfloor 0) with 0. f_equal. lia.
  - pose proof (exact_end T v w Hw) as X. fold th in X. rewrite (Qfloor_comp _ _ X), floor_sub_ceil. lia.
Qed.
Lemma cells_f32 : forall rnd, rounding rnd -> forall T v w p q, 1 <= T <= 2 ^ 24 -> 0 < w < v -> v <= 2 ^ 24 -> v <> T -> 0 <= p <= q -> q <= v - w ->
  let b p := thumb_bounds rnd T (inject_Z v) (inject_Z w) (inject_Z p) in
  0 <= fst (b p) <= fst (b q) /\ fst (b q) < snd (b q) <= T + 1 /\ fst (b q) <= T - 1 /\ snd (b p) - fst (b p) = snd (b q) - fst (b q).
Proof.
  intros rnd R T v w p q HT Hw Hv NE Hp Hq b. unfold b. rewrite !(bounds_unfold rnd T v w HT Hw NE). cbn [fst snd].
  destruct (position_mono rnd R T v w HT Hw Hv p q Hp Hq) as [[P1 P2] P3]. destruct (thumb_range rnd R T v w HT Hw Hv) as [T1 T2]. set (th := thumb_size rnd T (inject_Z v) (inject_Z w)) in *.
  rewrite !trunc_floor by lra. set (x := thumb_position _ _ _ _ (inject_Z p)) in *. set (y := thumb_position _ _ _ _ (inject_Z q)) in *.
  assert (F1 : 1 <= Qfloor th) by (apply Qfloor_resp_le in T1; exact T1). assert (C1 : 1 <= Qceiling th) by (apply ceil_ge; exact T1).
  assert (C2 : Qceiling th <= Qfloor th + 1). { apply ceil_lub. apply Qlt_le_weak, Qlt_floor. }
  assert (Y : Qfloor y <= T - Qfloor th). { apply floor_lub. unfold Z.sub. rewrite inject_Z_plus, inject_Z_opp. exact P3. }
  assert (0 <= Qfloor x) by (apply floor_nonneg; auto). assert (Qfloor x <= Qfloor y) by (apply Qfloor_resp_le; auto). lia.
Qed.
(** Drag, exact: where the thumb lands. *)
Lemma drag_lands : forall T v w k p, 1 <= T -> 0 < w < v -> v <= w * T -> T < v -> 0 <= k ->
  k + ceil_ratio (w * T) v <= T -> drag_position ex T v w k = Some p ->
  let o := Qfloor p in 0 <= o <= v - w /\ k - 1 <= fst (thumb_bounds ex T (inject_Z v) (inject_Z w) (inject_Z o)) <= k.
Proof.
  intros T v w k p HT Hw WT TV K1 K2 D o. destruct (drag_exact T v w k HT Hw) as (q & Dq & Q). rewrite D in Dq. inversion Dq; subst q. 
  assert (O : o = k * v / T) by (unfold o; rewrite (Qfloor_comp _ _ Q); apply floor_div; lia).
  assert (C : ceil_ratio (w * T) v = - (- (w * T) / v)) by reflexivity. set (c := ceil_ratio (w * T) v) in *. 
  assert (C1 : w * T <= c * v). { pose proof (Z.mul_div_le (- (w * T)) v). nia. }
  assert (KV : k * v <= (v - w) * T) by nia.
  assert (O1 : 0 <= o <= v - w). { rewrite O. split; [apply Z.div_pos; nia|]. apply Z.div_le_upper_bound; nia. }
  split; auto.
  assert (PT : (0 < inject_Z T)%Q) by (apply inj_pos; lia). assert (PV : (0 < inject_Z v)%Q) by (apply inj_pos; lia). assert (PW : (0 < inject_Z w)%Q) by (apply inj_pos; lia).
  assert (WV : (inject_Z w < inject_Z v)%Q) by (rewrite <- Zlt_Qlt; lia).
  assert (B : fst (thumb_bounds ex T (inject_Z v) (inject_Z w) (inject_Z o)) = o * T / v).
  { unfold thumb_bounds. assert (E1 : Qle_bool (inject_Z v) (inject_Z w) = false) by (apply not_le_bool; auto). rewrite E1.
    assert (E2 : Qle_bool (inject_Z w) 0 = false) by (apply not_le_bool; auto). rewrite E2.
    assert (E3 : Qle_bool (inject_Z v) 0 = false) by (apply not_le_bool; auto). rewrite E3.
    assert (E4 : Qeq_bool (inject_Z v) (inject_Z T) = false) by (apply neq_bool; lia). rewrite E4.
    destruct (Z.eqb_spec T 0); [lia|]. cbn [orb fst]. rewrite trunc_floor; [|destruct (exact_position T v w HT Hw o o ltac:(lia) ltac:(lia)) as [[A _] _]; exact A].
    rewrite <- floor_div by lia. apply Qfloor_comp. unfold thumb_position, thumb_size.
    assert (E : (inject_Z w / (inject_Z v / inject_Z T) == inject_Z (w * T) / inject_Z v)%Q). { rewrite !inject_Z_mult. field. lra. }
    assert (N : (1 <= inject_Z w / (inject_Z v / inject_Z T))%Q). { rewrite E. apply Qle_shift_div_l; auto. rewrite Qmult_1_l. apply inj_le. exact WT. }
    assert (M : (qmax (inject_Z w / (inject_Z v / inject_Z T)) 1 == inject_Z w / (inject_Z v / inject_Z T))%Q).
    { destruct (qmax_ge (inject_Z w / (inject_Z v / inject_Z T)) 1) as [A _]. pose proof (qmax_lub (inject_Z w / (inject_Z v / inject_Z T)) 1 _ ltac:(apply Qle_refl) N). lra. }
    rewrite M. rewrite inject_Z_mult. field. repeat split; lra. }
  rewrite B. pose proof (Z.mul_div_le (k * v) T ltac:(lia)) as L1. pose proof (Z.mul_succ_div_gt (k * v) T ltac:(lia)) as L2. rewrite <- O in L1, L2.
  split. - assert (k - 1 < o * T / v + 1); [|lia]. assert (k - 1 <= o * T / v); [|lia]. apply Z.div_le_lower_bound; nia. - apply Z.div_le_upper_bound; nia.
Qed.
(** *** Presses on the bars *)
Lemma C64_press_lem : forall rnd, rounding rnd -> forall st inner l s x y, 0 <= a_w (l_content l) -> 0 <= a_h (l_content l) ->
  let c := record_layout (s_scroll s) l in
  let r := v_region st inner (l_h l) in
  let b := thumb_bounds rnd (a_h r) (inject_Z (virtual_height c)) (inject_Z (viewport_height c)) (inject_Z (offset_y c)) in
  render_v st (l_v l) = true -> inside r x y -> offsets_ok c -> viewport_height c <= 2 ^ 24 ->
  exists s', on_mouse rnd st inner l s (EPress x y) = Some s' /\
    offset_x (s_scroll s') = offset_x c /\
    (fst b <= y - a_y r < snd b -> s_drag s' = Some (true, y - a_y r - fst b) /\ s_scroll s' = c) /\
    (y - a_y r < fst b -> s_drag s' = s_drag s /\ offset_y c - viewport_height c <= offset_y (s_scroll s') <= offset_y c) /\
    (snd b <= y - a_y r -> fst b <= y - a_y r -> s_drag s' = s_drag s /\ offset_y c <= offset_y (s_scroll s') <= offset_y c + viewport_height c).
Proof.
  intros rnd R st inner l s x y CW CH. set (c := record_layout (s_scroll s) l). set (r := v_region st inner (l_h l)).
  cbv zeta. intros RV [IX IY] OK VH. cbn [on_mouse]. fold c r. eexists. split; [reflexivity|]. rewrite RV.
  assert (CP : contains_point r x y = true). { unfold contains_point. rewrite !andb_true_iff, !Z.leb_le, !Z.ltb_lt. lia. } rewrite CP. cbn [andb].
  unfold on_bar. cbn [s_scroll with_scroll]. destruct (thumb_bounds _ _ _ _ _) as [ts te]. cbn [fst snd].
  assert (V0 : 0 <= viewport_height c) by (exact CH).
  pose proof (page_nonneg rnd R _ V0) as P0. pose proof (page_le rnd R (viewport_height c) ltac:(lia)) as P1. destruct OK as [_ [Y0 Y1]]. clearbody c r.
  destruct (Z.leb_spec ts (y - a_y r)); destruct (Z.ltb_spec (y - a_y r) te); cbn [andb].
  - cbn. repeat split; intros; try lia; reflexivity.
  - destruct (Z.ltb_spec (y - a_y r) ts); [lia|]. cbn. unfold max_scroll_y. repeat split; intros; try lia.
  - destruct (Z.ltb_spec (y - a_y r) ts); [|lia]. cbn. repeat split; intros; try lia.
  - destruct (Z.ltb_spec (y - a_y r) ts); [|lia]. cbn. repeat split; intros; try lia.
Qed.
Lemma C64_press_horizontal_lem : forall rnd, rounding rnd -> forall st inner l s x y, 0 <= a_w (l_content l) -> 0 <= a_h (l_content l) ->
  let c := record_layout (s_scroll s) l in
  let r := h_region st inner (l_v l) in
  let b := thumb_bounds rnd (a_w r) (inject_Z (virtual_width c)) (inject_Z (viewport_width c)) (inject_Z (offset_x c)) in
  render_h st (l_h l) = true -> inside r x y -> render_v st (l_v l) = false \/ ~ inside (v_region st inner (l_h l)) x y -> offsets_ok c -> viewport_width c <= 2 ^ 24 ->
  exists s', on_mouse rnd st inner l s (EPress x y) = Some s' /\
    offset_y (s_scroll s') = offset_y c /\
    (fst b <= x - a_x r < snd b -> s_drag s' = Some (false, x - a_x r - fst b) /\ s_scroll s' = c) /\
    (x - a_x r < fst b -> s_drag s' = s_drag s /\ offset_x c - viewport_width c <= offset_x (s_scroll s') <= offset_x c) /\
    (snd b <= x - a_x r -> fst b <= x - a_x r -> s_drag s' = s_drag s /\ offset_x c <= offset_x (s_scroll s') <= offset_x c + viewport_width c).
Proof.
  intros rnd R st inner l s x y CW CH. set (c := record_layout (s_scroll s) l). set (r := h_region st inner (l_v l)).
  cbv zeta. intros RH [IX IY] NV OK VH. cbn [on_mouse]. fold c r. eexists. split; [reflexivity|]. rewrite RH.
  assert (CV : render_v st (l_v l) && contains_point (v_region st inner (l_h l)) x y = false).
  { destruct NV as [NV|NV]; [rewrite NV; reflexivity|]. apply andb_false_iff. right. unfold contains_point. destruct (_ && _) eqn:E; auto. exfalso. apply NV. rewrite !andb_true_iff, !Z.leb_le, !Z.ltb_lt in E. unfold inside. lia. }
  rewrite CV. assert (CP : contains_point r x y = true). { unfold contains_point. rewrite !andb_true_iff, !Z.leb_le, !Z.ltb_lt. lia. } rewrite CP. cbn [andb].
  unfold on_bar. cbn [s_scroll with_scroll]. destruct (thumb_bounds _ _ _ _ _) as [ts te]. cbn [fst snd].
  assert (V0 : 0 <= viewport_width c) by (exact CW).
  pose proof (page_nonneg rnd R _ V0) as P0. pose proof (page_le rnd R (viewport_width c) ltac:(lia)) as P1. destruct OK as [[Y0 Y1] _]. clearbody c r.
  destruct (Z.leb_spec ts (x - a_x r)); destruct (Z.ltb_spec (x - a_x r) te); cbn [andb].
  - cbn. repeat split; intros; try lia; reflexivity.
  - destruct (Z.ltb_spec (x - a_x r) ts); [lia|]. cbn. unfold max_scroll_x. repeat split; intros; try lia.
  - destruct (Z.ltb_spec (x - a_x r) ts); [|lia]. cbn. repeat split; intros; try lia.
  - destruct (Z.ltb_spec (x - a_x r) ts); [|lia]. cbn. repeat split; intros; try lia.
Qed.
Lemma C64_follows_lem : forall st inner l s x y button grab,
  let c := record_layout (s_scroll s) l in
  let r := v_region st inner (show_h st c) in
  let T := a_h r in let v := virtual_height c in let w := viewport_height c in let k := y - a_y r - grab in
  s_drag s = Some (true, grab) -> 1 <= T < v -> 0 < w < v -> v <= w * T -> 0 <= k -> k + ceil_ratio (w * T) v <= T ->
  exists s', on_mouse exactly st inner l s (EMove x y button) = Some s' /\
    s_drag s' = s_drag s /\ offset_x (s_scroll s') = offset_x c /\
    k - 1 <= fst (thumb_bounds exactly T (inject_Z v) (inject_Z w) (inject_Z (offset_y (s_scroll s')))) <= k.
Proof.
  intros st inner l s x y button grab. set (c := record_layout (s_scroll s) l). cbv zeta.
  intros D HT Hw WT K1 K2. cbn [on_mouse]. unfold with_scroll. cbn [s_scroll s_drag s_hover]. rewrite D. unfold on_drag. fold c.
  set (r := v_region st inner (show_h st c)) in *. destruct (drag_exact (a_h r) (virtual_height c) (viewport_height c) (y - a_y r - grab) ltac:(lia) Hw) as (p & DP & _). rewrite DP.
  destruct (drag_lands (a_h r) (virtual_height c) (viewport_height c) _ p ltac:(lia) Hw WT ltac:(lia) K1 K2 DP) as [O F].
  destruct (scroll_to_some c None (Some p)) as (c' & E & _ & _ & _ & _ & OX & OY). rewrite E. cbn [option_map]. eexists. split; [reflexivity|]. cbn [s_drag s_scroll]. split; [auto|]. split; [exact OX|].
  assert (OE : offset_y c' = Qfloor p) by (rewrite OY; unfold max_scroll_y; lia). rewrite OE. exact F.
Qed.
