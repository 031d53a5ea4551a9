(** Proofs for C123: drawing between events. *)
From Coq Require Import ZArith QArith List Bool Lia.
From Verif Require Import Float32_Model Float32_Proofs Scroll_Model Scroll_Spec Scroll_Proofs Bars_Model Bars_Spec Bars_Proofs Bars2_Proofs.
From Verif Require Stay_Model Stay_Spec Stay_Proofs.
Import ListNotations.
Open Scope Z_scope.

Definition sizes (s : scroll) : Z * Z * Z * Z := (virtual_width s, virtual_height s, viewport_width s, viewport_height s).
Definition sizes_of (l : layout) : Z * Z * Z * Z := (l_vw l, l_vh l, a_w (l_content l), a_h (l_content l)).
Lemma to_sizes : forall s x y s', scroll_to s x y = Some s' -> sizes s' = sizes s.
Proof.
  intros s x y s' E. destruct (scroll_to_some s x y) as (s2 & E2 & A & B & C & D & _). rewrite E2 in E. inversion E; subst. unfold sizes. congruence.
Qed.
Lemma record_sizes : forall s l, sizes (record_layout s l) = sizes_of l.
Proof. reflexivity. Qed.
Lemma record_same : forall s l, sizes s = sizes_of l -> offsets_ok s -> record_layout s l = s.
Proof.
  intros s l E [X Y]. unfold sizes, sizes_of in E. injection E as E1 E2 E3 E4. unfold record_layout. unfold Scroll_Spec.in_range in X, Y.
  apply Stay_Proofs.scroll_same; [intros v|symmetry; assumption..].
  rewrite Stay_Proofs.place_both by (destruct v; cbn; lia). destruct v; cbn; lia.
Qed.
Section Events.
Variable rnd : Q -> Q.
Lemma key_sizes : forall st s k s', on_key rnd st s k = Some s' -> sizes s' = sizes s.
Proof.
  intros st s k s'. destruct k; cbn [on_key]; try (destruct (allows _ || allows _)); try (apply to_sizes);
    intros E; inversion E; try (destruct (allows _)); reflexivity.
Qed.
Lemma wheel_sizes : forall st s d sh, sizes (on_wheel st s d sh) = sizes s.
Proof. intros st s d sh. destruct d; cbn [on_wheel]; destruct sh; destruct (allows (b_over_x st)); destruct (allows (b_over_y st)); reflexivity. Qed.
Lemma bar_sizes : forall vertical s pos track, sizes (s_scroll (on_bar rnd vertical s pos track)) = sizes (s_scroll s).
Proof.
  intros vertical s pos track. unfold on_bar. destruct (if vertical then _ else _) as [ts te]. destruct (_ && _); [reflexivity|].
  destruct (_ <? _); destruct vertical; reflexivity.
Qed.
Lemma drag_sizes : forall st inner s vertical grab x y s', on_drag rnd st inner s vertical grab x y = Some s' -> sizes s' = sizes s.
Proof.
  intros st inner s vertical grab x y s'. unfold on_drag. destruct vertical; destruct (drag_position _ _ _ _ _); try apply to_sizes; intros E; inversion E; reflexivity.
Qed.
Lemma mouse_sizes : forall st inner l s e s', on_mouse rnd st inner l s e = Some s' -> sizes (s_scroll s') = sizes_of l.
Proof.
  intros st inner l s e s'. pose proof (record_sizes (s_scroll s) l) as RS. unfold on_mouse. cbv zeta.
  set (s1 := with_scroll s (record_layout (s_scroll s) l)). assert (S1 : sizes (s_scroll s1) = sizes_of l) by exact RS. clearbody s1. clear RS.
  destruct e.
  - intros E; inversion E; subst; exact S1.
  - intros E; inversion E; subst. cbn [with_scroll s_scroll]. rewrite wheel_sizes. exact S1.
  - intros E; inversion E; subst. destruct (_ && _); [rewrite bar_sizes; exact S1|]. destruct (_ && _); [rewrite bar_sizes; exact S1|exact S1].
  - destruct (s_drag s1) as [[vertical grab]|].
    + destruct (on_drag _ _ _ _ _ _ _ _) as [s2|] eqn:E2; cbn [option_map]; intros E; inversion E; subst. cbn [with_scroll s_scroll]. rewrite (drag_sizes _ _ _ _ _ _ _ _ E2). exact S1.
    + intros E; inversion E; subst. destruct button; exact S1.
  - intros E; inversion E; subst; exact S1.
  - intros E; inversion E; subst; exact S1.
Qed.
Lemma event_sizes : forall g s e s', let l := compute_layout (g_bars g) (g_measure g) (g_inner g) in
  sizes (s_scroll s) = sizes_of l -> on_scroll_event rnd (g_bars g) (g_measure g) (g_inner g) s e = Some s' -> sizes (s_scroll s') = sizes_of l.
Proof.
  intros g s e s' l S E. destruct e; cbn [on_scroll_event] in E; try (eapply mouse_sizes; exact E).
  destruct (on_key _ _ _ _) as [s2|] eqn:E2; cbn [option_map] in E; inversion E; subst. cbn [with_scroll s_scroll]. rewrite (key_sizes _ _ _ _ E2). exact S.
Qed.
Lemma relayout_same : forall g s, sizes (s_scroll s) = sizes_of (compute_layout (g_bars g) (g_measure g) (g_inner g)) -> offsets_ok (s_scroll s) ->
  on_scroll_event rnd (g_bars g) (g_measure g) (g_inner g) s ERelayout = Some s.
Proof.
  intros g s S O. cbn [on_scroll_event on_mouse]. rewrite record_same by assumption. destruct s; reflexivity.
Qed.
Lemma run_app : forall a b s, run_events rnd s (a ++ b) = match run_events rnd s a with Some s' => run_events rnd s' b | None => None end.
Proof.
  induction a as [|[g e] a IH]; intros b s; cbn [run_events app]; [reflexivity|]. destruct (on_scroll_event _ _ _ _ _ _); [apply IH|reflexivity].
Qed.
End Events.
