(** C123, continued: how often a scrolling container is drawn does not matter. *)
From Coq Require Import ZArith QArith List Bool Lia.
From Verif Require Import Float32_Model Float32_Proofs Scroll_Model Scroll_Spec Bars_Model Bars_Spec Bars_Proofs Bars2_Proofs Stay2_Proofs.
Import ListNotations.
Open Scope Z_scope.

(** what the user did: everything but the drawings *)
Fixpoint inputs (es : list event) : list event :=
  match es with
  | [] => []
  | ERelayout :: r => inputs r
  | e :: r => e :: inputs r
  end.

(** After any history, with any sizes and styles, a container is drawn.  While its size,
    style and content stay the same, the keys, wheel turns, presses and drags alone say
    where it is scrolled to, what is held and what is hovered; when and how often it is
    drawn between them does not matter. *)
Theorem C123_redraws : forall rnd, rounding rnd -> forall before g es es', inputs es = inputs es' ->
  exists s, run_events rnd fresh (before ++ (g, ERelayout) :: map (pair g) es) = Some s /\
            run_events rnd fresh (before ++ (g, ERelayout) :: map (pair g) es') = Some s.
Proof.
  intros rnd R before g es es' H.
  assert (D : forall es s, Stay2_Proofs.sizes (s_scroll s) = sizes_of (compute_layout (g_bars g) (g_measure g) (g_inner g)) -> fine (s_scroll s) ->
    run_events rnd s (map (pair g) es) = run_events rnd s (map (pair g) (inputs es))).
  { clear H es es' before. intros es. induction es as [|e r IH]; intros s S F; [reflexivity|].
    destruct (fine_event rnd R g s e F) as (s' & E & F'). pose proof (event_sizes rnd g s e s' S E) as S'.
    assert (C : e = ERelayout \/ inputs (e :: r) = e :: inputs r) by (destruct e; auto). destruct C as [C|C].
    - subst e. rewrite (relayout_same rnd g s S (proj1 F)) in E. injection E as E. subst s'.
      cbn [map run_events inputs]. rewrite (relayout_same rnd g s S (proj1 F)). apply IH; assumption.
    - rewrite C. cbn [map run_events]. rewrite E. apply IH; assumption. }
  destruct (fine_run rnd R before fresh fine_fresh) as (s0 & E0 & F0).
  destruct (fine_event rnd R g s0 ERelayout F0) as (s1 & E1 & F1).
  assert (S1 : Stay2_Proofs.sizes (s_scroll s1) = sizes_of (compute_layout (g_bars g) (g_measure g) (g_inner g))) by (eapply mouse_sizes; exact E1).
  destruct (fine_run rnd R (map (pair g) es) s1 F1) as (s & E & _). exists s.
  rewrite !run_app, E0. cbn [run_events]. rewrite E1. split; [exact E|]. rewrite (D es' s1 S1 F1), <- H, <- (D es s1 S1 F1). exact E.
Qed.
Print Assumptions C123_redraws.
(** 25 lines in 10: a page down and a line up, with drawings between or not. *)
Definition long : setting := Setting (Bars OHidden OAuto false 1 1 true) (fun a => (a_w a, 25)) (Area 0 0 20 10).
Example down_and_up :
  inputs [EKey KPageDown; ERelayout; ERelayout; EKey KUp] = inputs [EKey KPageDown; EKey KUp; ERelayout] /\
  option_map (fun s => offset_y (s_scroll s)) (run_events rnd32 fresh ((long, ERelayout) :: map (pair long) [EKey KPageDown; ERelayout; ERelayout; EKey KUp])) = Some 8.
Proof. split; [reflexivity|vm_compute; reflexivity]. Qed.
(** Before the first drawing it does matter: a key does nothing yet. *)
Theorem C123_undrawn_refuted : exists es es', inputs es = inputs es' /\
  option_map (fun s => offset_y (s_scroll s)) (run_events rnd32 fresh (map (pair long) es)) <>
  option_map (fun s => offset_y (s_scroll s)) (run_events rnd32 fresh (map (pair long) es')).
Proof. exists [EKey KDown; ERelayout], [ERelayout; EKey KDown]. split; [reflexivity|]. vm_compute. discriminate. Qed.
Print Assumptions C123_undrawn_refuted.
