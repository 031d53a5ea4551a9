(** C04: scroll offsets stay in range. *)
From Coq Require Import ZArith QArith Qround List Lia.
From Verif Require Import Scroll_Model.
Open Scope Z_scope.
From Verif Require Import Scroll_Spec.
From Verif Require Import Scroll_Proofs.
Import ListNotations.

(** C04. Any history from a fresh state runs without panic and ends in range. *)
Theorem C04_offsets_in_range : forall vw vh pw ph ops,
  Forall amount_nonneg ops ->
  exists s, scroll_run (scroll_new vw vh pw ph) ops = Some s /\ offsets_ok s.
Proof. exact C04_offsets_in_range_lem. Qed.
Print Assumptions C04_offsets_in_range.

(** C04. The default state is covered too. *)
Theorem C04_offsets_in_range_default : forall ops,
  Forall amount_nonneg ops ->
  exists s, scroll_run scroll_default ops = Some s /\ offsets_ok s.
Proof. exact C04_offsets_in_range_default_lem. Qed.
Print Assumptions C04_offsets_in_range_default.

(** C04. [scroll_to] goes to the in-range position nearest to the request. *)
Theorem C04_scroll_to_nearest : forall s q s',
  0 <= offset_y s -> scroll_to s None (Some q) = Some s' ->
  offset_x s' = offset_x s /\
  in_range (offset_y s') (virtual_height s) (viewport_height s) /\
  forall p, in_range p (virtual_height s) (viewport_height s) ->
    Z.abs (offset_y s' - Qfloor q) <= Z.abs (p - Qfloor q).
Proof. exact C04_scroll_to_nearest_lem. Qed.
Print Assumptions C04_scroll_to_nearest.

(** C04. Scrolling moves by the requested amount, stopping at the ends; the
    other axis and all sizes are untouched. *)
Theorem C04_scroll_down_effect : forall s a, offsets_ok s -> 0 <= a ->
  let s' := scroll_down s a in
  offset_x s' = offset_x s /\ virtual_height s' = virtual_height s /\
  viewport_height s' = viewport_height s /\
  (in_range (offset_y s + a) (virtual_height s) (viewport_height s) ->
     offset_y s' = offset_y s + a) /\
  (~ in_range (offset_y s + a) (virtual_height s) (viewport_height s) ->
     offset_y s' = Z.max (virtual_height s - viewport_height s) 0) /\
  offset_y s <= offset_y s'.
Proof. exact C04_scroll_down_effect_lem. Qed.
Print Assumptions C04_scroll_down_effect.

(** C04. The scroll percentage is always between 0 and 1. *)
Theorem C04_percent_in_unit : forall vw vh pw ph ops s,
  Forall amount_nonneg ops -> scroll_run (scroll_new vw vh pw ph) ops = Some s ->
  (0 <= scroll_percent_x s <= 1)%Q /\ (0 <= scroll_percent_y s <= 1)%Q.
Proof. exact C04_percent_in_unit_lem. Qed.
Print Assumptions C04_percent_in_unit.

(** C04. [can_scroll_x] and [can_scroll_y] say whether some request moves the content. *)
Theorem C04_can_scroll : forall s, offsets_ok s ->
  (can_scroll_x s = true <-> exists q s', scroll_to s (Some q) None = Some s' /\ offset_x s' <> offset_x s) /\
  (can_scroll_y s = true <-> exists q s', scroll_to s None (Some q) = Some s' /\ offset_y s' <> offset_y s).
Proof.
  assert (K : forall off virt view, in_range off virt view -> (view < virt <-> exists q : Q, Z.min (Z.max (Qfloor q) 0) (Z.max (virt - view) 0) <> off)).
  { intros off virt view [H1 H2]. split.
    - intros L. destruct (Z.eq_dec off 0) as [E|E]; [exists (inject_Z (virt - view))|exists 0%Q].
      + rewrite Qfloor_Z. lia.
      + change (Qfloor 0) with 0. lia.
    - intros (q & Q). destruct (Z.ltb_spec view virt); [assumption|]. exfalso. lia. }
  intros s [Ox Oy]. unfold can_scroll_x, can_scroll_y. rewrite !Z.ltb_lt.
  assert (C : forall v m, 0 <= m -> clamp v 0 m = Some (Z.min (Z.max v 0) m)).
  { intros v m H. unfold clamp. destruct (Z.ltb_spec m 0); [lia|reflexivity]. }
  split.
  - rewrite (K _ _ _ Ox). unfold scroll_to, max_scroll_x. setoid_rewrite C; [|lia]. split; [intros (q & H); exists q; eexists; split; [reflexivity|exact H]|intros (q & s' & E & H); exists q; injection E as <-; exact H].
  - rewrite (K _ _ _ Oy). unfold scroll_to, max_scroll_y. setoid_rewrite C; [|lia]. split; [intros (q & H); exists q; eexists; split; [reflexivity|exact H]|intros (q & s' & E & H); exists q; injection E as <-; exact H].
Qed.
Print Assumptions C04_can_scroll.

(** Non-vacuity: a history that clamps at both ends. *)
Example C04_witness :
  let ops := [Down 30; Viewport 10 15; Up 2; To None (Some (7#2)); Right 4] in
  Forall amount_nonneg ops /\
  scroll_run (scroll_new 12 20 10 5) ops = Some (Scroll 2 3 12 20 10 15).
Proof. split; [repeat constructor; cbn; lia | reflexivity]. Qed.

(** C04 refuted for negative amounts: both directions leave the range
    (scroll.rs:97-114 clamp only one side). *)
Theorem C04_negative_amount_refuted :
  (exists s, scroll_run (scroll_new 10 10 5 5) [Down (-1)] = Some s /\ ~ offsets_ok s) /\
  (exists s, scroll_run (scroll_new 10 10 5 5) [Up (-6)] = Some s /\ ~ offsets_ok s).
Proof. exact C04_negative_amount_refuted_lem. Qed.
Print Assumptions C04_negative_amount_refuted.
