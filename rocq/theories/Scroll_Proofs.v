From Coq Require Import ZArith QArith Qround List Lia.
From Verif Require Import Scroll_Model.
Open Scope Z_scope.
From Verif Require Import Scroll_Spec.
Import ListNotations.

Lemma clamp_ok : forall v hi, 0 <= hi -> clamp v 0 hi = Some (Z.min (Z.max v 0) hi).
Proof. intros v hi H. unfold clamp. destruct (Z.ltb_spec hi 0); [lia|reflexivity]. Qed.

Lemma scroll_to_some : forall s x y, exists s',
  scroll_to s x y = Some s' /\
  virtual_width s' = virtual_width s /\ virtual_height s' = virtual_height s /\
  viewport_width s' = viewport_width s /\ viewport_height s' = viewport_height s /\
  offset_x s' = match x with
                | Some q => Z.min (Z.max (Qfloor q) 0) (max_scroll_x s) | None => offset_x s end /\
  offset_y s' = match y with
                | Some q => Z.min (Z.max (Qfloor q) 0) (max_scroll_y s) | None => offset_y s end.
Proof.
  intros s x y. unfold scroll_to.
  assert (0 <= max_scroll_x s) by (unfold max_scroll_x; lia).
  assert (0 <= max_scroll_y s) by (unfold max_scroll_y; lia).
  destruct x as [q|]; [rewrite clamp_ok by assumption; cbv beta iota|];
    (destruct y as [q'|]; [rewrite clamp_ok by assumption; cbv beta iota|]);
    eexists; (split; [reflexivity|cbn; tauto]).
Qed.

Lemma step_ok : forall s o, offsets_ok s -> amount_nonneg o ->
  exists s', scroll_step s o = Some s' /\ offsets_ok s'.
Proof.
  intros s o [[Hx0 Hx] [Hy0 Hy]] Ha. unfold offsets_ok, in_range.
  destruct o; cbn [scroll_step amount_nonneg] in *;
    try (eexists; split; [reflexivity|]; cbn; unfold max_scroll_x, max_scroll_y in *; cbn; lia).
  destruct (scroll_to_some s x y) as (s' & E & E1 & E2 & E3 & E4 & E5 & E6).
  exists s'. split; [exact E|]. rewrite E1, E2, E3, E4, E5, E6.
  unfold max_scroll_x, max_scroll_y. destruct x, y; lia.
Qed.

Lemma run_ok : forall ops s, offsets_ok s -> Forall amount_nonneg ops ->
  exists s', scroll_run s ops = Some s' /\ offsets_ok s'.
Proof.
  induction ops as [|o r IH]; intros s Hs HF; cbn.
  - exists s; auto.
  - inversion HF; subst. destruct (step_ok s o Hs) as (s1 & -> & Hs1); [assumption|].
    apply IH; assumption.
Qed.

Lemma C04_offsets_in_range_lem : forall vw vh pw ph ops,
  Forall amount_nonneg ops ->
  exists s, scroll_run (scroll_new vw vh pw ph) ops = Some s /\ offsets_ok s.
Proof.
  intros vw vh pw ph ops H. apply run_ok; [|exact H].
  unfold offsets_ok, in_range; cbn; lia.
Qed.

Lemma C04_offsets_in_range_default_lem : forall ops,
  Forall amount_nonneg ops ->
  exists s, scroll_run scroll_default ops = Some s /\ offsets_ok s.
Proof. exact (C04_offsets_in_range_lem 0 0 0 0). Qed.

Lemma C04_scroll_to_nearest_lem : forall s q s',
  0 <= offset_y s -> scroll_to s None (Some q) = Some s' ->
  offset_x s' = offset_x s /\
  in_range (offset_y s') (virtual_height s) (viewport_height s) /\
  forall p, in_range p (virtual_height s) (viewport_height s) ->
    Z.abs (offset_y s' - Qfloor q) <= Z.abs (p - Qfloor q).
Proof.
  intros s q s' H0 E. destruct (scroll_to_some s None (Some q)) as (s1 & E0 & E1 & E2 & E3 & E4 & E5 & E6).
  rewrite E in E0. injection E0 as <-. rewrite E5, E6. unfold in_range, max_scroll_y.
  split; [reflexivity|]. split; [lia|]. intros p Hp. lia.
Qed.

Lemma C04_scroll_down_effect_lem : forall s a, offsets_ok s -> 0 <= a ->
  let s' := scroll_down s a in
  offset_x s' = offset_x s /\ virtual_height s' = virtual_height s /\
  viewport_height s' = viewport_height s /\
  (in_range (offset_y s + a) (virtual_height s) (viewport_height s) ->
     offset_y s' = offset_y s + a) /\
  (~ in_range (offset_y s + a) (virtual_height s) (viewport_height s) ->
     offset_y s' = Z.max (virtual_height s - viewport_height s) 0) /\
  offset_y s <= offset_y s'.
Proof.
  intros s a [_ [H0 H]] Ha. unfold in_range, max_scroll_y in *; cbn.
  unfold max_scroll_y. repeat split; lia.
Qed.

Lemma C04_percent_in_unit_lem : forall vw vh pw ph ops s,
  Forall amount_nonneg ops -> scroll_run (scroll_new vw vh pw ph) ops = Some s ->
  (0 <= scroll_percent_x s <= 1)%Q /\ (0 <= scroll_percent_y s <= 1)%Q.
Proof.
  intros vw vh pw ph ops s HF E.
  destruct (C04_offsets_in_range_lem vw vh pw ph ops HF) as (s' & E' & [[Hx0 Hx] [Hy0 Hy]]).
  rewrite E in E'. injection E' as <-.
  assert (G : forall o m, 0 <= o -> o <= m -> m <> 0 -> (0 <= inject_Z o / inject_Z m <= 1)%Q).
  { intros o m H0 Hm Hn.
    assert (P : (0 < inject_Z m)%Q) by (change 0%Q with (inject_Z 0); rewrite <- Zlt_Qlt; lia).
    split.
    - apply Qle_shift_div_l; [exact P|]. rewrite Qmult_0_l. change 0%Q with (inject_Z 0).
      rewrite <- Zle_Qle. exact H0.
    - apply Qle_shift_div_r; [exact P|]. rewrite Qmult_1_l. rewrite <- Zle_Qle. exact Hm. }
  split.
  - unfold scroll_percent_x. destruct (Z.eqb_spec (max_scroll_x s) 0) as [|Hn].
    + split; discriminate.
    + apply G; unfold max_scroll_x in *; lia.
  - unfold scroll_percent_y. destruct (Z.eqb_spec (max_scroll_y s) 0) as [|Hn].
    + split; discriminate.
    + apply G; unfold max_scroll_y in *; lia.
Qed.

Lemma C04_negative_amount_refuted_lem :
  (exists s, scroll_run (scroll_new 10 10 5 5) [Down (-1)] = Some s /\ ~ offsets_ok s) /\
  (exists s, scroll_run (scroll_new 10 10 5 5) [Up (-6)] = Some s /\ ~ offsets_ok s).
Proof.
  split; eexists; (split; [reflexivity|]); unfold offsets_ok, in_range; cbn; lia.
Qed.
