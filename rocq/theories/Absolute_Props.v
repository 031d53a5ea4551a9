(** C61: the size of a child positioned absolutely. *)
From Coq Require Import ZArith QArith Qround List Bool Lia Lqa.
From Verif Require Import Text_Model Fraction_Model Fraction_Spec Canvas_Model Layout_Model Layout_Spec Layout_Proofs Layout_Props Sizes_Spec Sizes_Proofs Arrange_Model Arrange_Spec Arrange_Proofs Layers_Proofs Arrange_Props.
Import ListNotations.
Open Scope Z_scope.

(** What a stated length asks for: whole cells, a rounded part of what the unit
    refers to, everything there is for fr, the size of the content for auto. *)
Definition asked (percent_of content : Z) (a : region) (v : viewport) (s : scalar) : Z :=
  match s_unit s with
  | Cells => Qfloor (s_value s)
  | Fraction_ => percent_of
  | Auto => content
  | _ => nearest (length_ percent_of a v s)
  end.
(** The width of the content; a child that fills what there is gets all of it. *)
Definition content_width (c : child) (a : region) : Z := if ch_dw c =? 65535 then as_u16 (rg_w a) else ch_dw c.
Definition absolute_width_is (c : child) (a : region) (v : viewport) : Z :=
  limited (limit (rg_w a) a v (l_min_width (ch_style c))) (limit (rg_w a) a v (l_max_width (ch_style c)))
    (match l_width (ch_style c) with
     | Some s => asked (rg_w a) (content_width c a) a v s + extra_width c
     | None => content_width c a
     end).
Definition absolute_height_is (c : child) (a : region) (v : viewport) : Z :=
  let content := ch_ih c (as_u16 (absolute_width_is c a v)) in
  limited (limit (rg_h a) a v (l_min_height (ch_style c))) (limit (rg_h a) a v (l_max_height (ch_style c)))
    (match l_height (ch_style c) with
     | Some s => asked (rg_h a) content a v s + extra_height c
     | None => content
     end).

Lemma as_u16_clamp : forall n, clamp_u16 n = as_u16 n.
Proof. intros n. unfold clamp_u16, as_u16, u16_max. reflexivity || lia. Qed.
Lemma asked_width : forall a v s content, nonneg_scalar (Some s) -> nonneg_region a -> nonneg_viewport v ->
  match s_unit s with
  | Cells => trunc (s_value s)
  | Percent | UWidth => round (pct (s_value s) (rg_w a))
  | UHeight => round (pct (s_value s) (rg_h a))
  | ViewWidth => round (pct (s_value s) (vp_w v))
  | ViewHeight => round (pct (s_value s) (vp_h v))
  | Fraction_ => rg_w a
  | Auto => content
  end = asked (rg_w a) content a v s.
Proof.
  intros a v s content H [A1 A2] [V1 V2]. cbn in H. unfold asked, length_. destruct (s_unit s); cbn [hundred]; try reflexivity; try (apply trunc_floor; exact H);
    apply round_nearest; try (apply pct_nonneg; auto); apply pct_eq.
Qed.
Lemma asked_height : forall a v s content, nonneg_scalar (Some s) -> nonneg_region a -> nonneg_viewport v ->
  match s_unit s with
  | Cells => trunc (s_value s)
  | Percent | UHeight => round (pct (s_value s) (rg_h a))
  | UWidth => round (pct (s_value s) (rg_w a))
  | ViewWidth => round (pct (s_value s) (vp_w v))
  | ViewHeight => round (pct (s_value s) (vp_h v))
  | Fraction_ => rg_h a
  | Auto => content
  end = asked (rg_h a) content a v s.
Proof.
  intros a v s content H [A1 A2] [V1 V2]. cbn in H. unfold asked, length_. destruct (s_unit s); cbn [hundred]; try reflexivity; try (apply trunc_floor; exact H);
    apply round_nearest; try (apply pct_nonneg; auto); apply pct_eq.
Qed.
Lemma width_is : forall c a v, nonneg_child c -> nonneg_region a -> nonneg_viewport v -> absolute_width c a v = absolute_width_is c a v.
Proof.
  intros c a v C A V. pose proof C as C'. unfold nonneg_child in C'. cbv zeta in C'. unfold absolute_width, absolute_width_is. cbv zeta. rewrite clamp_width_spec by auto. f_equal.
  destruct (l_width (ch_style c)) as [s|]; [|unfold content_width; rewrite as_u16_clamp; reflexivity].
  rewrite extra_width_spec by auto. rewrite asked_width by (auto; tauto). unfold content_width. rewrite as_u16_clamp. reflexivity.
Qed.
Lemma height_is : forall c a v, nonneg_child c -> nonneg_region a -> nonneg_viewport v -> absolute_height c a v = absolute_height_is c a v.
Proof.
  intros c a v C A V. pose proof C as C'. unfold nonneg_child in C'. cbv zeta in C'. unfold absolute_height, absolute_height_is. cbv zeta. rewrite clamp_height_spec by auto. f_equal. rewrite as_u16_clamp, width_is by auto.
  destruct (l_height (ch_style c)) as [s|]; [|reflexivity].
  rewrite extra_height_spec by auto. rewrite asked_height by (auto; tauto). reflexivity.
Qed.

(** An absolute child has the size its style says, measured against what the
    docks leave of the container, and never a negative one. *)
Theorem C61_absolute_size : forall s cs a v c, own_indices cs -> In c cs -> floating c = true ->
  nonneg_child c -> nonneg_region (inner a cs) -> nonneg_viewport v ->
  exists p, In p (arrange_children s cs a v) /\ pl_index p = ch_index c /\
    p_width p = Z.max 0 (absolute_width_is c (inner a cs) v) /\ p_height p = Z.max 0 (absolute_height_is c (inner a cs) v).
Proof.
  intros s cs a v c N Hc Hf C A V. exists (offset_one cs v (absolute_placement (inner a cs) v c)). split.
  - rewrite arrange_eq. apply in_or_app. right. apply in_or_app. right. apply in_map_iff. exists (absolute_placement (inner a cs) v c). split; [reflexivity|].
    apply in_map. apply filter_In. split; auto. rewrite <- floating_eq. auto.
  - unfold offset_one. destruct (find _ cs); unfold shift, p_width, p_height, absolute_placement; cbn [pl_index pl_region rg_x rg_y rg_w rg_h]; rewrite width_is, height_is by auto; repeat split; lia.
Qed.
Print Assumptions C61_absolute_size.

(** A box half as wide as the terminal and a quarter of the container's width high,
    under a header docked on top. *)
Definition overlay : list child :=
  [docked_at 0 DockTop 5 4; Arrange_Props.sized 1 (restyle (with_width (Scalar 50 ViewWidth) (with_height (Scalar 25 UWidth) base_style)) None true None None None) 4 2].
Example C61_size_nonvacuous : own_indices overlay /\ Forall nonneg_child overlay /\ inner (Region 0 0 20 10) overlay = Region 0 4 20 6 /\
  map (fun p => (pl_index p, pl_region p)) (arrange_children (pcol ALeft ATop None) overlay (Region 0 0 20 10) (Viewport 80 24))
  = [(0%nat, Region 0 0 20 4); (1%nat, Region 0 4 40 5)].
Proof. split; [repeat constructor; simpl; intuition discriminate|]. split; [repeat constructor; simpl; try lra; try lia|]. split; vm_compute; reflexivity. Qed.
