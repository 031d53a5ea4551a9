(** Proofs for C123. *)
From Coq Require Import ZArith List Bool Lia.
From Verif Require Import Scroll_Model Scroll_Spec Bars_Model Stay_Model Stay_Spec.
From Verif Require Pointer_Model.
Import ListNotations.
Open Scope Z_scope.

Lemma place_draw : forall v s d, 0 <= place v s ->
  place v (draw s d) = Z.min (place v s) (Z.max 0 (content v d - Z.max (last_view v s) (room v d))).
Proof.
  intros v s d H. unfold place, draw, record_layout, content, room, last_view in *. destruct (layout_of d) as [[x y w h] vw vh sv sh].
  destruct s as [ox oy a b c e]. destruct v; cbn in *; unfold max_scroll_x, max_scroll_y; cbn; lia.
Qed.
Lemma last_view_draw : forall v s d, last_view v (draw s d) = room v d.
Proof. intros v s d. destruct v; reflexivity. Qed.
Lemma place_draw_nonneg : forall v s d, 0 <= place v (draw s d).
Proof.
  intros v s d. unfold place, draw, record_layout. destruct (layout_of d) as [[x y w h] vw vh sv sh].
  destruct s as [ox oy a b c e]. destruct v; cbn; unfold max_scroll_x, max_scroll_y; cbn; lia.
Qed.
Lemma scroll_same : forall a b, (forall v, place v a = place v b) -> last_view true a = last_view true b -> last_view false a = last_view false b ->
  virtual_width a = virtual_width b -> virtual_height a = virtual_height b -> a = b.
Proof.
  intros [] [] P V W A B. pose proof (P true). pose proof (P false). cbn in *. congruence.
Qed.

(** *** Containers and the screen *)
Lemma place_both : forall v s a b w h, 0 <= place v s ->
  place v (set_viewport (set_virtual_size s a b) w h) = Z.min (place v s) (Z.max 0 (part v (a, b) - Z.max (last_view v s) (part v (w, h)))).
Proof.
  intros v [ox oy c d e f] a b w h H. destruct v; cbn in *; unfold max_scroll_x, max_scroll_y; cbn; lia.
Qed.
Lemma place_both_nonneg : forall v s a b w h, 0 <= place v (set_viewport (set_virtual_size s a b) w h).
Proof.
  intros v [ox oy c d e f] a b w h. destruct v; cbn; unfold max_scroll_x, max_scroll_y; cbn; lia.
Qed.
Lemma view_both : forall v s a b w h, last_view v (set_viewport (set_virtual_size s a b) w h) = part v (w, h).
Proof. intros []; reflexivity. Qed.
Lemma recorded_both : forall v s a b w h, recorded v (set_viewport (set_virtual_size s a b) w h) = part v (a, b).
Proof. intros []; reflexivity. Qed.
Lemma part_side : forall v a, part v (a_w a, a_h a) = side v a.
Proof. intros []; reflexivity. Qed.
