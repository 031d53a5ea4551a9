(** Lemmas about who is named as the sender. *)
From Coq Require Import ZArith List Bool Lia.
From Verif Require Import Bars_Model Pointer_Model Pointer_Proofs Sender_Model Sender_Spec.
Import ListNotations.
Open Scope nat_scope.

(** The widget that speaks for the one at [p]: the outermost centring container, if any. *)
Fixpoint spokesman (p : list nat) (w : widget) : list nat :=
  if centring w then []
  else match p with
       | [] => []
       | i :: rest => match w with Leaf => p | Box _ _ kids => match nth_error kids i with Some k => i :: spokesman rest k | None => p end end
       end.

Definition agree (w : widget) (path : list nat) (a b : asking) : Prop :=
  snd a = snd b /\
  (snd a = true -> exists l c l' c' rest, fst a = l ++ [c] /\ fst b = l' ++ [c'] /\ fst c = path ++ rest /\ fst c' = path ++ spokesman rest w).
Lemma agree_nil : forall w path, agree w path ([], false) ([], false).
Proof. intros. split; [reflexivity|discriminate]. Qed.
Lemma in_turn_agree : forall w path la lb, Forall2 (agree w path) la lb -> agree w path (in_turn la) (in_turn lb).
Proof.
  intros w path la lb F. induction F as [|[ca a] [cb b] la lb [A1 A2] F [I1 I2]]; [apply agree_nil|].
  cbn [fst snd] in *. subst b. cbn [in_turn]. destruct a.
  - split; [reflexivity|]. exact A2.
  - destruct (in_turn la) as [c1 b1], (in_turn lb) as [c2 b2]. cbn [fst snd] in *. subst b2. split; [reflexivity|]. cbn [fst snd]. intros E.
    destruct (I2 E) as (l & c & l' & c' & rest & E1 & E2 & E3 & E4). exists (ca ++ l), c, (cb ++ l'), c', rest.
    rewrite E1, E2, <- !app_assoc. auto.
Qed.
Lemma rep_kid_eq : forall x y ans pr kids path i rg,
  ask_kid (map (reported x y ans pr) kids) path (i, rg) =
  match nth_error kids i with Some w => reported x y ans pr w (path ++ [i]) rg | None => ([], false) end.
Proof. intros. unfold ask_kid. cbn [fst snd]. rewrite nth_map_error. destruct (nth_error kids i); reflexivity. Qed.
Lemma forall2_map : forall A B (R : B -> B -> Prop) (f g : A -> B) l, (forall a, R (f a) (g a)) -> Forall2 R (map f l) (map g l).
Proof. induction l; cbn; constructor; auto. Qed.

Lemma asked_reported : forall x y ans pr w path r, agree w path (asked x y ans pr w path r) (reported x y ans pr w path r).
Proof.
  intros x y ans pr. induction w as [|k p kids IH] using widget_nested; intros path r.
  - cbn. destruct (contains_point r x y); [|apply agree_nil]. split; [reflexivity|]. intros _.
    exists [], (path, r), [], (path, r), []. cbn. rewrite app_nil_r. auto.
  - rewrite Forall_forall in IH.
    destruct (centring (Box k p kids)) eqn:C.
    + destruct k; try discriminate. cbn [asked reported].
      pose proof (asked_under x y ans pr (Box (KCenter vertical size seen) p kids) path r) as U.
      pose proof (asked_stops x y ans pr (Box (KCenter vertical size seen) p kids) path r) as [_ S2]. cbn [asked] in U, S2.
      destruct (ask_centre _ _ _ _ path r) as [l b]. cbn [fst snd] in *. destruct b; [|split; [reflexivity|discriminate]].
      split; [reflexivity|]. intros _. destruct (S2 eq_refl) as (l0 & c & E & _). destruct (U c) as [rest R]; [rewrite E; apply in_or_app; right; now left|].
      exists l0, c, [], (path, r), rest. cbn [fst app]. repeat split; auto. destruct rest; cbn; now rewrite app_nil_r.
    + assert (K : forall q, agree (Box k p kids) path (ask_kid (map (asked x y ans pr) kids) path q) (ask_kid (map (reported x y ans pr) kids) path q)).
      { intros [i rg]. rewrite ask_kid_eq, rep_kid_eq. destruct (nth_error kids i) as [w|] eqn:E; [|apply agree_nil].
        destruct (IH w (nth_error_In _ _ E) (path ++ [i]) rg) as [H1 H2]. split; [exact H1|]. intros B.
        destruct (H2 B) as (l & c & l' & c' & rest & E1 & E2 & E3 & E4). exists l, c, l', c', (i :: rest).
        cbn [spokesman]. rewrite C, E. rewrite <- app_assoc in E3, E4. auto. }
      assert (KF : forall l, agree (Box k p kids) path (first_hit x y (map (asked x y ans pr) kids) path l) (first_hit x y (map (reported x y ans pr) kids) path l)).
      { intros l. unfold first_hit. destruct (find _ l); [apply K|apply agree_nil]. }
      destruct k; cbn [asked reported]; try discriminate.
      * unfold ask_container. destruct (contains_point r x y); [|apply agree_nil]. apply in_turn_agree, forall2_map, K.
      * unfold ask_scrollable. destruct (pr && _); [apply agree_nil|]. destruct (contains_point _ x y); [apply KF|apply agree_nil].
      * unfold ask_screen. destruct (contains_point r x y); [|apply agree_nil]. cbv zeta. destruct (pr && _); [apply agree_nil|].
        destruct (contains_point _ x y); [apply KF|apply agree_nil].
      * unfold ask_grid. destruct (contains_point r x y); [|apply agree_nil]. apply in_turn_agree, forall2_map, K.
      * unfold ask_app. apply in_turn_agree, forall2_map. intros i. apply K.
Qed.

(** The one who answers, by name. *)
Lemma sender_is : forall x y ans pr w r, sender x y ans pr w r = option_map (fun p => spokesman p w) (answerer x y ans pr w r).
Proof.
  intros. unfold sender, answerer. destruct (asked_reported x y ans pr w [] r) as [A B].
  destruct (asked x y ans pr w [] r) as [l b], (reported x y ans pr w [] r) as [l' b']. cbn [fst snd] in *. subst b'.
  destruct b; [|reflexivity]. destruct (B eq_refl) as (m & c & m' & c' & rest & -> & -> & E3 & E4). rewrite !rev_app_distr. cbn [rev app option_map].
  cbn [app] in E3, E4. now rewrite E3, E4.
Qed.
Lemma spokesman_none : forall p w, uncentred w p -> spokesman p w = p.
Proof.
  induction p as [|i p IH]; intros w U; cbn [spokesman].
  - destruct (centring w); reflexivity.
  - destruct (centring w) eqn:C.
    + exfalso. apply (U []). exists (i :: p), w. cbn. repeat split; auto. discriminate.
    + destruct w as [|k pn kids]; [reflexivity|]. destruct (nth_error kids i) as [w|] eqn:E; [|reflexivity]. f_equal. apply IH.
      intros q (rest & k' & -> & N & A & B). apply (U (i :: q)). exists rest, k'. cbn [app at_path]. rewrite E. auto.
Qed.
Lemma spokesman_outermost : forall p w q, centred_at w p q -> (forall q', centred_at w p q' -> length q <= length q') -> spokesman p w = q.
Proof.
  induction p as [|i p IH]; intros w q (rest & k & E & N & A & C) L.
  - destruct q; [|discriminate]. destruct rest; [congruence|discriminate].
  - cbn [spokesman]. destruct (centring w) eqn:W.
    + destruct q as [|j q]; [reflexivity|]. specialize (L []). cbn [length] in L. assert (S (length q) <= 0); [|lia]. apply L.
      exists (i :: p), w. cbn. repeat split; auto. discriminate.
    + destruct q as [|j q]; [cbn in A; congruence|]. cbn [app] in E. injection E as <- ->. cbn [at_path] in A.
      destruct w as [|k0 p0 kids]; [discriminate|]. destruct (nth_error kids i) as [w|] eqn:NE; [|discriminate]. f_equal. apply IH.
      * exists rest, k. auto.
      * intros q' (rest' & k' & E' & N' & A' & C'). assert (length (i :: q) <= length (i :: q')); [|cbn in *; lia]. apply L.
        exists rest', k'. cbn [app at_path]. rewrite NE, E'. auto.
Qed.
