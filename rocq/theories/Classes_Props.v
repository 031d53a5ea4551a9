(** C89: the CSS classes of a widget are those that were asked for. *)
From Coq Require Import String ZArith List Bool Arith Lia.
From Verif Require Import Text_Model Words_Spec Words_Proofs Classes_Model Classes_Spec Classes_Proofs.
Import ListNotations.
Open Scope list_scope.

(** Widgets that keep their classes themselves: whatever the calls, the widget
    has a class exactly if the calls ask for it, and lists it once, as long as
    [set_classes] is given no repeated word. *)
Theorem C89_own : forall fixed h, no_repeats fixed h ->
  NoDup (w_classes (run (Own fixed) (new_widget (Own fixed)) h)) /\
  forall c, has_class (run (Own fixed) (new_widget (Own fixed)) h) c = true <-> wanted fixed h c.
Proof.
  intros f h R. destruct (run_wanted (Own f) h R) as [A B]; [discriminate|]. split; [exact A|]. intros c. rewrite has_iff. apply B.
Qed.
Print Assumptions C89_own.

(** Widgets that wrap a [Static]: the same if moreover no class is added twice. *)
Theorem C89_wrapped : forall h, no_repeats [] h -> no_second_add h ->
  NoDup (w_classes (run Wrapped (new_widget Wrapped) h)) /\
  forall c, has_class (run Wrapped (new_widget Wrapped) h) c = true <-> wanted [] h c.
Proof.
  intros h R S. destruct (run_wanted Wrapped h R) as [A B]; [auto|]. split; [exact A|]. intros c. rewrite has_iff. apply B.
Qed.
Print Assumptions C89_wrapped.

(** The two conditions are needed: a class that was added twice, or that
    [set_classes] lists twice, is still there after it was removed. *)
Theorem C89_added_twice_refuted : forall c,
  has_class (run Wrapped (new_widget Wrapped) [Add c; Add c; Remove c]) c = true /\
  has_class (run (Own []) (new_widget (Own [])) [Add c; Add c; Remove c]) c = false /\
  ~ wanted [] [Add c; Add c; Remove c] c.
Proof.
  intros c. split; [|split].
  - apply has_iff. cbn. unfold remove_class. cbn [has_class w_classes existsb].
    replace (text_eqb c c) with true by (symmetry; now apply Keys_Proofs.text_eqb_iff). cbn.
    replace (text_eqb c c) with true by (symmetry; now apply Keys_Proofs.text_eqb_iff). now left.
  - apply not_true_is_false. rewrite (proj2 (C89_own [] [Add c; Add c; Remove c] ltac:(split; [constructor|intros s [H|[H|[H|[]]]]; discriminate]))).
    unfold wanted. cbn. tauto.
  - unfold wanted. cbn. tauto.
Qed.
Print Assumptions C89_added_twice_refuted.

Theorem C89_listed_twice_refuted : forall i,
  has_class (run i (new_widget i) [SetClasses (str "big big"); Remove (str "big")]) (str "big") = true /\
  (i = Own [] \/ i = Wrapped -> ~ wanted [] [SetClasses (str "big big"); Remove (str "big")] (str "big")).
Proof.
  intros i. split; [|intros _; unfold wanted; cbn; tauto].
  unfold run. cbn [fold_left step]. unfold set_classes. change (split_ws (str "big big")) with [str "big"; str "big"].
  set (l := match i with Own fixed => fixed | Wrapped => [] end). unfold remove_class.
  assert (H : has_class (Widget (l ++ [str "big"; str "big"]) true) (str "big") = true).
  { apply has_iff. cbn [w_classes]. apply in_or_app. right. now left. }
  rewrite H. apply has_iff. cbn [w_classes]. clear H. induction l as [|x l IH]; [vm_compute; auto|].
  cbn [app remove_first]. destruct (text_eqb x (str "big")); [apply in_or_app; right; now left|now right].
Qed.
Print Assumptions C89_listed_twice_refuted.

(** A widget that keeps its classes itself asks for a repaint (and so for new
    styles) whenever its classes change. *)
Theorem C89_repaint_own : forall fixed w h, ~ In MarkClean h -> w_dirty (run (Own fixed) w h) = false ->
  w_classes (run (Own fixed) w h) = w_classes w.
Proof. intros f w h N D. now apply (own_clean f h w N D). Qed.
Print Assumptions C89_repaint_own.

(** A wrapped one only if something else than additions happened... *)
Theorem C89_repaint_wrapped : forall w h, ~ In MarkClean h -> w_dirty (run Wrapped w h) = false ->
  exists added, w_classes (run Wrapped w h) = w_classes w ++ added.
Proof. intros w h N D. now apply (wrapped_clean h w N D). Qed.
Print Assumptions C89_repaint_wrapped.

(** ... and never for an addition: the new class has no effect on its styles
    until something else makes it dirty. *)
Theorem C89_no_repaint_refuted : forall w c, w_dirty w = false -> ~ In c (w_classes w) ->
  (forall k, k = Add c \/ k = Toggle c \/ k = SetClass true c ->
     w_dirty (step Wrapped w k) = false /\ In c (w_classes (step Wrapped w k)) /\
     w_dirty (step (Own []) w k) = true).
Proof.
  intros w c D N k K. apply has_no in N.
  assert (I : In c (w_classes w ++ [c])) by (apply in_or_app; right; now left).
  destruct K as [->|[->| ->]]; cbn [step]; rewrite ?N; unfold add_class; rewrite ?N; cbn; auto.
Qed.
Print Assumptions C89_no_repaint_refuted.

Definition sample_calls := [SetClasses (str " big  red "); Toggle (str "red"); SetClass true (str "new"); Add (str "new"); Remove (str "old"); MarkClean].
Example C89_sample : no_repeats [str "-vertical"] sample_calls /\
  w_classes (run (Own [str "-vertical"]) (new_widget (Own [str "-vertical"])) sample_calls) = [str "-vertical"; str "big"; str "new"].
Proof.
  split; [|vm_compute; reflexivity]. split; [repeat constructor; auto|]. intros s [H|[H|[H|[H|[H|[H|[]]]]]]]; try discriminate.
  injection H as <-. exists [str "big"; str "red"]. split; [|repeat constructor; cbn; intuition discriminate].
  exact (split_spaced (str " big  red ")).
Qed.

(** ** Buttons *)

Section Lower.
Variable lower : text -> text.

(** Setting the variant panics exactly for names that are none of the five
    variants; nothing else does. *)
Theorem C89_variant_names : forall h,
  (button_run lower button_new h = Panic <-> exists n, In (SetVariant n) h /\ forall v, ~ names lower n v) /\
  button_run lower button_new h <> Err.
Proof. intros h. split; [apply button_run_panics|apply button_run_no_err]. Qed.

(** As long as the calls leave the classes alone that belong to the button, it
    always has exactly the class of the variant last set, of the style last set,
    and "-textual-compact" exactly when compact — each once. *)
Theorem C89_button : forall h b, button_run lower button_new h = Ok b -> Forall leaves_reserved h ->
  (exists v, last_variant lower VDefault h v /\ forall u, has_class (b_inner b) (class_name u) = true <-> u = v) /\
  (has_class (b_inner b) (str "-style-flat") = true <-> last_flat false h = true) /\
  (has_class (b_inner b) (str "-style-default") = true <-> last_flat false h = false) /\
  (has_class (b_inner b) (str "-textual-compact") = true <-> last_compact false h = true) /\
  (forall c, reserved c -> (count c (w_classes (b_inner b)) <= 1)%nat).
Proof.
  intros h b E F. destruct (button_run_in_step lower h button_new b in_step_new F E) as ([Iv Id If Ic] & V & Fl & Co). cbn in V, Fl, Co.
  assert (H : forall c p, count c (w_classes (b_inner b)) = b2n p -> (has_class (b_inner b) c = true <-> p = true)).
  { intros c p C. rewrite has_iff, <- count_in, C. destruct p; cbn; (split; intros Q; [try reflexivity; exfalso; lia|try lia; discriminate]). }
  split; [|split; [|split; [|split]]].
  - exists (b_variant b). split; [exact V|]. intros u. rewrite (H _ _ (Iv u)), variant_eqb_iff. split; congruence.
  - rewrite (H _ _ If), Fl. tauto.
  - rewrite (H _ _ Id), Fl. destruct (last_flat false h); cbn; split; congruence.
  - rewrite (H _ _ Ic), Co. tauto.
  - assert (B : forall p, (b2n p <= 1)%nat) by (intros []; cbn; lia).
    intros c [[u ->]|[->|[->| ->]]]; rewrite ?Iv, ?Id, ?If, ?Ic; apply B.
Qed.

(** With [set_classes] (and [with_classes]) they are lost: a button given a
    class of the application's own has no style of a button any more. *)
Theorem C89_set_classes_refuted : forall s, (forall c, word_of c s -> ~ reserved c) ->
  exists b, button_run lower button_new [Class (SetClasses s)] = Ok b /\
    b_variant b = VDefault /\ forall c, reserved c -> has_class (b_inner b) c = false.
Proof.
  intros s H. eexists. split; [reflexivity|]. split; [reflexivity|]. intros c R. apply has_no. cbn [b_inner step]. unfold set_classes. cbn [w_classes app].
  intros I. apply (H c); [|exact R]. exists (split_ws s). split; [apply split_spaced|exact I].
Qed.

(** Making a button compact does not ask for a repaint. *)
Theorem C89_compact_refuted : forall b, w_dirty (b_inner b) = false -> b_compact b = false ->
  exists b', button_step lower b (SetCompact true) = Ok b' /\ w_dirty (b_inner b') = false /\
    In (str "-textual-compact") (w_classes (b_inner b')).
Proof.
  intros b D C. cbn [button_step]. rewrite C. cbn [Bool.eqb]. eexists. split; [reflexivity|]. split; [exact D|].
  cbn. apply in_or_app. right. now left.
Qed.
End Lower.
Print Assumptions C89_variant_names.
Print Assumptions C89_button.
Print Assumptions C89_set_classes_refuted.
Print Assumptions C89_compact_refuted.

Example C89_button_sample : exists b, button_run (fun t => t) button_new
    [SetVariant (str " error "); SetFlat true; Class (Add (str "mine")); SetCompact true; SetVariant (str "success")] = Ok b /\
  w_classes (b_inner b) = [str "-style-flat"; str "mine"; str "-textual-compact"; str "-success"] /\
  last_variant (fun t => t) VDefault [SetVariant (str " error "); SetFlat true; Class (Add (str "mine")); SetCompact true; SetVariant (str "success")] VSuccess.
Proof.
  eexists. split; [vm_compute; reflexivity|]. split; [vm_compute; reflexivity|].
  exists VError. split; [vm_compute; reflexivity|]. exists VSuccess. split; [vm_compute; reflexivity|]. reflexivity.
Qed.
