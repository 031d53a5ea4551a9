(** C96: what a header shows, and when its icon asks for the palette. *)
From Coq Require Import String ZArith List Bool Arith Lia.
From Verif Require Import Text_Model Canvas_Model Canvas_Spec Markup_Model Markup_Spec Markup_Proofs
  Press_Model Press_Spec Press_Proofs Press_Props Words_Spec Words_Proofs Classes_Model Classes_Spec Classes_Proofs Header_Model Header_Spec Header_Proofs.
Import ListNotations.
Notation length := List.length.
Open Scope nat_scope.
Open Scope list_scope.

(** C96: after any calls the title and subtitle are those given last. *)
Theorem C96_getters : forall t l, let h := hrun (header_new t) l in
  h_title h = last_title t l /\ match h_subtitle h with Some s => s | None => [] end = last_subtitle [] l /\ h_tall h = last_tall false l.
Proof. intros t l h. destruct (hrun_fields l (header_new t) eq_refl) as (A & B & C & _). auto. Qed.
Print Assumptions C96_getters.

Section Props.
Variable lower : text -> text.          (* str::to_lowercase *)
Variable known_color : text -> bool.
Hypothesis lower_letters : forall t, Forall (fun c => (97 <= c <= 122)%Z) t -> lower t = t.
Lemma lower_dim : lower (str "dim") = str "dim".
Proof. apply lower_letters. repeat constructor; discriminate. Qed.

(** C96: if the title and subtitle given last are markup for texts, these texts are
    what is shown, a dash between them; the dash and the subtitle are dim.  Nothing
    is added for an empty or cleared subtitle. *)
Theorem C96_shown : forall t0 l t s, literal (last_title t0 l) t -> literal (last_subtitle [] l) s ->
  exists m, parse lower known_color (h_shown (hrun (header_new t0) l)) = Ok m /\ pm_text m = heading t s /\
    forall a x b k, heading t s = a ++ x :: b -> k < utf8_len x ->
      style_at m (blen a + k) = if length a <=? length t then style_default else dim_style.
Proof.
  intros t0 l t s Lt Ls. destruct (hrun_fields l (header_new t0) eq_refl) as (A & B & _ & D). unfold shown_ok in D. unfold sub in B.
  change (h_title (header_new t0)) with t0 in A. change (h_subtitle (header_new t0)) with (@None text) in B. cbn beta iota in B.
  change (last_title t0 l = escape_markup t) in Lt. change (last_subtitle [] l = escape_markup s) in Ls.
  assert (E : h_shown (hrun (header_new t0) l) = format_title (escape_markup t) (Some (escape_markup s))).
  { rewrite D, A, Lt. destruct (h_subtitle (hrun (header_new t0) l)) as [u|].
    - rewrite B, Ls. reflexivity.
    - rewrite Ls in B. destruct s as [|c s]; [reflexivity|]. cbn in B. unfold escape_char in B. destruct (_ || _) in B; discriminate. }
  rewrite E. eexists. split; [apply shown_parse, lower_dim|]. split; [reflexivity|]. intros. eapply shown_style; eassumption.
Qed.

(** Texts without brackets and backslashes are markup for themselves. *)
Theorem C96_plain_titles : forall t, Forall plain_char t -> literal t t.
Proof.
  unfold literal. induction t as [|c t IH]; intros F; [reflexivity|]. inversion F as [|? ? [A [B C]] Ft]; subst. cbn [flat_map].
  rewrite <- IH by exact Ft. replace ((c =? 91)%Z || (c =? 93)%Z || (c =? 92)%Z) with false; [reflexivity|].
  symmetry. rewrite !orb_false_iff, !Z.eqb_neq. auto.
Qed.

(** Not so for others: a title is shown without what stands in its brackets. *)
Hypothesis lower_b : lower (str "b") = str "b".
Theorem C96_brackets_refuted : exists t0 m, parse lower known_color (h_shown (header_new t0)) = Ok m /\ pm_text m <> t0.
Proof.
  exists (str "Grade [b]"). eexists. split.
  - change (h_shown (header_new (str "Grade [b]"))) with (escape_markup (str "Grade ") ++ ch_open :: str "b" ++ ch_close :: []).
    rewrite parse_parse_from, parse_from_escape.
    rewrite (parse_from_open lower known_color _ (str "b") _ (push_style (push_text parser_new (str "Grade ")) (Style None None (TextStyle true false false false false false false)) [] (str "b")));
      [rewrite parse_from_nil; reflexivity|repeat constructor; discriminate|discriminate|discriminate|].
    unfold process_open. change (tag_parse lower known_color (str "b")) with (bind (style_words lower known_color style_default [str "b"]) (fun s => Ok (TagStyle s))).
    cbn [style_words]. rewrite lower_b. reflexivity.
  - discriminate.
Qed.

Example C96_example : let l := [SetSubtitle (str "draft"); Tall true; SetTitle (str "Notes")] in
  literal (last_title (str "Log") l) (str "Notes") /\ literal (last_subtitle [] l) (str "draft") /\
  h_shown (hrun (header_new (str "Log")) l) = str "Notes [dim]" ++ [8212%Z] ++ str " draft[/]" /\
  heading (str "Notes") (str "draft") = str "Notes " ++ [8212%Z] ++ str " draft".
Proof. repeat split. Qed.
End Props.
Print Assumptions C96_shown.
Print Assumptions C96_plain_titles.
Print Assumptions C96_brackets_refuted.

(** C96: while classes are not replaced as a whole, the header has the class of the
    tall style exactly when the tall style was asked for last. *)
Theorem C96_tall : forall t l, Forall leaves_tall l ->
  (has_class (h_widget (hrun (header_new t) l)) (str "-tall") = true <-> last_tall false l = true).
Proof.
  intros t l F. destruct (hrun_fields l (header_new t) eq_refl) as (_ & _ & C & _). change (h_tall (header_new t)) with false in C. rewrite <- C, has_iff.
  symmetry. apply tall_run; [exact F|constructor|]. split; [discriminate|intros []].
Qed.
Print Assumptions C96_tall.
Example C96_tall_example : let l := [Tall true; Class (Add (str "big")); Tall false; Tall true; Class (Toggle (str "big"))] in
  Forall leaves_tall l /\ last_tall false l = true.
Proof. split; [repeat constructor; discriminate|reflexivity]. Qed.

(** Replacing the classes makes the header low again, although [is_tall] still says
    it is tall; asking for the tall style again has no effect. *)
Theorem C96_tall_refuted : exists l, last_tall false l = true /\
  let h := hrun (header_new (str "Log")) (l ++ [Tall true]) in h_tall h = true /\ has_class (h_widget h) (str "-tall") = false.
Proof. exists [Tall true; Class (SetClasses (str "big"))]. repeat split. Qed.
Print Assumptions C96_tall_refuted.

(** Giving classes replaces those there were; adding, removing and toggling a class
    affects that class only. *)
Theorem C96_classes : forall t l,
  (forall s c, let h := hrun (header_new t) (l ++ [WithClasses s]) in has_class (h_widget h) c = true <-> word_of c s) /\
  (forall s c, let h := hrun (header_new t) (l ++ [Class (SetClasses s)]) in has_class (h_widget h) c = true <-> word_of c s) /\
  (forall k d c, (k = Add d \/ k = Remove d \/ k = Toggle d \/ (exists b, k = SetClass b d)) -> c <> d ->
     has_class (h_widget (hrun (header_new t) (l ++ [Class k]))) c = has_class (h_widget (hrun (header_new t) l)) c).
Proof.
  intros t l.
  assert (W : forall s c, In c (split_ws s) <-> word_of c s).
  { intros s c. split; [intros I; exists (split_ws s); split; [apply split_spaced|exact I]|].
    intros (ws & S & I). rewrite (spaced_split ws s S). exact I. }
  unfold hrun. split; [|split].
  - intros s c. cbn zeta. rewrite fold_left_app. cbn [fold_left hstep upd_widget h_widget]. rewrite has_iff. apply W.
  - intros s c. cbn zeta. rewrite fold_left_app. cbn [fold_left hstep upd_widget h_widget step]. rewrite has_iff. apply W.
  - intros k d c K N. rewrite fold_left_app. cbn [fold_left hstep upd_widget h_widget].
    set (w := h_widget (fold_left hstep l (header_new t))). apply eq_true_iff_eq. rewrite !has_iff.
    assert (A : In c (w_classes (add_class own w d)) <-> In c (w_classes w)).
    { unfold add_class, own. destruct (has_class w d); [reflexivity|]. cbn [w_classes]. rewrite in_app_iff. cbn [In]. intuition congruence. }
    assert (R : In c (w_classes (remove_class w d)) <-> In c (w_classes w)).
    { unfold remove_class. destruct (has_class w d); [|reflexivity]. cbn [w_classes]. apply remove_first_other, N. }
    destruct K as [-> |[-> |[-> |[b ->]]]]; cbn [step]; [exact A|exact R|destruct (has_class w d); assumption|destruct b; assumption].
Qed.
Print Assumptions C96_classes.

(** C96: the icon asks for the command palette exactly once after a click on it;
    it is a button that does not hear keys. *)
Theorem C96_icon : forall h a, Forall on_a_screen h ->
  snd (icon_step (icon_run icon_new h) TakeAction) = Some a <-> a = str "app.command_palette" /\ waiting (no_keys h).
Proof.
  intros h a F. pose proof (like_run h icon_new (btn_new (Some (str "app.command_palette")) false)) as L.
  destruct L as (_ & _ & _ & P & _); [repeat split|]. cbn [icon_step snd]. rewrite P.
  assert (F' : Forall on_a_screen (no_keys h)).
  { rewrite Forall_forall in *. intros e I. apply filter_In in I as [I _]. auto. }
  pose proof (C88_actions (Some (str "app.command_palette")) false (no_keys h) a F') as W. cbn [btn_step snd] in W.
  destruct (b_pending _) as [x|].
  - split; intros H; [injection H as ->|].
    + destruct W as [W _]. destruct (W eq_refl) as [E W']. split; [congruence|exact W'].
    + destruct H as [-> H]. destruct W as [_ W]. assert (E : Action x = Action (str "app.command_palette")) by (apply W; auto). congruence.
  - split; [discriminate|]. intros [-> H]. destruct W as [_ W]. assert (E : Nothing = Action (str "app.command_palette")) by (apply W; auto). discriminate.
Qed.
Print Assumptions C96_icon.
(** and the request does not come from anything else *)
Theorem C96_icon_only : forall h e a, snd (icon_step (icon_run icon_new h) e) = Some a -> e = TakeAction.
Proof. intros h [] a H; try discriminate. reflexivity. Qed.
Print Assumptions C96_icon_only.
Example C96_icon_example : let r := Region 0 0 8 1 in let h := [Key KEnter; Mouse (MDown BLeft) 2 0 r; Mouse (MUp BLeft) 3 0 r] in
  Forall on_a_screen h /\ snd (icon_step (icon_run icon_new h) TakeAction) = Some (str "app.command_palette") /\
  snd (icon_step (icon_run icon_new (h ++ [TakeAction])) TakeAction) = None.
Proof. split; [repeat constructor; vm_compute; congruence|]. split; reflexivity. Qed.
