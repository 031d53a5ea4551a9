(** Proofs about the header. *)
From Coq Require Import String ZArith List Bool Arith Lia.
From Verif Require Import Text_Model Canvas_Model Markup_Model Markup_Spec Markup_Proofs Fuzzy_Proofs Command_Proofs Keys_Proofs
  Press_Model Press_Spec Press_Proofs Classes_Model Classes_Proofs Header_Model Header_Spec.
Import ListNotations.
Notation length := List.length.
Open Scope nat_scope.
Open Scope list_scope.

Definition sub (h : header) : text := match h_subtitle h with Some s => s | None => [] end.
Definition shown_ok (h : header) : Prop := h_shown h = format_title (h_title h) (h_subtitle h).

Lemma hrun_fields : forall l h, shown_ok h ->
  h_title (hrun h l) = last_title (h_title h) l /\ sub (hrun h l) = last_subtitle (sub h) l /\
  h_tall (hrun h l) = last_tall (h_tall h) l /\ shown_ok (hrun h l).
Proof.
  induction l as [|k l IH]; intros h S; [auto|]. cbn [hrun fold_left]. fold (hrun (hstep h k) l).
  assert (S' : shown_ok (hstep h k)).
  { destruct k; try exact S; try reflexivity. cbn. destruct (Bool.eqb _ _); exact S. }
  destruct (IH (hstep h k) S') as (A & B & C & D). rewrite A, B, C. repeat split; try exact D; destruct k; try reflexivity;
    cbn; destruct (Bool.eqb (h_tall h) b) eqn:E; try reflexivity. apply eqb_prop in E. rewrite E. reflexivity.
Qed.

Section Shown.
Variable lower : text -> text.
Variable known_color : text -> bool.
Hypothesis lower_dim : lower (str "dim") = str "dim".

Lemma shown_parse : forall t s,
  parse lower known_color (format_title (escape_markup t) (Some (escape_markup s))) =
  Ok (Parsed (heading t s) match s with [] => [] | _ => [Span (blen t + 1) (blen (heading t s)) dim_style []] end).
Proof.
  intros t s. destruct s as [|c s].
  - unfold heading. rewrite app_nil_r. apply escape_roundtrip.
  - assert (E : format_title (escape_markup t) (Some (escape_markup (c :: s))) =
      escape_markup t ++ 32%Z :: ch_open :: str "dim" ++ ch_close :: 8212%Z :: 32%Z :: escape_markup (c :: s) ++ [ch_open; ch_slash; ch_close]).
    { assert (N : escape_markup (c :: s) <> []).
      { cbn. unfold escape_char. destruct (_ || _); discriminate. }
      destruct (escape_markup (c :: s)) as [|y u]; [contradiction|]. reflexivity. }
    rewrite E, parse_parse_from. rewrite parse_from_escape. rewrite parse_from_char by discriminate.
    rewrite (parse_from_open lower known_color _ (str "dim") _ (push_style (push_text (push_text parser_new t) [32%Z]) dim_style [] (str "dim")));
      [|apply plain_str; reflexivity|discriminate|discriminate|].
    2:{ unfold process_open. pose proof (help_style_ok lower known_color lower_dim) as K.
        change Command_Model.palette_help_style with (str "dim") in K. rewrite K. reflexivity. }
    rewrite parse_from_char by discriminate. rewrite parse_from_char by discriminate. rewrite parse_from_escape, parse_from_close.
    unfold push_style, push_text, set_stack, parser_new. cbn [ps_stack ps_out ps_spans app].
    assert (B : blen (t ++ [32%Z]) = blen t + 1) by (rewrite blen_app; reflexivity).
    rewrite pop_styled; [|rewrite !blen_app, (blen_cons c); pose proof (utf8_len_pos c); lia|reflexivity].
    rewrite parse_from_nil. cbn [bind app]. unfold close_all, set_stack. cbn [ps_stack ps_out ps_spans fold_left].
    rewrite <- !app_assoc. unfold heading. rewrite B. cbn [app]. reflexivity.
Qed.

(** the style of each character *)
Lemma shown_style : forall t s a x b k, heading t s = a ++ x :: b -> k < utf8_len x ->
  style_at (Parsed (heading t s) match s with [] => [] | _ => [Span (blen t + 1) (blen (heading t s)) dim_style []] end) (blen a + k) =
  if length a <=? length t then style_default else dim_style.
Proof.
  intros t s a x b k E L. destruct s as [|c s].
  - unfold heading in E. rewrite app_nil_r in E. assert (length a < length t) by (rewrite E, app_length; cbn; lia).
    replace (length a <=? length t) with true by (symmetry; apply Nat.leb_le; lia). reflexivity.
  - match goal with |- style_at (Parsed _ [?sp]) ?off = _ => change (fold_style [sp] off style_default = if length a <=? length t then style_default else dim_style) end.
    unfold fold_style. cbn [fold_left sp_style].
    destruct (Nat.leb_spec (length a) (length t)) as [La|La].
    + replace (span_contains _ _) with false; [reflexivity|]. symmetry. apply not_true_iff_false. rewrite span_contains_spec. unfold covers. cbn [sp_start sp_end].
      destruct (Nat.eq_dec (length a) (length t)) as [Q|Q].
      * unfold heading in E. destruct (app_split_after t a x b _ E) as [a' [Ea Eu]]; [lia|].
        subst a. rewrite app_length in Q. destruct a' as [|y a']; [|cbn in Q; lia]. cbn in Eu. injection Eu as Ex _. subst x.
        change (utf8_len 32%Z) with 1 in L. rewrite app_nil_r. lia.
      * unfold heading in E. destruct (app_split t a x b _ E) as [b' Et]; [lia|]. rewrite Et, blen_app, blen_cons. lia.
    + replace (span_contains _ _) with true; [apply style_apply_default|]. symmetry. rewrite span_contains_spec. unfold covers. cbn [sp_start sp_end].
      split; [|rewrite E, (blen_app a (x :: b)), blen_cons; lia].
      unfold heading in E. destruct (app_split_after t a x b _ E) as [a' [Ea Eu]]; [lia|]. subst a.
      rewrite app_length in La. destruct a' as [|y a']; [cbn in La; lia|]. rewrite blen_app, blen_cons. pose proof (utf8_len_pos y). lia.
Qed.
End Shown.

(** *** the tall style *)
Lemma step_other : forall w k, leaves_tall (Class k) -> In tall_class (Classes_Model.w_classes (Classes_Model.step own w k)) <-> In tall_class (Classes_Model.w_classes w).
Proof.
  intros w k L.
  assert (Ad : forall c, c <> tall_class -> In tall_class (Classes_Model.w_classes (add_class own w c)) <-> In tall_class (Classes_Model.w_classes w)).
  { intros c N. cbn [add_class own]. destruct (has_class w c); [reflexivity|]. cbn [Classes_Model.w_classes]. rewrite in_app_iff. cbn. intuition congruence. }
  assert (Re : forall c, c <> tall_class -> In tall_class (Classes_Model.w_classes (remove_class w c)) <-> In tall_class (Classes_Model.w_classes w)).
  { intros c N. unfold remove_class. destruct (has_class w c); [|reflexivity]. cbn [Classes_Model.w_classes]. apply remove_first_other. congruence. }
  destruct k as [c|c|c|[|] c|s| |]; cbn [leaves_tall] in L; cbn [Classes_Model.step]; try reflexivity; try contradiction; auto.
  destruct (has_class w c); auto.
Qed.

Lemma tall_run : forall l h, Forall leaves_tall l -> NoDup (Classes_Model.w_classes (h_widget h)) ->
  (h_tall h = true <-> In tall_class (Classes_Model.w_classes (h_widget h))) ->
  (h_tall (hrun h l) = true <-> In tall_class (Classes_Model.w_classes (h_widget (hrun h l)))).
Proof.
  induction l as [|k l IH]; intros h F N H; [exact H|]. inversion F as [|? ? Fk Fl]; subst. cbn [hrun fold_left]. fold (hrun (hstep h k) l).
  apply IH; [exact Fl| |].
  - destruct k as [t|s| |b|s|k]; try exact N; [|contradiction|].
    + cbn [hstep]. destruct (Bool.eqb (h_tall h) b); [exact N|]. cbn [h_widget]. destruct b.
      * cbn [add_class own]. destruct (has_class (h_widget h) tall_class) eqn:E; [exact N|]. cbn [Classes_Model.w_classes]. apply nodup_snoc; [exact N|]. apply has_no, E.
      * unfold remove_class. destruct (has_class _ _); [|exact N]. apply remove_first_nodup, N.
    + cbn [hstep upd_widget h_widget].
      destruct k as [c|c|c|[|] c|s| |]; cbn [Classes_Model.step]; try exact N; try contradiction;
        unfold add_class, remove_class; cbn [own]; destruct (has_class (h_widget h) c) eqn:E; try exact N; cbn [Classes_Model.w_classes];
        try (apply remove_first_nodup, N); (apply nodup_snoc; [exact N|apply has_no, E]).
  - destruct k as [t|s| |b|s|k]; try exact H; [|contradiction|].
    + cbn [hstep]. destruct (Bool.eqb (h_tall h) b) eqn:E; [exact H|]. cbn [h_widget h_tall]. destruct b.
      * split; [intros _|reflexivity]. cbn [add_class own]. destruct (has_class (h_widget h) tall_class) eqn:G; [apply has_iff, G|].
        cbn [Classes_Model.w_classes]. apply in_app_iff. right. left. reflexivity.
      * split; [discriminate|]. intros I. exfalso. unfold remove_class in I. destruct (has_class (h_widget h) tall_class) eqn:G.
        -- cbn [Classes_Model.w_classes] in I. revert I. apply remove_first_nodup, N.
        -- apply has_no in G. contradiction.
    + cbn [hstep upd_widget h_widget h_tall]. rewrite H. symmetry. apply step_other, Fk.
Qed.

(** *** the icon is a button that does not hear keys *)
Definition like (i : icon) (b : btn) : Prop :=
  i_hovered i = b_hovered b /\ i_active i = b_active b /\ i_disabled i = b_disabled b /\ i_pending i = b_pending b /\
  b_action b = Some (str "app.command_palette").

Lemma like_step : forall i b e, like i b -> (forall k, e <> Key k) -> like (fst (icon_step i e)) (fst (btn_step b e)).
Proof.
  intros i b e (H & A & D & P & C) N.
  destruct e as [k|k x y r|v|v|v| |v|v|v|v| | | | |]; try (exfalso; now apply (N k)); cbn [icon_step btn_step fst]; unfold bset_if;
    try (destruct (Bool.eqb _ _) eqn:E; [apply eqb_prop in E|]);
    try (repeat split; first [exact C | reflexivity | cbn; congruence]).
  destruct k as [|[| |]|[| |]|]; cbn [icon_mouse btn_mouse fst]; unfold bset_if; try (repeat split; first [exact C | reflexivity | cbn; congruence]).
  - destruct (Bool.eqb _ _) eqn:E; [apply eqb_prop in E|]; repeat split; first [exact C | reflexivity | cbn; congruence].
  - rewrite D. destruct (contains_point r x y && negb (b_disabled b)); [|repeat split; assumption].
    destruct (Bool.eqb _ _) eqn:E; [apply eqb_prop in E|]; repeat split; first [exact C | reflexivity | cbn; congruence].
  - rewrite A, D. destruct (b_active b) eqn:Ab; [|repeat split; first [exact C | cbn [fst]; congruence]].
    destruct (contains_point r x y && negb (b_disabled b)) eqn:E; [|repeat split; first [exact C | reflexivity | cbn; congruence]].
    apply andb_true_iff in E as [_ E]. apply negb_true_iff in E. unfold press. change (b_disabled (bupd_active b false true)) with (b_disabled b). rewrite E.
    change (b_action (bupd_active b false true)) with (b_action b). rewrite C. cbn [fst]. repeat split; first [exact C | reflexivity | cbn; congruence].
Qed.
Lemma btn_run_cons : forall b e h, fst (btn_run b (e :: h)) = fst (btn_run (fst (btn_step b e)) h).
Proof. intros. cbn. destruct (btn_step b e) as [b1 m]. cbn. destruct (btn_run b1 h). reflexivity. Qed.
Lemma like_run : forall h i b, like i b -> like (icon_run i h) (fst (btn_run b (no_keys h))).
Proof.
  induction h as [|e h IH]; intros i b L; [exact L|]. cbn [icon_run fold_left]. fold (icon_run (fst (icon_step i e)) h).
  destruct e as [k| | | | | | | | | | | | | |]; cbn [no_keys filter]; [exact (IH i b L)|..]; fold (no_keys h); rewrite btn_run_cons; apply IH, like_step; auto; discriminate.
Qed.
