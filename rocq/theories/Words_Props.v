(** C74: a style tag means its words. *)
From Coq Require Import String ZArith List Bool Lia.
From Verif Require Import Text_Model Markup_Model Colour_Spec Words_Spec Words_Proofs.
Import ListNotations.
Open Scope Z_scope.
Open Scope list_scope.

(** A colour is read exactly if it is written as one, and then it is that one. *)
Theorem C74_colour : forall lower known t c, color_parse lower known t = Ok c <-> colour_text lower known t c.
Proof. intros. apply color_parse_text. Qed.
Print Assumptions C74_colour.
(** A tag is accepted exactly if it is a non-empty sequence of words which are
    attributes, colours or "on" followed by a colour.  The style has the
    attributes named and no others, the last colour given as foreground and the
    last one after an "on" as background. *)
Theorem C74_style : forall lower known, lowercase_like lower ->
  forall t st, style_parse lower known t = Ok st <->
    exists ws items, ws <> [] /\ spaced ws t /\ spells lower known ws items /\ meaning items st.
Proof. intros. apply style_parse_words. assumption. Qed.
Print Assumptions C74_style.
(** The words of a text are determined by it, and so is the style of a list of
    words: no tag is ambiguous. *)
Theorem C74_unambiguous : forall lower known, lowercase_like lower -> forall t ws1 ws2 i1 i2 s1 s2,
  ws1 <> [] -> spaced ws1 t -> spaced ws2 t -> spells lower known ws1 i1 -> spells lower known ws2 i2 -> meaning i1 s1 -> meaning i2 s2 -> ws1 = ws2 /\ s1 = s2.
Proof.
  intros lower known L t ws1 ws2 i1 i2 s1 s2 N S1 S2 P1 P2 M1 M2. pose proof (spaced_split _ _ S1) as E1. pose proof (spaced_split _ _ S2) as E2. assert (E : ws1 = ws2) by congruence. split; auto.
  assert (A : style_parse lower known t = Ok s1) by (apply C74_style; auto; exists ws1, i1; auto). assert (B : style_parse lower known t = Ok s2) by (apply C74_style; auto; exists ws2, i2; rewrite <- E in *; auto). congruence.
Qed.
Print Assumptions C74_unambiguous.
(** White space around a tag and the amount of it between words do not matter. *)
Theorem C74_spacing : forall lower known, lowercase_like lower -> forall ws t t', spaced ws t -> spaced ws t' -> style_parse lower known t = style_parse lower known t'.
Proof.
  intros lower known _ ws t t' A B. apply spaced_split in A, B. unfold style_parse. destruct (trim t) as [|c r] eqn:T; destruct (trim t') as [|c' r'] eqn:T'; auto.
  - apply trim_nil_iff in T. assert (X : trim t' = []) by (apply trim_nil_iff; congruence). congruence.
  - apply trim_nil_iff in T'. assert (X : trim t = []) by (apply trim_nil_iff; congruence). congruence.
  - rewrite <- T, <- T', !split_ws_trim, A, B. reflexivity.
Qed.
Print Assumptions C74_spacing.

(** Lower-casing of ASCII only satisfies the assumption. *)
Lemma ascii_ws : forall c, is_ws (ascii_lower c) = is_ws c.
Proof. intros c. unfold ascii_lower. destruct ((65 <=? c) && (c <=? 90)) eqn:E; auto. apply andb_true_iff in E. rewrite !Z.leb_le in E. assert (W : forall x, 65 <= x <= 122 -> is_ws x = false). { intros x H. unfold is_ws. repeat (apply orb_false_iff; split); try (apply andb_false_iff; rewrite ?Z.leb_gt; lia); apply Z.eqb_neq; lia. } rewrite !W by lia. reflexivity. Qed.
Lemma trim_start_map : forall t, trim_start (map ascii_lower t) = map ascii_lower (trim_start t).
Proof. induction t as [|c t IH]; cbn; auto. rewrite ascii_ws. destruct (is_ws c); auto. Qed.
Lemma trim_map : forall t, trim (map ascii_lower t) = map ascii_lower (trim t).
Proof. intros t. unfold trim, trim_end. rewrite trim_start_map, <- map_rev, trim_start_map, map_rev. reflexivity. Qed.
Lemma ascii_like : lowercase_like (map ascii_lower).
Proof.
  split; [reflexivity|]. intros w H. rewrite trim_map in H. destruct (trim w) as [|c r]; cbn in *; [discriminate|]. injection H as H. f_equal. unfold ascii_lower in H. destruct ((65 <=? c) && (c <=? 90)) eqn:E; auto. apply andb_true_iff in E. rewrite !Z.leb_le in E. lia.
Qed.
Definition some_colours (t : text) : bool := text_eqb t (str "red") || text_eqb t (str "blue").
Example C74_ex : style_parse (map ascii_lower) some_colours (str " Bold  RED on #1aF blue u") = Ok (Style (Some (Named (str "blue"))) (Some (Rgb 17 170 255)) (TextStyle true false false true false false false)).
Proof. reflexivity. Qed.
Example C74_ex_spells : spells (map ascii_lower) some_colours [str "Bold"; str "on"; str "rgb(1,+2,255)"] [Attr Bold; Bg (Rgb 1 2 255)].
Proof.
  eapply spells_attr; [instantiate (1 := "bold"%string); reflexivity|left; reflexivity|]. apply spells_on; [reflexivity| |constructor]. apply C74_colour. reflexivity.
Qed.
(** Case does not matter for names, attributes, hexadecimal digits and a
    foreground "RGB(...)", but a background "RGB(...)" is rejected. *)
Theorem C74_on_case_refuted : style_parse (map ascii_lower) some_colours (str "RGB(1,2,3)") = Ok (Style (Some (Rgb 1 2 3)) None (TextStyle false false false false false false false)) /\
  style_parse (map ascii_lower) some_colours (str "on RGB(1,2,3)") = Err.
Proof. split; reflexivity. Qed.
Print Assumptions C74_on_case_refuted.
(** "rgb(1, 2, 3)" is a colour, but not in a tag, where the spaces end a word. *)
Theorem C74_rgb_spaces_refuted : color_parse (map ascii_lower) some_colours (str "rgb(1, 2, 3)") = Ok (Rgb 1 2 3) /\ style_parse (map ascii_lower) some_colours (str "rgb(1, 2, 3)") = Err.
Proof. split; reflexivity. Qed.
Print Assumptions C74_rgb_spaces_refuted.
