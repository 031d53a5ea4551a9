(** Key bindings (C53). *)
From Coq Require Import String ZArith List Bool Lia.
From Verif Require Import Text_Model Keys_Model Keys_Spec Keys_Proofs.
Import ListNotations.
Open Scope Z_scope.
Notation length := List.length.
Open Scope list_scope.

Section Bindings.
Variable lc : char -> text.

(** *** C53: a binding matches a key event exactly when one of its alternatives accepts it. *)
Theorem C53_matches : forall e alts, alternatives_ok alts ->
  (matches_binding lc e (binding_text alts) = true <-> exists a, In a alts /\ accepts lc e a).
Proof. exact (binding_spec lc). Qed.

(** Every string is a list of alternatives, so the theorem above covers every binding. *)
Theorem C53_every_binding : forall t, exists alts, alternatives_ok alts /\ t = binding_text alts.
Proof. exact every_binding. Qed.

(** *** C53, refuted: the comma and the plus key cannot be bound, by any string
    (lower-casing turns nothing but themselves into them). *)
Lemma single_words : forall e t, matches_binding lc e t = true ->
  exists w, ~ In 44 w /\ ~ In 43 w /\ names_key (flat_map lc w) (k_code e).
Proof.
  intros e t H. destruct (every_binding t) as (alts & [N W] & ->). apply binding_spec in H; [|split; auto]. destruct H as (a & I & A).
  rewrite Forall_forall in W. destruct (W a I) as [_ Wa]. destruct A as (_ & _ & _ & _ & b & k & a0 & E & _ & _ & K).
  assert (J : In k (the_words lc a)) by (rewrite E; apply in_app_iff; right; left; reflexivity).
  unfold the_words in J. apply in_map_iff in J. destruct J as (w & <- & J). apply filter_In in J. destruct J as [J _].
  apply in_map_iff in J. destruct J as (w0 & <- & J). exists (trim w0). rewrite Forall_forall in Wa. destruct (Wa w0 J) as [C P].
  assert (Sub : forall x, In x (trim w0) -> In x w0).
  { intros x X. destruct (trim_start_split w0) as (u & _ & Eu). destruct (trim_end_split (trim_start w0)) as (v & _ & Ev).
    rewrite Eu. apply in_app_iff. right. rewrite Ev. apply in_app_iff. left. exact X. }
  repeat split; auto.
Qed.
Theorem C53_comma_plus_refuted : (forall c d, (d = 44 \/ d = 43) -> In d (lc c) -> c = d) ->
  forall e t, k_code e = Char 44 \/ k_code e = Char 43 -> matches_binding lc e t = false.
Proof.
  intros L e t H. destruct (matches_binding lc e t) eqn:M; [|reflexivity]. exfalso.
  destruct (single_words e t M) as (w & C & P & [(n & I & E)|(a & b & E & Ek & S)]).
  - assert (A : forallb (fun p => match snd p with Char x => negb ((x =? 44) || (x =? 43)) | _ => true end) key_names = true) by reflexivity.
    rewrite forallb_forall in A. specialize (A _ I). cbn [snd] in A. destruct H as [H|H]; rewrite H in A; discriminate.
  - assert (B : b = 44 \/ b = 43) by (destruct H as [H|H]; rewrite H in Ek; injection Ek as <-; auto).
    assert (a = b) by (unfold same_letter in S; lia). subst a.
    assert (J : In b (flat_map lc w)) by (rewrite E; left; reflexivity). apply in_flat_map in J. destruct J as (x & Jx & Jb).
    apply (L x b B) in Jb. subst x. destruct B as [-> | ->]; tauto.
Qed.

(** *** C53, refuted: Backspace, Delete, Insert, the function keys and all other codes without a word cannot be bound. *)
Theorem C53_unnamed_keys_refuted : forall e t n, k_code e = Other n -> matches_binding lc e t = false.
Proof.
  intros e t n H. destruct (matches_binding lc e t) eqn:M; [|reflexivity]. exfalso.
  destruct (single_words e t M) as (w & C & P & [(m & I & E)|(a & b & E & Ek & S)]); rewrite H in *; [|discriminate].
  assert (A : forallb (fun p => match snd p with Other _ => false | _ => true end) key_names = true) by reflexivity.
  rewrite forallb_forall in A. specialize (A _ I). discriminate.
Qed.

(** *** C53, refuted: a letter outside ASCII that lower-casing changes cannot be
    bound, although ASCII letters can be bound in either case. *)
Theorem C53_capital_refuted : forall d, 128 <= d -> (forall c, ~ In d (lc c)) ->
  forall e t, k_code e = Char d -> matches_binding lc e t = false.
Proof.
  intros d B L e t H. destruct (matches_binding lc e t) eqn:M; [|reflexivity]. exfalso.
  destruct (single_words e t M) as (w & C & P & [(n & I & E)|(a & b & E & Ek & S)]).
  - destruct (table_shape n _ I) as [_ Sh]. specialize (Sh d H). lia.
  - rewrite H in Ek. injection Ek as <-. assert (a = d) by (unfold same_letter in S; lia). subst a.
    assert (J : In d (flat_map lc w)) by (rewrite E; left; reflexivity). apply in_flat_map in J. destruct J as (x & _ & J). exact (L x J).
Qed.

(** *** C53, refuted: "shift+tab" does not match the key terminals send for it. *)
Theorem C53_shift_tab_refuted : (forall c, 97 <= c <= 122 -> lc c = [c]) ->
  forall e, k_code e = BackTab -> matches_binding lc e (str "shift+tab") = false.
Proof.
  intros L e H. destruct (matches_binding lc e (str "shift+tab")) eqn:M; [|reflexivity]. exfalso.
  apply (C53_matches e [[str "shift"; str "tab"]]) in M.
  - destruct M as (a & [<-|[]] & _ & _ & _ & _ & b & k & a0 & E & N & F & K).
    assert (W : the_words lc [str "shift"; str "tab"] = [str "shift"; str "tab"]).
    { unfold the_words. cbn [map]. change (trim (str "shift")) with (str "shift"). change (trim (str "tab")) with (str "tab").
      cbn. rewrite !L by lia. reflexivity. }
    rewrite W in E. rewrite H in K. destruct K as [(n & I & ->)|(x & y & _ & K & _)]; [|discriminate].
    cbn in I. repeat (destruct I as [I|I]; [try discriminate I; injection I as <-|]); try contradiction.
    destruct b as [|b1 [|b2 [|b3 b]]]; cbn in E; try discriminate; injection E; intros; discriminate.
  - split; [discriminate|]. repeat constructor; try discriminate; cbn; intuition discriminate.
Qed.

(** *** C53, refuted: only the last key word counts: in "a+b" the "a" is ignored. *)
Theorem C53_chord_refuted : forall e v w, word_ok v -> word_ok w -> ~ modifier (flat_map lc (trim v)) ->
  ~ modifier (flat_map lc (trim w)) -> trim w <> [] ->
  matches_binding lc e (v ++ 43 :: w) = matches_binding lc e w.
Proof.
  intros e v w V W Nv Nw T. apply eq_true_iff_eq.
  assert (E1 : alternatives_ok [[v; w]]) by (split; [discriminate|repeat constructor; auto; try discriminate; apply V || apply W]).
  assert (E2 : alternatives_ok [[w]]) by (split; [discriminate|repeat constructor; auto; try discriminate; apply W]).
  change (v ++ 43 :: w) with (binding_text [[v; w]]). rewrite (C53_matches e _ E1).
  change w with (binding_text [[w]]) at 2. rewrite (C53_matches e _ E2).
  assert (G : accepts lc e [v; w] <-> accepts lc e [w]).
  { unfold accepts, the_words. cbn [map]. destruct (trim w) as [|x tw] eqn:Tw; [congruence|]. rewrite <- Tw in *.
    cbn [filter]. replace (is_nil (trim w)) with false by (rewrite Tw; reflexivity). cbn [negb].
    destruct (is_nil (trim v)) eqn:Tv; cbn [negb map]; [tauto|]. set (a := flat_map lc (trim v)) in *. set (b := flat_map lc (trim w)) in *.
    assert (N : forall l, (forall y, In y l -> modifier y) -> (exists y, In y [a; b] /\ In y l) <-> (exists y, In y [b] /\ In y l)).
    { intros l Hl. split; intros (y & I & J).
      - destruct I as [<-|I]; [destruct (Nv (Hl _ J))|]. exists y. auto.
      - exists y. split; [right; exact I|exact J]. }
    rewrite (N ctrl_names), (N alt_names), (N shift_names).
    2-4: intros y Hy; unfold modifier; rewrite !in_app_iff; tauto.
    assert (K : (exists before key after, [a; b] = before ++ key :: after /\ ~ modifier key /\ Forall modifier after /\ names_key key (k_code e)) <->
                (exists before key after, [b] = before ++ key :: after /\ ~ modifier key /\ Forall modifier after /\ names_key key (k_code e))).
    { split; intros (p & k & q & E & Nk & F & K).
      - destruct p as [|p1 [|p2 p]]; cbn in E.
        + injection E as <- <-. inversion F as [|? ? F1 F2]. destruct (Nw F1).
        + injection E as _ <- <-. exists [], b, []. auto.
        + destruct p; discriminate.
      - destruct p as [|p1 p]; cbn in E; [|destruct p; discriminate]. injection E as <- <-. exists [a], b, []. auto. }
    rewrite K. tauto. }
  split; intros (a & [<-|[]] & A); eexists; (split; [left; reflexivity|]); apply G; exact A.
Qed.
End Bindings.

(** The hypotheses are met: ASCII lower-casing, the default binding of the
    command palette, in other spellings, and with a modifier too many. *)
Definition ascii (c : char) : text := [to_ascii_lowercase c].
Definition press (k : code) (ctrl shift alt : bool) : event := {| k_code := k; k_ctrl := ctrl; k_shift := shift; k_alt := alt; k_more := false |}.
Example C53_example :
  matches_binding ascii (press (Char 112) true false false) (str "ctrl+p") = true /\
  matches_binding ascii (press (Char 80) true true false) (str "f1, Control + P") = true /\
  matches_binding ascii (press (Char 112) true false true) (str "ctrl+p") = false /\
  matches_binding ascii (press (Char 112) false false false) (str "ctrl+p") = false /\
  matches_binding ascii (press PageUp false true false) (str "shift+pageup,shift+pagedown") = true /\
  matches_binding ascii (press PageUp false false false) (str "shift+pageup,shift+pagedown") = false /\
  matches_binding ascii (press (Char 97) false true false) (str "a") = true.
Proof. vm_compute. tauto. Qed.
Example C53_accepts_example : alternatives_ok [[str " Ctrl "; str "P"]; [str "esc"]] /\
  accepts ascii (press (Char 112) true false false) [str " Ctrl "; str "P"] /\
  (forall c d, (d = 44 \/ d = 43) -> In d (ascii c) -> c = d) /\ (forall c, 97 <= c <= 122 -> ascii c = [c]).
Proof.
  split; [|split; [|split]].
  - split; [discriminate|]. repeat constructor; try discriminate; cbn; intuition discriminate.
  - unfold accepts. vm_compute (the_words _ _). cbn. repeat split; auto; try discriminate; intros.
    + exists (str "ctrl"). split; left; reflexivity.
    + exfalso. destruct H as (w & [<-|[<-|[]]] & I); vm_compute in I; intuition discriminate.
    + destruct H as (w & [<-|[<-|[]]] & I); vm_compute in I; intuition discriminate.
    + exists [str "ctrl"], (str "p"), []. repeat split; auto.
      * vm_compute. intuition discriminate.
      * right. exists 112, 112. repeat split. left. reflexivity.
  - intros c d Hd [E|[]]. unfold to_ascii_lowercase in E. destruct ((65 <=? c) && (c <=? 90)) eqn:Q; [|exact E].
    apply andb_true_iff in Q. rewrite !Z.leb_le in Q. lia.
  - intros c H. unfold ascii, to_ascii_lowercase. replace (c <=? 90) with false by (symmetry; apply Z.leb_gt; lia). rewrite andb_false_r. reflexivity.
Qed.
(** "É" (201) is lower-cased to "é" (233). *)
Definition latin (c : char) : text := if c =? 201 then [233] else ascii c.
Example C53_capital_example : (forall c, ~ In 201 (latin c)) /\ matches_binding latin (press (Char 201) false false false) [201] = false /\
  matches_binding latin (press (Char 233) false false false) [201] = true /\ matches_binding latin (press (Char 69) false false false) (str "e") = true.
Proof.
  split; [|vm_compute; tauto]. intros c. unfold latin, ascii, to_ascii_lowercase. destruct (c =? 201) eqn:E; cbn; [intuition discriminate|].
  destruct ((65 <=? c) && (c <=? 90)) eqn:Q; apply Z.eqb_neq in E; [apply andb_true_iff in Q; rewrite !Z.leb_le in Q|]; intros [H|[]]; lia.
Qed.

Print Assumptions C53_matches.
Print Assumptions C53_every_binding.
Print Assumptions C53_comma_plus_refuted.
Print Assumptions C53_unnamed_keys_refuted.
Print Assumptions C53_capital_refuted.
Print Assumptions C53_shift_tab_refuted.
Print Assumptions C53_chord_refuted.
