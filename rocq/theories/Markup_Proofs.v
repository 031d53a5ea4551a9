From Coq Require Import ZArith List Bool Arith Lia.
From Verif Require Import Text_Model Markup_Model Markup_Spec.
Import ListNotations.
Local Open Scope nat_scope.

(** *** bytes *)

Lemma utf8_len_pos : forall c, 1 <= utf8_len c.
Proof. intros c. unfold utf8_len. destruct (c <? 128)%Z, (c <? 2048)%Z, (c <? 65536)%Z; lia. Qed.

Lemma blen_cons : forall c t, blen (c :: t) = utf8_len c + blen t.
Proof. reflexivity. Qed.

Lemma blen_app : forall a b, blen (a ++ b) = blen a + blen b.
Proof. induction a as [|c a IH]; intros b; cbn [app]; [reflexivity|]. rewrite !blen_cons, IH. lia. Qed.

Lemma blen_zero : forall t, blen t = 0 -> t = [].
Proof. intros [|c t] H; [reflexivity|]. rewrite blen_cons in H. pose proof (utf8_len_pos c). lia. Qed.

Arguments blen : simpl never.
Arguments utf8_len : simpl never.

Lemma bsplit_prefix : forall a b, bsplit (blen a) (a ++ b) = Some (a, b).
Proof.
  induction a as [|c a IH]; intros b; cbn [app]; [destruct b; reflexivity|].
  rewrite blen_cons. pose proof (utf8_len_pos c). destruct (utf8_len c + blen a) as [|k] eqn:E; [lia|].
  cbn [bsplit]. rewrite <- E. destruct (Nat.leb_spec (utf8_len c) (utf8_len c + blen a)); [|lia].
  replace (utf8_len c + blen a - utf8_len c) with (blen a) by lia. rewrite IH. reflexivity.
Qed.

Lemma bslice_mid : forall a m b, bslice (blen a) (blen a + blen m) (a ++ m ++ b) = Some m.
Proof.
  intros a m b. unfold bslice. destruct (Nat.ltb_spec (blen a + blen m) (blen a)); [lia|].
  rewrite <- blen_app, app_assoc, bsplit_prefix, bsplit_prefix. reflexivity.
Qed.

(** *** the lexer *)

Lemma text_run_spec : forall t a b, text_run t = (a, b) -> t = a ++ b.
Proof.
  induction t as [|c r IH]; intros a b E; cbn [text_run] in E; [injection E as <- <-; reflexivity|].
  destruct ((c =? ch_open) || (c =? ch_esc))%Z; [injection E as <- <-; reflexivity|].
  destruct (text_run r) as [a' b'] eqn:R. injection E as <- <-. cbn. f_equal. auto.
Qed.

Lemma tag_scan_length : forall n t d a b, length t <= n -> tag_scan d t = Some (a, b) -> length b < length t.
Proof.
  induction n as [|n IH]; intros [|c r] d a b L E; cbn [tag_scan length] in *; try discriminate; try lia.
  destruct (c =? ch_open)%Z.
  { destruct (tag_scan (S d) r) as [[a' b']|] eqn:R; [|discriminate]. injection E as <- <-. cbn [snd].
    apply IH in R; lia. }
  destruct (c =? ch_close)%Z.
  { destruct d as [|[|d]]; try (injection E as <- <-; lia).
    destruct (tag_scan (S d) r) as [[a' b']|] eqn:R; [|discriminate]. injection E as <- <-. cbn [snd]. apply IH in R; lia. }
  destruct (c =? ch_esc)%Z.
  { destruct r as [|c2 r2]; [discriminate|]. destruct (tag_scan d r2) as [[a' b']|] eqn:R; [|discriminate].
    injection E as <- <-. cbn [snd length] in *. apply IH in R; lia. }
  destruct (tag_scan d r) as [[a' b']|] eqn:R; [|discriminate]. injection E as <- <-. cbn [snd]. apply IH in R; lia.
Qed.

Lemma lex_one_length : forall t k r, lex_one t = Some (k, r) -> length r < length t.
Proof.
  intros [|c t] k r E; cbn [lex_one] in E; [discriminate|]. destruct (c =? ch_open)%Z eqn:B1.
  - unfold consume_tag in E. destruct (tag_scan 1 t) as [[a b]|] eqn:S; [|discriminate].
    destruct (tag_token a); [|discriminate]. injection E as <- <-.
    apply (tag_scan_length (length t)) in S; [cbn; lia|lia].
  - destruct (c =? ch_esc)%Z eqn:B2.
    + unfold consume_escape in E. destruct t as [|c2 q]; [discriminate|].
      destruct (_ || _)%bool; [|discriminate]. injection E as <- <-. cbn. lia.
    + destruct (text_run (c :: t)) as [a b] eqn:R. injection E as <- <-.
      cbn [text_run] in R. rewrite B1, B2 in R. cbn in R. destruct (text_run t) as [a' b'] eqn:R'.
      injection R as <- <-. apply text_run_spec in R'. subst t. cbn. rewrite app_length. lia.
Qed.

Lemma lex_fuel_enough : forall n m t, length t <= n -> length t <= m -> lex_fuel n t = lex_fuel m t.
Proof.
  induction n as [|n IH]; intros m t Hn Hm.
  - destruct t; [destruct m; reflexivity|cbn in Hn; lia].
  - destruct t as [|c t]; [destruct m; reflexivity|]. destruct m as [|m]; [cbn in Hm; lia|].
    cbn [lex_fuel]. destruct (lex_one (c :: t)) as [[k r]|] eqn:E; [|reflexivity].
    apply lex_one_length in E. rewrite (IH m r) by lia. reflexivity.
Qed.

Lemma lex_step : forall t k r, lex_one t = Some (k, r) -> lex t = bind (lex r) (fun ks => Ok (k :: ks)).
Proof.
  intros t k r E. pose proof (lex_one_length _ _ _ E) as L. unfold lex. destruct t as [|c t]; [discriminate|].
  cbn [length lex_fuel] in *. rewrite E. rewrite (lex_fuel_enough (length t) (length r) r) by lia. reflexivity.
Qed.

Lemma lex_nil : lex [] = Ok [].
Proof. reflexivity. Qed.

Section P.
Variable lower : text -> text.
Variable known_color : text -> bool.
Notation process_tokens := (process_tokens lower known_color).
Notation process_token := (process_token lower known_color).
Notation tag_parse := (tag_parse lower known_color).
Notation parse := (parse lower known_color).

(** parsing the rest of the input from a parser state *)
Definition parse_from (p : parser) (t : text) : res parser := bind (lex t) (process_tokens p).

Lemma parse_parse_from : forall t, parse t =
  bind (parse_from parser_new t) (fun p => Ok (Parsed (ps_out (close_all p)) (ps_spans (close_all p)))).
Proof. intros t. unfold Markup_Model.parse, parse_from. destruct (lex t); reflexivity. Qed.

Lemma parse_from_nil : forall p, parse_from p [] = Ok p.
Proof. reflexivity. Qed.

Lemma push_text_app : forall p a b, push_text (push_text p a) b = push_text p (a ++ b).
Proof. intros [s o sp] a b. unfold push_text. cbn. rewrite app_assoc. reflexivity. Qed.

Lemma push_text_nil : forall p, push_text p [] = p.
Proof. intros [s o sp]. unfold push_text. cbn. rewrite app_nil_r. reflexivity. Qed.

Lemma text_run_stop : forall t a b, text_run t = (a, b) -> text_run b = ([], b).
Proof.
  induction t as [|c r IH]; intros a b E; cbn [text_run] in E; [injection E as <- <-; reflexivity|].
  destruct ((c =? ch_open) || (c =? ch_esc))%Z eqn:B; [injection E as <- <-; cbn [text_run]; rewrite B; reflexivity|].
  destruct (text_run r) as [a' b'] eqn:R. injection E as <- <-. eauto.
Qed.

Lemma lex_text_run : forall r a b, text_run r = (a, b) ->
  lex r = match a with [] => lex b | _ => bind (lex b) (fun ks => Ok (TText a :: ks)) end.
Proof.
  intros r a b E. destruct a as [|x a].
  - apply text_run_spec in E. cbn in E. subst. reflexivity.
  - apply lex_step. destruct r as [|c r]; [discriminate|]. pose proof E as E'. cbn [text_run] in E.
    destruct ((c =? ch_open) || (c =? ch_esc))%Z eqn:B; [discriminate|]. apply orb_false_iff in B as [B1 B2].
    cbn [lex_one]. rewrite B1, B2, E'. reflexivity.
Qed.

Lemma parse_from_char : forall p c r, c <> ch_open -> c <> ch_esc ->
  parse_from p (c :: r) = parse_from (push_text p [c]) r.
Proof.
  intros p c r H1 H2. unfold parse_from. destruct (text_run r) as [a b] eqn:R.
  assert (B : ((c =? ch_open) || (c =? ch_esc))%Z = false)
    by (apply orb_false_iff; split; apply Z.eqb_neq; assumption).
  rewrite (lex_text_run (c :: r) (c :: a) b) by (cbn [text_run]; rewrite B, R; reflexivity).
  rewrite (lex_text_run r a b R).
  destruct a as [|x a]; destruct (lex b) as [ks| |]; try reflexivity; cbn [bind Markup_Model.process_tokens Markup_Model.process_token].
  rewrite push_text_app. reflexivity.
Qed.

Lemma parse_from_esc : forall p c r, c = ch_open \/ c = ch_close \/ c = ch_esc ->
  parse_from p (ch_esc :: c :: r) = parse_from (push_text p [c]) r.
Proof.
  intros p c r H. unfold parse_from. rewrite (lex_step (ch_esc :: c :: r) (TEsc c) r).
  - destruct (lex r); reflexivity.
  - destruct H as [->|[->| ->]]; reflexivity.
Qed.

Lemma parse_from_tag : forall p r k rest p', consume_tag r = Some (k, rest) -> process_token p k = Ok p' ->
  parse_from p (ch_open :: r) = parse_from p' rest.
Proof.
  intros p r k rest p' C K. unfold parse_from. rewrite (lex_step (ch_open :: r) k rest) by exact C.
  destruct (lex rest); try reflexivity. cbn [bind Markup_Model.process_tokens]. rewrite K. reflexivity.
Qed.

(** *** escaping *)

Lemma parse_from_escape_char : forall c p r, parse_from p (escape_char c ++ r) = parse_from (push_text p [c]) r.
Proof.
  intros c p r. unfold escape_char.
  destruct (Z.eqb_spec c ch_open); [subst; apply parse_from_esc; auto|].
  destruct (Z.eqb_spec c ch_close); [subst; apply parse_from_esc; auto|].
  destruct (Z.eqb_spec c ch_esc); [subst; apply parse_from_esc; auto|].
  apply parse_from_char; assumption.
Qed.

Lemma parse_from_escape : forall t p r, parse_from p (escape_markup t ++ r) = parse_from (push_text p t) r.
Proof.
  induction t as [|c t IH]; intros p r; cbn [escape_markup flat_map].
  - rewrite push_text_nil. reflexivity.
  - rewrite <- app_assoc, parse_from_escape_char. fold (escape_markup t). rewrite IH, push_text_app. reflexivity.
Qed.

Lemma escape_roundtrip : forall t, parse (escape_markup t) = Ok (Parsed t []).
Proof.
  intros t. rewrite parse_parse_from, <- (app_nil_r (escape_markup t)), parse_from_escape, parse_from_nil. reflexivity.
Qed.

(** *** one tag *)

Lemma tag_scan_plain : forall tag rest, Forall plain_char tag -> tag_scan 1 (tag ++ ch_close :: rest) = Some (tag, rest).
Proof.
  induction tag as [|c tag IH]; intros rest H; [reflexivity|]. inversion H as [|? ? (H1 & H2 & H3) H']; subst.
  apply Z.eqb_neq in H1, H2, H3. cbn [app tag_scan]. rewrite H1, H2, H3, IH by assumption. reflexivity.
Qed.

Lemma parse_from_open : forall p tag rest p', Forall plain_char tag -> tag <> [] -> nth_error tag 0 <> Some ch_slash ->
  process_open lower known_color p tag = Ok p' ->
  parse_from p (ch_open :: tag ++ ch_close :: rest) = parse_from p' rest.
Proof.
  intros p tag rest p' HP HN HS E. apply parse_from_tag with (k := TOpen tag); [|exact E].
  unfold consume_tag. rewrite tag_scan_plain by exact HP. destruct tag as [|c tag]; [contradiction|].
  cbn [tag_token]. cbn in HS. destruct (Z.eqb_spec c ch_slash); [subst; contradiction|]. reflexivity.
Qed.

Lemma parse_from_close : forall p rest,
  parse_from p (ch_open :: ch_slash :: ch_close :: rest) = parse_from (pop_style p) rest.
Proof. intros p rest. apply parse_from_tag with (k := TClose None); reflexivity. Qed.

(** *** span invariants *)

Definition spans_ordered (l : list span) : Prop :=
  forall i j a b, i < j -> nth_error l i = Some a -> nth_error l j = Some b ->
    sp_end a <= sp_end b /\ (sp_end a <= sp_start b \/ sp_start b <= sp_start a).

Record inv (stack : list entry) (out : text) (spans : list span) : Prop := {
  iv_stack : forall e, In e stack -> boundary out (e_start e);
  iv_sorted : forall i j a b, i < j -> nth_error stack i = Some a -> nth_error stack j = Some b -> e_start b <= e_start a;
  iv_spans : forall s, In s spans -> span_ok out s;
  iv_order : spans_ordered spans;
  iv_cross : forall s e, In s spans -> In e stack -> sp_end s <= e_start e \/ e_start e <= sp_start s }.

Lemma boundary_le : forall t n, boundary t n -> n <= blen t.
Proof. intros t n (a & b & -> & ->). rewrite blen_app. lia. Qed.

Lemma boundary_app : forall t u n, boundary t n -> boundary (t ++ u) n.
Proof. intros t u n (a & b & -> & ->). exists a, (b ++ u). rewrite app_assoc. auto. Qed.

Lemma boundary_end : forall t, boundary t (blen t).
Proof. intros t. exists t, []. rewrite app_nil_r. auto. Qed.

Lemma inv_pop : forall e st out spans, inv (e :: st) out spans ->
  inv st out (ps_spans (create_span (Parser st out spans) e)).
Proof.
  intros e st out spans [H1 H2 H3 H4 H5]. unfold create_span. cbn [ps_out ps_stack ps_spans].
  assert (Hst : forall e', In e' st -> boundary out (e_start e')) by (intros; apply H1; right; assumption).
  assert (Hso : forall i j a b, i < j -> nth_error st i = Some a -> nth_error st j = Some b -> e_start b <= e_start a)
    by (intros i j a b Hij Ea Eb; apply (H2 (S i) (S j)); [lia|exact Ea|exact Eb]).
  assert (Hcr : forall s e', In s spans -> In e' st -> sp_end s <= e_start e' \/ e_start e' <= sp_start s)
    by (intros; apply H5; [assumption|right; assumption]).
  destruct (Nat.ltb_spec (e_start e) (blen out)) as [L|L]; cbn [andb]; [|constructor; assumption].
  match goal with |- context [if ?b then _ else _] => destruct b end; cbn [ps_spans]; [|constructor; assumption].
  assert (Hlow : forall e', In e' st -> e_start e' <= e_start e).
  { intros e' HI. apply In_nth_error in HI as [j Ej]. apply (H2 0 (S j)); [lia|reflexivity|exact Ej]. }
  constructor; auto.
  - intros s HI. apply in_app_or in HI as [HI|[<-|[]]]; [auto|]. split; [exact L|]. cbn. split; [|apply boundary_end].
    apply H1. left. reflexivity.
  - intros i j a b Hij Ea Eb. destruct (Nat.lt_ge_cases j (length spans)) as [Hj|Hj].
    + rewrite nth_error_app1 in Ea, Eb by lia. exact (H4 i j a b Hij Ea Eb).
    + rewrite nth_error_app2 in Eb by lia. destruct (j - length spans) as [|k] eqn:Ek; [|destruct k; discriminate].
      injection Eb as <-. rewrite nth_error_app1 in Ea by lia. apply nth_error_In in Ea. cbn.
      split; [apply boundary_le; apply (H3 a Ea)|]. apply H5; [exact Ea|left; reflexivity].
  - intros s e' HI HE. apply in_app_or in HI as [HI|[<-|[]]]; [auto|]. right. cbn. auto.
Qed.

Lemma create_span_fields : forall p e, ps_stack (create_span p e) = ps_stack p /\ ps_out (create_span p e) = ps_out p.
Proof. intros p e. unfold create_span. destruct (_ && _); auto. Qed.

Definition pinv (p : parser) : Prop := inv (ps_stack p) (ps_out p) (ps_spans p).

Lemma inv_closes : forall closed rest p, inv (closed ++ rest) (ps_out p) (ps_spans p) -> ps_stack p = rest ->
  pinv (fold_left create_span closed p).
Proof.
  induction closed as [|e closed IH]; intros rest p H E; cbn [fold_left app] in *.
  - unfold pinv. rewrite E. exact H.
  - destruct (create_span_fields p e) as [F1 F2]. apply IH with (rest := rest); [|congruence].
    rewrite F2. apply inv_pop in H.
    replace (ps_spans (create_span p e)) with (ps_spans (create_span (Parser (closed ++ rest) (ps_out p) (ps_spans p)) e)); [exact H|].
    unfold create_span. cbn. destruct (_ && _); reflexivity.
Qed.

Lemma pop_until_app : forall name st closed rest, pop_until lower name st = (closed, rest) -> st = closed ++ rest.
Proof.
  intros name. induction st as [|e st IH]; intros closed rest E; cbn [pop_until] in E; [injection E as <- <-; reflexivity|].
  destruct (entry_matches lower e name); [injection E as <- <-; reflexivity|].
  destruct (pop_until lower name st) as [c r] eqn:R. injection E as <- <-. cbn. f_equal. auto.
Qed.

Lemma pinv_pop_matching : forall p n, pinv p -> pinv (pop_style_matching lower p n).
Proof.
  intros p n H. unfold pop_style_matching. destruct (pop_until lower n (ps_stack p)) as [closed rest] eqn:E.
  apply inv_closes with (rest := rest); [|reflexivity]. cbn. apply pop_until_app in E. rewrite <- E. exact H.
Qed.

Lemma pinv_pop : forall p, pinv p -> pinv (pop_style p).
Proof.
  intros p H. unfold pop_style. destruct (ps_stack p) as [|e r] eqn:E; [exact H|].
  apply (inv_closes [e] r (set_stack p r)); [|reflexivity]. cbn. rewrite <- E. exact H.
Qed.

Lemma pinv_push_text : forall p t, pinv p -> pinv (push_text p t).
Proof.
  intros p t [H1 H2 H3 H4 H5]. constructor; cbn; auto.
  - intros. apply boundary_app. auto.
  - intros s HI. destruct (H3 s HI) as (A & B & C). split; [exact A|]. split; apply boundary_app; assumption.
Qed.

Lemma pinv_push_style : forall p s m tag, pinv p -> pinv (push_style p s m tag).
Proof.
  intros p s m tag [H1 H2 H3 H4 H5]. constructor; cbn; auto.
  - intros e [<-|HI]; [cbn; apply boundary_end|auto].
  - intros [|i] [|j] a b Hij Ea Eb; cbn in Ea, Eb; try lia.
    + injection Ea as <-. cbn. apply boundary_le. apply H1. eapply nth_error_In; eauto.
    + apply (H2 i j); auto; lia.
  - intros x e HI [<-|HE]; [|auto]. left. cbn. apply boundary_le. apply H3. exact HI.
Qed.

Lemma pinv_token : forall k p p', pinv p -> process_token p k = Ok p' -> pinv p'.
Proof.
  intros [t|t|[n|]|c] p p' H E; cbn in E; try (injection E as <-).
  - apply pinv_push_text, H.
  - unfold process_open in E. destruct (tag_parse t) as [k| |]; cbn in E; try discriminate.
    destruct k; injection E as <-; auto using pinv_push_style, pinv_pop, pinv_pop_matching.
  - apply pinv_pop_matching, H.
  - apply pinv_pop, H.
  - apply pinv_push_text, H.
Qed.

Lemma pinv_tokens : forall ks p p', pinv p -> process_tokens p ks = Ok p' -> pinv p'.
Proof.
  induction ks as [|k ks IH]; intros p p' H E; cbn [Markup_Model.process_tokens] in E; [injection E as <-; exact H|].
  destruct (process_token p k) as [q| |] eqn:K; cbn in E; try discriminate. eauto using pinv_token.
Qed.

Lemma pinv_new : pinv parser_new.
Proof.
  constructor; cbn; try contradiction; try (intros [|i]; intros; discriminate).
Qed.

Lemma pinv_close_all : forall p, pinv p -> pinv (close_all p).
Proof.
  intros p H. unfold close_all. apply inv_closes with (rest := []); [|reflexivity]. rewrite app_nil_r. exact H.
Qed.

Lemma parse_inv : forall t m, parse t = Ok m ->
  (forall s, In s (pm_spans m) -> span_ok (pm_text m) s) /\ spans_ordered (pm_spans m).
Proof.
  intros t m E. rewrite parse_parse_from in E. unfold parse_from in E.
  destruct (lex t) as [ks| |]; cbn in E; try discriminate.
  destruct (process_tokens parser_new ks) as [p| |] eqn:P; cbn in E; try discriminate. injection E as <-. cbn.
  pose proof (pinv_close_all p (pinv_tokens _ _ _ pinv_new P)) as [_ _ A B _]. auto.
Qed.

(** *** segments *)

(** next boundary: no span edge strictly between [pos] and it *)
Definition edge (m : parsed) (n : nat) : Prop := exists s, In s (pm_spans m) /\ (n = sp_start s \/ n = sp_end s).

Lemma next_boundary_spec : forall m pos, pos < blen (pm_text m) ->
  let e := next_boundary m pos in
  pos < e /\ e <= blen (pm_text m) /\ (e = blen (pm_text m) \/ edge m e) /\
  (forall n, edge m n -> n <= pos \/ e <= n).
Proof.
  intros m pos Hpos. unfold next_boundary, edge. generalize (pm_spans m) as l.
  assert (G : forall l e0, pos < e0 ->
     let e := fold_left (fun e s => let e1 := if (pos <? sp_start s) && (sp_start s <? e) then sp_start s else e in
        if (pos <? sp_end s) && (sp_end s <? e1) then sp_end s else e1) l e0 in
     pos < e /\ e <= e0 /\ (e = e0 \/ exists s, In s l /\ (e = sp_start s \/ e = sp_end s)) /\
     (forall s, In s l -> (sp_start s <= pos \/ e <= sp_start s) /\ (sp_end s <= pos \/ e <= sp_end s))).
  { induction l as [|s l IH]; intros e0 H0; cbn [fold_left].
    - cbn. split; [exact H0|]. split; [lia|]. split; [auto|]. intros s [].
    - cbn zeta. 
      set (e1 := if (pos <? sp_start s) && (sp_start s <? e0) then sp_start s else e0).
      set (e2 := if (pos <? sp_end s) && (sp_end s <? e1) then sp_end s else e1).
      assert (F : pos < e2 /\ e2 <= e0 /\ (e2 = e0 \/ e2 = sp_start s \/ e2 = sp_end s) /\
        (sp_start s <= pos \/ e2 <= sp_start s) /\ (sp_end s <= pos \/ e2 <= sp_end s)).
      { unfold e2, e1. destruct (Nat.ltb_spec pos (sp_start s)), (Nat.ltb_spec (sp_start s) e0); cbn [andb];
        destruct (Nat.ltb_spec pos (sp_end s)); cbn [andb];
        try match goal with |- context [sp_end s <? ?x] => destruct (Nat.ltb_spec (sp_end s) x) end; lia. }
      destruct F as (F1 & F2 & F3 & F4 & F5). destruct (IH e2 F1) as (I1 & I2 & I3 & I4). cbn zeta in *.
      split; [exact I1|]. split; [lia|]. split.
      + destruct I3 as [->|(x & HI & HX)]; [|right; exists x; split; [right|]; assumption].
        destruct F3 as [->|F3]; [auto|]. right. exists s. split; [left; reflexivity|exact F3].
      + intros x [<-|HI]; [lia|auto]. }
  intros l. destruct (G l (blen (pm_text m)) Hpos) as (G1 & G2 & G3 & G4). cbn zeta in *.
  split; [exact G1|]. split; [exact G2|]. split; [exact G3|].
  intros n (s & HI & [->| ->]); apply (G4 s HI).
Qed.

(** off-boundary span edges beyond the text are harmless *)
Definition edges_ok (m : parsed) : Prop := forall n, edge m n -> n <= blen (pm_text m) -> boundary (pm_text m) n.

Lemma segments_spec_aux : forall n m pre rest, edges_ok m -> pm_text m = pre ++ rest -> length rest <= n ->
  exists l, segments_fuel n m (blen pre) = Some l /\
    concat (map (fun x => fst (fst x)) l) = rest /\
    each_at (fun pos t (a : style * list (text * text)) => t <> [] /\
      fst a = style_at m pos /\ snd a = meta_at m pos /\
      forall e, edge m e -> e <= pos \/ pos + blen t <= e) (blen pre)
      (map (fun x => (fst (fst x), (snd (fst x), snd x))) l).
Proof.
  induction n as [|n IH]; intros m pre rest HE HT HL.
  - destruct rest; [|cbn in HL; lia]. exists []. cbn [segments_fuel].
    rewrite HT, app_nil_r. rewrite Nat.leb_refl. cbn. auto.
  - destruct rest as [|c rest].
    + exists []. cbn [segments_fuel]. rewrite HT, app_nil_r, Nat.leb_refl. cbn. auto.
    + cbn [segments_fuel]. 
      assert (Hlt : blen pre < blen (pm_text m)).
      { rewrite HT, blen_app, blen_cons. pose proof (utf8_len_pos c). lia. }
      destruct (Nat.leb_spec (blen (pm_text m)) (blen pre)); [lia|].
      destruct (next_boundary_spec m (blen pre) Hlt) as (N1 & N2 & N3 & N4). cbn zeta in *.
      set (e := next_boundary m (blen pre)) in *.
      assert (Hb : boundary (pm_text m) e).
      { destruct N3 as [->|N3]; [apply boundary_end|]. apply HE; assumption. }
      destruct Hb as (u & v & Huv & Hu).
      assert (exists mid, u = pre ++ mid) as [mid ->].
      { rewrite HT in Huv. clear - Huv N1 Hu. subst e. revert u Huv N1 Hu. generalize (c :: rest) as w.
        induction pre as [|x pre IHp]; intros w u Huv N1 Hu; [exists u; reflexivity|].
        destruct u as [|y u]; [rewrite Hu in N1; unfold blen in N1 at 2; cbn in N1; lia|].
        cbn [app] in Huv. injection Huv as <- Huv. rewrite Hu in N1. rewrite !blen_cons in N1.
        assert (exists mid, u = pre ++ mid) as [mid ->].
        { clear - Huv N1 IHp. assert (N1' : blen pre < blen u) by lia. clear N1 IHp.
          revert u Huv N1'. induction pre as [|p pre IHq]; intros u Huv N; [exists u; reflexivity|].
          destruct u as [|q u]; [unfold blen in N at 2; cbn in N; lia|]. cbn [app] in Huv. injection Huv as <- Huv.
          rewrite !blen_cons in N. destruct (IHq u Huv) as [mid ->]; [lia|]. exists mid. reflexivity. }
        exists mid. reflexivity. }
      rewrite <- app_assoc in Huv. rewrite Huv. rewrite HT in Huv. apply app_inv_head in Huv.
      rewrite Hu, blen_app, bslice_mid.
      assert (Hm : mid <> []) by (intros ->; rewrite app_nil_r in Hu; lia).
      destruct (IH m (pre ++ mid) v HE) as (l & E & C & S).
      * rewrite HT, Huv, app_assoc. reflexivity.
      * assert (length (c :: rest) = length mid + length v) by (rewrite Huv, app_length; reflexivity).
        destruct mid; [contradiction|]. cbn [length] in *. lia.
      * rewrite blen_app in E. rewrite E. cbn [option_map]. eexists. split; [reflexivity|].
        cbn [map concat fst snd each_at]. rewrite C. split; [symmetry; exact Huv|]. split.
        -- split; [exact Hm|]. split; [reflexivity|]. split; [reflexivity|]. 
           intros x Hx. rewrite <- blen_app, <- Hu. auto.
        -- rewrite <- blen_app. exact S.
Qed.

Lemma span_contains_spec : forall s off, span_contains s off = true <-> covers s off.
Proof.
  intros s off. unfold span_contains, covers. rewrite andb_true_iff, Nat.leb_le, Nat.ltb_lt. tauto.
Qed.

Lemma fold_left_ext_in : forall A B (f g : A -> B -> A) l a, (forall x y, In y l -> f x y = g x y) ->
  fold_left f l a = fold_left g l a.
Proof.
  induction l as [|y l IH]; intros a H; cbn; [reflexivity|]. rewrite (H a y) by (left; reflexivity).
  apply IH. intros. apply H. right. assumption.
Qed.

Lemma same_cover : forall m pos off len s, (forall e, edge m e -> e <= pos \/ pos + len <= e) ->
  pos <= off < pos + len -> In s (pm_spans m) -> span_contains s pos = span_contains s off.
Proof.
  intros m pos off len s H R HI.
  assert (A : sp_start s <= pos \/ pos + len <= sp_start s) by (apply H; exists s; auto).
  assert (B : sp_end s <= pos \/ pos + len <= sp_end s) by (apply H; exists s; auto).
  apply eq_true_iff_eq. rewrite !span_contains_spec. unfold covers. lia.
Qed.

Lemma style_at_same : forall m pos off len, (forall e, edge m e -> e <= pos \/ pos + len <= e) ->
  pos <= off < pos + len -> style_at m pos = style_at m off /\ meta_at m pos = meta_at m off.
Proof.
  intros m pos off len H R. split; apply fold_left_ext_in; intros x s HI; rewrite (same_cover m pos off len s H R HI); reflexivity.
Qed.

Lemma each_at_impl : forall A (P Q : nat -> text -> A -> Prop) l pos,
  (forall p t a, P p t a -> Q p t a) -> each_at P pos l -> each_at Q pos l.
Proof. induction l as [|[t a] l IH]; intros pos H E; cbn in *; [exact I|]. destruct E. split; auto. Qed.

Lemma blen_length : forall t, length t <= blen t.
Proof. induction t as [|c t IH]; [cbn; lia|]. rewrite blen_cons. pose proof (utf8_len_pos c). cbn. lia. Qed.

Lemma segments_spec : forall m, edges_ok m ->
  exists l, segments m = Some l /\
    concat (map (fun x => fst (fst x)) l) = pm_text m /\
    each_at (fun pos t (a : style * list (text * text)) => t <> [] /\
      forall off, pos <= off < pos + blen t -> fst a = style_at m off /\ snd a = meta_at m off) 0
      (map (fun x => (fst (fst x), (snd (fst x), snd x))) l).
Proof.
  intros m HE. destruct (segments_spec_aux (blen (pm_text m)) m [] (pm_text m) HE eq_refl (blen_length _)) as (l & E & C & S).
  exists l. split; [exact E|]. split; [exact C|]. eapply each_at_impl; [|exact S].
  intros p t a (N & F1 & F2 & H). split; [exact N|]. intros off R.
  destruct (style_at_same m p off (blen t) H R) as [A B]. rewrite <- A, <- B. auto.
Qed.

Lemma parsed_edges_ok : forall t m, parse t = Ok m -> edges_ok m.
Proof.
  intros t m E n (s & HI & Hn) _. destruct (parse_inv t m E) as [A _]. destruct (A s HI) as (_ & B & C).
  destruct Hn as [->| ->]; assumption.
Qed.

(** *** which colour wins *)

Lemma style_at_fg : forall m off l1 s l2 c, pm_spans m = l1 ++ s :: l2 -> covers s off -> s_fg (sp_style s) = Some c ->
  (forall x, In x l2 -> covers x off -> s_fg (sp_style x) = None) -> s_fg (style_at m off) = Some c.
Proof.
  intros m off l1 s l2 c E HC HF HN. unfold style_at. rewrite E, fold_left_app. cbn [fold_left].
  apply span_contains_spec in HC. rewrite HC.
  match goal with |- context [fold_left ?f l2 ?x] => set (a := x); assert (Ha : s_fg a = Some c) by (unfold a; cbn; rewrite HF; reflexivity) end.
  clearbody a. clear E. revert a Ha. induction l2 as [|x l2 IH]; intros a Ha; cbn [fold_left]; [exact Ha|].
  apply IH; [intros; apply HN; [right|]; assumption|].
  destruct (span_contains x off) eqn:B; [|exact Ha]. cbn. rewrite (HN x); [exact Ha|left; reflexivity|apply span_contains_spec; exact B].
Qed.

Lemma later_encloses : forall t m off l1 s l2 x, parse t = Ok m -> pm_spans m = l1 ++ s :: l2 -> In x l2 ->
  covers s off -> covers x off -> encloses x s.
Proof.
  intros t m off l1 s l2 x E ES HI [C1 C2] [D1 D2]. destruct (parse_inv t m E) as [_ O].
  apply In_nth_error in HI as [k Hk].
  destruct (O (length l1) (S (length l1 + k)) s x) as [A B]; [lia| | |].
  - rewrite ES, nth_error_app2, Nat.sub_diag by lia. reflexivity.
  - rewrite ES, nth_error_app2 by lia. replace (S (length l1 + k) - length l1) with (S k) by lia. exact Hk.
  - unfold encloses. lia.
Qed.

Lemma pop_styled : forall st out sp s n tag, n < blen out -> style_is_empty s = false ->
  pop_style (Parser (Entry s [] n tag :: st) out sp) = Parser st out (sp ++ [Span n (blen out) s []]).
Proof.
  intros st out sp s n tag L E. unfold pop_style, create_span, set_stack.
  cbn [ps_stack ps_out ps_spans e_start e_style e_meta]. apply Nat.ltb_lt in L. rewrite L, E. reflexivity.
Qed.

(** nested tags both setting the foreground: the outer one wins *)
Lemma nested_outer_wins : forall a b sa sb ca cb t,
  Forall plain_char a -> Forall plain_char b -> nth_error a 0 <> Some ch_slash -> nth_error b 0 <> Some ch_slash ->
  tag_parse a = Ok (TagStyle sa) -> tag_parse b = Ok (TagStyle sb) -> s_fg sa = Some ca -> s_fg sb = Some cb ->
  t <> [] ->
  exists m, parse (tagged a (tagged b (escape_markup t))) = Ok m /\ pm_text m = t /\
    forall off, off < blen t -> s_fg (style_at m off) = Some ca.
Proof.
  intros a b sa sb ca cb t Pa Pb Na Nb Ta Tb Fa Fb Ht.
  assert (Ha : a <> []) by (intros ->; discriminate). assert (Hb : b <> []) by (intros ->; discriminate).
  assert (Lt : 0 < blen t) by (destruct t as [|c t]; [contradiction|]; rewrite blen_cons; pose proof (utf8_len_pos c); lia).
  exists (Parsed t [Span 0 (blen t) sb []; Span 0 (blen t) sa []]). split.
  - unfold tagged. rewrite parse_parse_from.
    rewrite (parse_from_open _ a _ (push_style parser_new sa [] a)); auto; [|unfold process_open; rewrite Ta; reflexivity].
    rewrite <- app_comm_cons, <- app_assoc.
    cbn [app]. rewrite <- app_assoc.
    rewrite (parse_from_open _ b _ (push_style (push_style parser_new sa [] a) sb [] b)); auto; [|unfold process_open; rewrite Tb; reflexivity].
    rewrite parse_from_escape. cbn [app]. rewrite !parse_from_close, parse_from_nil.
    assert (E1 : style_is_empty sb = false) by (unfold style_is_empty; rewrite Fb; reflexivity).
    assert (E2 : style_is_empty sa = false) by (unfold style_is_empty; rewrite Fa; rewrite ?andb_false_r; reflexivity).
    unfold push_style, push_text, set_stack, parser_new. cbn [ps_stack ps_out ps_spans app].
    change (blen []) with 0. rewrite !pop_styled by assumption. reflexivity.
  - split; [reflexivity|]. intros off Ho. apply style_at_fg with (l1 := [Span 0 (blen t) sb []]) (s := Span 0 (blen t) sa []) (l2 := []); auto.
    + unfold covers. cbn. lia.
    + intros x [].
Qed.

(** *** ASCII markup never panics *)

Lemma ascii_utf8 : forall c, (0 <= c < 128)%Z -> utf8_len c = 1.
Proof. intros c H. unfold utf8_len. destruct (Z.ltb_spec c 128); [reflexivity|lia]. Qed.

Lemma ascii_blen : forall t, ascii t -> blen t = length t.
Proof.
  induction t as [|c t IH]; intros H; [reflexivity|]. inversion H; subst. rewrite blen_cons, ascii_utf8, IH by assumption. reflexivity.
Qed.

Lemma bind_ok : forall A B (r : res A) (f : A -> res B), r <> Panic -> (forall a, r = Ok a -> f a <> Panic) -> bind r f <> Panic.
Proof. intros A B [a| |] f H1 H2; cbn; [auto|discriminate|contradiction]. Qed.

Lemma hex_digit_np : forall c, hex_digit c <> Panic.
Proof. intros c. unfold hex_digit. repeat (destruct (_ && _)); discriminate. Qed.

Lemma hex_pair_np : forall a b, hex_pair a b <> Panic.
Proof. intros. apply bind_ok; [apply hex_digit_np|]. intros. apply bind_ok; [apply hex_digit_np|]. discriminate. Qed.

Lemma nth_char_np : forall t i, i < length t -> nth_char t i <> Panic.
Proof. intros t i H. unfold nth_char. destruct (nth_error t i) eqn:E; [discriminate|]. apply nth_error_None in E. lia. Qed.

Lemma hex_pair_at_np : forall t i, S i < length t -> hex_pair_at t i <> Panic.
Proof.
  intros t i H. unfold hex_pair_at. apply bind_ok; [apply nth_char_np; lia|]. intros a _.
  apply bind_ok; [apply nth_char_np; lia|]. intros b _. apply hex_pair_np.
Qed.

Lemma parse_hex_np : forall t, ascii t -> parse_hex t <> Panic.
Proof.
  intros t H. unfold parse_hex. rewrite (ascii_blen t H).
  destruct (length t) as [|[|[|[|[|[|[|n]]]]]]] eqn:L; try discriminate.
  - repeat (apply bind_ok; [apply bind_ok; [apply nth_char_np; lia|intros; apply hex_digit_np]|intros]). discriminate.
  - repeat (apply bind_ok; [apply hex_pair_at_np; lia|intros]). discriminate.
Qed.

Lemma u8_np : forall t, u8 t <> Panic.
Proof. intros t. unfold u8. destruct (parse_unsigned 255 t); discriminate. Qed.

Lemma ascii_trim_start : forall t, ascii t -> ascii (trim_start t).
Proof. induction t as [|c t IH]; intros H; cbn; [exact H|]. destruct (is_ws c); [apply IH; inversion H; assumption|exact H]. Qed.

Lemma ascii_rev : forall t, ascii t -> ascii (rev t).
Proof. intros t H. apply Forall_rev. exact H. Qed.

Lemma ascii_trim : forall t, ascii t -> ascii (trim t).
Proof. intros t H. unfold trim, trim_end. apply ascii_rev, ascii_trim_start, ascii_rev, ascii_trim_start, H. Qed.

Lemma ascii_split_ws : forall t, ascii t -> Forall ascii (split_ws t).
Proof.
  intros t H. unfold split_ws.
  assert (A : Forall ascii (split_ws_all t)).
  { induction H as [|c t Hc H IH]; cbn [split_ws_all]; [repeat constructor|].
    destruct (is_ws c); [constructor; [constructor|exact IH]|].
    destruct (split_ws_all t) as [|p ps]; [repeat constructor; apply Hc|]. inversion IH; subst.
    constructor; [constructor; assumption|assumption]. }
  rewrite Forall_forall in *. intros w Hw. apply filter_In in Hw as [Hw _]. auto.
Qed.

Hypothesis lower_ascii : forall t, ascii t -> ascii (lower t).

Lemma color_parse_np : forall t, ascii t -> color_parse lower known_color t <> Panic.
Proof.
  intros t H. unfold color_parse. apply ascii_trim in H. destruct (trim t) as [|c r] eqn:E; [discriminate|].
  destruct (c =? 35)%Z; [apply parse_hex_np; inversion H; assumption|].
  destruct (_ && _).
  - unfold parse_rgb_func. destruct (map trim _) as [|a [|b [|d [|]]]]; try discriminate.
    repeat (apply bind_ok; [apply u8_np|intros]). discriminate.
  - unfold parse_named. destruct (known_color _); discriminate.
Qed.

Lemma style_words_np : forall n ws s, length ws <= n -> Forall ascii ws -> style_words lower known_color s ws <> Panic.
Proof.
  induction n as [|n IH]; intros [|w ws] s L H; cbn [style_words length] in *; try discriminate; try lia.
  inversion H as [|? ? Hw Hws]; subst. destruct (text_eqb _ _).
  - destruct ws as [|cw r2]; [discriminate|]. inversion Hws; subst. apply bind_ok; [apply color_parse_np; assumption|].
    intros. apply IH; [cbn in L; lia|assumption].
  - destruct (parse_modifier _); [apply IH; [lia|assumption]|].
    pose proof (color_parse_np (lower w) (lower_ascii w Hw)). pose proof (color_parse_np w Hw).
    destruct (color_parse lower known_color (lower w)); try contradiction; [apply IH; [lia|assumption]|].
    destruct (color_parse lower known_color w); try contradiction; [apply IH; [lia|assumption]|discriminate].
Qed.

Lemma tag_parse_np : forall t, ascii t -> tag_parse t <> Panic.
Proof.
  intros t H. unfold Markup_Model.tag_parse. apply ascii_trim in H. destruct (trim t) as [|c r] eqn:E; [discriminate|].
  destruct (c =? ch_slash)%Z; [destruct (trim r); discriminate|]. destruct (c =? 64)%Z; [discriminate|].
  destruct (_ || _); [discriminate|]. apply bind_ok; [|discriminate].
  unfold style_parse. apply ascii_trim in H. destruct (trim (c :: r)) as [|c' r'] eqn:E'; [discriminate|].
  eapply style_words_np; [reflexivity|]. apply ascii_split_ws. exact H.
Qed.

Lemma tag_scan_ascii : forall n t d a b, length t <= n -> ascii t -> tag_scan d t = Some (a, b) -> ascii a /\ ascii b.
Proof.
  induction n as [|n IH]; intros [|c r] d a b L H E; cbn [tag_scan length] in *; try discriminate; try lia.
  inversion H as [|? ? Hc Hr]; subst.
  assert (STEP : forall d' r', length r' <= n -> ascii r' -> forall l, ascii l ->
     option_map (fun p : text * text => (l ++ fst p, snd p)) (tag_scan d' r') = Some (a, b) -> ascii a /\ ascii b).
  { intros d' r' L' H' l Hl E'. destruct (tag_scan d' r') as [[a' b']|] eqn:R; [|discriminate]. injection E' as <- <-.
    apply IH in R as [R1 R2]; auto. cbn. split; [apply Forall_app; auto|assumption]. }
  destruct (c =? ch_open)%Z; [eapply (STEP (S d) r); [lia|exact Hr|exact (Forall_cons c Hc (Forall_nil _))|exact E]|].
  destruct (c =? ch_close)%Z.
  { destruct d as [|[|d]]; try (injection E as <- <-; split; [constructor|assumption]).
    eapply (STEP (S d) r); [lia|exact Hr|exact (Forall_cons c Hc (Forall_nil _))|exact E]. }
  destruct (c =? ch_esc)%Z.
  { destruct r as [|c2 r2]; [discriminate|]. inversion Hr as [|? ? Hc2 Hr2]; subst. cbn in L.
    eapply (STEP d r2); [lia|exact Hr2|exact (Forall_cons c Hc (Forall_cons c2 Hc2 (Forall_nil _)))|exact E]. }
  eapply (STEP d r); [lia|exact Hr|exact (Forall_cons c Hc (Forall_nil _))|exact E].
Qed.

Definition token_ascii (k : token) : Prop := match k with TOpen t => ascii t | _ => True end.

Lemma lex_one_ascii : forall t k r, ascii t -> lex_one t = Some (k, r) -> token_ascii k /\ ascii r.
Proof.
  intros [|c t] k r H E; cbn [lex_one] in E; [discriminate|]. inversion H as [|? ? Hc Ht]; subst. destruct (c =? ch_open)%Z.
  - unfold consume_tag in E. destruct (tag_scan 1 t) as [[a b]|] eqn:S; [|discriminate].
    apply (tag_scan_ascii (length t)) in S as [Sa Sb]; auto.
    destruct (tag_token a) as [k'|] eqn:K; [|discriminate]. injection E as <- <-. split; [|exact Sb].
    destruct a as [|x a]; [discriminate|]. cbn in K. destruct (x =? ch_slash)%Z.
    + destruct (trim a); injection K as <-; exact I.
    + injection K as <-. exact Sa.
  - destruct (c =? ch_esc)%Z.
    + unfold consume_escape in E. destruct t as [|c2 q]; [discriminate|]. inversion Ht; subst.
      destruct (_ || _)%bool; [|discriminate]. injection E as <- <-. split; [exact I|assumption].
    + destruct (text_run (c :: t)) as [a b] eqn:R. injection E as <- <-. apply text_run_spec in R. rewrite R in H.
      apply Forall_app in H as [_ Hb]. split; [exact I|exact Hb].
Qed.

Lemma lex_ascii : forall n t, ascii t -> match lex_fuel n t with Ok ks => Forall token_ascii ks | Err => True | Panic => False end.
Proof.
  induction n as [|n IH]; intros t H; destruct t as [|c t]; cbn [lex_fuel]; try (constructor; fail); auto.
  destruct (lex_one (c :: t)) as [[k r]|] eqn:E; [|exact I]. apply lex_one_ascii in E as [E1 E2]; [|exact H].
  specialize (IH r E2). destruct (lex_fuel n r); cbn; auto.
Qed.

Lemma tokens_np : forall ks p, Forall token_ascii ks -> process_tokens p ks <> Panic.
Proof.
  induction ks as [|k ks IH]; intros p H; cbn [Markup_Model.process_tokens]; [discriminate|]. inversion H; subst.
  apply bind_ok; [|intros; apply IH; assumption]. destruct k as [t|t|[n|]|c]; cbn; try discriminate.
  unfold process_open. apply bind_ok; [apply tag_parse_np; assumption|]. intros [] _; discriminate.
Qed.

Lemma parse_np : forall t, ascii t -> parse t <> Panic.
Proof.
  intros t H. unfold Markup_Model.parse. pose proof (lex_ascii (length t) t H) as L. unfold lex.
  destruct (lex_fuel (length t) t) as [ks| |]; cbn; [|discriminate|contradiction].
  apply bind_ok; [apply tokens_np; exact L|]. discriminate.
Qed.
End P.
