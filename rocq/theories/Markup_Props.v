(** C18-C21 and C59: markup text. *)
From Coq Require Import String ZArith List Bool Arith.
From Verif Require Import Text_Model Markup_Model Markup_Spec Markup_Proofs.
Import ListNotations.
Local Open Scope nat_scope.

Section Props.
Variable lower : text -> text.          (* str::to_lowercase *)
Variable known_color : text -> bool.    (* the table of colour names *)
Notation parse := (parse lower known_color).
Notation tag_parse := (tag_parse lower known_color).

(** C18: parsing the escaped form of any text gives back exactly that text,
    with no styling. *)
Theorem C18_escape_roundtrip : forall t, parse (escape_markup t) = Ok (Parsed t []).
Proof. exact (escape_roundtrip lower known_color). Qed.

(** C18: escaping composes with surrounding markup: an escaped text inside a tag
    contributes exactly its characters. *)
Theorem C18_escape_inside_tag : forall tag st t, Forall plain_char tag -> nth_error tag 0 <> Some ch_slash ->
  tag_parse tag = Ok (TagStyle st) -> style_is_empty st = false -> t <> [] ->
  parse (tagged tag (escape_markup t)) = Ok (Parsed t [Span 0 (blen t) st []]).
Proof.
  intros tag st t P N T E Ht.
  assert (Htag : tag <> []) by (intros ->; discriminate).
  assert (Lt : 0 < blen t) by (destruct t as [|c t]; [contradiction|]; rewrite blen_cons; pose proof (utf8_len_pos c); apply Nat.lt_lt_add_r; assumption).
  unfold tagged. rewrite parse_parse_from.
  rewrite (parse_from_open _ _ _ tag _ (push_style parser_new st [] tag)); auto; [|unfold process_open; rewrite T; reflexivity].
  rewrite parse_from_escape, parse_from_close, parse_from_nil.
  unfold push_style, push_text, set_stack, parser_new. cbn [ps_stack ps_out ps_spans app].
  change (blen []) with 0. rewrite pop_styled by assumption. reflexivity.
Qed.

(** C19: in every successful parse each span covers a non-empty range of whole
    characters of the text, and any two spans are nested or disjoint. *)
Theorem C19_spans_well_formed : forall t m, parse t = Ok m ->
  (forall s, In s (pm_spans m) -> span_ok (pm_text m) s) /\
  (forall i j a b, i <> j -> nth_error (pm_spans m) i = Some a -> nth_error (pm_spans m) j = Some b -> laminar a b).
Proof.
  intros t m E. destruct (parse_inv _ _ _ _ E) as [A B]. split; [exact A|].
  intros i j a b Hij Ea Eb. unfold laminar. apply Nat.lt_gt_cases in Hij as [L|L].
  - destruct (B i j a b L Ea Eb) as [C [D|D]]; auto.
  - destruct (B j i b a L Eb Ea) as [C [D|D]]; auto.
Qed.

(** C20: the segments of a parsed text concatenate to the text; none is empty; the
    style and metadata of a segment are those in force at every byte of it. *)
Theorem C20_segments_of_parse : forall t m, parse t = Ok m ->
  exists l, segments m = Some l /\
    concat (map (fun x => fst (fst x)) l) = pm_text m /\
    each_at (fun pos t (a : style * list (text * text)) => t <> [] /\
      forall off, pos <= off < pos + blen t -> fst a = style_at m off /\ snd a = meta_at m off) 0
      (map (fun x => (fst (fst x), (snd (fst x), snd x))) l).
Proof. intros t m E. apply segments_spec. eapply parsed_edges_ok; eauto. Qed.

(** ... and the same for spans built through the API, as long as they start and
    end between characters or beyond the end of the text. *)
Theorem C20_segments_of_api_spans : forall m,
  (forall s, In s (pm_spans m) ->
     (boundary (pm_text m) (sp_start s) \/ blen (pm_text m) < sp_start s) /\
     (boundary (pm_text m) (sp_end s) \/ blen (pm_text m) < sp_end s)) ->
  exists l, segments m = Some l /\
    concat (map (fun x => fst (fst x)) l) = pm_text m /\
    each_at (fun pos t (a : style * list (text * text)) => t <> [] /\
      forall off, pos <= off < pos + blen t -> fst a = style_at m off /\ snd a = meta_at m off) 0
      (map (fun x => (fst (fst x), (snd (fst x), snd x))) l).
Proof.
  intros m H. apply segments_spec. intros n (s & HI & Hn) L. destruct (H s HI) as [A B].
  destruct Hn as [->| ->]; [destruct A as [A|A]|destruct B as [B|B]]; auto; exfalso; eapply Nat.lt_irrefl, Nat.lt_le_trans; eauto.
Qed.

(** A span that ends inside a character makes the iterator panic. *)
Theorem C20_span_inside_char_refuted : exists m : parsed, segments m = None.
Proof. exists (Parsed [233%Z] [Span 0 1 style_default []]). reflexivity. Qed.

(** C21: "the innermost tag that sets a colour wins" is false for every pair of
    nested tags that set the foreground: the outer one does. *)
Theorem C21_outer_colour_wins_refuted : forall a b sa sb ca cb t,
  Forall plain_char a -> Forall plain_char b -> nth_error a 0 <> Some ch_slash -> nth_error b 0 <> Some ch_slash ->
  tag_parse a = Ok (TagStyle sa) -> tag_parse b = Ok (TagStyle sb) -> s_fg sa = Some ca -> s_fg sb = Some cb ->
  t <> [] ->
  exists m, parse (tagged a (tagged b (escape_markup t))) = Ok m /\ pm_text m = t /\
    forall off, off < blen t -> s_fg (style_at m off) = Some ca.
Proof. exact (nested_outer_wins lower known_color). Qed.

(** What does hold: among the spans covering an offset, later ones enclose earlier
    ones, and the foreground is that of the last - the outermost - that sets one. *)
Theorem C21_outermost_foreground : forall t m off l1 s l2 c, parse t = Ok m ->
  pm_spans m = l1 ++ s :: l2 -> covers s off -> s_fg (sp_style s) = Some c ->
  (forall x, In x l2 -> covers x off -> s_fg (sp_style x) = None) ->
  s_fg (style_at m off) = Some c /\ (forall x, In x l2 -> covers x off -> encloses x s).
Proof.
  intros t m off l1 s l2 c E ES C F N. split; [eapply style_at_fg; eauto|].
  intros x HI CX. eapply later_encloses; eauto.
Qed.

(** C59: no ASCII input makes the parser panic (given that lowercasing keeps ASCII
    text ASCII). *)
Theorem C59_ascii_markup_never_panics : (forall t, ascii t -> ascii (lower t)) ->
  forall t, ascii t -> parse t <> Panic.
Proof. exact (parse_np lower known_color). Qed.
End Props.

(** C59: a non-ASCII character inside a hexadecimal colour does: "[#abcdé]x[/]". *)
Theorem C59_parse_panics_refuted : forall known_color,
  exists t, parse (fun t => t) known_color t = Panic.
Proof. intros k. exists (str "[#abcd" ++ [233%Z] ++ str "]x[/]"). reflexivity. Qed.

(** Witnesses. *)
Definition w_known (t : text) : bool := text_eqb t (str "red") || text_eqb t (str "blue").
Definition w_parse := parse (fun t => t) w_known.

Example C18_witness : w_parse (escape_markup (str "a[b]\c")) = Ok (Parsed (str "a[b]\c") []).
Proof. reflexivity. Qed.

Definition w_red : style := Style (Some (Named (str "red"))) None ts_default.
Example C18_tag_witness :
  Forall plain_char (str "red") /\ nth_error (str "red") 0 <> Some ch_slash /\
  tag_parse (fun t => t) w_known (str "red") = Ok (TagStyle w_red) /\ style_is_empty w_red = false.
Proof.
  split; [|split; [|split]]; try reflexivity; [|discriminate].
  repeat constructor; discriminate.
Qed.

(** nested, adjacent and unclosed tags: three spans *)
Example C19_witness : exists m, w_parse (str "[red]a[bold]b[/]c[/][blue]d") = Ok m /\ length (pm_spans m) = 3.
Proof. eexists. split; vm_compute; reflexivity. Qed.

Example C20_witness : exists m l, w_parse (str "[red]a[bold]b[/]c[/][blue]d") = Ok m /\ segments m = Some l /\
  map (fun x => fst (fst x)) l = [str "a"; str "b"; str "c"; str "d"].
Proof. do 2 eexists. split; [vm_compute; reflexivity|]. split; vm_compute; reflexivity. Qed.

Example C21_witness : exists m, w_parse (tagged (str "red") (tagged (str "blue") (str "x"))) = Ok m /\
  s_fg (style_at m 0) = Some (Named (str "red")).
Proof. eexists. split; vm_compute; reflexivity. Qed.

Example C59_witness : ascii (str "[#abcde]x[/]") /\ w_parse (str "[#abcde]x[/]") = Err.
Proof. split; [repeat constructor; discriminate|reflexivity]. Qed.

Print Assumptions C18_escape_roundtrip.
Print Assumptions C18_escape_inside_tag.
Print Assumptions C19_spans_well_formed.
Print Assumptions C20_segments_of_parse.
Print Assumptions C20_segments_of_api_spans.
Print Assumptions C20_span_inside_char_refuted.
Print Assumptions C21_outer_colour_wins_refuted.
Print Assumptions C21_outermost_foreground.
Print Assumptions C59_ascii_markup_never_panics.
Print Assumptions C59_parse_panics_refuted.
