(** Parsers never lengthen the input, panic only with the colour parser, and
    do not depend on the fuel. *)
From Coq Require Import String ZArith QArith List Bool Lia.
From Verif Require Import Text_Model Css_Model Variables_Model Sheet_Model Sheet_Proofs.
Import ListNotations.
Notation length := List.length.
Open Scope Z_scope.
Open Scope list_scope.

Lemma many_ext : forall X (p q : parser X) n i, (forall j, (length j <= length i)%nat -> p j = q j) ->
  (forall j r a, p j = Ok (r, a) -> (length r <= length j)%nat) -> many0_go n p i = many0_go n q i.
Proof.
  intros X p q n. induction n as [|n IH]; intros i E S; [reflexivity|]. cbn [many0_go]. rewrite <- (E i) by lia.
  destruct (p i) as [[r a]| |] eqn:P; [|reflexivity|reflexivity]. pose proof (S _ _ _ P) as L.
  destruct (length r =? length i)%nat; [reflexivity|]. rewrite IH; [reflexivity| |exact S]. intros j J. apply E. lia.
Qed.
Lemma many_fuel : forall X (p : parser X) n m i, (forall j r a, p j = Ok (r, a) -> (length r <= length j)%nat) ->
  (length i < n)%nat -> (length i < m)%nat -> many0_go n p i = many0_go m p i.
Proof.
  intros X p n. induction n as [|n IH]; intros m i S N M; [lia|]. destruct m as [|m]; [lia|]. cbn [many0_go].
  destruct (p i) as [[r a]| |] eqn:P; [|reflexivity|reflexivity]. pose proof (S _ _ _ P) as L.
  destruct (Nat.eqb_spec (length r) (length i)); [reflexivity|]. rewrite (IH m r) by (assumption || lia). reflexivity.
Qed.
Definition suffix (r i : text) : Prop := exists a, i = a ++ r.
Lemma sf_refl : forall i, suffix i i. Proof. intro i. exists []. reflexivity. Qed.
Lemma sf_trans : forall a b c, suffix a b -> suffix b c -> suffix a c.
Proof. intros a b c [x ->] [y ->]. exists (y ++ x). rewrite app_assoc. reflexivity. Qed.
Lemma sf_cons : forall c r i, suffix r i -> suffix r (c :: i). Proof. intros c r i [a ->]. exists (c :: a). reflexivity. Qed.
Lemma sf_tail : forall c r i, suffix (c :: r) i -> suffix r i. Proof. intros c r i [a ->]. exists (a ++ [c]). rewrite <- app_assoc. reflexivity. Qed.
Lemma sf_len : forall r i, suffix r i -> (length r <= length i)%nat. Proof. intros r i [a ->]. rewrite app_length. lia. Qed.
Lemma span_le : forall p t, suffix (snd (span p t)) t.
Proof. intros p t. exists (fst (span p t)). apply span_join. Qed.
Lemma trim_start_le : forall t, suffix (trim_start t) t.
Proof. induction t as [|c t IH]; [apply sf_refl|]. cbn. destruct (is_ws c); [apply sf_cons; exact IH|apply sf_refl]. Qed.
Lemma split_at_le : forall c t a b, split_at_char c t = Some (a, b) -> suffix (c :: b) t.
Proof.
  intros c. induction t as [|x t IH]; intros a b H; [discriminate|]. cbn in H. destruct (Z.eqb_spec x c); [injection H as <- <-; subst; apply sf_refl|].
  destruct (split_at_char c t) as [[a' b']|]; [|discriminate]. injection H as <- <-. apply sf_cons. exact (IH _ _ eq_refl).
Qed.

Section Good.
Variable alnum : char -> bool.
Variable lower : text -> text.
Variables rnd rnd64 : Q -> Q.
Variables parse_f32 parse_f64 : text -> option Q.
Variable C : Type.
Variable colour : text -> res C.
Variable with_alpha : C -> Q -> C.
Variable theme_colour : text -> C.
Variable transparent : C.
Notation value := (value C).
Notation declaration := (declaration value).
Notation rule := (rule value).
Notation item := (item value).
Definition bad (i : text) : Prop := exists a t b, i = a ++ t ++ b /\ colour t = Panic.
Definition outcome {X} (i : text) (x : res (text * X)) : Prop :=
  match x with Ok (r, _) => suffix r i | Err => True | Panic => bad i end.
Definition good {X} (p : parser X) : Prop := forall i, outcome i (p i).
Lemma out_le : forall X i j (x : res (text * X)), suffix j i -> outcome j x -> outcome i x.
Proof.
  intros X i j [[r a]| |] L H; cbn in *; [exact (sf_trans _ _ _ H L)|exact I|].
  destruct L as [y ->]. destruct H as [a [t [b [-> E]]]]. exists (y ++ a), t, b. rewrite <- app_assoc. auto.
Qed.
Lemma g_bind : forall X Y (p : parser X) (f : X -> parser Y), good p -> (forall a, good (f a)) -> good (pbind p f).
Proof. intros X Y p f P F i. unfold pbind. specialize (P i). destruct (p i) as [[r a]| |]; [|exact I|exact P]. exact (out_le _ _ _ _ P (F a r)). Qed.
Lemma g_ret : forall X (a : X), good (pret a). Proof. intros X a i. apply sf_refl. Qed.
Lemma g_fail : forall X, good (@pfail X). Proof. intros X i. exact I. Qed.
Lemma g_option : forall X (o : option X), good (of_option o). Proof. intros X [a|]; [apply g_ret|apply g_fail]. Qed.
Lemma g_map : forall X Y (p : parser X) (f : X -> Y), good p -> good (pmap p f). Proof. intros. apply g_bind; [assumption|]. intro. apply g_ret. Qed.
Lemma g_pre : forall X Y (p : parser X) (q : parser Y), good p -> good q -> good (preceded p q). Proof. intros. apply g_bind; auto. Qed.
Lemma g_alt : forall X (p q : parser X), good p -> good q -> good (palt p q).
Proof. intros X p q P Q i. unfold palt. specialize (P i). destruct (p i) as [[r a]| |]; [exact P|exact (Q i)|exact P]. Qed.
Lemma g_opt : forall X (p : parser X), good p -> good (popt p).
Proof. intros X p P i. unfold popt. specialize (P i). destruct (p i) as [[r a]| |]; auto. apply sf_refl. Qed.
Lemma g_trim : forall X (p : parser X), good p -> good (trimmed p).
Proof. intros X p P i. exact (out_le _ _ _ _ (trim_start_le i) (P (trim_start i))). Qed.
Lemma g_many : forall X (p : parser X), good p -> good (many0 p).
Proof.
  intros X p P i. unfold many0. generalize (S (length i)). intro n. revert i. induction n as [|n IH]; intro i; [exact I|]. cbn [many0_go].
  specialize (P i). destruct (p i) as [[r a]| |]; [|apply sf_refl|exact P]. destruct (length r =? length i)%nat; [exact I|].
  specialize (IH r). apply (out_le _ i r); [exact P|]. destruct (many0_go n p r) as [[r' l]| |]; exact IH.
Qed.
Lemma g_while : forall p, good (take_while1 p).
Proof. intros p i. unfold take_while1. pose proof (span_le p i). destruct (span p i) as [a b]. cbn in H. destruct (is_nil a); cbn; auto. Qed.
Lemma g_ms0 : good multispace0.
Proof. intros i. unfold multispace0. pose proof (span_le space i). destruct (span space i) as [a b]. exact H. Qed.
Lemma g_char : forall c, good (pchar c). Proof. intros c [|x i]; cbn; auto. destruct (x =? c); cbn; auto. apply sf_cons, sf_refl. Qed.
Lemma g_tag : forall p, good (tag p). Proof. intros p i. unfold tag. destruct (starts_with i p); cbn; auto. exists (firstn (length p) i). symmetry. apply firstn_skipn. Qed.
Lemma g_until : forall c, good (take_until c).
Proof. intros c i. unfold take_until. destruct (split_at_char c i) as [[a b]|] eqn:E; cbn; auto. exact (split_at_le _ _ _ _ E). Qed.
Create HintDb gd.
Hint Resolve g_bind g_ret g_fail g_option g_map g_pre g_alt g_opt g_trim g_many g_while g_ms0 g_char g_tag g_until : gd.
Ltac gd := repeat first [solve [auto 2 with gd] | apply g_trim | apply g_alt | apply g_map | apply g_pre | apply g_opt | apply g_many | apply g_option | apply g_ret | apply g_fail
  | apply g_while | apply g_ms0 | apply g_char | apply g_tag | apply g_until | (apply g_bind; [|intro]) | match goal with |- good (match ?x with _ => _ end) => destruct x end].

(** selectors *)
Lemma g_ident : good (parse_ident alnum). Proof. unfold parse_ident. gd. Qed. Hint Resolve g_ident : gd.
Lemma g_attr : good parse_attribute_selector. Proof. unfold parse_attribute_selector. gd. Qed. Hint Resolve g_attr : gd.
Lemma g_simple : good (parse_simple_selector alnum). Proof. unfold parse_simple_selector. gd. Qed. Hint Resolve g_simple : gd.
Lemma g_compound : good (parse_compound_selector alnum). Proof. unfold parse_compound_selector. gd. Qed. Hint Resolve g_compound : gd.
Lemma g_comb : good parse_combinator. Proof. unfold parse_combinator. gd. Qed.
Lemma g_go : forall n cur, good (complex_go alnum n cur).
Proof.
  induction n as [|n IH]; intros cur i; [exact I|]. cbn [complex_go].
  assert (GO : forall comb r, suffix r i -> outcome i (match parse_compound_selector alnum r with
      | Ok (next, kk) => match complex_go alnum n kk next with Ok (r', parts) => Ok (r', (cur, comb) :: parts) | Err => Err | Panic => Panic end
      | Err => Ok (i, [(cur, CNone)]) | Panic => Panic end)).
  { intros comb r L. pose proof (g_compound r) as P. destruct (parse_compound_selector alnum r) as [[next kk]| |]; [|apply sf_refl|exact (out_le _ _ _ (@Panic (text * complex)) L P)].
    specialize (IH kk next). apply (out_le _ i next); [exact (sf_trans _ _ _ P L)|]. destruct (complex_go alnum n kk next) as [[r' parts]| |]; exact IH. }
  pose proof (span_le space i) as L. destruct (span space i) as [ws rem]. cbn in L. pose proof (g_comb rem) as P.
  destruct (parse_combinator rem) as [[after_op comb]| |]; [| |exact (out_le _ _ _ (@Panic (text * complex)) L P)].
  - cbn in P. apply GO. exact (sf_trans _ _ _ (span_le space after_op) (sf_trans _ _ _ P L)).
  - destruct (is_nil ws); [apply sf_refl|]. apply GO. exact L.
Qed.
Lemma g_complex : good (parse_complex_selector alnum).
Proof.
  intro i. unfold parse_complex_selector, pbind. pose proof (g_compound i) as P. destruct (parse_compound_selector alnum i) as [[r a]| |]; auto.
  exact (out_le _ _ _ _ P (g_go _ a r)).
Qed. Hint Resolve g_complex : gd.
Lemma g_list : good (parse_selector_list alnum). Proof. unfold parse_selector_list. gd. Qed. Hint Resolve g_list : gd.

(** values *)
Lemma g_digit1 : good digit1. Proof. unfold digit1. gd. Qed. Hint Resolve g_digit1 : gd.
Lemma g_ms1 : good multispace1. Proof. unfold multispace1. gd. Qed. Hint Resolve g_ms1 : gd.
Lemma g_number : good (parse_number rnd64). Proof. unfold parse_number. gd. Qed. Hint Resolve g_number : gd.
Lemma g_unit : good parse_unit_suffix. Proof. unfold parse_unit_suffix. gd. Qed. Hint Resolve g_unit : gd.
Lemma g_scalar : good (parse_scalar rnd64). Proof. unfold parse_scalar. gd. Qed. Hint Resolve g_scalar : gd.
Lemma g_spacing : good (parse_spacing rnd64 C). Proof. unfold parse_spacing. gd. Qed. Hint Resolve g_spacing : gd.
Lemma g_pu16 : good plain_u16. Proof. unfold plain_u16. gd. Qed. Hint Resolve g_pu16 : gd.
Lemma g_u16 : good parse_u16. Proof. unfold parse_u16. gd. Qed. Hint Resolve g_u16 : gd.
Lemma g_layout : good parse_layout. Proof. unfold parse_layout. gd. Qed. Hint Resolve g_layout : gd.
Lemma g_grid : good parse_grid_size. Proof. unfold parse_grid_size. gd. Qed. Hint Resolve g_grid : gd.
Lemma g_scalars : good (parse_scalar_list rnd64). Proof. unfold parse_scalar_list. gd. Qed. Hint Resolve g_scalars : gd.
Lemma g_gutter : good (parse_grid_gutter rnd64). Proof. unfold parse_grid_gutter. gd. Qed. Hint Resolve g_gutter : gd.
Lemma g_offset : good (parse_offset rnd64). Proof. unfold parse_offset. gd. Qed. Hint Resolve g_offset : gd.
Lemma percent_le : forall t r a, percent rnd parse_f32 t = Some (r, a) -> suffix r t.
Proof.
  intros t r a. unfold percent. pose proof (span_le digit_or_dot t) as L. destruct (span digit_or_dot t) as [n rest]. cbn in L.
  destruct rest as [|c q]; [discriminate|]. destruct ((c =? 37) && negb (is_nil n)); [|discriminate]. destruct (parse_f32 n); [|discriminate]. intro H. injection H as <- <-. exact (sf_tail _ _ _ L).
Qed.
Lemma alpha_le : forall i c, suffix (fst (parse_optional_alpha rnd parse_f32 C with_alpha i c)) i.
Proof.
  intros i c. unfold parse_optional_alpha. destruct (percent rnd parse_f32 (trim_start i)) as [[r a]|] eqn:E; [|apply sf_refl].
  exact (sf_trans _ _ _ (percent_le _ _ _ E) (trim_start_le i)).
Qed.
Lemma token_le : forall t d, t = fst (colour_token d t) ++ snd (colour_token d t).
Proof.
  induction t as [|c t IH]; intro d; [reflexivity|]. cbn [colour_token].
  destruct (c =? 40); [specialize (IH (d + 1)); destruct (colour_token (d + 1) t); cbn in *; congruence|].
  destruct (c =? 41); [destruct (d - 1 =? 0); [reflexivity|specialize (IH (d - 1)); destruct (colour_token (d - 1) t); cbn in *; congruence]|].
  destruct (((c =? 59) || (c =? 125)) && (d =? 0)); [reflexivity|]. destruct (is_ws c && (d =? 0)); [reflexivity|].
  specialize (IH d). destruct (colour_token d t); cbn in *; congruence.
Qed.
Lemma g_colour : good (parse_color rnd parse_f32 C colour with_alpha theme_colour).
Proof.
  unfold parse_color. apply g_trim. intro i. pose proof (token_le i 0) as L. destruct (colour_token 0 i) as [tok rest]. cbn in L. destruct tok as [|c n]; [exact I|].
  assert (G : forall k, outcome i (Ok (parse_optional_alpha rnd parse_f32 C with_alpha rest k))).
  { intro k. pose proof (alpha_le rest k) as M. destruct (parse_optional_alpha rnd parse_f32 C with_alpha rest k) as [r x].
    apply (sf_trans _ _ _ M). exists (c :: n). exact L. }
  destruct (c =? 36); [apply G|]. destruct (colour (c :: n)) eqn:E; [apply G|exact I|exists [], (c :: n), rest; auto].
Qed. Hint Resolve g_colour : gd.
Lemma g_word : forall X (w : list (string * X)), good (parse_word alnum lower w). Proof. intros. unfold parse_word. gd. Qed. Hint Resolve g_word : gd.
Lemma g_edge : good (parse_border_edge alnum lower rnd parse_f32 C colour with_alpha theme_colour). Proof. unfold parse_border_edge. gd. Qed. Hint Resolve g_edge : gd.
Lemma g_size : good (parse_scrollbar_size C). Proof. unfold parse_scrollbar_size. gd. Qed. Hint Resolve g_size : gd.
Lemma g_overflow : good (parse_overflow_shorthand alnum lower). Proof. unfold parse_overflow_shorthand. gd. Qed. Hint Resolve g_overflow : gd.
Lemma g_box : good (parse_box_sizing alnum lower). Proof. unfold parse_box_sizing. gd. Qed. Hint Resolve g_box : gd.
Lemma g_align : good (parse_content_align alnum lower). Proof. unfold parse_content_align. gd. Qed. Hint Resolve g_align : gd.
Lemma style_words_safe : forall l s, style_words lower s l <> Panic.
Proof.
  induction l as [|w l IH]; intro s; [discriminate|]. cbn [style_words]. destruct (style_word lower s w) eqn:E; cbn; [apply IH|discriminate|].
  exfalso. revert E. unfold style_word. destruct s. repeat match goal with |- context[if ?x then _ else _] => destruct x end; discriminate.
Qed.
Lemma g_style : good (parse_text_style lower).
Proof.
  unfold parse_text_style. apply g_trim. intro i. pose proof (span_le not_end i) as L. destruct (span not_end i) as [a r]. cbn in L.
  destruct (trim a) as [|c n]; [exact I|]. destruct (c =? 36); [exact L|]. pose proof (style_words_safe (split_ws (c :: n)) no_style) as S.
  destruct (style_words lower no_style (split_ws (c :: n))); cbn; [exact L|exact I|congruence].
Qed. Hint Resolve g_style : gd.
Lemma g_layer : good (parse_layer alnum lower). Proof. unfold parse_layer. gd. Qed. Hint Resolve g_layer : gd.
Lemma g_layers : good (parse_layers lower).
Proof.
  unfold parse_layers. apply g_trim. intro i. pose proof (span_le not_end i) as L. destruct (span not_end i) as [a r]. cbn in L.
  destruct (trim a) as [|c n]; [exact I|]. destruct (map lower (split_ws (c :: n))); [exact I|exact L].
Qed. Hint Resolve g_layers : gd.
Lemma g_pattern : good (parse_hatch_pattern alnum lower).
Proof.
  intro i. unfold parse_hatch_pattern. destruct i as [|q r]; [exact I|]. destruct ((q =? 34) || (q =? 39)).
  - destruct (split_at_char q r) as [[a b]|] eqn:E; [|exact I]. apply split_at_le in E. destruct (hatch_parse lower a); [apply sf_cons; exact (sf_tail _ _ _ E)|exact I].
  - assert (G : good (pbind (parse_ident alnum) (fun w => of_option (hatch_parse lower w)))) by gd. exact (G (q :: r)).
Qed. Hint Resolve g_pattern : gd.
Lemma g_hatch : good (parse_hatch alnum lower rnd parse_f32 C colour with_alpha theme_colour).
Proof.
  unfold parse_hatch. gd. intro i. destruct (percent rnd parse_f32 i) as [[r x]|] eqn:E; [exact (percent_le _ _ _ E)|apply sf_refl].
Qed. Hint Resolve g_hatch : gd.
Lemma g_keyline : good (parse_keyline alnum lower rnd parse_f32 C colour with_alpha theme_colour transparent).
Proof.
  unfold parse_keyline. gd. assert (G : good (pmap (parse_color rnd parse_f32 C colour with_alpha theme_colour) (VKeyline a))) by gd.
  intro i. destruct a; try exact (G i). destruct (at_end i); [apply sf_refl|exact (G i)].
Qed. Hint Resolve g_keyline : gd.
Lemma g_opacity : good (parse_opacity rnd64 parse_f64).
Proof. unfold parse_opacity. gd. Qed. Hint Resolve g_opacity : gd.

Notation properties := (properties alnum lower rnd rnd64 parse_f32 parse_f64 C colour with_alpha theme_colour transparent).
Lemma g_properties : Forall (fun x => good (snd x)) properties.
Proof.
  unfold Sheet_Model.properties, of_colour, of_scalar, of_value, of_style, of_int, word.
  repeat (apply Forall_cons; [cbn [snd]; solve [gd]|]). apply Forall_nil.
Qed.
Lemma lookup_good : forall t (l : list (string * parser declaration)) p, Forall (fun x => good (snd x)) l -> lookup t l = Some p -> good p.
Proof.
  intros t l p F. induction F as [|[n q] l H F IH]; intro E; [discriminate|]. cbn in E. destruct (text_eqb t (str n)); [injection E as <-; exact H|auto].
Qed.
Lemma g_value : forall n, good (parse_value alnum lower rnd rnd64 parse_f32 parse_f64 C colour with_alpha theme_colour transparent n).
Proof.
  intro n. unfold parse_value. destruct (lookup n properties) eqn:E; [exact (lookup_good _ _ _ g_properties E)|]. unfold take_until_semicolon_or_brace. gd.
Qed. Hint Resolve g_value : gd.
Lemma g_end : forall d, good (end_declaration C d). Proof. intro. unfold end_declaration. gd. Qed. Hint Resolve g_end : gd.
Lemma balanced_le : forall i, suffix (snd (take_until_balanced_braces i)) i.
Proof.
  intro i. unfold take_until_balanced_braces. generalize 0. induction i as [|c i IH]; intro d; [apply sf_refl|]. cbn [take_balanced].
  destruct (c =? c_lbrace); [specialize (IH (d + 1)); destruct (take_balanced (d + 1) i); apply sf_cons; exact IH|].
  destruct (c =? c_rbrace); [destruct (d - 1 =? 0); [apply sf_cons, sf_refl|specialize (IH (d - 1)); destruct (take_balanced (d - 1) i); apply sf_cons; exact IH]|].
  specialize (IH d). destruct (take_balanced d i); apply sf_cons; exact IH.
Qed.
Lemma g_decl : good (parse_single_declaration alnum lower rnd rnd64 parse_f32 parse_f64 C colour with_alpha theme_colour transparent).
Proof.
  unfold parse_single_declaration. gd. intro i. destruct (match i with [] => false | c :: _ => (c =? 38) || (c =? 46) || (c =? 35) end).
  - apply balanced_le.
  - match goal with |- outcome i (?p i) => assert (G : good p) by gd; exact (G i) end.
Qed. Hint Resolve g_decl : gd.
Notation parse_rule := (parse_rule alnum lower rnd rnd64 parse_f32 parse_f64 C colour with_alpha theme_colour transparent).
Notation decl := (parse_single_declaration alnum lower rnd rnd64 parse_f32 parse_f64 C colour with_alpha theme_colour transparent).
Lemma g_rule : forall n, good (parse_rule n).
Proof. induction n as [|n IH]; cbn [Sheet_Model.parse_rule]; gd. Qed.
Lemma good_le : forall X (p : parser X), good p -> forall j r a, p j = Ok (r, a) -> (length r <= length j)%nat.
Proof. intros X p G j r a E. specialize (G j). rewrite E in G. exact (sf_len _ _ G). Qed.

(** *** Fuel *)
Definition strict {X} (p : parser X) : Prop := forall i r a, p i = Ok (r, a) -> (length r < length i)%nat.
Lemma s_bind : forall X Y (p : parser X) (f : X -> parser Y), strict p -> (forall a, good (f a)) -> strict (pbind p f).
Proof.
  intros X Y p f P F i r b. unfold pbind. destruct (p i) as [[r1 a]| |] eqn:E; [|discriminate|discriminate]. intro H.
  pose proof (P _ _ _ E). pose proof (good_le _ _ (F a) _ _ _ H). lia.
Qed.
Lemma s_map : forall X Y (p : parser X) (f : X -> Y), strict p -> strict (pmap p f). Proof. intros. apply s_bind; [assumption|]. intro. apply g_ret. Qed.
Lemma s_alt : forall X (p q : parser X), strict p -> strict q -> strict (palt p q).
Proof. intros X p q P Q i r a. unfold palt. destruct (p i) as [x| |] eqn:E; [|apply Q|discriminate]. intro H. injection H as ->. exact (P _ _ _ E). Qed.
Lemma s_char : forall c, strict (pchar c).
Proof. intros c [|x i] r a; cbn; [discriminate|]. destruct (x =? c); [|discriminate]. intro H. injection H as <- _. lia. Qed.
Lemma s_while : forall p, strict (take_while1 p).
Proof.
  intros p i r a. unfold take_while1. pose proof (span_join p i) as J. destruct (span p i) as [x y]. cbn in J. subst i.
  destruct x as [|c x]; cbn; [discriminate|]. intro H. injection H as <- _. rewrite app_length. lia.
Qed.
Lemma s_simple : strict (parse_simple_selector alnum).
Proof.
  unfold parse_simple_selector, preceded. repeat apply s_alt; try apply s_map; try (apply s_bind; [apply s_char|intro; apply g_ident]); try apply s_char; try apply s_while.
  unfold parse_attribute_selector. apply s_bind; [apply s_char|]. intro. gd.
Qed.
Lemma s_compound : strict (parse_compound_selector alnum).
Proof. unfold parse_compound_selector. apply s_bind; [exact s_simple|]. intro. gd. Qed.
(** the fuel of the loop over the compounds of a selector is never used up *)
Theorem complex_fuel : forall n m cur i, (length i < n)%nat -> (length i < m)%nat -> complex_go alnum n cur i = complex_go alnum m cur i.
Proof.
  induction n as [|n IH]; intros m cur i N M; [lia|]. destruct m as [|m]; [lia|]. cbn [complex_go].
  assert (GO : forall comb r, (length r <= length i)%nat ->
      match parse_compound_selector alnum r with
      | Ok (next, kk) => match complex_go alnum n kk next with Ok (r', parts) => Ok (r', (cur, comb) :: parts) | Err => Err | Panic => Panic end
      | Err => Ok (i, [(cur, CNone)]) | Panic => Panic end =
      match parse_compound_selector alnum r with
      | Ok (next, kk) => match complex_go alnum m kk next with Ok (r', parts) => Ok (r', (cur, comb) :: parts) | Err => Err | Panic => Panic end
      | Err => Ok (i, [(cur, CNone)]) | Panic => Panic end).
  { intros comb r L. destruct (parse_compound_selector alnum r) as [[next kk]| |] eqn:E; [|reflexivity|reflexivity]. apply s_compound in E.
    rewrite (IH m kk next) by lia. reflexivity. }
  pose proof (sf_len _ _ (span_le space i)) as L. destruct (span space i) as [ws rem]. cbn in L. pose proof (g_comb rem) as P.
  destruct (parse_combinator rem) as [[after_op comb]| |]; [| |reflexivity].
  - apply sf_len in P. apply GO. pose proof (sf_len _ _ (span_le space after_op)). lia.
  - destruct (is_nil ws); [reflexivity|]. apply GO. exact L.
Qed.
Theorem rule_fuel : forall n m i, (length i < n)%nat -> (length i < m)%nat -> parse_rule n i = parse_rule m i.
Proof.
  induction n as [|n IH]; intros m i N M; [lia|]. destruct m as [|m]; [lia|]. cbn [Sheet_Model.parse_rule]. unfold preceded at 1 3, pbind at 1 7.
  pose proof (g_ms0 i) as G0. destruct (multispace0 i) as [[i0 a0]| |]; [|reflexivity|reflexivity]. apply sf_len in G0.
  unfold pbind at 1 6. pose proof (g_list i0) as G1. destruct (parse_selector_list alnum i0) as [[i1 sels]| |]; [|reflexivity|reflexivity]. apply sf_len in G1.
  unfold pbind at 1 5. pose proof (g_ms0 i1) as G2. destruct (multispace0 i1) as [[i2 a2]| |]; [|reflexivity|reflexivity]. apply sf_len in G2.
  unfold pbind at 1 4. destruct i2 as [|c i2]; [reflexivity|]. cbn [pchar]. destruct (c =? 123); [|reflexivity]. cbn in G2.
  assert (E : many0 (palt (pmap (parse_rule n) (INested value)) (pmap decl (IDecl value))) i2
            = many0 (palt (pmap (parse_rule m) (INested value)) (pmap decl (IDecl value))) i2).
  { unfold many0. apply many_ext.
    - intros j J. unfold palt, pmap, pbind. rewrite (IH m j) by lia. reflexivity.
    - intros j r a. apply good_le. pose proof (g_rule n). gd. }
  unfold pbind at 1 3. rewrite E. reflexivity.
Qed.
Theorem rules_panic : forall t, parse_rules alnum lower rnd rnd64 parse_f32 parse_f64 C colour with_alpha theme_colour transparent t = Panic -> bad t.
Proof.
  intros t. unfold parse_rules. pose proof (g_many _ _ (g_rule (S (length t))) t) as G.
  destruct (many0 (parse_rule (S (length t))) t) as [[r l]| |]; [destruct (is_nil (trim r)); discriminate|discriminate|intros _; exact G].
Qed.
End Good.
