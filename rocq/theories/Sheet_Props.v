(** C80-C83: stylesheets are read as they are written. *)
From Coq Require Import String ZArith QArith List Bool Lia.
From Verif Require Import Text_Model Css_Model Css_Spec Nest_Proofs Colour_Model Colour_Spec Colour_Proofs Variables_Model Variables_Spec Variables_Proofs Variables_Props Sheet_Model Sheet2_Model Sheet_Spec Sheet_Proofs Sheet2_Proofs Sheet3_Proofs Sheet4_Proofs.
Import ListNotations.
Notation length := List.length.
Open Scope Z_scope.
Open Scope list_scope.

(** The lower-casing of the examples: ASCII letters. *)
Definition plain_lc (c : char) : text := [ascii_lc c].
Lemma plain_lc_ok : lower_ok plain_lc.
Proof.
  split; [reflexivity|]. intros c H. exists c. split; [left; unfold ascii_lc; destruct (Z.leb_spec 65 c), (Z.leb_spec c 90); cbn; auto; lia|].
  intros d [X|X]; lia.
Qed.
Lemma important_is_no_colour : forall rnd lc pf, lower_ok lc -> parse rnd lc pf (str "!important") = Err.
Proof.
  intros rnd lc pf [L _]. unfold parse. change (trim (str "!important")) with (str "!important").
  assert (E : Colour_Model.lower lc (str "!important") = str "!important").
  { unfold Colour_Model.lower. cbn. rewrite !L by lia. reflexivity. }
  rewrite E. reflexivity.
Qed.

Section Reading.
Variable alnum : char -> bool.      (* char::is_alphanumeric *)
Variable lc : char -> text.         (* char::to_lowercase *)
Variables rnd rnd64 : Q -> Q.       (* rounding to f32 and f64 *)
Variables parse_f32 parse_f64 : text -> option Q.  (* str::parse *)
Hypothesis A : alnum_like alnum.
Hypothesis L : lower_ok lc.
Notation low := (Colour_Model.lower lc).
Notation colour := (Colour_Model.parse rnd lc parse_f32).
Notation none := (rgba_of 0 0 0 0%Q).
Notation value := (value rgba).
Notation value_text := (Sheet_Spec.value_text alnum low rnd rnd64 parse_f32 parse_f64 rgba colour with_alpha theme_variable none).
Notation declaration_text := (Sheet_Spec.declaration_text alnum low rnd rnd64 parse_f32 parse_f64 rgba colour with_alpha theme_variable none).
Notation rule_text := (Sheet_Spec.rule_text alnum low rnd rnd64 parse_f32 parse_f64 rgba colour with_alpha theme_variable none).
Notation body_text := (Sheet_Spec.body_text alnum low rnd rnd64 parse_f32 parse_f64 rgba colour with_alpha theme_variable none).
Notation sheet_text := (Sheet_Spec.sheet_text alnum low rnd rnd64 parse_f32 parse_f64 rgba colour with_alpha theme_variable none).
Notation rules := (rules alnum lc rnd rnd64 parse_f32 parse_f64).
Notation stylesheet := (stylesheet alnum lc rnd rnd64 parse_f32 parse_f64).
Let imp := important_is_no_colour rnd lc parse_f32 L.

(** *** C80 Selectors *)
(** A list of selectors written in the syntax, before an opening brace, is read
    as exactly these selectors, and nothing beyond them is consumed. *)
Theorem C80_selectors_read : forall l t g g' k, selectors_text alnum l t -> gap g -> gap g' ->
  selector_list alnum (g ++ t ++ g' ++ 123 :: k) = Ok (g' ++ 123 :: k, l).
Proof.
  intros l t g g' k S G G'. apply (selectors_ok alnum A l t g _ S G). exists g', k. auto.
Qed.
(** So a text spells one list of selectors at most. *)
Theorem C80_unambiguous : forall l l' t, selectors_text alnum l t -> selectors_text alnum l' t -> l = l'.
Proof.
  intros l l' t H H'. pose proof (C80_selectors_read l t [] [] [] H (Forall_nil _) (Forall_nil _)) as E.
  rewrite (C80_selectors_read l' t [] [] [] H' (Forall_nil _) (Forall_nil _)) in E. injection E as E. symmetry. exact E.
Qed.

(** *** C81 Rules *)
(** Every stylesheet text in the syntax is accepted, as exactly the rules it
    spells, in order and to any depth of nesting. *)
Theorem C81_rules_read : forall l t, sheet_text l t -> rules t = Ok l.
Proof. exact (sheet_ok alnum low rnd rnd64 parse_f32 parse_f64 rgba colour with_alpha theme_variable none A imp). Qed.
Theorem C81_unambiguous : forall l l' t, sheet_text l t -> sheet_text l' t -> l = l'.
Proof. intros l l' t H H'. apply C81_rules_read in H. apply C81_rules_read in H'. congruence. Qed.
(** With comments and variables: comments are cut out, variables stand for
    their values, what then spells rules gives the flattened rules. *)
Theorem C81_stylesheet_read : forall src t ls o l, strips src t -> source alnum ls t -> means ls ls o -> sheet_text l o ->
  stylesheet src = Ok (flatten_stylesheet value l).
Proof.
  intros src t ls o l S V M H. unfold Sheet2_Model.stylesheet, parse_stylesheet. apply strip_comments_strips in S. rewrite S.
  rewrite (C79_result_is_determined alnum A ls t o V M). apply C81_rules_read in H. unfold Sheet2_Model.rules in H. rewrite H. reflexivity.
Qed.
Lemma sheet_more : forall l t, sheet_text l t -> forall g, gap g -> sheet_text l (t ++ g).
Proof.
  intros l t H. induction H as [g G|r t l u R H IH]; intros g' G'.
  - apply sh_end. apply gap_app; assumption.
  - rewrite <- app_assoc. apply sh_rule; [exact R|exact (IH g' G')].
Qed.
(** Without comments, variables and carriage returns the source itself spells
    the rules. *)
Theorem C81_plain_stylesheet_read : forall src l, comment_free src -> ~ In 36 src -> ~ In 13 src -> sheet_text l src ->
  stylesheet src = Ok (flatten_stylesheet value l).
Proof.
  intros src l F D R H. unfold Sheet2_Model.stylesheet, parse_stylesheet.
  assert (S : strip_comments src = src) by (apply strip_comments_strips, comment_free_strips, F). rewrite S.
  assert (N : forall a b, src <> a ++ [47; 42] ++ b) by (intros a b E; apply (proj1 F); exists a, b; exact E).
  assert (E : exists g, gap g /\ resolve_variables alnum src (extract_variables src) = src ++ g).
  { destruct (C79_without_variables alnum src (extract_variables src) D R N) as [E|E]; rewrite E.
    - exists []. rewrite app_nil_r. split; [apply Forall_nil|reflexivity].
    - exists [10]. split; [apply Forall_cons; [right; right; left; reflexivity|apply Forall_nil]|reflexivity]. }
  destruct E as [g [G E]]. rewrite E. pose proof (C81_rules_read _ _ (sheet_more l src H g G)) as P. unfold Sheet2_Model.rules in P. rewrite P. reflexivity.
Qed.
(** Nesting is not limited: the bound on the depth that the model of the
    recursive parser needs makes no difference. *)
Theorem C81_any_depth : forall n t, (length t < n)%nat ->
  match many0 (parse_rule alnum low rnd rnd64 parse_f32 parse_f64 rgba colour with_alpha theme_variable none n) t with
  | Ok (r, l) => if is_nil (trim r) then Ok l else Err | Err => Err | Panic => Panic end = rules t.
Proof.
  intros n t N. unfold Sheet2_Model.rules, parse_rules.
  assert (E : many0 (parse_rule alnum low rnd rnd64 parse_f32 parse_f64 rgba colour with_alpha theme_variable none n) t
    = many0 (parse_rule alnum low rnd rnd64 parse_f32 parse_f64 rgba colour with_alpha theme_variable none (S (length t))) t).
  { unfold many0. apply many_ext.
    - intros j J. apply rule_fuel; lia.
    - intros j r a. apply (good_le rgba colour). apply g_rule. }
  rewrite E. reflexivity.
Qed.

(** *** C82 Values *)
(** A declaration written in the syntax of its property, alone in a block,
    gives exactly that declaration. *)
Theorem C82_declaration_read : forall sels s d t, selectors_text alnum sels s -> declaration_text d t ->
  rules (s ++ str "{" ++ t ++ str "}") = Ok [Rule value sels [IDecl value d]].
Proof.
  intros sels s d t S D. apply C81_rules_read. rewrite <- (app_nil_r (s ++ _)). apply sh_rule; [|apply sh_end; apply Forall_nil].
  apply (r_rule _ _ _ _ _ _ _ _ _ _ _ sels [IDecl value d] [] s [] t []); try apply Forall_nil; [exact S|].
  apply (b_last _ _ _ _ _ _ _ _ _ _ _ d [] t); [apply Forall_nil|exact D].
Qed.
(** For one property a text spells one value at most. *)
Theorem C82_unambiguous : forall d d' n t b b', value_text d n t b -> value_text d' n t b' -> d = d'.
Proof.
  intros d d' n t b b' H H'.
  assert (K : forall c, ending c [59]) by (intro c; apply (en_stop c [] 59 []); [apply Forall_nil|left; reflexivity]).
  destruct (value_ok alnum low rnd rnd64 parse_f32 parse_f64 rgba colour with_alpha theme_variable none A imp d n t b [59] H (K b)) as [g [r [E [G P]]]].
  destruct (value_ok alnum low rnd rnd64 parse_f32 parse_f64 rgba colour with_alpha theme_variable none A imp d' n t b' [59] H' (K b')) as [g' [r' [E' [G' P']]]].
  rewrite P in P'. injection P' as _ P'. exact P'.
Qed.
(** "!important" is accepted after a value and changes nothing. *)
Theorem C82_important_ignored : forall sels s d n v g, selectors_text alnum sels s -> value_text d n v true -> gap g -> g <> [] ->
  rules (s ++ str "{" ++ (n ++ str ":" ++ v ++ g ++ str "!important") ++ str "}") = rules (s ++ str "{" ++ (n ++ str ":" ++ v) ++ str "}").
Proof.
  intros sels s d n v g S V G N. rewrite (C82_declaration_read sels s d _ S), (C82_declaration_read sels s d _ S); [reflexivity| |].
  - pose proof (d_known alnum low rnd rnd64 parse_f32 parse_f64 rgba colour with_alpha theme_variable none d n v true [] [] [] [] V (Forall_nil _) (Forall_nil _) (i_no true) (Forall_nil _)) as D.
    cbn [app] in D. rewrite !app_nil_r in D. exact D.
  - pose proof (d_known alnum low rnd rnd64 parse_f32 parse_f64 rgba colour with_alpha theme_variable none d n v true [] [] (g ++ str "!important") [] V (Forall_nil _) (Forall_nil _) (i_yes g G N) (Forall_nil _)) as D.
    cbn [app] in D. rewrite app_nil_r in D. exact D.
Qed.

(** A colour given by an undefined variable refers to the theme; a percentage
    after it sets the alpha and nothing else. *)
Theorem C82_theme_colours : forall sels s n, selectors_text alnum sels s -> Forall plain n ->
  exists c, rules (s ++ str "{color:$" ++ n ++ str "}") = Ok [Rule value sels [IDecl value (DColor _ (VColour c))]] /\ c_theme c = Some n /\ (c_a c == 1)%Q /\ c_auto c = false.
Proof.
  intros sels s n S P. exists (theme_variable n). split; [|repeat split; reflexivity].
  rewrite <- (C82_declaration_read sels s _ (str "color:$" ++ n) S); [reflexivity|].
  pose proof (d_known alnum low rnd rnd64 parse_f32 parse_f64 rgba colour with_alpha theme_variable none (DColor _ (VColour (theme_variable n))) (str "color") (str "$" ++ n) true [] [] [] []) as D.
  cbn [app] in D. rewrite !app_nil_r in D. apply D; try apply Forall_nil; [|apply i_no].
  apply (p_colour _ _ _ _ _ _ _ _ _ _ _ "color" (DColor _)); [left; reflexivity|]. apply k_solid. apply k_theme. exact P.
Qed.
Theorem C82_theme_alpha : forall sels s n g m q, selectors_text alnum sels s -> Forall plain n -> gap g -> g <> [] ->
  m <> [] -> Forall (fun x => 48 <= x <= 57 \/ x = 46) m -> parse_f32 m = Some q ->
  exists c, rules (s ++ str "{color:$" ++ n ++ g ++ m ++ str "%}") = Ok [Rule value sels [IDecl value (DColor _ (VColour c))]] /\ c_theme c = Some n /\ c_a c = rnd (q / 100)%Q /\ c_auto c = false.
Proof.
  intros sels s n g m q S P G Ng Nm M Q. exists (with_alpha (theme_variable n) (rnd (q / 100)%Q)). split; [|repeat split; reflexivity].
  rewrite <- (C82_declaration_read sels s _ (str "color:$" ++ n ++ g ++ m ++ str "%") S).
  { f_equal. rewrite ?app_assoc. rewrite <- ?app_assoc. f_equal. }
  pose proof (d_known alnum low rnd rnd64 parse_f32 parse_f64 rgba colour with_alpha theme_variable none (DColor _ (VColour (with_alpha (theme_variable n) (rnd (q / 100)%Q)))) (str "color") ((str "$" ++ n) ++ g ++ m ++ str "%") true [] [] [] []) as D.
  cbn [app] in D. rewrite !app_nil_r in D. replace (str "color:$" ++ n ++ g ++ m ++ str "%") with (str "color" ++ str ":" ++ (str "$" ++ n) ++ g ++ m ++ str "%") by reflexivity.
  apply D; try apply Forall_nil; [|apply i_no]. apply (p_colour _ _ _ _ _ _ _ _ _ _ _ "color" (DColor _)); [left; reflexivity|].
  apply k_alpha; [apply k_theme; exact P|exact G|exact Ng|exact Nm|exact M|exact Q].
Qed.
(** A hatch pattern in quotes is one character or the name of a pattern; any
    other is refused, whatever follows. *)
Theorem C82_hatch_pattern_refused : forall g q w k, gap g -> q = 34 \/ q = 39 -> ~ In 34 w -> ~ In 39 w -> length w <> 1%nat ->
  (forall p n, pattern_name p = Some n -> low w <> str n) ->
  parse_hatch alnum low rnd parse_f32 rgba colour with_alpha theme_variable (g ++ [q] ++ w ++ [q] ++ k) = Err.
Proof. intros. apply hatch_refused; assumption. Qed.

(** *** C83 Crashes *)
(** Reading a stylesheet can only panic on a text of the form of a colour,
    inside the stylesheet, whose reading panics: *)
Theorem C83_panics_come_from_colours : forall src, stylesheet src = Panic ->
  exists t a c b, t = a ++ c ++ b /\ colour c = Panic /\ t = resolve_variables alnum (strip_comments src) (extract_variables (strip_comments src)).
Proof.
  intros src H. unfold Sheet2_Model.stylesheet, parse_stylesheet in H.
  set (t := resolve_variables alnum (strip_comments src) (extract_variables (strip_comments src))) in *. exists t.
  destruct (parse_rules alnum low rnd rnd64 parse_f32 parse_f64 rgba colour with_alpha theme_variable none t) eqn:E; try discriminate.
  apply rules_panic in E. destruct E as [a [c [b [X Y]]]]. exists a, c, b. auto.
Qed.
(** one that begins with rgb or hsl, in any case, and has its first ')' before its
    first '('. *)
Definition crossed (t : text) : Prop :=
  (exists r, t = str "rgb" ++ r \/ t = str "hsl" ++ r) /\ exists p q r, t = p ++ 41 :: q ++ 40 :: r /\ ~ In 40 p /\ ~ In 41 p.
Lemma find_no : forall c t, split_at_char c t = None -> ~ In c t.
Proof.
  intros c t. induction t as [|x t IH]; intro H; [intros []|]. cbn in H. destruct (Z.eqb_spec x c); [discriminate|].
  destruct (split_at_char c t) as [[]|]; [discriminate|]. intros [E|I]; [congruence|exact (IH eq_refl I)].
Qed.
Lemma find_yes : forall c t a b, split_at_char c t = Some (a, b) -> t = a ++ c :: b /\ ~ In c a.
Proof.
  intros c t. induction t as [|x t IH]; intros a b H; [discriminate|]. cbn in H. destruct (Z.eqb_spec x c).
  - injection H as <- <-. subst. split; [reflexivity|intros []].
  - destruct (split_at_char c t) as [[a' b']|]; [|discriminate]. injection H as <- <-. destruct (IH _ _ eq_refl) as [-> N]. split; [reflexivity|].
    intros [E|I]; [congruence|exact (N I)].
Qed.
Lemma app_inj_len : forall (a b c d : text), a ++ b = c ++ d -> length a = length c -> a = c /\ b = d.
Proof.
  induction a as [|x a IH]; intros b [|y c] d E N; try discriminate; [auto|]. cbn in E. injection E as -> E. injection N as N. destruct (IH b c d E N) as [-> ->]. auto.
Qed.
Lemma parens_panic : forall t, between_parens t = Panic <-> exists p q r, t = p ++ 41 :: q ++ 40 :: r /\ ~ In 40 p /\ ~ In 41 p.
Proof.
  intro t. unfold between_parens. destruct (split_at_char 40 t) as [[b x]|] eqn:E1.
  2: { split; [discriminate|]. intros [p [q [r [-> _]]]]. exfalso. apply (find_no _ _ E1). apply in_or_app. right. right. apply in_or_app. right. left. reflexivity. }
  destruct (split_at_char 41 t) as [[c y]|] eqn:E2.
  2: { split; [discriminate|]. intros [p [q [r [-> _]]]]. exfalso. apply (find_no _ _ E2). apply in_or_app. right. left. reflexivity. }
  apply find_yes in E1. apply find_yes in E2. destruct E1 as [E1 N1], E2 as [E2 N2]. destruct (Nat.ltb_spec (length c) (length b + 1)) as [H|H].
  - split; [intros _|reflexivity]. rewrite E1 in E2. assert (length c <> length b).
    { intro X. apply app_inj_len in E2; [|congruence]. destruct E2 as [_ E2]. discriminate. }
    exists c. assert (X : exists q, b = c ++ 41 :: q).
    { clear -E2 H H0. revert b E2 H H0. induction c as [|z c IH]; intros b E H H0.
      - destruct b as [|w b]; [cbn in H0; lia|]. cbn in E. injection E as -> E. exists b. reflexivity.
      - destruct b as [|w b]; [cbn in H; lia|]. cbn in E. injection E as -> E. destruct (IH b E) as [q ->]; [cbn in H; lia|cbn in H0; lia|]. exists q. reflexivity. }
    destruct X as [q ->]. exists q, x. rewrite E1, <- app_assoc. split; [reflexivity|]. split; [|exact N2]. intro I. apply N1. apply in_or_app. left. exact I.
  - split; [discriminate|]. intros [p [q [r [E [P4 P5]]]]]. exfalso.
    assert (c = p).
    { rewrite E in E2. clear -E2 P5 N2. revert c E2 N2. induction p as [|z p IH]; intros c E N.
      - destruct c as [|w c]; [reflexivity|]. cbn in E. injection E as <- _. exfalso. apply N. left. reflexivity.
      - destruct c as [|w c]; cbn in E; [injection E as -> _; exfalso; apply P5; left; reflexivity|]. injection E as -> E. f_equal.
        apply IH; [intro I; apply P5; right; exact I|exact E|intro I; apply N; right; exact I]. }
    subst c. assert (B : In 40 p).
    { rewrite E in E1. clear -E1 H. revert b E1 H. induction p as [|z p IH]; intros b E H; [cbn in H; lia|].
      destruct b as [|w b]; cbn in E; [injection E as -> _; left; reflexivity|]. injection E as -> E. right. apply (IH b E). cbn in H. lia. }
    exact (P4 B).
Qed.
Theorem C83_colours_that_panic : forall t, colour t = Panic <-> crossed (low (trim t)).
Proof.
  intro t. unfold parse. destruct (trim t) as [|c rest] eqn:T.
  { split; [discriminate|]. intros [_ [p [q [r [E _]]]]]. destruct p; discriminate. }
  set (l := low (c :: rest)).
  assert (AU : forall s, ~ crossed (str s) -> text_eqb l (str s) = true -> ~ crossed l).
  { intros s N E. apply Keys_Proofs.text_eqb_iff in E. rewrite E. exact N. }
  assert (U : forall x, parse_u8 x <> Panic) by (intro x; unfold parse_u8; destruct (parse_i32 x) as [n|]; [destruct ((n <? 0) || (255 <? n))|]; discriminate).
  assert (F : forall x, Colour_Model.parse_f32 parse_f32 x <> Panic) by (intro x; unfold Colour_Model.parse_f32; destruct (parse_f32 x); discriminate).
  assert (Pc : forall x, parse_percentage rnd parse_f32 x <> Panic) by (intro x; unfold parse_percentage; destruct (parse_f32 (trim_end_char 37 x)); discriminate).
  assert (Al : forall x, alpha_part parse_f32 x <> Panic) by (intros [|x y]; [discriminate|apply F]).
  assert (B : forall X Y (m : res X) (f : X -> res Y), m <> Panic -> (forall x, f x <> Panic) -> bind m f <> Panic).
  { intros X Y [x| |] f M G; cbn; [apply G|discriminate|congruence]. }
  assert (R1 : forall x, parse_rgb_func parse_f32 x = Panic <-> between_parens x = Panic).
  { intro x. unfold parse_rgb_func. destruct (between_parens x) as [y| |]; cbn [bind]; [|split; discriminate|split; auto]. split; [|discriminate]. intro H. exfalso. revert H.
    destruct (map trim (split_char 44 y)) as [|a [|b [|d more]]]; try discriminate. repeat (apply B; [auto|intro]). discriminate. }
  assert (R2 : forall x, parse_hsl_func rnd parse_f32 x = Panic <-> between_parens x = Panic).
  { intro x. unfold parse_hsl_func. destruct (between_parens x) as [y| |]; cbn [bind]; [|split; discriminate|split; auto]. split; [|discriminate]. intro H. exfalso. revert H.
    destruct (map trim (split_char 44 y)) as [|a [|b [|d more]]]; try discriminate. repeat (apply B; [auto|intro]). destruct (hsl_to_rgb rnd x0 x1 x2) as [[? ?] ?]. discriminate. }
  destruct (text_eqb l (str "auto")) eqn:E1.
  { split; [discriminate|]. intro X. exfalso. revert X. apply (AU "auto"%string); [|exact E1]. intros [[r [X|X]] _]; discriminate. }
  destruct (text_eqb l (str "transparent")) eqn:E2.
  { split; [discriminate|]. intro X. exfalso. revert X. apply (AU "transparent"%string); [|exact E2]. intros [[r [X|X]] _]; discriminate. }
  destruct (c =? 35) eqn:E3.
  { apply Z.eqb_eq in E3. subst c. split; [intro H; exfalso; revert H|].
    - unfold parse_hex. assert (HD : forall x, hex_digit x <> Panic) by (intro x; unfold hex_digit; destruct ((48 <=? x) && (x <=? 57)); [discriminate|]; destruct ((97 <=? x) && (x <=? 102)); discriminate).
      assert (HP : forall x y, hex_pair x y <> Panic) by (intros; unfold hex_pair; repeat (apply B; [auto|intro]); discriminate).
      destruct (Colour_Model.lower lc rest) as [|c1 [|c2 [|c3 [|c4 [|c5 [|c6 [|c7 [|c8 [|c9 rr]]]]]]]]]; try discriminate; repeat (apply B; [auto|intro]); discriminate.
    - intros [[r X] _]. exfalso. assert (HL : l = 35 :: low rest) by (unfold l, Colour_Model.lower; cbn; rewrite (proj1 L) by lia; reflexivity).
      rewrite HL in X. destruct X; discriminate. }
  destruct (starts_with l (str "rgb")) eqn:E4.
  { rewrite R1, parens_panic. split; [|intros [_ X]; exact X]. intro X. split; [|exact X]. apply starts_ex in E4. destruct E4 as [r ->]. exists r. left. reflexivity. }
  destruct (starts_with l (str "hsl")) eqn:E5.
  { rewrite R2, parens_panic. split; [|intros [_ X]; exact X]. intro X. split; [|exact X]. apply starts_ex in E5. destruct E5 as [r ->]. exists r. right. reflexivity. }
  split; [unfold parse_named; destruct (find_name l names) as [[[? ?] ?]|]; discriminate|]. intros [[r [X|X]] _]; exfalso.
  - assert (Y : starts_with l (str "rgb") = true) by (apply starts_ex; exists r; exact X). congruence.
  - assert (Y : starts_with l (str "hsl") = true) by (apply starts_ex; exists r; exact X). congruence.
Qed.
(** In particular, a stylesheet without ')' never panics, if lower-casing makes no
    parentheses. *)
Theorem C83_no_panic_without_parentheses : forall src, (forall c, In 41 (lc c) -> c = 41) ->
  ~ In 41 (resolve_variables alnum (strip_comments src) (extract_variables (strip_comments src))) -> stylesheet src <> Panic.
Proof.
  intros src P N H. apply C83_panics_come_from_colours in H. destruct H as [t [a [c [b [E [H T]]]]]]. rewrite <- T in N. apply C83_colours_that_panic in H.
  destruct H as [_ [p [q [r [X _]]]]]. assert (I : In 41 (low (trim c))) by (rewrite X; apply in_or_app; right; left; reflexivity).
  unfold Colour_Model.lower in I. apply in_flat_map in I. destruct I as [x [I J]]. apply P in J. subst x.
  destruct (trim_factor c) as [u [w [F _]]]. apply N. rewrite E, F. apply in_or_app. right. apply in_or_app. left. apply in_or_app. right. apply in_or_app. left. exact I.
Qed.
End Reading.
Print Assumptions C80_selectors_read.
Print Assumptions C80_unambiguous.
Print Assumptions C81_rules_read.
Print Assumptions C81_unambiguous.
Print Assumptions C81_stylesheet_read.
Print Assumptions C81_plain_stylesheet_read.
Print Assumptions C81_any_depth.
Print Assumptions C82_declaration_read.
Print Assumptions C82_unambiguous.
Print Assumptions C82_important_ignored.
Print Assumptions C82_theme_colours.
Print Assumptions C82_theme_alpha. Print Assumptions C82_hatch_pattern_refused.
Print Assumptions C83_panics_come_from_colours.
Print Assumptions C83_colours_that_panic.
Print Assumptions C83_no_panic_without_parentheses.

(** *** Examples *)
Definition same (q : Q) : Q := q.
Definition fifty (t : text) : option Q := if text_eqb t (str "50") then Some 50%Q else None.
Definition read (t : text) : res (list (rule (value rgba))) := stylesheet ascii_alnum plain_lc same same fifty fifty t.
Definition read_rules (t : text) : res (list (rule (value rgba))) := rules ascii_alnum plain_lc same same fifty fifty t.
Notation ex_sheet := (Sheet_Spec.sheet_text ascii_alnum (Colour_Model.lower plain_lc) same same fifty fifty rgba (Colour_Model.parse same plain_lc fifty) with_alpha theme_variable (rgba_of 0 0 0 0%Q)).
Notation ex_rule := (Sheet_Spec.rule_text ascii_alnum (Colour_Model.lower plain_lc) same same fifty fifty rgba (Colour_Model.parse same plain_lc fifty) with_alpha theme_variable (rgba_of 0 0 0 0%Q)).
Notation ex_body := (Sheet_Spec.body_text ascii_alnum (Colour_Model.lower plain_lc) same same fifty fifty rgba (Colour_Model.parse same plain_lc fifty) with_alpha theme_variable (rgba_of 0 0 0 0%Q)).
Notation ex_declaration := (Sheet_Spec.declaration_text ascii_alnum (Colour_Model.lower plain_lc) same same fifty fifty rgba (Colour_Model.parse same plain_lc fifty) with_alpha theme_variable (rgba_of 0 0 0 0%Q)).
Notation ex_value := (Sheet_Spec.value_text ascii_alnum (Colour_Model.lower plain_lc) same same fifty fifty rgba (Colour_Model.parse same plain_lc fifty) with_alpha theme_variable (rgba_of 0 0 0 0%Q)).
Ltac gp := repeat (apply Forall_cons; [first [left; reflexivity | right; left; reflexivity | right; right; left; reflexivity | right; right; right; reflexivity]|]); apply Forall_nil.
Ltac idt := split; [discriminate|repeat (apply Forall_cons; [first [left; reflexivity | right; left; reflexivity | right; right; reflexivity]|]); apply Forall_nil].
Ltac ne := discriminate.

Definition ex_selectors : list complex :=
  [[([SType (str "Button"); SClass (str "a"); SPseudo (str "hover")], CNone)]; [([SId (str "x")], CChild); ([SUniversal], CNone)]].
Lemma ex_selectors_text : selectors_text ascii_alnum ex_selectors (str "Button.a:hover, #x > *").
Proof.
  apply (l_more _ _ (str "Button.a:hover") [] (str " ") _ (str "#x > *")); [|gp|gp|].
  - apply x_last. apply (c_more _ _ (str "Button") _ (str ".a:hover")); [apply t_type; idt| |cbn; tauto].
    apply (c_more _ _ (str ".a") _ (str ":hover")); [apply t_class; idt| |cbn; tauto]. apply c_one. apply t_pseudo. idt.
  - apply l_one. apply (x_more _ _ (str "#x") _ (str " > ") _ (str "*")).
    + apply c_one. apply t_id. idt.
    + apply (cb_child (str " ") (str " ")); gp.
    + apply x_last. apply c_one. apply t_universal.
Qed.
Example C80_example : selectors_text ascii_alnum ex_selectors (str "Button.a:hover, #x > *") /\
  selector_list ascii_alnum (str "  Button.a:hover, #x > * {}") = Ok (str " {}", ex_selectors).
Proof. split; [exact ex_selectors_text|vm_compute; reflexivity]. Qed.

Definition percent50 : scalar := Scalar (same (inject_Z 50)) Percent.
Lemma fifty_text : decimal_value (str "50") 50.
Proof. apply (dv_digit (str "5") 5 0); [|lia]. apply (dv_digit [] 0 5); [apply dv_nil|lia]. Qed.
Lemma one_text : decimal_value (str "1") 1. Proof. apply (dv_digit [] 0 1); [apply dv_nil|lia]. Qed.
Lemma two_text : decimal_value (str "2") 2. Proof. apply (dv_digit [] 0 2); [apply dv_nil|lia]. Qed.
Definition width50 : declaration (value rgba) := DWidth _ (VScalar percent50).
Lemma width_text : ex_declaration width50 (str "width: 50%").
Proof.
  apply (d_known _ _ _ _ _ _ _ _ _ _ _ width50 (str "width") (str "50%") true [] (str " ") [] []); [|gp|gp|apply i_no|gp].
  apply (p_scalar _ _ _ _ _ _ _ _ _ _ _ "width" (DWidth _)); [cbn; tauto|]. apply (s_number same (inject_Z 50) (str "50") Percent); [|discriminate].
  apply n_plus. apply n_whole; [ne|exact fifty_text].
Qed.
Definition s1 : scalar := Scalar (same (inject_Z 1)) Cells.
Definition s2 : scalar := Scalar (same (- inject_Z 2)%Q) Cells.
Definition margin12 : declaration (value rgba) := DMargin _ (VSpacing s1 s2 s1 s2).
Lemma margin_text : ex_declaration margin12 (str "margin: 1 -2 !important").
Proof.
  apply (d_known _ _ _ _ _ _ _ _ _ _ _ margin12 (str "margin") (str "1 -2") true [] (str " ") (str " !important") []); [|gp|gp|apply (i_yes (str " ")); [gp|ne]|gp].
  apply (p_spacing _ _ _ _ _ _ _ _ _ _ _ "margin" (DMargin _)); [cbn; tauto|]. apply (sp_two same rgba s1 s2 (str "1") (str "-2") (str " ")); [|gp|ne|].
  - apply (s_number same (inject_Z 1) (str "1") Cells); [|discriminate]. apply n_plus. apply n_whole; [ne|exact one_text].
  - apply (s_number same (- inject_Z 2)%Q (str "-2") Cells); [|discriminate]. apply (n_minus (inject_Z 2) (str "2")). apply n_whole; [ne|exact two_text].
Qed.
Definition half_red : declaration (value rgba) := DColor _ (VColour (rgba_of 255 0 0 (same (50 / 100)))).
Lemma color_text : ex_declaration half_red (str "color: red 50% ").
Proof.
  apply (d_known _ _ _ _ _ _ _ _ _ _ _ half_red (str "color") (str "red 50%") true [] (str " ") [] (str " ")); [|gp|gp|apply i_no|gp].
  apply (p_colour _ _ _ _ _ _ _ _ _ _ _ "color" (DColor _)); [left; reflexivity|].
  apply (k_alpha same fifty rgba _ with_alpha theme_variable (rgba_of 255 0 0 1) (str "red") (str " ") (str "50") 50); [|gp|ne|ne| |reflexivity].
  - apply k_colour; [|vm_compute; discriminate|vm_compute; reflexivity]. apply k_word; [ne|].
    repeat (apply Forall_cons; [split; [reflexivity|]; cbn; intros H; repeat (destruct H as [H|H]; [discriminate|]); exact H|]). apply Forall_nil.
  - repeat (apply Forall_cons; [left; cbn; lia|]). apply Forall_nil.
Qed.
Definition ex_nested : rule (value rgba) :=
  Rule _ [[([SParent], CDescendant); ([SType (str "B")], CNone)]] [IDecl _ margin12; IDecl _ (DUnknown _ (str "zz")); IDecl _ half_red].
Definition ex_outer : rule (value rgba) := Rule _ ex_selectors [IDecl _ width50; INested _ ex_nested].
Definition ex_text : text := str "Button.a:hover, #x > * { width: 50%; & B { margin: 1 -2 !important; zz: q; color: red 50% } }".
Lemma ex_text_ok : ex_sheet [ex_outer] ex_text.
Proof.
  apply (sh_rule _ _ _ _ _ _ _ _ _ _ _ _ ex_text _ []); [|apply sh_end; gp].
  apply (r_rule _ _ _ _ _ _ _ _ _ _ _ ex_selectors _ [] (str "Button.a:hover, #x > *") (str " ")
           (str " width: 50%; & B { margin: 1 -2 !important; zz: q; color: red 50% }") (str " ")); [gp|exact ex_selectors_text|gp| |gp].
  apply (b_declaration _ _ _ _ _ _ _ _ _ _ _ width50 (str " ") (str "width: 50%") _ (str " & B { margin: 1 -2 !important; zz: q; color: red 50% }")); [gp|exact width_text|].
  apply (b_nested _ _ _ _ _ _ _ _ _ _ _ _ (str " & B { margin: 1 -2 !important; zz: q; color: red 50% }") _ []); [|apply b_nil].
  apply (r_rule _ _ _ _ _ _ _ _ _ _ _ [[([SParent], CDescendant); ([SType (str "B")], CNone)]] _ (str " ") (str "& B") (str " ")
           (str " margin: 1 -2 !important; zz: q; color: red 50% ") []); [gp| |gp| |gp].
  - apply l_one. apply (x_more _ _ (str "&") _ (str " ") _ (str "B")); [apply c_one, t_parent|apply cb_descendant; [gp|ne]|apply x_last, c_one, t_type; idt].
  - apply (b_declaration _ _ _ _ _ _ _ _ _ _ _ margin12 (str " ") (str "margin: 1 -2 !important") _ (str " zz: q; color: red 50% ")); [gp|exact margin_text|].
    apply (b_unknown _ _ _ _ _ _ _ _ _ _ _ (str "zz") (str " ") (str "zz: q") _ (str " color: red 50% ")); [gp| |].
    + split; [idt|]. split.
      * intros [s [E H]]. assert (N : forallb (fun s => negb (text_eqb (str "zz") (str s))) (all_names rgba) = true) by reflexivity.
        assert (I : In s (all_names rgba)) by (unfold all_names; rewrite !in_app_iff; exact H).
        pose proof (proj1 (forallb_forall _ _) N s I) as X. cbn beta in X. rewrite <- E in X. discriminate.
      * exists [], (str " "), (str "q"). split; [gp|]. split; [gp|]. split; [|reflexivity]. apply Forall_cons; [cbn; intuition discriminate|apply Forall_nil].
    + apply (b_last _ _ _ _ _ _ _ _ _ _ _ half_red (str " ") (str "color: red 50% ")); [gp|exact color_text].
Qed.
Example C81_example : ex_sheet [ex_outer] ex_text /\ read_rules ex_text = Ok [ex_outer] /\
  comment_free ex_text /\ ~ In 36 ex_text /\ ~ In 13 ex_text.
Proof.
  split; [exact ex_text_ok|]. split; [vm_compute; reflexivity|].
  assert (N : forall c, existsb (Z.eqb c) ex_text = false -> ~ In c ex_text).
  { intros c E I. assert (X : existsb (Z.eqb c) ex_text = true) by (apply existsb_exists; exists c; split; [exact I|apply Z.eqb_refl]). congruence. }
  assert (S47 : ~ In 47 ex_text) by (apply N; vm_compute; reflexivity).
  split; [|split; apply N; vm_compute; reflexivity].
  split; intros [a [b E]]; apply S47; rewrite E; apply in_or_app; right; left; reflexivity.
Qed.
Example C82_example : ex_declaration margin12 (str "margin: 1 -2 !important") /\ ex_declaration half_red (str "color: red 50% ").
Proof. split; [exact margin_text|exact color_text]. Qed.

(** *** What users may not expect *)
Definition one_rule (n : string) (l : list (declaration (value rgba))) : rule (value rgba) := Rule _ [[([SType (str n)], CNone)]] (map (IDecl _) l).
Definition red : value rgba := VColour (rgb_of 255 0 0).
(** A last declaration of an unknown property needs its semicolon: without it the
    declaration ends at the next semicolon, even in a later rule.  Rules in
    between are lost, or the whole stylesheet is rejected. *)
Theorem C81_unknown_without_semicolon_refuted :
  read (str "A { foo: 1; } B { color: red; } C { color: red }") = Ok [one_rule "A" [DUnknown _ (str "foo")]; one_rule "B" [DColor _ red]; one_rule "C" [DColor _ red]] /\
  read (str "A { foo: 1 } B { color: red; } C { color: red }") = Ok [one_rule "A" [DUnknown _ (str "foo")]; one_rule "C" [DColor _ red]] /\
  read (str "A { foo: 1 } B { C { color: red; } }") = Err /\
  read (str "A { foo: 1 } B { color: red; color: red }") = Ok [one_rule "A" [DUnknown _ (str "foo"); DColor _ red]].
Proof. split; [|split; [|split]]; vm_compute; reflexivity. Qed.
(** An empty declaration rejects the stylesheet. *)
Theorem C81_empty_declaration_refuted : read (str "A { color: red;; }") = Err /\ read (str "A { ; }") = Err /\ read (str "A { color: red; }") = Ok [one_rule "A" [DColor _ red]].
Proof. split; [|split]; vm_compute; reflexivity. Qed.
(** A nested rule with a mistake is dropped silently if its selector begins with
    '&', '.' or '#', and rejects the stylesheet otherwise. *)
Theorem C81_wrong_nested_rule_refuted :
  read (str "A { & { width: x } color: red; }") = Ok [one_rule "A" [DUnknown _ (str "nested-rule"); DColor _ red]] /\
  read (str "A { B { width: x } color: red; }") = Err.
Proof. split; vm_compute; reflexivity. Qed.
(** Three values for the four sides are read as two: the bottom side gets the
    first value and the third is lost. *)
Theorem C82_three_sides_refuted : exists a b c, a <> c /\
  read (str "A { margin: 1 2 3; }") = Ok [one_rule "A" [DMargin _ (VSpacing (Scalar a Cells) (Scalar b Cells) (Scalar a Cells) (Scalar b Cells))]] /\
  read (str "A { margin: 1 2 3 2; }") = Ok [one_rule "A" [DMargin _ (VSpacing (Scalar a Cells) (Scalar b Cells) (Scalar c Cells) (Scalar b Cells))]].
Proof. exists (inject_Z 1 / inject_Z 1)%Q, (inject_Z 2 / inject_Z 1)%Q, (inject_Z 3 / inject_Z 1)%Q. split; [discriminate|]. split; vm_compute; reflexivity. Qed.
(** "!important" is not recognised after text styles and layers. *)
Theorem C82_important_refuted : read (str "A { text-style: bold !important; }") = Err /\
  read (str "A { layers: a !important; }") = Ok [one_rule "A" [DLayers _ (VNames [str "a"; str "!important"])]].
Proof. split; vm_compute; reflexivity. Qed.
Example C82_hatch_pattern_example : length (str "ab") <> 1%nat /\ (forall p n, pattern_name p = Some n -> Colour_Model.lower plain_lc (str "ab") <> str n) /\
  read (str "A { hatch: 'ab' red; }") = Err /\ read (str "A { hatch: left red 50% 50%; }") = Ok [one_rule "A" [DHatch _ (VHatch HLeft (rgba_of 255 0 0 (50 / 100)) (50 / 100))]].
Proof.
  split; [discriminate|]. split; [intros p n H; destruct p; try discriminate; injection H as <-; discriminate|]. split; vm_compute; reflexivity.
Qed.
(** The percentage after the colour of a hatch goes to the colour, not to the
    opacity of the hatch. *)
Theorem C82_hatch_opacity_refuted : read (str "A { hatch: left red 50%; }") = Ok [one_rule "A" [DHatch _ (VHatch HLeft (rgba_of 255 0 0 (50 / 100)) 1)]].
Proof. vm_compute. reflexivity. Qed.
(** "auto" is accepted as an opacity, and means invisible. *)
Theorem C82_auto_opacity_refuted : read (str "A { opacity: auto; }") = Ok [one_rule "A" [DOpacity _ (VNumber 0)]].
Proof. vm_compute. reflexivity. Qed.
(** A stylesheet can crash the program. *)
Theorem C83_never_panics_refuted : read (str "A { color: rgb)(; }") = Panic.
Proof. vm_compute. reflexivity. Qed.
Example C83_example : ~ In 41 (resolve_variables ascii_alnum ex_text (extract_variables ex_text)) /\ (forall c, In 41 (plain_lc c) -> c = 41) /\ read ex_text <> Panic.
Proof.
  split; [|split].
  - assert (E : existsb (Z.eqb 41) (resolve_variables ascii_alnum ex_text (extract_variables ex_text)) = false) by (vm_compute; reflexivity).
    intro I. assert (X : existsb (Z.eqb 41) (resolve_variables ascii_alnum ex_text (extract_variables ex_text)) = true) by (apply existsb_exists; exists 41; split; [exact I|reflexivity]). congruence.
  - intros c [H|[]]. unfold ascii_lc in H. destruct ((65 <=? c) && (c <=? 90)) eqn:E; [|exact H]. apply andb_true_iff in E. rewrite !Z.leb_le in E. lia.
  - vm_compute. discriminate.
Qed.
Print Assumptions C81_unknown_without_semicolon_refuted.
Print Assumptions C81_empty_declaration_refuted.
Print Assumptions C81_wrong_nested_rule_refuted.
Print Assumptions C82_three_sides_refuted.
Print Assumptions C82_important_refuted.
Print Assumptions C82_hatch_opacity_refuted.
Print Assumptions C82_auto_opacity_refuted.
Print Assumptions C83_never_panics_refuted.
