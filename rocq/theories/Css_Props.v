(** C22-C27: selectors, specificity, cascade, nesting, comments, blocks. *)
From Coq Require Import String ZArith List Bool Arith Lia.
From Verif Require Import Text_Model Css_Model Css_Spec Css_Proofs Nest_Proofs.
Import ListNotations.
Local Open Scope nat_scope.

(** *** C22 selector matching *)

Theorem C22_match_is_sound : forall c w ancestors sel,
  matches_complex c w ancestors sel = true -> css c sel (w :: ancestors).
Proof. exact matches_complex_sound. Qed.

Theorem C22_match_is_complete : forall c w ancestors sel, no_child_left_of_descendant sel ->
  css c sel (w :: ancestors) -> matches_complex c w ancestors sel = true.
Proof. exact matches_complex_complete. Qed.

Theorem C22_sibling_combinators_never_match : forall c w ancestors before k comb after,
  comb = CAdjacent \/ comb = CSibling -> after <> [] ->
  matches_complex c w ancestors (before ++ (k, comb) :: after) = false.
Proof. exact matches_complex_sibling. Qed.

Definition plain_states := States false false false false.
Definition wt (n : string) : meta := Meta (str n) [] None [] plain_states.
Definition light_ctx := Ctx false false false.
Definition ty (n : string) : compound := [SType (str n)].

(* A > B C on the chain C, B, X, B, A *)
Theorem C22_child_then_descendant_missed_refuted :
  exists c w ancestors sel, css c sel (w :: ancestors) /\ matches_complex c w ancestors sel = false.
Proof.
  exists light_ctx, (wt "C"), [wt "B"; wt "X"; wt "B"; wt "A"], [(ty "A", CChild); (ty "B", CDescendant); (ty "C", CNone)].
  split; [|reflexivity]. cbn [css extends]. split.
  - repeat constructor.
  - exists [wt "B"; wt "A"]. split.
    + split; [repeat constructor|]. exists [wt "A"]. split; [repeat constructor|]. exists (wt "B"). reflexivity.
    + exists (wt "C"), [wt "B"; wt "X"]. reflexivity.
Qed.

(* App Panel > Button.primary:hover *)
Example C22_example :
  let sel := [(ty "App", CDescendant); (ty "Panel", CChild); ([SType (str "Button"); SClass (str "primary"); SPseudo (str "hover")], CNone)] in
  let b := Meta (str "Button") [] None [str "primary"] (States false true false false) in
  no_child_left_of_descendant sel /\ matches_complex light_ctx b [wt "Panel"; wt "Box"; wt "App"] sel = true.
Proof.
  cbn zeta. split; [|reflexivity].
  intros i j ki ci kj cj Hij Hi Hj Hd. cbn in Hij.
  assert (i = 0) as -> by lia. assert (j = 1) as -> by lia. cbn in Hi. injection Hi as _ <-. discriminate.
Qed.

(** *** C23 specificity *)

Theorem C23_specificity_counts : forall sel, complex_spec sel =
  Spec (count_if is_id (simple_selectors sel)) (count_if is_class_like (simple_selectors sel)) (count_if is_type (simple_selectors sel)).
Proof. intro sel. rewrite complex_spec_flat. apply compound_spec_counts. Qed.

Theorem C23_comparison_is_lexicographic : forall a b,
  (spec_cmp a b = Lt <-> spec_lt a b) /\ (spec_cmp a b = Eq <-> a = b) /\ (spec_cmp a b = Gt <-> spec_lt b a).
Proof.
  intros a b. split; [apply spec_cmp_lt|]. split; [apply spec_cmp_eq|].
  rewrite <- (spec_cmp_lt b a), (spec_cmp_antisym a b). destruct (spec_cmp a b); cbn; split; congruence.
Qed.

Theorem C23_strict_total_order : (forall a, ~ spec_lt a a) /\ (forall a b d, spec_lt a b -> spec_lt b d -> spec_lt a d) /\
  (forall a b, spec_lt a b \/ a = b \/ spec_lt b a).
Proof. split; [exact spec_lt_irrefl|]. split; [exact spec_lt_trans|exact spec_total]. Qed.

Theorem C23_adds_up : forall a b, complex_spec (a ++ b) = spec_add (complex_spec a) (complex_spec b).
Proof.
  intros a b. rewrite !complex_spec_flat. unfold simple_selectors. rewrite flat_map_app. apply compound_spec_app.
Qed.

Theorem C23_more_conditions_never_lower : forall before k k' comb after s,
  k' = k ++ [s] ->
  complex_spec (before ++ (k, comb) :: after) = complex_spec (before ++ (k', comb) :: after) \/
  spec_lt (complex_spec (before ++ (k, comb) :: after)) (complex_spec (before ++ (k', comb) :: after)).
Proof.
  intros before k k' comb after s ->. rewrite !C23_adds_up.
  change ((k ++ [s], comb) :: after) with ([(k ++ [s], comb)] ++ after).
  change ((k, comb) :: after) with ([(k, comb)] ++ after). rewrite !C23_adds_up.
  rewrite !(complex_spec_flat [_]). unfold simple_selectors. cbn [flat_map fst]. rewrite !app_nil_r, compound_spec_app.
  destruct (complex_spec before), (complex_spec after), (compound_spec k).
  destruct s; unfold spec_add, spec_lt; cbn; try (right; lia); left; f_equal; lia.
Qed.

(** one id outranks any number of classes and types *)
Theorem C23_id_outranks : forall a b, count_if is_id (simple_selectors a) < count_if is_id (simple_selectors b) ->
  spec_lt (complex_spec a) (complex_spec b).
Proof. intros a b H. rewrite !C23_specificity_counts. left. exact H. Qed.

Example C23_example :
  complex_spec [([SType (str "A"); SClass (str "x")], CDescendant); ([SId (str "i"); SPseudo (str "hover"); SUniversal], CNone)] = Spec 1 2 1.
Proof. reflexivity. Qed.

(** *** C24 cascade *)
Section Cascade.
Context {V : Type}.
Variables (theme_color theme_edge theme_style theme_hatch theme_keyline auto_flag : V -> V) (v_true : V)
  (sp_top sp_right sp_bottom sp_left size_h size_v : V -> V) (merge : V -> V -> V).
Notation applyd := (apply_declaration V theme_color theme_edge theme_style theme_hatch theme_keyline auto_flag v_true
  sp_top sp_right sp_bottom sp_left size_h size_v merge).
Notation compute := (compute_style V theme_color theme_edge theme_style theme_hatch theme_keyline auto_flag v_true
  sp_top sp_right sp_bottom sp_left size_h size_v merge).

(** A declaration changes only the properties it names ... *)
Theorem C24_declaration_touches_only_its_properties : forall d k, ~ In k (properties_of d) -> leaves applyd d k.
Proof. apply leaves_others. Qed.

(** ... and fixes their values, except for text styles, which accumulate. *)
Theorem C24_declaration_fixes_its_properties : forall d k, In k (properties_of d) -> accumulates k = false ->
  exists v, assigns applyd d k v.
Proof. apply assigns_own. Qed.

Theorem C24_highest_priority_wins : forall default c w ancestors rules k v i j sel d,
  declared c (w :: ancestors) rules i j sel d -> assigns applyd d k v ->
  (forall i' j' sel' d', declared c (w :: ancestors) rules i' j' sel' d' -> In k (properties_of d') ->
     (i', j') = (i, j) \/ lower_priority (complex_spec sel') i' j' (complex_spec sel) i j) ->
  compute default c w ancestors rules k = v.
Proof. intros. eapply cascade_winner; eassumption. Qed.

Theorem C24_untouched_property_keeps_default : forall default c w ancestors rules k,
  (forall i j sel d, declared c (w :: ancestors) rules i j sel d -> ~ In k (properties_of d)) ->
  compute default c w ancestors rules k = default k.
Proof. intros. apply cascade_default. assumption. Qed.

(** rules none of whose selectors match have no effect at all *)
Theorem C24_non_matching_rule_is_inert : forall default c w ancestors before r after k,
  (forall sel, In sel (r_sels V r) -> ~ css c sel (w :: ancestors)) ->
  compute default c w ancestors (before ++ r :: after) k =
  compute default c w ancestors (before ++ Rule V [] [] :: after) k.
Proof.
  intros default c w anc before r after k H. rewrite !compute_flat.
  assert (E : forall idx, match_rules V c w anc idx (before ++ r :: after) = match_rules V c w anc idx (before ++ Rule V [] [] :: after)).
  { assert (N : find (matches_complex c w anc) (r_sels V r) = None).
    { destruct (find _ _) as [sel|] eqn:F; [|reflexivity]. apply find_some in F. destruct F as [F1 F2].
      exfalso. apply (H sel F1). apply matches_complex_sound. exact F2. }
    induction before as [|b before IH]; intro idx; cbn [app match_rules].
    - rewrite N. cbn. reflexivity.
    - rewrite IH. reflexivity. }
  rewrite E. reflexivity.
Qed.

End Cascade.

(** The model instantiated with numbers as values. *)
Definition compute_nat := compute_style nat (fun x => x) (fun x => x) (fun x => x) (fun x => x) (fun x => x) (fun _ => 0) 1
  (fun x => x) (fun x => x) (fun x => x) (fun x => x) (fun x => x) (fun x => x) Nat.max.
Definition red := 1.
Definition blue := 2.
Definition ok_button : meta := Meta (str "Button") [] (Some (str "ok")) [str "primary"] plain_states.
Definition sel1 (s : selector) : complex := [([s], CNone)].

(** With a selector list the specificity of the first selector that matches
    counts, not the highest: [Button, #ok { color: red }] loses to [.primary {
    color: blue }] on the button with id ok although #ok is more specific. *)
Theorem C24_selector_list_specificity_refuted :
  let rules := [Rule nat [sel1 (SType (str "Button")); sel1 (SId (str "ok"))] [IDecl nat (DColor nat red)];
                Rule nat [sel1 (SClass (str "primary"))] [IDecl nat (DColor nat blue)]] in
  matches_complex light_ctx ok_button [] (sel1 (SId (str "ok"))) = true /\
  spec_lt (complex_spec (sel1 (SClass (str "primary")))) (complex_spec (sel1 (SId (str "ok")))) /\
  compute_nat (fun _ => 0) light_ctx ok_button [] rules color = blue.
Proof. cbn zeta. split; [reflexivity|]. split; [left; cbn; lia|reflexivity]. Qed.

(* Button.primary { width: 7; margin: 3 } beats a later Button { width: 5; margin-top: 9 } for both *)
Example C24_example :
  let rules := [Rule nat [[([SType (str "Button"); SClass (str "primary")], CNone)]] [IDecl nat (DWidth nat 7); IDecl nat (DMargin nat 3)];
                Rule nat [sel1 (SType (str "Button"))] [IDecl nat (DWidth nat 5); IDecl nat (DMarginTop nat 9); IDecl nat (DHeight nat 4)]] in
  let s := compute_nat (fun _ => 0) light_ctx ok_button [] rules in
  s width = 7 /\ s margin_top = 3 /\ s margin_left = 3 /\ s height = 4 /\ s opacity = 0 /\
  declared light_ctx [ok_button] rules 0 0 [([SType (str "Button"); SClass (str "primary")], CNone)] (DWidth nat 7).
Proof.
  cbn zeta. repeat (split; [reflexivity|]). eexists _, _, _. repeat (split; [reflexivity|]). reflexivity.
Qed.

(** *** C25 nesting *)

Theorem C25_combined_selector_means_nesting : forall c parent child ch, closed parent -> child <> [] ->
  css c (combine_one parent child) ch <-> nested_css c (css c parent) child ch.
Proof. exact combine_one_css. Qed.

Theorem C25_flattened_stylesheet_means_nesting : forall {V} c (rules : list (rule V)) d ch,
  Forall well_formed rules ->
  (exists fr, In fr (flatten_stylesheet V rules) /\ In d (decls_of V (r_items V fr)) /\ exists s, In s (r_sels V fr) /\ css c s ch) <->
  exists r, In r rules /\ declares c (fun x => exists s, In s (r_sels V r) /\ css c s x) r d ch.
Proof. intro V. exact (flatten_stylesheet_correct V). Qed.

(** An ampersand after the first compound is never resolved: the selector
    [.dark &] nested in any rule matches no widget. *)
Theorem C25_later_ampersand_never_matches_refuted : forall c w ancestors parent k,
  closed parent -> existsb is_parent k = false ->
  matches_complex c w ancestors (combine_one parent [(k, CDescendant); ([SParent], CNone)]) = false.
Proof.
  intros c w anc parent k _ Hk. unfold combine_one. rewrite Hk. unfold matches_complex.
  rewrite rev_app_distr. reflexivity.
Qed.

(* Panel { &:hover > Button { color: red } .x { color: blue } } *)
Example C25_example :
  let r := Rule nat [[(ty "Panel", CNone)]]
    [INested nat (Rule nat [[([SParent; SPseudo (str "hover")], CChild); (ty "Button", CNone)]] [IDecl nat (DColor nat red)]);
     INested nat (Rule nat [sel1 (SClass (str "x"))] [IDecl nat (DColor nat blue)])] in
  well_formed r /\
  flatten_stylesheet nat [r] =
   [Rule nat [[([SType (str "Panel"); SPseudo (str "hover")], CChild); (ty "Button", CNone)]] [IDecl nat (DColor nat red)];
    Rule nat [[(ty "Panel", CDescendant); ([SClass (str "x")], CNone)]] [IDecl nat (DColor nat blue)]].
Proof.
  cbn zeta. split; [|reflexivity].
  assert (E : forall k, closed [(k, CNone)]) by (intro k; exists [], k; reflexivity).
  constructor; [constructor; [apply E|constructor]|].
  intros n [H|[H|[]]]; injection H as <-; (constructor; [|intros n [X|[]]; discriminate X]);
    (constructor; [|constructor]).
  - exists [([SParent; SPseudo (str "hover")], CChild)], (ty "Button"). reflexivity.
  - apply E.
Qed.

(** *** C26 comments *)

Theorem C26_strips_exactly_the_comments : forall t o, strips t o <-> strip_comments t = o.
Proof. exact strip_comments_strips. Qed.

Theorem C26_output_has_no_comment : forall t, comment_free (strip_comments t).
Proof. intro t. eapply strips_comment_free. apply strip_comments_strips. reflexivity. Qed.

Theorem C26_comment_free_unchanged : forall t, comment_free t -> strip_comments t = t.
Proof. intros t H. apply strip_comments_strips, comment_free_strips, H. Qed.

Theorem C26_idempotent : forall t, strip_comments (strip_comments t) = strip_comments t.
Proof. intro t. apply C26_comment_free_unchanged, C26_output_has_no_comment. Qed.

Example C26_example : strip_comments (str "a/**/b // x" ++ [10%Z] ++ str "c/d /* y")
  = str "a b " ++ [10%Z] ++ str "c/d ".
Proof. reflexivity. Qed.

(** *** C27 blocks *)

Theorem C27_shortest_balanced_prefix : forall t taken remaining,
  take_until_balanced_braces t = (taken, remaining) ->
  t = taken ++ remaining /\
  ((closed_block taken /\ forall q r, taken = q ++ r -> r <> [] -> ~ closed_block q) \/
   (remaining = [] /\ forall q r, t = q ++ r -> ~ closed_block q)).
Proof. exact take_until_spec. Qed.

Theorem C27_takes_the_whole_block : forall header inner rest, no_brace header -> nested inner ->
  take_until_balanced_braces (header ++ c_lbrace :: inner ++ c_rbrace :: rest) =
    (header ++ c_lbrace :: inner ++ [c_rbrace], rest).
Proof. exact take_block. Qed.

(** An unclosed block swallows everything after it. *)
Theorem C27_unclosed_block_swallows_rest : forall header inner, no_brace header -> nested inner ->
  take_until_balanced_braces (header ++ c_lbrace :: inner) = (header ++ c_lbrace :: inner, []).
Proof.
  intros h inner Hh Hi. unfold take_until_balanced_braces. rewrite take_no_brace by exact Hh.
  cbn [take_balanced]. rewrite Z.eqb_refl.
  replace inner with (inner ++ []) at 1 by apply app_nil_r.
  rewrite take_nested by (exact Hi || lia). cbn. rewrite app_nil_r. reflexivity.
Qed.

Example C27_example : take_until_balanced_braces (str "a { b { x } } c {}") = (str "a { b { x } }", str " c {}").
Proof. reflexivity. Qed.

Print Assumptions C22_match_is_sound.
Print Assumptions C22_match_is_complete.
Print Assumptions C22_sibling_combinators_never_match.
Print Assumptions C22_child_then_descendant_missed_refuted.
Print Assumptions C23_specificity_counts.
Print Assumptions C23_comparison_is_lexicographic.
Print Assumptions C23_strict_total_order.
Print Assumptions C23_adds_up.
Print Assumptions C23_more_conditions_never_lower.
Print Assumptions C23_id_outranks.
Print Assumptions C24_declaration_touches_only_its_properties.
Print Assumptions C24_declaration_fixes_its_properties.
Print Assumptions C24_highest_priority_wins.
Print Assumptions C24_untouched_property_keeps_default.
Print Assumptions C24_non_matching_rule_is_inert.
Print Assumptions C24_selector_list_specificity_refuted.
Print Assumptions C25_combined_selector_means_nesting.
Print Assumptions C25_flattened_stylesheet_means_nesting.
Print Assumptions C25_later_ampersand_never_matches_refuted.
Print Assumptions C26_strips_exactly_the_comments.
Print Assumptions C26_output_has_no_comment.
Print Assumptions C26_comment_free_unchanged.
Print Assumptions C26_idempotent.
Print Assumptions C27_shortest_balanced_prefix.
Print Assumptions C27_takes_the_whole_block.
Print Assumptions C27_unclosed_block_swallows_rest.
