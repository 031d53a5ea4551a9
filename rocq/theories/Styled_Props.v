(** C114: from the text of a stylesheet to the style of a widget. *)
From Coq Require Import String ZArith QArith List Bool Arith Sorted Permutation Lia.
From Verif Require Import Text_Model Css_Model Css_Spec Css_Proofs Nest_Proofs Cascade_Spec Css_Props Cascade_Props Variables_Spec Sheet_Model Sheet_Spec Sheet2_Model
  Colour_Model Colour_Spec Sheet3_Proofs Sheet_Props Styled_Model Styled_Spec Styled_Proofs.
Import ListNotations.
Local Open Scope nat_scope.
Local Open Scope list_scope.

(** *** What is written has selectors the way the parser makes them *)
Lemma complex_closed alnum x t : complex_text alnum x t -> closed x.
Proof.
  induction 1 as [k t _|k t comb c r u _ _ _ [pre [k' IH]]]; [exists [], k; reflexivity|]. exists ((k, comb) :: pre), k'. cbn. rewrite IH. reflexivity.
Qed.
Lemma selectors_closed alnum l t : selectors_text alnum l t -> Forall closed l.
Proof. induction 1; constructor; eauto using complex_closed. Qed.
Section Forms.
Variables (alnum : char -> bool) (lower : text -> text) (rnd rnd64 : Q -> Q) (parse_f32 parse_f64 : text -> option Q) (C : Type)
  (colour : text -> res C) (with_alpha : C -> Q -> C) (theme_colour : text -> C) (transparent : C).
Notation rule_text := (rule_text alnum lower rnd rnd64 parse_f32 parse_f64 C colour with_alpha theme_colour transparent).
Notation sheet_text := (sheet_text alnum lower rnd rnd64 parse_f32 parse_f64 C colour with_alpha theme_colour transparent).
Lemma rule_formed r t : rule_text r t -> well_formed r.
Proof.
  apply (rule_ind2 alnum lower rnd rnd64 parse_f32 parse_f64 C colour with_alpha theme_colour transparent (fun r _ _ => well_formed r) (fun l _ _ => forall n, In (INested _ n) l -> well_formed n)).
  - intros sels items g0 s g1 b g2 _ S _ _ IH _. constructor; [eapply selectors_closed; exact S|exact IH].
  - intros n [].
  - intros d g t' _ _ n [H|[]]. discriminate.
  - intros d g t' l u _ _ _ IH n [H|H]; [discriminate|auto].
  - intros m g t' l u _ _ _ IH n [H|H]; [discriminate|auto].
  - intros q t' l u _ IH _ IHl n [H|H]; [injection H as <-; exact IH|auto].
Qed.
Lemma sheet_formed l t : sheet_text l t -> Forall well_formed l.
Proof. induction 1; constructor; eauto using rule_formed. Qed.
End Forms.

(** *** The declarations in force, in order *)
Section Winner.
Context {V : Type}.
Variables (theme_color theme_edge theme_style theme_hatch theme_keyline auto_flag : V -> V) (v_true : V)
  (sp_top sp_right sp_bottom sp_left size_h size_v : V -> V) (merge : V -> V -> V).
Notation lem F := (F theme_color theme_edge theme_style theme_hatch theme_keyline auto_flag v_true sp_top sp_right sp_bottom sp_left size_h size_v merge).
Notation lemV F := (F V theme_color theme_edge theme_style theme_hatch theme_keyline auto_flag v_true sp_top sp_right sp_bottom sp_left size_h size_v merge).
Notation gives := (gives theme_color theme_edge theme_style theme_hatch theme_keyline auto_flag v_true sp_top sp_right sp_bottom sp_left size_h size_v).
Notation compute := (compute_style V theme_color theme_edge theme_style theme_hatch theme_keyline auto_flag v_true
  sp_top sp_right sp_bottom sp_left size_h size_v merge).

Lemma all_declared c w anc (rules : list (rule V)) : exists D, StronglySorted belowd D /\
  forall s i j d, In (s, i, j, d) D <-> exists sel, declared c (w :: anc) rules i j sel d /\ s = complex_spec sel.
Proof.
  set (ms := sort_matched V (match_rules V c w anc 0 rules)). exists (flat_map tagged ms). split.
  - apply (lem tagged_sorted). apply (lemV sort_sorted). apply (lemV match_rules_nodup).
  - intros s i j d. rewrite in_flat_map. split.
    + intros (m & M & I). apply (lem in_tagged) in I. destruct I as (-> & -> & N). apply (Permutation_in m (Permutation_sym (sort_perm _ _))) in M. apply (lemV match_rules_in) in M. destruct M as (i & r & sel & R & F & ->). exists sel. cbn in *. split; [|reflexivity]. exists r, w, anc. auto.
    + intros (sel & (r & w' & anc' & E & R & F & N) & ->). injection E as <- <-. exists (Matched V (complex_spec sel) i r). split; [|apply (lem in_tagged); auto].
      eapply Permutation_in; [apply sort_perm|]. apply (lemV match_rules_in). exists i, r, sel. auto.
Qed.
Lemma sorted_filter {A} (R : A -> A -> Prop) f l : StronglySorted R l -> StronglySorted R (filter f l).
Proof.
  induction 1 as [|a l S IH F]; cbn; [constructor|]. destruct (f a); [|exact IH]. constructor; [exact IH|]. apply Forall_forall. intros x X. apply filter_In in X. rewrite Forall_forall in F. apply F. tauto.
Qed.
Lemma sorted_last {A} (R : A -> A -> Prop) l x : StronglySorted R (l ++ [x]) -> forall y, In y l -> R y x.
Proof.
  induction l as [|a l IH]; cbn; intros S y; [tauto|]. inversion S; subst. intros [->|Y]; [|auto]. rewrite Forall_forall in *. apply H2. apply in_or_app. right. left. reflexivity.
Qed.

Variable l : list (rule V).
Hypothesis wf : Forall well_formed l.
Hypothesis ok : readable l.

Lemma decided default c w anc k v p q d ts : accumulates k = false -> decides c l (w :: anc) k p q d ts -> In (k, v) (gives d) ->
  compute default c w anc (flatten_stylesheet V l) k = v.
Proof.
  intros A (F & K & B) G. destruct (in_force_declared l wf ok _ _ _ _ _ _ _ F) as (i & j & S & D & E). eapply (lemV cascade_winner); [exact D|apply (lem C24_values); [exact G|exact A]|].
  intros i' j' sel' d' D' K'. destruct (declared_in_force l wf ok _ _ _ _ _ _ _ D') as (p' & q' & ts' & S' & F' & E'). destruct (priority l _ _ _ _ _ _ _ _ _ _ ts' ts S' S E' E) as [P1 P2].
  destruct (B _ _ _ _ F' K') as [X|X]; [left; apply P2; exact X|right; apply P1; exact X].
Qed.
Lemma undecided default c w anc k : (forall p q d ts, in_force c l (w :: anc) p q d ts -> ~ In k (properties_of d)) ->
  compute default c w anc (flatten_stylesheet V l) k = default k.
Proof.
  intros H. apply (lemV cascade_default). intros i j sel d D. destruct (declared_in_force l wf ok _ _ _ _ _ _ _ D) as (p & q & ts & _ & F & _). eauto.
Qed.
Lemma decision c w anc k : (exists p q d ts, decides c l (w :: anc) k p q d ts) \/ (forall p q d ts, in_force c l (w :: anc) p q d ts -> ~ In k (properties_of d)).
Proof.
  destruct (all_declared c w anc (flatten_stylesheet V l)) as (D & S & M).
  set (about := fun x : specificity * nat * nat * declaration V => if in_dec slot_eq_dec k (properties_of (snd x)) then true else false).
  pose proof (sorted_filter _ about D S) as S'. assert (M' : forall s i j d, In (s, i, j, d) (filter about D) <-> (exists sel, declared c (w :: anc) (flatten_stylesheet V l) i j sel d /\ s = complex_spec sel) /\ In k (properties_of d)).
  { intros s i j d. rewrite filter_In, M. unfold about. cbn. destruct (in_dec slot_eq_dec k (properties_of d)); intuition congruence. }
  destruct (filter about D) as [|x D' _] using rev_ind.
  - right. intros p q d ts F K. destruct (in_force_declared l wf ok _ _ _ _ _ _ _ F) as (i & j & _ & DD & _). apply (M' (complex_spec (spelt ts)) i j d). split; [|exact K]. exists (spelt ts). auto.
  - left. destruct x as [[[s i] j] d]. destruct (proj1 (M' s i j d)) as [(sel & DD & ->) K]; [apply in_or_app; right; left; reflexivity|].
    destruct (declared_in_force l wf ok _ _ _ _ _ _ _ DD) as (p & q & ts & ST & F & E). exists p, q, d, ts. split; [exact F|]. split; [exact K|].
    intros p' q' d' ts' F' K'. destruct (in_force_declared l wf ok _ _ _ _ _ _ _ F') as (i' & j' & ST' & DD' & E'). destruct (priority l _ _ _ _ _ _ _ _ _ _ ts' ts ST' ST E' E) as [P1 P2].
    assert (X : In (complex_spec (spelt ts'), i', j', d') (D' ++ [(complex_spec sel, i, j, d)])) by (apply M'; split; [|exact K']; exists (spelt ts'); auto).
    apply in_app_or in X. destruct X as [X|[X|[]]].
    + right. apply P1. exact (sorted_last _ _ _ S' _ X).
    + left. apply P2. congruence.
Qed.
Lemma accumulated default c w anc k : accumulates k = true -> exists L : list (list nat * nat * list complex * V),
  StronglySorted (fun a b => let '(p, q, ts, _) := a in let '(p', q', ts', _) := b in yields ts p q ts' p' q') L /\
  (forall p q ts v, In (p, q, ts, v) L <-> exists d, in_force c l (w :: anc) p q d ts /\ In (k, v) (gives d)) /\
  compute default c w anc (flatten_stylesheet V l) k = fold_left merge (map snd L) (default k).
Proof.
  intros A. destruct (lem C24_text_styles_accumulate default c w anc (flatten_stylesheet V l) k A) as (D & S & M & E).
  set (same := fun (a : specificity * nat * nat * V) (b : list nat * nat * list complex * V) => let '(s, i, j, v) := a in let '(p, q, ts, v') := b in
    v = v' /\ s = weight ts /\ stands l i j p q /\ exists d, in_force c l (w :: anc) p q d ts /\ In (k, v) (gives d)).
  assert (X : exists L, Forall2 same D L).
  { assert (G : forall x, In x D -> exists y, same x y).
    { intros [[[s i] j] v] I. apply M in I. destruct I as (sel & d & DD & -> & G). destruct (declared_in_force l wf ok _ _ _ _ _ _ _ DD) as (p & q & ts & ST & F & W). exists (p, q, ts, v). cbn. eauto 8. }
    clear -G. induction D as [|x D IH]; [exists []; constructor|]. destruct (G x (or_introl eq_refl)) as [y Y]. destruct IH as [L H]; [intros; apply G; right; auto|]. exists (y :: L). constructor; auto. }
  destruct X as [L F2]. exists L. split; [|split].
  - clear E M. induction F2 as [|[[[s i] j] v] [[[p q] ts] v'] D L H F2 IH]; constructor; inversion S; subst; auto.
    apply Forall_forall. intros [[[p' q'] ts'] v''] I. destruct H as (_ & W & ST & _).
    assert (Y : exists x, In x D /\ same x (p', q', ts', v'')). { clear -F2 I. induction F2 as [|x y D L H F2 IH]; [destruct I|]. destruct I as [->|I]; [exists x; split; [left; reflexivity|exact H]|]. destruct IH as (z & Z & K); auto. exists z. split; [right; exact Z|exact K]. }
    destruct Y as ([[[s' i'] j'] v3] & I' & _ & W' & ST' & _). rewrite Forall_forall in H3. apply H3 in I'. cbn in I'. apply (priority l _ _ _ _ _ _ _ _ _ _ ts ts' ST ST' W W'). exact I'.
  - intros p q ts v. split.
    + intros I. assert (Y : exists x, In x D /\ same x (p, q, ts, v)). { clear -F2 I. induction F2 as [|x y D L H F2 IH]; [destruct I|]. destruct I as [->|I]; [exists x; split; [left; reflexivity|exact H]|]. destruct IH as (z & Z & K); auto. exists z. split; [right; exact Z|exact K]. }
      destruct Y as ([[[s i] j] v'] & _ & <- & _ & _ & d & F & G). exists d. auto.
    + intros (d & F & G). destruct (in_force_declared l wf ok _ _ _ _ _ _ _ F) as (i & j & ST & DD & W).
      assert (I : In (complex_spec (spelt ts), i, j, v) D) by (apply M; exists (spelt ts), d; auto).
      assert (Y : exists y, In y L /\ same (complex_spec (spelt ts), i, j, v) y). { clear -F2 I. induction F2 as [|x y D L H F2 IH]; [destruct I|]. destruct I as [->|I]; [exists y; split; [left; reflexivity|exact H]|]. destruct IH as (z & Z & K); auto. exists z. split; [right; exact Z|exact K]. }
      destruct Y as ([[[p' q'] ts'] v'] & I' & <- & _ & ST' & d' & F' & _).
      destruct (priority l _ _ _ _ _ _ _ _ _ _ ts ts' ST ST' eq_refl eq_refl) as [_ P]. pose proof (proj1 P eq_refl) as PQ. injection PQ as <- <-. clear P.
      assert (TT : ts' = ts); [|subst; exact I'].
      destruct F as (ss & items & is & W1 & N1 & P1 & M1 & L1), F' as (ss' & items' & is' & W2 & N2 & P2 & M2 & L2).
      assert (EE : ss' = ss). { apply written_iff, In_nth_error in W1. apply written_iff, In_nth_error in W2. destruct W1 as [n1 W1], W2 as [n2 W2]. pose proof (sorted_nth _ _ (walks_sorted l)) as SO.
        destruct (lt_eq_lt_dec n1 n2) as [[Q|Q]|Q]; [elim (earlier_irrefl p); exact (SO _ _ _ _ Q W1 W2)|subst; congruence|elim (earlier_irrefl p); exact (SO _ _ _ _ Q W2 W1)]. }
      subst ss'. assert (II : is' = is).
      { assert (T : forall a b : list nat, length a = length b -> earlier a b \/ a = b \/ earlier b a).
        { induction a as [|x a IH]; intros [|y b] Q; cbn in *; try lia; auto. destruct (lt_eq_lt_dec x y) as [[H|H]|H]; auto. subst. destruct (IH b) as [H|[H|H]]; [lia|auto|subst; auto|auto]. }
        destruct (T is' is) as [Q|[Q|Q]]; [rewrite (picks_length _ _ _ P1), (picks_length _ _ _ P2); reflexivity| |exact Q|].
        - elim (L1 _ _ P2 Q M2).
        - elim (L2 _ _ P1 Q M1). }
      subst is'. clear -P1 P2. revert ts' P2. induction P1; intros ts' P2; inversion P2; subst; [reflexivity|]. f_equal; [congruence|auto].
  - rewrite E. f_equal. clear -F2. induction F2 as [|[[[s i] j] v] [[[p q] ts] v'] D L H F2 IH]; cbn; [reflexivity|]. destruct H as [-> _]. f_equal. exact IH.
Qed.
End Winner.

Section Reading.
Variable alnum : char -> bool.      (* char::is_alphanumeric *)
Variable lc : char -> text.         (* char::to_lowercase *)
Variables rnd rnd64 : Q -> Q.       (* rounding to f32 and f64 *)
Variables parse_f32 parse_f64 : text -> option Q.  (* str::parse *)
Hypothesis A : alnum_like alnum.
Hypothesis L : lower_ok lc.
Notation sheet_text := (Sheet_Spec.sheet_text alnum (Colour_Model.lower lc) rnd rnd64 parse_f32 parse_f64 rgba (Colour_Model.parse rnd lc parse_f32) with_alpha theme_variable (rgba_of 0 0 0 0%Q)).
Notation stylesheet := (stylesheet alnum lc rnd rnd64 parse_f32 parse_f64).
Variables (theme_color theme_edge theme_style theme_hatch theme_keyline auto_flag : V -> V) (v_true : V) (merge : V -> V -> V).
Notation style_of := (style_of theme_color theme_edge theme_style theme_hatch theme_keyline auto_flag v_true merge).
Notation gives := (gives theme_color theme_edge theme_style theme_hatch theme_keyline auto_flag v_true top right bottom left horizontal vertical).

(** The text [src] is a stylesheet of the rules [l]: written in the syntax
    outright, or after taking away comments and putting in variables. *)
Inductive spells (src : text) (l : list (rule V)) : Prop :=
| spells_plainly : comment_free src -> ~ In 36%Z src -> ~ In 13%Z src -> sheet_text l src -> spells src l
| spells_resolved : forall t ls o, strips src t -> source alnum ls t -> means ls ls o -> sheet_text l o -> spells src l.
Lemma spelled src l : spells src l -> stylesheet src = Ok (flatten_stylesheet V l) /\ Forall well_formed l.
Proof.
  intros [F D R H|t ls o S SO M H]; (split; [|eapply sheet_formed; exact H]).
  - apply (C81_plain_stylesheet_read alnum lc rnd rnd64 parse_f32 parse_f64 A L); assumption.
  - eapply (C81_stylesheet_read alnum lc rnd rnd64 parse_f32 parse_f64 A L); eassumption.
Qed.

(** The text is accepted, and the declaration that decides about a property, as
    the text stands, gives the widget its value. *)
Theorem C114_winner : forall src l default c w anc s v p k d ts, spells src l -> readable l -> accumulates s = false ->
  decides c l (w :: anc) s p k d ts -> In (s, v) (gives d) ->
  exists rules, stylesheet src = Ok rules /\ style_of default c w anc rules s = v.
Proof.
  intros src l default c w anc s v p k d ts S R N D G. destruct (spelled _ _ S) as [E W]. exists (flatten_stylesheet V l). split; [exact E|]. eapply decided; eauto.
Qed.
(** For every property either there is such a declaration, or none is in force and the default stays. *)
Theorem C114_every_property : forall src l c w anc, spells src l -> readable l ->
  exists rules, stylesheet src = Ok rules /\ forall default s, accumulates s = false ->
    (exists p k d ts v, decides c l (w :: anc) s p k d ts /\ In (s, v) (gives d) /\ style_of default c w anc rules s = v) \/
    ((forall p k d ts, in_force c l (w :: anc) p k d ts -> ~ In s (properties_of d)) /\ style_of default c w anc rules s = default s).
Proof.
  intros src l c w anc S R. destruct (spelled _ _ S) as [E W]. exists (flatten_stylesheet V l). split; [exact E|]. intros default s N.
  destruct (decision theme_color theme_edge theme_style theme_hatch theme_keyline auto_flag v_true top right bottom left horizontal vertical merge l W R c w anc s) as [(p & k & d & ts & D)|D].
  - left. destruct (proj1 (gives_keys theme_color theme_edge theme_style theme_hatch theme_keyline auto_flag v_true top right bottom left horizontal vertical merge d s) (proj1 (proj2 D))) as [v G].
    exists p, k, d, ts, v. split; [exact D|]. split; [exact G|]. eapply decided; eauto.
  - right. split; [exact D|]. apply undecided; auto.
Qed.
(** Text styles: all declarations in force are merged into the default, those that yield first. *)
Theorem C114_text_styles : forall src l default c w anc s, spells src l -> readable l -> accumulates s = true ->
  exists rules vs, stylesheet src = Ok rules /\
    StronglySorted (fun a b : list nat * nat * list complex * V => let '(p, k, ts, _) := a in let '(p', k', ts', _) := b in yields ts p k ts' p' k') vs /\
    (forall p k ts v, In (p, k, ts, v) vs <-> exists d, in_force c l (w :: anc) p k d ts /\ In (s, v) (gives d)) /\
    style_of default c w anc rules s = fold_left merge (map snd vs) (default s).
Proof.
  intros src l default c w anc s S R N. destruct (spelled _ _ S) as [E W].
  destruct (accumulated theme_color theme_edge theme_style theme_hatch theme_keyline auto_flag v_true top right bottom left horizontal vertical merge l W R default c w anc s N) as (vs & H). exists (flatten_stylesheet V l), vs. split; [exact E|exact H].
Qed.
(** A declaration of four sides, or of two scroll bars, gives each its own. *)
Theorem C114_sides : forall src l default c w anc p k ts, spells src l -> readable l -> exists rules, stylesheet src = Ok rules /\
  (forall a b d e s v, In (s, v) [(margin_top, a); (margin_right, b); (margin_bottom, d); (margin_left, e)] ->
     decides c l (w :: anc) s p k (DMargin V (VSpacing a b d e)) ts -> style_of default c w anc rules s = VScalar v) /\
  (forall a b d e s v, In (s, v) [(padding_top, a); (padding_right, b); (padding_bottom, d); (padding_left, e)] ->
     decides c l (w :: anc) s p k (DPadding V (VSpacing a b d e)) ts -> style_of default c w anc rules s = VScalar v) /\
  (forall h n s v, In (s, v) [(sb_size_horizontal, h); (sb_size_vertical, n)] ->
     decides c l (w :: anc) s p k (DScrollbarSize V (VSizes h n)) ts -> style_of default c w anc rules s = VInt v).
Proof.
  intros src l default c w anc p k ts S R. destruct (spelled _ _ S) as [E W]. exists (flatten_stylesheet V l). split; [exact E|]. split; [|split].
  - intros a b d e s v H D. cbn [In] in H. repeat (destruct H as [H|H]; [injection H as <- <-; eapply decided; [exact W|exact R|reflexivity|exact D|cbn; tauto]|]); destruct H.
  - intros a b d e s v H D. cbn [In] in H. repeat (destruct H as [H|H]; [injection H as <- <-; eapply decided; [exact W|exact R|reflexivity|exact D|cbn; tauto]|]); destruct H.
  - intros h n s v H D. cbn [In] in H. repeat (destruct H as [H|H]; [injection H as <- <-; eapply decided; [exact W|exact R|reflexivity|exact D|cbn; tauto]|]); destruct H.
Qed.
(** Two texts whose rules read the same give every widget the same style. *)
Theorem C114_spelling_irrelevant : forall src src' l, spells src l -> spells src' l -> stylesheet src = stylesheet src'.
Proof. intros src src' l S S'. destruct (spelled _ _ S) as [-> _], (spelled _ _ S') as [-> _]. reflexivity. Qed.
End Reading.
Print Assumptions C114_winner.
Print Assumptions C114_every_property.
Print Assumptions C114_text_styles.
Print Assumptions C114_sides.
Print Assumptions C114_spelling_irrelevant.

(** *** Example *)
Definition ex114 : text := str "A { width: 50%; &.b { width: auto; } }".
Definition ex_auto : declaration V := DWidth _ (VScalar (Scalar 0 Auto)).
Definition ex_A : complex := [([SType (str "A")], CNone)].
Definition ex_b : complex := [([SParent; SClass (str "b")], CNone)].
Definition ex_rules : list (rule V) := [Rule V [ex_A] [IDecl V width50; INested V (Rule V [ex_b] [IDecl V ex_auto])]].
Lemma auto_text : ex_declaration ex_auto (str "width: auto").
Proof.
  apply (d_known _ _ _ _ _ _ _ _ _ _ _ ex_auto (str "width") (str "auto") true [] (str " ") [] []); [|gp|gp|apply i_no|gp].
  apply (p_scalar _ _ _ _ _ _ _ _ _ _ _ "width" (DWidth _)); [cbn; tauto|]. apply s_auto.
Qed.
Lemma ex_rules_text : ex_sheet ex_rules ex114.
Proof.
  apply (sh_rule _ _ _ _ _ _ _ _ _ _ _ _ ex114 _ []); [|apply sh_end; gp].
  apply (r_rule _ _ _ _ _ _ _ _ _ _ _ [ex_A] _ [] (str "A") (str " ") (str " width: 50%; &.b { width: auto; }") (str " ")); [gp| |gp| |gp].
  - apply l_one, x_last, c_one, t_type. idt.
  - apply (b_declaration _ _ _ _ _ _ _ _ _ _ _ width50 (str " ") (str "width: 50%") _ (str " &.b { width: auto; }")); [gp|exact width_text|].
    apply (b_nested _ _ _ _ _ _ _ _ _ _ _ _ (str " &.b { width: auto; }") _ []); [|apply b_nil].
    apply (r_rule _ _ _ _ _ _ _ _ _ _ _ [ex_b] _ (str " ") (str "&.b") (str " ") (str " width: auto;") (str " ")); [gp| |gp| |gp].
    + apply l_one, x_last. apply (c_more _ _ (str "&") _ (str ".b")); [apply t_parent|apply c_one, t_class; idt|cbn; tauto].
    + apply (b_declaration _ _ _ _ _ _ _ _ _ _ _ ex_auto (str " ") (str "width: auto") _ []); [gp|exact auto_text|apply b_nil].
Qed.
Lemma ex_spells : spells ascii_alnum plain_lc same same fifty fifty ex114 ex_rules.
Proof.
  assert (N : forall c, existsb (Z.eqb c) ex114 = false -> ~ In c ex114).
  { intros c E I. assert (X : existsb (Z.eqb c) ex114 = true) by (apply existsb_exists; exists c; split; [exact I|apply Z.eqb_refl]). congruence. }
  assert (S47 : ~ In 47%Z ex114) by (apply N; vm_compute; reflexivity).
  apply spells_plainly; [|apply N; vm_compute; reflexivity|apply N; vm_compute; reflexivity|exact ex_rules_text].
  split; intros [a [b E]]; apply S47; rewrite E; apply in_or_app; right; left; reflexivity.
Qed.
Lemma ex_written p ss items : written ex_rules p ss items ->
  (p = [0] /\ ss = [[ex_A]] /\ items = [IDecl V width50; INested V (Rule V [ex_b] [IDecl V ex_auto])]) \/
  (p = [0; 1] /\ ss = [[ex_A]; [ex_b]] /\ items = [IDecl V ex_auto]).
Proof. intros H. apply written_iff in H. cbn in H. destruct H as [H|[H|[]]]; injection H as <- <- <-; auto. Qed.
Lemma one_pick s ss is ts : picks ([s] :: ss) is ts -> exists is' ts', is = 0 :: is' /\ ts = s :: ts' /\ picks ss is' ts'.
Proof. intros H. inversion H; subst. destruct i as [|[|i]]; try discriminate. injection H2 as ->. eauto. Qed.
Lemma ex_picks_1 is ts : picks [[ex_A]] is ts -> is = [0] /\ ts = [ex_A].
Proof. intros H. apply one_pick in H. destruct H as (is' & ts' & -> & -> & H). inversion H. auto. Qed.
Lemma ex_picks_2 is ts : picks [[ex_A]; [ex_b]] is ts -> is = [0; 0] /\ ts = [ex_A; ex_b].
Proof. intros H. apply one_pick in H. destruct H as (is' & ts' & -> & -> & H). apply one_pick in H. destruct H as (is2 & ts2 & -> & -> & H). inversion H. auto. Qed.
Lemma ex_readable : readable ex_rules.
Proof.
  intros p ss items is ts W P. apply ex_written in W. destruct W as [(-> & -> & ->)|(-> & -> & ->)]; [apply ex_picks_1 in P|apply ex_picks_2 in P]; destruct P as [-> ->]; intros i j b _ H; destruct i; discriminate.
Qed.
Definition ex_ctx : ctx := Ctx true false false.
Definition ex_widget : meta := Meta (str "A") [] None [str "b"] (States false false false false).
(** the nested declaration decides about the width of a widget A with class b *)
Example C114_example : spells ascii_alnum plain_lc same same fifty fifty ex114 ex_rules /\ readable ex_rules /\
  in_force ex_ctx ex_rules [ex_widget] [0] 0 width50 [ex_A] /\ decides ex_ctx ex_rules [ex_widget] width [0; 1] 0 ex_auto [ex_A; ex_b].
Proof.
  assert (MA : meaning ex_ctx [ex_A] [ex_widget]) by (cbn; constructor; [left; reflexivity|constructor]).
  assert (MB : meaning ex_ctx [ex_A; ex_b] [ex_widget]) by (cbn; split; [exact MA|constructor; [left; reflexivity|constructor]]).
  assert (WA : written ex_rules [0] [[ex_A]] [IDecl V width50; INested V (Rule V [ex_b] [IDecl V ex_auto])]) by (apply written_top; reflexivity).
  split; [exact ex_spells|]. split; [exact ex_readable|]. split; [|split; [|split]].
  - exists [[ex_A]], [IDecl V width50; INested V (Rule V [ex_b] [IDecl V ex_auto])], [0]. split; [exact WA|]. split; [reflexivity|]. split; [repeat econstructor|]. split; [exact MA|]. intros is' ts' P E. apply ex_picks_1 in P. destruct P as [-> _]. cbn in E. lia.
  - exists [[ex_A]; [ex_b]], [IDecl V ex_auto], [0; 0]. split; [apply (written_in _ [0] [[ex_A]] _ 1 _ _ WA); reflexivity|]. split; [reflexivity|]. split; [repeat econstructor|]. split; [exact MB|]. intros is' ts' P E. apply ex_picks_2 in P. destruct P as [-> _]. cbn in E. lia.
  - left. reflexivity.
  - intros p' k' d' ts' (ss & items & is & W & N & P & M & _) K. apply ex_written in W. destruct W as [(-> & -> & ->)|(-> & -> & ->)].
    + right. apply ex_picks_1 in P. destruct P as [_ ->]. left. right. split; [reflexivity|]. left. vm_compute. lia.
    + left. destruct k' as [|[|k']]; try discriminate. reflexivity.
Qed.
(** The order is not that of the text where a declaration follows a nested rule:
    it comes before all nested rules, and so it loses against them. *)
Definition ex_style (rules : list (rule V)) : V := style_of (fun v => v) (fun v => v) (fun v => v) (fun v => v) (fun v => v) (fun v => v) (VInt 0) (fun _ v => v) (fun _ => (VInt 0)) ex_ctx ex_widget [] rules width.
Theorem C114_declaration_after_nested_rule_refuted : exists rules,
  read (str "A { & { width: auto; } width: 50%; }") = Ok rules /\ ex_style rules = VScalar (Scalar 0 Auto) /\
  exists rules', read (str "A { width: auto; } A { width: 50%; }") = Ok rules' /\ ex_style rules' = VScalar percent50.
Proof. eexists. split; [vm_compute; reflexivity|]. split; [reflexivity|]. eexists. split; [vm_compute; reflexivity|reflexivity]. Qed.
Print Assumptions C114_declaration_after_nested_rule_refuted.
