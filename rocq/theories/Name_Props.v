(** C115: how widgets are named and reached by queries and by stylesheets. *)
From Coq Require Import String ZArith List Bool Arith Lia.
From Verif Require Import Text_Model Tree_Model Css_Model Keys_Proofs Name_Model Name_Spec Name_Proofs.
From Verif Require Tree_Props.
Import ListNotations.
Open Scope nat_scope.
Open Scope list_scope.

(** *** Names *)
(** A widget of the program goes by the name of its type, without modules and type
    arguments, in queries and in stylesheets, there also as Widget and DOMNode. *)
Theorem C115_program_widget : forall mods name args any m id l ks cs st, Forall word mods -> word name -> arguments args ->
  let w := W (KUser (path_of mods name args) any) id l ks in
  type_name m w = name /\ m_types (meta_of m cs st w) = [name; str "Widget"; str "DOMNode"].
Proof. intros mods name args any m id l ks cs st M N A. pose proof (short_path mods name args M N A) as P. split; [exact P|]. change ([short_name (path_of mods name args); str "Widget"; str "DOMNode"] = [name; str "Widget"; str "DOMNode"]). rewrite P. reflexivity. Qed.
Example C115_program_widget_example : path_of [str "my_app"; str "ui"] (str "Clock") (str "<my_app::Message>") = str "my_app::ui::Clock<my_app::Message>" /\
  Forall word [str "my_app"; str "ui"] /\ word (str "Clock") /\ arguments (str "<my_app::Message>").
Proof.
  assert (X : forall t, t <> [] -> existsb (Z.eqb 58) t = false -> existsb (Z.eqb 60) t = false -> word t).
  { intros t N A B. split; [exact N|]. split; intros I; [apply (Bool.eq_true_false_abs (existsb (Z.eqb 58) t))|apply (Bool.eq_true_false_abs (existsb (Z.eqb 60) t))]; auto; apply existsb_exists; eexists; (split; [exact I|reflexivity]). }
  split; [reflexivity|]. split; [repeat constructor; apply X; (discriminate || reflexivity)|]. split; [apply X; (discriminate || reflexivity)|]. right. eexists. reflexivity.
Qed.
(** A widget of the library goes by its own name in queries (the application is the exception, below). *)
Theorem C115_query_names : forall m k id l ks n, own_name k = Some n -> k <> KApp -> type_name m (W k id l ks) = n.
Proof.
  intros m k id l ks n O N. destruct k; try discriminate O; try congruence; injection O as <-; reflexivity.
Qed.
(** In stylesheets it goes by the same name, by the names of what it is made of, and as Widget and DOMNode. *)
Theorem C115_style_names : forall c m cs st k id l ks n t, own_name k = Some n ->
  (matches_selector c (meta_of m cs st (W k id l ks)) (SType t) = true <-> t = n \/ In t (families k l)).
Proof.
  intros c m cs st k id l ks n t O.
  assert (E : matches_selector c (meta_of m cs st (W k id l ks)) (SType t) = existsb (fun x => text_eqb x t) (meta_names m k l)).
  { cbn. destruct k; try reflexivity; destruct l; reflexivity. }
  rewrite E, existsb_exists.
  assert (P : (exists x, In x (meta_names m k l) /\ text_eqb x t = true) <-> In t (meta_names m k l)).
  { split; [intros (x & I & H); apply text_eqb_iff in H; subst; exact I|intros I; exists t; split; [exact I|apply text_eqb_iff; reflexivity]]. }
  rewrite P. assert (Q : incl (meta_names m k l) (n :: families k l) /\ incl (n :: families k l) (meta_names m k l)).
  { destruct k; try discriminate O; injection O as <-; [..]; try destruct l; split; intros x; cbn; tauto. }
  destruct Q as [Q1 Q2]. split; [intros I; apply Q1 in I; destruct I; auto|intros [I|I]; apply Q2; cbn; auto].
Qed.
(** So whatever a query by type finds, a rule for that type is for. *)
Theorem C115_query_then_rule : forall c m cs st w, kind_of w <> Some KApp -> is_boxed w = false ->
  matches_selector c (meta_of m cs st w) (SType (type_name m w)) = true.
Proof.
  intros c m cs st [k id l ks|v] N B; [|discriminate]. destruct (own_name k) as [n|] eqn:O.
  - apply (C115_style_names c m cs st k id l ks n _ O). left. apply C115_query_names; [exact O|]. intros ->. apply N. reflexivity.
  - destruct k; try discriminate O. cbn. rewrite (proj2 (text_eqb_iff _ _) eq_refl). reflexivity.
Qed.
(** Ids are the same for both. *)
Theorem C115_ids : forall c m cs st w i, built w -> trim (35%Z :: i) = 35%Z :: i ->
  (sel_finds m (parse_selector (35%Z :: i)) w = true <-> matches_selector c (meta_of m cs st w) (SId i) = true).
Proof.
  intros c m cs st w i B T. assert (E : m_id (meta_of m cs st w) = id_of w).
  { clear T. induction w as [k id l ks|v IH]; [|exact (IH B)]. destruct k; cbn in *; subst; reflexivity. }
  assert (P : parse_selector (35%Z :: i) = SSel None (Some i)) by (unfold parse_selector; rewrite T; reflexivity). rewrite P.
  change ((true && has_id i (asked m w)) && true = true <-> match m_id (meta_of m cs st w) with Some x => text_eqb x i | None => false end = true).
  rewrite E, andb_true_r. reflexivity.
Qed.
Example C115_ids_example : built (Boxed (W KLabel (Some (str "a")) DOther [])) /\ sel_finds [] (parse_selector (str "#a")) (Boxed (W KLabel (Some (str "a")) DOther [])) = true.
Proof. split; [exact I|reflexivity]. Qed.

(** *** Who is reached *)
(** All that a query can see is styled. *)
Theorem C115_seen_is_styled : forall t p x, reach children t p = Some x -> reach styled_children t p = Some x.
Proof. intros t p x. apply reach_more. Qed.
(** All children of a widget that holds children are styled, in their order. *)
Theorem C115_children_styled : forall k id l ks, (leaf k -> styled_children (W k id l ks) = []) /\ (~ leaf k -> styled_children (W k id l ks) = ks).
Proof. intros k id l ks. unfold leaf. destruct k; (split; intros H; [cbn in H; try reflexivity; intuition discriminate|try reflexivity; elim H; cbn; tauto]). Qed.
(** And a query can see all that is styled, in the same places, except the parts of headers and lists of options. *)
Theorem C115_styled_is_seen : forall t, (forall p x k, reach styled_children t p = Some x -> kind_of x = Some k -> closed_kind k = false) ->
  forall p, reach children t p = reach styled_children t p.
Proof. exact reach_same. Qed.
Definition ex_tree : widget := W KApp None DOther [W KScreen None DOther
  [W KVertical None DVertical [W KLabel (Some (str "x")) DOther []; W KSwitch (Some (str "x")) DOther []]; W KCenter None DOther [Boxed (W KSwitch None DOther [])]]].
Example C115_styled_is_seen_example : (forall p x k, reach styled_children ex_tree p = Some x -> kind_of x = Some k -> closed_kind k = false) /\
  exists p, length p = 3 /\ reach children ex_tree p <> None.
Proof.
  split; [|exists [0; 0; 1]; split; [reflexivity|discriminate]].
  intros p x k R E.
  assert (A : forall n w, height w <= n -> (fix ok (n : nat) (w : widget) : bool := match n with O => true | S n' => (match kind_of w with Some k => negb (closed_kind k) | None => true end) && forallb (ok n') (styled_children w) end) n w = true ->
    forall p x k, length p < n -> reach styled_children w p = Some x -> kind_of x = Some k -> closed_kind k = false).
  { induction n as [|n IH]; [lia|]. intros w H T [|i q] y k' L R' E'; apply andb_true_iff in T; destruct T as [T1 T2].
    - injection R' as <-. rewrite E' in T1. apply negb_true_iff in T1. exact T1.
    - cbn in R'. destruct (nth_error (styled_children w) i) as [c|] eqn:N; [|discriminate]. rewrite forallb_forall in T2. apply (IH c) with (p := q) (x := y); auto; [|apply T2; eapply nth_error_In; exact N|cbn in L; lia].
      apply nth_error_In in N. assert (G : height c < height w); [|lia]. revert N. clear. induction w as [kk id l ks|v IHv]; intros N.
      + assert (X : In c ks) by (destruct kk; cbn in N; (exact N || destruct N)). cbn [height]. clear N. induction ks as [|z ks IHk]; [destruct X|]. cbn [fold_right]. destruct X as [->|X]; [lia|]. apply IHk in X. lia.
      + cbn in *. apply IHv in N. lia. }
  assert (D : length p < 10).
  { clear A E. assert (G : forall n w p x, height w <= n -> reach styled_children w p = Some x -> length p < n).
    { induction n as [|n IH]; intros w q y H R'; [destruct w; cbn in H; lia|]. destruct q as [|i q]; cbn in *; [lia|]. destruct (nth_error (styled_children w) i) as [c|] eqn:N; [|discriminate].
      apply nth_error_In in N. assert (G : height c < height w).
      { revert N. clear. induction w as [kk id l ks|v IHv]; intros N.
        + assert (X : In c ks) by (destruct kk; cbn in N; (exact N || destruct N)). cbn [height]. clear N. induction ks as [|z ks IHk]; [destruct X|]. cbn [fold_right]. destruct X as [->|X]; [lia|]. apply IHk in X. lia.
        + cbn in *. apply IHv in N. lia. }
      apply IH in R'; lia. }
    apply (G 10 ex_tree p x); [cbn; lia|exact R]. }
  apply (A 10 ex_tree) with (p := p) (x := x); auto. cbn. lia.
Qed.

(** *** Typed queries *)
(** What a selector names: a type, an id or both. *)
Theorem C115_selectors : forall m w t i, t <> [] -> ~ In 35%Z t -> i <> [] ->
  (forall s, trim s = t -> (sel_finds m (parse_selector s) w = true <-> type_name m w = t)) /\
  (forall s, trim s = 35%Z :: i -> (sel_finds m (parse_selector s) w = true <-> id_of w = Some i)) /\
  (forall s, trim s = t ++ 35%Z :: i -> (sel_finds m (parse_selector s) w = true <-> type_name m w = t /\ id_of w = Some i)).
Proof.
  intros m w t i T H I. assert (Q : forall s, sel_finds m (parse_selector s) w = query_test (new_query s) (asked m w)) by (intros; unfold query_test; cbn [new_query q_filter q_sel]; rewrite andb_true_r; reflexivity).
  split; [|split]; intros s E; rewrite Q.
  - exact (Tree_Props.C38_type_selector s t (asked m w) E T H).
  - exact (Tree_Props.C38_id_selector s i (asked m w) E).
  - exact (Tree_Props.C38_type_id_selector s t i (asked m w) E T H I).
Qed.
(** [query_one_as] calls the closure on the first widget, in document order, that the
    selector names and that is of the type asked for; nothing else changes. *)
Theorem C115_typed_first : forall m sel K f root p x, first_wanted m sel K root p x ->
  exists r, query_one_as m sel K f root = (r, true) /\ replaced (inside f x) root p r.
Proof. intros m sel K f root p x. apply query_first. Qed.
(** If there is none, it changes nothing and says so. *)
Theorem C115_typed_none : forall m sel K f root, (forall p x, reach children root p = Some x -> ~ wanted m sel K x) ->
  query_one_as m sel K f root = (root, false).
Proof. intros m sel K f root. apply query_none. Qed.
Example C115_typed_example : first_wanted [] (str "#x") KSwitch ex_tree [0; 0; 1] (W KSwitch (Some (str "x")) DOther []) /\
  query_one_as [] (str "#x") KSwitch (fun _ => W KRuler None DOther []) ex_tree = (W KApp None DOther [W KScreen None DOther
    [W KVertical None DVertical [W KLabel (Some (str "x")) DOther []; W KRuler None DOther []]; W KCenter None DOther [Boxed (W KSwitch None DOther [])]]], true).
Proof.
  split; [|reflexivity]. split; [reflexivity|]. split; [split; [reflexivity|split; reflexivity]|]. intros q y R B (S & E & _).
  destruct q as [|a q]; [cbn in R; injection R as <-; discriminate|]. destruct a as [|a]; [|cbn in B; lia]. cbn in B. destruct B as [B|[_ B]]; [lia|].
  destruct q as [|a q]; [cbn in R; injection R as <-; discriminate|]. destruct a as [|a]; [|cbn in B; lia]. cbn in B. destruct B as [B|[_ B]]; [lia|].
  destruct q as [|a q]; [cbn in R; injection R as <-; discriminate|]. destruct a as [|a]; [|destruct a; cbn in B; destruct B as [B|[B1 B2]]; try lia; destruct q; destruct B2].
  destruct q as [|a q]; [cbn in R; injection R as <-; discriminate|]. destruct a; discriminate.
Qed.

(** *** What users may not expect *)
(** The application is App in stylesheets and AppWidget in queries. *)
Theorem C115_application_refuted : forall m c cs st id l ks,
  type_name m (W KApp id l ks) = str "AppWidget" /\ matches_selector c (meta_of m cs st (W KApp id l ks)) (SType (str "AppWidget")) = false.
Proof. split; reflexivity. Qed.
(** A boxed widget is only Widget in queries, whatever it is in stylesheets. *)
Theorem C115_boxed_refuted : forall m s w, sel_finds m (parse_selector s) (Boxed w) = true -> ss_type (parse_selector s) = None \/ ss_type (parse_selector s) = Some (str "Widget").
Proof.
  intros m s w H. unfold sel_finds, sel_matches in H. cbn in H. destruct (ss_type (parse_selector s)) as [t|]; [right|left; reflexivity].
  destruct (text_eqb (str "Widget") t) eqn:E; [apply text_eqb_iff in E; subst; reflexivity|]. exfalso. revert H. clear -E. cbn in E |- *. destruct (ss_id (parse_selector s)); intros H; repeat (apply andb_true_iff in H; destruct H as [H ?]); congruence.
Qed.
(** A rule for Static is for labels too, and one for Vertical for any container laid out vertically; a query is not. *)
Theorem C115_families_refuted : forall m c cs st id ks,
  (matches_selector c (meta_of m cs st (W KLabel id DOther ks)) (SType (str "Static")) = true /\ sel_finds m (parse_selector (str "Static")) (W KLabel id DOther ks) = false) /\
  (matches_selector c (meta_of m cs st (W KContainer id DVertical ks)) (SType (str "Vertical")) = true /\ sel_finds m (parse_selector (str "Vertical")) (W KContainer id DVertical ks) = false) /\
  matches_selector c (meta_of m cs st (W KVertical id DVertical ks)) (SType (str "Container")) = false.
Proof. repeat split; reflexivity. Qed.
(** The parts of a header are styled and cannot be queried. *)
Theorem C115_header_parts_refuted : forall id l ks i k, nth_error ks i = Some k ->
  reach styled_children (W KHeader id l ks) [i] = Some k /\ forall p, p <> [] -> reach children (W KHeader id l ks) p = None.
Proof.
  intros id l ks i k N. split; [cbn; rewrite N; reflexivity|]. intros [|j p] H; [congruence|]. destruct j; reflexivity.
Qed.
(** Grids, scrolling containers and others are never found by type. *)
Theorem C115_never_typed_refuted : forall m sel f root K,
  In K [KPlaceholder; KBar; KCorner; KVertical; KHorizontal; KGrid; KItemGrid; KScrollable; KVScroll; KHScroll; KCenter; KMiddle; KApp] ->
  query_one_as m sel K f root = (root, false).
Proof.
  intros m sel f root K H. apply query_none. intros p x _ (_ & _ & A). repeat (destruct H as [<-|H]; [discriminate|]). destruct H.
Qed.
(** When the widget the selector finds is of another type, the search goes on behind it. *)
Theorem C115_typed_goes_on_refuted : exists root f r, query_one_as [] (str "#x") KSwitch f root = (r, true) /\
  reach children root [0] = Some (W KLabel (Some (str "x")) DOther []) /\ sel_finds [] (parse_selector (str "#x")) (W KLabel (Some (str "x")) DOther []) = true.
Proof. exists (W KVertical None DVertical [W KLabel (Some (str "x")) DOther []; W KSwitch (Some (str "x")) DOther []]), (fun w => w). eexists. repeat split; reflexivity. Qed.

Print Assumptions C115_program_widget.
Print Assumptions C115_children_styled.
Print Assumptions C115_query_names.
Print Assumptions C115_style_names.
Print Assumptions C115_query_then_rule.
Print Assumptions C115_ids.
Print Assumptions C115_seen_is_styled.
Print Assumptions C115_styled_is_seen.
Print Assumptions C115_selectors.
Print Assumptions C115_typed_first.
Print Assumptions C115_typed_none.
Print Assumptions C115_application_refuted.
Print Assumptions C115_boxed_refuted.
Print Assumptions C115_families_refuted.
Print Assumptions C115_header_parts_refuted.
Print Assumptions C115_never_typed_refuted.
Print Assumptions C115_typed_goes_on_refuted.
