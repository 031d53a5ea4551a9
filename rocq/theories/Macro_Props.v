(** C112: the macros [ui!] and [widget!] build the tree that is written.

    [take] says how many tokens the Rust parser takes for an expression, [contents]
    what a splatted expression holds. *)
From Coq Require Import String ZArith List Bool Lia Permutation.
From Verif Require Import Text_Model Macro_Model Macro_Spec Macro_Proofs.
Import ListNotations.
Open Scope list_scope.

(** *** What is written in the documented way is accepted and means what it says *)
Theorem C112_ui_builds take contents l toks : l <> [] -> writes_all true l toks ->
  spaced_list l -> Forall spaced l -> Forall (expression take) (concat (map expressions l)) ->
  exists code, ui take toks = Good code /\
    run contents code = (Many (concat (map (stands_for contents) l)), concat (map evaluation l)).
Proof.
  intros N W S1 S2 E. unfold ui. rewrite (root_read take l toks N W S1 S2 E). eexists. split; [reflexivity | ].
  apply vec_run. apply Forall_forall. intros; apply all_ran.
Qed.
Theorem C112_widget_builds take contents n p a k toks : let c := Widget n p a k in
  writes true c toks -> spaced c -> Forall (expression take) (expressions c) ->
  exists code v, widget take toks = Good code /\ stands_for contents c = [v] /\ run contents code = (v, evaluation c).
Proof.
  cbn zeta. intros W S E. unfold widget. rewrite (single_read take n p a k toks W S E). eexists. eexists.
  split; [reflexivity | ]. split; [reflexivity | ]. exact (all_ran contents (Widget n p a k)).
Qed.

(** *** Whatever is accepted, nothing written is lost, moved or made up

    Only commas between arguments may be missing. *)
Theorem C112_ui_faithful take contents toks code : ui take toks = Good code ->
  exists l, l <> [] /\ writes_all false l toks /\
    run contents code = (Many (concat (map (stands_for contents) l)), concat (map evaluation l)).
Proof.
  unfold ui, parse_root. destruct (parse_items take _ toks) as [l | e] eqn:P; [ | discriminate].
  destruct l as [ | c l]; [discriminate | ]. intros H. injection H as <-. exists (c :: l). split; [discriminate | ].
  split; [exact (items_sound take _ _ _ P) | ]. apply vec_run. apply Forall_forall. intros; apply all_ran.
Qed.
Theorem C112_widget_faithful take contents toks code : widget take toks = Good code ->
  exists n p a k, let c := Widget n p a k in writes false c toks /\
    stands_for contents c = [fst (run contents code)] /\ snd (run contents code) = evaluation c.
Proof.
  unfold widget, parse_single. destruct (parse_widget take _ toks) as [[c r] | e] eqn:P; [ | discriminate].
  destruct r; [ | discriminate]. intros H. injection H as <-.
  destruct (widget_sound take _ _ _ _ (items_sound take _) P) as (t & T & W). rewrite app_nil_r in T. subst t.
  destruct c as [n p a k | e].
  - exists n, p, a, k. cbn zeta. split; [exact W | ]. rewrite (all_ran contents (Widget n p a k)). split; reflexivity.
  - cbn in W. subst toks. discriminate P.
Qed.

(** *** Every expression written is evaluated exactly once *)
Theorem C112_once c : Permutation (evaluation c) (expressions c).
Proof. exact (once c). Qed.

(** *** What is refused *)
Theorem C112_nothing_written take toks : ui take toks = Bad NoWidget <-> toks = [].
Proof.
  unfold ui, parse_root. split.
  - destruct toks as [ | t toks]; [auto | ]. intros H. exfalso.
    destruct (parse_items take _ (t :: toks)) as [l | e] eqn:P.
    + destruct l; [ | discriminate]. apply items_sound in P. discriminate P.
    + injection H as ->. revert P. generalize (S (toks_size (t :: toks))) as f. generalize (t :: toks) as i. clear.
      assert (X : forall e i, parse_expr take i = Bad e -> e = Syntax) by (intros; eapply expr_no_fuel; eauto).
      assert (A : forall f seen i, parse_args take f seen i <> Bad NoWidget).
      { induction f as [ | f IH]; intros seen i; [discriminate | ].
        assert (Pos : forall i, (if seen then Bad PositionalAfterNamed
           else match parse_expr take i with
                | Bad e => Bad e
                | Good (v, r) => match parse_args take f seen (skip_comma r) with Good (p, a) => Good (v :: p, a) | Bad e => Bad e end
                end) <> @Bad (list expr * list (text * expr)) NoWidget).
        { intros j. destruct seen; [discriminate | ]. destruct (parse_expr take j) as [[v r] | e] eqn:E; [ | apply X in E; subst; discriminate].
          pose proof (IH false (skip_comma r)) as F. destruct (parse_args take f false (skip_comma r)) as [[p a] | e]; [discriminate | congruence]. }
        cbn [parse_args]. destruct i as [ | t i]; [discriminate | ]. destruct t; try apply Pos.
        destruct i as [ | t i]; [apply Pos | ]. destruct t; try apply Pos.
        destruct (parse_expr take i) as [[v r] | e] eqn:E; [ | apply X in E; subst; discriminate].
        pose proof (IH true (skip_comma r)) as F. destruct (parse_args take f true (skip_comma r)) as [[p a] | e]; [discriminate | congruence]. }
      intros i f. revert i. induction f as [ | f IH]; intros i; [discriminate | ]. cbn [parse_items].
      destruct i as [ | t i]; [discriminate | ].
      assert (It : parse_child_item take (parse_items take f) (t :: i) <> Bad NoWidget).
      { assert (Wd : parse_widget take (parse_items take f) (t :: i) <> Bad NoWidget).
        { unfold parse_widget. destruct t; try discriminate.
          destruct (match i with TParen l :: r => _ | _ => _ end) as [[[p a] r0] | e'] eqn:Q.
          - destruct r0 as [ | [] r0]; try discriminate. pose proof (IH l) as F. destruct (parse_items take f l); [discriminate | congruence].
          - destruct i as [ | t i]; [discriminate | ]. destruct t; try discriminate.
            pose proof (A (S (length l)) false l) as F. destruct (parse_args take (S (length l)) false l) as [[p a] | e]; [discriminate | congruence]. }
        unfold parse_child_item. destruct t; try exact Wd.
        destruct (parse_expr take i) as [[v r] | e] eqn:E; [discriminate | ]. apply X in E. subst. discriminate. }
      destruct (parse_child_item take (parse_items take f) (t :: i)) as [[c r] | e]; [ | congruence].
      pose proof (IH r) as F. destruct (parse_items take f r); [discriminate | congruence].
  - intros ->. reflexivity.
Qed.
(** A positional argument after a named attribute is refused. *)
Theorem C112_late_positional take n p a name v e more toks rest :
  writes_arguments true (map Plain p ++ map (fun x => Named (fst x) (snd x)) ((name, v) :: a) ++ Plain e :: more) toks ->
  Forall (expression take) (p ++ v :: map snd a) -> expression take e ->
  ui take (TIdent n :: TParen toks :: rest) = Bad PositionalAfterNamed /\
  widget take (TIdent n :: TParen toks :: rest) = Bad PositionalAfterNamed.
Proof.
  intros W F (E1 & E2 & _).
  assert (A : parse_args take (S (length toks)) false toks = Bad PositionalAfterNamed).
  { apply (late_positional take _ p ((name, v) :: a) e more); auto; discriminate. }
  unfold ui, widget, parse_root, parse_single. cbn [parse_items parse_child_item parse_widget]. rewrite A. auto.
Qed.
(** The bound on the turns of the loops is never met. *)
Theorem C112_bound take toks : parse_root take toks <> Bad Fuel /\ parse_single take toks <> Bad Fuel.
Proof.
  split.
  - unfold parse_root. pose proof (items_fuel take (S (toks_size toks)) toks ltac:(lia)) as F.
    destruct (parse_items take _ toks) as [[ | c l] | e]; congruence.
  - unfold parse_single.
    assert (F : parse_widget take (parse_items take (S (toks_size toks))) toks <> Bad Fuel)
      by (apply widget_fuel; intros l Hl; apply items_fuel; lia).
    destruct (parse_widget take _ toks) as [[c [ | t r]] | e]; congruence.
Qed.

(** *** What does not hold *)

(** Of two splats in a row the first swallows the second whenever [e1..e2] is an
    expression, as it is in Rust: one range is splatted. *)
Theorem C112_two_splats_refuted take contents e1 e2 :
  take (e1 ++ TDots :: e2) = Some (List.length (e1 ++ TDots :: e2) - 1)%nat -> e1 <> [] ->
  exists code, ui take (TDots :: e1 ++ TDots :: e2) = Good code /\
    run contents code = (Many (contents (e1 ++ TDots :: e2)), [e1 ++ TDots :: e2]).
Proof.
  intros T N. exists (generate_children_vec [Splat (e1 ++ TDots :: e2)]). split.
  - unfold ui, parse_root. cbn [parse_items parse_child_item]. unfold parse_expr.
    destruct (e1 ++ TDots :: e2) as [ | t r] eqn:E; [destruct e1; discriminate | ]. rewrite T.
    replace (S (List.length (t :: r) - 1)) with (List.length (t :: r)) by (cbn; lia). rewrite firstn_all, skipn_all.
    assert (X : exists f, toks_size (TDots :: t :: r) = S f) by (eexists; reflexivity).
    destruct X as (f & ->). cbn [parse_items]. reflexivity.
  - cbn. rewrite !app_nil_r. reflexivity.
Qed.
(** Expressions are not always evaluated in the order in which they are written:
    the named attributes of a widget come after its children. *)
Theorem C112_order_refuted contents n name v e : v <> e ->
  let c := Widget n [] [(name, v)] (Some [Splat e]) in
  expressions c = [v; e] /\ snd (run contents (generate_widget c)) = [e; v].
Proof. intros _. split; reflexivity. Qed.

(** A stand-in for Rust's expressions: a literal, a name, a call, a range. *)
Definition sample_take (l : list tok) : option nat :=
  match l with
  | TIdent _ :: TDots :: TIdent _ :: _ => Some 2
  | TIdent _ :: TParen _ :: _ => Some 1
  | TIdent _ :: _ | TOther _ :: _ => Some 0
  | _ => None
  end%nat.
(** Commas may be forgotten: [Static(1 2)] has two arguments. *)
Theorem C112_commas_refuted : exists code,
  ui sample_take [TIdent (str "Static"%string); TParen [TOther 1; TOther 2]] = Good code /\
  run (fun _ => []) code = (Many [Made (str "Static"%string) [Opaque [TOther 1]; Opaque [TOther 2]] []], [[TOther 1]; [TOther 2]]).
Proof. eexists. split; vm_compute; reflexivity. Qed.

(** [Grid(id: 1) { Static(2, f(3), classes: 4) ..items Label }]. *)
Example C112_sample :
  let tree := [Widget (str "Grid"%string) [] [(str "id"%string, [TOther 1])]
     (Some [Widget (str "Static"%string) [[TOther 2]; [TIdent (str "f"%string); TParen [TOther 3]]] [(str "classes"%string, [TOther 4])] None;
            Splat [TIdent (str "items"%string)]; Widget (str "Label"%string) [] [] None])] in
  let toks := [TIdent (str "Grid"%string); TParen [TIdent (str "id"%string); TColon; TOther 1];
     TBrace [TIdent (str "Static"%string); TParen [TOther 2; TComma; TIdent (str "f"%string); TParen [TOther 3]; TComma; TIdent (str "classes"%string); TColon; TOther 4; TComma];
             TDots; TIdent (str "items"%string); TIdent (str "Label"%string)]] in
  writes_all true tree toks /\ spaced_list tree /\ Forall spaced tree /\
  Forall (expression sample_take) (concat (map expressions tree)) /\
  (exists code, ui sample_take toks = Good code /\
    run (fun _ => [Foreign 7; Foreign 8]) code =
    (Many [Made (str "Grid"%string)
       [Many [Made (str "Static"%string) [Opaque [TOther 2]; Opaque [TIdent (str "f"%string); TParen [TOther 3]]] [(str "with_classes"%string, [TOther 4])];
              Foreign 7; Foreign 8; Made (str "Label"%string) [] []]] [(str "with_id"%string, [TOther 1])]],
     [[TOther 2]; [TIdent (str "f"%string); TParen [TOther 3]]; [TOther 4]; [TIdent (str "items"%string)]; [TOther 1]])) /\
  ui sample_take [TIdent (str "Static"%string); TParen [TIdent (str "id"%string); TColon; TOther 1; TComma; TOther 2]] = Bad PositionalAfterNamed /\
  sample_take [TIdent (str "a"%string); TDots; TIdent (str "b"%string)] = Some 2%nat.
Proof.
  cbv zeta. split; [ | split; [ | split; [ | split; [ | split; [ | split]]]]].
  - exists [TIdent (str "Grid"%string); TParen [TIdent (str "id"%string); TColon; TOther 1];
     TBrace [TIdent (str "Static"%string); TParen [TOther 2; TComma; TIdent (str "f"%string); TParen [TOther 3]; TComma; TIdent (str "classes"%string); TColon; TOther 4; TComma];
             TDots; TIdent (str "items"%string); TIdent (str "Label"%string)]], [].
    split; [reflexivity | ]. split; [ | reflexivity]. apply writes_unfold.
    eexists [TParen _], [TBrace _]. split; [reflexivity | ]. split.
    + right. eexists. split; [reflexivity | ]. exists [], []. split; [reflexivity | ]. split; [auto | reflexivity].
    + eexists. split; [reflexivity | ].
      exists [TIdent (str "Static"%string); TParen [TOther 2; TComma; TIdent (str "f"%string); TParen [TOther 3]; TComma; TIdent (str "classes"%string); TColon; TOther 4; TComma]].
      eexists. split; [reflexivity | ]. split.
      * apply writes_unfold. eexists [TParen _], []. split; [reflexivity | ]. split; [ | reflexivity].
        right. eexists. split; [reflexivity | ]. exists [TComma]. eexists. split; [reflexivity | ]. split; [auto | ].
        exists [TComma]. eexists. split; [reflexivity | ]. split; [auto | ].
        exists [TComma]. eexists. split; [reflexivity | ]. split; [auto | reflexivity].
      * exists [TDots; TIdent (str "items"%string)], [TIdent (str "Label"%string)]. split; [reflexivity | ]. split; [reflexivity | ].
        exists [TIdent (str "Label"%string)], []. split; [reflexivity | ]. split; [ | reflexivity].
        apply writes_unfold. exists [], []. split; [reflexivity | ]. split; [ | reflexivity]. left. auto.
  - exact I.
  - repeat constructor.
  - cbn [map expressions concat app snd].
    repeat (apply Forall_cons || apply Forall_nil); (split; [discriminate | split; [discriminate | ]]);
      intros rest H; destruct rest as [ | [] rest]; try destruct H; reflexivity.
  - eexists. split; vm_compute; reflexivity.
  - vm_compute. reflexivity.
  - reflexivity.
Qed.

Print Assumptions C112_ui_builds.
Print Assumptions C112_widget_builds.
Print Assumptions C112_ui_faithful.
Print Assumptions C112_widget_faithful.
Print Assumptions C112_once.
Print Assumptions C112_nothing_written.
Print Assumptions C112_late_positional.
Print Assumptions C112_bound.
Print Assumptions C112_two_splats_refuted.
Print Assumptions C112_order_refuted.
Print Assumptions C112_commas_refuted.
