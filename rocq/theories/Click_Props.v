(** C121: clicking performs the action of what was clicked, once. *)
From Coq Require Import String ZArith List Bool Arith Lia Sorted.
From Verif Require Import Text_Model Name_Model Click_Model Click_Spec Click_Proofs.
From Verif Require Hover_Spec.
Import ListNotations.
Open Scope nat_scope.
Open Scope list_scope.

(** Over any sequence of events, in a tree where nothing was waiting: each event
    performs the actions it leaves with active widgets, each once, in the order of the
    tree, and nothing of an earlier event. *)
Theorem C121_history : forall ut es n, settled ut n -> Forall2 (answers ut n) es (run ut es n).
Proof. intros ut es n S0. apply run_ok. exact S0. Qed.
Print Assumptions C121_history.

(** Whatever was waiting, nothing is after an event, and the widgets are the same. *)
Theorem C121_settles : forall ut e n, settled ut (snd (step ut e n)).
Proof. intros. apply step_settles. Qed.
Print Assumptions C121_settles.
Theorem C121_alike : forall ut e n, settled ut n -> alike n (snd (step ut e n)).
Proof. intros ut e n S0 q. symmetry. apply (step_ok ut e n S0). Qed.
Print Assumptions C121_alike.

(** A click that reaches one widget performs the link or action there and nothing else. *)
Theorem C121_click : forall ut n q x given, settled ut n -> at_place n q = Some x -> in_tree n q -> active ut (n_kind x) ->
  fst (step ut (Event [q] given) n) = match given q with Some a => [a] | None => [] end.
Proof.
  intros ut n q x g S0 E T A. destruct (step_ok ut (Event [q] g) n S0) as ((l & L1 & L2 & ->) & _). cbn [handed given] in L2.
  assert (Q : forall e, In e l -> fst e = q /\ g q = Some (snd e)).
  { intros [p a] I. apply L2 in I. destruct I as (y & _ & _ & _ & [<- | []] & G). auto. }
  destruct (g q) as [a|] eqn:G.
  - assert (I : In (q, a) l) by (apply L2; exists x; cbn; auto 10).
    destruct l as [|[p1 a1] [|[p2 a2] r]]; [destruct I| |].
    + destruct (Q (p1, a1) (or_introl eq_refl)) as [_ X]. cbn in *. injection X as <-. reflexivity.
    + exfalso. destruct (Q (p1, a1) (or_introl eq_refl)) as [X1 _]. destruct (Q (p2, a2) (or_intror (or_introl eq_refl))) as [X2 _].
      cbn in X1, X2. subst p1 p2. inversion L1 as [|? ? _ F]; subst. inversion F as [|? ? B]; subst. apply (before_irrefl q B).
  - destruct l as [|e r]; [reflexivity|]. destruct (Q e (or_introl eq_refl)) as [_ X]. discriminate X.
Qed.
Print Assumptions C121_click.

(** An event that gives nothing to an active widget of the tree performs nothing. *)
Theorem C121_nothing : forall ut n e, settled ut n ->
  (forall q x, In q (handed e) -> at_place n q = Some x -> in_tree n q -> active ut (n_kind x) -> given e q = None) ->
  fst (step ut e n) = [].
Proof.
  intros ut n e S0 H. destruct (step_ok ut e n S0) as ((l & _ & L2 & ->) & _).
  destruct l as [|[q a] r]; [reflexivity|]. destruct (proj1 (L2 q a) (or_introl eq_refl)) as (x & X1 & X2 & X3 & X4 & X5).
  rewrite (H q x X4 X1 X2 X3) in X5. discriminate X5.
Qed.
Print Assumptions C121_nothing.

(** Links in the title or clock of a header or in an input are taken up when clicked,
    but never performed: not by the click, and not by any later event. *)
Theorem C121_dead_refuted : forall ut n q x e, settled ut n -> at_place n q = Some x -> In (n_kind x) dead ->
  (forall a, given e q = Some a -> In q (handed e) ->
     exists y, at_place (snd (step ut e n)) q = Some y /\ n_kind y = n_kind x /\ n_pending y = Some a) /\
  (handed e = [q] -> fst (step ut e n) = []) /\
  (forall es, Forall (fun e => handed e = [q]) es -> concat (run ut es n) = []).
Proof.
  intros ut n q x e S0 E D.
  assert (Na : ~ active ut (n_kind x)).
  { intros [H | [(p & a & H) _]]; [|rewrite H in D; cbn in D; intuition discriminate].
    cbn in D. repeat destruct D as [D | D]; try (rewrite <- D in H; cbn in H; intuition discriminate). destruct D. }
  assert (One : forall e out, answers ut n e out -> handed e = [q] -> out = []).
  { intros e0 out (l & _ & L2 & ->) H. destruct l as [|[p a] r]; [reflexivity|]. exfalso.
    destruct (proj1 (L2 p a) (or_introl eq_refl)) as (y & Y1 & _ & Y3 & Y4 & _). rewrite H in Y4. destruct Y4 as [<- | []].
    rewrite E in Y1. injection Y1 as <-. contradiction. }
  split; [|split].
  - intros a G I. destruct (step_ok ut e n S0) as (_ & _ & K & _ & P). specialize (K q). rewrite E in K.
    destruct (some_of _ _ _ _ _ K) as (y & Y1 & Y2). exists y. split; [exact Y1|]. split; [exact Y2|].
    destruct (P q x y E Y1 Na) as [P1 _]. rewrite (P1 I), G. unfold store.
    cbn in D. repeat destruct D as [<- | D]; try reflexivity. destruct D.
  - intros H. apply (One e); [|exact H]. apply (step_ok ut e n S0).
  - intros es F. pose proof (run_ok ut es n S0) as R. induction R as [|e0 out r outs H _ IH]; [reflexivity|].
    inversion F as [|? ? F1 F2]; subst. cbn. rewrite (One e0 out H F1), (IH F2). reflexivity.
Qed.
Print Assumptions C121_dead_refuted.

(** *** A case: a screen with a box of a text and a button, and a header *)
Definition house := N KScreen None
  [N KContainer None [N KStatic None []; N KButton None []]; N KHeader None [N KHeaderTitle None []; N KHeaderIcon None []]].
Example house_settled : settled true house.
Proof.
  intros q x E _ _.
  destruct q as [|[|[|[|i]]] [|[|[|[|j]]] [|k q]]]; cbn in E; try discriminate E;
    try (injection E as <-; reflexivity); destruct k; discriminate E.
Qed.
Definition at_text := Event [[0; 0]] (fun _ => Some (str "app.bell")).
Definition at_title := Event [[1; 0]] (fun _ => Some (str "app.quit")).
Definition at_many := Event [[1; 1]; [0; 1]; [0; 0]; [0]] (fun q => match q with [1; 1] => Some (str "b") | [0; 0] => None | _ => Some (str "a") end).
Example house_run : run true [at_text; at_title; at_many; at_text] house = [[str "app.bell"]; []; [str "a"; str "b"]; [str "app.bell"]].
Proof. vm_compute. reflexivity. Qed.
