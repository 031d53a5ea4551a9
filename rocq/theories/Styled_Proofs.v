(** Proofs about the way from written rules to the style of a widget. *)
From Coq Require Import String ZArith List Bool Arith Sorted Lia.
From Verif Require Import Text_Model Css_Model Css_Spec Css_Proofs Nest_Proofs Styled_Spec.
Import ListNotations.
Local Open Scope nat_scope.
Local Open Scope list_scope.

(** *** Order of paths *)
Lemma earlier_irrefl p : ~ earlier p p.
Proof. induction p as [|a p IH]; cbn; [tauto|]. intros [H|[_ H]]; [lia|auto]. Qed.
Lemma earlier_trans p : forall q r, earlier p q -> earlier q r -> earlier p r.
Proof.
  induction p as [|a p IH]; intros [|b q] [|d r]; cbn; try tauto.
  intros [H|[-> H]] [K|[-> K]]; try (left; lia). right. split; auto. eapply IH; eauto.
Qed.
Lemma earlier_app p : forall q r, earlier q r -> earlier (p ++ q) (p ++ r).
Proof. induction p as [|a p IH]; intros q r H; cbn; auto. Qed.
Lemma earlier_more p : forall a q, earlier p (p ++ a :: q).
Proof. intros. rewrite <- (app_nil_r p) at 1. apply earlier_app. exact I. Qed.
Lemma earlier_same_length p : forall q a b, length p = length q -> earlier p q -> earlier (p ++ a) (q ++ b).
Proof.
  induction p as [|x p IH]; intros [|y q] a b L H; cbn in *; try tauto; try lia. destruct H as [H|[-> H]]; auto.
Qed.

(** *** Lists whose elements give at most one result *)
Section Single.
Context {A B : Type}.
Variable f : A -> list B.
Hypothesis one : forall x, length (f x) <= 1.
Definition rank (l : list A) (n : nat) : nat := length (flat_map f (firstn n l)).
Lemma nth_single l : forall i y, nth_error (flat_map f l) i = Some y <-> exists n x, nth_error l n = Some x /\ f x = [y] /\ i = rank l n.
Proof.
  unfold rank. induction l as [|a l IH]; intros i y.
  - cbn. split; [destruct i; discriminate|]. intros (n & x & H & _). destruct n; discriminate.
  - cbn [flat_map]. destruct (f a) as [|b [|]] eqn:F; [| |pose proof (one a) as X; rewrite F in X; cbn in X; lia].
    + cbn [app]. rewrite IH. split.
      * intros (n & x & H & E & R). exists (S n), x. cbn. rewrite F. auto.
      * intros (n & x & H & E & R). destruct n as [|n]; cbn in H; [injection H as ->; congruence|]. exists n, x. cbn in R. rewrite F in R. auto.
    + cbn [app]. destruct i as [|i]; cbn [nth_error].
      * split.
        -- intros [= ->]. exists 0, a. cbn. auto.
        -- intros (n & x & H & E & R). destruct n as [|n]; cbn in H; [injection H as ->; congruence|]. cbn in R. rewrite F in R. discriminate.
      * rewrite IH. split.
        -- intros (n & x & H & E & R). exists (S n), x. cbn. rewrite F. cbn. auto.
        -- intros (n & x & H & E & R). destruct n as [|n]; cbn in H; [cbn in R; discriminate|]. exists n, x. cbn in R. rewrite F in R. cbn in R. auto.
Qed.
Lemma rank_lt l : forall n m x y, nth_error l n = Some x -> f x = [y] -> n < m -> rank l n < rank l m.
Proof.
  unfold rank. induction l as [|a l IH]; intros n m x y H F L; [destruct n; discriminate|]. destruct m as [|m]; [lia|].
  destruct n as [|n]; cbn in H |- *.
  - injection H as ->. rewrite F. cbn. lia.
  - rewrite !app_length. assert (n < m) by lia. pose proof (IH n m x y H F H0). lia.
Qed.
Lemma rank_order l n m x y x' y' : nth_error l n = Some x -> f x = [y] -> nth_error l m = Some x' -> f x' = [y'] ->
  (rank l n < rank l m <-> n < m) /\ (rank l n = rank l m <-> n = m).
Proof.
  intros H F H' F'. destruct (lt_eq_lt_dec n m) as [[L|E]|L].
  - pose proof (rank_lt l n m x y H F L). lia.
  - subst. lia.
  - pose proof (rank_lt l m n x' y' H' F' L). lia.
Qed.
End Single.

Lemma sorted_nth {A} (R : A -> A -> Prop) l : StronglySorted R l -> forall n m x y, n < m -> nth_error l n = Some x -> nth_error l m = Some y -> R x y.
Proof.
  induction 1 as [|a l S IH F]; intros n m x y L X Y; [destruct n; discriminate|]. destruct m as [|m]; [lia|]. destruct n as [|n]; cbn in X, Y.
  - injection X as ->. rewrite Forall_forall in F. apply F. eapply nth_error_In; eauto.
  - apply (IH n m); auto. lia.
Qed.
Lemma sorted_join {A} (R : A -> A -> Prop) a b : StronglySorted R a -> StronglySorted R b -> (forall x y, In x a -> In y b -> R x y) -> StronglySorted R (a ++ b).
Proof.
  intros SA SB H. induction SA as [|x a SA IH F]; cbn; auto. constructor.
  - apply IH. intros u v U W. apply H; [right; exact U|exact W].
  - apply Forall_app. split; auto. apply Forall_forall. intros y Y. apply H; [left; reflexivity|exact Y].
Qed.

(** *** Choices of selectors *)
Definition numbered {A} (l : list A) : list (nat * A) := combine (seq 0 (length l)) l.
Lemma in_numbered {A} (l : list A) : forall i x, In (i, x) (numbered l) <-> nth_error l i = Some x.
Proof.
  unfold numbered. assert (G : forall n i x, In (i, x) (combine (seq n (length l)) l) <-> n <= i /\ nth_error l (i - n) = Some x).
  { induction l as [|a l IH]; intros n i x; cbn [length seq combine In].
    - split; [tauto|]. intros [_ H]. destruct (i - n); discriminate.
    - rewrite IH. split.
      + intros [H|[H K]]; [injection H as -> ->; rewrite Nat.sub_diag; split; [lia|reflexivity]|]. split; [lia|]. replace (i - n) with (S (i - S n)) by lia. exact K.
      + intros [H K]. destruct (Nat.eq_dec i n) as [->|N]; [left; rewrite Nat.sub_diag in K; injection K as ->; reflexivity|right]. split; [lia|]. replace (i - n) with (S (i - S n)) in K by lia. exact K. }
  intros i x. rewrite (G 0). rewrite Nat.sub_0_r. intuition lia.
Qed.
Lemma numbered_sorted {A} (l : list A) : StronglySorted (fun a b => fst a < fst b) (numbered l).
Proof.
  unfold numbered. generalize 0 as n. induction l as [|a l IH]; intros n; cbn; constructor; [apply IH|]. apply Forall_forall. intros [i x] H. cbn. apply in_combine_l, in_seq in H. lia.
Qed.
Lemma numbered_snd {A B} (f : A -> B) (l : list A) : map (fun x => f (snd x)) (numbered l) = map f l.
Proof. unfold numbered. generalize 0 as n. induction l as [|a l IH]; intros n; cbn; [reflexivity|]. f_equal. apply IH. Qed.

Definition choice : Type := list nat * list complex.
Definition more (t : choice) (x : nat * complex) : choice := (fst t ++ [fst x], snd t ++ [snd x]).
(** all choices, in the order of the program *)
Definition choices (ss : list (list complex)) : list choice :=
  fold_left (fun acc sels => flat_map (fun t => map (more t) (numbered sels)) acc) ss [([], [])].
Lemma choices_snoc ss sels : choices (ss ++ [sels]) = flat_map (fun t => map (more t) (numbered sels)) (choices ss).
Proof. unfold choices. rewrite fold_left_app. reflexivity. Qed.
Lemma picks_snoc ss is ts sels i s : picks ss is ts -> nth_error sels i = Some s -> picks (ss ++ [sels]) (is ++ [i]) (ts ++ [s]).
Proof. induction 1; intros N; cbn; constructor; auto. constructor. Qed.
Lemma picks_snoc_inv ss : forall sels is ts, picks (ss ++ [sels]) is ts -> exists is' i ts' s, is = is' ++ [i] /\ ts = ts' ++ [s] /\ picks ss is' ts' /\ nth_error sels i = Some s.
Proof.
  induction ss as [|a ss IH]; intros sels is ts H; cbn in H; inversion H; subst.
  - match goal with H : picks [] _ _ |- _ => inversion H; subst end. do 4 eexists. split; [|split; [|split]]; [instantiate (2 := []); reflexivity|instantiate (2 := []); reflexivity|constructor|assumption].
  - match goal with H : picks (ss ++ _) _ _ |- _ => apply IH in H; destruct H as (is' & j & ts' & u & -> & -> & P & N) end.
    exists (i :: is'), j, (s :: ts'), u. repeat split; auto. constructor; auto.
Qed.
Lemma in_choices ss : forall is ts, In (is, ts) (choices ss) <-> picks ss is ts.
Proof.
  induction ss as [|sels ss IH] using rev_ind; intros is ts.
  - cbn. split; [intros [[= <- <-]|[]]; constructor|intros H; inversion H; auto].
  - rewrite choices_snoc, in_flat_map. split.
    + intros ([is' ts'] & I & H). apply in_map_iff in H. destruct H as [[i s] [[= <- <-] H]]. apply in_numbered in H. apply IH in I. apply picks_snoc; auto.
    + intros H. apply picks_snoc_inv in H. destruct H as (is' & i & ts' & s & -> & -> & P & N). exists (is', ts'). split; [apply IH; exact P|]. apply in_map_iff. exists (i, s). split; [reflexivity|]. apply in_numbered. exact N.
Qed.
Lemma picks_length ss is ts : picks ss is ts -> length is = length ss.
Proof. induction 1; cbn; auto. Qed.
Lemma sorted_flat {A B} (R : A -> A -> Prop) (Q : B -> B -> Prop) (f : A -> list B) l : StronglySorted R l ->
  (forall a, In a l -> StronglySorted Q (f a)) -> (forall a b x y, In a l -> In b l -> R a b -> In x (f a) -> In y (f b) -> Q x y) -> StronglySorted Q (flat_map f l).
Proof.
  induction 1 as [|a l S IH F]; intros H K; cbn; [constructor|]. apply sorted_join.
  - apply H. left. reflexivity.
  - apply IH; [intros; apply H; right; auto|]. intros b d x y HB HD. apply K; right; auto.
  - intros x y X Y. apply in_flat_map in Y. destruct Y as (b & I & Y). rewrite Forall_forall in F. apply (K a b); auto; [left; reflexivity|right; auto].
Qed.
Lemma sorted_map {A B} (R : A -> A -> Prop) (Q : B -> B -> Prop) (f : A -> B) l : StronglySorted R l -> (forall a b, R a b -> Q (f a) (f b)) -> StronglySorted Q (map f l).
Proof.
  induction 1 as [|a l S IH F]; intros H; cbn; constructor; auto. apply Forall_forall. intros y Y. apply in_map_iff in Y. destruct Y as (b & <- & Y). rewrite Forall_forall in F. auto.
Qed.
Lemma choices_sorted ss : StronglySorted (fun a b => earlier (fst a) (fst b)) (choices ss).
Proof.
  induction ss as [|sels ss IH] using rev_ind; [repeat constructor|]. rewrite choices_snoc.
  eapply sorted_flat; [exact IH| |].
  - intros t _. eapply sorted_map; [apply numbered_sorted|]. intros a b H. cbn. apply earlier_app. cbn. auto.
  - intros [i1 t1] [i2 t2] x y I1 I2 E X Y. apply in_map_iff in X, Y. destruct X as (u & <- & _), Y as (v & <- & _). cbn in *. apply earlier_same_length; auto.
    apply in_choices in I1, I2. apply picks_length in I1, I2. congruence.
Qed.

(** *** Writing a choice out *)
Definition spelt (ts : list complex) : complex := match ts with [] => [] | s :: r => fold_left combine_one r s end.
Definition combined (ss : list (list complex)) : list complex := match ss with [] => [] | s :: r => fold_left combine_selectors r s end.
Lemma fold_left_snoc {A B} (f : A -> B -> A) l x a : fold_left f (l ++ [x]) a = f (fold_left f l a) x.
Proof. rewrite fold_left_app. reflexivity. Qed.
Lemma spelt_snoc ts s : ts <> [] -> spelt (ts ++ [s]) = combine_one (spelt ts) s.
Proof. destruct ts as [|t ts]; [congruence|]. intros _. cbn. apply fold_left_snoc. Qed.
Lemma combined_snoc ss s : ss <> [] -> combined (ss ++ [s]) = combine_selectors (combined ss) s.
Proof. destruct ss as [|t ss]; [congruence|]. intros _. cbn [app combined]. apply (fold_left_snoc combine_selectors). Qed.
Lemma combined_choices ss : ss <> [] -> combined ss = map (fun t => spelt (snd t)) (choices ss).
Proof.
  induction ss as [|sels ss IH] using rev_ind; [congruence|]. intros _. destruct ss as [|a ss'] eqn:E.
  - cbn. rewrite app_nil_r, map_map. cbn. symmetry. rewrite <- (map_id sels) at 2. rewrite <- (numbered_snd (fun x => x)). reflexivity.
  - rewrite <- E in *. assert (N : ss <> []) by congruence. rewrite combined_snoc by exact N. rewrite IH by exact N. rewrite choices_snoc. unfold combine_selectors.
    assert (G : forall t, In t (choices ss) -> snd t <> []).
    { intros [i t] I X. apply in_choices in I. cbn in X. subst t. inversion I. congruence. }
    revert G. generalize (choices ss) as l. induction l as [|t l IHl]; intros G; cbn [map flat_map]; [reflexivity|]. rewrite map_app, IHl by (intros; apply G; right; auto). f_equal.
    rewrite map_map. rewrite <- numbered_snd. apply map_ext. intros x. cbn. symmetry. apply spelt_snoc. apply G. left. reflexivity.
Qed.
Lemma picks_in ss is ts : picks ss is ts -> Forall2 (fun t s => In t s) ts ss.
Proof. induction 1; constructor; auto. eapply nth_error_In; eauto. Qed.
Definition all_closed (ss : list (list complex)) : Prop := Forall (Forall closed) ss.
Lemma picks_closed ss is ts : all_closed ss -> picks ss is ts -> Forall closed ts.
Proof.
  intros H P. induction P; constructor; inversion H; subst; auto. rewrite Forall_forall in H3. apply H3. eapply nth_error_In; eauto.
Qed.
Lemma fold_closed ts : forall s, closed s -> Forall closed ts -> closed (fold_left combine_one ts s).
Proof. induction ts as [|t ts IH]; intros s S F; cbn; auto. inversion F; subst. apply IH; auto. apply combine_one_closed; auto. Qed.
Lemma spelt_closed ts : ts <> [] -> Forall closed ts -> closed (spelt ts).
Proof. destruct ts; [congruence|]. intros _ F. inversion F; subst. apply fold_closed; auto. Qed.
Lemma nested_ext c M M' s ch : (forall x, M x <-> M' x) -> nested_css c M s ch <-> nested_css c M' s ch.
Proof.
  intros E. destruct s as [|[k comb] r]; cbn [nested_css]; [tauto|]. destruct (existsb is_parent k); apply extends_ext; intros x; [rewrite E; tauto|].
  split; intros [H (up & U & R)]; (split; [exact H|]); exists up; (split; [apply E; exact U|exact R]).
Qed.
Lemma meaning_ext c ts : forall M M' ch, (forall x, M x <-> M' x) -> meaning_in c M ts ch <-> meaning_in c M' ts ch.
Proof. induction ts as [|t ts IH]; intros M M' ch E; cbn; [apply E|]. apply IH. intros x. apply nested_ext. exact E. Qed.
Lemma fold_meaning c ts : forall s ch, closed s -> Forall closed ts -> css c (fold_left combine_one ts s) ch <-> meaning_in c (css c s) ts ch.
Proof.
  induction ts as [|t ts IH]; intros s ch S F; cbn; [tauto|]. inversion F; subst. rewrite IH; [|apply combine_one_closed; auto|auto].
  apply meaning_ext. intros x. apply combine_one_css; auto. apply closed_nonempty. auto.
Qed.
Lemma spelt_meaning c ts ch : Forall closed ts -> css c (spelt ts) ch <-> meaning c ts ch.
Proof. destruct ts as [|t ts]; intros F; cbn; [tauto|]. inversion F; subst. apply fold_meaning; auto. Qed.

Lemma combine_one_cases pre pk k comb rest : combine_one (pre ++ [(pk, CNone)]) ((k, comb) :: rest) =
  if existsb is_parent k then pre ++ (pk ++ filter (fun s => negb (is_parent s)) k, comb) :: rest
  else pre ++ (pk, CDescendant) :: (k, comb) :: rest.
Proof.
  unfold combine_one. destruct (existsb is_parent k); rewrite map_last_snoc, <- app_assoc; cbn; [|reflexivity]. destruct comb; reflexivity.
Qed.
Lemma inner_snoc pre x : inner (pre ++ [x]) = map snd pre.
Proof. unfold inner. rewrite removelast_last. reflexivity. Qed.
Lemma inner_app pre x r : inner (pre ++ x :: r) = map snd pre ++ inner (x :: r).
Proof. unfold inner. rewrite removelast_app by discriminate. apply map_app. Qed.
Lemma inner_combine p s : closed p -> closed s -> inner (combine_one p s) = inner p ++ (if starts_with_parent s then [] else [CDescendant]) ++ inner s.
Proof.
  intros (pre & pk & ->) C. destruct s as [|[k comb] rest]; [destruct C as (? & ? & X); destruct x; discriminate|]. rewrite combine_one_cases, inner_snoc. unfold starts_with_parent.
  destruct (existsb is_parent k); rewrite inner_app; f_equal. destruct rest; reflexivity.
Qed.
Lemma inner_spelt ts : Forall closed ts -> inner (spelt ts) = all_joints ts.
Proof.
  destruct ts as [|t ts]; intros F; [reflexivity|]. inversion F as [|? ? C G]; subst. cbn [spelt all_joints]. clear F. revert t C. induction G as [|s ts S G IH]; intros t C; cbn [fold_left joints]; [rewrite app_nil_r; reflexivity|].
  rewrite IH by (apply combine_one_closed; auto). rewrite inner_combine by auto. rewrite <- !app_assoc. reflexivity.
Qed.
Lemma nth_removelast {A} (l : list A) : forall i x, i < length l - 1 -> nth_error l i = Some x -> nth_error (removelast l) i = Some x.
Proof.
  destruct l as [|y l _] using rev_ind; intros i x L H; [cbn in L; lia|]. rewrite removelast_last. rewrite app_length in L. cbn in L. rewrite nth_error_app1 in H by lia. exact H.
Qed.
Lemma no_child_inner sel : no_child_first (inner sel) -> no_child_left_of_descendant sel.
Proof.
  intros H i j ki ci kj cj [L1 L2] A B D ->. assert (X : is_desc cj = false); [|congruence]. apply (H i j); [exact L1| |].
  - unfold inner. apply map_nth_error with (d := (ki, CChild)). apply nth_removelast; [exact (Nat.lt_trans _ _ _ L1 L2)|exact A].
  - unfold inner. apply map_nth_error with (d := (kj, cj)). apply nth_removelast; [exact L2|exact B].
Qed.
Lemma matches_spelt c w anc ts : Forall closed ts -> no_child_first (all_joints ts) ->
  (matches_complex c w anc (spelt ts) = true <-> meaning c ts (w :: anc)).
Proof.
  intros F N. rewrite <- spelt_meaning by exact F. split; [apply matches_complex_sound|]. apply matches_complex_complete. apply no_child_inner. rewrite inner_spelt; auto.
Qed.

Lemma count_app {A} (f : A -> bool) a b : count_if f (a ++ b) = count_if f a + count_if f b.
Proof. unfold count_if. rewrite filter_app, app_length. reflexivity. Qed.
Lemma count_filter {A} (f g : A -> bool) l : (forall x, f x = true -> g x = true) -> count_if f (filter g l) = count_if f l.
Proof.
  intros H. unfold count_if. induction l as [|a l IH]; cbn; [reflexivity|]. destruct (g a) eqn:G; cbn; destruct (f a) eqn:F; cbn; auto. rewrite H in G by exact F. discriminate.
Qed.
Lemma count_combine (f : selector -> bool) p s : f SParent = false -> closed p -> s <> [] ->
  count_if f (simple_selectors (combine_one p s)) = count_if f (simple_selectors p) + count_if f (simple_selectors s).
Proof.
  intros N (pre & pk & ->) NE. destruct s as [|[k comb] rest]; [congruence|]. rewrite combine_one_cases. unfold simple_selectors.
  assert (G : forall x, f x = true -> negb (is_parent x) = true) by (intros [] X; try reflexivity; cbn in *; congruence).
  destruct (existsb is_parent k); rewrite !flat_map_app; cbn [flat_map fst]; rewrite ?app_nil_r, !count_app, ?app_nil_r, ?(count_filter f _ k G); try rewrite !count_app; try rewrite !(count_filter f _ k G); rewrite ?Nat.add_assoc; reflexivity.
Qed.
Lemma count_spelt (f : selector -> bool) ts : f SParent = false -> Forall closed ts -> count_if f (simple_selectors (spelt ts)) = count_if f (flat_map simple_selectors ts).
Proof.
  intros N. destruct ts as [|t ts]; intros F; [reflexivity|]. inversion F as [|? ? C G]; subst. cbn [spelt]. clear F. revert t C. induction G as [|s ts S G IH]; intros t C; cbn [fold_left flat_map]; [rewrite app_nil_r; reflexivity|].
  rewrite IH by (apply combine_one_closed; auto). cbn [flat_map]. rewrite !count_app, count_combine; auto; [lia|]. apply closed_nonempty. exact S.
Qed.
Lemma weight_spelt ts : Forall closed ts -> complex_spec (spelt ts) = weight ts.
Proof.
  intros F. rewrite complex_spec_flat, compound_spec_counts. unfold weight. rewrite !count_spelt; auto.
Qed.

(** *** Walking through the rules *)
Section Walk.
Context {V : Type}.
Notation item := (item V).
Notation rule := (rule V).
Definition entry : Type := list nat * list (list complex) * list item.
Definition path (e : entry) : list nat := fst (fst e).
Fixpoint walk (p : list nat) (ss : list (list complex)) (r : rule) {struct r} : list entry :=
  match r with
  | Rule _ sels items =>
      (p, ss ++ [sels], items) ::
      (fix go (k : nat) (l : list item) : list entry :=
         match l with
         | [] => []
         | IDecl _ _ :: rest => go (S k) rest
         | INested _ n :: rest => walk (p ++ [k]) (ss ++ [sels]) n ++ go (S k) rest
         end) 0 items
  end.
Definition sub (p : list nat) (ss : list (list complex)) (k : nat) (i : item) : list entry :=
  match i with IDecl _ _ => [] | INested _ n => walk (p ++ [k]) ss n end.
Lemma walk_eq p ss sels items : walk p ss (Rule V sels items) = (p, ss ++ [sels], items) :: flat_map (fun x => sub p (ss ++ [sels]) (fst x) (snd x)) (numbered items).
Proof.
  cbn [walk]. f_equal. unfold numbered. generalize 0 as k. induction items as [|i l IH]; intros k; cbn [length seq combine flat_map]; [reflexivity|].
  destruct i as [d|n]; cbn [sub fst snd app]; [apply IH|]. f_equal. apply IH.
Qed.
Definition walks (l : list rule) : list entry := flat_map (fun x => walk [fst x] [] (snd x)) (numbered l).

Lemma walk_prefix r : forall p ss e, In e (walk p ss r) -> exists q, path e = p ++ q.
Proof.
  induction r as [sels items IH] using (rule_rect' V). intros p ss e. rewrite walk_eq. intros [<-|H]; [exists []; rewrite app_nil_r; reflexivity|].
  apply in_flat_map in H. destruct H as ([k i] & I & H). apply in_numbered, nth_error_In in I. cbn in H. destruct i as [d|n]; [destruct H|]. cbn in H. apply (IH n I) in H. destruct H as [q H]. exists (k :: q). rewrite H, <- app_assoc. reflexivity.
Qed.
Lemma walk_sorted r : forall p ss, StronglySorted (fun a b => earlier (path a) (path b)) (walk p ss r).
Proof.
  induction r as [sels items IH] using (rule_rect' V). intros p ss. rewrite walk_eq. constructor.
  - eapply sorted_flat; [apply numbered_sorted| |].
    + intros [k i] I. apply in_numbered, nth_error_In in I. cbn. destruct i as [d|n]; cbn; [constructor|]. apply IH. exact I.
    + intros [k i] [k' i'] x y _ _ L X Y. cbn in *. destruct i as [|n]; [destruct X|]. destruct i' as [|n']; [destruct Y|]. cbn in X, Y. apply walk_prefix in X, Y. destruct X as [q X], Y as [q' Y]. rewrite X, Y, <- !app_assoc. apply earlier_app. cbn. auto.
  - apply Forall_forall. intros e H. apply in_flat_map in H. destruct H as ([k i] & _ & H). cbn in H. destruct i as [|n]; [destruct H|]. cbn in H. apply walk_prefix in H. destruct H as [q H]. rewrite H. cbn [path fst]. rewrite <- app_assoc. apply earlier_more.
Qed.
Lemma walks_sorted l : StronglySorted (fun a b => earlier (path a) (path b)) (walks l).
Proof.
  eapply sorted_flat; [apply numbered_sorted| |].
  - intros [k r] _. apply walk_sorted.
  - intros [k r] [k' r'] x y _ _ L X Y. cbn in *. apply walk_prefix in X, Y. destruct X as [q X], Y as [q' Y]. rewrite X, Y. cbn. auto.
Qed.
Lemma walk_root p ss sels items : In (p, ss ++ [sels], items) (walk p ss (Rule V sels items)).
Proof. rewrite walk_eq. left. reflexivity. Qed.
Lemma walk_deeper r : forall p ss q s items k sels' items', In (q, s, items) (walk p ss r) -> nth_error items k = Some (INested V (Rule V sels' items')) ->
  In (q ++ [k], s ++ [sels'], items') (walk p ss r).
Proof.
  induction r as [sels its IH] using (rule_rect' V). intros p ss q s items k sels' items' H N. rewrite walk_eq in *. right. apply in_flat_map. destruct H as [H|H].
  - injection H as <- <- <-. exists (k, INested V (Rule V sels' items')). split; [apply in_numbered; exact N|]. cbn. apply walk_root.
  - apply in_flat_map in H. destruct H as ([m i] & I & H). exists (m, i). split; [exact I|]. apply in_numbered, nth_error_In in I. cbn in *. destruct i as [|n]; [destruct H|]. cbn in *. eapply IH; eauto.
Qed.
Lemma written_walks l p ss items : written l p ss items -> In (p, ss, items) (walks l).
Proof.
  induction 1 as [i sels items H|p ss items k sels' items' H IH N]; unfold walks in *; apply in_flat_map.
  - exists (i, Rule V sels items). split; [apply in_numbered; exact H|]. apply (walk_root [i] []).
  - apply in_flat_map in IH. destruct IH as (x & X & IH). exists x. split; [exact X|]. eapply walk_deeper; eauto.
Qed.
Lemma walk_written l r : forall p ss e, written l p (ss ++ [r_sels V r]) (r_items V r) -> In e (walk p ss r) -> written l (path e) (snd (fst e)) (snd e).
Proof.
  induction r as [sels items IH] using (rule_rect' V). intros p ss e W H. rewrite walk_eq in H. destruct H as [<-|H]; [exact W|].
  apply in_flat_map in H. destruct H as ([k i] & I & H). apply in_numbered in I. cbn in H. destruct i as [|n]; [destruct H|]. cbn in H. eapply IH; [eapply nth_error_In; exact I| |exact H].
  destruct n as [sels' items']. cbn in *. eapply written_in; eauto.
Qed.
Lemma walks_written l e : In e (walks l) -> written l (path e) (snd (fst e)) (snd e).
Proof.
  unfold walks. intros H. apply in_flat_map in H. destruct H as ([i r] & I & H). apply in_numbered in I. cbn in H. eapply walk_written; [|exact H]. destruct r as [sels items]. cbn. apply written_top. exact I.
Qed.
Lemma written_iff l p ss items : written l p ss items <-> In (p, ss, items) (walks l).
Proof. split; [apply written_walks|]. intros H. apply walks_written in H. exact H. Qed.

Definition emit (e : entry) : list rule :=
  match decls_of V (snd e) with [] => [] | own => [Rule V (combined (snd (fst e))) (map (IDecl V) own)] end.
Lemma emit_one e : length (emit e) <= 1.
Proof. unfold emit. destruct (decls_of V (snd e)); cbn; lia. Qed.
Lemma emit_some e r : emit e = [r] <-> decls_of V (snd e) <> [] /\ r = Rule V (combined (snd (fst e))) (map (IDecl V) (decls_of V (snd e))).
Proof.
  unfold emit. destruct (decls_of V (snd e)) eqn:E. { split; [discriminate|]. intros [H _]. congruence. }
  split; [intros [= <-]; split; [discriminate|reflexivity]|intros [_ ->]; reflexivity].
Qed.
Lemma flatten_walk r : forall p ss, flatten_rule V (combined (ss ++ [r_sels V r])) r = flat_map emit (walk p ss r).
Proof.
  induction r as [sels items IH] using (rule_rect' V). intros p ss. rewrite walk_eq. cbn [r_sels flatten_rule].
  assert (E : forall k l, (forall n, In (INested V n) l -> In (INested V n) items) ->
    (fix go (l : list item) : list rule :=
           match l with
           | [] => []
           | IDecl _ _ :: rest => go rest
           | INested _ n :: rest => flatten_rule V (combine_selectors (combined (ss ++ [sels])) (r_sels V n)) n ++ go rest
           end) l = flat_map emit (flat_map (fun x => sub p (ss ++ [sels]) (fst x) (snd x)) (combine (seq k (length l)) l))).
  { intros k l. revert k. induction l as [|i l IHl]; intros k S; cbn [length seq combine flat_map]; [reflexivity|]. rewrite flat_map_app. destruct i as [d|n]; cbn [sub fst snd flat_map app].
    - apply IHl. intros. apply S. right. auto.
    - rewrite <- IHl by (intros; apply S; right; auto). f_equal. rewrite <- (IH n) by (apply S; left; reflexivity). f_equal. symmetry. apply combined_snoc. destruct ss; discriminate. }
  rewrite (E 0 items) by auto. cbn [flat_map]. change (combine (seq 0 (length items)) items) with (numbered items). generalize (flat_map emit (flat_map (fun x => sub p (ss ++ [sels]) (fst x) (snd x)) (numbered items))). intros R. unfold emit. cbn [fst snd]. destruct (decls_of V items); reflexivity.
Qed.
Lemma flatten_walks l : flatten_stylesheet V l = flat_map emit (walks l).
Proof.
  unfold flatten_stylesheet, walks, numbered. generalize 0 as k. induction l as [|r l IH]; intros k; cbn [length seq combine flat_map]; [reflexivity|]. rewrite flat_map_app, <- IH. f_equal. cbn [fst snd]. rewrite <- flatten_walk. cbn. reflexivity.
Qed.

(** *** Declarations in force *)
Definition one_decl (i : item) : list (declaration V) := match i with IDecl _ d => [d] | INested _ _ => [] end.
Lemma one_decl_one i : length (one_decl i) <= 1. Proof. destruct i; cbn; lia. Qed.
Lemma one_decl_some i d : one_decl i = [d] <-> i = IDecl V d.
Proof. destruct i; cbn; split; intros H; try discriminate; injection H as ->; reflexivity. Qed.

(** place [n] of the walk and item [k] there *)
Definition spot (l : list rule) (n : nat) (k : nat) (p : list nat) (d : declaration V) (ss : list (list complex)) (i j : nat) : Prop :=
  exists items, nth_error (walks l) n = Some (p, ss, items) /\ nth_error items k = Some (IDecl V d) /\
    i = rank emit (walks l) n /\ j = rank one_decl items k.
Lemma find_first {A} (f : A -> bool) (l : list A) (R : A -> A -> Prop) x : StronglySorted R l -> (forall a, ~ R a a) -> (forall a b, R a b -> ~ R b a) ->
  find f l = Some x <-> In x l /\ f x = true /\ forall y, In y l -> R y x -> f y = false.
Proof.
  intros S I AS. induction S as [|a l S IH F]; cbn [find In]; [split; [discriminate|tauto]|]. rewrite Forall_forall in F. destruct (f a) eqn:E.
  - split.
    + intros [= ->]. split; [left; reflexivity|]. split; [exact E|]. intros y [->|Y] K; [elim (I _ K)|]. elim (AS _ _ (F y Y) K).
    + intros ([->|X] & Fx & M); [reflexivity|]. rewrite (M a) in E by (auto). discriminate.
  - rewrite IH. split.
    + intros (X & Fx & M). split; [auto|]. split; [exact Fx|]. intros y [->|Y] K; auto.
    + intros ([->|X] & Fx & M); [congruence|]. auto.
Qed.
Lemma find_map {A B} (g : A -> B) (f : B -> bool) l : find f (map g l) = option_map g (find (fun x => f (g x)) l).
Proof. induction l as [|a l IH]; cbn; [reflexivity|]. destruct (f (g a)); auto. Qed.
Lemma find_ext {A} (f g : A -> bool) l : (forall x, In x l -> f x = g x) -> find f l = find g l.
Proof. induction l as [|a l IH]; intros H; cbn; [reflexivity|]. rewrite (H a) by (left; reflexivity). destruct (g a); auto. apply IH. intros. apply H. right. auto. Qed.

Variable l : list rule.
Hypothesis wf : Forall well_formed l.
Hypothesis ok : readable l.

Lemma written_wf p ss items : written l p ss items -> all_closed ss /\ ss <> [] /\ forall n, In (INested V n) items -> well_formed n.
Proof.
  induction 1 as [i sels items H|p ss items k sels' items' H [IH1 [IH2 IH3]] N].
  - rewrite Forall_forall in wf. apply nth_error_In, wf in H. inversion H; subst. split; [constructor; [assumption|constructor]|]. split; [discriminate|assumption].
  - apply nth_error_In, IH3 in N. inversion N; subst. split; [apply Forall_app; split; [exact IH1|constructor; [assumption|constructor]]|]. split; [destruct ss; discriminate|assumption].
Qed.
Lemma found c w anc p ss items sel : written l p ss items ->
  find (matches_complex c w anc) (combined ss) = Some sel <->
  exists is ts, sel = spelt ts /\ picks ss is ts /\ meaning c ts (w :: anc) /\ forall is' ts', picks ss is' ts' -> earlier is' is -> ~ meaning c ts' (w :: anc).
Proof.
  intros W. destruct (written_wf _ _ _ W) as (C & N & _). rewrite combined_choices by exact N. rewrite find_map.
  assert (M : forall t : choice, In t (choices ss) -> (matches_complex c w anc (spelt (snd t)) = true <-> meaning c (snd t) (w :: anc))).
  { intros [is ts] I. apply in_choices in I. cbn. apply matches_spelt; [eapply picks_closed; eauto|]. eapply ok; eauto. }
  pose proof (fun x => find_first (fun t : choice => matches_complex c w anc (spelt (snd t))) (choices ss) _ x (choices_sorted ss)
     (fun a => earlier_irrefl (fst a)) (fun a b H K => earlier_irrefl (fst a) (earlier_trans _ _ _ H K))) as FF.
  split.
  - destruct (find _ _) as [[is ts]|] eqn:F; [|discriminate]. cbn. intros [= <-]. destruct (proj1 (FF _) eq_refl) as (I & T & L). exists is, ts. split; [reflexivity|]. split; [apply in_choices; exact I|]. split; [apply (M _ I); exact T|].
    intros is' ts' P E K. apply in_choices in P. specialize (L _ P E). apply (M _ P) in K. cbn in K, L. congruence.
  - intros (is & ts & -> & P & T & L). assert (F : find (fun t : choice => matches_complex c w anc (spelt (snd t))) (choices ss) = Some (is, ts)); [|exact (f_equal (option_map (fun t : choice => spelt (snd t))) F)].
    apply FF. apply in_choices in P. split; [exact P|]. split; [apply (M _ P); exact T|]. intros [is' ts'] Y E. pose proof (M _ Y) as K. cbn in *. destruct (matches_complex c w anc (spelt ts')); [|reflexivity]. elim (L is' ts'); [apply in_choices; exact Y|exact E|apply K; reflexivity].
Qed.

Lemma declared_iff c w anc i j sel d : declared c (w :: anc) (flatten_stylesheet V l) i j sel d <->
  exists n k p ss items is ts, nth_error (walks l) n = Some (p, ss, items) /\ nth_error items k = Some (IDecl V d) /\
    i = rank emit (walks l) n /\ j = rank one_decl items k /\ sel = spelt ts /\ picks ss is ts /\ meaning c ts (w :: anc) /\
    forall is' ts', picks ss is' ts' -> earlier is' is -> ~ meaning c ts' (w :: anc).
Proof.
  unfold declared. rewrite flatten_walks. split.
  - intros (r & w' & anc' & [= <- <-] & R & F & D). apply (nth_single emit emit_one) in R. destruct R as (n & [[p ss] items] & N & E & ->). apply emit_some in E. destruct E as [NE ->]. cbn [fst snd r_sels r_items] in *.
    rewrite decls_map in D. change (decls_of V items) with (flat_map one_decl items) in D. apply (nth_single one_decl one_decl_one) in D. destruct D as (k & x & K & E & ->). apply one_decl_some in E. subst x.
    apply (found c w anc p ss items sel) in F; [|apply written_iff; eapply nth_error_In; exact N]. destruct F as (is & ts & F). exists n, k, p, ss, items, is, ts. tauto.
  - intros (n & k & p & ss & items & is & ts & N & K & -> & -> & F). 
    assert (I : In d (decls_of V items)) by (apply in_decls; eapply nth_error_In; exact K).
    exists (Rule V (combined ss) (map (IDecl V) (decls_of V items))), w, anc. split; [reflexivity|]. split; [|split].
    + apply (nth_single emit emit_one). exists n, (p, ss, items). split; [exact N|]. split; [|reflexivity]. apply emit_some. split; [|reflexivity]. cbn [snd]. intros X. rewrite X in I. destruct I.
    + cbn [r_sels]. apply (found c w anc p ss items); [apply written_iff; eapply nth_error_In; exact N|]. exists is, ts. tauto.
    + cbn [r_items]. rewrite decls_map. change (decls_of V items) with (flat_map one_decl items). apply (nth_single one_decl one_decl_one). exists k, (IDecl V d). split; [exact K|]. split; reflexivity.
Qed.

(** the numbers the program uses and the places in the source *)
Definition stands (i j : nat) (p : list nat) (k : nat) : Prop :=
  exists n ss items d, nth_error (walks l) n = Some (p, ss, items) /\ nth_error items k = Some (IDecl V d) /\ i = rank emit (walks l) n /\ j = rank one_decl items k.
Lemma stands_emits n p ss items k d : nth_error (walks l) n = Some (p, ss, items) -> nth_error items k = Some (IDecl V d) -> exists r, emit (p, ss, items) = [r].
Proof.
  intros _ K. unfold emit. cbn [fst snd]. apply nth_error_In, in_decls in K. destruct (decls_of V items); [destruct K|]. eexists. reflexivity.
Qed.
Lemma stands_order i j p k i' j' p' k' : stands i j p k -> stands i' j' p' k' ->
  ((i < i' <-> earlier p p') /\ (i = i' <-> p = p')) /\ (p = p' -> (j < j' <-> k < k') /\ (j = j' <-> k = k')).
Proof.
  intros (n & ss & items & d & N & K & -> & ->) (n' & ss' & items' & d' & N' & K' & -> & ->).
  destruct (stands_emits _ _ _ _ _ _ N K) as [r E], (stands_emits _ _ _ _ _ _ N' K') as [r' E'].
  destruct (rank_order emit (walks l) _ _ _ _ _ _ N E N' E') as [O1 O2].
  assert (B : (n < n' <-> earlier p p') /\ (n = n' <-> p = p')).
  { pose proof (sorted_nth _ _ (walks_sorted l)) as S. destruct (lt_eq_lt_dec n n') as [[L|L]|L].
    - specialize (S n n' _ _ L N N'). unfold path in S. cbn in S. split; split; intros H; auto; try lia. subst. elim (earlier_irrefl _ S).
    - subst n'. rewrite N' in N. injection N as -> -> ->. split; split; intros H; auto; try lia. elim (earlier_irrefl _ H).
    - specialize (S n' n _ _ L N' N). unfold path in S. cbn in S. split; split; intros H; try lia. { elim (earlier_irrefl p). eapply earlier_trans; eauto. } subst. elim (earlier_irrefl _ S). }
  split; [tauto|]. intros ->. assert (n = n') by tauto. subst n'. rewrite N' in N. injection N as -> ->.
  apply (rank_order one_decl items _ _ _ _ _ _ K eq_refl K' eq_refl).
Qed.
Lemma in_force_declared c w anc p k d ts : in_force c l (w :: anc) p k d ts ->
  exists i j, stands i j p k /\ declared c (w :: anc) (flatten_stylesheet V l) i j (spelt ts) d /\ complex_spec (spelt ts) = weight ts.
Proof.
  intros (ss & items & is & W & K & P & M & L). pose proof W as W'. apply written_iff, In_nth_error in W'. destruct W' as [n N].
  exists (rank emit (walks l) n), (rank one_decl items k). split; [|split].
  - exists n, ss, items, d. auto.
  - apply declared_iff. exists n, k, p, ss, items, is, ts. tauto.
  - apply weight_spelt. eapply picks_closed; [|exact P]. eapply written_wf; eauto.
Qed.
Lemma declared_in_force c w anc i j sel d : declared c (w :: anc) (flatten_stylesheet V l) i j sel d ->
  exists p k ts, stands i j p k /\ in_force c l (w :: anc) p k d ts /\ complex_spec sel = weight ts.
Proof.
  intros H. apply declared_iff in H. destruct H as (n & k & p & ss & items & is & ts & N & K & -> & -> & -> & P & M & L).
  assert (W : written l p ss items) by (apply written_iff; eapply nth_error_In; exact N).
  exists p, k, ts. split; [exists n, ss, items, d; auto|]. split; [exists ss, items, is; auto|]. apply weight_spelt. eapply picks_closed; [|exact P]. eapply written_wf; eauto.
Qed.
Lemma priority s i j p k s' i' j' p' k' ts ts' : stands i j p k -> stands i' j' p' k' -> s = weight ts -> s' = weight ts' ->
  (lower_priority s i j s' i' j' <-> yields ts p k ts' p' k') /\ ((i, j) = (i', j') <-> (p, k) = (p', k')).
Proof.
  intros A B -> ->. destruct (stands_order _ _ _ _ _ _ _ _ A B) as [[O1 O2] O3]. unfold lower_priority, yields. split.
  - split; (intros [H|[H [K|[K1 K2]]]]; [left; exact H|right; split; [exact H|left; tauto]|right; split; [exact H|right]]); assert (E : p = p') by tauto; destruct (O3 E); (split; tauto).
  - split; intros H; injection H as H1 H2; assert (E : p = p') by tauto; destruct (O3 E); f_equal; tauto.
Qed.
End Walk.
