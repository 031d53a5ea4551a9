(** Proofs about the names of widgets and typed queries. *)
From Coq Require Import String ZArith List Bool Arith Lia.
From Verif Require Import Text_Model Tree_Model Css_Model Name_Model Name_Spec.
Import ListNotations.
Open Scope nat_scope.
Open Scope list_scope.

Lemma before_args_app a r : ~ In 60%Z a -> before_args (a ++ r) = a ++ before_args r.
Proof.
  induction a as [|c a IH]; cbn; intros H; [reflexivity|]. destruct (Z.eqb_spec c 60) as [E|E]; [exfalso; apply H; left; exact E|]. f_equal. apply IH. intros I. apply H. right. exact I.
Qed.
Lemma last_segment_plain t : forall seg, ~ In 58%Z t -> last_segment seg t = seg ++ t.
Proof.
  induction t as [|c t IH]; intros seg H; cbn; [symmetry; apply app_nil_r|]. assert (C : (c =? 58)%Z = false) by (apply Z.eqb_neq; intros E; apply H; left; exact E).
  destruct t as [|d t]; [reflexivity|]. rewrite C. cbn [andb]. rewrite IH, <- app_assoc; [reflexivity|]. intros I. apply H. right. exact I.
Qed.
Lemma last_segment_cons c d r seg : last_segment seg (c :: d :: r) = if ((c =? 58) && (d =? 58))%Z then last_segment [] r else last_segment (seg ++ [c]) (d :: r).
Proof. reflexivity. Qed.
Lemma last_segment_module t r : forall seg, ~ In 58%Z t -> last_segment seg (t ++ 58%Z :: 58%Z :: r) = last_segment [] r.
Proof.
  induction t as [|c t IH]; intros seg H; [reflexivity|]. assert (C : (c =? 58)%Z = false) by (apply Z.eqb_neq; intros E; apply H; left; exact E).
  assert (N : ~ In 58%Z t) by (intros I; apply H; right; exact I).
  cbn [app]. destruct (t ++ 58%Z :: 58%Z :: r) as [|d u] eqn:E; [destruct t; discriminate|]. rewrite last_segment_cons, C. cbn [andb]. apply IH. exact N.
Qed.
Lemma short_path mods name args : Forall word mods -> word name -> arguments args -> short_name (path_of mods name args) = name.
Proof.
  intros M (_ & N58 & N60) A. unfold short_name, path_of.
  assert (B : before_args args = []) by (destruct A as [->|[r ->]]; reflexivity).
  assert (P : ~ In 60%Z (flat_map (fun m => m ++ str "::") mods)).
  { intros H. apply in_flat_map in H. destruct H as (m & I & H). rewrite Forall_forall in M. apply M in I. apply in_app_or in H. destruct H as [H|H]; [apply I; exact H|]. cbn in H. lia. }
  rewrite before_args_app, before_args_app, B, app_nil_r by assumption. clear P A B.
  induction M as [|m mods (_ & M58 & _) F IH]; [apply last_segment_plain; exact N58|]. cbn [flat_map]. rewrite <- !app_assoc. change (str "::") with [58%Z; 58%Z]. cbn [app]. rewrite last_segment_module by exact M58. exact IH.
Qed.

Lemma before_irrefl p : ~ before p p.
Proof. induction p as [|a p IH]; cbn; [tauto|]. intros [H|[_ H]]; [lia|auto]. Qed.
Lemma before_total p : forall q, before p q \/ p = q \/ before q p.
Proof.
  induction p as [|a p IH]; intros [|b q]; cbn; auto. destruct (lt_eq_lt_dec a b) as [[H|H]|H]; auto. subst. destruct (IH q) as [H|[H|H]]; [auto|subst; auto|auto].
Qed.

Lemma children_height w : forall k, In k (children w) -> height k < height w.
Proof.
  induction w as [k id l ks|v IH]; intros x H.
  - assert (I : In x ks) by (destruct k; cbn in H; (exact H || destruct H)). cbn [height]. clear H. induction ks as [|y ks IHk]; [destruct I|]. cbn [fold_right]. destruct I as [->|I]; [lia|]. apply IHk in I. lia.
  - cbn in *. apply IH in H. lia.
Qed.
Lemma with_children_same w : with_children w (children w) = w \/ children w = [].
Proof. induction w as [k id l ks|v [IH|IH]]; [destruct k; cbn; auto|left; cbn; rewrite IH; reflexivity|right; exact IH]. Qed.

Lemma cast_some K f w y : cast K f w = Some y <-> kind_of w = Some K /\ answers_any K = true /\ y = inside f w.
Proof.
  revert y. induction w as [k id l ks|v IH]; intros y; cbn.
  - unfold kind_of. cbn. destruct (answers_any k) eqn:E.
    + destruct (kind_eq_dec k K) as [->|N]; split; [intros [= <-]; auto|intros (_ & _ & ->); reflexivity|discriminate|intros ([= ->] & _); congruence].
    + split; [discriminate|]. intros ([= ->] & H & _). congruence.
  - unfold kind_of. cbn. split.
    + destruct (cast K f v) as [z|] eqn:E; [|discriminate]. cbn. intros [= <-]. destruct (proj1 (IH z) eq_refl) as (E' & A & ->). auto.
    + intros (E & A & ->). rewrite (proj2 (IH (inside f v))); auto.
Qed.

Section Typed.
Variables (m sel : text) (K : kind) (f : widget -> widget).
Notation find := (find_typed m (parse_selector sel) K f).
Notation want := (wanted m sel K).
Lemma here w y : (if sel_finds m (parse_selector sel) w then cast K f w else None) = Some y <-> want w /\ y = inside f w.
Proof.
  unfold wanted. destruct (sel_finds m (parse_selector sel) w).
  - rewrite cast_some. tauto.
  - split; [discriminate|]. intros ((H & _) & _). discriminate.
Qed.
Lemma first_child_some g ks ks' : first_child g ks = Some ks' -> exists a k k' b, ks = a ++ k :: b /\ ks' = a ++ k' :: b /\ g k = Some k' /\ Forall (fun x => g x = None) a.
Proof.
  revert ks'. induction ks as [|x ks IH]; intros ks'; cbn; [discriminate|]. destruct (g x) as [x'|] eqn:E.
  - intros [= <-]. exists [], x, x', ks. auto.
  - destruct (first_child g ks) as [r|] eqn:F; [|discriminate]. cbn. intros [= <-]. destruct (IH r eq_refl) as (a & k & k' & b & -> & -> & G & A). exists (x :: a), k, k', b. auto.
Qed.
Lemma first_child_none g ks : first_child g ks = None -> Forall (fun x => g x = None) ks.
Proof.
  induction ks as [|x ks IH]; cbn; [constructor|]. destruct (g x) eqn:E; [discriminate|]. destruct (first_child g ks); [discriminate|]. auto.
Qed.
Lemma find_none n : forall w, height w <= n -> find n w = None -> forall p x, reach children w p = Some x -> ~ want x.
Proof.
  induction n as [|n IH]; intros w H; [destruct w; cbn in H; lia|]. cbn [find_typed]. destruct (if sel_finds _ _ _ then _ else _) as [y|] eqn:E; [discriminate|].
  destruct (first_child (find n) (children w)) as [r|] eqn:F; [discriminate|]. intros _ [|i p] x R; cbn in R.
  - injection R as <-. intros G. pose proof (proj2 (here w _) (conj G eq_refl)). congruence.
  - destruct (nth_error (children w) i) as [k|] eqn:N; [|discriminate]. apply nth_error_In in N. apply first_child_none in F. rewrite Forall_forall in F. apply (IH k) with (p := p); [|apply F; exact N|exact R]. apply children_height in N. lia.
Qed.
Lemma find_some n : forall w w', height w <= n -> find n w = Some w' -> exists p x, first_wanted m sel K w p x /\ replaced (inside f x) w p w'.
Proof.
  induction n as [|n IH]; intros w w' H; [discriminate|]. cbn [find_typed]. destruct (if sel_finds _ _ _ then _ else _) as [y|] eqn:E.
  - intros [= <-]. apply here in E. destruct E as [G ->]. exists [], w. split; [|constructor]. split; [reflexivity|]. split; [exact G|]. intros q z _ Q. destruct q; destruct Q.
  - destruct (first_child (find n) (children w)) as [r|] eqn:F; [|discriminate]. cbn. intros [= <-]. apply first_child_some in F. destruct F as (a & k & k' & b & C & -> & G & A).
    assert (HK : forall x, In x (children w) -> height x <= n) by (intros x X; apply children_height in X; lia).
    destruct (IH k k') as (p & x & (R & Wx & B) & RP); [apply HK; rewrite C; apply in_or_app; right; left; reflexivity|exact G|]. exists (length a :: p), x. split; [|econstructor; eauto].
    assert (NK : nth_error (children w) (length a) = Some k) by (rewrite C, nth_error_app2, Nat.sub_diag by lia; reflexivity).
    split; [cbn; rewrite NK; exact R|]. split; [exact Wx|]. intros [|i q] z Q L; cbn in Q.
    + injection Q as <-. intros Wz. pose proof (proj2 (here w _) (conj Wz eq_refl)). congruence.
    + destruct (nth_error (children w) i) as [c|] eqn:N; [|discriminate]. cbn in L. destruct L as [L|[-> L]].
      * assert (IA : In c a) by (rewrite C, nth_error_app1 in N by exact L; apply nth_error_In in N; exact N). rewrite Forall_forall in A. apply (find_none n c) with (p := q); [|apply A; exact IA|exact Q]. apply HK. rewrite C. apply in_or_app. left. exact IA.
      * rewrite NK in N. injection N as <-. eauto.
Qed.
Lemma first_unique w p x q y : first_wanted m sel K w p x -> first_wanted m sel K w q y -> p = q /\ x = y.
Proof.
  intros (R & G & B) (R' & G' & B'). destruct (before_total p q) as [L|[->|L]]; [elim (B' _ _ R L G)| |elim (B _ _ R' L G')]. split; [reflexivity|congruence].
Qed.
Lemma query_first root p x : first_wanted m sel K root p x -> exists r, query_one_as m sel K f root = (r, true) /\ replaced (inside f x) root p r.
Proof.
  intros F. unfold query_one_as. destruct (find (height root) root) as [r|] eqn:E.
  - destruct (find_some _ _ _ (le_n _) E) as (q & y & F' & RP). destruct (first_unique _ _ _ _ _ F F') as [<- <-]. exists r. auto.
  - destruct F as (R & G & _). elim (find_none _ _ (le_n _) E _ _ R G).
Qed.
Lemma query_none root : (forall p x, reach children root p = Some x -> ~ want x) -> query_one_as m sel K f root = (root, false).
Proof.
  intros N. unfold query_one_as. destruct (find (height root) root) as [r|] eqn:E; [|reflexivity]. destruct (find_some _ _ _ (le_n _) E) as (q & y & (R & G & _) & _). elim (N _ _ R G).
Qed.
End Typed.

Lemma reach_same t : (forall p x k, reach styled_children t p = Some x -> kind_of x = Some k -> closed_kind k = false) ->
  forall p, reach children t p = reach styled_children t p.
Proof.
  intros H p. revert t H. induction p as [|i p IH]; intros t H; [reflexivity|]. cbn.
  assert (E : children t = styled_children t).
  { assert (H0 := fun k => H [] t k eq_refl). clear H IH. induction t as [k id l ks|v IHv]; [|cbn; apply IHv; exact H0]. specialize (H0 k eq_refl). rename H0 into H. destruct k; try discriminate H; reflexivity. }
  rewrite E. destruct (nth_error (styled_children t) i) as [k|] eqn:N; [|reflexivity]. apply IH. intros q x k' R. apply (H (i :: q)). cbn. rewrite N. exact R.
Qed.
Lemma children_styled t i k : nth_error (children t) i = Some k -> nth_error (styled_children t) i = Some k.
Proof. induction t as [x id l ks|v IHv]; [|exact IHv]. destruct x; cbn; auto; destruct i; discriminate. Qed.
Lemma reach_more p : forall t x, reach children t p = Some x -> reach styled_children t p = Some x.
Proof.
  induction p as [|i p IH]; intros t x; cbn; [auto|]. destruct (nth_error (children t) i) as [k|] eqn:N; [|discriminate]. rewrite (children_styled _ _ _ N). apply IH.
Qed.
