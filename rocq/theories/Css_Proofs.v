(** Proofs about selectors, cascade, nesting, comments and blocks. *)
From Coq Require Import String ZArith List Bool Arith Lia Permutation Sorted.
From Verif Require Import Text_Model Css_Model Css_Spec.
Import ListNotations.
Local Open Scope nat_scope.

Lemma text_eqb_eq a : forall b, text_eqb a b = true <-> a = b.
Proof.
  induction a as [|x a IH]; intros [|y b]; cbn; split; intro H; try discriminate; try reflexivity.
  - apply andb_true_iff in H. destruct H as [H1 H2]. apply Z.eqb_eq in H1. apply IH in H2. congruence.
  - injection H as -> ->. rewrite Z.eqb_refl. cbn. apply IH. reflexivity.
Qed.

(** *** Matching *)

Lemma matches_selector_holds c w s : matches_selector c w s = true <-> holds c w s.
Proof.
  destruct s as [n|n|i| |n| |n v]; cbn [matches_selector holds].
  - unfold type_names. destruct (m_types w) as [|t l] eqn:E; cbn [is_nil].
    + rewrite text_eqb_eq. cbn. intuition.
    + rewrite existsb_exists. split.
      * intros [x [Hx Hn]]. apply text_eqb_eq in Hn. subst. exact Hx.
      * intro H. exists n. split; [exact H|]. apply text_eqb_eq. reflexivity.
  - rewrite existsb_exists. split.
    + intros [x [Hx Hn]]. apply text_eqb_eq in Hn. subst. exact Hx.
    + intro H. exists n. split; [exact H|]. apply text_eqb_eq. reflexivity.
  - destruct (m_id w) as [x|]; [|split; discriminate]. rewrite text_eqb_eq. split; congruence.
  - tauto.
  - unfold pseudo_holds.
    assert (D : forall s, (text_eqb n s = true /\ n = s) \/ (text_eqb n s = false /\ n <> s)).
    { intro s. destruct (text_eqb n s) eqn:E; [left|right]; split; auto.
      - apply text_eqb_eq. exact E.
      - intro X. apply text_eqb_eq in X. congruence. }
    repeat match goal with
    | |- context [text_eqb n ?s] =>
        let E := fresh in let F := fresh in
        destruct (D s) as [[E F]|[E F]]; rewrite E;
        [ clear D; subst n; split;
          [ intro; rewrite ?negb_true_iff in *; tauto
          | intro X; rewrite ?negb_true_iff;
            repeat (destruct X as [X|X]; [destruct X as [X1 X2]; try (vm_compute in X1; discriminate X1); assumption|]);
            destruct X as [X1 X2]; try (vm_compute in X1; discriminate X1); assumption ]
        | ]
    end.
    split; [discriminate|tauto].
  - split; [discriminate|tauto].
  - split; [discriminate|tauto].
Qed.

Lemma matches_compound_holds c w k : matches_compound c w k = true <-> Forall (holds c w) k.
Proof.
  unfold matches_compound. rewrite forallb_forall, Forall_forall.
  split; intros H s Hs; apply matches_selector_holds; auto.
Qed.

Lemma extends_snoc c comb rest : forall from k comb' ch,
  extends c from comb (rest ++ [(k, comb')]) ch <->
  head_holds c k ch /\ exists up, extends c from comb rest up /\ related (last (map snd rest) comb) up ch.
Proof.
  revert comb. induction rest as [|[k0 c0] rest IH]; intros comb from k comb' ch; cbn [app extends].
  - cbn. tauto.
  - rewrite IH. cbn [map snd].
    replace (last (c0 :: map snd rest) comb) with (last (map snd rest) c0); [tauto|].
    destruct rest as [|[k1 c1] rest]; [reflexivity|].
    cbn [map snd].
    assert (G : forall l (x d1 d2 : combinator), last (x :: l) d1 = last (x :: l) d2).
    { induction l as [|y l IHl]; intros; [reflexivity|]. cbn. apply IHl. }
    change (last (c0 :: c1 :: map snd rest) comb) with (last (c1 :: map snd rest) comb).
    apply G.
Qed.

Definition comb_of (ps : list part) : combinator := match ps with [] => CNone | (_, comb) :: _ => comb end.

Lemma css_snoc c sel k comb ch : sel <> [] ->
  css c (sel ++ [(k, comb)]) ch <->
  head_holds c k ch /\ exists up, css c sel up /\ related (comb_of (rev sel)) up ch.
Proof.
  destruct sel as [|[k0 c0] r]; [congruence|]. intros _. cbn [app css]. rewrite extends_snoc.
  replace (comb_of (rev ((k0, c0) :: r))) with (last (map snd r) c0); [tauto|].
  cbn [rev]. destruct r as [|p r] using rev_ind; [reflexivity|].
  rewrite rev_app_distr, map_app. cbn [map]. rewrite last_last. cbn. destruct p. reflexivity.
Qed.

Lemma css_single c k comb ch : css c [(k, comb)] ch <-> head_holds c k ch.
Proof. cbn. tauto. Qed.

(* soundness *)
Lemma match_up_sound c anc : forall ps, ps <> [] -> match_up c ps anc = true ->
  forall x, exists up, css c (rev ps) up /\ related (comb_of ps) up (x :: anc).
Proof.
  induction anc as [|a rest IH]; intros ps Hps H x; destruct ps as [|[k comb] ps]; try congruence; [discriminate|].
  cbn [match_up] in H. cbn [comb_of rev].
  assert (Step : matches_compound c a k = true -> match_up c ps rest = true ->
                 css c (rev ps ++ [(k, comb)]) (a :: rest)).
  { intros Hk Hu. apply matches_compound_holds in Hk.
    destruct ps as [|p ps']; [cbn; exact Hk|].
    destruct (IH (p :: ps') ltac:(congruence) Hu a) as [up [H1 H2]].
    apply css_snoc.
    - intro X. apply (f_equal (@length _)) in X. rewrite rev_length in X. discriminate.
    - rewrite rev_involutive. split; [exact Hk|]. exists up. split; assumption. }
  destruct comb; try discriminate.
  - destruct (matches_compound c a k) eqn:Hk.
    + exists (a :: rest). split; [auto|]. exists x, []. reflexivity.
    + destruct (IH _ Hps H a) as [up [H1 [y [bt H2]]]]. exists up. split; [exact H1|].
      injection H2 as -> H2. exists x, (y :: bt). cbn. rewrite H2. reflexivity.
  - destruct (matches_compound c a k) eqn:Hk.
    + exists (a :: rest). split; [auto|]. exists x, []. reflexivity.
    + destruct (IH _ Hps H a) as [up [H1 [y [bt H2]]]]. exists up. split; [exact H1|].
      injection H2 as -> H2. exists x, (y :: bt). cbn. rewrite H2. reflexivity.
  - destruct (matches_compound c a k) eqn:Hk; [|discriminate].
    exists (a :: rest). split; [auto|]. exists x. reflexivity.
Qed.

Lemma matches_complex_sound c w anc sel : matches_complex c w anc sel = true -> css c sel (w :: anc).
Proof.
  unfold matches_complex. destruct sel as [|[k comb] sel' _] using rev_ind; [discriminate|].
  rewrite rev_app_distr. cbn [rev app].
  destruct (matches_compound c w k) eqn:Hk; [|discriminate]. intro H.
  apply matches_compound_holds in Hk.
  destruct sel' as [|p s]; [cbn; exact Hk|].
  assert (N : rev (p :: s) <> []).
  { intro X. apply (f_equal (@length _)) in X. rewrite rev_length in X. discriminate. }
  destruct (match_up_sound c anc _ N H w) as [up [H1 H2]]. rewrite rev_involutive in H1.
  apply css_snoc; [congruence|]. split; [exact Hk|]. exists up. auto.
Qed.

(* completeness *)
Fixpoint ordered_ok (ps : list part) : Prop :=
  match ps with
  | [] => True
  | (_, comb) :: r => (is_desc comb = true -> Forall (fun p => snd p <> CChild) r) /\ ordered_ok r
  end.

Lemma ordered_all_desc ps : Forall (fun p => snd p <> CChild) ps -> ordered_ok ps.
Proof. induction 1 as [|[k comb] ps Hx H IH]; cbn; [exact I|]. auto. Qed.

(* what match_up has to find, rightmost part first *)
Inductive up_rel (c : ctx) : list part -> list meta -> Prop :=
| up_nil : forall anc, up_rel c [] anc
| up_child : forall k ps a rest, Forall (holds c a) k -> up_rel c ps rest -> up_rel c ((k, CChild) :: ps) (a :: rest)
| up_desc : forall k comb ps bt a rest, is_desc comb = true -> Forall (holds c a) k -> up_rel c ps rest ->
    up_rel c ((k, comb) :: ps) (bt ++ a :: rest).

Lemma css_up_rel c ps : forall x anc up, ps <> [] -> css c (rev ps) up -> related (comb_of ps) up (x :: anc) ->
  up_rel c ps anc.
Proof.
  induction ps as [|[k comb] ps IH]; intros x anc up Hps H R; [congruence|]. cbn [rev comb_of] in *.
  assert (Hk : exists a rest, up = a :: rest /\ Forall (holds c a) k /\ up_rel c ps rest).
  { destruct ps as [|p ps'].
    - cbn in H. destruct up as [|a rest]; [destruct H|]. exists a, rest. repeat split; auto. constructor.
    - assert (N : rev (p :: ps') <> []).
      { intro X. apply (f_equal (@length _)) in X. rewrite rev_length in X. discriminate. }
      apply css_snoc in H; [|exact N]. destruct H as [H1 [up' [H2 H3]]]. rewrite rev_involutive in H3.
      destruct up as [|a rest]; [destruct H1|]. exists a, rest. repeat split; auto.
      apply (IH a rest up'); auto; congruence. }
  destruct Hk as [a [rest [-> [Hk Hu]]]].
  destruct comb; cbn in R.
  - destruct R as [y [bt R]]. injection R as -> ->. apply up_desc; auto.
  - destruct R as [y [bt R]]. injection R as -> ->. apply up_desc; auto.
  - destruct R as [y R]. injection R as -> ->. apply up_child; auto.
  - destruct R.
  - destruct R.
Qed.

Lemma up_rel_weaken c ps anc : up_rel c ps anc -> Forall (fun p => snd p <> CChild) ps -> forall pre, up_rel c ps (pre ++ anc).
Proof.
  destruct 1 as [anc|k ps a rest Hk Hu|k comb ps bt a rest Hd Hk Hu]; intros F pre.
  - constructor.
  - inversion F as [|? ? F1 F2]. cbn in F1. congruence.
  - rewrite app_assoc. apply up_desc; auto.
Qed.

Lemma match_up_complete c anc : forall ps, ordered_ok ps -> up_rel c ps anc -> match_up c ps anc = true.
Proof.
  induction anc as [|a rest IH]; intros ps O H.
  - inversion H as [|? ? ? ? Hk Hu|? ? ? bt ? ? Hd Hk Hu]; subst; [reflexivity|].
    match goal with E : bt ++ _ :: _ = [] |- _ => destruct bt; discriminate E end.
  - destruct ps as [|[k comb] ps]; [reflexivity|]. cbn [match_up]. cbn in O. destruct O as [O1 O2].
    inversion H as [|k' ps' a' rest' Hk Hu|k' comb' ps' bt a' rest' Hd Hk Hu]; subst.
    + replace (matches_compound c a k) with true by (symmetry; apply matches_compound_holds; exact Hk). auto.
    + assert (G : (if matches_compound c a k then match_up c ps rest else match_up c ((k, comb) :: ps) rest) = true).
      { destruct bt as [|b bt]; cbn in *.
        - match goal with E : _ :: _ = _ :: _ |- _ => injection E as -> -> end.
          replace (matches_compound c a k) with true by (symmetry; apply matches_compound_holds; exact Hk). auto.
        - match goal with E : _ :: _ = _ :: _ |- _ => injection E as -> <- end.
          destruct (matches_compound c a k) eqn:Ha.
          + apply IH; auto. replace (bt ++ a' :: rest') with ((bt ++ [a']) ++ rest') by (rewrite <- app_assoc; reflexivity).
            apply up_rel_weaken; auto.
          + apply IH; [cbn; auto|]. apply up_desc; auto. }
      destruct comb; cbn in Hd; try discriminate; exact G.
Qed.

Lemma ordered_ok_of (sel : complex) : no_child_left_of_descendant sel ->
  match rev sel with [] => True | _ :: ps => ordered_ok ps end.
Proof.
  destruct sel as [|p sel _] using rev_ind; [intros; exact I|].
  intro H. rewrite rev_app_distr. cbn [rev app].
  assert (H' : forall i j ki ci kj cj, i < j -> j < length sel -> nth_error sel i = Some (ki, ci) ->
      nth_error sel j = Some (kj, cj) -> is_desc cj = true -> ci <> CChild).
  { intros i j ki ci kj cj Hij Hj Hi Hj' Hd. apply (H i j ki ci kj cj).
    - rewrite app_length. cbn. lia.
    - rewrite nth_error_app1 by lia. exact Hi.
    - rewrite nth_error_app1 by lia. exact Hj'.
    - exact Hd. }
  clear H p. revert H'. induction sel as [|[k comb] sel IH] using rev_ind; intro H'; [exact I|].
  rewrite rev_app_distr. cbn. split.
  - intro Hd. apply Forall_forall. intros [ki ci] Hin. apply in_rev in Hin.
    apply In_nth_error in Hin. destruct Hin as [i Hi]. cbn.
    assert (Li : i < length sel) by (apply nth_error_Some; congruence).
    apply (H' i (length sel) ki ci k comb); auto.
    + rewrite app_length. cbn. lia.
    + rewrite nth_error_app1 by lia. exact Hi.
    + rewrite nth_error_app2 by lia. rewrite Nat.sub_diag. reflexivity.
  - apply IH. intros i j ki ci kj cj Hij Hj Hi Hj' Hd. apply (H' i j ki ci kj cj); auto.
    + rewrite app_length. cbn. lia.
    + rewrite nth_error_app1 by lia. exact Hi.
    + rewrite nth_error_app1 by lia. exact Hj'.
Qed.

Lemma matches_complex_complete c w anc sel :
  no_child_left_of_descendant sel -> css c sel (w :: anc) -> matches_complex c w anc sel = true.
Proof.
  intros O H. apply ordered_ok_of in O. unfold matches_complex.
  destruct sel as [|[k comb] sel' _] using rev_ind; [destruct H|].
  rewrite rev_app_distr in *. cbn [rev app] in *.
  destruct sel' as [|p s].
  - cbn in *. apply matches_compound_holds in H. rewrite H. destruct anc; reflexivity.
  - apply css_snoc in H; [|congruence]. destruct H as [H1 [up [H2 H3]]]. cbn in H1.
    apply matches_compound_holds in H1. rewrite H1.
    apply match_up_complete; [exact O|].
    apply css_up_rel with (x := w) (up := up).
    + intro X. apply (f_equal (@length _)) in X. rewrite rev_length in X. discriminate.
    + rewrite rev_involutive. exact H2.
    + exact H3.
Qed.

(* sibling combinators *)
Lemma related_sibling comb up ch : comb = CAdjacent \/ comb = CSibling -> ~ related comb up ch.
Proof. intros [->| ->] H; exact H. Qed.

Lemma matches_complex_sibling c w anc pre k comb post : comb = CAdjacent \/ comb = CSibling -> post <> [] ->
  matches_complex c w anc (pre ++ (k, comb) :: post) = false.
Proof.
  intros Hc Hp. destruct (matches_complex c w anc _) eqn:E; [|reflexivity]. exfalso.
  apply matches_complex_sound in E. revert E. generalize (w :: anc). clear w anc.
  induction post as [|[k1 c1] post IH] using rev_ind; [congruence|]. intros ch E.
  rewrite app_comm_cons, app_assoc in E. apply css_snoc in E; [|destruct pre; discriminate].
  destruct E as [_ [up [E1 E2]]].
  destruct post as [|p post].
  - rewrite rev_app_distr in E2. cbn in E2. eapply related_sibling; eassumption.
  - apply (IH ltac:(congruence) up). exact E1.
Qed.

(** *** Specificity *)

Lemma spec_add_0_l a : spec_add spec_zero a = a. Proof. destruct a. reflexivity. Qed.
Lemma spec_add_assoc a b d : spec_add a (spec_add b d) = spec_add (spec_add a b) d.
Proof. destruct a, b, d. unfold spec_add. cbn. f_equal; lia. Qed.

Lemma compound_spec_acc k : forall a, fold_left (fun acc s => spec_add acc (spec_one s)) k a = spec_add a (compound_spec k).
Proof.
  unfold compound_spec. induction k as [|s k IH]; intro a; cbn.
  - destruct a. unfold spec_add. cbn. f_equal; lia.
  - rewrite IH, (IH (spec_add spec_zero (spec_one s))), spec_add_0_l, spec_add_assoc. reflexivity.
Qed.

Lemma compound_spec_cons s k : compound_spec (s :: k) = spec_add (spec_one s) (compound_spec k).
Proof. unfold compound_spec at 1. cbn. rewrite compound_spec_acc, spec_add_0_l. reflexivity. Qed.

Lemma compound_spec_app a b : compound_spec (a ++ b) = spec_add (compound_spec a) (compound_spec b).
Proof.
  induction a as [|s a IH]; cbn [app]; [symmetry; apply spec_add_0_l|].
  rewrite !compound_spec_cons, IH, spec_add_assoc. reflexivity.
Qed.

Lemma complex_spec_acc l : forall a, fold_left (fun acc p => spec_add acc (compound_spec (fst p))) l a
  = spec_add a (compound_spec (simple_selectors l)).
Proof.
  unfold simple_selectors. induction l as [|p l IH]; intro a; cbn [fold_left flat_map].
  - destruct a. unfold spec_add. cbn. f_equal; lia.
  - rewrite IH, compound_spec_app, spec_add_assoc. reflexivity.
Qed.

Lemma complex_spec_flat l : complex_spec l = compound_spec (simple_selectors l).
Proof. unfold complex_spec. rewrite complex_spec_acc. apply spec_add_0_l. Qed.

Lemma compound_spec_counts k :
  compound_spec k = Spec (count_if is_id k) (count_if is_class_like k) (count_if is_type k).
Proof.
  induction k as [|s k IH]; [reflexivity|]. rewrite compound_spec_cons, IH. unfold count_if.
  destruct s; cbn; unfold spec_add; cbn; reflexivity.
Qed.

Lemma spec_cmp_lt a b : spec_cmp a b = Lt <-> spec_lt a b.
Proof.
  unfold spec_cmp, spec_lt. destruct a as [i1 c1 t1], b as [i2 c2 t2]. cbn.
  destruct (Nat.compare_spec i1 i2); destruct (Nat.compare_spec c1 c2); destruct (Nat.compare_spec t1 t2);
    split; intro X; try discriminate; try reflexivity; try lia.
Qed.

Lemma spec_cmp_eq a b : spec_cmp a b = Eq <-> a = b.
Proof.
  unfold spec_cmp. destruct a as [i1 c1 t1], b as [i2 c2 t2]. cbn.
  destruct (Nat.compare_spec i1 i2); destruct (Nat.compare_spec c1 c2); destruct (Nat.compare_spec t1 t2);
    split; intro X; try discriminate; try reflexivity; try (injection X; intros; lia); subst; reflexivity.
Qed.

Lemma spec_cmp_antisym a b : spec_cmp b a = CompOpp (spec_cmp a b).
Proof.
  unfold spec_cmp. rewrite (Nat.compare_antisym (sp_ids a)), (Nat.compare_antisym (sp_classes a)), (Nat.compare_antisym (sp_types a)).
  destruct (Nat.compare (sp_ids a) (sp_ids b)), (Nat.compare (sp_classes a) (sp_classes b)); reflexivity.
Qed.

Lemma spec_lt_trans a b d : spec_lt a b -> spec_lt b d -> spec_lt a d.
Proof. unfold spec_lt. lia. Qed.
Lemma spec_lt_irrefl a : ~ spec_lt a a.
Proof. unfold spec_lt. lia. Qed.
Lemma spec_total a b : spec_lt a b \/ a = b \/ spec_lt b a.
Proof.
  destruct (spec_cmp a b) eqn:E.
  - right. left. apply spec_cmp_eq. exact E.
  - left. apply spec_cmp_lt. exact E.
  - right. right. apply spec_cmp_lt. rewrite spec_cmp_antisym, E. reflexivity.
Qed.

(** *** Cascade *)
Section Cascade.
Variable V : Type.
Variables (theme_color theme_edge theme_style theme_hatch theme_keyline auto_flag : V -> V) (v_true : V)
  (sp_top sp_right sp_bottom sp_left size_h size_v : V -> V) (merge : V -> V -> V).
Notation applyd := (apply_declaration V theme_color theme_edge theme_style theme_hatch theme_keyline auto_flag v_true
  sp_top sp_right sp_bottom sp_left size_h size_v merge).
Notation compute := (compute_style V theme_color theme_edge theme_style theme_hatch theme_keyline auto_flag v_true
  sp_top sp_right sp_bottom sp_left size_h size_v merge).

Lemma set_same s k v : set V s k v k = v.
Proof. unfold set. destruct (slot_eq_dec k k); congruence. Qed.
Lemma set_other s k v x : x <> k -> set V s k v x = s x.
Proof. unfold set. destruct (slot_eq_dec x k); congruence. Qed.

Lemma leaves_others d k : ~ In k (properties_of d) -> leaves applyd d k.
Proof.
  intros N s.
  destruct d; cbn [properties_of In] in N; cbn [apply_declaration];
    unfold merge_in; rewrite ?set_other by (intro; subst; tauto); reflexivity.
Qed.

Lemma assigns_own d k : In k (properties_of d) -> accumulates k = false -> exists v, assigns applyd d k v.
Proof.
  intros H A.
  destruct d; cbn [properties_of In] in H;
    repeat (match type of H with _ \/ _ => destruct H as [H|H] end; try (subst k; try discriminate A; eexists; intro st; cbn [apply_declaration]; unfold merge_in;
      repeat (rewrite set_same || rewrite set_other by discriminate); reflexivity));
    destruct H.
Qed.

Definition mlt (a b : matched V) : Prop := matched_cmp V a b = Lt.

Lemma matched_cmp_lt a b : mlt a b <-> spec_lt (mr_spec V a) (mr_spec V b) \/ (mr_spec V a = mr_spec V b /\ mr_order V a < mr_order V b).
Proof.
  unfold mlt, matched_cmp. destruct (spec_cmp (mr_spec V a) (mr_spec V b)) eqn:E.
  - apply spec_cmp_eq in E. rewrite Nat.compare_lt_iff. split; [tauto|].
    intros [H|H]; [|tauto]. rewrite E in H. exfalso. exact (spec_lt_irrefl _ H).
  - apply spec_cmp_lt in E. tauto.
  - rewrite spec_cmp_antisym in E. destruct (spec_cmp (mr_spec V b) (mr_spec V a)) eqn:E2; try discriminate.
    apply spec_cmp_lt in E2. split; [discriminate|]. intros [H|[H _]]; exfalso.
    + exact (spec_lt_irrefl _ (spec_lt_trans _ _ _ H E2)).
    + rewrite H in E2. exact (spec_lt_irrefl _ E2).
Qed.

Lemma mlt_trans a b d : mlt a b -> mlt b d -> mlt a d.
Proof.
  rewrite !matched_cmp_lt. intros [H1|[H1 H1']] [H2|[H2 H2']].
  - left. eapply spec_lt_trans; eassumption.
  - left. rewrite <- H2. exact H1.
  - left. rewrite H1. exact H2.
  - right. split; [congruence|lia].
Qed.

Lemma matched_cmp_gt a b : matched_cmp V a b = Gt -> mlt b a.
Proof.
  unfold mlt, matched_cmp. rewrite (spec_cmp_antisym (mr_spec V a) (mr_spec V b)).
  destruct (spec_cmp (mr_spec V a) (mr_spec V b)); cbn; try discriminate; auto.
  rewrite Nat.compare_antisym. destruct (Nat.compare (mr_order V b) (mr_order V a)) eqn:E; cbn; try discriminate; auto.
Qed.

Lemma insert_perm x l : Permutation (x :: l) (insert_matched V x l).
Proof.
  induction l as [|y l IH]; cbn; [reflexivity|]. destruct (matched_cmp V x y); try reflexivity.
  rewrite perm_swap. constructor. exact IH.
Qed.
Lemma sort_perm l : Permutation l (sort_matched V l).
Proof.
  induction l as [|x l IH]; cbn; [reflexivity|]. rewrite <- insert_perm. constructor. exact IH.
Qed.

Lemma insert_sorted x l : ~ In (mr_order V x) (map (mr_order V) l) -> StronglySorted mlt l -> StronglySorted mlt (insert_matched V x l).
Proof.
  induction l as [|y l IH]; intros N S; cbn; [repeat constructor|].
  inversion S as [|? ? S1 S2]; subst. destruct (matched_cmp V x y) eqn:E.
  - exfalso. apply N. left. unfold matched_cmp in E. destruct (spec_cmp _ _); try discriminate.
    apply Nat.compare_eq in E. congruence.
  - constructor; [exact S|]. constructor; [exact E|].
    eapply Forall_impl; [|exact S2]. intros z Hz. eapply mlt_trans; eassumption.
  - constructor.
    + apply IH; [|exact S1]. intro X. apply N. right. exact X.
    + eapply Permutation_Forall; [apply insert_perm|]. constructor; [apply matched_cmp_gt; exact E|exact S2].
Qed.

Lemma sort_sorted l : NoDup (map (mr_order V) l) -> StronglySorted mlt (sort_matched V l).
Proof.
  induction l as [|x l IH]; intro N; cbn; [constructor|]. cbn in N. inversion N as [|? ? N1 N2]; subst.
  apply insert_sorted; [|auto]. intro X. apply N1.
  apply in_map_iff in X. destruct X as [y [Hy Hin]]. rewrite <- Hy. apply in_map.
  eapply Permutation_in; [symmetry; apply sort_perm|exact Hin].
Qed.

Lemma match_rules_in c w anc rules : forall idx m, In m (match_rules V c w anc idx rules) <->
  exists i r sel, nth_error rules i = Some r /\ find (matches_complex c w anc) (r_sels V r) = Some sel /\
    m = Matched V (complex_spec sel) (idx + i) r.
Proof.
  induction rules as [|r rules IH]; intros idx m; cbn [match_rules].
  - split; [intros []|]. intros [i [r [sel [H _]]]]. destruct i; discriminate.
  - assert (R : (exists i r0 sel, nth_error (r :: rules) i = Some r0 /\ find (matches_complex c w anc) (r_sels V r0) = Some sel /\
        m = Matched V (complex_spec sel) (idx + i) r0) <->
      (exists sel, find (matches_complex c w anc) (r_sels V r) = Some sel /\ m = Matched V (complex_spec sel) idx r) \/
      In m (match_rules V c w anc (S idx) rules)).
    { rewrite IH. split.
      - intros [[|i] [r0 [sel [H1 [H2 H3]]]]]; cbn in H1.
        + injection H1 as <-. left. exists sel. rewrite Nat.add_0_r in H3. auto.
        + right. exists i, r0, sel. rewrite H3. replace (S idx + i) with (idx + S i) by lia. auto.
      - intros [[sel [H2 H3]]|[i [r0 [sel [H1 [H2 H3]]]]]].
        + exists 0, r, sel. rewrite Nat.add_0_r. auto.
        + exists (S i), r0, sel. rewrite H3. replace (S idx + i) with (idx + S i) by lia. auto. }
    rewrite R. destruct (find (matches_complex c w anc) (r_sels V r)) as [sel|] eqn:E.
    + cbn [In]. split.
      * intros [H|H]; [left; exists sel; auto|right; exact H].
      * intros [[sel' [H1 H2]]|H]; [left; congruence|right; exact H].
    + split; [tauto|]. intros [[sel' [H1 H2]]|H]; [discriminate|exact H].
Qed.

Lemma match_rules_nodup c w anc rules : forall idx, NoDup (map (mr_order V) (match_rules V c w anc idx rules)).
Proof.
  induction rules as [|r rules IH]; intros idx; cbn [match_rules]; [constructor|].
  destruct (find _ _); [|apply IH]. cbn. constructor; [|apply IH].
  intro X. apply in_map_iff in X. destruct X as [m [Hm Hin]]. apply match_rules_in in Hin.
  destruct Hin as [i [r0 [sel [_ [_ ->]]]]]. cbn in Hm. lia.
Qed.

Lemma fold_leaves k ds : (forall d, In d ds -> leaves applyd d k) -> forall s, fold_left applyd ds s k = s k.
Proof.
  induction ds as [|d ds IH]; intros H s; cbn; [reflexivity|].
  rewrite IH by (intros; apply H; right; assumption). apply H. left. reflexivity.
Qed.

Lemma fold_rules l : forall s, fold_left (fun s m => apply_rule V theme_color theme_edge theme_style theme_hatch theme_keyline auto_flag v_true
  sp_top sp_right sp_bottom sp_left size_h size_v merge s (mr_rule V m)) l s
  = fold_left applyd (flat_map (fun m => decls_of V (r_items V (mr_rule V m))) l) s.
Proof.
  induction l as [|m l IH]; intro s; cbn; [reflexivity|]. rewrite fold_left_app, IH. reflexivity.
Qed.

Lemma compute_flat default c w anc rules : compute default c w anc rules =
  fold_left applyd (flat_map (fun m => decls_of V (r_items V (mr_rule V m))) (sort_matched V (match_rules V c w anc 0 rules))) default.
Proof. unfold compute_style. apply fold_rules. Qed.

Lemma sorted_middle (a b : list (matched V)) m x : StronglySorted mlt (a ++ m :: b) -> In x b -> mlt m x.
Proof.
  induction a as [|y a IH]; cbn; intros S H.
  - inversion S as [|? ? S1 S2]; subst. rewrite Forall_forall in S2. auto.
  - inversion S; subst. auto.
Qed.

Theorem cascade_default default c w anc rules k :
  (forall i j sel d, declared c (w :: anc) rules i j sel d -> ~ In k (properties_of d)) ->
  compute default c w anc rules k = default k.
Proof.
  intro H. rewrite compute_flat. apply fold_leaves. intros d Hd.
  apply in_flat_map in Hd. destruct Hd as [m [Hm Hd]].
  apply (Permutation_in m (Permutation_sym (sort_perm _))) in Hm.
  apply match_rules_in in Hm. destruct Hm as [i [r [sel [H1 [H2 ->]]]]]. cbn in Hd.
  apply In_nth_error in Hd. destruct Hd as [j Hj].
  apply leaves_others. apply (H i j sel d). exists r, w, anc. auto.
Qed.

Theorem cascade_winner default c w anc rules k v i j sel d :
  declared c (w :: anc) rules i j sel d -> assigns applyd d k v ->
  (forall i' j' sel' d', declared c (w :: anc) rules i' j' sel' d' -> In k (properties_of d') ->
     (i', j') = (i, j) \/ lower_priority (complex_spec sel') i' j' (complex_spec sel) i j) ->
  compute default c w anc rules k = v.
Proof.
  intros Hd Ha Hmax. rewrite compute_flat.
  destruct Hd as [r [w' [anc' [E [Hr [Hs Hj]]]]]]. injection E as <- <-.
  set (ms := match_rules V c w anc 0 rules) in *.
  assert (Hm : In (Matched V (complex_spec sel) i r) (sort_matched V ms)).
  { eapply Permutation_in; [apply sort_perm|]. apply match_rules_in. exists i, r, sel. auto. }
  assert (Hsort : StronglySorted mlt (sort_matched V ms)) by (apply sort_sorted, match_rules_nodup).
  apply in_split in Hm. destruct Hm as [pre [post Hm]]. rewrite Hm in *.
  rewrite flat_map_app, fold_left_app. cbn [flat_map mr_rule]. rewrite fold_left_app.
  apply nth_error_split in Hj. destruct Hj as [d1 [d2 [Hj Lj]]].
  rewrite Hj at 1. rewrite fold_left_app. cbn [fold_left].
  rewrite fold_leaves.
  - rewrite fold_leaves; [apply Ha|]. intros d' Hd'.
    apply In_nth_error in Hd'. destruct Hd' as [q Hq].
    assert (D : declared c (w :: anc) rules i (S (j + q)) sel d').
    { exists r, w, anc. repeat split; auto. rewrite Hj. rewrite nth_error_app2 by lia.
      replace (S (j + q) - length d1) with (S q) by lia. exact Hq. }
    destruct (in_dec slot_eq_dec k (properties_of d')) as [L|L]; [|apply leaves_others; exact L]. exfalso.
    destruct (Hmax _ _ _ _ D L) as [X|[X|[_ [X|[_ X]]]]]; try lia.
    + injection X; lia.
    + exact (spec_lt_irrefl _ X).
  - intros d' Hd'. apply in_flat_map in Hd'. destruct Hd' as [m [Hin Hd']].
    assert (Hm' : mlt (Matched V (complex_spec sel) i r) m) by (eapply sorted_middle; eassumption).
    assert (Hms : In m ms).
    { eapply Permutation_in; [symmetry; apply sort_perm|]. rewrite Hm. apply in_or_app. right. right. exact Hin. }
    apply match_rules_in in Hms. destruct Hms as [i' [r' [sel' [H1 [H2 ->]]]]]. cbn in Hd'.
    apply In_nth_error in Hd'. destruct Hd' as [j' Hj'].
    assert (D : declared c (w :: anc) rules i' j' sel' d') by (exists r', w, anc; auto).
    destruct (in_dec slot_eq_dec k (properties_of d')) as [L|L]; [|apply leaves_others; exact L]. exfalso.
    apply matched_cmp_lt in Hm'. cbn in Hm'.
    destruct (Hmax _ _ _ _ D L) as [X|X].
    + injection X as -> ->. destruct Hm' as [Y|[_ Y]]; [|lia].
      rewrite Hr in H1. injection H1 as <-. rewrite Hs in H2. injection H2 as <-. exact (spec_lt_irrefl _ Y).
    + destruct X as [X|[X1 X2]]; destruct Hm' as [Y|[Y1 Y2]].
      * exact (spec_lt_irrefl _ (spec_lt_trans _ _ _ X Y)).
      * rewrite Y1 in X. exact (spec_lt_irrefl _ X).
      * rewrite X1 in Y. exact (spec_lt_irrefl _ Y).
      * lia.
Qed.

End Cascade.
