(** Proofs about nested rules, comments and blocks. *)
From Coq Require Import String ZArith List Bool Arith Lia.
From Verif Require Import Text_Model Css_Model Css_Spec Css_Proofs.
Import ListNotations.
Local Open Scope nat_scope.

(** *** Nesting *)

Lemma extends_app c : forall a from comb b ch,
  extends c from comb (a ++ b) ch <-> extends c (extends c from comb a) (last (map snd a) comb) b ch.
Proof.
  induction a as [|[k c0] a IH]; intros from comb b ch; cbn [app extends]; [tauto|].
  rewrite IH. cbn [map snd].
  replace (last (c0 :: map snd a) comb) with (last (map snd a) c0); [tauto|].
  destruct (map snd a) as [|x l]; [reflexivity|].
  assert (G : forall l (x d1 d2 : combinator), last (x :: l) d1 = last (x :: l) d2).
  { clear. induction l as [|y l IHl]; intros; [reflexivity|]. cbn. apply IHl. }
  change (last (c0 :: x :: l) comb) with (last (x :: l) comb). apply G.
Qed.

Lemma extends_ext c rest : forall from from' comb ch,
  (forall x, from x <-> from' x) -> extends c from comb rest ch <-> extends c from' comb rest ch.
Proof.
  induction rest as [|[k c0] rest IH]; intros from from' comb ch H; cbn [extends]; [apply H|].
  apply IH. intro x. split; intros [H1 [up [H2 H3]]]; (split; [exact H1|]; exists up; split; [apply H; exact H2|exact H3]).
Qed.

(** the meaning of a union of starting sets *)
Lemma extends_exists c {A} (P : A -> Prop) rest : forall (from : A -> chain -> Prop) comb ch,
  extends c (fun x => exists a, P a /\ from a x) comb rest ch <-> exists a, P a /\ extends c (from a) comb rest ch.
Proof.
  induction rest as [|[k c0] rest IH]; intros from comb ch; cbn [extends]; [tauto|].
  rewrite <- IH. apply extends_ext. intro x. split.
  - intros [H1 [up [[a [Ha H2]] H3]]]. exists a. split; [exact Ha|]. split; [exact H1|]. exists up. auto.
  - intros [a [Ha [H1 [up [H2 H3]]]]]. split; [exact H1|]. exists up. split; [exists a; auto|exact H3].
Qed.

Lemma nested_css_exists c {A} (P : A -> Prop) (M : A -> chain -> Prop) child ch :
  nested_css c (fun x => exists a, P a /\ M a x) child ch <-> exists a, P a /\ nested_css c (M a) child ch.
Proof.
  destruct child as [|[k comb] rest]; cbn [nested_css]; [firstorder|].
  destruct (existsb is_parent k).
  - rewrite <- (extends_exists c P). apply extends_ext. intro x. firstorder.
  - rewrite <- (extends_exists c P). apply extends_ext. intro x. split.
    + intros [H1 [up [[a [Ha H2]] H3]]]. exists a. split; [exact Ha|]. split; [exact H1|]. exists up. auto.
    + intros [a [Ha [H1 [up [H2 H3]]]]]. split; [exact H1|]. exists up. split; [exists a; auto|exact H3].
Qed.

Lemma map_last_snoc {A} (f : A -> A) l x : map_last f (l ++ [x]) = l ++ [f x].
Proof.
  induction l as [|y l IH]; [reflexivity|]. cbn [app map_last].
  destruct (l ++ [x]) as [|z r] eqn:E; [destruct l; discriminate|]. rewrite IH. reflexivity.
Qed.

Lemma closed_nonempty sel : closed sel -> sel <> [].
Proof. intros [pre [k ->]] H. destruct pre; discriminate. Qed.

Lemma head_holds_app c a b ch : head_holds c (a ++ b) ch <-> head_holds c a ch /\ head_holds c b ch.
Proof. destruct ch; cbn; [tauto|]. apply Forall_app. Qed.

Lemma css_app c p rest ch : p <> [] ->
  css c (p ++ rest) ch <-> extends c (css c p) (comb_of (rev p)) rest ch.
Proof.
  destruct p as [|[k0 c0] r]; [congruence|]. intros _.
  assert (E : comb_of (rev ((k0, c0) :: r)) = last (map snd r) c0).
  { cbn [rev]. destruct r as [|p r _] using rev_ind; [reflexivity|].
    rewrite rev_app_distr, map_app. cbn [map]. rewrite last_last. cbn. destruct p. reflexivity. }
  transitivity (extends c (css c ((k0, c0) :: r)) (last (map snd r) c0) rest ch).
  - cbn [app css]. rewrite extends_app. apply iff_refl.
  - rewrite <- E. apply iff_refl.
Qed.

Lemma css_last c pre k comb comb' ch : css c (pre ++ [(k, comb)]) ch <-> css c (pre ++ [(k, comb')]) ch.
Proof.
  destruct pre as [|p pre]; [cbn; tauto|]. rewrite !css_snoc by congruence. tauto.
Qed.

Lemma css_last_more c pre k k' comb ch :
  css c (pre ++ [(k ++ k', comb)]) ch <-> css c (pre ++ [(k, comb)]) ch /\ head_holds c k' ch.
Proof.
  destruct pre as [|p pre].
  - cbn. apply head_holds_app.
  - rewrite !css_snoc by congruence. rewrite head_holds_app. tauto.
Qed.

Lemma comb_of_snoc pre k comb : comb_of (rev (pre ++ [(k, comb)])) = comb.
Proof. rewrite rev_app_distr. reflexivity. Qed.

Lemma related_none a b : related CNone a b <-> related CDescendant a b.
Proof. cbn. tauto. Qed.

Lemma extends_comb_none c from rest ch : extends c from CNone rest ch <-> extends c from CDescendant rest ch.
Proof. destruct rest as [|[k c0] r]; cbn [extends]; [tauto|]. apply extends_ext. intro x. cbn. tauto. Qed.

Theorem combine_one_css c p child ch : closed p -> child <> [] ->
  css c (combine_one p child) ch <-> nested_css c (css c p) child ch.
Proof.
  intros [pre [pk ->]] Hc. destruct child as [|[k comb] rest]; [congruence|].
  cbn [combine_one nested_css].
  destruct (existsb is_parent k) eqn:E.
  - rewrite map_last_snoc. rewrite css_app by (destruct pre; discriminate). rewrite comb_of_snoc.
    replace (if is_cnone comb then CNone else comb) with comb by (destruct comb; reflexivity).
    apply extends_ext. intro x. rewrite css_last_more. rewrite (css_last c pre pk comb CNone). tauto.
  - rewrite map_last_snoc. cbn [is_cnone]. rewrite css_app by (destruct pre; discriminate).
    rewrite comb_of_snoc. cbn [extends]. apply extends_ext. intro x.
    split; intros [H1 [up [H2 H3]]]; (split; [exact H1|]; exists up; split; [eapply css_last; exact H2|exact H3]).
Qed.

Lemma combine_one_closed p child : closed p -> closed child -> closed (combine_one p child).
Proof.
  intros [pre [pk ->]] [cpre [ck ->]]. unfold combine_one.
  destruct cpre as [|[k comb] cpre]; cbn [app].
  - destruct (existsb is_parent ck); rewrite map_last_snoc; cbn.
    + rewrite app_nil_r. eexists pre, _. reflexivity.
    + exists (pre ++ [(pk, CDescendant)]), ck. reflexivity.
  - destruct (existsb is_parent k); rewrite map_last_snoc.
    + exists ((pre ++ [(pk ++ filter (fun s => negb (is_parent s)) k, if is_cnone comb then CNone else comb)]) ++ cpre), ck.
      rewrite <- !app_assoc. reflexivity.
    + exists ((pre ++ [(pk, CDescendant)]) ++ (k, comb) :: cpre), ck. rewrite <- !app_assoc. reflexivity.
Qed.

Section Rules.
Variable V : Type.

Notation well_formed := (@well_formed V).
Notation declares := (@declares V).

Lemma in_decls items d : In d (decls_of V items) <-> In (IDecl V d) items.
Proof.
  unfold decls_of. rewrite in_flat_map. split.
  - intros [[d'|n] [H1 H2]]; cbn in H2; [|destruct H2]. destruct H2 as [->|[]]. exact H1.
  - intro H. exists (IDecl V d). split; [exact H|left; reflexivity].
Qed.

Lemma decls_map ds : decls_of V (map (IDecl V) ds) = ds.
Proof. induction ds as [|d ds IH]; [reflexivity|]. cbn. f_equal. exact IH. Qed.

Fixpoint rule_rect' (P : rule V -> Prop)
  (H : forall sels items, (forall n, In (INested V n) items -> P n) -> P (Rule V sels items)) (r : rule V) : P r :=
  match r with
  | Rule _ sels items =>
      H sels items
        ((fix go (l : list (item V)) : forall n, In (INested V n) l -> P n :=
            match l with
            | [] => fun n F => match F with end
            | i :: rest => fun n F =>
                match F with
                | or_introl e =>
                    match i as i0 return i0 = INested V n -> P n with
                    | IDecl _ d => fun e => ltac:(discriminate e)
                    | INested _ m => fun e => eq_ind m P (rule_rect' P H m) n (f_equal (fun x => match x with INested _ y => y | _ => m end) e)
                    end e
                | or_intror f => go rest n f
                end
            end) items)
  end.

Lemma flatten_nested sels own items fr :
  In fr (flatten_rule V sels (Rule V own items)) <->
  (decls_of V items <> [] /\ fr = Rule V sels (map (IDecl V) (decls_of V items))) \/
  exists n, In (INested V n) items /\ In fr (flatten_rule V (combine_selectors sels (r_sels V n)) n).
Proof.
  cbn [flatten_rule].
  assert (G : forall l, In fr ((fix go (l : list (item V)) : list (rule V) :=
           match l with
           | [] => []
           | IDecl _ _ :: rest => go rest
           | INested _ n :: rest => flatten_rule V (combine_selectors sels (r_sels V n)) n ++ go rest
           end) l) <-> exists n, In (INested V n) l /\ In fr (flatten_rule V (combine_selectors sels (r_sels V n)) n)).
  { induction l as [|[d|m] l IH].
    - split; [intros []|intros [n [[] _]]].
    - rewrite IH. split; intros [n [H1 H2]]; exists n; (split; [|exact H2]).
      + right. exact H1.
      + destruct H1 as [H1|H1]; [discriminate|exact H1].
    - rewrite in_app_iff, IH. split.
      + intros [H|[n [H1 H2]]]; [exists m; split; [left; reflexivity|exact H]|exists n; split; [right; exact H1|exact H2]].
      + intros [n [[H1|H1] H2]]; [left; congruence|right; exists n; auto]. }
  destruct (decls_of V items) as [|d ds] eqn:E.
  - rewrite G. split; [tauto|]. intros [[X _]|H]; [congruence|exact H].
  - cbn [In]. rewrite G. split.
    + intros [H|H]; [left; split; [discriminate|congruence]|right; exact H].
    + intros [[_ H]|H]; [left; congruence|right; exact H].
Qed.

Lemma declares_ext c M r d ch : declares c M r d ch -> forall M', (forall x, M x <-> M' x) -> declares c M' r d ch.
Proof.
  induction 1 as [M sels items d ch H1 H2|M sels items n d ch H1 H2 IH]; intros M' E.
  - apply declares_own; [exact H1|]. apply E. exact H2.
  - eapply declares_nested; [exact H1|]. apply IH. intro x.
    assert (X : forall child, nested_css c M child x <-> nested_css c M' child x).
    { intros [|[k comb] rest]; cbn [nested_css]; [tauto|].
      destruct (existsb is_parent k); apply extends_ext; intro y.
      - rewrite E. tauto.
      - split; intros [Y1 [up [Y2 Y3]]]; (split; [exact Y1|]; exists up; split; [apply E; exact Y2|exact Y3]). }
    split; intros [child [C1 C2]]; exists child; (split; [exact C1|]; apply X; exact C2).
Qed.

Lemma combine_selectors_in parents children s :
  In s (combine_selectors parents children) <-> exists p k, In p parents /\ In k children /\ s = combine_one p k.
Proof.
  unfold combine_selectors. rewrite in_flat_map. split.
  - intros [p [Hp H]]. apply in_map_iff in H. destruct H as [k [<- Hk]]. exists p, k. auto.
  - intros [p [k [Hp [Hk ->]]]]. exists p. split; [exact Hp|]. apply in_map. exact Hk.
Qed.

Theorem flatten_rule_correct c (r : rule V) : well_formed r -> forall sels d ch, Forall closed sels ->
  (exists fr, In fr (flatten_rule V sels r) /\ In d (decls_of V (r_items V fr)) /\
     exists s, In s (r_sels V fr) /\ css c s ch) <->
  declares c (fun x => exists s, In s sels /\ css c s x) r d ch.
Proof.
  induction r as [own items IH] using rule_rect'. intros W sels d ch Hs.
  inversion W as [? ? W1 W2]; subst.
  assert (Hn : forall n, In (INested V n) items ->
     (exists fr, In fr (flatten_rule V (combine_selectors sels (r_sels V n)) n) /\ In d (decls_of V (r_items V fr)) /\
        exists s, In s (r_sels V fr) /\ css c s ch) <->
     declares c (fun x => exists child, In child (r_sels V n) /\ nested_css c (fun y => exists s, In s sels /\ css c s y) child x) n d ch).
  { intros n Hin. assert (Wn := W2 n Hin).
    assert (Cn : Forall closed (r_sels V n)) by (inversion Wn; assumption).
    rewrite Forall_forall in Hs, Cn.
    rewrite (IH n Hin Wn).
    - assert (E : forall x, (exists s, In s (combine_selectors sels (r_sels V n)) /\ css c s x) <->
         (exists child, In child (r_sels V n) /\ nested_css c (fun y => exists s, In s sels /\ css c s y) child x)).
      { intro x. split.
        - intros [s [H1 H2]]. apply combine_selectors_in in H1. destruct H1 as [p [k [Hp [Hk ->]]]].
          exists k. split; [exact Hk|]. apply nested_css_exists. exists p. split; [exact Hp|].
          apply combine_one_css; [auto|apply closed_nonempty; auto|exact H2].
        - intros [k [Hk H]]. apply nested_css_exists in H. destruct H as [p [Hp H]].
          exists (combine_one p k). split; [apply combine_selectors_in; exists p, k; auto|].
          apply combine_one_css; [auto|apply closed_nonempty; auto|exact H]. }
      split; intro H; eapply declares_ext; try exact H; intro x; [apply E|symmetry; apply E].
    - apply Forall_forall. intros s H. apply combine_selectors_in in H. destruct H as [p [k [Hp [Hk ->]]]].
      apply combine_one_closed; auto. }
  split.
  - intros [fr [H1 [H2 H3]]]. apply flatten_nested in H1. destruct H1 as [[H1 ->]|[n [Hin H1]]].
    + cbn [r_items r_sels] in H2, H3. rewrite decls_map in H2. apply declares_own; [apply in_decls; exact H2|exact H3].
    + apply declares_nested with (n := n); [exact Hin|]. apply Hn; [exact Hin|]. exists fr. auto.
  - intro H. inversion H as [? ? ? ? ? H1 H2|? ? ? n ? ? H1 H2]; subst.
    + exists (Rule V sels (map (IDecl V) (decls_of V items))). split; [|split].
      * apply flatten_nested. left. split; [|reflexivity]. intro X. apply in_decls in H1. rewrite X in H1. exact H1.
      * cbn [r_items]. rewrite decls_map. apply in_decls. exact H1.
      * exact H2.
    + apply Hn in H2; [|exact H1]. destruct H2 as [fr [F1 F2]]. exists fr. split; [|exact F2].
      apply flatten_nested. right. exists n. auto.
Qed.

Theorem flatten_stylesheet_correct c rules d ch : Forall well_formed rules ->
  (exists fr, In fr (flatten_stylesheet V rules) /\ In d (decls_of V (r_items V fr)) /\
     exists s, In s (r_sels V fr) /\ css c s ch) <->
  exists r, In r rules /\ declares c (fun x => exists s, In s (r_sels V r) /\ css c s x) r d ch.
Proof.
  intro W. rewrite Forall_forall in W. unfold flatten_stylesheet. split.
  - intros [fr [H1 H2]]. apply in_flat_map in H1. destruct H1 as [r [Hr H1]]. exists r. split; [exact Hr|].
    apply flatten_rule_correct; [auto|specialize (W r Hr); inversion W; assumption|]. exists fr. auto.
  - intros [r [Hr H]]. apply flatten_rule_correct in H; [|auto|specialize (W r Hr); inversion W; assumption].
    destruct H as [fr [H1 H2]]. exists fr. split; [|exact H2]. apply in_flat_map. exists r. auto.
Qed.

End Rules.

(** *** Comments *)

Lemma contains_cons_inv c t p : contains (c :: t) p -> contains t p \/ exists b, c :: t = p ++ b.
Proof.
  intros [a [b H]]. destruct a as [|x a]; cbn in H.
  - right. exists b. exact H.
  - left. injection H as -> H. exists a, b. exact H.
Qed.
Lemma contains_tail c t p : contains t p -> contains (c :: t) p.
Proof. intros [a [b ->]]. exists (c :: a), b. reflexivity. Qed.

Lemma contains_app_l t u p : contains t p -> contains (t ++ u) p.
Proof. intros [a [b ->]]. exists a, (b ++ u). rewrite <- !app_assoc. reflexivity. Qed.

Lemma scan_block_close body : forall r, ~ contains (body ++ [c_star]) [c_star; c_slash] ->
  strip_scan InBlock (body ++ c_star :: c_slash :: r) = c_space :: strip_scan InCode r.
Proof.
  induction body as [|x body IH]; intros r N.
  - cbn. reflexivity.
  - cbn [app]. cbn [strip_scan].
    destruct (body ++ c_star :: c_slash :: r) as [|d r'] eqn:E; [destruct body; discriminate|].
    destruct ((x =? c_star)%Z && (d =? c_slash)%Z) eqn:B.
    + exfalso. apply andb_true_iff in B. destruct B as [B1 B2]. apply Z.eqb_eq in B1, B2. subst.
      apply N. destruct body as [|y body]; cbn in E; [injection E as E _; discriminate E|].
      injection E as -> E. exists [], (body ++ [c_star]). reflexivity.
    + rewrite <- E. apply IH. intro X. apply N. cbn. apply contains_tail. exact X.
Qed.

Lemma scan_block_open body : ~ contains body [c_star; c_slash] -> strip_scan InBlock body = [].
Proof.
  induction body as [|x body IH]; intro N; [reflexivity|]. cbn [strip_scan].
  destruct body as [|d r] eqn:E; [reflexivity|].
  destruct ((x =? c_star)%Z && (d =? c_slash)%Z) eqn:B.
  - exfalso. apply andb_true_iff in B. destruct B as [B1 B2]. apply Z.eqb_eq in B1, B2. subst.
    apply N. exists [], r. reflexivity.
  - apply IH. intro X. apply N. apply contains_tail. exact X.
Qed.

Lemma scan_line_close body : forall r, ~ In c_newline body ->
  strip_scan InLine (body ++ c_newline :: r) = c_newline :: strip_scan InCode r.
Proof.
  induction body as [|x body IH]; intros r N; [reflexivity|]. cbn [app strip_scan].
  destruct (x =? c_newline)%Z eqn:E.
  - exfalso. apply Z.eqb_eq in E. subst. apply N. left. reflexivity.
  - apply IH. intro X. apply N. right. exact X.
Qed.

Lemma scan_line_open body : ~ In c_newline body -> strip_scan InLine body = [].
Proof.
  induction body as [|x body IH]; intro N; [reflexivity|]. cbn [strip_scan].
  destruct (x =? c_newline)%Z eqn:E.
  - exfalso. apply Z.eqb_eq in E. subst. apply N. left. reflexivity.
  - apply IH. intro X. apply N. right. exact X.
Qed.

Theorem strips_unique t o : strips t o -> strip_comments t = o.
Proof.
  unfold strip_comments. induction 1 as [| |c r o Hc H IH|d r o H1 H2 H IH|body r o N H IH|body N|body r o N H IH|body N].
  - reflexivity.
  - reflexivity.
  - cbn [strip_scan]. destruct (c =? c_slash)%Z eqn:E; [apply Z.eqb_eq in E; congruence|]. rewrite IH. reflexivity.
  - cbn [strip_scan]. rewrite Z.eqb_refl.
    destruct (d =? c_star)%Z eqn:E; [apply Z.eqb_eq in E; congruence|].
    destruct (d =? c_slash)%Z eqn:E2; [apply Z.eqb_eq in E2; congruence|].
    cbn [strip_scan] in IH. rewrite E2 in IH. rewrite IH. reflexivity.
  - cbn [strip_scan]. rewrite !Z.eqb_refl. rewrite scan_block_close by exact N. rewrite IH. reflexivity.
  - cbn [strip_scan]. rewrite !Z.eqb_refl. apply scan_block_open. exact N.
  - cbn [strip_scan]. rewrite !Z.eqb_refl. change (c_slash =? c_star)%Z with false. cbn [andb].
    rewrite scan_line_close by exact N. rewrite IH. reflexivity.
  - cbn [strip_scan]. rewrite !Z.eqb_refl. change (c_slash =? c_star)%Z with false. cbn.
    apply scan_line_open. exact N.
Qed.

(* every text is split *)
Lemma block_split t : (exists body r, t = body ++ c_star :: c_slash :: r /\ ~ contains (body ++ [c_star]) [c_star; c_slash])
  \/ ~ contains t [c_star; c_slash].
Proof.
  induction t as [|x t IH].
  - right. intros [a [b H]]. destruct a; discriminate.
  - destruct t as [|y t'].
    + right. intros [a [b H]]. destruct a as [|? [|]]; discriminate.
    + destruct (Z.eq_dec x c_star) as [->|Hx]; [destruct (Z.eq_dec y c_slash) as [->|Hy]|].
      * left. exists [], t'. split; [reflexivity|]. intros [a [b H]]. destruct a as [|? [|]]; discriminate.
      * destruct IH as [[body [r [E N]]]|N].
        -- left. exists (c_star :: body), r. split; [cbn; rewrite E; reflexivity|].
           cbn. intro X. apply contains_cons_inv in X. destruct X as [X|[b X]]; [exact (N X)|].
           injection X as X. destruct body as [|z body]; cbn in X, E; [discriminate X|].
           injection X as -> _. injection E as -> _. congruence.
        -- right. intro X. apply contains_cons_inv in X. destruct X as [X|[b X]]; [exact (N X)|].
           injection X as X _. congruence.
      * destruct IH as [[body [r [E N]]]|N].
        -- left. exists (x :: body), r. split; [cbn; rewrite E; reflexivity|].
           cbn. intro X. apply contains_cons_inv in X. destruct X as [X|[b X]]; [exact (N X)|].
           injection X as X _. congruence.
        -- right. intro X. apply contains_cons_inv in X. destruct X as [X|[b X]]; [exact (N X)|].
           injection X as X _. congruence.
Qed.

Lemma line_split (t : text) : (exists body r, t = body ++ c_newline :: r /\ ~ In c_newline body) \/ ~ In c_newline t.
Proof.
  destruct (in_dec Z.eq_dec c_newline t) as [H|H]; [left|right; exact H].
  induction t as [|x t IH]; [destruct H|]. destruct (Z.eq_dec x c_newline) as [->|N].
  - exists [], t. split; [reflexivity|intros []].
  - destruct H as [H|H]; [congruence|]. destruct (IH H) as [body [r [E Nb]]].
    exists (x :: body), r. split; [rewrite E; reflexivity|]. intros [X|X]; [congruence|exact (Nb X)].
Qed.

Theorem strips_total t : exists o, strips t o.
Proof.
  induction t as [t IH] using (well_founded_induction (Wf_nat.well_founded_ltof text (@length char))).
  unfold Wf_nat.ltof in IH. destruct t as [|x t]; [exists []; constructor|].
  destruct (Z.eq_dec x c_slash) as [->|Hx].
  - destruct t as [|d r]; [exists [c_slash]; constructor|].
    destruct (Z.eq_dec d c_star) as [->|H1]; [|destruct (Z.eq_dec d c_slash) as [->|H2]].
    + destruct (block_split r) as [[body [r' [-> N]]]|N].
      * destruct (IH r') as [o Ho]; [cbn; rewrite app_length; cbn; lia|].
        exists (c_space :: o). apply strips_block; assumption.
      * exists []. apply strips_open_block. exact N.
    + destruct (line_split r) as [[body [r' [-> N]]]|N].
      * destruct (IH r') as [o Ho]; [cbn; rewrite app_length; cbn; lia|].
        exists (c_newline :: o). apply strips_line; assumption.
      * exists []. apply strips_open_line. exact N.
    + destruct (IH (d :: r)) as [o Ho]; [cbn; lia|]. exists (c_slash :: o). apply strips_slash; assumption.
  - destruct (IH t) as [o Ho]; [cbn; lia|]. exists (x :: o). apply strips_char; assumption.
Qed.

Theorem strip_comments_strips t o : strips t o <-> strip_comments t = o.
Proof.
  split; [apply strips_unique|]. intros <-. destruct (strips_total t) as [o Ho].
  rewrite (strips_unique _ _ Ho). exact Ho.
Qed.

(* no comment opener is left over *)
Lemma strips_head t o : strips t o -> forall x o', o = x :: o' ->
  x = c_space \/ x = c_newline \/ exists t', t = x :: t'.
Proof.
  destruct 1; intros x o' E; try discriminate; injection E as <- _; eauto.
Qed.

Lemma strips_comment_free t o : strips t o -> comment_free o.
Proof.
  assert (D : forall d o, comment_free o -> d <> c_slash -> comment_free (d :: o)).
  { intros d o0 [N1 N2] Hd. split; intro X; apply contains_cons_inv in X; destruct X as [X|[b X]]; auto;
      injection X as X _; congruence. }
  assert (E : comment_free []).
  { split; intros [a [b X]]; destruct a; discriminate. }
  induction 1 as [| |c r o Hc H IH|d r o H1 H2 H IH|body r o N H IH|body N|body r o N H IH|body N].
  - exact E.
  - split; intros [a [b X]]; destruct a as [|? [|]]; discriminate.
  - apply D; assumption.
  - destruct IH as [N1 N2]. split; intro X; apply contains_cons_inv in X; destruct X as [X|[b X]]; auto.
    + destruct o as [|y o']; [discriminate X|]. injection X as -> X.
      destruct (strips_head _ _ H _ _ eq_refl) as [Y|[Y|[t' Y]]]; try discriminate Y. injection Y as Y _. congruence.
    + destruct o as [|y o']; [discriminate X|]. injection X as -> X.
      destruct (strips_head _ _ H _ _ eq_refl) as [Y|[Y|[t' Y]]]; try discriminate Y. injection Y as Y _. congruence.
  - apply D; [assumption|discriminate].
  - exact E.
  - apply D; [assumption|discriminate].
  - exact E.
Qed.

Lemma comment_free_strips t : comment_free t -> strips t t.
Proof.
  induction t as [|x t IH]; intros [N1 N2]; [constructor|].
  assert (F : comment_free t) by (split; intro X; [apply N1|apply N2]; apply contains_tail; exact X).
  destruct (Z.eq_dec x c_slash) as [->|Hx].
  - destruct t as [|d r]; [constructor|]. apply strips_slash; auto.
    + intros ->. apply N1. exists [], r. reflexivity.
    + intros ->. apply N2. exists [], r. reflexivity.
  - apply strips_char; auto.
Qed.

(** *** Blocks *)

Lemma braces_app c a b : braces c (a ++ b) = braces c a + braces c b.
Proof. unfold braces, count_if. rewrite filter_app, app_length. reflexivity. Qed.
Lemma braces_cons c x t : braces c (x :: t) = (if (c =? x)%Z then 1 else 0) + braces c t.
Proof. unfold braces, count_if. cbn. destruct (c =? x)%Z; reflexivity. Qed.

Definition closed_from (depth : Z) (p : text) : Prop :=
  (exists q, p = q ++ [c_rbrace]) /\ (depth + Z.of_nat (braces c_lbrace p) = Z.of_nat (braces c_rbrace p))%Z.

Lemma closed_from_cons d x p : p <> [] ->
  closed_from d (x :: p) <-> closed_from (d + (if (c_lbrace =? x)%Z then 1 else 0) - (if (c_rbrace =? x)%Z then 1 else 0)) p.
Proof.
  intro Hp. unfold closed_from. rewrite !braces_cons. split; intros [[q Hq] H]; split.
  - destruct q as [|y q]; cbn in Hq; [injection Hq as _ Hq; congruence|]. injection Hq as _ ->. exists q. reflexivity.
  - destruct (c_lbrace =? x)%Z, (c_rbrace =? x)%Z; lia.
  - exists (x :: q). rewrite Hq. reflexivity.
  - destruct (c_lbrace =? x)%Z, (c_rbrace =? x)%Z; lia.
Qed.

Lemma closed_from_one d x : closed_from d [x] <-> x = c_rbrace /\ d = 1%Z.
Proof.
  unfold closed_from. rewrite !braces_cons. cbn [braces count_if filter length]. split.
  - intros [[q Hq] H]. destruct q as [|y [|]]; try discriminate. injection Hq as ->. cbn in H. split; [reflexivity|].
    unfold braces, count_if in H. cbn in H. lia.
  - intros [-> ->]. split; [exists []; reflexivity|]. reflexivity.
Qed.

Lemma closed_from_nil d : ~ closed_from d [].
Proof. intros [[q Hq] _]. destruct q; discriminate. Qed.

Lemma take_balanced_spec t : forall d a b, take_balanced d t = (a, b) ->
  t = a ++ b /\
  ((closed_from d a /\ forall q r, a = q ++ r -> r <> [] -> ~ closed_from d q) \/
   (b = [] /\ forall q r, t = q ++ r -> ~ closed_from d q)).
Proof.
  induction t as [|x t IH]; intros d a b H; cbn [take_balanced] in H.
  - injection H as <- <-. split; [reflexivity|]. right. split; [reflexivity|]. intros q r E.
    destruct q; [|discriminate]. apply closed_from_nil.
  - set (d' := (d + (if (c_lbrace =? x)%Z then 1 else 0) - (if (c_rbrace =? x)%Z then 1 else 0))%Z).
    assert (Rec : forall a' b', take_balanced d' t = (a', b') -> a = x :: a' -> b = b' ->
        (x = c_rbrace -> d <> 1%Z) ->
        x :: t = a ++ b /\
        ((closed_from d a /\ forall q r, a = q ++ r -> r <> [] -> ~ closed_from d q) \/
         (b = [] /\ forall q r, x :: t = q ++ r -> ~ closed_from d q))).
    { intros a' b' E -> -> Hx. destruct (IH d' a' b' E) as [E1 E2]. split; [rewrite E1; reflexivity|].
      destruct E2 as [[E2 E3]|[E2 E3]].
      - left. assert (N : a' <> []) by (intro X; rewrite X in E2; exact (closed_from_nil _ E2)).
        split; [apply closed_from_cons; assumption|]. intros q r Eq Nr C.
        destruct q as [|y q]; [exact (closed_from_nil _ C)|]. injection Eq as <- Eq.
        destruct q as [|z q].
        + apply closed_from_one in C. destruct C as [C1 C2]. exact (Hx C1 C2).
        + apply closed_from_cons in C; [|discriminate]. exact (E3 _ _ Eq Nr C).
      - right. split; [exact E2|]. intros q r Eq C.
        destruct q as [|y q]; [exact (closed_from_nil _ C)|]. injection Eq as <- Eq.
        destruct q as [|z q].
        + apply closed_from_one in C. destruct C as [C1 C2]. exact (Hx C1 C2).
        + apply closed_from_cons in C; [|discriminate]. exact (E3 _ _ Eq C). }
    destruct (x =? c_lbrace)%Z eqn:E1.
    + apply Z.eqb_eq in E1. destruct (take_balanced (d + 1) t) as [a' b'] eqn:E. injection H as <- <-.
      apply (Rec a' b'); auto.
      * unfold d'. rewrite E1. cbn. rewrite Z.sub_0_r. exact E.
      * intros ->. discriminate.
    + destruct (x =? c_rbrace)%Z eqn:E2.
      * apply Z.eqb_eq in E2. destruct (d - 1 =? 0)%Z eqn:E3.
        -- injection H as <- <-. apply Z.eqb_eq in E3. split; [reflexivity|]. left. split.
           ++ apply closed_from_one. split; [exact E2|lia].
           ++ intros q r Eq Nr C. destruct q as [|y q]; [exact (closed_from_nil _ C)|].
              injection Eq as _ Eq. destruct q; [|discriminate]. cbn in Eq. congruence.
        -- apply Z.eqb_neq in E3. destruct (take_balanced (d - 1) t) as [a' b'] eqn:E. injection H as <- <-.
           apply (Rec a' b'); auto; [|lia]. unfold d'. rewrite E2. cbn. rewrite Z.add_0_r. exact E.
      * destruct (take_balanced d t) as [a' b'] eqn:E. injection H as <- <-.
        apply Z.eqb_neq in E1, E2.
        apply (Rec a' b'); auto; try congruence. unfold d'.
        destruct (c_lbrace =? x)%Z eqn:F1; [apply Z.eqb_eq in F1; congruence|].
        destruct (c_rbrace =? x)%Z eqn:F2; [apply Z.eqb_eq in F2; congruence|].
        rewrite Z.add_0_r, Z.sub_0_r. exact E.
Qed.

Lemma closed_block_from p : closed_block p <-> closed_from 0 p.
Proof. unfold closed_block, closed_from. split; intros [H1 H2]; split; auto; lia. Qed.

Theorem take_until_spec t a b : take_until_balanced_braces t = (a, b) ->
  t = a ++ b /\
  ((closed_block a /\ forall q r, a = q ++ r -> r <> [] -> ~ closed_block q) \/
   (b = [] /\ forall q r, t = q ++ r -> ~ closed_block q)).
Proof.
  intro H. apply take_balanced_spec in H. destruct H as [H1 [[H2 H3]|[H2 H3]]]; split; auto; [left|right].
  - split; [apply closed_block_from; exact H2|]. intros q r E N C. apply closed_block_from in C. exact (H3 q r E N C).
  - split; [exact H2|]. intros q r E C. apply closed_block_from in C. exact (H3 q r E C).
Qed.

Lemma take_nested inner : nested inner -> forall d rest, (0 < d)%Z ->
  take_balanced d (inner ++ rest) = let '(a, b) := take_balanced d rest in (inner ++ a, b).
Proof.
  induction 1 as [|c t H1 H2 H IH|x y Hx IHx Hy IHy]; intros d rest Hd.
  - cbn. destruct (take_balanced d rest). reflexivity.
  - cbn [app take_balanced].
    destruct (c =? c_lbrace)%Z eqn:E1; [apply Z.eqb_eq in E1; congruence|].
    destruct (c =? c_rbrace)%Z eqn:E2; [apply Z.eqb_eq in E2; congruence|].
    rewrite IH by exact Hd. destruct (take_balanced d rest). reflexivity.
  - cbn [app take_balanced]. rewrite Z.eqb_refl. rewrite <- app_assoc. cbn [app].
    rewrite IHx by lia. cbn [take_balanced]. change (c_rbrace =? c_lbrace)%Z with false. rewrite Z.eqb_refl.
    cbn iota. replace (d + 1 - 1)%Z with d by lia.
    destruct (d =? 0)%Z eqn:E; [apply Z.eqb_eq in E; lia|].
    rewrite IHy by exact Hd. destruct (take_balanced d rest) as [a b].
    rewrite <- app_assoc. reflexivity.
Qed.

Lemma take_no_brace h : no_brace h -> forall d rest, take_balanced d (h ++ rest) = let '(a, b) := take_balanced d rest in (h ++ a, b).
Proof.
  induction h as [|c h IH]; intros [N1 N2] d rest.
  - cbn. destruct (take_balanced d rest). reflexivity.
  - cbn [app take_balanced].
    destruct (c =? c_lbrace)%Z eqn:E1; [apply Z.eqb_eq in E1; exfalso; apply N1; left; congruence|].
    destruct (c =? c_rbrace)%Z eqn:E2; [apply Z.eqb_eq in E2; exfalso; apply N2; left; congruence|].
    rewrite IH by (split; intro X; [apply N1|apply N2]; right; exact X).
    destruct (take_balanced d rest). reflexivity.
Qed.

Theorem take_block header inner rest : no_brace header -> nested inner ->
  take_until_balanced_braces (header ++ c_lbrace :: inner ++ c_rbrace :: rest) =
    (header ++ c_lbrace :: inner ++ [c_rbrace], rest).
Proof.
  intros Hh Hi. unfold take_until_balanced_braces. rewrite take_no_brace by exact Hh.
  cbn [take_balanced]. rewrite Z.eqb_refl. rewrite take_nested by (exact Hi || lia).
  cbn [take_balanced]. change (c_rbrace =? c_lbrace)%Z with false. rewrite Z.eqb_refl. cbn. reflexivity.
Qed.
