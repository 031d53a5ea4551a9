From Coq Require Import String ZArith List Bool Lia.
From Verif Require Import Text_Model Variables_Model Variables_Spec Keys_Proofs.
Import ListNotations.
Notation length := List.length.
Open Scope Z_scope.
Open Scope list_scope.

Lemma starts_ex : forall p t, starts_with t p = true <-> exists r, t = p ++ r.
Proof.
  induction p as [|x q IH]; intros t; cbn.
  - split; [intros _; exists t; reflexivity|destruct t; reflexivity].
  - destruct t as [|y r]; cbn.
    + split; [discriminate|intros [r E]; discriminate].
    + rewrite Bool.andb_true_iff, Z.eqb_eq, IH. split.
      * intros [-> [s ->]]. exists s. reflexivity.
      * intros [s E]. injection E as -> ->. split; [reflexivity|exists s; reflexivity].
Qed.
Lemma contains_ex : forall p t, contains_str t p = true <-> exists a b, t = a ++ p ++ b.
Proof.
  intros p t. induction t as [|c r IH].
  - cbn [contains_str]. rewrite Bool.orb_false_r, starts_ex. split.
    + intros [b E]. exists [], b. exact E.
    + intros [a [b E]]. destruct a; [exists b; exact E|discriminate].
  - cbn [contains_str]. rewrite Bool.orb_true_iff, starts_ex, IH. split.
    + intros [[b E]|[a [b E]]]; [exists [], b; exact E|exists (c :: a), b; cbn; rewrite E; reflexivity].
    + intros [[|x a] [b E]]; [left; exists b; exact E|right]. injection E as -> ->. exists a, b. reflexivity.
Qed.

Lemma drop_none : forall t, (forall a b, t <> a ++ [47; 42] ++ b) -> drop_blocks false t = t.
Proof.
  induction t as [|c r IH]; intro H; [reflexivity|]. cbn.
  destruct r as [|d r']; [reflexivity|].
  destruct ((c =? 47) && (d =? 42)) eqn:E.
  - apply Bool.andb_true_iff in E. destruct E as [E1 E2]. apply Z.eqb_eq in E1, E2. subst. exfalso. apply (H [] r'). reflexivity.
  - f_equal. apply IH. intros a b F. apply (H (c :: a) b). cbn. rewrite F. reflexivity.
Qed.

Definition flat (ts : list text) : text := flat_map (fun x => x ++ [10]) ts.
Lemma split_flat : forall ts, Forall (fun x => ~ In 10 x /\ ~ In 13 x) ts -> split_char 10 (flat ts) = ts ++ [[]].
Proof.
  induction 1 as [|x ts [H _] F IH]; [reflexivity|]. cbn [flat flat_map]. fold (flat ts).
  induction x as [|c x IX].
  - cbn. rewrite IH. reflexivity.
  - cbn [app split_char]. destruct (c =? 10) eqn:E; [apply Z.eqb_eq in E; subst; exfalso; apply H; left; reflexivity|].
    rewrite IX by (intro I; apply H; right; exact I). reflexivity.
Qed.
Lemma chop_no : forall x, ~ In 13 x -> chop_cr x = x.
Proof.
  intros x H. unfold chop_cr, ends_with. destruct (starts_with _ _) eqn:E; [|reflexivity].
  apply starts_ex in E. destruct E as [r E]. exfalso. apply H. apply in_rev. change (rev x = 13 :: r) in E. rewrite E. left. reflexivity.
Qed.
Lemma cut_flat : forall ts, Forall (fun x => ~ In 10 x /\ ~ In 13 x) ts -> cut_lines (ts ++ [[]]) = ts.
Proof.
  induction 1 as [|x ts [_ H] F IH]; [reflexivity|]. cbn [app].
  change (cut_lines (x :: (ts ++ [[]]))) with (match ts ++ [[]] with [] => if is_nil x then [] else [x] | _ => chop_cr x :: cut_lines (ts ++ [[]]) end).
  rewrite IH, chop_no by exact H. destruct ts; reflexivity.
Qed.
Lemma cut_glue : forall ts, Forall (fun x => ~ In 10 x /\ ~ In 13 x) ts -> last ts [0] <> [] -> cut_lines ts = ts.
Proof.
  induction 1 as [|x ts [_ H] F IH]; [reflexivity|]. intro L. destruct ts as [|y ts].
  - cbn in *. destruct x; [contradiction|reflexivity].
  - change (cut_lines (x :: y :: ts)) with (chop_cr x :: cut_lines (y :: ts)). rewrite chop_no by exact H. f_equal. apply IH. exact L.
Qed.
Lemma split_snoc : forall t ts, split_char 10 (t ++ [10]) = ts ++ [[]] -> split_char 10 t = ts.
Proof.
  induction t as [|c t IH]; intros ts H.
  - cbn in H. destruct ts as [|x [|y ts]]; cbn in H; try discriminate; [injection H as <-; reflexivity|]. injection H as _ _ E. destruct ts; discriminate.
  - cbn [app split_char] in *. destruct (c =? 10).
    + destruct ts as [|x ts]; cbn in H; [|injection H as <- H; f_equal; apply IH; exact H].
      destruct (split_char 10 (t ++ [10])) eqn:E; [|discriminate].
      destruct t; cbn in E; [discriminate|]. destruct (z =? 10); [discriminate|]. destruct (split_char 10 (t ++ [10])); discriminate.
    + destruct (split_char 10 (t ++ [10])) as [|p ps] eqn:E.
      * destruct t; cbn in E; [discriminate|]. destruct (z =? 10); [discriminate|]. destruct (split_char 10 (t ++ [10])); discriminate.
      * destruct ts as [|x ts]; cbn in H; [discriminate|]. injection H as <- H. rewrite (IH (p :: ts)) by (cbn; rewrite H; reflexivity). reflexivity.
Qed.
Lemma lines_of : forall ts t, Forall (fun x => ~ In 10 x /\ ~ In 13 x) ts ->
  (t = flat ts \/ (t ++ [10] = flat ts /\ last ts [0] <> [])) -> lines t = ts.
Proof.
  intros ts t F [E|[E L]]; unfold lines.
  - rewrite E, split_flat, cut_flat by exact F. reflexivity.
  - rewrite (split_snoc t ts); [apply cut_glue; assumption|]. pose proof (split_flat ts F) as G. rewrite <- E in G. exact G.
Qed.

Lemma flat_factor : forall ts x, In x ts -> exists a b, flat ts = a ++ x ++ 10 :: b.
Proof.
  induction ts as [|y ts IH]; intros x H; [contradiction|]. destruct H as [-> |H].
  - exists [], (flat ts). cbn. rewrite <- app_assoc. reflexivity.
  - destruct (IH x H) as [a [b E]]. exists ((y ++ [10]) ++ a), b. cbn [flat flat_map]. fold (flat ts). rewrite E, <- !app_assoc. reflexivity.
Qed.
(* a factor of a line is a factor of the source *)
Lemma line_factor : forall ts t x p, (t = flat ts \/ (t ++ [10] = flat ts /\ last ts [0] <> [])) -> In x ts ->
  (exists a b, x = a ++ p ++ b) -> exists a b, t = a ++ p ++ b.
Proof.
  intros ts t x p H I [a [b ->]]. destruct (flat_factor ts _ I) as [u [w E]].
  destruct H as [-> |[F _]].
  - exists (u ++ a), (b ++ 10 :: w). rewrite E, <- !app_assoc. reflexivity.
  - rewrite E in F. destruct (@exists_last _ (10 :: w)) as [w' [z Ez]]; [discriminate|].
    rewrite Ez in F. rewrite !app_assoc in F. apply app_inj_tail in F. destruct F as [-> _].
    exists (u ++ a), (b ++ w'). rewrite <- !app_assoc. reflexivity.
Qed.

Lemma trim_factor : forall x, exists a b, x = a ++ trim x ++ b /\ blank a /\ blank b.
Proof.
  intro x. destruct (trim_start_split x) as [a [Ha E]]. destruct (trim_end_split (trim_start x)) as [b [Hb F]].
  exists a, b. unfold trim. rewrite <- F. split; [exact E|]. split; assumption.
Qed.

Section Names.
Variable alnum : char -> bool.
Hypothesis A : alnum_like alnum.

Notation name := (name alnum).
Notation in_name := (in_name alnum).
Notation written := (written alnum).
Notation piece_ok := (piece_ok alnum).
Notation separated := (separated alnum).

Lemma name_char_iff : forall c, name_char alnum c = true <-> in_name c.
Proof.
  intro c. unfold name_char, Variables_Spec.in_name. rewrite !Bool.orb_true_iff, !Z.eqb_eq. tauto.
Qed.
Lemma not_name : forall c, 0 <= c < 128 -> ascii_alnum c = false -> c <> 45 -> c <> 95 -> ~ in_name c.
Proof. intros c H E N M [K|[K|K]]; [|contradiction|contradiction]. destruct A as [B _]. rewrite B in K by exact H. congruence. Qed.
Lemma name_not_ws : forall c, in_name c -> is_ws c = false.
Proof.
  intros c [H|[-> | ->]]; [|reflexivity|reflexivity]. destruct (is_ws c) eqn:E; [|reflexivity]. destruct A as [_ B]. rewrite B in H by exact E. discriminate.
Qed.

Lemma resolve_name : forall vs n m r, name n -> match r with [] => True | c :: _ => ~ in_name c end ->
  resolve_line alnum vs (Some m) (n ++ r) = expand vs (m ++ n) ++ resolve_line alnum vs None r.
Proof.
  induction n as [|c n IH]; intros m r Hn Hr.
  - cbn [app]. rewrite app_nil_r. destruct r as [|c r]; cbn [resolve_line]; [rewrite app_nil_r; reflexivity|].
    destruct (name_char alnum c) eqn:E; [apply name_char_iff in E; contradiction|reflexivity].
  - inversion Hn; subst. cbn [app resolve_line]. replace (name_char alnum c) with true by (symmetry; apply name_char_iff; assumption).
    rewrite IH by assumption. rewrite <- app_assoc. reflexivity.
Qed.
Lemma resolve_lit : forall vs t r, ~ In 36 t -> resolve_line alnum vs None (t ++ r) = t ++ resolve_line alnum vs None r.
Proof.
  induction t as [|c t IH]; intros r H; [reflexivity|]. cbn [app resolve_line].
  destruct (c =? 36) eqn:E; [apply Z.eqb_eq in E; subst; exfalso; apply H; left; reflexivity|].
  rewrite IH; [reflexivity|]. intro I; apply H; right; exact I.
Qed.
Definition shown (vs : vars) (p : piece) : text := match p with Lit t => t | Ref n => expand vs n end.
Lemma resolve_pieces : forall vs ps, Forall piece_ok ps -> separated ps ->
  resolve_line alnum vs None (flat_map piece_text ps) = flat_map (shown vs) ps.
Proof.
  intros vs. induction ps as [|p ps IH]; intros F S; [reflexivity|].
  inversion F as [|? ? P Q]; subst. cbn [flat_map]. destruct p as [t|n].
  - cbn [piece_text shown]. rewrite resolve_lit by exact P. f_equal. apply IH; [exact Q|exact S].
  - cbn [piece_text shown app resolve_line]. change (36 =? 36) with true. cbn iota.
    assert (D : separated ps /\ match flat_map piece_text ps with [] => True | c :: _ => ~ in_name c end).
    { destruct ps as [|[[|c t]|m] ps]; cbn [Variables_Spec.separated] in S.
      - split; exact I.
      - contradiction.
      - destruct S as [S1 S2]. split; [exact S2|exact S1].
      - split; [exact S|]. cbn. apply not_name; try reflexivity; lia. }
    destruct D as [D1 D2]. rewrite resolve_name by assumption. cbn [app]. f_equal. apply IH; assumption.
Qed.

Lemma split_first : forall c a r, ~ In c a -> split_at_char c (a ++ c :: r) = Some (a, r).
Proof.
  induction a as [|x a IH]; intros r H; cbn.
  - rewrite Z.eqb_refl. reflexivity.
  - destruct (x =? c) eqn:E; [apply Z.eqb_eq in E; subst; exfalso; apply H; left; reflexivity|].
    rewrite IH; [reflexivity|]. intro I; apply H; right; exact I.
Qed.
Lemma trim_tight : forall t, match t with [] => True | c :: _ => is_ws c = false end -> match rev t with [] => True | c :: _ => is_ws c = false end -> trim t = t.
Proof.
  intros t H1 H2. unfold trim. assert (E : trim_start t = t) by (destruct t; [reflexivity|cbn; rewrite H1; reflexivity]).
  rewrite E. unfold trim_end. destruct (rev t) as [|c r] eqn:R; cbn.
  - rewrite <- (rev_involutive t), R. reflexivity.
  - rewrite H2, <- R. apply rev_involutive.
Qed.
Lemma last_app_tight : forall a b, b <> [] -> match rev b with [] => True | c :: _ => is_ws c = false end -> match rev (a ++ b) with [] => True | c :: _ => is_ws c = false end.
Proof.
  intros a b N H. rewrite rev_app_distr. destruct (rev b) eqn:E; [|exact H]. exfalso. apply N. rewrite <- (rev_involutive b), E. reflexivity.
Qed.

Lemma definition_of : forall n v t vs, written (Def n v) t -> definition (trim t) vs = (n, v) :: vs.
Proof.
  intros n v t vs W. inversion W as [a b c d n' v' semi Ha Hb Hc Hd Hn Hv Hs|]; subst.
  rewrite trim_app_l by exact Ha.
  assert (NB : ~ In 58 (36 :: n ++ b)).
  { intros [I|I]; [discriminate|]. apply in_app_or in I. destruct I as [I|I].
    - unfold Variables_Spec.name in Hn. rewrite Forall_forall in Hn. specialize (Hn 58 I). revert Hn. apply not_name; try reflexivity; lia.
    - unfold blank in Hb. rewrite Forall_forall in Hb. specialize (Hb 58 I). discriminate. }
  assert (TN : trim (n ++ b) = n).
  { rewrite trim_app_r by exact Hb. apply trim_tight.
    - destruct n; [exact I|]. inversion Hn; subst. apply name_not_ws. assumption.
    - destruct (rev n) eqn:E; [exact I|]. apply name_not_ws. unfold Variables_Spec.name in Hn. rewrite Forall_forall in Hn. apply Hn. rewrite in_rev, E. left. reflexivity. }
  destruct (v ++ semi) as [|x vs'] eqn:VS.
  - apply app_eq_nil in VS. destruct VS as [-> ->].
    transitivity (definition (trim ((36 :: n ++ b ++ [58]) ++ (c ++ d))) vs); [apply (f_equal (fun z => definition (trim z) vs)); cbn; rewrite <- !app_assoc; reflexivity|].
    etransitivity; [apply (f_equal (fun z => definition z vs)); apply (trim_app_r (c ++ d)); (apply Forall_app; split; [exact Hc|exact Hd])|].
    rewrite trim_tight; [|reflexivity|].
    2:{ replace (36 :: n ++ b ++ [58]) with ((36 :: n ++ b) ++ [58]) by (cbn; rewrite <- app_assoc; reflexivity). apply last_app_tight; [discriminate|reflexivity]. }
    unfold definition. change (36 =? 36) with true. cbn iota.
    replace (36 :: n ++ b ++ [58]) with ((36 :: n ++ b) ++ 58 :: []) by (cbn; rewrite <- app_assoc; reflexivity).
    rewrite split_first by exact NB. cbn [tl]. rewrite TN. reflexivity.
  - assert (T1 : match v ++ semi with [] => True | c :: _ => is_ws c = false end).
    { destruct v; [|exact Hv]. cbn. destruct Hs as [-> |[-> _]]; [reflexivity|exact I]. }
    assert (T2 : match rev (v ++ semi) with [] => True | c :: _ => is_ws c = false end).
    { destruct Hs as [-> |[-> Hs]]; [rewrite rev_app_distr; reflexivity|]. rewrite app_nil_r. destruct (rev v); [exact I|]. destruct Hs; assumption. }
    transitivity (definition (trim ((36 :: n ++ b ++ 58 :: c ++ v ++ semi) ++ d)) vs); [apply (f_equal (fun z => definition (trim z) vs)); cbn; rewrite <- !app_assoc; cbn; rewrite <- !app_assoc; reflexivity|].
    etransitivity; [apply (f_equal (fun z => definition z vs)); apply (trim_app_r d); exact Hd|].
    rewrite trim_tight; [|reflexivity|].
    2:{ replace (36 :: n ++ b ++ 58 :: c ++ v ++ semi) with ((36 :: n ++ b ++ 58 :: c) ++ (v ++ semi)) by (cbn; rewrite <- !app_assoc; cbn; reflexivity).
        apply last_app_tight; [rewrite VS; discriminate|exact T2]. }
    unfold definition. change (36 =? 36) with true. cbn iota.
    replace (36 :: n ++ b ++ 58 :: c ++ v ++ semi) with ((36 :: n ++ b) ++ 58 :: (c ++ v ++ semi)) by (cbn; rewrite <- app_assoc; reflexivity).
    rewrite split_first by exact NB. cbn [tl]. rewrite TN, trim_app_l by exact Hc. rewrite (trim_tight (v ++ semi)) by assumption.
    unfold define. do 2 f_equal. destruct Hs as [-> |[-> Hs]].
    + unfold ends_with. rewrite rev_app_distr. cbn. rewrite removelast_last. destruct (rev v); reflexivity.
    + rewrite app_nil_r. unfold ends_with. destruct (rev v) as [|y r] eqn:R; [reflexivity|]. destruct Hs as [_ Hs].
      destruct (starts_with _ _) eqn:E; [|reflexivity]. apply starts_ex in E. destruct E as [q E]. injection E as -> _. congruence.
Qed.
Lemma code_no_dollar : forall ps t, written (Code ps) t -> starts_with (trim t) [36] = false.
Proof.
  intros ps t W. inversion W as [|ps' F S D]; subst. destruct (starts_with _ _) eqn:E; [|reflexivity].
  apply starts_ex in E. destruct E as [r E]. destruct (trim_factor (flat_map piece_text ps)) as [a [b [F1 [Ba _]]]].
  exfalso. apply (D a (r ++ b) Ba). rewrite E in F1. rewrite F1 at 1. cbn. reflexivity.
Qed.
Lemma def_dollar : forall n v t, written (Def n v) t -> starts_with (trim t) [36] = true.
Proof.
  intros n v t W. pose proof (definition_of n v t [] W) as D. unfold definition in D. destruct (trim t) as [|c r]; [discriminate|].
  destruct (c =? 36) eqn:E; [|discriminate]. apply Z.eqb_eq in E. subst. destruct r; reflexivity.
Qed.
Lemma definition_code : forall ps t vs, written (Code ps) t -> definition (trim t) vs = vs.
Proof.
  intros ps t vs W. apply code_no_dollar in W. unfold definition. destruct (trim t) as [|c r]; [reflexivity|]. destruct (c =? 36) eqn:E; [|reflexivity]. apply Z.eqb_eq in E. subst. destruct r; discriminate.
Qed.

Fixpoint defs (ls : list line) (vs : vars) : vars :=
  match ls with [] => vs | Def n v :: r => defs r ((n, v) :: vs) | Code _ :: r => defs r vs end.
Lemma extract_defs : forall ls ts vs, Forall2 written ls ts ->
  Forall (fun x => contains_str (trim x) (str "/*") = false /\ contains_str (trim x) (str "*/") = false) ts ->
  extract_lines ts false vs = defs ls vs.
Proof.
  intros ls ts vs H. revert vs. induction H as [|l t ls ts W F IH]; intros vs G; [reflexivity|].
  inversion G as [|? ? [G1 G2] G3]; subst. cbn [extract_lines]. rewrite G1, G2. cbn [orb]. rewrite IH by exact G3.
  destruct l as [n v|ps]; cbn [defs].
  - rewrite (definition_of n v) by exact W. reflexivity.
  - rewrite (definition_code ps) by exact W. reflexivity.
Qed.
Lemma resolve_defs : forall ls vs n v, resolve (defs ls vs) n = Some v <-> valued ls n v \/ ((forall w, ~ In (Def n w) ls) /\ resolve vs n = Some v).
Proof.
  induction ls as [|l ls IH]; intros vs n v.
  - cbn. split.
    + intro H. right. split; [intros w []|exact H].
    + intros [[b [a [E _]]]|[_ H]]; [destruct b; discriminate|exact H].
  - assert (V : valued (l :: ls) n v <-> valued ls n v \/ (l = Def n v /\ forall w, ~ In (Def n w) ls)).
    { split.
      - intros [[|y b] [a [E N]]]; cbn in E; injection E as -> ->; [right; split; [reflexivity|exact N]|left; exists b, a; split; [reflexivity|exact N]].
      - intros [[b [a [-> N]]]|[-> N]]; [exists (l :: b), a|exists [], ls]; split; try reflexivity; exact N. }
    destruct l as [m w|ps]; cbn [defs]; rewrite IH, V.
    + cbn [resolve]. destruct (text_eqb m n) eqn:E.
      * apply text_eqb_iff in E. subst m. split.
        -- intros [H|[N H]]; [left; left; exact H|]. injection H as ->. left. right. split; [reflexivity|exact N].
        -- intros [[H|[H N]]|[H _]]; [left; exact H|injection H as ->; right; split; [exact N|reflexivity]|]. exfalso. apply (H w). left. reflexivity.
      * apply text_eqb_no in E. split.
        -- intros [H|[N H]]; [left; left; exact H|]. right. split; [|exact H]. intros x [K|K]; [injection K as -> _; contradiction|exact (N x K)].
        -- intros [[H|[H N]]|[N H]]; [left; exact H|injection H as -> _; contradiction|]. right. split; [|exact H]. intros x K. apply (N x). right. exact K.
    + split.
      * intros [H|[N H]]; [left; left; exact H|]. right. split; [|exact H]. intros x [K|K]; [discriminate|exact (N x K)].
      * intros [[H|[H _]]|[N H]]; [left; exact H|discriminate|]. right. split; [|exact H]. intros x K. apply (N x). right. exact K.
Qed.
Lemma resolve_none : forall ls vs n, resolve (defs ls vs) n = None -> forall v, ~ In (Def n v) ls.
Proof.
  induction ls as [|l ls IH]; intros vs n H v; [intros []|]. destruct l as [m w|ps]; cbn [defs] in H.
  - intros [K|K]; [|exact (IH _ _ H v K)]. injection K as -> ->.
    destruct (resolve (defs ls ((n, v) :: vs)) n) eqn:E; [discriminate|]. clear H IH.
    assert (G : forall ls vs', resolve vs' n <> None -> resolve (defs ls vs') n <> None).
    { clear. induction ls as [|[m w|ps] ls IH]; intros vs' H; cbn [defs]; [exact H| |apply IH; exact H]. apply IH. cbn. destruct (text_eqb m n); [discriminate|exact H]. }
    apply (G ls ((n, v) :: vs)); [|exact E]. cbn. replace (text_eqb n n) with true by (symmetry; apply text_eqb_iff; reflexivity). discriminate.
  - intros [K|K]; [discriminate|exact (IH _ _ H v K)].
Qed.
Lemma shown_stands : forall ls p, stands_for ls p (shown (defs ls []) p).
Proof.
  intros ls [t|n]; cbn [shown]; [constructor|]. unfold expand. destruct (resolve (defs ls []) n) as [v|] eqn:E.
  - apply s_ref. apply resolve_defs in E. destruct E as [E|[_ E]]; [exact E|discriminate].
  - apply s_undefined. eapply resolve_none. exact E.
Qed.
Lemma stands_unique : forall ls p a b, stands_for ls p a -> stands_for ls p b -> a = b.
Proof.
  assert (V : forall ls n v, valued ls n v -> In (Def n v) ls). { intros ls n v [b [a [-> _]]]. apply in_or_app. right. left. reflexivity. }
  assert (U : forall ls n v w, valued ls n v -> valued ls n w -> v = w).
  { intros ls n v w H K. assert (H' : resolve (defs ls []) n = Some v) by (apply resolve_defs; left; exact H).
    assert (K' : resolve (defs ls []) n = Some w) by (apply resolve_defs; left; exact K). congruence. }
  intros ls p a b H K. inversion H; subst; inversion K; subst; try reflexivity.
  - eapply U; eassumption.
  - exfalso. match goal with N : forall v, ~ In _ _, D : valued _ _ _ |- _ => exact (N _ (V _ _ _ D)) end.
  - exfalso. match goal with N : forall v, ~ In _ _, D : valued _ _ _ |- _ => exact (N _ (V _ _ _ D)) end.
Qed.
Lemma means_unique : forall all ls a b, means all ls a -> means all ls b -> a = b.
Proof.
  intros all ls a b H. revert b. induction H as [|n v r o H IH|ps os r o F H IH]; intros b K; inversion K; subst; try reflexivity; [apply IH; assumption|].
  f_equal; [|f_equal; apply IH; assumption]. f_equal.
  match goal with K1 : Forall2 (stands_for all) ps ?l |- _ => revert K1; generalize l end. clear - F.
  induction F as [|p x ps os P F IH]; intros l K; inversion K; subst; [reflexivity|]. f_equal; [eapply stands_unique; eassumption|apply IH; assumption].
Qed.

Lemma out_means : forall all ls ts, Forall2 written ls ts ->
  means all ls (flat_map (fun line => if starts_with (trim line) [36] then [] else resolve_line alnum (defs all []) None line ++ [10]) ts).
Proof.
  intros all ls ts H. induction H as [|l t ls ts W F IH]; [constructor|]. cbn [flat_map]. destruct l as [n v|ps].
  - rewrite (def_dollar n v) by exact W. constructor. exact IH.
  - rewrite (code_no_dollar ps) by exact W. inversion W as [|ps' P S D]; subst. rewrite resolve_pieces by assumption.
    rewrite <- app_assoc. rewrite flat_map_concat_map. constructor; [|exact IH].
    clear. induction ps as [|p ps IH]; cbn; constructor; [apply shown_stands|exact IH].
Qed.

Theorem resolves : forall ls t, source alnum ls t -> means ls ls (resolve_variables alnum t (extract_variables t)).
Proof.
  intros ls t [ts [W [N [T [C1 C2]]]]].
  pose proof (lines_of ts t N T) as L.
  unfold resolve_variables, extract_variables. rewrite drop_none by exact C1. rewrite L.
  rewrite (extract_defs ls ts []); [apply out_means; exact W|exact W|].
  apply Forall_forall. intros x I.
  assert (G : forall p, (forall a b, t <> a ++ p ++ b) -> contains_str (trim x) p = false).
  { intros p Np. destruct (contains_str (trim x) p) eqn:E; [|reflexivity]. apply contains_ex in E. destruct E as [a [b E]].
    destruct (line_factor ts t x p T I) as [u [w F]]; [|exfalso; exact (Np _ _ F)].
    destruct (trim_factor x) as [a' [b' [F _]]]. exists (a' ++ a), (b ++ b'). rewrite E in F. rewrite F at 1. rewrite <- !app_assoc. reflexivity. }
  split; apply G; assumption.
Qed.
End Names.
