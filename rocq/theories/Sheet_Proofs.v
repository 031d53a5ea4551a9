(** Selectors: every text that spells a list of selectors is parsed to it. *)
From Coq Require Import String ZArith QArith List Bool Lia.
From Verif Require Import Text_Model Css_Model Variables_Model Variables_Spec Variables_Proofs Keys_Proofs Sheet_Model Sheet_Spec.
Import ListNotations.
Notation length := List.length.
Open Scope Z_scope.
Open Scope list_scope.

Lemma span_stop : forall p a k, Forall (fun c => p c = true) a -> match k with [] => True | c :: _ => p c = false end -> span p (a ++ k) = (a, k).
Proof.
  induction 1 as [|c a H F IH]; intro K; cbn [app span].
  - destruct k as [|c k]; [reflexivity|]. cbn. rewrite K. reflexivity.
  - rewrite H, IH by exact K. reflexivity.
Qed.
Lemma span_len : forall p t, (length (snd (span p t)) <= length t)%nat.
Proof. induction t as [|c t IH]; cbn; [lia|]. destruct (p c); [|cbn; lia]. destruct (span p t). cbn in *. lia. Qed.
Lemma span_join : forall p t, t = fst (span p t) ++ snd (span p t).
Proof. induction t as [|c t IH]; cbn; [reflexivity|]. destruct (p c); [|reflexivity]. destruct (span p t). cbn in *. rewrite IH at 1. reflexivity. Qed.
Lemma span_true : forall p t, Forall (fun c => p c = true) (fst (span p t)).
Proof. induction t as [|c t IH]; cbn; [constructor|]. destruct (p c) eqn:E; [|constructor]. destruct (span p t). cbn in *. constructor; assumption. Qed.
Lemma span_head : forall p t, match snd (span p t) with [] => True | c :: _ => p c = false end.
Proof. induction t as [|c t IH]; cbn; [exact I|]. destruct (p c) eqn:E; [|exact E]. destruct (span p t). exact IH. Qed.

Lemma gap_space : forall g, gap g -> Forall (fun c => space c = true) g.
Proof. intros g H. eapply Forall_impl; [|exact H]. intros c [-> |[->|[->| ->]]]; reflexivity. Qed.
Lemma gap_blank : forall g, gap g -> blank g.
Proof. intros g H. eapply Forall_impl; [|exact H]. intros c [-> |[->|[->| ->]]]; reflexivity. Qed.
Lemma space_gap : forall c, space c = true -> c = 32 \/ c = 9 \/ c = 10 \/ c = 13.
Proof. intros c H. unfold space in H. rewrite !orb_true_iff, !Z.eqb_eq in H. tauto. Qed.
Lemma gap_app : forall a b, gap a -> gap b -> gap (a ++ b). Proof. intros. apply Forall_app. split; assumption. Qed.
Definition tough (k : text) : Prop := match k with [] => True | c :: _ => space c = false end.
Lemma ms0 : forall g k, gap g -> tough k -> multispace0 (g ++ k) = Ok (k, g).
Proof. intros g k G K. unfold multispace0. rewrite (span_stop space g k (gap_space g G)) by exact K. reflexivity. Qed.
Lemma ms1 : forall g k, gap g -> g <> [] -> tough k -> multispace1 (g ++ k) = Ok (k, g).
Proof.
  intros g k G N K. unfold multispace1, take_while1. rewrite (span_stop space g k (gap_space g G)) by exact K.
  destruct g; [congruence|reflexivity].
Qed.
Lemma ms1_none : forall k, tough k -> multispace1 k = Err.
Proof. intros k K. unfold multispace1, take_while1. change k with ([] ++ k). rewrite (span_stop space [] k) by (auto; constructor). reflexivity. Qed.
Lemma pchar_yes : forall c k, pchar c (c :: k) = Ok (k, tt). Proof. intros. unfold pchar. rewrite Z.eqb_refl. reflexivity. Qed.
Lemma pchar_no : forall c x k, x <> c -> pchar c (x :: k) = Err.
Proof. intros c x k N. unfold pchar. apply Z.eqb_neq in N. rewrite N. reflexivity. Qed.
Lemma tag_yes : forall p k, tag p (p ++ k) = Ok (k, tt).
Proof.
  intros p k. unfold tag. assert (E : starts_with (p ++ k) p = true) by (apply starts_ex; exists k; reflexivity). rewrite E.
  f_equal. f_equal. induction p; cbn; auto. apply IHp. apply starts_ex. exists k; reflexivity.
Qed.
Lemma pbind_ok : forall A B (p : parser A) (f : A -> parser B) i r a, p i = Ok (r, a) -> pbind p f i = f a r.
Proof. intros. unfold pbind. rewrite H. reflexivity. Qed.
Lemma pbind_err : forall A B (p : parser A) (f : A -> parser B) i, p i = Err -> pbind p f i = Err.
Proof. intros. unfold pbind. rewrite H. reflexivity. Qed.
Lemma palt_ok : forall A (p q : parser A) i x, p i = Ok x -> palt p q i = Ok x.
Proof. intros. unfold palt. rewrite H. reflexivity. Qed.
Lemma palt_err : forall A (p q : parser A) i, p i = Err -> palt p q i = q i.
Proof. intros. unfold palt. rewrite H. reflexivity. Qed.
Lemma popt_ok : forall A (p : parser A) i r a, p i = Ok (r, a) -> popt p i = Ok (r, Some a).
Proof. intros. unfold popt. rewrite H. reflexivity. Qed.
Lemma popt_err : forall A (p : parser A) i, p i = Err -> popt p i = Ok (i, None).
Proof. intros. unfold popt. rewrite H. reflexivity. Qed.
Lemma pmap_ok : forall A B (p : parser A) (f : A -> B) i r a, p i = Ok (r, a) -> pmap p f i = Ok (r, f a).
Proof. intros. unfold pmap. rewrite (pbind_ok _ _ _ _ _ _ _ H). reflexivity. Qed.
Lemma pmap_err : forall A B (p : parser A) (f : A -> B) i, p i = Err -> pmap p f i = Err.
Proof. intros. unfold pmap. apply pbind_err. exact H. Qed.
Lemma pre_ok : forall A B (p : parser A) (q : parser B) i r a, p i = Ok (r, a) -> preceded p q i = q r.
Proof. intros. unfold preceded. rewrite (pbind_ok _ _ _ _ _ _ _ H). reflexivity. Qed.
Lemma pre_err : forall A B (p : parser A) (q : parser B) i, p i = Err -> preceded p q i = Err.
Proof. intros. unfold preceded. apply pbind_err. exact H. Qed.

(** [many0] step by step *)
Lemma many0_more : forall A (p : parser A) n m i x, many0_go n p i = Ok x -> (n <= m)%nat -> many0_go m p i = Ok x.
Proof.
  intros A p n. induction n as [|n IH]; intros m i x H L; [discriminate|].
  destruct m as [|m]; [lia|]. cbn [many0_go] in *. destruct (p i) as [[r a]| |]; [|exact H|discriminate].
  destruct (length r =? length i)%nat; [discriminate|]. destruct (many0_go n p r) as [[r' l]| |] eqn:E; try discriminate.
  rewrite (IH m r _ E) by lia. exact H.
Qed.
Lemma many0_nil : forall A (p : parser A) i, p i = Err -> many0 p i = Ok (i, []).
Proof. intros A p i H. unfold many0. cbn [many0_go]. rewrite H. reflexivity. Qed.
Lemma many0_cons : forall A (p : parser A) i r a r' l, p i = Ok (r, a) -> (length r < length i)%nat -> many0 p r = Ok (r', l) ->
  many0 p i = Ok (r', a :: l).
Proof.
  intros A p i r a r' l P L M. unfold many0 in *. cbn [many0_go]. rewrite P.
  destruct (length r =? length i)%nat eqn:E; [apply Nat.eqb_eq in E; lia|].
  rewrite (many0_more A p _ (length i) r _ M) by lia. reflexivity.
Qed.

Section Names.
Variable alnum : char -> bool.
Hypothesis A : alnum_like alnum.
Notation in_name := (in_name alnum).
Notation ident := (ident alnum).

Definition stop (k : text) : Prop := match k with [] => True | c :: _ => ~ in_name c end.
Lemma not_nc : forall c, ~ in_name c -> name_char alnum c = false.
Proof. intros c H. destruct (name_char alnum c) eqn:E; [|reflexivity]. apply (name_char_iff alnum) in E. contradiction. Qed.
Lemma name_ascii : forall c x, in_name c -> 0 <= x < 128 -> ascii_alnum x = false -> x <> 45 -> x <> 95 -> c <> x.
Proof. intros c x H R N1 N2 N3 ->. exact (not_name alnum A x R N1 N2 N3 H). Qed.
Lemma ident_ok : forall t k, ident t -> stop k -> parse_ident alnum (t ++ k) = Ok (k, t).
Proof.
  intros t k [N F] K. unfold parse_ident, take_while1. rewrite span_stop.
  - destruct t; [congruence|reflexivity].
  - eapply Forall_impl; [|exact F]. intros c H. apply (name_char_iff alnum). exact H.
  - destruct k; [exact I|]. apply not_nc. exact K.
Qed.
Lemma ident_no : forall k, stop k -> parse_ident alnum k = Err.
Proof. intros k K. unfold parse_ident, take_while1. change k with ([] ++ k). rewrite (span_stop _ [] k); [reflexivity|constructor|]. destruct k; [exact I|]. apply not_nc. exact K. Qed.

Ltac notname := match goal with |- ~ in_name ?c => let v := eval vm_compute in c in change (~ in_name v) end; apply (not_name alnum A); [lia|reflexivity|lia|lia].
Ltac differ := match goal with H : in_name ?c |- ?c <> ?x => apply (name_ascii c x H); [lia|reflexivity|lia|lia] end.

Lemma simple_ok : forall s t k, simple_text alnum s t -> (ends_with_name s -> stop k) -> parse_simple_selector alnum (t ++ k) = Ok (k, s).
Proof.
  intros s t k H K. destruct H as [n I|n I|n I|n I| | |n v a b c d Tn Tv N1 N2 N3 Ba Bb Bc Bd|n a b Tn N1 N2 Ba Bb]; unfold parse_simple_selector.
  - assert (IO := ident_ok n k I (K Logic.I)). destruct I as [N F]. destruct n as [|x n]; [congruence|]. inversion F as [|? ? Hx Hn]; subst.
    cbn [app] in *.
    rewrite palt_err by (apply pmap_err; apply pre_err; apply pchar_no; differ).
    rewrite palt_err by (apply pmap_err; apply pre_err; apply pchar_no; differ).
    rewrite palt_err by (apply pmap_err; apply pre_err; apply pchar_no; differ).
    rewrite palt_err by (apply pmap_err; apply pchar_no; differ).
    rewrite palt_err by (apply pmap_err; apply pchar_no; differ).
    rewrite palt_err by (apply pbind_err; apply pchar_no; differ).
    apply pmap_ok. exact IO.
  - rewrite <- app_assoc. change (str "." ++ n ++ k) with (46 :: n ++ k).
    rewrite palt_err by reflexivity. apply palt_ok. apply pmap_ok. rewrite (pre_ok _ _ _ _ _ _ _ (pchar_yes 46 _)). apply ident_ok; [exact I|apply K; exact Logic.I].
  - rewrite <- app_assoc. change (str "#" ++ n ++ k) with (35 :: n ++ k).
    apply palt_ok. apply pmap_ok. rewrite (pre_ok _ _ _ _ _ _ _ (pchar_yes 35 _)). apply ident_ok; [exact I|apply K; exact Logic.I].
  - rewrite <- app_assoc. change (str ":" ++ n ++ k) with (58 :: n ++ k).
    rewrite palt_err by reflexivity. rewrite palt_err by reflexivity. apply palt_ok. apply pmap_ok. rewrite (pre_ok _ _ _ _ _ _ _ (pchar_yes 58 _)). apply ident_ok; [exact I|apply K; exact Logic.I].
  - reflexivity.
  - reflexivity.
  - do 5 (rewrite palt_err by reflexivity). apply palt_ok. unfold parse_attribute_selector.
    rewrite <- !app_assoc. change (str "[" ++ ?x) with (91 :: x). rewrite (pbind_ok _ _ _ _ _ _ _ (pchar_yes 91 _)).
    assert (E : a ++ n ++ b ++ str "=" ++ c ++ v ++ d ++ str "]" ++ k = (a ++ n ++ b ++ 61 :: c ++ v ++ d) ++ 93 :: k).
    { rewrite <- !app_assoc. cbn [app]. rewrite <- !app_assoc. reflexivity. }
    assert (B93 : forall w, blank w -> ~ In 93 w) by (intros w B J; apply (proj1 (Forall_forall _ _) B) in J; discriminate).
    assert (B61 : forall w, blank w -> ~ In 61 w) by (intros w B J; apply (proj1 (Forall_forall _ _) B) in J; discriminate).
    assert (T : take_until 93 (a ++ n ++ b ++ str "=" ++ c ++ v ++ d ++ str "]" ++ k) = Ok (93 :: k, a ++ n ++ b ++ 61 :: c ++ v ++ d)).
    { unfold take_until. rewrite E. rewrite split_first; [reflexivity|]. intro J.
      rewrite !in_app_iff in J. destruct J as [J|[J|[J|J]]]; [exact (B93 a Ba J)|exact (N2 J)|exact (B93 b Bb J)|].
      destruct J as [J|J]; [discriminate|]. rewrite !in_app_iff in J. destruct J as [J|[J|J]]; [exact (B93 c Bc J)|exact (N3 J)|exact (B93 d Bd J)]. }
    rewrite (pbind_ok _ _ _ _ _ _ _ T). rewrite (pbind_ok _ _ _ _ _ _ _ (pchar_yes 93 _)).
    assert (S : split_at_char 61 (a ++ n ++ b ++ 61 :: c ++ v ++ d) = Some (a ++ n ++ b, c ++ v ++ d)).
    { replace (a ++ n ++ b ++ 61 :: c ++ v ++ d) with ((a ++ n ++ b) ++ 61 :: c ++ v ++ d) by (rewrite <- !app_assoc; reflexivity).
      apply split_first. rewrite !in_app_iff. intros [J|[J|J]]; [exact (B61 a Ba J)|exact (N1 J)|exact (B61 b Bb J)]. }
    rewrite S. unfold pret. f_equal. f_equal. f_equal.
    + rewrite trim_app_l by exact Ba. rewrite trim_app_r by exact Bb. apply trim_tight; apply Tn.
    + rewrite trim_app_l by exact Bc. rewrite trim_app_r by exact Bd. apply trim_tight; apply Tv.
  - do 5 (rewrite palt_err by reflexivity). apply palt_ok. unfold parse_attribute_selector.
    rewrite <- !app_assoc. change (str "[" ++ ?x) with (91 :: x). rewrite (pbind_ok _ _ _ _ _ _ _ (pchar_yes 91 _)).
    assert (E : a ++ n ++ b ++ str "]" ++ k = (a ++ n ++ b) ++ 93 :: k) by (rewrite <- !app_assoc; reflexivity).
    assert (B93 : forall w, blank w -> ~ In 93 w) by (intros w B J; apply (proj1 (Forall_forall _ _) B) in J; discriminate).
    assert (B61 : forall w, blank w -> ~ In 61 w) by (intros w B J; apply (proj1 (Forall_forall _ _) B) in J; discriminate).
    assert (T : take_until 93 (a ++ n ++ b ++ str "]" ++ k) = Ok (93 :: k, a ++ n ++ b)).
    { unfold take_until. rewrite E. rewrite split_first; [reflexivity|]. rewrite !in_app_iff. intros [J|[J|J]]; [exact (B93 a Ba J)|exact (N2 J)|exact (B93 b Bb J)]. }
    rewrite (pbind_ok _ _ _ _ _ _ _ T). rewrite (pbind_ok _ _ _ _ _ _ _ (pchar_yes 93 _)).
    assert (S : split_at_char 61 (a ++ n ++ b) = None).
    { assert (J : ~ In 61 (a ++ n ++ b)) by (rewrite !in_app_iff; intros [J|[J|J]]; [exact (B61 a Ba J)|exact (N1 J)|exact (B61 b Bb J)]).
      generalize dependent (a ++ n ++ b). intros l _ _ J. induction l as [|x l IH]; [reflexivity|]. cbn.
      destruct (x =? 61) eqn:X; [apply Z.eqb_eq in X; subst; exfalso; apply J; left; reflexivity|]. rewrite IH; [reflexivity|]. intro; apply J; right; assumption. }
    rewrite S. unfold pret. f_equal. f_equal. f_equal.
    rewrite trim_app_l by exact Ba. rewrite trim_app_r by exact Bb. apply trim_tight; apply Tn.
Qed.

(** a character no simple selector starts with *)
Definition no_simple (c : char) : Prop := ~ in_name c /\ ~ In c [35; 46; 58; 38; 42; 91].
Definition closed (k : text) : Prop := match k with [] => True | c :: _ => no_simple c end.
Lemma simple_no : forall k, closed k -> parse_simple_selector alnum k = Err.
Proof.
  intros [|c k] K; [reflexivity|]. destruct K as [N M]. unfold parse_simple_selector.
  assert (D : forall x, In x [35; 46; 58; 38; 42; 91] -> c <> x) by (intros x I ->; exact (M I)).
  rewrite palt_err by (apply pmap_err; apply pre_err; apply pchar_no; apply D; cbn; tauto).
  rewrite palt_err by (apply pmap_err; apply pre_err; apply pchar_no; apply D; cbn; tauto).
  rewrite palt_err by (apply pmap_err; apply pre_err; apply pchar_no; apply D; cbn; tauto).
  rewrite palt_err by (apply pmap_err; apply pchar_no; apply D; cbn; tauto).
  rewrite palt_err by (apply pmap_err; apply pchar_no; apply D; cbn; tauto).
  rewrite palt_err by (apply pbind_err; apply pchar_no; apply D; cbn; tauto).
  apply pmap_err. apply ident_no. exact N.
Qed.
Lemma simple_nonempty : forall s t, simple_text alnum s t -> t <> [].
Proof. intros s t H E. destruct H; try discriminate. destruct H. congruence. Qed.
(** the first character of a simple selector *)
Definition opener (c : char) : Prop := in_name c \/ In c [35; 46; 58; 38; 42; 91].
Lemma simple_opens : forall s t, simple_text alnum s t -> exists c r, t = c :: r /\ opener c /\ (~ starts_with_name [s] -> ~ in_name c).
Proof.
  intros s t H. destruct H as [n I|n I|n I|n I| | |n v a b c d Tn Tv N1 N2 N3 Ba Bb Bc Bd|n a b Tn N1 N2 Ba Bb].
  - destruct I as [N F]. destruct n as [|c n]; [congruence|]. inversion F; subst. exists c, n. split; [reflexivity|]. split; [left; assumption|]. intros X. exfalso. apply X. exact Logic.I.
  - eexists _, _. split; [reflexivity|]. split; [right; cbn; tauto|]. intros _. notname.
  - eexists _, _. split; [reflexivity|]. split; [right; cbn; tauto|]. intros _. notname.
  - eexists _, _. split; [reflexivity|]. split; [right; cbn; tauto|]. intros _. notname.
  - eexists _, _. split; [reflexivity|]. split; [right; cbn; tauto|]. intros _. notname.
  - eexists _, _. split; [reflexivity|]. split; [right; cbn; tauto|]. intros _. notname.
  - eexists _, _. split; [reflexivity|]. split; [right; cbn; tauto|]. intros _. notname.
  - eexists _, _. split; [reflexivity|]. split; [right; cbn; tauto|]. intros _. notname.
Qed.
Lemma compound_opens : forall k t, compound_text alnum k t -> exists c r, t = c :: r /\ opener c /\ (~ starts_with_name k -> ~ in_name c).
Proof.
  intros k t H. destruct H as [s t H|s t k u H Hk N]; destruct (simple_opens s t H) as [c [r [E [O F]]]].
  - exists c, r. split; [exact E|]. split; [exact O|exact F].
  - exists c, (r ++ u). split; [rewrite E; reflexivity|]. split; [exact O|exact F].
Qed.
Lemma simple_more : forall k t r, compound_text alnum k t -> closed r -> many0 (parse_simple_selector alnum) (t ++ r) = Ok (r, k).
Proof.
  intros k t r H K. induction H as [s t H|s t k u H Hk IH N].
  - eapply many0_cons; [apply simple_ok; [exact H|]| |apply many0_nil; apply simple_no; exact K].
    + intros _. destruct r; [exact I|apply K].
    + apply simple_nonempty in H. destruct t; [congruence|]. cbn. rewrite app_length. lia.
  - rewrite <- app_assoc. eapply many0_cons; [apply simple_ok; [exact H|]| |exact IH].
    + intro E. destruct (compound_opens k u Hk) as [c [q [-> [O F]]]]. cbn. apply F. intro St. apply N. split; assumption.
    + apply simple_nonempty in H. destruct t; [congruence|]. cbn. rewrite !app_length. lia.
Qed.
Lemma compound_ok : forall k t r, compound_text alnum k t -> closed r -> parse_compound_selector alnum (t ++ r) = Ok (r, k).
Proof.
  intros k t r H K. unfold parse_compound_selector. destruct H as [s t H|s t k u H Hk N].
  - rewrite (pbind_ok _ _ _ _ _ _ _ (simple_ok s t r H ltac:(intros _; destruct r; [exact I|apply K]))).
    rewrite (pbind_ok _ _ _ _ _ _ _ (many0_nil _ _ _ (simple_no r K))). reflexivity.
  - rewrite <- app_assoc. assert (P : parse_simple_selector alnum (t ++ u ++ r) = Ok (u ++ r, s)).
    { apply simple_ok; [exact H|]. intro E. destruct (compound_opens k u Hk) as [c [q [-> [O F]]]]. cbn. apply F. intro St. apply N. split; assumption. }
    rewrite (pbind_ok _ _ _ _ _ _ _ P). rewrite (pbind_ok _ _ _ _ _ _ _ (simple_more k u r Hk K)). reflexivity.
Qed.
Lemma compound_no : forall k, closed k -> parse_compound_selector alnum k = Err.
Proof. intros k K. unfold parse_compound_selector. apply pbind_err. apply simple_no. exact K. Qed.

Lemma space_closed : forall c, space c = true -> no_simple c.
Proof. intros c H. apply space_gap in H. split; [destruct H as [-> |[->|[->| ->]]]; notname|destruct H as [-> |[->|[->| ->]]]; cbn; lia]. Qed.
Lemma sym_closed : forall c, In c [62; 43; 126; 44; 123; 59; 125; 40; 41; 33] -> no_simple c.
Proof. intros c H. split; [cbn in H; repeat (destruct H as [<-|H]; [notname|]); contradiction|cbn in *; lia]. Qed.
Lemma gap_closed : forall g k, gap g -> closed k -> closed (g ++ k).
Proof. intros g k G K. destruct g as [|c g]; [exact K|]. cbn. inversion G; subst. apply space_closed. destruct H1 as [-> |[->|[->| ->]]]; reflexivity. Qed.
Lemma opener_facts : forall c, opener c -> space c = false /\ c <> 62 /\ c <> 43 /\ c <> 126 /\ c <> 44.
Proof.
  intros c [H|H].
  - split.
    + destruct (space c) eqn:E; [|reflexivity]. apply space_closed in E. destruct E. contradiction.
    + repeat split; differ.
  - cbn in H. repeat (destruct H as [<-|H]; [repeat split; (reflexivity || lia)|]). contradiction.
Qed.
Lemma complex_opens : forall x t, complex_text alnum x t -> exists c r, t = c :: r /\ opener c.
Proof.
  intros x t H. destruct H as [k t H|k t comb c r u H Hc Hx]; destruct (compound_opens k t H) as [a [q [-> [O _]]]].
  - exists a, q. split; [reflexivity|exact O].
  - eexists a, _. split; [reflexivity|exact O].
Qed.

(** what may follow a selector: blanks, then ',' or '{' *)
Definition after (r : text) : Prop := exists g c k, r = g ++ c :: k /\ gap g /\ (c = 44 \/ c = 123).
Lemma after_closed : forall r, after r -> closed r.
Proof. intros r [g [c [k [-> [G H]]]]]. apply gap_closed; [exact G|]. cbn. apply sym_closed. cbn. lia. Qed.
Lemma go_stop : forall n cur r, after r -> complex_go alnum (S n) cur r = Ok (r, [(cur, CNone)]).
Proof.
  intros n cur r [g [c [k [-> [G H]]]]]. cbn [complex_go].
  rewrite (span_stop space g (c :: k) (gap_space g G)) by (destruct H as [->| ->]; reflexivity).
  assert (P : parse_combinator (c :: k) = Err) by (destruct H as [->| ->]; reflexivity). rewrite P.
  destruct g as [|x g]; [reflexivity|]. cbn [is_nil].
  rewrite compound_no by (cbn; apply sym_closed; cbn; lia). reflexivity.
Qed.
Lemma comb_closed : forall comb c u, combinator_text comb c -> closed (c ++ u).
Proof.
  intros comb c u H. destruct H as [w G N|v w Gv Gw|v w Gv Gw|v w Gv Gw].
  - destruct w as [|x w]; [congruence|]. cbn. inversion G; subst. apply space_closed. destruct H1 as [-> |[->|[->| ->]]]; reflexivity.
  - rewrite <- app_assoc. apply gap_closed; [exact Gv|]. cbn. apply sym_closed. cbn. lia.
  - rewrite <- app_assoc. apply gap_closed; [exact Gv|]. cbn. apply sym_closed. cbn. lia.
  - rewrite <- app_assoc. apply gap_closed; [exact Gv|]. cbn. apply sym_closed. cbn. lia.
Qed.
Lemma comb_nonempty : forall comb c, combinator_text comb c -> c <> [].
Proof. intros comb c H E. destruct H; [congruence| | |]; destruct v; discriminate. Qed.
Lemma go_ok : forall x t, complex_text alnum x t -> forall comb c cur n r, combinator_text comb c -> after r ->
  (length (c ++ t ++ r) < n)%nat -> complex_go alnum n cur (c ++ t ++ r) = Ok (r, (cur, comb) :: x).
Proof.
  intros x t H. induction H as [k t H|k t comb' c' x u H Hc Hx IH]; intros comb c cur n r Hcomb R L.
  - destruct n as [|n]; [lia|]. cbn [complex_go].
    assert (K : parse_compound_selector alnum (t ++ r) = Ok (r, k)) by (apply compound_ok; [exact H|apply after_closed; exact R]).
    destruct (compound_opens k t H) as [a [q [Et [O _]]]]. destruct (opener_facts a O) as [F1 [F2 [F3 [F4 F5]]]].
    assert (T : tough (t ++ r)) by (rewrite Et; exact F1).
    assert (Pn : parse_combinator (t ++ r) = Err).
    { rewrite Et. unfold parse_combinator. cbn [app].
      rewrite palt_err by (apply pmap_err; apply pchar_no; lia). rewrite palt_err by (apply pmap_err; apply pchar_no; lia). apply pmap_err. apply pchar_no. lia. }
    assert (G : forall cmb, match complex_go alnum n k r with Ok (r', parts) => Ok (r', (cur, cmb) :: parts) | Err => Err | Panic => Panic end = Ok (r, (cur, cmb) :: [(k, CNone)])).
    { intro cmb. assert (Ln : (0 < n)%nat) by (pose proof (comb_nonempty _ _ Hcomb); destruct c; [congruence|]; cbn in L; lia).
      destruct n as [|n]; [lia|]. rewrite go_stop by exact R. reflexivity. }
    destruct Hcomb as [w Gw N|v w Gv Gw|v w Gv Gw|v w Gv Gw].
    + rewrite (span_stop space w (t ++ r) (gap_space w Gw)) by exact T. rewrite Pn. destruct w; [congruence|]. cbn [is_nil]. rewrite K. apply G.
    + rewrite <- !app_assoc. rewrite (span_stop space v _ (gap_space v Gv)) by reflexivity.
      change (parse_combinator (str ">" ++ w ++ t ++ r)) with (@Ok (text * combinator) (w ++ t ++ r, CChild)). cbv iota beta.
      rewrite (span_stop space w (t ++ r) (gap_space w Gw)) by exact T. cbn [snd]. rewrite K. apply G.
    + rewrite <- !app_assoc. rewrite (span_stop space v _ (gap_space v Gv)) by reflexivity.
      change (parse_combinator (str "+" ++ w ++ t ++ r)) with (@Ok (text * combinator) (w ++ t ++ r, CAdjacent)). cbv iota beta.
      rewrite (span_stop space w (t ++ r) (gap_space w Gw)) by exact T. cbn [snd]. rewrite K. apply G.
    + rewrite <- !app_assoc. rewrite (span_stop space v _ (gap_space v Gv)) by reflexivity.
      change (parse_combinator (str "~" ++ w ++ t ++ r)) with (@Ok (text * combinator) (w ++ t ++ r, CSibling)). cbv iota beta.
      rewrite (span_stop space w (t ++ r) (gap_space w Gw)) by exact T. cbn [snd]. rewrite K. apply G.
  - destruct n as [|n]; [lia|]. cbn [complex_go]. rewrite <- !app_assoc in *.
    assert (K : parse_compound_selector alnum (t ++ c' ++ u ++ r) = Ok (c' ++ u ++ r, k)) by (apply compound_ok; [exact H|apply (comb_closed comb'); exact Hc]).
    destruct (compound_opens k t H) as [a [q [Et [O _]]]]. destruct (opener_facts a O) as [F1 [F2 [F3 [F4 F5]]]].
    assert (T : tough (t ++ c' ++ u ++ r)) by (rewrite Et; exact F1).
    assert (Pn : parse_combinator (t ++ c' ++ u ++ r) = Err).
    { rewrite Et. unfold parse_combinator. cbn [app].
      rewrite palt_err by (apply pmap_err; apply pchar_no; lia). rewrite palt_err by (apply pmap_err; apply pchar_no; lia). apply pmap_err. apply pchar_no. lia. }
    assert (G : forall cmb, match complex_go alnum n k (c' ++ u ++ r) with Ok (r', parts) => Ok (r', (cur, cmb) :: parts) | Err => Err | Panic => Panic end = Ok (r, (cur, cmb) :: (k, comb') :: x)).
    { intro cmb. rewrite (IH comb' c' k n r Hc R); [reflexivity|]. pose proof (comb_nonempty _ _ Hcomb). destruct c; [congruence|]. rewrite !app_length in *. cbn in L. lia. }
    set (rest := c' ++ u ++ r) in *.
    destruct Hcomb as [w Gw N|v w Gv Gw|v w Gv Gw|v w Gv Gw].
    + rewrite (span_stop space w (t ++ rest) (gap_space w Gw)) by exact T. rewrite Pn. destruct w; [congruence|]. cbn [is_nil]. rewrite K. apply G.
    + rewrite <- !app_assoc. rewrite (span_stop space v _ (gap_space v Gv)) by reflexivity.
      change (parse_combinator (str ">" ++ w ++ t ++ rest)) with (@Ok (text * combinator) (w ++ t ++ rest, CChild)). cbv iota beta.
      rewrite (span_stop space w (t ++ rest) (gap_space w Gw)) by exact T. cbn [snd]. rewrite K. apply G.
    + rewrite <- !app_assoc. rewrite (span_stop space v _ (gap_space v Gv)) by reflexivity.
      change (parse_combinator (str "+" ++ w ++ t ++ rest)) with (@Ok (text * combinator) (w ++ t ++ rest, CAdjacent)). cbv iota beta.
      rewrite (span_stop space w (t ++ rest) (gap_space w Gw)) by exact T. cbn [snd]. rewrite K. apply G.
    + rewrite <- !app_assoc. rewrite (span_stop space v _ (gap_space v Gv)) by reflexivity.
      change (parse_combinator (str "~" ++ w ++ t ++ rest)) with (@Ok (text * combinator) (w ++ t ++ rest, CSibling)). cbv iota beta.
      rewrite (span_stop space w (t ++ rest) (gap_space w Gw)) by exact T. cbn [snd]. rewrite K. apply G.
Qed.
Lemma complex_ok : forall x t r, complex_text alnum x t -> after r -> parse_complex_selector alnum (t ++ r) = Ok (r, x).
Proof.
  intros x t r H R. unfold parse_complex_selector. destruct H as [k t H|k t comb c x u H Hc Hx].
  - rewrite (pbind_ok _ _ _ _ _ _ _ (compound_ok k t r H (after_closed r R))). apply go_stop. exact R.
  - rewrite <- !app_assoc. assert (K : parse_compound_selector alnum (t ++ c ++ u ++ r) = Ok (c ++ u ++ r, k)) by (apply compound_ok; [exact H|apply (comb_closed comb); exact Hc]).
    rewrite (pbind_ok _ _ _ _ _ _ _ K). apply go_ok; auto.
Qed.
Lemma complex_nonempty : forall x t, complex_text alnum x t -> t <> [].
Proof. intros x t H. destruct (complex_opens x t H) as [c [r [-> _]]]. discriminate. Qed.

Definition follow_brace (r : text) : Prop := exists g k, r = g ++ 123 :: k /\ gap g.
Lemma brace_after : forall r, follow_brace r -> after r.
Proof. intros r [g [k [-> G]]]. exists g, 123, k. auto. Qed.
Lemma comma_no : forall r, follow_brace r ->
  preceded (preceded multispace0 (preceded (pchar 44) multispace0)) (parse_complex_selector alnum) r = Err.
Proof.
  intros r [g [k [-> G]]]. apply pre_err. rewrite (pre_ok _ _ _ _ _ _ _ (ms0 g (123 :: k) G eq_refl)). reflexivity.
Qed.
Lemma comma_ok : forall v w t r x, gap v -> gap w -> complex_text alnum x t -> after r ->
  preceded (preceded multispace0 (preceded (pchar 44) multispace0)) (parse_complex_selector alnum) (v ++ 44 :: w ++ t ++ r) = Ok (r, x).
Proof.
  intros v w t r x Gv Gw H R. destruct (complex_opens x t H) as [c [q [Et O]]]. destruct (opener_facts c O) as [F _].
  assert (P : preceded multispace0 (preceded (pchar 44) multispace0) (v ++ 44 :: w ++ t ++ r) = Ok (t ++ r, w)).
  { rewrite (pre_ok _ _ _ _ _ _ _ (ms0 v (44 :: w ++ t ++ r) Gv eq_refl)). rewrite (pre_ok _ _ _ _ _ _ _ (pchar_yes 44 _)).
    apply ms0; [exact Gw|]. rewrite Et. exact F. }
  rewrite (pre_ok _ _ _ _ _ _ _ P). apply complex_ok; assumption.
Qed.
Lemma list_more : forall l u, selectors_text alnum l u -> forall v w r, gap v -> gap w -> follow_brace r ->
  many0 (preceded (preceded multispace0 (preceded (pchar 44) multispace0)) (parse_complex_selector alnum)) (v ++ 44 :: w ++ u ++ r) = Ok (r, l).
Proof.
  intros l u H. induction H as [x t H|x t v' w' l u H Gv' Gw' Hl IH]; intros v w r Gv Gw R.
  - eapply many0_cons; [apply comma_ok; [exact Gv|exact Gw|exact H|apply brace_after; exact R]| |apply many0_nil; apply comma_no; exact R].
    rewrite !app_length. cbn. rewrite !app_length. lia.
  - rewrite <- !app_assoc. cbn [str app]. eapply many0_cons; [apply comma_ok; [exact Gv|exact Gw|exact H|]| |apply IH; assumption].
    + exists v', 44, (w' ++ u ++ r). auto.
    + rewrite !app_length. cbn. rewrite !app_length. cbn. rewrite !app_length. lia.
Qed.
Theorem selectors_ok : forall l t g r, selectors_text alnum l t -> gap g -> follow_brace r ->
  parse_selector_list alnum (g ++ t ++ r) = Ok (r, l).
Proof.
  intros l t g r H G R. unfold parse_selector_list.
  assert (T : tough (t ++ r)).
  { destruct H as [x t H|x t v w l u H Gv Gw Hl]; destruct (complex_opens x t H) as [c [q [-> O]]]; destruct (opener_facts c O) as [F _]; exact F. }
  rewrite (pre_ok _ _ _ _ _ _ _ (ms0 g (t ++ r) G T)). destruct H as [x t H|x t v w l u H Gv Gw Hl].
  - rewrite (pbind_ok _ _ _ _ _ _ _ (complex_ok x t r H (brace_after r R))).
    rewrite (pbind_ok _ _ _ _ _ _ _ (many0_nil _ _ _ (comma_no r R))). reflexivity.
  - rewrite <- !app_assoc. cbn [str app].
    assert (K : parse_complex_selector alnum (t ++ v ++ 44 :: w ++ u ++ r) = Ok (v ++ 44 :: w ++ u ++ r, x)).
    { apply complex_ok; [exact H|]. exists v, 44, (w ++ u ++ r). auto. }
    rewrite (pbind_ok _ _ _ _ _ _ _ K). rewrite (pbind_ok _ _ _ _ _ _ _ (list_more l u Hl v w r Gv Gw R)). reflexivity.
Qed.
Lemma selectors_open : forall l t, selectors_text alnum l t -> exists c r, t = c :: r /\ opener c.
Proof.
  intros l t H. destruct H as [x t H|x t v w l u H Gv Gw Hl]; destruct (complex_opens x t H) as [c [q [-> O]]]; eexists c, _; (split; [reflexivity|exact O]).
Qed.
End Names.
