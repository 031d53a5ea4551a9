(** Proofs about rgb(), hsl() and named colours. *)
From Coq Require Import ZArith QArith Qround Qabs String List Bool Lia.
From Verif Require Import Text_Model Float32_Model Css_Proofs Fuzzy_Proofs Colour_Model Colour_Spec Colour3_Proofs.
Import ListNotations.
Notation length := List.length.
Open Scope Z_scope.
Open Scope list_scope.

Lemma digit_range : forall c, is_digit c = true -> 48 <= c <= 57.
Proof. intros c H. unfold is_digit in H. apply andb_true_iff in H. rewrite !Z.leb_le in H. lia. Qed.
Lemma parse_unsigned_ok : forall n t m, decimal n t -> n <= m -> parse_unsigned m t = Some n.
Proof.
  intros n t m (N & D & V) M. assert (F : forallb is_digit t = true) by (apply forallb_forall; rewrite Forall_forall in D; exact D).
  unfold parse_unsigned. assert (E : (match t with 43 :: r => r | _ => t end) = t).
  { destruct t as [|c t]; auto. inversion D as [|? ? C _]; subst. apply digit_range in C.
    assert (c = 48 \/ c = 49 \/ c = 50 \/ c = 51 \/ c = 52 \/ c = 53 \/ c = 54 \/ c = 55 \/ c = 56 \/ c = 57) as X by lia. repeat (destruct X as [-> |X]; [reflexivity|]). subst. reflexivity. }
  rewrite E, F, V. destruct t; [congruence|]. cbn [is_nil]. apply Z.leb_le in M. rewrite M. reflexivity.
Qed.
Lemma parse_u8_ok : forall n t, decimal n t -> n <= 255 -> parse_u8 t = Ok n.
Proof.
  intros n t H M. assert (P : 0 <= n). { destruct H as (_ & D & <-). clear M. unfold digits_value. assert (G : forall l k, Forall (fun c => is_digit c = true) l -> 0 <= k -> 0 <= fold_left (fun n c => n * 10 + (c - 48)) l k).
    { induction l as [|c l IH]; intros k F K; auto. inversion F as [|? ? C F']; subst. apply digit_range in C. cbn. apply IH; auto. lia. } apply G; auto. lia. }
  unfold parse_u8, parse_i32. pose proof (parse_unsigned_ok n t 2147483647 H ltac:(lia)) as E. destruct H as (N & D & V). destruct t as [|c t]; [congruence|]. inversion D as [|? ? C _]; subst. apply digit_range in C.
  destruct (Z.eqb_spec c 45); [lia|]. rewrite E. destruct (Z.ltb_spec (digits_value (c :: t)) 0); [lia|]. destruct (Z.ltb_spec 255 (digits_value (c :: t))); [lia|]. reflexivity.
Qed.

(** A word between two pads. *)
Definition word (t : text) : Prop := t <> [] /\ Forall (fun c => small c /\ is_ws c = false /\ c <> 44 /\ c <> 41 /\ c <> 40) t.
Lemma digit_word : forall c, is_digit c = true -> small c /\ is_ws c = false /\ c <> 44 /\ c <> 41 /\ c <> 40.
Proof.
  intros c H. apply digit_range in H. assert (c = 48 \/ c = 49 \/ c = 50 \/ c = 51 \/ c = 52 \/ c = 53 \/ c = 54 \/ c = 55 \/ c = 56 \/ c = 57) as X by lia.
  repeat (destruct X as [-> |X]; [split; [split; lia|]; split; [reflexivity|lia]|]). subst. split; [split; lia|]; split; [reflexivity|lia].
Qed.
Lemma decimal_word : forall n t, decimal n t -> word t.
Proof. intros n t (N & D & _). split; auto. eapply Forall_impl; [|exact D]. intros c. apply digit_word. Qed.
Lemma numeric_word : forall t, t <> [] -> numeric t -> word t.
Proof. intros t N H. split; auto. eapply Forall_impl; [|exact H]. intros c [C|[-> |[-> |[-> | ->]]]]; [apply digit_word; auto| | | |]; (split; [split; lia|]; split; [reflexivity|lia]). Qed.
Lemma percent_word : forall t, word t -> word (t ++ [37]).
Proof. intros t [N H]. split; [destruct t; discriminate|]. apply Forall_app. split; auto. constructor; [|constructor]. split; [split; lia|]; split; [reflexivity|lia]. Qed.
Definition padded (p t q : text) : text := p ++ t ++ q.
Lemma padded_trim : forall p t q, blank p -> blank q -> word t -> trim (padded p t q) = t.
Proof. intros p t q P Q [N W]. destruct (solid_ends t N) as [A B]. { eapply Forall_impl; [|exact W]. intros c H. apply H. } apply trim_pad; auto. Qed.
Lemma blank_small : forall p, blank p -> Forall (fun c => small c /\ c <> 44 /\ c <> 41 /\ c <> 40) p.
Proof.
  intros p H. eapply Forall_impl; [|exact H]. intros c [W A]. unfold is_ws in W. rewrite !orb_true_iff, !andb_true_iff, !Z.leb_le, !Z.eqb_eq in W. unfold small. intuition lia.
Qed.
Lemma padded_chars : forall p t q, blank p -> blank q -> word t -> Forall (fun c => small c /\ c <> 44 /\ c <> 41 /\ c <> 40) (padded p t q).
Proof. intros p t q P Q [_ W]. unfold padded. rewrite !Forall_app. split; [apply blank_small; auto|]. split; [|apply blank_small; auto]. eapply Forall_impl; [|exact W]. intros c H. cbn beta in *. tauto. Qed.
Lemma not_in : forall (P : char -> Prop) c t, Forall P t -> ~ P c -> ~ In c t.
Proof. intros P c t H N I. rewrite Forall_forall in H. exact (N (H c I)). Qed.

(** Comma-separated padded words. *)
Fixpoint joined (l : list text) : text := match l with [] => [] | [a] => a | a :: r => a ++ 44 :: joined r end.
Lemma split_joined : forall l, l <> [] -> Forall (fun t => ~ In 44 t) l -> split_char 44 (joined l) = l.
Proof.
  induction l as [|a l IH]; intros N H; [congruence|]. inversion H; subst. destruct l as [|b l]. { apply split_char_one. auto. }
  cbn [joined]. rewrite split_char_cons by auto. f_equal. apply IH; auto. discriminate.
Qed.
Lemma joined_chars : forall (P : char -> Prop) l, P 44 -> Forall (Forall P) l -> Forall P (joined l).
Proof. intros P l C H. induction H as [|a l A H IH]; [constructor|]. destruct l as [|b l]; [exact A|]. cbn [joined]. apply Forall_app. split; auto. Qed.

Lemma parens_content : forall hd body rest, ~ In 40 hd -> ~ In 41 hd -> ~ In 41 body -> between_parens (hd ++ 40 :: body ++ 41 :: rest) = Ok body.
Proof.
  intros hd body rest H1 H2 B. unfold between_parens. rewrite split_at_first by auto.
  replace (hd ++ 40 :: body ++ 41 :: rest) with ((hd ++ 40 :: body) ++ 41 :: rest) by (rewrite <- app_assoc; reflexivity).
  rewrite split_at_first. 2: { rewrite in_app_iff. intros [X|[X|X]]; [tauto|lia|tauto]. }
  destruct (Nat.ltb_spec (length (hd ++ 40 :: body)) (length hd + 1)) as [X|X]. { rewrite app_length in X. cbn in X. lia. }
  f_equal. rewrite Nat.add_1_r. clear. induction hd as [|x hd IH]; auto.
Qed.

(** *** The shape of every outcome *)
Lemma parens_panic : forall t, between_parens t = Panic <-> exists a b, t = a ++ 41 :: b /\ ~ In 40 a /\ ~ In 41 a /\ In 40 b.
Proof.
  intros t. unfold between_parens. split.
  - destruct (split_at_char 40 t) as [[u v]|] eqn:E; [|discriminate]. destruct (split_at_char 41 t) as [[x y]|] eqn:F; [|discriminate].
    apply split_at_some in E. apply split_at_some in F. destruct E as [E N], F as [F M]. destruct (Nat.ltb_spec (length x) (length u + 1)) as [L|L]; [|discriminate]. intros _.
    exists x, y. rewrite E in F.
    assert (P : u = x \/ exists z, u = x ++ 41 :: z).
    { clear E. revert u y v N M L F. induction x as [|c x IH]; intros u y v N M L F.
      - destruct u as [|d u]; auto. right. exists u. cbn in F. injection F as -> _. reflexivity.
      - destruct u as [|d u]; [cbn in L; lia|]. cbn in F. injection F as -> F. destruct (IH u y v) as [-> |(z & ->)]; auto.
        + intros X. apply N. right. auto.
        + intros X. apply M. right. auto.
        + cbn in L. lia.
        + right. exists z. reflexivity. }
    destruct P as [-> |(z & ->)]. { apply app_inv_head in F. discriminate. }
    split; [rewrite E; exact F|]. split; [intros X; apply N; apply in_app_iff; auto|]. split; auto.
    rewrite <- app_assoc in F. apply app_inv_head in F. cbn in F. injection F as <-. apply in_app_iff. right. left. auto.
  - intros (a & b & -> & N & M & I). apply in_split in I. destruct I as (u & v & ->).
    destruct (split_at_char 40 (a ++ 41 :: u ++ 40 :: v)) as [[x y]|] eqn:E. 2: { apply split_at_none in E. destruct E. rewrite in_app_iff. right. right. rewrite in_app_iff. right. left. auto. }
    apply split_at_some in E. destruct E as [E K]. rewrite split_at_first by auto.
    match goal with |- context [Nat.ltb ?p ?q] => destruct (Nat.ltb_spec p q) as [L|L] end; [reflexivity|]. exfalso.
    apply N. assert (P : exists z, a = x ++ 40 :: z).
    { clear N M K. revert x y E L. induction a as [|c a IH]; intros x y E L; [cbn [List.length] in L; lia|]. destruct x as [|d x]; cbn in E; injection E as -> E; [exists a; reflexivity|]. destruct (IH x y E) as (z & ->); [cbn [List.length] in L; lia|]. exists z. reflexivity. }
    destruct P as (z & ->). apply in_app_iff. right. left. auto.
Qed.
Section P.
Variable rnd : Q -> Q.
Variable lc : char -> text.
Variable parse_float : text -> option Q.
Hypothesis L : lower_ok lc.
Lemma u8_no_panic : forall t, parse_u8 t <> Panic.
Proof. intros t. unfold parse_u8. destruct (parse_i32 t); [|discriminate]. destruct (_ || _); discriminate. Qed.
Lemma f32_no_panic : forall t, parse_f32 parse_float t <> Panic.
Proof. intros t. unfold parse_f32. destruct (parse_float t); discriminate. Qed.
Lemma pct_no_panic : forall t, parse_percentage rnd parse_float t <> Panic.
Proof. intros t. unfold parse_percentage. destruct (parse_float _); discriminate. Qed.
Lemma alpha_no_panic : forall t, alpha_part parse_float t <> Panic.
Proof. intros [|a t]; [discriminate|]. apply f32_no_panic. Qed.
Lemma bind_no_panic : forall (A B : Type) (r : res A) (f : A -> res B), r <> Panic -> (forall a, f a <> Panic) -> bind r f <> Panic.
Proof. intros A B [a| |] f H K; cbn; auto; discriminate. Qed.
Lemma rgb_panic : forall t, parse_rgb_func parse_float t = Panic <-> between_parens t = Panic.
Proof.
  intros t. unfold parse_rgb_func. destruct (between_parens t) as [c| |]; cbn [bind]; split; try discriminate; auto.
  intros H. exfalso. revert H. destruct (map trim (split_char 44 c)) as [|x [|y [|z m]]]; try discriminate.
  repeat (apply bind_no_panic; [solve [apply u8_no_panic | apply alpha_no_panic]|intro]). discriminate.
Qed.
Lemma hsl_panic : forall t, parse_hsl_func rnd parse_float t = Panic <-> between_parens t = Panic.
Proof.
  intros t. unfold parse_hsl_func. destruct (between_parens t) as [c| |]; cbn [bind]; split; try discriminate; auto.
  intros H. exfalso. revert H. destruct (map trim (split_char 44 c)) as [|x [|y [|z m]]]; try discriminate.
  repeat (apply bind_no_panic; [solve [apply f32_no_panic | apply pct_no_panic | apply alpha_no_panic]|intro]). destruct (hsl_to_rgb rnd _ _ _) as [[? ?] ?]. discriminate.
Qed.
Lemma named_no_panic : forall t, parse_named t <> Panic.
Proof. intros t. unfold parse_named. destruct (find_name t names) as [[[? ?] ?]|]; discriminate. Qed.
Lemma parse_panic : forall t, parse rnd lc parse_float t = Panic <->
  (exists r, lower lc (trim t) = str "rgb" ++ r \/ lower lc (trim t) = str "hsl" ++ r) /\ exists a b, lower lc (trim t) = a ++ 41 :: b /\ ~ In 40 a /\ ~ In 41 a /\ In 40 b.
Proof.
  intros t. rewrite <- parens_panic. unfold parse. destruct (trim t) as [|c rest] eqn:T.
  { split; [discriminate|]. intros [(r & [H|H]) _]; cbn in H; discriminate. }
  set (low := lower lc (c :: rest)). destruct (text_eqb low (str "auto")) eqn:A.
  { apply text_eqb_eq in A. split; [discriminate|]. intros [(r & [H|H]) _]; rewrite A in H; cbn in H; discriminate. }
  destruct (text_eqb low (str "transparent")) eqn:B.
  { apply text_eqb_eq in B. split; [discriminate|]. intros [(r & [H|H]) _]; rewrite B in H; cbn in H; discriminate. }
  destruct (Z.eqb_spec c 35) as [->|N].
  { split; [intros H; apply parse_hex_panic in H; destruct H|]. intros [(r & [H|H]) _]; unfold low, lower in H; cbn [flat_map] in H; rewrite (proj1 L 35) in H by lia; cbn in H; discriminate. }
  destruct (starts_with low (str "rgb")) eqn:R.
  { rewrite rgb_panic. apply starts_with_spec in R. destruct R as (r & R). split; [|tauto]. intros H. split; auto. exists r. auto. }
  destruct (starts_with low (str "hsl")) eqn:S.
  { rewrite hsl_panic. apply starts_with_spec in S. destruct S as (r & S). split; [|tauto]. intros H. split; auto. exists r. auto. }
  split. { intros H. destruct (named_no_panic low H). }
  intros [(r & [H|H]) _]; exfalso; [assert (X : starts_with low (str "rgb") = true) by (apply starts_with_spec; exists r; exact H)|assert (X : starts_with low (str "hsl") = true) by (apply starts_with_spec; exists r; exact H)]; congruence.
Qed.

(** *** Reading a function *)
Lemma func_low : forall w1 w2 hd name body, blank w1 -> blank w2 -> map ascii_lc hd = name -> Forall (fun c => 65 <= c <= 122) hd -> hd <> [] -> Forall small body ->
  trim (w1 ++ (hd ++ 40 :: body ++ [41]) ++ w2) = hd ++ 40 :: body ++ [41] /\ lower lc (hd ++ 40 :: body ++ [41]) = name ++ 40 :: body ++ [41].
Proof.
  intros w1 w2 hd name body W1 W2 M A N B. split.
  - apply trim_pad; auto.
    + destruct hd as [|c hd]; [congruence|]. inversion A; subst. cbn. unfold is_ws. 
      rewrite !orb_false_iff, !andb_false_iff, !Z.leb_gt, !Z.eqb_neq. lia.
    + rewrite rev_app_distr. cbn [rev]. rewrite rev_app_distr. reflexivity.
  - rewrite lower_app. rewrite lower_ascii; auto. 2: { eapply Forall_impl; [|exact A]. intros; cbn beta in *; lia. } rewrite M. f_equal. apply lower_small; auto. constructor; [split; lia|]. apply Forall_app. split; auto. constructor; [split; lia|constructor].
Qed.
Lemma func_start : forall hd body, hd <> [] -> exists c r, hd ++ 40 :: body = c :: r.
Proof. intros [|c hd] body H; [congruence|]. exists c, (hd ++ 40 :: body). reflexivity. Qed.
Lemma parse_func : forall w1 w2 hd name body, blank w1 -> blank w2 -> map ascii_lc hd = name -> Forall (fun c => 65 <= c <= 122) hd -> Forall small body ->
  (forall r, name = str "rgb" ++ r -> parse rnd lc parse_float (w1 ++ (hd ++ 40 :: body ++ [41]) ++ w2) = parse_rgb_func parse_float (name ++ 40 :: body ++ [41])) /\
  (forall r, name = str "hsl" ++ r -> parse rnd lc parse_float (w1 ++ (hd ++ 40 :: body ++ [41]) ++ w2) = parse_hsl_func rnd parse_float (name ++ 40 :: body ++ [41])).
Proof.
  assert (GO : forall w1 w2 hd name body p r, blank w1 -> blank w2 -> map ascii_lc hd = name -> Forall (fun c => 65 <= c <= 122) hd -> Forall small body -> (p = str "rgb" \/ p = str "hsl") -> name = p ++ r ->
    parse rnd lc parse_float (w1 ++ (hd ++ 40 :: body ++ [41]) ++ w2) = if starts_with (name ++ 40 :: body ++ [41]) (str "rgb") then parse_rgb_func parse_float (name ++ 40 :: body ++ [41]) else parse_hsl_func rnd parse_float (name ++ 40 :: body ++ [41])).
  { intros w1 w2 hd name body p r W1 W2 M A B P E. assert (N : hd <> []). { intros ->. cbn in M. subst name. destruct P as [-> | ->]; cbn in E; discriminate. }
    destruct (func_low w1 w2 hd name body W1 W2 M A N B) as [T Lo]. unfold parse. cbv zeta; rewrite T.
    destruct hd as [|c hd]; [congruence|]. change ((c :: hd) ++ 40 :: body ++ [41]) with (c :: (hd ++ 40 :: body ++ [41])) in Lo |- *. cbv iota. rewrite Lo.
    assert (C : (c =? 35) = false) by (inversion A; subst; apply Z.eqb_neq; lia). rewrite C.
    subst name. rewrite E. rewrite <- !app_assoc. set (x := r ++ 40 :: body ++ [41]). clearbody x.
    assert (F1 : text_eqb (p ++ x) (str "auto") = false) by (destruct P as [-> | ->]; reflexivity). assert (F2 : text_eqb (p ++ x) (str "transparent") = false) by (destruct P as [-> | ->]; reflexivity). rewrite F1, F2.
    destruct (starts_with (p ++ x) (str "rgb")) eqn:F3; auto. assert (F4 : starts_with (p ++ x) (str "hsl") = true). { destruct P as [-> | ->]; [|apply starts_with_spec; eauto]. assert (starts_with (str "rgb" ++ x) (str "rgb") = true) by (apply starts_with_spec; eauto). congruence. } rewrite F4. reflexivity. }
  intros w1 w2 hd name body W1 W2 M A B. split; intros r E.
  - rewrite (GO w1 w2 hd name body (str "rgb") r); auto. assert (X : starts_with (name ++ 40 :: body ++ [41]) (str "rgb") = true) by (apply starts_with_spec; rewrite E, <- app_assoc; eauto). rewrite X. reflexivity.
  - rewrite (GO w1 w2 hd name body (str "hsl") r); auto. rewrite E. reflexivity.
Qed.
End P.
Lemma body_ok : forall l, Forall (Forall (fun c => small c /\ c <> 44 /\ c <> 41 /\ c <> 40)) l -> l <> [] ->
  Forall small (joined l) /\ ~ In 41 (joined l) /\ split_char 44 (joined l) = l.
Proof.
  intros l H N. split; [|split].
  - apply joined_chars; [split; lia|]. eapply Forall_impl; [|exact H]. intros t T. eapply Forall_impl; [|exact T]. intros c; cbn beta; tauto.
  - apply (not_in (fun c => c <> 41)); [|tauto]. apply joined_chars; [lia|]. eapply Forall_impl; [|exact H]. intros t T. eapply Forall_impl; [|exact T]. intros c; cbn beta; tauto.
  - apply split_joined; auto. eapply Forall_impl; [|exact H]. intros t T. eapply (not_in (fun c => c <> 44)); [|tauto]. eapply Forall_impl; [|exact T]. intros c; cbn beta; tauto.
Qed.
Lemma name_clean : forall hd name, In name (map str ["rgb"; "rgba"; "hsl"; "hsla"]%string) -> map ascii_lc hd = name -> ~ In 40 name /\ ~ In 41 name.
Proof. intros hd name H _. cbn [map In] in H. repeat (destruct H as [<- |H]; [split; cbn; intuition lia|]). destruct H. Qed.

(** *** Names *)
Lemma names_found : forallb (fun e => match find_name (str (fst e)) names with Some (r, g, b) => match snd e with (x, y, z) => (r =? x) && (g =? y) && (b =? z) end | None => false end) names = true.
Proof. vm_compute. reflexivity. Qed.
Lemma names_plain : forallb (fun e => negb (text_eqb (str (fst e)) (str "auto")) && negb (text_eqb (str (fst e)) (str "transparent")) && negb (starts_with (str (fst e)) (str "rgb")) && negb (starts_with (str (fst e)) (str "hsl")) && negb (is_nil (str (fst e))) && forallb (fun c => (97 <=? c) && (c <=? 122)) (str (fst e))) names = true.
Proof. vm_compute. reflexivity. Qed.
Lemma find_name_in : forall t l v, find_name t l = Some v -> exists n, In (n, v) l /\ t = str n.
Proof. intros t. induction l as [|[n w] l IH]; intros v H; [discriminate|]. cbn in H. destruct (text_eqb t (str n)) eqn:E. { injection H as ->. apply text_eqb_eq in E. exists n. split; [left|]; auto. } destruct (IH v H) as (m & I & X). exists m. split; [right|]; auto. Qed.
