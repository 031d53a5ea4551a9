(** Proofs about the macros [ui!] and [widget!]. *)
From Coq Require Import ZArith List Bool Lia Permutation.
From Verif Require Import Text_Model Macro_Model Macro_Spec.
Import ListNotations.
Open Scope list_scope.

Fixpoint child_ind' (P : child -> Prop)
  (HW : forall n p a k, (forall l, k = Some l -> Forall P l) -> P (Widget n p a k))
  (HS : forall e, P (Splat e)) (c : child) : P c :=
  match c with
  | Splat e => HS e
  | Widget n p a k =>
      HW n p a k
        (match k as k0 return forall l, k0 = Some l -> Forall P l with
         | None => fun l H => ltac:(discriminate H)
         | Some l0 => fun l H =>
             eq_rect l0 (Forall P)
               ((fix go (l : list child) : Forall P l :=
                   match l with [] => Forall_nil P | c :: r => Forall_cons c (child_ind' P HW HS c) (go r) end) l0)
               l (f_equal (fun o => match o with Some x => x | None => l0 end) H)
         end)
  end.

Lemma writes_unfold strict n p a k toks :
  writes strict (Widget n p a k) toks <->
  exists round curly, toks = TIdent n :: round ++ curly /\
      (round = [] /\ p = [] /\ a = [] \/
       exists l, round = [TParen l] /\
         writes_arguments strict (map Plain p ++ map (fun a => Named (fst a) (snd a)) a) l) /\
      match k with
      | None => curly = []
      | Some cs => exists l, curly = [TBrace l] /\ writes_all strict cs l
      end.
Proof. reflexivity. Qed.

Lemma size_app a b : toks_size (a ++ b) = (toks_size a + toks_size b)%nat.
Proof. induction a as [ | x a IH]; [reflexivity | ]. cbn [app toks_size fold_right]. unfold toks_size in *. lia. Qed.
Lemma size_pos t : (1 <= tok_size t)%nat.
Proof. destruct t; cbn; lia. Qed.
Lemma length_size l : (length l <= toks_size l)%nat.
Proof. induction l as [ | t l IH]; [reflexivity | ]. pose proof (size_pos t). unfold toks_size in *. cbn. lia. Qed.
Lemma size_cons t l : toks_size (t :: l) = (tok_size t + toks_size l)%nat.
Proof. reflexivity. Qed.
Lemma skipn_size n l : (toks_size (skipn n l) <= toks_size l)%nat.
Proof.
  rewrite <- (firstn_skipn n l) at 2. rewrite size_app. lia.
Qed.

(** *** What is read is what is written *)
Section Sound.
Variable take : list tok -> option nat.
Lemma expr_split i e r : parse_expr take i = Good (e, r) -> i = e ++ r /\ e <> [].
Proof.
  unfold parse_expr. destruct i as [ | t i]; [discriminate | ]. destruct (take (t :: i)) as [n | ]; [ | discriminate].
  intros H. injection H as <- <-. split; [symmetry; exact (firstn_skipn (S n) (t :: i)) | cbn; discriminate].
Qed.
Lemma comma_split r : exists sep, r = sep ++ skip_comma r /\ (sep = [TComma] \/ sep = []).
Proof.
  destruct r as [ | t r]; [exists []; auto | ]. destruct t; cbn [skip_comma];
    try (exists []; split; [reflexivity | auto]; fail).
  exists [TComma]. auto.
Qed.
Lemma args_sound f : forall seen i p a, parse_args take f seen i = Good (p, a) ->
  writes_arguments false (map Plain p ++ map (fun a => Named (fst a) (snd a)) a) i /\ (seen = true -> p = []).
Proof.
  induction f as [ | f IH]; intros seen i p a H; [discriminate | ].
  assert (Pos : forall i p a, (if seen then Bad PositionalAfterNamed
     else match parse_expr take i with
          | Bad e => Bad e
          | Good (v, r) => match parse_args take f seen (skip_comma r) with Good (p, a) => Good (v :: p, a) | Bad e => Bad e end
          end) = Good (p, a) ->
     writes_arguments false (map Plain p ++ map (fun a => Named (fst a) (snd a)) a) i /\ (seen = true -> p = [])).
  { clear i p a H. intros i p a H. destruct seen; [discriminate | ].
    destruct (parse_expr take i) as [[v r] | e] eqn:E; [ | discriminate].
    destruct (parse_args take f false (skip_comma r)) as [[p' a'] | e] eqn:A; [ | discriminate].
    injection H as <- <-. destruct (IH _ _ _ _ A) as (W & _). apply expr_split in E. destruct E as (-> & _).
    split; [ | discriminate]. cbn [map app writes_arguments].
    destruct (comma_split r) as (sep & R & Sp). exists sep, (skip_comma r).
    split; [cbn [argument_tokens]; rewrite <- R; reflexivity | ]. split; [ | exact W]. destruct Sp as [-> | ->]; auto. }
  cbn [parse_args] in H.
  destruct i as [ | t i]; [injection H as <- <-; split; auto; reflexivity | ].
  destruct t as [n | | | | | l | l | k]; try (exact (Pos _ _ _ H)).
  destruct i as [ | t i]; [exact (Pos _ _ _ H) | ].
  destruct t as [n' | | | | | l | l | k]; try (exact (Pos _ _ _ H)). clear Pos.
  destruct (parse_expr take i) as [[v r] | e] eqn:E; [ | discriminate].
  destruct (parse_args take f true (skip_comma r)) as [[p' a'] | e] eqn:A; [ | discriminate].
  injection H as <- <-. destruct (IH _ _ _ _ A) as (W & N). rewrite (N eq_refl) in *. split; [ | auto].
  apply expr_split in E. destruct E as (-> & _). cbn [map app writes_arguments fst snd argument_tokens] in *.
  destruct (comma_split r) as (sep & R & S). exists sep, (skip_comma r).
  split; [rewrite <- R; reflexivity | ]. split; [ | exact W]. destruct S as [-> | ->]; auto.
Qed.
Lemma widget_sound kids i c r :
  (forall i l, kids i = Good l -> writes_all false l i) ->
  parse_widget take kids i = Good (c, r) -> exists t, i = t ++ r /\ writes false c t.
Proof.
  intros K H. unfold parse_widget in H. destruct i as [ | t i]; [discriminate | ].
  destruct t as [n | | | | | l | l | k]; try discriminate.
  destruct (match i with TParen l :: r => _ | _ => _ end) as [[[p a] r0] | e] eqn:A; [ | discriminate].
  assert (Q : exists round, i = round ++ r0 /\ (round = [] /\ p = [] /\ a = [] \/
       exists l, round = [TParen l] /\ writes_arguments false (map Plain p ++ map (fun a => Named (fst a) (snd a)) a) l)).
  { destruct i as [ | t i]; [injection A as <- <- <-; exists []; auto | ].
    destruct t; try (injection A as <- <- <-; exists []; auto; fail).
    destruct (parse_args take (S (length l)) false l) as [[p' a'] | e] eqn:B; [ | discriminate].
    injection A as <- <- <-. exists [TParen l]. split; [reflexivity | ]. right. exists l. split; [reflexivity | ].
    exact (proj1 (args_sound _ _ _ _ _ B)). }
  destruct Q as (round & -> & R). clear A.
  assert (N : forall r1, Good (Widget n p a None, r1) = Good (c, r) -> r1 = r0 -> exists t, TIdent n :: round ++ r0 = t ++ r /\ writes false c t).
  { intros r1 E ->. injection E as <- <-. exists (TIdent n :: round). split; [reflexivity | ].
    apply writes_unfold. exists round, []. split; [rewrite app_nil_r; reflexivity | ]. split; [exact R | reflexivity]. }
  destruct r0 as [ | t r0]; [exact (N _ H eq_refl) | ].
  destruct t; try (exact (N _ H eq_refl)). clear N.
  destruct (kids l) as [k | e] eqn:E; [ | discriminate]. injection H as <- <-.
  exists (TIdent n :: round ++ [TBrace l]). split; [cbn; rewrite <- app_assoc; reflexivity | ].
  apply writes_unfold. exists round, [TBrace l]. split; [reflexivity | ]. split; [exact R | ].
  exists l. split; [reflexivity | exact (K _ _ E)].
Qed.
Lemma item_sound kids i c r :
  (forall i l, kids i = Good l -> writes_all false l i) ->
  parse_child_item take kids i = Good (c, r) -> exists t, i = t ++ r /\ writes false c t.
Proof.
  intros K H. unfold parse_child_item in H. destruct i as [ | t i]; [discriminate | ].
  destruct t; try (exact (widget_sound kids _ _ _ K H)).
  destruct (parse_expr take i) as [[e r0] | e] eqn:E; [ | discriminate]. injection H as <- <-.
  apply expr_split in E. destruct E as (-> & _). exists (TDots :: e). split; reflexivity.
Qed.
Lemma items_sound f : forall i l, parse_items take f i = Good l -> writes_all false l i.
Proof.
  induction f as [ | f IH]; intros i l H; [discriminate | ]. cbn [parse_items] in H.
  destruct i as [ | t i]; [injection H as <-; reflexivity | ].
  destruct (parse_child_item take (parse_items take f) (t :: i)) as [[c r] | e] eqn:E; [ | discriminate].
  destruct (parse_items take f r) as [l' | e] eqn:R; [ | discriminate]. injection H as <-.
  destruct (item_sound _ _ _ _ IH E) as (x & -> & W). exists x, r. auto.
Qed.

(** *** Reading never stops for want of fuel *)
Lemma expr_rest i e r : parse_expr take i = Good (e, r) -> (length r < length i)%nat /\ (toks_size r < toks_size i)%nat.
Proof.
  intros H. apply expr_split in H. destruct H as (-> & N). rewrite app_length, size_app.
  destruct e as [ | t e]; [congruence | ]. pose proof (size_pos t). rewrite size_cons. cbn [length]. lia.
Qed.
Lemma comma_length r : (length (skip_comma r) <= length r)%nat.
Proof. destruct r as [ | t r]; [auto | ]. destruct t; cbn; lia. Qed.
Lemma expr_no_fuel i e : parse_expr take i = Bad e -> e = Syntax.
Proof. unfold parse_expr. destruct i; [congruence | ]. destruct (take _); congruence. Qed.
Lemma args_fuel f : forall seen i, (length i < f)%nat -> parse_args take f seen i <> Bad Fuel.
Proof.
  induction f as [ | f IH]; intros seen i L; [lia | ].
  assert (Pos : forall i, (length i < S f)%nat -> (if seen then Bad PositionalAfterNamed
     else match parse_expr take i with
          | Bad e => Bad e
          | Good (v, r) => match parse_args take f seen (skip_comma r) with Good (p, a) => Good (v :: p, a) | Bad e => Bad e end
          end) <> @Bad (list expr * list (text * expr)) Fuel).
  { clear i L. intros i L. destruct seen; [discriminate | ].
    destruct (parse_expr take i) as [[v r] | e] eqn:E; [ | apply expr_no_fuel in E; subst; discriminate].
    apply expr_rest in E. pose proof (comma_length r).
    pose proof (IH false (skip_comma r) ltac:(lia)) as F.
    destruct (parse_args take f false (skip_comma r)) as [[p' a'] | e]; [discriminate | congruence]. }
  cbn [parse_args]. destruct i as [ | t i]; [discriminate | ].
  destruct t as [n | | | | | l | l | k]; try (exact (Pos _ L)).
  destruct i as [ | t i]; [exact (Pos _ L) | ].
  destruct t as [n' | | | | | l | l | k]; try (exact (Pos _ L)). clear Pos.
  destruct (parse_expr take i) as [[v r] | e] eqn:E; [ | apply expr_no_fuel in E; subst; discriminate].
  apply expr_rest in E. pose proof (comma_length r). cbn in L.
  pose proof (IH true (skip_comma r) ltac:(lia)) as F.
  destruct (parse_args take f true (skip_comma r)) as [[p' a'] | e]; [discriminate | congruence].
Qed.
Lemma widget_fuel kids i :
  (forall l, (S (toks_size l) < toks_size i)%nat -> kids l <> Bad Fuel) ->
  parse_widget take kids i <> Bad Fuel.
Proof.
  intros K H. unfold parse_widget in H. destruct i as [ | t i]; [discriminate | ].
  destruct t as [n | | | | | l | l | k]; try discriminate.
  destruct (match i with TParen l :: r => _ | _ => _ end) as [[[p a] r0] | e] eqn:A.
  - assert (Q : (toks_size r0 <= toks_size i)%nat).
    { destruct i as [ | t i]; [injection A as <- <- <-; auto | ].
      destruct t; try (injection A as <- <- <-; auto; fail).
      destruct (parse_args take (S (length l)) false l) as [[p' a'] | e] eqn:B; [ | discriminate].
      injection A as <- <- <-. rewrite size_cons. lia. }
    destruct r0 as [ | t r0]; [discriminate | ]. destruct t; try discriminate.
    pose proof (K l) as F. rewrite !size_cons in *. cbn [tok_size] in *. fold (toks_size l) in *.
    destruct (kids l) as [k | e]; [discriminate | ]. injection H as ->. apply F; [lia | reflexivity].
  - injection H as ->. destruct i as [ | t i]; [discriminate | ]. destruct t; try discriminate.
    pose proof (args_fuel (S (length l)) false l ltac:(lia)) as F.
    destruct (parse_args take (S (length l)) false l) as [[p' a'] | e]; [discriminate | congruence].
Qed.
Lemma items_fuel f : forall i, (toks_size i < f)%nat -> parse_items take f i <> Bad Fuel.
Proof.
  induction f as [ | f IH]; intros i L; [lia | ]. cbn [parse_items]. destruct i as [ | t i]; [discriminate | ].
  destruct (parse_child_item take (parse_items take f) (t :: i)) as [[c r] | e] eqn:E.
  - destruct (item_sound (parse_items take f) _ _ _ (items_sound f) E) as (x & X & W).
    assert (NX : x <> []).
    { destruct c as [n p a k | e]; [apply writes_unfold in W; destruct W as (? & ? & -> & _); discriminate | cbn in W; subst; discriminate]. }
    rewrite X, size_app in L. destruct x as [ | t' x]; [congruence | ]. rewrite size_cons in L. pose proof (size_pos t').
    pose proof (IH r ltac:(lia)) as F. destruct (parse_items take f r); [discriminate | congruence].
  - intros H. injection H as ->. unfold parse_child_item in E.
    assert (B : forall l, (S (toks_size l) < toks_size (t :: i))%nat -> parse_items take f l <> Bad Fuel) by (intros l Hl; apply IH; lia).
    destruct t; try (exact (widget_fuel _ _ B E)).
    destruct (parse_expr take i) as [[e r0] | e] eqn:X; [discriminate | ]. apply expr_no_fuel in X. congruence.
Qed.
End Sound.

(** *** What is written is read *)
Section Complete.
Variable take : list tok -> option nat.
Lemma expr_read e rest : expression take e -> ends_expression rest -> parse_expr take (e ++ rest) = Good (e, rest).
Proof.
  intros (N & _ & T) E. specialize (T rest E). unfold parse_expr. destruct e as [ | t e]; [congruence | ].
  cbn [app] in *. rewrite T.
  change (t :: e ++ rest) with ((t :: e) ++ rest).
  replace (S (length (t :: e) - 1)) with (length (t :: e)) by (cbn; lia).
  rewrite firstn_app, Nat.sub_diag, firstn_all, firstn_O, app_nil_r, skipn_app, Nat.sub_diag, skipn_all, skipn_O. reflexivity.
Qed.
Definition ex_arg (a : argument) : expr := match a with Plain e => e | Named _ e => e end.
Lemma sep_ends strict (r : list argument) sep rest : (sep = [TComma] \/ sep = [] /\ (r = [] \/ strict = false)) -> strict = true ->
  writes_arguments strict r rest -> ends_expression (sep ++ rest) /\ skip_comma (sep ++ rest) = rest.
Proof.
  intros [-> | (-> & [-> | ->])] S W; [split; [exact I | reflexivity] | | discriminate].
  cbn in W. subst. split; [exact I | reflexivity].
Qed.
Lemma args_read f : forall p a i seen, (seen = true -> p = []) -> Forall (expression take) (p ++ map snd a) ->
  writes_arguments true (map Plain p ++ map (fun a => Named (fst a) (snd a)) a) i ->
  (length i < f)%nat -> parse_args take f seen i = Good (p, a).
Proof.
  induction f as [ | f IH]; intros p a i seen N F W L; [lia | ].
  destruct p as [ | e p].
  - destruct a as [ | [n e] a].
    + cbn in W. subst i. reflexivity.
    + cbn [map app fst snd writes_arguments argument_tokens] in *. destruct W as (sep & rest & -> & S & W).
      inversion F as [ | ? ? E Fr]; subst.
      destruct (sep_ends true _ sep rest S eq_refl W) as (En & Sk).
      cbn [parse_args app]. rewrite (expr_read e _ E En), Sk.
      rewrite (IH [] a rest true); auto.
      cbn [app length] in L. rewrite !app_length in L. lia.
  - cbn [map app writes_arguments argument_tokens] in *. destruct W as (sep & rest & -> & S & W).
    inversion F as [ | ? ? E Fr]; subst.
    destruct seen; [specialize (N eq_refl); discriminate | ].
    destruct (sep_ends true _ sep rest S eq_refl W) as (En & Sk).
    assert (R : match parse_expr take (e ++ sep ++ rest) with
          | Bad e => Bad e
          | Good (v, r) => match parse_args take f false (skip_comma r) with Good (p, a) => Good (v :: p, a) | Bad e => Bad e end
          end = Good (e :: p, a)).
    { rewrite (expr_read e _ E En), Sk. rewrite (IH p a rest false); auto; [discriminate | ].
      destruct E as (NE & _). destruct e; [congruence | ]. cbn [app length] in L. rewrite !app_length in L. lia. }
    destruct E as (NE & NN & _). cbn [parse_args].
    destruct e as [ | t e]; [congruence | ]. cbn [app] in *.
    destruct t; try exact R. destruct e as [ | t e].
    + cbn [app] in *. destruct S as [-> | (-> & [S | S])]; [exact R | | discriminate].
      cbn [app] in *. rewrite S in W. cbn in W. subst rest. exact R.
    + cbn [app] in *. destruct t; try exact R. exfalso. exact (NN _ _ eq_refl).
Qed.
Definition starts_item (rest : list tok) : Prop :=
  match rest with [] => True | TIdent _ :: _ => True | TDots :: _ => True | _ => False end.
Lemma writes_starts strict c t rest : writes strict c t -> starts_item (t ++ rest).
Proof.
  destruct c as [n p a k | e]; intros W; [apply writes_unfold in W; destruct W as (? & ? & -> & _) | cbn in W; subst]; exact I.
Qed.
Definition read_ok (c : child) : Prop := forall f toks rest,
  writes true c toks -> spaced c -> Forall (expression take) (expressions c) -> (toks_size toks <= S f)%nat ->
  starts_item rest -> (is_splat c = true -> ends_expression rest) ->
  parse_child_item take (parse_items take f) (toks ++ rest) = Good (c, rest).
Lemma items_read l : Forall read_ok l -> forall f i, writes_all true l i -> spaced_list l ->
  Forall spaced l -> Forall (expression take) (concat (map expressions l)) -> (toks_size i < f)%nat ->
  parse_items take f i = Good l.
Proof.
  induction l as [ | c l IH]; intros R f i W Sl Sp E L.
  - cbn in W. subst. destruct f; [lia | reflexivity].
  - destruct W as (t & r & -> & W & Wr). inversion R as [ | ? ? Rc Rl]; subst. inversion Sp as [ | ? ? Sc Spl]; subst.
    cbn [map concat] in E. apply Forall_app in E. destruct E as (Ec & El). rewrite size_app in L.
    destruct f as [ | f]; [lia | ].
    assert (Nt : t <> []).
    { destruct c; [apply writes_unfold in W; destruct W as (? & ? & -> & _) | cbn in W; subst]; discriminate. }
    assert (Lt : (1 <= toks_size t)%nat) by (destruct t as [ | x t]; [congruence | rewrite size_cons; pose proof (size_pos x); lia]).
    assert (St : starts_item r).
    { destruct l as [ | c' l]; [cbn in Wr; subst; exact I | ]. destruct Wr as (t' & r' & -> & W' & _). exact (writes_starts _ _ _ _ W'). }
    assert (En : is_splat c = true -> ends_expression r).
    { intros Q. destruct c as [ | e]; [discriminate | ]. destruct l as [ | c' l]; [cbn in Wr; subst; exact I | ].
      destruct Wr as (t' & r' & -> & W' & _). destruct c' as [ | e']; [ | destruct Sl].
      apply writes_unfold in W'. destruct W' as (? & ? & -> & _). exact I. }
    assert (Sr : spaced_list l) by (cbn in Sl; destruct c; [exact Sl | destruct l as [ | [ | ] ]; [exact I | exact Sl | destruct Sl]]).
    pose proof (Rc f t r W Sc Ec ltac:(lia) St En) as X.
    cbn [parse_items]. destruct (t ++ r) as [ | x y] eqn:TR; [destruct t; [congruence | discriminate] | ]. rewrite X.
    rewrite (IH Rl f r Wr Sr Spl El); [reflexivity | lia].
Qed.
Lemma fold_spaced l : fold_right (fun c p => spaced c /\ p) True l <-> Forall spaced l.
Proof.
  induction l as [ | c l IH]; [split; constructor | ]. cbn [fold_right]. rewrite IH. split.
  - intros (A & B). constructor; auto.
  - intros F. inversion F; subst; auto.
Qed.
Lemma widget_read n p a k kids toks rest : (forall l, k = Some l -> forall i, writes_all true l i -> (S (toks_size i) < toks_size toks)%nat -> kids i = Good l) ->
  writes true (Widget n p a k) toks -> Forall (expression take) (p ++ map snd a) -> starts_item rest ->
  parse_widget take kids (toks ++ rest) = Good (Widget n p a k, rest).
Proof.
  intros K W E St. apply writes_unfold in W. destruct W as (round & curly & -> & R & C).
  cbn [app parse_widget]. rewrite <- app_assoc.
  assert (Next : match curly ++ rest with TParen _ :: _ => False | _ => True end).
  { destruct k as [cs | ]; [destruct C as (l & -> & _); exact I | subst curly; cbn; destruct rest as [ | [] ]; auto; destruct St]. }
  assert (A : (match round ++ curly ++ rest with
             | TParen l :: r => match parse_args take (S (length l)) false l with
                                | Good (p, a) => Good (p, a, r)
                                | Bad e => Bad e
                                end
             | _ => Good ([], [], round ++ curly ++ rest)
             end) = Good (p, a, curly ++ rest)).
  { destruct R as [(-> & -> & ->) | (l & -> & Wl)].
    - cbn [app]. destruct (curly ++ rest) as [ | [] ]; auto; destruct Next.
    - cbn [app]. rewrite (args_read (S (length l)) p a l false); auto; discriminate. }
  rewrite A. clear A. destruct k as [cs | ].
  - destruct C as (l & -> & Wl). cbn [app]. rewrite (K cs eq_refl l Wl); [reflexivity | ].
    rewrite size_cons, size_app, size_cons. cbn [tok_size]. fold (toks_size l). lia.
  - subst curly. cbn [app]. destruct rest as [ | [] ]; auto; destruct St.
Qed.
Lemma all_read c : read_ok c.
Proof.
  induction c as [n p a k IH | e] using child_ind'; intros f toks rest W Sp E L St En.
  - unfold parse_child_item.
    assert (X : parse_widget take (parse_items take f) (toks ++ rest) = Good (Widget n p a k, rest)).
    { apply widget_read; auto.
      - intros l -> i Wi Li. cbn [spaced] in Sp. destruct Sp as (S1 & S2). apply fold_spaced in S2.
        cbn [expressions] in E. rewrite app_assoc in E. apply Forall_app in E. destruct E as (_ & E).
        apply items_read; auto. lia.
      - cbn [expressions] in E. rewrite app_assoc in E. apply Forall_app in E. tauto. }
    pose proof W as W'. apply writes_unfold in W'. destruct W' as (? & ? & -> & _). exact X.
  - cbn in W. subst toks. cbn [app parse_child_item]. cbn [expressions] in E. inversion E as [ | ? ? Ee _]; subst.
    rewrite (expr_read e rest Ee (En eq_refl)). reflexivity.
Qed.
Lemma root_read l i : l <> [] -> writes_all true l i -> spaced_list l -> Forall spaced l ->
  Forall (expression take) (concat (map expressions l)) -> parse_root take i = Good l.
Proof.
  intros N W S1 S2 E. unfold parse_root. rewrite (items_read l); auto; [destruct l; [congruence | reflexivity] | ].
  apply Forall_forall. intros; apply all_read.
Qed.
Lemma single_read n p a k i : let c := Widget n p a k in writes true c i -> spaced c ->
  Forall (expression take) (expressions c) -> parse_single take i = Good c.
Proof.
  cbn zeta. intros W Sp E. unfold parse_single.
  pose proof (all_read _ (S (toks_size i)) i [] W Sp E ltac:(lia) I ltac:(discriminate)) as X.
  rewrite app_nil_r in X. pose proof W as W'. apply writes_unfold in W'. destruct W' as (? & ? & -> & _).
  unfold parse_child_item in X. rewrite X. reflexivity.
Qed.
End Complete.

(** *** Running the code *)
Section Run.
Variable contents : expr -> list value.
Notation run := (run contents).
Notation stands_for := (stands_for contents).
Definition ran (c : child) : Prop :=
  match c with Widget _ _ _ _ => run (generate_widget c) = (hd (Foreign 0) (stands_for c), evaluation c) | Splat _ => True end.
Definition stmt (c : child) : code := match c with Widget _ _ _ _ => Push (generate_widget c) | Splat e => Extend e end.
Lemma vec_run l : Forall ran l -> run (generate_children_vec l) = (Many (concat (map stands_for l)), concat (map evaluation l)).
Proof.
  intros R. unfold generate_children_vec. fold stmt. destruct (existsb is_splat l) eqn:X.
  - cbn [Macro_Model.run]. rewrite !map_map. f_equal; [f_equal | ]; f_equal; apply map_ext_in; intros c In;
      rewrite Forall_forall in R; specialize (R c In); destruct c as [n p a k | e]; try reflexivity;
      cbn [stmt Macro_Model.run fst snd elements]; cbn [ran] in R; rewrite R; reflexivity.
  - cbn [Macro_Model.run]. rewrite !map_map.
    assert (W : forall c, In c l -> exists n p a k, c = Widget n p a k).
    { intros c In. destruct c as [n p a k | e]; [eauto | ]. exfalso.
      assert (true = false); [ | discriminate]. rewrite <- X. symmetry. apply existsb_exists. exists (Splat e). auto. }
    assert (Y : map (fun x => fst (run (generate_widget x))) l = concat (map stands_for l)).
    { clear X. induction l as [ | c l IH]; [reflexivity | ]. inversion R as [ | ? ? Rc Rl]; subst.
      cbn [map concat]. rewrite (IH Rl) by (intros; apply W; right; auto).
      destruct (W c (or_introl eq_refl)) as (n & p & a & k & ->). cbn [ran] in Rc. rewrite Rc. reflexivity. }
    rewrite Y. f_equal. f_equal. apply map_ext_in. intros c In. rewrite Forall_forall in R. specialize (R c In).
    destruct (W c In) as (n & p & a & k & ->). cbn [ran] in R. rewrite R. reflexivity.
Qed.
Lemma vals_run p : map (fun a => fst (run a)) (map Val p) = map Opaque p /\ concat (map (fun a => snd (run a)) (map Val p)) = p.
Proof. induction p as [ | e p (A & B)]; [split; reflexivity | ]. cbn. rewrite A, B. auto. Qed.
Lemma calls_exprs a : map snd (attr_calls a) = map snd a.
Proof. unfold attr_calls. rewrite map_map. reflexivity. Qed.
Lemma generate_some n p a l : generate_widget (Widget n p a (Some l)) = New n (map Val p ++ [generate_children_vec l]) (attr_calls a).
Proof. cbn [generate_widget]. fold (generate_children_vec l). destruct p, a; reflexivity. Qed.
Lemma run_new n args calls : run (New n args calls) = (Made n (map (fun a => fst (run a)) args) calls, concat (map (fun a => snd (run a)) args) ++ map snd calls).
Proof. reflexivity. Qed.
Lemma all_ran c : ran c.
Proof.
  induction c as [n p a k IH | e] using child_ind'; [ | exact I]. cbn [ran].
  destruct (vals_run p) as (A & B). destruct k as [l | ].
  - rewrite generate_some, run_new, !map_app, concat_app, A, B, calls_exprs.
    cbn [map]. rewrite (vec_run l (IH l eq_refl)). cbn [fst snd concat Macro_Spec.stands_for evaluation hd].
    rewrite app_nil_r, <- app_assoc. reflexivity.
  - cbn [generate_widget]. rewrite run_new, A, B, calls_exprs. cbn [Macro_Spec.stands_for evaluation hd app]. rewrite app_nil_r. reflexivity.
Qed.
End Run.
Lemma once c : Permutation (evaluation c) (expressions c).
Proof.
  induction c as [n p a k IH | e] using child_ind'; [ | constructor; constructor]. cbn [evaluation expressions].
  apply Permutation_app_head. destruct k as [l | ].
  - rewrite Permutation_app_comm. apply Permutation_app_head. specialize (IH l eq_refl).
    induction l as [ | c l IHl]; [constructor | ]. inversion IH; subst. cbn [map concat]. apply Permutation_app; auto.
  - rewrite app_nil_r. constructor || apply Permutation_refl.
Qed.
(** *** Rejections *)
Section Reject.
Variable take : list tok -> option nat.
Lemma late_positional f : forall p a e more i seen, (seen = true -> p = []) -> (a = [] -> seen = true) ->
  Forall (expression take) (p ++ map snd a) -> e <> [] -> (forall n r, e <> TIdent n :: TColon :: r) ->
  writes_arguments true (map Plain p ++ map (fun a => Named (fst a) (snd a)) a ++ Plain e :: more) i ->
  (length i < f)%nat -> parse_args take f seen i = Bad PositionalAfterNamed.
Proof.
  induction f as [ | f IH]; intros p a e more i seen N A F Ne Nc W L; [lia | ].
  destruct p as [ | v p].
  - destruct a as [ | [n v] a].
    + cbn [map app writes_arguments argument_tokens] in W. destruct W as (sep & rest & -> & S & W).
      rewrite (A eq_refl). cbn [parse_args]. destruct e as [ | t e]; [congruence | ]. cbn [app].
      destruct t; try reflexivity. destruct e as [ | t e].
      * cbn [app]. destruct S as [-> | (-> & [-> | S])]; [reflexivity | | discriminate]. cbn in W. subst. reflexivity.
      * cbn [app]. destruct t; try reflexivity. exfalso. exact (Nc _ _ eq_refl).
    + cbn [map app fst snd writes_arguments argument_tokens] in *. destruct W as (sep & rest & -> & S & W).
      inversion F as [ | ? ? E Fr]; subst.
      destruct (sep_ends true _ sep rest S eq_refl W) as (En & Sk).
      cbn [parse_args app]. rewrite (expr_read take v _ E En), Sk.
      rewrite (IH [] a e more rest true); auto.
      cbn [app length] in L. rewrite !app_length in L. lia.
  - destruct seen; [specialize (N eq_refl); discriminate | ].
    cbn [map app writes_arguments argument_tokens] in *. destruct W as (sep & rest & -> & S & W).
    inversion F as [ | ? ? E Fr]; subst.
    destruct (sep_ends true _ sep rest S eq_refl W) as (En & Sk).
    assert (R : match parse_expr take (v ++ sep ++ rest) with
          | Bad e => Bad e
          | Good (v, r) => match parse_args take f false (skip_comma r) with Good (p, a) => Good (v :: p, a) | Bad e => Bad e end
          end = @Bad (list expr * list (text * expr)) PositionalAfterNamed).
    { rewrite (expr_read take v _ E En), Sk. rewrite (IH p a e more rest false); auto; [discriminate | ].
      destruct E as (NE & _). destruct v; [congruence | ]. cbn [app length] in L. rewrite !app_length in L. lia. }
    destruct E as (NE & NN & _). cbn [parse_args].
    destruct v as [ | t v]; [congruence | ]. cbn [app] in *.
    destruct t; try exact R. destruct v as [ | t v].
    + cbn [app] in *. destruct S as [-> | (-> & [S | S])]; [exact R | | discriminate].
      destruct (map Plain p); [destruct a as [ | ? ? ]; discriminate | discriminate].
    + cbn [app] in *. destruct t; try exact R. exfalso. exact (NN _ _ eq_refl).
Qed.
End Reject.
