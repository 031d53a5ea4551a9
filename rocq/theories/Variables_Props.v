(** C79: variables of a stylesheet. *)
From Coq Require Import String ZArith List Bool Lia.
From Verif Require Import Text_Model Variables_Model Variables_Spec Variables_Proofs.
Import ListNotations.
Open Scope Z_scope.
Open Scope list_scope.

Lemma ascii_like : alnum_like ascii_alnum.
Proof.
  split; [reflexivity|]. intros c H. unfold ascii_alnum, is_ws in *.
  destruct ((48 <=? c) && (c <=? 57)) eqn:E1; destruct ((65 <=? c) && (c <=? 90)) eqn:E2; destruct ((97 <=? c) && (c <=? 122)) eqn:E3; try reflexivity; exfalso;
  rewrite ?Bool.andb_true_iff, ?Z.leb_le in *; rewrite !Bool.orb_true_iff, !Bool.andb_true_iff, !Z.leb_le, !Z.eqb_eq in H; lia.
Qed.

Section Unicode.
Variable alnum : char -> bool.   (* char::is_alphanumeric *)
Hypothesis A : alnum_like alnum.

(** Every line that defines a variable disappears; in every other line every
    reference is replaced by the value in the last definition of that variable
    anywhere in the source, references to undefined variables and all other
    characters stay, and the value is inserted as it stands. *)
Theorem C79_references_become_values : forall ls t, source alnum ls t ->
  means ls ls (resolve_variables alnum t (extract_variables t)).
Proof. exact (resolves alnum A). Qed.

(** That fixes the result. *)
Theorem C79_result_is_determined : forall ls t o, source alnum ls t -> means ls ls o ->
  resolve_variables alnum t (extract_variables t) = o.
Proof. intros ls t o S M. exact (means_unique ls ls _ _ (resolves alnum A ls t S) M). Qed.

(** The value of a variable: exactly what its last definition says. *)
Theorem C79_last_definition : forall ls t n v, source alnum ls t ->
  (resolve (extract_variables t) n = Some v <-> valued ls n v).
Proof.
  intros ls t n v [ts [W [N [T [C1 C2]]]]]. unfold extract_variables. rewrite (lines_of ts t N T).
  rewrite (extract_defs alnum A ls ts []); [|exact W|].
  - rewrite resolve_defs. split; [intros [H|[_ H]]; [exact H|discriminate]|intro H; left; exact H].
  - apply Forall_forall. intros x I.
    assert (G : forall p, (forall a b, t <> a ++ p ++ b) -> contains_str (trim x) p = false).
    { intros p Np. destruct (contains_str (trim x) p) eqn:E; [|reflexivity]. apply contains_ex in E. destruct E as [a [b E]].
      destruct (line_factor ts t x p T I) as [u [w F]]; [|exfalso; exact (Np _ _ F)].
      destruct (trim_factor x) as [a' [b' [F _]]]. exists (a' ++ a), (b ++ b'). rewrite E in F. rewrite F at 1. rewrite <- !app_assoc. reflexivity. }
    split; apply G; assumption.
Qed.

(** A source without '$' is left alone, whatever variables are defined; the
    last line gets its newline. *)
Theorem C79_without_variables : forall t vs, ~ In 36 t -> ~ In 13 t -> (forall a b, t <> a ++ [47; 42] ++ b) ->
  resolve_variables alnum t vs = t \/ resolve_variables alnum t vs = t ++ [10].
Proof.
  intros t vs D R C. unfold resolve_variables. rewrite drop_none by exact C. clear C.
  assert (G : forall ls : list text, Forall (fun x => ~ In 36 x) ls ->
    flat_map (fun line => if starts_with (trim line) [36] then [] else resolve_line alnum vs None line ++ [10]) ls = flat ls).
  { induction 1 as [|x ls H F IH]; [reflexivity|]. cbn [flat flat_map]. fold (flat ls). rewrite IH.
    destruct (starts_with (trim x) [36]) eqn:E.
    - exfalso. apply starts_ex in E. destruct E as [r E]. destruct (trim_factor x) as [a [b [F1 _]]]. apply H. rewrite F1, E. apply in_or_app. right. left. reflexivity.
    - f_equal. f_equal. rewrite <- (app_nil_r x) at 1. rewrite resolve_lit by exact H. cbn. apply app_nil_r. }
  assert (L : Forall (fun x => ~ In 36 x) (lines t) /\ (flat (lines t) = t \/ flat (lines t) = t ++ [10])).
  { unfold lines. assert (K : split_char 10 t <> []) by (destruct t as [|c t]; cbn; [discriminate|destruct (c =? 10); [discriminate|destruct (split_char 10 t); discriminate]]).
    assert (P : forall c, ~ In c t -> Forall (fun x => ~ In c x) (split_char 10 t)).
    { clear. intros c. induction t as [|x t IH]; intro H; [repeat constructor; intros []|]. cbn.
      assert (Ht : ~ In c t) by (intro I; apply H; right; exact I). assert (x <> c) by (intro; subst; apply H; left; reflexivity).
      destruct (x =? 10); [constructor; [intros []|apply IH; exact Ht]|]. specialize (IH Ht). destruct (split_char 10 t); inversion IH; subst.
      - repeat constructor. intros [E|[]]. contradiction.
      - constructor; [|assumption]. intros [E|E]; contradiction. }
    pose proof (P 36 D) as P36. pose proof (P 13 R) as P13. clear P.
    assert (Q : flat (split_char 10 t) = t ++ [10]).
    { clear. induction t as [|x t IH]; [reflexivity|]. cbn. destruct (x =? 10) eqn:E.
      - apply Z.eqb_eq in E. subst. cbn [flat flat_map app]. fold (flat (split_char 10 t)). rewrite IH. reflexivity.
      - destruct (split_char 10 t) as [|p ps]; [destruct t; discriminate|]. cbn [flat flat_map app] in *. rewrite <- IH. reflexivity. }
    assert (M : Forall (fun x => ~ In 36 x) (cut_lines (split_char 10 t)) /\ (flat (cut_lines (split_char 10 t)) = flat (split_char 10 t) \/ flat (cut_lines (split_char 10 t)) ++ [10] = flat (split_char 10 t))).
    { clear - P36 P13 K. induction (split_char 10 t) as [|x l IH]; [contradiction|]. inversion P36; inversion P13; subst. destruct l as [|y l].
      - cbn. destruct x; [split; [constructor|right; reflexivity]|split; [constructor; [assumption|constructor]|left; reflexivity]].
      - destruct IH as [I1 I2]; [first [discriminate|assumption]|first [discriminate|assumption]|first [discriminate|assumption]|].
        change (cut_lines (x :: y :: l)) with (chop_cr x :: cut_lines (y :: l)). rewrite chop_no by assumption.
        split; [constructor; assumption|]. cbn [flat flat_map]. fold (flat (cut_lines (y :: l))). destruct I2 as [I2|I2]; [left|right].
        + rewrite I2. reflexivity.
        + etransitivity; [symmetry; apply app_assoc|]. apply f_equal. exact I2. }
    destruct M as [M1 [M2|M2]]; (split; [exact M1|]); rewrite Q in M2; [right; exact M2|]. left. apply app_inj_tail in M2. destruct M2 as [M2 _]. exact M2. }
  destruct L as [L1 L2]. rewrite G by exact L1. exact L2.
Qed.
End Unicode.

(** A source with a definition between two uses, a redefinition and an undefined
    (theme) variable. *)
Definition example_lines : list line :=
  [Code [Lit (str "A { color: "); Ref (str "c1"); Lit (str "; }")];
   Def (str "c1") (str "red");
   Code [Lit (str "B { margin: "); Ref (str "m"); Lit (str " "); Ref (str "m"); Ref (str "primary"); Lit (str ";")];
   Def (str "m") (str "1"); Def (str "m") (str "2")].
Definition example_text : text :=
  str "A { color: $c1; }" ++ [10] ++ str "  $c1 : red;" ++ [10] ++ str "B { margin: $m $m$primary;" ++ [10] ++ str "$m:1" ++ [10] ++ str "$m: 2; ".
Ltac names := unfold Variables_Spec.name, Variables_Spec.in_name; repeat (apply Forall_cons; [vm_compute; tauto|]); apply Forall_nil.
Ltac blanks := unfold blank; repeat (apply Forall_cons; [vm_compute; reflexivity|]); apply Forall_nil.
Lemma no_factor : forall p t, contains_str t p = false -> forall a b, t <> a ++ p ++ b.
Proof. intros p t H a b E. assert (contains_str t p = true) by (apply contains_ex; exists a, b; exact E). congruence. Qed.
Lemma code_not_def : forall t c r w, trim_start t = c :: r -> c <> 36 -> Variables_Spec.blank w -> forall q, t <> w ++ 36 :: q.
Proof.
  intros t c r w H N B q ->. rewrite (Keys_Proofs.trim_start_app w) in H by exact B. cbn in H. injection H as <- _. contradiction.
Qed.
Lemma example_source : source ascii_alnum example_lines example_text.
Proof.
  exists [str "A { color: $c1; }"; str "  $c1 : red;"; str "B { margin: $m $m$primary;"; str "$m:1"; str "$m: 2; "].
  split; [|split; [|split; [|split]]].
  - repeat apply Forall2_cons; [| | | | |apply Forall2_nil].
    + change (str "A { color: $c1; }") with (flat_map piece_text [Lit (str "A { color: "); Ref (str "c1"); Lit (str "; }")]). constructor.
      * repeat (apply Forall_cons; [first [names|vm_compute; intuition discriminate]|]); apply Forall_nil.
      * vm_compute. intuition discriminate.
      * intros w r B. eapply code_not_def; [vm_compute; reflexivity|discriminate|exact B].
    + change (str "  $c1 : red;") with (str "  " ++ [36] ++ str "c1" ++ str " " ++ [58] ++ str " " ++ str "red" ++ [59] ++ []).
      constructor; [blanks|blanks|blanks|blanks|names|reflexivity|left; reflexivity].
    + change (str "B { margin: $m $m$primary;") with (flat_map piece_text [Lit (str "B { margin: "); Ref (str "m"); Lit (str " "); Ref (str "m"); Ref (str "primary"); Lit (str ";")]). constructor.
      * repeat (apply Forall_cons; [first [names|vm_compute; intuition discriminate]|]); apply Forall_nil.
      * vm_compute. intuition discriminate.
      * intros w r B. eapply code_not_def; [vm_compute; reflexivity|discriminate|exact B].
    + change (str "$m:1") with ([] ++ [36] ++ str "m" ++ [] ++ [58] ++ [] ++ str "1" ++ [] ++ []).
      constructor; [blanks|blanks|blanks|blanks|names|reflexivity|right; split; [reflexivity|split; [reflexivity|discriminate]]].
    + change (str "$m: 2; ") with ([] ++ [36] ++ str "m" ++ [] ++ [58] ++ str " " ++ str "2" ++ [59] ++ str " ").
      constructor; [blanks|blanks|blanks|blanks|names|reflexivity|left; reflexivity].
  - repeat (apply Forall_cons; [vm_compute; split; intuition discriminate|]); apply Forall_nil.
  - right. split; [reflexivity|discriminate].
  - apply no_factor. reflexivity.
  - apply no_factor. reflexivity.
Qed.
Example C79_example : resolve_variables ascii_alnum example_text (extract_variables example_text)
  = str "A { color: red; }" ++ [10] ++ str "B { margin: 2 2$primary;" ++ [10].
Proof. vm_compute. reflexivity. Qed.
Example C79_example_without : ~ In 36 (str "A { }") /\ resolve_variables ascii_alnum (str "A { }") [] = str "A { }" ++ [10].
Proof. split; [vm_compute; intuition discriminate|vm_compute; reflexivity]. Qed.

(** Values are not searched for references: a variable defined through another
    one is inserted as the other's name. *)
Theorem C79_nested_values_refuted : exists ls t n v, source ascii_alnum ls t /\ In (Def (str "a") (36 :: n)) ls /\ valued ls n v
  /\ resolve_variables ascii_alnum t (extract_variables t) = str "A { width: $b; }" ++ [10].
Proof.
  exists [Def (str "b") (str "1"); Def (str "a") (str "$b"); Code [Lit (str "A { width: "); Ref (str "a"); Lit (str "; }")]],
    (str "$b:1;" ++ [10] ++ str "$a:$b;" ++ [10] ++ str "A { width: $a; }" ++ [10]), (str "b"), (str "1").
  split; [|split; [|split]].
  - exists [str "$b:1;"; str "$a:$b;"; str "A { width: $a; }"]. split; [|split; [|split; [|split]]].
    + repeat apply Forall2_cons; [| | |apply Forall2_nil].
      * change (str "$b:1;") with ([] ++ [36] ++ str "b" ++ [] ++ [58] ++ [] ++ str "1" ++ [59] ++ []).
        constructor; [blanks|blanks|blanks|blanks|names|reflexivity|left; reflexivity].
      * change (str "$a:$b;") with ([] ++ [36] ++ str "a" ++ [] ++ [58] ++ [] ++ str "$b" ++ [59] ++ []).
        constructor; [blanks|blanks|blanks|blanks|names|reflexivity|left; reflexivity].
      * change (str "A { width: $a; }") with (flat_map piece_text [Lit (str "A { width: "); Ref (str "a"); Lit (str "; }")]). constructor.
        -- repeat (apply Forall_cons; [first [names|vm_compute; intuition discriminate]|]); apply Forall_nil.
        -- vm_compute. intuition discriminate.
        -- intros w r B. eapply code_not_def; [vm_compute; reflexivity|discriminate|exact B].
    + repeat (apply Forall_cons; [vm_compute; split; intuition discriminate|]); apply Forall_nil.
    + left. reflexivity.
    + apply no_factor. reflexivity.
    + apply no_factor. reflexivity.
  - right. left. reflexivity.
  - exists [], [Def (str "a") (str "$b"); Code [Lit (str "A { width: "); Ref (str "a"); Lit (str "; }")]]. split; [reflexivity|].
    intros w [H|[H|[]]]; discriminate.
  - vm_compute. reflexivity.
Qed.

(** What follows a definition on its line belongs to the value: a rule there is
    lost, and so is a second definition. *)
Theorem C79_rest_of_line_refuted :
  resolve_variables ascii_alnum (str "$a: 1; B { width: 2; }" ++ [10]) (extract_variables (str "$a: 1; B { width: 2; }" ++ [10])) = []
  /\ resolve (extract_variables (str "$a: 1; $b: 2;")) (str "b") = None
  /\ resolve (extract_variables (str "$a: 1; $b: 2;")) (str "a") = Some (str "1; $b: 2").
Proof. vm_compute. repeat split. Qed.

(** ** Comments and line ends *)

Lemma drop_inside : forall t, (forall a b, t <> a ++ [42; 47] ++ b) -> drop_blocks true t = [].
Proof.
  induction t as [|c r IH]; intro H; [reflexivity|]. cbn. destruct r as [|d r']; [reflexivity|].
  destruct ((c =? 42) && (d =? 47)) eqn:E.
  - apply andb_true_iff in E as [E1 E2]. apply Z.eqb_eq in E1, E2. subst. destruct (H [] r' eq_refl).
  - apply IH. intros a b K. apply (H (c :: a) b). rewrite K. reflexivity.
Qed.
Lemma drop_body : forall body r, (forall a b, body ++ [42; 47] = a ++ [42; 47] ++ b -> b = []) ->
  drop_blocks true (body ++ [42; 47] ++ r) = drop_blocks false r.
Proof.
  induction body as [|c body IH]; intros r H; [reflexivity|].
  assert (IHr : drop_blocks true (body ++ [42; 47] ++ r) = drop_blocks false r).
  { apply IH. intros a b E. apply (H (c :: a) b). cbn [app] in E |- *. rewrite E. reflexivity. }
  change ((c :: body) ++ [42; 47] ++ r) with (c :: (body ++ [42; 47] ++ r)). destruct (body ++ [42; 47] ++ r) as [|d r'] eqn:R; [destruct body; discriminate|].
  cbn [drop_blocks]. destruct ((c =? 42) && (d =? 47)) eqn:E; [|exact IHr]. exfalso.
  apply andb_true_iff in E as [E1 E2]. apply Z.eqb_eq in E1, E2. subst. destruct body as [|x body]; cbn [app] in R; [discriminate|]. injection R as -> _.
  specialize (H [] (body ++ [42; 47]) eq_refl). destruct body; discriminate.
Qed.
Lemma drop_stripped : forall t o, stripped t o -> drop_blocks false t = o.
Proof.
  induction 1 as [|c r o N S IH|body r o N S IH|body N].
  - reflexivity.
  - cbn. destruct r as [|d r']; [inversion S; reflexivity|].
    destruct ((c =? 47) && (d =? 42)) eqn:E; [|rewrite IH; reflexivity].
    apply andb_true_iff in E as [E1 E2]. apply Z.eqb_eq in E1, E2. subst. destruct (N r' eq_refl).
  - change ([47; 42] ++ body ++ [42; 47] ++ r) with (47 :: 42 :: body ++ [42; 47] ++ r). cbn [drop_blocks]. change ((47 =? 47) && (42 =? 42)) with true. cbn iota.
    rewrite drop_body by exact N. exact IH.
  - change ([47; 42] ++ body) with (47 :: 42 :: body). cbn [drop_blocks]. change ((47 =? 47) && (42 =? 42)) with true. cbn iota. apply drop_inside, N.
Qed.

(** Comments make no difference: the outcome is that for the text without them. *)
Theorem C79_comments : forall alnum t o vs, stripped t o -> (forall a b, o <> a ++ [47; 42] ++ b) ->
  resolve_variables alnum t vs = resolve_variables alnum o vs.
Proof. intros alnum t o vs S N. unfold resolve_variables. rewrite (drop_stripped t o S), (drop_none o N). reflexivity. Qed.
Print Assumptions C79_comments.
Lemma example_stripped : stripped (str "A/*/ x */B/*") (str "AB").
Proof.
  apply st_char; [discriminate|]. apply (st_comment (str "/ x ") (str "B/*") (str "B")).
  - intros a b. change (str "/ x " ++ [42; 47]) with [47; 32; 120; 32; 42; 47]. intros E.
    repeat (destruct a as [|? a]; cbn [app] in E; [first [discriminate E|injection E as <-; reflexivity]|first [discriminate E|injection E as _ E]]).
  - apply st_char; [discriminate|]. apply (st_open []). intros [|? [|? ?]] b; discriminate.
Qed.

(** Every text can be stripped. *)
Theorem C79_comments_end : forall t, exists o, stripped t o.
Proof.
  intros t. remember (length t) as n eqn:L. assert (Hn : (length t <= n)%nat) by lia. clear L. revert t Hn. induction n as [|n IH]; intros t Hn.
  - destruct t; [exists []; constructor|cbn in Hn; lia].
  - destruct t as [|c r]; [exists []; constructor|]. cbn [length] in Hn.
    destruct (starts_with (c :: r) [47; 42]) eqn:E.
    + apply starts_ex in E as [s E]. rewrite E.
      destruct (contains_str s [42; 47]) eqn:C.
      * assert (F : exists body q, s = body ++ [42; 47] ++ q /\ forall a b, body ++ [42; 47] = a ++ [42; 47] ++ b -> b = []).
        { clear - C. induction s as [|x s IH]; [discriminate|]. destruct (starts_with (x :: s) [42; 47]) eqn:S.
          - apply starts_ex in S as [q ->]. exists [], q. split; [reflexivity|]. intros [|? [|? [|? ?]]] b H; try discriminate. injection H as ->. reflexivity.
          - assert (C' : contains_str s [42; 47] = true) by (cbn [contains_str] in C; rewrite S in C; exact C).
            destruct (IH C') as (body & q & -> & U). exists (x :: body), q. split; [reflexivity|].
            intros [|y a] b H.
            + exfalso. enough (starts_with (x :: body ++ [42; 47] ++ q) [42; 47] = true) by congruence. apply starts_ex.
              exists (b ++ q). change ([42; 47] ++ b ++ q) with (([42; 47] ++ b) ++ q). cbn [app] in H |- *. cbn [app]. injection H as -> H.
              f_equal. transitivity ((body ++ [42; 47]) ++ q); [rewrite <- app_assoc; reflexivity|]. rewrite H. reflexivity.
            + apply (U a b). cbn [app] in H. injection H as _ H. exact H. }
        destruct F as (body & q & -> & U). destruct (IH q) as [o O].
        { assert (K : length (c :: r) = length ([47; 42] ++ body ++ [42; 47] ++ q)) by (rewrite E; reflexivity). cbn [length app] in K. rewrite app_length in K. cbn [length] in K. unfold text, char in *. lia. }
        exists o. apply st_comment; assumption.
      * exists []. apply st_open. intros a b ->. enough (contains_str (a ++ [42; 47] ++ b) [42; 47] = true) by congruence. apply contains_ex. exists a, b. reflexivity.
    + destruct (IH r) as [o O]; [lia|]. exists (c :: o). apply st_char; [|exact O].
      intros s K. enough (starts_with (c :: r) [47; 42] = true) by congruence. apply starts_ex. exists s. exact K.
Qed.
Print Assumptions C79_comments_end.

(** Lines may end with carriage returns and newlines. *)
Lemma chop_cr_app : forall x, chop_cr (x ++ [13]) = x.
Proof. intro x. unfold chop_cr, ends_with. rewrite rev_app_distr. cbn [rev app]. cbn [starts_with]. rewrite Z.eqb_refl. destruct (rev x); cbn; apply removelast_last. Qed.
Lemma split_ends : forall e (ts : list text), ~ In 10 e -> Forall (fun x => ~ In 10 x) ts ->
  split_char 10 (flat_map (fun x => x ++ e ++ [10]) ts) = map (fun x => x ++ e) ts ++ [[]].
Proof.
  intros e ts Ne. assert (G : forall x r, ~ In 10 x -> split_char 10 (x ++ 10 :: r) = x :: split_char 10 r).
  { induction x as [|c x IX]; intros r H; [reflexivity|]. cbn [app split_char]. destruct (c =? 10) eqn:E; [apply Z.eqb_eq in E; subst; exfalso; apply H; left; reflexivity|].
    rewrite IX by (intro I; apply H; right; exact I). reflexivity. }
  induction 1 as [|x ts H F IH]; [reflexivity|]. cbn [flat_map map]. rewrite <- app_assoc. rewrite <- app_assoc. cbn [app].
  replace (x ++ e ++ 10 :: flat_map (fun x => x ++ e ++ [10]) ts) with ((x ++ e) ++ 10 :: flat_map (fun x => x ++ e ++ [10]) ts) by (rewrite <- app_assoc; reflexivity).
  rewrite G; [rewrite IH; reflexivity|]. intro I. apply in_app_or in I as [I|I]; contradiction.
Qed.
Theorem C79_carriage_returns : forall alnum ts vs, Forall (fun x => ~ In 10 x /\ ~ In 13 x) ts ->
  let unix := flat_map (fun x => x ++ [10]) ts in let dos := flat_map (fun x => x ++ [13; 10]) ts in
  (forall a b, dos <> a ++ [47; 42] ++ b) -> (forall a b, unix <> a ++ [47; 42] ++ b) ->
  resolve_variables alnum dos vs = resolve_variables alnum unix vs /\ extract_variables dos = extract_variables unix.
Proof.
  intros alnum ts vs F unix dos N1 N2.
  assert (F10 : Forall (fun x : text => ~ In 10 x) ts) by (apply Forall_impl with (2 := F); intros x [H _]; exact H).
  assert (L : lines dos = lines unix).
  { assert (N13 : ~ In 10 [13]) by (intros [H|[]]; discriminate).
    pose proof (split_ends [13] ts N13 F10) as S1. pose proof (split_ends [] ts (fun H => H) F10) as S2. unfold lines.
    change (split_char 10 dos) with (split_char 10 (flat_map (fun x => x ++ [13] ++ [10]) ts)). rewrite S1.
    change (split_char 10 unix) with (split_char 10 (flat_map (fun x => x ++ [] ++ [10]) ts)). rewrite S2. clear S1 S2.
    replace (map (fun x : list Z => x ++ []) ts) with ts by (rewrite <- (map_id ts) at 1; apply map_ext; intro; symmetry; apply app_nil_r).
    rewrite (cut_flat ts F). clear - F. induction F as [|x ts [_ H] F IH]; [reflexivity|]. cbn [map app].
    change (cut_lines ((x ++ [13]) :: (map (fun x0 : list Z => x0 ++ [13]) ts ++ [[]]))) with (match map (fun x0 : list Z => x0 ++ [13]) ts ++ [[]] with [] => if is_nil (x ++ [13]) then [] else [x ++ [13]] | _ => chop_cr (x ++ [13]) :: cut_lines (map (fun x0 : list Z => x0 ++ [13]) ts ++ [[]]) end).
    destruct (map (fun x0 : list Z => x0 ++ [13]) ts ++ [[]]) as [|y l] eqn:Q; [destruct ts; discriminate|]. rewrite IH, chop_cr_app. reflexivity. }
  unfold resolve_variables, extract_variables. rewrite !drop_none by assumption. rewrite L. split; reflexivity.
Qed.
Print Assumptions C79_carriage_returns.

(** What is in a comment over several lines defines nothing, and ends with it. *)
Definition mentions (p x : text) : Prop := exists a b, x = a ++ p ++ b.
Lemma mentions_trim : forall p x, match p with [] => False | c :: _ => is_ws c = false end -> match rev p with [] => False | c :: _ => is_ws c = false end ->
  contains_str (trim x) p = true <-> mentions p x.
Proof.
  intros p x P1 P2. destruct (trim_factor x) as (u & w & E & Bu & Bw). rewrite contains_ex. split.
  - intros (a & b & H). exists (u ++ a), (b ++ w). rewrite E, H, <- !app_assoc. reflexivity.
  - intros (a & b & H). assert (G : trim (a ++ p ++ b) = trim_start a ++ p ++ trim_end b).
    { unfold trim. assert (G1 : trim_start (a ++ p ++ b) = trim_start a ++ p ++ b).
      { clear - P1. induction a as [|c a IH]; cbn [app trim_start].
        - destruct p as [|c p]; [destruct P1|]. cbn [app trim_start]. rewrite P1. reflexivity.
        - destruct (is_ws c); [exact IH|reflexivity]. }
      rewrite G1. unfold trim_end. rewrite !rev_app_distr. rewrite <- app_assoc.
      assert (G2 : forall q r, trim_start (q ++ rev p ++ r) = trim_start q ++ rev p ++ r).
      { clear - P2. intros q r. induction q as [|c q IH]; cbn [app trim_start].
        - destruct (rev p) as [|c p']; [destruct P2|]. cbn [app trim_start]. rewrite P2. reflexivity.
        - destruct (is_ws c); [exact IH|reflexivity]. }
      rewrite G2, !rev_app_distr, !rev_involutive, <- app_assoc. reflexivity. }
    rewrite H, G. eexists; eexists; reflexivity.
Qed.
Theorem C79_commented_definitions : forall before first inner last after,
  Forall (fun x => ~ In 10 x /\ ~ In 13 x) (before ++ first :: inner ++ last :: after) ->
  Forall (fun x => ~ mentions (str "/*") x) before -> mentions (str "/*") first ->
  Forall (fun x => ~ mentions (str "*/") x) (first :: inner) -> mentions (str "*/") last ->
  extract_variables (flat_map (fun x => x ++ [10]) (before ++ first :: inner ++ last :: after)) =
  extract_variables (flat_map (fun x => x ++ [10]) (before ++ after)).
Proof.
  intros before first inner last after F B Fi Inn La. unfold extract_variables.
  assert (F' : Forall (fun x => ~ In 10 x /\ ~ In 13 x) (before ++ after)).
  { rewrite Forall_forall in F |- *. intros x I. apply F. apply in_app_or in I as [I|I]; apply in_or_app; [left; exact I|right; right; apply in_or_app; right; right; exact I]. }
  fold (flat (before ++ first :: inner ++ last :: after)). fold (flat (before ++ after)).
  rewrite (lines_of _ _ F (or_introl eq_refl)), (lines_of _ _ F' (or_introl eq_refl)). clear F F'.
  assert (O : forall x, contains_str (trim x) (str "/*") = true <-> mentions (str "/*") x) by (intro; apply mentions_trim; reflexivity).
  assert (C : forall x, contains_str (trim x) (str "*/") = true <-> mentions (str "*/") x) by (intro; apply mentions_trim; reflexivity).
  assert (IN : forall vs, extract_lines (inner ++ last :: after) true vs = extract_lines after false vs).
  { intros vs. apply Forall_inv_tail in Inn. induction Inn as [|x inner N F IH].
    - cbn [app extract_lines]. cbn zeta. apply C in La. rewrite La. reflexivity.
    - cbn [app extract_lines]. cbn zeta. destruct (contains_str (trim x) (str "*/")) eqn:E; [apply C in E; contradiction|]. rewrite orb_true_r. exact IH. }
  apply Forall_inv in Inn. generalize (@nil (text * text)) as vs. induction B as [|x before N F IH]; intros vs.
  - cbn [app extract_lines]. cbn zeta. apply O in Fi. rewrite Fi. destruct (contains_str (trim first) (str "*/")) eqn:E; [apply C in E; contradiction|]. apply IN.
  - cbn [app extract_lines]. cbn zeta. destruct (contains_str (trim x) (str "/*")) eqn:E; [apply O in E; contradiction|]. cbn [orb].
    destruct (contains_str (trim x) (str "*/")); apply IH.
Qed.
Print Assumptions C79_commented_definitions.
Example C79_commented_definitions_example :
  extract_variables (str "$a: 1;" ++ [10] ++ str "/* old:" ++ [10] ++ str "$a: 2;" ++ [10] ++ str "*/" ++ [10] ++ str "$b: 3;" ++ [10]) = [(str "b", str "3"); (str "a", str "1")].
Proof. reflexivity. Qed.

(** A comment at the end of a definition undoes it: its line disappears all the same,
    and references to the variable stay as they are. *)
Theorem C79_comment_after_definition_refuted : let t := str "$w: 3; /* columns */" ++ [10] ++ str "A { width: $w; }" ++ [10] in
  resolve (extract_variables t) (str "w") = None /\
  resolve_variables ascii_alnum t (extract_variables t) = str "A { width: $w; }" ++ [10].
Proof. vm_compute. split; reflexivity. Qed.
Print Assumptions C79_comment_after_definition_refuted.

Print Assumptions C79_references_become_values.
Print Assumptions C79_result_is_determined.
Print Assumptions C79_last_definition.
Print Assumptions C79_without_variables.
Print Assumptions C79_nested_values_refuted.
Print Assumptions C79_rest_of_line_refuted.
