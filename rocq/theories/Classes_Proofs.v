(** Lemmas on the class interface. *)
From Coq Require Import String ZArith List Bool Arith Lia.
From Verif Require Import Text_Model Words_Spec Words_Proofs Keys_Proofs Classes_Model Classes_Spec.
Import ListNotations.
Notation length := List.length.
Open Scope list_scope.

Lemma text_dec : forall a b : text, {a = b} + {a <> b}.
Proof. apply list_eq_dec. apply Z.eq_dec. Qed.

Lemma has_iff : forall w c, has_class w c = true <-> In c (w_classes w).
Proof.
  intros w c. unfold has_class. rewrite existsb_exists. split.
  - intros (x & I & E). apply text_eqb_iff in E. now subst.
  - intros I. exists c. split; [exact I|]. now apply text_eqb_iff.
Qed.
Lemma has_no : forall w c, has_class w c = false <-> ~ In c (w_classes w).
Proof. intros w c. rewrite <- has_iff. destruct (has_class w c); split; congruence. Qed.

Lemma remove_first_in : forall l c x, In x (remove_first l c) -> In x l.
Proof. induction l as [|y l IH]; cbn; intros c x H; [auto|]. destruct (text_eqb y c); [auto|]. destruct H; [auto|right; eauto]. Qed.
Lemma remove_first_other : forall l c x, x <> c -> In x (remove_first l c) <-> In x l.
Proof.
  induction l as [|y l IH]; cbn; intros c x N; [tauto|]. destruct (text_eqb y c) eqn:E.
  - apply text_eqb_iff in E. subst. split; [auto|]. intros [->|]; [congruence|auto].
  - cbn. rewrite IH by auto. tauto.
Qed.
Lemma remove_first_nodup : forall l c, NoDup l -> NoDup (remove_first l c) /\ ~ In c (remove_first l c).
Proof.
  induction l as [|y l IH]; cbn; intros c N; [split; [constructor|auto]|]. inversion N as [|? ? N1 N2]; subst. destruct (text_eqb y c) eqn:E.
  - apply text_eqb_iff in E. subst. auto.
  - destruct (IH c N2) as [A B]. split.
    + constructor; [|exact A]. intros I. apply remove_first_in in I. contradiction.
    + intros [->|I]; [|contradiction]. assert (text_eqb c c = true) by now apply text_eqb_iff. congruence.
Qed.

Definition fixed_of (i : impl) : list text := match i with Own f => f | Wrapped => [] end.

Lemma nodup_snoc : forall (l : list text) c, NoDup l -> ~ In c l -> NoDup (l ++ [c]).
Proof.
  induction l as [|x l IH]; intros c N H; cbn; [constructor; [auto|constructor]|]. inversion N; subst. cbn in H.
  constructor; [|apply IH; auto]. intros I. apply in_app_or in I. destruct I as [I|[<-|[]]]; [contradiction|tauto].
Qed.

(** one call, when the list has no repetition and, for wrapped widgets, an added
    class is not there *)
Lemma step_wanted : forall i w k, NoDup (w_classes w) ->
  (forall s, k = SetClasses s -> distinct_words (fixed_of i) s) ->
  (i = Wrapped -> forall c, k = Add c \/ k = SetClass true c -> ~ In c (w_classes w)) ->
  NoDup (w_classes (step i w k)) /\ forall c, In c (w_classes (step i w k)) <-> asks (fixed_of i) c (In c (w_classes w)) k.
Proof.
  intros i w k N D S.
  assert (Ad : forall d, (i = Wrapped -> ~ In d (w_classes w)) ->
    NoDup (w_classes (add_class i w d)) /\ forall c, In c (w_classes (add_class i w d)) <-> d = c \/ In c (w_classes w)).
  { intros d H. destruct i as [f|]; unfold add_class.
    - destruct (has_class w d) eqn:E.
      + apply has_iff in E. split; [exact N|]. intros c. split; [auto|]. intros [<-|]; auto.
      + apply has_no in E. cbn. split; [now apply nodup_snoc|]. intros c. rewrite in_app_iff. cbn. tauto.
    - cbn. split; [apply nodup_snoc; auto|]. intros c. rewrite in_app_iff. cbn. tauto. }
  assert (Re : forall d, NoDup (w_classes (remove_class w d)) /\ forall c, In c (w_classes (remove_class w d)) <-> d <> c /\ In c (w_classes w)).
  { intros d. unfold remove_class. destruct (has_class w d) eqn:E.
    - cbn. destruct (remove_first_nodup _ d N) as [A B]. split; [exact A|]. intros c. destruct (text_dec c d) as [->|Ne].
      + tauto.
      + rewrite remove_first_other by auto. split; [|tauto]. intros H. split; auto.
    - apply has_no in E. split; [exact N|]. intros c. split; [|tauto]. intros I. split; [|exact I]. intros ->. contradiction. }
  destruct k as [d|d|d|[|] d|s| |]; cbn [step asks].
  - apply Ad. intros E. apply (S E). auto.
  - apply Re.
  - destruct (has_class w d) eqn:E.
    + apply has_iff in E. destruct (Re d) as [A B]. split; [exact A|]. intros c. rewrite B. split; [tauto|]. intros [[-> H]|H]; tauto.
    + apply has_no in E. destruct (Ad d) as [A B]; [auto|]. split; [exact A|]. intros c. rewrite B. destruct (text_dec d c) as [->|Ne]; tauto.
  - apply Ad. intros E. apply (S E). auto.
  - apply Re.
  - destruct (D s eq_refl) as (ws & Sp & Nd). pose proof (spaced_split _ _ Sp) as E. cbn. fold (fixed_of i). rewrite E. split; [exact Nd|].
    intros c. rewrite in_app_iff. split; (intros [H|H]; [auto|right]).
    + exists ws. auto.
    + destruct H as (ws' & Sp' & I). apply spaced_split in Sp'. congruence.
  - cbn. split; [exact N|tauto].
  - cbn. split; [exact N|tauto].
Qed.

Lemma asks_ext : forall f c k P Q, (P <-> Q) -> (asks f c P k <-> asks f c Q k).
Proof. intros f c k P Q H. destruct k as [d|d|d|[|] d|s| |]; cbn; tauto. Qed.

Lemma run_snoc : forall i w h k, run i w (h ++ [k]) = step i (run i w h) k.
Proof. intros. unfold run. rewrite fold_left_app. reflexivity. Qed.
Lemma wanted_snoc : forall f h k c, wanted f (h ++ [k]) c <-> asks f c (wanted f h c) k.
Proof. intros. unfold wanted. rewrite fold_left_app. reflexivity. Qed.

Lemma no_repeats_app : forall f h k, no_repeats f (h ++ k) -> no_repeats f h.
Proof. intros f h k (N & H). split; [exact N|]. intros s I. apply H. apply in_or_app. now left. Qed.
Lemma no_second_app : forall h k, no_second_add (h ++ k) -> no_second_add h.
Proof.
  intros h k H h1 c h2 [->| ->]; apply (H h1 c (h2 ++ k)); [left|right]; rewrite <- app_assoc; reflexivity.
Qed.

Lemma run_wanted : forall i h, no_repeats (fixed_of i) h -> (i = Wrapped -> no_second_add h) ->
  NoDup (w_classes (run i (new_widget i) h)) /\
  forall c, In c (w_classes (run i (new_widget i) h)) <-> wanted (fixed_of i) h c.
Proof.
  intros i h. induction h as [|k h IH] using rev_ind; intros R A.
  - cbn. destruct R as [N _]. split; [exact N|]. intros c. cbn. destruct i; cbn; tauto.
  - destruct IH as [N W]; [eapply no_repeats_app; eauto|intros E; eapply no_second_app; eauto|].
    rewrite run_snoc. destruct (step_wanted i (run i (new_widget i) h) k N) as [A1 A2].
    + intros s ->. destruct R as [_ R]. apply R. apply in_or_app. right. now left.
    + intros E c H. rewrite W. subst i. cbn [fixed_of]. specialize (A eq_refl). apply (A h c []). destruct H as [->| ->]; auto.
    + split; [exact A1|]. intros c. rewrite A2, wanted_snoc. apply asks_ext. apply W.
Qed.

(** dirty *)
Lemma own_clean_step : forall f w k, k <> MarkClean -> w_dirty (step (Own f) w k) = false ->
  w_dirty w = false /\ w_classes (step (Own f) w k) = w_classes w.
Proof.
  intros f w k N. assert (A : forall c, w_dirty (add_class (Own f) w c) = false -> w_dirty w = false /\ w_classes (add_class (Own f) w c) = w_classes w).
  { intros c. unfold add_class. destruct (has_class w c); cbn; [auto|discriminate]. }
  assert (B : forall c, w_dirty (remove_class w c) = false -> w_dirty w = false /\ w_classes (remove_class w c) = w_classes w).
  { intros c. unfold remove_class. destruct (has_class w c); cbn; [discriminate|auto]. }
  destruct k as [d|d|d|[|] d|s| |]; cbn [step]; auto; try discriminate; try congruence.
  destruct (has_class w d); auto.
Qed.
Lemma wrapped_clean_step : forall w k, k <> MarkClean -> w_dirty (step Wrapped w k) = false ->
  w_dirty w = false /\ exists added, w_classes (step Wrapped w k) = w_classes w ++ added.
Proof.
  intros w k N. assert (A : forall c, w_dirty (add_class Wrapped w c) = false -> w_dirty w = false /\ exists ad, w_classes (add_class Wrapped w c) = w_classes w ++ ad).
  { intros c. cbn. intros H. split; [exact H|eauto]. }
  assert (B : forall c, w_dirty (remove_class w c) = false -> w_dirty w = false /\ exists ad, w_classes (remove_class w c) = w_classes w ++ ad).
  { intros c. unfold remove_class. destruct (has_class w c); cbn; [discriminate|]. intros H. split; [exact H|]. exists []. now rewrite app_nil_r. }
  destruct k as [d|d|d|[|] d|s| |]; cbn [step]; auto; try discriminate; try congruence.
  destruct (has_class w d); auto.
Qed.

Lemma own_clean : forall f h w, ~ In MarkClean h -> w_dirty (run (Own f) w h) = false -> w_dirty w = false /\ w_classes (run (Own f) w h) = w_classes w.
Proof.
  intros f h w. induction h as [|k h IH] using rev_ind; intros N D; [auto|]. rewrite run_snoc in *.
  destruct (own_clean_step f (run (Own f) w h) k) as [A B]; [intros ->; apply N; apply in_or_app; right; now left|exact D|].
  destruct IH as [C E]; [intros I; apply N; apply in_or_app; now left|exact A|]. split; [exact C|congruence].
Qed.
Lemma wrapped_clean : forall h w, ~ In MarkClean h -> w_dirty (run Wrapped w h) = false ->
  w_dirty w = false /\ exists added, w_classes (run Wrapped w h) = w_classes w ++ added.
Proof.
  intros h w. induction h as [|k h IH] using rev_ind; intros N D; [split; [exact D|exists []; now rewrite app_nil_r]|]. rewrite run_snoc in *.
  destruct (wrapped_clean_step (run Wrapped w h) k) as [A [ad B]]; [intros ->; apply N; apply in_or_app; right; now left|exact D|].
  destruct IH as [C [ad' E]]; [intros I; apply N; apply in_or_app; now left|exact A|]. split; [exact C|]. exists (ad' ++ ad). rewrite B, E. now rewrite app_assoc.
Qed.

(** ** Buttons *)
Lemma variant_name_inj : forall u v, variant_name u = variant_name v -> u = v.
Proof. intros [] [] H; try reflexivity; vm_compute in H; discriminate. Qed.
Lemma variant_eqb_iff : forall a b, variant_eqb a b = true <-> a = b.
Proof. intros [] []; cbn; split; congruence. Qed.

(** the classes a button manages, in terms of its fields *)
Definition managed (v : variant) (flat compact : bool) (c : text) : Prop :=
  c = class_name v \/ c = (if flat then str "-style-flat" else str "-style-default") \/ (compact = true /\ c = str "-textual-compact").
Fixpoint count (c : text) (l : list text) : nat :=
  match l with [] => 0 | x :: r => (if text_eqb x c then 1 else 0) + count c r end.
Open Scope nat_scope.
Lemma count_app : forall c a b, count c (a ++ b) = count c a + count c b.
Proof. induction a as [|x a IH]; intros b; cbn; [reflexivity|]. rewrite IH. lia. Qed.
Lemma count_in : forall c l, 0 < count c l <-> In c l.
Proof.
  induction l as [|x l IH]; cbn; [split; [lia|tauto]|]. destruct (text_eqb x c) eqn:E.
  - apply text_eqb_iff in E. split; [auto|lia].
  - apply text_eqb_no in E. rewrite <- IH. split; [auto|]. intros [?|?]; [congruence|auto].
Qed.
Lemma count_remove : forall c d l, count c (remove_first l d) = if text_eqb d c then count c l - 1 else count c l.
Proof.
  induction l as [|x l IH]; cbn; [destruct (text_eqb d c); reflexivity|]. destruct (text_eqb x d) eqn:E.
  - apply text_eqb_iff in E. subst x. destruct (text_eqb d c); lia.
  - cbn. rewrite IH. destruct (text_eqb d c) eqn:F; [|lia]. apply text_eqb_iff in F. subst d. rewrite E. lia.
Qed.
Lemma count_add : forall c d w, count c (w_classes (add_class Wrapped w d)) = count c (w_classes w) + (if text_eqb d c then 1 else 0).
Proof. intros. cbn. rewrite count_app. cbn. lia. Qed.
Lemma count_rem : forall c d w, count c (w_classes (remove_class w d)) = if text_eqb d c then count c (w_classes w) - 1 else count c (w_classes w).
Proof.
  intros c d w. unfold remove_class. destruct (has_class w d) eqn:E; cbn; [apply count_remove|].
  destruct (text_eqb d c) eqn:F; [|reflexivity]. apply text_eqb_iff in F. subst d. apply has_no in E. rewrite <- count_in in E. lia.
Qed.
Lemma count_step_other : forall c w k, (match k with Add d | Remove d | Toggle d | SetClass _ d => d <> c | SetClasses _ => False | _ => True end) ->
  count c (w_classes (step Wrapped w k)) = count c (w_classes w).
Proof.
  intros c w k H. assert (F : forall d, d <> c -> text_eqb d c = false) by (intros d N; now apply text_eqb_no).
  destruct k as [d|d|d|[|] d|s| |]; cbn [step]; try reflexivity; try contradiction;
    rewrite ?count_add, ?count_rem, ?(F d H); try lia.
  destruct (has_class w d); rewrite ?count_add, ?count_rem, ?(F d H); lia.
Qed.

Definition b2n (b : bool) : nat := if b then 1 else 0.
Record in_step (b : button) : Prop := {
  is_v : forall u, count (class_name u) (w_classes (b_inner b)) = b2n (variant_eqb (b_variant b) u);
  is_d : count (str "-style-default") (w_classes (b_inner b)) = b2n (negb (b_flat b));
  is_f : count (str "-style-flat") (w_classes (b_inner b)) = b2n (b_flat b);
  is_c : count (str "-textual-compact") (w_classes (b_inner b)) = b2n (b_compact b) }.

Lemma in_step_new : in_step button_new.
Proof. constructor; [intros []|..]; vm_compute; reflexivity. Qed.

Section Lower.
Variable lower : text -> text.
Local Notation names := (names lower).
Local Notation last_variant := (last_variant lower).

Lemma parse_iff : forall n v, parse_variant lower n = Some v <-> names n v.
Proof.
  intros n v. unfold parse_variant, Classes_Spec.names. cbn zeta.
  assert (T : forall u w, variant_name u = lower (trim n) -> lower (trim n) = variant_name w -> u = w).
  { intros u w A B. apply variant_name_inj. congruence. }
  destruct (text_eqb (lower (trim n)) (str "default")) eqn:E1.
  { apply text_eqb_iff in E1. split; [intros H; injection H as <-; exact E1|]. intros H. f_equal. apply T; [symmetry; exact E1|exact H]. }
  destruct (text_eqb (lower (trim n)) (str "primary")) eqn:E2.
  { apply text_eqb_iff in E2. split; [intros H; injection H as <-; exact E2|]. intros H. f_equal. apply T; [symmetry; exact E2|exact H]. }
  destruct (text_eqb (lower (trim n)) (str "success")) eqn:E3.
  { apply text_eqb_iff in E3. split; [intros H; injection H as <-; exact E3|]. intros H. f_equal. apply T; [symmetry; exact E3|exact H]. }
  destruct (text_eqb (lower (trim n)) (str "warning")) eqn:E4.
  { apply text_eqb_iff in E4. split; [intros H; injection H as <-; exact E4|]. intros H. f_equal. apply T; [symmetry; exact E4|exact H]. }
  destruct (text_eqb (lower (trim n)) (str "error")) eqn:E5.
  { apply text_eqb_iff in E5. split; [intros H; injection H as <-; exact E5|]. intros H. f_equal. apply T; [symmetry; exact E5|exact H]. }
  split; [discriminate|]. intros H. exfalso. apply text_eqb_no in E1, E2, E3, E4, E5. destruct v; [apply E1|apply E2|apply E3|apply E4|apply E5]; exact H.
Qed.

Lemma button_step_in_step : forall b k b', in_step b -> leaves_reserved k -> button_step lower b k = Ok b' -> in_step b'.
Proof.
  intros b k b' [Iv Id If Ic] L E. assert (Ok_eq : forall x y : button, Ok x = Ok y -> y = x) by congruence. destruct k as [k|n|f|f]; cbn [button_step] in E.
  - apply Ok_eq in E; subst b'. assert (O : forall c, reserved c -> count c (w_classes (step Wrapped (b_inner b) k)) = count c (w_classes (b_inner b))).
    { intros c R. apply count_step_other. destruct k as [d|d|d|x d|s| |]; cbn in L; auto; intros ->; contradiction. }
    constructor; cbn [b_inner b_variant b_flat b_compact].
    + intros u. rewrite O; [apply Iv|]. left. eauto.
    + rewrite O; [exact Id|]. unfold reserved. tauto.
    + rewrite O; [exact If|]. unfold reserved. tauto.
    + rewrite O; [exact Ic|]. unfold reserved. tauto.
  - destruct (parse_variant lower n) as [v|]; [|discriminate]. destruct (variant_eqb (b_variant b) v) eqn:V; apply Ok_eq in E; subst b'.
    + constructor; auto.
    + assert (C : forall c, count c (w_classes (add_class Wrapped (remove_class (b_inner b) (class_name (b_variant b))) (class_name v)))
         = (if text_eqb (class_name (b_variant b)) c then count c (w_classes (b_inner b)) - 1 else count c (w_classes (b_inner b))) + (if text_eqb (class_name v) c then 1 else 0)).
      { intros c. rewrite count_add, count_rem. reflexivity. }
      constructor; cbn [b_inner b_variant b_flat b_compact].
      * intros u. rewrite C, Iv. destruct (b_variant b), v, u; cbn in V |- *; try discriminate; reflexivity.
      * rewrite C, Id. destruct (b_variant b), v, (b_flat b), (b_compact b); vm_compute; reflexivity.
      * rewrite C, If. destruct (b_variant b), v, (b_flat b), (b_compact b); vm_compute; reflexivity.
      * rewrite C, Ic. destruct (b_variant b), v, (b_flat b), (b_compact b); vm_compute; reflexivity.
  - destruct (Bool.eqb (b_flat b) f) eqn:V; apply Ok_eq in E; subst b'; [constructor; auto|].
    destruct f; constructor; cbn [b_inner b_variant b_flat b_compact]; try intros u; rewrite ?count_add, ?count_rem;
      rewrite ?Iv, ?Id, ?If, ?Ic; destruct (b_flat b); try discriminate; try destruct u; destruct (b_variant b); destruct (b_compact b); vm_compute; reflexivity.
  - destruct (Bool.eqb (b_compact b) f) eqn:V; apply Ok_eq in E; subst b'; [constructor; auto|].
    destruct f; constructor; cbn [b_inner b_variant b_flat b_compact]; try intros u; rewrite ?count_add, ?count_rem;
      rewrite ?Iv, ?Id, ?If, ?Ic; destruct (b_compact b); try discriminate; try destruct u; destruct (b_variant b); destruct (b_flat b); vm_compute; reflexivity.
Qed.

Lemma button_run_in_step : forall h b b', in_step b -> Forall leaves_reserved h -> button_run lower b h = Ok b' ->
  in_step b' /\ last_variant (b_variant b) h (b_variant b') /\ b_flat b' = last_flat (b_flat b) h /\ b_compact b' = last_compact (b_compact b) h.
Proof.
  induction h as [|k h IH]; intros b b' I F E; cbn [button_run] in E.
  - injection E as <-. cbn. auto.
  - inversion F as [|? ? Lk Lh]; subst. destruct (button_step lower b k) as [b1| |] eqn:S; cbn [bind] in E; try discriminate.
    pose proof (button_step_in_step b k b1 I Lk S) as I1. destruct (IH b1 b' I1 Lh E) as (A & B & C & D). split; [exact A|].
    destruct k as [k|n|f|f]; cbn [button_step] in S; cbn [Classes_Spec.last_variant last_flat last_compact].
    + injection S as <-. cbn in B, C, D. auto.
    + destruct (parse_variant lower n) as [v|] eqn:P; [|discriminate]. apply parse_iff in P.
      destruct (variant_eqb (b_variant b) v) eqn:V; injection S as <-; cbn in B, C, D.
      * apply variant_eqb_iff in V. subst v. split; [eauto|auto].
      * split; [eauto|auto].
    + destruct (Bool.eqb (b_flat b) f) eqn:V; injection S as <-; cbn in B, C, D; [apply Bool.eqb_prop in V; subst f|]; auto.
    + destruct (Bool.eqb (b_compact b) f) eqn:V; injection S as <-; cbn in B, C, D; [apply Bool.eqb_prop in V; subst f|]; auto.
Qed.

Lemma button_run_panics : forall h b, button_run lower b h = Panic <-> exists n, In (SetVariant n) h /\ forall v, ~ names n v.
Proof.
  induction h as [|k h IH]; intros b; cbn [button_run].
  - split; [discriminate|]. intros (n & [] & _).
  - assert (Go : forall b1, button_step lower b k = Ok b1 -> (forall n, k = SetVariant n -> exists v, names n v) ->
      (bind (Ok b1) (fun b => button_run lower b h) = Panic <-> exists n, In (SetVariant n) (k :: h) /\ forall v, ~ names n v)).
    { intros b1 E G. cbn [bind]. rewrite IH. split.
      - intros (n & I & H). exists n. split; [now right|exact H].
      - intros (n & [Q|I] & H); [|exists n; auto]. destruct (G n Q) as (v & V). destruct (H v V). }
    destruct k as [k|n|f|f]; cbn [button_step] in *.
    + apply Go; [reflexivity|]. intros; discriminate.
    + destruct (parse_variant lower n) as [v|] eqn:P.
      * apply parse_iff in P. destruct (variant_eqb (b_variant b) v); (apply Go; [reflexivity|]); intros m Q; injection Q as <-; eauto.
      * cbn. split; [|reflexivity]. intros _. exists n. split; [now left|]. intros v H. apply parse_iff in H. congruence.
    + destruct (Bool.eqb (b_flat b) f); (apply Go; [reflexivity|]); intros; discriminate.
    + destruct (Bool.eqb (b_compact b) f); (apply Go; [reflexivity|]); intros; discriminate.
Qed.
Lemma button_run_no_err : forall h b, button_run lower b h <> Err.
Proof.
  induction h as [|k h IH]; intros b; cbn [button_run]; [discriminate|].
  destruct k as [k|n|f|f]; cbn [button_step].
  - cbn [bind]. apply IH.
  - destruct (parse_variant lower n); [destruct (variant_eqb _ _)|]; cbn [bind]; try apply IH. discriminate.
  - destruct (Bool.eqb _ _); cbn [bind]; apply IH.
  - destruct (Bool.eqb _ _); cbn [bind]; apply IH.
Qed.
End Lower.
