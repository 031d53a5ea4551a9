(** Lemmas on operations on all matches of a query. *)
From Coq Require Import String ZArith List Bool Arith Lia.
From Verif Require Import Text_Model Keys_Proofs Tree_Model Classes_Model Classes_Proofs Name_Model Bulk_Model Bulk_Spec.
Import ListNotations.
Open Scope nat_scope.
Open Scope list_scope.

Lemma node_ind2 : forall P : node -> Prop, (forall k id s ks, Forall P ks -> P (N k id s ks)) -> forall n, P n.
Proof.
  intros P H. fix go 1. intros [k id s ks]. apply H.
  induction ks as [|x r IH]; constructor; [apply go|exact IH].
Qed.

Lemma map_id_on : forall (A : Type) (f : A -> A) l, Forall (fun x => f x = x) l -> map f l = l.
Proof. intros A f l H. induction H as [|x r E H IH]; cbn; congruence. Qed.

Lemma shows_iff : forall k, shows k = true <-> holds_children k.
Proof.
  intros k. unfold holds_children, holders, is_user. split.
  - destruct k; cbn; intros E; try discriminate E; try (left; tauto). right; eauto.
  - intros [H | (p & a & ->)]; [|reflexivity]. cbn in H. repeat destruct H as [<- | H]; try reflexivity; destruct H.
Qed.
Lemma passes_shows : forall k, passes_marks k = true -> shows k = true.
Proof. destruct k; cbn; congruence. Qed.
Lemma passes_iff : forall k, passes_marks k = true <-> k = KScreen \/ k = KApp.
Proof. destruct k; cbn; split; intros E; try discriminate E; auto; destruct E; discriminate. Qed.

Lemma nth_map : forall (f : node -> node) l i, nth_error (map f l) i = option_map f (nth_error l i).
Proof. intros f l i. apply nth_error_map. Qed.

Lemma reached_dec : forall p n, reached n p \/ ~ reached n p.
Proof.
  induction p as [|i r IH]; intros n; cbn [reached]; [auto|].
  destruct (shows (n_kind n)) eqn:S.
  - apply shows_iff in S. destruct (nth_error (n_kids n) i) as [x|]; [|tauto]. destruct (IH x); tauto.
  - right. intros [H _]. apply shows_iff in H. congruence.
Qed.

Section User.
Variable user : op -> state -> state.

Lemma marked_0 : forall n, marked user 0 n = n.
Proof.
  apply node_ind2. intros k id s ks H. cbn. f_equal. destruct (passes_marks k); [|reflexivity].
  apply map_id_on. exact H.
Qed.

Section Query.
Variables (m : text) (sel : ssel) (filter : node -> bool).

Lemma visit_kind : forall o p n, n_kind (visit user m sel filter o p n) = n_kind n /\ n_id (visit user m sel filter o p n) = n_id n /\
  length (n_kids (visit user m sel filter o p n)) = length (n_kids n).
Proof. intros o p [k id s ks]. cbn. destruct (shows k); rewrite ?map_length; auto. Qed.

Lemma visit_plain : forall o n, is_mark o = false ->
  visit user m sel filter o 0 n =
  N (n_kind n) (n_id n) (if chosen m sel filter n then one user o (n_kind n) (n_state n) else n_state n)
    (if shows (n_kind n) then map (visit user m sel filter o 0) (n_kids n) else n_kids n).
Proof.
  intros o n E. destruct n as [k id s ks]. cbn [visit]. rewrite marked_0, E, andb_false_r. cbn [n_kind n_id n_state n_kids].
  destruct (passes_marks k); reflexivity.
Qed.

Lemma query_exact : forall o, o <> MarkDirty -> forall p n,
  match at_place n p, at_place (query user m sel filter o n) p with
  | Some x, Some y => n_kind y = n_kind x /\ n_id y = n_id x /\ length (n_kids y) = length (n_kids x) /\
      (reached n p -> named m sel x = true -> filter x = true -> n_state y = one user o (n_kind x) (n_state x)) /\
      (~ reached n p \/ named m sel x = false \/ filter x = false -> n_state y = n_state x)
  | None, None => True
  | _, _ => False
  end.
Proof.
  intros o No. assert (E : is_mark o = false) by (destruct o; try reflexivity; congruence).
  unfold query. induction p as [|i r IH]; intros n.
  - cbn [at_place reached]. destruct (visit_kind o 0 n) as (A & B & C). repeat (split; [assumption|]).
    rewrite (visit_plain o n E). cbn [n_state]. unfold chosen, named. split.
    + intros _ -> ->. reflexivity.
    + intros [X | [-> | ->]]; [destruct X; exact I|reflexivity|rewrite andb_false_r; reflexivity].
  - cbn [at_place reached]. rewrite (visit_plain o n E). cbn [n_kids].
    destruct (shows (n_kind n)) eqn:Sh.
    + rewrite nth_map. destruct (nth_error (n_kids n) i) as [x|]; cbn [option_map]; [|exact I].
      specialize (IH x). destruct (at_place x r) as [y|]; destruct (at_place (visit user m sel filter o 0 x) r) as [z|]; try exact IH.
      destruct IH as (A & B & C & D & F). repeat (split; [assumption|]). apply shows_iff in Sh. split; [tauto|].
      intros X. apply F. tauto.
    + destruct (nth_error (n_kids n) i) as [x|]; [|exact I].
      destruct (at_place x r) as [y|]; [|exact I]. repeat (split; [reflexivity|]).
      assert (~ holds_children (n_kind n)) by (intros X; apply shows_iff in X; congruence). tauto.
Qed.

Lemma query_at : forall o, o <> MarkDirty -> forall n p x, at_place n p = Some x -> reached n p -> named m sel x = true -> filter x = true ->
  exists y, at_place (query user m sel filter o n) p = Some y /\ n_kind y = n_kind x /\ n_id y = n_id x /\
    n_state y = one user o (n_kind x) (n_state x).
Proof.
  intros o No n p x A R Nm F. pose proof (query_exact o No p n) as Q. rewrite A in Q.
  destruct (at_place (query user m sel filter o n) p) as [y|]; [|destruct Q].
  destruct Q as (B & C & D & E & _). exists y. repeat (split; [solve [auto]|]). auto.
Qed.

Lemma query_reached : forall o, o <> MarkDirty -> forall p n, reached n p -> reached (query user m sel filter o n) p.
Proof.
  intros o No. assert (E : is_mark o = false) by (destruct o; try reflexivity; congruence).
  unfold query. induction p as [|i r IH]; intros n; cbn [reached]; [tauto|].
  intros [H X]. rewrite (visit_plain o n E). cbn [n_kind n_kids]. split; [exact H|].
  apply shows_iff in H. rewrite H, nth_map. destruct (nth_error (n_kids n) i) as [x|]; [|exact X]. cbn. auto.
Qed.

Lemma query_reached_back : forall o, o <> MarkDirty -> forall p n, reached (query user m sel filter o n) p -> reached n p.
Proof.
  intros o No. assert (E : is_mark o = false) by (destruct o; try reflexivity; congruence).
  unfold query. induction p as [|i r IH]; intros n; cbn [reached]; [tauto|].
  rewrite (visit_plain o n E). cbn [n_kind n_kids]. intros [H X]. split; [exact H|].
  apply shows_iff in H. rewrite H, nth_map in X. destruct (nth_error (n_kids n) i) as [x|]; [|exact X]. cbn in X. auto.
Qed.
End Query.

Lemma named_same : forall m sel x y, n_kind y = n_kind x -> n_id y = n_id x -> named m sel y = named m sel x.
Proof. intros m sel x y A B. unfold named. rewrite A, B. reflexivity. Qed.

(** *** What each kind does *)
Ltac kinds H := cbn in H; repeat destruct H as [<- | H]; try (destruct H; fail).

Lemma one_class : forall o k s, class_op o -> In k keepers -> NoDup (s_classes s) ->
  (forall d, In d (s_classes (one user o k s)) <-> asks o d (In d (s_classes s))) /\
  s_visible (one user o k s) = s_visible s /\ s_disabled (one user o k s) = s_disabled s.
Proof.
  intros o k s Co K ND.
  assert (U : one user o k s = match o with AddClass c => add k c s | RemoveClass c => remove k c s | ToggleClass c => toggle k c s
     | SetClass b c => if b then add k c s else remove k c s | _ => s end).
  { kinds K; destruct o; try destruct Co; reflexivity. }
  rewrite U. clear U.
  assert (I : exists i, class_impl k = Some i) by (kinds K; cbn; eauto). destruct I as (i & Ei).
  assert (Ad : forall c, (forall d, In d (s_classes (add k c s)) <-> d = c \/ In d (s_classes s)) /\
    s_visible (add k c s) = s_visible s /\ s_disabled (add k c s) = s_disabled s).
  { intros c. unfold add. rewrite Ei. unfold on_classes. cbn [s_classes s_visible s_disabled]. split; [|tauto]. intros d.
    destruct i; cbn [Classes_Model.add_class].
    - destruct (has_class _ c) eqn:Hc; cbn [w_classes].
      + apply has_iff in Hc. cbn in Hc. split; [tauto|]. intros [-> | ?]; assumption.
      + rewrite in_app_iff. cbn. intuition congruence.
    - cbn [w_classes]. rewrite in_app_iff. cbn. intuition congruence. }
  assert (Re : forall c, (forall d, In d (s_classes (remove k c s)) <-> d <> c /\ In d (s_classes s)) /\
    s_visible (remove k c s) = s_visible s /\ s_disabled (remove k c s) = s_disabled s).
  { intros c. unfold remove. rewrite Ei. unfold on_classes. cbn [s_classes s_visible s_disabled]. split; [|tauto]. intros d.
    unfold Classes_Model.remove_class. destruct (has_class _ c) eqn:Hc; cbn [w_classes].
    - destruct (text_dec d c) as [-> | Ne].
      + pose proof (proj2 (remove_first_nodup (s_classes s) c ND)). tauto.
      + rewrite (remove_first_other (s_classes s) c d Ne). tauto.
    - apply has_no in Hc. cbn in Hc. split; [|tauto]. intros H. split; [intros -> ; tauto|exact H]. }
  destruct o as [c|c|c|[] c|b|b|]; try destruct Co; cbn [asks]; auto.
  unfold toggle. unfold has. rewrite Ei. destruct (has_class _ c) eqn:Hc.
  - apply has_iff in Hc. cbn in Hc. destruct (Re c) as (A & B). split; [|exact B]. intros d. rewrite A.
    split; [tauto|]. intros [[-> X] | X]; tauto.
  - apply has_no in Hc. cbn in Hc. destruct (Ad c) as (A & B). split; [|exact B]. intros d. rewrite A.
    destruct (text_dec d c) as [-> | Ne]; tauto.
Qed.

Lemma one_ignored : forall o k s, ~ is_user k -> ~ takers o k -> one user o k s = s.
Proof.
  intros o k s U T.
  destruct o as [c|c|c|[] c|b|b|]; destruct k; cbn [one]; try reflexivity;
    try (exfalso; apply U; unfold is_user; eauto; fail); exfalso; apply T; cbn; tauto.
Qed.

Lemma on_classes_dirty : forall f s, (forall w, w_dirty w = true -> w_dirty (f w) = true) -> s_dirty s = true -> s_dirty (on_classes f s) = true.
Proof. intros f s H D. unfold on_classes. cbn. apply H. exact D. Qed.

Lemma add_dirty : forall k c s, s_dirty s = true -> s_dirty (add k c s) = true.
Proof.
  intros k c s D. unfold add. destruct (class_impl k) as [i|]; [|exact D]. apply on_classes_dirty; [|exact D].
  intros w H. destruct i; cbn; [|exact H]. destruct (has_class w c); [exact H|reflexivity].
Qed.
Lemma remove_dirty : forall k c s, s_dirty s = true -> s_dirty (remove k c s) = true.
Proof.
  intros k c s D. unfold remove. destruct (class_impl k) as [i|]; [|exact D]. apply on_classes_dirty; [|exact D].
  intros w H. unfold Classes_Model.remove_class. destruct (has_class w c); [reflexivity|exact H].
Qed.

Definition unseen (s t : state) : Prop := s_classes t = s_classes s /\ s_visible t = s_visible s /\ s_disabled t = s_disabled s.

Lemma add_own_redraw : forall k c s, In k own_keepers \/ class_impl k = None -> s_dirty (add k c s) = true \/ unseen s (add k c s).
Proof.
  intros k c s K. unfold add, unseen.
  assert (I : class_impl k = Some (Own []) \/ class_impl k = None) by (destruct K as [K | K]; [left; kinds K; reflexivity|auto]).
  destruct I as [-> | ->]; [|auto]. unfold on_classes. cbn [Classes_Model.add_class]. destruct (has_class _ c); cbn; auto.
Qed.
Lemma remove_redraw : forall k c s, s_dirty (remove k c s) = true \/ unseen s (remove k c s).
Proof.
  intros k c s. unfold remove, unseen. destruct (class_impl k); [|auto]. unfold on_classes, Classes_Model.remove_class.
  destruct (has_class _ c); cbn; auto.
Qed.

Lemma one_keeps_dirty : forall o k s, ~ is_user k -> s_dirty s = true -> s_dirty (one user o k s) = true.
Proof.
  intros o k s U D.
  assert (X : one user o k s = match o with
      | AddClass c => add k c s | RemoveClass c => remove k c s | ToggleClass c => toggle k c s
      | SetClass b c => if b then add k c s else remove k c s
      | SetVisible b => set_visible k b s | SetDisabled b => set_disabled k b s | MarkDirty => with_dirty s end).
  { destruct k; try reflexivity. exfalso; apply U; unfold is_user; eauto. }
  rewrite X. destruct o as [c|c|c|[] c|b|b|]; try (apply add_dirty; exact D); try (apply remove_dirty; exact D).
  - unfold toggle. destruct (has k s c); [apply remove_dirty|apply add_dirty]; exact D.
  - unfold set_visible. destruct k; try exact D; try (destruct (Bool.eqb _ _); [exact D|reflexivity]).
  - unfold set_disabled. destruct k; try exact D; try reflexivity. destruct (Bool.eqb _ _); [exact D|reflexivity].
  - reflexivity.
Qed.

Lemma one_redraw : forall o k s, ~ is_user k ->
  (may_add o -> ~ In k wrapping_keepers) -> (forall b, o = SetVisible b -> k <> KLoading) ->
  s_dirty (one user o k s) = true \/ unseen s (one user o k s).
Proof.
  intros o k s U W L.
  assert (X : one user o k s = match o with
      | AddClass c => add k c s | RemoveClass c => remove k c s | ToggleClass c => toggle k c s
      | SetClass b c => if b then add k c s else remove k c s
      | SetVisible b => set_visible k b s | SetDisabled b => set_disabled k b s | MarkDirty => with_dirty s end).
  { destruct k; try reflexivity. exfalso; apply U; unfold is_user; eauto. }
  assert (Ow : may_add o -> In k own_keepers \/ class_impl k = None).
  { intros C. specialize (W C). destruct k; cbn in W |- *; try tauto. }
  rewrite X. destruct o as [c|c|c|[] c|b|b|].
  - apply add_own_redraw. apply Ow. exact I.
  - apply remove_redraw.
  - unfold toggle. destruct (has k s c); [apply remove_redraw|apply add_own_redraw; apply Ow; exact I].
  - apply add_own_redraw. apply Ow. exact I.
  - apply remove_redraw.
  - specialize (L b eq_refl). unfold set_visible, unseen. destruct k; auto; try congruence;
      destruct (Bool.eqb _ _); cbn; auto.
  - unfold set_disabled, unseen. destruct k; auto; destruct (Bool.eqb _ _); cbn; auto.
  - left. reflexivity.
Qed.

Lemma has_keeper : forall k s c, In k keepers -> has k s c = true <-> In c (s_classes s).
Proof.
  intros k s c K. unfold has. assert (I : exists i, class_impl k = Some i) by (kinds K; cbn; eauto). destruct I as (i & ->).
  rewrite has_iff. reflexivity.
Qed.
Lemma add_there : forall k s c, In k keepers -> In c (s_classes (one user (AddClass c) k s)).
Proof.
  intros k s c K. assert (E : one user (AddClass c) k s = add k c s) by (kinds K; reflexivity). rewrite E. unfold add.
  assert (I : exists i, class_impl k = Some i) by (kinds K; cbn; eauto). destruct I as (i & ->).
  unfold on_classes. destruct i; cbn [Classes_Model.add_class s_classes].
  - destruct (has_class _ c) eqn:Hc; cbn [w_classes]; [apply has_iff in Hc; exact Hc|apply in_or_app; right; now left].
  - cbn. apply in_or_app; right; now left.
Qed.
Lemma one_toggle_nodup : forall k c s, In k keepers -> NoDup (s_classes s) -> NoDup (s_classes (one user (ToggleClass c) k s)).
Proof.
  intros k c s K ND. assert (E : one user (ToggleClass c) k s = toggle k c s) by (kinds K; reflexivity). rewrite E. unfold toggle.
  assert (I : exists i, class_impl k = Some i) by (kinds K; cbn; eauto). destruct I as (i & Ei).
  unfold has, remove, add. rewrite Ei. unfold on_classes. destruct (has_class _ c) eqn:Hc; cbn [s_classes].
  - unfold Classes_Model.remove_class. rewrite Hc. cbn. apply remove_first_nodup. exact ND.
  - destruct i; cbn [Classes_Model.add_class]; rewrite ?Hc; apply has_no in Hc; cbn in Hc |- *; apply nodup_snoc; assumption.
Qed.
Lemma set_again : forall k s b, ~ is_user k ->
  one user (SetVisible b) k (one user (SetVisible b) k s) = one user (SetVisible b) k s /\
  one user (SetDisabled b) k (one user (SetDisabled b) k s) = one user (SetDisabled b) k s.
Proof.
  intros k [c v d t] b U. destruct k; try (exfalso; apply U; unfold is_user; eauto; fail); destruct v, d, b; split; reflexivity.
Qed.
Lemma in_remove_first_copy : forall l c, In c l -> In c (remove_first (l ++ [c]) c).
Proof.
  induction l as [|x r IH]; intros c H; [destruct H|]. cbn. destruct (text_eqb x c) eqn:E.
  - apply in_or_app; right; now left.
  - destruct H as [-> | H]; [assert (text_eqb c c = true) by (now apply text_eqb_iff); congruence|]. right. apply IH. exact H.
Qed.
Lemma remove_one_copy : forall k c s, In k wrapping_keepers -> In c (s_classes s) ->
  In c (s_classes (one user (RemoveClass c) k (one user (AddClass c) k s))).
Proof.
  intros k c s K H. assert (E : s_classes (one user (RemoveClass c) k (one user (AddClass c) k s)) =
    w_classes (Classes_Model.remove_class (Widget (s_classes s ++ [c]) (s_dirty s)) c)) by (kinds K; reflexivity).
  rewrite E. unfold Classes_Model.remove_class. destruct (has_class _ c); cbn; [apply in_remove_first_copy; exact H|apply in_or_app; auto].
Qed.

(** *** Marking *)
Definition tame : Prop := forall s, user MarkDirty s = with_dirty s \/ user MarkDirty s = s.

Lemma iter_mark : forall p k s, tame -> let s' := Nat.iter p (one user MarkDirty k) s in
  s_classes s' = s_classes s /\ s_visible s' = s_visible s /\ s_disabled s' = s_disabled s /\
  (~ is_user k -> s_dirty s' = true <-> s_dirty s = true \/ 0 < p).
Proof.
  intros p k s T. induction p as [|p IH]; intros s'; subst s'.
  - cbn. repeat (split; [reflexivity|]). intros _. split; [tauto|]. intros [? | ?]; [assumption|lia].
  - cbv zeta in IH. change (Nat.iter (S p) (one user MarkDirty k) s) with (one user MarkDirty k (Nat.iter p (one user MarkDirty k) s)).
    set (t := Nat.iter p (one user MarkDirty k) s) in *. clearbody t. destruct IH as (A & B & C & D).
    destruct k; cbn [one]; try (cbn; repeat (split; [assumption|]); intros _; split; [intros _; right; lia|reflexivity]).
    destruct (T t) as [-> | ->]; cbn; (repeat (split; [assumption|])); intros X; exfalso; apply X; unfold is_user; eauto.
Qed.

Lemma marked_same : tame -> forall p n, same_but_dirty (marked user p n) n.
Proof.
  intros T p. apply node_ind2. intros k id s ks H. cbn [marked].
  destruct (iter_mark p k s T) as (A & B & C & _). destruct (Nat.iter p (one user MarkDirty k) s) as [c v d b].
  destruct s as [c' v' d' b']. cbn in A, B, C. subst c' v' d'. constructor.
  assert (Re : forall l, same_list l l).
  { assert (Rn : forall n, same_but_dirty n n).
    { apply node_ind2. intros k0 id0 [c0 v0 d0 b0] l Hl. constructor. induction Hl; constructor; assumption. }
    induction l; constructor; auto. }
  destruct (passes_marks k); [|apply Re].
  induction H as [|x r E H IH]; cbn; constructor; assumption.
Qed.

Lemma only_cons : forall n i r, only_screens n (i :: r) <-> passes_marks (n_kind n) = true /\ exists x, nth_error (n_kids n) i = Some x /\ only_screens x r.
Proof.
  intros n i r. cbn [only_screens]. rewrite passes_iff. destruct (nth_error (n_kids n) i) as [x|].
  - split; [intros [A B]; split; eauto|]. intros (A & y & E & B). injection E as <-. auto.
  - split; [tauto|]. intros (_ & y & E & _). discriminate E.
Qed.

Lemma below_cons : forall pick n i r, below_marked pick n (i :: r) <->
  (pick n = true /\ only_screens n (i :: r)) \/
  (holds_children (n_kind n) /\ exists x, nth_error (n_kids n) i = Some x /\ below_marked pick x r).
Proof.
  intros pick n i r. unfold below_marked. split.
  - intros (above & rest & x & E & Nr & R & A & P & O). destruct above as [|j above].
    + cbn in E. subst rest. cbn in A. injection A as <-. left. auto.
    + cbn in E. injection E as <- ->. cbn in R, A. destruct R as [H R].
      destruct (nth_error (n_kids n) i) as [y|]; [|destruct R]. right. split; [exact H|]. exists y. split; [reflexivity|].
      exists above, rest, x. repeat split; assumption.
  - intros [[P O] | (H & x & E & above & rest & y & -> & Nr & R & A & P & O)].
    + exists [], (i :: r), n. split; [reflexivity|]. split; [discriminate|]. split; [exact I|]. split; [reflexivity|]. split; assumption.
    + exists (i :: above), rest, y. cbn. rewrite E. split; [reflexivity|]. repeat (split; [tauto|]). exact O.
Qed.

Section Marks.
Variables (m : text) (sel : ssel) (filter : node -> bool).
Hypotheses (T : tame) (Ig : ignores_dirt filter).
Let pick (x : node) : bool := named m sel x && filter x.

Lemma chosen_marked : forall p n, chosen m sel filter (marked user p n) = pick n.
Proof.
  intros p n. unfold chosen, pick, named. rewrite (Ig _ _ (marked_same T p n)). destruct n; reflexivity.
Qed.

Lemma visit_mark : forall q n p x, at_place n q = Some x ->
  exists y, at_place (visit user m sel filter MarkDirty p n) q = Some y /\
    n_kind y = n_kind x /\ n_id y = n_id x /\ unseen (n_state x) (n_state y) /\
    (~ is_user (n_kind x) ->
     s_dirty (n_state y) = true <->
     s_dirty (n_state x) = true \/ (reached n q /\ pick x = true) \/ below_marked pick n q \/ (0 < p /\ only_screens n q)).
Proof.
  induction q as [|i r IH]; intros n p x E.
  - cbn in E. injection E as <-. eexists. split; [reflexivity|]. destruct (visit_kind m sel filter MarkDirty p n) as (A & B & _).
    repeat (split; [assumption|]). clear A B. destruct n as [k id s ks]. cbn [visit n_state n_kind]. rewrite chosen_marked. cbn [marked n_state].
    destruct (iter_mark p k s T) as (A & B & C & D).
    set (t := Nat.iter p (one user MarkDirty k) s) in *.
    assert (Q : unseen s (if pick (N k id s ks) then one user MarkDirty k t else t) /\
      (~ is_user k -> s_dirty (if pick (N k id s ks) then one user MarkDirty k t else t) = true <-> s_dirty t = true \/ pick (N k id s ks) = true)).
    { destruct (pick (N k id s ks)).
      - pose proof (iter_mark 1 k t T) as X. cbn in X. destruct X as (A' & B' & C' & D').
        split; [unfold unseen; intuition congruence|]. intros U. rewrite (D' U). intuition auto.
      - split; [unfold unseen; auto|]. intros _. intuition discriminate. }
    destruct Q as [Q1 Q2]. split; [exact Q1|]. intros U. rewrite (Q2 U), (D U). cbn [reached only_screens].
    assert (Nb : ~ below_marked pick (N k id s ks) []).
    { intros (a & b & z & Eq & Nr & _). destruct a; [|discriminate Eq]. cbn in Eq. congruence. }
    tauto.
  - destruct n as [k id s ks]. cbn [at_place n_kids] in E. destruct (nth_error ks i) as [c|] eqn:Ec; [|discriminate E].
    cbn [visit at_place n_kids]. rewrite chosen_marked.
    assert (On : only_screens (N k id s ks) (i :: r) <-> passes_marks k = true /\ only_screens c r).
    { rewrite only_cons. cbn [n_kind n_kids]. rewrite Ec. split; [intros (P & y & Ey & O); injection Ey as <-; auto|]. intros [P O]; eauto. }
    assert (Be : below_marked pick (N k id s ks) (i :: r) <-> (pick (N k id s ks) = true /\ passes_marks k = true /\ only_screens c r) \/
       (holds_children k /\ below_marked pick c r)).
    { rewrite below_cons, On. cbn [n_kind n_kids]. rewrite Ec. split.
      - intros [? | (H & y & Ey & O)]; [tauto|]. injection Ey as <-. auto.
      - intros [? | [H O]]; [tauto|]. right. eauto. }
    cbn [reached n_kind n_kids]. rewrite Ec.
    destruct (shows k) eqn:Sh.
    + rewrite nth_map, Ec. cbn [option_map].
      destruct (IH c (if passes_marks k then p + (if pick (N k id s ks) && is_mark MarkDirty then 1 else 0) else 0) x E) as (y & Ey & A & B & Un & D).
      exists y. repeat (split; [assumption|]). intros U. rewrite (D U), Be, On. apply shows_iff in Sh.
      destruct (passes_marks k); destruct (pick (N k id s ks)); cbn [andb is_mark];
        rewrite ?Nat.add_0_r; intuition (try lia; try discriminate).
    + rewrite Ec. exists x. split; [exact E|]. repeat (split; [reflexivity|]). split; [unfold unseen; auto|]. intros U. rewrite Be, On.
      assert (~ holds_children k) by (intros X; apply shows_iff in X; congruence).
      assert (passes_marks k <> true) by (intros X; apply passes_shows in X; congruence). tauto.
Qed.
End Marks.
End User.
