(** Lemmas about option lists. *)
From Coq Require Import ZArith List Bool Arith Lia.
From Verif Require Import Text_Model Markup_Model Wrap_Proofs Options_Model Options_Spec.
Import ListNotations.
Open Scope nat_scope.

Section Seek.
Variable s : options.
Notation n := (length (o_items s)).
Lemma seek_down : forall fuel i, n <= fuel + i -> match seek fuel s (Z.of_nat i) 1 with
  | Some j => next_of s i j
  | None => forall j, i < j -> ~ available s j
  end.
Proof.
  induction fuel as [|k IH]; intros i L; cbn [seek]. { intros j Lt [A _]. lia. }
  replace (Z.of_nat i + 1)%Z with (Z.of_nat (S i)) by lia.
  destruct (Z.ltb_spec (Z.of_nat (S i)) 0); [lia|]. destruct (Z.leb_spec (Z.of_nat n) (Z.of_nat (S i))) as [G|G]; cbn [orb].
  - intros j Lt [A _]. lia.
  - rewrite Nat2Z.id. destruct (disabled_at s (S i)) eqn:D.
    + specialize (IH (S i) ltac:(lia)). destruct (seek k s (Z.of_nat (S i)) 1) as [j|].
      * destruct IH as (A & B & C). split; [lia|]. split; auto. intros x X [Ax Dx]. destruct (Nat.eq_dec x (S i)) as [->|N].
        { unfold disabled_at in D. congruence. } apply (C x); [lia|]. split; auto.
      * intros j Lt [A B]. destruct (Nat.eq_dec j (S i)) as [->|N]. { unfold disabled_at in D. congruence. } apply (IH j); [lia|]. split; auto.
    + split; [lia|]. split; [split; [lia|exact D]|]. intros x X. lia.
Qed.
Lemma seek_up : forall fuel i, i < fuel -> i <= n -> match seek fuel s (Z.of_nat i) (-1) with
  | Some j => prev_of s i j
  | None => forall j, j < i -> ~ available s j
  end.
Proof.
  induction fuel as [|k IH]; intros i L Ln; [lia|]. cbn [seek].
  destruct i as [|i]. { cbn. intros j Lt. lia. }
  replace (Z.of_nat (S i) + -1)%Z with (Z.of_nat i) by lia.
  destruct (Z.ltb_spec (Z.of_nat i) 0); [lia|]. destruct (Z.leb_spec (Z.of_nat n) (Z.of_nat i)) as [G|G]; cbn [orb]; [lia|].
  rewrite Nat2Z.id. destruct (disabled_at s i) eqn:D.
  - specialize (IH i ltac:(lia) ltac:(lia)). destruct (seek k s (Z.of_nat i) (-1)) as [j|].
    + destruct IH as (A & B & C). split; [lia|]. split; auto. intros x X [Ax Dx]. destruct (Nat.eq_dec x i) as [->|N].
      { unfold disabled_at in D. congruence. } apply (C x); [lia|]. split; auto.
    + intros j Lt [A B]. destruct (Nat.eq_dec j i) as [->|N]. { unfold disabled_at in D. congruence. } apply (IH j); [lia|]. split; auto.
  - split; [lia|]. split; [split; [lia|exact D]|]. intros x X. lia.
Qed.
Lemma next_down : forall i, match next_enabled_from s i 1 with Some j => next_of s i j | None => forall j, i < j -> ~ available s j end.
Proof. intros i. apply seek_down. lia. Qed.
Lemma next_up : forall i, i <= n -> match next_enabled_from s i (-1) with Some j => prev_of s i j | None => forall j, j < i -> ~ available s j end.
Proof. intros i L. apply seek_up; lia. Qed.
End Seek.

(** The selection is sound. *)
Definition sound (s : options) : Prop :=
  length (o_off s) = length (o_items s) /\
  match o_items s with [] => o_selected s = 0 | _ => o_selected s < length (o_items s) end /\
  ((exists i, available s i) -> available s (o_selected s)).
Lemma normalize_sound : forall s, length (o_off s) = length (o_items s) -> sound (normalize s) /\ o_items (normalize s) = o_items s /\ o_off (normalize s) = o_off s.
Proof.
  intros s L. unfold normalize. destruct (o_items s) as [|t r] eqn:E; cbn [is_nil].
  - unfold sound. cbn. rewrite E. split; auto. split; auto. split; auto. intros (i & A & _). cbn in A. rewrite E in A. cbn in A. lia.
  - set (m := length (t :: r)). set (s1 := if m <=? o_selected s then with_selected s (m - 1) else s).
    assert (H1 : o_items s1 = t :: r /\ o_off s1 = o_off s /\ o_selected s1 < m).
    { unfold s1. destruct (Nat.leb_spec m (o_selected s)); cbn; repeat split; auto. unfold m. cbn. lia. }
    destruct H1 as (I1 & I2 & I3). destruct (disabled_at s1 (o_selected s1)) eqn:D.
    + pose proof (next_down s1 (o_selected s1)) as ND. pose proof (next_up s1 (o_selected s1)) as NU. rewrite I1 in NU. specialize (NU ltac:(fold m; lia)).
      destruct (next_enabled_from s1 (o_selected s1) 1) as [j|].
      * destruct ND as (A & B & C). unfold sound. cbn. rewrite I1, I2. split; auto. split; [congruence|]. split; [destruct B as [B _]; rewrite I1 in B; exact B|]. intros _. exact B.
      * destruct (next_enabled_from s1 (o_selected s1) (-1)) as [j|].
        { destruct NU as (A & B & C). unfold sound. cbn. rewrite I1, I2. split; auto. split; [congruence|]. split; [destruct B as [B _]; rewrite I1 in B; exact B|]. intros _. exact B. }
        unfold sound. rewrite I1, I2. split; auto. split; [congruence|]. split; [exact I3|]. intros (i & Hi). exfalso.
        destruct (Nat.lt_trichotomy i (o_selected s1)) as [X|[X|X]]; [eapply NU; eauto| |eapply ND; eauto]. subst i. destruct Hi as [_ Hi]. unfold disabled_at in D. congruence.
    + unfold sound. rewrite I1, I2. split; auto. split; [congruence|]. split; [exact I3|]. intros _. split; [rewrite I1; exact I3|]. unfold disabled_at in D. exact D.
Qed.
Lemma refresh_sound : forall s, sound s -> sound (refresh s). Proof. intros s H. exact H. Qed.
Lemma pending_sound : forall s p, sound s -> sound (with_pending s p). Proof. intros s p H. exact H. Qed.
Lemma select_sound : forall s i, sound s -> available s i -> sound (with_selected s i).
Proof.
  intros s i (L & _ & _) A. pose proof A as [B C]. unfold sound. cbn. split; auto. split; auto. destruct (o_items s); [cbn in B; lia|exact B].
Qed.
Lemma row_index_spec : forall l row k i, row_index l row k = Some i <-> exists c, k <= i /\ nth_error l (i - k) = Some c /\
  list_sum (firstn (i - k) l) <= row < list_sum (firstn (i - k) l) + c.
Proof.
  induction l as [|c l IH]; intros row k i; cbn [row_index].
  - split; [discriminate|]. intros (c & _ & H & _). destruct (i - k); discriminate.
  - destruct (Nat.ltb_spec row c) as [L|L].
    + split.
      * intros E. inversion E; subst. exists c. rewrite Nat.sub_diag. cbn. repeat split; auto; lia.
      * intros (d & A & B & C). destruct (i - k) as [|m] eqn:M. { f_equal. lia. } exfalso. cbn [firstn] in C. change (list_sum (c :: firstn m l)) with (c + list_sum (firstn m l)) in C. lia.
    + rewrite IH. split.
      * intros (d & A & B & C). exists d. split; [lia|]. replace (i - k) with (S (i - S k)) by lia. split; auto. cbn [firstn].
        change (list_sum (c :: firstn (i - S k) l)) with (c + list_sum (firstn (i - S k) l)). lia.
      * intros (d & A & B & C). destruct (i - k) as [|m] eqn:M. { cbn in B, C. inversion B; subst. lia. }
        exists d. replace (i - S k) with m by lia. split; [lia|]. cbn [nth_error firstn] in B, C. split; auto.
        change (list_sum (c :: firstn m l)) with (c + list_sum (firstn m l)) in C. lia.
Qed.

(** Everything about a reachable list. *)
Definition fresh (s : options) : Prop :=
  o_counts s = map rows (o_items s) /\
  o_children s = (if is_nil (o_items s) then [Child [] false false] else make_children s 0 (o_items s)).
Lemma rows_count : forall t, Nat.max (length (split_char 10%Z t)) 1 = rows t.
Proof. intros t. rewrite split_char_count. unfold rows. lia. Qed.
Lemma children_ext : forall a b l i, o_markup a = o_markup b -> o_off a = o_off b -> o_selected a = o_selected b -> make_children a i l = make_children b i l.
Proof. intros a b l. induction l as [|t l IH]; intros i M O S; auto. cbn [make_children]. unfold disabled_at. rewrite M, O, S. f_equal. apply IH; auto. Qed.
Lemma refresh_fresh : forall s, fresh (refresh s).
Proof.
  intros s. unfold fresh. split.
  - cbn. apply map_ext. intros. apply rows_count.
  - unfold refresh. cbn [o_children o_items]. destruct (o_items s) as [|t r] eqn:E; cbn [is_nil make_children]; auto. f_equal.
    apply children_ext; reflexivity.
Qed.
Lemma fresh_ext : forall a b, fresh a -> o_items a = o_items b -> o_off a = o_off b -> o_counts a = o_counts b -> o_selected a = o_selected b ->
  o_markup a = o_markup b -> o_children a = o_children b -> fresh b.
Proof.
  intros a b [F1 F2] I O C S M K. split; [congruence|]. rewrite <- K, F2, I. destruct (is_nil (o_items b)); auto. apply children_ext; auto.
Qed.
Definition good (s : options) : Prop := sound s /\ fresh s.
Lemma good_new : forall items, good (options_new items).
Proof.
  intros items. split; [|apply refresh_fresh]. apply refresh_sound. apply normalize_sound. cbn. apply map_length.
Qed.
Lemma good_step : forall s o, good s -> good (step s o).
Proof.
  intros s o [So F]. assert (MV : forall d, good (move_selection s d) \/ True) by auto. clear MV.
  assert (FX : forall s', o_items s = o_items s' -> o_off s = o_off s' -> o_counts s = o_counts s' -> o_selected s = o_selected s' ->
    o_markup s = o_markup s' -> o_children s = o_children s' -> good s').
  { intros s' I O C S M K. split; [|eapply fresh_ext; eauto]. unfold sound, available in *. rewrite <- I, <- O, <- S. exact So. }
  assert (RX : forall s', o_items s = o_items s' -> o_off s = o_off s' -> o_selected s = o_selected s' -> good (refresh s')).
  { intros s' I O S. split; [|apply refresh_fresh]. unfold sound, available in *. cbn. rewrite <- I, <- O, <- S. exact So. }
  destruct o; cbn [step].
  - destruct (o_disabled s || negb (o_visible s)); [split; auto|]. destruct k; [| |split; auto].
    + unfold move_selection. destruct (o_items s) as [|t r] eqn:E; cbn [is_nil]; [split; auto|]. pose proof So as (L & R & A).
      pose proof (next_up s (o_selected s)) as N. rewrite E in R, N. specialize (N ltac:(lia)). destruct (next_enabled_from s (o_selected s) (-1)) as [j|]; [|split; auto].
      split; [|apply refresh_fresh]. apply refresh_sound, select_sound; auto. apply N.
    + unfold move_selection. destruct (o_items s) as [|t r] eqn:E; cbn [is_nil]; [split; auto|].
      pose proof (next_down s (o_selected s)) as N. destruct (next_enabled_from s (o_selected s) 1) as [j|]; [|split; auto].
      split; [|apply refresh_fresh]. apply refresh_sound, select_sound; auto. apply N.
  - destruct (o_disabled s || negb (o_visible s)); [split; auto|]. destruct (negb (contains_point area x y)); [split; auto|].
    destruct (index_for_row s (Z.to_nat (y - p_y area))) as [i|] eqn:IR; [|split; auto]. destruct (disabled_at s i) eqn:D; [split; auto|].
    assert (A : available s i).
    { split; auto. apply row_index_spec in IR. destruct IR as (c & _ & N & _). rewrite (proj1 F) in N. rewrite Nat.sub_0_r in N.
      rewrite <- (map_length rows). apply nth_error_Some. congruence. }
    destruct (Nat.eqb_spec (o_selected s) i) as [EQ|NE].
    + apply FX; reflexivity.
    + split. { apply pending_sound, refresh_sound, select_sound; auto. } apply (fresh_ext (refresh (with_selected s i))); [apply refresh_fresh|..]; reflexivity.
  - split; [|apply refresh_fresh]. apply refresh_sound, normalize_sound. cbn. rewrite !map_length. reflexivity.
  - unfold set_selected. destruct (o_items s) as [|t r] eqn:E; cbn [is_nil].
    + split; [|apply refresh_fresh]. unfold sound, available in *. cbn. rewrite E in *. cbn in *. destruct So as (A & B & C). split; auto. split; auto. intros (i & X & _). lia.
    + split; [|apply refresh_fresh]. apply refresh_sound, normalize_sound. cbn. apply So.
  - destruct (Bool.eqb (o_markup s) b); [split; auto|]. apply RX; reflexivity.
  - apply FX; reflexivity.
  - destruct (Bool.eqb (o_focused s) b); [split; auto|]. apply RX; reflexivity.
  - apply FX; reflexivity.
  - apply FX; reflexivity.
  - apply RX; reflexivity.
  - destruct (o_width s) as [w'|]; [destruct (w' =? w); [split; auto|]|]; apply RX; reflexivity.
Qed.
Lemma good_run : forall items os, good (run items os).
Proof.
  intros items os. unfold run. assert (G : good (options_new items)) by apply good_new. revert G. generalize (options_new items). induction os as [|o os IH]; intros s G; auto.
  cbn [fold_left]. apply IH. apply good_step. auto.
Qed.
Lemma children_nth : forall s l k i, nth_error (make_children s k l) i =
  option_map (fun t => Child (if o_markup s then t else escape_markup t) (disabled_at s (k + i)) ((k + i =? o_selected s) && negb (disabled_at s (k + i)))) (nth_error l i).
Proof.
  induction l as [|t l IH]; intros k i. { destruct i; reflexivity. } destruct i as [|i]; cbn [make_children nth_error].
  - rewrite Nat.add_0_r. reflexivity.
  - rewrite IH. replace (S k + i) with (k + S i) by lia. reflexivity.
Qed.
Lemma children_length : forall s l k, length (make_children s k l) = length l.
Proof. induction l; intros; auto. cbn. f_equal. auto. Qed.
