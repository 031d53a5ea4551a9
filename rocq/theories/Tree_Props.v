(** C36 - C39: focus, queries and bubbling on the widget tree. *)
From Coq Require Import ZArith String List Bool Arith Lia Permutation.
From Verif Require Import Text_Model Css_Proofs Tree_Model Tree_Spec Tree_Proofs.
Import ListNotations.
Open Scope nat_scope.

(** ** C36: Tab and Shift+Tab *)
Definition tabs (t : tree) : nat := length (focus_order (t_root t)).

Lemma next_spec : forall t, focus_order (t_root t) <> [] -> exists t' p,
  focus_next t = (t', Some ((t_cur t + 1) mod tabs t)) /\ nth_error (focus_order (t_root t)) ((t_cur t + 1) mod tabs t) = Some p /\
  t_cur t' = (t_cur t + 1) mod tabs t /\ unfocused (t_root t') = unfocused (t_root t) /\ only_focus (t_root t') p.
Proof.
  intros t NE. unfold focus_next. rewrite count_order. fold (tabs t).
  assert (T : tabs t <> 0) by (unfold tabs; destruct (focus_order (t_root t)); [congruence|discriminate]).
  destruct (Nat.eqb_spec (tabs t) 0); [contradiction|]. pose proof (Nat.mod_upper_bound (t_cur t + 1) (tabs t) T) as U.
  destruct (nth_error (focus_order (t_root t)) ((t_cur t + 1) mod tabs t)) as [p|] eqn:E.
  2:{ apply nth_error_None in E. unfold tabs in U at 2. lia. }
  destruct (set_focus_spec _ _ _ E) as (t' & -> & H1 & H2 & H3 & _). exists t', p. auto.
Qed.
Lemma prev_spec : forall t, t_cur t < tabs t -> exists t' p,
  focus_previous t = (t', Some (if t_cur t =? 0 then tabs t - 1 else t_cur t - 1)) /\
  nth_error (focus_order (t_root t)) (if t_cur t =? 0 then tabs t - 1 else t_cur t - 1) = Some p /\
  t_cur t' = (if t_cur t =? 0 then tabs t - 1 else t_cur t - 1) /\ unfocused (t_root t') = unfocused (t_root t) /\ only_focus (t_root t') p.
Proof.
  intros t L. unfold focus_previous. rewrite count_order. fold (tabs t). destruct (Nat.eqb_spec (tabs t) 0); [lia|].
  set (i := if t_cur t =? 0 then tabs t - 1 else t_cur t - 1).
  assert (U : i < tabs t) by (unfold i; destruct (t_cur t =? 0); lia).
  destruct (nth_error (focus_order (t_root t)) i) as [p|] eqn:E. 2:{ apply nth_error_None in E. unfold tabs in U. lia. }
  destruct (set_focus_spec _ _ _ E) as (t' & -> & H1 & H2 & H3 & _). exists t', p. auto.
Qed.
Lemma same_order : forall w w', unfocused w' = unfocused w -> focus_order w' = focus_order w.
Proof. intros w w' E. rewrite <- order_unfocused, E, order_unfocused. reflexivity. Qed.

(** Tab moves to the next widget of the Tab order, wrapping round at the end;
    that widget, and no other visible one, then has the focus.  Nothing else in
    the tree changes. *)
Theorem C36_next : forall t, focus_order (t_root t) <> [] -> exists t' p,
  focus_next t = (t', Some ((t_cur t + 1) mod tabs t)) /\
  nth_error (focus_order (t_root t)) ((t_cur t + 1) mod tabs t) = Some p /\
  t_cur t' = (t_cur t + 1) mod tabs t /\ unfocused (t_root t') = unfocused (t_root t) /\ only_focus (t_root t') p.
Proof. exact next_spec. Qed.

Theorem C36_none : forall t, focus_order (t_root t) = [] -> focus_next t = (t, None) /\ focus_previous t = (t, None).
Proof. intros t E. unfold focus_next, focus_previous. rewrite count_order, E. auto. Qed.

Lemma times_next : forall k t, focus_order (t_root t) <> [] ->
  let t' := times (S k) (fun t => fst (focus_next t)) t in
  t_cur t' = (t_cur t + S k) mod tabs t /\ unfocused (t_root t') = unfocused (t_root t) /\
  exists p, nth_error (focus_order (t_root t)) ((t_cur t + S k) mod tabs t) = Some p /\ only_focus (t_root t') p.
Proof.
  intros k t NE. assert (T : tabs t <> 0) by (unfold tabs; destruct (focus_order (t_root t)); [congruence|discriminate]).
  induction k as [|k IH]; cbn zeta in *.
  - destruct (next_spec t NE) as (t' & p & E & H1 & H2 & H3 & H4). cbn [times]. rewrite E. cbn [fst]. eauto.
  - destruct IH as (I1 & I2 & _). set (tk := times (S k) (fun t => fst (focus_next t)) t) in *.
    change (times (S (S k)) (fun t => fst (focus_next t)) t) with (fst (focus_next tk)).
    assert (O : focus_order (t_root tk) = focus_order (t_root t)) by (apply same_order; auto).
    destruct (next_spec tk ltac:(rewrite O; auto)) as (t' & p & E & H1 & H2 & H3 & H4).
    assert (TT : tabs tk = tabs t) by (unfold tabs; rewrite O; auto). rewrite E. cbn [fst]. rewrite TT, I1 in *.
    rewrite Nat.add_mod_idemp_l in * by auto. replace (t_cur t + S k + 1) with (t_cur t + S (S k)) in * by lia.
    split; auto. split; [congruence|]. exists p. rewrite O in H1. auto.
Qed.

(** Pressing Tab [k] times moves [k] places along the Tab order, cyclically. *)
Theorem C36_steps : forall k t, focus_order (t_root t) <> [] ->
  let t' := times (S k) (fun t => fst (focus_next t)) t in
  t_cur t' = (t_cur t + S k) mod tabs t /\ unfocused (t_root t') = unfocused (t_root t) /\
  exists p, nth_error (focus_order (t_root t)) ((t_cur t + S k) mod tabs t) = Some p /\ only_focus (t_root t') p.
Proof. exact times_next. Qed.

(** Going once round visits every focusable widget exactly once and comes back. *)
Theorem C36_round : forall t, t_cur t < tabs t ->
  Permutation (map (fun k => t_cur (times (S k) (fun t => fst (focus_next t)) t)) (seq 0 (tabs t))) (seq 0 (tabs t)) /\
  (forall i p, nth_error (focus_order (t_root t)) i = Some p -> exists k, k < tabs t /\
     only_focus (t_root (times (S k) (fun t => fst (focus_next t)) t)) p) /\
  t_cur (times (tabs t) (fun t => fst (focus_next t)) t) = t_cur t /\
  (forall p, nth_error (focus_order (t_root t)) (t_cur t) = Some p -> only_focus (t_root (times (tabs t) (fun t => fst (focus_next t)) t)) p).
Proof.
  intros t L. assert (NE : focus_order (t_root t) <> []). { intros E. unfold tabs in L. rewrite E in L. simpl in L. lia. }
  assert (EV : forall i, i < tabs t -> exists k, k < tabs t /\ (t_cur t + S k) mod tabs t = i).
  { intros i Hi. destruct (le_lt_dec i (t_cur t)) as [Hl|Hl].
    - exists (tabs t - t_cur t + i - 1). split; [lia|]. replace (t_cur t + S (tabs t - t_cur t + i - 1)) with (i + 1 * tabs t) by lia.
      rewrite Nat.mod_add by lia. apply Nat.mod_small; auto.
    - exists (i - t_cur t - 1). split; [lia|]. replace (t_cur t + S (i - t_cur t - 1)) with i by lia. apply Nat.mod_small; auto. }
  split; [|split; [|split]].
  - assert (M : map (fun k => t_cur (times (S k) (fun t => fst (focus_next t)) t)) (seq 0 (tabs t)) = map (fun k => (t_cur t + S k) mod tabs t) (seq 0 (tabs t))).
    { apply map_ext. intros k. apply (proj1 (times_next k t NE)). }
    rewrite M. apply Permutation_sym. apply NoDup_Permutation_bis.
    + apply seq_NoDup.
    + rewrite map_length. lia.
    + intros i Hi. apply in_seq in Hi. destruct (EV i ltac:(lia)) as (k & Hk & E). apply in_map_iff. exists k. split; auto. apply in_seq. lia.
  - intros i p Hp. assert (Hi : i < tabs t) by (apply nth_error_Some; congruence). destruct (EV i Hi) as (k & Hk & E). exists k. split; auto.
    destruct (times_next k t NE) as (_ & _ & p' & Hp' & O). rewrite E in Hp'. replace p with p' by congruence. exact O.
  - destruct (tabs t) as [|n] eqn:En; [lia|]. destruct (times_next n t NE) as (E & _). rewrite E, En.
    replace (t_cur t + S n) with (t_cur t + 1 * S n) by lia. rewrite Nat.mod_add by lia. apply Nat.mod_small; auto.
  - intros p Hp. destruct (tabs t) as [|n] eqn:En; [lia|]. destruct (times_next n t NE) as (_ & _ & p' & Hp' & O). rewrite En in Hp'.
    replace (t_cur t + S n) with (t_cur t + 1 * S n) in Hp' by lia. rewrite Nat.mod_add in Hp' by lia. rewrite Nat.mod_small in Hp' by lia.
    replace p with p' by congruence. exact O.
Qed.

(** Shift+Tab undoes Tab and Tab undoes Shift+Tab. *)
Theorem C36_inverse : forall t p, t_cur t < tabs t -> nth_error (focus_order (t_root t)) (t_cur t) = Some p ->
  let u := fst (focus_previous (fst (focus_next t))) in
  let v := fst (focus_next (fst (focus_previous t))) in
  t_cur u = t_cur t /\ only_focus (t_root u) p /\ unfocused (t_root u) = unfocused (t_root t) /\
  t_cur v = t_cur t /\ only_focus (t_root v) p /\ unfocused (t_root v) = unfocused (t_root t).
Proof.
  intros t p L Hp. assert (NE : focus_order (t_root t) <> []). { intros E. unfold tabs in L. rewrite E in L. simpl in L. lia. }
  cbn zeta. destruct (next_spec t NE) as (a & pa & Ea & A1 & A2 & A3 & A4). rewrite Ea. cbn [fst].
  assert (Oa : focus_order (t_root a) = focus_order (t_root t)) by (apply same_order; auto).
  assert (Ta : tabs a = tabs t) by (unfold tabs; rewrite Oa; auto).
  assert (La : t_cur a < tabs a) by (rewrite A2, Ta; apply Nat.mod_upper_bound; lia).
  destruct (prev_spec a La) as (b & pb & Eb & B1 & B2 & B3 & B4). rewrite Eb. cbn [fst].
  assert (C : (if t_cur a =? 0 then tabs a - 1 else t_cur a - 1) = t_cur t).
  { rewrite A2, Ta. destruct (Nat.eq_dec (t_cur t + 1) (tabs t)) as [E|E].
    - rewrite E, Nat.mod_same by lia. simpl. lia.
    - rewrite Nat.mod_small by lia. destruct (Nat.eqb_spec (t_cur t + 1) 0); lia. }
  rewrite C, Oa in B1. rewrite C in B2.
  destruct (prev_spec t L) as (c & pc & Ec & C1 & C2 & C3 & C4). rewrite Ec. cbn [fst].
  assert (Oc : focus_order (t_root c) = focus_order (t_root t)) by (apply same_order; auto).
  assert (Tc : tabs c = tabs t) by (unfold tabs; rewrite Oc; auto).
  destruct (next_spec c ltac:(rewrite Oc; auto)) as (d & pd & Ed & D1 & D2 & D3 & D4). rewrite Ed. cbn [fst].
  assert (D : (t_cur c + 1) mod tabs c = t_cur t).
  { rewrite C2, Tc. destruct (Nat.eqb_spec (t_cur t) 0) as [Z|Z].
    - replace (tabs t - 1 + 1) with (tabs t) by lia. rewrite Nat.mod_same by lia. lia.
    - replace (t_cur t - 1 + 1) with (t_cur t) by lia. apply Nat.mod_small; auto. }
  rewrite D, Oc in D1. rewrite D in D2.
  replace p with pb by congruence. split; auto. split; auto. split; [congruence|]. split; auto. split; [|congruence].
  replace pb with pd by congruence. auto.
Qed.

Definition wd (id ty : string) (can : bool) : wdata := WData (Some (str id)) (str ty) true can false [].
Definition sample : widget :=
  Box (wd "root" "Container" false)
    [Leaf (wd "a" "Input" true);
     Box (wd "box" "Container" false) [Leaf (wd "l" "Label" false); Leaf (wd "b" "Button" true)];
     Box (WData None (str "Container") false false false []) [Leaf (wd "h" "Input" true)];
     Leaf (wd "c" "Input" true)].
Example C36_example : focus_order sample = [[0]; [1; 1]; [3]] /\ t_cur (tree_new sample) < tabs (tree_new sample) /\
  snd (focus_next (tree_new sample)) = Some 1 /\ t_path (fst (focus_next (tree_new sample))) = [1; 1] /\
  t_cur (times 3 (fun t => fst (focus_next t)) (tree_new sample)) = 0 /\ snd (focus_previous (tree_new sample)) = Some 2.
Proof. vm_compute. repeat split; auto. Qed.

(** ** C37: exactly one focused widget *)
(** Focusing the [i]-th widget gives the focus to that widget and takes it from
    every other visible one; nothing but the focus changes. *)
Theorem C37_exactly_one : forall i t p, nth_error (focus_order (t_root t)) i = Some p ->
  exists t', set_focus_index i t = (t', true) /\ t_cur t' = i /\
    unfocused (t_root t') = unfocused (t_root t) /\ only_focus (t_root t') p.
Proof. intros i t p H. destruct (set_focus_spec i t p H) as (t' & H1 & H2 & H3 & H4 & _). eauto. Qed.

(** Out of range nothing happens. *)
Theorem C37_out_of_range : forall i t, focus_order (t_root t) <> [] -> length (focus_order (t_root t)) <= i -> set_focus_index i t = (t, false).
Proof. intros. apply set_focus_false; auto. apply nth_error_None. auto. Qed.

Lemma by_id_spec : forall id t, shown (t_root t) = true ->
  (exists i p d, nth_error (focus_order (t_root t)) i = Some p /\ follow (t_root t) p = Some (Leaf d) /\ w_id d = Some id /\
     (forall j q d', j < i -> nth_error (focus_order (t_root t)) j = Some q -> follow (t_root t) q = Some (Leaf d') -> w_id d' <> Some id) /\
     focus_by_id id t = set_focus_index i t)
  \/ (focus_by_id id t = (t, false) /\ forall p d, In p (focus_order (t_root t)) -> follow (t_root t) p = Some (Leaf d) -> w_id d <> Some id).
Proof.
  intros id t S. unfold focus_by_id. rewrite find_index_spec, S.
  pose proof (first_with_spec _ (fun q : list nat * widget => has_id id (data (snd q))) (items shown (t_root t)) 0) as F.
  destruct (first_with _ (items shown (t_root t)) 0) as [k|k].
  - destruct F as (q & _ & H2 & H3 & H4). rewrite Nat.sub_0_r in *. left. destruct (item_follow _ _ _ (nth_error_In _ _ H2)) as (d & D1 & D2 & _).
    exists k, (fst q), d. split. { unfold focus_order, focus_items. rewrite nth_error_map. fold (items shown (t_root t)). rewrite H2. auto. }
    split; auto. rewrite D2 in H3. split; [apply has_id_iff; auto|]. split; [|reflexivity].
    intros j r d' L Hr Fr E. unfold focus_order, focus_items in Hr. rewrite nth_error_map in Hr. fold (items shown (t_root t)) in Hr.
    destruct (nth_error (items shown (t_root t)) j) as [y|] eqn:Ey; [|discriminate]. inversion Hr; subst r.
    specialize (H4 j y L Ey). destruct (item_follow _ _ _ (nth_error_In _ _ Ey)) as (d2 & X1 & X2 & _). rewrite X2 in H4. cbn in H4.
    replace d2 with d' in H4 by congruence. apply has_id_iff in E. congruence.
  - right. split; auto. destruct F as [_ F]. intros p d Hp Fp E. unfold focus_order, focus_items in Hp. apply in_map_iff in Hp.
    destruct Hp as (y & <- & Hy). specialize (F y Hy). destruct (item_follow _ _ _ Hy) as (d2 & X1 & X2 & _). rewrite X2 in F. cbn in F.
    replace d2 with d in F by congruence. apply has_id_iff in E. congruence.
Qed.

(** focus_by_id focuses the first visible focusable widget with that id, and
    says false, changing nothing, exactly when there is none. *)
Theorem C37_by_id : forall id t, shown (t_root t) = true ->
  (exists i p d t', nth_error (focus_order (t_root t)) i = Some p /\ follow (t_root t) p = Some (Leaf d) /\ w_id d = Some id /\
     (forall j q d', j < i -> nth_error (focus_order (t_root t)) j = Some q -> follow (t_root t) q = Some (Leaf d') -> w_id d' <> Some id) /\
     focus_by_id id t = (t', true) /\ t_cur t' = i /\ unfocused (t_root t') = unfocused (t_root t) /\ only_focus (t_root t') p)
  \/ (focus_by_id id t = (t, false) /\ forall p d, In p (focus_order (t_root t)) -> follow (t_root t) p = Some (Leaf d) -> w_id d <> Some id).
Proof.
  intros id t S. destruct (by_id_spec id t S) as [(i & p & d & H1 & H2 & H3 & H4 & H5)|H]; [|right; auto]. left.
  destruct (C37_exactly_one i t p H1) as (t' & X1 & X2 & X3 & X4). exists i, p, d, t'. rewrite H5. auto 10.
Qed.

(** Invariant of histories when no widget is hidden. *)
Definition cached (t : tree) : Prop := t_path t = [] \/ nth_error (focus_order (t_root t)) (t_cur t) = Some (t_path t).
Definition settled (t : tree) : Prop := nth_error (focus_order (t_root t)) (t_cur t) = Some (t_path t) /\ only_focus (t_root t) (t_path t).
Lemma set_focus_cached : forall i t, nothing_hidden (t_root t) -> cached t ->
  let t' := fst (set_focus_index i t) in
  nothing_hidden (t_root t') /\ cached t' /\
  if snd (set_focus_index i t) then settled t' else (focus_order (t_root t) = [] \/ t' = t).
Proof.
  intros i t H C. cbn zeta. destruct (nth_error (focus_order (t_root t)) i) as [p|] eqn:E.
  - destruct (set_focus_spec i t p E) as (t' & -> & H1 & H2 & H3 & H4). cbn [fst snd].
    assert (N : nothing_hidden (t_root t')) by (eapply hidden_unfocused; [symmetry; exact H2|auto]).
    assert (O : focus_order (t_root t') = focus_order (t_root t)) by (apply same_order; auto).
    assert (P : t_path t' = p).
    { rewrite H4. unfold update_focus. cbn [t_cur t_path t_root].
      assert (FP : match find_path (t_root t') i with inl q => q | inr _ => [] end = p).
      { rewrite find_path_spec. pose proof (all_is_order _ N) as AO. rewrite <- O, <- AO in E. unfold all_order in E. rewrite nth_error_map in E.
        destruct (nth_error (items everything (t_root t')) i); inversion E; auto. }
      destruct (Nat.eqb_spec i (t_cur t)) as [EQ|]; cbn [andb]; [|exact FP].
      destruct (t_path t) as [|x r] eqn:TP; cbn [negb]; [exact FP|]. cbn [t_path]. destruct C as [C|C]; [congruence|]. rewrite <- EQ in C. congruence. }
    split; auto. unfold cached, settled. rewrite H1, P, O. auto.
  - destruct (focus_order (t_root t)) as [|x l] eqn:FO.
    + unfold set_focus_index. rewrite count_order, FO. cbn. split; [|split; [left; auto|left; auto]].
      eapply hidden_unfocused; [|exact H]. symmetry. apply clear_shape.
    + rewrite set_focus_false by (rewrite FO; auto; discriminate). cbn. auto.
Qed.
Lemma do_focus_cached : forall o t, nothing_hidden (t_root t) -> cached t ->
  let t' := fst (do_focus o t) in
  nothing_hidden (t_root t') /\ cached t' /\
  if snd (do_focus o t) then settled t' else (focus_order (t_root t) = [] \/ t' = t).
Proof.
  intros o t H C. cbn zeta. destruct o as [| |i|id].
  - cbn [do_focus]. unfold focus_next. destruct (_ =? 0). { cbn. auto. }
    pose proof (set_focus_cached ((t_cur t + 1) mod count_focusable (t_root t)) t H C) as X. cbn zeta in X.
    destruct (set_focus_index _ t) as [t' b]. cbn [fst snd] in *. destruct b; exact X.
  - cbn [do_focus]. unfold focus_previous. destruct (_ =? 0). { cbn. auto. }
    pose proof (set_focus_cached (if t_cur t =? 0 then count_focusable (t_root t) - 1 else t_cur t - 1) t H C) as X. cbn zeta in X.
    destruct (set_focus_index _ t) as [t' b]. cbn [fst snd] in *. destruct b; exact X.
  - apply set_focus_cached; auto.
  - cbn [do_focus]. unfold focus_by_id. destruct (find_index_by_id id (t_root t) 0); [apply set_focus_cached; auto|]. cbn. auto.
Qed.
Lemma settled_stays : forall ops t, nothing_hidden (t_root t) -> settled t -> settled (do_all ops t).
Proof.
  induction ops as [|o ops IH]; intros t H S; auto. cbn [do_all fold_left].
  assert (C : cached t) by (right; apply S). pose proof (do_focus_cached o t H C) as X. cbn zeta in X. destruct X as (X1 & X2 & X3).
  apply IH; auto. destruct (snd (do_focus o t)); auto. destruct X3 as [E| ->]; auto. exfalso. destruct S as [S _]. rewrite E in S. destruct (t_cur t); discriminate.
Qed.
Lemma all_cached : forall ops t, nothing_hidden (t_root t) -> cached t -> nothing_hidden (t_root (do_all ops t)) /\ cached (do_all ops t).
Proof.
  induction ops as [|o ops IH]; intros t H C; auto. cbn [do_all fold_left]. pose proof (do_focus_cached o t H C) as X. cbn zeta in X.
  destruct X as (X1 & X2 & _). apply IH; auto.
Qed.

(** In a tree without hidden widgets, from the first successful focus change on
    and after any further operations, the remembered path leads to a widget that
    has the focus and is the only one that has it. *)
Theorem C37_path_leads_to_focus : forall root before o later,
  nothing_hidden root ->
  snd (do_focus o (do_all before (tree_new root))) = true ->
  let t := do_all later (fst (do_focus o (do_all before (tree_new root)))) in
  exists d, focused_widget t = Some (Leaf d) /\ w_focused d = true /\ w_can d = true /\
    forall q, has_focus (t_root t) q <-> q = t_path t.
Proof.
  intros root before o later H B t.
  destruct (all_cached before (tree_new root) H (or_introl eq_refl)) as [H1 C1].
  pose proof (do_focus_cached o _ H1 C1) as X. cbn zeta in X. rewrite B in X. destruct X as (H2 & C2 & S2).
  assert (S : settled t) by (apply settled_stays; auto).
  assert (N : nothing_hidden (t_root t)) by (apply all_cached; auto).
  destruct S as [S1 S3].
  assert (V : In (t_path t) (visible_paths (t_root t))).
  { apply nth_error_In in S1. unfold focus_order, focus_items in S1. apply in_map_iff in S1. destruct S1 as (q & <- & Hq). apply filter_In in Hq.
    apply in_map. apply Hq. }
  destruct (proj2 (S3 _ V) eq_refl) as (d & D1 & D2). exists d. split; auto. split; auto. split.
  - apply nth_error_In in S1. unfold focus_order, focus_items in S1. apply in_map_iff in S1. destruct S1 as (q & E & Hq).
    destruct (item_follow _ _ _ Hq) as (d' & X1 & _ & X3). rewrite E in X1. congruence.
  - intros q. split. 2:{ intros ->. exists d. auto. }
    intros (d' & D3 & D4). apply S3; [|exists d'; auto]. unfold visible_paths. rewrite walk_nothing_hidden by auto.
    apply walk_everything in D3. apply (in_map fst) in D3. exact D3.
Qed.

(** With a hidden focusable widget before it, the remembered path leads to the
    hidden widget instead of the focused one: key presses and the sender of
    messages are attributed to the wrong widget. *)
Definition hidden_first : widget :=
  Box (wd "root" "Container" false)
    [Leaf (WData (Some (str "hidden")) (str "Input") false true false []); Leaf (wd "seen" "Input" true)].
Theorem C37_hidden_path_refuted : exists root,
  let t := fst (set_focus_index 0 (tree_new root)) in
  snd (set_focus_index 0 (tree_new root)) = true /\ has_focus (t_root t) [1] /\ t_path t = [0] /\ ~ has_focus (t_root t) (t_path t).
Proof.
  exists hidden_first. cbn zeta. split; [reflexivity|]. split. { eexists. split; [vm_compute; reflexivity|reflexivity]. }
  split; [reflexivity|]. intros (d & E & F). vm_compute in E. inversion E; subst d. discriminate.
Qed.

(** A focused widget that gets hidden keeps its focus: focusing another one and
    showing it again leaves two focused widgets. *)
Definition set_shown (b : bool) (d : wdata) : wdata := WData (w_id d) (w_type d) b (w_can d) (w_focused d) (w_classes d).
Definition two_inputs : widget := Box (wd "root" "Container" false) [Leaf (wd "a" "Input" true); Leaf (wd "b" "Input" true)].
Theorem C37_hidden_keeps_focus_refuted : exists root,
  let t1 := fst (set_focus_index 0 (tree_new root)) in
  let t2 := fst (set_focus_index 0 (Tree (update_at [0] (set_shown false) (t_root t1)) (t_path t1) (t_cur t1))) in
  let w := update_at [0] (set_shown true) (t_root t2) in
  nothing_hidden root /\ nothing_hidden w /\ has_focus w [0] /\ has_focus w [1].
Proof.
  exists two_inputs. cbn zeta. split; [|split; [|split]].
  - intros q H. vm_compute in H. repeat destruct H as [<-|H]; try reflexivity. destruct H.
  - intros q H. vm_compute in H. repeat destruct H as [<-|H]; try reflexivity. destruct H.
  - eexists. split; [vm_compute; reflexivity|reflexivity].
  - eexists. split; [vm_compute; reflexivity|reflexivity].
Qed.

Example C37_example : nothing_hidden two_inputs /\ snd (do_focus (ToId (str "b")) (do_all [Next; Previous] (tree_new two_inputs))) = true /\
  t_path (do_all [Next; Next; ToIndex 7] (fst (do_focus (ToId (str "b")) (do_all [Next; Previous] (tree_new two_inputs))))) = [1].
Proof.
  split; [|split; vm_compute; reflexivity]. intros q H. vm_compute in H. repeat destruct H as [<-|H]; try reflexivity. destruct H.
Qed.

(** ** C38: queries *)
(** [for_each] calls the closure on exactly the matching widgets, each once, in
    document order, and changes nothing else. *)
Theorem C38_each : forall q f w,
  snd (query_each q f w) = map snd (matches_in (query_test q) w) /\
  entries (fst (query_each q f w)) = change_all (query_test q) f (entries w).
Proof. intros. destruct (apply_all_spec (query_test q) f w). auto. Qed.
Theorem C38_count : forall q w, query_count q w = length (matches_in (query_test q) w).
Proof. intros. unfold query_count. rewrite (proj1 (C38_each q _ w)). apply map_length. Qed.
(** [first] and [query_one] use the first, [last] the last match. *)
Theorem C38_first : forall q f w,
  match matches_in (query_test q) w with
  | [] => query_first q f w = (w, None)
  | e :: _ => snd (query_first q f w) = Some (snd e) /\ entries (fst (query_first q f w)) = change_at (fst e) f (entries w)
  end.
Proof.
  intros. unfold query_first. rewrite apply_first_spec. destruct (matches_in (query_test q) w) as [|e l]; auto. cbn [fst snd]. split; auto.
  apply entries_update.
Qed.
Theorem C38_last : forall q f w,
  match rev (matches_in (query_test q) w) with
  | [] => query_last q f w = (w, None)
  | e :: _ => snd (query_last q f w) = Some (snd e) /\ entries (fst (query_last q f w)) = change_at (fst e) f (entries w)
  end.
Proof.
  intros. unfold query_last. pose proof (apply_last_spec (query_test q) f w) as H. destruct (rev (matches_in (query_test q) w)) as [|e l]; auto.
  rewrite H. cbn [fst snd]. split; auto. apply entries_update.
Qed.
(** Paths identify widgets: no widget is listed twice and every widget is. *)
Theorem C38_entries : forall w, NoDup (map fst (entries w)) /\
  forall p d, In (p, d) (entries w) <-> exists k, follow w p = Some k /\ data k = d.
Proof.
  intros w. split.
  - unfold entries. rewrite map_map. cbn [fst]. apply (walk_NoDup everything w).
  - intros p d. split.
    + intros H. apply entry_follow in H. exact H.
    + intros (k & H & <-). apply walk_everything in H. apply (in_map (fun q => (fst q, data (snd q)))) in H. exact H.
Qed.
(** Which widgets the selector strings select. *)
Theorem C38_type_selector : forall s t d, trim s = t -> t <> [] -> ~ In 35%Z t ->
  (query_test (new_query s) d = true <-> w_type d = t).
Proof.
  intros s t d E NE N. unfold query_test, new_query, parse_selector. rewrite E. destruct t as [|c r]; [congruence|].
  destruct (Z.eqb_spec c 35) as [->|]; [exfalso; apply N; left; auto|]. rewrite split_hash_none by auto.
  cbn [q_sel q_filter sel_matches ss_type ss_id]. rewrite !andb_true_r. unfold sel_matches. cbn. rewrite !andb_true_r. apply text_eqb_eq.
Qed.
Theorem C38_id_selector : forall s i d, trim s = 35%Z :: i -> (query_test (new_query s) d = true <-> w_id d = Some i).
Proof.
  intros s i d E. unfold query_test, new_query, parse_selector. rewrite E. cbn. unfold sel_matches. cbn. rewrite !andb_true_r. apply has_id_iff.
Qed.
Theorem C38_type_id_selector : forall s t i d, trim s = t ++ 35%Z :: i -> t <> [] -> ~ In 35%Z t -> i <> [] ->
  (query_test (new_query s) d = true <-> w_type d = t /\ w_id d = Some i).
Proof.
  intros s t i d E NE N NI. unfold query_test, new_query, parse_selector. rewrite E. destruct t as [|c r]; [congruence|]. cbn [app].
  destruct (Z.eqb_spec c 35) as [->|]; [exfalso; apply N; left; auto|]. change (c :: r ++ 35%Z :: i) with ((c :: r) ++ 35%Z :: i).
  rewrite split_hash_some by auto. destruct i as [|x i]; [congruence|]. cbn. unfold sel_matches. cbn [ss_type ss_id].
  rewrite !andb_true_r, andb_true_iff, text_eqb_eq, has_id_iff. tauto.
Qed.
Theorem C38_empty_selector : forall s w, trim s = [] -> matches_in (query_test (new_query s)) w = [].
Proof.
  intros s w E. unfold matches_in. induction (entries w) as [|e l IH]; auto. cbn [filter].
  replace (query_test (new_query s) (snd e)) with false; [exact IH|]. unfold query_test, new_query, parse_selector. rewrite E. reflexivity.
Qed.
(** One filter narrows the selection... *)
Theorem C38_filter : forall q p d, q_filter q = None ->
  (query_test (add_filter p q) d = true <-> query_test q d = true /\ p d = true).
Proof. intros q p d E. unfold query_test, add_filter. cbn. rewrite E, andb_true_r, andb_true_iff. tauto. Qed.
(** ... but a second one replaces the first instead of narrowing further. *)
Theorem C38_two_filters_refuted : exists q p1 p2 w,
  query_count (add_filter p2 (add_filter p1 q)) w <> length (matches_in (fun d => query_test q d && p1 d && p2 d) w).
Proof.
  exists (new_query (str "Input")), (has_id (str "a")), (has_id (str "h")), sample. vm_compute. discriminate.
Qed.
(** The descendant selector of the documentation selects nothing. *)
Theorem C38_descendant_refuted : exists w d, In ([0], d) (entries w) /\ w_type d = str "Label" /\ w_id (data w) = Some (str "items") /\
  query_count (new_query (str "#items Label")) w = 0.
Proof.
  exists (Box (wd "items" "Container" false) [Leaf (wd "x" "Label" false)]). eexists. split; [right; left; reflexivity|]. vm_compute. auto.
Qed.
Example C38_example : matches_in (query_test (new_query (str " Input "))) sample
    = [([0], wd "a" "Input" true); ([2; 0], wd "h" "Input" true); ([3], wd "c" "Input" true)] /\
  query_count (new_query (str "Button#b")) sample = 1 /\ trim (str " Input ") = str "Input" /\
  snd (query_last (new_query (str "Input")) (fun d => d) sample) = Some (wd "c" "Input" true).
Proof. vm_compute. repeat split. Qed.

(** ** C39: bubbling *)
Section C39.
Variables M St : Type.
Variable handle : list nat -> St -> envelope M -> option M * St * envelope M.

(** The ancestors are called from the parent to the root, each at most once;
    each gets the message as the previous one left it, and only while it is
    still bubbling; all of them are called unless the message was stopped. *)
Theorem C39_bubble : forall root path s e, follow root path <> None ->
  let '((s', calls), e') := bubble_message M (St * list (call M St)) (recording M St handle) root path (s, []) e in
  (exists k, map (fun c => fst (fst c)) calls = firstn k (ancestors path)) /\
  chained M St handle (s, e) calls (s', e') /\
  (map (fun c => fst (fst c)) calls = ancestors path \/ e_bubbling e' = false).
Proof.
  intros root path s e H. unfold bubble_message. destruct (bubble_log M St handle root path H (length path) s [] e) as (calls & H1 & (k & H2) & H3 & H4).
  destruct (bubble _ _ _ _ _ _ _ _) as [[s' log] e']. cbn [fst snd app] in *. subst log. fold (ancestors path) in H2. split; [eauto|]. split; auto.
  destruct H4 as [L|]; auto. left. rewrite H2. apply (f_equal (@length _)) in H2. rewrite map_length in H2. unfold call in *. rewrite L in H2. rewrite firstn_all2; auto.
  rewrite firstn_length in H2. unfold ancestors in *. rewrite map_length, rev_length, seq_length in *. lia.
Qed.
(** If no handler stops the message every ancestor gets it. *)
Theorem C39_all_ancestors : forall root path s e, follow root path <> None -> e_bubbling e = true ->
  (forall p st env, e_bubbling env = true -> e_bubbling (snd (handle p st env)) = true) ->
  let '((s', calls), e') := bubble_message M (St * list (call M St)) (recording M St handle) root path (s, []) e in
  map (fun c => fst (fst c)) calls = ancestors path.
Proof.
  intros root path s e H B NS. pose proof (C39_bubble root path s e H) as X. destruct (bubble_message _ _ _ _ _ _ _) as [[s' calls] e'].
  destruct X as (_ & C & [|F]); auto. exfalso. clear - C B NS F. revert s e B C. induction calls as [|[[p st] env] r IH]; intros s e B C.
  - cbn in C. inversion C; subst. congruence.
  - cbn [chained fst snd] in C. destruct C as (E & B2 & C). unfold after in C. specialize (NS p st env B2).
    destruct (handle p st env) as [[o s1] e1]. cbn in NS. eapply IH; [|exact C]. destruct o; auto.
Qed.
(** The handler that stops the message is the last one called. *)
Theorem C39_stop : forall root path s e, follow root path <> None ->
  let '((s', calls), e') := bubble_message M (St * list (call M St)) (recording M St handle) root path (s, []) e in
  forall i c, nth_error calls i = Some c -> e_bubbling (snd (after M St handle c)) = false -> S i = length calls.
Proof.
  intros root path s e H. pose proof (C39_bubble root path s e H) as X. destruct (bubble_message _ _ _ _ _ _ _) as [[s' calls] e'].
  destruct X as (_ & C & _). revert C. generalize (s, e), (s', e'). induction calls as [|c r IH]; intros x y C i c' N F; [destruct i; discriminate|].
  cbn [chained] in C. destruct C as (_ & _ & C). destruct i as [|i]; simpl in N.
  - inversion N; subst c'. destruct r as [|c2 r]; auto. cbn [chained] in C. destruct C as (E & B & _).
    exfalso. rewrite <- E in F. cbn in F. congruence.
  - simpl. f_equal. eapply IH; eauto.
Qed.
End C39.
(** The parent renames the message, the grandparent stops it, the root is not asked. *)
Definition stopper (p : list nat) (s : nat) (e : envelope text) : option text * nat * envelope text :=
  match p with
  | [0; 1] => (Some (str "renamed"), S s, e)
  | [0] => (None, S s, Envelope (e_msg e) (e_sender e) (e_sender_type e) false)
  | _ => (None, S s, e)
  end.
Definition deep : widget :=
  Box (wd "r" "Screen" false) [Box (wd "g" "V" false) [Leaf (wd "x" "L" false); Box (wd "p" "H" false) [Leaf (wd "i" "Input" true)]]].
Example C39_example : follow deep [0; 1; 0] <> None /\ ancestors [0; 1; 0] = [[0; 1]; [0]; []] /\
  bubble_message text (nat * list (call text nat)) (recording text nat stopper) deep [0; 1; 0] (0, []) (Envelope (str "m") (Some (str "i")) (str "Input") true)
  = ((2, [([0; 1], 0, Envelope (str "m") (Some (str "i")) (str "Input") true);
          ([0], 1, Envelope (str "renamed") (Some (str "i")) (str "Input") true)]),
     Envelope (str "renamed") (Some (str "i")) (str "Input") false).
Proof. split; [vm_compute; discriminate|]. split; vm_compute; reflexivity. Qed.

Print Assumptions C36_next. Print Assumptions C36_none. Print Assumptions C36_steps. Print Assumptions C36_round. Print Assumptions C36_inverse.
Print Assumptions C37_exactly_one. Print Assumptions C37_out_of_range. Print Assumptions C37_by_id. Print Assumptions C37_path_leads_to_focus.
Print Assumptions C37_hidden_path_refuted. Print Assumptions C37_hidden_keeps_focus_refuted.
Print Assumptions C38_each. Print Assumptions C38_count. Print Assumptions C38_first. Print Assumptions C38_last. Print Assumptions C38_entries.
Print Assumptions C38_type_selector. Print Assumptions C38_id_selector. Print Assumptions C38_type_id_selector. Print Assumptions C38_empty_selector.
Print Assumptions C38_filter. Print Assumptions C38_two_filters_refuted. Print Assumptions C38_descendant_refuted.
Print Assumptions C39_bubble. Print Assumptions C39_all_ancestors. Print Assumptions C39_stop.
