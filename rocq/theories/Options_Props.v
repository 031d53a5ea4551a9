(** C46: option lists. *)
From Coq Require Import ZArith List Bool Arith Lia.
From Verif Require Import Text_Model Markup_Model Markup_Props Options_Model Options_Spec Options_Proofs.
Import ListNotations.
Open Scope nat_scope.

(** C46: after any history of new items, selections, keys, clicks, focus changes
    and resizes the selected index lies inside the list, and it is an available
    option whenever there is one. *)
Theorem C46_selected : forall items os, let s := run items os in
  (o_items s <> [] -> o_selected s < length (o_items s)) /\ (o_items s = [] -> o_selected s = 0) /\
  ((exists i, available s i) -> available s (o_selected s)).
Proof.
  intros items os s. destruct (good_run items os) as [(L & R & A) _]. fold s in L, R, A.
  split; [|split]; auto; intros E; destruct (o_items s); auto; congruence.
Qed.
(** C46: the items and their states are those given last, and nothing else changes
    them. *)
Theorem C46_items : forall items os o, let s := run items os in
  match o with
  | SetItems l => o_items (step s o) = map fst l /\ o_off (step s o) = map snd l
  | _ => o_items (step s o) = o_items s /\ o_off (step s o) = o_off s
  end.
Proof.
  intros items os o s. destruct (good_run items os) as [(L & _) _]. fold s in L.
  destruct o; cbn [step].
  - destruct (o_disabled s || negb (o_visible s)); auto. destruct k; auto; unfold move_selection; destruct (is_nil (o_items s)); auto; destruct (next_enabled_from _ _ _); auto.
  - destruct (o_disabled s || negb (o_visible s)); auto. destruct (negb _); auto. destruct (index_for_row _ _); auto. destruct (disabled_at s n); auto. destruct (o_selected s =? n); auto.
  - unfold set_items. cbn. destruct (normalize_sound (Options (map fst items0) (map snd items0) (o_counts s) (o_selected s) (o_markup s) (o_pending s) (o_children s) (o_focused s) (o_disabled s) (o_visible s) (o_width s))) as (_ & I & O).
    { cbn. rewrite !map_length. reflexivity. } split; [exact I|exact O].
  - unfold set_selected. destruct (is_nil (o_items s)); auto.
    destruct (normalize_sound (with_selected s (Nat.min n (length (o_items s) - 1)))) as (_ & I & O); [exact L|]. split; [exact I|exact O].
  - destruct (Bool.eqb (o_markup s) b); auto.
  - auto.
  - destruct (Bool.eqb (o_focused s) b); auto.
  - auto.
  - auto.
  - auto.
  - destruct (o_width s) as [w'|]; auto. destruct (w' =? w); auto.
Qed.
(** C46: Down moves to the nearest available option after the selected one and
    stays where it is if there is none; Up likewise before it.  Neither wraps. *)
Theorem C46_down : forall items os, let s := run items os in o_disabled s = false -> o_visible s = true ->
  let s' := step s (Key Down) in
  next_of s (o_selected s) (o_selected s') \/ (s' = s /\ forall j, ~ next_of s (o_selected s) j).
Proof.
  intros items os s D V s'. unfold s'. cbn [step]. rewrite D, V. cbn [orb negb]. unfold move_selection. pose proof (next_down s (o_selected s)) as N.
  destruct (o_items s) eqn:E; cbn [is_nil].
  - right. split; auto. intros j (_ & [A _] & _). rewrite E in A. cbn in A. lia.
  - destruct (next_enabled_from s (o_selected s) 1); [left; exact N|]. right. split; auto. intros j (A & B & _). exact (N j A B).
Qed.
Theorem C46_up : forall items os, let s := run items os in o_disabled s = false -> o_visible s = true ->
  let s' := step s (Key Up) in
  prev_of s (o_selected s) (o_selected s') \/ (s' = s /\ forall j, ~ prev_of s (o_selected s) j).
Proof.
  intros items os s D V s'. unfold s'. cbn [step]. rewrite D, V. cbn [orb negb]. unfold move_selection. pose proof (next_up s (o_selected s)) as N.
  pose proof (proj1 (good_run items os)) as (_ & R & _). fold s in R.
  destruct (o_items s) eqn:E; cbn [is_nil].
  - right. split; auto. intros j (_ & [A _] & _). rewrite E in A. cbn in A. lia.
  - cbn [length] in N, R. specialize (N ltac:(lia)). destruct (next_enabled_from s (o_selected s) (-1)); [left; exact N|]. right. split; auto. intros j (A & B & _). exact (N j A B).
Qed.
(** C46: choosing option [n] selects it if it is available; a number past the end
    means the last option, and in place of an unavailable one the nearest available
    after it is taken, or else before it. *)
Theorem C46_set_selected : forall items os n, let s := run items os in let s' := step s (SetSelected n) in
  let m := Nat.min n (length (o_items s) - 1) in
  (available s m -> o_selected s' = m) /\
  (~ available s m -> forall j, next_of s m j -> o_selected s' = j) /\
  (~ available s m -> (forall j, ~ next_of s m j) -> forall j, prev_of s m j -> o_selected s' = j).
Proof.
  intros items os n s s' m. unfold s'. cbn [step]. unfold set_selected. destruct (o_items s) as [|t r] eqn:E; cbn [is_nil].
  - unfold next_of, prev_of, available. rewrite E. cbn [length]. split; [|split]; [intros [A _]; lia|intros _ j (_ & (A & _) & _); lia|intros _ _ j (_ & (A & _) & _); lia].
  - cbn [refresh o_selected]. set (s1 := with_selected s (Nat.min n (length (t :: r) - 1))). unfold normalize. change (o_items s1) with (o_items s). rewrite E. cbn [is_nil].
    change (o_selected s1) with m. assert (M : m < length (t :: r)) by (unfold m; cbn [length]; lia).
    destruct (Nat.leb_spec (length (t :: r)) m); [lia|]. change (o_selected s1) with m.
    pose proof (next_down s1 m) as ND. pose proof (next_up s1 m) as NU. change (o_items s1) with (o_items s) in NU. rewrite E in NU. specialize (NU ltac:(lia)).
    change (next_of s1) with (next_of s) in ND. change (prev_of s1) with (prev_of s) in NU. change (available s1) with (available s) in ND, NU.
    assert (AV : disabled_at s1 m = false <-> available s m). { split; [intros D; split; [rewrite E; lia|exact D]|intros [_ D]; exact D]. }
    assert (U1 : forall j j', next_of s m j -> next_of s m j' -> j = j').
    { intros j j' (A & B & C) (A' & B' & C'). destruct (Nat.lt_trichotomy j j') as [X|[X|X]]; auto; [exfalso; eapply C'; eauto|exfalso; eapply C; eauto]. }
    assert (U2 : forall j j', prev_of s m j -> prev_of s m j' -> j = j').
    { intros j j' (A & B & C) (A' & B' & C'). destruct (Nat.lt_trichotomy j j') as [X|[X|X]]; auto; [exfalso; eapply C; eauto|exfalso; eapply C'; eauto]. }
    destruct (disabled_at s1 m) eqn:D.
    + destruct (next_enabled_from s1 m 1) as [k|].
      * split; [intros A; apply AV in A; discriminate|]. split; [intros _ j J; cbn; eapply U1; eauto|]. intros _ A. exfalso. eapply A; eauto.
      * destruct (next_enabled_from s1 m (-1)) as [k|].
        { split; [intros A; apply AV in A; discriminate|]. split; [intros _ j (J1 & J2 & _); exfalso; eapply ND; eauto|]. intros _ _ j J. cbn. eapply U2; eauto. }
        split; [intros A; apply AV in A; discriminate|]. split; [intros _ j (J1 & J2 & _); exfalso; eapply ND; eauto|]. intros _ _ j (J1 & J2 & _). exfalso. eapply NU; eauto.
    + split; [intros _; reflexivity|]. split; intros A; exfalso; apply A; apply AV; reflexivity.
Qed.
(** C46: the children shown are the options, in order: one each, marked as disabled
    exactly when the option is, and highlighted exactly when it is the selected
    available one. *)
Theorem C46_shown : forall lower known_color items os, let s := run items os in o_items s <> [] ->
  length (o_children s) = length (o_items s) /\
  forall i c, nth_error (o_children s) i = Some c ->
    (ch_disabled c = true <-> ~ available s i) /\ (ch_highlighted c = true <-> i = o_selected s /\ available s i) /\
    exists t, nth_error (o_items s) i = Some t /\
      (o_markup s = false -> parse lower known_color (ch_content c) = Ok (Parsed t [])) /\ (o_markup s = true -> ch_content c = t).
Proof.
  intros lower known_color items os s N. destruct (good_run items os) as [_ [_ F]]. fold s in F. rewrite F. destruct (is_nil (o_items s)) eqn:E; [destruct (o_items s); [congruence|discriminate]|].
  split; [apply children_length|]. intros i c H. rewrite children_nth in H. cbn [Nat.add] in H. destruct (nth_error (o_items s) i) as [t|] eqn:T; cbn [option_map] in H; [|discriminate].
  inversion H; subst c; clear H. cbn. assert (I : i < length (o_items s)) by (apply nth_error_Some; congruence). unfold disabled_at, available.
  split; [|split].
  - destruct (nth i (o_off s) false); split; intros X; [intros [_ Y]; discriminate|reflexivity|discriminate|exfalso; apply X; auto].
  - rewrite andb_true_iff, Nat.eqb_eq, negb_true_iff. tauto.
  - exists t. split; auto. split; intros M; rewrite M; auto. apply C18_escape_roundtrip.
Qed.
(** C46: releasing the left button over a row of an available option selects and
    reports that option; over a row of a disabled option, below the last row or
    outside the list it does nothing. *)
Theorem C46_click : forall items os x y area, let s := run items os in let s' := step s (Release x y area) in
  o_disabled s = false -> o_visible s = true ->
  let inside := (p_x area <= x < p_x area + p_w area)%Z /\ (p_y area <= y < p_y area + p_h area)%Z in
  let r := Z.to_nat (y - p_y area) in
  (forall i, inside -> row_of s r i -> available s i -> o_selected s' = i /\ o_pending s' = Some i) /\
  ((inside -> forall i, row_of s r i -> ~ available s i) -> s' = s).
Proof.
  intros items os x y area s s' D V inside r. unfold s'. cbn [step]. rewrite D, V. cbn [orb negb].
  assert (C : contains_point area x y = true <-> inside).
  { unfold contains_point, inside. rewrite !andb_true_iff, !Z.leb_le, !Z.ltb_lt. tauto. }
  destruct (good_run items os) as [_ [F _]]. fold s in F.
  assert (RI : forall i, index_for_row s r = Some i <-> row_of s r i).
  { intros i. unfold index_for_row, row_of, rows_before. rewrite row_index_spec, F, Nat.sub_0_r. split.
    - intros (c & _ & N & B). rewrite nth_error_map in N. destruct (nth_error (o_items s) i) as [t|]; [|discriminate]. inversion N; subst. exists t. rewrite firstn_map in B. auto.
    - intros (t & N & B). exists (rows t). split; [lia|]. rewrite nth_error_map, N, firstn_map. auto. }
  fold r. split.
  - intros i I R A. rewrite (proj2 C I). cbn [negb]. rewrite (proj2 (RI i) R). destruct A as [A1 A2]. unfold disabled_at. rewrite A2.
    destruct (Nat.eqb_spec (o_selected s) i); cbn; auto.
  - intros H. destruct (contains_point area x y) eqn:CP; cbn [negb]; auto. destruct (index_for_row s r) as [i|] eqn:IR; auto.
    destruct (disabled_at s i) eqn:DA; auto. exfalso. apply (H (proj1 C eq_refl) i); [apply RI; reflexivity|]. split; [|exact DA].
    destruct (proj1 (RI i) eq_refl) as (t & N & _). apply nth_error_Some. congruence.
Qed.
(** C46: a disabled or hidden list does not react to keys or the mouse. *)
Theorem C46_inert : forall s o, (o_disabled s = true \/ o_visible s = false) ->
  match o with Key _ | Release _ _ _ => step s o = s | _ => True end.
Proof. intros s o H. destruct o; cbn [step]; auto; destruct H as [H|H]; rewrite H; cbn [orb negb]; auto; rewrite ?orb_true_r; auto. Qed.
(** C46, refuted: a click that has not been collected outlives the options it was
    about: the reported index may lie outside the list. *)
Theorem C46_pending_refuted : ~ forall items os i, let s := run items os in o_pending s = Some i -> i < length (o_items s).
Proof.
  intros H. specialize (H [[97%Z]; [98%Z]] [Release 0 1 (Place 0 0 5 2); SetItems [([97%Z], false)]] 1).
  specialize (H eq_refl). vm_compute in H. lia.
Qed.
(** C46: between two changes of the items a reported option is an available one. *)
Theorem C46_pending : forall items os n os' i, (n = [] \/ exists l, n = [SetItems l]) ->
  Forall (fun o => forall l, o <> SetItems l) os' ->
  o_pending (run items os) = None -> let s := run items (os ++ n ++ os') in
  o_pending s = Some i -> available s i.
Proof.
  intros items os n os' i Hn Ho Hp s. unfold s. rewrite app_assoc. unfold run in *. rewrite fold_left_app.
  assert (G0 : good (fold_left step (os ++ n) (options_new items))) by (apply good_run).
  assert (P0 : o_pending (fold_left step (os ++ n) (options_new items)) = None).
  { rewrite fold_left_app. destruct Hn as [-> |(l & ->)]; auto. cbn [fold_left step]. set (z := fold_left step os (options_new items)) in *.
    unfold set_items. cbn [refresh o_pending]. unfold normalize. cbn [o_items]. destruct (is_nil (map fst l)); auto. destruct (_ <=? _); cbn [o_selected with_selected];
    (destruct (disabled_at _ _); auto; destruct (next_enabled_from _ _ _); auto; destruct (next_enabled_from _ _ _); auto). }
  revert G0 P0. generalize (fold_left step (os ++ n) (options_new items)). intros s0 G0 P0.
  assert (K : forall i, o_pending s0 = Some i -> available s0 i) by (intros j J; congruence). clear P0 Hp. revert s0 G0 K i. clear s.
  induction Ho as [|o os' NS _ IH]; intros s0 G0 K i; cbn [fold_left]; auto.
  apply IH; [apply good_step; auto|]. clear IH i. intros i.
  assert (EXT : forall s', o_items s' = o_items s0 -> o_off s' = o_off s0 -> o_pending s' = o_pending s0 -> o_pending s' = Some i -> available s' i).
  { intros s' I O P Q. unfold available. rewrite I, O. apply K. congruence. }
  destruct o; cbn [step].
  - destruct (o_disabled s0 || negb (o_visible s0)); auto. destruct k; auto; unfold move_selection; destruct (is_nil (o_items s0)); auto; destruct (next_enabled_from _ _ _); auto; apply EXT; reflexivity.
  - destruct (o_disabled s0 || negb (o_visible s0)); auto. destruct (negb _); auto. destruct (index_for_row _ _) as [j|] eqn:IR; auto. destruct (disabled_at s0 j) eqn:D; auto.
    cbn [o_pending with_pending]. intros E. inversion E; subst j. assert (A : available s0 i).
    { split; auto. apply row_index_spec in IR. destruct IR as (c & _ & N & _). rewrite (proj1 (proj2 G0)) in N. rewrite Nat.sub_0_r in N. rewrite <- (map_length rows). apply nth_error_Some. congruence. }
    destruct (o_selected s0 =? i); exact A.
  - exfalso. eapply NS; reflexivity.
  - unfold set_selected. destruct (is_nil (o_items s0)); [apply EXT; reflexivity|].
    destruct (normalize_sound (with_selected s0 (Nat.min n0 (length (o_items s0) - 1)))) as (_ & I & O); [apply G0|]. apply EXT; [exact I|exact O|].
    cbn [refresh o_pending]. unfold normalize. cbn [o_items with_selected]. destruct (is_nil (o_items s0)); auto. destruct (_ <=? _); cbn [o_selected with_selected];
    (destruct (disabled_at _ _); auto; destruct (next_enabled_from _ _ _); auto; destruct (next_enabled_from _ _ _); auto).
  - destruct (Bool.eqb (o_markup s0) b); auto; apply EXT; reflexivity.
  - discriminate.
  - destruct (Bool.eqb (o_focused s0) b); auto; apply EXT; reflexivity.
  - apply EXT; reflexivity.
  - apply EXT; reflexivity.
  - apply EXT; reflexivity.
  - destruct (o_width s0) as [w'|]; [destruct (w' =? w); auto|]; apply EXT; reflexivity.
Qed.

(** A list [a; b (two lines); c; d] whose option c is disabled. *)
Local Open Scope Z_scope.
Definition demo : list op := [SetItems [([97], false); ([98; 10; 98], false); ([99], true); ([91; 100], false)]].
Example demo_down : map (fun k => o_selected (run [] (demo ++ List.repeat (Key Down) k))) [0; 1; 2; 3]%nat = [0; 1; 3; 3]%nat.
Proof. vm_compute. reflexivity. Qed.
Example demo_up : o_selected (run [] (demo ++ [SetSelected 9; Key Up])) = 1%nat. Proof. vm_compute. reflexivity. Qed.
Example demo_click : let s := run [] (demo ++ [Release 3 12 (Place 0 10 20 6)]) in (o_selected s, o_pending s) = (1%nat, Some 1%nat).
Proof. vm_compute. reflexivity. Qed.
Example demo_click_off : run [] (demo ++ [Release 3 13 (Place 0 10 20 6)]) = run [] demo. Proof. vm_compute. reflexivity. Qed.
Example demo_shown : map ch_highlighted (o_children (run [] (demo ++ [SetSelected 2]))) = [false; false; false; true].
Proof. vm_compute. reflexivity. Qed.

Print Assumptions C46_selected.
Print Assumptions C46_items.
Print Assumptions C46_down.
Print Assumptions C46_up.
Print Assumptions C46_set_selected.
Print Assumptions C46_shown.
Print Assumptions C46_click.
Print Assumptions C46_inert.
Print Assumptions C46_pending_refuted.
Print Assumptions C46_pending.
