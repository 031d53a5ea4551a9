(** C24, continued: the values declarations give, and how text styles add up. *)
From Coq Require Import String ZArith List Bool Arith Sorted Permutation Lia.
From Verif Require Import Text_Model Css_Model Css_Spec Css_Proofs Cascade_Spec Css_Props.
Import ListNotations.
Local Open Scope nat_scope.
Notation length := List.length.
Local Open Scope list_scope.

Section Cascade.
Context {V : Type}.
Variables (theme_color theme_edge theme_style theme_hatch theme_keyline auto_flag : V -> V) (v_true : V)
  (sp_top sp_right sp_bottom sp_left size_h size_v : V -> V) (merge : V -> V -> V).
Notation applyd := (apply_declaration V theme_color theme_edge theme_style theme_hatch theme_keyline auto_flag v_true
  sp_top sp_right sp_bottom sp_left size_h size_v merge).
Notation compute := (compute_style V theme_color theme_edge theme_style theme_hatch theme_keyline auto_flag v_true
  sp_top sp_right sp_bottom sp_left size_h size_v merge).
Notation gives := (gives theme_color theme_edge theme_style theme_hatch theme_keyline auto_flag v_true
  sp_top sp_right sp_bottom sp_left size_h size_v).

Lemma gives_keys : forall d k, In k (properties_of d) <-> exists v, In (k, v) (gives d).
Proof.
  intros d k. assert (P : forall l : list (slot * V), (exists v, In (k, v) l) <-> In k (map fst l)).
  { intros l. rewrite in_map_iff. split; [intros [v H]; exists (k, v); auto|intros [[k' v] [<- H]]; eauto]. }
  rewrite P. destruct d; cbn; tauto.
Qed.
(** A declaration gives each of its properties the value of the table. *)
Theorem C24_values : forall d k v, In (k, v) (gives d) -> accumulates k = false -> assigns applyd d k v.
Proof.
  intros d k v H A. destruct d; cbn [Cascade_Spec.gives In] in H;
    repeat (match type of H with _ \/ _ => destruct H as [H|H] end; try (injection H as <- <-; try discriminate A; intro st; cbn [apply_declaration]; unfold merge_in;
      repeat (rewrite set_same || rewrite set_other by discriminate); reflexivity)); destruct H.
Qed.
(** A text style is merged into what was there. *)
Theorem C24_text_style_merges : forall d k v, In (k, v) (gives d) -> accumulates k = true -> forall s, applyd s d k = merge (s k) v.
Proof.
  intros d k v H A st. destruct d; cbn [Cascade_Spec.gives In] in H;
    repeat (match type of H with _ \/ _ => destruct H as [H|H] end; try (injection H as <- <-; try discriminate A; cbn [apply_declaration]; unfold merge_in;
      rewrite set_same; reflexivity)); destruct H.
Qed.

(** The declarations in force, each with its priority. *)
Definition tagged (m : matched V) : list (specificity * nat * nat * declaration V) :=
  map (fun jd => (mr_spec V m, mr_order V m, fst jd, snd jd)) (combine (seq 0 (length (decls_of V (r_items V (mr_rule V m))))) (decls_of V (r_items V (mr_rule V m)))).
Definition below (a b : specificity * nat * nat * V) : Prop :=
  let '(s1, i1, j1, _) := a in let '(s2, i2, j2, _) := b in lower_priority s1 i1 j1 s2 i2 j2.
Definition belowd (a b : specificity * nat * nat * declaration V) : Prop :=
  let '(s1, i1, j1, _) := a in let '(s2, i2, j2, _) := b in lower_priority s1 i1 j1 s2 i2 j2.
Lemma tagged_snd : forall m, map snd (tagged m) = decls_of V (r_items V (mr_rule V m)).
Proof.
  intros m. unfold tagged. rewrite map_map. cbn. set (l := decls_of V (r_items V (mr_rule V m))). clearbody l. generalize 0 as n. induction l as [|d l IH]; intros n; cbn; [reflexivity|]. f_equal. apply IH.
Qed.
Lemma in_tagged : forall m s i j d, In (s, i, j, d) (tagged m) <-> s = mr_spec V m /\ i = mr_order V m /\ nth_error (decls_of V (r_items V (mr_rule V m))) j = Some d.
Proof.
  intros m s i j d. unfold tagged. set (l := decls_of V (r_items V (mr_rule V m))). clearbody l. rewrite in_map_iff.
  assert (C : forall n, In (j, d) (combine (seq n (length l)) l) <-> n <= j /\ nth_error l (j - n) = Some d).
  { induction l as [|e l IH]; intros n; cbn [length seq combine In]. { split; [intros []|]. intros [_ H]. destruct (j - n); discriminate. }
    rewrite IH. split.
    - intros [H|[L H]]; [injection H as -> ->; split; [lia|]; rewrite Nat.sub_diag; reflexivity|]. split; [lia|]. replace (j - n) with (S (j - S n)) by lia. exact H.
    - intros [L H]. destruct (Nat.eq_dec j n) as [->|N]; [left; rewrite Nat.sub_diag in H; injection H as ->; reflexivity|right]. split; [lia|]. replace (j - n) with (S (j - S n)) in H by lia. exact H. }
  split.
  - intros [[j' d'] [E H]]. cbn in E. injection E as <- <- <- <-. specialize (C 0). rewrite Nat.sub_0_r in C. apply C in H. tauto.
  - intros (-> & -> & H). exists (j, d). split; [reflexivity|]. apply (C 0). rewrite Nat.sub_0_r. split; [lia|exact H].
Qed.
Lemma sorted_app : forall A (R : A -> A -> Prop) a b, StronglySorted R a -> StronglySorted R b -> (forall x y, In x a -> In y b -> R x y) -> StronglySorted R (a ++ b).
Proof.
  intros A R a b SA SB H. induction SA as [|x a SA IH F]; cbn; auto. constructor.
  - apply IH. intros u v U W. apply H; [right; exact U|exact W].
  - apply Forall_app. split; auto. apply Forall_forall. intros y Y. apply H; [left; reflexivity|exact Y].
Qed.
Lemma tagged_sorted : forall l, StronglySorted (mlt V) l -> StronglySorted belowd (flat_map tagged l).
Proof.
  intros l S. induction S as [|m l S IH F]; cbn; [constructor|]. apply sorted_app; auto.
  - unfold tagged. set (ds := decls_of V (r_items V (mr_rule V m))). clearbody ds. generalize 0 as n. induction ds as [|d ds IHd]; intros n; cbn; [constructor|]. constructor; [apply IHd|]. apply Forall_forall. intros [[[s i] j] e] H. apply in_map_iff in H. destruct H as [[j' e'] [E H]]. cbn in E. injection E as <- <- <- <-.
    apply in_combine_l, in_seq in H. cbn. right. split; auto. right. split; auto. lia.
  - intros [[[s i] j] d] [[[s' i'] j'] d'] X Y. apply in_tagged in X. destruct X as (-> & -> & _). apply in_flat_map in Y. destruct Y as (m' & M & Y). apply in_tagged in Y. destruct Y as (-> & -> & _). rewrite Forall_forall in F. specialize (F m' M). apply (matched_cmp_lt V theme_color theme_edge theme_style theme_hatch theme_keyline auto_flag v_true sp_top sp_right sp_bottom sp_left size_h size_v merge) in F. cbn. destruct F as [F|[F1 F2]]; [left; exact F|right; split; auto].
Qed.
(** The values declared for a property, lowest priority first. *)
Definition pick (k : slot) (x : specificity * nat * nat * declaration V) : list (specificity * nat * nat * V) :=
  let '(s, i, j, d) := x in flat_map (fun kv => if slot_eq_dec (fst kv) k then [(s, i, j, snd kv)] else []) (gives d).
Lemma pick_one : forall k s i j d, accumulates k = true -> pick k (s, i, j, d) = match find (fun kv => if slot_eq_dec (fst kv) k then true else false) (gives d) with Some kv => [(s, i, j, snd kv)] | None => [] end.
Proof. intros k s i j d A. unfold pick. destruct k; try discriminate A; destruct d; cbn; reflexivity. Qed.
Lemma in_pick : forall k s i j d s' i' j' v, In (s', i', j', v) (pick k (s, i, j, d)) <-> s' = s /\ i' = i /\ j' = j /\ In (k, v) (gives d).
Proof.
  intros. unfold pick. rewrite in_flat_map. split.
  - intros ([k' v'] & I & H). cbn in H. destruct (slot_eq_dec k' k) as [->|]; [|destruct H]. destruct H as [H|[]]. injection H as <- <- <- <-. auto.
  - intros (-> & -> & -> & I). exists (k, v). split; auto. cbn. destruct (slot_eq_dec k k); [left; reflexivity|congruence].
Qed.
Lemma pick_sorted : forall k l, accumulates k = true -> StronglySorted belowd l -> StronglySorted below (flat_map (pick k) l).
Proof.
  intros k l A S. induction S as [|[[[s i] j] d] l S IH F]; cbn [flat_map]; [constructor|]. apply sorted_app; auto.
  - rewrite pick_one by exact A. destruct (find _ _); repeat constructor.
  - intros [[[s1 i1] j1] v1] [[[s2 i2] j2] v2] X Y. apply in_pick in X. destruct X as (-> & -> & -> & _). apply in_flat_map in Y. destruct Y as ([[[s3 i3] j3] d3] & M & Y). apply in_pick in Y. destruct Y as (-> & -> & -> & _). rewrite Forall_forall in F. exact (F _ M).
Qed.
Lemma fold_pick : forall k, accumulates k = true -> forall l s, fold_left applyd (map snd l) s k = fold_left merge (map snd (flat_map (pick k) l)) (s k).
Proof.
  intros k A. induction l as [|[[[sp i] j] d] l IH]; intros s; cbn [map fold_left flat_map]; [reflexivity|]. rewrite IH, map_app, fold_left_app. f_equal. rewrite pick_one by exact A. cbn [snd].
  destruct (find (fun kv => if slot_eq_dec (fst kv) k then true else false) (gives d)) as [[k' v]|] eqn:F.
  - apply find_some in F. destruct F as [I E]. cbn in E. destruct (slot_eq_dec k' k) as [->|]; [|discriminate]. cbn. apply C24_text_style_merges; auto.
  - cbn. apply leaves_others. intros N. apply gives_keys in N. destruct N as [v N]. pose proof (find_none _ _ F _ N) as X. cbn in X. destruct (slot_eq_dec k k); congruence.
Qed.
(** A text style is what all declarations in force say, merged into the default
    from the lowest priority to the highest. *)
Theorem C24_text_styles_accumulate : forall default c w ancestors rules k, accumulates k = true ->
  exists l : list (specificity * nat * nat * V),
    StronglySorted below l /\
    (forall s i j v, In (s, i, j, v) l <-> exists sel d, declared c (w :: ancestors) rules i j sel d /\ s = complex_spec sel /\ In (k, v) (gives d)) /\
    compute default c w ancestors rules k = fold_left merge (map snd l) (default k).
Proof.
  intros default c w anc rules k A. set (ms := sort_matched V (match_rules V c w anc 0 rules)). exists (flat_map (pick k) (flat_map tagged ms)).
  assert (SO : StronglySorted (mlt V) ms) by (apply (sort_sorted V theme_color theme_edge theme_style theme_hatch theme_keyline auto_flag v_true sp_top sp_right sp_bottom sp_left size_h size_v merge), (match_rules_nodup V theme_color theme_edge theme_style theme_hatch theme_keyline auto_flag v_true sp_top sp_right sp_bottom sp_left size_h size_v merge)).
  split; [apply pick_sorted; auto; apply tagged_sorted; exact SO|split].
  - intros s i j v. rewrite in_flat_map. split.
    + intros ([[[s' i'] j'] d] & I & P). apply in_pick in P. destruct P as (-> & -> & -> & G). apply in_flat_map in I. destruct I as (m & M & I). apply in_tagged in I. destruct I as (-> & -> & N).
      apply (Permutation_in m (Permutation_sym (sort_perm _ _))) in M. apply (match_rules_in V theme_color theme_edge theme_style theme_hatch theme_keyline auto_flag v_true sp_top sp_right sp_bottom sp_left size_h size_v merge) in M. destruct M as (i & r & sel & R & F & ->). exists sel, d. cbn in *. split; auto. exists r, w, anc. auto.
    + intros (sel & d & (r & w' & anc' & E & R & F & N) & -> & G). injection E as <- <-. exists (complex_spec sel, i, j, d). split; [|apply in_pick; auto]. apply in_flat_map. exists (Matched V (complex_spec sel) i r). split; [|apply in_tagged; auto].
      eapply Permutation_in; [apply sort_perm|]. apply (match_rules_in V theme_color theme_edge theme_style theme_hatch theme_keyline auto_flag v_true sp_top sp_right sp_bottom sp_left size_h size_v merge). exists i, r, sel. auto.
  - rewrite compute_flat. fold ms. rewrite <- fold_pick by exact A. f_equal. f_equal. induction ms as [|m l IH]; cbn; [reflexivity|]. rewrite map_app, tagged_snd. f_equal. apply IH. inversion SO; auto.
Qed.
End Cascade.
Print Assumptions C24_values.
Print Assumptions C24_text_style_merges.
Print Assumptions C24_text_styles_accumulate.
(* the styles of two rules for a button add up *)
Example C24_styles_ex :
  let rules := [Rule nat [sel1 (SClass (str "primary"))] [IDecl nat (DTextStyle nat 4)]; Rule nat [sel1 (SType (str "Button"))] [IDecl nat (DTextStyle nat 2)]] in
  compute_style nat (fun x => x) (fun x => x) (fun x => x) (fun x => x) (fun x => x) (fun _ => 0) 1 (fun x => x) (fun x => x) (fun x => x) (fun x => x) (fun x => x) (fun x => x) (fun a b => 10 * a + b) (fun _ => 0) light_ctx ok_button [] rules text_style = 24.
Proof. reflexivity. Qed.
