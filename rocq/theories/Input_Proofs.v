(** Lemmas about the Input widget. *)
From Coq Require Import String ZArith List Bool Arith Lia.
From Verif Require Import Text_Model Markup_Model Markup_Spec Markup_Proofs Input_Model Input_Spec.
Import ListNotations.
Notation length := List.length.
Notation concat := List.concat.
Open Scope list_scope.
Open Scope nat_scope.
Arguments blen : simpl never.
Arguments utf8_len : simpl never.

Lemma indices_nth : forall gs pos i, nth_error (indices pos gs) i =
  match nth_error gs i with Some g => Some (pos + blen (concat (firstn i gs)), g) | None => None end.
Proof.
  induction gs as [|g gs IH]; intros pos i. { destruct i; reflexivity. }
  destruct i as [|i]; cbn [indices nth_error firstn concat]. { change (blen []) with 0. rewrite Nat.add_0_r. reflexivity. }
  rewrite IH. destruct (nth_error gs i); auto. rewrite blen_app. do 2 f_equal. lia.
Qed.
Lemma remove_mid : forall a m b, remove_range (a ++ m ++ b) (blen a) (blen a + blen m) = Some (a ++ b).
Proof.
  intros a m b. unfold remove_range. destruct (Nat.ltb_spec (blen a + blen m) (blen a)); [lia|]. rewrite bsplit_prefix.
  rewrite <- blen_app, app_assoc, bsplit_prefix. reflexivity.
Qed.
Lemma insert_mid : forall a b c, insert_at (a ++ b) (blen a) c = Some (a ++ c :: b).
Proof. intros. unfold insert_at. rewrite bsplit_prefix. reflexivity. Qed.
Lemma nth_split_at : forall (A : Type) (l : list A) i x, nth_error l i = Some x -> l = firstn i l ++ x :: skipn (S i) l.
Proof.
  intros A l. induction l as [|y l IH]; intros [|i] x H; try discriminate.
  - inversion H. reflexivity.
  - cbn [firstn skipn app]. f_equal. apply IH. exact H.
Qed.

Section G.
Variable gr : text -> list text.
Hypothesis Hgr : forall t, concat (gr t) = t.

Lemma byte_index_app : forall t x y, gr t = x ++ y -> byte_index gr t (length x) = blen (concat x) /\ t = concat x ++ concat y.
Proof.
  intros t x y E. assert (T : t = concat x ++ concat y) by (rewrite <- (Hgr t) at 1; rewrite E; apply concat_app). split; auto.
  unfold byte_index. rewrite indices_nth, E. destruct y as [|g y].
  - rewrite app_nil_r. rewrite (proj2 (nth_error_None x (length x))) by lia. cbn [concat] in T. rewrite app_nil_r in T. congruence.
  - rewrite nth_error_app2, Nat.sub_diag, firstn_app, firstn_all, Nat.sub_diag by lia. cbn [nth_error firstn]. rewrite app_nil_r. reflexivity.
Qed.
Lemma byte_range_mid : forall t x g y, gr t = x ++ g :: y ->
  byte_range gr t (length x) = Some (blen (concat x), blen (concat x) + blen g) /\ t = concat x ++ g ++ concat y.
Proof.
  intros t x g y E. assert (T : t = concat x ++ g ++ concat y) by (rewrite <- (Hgr t) at 1; rewrite E, concat_app; reflexivity). split; auto.
  assert (N0 : nth_error (x ++ g :: y) (length x) = Some g) by (rewrite nth_error_app2, Nat.sub_diag by lia; reflexivity).
  assert (N1 : nth_error (x ++ g :: y) (S (length x)) = nth_error y 0).
  { rewrite nth_error_app2 by lia. replace (S (length x) - length x) with 1 by lia. reflexivity. }
  assert (F0 : firstn (length x) (x ++ g :: y) = x) by (rewrite firstn_app, firstn_all, Nat.sub_diag; apply app_nil_r).
  assert (F1 : firstn (S (length x)) (x ++ g :: y) = x ++ [g]).
  { rewrite firstn_app, firstn_all2 by lia. replace (S (length x) - length x) with 1 by lia. reflexivity. }
  unfold byte_range. rewrite !indices_nth, E, N0, N1, F0, F1. do 2 f_equal. destruct y as [|h y]; cbn [nth_error].
  - rewrite T. cbn [concat]. rewrite app_nil_r, blen_app. reflexivity.
  - rewrite concat_app. cbn [concat]. rewrite !app_nil_r, blen_app. reflexivity.
Qed.
Lemma byte_range_past : forall t i, count gr t <= i -> byte_range gr t i = None.
Proof. intros t i L. unfold byte_range. rewrite indices_nth. rewrite (proj2 (nth_error_None (gr t) i)); auto. Qed.

(** The three editing operations at the cursor. *)
Lemma insert_spec : forall s ch x y, gr (i_value s) = x ++ y -> Nat.min (i_cursor s) (count gr (i_value s)) = length x ->
  insert_char gr s ch = Some (with_text gr s (concat x ++ ch :: concat y) (length x + 1)).
Proof.
  intros s ch x y E C. unfold insert_char. rewrite C. destruct (byte_index_app _ _ _ E) as [B T]. rewrite B. rewrite T at 1. rewrite insert_mid. reflexivity.
Qed.
Lemma backspace_spec : forall s x g y, gr (i_value s) = x ++ g :: y -> Nat.min (i_cursor s) (count gr (i_value s)) = S (length x) ->
  backspace gr s = Some (with_text gr s (concat x ++ concat y) (length x)).
Proof.
  intros s x g y E C. unfold backspace. destruct (Nat.eqb_spec (i_cursor s) 0); [lia|]. rewrite C. cbn [Nat.sub]. rewrite Nat.sub_0_r.
  destruct (byte_range_mid _ _ _ _ E) as [B T]. rewrite B. rewrite T at 1. rewrite remove_mid. reflexivity.
Qed.
Lemma delete_spec : forall s x g y, gr (i_value s) = x ++ g :: y -> i_cursor s = length x ->
  delete gr s = Some (with_text gr s (concat x ++ concat y) (i_cursor s)).
Proof.
  intros s x g y E C. unfold delete. assert (M : Nat.min (i_cursor s) (count gr (i_value s)) = length x).
  { unfold count. rewrite E, app_length, C. cbn. lia. }
  rewrite M. destruct (byte_range_mid _ _ _ _ E) as [B T]. rewrite B. rewrite T at 1. rewrite remove_mid. reflexivity.
Qed.

Lemma split_cursor : forall (l : list text) n, exists x y, l = x ++ y /\ Nat.min n (length l) = length x.
Proof. intros l n. exists (firstn n l), (skipn n l). split; [symmetry; apply firstn_skipn|]. rewrite firstn_length. reflexivity. Qed.
Lemma step_total : forall s o, step gr s o <> None.
Proof.
  intros s o. destruct o; cbn [step]; try discriminate. unfold on_key. destruct (i_disabled s || negb (i_visible s)); [discriminate|]. destruct k; try discriminate.
  - destruct (split_cursor (gr (i_value s)) (i_cursor s)) as (x & y & E & L). rewrite (insert_spec s c x y E L). discriminate.
  - destruct (split_cursor (gr (i_value s)) (i_cursor s)) as (x & y & E & L). destruct x as [|g x] using rev_ind.
    + unfold backspace. destruct (Nat.eqb_spec (i_cursor s) 0); [discriminate|]. cbn [app length] in *. unfold count. rewrite L.
      assert (length (gr (i_value s)) = 0) by (cbn in L; lia). rewrite byte_range_past; [discriminate|]. unfold count. lia.
    + rewrite <- app_assoc in E. cbn [app] in E. rewrite app_length in L. cbn [length] in L. rewrite (backspace_spec s x g y E); [discriminate|]. unfold count. lia.
  - unfold delete. destruct (split_cursor (gr (i_value s)) (i_cursor s)) as (x & y & E & L). fold (count gr (i_value s)) in L. rewrite L. destruct y as [|g y].
    + rewrite byte_range_past; [discriminate|]. unfold count. rewrite E, app_nil_r. auto.
    + destruct (byte_range_mid _ _ _ _ E) as [B T]. rewrite B. rewrite T at 1. rewrite remove_mid. discriminate.
Qed.
Lemma run_total : forall os s, exists s', run gr s os = Some s'.
Proof.
  induction os as [|o os IH]; intros s; cbn [run]; eauto. pose proof (step_total s o) as N. destruct (step gr s o); [apply IH|congruence].
Qed.

Lemma cursor_min : forall s b, represents gr s b -> Nat.min (i_cursor s) (count gr (i_value s)) = length (b_before b).
Proof. intros s b (V & C & G & _). unfold count. rewrite G, C, app_length. lia. Qed.

Lemma key_spec : forall s b k, represents gr s b -> exists s', on_key gr s k = Some s' /\
  let b' := b_op gr b (Key k) in i_value s' = b_text b' /\ i_cursor s' = length (b_before b') /\ i_disabled s' = b_disabled b' /\ i_visible s' = b_visible b'.
Proof.
  intros s b k R. pose proof (cursor_min s b R) as M. destruct R as (V & C & G & D & I). unfold on_key. cbn [b_op]. rewrite D, I.
  destruct (b_disabled b || negb (b_visible b)) eqn:OFF. { exists s. cbn. auto. }
  destruct b as [x y d v]. cbn [b_before b_after b_disabled b_visible] in *. unfold b_text in V. cbn [b_before b_after] in V.
  assert (V0 : concat (x ++ y) = i_value s) by auto.
  destruct k; cbn [b_key]; unfold b_set; cbn [b_before b_after b_disabled b_visible].
  - rewrite (insert_spec s c x y G M). eexists. split; [reflexivity|]. cbn. unfold b_text. cbn. rewrite !concat_app, <- app_assoc, app_length. cbn. auto.
  - destruct x as [|g x _] using rev_ind.
    + unfold backspace. cbn [length] in C. rewrite C. cbn [Nat.eqb]. exists s. cbn. auto.
    + rewrite <- app_assoc in G. cbn [app] in G. rewrite app_length in M. cbn [length] in M. rewrite (backspace_spec s x g y G) by lia.
      eexists. split; [reflexivity|]. cbn. rewrite removelast_last. unfold b_text. cbn. rewrite concat_app. auto.
  - destruct y as [|g y].
    + unfold delete. rewrite M, byte_range_past. 2:{ unfold count. rewrite G, app_nil_r. auto. } exists (refresh gr s). cbn. auto.
    + rewrite (delete_spec s x g y G C). eexists. split; [reflexivity|]. cbn. unfold b_text. cbn. rewrite concat_app. auto.
  - destruct x as [|g x _] using rev_ind.
    + cbn [length] in C. rewrite C. exists s. cbn. auto.
    + rewrite app_length in C. cbn [length] in C. destruct (Nat.ltb_spec 0 (i_cursor s)); [|lia]. eexists. split; [reflexivity|].
      rewrite rev_app_distr. cbn [rev app]. unfold b_text. cbn. rewrite rev_involutive. rewrite <- V0, <- app_assoc. cbn. repeat split; auto. lia.
  - unfold count. rewrite G, app_length. destruct y as [|g y].
    + destruct (Nat.ltb_spec (i_cursor s) (length x + length (@nil text))); [cbn in *; lia|]. exists s. cbn. auto.
    + destruct (Nat.ltb_spec (i_cursor s) (length x + length (g :: y))); [|cbn in *; lia]. eexists. split; [reflexivity|]. cbn. unfold b_text. cbn.
      rewrite <- V0, <- app_assoc, app_length. cbn. repeat split; auto.
  - eexists. split; [reflexivity|]. cbn. auto.
  - eexists. split; [reflexivity|]. unfold b_text. cbn. unfold count. rewrite app_nil_r, G. auto.
  - exists s. cbn. auto.
Qed.

(** Characters that are always clusters of their own. *)
Variable good : char -> Prop.
Hypothesis Hgood : forall t, Forall good t -> gr t = map (fun c => [c]) t.
Definition singles (l : list text) : Prop := exists t, l = map (fun c => [c]) t /\ Forall good t.
Lemma singles_concat : forall t : text, concat (map (fun c => [c]) t) = t.
Proof. induction t as [|c t IH]; auto. cbn. rewrite IH. auto. Qed.
Lemma singles_iff : forall l, singles l <-> Forall (fun g => exists c, g = [c] /\ good c) l.
Proof.
  induction l as [|g l IH]; split; intros H.
  - constructor.
  - exists []. auto.
  - destruct H as (t & E & F). destruct t as [|c t]; [discriminate|]. inversion E; subst. inversion F; subst. constructor; eauto. apply IH. exists t. auto.
  - inversion H as [|? ? (c & -> & G) H']; subst. apply IH in H'. destruct H' as (t & -> & F). exists (c :: t). split; auto.
Qed.
Lemma singles_gr : forall l, singles l -> gr (concat l) = l.
Proof. intros l (t & -> & F). rewrite singles_concat. apply Hgood; auto. Qed.
Definition bgood (b : buffer) : Prop := Forall (fun g => exists c, g = [c] /\ good c) (b_before b ++ b_after b).
Lemma bgood_gr : forall b, bgood b -> gr (b_text b) = b_before b ++ b_after b.
Proof. intros b H. apply singles_gr. apply singles_iff. exact H. Qed.
Lemma b_op_good : forall b o, bgood b -> Forall good (op_chars o) -> bgood (b_op gr b o).
Proof.
  intros b o H F. unfold bgood in *. destruct o; cbn [b_op]; auto.
  - destruct (b_disabled b || negb (b_visible b)); auto. destruct b as [x y d v]. cbn [b_before b_after] in H. apply Forall_app in H as [H1 H2].
    destruct k; cbn [b_key]; unfold b_set; cbn [b_before b_after b_disabled b_visible op_chars] in *; try (apply Forall_app; split; auto; fail).
    + apply Forall_app; split; auto. apply Forall_app; split; auto. inversion F; subst. constructor; eauto.
    + apply Forall_app; split; auto. destruct x as [|g x _] using rev_ind; auto. rewrite removelast_last. apply Forall_app in H1. apply H1.
    + apply Forall_app; split; auto. destruct y; auto. inversion H2; auto.
    + destruct (rev x) as [|g r] eqn:E. { cbn. apply Forall_app; auto. } assert (x = rev r ++ [g]) by (rewrite <- (rev_involutive x), E; auto). subst x.
      apply Forall_app in H1 as [H1 H3]. cbn. apply Forall_app; split; auto. inversion H3; subst. constructor; auto.
    + destruct y as [|g y]; cbn. { apply Forall_app; auto. } inversion H2; subst. rewrite <- app_assoc. apply Forall_app; split; auto.
    + cbn. apply Forall_app; auto.
    + cbn. rewrite app_nil_r. apply Forall_app; auto.
  - cbn [op_chars] in F. cbn. rewrite firstn_skipn. rewrite Hgood by auto. apply singles_iff. exists v. auto.
  - cbn. rewrite firstn_skipn. auto.
Qed.
Lemma step_represents : forall s b o, represents gr s b -> bgood b -> Forall good (op_chars o) ->
  exists s', step gr s o = Some s' /\ represents gr s' (b_op gr b o).
Proof.
  intros s b o R B F. pose proof (b_op_good b o B F) as B'. destruct o; cbn [step].
  - destruct (key_spec s b k R) as (s' & E & V & C & D & I). exists s'. split; auto. split; auto. split; auto. split; auto.
    rewrite V. apply bgood_gr. exact B'.
  - eexists. split; [reflexivity|]. destruct R as (V & C & G & D & I). cbn [op_chars] in F. unfold represents, b_text. cbn. rewrite firstn_skipn, Hgr. repeat split; auto.
    rewrite firstn_length, C. reflexivity.
  - eexists. split; [reflexivity|]. destruct R as (V & C & G & D & I). unfold represents, b_text. cbn. rewrite firstn_skipn. repeat split; auto.
    rewrite firstn_length. unfold count. rewrite G. reflexivity.
  - eexists. split; [reflexivity|]. exact R.
  - destruct (Bool.eqb (i_focused s) b0); eexists; (split; [reflexivity|]); exact R.
  - eexists. split; [reflexivity|]. destruct R as (V & C & G & D & I). unfold represents. auto.
  - eexists. split; [reflexivity|]. destruct R as (V & C & G & D & I). unfold represents. auto.
Qed.
Lemma run_represents : forall os s b, represents gr s b -> bgood b -> Forall (fun o => Forall good (op_chars o)) os ->
  exists s', run gr s os = Some s' /\ represents gr s' (fold_left (b_op gr) os b).
Proof.
  induction os as [|o os IH]; intros s b R B F; cbn [run fold_left]; eauto. inversion F; subst.
  destruct (step_represents s b o R B H1) as (s' & E & R'). rewrite E. apply IH; auto. apply b_op_good; auto.
Qed.
End G.

(** ** The display *)
Section D.
Variable gr : text -> list text.
Definition fresh (s : input) : Prop := i_shown s = build_display gr (i_value s) (i_holder s) (i_cursor s) (i_focused s).
Lemma fresh_new : fresh input_new. Proof. reflexivity. Qed.
Lemma fresh_with : forall s v c, fresh (with_text gr s v c). Proof. reflexivity. Qed.
Lemma fresh_step : forall s o s', fresh s -> step gr s o = Some s' -> fresh s'.
Proof.
  intros s o s' F E. destruct o; cbn [step] in E.
  - unfold on_key in E. destruct (i_disabled s || negb (i_visible s)). { inversion E; subst; auto. }
    destruct k; try (inversion E; subst; auto using fresh_with; fail).
    + unfold insert_char in E. destruct (insert_at _ _ _); inversion E. apply fresh_with.
    + unfold backspace in E. destruct (i_cursor s =? 0). { inversion E; subst; auto. } destruct (byte_range _ _ _) as [[a b]|]; [|inversion E; reflexivity].
      destruct (remove_range _ _ _); inversion E. apply fresh_with.
    + unfold delete in E. destruct (byte_range _ _ _) as [[a b]|]; [|inversion E; reflexivity].
      destruct (remove_range _ _ _); inversion E. apply fresh_with.
    + destruct (0 <? i_cursor s); inversion E; subst; auto using fresh_with.
    + destruct (i_cursor s <? count gr (i_value s)); inversion E; subst; auto using fresh_with.
  - inversion E. apply fresh_with.
  - inversion E. apply fresh_with.
  - inversion E. reflexivity.
  - destruct (Bool.eqb (i_focused s) b) eqn:B; inversion E; subst; auto. reflexivity.
  - inversion E. exact F.
  - inversion E. exact F.
Qed.
Lemma fresh_run : forall os s s', fresh s -> run gr s os = Some s' -> fresh s'.
Proof.
  induction os as [|o os IH]; intros s s' F E; cbn [run] in E. { inversion E; subst; auto. }
  destruct (step gr s o) as [s1|] eqn:S; [|discriminate]. eapply IH; [|exact E]. eapply fresh_step; eauto.
Qed.

Variable lower : text -> text.
Variable known_color : text -> bool.
Notation parse := (parse lower known_color).
Notation parse_from := (parse_from lower known_color).
(** Lower-casing leaves digits, small letters and '#' alone. *)
Hypothesis Hlow : forall t, Forall (fun c => 32 <= c < 65 \/ 97 <= c < 128)%Z t -> lower t = t.
Definition cursor_look : style := Style (Some (Rgb 18 18 18)) (Some (Rgb 224 224 224)) ts_default.
Definition holder_look : style := Style (Some (Rgb 109 116 121)) None ts_default.
Lemma lower_lit : forall t, forallb (fun c => ((32 <=? c) && (c <? 65) || (97 <=? c) && (c <? 128))%Z) t = true -> lower t = t.
Proof.
  intros t H. apply Hlow. apply Forall_forall. intros c Hc. rewrite forallb_forall in H. specialize (H c Hc). cbn in H.
  apply orb_true_iff in H as [H|H]; apply andb_true_iff in H as [A B]; apply Z.leb_le in A; apply Z.ltb_lt in B; lia.
Qed.
Lemma cursor_tag : tag_parse lower known_color cursor_style = Ok (TagStyle cursor_look).
Proof.
  set (w1 := str "#121212"). set (w2 := str "on"). set (w3 := str "#e0e0e0").
  assert (L1 : lower w1 = w1) by (apply lower_lit; reflexivity). assert (L2 : lower w2 = w2) by (apply lower_lit; reflexivity).
  assert (S : tag_parse lower known_color cursor_style = bind (style_words lower known_color style_default [w1; w2; w3]) (fun s => Ok (TagStyle s))) by reflexivity.
  rewrite S. cbn [style_words]. rewrite L1, L2. reflexivity.
Qed.
Lemma holder_tag : tag_parse lower known_color holder_style = Ok (TagStyle holder_look).
Proof.
  set (w1 := str "#6d7479"). assert (L1 : lower w1 = w1) by (apply lower_lit; reflexivity).
  assert (S : tag_parse lower known_color holder_style = bind (style_words lower known_color style_default [w1]) (fun s => Ok (TagStyle s))) by reflexivity.
  rewrite S. cbn [style_words]. rewrite L1. reflexivity.
Qed.
Lemma parse_tag_around : forall tag look body out spans rest, Forall plain_char tag -> tag <> [] -> nth_error tag 0 <> Some ch_slash ->
  tag_parse lower known_color tag = Ok (TagStyle look) -> style_is_empty look = false ->
  parse_from (Parser [] out spans) (tag_around tag (escape_markup body) ++ rest) =
  parse_from (Parser [] (out ++ body) (spans ++ match body with [] => [] | _ => [Span (blen out) (blen out + blen body) look []] end)) rest.
Proof.
  intros tag look body out spans rest P N S T E. unfold tag_around.
  change (str "[") with [ch_open]. change (str "]") with [ch_close]. change (str "[/]") with [ch_open; ch_slash; ch_close]. cbn [app].
  rewrite <- app_assoc. cbn [app]. rewrite <- app_assoc. cbn [app].
  rewrite (parse_from_open lower known_color _ tag _ (push_style (Parser [] out spans) look [] tag)); auto.
  2:{ unfold process_open. rewrite T. reflexivity. }
  rewrite parse_from_escape. unfold push_style, push_text, set_stack. cbn [ps_stack ps_out ps_spans].
  rewrite parse_from_close. destruct body as [|c body].
  - rewrite !app_nil_r. unfold pop_style, create_span, set_stack. cbn [ps_stack ps_out ps_spans e_start]. rewrite Nat.ltb_irrefl. reflexivity.
  - rewrite pop_styled; auto. { rewrite blen_app. reflexivity. } rewrite blen_app, blen_cons. pose proof (utf8_len_pos c). lia.
Qed.
Lemma plain_lit : forall t, forallb (fun c => negb ((c =? ch_open) || (c =? ch_close) || (c =? ch_esc)))%Z t = true -> Forall plain_char t.
Proof.
  intros t H. apply Forall_forall. intros c Hc. rewrite forallb_forall in H. specialize (H c Hc). cbn beta in H. apply negb_true_iff in H.
  apply orb_false_iff in H as [H H3]. apply orb_false_iff in H as [H1 H2]. apply Z.eqb_neq in H1, H2, H3. split; auto.
Qed.
Lemma parse_cursor : forall body out spans rest,
  parse_from (Parser [] out spans) (tag_around cursor_style (escape_markup body) ++ rest) =
  parse_from (Parser [] (out ++ body) (spans ++ match body with [] => [] | _ => [Span (blen out) (blen out + blen body) cursor_look []] end)) rest.
Proof. intros. apply parse_tag_around; auto using cursor_tag; try discriminate. apply plain_lit. reflexivity. Qed.
Lemma parse_holder : forall body out spans rest,
  parse_from (Parser [] out spans) (tag_around holder_style (escape_markup body) ++ rest) =
  parse_from (Parser [] (out ++ body) (spans ++ match body with [] => [] | _ => [Span (blen out) (blen out + blen body) holder_look []] end)) rest.
Proof. intros. apply parse_tag_around; auto using holder_tag; try discriminate. apply plain_lit. reflexivity. Qed.
Lemma parse_end : forall t out spans, parse_from parser_new t = Ok (Parser [] out spans) -> parse t = Ok (Parsed out spans).
Proof. intros t out spans E. rewrite parse_parse_from, E. reflexivity. Qed.
End D.
