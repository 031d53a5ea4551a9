(** Proofs about the command providers. *)
From Coq Require Import String ZArith QArith List Bool Arith Lia Permutation Sorting.Sorted.
From Verif Require Import Text_Model Markup_Model Markup_Spec Markup_Proofs Fuzzy_Model Fuzzy_Spec Fuzzy_Proofs Keys_Proofs Command_Model Command_Spec.
Import ListNotations.
Notation length := List.length.
Open Scope nat_scope.
Open Scope list_scope.

(** *** sorting *)
Lemma text_le_alphabetical : forall a b, text_le a b = true -> alphabetical a b.
Proof.
  induction a as [|x a IH]; intros [|y b] H; [constructor|constructor|discriminate|]. cbn in H.
  apply orb_true_iff in H as [H|H].
  - apply al_lt. apply Z.ltb_lt. exact H.
  - apply andb_true_iff in H as [E H]. apply Z.eqb_eq in E. subst. apply al_eq, IH, H.
Qed.
Lemma text_le_total : forall a b, text_le a b = false -> text_le b a = true.
Proof.
  induction a as [|x a IH]; intros [|y b] H; try discriminate; try reflexivity. cbn in *.
  apply orb_false_iff in H as [L E]. apply Z.ltb_ge in L. destruct (Z.ltb_spec y x); [reflexivity|]. cbn.
  assert (x = y) by lia. subst. rewrite Z.eqb_refl in *. cbn in *. apply IH, E.
Qed.
Lemma text_le_refl : forall a, text_le a a = true.
Proof. induction a as [|x a IH]; [reflexivity|]. cbn. rewrite Z.eqb_refl, IH. apply orb_true_r. Qed.
Lemma text_le_trans : forall a b c, text_le a b = true -> text_le b c = true -> text_le a c = true.
Proof.
  induction a as [|x a IH]; intros [|y b] [|z c] H K; try discriminate; try reflexivity. cbn in *.
  apply orb_true_iff in H, K. apply orb_true_iff.
  destruct H as [H|H]; [apply Z.ltb_lt in H|apply andb_true_iff in H as [E H]; apply Z.eqb_eq in E];
  (destruct K as [K|K]; [apply Z.ltb_lt in K|apply andb_true_iff in K as [E' K]; apply Z.eqb_eq in E']).
  - left. apply Z.ltb_lt. lia.
  - left. apply Z.ltb_lt. lia.
  - left. apply Z.ltb_lt. lia.
  - right. subst. rewrite Z.eqb_refl. cbn. eapply IH; eauto.
Qed.

Definition before (a b : command) : Prop := text_le (c_title a) (c_title b) = true.
Lemma insert_perm : forall x l, Permutation (insert_command x l) (x :: l).
Proof.
  intros x. induction l as [|y l IH]; cbn; [reflexivity|]. destruct (text_le _ _); [reflexivity|].
  rewrite IH. apply perm_swap.
Qed.
Lemma sort_perm : forall l, Permutation (sort_commands l) l.
Proof. induction l as [|x l IH]; cbn; [reflexivity|]. unfold sort_commands in *. cbn. rewrite insert_perm. constructor. exact IH. Qed.
Lemma insert_sorted : forall x l, StronglySorted before l -> StronglySorted before (insert_command x l).
Proof.
  intros x. induction l as [|y l IH]; intros S; cbn; [repeat constructor|].
  inversion S as [|? ? S' F]; subst. destruct (text_le (c_title x) (c_title y)) eqn:E.
  - constructor; [exact S|]. constructor; [exact E|]. eapply Forall_impl; [|exact F]. intros a Ha. eapply text_le_trans; eauto.
  - constructor; [apply IH, S'|]. eapply Permutation_Forall; [symmetry; apply insert_perm|]. constructor; [|exact F].
    apply text_le_total, E.
Qed.
Lemma sort_sorted : forall l, StronglySorted before (sort_commands l).
Proof. induction l as [|x l IH]; cbn; [constructor|]. apply insert_sorted, IH. Qed.
Lemma insert_titled : forall t x l, titled t (insert_command x l) = titled t (x :: l).
Proof.
  intros t x. induction l as [|y l IH]; [reflexivity|]. cbn [insert_command].
  destruct (text_le (c_title x) (c_title y)) eqn:E; [reflexivity|].
  unfold titled in *. cbn [filter] in *. rewrite IH.
  destruct (text_eqb (c_title x) t) eqn:Ex, (text_eqb (c_title y) t) eqn:Ey; try reflexivity.
  apply text_eqb_iff in Ex, Ey. rewrite Ex, Ey, text_le_refl in E. discriminate.
Qed.
Lemma sort_titled : forall t l, titled t (sort_commands l) = titled t l.
Proof.
  intros t. induction l as [|x l IH]; [reflexivity|]. cbn [sort_commands fold_right]. fold (sort_commands l). rewrite insert_titled.
  unfold titled in *. cbn [filter]. rewrite IH. reflexivity.
Qed.
Lemma sorted_alphabetical : forall l, StronglySorted before l -> StronglySorted (fun a b => alphabetical (c_title a) (c_title b)) l.
Proof.
  induction 1 as [|x l S IH F]; constructor; [exact IH|]. eapply Forall_impl; [|exact F]. intros a. apply text_le_alphabetical.
Qed.

Lemma app_split : forall (t : text) a x b u, t ++ u = a ++ x :: b -> length a < length t -> exists b', t = a ++ x :: b'.
Proof.
  induction t as [|y t IH]; intros [|z a] x b u E L; cbn in *; try lia.
  - injection E as -> _. exists t. reflexivity.
  - injection E as -> E. destruct (IH a x b u E) as [b' ->]; [lia|]. exists b'. reflexivity.
Qed.
Lemma app_split_after : forall (t : text) a x b u, t ++ u = a ++ x :: b -> length t <= length a -> exists a', a = t ++ a' /\ u = a' ++ x :: b.
Proof.
  induction t as [|y t IH]; intros [|z a] x b u E L; cbn in *; try lia.
  - exists []. auto.
  - exists (z :: a). auto.
  - injection E as -> E. destruct (IH a x b u E) as [a' [-> F]]; [lia|]. exists a'. auto.
Qed.

(** *** what lines show *)
Section Shown.
Variable lower : text -> text.
Variable is_alnum : char -> bool.
Variable known_color : text -> bool.

Lemma highlight_parse_rest : forall ms st offs, Forall plain_char ms -> nth_error ms 0 <> Some ch_slash ->
  tag_parse lower known_color ms = Ok (TagStyle st) -> style_is_empty st = false ->
  forall t i out sp rest,
  parse_from lower known_color (Parser [] out sp) (highlight_loop ms offs i t ++ rest) =
  parse_from lower known_color (Parser [] (out ++ t) (sp ++ hit_spans st offs i (blen out) t)) rest.
Proof.
  intros ms st offs HP HS HT HE.
  assert (Hm : ms <> []) by (intros ->; discriminate HT).
  induction t as [|c t IH]; intros i out sp rest; cbn [highlight_loop hit_spans].
  - rewrite !app_nil_r. reflexivity.
  - replace (negb (is_nil ms)) with true by (destruct ms; [contradiction|reflexivity]). rewrite andb_true_r.
    fold (hit offs i c). destruct (hit offs i c).
    + rewrite <- app_assoc, <- app_comm_cons, <- !app_assoc. cbn [app].
      rewrite (parse_from_open lower known_color _ ms _ (push_style (Parser [] out sp) st [] ms)); auto;
        [|unfold process_open; rewrite HT; reflexivity].
      rewrite parse_from_escape_char. rewrite parse_from_close.
      unfold push_style, push_text, set_stack. cbn [ps_stack ps_out ps_spans].
      rewrite pop_styled; [|rewrite blen_app, blen_cons; pose proof (utf8_len_pos c); change (blen []) with 0; lia|exact HE].
      rewrite IH. rewrite <- !app_assoc, blen_app. rewrite (blen_cons c []). change (blen []) with 0. rewrite Nat.add_0_r. reflexivity.
    + rewrite <- app_assoc, parse_from_escape_char. unfold push_text. cbn [ps_stack ps_out ps_spans]. rewrite IH.
      rewrite <- app_assoc, blen_app, (blen_cons c []). change (blen []) with 0. rewrite Nat.add_0_r. reflexivity.
Qed.

Lemma hit_spans_after : forall st offs t i pos off acc, pos + blen t <= off -> fold_style (hit_spans st offs i pos t) off acc = acc.
Proof.
  intros st offs. induction t as [|c t IH]; intros i pos off acc H; cbn [hit_spans]; [reflexivity|].
  rewrite blen_cons in H. destruct (hit offs i c); cbn [app].
  - unfold fold_style. cbn [fold_left]. replace (span_contains (Span pos (pos + utf8_len c) st []) off) with false.
    + apply IH. lia.
    + symmetry. apply not_true_iff_false. rewrite span_contains_spec. unfold covers. cbn. lia.
  - apply IH. lia.
Qed.

Lemma fold_style_app : forall a b off acc, fold_style (a ++ b) off acc = fold_style b off (fold_style a off acc).
Proof. intros. unfold fold_style. apply fold_left_app. Qed.

Lemma pop_empty : forall st out sp s n tag, n = blen out -> pop_style (Parser (Entry s [] n tag :: st) out sp) = Parser st out sp.
Proof. intros st out sp s n tag ->. unfold pop_style, create_span, set_stack. cbn [ps_stack ps_out ps_spans e_start e_style e_meta]. rewrite Nat.ltb_irrefl. reflexivity. Qed.

Hypothesis lower_bold : lower (str "bold") = str "bold".
Hypothesis lower_underline : lower (str "underline") = str "underline".
Hypothesis lower_dim : lower (str "dim") = str "dim".

Lemma match_style_ok : tag_parse lower known_color palette_match_style = Ok (TagStyle bold_underlined).
Proof.
  change (tag_parse lower known_color palette_match_style) with
    (bind (style_words lower known_color style_default [str "bold"; str "underline"]) (fun s => Ok (TagStyle s))).
  cbn [style_words]. rewrite lower_bold, lower_underline. reflexivity.
Qed.
Lemma help_style_ok : tag_parse lower known_color palette_help_style = Ok (TagStyle dimmed).
Proof.
  change (tag_parse lower known_color palette_help_style) with
    (bind (style_words lower known_color style_default [str "dim"]) (fun s => Ok (TagStyle s))).
  cbn [style_words]. rewrite lower_dim. reflexivity.
Qed.
Lemma plain_str : forall t, forallb (fun c : Z => negb (c =? ch_open)%Z && negb (c =? ch_close)%Z && negb (c =? ch_esc)%Z) t = true -> Forall plain_char t.
Proof.
  intros t H. rewrite forallb_forall in H. apply Forall_forall. intros c I. specialize (H c I).
  apply andb_true_iff in H as [H C]. apply andb_true_iff in H as [A B].
  apply negb_true_iff in A, B, C. apply Z.eqb_neq in A, B, C. split; [exact A|]. split; [exact B|exact C].
Qed.

(** the markup of the title and then the help *)
Lemma help_parse : forall h out sp,
  parse_from lower known_color (Parser [] out sp) (match h with None => [] | Some h => 10%Z :: ch_open :: palette_help_style ++ [ch_close] ++ escape_markup h ++ [ch_open; ch_slash; ch_close] end) =
  Ok (Parser [] (out ++ match h with None => [] | Some h => 10%Z :: h end)
     (sp ++ match h with None | Some [] => [] | Some h => [Span (blen out + 1) (blen out + 1 + blen h) dimmed []] end)).
Proof.
  intros [h|] out sp; [|rewrite !app_nil_r; reflexivity].
  rewrite parse_from_char by discriminate. unfold push_text. cbn [ps_stack ps_out ps_spans]. cbn [app].
  rewrite (parse_from_open lower known_color _ palette_help_style _ (push_style (Parser [] (out ++ [10%Z]) sp) dimmed [] palette_help_style));
    [|apply plain_str; reflexivity|discriminate|discriminate|unfold process_open; rewrite help_style_ok; reflexivity].
  rewrite parse_from_escape. rewrite parse_from_close. unfold push_style, push_text, set_stack. cbn [ps_stack ps_out ps_spans].
  assert (B : blen (out ++ [10%Z]) = blen out + 1) by (rewrite blen_app; reflexivity).
  destruct h as [|x h].
  - rewrite pop_empty; [|rewrite app_nil_r; reflexivity]. rewrite !app_nil_r. reflexivity.
  - rewrite pop_styled; [|rewrite (blen_app _ (x :: h)), blen_cons; pose proof (utf8_len_pos x); lia|reflexivity].
    rewrite <- !app_assoc. rewrite parse_from_nil. rewrite (app_assoc out [10%Z]), (blen_app (out ++ [10%Z])), !B. rewrite <- app_assoc. reflexivity.
Qed.

Lemma prompt_shape : forall d h, build_prompt d h palette_help_style =
  d ++ match h with None => [] | Some h => 10%Z :: ch_open :: palette_help_style ++ [ch_close] ++ escape_markup h ++ [ch_open; ch_slash; ch_close] end.
Proof. intros d [h|]; [reflexivity|]. cbn. rewrite app_nil_r. reflexivity. Qed.

Lemma marks_shown : forall c offs d,
  (forall rest, parse_from lower known_color parser_new (d ++ rest) =
     parse_from lower known_color (Parser [] (c_title c) (hit_spans bold_underlined offs 0 0 (c_title c))) rest) ->
  displays (parse lower known_color) (build_prompt d (c_help c) palette_help_style) c (fun i => In i offs).
Proof.
  intros c offs d H. unfold displays. rewrite prompt_shape, parse_parse_from, H, help_parse. cbn [bind].
  eexists. split; [reflexivity|]. cbn [close_all ps_stack fold_left set_stack ps_out ps_spans pm_text].
  split; [reflexivity|]. unfold written. set (u := match c_help c with None => [] | Some h => 10%Z :: h end).
  intros a x b k E L.
  match goal with |- looks _ _ _ _ (style_at (Parsed _ (?l ++ ?r)) ?off) =>
    change (looks (c_title c) (fun i => In i offs) (length a) x (fold_style (l ++ r) off style_default)); rewrite fold_style_app; set (R := r) end.
  assert (RB : forall off acc, off <= blen (c_title c) -> fold_style R off acc = acc).
  { intros off acc Lo. unfold R. destruct (c_help c) as [[|y h]|]; try reflexivity.
    unfold fold_style. cbn [fold_left]. replace (span_contains _ _) with false; [reflexivity|].
    symmetry. apply not_true_iff_false. rewrite span_contains_spec. unfold covers. cbn. lia. }
  destruct (Nat.lt_ge_cases (length a) (length (c_title c))) as [La|La].
  - destruct (app_split _ _ _ _ _ E La) as [b' Et]. rewrite RB; [|rewrite Et, blen_app, blen_cons; lia].
    pose proof (hit_spans_at bold_underlined offs a x b' 0 0 k style_default L) as HH. rewrite <- Et in HH. cbn [Nat.add] in HH.
    rewrite HH. rewrite style_apply_default. pose proof (hit_spec offs (length a) x) as HI.
    unfold looks. destruct (hit offs (length a) x).
    + repeat split; try lia; intros [_ N]; exfalso; apply N, HI; reflexivity.
    + repeat split; try lia. intros (_ & Y). apply HI in Y. discriminate.
  - destruct (app_split_after _ _ _ _ _ E La) as [a' [-> Eu]]. rewrite blen_app.
    rewrite hit_spans_after by lia. unfold looks. rewrite app_length.
    destruct a' as [|y a'].
    + unfold u in Eu. destruct (c_help c) as [h|] eqn:Eh; [|discriminate]. injection Eu as <- Eh'.
      change (utf8_len 10%Z) with 1 in L. change (blen []) with 0. rewrite RB by lia. cbn [length]. repeat split; try lia.
    + unfold u in Eu. destruct (c_help c) as [h|] eqn:Eh; [|discriminate]. injection Eu as <- Eh'.
      cbn [length]. repeat split; try lia. intros _. unfold R. subst h. rewrite blen_cons. change (utf8_len 10%Z) with 1.
      destruct (a' ++ x :: b) as [|z w] eqn:Ew; [destruct a'; discriminate|]. rewrite <- Ew.
      unfold fold_style. cbn [fold_left sp_style]. replace (span_contains _ _) with true; [apply style_apply_default|].
      symmetry. rewrite span_contains_spec. unfold covers. cbn [sp_start sp_end]. rewrite blen_app, blen_cons. lia.
Qed.

Lemma offer_shown : forall c, displays (parse lower known_color) (build_prompt (escape_markup (c_title c)) (c_help c) palette_help_style) c (fun _ => False).
Proof.
  intros c. assert (H : hit_spans bold_underlined [] 0 0 (c_title c) = []).
  { generalize 0 at 1 as i. generalize 0 as pos. induction (c_title c) as [|x t IH]; intros pos i; [reflexivity|]. cbn. apply IH. }
  destruct (marks_shown c [] (escape_markup (c_title c))) as (m & P & T & L).
  - intros rest. rewrite parse_from_escape, H. reflexivity.
  - exists m. split; [exact P|]. split; [exact T|]. exact L.
Qed.

Lemma found_shown : forall q c s offs, match_candidate lower is_alnum false q (c_title c) = (s, offs) -> (0 < s)%Q ->
  displays (parse lower known_color) (build_prompt (highlight lower is_alnum false q palette_match_style (c_title c)) (c_help c) palette_help_style) c (fun i => In i offs).
Proof.
  intros q c s offs E P. apply marks_shown. intros rest. unfold highlight. rewrite E.
  destruct (Qle_bool s 0) eqn:B; [apply Qle_bool_iff in B; exfalso; eapply Qlt_not_le; eauto|].
  unfold parser_new. rewrite (highlight_parse_rest palette_match_style bold_underlined offs).
  - reflexivity.
  - apply plain_str. reflexivity.
  - discriminate.
  - apply match_style_ok.
  - reflexivity.
Qed.
End Shown.
