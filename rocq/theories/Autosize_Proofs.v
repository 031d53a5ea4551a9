(** Proofs about static text at automatic size. *)
From Coq Require Import ZArith List Bool Arith Lia.
From Verif Require Import Text_Model Fuzzy_Proofs Markup_Model Markup_Spec Markup_Proofs Strip_Model Strip_Spec Strip_Proofs Variables_Model Wrap_Model Wrap_Spec Wrap_Proofs Wrap2_Proofs Autosize_Spec.
Import ListNotations.
Open Scope nat_scope.
Arguments blen : simpl never.
Arguments utf8_len : simpl never.

Lemma Forall2_length : forall (A B : Type) (R : A -> B -> Prop) l m, Forall2 R l m -> length l = length m.
Proof. intros A B R l m F. induction F; cbn; auto. Qed.

(** ** Markup and its text *)
Lemma split_char_prefix : forall c p t, ~ In c p -> forall h r, split_char c t = h :: r -> split_char c (p ++ t) = (p ++ h) :: r.
Proof.
  intros c p t. induction p as [|x p IH]; intros N h r E; cbn [app]; auto.
  cbn [split_char]. destruct (Z.eqb_spec x c) as [->|D]. { exfalso. apply N. left; auto. }
  rewrite (IH (fun H => N (or_intror H)) h r E). reflexivity.
Qed.
Lemma tag_scan_body : forall b, tag_body b -> forall d r,
  tag_scan (S d) (b ++ r) = option_map (fun p : text * text => (b ++ fst p, snd p)) (tag_scan (S d) r).
Proof.
  intros b H. induction H as [|c b (P1 & P2 & P3) N H IH|c b N H IH|a b Ha IHa Hb IHb]; intros d r.
  - cbn [app]. destruct (tag_scan (S d) r) as [[x y]|]; reflexivity.
  - cbn [app tag_scan]. apply Z.eqb_neq in P1, P2, P3. rewrite P1, P2, P3, IH. destruct (tag_scan (S d) r) as [[x y]|]; reflexivity.
  - change ((92%Z :: c :: b) ++ r) with (ch_esc :: c :: b ++ r). cbn [tag_scan]. change (ch_esc =? ch_open)%Z with false. change (ch_esc =? ch_close)%Z with false. rewrite Z.eqb_refl. rewrite IH. destruct (tag_scan (S d) r) as [[x y]|]; reflexivity.
  - change ((91%Z :: a ++ 93%Z :: b) ++ r) with (ch_open :: (a ++ 93%Z :: b) ++ r). rewrite <- app_assoc. cbn [tag_scan app]. rewrite Z.eqb_refl.
    rewrite IHa. change (93%Z :: b ++ r) with (ch_close :: b ++ r). cbn [tag_scan]. change (ch_close =? ch_open)%Z with false. rewrite Z.eqb_refl.
    rewrite IHb. destruct (tag_scan (S d) r) as [[x y]|]; cbn [option_map fst snd]; [|reflexivity]. do 2 f_equal. rewrite <- app_assoc. reflexivity.
Qed.
Lemma tag_scan_tag : forall b r, tag_body b -> tag_scan 1 (b ++ 93%Z :: r) = Some (b, r).
Proof. intros b r H. rewrite (tag_scan_body b H 0). cbn. rewrite app_nil_r. reflexivity. Qed.

Section M.
Variable lower : text -> text.
Variable known_color : text -> bool.
Notation parse_from := (parse_from lower known_color).
Notation process_token := (process_token lower known_color).
Notation parse := (parse lower known_color).

Lemma out_create : forall l p, ps_out (fold_left create_span l p) = ps_out p.
Proof. induction l as [|e l IH]; intros p; cbn [fold_left]; auto. rewrite IH. apply create_span_fields. Qed.
Lemma out_pop : forall p, ps_out (pop_style p) = ps_out p.
Proof. intros p. unfold pop_style. destruct (ps_stack p) as [|e r]; auto. destruct (create_span_fields (set_stack p r) e) as [_ ->]. reflexivity. Qed.
Lemma out_match : forall p n, ps_out (pop_style_matching lower p n) = ps_out p.
Proof. intros p n. unfold pop_style_matching. destruct (pop_until lower n (ps_stack p)). rewrite out_create. reflexivity. Qed.
Lemma out_tag : forall k p q b, tag_token b = Some k -> process_token p k = Ok q -> ps_out q = ps_out p.
Proof.
  intros k p q b T. unfold tag_token in T. destruct b as [|c r]; [discriminate|]. destruct (c =? ch_slash)%Z.
  - destruct (trim r) as [|x n]; injection T as <-; cbn [Markup_Model.process_token]; intros E; inversion E; [apply out_pop|apply out_match].
  - injection T as <-. cbn [Markup_Model.process_token]. unfold process_open. destruct (tag_parse lower known_color (c :: r)) as [[s|a v| |n]| |]; cbn [bind]; intros E; inversion E; auto using out_pop, out_match.
Qed.
Lemma parse_from_marked : forall s t, marked s t -> forall p q, parse_from p s = Ok q -> ps_out q = ps_out p ++ t.
Proof.
  intros s t H. induction H as [|c s t N1 N2 H IH|c s t C H IH|b s t B H IH]; intros p q E.
  - rewrite parse_from_nil in E. inversion E. rewrite app_nil_r. reflexivity.
  - rewrite parse_from_char in E by auto. rewrite (IH _ _ E). cbn [push_text ps_out]. rewrite <- app_assoc. reflexivity.
  - change (92%Z :: c :: s) with (ch_esc :: c :: s) in E. rewrite parse_from_esc in E by (unfold ch_open, ch_close, ch_esc; tauto).
    rewrite (IH _ _ E). cbn [push_text ps_out]. rewrite <- app_assoc. reflexivity.
  - unfold Markup_Proofs.parse_from in E.
    assert (L : lex_one (91%Z :: b ++ 93%Z :: s) = option_map (fun k => (k, s)) (tag_token b)).
    { unfold lex_one. change (91%Z =? ch_open)%Z with true. cbv iota. unfold consume_tag. rewrite tag_scan_tag by auto. reflexivity. }
    destruct (tag_token b) as [k|] eqn:T; cbn [option_map] in L.
    + rewrite (lex_step _ _ _ L) in E. destruct (lex s) as [ks| |] eqn:LS; cbn [bind] in E; try discriminate. cbn [process_tokens] in E.
      destruct (process_token p k) as [p'| |] eqn:PK; cbn [bind] in E; try discriminate.
      rewrite <- (out_tag _ _ _ _ T PK). apply (IH p' q). unfold Markup_Proofs.parse_from. rewrite LS. exact E.
    + exfalso. unfold lex in E. cbn [lex_fuel length] in E. rewrite L in E. discriminate.
Qed.
(** The text of parsed markup. *)
Lemma parse_marked : forall s t m, marked s t -> parse s = Ok m -> pm_text m = t.
Proof.
  intros s t m H E. rewrite parse_parse_from in E. destruct (parse_from parser_new s) as [q| |] eqn:Q; cbn [bind] in E; try discriminate.
  inversion E. cbn [pm_text]. unfold close_all. rewrite out_create. cbn [set_stack ps_out]. rewrite (parse_from_marked s t H _ _ Q). reflexivity.
Qed.
End M.

(** Every line of the text is on the same line of the markup. *)
Definition cwid (gw : text -> nat) (t : text) : nat := fold_right (fun c n => gw [c] + n) 0 t.
Lemma cwid_app : forall gw a b, cwid gw (a ++ b) = cwid gw a + cwid gw b.
Proof. intros gw a b. unfold cwid. induction a as [|c a IH]; auto. cbn [app fold_right]. rewrite IH. lia. Qed.
Lemma body_one_line : forall b, tag_body b -> ~ In 10%Z b.
Proof.
  intros b H. induction H as [|c b P N H IH|c b N H IH|a b Ha IHa Hb IHb]; intros I.
  - destruct I.
  - destruct I as [->|I]; auto.
  - destruct I as [I|[->|I]]; auto. discriminate.
  - destruct I as [I|I]; [discriminate|]. apply in_app_or in I. destruct I as [I|[I|I]]; auto. discriminate.
Qed.
Definition narrower (gw : text -> nat) (a b : text) : Prop := cwid gw b <= cwid gw a /\ incl b a.
Lemma marked_lines : forall gw s t, marked s t -> Forall2 (narrower gw) (split_char 10%Z s) (split_char 10%Z t).
Proof.
  intros gw s t H. induction H as [|c s t N1 N2 H IH|c s t C H IH|b s t B H IH].
  - cbn. repeat constructor. intros x [].
  - cbn [split_char]. destruct (Z.eqb_spec c 10) as [->|D]. { constructor; auto. split; auto. intros x []. }
    inversion IH as [E1 E2|x y l l' (N & I) F E1 E2]; subst. { exfalso. eapply split_char_not_nil; eauto. }
    constructor; auto. split; [unfold cwid in *; cbn [fold_right]; lia|]. intros z [->|Z]; [left; auto|right; auto].
  - cbn [split_char]. assert (D : c <> 10%Z) by (intros ->; destruct C as [C|[C|C]]; discriminate). apply Z.eqb_neq in D. rewrite D. change (92 =? 10)%Z with false. cbv iota.
    inversion IH as [E1 E2|x y l l' (N & I) F E1 E2]; subst. { exfalso. eapply split_char_not_nil; eauto. }
    constructor; auto. split; [unfold cwid in *; cbn [fold_right]; lia|]. intros z [->|Z]; [right; left; auto|right; right; auto].
  - inversion IH as [E1 E2|x y l l' (N & I) F E1 E2]; subst. { exfalso. eapply split_char_not_nil; eauto. }
    change (91%Z :: b ++ 93%Z :: s) with ((91%Z :: b) ++ [93%Z] ++ s). rewrite app_assoc. erewrite split_char_prefix; [|intros Q|symmetry; eauto].
    + constructor; auto. split. { rewrite cwid_app. lia. } { intros z Z. apply in_or_app. right; auto. }
    + apply in_app_or in Q. destruct Q as [[Q|Q]|[Q|[]]]; try discriminate. apply (body_one_line b B Q).
Qed.
Lemma split_char_incl : forall c t l, In l (split_char c t) -> incl l t.
Proof.
  intros c t. induction t as [|x t IH]; intros l I; cbn [split_char] in I.
  - destruct I as [<-|[]]. intros z [].
  - destruct (x =? c)%Z.
    + destruct I as [<-|I]; [intros z []|]. intros z Z. right. apply (IH l I z Z).
    + destruct (split_char c t) as [|h r] eqn:E. { destruct I as [<-|[]]. intros z [->|[]]. left; auto. }
      destruct I as [<-|I].
      * intros z [->|Z]; [left; auto|]. right. apply (IH h (or_introl eq_refl) z Z).
      * intros z Z. right. apply (IH l (or_intror I) z Z).
Qed.

(** *** Lines that are not tidy *)
Lemma collapse_narrower : forall gw t, (forall c, In c t -> is_ws c = true -> 1 <= gw [c]) -> gw [32%Z] = 1 ->
  cwid gw (spaced (split_ws t)) <= cwid gw t.
Proof.
  intros gw t W B. assert (Q : forall n t, length t <= n -> (forall c, In c t -> is_ws c = true -> 1 <= gw [c]) ->
    cwid gw (spaced (split_ws t)) <= cwid gw t /\ (match t with c :: _ => is_ws c = true | [] => False end -> split_ws t <> [] -> 1 + cwid gw (spaced (split_ws t)) <= cwid gw t)).
  { clear t W. induction n as [|n IH]; intros t LN W. { destruct t; cbn in LN; [|lia]. split; [cbn; lia|intros []]. }
    destruct t as [|c t]. { split; [cbn; lia|intros []]. } cbn [length] in LN.
    destruct (is_ws c) eqn:E.
    - rewrite split_ws_skip by auto. destruct (IH t) as [I1 _]; [lia|intros x X; apply W; right; auto|]. specialize (W c (or_introl eq_refl) E).
      unfold cwid in *. cbn [fold_right]. split; lia.
    - rewrite split_ws_word by auto. split; [|intros X; discriminate X]. rewrite spaced_cons.
      pose proof (take_drop t) as TD. assert (LD : length (drop_word t) <= n). { rewrite <- TD, app_length in LN. lia. }
      destruct (IH (drop_word t) LD) as [I1 I2]. { intros x X. apply W. right. rewrite <- TD. apply in_or_app. auto. }
      assert (C : cwid gw (c :: t) = cwid gw (c :: take_word t) + cwid gw (drop_word t)). { rewrite <- cwid_app. cbn [app]. rewrite TD. reflexivity. }
      rewrite C, cwid_app. apply Nat.add_le_mono_l. destruct (split_ws (drop_word t)) as [|w ws] eqn:SW. { cbn. lia. }
      cbn [flat_map]. change ((32%Z :: w) ++ flat_map (fun x => 32%Z :: x) ws) with ([32%Z] ++ w ++ flat_map (fun x => 32%Z :: x) ws).
      rewrite <- spaced_cons, cwid_app. assert (H1 : cwid gw [32%Z] = 1) by (unfold cwid; cbn [fold_right]; rewrite Nat.add_0_r; exact B). rewrite H1. apply I2; [|discriminate].
      destruct (drop_word t) as [|y d] eqn:DW; [cbn in SW; discriminate|]. eapply drop_head; eauto. }
  apply (Q (length t) t (le_n _) W).
Qed.
Lemma blank_words : forall t, split_ws t = [] <-> existsb (fun c => negb (is_ws c)) t = false.
Proof.
  induction t as [|c t IH]. { split; reflexivity. } cbn [existsb]. destruct (is_ws c) eqn:E; cbn [negb orb].
  - rewrite split_ws_skip; auto.
  - rewrite split_ws_word by auto. split; discriminate.
Qed.

Section C.
Variable gr : text -> list text.
Variable gw : text -> nat.
Context {St Mt : Type}.
Variable sapply : St -> St -> St.
Variable sdefault : St.
Variable sempty : St -> bool.
Variable mnew : Mt.
Variable mempty : Mt -> bool.
Variable mextend : Mt -> Mt -> Mt.
Variable restyle : St -> Mt -> St.
Hypothesis Hgr : forall t, concat (gr t) = t.
Hypothesis Hne : forall t g, In g (gr t) -> g <> [].
Hypothesis Hse : forall s, sempty s = true -> s = sdefault.
Hypothesis Hme : forall m, mempty m = true -> m = mnew.
Hypothesis Hrs : forall s, restyle s mnew = s.
Notation strp := (@strip text St Mt).
Notation cont := (@content St Mt).
Notation spn := (@Wrap_Model.span St Mt).
Notation dw := (dw gr gw).
Notation render_loop := (render_loop gr gw sapply sdefault sempty mnew mempty mextend restyle).
Notation render_line := (Wrap_Model.render_line gr gw sapply sdefault sempty mnew mempty mextend restyle).
Notation spans_loop := (spans_loop gr gw sapply sdefault sempty mnew mempty mextend restyle).
Notation wrap_line_with_spans := (wrap_line_with_spans gr gw sapply sdefault sempty mnew mempty mextend restyle).
Notation wrap_one := (wrap_one gr gw sapply sdefault sempty mnew mempty mextend restyle).
Notation wrap_lines := (wrap_lines gr gw sapply sdefault sempty mnew mempty mextend restyle).
Notation wrap_overflow := (wrap_overflow gr gw sapply sdefault sempty mnew mempty mextend restyle).
Notation view := (view sdefault).
Notation should_look := (should_look sapply sdefault mnew mextend restyle).
Notation lines_look := (lines_look sapply sdefault mnew mextend restyle).

(** *** Texts whose characters stand by themselves *)
Lemma letters_dw : forall src t, letters gr gw src -> incl t (32%Z :: src) -> dw t = cwid gw t.
Proof. intros src t (_ & L) I. unfold Wrap_Model.dw, text_width, cwid. rewrite (L t I). clear L I. induction t as [|c t IH]; auto. cbn [map fold_right]. rewrite IH. reflexivity. Qed.
Lemma incl_app_l : forall (a b s : text), incl (a ++ b) s -> incl a s /\ incl b s.
Proof. intros a b s H. split; intros x X; apply H; apply in_or_app; auto. Qed.
Lemma spaced_incl : forall ws S, Forall (fun w => incl w (32%Z :: S)) ws -> incl (spaced ws) (32%Z :: S).
Proof.
  intros ws S F. destruct ws as [|w ws]. { intros x []. } rewrite spaced_cons. inversion F as [|? ? I1 I2]; subst. apply incl_app; auto.
  intros x X. apply in_flat_map in X. destruct X as (v & V & X). rewrite Forall_forall in I2. destruct X as [<-|X]; [left; auto|]. apply (I2 v V x X).
Qed.
Lemma word_in_line : forall t w c, In w (split_ws t) -> In c w -> In c t.
Proof.
  intros t w c W C. assert (I : In c (ink t)). { destruct (words_ink t) as [<- _]. apply in_concat. eauto. }
  apply filter_In in I. apply I.
Qed.
Lemma letters_spacing : forall src ws, letters gr gw src -> Forall (fun w => incl w (32%Z :: src)) ws -> spacing_adds gr gw ws.
Proof.
  intros src ws L F pre v w post E NE.
  assert (I : Forall (fun w => incl w (32%Z :: src)) v /\ incl w (32%Z :: src)).
  { subst ws. apply Forall_app in F. destruct F as [_ F]. apply Forall_app in F. destruct F as [F1 F2]. split; auto. inversion F2; auto. }
  destruct I as [I1 I2]. pose proof (spaced_incl v src I1) as I3.
  assert (I4 : incl (spaced (v ++ [w])) (32%Z :: src)). { apply spaced_incl. apply Forall_app. split; auto. }
  rewrite !(letters_dw src) by auto. rewrite spaced_snoc by auto. change (32%Z :: w) with ([32%Z] ++ w). rewrite !cwid_app. assert (L1 : cwid gw [32%Z] = 1) by (unfold cwid; cbn [fold_right]; rewrite Nat.add_0_r; destruct L as [L0 _]; exact L0). lia.
Qed.
Lemma letters_visible : forall src t, letters gr gw src -> inked gw src -> incl t src -> visible gr gw (split_ws t).
Proof.
  intros src t L K I. apply Forall_forall. intros w W. destruct (words_ink t) as [_ F]. rewrite Forall_forall in F. destruct (F w W) as [NE NW].
  assert (IW : incl w src) by (intros c C; apply I; eapply word_in_line; eauto).
  rewrite (letters_dw src) by (auto; intros c C; right; apply IW; auto). destruct w as [|c w]; [congruence|]. unfold cwid. cbn [fold_right]. inversion NW; subst. specialize (K c (IW c (or_introl eq_refl)) H1). lia.
Qed.

(** The segments of a rendered line are cut into clusters. *)
Definition clustered (src : text) (x : @segment text St Mt) : Prop := exists t, sg_text x = gr t /\ incl t src.
Lemma bslice_incl : forall a b t m, bslice a b t = Some m -> incl m t.
Proof.
  intros a b t m. unfold bslice. destruct (b <? a); [discriminate|].
  assert (Q : forall n u x y, bsplit n u = Some (x, y) -> u = x ++ y).
  { intros n u. revert n. induction u as [|c u IH]; intros n x y E; destruct n as [|n]; cbn [bsplit] in E; try (injection E as <- <-; reflexivity); try discriminate.
    destruct (utf8_len c <=? S n); [|discriminate]. destruct (bsplit (S n - utf8_len c) u) as [[p q]|] eqn:B; [|discriminate]. injection E as <- <-. cbn [app]. f_equal. eapply IH; eauto. }
  destruct (bsplit b t) as [[p r]|] eqn:A; [|discriminate]. destruct (bsplit a p) as [[x y]|] eqn:B; cbn; [|discriminate]. intros E. injection E as <-.
  rewrite (Q _ _ _ _ A), (Q _ _ _ _ B). intros z Z. apply in_or_app. left. apply in_or_app. auto.
Qed.
Lemma render_loop_clustered : forall fuel c line ls spans pos segs, render_loop fuel c line ls spans pos = Some segs -> Forall (clustered line) segs.
Proof.
  induction fuel as [|n IH]; intros c line ls spans pos segs E; cbn [Wrap_Model.render_loop] in E. { inversion E. constructor. }
  destruct (blen line <=? pos). { inversion E. constructor. }
  destruct (bslice pos _ line) as [t|] eqn:B; [|discriminate]. destruct (render_loop n c line ls spans _) as [rest|] eqn:R; cbn [option_map] in E; [|discriminate].
  pose proof (IH _ _ _ _ _ _ R) as F. inversion E. destruct (is_nil t); auto. constructor; auto. exists t. split; auto. eapply bslice_incl; eauto.
Qed.
Lemma render_line_clustered : forall c line a b spans s, render_line c line a b spans = Some s -> Forall (clustered line) (st_segs s).
Proof.
  intros c line a b spans s. unfold Wrap_Model.render_line. destruct (is_nil line). { intros E. inversion E. constructor. }
  match goal with |- context [is_nil ?l] => destruct (is_nil l) end.
  - intros E. inversion E. cbn. constructor; [|constructor]. exists line. split; [reflexivity|apply incl_refl].
  - destruct (render_loop _ _ _ _ _ _) as [segs|] eqn:R; cbn [option_map]; intros E; [|discriminate]. inversion E. cbn. eapply render_loop_clustered; eauto.
Qed.
Lemma letters_cells : forall src s, letters gr gw src -> Forall (clustered src) (st_segs s) ->
  map (fun c : @cell text St Mt => fst (fst c)) (cells s) = map (fun c => [c]) (strip_text s) /\ incl (strip_text s) src.
Proof.
  intros src s (_ & L) F. unfold cells, strip_text. induction F as [|x l (t & E & I) F IH]. { split; auto. intros c []. }
  cbn [flat_map]. rewrite map_app, concat_app, map_app. destruct IH as [-> IH]. assert (G : concat (sg_text x) = t) by (rewrite E; apply Hgr). split.
  - f_equal. unfold seg_cells. rewrite map_map. cbn [fst]. rewrite map_id, G, E. apply L. intros c C. right. apply I; auto.
  - rewrite G. apply incl_app; auto.
Qed.
Lemma cells_width_glyphs : forall l : list (@cell text St Mt), cells_width gw l = text_width gw (map (fun c => fst (fst c)) l).
Proof. induction l as [|c l IH]; auto. cbn. unfold cells_width in IH. rewrite IH. reflexivity. Qed.
Lemma letters_len : forall src s, letters gr gw src -> strip_ok gw s -> Forall (clustered src) (st_segs s) -> st_len s = cwid gw (strip_text s).
Proof.
  intros src s L (_ & O) F. rewrite O, cells_width_glyphs. destruct (letters_cells src s L F) as [LC _]. transitivity (text_width gw (map (fun c => [c]) (strip_text s))). { f_equal. exact LC. }
  clear LC O F. unfold text_width, cwid. induction (strip_text s) as [|c t IH]; auto. cbn [map fold_right]. rewrite IH. reflexivity.
Qed.

(** *** One line that fits *)
Lemma spans_loop_fits : forall c line ls width spans n T ps, located n T ps -> T = flat_map (fun x => 32%Z :: x) (map fst ps) ->
  forall cw M, line = M ++ T -> blen M = n -> M <> [] -> 0 < cw ->
  cw + fold_right (fun w k => 1 + dw w + k) 0 (map fst ps) <= width ->
  spans_loop c line ls width spans ps n 0 cw = push (render_line c line ls (ls + blen line) spans) (Some []).
Proof.
  intros c line ls width spans n T ps H. induction H as [n t B|n g w t ps B NE NW H IH]; intros ET cw M E EN NM P LE.
  - cbn [map flat_map] in ET. subst t. rewrite app_nil_r in E. subst M. cbn [Wrap_Model.spans_loop]. destruct (Nat.ltb_spec 0 cw); [|lia].
    replace (bslice 0 n line) with (Some line). 2: { rewrite <- EN. symmetry. pose proof (bslice_mid [] line []) as Q. rewrite app_nil_r in Q. exact Q. }
    destruct (is_nil line) eqn:N; [destruct line; [congruence|discriminate]|]. rewrite Nat.add_0_r, EN. reflexivity.
  - cbn [map fst flat_map] in ET. cbn [map fst fold_right] in LE.
    assert (G : g = [32%Z] /\ t = flat_map (fun x => 32%Z :: x) (map fst ps)).
    { destruct w as [|x w]; [congruence|]. inversion NW; subst. cbn [app] in ET. destruct (blank_unique _ _ _ _ _ B H2 H2 ET) as [-> E2]. split; auto.
      injection E2 as E2. apply app_inv_head in E2. auto. }
    destruct G as [-> ET2]. cbn [Wrap_Model.spans_loop]. destruct (Nat.eqb_spec cw 0); [lia|]. destruct (Nat.leb_spec (cw + (1 + dw w)) width); [|lia].
    apply (IH ET2 _ (M ++ [32%Z] ++ w)).
    + rewrite E, <- !app_assoc. reflexivity.
    + rewrite !blen_app. lia.
    + destruct M; [congruence|discriminate].
    + lia.
    + lia.
Qed.
Lemma spaced_dw : forall w ws, spacing_adds gr gw (w :: ws) -> dw (spaced (w :: ws)) = dw w + fold_right (fun w k => 1 + dw w + k) 0 ws.
Proof.
  intros w ws SA. assert (Q : forall done rest, ws = done ++ rest -> dw (spaced (w :: done)) + fold_right (fun w k => 1 + dw w + k) 0 rest = dw w + fold_right (fun w k => 1 + dw w + k) 0 ws).
  { intros done. induction done as [|x done IH] using rev_ind; intros rest E. { subst ws. reflexivity. }
    rewrite <- (IH (x :: rest)) by (rewrite E, <- app_assoc; reflexivity). cbn [fold_right].
    change (w :: done ++ [x]) with ((w :: done) ++ [x]). rewrite (SA [] (w :: done) x rest); [lia| |discriminate]. rewrite E. cbn [app]. rewrite <- app_assoc. reflexivity. }
  specialize (Q ws [] (eq_sym (app_nil_r ws))). cbn [fold_right] in Q. lia.
Qed.
Lemma wrap_styled_fits : forall (c : cont) line ls width spans, tidy line -> line <> [] -> visible gr gw (split_ws line) -> spacing_adds gr gw (split_ws line) ->
  dw line <= width -> wrap_line_with_spans c line ls width spans = push (render_line c line ls (ls + blen line) spans) (Some []).
Proof.
  intros c line ls width spans T NE V SA LE. unfold Wrap_Model.wrap_line_with_spans. unfold tidy in T.
  destruct (words_located_n (length line) line 0 [] (le_n _) eq_refl) as (ps & P1 & P2 & P3). cbn [app] in P1. rewrite P1.
  pose proof (located_words line ps P2) as LW. revert P3 LW. generalize (combine (split_ws line) ps) as q. intros q P3 LW.
  inversion P3 as [? ? HB E1 E2 E3|? g w t q' HB NW NS H E1 E2 E3]; subst q.
  - exfalso. cbn [map] in LW. rewrite <- LW in T. cbn in T. congruence.
  - cbn [map fst] in LW. rewrite <- LW in T, V, SA. assert (D := spaced_dw _ _ SA). rewrite <- T in D. rewrite spaced_cons in T. pose proof (Forall_inv V) as V1. cbn beta in V1.
    assert (G : g = [] /\ t = flat_map (fun x => 32%Z :: x) (map fst q')).
    { destruct w as [|x w]; [congruence|]. pose proof (Forall_inv NS) as NX. cbn beta in NX. rewrite <- E2 in T. destruct g as [|y g]; cbn [app] in T.
      - split; auto. injection T as T. apply app_inv_head in T. auto.
      - injection T as T0 _. subst y. inversion HB; subst. congruence. }
    destruct G as [-> ET]. cbn [app] in *. change (blen []) with 0 in *. cbn [Nat.add] in *. cbn [Wrap_Model.spans_loop Nat.eqb].
    destruct (Nat.leb_spec (dw w) width); [|lia].
    rewrite E2. apply (spans_loop_fits c line ls width spans _ t q' H ET (dw w) w); auto. rewrite D in LE. exact LE.
Qed.

(** *** What is wanted of a line: the look, right lengths, one cluster a character *)
Definition shows (c : cont) (pos : nat) (l : text) (s : strp) : Prop :=
  view s = should_look c pos l /\ strip_ok gw s /\ map (fun x : @cell text St Mt => fst (fst x)) (cells s) = map (fun c => [c]) l.
Lemma shows_len : forall c pos l s, shows c pos l s -> st_len s = cwid gw l.
Proof.
  intros c pos l s (_ & (_ & O) & G). rewrite O, cells_width_glyphs. transitivity (text_width gw (map (fun c => [c]) l)). { f_equal. exact G. }
  clear G O. unfold text_width, cwid. induction l as [|x l IH]; auto. cbn [map fold_right]. rewrite IH. reflexivity.
Qed.
Lemma look_text : forall (c : cont) pos l s, view s = should_look c pos l -> strip_text s = l.
Proof. intros c pos l s V. rewrite (view_text sdefault), V. unfold Wrap_Spec.should_look. apply painted_text. Qed.
Lemma full_shows : forall (c : cont) src line pos, letters gr gw src -> incl line src -> aligned (spans_of c) pos line ->
  exists s, match c_spans c with Some spans => render_line c line pos (pos + blen line) spans | None => Some (from_segment (plain gr gw mnew c line)) end = Some s /\ shows c pos line s.
Proof.
  intros c src line pos L I AL. destruct (full_line gr gw sapply sdefault sempty mnew mempty mextend restyle Hgr Hse Hme Hrs c line pos AL) as (s & S1 & S2 & S3).
  exists s. split; auto. split; auto. split; auto.
  assert (F : Forall (clustered src) (st_segs s)).
  { assert (F : Forall (clustered line) (st_segs s)).
    { destruct (c_spans c) as [spans|]. { eapply render_line_clustered; eauto. } inversion S1. cbn. constructor; [|constructor]. exists line. split; [reflexivity|apply incl_refl]. }
    eapply Forall_impl; [|exact F]. intros x (t & T & J). exists t. split; auto. eapply incl_tran; eauto. }
  destruct (letters_cells src s L F) as [G _]. rewrite (look_text c pos line s S2) in G. exact G.
Qed.
Lemma empty_shows : forall c pos, shows c pos [] strip_new.
Proof. intros c pos. split; [reflexivity|]. split; [|reflexivity]. split; [constructor|reflexivity]. Qed.
Lemma view_cells : forall s : strp, view s = flat_map (fun x : @cell text St Mt => map (fun c => (c, look sdefault (snd (fst x)), snd x)) (fst (fst x))) (cells s).
Proof.
  intros s. unfold Wrap_Spec.view, cells. induction (st_segs s) as [|x l IH]; auto. cbn [flat_map]. rewrite flat_map_app, <- IH. f_equal.
  unfold seg_view, seg_cells. induction (sg_text x) as [|g t IHt]; auto. cbn [concat map flat_map fst snd]. rewrite map_app, IHt. reflexivity.
Qed.
Lemma crop_shows : forall c pos l s n, shows c pos l s -> (forall x, In x l -> 0 < gw [x]) -> st_len s <= n -> shows c pos l (crop gw s 0 n).
Proof.
  intros c pos l s n (V & O & G) P LE. assert (E : cells (crop gw s 0 n) = cells s).
  { rewrite crop_beyond with (gw := gw) by auto. rewrite Nat.min_r by auto. destruct O as [O1 O2].
    pose proof (crop_exact gw s [] (cells s) [] (conj O1 O2)) as X. cbn [app] in X. rewrite app_nil_r in X. rewrite <- O2 in X. apply X; auto.
    apply Forall_forall. intros y Y. apply (in_map (fun x : @cell text St Mt => fst (fst x))) in Y. rewrite G in Y. apply in_map_iff in Y. destruct Y as (ch & E & C). rewrite <- E. apply P; auto. }
  split; [|split].
  - rewrite view_cells, E, <- view_cells. auto.
  - apply crop_strip_ok; auto.
  - rewrite E. auto.
Qed.

(** *** Plain words that fit *)
Lemma wrap_words_fits : forall ws width cur cw, cur <> [] -> 0 < cw -> cw + fold_right (fun w k => 1 + dw w + k) 0 ws <= width ->
  wrap_words gr gw width cur cw ws = [cur ++ flat_map (fun x => 32%Z :: x) ws].
Proof.
  induction ws as [|w ws IH]; intros width cur cw NE P LE; cbn [wrap_words flat_map].
  - rewrite app_nil_r. destruct cur; [congruence|reflexivity].
  - cbn [fold_right] in LE. destruct (Nat.eqb_spec cw 0); [lia|]. destruct (Nat.leb_spec (cw + 1 + dw w) width); [|lia].
    rewrite IH; [|destruct cur; discriminate|lia|lia]. rewrite <- app_assoc. reflexivity.
Qed.
Lemma wrap_words_line : forall ws width, visible gr gw ws -> Forall (fun w => w <> []) ws -> spacing_adds gr gw ws -> dw (spaced ws) <= width ->
  wrap_words gr gw width [] 0 ws = match ws with [] => [] | _ => [spaced ws] end.
Proof.
  intros ws width V NE SA LE. destruct ws as [|w ws]; [reflexivity|]. rewrite spaced_cons. rewrite (spaced_dw w ws SA) in LE.
  pose proof (Forall_inv V) as V1. pose proof (Forall_inv NE) as N1. cbn beta in V1, N1. cbn [wrap_words Nat.eqb]. destruct (Nat.leb_spec (dw w) width); [|lia].
  apply wrap_words_fits; auto.
Qed.

(** *** One source line *)
Lemma one_tidy : forall (c : cont) src o line pos width, letters gr gw src -> inked gw src -> incl line src -> aligned (spans_of c) pos line ->
  tidy line -> cwid gw line <= width -> 0 < width ->
  exists s, wrap_one c width o Wrap line pos = Some [(s, true)] /\ shows c pos line s.
Proof.
  intros c src o line pos width L K I AL T LE W. unfold Wrap_Model.wrap_one. destruct (is_nil line) eqn:N.
  { destruct line; [|discriminate]. eexists. split; [reflexivity|apply empty_shows]. }
  assert (NE : line <> []) by (intros ->; discriminate). destruct (full_shows c src line pos L I AL) as (s & S1 & S2).
  assert (I' : incl line (32%Z :: src)) by (intros x X; right; auto).
  assert (FW : Forall (fun w => incl w (32%Z :: src)) (split_ws line)) by (apply Forall_forall; intros w Hw x X; apply I'; eapply word_in_line; eauto).
  pose proof (letters_visible src line L K I) as V. pose proof (letters_spacing src _ L FW) as SA.
  rewrite <- (letters_dw src line L I') in LE.
  assert (E : match c_spans c with Some spans => wrap_line_with_spans c line pos width spans | None => Some (wrap_line gr gw mnew c line width) end = Some [s]).
  { destruct (c_spans c) as [spans|].
    - rewrite wrap_styled_fits, S1; auto.
    - unfold wrap_line. rewrite wrap_words_line; auto.
      + unfold tidy in T. destruct (split_ws line) as [|w ws] eqn:SW; [cbn in T; congruence|]. rewrite <- T. cbn [map]. congruence.
      + destruct (words_ink line) as [_ F]. eapply Forall_impl; [|exact F]. intros a [A _]. exact A.
      + rewrite <- T. auto. }
  rewrite E. cbn [option_map map mark_last is_nil]. exists s. split; auto.
  assert (LS : st_len s <= width) by (rewrite (shows_len _ _ _ _ S2), <- (letters_dw src line L I'); auto).
  destruct o; auto. unfold truncate_with_ellipsis. destruct (Nat.eqb_spec width 0); [lia|]. destruct (Nat.leb_spec (st_len s) width); [reflexivity|lia].
Qed.
Lemma one_unwrapped : forall (c : cont) src o line pos width, letters gr gw src -> incl line src -> aligned (spans_of c) pos line ->
  (forall x, In x line -> 0 < gw [x]) -> cwid gw line <= width -> 0 < width ->
  exists s, wrap_one c width o NoWrap line pos = Some [(s, true)] /\ shows c pos line s.
Proof.
  intros c src o line pos width L I AL P LE W. unfold Wrap_Model.wrap_one. destruct (is_nil line) eqn:N.
  { destruct line; [|discriminate]. eexists. split; [reflexivity|apply empty_shows]. }
  destruct (full_shows c src line pos L I AL) as (s & S1 & S2). rewrite S1. cbn [option_map]. pose proof (shows_len _ _ _ _ S2) as LS.
  assert (LP : 0 < st_len s). { rewrite LS. destruct line as [|x r]; [discriminate|]. unfold cwid. cbn [fold_right]. specialize (P x (or_introl eq_refl)). lia. }
  destruct o.
  - unfold split_strip_by_width. destruct (Nat.eqb_spec width 0); [lia|]. destruct (Nat.eqb_spec (st_len s) 0); [lia|].
    destruct (st_len s) as [|k] eqn:E; [lia|]. cbn [split_by_width]. rewrite E. cbn [Nat.ltb Nat.leb Nat.add]. rewrite (Nat.min_r width (S k)) by lia.
    assert (Z : split_by_width gw k s width (S k) = []). { destruct k; cbn [split_by_width]; auto. rewrite E, Nat.ltb_irrefl. reflexivity. }
    rewrite Z. cbn [mark_last is_nil]. eexists. split; [reflexivity|]. apply crop_shows; auto. lia.
  - eexists. split; [reflexivity|]. apply crop_shows; auto. lia.
  - exists s. split; auto. unfold truncate_with_ellipsis. destruct (Nat.eqb_spec width 0); [lia|]. destruct (Nat.leb_spec (st_len s) width); [reflexivity|lia].
Qed.
(** *** All lines *)
Fixpoint all_shown (c : cont) (pos : nat) (ls : list text) (out : list (strp * bool)) : Prop :=
  match ls, out with
  | [], [] => True
  | l :: ls, (s, e) :: out => shows c pos l s /\ e = true /\ all_shown c (pos + blen l + 1) ls out
  | _, _ => False
  end.
Lemma lines_shown : forall (c : cont) width o tw ls pos, (ls <> [] -> aligned (spans_of c) pos (intercalate [10%Z] ls)) ->
  (forall l p, In l ls -> aligned (spans_of c) p l -> exists s, wrap_one c width o tw l p = Some [(s, true)] /\ shows c p l s) ->
  exists out, wrap_lines c width o tw ls pos = Some out /\ all_shown c pos ls out.
Proof.
  intros c width o tw. induction ls as [|l r IH]; intros pos AL ONE. { exists []. split; reflexivity. }
  destruct (aligned_lines gr gw sapply sdefault sempty mnew mempty mextend restyle Hgr Hne Hse Hme Hrs (spans_of c) l r pos (AL ltac:(discriminate))) as [A1 A2].
  destruct (ONE l pos (or_introl eq_refl) A1) as (s & S1 & S2). destruct (IH (pos + blen l + 1) A2 (fun x p I => ONE x p (or_intror I))) as (rest & R1 & R2).
  cbn [Wrap_Model.wrap_lines]. rewrite S1, R1. exists ((s, true) :: rest). split; auto. cbn [all_shown]. auto.
Qed.
Lemma overflow_shown : forall (c : cont) width o tw, aligned (spans_of c) 0 (c_text c) -> 0 < width ->
  (forall l p, In l (text_lines (c_text c)) -> aligned (spans_of c) p l -> exists s, wrap_one c width o tw l p = Some [(s, true)] /\ shows c p l s) ->
  exists out, wrap_overflow c width o tw = Some out /\ all_shown c 0 (text_lines (c_text c)) out.
Proof.
  intros c width o tw AL W ONE. unfold Wrap_Model.wrap_overflow. destruct (Nat.eqb_spec width 0); [lia|].
  destruct (lines_shown c width o tw (text_lines (c_text c)) 0) as (out & O1 & O2); auto. { intros _. unfold text_lines. rewrite split_char_join. auto. }
  fold (text_lines (c_text c)). rewrite O1. cbn [option_map]. destruct out as [|x out].
  - exfalso. destruct (text_lines (c_text c)) eqn:E; [eapply split_char_not_nil; exact E|exact O2].
  - exists (x :: out). split; auto.
Qed.
Lemma all_shown_views : forall c ls pos out, all_shown c pos ls out -> map (fun p => view (fst p)) out = lines_look c pos ls /\
  map (fun p => st_len (fst p)) out = map (cwid gw) ls /\ Forall (fun p => snd p = true) out /\
  Forall2 (fun l p => strip_ok gw (fst p) /\ map (fun x : @cell text St Mt => fst (fst x)) (cells (fst p)) = map (fun c => [c]) l) ls out.
Proof.
  intros c. induction ls as [|l ls IH]; intros pos [|[s e] out] H; cbn [all_shown] in H; try contradiction. { repeat split; constructor. }
  destruct H as (S & -> & R). destruct (IH _ _ R) as (A & B & C & D). cbn [map Wrap_Spec.lines_look fst]. rewrite A, B, (shows_len _ _ _ _ S). destruct S as (S1 & S2 & S3). rewrite S1. repeat split; auto.
Qed.

Lemma one_collapsed : forall (c : cont) src o line pos width, letters gr gw src -> inked gw src -> incl line src -> c_spans c = None ->
  cwid gw (spaced (split_ws line)) <= width -> 0 < width ->
  wrap_one c width o Wrap line pos = Some (if is_nil line then [(strip_new, true)] else if is_nil (split_ws line) then [] else [(from_segment (plain gr gw mnew c (spaced (split_ws line))), true)]).
Proof.
  intros c src o line pos width L K I E LE W. unfold Wrap_Model.wrap_one. destruct (is_nil line) eqn:N; [reflexivity|].
  assert (FW : Forall (fun w => incl w (32%Z :: src)) (split_ws line)) by (apply Forall_forall; intros w Hw x X; right; apply I; eapply word_in_line; eauto).
  pose proof (letters_visible src line L K I) as V. pose proof (letters_spacing src _ L FW) as SA. rewrite <- (letters_dw src _ L (spaced_incl _ _ FW)) in LE.
  rewrite E. unfold wrap_line. rewrite wrap_words_line; auto.
  - destruct (split_ws line) as [|w ws] eqn:SW; cbn [is_nil map option_map mark_last]; [reflexivity|]. do 3 f_equal.
    destruct o; auto. unfold truncate_with_ellipsis. destruct (Nat.eqb_spec width 0); [lia|]. rewrite plain_len. destruct (Nat.leb_spec (dw (spaced (w :: ws))) width); [reflexivity|lia].
  - destruct (words_ink line) as [_ F]. eapply Forall_impl; [|exact F]. intros a [A _]. exact A.
Qed.
End C.
