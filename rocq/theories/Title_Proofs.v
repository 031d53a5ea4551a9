(** Proofs about the titles in borders. *)
From Coq Require Import ZArith List Bool Arith Lia.
From Verif Require Import Text_Model Fuzzy_Proofs Markup_Model Markup_Spec Markup_Proofs Strip_Model Strip_Spec Strip_Proofs Wrap_Model Wrap_Spec Wrap_Proofs Wrap2_Proofs
  Autosize_Model Autosize_Spec Autosize_Proofs Title_Model Title_Spec.
Import ListNotations.
Open Scope nat_scope.
Arguments blen : simpl never.
Arguments utf8_len : simpl never.

Definition ends_ink (t : text) : Prop := exists a c, t = a ++ [c] /\ is_ws c = false.
Lemma ink_end : forall w p, w <> [] -> Forall (fun c => is_ws c = false) w -> ends_ink (p ++ w).
Proof.
  intros w p N F. destruct (exists_last N) as (a & c & ->). exists (p ++ a), c. split. { rewrite app_assoc. reflexivity. }
  apply Forall_app in F. destruct F as [_ F]. inversion F; auto.
Qed.
Lemma blank_no_words : forall t, blank t <-> split_ws t = [].
Proof.
  intros t. rewrite blank_words. unfold blank. rewrite Forall_forall. split.
  - intros H. destruct (existsb _ t) eqn:E; auto. apply existsb_exists in E. destruct E as (c & I & E). rewrite (H c I) in E. discriminate.
  - intros H c I. destruct (is_ws c) eqn:E; auto. rewrite <- H. apply existsb_exists. exists c. rewrite E. auto.
Qed.

Section T.
Variable gr : text -> list text.
Variable gw : text -> nat.
Context {St Mt : Type}.
Variable sapply : St -> St -> St.
Variable sdefault : St.
Variable sempty : St -> bool.
Variable mnew : Mt.
Variable mempty : Mt -> bool.
Variable mextend : Mt -> Mt -> Mt.
Variable restyle : St -> Mt -> St.
Hypothesis Hgr : forall t, concat (gr t) = t.
Hypothesis Hne : forall t g, In g (gr t) -> g <> [].
Hypothesis Hse : forall s, sempty s = true -> s = sdefault.
Hypothesis Hme : forall m, mempty m = true -> m = mnew.
Hypothesis Hrs : forall s, restyle s mnew = s.
Notation cont := (@content St Mt).
Notation strp := (@strip text St Mt).
Notation dw := (dw gr gw).
Notation render_line := (Wrap_Model.render_line gr gw sapply sdefault sempty mnew mempty mextend restyle).
Notation spans_loop := (Wrap_Model.spans_loop gr gw sapply sdefault sempty mnew mempty mextend restyle).
Notation wrap_line_with_spans := (Wrap_Model.wrap_line_with_spans gr gw sapply sdefault sempty mnew mempty mextend restyle).
Notation wrap_one := (Wrap_Model.wrap_one gr gw sapply sdefault sempty mnew mempty mextend restyle).
Notation wrap_lines := (Wrap_Model.wrap_lines gr gw sapply sdefault sempty mnew mempty mextend restyle).
Notation wrap := (Wrap_Model.wrap gr gw sapply sdefault sempty mnew mempty mextend restyle).
Notation view := (view sdefault).
Notation should_look := (should_look sapply sdefault mnew mextend restyle).

Lemma loop_one : forall c line ls width spans n T ps, located n T ps ->
  forall cw M, line = M ++ T -> blen M = n -> ends_ink M -> 0 < cw ->
  cw + fold_right (fun w k => 1 + dw w + k) 0 (map fst ps) <= width ->
  exists shown tail, line = shown ++ tail /\ blank tail /\ ends_ink shown /\
    spans_loop c line ls width spans ps n 0 cw = push (render_line c shown ls (ls + blen shown) spans) (Some []).
Proof.
  intros c line ls width spans n T ps H. induction H as [n t B|n g w t ps B NE NW H IH]; intros cw M E EN NM P LE.
  - exists M, t. split; auto. split; auto. split; auto. cbn [Wrap_Model.spans_loop]. destruct (Nat.ltb_spec 0 cw); [|lia].
    replace (bslice 0 n line) with (Some M). 2: { rewrite <- EN, E. symmetry. exact (bslice_mid [] M t). }
    destruct (is_nil M) eqn:N. { destruct M; [|discriminate]. destruct NM as (a & x & NM & _). destruct a; discriminate. }
    rewrite Nat.add_0_r, EN. reflexivity.
  - cbn [map fst fold_right] in LE. cbn [Wrap_Model.spans_loop]. destruct (Nat.eqb_spec cw 0); [lia|]. destruct (Nat.leb_spec (cw + (1 + dw w)) width); [|lia].
    apply (IH _ ((M ++ g) ++ w)).
    + rewrite E, <- !app_assoc. reflexivity.
    + rewrite !blen_app. lia.
    + apply ink_end; auto.
    + lia.
    + lia.
Qed.
Lemma styled_one : forall (c : cont) line ls width spans, visible gr gw (split_ws line) -> fold_right (fun w k => 1 + dw w + k) 0 (split_ws line) <= width ->
  ~ blank line ->
  exists shown tail, line = shown ++ tail /\ blank tail /\ ends_ink shown /\
    wrap_line_with_spans c line ls width spans = push (render_line c shown ls (ls + blen shown) spans) (Some []).
Proof.
  intros c line ls width spans V LE NB. unfold Wrap_Model.wrap_line_with_spans.
  destruct (words_located_n (length line) line 0 [] (le_n _) eq_refl) as (ps & P1 & P2 & P3). cbn [app] in P1. rewrite P1.
  pose proof (located_words line ps P2) as LW. revert P3 LW. generalize (combine (split_ws line) ps) as q. intros q P3 LW.
  inversion P3 as [? ? HB E1 E2 E3|? g w t q' HB NW NS H E1 E2 E3]; subst q. { contradiction. }
  cbn [map fst] in LW. rewrite <- LW in V, LE. cbn [fold_right] in LE. pose proof (Forall_inv V) as V1. cbn beta in V1.
  cbn [Wrap_Model.spans_loop Nat.eqb Nat.add]. destruct (Nat.leb_spec (dw w) width); [|lia].
  rewrite E2. apply (loop_one c line ls width spans _ t q' H (dw w) (g ++ w)).
  - rewrite <- E2, <- app_assoc. reflexivity.
  - rewrite blen_app. reflexivity.
  - apply ink_end; auto.
  - auto.
  - lia.
Qed.
Lemma styled_none : forall (c : cont) line ls width spans, blank line -> wrap_line_with_spans c line ls width spans = Some [].
Proof. intros c line ls width spans B. unfold Wrap_Model.wrap_line_with_spans. apply blank_no_words in B. rewrite B. reflexivity. Qed.
Lemma words_one : forall ws width, visible gr gw ws -> Forall (fun w => w <> []) ws -> fold_right (fun w k => 1 + dw w + k) 0 ws <= width ->
  wrap_words gr gw width [] 0 ws = match ws with [] => [] | _ => [spaced ws] end.
Proof.
  intros ws width V NE LE. destruct ws as [|w ws]; [reflexivity|]. rewrite spaced_cons. cbn [fold_right] in LE.
  pose proof (Forall_inv V) as V1. pose proof (Forall_inv NE) as N1. cbn beta in V1, N1. cbn [wrap_words Nat.eqb]. destruct (Nat.leb_spec (dw w) width); [|lia].
  apply (wrap_words_fits gr gw sapply sdefault sempty mnew mempty mextend restyle Hgr Hne Hse Hme Hrs); auto. lia.
Qed.

(** What one line of the text gives. *)
Definition good (c : cont) (q : nat) (l : text) (s : strp) : Prop :=
  strip_ok gw s /\ Forall (clustered gr (32%Z :: l)) (st_segs s) /\
  (c_spans c = None -> view s = should_look c 0 (spaced (split_ws l))) /\
  (c_spans c <> None -> exists shown, without_end l shown /\ view s = should_look c q shown).
Lemma good_empty : forall c q, good c q [] strip_new.
Proof.
  intros c q. split; [split; [constructor|reflexivity]|]. split; [constructor|]. split; [reflexivity|]. intros _. exists []. split; [|reflexivity].
  exists []. split; auto. split; [constructor|auto].
Qed.
Lemma word_sub : forall line w, In w (split_ws line) -> incl w line.
Proof. intros line w W x X. eapply word_in_line; eauto. Qed.
Lemma one_line : forall (c : cont) width l q, 0 < width -> aligned (spans_of c) q l -> visible gr gw (split_ws l) ->
  fold_right (fun w k => 1 + dw w + k) 0 (split_ws l) <= width ->
  exists out, wrap_one c width Fold Wrap l q = Some out /\ (only_blanks l -> out = []) /\
    (~ only_blanks l -> exists s r, out = (s, r) :: [] /\ good c q l s).
Proof.
  intros c width l q W AL V LE. unfold Wrap_Model.wrap_one. destruct (is_nil l) eqn:N.
  { destruct l; [|discriminate]. eexists. split; [reflexivity|]. split. { intros [X _]. congruence. } intros _. exists strip_new, true. split; auto. apply good_empty. }
  assert (NL : l <> []) by (destruct l; [discriminate|congruence]).
  destruct (split_ws l) as [|w ws] eqn:SW.
  - apply blank_no_words in SW. exists []. split; [|split; [reflexivity|intros X; exfalso; apply X; split; auto]].
    destruct (c_spans c). { rewrite styled_none by auto. reflexivity. } unfold wrap_line. apply blank_no_words in SW. rewrite SW. reflexivity.
  - assert (NB : ~ blank l) by (intros B; apply blank_no_words in B; congruence).
    destruct (c_spans c) as [spans|] eqn:E.
    + rewrite <- SW in V, LE. destruct (styled_one c l q width spans V LE NB) as (sh & tl & E1 & E2 & E3 & E4). rewrite E4.
      unfold spans_of in AL. rewrite E in AL. assert (AS : aligned spans q sh).
      { rewrite E1 in AL. replace q with (q + blen []) by (change (blen []) with 0; lia). apply (aligned_sub spans q [] sh tl). exact AL. }
      destruct (render_line_spec gr gw sapply sdefault sempty mnew mempty mextend restyle Hgr Hse Hme Hrs c sh q spans AS) as (s & S1 & S2 & S3).
      rewrite S1. cbn [push option_map map mark_last is_nil]. eexists. split; [reflexivity|]. split. { intros [_ B]. contradiction. }
      intros _. exists s, true. split; auto. split; auto. split.
      { eapply Forall_impl; [|eapply render_line_clustered; exact S1]. intros x (t & T & I). exists t. split; auto. intros y Y. right. rewrite E1. apply in_or_app. left. auto. }
      split; [congruence|]. intros _. exists sh. split.
      * exists tl. split; auto.
      * rewrite S2. unfold Wrap_Spec.should_look, spans_of. rewrite E. reflexivity.
    + unfold wrap_line. rewrite words_one; [|rewrite SW; exact V| |rewrite SW; exact LE].
      2: { destruct (words_ink l) as [_ F]. eapply Forall_impl; [|exact F]. intros x [H _]. exact H. }
      rewrite SW. cbn [map option_map mark_last is_nil]. eexists. split; [reflexivity|]. split. { intros [_ B]. contradiction. }
      intros _. eexists _, true. split; [reflexivity|]. split. { apply (plain_ok gr gw). } split.
      { unfold from_segment; cbn [st_segs]. constructor; [|constructor]. exists (spaced (w :: ws)). split; [reflexivity|]. rewrite <- SW. apply spaced_incl. apply Forall_forall. intros x X y Y. right. eapply word_sub; eauto. }
      split; [|congruence]. intros _. rewrite <- SW. apply plain_look; auto.
Qed.
Lemma first_of_lines : forall (c : cont) width ls p, 0 < width -> (ls <> [] -> aligned (spans_of c) p (intercalate [10%Z] ls)) ->
  (forall l, In l ls -> visible gr gw (split_ws l) /\ fold_right (fun w k => 1 + dw w + k) 0 (split_ws l) <= width) ->
  forall q l, title_line p ls q l ->
  exists out, wrap_lines c width Fold Wrap ls p = Some out /\
    ((out = [] /\ l = []) \/ exists s b r, out = (s, b) :: r /\ good c q l s).
Proof.
  intros c width ls p W. revert p. induction ls as [|x ls IH]; intros p AL F q l TL.
  - inversion TL; subst. exists []. split; auto.
  - destruct (aligned_lines gr gw sapply sdefault sempty mnew mempty mextend restyle Hgr Hne Hse Hme Hrs (spans_of c) x ls p (AL ltac:(discriminate))) as [A1 A2]. destruct (F x (or_introl eq_refl)) as [V LE].
    destruct (one_line c width x p W A1 V LE) as (o1 & O1 & O2 & O3). cbn [Wrap_Model.wrap_lines]. rewrite O1.
    assert (TE : forall ls p, exists q l, title_line p ls q l).
    { clear. induction ls as [|x ls IH]; intros p. { exists p, []. constructor. }
      destruct x as [|a x]. { exists p, []. apply line_here. intros [X _]. congruence. }
      destruct (split_ws (a :: x)) eqn:S.
      - destruct (IH (p + blen (a :: x) + 1)) as (q & l & K). exists q, l. apply line_skip; auto. split; [discriminate|]. apply blank_no_words. auto.
      - exists p, (a :: x). apply line_here. intros [_ B]. apply blank_no_words in B. congruence. }
    inversion TL as [|? ? ? NB|? ? ? ? ? OB TL']; subst.
    + destruct (TE ls (q + blen l + 1)) as (q2 & l2 & K). destruct (IH _ A2 (fun y Y => F y (or_intror Y)) _ _ K) as (o2 & P1 & _).
      rewrite P1. destruct (O3 NB) as (s & b & -> & G). eexists. split; [reflexivity|]. right. exists s, b, o2. auto.
    + destruct (IH _ A2 (fun y Y => F y (or_intror Y)) _ _ TL') as (o2 & P1 & P2). rewrite P1, (O2 OB). exists o2. split; auto.
Qed.
Lemma first_strip : forall (c : cont) width, 0 < width -> aligned (spans_of c) 0 (c_text c) -> fair gr gw width (c_text c) ->
  forall q l, title_line 0 (split_char 10%Z (c_text c)) q l ->
  exists strips s, wrap c width = Some strips /\ hd_error strips = Some s /\ good c q l s.
Proof.
  intros c width W AL F q l TL.
  destruct (first_of_lines c width (split_char 10%Z (c_text c)) 0 W) with (q := q) (l := l) as (out & O1 & O2); auto.
  { intros _. rewrite split_char_join. exact AL. }
  unfold Wrap_Model.wrap, Wrap_Model.wrap_overflow. destruct (Nat.eqb_spec width 0); [lia|]. rewrite O1. cbn [option_map].
  destruct O2 as [[-> ->]|(s & b & r & -> & G)]; cbn [is_nil map fst].
  - eexists _, strip_new. split; [reflexivity|]. split; [reflexivity|]. apply good_empty.
  - eexists _, s. split; [reflexivity|]. split; [reflexivity|]. auto.
Qed.
End T.

(** The first line there is. *)
Lemma title_line_ex : forall ls p, exists q l, title_line p ls q l.
Proof.
  induction ls as [|x ls IH]; intros p. { exists p, []. constructor. }
  destruct x as [|a x]. { exists p, []. apply line_here. intros [X _]. congruence. }
  destruct (split_ws (a :: x)) eqn:S.
  - destruct (IH (p + blen (a :: x) + 1)) as (q & l & K). exists q, l. apply line_skip; auto. split; [discriminate|]. apply blank_no_words. auto.
  - exists p, (a :: x). apply line_here. intros [_ B]. apply blank_no_words in B. congruence.
Qed.

(** ** Styles *)
Section Styles.
Context {C : Type}.
Variable rgb : color -> C.
Notation sty := (@sty C).
Notation conv := (@conv C rgb).

Lemma sty_empty_default : forall s : sty, sty_empty s = true -> s = sty_default.
Proof.
  intros [f b [x1 x2 x3 x4 x5 x6]] E. unfold sty_empty, any_flag in E. cbn in E. destruct f, b; try discriminate.
  destruct x1, x2, x3, x4, x5, x6; try discriminate. reflexivity.
Qed.
Lemma meta_empty : forall m : meta, is_nil m = true -> m = [].
Proof. intros [|] E; [auto|discriminate]. Qed.
Lemma conv_apply : forall a b, conv (style_apply a b) = sty_apply (conv a) (conv b).
Proof. intros [f1 b1 t1] [f2 b2 t2]. unfold conv, sty_apply, style_apply. cbn. destruct f2, b2; reflexivity. Qed.
Lemma apply_assoc : forall a b c : sty, sty_apply (sty_apply a b) c = sty_apply a (sty_apply b c).
Proof.
  intros [f1 b1 t1] [f2 b2 t2] [f3 b3 t3]. unfold sty_apply. cbn. f_equal. { destruct f3; auto. } { destruct b3; auto. }
  unfold or_flags. cbn. rewrite !orb_assoc. reflexivity.
Qed.
Lemma apply_default : forall a : sty, sty_apply a (conv style_default) = a.
Proof. intros [f b [x1 x2 x3 x4 x5 x6]]. unfold sty_apply, conv. cbn. unfold or_flags. cbn. rewrite !orb_false_r. reflexivity. Qed.
Lemma overlay_markup : forall (spans : list Markup_Model.span) (base : sty) pos acc,
  overlay sty_apply (sty_apply base (conv acc)) (map (conv_span conv (fun m : meta => m)) spans) pos =
  sty_apply base (conv (fold_left (fun a s => if span_contains s pos then style_apply a (Markup_Model.sp_style s) else a) spans acc)).
Proof.
  induction spans as [|s r IH]; intros base pos acc; [reflexivity|]. cbn [map overlay fold_left conv_span sp_start sp_end sp_style].
  cbn [Wrap_Model.sp_start Wrap_Model.sp_end Wrap_Model.sp_style].
  change ((Markup_Model.sp_start s <=? pos) && (pos <? Markup_Model.sp_end s)) with (span_contains s pos).
  destruct (span_contains s pos); [|apply IH].
  rewrite apply_assoc, <- conv_apply. apply IH.
Qed.
Lemma overlay_style : forall m (base : sty) pos,
  overlay sty_apply base (map (conv_span conv (fun m : meta => m)) (pm_spans m)) pos = sty_apply base (conv (Markup_Model.style_at m pos)).
Proof. intros m base pos. unfold Markup_Model.style_at. rewrite <- overlay_markup, apply_default. reflexivity. Qed.
Lemma apply_dressed : forall (base : sty) m, dressed rgb base m (sty_apply base (conv m)).
Proof. intros base [f b t]. unfold dressed, sty_apply, conv. cbn. destruct f, b; auto. Qed.
Lemma painted_dressed : forall m (base : sty) t pos,
  dressed_text rgb base m pos t (map fst (painted sty_apply ([] : meta) meta_extend (fun s _ => s) base (map (conv_span conv (fun m : meta => m)) (pm_spans m)) pos t)).
Proof.
  intros m base t. induction t as [|c t IH]; intros pos; [exact I|]. cbn [painted map fst dressed_text]. split; auto. split; [|apply IH].
  rewrite overlay_style. apply apply_dressed.
Qed.
End Styles.

(** ** Keeping titles *)
Lemma run_titles : forall k l w, keeps_titles k -> t_title (run k w l) = last_title (t_title w) l /\ t_sub (run k w l) = last_sub (t_sub w) l.
Proof.
  intros k l w K. revert w. induction l as [|c l IH]; intros w; [auto|]. unfold run in *. cbn [fold_left].
  destruct (IH (step k w c)) as [-> ->]. destruct K as [-> | [-> | ->]]; destruct c; auto.
Qed.
