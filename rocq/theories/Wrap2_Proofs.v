(** Lemmas about wrapping and overflow. *)
From Coq Require Import ZArith List Bool Arith Lia.
From Verif Require Import Text_Model Fuzzy_Proofs Markup_Proofs Strip_Model Strip_Spec Strip_Proofs Wrap_Model Wrap_Spec Wrap_Proofs.
Import ListNotations.
Open Scope nat_scope.
Arguments blen : simpl never.
Arguments utf8_len : simpl never.

(** ** Plain text *)
Lemma spaced_cons : forall w ws, spaced (w :: ws) = w ++ flat_map (fun x => 32%Z :: x) ws.
Proof.
  intros w ws. revert w. induction ws as [|x ws IH]; intros w; cbn [flat_map]. { rewrite app_nil_r. reflexivity. }
  unfold spaced in *. change (intercalate [32%Z] (w :: x :: ws)) with (w ++ [32%Z] ++ intercalate [32%Z] (x :: ws)). rewrite IH. reflexivity.
Qed.

Lemma spaced_snoc : forall ws w, ws <> [] -> spaced (ws ++ [w]) = spaced ws ++ 32%Z :: w.
Proof.
  intros [|x ws] w NE; [congruence|]. clear NE. cbn [app]. rewrite !spaced_cons, flat_map_app. cbn [flat_map]. rewrite app_nil_r, app_assoc. reflexivity.
Qed.
Lemma skipn_skipn' : forall (A : Type) i j (l : list A), skipn i (skipn j l) = skipn (j + i) l.
Proof. intros A i j. induction j as [|j IH]; intros l; auto. destruct l; cbn [skipn Nat.add]; auto. apply skipn_nil. Qed.
Lemma in_skipn : forall (A : Type) k (l : list A) x, In x (skipn k l) -> In x l.
Proof. intros A k l x H. rewrite <- (firstn_skipn k l). apply in_or_app. auto. Qed.
Lemma in_firstn : forall (A : Type) k (l : list A) x, In x (firstn k l) -> In x l.
Proof. intros A k l x H. rewrite <- (firstn_skipn k l). apply in_or_app. auto. Qed.

Section P.
Variable gr : text -> list text.
Variable gw : text -> nat.
Hypothesis Hgr : forall t, concat (gr t) = t.
Hypothesis Hne : forall t g, In g (gr t) -> g <> [].
Notation dw := (dw gr gw).
Notation total := (total gw).
Notation spacing_adds := (spacing_adds gr gw).
Notation pieces_add := (pieces_add gr gw).

Lemma total_app : forall a b, total (a ++ b) = total a + total b.
Proof.
  intros a b. unfold Wrap_Spec.total, text_width. induction a as [|x a IH]; auto. cbn [app fold_right]. rewrite IH. lia.
Qed.
Lemma total_one : forall g, total [g] = gw g. Proof. intros. unfold Wrap_Spec.total. cbn. lia. Qed.
Lemma concat_ne : forall l : list text, l <> [] -> Forall (fun g => g <> []) l -> concat l <> [].
Proof. intros [|x l] N F; [congruence|]. inversion F; subst. destruct x; [congruence|discriminate]. Qed.

Lemma break_loop_spec : forall width gs cur, cur <> [] -> Forall (fun g => g <> []) (cur ++ gs) -> (total cur <= width \/ length cur = 1) ->
  breaks gw width (cur ++ gs) (break_loop gw width (concat cur) (total cur) gs).
Proof.
  intros width. induction gs as [|g gs IH]; intros cur NE F L; cbn [break_loop].
  - rewrite app_nil_r in *. pose proof (concat_ne cur NE F) as C. destruct (concat cur) eqn:E; [congruence|]. cbn [is_nil]. rewrite <- E.
    rewrite <- (app_nil_r cur) at 1. constructor; auto. constructor.
  - destruct (Nat.leb_spec (total cur + gw g) width) as [K|K].
    + replace (concat cur ++ g) with (concat (cur ++ [g])) by (rewrite concat_app; cbn; rewrite app_nil_r; auto).
      replace (total cur + gw g) with (total (cur ++ [g])) by (rewrite total_app, total_one; auto).
      replace (cur ++ g :: gs) with ((cur ++ [g]) ++ gs) in * by (rewrite <- app_assoc; auto). apply IH; auto.
      * destruct cur; discriminate.
      * left. rewrite total_app, total_one. lia.
    + assert (C : concat cur <> []) by (apply concat_ne; auto; apply Forall_app in F; apply F).
      destruct (concat cur) eqn:E; [congruence|]. cbn [is_nil app]. rewrite <- E.
      constructor; auto.
      replace g with (concat [g]) at 2 by (cbn; rewrite app_nil_r; auto). rewrite <- total_one. apply (IH [g]); auto; try discriminate.
      apply Forall_app in F. apply F.
Qed.
Lemma break_word_spec : forall width w, breaks gw width (gr w) (break_word gr gw w width).
Proof.
  intros width w. unfold break_word. pose proof (Hne w) as N. destruct (gr w) as [|g gs]; [constructor|]. cbn [break_loop app is_nil Nat.add].
  assert (F : Forall (fun g => g <> []) ([g] ++ gs)) by (apply Forall_forall; auto).
  assert (B : breaks gw width ([g] ++ gs) (break_loop gw width g (gw g) gs)).
  { replace g with (concat [g]) at 2 by (cbn; rewrite app_nil_r; auto). rewrite <- (total_one g). apply break_loop_spec; auto. discriminate. }
  destruct (gw g <=? width); exact B.
Qed.

Lemma wrap_words_spec : forall width rest pre all, all = pre ++ rest -> spacing_adds all ->
  Forall (fun w => w <> []) all -> Forall (fun w => 0 < dw w) all ->
  (wraps gr gw width rest (wrap_words gr gw width [] 0 rest)) /\
  (forall p ws, pre = p ++ ws -> ws <> [] -> dw (spaced ws) <= width -> 0 < dw (spaced ws) ->
     wraps gr gw width (ws ++ rest) (wrap_words gr gw width (spaced ws) (dw (spaced ws)) rest)).
Proof.
  intros width. induction rest as [|w rest IH]; intros pre all E SA NN PW.
  - split; [constructor|]. intros p ws Ep NE L P. cbn [wrap_words]. rewrite app_nil_r in *. subst all.
    assert (S : spaced ws <> []).
    { destruct ws as [|x ws]; [congruence|]. rewrite spaced_cons. subst pre. apply Forall_app in NN. destruct NN as [_ NN]. inversion NN; subst. destruct x; [congruence|discriminate]. }
    destruct (spaced ws) eqn:X; [congruence|]. cbn [is_nil]. rewrite <- X in *. rewrite <- (app_nil_r ws) at 1. apply wraps_line; auto. constructor.
  - assert (E2 : all = (pre ++ [w]) ++ rest) by (rewrite <- app_assoc; auto). destruct (IH (pre ++ [w]) all E2 SA NN PW) as [I1 I2].
    assert (PWw : 0 < dw w). { rewrite Forall_forall in PW. apply PW. rewrite E. apply in_or_app. right; left; auto. }
    assert (STEP : wraps gr gw width (w :: rest) (if dw w <=? width then wrap_words gr gw width w (dw w) rest else break_word gr gw w width ++ wrap_words gr gw width [] 0 rest)).
    { destruct (Nat.leb_spec (dw w) width) as [K|K].
      - apply (I2 pre [w] eq_refl); auto. discriminate.
      - apply wraps_broken; auto. apply break_word_spec. }
    split; [exact STEP|]. intros p ws Ep NE L P. cbn [wrap_words]. destruct (Nat.eqb_spec (dw (spaced ws)) 0); [lia|].
    assert (AD : dw (spaced (ws ++ [w])) = dw (spaced ws) + 1 + dw w). { apply (SA p ws w rest); auto. rewrite E, Ep, <- app_assoc. reflexivity. }
    destruct (Nat.leb_spec (dw (spaced ws) + 1 + dw w) width) as [K|K].
    + rewrite <- AD, <- spaced_snoc by auto. replace (ws ++ w :: rest) with ((ws ++ [w]) ++ rest) by (rewrite <- app_assoc; auto).
      apply (I2 p (ws ++ [w])); [rewrite Ep, <- app_assoc; auto|destruct ws; discriminate|lia|lia].
    + apply wraps_line; auto.
Qed.

Lemma breaks_concat : forall width gs ps, breaks gw width gs ps -> concat ps = concat gs.
Proof. intros width gs ps B. induction B; auto. rewrite concat_app. cbn [concat]. congruence. Qed.
Lemma ink_spaced : forall ws, ink (spaced ws) = concat (map ink ws).
Proof.
  intros [|w ws]; auto. rewrite spaced_cons, ink_app. cbn [map concat]. f_equal. induction ws as [|x ws IH]; auto. cbn [flat_map map concat].
  change (32%Z :: x) with ([32%Z] ++ x). rewrite !ink_app, IH. reflexivity.
Qed.
Lemma wraps_ink : forall width ws ls, wraps gr gw width ws ls -> ink (concat ls) = ink (concat ws).
Proof.
  intros width ws ls H. induction H as [|ws rest ls _ _ _ _ IH|w rest ps ls _ B _ IH]; auto.
  - cbn [concat]. rewrite concat_app, !ink_app, IH, ink_spaced. f_equal. clear. induction ws; auto. cbn [map concat]. rewrite ink_app, IHws. auto.
  - rewrite concat_app. cbn [concat]. rewrite !ink_app, IH. f_equal. f_equal. rewrite (breaks_concat _ _ _ B). apply Hgr.
Qed.
Lemma breaks_width : forall width gs ps, breaks gw width gs ps -> forall pre w, gr w = pre ++ gs -> pieces_add [w] ->
  Forall (fun g => gw g <= width) gs -> Forall (fun p => dw p <= width) ps.
Proof.
  intros width gs ps B. induction B as [|gs rest ps NE L G B IH]; intros pre w E PA F; constructor.
  - rewrite (PA w pre gs rest (or_introl eq_refl) E). destruct L as [L|L]; auto. destruct gs as [|g [|]]; try discriminate. rewrite total_one.
    apply Forall_app in F. destruct F as [F _]. inversion F; auto.
  - apply Forall_app in F. apply (IH (pre ++ gs) w); auto. rewrite <- app_assoc. auto. apply F.
Qed.
Lemma wraps_width : forall width ws ls, wraps gr gw width ws ls -> pieces_add ws -> Forall (fun w => Forall (fun g => gw g <= width) (gr w)) ws ->
  Forall (fun l => dw l <= width) ls.
Proof.
  intros width ws ls H. induction H as [|ws rest ls NE L G H IH|w rest ps ls L B H IH]; intros PA F.
  - constructor.
  - apply Forall_app in F. constructor; auto. apply IH; [|apply F]. intros x a b c Hx. apply PA. apply in_or_app; auto.
  - inversion F; subst. apply Forall_app. split.
    + eapply (breaks_width width (gr w) ps B [] w); auto. intros x a b c [<-|[]]. apply PA. left; auto.
    + apply IH; auto. intros x a b c Hx. apply PA. right; auto.
Qed.
End P.

Section A.
Context {St Mt : Type}.
Notation spn := (@span St Mt).
Lemma aligned_sub : forall (spans : list spn) ls A m C, aligned spans ls (A ++ m ++ C) -> aligned spans (ls + blen A) m.
Proof.
  intros spans ls A m C AL s x Hs Hx L1 L2. destruct (AL s x Hs Hx) as (p & q & E & L); [lia|rewrite !blen_app; lia|].
  destruct (app_prefix A (m ++ C) p q E ltac:(lia)) as (m1 & -> & E2). rewrite blen_app in L.
  destruct (app_prefix m1 q m C (eq_sym E2) ltac:(lia)) as (m2 & -> & _). exists m1, m2. split; auto. lia.
Qed.
End A.

(** ** Styled text *)
Section S.
Variable gr : text -> list text.
Variable gw : text -> nat.
Context {St Mt : Type}.
Variable sapply : St -> St -> St.
Variable sdefault : St.
Variable sempty : St -> bool.
Variable mnew : Mt.
Variable mempty : Mt -> bool.
Variable mextend : Mt -> Mt -> Mt.
Variable restyle : St -> Mt -> St.
Hypothesis Hgr : forall t, concat (gr t) = t.
Hypothesis Hse : forall s, sempty s = true -> s = sdefault.
Hypothesis Hme : forall m, mempty m = true -> m = mnew.
Hypothesis Hrs : forall s, restyle s mnew = s.
Notation dw := (dw gr gw).
Notation spn := (@span St Mt).
Notation strp := (@strip text St Mt).
Notation render_line := (render_line gr gw sapply sdefault sempty mnew mempty mextend restyle).
Notation slice_render := (slice_render gr gw sapply sdefault sempty mnew mempty mextend restyle).
Notation spans_loop := (spans_loop gr gw sapply sdefault sempty mnew mempty mextend restyle).
Notation view := (view sdefault).
Notation painted := (painted sapply mnew mextend restyle).
Notation look := (look sdefault).

Lemma view_text : forall s : strp, strip_text s = map (fun g => fst (fst g)) (view s).
Proof.
  intros s. unfold strip_text, Wrap_Spec.view. induction (st_segs s) as [|x l IH]; auto. cbn [flat_map]. rewrite concat_app, map_app, IH. f_equal.
  unfold seg_view. rewrite map_map. cbn [fst]. rewrite map_id. reflexivity.
Qed.
Lemma painted_text : forall base (spans : list spn) t pos, map (fun g => fst (fst g)) (painted base spans pos t) = t.
Proof. induction t as [|c t IH]; intros pos; auto. cbn [Wrap_Spec.painted map fst]. f_equal. apply IH. Qed.
Lemma painted_app : forall base (spans : list spn) a b pos, painted base spans pos (a ++ b) = painted base spans pos a ++ painted base spans (pos + blen a) b.
Proof.
  induction a as [|c a IH]; intros b pos. { cbn [app Wrap_Spec.painted]. change (blen []) with 0. rewrite Nat.add_0_r. reflexivity. }
  cbn [app Wrap_Spec.painted]. rewrite IH, blen_cons, Nat.add_assoc. reflexivity.
Qed.
Lemma no_blanks_app : forall a b : list (@glyph St Mt), no_blanks (a ++ b) = no_blanks a ++ no_blanks b.
Proof. intros. apply filter_app. Qed.
Lemma no_blanks_blank : forall base (spans : list spn) t pos, blank t -> no_blanks (painted base spans pos t) = [].
Proof.
  induction t as [|c t IH]; intros pos B; auto. inversion B; subst. cbn [Wrap_Spec.painted]. unfold no_blanks. cbn [filter fst]. rewrite H1. cbn [negb].
  apply IH; auto.
Qed.

Lemma slice_ok : forall c line ls spans A m C, line = A ++ m ++ C -> aligned spans ls line ->
  exists s, slice_render c line ls (blen A) (blen A + blen m) spans = Some s /\
    view s = painted (look (c_style c)) spans (ls + blen A) m /\ strip_ok gw s.
Proof.
  intros c line ls spans A m C E AL. unfold Wrap_Model.slice_render. rewrite E, bslice_mid. rewrite E in AL.
  replace (ls + (blen A + blen m)) with ((ls + blen A) + blen m) by lia.
  apply render_line_spec; auto. eapply aligned_sub; eauto.
Qed.

Lemma spans_loop_spec : forall c line ls width spans, aligned spans ls line ->
  forall n T ps, located n T ps -> Forall (fun e => 0 < dw (fst e)) ps ->
  (forall A M start cw, line = A ++ M ++ T -> blen A = start -> blen A + blen M = n -> M <> [] -> 0 < cw ->
     exists strips, spans_loop c line ls width spans ps n start cw = Some strips /\
       no_blanks (flat_map view strips) = no_blanks (painted (look (c_style c)) spans (ls + start) (M ++ T)) /\ Forall (strip_ok gw) strips) /\
  (forall start, (exists P, line = P ++ T /\ blen P = n) ->
     match ps with [] => True | (w, (a, _)) :: _ => exists A G T', line = A ++ G ++ w ++ T' /\ blen A = start /\ blank G /\ a = blen A + blen G end ->
     exists strips, spans_loop c line ls width spans ps n start 0 = Some strips /\
       no_blanks (flat_map view strips) = no_blanks (painted (look (c_style c)) spans (ls + n) T) /\ Forall (strip_ok gw) strips).
Proof.
  intros c line ls width spans AL n T ps H. set (base := look (c_style c)).
  induction H as [n t B|n g w t ps B NE NW H IH]; intros PW.
  - split.
    + intros A M start cw E ES EN NM P. cbn [Wrap_Model.spans_loop]. destruct (Nat.ltb_spec 0 cw); [|lia].
      rewrite <- EN, <- ES, E, bslice_mid. destruct M as [|x M'] eqn:EM; [congruence|]. cbn [is_nil]. rewrite <- EM in *.
      destruct (slice_ok c line ls spans A M t E AL) as (s & S1 & S2 & S3). unfold Wrap_Model.slice_render in S1. rewrite E, bslice_mid in S1.
      rewrite S1. cbn [push]. exists [s]. split; auto. split; [|constructor; auto]. cbn [flat_map]. rewrite app_nil_r, S2. rewrite painted_app, no_blanks_app.
      rewrite (no_blanks_blank _ _ t) by auto. rewrite app_nil_r. reflexivity.
    + intros start _ _. exists []. split; auto. split; auto. rewrite no_blanks_blank; auto.
  - inversion PW as [|? ? P0 PR]; subst. cbn [fst] in P0. specialize (IH PR). destruct IH as [IA IB].
    set (a := n + blen g) in *. set (b := a + blen w) in *.
    assert (BEGIN : forall A G start, line = A ++ G ++ w ++ t -> blen A = start -> blank G -> a = blen A + blen G ->
      exists strips, (if dw w <=? width then spans_loop c line ls width spans ps b start (dw w)
        else push (slice_render c line ls a b spans)
               (spans_loop c line ls width spans ps b (match ps with (_, (a', _)) :: _ => a' | [] => blen line end) 0)) = Some strips /\
        no_blanks (flat_map view strips) = no_blanks (painted base spans (ls + a) (w ++ t)) /\ Forall (strip_ok gw) strips).
    { intros A G start E ES BG EA. destruct (dw w <=? width).
      - destruct (IA A (G ++ w) start (dw w)) as (strips & S1 & S2 & S3); auto.
        { rewrite E. rewrite <- !app_assoc. reflexivity. } { rewrite blen_app. unfold b. lia. } { destruct G; auto. discriminate. }
        exists strips. split; auto. split; auto. rewrite S2. rewrite <- app_assoc, painted_app, no_blanks_app, no_blanks_blank by auto. cbn [app]. rewrite <- ES.
        replace (ls + blen A + blen G) with (ls + a) by lia. reflexivity.
      - assert (E2 : line = (A ++ G) ++ w ++ t) by (rewrite E, <- !app_assoc; auto).
        destruct (slice_ok c line ls spans (A ++ G) w t E2 AL) as (s & S1 & S2 & S3). rewrite blen_app in S1, S2. rewrite <- EA in S1. fold b in S1. rewrite S1.
        destruct (IB (match ps with (_, (a', _)) :: _ => a' | [] => blen line end)) as (strips & R1 & R2 & R3).
        + exists (A ++ G ++ w). split. { rewrite E, <- !app_assoc. reflexivity. } { rewrite !blen_app. unfold b. lia. }
        + destruct ps as [|[w2 [a2 b2]] r]; auto. inversion H; subst. exists (A ++ G ++ w ++ g0), [], t0.
          split. { cbn [app]. rewrite <- !app_assoc. reflexivity. } split. { rewrite !blen_app. unfold b. lia. } split; [constructor|].
          rewrite !blen_app. change (blen []) with 0. unfold b. lia.
        + rewrite R1. cbn [push]. exists (s :: strips). split; auto. split; [|constructor; auto]. cbn [flat_map]. rewrite no_blanks_app, R2, S2, painted_app, no_blanks_app.
          unfold b. rewrite EA. do 3 f_equal. lia. }
    split.
    + intros A M start cw E ES EN NM P. cbn [Wrap_Model.spans_loop]. destruct (Nat.eqb_spec cw 0); [lia|].
      destruct (cw + (1 + dw w) <=? width).
      * destruct (IA A (M ++ g ++ w) start (cw + (1 + dw w))) as (strips & S1 & S2 & S3); auto.
        { rewrite E, <- !app_assoc. reflexivity. } { rewrite !blen_app. unfold b, a. lia. } { destruct M; [congruence|discriminate]. } { lia. }
        exists strips. split; auto. split; auto. rewrite S2, <- !app_assoc. reflexivity.
      * destruct (slice_ok c line ls spans A M (g ++ w ++ t) E AL) as (s & S1 & S2 & S3). rewrite EN, ES in S1. rewrite ES in S2. rewrite S1.
        destruct (BEGIN (A ++ M ++ g) [] a) as (strips & R1 & R2 & R3).
        { rewrite E. cbn [app]. rewrite <- !app_assoc. reflexivity. } { rewrite !blen_app. unfold a. lia. } { constructor. }
        { rewrite !blen_app. change (blen []) with 0. unfold a. lia. }
        rewrite R1. cbn [push]. exists (s :: strips). split; auto. split; [|constructor; auto]. cbn [flat_map]. rewrite no_blanks_app, R2, S2.
        rewrite !painted_app, !no_blanks_app, (no_blanks_blank _ _ g) by auto. cbn [app].
        replace (ls + start + blen M + blen g) with (ls + a) by (unfold a; lia). reflexivity.
    + intros start (P & EP & LP) (A & G & T' & E & ES & BG & EA). cbn [Wrap_Model.spans_loop].
      assert (E' : line = A ++ G ++ w ++ t).
      { rewrite E. do 3 f_equal.
        assert (X : (P ++ g ++ w) ++ t = (A ++ G ++ w) ++ T') by (rewrite <- !app_assoc, <- EP; auto).
        apply app_inv_head_iff with (l := P ++ g ++ w). rewrite X. f_equal.
        destruct (app_prefix (P ++ g ++ w) t (A ++ G ++ w) T' X) as (m & Hm & _). { rewrite !blen_app. unfold a in EA. lia. }
        apply (f_equal blen) in Hm as Hl. rewrite !blen_app in Hl. assert (m = []) by (apply blen_zero; unfold a in EA; lia). subst m. rewrite app_nil_r in Hm. auto. }
      destruct (BEGIN A G start E' ES BG EA) as (strips & R1 & R2 & R3). cbn [Nat.eqb]. exists strips. split; [exact R1|]. split; auto. rewrite R2.
      rewrite (painted_app _ _ g (w ++ t)), no_blanks_app, (no_blanks_blank _ _ g) by auto. cbn [app]. unfold a. do 2 f_equal. lia.
Qed.

(** The same text as the plain wrapping when words fit and are one space apart. *)
Lemma blank_unique : forall g x u y v, blank g -> is_ws x = false -> is_ws y = false -> g ++ x :: u = 32%Z :: y :: v -> g = [32%Z] /\ x :: u = y :: v.
Proof.
  intros g x u y v B X Y E. destruct g as [|a g]; cbn [app] in E. { injection E as -> E. discriminate. }
  injection E as -> E. destruct g as [|a g]; cbn [app] in E; auto. injection E as -> E. inversion B; subst. inversion H2; subst. congruence.
Qed.
Lemma spans_loop_text : forall c line ls width spans, aligned spans ls line ->
  forall n T ps, located n T ps -> Forall (fun e => 0 < dw (fst e) <= width) ps -> T = flat_map (fun x => 32%Z :: x) (map fst ps) ->
  forall A M start cw strips, line = A ++ M ++ T -> blen A = start -> blen A + blen M = n -> M <> [] -> 0 < cw ->
  spans_loop c line ls width spans ps n start cw = Some strips ->
  map strip_text strips = wrap_words gr gw width M cw (map fst ps).
Proof.
  intros c line ls width spans AL n T ps H.
  assert (REC : forall A M C s, line = A ++ M ++ C -> slice_render c line ls (blen A) (blen A + blen M) spans = Some s -> strip_text s = M).
  { intros A M C s E S. destruct (slice_ok c line ls spans A M C E AL) as (s' & S1 & S2 & _). rewrite S1 in S. inversion S; subst s'.
    rewrite view_text, S2. apply painted_text. }
  induction H as [n t B|n g w t ps B NE NW H IH]; intros PW ET A M start cw strips E ES EN NM P HL.
  - cbn [Wrap_Model.spans_loop] in HL. destruct (Nat.ltb_spec 0 cw); [|lia]. cbn [map wrap_words].
    rewrite <- EN, <- ES, E, bslice_mid in HL. destruct M as [|x M'] eqn:EM; [congruence|]. cbn [is_nil] in *. rewrite <- EM in *.
    destruct (slice_ok c line ls spans A M t E AL) as (s & S1 & _). pose proof (REC _ _ _ _ E S1) as R. unfold Wrap_Model.slice_render in S1. rewrite E, bslice_mid in S1. rewrite S1 in HL.
    cbn [push] in HL. inversion HL; subst strips. cbn [map]. congruence.
  - pose proof (Forall_inv PW) as P0. pose proof (Forall_inv_tail PW) as PR. cbn [fst] in P0. subst n start. cbn [map fst flat_map] in ET.
    assert (G : g = [32%Z] /\ t = flat_map (fun x => 32%Z :: x) (map fst ps)).
    { destruct w as [|x w]; [congruence|]. inversion NW; subst. cbn [app] in ET. destruct (blank_unique _ _ _ _ _ B H2 H2 ET) as [-> E2]. split; auto.
      injection E2 as E2. apply app_inv_head in E2. auto. }
    destruct G as [-> ET2]. set (a := blen A + blen M + blen [32%Z]) in *. set (b := a + blen w) in *.
    cbn [Wrap_Model.spans_loop] in HL. cbn [map fst wrap_words]. destruct (Nat.eqb_spec cw 0); [lia|].
    replace (cw + (1 + dw w)) with (cw + 1 + dw w) in HL by lia. destruct (cw + 1 + dw w <=? width).
    + eapply (IH PR ET2 A (M ++ 32%Z :: w)); eauto.
      * rewrite E. rewrite <- !app_assoc. reflexivity.
      * change (32%Z :: w) with ([32%Z] ++ w). rewrite !blen_app. unfold b, a. lia.
      * destruct M; [congruence|discriminate].
      * lia.
    + destruct (slice_render c line ls (blen A) (blen A + blen M) spans) as [s|] eqn:S; [|discriminate]. pose proof (REC _ _ _ _ E S) as R.
      destruct (Nat.leb_spec (dw w) width); [|lia].
      destruct (spans_loop c line ls width spans ps b a (dw w)) as [rest|] eqn:L; [|discriminate]. cbn [push] in HL. inversion HL; subst strips. cbn [map]. rewrite R. f_equal.
      apply (IH PR ET2 (A ++ M ++ [32%Z]) w a (dw w) rest); auto.
      * rewrite E. rewrite <- !app_assoc. reflexivity.
      * rewrite !blen_app. unfold a. lia.
      * rewrite !blen_app. unfold b, a. lia.
      * apply P0.
Qed.
End S.

(** ** Overflow without wrapping, for one-cell characters *)
Section O.
Variable gr : text -> list text.
Variable gw : text -> nat.
Context {St Mt : Type}.
Variable mnew : Mt.
Notation strp := (@strip text St Mt).

Lemma narrow_len : forall (s : strp), strip_ok gw s -> all_narrow gw (cells s) -> st_len s = length (cells s).
Proof. intros s [_ E] N. rewrite E. clear E. unfold cells_width. induction N as [|x l H N IH]; auto. cbn [fold_right length]. rewrite H, IH. reflexivity. Qed.
Lemma split_width_spec : forall (s : strp) width, strip_ok gw s -> all_narrow gw (cells s) -> 0 < width ->
  forall fuel start, st_len s - start <= fuel ->
  let parts := split_by_width gw fuel s width start in
  flat_map cells parts = skipn start (cells s) /\ Forall (fun p => strip_ok gw p /\ st_len p <= width) parts /\
  Forall (fun p => st_len p = width) (removelast parts).
Proof.
  intros s width OK N W. pose proof (narrow_len s OK N) as LEN. induction fuel as [|k IH]; intros start L; cbn zeta; cbn [split_by_width].
  - cbn. rewrite skipn_all2 by lia. repeat split; constructor.
  - destruct (Nat.ltb_spec start (st_len s)) as [Lt|Ge]. 2:{ cbn. rewrite skipn_all2 by lia. repeat split; constructor. }
    set (e := Nat.min (start + width) (st_len s)). destruct (IH e ltac:(unfold e; lia)) as (I1 & I2 & I3).
    assert (C : cells (crop gw s start e) = firstn (e - start) (skipn start (cells s))) by (apply crop_narrow; auto).
    assert (CO : strip_ok gw (crop gw s start e)) by (apply crop_strip_ok; auto).
    assert (CN : all_narrow gw (cells (crop gw s start e))).
    { rewrite C. apply Forall_forall. intros x Hx. assert (In x (cells s)). { eapply in_skipn. eapply in_firstn. exact Hx. } eapply Forall_forall in N; eauto. }
    assert (CL : st_len (crop gw s start e) = e - start).
    { rewrite (narrow_len _ CO CN), C, firstn_length, skipn_length. unfold e. lia. }
    split; [|split].
    + cbn [flat_map]. rewrite I1, C. replace (skipn e (cells s)) with (skipn (e - start) (skipn start (cells s))).
      * apply firstn_skipn.
      * rewrite skipn_skipn'. f_equal. unfold e. lia.
    + constructor; auto. split; auto. rewrite CL. unfold e. lia.
    + destruct (split_by_width gw k s width e) as [|p ps] eqn:SP; [constructor|]. cbn [removelast]. constructor; auto.
      rewrite CL. destruct k as [|k]; [discriminate|]. cbn [split_by_width] in SP. destruct (Nat.ltb_spec e (st_len s)); [|discriminate]. unfold e in *. lia.
Qed.
End O.

(** ** Whole contents *)
Section C.
Variable gr : text -> list text.
Variable gw : text -> nat.
Context {St Mt : Type}.
Variable sapply : St -> St -> St.
Variable sdefault : St.
Variable sempty : St -> bool.
Variable mnew : Mt.
Variable mempty : Mt -> bool.
Variable mextend : Mt -> Mt -> Mt.
Variable restyle : St -> Mt -> St.
Hypothesis Hgr : forall t, concat (gr t) = t.
Hypothesis Hne : forall t g, In g (gr t) -> g <> [].
Hypothesis Hse : forall s, sempty s = true -> s = sdefault.
Hypothesis Hme : forall m, mempty m = true -> m = mnew.
Hypothesis Hrs : forall s, restyle s mnew = s.
Notation dw := (dw gr gw).
Notation spn := (@span St Mt).
Notation strp := (@strip text St Mt).
Notation cont := (@content St Mt).
Notation render_line := (render_line gr gw sapply sdefault sempty mnew mempty mextend restyle).
Notation lines_with_spans := (lines_with_spans gr gw sapply sdefault sempty mnew mempty mextend restyle).
Notation lines := (lines gr gw sapply sdefault sempty mnew mempty mextend restyle).
Notation spans_loop := (spans_loop gr gw sapply sdefault sempty mnew mempty mextend restyle).
Notation wrap_line_with_spans := (wrap_line_with_spans gr gw sapply sdefault sempty mnew mempty mextend restyle).
Notation wrap_one := (wrap_one gr gw sapply sdefault sempty mnew mempty mextend restyle).
Notation wrap_lines := (wrap_lines gr gw sapply sdefault sempty mnew mempty mextend restyle).
Notation wrap_overflow := (wrap_overflow gr gw sapply sdefault sempty mnew mempty mextend restyle).
Notation view := (view sdefault).
Notation painted := (painted sapply mnew mextend restyle).
Notation look := (look sdefault).
Notation should_look := (should_look sapply sdefault mnew mextend restyle).
Notation lines_look := (lines_look sapply sdefault mnew mextend restyle).

Lemma painted_nospans : forall base t pos, painted base [] pos t = map (fun c => (c, base, mnew)) t.
Proof. induction t as [|c t IH]; intros pos; auto. cbn [Wrap_Spec.painted map overlay gather]. rewrite Hrs, IH. reflexivity. Qed.
Lemma plain_look : forall (c : cont) t pos, c_spans c = None -> view (from_segment (plain gr gw mnew c t)) = should_look c pos t.
Proof. intros c t pos E. rewrite view_plain by auto. unfold Wrap_Spec.should_look, spans_of. rewrite E, painted_nospans. reflexivity. Qed.
Lemma plain_text : forall (c : cont) t, strip_text (from_segment (plain gr gw mnew c t)) = t.
Proof. intros c t. unfold strip_text. cbn. rewrite app_nil_r. apply Hgr. Qed.
Lemma plain_len : forall (c : cont) t, st_len (from_segment (plain gr gw mnew c t)) = dw t.
Proof. intros. reflexivity. Qed.

(** Each line of an aligned text is aligned. *)
Lemma aligned_lines : forall (spans : list spn) l r pos, aligned spans pos (intercalate [10%Z] (l :: r)) ->
  aligned spans pos l /\ (r <> [] -> aligned spans (pos + blen l + 1) (intercalate [10%Z] r)).
Proof.
  intros spans l r pos AL. destruct r as [|x r]. { split; [exact AL|congruence]. }
  change (intercalate [10%Z] (l :: x :: r)) with (l ++ [10%Z] ++ intercalate [10%Z] (x :: r)) in AL. split.
  - replace pos with (pos + blen []) by (change (blen []) with 0; lia). eapply (aligned_sub spans pos []). exact AL.
  - intros _. replace (pos + blen l + 1) with (pos + blen (l ++ [10%Z])) by (rewrite blen_app; change (blen [10%Z]) with 1; lia).
    eapply (aligned_sub spans pos (l ++ [10%Z]) _ []). rewrite app_nil_r, <- app_assoc. exact AL.
Qed.
Lemma lines_with_spans_spec : forall (c : cont) spans ls pos, c_spans c = Some spans -> (ls <> [] -> aligned spans pos (intercalate [10%Z] ls)) ->
  exists strips, lines_with_spans c spans pos ls = Some strips /\ map view strips = lines_look c pos ls /\ Forall (strip_ok gw) strips.
Proof.
  intros c spans. induction ls as [|l r IH]; intros pos E AL. { exists []. repeat split; auto. }
  destruct (aligned_lines spans l r pos (AL ltac:(discriminate))) as [A1 A2].
  destruct (render_line_spec gr gw sapply sdefault sempty mnew mempty mextend restyle Hgr Hse Hme Hrs c l pos spans A1) as (s & S1 & S2 & S3).
  destruct (IH (pos + blen l + 1) E A2) as (rest & R1 & R2 & R3).
  cbn [Wrap_Model.lines_with_spans]. rewrite S1, R1. exists (s :: rest). split; auto. split; [|constructor; auto]. cbn [map Wrap_Spec.lines_look]. rewrite R2. f_equal.
  rewrite S2. unfold Wrap_Spec.should_look, spans_of. rewrite E. reflexivity.
Qed.
Lemma plain_lines_look : forall (c : cont) ls pos, c_spans c = None -> map view (map (fun l => from_segment (plain gr gw mnew c l)) ls) = lines_look c pos ls.
Proof. intros c ls. induction ls as [|l r IH]; intros pos E; auto. cbn [map Wrap_Spec.lines_look]. rewrite (IH (pos + blen l + 1) E), <- (plain_look c l pos) by auto. reflexivity. Qed.
Lemma lines_spec : forall c : cont, aligned (spans_of c) 0 (c_text c) ->
  exists strips, lines c = Some strips /\ map view strips = lines_look c 0 (source_lines c) /\ Forall (strip_ok gw) strips.
Proof.
  intros c AL. unfold Wrap_Model.lines. destruct (c_text c) as [|x t] eqn:T.
  - exists [strip_new]. unfold source_lines. rewrite T. repeat split; repeat constructor.
  - cbn [is_nil]. destruct (c_spans c) as [spans|] eqn:E.
    + unfold spans_of in AL. rewrite E in AL. destruct (lines_with_spans_spec c spans (source_lines c) 0 E) as (strips & S1 & S2 & S3).
      { intros _. unfold source_lines. rewrite split_char_join, T. exact AL. }
      rewrite S1. cbn [option_map]. destruct strips as [|s strips]. 2:{ exists (s :: strips). auto. }
      exfalso. pose proof (split_char_not_nil 10%Z (c_text c)) as NN. unfold source_lines in S2. destruct (split_char 10%Z (c_text c)); [congruence|discriminate].
    + eexists. split; [reflexivity|]. split. { apply plain_lines_look; auto. }
      apply Forall_forall. intros s Hs. apply in_map_iff in Hs. destruct Hs as (l & <- & _). apply plain_ok.
Qed.
Lemma look_texts : forall (c : cont) ls pos strips, map view strips = lines_look c pos ls -> map strip_text strips = ls.
Proof.
  intros c. induction ls as [|l r IH]; intros pos strips E; destruct strips as [|s strips]; try discriminate; auto.
  cbn [map Wrap_Spec.lines_look] in *. injection E as E1 E2. f_equal; [|eapply IH; eauto]. rewrite (view_text sdefault), E1. apply painted_text.
Qed.

Lemma wrap_line_texts : forall (c : cont) line width, map strip_text (wrap_line gr gw mnew c line width) = wrap_words gr gw width [] 0 (split_ws line).
Proof. intros. unfold wrap_line. rewrite map_map. rewrite <- (map_id (wrap_words _ _ _ _ _ _)) at 2. apply map_ext. intros. apply plain_text. Qed.
Lemma wrap_line_wraps : forall (c : cont) line width, visible gr gw (split_ws line) -> spacing_adds gr gw (split_ws line) ->
  wraps gr gw width (split_ws line) (map strip_text (wrap_line gr gw mnew c line width)).
Proof.
  intros c line width V SA. rewrite wrap_line_texts. eapply (wrap_words_spec gr gw Hgr Hne width (split_ws line) [] (split_ws line)); auto.
  eapply Forall_impl; [|apply words_ink]. intros w [H _]. exact H.
Qed.
Lemma wrap_line_ink : forall (c : cont) line width, visible gr gw (split_ws line) -> spacing_adds gr gw (split_ws line) ->
  ink (concat (map strip_text (wrap_line gr gw mnew c line width))) = ink line.
Proof.
  intros c line width V SA. rewrite (wraps_ink gr gw Hgr _ _ _ (wrap_line_wraps c line width V SA)). rewrite (proj1 (words_ink line)).
  unfold ink. induction line as [|x l IH] using list_ind; auto. clear. induction (x :: l) as [|y r IH]; auto. cbn [filter]. destruct (negb (is_ws y)) eqn:E; cbn [filter]; rewrite ?E, ?IH; auto.
Qed.
Lemma wrap_line_width : forall (c : cont) line width, visible gr gw (split_ws line) -> spacing_adds gr gw (split_ws line) ->
  pieces_add gr gw (split_ws line) -> clusters_fit gr gw width (split_ws line) ->
  Forall (fun s => st_len s <= width) (wrap_line gr gw mnew c line width).
Proof.
  intros c line width V SA PA CF. pose proof (wraps_width gr gw Hgr Hne _ _ _ (wrap_line_wraps c line width V SA) PA CF) as F.
  rewrite wrap_line_texts in F. unfold wrap_line. apply Forall_forall. intros s Hs. apply in_map_iff in Hs. destruct Hs as (t & <- & Ht).
  rewrite plain_len. eapply Forall_forall in F; eauto.
Qed.

Lemma mark_fst : forall l : list strp, map fst (mark_last l) = l.
Proof. induction l as [|x l IH]; auto. cbn [mark_last map fst]. rewrite IH. auto. Qed.
Lemma mark_once : forall l : list strp, ends_once (mark_last l).
Proof.
  induction l as [|x l IH]; [left; auto|]. right. cbn [mark_last]. destruct IH as [E|(a & y & E & F)].
  - destruct l; [|discriminate]. exists [], x. split; auto.
  - rewrite E. destruct l; [destruct a; discriminate|]. exists ((x, false) :: a), y. split; auto.
Qed.

(** Styled lines. *)
Lemma located_words : forall line (ps : list (nat * nat)), length ps = length (split_ws line) -> map fst (combine (split_ws line) ps) = split_ws line.
Proof. intros line ps. generalize (split_ws line). intros l. revert ps. induction l as [|w l IH]; intros [|p ps] E; try discriminate; auto. cbn. f_equal. apply IH. inversion E; auto. Qed.
Lemma wrap_spans_spec : forall (c : cont) line ls width spans, aligned spans ls line -> visible gr gw (split_ws line) ->
  exists strips, wrap_line_with_spans c line ls width spans = Some strips /\
    no_blanks (flat_map view strips) = no_blanks (painted (look (c_style c)) spans ls line) /\ Forall (strip_ok gw) strips.
Proof.
  intros c line ls width spans AL V. unfold Wrap_Model.wrap_line_with_spans.
  destruct (words_located_n (length line) line 0 [] (le_n _) eq_refl) as (ps & P1 & P2 & P3). cbn [app] in P1. rewrite P1.
  assert (V2 : Forall (fun e => 0 < dw (fst e)) (combine (split_ws line) ps)).
  { unfold visible in V. rewrite <- (located_words line ps P2) in V. rewrite Forall_map in V. exact V. }
  destruct (spans_loop_spec gr gw sapply sdefault sempty mnew mempty mextend restyle Hgr Hse Hme Hrs c line ls width spans AL 0 line _ P3 V2) as [_ B].
  destruct (B 0) as (strips & S1 & S2 & S3).
  - exists []. auto.
  - inversion P3 as [|? g w t ps' HB NE NW H]; auto. exists [], g, t. auto.
  - exists strips. split; auto. split; auto. rewrite S2. do 2 f_equal. lia.
Qed.
Lemma wrap_spans_texts : forall (c : cont) line ls width spans strips, aligned spans ls line ->
  Forall (fun w => 0 < dw w <= width) (split_ws line) -> line = spaced (split_ws line) ->
  wrap_line_with_spans c line ls width spans = Some strips ->
  map strip_text strips = wrap_words gr gw width [] 0 (split_ws line).
Proof.
  intros c line ls width spans strips AL V SP. unfold Wrap_Model.wrap_line_with_spans.
  destruct (words_located_n (length line) line 0 [] (le_n _) eq_refl) as (ps & P1 & P2 & P3). cbn [app] in P1. rewrite P1.
  rewrite <- (located_words line ps P2) in V. rewrite Forall_map in V. pose proof (located_words line ps P2) as LW. rewrite <- LW at 2.
  revert P3 V LW. generalize (combine (split_ws line) ps) as q. intros q P3 V LW HL.
  inversion P3 as [? ? HB E1 E2 E3|? g w t q' HB NE NW H E1 E2 E3]; subst q.
  - inversion HL. reflexivity.
  - pose proof (Forall_inv V) as V1. pose proof (Forall_inv_tail V) as V2. cbn [fst] in V1. cbn [Nat.add] in *.
    cbn [map fst] in LW. rewrite <- LW in SP. rewrite spaced_cons in SP.
    assert (G : g = [] /\ t = flat_map (fun x => 32%Z :: x) (map fst q')).
    { destruct w as [|x w]; [congruence|]. pose proof (Forall_inv NW) as NX. cbn beta in NX. rewrite <- E2 in SP. destruct g as [|y g]; cbn [app] in SP.
      - split; auto. injection SP as SP. apply app_inv_head in SP. auto.
      - injection SP as SP0 _. subst y. inversion HB; subst. congruence. }
    destruct G as [-> ET]. cbn [app] in *. change (blen []) with 0 in *. cbn [Nat.add] in *.
    cbn [Wrap_Model.spans_loop Nat.eqb] in HL. cbn [map fst wrap_words Nat.eqb]. destruct (Nat.leb_spec (dw w) width); [|lia].
    eapply (spans_loop_text gr gw sapply sdefault sempty mnew mempty mextend restyle Hgr Hse Hme Hrs c line ls width spans AL _ _ _ H V2 ET [] w 0 (dw w)); auto.
    lia.
Qed.

(** All lines of a content. *)
Lemma wrap_lines_plain : forall (c : cont) width ls pos, c_spans c = None ->
  exists groups, wrap_lines c width Fold Wrap ls pos = Some (concat groups) /\
    Forall2 (fun l g => ends_once g /\ (l = [] -> g = [(strip_new, true)]) /\ (l <> [] -> map fst g = wrap_line gr gw mnew c l width)) ls groups.
Proof.
  intros c width. induction ls as [|l r IH]; intros pos E. { exists []. split; auto. }
  destruct (IH (pos + blen l + 1) E) as (gs & S1 & S2).
  assert (G : exists g, wrap_one c width Fold Wrap l pos = Some g /\ ends_once g /\ (l = [] -> g = [(strip_new, true)]) /\ (l <> [] -> map fst g = wrap_line gr gw mnew c l width)).
  { unfold Wrap_Model.wrap_one. destruct l as [|x l]; cbn [is_nil].
    - exists [(strip_new, true)]. repeat split; auto; try congruence. right. exists [], strip_new. split; auto.
    - rewrite E. cbn [option_map]. eexists. split; [reflexivity|]. split; [apply mark_once|]. split; [discriminate|]. intros _. rewrite mark_fst. apply map_id. }
  destruct G as (g & G1 & G2). cbn [Wrap_Model.wrap_lines]. rewrite G1, S1. exists (g :: gs). split; auto.
Qed.
Lemma wrap_lines_styled : forall (c : cont) spans width ls pos, c_spans c = Some spans -> (ls <> [] -> aligned spans pos (intercalate [10%Z] ls)) ->
  Forall (fun l => visible gr gw (split_ws l)) ls ->
  exists out, wrap_lines c width Fold Wrap ls pos = Some out /\ no_blanks (flat_map view (map fst out)) = no_blanks (concat (lines_look c pos ls)).
Proof.
  intros c spans width. induction ls as [|l r IH]; intros pos E AL V. { exists []. auto. }
  inversion V as [|? ? V1 V2]; subst. destruct (aligned_lines spans l r pos (AL ltac:(discriminate))) as [A1 A2].
  destruct (IH (pos + blen l + 1) E A2 V2) as (rest & R1 & R2). cbn [Wrap_Model.wrap_lines]. rewrite R1.
  assert (G : exists g, wrap_one c width Fold Wrap l pos = Some g /\ no_blanks (flat_map view (map fst g)) = no_blanks (should_look c pos l)).
  { unfold Wrap_Model.wrap_one. destruct l as [|x l]; cbn [is_nil]. { exists [(strip_new, true)]. split; auto. }
    rewrite E. destruct (wrap_spans_spec c (x :: l) pos width spans A1 V1) as (strips & S1 & S2 & _). rewrite S1. cbn [option_map].
    eexists. split; [reflexivity|]. rewrite mark_fst, map_id, S2. unfold Wrap_Spec.should_look, spans_of. rewrite E. reflexivity. }
  destruct G as (g & G1 & G2). rewrite G1. exists (g ++ rest). split; auto. rewrite map_app, flat_map_app, no_blanks_app, G2, R2.
  cbn [Wrap_Spec.lines_look concat]. rewrite no_blanks_app. reflexivity.
Qed.
Lemma lines_look_all : forall (c : cont) ls pos, no_blanks (concat (lines_look c pos ls)) = no_blanks (should_look c pos (intercalate [10%Z] ls)).
Proof.
  intros c. induction ls as [|l r IH]; intros pos; auto. cbn [Wrap_Spec.lines_look concat]. rewrite no_blanks_app, IH. destruct r as [|x r].
  - cbn [intercalate Wrap_Spec.should_look]. unfold Wrap_Spec.should_look. cbn [Wrap_Spec.painted]. rewrite app_nil_r. reflexivity.
  - change (intercalate [10%Z] (l :: x :: r)) with (l ++ [10%Z] ++ intercalate [10%Z] (x :: r)). unfold Wrap_Spec.should_look.
    rewrite !painted_app, !no_blanks_app. f_equal.
Qed.
Lemma ink_lines : forall ls, ink (concat ls) = ink (intercalate [10%Z] ls).
Proof.
  induction ls as [|l r IH]; auto. cbn [concat]. rewrite ink_app, IH. destruct r as [|x r]. { cbn [intercalate]. rewrite app_nil_r. reflexivity. }
  change (intercalate [10%Z] (l :: x :: r)) with (l ++ [10%Z] ++ intercalate [10%Z] (x :: r)). rewrite !ink_app. reflexivity.
Qed.

(** One line without wrapping. *)
Lemma full_line : forall (c : cont) line pos, aligned (spans_of c) pos line ->
  exists s, match c_spans c with Some spans => render_line c line pos (pos + blen line) spans | None => Some (from_segment (plain gr gw mnew c line)) end = Some s /\
    view s = should_look c pos line /\ strip_ok gw s.
Proof.
  intros c line pos AL. unfold Wrap_Spec.should_look, spans_of in *. destruct (c_spans c) as [spans|] eqn:E.
  - apply render_line_spec; auto.
  - eexists. split; [reflexivity|]. split; [|apply plain_ok]. rewrite (plain_look c line pos E). unfold Wrap_Spec.should_look, spans_of. rewrite E. reflexivity.
Qed.
End C.
