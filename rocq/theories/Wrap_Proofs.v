(** Lemmas about content lines and wrapping. *)
From Coq Require Import ZArith List Bool Arith Lia.
From Verif Require Import Text_Model Fuzzy_Proofs Markup_Proofs Strip_Model Strip_Spec Strip_Proofs Wrap_Model Wrap_Spec.
Import ListNotations.
Open Scope nat_scope.
Arguments blen : simpl never.
Arguments utf8_len : simpl never.

(** ** Texts and byte offsets *)
Lemma app_prefix : forall a b c d, a ++ b = c ++ d -> blen a <= blen c -> exists m, c = a ++ m /\ b = m ++ d.
Proof.
  induction a as [|x a IH]; intros b c d E L; [exists c; auto|].
  destruct c as [|y c]. { rewrite blen_cons in L. pose proof (utf8_len_pos x). change (blen []) with 0 in L. lia. }
  cbn [app] in E. injection E as -> E. rewrite !blen_cons in L. destruct (IH b c d E ltac:(lia)) as (m & -> & ->). exists m. auto.
Qed.

Lemma split_char_not_nil : forall c t, split_char c t <> [].
Proof. intros c [|x t]; cbn; [discriminate|]. destruct (x =? c)%Z; [discriminate|]. destruct (split_char c t); discriminate. Qed.
Lemma split_char_join : forall c t, intercalate [c] (split_char c t) = t.
Proof.
  intros c. induction t as [|x t IH]; auto. cbn [split_char]. pose proof (split_char_not_nil c t) as N. destruct (Z.eqb_spec x c) as [->|].
  - destruct (split_char c t) as [|p ps]; [congruence|]. cbn [intercalate] in *. cbn [app]. f_equal. exact IH.
  - destruct (split_char c t) as [|p ps]; [congruence|]. destruct ps; cbn [intercalate] in *; cbn [app]; f_equal; exact IH.
Qed.
Lemma split_char_none : forall c t p, In p (split_char c t) -> ~ In c p.
Proof.
  intros c. induction t as [|x t IH]; intros p H. { destruct H as [<-|[]]. easy. }
  cbn [split_char] in H. destruct (Z.eqb_spec x c).
  - destruct H as [<-|H]; [easy|auto].
  - destruct (split_char c t) as [|q ps]. { destruct H as [<-|[]]. intros [|[]]; auto. }
    destruct H as [<-|H]; [|apply IH; right; auto]. intros [|K]; auto. eapply IH; [left; reflexivity|auto].
Qed.
Lemma split_char_count : forall c t, length (split_char c t) = S (count_occ Z.eq_dec t c).
Proof.
  intros c. induction t as [|x t IH]; auto. cbn [split_char count_occ]. destruct (Z.eqb_spec x c), (Z.eq_dec x c); try congruence.
  - cbn [length]. rewrite IH. reflexivity.
  - pose proof (split_char_not_nil c t). destruct (split_char c t); [congruence|]. exact IH.
Qed.

(** ** Words *)
Fixpoint take_word (t : text) : text := match t with [] => [] | c :: r => if is_ws c then [] else c :: take_word r end.
Fixpoint drop_word (t : text) : text := match t with [] => [] | c :: r => if is_ws c then t else drop_word r end.
Lemma take_drop : forall t, take_word t ++ drop_word t = t.
Proof. induction t as [|c t IH]; auto. simpl. destruct (is_ws c); auto. simpl. congruence. Qed.
Lemma split_all_word : forall t, split_ws_all t = take_word t :: match drop_word t with [] => [] | _ :: r => split_ws_all r end.
Proof.
  induction t as [|c t IH]; auto. cbn [split_ws_all take_word drop_word]. destruct (is_ws c); auto. rewrite IH. reflexivity.
Qed.
Lemma take_no_ws : forall t, Forall (fun c => is_ws c = false) (take_word t).
Proof. induction t as [|c t IH]; simpl; auto. destruct (is_ws c) eqn:E; auto. Qed.
Lemma drop_head : forall t c r, drop_word t = c :: r -> is_ws c = true.
Proof. induction t as [|x t IH]; simpl; intros c r H; [discriminate|]. destruct (is_ws x) eqn:E; [inversion H; subst; auto|eauto]. Qed.
Lemma split_ws_skip : forall c t, is_ws c = true -> split_ws (c :: t) = split_ws t.
Proof. intros c t H. unfold split_ws. cbn [split_ws_all]. rewrite H. reflexivity. Qed.
Lemma split_ws_word : forall c t, is_ws c = false -> split_ws (c :: t) = (c :: take_word t) :: split_ws (drop_word t).
Proof.
  intros c t H. unfold split_ws at 1. rewrite split_all_word. cbn [take_word drop_word]. rewrite H. cbn [filter is_nil negb]. f_equal.
  destruct (drop_word t) as [|x r] eqn:D; auto. rewrite split_ws_skip by (eapply drop_head; eauto). reflexivity.
Qed.

(** A text as words between blanks; [n] is its byte offset. *)
Inductive located : nat -> text -> list (text * (nat * nat)) -> Prop :=
| located_nil : forall n t, blank t -> located n t []
| located_cons : forall n g w t ps, blank g -> w <> [] -> Forall (fun c => is_ws c = false) w ->
    located (n + blen g + blen w) t ps -> located n (g ++ w ++ t) ((w, (n + blen g, n + blen g + blen w)) :: ps).

Lemma blank_split : forall t, exists g r, t = g ++ r /\ blank g /\ (r = [] \/ exists c r', r = c :: r' /\ is_ws c = false) /\ split_ws t = split_ws r.
Proof.
  induction t as [|c t (g & r & -> & Hg & Hr & E)]. { exists [], []. repeat split; auto. constructor. }
  destruct (is_ws c) eqn:W.
  - exists (c :: g), r. repeat split; auto. constructor; auto. rewrite split_ws_skip; auto.
  - exists [], (c :: g ++ r). repeat split; auto. constructor. right. eauto.
Qed.
Lemma find_word : forall g w t, blank g -> w <> [] -> Forall (fun c => is_ws c = false) w -> find_str (g ++ w ++ t) w = Some (blen g).
Proof.
  induction g as [|c g IH]; intros w t Hg NE Hw.
  - cbn [app]. assert (S : starts_with (w ++ t) w = true) by (apply starts_with_spec; eauto). destruct w as [|x w]; [congruence|]. cbn [app find_str] in *. rewrite S. reflexivity.
  - inversion Hg; subst. cbn [app find_str]. destruct w as [|x w]; [congruence|]. inversion Hw; subst.
    assert (S : starts_with (c :: g ++ (x :: w) ++ t) (x :: w) = false).
    { cbn [starts_with]. destruct (Z.eqb_spec x c) as [->|]; auto. congruence. }
    rewrite S, IH by auto. cbn [option_map]. rewrite blen_cons. reflexivity.
Qed.
Lemma words_located_n : forall k t n pre, length t <= k -> blen pre = n ->
  exists ps, word_positions (pre ++ t) n (split_ws t) = Some ps /\ length ps = length (split_ws t) /\ located n t (combine (split_ws t) ps).
Proof.
  induction k as [|k IH]; intros t n pre L E; destruct (blank_split t) as (g & r & -> & Hg & Hr & ->).
  - rewrite app_length in L. destruct r as [|c r]; [|simpl in L; lia]. exists []. cbn. rewrite app_nil_r. repeat split; auto. constructor; auto.
  - destruct Hr as [->|(c & r' & -> & W)]. { exists []. cbn. rewrite app_nil_r. repeat split; auto. constructor; auto. }
    rewrite split_ws_word by auto. set (w := c :: take_word r').
    assert (WT : c :: r' = w ++ drop_word r') by (unfold w; cbn [app]; rewrite take_drop; auto). rewrite WT in *.
    assert (NW : Forall (fun c => is_ws c = false) w) by (constructor; auto; apply take_no_ws).
    assert (NE : w <> []) by discriminate.
    destruct (IH (drop_word r') (n + blen g + blen w) (pre ++ g ++ w)) as (ps & P1 & P2 & P3).
    { unfold w in L. rewrite !app_length in L. cbn [length] in L. lia. } { rewrite !blen_app. lia. }
    exists ((n + blen g, n + blen g + blen w) :: ps). cbn [word_positions]. rewrite <- E, bsplit_prefix. rewrite E.
    rewrite find_word by auto. replace (pre ++ g ++ w ++ drop_word r') with ((pre ++ g ++ w) ++ drop_word r') by (rewrite <- !app_assoc; reflexivity).
    rewrite P1. cbn [option_map]. split; auto. split; [cbn [length]; congruence|]. cbn [combine]. constructor; auto.
Qed.
Lemma words_located : forall t, exists ps, word_positions t 0 (split_ws t) = Some ps /\ located 0 t (combine (split_ws t) ps).
Proof. intros t. destruct (words_located_n (length t) t 0 []) as (ps & H & _ & H2); auto. exists ps. auto. Qed.
Lemma ink_app : forall a b, ink (a ++ b) = ink a ++ ink b. Proof. intros. apply filter_app. Qed.
Lemma ink_blank : forall t, blank t -> ink t = [].
Proof. induction t as [|c t IH]; intros H; auto. inversion H; subst. unfold ink. cbn [filter]. rewrite H2. cbn. apply IH; auto. Qed.
Lemma ink_word : forall t, Forall (fun c => is_ws c = false) t -> ink t = t.
Proof. induction t as [|c t IH]; intros H; auto. inversion H; subst. unfold ink. cbn [filter]. rewrite H2. cbn. f_equal. apply IH; auto. Qed.
Lemma words_ink : forall t, concat (split_ws t) = ink t /\ Forall (fun w => w <> [] /\ Forall (fun c => is_ws c = false) w) (split_ws t).
Proof.
  intros t. remember (length t) as k eqn:E. assert (L : length t <= k) by lia. clear E. revert t L.
  induction k as [|k IH]; intros t L; destruct (blank_split t) as (g & r & -> & Hg & Hr & ->); rewrite ink_app, (ink_blank g Hg); cbn [app].
  - rewrite app_length in L. destruct r; [|simpl in L; lia]. split; auto; constructor.
  - destruct Hr as [->|(c & r' & -> & W)]; [split; auto; constructor|]. rewrite split_ws_word by auto.
    destruct (IH (drop_word r')) as [I1 I2].
    { rewrite app_length in L. cbn [length] in L. pose proof (take_drop r') as T. apply (f_equal (@length _)) in T. rewrite app_length in T. lia. }
    split.
    + cbn [concat]. rewrite I1. replace (c :: r') with ((c :: take_word r') ++ drop_word r') by (cbn [app]; rewrite take_drop; reflexivity).
      rewrite ink_app, (ink_word (c :: take_word r')); auto. constructor; auto. apply take_no_ws.
    + constructor; auto. split; [discriminate|]. constructor; auto. apply take_no_ws.
Qed.

Section W.
Variable gr : text -> list text.
Variable gw : text -> nat.
Context {St Mt : Type}.
Variable sapply : St -> St -> St.
Variable sdefault : St.
Variable sempty : St -> bool.
Variable mnew : Mt.
Variable mempty : Mt -> bool.
Variable mextend : Mt -> Mt -> Mt.
Variable restyle : St -> Mt -> St.
Hypothesis Hgr : forall t, concat (gr t) = t.
Hypothesis Hse : forall s, sempty s = true -> s = sdefault.
Hypothesis Hme : forall m, mempty m = true -> m = mnew.
Hypothesis Hrs : forall s, restyle s mnew = s.

Notation dw := (dw gr gw).
Notation spn := (@span St Mt).
Notation render_loop := (render_loop gr gw sapply sdefault sempty mnew mempty mextend restyle).
Notation render_line := (render_line gr gw sapply sdefault sempty mnew mempty mextend restyle).
Notation view := (view sdefault).
Notation seg_view := (seg_view sdefault).
Notation overlay := (overlay sapply).
Notation gather := (gather mextend).
Notation painted := (painted sapply mnew mextend restyle).
Notation look := (look sdefault).

Lemma style_overlay : forall base (spans : list spn) pos, style_at sapply sdefault base spans pos = overlay (look base) spans pos.
Proof.
  intros base spans pos. unfold style_at. change (match base with Some b => b | None => sdefault end) with (look base). generalize (look base).
  induction spans as [|s r IH]; intros b; auto. cbn [fold_left Wrap_Spec.overlay]. apply IH.
Qed.
Lemma meta_gather : forall (spans : list spn) pos, meta_at mnew mextend spans pos = gather mnew spans pos.
Proof.
  intros spans pos. unfold meta_at. generalize mnew. induction spans as [|s r IH]; intros b; auto. cbn [fold_left Wrap_Spec.gather]. apply IH.
Qed.
Lemma overlay_ext : forall (spans : list spn) b p q, (forall s, In s spans -> covers s p = covers s q) -> overlay b spans p = overlay b spans q.
Proof.
  induction spans as [|s r IH]; intros b p q H; auto. cbn [Wrap_Spec.overlay].
  pose proof (H s (or_introl eq_refl)) as E. unfold covers in E. rewrite E. apply IH. intros; apply H; right; auto.
Qed.
Lemma gather_ext : forall (spans : list spn) b p q, (forall s, In s spans -> covers s p = covers s q) -> gather b spans p = gather b spans q.
Proof.
  induction spans as [|s r IH]; intros b p q H; auto. cbn [Wrap_Spec.gather].
  pose proof (H s (or_introl eq_refl)) as E. unfold covers in E. rewrite E. apply IH. intros; apply H; right; auto.
Qed.
Lemma overlay_filter : forall (f : spn -> bool) spans b p, (forall s, In s spans -> f s = false -> covers s p = false) ->
  overlay b (filter f spans) p = overlay b spans p.
Proof.
  induction spans as [|s r IH]; intros b p H; auto. cbn [filter Wrap_Spec.overlay]. destruct (f s) eqn:F.
  - cbn [Wrap_Spec.overlay]. apply IH. intros; apply H; auto. right; auto.
  - pose proof (H s (or_introl eq_refl) F) as E. unfold covers in E. rewrite E. apply IH. intros; apply H; auto. right; auto.
Qed.
Lemma gather_filter : forall (f : spn -> bool) spans b p, (forall s, In s spans -> f s = false -> covers s p = false) ->
  gather b (filter f spans) p = gather b spans p.
Proof.
  induction spans as [|s r IH]; intros b p H; auto. cbn [filter Wrap_Spec.gather]. destruct (f s) eqn:F.
  - cbn [Wrap_Spec.gather]. apply IH. intros; apply H; auto. right; auto.
  - pose proof (H s (or_introl eq_refl) F) as E. unfold covers in E. rewrite E. apply IH. intros; apply H; auto. right; auto.
Qed.

Lemma painted_app : forall base spans a pos b, painted base spans pos (a ++ b) = painted base spans pos a ++ painted base spans (pos + blen a) b.
Proof.
  induction a as [|c a IH]; intros pos b; cbn [app Wrap_Spec.painted]. { change (blen []) with 0. rewrite Nat.add_0_r. reflexivity. }
  f_equal. rewrite IH, blen_cons. do 2 f_equal. lia.
Qed.
Lemma painted_const : forall base spans t pos st m,
  (forall o, pos <= o -> o < pos + blen t -> restyle (overlay base spans o) (gather mnew spans o) = st /\ gather mnew spans o = m) ->
  painted base spans pos t = map (fun c => (c, st, m)) t.
Proof.
  induction t as [|c t IH]; intros pos st m H; auto. cbn [Wrap_Spec.painted map]. rewrite blen_cons in H. pose proof (utf8_len_pos c).
  destruct (H pos ltac:(lia) ltac:(lia)) as [E1 E2]. rewrite E1, E2. f_equal. apply IH. intros o L1 L2. apply H; lia.
Qed.

Lemma next_change_spec : forall spans ls n0 pos, pos < n0 ->
  let e := next_change ls n0 pos spans in
  pos < e /\ e <= n0 /\ (e = n0 \/ exists (s : spn) x, In s spans /\ (x = sp_start s \/ x = sp_end s) /\ ls + pos < x /\ x = ls + e) /\
  forall (s : spn), In s spans -> (sp_start s <= ls + pos \/ ls + e <= sp_start s) /\ (sp_end s <= ls + pos \/ ls + e <= sp_end s).
Proof.
  induction spans as [|s r IH]; intros ls n0 pos L; cbn zeta.
  - unfold next_change. cbn [fold_left]. repeat split; auto; destruct H.
  - unfold next_change. cbn [fold_left].
    set (n1 := if (ls + pos <? sp_start s) && (sp_start s - ls <? n0) then sp_start s - ls else n0).
    set (n2 := if (ls + pos <? sp_end s) && (sp_end s - ls <? n1) then sp_end s - ls else n1).
    fold (next_change ls n2 pos r).
    assert (N1 : pos < n1 /\ n1 <= n0 /\ (n1 = n0 \/ (ls + pos < sp_start s /\ sp_start s = ls + n1)) /\ (sp_start s <= ls + pos \/ ls + n1 <= sp_start s)).
    { unfold n1. destruct (Nat.ltb_spec (ls + pos) (sp_start s)), (Nat.ltb_spec (sp_start s - ls) n0); cbn [andb]; lia. }
    assert (N2 : pos < n2 /\ n2 <= n1 /\ (n2 = n1 \/ (ls + pos < sp_end s /\ sp_end s = ls + n2)) /\ (sp_end s <= ls + pos \/ ls + n2 <= sp_end s)).
    { unfold n2. destruct (Nat.ltb_spec (ls + pos) (sp_end s)), (Nat.ltb_spec (sp_end s - ls) n1); cbn [andb]; lia. }
    destruct N1 as (A1 & A2 & A3 & A4), N2 as (B1 & B2 & B3 & B4).
    destruct (IH ls n2 pos B1) as (C1 & C2 & C3 & C4). split; auto. split; [lia|]. split.
    + destruct C3 as [C3|(s' & x & Hs & Hx & Hl & He)]; [|right; exists s', x; split; [right; auto|auto]].
      rewrite C3. destruct B3 as [B3|[B3 B3']]; [|right; exists s, (sp_end s); split; [left; auto|]; split; auto].
      rewrite B3. destruct A3 as [A3|[A3 A3']]; [left; auto|right; exists s, (sp_start s); split; [left; auto|]; split; auto].
    + intros s' [<-|Hs]; [|apply C4; auto]. split; [destruct A4; [left; lia|right; lia]|destruct B4; [left; lia|right; lia]].
Qed.

Definition seg_fine (x : @segment text St Mt) : Prop := seg_ok gw x.
Lemma render_loop_spec : forall c line ls spans, aligned spans ls line ->
  forall fuel a b, line = a ++ b -> blen b <= fuel ->
  exists segs, render_loop fuel c line ls spans (blen a) = Some segs /\
    flat_map seg_view segs = painted (look (c_style c)) spans (ls + blen a) b /\ Forall seg_fine segs.
Proof.
  intros c line ls spans AL. induction fuel as [|k IH]; intros a b E L.
  - assert (b = []) by (apply blen_zero; lia). subst b. exists []. split; [reflexivity|]. split; [reflexivity|constructor].
  - cbn [Wrap_Model.render_loop]. assert (LL : blen line = blen a + blen b) by (rewrite E; apply blen_app).
    destruct (Nat.leb_spec (blen line) (blen a)) as [Z|P].
    { assert (b = []) by (apply blen_zero; lia). subst b. exists []. split; [reflexivity|]. split; [reflexivity|constructor]. }
    pose proof (next_change_spec spans ls (blen line) (blen a) P) as N. cbn zeta in N.
    set (e := next_change ls (blen line) (blen a) spans) in *. destruct N as (N1 & N2 & N3 & N4).
    rewrite Nat.min_l by auto.
    assert (CUT : exists t b', b = t ++ b' /\ e = blen a + blen t).
    { destruct N3 as [N3|(s & x & Hs & Hx & Hl & He)].
      - exists b, []. rewrite app_nil_r. split; auto. lia.
      - destruct (Nat.eq_dec e (blen line)) as [Ee|Ee]. { exists b, []. rewrite app_nil_r. split; auto. lia. }
        destruct (AL s x Hs Hx ltac:(lia) ltac:(lia)) as (p & q & Ep & Lp).
        rewrite E in Ep. destruct (app_prefix a b p q Ep ltac:(lia)) as (m & -> & ->). exists m, q. split; auto. rewrite blen_app in Lp. lia. }
    destruct CUT as (t & b' & -> & Ee). rewrite Ee, E, bslice_mid.
    rewrite <- E. rewrite blen_app in L, LL. assert (Lt : 0 < blen t) by lia.
    destruct (IH (a ++ t) b') as (segs & S1 & S2 & S3). { rewrite <- app_assoc; auto. } { lia. }
    rewrite blen_app in S1, S2. rewrite S1. cbn [option_map].
    destruct t as [|c0 t0] eqn:Et; [change (blen []) with 0 in Lt; lia|]. cbn [is_nil]. rewrite <- Et in *.
    eexists. split; [reflexivity|]. split.
    + cbn [flat_map]. rewrite S2, painted_app. replace (ls + blen a + blen t) with (ls + (blen a + blen t)) by lia. f_equal.
      unfold Wrap_Spec.seg_view. cbn [sg_text sg_style sg_meta]. rewrite Hgr, style_overlay, meta_gather.
      set (st := restyle _ _). symmetry. apply painted_const. intros o L1 L2.
      assert (CO : forall s, In s spans -> covers s o = covers s (ls + blen a)).
      { intros s Hs. destruct (N4 s Hs) as [X Y]. unfold covers.
        destruct (Nat.leb_spec (sp_start s) o), (Nat.leb_spec (sp_start s) (ls + blen a)), (Nat.ltb_spec o (sp_end s)), (Nat.ltb_spec (ls + blen a) (sp_end s)); auto; lia. }
      rewrite (overlay_ext spans _ o (ls + blen a) CO), (gather_ext spans _ o (ls + blen a) CO).
      split.
      * unfold st. destruct (sempty (restyle _ _)) eqn:Z; cbn [Wrap_Spec.look]; auto.
      * destruct (mempty (gather mnew spans (ls + blen a))) eqn:Z; auto.
    + constructor; auto. reflexivity.
Qed.

(** One styled line. *)
Lemma strip_fine : forall (l : list (@segment text St Mt)), Forall seg_fine l -> strip_ok gw (from_segments l).
Proof. intros. apply from_segments_ok. auto. Qed.
Lemma painted_plain : forall base spans t pos, (forall s o, In s spans -> pos <= o -> o < pos + blen t -> covers s o = false) ->
  painted base spans pos t = map (fun c => (c, base, mnew)) t.
Proof.
  intros base spans t pos H. apply painted_const. intros o L1 L2.
  assert (A : forall b, overlay b spans o = b).
  { intros b. assert (F : forall s, In s spans -> covers s o = false) by (intros; apply H; auto). clear - F.
    revert b. induction spans as [|s r IH]; intros b; auto. cbn [Wrap_Spec.overlay]. pose proof (F s (or_introl eq_refl)) as E. unfold covers in E. rewrite E.
    apply IH. intros; apply F; right; auto. }
  assert (B : forall b, gather b spans o = b).
  { intros b. assert (F : forall s, In s spans -> covers s o = false) by (intros; apply H; auto). clear - F.
    revert b. induction spans as [|s r IH]; intros b; auto. cbn [Wrap_Spec.gather]. pose proof (F s (or_introl eq_refl)) as E. unfold covers in E. rewrite E.
    apply IH. intros; apply F; right; auto. }
  rewrite A, B. split; auto.
Qed.
Lemma view_plain : forall (c : @content St Mt) t, view (from_segment (plain gr gw mnew c t)) = map (fun x => (x, look (c_style c), mnew)) t.
Proof.
  intros. unfold Wrap_Spec.view, from_segment, plain, Wrap_Spec.seg_view. cbn [st_segs flat_map sg_text sg_style sg_meta]. rewrite Hgr, app_nil_r. reflexivity.
Qed.
Lemma plain_ok : forall (c : @content St Mt) t, strip_ok gw (from_segment (plain gr gw mnew c t)).
Proof.
  intros. change (from_segment (plain gr gw mnew c t)) with (Strip [plain gr gw mnew c t] (dw t)).
  replace (Strip [plain gr gw mnew c t] (dw t)) with (from_segments [plain gr gw mnew c t]).
  - apply strip_fine. constructor; [reflexivity|constructor].
  - unfold from_segments. cbn. rewrite Nat.add_0_r. reflexivity.
Qed.
Lemma render_line_spec : forall c line ls spans, aligned spans ls line ->
  exists s, render_line c line ls (ls + blen line) spans = Some s /\
    view s = painted (look (c_style c)) spans ls line /\ strip_ok gw s.
Proof.
  intros c line ls spans AL. unfold Wrap_Model.render_line. destruct line as [|x line'] eqn:El; cbn [is_nil].
  { exists strip_new. split; auto. split; auto. split; [constructor|reflexivity]. }
  rewrite <- El in *. set (rel := filter _ spans).
  assert (IRR : forall s o, In s spans -> ((sp_start s <? ls + blen line) && (ls <? sp_end s))%bool = false -> ls <= o -> o < ls + blen line -> covers s o = false).
  { intros s o Hs F L1 L2. unfold covers. destruct (Nat.ltb_spec (sp_start s) (ls + blen line)), (Nat.ltb_spec ls (sp_end s)); cbn [andb] in F; try discriminate;
      destruct (Nat.leb_spec (sp_start s) o), (Nat.ltb_spec o (sp_end s)); auto; lia. }
  destruct (is_nil rel) eqn:R.
  - eexists. split; [reflexivity|]. rewrite view_plain. split; [|apply plain_ok]. symmetry. apply painted_plain. intros s o Hs L1 L2.
    apply IRR; auto. destruct ((sp_start s <? ls + blen line) && (ls <? sp_end s))%bool eqn:F; auto. exfalso.
    assert (I : In s rel) by (apply filter_In; auto). destruct rel; [destruct I|discriminate].
  - assert (AL' : aligned rel ls line). { intros s y Hs. apply filter_In in Hs. apply AL. apply Hs. }
    destruct (render_loop_spec c line ls rel AL' (blen line) [] line eq_refl (le_n _)) as (segs & S1 & S2 & S3).
    change (blen []) with 0 in S1, S2. rewrite Nat.add_0_r in S2. rewrite S1. cbn [option_map]. eexists. split; [reflexivity|].
    split; [|apply strip_fine; auto]. unfold Wrap_Spec.view, from_segments. cbn [st_segs]. rewrite S2.
    assert (P : forall t pos, ls <= pos -> pos + blen t <= ls + blen line -> painted (look (c_style c)) rel pos t = painted (look (c_style c)) spans pos t).
    { clear - IRR. induction t as [|c0 t IH]; intros pos L1 L2; auto. cbn [Wrap_Spec.painted]. rewrite blen_cons in L2. pose proof (utf8_len_pos c0).
      unfold rel. rewrite overlay_filter, gather_filter. 2,3: (intros s Hs F; apply IRR; auto; lia). f_equal. apply IH; lia. }
    apply P; lia.
Qed.
End W.
