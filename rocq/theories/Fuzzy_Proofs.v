From Coq Require Import ZArith QArith List Bool Arith Lia Lqa.
From Verif Require Import Text_Model Markup_Model Markup_Spec Markup_Proofs Fuzzy_Model Fuzzy_Spec.
Import ListNotations.
Local Open Scope nat_scope.

Section P.
Variable lower : text -> text.
Variable is_alnum : char -> bool.

(** *** scores are positive *)

Lemma count_breaks_le : forall l last, count_breaks last l <= length l.
Proof. induction l as [|x r IH]; intros last; cbn; [lia|]. specialize (IH x). destruct (x =? last + 1); lia. Qed.

Lemma score_pos : forall c offs, offs <> [] -> (0 < score is_alnum c offs)%Q.
Proof.
  intros c [|p r] H; [contradiction|]. unfold score.
  set (n := inject_Z (Z.of_nat (length (p :: r)))).
  set (m := inject_Z (Z.of_nat (length (filter _ (p :: r))))).
  assert (Hn : (0 < n)%Q). { unfold n. cbn [length]. change 0%Q with (inject_Z 0). rewrite <- Zlt_Qlt. lia. }
  assert (Hm : (0 <= m)%Q). { unfold m. change 0%Q with (inject_Z 0). rewrite <- Zle_Qle. lia. }
  set (k := ((n - (inject_Z (Z.of_nat (1 + count_breaks p r)) - 1)) / n)%Q).
  assert (Hk : (0 <= k * k)%Q). { destruct k as [[|a|a] d]; unfold Qle; cbn; lia. }
  nra.
Qed.

Lemma score_nonneg : forall c offs, (0 <= score is_alnum c offs)%Q.
Proof. intros c [|p r]; [cbn; lra|]. apply Qlt_le_weak, score_pos. discriminate. Qed.

Lemma Qltb_lt : forall a b, Qltb a b = true <-> (a < b)%Q.
Proof.
  intros a b. unfold Qltb. rewrite negb_true_iff. split; intros H.
  - apply Qnot_le_lt. intros C. apply Qle_bool_iff in C. congruence.
  - destruct (Qle_bool b a) eqn:E; [|reflexivity]. apply Qle_bool_iff in E. exfalso. eapply Qlt_not_le; eauto.
Qed.

(** *** substring search *)

Lemma starts_with_spec : forall p t, starts_with t p = true <-> exists b, t = p ++ b.
Proof.
  induction p as [|x p IH]; intros [|y t]; cbn; split; intros H; eauto; try discriminate.
  - destruct H as [b E]. discriminate.
  - apply andb_true_iff in H as [E H]. apply Z.eqb_eq in E. apply IH in H as [b ->]. exists b. subst. reflexivity.
  - destruct H as [b E]. injection E as -> ->. rewrite Z.eqb_refl. apply IH. eauto.
Qed.

Lemma find_sub_some : forall t p i, find_sub t p = Some i -> exists a b, t = a ++ p ++ b /\ length a = i.
Proof.
  induction t as [|c t IH]; intros p i E; cbn [find_sub] in E.
  - destruct (starts_with [] p) eqn:S; [|discriminate]. injection E as <-. apply starts_with_spec in S as [b ->].
    exists [], b. auto.
  - destruct (starts_with (c :: t) p) eqn:S.
    + injection E as <-. apply starts_with_spec in S as [b Hb]. exists [], b. auto.
    + destruct (find_sub t p) as [j|] eqn:F; [|discriminate]. injection E as <-.
      destruct (IH p j F) as (a & b & -> & <-). exists (c :: a), b. auto.
Qed.

Lemma find_sub_none : forall t p, find_sub t p = None -> ~ occurs_in p t.
Proof.
  induction t as [|c t IH]; intros p E (a & b & Hab); cbn [find_sub] in E.
  - destruct (starts_with [] p) eqn:S; [discriminate|]. destruct a; [|discriminate]. destruct p; discriminate.
  - destruct (starts_with (c :: t) p) eqn:S; [discriminate|].
    destruct (find_sub t p) eqn:F; [discriminate|].
    destruct a as [|x a].
    + cbn in Hab. assert (starts_with (c :: t) p = true) by (apply starts_with_spec; eauto). congruence.
    + injection Hab as <- ->. apply (IH p F). exists a, b. reflexivity.
Qed.

Lemma seq_witness : forall a q b, witnesses q (a ++ q ++ b) (seq (length a) (length q)).
Proof.
  intros a q b. split; [apply seq_length|]. 
  assert (N : forall i p, nth_error (seq (length a) (length q)) i = Some p -> i < length q /\ p = length a + i).
  { intros i p E. assert (Hi : i < length q).
    { rewrite <- (seq_length (length q) (length a)). apply nth_error_Some. congruence. }
    split; [exact Hi|]. apply nth_error_nth with (d := 0) in E. rewrite seq_nth in E by exact Hi. lia. }
  split.
  - intros i j p p' Hij E1 E2. apply N in E1, E2. lia.
  - intros i p E. apply N in E as [Hi ->].
    destruct (nth_error q i) as [c|] eqn:Eq; [|apply nth_error_None in Eq; lia].
    exists c. split; [reflexivity|]. rewrite nth_error_app2 by lia. replace (length a + i - length a) with i by lia.
    rewrite nth_error_app1 by lia. exact Eq.
Qed.

(** *** letter positions *)

Lemma scan_letter_sound : forall cand c last n index p, In p (scan_letter cand c last index n) ->
  index <= p /\ nth_error cand p = Some c.
Proof.
  intros cand c last. induction n as [|n IH]; intros index p H; cbn [scan_letter] in H; [contradiction|].
  apply in_app_or in H as [H|H].
  - destruct (nth_error cand index) as [x|] eqn:E; [|contradiction].
    destruct (Z.eqb_spec x c); [|contradiction]. destruct H as [<-|[]]. subst. auto.
  - destruct (last <=? S index); [contradiction|]. apply IH in H. split; [lia|tauto].
Qed.

(** a letter below the limit is found *)
Lemma scan_letter_complete : forall cand c last n index p,
  index <= p -> p < index + n -> p < last \/ p = index -> nth_error cand p = Some c ->
  In p (scan_letter cand c last index n).
Proof.
  intros cand c last. induction n as [|n IH]; intros index p H1 H2 H3 E; [lia|]. cbn [scan_letter].
  apply in_or_app. destruct (Nat.eq_dec p index) as [->|Hne].
  - left. rewrite E, Z.eqb_refl. left. reflexivity.
  - right. destruct (Nat.leb_spec last (S index)); [lia|]. apply IH; auto; lia.
Qed.

(** the first position found is the smallest *)
Lemma scan_letter_first : forall cand c last n index p ps q,
  scan_letter cand c last index n = p :: ps -> In q (p :: ps) -> p <= q.
Proof.
  intros cand c last. induction n as [|n IH]; intros index p ps q E H; cbn [scan_letter] in E; [discriminate|].
  destruct (nth_error cand index) as [x|] eqn:Ex.
  - destruct (Z.eqb_spec x c).
    + injection E as <- E. destruct H as [<-|H]; [lia|]. rewrite <- E in H.
      destruct (last <=? S index); [contradiction|]. apply scan_letter_sound in H. lia.
    + destruct (last <=? S index); [discriminate|]. cbn in E. eapply IH; eauto.
  - destruct (last <=? S index); [discriminate|]. cbn in E. eapply IH; eauto.
Qed.

Definition positions_ok (cand : text) (q : text) (lp : list (list nat)) : Prop :=
  Forall2 (fun c ps => Forall (fun p => nth_error cand p = Some c) ps) q lp.

Lemma letter_positions_ok : forall cand q offset position lp,
  letter_positions cand offset position q = Some lp -> positions_ok cand q lp.
Proof.
  intros cand. induction q as [|c q IH]; intros offset position lp E; cbn [letter_positions] in E.
  - injection E as <-. constructor.
  - destruct (scan_letter cand c (length cand - offset) position (length cand - position)) as [|p ps] eqn:S; [discriminate|].
    destruct (letter_positions cand (Datatypes.S offset) (Datatypes.S p) q) as [lp'|] eqn:L; [|discriminate].
    injection E as <-. constructor; [|eapply IH; exact L]. rewrite <- S. apply Forall_forall. intros x Hx.
    now apply scan_letter_sound in Hx.
Qed.

(** strictly increasing chain above [last] *)
Inductive chain : option nat -> list nat -> Prop :=
| chain_nil : forall l, chain l []
| chain_cons : forall l p r, match l with None => True | Some x => x < p end -> chain (Some p) r -> chain l (p :: r).

Lemma collect_sound : forall cand q lp last offs, positions_ok cand q lp -> In offs (collect_offsets last lp) ->
  chain last offs /\ Forall2 (fun c p => nth_error cand p = Some c) q offs.
Proof.
  intros cand q lp. revert q. induction lp as [|ps lp IH]; intros q last offs HP HI; cbn [collect_offsets] in HI.
  - inversion HP; subst. destruct HI as [<-|[]]. split; constructor.
  - inversion HP as [|c ? q' ? Hc HP']; subst. apply in_flat_map in HI as (p & Hp & HI).
    destruct (match last with None => true | Some l => l <? p end) eqn:B; [|contradiction].
    apply in_map_iff in HI as (o & <- & Ho). destruct (IH q' (Some p) o HP' Ho) as [C F].
    split.
    + constructor; [|exact C]. destruct last; [now apply Nat.ltb_lt in B|exact I].
    + constructor; [|exact F]. rewrite Forall_forall in Hc. auto.
Qed.

Lemma chain_lt : forall offs last, chain last offs ->
  forall i j p q, i < j -> nth_error offs i = Some p -> nth_error offs j = Some q -> p < q.
Proof.
  assert (A : forall offs x, chain (Some x) offs -> forall j q, nth_error offs j = Some q -> x < q).
  { induction offs as [|a r IH]; intros x C [|j] q E; cbn in E; try discriminate; inversion C as [|? ? ? Hlt Hc]; subst.
    - congruence.
    - specialize (IH a Hc j q E). lia. }
  induction offs as [|a r IH]; intros last C i j p q Hij E1 E2; [destruct i; discriminate|].
  inversion C; subst. destruct j as [|j]; [lia|]. destruct i as [|i]; cbn in E1, E2.
  - injection E1 as <-. eapply A; eauto.
  - eapply IH with (i := i) (j := j); [eassumption|lia|exact E1|exact E2].
Qed.

Lemma Forall2_nth : forall A B (R : A -> B -> Prop) l m i y, Forall2 R l m -> nth_error m i = Some y ->
  exists x, nth_error l i = Some x /\ R x y.
Proof.
  intros A B R l m i y H. revert i. induction H; intros [|i] E; cbn in E; try discriminate.
  - injection E as <-. cbn. eauto.
  - cbn. auto.
Qed.

Lemma Forall2_len : forall A B (R : A -> B -> Prop) l m, Forall2 R l m -> length l = length m.
Proof. intros A B R l m H. induction H; cbn; congruence. Qed.

Lemma collect_witnesses : forall cand q lp offs, positions_ok cand q lp -> In offs (collect_offsets None lp) ->
  witnesses q cand offs.
Proof.
  intros cand q lp offs HP HI. destruct (collect_sound cand q lp None offs HP HI) as [C F].
  split; [symmetry; eapply Forall2_len; eauto|]. split; [eapply chain_lt; eauto|].
  intros i p E. destruct (Forall2_nth _ _ _ _ _ _ _ F E) as (c & Ec & Ep). eauto.
Qed.

Lemma best_of_inv : forall cand l b,
  let r := fold_left (fun best offs => let s := score is_alnum cand offs in
             if Qltb (fst best) s then (s, offs) else best) l b in
  r = b \/ exists o, In o l /\ r = (score is_alnum cand o, o).
Proof.
  intros cand. induction l as [|o l IH]; intros b; cbn [fold_left]; [auto|]. cbn zeta.
  destruct (Qltb (fst b) (score is_alnum cand o)).
  - destruct (IH (score is_alnum cand o, o)) as [H|(o' & H & E)]; [right; exists o|right; exists o']; cbn; auto.
  - destruct (IH b) as [H|(o' & H & E)]; [left; exact H|right; exists o'; cbn; auto].
Qed.

Lemma best_of_pos : forall cand l b o, In o l -> o <> [] -> (0 <= fst b)%Q ->
  (0 < fst (fold_left (fun best offs => let s := score is_alnum cand offs in
             if Qltb (fst best) s then (s, offs) else best) l b))%Q.
Proof.
  intros cand. 
  assert (MONO : forall l b, (fst b <= fst (fold_left (fun best offs => let s := score is_alnum cand offs in
             if Qltb (fst best) s then (s, offs) else best) l b))%Q).
  { induction l as [|o l IH]; intros b; cbn [fold_left]; [lra|]. eapply Qle_trans; [|apply IH]. cbn zeta.
    destruct (Qltb (fst b) (score is_alnum cand o)) eqn:E; [apply Qltb_lt in E; cbn; lra|lra]. }
  induction l as [|o' l IH]; intros b o HI Hne Hb; [contradiction|]. cbn [fold_left].
  destruct HI as [->|HI].
  - eapply Qlt_le_trans; [|apply MONO]. cbn zeta. destruct (Qltb (fst b) (score is_alnum cand o)) eqn:E.
    + apply score_pos. exact Hne.
    + assert (~ (fst b < score is_alnum cand o)%Q) by (rewrite <- Qltb_lt, E; discriminate).
      pose proof (score_pos cand o Hne). lra.
  - apply (IH _ o HI Hne). cbn zeta. destruct (Qltb (fst b) (score is_alnum cand o')); [|exact Hb]. apply score_nonneg.
Qed.

Definition folded (cs : bool) (t : text) : text := if cs then t else lower t.

Lemma match_sound : forall cs q c s offs, match_candidate lower is_alnum cs q c = (s, offs) ->
  (s == 0 /\ offs = [])%Q \/
  ((0 < s)%Q /\ witnesses (folded cs q) (folded cs c) offs /\ offs <> []).
Proof.
  intros cs q c s offs E. unfold match_candidate in E. fold (folded cs q) (folded cs c) in E.
  destruct (is_nil q || is_nil c); [injection E as <- <-; left; split; reflexivity|].
  cbn zeta in E.
  destruct (find_sub (folded cs c) (folded cs q)) as [st|] eqn:F.
  - destruct (find_sub_some _ _ _ F) as (a & b & Hc & Ha).
    destruct (folded cs q) as [|x q'] eqn:Eq.
    + cbn in E. injection E as <- <-. left. split; [destruct (text_eqb (folded cs c) []); reflexivity|reflexivity].
    + injection E as <- <-. right. split; [|split; [|discriminate]].
      * pose proof (score_pos (folded cs c) (seq st (length (x :: q'))) ltac:(discriminate)) as HS.
        apply Qmult_lt_0_compat; [exact HS|]. destruct (text_eqb (folded cs c) (x :: q')); reflexivity.
      * rewrite Hc, <- Ha. apply seq_witness.
  - destruct (letter_positions (folded cs c) 0 0 (folded cs q)) as [lp|] eqn:L; [|injection E as <- <-; left; split; reflexivity].
    pose proof (best_of_inv (folded cs c) (collect_offsets None lp) (0%Q, [])) as B.
    cbn zeta in B. unfold best_of in E. destruct B as [B|(o & HI & B)]; rewrite B in E; injection E as <- <-.
    + left. split; reflexivity.
    + assert (W : witnesses (folded cs q) (folded cs c) o).
      { eapply collect_witnesses; [eapply letter_positions_ok; eauto|exact HI]. }
      assert (N : o <> []).
      { intros ->. destruct W as [W _]. cbn in W.
        destruct (folded cs q); [|discriminate]. destruct (folded cs c); discriminate. }
      right. split; [apply score_pos; exact N|auto].
Qed.

(** *** completeness *)

Lemma match_substring : forall cs q c, q <> [] -> c <> [] -> folded cs q <> [] ->
  occurs_in (folded cs q) (folded cs c) -> (0 < fst (match_candidate lower is_alnum cs q c))%Q.
Proof.
  intros cs q c Hq Hc Hq' O. unfold match_candidate. fold (folded cs q) (folded cs c).
  destruct q; [contradiction|]. destruct c; [contradiction|]. cbn [is_nil orb]. cbn zeta.
  destruct (find_sub _ _) as [st|] eqn:F; [|exfalso; eapply find_sub_none; eauto].
  cbn [fst]. match goal with |- context [score is_alnum ?a ?b] => pose proof (score_pos a b) as P end.
  assert (P' := P ltac:(destruct (folded cs (c0 :: q)); [contradiction|discriminate])).
  apply Qmult_lt_0_compat; [exact P'|]. destruct (text_eqb _ _); reflexivity.
Qed.

(** [q] found greedily at or after position [pos], letter number [off] of the
    query lying before [lim - off] *)
Inductive placed (cand : text) (len : nat) : nat -> nat -> text -> Prop :=
| pl_nil : forall off pos, placed cand len off pos []
| pl_cons : forall off pos c q p, pos <= p -> p < len - off -> nth_error cand p = Some c ->
    placed cand len (S off) (S p) q -> placed cand len off pos (c :: q).

Lemma placed_earlier : forall cand len q off pos pos', placed cand len off pos q -> pos' <= pos -> placed cand len off pos' q.
Proof.
  intros cand len q off pos pos' H L. inversion H as [|? ? ? ? p]; subst; [constructor|].
  apply pl_cons with (p := p); auto. lia.
Qed.

Lemma letter_positions_complete : forall cand q off pos, placed cand (length cand) off pos q ->
  exists lp, letter_positions cand off pos q = Some lp /\
    forall last, (match last with None => True | Some l => l < pos end) -> exists o, In o (collect_offsets last lp).
Proof.
  intros cand. induction q as [|c q IH]; intros off pos H.
  - exists []. split; [reflexivity|]. intros last _. exists []. left. reflexivity.
  - inversion H as [|? ? ? ? p Hpos Hlim Hnth Hrest]; subst. cbn [letter_positions].
    assert (HI : In p (scan_letter cand c (length cand - off) pos (length cand - pos))).
    { apply scan_letter_complete; auto.
      assert (p < length cand) by (apply nth_error_Some; congruence). lia. }
    destruct (scan_letter cand c (length cand - off) pos (length cand - pos)) as [|p0 ps] eqn:E; [contradiction|].
    assert (Hp0 : p0 <= p) by (eapply scan_letter_first; eauto).
    destruct (IH (S off) (S p0)) as (lp & -> & Hc); [eapply placed_earlier; eauto; lia|].
    eexists. split; [reflexivity|]. intros last Hl.
    assert (pos <= p0) by (apply (scan_letter_sound cand c (length cand - off) (length cand - pos) pos); rewrite E; left; reflexivity).
    destruct (Hc (Some p0)) as [o Ho]; [cbn; lia|]. exists (p0 :: o). cbn [collect_offsets flat_map].
    apply in_or_app. left. replace (match last with None => true | Some l => l <? p0 end) with true.
    + apply in_map. exact Ho.
    + destruct last; [symmetry; apply Nat.ltb_lt; lia|reflexivity].
Qed.

(** a subsequence of the candidate without its last [n - 1] characters is placed *)
Lemma subseq_placed : forall cand k q off pos, subseq q (firstn k (skipn pos cand)) -> pos + k + off + (length q - 1) <= length cand ->
  placed cand (length cand) off pos q.
Proof.
  intros cand k. induction k as [|k IH]; intros q off pos HS HL.
  - cbn in HS. inversion HS; subst. constructor.
  - destruct (skipn pos cand) as [|x r] eqn:E; [cbn in HS; inversion HS; subst; constructor|].
    assert (N : nth_error cand pos = Some x).
    { rewrite <- (firstn_skipn pos cand), E.
      assert (length (firstn pos cand) = pos). { rewrite firstn_length_le; [reflexivity|].
        assert (length (skipn pos cand) = S (length r)) by (rewrite E; reflexivity). rewrite skipn_length in H. lia. }
      rewrite nth_error_app2 by lia. rewrite H, Nat.sub_diag. reflexivity. }
    assert (E' : skipn (S pos) cand = r).
    { revert E. clear. revert cand. induction pos as [|pos IHp]; intros [|y cand] E; cbn in *; try discriminate.
      - congruence.
      - apply IHp. exact E. }
    cbn [firstn] in HS. inversion HS; subst.
    + constructor.
    + cbn [length] in HL. apply pl_cons with (p := pos); auto; [lia|].
      destruct q0 as [|y q0]; [constructor|]. apply IH; [assumption|]. cbn [length] in *. lia.
    + apply placed_earlier with (pos := S pos); [|lia]. apply IH; [assumption|]. lia.
Qed.

Lemma match_subseq : forall cs q c, q <> [] -> c <> [] -> folded cs q <> [] ->
  subseq (folded cs q) (firstn (length (folded cs c) - (length (folded cs q) - 1)) (folded cs c)) ->
  length (folded cs q) <= length (folded cs c) ->
  (0 < fst (match_candidate lower is_alnum cs q c))%Q.
Proof.
  intros cs q c Hq Hc Hq' HS HL.
  destruct (find_sub (folded cs c) (folded cs q)) as [st|] eqn:F.
  { apply match_substring; auto. apply find_sub_some in F as (a & b & E & _). exists a, b. exact E. }
  unfold match_candidate. fold (folded cs q) (folded cs c).
  destruct (is_nil q || is_nil c) eqn:B; [destruct q, c; cbn in B; congruence|]. cbn zeta. rewrite F.
  destruct (letter_positions_complete (folded cs c) (folded cs q) 0 0) as (lp & E & Hlp).
  { eapply subseq_placed with (k := length (folded cs c) - (length (folded cs q) - 1)); [exact HS|]. lia. }
  rewrite E. destruct (Hlp None I) as [o Ho]. unfold best_of. apply best_of_pos with (o := o); [exact Ho| |cbn; lra].
  intros ->. apply letter_positions_ok in E. pose proof (collect_witnesses _ _ _ _ E Ho) as [W _].
  cbn in W. destruct (folded cs q); [contradiction|discriminate].
Qed.

(** *** highlighting *)
Variable known_color : text -> bool.

Definition hit (offs : list nat) (i : nat) (c : char) : bool := mem_nat i offs && negb (is_ws c).

Fixpoint hit_spans (st : style) (offs : list nat) (i pos : nat) (t : text) : list span :=
  match t with
  | [] => []
  | c :: r =>
      (if hit offs i c then [Span pos (pos + utf8_len c) st []] else [])
      ++ hit_spans st offs (S i) (pos + utf8_len c) r
  end.

Lemma highlight_parse : forall ms st offs, Forall plain_char ms -> nth_error ms 0 <> Some ch_slash ->
  tag_parse lower known_color ms = Ok (TagStyle st) -> style_is_empty st = false ->
  forall t i out sp,
  parse_from lower known_color (Parser [] out sp) (highlight_loop ms offs i t) =
  Ok (Parser [] (out ++ t) (sp ++ hit_spans st offs i (blen out) t)).
Proof.
  intros ms st offs HP HS HT HE.
  assert (Hm : ms <> []) by (intros ->; discriminate HT).
  induction t as [|c t IH]; intros i out sp; cbn [highlight_loop hit_spans].
  - rewrite !app_nil_r. reflexivity.
  - replace (negb (is_nil ms)) with true by (destruct ms; [contradiction|reflexivity]). rewrite andb_true_r.
    fold (hit offs i c). destruct (hit offs i c).
    + rewrite <- app_comm_cons, <- !app_assoc. cbn [app].
      rewrite (parse_from_open lower known_color _ ms _ (push_style (Parser [] out sp) st [] ms)); auto;
        [|unfold process_open; rewrite HT; reflexivity].
      rewrite parse_from_escape_char. rewrite parse_from_close.
      unfold push_style, push_text, set_stack. cbn [ps_stack ps_out ps_spans].
      rewrite pop_styled; [|rewrite blen_app, blen_cons; pose proof (utf8_len_pos c); change (blen []) with 0; lia|exact HE].
      rewrite IH. rewrite <- !app_assoc, blen_app. rewrite (blen_cons c []). change (blen []) with 0. rewrite Nat.add_0_r. reflexivity.
    + rewrite parse_from_escape_char. unfold push_text. cbn [ps_stack ps_out ps_spans]. rewrite IH.
      rewrite <- app_assoc, blen_app, (blen_cons c []). change (blen []) with 0. rewrite Nat.add_0_r. reflexivity.
Qed.

Definition fold_style (l : list span) (off : nat) (acc : style) : style :=
  fold_left (fun acc s => if span_contains s off then style_apply acc (sp_style s) else acc) l acc.

Lemma hit_spans_before : forall st offs t i pos off acc, off < pos -> fold_style (hit_spans st offs i pos t) off acc = acc.
Proof.
  intros st offs. induction t as [|c t IH]; intros i pos off acc H; cbn [hit_spans]; [reflexivity|].
  destruct (hit offs i c); cbn [app].
  - unfold fold_style. cbn [fold_left]. replace (span_contains (Span pos (pos + utf8_len c) st []) off) with false.
    + apply IH. lia.
    + symmetry. apply not_true_iff_false. rewrite span_contains_spec. unfold covers. cbn. lia.
  - apply IH. lia.
Qed.

Lemma hit_spans_at : forall st offs a c b i pos d acc, d < utf8_len c ->
  fold_style (hit_spans st offs i pos (a ++ c :: b)) (pos + blen a + d) acc =
  if hit offs (i + length a) c then style_apply acc st else acc.
Proof.
  intros st offs. induction a as [|x a IH]; intros c b i pos d acc H; cbn [app hit_spans length].
  - rewrite Nat.add_0_r. change (blen []) with 0. rewrite Nat.add_0_r. destruct (hit offs i c); cbn [app].
    + unfold fold_style. cbn [fold_left]. replace (span_contains (Span pos (pos + utf8_len c) st []) (pos + d)) with true.
      * apply hit_spans_before. lia.
      * symmetry. rewrite span_contains_spec. unfold covers. cbn. lia.
    + apply hit_spans_before. lia.
  - replace (i + S (length a)) with (S i + length a) by lia. rewrite blen_cons.
    replace (pos + (utf8_len x + blen a) + d) with ((pos + utf8_len x) + blen a + d) by lia.
    destruct (hit offs i x); cbn [app]; [|apply IH; exact H].
    unfold fold_style. cbn [fold_left]. replace (span_contains _ _) with false; [apply IH; exact H|].
    symmetry. apply not_true_iff_false. rewrite span_contains_spec. unfold covers. cbn. lia.
Qed.

Lemma style_apply_default : forall s, style_apply style_default s = s.
Proof.
  intros [fg bg [a b c d e f g]]. unfold style_apply, or_else. cbn. destruct fg, bg; reflexivity.
Qed.

Lemma hit_spec : forall offs i c, hit offs i c = true <-> In i offs /\ is_ws c = false.
Proof.
  intros offs i c. unfold hit, mem_nat. rewrite andb_true_iff, negb_true_iff, existsb_exists. split.
  - intros [(x & HI & E) W]. apply Nat.eqb_eq in E. subst. auto.
  - intros [HI W]. split; [|exact W]. exists i. split; [exact HI|apply Nat.eqb_refl].
Qed.

Lemma highlight_roundtrip : forall cs q ms st cand s offs, Forall plain_char ms -> nth_error ms 0 <> Some ch_slash ->
  tag_parse lower known_color ms = Ok (TagStyle st) -> style_is_empty st = false ->
  match_candidate lower is_alnum cs q cand = (s, offs) ->
  exists m, parse lower known_color (highlight lower is_alnum cs q ms cand) = Ok m /\ pm_text m = cand /\
    forall a c b d, cand = a ++ c :: b -> d < utf8_len c ->
      (In (length a) offs /\ is_ws c = false -> style_at m (blen a + d) = st) /\
      (~ (In (length a) offs /\ is_ws c = false) -> style_at m (blen a + d) = style_default).
Proof.
  intros cs q ms st cand s offs HP HS HT HE HM. unfold highlight. rewrite HM.
  pose proof (match_sound cs q cand s offs HM) as SND.
  destruct (Qle_bool s 0) eqn:B.
  - exists (Parsed cand []). split; [apply escape_roundtrip|]. split; [reflexivity|]. intros a c b d E Hd.
    destruct SND as [[_ ->]|[Hs _]].
    + split; [intros [[] _]|reflexivity].
    + apply Qle_bool_iff in B. exfalso. eapply Qlt_not_le; eauto.
  - rewrite parse_parse_from. unfold parser_new. rewrite (highlight_parse ms st offs HP HS HT HE). cbn [bind]. eexists. split; [reflexivity|].
    cbn [close_all ps_stack fold_left set_stack ps_out ps_spans app pm_text]. split; [reflexivity|].
    intros a c b d E Hd.
    match goal with |- context [style_at ?m _] => assert (SA : forall off, style_at m off = fold_style (hit_spans st offs 0 0 cand) off style_default) by reflexivity end.
    rewrite !SA, E. pose proof (hit_spans_at st offs a c b 0 0 d style_default Hd) as HH. cbn [Nat.add] in HH. rewrite HH.
    rewrite style_apply_default. pose proof (hit_spec offs (length a) c) as HI. destruct (hit offs (length a) c).
    + split; [reflexivity|]. intros N. exfalso. apply N, HI. reflexivity.
    + split; [|reflexivity]. intros Y. apply HI in Y. discriminate.
Qed.
End P.
