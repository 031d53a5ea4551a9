(** Proofs about the ranking of fuzzy matches. *)
From Coq Require Import ZArith QArith List Bool Arith Lia Lqa.
From Verif Require Import Text_Model Markup_Model Fuzzy_Model Fuzzy_Spec Fuzzy_Proofs Rank_Spec.
Import ListNotations.
Local Open Scope nat_scope.

Notation q_ x := (inject_Z (Z.of_nat x)).
Lemma q_S : forall n, (q_ (S n) == q_ n + 1)%Q.
Proof. intros n. rewrite Nat2Z.inj_succ. unfold Z.succ. rewrite inject_Z_plus. reflexivity. Qed.
Lemma q_add : forall a b, (q_ (a + b) == q_ a + q_ b)%Q.
Proof. intros. rewrite Nat2Z.inj_add, inject_Z_plus. reflexivity. Qed.
Lemma q_pos : forall n, 0 < n -> (0 < q_ n)%Q.
Proof. intros n H. unfold Qlt, inject_Z. cbn. lia. Qed.
Lemma q_le : forall a b, a <= b -> (q_ a <= q_ b)%Q.
Proof. intros a b H. rewrite <- Zle_Qle. lia. Qed.
Lemma q_lt : forall a b, a < b -> (q_ a < q_ b)%Q.
Proof. intros a b H. rewrite <- Zlt_Qlt. lia. Qed.

Section Rank.
Variable is_alnum : char -> bool.
Notation first_letters := (first_letters is_alnum).
Notation word_start := (word_start is_alnum).

Lemma first_letters_in : forall t i w p, In p (first_letters i w t) <->
  exists k, p = i + k /\ in_word is_alnum t k = true /\ (match k with O => w = false | S r => in_word is_alnum t r = false end).
Proof.
  induction t as [|c t IH]; intros i w p; cbn [Fuzzy_Model.first_letters].
  - split; [intros []|]. intros (k & _ & H & _). unfold in_word in H. destruct k; discriminate.
  - rewrite in_app_iff, IH. split.
    + intros [H|(k & -> & H & K)].
      * destruct (is_word_char is_alnum c && negb w) eqn:E; [|destruct H]. destruct H as [<-|[]]. apply andb_true_iff in E. destruct E as [E1 E2]. exists 0. split; [lia|]. split; [exact E1|]. apply negb_true_iff. exact E2.
      * exists (S k). split; [lia|]. split; [exact H|]. destruct k; auto.
    + intros ([|k] & -> & H & K).
      * left. unfold in_word in H. cbn [nth_error] in H. unfold is_word_char. rewrite H, K. cbn. left. lia.
      * right. exists k. split; [lia|]. split; [exact H|]. destruct k; auto.
Qed.
Lemma mem_first : forall t p, mem_nat p (first_letters 0 false t) = word_start t p.
Proof.
  intros t p. apply eq_iff_eq_true. unfold mem_nat. rewrite existsb_exists. split.
  - intros (x & I & E). apply Nat.eqb_eq in E. subst x. apply first_letters_in in I. destruct I as (k & -> & H & K). cbn [plus]. unfold Rank_Spec.word_start. rewrite H. destruct k; [reflexivity|]. rewrite K. reflexivity.
  - intros H. exists p. split; [|apply Nat.eqb_refl]. apply first_letters_in. exists p. split; auto. unfold Rank_Spec.word_start in H. apply andb_true_iff in H. destruct H as [H1 H2]. split; auto. destruct p; auto. apply negb_true_iff. exact H2.
Qed.
Lemma runs_breaks : forall r p, runs (p :: r) = 1 + count_breaks p r.
Proof.
  induction r as [|y r IH]; intros p; [reflexivity|]. cbn [count_breaks]. change (runs (p :: y :: r)) with (if y =? S p then runs (y :: r) else S (runs (y :: r))). rewrite IH. rewrite Nat.add_1_r. destruct (y =? S p); lia.
Qed.
Lemma score_merit : forall t offs, offs <> [] -> (score is_alnum t offs == merit (length offs) (starts is_alnum t offs) (runs offs))%Q.
Proof.
  intros t [|p r] H; [contradiction|]. unfold score, merit. rewrite runs_breaks. unfold starts. rewrite (filter_ext _ _ (mem_first t)).
  set (n := q_ (length (p :: r))). set (m := q_ (length (filter (word_start t) (p :: r)))). set (g := q_ (1 + count_breaks p r)).
  assert (N : (0 < n)%Q) by (apply q_pos; cbn; lia). cbv zeta. field. lra.
Qed.

(** Adjacent places do not both start a word. *)
Lemma starts_bound : forall t r x, 2 * starts is_alnum t (x :: r) <= length (x :: r) + count_breaks x r + (if word_start t x then 1 else 0).
Proof.
  intros t. induction r as [|y r IH]; intros x.
  - unfold starts. cbn [filter length count_breaks]. destruct (word_start t x); cbn; lia.
  - specialize (IH y). unfold starts in *. set (F := filter (word_start t) (y :: r)) in *. change (filter (word_start t) (x :: y :: r)) with (if word_start t x then x :: F else F). cbn [length count_breaks] in *.
    assert (A : y = x + 1 -> word_start t x = true -> word_start t y = false).
    { intros -> W. rewrite Nat.add_1_r. unfold Rank_Spec.word_start in *. apply andb_true_iff in W. destruct W as [W _]. rewrite W. apply andb_false_r. }
    destruct (y =? x + 1) eqn:E; [apply Nat.eqb_eq in E; specialize (A E)|]; destruct (word_start t x); cbn [length]; try rewrite (A eq_refl) in IH; destruct (word_start t y); lia.
Qed.
Lemma starts_runs : forall t offs, offs <> [] -> 2 * starts is_alnum t offs <= length offs + runs offs.
Proof. intros t [|x r] H; [contradiction|]. rewrite runs_breaks. pose proof (starts_bound t r x). destruct (word_start t x); lia. Qed.
Lemma runs_le : forall offs, runs offs <= length offs.
Proof. intros [|x r]; auto. rewrite runs_breaks. pose proof (count_breaks_le r x). cbn [length]. lia. Qed.

Lemma runs_one : forall r x, count_breaks x r = 0 -> x :: r = seq x (length (x :: r)).
Proof.
  induction r as [|y r IH]; intros x H; [reflexivity|]. cbn [count_breaks] in H. destruct (y =? x + 1) eqn:E; [|lia]. apply Nat.eqb_eq in E. specialize (IH y ltac:(lia)).
  change (seq x (length (x :: y :: r))) with (x :: seq (S x) (length (y :: r))). f_equal. rewrite IH at 1. f_equal. lia.
Qed.
Lemma breaks_seq : forall n x, count_breaks x (seq (S x) n) = 0.
Proof. induction n as [|n IH]; intros x; cbn [seq count_breaks]; auto. rewrite Nat.add_1_r, Nat.eqb_refl, IH. reflexivity. Qed.
Lemma runs_seq : forall n x, 0 < n -> runs (seq x n) = 1.
Proof. intros [|n] x H; [lia|]. cbn [seq]. rewrite runs_breaks, breaks_seq. reflexivity. Qed.

Lemma nth_skip : forall (A : Type) (a b : list A) i, nth_error (a ++ b) (length a + i) = nth_error b i.
Proof. intros. rewrite nth_error_app2 by lia. f_equal. lia. Qed.

(** A witness in one run is an occurrence. *)
Lemma witness_run : forall q c offs, witnesses q c offs -> offs <> [] -> runs offs = 1 -> occurs_in q c.
Proof.
  intros q c [|x r] (L & _ & W) N R; [contradiction|]. rewrite runs_breaks in R. pose proof (runs_one r x ltac:(lia)) as E. rewrite E in W, L. rewrite seq_length in L. rewrite L in W. clear E R N L r.
  exists (firstn x c), (skipn (length q) (skipn x c)). rewrite <- (firstn_skipn x c) at 1. f_equal.
  assert (X : forall i, i < length q -> nth_error (skipn x c) i = nth_error q i).
  { intros i Hi. destruct (W i (x + i)) as (ch & Q & C).
    { clear - Hi. revert i x Hi. induction (length q) as [|n IH]; intros [|i] x H; cbn [seq nth_error]; try lia; [f_equal; lia|]. rewrite (IH i (S x)) by lia. f_equal. lia. }
    rewrite Q, <- C. clear. revert c. induction x as [|x IH]; intros c; auto. destruct c as [|h c]; [destruct i; reflexivity|]. cbn [skipn plus nth_error]. apply IH. }
  revert X. generalize (skipn x c). clear. induction q as [|ch q IH]; intros t X; [reflexivity|]. pose proof (X 0 ltac:(cbn; lia)) as X0. destruct t as [|d t]; [discriminate|]. cbn in X0. injection X0 as ->. cbn [length skipn app]. f_equal.
  apply IH. intros i Hi. apply (X (S i)). cbn. lia.
Qed.

(** The number of word starts of an occurrence is at most that of the query. *)
Lemma starts_occ : forall q a b, starts is_alnum (a ++ q ++ b) (seq (length a) (length q)) <= starts is_alnum q (seq 0 (length q)).
Proof.
  intros q a b. unfold starts.
  assert (W : forall i, i < length q -> word_start (a ++ q ++ b) (length a + i) = true -> word_start q i = true).
  { intros i Hi H. unfold Rank_Spec.word_start in *. apply andb_true_iff in H. destruct H as [H1 H2]. apply andb_true_iff.
    assert (IW : forall j, j < length q -> in_word is_alnum (a ++ q ++ b) (length a + j) = in_word is_alnum q j). { intros j Hj. unfold in_word. rewrite nth_skip, nth_error_app1 by auto. reflexivity. }
    rewrite <- IW by auto. split; auto. destruct i as [|i]; auto. rewrite <- plus_n_Sm in H2. rewrite IW in H2 by lia. exact H2. }
  assert (G : forall n k, k + n <= length q -> length (filter (word_start (a ++ q ++ b)) (seq (length a + k) n)) <= length (filter (word_start q) (seq k n))).
  { induction n as [|n IH]; intros k H; [auto|]. cbn [seq filter]. specialize (IH (S k) ltac:(lia)). rewrite <- plus_n_Sm in IH. specialize (W k ltac:(lia)). destruct (word_start (a ++ q ++ b) (length a + k)).
    - rewrite (W eq_refl). cbn [length]. lia.
    - destruct (word_start q k); cbn [length]; lia. }
  pose proof (G (length q) 0 ltac:(lia)) as H. rewrite Nat.add_0_r in H. exact H.
Qed.

Lemma merit_mono : forall n m m' g g', 0 < n -> m' <= m -> 1 <= g <= g' -> g' <= n -> (merit n m' g' <= merit n m g)%Q.
Proof.
  intros n m m' g g' N M G G'. unfold merit. cbv zeta. pose proof (q_pos n N) as Qn. pose proof (q_le _ _ M) as Qm. pose proof (q_le g g' ltac:(lia)) as Qg. pose proof (q_le 1 g ltac:(lia)) as Q1. pose proof (q_le g' n ltac:(lia)) as Q2. pose proof (q_le 0 m' ltac:(lia)) as Q0.
  change (q_ 1) with 1%Q in Q1. change (q_ 0) with 0%Q in Q0.
  set (a := (1 - (q_ g - 1) / q_ n)%Q). set (a' := (1 - (q_ g' - 1) / q_ n)%Q).
  assert (D : (forall x, 1 <= x -> x <= q_ n -> 0 <= 1 - (x - 1) / q_ n)%Q).
  { intros x X1 X2. assert ((x - 1) / q_ n <= 1)%Q; [|lra]. apply Qle_shift_div_r; auto. lra. }
  assert (A' : (0 <= a')%Q) by (apply D; lra).
  assert (AA : (a' <= a)%Q). { unfold a, a'. assert ((q_ g - 1) / q_ n <= (q_ g' - 1) / q_ n)%Q; [|lra]. apply Qle_shift_div_l; auto. setoid_replace ((q_ g - 1) / q_ n * q_ n)%Q with (q_ g - 1)%Q by (field; lra). lra. }
  assert (S2 : (a' * a' <= a * a)%Q). { apply Qle_trans with (a * a')%Q; [apply Qmult_le_compat_r; lra|]. setoid_replace (a * a')%Q with (a' * a)%Q by ring. apply Qmult_le_compat_r; lra. }
  assert (P : (0 <= a' * a')%Q) by (apply Qmult_le_0_compat; auto).
  apply Qle_trans with ((q_ n + q_ m) * (1 + a' * a'))%Q; [apply Qmult_le_compat_r; lra|]. rewrite !(Qmult_comm (q_ n + q_ m)). apply Qmult_le_compat_r; lra.
Qed.

(** Scattered placements score less than 3 times the number of characters. *)
Lemma merit_scattered : forall n m g, 2 <= g -> g <= n -> 2 * m <= n + g -> (merit n m g < inject_Z 3 * q_ n)%Q.
Proof.
  intros n m g G N M. unfold merit. cbv zeta. pose proof (q_pos n ltac:(lia)) as Qn.
  setoid_replace ((q_ n + q_ m) * (1 + (1 - (q_ g - 1) / q_ n) * (1 - (q_ g - 1) / q_ n)))%Q
    with (((q_ n + q_ m) * (q_ n * q_ n + (q_ n - q_ g + 1) * (q_ n - q_ g + 1))) / (q_ n * q_ n))%Q by (field; lra).
  apply Qlt_shift_div_r; [apply Qmult_lt_0_compat; auto|].
  assert (Z0 : (let n := Z.of_nat n in let m := Z.of_nat m in let g := Z.of_nat g in (n + m) * (n * n + (n - g + 1) * (n - g + 1)) < 3 * n * (n * n))%Z).
  { cbv zeta. set (a := Z.of_nat n). set (b := Z.of_nat m). set (k := (Z.of_nat g - 1)%Z). replace (a - Z.of_nat g + 1)%Z with (a - k)%Z by (unfold k; lia).
    assert (K1 : (1 <= k)%Z) by (unfold k; lia). assert (K2 : (k <= a - 1)%Z) by (unfold k, a; lia). assert (B : (2 * b <= a + k + 1)%Z) by (unfold a, b, k; lia).
    assert (S1 : (2 * ((a + b) * (a * a + (a - k) * (a - k))) <= (3 * a + k + 1) * (a * a + (a - k) * (a - k)))%Z).
    { replace (2 * ((a + b) * (a * a + (a - k) * (a - k))))%Z with ((2 * a + 2 * b) * (a * a + (a - k) * (a - k)))%Z by ring. apply Z.mul_le_mono_nonneg_r; nia. }
    assert (X1 : (a * (k * k) <= a * a * k - a * k)%Z) by nia.
    assert (X2 : (k * (k * k) <= a * (k * k) - k * k)%Z) by nia.
    assert (X3 : (2 * (a * a) <= 2 * (a * a * k))%Z) by nia.
    assert (X4 : (0 < a * k)%Z) by nia.
    assert (E : ((3 * a + k + 1) * (a * a + (a - k) * (a - k)) = 6 * (a * (a * a)) - 4 * (a * a * k) + a * (k * k) + k * (k * k) + 2 * (a * a) - 2 * (a * k) + k * k)%Z) by ring.
    nia. }
  cbv zeta in Z0. rewrite Zlt_Qlt in Z0. rewrite !inject_Z_mult, !inject_Z_plus, !inject_Z_mult, !inject_Z_plus in Z0. unfold Z.sub in Z0. rewrite !inject_Z_plus, !inject_Z_opp in Z0. change (inject_Z 1) with 1%Q in Z0. exact Z0.
Qed.

Lemma best_of_max : forall cand l b o, In o l -> (score is_alnum cand o <= fst (fold_left (fun best offs => let s := score is_alnum cand offs in if Qltb (fst best) s then (s, offs) else best) l b))%Q.
Proof.
  intros cand.
  assert (MONO : forall l b, (fst b <= fst (fold_left (fun best offs => let s := score is_alnum cand offs in if Qltb (fst best) s then (s, offs) else best) l b))%Q).
  { induction l as [|o l IH]; intros b; cbn [fold_left]; [lra|]. eapply Qle_trans; [|apply IH]. cbn zeta. destruct (Qltb (fst b) (score is_alnum cand o)) eqn:E; [apply Qltb_lt in E; cbn; lra|lra]. }
  induction l as [|x l IH]; intros b o IN; [destruct IN|]. destruct IN as [->|I]; cbn [fold_left]; [|apply IH; exact I]. eapply Qle_trans; [|apply MONO]. cbn zeta. destruct (Qltb (fst b) (score is_alnum cand o)) eqn:E; cbn [fst]; [lra|].
  destruct (Qlt_le_dec (fst b) (score is_alnum cand o)) as [H|H]; auto. apply Qltb_lt in H. congruence.
Qed.

Lemma collect_complete : forall cand q offs off pos last, Forall2 (fun c p => nth_error cand p = Some c) q offs -> chain last offs ->
  (match offs with [] => True | p :: _ => pos <= p end) -> (forall i p, nth_error offs i = Some p -> p + (off + i) < length cand) ->
  exists lp, letter_positions cand off pos q = Some lp /\ In offs (collect_offsets last lp).
Proof.
  intros cand q offs off pos last F. revert off pos last. induction F as [|c p q offs C F IH]; intros off pos last CH P R; cbn [letter_positions]; [exists []; cbn; auto|].
  pose proof (R 0 p eq_refl) as R0. inversion CH as [|? ? ? Hl Hc]; subst.
  assert (I : In p (scan_letter cand c (length cand - off) pos (length cand - pos))) by (apply scan_letter_complete; auto; lia).
  destruct (scan_letter cand c (length cand - off) pos (length cand - pos)) as [|p0 ps] eqn:S; [destruct I|].
  assert (LE : p0 <= p) by (eapply scan_letter_first; eauto).
  destruct (IH (Datatypes.S off) (Datatypes.S p0) (Some p) Hc) as (lp & L & IN).
  { destruct offs as [|p1 r]; auto. inversion Hc; subst. lia. }
  { intros i x E. pose proof (R (Datatypes.S i) x E). lia. }
  exists ((p0 :: ps) :: lp). rewrite L. split; [reflexivity|]. cbn [collect_offsets]. apply in_flat_map. exists p. split; auto.
  assert (T : (match last with None => true | Some l => (l <? p)%nat end) = true). { destruct last; auto. apply Nat.ltb_lt. exact Hl. }
  rewrite T. apply in_map. exact IN.
Qed.

Lemma witness_chain : forall q c offs, witnesses q c offs -> chain None offs /\ Forall2 (fun ch p => nth_error c p = Some ch) q offs.
Proof.
  intros q c offs (L & M & W). split.
  - assert (A : forall offs l, (forall i j p q, i < j -> nth_error offs i = Some p -> nth_error offs j = Some q -> p < q) -> (forall x p, l = Some x -> nth_error offs 0 = Some p -> x < p) -> chain l offs).
    { clear. induction offs as [|p r IH]; intros l M H; constructor; [destruct l; auto; apply (H n p); auto|]. apply IH; [intros i j a b H0 A B; apply (M (S i) (S j) a b); auto; lia|]. intros x b E B. injection E as <-. apply (M 0 1 p b); auto. }
    apply A; auto. discriminate.
  - clear M. revert q c L W. induction offs as [|p r IH]; intros [|ch q] c L W; cbn in L; try discriminate; constructor.
    + destruct (W 0 p eq_refl) as (x & E1 & E2). cbn in E1. congruence.
    + apply IH; [lia|]. intros i x E. destruct (W (S i) x E) as (y & E1 & E2). cbn in E1. eauto.
Qed.
Lemma starts_le : forall t offs, starts is_alnum t offs <= length offs.
Proof. intros. unfold starts. induction offs as [|x r IH]; cbn; auto. destruct (word_start t x); cbn; lia. Qed.

Variable lower : text -> text.
Notation folded := (Fuzzy_Proofs.folded lower).
Notation match_candidate := (match_candidate lower is_alnum).
(** What the three tiers score. *)
Lemma match_tiers : forall cs q c, q <> [] -> c <> [] -> folded cs q <> [] ->
  let n := length (folded cs q) in let st := starts is_alnum (folded cs c) in
  match find_sub (folded cs c) (folded cs q) with
  | Some start => let offs := seq start n in snd (match_candidate cs q c) = offs /\
      (fst (match_candidate cs q c) == inject_Z 2 * (q_ n + q_ (st offs)) * (if text_eqb (folded cs c) (folded cs q) then 2 else 3 # 2))%Q
  | None => (fst (match_candidate cs q c) == 0)%Q /\ snd (match_candidate cs q c) = [] \/
      let offs := snd (match_candidate cs q c) in length offs = n /\ 2 <= runs offs /\ (fst (match_candidate cs q c) == merit n (st offs) (runs offs))%Q
  end.
Proof.
  intros cs q c Q C N. cbv zeta. unfold Fuzzy_Model.match_candidate. fold (folded cs q) (folded cs c). change (if cs then q else lower q) with (folded cs q). change (if cs then c else lower c) with (folded cs c).
  assert (E : is_nil q || is_nil c = false) by (destruct q, c; auto; contradiction). rewrite E. cbn zeta. destruct (find_sub (folded cs c) (folded cs q)) as [start|] eqn:F.
  - cbn [fst snd]. split; auto. assert (L : 0 < length (folded cs q)) by (destruct (folded cs q); [contradiction|cbn; lia]).
    rewrite score_merit by (destruct (length (folded cs q)); [lia|discriminate]). rewrite seq_length, runs_seq by auto. unfold merit. cbv zeta. change (q_ 1) with 1%Q. pose proof (q_pos _ L).
    destruct (text_eqb (folded cs c) (folded cs q)); change (inject_Z 2) with 2%Q; field; lra.
  - destruct (letter_positions (folded cs c) 0 0 (folded cs q)) as [lp|] eqn:L; [|left; split; reflexivity]. unfold best_of. pose proof (best_of_inv is_alnum (folded cs c) (collect_offsets None lp) (0%Q, [])) as B. cbv zeta in B. destruct B as [B|(o & I & B)]; rewrite B; [left; split; reflexivity|right].
    cbn [fst snd]. assert (W : witnesses (folded cs q) (folded cs c) o) by (eapply collect_witnesses; [eapply letter_positions_ok; eauto|exact I]).
    assert (O : o <> []). { intros ->. destruct W as [W _]. cbn in W. destruct (folded cs q); [contradiction|discriminate]. }
    pose proof W as [LN _]. split; auto. split; [|rewrite score_merit by auto; rewrite LN; reflexivity].
    assert (R1 : 1 <= runs o) by (destruct o; [contradiction|rewrite runs_breaks; lia]). assert (R2 : runs o <> 1); [|lia]. intros R. exact (find_sub_none _ _ F (witness_run _ _ _ W O R)).
Qed.
End Rank.
