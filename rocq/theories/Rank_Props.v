(** C75: better matches rank higher. *)
From Coq Require Import String ZArith QArith List Bool Arith Lia Lqa.
From Verif Require Import Text_Model Markup_Model Fuzzy_Model Fuzzy_Spec Fuzzy_Proofs Rank_Spec Rank_Proofs Keys_Proofs.
Import ListNotations.
Notation length := List.length.
Open Scope list_scope.
Local Open Scope nat_scope.

Section Props.
Variable lower : text -> text.          (* str::to_lowercase *)
Variable is_alnum : char -> bool.       (* char::is_alphanumeric *)
Notation match_candidate := (match_candidate lower is_alnum).
(** Both strings as compared: unchanged, or lowercased. *)
Notation folded := (fun (case_sensitive : bool) (t : text) => if case_sensitive then t else lower t).

(** A candidate equal to the query scores more than every other candidate. *)
Theorem C75_exact_first : forall cs q c d, q <> [] -> c <> [] -> folded cs q <> [] -> folded cs c = folded cs q -> folded cs d <> folded cs q ->
  (fst (match_candidate cs q d) < fst (match_candidate cs q c))%Q.
Proof.
  intros cs q c d Q C N EC ED. change (Fuzzy_Proofs.folded lower cs c = Fuzzy_Proofs.folded lower cs q) in EC. change (Fuzzy_Proofs.folded lower cs d <> Fuzzy_Proofs.folded lower cs q) in ED. change (Fuzzy_Proofs.folded lower cs q <> []) in N.
  assert (D0 : d = [] -> (fst (match_candidate cs q d) == 0)%Q). { intros ->. unfold Fuzzy_Model.match_candidate. destruct q; reflexivity. }
  pose proof (match_tiers is_alnum lower cs q c Q C N) as TC. cbv zeta in TC. set (fq := Fuzzy_Proofs.folded lower cs q) in *. rewrite EC in TC.
  assert (F : find_sub fq fq = Some 0). { assert (S1 : starts_with fq fq = true) by (apply starts_with_spec; exists []; rewrite app_nil_r; reflexivity). destruct fq; cbn [find_sub]; rewrite S1; reflexivity. }
  rewrite F in TC. destruct TC as [_ TC]. rewrite TC. rewrite (proj2 (text_eqb_iff fq fq) eq_refl). change (inject_Z 2) with 2%Q.
  pose proof (q_pos (length fq) ltac:(destruct fq; [contradiction|cbn; lia])) as P. pose proof (q_le 0 (starts is_alnum fq (seq 0 (length fq))) ltac:(lia)) as P0. change (q_ 0) with 0%Q in P0.
  destruct d as [|d0 d']; [rewrite (D0 eq_refl); lra|]. set (d := d0 :: d') in *. pose proof (match_tiers is_alnum lower cs q d Q ltac:(discriminate) N) as TD. cbv zeta in TD. fold fq in TD.
  destruct (find_sub (Fuzzy_Proofs.folded lower cs d) fq) as [st|] eqn:FD.
  - destruct TD as [_ TD]. rewrite TD. change (inject_Z 2) with 2%Q. destruct (text_eqb (Fuzzy_Proofs.folded lower cs d) fq) eqn:E; [apply text_eqb_iff in E; contradiction|].
    apply find_sub_some in FD. destruct FD as (a & b & EA & <-). rewrite EA. pose proof (q_le _ _ (starts_occ is_alnum fq a b)). lra.
  - destruct TD as [[TD _]|(L & R & TD)]; rewrite TD; [lra|]. assert (O : snd (match_candidate cs q d) <> []) by (intros X; rewrite X in R; cbn in R; lia).
    pose proof (starts_runs is_alnum (Fuzzy_Proofs.folded lower cs d) _ O) as SR. rewrite L in SR. pose proof (runs_le (snd (match_candidate cs q d))) as RL. rewrite L in RL.
    pose proof (merit_scattered _ _ _ R RL SR) as M. change (inject_Z 3) with 3%Q in M. lra.
Qed.

(** A candidate in which the query occurs as it is scores more than every
    candidate that only has its characters in order. *)
Theorem C75_substring_before_scattered : forall cs q c d, q <> [] -> c <> [] -> folded cs q <> [] ->
  occurs_in (folded cs q) (folded cs c) -> ~ occurs_in (folded cs q) (folded cs d) ->
  (fst (match_candidate cs q d) < fst (match_candidate cs q c))%Q.
Proof.
  intros cs q c d Q C N EC ED. change (occurs_in (Fuzzy_Proofs.folded lower cs q) (Fuzzy_Proofs.folded lower cs c)) in EC. change (~ occurs_in (Fuzzy_Proofs.folded lower cs q) (Fuzzy_Proofs.folded lower cs d)) in ED. change (Fuzzy_Proofs.folded lower cs q <> []) in N.
  assert (D0 : d = [] -> (fst (match_candidate cs q d) == 0)%Q). { intros ->. unfold Fuzzy_Model.match_candidate. destruct q; reflexivity. }
  pose proof (match_tiers is_alnum lower cs q c Q C N) as TC. cbv zeta in TC. set (fq := Fuzzy_Proofs.folded lower cs q) in *.
  pose proof (q_pos (length fq) ltac:(destruct fq; [contradiction|cbn; lia])) as P.
  destruct (find_sub (Fuzzy_Proofs.folded lower cs c) fq) as [s|] eqn:FC; [|exfalso; exact (find_sub_none _ _ FC EC)]. destruct TC as [_ TC].
  assert (LB : (inject_Z 3 * q_ (length fq) <= fst (match_candidate cs q c))%Q).
  { rewrite TC. pose proof (q_le 0 (starts is_alnum (Fuzzy_Proofs.folded lower cs c) (seq s (length fq))) ltac:(lia)) as P0. change (q_ 0) with 0%Q in P0. change (inject_Z 2) with 2%Q. change (inject_Z 3) with 3%Q. destruct (text_eqb _ _); lra. }
  change (inject_Z 3) with 3%Q in LB. destruct d as [|d0 d']; [rewrite (D0 eq_refl); lra|]. set (d := d0 :: d') in *. pose proof (match_tiers is_alnum lower cs q d Q ltac:(discriminate) N) as TD. cbv zeta in TD. fold fq in TD.
  destruct (find_sub (Fuzzy_Proofs.folded lower cs d) fq) as [st|] eqn:FD; [exfalso; apply ED; apply find_sub_some in FD; destruct FD as (a & b & E & _); exists a, b; exact E|].
  destruct TD as [[TD _]|(L & R & TD)]; rewrite TD; [lra|]. assert (O : snd (match_candidate cs q d) <> []) by (intros X; rewrite X in R; cbn in R; lia).
  pose proof (starts_runs is_alnum (Fuzzy_Proofs.folded lower cs d) _ O) as SR. rewrite L in SR. pose proof (runs_le (snd (match_candidate cs q d))) as RL. rewrite L in RL.
  pose proof (merit_scattered _ _ _ R RL SR) as M. change (inject_Z 3) with 3%Q in M. lra.
Qed.

(** The score in terms of the reported places: their number, how many start a
    word, and in how many runs they come; times 2 for an exact match and 3/2 for
    an occurrence. *)
Theorem C75_score : forall cs q c s offs, match_candidate cs q c = (s, offs) -> (0 < s)%Q ->
  (s == merit (length offs) (starts is_alnum (folded cs c) offs) (runs offs) *
        (if text_eqb (folded cs c) (folded cs q) then 2 else if Nat.eqb (runs offs) 1 then 3 # 2 else 1))%Q.
Proof.
  intros cs q c s offs E S0. assert (Q : q <> []) by (intros ->; cbn in E; injection E as <- _; lra). assert (C : c <> []) by (intros ->; unfold Fuzzy_Model.match_candidate in E; destruct q; cbn in E; injection E as <- _; lra).
  destruct (list_eq_dec Z.eq_dec (folded cs q) []) as [N|N].
  { exfalso. unfold Fuzzy_Model.match_candidate in E. destruct q as [|q0 q']; [contradiction|]. destruct c as [|c0 c']; [contradiction|]. cbn [is_nil orb] in E. cbv zeta in E. rewrite N in E.
    assert (F : forall t, find_sub t [] = Some 0) by (intros []; reflexivity). rewrite F in E. cbn [length seq score] in E. injection E as <- _. destruct (text_eqb _ _); lra. }
  pose proof (match_tiers is_alnum lower cs q c Q C N) as T. cbv zeta in T. rewrite E in T. cbn [fst snd] in T. unfold Fuzzy_Proofs.folded in T.
  destruct (find_sub (folded cs c) (folded cs q)) as [st|] eqn:F.
  - destruct T as [-> T]. assert (L : 0 < length (folded cs q)) by (destruct (folded cs q); [contradiction|cbn; lia]). rewrite seq_length, runs_seq by auto. cbn [Nat.eqb]. rewrite T. unfold merit. cbv zeta. change (q_ 1) with 1%Q. pose proof (q_pos _ L) as P.
    change (inject_Z 2) with 2%Q. cbv beta in *. set (k := q_ (length (if cs then q else lower q))) in *. destruct (text_eqb _ _); field; lra.
  - destruct T as [[T _]|(L & R & T)]; [lra|]. rewrite T, L. destruct (text_eqb (folded cs c) (folded cs q)) eqn:X.
    + apply text_eqb_iff in X. exfalso. apply (find_sub_none _ _ F). exists [], []. rewrite app_nil_r. exact X.
    + destruct (Nat.eqb_spec (runs offs) 1); [lia|]. lra.
Qed.

(** More word starts and fewer runs are better. *)
Theorem C75_merit_monotone : forall n m m' g g', 0 < n -> m' <= m -> 1 <= g <= g' -> g' <= n ->
  (merit n m' g' <= merit n m g)%Q /\ (m' < m -> (merit n m' g < merit n m g)%Q) /\ (g < g' -> (merit n m g' < merit n m g)%Q).
Proof.
  intros n m m' g g' N M G G'. split; [apply merit_mono; auto|].
  pose proof (q_pos n N) as Qn. pose proof (q_le 1 g ltac:(lia)) as Q1. pose proof (q_le g' n ltac:(lia)) as Q2. pose proof (q_le g g' ltac:(lia)) as Qg. pose proof (q_le 0 m ltac:(lia)) as Q0. change (q_ 1) with 1%Q in Q1. change (q_ 0) with 0%Q in Q0.
  split; intros H; apply q_lt in H; unfold merit; cbv zeta.
  - set (a := (1 - (q_ g - 1) / q_ n)%Q). assert (P : (0 <= a * a)%Q). { destruct (Qlt_le_dec a 0); [setoid_replace (a * a)%Q with ((- a) * (- a))%Q by ring; apply Qmult_le_0_compat; lra|apply Qmult_le_0_compat; lra]. }
    apply Qmult_lt_r; lra.
  - rewrite !(Qmult_comm (q_ n + q_ m)). apply Qmult_lt_r; [lra|]. set (a := (1 - (q_ g - 1) / q_ n)%Q). set (b := (1 - (q_ g' - 1) / q_ n)%Q).
    assert (B : (0 <= b)%Q). { unfold b. assert ((q_ g' - 1) / q_ n <= 1)%Q; [|lra]. apply Qle_shift_div_r; auto. lra. }
    assert (AB : (b < a)%Q). { unfold a, b. assert ((q_ g - 1) / q_ n < (q_ g' - 1) / q_ n)%Q; [|lra]. apply Qlt_shift_div_l; auto. setoid_replace ((q_ g - 1) / q_ n * q_ n)%Q with (q_ g - 1)%Q by (field; lra). lra. }
    assert (b * b < a * a)%Q; [|lra]. apply Qle_lt_trans with (a * b)%Q; [apply Qmult_le_compat_r; lra|]. rewrite (Qmult_comm a b). apply Qmult_lt_r; lra.
Qed.

(** When the query does not occur as it is, no placement that keeps away from
    the end (place [i] before the last [i] characters) is better than the
    reported one. *)
Theorem C75_best_placement : forall cs q c offs, q <> [] -> c <> [] -> folded cs q <> [] -> ~ occurs_in (folded cs q) (folded cs c) ->
  witnesses (folded cs q) (folded cs c) offs -> (forall i p, nth_error offs i = Some p -> p + i < length (folded cs c)) ->
  (merit (length offs) (starts is_alnum (folded cs c) offs) (runs offs) <= fst (match_candidate cs q c))%Q.
Proof.
  intros cs q c offs Q C N O W R. destruct (witness_chain _ _ _ W) as [CH F].
  destruct (collect_complete is_alnum (folded cs c) (folded cs q) offs 0 0 None F CH ltac:(destruct offs; auto; lia) R) as (lp & L & I).
  assert (NE : offs <> []) by (intros ->; destruct W as [W _]; destruct (folded cs q); [contradiction|discriminate]).
  rewrite <- (score_merit is_alnum) by auto. unfold Fuzzy_Model.match_candidate. assert (E : is_nil q || is_nil c = false) by (destruct q, c; auto; contradiction). rewrite E. cbv zeta.
  destruct (find_sub (folded cs c) (folded cs q)) as [st|] eqn:FS; [exfalso; apply O; apply find_sub_some in FS; destruct FS as (a & b & X & _); exists a, b; exact X|].
  rewrite L. unfold best_of. apply best_of_max. exact I.
Qed.
(** An occurrence is reported where it comes first. *)
Theorem C75_first_occurrence : forall cs q c a b, q <> [] -> c <> [] -> folded cs q <> [] -> folded cs c = a ++ folded cs q ++ b ->
  exists p, p <= length a /\ snd (match_candidate cs q c) = seq p (length (folded cs q)) /\
  firstn (length (folded cs q)) (skipn p (folded cs c)) = folded cs q.
Proof.
  intros cs q c a b Q C N E. pose proof (match_tiers is_alnum lower cs q c Q C N) as T. cbv zeta in T. unfold Fuzzy_Proofs.folded in T.
  destruct (find_sub (folded cs c) (folded cs q)) as [p|] eqn:F; [|exfalso; apply (find_sub_none _ _ F); exists a, b; exact E]. exists p. destruct T as [T _]. split; [|split; [exact T|]].
  - rewrite E in F. clear - F. revert p F. induction a as [|x a IH]; intros p F; cbn [app] in F.
    + assert (S1 : starts_with (folded cs q ++ b) (folded cs q) = true) by (apply starts_with_spec; eauto). destruct (folded cs q ++ b); cbn [find_sub] in F; rewrite S1 in F; injection F as <-; cbn; lia.
    + cbn [find_sub] in F. destruct (starts_with _ _); [injection F as <-; lia|]. destruct (find_sub (a ++ folded cs q ++ b) (folded cs q)) as [k|] eqn:K; [|discriminate]. cbn in F. injection F as <-. specialize (IH k eq_refl). cbn [length]. lia.
  - apply find_sub_some in F. destruct F as (a' & b' & X & <-). rewrite X. rewrite skipn_app, skipn_all, Nat.sub_diag. cbn [skipn app]. rewrite firstn_app, firstn_all, Nat.sub_diag. cbn. apply app_nil_r.
Qed.
End Props.
Print Assumptions C75_exact_first.
Print Assumptions C75_substring_before_scattered.
Print Assumptions C75_score.
Print Assumptions C75_merit_monotone.
Print Assumptions C75_best_placement.
Print Assumptions C75_first_occurrence.

Definition letters : char -> bool := fun c => ((97 <=? c) && (c <=? 122))%Z.
(** A later occurrence at the start of a word would be better than the first
    one but is not used. *)
Theorem C75_best_occurrence_refuted : exists c q offs, witnesses q c offs /\ runs offs = 1 /\
  (fst (match_candidate (fun t => t) letters true q c) < merit (length offs) (starts letters c offs) (runs offs) * (3 # 2))%Q.
Proof. exists (str "foobar bar"), (str "bar"), [7; 8; 9]. split; [exact (seq_witness (str "foobar ") (str "bar") [])|]. split; [reflexivity|]. vm_compute. reflexivity. Qed.
Print Assumptions C75_best_occurrence_refuted.
(** Near the end of the candidate better placements are overlooked. *)
Theorem C75_end_overlooked_refuted : exists c q offs, witnesses q c offs /\ ~ occurs_in q c /\
  (0 < fst (match_candidate (fun t => t) letters true q c))%Q /\
  (fst (match_candidate (fun t => t) letters true q c) < merit (length offs) (starts letters c offs) (runs offs))%Q.
Proof.
  exists (str "a_b b"), (str "ab"), [0; 4]. split; [|split; [|split; vm_compute; reflexivity]].
  - split; [reflexivity|]. split.
    + intros [|[|[|i]]] [|[|[|j]]] p q H E1 E2; cbn in E1, E2; try discriminate; try lia; injection E1 as <-; injection E2 as <-; lia.
    + intros [|[|[|i]]] p E; cbn in E; try discriminate; injection E as <-; eexists; split; reflexivity.
  - apply find_sub_none. reflexivity.
Qed.
Print Assumptions C75_end_overlooked_refuted.
(** "ab" against "ab", "x ab", "a b c" and "q". *)
Example C75_ex : let m c := fst (match_candidate (fun t => t) letters true (str "ab") (str c)) in
  (m "ab"%string == 12)%Q /\ (m "x ab"%string == 9)%Q /\ (m "a b c"%string == 5)%Q /\ (m "q"%string == 0)%Q /\ occurs_in (str "ab") (str "x ab") /\ ~ occurs_in (str "ab") (str "a b c") /\ witnesses (str "ab") (str "a b c") [0; 2].
Proof.
  cbv zeta. split; [reflexivity|]. split; [reflexivity|]. split; [reflexivity|]. split; [reflexivity|]. split; [exists (str "x "), []; reflexivity|]. split; [apply find_sub_none; reflexivity|].
  split; [reflexivity|]. split.
  - intros [|[|[|i]]] [|[|[|j]]] p q H E1 E2; cbn in E1, E2; try discriminate; try lia; injection E1 as <-; injection E2 as <-; lia.
  - intros [|[|[|i]]] p E; cbn in E; try discriminate; injection E as <-; eexists; split; reflexivity.
Qed.
