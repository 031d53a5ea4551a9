(** C95: which commands the palette offers and what is written on their lines. *)
From Coq Require Import String ZArith QArith List Bool Arith Lia Permutation Sorting.Sorted.
From Verif Require Import Text_Model Markup_Model Markup_Spec Markup_Props Fuzzy_Model Fuzzy_Spec Fuzzy_Proofs Fuzzy_Props Command_Model Command_Spec Command_Proofs.
Import ListNotations.
Notation length := List.length.
Open Scope nat_scope.
Open Scope list_scope.

Section Props.
Variable lower : text -> text.          (* str::to_lowercase *)
Variable is_alnum : char -> bool.       (* char::is_alphanumeric *)
Variable known_color : text -> bool.
Hypothesis lower_letters : forall t, Forall (fun c => (97 <= c <= 122)%Z) t -> lower t = t.
Notation parse := (parse lower known_color).
Notation lines := (lines lower is_alnum).
Notation score_of := (fun q t => fst (match_candidate lower is_alnum false q t)).

Lemma letters_str : forall t, forallb (fun c : Z => (97 <=? c)%Z && (c <=? 122)%Z) t = true -> lower t = t.
Proof.
  intros t H. apply lower_letters. rewrite forallb_forall in H. apply Forall_forall. intros c I. specialize (H c I).
  apply andb_true_iff in H as [A B]. apply Z.leb_le in A, B. auto.
Qed.
Lemma lb : lower (str "bold") = str "bold". Proof. apply letters_str. reflexivity. Qed.
Lemma lu : lower (str "underline") = str "underline". Proof. apply letters_str. reflexivity. Qed.
Lemma ld : lower (str "dim") = str "dim". Proof. apply letters_str. reflexivity. Qed.

(** C95: a query is answered with lines for some of the commands, in their order.
    Each runs its command; it shows the title, with letters that spell the query
    marked, and the help below it.  A command is left out only if its title does
    not contain the query: one that contains it in one piece, or scattered over all
    but its last letters, is never left out.  Letter case and blanks around the
    query do not matter. *)
Theorem C95_search : forall p typed, let q := lower (trim typed) in trim typed <> [] -> q <> [] ->
  exists picked : command -> bool,
    Forall2 (fun c l => runs c l /\ (0 < l_score l)%Q /\ l_score l = score_of (trim typed) (c_title c) /\
        exists offs, witnesses q (lower (c_title c)) offs /\ displays parse (l_display l) c (fun i => In i offs))
      (filter picked (p_commands p)) (lines p typed) /\
    forall c, In c (p_commands p) -> c_title c <> [] ->
      (occurs_in q (lower (c_title c)) -> picked c = true) /\
      (length q <= length (lower (c_title c)) ->
       subseq q (firstn (length (lower (c_title c)) - (length q - 1)) (lower (c_title c))) -> picked c = true).
Proof.
  intros p typed q Ht Hq. exists (fun c => Qltb 0 (score_of (trim typed) (c_title c))). split.
  - unfold Command_Model.lines, ask_provider. replace (is_nil (trim typed)) with false by (destruct (trim typed); [contradiction|reflexivity]).
    unfold search. cbn [p_commands p_style set_match_style].
    induction (p_commands p) as [|c l IH]; [constructor|]. cbn [flat_map filter].
    destruct (Qltb 0 (score_of (trim typed) (c_title c))) eqn:B; [|exact IH].
    cbn [app map]. constructor; [|exact IH]. cbn [line_of l_text l_action l_help l_disabled l_score l_display f_text f_action f_help f_score f_display].
    apply Qltb_lt in B. split; [repeat split|]. split; [exact B|]. split; [reflexivity|].
    destruct (match_candidate lower is_alnum false (trim typed) (c_title c)) as [s offs] eqn:M. cbn [fst] in B.
    destruct (C15_match_is_witnessed lower is_alnum false _ _ _ _ M) as [[Z _]|(P & W & _)]; [rewrite Z in B; discriminate|].
    exists offs. split; [exact W|]. apply (found_shown lower is_alnum known_color lb lu ld _ _ _ _ M P).
  - intros c _ N. split.
    + intros O. apply Qltb_lt. apply (C16_substring_matches lower is_alnum false); assumption.
    + intros L S. apply Qltb_lt. apply (C16_early_subsequence_matches lower is_alnum false); assumption.
Qed.

(** C95: with nothing typed every discoverable command is offered, unmarked: a
    plain list keeps its order, system commands come in alphabetical order and
    those with equal titles in their own order. *)
Theorem C95_discover : forall p typed, trim typed = [] ->
  exists offered,
    Forall2 (fun c l => runs c l /\ (l_score l == 0)%Q /\ displays parse (l_display l) c (fun _ => False)) offered (lines p typed) /\
    match p_kind p with
    | Simple => offered = filter c_discover (p_commands p)
    | System => Permutation offered (filter c_discover (p_commands p)) /\
        StronglySorted (fun a b => alphabetical (c_title a) (c_title b)) offered /\
        forall t, titled t offered = titled t (filter c_discover (p_commands p))
    end.
Proof.
  intros p typed E.
  exists (match p_kind p with Simple => filter c_discover (p_commands p) | System => sort_commands (filter c_discover (p_commands p)) end). split.
  - unfold Command_Model.lines, ask_provider. rewrite E. cbn [is_nil]. unfold discover. cbn [p_kind p_commands set_match_style].
    induction (match p_kind p with Simple => filter c_discover (p_commands p) | System => sort_commands (filter c_discover (p_commands p)) end) as [|c l IH]; [constructor|].
    cbn [map]. constructor; [|exact IH]. cbn [line_of offer l_text l_action l_help l_disabled l_score l_display o_text o_action o_help o_display].
    split; [repeat split|]. split; [reflexivity|]. apply (offer_shown lower is_alnum known_color ld).
  - destruct (p_kind p); [reflexivity|]. split; [apply sort_perm|]. split; [apply sorted_alphabetical, sort_sorted|]. intros t. apply sort_titled.
Qed.

(** C95: so commands given as (title, action, help) are all offered, in that order. *)
Theorem C95_given_commands : forall given typed, trim typed = [] ->
  Forall2 (fun g l => l_text l = fst (fst g) /\ l_action l = Some (snd (fst g)) /\ l_help l = snd g /\ l_disabled l = false)
    given (lines (provider_new Simple (map of_triple given)) typed).
Proof.
  intros given typed E. destruct (C95_discover (provider_new Simple (map of_triple given)) typed E) as (o & F & O).
  cbn [provider_new p_kind p_commands] in O. subst o. revert F. generalize (lines (provider_new Simple (map of_triple given)) typed).
  induction given as [|[[t a] h] g IH]; intros l F; cbn in F |- *.
  - inversion F. constructor.
  - inversion F as [|c l0 cs ls (R & _) F']; subst. constructor; [|apply IH, F']. exact R.
Qed.

(** A command has the title and the action it was made with, and the help it was
    given last.  It is offered without a query unless it was last said not to be. *)
Theorem C95_settings : forall title action l, let c := fold_left set l (command_new title action) in
  c_title c = title /\ c_action c = action /\ c_help c = last_help None l /\ c_discover c = last_discoverable true l.
Proof.
  intros title action l.
  assert (G : forall c, let c' := fold_left set l c in
    c_title c' = c_title c /\ c_action c' = c_action c /\ c_help c' = last_help (c_help c) l /\ c_discover c' = last_discoverable (c_discover c) l).
  { induction l as [|[h|d] l IH]; intros c; cbn [fold_left last_help last_discoverable]; [repeat split|apply (IH (set c (Help h)))|apply (IH (set c (Discoverable d)))]. }
  apply (G (command_new title action)).
Qed.
Example C95_settings_example : let c := fold_left set [Discoverable false; Help (str "Leave"); Help (str "Stop")] (command_new (str "Quit") (str "app.quit")) in
  c_help c = Some (str "Stop") /\ c_discover c = false.
Proof. split; reflexivity. Qed.

(** Without a style for it the help is written as it is. *)
Theorem C95_unstyled_help : forall title help, parse (build_prompt (escape_markup title) (Some help) []) = Ok (Parsed (title ++ 10%Z :: help) []).
Proof.
  intros title help. cbn [build_prompt is_nil].
  replace (escape_markup title ++ 10%Z :: escape_markup help) with (escape_markup (title ++ 10%Z :: help)); [apply C18_escape_roundtrip|].
  unfold escape_markup. rewrite flat_map_app. reflexivity.
Qed.

(** C95: when there is nothing to offer the line says so: dim, and it cannot be chosen. *)
Theorem C95_no_matches : let l := no_matches_line palette_help_style in
  l_action l = None /\ l_disabled l = true /\ l_text l = str "No matches found" /\
  exists m, parse (l_display l) = Ok m /\ pm_text m = str "No matches found" /\
    forall off, off < 16 -> style_at m off = dimmed.
Proof.
  cbn zeta. repeat split. exists (Parsed (str "No matches found") [Span 0 16 dimmed []]). split; [|split; [reflexivity|]].
  - change (l_display (no_matches_line palette_help_style)) with (tagged (str "dim") (escape_markup (str "No matches found"))).
    apply (C18_escape_inside_tag lower known_color); try reflexivity; try discriminate.
    + apply plain_str. reflexivity.
    + exact (help_style_ok lower known_color ld).
  - intros off L. do 16 (destruct off as [|off]; [reflexivity|]). lia.
Qed.
End Props.

(** C95: "a title that contains the letters of the query in order is offered" is
    false: "Quit" is not offered for "qt". *)
Theorem C95_scattered_to_the_end_refuted : forall is_alnum (lower : text -> text),
  lower (str "Quit") = str "quit" -> lower (str "qt") = str "qt" ->
  subseq (str "qt") (lower (str "Quit")) /\
  Command_Model.lines lower is_alnum (provider_new Simple [command_new (str "Quit") (str "app.quit")]) (str "qt") = [].
Proof.
  intros is_alnum lower A B. split; [rewrite A; apply sub_take, sub_skip, sub_skip, sub_take, sub_nil|].
  assert (M : match_candidate lower is_alnum false (str "qt") (str "Quit") = (0%Q, [])).
  { unfold match_candidate. change (is_nil (str "qt") || is_nil (str "Quit")) with false. cbv beta iota zeta. rewrite A, B. reflexivity. }
  unfold Command_Model.lines, ask_provider. change (trim (str "qt")) with (str "qt"). change (is_nil (str "qt")) with false. cbv beta iota zeta.
  unfold search. cbn [flat_map p_commands set_match_style provider_new command_new c_title]. rewrite M. reflexivity.
Qed.

(** Witness: two of three system commands answer " qu " and the help is below the title. *)
Definition w_lower (t : text) : text := map (fun c => if ((65 <=? c) && (c <=? 90))%Z then (c + 32)%Z else c) t.
Definition w_provider : provider := provider_new System
  [with_help (str "Leave [now]") (command_new (str "Quit") (str "app.quit")); command_new (str "Bell") (str "app.bell"); discoverable false (command_new (str "A quiz") (str "quiz"))].
Example C95_example :
  (forall t, Forall (fun c => (97 <= c <= 122)%Z) t -> w_lower t = t) /\
  map (fun l => (l_display l, l_action l)) (Command_Model.lines w_lower w_alnum w_provider (str " qu ")) =
    [(str "[bold underline]Q[/][bold underline]u[/]it" ++ 10%Z :: str "[dim]Leave \[now\][/]", Some (str "app.quit"));
     (str "A [bold underline]q[/][bold underline]u[/]iz", Some (str "quiz"))] /\
  map l_text (Command_Model.lines w_lower w_alnum w_provider (str " ")) = [str "Bell"; str "Quit"].
Proof.
  split; [|split; reflexivity]. intros t H. induction H as [|c t L _ IH]; [reflexivity|]. unfold w_lower in *. cbn [map]. rewrite IH.
  replace (c <=? 90)%Z with false by (symmetry; apply Z.leb_gt; lia). rewrite andb_false_r. reflexivity.
Qed.

Print Assumptions C95_search.
Print Assumptions C95_discover.
Print Assumptions C95_given_commands.
Print Assumptions C95_settings.
Print Assumptions C95_unstyled_help.
Print Assumptions C95_no_matches.
Print Assumptions C95_scattered_to_the_end_refuted.
