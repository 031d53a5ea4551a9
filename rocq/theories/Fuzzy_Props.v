(** C15-C17: fuzzy matching and highlighting. *)
From Coq Require Import String ZArith QArith List Bool Arith Lia.
From Verif Require Import Text_Model Markup_Model Markup_Spec Markup_Props Fuzzy_Model Fuzzy_Spec Fuzzy_Proofs.
Import ListNotations.
Local Open Scope nat_scope.

Section Props.
Variable lower : text -> text.          (* str::to_lowercase *)
Variable is_alnum : char -> bool.       (* char::is_alphanumeric *)
Variable known_color : text -> bool.
Notation match_candidate := (match_candidate lower is_alnum).

(** Both strings as compared: unchanged, or lowercased. *)
Definition folded (case_sensitive : bool) (t : text) : text := if case_sensitive then t else lower t.

(** C15: a reported match is a real one: scores are never negative; with score
    zero no offsets are reported; with a positive score the offsets pick the query
    out of the candidate in order. *)
Theorem C15_match_is_witnessed : forall cs q c s offs, match_candidate cs q c = (s, offs) ->
  (s == 0 /\ offs = [])%Q \/
  ((0 < s)%Q /\ witnesses (folded cs q) (folded cs c) offs /\ offs <> []).
Proof. exact (match_sound lower is_alnum). Qed.

(** C16: a query that occurs contiguously always matches. *)
Theorem C16_substring_matches : forall cs q c, q <> [] -> c <> [] -> folded cs q <> [] ->
  occurs_in (folded cs q) (folded cs c) -> (0 < fst (match_candidate cs q c))%Q.
Proof. exact (match_substring lower is_alnum). Qed.

(** C16: so does one that is a subsequence of the candidate without its last
    [n - 1] characters, [n] the length of the query. *)
Theorem C16_early_subsequence_matches : forall cs q c, q <> [] -> c <> [] -> folded cs q <> [] ->
  subseq (folded cs q) (firstn (length (folded cs c) - (length (folded cs q) - 1)) (folded cs c)) ->
  length (folded cs q) <= length (folded cs c) ->
  (0 < fst (match_candidate cs q c))%Q.
Proof. exact (match_subseq lower is_alnum). Qed.

(** C17: highlighting then parsing gives back the candidate, with the match style
    exactly on the matched characters that are not whitespace. *)
Theorem C17_highlight_roundtrip : forall cs q ms st cand s offs,
  Forall plain_char ms -> nth_error ms 0 <> Some ch_slash ->
  tag_parse lower known_color ms = Ok (TagStyle st) -> style_is_empty st = false ->
  match_candidate cs q cand = (s, offs) ->
  exists m, parse lower known_color (highlight lower is_alnum cs q ms cand) = Ok m /\ pm_text m = cand /\
    forall a c b d, cand = a ++ c :: b -> d < utf8_len c ->
      (In (length a) offs /\ is_ws c = false -> style_at m (blen a + d) = st) /\
      (~ (In (length a) offs /\ is_ws c = false) -> style_at m (blen a + d) = style_default).
Proof. intros. eapply highlight_roundtrip; eauto. Qed.
End Props.

(** C16: being a subsequence is not enough: "ac" is not found in "a_c", because the
    scan for the second letter stops one character short of the end. *)
Theorem C16_subsequence_missed_refuted : forall lower is_alnum,
  subseq (str "ac") (str "a_c") /\ (fst (match_candidate lower is_alnum true (str "ac") (str "a_c")) == 0)%Q.
Proof.
  intros lower is_alnum. split; [|reflexivity].
  cbn. apply sub_take, sub_skip, sub_take, sub_nil.
Qed.

(** C17: ignoring case, offsets count characters of the lowercased candidate.
    When lowercasing changes the number of characters - U+0130 becomes two - the
    wrong character is highlighted: query "a", candidate "İab" highlights
    'b', which is not part of the match. *)
Definition lower_0130 (t : text) : text := flat_map (fun c => if (c =? 304)%Z then [105; 775]%Z else [c]) t.
Theorem C17_shifted_highlight_refuted : forall is_alnum, exists s,
  match_candidate lower_0130 is_alnum false (str "a") (304%Z :: str "ab") = (s, [2]) /\ (0 < s)%Q /\
  nth_error (304%Z :: str "ab") 2 <> nth_error (str "a") 0.
Proof.
  intros is_alnum. eexists. split; [reflexivity|]. split; [|discriminate].
  apply Qmult_lt_0_compat; [apply score_pos; discriminate|reflexivity].
Qed.

(** Witnesses: "fb" picks the f and the b of "foo_bar": not contiguous. *)
Definition w_alnum (c : char) : bool := ((97 <=? c) && (c <=? 122))%Z.
Definition w_id (t : text) : text := t.

Example C15_witness : exists s, match_candidate w_id w_alnum true (str "fb") (str "foo_bar") = (s, [0; 4]) /\ (0 < s)%Q.
Proof. eexists. split; reflexivity. Qed.
Example C16_witness : occurs_in (str "o_b") (str "foo_bar") /\
  subseq (str "fb") (firstn (7 - 1) (str "foo_bar")).
Proof.
  split; [exists (str "fo"), (str "ar"); reflexivity|].
  cbn. apply sub_take, sub_skip, sub_skip, sub_skip, sub_take, sub_nil.
Qed.
Example C17_witness : 
  tag_parse w_id w_known (str "red") = Ok (TagStyle w_red) /\
  highlight w_id w_alnum true (str "fb") (str "red") (str "f[b]") = str "[red]f[/]\[[red]b[/]\]".
Proof. split; reflexivity. Qed.

Print Assumptions C15_match_is_witnessed.
Print Assumptions C16_substring_matches.
Print Assumptions C16_early_subsequence_matches.
Print Assumptions C16_subsequence_missed_refuted.
Print Assumptions C17_highlight_roundtrip.
Print Assumptions C17_shifted_highlight_refuted.
