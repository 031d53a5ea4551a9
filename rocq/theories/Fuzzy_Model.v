(** Model of crates/textual/src/fuzzy.rs.

    [to_lowercase] is a parameter [lower], [char::is_alphanumeric] a parameter
    [is_alnum].  Scores are f32 in the code and exact rationals here. *)
From Coq Require Import ZArith QArith List Bool.
From Verif Require Import Text_Model Markup_Model.
Import ListNotations.
Open Scope Z_scope.

Section Fuzzy.
Variable lower : text -> text.
Variable is_alnum : char -> bool.

(** fuzzy.rs:196-198 [is_word_char] *)
Definition is_word_char (c : char) : bool := is_alnum c || (c =? 95).

(** fuzzy.rs:200-211 [first_letter_positions] (the set as a list) *)
Fixpoint first_letters (i : nat) (in_word : bool) (t : text) : list nat :=
  match t with
  | [] => []
  | c :: r =>
      let word := is_word_char c in
      (if word && negb in_word then [i] else []) ++ first_letters (S i) word r
  end.

Definition mem_nat (n : nat) (l : list nat) : bool := existsb (Nat.eqb n) l.

(** fuzzy.rs:126-134: number of runs of consecutive positions after [last] *)
Fixpoint count_breaks (last : nat) (l : list nat) : nat :=
  match l with
  | [] => 0
  | x :: r => ((if Nat.eqb x (last + 1) then 0 else 1) + count_breaks x r)%nat
  end.

(** fuzzy.rs:110-139 [score] *)
Definition score (candidate : text) (positions : list nat) : Q :=
  match positions with
  | [] => 0
  | p0 :: rest =>
      let n := inject_Z (Z.of_nat (length positions)) in
      let firsts := first_letters 0 false candidate in
      let m := inject_Z (Z.of_nat (length (filter (fun p => mem_nat p firsts) positions))) in
      let groups := inject_Z (Z.of_nat (1 + count_breaks p0 rest)) in
      let norm := ((n - (groups - 1)) / n)%Q in
      ((n + m) * (1 + norm * norm))%Q
  end.

(** [str::find] of a substring, as a char index (fuzzy.rs:35-36 with
    [byte_to_char_index]) *)
Fixpoint find_sub (t p : text) : option nat :=
  if starts_with t p then Some 0%nat
  else match t with
       | [] => None
       | _ :: r => option_map S (find_sub r p)
       end.

(** fuzzy.rs:55-63: the scan for one letter; [n] is candidate_len - index *)
Fixpoint scan_letter (cand : text) (letter : char) (last_index index n : nat) : list nat :=
  match n with
  | O => []
  | S k =>
      let here := match nth_error cand index with
                  | Some c => if c =? letter then [index] else []
                  | None => []
                  end in
      here ++ (if (last_index <=? S index)%nat then [] else scan_letter cand letter last_index (S index) k)
  end.

(** fuzzy.rs:51-69: positions for every query letter; [None]: some letter is missing *)
Fixpoint letter_positions (cand : text) (offset position : nat) (query : text) : option (list (list nat)) :=
  match query with
  | [] => Some []
  | c :: r =>
      let len := length cand in
      match scan_letter cand c (len - offset) position (len - position) with
      | [] => None
      | p :: ps => option_map (cons (p :: ps)) (letter_positions cand (S offset) (S p) r)
      end
  end.

(** fuzzy.rs:74-94 [collect_offsets]; [last] is the last chosen offset.  The
    recursion of the code on the index is recursion on the list here. *)
Fixpoint collect_offsets (last : option nat) (all : list (list nat)) : list (list nat) :=
  match all with
  | [] => [[]]
  | ps :: rest =>
      flat_map (fun p =>
        if (match last with None => true | Some l => (l <? p)%nat end)
        then map (cons p) (collect_offsets (Some p) rest)
        else []) ps
  end.

Definition Qltb (a b : Q) : bool := negb (Qle_bool b a).

(** fuzzy.rs:104-112: the first offsets with the greatest score *)
Definition best_of (cand : text) (l : list (list nat)) : Q * list nat :=
  fold_left (fun best offs =>
      let s := score cand offs in if Qltb (fst best) s then (s, offs) else best) l (0%Q, []).

(** fuzzy.rs:22-115 [match_candidate] *)
Definition match_candidate (case_sensitive : bool) (query candidate : text) : Q * list nat :=
  if is_nil query || is_nil candidate then (0%Q, [])
  else
    let q := if case_sensitive then query else lower query in
    let c := if case_sensitive then candidate else lower candidate in
    match find_sub c q with
    | Some start =>
        let offs := seq start (length q) in
        ((score c offs * (if text_eqb c q then 2 else 3 # 2))%Q, offs)
    | None =>
        match letter_positions c 0 0 q with
        | None => (0%Q, [])
        | Some lp => best_of c (collect_offsets None lp)
        end
    end.

(** fuzzy.rs:180-192: the loop of [highlight] from char index [i] *)
Fixpoint highlight_loop (match_style : text) (offs : list nat) (i : nat) (t : text) : text :=
  match t with
  | [] => []
  | c :: r =>
      (if mem_nat i offs && negb (is_ws c) && negb (is_nil match_style)
       then ch_open :: match_style ++ [ch_close] ++ escape_char c ++ [ch_open; ch_slash; ch_close]
       else escape_char c) ++ highlight_loop match_style offs (S i) r
  end.

(** fuzzy.rs:172-193 [highlight] *)
Definition highlight (case_sensitive : bool) (query match_style candidate : text) : text :=
  let '(s, offs) := match_candidate case_sensitive query candidate in
  if Qle_bool s 0 then escape_markup candidate
  else highlight_loop match_style offs 0 candidate.

End Fuzzy.
