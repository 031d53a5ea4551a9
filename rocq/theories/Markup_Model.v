(** Model of crates/rich: the lexer, the tag parser, the markup parser, styles,
    colours (parsing only) and the segment iterator; and of the escaping
    functions used throughout crates/textual.

    [to_lowercase] is a parameter [lower] (Unicode tables are not modelled).
    HashMaps of metadata are association lists, newest binding first. *)
From Coq Require Import ZArith List Bool String.
From Verif Require Import Text_Model.
Import ListNotations.
Open Scope Z_scope.

Definition ch_open : char := 91.   (* '[' *)
Definition ch_close : char := 93.  (* ']' *)
Definition ch_esc : char := 92.    (* '\' *)
Definition ch_slash : char := 47.  (* '/' *)

(** *** Lexer *)

(** lexer.rs:9-18 [enum Token] *)
Inductive token :=
| TText (t : text) | TOpen (t : text) | TClose (name : option text) | TEsc (c : char).

(** lexer.rs:62-80 [consume_text] *)
Fixpoint text_run (t : text) : text * text :=
  match t with
  | [] => ([], [])
  | c :: r =>
      if (c =? ch_open) || (c =? ch_esc) then ([], t)
      else let '(a, b) := text_run r in (c :: a, b)
  end.

(** lexer.rs:92-117, the bracket-matching loop of [consume_tag]; the input starts
    after the opening bracket; returns the content and what follows the closing
    bracket ([None]: UnclosedTag) *)
Fixpoint tag_scan (depth : nat) (t : text) {struct t} : option (text * text) :=
  match t with
  | [] => None
  | c :: r =>
      let cons_to := option_map (fun p : text * text => (c :: fst p, snd p)) in
      if c =? ch_open then cons_to (tag_scan (S depth) r)
      else if c =? ch_close then
        match depth with
        | S (S d) => cons_to (tag_scan (S d) r)
        | _ => Some ([], r)
        end
      else if c =? ch_esc then
        match r with
        | [] => None
        | c2 :: r2 => option_map (fun p : text * text => (c :: c2 :: fst p, snd p)) (tag_scan depth r2)
        end
      else cons_to (tag_scan depth r)
  end.

(** lexer.rs:122-135: what kind of tag the content is ([None]: EmptyTag) *)
Definition tag_token (content : text) : option token :=
  match content with
  | [] => None
  | c :: rest =>
      if c =? ch_slash then
        match trim rest with
        | [] => Some (TClose None)
        | name => Some (TClose (Some name))
        end
      else Some (TOpen content)
  end.

(** lexer.rs:83-136 [consume_tag] after the opening bracket *)
Definition consume_tag (r : text) : option (token * text) :=
  match tag_scan 1 r with
  | None => None
  | Some (content, rest) => option_map (fun k => (k, rest)) (tag_token content)
  end.

(** lexer.rs:139-159 [consume_escape] after the backslash *)
Definition consume_escape (r : text) : option (token * text) :=
  match r with
  | c :: q => if (c =? ch_open) || (c =? ch_close) || (c =? ch_esc) then Some (TEsc c, q) else None
  | [] => None
  end.

(** lexer.rs:162-176 [Iterator::next]: one token ([None]: an error) *)
Definition lex_one (t : text) : option (token * text) :=
  match t with
  | [] => None
  | c :: r =>
      if c =? ch_open then consume_tag r
      else if c =? ch_esc then consume_escape r
      else let '(a, b) := text_run t in Some (TText a, b)
  end.

(** collecting the iterator (parser/markup.rs:29-30); [fuel] bounds the number of
    tokens, [lex] supplies enough *)
Fixpoint lex_fuel (fuel : nat) (t : text) : res (list token) :=
  match t with
  | [] => Ok []
  | _ =>
      match fuel with
      | O => Err
      | S n =>
          match lex_one t with
          | None => Err
          | Some (k, r) => bind (lex_fuel n r) (fun ks => Ok (k :: ks))
          end
      end
  end.
Definition lex (t : text) : res (list token) := lex_fuel (List.length t) t.

Section Markup.
Variable lower : text -> text.   (* str::to_lowercase *)

(** *** Colours: rich/color.rs *)

(** color.rs:9-14 [enum Color] *)
Inductive color := Named (n : text) | Rgb (r g b : Z).

(** color.rs:77-87 [parse_hex_digit] *)
Definition hex_digit (c : char) : res Z :=
  if (48 <=? c) && (c <=? 57) then Ok (c - 48)
  else if (97 <=? c) && (c <=? 102) then Ok (c - 97 + 10)
  else if (65 <=? c) && (c <=? 70) then Ok (c - 65 + 10)
  else Err.

(** [hex.chars().nth(i).unwrap()] *)
Definition nth_char (t : text) (i : nat) : res char :=
  match nth_error t i with Some c => Ok c | None => Panic end.

(** color.rs:89-93 [parse_hex_pair] *)
Definition hex_pair (c1 c2 : char) : res Z :=
  bind (hex_digit c1) (fun h => bind (hex_digit c2) (fun l => Ok (h * 16 + l))).

(** the arguments of a pair are both evaluated before the pair is parsed *)
Definition hex_pair_at (t : text) (i : nat) : res Z :=
  bind (nth_char t i) (fun a => bind (nth_char t (S i)) (fun b => hex_pair a b)).

(** color.rs:55-75 [parse_hex]; the length tested is in bytes *)
Definition parse_hex (hex : text) : res color :=
  match blen hex with
  | 3%nat =>
      bind (bind (nth_char hex 0) hex_digit) (fun r =>
      bind (bind (nth_char hex 1) hex_digit) (fun g =>
      bind (bind (nth_char hex 2) hex_digit) (fun b => Ok (Rgb (r * 17) (g * 17) (b * 17)))))
  | 6%nat =>
      bind (hex_pair_at hex 0) (fun r =>
      bind (hex_pair_at hex 2) (fun g =>
      bind (hex_pair_at hex 4) (fun b => Ok (Rgb r g b))))
  | _ => Err
  end.

Definition u8 (t : text) : res Z :=
  match parse_unsigned 255 t with Some n => Ok n | None => Err end.

(** color.rs:96-116 [parse_rgb_func] *)
Definition parse_rgb_func (t : text) : res color :=
  match map trim (split_char 44 t) with
  | [a; b; c] => bind (u8 a) (fun r => bind (u8 b) (fun g => bind (u8 c) (fun b' => Ok (Rgb r g b'))))
  | _ => Err
  end.

(** color.rs:131-289 [is_known_color]: the table of names, as a parameter *)
Variable known_color : text -> bool.

(** color.rs:119-128 [parse_named] *)
Definition parse_named (t : text) : res color :=
  if known_color (lower t) then Ok (Named (lower t)) else Err.

(** color.rs:33-52 [Color::parse]; [&input[4..len-1]] is the text after "rgb("
    without its last char *)
Definition color_parse (input : text) : res color :=
  let t := trim input in
  match t with
  | [] => Err
  | c :: r =>
      if c =? 35 then parse_hex r
      else if starts_with t (str "rgb(") && ends_with t (str ")") then
        parse_rgb_func (removelast (skipn 4 t))
      else parse_named t
  end.

(** *** Styles: rich/style.rs *)

(** style.rs:10-25 [struct TextStyle] *)
Record text_style := TextStyle {
  ts_bold : bool; ts_dim : bool; ts_italic : bool; ts_underline : bool;
  ts_strike : bool; ts_reverse : bool; ts_blink : bool }.
Definition ts_default : text_style := TextStyle false false false false false false false.

(** style.rs:29-37 *)
Definition ts_is_empty (s : text_style) : bool :=
  negb (ts_bold s) && negb (ts_dim s) && negb (ts_italic s) && negb (ts_underline s)
  && negb (ts_strike s) && negb (ts_reverse s) && negb (ts_blink s).

(** style.rs:40-50 *)
Definition ts_apply (a b : text_style) : text_style :=
  TextStyle (ts_bold a || ts_bold b) (ts_dim a || ts_dim b) (ts_italic a || ts_italic b)
    (ts_underline a || ts_underline b) (ts_strike a || ts_strike b)
    (ts_reverse a || ts_reverse b) (ts_blink a || ts_blink b).

(** style.rs:54-62 [struct Style] *)
Record style := Style { s_fg : option color; s_bg : option color; s_text : text_style }.
Definition style_default : style := Style None None ts_default.

Definition is_none {A} (o : option A) : bool := match o with None => true | Some _ => false end.

(** style.rs:71-73 [is_empty] *)
Definition style_is_empty (s : style) : bool :=
  is_none (s_fg s) && is_none (s_bg s) && ts_is_empty (s_text s).

Definition or_else {A} (a b : option A) : option A := match a with Some _ => a | None => b end.

(** style.rs:79-85 [apply]: [b] on top of [a] *)
Definition style_apply (a b : style) : style :=
  Style (or_else (s_fg b) (s_fg a)) (or_else (s_bg b) (s_bg a)) (ts_apply (s_text a) (s_text b)).

Definition mem_text (t : text) (l : list text) : bool := existsb (text_eqb t) l.

(** style.rs:153-172 [parse_modifier] *)
Definition parse_modifier (w : text) : option text_style :=
  if mem_text w [str "bold"; str "b"] then Some (TextStyle true false false false false false false)
  else if mem_text w [str "dim"; str "d"] then Some (TextStyle false true false false false false false)
  else if mem_text w [str "italic"; str "i"] then Some (TextStyle false false true false false false false)
  else if mem_text w [str "underline"; str "u"] then Some (TextStyle false false false true false false false)
  else if mem_text w [str "strike"; str "s"; str "strikethrough"] then Some (TextStyle false false false false true false false)
  else if mem_text w [str "reverse"; str "r"] then Some (TextStyle false false false false false true false)
  else if mem_text w [str "blink"] then Some (TextStyle false false false false false false true)
  else None.

(** style.rs:115-148, the word loop of [Style::parse] *)
Fixpoint style_words (s : style) (ws : list text) : res style :=
  match ws with
  | [] => Ok s
  | w :: r =>
      let wl := lower w in
      if text_eqb wl (str "on") then
        match r with
        | cw :: r2 => bind (color_parse cw) (fun c => style_words (Style (s_fg s) (Some c) (s_text s)) r2)
        | [] => Err
        end
      else match parse_modifier wl with
      | Some m => style_words (Style (s_fg s) (s_bg s) (ts_apply (s_text s) m)) r
      | None =>
          match color_parse wl with
          | Ok c => style_words (Style (Some c) (s_bg s) (s_text s)) r
          | Panic => Panic
          | Err =>
              match color_parse w with
              | Ok c => style_words (Style (Some c) (s_bg s) (s_text s)) r
              | Panic => Panic
              | Err => Err
              end
          end
      end
  end.

(** style.rs:107-151 [Style::parse] *)
Definition style_parse (input : text) : res style :=
  match trim input with
  | [] => Err
  | t => style_words style_default (split_ws t)
  end.

(** *** Tags: parser/tag.rs *)

(** tag.rs:11-21 [enum TagContent] *)
Inductive tag_content :=
| TagStyle (s : style) | TagMeta (k v : text) | TagCloseAll | TagCloseStyle (n : text).

(** tag.rs:72-95 [parse_link] *)
Definition parse_link (content : text) : tag_content :=
  TagMeta (str "@link")
    (trim_end_char 34 (trim_end_char 39 (trim_start_char 34 (trim_start_char 39 (trim (skipn 5 content)))))).

(** tag.rs:98-109 [parse_meta] *)
Definition parse_meta (content : text) : tag_content :=
  match split_at_char 61 content with
  | Some (k, v) => TagMeta (64 :: trim k) (trim v)
  | None => TagMeta (64 :: trim content) []
  end.

(** tag.rs:39-70 [TagContent::parse] *)
Definition tag_parse (content : text) : res tag_content :=
  let t := trim content in
  match t with
  | [] => Err
  | c :: r =>
      if c =? ch_slash then
        match trim r with [] => Ok TagCloseAll | n => Ok (TagCloseStyle n) end
      else if c =? 64 then Ok (parse_meta r)
      else if starts_with t (str "link=") || starts_with t (str "link ") then Ok (parse_link t)
      else bind (style_parse t) (fun s => Ok (TagStyle s))
  end.

(** *** Parser: parser/markup.rs *)

(** span.rs:14-24 [struct Span] *)
Record span := Span { sp_start : nat; sp_end : nat; sp_style : style; sp_meta : list (text * text) }.

(** markup.rs:56-65 [struct StackEntry] *)
Record entry := Entry { e_style : style; e_meta : list (text * text); e_start : nat; e_tag : text }.

(** markup.rs:46-53 [struct Parser]; the stack has its top at the head, the
    spans are in the order they were pushed *)
Record parser := Parser { ps_stack : list entry; ps_out : text; ps_spans : list span }.
Definition parser_new : parser := Parser [] [] [].

(** markup.rs:184-192 [create_span_from_entry] *)
Definition create_span (p : parser) (e : entry) : parser :=
  let end_pos := blen (ps_out p) in
  if (e_start e <? end_pos)%nat && (negb (style_is_empty (e_style e)) || negb (is_nil (e_meta e))) then
    Parser (ps_stack p) (ps_out p) (ps_spans p ++ [Span (e_start e) end_pos (e_style e) (e_meta e)])
  else p.

Definition set_stack (p : parser) (l : list entry) : parser := Parser l (ps_out p) (ps_spans p).

(** markup.rs:142-146 [pop_style] *)
Definition pop_style (p : parser) : parser :=
  match ps_stack p with
  | [] => p
  | e :: r => create_span (set_stack p r) e
  end.

(** markup.rs:171-181 [entry_matches] *)
Definition entry_matches (e : entry) (name : text) : bool :=
  let c := lower (e_tag e) in
  let n := lower name in
  text_eqb c n || starts_with c (n ++ [32]) || contains_str c (32 :: n).

(** markup.rs:153-160: pop entries up to and including the first match *)
Fixpoint pop_until (name : text) (st : list entry) : list entry * list entry :=
  match st with
  | [] => ([], [])
  | e :: r =>
      if entry_matches e name then ([e], r)
      else let '(closed, rest) := pop_until name r in (e :: closed, rest)
  end.

(** markup.rs:149-167 [pop_style_matching] *)
Definition pop_style_matching (p : parser) (name : text) : parser :=
  let '(closed, rest) := pop_until name (ps_stack p) in
  fold_left create_span closed (set_stack p rest).

(** markup.rs:131-139 [push_style] *)
Definition push_style (p : parser) (s : style) (m : list (text * text)) (tag : text) : parser :=
  set_stack p (Entry s m (blen (ps_out p)) tag :: ps_stack p).

(** markup.rs:96-118 [process_open_tag] *)
Definition process_open (p : parser) (content : text) : res parser :=
  bind (tag_parse content) (fun k =>
    match k with
    | TagStyle s => Ok (push_style p s [] content)
    | TagMeta key v => Ok (push_style p style_default [(key, v)] content)
    | TagCloseAll => Ok (pop_style p)
    | TagCloseStyle n => Ok (pop_style_matching p n)
    end).

Definition push_text (p : parser) (t : text) : parser := Parser (ps_stack p) (ps_out p ++ t) (ps_spans p).

(** markup.rs:78-94 [process_token], 121-128 [process_close_tag] *)
Definition process_token (p : parser) (k : token) : res parser :=
  match k with
  | TText t => Ok (push_text p t)
  | TOpen c => process_open p c
  | TClose None => Ok (pop_style p)
  | TClose (Some n) => Ok (pop_style_matching p n)
  | TEsc c => Ok (push_text p [c])
  end.

Fixpoint process_tokens (p : parser) (ks : list token) : res parser :=
  match ks with
  | [] => Ok p
  | k :: r => bind (process_token p k) (fun p' => process_tokens p' r)
  end.

(** markup.rs:195-199 [close_all_remaining] *)
Definition close_all (p : parser) : parser := fold_left create_span (ps_stack p) (set_stack p []).

(** rich/markup.rs:22-28 [struct ParsedMarkup] *)
Record parsed := Parsed { pm_text : text; pm_spans : list span }.

(** parser/markup.rs:27-43 [parse] *)
Definition parse (input : text) : res parsed :=
  bind (lex input) (fun ks =>
  bind (process_tokens parser_new ks) (fun p =>
    let q := close_all p in Ok (Parsed (ps_out q) (ps_spans q)))).

(** *** Segments: rich/markup.rs *)

(** span.rs:73-75 [contains] *)
Definition span_contains (s : span) (off : nat) : bool :=
  (sp_start s <=? off)%nat && (off <? sp_end s)%nat.

(** markup.rs:107-115 [style_at] *)
Definition style_at (m : parsed) (off : nat) : style :=
  fold_left (fun acc s => if span_contains s off then style_apply acc (sp_style s) else acc)
    (pm_spans m) style_default.

(** markup.rs:146-157: the next boundary after [pos] *)
Definition next_boundary (m : parsed) (pos : nat) : nat :=
  fold_left (fun e s =>
      let e1 := if (pos <? sp_start s)%nat && (sp_start s <? e)%nat then sp_start s else e in
      if (pos <? sp_end s)%nat && (sp_end s <? e1)%nat then sp_end s else e1)
    (pm_spans m) (blen (pm_text m)).

(** markup.rs:159-169: the metadata of the segment (later insertions win) *)
Definition meta_at (m : parsed) (off : nat) : list (text * text) :=
  fold_left (fun acc s => if span_contains s off then sp_meta s ++ acc else acc) (pm_spans m) [].

(** markup.rs:138-176: the iterator collected; [None] is the slicing panic *)
Fixpoint segments_fuel (fuel : nat) (m : parsed) (pos : nat)
    : option (list (text * style * list (text * text))) :=
  if (blen (pm_text m) <=? pos)%nat then Some []
  else match fuel with
  | O => None
  | S n =>
      let e := next_boundary m pos in
      match bslice pos e (pm_text m) with
      | None => None
      | Some t => option_map (cons (t, style_at m pos, meta_at m pos)) (segments_fuel n m e)
      end
  end.
Definition segments (m : parsed) := segments_fuel (blen (pm_text m)) m 0.

End Markup.

(** *** Escaping: command.rs:8-20, fuzzy.rs:219-234, widget/input.rs:16-28,
    widget/option_list.rs:13-25 (four copies of the same function) *)
Definition escape_char (c : char) : text :=
  if (c =? ch_open) || (c =? ch_close) || (c =? ch_esc) then [ch_esc; c] else [c].
Definition escape_markup (t : text) : text := flat_map escape_char t.
