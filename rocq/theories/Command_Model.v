(** The command providers of crates/textual/src/command.rs and the lines the
    command palette makes of their answers (widget/command_palette.rs).

    [SystemCommand] and [SimpleCommand] have the same fields and are one record
    here.  [async] is left out: neither provider awaits anything. *)
From Coq Require Import String ZArith QArith List Bool.
From Verif Require Import Text_Model Markup_Model Fuzzy_Model.
Import ListNotations.
Open Scope Z_scope.
Open Scope list_scope.

(** command.rs:24-29 [SystemCommand], 122-127 [SimpleCommand] (there the title is called name) *)
Record command := Command { c_title : text; c_action : text; c_help : option text; c_discover : bool }.
(** command.rs:32-39 [SystemCommand::new], 130-137 [SimpleCommand::new] *)
Definition command_new (title action : text) : command := Command title action None true.
(** command.rs:41-44, 139-142 [with_help] *)
Definition with_help (h : text) (c : command) : command := Command (c_title c) (c_action c) (Some h) (c_discover c).
(** command.rs:46-49, 144-147 [discoverable] *)
Definition discoverable (d : bool) (c : command) : command := Command (c_title c) (c_action c) (c_help c) d.
(** command.rs:52-62, 161-171 [From<(String, String, Option<String>)>] *)
Definition of_triple (v : text * text * option text) : command :=
  let '(title, action, help) := v in Command title action help true.

(** command.rs:66-73 [Hit] *)
Record found := Found { f_score : Q; f_display : text; f_action : text; f_text : text; f_help : option text }.
(** command.rs:77-82 [DiscoveryHit] *)
Record offered := Offered { o_display : text; o_action : text; o_text : text; o_help : option text }.
(** command.rs:85-89 [CommandHit] *)
Inductive command_hit := HSearch (f : found) | HDiscovery (o : offered).

(** command.rs:175-179 [SimpleProvider], 227-231 [SystemCommandsProvider] *)
Inductive kind := Simple | System.
Record provider := Provider { p_kind : kind; p_commands : list command; p_style : option text }.
(** command.rs:182-187, 234-239 [new] *)
Definition provider_new (k : kind) (cs : list command) : provider := Provider k cs None.
(** command.rs:220-222, 281-283 [set_match_style] *)
Definition set_match_style (s : text) (p : provider) : provider := Provider (p_kind p) (p_commands p) (Some s).

(** [str::cmp]: bytewise, which for UTF-8 is the order of the code points *)
Fixpoint text_le (a b : text) : bool :=
  match a, b with
  | [], _ => true
  | _ :: _, [] => false
  | x :: r, y :: s => (x <? y) || ((x =? y) && text_le r s)
  end.
(** [sort_by] (stable) of command.rs:270 *)
Fixpoint insert_command (x : command) (l : list command) : list command :=
  match l with
  | [] => [x]
  | y :: r => if text_le (c_title x) (c_title y) then x :: l else y :: insert_command x r
  end.
Definition sort_commands (l : list command) : list command := fold_right insert_command [] l.

Section Commands.
Variable lower : text -> text.
Variable is_alnum : char -> bool.

(** command.rs:192-208, 244-260 [search]; [Matcher::new] and [match_score] fuzzy.rs:153-170:
    without a match style "reverse" is used *)
Definition search (p : provider) (query : text) : list found :=
  let style := match p_style p with Some s => s | None => str "reverse" end in
  flat_map (fun c =>
    let s := fst (match_candidate lower is_alnum false query (c_title c)) in
    if Qltb 0 s then [Found s (highlight lower is_alnum false query style (c_title c)) (c_action c) (c_title c) (c_help c)]
    else []) (p_commands p).

(** command.rs:211-217, 271-279: the answer for one command *)
Definition offer (c : command) : offered := Offered (escape_markup (c_title c)) (c_action c) (c_title c) (c_help c).
(** command.rs:210-218, 262-280 [discover] *)
Definition discover (p : provider) : list offered :=
  let cs := filter c_discover (p_commands p) in
  map offer (match p_kind p with Simple => cs | System => sort_commands cs end).

(** command_palette.rs:1144-1161: the search task for a provider *)
Definition ask_provider (match_style : text) (p : provider) (query : text) : list command_hit :=
  let p := set_match_style match_style p in
  if is_nil query then map HDiscovery (discover p) else map HSearch (search p query).
End Commands.

(** command_palette.rs:771-782 [build_prompt] *)
Definition build_prompt (prompt : text) (help : option text) (help_style : text) : text :=
  match help with
  | None => prompt
  | Some h =>
      prompt ++ 10 :: (if is_nil help_style then escape_markup h
                       else ch_open :: help_style ++ [ch_close] ++ escape_markup h ++ [ch_open; ch_slash; ch_close])
  end.

(** command_palette.rs:720-728 [CommandEntry], without the sequence number *)
Record line := Line { l_display : text; l_action : option text; l_text : text; l_help : option text; l_score : Q; l_disabled : bool }.
(** command_palette.rs:731-755 [from_hit], [from_discovery] *)
Definition line_of (help_style : text) (h : command_hit) : line :=
  match h with
  | HSearch f => Line (build_prompt (f_display f) (f_help f) help_style) (Some (f_action f)) (f_text f) (f_help f) (f_score f) false
  | HDiscovery o => Line (build_prompt (o_display o) (o_help o) help_style) (Some (o_action o)) (o_text o) (o_help o) 0 false
  end.
(** command_palette.rs:757-768 [no_matches] *)
Definition no_matches_line (help_style : text) : line :=
  Line (build_prompt (str "[dim]No matches found[/]") None help_style) None (str "No matches found") None 0 true.

(** command_palette.rs:921-922: the styles of the palette *)
Definition palette_match_style : text := str "bold underline".
Definition palette_help_style : text := str "dim".
(** command_palette.rs:1137-1160 with 1194-1211: the lines a provider adds to the
    palette for a query, in the order in which they are added; [start_search]
    trims the query (1113) *)
Definition lines (lower : text -> text) (is_alnum : char -> bool) (p : provider) (typed : text) : list line :=
  map (line_of palette_help_style) (ask_provider lower is_alnum palette_match_style p (trim typed)).
