(** Model of crates/textual/src/widget/input.rs.

    [gr] is the grapheme segmentation (grapheme.rs, unicode-segmentation).  A
    byte offset off a char boundary is a panic ([None]).  The Static inside is
    represented by the markup last given to it and by its disabled and visible
    flags; rendering and styles are modelled elsewhere. *)
From Coq Require Import String ZArith List Bool Arith.
From Verif Require Import Text_Model Markup_Model.
Import ListNotations.
Open Scope nat_scope.

(** grapheme.rs:12-14 [grapheme_indices]: byte offset and cluster *)
Fixpoint indices (pos : nat) (gs : list text) : list (nat * text) :=
  match gs with
  | [] => []
  | g :: r => (pos, g) :: indices (pos + blen g) r
  end.

Section Input.
Variable gr : text -> list text.

(** grapheme.rs:8-10 [grapheme_count] *)
Definition count (t : text) : nat := List.length (gr t).
(** grapheme.rs:20-25 [grapheme_byte_index] *)
Definition byte_index (t : text) (i : nat) : nat :=
  match nth_error (indices 0 (gr t)) i with Some (b, _) => b | None => blen t end.
(** grapheme.rs:27-32 [grapheme_byte_range] *)
Definition byte_range (t : text) (i : nat) : option (nat * nat) :=
  match nth_error (indices 0 (gr t)) i with
  | None => None
  | Some (s, _) => Some (s, match nth_error (indices 0 (gr t)) (S i) with Some (e, _) => e | None => blen t end)
  end.

(** [String::insert] and [String::replace_range(a..b, "")] *)
Definition insert_at (t : text) (b : nat) (c : char) : option text :=
  match bsplit b t with Some (x, y) => Some (x ++ c :: y) | None => None end.
Definition remove_range (t : text) (a b : nat) : option text :=
  if b <? a then None
  else match bsplit a t, bsplit b t with Some (x, _), Some (_, y) => Some (x ++ y) | _, _ => None end.

(** input.rs:31-39 [Input] *)
Record input := Input {
  i_value : text; i_holder : option text; i_cursor : nat; i_focused : bool;
  i_shown : text;                       (* the content of the Static inside *)
  i_disabled : bool; i_visible : bool }.
(** input.rs:42-55 [new] *)
Definition input_new : input := Input [] None 0 false [] false true.

Definition cursor_style : text := str "#121212 on #e0e0e0".
Definition holder_style : text := str "#6d7479".
Definition tag_around (style body : text) : text := str "[" ++ style ++ str "]" ++ body ++ str "[/]".

(** input.rs:114-163 [build_display] *)
Definition build_display (value : text) (holder : option text) (cursor : nat) (focused : bool) : text :=
  match value with
  | [] =>
      match holder with
      | Some p =>
          if negb focused then tag_around holder_style (escape_markup p)
          else match p with
               | [] => tag_around cursor_style (str " ")
               | _ =>
                   let first := match gr p with g :: _ => g | [] => str " " end in
                   let rest := concat (tl (gr p)) in
                   tag_around cursor_style (escape_markup first) ++ tag_around holder_style (escape_markup rest)
               end
      | None => if negb focused then [] else tag_around cursor_style (str " ")
      end
  | _ =>
      if negb focused then escape_markup value
      else
        let gs := gr value in
        let c := Nat.min cursor (List.length gs) in
        match nth_error gs c with
        | None => escape_markup value ++ tag_around cursor_style (str " ")
        | Some g =>
            escape_markup (concat (firstn c gs)) ++ tag_around cursor_style (escape_markup g) ++ escape_markup (concat (skipn (S c) gs))
        end
  end.
(** input.rs:108-112 [refresh_display] *)
Definition refresh (s : input) : input :=
  Input (i_value s) (i_holder s) (i_cursor s) (i_focused s)
        (build_display (i_value s) (i_holder s) (i_cursor s) (i_focused s)) (i_disabled s) (i_visible s).
Definition with_text (s : input) (v : text) (c : nat) : input :=
  refresh (Input v (i_holder s) c (i_focused s) (i_shown s) (i_disabled s) (i_visible s)).

(** input.rs:81-85 [set_value] *)
Definition set_value (s : input) (v : text) : input := with_text s v (Nat.min (i_cursor s) (count v)).
(** input.rs:103-106 [set_cursor] *)
Definition set_cursor (s : input) (c : nat) : input := with_text s (i_value s) (Nat.min c (count (i_value s))).
(** input.rs:57-61 [with_placeholder], 95-98 [set_placeholder], 100-103 [clear_placeholder] *)
Definition set_holder (s : input) (p : option text) : input :=
  refresh (Input (i_value s) p (i_cursor s) (i_focused s) (i_shown s) (i_disabled s) (i_visible s)).

(** input.rs:165-171 [insert_char] *)
Definition insert_char (s : input) (ch : char) : option input :=
  let c := Nat.min (i_cursor s) (count (i_value s)) in
  option_map (fun v => with_text s v (c + 1)) (insert_at (i_value s) (byte_index (i_value s) c) ch).
(** input.rs:173-184 [backspace] *)
Definition backspace (s : input) : option input :=
  if i_cursor s =? 0 then Some s
  else
    let c := Nat.min (i_cursor s) (count (i_value s)) in
    match byte_range (i_value s) (c - 1) with
    | Some (a, b) => option_map (fun v => with_text s v (c - 1)) (remove_range (i_value s) a b)
    | None => Some (refresh s)
    end.
(** input.rs:186-192 [delete] *)
Definition delete (s : input) : option input :=
  let c := Nat.min (i_cursor s) (count (i_value s)) in
  match byte_range (i_value s) c with
  | Some (a, b) => option_map (fun v => with_text s v (i_cursor s)) (remove_range (i_value s) a b)
  | None => Some (refresh s)
  end.

Inductive key := KChar (c : char) | KBackspace | KDelete | KLeft | KRight | KHome | KEnd | KOther.
(** input.rs:230-267 [on_event] *)
Definition on_key (s : input) (k : key) : option input :=
  if i_disabled s || negb (i_visible s) then Some s
  else match k with
       | KChar ch => insert_char s ch
       | KBackspace => backspace s
       | KDelete => delete s
       | KLeft => Some (if 0 <? i_cursor s then with_text s (i_value s) (i_cursor s - 1) else s)
       | KRight => Some (if i_cursor s <? count (i_value s) then with_text s (i_value s) (i_cursor s + 1) else s)
       | KHome => Some (with_text s (i_value s) 0)
       | KEnd => Some (with_text s (i_value s) (count (i_value s)))
       | KOther => Some s
       end.

(** Everything that can be done to an Input; input.rs:328-333 [set_focus],
    357-359 [set_disabled], 343-345 [set_visible] *)
Inductive op :=
| Key (k : key) | SetValue (v : text) | SetCursor (c : nat) | SetPlaceholder (p : option text)
| SetFocus (b : bool) | SetDisabled (b : bool) | SetVisible (b : bool).
Definition step (s : input) (o : op) : option input :=
  match o with
  | Key k => on_key s k
  | SetValue v => Some (set_value s v)
  | SetCursor c => Some (set_cursor s c)
  | SetPlaceholder p => Some (set_holder s p)
  | SetFocus b => Some (if Bool.eqb (i_focused s) b then s
                        else refresh (Input (i_value s) (i_holder s) (i_cursor s) b (i_shown s) (i_disabled s) (i_visible s)))
  | SetDisabled b => Some (Input (i_value s) (i_holder s) (i_cursor s) (i_focused s) (i_shown s) b (i_visible s))
  | SetVisible b => Some (Input (i_value s) (i_holder s) (i_cursor s) (i_focused s) (i_shown s) (i_disabled s) b)
  end.
Fixpoint run (s : input) (os : list op) : option input :=
  match os with
  | [] => Some s
  | o :: r => match step s o with Some s' => run s' r | None => None end
  end.
End Input.
