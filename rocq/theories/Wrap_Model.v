(** Model of crates/textual/src/content.rs: lines, styled lines and wrapping.

    Text is a list of chars; [gr] is the grapheme segmentation and [gw] the
    display width of a cluster (the Unicode crates behind grapheme.rs).  The
    display width of a text is taken to be the sum over its clusters, as in
    Strip_Model.  Styles and metadata maps are opaque with the operations the
    code uses.  Slicing off a char boundary gives [None] (a panic). *)
From Coq Require Import ZArith List Bool Arith.
From Verif Require Import Text_Model Strip_Model.
Import ListNotations.
Open Scope nat_scope.

Section Content.
Variable gr : text -> list text.
Variable gw : text -> nat.
Context {St Mt : Type}.
Variable sapply : St -> St -> St.      (* Style::apply, segment.rs:83-94 *)
Variable sdefault : St.                (* Style::default() *)
Variable sempty : St -> bool.          (* Style::is_empty, segment.rs:66-75 *)
Variable mnew : Mt.                    (* HashMap::new() *)
Variable mempty : Mt -> bool.          (* HashMap::is_empty *)
Variable mextend : Mt -> Mt -> Mt.     (* HashMap::extend *)
(** content.rs:306-315, 361-477: the link styling of a style given the metadata;
    the identity when there is no "@click" or no link style is set. *)
Variable restyle : St -> Mt -> St.

Definition dw (t : text) : nat := text_width gw (gr t).  (* grapheme.rs:4-6 *)
Notation seg := (@segment text St Mt).
Notation strp := (@strip text St Mt).

(** content.rs:34-45 [InternalSpan] *)
Record span := Span { sp_start : nat; sp_end : nat; sp_style : St; sp_meta : Mt }.
(** content.rs:54-66 [Content] without link_style and hovered_action *)
Record content := Content { c_text : text; c_style : option St; c_spans : option (list span) }.

(** segment.rs:131-152, content.rs:232-236 and elsewhere: the segment of an unspanned text *)
Definition plain (c : content) (t : text) : seg := Segment (gr t) (dw t) (c_style c) mnew.

(** content.rs:209-212 [split_lines_preserving_trailing] *)
Definition source_lines (c : content) : list text := split_char 10%Z (c_text c).
(** content.rs:195-197 [height] *)
Definition height (c : content) : nat := Nat.max (length (source_lines c)) 1.

(** content.rs:296-305: style and metadata at a byte position *)
Definition covers (s : span) (pos : nat) : bool := (sp_start s <=? pos) && (pos <? sp_end s).
Definition style_at (base : option St) (spans : list span) (pos : nat) : St :=
  fold_left (fun st s => if covers s pos then sapply st (sp_style s) else st) spans
            (match base with Some b => b | None => sdefault end).
Definition meta_at (spans : list span) (pos : nat) : Mt :=
  fold_left (fun m s => if covers s pos then mextend m (sp_meta s) else m) spans mnew.
(** content.rs:317-327: where the style changes next *)
Definition next_change (line_start line_len pos : nat) (spans : list span) : nat :=
  fold_left (fun n s =>
      let n := if (line_start + pos <? sp_start s) && (sp_start s - line_start <? n) then sp_start s - line_start else n in
      if (line_start + pos <? sp_end s) && (sp_end s - line_start <? n) then sp_end s - line_start else n)
    spans line_len.

(** content.rs:293-348, the loop of [render_line_with_spans]; the position grows
    in every round, so [fuel] is the length of the line *)
Fixpoint render_loop (fuel : nat) (c : content) (line : text) (line_start : nat) (spans : list span) (pos : nat) : option (list seg) :=
  match fuel with
  | O => Some []
  | S k =>
      if blen line <=? pos then Some []
      else
        let meta := meta_at spans (line_start + pos) in
        let style := restyle (style_at (c_style c) spans (line_start + pos)) meta in
        let end_ := Nat.min (next_change line_start (blen line) pos spans) (blen line) in
        match bslice pos end_ line with
        | None => None
        | Some t =>
            option_map
              (fun rest => if is_nil t then rest
                           else Segment (gr t) (dw t) (if sempty style then None else Some style)
                                        (if mempty meta then mnew else meta) :: rest)
              (render_loop k c line line_start spans end_)
        end
  end.

(** content.rs:263-351 [render_line_with_spans] *)
Definition render_line (c : content) (line : text) (line_start line_end : nat) (spans : list span) : option strp :=
  if is_nil line then Some strip_new
  else
    let relevant := filter (fun s => (sp_start s <? line_end) && (line_start <? sp_end s)) spans in
    if is_nil relevant then Some (from_segment (plain c line))
    else option_map from_segments (render_loop (blen line) c line line_start relevant 0).

(** content.rs:244-260 [lines_with_spans] *)
Fixpoint lines_with_spans (c : content) (spans : list span) (line_start : nat) (ls : list text) : option (list strp) :=
  match ls with
  | [] => Some []
  | line :: r =>
      let line_end := line_start + blen line in
      match render_line c line line_start line_end spans, lines_with_spans c spans (line_end + 1) r with
      | Some s, Some rest => Some (s :: rest)
      | _, _ => None
      end
  end.
(** content.rs:221-241 [lines] *)
Definition lines (c : content) : option (list strp) :=
  if is_nil (c_text c) then Some [strip_new]
  else match c_spans c with
       | Some spans => option_map (fun l => if is_nil l then [strip_new] else l) (lines_with_spans c spans 0 (source_lines c))
       | None => Some (map (fun l => from_segment (plain c l)) (source_lines c))
       end.

(** ** Wrapping plain text *)
(** content.rs:799-832 [break_word]; [cur] is pushed as one segment *)
Fixpoint break_loop (width : nat) (cur : text) (cw : nat) (gs : list text) : list text :=
  match gs with
  | [] => if is_nil cur then [] else [cur]
  | g :: r =>
      if cw + gw g <=? width then break_loop width (cur ++ g) (cw + gw g) r
      else (if is_nil cur then [] else [cur]) ++ break_loop width g (gw g) r
  end.
Definition break_word (word : text) (width : nat) : list text := break_loop width [] 0 (gr word).

(** content.rs:750-794, the loop of [wrap_line] *)
Fixpoint wrap_words (width : nat) (cur : text) (cw : nat) (words : list text) : list text :=
  match words with
  | [] => if is_nil cur then [] else [cur]
  | w :: r =>
      let ww := dw w in
      if cw =? 0 then
        if ww <=? width then wrap_words width w ww r
        else break_word w width ++ wrap_words width cur cw r
      else if cw + 1 + ww <=? width then wrap_words width (cur ++ 32%Z :: w) (cw + 1 + ww) r
      else
        cur :: (if ww <=? width then wrap_words width w ww r
                else break_word w width ++ wrap_words width [] 0 r)
  end.
(** content.rs:745-796 [wrap_line] *)
Definition wrap_line (c : content) (line : text) (width : nat) : list strp :=
  map (fun t => from_segment (plain c t)) (wrap_words width [] 0 (split_ws line)).

(** ** Wrapping styled text *)
(** [str::find(&str)]: byte offset of the first occurrence *)
Fixpoint find_str (t p : text) : option nat :=
  if starts_with t p then Some 0
  else match t with
       | [] => None
       | x :: r => option_map (fun n => utf8_len x + n) (find_str r p)
       end.
(** content.rs:663-675: byte positions of the words; [t] is [line[search_start..]] *)
Fixpoint word_positions (line : text) (search_start : nat) (words : list text) : option (list (nat * nat)) :=
  match words with
  | [] => Some []
  | w :: r =>
      match bsplit search_start line with
      | None => None
      | Some (_, t) =>
          match find_str t w with
          | None => word_positions line search_start r
          | Some pos =>
              let a := search_start + pos in
              option_map (cons (a, a + blen w)) (word_positions line (a + blen w) r)
          end
      end
  end.

Definition slice_render (c : content) (line : text) (line_start a b : nat) (spans : list span) : option strp :=
  match bslice a b line with
  | None => None
  | Some t => render_line c t (line_start + a) (line_start + b) spans
  end.
Definition push (x : option strp) (l : option (list strp)) : option (list strp) :=
  match x, l with Some s, Some r => Some (s :: r) | _, _ => None end.

(** content.rs:677-742, the loop of [wrap_line_with_spans].  [words] are the
    words from index [i] on, each with its position; [last_end] is
    [word_positions[i-1].1]; [start] is current_segment_start.  The round that
    emits a line and leaves [i] alone is merged with the round that follows it. *)
Fixpoint spans_loop (c : content) (line : text) (line_start width : nat) (spans : list span)
    (words : list (text * (nat * nat))) (last_end start cw : nat) : option (list strp) :=
  match words with
  | [] =>
      if 0 <? cw then
        match bslice start last_end line with
        | None => None
        | Some t => if is_nil t then Some []
                    else push (render_line c t (line_start + start) (line_start + last_end) spans) (Some [])
        end
      else Some []
  | (w, (a, b)) :: r =>
      let ww := dw w in
      let begin start :=
        (* a word at the start of a line: content.rs:684-708 *)
        if ww <=? width then spans_loop c line line_start width spans r b start ww
        else push (slice_render c line line_start a b spans)
                  (spans_loop c line line_start width spans r b
                     (match r with (_, (a', _)) :: _ => a' | [] => blen line end) 0) in
      if cw =? 0 then begin start
      else if cw + (1 + ww) <=? width then spans_loop c line line_start width spans r b start (cw + (1 + ww))
      else push (slice_render c line line_start start last_end spans) (begin a)
  end.
(** content.rs:653-742 [wrap_line_with_spans]; every word is found in the line,
    so that positions and words go together *)
Definition wrap_line_with_spans (c : content) (line : text) (line_start width : nat) (spans : list span) : option (list strp) :=
  let words := split_ws line in
  match word_positions line 0 words with
  | None => None
  | Some ps => spans_loop c line line_start width spans (combine words ps) 0 0 0
  end.

(** ** Overflow *)
Inductive overflow := Fold | Clip | Ellipsis.
Inductive text_wrap := NoWrap | Wrap.

(** content.rs:835-851 [split_strip_by_width]; each round moves on by at least one cell *)
Fixpoint split_by_width (fuel : nat) (s : strp) (width start : nat) : list strp :=
  match fuel with
  | O => []
  | S k =>
      if start <? st_len s then
        let e := Nat.min (start + width) (st_len s) in
        crop gw s start e :: split_by_width k s width e
      else []
  end.
Definition split_strip_by_width (s : strp) (width : nat) : list strp :=
  if width =? 0 then [strip_new]
  else if st_len s =? 0 then [strip_new]
  else split_by_width (st_len s) s width 0.

(** the ellipsis character U+2026 *)
Definition dots : text := [8230%Z].
Definition last_style (s : strp) : option St := match rev (st_segs s) with [] => None | x :: _ => sg_style x end.
(** content.rs:853-884 [truncate_with_ellipsis] *)
Definition truncate_with_ellipsis (s : strp) (width : nat) : strp :=
  if width =? 0 then strip_new
  else if st_len s <=? width then s
  else if width =? 1 then from_segment (Segment (gr dots) (dw dots) (last_style s) mnew)
  else
    let cropped := crop gw s 0 (width - 1) in
    join [cropped; from_segment (Segment (gr dots) (dw dots) (last_style cropped) mnew)].

(** content.rs:533-537, 557-565: the last part of a line is marked *)
Fixpoint mark_last (l : list strp) : list (strp * bool) :=
  match l with
  | [] => []
  | x :: r => (x, is_nil r) :: mark_last r
  end.

(** content.rs:507-568: one source line *)
Definition wrap_one (c : content) (width : nat) (o : overflow) (tw : text_wrap) (line : text) (line_start : nat) : option (list (strp * bool)) :=
  if is_nil line then Some [(strip_new, true)]
  else
    let full :=
      match c_spans c with
      | Some spans => render_line c line line_start (line_start + blen line) spans
      | None => Some (from_segment (plain c line))
      end in
    match tw with
    | NoWrap =>
        option_map (fun s =>
          match o with
          | Fold => mark_last (split_strip_by_width s width)
          | Clip => [(crop gw s 0 width, true)]
          | Ellipsis => [(truncate_with_ellipsis s width, true)]
          end) full
    | Wrap =>
        option_map (fun l => mark_last (map (fun s => match o with Ellipsis => truncate_with_ellipsis s width | _ => s end) l))
          (match c_spans c with
           | Some spans => wrap_line_with_spans c line line_start width spans
           | None => Some (wrap_line c line width)
           end)
    end.
Fixpoint wrap_lines (c : content) (width : nat) (o : overflow) (tw : text_wrap) (ls : list text) (line_start : nat) : option (list (strp * bool)) :=
  match ls with
  | [] => Some []
  | line :: r =>
      match wrap_one c width o tw line line_start, wrap_lines c width o tw r (line_start + blen line + 1) with
      | Some a, Some b => Some (a ++ b)
      | _, _ => None
      end
  end.
(** content.rs:494-577 [wrap_with_line_end_overflow] *)
Definition wrap_overflow (c : content) (width : nat) (o : overflow) (tw : text_wrap) : option (list (strp * bool)) :=
  if width =? 0 then Some [(strip_new, true)]
  else option_map (fun l => if is_nil l then [(strip_new, true)] else l)
         (wrap_lines c width o tw (split_char 10%Z (c_text c)) 0).
(** content.rs:481-491 [wrap], [wrap_with_line_end] *)
Definition wrap (c : content) (width : nat) : option (list strp) := option_map (map fst) (wrap_overflow c width Fold Wrap).
End Content.
