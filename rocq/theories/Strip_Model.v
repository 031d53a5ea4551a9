(** Model of crates/textual/src/segment.rs (Segment, split_at, apply_style,
    set_style) and crates/textual/src/strip.rs (Strip).

    Text is a list of grapheme clusters [G]; [gw] is the display width of a
    cluster.  The Unicode crates behind grapheme.rs are not modelled: we assume
    that the display width of a string is the sum over its clusters and that
    cutting or joining strings at cluster boundaries does not change the
    clusters.  Styles [St] (segment.rs:22-40) and metadata maps [Mt] are opaque
    except for the derived equality of styles.  usize is [nat]. *)
From Coq Require Import List Arith Bool.
Import ListNotations.

Section Strip.
Context {G St Mt : Type}.
Variable gw : G -> nat.               (* display_width of one cluster, grapheme.rs:4 *)
Variable style_eqb : option St -> option St -> bool.  (* derived PartialEq *)
Variable style_apply : St -> St -> St.   (* Style::apply, segment.rs:83-94 *)
Variable meta_empty : Mt.             (* HashMap::new() *)
Variable space : G.                   (* " " *)
Variable is_space : G -> bool.        (* ch == ' ' *)

(** grapheme.rs:4-6 [display_width] of a text. *)
Definition text_width (t : list G) : nat := fold_right (fun g n => gw g + n) 0 t.

(** segment.rs:115-127 [struct Segment]; [sg_len] is the cached cell_length. *)
Record segment := Segment {
  sg_text : list G; sg_len : nat; sg_style : option St; sg_meta : Mt }.

(** segment.rs:131-152 [Segment::new], [Segment::styled] (style: Some). *)
Definition segment_new (t : list G) (s : option St) : segment :=
  Segment t (text_width t) s meta_empty.

(** segment.rs:155-162 [Segment::blank]. *)
Definition segment_blank (w : nat) (s : option St) : segment :=
  Segment (repeat space w) w s meta_empty.

(** segment.rs:265-275: walk clusters until [cell_pos >= cut]; returns the text
    before byte_pos, the text from byte_pos, and the final cell_pos. *)
Fixpoint split_loop (cut cell_pos : nat) (t : list G) : list G * list G * nat :=
  match t with
  | [] => ([], [], cell_pos)
  | g :: r =>
      if cut <=? cell_pos then ([], t, cell_pos)
      else let '(l, r', p) := split_loop cut (cell_pos + gw g) r in (g :: l, r', p)
  end.

(** segment.rs:238-292 [split_at]. *)
Definition split_at (s : segment) (cut : nat) : segment * segment :=
  if cut =? 0 then (Segment [] 0 (sg_style s) (sg_meta s), s)
  else if sg_len s <=? cut then (s, Segment [] 0 (sg_style s) (sg_meta s))
  else
    let '(l, r, p) := split_loop cut 0 (sg_text s) in
    (Segment l p (sg_style s) (sg_meta s),
     Segment r (sg_len s - p) (sg_style s) (sg_meta s)).

(** segment.rs:298-310 [apply_style]. *)
Definition segment_apply_style (s : segment) (st : St) : segment :=
  Segment (sg_text s) (sg_len s)
    (Some (match sg_style s with Some c => style_apply c st | None => st end)) (sg_meta s).

(** strip.rs:34-41 [struct Strip]. *)
Record strip := Strip { st_segs : list segment; st_len : nat }.

(** strip.rs:45-50 [new]. *)
Definition strip_new : strip := Strip [] 0.

(** strip.rs:55-77 [from_segments], [from_iter], [from_smallvec]. *)
Definition from_segments (l : list segment) : strip :=
  Strip l (fold_right (fun s n => sg_len s + n) 0 l).

(** strip.rs:80-86 [from_segment]. *)
Definition from_segment (s : segment) : strip := Strip [s] (sg_len s).

(** strip.rs:89-94 [blank]. *)
Definition strip_blank (w : nat) (s : option St) : strip :=
  if w =? 0 then strip_new else from_segment (segment_blank w s).

(** segment.rs:217-219 [is_empty] *)
Definition seg_is_empty (s : segment) : bool := match sg_text s with [] => true | _ => false end.

Definition push_nonempty (s : segment) (l : list segment) : list segment :=
  if seg_is_empty s then l else s :: l.

(** strip.rs:181-225, the loop of [crop]; [cur] is current_pos and [end_] is
    already clamped to the strip's length. *)
Fixpoint crop_loop (start end_ cur : nat) (segs : list segment) : list segment :=
  match segs with
  | [] => []
  | seg :: rest =>
      let seg_len := sg_len seg in
      let seg_end := cur + seg_len in
      if seg_end <=? start then crop_loop start end_ seg_end rest
      else if end_ <=? cur then []
      else
        let local_start := start - cur in
        let local_end := Nat.min (end_ - cur) seg_len in
        if (local_start =? 0) && (local_end =? seg_len) then
          seg :: crop_loop start end_ seg_end rest
        else if local_start =? 0 then
          push_nonempty (fst (split_at seg local_end)) (crop_loop start end_ seg_end rest)
        else if local_end =? seg_len then
          push_nonempty (snd (split_at seg local_start)) (crop_loop start end_ seg_end rest)
        else
          push_nonempty (fst (split_at (snd (split_at seg local_start)) (local_end - local_start)))
            (crop_loop start end_ seg_end rest)
  end.

(** strip.rs:172-228 [crop]. *)
Definition crop (s : strip) (start end_ : nat) : strip :=
  if (end_ <=? start) || (st_len s <=? start) then strip_new
  else from_segments (crop_loop start (Nat.min end_ (st_len s)) 0 (st_segs s)).

(** strip.rs:241-246, the loop of [divide]; returns the pieces and [last]. *)
Fixpoint divide_loop (s : strip) (last : nat) (cuts : list nat) : list strip * nat :=
  match cuts with
  | [] => ([], last)
  | cut :: r =>
      if (last <? cut) && (cut <=? st_len s) then
        let '(ps, l) := divide_loop s cut r in (crop s last cut :: ps, l)
      else divide_loop s last r
  end.

(** strip.rs:233-254 [divide]. *)
Definition divide (s : strip) (cuts : list nat) : list strip :=
  match cuts with
  | [] => [s]
  | _ =>
      let '(ps, last) := divide_loop s 0 cuts in
      if last <? st_len s then ps ++ [crop s last (st_len s)] else ps
  end.

(** strip.rs:259-262 [apply_style]. *)
Definition strip_apply_style (s : strip) (st : St) : strip :=
  from_segments (map (fun x => segment_apply_style x st) (st_segs s)).

(** strip.rs:291-295, 301-304: emitting the accumulated run *)
Definition emit_run (t : list G) (s : option St) : list segment :=
  match t with [] => [] | _ => [segment_new t s] end.

(** strip.rs:277-304 loop of [simplify] after the first segment was taken. *)
Fixpoint simplify_loop (t : list G) (s : option St) (segs : list segment) : list segment :=
  match segs with
  | [] => emit_run t s
  | x :: r =>
      if style_eqb (sg_style x) s then simplify_loop (t ++ sg_text x) s r
      else emit_run t s ++ simplify_loop (sg_text x) (sg_style x) r
  end.

(** strip.rs:267-307 [simplify]. *)
Definition simplify (s : strip) : strip :=
  match st_segs s with
  | [] | [_] => s
  | x :: r => from_segments (simplify_loop (sg_text x) (sg_style x) r)
  end.

(** strip.rs:310-316 [join]. *)
Definition join (l : list strip) : strip :=
  from_segments (flat_map st_segs l).

(** strip.rs:322-333 [adjust_cell_length]. *)
Definition adjust_cell_length (s : strip) (len : nat) (pad : option St) : strip :=
  if st_len s =? len then s
  else if len <? st_len s then crop s 0 len
  else from_segments (st_segs s ++ [segment_blank (len - st_len s) pad]).

(** tcss AlignHorizontal *)
Inductive halign := HLeft | HCenter | HRight.

(** strip.rs:339-382 [text_align]. *)
Definition text_align (s : strip) (a : halign) (width : nat) (pad : option St) : strip :=
  if width <=? st_len s then crop s 0 width
  else
    let gap := width - st_len s in
    match a with
    | HLeft => from_segments (st_segs s ++ [segment_blank gap pad])
    | HRight => from_segments (segment_blank gap pad :: st_segs s)
    | HCenter =>
        let left_pad := gap / 2 in
        let right_pad := gap - left_pad in
        from_segments
          ((if 0 <? left_pad then [segment_blank left_pad pad] else []) ++ st_segs s
           ++ (if 0 <? right_pad then [segment_blank right_pad pad] else []))
    end.

(** strip.rs:476-489 [build_segment] *)
Definition build_segment (t : list G) (s : option St) (m : Mt) : segment :=
  Segment t (text_width t) s m.

(** strip.rs:391-395 gap_count: number of ' ' characters.  Simplification: the
    code iterates over chars, the model over clusters (equal when every cluster
    is a single char, or when no cluster starts with a space). *)
Definition count_spaces (t : list G) : nat := length (filter is_space t).
Definition gap_count (segs : list segment) : nat :=
  fold_right (fun s n => count_spaces (sg_text s) + n) 0 segs.

(** [v[i] += 1] *)
Fixpoint incr_nth (i : nat) (l : list nat) : list nat :=
  match l, i with
  | [], _ => []
  | x :: r, O => S x :: r
  | x :: r, S k => x :: incr_nth k r
  end.

(** strip.rs:402-406: [for i in 0..extra { extra_per_gap[gaps-1-(i % gaps)] += 1 }];
    [n] iterations starting at index [i]. *)
Fixpoint spread_loop (gaps i n : nat) (v : list nat) : list nat :=
  match n with
  | O => v
  | S k => spread_loop gaps (S i) k (incr_nth (gaps - 1 - i mod gaps) v)
  end.

Definition spread (gaps extra : nat) : list nat := spread_loop gaps 0 extra (repeat 0 gaps).

(** strip.rs:416-432: the char loop of one segment; returns the produced
    segments and the new gap_index. [buf] is the pending word. *)
Fixpoint justify_chars (extras : list nat) (gi : nat) (buf : list G) (s : option St) (m : Mt)
    (t : list G) : list segment * nat :=
  match t with
  | [] => (match buf with [] => [] | _ => [build_segment buf s m] end, gi)
  | ch :: r =>
      if is_space ch then
        let word := match buf with [] => [] | _ => [build_segment buf s m] end in
        let total := 1 + nth gi extras 0 in
        let '(out, gi') := justify_chars extras (S gi) [] s m r in
        (word ++ build_segment (repeat space total) s m :: out, gi')
      else justify_chars extras gi (buf ++ [ch]) s m r
  end.

(** strip.rs:411-437: the loop over segments *)
Fixpoint justify_segs (extras : list nat) (gi : nat) (segs : list segment) : list segment :=
  match segs with
  | [] => []
  | x :: r =>
      let '(out, gi') := justify_chars extras gi [] (sg_style x) (sg_meta x) (sg_text x) in
      out ++ justify_segs extras gi' r
  end.

(** strip.rs:385-438 [justify]. *)
Definition justify (s : strip) (width : nat) (pad : option St) : strip :=
  if width <=? st_len s then crop s 0 width
  else
    let gaps := gap_count (st_segs s) in
    if gaps =? 0 then text_align s HLeft width pad
    else
      let extra := width - st_len s in
      from_segments (justify_segs (spread gaps extra) 0 (st_segs s)).

End Strip.
