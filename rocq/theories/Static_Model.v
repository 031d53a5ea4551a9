(** Model of crates/textual/src/widget/static_widget.rs: what a static text draws,
    the height it asks for, and its links.

    Text, styles and metadata are as in Strip_Model and Row_Model.  Wrapping the
    parsed content (content.rs, modelled in Wrap_Model and Markup_Model) is a
    parameter: the lines for a width.  Opacity, hatch and tint, which change styles
    only or fill blanks (545-549, 682-699, see Paint_Model), are left out.  usize
    and u16 are [nat] without overflow. *)
From Coq Require Import ZArith List Arith Bool.
From Verif Require Import Strip_Model Row_Model Bars_Model.
Import ListNotations.
Open Scope nat_scope.

(** tcss AlignVertical, TextAlign *)
Inductive valign := VTop | VMiddle | VBottom.
Inductive talign := TStart | TEnd | TLeft | TCenter | TRight | TJustify.

Section Static.
Context {G St Mt A : Type}.
Variable gw : G -> nat.
Variable meta_empty : Mt.
Variables space ellipsis dash : G.
Variable is_space : G -> bool.
Variable st_default : St.
Variable unstyled : St -> St.           (* the style without bold, dim, ..., 354-362 *)
Variable link_of : Mt -> option A.      (* get_meta("@click") *)
Variable act_eqb : A -> A -> bool.      (* == of action strings *)
Notation segment := (@segment G St Mt).
Notation strip := (@strip G St Mt).
Notation cache := (@cache G St Mt).
Notation blank := (@strip_blank G St Mt meta_empty space).

(** content.rs [WrappedLine] *)
Record wline := WLine { w_strip : strip; w_end : bool }.

(** The computed style and the titles, as far as they matter here.  [k_title]: the
    strip of a title that is not empty (563-657; a title whose markup has no text is
    left out). *)
Record look := Look {
  k_border : edges kind; k_outline : edges kind; k_padding : edges nat;
  k_box : @box_row G St Mt * @box_row G St Mt * @box_row G St Mt; k_outline_box : @box_row G St Mt * @box_row G St Mt * @box_row G St Mt;
  k_title_align : halign; k_subtitle_align : halign; k_pad : option St;
  k_h : halign; k_v : valign; k_t : talign; k_line_pad : nat; k_style : St;
  k_title : option strip; k_subtitle : option strip }.
(** 473 *)
Definition cache_of (k : look) : cache :=
  cache_new (k_border k) (k_outline k) (k_padding k) (k_box k) (k_outline_box k) (k_title_align k) (k_subtitle_align k) (k_pad k).

(** 313-317 *)
Definition v_offset (v : valign) (height n : nat) : nat :=
  match v with VTop => 0 | VMiddle => (height - n) / 2 | VBottom => height - n end.
(** 320-324 *)
Definition max_line_len (lines : list wline) : nat := fold_right (fun l m => Nat.max (st_len (w_strip l)) m) 0 lines.
(** 328-332 *)
Definition h_offset (h : halign) (width block : nat) : nat :=
  match h with HLeft => 0 | HCenter => (width - block) / 2 | HRight => width - block end.
(** 335-342 *)
Definition line_align (t : talign) : halign :=
  match t with TStart | TLeft | TJustify => HLeft | TEnd | TRight => HRight | TCenter => HCenter end.
(** 370-383, one line *)
Definition align_line (k : look) (width block : nat) (pad : option St) (l : wline) : strip :=
  let lw := match k_h k, k_v k with HLeft, VTop => width | _, _ => block end in
  let aligned := match k_t k, w_end l with
    | TJustify, false => justify gw meta_empty space is_space (w_strip l) lw pad
    | _, _ => text_align gw meta_empty space (w_strip l) (line_align (k_t k)) lw pad end in
  let off := h_offset (k_h k) width block in
  let placed := if 0 <? off then join [blank off pad; aligned] else aligned in
  adjust_cell_length gw meta_empty space placed width pad.
(** 296-390 [align_content] *)
Definition align_content (k : look) (lines : list wline) (width height : nat) : list strip :=
  if (width =? 0) || (height =? 0) then []
  else
    let vo := v_offset (k_v k) height (length lines) in
    let block := Nat.min width (max_line_len lines) in
    let pad := Some (unstyled (k_style k)) in
    let top := repeat (blank width pad) vo in
    let body := map (align_line k width block pad) (firstn (height - vo) lines) in
    top ++ body ++ repeat (blank width pad) (height - length (top ++ body)).

(** 497-511 *)
Definition pad_line (n : nat) (st : St) (l : wline) : wline :=
  if 0 <? n then WLine (join [blank n (Some st); w_strip l; blank n (Some st)]) (w_end l) else l.
(** 486-511: the lines for the width inside *)
Definition lines_for (k : look) (wrap : nat -> list wline) (inner : nat) : list wline :=
  if 0 <? inner then map (pad_line (k_line_pad k) (k_style k)) (wrap (Nat.max (inner - k_line_pad k * 2) 1)) else [].

Definition given (o : option strip) : bool := match o with Some _ => true | None => false end.
(** 513-536: rows kept for a title or subtitle without a border to be in *)
Definition reserve_top (k : look) : nat :=
  let c := cache_of k in if (border_top c =? 0) && (has_border c && given (k_title k)) then 1 else 0.
Definition reserve_bottom (k : look) : nat :=
  let c := cache_of k in if (border_bottom c =? 0) && (has_border c && given (k_subtitle k)) then 1 else 0.

(** 470-543 *)
Definition aligned (k : look) (wrap : nat -> list wline) (width height : nat) : list strip :=
  let '(iw, ih) := inner_size (cache_of k) width height in
  align_content k (lines_for k wrap iw) iw (ih - (reserve_top k + reserve_bottom k)).
(** 660-680, the rows drawn; titles are drawn if there is a border (628-657) *)
Definition draw_row (k : look) (rows : list strip) (width height y : nat) : strip :=
  let c := cache_of k in
  let start := border_top c + e_top (k_padding k) + reserve_top k in
  let end_ := height - (border_bottom c + e_bottom (k_padding k) + reserve_bottom k) in
  let content := if (start <=? y) && (y <? end_) then nth_error rows (y - start) else None in
  render_line gw meta_empty space ellipsis dash st_default c y height width content
    (if has_border c then k_title k else None) (if has_border c then k_subtitle k else None).
(** 459-703 [render] *)
Definition draw (k : look) (wrap : nat -> list wline) (width height : nat) : list strip :=
  if (width =? 0) || (height =? 0) then []
  else map (draw_row k (aligned k wrap width height) width height) (seq 0 height).

(** ** Sizes *)

(** 711-736, 805-833: every edge that is not none or hidden counts *)
Definition chrome_width (k : look) : nat :=
  b2n (shown (e_left (k_border k))) + b2n (shown (e_right (k_border k))) + (e_left (k_padding k) + e_right (k_padding k)).
Definition chrome_height (k : look) : nat :=
  b2n (shown (e_top (k_border k))) + b2n (shown (e_bottom (k_border k))) + (e_top (k_padding k) + e_bottom (k_padding k)).
(** 801-857 [intrinsic_height_for_width] *)
Definition intrinsic_height (k : look) (wrap : nat -> list wline) (width : nat) : nat :=
  Nat.max (length (wrap (Nat.max (width - chrome_width k - k_line_pad k * 2) 1))) 1 + chrome_height k.
(** 751-762: the width of automatic size; [widest] is the widest line of the source
    text, markup and all *)
Definition auto_width (k : look) (widest : nat) : nat := widest + k_line_pad k * 2 + chrome_width k.

(** ** Links *)

(** 39-49 [LinkRegion] *)
Record link := Link { l_action : A; l_row : nat; l_start : nat; l_end : nat }.
(** 401-417, one row *)
Fixpoint row_links (row left col : nat) (segs : list segment) : list link :=
  match segs with
  | [] => []
  | s :: r =>
      match link_of (sg_meta s) with
      | Some a => [Link a row (col + left) (col + sg_len s + left)]
      | None => []
      end ++ row_links row left (col + sg_len s) r
  end.
Fixpoint all_links (top left row : nat) (lines : list strip) : list link :=
  match lines with
  | [] => []
  | s :: r => row_links (row + top) left 0 (st_segs s) ++ all_links top left (S row) r
  end.
(** 393-420 [extract_link_regions], of the rows of 540-543 *)
Definition links (k : look) (wrap : nat -> list wline) (width height : nat) : list link :=
  let c := cache_of k in
  all_links (border_top c + e_top (k_padding k)) (border_left c + e_left (k_padding k)) 0 (aligned k wrap width height).
(** 423-431 [find_link_at] *)
Definition find_link (l : list link) (x y : nat) : option A :=
  option_map l_action (find (fun r => (y =? l_row r) && (l_start r <=? x) && (x <? l_end r)) l).

(** The state links use: 88-99 *)
Record pointing := Pointing { p_links : list link; p_hover : option A; p_pending : option A; p_dirty : bool }.
Inductive mouse := LeftDown | Moved | Other.
Definition oact_eqb (a b : option A) : bool :=
  match a, b with Some x, Some y => act_eqb x y | None, None => true | _, _ => false end.
(** 954-990 [on_mouse] *)
Definition on_mouse (p : pointing) (e : mouse) (r : area) (mx my : Z) : pointing :=
  if negb (contains_point r mx my) then p
  else
    let found := find_link (p_links p) (Z.to_nat (mx - a_x r)) (Z.to_nat (my - a_y r)) in
    match e with
    | LeftDown => match found with Some a => Pointing (p_links p) (p_hover p) (Some a) true | None => p end
    | Moved => if oact_eqb found (p_hover p) then p else Pointing (p_links p) found (p_pending p) true
    | Other => p
    end.
(** 992-998 [clear_hover] *)
Definition clear_hover (p : pointing) : pointing :=
  match p_hover p with Some _ => Pointing (p_links p) None (p_pending p) true | None => p end.
(** 435-437, 1035-1037 [take_pending_action] *)
Definition take_pending (p : pointing) : option A * pointing := (p_pending p, Pointing (p_links p) (p_hover p) None (p_dirty p)).
(** 551-554; 461-466: an empty region leaves the links as they were *)
Definition record_links (p : pointing) (k : look) (wrap : nat -> list wline) (width height : nat) : pointing :=
  if (width =? 0) || (height =? 0) then p else Pointing (links k wrap width height) (p_hover p) (p_pending p) (p_dirty p).
End Static.
Arguments WLine {G St Mt}. Arguments w_strip {G St Mt}. Arguments w_end {G St Mt}.
Arguments Look {G St Mt}. Arguments k_border {G St Mt}. Arguments k_outline {G St Mt}. Arguments k_padding {G St Mt}.
Arguments k_box {G St Mt}. Arguments k_outline_box {G St Mt}. Arguments k_title_align {G St Mt}. Arguments k_subtitle_align {G St Mt}.
Arguments k_pad {G St Mt}. Arguments k_h {G St Mt}. Arguments k_v {G St Mt}. Arguments k_t {G St Mt}. Arguments k_line_pad {G St Mt}.
Arguments k_style {G St Mt}. Arguments k_title {G St Mt}. Arguments k_subtitle {G St Mt}.
Arguments Link {A}. Arguments l_action {A}. Arguments l_row {A}. Arguments l_start {A}. Arguments l_end {A}.
Arguments Pointing {A}. Arguments p_links {A}. Arguments p_hover {A}. Arguments p_pending {A}. Arguments p_dirty {A}.
