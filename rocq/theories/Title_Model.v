(** Model of the titles in the borders of widgets: what sets them
    (crates/textual/src/widget.rs, widget/static_widget.rs, widget/label.rs,
    containers/container.rs, vertical.rs, horizontal.rs, vertical_scroll.rs,
    horizontal_scroll.rs) and what is drawn of them (static_widget.rs:563-657,
    container.rs:686-783), over Markup_Model, Wrap_Model and Row_Model.

    [gr] and [gw] are as in Wrap_Model, [lower] and [known_color] as in
    Markup_Model.  [C] are the colours of the screen, [rgb] makes one of a colour
    of the markup (color.rs to_rgb), [fade] is what the opacity of the widget does
    to the colour of a title (Shown_Model).  [usize_max] is usize::MAX. *)
From Coq Require Import ZArith List Bool Arith.
From Verif Require Import Text_Model Strip_Model Row_Model Markup_Model Wrap_Model Autosize_Model.
Import ListNotations.
Open Scope nat_scope.

(** ** Setting titles *)

(** The kinds of widgets that have to do with titles; [KOther] are all others, which
    have the defaults of widget.rs:465-481. *)
Inductive kind := KStatic | KLabel | KContainer | KVertical | KHorizontal | KVerticalScroll | KHorizontalScroll | KOther.
(** static_widget.rs:88-89, container.rs:58-59 and the dirty flag *)
Record titles := Titles { t_title : option text; t_sub : option text; t_dirty : bool }.
(** [WithTitle] is [with_border_title], [SetTitle] [set_border_title] of the trait,
    and so on; [Clean] is [mark_clean] *)
Inductive call := WithTitle (t : text) | WithSub (t : text) | SetTitle (t : text) | SetSub (t : text) | Clean.

(** container.rs:136-160, 1629-1637, static_widget.rs:202-226, 923-931,
    label.rs:158-180, 372-378 *)
Definition own_step (w : titles) (c : call) : titles :=
  match c with
  | WithTitle t => Titles (Some t) (t_sub w) (t_dirty w)
  | WithSub t => Titles (t_title w) (Some t) (t_dirty w)
  | SetTitle t => Titles (Some t) (t_sub w) true
  | SetSub t => Titles (t_title w) (Some t) true
  | Clean => Titles (t_title w) (t_sub w) false
  end.
Definition step (k : kind) (w : titles) (c : call) : titles :=
  match k with
  | KStatic | KLabel | KContainer => own_step w c
  | KVertical | KHorizontal =>
      (* vertical.rs:41-51, horizontal.rs:41-51 forward the builders to the
         container; the methods of the trait are not forwarded *)
      match c with SetTitle _ | SetSub _ => w | _ => own_step w c end
  | KVerticalScroll | KHorizontalScroll | KOther =>
      (* vertical_scroll.rs:65-74, horizontal_scroll.rs:63-72 call the method of the
         trait of a ScrollableContainer, which has the default: nothing *)
      match c with Clean => own_step w c | _ => w end
  end.
Definition run (k : kind) (w : titles) (l : list call) : titles := fold_left (step k) l w.
(** a new widget *)
Definition new_titles : titles := Titles None None true.
(** widget.rs:474-481 and the implementations: what the methods of the trait return *)
Definition border_title (k : kind) (w : titles) : option text :=
  match k with KStatic | KLabel | KContainer => t_title w | _ => None end.
Definition border_subtitle (k : kind) (w : titles) : option text :=
  match k with KStatic | KLabel | KContainer => t_sub w | _ => None end.

(** ** Drawing titles *)

(** segment.rs:40-64 [Style] without the colours *)
Record flags := Flags { f_bold : bool; f_dim : bool; f_italic : bool; f_underline : bool; f_strike : bool; f_reverse : bool }.
Definition no_flags : flags := Flags false false false false false false.
Definition or_flags (a b : flags) : flags :=
  Flags (f_bold a || f_bold b) (f_dim a || f_dim b) (f_italic a || f_italic b)
        (f_underline a || f_underline b) (f_strike a || f_strike b) (f_reverse a || f_reverse b).
Definition any_flag (a : flags) : bool := f_bold a || f_dim a || f_italic a || f_underline a || f_strike a || f_reverse a.

(** metadata: rich's list, newest binding first *)
Definition meta : Type := list (text * text).
Definition meta_extend (a b : meta) : meta := b ++ a.

Section Title.
Variable gr : text -> list text.
Variable gw : text -> nat.
Variable lower : text -> text.
Variable known_color : text -> bool.
Context {C : Type}.
Variable rgb : color -> C.
Variable fade : C -> C.
Variable usize_max : nat.

Record sty := Sty { y_fg : option C; y_bg : option C; y_flags : flags }.
Definition sty_default : sty := Sty None None no_flags.
(** segment.rs:84-95 [apply]: [b] on top of [a] *)
Definition sty_apply (a b : sty) : sty :=
  Sty (or_else (y_fg b) (y_fg a)) (or_else (y_bg b) (y_bg a)) (or_flags (y_flags a) (y_flags b)).
(** segment.rs:69-78 [is_empty] *)
Definition sty_empty (a : sty) : bool := is_none (y_fg a) && is_none (y_bg a) && negb (any_flag (y_flags a)).
(** content.rs:128-152 [convert_rich_style]: blinking is dropped *)
Definition conv (s : Markup_Model.style) : sty :=
  let t := s_text s in
  Sty (option_map rgb (s_fg s)) (option_map rgb (s_bg s))
      (Flags (ts_bold t) (ts_dim t) (ts_italic t) (ts_underline t) (ts_strike t) (ts_reverse t)).

Notation strp := (@strip text sty meta).

(** The part of the computed style that titles use *)
Record css := Css {
  c_title_color : option C; c_title_background : option C; c_title_style : flags;
  c_sub_color : option C; c_sub_background : option C; c_sub_style : flags;
  c_top_color : option C; c_bottom_color : option C;
  c_color : option C; c_background : option C }.
(** container.rs:694-704, 722-747, static_widget.rs:569-579, 596-621 *)
Definition title_style (k : css) : sty :=
  Sty (option_map fade (or_else (c_title_color k) (or_else (c_top_color k) (c_color k))))
      (or_else (c_title_background k) (c_background k)) (c_title_style k).
(** container.rs:705-716, 728-747, static_widget.rs:580-591, 602-621 *)
Definition subtitle_style (k : css) : sty :=
  Sty (option_map fade (or_else (c_sub_color k) (or_else (c_bottom_color k) (c_color k))))
      (or_else (c_sub_background k) (c_background k)) (c_sub_style k).

(** container.rs:749-783, static_widget.rs:624-657: the strip of a title.  Titles
    have no link style, so that metadata does not change the style. *)
Definition label (has_border : bool) (st : sty) (o : option text) : res (option strp) :=
  if negb has_border then Ok None
  else
    match o with
    | None => Ok None
    | Some t =>
        if is_nil t then Ok None
        else
          bind (content_of lower known_color conv (fun m : meta => m) true t st) (fun c =>
            match wrap gr gw sty_apply sty_default sty_empty [] is_nil meta_extend (fun s _ => s) c usize_max with
            | Some strips => Ok (hd_error strips)
            | None => Panic
            end)
    end.

(** container.rs:785-801, static_widget.rs:660-680: one row; [content] is what the
    widget has for that row.  The cache is made by RenderCache::new (Row_Model). *)
Definition drawn_row (c : @cache text sty meta) (k : css) (w : titles) (y height width : nat) (content : option strp) : res strp :=
  bind (label (has_border c) (title_style k) (t_title w)) (fun title =>
  bind (label (has_border c) (subtitle_style k) (t_sub w)) (fun sub =>
    Ok (Row_Model.render_line gw [] [32%Z] [8230%Z] [9472%Z] sty_default c y height width content title sub))).
End Title.
Arguments Sty {C}. Arguments y_fg {C}. Arguments y_bg {C}. Arguments y_flags {C}. Arguments sty_default {C}.
Arguments Css {C}.
