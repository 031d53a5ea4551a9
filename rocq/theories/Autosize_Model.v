(** Model of the size a static text asks for when its style does not give one
    (crates/textual/src/widget/static_widget.rs) and of the content it makes of its
    text (static_widget.rs, content.rs).

    Markup_Model has the markup parser, Wrap_Model the content, Static_Model the
    drawing.  Styles and metadata of the markup become those of the screen by
    [conv] and [convm] (content.rs:128-152), which are parameters. *)
From Coq Require Import ZArith List Bool Arith.
From Verif Require Import Text_Model Strip_Model Row_Model Variables_Model Markup_Model Wrap_Model Static_Model.
Import ListNotations.
Open Scope nat_scope.

Section Autosize.
Variable gr : text -> list text.
Variable gw : text -> nat.
Context {St Mt : Type}.
Variable sapply : St -> St -> St.
Variable sdefault : St.
Variable sempty : St -> bool.
Variable mnew : Mt.
Variable mempty : Mt -> bool.
Variable mextend : Mt -> Mt -> Mt.
Variable restyle : St -> Mt -> St.
Variable lower : text -> text.
Variable known_color : text -> bool.
Variable conv : Markup_Model.style -> St.
Variable convm : list (text * text) -> Mt.
Notation look := (@look text St Mt).

(** content.rs:109-119, one span *)
Definition conv_span (s : Markup_Model.span) : @Wrap_Model.span St Mt :=
  Wrap_Model.Span (Markup_Model.sp_start s) (Markup_Model.sp_end s) (conv (Markup_Model.sp_style s)) (convm (Markup_Model.sp_meta s)).
(** content.rs:105-126 [Content::from_markup], what is made of parsed markup, and
    155-158 [with_style] *)
Definition from_parsed (m : parsed) (st : St) : @content St Mt :=
  Content (pm_text m) (Some st) (if is_nil (pm_spans m) then None else Some (map conv_span (pm_spans m))).
(** static_widget.rs:475-482, 838-842: text that does not parse is shown as it is;
    [Panic] if the parser panics *)
Definition content_of (markup : bool) (src : text) (st : St) : res (@content St Mt) :=
  if markup then
    match parse lower known_color src with
    | Ok m => Ok (from_parsed m st)
    | Err => Ok (Content src (Some st) None)
    | Panic => Panic
    end
  else Ok (Content src (Some st) None).

(** static_widget.rs:31-37 [count_lines_preserving_trailing] *)
Definition count_lines (src : text) : nat := if is_nil src then 1 else length (split_char 10%Z src).
(** static_widget.rs:756, 763 [text.lines().map(display_width).max().unwrap_or(0)] *)
Definition widest_line (src : text) : nat := fold_right (fun l n => Nat.max (dw gr gw l) n) 0 (Variables_Model.lines src).

(** [as u16], [u16::saturating_add], [u16::saturating_mul] and [+] on u16 ([None]:
    overflow, which panics in a debug build) *)
Definition as_u16 (z : Z) : Z := Z.modulo z 65536.
Definition sat (z : Z) : Z := Z.min z 65535.
Definition plus16 (a b : Z) : option Z := if (a + b <=? 65535)%Z then Some (a + b)%Z else None.
(** static_widget.rs:754-765: the width of [desired_size] when the style says auto
    or nothing *)
Definition desired_width (k : look) (src : text) : option Z :=
  plus16 (sat (as_u16 (Z.of_nat (widest_line src)) + sat (Z.of_nat (k_line_pad k) * 2))) (Z.of_nat (chrome_width k)).
(** static_widget.rs:786-796: its height *)
Definition desired_height (k : look) (src : text) : option Z :=
  plus16 (as_u16 (Z.of_nat (count_lines src))) (Z.of_nat (chrome_height k)).

(** static_widget.rs:488-493: the wrapped lines as [Static_Model.draw] takes them;
    no lines if wrapping panics *)
Definition wrapped (c : @content St Mt) (o : overflow) (tw : text_wrap) (width : nat) : list (@wline text St Mt) :=
  match wrap_overflow gr gw sapply sdefault sempty mnew mempty mextend restyle c width o tw with
  | Some out => map (fun p => WLine (fst p) (snd p)) out
  | None => []
  end.
End Autosize.
