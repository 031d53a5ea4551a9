(** Specification vocabulary for the titles in borders. *)
From Coq Require Import ZArith List Bool Arith.
From Verif Require Import Text_Model Markup_Model Strip_Model Strip_Spec Wrap_Model Wrap_Spec Title_Model.
Import ListNotations.
Open Scope nat_scope.

(** The title and the subtitle last asked for. *)
Fixpoint last_title (before : option text) (l : list call) : option text :=
  match l with
  | [] => before
  | WithTitle t :: r | SetTitle t :: r => last_title (Some t) r
  | _ :: r => last_title before r
  end.
Fixpoint last_sub (before : option text) (l : list call) : option text :=
  match l with
  | [] => before
  | WithSub t :: r | SetSub t :: r => last_sub (Some t) r
  | _ :: r => last_sub before r
  end.
(** The kinds of widgets that keep titles themselves. *)
Definition keeps_titles (k : kind) : Prop := k = KStatic \/ k = KLabel \/ k = KContainer.

(** The line of a text of several lines that becomes the title, with the byte it
    starts at: the first that has something on it, or nothing at all. *)
Definition only_blanks (l : text) : Prop := l <> [] /\ blank l.
Inductive title_line : nat -> list text -> nat -> text -> Prop :=
| line_none : forall p, title_line p [] p []
| line_here : forall p l r, ~ only_blanks l -> title_line p (l :: r) p l
| line_skip : forall p l r q m, only_blanks l -> title_line (p + blen l + 1) r q m -> title_line p (l :: r) q m.

(** Text without the blanks at its end. *)
Definition without_end (l shown : text) : Prop :=
  exists tail, l = shown ++ tail /\ blank tail /\ (shown = [] \/ exists a c, shown = a ++ [c] /\ is_ws c = false).

Section Spec.
Variable gr : text -> list text.
Variable gw : text -> nat.
Context {C : Type}.
Variable rgb : color -> C.
Variable usize_max : nat.

(** Every word takes up room, and no line is longer than a computer could hold. *)
Definition fair (t : text) : Prop :=
  forall l, In l (split_char 10%Z t) -> Forall (fun w => 0 < dw gr gw w) (split_ws l) /\
    fold_right (fun w n => 1 + dw gr gw w + n) 0 (split_ws l) <= usize_max.

(** What the markup says about a character goes before what the title's style says;
    bold, italic and so on come from either. *)
Definition dressed (base : @sty C) (m : Markup_Model.style) (s : @sty C) : Prop :=
  y_fg s = match s_fg m with Some c => Some (rgb c) | None => y_fg base end /\
  y_bg s = match s_bg m with Some c => Some (rgb c) | None => y_bg base end /\
  y_flags s = Flags (f_bold (y_flags base) || ts_bold (s_text m)) (f_dim (y_flags base) || ts_dim (s_text m))
                    (f_italic (y_flags base) || ts_italic (s_text m)) (f_underline (y_flags base) || ts_underline (s_text m))
                    (f_strike (y_flags base) || ts_strike (s_text m)) (f_reverse (y_flags base) || ts_reverse (s_text m)).
(** The characters of [t], which starts at byte [pos] of the text of [m], one by one. *)
Fixpoint dressed_text (base : @sty C) (m : parsed) (pos : nat) (t : text) (l : list (char * @sty C)) : Prop :=
  match t, l with
  | [], [] => True
  | c :: t', (d, s) :: l' => d = c /\ dressed base (Markup_Model.style_at m pos) s /\ dressed_text base m (pos + utf8_len c) t' l'
  | _, _ => False
  end.
(** What is seen of a strip: characters and styles. *)
Definition seen (s : @strip text (@sty C) meta) : list (char * @sty C) := map fst (view sty_default s).
End Spec.
