(** Specification for rendered rows: a row is the list of its cells. *)
From Coq Require Import List Arith.
From Verif Require Import Strip_Model Strip_Spec Row_Model.
Import ListNotations.

Section Spec.
Context {G St Mt : Type}.
Variable gw : G -> nat.
Notation cell := (@cell G St Mt).

(** [l] cut or filled up with [pad] to exactly [n] cells *)
Definition fit (n : nat) (pad : cell) (l : list cell) : list cell := firstn n l ++ repeat pad (n - length l).

(** A line of one-cell clusters whose cached lengths are right. *)
Definition plain (s : @strip G St Mt) : Prop := strip_ok gw s /\ all_narrow gw (cells s).
Definition plain_opt (o : option (@strip G St Mt)) : Prop := forall s, o = Some s -> plain s.
Definition cells_opt (o : option (@strip G St Mt)) : list cell := match o with Some s => cells s | None => [] end.

(** A border segment is one glyph, one cell wide. *)
Definition one_cell (x : @segment G St Mt) : Prop := exists g, sg_text x = [g] /\ gw g = 1 /\ sg_len x = 1.
Definition row_ok (r : @box_row G St Mt) : Prop := let '(l, f, r') := r in one_cell l /\ one_cell f /\ one_cell r'.
Definition box_ok (b : @box_row G St Mt * @box_row G St Mt * @box_row G St Mt) : Prop :=
  let '(t, m, bt) := b in row_ok t /\ row_ok m /\ row_ok bt.

Definition edge_cells (b : bool) (x : @segment G St Mt) : list cell := if b then seg_cells x else [].

(** Where a label of [n] cells sits in a line of [w] cells: [a] cells before it,
    [b] after it, at least one each. *)
Definition placed (align : halign) (w n a b : nat) : Prop :=
  a + n + b = w /\ 1 <= a /\ 1 <= b /\
  match align with HLeft => a = 1 | HRight => b = 1 | HCenter => a = b \/ S a = b end.

(** Borders, padding and outline fit into [w] columns, and [w] is at least 6 if
    there is a label to show. *)
Definition fits (c : @cache G St Mt) (w : nat) (title subtitle : option (@strip G St Mt)) : Prop :=
  b2n (e_left (rc_border c)) + b2n (e_right (rc_border c)) + e_left (rc_padding c) + e_right (rc_padding c) <= w /\
  b2n (e_left (rc_outline c)) + b2n (e_right (rc_outline c)) <= w /\
  (title <> None \/ subtitle <> None -> 6 <= w).

(** [y] is a row between the top and the bottom border of a box [h] rows high
    and shows no label: labels are shown on the first and last row of boxes that
    have side borders but no border there. *)
Definition sides (c : @cache G St Mt) : bool := e_left (rc_border c) || e_right (rc_border c).
Definition inside (c : @cache G St Mt) (y h : nat) : Prop :=
  b2n (e_top (rc_border c)) <= y < h - b2n (e_bottom (rc_border c)).
Definition no_label (c : @cache G St Mt) (y h : nat) (title subtitle : option (@strip G St Mt)) : Prop :=
  (sides c = true -> e_top (rc_border c) = false -> y = 0 -> title = None) /\
  (sides c = true -> e_bottom (rc_border c) = false -> S y = h -> subtitle = None).

(** Nothing drawn over the row. *)
Definition no_outline (c : @cache G St Mt) : Prop := any_edge (rc_outline c) = false.
Definition without_outline (c : @cache G St Mt) : @cache G St Mt :=
  Cache (rc_border c) (rc_box c) (rc_padding c) (Edges false false false false) (rc_outline_box c) (rc_title_align c) (rc_subtitle_align c) (rc_pad_style c).
Definition boxes_ok (c : @cache G St Mt) : Prop := box_ok (rc_box c) /\ box_ok (rc_outline_box c).
End Spec.
