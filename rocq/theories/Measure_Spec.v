(** Specification of automatic container sizes: how much room the children of a
    column or row take up. *)
From Coq Require Import ZArith QArith Qround List Bool.
From Verif Require Import Fraction_Model Fraction_Spec Canvas_Model Layout_Model Layout_Spec Sizes_Spec.
Import ListNotations.
Open Scope Z_scope.

(** The children that take part in the layout. *)
Definition shown (l : list (bool * child)) : list child := map snd (filter fst l).

(** A size left to the container. *)
Definition automatic (o : option scalar) : Prop :=
  match o with Some s => s_unit s = Auto | None => True end.
(** A size relative to something else. *)
Definition relative (o : option scalar) : Prop :=
  match o with Some s => s_unit s <> Auto /\ s_unit s <> Cells | None => False end.

(** Border and padding. *)
Definition around_width (s : lstyle) : Z := one_if (l_bl s) + one_if (l_br s) + Qfloor (l_pl s) + Qfloor (l_pr s).
Definition around_height (s : lstyle) : Z := one_if (l_bt s) + one_if (l_bb s) + Qfloor (l_pt s) + Qfloor (l_pb s).
Definition reasonable (s : lstyle) : Prop :=
  (0 <= l_pt s)%Q /\ (0 <= l_pr s)%Q /\ (0 <= l_pb s)%Q /\ (0 <= l_pl s)%Q /\
  around_width s <= 65535 /\ around_height s <= 65535.

(** Where placed children end, margin included; [y] or [x] if there are none. *)
Definition end_below (y : Z) (cs : list child) (ps : list placement) : Z :=
  fold_left (fun _ x => p_bottom (snd x) + m_bottom (fst x)) (combine cs ps) y.
Definition end_right (x : Z) (cs : list child) (ps : list placement) : Z :=
  fold_left (fun _ y => p_right (snd y) + mr (fst y)) (combine cs ps) x.

(** A child placed with the size it desires. *)
Definition gets_height (c : child) (p : placement) : Prop := p_height p = ch_dh c.
Definition gets_width (c : child) (p : placement) : Prop := p_width p = ch_dw c.

(** The largest of a number of sizes, 0 for none. *)
Definition largest (f : child -> Z) (cs : list child) : Z := fold_right Z.max 0 (map f cs).

Definition whole_vertical_margins (c : child) : Prop := whole (l_mt (ch_style c)) /\ whole (l_mb (ch_style c)).

(** Children whose height in a column is their desired height: automatic height
    that does not depend on the width, or a whole number of rows (border and
    padding included); no limits. *)
Definition plain_height (c : child) : Prop :=
  no_height_limits c /\ ch_dh c <> 65535 /\
  match l_height (ch_style c) with
  | None => True
  | Some s =>
      match s_unit s with
      | Auto => forall w, ch_ih c w = ch_dh c
      | Cells => l_content_box (ch_style c) = false /\ ch_dh c = Qfloor (s_value s)
      | _ => False
      end
  end.
(** The same for widths in a row. *)
Definition plain_width (c : child) : Prop :=
  no_width_limits c /\ ch_dw c <> 65535 /\
  match l_width (ch_style c) with
  | None => True
  | Some s =>
      match s_unit s with
      | Auto => True
      | Cells => l_content_box (ch_style c) = false /\ ch_dw c = Qfloor (s_value s)
      | _ => False
      end
  end.
(** The first margin of a column or row. *)
Definition first_top (cs : list child) : Z := match cs with [] => 0 | c :: _ => m_top c end.
Definition first_left (cs : list child) : Z := match cs with [] => 0 | c :: _ => ml c end.

(** A scrollable container counts two rows and two columns for any border. *)
Definition scroll_around_width (s : lstyle) (bordered : bool) : Z := (if bordered then 2 else 0) + Qfloor (l_pl s) + Qfloor (l_pr s).
Definition scroll_around_height (s : lstyle) (bordered : bool) : Z := (if bordered then 2 else 0) + Qfloor (l_pt s) + Qfloor (l_pb s).
(** What a child takes with its margins; a child that fills counts 1000. *)
Definition taken_height (c : child) : Z := m_top c + (if ch_dh c =? 65535 then 1000 else ch_dh c) + m_bottom c.
Definition taken_width (c : child) : Z := ml c + (if ch_dw c =? 65535 then 1000 else ch_dw c) + mr c.
Definition margins_fit (c : child) : Prop := m_top c <= 65535 /\ m_bottom c <= 65535 /\ ml c <= 65535 /\ mr c <= 65535.
