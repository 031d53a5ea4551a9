(** Specification vocabulary for the row and column layouts. *)
From Coq Require Import ZArith QArith Qround List Bool.
From Verif Require Import Fraction_Model Fraction_Spec Canvas_Model Layout_Model.
Import ListNotations.
Open Scope Z_scope.

(** Edges of a placed region. *)
Definition p_left (p : placement) : Z := rg_x (pl_region p).
Definition p_right (p : placement) : Z := rg_x (pl_region p) + rg_w (pl_region p).
Definition p_width (p : placement) : Z := rg_w (pl_region p).
Definition p_top (p : placement) : Z := rg_y (pl_region p).
Definition p_bottom (p : placement) : Z := rg_y (pl_region p) + rg_h (pl_region p).
Definition p_height (p : placement) : Z := rg_h (pl_region p).

(** Whole-cell horizontal margins. *)
Definition m_left (c : child) : Z := trunc (l_ml (ch_style c)).
Definition m_right (c : child) : Z := trunc (l_mr (ch_style c)).

(** The fr weight (in thousandths) of a child in a row: [n fr], or 1fr for a
    child with automatic width that asks for all the space.  [None]: the child
    has a width of its own. *)
Definition fr_weight (c : child) : option Z :=
  let wants_all := ch_dw c =? 65535 in
  match l_width (ch_style c) with
  | Some (Scalar v Fraction_) => Some (trunc (v * 1000))
  | Some (Scalar _ Auto) | None => if wants_all then Some 1000 else None
  | Some _ => None
  end.
Definition flexible (c : child) : bool := match fr_weight c with Some _ => true | None => false end.
Definition weight (c : child) : Z := match fr_weight c with Some k => k | None => 0 end.
Definition weights (l : list child) : Z := zsum (map weight l).

(** Margins of a row: before the first child, between neighbours the larger of
    the adjoining margins, after the last child. *)
Fixpoint gaps_after (l : list child) : Z :=
  match l with
  | [] => 0
  | c :: r => (match r with [] => m_right c | d :: _ => Z.max (m_right c) (m_left d) end) + gaps_after r
  end.
Definition row_gaps (l : list child) : Z :=
  (match l with [] => 0 | c :: _ => m_left c end) + gaps_after l.

(** Sum of the widths of the children selected by [p]. *)
Definition width_where (p : child -> bool) (children : list child) (ps : list placement) : Z :=
  zsum (map (fun x => if p (fst x) then p_width (snd x) else 0) (combine children ps)).

Definition no_width_limits (c : child) : Prop :=
  l_min_width (ch_style c) = None /\ l_max_width (ch_style c) = None.
Definition no_height_limits (c : child) : Prop :=
  l_min_height (ch_style c) = None /\ l_max_height (ch_style c) = None.

(** Non-negative style values, sizes and margins: what any CSS author writes. *)
Definition nonneg_scalar (o : option scalar) : Prop := match o with Some s => (0 <= s_value s)%Q | None => True end.
Definition nonneg_child (c : child) : Prop :=
  let s := ch_style c in
  nonneg_scalar (l_width s) /\ nonneg_scalar (l_height s) /\
  nonneg_scalar (l_min_width s) /\ nonneg_scalar (l_max_width s) /\
  nonneg_scalar (l_min_height s) /\ nonneg_scalar (l_max_height s) /\
  (0 <= l_mt s)%Q /\ (0 <= l_mr s)%Q /\ (0 <= l_mb s)%Q /\ (0 <= l_ml s)%Q /\
  (0 <= l_pt s)%Q /\ (0 <= l_pr s)%Q /\ (0 <= l_pb s)%Q /\ (0 <= l_pl s)%Q /\
  0 <= ch_dw c /\ 0 <= ch_dh c /\ (forall w, 0 <= ch_ih c w).
Definition nonneg_region (r : region) : Prop := 0 <= rg_w r /\ 0 <= rg_h r.
Definition nonneg_viewport (v : viewport) : Prop := 0 <= vp_w v /\ 0 <= vp_h v.

(** The larger of two adjoining vertical margins. *)
Definition collapsed (a b : Q) : Q := if Qle_bool a b then b else a.

Definition no_vertical_margins (c : child) : Prop := (l_mt (ch_style c) == 0)%Q /\ (l_mb (ch_style c) == 0)%Q.
Definition whole (q : Q) : Prop := exists z, (q == inject_Z z)%Q.
