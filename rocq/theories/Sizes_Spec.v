(** Specification of sizes: what the lengths of a style mean. *)
From Coq Require Import ZArith QArith Qround List Bool.
From Verif Require Import Fraction_Model Fraction_Spec Canvas_Model Layout_Model Layout_Spec.
Import ListNotations.
Open Scope Z_scope.

(** What 100 of a unit are, if it is a relative one: [%] refers to the container
    along the axis at hand, [w] and [h] to the container, [vw] and [vh] to the
    terminal. *)
Definition hundred (percent_of : Z) (a : region) (v : viewport) (u : unit_) : option Z :=
  match u with
  | Percent => Some percent_of
  | UWidth => Some (rg_w a)
  | UHeight => Some (rg_h a)
  | ViewWidth => Some (vp_w v)
  | ViewHeight => Some (vp_h v)
  | Cells | Fraction_ | Auto => None
  end.
Definition length_ (percent_of : Z) (a : region) (v : viewport) (s : scalar) : Q :=
  match hundred percent_of a v (s_unit s) with
  | Some n => (s_value s * inject_Z n / 100)%Q
  | None => s_value s
  end.
(** Rounding to a whole number of cells. *)
Definition nearest (q : Q) : Z := Qfloor (q + (1 # 2)).
(** Between a minimum and a maximum; the minimum wins. *)
Definition limited (lo hi : option Z) (n : Z) : Z :=
  let n := match hi with Some h => Z.min n h | None => n end in
  match lo with Some l => Z.max n l | None => n end.
Definition limit (percent_of : Z) (a : region) (v : viewport) (o : option scalar) : option Z :=
  option_map (fun s => Qfloor (length_ percent_of a v s)) o.
(** Whole-cell margins, and what border and padding add to a content-box size. *)
Definition m_top (c : child) : Z := Qfloor (l_mt (ch_style c)).
Definition m_bottom (c : child) : Z := Qfloor (l_mb (ch_style c)).
Definition ml (c : child) : Z := Qfloor (l_ml (ch_style c)).
Definition mr (c : child) : Z := Qfloor (l_mr (ch_style c)).
Definition one_if (b : bool) : Z := if b then 1 else 0.
Definition extra_width (c : child) : Z :=
  let s := ch_style c in
  if l_content_box s then one_if (l_bl s) + one_if (l_br s) + Qfloor (l_pl s) + Qfloor (l_pr s) else 0.
Definition extra_height (c : child) : Z :=
  let s := ch_style c in
  if l_content_box s then one_if (l_bt s) + one_if (l_bb s) + Qfloor (l_pt s) + Qfloor (l_pb s) else 0.

(** *** Rows *)
(** The width a child without an fr width asks for in a row; relative widths are
    rounded to thousandths of a percent. *)
Definition thousandths (q : Q) : Q := (inject_Z (nearest (q * 1000)) / 1000)%Q.
Definition row_width (c : child) (a : region) (v : viewport) : Q :=
  match l_width (ch_style c) with
  | Some s =>
      match s_unit s with
      | Cells => inject_Z (Qfloor (s_value s) + extra_width c)
      | Auto => inject_Z (ch_dw c)
      | Fraction_ => 0
      | u => length_ (rg_w a) a v (Scalar (thousandths (s_value s)) u) + inject_Z (extra_width c)
      end
  | None => inject_Z (ch_dw c)
  end%Q.
(** The same children without limits on their widths. *)
Definition unlimited (c : child) : child :=
  let s := ch_style c in
  Child (ch_index c)
    (LStyle (l_width s) (l_height s) None None (l_min_height s) (l_max_height s)
      (l_mt s) (l_mr s) (l_mb s) (l_ml s) (l_pt s) (l_pr s) (l_pb s) (l_pl s)
      (l_bt s) (l_br s) (l_bb s) (l_bl s) (l_content_box s) (l_dock s) (l_absolute s) (l_layer s)
      (l_offset_x s) (l_offset_y s) (l_col_span s) (l_row_span s))
    (ch_dw c) (ch_dh c) (ch_ih c).
(** Heights in a row. *)
Definition auto_height (c : child) : bool :=
  match l_height (ch_style c) with Some s => match s_unit s with Auto => true | _ => false end | None => false end.
Definition row_height_asked (c : child) (a : region) (width : Z) : Z :=
  match l_height (ch_style c) with
  | Some s =>
      match s_unit s with
      | Auto => ch_ih c width
      | Cells => Qfloor (s_value s) + extra_height c
      | Percent => Qfloor (s_value s * inject_Z (rg_h a) / 100) + extra_height c
      | _ => rg_h a
      end
  | None => rg_h a
  end.
(** Units that mean something for the height of a child of a row, and for the
    width of a child of a column. *)
Definition across_unit (o : option scalar) : Prop :=
  match o with Some s => match s_unit s with Cells | Percent | Fraction_ | Auto => True | _ => False end | None => True end.

(** *** Columns *)
Definition column_width (c : child) (a : region) : Z :=
  match l_width (ch_style c) with
  | Some s =>
      match s_unit s with
      | Cells => Qfloor (s_value s)
      | Auto => ch_dw c
      | Percent => Z.max 0 (nearest (s_value s * inject_Z (rg_w a) / 100) - ml c - mr c)
      | _ => Z.max 0 (rg_w a - ml c - mr c)
      end
  | None => Z.max 0 (rg_w a - ml c - mr c)
  end.

(** The number of fr a child of a column is high. *)
Definition height_fr (c : child) : option Q :=
  match l_height (ch_style c) with
  | Some s => match s_unit s with Fraction_ => Some (s_value s) | _ => None end
  | None => if ch_dh c =? 65535 then Some 1%Q else None
  end.
Definition fr_of (c : child) : Q := match height_fr c with Some q => q | None => 0%Q end.
(** The height any other child asks for, its width being [w]; [w] units refer to
    the terminal here. *)
Definition column_height_asked (c : child) (a : region) (v : viewport) (w : Z) : Q :=
  match l_height (ch_style c) with
  | Some s =>
      match s_unit s with
      | Auto => inject_Z (ch_ih c w)
      | Cells => inject_Z (Qfloor (s_value s) + extra_height c)
      | UWidth => (s_value s * inject_Z (vp_w v) / 100)%Q
      | _ => length_ (rg_h a) a v s
      end
  | None => inject_Z (ch_dh c)
  end.
Definition qlimited (lo hi : option Q) (q : Q) : Q :=
  let q := match hi with Some h => if Qle_bool q h then q else h | None => q end in
  match lo with Some l => if Qle_bool l q then q else l | None => q end.
(** Percentages of the height and fr heights include the margins. *)
Definition includes_margins (c : child) : bool :=
  match l_height (ch_style c) with
  | Some s => match s_unit s with Percent | UHeight | Fraction_ => true | _ => false end
  | None => ch_dh c =? 65535
  end.
Definition column_height (fr_size : Q) (c : child) (a : region) (v : viewport) (w : Z) : Q :=
  let s := ch_style c in
  let asked := match height_fr c with Some n => (n * fr_size)%Q | None => column_height_asked c a v w end in
  let h := qlimited (option_map (length_ (rg_h a) a v) (l_min_height s)) (option_map (length_ (rg_h a) a v) (l_max_height s)) asked in
  if includes_margins c then (let r := h - l_mt s - l_mb s in if Qle_bool 0 r then r else 0)%Q else h.
(** Margins of a column. *)
Fixpoint col_gaps_after (l : list child) : Q :=
  match l with
  | [] => 0
  | c :: r => ((match r with [] => l_mb (ch_style c) | d :: _ => collapsed (l_mb (ch_style c)) (l_mt (ch_style d)) end) + col_gaps_after r)
  end%Q.
Definition col_gaps (l : list child) : Q := (match l with [] => 0 | c :: _ => l_mt (ch_style c) end + col_gaps_after l)%Q.
(** The width a child of a column is given. *)
Definition column_width_given (c : child) (a : region) (v : viewport) : Z :=
  limited (limit (rg_w a) a v (l_min_width (ch_style c))) (limit (rg_w a) a v (l_max_width (ch_style c))) (column_width c a).
(** What a width is as a 16-bit number. *)
Definition as_u16 (n : Z) : Z := Z.max 0 (Z.min n 65535).
(** One fr: what the others and the margins leave, in equal parts; one row if
    nothing is left. *)
Definition fr_size_is (children : list child) (a : region) (v : viewport) (u : Q) : Prop :=
  let left_over := (inject_Z (rg_h a) -
    qsum (map (fun c => match height_fr c with Some _ => 0 | None => column_height_asked c a v (as_u16 (column_width_given c a v)) end) children) - col_gaps children)%Q in
  let frs := qsum (map fr_of children) in
  ((0 < left_over)%Q -> (0 < frs)%Q -> (u * frs == left_over)%Q) /\ ((left_over <= 0)%Q -> (u == 1)%Q).
(** Where the children of a column begin and end, exactly. *)
Fixpoint exact_column (u : Q) (a : region) (v : viewport) (y : Q) (l : list child) : list (Q * Q) :=
  match l with
  | [] => []
  | c :: r =>
      let b := (y + column_height u c a v (as_u16 (column_width_given c a v)))%Q in
      (y, b) :: exact_column u a v (b + match r with [] => 0 | d :: _ => collapsed (l_mb (ch_style c)) (l_mt (ch_style d)) end)%Q r
  end.
