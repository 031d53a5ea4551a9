(** Model of crates/textual/src/layouts: size_resolver.rs, horizontal.rs,
    vertical.rs.

    Simplifications: f64 values are exact rationals; i32 and i64 are unbounded
    integers; [u16::MAX] is 65535.  A style is reduced to the fields the layouts
    read.  [intrinsic_height_for_width] is a function of the child. *)
From Coq Require Import ZArith QArith Qround Qminmax List Bool.
From Verif Require Import Fraction_Model Canvas_Model.
Import ListNotations.
Open Scope Z_scope.

(** tcss/src/types/geometry.rs:13-33 [enum Unit], 42-47 [struct Scalar] *)
Inductive unit_ := Cells | Percent | UWidth | UHeight | ViewWidth | ViewHeight | Fraction_ | Auto.
Record scalar := Scalar { s_value : Q; s_unit : unit_ }.

(** f64 [as i32]: truncation towards zero *)
Definition trunc (q : Q) : Z := Z.quot (Qnum q) (QDen q).
(** [f64::round]: half away from zero *)
Definition round (q : Q) : Z :=
  if Qle_bool 0 q then Qfloor (q + (1 # 2)) else - Qfloor (- q + (1 # 2)).
(** [(v / 100.0) * n as f64] *)
Definition pct (v : Q) (n : Z) : Q := (v / 100 * inject_Z n)%Q.

(** tcss/src/types/style.rs [Dock] *)
Inductive dock_edge := DockTop | DockBottom | DockLeft | DockRight.

(** The fields of [ComputedStyle] read by the layouts; a border flag is
    [!matches!(kind, None | Hidden)] *)
Record lstyle := LStyle {
  l_width : option scalar; l_height : option scalar;
  l_min_width : option scalar; l_max_width : option scalar;
  l_min_height : option scalar; l_max_height : option scalar;
  l_mt : Q; l_mr : Q; l_mb : Q; l_ml : Q;
  l_pt : Q; l_pr : Q; l_pb : Q; l_pl : Q;
  l_bt : bool; l_br : bool; l_bb : bool; l_bl : bool;
  l_content_box : bool;
  l_dock : option dock_edge; l_absolute : bool; l_layer : option (list Z);
  l_offset_x : option scalar; l_offset_y : option scalar;
  l_col_span : nat; l_row_span : nat }.

(** mod.rs:63-68 [LayoutChild] *)
Record child := Child {
  ch_index : nat; ch_style : lstyle; ch_dw : Z; ch_dh : Z; ch_ih : Z -> Z }.

(** mod.rs:72-77 [WidgetPlacement] *)
Record placement := Placement { pl_index : nat; pl_region : region }.

(** mod.rs:81-84 [Viewport] *)
Record viewport := Viewport { vp_w : Z; vp_h : Z }.

Definition u16_max : Z := 65535.
(** [clamp(0, u16::MAX) as u16] *)
Definition clamp_u16 (n : Z) : Z := Z.max 0 (Z.min n u16_max).

Definition b2z (b : bool) : Z := if b then 1 else 0.

(** size_resolver.rs:222-240 [vertical_chrome], 245-266 [horizontal_chrome] *)
Definition vertical_chrome (s : lstyle) : Z := b2z (l_bt s) + b2z (l_bb s) + trunc (l_pt s) + trunc (l_pb s).
Definition horizontal_chrome (s : lstyle) : Z := b2z (l_bl s) + b2z (l_br s) + trunc (l_pl s) + trunc (l_pr s).

(** size_resolver.rs:279-302 [apply_box_sizing_height], [apply_box_sizing_width] *)
Definition apply_box_sizing_height (h : Z) (s : lstyle) : Z := if l_content_box s then h + vertical_chrome s else h.
Definition apply_box_sizing_width (w : Z) (s : lstyle) : Z := if l_content_box s then w + horizontal_chrome s else w.

(** size_resolver.rs:138-155 [resolve_width_with_intrinsic] *)
Definition resolve_width_with_intrinsic (s : lstyle) (intrinsic available : Z) : Z :=
  match l_width s with
  | Some w =>
      match s_unit w with
      | Cells => trunc (s_value w)
      | Percent => round (pct (s_value w) available)
      | Auto => intrinsic
      | Fraction_ => available
      | _ => trunc (s_value w)
      end
  | None => available
  end.

(** size_resolver.rs:191-213 [resolve_height_full] as called by
    [resolve_height_with_intrinsic] (164-178): every basis is the available height *)
Definition resolve_height_with_intrinsic (s : lstyle) (intrinsic available : Z) : Z :=
  match l_height s with
  | Some h =>
      match s_unit h with
      | Cells => trunc (s_value h)
      | Auto => intrinsic
      | Fraction_ => available
      | _ => round (pct (s_value h) available)
      end
  | None => available
  end.

(** The [max_w]/[min_w] match, e.g. horizontal.rs:192-200, vertical.rs:56-64:
    truncated value of a constraint *)
Definition constraint_z (m : scalar) (available : region) (v : viewport) : Z :=
  match s_unit m with
  | Cells => trunc (s_value m)
  | Percent => trunc (pct (s_value m) (rg_w available))
  | UWidth => trunc (pct (s_value m) (rg_w available))
  | UHeight => trunc (pct (s_value m) (rg_h available))
  | ViewWidth => trunc (pct (s_value m) (vp_w v))
  | ViewHeight => trunc (pct (s_value m) (vp_h v))
  | _ => trunc (s_value m)
  end.

(** The same for heights (horizontal.rs:252-260): percent is of the height *)
Definition constraint_h (m : scalar) (available : region) (v : viewport) : Z :=
  match s_unit m with
  | Percent => trunc (pct (s_value m) (rg_h available))
  | _ => constraint_z m available v
  end.

(** horizontal.rs:190-220, vertical.rs:54-84: maximum, then minimum *)
Definition clamp_width (s : lstyle) (available : region) (v : viewport) (w : Z) : Z :=
  let w := match l_max_width s with Some m => Z.min w (constraint_z m available v) | None => w end in
  match l_min_width s with Some m => Z.max w (constraint_z m available v) | None => w end.

(** horizontal.rs:250-280 *)
Definition clamp_height (s : lstyle) (available : region) (v : viewport) (h : Z) : Z :=
  let h := match l_max_height s with Some m => Z.min h (constraint_h m available v) | None => h end in
  match l_min_height s with Some m => Z.max h (constraint_h m available v) | None => h end.

(** *** Horizontal layout *)

(** horizontal.rs:28-31 [percent_to_fraction] *)
Definition percent_to_fraction (v : Q) (basis : Z) : fraction :=
  frac_new (basis * round (v * 1000)) (100 * 1000).

(** horizontal.rs:32-37 [apply_box_sizing_width_fraction] *)
Definition box_fraction (f : fraction) (s : lstyle) : fraction :=
  if l_content_box s then frac_add f (frac_of_int (horizontal_chrome s)) else f.

(** What the first pass finds for a child: a share of the fixed widths, or fr
    thousandths (horizontal.rs:63-146) *)
Inductive hwidth := HFixed (share : fraction) | HFr (value : Z).

Definition auto_width (c : child) : hwidth :=
  if ch_dw c =? u16_max then HFr 1000 else HFixed (frac_of_int (ch_dw c)).

Definition hwidth_of (available : region) (v : viewport) (c : child) : hwidth :=
  let s := ch_style c in
  match l_width s with
  | Some w =>
      match s_unit w with
      | Fraction_ => HFr (trunc (s_value w * 1000))
      | Cells => HFixed (frac_of_int (apply_box_sizing_width (trunc (s_value w)) s))
      | Percent => HFixed (box_fraction (percent_to_fraction (s_value w) (rg_w available)) s)
      | UWidth => HFixed (box_fraction (percent_to_fraction (s_value w) (rg_w available)) s)
      | UHeight => HFixed (box_fraction (percent_to_fraction (s_value w) (rg_h available)) s)
      | ViewWidth => HFixed (box_fraction (percent_to_fraction (s_value w) (vp_w v)) s)
      | ViewHeight => HFixed (box_fraction (percent_to_fraction (s_value w) (vp_h v)) s)
      | Auto => auto_width c
      end
  | None => auto_width c
  end.

(** horizontal.rs:40-152: fixed widths with the carried remainder *)
Fixpoint fixed_pass (rem : fraction) (l : list hwidth) : list (option Z) :=
  match l with
  | [] => []
  | HFr _ :: r => None :: fixed_pass rem r
  | HFixed share :: r =>
      let raw := frac_add share rem in
      Some (frac_floor raw) :: fixed_pass (frac_fract raw) r
  end.

Definition sumz (l : list Z) : Z := fold_left Z.add l 0.
Definition fixed_sum (l : list (option Z)) : Z := sumz (map (fun o => match o with Some w => w | None => 0 end) l).
Definition total_fr (l : list hwidth) : Z := sumz (map (fun h => match h with HFr v => v | HFixed _ => 0 end) l).

(** horizontal.rs:54-61: margins with collapsing; [first] is [i == 0] *)
Fixpoint margin_pass (first : bool) (prev : Z) (l : list child) : Z :=
  match l with
  | [] => 0
  | c :: r =>
      let ml := trunc (l_ml (ch_style c)) in
      let mr := trunc (l_mr (ch_style c)) in
      (if first then ml else Z.max (ml - prev) 0) + mr + margin_pass false mr r
  end.

(** horizontal.rs:160-168: rounded-down fr widths *)
Definition fr_floor (remaining total : Z) (h : hwidth) : option Z :=
  match h with
  | HFr v => Some (frac_floor (frac_mul_ratio (frac_of_int remaining) v total))
  | HFixed _ => None
  end.

(** horizontal.rs:170-177: one more cell for each of the first fr children *)
Fixpoint hand_out (leftover : Z) (l : list (option Z)) : list (option Z) :=
  match l with
  | [] => []
  | None :: r => None :: hand_out leftover r
  | Some w :: r => if leftover <=? 0 then l else Some (w + 1) :: hand_out (leftover - 1) r
  end.

(** horizontal.rs:156-178 *)
Definition fr_pass (remaining : Z) (l : list hwidth) : list Z :=
  let total := total_fr l in
  if (0 <? total) && (0 <? remaining) then
    let floors := map (fr_floor remaining total) l in
    map (fun o => match o with Some w => w | None => 0 end) (hand_out (remaining - fixed_sum floors) floors)
  else map (fun _ => 0) l.

(** horizontal.rs:39-178, 188: the widths of all children before constraints *)
Definition row_widths (children : list child) (available : region) (v : viewport) : list Z :=
  let hs := map (hwidth_of available v) children in
  let fixed := fixed_pass frac_zero hs in
  let remaining := Z.max (rg_w available - fixed_sum fixed - margin_pass true 0 children) 0 in
  map (fun p => match fst p with Some w => w | None => snd p end) (combine fixed (fr_pass remaining hs)).

(** horizontal.rs:222-248, 299-309: the height of a child *)
Definition row_height (c : child) (available : region) (v : viewport) (width : Z) : Z :=
  let s := ch_style c in
  let h :=
    match l_height s with
    | Some h =>
        match s_unit h with
        | Auto => ch_ih c (clamp_u16 width)
        | Fraction_ => rg_h available
        | Cells => apply_box_sizing_height (trunc (s_value h)) s
        | Percent => apply_box_sizing_height (trunc (pct (s_value h) (rg_h available))) s
        | _ => apply_box_sizing_height (trunc (s_value h)) s
        end
    | None => rg_h available
    end in
  let h := clamp_height s available v h in
  let is_auto := match l_height s with Some x => match s_unit x with Auto => true | _ => false end | None => false end in
  if is_auto then h else Z.max (h - trunc (l_mt s) - trunc (l_mb s)) 0.

(** horizontal.rs:180-324: placing *)
Fixpoint row_place (first : bool) (prev x : Z) (available : region) (v : viewport) (l : list (child * Z)) : list placement :=
  match l with
  | [] => []
  | (c, w) :: r =>
      let s := ch_style c in
      let width := clamp_width s available v w in
      let ml := trunc (l_ml s) in
      let mr := trunc (l_mr s) in
      let x := x + (if first then ml else Z.max (ml - prev) 0) in
      Placement (ch_index c) (Region x (rg_y available + trunc (l_mt s)) width (row_height c available v width))
        :: row_place false mr (x + width + mr) available v r
  end.

(** horizontal.rs:20-327 [HorizontalLayout::arrange] *)
Definition horizontal_arrange (children : list child) (available : region) (v : viewport) : list placement :=
  row_place true 0 (rg_x available) available v (combine children (row_widths children available v)).

(** *** Vertical layout *)

(** vertical.rs:36-47 [should_reduce_by_margins] for widths *)
Definition reduce_width (s : lstyle) : bool :=
  match l_width s with
  | Some w => match s_unit w with Cells | Auto => false | _ => true end
  | None => true
  end.

(** vertical.rs:25-85 [resolve_child_width] *)
Definition resolve_child_width (c : child) (available : region) (v : viewport) : Z :=
  let s := ch_style c in
  let base := resolve_width_with_intrinsic s (ch_dw c) (rg_w available) in
  let w := if reduce_width s then Z.max (base - trunc (l_ml s) - trunc (l_mr s)) 0 else base in
  clamp_width s available v w.

Local Open Scope Q_scope.
Definition qz (n : Z) : Q := inject_Z n.

(** vertical.rs:111, 201: intrinsic height at the resolved width *)
Definition intrinsic_height (c : child) (available : region) (v : viewport) : Q :=
  qz (ch_ih c (clamp_u16 (resolve_child_width c available v))).

Definition is_fill (c : child) : bool := (ch_dh c =? u16_max)%Z.

(** vertical.rs:122-161: a child's part of the fixed total *)
Definition fixed_height (c : child) (available : region) (v : viewport) : Q :=
  let s := ch_style c in
  match l_height s with
  | Some h =>
      match s_unit h with
      | Fraction_ => 0
      | Cells => qz (apply_box_sizing_height (trunc (s_value h)) s)
      | Percent | UHeight => pct (s_value h) (vp_h v)
      | UWidth => pct (s_value h) (vp_w v)
      | ViewWidth => pct (s_value h) (vp_w v)
      | ViewHeight => pct (s_value h) (vp_h v)
      | Auto => intrinsic_height c available v
      end
  | None => if is_fill c then 0 else qz (ch_dh c)
  end.

(** vertical.rs:123-126, 155-157: its part of the fr total *)
Definition fr_height (c : child) : Q :=
  match l_height (ch_style c) with
  | Some h => match s_unit h with Fraction_ => s_value h | _ => 0 end
  | None => if is_fill c then 1 else 0
  end.

Definition sumq (l : list Q) : Q := fold_left Qplus l 0.

(** vertical.rs:113-120 *)
Fixpoint v_margins (first : bool) (prev : Q) (l : list child) : Q :=
  match l with
  | [] => 0
  | c :: r =>
      let mt := l_mt (ch_style c) in
      let mb := l_mb (ch_style c) in
      (if first then mt else Qmax (mt - prev) 0) + mb + v_margins false mb r
  end.

(** vertical.rs:164-175: the size of 1fr *)
Definition fraction_unit (children : list child) (available : region) (v : viewport) : Q :=
  let total := sumq (map fr_height children) in
  let remaining := Qmax (qz (vp_h v) - sumq (map (fun c => fixed_height c available v) children) - v_margins true 0 children) 0 in
  if negb (Qle_bool total 0) && negb (Qle_bool remaining 0) then remaining / total else 1.

(** vertical.rs:228-236, 244-252: a height constraint, not truncated *)
Definition constraint_q (m : scalar) (available : region) (v : viewport) : Q :=
  match s_unit m with
  | Cells => s_value m
  | Percent => pct (s_value m) (rg_h available)
  | UWidth => pct (s_value m) (rg_w available)
  | UHeight => pct (s_value m) (rg_h available)
  | ViewWidth => pct (s_value m) (vp_w v)
  | ViewHeight => pct (s_value m) (vp_h v)
  | _ => s_value m
  end.

(** vertical.rs:264-267 *)
Definition reduce_height (c : child) : bool :=
  match l_height (ch_style c) with
  | Some h => match s_unit h with Percent | UHeight | Fraction_ => true | _ => false end
  | None => is_fill c
  end.

(** vertical.rs:195-224 *)
Definition raw_height (unit_size : Q) (c : child) (available : region) (v : viewport) : Q :=
  let s := ch_style c in
  match l_height s with
  | Some h =>
      match s_unit h with
      | Fraction_ => s_value h * unit_size
      | Auto => intrinsic_height c available v
      | Cells => qz (apply_box_sizing_height (trunc (s_value h)) s)
      | Percent | UHeight => pct (s_value h) (rg_h available)
      | UWidth => pct (s_value h) (vp_w v)
      | ViewWidth => pct (s_value h) (vp_w v)
      | ViewHeight => pct (s_value h) (vp_h v)
      end
  | None => if is_fill c then unit_size else qz (ch_dh c)
  end.

(** vertical.rs:195-272: the box height of a child *)
Definition box_height (unit_size : Q) (c : child) (available : region) (v : viewport) : Q :=
  let s := ch_style c in
  let h := raw_height unit_size c available v in
  let h := match l_max_height s with Some m => Qmin h (constraint_q m available v) | None => h end in
  let h := match l_min_height s with Some m => Qmax h (constraint_q m available v) | None => h end in
  if reduce_height c then Qmax (h - l_mt s - l_mb s) 0 else h.

(** vertical.rs:177-303: placing *)
Fixpoint col_place (unit_size : Q) (first : bool) (prev y : Q) (available : region) (v : viewport) (l : list child) : list placement :=
  match l with
  | [] => []
  | c :: r =>
      let s := ch_style c in
      let y := y + (if first then l_mt s else Qmax (l_mt s - prev) 0) in
      let next := y + box_height unit_size c available v in
      Placement (ch_index c)
        (Region (rg_x available + trunc (l_ml s)) (Qfloor y) (resolve_child_width c available v)
                (Z.max (Qfloor next - Qfloor y) 0))
        :: col_place unit_size false (l_mb s) (next + l_mb s) available v r
  end.

(** vertical.rs:88-306 [VerticalLayout::arrange] *)
Definition vertical_arrange (children : list child) (available : region) (v : viewport) : list placement :=
  col_place (fraction_unit children available v) true 0 (qz (rg_y available)) available v children.
