(** Model of crates/textual/src/layouts/mod.rs: docks, absolute children,
    alignment, offsets and layers.

    [arrange_children_with_pre_layout] (376-446) differs from
    [arrange_children_with_viewport] only by its hook and by not separating
    absolute children; it is not modelled. *)
From Coq Require Import ZArith QArith Qround List Bool Arith.
From Verif Require Import Text_Model Fraction_Model Canvas_Model Layout_Model Grid_Model.
Import ListNotations.
Open Scope Z_scope.

Inductive layout_kind := LGrid | LVertical | LHorizontal.
Inductive align_h := ALeft | ACenter | ARight.
Inductive align_v := ATop | AMiddle | ABottom.

(** The parent's style as far as it is read here *)
Record pstyle := PStyle {
  ps_layout : layout_kind; ps_grid : gstyle; ps_align_h : align_h; ps_align_v : align_v;
  ps_layers : option (list text) }.

(** mod.rs:263-268 [DockSpacing] *)
Record spacing := Spacing { sp_top : Z; sp_right : Z; sp_bottom : Z; sp_left : Z }.

(** mod.rs:300-338: the region of one docked child *)
Definition dock_region (d : dock_edge) (c : child) (a : region) : region :=
  match d with
  | DockTop => Region (rg_x a) (rg_y a) (rg_w a) (ch_dh c)
  | DockBottom => Region (rg_x a) (rg_y a + rg_h a - ch_dh c) (rg_w a) (ch_dh c)
  | DockLeft => Region (rg_x a) (rg_y a) (ch_dw c) (rg_h a)
  | DockRight => Region (rg_x a + rg_w a - ch_dw c) (rg_y a) (ch_dw c) (rg_h a)
  end.
(** mod.rs:308, 318, 328, 338 *)
Definition dock_space (d : dock_edge) (c : child) (s : spacing) : spacing :=
  match d with
  | DockTop => Spacing (Z.max (sp_top s) (ch_dh c)) (sp_right s) (sp_bottom s) (sp_left s)
  | DockBottom => Spacing (sp_top s) (sp_right s) (Z.max (sp_bottom s) (ch_dh c)) (sp_left s)
  | DockLeft => Spacing (sp_top s) (sp_right s) (sp_bottom s) (Z.max (sp_left s) (ch_dw c))
  | DockRight => Spacing (sp_top s) (Z.max (sp_right s) (ch_dw c)) (sp_bottom s) (sp_left s)
  end.

(** mod.rs:280-348 [arrange_docked_widgets]; a child without dock (where the
    code panics) is skipped, callers pass only docked ones *)
Fixpoint arrange_docked (docked : list child) (a : region) (s : spacing) : list placement * spacing :=
  match docked with
  | [] => ([], s)
  | c :: r =>
      match l_dock (ch_style c) with
      | Some d =>
          let '(ps, s') := arrange_docked r a (dock_space d c s) in
          (Placement (ch_index c) (dock_region d c a) :: ps, s')
      | None => arrange_docked r a s
      end
  end.

(** mod.rs:189-198; i32 [saturating_sub] does not stop at zero *)
Definition content_region (a : region) (s : spacing) : region :=
  Region (rg_x a + sp_left s) (rg_y a + sp_top s) (rg_w a - (sp_left s + sp_right s)) (rg_h a - (sp_top s + sp_bottom s)).

(** mod.rs:516-527: margins of the child of a placement *)
Definition margins_of (children : list child) (i : nat) : Z * Z * Z * Z :=
  match find (fun c => (ch_index c =? i)%nat) children with
  | Some c => let s := ch_style c in (trunc (l_ml s), trunc (l_mr s), trunc (l_mt s), trunc (l_mb s))
  | None => (0, 0, 0, 0)
  end.

(** mod.rs:504-543 [get_placement_bounds_with_margins] for a non-empty list:
    left, top, right, bottom *)
Definition margin_box (children : list child) (p : placement) : Z * Z * Z * Z :=
  let '(ml, mr, mt, mb) := margins_of children (pl_index p) in
  let g := pl_region p in
  (rg_x g - ml, rg_y g - mt, rg_x g + rg_w g + mr, rg_y g + rg_h g + mb).
Definition join_box (b c : Z * Z * Z * Z) : Z * Z * Z * Z :=
  let '(x0, y0, x1, y1) := b in
  let '(u0, v0, u1, v1) := c in
  (Z.min x0 u0, Z.min y0 v0, Z.max x1 u1, Z.max y1 v1).
Definition placement_bounds (children : list child) (p : placement) (ps : list placement) : region :=
  let '(x0, y0, x1, y1) := fold_left (fun b q => join_box b (margin_box children q)) ps (margin_box children p) in
  Region x0 y0 (x1 - x0) (y1 - y0).

Definition shift (dx dy : Z) (p : placement) : placement :=
  Placement (pl_index p) (Region (rg_x (pl_region p) + dx) (rg_y (pl_region p) + dy) (rg_w (pl_region p)) (rg_h (pl_region p))).

(** mod.rs:482-492 *)
Definition offset_h (al : align_h) (room : Z) : Z :=
  match al with ALeft => 0 | ACenter => Z.quot (Z.max room 0) 2 | ARight => Z.max room 0 end.
Definition offset_v (al : align_v) (room : Z) : Z :=
  match al with ATop => 0 | AMiddle => Z.quot (Z.max room 0) 2 | ABottom => Z.max room 0 end.

(** mod.rs:457-501 [apply_alignment]; the early return for left/top and the
    test for a zero offset change nothing *)
Definition apply_alignment (ps : list placement) (children : list child) (s : pstyle) (a : region) : list placement :=
  match ps with
  | [] => []
  | p :: r =>
      let b := placement_bounds children p r in
      map (shift (offset_h (ps_align_h s) (rg_w a - rg_w b)) (offset_v (ps_align_v s) (rg_h a - rg_h b))) ps
  end.

(** mod.rs:565-581, 584-600: an offset; [basis] is the size a percentage refers to *)
Definition offset_value (o : option scalar) (basis : Z) (g : region) (v : viewport) : Z :=
  match o with
  | None => 0
  | Some s =>
      match s_unit s with
      | Cells => trunc (s_value s)
      | Percent => trunc (pct (s_value s) basis)
      | ViewWidth => trunc (pct (s_value s) (vp_w v))
      | ViewHeight => trunc (pct (s_value s) (vp_h v))
      | UWidth => trunc (pct (s_value s) (rg_w g))
      | UHeight => trunc (pct (s_value s) (rg_h g))
      | _ => trunc (s_value s)
      end
  end.
(** mod.rs:555-609 [apply_offset] *)
Definition offset_one (children : list child) (v : viewport) (p : placement) : placement :=
  match find (fun c => (ch_index c =? pl_index p)%nat) children with
  | Some c =>
      let g := pl_region p in
      shift (offset_value (l_offset_x (ch_style c)) (rg_w g) g v) (offset_value (l_offset_y (ch_style c)) (rg_h g) g v) p
  | None => p
  end.
Definition apply_offset (ps : list placement) (children : list child) (v : viewport) : list placement :=
  map (offset_one children v) ps.

(** mod.rs:620-675: width of an absolute child *)
Definition absolute_width (c : child) (a : region) (v : viewport) : Z :=
  let s := ch_style c in
  let intrinsic := if ch_dw c =? u16_max then clamp_u16 (rg_w a) else ch_dw c in
  let w := match l_width s with
           | Some w =>
               apply_box_sizing_width
                 (match s_unit w with
                  | Cells => trunc (s_value w)
                  | Percent | UWidth => round (pct (s_value w) (rg_w a))
                  | UHeight => round (pct (s_value w) (rg_h a))
                  | ViewWidth => round (pct (s_value w) (vp_w v))
                  | ViewHeight => round (pct (s_value w) (vp_h v))
                  | Fraction_ => rg_w a
                  | Auto => intrinsic
                  end) s
           | None => intrinsic
           end in
  clamp_width s a v w.
(** mod.rs:677-722: height of an absolute child *)
Definition absolute_height (c : child) (a : region) (v : viewport) : Z :=
  let s := ch_style c in
  let ih := ch_ih c (clamp_u16 (absolute_width c a v)) in
  let h := match l_height s with
           | Some h =>
               apply_box_sizing_height
                 (match s_unit h with
                  | Cells => trunc (s_value h)
                  | Percent | UHeight => round (pct (s_value h) (rg_h a))
                  | UWidth => round (pct (s_value h) (rg_w a))
                  | ViewWidth => round (pct (s_value h) (vp_w v))
                  | ViewHeight => round (pct (s_value h) (vp_h v))
                  | Fraction_ => rg_h a
                  | Auto => ih
                  end) s
           | None => ih
           end in
  clamp_height s a v h.
(** mod.rs:611-733 [resolve_absolute_placement] *)
Definition absolute_placement (a : region) (v : viewport) (c : child) : placement :=
  Placement (ch_index c) (Region (rg_x a) (rg_y a) (Z.max (absolute_width c a v) 0) (Z.max (absolute_height c a v) 0)).

Definition is_docked (c : child) : bool := match l_dock (ch_style c) with Some _ => true | None => false end.
Definition docked_of (l : list child) := filter is_docked l.
Definition absolute_of (l : list child) := filter (fun c => negb (is_docked c) && l_absolute (ch_style c)) l.
Definition flow_of (l : list child) := filter (fun c => negb (is_docked c) && negb (l_absolute (ch_style c))) l.

(** mod.rs:218-231 *)
Definition run_layout (s : pstyle) (children : list child) (a : region) (v : viewport) : list placement :=
  match ps_layout s with
  | LGrid => grid_arrange (ps_grid s) children a
  | LVertical => vertical_arrange children a v
  | LHorizontal => horizontal_arrange children a v
  end.

(** mod.rs:160-260 [arrange_children_with_viewport] *)
Definition arrange_children (s : pstyle) (children : list child) (available : region) (v : viewport) : list placement :=
  let '(docked, sp) := arrange_docked (docked_of children) available (Spacing 0 0 0 0) in
  let content := content_region available sp in
  let flow := apply_alignment (run_layout s (flow_of children) content v) (flow_of children) s content in
  apply_offset docked children v
  ++ apply_offset flow children v
  ++ apply_offset (map (absolute_placement content v) (absolute_of children)) children v.

(** mod.rs:817-824: the layer of a child *)
Definition default_layer : text := [100; 101; 102; 97; 117; 108; 116].
Definition layer_of (c : child) : text := match l_layer (ch_style c) with Some n => n | None => default_layer end.
Definition on_layer (n : text) (l : list child) : list child := filter (fun c => text_eqb (layer_of c) n) l.
Definition named (n : text) (order : list text) : bool := existsb (text_eqb n) order.

(** mod.rs:810-846 [build_layers]; [keys] is the iteration order of the hash
    map, i.e. some enumeration of the layers that have children *)
Definition build_layers (keys : list text) (children : list child) (order : list text) : list (text * list child) :=
  map (fun n => (n, on_layer n children)) (filter (fun n => negb (named n order)) keys)
  ++ map (fun n => (n, on_layer n children)) (filter (fun n => named n keys) order).

(** mod.rs:748-800 [arrange_children_with_layers] *)
Definition arrange_layers (keys : list text) (s : pstyle) (children : list child) (available : region) (v : viewport) : list placement :=
  let needs := (match ps_layers s with Some _ => true | None => false end)
               || existsb (fun c => match l_layer (ch_style c) with Some _ => true | None => false end) children in
  if negb needs then arrange_children s children available v
  else
    let order := match ps_layers s with Some o => o | None => [default_layer] end in
    flat_map (fun p => match snd p with [] => [] | cs => arrange_children s cs available v end)
      (build_layers keys children order).
