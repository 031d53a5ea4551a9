(** Specification vocabulary for docks, layers, alignment and offsets. *)
From Coq Require Import ZArith QArith List Bool Arith.
From Verif Require Import Text_Model Canvas_Model Layout_Model Layout_Spec Arrange_Model.
Import ListNotations.
Open Scope Z_scope.

Definition dock_of (c : child) : option dock_edge := l_dock (ch_style c).
Definition edge_eqb (d e : dock_edge) : bool :=
  match d, e with
  | DockTop, DockTop | DockBottom, DockBottom | DockLeft, DockLeft | DockRight, DockRight => true
  | _, _ => false
  end.
Definition undocked (l : list child) : list child :=
  filter (fun c => match dock_of c with None => true | Some _ => false end) l.

(** How far a docked child reaches in from its edge. *)
Definition depth (c : child) : Z :=
  match dock_of c with
  | Some DockTop | Some DockBottom => ch_dh c
  | Some DockLeft | Some DockRight => ch_dw c
  | None => 0
  end.
(** The furthest reach of the children docked to edge [d] (0 if there are none). *)
Fixpoint reach (d : dock_edge) (l : list child) : Z :=
  match l with
  | [] => 0
  | c :: r =>
      match dock_of c with
      | Some e => if edge_eqb d e then Z.max (depth c) (reach d r) else reach d r
      | None => reach d r
      end
  end.
(** What the docks leave of the container. *)
Definition inner (a : region) (l : list child) : region :=
  Region (rg_x a + reach DockLeft l) (rg_y a + reach DockTop l)
         (rg_w a - reach DockLeft l - reach DockRight l) (rg_h a - reach DockTop l - reach DockBottom l).

(** [p] lies along edge [d] of [a], over its whole length, [n] deep. *)
Definition along_edge (d : dock_edge) (a : region) (n : Z) (p : placement) : Prop :=
  match d with
  | DockTop => p_left p = rg_x a /\ p_right p = rg_x a + rg_w a /\ p_top p = rg_y a /\ p_height p = n
  | DockBottom => p_left p = rg_x a /\ p_right p = rg_x a + rg_w a /\ p_bottom p = rg_y a + rg_h a /\ p_height p = n
  | DockLeft => p_top p = rg_y a /\ p_bottom p = rg_y a + rg_h a /\ p_left p = rg_x a /\ p_width p = n
  | DockRight => p_top p = rg_y a /\ p_bottom p = rg_y a + rg_h a /\ p_right p = rg_x a + rg_w a /\ p_width p = n
  end.

Definition unmoved (c : child) : Prop := l_offset_x (ch_style c) = None /\ l_offset_y (ch_style c) = None.

(** Every child has its own index, as when children are numbered in order. *)
Definition own_indices (l : list child) : Prop := NoDup (map ch_index l).

(** The placements that belong to the given children. *)
Definition of_children (l : list child) (ps : list placement) : list placement :=
  filter (fun p => existsb (fun c => (ch_index c =? pl_index p)%nat) l) ps.

(** The greatest and least extent of a set of intervals. *)
Definition is_hull (l : list (Z * Z)) (lo hi : Z) : Prop :=
  (exists x, In x l /\ fst x = lo) /\ (exists x, In x l /\ snd x = hi) /\
  (forall x, In x l -> lo <= fst x /\ snd x <= hi).

(** Margin boxes, as intervals, of children with their placements. *)
Definition box_x (x : child * placement) : Z * Z :=
  (p_left (snd x) - trunc (l_ml (ch_style (fst x))), p_right (snd x) + trunc (l_mr (ch_style (fst x)))).
Definition box_y (x : child * placement) : Z * Z :=
  (p_top (snd x) - trunc (l_mt (ch_style (fst x))), p_bottom (snd x) + trunc (l_mb (ch_style (fst x)))).

(** [p'] is [p] moved by (dx, dy). *)
Definition moved (dx dy : Z) (p p' : placement) : Prop :=
  pl_index p' = pl_index p /\ p_left p' = p_left p + dx /\ p_top p' = p_top p + dy /\
  p_width p' = p_width p /\ p_height p' = p_height p.

(** [keys] enumerates, in any order, the layers of the children. *)
Definition layer_name (c : child) : text :=
  match l_layer (ch_style c) with Some n => n | None => [100; 101; 102; 97; 117; 108; 116] end.
Definition enumerates (keys : list text) (l : list child) : Prop :=
  NoDup keys /\ forall n, In n keys <-> exists c, In c l /\ layer_name c = n.

(** Position of a layer in the declared order; layers not declared are below all. *)
Fixpoint layer_rank (order : list text) (n : text) : nat :=
  match order with
  | [] => 0
  | m :: r => if text_eqb n m then 1 else match layer_rank r n with O => 0 | S k => S (S k) end
  end.

(** The distance a child is moved by its offset. *)
Definition offset_amount (o : option scalar) (basis : Z) (p : placement) (v : viewport) : Z :=
  match o with
  | None => 0
  | Some (Scalar q Percent) => trunc (q / 100 * inject_Z basis)
  | Some (Scalar q UWidth) => trunc (q / 100 * inject_Z (p_width p))
  | Some (Scalar q UHeight) => trunc (q / 100 * inject_Z (p_height p))
  | Some (Scalar q ViewWidth) => trunc (q / 100 * inject_Z (vp_w v))
  | Some (Scalar q ViewHeight) => trunc (q / 100 * inject_Z (vp_h v))
  | Some (Scalar q _) => trunc q
  end.

(** A child with its offset taken away. *)
Definition without_offset (c : child) : child :=
  let s := ch_style c in
  Child (ch_index c)
    (LStyle (l_width s) (l_height s) (l_min_width s) (l_max_width s) (l_min_height s) (l_max_height s)
       (l_mt s) (l_mr s) (l_mb s) (l_ml s) (l_pt s) (l_pr s) (l_pb s) (l_pl s)
       (l_bt s) (l_br s) (l_bb s) (l_bl s) (l_content_box s) (l_dock s) (l_absolute s) (l_layer s)
       None None (l_col_span s) (l_row_span s))
    (ch_dw c) (ch_dh c) (ch_ih c).

(** Children of the normal flow, without offset. *)
Definition plain (c : child) : Prop := dock_of c = None /\ l_absolute (ch_style c) = false /\ unmoved c.
(** A child taken out of the flow: positioned absolutely and not docked. *)
Definition floating (c : child) : bool :=
  match dock_of c with None => l_absolute (ch_style c) | Some _ => false end.
(** The children that are not. *)
Definition sitting (cs : list child) : list child := filter (fun c => negb (floating c)) cs.

(** The same container with content at the top left. *)
Definition top_left (s : pstyle) : pstyle := PStyle (ps_layout s) (ps_grid s) ALeft ATop (ps_layers s).
(** The layers a container declares; only the default one if it says nothing. *)
Definition order_of (s : pstyle) : list text :=
  match ps_layers s with Some o => o | None => [[100; 101; 102; 97; 117; 108; 116]] end.
