(** Model of crates/textual/src/widget/tooltip.rs (where a tooltip is drawn), of the
    walks over the tree that tooltips and clicks rely on (crates/textual/src/tree.rs),
    and of which widgets take part in them.

    The widget inside (the text and its edges) is that of Static_Model; f64 is Q. *)
From Coq Require Import ZArith QArith List Bool Arith.
From Verif Require Import Text_Model Canvas_Model Layout_Model.
Import ListNotations.
Open Scope Z_scope.

(** ** Where it is drawn *)

(** tooltip.rs:183-202 [resolve_scalar_to_cells] *)
Definition cells_of (v : scalar) (available : region) (is_height : bool) : Z :=
  let main := if is_height then rg_h available else rg_w available in
  match s_unit v with
  | Cells => trunc (s_value v)
  | Percent => round (pct (s_value v) main)
  | UWidth | ViewWidth => round (pct (s_value v) (rg_w available))
  | UHeight | ViewHeight => round (pct (s_value v) (rg_h available))
  | Fraction_ | Auto => main
  end.

(** The computed style, as far as it is read here *)
Record tipstyle := Tipstyle {
  t_hidden : bool; t_height : option scalar;
  t_max_w : option scalar; t_min_w : option scalar; t_max_h : option scalar; t_min_h : option scalar }.

Definition at_most (o : option scalar) (a : region) (is_height : bool) (n : Z) : Z :=
  match o with Some v => Z.min n (cells_of v a is_height) | None => n end.
Definition at_least (o : option scalar) (a : region) (is_height : bool) (n : Z) : Z :=
  match o with Some v => Z.max n (cells_of v a is_height) | None => n end.

(** tooltip.rs:75-90; [desired]: the desired width of the text inside (u16) *)
Definition tip_width (s : tipstyle) (desired : Z) (screen : region) : Z :=
  at_least (t_min_w s) screen false
    (at_most (t_max_w s) screen false (if desired =? u16_max then Z.max (rg_w screen) 0 else desired)).
(** tooltip.rs:92-110; [height_for]: [intrinsic_height_for_width] of the text inside *)
Definition tip_height (s : tipstyle) (height_for : nat -> nat) (width : Z) (screen : region) : Z :=
  let automatic := Z.of_nat (height_for (Z.to_nat width)) in
  at_least (t_min_h s) screen true
    (at_most (t_max_h s) screen true
      (match t_height s with
       | Some h => match s_unit h with Auto => automatic | _ => cells_of h screen true end
       | None => automatic
       end)).
(** tooltip.rs:68-117 [render]: the region the text inside is drawn in, if it is *)
Definition tip_region (visible : bool) (s : tipstyle) (offset : Z * Z) (desired : Z) (height_for : nat -> nat) (screen : region) : option region :=
  if negb visible || t_hidden s then None
  else
    let w := tip_width s desired screen in
    let r := intersection (region_new (fst offset) (snd offset) w (tip_height s height_for w screen)) screen in
    if region_is_empty r then None else Some r.

(** ** Whose tooltip it is *)

(** The widgets.  [Static]: static_widget.rs keeps a tooltip (1039-1045) and reports
    no hover (873-879).  [Button], [Switch] and [ScrollBar] report hover
    (button.rs:396-411, switch.rs:265-280, scrollbar.rs:353-361) and keep no tooltip
    (the default, widget.rs:204-209).  [HeaderIcon] does both (header.rs:411-423,
    514-520).  [Other]: the other widgets of the library do neither: they forward
    [get_state] to a [Static] or report focus and disabled only (label.rs:244-246,
    input.rs:285-294, option_list.rs:377-386, header.rs:70-72, 229-231, 781-783,
    tooltip.rs:174-176, command_palette.rs:82-84, 304-306, 557-559, 1684-1690,
    ruler.rs:221-223, loading_indicator.rs:110-116, widget.rs:96-105).  [Custom]: a
    widget of the application that does both. *)
Inductive kind := Static | Button | Switch | ScrollBar | HeaderIcon | Other | Custom.
Record node := Node_ { n_kind : kind; n_hover : bool; n_tip : option text; n_pending : option text }.
Inductive tree := Tree (n : node) (kids : list tree).

Definition reports_hover (n : node) : bool := match n_kind n with Static | Other => false | _ => n_hover n end.
Definition tooltip (n : node) : option text := match n_kind n with Static | HeaderIcon | Custom => n_tip n | _ => None end.
(** static_widget.rs:1043-1045, header.rs:518-520, widget.rs:209 [set_tooltip] *)
Definition set_tooltip (n : node) (t : option text) : node :=
  match n_kind n with Static | HeaderIcon | Custom => Node_ (n_kind n) (n_hover n) t (n_pending n) | _ => n end.

(** tree.rs:490-505 [find_hovered_tooltip_mut] *)
Definition own_tooltip (n : node) : option text := if reports_hover n then tooltip n else None.
Fixpoint find_tooltip (t : tree) : option text :=
  match t with
  | Tree n kids =>
      match own_tooltip n with
      | Some x => Some x
      | None => fold_left (fun found k => match found with None => find_tooltip k | _ => found end) kids None
      end
  end.

(** tree.rs:459-473 [collect_pending_actions_mut]: the tree afterwards and the actions *)
Fixpoint collect (t : tree) : tree * list text :=
  match t with
  | Tree n kids =>
      let rs := map collect kids in
      (Tree (Node_ (n_kind n) (n_hover n) (n_tip n) None) (map fst rs),
       match n_pending n with Some a => [a] | None => [] end ++ concat (map snd rs))
  end.

(** tree.rs:479-487 [clear_all_hover] *)
Fixpoint clear_all (t : tree) : tree :=
  match t with Tree n kids => Tree (Node_ (n_kind n) false (n_tip n) (n_pending n)) (map clear_all kids) end.
