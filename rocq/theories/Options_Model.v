(** Model of crates/textual/src/widget/option_list.rs.

    The container inside is represented by the options last given to it; its
    layout, rendering and its own handling of the mouse are modelled elsewhere.
    Indices are small enough not to overflow an i32. *)
From Coq Require Import String ZArith List Bool Arith.
From Verif Require Import Text_Model Markup_Model.
Import ListNotations.
Open Scope nat_scope.

(** option_list.rs:234-249: one child of the container *)
Record child := Child { ch_content : text; ch_disabled : bool; ch_highlighted : bool }.
(** option_list.rs:70-82 [OptionList]; [o_enabled] and [o_visible] belong to the
    container inside *)
Record options := Options {
  o_items : list text; o_off : list bool; o_counts : list nat; o_selected : nat; o_markup : bool;
  o_pending : option nat; o_children : list child; o_focused : bool; o_disabled : bool; o_visible : bool;
  o_width : option nat }.

(** option_list.rs:186-188 [disabled_at] *)
Definition disabled_at (s : options) (i : nat) : bool := nth i (o_off s) false.

(** option_list.rs:210-223, 266-279: the search loop from [start] in steps of
    [delta]; every round moves on, so the number of items bounds it *)
Fixpoint seek (fuel : nat) (s : options) (index delta : Z) : option nat :=
  match fuel with
  | O => None
  | S k =>
      let i := (index + delta)%Z in
      if (i <? 0)%Z || (Z.of_nat (List.length (o_items s)) <=? i)%Z then None
      else if disabled_at s (Z.to_nat i) then seek k s i delta
      else Some (Z.to_nat i)
  end.
Definition next_enabled_from (s : options) (start : nat) (delta : Z) : option nat :=
  seek (S (List.length (o_items s))) s (Z.of_nat start) delta.

Definition with_selected (s : options) (n : nat) : options :=
  Options (o_items s) (o_off s) (o_counts s) n (o_markup s) (o_pending s) (o_children s) (o_focused s) (o_disabled s) (o_visible s) (o_width s).

(** option_list.rs:190-208 [normalize_selected] *)
Definition normalize (s : options) : options :=
  if is_nil (o_items s) then with_selected s 0
  else
    let n := List.length (o_items s) in
    let s := if n <=? o_selected s then with_selected s (n - 1) else s in
    if disabled_at s (o_selected s) then
      match next_enabled_from s (o_selected s) 1 with
      | Some i => with_selected s i
      | None => match next_enabled_from s (o_selected s) (-1) with
                | Some i => with_selected s i
                | None => s
                end
      end
    else s.

(** option_list.rs:232-249: the children made from the items, from index [i] on *)
Fixpoint make_children (s : options) (i : nat) (items : list text) : list child :=
  match items with
  | [] => []
  | t :: r =>
      Child (if o_markup s then t else escape_markup t) (disabled_at s i)
            ((i =? o_selected s) && negb (disabled_at s i)) :: make_children s (S i) r
  end.
(** option_list.rs:225-260 [refresh_display] *)
Definition refresh (s : options) : options :=
  let children := make_children s 0 (o_items s) in
  Options (o_items s) (o_off s) (map (fun t => Nat.max (List.length (split_char 10%Z t)) 1) (o_items s))
          (o_selected s) (o_markup s) (o_pending s)
          (if is_nil children then [Child [] false false] else children)
          (o_focused s) (o_disabled s) (o_visible s) (o_width s).

(** option_list.rs:85-104 [new] *)
Definition options_new (items : list text) : options :=
  refresh (normalize (Options items (map (fun _ => false) items) [] 0 false None [] false false true None)).
(** option_list.rs:137-149 [set_items], [set_items_with_state] *)
Definition set_items (s : options) (items : list (text * bool)) : options :=
  refresh (normalize (Options (map fst items) (map snd items) (o_counts s) (o_selected s) (o_markup s) (o_pending s) (o_children s)
                              (o_focused s) (o_disabled s) (o_visible s) (o_width s))).
(** option_list.rs:159-168 [set_selected] *)
Definition set_selected (s : options) (n : nat) : options :=
  if is_nil (o_items s) then refresh (with_selected s 0)
  else refresh (normalize (with_selected s (Nat.min n (List.length (o_items s) - 1)))).
(** option_list.rs:262-280 [move_selection] *)
Definition move_selection (s : options) (delta : Z) : options :=
  if is_nil (o_items s) then s
  else match next_enabled_from s (o_selected s) delta with
       | Some i => refresh (with_selected s i)
       | None => s
       end.
(** option_list.rs:282-291 [index_for_row] *)
Fixpoint row_index (counts : list nat) (row i : nat) : option nat :=
  match counts with
  | [] => None
  | c :: r => if row <? c then Some i else row_index r (row - c) (S i)
  end.
Definition index_for_row (s : options) (row : nat) : option nat := row_index (o_counts s) row 0.

Definition with_pending (s : options) (p : option nat) : options :=
  Options (o_items s) (o_off s) (o_counts s) (o_selected s) (o_markup s) p (o_children s) (o_focused s) (o_disabled s) (o_visible s) (o_width s).

(** canvas.rs:42-47 [Region] *)
Record place := Place { p_x : Z; p_y : Z; p_w : Z; p_h : Z }.
(** canvas.rs:98-103 [contains_point], without saturation *)
Definition contains_point (r : place) (x y : Z) : bool :=
  (p_x r <=? x)%Z && (x <? p_x r + p_w r)%Z && (p_y r <=? y)%Z && (y <? p_y r + p_h r)%Z.

Inductive key := Up | Down | OtherKey.
Inductive op :=
| Key (k : key)
| Release (x y : Z) (area : place)   (* left button up at ([x],[y]), in a list laid out at [area] *)
| SetItems (items : list (text * bool)) | SetSelected (n : nat) | SetMarkup (b : bool) | TakePending
| SetFocus (b : bool) | SetDisabled (b : bool) | SetVisible (b : bool) | SetStyle | Resize (w : nat).
(** option_list.rs:322-336 [on_event], 338-367 [on_mouse], 152-157 [set_markup],
    182-184 [take_pending_selection], 388-391 [set_style], 429-434 [set_focus],
    460-462 [set_disabled], 444-446 [set_visible], 476-482 [on_resize] *)
Definition step (s : options) (o : op) : options :=
  match o with
  | Key k =>
      if o_disabled s || negb (o_visible s) then s
      else match k with Up => move_selection s (-1) | Down => move_selection s 1 | OtherKey => s end
  | Release x y area =>
      if o_disabled s || negb (o_visible s) then s
      else if negb (contains_point area x y) then s
      else match index_for_row s (Z.to_nat (y - p_y area)) with
           | Some i =>
               if disabled_at s i then s
               else with_pending (if o_selected s =? i then s else refresh (with_selected s i)) (Some i)
           | None => s
           end
  | SetItems items => set_items s items
  | SetSelected n => set_selected s n
  | SetMarkup b =>
      if Bool.eqb (o_markup s) b then s
      else refresh (Options (o_items s) (o_off s) (o_counts s) (o_selected s) b (o_pending s) (o_children s) (o_focused s) (o_disabled s) (o_visible s) (o_width s))
  | TakePending => with_pending s None
  | SetFocus b =>
      if Bool.eqb (o_focused s) b then s
      else refresh (Options (o_items s) (o_off s) (o_counts s) (o_selected s) (o_markup s) (o_pending s) (o_children s) b (o_disabled s) (o_visible s) (o_width s))
  | SetDisabled b => Options (o_items s) (o_off s) (o_counts s) (o_selected s) (o_markup s) (o_pending s) (o_children s) (o_focused s) b (o_visible s) (o_width s)
  | SetVisible b => Options (o_items s) (o_off s) (o_counts s) (o_selected s) (o_markup s) (o_pending s) (o_children s) (o_focused s) (o_disabled s) b (o_width s)
  | SetStyle => refresh s
  | Resize w =>
      match o_width s with
      | Some w' => if w' =? w then s else
          refresh (Options (o_items s) (o_off s) (o_counts s) (o_selected s) (o_markup s) (o_pending s) (o_children s) (o_focused s) (o_disabled s) (o_visible s) (Some w))
      | None => refresh (Options (o_items s) (o_off s) (o_counts s) (o_selected s) (o_markup s) (o_pending s) (o_children s) (o_focused s) (o_disabled s) (o_visible s) (Some w))
      end
  end.
Definition run (items : list text) (os : list op) : options := fold_left step os (options_new items).
