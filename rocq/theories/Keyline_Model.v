(** Keylines: the lines a container draws around and between its children.
    Models crates/textual/src/box_drawing.rs, crates/textual/src/keyline_canvas.rs
    and the two [render_keylines] functions of
    crates/textual/src/containers/container.rs and containers/grid.rs.

    Sizes and positions (usize) are natural numbers; region coordinates (i32) are
    integers.  The arithmetic of usize and i32 is exact here: overflow is not
    modelled. *)
From Coq Require Import Bool List Arith ZArith.
From Verif Require Import Canvas_Model Layout_Model Grid_Model.
Import ListNotations.
Open Scope bool_scope.
Open Scope nat_scope.

(** box_drawing.rs:30-32, [Quad]: the thickness of the line on the
    (top, right, bottom, left) side: 0 none, 1 thin, 2 heavy, 3 double. *)
Record quad := Quad { q_top : nat; q_right : nat; q_bottom : nat; q_left : nat }.

(** box_drawing.rs, the derived equality of tuples. *)
Definition quad_eqb (a b : quad) : bool :=
  (q_top a =? q_top b) && (q_right a =? q_right b)
  && (q_bottom a =? q_bottom b) && (q_left a =? q_left b).

(** keyline_canvas.rs:50,416: the quad without lines. *)
Definition no_lines : quad := Quad 0 0 0 0.

(** box_drawing.rs:35-172, [BOX_CHARACTERS]: the table of characters, in the
    order of the source; the keys are all different, so the order is
    immaterial.  Characters are Unicode code points. *)
Definition box_characters : list (quad * Z) :=
  [(Quad 0 1 0 1, 9472);
   (Quad 0 2 0 2, 9473);
   (Quad 0 3 0 3, 9552);
   (Quad 1 0 1 0, 9474);
   (Quad 2 0 2 0, 9475);
   (Quad 3 0 3 0, 9553);
   (Quad 0 1 1 0, 9484);
   (Quad 0 0 1 1, 9488);
   (Quad 1 1 0 0, 9492);
   (Quad 1 0 0 1, 9496);
   (Quad 0 2 2 0, 9487);
   (Quad 0 0 2 2, 9491);
   (Quad 2 2 0 0, 9495);
   (Quad 2 0 0 2, 9499);
   (Quad 0 3 3 0, 9556);
   (Quad 0 0 3 3, 9559);
   (Quad 3 3 0 0, 9562);
   (Quad 3 0 0 3, 9565);
   (Quad 0 1 1 1, 9516);
   (Quad 1 1 0 1, 9524);
   (Quad 1 1 1 0, 9500);
   (Quad 1 0 1 1, 9508);
   (Quad 0 2 2 2, 9523);
   (Quad 2 2 0 2, 9531);
   (Quad 2 2 2 0, 9507);
   (Quad 2 0 2 2, 9515);
   (Quad 0 3 3 3, 9574);
   (Quad 3 3 0 3, 9577);
   (Quad 3 3 3 0, 9568);
   (Quad 3 0 3 3, 9571);
   (Quad 1 1 1 1, 9532);
   (Quad 2 2 2 2, 9547);
   (Quad 3 3 3 3, 9580);
   (Quad 0 2 1 0, 9485);
   (Quad 0 0 1 2, 9489);
   (Quad 1 2 0 0, 9493);
   (Quad 1 0 0 2, 9497);
   (Quad 0 1 2 0, 9486);
   (Quad 0 0 2 1, 9490);
   (Quad 2 1 0 0, 9494);
   (Quad 2 0 0 1, 9498);
   (Quad 0 1 2 1, 9520);
   (Quad 2 1 0 1, 9528);
   (Quad 2 1 2 0, 9504);
   (Quad 2 0 2 1, 9512);
   (Quad 0 2 1 2, 9519);
   (Quad 1 2 0 2, 9527);
   (Quad 1 2 1 0, 9501);
   (Quad 1 0 1 2, 9509);
   (Quad 1 2 1 2, 9535);
   (Quad 2 1 2 1, 9538);
   (Quad 2 2 1 2, 9544);
   (Quad 1 2 2 2, 9543);
   (Quad 2 2 2 1, 9546);
   (Quad 2 1 2 2, 9545);
   (Quad 2 2 1 0, 9505);
   (Quad 1 2 2 0, 9506);
   (Quad 2 0 1 2, 9513);
   (Quad 1 0 2 2, 9514);
   (Quad 0 2 2 1, 9522);
   (Quad 0 1 2 2, 9521);
   (Quad 2 2 0 1, 9530);
   (Quad 2 1 0 2, 9529);
   (Quad 0 1 0 0, 9588);
   (Quad 0 0 0 1, 9590);
   (Quad 1 0 0 0, 9589);
   (Quad 0 0 1 0, 9591);
   (Quad 0 2 0 0, 9592);
   (Quad 0 0 0 2, 9594);
   (Quad 2 0 0 0, 9593);
   (Quad 0 0 2 0, 9595);
   (Quad 0 2 0 1, 9596);
   (Quad 0 1 0 2, 9598);
   (Quad 1 0 2 0, 9597);
   (Quad 2 0 1 0, 9599);
   (Quad 0 3 1 0, 9554);
   (Quad 0 0 1 3, 9557);
   (Quad 1 3 0 0, 9560);
   (Quad 1 0 0 3, 9563);
   (Quad 0 1 3 0, 9555);
   (Quad 0 0 3 1, 9558);
   (Quad 3 1 0 0, 9561);
   (Quad 3 0 0 1, 9564);
   (Quad 0 3 1 3, 9572);
   (Quad 1 3 0 3, 9575);
   (Quad 1 3 1 0, 9566);
   (Quad 1 0 1 3, 9569);
   (Quad 0 1 3 1, 9573);
   (Quad 3 1 0 1, 9576);
   (Quad 3 1 3 0, 9567);
   (Quad 3 0 3 1, 9570);
   (Quad 1 3 1 3, 9578);
   (Quad 3 1 3 1, 9579)]%Z.

(** box_drawing.rs:178-180, [get_box_char]. *)
Fixpoint lookup (t : list (quad * Z)) (q : quad) : option Z :=
  match t with
  | [] => None
  | (k, c) :: t' => if quad_eqb k q then Some c else lookup t' q
  end.
Definition get_box_char (q : quad) : option Z := lookup box_characters q.

(** box_drawing.rs:186-188, [combine_quads]. *)
Definition combine_quads (a b : quad) : quad :=
  Quad (Nat.max (q_top a) (q_top b)) (Nat.max (q_right a) (q_right b))
       (Nat.max (q_bottom a) (q_bottom b)) (Nat.max (q_left a) (q_left b)).

(** keyline_canvas.rs:22-35, [KeylineCanvas]; the colour is left out, as it is
    handed through unchanged to every character drawn. *)
Record keylines := Keylines {
  k_width : nat; k_height : nat; k_quads : list quad; k_line : nat }.

(** keyline_canvas.rs:46-54, [new]. *)
Definition new (w h lt : nat) : keylines := Keylines w h (repeat no_lines (w * h)) lt.

(** keyline_canvas.rs:57-63, [get]. *)
Definition get (k : keylines) (x y : nat) : option quad :=
  if (x <? k_width k) && (y <? k_height k)
  then Some (nth (y * k_width k + x) (k_quads k) no_lines) else None.

(** keyline_canvas.rs:69, the assignment [self.quads[idx] = ...]. *)
Fixpoint update (l : list quad) (i : nat) (f : quad -> quad) : list quad :=
  match l, i with
  | [], _ => []
  | q :: l', 0 => f q :: l'
  | q :: l', S i' => q :: update l' i' f
  end.

(** keyline_canvas.rs:66-71, [set]. *)
Definition set (k : keylines) (x y : nat) (q : quad) : keylines :=
  if (x <? k_width k) && (y <? k_height k)
  then Keylines (k_width k) (k_height k)
         (update (k_quads k) (y * k_width k + x) (fun old => combine_quads old q)) (k_line k)
  else k.

(** The functions below only ever call [set]; each is modelled as the list of
    its calls of [set], in order (a [for] loop is a [map] over its range). *)
Definition call : Type := nat * nat * quad.

Definition run (k : keylines) (cs : list call) : keylines :=
  fold_left (fun k c => set k (fst (fst c)) (snd (fst c)) (snd c)) cs k.

(** Rust's [a..b]. *)
Definition range (a b : nat) : list nat := seq a (b - a).

(** keyline_canvas.rs:83-131, [add_widget_box]: the calls of [set]. *)
Definition box_calls (lt x y width height : nat) : list call :=
  if (width =? 0) || (height =? 0) then [] else
  [(x, y, Quad 0 lt lt 0)]
  ++ map (fun i => (x + i, y, Quad 0 lt 0 lt)) (range 1 (width - 1))
  ++ (if 1 <? width then [(x + width - 1, y, Quad 0 0 lt lt)] else [])
  ++ map (fun j => (x, y + j, Quad lt 0 lt 0)) (range 1 (height - 1))
  ++ (if 1 <? width
      then map (fun j => (x + width - 1, y + j, Quad lt 0 lt 0)) (range 1 (height - 1)) else [])
  ++ (if 1 <? height then [(x, y + height - 1, Quad lt lt 0 0)] else [])
  ++ (if 1 <? height
      then map (fun i => (x + i, y + height - 1, Quad 0 lt 0 lt)) (range 1 (width - 1)) else [])
  ++ (if (1 <? width) && (1 <? height)
      then [(x + width - 1, y + height - 1, Quad lt 0 0 lt)] else []).

Definition add_widget_box (k : keylines) (x y width height : nat) : keylines :=
  run k (box_calls (k_line k) x y width height).

(** keyline_canvas.rs:155-190: the junctions and horizontal lines of [add_grid]
    at one row boundary. *)
Definition grid_row_calls (w h lt : nat) (cols rows : list nat) (row_idx : nat) : list call :=
  let y := nth row_idx rows 0 in
  if h <=? y then [] else
  let is_top := row_idx =? 0 in
  let is_bottom := row_idx =? length rows - 1 in
  flat_map (fun col_idx =>
    let x := nth col_idx cols 0 in
    if w <=? x then [] else
    let is_left := col_idx =? 0 in
    let is_right := col_idx =? length cols - 1 in
    (x, y, Quad (if is_top then 0 else lt) (if is_right then 0 else lt)
                (if is_bottom then 0 else lt) (if is_left then 0 else lt))
    :: (if col_idx <? length cols - 1
        then map (fun fill_x => (fill_x, y, Quad 0 lt 0 lt))
               (range (x + 1) (Nat.min (nth (col_idx + 1) cols 0) w))
        else []))
    (seq 0 (length cols)).

(** keyline_canvas.rs:193-213: the vertical lines of [add_grid] at one column
    boundary. *)
Definition grid_col_calls (w h lt : nat) (cols rows : list nat) (col_idx : nat) : list call :=
  let x := nth col_idx cols 0 in
  if w <=? x then [] else
  flat_map (fun row_idx =>
    let y := nth row_idx rows 0 in
    if h <=? y then [] else
    if row_idx <? length rows - 1
    then map (fun fill_y => (x, fill_y, Quad lt 0 lt 0))
           (range (y + 1) (Nat.min (nth (row_idx + 1) rows 0) h))
    else [])
    (seq 0 (length rows)).

(** keyline_canvas.rs:145-214, [add_grid]. *)
Definition grid_calls (w h lt : nat) (cols rows : list nat) : list call :=
  if (length cols <? 2) || (length rows <? 2) then [] else
  flat_map (grid_row_calls w h lt cols rows) (seq 0 (length rows))
  ++ flat_map (grid_col_calls w h lt cols rows) (seq 0 (length cols)).

Definition add_grid (k : keylines) (cols rows : list nat) : keylines :=
  run k (grid_calls (k_width k) (k_height k) (k_line k) cols rows).

(** keyline_canvas.rs:241-253: the occupant of a cell, [None] when the cell does
    not exist or is empty ([.get(r).and_then(..).copied().flatten()]). *)
Definition occupant (occ : list (list (option nat))) (r c : nat) : option nat :=
  match nth_error occ r with
  | Some row => match nth_error row c with Some o => o | None => None end
  | None => None
  end.

(** keyline_canvas.rs:241-253, [different_occupant]. *)
Definition different_occupant (occ : list (list (option nat))) (r1 c1 r2 c2 : nat) : bool :=
  match occupant occ r1 c1, occupant occ r2 c2 with
  | None, None => false
  | Some a, Some b => negb (a =? b)
  | _, _ => true
  end.

(** keyline_canvas.rs:258-262, 267-271 and 327-331: a horizontal stroke from
    [a] to [b], both included. *)
Definition stroke_across (w lt a b y : nat) : list call :=
  map (fun x => (x, y, Quad 0 (if x <? b then lt else 0) 0 (if a <? x then lt else 0)))
      (range a (Nat.min (b + 1) w)).

(** keyline_canvas.rs:276-280, 285-289 and 306-310: a vertical stroke. *)
Definition stroke_down (h lt x a b : nat) : list call :=
  map (fun y => (x, y, Quad (if a <? y then lt else 0) 0 (if y <? b then lt else 0) 0))
      (range a (Nat.min (b + 1) h)).

(** keyline_canvas.rs:255-290: the outer border. *)
Definition occ_border_calls (w h lt x_min x_max y_min y_max : nat) : list call :=
  (if y_min <? h then stroke_across w lt x_min x_max y_min else [])
  ++ (if y_max <? h then stroke_across w lt x_min x_max y_max else [])
  ++ (if x_min <? w then stroke_down h lt x_min y_min y_max else [])
  ++ (if x_max <? w then stroke_down h lt x_max y_min y_max else []).

(** keyline_canvas.rs:292-312: the inner vertical lines at one column boundary. *)
Definition occ_col_calls (h w lt : nat) cols rows occ (col_idx : nat) : list call :=
  let x := nth col_idx cols 0 in
  if w <=? x then [] else
  flat_map (fun row_idx =>
    if negb (different_occupant occ row_idx (col_idx - 1) row_idx col_idx) then [] else
    stroke_down h lt x (nth row_idx rows 0) (nth (row_idx + 1) rows 0))
    (seq 0 (length rows - 1)).

(** keyline_canvas.rs:314-334: the inner horizontal lines at one row boundary. *)
Definition occ_row_calls (h w lt : nat) cols rows occ (row_idx : nat) : list call :=
  let y := nth row_idx rows 0 in
  if h <=? y then [] else
  flat_map (fun col_idx =>
    if negb (different_occupant occ (row_idx - 1) col_idx row_idx col_idx) then [] else
    stroke_across w lt (nth col_idx cols 0) (nth (col_idx + 1) cols 0) y)
    (seq 0 (length cols - 1)).

(** keyline_canvas.rs:350-402: one junction. *)
Definition occ_junction (w lt : nat) (cols rows : list nat) occ (row_idx col_idx : nat)
  : list call :=
  let y := nth row_idx rows 0 in
  let x := nth col_idx cols 0 in
  if w <=? x then [] else
  let is_top_edge := row_idx =? 0 in
  let is_bottom_edge := row_idx =? length rows - 1 in
  let is_left_edge := col_idx =? 0 in
  let is_right_edge := col_idx =? length cols - 1 in
  let up := if is_top_edge then false
            else if is_left_edge || is_right_edge then true
            else different_occupant occ (row_idx - 1) (col_idx - 1) (row_idx - 1) col_idx in
  let down := if is_bottom_edge then false
              else if is_left_edge || is_right_edge then true
              else different_occupant occ row_idx (col_idx - 1) row_idx col_idx in
  let left := if is_left_edge then false
              else if is_top_edge || is_bottom_edge then true
              else different_occupant occ (row_idx - 1) (col_idx - 1) row_idx (col_idx - 1) in
  let right := if is_right_edge then false
               else if is_top_edge || is_bottom_edge then true
               else different_occupant occ (row_idx - 1) col_idx row_idx col_idx in
  [(x, y, Quad (if up then lt else 0) (if right then lt else 0)
               (if down then lt else 0) (if left then lt else 0))].

(** keyline_canvas.rs:336-405: the junctions at one row boundary. *)
Definition occ_junction_calls (h w lt : nat) cols rows occ (row_idx : nat) : list call :=
  if h <=? nth row_idx rows 0 then [] else
  flat_map (occ_junction w lt cols rows occ row_idx) (seq 0 (length cols)).

(** keyline_canvas.rs:222-406, [add_grid_with_occupancy]. *)
Definition occ_calls (w h lt : nat) (cols rows : list nat) (occ : list (list (option nat)))
  : list call :=
  if (length cols <? 2) || (length rows <? 2) then [] else
  occ_border_calls w h lt (nth 0 cols 0) (nth (length cols - 1) cols 0)
                          (nth 0 rows 0) (nth (length rows - 1) rows 0)
  ++ flat_map (occ_col_calls h w lt cols rows occ) (range 1 (length cols - 1))
  ++ flat_map (occ_row_calls h w lt cols rows occ) (range 1 (length rows - 1))
  ++ flat_map (occ_junction_calls h w lt cols rows occ) (seq 0 (length rows)).

Definition add_grid_with_occupancy (k : keylines) cols rows occ : keylines :=
  run k (occ_calls (k_width k) (k_height k) (k_line k) cols rows occ).

(** keyline_canvas.rs:413-440, [render]: the characters put on the canvas, as
    (column, row, character), in order.  What [put_char] does with a position
    outside the canvas or the clip is modelled in Canvas_Model. *)
Definition render (k : keylines) (rx ry : Z) : list (Z * Z * Z) :=
  flat_map (fun y => flat_map (fun x =>
    match get k x y with
    | None => []
    | Some q =>
        if quad_eqb q no_lines then [] else
        match get_box_char q with
        | None => []
        | Some ch => [(rx + Z.of_nat x, ry + Z.of_nat y, ch)%Z]
        end
    end) (seq 0 (k_width k))) (seq 0 (k_height k)).

(** ---- Container ---- *)

(** Vec::sort and Vec::dedup (std). *)
Fixpoint insert (n : nat) (l : list nat) : list nat :=
  match l with
  | [] => [n]
  | m :: l' => if n <=? m then n :: l else m :: insert n l'
  end.
Definition sort (l : list nat) : list nat := fold_right insert [] l.
Fixpoint dedup (l : list nat) : list nat :=
  match l with
  | [] => []
  | n :: l' => match l' with
               | m :: _ => if n =? m then dedup l' else n :: dedup l'
               | [] => [n]
               end
  end.

Definition contains (l : list nat) (n : nat) : bool := existsb (Nat.eqb n) l.

(** container.rs:402-424 (columns; 436-458 is the same for rows): the positions
    of the dividers.  [ends] are the right ends of the children relative to the
    region (i32); a negative one becomes a huge usize and is dropped by the
    comparison with the width. *)
Definition divider_positions (size : nat) (ends : list Z) : list nat :=
  let ps := fold_left (fun ps e =>
    if (0 <=? e)%Z && (e <? Z.of_nat size)%Z && negb (contains ps (Z.to_nat e))
    then ps ++ [Z.to_nat e] else ps) ends [0] in
  let last := size - 1 in
  dedup (sort (if contains ps last then ps else ps ++ [last])).

(** container.rs:382-460, [render_keylines] of a container laid out in a row
    ([horizontal]) or in a column.  [children] are the placed boxes
    (x, y, width, height); the region is (rx, ry) with size w x h, taken as
    non-negative (the code's [as usize]).  The grid branch (461-498) is not
    modelled: the dedicated Grid container below is. *)
Definition container_keylines (horizontal : bool) (lt : nat) (rx ry : Z) (w h : nat)
  (children : list (Z * Z * Z * Z)) : list (Z * Z * Z) :=
  match children with
  | [] => []
  | _ =>
    let k := new w h lt in
    let k' := if horizontal
      then add_grid k
             (divider_positions w (map (fun c => match c with (x, _, cw, _) => x + cw - rx end)%Z children))
             [0; h - 1]
      else add_grid k [0; w - 1]
             (divider_positions h (map (fun c => match c with (_, y, _, ch) => y + ch - ry end)%Z children))
    in render k' rx ry
  end.

(** grid.rs:169-206 (containers): where a Grid draws its lines.  [tracks] are
    the track positions found for the region reduced by two, with the end of the
    last track; the first line is put at 0 and the last at the end. *)
Definition grid_line_positions (size : nat) (tracks : list Z) : list nat :=
  map (fun i => if i =? 0 then 0
                else if i =? length tracks - 1 then size - 1
                else Z.to_nat (nth i tracks 0%Z))
      (seq 0 (length tracks)).

(** grid.rs:123-215 (containers), [render_keylines] of a Grid, from its track
    positions (modelled in Grid_Model) and the table of which child has which
    cell. *)
Definition grid_keylines (lt : nat) (rx ry : Z) (w h : nat) (col_tracks row_tracks : list Z)
  (occ : list (list (option nat))) : list (Z * Z * Z) :=
  if (length col_tracks <? 2) || (length row_tracks <? 2) then [] else
  render (add_grid_with_occupancy (new w h lt)
            (grid_line_positions w col_tracks) (grid_line_positions h row_tracks) occ) rx ry.

(** layouts/grid.rs:489-506: the table of which child has which cell. *)
Definition occupancy_table (children : list child) (rows cols : nat) : list (list (option nat)) :=
  map (fun r => map (fun c =>
      cell_owner children (compute_cell_assignments (spans_of children) rows cols) r c)
    (seq 0 cols)) (seq 0 rows).

(** grid.rs:86-104 (containers): the region in which a Grid with keylines lays
    out its children; they are then moved by one cell right and down. *)
Definition reduced (rx ry : Z) (w h : nat) : region :=
  Region rx ry (Z.max (Z.of_nat w - 2) 0) (Z.max (Z.of_nat h - 2) 0).

(** grid.rs:123-215 (containers) together with layouts/grid.rs:427-515: the
    keylines of a Grid from its style and children. *)
Definition grid_widget_keylines (g : gstyle) (children : list child) (lt : nat) (rx ry : Z)
  (w h : nat) : list (Z * Z * Z) :=
  match children with
  | [] => []
  | _ =>
    let available := reduced rx ry w h in
    let '(rows, cols) := grid_dims g (length children) available in
    grid_keylines lt rx ry w h
      (track_positions (grid_columns g children available) (rg_w available))
      (track_positions (grid_rows g children available) (rg_h available))
      (occupancy_table children rows cols)
  end.
