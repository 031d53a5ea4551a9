(** Model of crates/textual/src/layouts/grid.rs.

    The occupancy vectors are functions of row and column; every access in the
    code is guarded by the bounds, so no index can be out of range.  Loops that
    advance a cursor run on fuel that is proved sufficient (Grid_Proofs). *)
From Coq Require Import ZArith QArith Qround List Bool Arith.
From Verif Require Import Fraction_Model Canvas_Model Layout_Model.
Import ListNotations.
Open Scope Z_scope.

(** grid.rs:21-26 [ResolvedTrack] *)
Record track := Track { t_offset : Z; t_size : Z }.

(** grid.rs:32-45 [OccupancyGrid] *)
Record occupancy := Occ { o_cells : nat -> nat -> bool; o_rows : nat; o_cols : nat }.
Definition occ_new (rows cols : nat) : occupancy := Occ (fun _ _ => false) rows cols.

(** grid.rs:51-56: the scan of one row from a column *)
Fixpoint scan_row (fuel : nat) (o : occupancy) (row col : nat) : option nat :=
  match fuel with
  | O => None
  | S f => if o_cells o row col then scan_row f o row (S col) else Some col
  end.
(** grid.rs:49-61 [find_next_free] *)
Fixpoint scan_rows (fuel : nat) (o : occupancy) (row col : nat) : option (nat * nat) :=
  match fuel with
  | O => None
  | S f =>
      match scan_row (o_cols o - col) o row col with
      | Some c => Some (row, c)
      | None => scan_rows f o (S row) 0
      end
  end.
Definition find_next_free (o : occupancy) (row col : nat) : option (nat * nat) :=
  scan_rows (o_rows o - row) o row col.

Definition in_rect (row col rs cs r c : nat) : bool :=
  ((row <=? r) && (r <? row + rs) && (col <=? c) && (c <? col + cs))%nat.

(** grid.rs:64-70 [occupy]; the clamping to the grid is part of the condition *)
Definition occupy (o : occupancy) (row col rs cs : nat) : occupancy :=
  Occ (fun r c => if in_rect row col rs cs r c && (r <? o_rows o)%nat && (c <? o_cols o)%nat then true else o_cells o r c)
      (o_rows o) (o_cols o).

(** grid.rs:73-85 [can_fit] *)
Definition can_fit (o : occupancy) (row col rs cs : nat) : bool :=
  if ((o_rows o <? row + rs) || (o_cols o <? col + cs))%nat then false
  else forallb (fun r => forallb (fun c => negb (o_cells o r c)) (seq col cs)) (seq row rs).

(** grid.rs:111-121 [column_count]; 124-132 [row_count].  [min_cw] is
    [min_column_width]; grid-size columns and rows are naturals *)
Definition column_count (min_cw : option Z) (css_cols : option nat) (available : Z) : nat :=
  match min_cw with
  | Some w =>
      if (0 <? w) && (0 <? available) then Z.to_nat (Z.max (Z.quot available w) 1)
      else match css_cols with Some n => n | None => 1%nat end
  | None => match css_cols with Some n => n | None => 1%nat end
  end.
Definition row_count (css_rows : option nat) (cols children : nat) : nat :=
  match css_rows with
  | Some n => n
  | None => if (cols =? 0)%nat then 1%nat else ((children + cols - 1) / cols)%nat
  end.

(** grid.rs:135-143 [resolve_scalar] *)
Definition resolve_scalar (s : scalar) (available : Z) : Z :=
  match s_unit s with
  | Cells => trunc (s_value s)
  | Percent => trunc (pct (s_value s) available)
  | Auto => available
  | Fraction_ => available
  | _ => trunc (s_value s)
  end.

Definition is_fr (s : scalar) : bool := match s_unit s with Fraction_ => true | _ => false end.
Definition is_auto (s : scalar) : bool := match s_unit s with Auto => true | _ => false end.

(** grid.rs:158-166: the specs, cycled *)
Definition track_specs (specs : list scalar) (count : nat) : list scalar :=
  map (fun i => match specs with [] => Scalar 1 Fraction_ | d :: _ => nth (i mod length specs) specs d end) (seq 0 count).

(** grid.rs:173-188: sizes of the fixed tracks (0 for the others) *)
Definition fixed_size (available : Z) (s : scalar) : Z :=
  if is_fr s || is_auto s then 0 else resolve_scalar s available.

(** grid.rs:196-209, 210-220: flexible tracks take their share plus the carried
    remainder; the others keep their size *)
Fixpoint share_pass (flexible : scalar -> bool) (share : scalar -> fraction) (rem : fraction) (l : list scalar) (sizes : list Z) : list Z :=
  match l, sizes with
  | s :: r, z :: zs =>
      if flexible s then
        let raw := frac_add (share s) rem in
        frac_floor raw :: share_pass flexible share (frac_fract raw) r zs
      else z :: share_pass flexible share rem r zs
  | _, _ => []
  end.

(** grid.rs:148-240 [distribute_space]; the branch for empty specs (221-230) is
    unreachable because empty specs stand for 1fr tracks *)
Definition distribute_space (specs : list scalar) (count : nat) (available gutter : Z) : list Z :=
  if (count =? 0)%nat then []
  else
    let for_tracks := Z.max (available - Z.of_nat (count - 1) * gutter) 0 in
    let ts := track_specs specs count in
    let sizes := map (fixed_size for_tracks) ts in
    let remaining := for_tracks - sumz sizes in
    let total := sumq (map (fun s => if is_fr s then s_value s else 0%Q) ts) in
    let autos := Z.of_nat (length (filter is_auto ts)) in
    let sizes :=
      if negb (Qle_bool total 0) then
        share_pass is_fr (fun s => frac_new (remaining * trunc (s_value s * 1000)) (trunc (total * 1000))) frac_zero ts sizes
      else if 0 <? autos then
        share_pass is_auto (fun _ => frac_new remaining autos) frac_zero ts sizes
      else sizes in
    map (fun z => if z <? 1 then 1 else z) sizes.

(** grid.rs:253-261: offsets *)
Fixpoint tracks_from (offset gutter : Z) (sizes : list Z) : list track :=
  match sizes with
  | [] => []
  | z :: r => Track offset z :: tracks_from (offset + z + gutter) gutter r
  end.

(** grid.rs:246-262 [resolve_tracks] *)
Definition resolve_tracks (specs : list scalar) (count : nat) (available gutter : Z) : list track :=
  tracks_from 0 gutter (distribute_space specs count available gutter).

(** grid.rs:268-315 [resolve_tracks_with_content] *)
Definition resolve_tracks_with_content (specs : list scalar) (count : nat) (available gutter : Z) (content : list Z) : list track :=
  match specs, content with
  | [], _ :: _ =>
      let total := sumz content in
      let for_tracks := available - Z.of_nat (count - 1) * gutter in
      let sizes := if total <=? for_tracks then content
                   else map (fun z => if 0 <? total then Z.quot (z * for_tracks) total else 1) content in
      tracks_from 0 gutter (map (fun z => Z.max z 1) sizes)
  | _, _ => resolve_tracks specs count available gutter
  end.

(** A cell rectangle: row, column, row span, column span *)
Record rect := Rect { rc_row : nat; rc_col : nat; rc_rs : nat; rc_cs : nat }.

(** grid.rs:361-365, 368-372, 758-762, 766-770: the next cell *)
Definition advance (cols row col : nat) : nat * nat :=
  if (cols <=? S col)%nat then (S row, 0%nat) else (row, S col).

(** grid.rs:333-381, 671-775: the search loop for one child.  Returns the
    rectangle, the cursor and the grid afterwards *)
Fixpoint place_child (fuel : nat) (o : occupancy) (row col rs cs : nat) : option rect * (nat * nat) * occupancy :=
  match fuel with
  | O => (None, (row, col), o)
  | S f =>
      match find_next_free o row col with
      | None => (None, (row, col), o)
      | Some (r, c) =>
          let ecs := Nat.min cs (o_cols o - c) in
          let ers := Nat.min rs (o_rows o - r) in
          if can_fit o r c ers ecs then
            (Some (Rect r c ers ecs), advance (o_cols o) r c, occupy o r c ers ecs)
          else
            let '(r', c') := advance (o_cols o) r c in place_child f o r' c' rs cs
      end
  end.
Definition place_fuel (o : occupancy) : nat := S (o_rows o * o_cols o).

Definition span_of (n : nat) : nat := Nat.max n 1.

(** grid.rs:319-389 [compute_cell_assignments] for the list of (row span,
    column span); a child that does not fit gets (0,0,0,0) *)
Fixpoint assign_cells (o : occupancy) (row col : nat) (spans : list (nat * nat)) : list rect :=
  match spans with
  | [] => []
  | (rs, cs) :: rest =>
      let '(p, (row', col'), o') := place_child (place_fuel o) o row col (span_of rs) (span_of cs) in
      let here := match p with Some q => q | None => Rect 0 0 0 0 end in
      here :: (if (o_rows o <=? row')%nat then [] else assign_cells o' row' col' rest)
  end.
Definition compute_cell_assignments (spans : list (nat * nat)) (rows cols : nat) : list rect :=
  assign_cells (occ_new rows cols) 0 0 spans.

(** grid.rs:656-780, the cells of the children that [arrange] places, in order;
    the loop ends when a child does not fit or the cursor leaves the grid *)
Fixpoint grid_cells (o : occupancy) (row col : nat) (spans : list (nat * nat)) : list rect :=
  match spans with
  | [] => []
  | (rs, cs) :: rest =>
      match place_child (place_fuel o) o row col (span_of rs) (span_of cs) with
      | (Some q, (row', col'), o') => q :: (if (o_rows o <=? row')%nat then [] else grid_cells o' row' col' rest)
      | (None, _, _) => []
      end
  end.
Definition spans_of (children : list child) : list (nat * nat) :=
  map (fun c => (l_row_span (ch_style c), l_col_span (ch_style c))) children.

(** grid.rs:392-421 [compute_content_sizes] for one direction: the largest
    desired size among the single-span children of a track *)
Definition content_sizes (track_of span_of_ : rect -> nat) (desired : child -> Z) (n : nat) (children : list child) (cells : list rect) : list Z :=
  map (fun k =>
      fold_left (fun m p => let '(c, q) := p in
          if ((rc_rs q =? 0) || (rc_cs q =? 0))%nat then m
          else if ((span_of_ q =? 1) && (track_of q =? k))%nat then Z.max m (desired c) else m)
        (combine children cells) 0) (seq 0 n).

(** grid.rs:803, 806-820: start and length of a span of tracks *)
Definition track_start (ts : list track) (i : nat) : Z := match nth_error ts i with Some t => t_offset t | None => 0 end.
Definition track_span (ts : list track) (i span : nat) (gutter : Z) : Z :=
  match nth_error ts i with
  | Some t =>
      let e := Nat.min (i + span) (length ts) in
      match nth_error ts e with
      | Some t' => t_offset t' - t_offset t - gutter
      | None => sumz (map t_size (skipn i ts)) + Z.of_nat (e - i - 1) * gutter
      end
  | None => 0
  end.

(** grid.rs:791-842 [child_region] *)
Definition child_region (q : rect) (columns rows : list track) (r : region) (gutter_h gutter_v : Z) : region :=
  Region (rg_x r + track_start columns (rc_col q)) (rg_y r + track_start rows (rc_row q))
         (track_span columns (rc_col q) (rc_cs q) gutter_h) (track_span rows (rc_row q) (rc_rs q) gutter_v).

(** grid.rs:708-755: a child inside its cell; [child_width as u16] wraps *)
Definition in_cell (c : child) (cell : region) : region :=
  let s := ch_style c in
  let w0 := resolve_width_with_intrinsic s (ch_dw c) (rg_w cell) in
  let w := if rg_w cell <? w0 then rg_w cell else w0 in
  let h := match l_height s with
           | Some x => match s_unit x with
                       | Auto => ch_ih c (w mod 65536)
                       | _ => resolve_height_with_intrinsic s (ch_dh c) (rg_h cell)
                       end
           | None => resolve_height_with_intrinsic s (ch_dh c) (rg_h cell)
           end in
  Region (rg_x cell + trunc (l_ml s)) (rg_y cell + trunc (l_mt s))
         (Z.max (w - trunc (l_ml s) - trunc (l_mr s)) 0) (Z.max (h - trunc (l_mt s) - trunc (l_mb s)) 0).

(** The grid part of the parent's style: grid-size, grid-columns/rows, gutters
    (vertical, horizontal), and whether its width/height is auto *)
Record gstyle := GStyle {
  g_cols : option nat; g_rows : option nat; g_col_specs : list scalar; g_row_specs : list scalar;
  g_gutter_v : scalar; g_gutter_h : scalar; g_auto_w : bool; g_auto_h : bool; g_min_cw : option Z }.

Definition nil_b {A} (l : list A) : bool := match l with [] => true | _ => false end.

(** grid.rs:592-654, 437-487: dimensions, gutters and tracks *)
Definition grid_dims (g : gstyle) (n : nat) (available : region) : nat * nat :=
  let cols := column_count (g_min_cw g) (g_cols g) (rg_w available) in
  (row_count (g_rows g) cols n, cols).
Definition gutter_v (g : gstyle) (available : region) : Z := resolve_scalar (g_gutter_v g) (rg_h available).
Definition gutter_h (g : gstyle) (available : region) : Z := resolve_scalar (g_gutter_h g) (rg_w available).
Definition grid_columns (g : gstyle) (children : list child) (available : region) : list track :=
  let '(rows, cols) := grid_dims g (length children) available in
  if nil_b (g_col_specs g) && g_auto_w g then
    resolve_tracks_with_content (g_col_specs g) cols (rg_w available) (gutter_h g available)
      (content_sizes rc_col rc_cs ch_dw cols children (compute_cell_assignments (spans_of children) rows cols))
  else resolve_tracks (g_col_specs g) cols (rg_w available) (gutter_h g available).
Definition grid_rows (g : gstyle) (children : list child) (available : region) : list track :=
  let '(rows, cols) := grid_dims g (length children) available in
  if nil_b (g_row_specs g) && g_auto_h g then
    resolve_tracks_with_content (g_row_specs g) rows (rg_h available) (gutter_v g available)
      (content_sizes rc_row rc_rs ch_dh rows children (compute_cell_assignments (spans_of children) rows cols))
  else resolve_tracks (g_row_specs g) rows (rg_h available) (gutter_v g available).

(** grid.rs:581-783 [GridLayout::arrange] *)
Definition grid_arrange (g : gstyle) (children : list child) (available : region) : list placement :=
  let '(rows, cols) := grid_dims g (length children) available in
  map (fun p => let '(c, q) := p in
      Placement (ch_index c)
        (in_cell c (child_region q (grid_columns g children available) (grid_rows g children available) available
           (gutter_h g available) (gutter_v g available))))
    (combine children (grid_cells (occ_new rows cols) 0 0 (spans_of children))).

(** grid.rs:535-577 [GridTrackInfo::from_tracks]: boundaries in one direction *)
Definition track_positions (ts : list track) (size : Z) : list Z :=
  map t_offset ts ++
  match rev ts with
  | [] => []
  | t :: _ => let e := Z.min (t_offset t + t_size t) size in [if size <=? e then size - 1 else e]
  end.

(** grid.rs:489-506: the child that occupies each cell (later ones win) *)
Definition cell_owner (children : list child) (cells : list rect) (r c : nat) : option nat :=
  fold_left (fun acc p => let '(ch, q) := p in
      if in_rect (rc_row q) (rc_col q) (rc_rs q) (rc_cs q) r c then Some (ch_index ch) else acc)
    (combine children cells) None.
