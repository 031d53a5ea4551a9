(** Model of how large a container asks to be: containers/container.rs and
    containers/scrollable.rs, [calculate_intrinsic_size] and [desired_size].

    Simplifications: f64 values are exact rationals, as in Layout_Model; the sum
    of two paddings of one container is not reduced to 16 bits (paddings of
    thousands of cells).  A child comes with whether it takes part in the layout
    ([participates_in_layout]) and with its own desired size; the size of a tree
    of containers is this function applied level by level. *)
From Coq Require Import ZArith QArith List Bool.
From Verif Require Import Fraction_Model Canvas_Model Layout_Model Arrange_Model.
Import ListNotations.
Open Scope Z_scope.

(** [value as u16] of a float: truncated and saturated *)
Definition cells_u16 (q : Q) : Z := clamp_u16 (trunc q).
(** [u16::saturating_add] *)
Definition sadd (a b : Z) : Z := Z.min (a + b) u16_max.

(** A child and whether it takes part in the layout *)
Definition kid : Type := bool * child.

(** container.rs:507-516, 632-640: border and padding on either axis;
    render_cache.rs:225-256 *)
Definition border_horizontal (s : lstyle) : Z := b2z (l_bl s) + b2z (l_br s).
Definition border_vertical (s : lstyle) : Z := b2z (l_bt s) + b2z (l_bb s).
Definition padding_h (s : lstyle) : Z := cells_u16 (l_pl s) + cells_u16 (l_pr s).
Definition padding_v (s : lstyle) : Z := cells_u16 (l_pt s) + cells_u16 (l_pb s).

(** container.rs:520-538: what the loop keeps; the two [is_first] flags are
    cleared together, so there is one *)
Record sums := Sums {
  m_total_w : Z; m_total_h : Z; m_max_w : Z; m_max_h : Z;
  m_fill_w : bool; m_fill_h : bool;
  m_prev_bottom : Z; m_first_top : Z; m_last_bottom : Z;
  m_prev_right : Z; m_first_left : Z; m_last_right : Z;
  m_first : bool }.
Definition no_sums : sums := Sums 0 0 0 0 false false 0 0 0 0 0 0 true.

(** container.rs:556-566 *)
Definition capped (n : Z) : Z := if n =? u16_max then 0 else Z.min n 1000.

(** container.rs:539-608: one child *)
Definition count_child (s : sums) (k : kid) : sums :=
  if negb (fst k) then s else
  let c := snd k in
  let st := ch_style c in
  let w := capped (ch_dw c) in
  let h := capped (ch_dh c) in
  let ml := cells_u16 (l_ml st) in
  let mr := cells_u16 (l_mr st) in
  let mt := cells_u16 (l_mt st) in
  let mb := cells_u16 (l_mb st) in
  Sums
    (if m_first s then sadd (m_total_w s) w else sadd (sadd (m_total_w s) (Z.max ml (m_prev_right s))) w)
    (if m_first s then sadd (m_total_h s) h else sadd (sadd (m_total_h s) (Z.max mt (m_prev_bottom s))) h)
    (Z.max (m_max_w s) (sadd (sadd w ml) mr))
    (Z.max (m_max_h s) (sadd (sadd h mt) mb))
    (m_fill_w s || (ch_dw c =? u16_max)) (m_fill_h s || (ch_dh c =? u16_max))
    mb (if m_first s then mt else m_first_top s) mb
    mr (if m_first s then ml else m_first_left s) mr
    false.

(** container.rs:504-660 [Container::calculate_intrinsic_size]; [k] is the
    effective layout *)
Definition intrinsic_size (st : lstyle) (k : layout_kind) (children : list kid) : Z * Z :=
  match children with
  | [] => (border_horizontal st + padding_h st, border_vertical st + padding_v st)
  | _ =>
      let s := fold_left count_child children no_sums in
      let tw := sadd (sadd (m_first_left s) (m_total_w s)) (m_last_right s) in
      let th := sadd (sadd (m_first_top s) (m_total_h s)) (m_last_bottom s) in
      let content := match k with
        | LVertical => (m_max_w s, th)
        | LHorizontal => (tw, m_max_h s)
        | LGrid => (m_max_w s, m_max_h s)
        end in
      (if m_fill_w s then u16_max else sadd (sadd (fst content) (border_horizontal st)) (padding_h st),
       if m_fill_h s then u16_max else sadd (sadd (snd content) (border_vertical st)) (padding_v st))
  end.

(** container.rs:1003-1019, 1021-1037, scrollable.rs:631-660: a length of its own
    or the intrinsic one *)
Definition own_or (o : option scalar) (intrinsic : Z) : Z :=
  match o with
  | Some s => match s_unit s with Cells => cells_u16 (s_value s) | Auto => intrinsic | _ => u16_max end
  | None => intrinsic
  end.

(** container.rs:992-1040 [Container::desired_size] *)
Definition desired_size (st : lstyle) (k : layout_kind) (children : list kid) : Z * Z :=
  let i := intrinsic_size st k children in
  (own_or (l_width st) (fst i), own_or (l_height st) (snd i)).

(** *** ScrollableContainer *)

(** [u16] addition that panics on overflow in a debug build *)
Definition add16 (a b : option Z) : option Z :=
  match a, b with
  | Some x, Some y => if x + y <=? u16_max then Some (x + y) else None
  | _, _ => None
  end.
Definition max16 (a b : option Z) : option Z :=
  match a, b with Some x, Some y => Some (Z.max x y) | _, _ => None end.

(** scrollable.rs:391-400 *)
Definition capped_scroll (n : Z) : Z := if n =? u16_max then 1000 else n.

(** scrollable.rs:355-372: what the loop keeps *)
Record ssums := SSums {
  sm_total_w : option Z; sm_total_h : option Z; sm_max_w : option Z; sm_max_h : option Z;
  sm_fill_w : bool; sm_fill_h : bool;
  sm_prev_bottom : Z; sm_first_top : Z; sm_last_bottom : Z; sm_first : bool;
  sm_prev_right : Z; sm_first_left : Z; sm_last_right : Z; sm_first_h : bool }.
Definition no_ssums : ssums := SSums (Some 0) (Some 0) (Some 0) (Some 0) false false 0 0 0 true 0 0 0 true.

(** scrollable.rs:374-445: one child; both sums with margins are computed for
    every layout, so an overflow in either stops the program: [ok] *)
Definition count_scroll (k : layout_kind) (s : ssums) (x : kid) : ssums :=
  if negb (fst x) then s else
  let c := snd x in
  let st := ch_style c in
  let fw := sm_fill_w s || (ch_dw c =? u16_max) in
  let fh := sm_fill_h s || (ch_dh c =? u16_max) in
  let w := capped_scroll (ch_dw c) in
  let h := capped_scroll (ch_dh c) in
  let ml := cells_u16 (l_ml st) in
  let mr := cells_u16 (l_mr st) in
  let mt := cells_u16 (l_mt st) in
  let mb := cells_u16 (l_mb st) in
  let wm := add16 (add16 (Some w) (Some ml)) (Some mr) in
  let hm := add16 (add16 (Some h) (Some mt)) (Some mb) in
  let ok o := match wm, hm with Some _, Some _ => o | _, _ => None end in
  match k with
  | LVertical =>
      SSums (sm_total_w s)
        (ok (add16 (sm_total_h s) (add16 (Some h) (Some (Z.max (sm_prev_bottom s) mt)))))
        (ok (max16 (sm_max_w s) wm)) (sm_max_h s) fw fh
        mb (if sm_first s then mt else sm_first_top s) mb false
        (sm_prev_right s) (sm_first_left s) (sm_last_right s) (sm_first_h s)
  | LHorizontal =>
      SSums (ok (add16 (sm_total_w s) (add16 (Some w) (Some (Z.max (sm_prev_right s) ml)))))
        (sm_total_h s) (sm_max_w s) (ok (max16 (sm_max_h s) hm)) fw fh
        (sm_prev_bottom s) (sm_first_top s) (sm_last_bottom s) (sm_first s)
        mr (if sm_first_h s then ml else sm_first_left s) mr false
  | LGrid =>
      SSums (sm_total_w s) (sm_total_h s) (ok (max16 (sm_max_w s) wm)) (ok (max16 (sm_max_h s) hm)) fw fh
        (sm_prev_bottom s) (sm_first_top s) (sm_last_bottom s) (sm_first s)
        (sm_prev_right s) (sm_first_left s) (sm_last_right s) (sm_first_h s)
  end.

(** scrollable.rs:347, 452, 471, 485: the border counts two cells on either axis
    unless every edge is [none] (border.rs:131-136) *)
Definition border_scroll (bordered : bool) : Z := if bordered then 2 else 0.

(** scrollable.rs:345-494 [ScrollableContainer::calculate_intrinsic_size];
    [None]: the program stops with an arithmetic overflow *)
Definition intrinsic_scroll (st : lstyle) (bordered : bool) (k : layout_kind) (children : list kid) : option (Z * Z) :=
  let b := border_scroll bordered in
  match children with
  | [] => Some (b + padding_h st, b + padding_v st)
  | _ =>
      let s := fold_left (count_scroll k) children no_ssums in
      match k with
      | LVertical =>
          match add16 (sm_total_h s) (Some (sm_last_bottom s)), sm_max_w s, add16 (Some (b + padding_v st)) (Some (sm_first_top s)) with
          | Some th, Some tw, Some extra =>
              Some (sadd (if sm_fill_w s then u16_max else tw) (b + padding_h st),
                    sadd (if sm_fill_h s then u16_max else th) extra)
          | _, _, _ => None
          end
      | LHorizontal =>
          match add16 (sm_total_w s) (Some (sm_last_right s)), sm_max_h s, add16 (Some (b + padding_h st)) (Some (sm_first_left s)) with
          | Some tw, Some th, Some extra =>
              Some (sadd (if sm_fill_w s then u16_max else tw) extra,
                    sadd (if sm_fill_h s then u16_max else th) (b + padding_v st))
          | _, _, _ => None
          end
      | LGrid =>
          match sm_max_w s, sm_max_h s with
          | Some mw, Some mh => Some (sadd mw (b + padding_h st), sadd mh (b + padding_v st))
          | _, _ => None
          end
      end
  end.

(** scrollable.rs:626-662 [ScrollableContainer::desired_size] *)
Definition desired_scroll (st : lstyle) (bordered : bool) (k : layout_kind) (children : list kid) : option (Z * Z) :=
  match intrinsic_scroll st bordered k children with
  | Some i => Some (own_or (l_width st) (fst i), own_or (l_height st) (snd i))
  | None => None
  end.
