(** Model of a scrolling container that is drawn again and again while its area, its
    style and its content change: crates/textual/src/containers/scrollable.rs:495-548
    [compute_scroll_layout], called in 679 by [render] and in 985 and 1189 by the mouse
    handlers.  The layout and what it records are those of Bars_Model.v. *)
From Coq Require Import ZArith List.
From Verif Require Import Scroll_Model Bars_Model.
Import ListNotations.

(** What one drawing depends on: the style, what the children measure in a region
    (scrollable.rs:289-344) and the inner region. *)
Record drawing := Drawing { d_bars : bars; d_measure : area -> Z * Z; d_inner : area }.
Definition layout_of (d : drawing) : layout := compute_layout (d_bars d) (d_measure d) (d_inner d).
(** scrollable.rs:679 with 534-538: the scroll state after one drawing *)
Definition draw (s : scroll) (d : drawing) : scroll := record_layout s (layout_of d).
(** the main loop draws after each event that asks for it *)
Definition draws (s : scroll) (ds : list drawing) : scroll := fold_left draw ds s.
