(** Specification vocabulary for the grid layout. *)
From Coq Require Import ZArith QArith Qround List Bool Arith.
From Verif Require Import Fraction_Spec Canvas_Model Layout_Model Grid_Model.
Import ListNotations.
Open Scope Z_scope.

(** The cell (r, c) belongs to the rectangle. *)
Definition covers (q : rect) (r c : nat) : Prop :=
  (rc_row q <= r < rc_row q + rc_rs q)%nat /\ (rc_col q <= c < rc_col q + rc_cs q)%nat.
(** A non-empty rectangle inside the grid. *)
Definition in_grid (rows cols : nat) (q : rect) : Prop :=
  (1 <= rc_rs q)%nat /\ (1 <= rc_cs q)%nat /\ (rc_row q + rc_rs q <= rows)%nat /\ (rc_col q + rc_cs q <= cols)%nat.
(** Row-major order of the top-left cells. *)
Definition earlier (r c r' c' : nat) : Prop := (r < r' \/ (r = r' /\ c < c'))%nat.
(** The spans asked for (0 counts as 1), cut off at the edge of the grid. *)
Definition spans_cut (rows cols : nat) (want : nat * nat) (q : rect) : Prop :=
  rc_rs q = Nat.min (Nat.max (fst want) 1) (rows - rc_row q) /\
  rc_cs q = Nat.min (Nat.max (snd want) 1) (cols - rc_col q).

(** The point (x, y) of the screen lies in the region. *)
Definition point_in (g : region) (x y : Z) : Prop :=
  rg_x g <= x < rg_x g + rg_w g /\ rg_y g <= y < rg_y g + rg_h g.
Definition apart (g h : region) : Prop := forall x y, ~ (point_in g x y /\ point_in h x y).

(** Position of track [i] when all tracks and gutters before it are laid out. *)
Definition start_of (sizes : list Z) (gutter : Z) (i : nat) : Z := zsum (firstn i sizes) + Z.of_nat i * gutter.
(** Extent of [n] tracks from [i], with the gutters between them. *)
Definition extent_of (sizes : list Z) (gutter : Z) (i n : nat) : Z :=
  zsum (firstn n (skipn i sizes)) + (Z.of_nat n - 1) * gutter.

(** A whole number of thousandths. *)
Definition thousandths (q : Q) : Prop := exists k : Z, (q * 1000 == inject_Z k)%Q.

(** The sizes asked for, repeated from the start as often as needed; equal shares
    when none are given. *)
Definition cycled (specs : list scalar) (count : nat) : list scalar :=
  firstn count (concat (repeat (match specs with [] => [Scalar 1 Fraction_] | _ => specs end) count)).
Definition fr_track (s : scalar) : bool := match s_unit s with Fraction_ => true | _ => false end.
Definition auto_track (s : scalar) : bool := match s_unit s with Auto => true | _ => false end.
(** The whole cells of a fixed size: of a percentage of the room, or of the number. *)
Definition fixed_cells (s : scalar) (room : Z) : Z :=
  match s_unit s with Percent => Qfloor (s_value s * inject_Z room / 100) | _ => Qfloor (s_value s) end.
