(** Specification vocabulary for option lists. *)
From Coq Require Import ZArith List Bool Arith.
From Verif Require Import Text_Model Options_Model.
Import ListNotations.
Open Scope nat_scope.

(** Option [i] exists and can be chosen. *)
Definition available (s : options) (i : nat) : Prop := i < length (o_items s) /\ nth i (o_off s) false = false.
(** The nearest available option after, or before, option [i]. *)
Definition next_of (s : options) (i j : nat) : Prop := i < j /\ available s j /\ forall k, i < k < j -> ~ available s k.
Definition prev_of (s : options) (i j : nat) : Prop := j < i /\ available s j /\ forall k, j < k < i -> ~ available s k.
(** The number of lines of an option. *)
Definition rows (t : text) : nat := S (count_occ Z.eq_dec t 10%Z).
Definition rows_before (s : options) (i : nat) : nat := list_sum (map rows (firstn i (o_items s))).
(** Row [r] of the list belongs to option [i]. *)
Definition row_of (s : options) (r i : nat) : Prop :=
  exists t, nth_error (o_items s) i = Some t /\ rows_before s i <= r < rows_before s i + rows t.
