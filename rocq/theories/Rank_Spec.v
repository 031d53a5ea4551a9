(** Specification of the ranking of fuzzy matches. *)
From Coq Require Import ZArith QArith List Bool.
From Verif Require Import Text_Model Fuzzy_Spec.
Import ListNotations.
Local Open Scope nat_scope.

Section Rank.
Variable alphanumeric : char -> bool.
Definition in_word (t : text) (p : nat) : bool := match nth_error t p with Some c => alphanumeric c || (c =? 95)%Z | None => false end.
(** A word starts at [p]: a word character with none before it. *)
Definition word_start (t : text) (p : nat) : bool := in_word t p && match p with O => true | S r => negb (in_word t r) end.
(** How many of the chosen places start a word. *)
Definition starts (t : text) (offs : list nat) : nat := length (filter (word_start t) offs).
End Rank.
(** How many runs of neighbouring places there are. *)
Fixpoint runs (offs : list nat) : nat :=
  match offs with
  | [] => 0
  | [_] => 1
  | x :: (y :: _) as r => if y =? S x then runs r else S (runs r)
  end.
(** The merit of [n] matched characters, [m] of them at word starts, in [g] runs. *)
Definition merit (n m g : nat) : Q :=
  let q x := inject_Z (Z.of_nat x) in
  ((q n + q m) * (1 + (1 - (q g - 1) / q n) * (1 - (q g - 1) / q n)))%Q.
