(** Specification of fuzzy matching. *)
From Coq Require Import ZArith List Arith.
From Verif Require Import Text_Model.
Import ListNotations.
Local Open Scope nat_scope.

(** [offs] picks out the query from the candidate: one strictly increasing
    position per query character, with that character there. *)
Definition witnesses (query candidate : text) (offs : list nat) : Prop :=
  length offs = length query /\
  (forall i j p q, i < j -> nth_error offs i = Some p -> nth_error offs j = Some q -> p < q) /\
  (forall i p, nth_error offs i = Some p ->
     exists c, nth_error query i = Some c /\ nth_error candidate p = Some c).

(** The query can be obtained from the candidate by deleting characters. *)
Inductive subseq : text -> text -> Prop :=
| sub_nil : forall t, subseq [] t
| sub_take : forall c q t, subseq q t -> subseq (c :: q) (c :: t)
| sub_skip : forall q c t, subseq q t -> subseq q (c :: t).

(** Runs of adjacent characters: the query occurs contiguously. *)
Definition occurs_in (query candidate : text) : Prop :=
  exists a b, candidate = a ++ query ++ b.
