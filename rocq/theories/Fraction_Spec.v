(** Specification for fractions: the standard library's rationals [Q]. *)
From Coq Require Import ZArith QArith Qround List.
From Verif Require Import Fraction_Model.
Import ListNotations.
Open Scope Z_scope.

(** A stored fraction is in lowest terms with a positive denominator. *)
Definition canonical (f : fraction) : Prop :=
  0 < den f /\ Z.gcd (num f) (den f) = 1.

(** The rational number n/d, with the documented convention n/0 = 0 (which is
    also the convention of [Qdiv]). *)
Definition ratio (n d : Z) : Q := (inject_Z n / inject_Z d)%Q.

(** The rational denoted by a stored fraction. *)
Definition value (f : fraction) : Q := ratio (num f) (den f).

(** Rational meaning of API expressions. *)
Fixpoint qeval (e : fexpr) : Q :=
  match e with
  | EInt n => inject_Z n
  | ENew n d => ratio n d
  | EAdd a b => (qeval a + qeval b)%Q
  | ESub a b => (qeval a - qeval b)%Q
  | EMul a b => (qeval a * qeval b)%Q
  | EMulRatio a n d => (qeval a * ratio n d)%Q
  | EFract a => (qeval a - inject_Z (Qfloor (qeval a)))%Q
  end.

Fixpoint qsum (l : list Q) : Q :=
  match l with [] => 0%Q | x :: r => (x + qsum r)%Q end.

Fixpoint zsum (l : list Z) : Z :=
  match l with [] => 0 | x :: r => x + zsum r end.
