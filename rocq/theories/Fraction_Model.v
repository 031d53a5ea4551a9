(** Model of crates/textual/src/fraction.rs (whole file except tests).

    i64 is modelled by [Z] without overflow (the products in Add/Sub/Mul can
    overflow i64 in release builds; see DESIGN.md, "not modelled").  Rust's
    integer division and remainder truncate: [Z.quot], [Z.rem]. *)
From Coq Require Import ZArith List.
Import ListNotations.
Open Scope Z_scope.

(** fraction.rs:33-37 [struct Fraction { num, den }]. *)
Record fraction := Frac { num : Z; den : Z }.

(** fraction.rs:41 [Fraction::ZERO]. *)
Definition frac_zero : fraction := Frac 0 1.

(** fraction.rs:122-129, the [while b != 0] loop of [gcd].  The loop runs on
    explicit fuel; [None] means the fuel ran out (proved impossible for the
    fuel used in [gcd], lemma [gcd_loop_total]). *)
Fixpoint gcd_loop (fuel : nat) (a b : Z) : option Z :=
  match fuel with
  | O => None
  | S k => if b =? 0 then Some a else gcd_loop k b (Z.rem a b)
  end.

(** Number of iterations granted: Euclid halves [b] every two steps. *)
Definition gcd_fuel (b : Z) : nat := S (2 * Z.to_nat (Z.log2 b + 1)).

(** fraction.rs:122-129 [gcd], including the final [.max(1)].  The result -1 on
    exhausted fuel is never produced ([gcd_loop_total]). *)
Definition gcd (a b : Z) : Z :=
  match gcd_loop (gcd_fuel b) a b with
  | Some g => Z.max g 1
  | None => -1
  end.

(** fraction.rs:47-57 [Fraction::new]. *)
Definition frac_new (n d : Z) : fraction :=
  if d =? 0 then frac_zero
  else
    let g := gcd (Z.abs n) (Z.abs d) in
    let sign := if d <? 0 then -1 else 1 in
    Frac (Z.quot (sign * n) g) (Z.abs (Z.quot (sign * d) g)).

(** fraction.rs:63-70 [floor]. *)
Definition frac_floor (f : fraction) : Z :=
  if 0 <=? num f then Z.quot (num f) (den f)
  else Z.quot (num f - den f + 1) (den f).

(** fraction.rs:75-78 [fract]. *)
Definition frac_fract (f : fraction) : fraction :=
  frac_new (num f - frac_floor f * den f) (den f).

(** fraction.rs:81-83 [mul_ratio]. *)
Definition frac_mul_ratio (f : fraction) (n d : Z) : fraction :=
  frac_new (num f * n) (den f * d).

(** fraction.rs:86-96 [From<i32>], [From<i64>]. *)
Definition frac_of_int (n : Z) : fraction := frac_new n 1.

(** fraction.rs:98-104 [Add]. *)
Definition frac_add (a b : fraction) : fraction :=
  frac_new (num a * den b + num b * den a) (den a * den b).

(** fraction.rs:106-112 [Sub]. *)
Definition frac_sub (a b : fraction) : fraction :=
  frac_new (num a * den b - num b * den a) (den a * den b).

(** fraction.rs:114-120 [Mul]. *)
Definition frac_mul (a b : fraction) : fraction :=
  frac_new (num a * num b) (den a * den b).

(** The remainder-carry loop documented in fraction.rs:22-28 and used in
    layouts/horizontal.rs:70-73 (and the other fixed-width branches of that
    match) and layouts/grid.rs [distribute_space]:
      raw = share + remainder; size = raw.floor(); remainder = raw.fract(). *)
Fixpoint carry_loop (rem : fraction) (shares : list fraction) : list Z :=
  match shares with
  | [] => []
  | s :: rest =>
      let raw := frac_add s rem in
      frac_floor raw :: carry_loop (frac_fract raw) rest
  end.

(** Closed expressions over the public API, so that properties can be stated
    for every value a client can build (no code counterpart). *)
Inductive fexpr :=
  | EInt (n : Z)
  | ENew (n d : Z)
  | EAdd (a b : fexpr)
  | ESub (a b : fexpr)
  | EMul (a b : fexpr)
  | EMulRatio (a : fexpr) (n d : Z)
  | EFract (a : fexpr).

Fixpoint feval (e : fexpr) : fraction :=
  match e with
  | EInt n => frac_of_int n
  | ENew n d => frac_new n d
  | EAdd a b => frac_add (feval a) (feval b)
  | ESub a b => frac_sub (feval a) (feval b)
  | EMul a b => frac_mul (feval a) (feval b)
  | EMulRatio a n d => frac_mul_ratio (feval a) n d
  | EFract a => frac_fract (feval a)
  end.
