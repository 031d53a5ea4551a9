(** The arithmetic of Rust's f32: every operation is the exact rational result
    rounded to the nearest number with 24 significant bits, ties to even.
    Overflow, underflow, infinities and NaN are outside this model. *)
From Coq Require Import ZArith QArith Qround.
Open Scope Q_scope.

(** A power of two with any exponent. *)
Definition pow2 (e : Z) : Q := if (0 <=? e)%Z then inject_Z (2 ^ e) else / inject_Z (2 ^ (- e)).
(** The nearest integer, ties to even. *)
Definition near (q : Q) : Z :=
  let f := Qfloor q in
  let r := q - inject_Z f in
  match Qcompare r (1 # 2) with
  | Lt => f
  | Gt => (f + 1)%Z
  | Eq => if Z.even f then f else (f + 1)%Z
  end.
(** The exponent [e] for which a positive [q] lies between 2^(e+23) and 2^(e+24). *)
Definition expo (q : Q) : Z :=
  let k := (Z.log2 (Qnum q) - Z.log2 (Zpos (Qden q)))%Z in
  if Qle_bool (pow2 k) q then (k - 23)%Z else (k - 24)%Z.
Definition rnd_pos (q : Q) : Q := inject_Z (near (q * pow2 (- expo q))) * pow2 (expo q).
Definition rnd32 (q : Q) : Q :=
  match Qnum q with
  | Z0 => 0
  | Zpos _ => rnd_pos q
  | Zneg _ => - rnd_pos (- q)
  end.
(** The cast [as i32], towards zero. *)
Definition trunc (q : Q) : Z := if Qle_bool 0 q then Qfloor q else Qceiling q.
Definition qmax (a b : Q) : Q := if Qle_bool a b then b else a.

(** What the proofs use of an arithmetic: rounding keeps the order, leaves
    integers of up to 24 bits alone and loses less than one part in 2^24. *)
Record rounding (rnd : Q -> Q) : Prop := {
  rnd_mono : forall a b, a <= b -> rnd a <= rnd b;
  rnd_int : forall z, (Z.abs z <= 2 ^ 24)%Z -> rnd (inject_Z z) == inject_Z z;
  rnd_rel : forall q, 0 < q -> (1 - (1 # 2 ^ 24)) * q <= rnd q }.
