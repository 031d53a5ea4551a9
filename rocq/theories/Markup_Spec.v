(** Specification vocabulary for markup: which spans are well formed and what a
    list of styled segments must look like. *)
From Coq Require Import ZArith List Arith Bool.
From Verif Require Import Text_Model Markup_Model.
Import ListNotations.
Local Open Scope nat_scope.

(** [n] is a byte offset between two characters of [t] (or at either end). *)
Definition boundary (t : text) (n : nat) : Prop := exists a b, t = a ++ b /\ n = blen a.

(** A span covers at least one character of the text. *)
Definition span_ok (t : text) (s : span) : Prop :=
  sp_start s < sp_end s /\ boundary t (sp_start s) /\ boundary t (sp_end s).

(** Two spans are disjoint or one lies inside the other. *)
Definition laminar (a b : span) : Prop :=
  sp_end a <= sp_start b \/ sp_end b <= sp_start a \/
  (sp_start a <= sp_start b /\ sp_end b <= sp_end a) \/
  (sp_start b <= sp_start a /\ sp_end a <= sp_end b).

Definition covers (s : span) (off : nat) : Prop := sp_start s <= off < sp_end s.

(** [a] encloses [b]. *)
Definition encloses (a b : span) : Prop := sp_start a <= sp_start b /\ sp_end b <= sp_end a.

(** Characters that need no escaping inside running text or tags. *)
Definition plain_char (c : char) : Prop := c <> ch_open /\ c <> ch_close /\ c <> ch_esc.

(** Opening and closing a tag around some markup. *)
Definition tagged (tag body : text) : text :=
  ch_open :: tag ++ ch_close :: body ++ [ch_open; ch_slash; ch_close].

(** A list of segments laid end to end starting at byte [pos]: [P pos seg] holds
    of each at its own position. *)
Fixpoint each_at {A} (P : nat -> text -> A -> Prop) (pos : nat) (l : list (text * A)) : Prop :=
  match l with
  | [] => True
  | (t, a) :: r => P pos t a /\ each_at P (pos + blen t) r
  end.

(** ASCII-only text. *)
Definition ascii (t : text) : Prop := Forall (fun c => (0 <= c < 128)%Z) t.
