(** Specification for C04: scroll offsets stay in range. *)
From Coq Require Import ZArith QArith Qround List Lia.
From Verif Require Import Scroll_Model.
Import ListNotations.
Open Scope Z_scope.

(** Specification: both offsets are positions at which a viewport of the given
    size lies inside the content (or 0 when the content is smaller). *)
Definition in_range (off virt view : Z) : Prop := 0 <= off /\ (off = 0 \/ off + view <= virt).
Definition offsets_ok (s : scroll) : Prop :=
  in_range (offset_x s) (virtual_width s) (viewport_width s) /\
  in_range (offset_y s) (virtual_height s) (viewport_height s).

(** Commands whose scroll amount is not negative. *)
Definition amount_nonneg (o : scroll_op) : Prop :=
  match o with
  | Up a | Down a | Left a | Right a => 0 <= a
  | _ => True
  end.
