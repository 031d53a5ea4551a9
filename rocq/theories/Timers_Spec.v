(** What may be observed of messages, timers and intervals. *)
From Coq Require Import List Arith Bool.
From Verif Require Import Text_Model Timers_Model.
Import ListNotations.

Section Observed.
Context {M : Type}.

(** All messages sent and all messages received, in order. *)
Definition sent (os : list (output M)) : list (envelope M) :=
  flat_map (fun o => match o with Sent _ _ _ e => [e] | Received _ _ => [] end) os.
Definition received (os : list (output M)) : list (envelope M) :=
  flat_map (fun o => match o with Sent _ _ _ _ => [] | Received _ e => [e] end) os.
(** The messages sent by one task, with their times. *)
Definition sent_by (i : nat) (os : list (output M)) : list (nat * envelope M) :=
  flat_map (fun o => match o with Sent _ (Some j) t e => if Nat.eqb i j then [(t, e)] else [] | _ => [] end) os.
(** The label at which time does not move. *)
Definition timeless (l : label M) : bool := match l with Advance _ _ => false | _ => true end.
End Observed.
