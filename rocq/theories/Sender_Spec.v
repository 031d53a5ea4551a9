(** Who speaks for a widget. *)
From Coq Require Import ZArith List Bool.
From Verif Require Import Bars_Model Pointer_Model.
Import ListNotations.

Definition centring (w : widget) : bool := match w with Box (KCenter _ _ _) _ _ => true | _ => false end.
(** The widget at a path. *)
Fixpoint at_path (w : widget) (p : list nat) : option widget :=
  match p with
  | [] => Some w
  | i :: r => match w with Leaf => None | Box _ _ kids => match nth_error kids i with Some k => at_path k r | None => None end end
  end.
(** A centring container is at [q], above [p]. *)
Definition centred_at (w : widget) (p q : list nat) : Prop :=
  exists rest k, p = q ++ rest /\ rest <> [] /\ at_path w q = Some k /\ centring k = true.
Definition uncentred (w : widget) (p : list nat) : Prop := forall q, ~ centred_at w p q.
(** The leaf whose answer to the event the application is given. *)
Definition answerer (x y : Z) (answers : list nat -> bool) (press : bool) (w : widget) (r : area) : option (list nat) :=
  let (l, b) := asked x y answers press w [] r in
  if b then match rev l with [] => None | c :: _ => Some (fst c) end else None.
