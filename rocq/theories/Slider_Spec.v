(** What a user sees of a scroll bar, read off the history of events (latest
    first). *)
From Coq Require Import ZArith QArith Qround List Bool.
From Verif Require Import Float32_Model Scroll_Model Scroll_Spec Bars_Model Slider_Model.
Import ListNotations.
Open Scope Z_scope.

(** Where along the bar the pointer is. *)
Definition along (vertical : bool) (x y : Z) (r : area) : Z := if vertical then y - a_y r else x - a_x r.
Definition length_along (vertical : bool) (r : area) : Z := if vertical then a_h r else a_w r.
Definition over (x y : Z) (r : area) : Prop := a_x r <= x < a_x r + a_w r /\ a_y r <= y < a_y r + a_h r.

(** The sizes and the position the bar shows: those last reported, except that a
    report that changes all three by no more than [epsilon] is ignored. *)
Record report := Report { r_virtual : Q; r_window : Q; r_position : Q }.
Definition small_change (rnd : Q -> Q) (a b : report) : bool :=
  negb (differs rnd (r_virtual a) (r_virtual b)) && negb (differs rnd (r_window a) (r_window b))
  && negb (differs rnd (r_position a) (r_position b)).
Fixpoint shown (rnd : Q -> Q) (h : list event) : report :=
  match h with
  | [] => Report 100 100 0
  | Update v w p :: past => if small_change rnd (shown rnd past) (Report v w p) then shown rnd past else Report v w p
  | _ :: past => shown rnd past
  end.
(** The thumb, from its first cell to the one after its last. *)
Definition thumb (rnd : Q -> Q) (vertical : bool) (h : list event) (r : area) : Z * Z :=
  let s := shown rnd h in thumb_bounds rnd (length_along vertical r) (r_virtual s) (r_window s) (r_position s).

(** Which cell of the thumb is held, if any: the one last pressed, until the
    button is released over the bar or the bar is deactivated. *)
Fixpoint held (rnd : Q -> Q) (vertical : bool) (h : list event) : option Z :=
  match h with
  | [] => None
  | Mouse Down x y r :: past =>
      let (s, t) := thumb rnd vertical past r in
      let p := along vertical x y r in
      if contains_point r x y && (s <=? p) && (p <? t) then Some (p - s) else held rnd vertical past
  | Mouse Up x y r :: past => if contains_point r x y then None else held rnd vertical past
  | SetActive false :: _ => None
  | _ :: past => held rnd vertical past
  end.

(** The first colour given, from the state at hand to the plainer ones. *)
Fixpoint first_given {C} (l : list (option C)) (fallback : C) : C :=
  match l with [] => fallback | Some c :: _ => c | None :: r => first_given r fallback end.

(** Does the pointer rest on the bar, as far as the bar can know?  Asked only
    while nothing is held. *)
Fixpoint lit (rnd : Q -> Q) (vertical : bool) (h : list event) : bool :=
  match h with
  | [] => false
  | Mouse m x y r :: past =>
      if contains_point r x y then
        match m with
        | Moved => true
        | Up => match held rnd vertical past with Some _ => true | None => lit rnd vertical past end
        | _ => lit rnd vertical past
        end
      else false
  | SetHover b :: _ => b
  | ClearHover :: _ => false
  | SetActive false :: past => match held rnd vertical past with Some _ => false | None => lit rnd vertical past end
  | _ :: past => lit rnd vertical past
  end.

(** The sizes and the position last reported. *)
Fixpoint last_report (h : list event) : report :=
  match h with
  | [] => Report 100 100 0
  | Update v w p :: _ => Report v w p
  | _ :: past => last_report past
  end.
(** Every report is of whole numbers of cells that fit in 23 bits. *)
Definition whole (q : Q) : Prop := exists z, q = inject_Z z /\ Z.abs z <= 2 ^ 23.
Definition whole_report (e : event) : Prop :=
  match e with Update v w p => whole v /\ whole w /\ whole p | _ => True end.

(** Where a message asks the content to be. *)
Definition wanted_x (m : message) (now : Z) : Z :=
  match m with ScrollLeft => now - 1 | ScrollRight => now + 1 | ScrollTo (Some q) _ => Qfloor q | _ => now end.
Definition wanted_y (m : message) (now : Z) : Z :=
  match m with ScrollUp => now - 1 | ScrollDown => now + 1 | ScrollTo _ (Some q) => Qfloor q | _ => now end.
(** The allowed offset nearest to the one wanted. *)
Definition nearest (wanted virt view off : Z) : Prop :=
  in_range off virt view /\ forall o, in_range o virt view -> Z.abs (wanted - off) <= Z.abs (wanted - o).
