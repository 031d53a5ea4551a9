(** Specification vocabulary for the widget tree. *)
From Coq Require Import ZArith List Bool Arith.
From Verif Require Import Text_Model Tree_Model.
Import ListNotations.
Open Scope nat_scope.

(** The widgets of a tree with their paths, in document order; subtrees whose
    top widget does not pass [keep] are left out. *)
Fixpoint walk (keep : widget -> bool) (w : widget) : list (list nat * widget) :=
  ([], w) ::
  match w with
  | Leaf _ => []
  | Box _ ks =>
      (fix go (i : nat) (l : list widget) : list (list nat * widget) :=
         match l with
         | [] => []
         | k :: r => (if keep k then map (fun q => (i :: fst q, snd q)) (walk keep k) else []) ++ go (S i) r
         end) 0 ks
  end.
Definition everything (w : widget) : bool := true.

(** The focusable widgets that are not hidden, in document order: the Tab order. *)
Definition focus_items (w : widget) : list (list nat * widget) := filter (fun q => is_focusable (snd q)) (walk shown w).
Definition focus_order (w : widget) : list (list nat) := map fst (focus_items w).

(** The widget at path [p] has the focus. *)
Definition has_focus (w : widget) (p : list nat) : Prop :=
  exists d, follow w p = Some (Leaf d) /\ w_focused d = true.
(** Paths of the widgets that are not hidden. *)
Definition visible_paths (w : widget) : list (list nat) := map fst (walk shown w).
(** Among the visible widgets exactly the one at [p] has the focus. *)
Definition only_focus (w : widget) (p : list nat) : Prop :=
  forall q, In q (visible_paths w) -> (has_focus w q <-> q = p).
Definition nothing_hidden (w : widget) : Prop := forall q, In q (walk everything w) -> shown (snd q) = true.

(** The tree with all focus marks removed: what focus changes must not touch. *)
Fixpoint unfocused (w : widget) : widget :=
  match w with
  | Leaf d => Leaf (set_focused false d)
  | Box d ks => Box (set_focused false d) (map unfocused ks)
  end.

(** The ways an application moves the focus. *)
Inductive focus_op := Next | Previous | ToIndex (i : nat) | ToId (id : text).
Definition do_focus (o : focus_op) (t : tree) : tree * bool :=
  match o with
  | Next => let '(t', r) := focus_next t in (t', match r with Some _ => true | None => false end)
  | Previous => let '(t', r) := focus_previous t in (t', match r with Some _ => true | None => false end)
  | ToIndex i => set_focus_index i t
  | ToId id => focus_by_id id t
  end.
Definition do_all (ops : list focus_op) (t : tree) : tree := fold_left (fun t o => fst (do_focus o t)) ops t.

Fixpoint times (n : nat) (f : tree -> tree) (t : tree) : tree :=
  match n with O => t | S k => f (times k f t) end.

(** Ancestors of the widget at [p], nearest first. *)
Definition ancestors (p : list nat) : list (list nat) := map (fun n => firstn n p) (rev (seq 0 (length p))).

(** A tree as the list of its widgets with their paths, in document order. *)
Definition entries (w : widget) : list (list nat * wdata) := map (fun q => (fst q, data (snd q))) (walk everything w).
Definition matches_in (m : wdata -> bool) (w : widget) : list (list nat * wdata) := filter (fun e => m (snd e)) (entries w).
(** The entries with the widget at [p] changed, or with every widget that passes [m] changed. *)
Definition change_at (p : list nat) (f : wdata -> wdata) (l : list (list nat * wdata)) : list (list nat * wdata) :=
  map (fun e => if list_eq_dec Nat.eq_dec (fst e) p then (fst e, f (snd e)) else e) l.
Definition change_all (m : wdata -> bool) (f : wdata -> wdata) (l : list (list nat * wdata)) : list (list nat * wdata) :=
  map (fun e => if m (snd e) then (fst e, f (snd e)) else e) l.

(** What a message handler is given, and the record of the calls made: the path
    of the widget, the state it found and the envelope it was given. *)
Section Calls.
Variables M St : Type.
Variable handle : list nat -> St -> envelope M -> option M * St * envelope M.
Definition call := (list nat * St * envelope M)%type.
Definition recording (p : list nat) (s : St * list call) (e : envelope M) : option M * (St * list call) * envelope M :=
  let '(r, s', e') := handle p (fst s) e in (r, (s', snd s ++ [(p, fst s, e)]), e').
(** State and envelope after a call: a returned message replaces the carried one. *)
Definition after (c : call) : St * envelope M :=
  let '(p, s, e) := c in
  let '(r, s', e') := handle p s e in
  (s', match r with Some m => Envelope m (e_sender e') (e_sender_type e') (e_bubbling e') | None => e' end).
(** Each call starts from where the previous one ended, beginning with [x] and ending with [y]. *)
Fixpoint chained (x : St * envelope M) (l : list call) (y : St * envelope M) : Prop :=
  match l with
  | [] => x = y
  | c :: r => (snd (fst c), snd c) = x /\ e_bubbling (snd c) = true /\ chained (after c) r y
  end.
End Calls.
