(** What a command palette should do, without its fields and methods. *)
From Coq Require Import List Arith Bool ZArith Permutation Sorting.Sorted.
From Verif Require Import Text_Model Palette_Model.
Import ListNotations.
Open Scope nat_scope.

(** An entry stands for a hit: it shows its text, runs its action and can be chosen. *)
Definition stands_for (h : hit) (e : entry) : Prop :=
  e_text e = h_text h /\ e_action e = Some (h_action h) /\ e_score e = h_score h /\ e_disabled e = false.
(** The hits in the order in which they arrived, as entries. *)
Definition arrived (hs : list hit) : list entry :=
  map (fun '(h, i) => {| e_text := h_text h; e_action := Some (h_action h); e_score := h_score h; e_seq := i; e_disabled := false |})
    (combine hs (seq 1 (length hs))).
(** Best score first, earlier arrivals first among equals. *)
Definition better (a b : entry) : Prop := (e_score b < e_score a)%Z \/ (e_score a = e_score b /\ e_seq a < e_seq b).
(** [l] lists exactly these hits, best first. *)
Definition ranking (hs : list hit) (l : list entry) : Prop := Permutation l (arrived hs) /\ StronglySorted better l.

Section Answers.
Variable P : Type.
Variable ask : P -> text -> list hit.
Definition answers (q : text) (ps : list P) : list hit := flat_map (fun x => ask x (trim q)) ps.
(** All providers have answered the current query: no search for it is running and no answer to it is waiting. *)
Definition answered (p : palette P) : Prop :=
  (forall x q, ~ In (Search P (generation P p) x q) (tasks P p)) /\ (forall hs, ~ In (ProviderResults (generation P p) hs) (channel P p)).

(** Histories in which no other search is begun. *)
Definition quiet (l : label P) : Prop := match l with Edit _ _ | SetProviders _ _ | OpenFocus _ _ => False | _ => True end.

(** What an application sees: the events it takes, and those still to be taken. *)
Fixpoint taken (p : palette P) (ls : list (label P)) : list pevent :=
  match ls with
  | [] => events P p
  | l :: r => (match l with TakeEvents _ => events P p | _ => [] end) ++ taken (step P ask p l) r
  end.
End Answers.
(** Openings and closings take turns, beginning with an opening ([o]: it is open). *)
Fixpoint take_turns (o : bool) (es : list pevent) : Prop :=
  match es with
  | [] => True
  | Highlighted _ _ _ :: r => o = true /\ take_turns o r
  | Opened :: r => o = false /\ take_turns true r
  | Closed _ :: r => o = true /\ take_turns false r
  end.
(** Is the palette open, judging by the events only? *)
Fixpoint open_after (o : bool) (es : list pevent) : bool :=
  match es with
  | [] => o
  | Highlighted _ _ _ :: r => open_after o r
  | Opened :: r => open_after true r
  | Closed _ :: r => open_after false r
  end.
Definition is_highlight (e : pevent) : Prop := match e with Highlighted _ _ _ => True | _ => False end.
(** The focus at the last opening that was not yet given back. *)
Section Focus.
Variable P : Type.
Variable ask : P -> text -> list hit.
Fixpoint focus_owed (acc : option nat) (p : palette P) (ls : list (label P)) : option nat :=
  match ls with
  | [] => acc
  | l :: r => focus_owed (if visible P p then acc else match l with OpenFocus _ f => Some f | TakeRestore _ => None | _ => acc end) (step P ask p l) r
  end.
End Focus.
