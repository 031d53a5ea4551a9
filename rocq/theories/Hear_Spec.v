(** Who should hear a message. *)
From Coq Require Import List Bool Arith.
From Verif Require Import Text_Model Tree_Model Tree_Spec Hear_Model.
Import ListNotations.

(** The tree of an application: the screen with its widgets, and the overlays. *)
Definition application (root : widget) (users overlays : list widget) : Prop :=
  exists d screen, root = Box d (Box screen users :: overlays).
(** The paths of the screen's widgets and of the overlays. *)
Definition user_paths (users : list widget) : list (list nat) := map (fun i => [0; i]) (seq 0 (length users)).
Definition overlay_paths (overlays : list widget) : list (list nat) := map (fun j => [j]) (seq 1 (length overlays)).
(** The ancestors inside the screen, the parent first. *)
Definition inside (path : list nat) : list (list nat) := filter (fun p => 2 <=? length p) (ancestors path).

Section Hearing.
Variables M St : Type.
Variable own : list nat -> St -> envelope M -> option M * St * envelope M.
(** All calls of handlers, in order, with the envelope each was given. *)
Definition calls (root : widget) (path : list nat) (s : St) (e : envelope M) : list (call M St) :=
  snd (fst (rise M (St * list (call M St)) (recording M St own) root path (s, []) e)).
Definition heard (root : widget) (path : list nat) (s : St) (e : envelope M) : list (list nat) :=
  map (fun c : call M St => fst (fst c)) (calls root path s e).
(** What the application is given in the end. *)
Definition received (root : widget) (path : list nat) (s : St) (e : envelope M) : envelope M := snd (rise M St own root path s e).
(** No handler answers with another message or stops this one. *)
Definition quiet : Prop := forall p s e, fst (fst (own p s e)) = None /\ e_bubbling (snd (own p s e)) = e_bubbling e.
End Hearing.
