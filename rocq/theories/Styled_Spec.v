(** From the text of a stylesheet to the style of a widget: which declarations
    written in nested rules are in force for a widget, and which of them wins.
    Everything is said about the rules as they stand in the text: a rule is
    named by where it stands, a nested selector by the selectors it is nested in. *)
From Coq Require Import String ZArith List Bool Arith.
From Verif Require Import Text_Model Css_Model Css_Spec.
Import ListNotations.
Local Open Scope nat_scope.
Local Open Scope list_scope.
Notation length := List.length.

(** Positions are paths: [3; 0] is item 0 of rule 3.  What encloses comes before
    what is enclosed, otherwise the order is that of the text. *)
Fixpoint earlier (p q : list nat) : Prop :=
  match p, q with
  | _, [] => False
  | [], _ :: _ => True
  | a :: p', b :: q' => a < b \/ (a = b /\ earlier p' q')
  end.

Section Source.
Context {V : Type}.

(** the rule at path [p] has the items [items]; [ss] are the selector lists of
    the rules around it, outermost first, and its own *)
Inductive written (l : list (rule V)) : list nat -> list (list complex) -> list (item V) -> Prop :=
| written_top : forall i sels items, nth_error l i = Some (Rule V sels items) -> written l [i] [sels] items
| written_in : forall p ss items k sels' items', written l p ss items ->
    nth_error items k = Some (INested V (Rule V sels' items')) -> written l (p ++ [k]) (ss ++ [sels']) items'.

(** one selector out of each list *)
Inductive picks : list (list complex) -> list nat -> list complex -> Prop :=
| picks_nil : picks [] [] []
| picks_cons : forall sels i s ss is ts, nth_error sels i = Some s -> picks ss is ts -> picks (sels :: ss) (i :: is) (s :: ts).

(** the widgets meant by a selector nested in selectors *)
Fixpoint meaning_in (c : ctx) (M : chain -> Prop) (ts : list complex) : chain -> Prop :=
  match ts with
  | [] => M
  | s :: r => meaning_in c (nested_css c M s) r
  end.
Definition meaning (c : ctx) (ts : list complex) : chain -> Prop :=
  match ts with
  | [] => fun _ => False
  | s :: r => meaning_in c (css c s) r
  end.

(** ids, classes and types in all of them together *)
Definition weight (ts : list complex) : specificity :=
  let all := flat_map simple_selectors ts in Spec (count_if is_id all) (count_if is_class_like all) (count_if is_type all).

(** declaration [d], item [k] of the rule at [p], is in force for the widget at
    the head of [ch] through the selectors [ts]: of all choices that mean the
    widget the first one *)
Definition in_force (c : ctx) (l : list (rule V)) (ch : chain) (p : list nat) (k : nat) (d : declaration V) (ts : list complex) : Prop :=
  exists ss items is, written l p ss items /\ nth_error items k = Some (IDecl V d) /\ picks ss is ts /\ meaning c ts ch /\
    forall is' ts', picks ss is' ts' -> earlier is' is -> ~ meaning c ts' ch.

(** the second of two declarations has precedence: it is more specific, or
    written in a later rule, or later in the same rule *)
Definition yields (ts : list complex) (p : list nat) (k : nat) (ts' : list complex) (p' : list nat) (k' : nat) : Prop :=
  spec_lt (weight ts) (weight ts') \/ (weight ts = weight ts' /\ (earlier p p' \/ (p = p' /\ k < k'))).

(** the declaration that decides about property [s]: in force, about it, and all
    others that are yield to it *)
Definition decides (c : ctx) (l : list (rule V)) (ch : chain) (s : slot) (p : list nat) (k : nat) (d : declaration V) (ts : list complex) : Prop :=
  in_force c l ch p k d ts /\ In s (properties_of d) /\
  forall p' k' d' ts', in_force c l ch p' k' d' ts' -> In s (properties_of d') -> (p', k') = (p, k) \/ yields ts' p' k' ts p k.

(** The combinators of a selector from left to right; nesting without [&] means a blank. *)
Definition inner (s : complex) : list combinator := map snd (removelast s).
Definition starts_with_parent (s : complex) : bool := match s with (k, _) :: _ => existsb is_parent k | [] => false end.
Fixpoint joints (ts : list complex) : list combinator :=
  match ts with
  | [] => []
  | s :: r => (if starts_with_parent s then [] else [CDescendant]) ++ inner s ++ joints r
  end.
Definition all_joints (ts : list complex) : list combinator :=
  match ts with [] => [] | s :: r => inner s ++ joints r end.
(** no [>] stands to the left of a blank (see C22) *)
Definition no_child_first (l : list combinator) : Prop :=
  forall i j b, i < j -> nth_error l i = Some CChild -> nth_error l j = Some b -> is_desc b = false.
Definition readable (l : list (rule V)) : Prop :=
  forall p ss items is ts, written l p ss items -> picks ss is ts -> no_child_first (all_joints ts).
End Source.
