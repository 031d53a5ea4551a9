(** Specification of the CSS class interface: what the calls made so far ask for. *)
From Coq Require Import String ZArith List Bool.
From Verif Require Import Text_Model Words_Spec Classes_Model.
Import ListNotations.
Open Scope list_scope.

(** [c] is one of the words of [s] *)
Definition word_of (c s : text) : Prop := exists ws, spaced ws s /\ In c ws.
(** no word of [s] is repeated, and none is one of [fixed] *)
Definition distinct_words (fixed : list text) (s : text) : Prop := exists ws, spaced ws s /\ NoDup (fixed ++ ws).

(** What one call says about class [c]: whether it is to be there, given whether
    it was to be there before. *)
Definition asks (fixed : list text) (c : text) (before : Prop) (k : call) : Prop :=
  match k with
  | Add d => d = c \/ before
  | Remove d => d <> c /\ before
  | Toggle d => (d = c /\ ~ before) \/ (d <> c /\ before)
  | SetClass true d => d = c \/ before
  | SetClass false d => d <> c /\ before
  | SetClasses s => In c fixed \/ word_of c s
  | MarkDirty | MarkClean => before
  end.
(** What all calls so far ask for. *)
Definition wanted (fixed : list text) (h : list call) (c : text) : Prop := fold_left (asks fixed c) h (In c fixed).

(** [set_classes] is only given texts without repeated words. *)
Definition no_repeats (fixed : list text) (h : list call) : Prop :=
  NoDup fixed /\ forall s, In (SetClasses s) h -> distinct_words fixed s.
(** No class is added while it is already asked for. *)
Definition no_second_add (h : list call) : Prop :=
  forall h1 c h2, h = h1 ++ Add c :: h2 \/ h = h1 ++ SetClass true c :: h2 -> ~ wanted [] h1 c.

(** ** Buttons *)
Section Lower.
Variable lower : text -> text.
Definition variant_name (v : variant) : text :=
  str match v with VDefault => "default" | VPrimary => "primary" | VSuccess => "success" | VWarning => "warning" | VError => "error" end.
(** the name of a variant, in any case and with white space around *)
Definition names (n : text) (v : variant) : Prop := lower (trim n) = variant_name v.

(** the last variant, flatness and compactness set *)
Fixpoint last_variant (v : variant) (h : list bcall) (v' : variant) : Prop :=
  match h with
  | [] => v' = v
  | SetVariant n :: r => exists u, names n u /\ last_variant u r v'
  | _ :: r => last_variant v r v'
  end.
Fixpoint last_flat (b : bool) (h : list bcall) : bool :=
  match h with [] => b | SetFlat f :: r => last_flat f r | _ :: r => last_flat b r end.
Fixpoint last_compact (b : bool) (h : list bcall) : bool :=
  match h with [] => b | SetCompact f :: r => last_compact f r | _ :: r => last_compact b r end.

(** the classes a button manages itself *)
Definition reserved (c : text) : Prop :=
  (exists v, c = class_name v) \/ c = str "-style-default" \/ c = str "-style-flat" \/ c = str "-textual-compact".
(** a call that leaves them alone *)
Definition leaves_reserved (k : bcall) : Prop :=
  match k with
  | Class (Add c) | Class (Remove c) | Class (Toggle c) | Class (SetClass _ c) => ~ reserved c
  | Class (SetClasses _) => False
  | _ => True
  end.
End Lower.
