(** What a key binding says: a comma-separated list of alternatives, each a
    plus-separated list of words; every word but the last that is no modifier
    counts for nothing. *)
From Coq Require Import String ZArith List Bool.
From Verif Require Import Text_Model Keys_Model.
Import ListNotations.
Open Scope Z_scope.
Open Scope list_scope.

(** Pieces glued together with a separator. *)
Fixpoint glue (c : char) (l : list text) : text :=
  match l with [] => [] | [a] => a | a :: r => a ++ c :: glue c r end.

(** A binding as a list of alternatives, each a non-empty list of words free of commas and pluses. *)
Definition word_ok (w : text) : Prop := ~ In 44 w /\ ~ In 43 w.
Definition alternative := list text.
Definition alternatives_ok (alts : list alternative) : Prop :=
  alts <> [] /\ Forall (fun a : alternative => a <> [] /\ Forall word_ok a) alts.
Definition binding_text (alts : list alternative) : text := glue 44 (map (glue 43) alts).

(** The names of the modifiers and of the keys. *)
Definition ctrl_names : list text := map str ["ctrl"; "control"]%string.
Definition shift_names : list text := map str ["shift"]%string.
Definition alt_names : list text := map str ["alt"; "meta"; "super"]%string.
Definition modifier (w : text) : Prop := In w (ctrl_names ++ shift_names ++ alt_names).
Definition key_names : list (string * code) :=
  [("enter", Enter); ("escape", Esc); ("esc", Esc); ("tab", Tab); ("backtab", BackTab); ("space", Char 32);
   ("up", Up); ("down", Down); ("left", Left); ("right", Right); ("home", Home); ("end", End_);
   ("pageup", PageUp); ("pagedown", PageDown); ("backslash", Char 92)]%string.

(** The same letter, upper and lower ASCII case identified. *)
Definition same_letter (a b : char) : Prop :=
  a = b \/ (65 <= a <= 90 /\ b = a + 32) \/ (65 <= b <= 90 /\ a = b + 32).

(** A key word names a key code. *)
Definition names_key (w : text) (k : code) : Prop :=
  (exists n, In (n, k) key_names /\ w = str n) \/ (exists a b, w = [a] /\ k = Char b /\ same_letter a b).

Section Bindings.
Variable lc : char -> text.

(** The words of an alternative: surrounding white space and case do not count, blank words are dropped. *)
Definition the_words (a : alternative) : list text :=
  map (flat_map lc) (filter (fun t => negb (is_nil t)) (map trim a)).

(** An alternative accepts an event: control and alt are held exactly when asked
    for, shift when asked for, nothing else is held, and the last word that is no
    modifier names the key. *)
Definition accepts (e : event) (a : alternative) : Prop :=
  let ws := the_words a in
  (k_ctrl e = true <-> exists w, In w ws /\ In w ctrl_names) /\
  (k_alt e = true <-> exists w, In w ws /\ In w alt_names) /\
  ((exists w, In w ws /\ In w shift_names) -> k_shift e = true) /\
  k_more e = false /\
  exists before key after, ws = before ++ key :: after /\ ~ modifier key /\ Forall modifier after /\ names_key key (k_code e).
End Bindings.
