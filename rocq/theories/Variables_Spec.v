(** What variables in a stylesheet mean, independently of the code.  A source is
    a list of lines.  A line defines a variable, or is code in which variables
    are referred to. *)
From Coq Require Import ZArith List Bool String.
From Verif Require Import Text_Model.
Import ListNotations.
Open Scope Z_scope.
Open Scope list_scope.

Definition blank (t : text) : Prop := Forall (fun c => is_ws c = true) t.

(** Letters and digits: what is assumed of the Unicode table. *)
Definition ascii_alnum (c : char) : bool :=
  ((48 <=? c) && (c <=? 57)) || ((65 <=? c) && (c <=? 90)) || ((97 <=? c) && (c <=? 122)).
Definition alnum_like (alnum : char -> bool) : Prop :=
  (forall c, 0 <= c < 128 -> alnum c = ascii_alnum c) /\ (forall c, is_ws c = true -> alnum c = false).

Section Names.
Variable alnum : char -> bool.
Definition in_name (c : char) : Prop := alnum c = true \/ c = 45 \/ c = 95.
Definition name (t : text) : Prop := Forall in_name t.

Inductive piece := Lit (t : text) | Ref (n : text).
Definition piece_text (p : piece) : text := match p with Lit t => t | Ref n => 36 :: n end.
Definition piece_ok (p : piece) : Prop := match p with Lit t => ~ In 36 t | Ref n => name n end.
(** a literal right after a reference must not go on with the name *)
Fixpoint separated (ps : list piece) : Prop :=
  match ps with
  | Ref _ :: ((Lit (c :: _) :: _) as r) => ~ in_name c /\ separated r
  | Ref _ :: ((Lit [] :: _) as r) => False
  | _ :: r => separated r
  | [] => True
  end.

Inductive line := Def (n v : text) | Code (ps : list piece).

(** how a line is written; [semi] is the optional semicolon *)
Inductive written : line -> text -> Prop :=
| w_def : forall a b c d n v semi, blank a -> blank b -> blank c -> blank d -> name n ->
    match v with [] => True | x :: _ => is_ws x = false end ->
    (semi = [59] \/ (semi = [] /\ match rev v with [] => True | x :: _ => is_ws x = false /\ x <> 59 end)) ->
    written (Def n v) (a ++ [36] ++ n ++ b ++ [58] ++ c ++ v ++ semi ++ d)
| w_code : forall ps, Forall piece_ok ps -> separated ps ->
    (forall w r, blank w -> flat_map piece_text ps <> w ++ 36 :: r) ->
    written (Code ps) (flat_map piece_text ps).

(** a source: its lines, the newline after the last one being optional; no
    comments, no carriage returns *)
Definition source (ls : list line) (t : text) : Prop :=
  exists ts, Forall2 written ls ts /\ Forall (fun x => ~ In 10 x /\ ~ In 13 x) ts
    /\ (t = flat_map (fun x => x ++ [10]) ts
        \/ (t ++ [10] = flat_map (fun x => x ++ [10]) ts /\ last ts [0] <> []))
    /\ (forall a b, t <> a ++ [47; 42] ++ b) /\ (forall a b, t <> a ++ [42; 47] ++ b).

(** the value of a variable is given by its last definition, wherever that is *)
Definition valued (ls : list line) (n v : text) : Prop :=
  exists before after, ls = before ++ Def n v :: after /\ forall w, ~ In (Def n w) after.
Inductive stands_for (ls : list line) : piece -> text -> Prop :=
| s_lit : forall t, stands_for ls (Lit t) t
| s_ref : forall n v, valued ls n v -> stands_for ls (Ref n) v
| s_undefined : forall n, (forall v, ~ In (Def n v) ls) -> stands_for ls (Ref n) (36 :: n).
Inductive means (ls : list line) : list line -> text -> Prop :=
| m_nil : means ls [] []
| m_def : forall n v r o, means ls r o -> means ls (Def n v :: r) o
| m_code : forall ps os r o, Forall2 (stands_for ls) ps os -> means ls r o ->
    means ls (Code ps :: r) (List.concat os ++ [10] ++ o).

End Names.

(** A text without its comments: from every slash and star up to the next star and
    slash, or to the end if there is none. *)
Inductive stripped : text -> text -> Prop :=
| st_nil : stripped [] []
| st_char : forall c r o, (forall r', c :: r <> [47; 42] ++ r') -> stripped r o -> stripped (c :: r) (c :: o)
| st_comment : forall body r o, (forall a b, body ++ [42; 47] = a ++ [42; 47] ++ b -> b = []) -> stripped r o ->
    stripped ([47; 42] ++ body ++ [42; 47] ++ r) o
| st_open : forall body, (forall a b, body <> a ++ [42; 47] ++ b) -> stripped ([47; 42] ++ body) [].
