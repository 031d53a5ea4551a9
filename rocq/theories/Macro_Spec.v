(** What the macros [ui!] and [widget!] are documented to mean. *)
From Coq Require Import String ZArith List Bool.
From Verif Require Import Text_Model Macro_Model.
Import ListNotations.
Open Scope list_scope.

(** *** How a tree is written

    With [strict] a comma stands between two arguments, as documented; without it
    the comma may be missing. *)
Inductive argument := Plain (e : expr) | Named (n : text) (e : expr).
Definition argument_tokens (a : argument) : list tok :=
  match a with Plain e => e | Named n e => TIdent n :: TColon :: e end.
Fixpoint writes_arguments (strict : bool) (l : list argument) (toks : list tok) : Prop :=
  match l with
  | [] => toks = []
  | a :: r => exists sep rest, toks = argument_tokens a ++ sep ++ rest /\
      (sep = [TComma] \/ sep = [] /\ (r = [] \/ strict = false)) /\ writes_arguments strict r rest
  end.
Fixpoint writes (strict : bool) (c : child) (toks : list tok) : Prop :=
  match c with
  | Splat e => toks = TDots :: e
  | Widget n positional named children =>
      exists round curly, toks = TIdent n :: round ++ curly /\
      (round = [] /\ positional = [] /\ named = [] \/
       exists l, round = [TParen l] /\
         writes_arguments strict (map Plain positional ++ map (fun a => Named (fst a) (snd a)) named) l) /\
      match children with
      | None => curly = []
      | Some cs => exists l, curly = [TBrace l] /\
          (fix all (cs : list child) (l : list tok) : Prop :=
             match cs with [] => l = [] | c :: cs => exists t r, l = t ++ r /\ writes strict c t /\ all cs r end) cs l
      end
  end.
Definition writes_all (strict : bool) : list child -> list tok -> Prop :=
  fix all (cs : list child) (l : list tok) : Prop :=
    match cs with [] => l = [] | c :: cs => exists t r, l = t ++ r /\ writes strict c t /\ all cs r end.

(** An expression that ends where it is written to end: before a comma, before the
    name of a widget and at the end of a group.  It does not start like a named
    attribute. *)
Definition ends_expression (rest : list tok) : Prop :=
  match rest with [] => True | TComma :: _ => True | TIdent _ :: _ => True | _ => False end.
Definition expression (take : list tok -> option nat) (e : expr) : Prop :=
  e <> [] /\ (forall n r, e <> TIdent n :: TColon :: r) /\
  forall rest, ends_expression rest -> take (e ++ rest) = Some (length e - 1)%nat.
(** All expressions of a tree. *)
Fixpoint expressions (c : child) : list expr :=
  match c with
  | Splat e => [e]
  | Widget _ positional named children =>
      positional ++ map snd named ++ match children with None => [] | Some l => concat (map expressions l) end
  end.
(** No splat comes directly after another. *)
Fixpoint spaced_list (l : list child) : Prop :=
  match l with
  | c :: r => match c, r with Splat _, Splat _ :: _ => False | _, _ => spaced_list r end
  | [] => True
  end.
Fixpoint spaced (c : child) : Prop :=
  match c with
  | Widget _ _ _ (Some l) => spaced_list l /\ fold_right (fun c p => spaced c /\ p) True l
  | _ => True
  end.

(** *** What a tree means *)
Section Meaning.
Variable contents : expr -> list value.
(** A splat stands for its contents; a widget is made from its positional arguments
    and then its children, and its named attributes are builder calls. *)
Fixpoint stands_for (c : child) : list value :=
  match c with
  | Splat e => contents e
  | Widget n positional named children =>
      [Made n (map Opaque positional ++ match children with None => [] | Some l => [Many (concat (map stands_for l))] end)
              (map (fun a => ((str "with_"%string ++ fst a), snd a)) named)]
  end.
End Meaning.
(** The order of evaluation: arguments, children, named attributes. *)
Fixpoint evaluation (c : child) : list expr :=
  match c with
  | Splat e => [e]
  | Widget _ positional named children =>
      positional ++ match children with None => [] | Some l => concat (map evaluation l) end ++ map snd named
  end.
