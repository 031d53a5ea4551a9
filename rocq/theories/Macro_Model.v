(** Model of the macros [ui!] and [widget!] of crates/textual-macros.

    The input is a list of token trees.  How many tokens a Rust expression takes
    is decided by the syn crate; it is the parameter [take] ([Some n] for n + 1
    tokens), and an expression is the list of its tokens.  Keywords are not
    identifiers, as in syn.  Token positions and the texts of error messages are
    left out, and so are the tokens [..=] and [...], which syn's [peek] also takes
    for [..]. *)
From Coq Require Import String ZArith List Bool.
From Verif Require Import Text_Model.
Import ListNotations.
Open Scope list_scope.

Inductive tok := TIdent (name : text) | TDots | TColon | TPath | TComma
| TParen (l : list tok) | TBrace (l : list tok) | TOther (k : Z).
Definition expr := list tok.
Inductive error := NoWidget | PositionalAfterNamed | Syntax | Fuel.
Inductive result (A : Type) := Good (a : A) | Bad (e : error).
Arguments Good {A} a. Arguments Bad {A} e.

(** textual-macros/src/parse.rs:15-42: [ChildItem], [WidgetNode], [NamedAttr] *)
Inductive child :=
| Widget (name : text) (positional : list expr) (named : list (text * expr)) (children : option (list child))
| Splat (e : expr).

Section Parse.
Variable take : list tok -> option nat.
(** [input.parse::<Expr>()] *)
Definition parse_expr (input : list tok) : result (expr * list tok) :=
  match input with
  | [] => Bad Syntax
  | _ => match take input with
         | Some n => Good (firstn (S n) input, skipn (S n) input)
         | None => Bad Syntax
         end
  end.
(** parse.rs:139-142: the comma that may follow an argument *)
Definition skip_comma (input : list tok) : list tok := match input with TComma :: r => r | _ => input end.
(** parse.rs:107-147 [parse_args]; the first argument bounds the number of turns of
    the loop *)
Fixpoint parse_args (fuel : nat) (seen_named : bool) (input : list tok) : result (list expr * list (text * expr)) :=
  match fuel with
  | O => Bad Fuel
  | S fuel =>
      match input with
      | [] => Good ([], [])
      | TIdent n :: TColon :: r =>
          match parse_expr r with
          | Bad e => Bad e
          | Good (v, r) =>
              match parse_args fuel true (skip_comma r) with
              | Good (p, a) => Good (p, (n, v) :: a)
              | Bad e => Bad e
              end
          end
      | _ =>
          if seen_named then Bad PositionalAfterNamed
          else match parse_expr input with
               | Bad e => Bad e
               | Good (v, r) =>
                   match parse_args fuel seen_named (skip_comma r) with
                   | Good (p, a) => Good (v :: p, a)
                   | Bad e => Bad e
                   end
               end
      end
  end.
(** parse.rs:73-105 [WidgetNode::parse]; [kids] reads what is between the braces *)
Definition parse_widget (kids : list tok -> result (list child)) (input : list tok) : result (child * list tok) :=
  match input with
  | TIdent n :: r =>
      match (match r with
             | TParen l :: r => match parse_args (S (length l)) false l with
                                | Good (p, a) => Good (p, a, r)
                                | Bad e => Bad e
                                end
             | _ => Good ([], [], r)
             end) with
      | Bad e => Bad e
      | Good (p, a, r) =>
          match r with
          | TBrace l :: r => match kids l with Good k => Good (Widget n p a (Some k), r) | Bad e => Bad e end
          | _ => Good (Widget n p a None, r)
          end
      end
  | _ => Bad Syntax
  end.
(** parse.rs:44-55 [parse_child_item] *)
Definition parse_child_item (kids : list tok -> result (list child)) (input : list tok) : result (child * list tok) :=
  match input with
  | TDots :: r => match parse_expr r with Good (e, r) => Good (Splat e, r) | Bad e => Bad e end
  | _ => parse_widget kids input
  end.
(** parse.rs:61-64, 91-94: the loop over items; the first argument bounds its turns
    and the depth of braces *)
Fixpoint parse_items (fuel : nat) (input : list tok) : result (list child) :=
  match fuel with
  | O => Bad Fuel
  | S fuel =>
      match input with
      | [] => Good []
      | _ => match parse_child_item (parse_items fuel) input with
             | Bad e => Bad e
             | Good (c, r) => match parse_items fuel r with Good l => Good (c :: l) | Bad e => Bad e end
             end
      end
  end.
(** The number of tokens, with those in groups. *)
Fixpoint tok_size (t : tok) : nat :=
  match t with
  | TParen l | TBrace l => S (fold_right (fun t n => tok_size t + n) 0 l)
  | _ => 1
  end%nat.
Definition toks_size (l : list tok) : nat := fold_right (fun t n => tok_size t + n)%nat 0%nat l.
(** parse.rs:57-71 [UiRoot::parse] *)
Definition parse_root (input : list tok) : result (list child) :=
  match parse_items (S (toks_size input)) input with
  | Good [] => Bad NoWidget
  | r => r
  end.
(** lib.rs:88-92: [parse_macro_input!] also refuses tokens that are left over *)
Definition parse_single (input : list tok) : result child :=
  match parse_widget (parse_items (S (toks_size input))) input with
  | Good (c, []) => Good c
  | Good (_, _ :: _) => Bad Syntax
  | Bad e => Bad e
  end.
End Parse.

(** *** The generated code *)
Inductive code :=
| New (name : text) (args : list code) (calls : list (text * expr))   (* Box::new(name::new(args).call(e)...) as ... *)
| Val (e : expr)
| Vec (l : list code)                                                  (* vec![...] *)
| Block (l : list code)                                                (* let mut __children = Vec::new(); ...; __children *)
| Push (c : code) | Extend (e : expr).

Definition is_splat (c : child) : bool := match c with Splat _ => true | _ => false end.
Definition is_nil {A} (l : list A) : bool := match l with [] => true | _ => false end.
(** codegen.rs:98-111 [generate_attr_calls] *)
Definition attr_calls (named : list (text * expr)) : list (text * expr) :=
  map (fun a => ((str "with_"%string ++ fst a), snd a)) named.
(** codegen.rs:19-57 [generate_widget], 59-96 [generate_children_vec] on the
    children; the first is never given a splat *)
Fixpoint generate_widget (c : child) : code :=
  match c with
  | Splat e => Extend e
  | Widget name positional named None => New name (map Val positional) (attr_calls named)
  | Widget name positional named (Some children) =>
      let children_code :=
        if existsb is_splat children
        then Block (map (fun c => match c with Widget _ _ _ _ => Push (generate_widget c) | Splat e => Extend e end) children)
        else Vec (map generate_widget children) in
      if is_nil positional && is_nil named then New name [children_code] []
      else if is_nil positional then New name [children_code] (attr_calls named)
      else New name (map Val positional ++ [children_code]) (attr_calls named)
  end.
(** codegen.rs:59-96 [generate_children_vec] *)
Definition generate_children_vec (children : list child) : code :=
  if existsb is_splat children
  then Block (map (fun c => match c with Widget _ _ _ _ => Push (generate_widget c) | Splat e => Extend e end) children)
  else Vec (map generate_widget children).
(** textual-macros/src/lib.rs:64-68 [ui] and 88-92 [widget] *)
Definition ui (take : list tok -> option nat) (input : list tok) : result code :=
  match parse_root take input with Good l => Good (generate_children_vec l) | Bad e => Bad e end.
Definition widget (take : list tok -> option nat) (input : list tok) : result code :=
  match parse_single take input with Good c => Good (generate_widget c) | Bad e => Bad e end.

(** *** Running the generated code

    A value is what an expression gives, a widget made by a constructor and builder
    calls, a vector, or a widget that comes out of a splat.  Beside the value, the
    expressions are listed in the order in which Rust evaluates them: arguments from
    left to right, the receiver of a method call before its argument, statements one
    after the other. *)
Inductive value := Opaque (e : expr) | Made (name : text) (args : list value) (calls : list (text * expr))
| Many (l : list value) | Foreign (k : Z).
Definition elements (v : value) : list value := match v with Many l => l | _ => [] end.
Section Run.
Variable contents : expr -> list value.
Fixpoint run (c : code) : value * list expr :=
  match c with
  | New n args calls => (Made n (map (fun a => fst (run a)) args) calls, (concat (map (fun a => snd (run a)) args) ++ map snd calls)%list)
  | Val e => (Opaque e, [e])
  | Vec l => (Many (map (fun a => fst (run a)) l), concat (map (fun a => snd (run a)) l))
  | Block l => (Many (concat (map (fun a => elements (fst (run a))) l)), concat (map (fun a => snd (run a)) l))
  | Push c => (Many [fst (run c)], snd (run c))
  | Extend e => (Many (contents e), [e])
  end.
End Run.
