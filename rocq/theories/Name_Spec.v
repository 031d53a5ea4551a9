(** Specification vocabulary for the names of widgets and typed queries. *)
From Coq Require Import String ZArith List Bool Arith.
From Verif Require Import Text_Model Tree_Model Css_Model Name_Model.
Import ListNotations.
Open Scope nat_scope.
Open Scope list_scope.

(** The name of a Rust type: modules, the name, type arguments. *)
Definition word (t : text) : Prop := t <> [] /\ ~ In 58%Z t /\ ~ In 60%Z t.
Definition path_of (modules : list text) (name args : text) : text :=
  flat_map (fun m => m ++ str "::") modules ++ name ++ args.
Definition arguments (a : text) : Prop := a = [] \/ exists r, a = 60%Z :: r.

(** The widget a path leads to, through the children given by [next]. *)
Fixpoint reach (next : widget -> list widget) (w : widget) (p : list nat) : option widget :=
  match p with
  | [] => Some w
  | i :: r => match nth_error (next w) i with Some k => reach next k r | None => None end
  end.
(** Document order: a widget before its children, children from first to last. *)
Fixpoint before (p q : list nat) : Prop :=
  match p, q with
  | _, [] => False
  | [], _ :: _ => True
  | a :: p', b :: q' => a < b \/ (a = b /\ before p' q')
  end.
(** [t'] is [t] with the widget at path [p] replaced by [x] *)
Inductive replaced (x : widget) : widget -> list nat -> widget -> Prop :=
| replaced_here : forall t, replaced x t [] x
| replaced_below : forall t i p k k' a b, children t = a ++ k :: b -> length a = i -> replaced x k p k' ->
    replaced x t (i :: p) (with_children t (a ++ k' :: b)).

(** Ids can be given to widgets that have [with_id] and to the program's own. *)
Fixpoint built (w : widget) : Prop :=
  match w with
  | W (KTooltip | KCorner | KCenter | KMiddle | KScreen | KApp) id _ _ => id = None
  | W _ _ _ _ => True
  | Boxed v => built v
  end.
Definition is_boxed (w : widget) : bool := match w with Boxed _ => true | _ => false end.
(** The widget a box comes down to *)
Fixpoint unboxed (w : widget) : widget := match w with Boxed v => unboxed v | _ => w end.
Definition kind_of (w : widget) : option kind := match unboxed w with W k _ _ _ => Some k | Boxed _ => None end.
(** The widgets whose parts queries do not see. *)
Definition closed_kind (k : kind) : bool := match k with KHeader | KOptions | KCommandList => true | _ => false end.
(** A closure on the widget inside a box leaves the box. *)
Fixpoint inside (f : widget -> widget) (w : widget) : widget := match w with Boxed v => Boxed (inside f v) | _ => f w end.

(** The type selectors a stylesheet may use for a widget, its own name first. *)
Definition own_name (k : kind) : option text :=
  match k with
  | KUser _ _ => None
  | KStatic => Some (str "Static") | KLabel => Some (str "Label") | KButton => Some (str "Button") | KInput => Some (str "Input")
  | KSwitch => Some (str "Switch") | KPlaceholder => Some (str "Placeholder") | KRuler => Some (str "Ruler")
  | KLoading => Some (str "LoadingIndicator") | KBar => Some (str "ScrollBar") | KCorner => Some (str "ScrollBarCorner")
  | KTooltip => Some (str "Tooltip") | KOptions => Some (str "OptionList") | KHeader => Some (str "Header")
  | KHeaderTitle => Some (str "HeaderTitle") | KHeaderClock => Some (str "HeaderClockSpace") | KHeaderIcon => Some (str "HeaderIcon")
  | KPalette => Some (str "CommandPalette") | KSearchIcon => Some (str "SearchIcon") | KCommandInput => Some (str "CommandInput")
  | KCommandList => Some (str "CommandList") | KContainer => Some (str "Container") | KVertical => Some (str "Vertical")
  | KHorizontal => Some (str "Horizontal") | KGrid => Some (str "Grid") | KItemGrid => Some (str "ItemGrid")
  | KScrollable => Some (str "ScrollableContainer") | KVScroll => Some (str "VerticalScroll") | KHScroll => Some (str "HorizontalScroll")
  | KCenter => Some (str "Center") | KMiddle => Some (str "Middle") | KScreen => Some (str "Screen") | KApp => Some (str "App")
  end.
Definition families (k : kind) (l : direction) : list text :=
  (match k with
   | KLabel | KInput | KTooltip | KHeaderTitle | KHeaderClock | KHeaderIcon | KSearchIcon => [str "Static"]
   | KOptions | KPalette => [str "Container"]
   | KCommandInput => [str "Input"]
   | KCommandList => [str "OptionList"]
   | KVScroll | KHScroll => [str "ScrollableContainer"]
   | KContainer => match l with DVertical => [str "Vertical"] | DHorizontal => [str "Horizontal"] | DOther => [] end
   | _ => []
   end) ++ (match k with KApp => [] | _ => [str "Widget"] end) ++ [str "DOMNode"].

(** A typed query asks for widgets the selector names, of type [K], that can be cast. *)
Definition wanted (m sel : text) (K : kind) (w : widget) : Prop :=
  sel_finds m (parse_selector sel) w = true /\ kind_of w = Some K /\ answers_any K = true.
Definition first_wanted (m sel : text) (K : kind) (root : widget) (p : list nat) (x : widget) : Prop :=
  reach children root p = Some x /\ wanted m sel K x /\
  forall q y, reach children root q = Some y -> before q p -> ~ wanted m sel K y.
(** Widgets that have no parts: all others hold children and show them to the style resolver. *)
Definition leaf (k : kind) : Prop :=
  In k [KStatic; KLabel; KButton; KInput; KSwitch; KPlaceholder; KRuler; KLoading; KBar; KCorner; KTooltip; KHeaderTitle; KHeaderClock; KHeaderIcon; KSearchIcon; KCommandInput].
