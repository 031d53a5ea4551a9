(** Model of crates/textual/src/tree.rs: the widget tree, focus, queries and
    message bubbling.

    A widget is a leaf, with the default hierarchy methods of widget.rs, or a
    container, whose methods are those of containers/container.rs (the other
    containers and screen.rs repeat them).  Of a widget's state the id, the type
    name, [participates_in_layout], [is_focusable], [is_focused] and the classes
    are kept.  A container is never focusable (widget.rs:328). *)
From Coq Require Import ZArith List Bool Arith.
From Verif Require Import Text_Model.
Import ListNotations.
Open Scope nat_scope.

Record wdata := WData {
  w_id : option text; w_type : text; w_shown : bool; w_can : bool; w_focused : bool; w_classes : list text }.
Inductive widget := Leaf (d : wdata) | Box (d : wdata) (kids : list widget).

Definition data (w : widget) : wdata := match w with Leaf d => d | Box d _ => d end.
(** widget.rs:352-355 [participates_in_layout] *)
Definition shown (w : widget) : bool := w_shown (data w).
Definition set_focused (b : bool) (d : wdata) : wdata :=
  WData (w_id d) (w_type d) (w_shown d) (w_can d) b (w_classes d).

(** widget.rs:328, the container default is false *)
Definition is_focusable (w : widget) : bool := match w with Leaf d => w_can d | Box _ _ => false end.

(** widget.rs:381-385, container.rs:1571-1577 [count_focusable] *)
Fixpoint count_focusable (w : widget) : nat :=
  match w with
  | Leaf d => if w_can d then 1 else 0
  | Box _ ks => list_sum (map (fun k => if shown k then count_focusable k else 0) ks)
  end.

(** widget.rs:388-390, container.rs:1579-1585 [clear_focus] *)
Fixpoint clear_focus (w : widget) : widget :=
  match w with
  | Leaf d => Leaf (set_focused false d)
  | Box d ks => Box d (map (fun k => if shown k then clear_focus k else k) ks)
  end.

(** widget.rs:394-402, container.rs:1587-1599 [focus_nth]; button.rs:533-540
    does not test [is_focusable] but is only asked when it holds *)
Fixpoint focus_nth (n : nat) (w : widget) : widget * bool :=
  match w with
  | Leaf d => if w_can d && (n =? 0) then (Leaf (set_focused true d), true) else (w, false)
  | Box d ks =>
      let '(ks', b) :=
        (fix go (n : nat) (l : list widget) : list widget * bool :=
           match l with
           | [] => ([], false)
           | k :: r =>
               if negb (shown k) then let '(r', b) := go n r in (k :: r', b)
               else if n <? count_focusable k then let '(k', b) := focus_nth n k in (k' :: r, b)
               else let '(r', b) := go (n - count_focusable k) r in (k :: r', b)
           end) n ks in
      (Box d ks', b)
  end.

(** container.rs:1613-1619 [get_child_mut] *)
Definition get_child (w : widget) (i : nat) : option widget :=
  match w with Leaf _ => None | Box _ ks => nth_error ks i end.

(** tree.rs:527-553 [find_focus_path_recursive]: the path below [w] when found
    ([inl]), otherwise what remains of the counter *)
Fixpoint find_path (w : widget) (remaining : nat) : list nat + nat :=
  match w with
  | Leaf d => if w_can d then match remaining with O => inl [] | S r => inr r end else inr remaining
  | Box _ ks =>
      (fix go (i remaining : nat) (l : list widget) : list nat + nat :=
         match l with
         | [] => inr remaining
         | k :: r => match find_path k remaining with inl p => inl (i :: p) | inr rem => go (S i) rem r end
         end) 0 remaining ks
  end.

(** tree.rs:61-68 [WidgetTree] *)
Record tree := Tree { t_root : widget; t_path : list nat; t_cur : nat }.
(** tree.rs:72-78 *)
Definition tree_new (root : widget) : tree := Tree root [] 0.

(** tree.rs:165-177 [update_focus]; when the widget is not found the path stays
    empty, since every push is popped *)
Definition update_focus (i : nat) (t : tree) : tree :=
  if (i =? t_cur t) && negb (match t_path t with [] => true | _ => false end) then t
  else Tree (t_root t) (match find_path (t_root t) i with inl p => p | inr _ => [] end) i.

(** tree.rs:111-130 [set_focus_index] *)
Definition set_focus_index (i : nat) (t : tree) : tree * bool :=
  let count := count_focusable (t_root t) in
  if count =? 0 then (Tree (clear_focus (t_root t)) [] 0, false)
  else if count <=? i then (t, false)
  else
    let root := clear_focus (t_root t) in
    let '(root', b) := focus_nth i root in
    if b then (update_focus i (Tree root' (t_path t) (t_cur t)), true)
    else (Tree root' (t_path t) (t_cur t), false).

(** tree.rs:133-144 [focus_next] *)
Definition focus_next (t : tree) : tree * option nat :=
  let count := count_focusable (t_root t) in
  if count =? 0 then (t, None)
  else
    let next := (t_cur t + 1) mod count in
    let '(t', b) := set_focus_index next t in (t', if b then Some next else None).
(** tree.rs:147-162 [focus_previous] *)
Definition focus_previous (t : tree) : tree * option nat :=
  let count := count_focusable (t_root t) in
  if count =? 0 then (t, None)
  else
    let prev := if t_cur t =? 0 then count - 1 else t_cur t - 1 in
    let '(t', b) := set_focus_index prev t in (t', if b then Some prev else None).

(** tree.rs:556-579 [find_focus_index_by_id]: the index when found ([inl]),
    otherwise the running count *)
Definition has_id (id : text) (d : wdata) : bool := match w_id d with Some n => text_eqb n id | None => false end.
Fixpoint find_index_by_id (id : text) (w : widget) (index : nat) : nat + nat :=
  if negb (shown w) then inr index
  else
    match w with
    | Leaf d => if w_can d then if has_id id d then inl index else inr (S index) else inr index
    | Box _ ks =>
        (fix go (index : nat) (l : list widget) : nat + nat :=
           match l with
           | [] => inr index
           | k :: r => match find_index_by_id id k index with inl f => inl f | inr i => go i r end
           end) index ks
    end.
(** tree.rs:102-108 [focus_by_id] *)
Definition focus_by_id (id : text) (t : tree) : tree * bool :=
  match find_index_by_id id (t_root t) 0 with
  | inl found => set_focus_index found t
  | inr _ => (t, false)
  end.

(** tree.rs:182-195 [with_focused], 210-213, 984-988: following a path *)
Fixpoint follow (w : widget) (p : list nat) : option widget :=
  match p with
  | [] => Some w
  | i :: r => match get_child w i with Some k => follow k r | None => None end
  end.
Definition focused_widget (t : tree) : option widget := follow (t_root t) (t_path t).

(** ** Queries *)

(** tree.rs:637-642 [SimpleSelector] *)
Record ssel := SSel { ss_type : option text; ss_id : option text }.
(** tree.rs:646-665 [matches] *)
Definition sel_matches (s : ssel) (d : wdata) : bool :=
  match ss_type s with Some t => text_eqb (w_type d) t | None => true end
  && match ss_id s with Some i => has_id i d | None => true end
  && (match ss_type s with Some _ => true | None => false end || match ss_id s with Some _ => true | None => false end).

(** [str::find('#')] and the parts around it *)
Fixpoint split_hash (t : text) : option (text * text) :=
  match t with
  | [] => None
  | c :: r => if Z.eqb c 35 then Some ([], r)
              else match split_hash r with Some (a, b) => Some (c :: a, b) | None => None end
  end.
Definition non_empty (t : text) : option text := match t with [] => None | _ => Some t end.
(** tree.rs:674-718 [parse_simple_selector] *)
Definition parse_selector (s : text) : ssel :=
  let s := trim s in
  match s with
  | [] => SSel None None
  | c :: r =>
      if Z.eqb c 35 then SSel None (Some r)
      else match split_hash s with
           | Some (ty, id) => SSel (non_empty ty) (non_empty id)
           | None => SSel (Some s) None
           end
  end.

Definition map_data (f : wdata -> wdata) (w : widget) : widget :=
  match w with Leaf d => Leaf (f d) | Box d ks => Box (f d) ks end.

Section Query.
(** [m] is the test applied to a widget: [selector.matches(widget)], together
    with the filter if there is one; [f] is what the closure does to the widget
    itself (a closure that also changes the widget's children is not modelled) *)
Variable m : wdata -> bool.
Variable f : wdata -> wdata.

(** tree.rs:586-605, 611-630, 724-750, 1101-1126: stop at the first match.
    The result carries the widget the closure was called on. *)
Fixpoint apply_first (w : widget) : widget * option wdata :=
  if m (data w) then (map_data f w, Some (data w))
  else
    match w with
    | Leaf d => (Leaf d, None)
    | Box d ks =>
        let '(ks', r) :=
          (fix go (l : list widget) : list widget * option wdata :=
             match l with
             | [] => ([], None)
             | k :: rest =>
                 match apply_first k with
                 | (k', Some x) => (k' :: rest, Some x)
                 | (k', None) => let '(rest', r) := go rest in (k' :: rest', r)
                 end
             end) ks in
        (Box d ks', r)
    end.

(** tree.rs:799-822, 825-850: all matches; the list of calls is returned *)
Fixpoint apply_all (w : widget) : widget * list wdata :=
  let here := if m (data w) then [data w] else [] in
  match w with
  | Leaf d => (if m d then Leaf (f d) else w, here)
  | Box d ks =>
      let d' := if m d then f d else d in
      let '(ks', l) :=
        (fix go (l : list widget) : list widget * list wdata :=
           match l with
           | [] => ([], [])
           | k :: rest =>
               let '(k', a) := apply_all k in
               let '(rest', b) := go rest in (k' :: rest', a ++ b)
           end) ks in
      (Box d' ks', here ++ l)
  end.

(** tree.rs:1055-1097 [collect_matching_paths] *)
Fixpoint matching_paths (w : widget) : list (list nat) :=
  (if m (data w) then [[]] else []) ++
  match w with
  | Leaf _ => []
  | Box _ ks =>
      (fix go (i : nat) (l : list widget) : list (list nat) :=
         match l with
         | [] => []
         | k :: r => map (cons i) (matching_paths k) ++ go (S i) r
         end) 0 ks
  end.
End Query.

(** Writing through the reference that a path leads to *)
Fixpoint update_at (p : list nat) (f : wdata -> wdata) (w : widget) : widget :=
  match p with
  | [] => map_data f w
  | i :: r =>
      match w with
      | Leaf d => Leaf d
      | Box d ks =>
          Box d ((fix go (i : nat) (l : list widget) : list widget :=
                    match l, i with
                    | [], _ => []
                    | k :: rest, O => update_at r f k :: rest
                    | k :: rest, S j => k :: go j rest
                    end) i ks)
      end
  end.
(** tree.rs:958-996 [DOMQuery::last] *)
Definition apply_last (m : wdata -> bool) (f : wdata -> wdata) (w : widget) : widget * option wdata :=
  match rev (matching_paths m w) with
  | [] => (w, None)
  | p :: _ => match follow w p with
              | Some k => (update_at p f w, Some (data k))
              | None => (w, None)
              end
  end.

(** tree.rs:865-873, 899-905 [DOMQuery] and [filter], which replaces an earlier filter *)
Record query := Query { q_sel : ssel; q_filter : option (wdata -> bool) }.
(** tree.rs:396-399 [WidgetTree::query], 878-884 *)
Definition new_query (s : text) : query := Query (parse_selector s) None.
Definition add_filter (p : wdata -> bool) (q : query) : query := Query (q_sel q) (Some p).
(** tree.rs:811, 835, 1064, 1084, 1110: the test made on each widget *)
Definition query_test (q : query) (d : wdata) : bool :=
  sel_matches (q_sel q) d && match q_filter q with Some p => p d | None => true end.
(** tree.rs:911-927 [for_each], [count]; 932-954 [first]; 959-996 [last] *)
Definition query_each (q : query) := apply_all (query_test q).
Definition query_count (q : query) (w : widget) : nat := length (snd (query_each q (fun d => d) w)).
Definition query_first (q : query) := apply_first (query_test q).
Definition query_last (q : query) := apply_last (query_test q).

(** ** Bubbling *)
(** message.rs:14-29 [MessageEnvelope]; the type name is a text *)
Record envelope (M : Type) := Envelope {
  e_msg : M; e_sender : option text; e_sender_type : text; e_bubbling : bool }.
Arguments Envelope {M}. Arguments e_msg {M}. Arguments e_sender {M}. Arguments e_sender_type {M}. Arguments e_bubbling {M}.
Definition with_msg {M} (m : M) (e : envelope M) : envelope M := Envelope m (e_sender e) (e_sender_type e) (e_bubbling e).

Section Bubble.
Variable M : Type.
(** Everything handlers can change outside the envelope.  [handle] is the
    [handle_message] of the widget at a path; it may not reshape the tree. *)
Variable St : Type.
Variable handle : list nat -> St -> envelope M -> option M * St * envelope M.
Variable root : widget.

(** tree.rs:510-522 [navigate_and_handle] with 425-431 *)
Definition handle_at (p : list nat) (s : St) (e : envelope M) : St * envelope M :=
  match follow root p with
  | None => (s, e)
  | Some _ => let '(r, s', e') := handle p s e in
              (s', match r with Some m => with_msg m e' | None => e' end)
  end.
(** tree.rs:418-432: the loop over depths [n-1 .. 0] *)
Fixpoint bubble (path : list nat) (depth : nat) (s : St) (e : envelope M) : St * envelope M :=
  match depth with
  | O => (s, e)
  | S n => if negb (e_bubbling e) then (s, e)
           else let '(s', e') := handle_at (firstn n path) s e in bubble path n s' e'
  end.
(** tree.rs:410-435 [bubble_message] *)
Definition bubble_message (path : list nat) (s : St) (e : envelope M) : St * envelope M := bubble path (length path) s e.
End Bubble.
