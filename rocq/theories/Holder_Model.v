(** Model of crates/textual/src/widget/placeholder.rs: wrapping, drawing, size and
    clicks of a placeholder.

    [gr] and [gw] are as in Wrap_Model.  [show] prints an integer.  Colours are
    left out; drawing is modelled as the rectangle filled with the background and
    the texts put on the canvas.  Coordinates are integers without bound (i32 in
    the code); the paddings are given as the integers [as i32]/[as u16] make of
    them. *)
From Coq Require Import String ZArith List Bool Arith.
From Verif Require Import Text_Model Strip_Model Wrap_Model Canvas_Model.
Import ListNotations.
Open Scope nat_scope.
Notation length := List.length.
Open Scope list_scope.

(** placeholder.rs:35-43 [PlaceholderVariant] *)
Inductive variant := VDefault | VSize | VText.
(** placeholder.rs:47-53 [next] *)
Definition next (v : variant) : variant := match v with VDefault => VSize | VSize => VText | VText => VDefault end.

(** placeholder.rs:57 *)
Definition lorem : text := str "Lorem ipsum dolor sit amet, consectetur adipiscing elit. Etiam feugiat ac elit sit amet accumsan. Suspendisse bibendum nec libero quis gravida. Phasellus id eleifend ligula. Nullam imperdiet sem tellus, sed vehicula nisl faucibus sit amet. Praesent iaculis tempor ultricies. Sed lacinia, tellus id rutrum lacinia, sapien sapien congue mauris, sit amet pellentesque quam quam vel nisl. Curabitur vulputate erat pellentesque mauris posuere, non dictum risus mattis.".

Section Holder.
Variable gr : text -> list text.
Variable gw : text -> nat.
Variable show : Z -> text.

Notation dw := (dw gr gw).

(** placeholder.rs:247-271 [break_word]; the display width of a cluster is [gw] *)
Fixpoint break_loop (width : nat) (cur : text) (cw : nat) (gs : list text) : list text :=
  match gs with
  | [] => if is_nil cur then [] else [cur]
  | g :: r =>
      if (cw + gw g <=? width) || is_nil cur then break_loop width (cur ++ g) (cw + gw g) r
      else cur :: break_loop width g (gw g) r
  end.
Definition break_word (word : text) (width : nat) : list text := break_loop width [] 0 (gr word).

(** [Vec::pop] *)
Fixpoint pop (l : list text) : option (list text * text) :=
  match l with
  | [] => None
  | [x] => Some ([], x)
  | x :: r => match pop r with Some (i, z) => Some (x :: i, z) | None => None end
  end.

(** placeholder.rs:207-218 and 225-238: a word begins a line; the lines that are
    complete, the current line and its width ([cw]: the width if there is no
    piece) *)
Definition begin_line (width : nat) (cw : nat) (w : text) : list text * text * nat :=
  if dw w <=? width then ([], w, dw w)
  else match pop (break_word w width) with
       | Some (pieces, last) => (pieces, last, dw last)
       | None => ([], [], cw)
       end.

(** placeholder.rs:201-243, the loop over the words of a paragraph *)
Fixpoint wrap_loop (width : nat) (cur : text) (cw : nat) (words : list text) : list text :=
  match words with
  | [] => if is_nil cur then [] else [cur]
  | w :: r =>
      if is_nil cur then
        let '(ls, c, n) := begin_line width cw w in ls ++ wrap_loop width c n r
      else if cw + 1 + dw w <=? width then wrap_loop width (cur ++ 32%Z :: w) (cw + 1 + dw w) r
      else let '(ls, c, n) := begin_line width 0 w in cur :: ls ++ wrap_loop width c n r
  end.
Definition wrap_paragraph (width : nat) (p : text) : list text :=
  if is_nil p then [[]] else wrap_loop width [] 0 (split_ws p).
(** placeholder.rs:190-245 [word_wrap] *)
Definition word_wrap (t : text) (width : nat) : list text :=
  flat_map (wrap_paragraph (Nat.max width 1)) (split_char 10%Z t).

(** placeholder.rs:93-103 [Placeholder]: the fields concerned *)
Record holder := Holder {
  h_label : option text; h_id : option text; h_variant : variant;
  h_pt : nat; h_pr : nat; h_pb : nat; h_pl : nat }.

Fixpoint join (sep : text) (l : list text) : text :=
  match l with [] => [] | [x] => x | x :: r => x ++ sep ++ join sep r end.

(** placeholder.rs:169-186 [get_display_content]; [rw], [rh] are the size of the
    region *)
Definition display_content (h : holder) (rw rh : Z) : text :=
  match h_variant h with
  | VDefault => match h_label h, h_id h with
                | Some l, _ => l
                | None, Some i => 35%Z :: i
                | None, None => str "Placeholder"
                end
  | VSize => show rw ++ str " x " ++ show rh
  | VText => join [10%Z; 10%Z] (repeat lorem 5)
  end.

(** one call of [Canvas::put_str] *)
Record put := Put { p_x : Z; p_y : Z; p_text : text; p_bold : bool }.

Definition widest (ls : list text) : nat := fold_right Nat.max 0 (map dw ls).
(** [for (i, line) in lines.iter().enumerate()] *)
Fixpoint put_lines (x y : Z) (ls : list text) : list put :=
  match ls with [] => [] | l :: r => Put x y l false :: put_lines x (y + 1) r end.

Open Scope Z_scope.
(** placeholder.rs:335-479 [render] of a visible placeholder: whether the region
    is filled, and the texts *)
Definition render (h : holder) (r : region) : bool * list put :=
  if (rg_w r <=? 0) || (rg_h r <=? 0) then (false, [])
  else
    let cx := rg_x r + Z.of_nat (h_pl h) in
    let cy := rg_y r + Z.of_nat (h_pt h) in
    let cw := Z.max (rg_w r - Z.of_nat (h_pl h) - Z.of_nat (h_pr h)) 0 in
    let ch := Z.max (rg_h r - Z.of_nat (h_pt h) - Z.of_nat (h_pb h)) 0 in
    let content := display_content h (rg_w r) (rg_h r) in
    (true,
     if (cw <=? 0) || (ch <=? 0) then []
     else match h_variant h with
          | VText =>
              let cx := cx + 1 in
              let cy := cy + 1 in
              let tw := Z.max (cw - 2) 1 in
              let th := Z.max (ch - 2) 1 in
              let ls := firstn (Z.to_nat th) (word_wrap content (Z.to_nat tw)) in
              let xo := Z.max (Z.quot (tw - Z.of_nat (widest ls)) 2) 0 in
              let yo := Z.max (Z.quot (th - Z.of_nat (length ls)) 2) 0 in
              put_lines (cx + xo) (cy + yo) ls
          | VSize =>
              let x := cx + Z.quot (Z.max (cw - Z.of_nat (dw content)) 0) 2 in
              let y := cy + Z.quot (ch - 1) 2 in
              [Put x y content true]
          | VDefault =>
              let ls := word_wrap content (Z.to_nat (Z.max cw 1)) in
              let yo := Z.max (Z.quot (ch - Z.of_nat (length ls)) 2) 0 in
              let xo := Z.max (Z.quot (Z.max cw 1 - Z.of_nat (widest ls)) 2) 0 in
              put_lines (cx + xo) (cy + yo) ls
          end).

(** placeholder.rs:543-560 [intrinsic_height_for_width]; u16 overflow is left
    out *)
Definition intrinsic_height (h : holder) (width : nat) : nat :=
  (let cw := Nat.max (width - (h_pl h + h_pr h)) 1 in
   Nat.max (length (word_wrap (display_content h 0%Z 0%Z) cw)) 1 + h_pt h + h_pb h)%nat.

(** placeholder.rs:611-629 [on_mouse] for presses; other events change nothing.
    [x], [y] is the position, [r] the region of the widget *)
Definition press (h : holder) (x y : Z) (r : region) : holder :=
  if (rg_x r <=? x) && (x <? rg_x r + rg_w r) && (rg_y r <=? y) && (y <? rg_y r + rg_h r)
  then Holder (h_label h) (h_id h) (next (h_variant h)) (h_pt h) (h_pr h) (h_pb h) (h_pl h)
  else h.
End Holder.

(** placeholder.rs:107-125 [new]: the number of the colour of the [n]-th
    placeholder made (from 0) *)
Definition palette_index (n : nat) : nat := (n mod 12)%nat.
(** placeholder.rs:75-88 [PALETTE] *)
Definition palette : list (Z * Z * Z) :=
  [(136, 17, 119); (170, 51, 85); (204, 102, 102); (238, 153, 68); (238, 221, 0); (153, 221, 85);
   (68, 221, 136); (34, 204, 187); (0, 187, 204); (0, 153, 204); (51, 102, 187); (102, 51, 153)]%Z.
