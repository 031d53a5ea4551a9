(** Model of crates/textual/src/widget/header.rs: the text of the title, the
    tall style and the icon.  The classes of the header are those of its
    [inner: Container], modelled in Classes_Model; layout and styles are left out. *)
From Coq Require Import String ZArith List Bool.
From Verif Require Import Text_Model Canvas_Model Press_Model Classes_Model.
Import ListNotations.
Open Scope list_scope.

(** header.rs:14-20 [format_title]; 8212 is the dash *)
Definition format_title (title : text) (subtitle : option text) : text :=
  match subtitle with
  | Some (c :: s) => title ++ str " [dim]" ++ [8212%Z] ++ str " " ++ (c :: s) ++ str "[/]"
  | _ => title
  end.

(** header.rs:629-636 [struct Header]; [h_shown]: the content of the title widget
    (22-36), which is markup (30) *)
Record header := Header { h_title : text; h_subtitle : option text; h_tall : bool; h_widget : widget; h_shown : text }.

Definition own : impl := Own [].
(** header.rs:640-665 [new] *)
Definition header_new (title : text) : header := Header title None false (new_widget own) (format_title title None).
(** header.rs:725-730 [refresh_title] *)
Definition refresh (h : header) : header :=
  Header (h_title h) (h_subtitle h) (h_tall h) (h_widget h) (format_title (h_title h) (h_subtitle h)).
Definition upd_widget (w : widget) (h : header) : header := Header (h_title h) (h_subtitle h) (h_tall h) w (h_shown h).
Definition tall_class : text := str "-tall".

Inductive hcall :=
| SetTitle (t : text) | SetSubtitle (s : text) | ClearSubtitle | Tall (b : bool) | WithClasses (s : text) | Class (k : call).
Definition hstep (h : header) (k : hcall) : header :=
  match k with
  | SetTitle t => refresh (Header t (h_subtitle h) (h_tall h) (h_widget h) (h_shown h))          (* 693-696 *)
  | SetSubtitle s => refresh (Header (h_title h) (Some s) (h_tall h) (h_widget h) (h_shown h))   (* 668-672, 699-702 *)
  | ClearSubtitle => refresh (Header (h_title h) None (h_tall h) (h_widget h) (h_shown h))       (* 705-708 *)
  | Tall b =>                                                                                    (* 687-690, 739-749 *)
      if Bool.eqb (h_tall h) b then h
      else Header (h_title h) (h_subtitle h) b
             (if b then add_class own (h_widget h) tall_class else remove_class (h_widget h) tall_class) (h_shown h)
  | WithClasses s => upd_widget (Widget (split_ws s) (Classes_Model.w_dirty (h_widget h))) h                   (* 681-684, container.rs:107-114 *)
  | Class k => upd_widget (step own (h_widget h) k) h                                            (* 888-906 *)
  end.
Definition hrun (h : header) (l : list hcall) : header := fold_left hstep l h.

(** ** The icon *)
(** header.rs:351-357 [struct HeaderIcon] *)
Record icon := Icon { i_hovered : bool; i_active : bool; i_disabled : bool; i_pending : option text }.
(** header.rs:360-370 [new] *)
Definition icon_new : icon := Icon false false false None.
(** header.rs:372-374 [press] *)
Definition icon_press (i : icon) : icon := Icon (i_hovered i) (i_active i) (i_disabled i) (Some (str "app.command_palette")).
(** header.rs:455-491 [on_mouse] *)
Definition icon_mouse (i : icon) (k : mkind) (x y : Z) (r : region) : icon :=
  let inb := contains_point r x y in
  match k with
  | MMoved => Icon inb (i_active i) (i_disabled i) (i_pending i)
  | MDown BLeft => if inb && negb (i_disabled i) then Icon (i_hovered i) true (i_disabled i) (i_pending i) else i
  | MUp BLeft =>
      if i_active i then
        let j := Icon (i_hovered i) false (i_disabled i) (i_pending i) in
        if inb && negb (i_disabled i) then icon_press j else j
      else i
  | _ => i
  end.
(** the other calls; keys do nothing (static_widget.rs:950-952), nor does focus *)
Definition icon_step (i : icon) (e : event) : icon * option text :=
  match e with
  | Mouse k x y r => (icon_mouse i k x y r, None)
  | SetHover b => (Icon b (i_active i) (i_disabled i) (i_pending i), None)            (* 519-527 *)
  | ClearHover => (Icon false (i_active i) (i_disabled i) (i_pending i), None)        (* 529-534 *)
  | SetActive b => (Icon (i_hovered i) b (i_disabled i) (i_pending i), None)          (* 536-544 *)
  | SetDisabled b => (Icon (i_hovered i) (i_active i) b (i_pending i), None)          (* 574-576 *)
  | TakeAction => (Icon (i_hovered i) (i_active i) (i_disabled i) None, i_pending i)  (* 507-509 *)
  | _ => (i, None)
  end.
Definition icon_run (i : icon) (h : list event) : icon := fold_left (fun i e => fst (icon_step i e)) h i.
