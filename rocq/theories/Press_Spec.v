(** Specification for switches and buttons, in terms of the calls made so far. *)
From Coq Require Import String ZArith List Bool Arith.
From Verif Require Import Text_Model Canvas_Model Canvas_Spec Press_Model.
Import ListNotations.
Open Scope Z_scope.

(** Regions are on a screen: their edges fit in i32. *)
Definition on_a_screen (e : event) : Prop :=
  match e with
  | Mouse _ _ _ r => region_i32 r /\ is_i32 (rg_x r + rg_w r) /\ is_i32 (rg_y r + rg_h r)
  | _ => True
  end.

(** The last value given by the calls, or the first value [d]. *)
Fixpoint latest {A} (f : event -> option A) (d : A) (h : list event) : A :=
  match h with [] => d | e :: r => latest f (match f e with Some a => a | None => d end) r end.

Definition focused : list event -> bool := latest (fun e => match e with SetFocus b => Some b | _ => None end) false.
Definition disabled : list event -> bool := latest (fun e => match e with SetDisabled b => Some b | _ => None end) false.
Definition loading : list event -> bool := latest (fun e => match e with SetLoading b => Some b | _ => None end) false.

(** ** Switch *)

(** A press begins: a mouse button goes down over a switch that is neither
    disabled nor loading. *)
Definition press_begins (h : list event) (e : event) : Prop :=
  match e with
  | Mouse (MDown _) x y r => in_region r x y /\ disabled h = false /\ loading h = false
  | SetActive true => True
  | _ => False
  end.
(** A press ends with any release, and when the pointer leaves. *)
Definition press_ends (e : event) : Prop :=
  match e with Mouse (MUp _) _ _ _ | ClearHover | SetActive false => True | _ => False end.
Definition held (h : list event) : Prop :=
  exists h1 e h2, h = h1 ++ e :: h2 /\ press_begins h1 e /\ Forall (fun e' => ~ press_ends e') h2.

(** The calls on which the switch is toggled. *)
Definition toggles (h : list event) (e : event) : Prop :=
  disabled h = false /\ loading h = false /\
  match e with
  | Key KSpace | Key KEnter => focused h = true
  | Mouse (MUp _) x y r => in_region r x y /\ held h
  | _ => False
  end.

(** An application that keeps the value it last set or was told. *)
Definition told (v : bool) (e : event) (m : option bool) : bool :=
  match m with Some b => b | None => match e with SetValue b => b | _ => v end end.
Fixpoint mirror (v : bool) (h : list event) (ms : list (option bool)) : bool :=
  match h, ms with e :: h', m :: ms' => mirror (told v e m) h' ms' | _, _ => v end.

(** What the user sees of a switch: the text, the states style rules can ask
    for, and whether it is shown. *)
Definition switch_looks (s : switch) := (switch_text s, switch_states s, w_visible s).

(** ** Button *)
Definition btn_press_begins (h : list event) (e : event) : Prop :=
  match e with
  | Mouse (MDown BLeft) x y r => in_region r x y /\ disabled h = false
  | SetActive true => True
  | _ => False
  end.
Definition btn_press_ends (e : event) : Prop :=
  match e with Mouse (MUp BLeft) _ _ _ | SetActive false => True | _ => False end.
Definition btn_held (h : list event) : Prop :=
  exists h1 e h2, h = h1 ++ e :: h2 /\ btn_press_begins h1 e /\ Forall (fun e' => ~ btn_press_ends e') h2.

(** The calls on which the button is pressed. *)
Definition presses (h : list event) (e : event) : Prop :=
  disabled h = false /\
  match e with
  | Key KSpace | Key KEnter => True
  | Mouse (MUp BLeft) x y r => in_region r x y /\ btn_held h
  | _ => False
  end.

(** A press whose action nobody has taken yet. *)
Definition waiting (h : list event) : Prop :=
  exists h1 e h2, h = h1 ++ e :: h2 /\ presses h1 e /\ ~ In TakeAction h2.
