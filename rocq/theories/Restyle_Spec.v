(** Specification: the style every visible widget should have. *)
From Coq Require Import List Bool Arith.
From Verif Require Import Restyle_Model.
Import ListNotations.

Section Restyle.
Context {M C Vis R : Type}.
Notation widget := (widget M C Vis R).
Notation wdata := (wdata M C Vis R).
Notation style := (style C Vis R).

(** The widget at a place, a place being the list of child numbers from the root. *)
Fixpoint at_ (w : widget) (p : list nat) : option widget :=
  match p with
  | [] => Some w
  | i :: r => match nth_error (kids _ _ _ _ w) i with Some k => at_ k r | None => None end
  end.
(** The widgets from the root to a place, if all of them are visible. *)
Fixpoint chain (w : widget) (p : list nat) : option (list wdata) :=
  if w_visible _ _ _ _ (data _ _ _ _ w) then
    match p with
    | [] => Some [data _ _ _ _ w]
    | i :: r => match nth_error (kids _ _ _ _ w) i with Some k => option_map (cons (data _ _ _ _ w)) (chain k r) | None => None end
    end
  else None.
(** Seen from the place upwards: each widget with its ancestors, nearest first. *)
Fixpoint lineage (ds : list wdata) : list (wdata * list M) :=
  match ds with
  | [] => []
  | d :: r => (d, map (w_meta _ _ _ _) r) :: lineage r
  end.
Definition upwards (ds : list wdata) : list (wdata * list M) := lineage (rev ds).

Variable cascade : M -> list M -> style.
Variable theme_color : option C.
Variable visible : Vis.
Variable see_through : C -> bool.
Variable over tinted : C -> C -> C.

(** What the stylesheet says for a widget among its ancestors. *)
Definition css (x : wdata * list M) : style := cascade (w_meta _ _ _ _ (fst x)) (snd x).
(** What is said inline, or else by the stylesheet. *)
Definition first_of {A} (a b : option A) : option A := match a with Some _ => a | None => b end.
Definition said (f : inline C -> option C) (g : style -> option C) (x : wdata * list M) : option C :=
  first_of (match w_inline _ _ _ _ (fst x) with Some i => f i | None => None end) (g (css x)).
(** The colour of the nearest widget that has one, the theme's if none has. *)
Fixpoint nearest_color (l : list (wdata * list M)) : option C :=
  match l with
  | [] => theme_color
  | x :: r => first_of (said (i_color C) (s_color C Vis R) x) (nearest_color r)
  end.
(** Whether that colour is to be chosen by contrast: as the stylesheet says where
    it gives the colour (an inline colour does not change this). *)
Fixpoint nearest_auto (l : list (wdata * list M)) : bool :=
  match l with
  | [] => false
  | x :: r =>
      match s_color _ _ _ (css x), nearest_color r with
      | None, Some _ => nearest_auto r
      | _, _ => s_auto _ _ _ (css x)
      end
  end.
(** The visibility of the nearest widget for which the stylesheet sets it. *)
Fixpoint nearest_visibility (l : list (wdata * list M)) : Vis :=
  match l with
  | [] => visible
  | x :: r => if s_visibility_set _ _ _ (css x) then s_visibility _ _ _ (css x) else nearest_visibility r
  end.
(** Backgrounds painted one over the other, root first; nothing below the root. *)
Fixpoint backdrop (l : list (wdata * list M)) : option C :=
  match l with
  | [] => None
  | x :: r =>
      match said (i_background C) (s_background C Vis R) x with
      | None => backdrop r
      | Some bg =>
          let base := match backdrop r with Some b => if see_through bg then over bg b else bg | None => bg end in
          Some (match said (i_btint C) (s_btint C Vis R) x with Some t => tinted base t | None => base end)
      end
  end.

(** [s] is the style of the first widget of [l]. *)
Definition style_for (l : list (wdata * list M)) (s : style) : Prop :=
  match l with
  | [] => False
  | x :: above =>
      s_color _ _ _ s = nearest_color l /\
      s_auto _ _ _ s = nearest_auto l /\
      s_visibility _ _ _ s = nearest_visibility l /\
      s_visibility_set _ _ _ s = s_visibility_set _ _ _ (css x) /\
      s_behind _ _ _ s = backdrop above /\
      s_background _ _ _ s = said (i_background C) (s_background C Vis R) x /\
      s_tint _ _ _ s = said (i_tint C) (s_tint C Vis R) x /\
      s_btint _ _ _ s = said (i_btint C) (s_btint C Vis R) x /\
      s_rest _ _ _ s = s_rest _ _ _ (css x)
  end.

(** ** Histories *)
(** Between frames a widget may change in any way if it is marked dirty, or if it
    is hidden (and showing it again marks it); children of an unchanged widget may
    change likewise. *)
Inductive edit : widget -> widget -> Prop :=
| edit_marked : forall w d ks, w_flag _ _ _ _ d = true -> edit w (W _ _ _ _ d ks)
| edit_hidden : forall w d ks, w_visible _ _ _ _ d = false -> edit w (W _ _ _ _ d ks)
| edit_below : forall d ks ks', w_visible _ _ _ _ d = true -> Forall2 edit ks ks' -> edit (W _ _ _ _ d ks) (W _ _ _ _ d ks').

(** The trees that are drawn: after startup or recomposition, and before each
    frame. *)
Inductive drawn : widget -> Prop :=
| drawn_first : forall w, drawn (resolve_styles M C Vis R cascade theme_color visible see_through over tinted w)
| drawn_next : forall w w', drawn w -> edit w w' -> drawn (resolve_dirty M C Vis R cascade theme_color visible see_through over tinted w').
End Restyle.
