(** Specification for tooltips and pending actions. *)
From Coq Require Import ZArith QArith Qround List Bool Arith.
From Verif Require Import Text_Model Canvas_Model Canvas_Spec Layout_Model Tooltip_Model.
Import ListNotations.
Open Scope Z_scope.

(** The widgets of a tree, a widget before what is in it and siblings in order. *)
Fixpoint widgets (t : tree) : list node := match t with Tree n kids => n :: flat_map widgets kids end.

(** A screen of [cols] columns and [rows] rows. *)
Definition screen_of (cols rows : nat) : region := Region 0 0 (Z.of_nat cols) (Z.of_nat rows).

(** The tooltip of the pointed-at widget. *)
Definition pointed_tip (n : node) (t : text) : Prop := reports_hover n = true /\ tooltip n = Some t.

(** The actions waiting in a tree. *)
Definition waiting (t : tree) : list text :=
  flat_map (fun n => match n_pending n with Some a => [a] | None => [] end) (widgets t).

(** The style sheet's own rules for tooltips: automatic size, at most 40 wide. *)
Definition own_rules (s : tipstyle) : Prop :=
  t_hidden s = false /\ (t_height s = None \/ exists v, t_height s = Some (Scalar v Auto)) /\
  t_max_w s = Some (Scalar (40 # 1) Cells) /\ t_min_w s = None /\ t_max_h s = None /\ t_min_h s = None.

(** How many cells a size stands for, on a screen of [cols] columns and [rows] rows;
    [whole] is the number of columns for widths and of rows for heights.  Cells are
    cut to a whole number; parts are rounded. *)
Definition nearest (q : Q) : Z := Qfloor (q + (1 # 2)).
Definition stands_for (cols rows whole : nat) (v : scalar) : Z :=
  let part n := nearest (s_value v * inject_Z (Z.of_nat n) / 100) in
  match s_unit v with
  | Cells => Qfloor (s_value v)
  | Percent => part whole
  | UWidth | ViewWidth => part cols
  | UHeight | ViewHeight => part rows
  | Fraction_ | Auto => Z.of_nat whole
  end.
Definition no_negative (s : tipstyle) : Prop :=
  forall v, In (Some v) [t_height s; t_max_w s; t_min_w s; t_max_h s; t_min_h s] -> (0 <= s_value v)%Q.
(** Within limits, the lower one being stronger. *)
Definition within (low high : option Z) (n m : Z) : Prop :=
  (forall l, low = Some l -> l <= m) /\
  (forall h, high = Some h -> m <= h \/ low = Some m) /\
  (m <> n -> (m < n /\ (high = Some m \/ low = Some m)) \/ (n < m /\ low = Some m)).
