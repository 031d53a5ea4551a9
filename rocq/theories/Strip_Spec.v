(** Specification for segments and strips: a line is the list of its styled
    grapheme clusters, independent of how it is chopped into segments. *)
From Coq Require Import List Arith.
From Verif Require Import Strip_Model.
Import ListNotations.

Section Spec.
Context {G St Mt : Type}.
Variable gw : G -> nat.

(** One styled cluster. *)
Definition cell : Type := G * option St * Mt.

Definition seg_cells (x : @segment G St Mt) : list cell :=
  map (fun g => (g, sg_style x, sg_meta x)) (sg_text x).

Definition cells (s : @strip G St Mt) : list cell := flat_map seg_cells (st_segs s).

(** Total display width of a list of styled clusters. *)
Definition cells_width (l : list cell) : nat :=
  fold_right (fun c n => gw (fst (fst c)) + n) 0 l.

(** What is visible: clusters and styles, without metadata. *)
Definition visible (l : list cell) : list (G * option St) := map fst l.

(** The cached lengths are the true widths. *)
Definition seg_ok (x : @segment G St Mt) : Prop := sg_len x = text_width gw (sg_text x).
Definition strip_ok (s : @strip G St Mt) : Prop :=
  Forall seg_ok (st_segs s) /\ st_len s = cells_width (cells s).

(** Every cluster occupies at least one cell / exactly one cell. *)
Definition all_visible (l : list cell) : Prop := Forall (fun c => 1 <= gw (fst (fst c))) l.
Definition all_narrow (l : list cell) : Prop := Forall (fun c => gw (fst (fst c)) = 1) l.

(** [c] is a cluster boundary of the line: no cluster straddles column [c]. *)
Definition boundary (l : list cell) (c : nat) : Prop :=
  exists k, cells_width (firstn k l) = c.

(** Full justification: the [i]-th space of the line is widened to [1 + e i]
    spaces; everything else is unchanged. *)
Fixpoint stretch (is_space : G -> bool) (e : nat -> nat) (i : nat) (l : list cell) : list cell :=
  match l with
  | [] => []
  | c :: r =>
      if is_space (fst (fst c)) then repeat c (1 + e i) ++ stretch is_space e (S i) r
      else c :: stretch is_space e i r
  end.

Definition spaces (is_space : G -> bool) (l : list cell) : nat :=
  length (filter (fun c => is_space (fst (fst c))) l).

(** No two neighbouring segments have equal styles. *)
Fixpoint styles_alternate (style_eqb : option St -> option St -> bool)
    (l : list (@segment G St Mt)) : Prop :=
  match l with
  | x :: ((y :: _) as r) =>
      style_eqb (sg_style y) (sg_style x) = false /\ styles_alternate style_eqb r
  | _ => True
  end.

End Spec.

(** Strictly increasing cuts, and the distances between consecutive cuts. *)
Fixpoint increasing (last : nat) (cuts : list nat) : Prop :=
  match cuts with [] => True | c :: r => last < c /\ increasing c r end.

Fixpoint diffs (last : nat) (cuts : list nat) : list nat :=
  match cuts with [] => [] | c :: r => (c - last) :: diffs c r end.

(** Cells of padding put on the left when [gap] cells are free. *)
Definition left_pad (a : halign) (gap : nat) : nat :=
  match a with HLeft => 0 | HCenter => gap / 2 | HRight => gap end.

(** Even distribution of [extra] over [gaps], the later gaps getting the odd ones. *)
Definition even_share (gaps extra i : nat) : nat :=
  extra / gaps + (if gaps - extra mod gaps <=? i then 1 else 0).

