(** Specification of wrapped labels. *)
From Coq Require Import String ZArith List Bool Arith.
From Verif Require Import Text_Model Strip_Model Wrap_Model Canvas_Model Canvas_Spec Holder_Model.
From Verif Require Words_Spec.
From Verif Require Import Wrap_Spec.
Import ListNotations.
Open Scope nat_scope.
Notation length := List.length.
Open Scope list_scope.

Section Spec.
Variable gr : text -> list text.
Variable gw : text -> nat.
Notation dw := (dw gr gw).

(** The words of a paragraph, those wider than the line cut into pieces; a piece
    comes with its word if it begins it. *)
Definition item : Type := text * option text.
Inductive cuts (width : nat) : list text -> list item -> Prop :=
| cuts_nil : cuts width [] []
| cuts_whole : forall w ws items, dw w <= width -> cuts width ws items -> cuts width (w :: ws) ((w, Some w) :: items)
| cuts_pieces : forall w ws p ps items, width < dw w -> breaks gw width (gr w) (p :: ps) -> cuts width ws items ->
    cuts width (w :: ws) ((p, Some w) :: map (fun q => (q, None)) ps ++ items).

(** Greedy filling: a line is a piece and words behind it, one space apart, that
    fit; the next line begins with the rest of a word, or with a word for which
    there was no room. *)
Inductive fills (width : nat) : list item -> list text -> Prop :=
| fills_nil : fills width [] []
| fills_line : forall p o (ps : list text) rest ls,
    (ps = [] \/ dw (spaced (p :: ps)) <= width) ->
    Forall (fun q => dw q <= width) ps ->
    (match rest with (_, Some w) :: _ => width < dw (spaced (p :: ps)) + 1 + dw w | _ => True end) ->
    fills width rest ls -> fills width ((p, o) :: map (fun q => (q, Some q)) ps ++ rest) (spaced (p :: ps) :: ls).

(** The lines of one paragraph. *)
Definition paragraph (width : nat) (p : text) (ls : list text) : Prop :=
  (p = [] /\ ls = [[]]) \/
  (p <> [] /\ exists ws items, Words_Spec.spaced ws p /\ cuts width ws items /\ fills width items ls).
(** The paragraphs of a text: what is between its line ends. *)
Definition paragraphs (t : text) (ps : list text) : Prop :=
  ps <> [] /\ intercalate [10%Z] ps = t /\ Forall (fun p => ~ In 10%Z p) ps.
(** The width of pieces put together with spaces is the sum (false only if a
    piece begins with a combining mark). *)
Definition spaces_add (width : nat) (t : text) : Prop :=
  forall ps p ws items, paragraphs t ps -> In p ps -> Words_Spec.spaced ws p -> cuts width ws items -> spacing_adds gr gw (map fst items).

(** Pieces of words are as wide as their clusters, and no cluster is wider than
    the line. *)
Definition clusters_ok (width : nat) (t : text) : Prop :=
  forall ps p ws, paragraphs t ps -> In p ps -> Words_Spec.spaced ws p -> pieces_add gr gw ws /\ clusters_fit gr gw width ws.

(** Lines put one below the other from [x], [y] on. *)
Definition stacked (x y : Z) (ls : list text) (ps : list put) : Prop :=
  forall i, nth_error ps i = option_map (fun l => Put x (y + Z.of_nat i) l false) (nth_error ls i).
(** The widest line of a block *)
Definition block_width (ls : list text) (n : nat) : Prop :=
  (forall l, In l ls -> dw l <= n) /\ ((n = 0 /\ ls = []) \/ exists l, In l ls /\ dw l = n).

(** A line of text is inside a rectangle. *)
Definition within (r : region) (p : put) : Prop :=
  (rg_y r <= p_y p < rg_y r + rg_h r /\ rg_x r <= p_x p /\ p_x p + Z.of_nat (dw (p_text p)) <= rg_x r + rg_w r)%Z.
(** The part of a region inside the padding. *)
Definition inner (h : holder) (r : region) : region :=
  Region (rg_x r + Z.of_nat (h_pl h)) (rg_y r + Z.of_nat (h_pt h))
         (rg_w r - Z.of_nat (h_pl h + h_pr h)) (rg_h r - Z.of_nat (h_pt h + h_pb h)).
(** A block of [n] in [m] cells is in the middle: the room before and after
    differs by at most one cell. *)
Definition centred (before n m : Z) : Prop := (0 <= m - n - 2 * before <= 1)%Z.
End Spec.
