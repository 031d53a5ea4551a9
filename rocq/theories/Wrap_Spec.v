(** Specification vocabulary for content lines and wrapping. *)
From Coq Require Import ZArith List Bool Arith.
From Verif Require Import Text_Model Strip_Model Wrap_Model.
Import ListNotations.
Open Scope nat_scope.

(** Texts put together with a separator. *)
Fixpoint intercalate (sep : text) (l : list text) : text :=
  match l with
  | [] => []
  | [x] => x
  | x :: r => x ++ sep ++ intercalate sep r
  end.
Definition spaced (ws : list text) : text := intercalate [32%Z] ws.
Definition blank (t : text) : Prop := Forall (fun c => is_ws c = true) t.
Definition ink (t : text) : text := filter (fun c => negb (is_ws c)) t.

Section Spec.
Variable gr : text -> list text.
Variable gw : text -> nat.
Context {St Mt : Type}.
Variable sapply : St -> St -> St.
Variable sdefault : St.
Variable mnew : Mt.
Variable mextend : Mt -> Mt -> Mt.
Variable restyle : St -> Mt -> St.

(** What is seen of a strip: its characters, each with style and metadata; no
    style is the same as the default style. *)
Definition glyph : Type := char * St * Mt.
Definition look (o : option St) : St := match o with Some s => s | None => sdefault end.
Definition seg_view (x : @segment text St Mt) : list glyph := map (fun c => (c, look (sg_style x), sg_meta x)) (concat (sg_text x)).
Definition view (s : @strip text St Mt) : list glyph := flat_map seg_view (st_segs s).
Definition strip_text (s : @strip text St Mt) : text := concat (flat_map sg_text (st_segs s)).

(** How the characters of a text that starts at byte [pos] should look: the
    base style overlaid with the styles of the spans over that byte, in order. *)
Fixpoint overlay (base : St) (spans : list (@span St Mt)) (pos : nat) : St :=
  match spans with
  | [] => base
  | s :: r => overlay (if (sp_start s <=? pos) && (pos <? sp_end s) then sapply base (sp_style s) else base) r pos
  end.
Fixpoint gather (m : Mt) (spans : list (@span St Mt)) (pos : nat) : Mt :=
  match spans with
  | [] => m
  | s :: r => gather (if (sp_start s <=? pos) && (pos <? sp_end s) then mextend m (sp_meta s) else m) r pos
  end.
Fixpoint painted (base : St) (spans : list (@span St Mt)) (pos : nat) (t : text) : list glyph :=
  match t with
  | [] => []
  | c :: r => (c, restyle (overlay base spans pos) (gather mnew spans pos), gather mnew spans pos)
              :: painted base spans (pos + utf8_len c) r
  end.
(** The spans do not begin or end inside a character of the text at [start]. *)
Definition aligned (spans : list (@span St Mt)) (start : nat) (t : text) : Prop :=
  forall s x, In s spans -> x = sp_start s \/ x = sp_end s -> start < x -> x < start + blen t ->
  exists a b, t = a ++ b /\ start + blen a = x.

(** Greedy filling: a long word is cut into as long pieces as fit, other words
    are put on a line as long as they fit. *)
Definition total (gs : list text) : nat := text_width gw gs.
Inductive breaks (width : nat) : list text -> list text -> Prop :=
| breaks_nil : breaks width [] []
| breaks_piece : forall gs rest pieces, gs <> [] -> (total gs <= width \/ length gs = 1) ->
    (match rest with [] => True | g :: _ => width < total gs + gw g end) ->
    breaks width rest pieces -> breaks width (gs ++ rest) (concat gs :: pieces).
Inductive wraps (width : nat) : list text -> list text -> Prop :=
| wraps_nil : wraps width [] []
| wraps_line : forall ws rest ls, ws <> [] -> dw gr gw (spaced ws) <= width ->
    (match rest with [] => True | w :: _ => width < dw gr gw (spaced ws) + 1 + dw gr gw w end) ->
    wraps width rest ls -> wraps width (ws ++ rest) (spaced ws :: ls)
| wraps_broken : forall w rest pieces ls, width < dw gr gw w -> breaks width (gr w) pieces ->
    wraps width rest ls -> wraps width (w :: rest) (pieces ++ ls).

(** The width of a line is that of its words and the single spaces between them
    (false only if a word starts with a combining mark). *)
Definition spacing_adds (words : list text) : Prop :=
  forall pre ws w post, words = pre ++ ws ++ w :: post -> ws <> [] -> dw gr gw (spaced (ws ++ [w])) = dw gr gw (spaced ws) + 1 + dw gr gw w.
(** Pieces of a word cut between clusters are as wide as their clusters. *)
Definition pieces_add (words : list text) : Prop :=
  forall w a b c, In w words -> gr w = a ++ b ++ c -> dw gr gw (concat b) = total b.
(** Words that take up room. *)
Definition visible (words : list text) : Prop := Forall (fun w => 0 < dw gr gw w) words.
(** No cluster is wider than the line. *)
Definition clusters_fit (width : nat) (words : list text) : Prop := Forall (fun w => Forall (fun g => gw g <= width) (gr w)) words.

(** The parts of one source line: only the last one is marked as its end. *)
Definition ends_once {A} (l : list (A * bool)) : Prop :=
  l = [] \/ exists a x, l = a ++ [(x, true)] /\ Forall (fun e => snd e = false) a.
End Spec.

Section Spec2.
Context {St Mt : Type}.
Variable sapply : St -> St -> St.
Variable sdefault : St.
Variable mnew : Mt.
Variable mextend : Mt -> Mt -> Mt.
Variable restyle : St -> Mt -> St.
Definition spans_of (c : @content St Mt) : list (@span St Mt) := match c_spans c with Some l => l | None => [] end.
(** How a piece of the content's text starting at byte [pos] should look. *)
Definition should_look (c : @content St Mt) (pos : nat) (t : text) : list (@glyph St Mt) :=
  painted sapply mnew mextend restyle (look sdefault (c_style c)) (spans_of c) pos t.
(** The same for consecutive lines, one newline apart. *)
Fixpoint lines_look (c : @content St Mt) (pos : nat) (ls : list text) : list (list (@glyph St Mt)) :=
  match ls with
  | [] => []
  | l :: r => should_look c pos l :: lines_look c (pos + blen l + 1) r
  end.
(** Leaving out white space. *)
Definition no_blanks (l : list (@glyph St Mt)) : list (@glyph St Mt) := filter (fun g => negb (is_ws (fst (fst g)))) l.
End Spec2.
