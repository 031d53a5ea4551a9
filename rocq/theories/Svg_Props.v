(** C84 - C86: the SVG export of a canvas. *)
From Coq Require Import String ZArith List Bool Arith Lia.
From Verif Require Import Text_Model Canvas_Model Svg_Model Svg_Spec Svg_Proofs Svg2_Proofs.
Import ListNotations.
Open Scope nat_scope.
Notation length := List.length.
Open Scope list_scope.

(** ** C84: backgrounds *)

(** Every cell with a background colour is under a rectangle; every rectangle
    over a cell has that cell's background colour (so there is none over a cell
    without one). *)
Theorem C84_backgrounds : forall w h cells x y c, length cells = w * h -> x < w -> y < h ->
  cell_at w cells x y = Some c ->
  (forall b, c_bg c = Some b -> exists r, In r (p_rects (render w h cells)) /\ rect_covers r x y) /\
  (forall r, In r (p_rects (render w h cells)) -> rect_covers r x y ->
     exists b, c_bg c = Some b /\ r_fill r = color_to_hex b).
Proof. exact backgrounds_shown. Qed.
Print Assumptions C84_backgrounds.

(** No rectangle reaches beyond the picture, and none is empty. *)
Theorem C84_backgrounds_inside : forall w h cells r, length cells = w * h ->
  In r (p_rects (render w h cells)) -> r_y r < h /\ r_x r + r_w r <= w /\ 0 < r_w r.
Proof. exact backgrounds_inside. Qed.
Print Assumptions C84_backgrounds_inside.

Definition red := Rgb 255 0 0.
Definition blue := Rgb 0 0 255.
Definition mk (s : text) (fg bg : option color) : cell := Cell s 1 false fg bg attrs_default.
Definition sample : list cell :=
  [mk (str "a") (Some red) (Some blue); mk (str "<") (Some red) (Some blue); mk (str " ") None None;
   mk (str "b") None None; mk (str "c") (Some blue) (Some red); mk (str "d") None None].

Example C84_sample : p_rects (render 3 2 sample) =
  [Rect (str "#0000ff") 0 0 2; Rect (str "#ff0000") 1 1 1].
Proof. vm_compute. reflexivity. Qed.

(** ** C85: text *)

(** Each text element stands for a run of cells of one row: it starts at their
    first column, is as long as they are wide, reads as their symbols (with
    no-break spaces for blanks) and has their colour and attributes. *)
Theorem C85_elements : forall w h cells e, length cells = w * h -> rows_ok w h cells ->
  In e (p_texts (render w h cells)) ->
  let run := firstn (e_len e) (skipn (e_row e * w + e_x e) cells) in
  e_row e < h /\ 0 < e_len e /\ e_x e + e_len e <= w /\ length run = e_len e /\
  xml_text (e_text e) (nbsp (symbols run)) /\
  exists fg at_, Forall (fun c => c_fg c = fg /\ c_attrs c = at_) run /\
    fill_of (p_rules (render w h cells)) (e_class e)
      = match fg with Some c => color_to_hex c | None => str "#000000" end /\
    (In (str "font-weight: bold") (declarations (e_style e)) <-> a_bold at_ = true) /\
    (In (str "font-style: italic") (declarations (e_style e)) <-> a_italic at_ = true) /\
    ((exists v, In (str "text-decoration: " ++ v) (declarations (e_style e)) /\ In (str "underline") (split_ws v)) <-> a_underline at_ = true) /\
    ((exists v, In (str "text-decoration: " ++ v) (declarations (e_style e)) /\ In (str "line-through") (split_ws v)) <-> a_strike at_ = true).
Proof.
  intros w h cells e L G I. cbn zeta. unfold render in *. cbn [p_texts p_rules] in *.
  assert (All : firstn (w * h) cells = cells) by (rewrite <- L; apply firstn_all). rewrite All in *.
  destruct (collected_numbered cells) as [Nb Cl].
  apply in_flat_map in I. destruct I as (y & Y & I). apply in_seq in Y.
  destruct (row_spec (sc_styles (collect_styles cells)) w h y cells L ltac:(lia) (G y ltac:(lia))) as (A & _ & _).
  rewrite Forall_forall in A. destruct (A e I) as (H1 & H2 & H3 & fg & at_ & H4 & H5 & H6 & H7).
  rewrite (row_length w h) in H2 by lia. rewrite row_part in H4, H7 by lia. rewrite H3.
  split; [lia|]. split; [lia|]. split; [lia|]. split.
  { rewrite firstn_length, skipn_length, L. nia. }
  split; [rewrite H7; apply escape_read|]. exists fg, at_. split; [exact H4|]. split.
  { rewrite H5. unfold class_for. destruct fg as [f|]; [|apply fill_default; exact Nb].
    assert (Ne : firstn (e_len e) (skipn (y * w + e_x e) cells) <> []).
    { intros Z. apply (f_equal (@List.length _)) in Z. rewrite firstn_length, skipn_length, L in Z. cbn in Z. nia. }
    destruct (firstn (e_len e) (skipn (y * w + e_x e) cells)) as [|c r] eqn:F; [congruence|].
    assert (Ic : In c cells).
    { rewrite <- (firstn_skipn (y * w + e_x e) cells). apply in_or_app. right.
      rewrite <- (firstn_skipn (e_len e) (skipn (y * w + e_x e) cells)). rewrite F. now left. }
    inversion H4 as [|? ? [F1 _] _]; subst. destruct (Cl c f Ic F1) as (n & Hn). rewrite Hn. now apply fill_class. }
  rewrite H6. apply style_attr_read.
Qed.
Print Assumptions C85_elements.

(** No column of a row belongs to two elements. *)
Theorem C85_disjoint : forall w h cells, length cells = w * h -> rows_ok w h cells ->
  ForallOrdPairs (fun e e' => forall x y, elem_covers e x y -> ~ elem_covers e' x y) (p_texts (render w h cells)).
Proof. intros. now apply texts_disjoint. Qed.
Print Assumptions C85_disjoint.

(** Exactly those cells are shown that are not plain (without colour and
    attributes) themselves or have a cell that is not plain to their right: plain
    text at the end of a row is lost. *)
Theorem C85_coverage : forall w h cells x y, length cells = w * h -> rows_ok w h cells -> x < w -> y < h ->
  (exists e, In e (p_texts (render w h cells)) /\ elem_covers e x y) <->
  exists x' c, x <= x' < w /\ cell_at w cells x' y = Some c /\ ~ plain c.
Proof. intros. now apply texts_cover. Qed.
Print Assumptions C85_coverage.

(** The loss is real: nothing of a canvas on which only plain text was written
    is shown, whatever the text. *)
Theorem C85_plain_text_refuted : forall w h cells, length cells = w * h -> rows_ok w h cells ->
  Forall plain cells -> p_texts (render w h cells) = [].
Proof.
  intros w h cells L G P. destruct (p_texts (render w h cells)) as [|e l] eqn:E; [reflexivity|]. exfalso.
  assert (I : In e (p_texts (render w h cells))) by (rewrite E; now left).
  destruct (C85_elements w h cells e L G I) as (H1 & H2 & H3 & _).
  destruct (proj1 (C85_coverage w h cells (e_x e) (e_row e) L G ltac:(lia) ltac:(lia))) as (x' & c & _ & K & N).
  - exists e. split; [exact I|]. split; [reflexivity|lia].
  - apply N. rewrite Forall_forall in P. apply P. apply nth_error_In in K. exact K.
Qed.
Print Assumptions C85_plain_text_refuted.

(** Rows of glyphs one column wide are sequences of glyphs. *)
Theorem C85_narrow : forall l : list cell,
  Forall (fun c => c_cont c = false /\ c_sym c <> [] /\ c_width c = 1) l -> glyphs l.
Proof.
  induction 1 as [|c l (A & B & C) H IH]; [constructor|]. change (c :: l) with (c :: [] ++ l). apply glyphs_cons; auto.
Qed.
Print Assumptions C85_narrow.

Lemma sample_rows : rows_ok 3 2 sample.
Proof.
  intros y Y. apply C85_narrow. destruct y as [|[|y]]; [| |lia]; vm_compute; repeat constructor; discriminate.
Qed.
Example C85_sample : p_texts (render 3 2 sample) =
  [Elem (str "terminal-r1") 0 2 [] 0 (str "a&lt;");
   Elem (str "terminal-default") 0 1 [] 1 (str "b"); Elem (str "terminal-r2") 1 1 [] 1 (str "c")]
  /\ p_rules (render 3 2 sample) = [(str "terminal-r1", str "#ff0000"); (str "terminal-r2", str "#0000ff")].
Proof. vm_compute. split; reflexivity. Qed.
(** a wide glyph *)
Example C85_wide : let l := [Cell [28450%Z] 2 false (Some red) None attrs_default; Cell (str " ") 0 true (Some red) None attrs_default;
    mk (str "x") (Some red) None] in
  glyphs l /\ p_texts (render 3 1 l) = [Elem (str "terminal-r1") 0 3 [] 0 [28450%Z; 120%Z]].
Proof.
  cbn zeta. split; [|vm_compute; reflexivity].
  apply (glyphs_cons (Cell [28450%Z] 2 false (Some red) None attrs_default) [Cell (str " ") 0 true (Some red) None attrs_default] [mk (str "x") (Some red) None]);
    auto; try discriminate.
  apply C85_narrow. repeat constructor. discriminate.
Qed.

(** Without well-formed rows text moves: "a" over the left half of a wide glyph
    and "b" behind it come out next to each other. *)
Theorem C85_overdrawn_refuted :
  let l := [mk (str "a") (Some red) None; Cell (str " ") 0 true (Some red) None attrs_default; mk (str "b") (Some red) None] in
  p_texts (render 3 1 l) = [Elem (str "terminal-r1") 0 2 [] 0 (str "ab")].
Proof. vm_compute. reflexivity. Qed.
Print Assumptions C85_overdrawn_refuted.

(** ** C86: characters and colours *)

(** Whatever the text is, a reader of XML gets it back, with no-break spaces in
    the place of blanks. *)
Theorem C86_escape : forall s t, xml_text (escape_xml s) t <-> t = nbsp s.
Proof.
  intros s t. split; [|intros ->; apply escape_read]. intros H. exact (xml_det _ _ H _ (escape_read s)).
Qed.
Print Assumptions C86_escape.

(** An RGB colour is written as its hexadecimal notation. *)
Theorem C86_hex : forall r g b, is_u8 r -> is_u8 g -> is_u8 b -> hex_colour (color_to_hex (Rgb r g b)) r g b.
Proof. exact hex_colour_read. Qed.
Print Assumptions C86_hex.

(** Two colours are never mixed up. *)
Theorem C86_distinct : forall c d, colour_u8 c -> colour_u8 d -> color_to_hex c = color_to_hex d ->
  match c, d with Rgb _ _ _, Rgb _ _ _ => c = d | _, _ => True end.
Proof.
  intros [r g b|n] [r' g' b'|m] C D E; auto. destruct C as (C1 & C2 & C3), D as (D1 & D2 & D3).
  destruct (hex_colour_read r g b C1 C2 C3) as (x1 & x2 & x3 & x4 & x5 & x6 & d1 & d2 & d3 & d4 & d5 & d6 & X & X1 & X2 & X3 & X4 & X5 & X6 & -> & -> & ->).
  destruct (hex_colour_read r' g' b' D1 D2 D3) as (y1 & y2 & y3 & y4 & y5 & y6 & f1 & f2 & f3 & f4 & f5 & f6 & Y & Y1 & Y2 & Y3 & Y4 & Y5 & Y6 & -> & -> & ->).
  rewrite X, Y in E. injection E. intros; subst. congruence.
Qed.
Print Assumptions C86_distinct.

(** The colours of the terminal's palette are not RGB and all come out black. *)
Theorem C86_palette_refuted : forall n, color_to_hex (Palette n) = str "#000000".
Proof. reflexivity. Qed.
Print Assumptions C86_palette_refuted.

Example C86_sample : escape_xml (str "a & b") = str "a&#160;&amp;&#160;b" /\ color_to_hex (Rgb 18 52 255) = str "#1234ff".
Proof. vm_compute. split; reflexivity. Qed.
