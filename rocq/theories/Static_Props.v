(** C93, C94: where a static text shows its lines, and what its links do. *)
From Coq Require Import ZArith List Arith Bool Lia.
From Verif Require Import Strip_Model Strip_Spec Row_Model Row_Spec Row_Props Bars_Model Bars_Spec Static_Model Static_Spec Static_Proofs.
Import ListNotations.
Open Scope nat_scope.

Section Props.
Context {G St Mt A : Type}.
Variable gw : G -> nat.
Variable me : Mt.
Variables space ellipsis dash : G.
Variable is_space : G -> bool.
Variable sd : St.
Variable unstyled : St -> St.
Variable link_of : Mt -> option A.
Variable act_eqb : A -> A -> bool.
Notation strip := (@strip G St Mt).
Notation cell := (@cell G St Mt).
Notation look := (@look G St Mt).
Notation wline := (@wline G St Mt).
Notation padc st := ((space, st, me) : cell).
Notation draw := (draw gw me space ellipsis dash is_space sd unstyled).
Definition spaces_are : Prop := forall g, is_space g = true <-> g = space.

(** The widget draws [h] rows.  Those between border and padding show the text: the
    lines for the width inside, in order, placed as content-align and text-align
    say, as many as there is room for. *)
Theorem C93_text_placed : forall (k : look) (wrap : nat -> list wline) w h,
  glyphs gw space ellipsis dash -> spaces_are -> titles_in_borders k -> not_outlined k -> glyph_boxes gw k ->
  let lines := wrap (Nat.max (room_w k w - k_line_pad k * 2) 1) in
  plain_lines gw lines -> 0 < room_w k w -> 0 < room_h k h ->
  length (draw k wrap w h) = h /\
  exists rows,
    length rows = room_h k h /\
    shows_text is_space k (room_w k w) (room_h k h) (padc (Some (unstyled (k_style k)))) (text_lines (padc (Some (k_style k))) k lines) rows /\
    forall i r, nth_error rows i = Some r ->
      exists s, nth_error (draw k wrap w h) (first_row k + i) = Some s /\ cells s = framed (padc (k_pad k)) k r.
Proof.
  intros k wrap w h (Wsp & Wel & Wda) Isp T O Gb lines P Hw Hh.
  assert (W0 : 0 < w) by (unfold room_w in Hw; lia). assert (H0 : 0 < h) by (unfold room_h in Hh; lia).
  split.
  { unfold Static_Model.draw. destruct (Nat.eqb_spec w 0) as [?|_]; [lia|]. destruct (Nat.eqb_spec h 0) as [?|_]; [lia|]. cbn [orb]. rewrite map_length, seq_length. reflexivity. }
  destruct (aligned_shows gw me space ellipsis dash is_space unstyled Wsp Wel Wda Isp k wrap w h T P Hw Hh) as (R1 & R2 & R3 & R4).
  eexists. split; [|split; [exact R4|]]; [rewrite map_length; exact R3|].
  intros i r E. rewrite nth_error_map in E. destruct (nth_error (aligned gw me space is_space unstyled k wrap w h) i) as [s|] eqn:En; [|discriminate].
  cbn [option_map] in E. injection E as <-.
  assert (Is := nth_error_In _ _ En). rewrite Forall_forall in R1, R2.
  assert (Hi : i < room_h k h) by (rewrite <- R3; apply nth_error_Some; rewrite En; discriminate).
  eexists. split; [apply (draw_nth gw me space ellipsis dash is_space sd unstyled Wsp Wel Wda Isp); [exact W0|unfold first_row, room_h in *; lia]|].
  apply (content_drawn gw me space ellipsis dash is_space sd unstyled Wsp Wel Wda Isp); auto.
Qed.

(** The height a text asks for at a width has room for every line of it, unless a
    side border is of the kind that draws no sides. *)
Definition sides_drawn (k : look) : Prop := e_left (k_border k) <> KHkey /\ e_right (k_border k) <> KHkey.
Theorem C93_automatic_height_fits : forall (k : look) (wrap : nat -> list wline) w, sides_drawn k ->
  let lines := wrap (Nat.max (room_w k w - k_line_pad k * 2) 1) in
  let room := room_h k (intrinsic_height k wrap w) in
  length lines <= room /\
  (e_top (k_border k) <> KVkey -> e_bottom (k_border k) <> KVkey -> room = Nat.max (length lines) 1) /\
  forall (pad : cell) rows, shows_text is_space k (room_w k w) room pad (text_lines (padc (Some (k_style k))) k lines) rows ->
    exists above mid below, rows = above ++ mid ++ below /\ length mid = length lines /\
      Forall2 (fun l r => in_block is_space k (room_w k w) (Nat.min (room_w k w) (widest (text_lines (padc (Some (k_style k))) k lines))) pad (snd l) (fst l) r)
        (text_lines (padc (Some (k_style k))) k lines) mid.
Proof.
  intros k wrap w [Sl Sr] lines room.
  assert (V : forall x, x <> KHkey -> Row_Model.shown x = shown_v x) by (intros []; intros; try reflexivity; congruence).
  assert (W : chrome_width k = b2n (shown_v (e_left (k_border k))) + b2n (shown_v (e_right (k_border k))) + (e_left (k_padding k) + e_right (k_padding k))) by (unfold chrome_width; rewrite !V by assumption; reflexivity).
  assert (L : Nat.max (w - chrome_width k - k_line_pad k * 2) 1 = Nat.max (room_w k w - k_line_pad k * 2) 1) by (unfold room_w; rewrite W; reflexivity).
  assert (R : Nat.max (length lines) 1 <= room /\ (e_top (k_border k) <> KVkey -> e_bottom (k_border k) <> KVkey -> room = Nat.max (length lines) 1)).
  { subst room. unfold intrinsic_height. rewrite L. fold lines. unfold room_h, chrome_height.
    assert (Q : forall x, b2n (shown_h x) <= b2n (Row_Model.shown x)) by (intros []; cbn; lia).
    assert (Q' : forall x, x <> KVkey -> Row_Model.shown x = shown_h x) by (intros []; intros; try reflexivity; congruence).
    pose proof (Q (e_top (k_border k))). pose proof (Q (e_bottom (k_border k))). split; [lia|]. intros N1 N2. rewrite !Q' by assumption. lia. }
  destruct R as [R1 R2]. split; [lia|]. split; [exact R2|].
  intros pad rows (a & b & mid & _ & E & F).
  rewrite firstn_all2 in F by (unfold text_lines; rewrite map_length; lia).
  exists (repeat (repeat pad (room_w k w)) a), mid, (repeat (repeat pad (room_w k w)) b). split; [exact E|].
  assert (Fl : forall (X Y : Type) (P : X -> Y -> Prop) xs ys, Forall2 P xs ys -> length ys = length xs) by (intros X Y P xs ys; induction 1; cbn; congruence).
  split; [rewrite (Fl _ _ _ _ _ F); unfold text_lines; rewrite map_length; reflexivity|].
  clear - F. revert F. generalize (widest (text_lines (padc (Some (k_style k))) k lines)) as n. intros n F.
  induction F as [|l r ls rs [_ H] _ IH]; constructor; assumption.
Qed.

(** At automatic width every line of the source fits between the edges without
    being broken. *)
Theorem C93_automatic_width_fits : forall (k : look) (widest_line : nat),
  widest_line <= room_w k (auto_width k widest_line) - k_line_pad k * 2 /\
  (sides_drawn k -> room_w k (auto_width k widest_line) = widest_line + k_line_pad k * 2).
Proof.
  intros k n. unfold auto_width, room_w, chrome_width.
  assert (Q : forall x, b2n (shown_v x) <= b2n (Row_Model.shown x)) by (intros []; cbn; lia).
  pose proof (Q (e_left (k_border k))). pose proof (Q (e_right (k_border k))). split; [lia|].
  intros [Sl Sr].
  assert (V : forall x, x <> KHkey -> Row_Model.shown x = shown_v x) by (intros []; intros; try reflexivity; congruence).
  rewrite !V by assumption. lia.
Qed.

(** ** Links *)
Notation pointing := (@pointing A).
Definition happens (p : pointing) (h : @happening G St Mt) : pointing :=
  match h with
  | Drawn k wrap w h => record_links gw me space is_space unstyled link_of p k wrap w h
  | Pointed e r mx my => on_mouse act_eqb p e r mx my
  | Leaves => clear_hover p
  | Taken => snd (take_pending p)
  end.

(** A point of the drawn widget is a link exactly if the character shown there
    belongs to one, and then to that one. *)
Theorem C94_links_where_drawn : forall (k : look) (wrap : nat -> list wline) w h x y,
  glyphs gw space ellipsis dash -> spaces_are -> link_of me = None -> clickable gw link_of k wrap w -> 0 < w -> 0 < h ->
  find_link (links gw me space is_space unstyled link_of k wrap w h) x y = link_at link_of (draw k wrap w h) x y.
Proof.
  intros k wrap w h x y (Wsp & Wel & Wda) Isp Lme (T & O & Gb & U & Pt & Ps & P) Hw Hh.
  apply links_shown; assumption.
Qed.

(** Whatever happens, in whatever order: the link under the pointer is the one shown
    at the point the mouse last moved to, and the action to run is the link shown at
    the point of the last click that hit one, until it is taken. *)
Theorem C94_pointer_and_clicks : forall (l : list happening) (p : pointing) (x : expected),
  glyphs gw space ellipsis dash -> spaces_are -> link_of me = None -> (forall a b, act_eqb a b = true <-> a = b) ->
  Forall (clickable_in gw link_of) l ->
  p_links p = [] -> x_rows x = [] -> p_hover p = x_hover x -> p_pending p = x_pending x ->
  let p' := fold_left happens l p in
  let x' := fold_left (expects link_of draw) l x in
  p_hover p' = x_hover x' /\ p_pending p' = x_pending x' /\ fst (take_pending p') = x_pending x'.
Proof.
  intros l p x Gl Isp Lme Eq C P0 X0 H0 Q0 p' x'.
  assert (Inv : (forall cx cy, find_link (p_links p) cx cy = link_at link_of (x_rows x) cx cy) /\ p_hover p = x_hover x /\ p_pending p = x_pending x).
  { rewrite P0, X0. split; [|auto]. intros cx cy. unfold link_at. destruct cy; reflexivity. }
  clear P0 X0 H0 Q0. subst p' x'. revert p x Inv. induction C as [|h l Ch _ IH]; intros p x Inv.
  - destruct Inv as (_ & I2 & I3). cbn [fold_left]. auto.
  - cbn [fold_left]. apply IH. destruct Inv as (I1 & I2 & I3). destruct h as [k wrap w h|e r mx my| |]; cbn [happens expects].
    + unfold record_links. destruct (Nat.eqb_spec w 0) as [Zw|Zw]; cbn [orb]; [auto|]. destruct (Nat.eqb_spec h 0) as [Zh|Zh]; [auto|].
      cbn [p_links p_hover p_pending x_rows x_hover x_pending]. split; [|auto]. intros cx cy. apply C94_links_where_drawn; try assumption; lia.
    + unfold on_mouse.
      assert (R : contains_point r mx my = in_region r mx my) by reflexivity. rewrite R.
      destruct (in_region r mx my); cbn [negb]; [|auto]. rewrite I1.
      fold (pointed_at link_of (x_rows x) r mx my). unfold stepped. destruct e.
      * destruct (pointed_at link_of (x_rows x) r mx my); cbn [p_links p_hover p_pending x_rows x_hover x_pending]; auto.
      * destruct (oact_eqb act_eqb (pointed_at link_of (x_rows x) r mx my) (p_hover p)) eqn:E; cbn [p_links p_hover p_pending x_rows x_hover x_pending]; [|auto].
        split; [exact I1|]. split; [|exact I3]. unfold oact_eqb in E. destruct (pointed_at link_of (x_rows x) r mx my) as [a|], (p_hover p) as [b|]; try discriminate; [|reflexivity].
        apply Eq in E. congruence.
      * auto.
    + unfold clear_hover. destruct (p_hover p) eqn:E; cbn [p_links p_hover p_pending x_rows x_hover x_pending]; auto.
    + cbn [take_pending snd p_links p_hover p_pending x_rows x_hover x_pending]. auto.
Qed.

(** The widget asks to be drawn again whenever the link under the pointer changes. *)
Theorem C94_hover_change_redraws : forall (p : pointing) (h : @happening G St Mt),
  (forall a b, act_eqb a b = true <-> a = b) ->
  p_hover (happens p h) <> p_hover p -> p_dirty (happens p h) = true.
Proof.
  intros p [k wrap w h|e r mx my| |] Eq; cbn [happens].
  - unfold record_links. destruct ((w =? 0) || (h =? 0)); cbn; congruence.
  - unfold on_mouse. destruct (negb (contains_point r mx my)); [congruence|]. destruct e.
    + destruct (find_link (p_links p) (Z.to_nat (mx - a_x r)) (Z.to_nat (my - a_y r))); cbn; congruence.
    + destruct (oact_eqb act_eqb (find_link (p_links p) (Z.to_nat (mx - a_x r)) (Z.to_nat (my - a_y r))) (p_hover p)); cbn; congruence.
    + congruence.
  - unfold clear_hover. destruct (p_hover p) eqn:E; cbn; congruence.
  - cbn. congruence.
Qed.
End Props.
Print Assumptions C93_text_placed.
Print Assumptions C93_automatic_height_fits.
Print Assumptions C93_automatic_width_fits.
Print Assumptions C94_links_where_drawn.
Print Assumptions C94_pointer_and_clicks.
Print Assumptions C94_hover_change_redraws.

(** ** Cases *)
(** Clusters are numbers: 0 a space, 1 and 2 the ellipsis and the line, 3 a border;
    metadata is the link. *)
Notation ex_seg l m := (@Segment nat unit (option nat) l (length l) (Some tt) m).
Definition ex_row : @box_row nat unit (option nat) := (ex_seg [3] None, ex_seg [3] None, ex_seg [3] None).
Definition ex_box := (ex_row, ex_row, ex_row).
Definition ex_look (b o : edges kind) (h : halign) (v : valign) (t : talign) (title : option (@strip nat unit (option nat))) : @look nat unit (option nat) :=
  Look b o (Edges 0 1 0 1) ex_box ex_box HLeft HLeft (Some tt) h v t 0 tt title None.
Definition ex_solid := Edges KSolid KSolid KSolid KSolid.
Definition ex_none := Edges KNone KNone KNone KNone.
Definition ex_lines (_ : nat) : list (@wline nat unit (option nat)) :=
  [WLine (from_segments [ex_seg [10; 11; 0] None; ex_seg [12; 13] (Some 7)]) false; WLine (from_segments [ex_seg [14; 15] (Some 8)]) true].
Definition ex_draw := draw (fun _ : nat => 1) (None : option nat) 0 1 2 (fun g => g =? 0) tt (fun s => s).
Definition ex_links := links (fun _ : nat => 1) (None : option nat) 0 (fun g => g =? 0) (fun s : unit => s) (fun m => m).
Definition glyph_rows (rows : list (@strip nat unit (option nat))) : list (list nat) := map (fun r => map (fun c => fst (fst c)) (cells r)) rows.

Ltac plain_now := split; [split; [repeat constructor|reflexivity]|repeat constructor].
Example C93_example : let k := ex_look ex_solid ex_none HCenter VMiddle TRight None in
  glyphs (fun _ : nat => 1) 0 1 2 /\ spaces_are 0 (fun g => g =? 0) /\ titles_in_borders k /\ not_outlined k /\ glyph_boxes (fun _ => 1) k /\
  plain_lines (fun _ => 1) (ex_lines 8) /\ room_w k 12 = 8 /\ room_h k 6 = 4 /\ sides_drawn k /\ intrinsic_height k ex_lines 12 = 4 /\
  glyph_rows (ex_draw k ex_lines 12 6) =
    [ [3; 3; 3; 3; 3; 3; 3; 3; 3; 3; 3; 3];
      [3; 0; 0; 0; 0; 0; 0; 0; 0; 0; 0; 3];
      [3; 0; 0; 10; 11; 0; 12; 13; 0; 0; 0; 3];
      [3; 0; 0; 0; 0; 0; 14; 15; 0; 0; 0; 3];
      [3; 0; 0; 0; 0; 0; 0; 0; 0; 0; 0; 3];
      [3; 3; 3; 3; 3; 3; 3; 3; 3; 3; 3; 3] ].
Proof.
  cbv zeta. split; [repeat split|]. split; [intros g; apply Nat.eqb_eq|]. split; [split; intros ?; reflexivity|]. split; [reflexivity|].
  split; [split; repeat (split || (eexists; split; [reflexivity|split; reflexivity]))|].
  split; [repeat constructor; plain_now|]. repeat split; try discriminate.
Qed.

(** text-align alone does not put a line to its side of the widget: with
    content-align left and middle a short text with text-align right is at the left.
    (With content-align left and top it is at the right.) *)
Theorem C93_text_align_right_refuted : let one (_ : nat) := [WLine (from_segments [ex_seg [10; 11] None]) true] in
  glyph_rows (ex_draw (ex_look ex_none ex_none HLeft VMiddle TRight None) one 8 1) = [[0; 10; 11; 0; 0; 0; 0; 0]] /\
  glyph_rows (ex_draw (ex_look ex_none ex_none HLeft VTop TRight None) one 8 1) = [[0; 0; 0; 0; 0; 10; 11; 0]].
Proof. split; reflexivity. Qed.

(** With a title and no top border to hold it, the height the widget asks for does
    not have room for the text: the title takes a row and the last line is lost. *)
Theorem C93_title_row_refuted : let k := ex_look (Edges KNone KSolid KNone KSolid) ex_none HLeft VTop TLeft (Some (from_segments [ex_seg [20; 21] None])) in
  intrinsic_height k ex_lines 12 = 2 /\
  glyph_rows (ex_draw k ex_lines 12 (intrinsic_height k ex_lines 12)) = [ [3; 3; 0; 20; 21; 0; 3; 3; 3; 3; 3; 3]; [3; 0; 10; 11; 0; 12; 13; 0; 0; 0; 0; 3] ].
Proof. split; reflexivity. Qed.

Example C94_example : let k := ex_look ex_solid ex_none HCenter VMiddle TRight None in
  clickable (fun _ => 1) (fun m => m) k ex_lines 12 /\
  link_at (fun m => m) (ex_draw k ex_lines 12 6) 6 2 = Some 7 /\ link_at (fun m => m) (ex_draw k ex_lines 12 6) 5 2 = None /\
  link_at (fun m => m) (ex_draw k ex_lines 12 6) 7 3 = Some 8 /\
  let l := [Drawn k ex_lines 12 6; Pointed Moved (Area 4 2 12 6) 10 4; Pointed LeftDown (Area 4 2 12 6) 10 4; Pointed Moved (Area 4 2 12 6) 11 5] in
  let p := fold_left (happens (fun _ : nat => 1) (None : option nat) 0 (fun g => g =? 0) (fun s : unit => s) (fun m => m) Nat.eqb) l (Pointing [] None None false) in
  p_hover p = Some 8 /\ p_pending p = Some 7.
Proof.
  cbv zeta. split; [|repeat split].
  split; [split; intros ?; reflexivity|]. split; [reflexivity|]. split; [split; repeat (split || (eexists; split; [reflexivity|split; reflexivity]))|].
  split; [split; [repeat split|split; discriminate]|]. split; [discriminate|]. split; [discriminate|]. repeat constructor; plain_now.
Qed.

(** With a title and no top border the links answer one row above where they are
    shown. *)
Theorem C94_title_row_refuted : let k := ex_look (Edges KNone KSolid KNone KSolid) ex_none HLeft VTop TLeft (Some (from_segments [ex_seg [20; 21] None])) in
  link_at (fun m => m) (ex_draw k ex_lines 12 3) 5 1 = Some 7 /\ find_link (ex_links k ex_lines 12 3) 5 1 = None /\
  link_at (fun m => m) (ex_draw k ex_lines 12 3) 5 0 = None /\ find_link (ex_links k ex_lines 12 3) 5 0 = Some 7.
Proof. repeat split. Qed.

(** A link in a border title is shown but is none, and one covered by an outline is
    still there. *)
Theorem C94_title_link_refuted : let k := ex_look ex_solid ex_none HLeft VTop TLeft (Some (from_segments [ex_seg [20; 21] (Some 9)])) in
  link_at (fun m => m) (ex_draw k ex_lines 12 4) 3 0 = Some 9 /\ find_link (ex_links k ex_lines 12 4) 3 0 = None.
Proof. repeat split. Qed.
Theorem C94_outlined_link_refuted : let k := ex_look ex_none ex_solid HLeft VTop TLeft None in
  link_at (fun m => m) (ex_draw k ex_lines 12 4) 4 0 = None /\ find_link (ex_links k ex_lines 12 4) 4 0 = Some 7.
Proof. repeat split. Qed.
Print Assumptions C93_text_align_right_refuted.
Print Assumptions C93_title_row_refuted.
Print Assumptions C94_title_row_refuted.
Print Assumptions C94_title_link_refuted.
Print Assumptions C94_outlined_link_refuted.
