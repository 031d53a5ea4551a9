(** Properties C50 (the cache of border pieces) and C76 (styles on a line). *)
From Coq Require Import ZArith QArith List Bool Lia Arith Lqa.
From Verif Require Import Text_Model Strip_Model Strip_Spec Strip_Proofs Row_Model Float32_Model Colour_Model Colour_Spec Colour_Proofs Colour_Props Paint_Model Paint_Spec Paint_Proofs.
Import ListNotations.

(** ** C50 *)
(** Whatever other threads looked up, inserted or cleared before, the border
    handed out has the characters, widths, metadata and red, green and blue
    components asked for. *)
Theorem C50_look : forall (Mt : Type) gw (me : Mt) history r,
  map look (pieces (answer gw me (run_cache gw me [] history) r)) = map look (pieces (generate gw me r)).
Proof. intros. destruct (answer_from gw me history r) as (r' & _ & A & ->). apply look_alike. exact A. Qed.
Print Assumptions C50_look.
(** It is the border generated for this or an earlier request of the same kind
    and colours. *)
Theorem C50_source : forall (Mt : Type) gw (me : Mt) history r,
  exists r', (r' = r \/ In (BInsert r') history) /\ alike r' r /\ answer gw me (run_cache gw me [] history) r = generate gw me r'.
Proof. intros. apply answer_from. Qed.
Print Assumptions C50_source.
(** The cache is invisible while alike requests are equal, in particular when
    all colours are opaque and no attributes are used. *)
Theorem C50_transparent : forall (Mt : Type) gw (me : Mt) history r,
  (forall r', In (BInsert r') history -> alike r' r -> r' = r) ->
  answer gw me (run_cache gw me [] history) r = generate gw me r.
Proof. intros Mt gw me h r H. destruct (answer_from gw me h r) as (r' & [->|I] & A & ->); auto. rewrite (H r' I A). reflexivity. Qed.
Print Assumptions C50_transparent.
(** Clearing forgets everything before. *)
Theorem C50_clear : forall (Mt : Type) gw (me : Mt) before after r,
  answer gw me (run_cache gw me [] (before ++ BClear :: after)) r = answer gw me (run_cache gw me [] after) r.
Proof. intros. unfold run_cache. rewrite fold_left_app. reflexivity. Qed.
Print Assumptions C50_clear.
(** With a single thread the first of the alike requests decides. *)
Theorem C50_first : forall (Mt : Type) gw (me : Mt) requests i r, nth_error requests i = Some r ->
  exists j r', (j <= i)%nat /\ nth_error requests j = Some r' /\ alike r' r /\
    (forall k q, (k < j)%nat -> nth_error requests k = Some q -> ~ alike q r) /\
    nth_error (get_boxes gw me [] requests) i = Some (generate gw me r').
Proof.
  intros Mt gw me l i r E. destruct (get_boxes_first gw me l [] [] ltac:(reflexivity) i r E) as (r' & F & N). cbn [app] in F.
  assert (X : forall (l : list request), find (fun r0 => keyb r0 r) l = Some r' -> exists j, nth_error l j = Some r' /\ alike r' r /\ forall k q, (k < j)%nat -> nth_error l k = Some q -> ~ alike q r).
  { clear. induction l as [|x l IH]; cbn [find]; [discriminate|]. destruct (keyb x r) eqn:K.
    - intros H. injection H as ->. exists 0%nat. split; auto. split; [apply alike_key; apply key_eqb_eq; exact K|]. intros k q H. lia.
    - intros H. destruct (IH H) as (j & A & B & C). exists (S j). split; auto. split; auto. intros [|k] q L Q; cbn [nth_error] in Q.
      + injection Q as ->. intros AL. apply alike_key, key_eqb_eq in AL. unfold keyb in K. rewrite AL in K. discriminate.
      + apply (C k q); auto. lia. }
  destruct (X _ F) as (j & A & B & C). assert (J : (j < S i)%nat). { assert (S1 : nth_error (firstn (S i) l) j <> None) by (rewrite A; discriminate). apply nth_error_Some in S1. rewrite firstn_length in S1. lia. }
  assert (FN : forall k, (k < S i)%nat -> nth_error (firstn (S i) l) k = nth_error l k).
  { clear. generalize (S i). intros n k. revert n l. induction k; intros [|n] [|x l] H; cbn [firstn nth_error]; auto; try lia. apply IHk. lia. }
  exists j, r'. split; [lia|]. rewrite <- FN by lia. split; auto. split; auto. split; auto. intros k q H Q. apply (C k q); auto. rewrite FN; auto. lia.
Qed.
Print Assumptions C50_first.
(** Not invisible in general: a half transparent border asked for after an
    opaque one of the same colour comes out opaque; a bold one comes out plain. *)
Theorem C50_alpha_refuted : exists first second, let gw := fun _ : Z => 1%nat in
  alike first second /\ nth_error (get_boxes gw tt [] [first; second]) 1 <> Some (generate gw tt second) /\
  (let '(_, s, _) := second in exists c, fg s = Some c /\ (c_a c == 1 # 2)%Q) /\
  Forall (fun x => forall c, colour Fore (sg_style x) = Some c -> (c_a c == 1)%Q) (pieces (answer gw tt (run_cache gw tt [] [BInsert first]) second)).
Proof.
  exists (KSolid, with_fg (rgba_of 1 2 3 1), style_default), (KSolid, with_fg (rgba_of 1 2 3 (1 # 2)), style_default). cbv zeta. split; [split; auto; intros []; auto|]. split; [vm_compute; intros H; discriminate H|].
  split; [eexists; split; reflexivity|]. vm_compute. repeat constructor; intros c E; injection E as <-; reflexivity.
Qed.
Print Assumptions C50_alpha_refuted.
Theorem C50_attributes_refuted : exists first second, let gw := fun _ : Z => 1%nat in
  alike first second /\ (let '(_, s, _) := second in bold s = true) /\
  Forall (fun x => has Bold (sg_style x) = false) (pieces (answer gw tt (run_cache gw tt [] [BInsert first]) second)).
Proof.
  exists (KSolid, style_default, style_default), (KSolid, Style None None true false false false false false, style_default). cbv zeta. split; [split; auto; intros []; auto|]. split; [reflexivity|]. vm_compute. repeat constructor.
Qed.
Print Assumptions C50_attributes_refuted.
(** A box with one style per edge consists of the parts of the boxes of the
    edges: corners belong to the top and bottom rows. *)
Theorem C50_per_edge : forall (Mt : Type) gw (me : Mt) k top bottom lft rgt,
  let '(row0, (l1, f1, r1), row2) := build_border_box_per_edge gw me k top bottom lft rgt in
  let whole e := generate_box gw me k (fst e) (snd e) in
  row0 = fst (fst (whole top)) /\ row2 = snd (whole bottom) /\ l1 = fst (fst (snd (fst (whole lft)))) /\
  r1 = snd (snd (fst (whole rgt))) /\ f1 = snd (fst (snd (fst (whole top)))) /\
  (bottom = top -> lft = top -> rgt = top -> build_border_box_per_edge gw me k top bottom lft rgt = whole top).
Proof. intros Mt gw me k [a b] [c d] [e f] [g h]. destruct k; cbn; repeat split; auto; intros H1 H2 H3; injection H1 as -> ->; injection H2 as -> ->; injection H3 as -> ->; reflexivity. Qed.
Print Assumptions C50_per_edge.
(** Which of the two styles a piece has: all pieces the inner one, except for
    the kinds whose glyphs stand outside or fill the cell the other way. *)
Theorem C50_inner : forall (Mt : Type) gw (me : Mt) k inner outer,
  ~ In k [KTall; KPanel; KWide; KInner; KBlock] ->
  Forall (fun x => sg_style x = Some inner) (pieces (generate_box gw me k inner outer)).
Proof. intros Mt gw me k i o H. destruct k; try (exfalso; apply H; cbn; tauto); cbn; repeat constructor. Qed.
Print Assumptions C50_inner.
Theorem C50_zones : forall (Mt : Type) gw (me : Mt) k inner outer, In k [KTall; KPanel] ->
  let '((a, b, c), (d, e, f), (g, h, i)) := generate_box gw me k inner outer in
  Forall (fun x => sg_style x = Some inner) [b; e; h] /\ Forall (fun x => sg_style x = Some outer) [c; f; i] /\
  Forall (fun x => has Reverse (sg_style x) = true /\ colour Fore (sg_style x) = fg inner /\ colour Back (sg_style x) = bg outer /\
                   forall t, t <> Reverse -> has t (sg_style x) = has t (Some inner)) [a; d; g].
Proof. intros Mt gw me k i o [<-|[<-|[]]]; cbn; repeat constructor; intros []; auto; congruence. Qed.
Print Assumptions C50_zones.
(** If the border has one colour (the two styles differ only in the background),
    the right side is the mirror image of the left one for every kind of border,
    and the bottom that of the top for all but "panel", whose top is filled. *)
Theorem C50_mirrored : forall (Mt : Type) gw (me : Mt) k inner outer,
  fg outer = fg inner -> reverse inner = false -> reverse outer = false ->
  let '((a, b, c), (d, e, f), (g, h, i)) := generate_box gw me k inner outer in
  mirrored true a c /\ mirrored true d f /\ mirrored true g i /\ mirrored true b b /\ mirrored true h h /\
  mirrored false d d /\ mirrored false f f /\
  (k <> KPanel -> mirrored false a g /\ mirrored false b h /\ mirrored false c i).
Proof.
  intros Mt gw me k [fi bi b1 d1 i1 u1 s1 r1] [fo bo b2 d2 i2 u2 s2 r2]. cbn [fg reverse]. intros -> -> ->.
  destruct k; cbn [generate_box border_chars border_locations build_row zone_style Z.eqb Pos.eqb];
    repeat split; intros;
    repeat match goal with |- _ /\ _ => split end; try congruence;
    try (unfold mirrored; cbn [piece_shape glyph_seg segment_new sg_text]; unfold shape_of, sp; cbn [find unicode fst snd Z.eqb Pos.eqb option_map]);
    try (split; [reflexivity|intros []; reflexivity]);
    intros x y X Y; do 8 (destruct x as [|x]; [do 8 (destruct y as [|y]; [reflexivity|]); lia|]); lia.
Qed.
Print Assumptions C50_mirrored.
(** Lines meet: the corners of line borders have exactly the two arms that point
    to their edges, of the same weight as these. *)
Theorem C50_joined : forall (Mt : Type) gw (me : Mt) k inner outer weight,
  In (k, weight) [(KSolid, 1%nat); (KRound, 1%nat); (KHeavy, 2%nat); (KDashed, 2%nat); (KDouble, 3%nat)] ->
  let '((a, b, c), (d, e, f), (g, h, i)) := generate_box gw me k inner outer in
  arms a = Some (0, weight, weight, 0)%nat /\ arms c = Some (0, 0, weight, weight)%nat /\
  arms g = Some (weight, weight, 0, 0)%nat /\ arms i = Some (weight, 0, 0, weight)%nat /\
  Forall (fun x => arms x = Some (0, weight, 0, weight)%nat) [b; h] /\ Forall (fun x => arms x = Some (weight, 0, weight, 0)%nat) [d; f].
Proof.
  intros Mt gw me k i o w H. cbn [In] in H. repeat destruct H as [H|H]; try contradiction; injection H as <- <-; cbn; repeat split; repeat constructor.
Qed.
Print Assumptions C50_joined.
(** Block borders lie where their names say: the top and bottom of outer, thick,
    block, tall, panel and horizontal key borders touch the outside of the cell;
    those of inner and wide borders touch the inside and leave the outside to the
    background around the widget.  The sides of outer, thick, block, vertical key
    and wide borders touch the outside, those of inner, tall and panel borders the
    inside. *)
Theorem C50_side : forall (Mt : Type) gw (me : Mt) k inner outer x y, (x < 8)%nat -> (y < 8)%nat ->
  fg outer = fg inner -> reverse inner = false -> reverse outer = false ->
  let '((a, b, c), (d, e, f), (g, h, i)) := generate_box gw me k inner outer in
  let at_ p u v := seen p (filled_at p u v) in
  (In k [KOuter; KThick; KBlock; KTall; KPanel; KHkey] -> at_ b x 0%nat = fg inner /\ at_ h x 7%nat = fg inner) /\
  (In k [KInner; KWide] -> at_ b x 0%nat = bg outer /\ at_ b x 7%nat = fg inner /\ at_ h x 0%nat = fg inner /\ at_ h x 7%nat = bg outer) /\
  (In k [KOuter; KThick; KBlock; KVkey; KWide] -> at_ d 0%nat y = fg inner /\ at_ f 7%nat y = fg inner) /\
  (In k [KInner; KTall; KPanel] -> at_ d 0%nat y = bg outer /\ at_ d 7%nat y = fg inner /\ at_ f 0%nat y = fg inner /\ at_ f 7%nat y = bg outer).
Proof.
  intros Mt gw me k [fi bi b1 d1 i1 u1 s1 r1] [fo bo b2 d2 i2 u2 s2 r2] x y X Y. cbn [fg bg reverse]. intros -> -> ->.
  destruct k; cbn [generate_box border_chars border_locations build_row zone_style Z.eqb Pos.eqb]; cbv zeta;
    (split; [|split; [|split]]); intros K; cbn [In] in K; try (exfalso; repeat destruct K as [K|K]; try discriminate; contradiction);
    do 8 (destruct x as [|x]; [do 8 (destruct y as [|y]; [repeat split; reflexivity|]); lia|]); lia.
Qed.
Print Assumptions C50_side.
Example C50_mirrored_ex : let box := generate_box (fun _ => 1%nat) tt KTall (Style (Some (rgba_of 1 2 3 1)) (Some (rgba_of 4 5 6 1)) false false false false false false) (Style (Some (rgba_of 1 2 3 1)) (Some (rgba_of 7 8 9 1)) false false false false false false) in
  let '((a, _, c), _, _) := box in
  map (fun x => seen a (filled_at a x 3)) [0; 5; 6; 7]%nat = [Some (rgba_of 7 8 9 1); Some (rgba_of 7 8 9 1); Some (rgba_of 1 2 3 1); Some (rgba_of 1 2 3 1)] /\
  map (fun x => seen c (filled_at c x 3)) [0; 1; 2; 7]%nat = [Some (rgba_of 1 2 3 1); Some (rgba_of 1 2 3 1); Some (rgba_of 7 8 9 1); Some (rgba_of 7 8 9 1)].
Proof. vm_compute. split; reflexivity. Qed.
(** Every piece is one character of one cell. *)
Theorem C50_one_cell : forall (Mt : Type) gw (me : Mt) k inner outer, (forall c, (32 <= c)%Z -> gw c = 1%nat) ->
  Forall (fun x => exists c, sg_text x = [c] /\ (32 <= c)%Z /\ sg_len x = 1%nat /\ sg_meta x = me) (pieces (generate_box gw me k inner outer)).
Proof. intros Mt gw me k i o W. 
  assert (X : forall c s, (32 <= c)%Z -> exists d, sg_text (glyph_seg gw me c s) = [d] /\ (32 <= d)%Z /\ sg_len (glyph_seg gw me c s) = 1%nat /\ sg_meta (glyph_seg gw me c s) = me).
  { intros c s C. exists c. cbn. rewrite (W c C). auto. }
  destruct k; unfold generate_box; cbn [border_chars border_locations build_row pieces]; repeat (apply Forall_cons; [apply X; unfold sp; lia|]); apply Forall_nil.
Qed.
Print Assumptions C50_one_cell.
Example C50_ex : let gw := fun _ : Z => 1%nat in
  In (BInsert (KTall, with_fg (rgba_of 1 2 3 1), style_default)) [BInsert (KTall, with_fg (rgba_of 1 2 3 1), style_default); BLookup (KTall, with_fg (rgba_of 1 2 3 (1 # 2)), style_default)] /\
  alike (KTall, with_fg (rgba_of 1 2 3 1), style_default) (KTall, with_fg (rgba_of 1 2 3 (1 # 2)), style_default) /\
  nth_error (get_boxes gw tt [] [(KSolid, style_default, style_default); (KTall, style_default, style_default); (KSolid, style_default, style_default)]) 2 = Some (generate gw tt (KSolid, style_default, style_default)).
Proof. cbv zeta. split; [left; auto|]. split; [split; auto; intros []; auto|reflexivity]. Qed.

(** ** C76 *)
Section C76.
Context {G Mt : Type}.
Variable gw : G -> nat.
Notation strip := (@strip G style Mt).

(** A style laid over a line: its colours win, the others stay, attributes
    accumulate, and text, widths and metadata do not change. *)
Theorem C76_style_on_top : forall (s : strip) top, repainted gw (layered top) s (apply_style s top).
Proof.
  intros s top. unfold apply_style, strip_apply_style. apply repainted_map; [|intros x X; exact X]. intros x. split; auto. split; auto. intros _. cbn [sg_style segment_apply_style].
  destruct (sg_style x) as [u|].
  - split; [discriminate|]. split; [intros [] c E; cbn [colour] in *; unfold style_apply; cbn [fg bg]; rewrite E; reflexivity|].
    split; [intros [] E; cbn [colour] in *; unfold style_apply; cbn [fg bg]; rewrite E; reflexivity|]. intros []; cbn [has style_apply bold dim italic underline strike reverse]; apply orb_true_iff.
  - split; [discriminate|]. split; [intros l c E; exact E|]. split; [intros l E; rewrite E; reflexivity|]. intros a. cbn [has]. intuition discriminate.
Qed.
(** Two layers are one combined layer; the empty style adds nothing; the same
    layer twice is the same as once. *)
Theorem C76_layers : forall (a b c : style),
  style_apply (style_apply a b) c = style_apply a (style_apply b c) /\
  style_apply a style_default = a /\ style_apply style_default a = a /\ style_apply a a = a /\
  (style_is_empty a = true <-> a = style_default).
Proof.
  intros [f g a1 a2 a3 a4 a5 a6] [h i b1 b2 b3 b4 b5 b6] [j k c1 c2 c3 c4 c5 c6]. unfold style_apply, style_default, style_is_empty. cbn [fg bg bold dim italic underline strike reverse].
  rewrite !orb_assoc, !orb_false_r, !orb_diag. cbn [orb]. split; [f_equal; [destruct j, h, f|destruct k, i, g]; reflexivity|]. split; [destruct f, g; reflexivity|]. split; [destruct f, g; reflexivity|]. split; [destruct f, g; reflexivity|].
  split.
  - destruct f, g, a1, a2, a3, a4, a5, a6; cbn; intros H; try discriminate H; reflexivity.
  - intros H. injection H as -> -> -> -> -> -> -> ->. reflexivity.
Qed.
Theorem C76_styles_compose : forall (s : strip) a b, apply_style (apply_style s a) b = apply_style s (style_apply a b).
Proof.
  intros s a b. unfold apply_style, strip_apply_style. f_equal. cbn [st_segs from_segments]. rewrite map_map. apply map_ext. intros x. unfold segment_apply_style. cbn [sg_text sg_len sg_style sg_meta].
  destruct (sg_style x) as [u|]; [|reflexivity]. rewrite (proj1 (C76_layers u a b)). reflexivity.
Qed.

(** A tint moves every colour of the line towards the tint, keeps how opaque it
    was, and leaves attributes, text, widths and metadata alone. *)
Definition tinted (rnd : Q -> Q) (t : rgba) (u r : option style) : Prop :=
  same_attributes u r /\
  forall l, match colour l u, colour l r with
            | None, None => True
            | Some c, Some d => d = tint rnd c t \/ ((c_a t == 0)%Q /\ d = c)
            | _, _ => False
            end.
Theorem C76_tint : forall rnd (s : strip) t, repainted gw (tinted rnd t) s (apply_tint rnd s t).
Proof.
  intros rnd s t. unfold apply_tint. destruct (Qeq_bool (c_a t) 0) eqn:A.
  - apply repainted_same. intros u. split; [split; [tauto|auto]|]. intros l. destruct (colour l u); auto. right. apply Qeq_bool_iff in A. auto.
  - apply repainted_map.
    + intros x. unfold apply_tint_seg. rewrite A. cbn [sg_text sg_meta sg_style]. split; auto. split; auto. intros _. destruct (sg_style x) as [u|]; cbn [option_map].
      * split; [split; [split; discriminate|intros []; reflexivity]|]. intros []; cbn [colour tint_style fg bg]; [destruct (fg u)|destruct (bg u)]; cbn [option_map]; auto.
      * split; [split; [tauto|auto]|]. intros l. exact I.
    + intros x X. unfold apply_tint_seg. rewrite A. exact X.
Qed.
(** In terms of channels: between the old colour and the tint, equal to the
    tint when it is opaque; a transparent tint changes nothing at all. *)
Theorem C76_tint_channels : forall rnd t u r, rounding rnd -> bytes t -> (0 <= c_a t <= 1)%Q -> tinted rnd t u r ->
  forall l c d, colour l u = Some c -> colour l r = Some d -> bytes c ->
  c_a d = c_a c /\ (forall k, between (get k c) (get k t) (get k d)) /\ ((c_a t == 1)%Q -> forall k, get k d = get k t).
Proof.
  intros rnd t u r R B A [_ T] l c d E1 E2 C. specialize (T l). rewrite E1, E2 in T. destruct T as [-> | [Z ->]].
  - split; [apply (C52_tint_between rnd c t Red); auto|]. split; [intros k; apply (C52_tint_between rnd c t k); auto|]. intros A1. apply (C52_ends rnd c t None R C B). exact A1.
  - split; auto. split; [intros k; unfold between; lia|]. intros A1. exfalso. rewrite Z in A1. discriminate A1.
Qed.
Theorem C76_tint_transparent : forall rnd (s : strip) t, (c_a t == 0)%Q -> apply_tint rnd s t = s.
Proof. intros rnd s t H. unfold apply_tint. apply Qeq_bool_iff in H. rewrite H. reflexivity. Qed.

(** Hatching: every blank becomes the hatch character and nothing else changes
    its character, metadata, background or attributes; each cell that has
    become a hatch has the hatch colour. *)
Theorem C76_hatch : forall rnd (is_space : G -> bool) (s : strip) hatch has_hatch c opacity,
  has_hatch hatch = true ->
  Forall2 (fun x y : G * option style * Mt =>
    fst (fst y) = (if is_space (fst (fst x)) then hatch else fst (fst x)) /\ snd y = snd x /\
    colour Back (snd (fst y)) = colour Back (snd (fst x)) /\ (forall a, has a (snd (fst y)) = has a (snd (fst x))) /\
    (colour Fore (snd (fst y)) = colour Fore (snd (fst x)) \/ colour Fore (snd (fst y)) = Some (with_alpha c (rnd (c_a c * opacity)%Q))) /\
    (is_space (fst (fst x)) = true -> colour Fore (snd (fst y)) = Some (with_alpha c (rnd (c_a c * opacity)%Q))))
  (cells s) (cells (apply_hatch rnd is_space s hatch has_hatch c opacity)).
Proof.
  intros rnd sp s h hh c o HH. unfold apply_hatch, cells. cbn [st_segs from_segments]. induction (st_segs s) as [|x l IH]; cbn [map flat_map]; [constructor|]. apply Forall2_app; auto.
  unfold apply_hatch_seg. destruct (existsb hh (map (fun g => if sp g then h else g) (sg_text x))) eqn:X; cbn [negb].
  - unfold seg_cells. cbn [sg_text sg_style sg_meta]. rewrite map_map. clear IH X. induction (sg_text x) as [|g t IHt]; cbn [map]; constructor; auto. cbn [fst snd]. repeat split; auto; destruct (sg_style x) as [u|]; auto; try (intros []; reflexivity).
  - unfold seg_cells. clear IH. induction (sg_text x) as [|g t IHt]; cbn [map]; constructor.
    + cbn [map existsb] in X. apply orb_false_iff in X. destruct X as [X1 X2]. cbn [fst snd]. destruct (sp g) eqn:S; [congruence|]. repeat split; auto. intros Y. congruence.
    + apply IHt. cbn [map existsb] in X. apply orb_false_iff in X. tauto.
Qed.
(** Widths are right when blank and hatch are equally wide. *)
Theorem C76_hatch_width : forall rnd (is_space : G -> bool) (s : strip) hatch has_hatch c opacity,
  (forall g, is_space g = true -> gw g = gw hatch) -> strip_ok gw s ->
  strip_ok gw (apply_hatch rnd is_space s hatch has_hatch c opacity) /\ st_len (apply_hatch rnd is_space s hatch has_hatch c opacity) = st_len s.
Proof.
  intros rnd sp s h hh c o W [O L]. unfold apply_hatch.
  assert (TW : forall t, text_width gw (map (fun g => if sp g then h else g) t) = text_width gw t). { induction t as [|g t IH]; auto. unfold text_width in *. cbn [map fold_right]. rewrite IH. destruct (sp g) eqn:S; auto. rewrite (W g S). reflexivity. }
  assert (O' : Forall (seg_ok gw) (map (fun x => apply_hatch_seg rnd sp x h hh c o) (st_segs s))).
  { rewrite Forall_map. eapply Forall_impl; [|exact O]. intros x X. unfold apply_hatch_seg. destruct (negb _); auto. unfold seg_ok in *. cbn [sg_len sg_text]. rewrite TW. exact X. }
  split; [apply ok_from; auto|]. cbn [from_segments st_len]. rewrite L. unfold cells. rewrite <- ok_len by auto. clear. induction (st_segs s) as [|x l IH]; cbn [map fold_right]; auto. rewrite IH. f_equal. unfold apply_hatch_seg. destruct (negb _); reflexivity.
Qed.

(** Text opacity: 1 and more changes nothing; between 0 and 1 only foregrounds
    change, towards the background where there is one; 0 and less blanks the
    text, keeping widths, backgrounds and attributes. *)
Theorem C76_opacity_full : forall rnd space (s : strip) opacity fallback, (1 <= opacity)%Q -> apply_text_opacity gw rnd space s opacity fallback = s.
Proof. intros rnd sp s o f H. unfold apply_text_opacity. apply Qle_bool_iff in H. rewrite H. reflexivity. Qed.
(** The background a cell is drawn on. *)
Definition behind (fallback : option rgba) (u : option style) : option rgba := match colour Back u with Some b => Some b | None => fallback end.
Definition faded (rnd : Q -> Q) (opacity : Q) (fallback : option rgba) (u r : option style) : Prop :=
  (forall a, has a r = has a u) /\ colour Back r = colour Back u /\
  match colour Fore u, behind fallback u, colour Fore r with
  | Some f, Some b, Some d => d = blend_toward rnd f b opacity
  | None, Some b, Some d => d = blend_toward rnd (rgba_of 255 255 255 1) b opacity
  | Some f, None, Some d => d = with_opacity rnd f opacity
  | None, None, None => r = u
  | _, _, _ => False
  end.
Theorem C76_opacity : forall rnd space (s : strip) opacity fallback, (0 < opacity)%Q -> (opacity < 1)%Q ->
  repainted gw (faded rnd opacity fallback) s (apply_text_opacity gw rnd space s opacity fallback).
Proof.
  intros rnd sp s o fb O0 O1. unfold apply_text_opacity. destruct (Qle_bool 1 o) eqn:E1; [apply Qle_bool_iff in E1; exfalso; lra|]. assert (E0 : Qle_bool o 0 = false) by (destruct (Qle_bool o 0) eqn:E0; auto; apply Qle_bool_iff in E0; exfalso; lra).
  apply repainted_map.
  - intros x. unfold opacity_seg. rewrite E0. cbn [sg_text sg_meta sg_style]. split; auto. split; auto. intros _. unfold faded, behind. destruct (sg_style x) as [u|].
    + cbn [colour]. destruct (fg u) as [f|] eqn:F, (bg u) as [b|] eqn:B; cbn [or_else].
      * cbn [colour has set_fg fg bg bold dim italic underline strike reverse]. rewrite B. repeat split; auto; intros []; reflexivity.
      * destruct fb as [b|]; cbn [or_else colour has set_fg fg bg bold dim italic underline strike reverse]; rewrite B; repeat split; auto; intros []; reflexivity.
      * cbn [colour has set_fg fg bg bold dim italic underline strike reverse]. rewrite B. repeat split; auto; intros []; reflexivity.
      * destruct fb as [b|]; cbn [or_else colour has set_fg fg bg bold dim italic underline strike reverse]; rewrite ?B, ?F; repeat split; auto; intros []; reflexivity.
    + cbn [colour or_else]. destruct fb as [b|]; cbn [or_else colour has set_fg style_default fg bg bold dim italic underline strike reverse]; repeat split; auto; intros []; reflexivity.
  - intros x X. unfold opacity_seg. rewrite E0. reflexivity.
Qed.
Theorem C76_opacity_channels : forall rnd opacity fallback u r, rounding rnd -> faded rnd opacity fallback u r ->
  forall f b d, colour Fore u = Some f -> behind fallback u = Some b -> colour Fore r = Some d -> bytes f -> bytes b ->
  forall k, between (get k f) (get k b) (get k d).
Proof. intros rnd o fb u r R (_ & _ & F) f b d E1 E2 E3 Bf Bb k. rewrite E1, E2, E3 in F. subst d. apply C52_toward_between; auto. Qed.
Theorem C76_opacity_zero : forall rnd space (s : strip) opacity fallback, (opacity <= 0)%Q -> gw space = 1%nat -> strip_ok gw s ->
  let t := apply_text_opacity gw rnd space s opacity fallback in
  strip_ok gw t /\ st_len t = st_len s /\
  Forall (fun c : G * option style * Mt => fst (fst c) = space /\ colour Fore (snd (fst c)) = None) (cells t) /\
  map (fun c => (colour Back (snd (fst c)), map (fun a => has a (snd (fst c))) [Bold; Dim; Italic; Underline; Strike; Reverse], snd c)) (cells t) =
  flat_map (fun c => repeat (colour Back (snd (fst c)), map (fun a => has a (snd (fst c))) [Bold; Dim; Italic; Underline; Strike; Reverse], snd c) (gw (fst (fst c)))) (cells s).
Proof.
  intros rnd sp s o fb O W [K L]. cbv zeta. unfold apply_text_opacity. destruct (Qle_bool 1 o) eqn:E1; [apply Qle_bool_iff in E1; exfalso; lra|]. assert (E0 : Qle_bool o 0 = true) by (apply Qle_bool_iff; exact O).
  assert (RW : forall n, text_width gw (repeat sp n) = n). { induction n as [|n IH]; auto. unfold text_width in *. cbn [repeat fold_right]. rewrite IH, W. reflexivity. }
  assert (O' : Forall (seg_ok gw) (map (opacity_seg gw rnd sp o fb) (st_segs s))). { rewrite Forall_map. eapply Forall_impl; [|exact K]. intros x X. unfold opacity_seg. rewrite E0. unfold seg_ok. cbn [sg_len sg_text]. rewrite RW. reflexivity. }
  split; [apply ok_from; auto|]. split.
  { cbn [from_segments st_len]. rewrite L. unfold cells. rewrite <- ok_len by auto. clear - E0. induction (st_segs s) as [|x l IH]; cbn [map fold_right]; auto. rewrite IH. f_equal. unfold opacity_seg. rewrite E0. reflexivity. }
  unfold cells. cbn [st_segs from_segments]. clear L O'. split.
  - induction (st_segs s) as [|x l IH]; cbn [map flat_map]; [constructor|]. inversion K; subst. apply Forall_app. split; auto. unfold opacity_seg. rewrite E0. unfold seg_cells. cbn [sg_text sg_style sg_meta]. apply Forall_map. apply Forall_forall. intros g I. apply repeat_spec in I. subst g.
    split; auto. destruct (sg_style x); reflexivity.
  - induction K as [|x l X K IH]; cbn [map flat_map]; [reflexivity|]. rewrite map_app, flat_map_app. f_equal; auto. unfold opacity_seg. rewrite E0. unfold seg_cells. cbn [sg_text sg_style sg_meta]. rewrite !map_map, map_repeat_. cbn [fst snd].
    unfold seg_ok in X. rewrite X. clear. induction (sg_text x) as [|g t IH]; [reflexivity|]. cbn [map flat_map fst snd]. rewrite <- IH. unfold text_width. cbn [fold_right]. rewrite repeat_app. f_equal. destruct (sg_style x); reflexivity.
Qed.
End C76.
Print Assumptions C76_style_on_top.
Print Assumptions C76_layers.
Print Assumptions C76_styles_compose.
Print Assumptions C76_tint.
Print Assumptions C76_tint_channels.
Print Assumptions C76_tint_transparent.
Print Assumptions C76_hatch.
Print Assumptions C76_hatch_width.
Print Assumptions C76_opacity_full.
Print Assumptions C76_opacity.
Print Assumptions C76_opacity_channels.
Print Assumptions C76_opacity_zero.

(** The documentation of hatching promises that characters other than blanks
    stay as they are; their colour does not when a blank is in the same
    segment.  A two-cell hatch character leaves a wrong width. *)
Theorem C76_hatch_colour_refuted : exists (s : @strip Z style unit) red hatch,
  cells s = [(97%Z, None, tt); (32%Z, None, tt)] /\
  cells (apply_hatch rnd32 (Z.eqb 32) s hatch (Z.eqb hatch) red 1) = [(97%Z, Some (with_fg red), tt); (hatch, Some (with_fg red), tt)].
Proof. exists (from_segments [Segment [97; 32]%Z 2 None tt]), (Rgba 255 0 0 (rnd32 1) None false None), 47%Z. split; [reflexivity|]. vm_compute. reflexivity. Qed.
Print Assumptions C76_hatch_colour_refuted.
Theorem C76_hatch_width_refuted : exists (s : @strip Z style unit) hatch, let gw := fun c => if (c =? hatch)%Z then 2%nat else 1%nat in
  strip_ok gw s /\ ~ strip_ok gw (apply_hatch rnd32 (Z.eqb 32) s hatch (Z.eqb hatch) (rgb_of 1 2 3) 1).
Proof. exists (from_segments [Segment [32]%Z 1 None tt]), 0x56fe%Z. cbv zeta. split; [split; [repeat constructor|reflexivity]|]. intros [_ L]. vm_compute in L. discriminate L. Qed.
Print Assumptions C76_hatch_width_refuted.
(** Text of opacity 0 keeps its underline and strike-through. *)
Theorem C76_hidden_underline_refuted : exists (s : @strip Z style unit),
  Exists (fun c => has Underline (snd (fst c)) = true) (cells (apply_text_opacity (fun _ => 1%nat) rnd32 32%Z s 0 None)).
Proof. exists (from_segments [Segment [97]%Z 1 (Some (Style None None false false false true false false)) tt]). vm_compute. constructor. reflexivity. Qed.
Print Assumptions C76_hidden_underline_refuted.
Example C76_ex : let gw := fun _ : Z => 1%nat in let s := from_segments [Segment [97; 32]%Z 2 (Some (with_fg (rgb_of 10 20 30))) tt; Segment [98]%Z 1 None tt] in
  strip_ok gw s /\ cells (apply_style s (with_bg (rgb_of 1 1 1))) = [(97%Z, Some (with_colors (rgb_of 10 20 30) (rgb_of 1 1 1)), tt); (32%Z, Some (with_colors (rgb_of 10 20 30) (rgb_of 1 1 1)), tt); (98%Z, Some (with_bg (rgb_of 1 1 1)), tt)] /\
  (0 < 1 # 2)%Q /\ (1 # 2 < 1)%Q /\ bytes (rgb_of 10 20 30).
Proof. cbv zeta. split; [split; [repeat constructor|reflexivity]|]. split; [reflexivity|]. split; [reflexivity|]. split; [reflexivity|]. intros []; cbn; lia. Qed.
