(** Content: lines, styled lines, wrapping and overflow (C40-C43, C63).

    [gr] cuts a text into clusters, [gw] is the width of a cluster; both stand
    for the Unicode tables and are arbitrary, apart from the premises: the
    clusters put together are the text and no cluster is empty.  An empty style
    is the default style, an empty metadata map is the new map, and link styling
    leaves characters without metadata alone. *)
From Coq Require Import ZArith List Bool Arith Lia.
From Verif Require Import Text_Model Fuzzy_Proofs Markup_Proofs Strip_Model Strip_Spec Strip_Proofs Wrap_Model Wrap_Spec Wrap_Proofs Wrap2_Proofs.
Import ListNotations.
Open Scope nat_scope.
Arguments blen : simpl never.
Arguments utf8_len : simpl never.

Section W.
Variable gr : text -> list text.
Variable gw : text -> nat.
Context {St Mt : Type}.
Variable sapply : St -> St -> St.
Variable sdefault : St.
Variable sempty : St -> bool.
Variable mnew : Mt.
Variable mempty : Mt -> bool.
Variable mextend : Mt -> Mt -> Mt.
Variable restyle : St -> Mt -> St.
Hypothesis Hgr : forall t, concat (gr t) = t.
Hypothesis Hne : forall t g, In g (gr t) -> g <> [].
Hypothesis Hse : forall s, sempty s = true -> s = sdefault.
Hypothesis Hme : forall m, mempty m = true -> m = mnew.
Hypothesis Hrs : forall s, restyle s mnew = s.
Notation strp := (@strip text St Mt).
Notation cont := (@content St Mt).
Notation render_line := (render_line gr gw sapply sdefault sempty mnew mempty mextend restyle).
Notation lines := (lines gr gw sapply sdefault sempty mnew mempty mextend restyle).
Notation wrap_line := (wrap_line gr gw mnew).
Notation wrap_line_with_spans := (wrap_line_with_spans gr gw sapply sdefault sempty mnew mempty mextend restyle).
Notation wrap_one := (wrap_one gr gw sapply sdefault sempty mnew mempty mextend restyle).
Notation wrap_overflow := (wrap_overflow gr gw sapply sdefault sempty mnew mempty mextend restyle).
Notation view := (view sdefault).
Notation should_look := (should_look sapply sdefault mnew mextend restyle).
Notation lines_look := (lines_look sapply sdefault mnew mextend restyle).

(** *** C40: the lines of a content put together again are its text, none of
    them contains a newline, the height is their number, and each character has
    the style it has in the text. *)
Theorem C40_lines : forall c : cont, aligned (spans_of c) 0 (c_text c) ->
  exists ls strips, lines c = Some strips /\
    intercalate [10%Z] ls = c_text c /\ Forall (fun l => ~ In 10%Z l) ls /\
    map strip_text strips = ls /\ height c = length strips /\
    map view strips = lines_look c 0 ls /\ Forall (strip_ok gw) strips.
Proof.
  intros c AL. destruct (lines_spec gr gw sapply sdefault sempty mnew mempty mextend restyle Hgr Hne Hse Hme Hrs c AL) as (strips & S1 & S2 & S3).
  exists (source_lines c), strips. pose proof (look_texts sapply sdefault mnew mextend restyle c _ _ _ S2) as TX.
  split; auto. split; [apply split_char_join|]. split. { apply Forall_forall. intros l. apply split_char_none. }
  split; auto. split; auto. unfold height. rewrite <- (map_length strip_text strips), TX. apply Nat.max_l.
  unfold source_lines. rewrite split_char_count. lia.
Qed.

(** The number of lines is one more than the number of newlines. *)
Theorem C40_height : forall c : cont, height c = S (count_occ Z.eq_dec (c_text c) 10%Z).
Proof. intros c. unfold height, source_lines. rewrite split_char_count. apply Nat.max_l. lia. Qed.

(** *** C41: wrapping a plain line *)
(** Lines are filled with as many words as fit; words too long for a line are
    cut into pieces that fill lines. *)
Theorem C41_greedy : forall (c : cont) line width, visible gr gw (split_ws line) -> spacing_adds gr gw (split_ws line) ->
  wraps gr gw width (split_ws line) (map strip_text (wrap_line c line width)).
Proof. intros. apply wrap_line_wraps; auto. Qed.
(** No character is lost, added or moved, except white space. *)
Theorem C41_keeps_words : forall (c : cont) line width, visible gr gw (split_ws line) -> spacing_adds gr gw (split_ws line) ->
  ink (concat (map strip_text (wrap_line c line width))) = ink line.
Proof. intros. apply wrap_line_ink; auto. Qed.
(** No line is too wide, if no single cluster is. *)
Theorem C41_width : forall (c : cont) line width, visible gr gw (split_ws line) -> spacing_adds gr gw (split_ws line) ->
  pieces_add gr gw (split_ws line) -> clusters_fit gr gw width (split_ws line) ->
  Forall (fun s => st_len s <= width) (wrap_line c line width).
Proof. intros. apply wrap_line_width; auto. Qed.
(** The whole content: its lines are wrapped one after the other, an empty line
    stays an empty line, and the last part of each line is marked. *)
Theorem C41_content : forall (c : cont) width, c_spans c = None -> 0 < width ->
  Forall (fun l => visible gr gw (split_ws l) /\ spacing_adds gr gw (split_ws l)) (split_char 10%Z (c_text c)) ->
  exists out groups, wrap_overflow c width Fold Wrap = Some out /\
    (out = concat groups \/ concat groups = [] /\ out = [(strip_new, true)]) /\
    Forall2 (fun l g => ends_once g /\ (l = [] -> g = [(strip_new, true)]) /\
                        (l <> [] -> wraps gr gw width (split_ws l) (map (fun p => strip_text (fst p)) g)))
            (split_char 10%Z (c_text c)) groups /\
    ink (concat (map (fun p => strip_text (fst p)) out)) = ink (c_text c).
Proof.
  intros c width E W F. unfold Wrap_Model.wrap_overflow. destruct (Nat.eqb_spec width 0); [lia|].
  destruct (wrap_lines_plain gr gw sapply sdefault sempty mnew mempty mextend restyle c width (split_char 10%Z (c_text c)) 0 E) as (groups & S1 & S2).
  rewrite S1. cbn [option_map].
  assert (F2 : Forall2 (fun l g => ends_once g /\ (l = [] -> g = [(strip_new, true)]) /\
                        (l <> [] -> wraps gr gw width (split_ws l) (map (fun p : strp * bool => strip_text (fst p)) g)) /\
                        ink (concat (map (fun p : strp * bool => strip_text (fst p)) g)) = ink l) (split_char 10%Z (c_text c)) groups).
  { clear S1. induction S2 as [|l g ls gs (A1 & A2 & A3) S2 IH]; constructor.
    - inversion F as [|? ? [V SA] F']; subst. split; auto. split; auto. split.
      + intros NE. rewrite <- (map_map fst strip_text), (A3 NE). apply wrap_line_wraps; auto.
      + destruct l as [|x l]. { rewrite (A2 eq_refl). reflexivity. }
        rewrite <- (map_map fst strip_text), (A3 ltac:(discriminate)). apply wrap_line_ink; auto.
    - apply IH. inversion F; auto. }
  assert (INK : ink (concat (map (fun p : strp * bool => strip_text (fst p)) (concat groups))) = ink (c_text c)).
  { rewrite <- (split_char_join 10%Z (c_text c)) , <- ink_lines. clear S1 S2 F. induction F2 as [|l g ls gs (_ & _ & _ & A) F2 IH]; auto.
    cbn [concat]. rewrite map_app, concat_app, !ink_app, A, IH. reflexivity. }
  eexists. exists groups. split; [reflexivity|].
  split; [|split].
  - destruct (concat groups); cbn [is_nil]; auto.
  - clear -F2. induction F2 as [|l g ls gs (A & B & C & _) F2 IH]; constructor; auto.
  - destruct (concat groups) as [|x y] eqn:EC; cbn [is_nil]; auto.
Qed.

(** *** C42: wrapping a styled line *)
(** Every character but white space is there once, in order, with its style. *)
Theorem C42_styled_words : forall (c : cont) line pos width spans, aligned spans pos line -> visible gr gw (split_ws line) ->
  exists strips, wrap_line_with_spans c line pos width spans = Some strips /\
    no_blanks (flat_map view strips) = no_blanks (painted sapply mnew mextend restyle (look sdefault (c_style c)) spans pos line) /\
    Forall (strip_ok gw) strips.
Proof. intros. apply wrap_spans_spec; auto. Qed.
(** If all words fit and are separated by single spaces then the lines are
    those of the plain text, hence not too wide. *)
Theorem C42_styled_fitting : forall (c : cont) line pos width spans strips, aligned spans pos line ->
  Forall (fun w => 0 < dw gr gw w <= width) (split_ws line) -> line = spaced (split_ws line) -> spacing_adds gr gw (split_ws line) ->
  wrap_line_with_spans c line pos width spans = Some strips ->
  wraps gr gw width (split_ws line) (map strip_text strips) /\ Forall (fun s => dw gr gw (strip_text s) <= width) strips.
Proof.
  intros c line pos width spans strips AL V SP SA H.
  pose proof (wrap_spans_texts gr gw sapply sdefault sempty mnew mempty mextend restyle Hgr Hne Hse Hme Hrs c line pos width spans strips AL V SP H) as TX.
  assert (V2 : visible gr gw (split_ws line)) by (eapply Forall_impl; [|exact V]; cbn; intros; lia).
  assert (WR : wraps gr gw width (split_ws line) (map strip_text strips)).
  { rewrite TX, <- (wrap_line_texts gr gw mnew Hgr c line width). apply wrap_line_wraps; auto. }
  split; auto. rewrite <- Forall_map with (P := fun t => dw gr gw t <= width).
  clear - WR V. set (ws := split_ws line) in *. clearbody ws. induction WR as [|ws rest ls NE L G H IH|w rest ps ls L B H IH].
  - constructor.
  - apply Forall_app in V. constructor; auto. apply IH. apply V.
  - inversion V; subst. lia.
Qed.
(** Whole contents. *)
Theorem C42_content : forall (c : cont) width, aligned (spans_of c) 0 (c_text c) -> c_spans c <> None -> 0 < width ->
  Forall (fun l => visible gr gw (split_ws l)) (split_char 10%Z (c_text c)) ->
  exists out, wrap_overflow c width Fold Wrap = Some out /\
    no_blanks (flat_map view (map fst out)) = no_blanks (should_look c 0 (c_text c)).
Proof.
  intros c width AL NN W V. destruct (c_spans c) as [spans|] eqn:E; [|congruence]. unfold spans_of in AL. rewrite E in AL.
  unfold Wrap_Model.wrap_overflow. destruct (Nat.eqb_spec width 0); [lia|].
  destruct (wrap_lines_styled gr gw sapply sdefault sempty mnew mempty mextend restyle Hgr Hne Hse Hme Hrs c spans width (split_char 10%Z (c_text c)) 0 E) as (out & S1 & S2); auto.
  { intros _. rewrite split_char_join. auto. }
  rewrite S1. cbn [option_map]. eexists. split; [reflexivity|].
  rewrite lines_look_all, split_char_join in S2. rewrite <- S2. destruct out; reflexivity.
Qed.

(** *** C43: a styled line shows every character of the line once, in order,
    with the base style overlaid by the spans over it in their order. *)
Theorem C43_styled_line : forall (c : cont) line pos spans, aligned spans pos line ->
  exists s, render_line c line pos (pos + blen line) spans = Some s /\
    view s = painted sapply mnew mextend restyle (look sdefault (c_style c)) spans pos line /\ strip_ok gw s.
Proof. intros. apply render_line_spec; auto. Qed.

(** *** C63: overflow without wrapping.  [s] is the line in full; if its clusters
    are one cell wide then: folding cuts it into parts of exactly the width, but
    for the last one; clipping keeps the first cells; the ellipsis takes the
    place of what does not fit. *)
Theorem C63_overflow : forall (c : cont) line pos width, aligned (spans_of c) pos line -> line <> [] -> 0 < width ->
  exists s, view s = should_look c pos line /\ strip_ok gw s /\
    (all_narrow gw (cells s) ->
      (exists out, wrap_one c width Fold NoWrap line pos = Some out /\ ends_once out /\ out <> [] /\
         flat_map cells (map fst out) = cells s /\ Forall (fun p => st_len p <= width) (map fst out) /\
         Forall (fun p => st_len p = width) (removelast (map fst out))) /\
      (exists p, wrap_one c width Clip NoWrap line pos = Some [(p, true)] /\ cells p = firstn width (cells s)) /\
      (dw gr gw dots = 1 -> gr dots = [dots] ->
        exists p, wrap_one c width Ellipsis NoWrap line pos = Some [(p, true)] /\ st_len p <= width /\
          (st_len s <= width -> p = s) /\
          (width < st_len s -> exists st, cells p = firstn (width - 1) (cells s) ++ [(dots, st, mnew)]))).
Proof.
  intros c line pos width AL NE W. destruct (full_line gr gw sapply sdefault sempty mnew mempty mextend restyle Hgr Hse Hme Hrs c line pos AL) as (s & S1 & S2 & S3).
  exists s. split; auto. split; auto. intros N. unfold Wrap_Model.wrap_one. destruct line as [|x l]; [congruence|]. cbn [is_nil]. rewrite S1. cbn [option_map].
  pose proof (narrow_len gw s S3 N) as LEN. split; [|split].
  - eexists. split; [reflexivity|]. split; [apply mark_once|]. rewrite !mark_fst. unfold split_strip_by_width.
    destruct (Nat.eqb_spec width 0); [lia|]. destruct (Nat.eqb_spec (st_len s) 0) as [Z|NZ].
    + split; [discriminate|]. assert (cells s = []) by (destruct (cells s); auto; cbn in LEN; lia). rewrite H. split; auto. split; repeat constructor. cbn. lia.
    + destruct (split_width_spec gw s width S3 N W (st_len s) 0 ltac:(lia)) as (P1 & P2 & P3). split.
      * intros C. apply (f_equal (map fst)) in C. rewrite mark_fst in C. cbn [map] in C. rewrite C in P1. cbn in P1. rewrite <- P1 in LEN. cbn in LEN. lia.
      * split; [exact P1|]. split; [|exact P3]. eapply Forall_impl; [|exact P2]. intros p [_ H]. exact H.
  - eexists. split; [reflexivity|]. rewrite crop_narrow by auto. cbn [skipn]. rewrite Nat.sub_0_r. reflexivity.
  - intros D1 D2. eexists. split; [reflexivity|]. unfold truncate_with_ellipsis. destruct (Nat.eqb_spec width 0); [lia|].
    destruct (Nat.leb_spec (st_len s) width) as [L|L]. { split; auto. split; auto. lia. }
    assert (SO : forall st, @strip_ok text St Mt gw (from_segment (Segment (gr dots) (dw gr gw dots) st mnew))).
    { intros st. split; [repeat constructor|]. cbn. rewrite app_nil_r. rewrite D2. cbn. unfold Wrap_Model.dw. rewrite D2. cbn. lia. }
    destruct (Nat.eqb_spec width 1) as [->|N1].
    + split. { cbn. lia. } split; [lia|]. intros _. exists (last_style s). cbn. rewrite D2. reflexivity.
    + set (cr := crop gw s 0 (width - 1)). split; [|split; [lia|]].
      * assert (CO : strip_ok gw cr) by (apply crop_strip_ok; auto).
        assert (JO : strip_ok gw (join [cr; from_segment (Segment (gr dots) (dw gr gw dots) (last_style cr) mnew)])) by (apply join_ok; apply Forall_cons; [auto|]; apply Forall_cons; [apply SO|apply Forall_nil]).
        assert (CC : cells cr = firstn (width - 1) (cells s)). { unfold cr. rewrite crop_narrow by auto. cbn [skipn]. rewrite Nat.sub_0_r. reflexivity. }
        rewrite narrow_len with (gw := gw); auto.
        { rewrite join_cells. cbn [flat_map]. rewrite CC. cbn. rewrite D2. cbn. rewrite app_length, firstn_length. cbn. lia. }
        rewrite join_cells. cbn [flat_map]. rewrite CC. cbn. rewrite D2. cbn. apply Forall_app. split.
        { apply Forall_forall. intros y Hy. apply in_firstn in Hy. eapply Forall_forall in N; eauto. }
        repeat constructor. cbn. unfold Wrap_Model.dw in D1. rewrite D2 in D1. cbn in D1. lia.
      * intros _. exists (last_style cr). rewrite join_cells. cbn [flat_map]. unfold cr. rewrite crop_narrow by auto. cbn [skipn]. rewrite Nat.sub_0_r. cbn. rewrite D2. reflexivity.
Qed.
End W.
Print Assumptions C40_lines.
Print Assumptions C40_height.
Print Assumptions C41_greedy.
Print Assumptions C41_keeps_words.
Print Assumptions C41_width.
Print Assumptions C41_content.
Print Assumptions C42_styled_words.
Print Assumptions C42_styled_fitting.
Print Assumptions C42_content.
Print Assumptions C43_styled_line.
Print Assumptions C63_overflow.

(** *** Concrete cases: one-char clusters; U+200B is invisible, U+4E2D is wide;
    styles and metadata are numbers, later styles replace earlier ones. *)
Definition agr (t : text) : list text := map (fun c => [c]) t.
Definition agw (g : text) : nat := match g with [8203%Z] => 0 | [20013%Z] => 2 | _ => 1 end.
Definition asap (a b : nat) : nat := if b =? 0 then a else b.
Notation aline := (wrap_line agr agw 0).
Notation awrap := (wrap_overflow agr agw asap 0 (fun s => s =? 0) 0 (fun s => s =? 0) Nat.add (fun s _ => s)).
Notation aspans := (wrap_line_with_spans agr agw asap 0 (fun s => s =? 0) 0 (fun s => s =? 0) Nat.add (fun s _ => s)).
Notation arender := (render_line agr agw asap 0 (fun s => s =? 0) 0 (fun s => s =? 0) Nat.add (fun s _ => s)).
Notation alines := (lines agr agw asap 0 (fun s => s =? 0) 0 (fun s => s =? 0) Nat.add (fun s _ => s)).
Definition txt (c : list Z) : @content nat nat := Content c None None.
Definition stx (c : list Z) (l : list (@span nat nat)) : @content nat nat := Content c (Some 1) (Some l).

Lemma agr_ok : (forall t, concat (agr t) = t) /\ (forall t g, In g (agr t) -> g <> []) /\
  (forall s, (s =? 0) = true -> s = 0) /\ (forall s : nat, (fun s (_ : nat) => s) s 0 = s).
Proof.
  split; [|split; [|split]]; auto.
  - intros t. unfold agr. induction t as [|c t IH]; auto. cbn [map concat app]. rewrite IH. reflexivity.
  - intros t g H. apply in_map_iff in H. destruct H as (c & <- & _). discriminate.
  - intros s H. apply Nat.eqb_eq; auto.
Qed.
Lemma adw_app : forall a b, dw agr agw (a ++ b) = dw agr agw a + dw agr agw b.
Proof. intros a b. unfold dw, agr, text_width. induction a as [|c a IH]; auto. cbn [app map fold_right]. rewrite IH. lia. Qed.
Lemma a_spacing : forall ws, spacing_adds agr agw ws.
Proof. intros ws pre w x post _ NE. rewrite spaced_snoc by auto. change (32%Z :: x) with ([32%Z] ++ x). rewrite !adw_app. cbn. lia. Qed.
Lemma a_pieces : forall ws, pieces_add agr agw ws.
Proof.
  intros ws w a b c _ E. assert (forall g, In g b -> exists x, g = [x]).
  { intros g H. assert (In g (agr w)) by (rewrite E; apply in_or_app; right; apply in_or_app; auto). apply in_map_iff in H0. destruct H0 as (x & <- & _). eauto. }
  clear E. unfold dw, total. f_equal. unfold agr. induction b as [|g b IH]; auto. destruct (H g (or_introl eq_refl)) as [x ->]. cbn [concat app map]. f_equal.
  apply IH. intros. apply H. right; auto.
Qed.

(** "ab cdefgh i" in 4 cells: "ab", "cdef", "gh", "i" *)
Example C41_witness :
  map strip_text (aline (txt []) [97;98;32;99;100;101;102;103;104;32;105]%Z 4) = [[97;98];[99;100;101;102];[103;104];[105]]%Z /\
  visible agr agw (split_ws [97;98;32;99;100;101;102;103;104;32;105]%Z) /\
  clusters_fit agr agw 4 (split_ws [97;98;32;99;100;101;102;103;104;32;105]%Z) /\
  spacing_adds agr agw (split_ws [97;98;32;99;100;101;102;103;104;32;105]%Z) /\
  pieces_add agr agw (split_ws [97;98;32;99;100;101;102;103;104;32;105]%Z).
Proof. split; [reflexivity|]. split; [repeat constructor|]. split; [repeat constructor|]. split; [apply a_spacing|apply a_pieces]. Qed.

(** "ab\ncd" with a span over "bc" (bytes 1-4) *)
Example C40_witness : aligned (spans_of (stx [97;98;10;99;100]%Z [Span 1 4 7 5])) 0 [97;98;10;99;100]%Z /\
  option_map (map (view 0)) (alines (stx [97;98;10;99;100]%Z [Span 1 4 7 5])) =
    Some [[(97%Z,1,0);(98%Z,7,5)];[(99%Z,7,5);(100%Z,1,0)]].
Proof.
  split; [|reflexivity]. intros s x Hs Hx L1 L2. cbn in Hs. destruct Hs as [<-|[]]. cbn in Hx. destruct Hx as [-> | ->].
  - exists [97%Z], [98;10;99;100]%Z. split; reflexivity.
  - exists [97;98;10;99]%Z, [100%Z]. split; reflexivity.
Qed.
(** "ab cd ef" in 5 cells, bytes 1 to 7 in style 7 *)
Example C42_witness : option_map (map (view 0)) (aspans (txt []) [97;98;32;99;100;32;101;102]%Z 0 5 [Span 1 7 7 0]) =
  Some [[(97%Z,0,0);(98%Z,7,0);(32%Z,7,0);(99%Z,7,0);(100%Z,7,0)];[(101%Z,7,0);(102%Z,0,0)]].
Proof. reflexivity. Qed.
Example C42_witness_hyp : aligned [Span 1 7 7 0] 0 [97;98;32;99;100;32;101;102]%Z /\
  Forall (fun w => 0 < dw agr agw w <= 5) (split_ws [97;98;32;99;100;32;101;102]%Z) /\
  spaced (split_ws [97;98;32;99;100;32;101;102]%Z) = [97;98;32;99;100;32;101;102]%Z.
Proof.
  split; [|split; [repeat constructor|reflexivity]]. intros s x [<-|[]] [-> | ->] L1 L2.
  - exists [97%Z], [98;32;99;100;32;101;102]%Z. split; reflexivity.
  - exists [97;98;32;99;100;32;101]%Z, [102%Z]. split; reflexivity.
Qed.
(** "abcdefg" in 3 cells *)
Example C63_witness : map (fun o => option_map (map (fun p => strip_text (fst p))) (awrap (txt [97;98;99;100;101;102;103]%Z) 3 o NoWrap)) [Fold; Clip; Ellipsis]
  = [Some [[97;98;99];[100;101;102];[103]]%Z; Some [[97;98;99]]%Z; Some [[97;98;8230]]%Z] /\ dw agr agw dots = 1 /\ agr dots = [dots].
Proof. repeat split. Qed.

(** *** What does not hold *)
(** C40/C43: a span that begins inside a character makes rendering panic. *)
Theorem C43_inside_char_refuted : exists c spans, c_spans c = Some spans /\ alines c = None.
Proof. exists (stx [233; 98]%Z [Span 1 3 7 0]), [Span 1 3 7 0]. split; reflexivity. Qed.
Print Assumptions C43_inside_char_refuted.
(** C41: a word that takes up no room is lost when another word follows. *)
Theorem C41_invisible_word_refuted : exists line, ink (concat (map strip_text (aline (txt []) line 5))) <> ink line.
Proof. exists [8203; 32; 98]%Z. vm_compute. discriminate. Qed.
Print Assumptions C41_invisible_word_refuted.
(** C41: a line of spaces disappears, although an empty line does not. *)
Theorem C41_blank_line_refuted :
  option_map (map (fun p => strip_text (fst p))) (awrap (txt [97; 10; 32; 10; 98]%Z) 5 Fold Wrap) = Some [[97]; [98]]%Z /\
  option_map (map (fun p => strip_text (fst p))) (awrap (txt [97; 10; 10; 98]%Z) 5 Fold Wrap) = Some [[97]; []; [98]]%Z.
Proof. split; reflexivity. Qed.
Print Assumptions C41_blank_line_refuted.
(** C41: a line that fits is changed: indentation and repeated spaces go. *)
Theorem C41_fitting_changed_refuted : exists line, dw agr agw line <= 10 /\ map strip_text (aline (txt []) line 10) <> [line].
Proof. exists [32; 97; 32; 32; 98]%Z. split; [vm_compute; lia|]. vm_compute. discriminate. Qed.
Print Assumptions C41_fitting_changed_refuted.
(** C41: a cluster wider than the line makes a line that is too wide. *)
Theorem C41_wide_cluster_refuted : exists line, Exists (fun s => 1 < st_len s) (aline (txt []) line 1).
Proof. exists [20013]%Z. apply Exists_cons_hd. vm_compute. lia. Qed.
Print Assumptions C41_wide_cluster_refuted.
(** C42: styled text is not cut: a long word is wider than the line. *)
Theorem C42_long_word_refuted : exists line spans strips, aspans (txt []) line 0 3 spans = Some strips /\ Exists (fun s => 3 < st_len s) strips.
Proof. exists [97;98;99;100;101]%Z, [Span 0 5 7 0]. eexists. split; [reflexivity|]. apply Exists_cons_hd. vm_compute. lia. Qed.
Print Assumptions C42_long_word_refuted.
(** C42: nor are indentation and repeated spaces counted: all words fit, the line does not. *)
Theorem C42_spaces_refuted : exists line spans strips, Forall (fun w => dw agr agw w <= 3) (split_ws line) /\
  aspans (txt []) line 0 3 spans = Some strips /\ Forall (fun s => 3 < st_len s) strips /\ strips <> [].
Proof.
  exists [32;32;97;98;99]%Z, [Span 0 5 7 0]. eexists. split; [repeat constructor|]. split; [reflexivity|]. split; [|discriminate].
  repeat constructor.
Qed.
Print Assumptions C42_spaces_refuted.
