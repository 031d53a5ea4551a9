(** C118: the title in the border of a widget is the one last set, and shows the
    markup it was given. *)
From Coq Require Import String ZArith List Arith Bool Lia.
From Verif Require Import Text_Model Markup_Model Markup_Spec Markup_Proofs Markup_Props Strip_Model Strip_Spec Strip_Proofs Wrap_Model Wrap_Spec Wrap_Proofs Wrap2_Proofs
  Row_Model Row_Spec Row_Props Autosize_Model Autosize_Spec Autosize_Proofs Autosize_Props Title_Model Title_Spec Title_Proofs.
Import ListNotations.
Open Scope nat_scope.
Open Scope list_scope.
Arguments blen : simpl never.
Arguments utf8_len : simpl never.

(** ** Setting *)
(** Whatever was called, and in whatever order: the title of a static text, a label or
    a container is the one given last, whether by the builder or later; this is what
    is returned and what is drawn, and setting it later asks for it to be drawn. *)
Theorem C118_kept : forall k l, keeps_titles k ->
  let w := run k new_titles l in
  t_title w = last_title None l /\ border_title k w = last_title None l /\
  t_sub w = last_sub None l /\ border_subtitle k w = last_sub None l /\
  forall t, t_dirty (step k w (SetTitle t)) = true /\ t_dirty (step k w (SetSub t)) = true.
Proof.
  intros k l K w. destruct (run_titles k l new_titles K) as [A B]. fold w in A, B. cbn [new_titles t_title t_sub] in A, B.
  destruct K as [-> | [-> | ->]]; cbn [border_title border_subtitle step own_step t_dirty]; auto 10.
Qed.
(** Vertical and horizontal containers draw the title given last when they were built. *)
Definition building (c : call) : Prop := match c with SetTitle _ | SetSub _ => False | _ => True end.
Theorem C118_builder : forall k l, k = KVertical \/ k = KHorizontal -> Forall building l ->
  let w := run k new_titles l in t_title w = last_title None l /\ t_sub w = last_sub None l.
Proof.
  intros k l K F. change (@None text) with (t_title new_titles) at 1. change (@None text) with (t_sub new_titles). generalize new_titles as v.
  induction F as [|c l B F IH]; intros v; cbv zeta; [auto|]. unfold run in *. cbn [fold_left]. destruct (IH (step k v c)) as [-> ->].
  destruct K as [-> | ->]; destruct c; try contradiction; auto.
Qed.
(** But what is set later (by a query, for instance) does not reach them, and they
    never tell their title. *)
Theorem C118_set_refuted : forall k w t, k = KVertical \/ k = KHorizontal ->
  step k w (SetTitle t) = w /\ step k w (SetSub t) = w /\ border_title k w = None /\ border_subtitle k w = None.
Proof. intros k w t [-> | ->]; auto. Qed.
(** Scrolling containers take a title when they are built and drop it. *)
Theorem C118_scroll_refuted : forall k l, k = KVerticalScroll \/ k = KHorizontalScroll ->
  let w := run k new_titles l in t_title w = None /\ t_sub w = None.
Proof.
  intros k l K. change (@None text) with (t_title new_titles) at 1. change (@None text) with (t_sub new_titles). generalize new_titles as v.
  induction l as [|c l IH]; intros v; cbv zeta; [auto|]. unfold run in *. cbn [fold_left]. destruct (IH (step k v c)) as [-> ->].
  destruct K as [-> | ->]; destruct c; auto.
Qed.

(** ** Drawing *)
(** There is exactly one line of a text that becomes the title. *)
Theorem C118_line : forall ls p, exists q l, title_line p ls q l /\ forall q' l', title_line p ls q' l' -> q' = q /\ l' = l.
Proof.
  intros ls p. destruct (title_line_ex ls p) as (q & l & T). exists q, l. split; auto. induction T as [p|p l r N|p l r q m B T IH]; intros q' l' T'.
  - inversion T'; auto.
  - inversion T'; subst; [auto|contradiction].
  - inversion T'; subst; [contradiction|auto].
Qed.

(** The styles: a title has its own colour, else that of the line it stands in, else
    that of the text, and its own background, else that of the widget. *)
Definition first_given {A} (l : list (option A)) (r : option A) : Prop :=
  (exists a x b, l = a ++ Some x :: b /\ Forall (eq None) a /\ r = Some x) \/ (Forall (eq None) l /\ r = None).
Lemma given_or : forall A (a : option A) l r, first_given l r -> first_given (a :: l) (or_else a r).
Proof.
  intros A [x|] l r H; cbn [or_else]. { left. exists [], x, l. repeat split; constructor. }
  destruct H as [(p & x & b & -> & F & ->)|[F ->]]; [left; exists (None :: p), x, b|right]; repeat split; auto.
Qed.
Lemma given_nil : forall A, first_given (A := A) [] None.
Proof. intros A. right. split; constructor. Qed.
Theorem C118_style : forall (C : Type) (fade : C -> C) k,
  (exists c, first_given [c_title_color k; c_top_color k; c_color k] c /\ y_fg (title_style fade k) = option_map fade c) /\
  first_given [c_title_background k; c_background k] (y_bg (title_style fade k)) /\ y_flags (title_style fade k) = c_title_style k /\
  (exists c, first_given [c_sub_color k; c_bottom_color k; c_color k] c /\ y_fg (subtitle_style fade k) = option_map fade c) /\
  first_given [c_sub_background k; c_background k] (y_bg (subtitle_style fade k)) /\ y_flags (subtitle_style fade k) = c_sub_style k.
Proof.
  intros C fade k. assert (O : forall A (a : option A), first_given [a] a). { intros A a. pose proof (given_or A a [] None (given_nil A)) as H. destruct a; exact H. }
  repeat split; try (eexists; split; [|reflexivity]); repeat apply given_or; apply O.
Qed.

Section Props.
Variable gr : text -> list text.
Variable gw : text -> nat.
Variable lower : text -> text.
Variable known_color : text -> bool.
Context {C : Type}.
Variable rgb : color -> C.
Variable fade : C -> C.
Variable usize_max : nat.
Hypothesis Hgr : forall t, concat (gr t) = t.
Hypothesis Hne : forall t g, In g (gr t) -> g <> [].
Hypothesis Hmax : 0 < usize_max.
Notation parse := (Markup_Model.parse lower known_color).
Notation label := (label gr gw lower known_color rgb usize_max).
Notation fair := (fair gr gw usize_max).
Notation drawn_row := (drawn_row gr gw lower known_color rgb fade usize_max).
Notation strp := (@strip text (@sty C) meta).

Lemma label_good : forall st t (c : @content (@sty C) meta), t <> [] ->
  content_of lower known_color (conv rgb) (fun m : meta => m) true t st = Ok c ->
  aligned (spans_of c) 0 (c_text c) -> fair (c_text c) ->
  forall q l, title_line 0 (split_char 10%Z (c_text c)) q l ->
  exists s, label true st (Some t) = Ok (Some s) /\ good gr gw sty_apply sty_default [] meta_extend (fun s _ => s) c q l s.
Proof.
  intros st t c NE E AL F q l TL.
  destruct (first_strip gr gw sty_apply sty_default sty_empty [] is_nil meta_extend (fun s _ => s) Hgr Hne sty_empty_default meta_empty (fun s => eq_refl) c usize_max Hmax AL F q l TL)
    as (strips & s & S1 & S2 & S3).
  exists s. split; auto. unfold Title_Model.label. cbn [negb]. destruct t as [|x t]; [congruence|]. cbn [is_nil]. rewrite E. cbn [bind]. rewrite S1, S2. reflexivity.
Qed.

(** Nothing is drawn without a border, without a title or with an empty one;
    otherwise there is something, even if it is empty. *)
Theorem C118_none : forall hb st o, label hb st o = Ok None <-> hb = false \/ o = None \/ o = Some [].
Proof.
  intros hb st o. unfold Title_Model.label. split.
  - destruct hb; cbn [negb]; auto. destruct o as [[|x t]|]; cbn [is_nil]; auto. intros E. exfalso.
    destruct (content_of _ _ _ _ _ _ _) as [c| |]; cbn [bind] in E; try discriminate. destruct (wrap _ _ _ _ _ _ _ _ _ _ _) as [strips|] eqn:W; [|discriminate].
    unfold Wrap_Model.wrap, wrap_overflow in W. destruct (usize_max =? 0). { inversion W; subst. discriminate. }
    destruct (wrap_lines _ _ _ _ _ _ _ _ _ _ _ _ _ _ _) as [l|]; cbn [option_map] in W; [|discriminate]. destruct l as [|a l]; inversion W; subst; discriminate.
  - intros [-> | [-> | ->]]; auto. destruct hb; auto. destruct hb; auto.
Qed.

Lemma seen_plain : forall (s : strp) (c : @content (@sty C) meta) st t, c_style c = Some st -> c_spans c = None ->
  view sty_default s = should_look sty_apply sty_default [] meta_extend (fun s _ => s) c 0 t -> seen s = map (fun x => (x, st)) t.
Proof.
  intros s [ct cs cp] st t E1 E2 V. cbn in E1, E2. subst cs cp. unfold seen. rewrite V. unfold Wrap_Spec.should_look, Wrap_Spec.spans_of. cbn [c_style c_spans look]. clear V. generalize 0.
  induction t as [|x t IH]; intros p; [reflexivity|]. cbn [painted map fst overlay gather]. f_equal. apply IH.
Qed.

(** A title of markup: its tags are left out.  The line is shown in the style of the
    title; without tags the spaces between its words become one each and those around
    them go, with tags the text is kept but for spaces at the end, and every character
    has what its tags say. *)
Theorem C118_label : forall st t m q l, t <> [] -> parse t = Ok m -> fair (pm_text m) -> title_line 0 (split_char 10%Z (pm_text m)) q l ->
  exists s, label true st (Some t) = Ok (Some s) /\ strip_ok gw s /\
    (pm_spans m = [] -> seen s = map (fun x => (x, st)) (spaced (split_ws l))) /\
    (pm_spans m <> [] -> exists shown, without_end l shown /\ dressed_text rgb st m q shown (seen s)).
Proof.
  intros st t m q l NE P F TL. destruct (label_good st t (from_parsed (conv rgb) (fun m : meta => m) m st) NE) with (q := q) (l := l) as (s & S1 & S2 & _ & S3 & S4); auto.
  - unfold content_of. rewrite P. reflexivity.
  - apply (markup_aligned lower known_color (conv rgb) (fun m : meta => m) t m st P).
  - exists s. split; auto. split; auto. unfold from_parsed in S3, S4. cbn [c_spans c_style] in S3, S4. split.
    + intros E. rewrite E in S3. cbn [is_nil] in S3. eapply (seen_plain s (Content (pm_text m) (Some st) None)); [reflexivity|reflexivity|]. apply S3. reflexivity.
    + intros E. destruct (pm_spans m) as [|x r] eqn:EP; [congruence|]. cbn [is_nil] in S4. destruct S4 as (sh & A & B); [discriminate|].
      exists sh. split; auto.
      assert (B2 : seen s = map fst (painted sty_apply ([] : meta) meta_extend (fun s _ => s) st (map (conv_span (conv rgb) (fun m : meta => m)) (pm_spans m)) q sh)).
      { rewrite EP. exact (f_equal (map fst) B). } rewrite B2. apply painted_dressed.
Qed.
(** Markup with mistakes is shown as it was given. *)
Theorem C118_invalid : forall st t q l, t <> [] -> parse t = Err -> fair t -> title_line 0 (split_char 10%Z t) q l ->
  exists s, label true st (Some t) = Ok (Some s) /\ strip_ok gw s /\ seen s = map (fun x => (x, st)) (spaced (split_ws l)).
Proof.
  intros st t q l NE P F TL. destruct (label_good st t (Content t (Some st) None) NE) with (q := q) (l := l) as (s & S1 & S2 & _ & S3 & _); auto.
  - unfold content_of. rewrite P. reflexivity.
  - intros x y [].
  - exists s. split; auto. split; auto. eapply seen_plain; [| |apply S3]; reflexivity.
Qed.
(** Any text at all can be shown as it is: escape it first. *)
Theorem C118_escaped : forall st t q l, t <> [] -> fair t -> title_line 0 (split_char 10%Z t) q l ->
  exists s, label true st (Some (escape_markup t)) = Ok (Some s) /\ seen s = map (fun x => (x, st)) (spaced (split_ws l)).
Proof.
  intros st t q l NE F TL. pose proof (C18_escape_roundtrip lower known_color t) as P.
  destruct (C118_label st (escape_markup t) (Parsed t []) q l) as (s & S1 & _ & S2 & _); auto.
  - intros E. rewrite E in P. cbn in P. inversion P. congruence.
  - exists s. split; auto.
Qed.

(** Titles the characters of which are one cell wide each. *)
Definition title_text (t u : text) : Prop := (exists m, parse t = Ok m /\ u = pm_text m) \/ (parse t = Err /\ u = t).
Definition easy (t : text) : Prop := exists u, title_text t u /\ fair u /\ letters gr gw u /\ one_cell_each gw u.
Lemma easy_label : forall hb st o, (forall t, o = Some t -> easy t) -> exists lab, label hb st o = Ok lab /\ plain_opt gw lab /\
  forall s, lab = Some s -> map (fun x : @cell text (@sty C) meta => fst (fst x)) (cells s) = map (fun p => [fst p]) (seen s).
Proof.
  intros hb st o EZ. assert (N : label hb st o = Ok None -> exists lab, label hb st o = Ok lab /\ plain_opt gw lab /\
    forall s, lab = Some s -> map (fun x : @cell text (@sty C) meta => fst (fst x)) (cells s) = map (fun p => [fst p]) (seen s)).
  { intros E. exists None. split; auto. split; intros s X; discriminate. }
  destruct hb; [|apply N, C118_none; auto]. destruct o as [T|]; [|apply N, C118_none; auto].
  assert (NE : T = [] \/ T <> []) by (destruct T; [auto|right; discriminate]). destruct NE as [NE|NE]; [subst T; apply N, C118_none; auto|]. clear N. destruct (EZ T eq_refl) as (u & TT & F & L & O).
  destruct (title_line_ex (split_char 10%Z u) 0) as (q & l & TL).
  assert (G : exists (c : @content (@sty C) meta), c_text c = u /\ content_of lower known_color (conv rgb) (fun m : meta => m) true T st = Ok c /\ aligned (spans_of c) 0 (c_text c)).
  { destruct TT as [(m & P & ->)|[P ->]].
    - exists (from_parsed (conv rgb) (fun m : meta => m) m st). split; auto. split. { unfold content_of. rewrite P. reflexivity. } apply (markup_aligned lower known_color (conv rgb) (fun m : meta => m) T m st P).
    - exists (Content T (Some st) None). split; auto. split. { unfold content_of. rewrite P. reflexivity. } intros y z []. }
  destruct G as (c & <- & CE & AL). destruct (label_good st T c NE CE AL F q l TL) as (s & S1 & S2 & S3 & _).
  exists (Some s). split; auto.
  assert (IL : incl l (c_text c) /\ ~ In 10%Z l).
  { assert (X : l = [] \/ In l (split_char 10%Z (c_text c))). { clear - TL. induction TL; auto. { right; left; auto. } destruct IHTL; auto. right; right; auto. }
    destruct X as [-> | X]. { split; [intros y []|intros []]. } split; [eapply split_char_incl; exact X|eapply split_char_none; exact X]. }
  destruct IL as [IL NL]. assert (L2 : letters gr gw (32%Z :: l)).
  { destruct L as [L0 L1]. split; auto. intros y Y. apply L1. intros z Z. destruct (Y z Z) as [<-|[<-|W]]; [left|left|right]; auto. }
  destruct (letters_cells gr gw Hgr (32%Z :: l) s L2 S3) as [G1 G2].
  assert (TX : strip_text s = map fst (seen s)).
  { rewrite (view_text sty_default). unfold seen. rewrite map_map. reflexivity. }
  split.
  - intros s' X. inversion X; subst s'. split; auto. unfold all_narrow. apply Forall_forall. intros y Y.
    apply (in_map (fun x : @cell text (@sty C) meta => fst (fst x))) in Y. rewrite G1 in Y. apply in_map_iff in Y. destruct Y as (ch & E & I). rewrite <- E.
    destruct (G2 ch I) as [<-|I2]. { destruct L as [L0 _]. exact L0. } apply O; auto. intros ->. auto.
  - intros s' X. inversion X; subst s'. rewrite G1, TX, map_map. reflexivity.
Qed.
(** In a box of four sides the title is in the top row, between blanks, placed as
    aligned, the subtitle in the bottom row; what does not fit is cut with an
    ellipsis (C49). *)
Theorem C118_on_border : forall c k w h wd content, glyphs gw [32%Z] [8230%Z] [9472%Z] -> boxes_ok gw c -> no_outline c -> 3 <= wd -> 0 < h ->
  e_left (rc_border c) = true -> e_right (rc_border c) = true ->
  (forall t, t_title w = Some t -> easy t) -> (forall t, t_sub w = Some t -> easy t) ->
  exists title sub, label true (title_style fade k) (t_title w) = Ok title /\ label true (subtitle_style fade k) (t_sub w) = Ok sub /\
    (forall s, title = Some s \/ sub = Some s -> map (fun x : @cell text (@sty C) meta => fst (fst x)) (cells s) = map (fun p => [fst p]) (seen s)) /\
    let '(top, _, bottom) := rc_box c in
    (e_top (rc_border c) = true -> exists r, drawn_row c k w 0 h wd content = Ok r /\
       edge_row ([] : meta) [32%Z] [8230%Z] top wd (rc_title_align c) title (cells r)) /\
    (e_bottom (rc_border c) = true -> (e_top (rc_border c) = true -> 2 <= h) -> exists r, drawn_row c k w (h - 1) h wd content = Ok r /\
       edge_row ([] : meta) [32%Z] [8230%Z] bottom wd (rc_subtitle_align c) sub (cells r)).
Proof.
  intros c k w h wd content G B O W H EL ER E1 E2.
  destruct (easy_label true (title_style fade k) (t_title w) E1) as (title & T1 & T2 & T3). destruct (easy_label true (subtitle_style fade k) (t_sub w) E2) as (sub & U1 & U2 & U3).
  exists title, sub. split; auto. split; auto. split. { intros s [X|X]; auto. }
  pose proof (C49_border_rows (Mt := meta) gw [] [32%Z] [8230%Z] [9472%Z] sty_default c h wd content title sub G B T2 U2 W H EL ER O) as K.
  assert (HB : has_border c = true) by (unfold has_border, any_edge; rewrite EL; apply orb_true_r).
  unfold Title_Model.drawn_row. rewrite HB, T1, U1. cbn [bind]. destruct (rc_box c) as [[top mid] bottom]. destruct K as [K1 K2]. split.
  - intros ET. eexists. split; [reflexivity|]. auto.
  - intros EB H2. eexists. split; [reflexivity|]. auto.
Qed.
End Props.
Print Assumptions C118_kept. Print Assumptions C118_builder. Print Assumptions C118_set_refuted. Print Assumptions C118_scroll_refuted. Print Assumptions C118_line.
Print Assumptions C118_style. Print Assumptions C118_none. Print Assumptions C118_label. Print Assumptions C118_invalid. Print Assumptions C118_escaped. Print Assumptions C118_on_border.

(** ** What titles do not do *)
Definition w_gr (t : text) : list text := map (fun c => [c]) t.
Definition w_gw (t : text) : nat := 1.
Definition w_label := label w_gr w_gw (fun t => t) w_known (fun c : color => c) 1000.
Definition w_text (r : res (option (@strip text (@sty color) meta))) : option text := match r with Ok (Some s) => Some (strip_text s) | _ => None end.
Definition w_str (s : string) : text := str s.
(** Spaces within a title are kept or not depending on whether a part of it has a style. *)
Theorem C118_spaces_refuted : exists st t u, (exists m, parse (fun t => t) w_known u = Ok m /\ pm_text m = t) /\ parse (fun t => t) w_known t = Ok (Parsed t []) /\
  w_text (w_label true st (Some u)) = Some t /\ w_text (w_label true st (Some t)) <> Some t.
Proof.
  exists sty_default, (w_str "a  b"), (w_str "[bold]a[/]  b"). split. { eexists. split; reflexivity. } split; [reflexivity|]. split; [reflexivity|]. vm_compute. congruence.
Qed.
(** Only one line of a title is shown. *)
Theorem C118_second_line_refuted : exists st, w_text (w_label true st (Some (w_str "a" ++ [10%Z] ++ w_str "b"))) = Some (w_str "a").
Proof. exists sty_default. reflexivity. Qed.
(** A title of blanks is not left out like an empty one: it cuts a gap into the border. *)
Definition w_seg (t : string) : @segment text (@sty color) meta := Segment [str t] 1 None [].
Definition w_box : @box_row text (@sty color) meta * @box_row text (@sty color) meta * @box_row text (@sty color) meta :=
  ((w_seg "+", w_seg "-", w_seg "+"), (w_seg "|", w_seg " ", w_seg "|"), (w_seg "+", w_seg "=", w_seg "+")).
Definition w_cache : @cache text (@sty color) meta :=
  Cache (Edges true true true true) w_box (Edges 0 0 0 0) (Edges false false false false) w_box HLeft HRight None.
Definition w_css : @css color := Css (Some (Rgb 1 2 3)) None (Flags true false false false false false) None None no_flags None None None None.
Definition w_row (w : titles) (y : nat) : option text :=
  match drawn_row w_gr w_gw (fun t => t) w_known (fun c : color => c) (fun c => c) 1000 w_cache w_css w y 4 12 None with Ok s => Some (strip_text s) | _ => None end.
Theorem C118_blank_refuted : w_row (Titles (Some (w_str "  ")) None false) 0 = Some (w_str "+-  -------+") /\
  w_row (Titles (Some []) None false) 0 = Some (w_str "+----------+").
Proof. split; vm_compute; reflexivity. Qed.
(** A title can bring the program down. *)
Theorem C118_panic_refuted : exists t, forall gr gw (rgb : color -> color) usize_max st,
  label gr gw (fun t => t) w_known rgb usize_max true st (Some t) = Panic.
Proof. exists (str "[#abcd" ++ [233%Z] ++ str "]x[/]"). intros. reflexivity. Qed.
Print Assumptions C118_spaces_refuted. Print Assumptions C118_second_line_refuted. Print Assumptions C118_blank_refuted. Print Assumptions C118_panic_refuted.

(** ** Examples *)
Example titles_drawn : let w := run KContainer new_titles [WithTitle (w_str "no"); Clean; SetTitle (w_str "[red]My[/] app"); WithSub (w_str "v[1")] in
  border_title KContainer w = Some (w_str "[red]My[/] app") /\ t_dirty w = true /\
  w_row w 0 = Some (w_str "+- My app -+") /\ w_row w 3 = Some (w_str "+==== v[1 =+").
Proof. vm_compute. repeat split. Qed.
Example title_styled : let st := title_style (fun c : color => c) w_css in
  exists s, w_label true st (Some (w_str "[red]a[/] b")) = Ok (Some s) /\
  seen s = [(97%Z, Sty (Some (Named (str "red"))) None (y_flags st)); (32%Z, st); (98%Z, st)] /\ f_bold (y_flags st) = true.
Proof. eexists. vm_compute. repeat split. Qed.
Example title_long : w_row (run KStatic new_titles [WithTitle (w_str "a long title")]) 0 = Some (w_str "+- a lon" ++ [8230%Z] ++ w_str " -+").
Proof. vm_compute. reflexivity. Qed.
Example title_second : exists q, title_line 0 (split_char 10%Z (w_str "  " ++ [10%Z] ++ w_str "ab ")) q (w_str "ab ") /\ q = 3 /\ without_end (w_str "ab ") (w_str "ab").
Proof.
  exists 3. split; [|split; auto].
  - apply line_skip. { split; [discriminate|repeat constructor]. } apply line_here. intros [_ B]. inversion B. discriminate.
  - exists (w_str " "). split; [reflexivity|]. split; [repeat constructor|]. right. exists (w_str "a"), 98%Z. auto.
Qed.
Example easy_met : easy w_gr w_gw (fun t => t) w_known 1000 (w_str "[red]My[/] app").
Proof.
  exists (w_str "My app"). split. { left. eexists. split; reflexivity. } split.
  - intros l [<-|[]]. vm_compute. split; [repeat constructor|lia].
  - split. { split; [reflexivity|]. intros t _. reflexivity. } intros c _ _. reflexivity.
Qed.
