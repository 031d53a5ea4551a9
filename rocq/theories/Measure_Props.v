(** C101, C102: how large containers of automatic size ask to be. *)
From Coq Require Import ZArith QArith Qround List Bool Lia Lqa.
From Verif Require Import Fraction_Model Fraction_Spec Canvas_Model Layout_Model Layout_Spec Layout_Proofs Column_Proofs Layout_Props Sizes_Spec Sizes_Proofs Grid_Model Arrange_Model Measure_Model Measure_Spec Measure_Proofs.
Import ListNotations.
Open Scope Z_scope.

(** ** C101: containers *)

(** A column of automatic height is as high as the arranged column of its
    children, margins included, plus border and padding. *)
Theorem C101_column_height : forall st children a v, let cs := shown children in
  automatic (l_height st) -> reasonable st -> Forall nonneg_child cs -> nonneg_region a -> nonneg_viewport v -> Forall whole_vertical_margins cs ->
  Forall (fun c => ch_dh c <= 1000) cs -> Forall2 gets_height cs (vertical_arrange cs a v) ->
  snd (desired_size st LVertical children) = Z.min (around_height st + (end_below (rg_y a) cs (vertical_arrange cs a v) - rg_y a)) 65535.
Proof.
  intros st children a v cs Au R N A V W S G.
  assert (N' : Forall nonneg_margins cs) by (eapply Forall_impl; [|exact N]; apply nonneg_margins_of).
  unfold desired_size. cbn [snd]. rewrite own_auto by auto. rewrite intrinsic_height_is by auto. fold cs. rewrite no_fill by auto. cbn [along_h].
  rewrite column_end by auto. unfold sat. f_equal. rewrite (stack_ext m_top m_bottom size_h ch_dh); [lia|].
  rewrite Forall_forall in *. intros c I. unfold size_h. apply capped_small. split; [apply N'; auto|auto].
Qed.
Print Assumptions C101_column_height.

(** A row of automatic width is as wide as the arranged row. *)
Theorem C101_row_width : forall st children a v, let cs := shown children in
  automatic (l_width st) -> reasonable st -> Forall nonneg_child cs ->
  Forall (fun c => ch_dw c <= 1000) cs -> Forall2 gets_width cs (horizontal_arrange cs a v) ->
  fst (desired_size st LHorizontal children) = Z.min (around_width st + (end_right (rg_x a) cs (horizontal_arrange cs a v) - rg_x a)) 65535.
Proof.
  intros st children a v cs Au R N S G.
  assert (N' : Forall nonneg_margins cs) by (eapply Forall_impl; [|exact N]; apply nonneg_margins_of).
  unfold desired_size. cbn [fst]. rewrite own_auto by auto. rewrite intrinsic_width_is by auto. fold cs. rewrite no_fill by auto. cbn [along_w].
  rewrite row_end by auto. unfold sat. f_equal. rewrite (stack_ext ml mr size_w ch_dw); [lia|].
  rewrite Forall_forall in *. intros c I. unfold size_w. apply capped_small. split; [apply N'; auto|auto].
Qed.
Print Assumptions C101_row_width.

(** Across, it is as large as its largest child with margins. *)
Theorem C101_column_width : forall st children, let cs := shown children in
  automatic (l_width st) -> reasonable st -> Forall nonneg_child cs -> Forall (fun c => ch_dw c <= 1000) cs ->
  fst (desired_size st LVertical children) = Z.min (around_width st + largest (fun c => ml c + ch_dw c + mr c) cs) 65535.
Proof.
  intros st children cs Au R N S.
  assert (N' : Forall nonneg_margins cs) by (eapply Forall_impl; [|exact N]; apply nonneg_margins_of).
  unfold desired_size. cbn [fst]. rewrite own_auto by auto. rewrite intrinsic_width_is by auto. fold cs. rewrite no_fill by auto. cbn [along_w].
  unfold sat. f_equal. f_equal. apply largest_ext. rewrite Forall_forall in *. intros c I. unfold size_w. rewrite capped_small; auto. split; [apply N'; auto|auto].
Qed.
Print Assumptions C101_column_width.
Theorem C101_row_height : forall st children, let cs := shown children in
  automatic (l_height st) -> reasonable st -> Forall nonneg_child cs -> Forall (fun c => ch_dh c <= 1000) cs ->
  snd (desired_size st LHorizontal children) = Z.min (around_height st + largest (fun c => m_top c + ch_dh c + m_bottom c) cs) 65535.
Proof.
  intros st children cs Au R N S.
  assert (N' : Forall nonneg_margins cs) by (eapply Forall_impl; [|exact N]; apply nonneg_margins_of).
  unfold desired_size. cbn [snd]. rewrite own_auto by auto. rewrite intrinsic_height_is by auto. fold cs. rewrite no_fill by auto. cbn [along_h].
  unfold sat. f_equal. f_equal. apply largest_ext. rewrite Forall_forall in *. intros c I. unfold size_h. rewrite capped_small; auto. split; [apply N'; auto|auto].
Qed.
Print Assumptions C101_row_height.

(** Children with heights (widths) of their own do get the sizes they desire. *)
Theorem C101_column_gets : forall cs a v, Forall nonneg_child cs -> Forall whole_vertical_margins cs -> Forall plain_height cs ->
  Forall2 gets_height cs (vertical_arrange cs a v).
Proof. exact column_gets. Qed.
Print Assumptions C101_column_gets.
Theorem C101_row_gets : forall cs a v, Forall nonneg_child cs -> Forall plain_width cs -> Forall2 gets_width cs (horizontal_arrange cs a v).
Proof. exact row_gets. Qed.
Print Assumptions C101_row_gets.

(** So in the space it asks for, nothing is cut off: when the room inside border
    and padding is what it asked for, every child and its margins are inside. *)
Theorem C101_column_inside : forall st children a v c p, let cs := shown children in
  automatic (l_height st) -> reasonable st -> Forall nonneg_child cs -> nonneg_region a -> nonneg_viewport v -> Forall whole_vertical_margins cs ->
  Forall (fun c => ch_dh c <= 1000) cs -> Forall2 gets_height cs (vertical_arrange cs a v) ->
  snd (desired_size st LVertical children) < 65535 -> rg_h a = snd (desired_size st LVertical children) - around_height st ->
  In (c, p) (combine cs (vertical_arrange cs a v)) ->
  rg_y a <= p_top p - m_top c /\ p_bottom p + m_bottom c <= rg_y a + rg_h a.
Proof.
  intros st children a v c p cs Au R N A V W S G Lt Hh I.
  pose proof (C101_column_height st children a v Au R N A V W S G) as E. fold cs in E.
  assert (N' : Forall nonneg_margins cs) by (eapply Forall_impl; [|exact N]; apply nonneg_margins_of).
  pose proof (forall2_combine _ _ _ _ _ G) as G'.
  destruct (chain_bounds p_top p_bottom m_top m_bottom ch_dh cs (vertical_arrange cs a v) (rg_y a)) with (c := c) (p := p) as (Lo & Hi); auto.
  - eapply Forall_impl; [|exact N']. intros d D. destruct (margins_floor d D) as (?&?&?&?). destruct D as (?&?&?&?&?&?). auto.
  - intros d q D. unfold p_bottom. fold (p_top q) (p_height q). f_equal. apply (G' d q D).
  - apply column_chain; auto.
  - split.
    + destruct cs as [|c0 cs0] eqn:Ecs; [contradiction|]. destruct (column_first c0 cs0 a v (Forall_inv W)) as (p0 & ps & E0 & _ & T). rewrite E0 in Lo. cbn [combine] in Lo. lia.
    + fold (end_below (rg_y a) cs (vertical_arrange cs a v)) in Hi. lia.
Qed.
Print Assumptions C101_column_inside.
Theorem C101_row_inside : forall st children a v c p, let cs := shown children in
  automatic (l_width st) -> reasonable st -> Forall nonneg_child cs ->
  Forall (fun c => ch_dw c <= 1000) cs -> Forall2 gets_width cs (horizontal_arrange cs a v) ->
  fst (desired_size st LHorizontal children) < 65535 -> rg_w a = fst (desired_size st LHorizontal children) - around_width st ->
  In (c, p) (combine cs (horizontal_arrange cs a v)) ->
  rg_x a <= p_left p - ml c /\ p_right p + mr c <= rg_x a + rg_w a.
Proof.
  intros st children a v c p cs Au R N S G Lt Hh I.
  pose proof (C101_row_width st children a v Au R N S G) as E. fold cs in E.
  assert (N' : Forall nonneg_margins cs) by (eapply Forall_impl; [|exact N]; apply nonneg_margins_of).
  pose proof (forall2_combine _ _ _ _ _ G) as G'.
  destruct (chain_bounds p_left p_right ml mr ch_dw cs (horizontal_arrange cs a v) (rg_x a)) with (c := c) (p := p) as (Lo & Hi); auto.
  - eapply Forall_impl; [|exact N']. intros d D. destruct (margins_floor d D) as (?&?&?&?). destruct D as (?&?&?&?&?&?). auto.
  - intros d q D. unfold p_right. fold (p_left q) (p_width q). f_equal. apply (G' d q D).
  - apply row_chain; auto.
  - split.
    + destruct cs as [|c0 cs0] eqn:Ecs; [contradiction|]. destruct (row_first c0 cs0 a v (Forall_inv N)) as (p0 & ps & E0 & _ & T). rewrite E0 in Lo. cbn [combine] in Lo. lia.
    + fold (end_right (rg_x a) cs (horizontal_arrange cs a v)) in Hi. lia.
Qed.
Print Assumptions C101_row_inside.

(** A container of automatic size with a child that fills, fills. *)
Theorem C101_fill_width : forall st k children c, automatic (l_width st) -> In c (shown children) -> ch_dw c = 65535 ->
  fst (desired_size st k children) = 65535.
Proof.
  intros st k children c Au I E. unfold desired_size. cbn [fst]. rewrite own_auto by auto.
  destruct children as [|x l]; [contradiction|]. cbn [intrinsic_size fst]. destruct (loop_fill (x :: l) no_sums) as (-> & _).
  rewrite (some_fill ch_dw _ c) by auto. reflexivity.
Qed.
Print Assumptions C101_fill_width.
Theorem C101_fill_height : forall st k children c, automatic (l_height st) -> In c (shown children) -> ch_dh c = 65535 ->
  snd (desired_size st k children) = 65535.
Proof.
  intros st k children c Au I E. unfold desired_size. cbn [snd]. rewrite own_auto by auto.
  destruct children as [|x l]; [contradiction|]. cbn [intrinsic_size snd]. destruct (loop_fill (x :: l) no_sums) as (_ & ->).
  rewrite (some_fill ch_dh _ c) by auto. reflexivity.
Qed.
Print Assumptions C101_fill_height.

(** A size of its own is taken as it is; a relative one fills. *)
Theorem C101_own_size : forall st k children,
  (forall q, l_width st = Some (Scalar q Cells) -> (0 <= q)%Q -> fst (desired_size st k children) = Z.min (Qfloor q) 65535) /\
  (forall q, l_height st = Some (Scalar q Cells) -> (0 <= q)%Q -> snd (desired_size st k children) = Z.min (Qfloor q) 65535) /\
  (relative (l_width st) -> fst (desired_size st k children) = 65535) /\
  (relative (l_height st) -> snd (desired_size st k children) = 65535).
Proof.
  intros st k children. unfold desired_size. cbn [fst snd]. repeat split.
  - intros q E Q. rewrite E. cbn [own_or s_unit s_value]. apply cells_sat; auto.
  - intros q E Q. rewrite E. cbn [own_or s_unit s_value]. apply cells_sat; auto.
  - destruct (l_width st) as [s|]; [|contradiction]. intros (A & B). cbn [own_or]. destruct (s_unit s); try reflexivity; contradiction.
  - destruct (l_height st) as [s|]; [|contradiction]. intros (A & B). cbn [own_or]. destruct (s_unit s); try reflexivity; contradiction.
Qed.
Print Assumptions C101_own_size.

(** Children that do not take part in the layout do not count. *)
Theorem C101_hidden : forall st k children, reasonable st -> Forall nonneg_child (shown children) ->
  desired_size st k children = desired_size st k (map (fun c => (true, c)) (shown children)).
Proof.
  intros st k children R N.
  assert (E : shown (map (fun c => (true, c)) (shown children)) = shown children).
  { generalize (shown children). intros l. induction l as [|c l IH]; [reflexivity|]. cbn [map]. rewrite shown_cons, IH. reflexivity. }
  assert (N' : Forall nonneg_margins (shown children)) by (eapply Forall_impl; [|exact N]; apply nonneg_margins_of).
  unfold desired_size. rewrite !intrinsic_height_is, !intrinsic_width_is, E by (rewrite ?E; auto). reflexivity.
Qed.
Print Assumptions C101_hidden.

(** *** A case: two texts and a hidden one in a bordered, padded column. *)
Definition box_ (w h : Z) (s : lstyle) : child := Child 0 s w h (fun _ => h).
Definition frame : lstyle :=
  LStyle None (Some (Scalar 1 Auto)) None None None None 0 0 0 0 1 2 1 2 true true true true false None false None None None 1 1.
Definition kids : list kid :=
  [(true, box_ 5 3 (with_margin 1 2 3 4 base_style)); (false, box_ 90 90 base_style); (true, box_ 7 2 (with_margin 2 0 1 0 (with_height (cells 2) base_style)))].
Definition room : region := Region 10 20 11 10.
Example C101_nonvacuous :
  desired_size frame LVertical kids = (17, 14) /\ desired_size frame LHorizontal kids = (24, 11) /\
  map p_top (vertical_arrange (shown kids) room (Viewport 80 24)) = [21; 27] /\ end_below 20 (shown kids) (vertical_arrange (shown kids) room (Viewport 80 24)) = 30.
Proof. repeat split; reflexivity. Qed.
Lemma kids_nonneg : Forall nonneg_child (shown kids).
Proof. repeat constructor; simpl; try lra; try lia. Qed.
Example C101_hypotheses :
  automatic (l_height frame) /\ automatic (l_width frame) /\ reasonable frame /\ Forall nonneg_child (shown kids) /\ Forall whole_vertical_margins (shown kids) /\
  Forall plain_height (shown kids) /\ Forall plain_width (shown kids) /\ Forall (fun c => ch_dh c <= 1000 /\ ch_dw c <= 1000) (shown kids) /\
  nonneg_region room /\ rg_h room = snd (desired_size frame LVertical kids) - around_height frame.
Proof.
  split; [reflexivity|]. split; [exact I|]. split.
  { repeat split; try (cbn; lra); vm_compute; discriminate. }
  split; [exact kids_nonneg|]. split.
  { constructor; [split; [exists 1|exists 3]; reflexivity|]. constructor; [split; [exists 2|exists 1]; reflexivity|constructor]. }
  split.
  { constructor; [|constructor; [|constructor]]; (split; [split; reflexivity|]); (split; [vm_compute; discriminate|]); cbn; auto. }
  split.
  { constructor; [|constructor; [|constructor]]; (split; [split; reflexivity|]); (split; [vm_compute; discriminate|]); cbn; auto. }
  split.
  { repeat constructor; cbn; lia. }
  split; [split; cbn; lia|]. reflexivity.
Qed.

(** *** Where a container of automatic size asks for too little or too much *)
(** A child higher than 1000 rows counts 1000. *)
Theorem C101_cap_refuted :
  let c := box_ 5 1200 base_style in
  map p_height (vertical_arrange [c] room (Viewport 80 24)) = [1200] /\ snd (desired_size base_style LVertical [(true, c)]) = 1000.
Proof. split; reflexivity. Qed.
Print Assumptions C101_cap_refuted.
(** Minimum sizes of the children are not counted. *)
Definition min_height (h : scalar) (s : lstyle) : lstyle :=
  LStyle (l_width s) (l_height s) (l_min_width s) (l_max_width s) (Some h) (l_max_height s)
    (l_mt s) (l_mr s) (l_mb s) (l_ml s) (l_pt s) (l_pr s) (l_pb s) (l_pl s)
    (l_bt s) (l_br s) (l_bb s) (l_bl s) (l_content_box s) (l_dock s) (l_absolute s) (l_layer s)
    (l_offset_x s) (l_offset_y s) (l_col_span s) (l_row_span s).
Theorem C101_minimum_refuted :
  let c := box_ 5 1 (min_height (cells 6) base_style) in
  map p_height (vertical_arrange [c] room (Viewport 80 24)) = [6] /\ snd (desired_size base_style LVertical [(true, c)]) = 1.
Proof. split; reflexivity. Qed.
Print Assumptions C101_minimum_refuted.
(** A text that wraps counts its unwrapped lines. *)
Theorem C101_wrapped_refuted :
  let c := Child 0 (with_height (Scalar 1 Auto) base_style) 40 1 (fun w => if w <? 40 then 4 else 1) in
  map p_height (vertical_arrange [c] room (Viewport 80 24)) = [4] /\ snd (desired_size base_style LVertical [(true, c)]) = 1.
Proof. split; reflexivity. Qed.
Print Assumptions C101_wrapped_refuted.
(** A grid counts only its largest child, however many rows it has: its children
    are cut. *)
Theorem C101_grid_refuted :
  let c := box_ 5 3 base_style in
  let g := GStyle (Some 1%nat) None [] [] (cells 0) (cells 0) false false None in
  desired_size base_style LGrid [(true, c); (true, c)] = (5, 3) /\
  map p_height (grid_arrange g [c; c] (Region 0 0 5 3)) = [1; 2].
Proof. split; vm_compute; reflexivity. Qed.
Print Assumptions C101_grid_refuted.
(** A floating child, which takes no room in the column, is counted. *)
Definition floating_style : lstyle :=
  LStyle None None None None None None 0 0 0 0 0 0 0 0 false false false false false None true None None None 1 1.
Theorem C101_floating_refuted :
  let c := box_ 5 3 base_style in let f := box_ 5 8 floating_style in
  flow_of [c; f] = [c] /\ snd (desired_size base_style LVertical [(true, c); (true, f)]) = 11.
Proof. split; reflexivity. Qed.
Print Assumptions C101_floating_refuted.
(** A nested container with a content-box height of its own reports the height
    without its border and is laid out with it. *)
Definition content_frame : lstyle :=
  LStyle None (Some (cells 5)) None None None None 0 0 0 0 0 0 0 0 true true true true true None false None None None 1 1.
Theorem C101_content_box_refuted :
  let h := snd (desired_size content_frame LVertical []) in let c := box_ 5 h content_frame in
  map p_height (vertical_arrange [c] room (Viewport 80 24)) = [7] /\ snd (desired_size base_style LVertical [(true, c)]) = 5.
Proof. split; reflexivity. Qed.
Print Assumptions C101_content_box_refuted.

(** ** C102: scrollable containers *)
Lemma scroll_around : forall st b, reasonable st ->
  border_scroll b + padding_v st = Z.min (Qfloor (l_pt st)) 65535 + Z.min (Qfloor (l_pb st)) 65535 + (if b then 2 else 0) /\
  border_scroll b + padding_v st = scroll_around_height st b /\ border_scroll b + padding_h st = scroll_around_width st b /\
  0 <= scroll_around_height st b /\ 0 <= scroll_around_width st b.
Proof.
  intros st b (A & B & C & D & W & H). unfold padding_v, padding_h, scroll_around_width, scroll_around_height, border_scroll, around_width, around_height, one_if in *.
  rewrite !cells_sat by auto. pose proof (floor_0 _ A). pose proof (floor_0 _ B). pose proof (floor_0 _ C). pose proof (floor_0 _ D). unfold sat.
  destruct b, (l_bl st), (l_br st), (l_bt st), (l_bb st); lia.
Qed.
Lemma no_fill' : forall f cs, Forall (fun c => f c <> 65535) cs -> existsb (fun c : child => f c =? 65535) cs = false.
Proof. intros f cs H. induction H as [|c r E R IH]; cbn [existsb]; [reflexivity|]. rewrite IH, orb_false_r. apply Z.eqb_neq. auto. Qed.

(** The first margin is counted twice: once with the column and once more. *)
Theorem C102_column_height : forall st bordered children a v w h, let cs := shown children in
  automatic (l_height st) -> reasonable st -> Forall nonneg_child cs -> Forall margins_fit cs -> nonneg_region a -> nonneg_viewport v -> Forall whole_vertical_margins cs ->
  Forall (fun c => ch_dh c <> 65535) cs -> Forall2 gets_height cs (vertical_arrange cs a v) ->
  desired_scroll st bordered LVertical children = Some (w, h) ->
  h = Z.min (scroll_around_height st bordered + first_top cs + (end_below (rg_y a) cs (vertical_arrange cs a v) - rg_y a)) 65535
  \/ children = [] /\ h = scroll_around_height st bordered.
Proof.
  intros st bd children a v w h cs Au R N M A V W F G D.
  assert (N' : Forall nonneg_margins cs) by (eapply Forall_impl; [|exact N]; apply nonneg_margins_of).
  destruct (scroll_around st bd R) as (_ & EH & EW & P1 & P2).
  unfold desired_scroll in D. destruct (intrinsic_scroll st bd LVertical children) as [[iw ih]|] eqn:Ei; [|discriminate]. injection D as Dw Dh.
  cbn [snd] in Dh. rewrite own_auto in Dh by auto. subst ih.
  destruct children as [|x l]; [right; split; auto; cbn in Ei; injection Ei as _ <-; exact EH|]. left.
  unfold intrinsic_scroll in Ei. 
  destruct (scroll_column_all (x :: l) N' M) as (E1 & E2 & E3). cbv zeta in E1, E2, E3. fold cs in E1, E2, E3.
  destruct (add16 (sm_total_h _) _) as [th|]; [|discriminate]. apply agrees_eq in E2.
  destruct (sm_max_w _) as [tw|]; [|discriminate]. rewrite EH, E1 in Ei.
  destruct (add16 (Some (scroll_around_height st bd)) _) as [ex|] eqn:Ex; [|discriminate].
  apply add16_some in Ex as (a1 & a2 & X1 & X2 & -> & _). injection X1 as <-. injection X2 as <-.
  destruct (scroll_fill LVertical (x :: l) no_ssums) as (FW & FH). cbn [sm_fill_w sm_fill_h no_ssums orb] in FW, FH. fold cs in FW, FH. rewrite FW, FH in Ei. injection Ei as _ <-. rewrite no_fill' by auto.
  rewrite column_end by auto. unfold sadd, u16_max. f_equal. rewrite E2.
  rewrite (stack_ext m_top m_bottom ssize_h ch_dh); [lia|]. rewrite Forall_forall in *. intros c I. unfold ssize_h, capped_scroll, u16_max.
  destruct (ch_dh c =? 65535) eqn:Q; [apply Z.eqb_eq in Q; exfalso; apply (F c); auto|reflexivity].
Qed.
Print Assumptions C102_column_height.
Theorem C102_row_width : forall st bordered children a v w h, let cs := shown children in
  automatic (l_width st) -> reasonable st -> Forall nonneg_child cs -> Forall margins_fit cs ->
  Forall (fun c => ch_dw c <> 65535) cs -> Forall2 gets_width cs (horizontal_arrange cs a v) ->
  desired_scroll st bordered LHorizontal children = Some (w, h) ->
  w = Z.min (scroll_around_width st bordered + first_left cs + (end_right (rg_x a) cs (horizontal_arrange cs a v) - rg_x a)) 65535
  \/ children = [] /\ w = scroll_around_width st bordered.
Proof.
  intros st bd children a v w h cs Au R N M F G D.
  assert (N' : Forall nonneg_margins cs) by (eapply Forall_impl; [|exact N]; apply nonneg_margins_of).
  destruct (scroll_around st bd R) as (_ & EH & EW & P1 & P2).
  unfold desired_scroll in D. destruct (intrinsic_scroll st bd LHorizontal children) as [[iw ih]|] eqn:Ei; [|discriminate]. injection D as Dw Dh.
  cbn [fst] in Dw. rewrite own_auto in Dw by auto. subst iw.
  destruct children as [|x l]; [right; split; auto; cbn in Ei; injection Ei as <- _; exact EW|]. left.
  unfold intrinsic_scroll in Ei. 
  destruct (scroll_row_all (x :: l) N' M) as (E1 & E2 & E3). cbv zeta in E1, E2, E3. fold cs in E1, E2, E3.
  destruct (add16 (sm_total_w _) _) as [th|]; [|discriminate]. apply agrees_eq in E2.
  destruct (sm_max_h _) as [tw|]; [|discriminate]. rewrite EW, E1 in Ei.
  destruct (add16 (Some (scroll_around_width st bd)) _) as [ex|] eqn:Ex; [|discriminate].
  apply add16_some in Ex as (a1 & a2 & X1 & X2 & -> & _). injection X1 as <-. injection X2 as <-.
  destruct (scroll_fill LHorizontal (x :: l) no_ssums) as (FW & FH). cbn [sm_fill_w sm_fill_h no_ssums orb] in FW, FH. fold cs in FW, FH. rewrite FW, FH in Ei. injection Ei as <- _. rewrite no_fill' by auto.
  rewrite row_end by auto. unfold sadd, u16_max. f_equal. rewrite E2.
  rewrite (stack_ext ml mr ssize_w ch_dw); [lia|]. rewrite Forall_forall in *. intros c I. unfold ssize_w, capped_scroll, u16_max.
  destruct (ch_dw c =? 65535) eqn:Q; [apply Z.eqb_eq in Q; exfalso; apply (F c); auto|reflexivity].
Qed.
Print Assumptions C102_row_width.

(** Across: the largest child with margins; a child that fills makes it fill. *)
Theorem C102_across : forall st bordered k children w h, let cs := shown children in
  reasonable st -> Forall nonneg_child cs -> Forall margins_fit cs -> children <> [] ->
  desired_scroll st bordered k children = Some (w, h) ->
  (k = LVertical -> automatic (l_width st) ->
   w = if existsb (fun c => ch_dw c =? 65535) cs then 65535 else Z.min (scroll_around_width st bordered + largest taken_width cs) 65535) /\
  (k = LHorizontal -> automatic (l_height st) ->
   h = if existsb (fun c => ch_dh c =? 65535) cs then 65535 else Z.min (scroll_around_height st bordered + largest taken_height cs) 65535) /\
  (k = LVertical -> automatic (l_height st) -> existsb (fun c => ch_dh c =? 65535) cs = true -> h = 65535) /\
  (k = LHorizontal -> automatic (l_width st) -> existsb (fun c => ch_dw c =? 65535) cs = true -> w = 65535).
Proof.
  intros st bd k children w h cs R N M NE D.
  assert (N' : Forall nonneg_margins cs) by (eapply Forall_impl; [|exact N]; apply nonneg_margins_of).
  destruct (scroll_around st bd R) as (_ & EH & EW & P1 & P2).
  destruct children as [|x l]; [contradiction|]. 
  unfold desired_scroll in D. destruct (intrinsic_scroll st bd k (x :: l)) as [[iw ih]|] eqn:Ei; [|discriminate]. injection D as Dw Dh.
  cbn [fst snd] in Dw, Dh. unfold intrinsic_scroll in Ei.
  destruct (scroll_fill k (x :: l) no_ssums) as (FW & FH). cbn [sm_fill_w sm_fill_h no_ssums orb] in FW, FH. fold cs in FW, FH.
  assert (Full : forall z, 0 <= z -> sadd u16_max z = 65535) by (intros; unfold sadd, u16_max; lia).
  destruct k.
  - repeat split; intros; discriminate.
  - destruct (scroll_column_all (x :: l) N' M) as (E1 & E2 & E3). cbv zeta in E1, E2, E3. fold cs in E1, E2, E3.
    destruct (add16 (sm_total_h _) _) as [th|]; [|discriminate].
    destruct (sm_max_w _) as [tw|]; [|discriminate]. apply agrees_eq in E3. rewrite EH, EW, E1 in Ei.
    destruct (add16 (Some (scroll_around_height st bd)) _) as [ex|] eqn:Ex; [|discriminate].
    apply add16_some in Ex as (a1 & a2 & X1 & X2 & -> & _). injection X1 as <-. injection X2 as <-.
    rewrite FW, FH in Ei. injection Ei as <- <-.
    assert (0 <= first_top cs) by (destruct N' as [|c r Nc _]; cbn; [lia|]; apply (margins_floor c Nc)).
    repeat split; intros K; try discriminate; intros Au; rewrite own_auto in * by auto.
    + rewrite <- Dw. destruct (existsb (fun c => ch_dw c =? 65535) cs); [apply Full; auto|]. unfold sadd, u16_max. f_equal. rewrite E3. change (largest taken_width cs) with (largest (fun c => ml c + ssize_w c + mr c) cs). lia.
    + intros X. rewrite <- Dh. rewrite X. apply Full. lia.
  - destruct (scroll_row_all (x :: l) N' M) as (E1 & E2 & E3). cbv zeta in E1, E2, E3. fold cs in E1, E2, E3.
    destruct (add16 (sm_total_w _) _) as [th|]; [|discriminate].
    destruct (sm_max_h _) as [tw|]; [|discriminate]. apply agrees_eq in E3. rewrite EH, EW, E1 in Ei.
    destruct (add16 (Some (scroll_around_width st bd)) _) as [ex|] eqn:Ex; [|discriminate].
    apply add16_some in Ex as (a1 & a2 & X1 & X2 & -> & _). injection X1 as <-. injection X2 as <-.
    rewrite FW, FH in Ei. injection Ei as <- <-.
    assert (0 <= first_left cs) by (destruct N' as [|c r Nc _]; cbn; [lia|]; apply (margins_floor c Nc)).
    repeat split; intros K; try discriminate; intros Au; rewrite own_auto in * by auto.
    + rewrite <- Dh. destruct (existsb (fun c => ch_dh c =? 65535) cs); [apply Full; auto|]. unfold sadd, u16_max. f_equal. rewrite E3. change (largest taken_height cs) with (largest (fun c => m_top c + ssize_h c + m_bottom c) cs). lia.
    + intros X. rewrite <- Dw. rewrite X. apply Full. lia.
Qed.
Print Assumptions C102_across.

(** The program does not stop with an overflow as long as all children and
    margins together take at most 65535 cells. *)
Theorem C102_no_overflow : forall st bordered children, let cs := shown children in
  reasonable st -> Forall nonneg_child cs -> Forall margins_fit cs ->
  (scroll_around_height st bordered + first_top cs <= 65535 -> zsum (map taken_height cs) <= 65535 -> Forall (fun c => taken_width c <= 65535) cs ->
   desired_scroll st bordered LVertical children <> None) /\
  (scroll_around_width st bordered + first_left cs <= 65535 -> zsum (map taken_width cs) <= 65535 -> Forall (fun c => taken_height c <= 65535) cs ->
   desired_scroll st bordered LHorizontal children <> None).
Proof.
  intros st bd children cs R N M.
  assert (N' : Forall nonneg_margins cs) by (eapply Forall_impl; [|exact N]; apply nonneg_margins_of).
  destruct (scroll_around st bd R) as (_ & EH & EW & P1 & P2).
  split; intros Ar Sm Ac; unfold desired_scroll, intrinsic_scroll; (destruct children as [|x l]; [discriminate|]).
  - destruct (scroll_column_all (x :: l) N' M) as (E1 & _ & _). cbv zeta in E1. fold cs in E1.
    destruct (scroll_column_fits (x :: l) no_ssums 0 0 N' M Ac) as (t & w & Et & Ew); try (cbn; lia); auto.
    rewrite Et, Ew, E1, EH. rewrite add16_fits by auto. discriminate.
  - destruct (scroll_row_all (x :: l) N' M) as (E1 & _ & _). cbv zeta in E1. fold cs in E1.
    destruct (scroll_row_fits (x :: l) no_ssums 0 0 N' M Ac) as (t & w & Et & Ew); try (cbn; lia); auto.
    rewrite Et, Ew, E1, EW. rewrite add16_fits by auto. discriminate.
Qed.
Print Assumptions C102_no_overflow.

(** The case of C101 in a scrollable container, and its hypotheses. *)
Example C102_nonvacuous :
  desired_scroll frame true LVertical kids = Some (17, 15) /\ desired_scroll frame true LHorizontal kids = Some (28, 11) /\
  Forall margins_fit (shown kids) /\ Forall (fun c => ch_dh c <> 65535 /\ ch_dw c <> 65535) (shown kids) /\
  zsum (map taken_height (shown kids)) = 12.
Proof. split; [reflexivity|]. split; [reflexivity|]. split; [repeat constructor; vm_compute; discriminate|]. split; [repeat constructor; vm_compute; discriminate|reflexivity]. Qed.

(** The same children in the same column: one row more than they take. *)
Theorem C102_double_margin_refuted :
  snd (desired_size frame LVertical kids) = 14 /\ (exists w, desired_scroll frame true LVertical kids = Some (w, 15)).
Proof. split; [reflexivity|exists 17; reflexivity]. Qed.
Print Assumptions C102_double_margin_refuted.
(** Sixty-six children that fill the height stop a debug build. *)
Theorem C102_overflow_refuted :
  desired_scroll base_style false LVertical (repeat (true, box_ 5 65535 base_style) 66) = None /\
  desired_size base_style LVertical (repeat (true, box_ 5 65535 base_style) 66) = (5, 65535).
Proof. split; vm_compute; reflexivity. Qed.
Print Assumptions C102_overflow_refuted.
(** A grid with a child that fills asks for 1000 cells. *)
Theorem C102_grid_fill_refuted :
  desired_scroll base_style false LGrid [(true, box_ 65535 3 base_style)] = Some (1000, 3) /\
  desired_size base_style LGrid [(true, box_ 65535 3 base_style)] = (65535, 3).
Proof. split; vm_compute; reflexivity. Qed.
Print Assumptions C102_grid_fill_refuted.
(** A border at the top only counts two rows and two columns. *)
Definition top_bordered : lstyle :=
  LStyle None None None None None None 0 0 0 0 0 0 0 0 true false false false false None false None None None 1 1.
Theorem C102_border_refuted :
  desired_scroll top_bordered true LVertical [(true, box_ 5 3 base_style)] = Some (7, 5) /\
  desired_size top_bordered LVertical [(true, box_ 5 3 base_style)] = (5, 4).
Proof. split; vm_compute; reflexivity. Qed.
Print Assumptions C102_border_refuted.
