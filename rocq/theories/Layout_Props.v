(** C28-C30: the row and column layouts. *)
From Coq Require Import ZArith QArith Qround List Bool Lia Lqa.
From Verif Require Import Fraction_Model Fraction_Spec Fraction_Proofs Canvas_Model Layout_Model Layout_Spec Layout_Proofs Column_Proofs.
Import ListNotations.
Open Scope Z_scope.

(** Sample children. *)
Definition base_style : lstyle :=
  LStyle None None None None None None 0 0 0 0 0 0 0 0 false false false false false None false None None None 1 1.
Definition with_width (w : scalar) (s : lstyle) : lstyle :=
  LStyle (Some w) (l_height s) (l_min_width s) (l_max_width s) (l_min_height s) (l_max_height s)
    (l_mt s) (l_mr s) (l_mb s) (l_ml s) (l_pt s) (l_pr s) (l_pb s) (l_pl s)
    (l_bt s) (l_br s) (l_bb s) (l_bl s) (l_content_box s) (l_dock s) (l_absolute s) (l_layer s)
    (l_offset_x s) (l_offset_y s) (l_col_span s) (l_row_span s).
Definition with_height (h : scalar) (s : lstyle) : lstyle :=
  LStyle (l_width s) (Some h) (l_min_width s) (l_max_width s) (l_min_height s) (l_max_height s)
    (l_mt s) (l_mr s) (l_mb s) (l_ml s) (l_pt s) (l_pr s) (l_pb s) (l_pl s)
    (l_bt s) (l_br s) (l_bb s) (l_bl s) (l_content_box s) (l_dock s) (l_absolute s) (l_layer s)
    (l_offset_x s) (l_offset_y s) (l_col_span s) (l_row_span s).
Definition with_limits (mn mx : option scalar) (s : lstyle) : lstyle :=
  LStyle (l_width s) (l_height s) mn mx (l_min_height s) (l_max_height s)
    (l_mt s) (l_mr s) (l_mb s) (l_ml s) (l_pt s) (l_pr s) (l_pb s) (l_pl s)
    (l_bt s) (l_br s) (l_bb s) (l_bl s) (l_content_box s) (l_dock s) (l_absolute s) (l_layer s)
    (l_offset_x s) (l_offset_y s) (l_col_span s) (l_row_span s).
Definition with_margin (t r b l : Q) (s : lstyle) : lstyle :=
  LStyle (l_width s) (l_height s) (l_min_width s) (l_max_width s) (l_min_height s) (l_max_height s)
    t r b l (l_pt s) (l_pr s) (l_pb s) (l_pl s)
    (l_bt s) (l_br s) (l_bb s) (l_bl s) (l_content_box s) (l_dock s) (l_absolute s) (l_layer s)
    (l_offset_x s) (l_offset_y s) (l_col_span s) (l_row_span s).
Definition mk (i : nat) (s : lstyle) : child := Child i s 5 1 (fun _ => 2).
Definition fr_ (q : Q) := Scalar q Fraction_.
Definition cells (q : Q) := Scalar q Cells.
Definition percent (q : Q) := Scalar q Percent.

(** ** C28 *)

(** Whatever the fr values: the fr children of a row share exactly the width
    that the other children and the margins leave. *)
Theorem C28_fr_widths_sum : forall children available v,
  Forall no_width_limits children ->
  let ps := horizontal_arrange children available v in
  let free := rg_w available - width_where (fun c => negb (flexible c)) children ps - row_gaps children in
  0 < free -> 0 < weights children ->
  width_where flexible children ps = free.
Proof. intros children available v H ps free Hf Hw. exact (fr_sum children available v H Hf Hw). Qed.

(** Each fr width is its exact share rounded down, or one cell more. *)
Theorem C28_fr_width_share : forall children available v i c k p,
  Forall no_width_limits children ->
  let ps := horizontal_arrange children available v in
  let free := rg_w available - width_where (fun c => negb (flexible c)) children ps - row_gaps children in
  0 < free -> 0 < weights children ->
  nth_error children i = Some c -> fr_weight c = Some k -> nth_error ps i = Some p ->
  let share := ratio (free * k) (weights children) in
  (inject_Z (p_width p) - 1 <= share)%Q /\ (share < inject_Z (p_width p) + 1)%Q.
Proof.
  intros children available v i c k p H ps free Hf Hw Hc Hk Hp share.
  destruct (fr_each children available v i c k p H Hf Hw Hc Hk Hp) as [A B].
  fold (weights children) in *. change (free_width children available v) with free in *.
  rewrite <- (Qfloor_ratio _ _ Hw) in *. fold share in A, B.
  rewrite Zle_Qle in A, B. rewrite inject_Z_plus in B. change (inject_Z 1) with 1%Q in B. pose proof (Qfloor_bounds share) as [C D].
  split; lra.
Qed.

(** With an fr child and enough room the row fills the container exactly:
    widths and margins add up to its width. *)
Theorem C28_row_fills : forall children available v,
  Forall no_width_limits children ->
  let ps := horizontal_arrange children available v in
  width_where (fun c => negb (flexible c)) children ps + row_gaps children <= rg_w available ->
  0 < weights children ->
  zsum (map p_width ps) + row_gaps children = rg_w available.
Proof.
  intros children available v H ps Hroom Hw.
  rewrite (width_where_split flexible children ps) by apply horizontal_length.
  destruct (Z.eq_dec (width_where (fun c => negb (flexible c)) children ps + row_gaps children) (rg_w available)) as [E|NE].
  - assert (Z0 : width_where flexible children ps = 0).
    { unfold ps. rewrite flex_widths_sum by auto.
      rewrite fr_pass_zero.
      - rewrite map_map. clear. induction children; simpl; auto.
      - left. rewrite <- free_remaining by auto. unfold free_width. fold ps. lia. }
    lia.
  - pose proof (fr_sum children available v H) as S. unfold free_width in S. fold ps in S. rewrite S; lia.
Qed.

Lemma last_rev : forall (A : Type) (l : list A) c, nth_error l (length l - 1) = Some c -> exists r, rev l = c :: r.
Proof.
  intros A l c. induction l as [|x l _] using rev_ind; intros H; [discriminate|].
  rewrite app_length in H. simpl in H. rewrite nth_error_app2 in H by lia.
  replace (length l + 1 - 1 - length l)%nat with 0%nat in H by lia. injection H as ->.
  rewrite rev_app_distr. simpl. eauto.
Qed.

(** The last child ends, with its margin, at the right edge. *)
Theorem C28_last_edge : forall children available v c p,
  Forall no_width_limits children ->
  let ps := horizontal_arrange children available v in
  width_where (fun c => negb (flexible c)) children ps + row_gaps children <= rg_w available ->
  0 < weights children ->
  nth_error children (length children - 1) = Some c -> nth_error ps (length children - 1) = Some p ->
  p_right p + m_right c = rg_x available + rg_w available.
Proof.
  intros children available v c p H ps Hroom Hw Hc Hp.
  rewrite <- (C28_row_fills children available v H Hroom Hw). fold ps.
  destruct children as [|c0 cs]; [destruct (length (@nil child) - 1)%nat; discriminate|].
  destruct (row_extent (combine (c0 :: cs) (row_widths (c0 :: cs) available v)) true 0 (rg_x available) available v) as (q & Hq & E).
  { pose proof (row_widths_length (c0 :: cs) available v) as L. destruct (row_widths (c0 :: cs) available v); [discriminate L|discriminate]. }
  rewrite combine_length, row_widths_length, Nat.min_id in Hq.
  unfold ps in Hp. unfold horizontal_arrange in Hp. rewrite Hp in Hq. injection Hq as <-.
  rewrite combine_fst in E by apply row_widths_length.
  fold (horizontal_arrange (c0 :: cs) available v) in E. fold ps in E.
  assert (R : match rev (c0 :: cs) with c1 :: _ => m_right c1 | [] => 0 end = m_right c).
  { destruct (last_rev _ _ _ Hc) as [r ->]. reflexivity. }
  rewrite R in E. unfold row_gaps. cbv beta iota in E. rewrite Z.add_0_r in E. lia.
Qed.

(** Widths of their own are rounded together: their sum is the exact sum
    rounded down, so no cell is lost by rounding each one. *)
Theorem C28_fixed_widths_sum : forall children available v,
  Forall no_width_limits children ->
  width_where (fun c => negb (flexible c)) children (horizontal_arrange children available v)
  = Qfloor (qsum (map (fun c => fixed_share (hwidth_of available v c)) children)).
Proof.
  intros children available v H. rewrite fixed_widths_sum by auto.
  rewrite fixed_pass_total; [| apply canonical_zero | rewrite value_zero; lra | rewrite value_zero; lra | ].
  - rewrite map_map. apply Qfloor_proper. rewrite value_zero. ring.
  - apply Forall_map. apply Forall_forall. intros c _. unfold hwidth_of, auto_width, box_fraction.
    destruct (l_width (ch_style c)) as [[q u]|]; cbn [s_unit s_value];
    [destruct u|]; try destruct (l_content_box _); try destruct (ch_dw c =? u16_max);
    auto; apply frac_new_canonical.
Qed.

(** When nothing is left, fr children get no width. *)
Theorem C28_no_room : forall children available v i c p,
  Forall no_width_limits children ->
  let ps := horizontal_arrange children available v in
  rg_w available - width_where (fun c => negb (flexible c)) children ps - row_gaps children <= 0 ->
  nth_error children i = Some c -> flexible c = true -> nth_error ps i = Some p -> p_width p = 0.
Proof. intros. eapply fr_starved; eauto. Qed.

Definition row1 : list child :=
  [mk 0 (with_width (fr_ 2) base_style); mk 1 (with_margin 0 3 0 2 (with_width (fr_ 1) base_style));
   mk 2 (with_width (fr_ 1) base_style); mk 3 (with_width (percent 25) base_style)].
Example C28_nonvacuous :
  let a := Region 0 0 30 5 in let v := Viewport 80 24 in
  Forall no_width_limits row1 /\ weights row1 = 4000 /\
  map p_width (horizontal_arrange row1 a v) = [10; 4; 4; 7] /\ row_gaps row1 = 5.
Proof. cbv zeta. split; [repeat constructor|]. repeat split; vm_compute; reflexivity. Qed.
(** The whole extra cell is really used: 6 is one more than the share 5. *)
Example C28_bound_attained :
  map p_width (horizontal_arrange [mk 0 (with_width (fr_ 2) base_style); mk 1 (with_width (fr_ 1) base_style);
    mk 2 (with_width (fr_ 1) base_style)] (Region 0 0 10 5) (Viewport 80 24)) = [6; 2; 2].
Proof. reflexivity. Qed.

(** With a maximum or minimum width on an fr child the row need not fill the
    container: the difference is not redistributed. *)
Theorem C28_limits_refuted :
  exists children available v,
    weights children > 0 /\ row_gaps children = 0 /\ 
    zsum (map p_width (horizontal_arrange children available v)) < rg_w available.
Proof.
  exists [mk 0 (with_limits None (Some (cells 3)) (with_width (fr_ 1) base_style)); mk 1 (with_width (fr_ 1) base_style)],
    (Region 0 0 20 5), (Viewport 80 24).
  repeat split; vm_compute; reflexivity.
Qed.
Theorem C28_limits_overflow_refuted :
  exists children available v,
    weights children > 0 /\ row_gaps children = 0 /\ 
    rg_w available < zsum (map p_width (horizontal_arrange children available v)).
Proof.
  exists [mk 0 (with_limits (Some (cells 15)) None (with_width (fr_ 1) base_style)); mk 1 (with_width (fr_ 1) base_style)],
    (Region 0 0 20 5), (Viewport 80 24).
  repeat split; vm_compute; reflexivity.
Qed.

(** ** C29 *)

Theorem C29_row_one_each : forall children available v,
  map pl_index (horizontal_arrange children available v) = map ch_index children.
Proof. exact horizontal_index. Qed.

Theorem C29_row_gap : forall children available v i p q c d,
  let ps := horizontal_arrange children available v in
  nth_error ps i = Some p -> nth_error ps (S i) = Some q ->
  nth_error children i = Some c -> nth_error children (S i) = Some d ->
  p_left q = p_right p + Z.max (m_right c) (m_left d).
Proof. intros. eapply horizontal_gap; eauto. Qed.

Theorem C29_row_start : forall c children available v p,
  nth_error (horizontal_arrange (c :: children) available v) 0 = Some p ->
  p_left p = rg_x available + m_left c.
Proof. intros; eapply horizontal_first; eauto. Qed.

Theorem C29_row_no_overlap : forall children available v i j p q,
  Forall nonneg_child children -> nonneg_region available -> nonneg_viewport v ->
  let ps := horizontal_arrange children available v in
  (i < j)%nat -> nth_error ps i = Some p -> nth_error ps j = Some q ->
  0 <= p_width p /\ p_right p <= p_left q.
Proof.
  intros children available v i j p q Hc Ha Hv ps Hij Hp Hq. split.
  - eapply horizontal_width_nonneg; eauto. eapply nth_error_In; eauto.
  - eapply horizontal_order; eauto.
Qed.

Theorem C29_column_one_each : forall children available v,
  map pl_index (vertical_arrange children available v) = map ch_index children.
Proof. intros; apply col_place_index. Qed.

(** Between neighbours in a column: the larger adjoining margin, within the
    rounding of a fractional margin (exact for whole margins). *)
Theorem C29_column_gap : forall children available v i p q c d,
  Forall nonneg_child children -> nonneg_region available -> nonneg_viewport v ->
  let ps := vertical_arrange children available v in
  nth_error ps i = Some p -> nth_error ps (S i) = Some q ->
  nth_error children i = Some c -> nth_error children (S i) = Some d ->
  let m := collapsed (l_mb (ch_style c)) (l_mt (ch_style d)) in
  p_bottom p + Qfloor m <= p_top q <= p_bottom p + Qceiling m.
Proof. intros. eapply vertical_gap; eauto. Qed.

Theorem C29_column_gap_whole : forall children available v i p q c d,
  Forall nonneg_child children -> nonneg_region available -> nonneg_viewport v ->
  let ps := vertical_arrange children available v in
  nth_error ps i = Some p -> nth_error ps (S i) = Some q ->
  nth_error children i = Some c -> nth_error children (S i) = Some d ->
  forall a b, (l_mb (ch_style c) == inject_Z a)%Q -> (l_mt (ch_style d) == inject_Z b)%Q ->
  p_top q = p_bottom p + Z.max a b.
Proof.
  intros children available v i p q c d Hn Ha Hv ps Hp Hq Hc Hd x y Ex Ey.
  pose proof (C29_column_gap children available v i p q c d Hn Ha Hv Hp Hq Hc Hd) as G. cbv zeta in G.
  assert (Em : (collapsed (l_mb (ch_style c)) (l_mt (ch_style d)) == inject_Z (Z.max x y))%Q).
  { unfold collapsed. destruct (Qle_bool _ _) eqn:E.
    - apply Qle_bool_iff in E. rewrite Ex, Ey in E. rewrite <- Zle_Qle in E. rewrite Z.max_r by lia. auto.
    - assert (~ (x <= y)). { intro L. rewrite Zle_Qle in L. rewrite <- Ex, <- Ey in L. apply Qle_bool_iff in L. congruence. }
      rewrite Z.max_l by lia. auto. }
  rewrite (Qfloor_proper _ _ Em), Qfloor_Z in G.
  assert (C : Qceiling (collapsed (l_mb (ch_style c)) (l_mt (ch_style d))) = Z.max x y)
    by (rewrite (Qceiling_comp _ _ Em); apply Qceiling_Z).
  lia.
Qed.

Theorem C29_column_no_overlap : forall children available v i j p q,
  Forall nonneg_child children -> nonneg_region available -> nonneg_viewport v ->
  let ps := vertical_arrange children available v in
  (i < j)%nat -> nth_error ps i = Some p -> nth_error ps j = Some q ->
  0 <= p_height p /\ p_bottom p <= p_top q.
Proof.
  intros children available v i j p q Hc Ha Hv ps Hij Hp Hq. split.
  - eapply col_place_height_nonneg. eapply nth_error_In; eauto.
  - eapply vertical_order; eauto.
Qed.

Lemma row1_nonneg : Forall nonneg_child row1.
Proof. repeat constructor; simpl; try lra; try lia. Qed.
Example C29_nonvacuous :
  Forall nonneg_child row1 /\ nonneg_region (Region 0 0 30 5) /\
  map p_left (horizontal_arrange row1 (Region 0 0 30 5) (Viewport 80 24)) = [0; 12; 19; 23].
Proof. split; [apply row1_nonneg|]. split; [split; simpl; lia|reflexivity]. Qed.

(** The hypothesis on the region is needed: a percentage of a negative width
    (a container whose docked children are wider than it) is negative. *)
Theorem C29_negative_region_refuted :
  exists children available v i j p q,
    Forall nonneg_child children /\ (i < j)%nat /\
    nth_error (horizontal_arrange children available v) i = Some p /\
    nth_error (horizontal_arrange children available v) j = Some q /\
    p_width p < 0 /\ p_left q < p_left p.
Proof.
  exists [mk 0 (with_width (percent 50) base_style); mk 1 base_style], (Region 5 0 (-4) 5), (Viewport 80 24), 0%nat, 1%nat.
  do 2 eexists. split; [repeat constructor; simpl; try lra; try lia|].
  split; [lia|]. split; [vm_compute; reflexivity|]. split; [vm_compute; reflexivity|]. vm_compute. split; reflexivity.
Qed.

(** ** C30 *)

(** Without vertical margins the children of a column touch, start at the top
    edge, and their heights add up to the exact total rounded down. *)
Theorem C30_column_tiles : forall children available v,
  Forall nonneg_child children -> nonneg_region available -> nonneg_viewport v ->
  Forall no_vertical_margins children ->
  let ps := vertical_arrange children available v in
  (forall p, nth_error ps 0 = Some p -> p_top p = rg_y available) /\
  (forall i p q, nth_error ps i = Some p -> nth_error ps (S i) = Some q -> p_top q = p_bottom p) /\
  zsum (map p_height ps)
  = Qfloor (qsum (map (fun c => box_height (fraction_unit children available v) c available v) children)).
Proof.
  intros children available v Hn Ha Hv Hm ps.
  destruct (col_place_tiles children (fraction_unit children available v) true 0 (qz (rg_y available)) available v Hm) as (A & B & C).
  { reflexivity. } { apply heights_nonneg_all; auto. }
  split; [|split].
  - intros p Hp. rewrite (A p Hp). unfold qz. apply Qfloor_Z.
  - exact B.
  - unfold ps, vertical_arrange. rewrite C. unfold qz. rewrite Qfloor_Z.
    rewrite (Qfloor_proper _ (qsum (map (fun c => box_height (fraction_unit children available v) c available v) children)
      + inject_Z (rg_y available))) by ring.
    rewrite Qfloor_plus_int. lia.
Qed.

(** Every height is less than one row away from the exact height. *)
Theorem C30_height_error : forall children available v i c p,
  Forall nonneg_child children -> nonneg_region available -> nonneg_viewport v ->
  nth_error children i = Some c -> nth_error (vertical_arrange children available v) i = Some p ->
  let exact_height := box_height (fraction_unit children available v) c available v in
  (inject_Z (p_height p) - 1 < exact_height)%Q /\ (exact_height < inject_Z (p_height p) + 1)%Q.
Proof.
  intros children available v i c p Hn Ha Hv Hc Hp eh.
  eapply col_place_height; eauto. apply heights_nonneg_all; auto. eapply nth_error_In; eauto.
Qed.

(** A column with an fr child fills its container exactly, when the container
    is as high as the viewport and there are no limits and no margins. *)
Theorem C30_column_fills : forall children available v,
  Forall nonneg_child children -> nonneg_region available -> nonneg_viewport v ->
  Forall no_height_limits children -> Forall no_vertical_margins children ->
  rg_h available = vp_h v ->
  (0 < qsum (map fr_height children))%Q ->
  (qsum (map (fun c => fixed_height c available v) children) < inject_Z (rg_h available))%Q ->
  zsum (map p_height (vertical_arrange children available v)) = rg_h available.
Proof. exact vertical_fill. Qed.

Definition col1 : list child :=
  [mk 0 (with_height (fr_ 1) base_style); mk 1 (with_height (percent (125 # 10)) base_style);
   mk 2 (with_height (fr_ (3 # 2)) base_style); mk 3 (with_height (cells 3) base_style)].
Example C30_nonvacuous :
  let a := Region 2 1 40 24 in let v := Viewport 80 24 in
  Forall nonneg_child col1 /\ Forall no_height_limits col1 /\ Forall no_vertical_margins col1 /\
  (0 < qsum (map fr_height col1))%Q /\ (qsum (map (fun c => fixed_height c a v) col1) < inject_Z 24)%Q /\
  map p_height (vertical_arrange col1 a v) = [7; 3; 11; 3].
Proof.
  cbv zeta. split; [repeat constructor; simpl; try lra; try lia|].
  split; [repeat constructor|]. split; [repeat constructor|].
  split; [vm_compute; reflexivity|]. split; [vm_compute; reflexivity|vm_compute; reflexivity].
Qed.

(** The hypotheses are needed.  An fr child with margins has them subtracted
    twice, so the column falls short of the container ... *)
Theorem C30_margin_refuted :
  exists children available v c p,
    children = [c] /\ fr_weight c = None /\ rg_h available = vp_h v /\ (0 < fr_height c)%Q /\ no_height_limits c /\
    (l_mt (ch_style c) == 1)%Q /\ (l_mb (ch_style c) == 1)%Q /\
    vertical_arrange children available v = [p] /\ 1 + p_height p + 1 < rg_h available.
Proof.
  exists [mk 0 (with_margin 1 0 1 0 (with_height (fr_ 1) base_style))], (Region 0 0 40 10), (Viewport 80 10).
  do 2 eexists. repeat split; try (vm_compute; reflexivity).
Qed.
(** ... and inside a container lower than the viewport fr children overflow it. *)
Theorem C30_nested_refuted :
  exists children available v c p,
    children = [c] /\ no_height_limits c /\ no_vertical_margins c /\ (0 < fr_height c)%Q /\
    vertical_arrange children available v = [p] /\ rg_h available < p_height p.
Proof.
  exists [mk 0 (with_height (fr_ 1) base_style)], (Region 0 0 40 10), (Viewport 80 24).
  do 2 eexists. repeat split; try (vm_compute; reflexivity).
Qed.

Print Assumptions C28_fr_widths_sum.
Print Assumptions C28_fr_width_share.
Print Assumptions C28_row_fills.
Print Assumptions C28_last_edge.
Print Assumptions C28_fixed_widths_sum.
Print Assumptions C28_no_room.
Print Assumptions C28_limits_refuted.
Print Assumptions C28_limits_overflow_refuted.
Print Assumptions C29_row_one_each.
Print Assumptions C29_row_gap.
Print Assumptions C29_row_start.
Print Assumptions C29_row_no_overlap.
Print Assumptions C29_column_one_each.
Print Assumptions C29_column_gap.
Print Assumptions C29_column_gap_whole.
Print Assumptions C29_column_no_overlap.
Print Assumptions C29_negative_region_refuted.
Print Assumptions C30_column_tiles.
Print Assumptions C30_height_error.
Print Assumptions C30_column_fills.
Print Assumptions C30_margin_refuted.
Print Assumptions C30_nested_refuted.
