(** C77: children have the sizes their styles say. *)
From Coq Require Import ZArith QArith Qround List Bool Lia Lqa.
From Verif Require Import Fraction_Model Fraction_Spec Fraction_Proofs Canvas_Model Layout_Model Layout_Spec Layout_Proofs Column_Proofs Layout_Props Sizes_Spec Sizes_Proofs.
Import ListNotations.
Open Scope Z_scope.

(** In a row: every child hangs from the top of the container by its top margin;
    its height is the one asked for, within the limits, and unless automatic the
    margins are taken out of it. *)
Theorem C77_row_across : forall children a v i c p, Forall nonneg_child children -> nonneg_region a -> nonneg_viewport v ->
  nth_error children i = Some c -> nth_error (horizontal_arrange children a v) i = Some p -> across_unit (l_height (ch_style c)) ->
  p_top p = rg_y a + m_top c /\
  p_height p =
    let h := limited (limit (rg_h a) a v (l_min_height (ch_style c))) (limit (rg_h a) a v (l_max_height (ch_style c))) (row_height_asked c a (as_u16 (p_width p))) in
    if auto_height c then h else Z.max 0 (h - m_top c - m_bottom c).
Proof.
  intros children a v i c p C A V N P U. assert (NC : nonneg_child c) by (rewrite Forall_forall in C; apply C; eapply nth_error_In; eauto). destruct (row_nth children a v i p c P N) as (w & W & T & PW & PH). split.
  - rewrite T. unfold m_top. rewrite trunc_floor; auto. unfold nonneg_child in NC. tauto.
  - rewrite PH. apply row_height_spec; auto.
Qed.
Print Assumptions C77_row_across.
(** In a row the widths of the first n children that have widths of their own add
    up to what they ask for, rounded down, for every n. *)
Theorem C77_row_along : forall children a v n, Forall nonneg_child children -> nonneg_region a -> nonneg_viewport v -> Forall no_width_limits children ->
  width_where (fun c => negb (flexible c)) (firstn n children) (firstn n (horizontal_arrange children a v))
  = Qfloor (qsum (map (fun c => if flexible c then 0%Q else row_width c a v) (firstn n children))).
Proof. intros. apply row_prefix; auto. Qed.
Print Assumptions C77_row_along.
(** So each is as wide as it asks for, give or take less than one cell. *)
Theorem C77_row_width : forall children a v i c p, Forall nonneg_child children -> nonneg_region a -> nonneg_viewport v -> Forall no_width_limits children ->
  nth_error children i = Some c -> nth_error (horizontal_arrange children a v) i = Some p -> flexible c = false ->
  (inject_Z (p_width p) - 1 < row_width c a v)%Q /\ (row_width c a v < inject_Z (p_width p) + 1)%Q.
Proof.
  intros children a v i c p C A V L N P F. pose proof (C77_row_along children a v i C A V L) as E1. pose proof (C77_row_along children a v (S i) C A V L) as E2.
  assert (X : forall T (l : list T) k y, nth_error l k = Some y -> firstn (S k) l = firstn k l ++ [y]). { clear. intros T. induction l as [|t l IH]; intros [|k] y H; cbn in H; try discriminate; [injection H as <-; reflexivity|]. change (firstn (S (S k)) (t :: l)) with (t :: firstn (S k) l). rewrite (IH k y H). reflexivity. }
  rewrite (X _ _ _ _ N), (X _ _ _ _ P) in E2. assert (LE : length (firstn i children) = length (firstn i (horizontal_arrange children a v))) by (rewrite !firstn_length, horizontal_length; reflexivity).
  unfold width_where in *. assert (CA : forall T U (l : list T) (m : list U) x y, length l = length m -> combine (l ++ [x]) (m ++ [y]) = combine l m ++ [(x, y)]). { clear. intros T U. induction l as [|t l IH]; intros [|u m] x y H; cbn in *; try discriminate; auto. f_equal. apply IH. lia. }
  rewrite CA in E2 by exact LE. rewrite !map_app in E2. assert (ZA : forall l m, zsum (l ++ m) = zsum l + zsum m) by (clear; induction l as [|x l IH]; intros m; cbn; [reflexivity|]; rewrite IH; lia). assert (QA : forall l m, (qsum (l ++ m) == qsum l + qsum m)%Q) by (clear; induction l as [|x l IH]; intros m; cbn; [ring|]; rewrite IH; ring).
  rewrite ZA in E2. cbn [map zsum fst snd] in E2. rewrite F in E2. cbn [negb] in E2. rewrite E1 in E2. set (s := qsum (map (fun c => if flexible c then 0%Q else row_width c a v) (firstn i children))) in *.
  assert (E3 : Qfloor (qsum (map (fun c => if flexible c then 0%Q else row_width c a v) (firstn i children) ++ [row_width c a v])) = Qfloor (s + row_width c a v)). { apply Qfloor_proper. rewrite QA. cbn. fold s. ring. }
  rewrite E3 in E2. pose proof (Qfloor_le s). pose proof (Qlt_floor s). pose proof (Qfloor_le (s + row_width c a v)). pose proof (Qlt_floor (s + row_width c a v)).
  assert (W : p_width p = Qfloor (s + row_width c a v) - Qfloor s) by lia. rewrite W. unfold Z.sub. rewrite inject_Z_plus, inject_Z_opp. rewrite !inject_Z_plus in *. change (inject_Z 1) with 1%Q in *. lra.
Qed.
Print Assumptions C77_row_width.
(** Limits only act on their own child: its width without any limits, limited. *)
Theorem C77_row_limits : forall children a v i c p p0, Forall nonneg_child children -> nonneg_region a -> nonneg_viewport v ->
  nth_error children i = Some c -> nth_error (horizontal_arrange children a v) i = Some p -> nth_error (horizontal_arrange (map unlimited children) a v) i = Some p0 ->
  p_width p = limited (limit (rg_w a) a v (l_min_width (ch_style c))) (limit (rg_w a) a v (l_max_width (ch_style c))) (p_width p0).
Proof.
  intros children a v i c p p0 C A V N P P0. assert (NC : nonneg_child c) by (rewrite Forall_forall in C; apply C; eapply nth_error_In; eauto). destruct (row_nth children a v i p c P N) as (w & W & _ & PW & _).
  assert (N0 : nth_error (map unlimited children) i = Some (unlimited c)) by (rewrite nth_error_map, N; reflexivity). destruct (row_nth (map unlimited children) a v i p0 _ P0 N0) as (w0 & W0 & _ & PW0 & _). rewrite unlimited_widths in W0. assert (w0 = w) by congruence. subst w0.
  rewrite PW, PW0. rewrite (clamp_none (unlimited c)) by (split; reflexivity). apply clamp_width_spec; auto.
Qed.
Print Assumptions C77_row_limits.
(** In a column: every child is its left margin away from the left edge and as
    wide as it asks for, within the limits. *)
Theorem C77_column_across : forall children a v i c p, Forall nonneg_child children -> nonneg_region a -> nonneg_viewport v ->
  nth_error children i = Some c -> nth_error (vertical_arrange children a v) i = Some p -> across_unit (l_width (ch_style c)) ->
  p_left p = rg_x a + ml c /\
  p_width p = limited (limit (rg_w a) a v (l_min_width (ch_style c))) (limit (rg_w a) a v (l_max_width (ch_style c))) (column_width c a).
Proof.
  intros children a v i c p C A V N P U. assert (NC : nonneg_child c) by (rewrite Forall_forall in C; apply C; eapply nth_error_In; eauto). destruct (col_place_nth _ _ _ _ _ _ _ _ _ _ P N) as [X W]. split.
  - rewrite X. unfold ml. rewrite trunc_floor; auto. unfold nonneg_child in NC. tauto.
  - rewrite W. apply column_width_spec; auto.
Qed.
Print Assumptions C77_column_across.
(** In a column: children begin and end at their exact positions rounded down,
    heights being those asked for and gaps the larger of the adjoining margins;
    if the container is as high as the terminal, one fr is an equal part of what
    the others and the margins leave. *)
Theorem C77_column_along : forall c children a v, let cs := c :: children in Forall nonneg_child cs -> nonneg_region a -> nonneg_viewport v -> Forall (fun c => across_unit (l_width (ch_style c))) cs ->
  exists fr_size, (0 <= fr_size)%Q /\ (rg_h a = vp_h v -> fr_size_is cs a v fr_size) /\
    map (fun p => (p_top p, p_bottom p)) (vertical_arrange cs a v)
    = map (fun tb => (Qfloor (fst tb), Qfloor (snd tb))) (exact_column fr_size a v (inject_Z (rg_y a) + l_mt (ch_style c)) cs).
Proof.
  intros c children a v cs C A V U. exists (fraction_unit cs a v). split; [apply fraction_unit_nonneg|]. split; [intros H; apply fr_unit_spec; auto|]. unfold vertical_arrange. apply exact_positions; auto; [apply fraction_unit_nonneg|]. unfold cs. reflexivity.
Qed.
Print Assumptions C77_column_along.

(** A row and a column with all kinds of sizes. *)
Definition sized : list child :=
  [Child 0 (with_limits (Some (cells 2)) (Some (Scalar 10 ViewWidth)) (with_margin 1 1 1 2 (with_height (percent 50) (with_width (percent (335 # 10)) base_style)))) 5 1 (fun _ => 2);
   Child 1 (with_height (fr_ 2) (with_width (cells 7) base_style)) 5 1 (fun _ => 2);
   Child 2 (with_margin 2 0 0 0 (with_height (Scalar 0 Auto) (with_width (Scalar 0 Auto) base_style))) 5 1 (fun _ => 3)].
Example C77_ex :
  Forall nonneg_child sized /\ Forall (fun c => across_unit (l_width (ch_style c)) /\ across_unit (l_height (ch_style c))) sized /\
  map pl_region (vertical_arrange sized (Region 3 4 30 20) (Viewport 80 20)) = [Region 5 5 7 8; Region 3 14 7 3; Region 3 19 5 3] /\
  map pl_region (horizontal_arrange sized (Region 3 4 30 20) (Viewport 80 20)) = [Region 5 5 8 8; Region 14 4 7 20; Region 21 6 5 3].
Proof.
  split; [repeat constructor; cbn; try lra; try lia; intros; lia|]. split; [repeat constructor|]. split; vm_compute; reflexivity.
Qed.
(** Across the layout the units w, h, vw and vh are taken for cells: 50vw in a
    column is 50 cells wide whatever the terminal is. *)
Theorem C77_view_units_refuted : forall a v,
  map p_width (vertical_arrange [mk 0 (with_width (Scalar 50 ViewWidth) base_style)] a v) = [50] /\
  map p_height (horizontal_arrange [mk 0 (with_height (Scalar 50 ViewHeight) base_style)] a v) = [50].
Proof. intros a v. split; reflexivity. Qed.
Print Assumptions C77_view_units_refuted.
(** In a row margins are taken out of a height given in cells, even below a
    minimum height; in a column they are not. *)
Theorem C77_row_margins_refuted : forall a v,
  let s := with_margin 1 0 1 0 (with_height (cells 3) base_style) in
  map p_height (horizontal_arrange [mk 0 s] a v) = [1] /\ map p_height (vertical_arrange [mk 0 s] a v) = [3].
Proof.
  intros a v s. split; [reflexivity|]. unfold vertical_arrange, s. cbn [col_place map]. set (u := fraction_unit _ a v). unfold p_height. cbn [pl_region rg_h]. f_equal.
  assert (E : (box_height u (mk 0 (with_margin 1 0 1 0 (with_height (cells 3) base_style))) a v == inject_Z 3)%Q) by reflexivity.
  assert (F : Qfloor (qz (rg_y a) + l_mt (ch_style (mk 0 (with_margin 1 0 1 0 (with_height (cells 3) base_style)))) + box_height u (mk 0 (with_margin 1 0 1 0 (with_height (cells 3) base_style))) a v) = Qfloor (qz (rg_y a) + l_mt (ch_style (mk 0 (with_margin 1 0 1 0 (with_height (cells 3) base_style))))) + 3). { rewrite <- Qfloor_plus_int. apply Qfloor_proper. rewrite E. reflexivity. }
  rewrite F. lia.
Qed.
Print Assumptions C77_row_margins_refuted.
