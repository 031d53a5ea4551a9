(** C31-C32, C60: the grid layout. *)
From Coq Require Import ZArith QArith Qround List Bool Arith Lia Lqa.
From Verif Require Import Fraction_Model Fraction_Spec Fraction_Proofs Canvas_Model Layout_Model Layout_Spec Layout_Proofs Column_Proofs
  Layout_Props Grid_Model Grid_Spec Grid_Proofs GridTracks_Proofs.
Import ListNotations.
Open Scope Z_scope.

(** ** C31: cells *)

(** The cells of the children of a grid with [rows] x [cols] cells. *)
Definition cells_of (rows cols : nat) (spans : list (nat * nat)) : list rect :=
  grid_cells (occ_new rows cols) 0 0 spans.

Theorem C31_cells_in_grid : forall rows cols spans i q,
  nth_error (cells_of rows cols spans) i = Some q ->
  in_grid rows cols q /\ exists want, nth_error spans i = Some want /\ spans_cut rows cols want q.
Proof.
  intros rows cols spans i q H. destruct (grid_cells_spec _ _ _ _ _ _ H) as (A & _ & _ & B). split; auto.
Qed.

Theorem C31_cells_disjoint_ordered : forall rows cols spans i j q q', (i < j)%nat ->
  nth_error (cells_of rows cols spans) i = Some q -> nth_error (cells_of rows cols spans) j = Some q' ->
  (forall r c, ~ (covers q r c /\ covers q' r c)) /\ earlier (rc_row q) (rc_col q) (rc_row q') (rc_col q').
Proof. intros. eapply grid_cells_pairs; eauto. Qed.

(** A child is put at the first place after the previous child where it fits:
    at every place in between an earlier child is in the way. *)
Theorem C31_first_fit : forall rows cols spans k q p want r c,
  nth_error (cells_of rows cols spans) k = Some p ->
  nth_error (cells_of rows cols spans) (S k) = Some q -> nth_error spans (S k) = Some want ->
  (c < cols)%nat -> earlier (rc_row p) (rc_col p) r c -> earlier r c (rc_row q) (rc_col q) ->
  exists t r' c', spans_cut rows cols want t /\ rc_row t = r /\ rc_col t = c /\ covers t r' c' /\
    exists k' p', (k' <= k)%nat /\ nth_error (cells_of rows cols spans) k' = Some p' /\ covers p' r' c'.
Proof.
  intros rows cols spans k q p want r c Hp Hq Hw Hc Hb Ha.
  destruct (grid_first_fit spans (occ_new rows cols) 0 0 (S k) q want Hq Hw r c Hc Ha) as (r' & c' & K1 & K2).
  { exists p. auto. }
  exists (cut_rect (occ_new rows cols) r c (span_of (fst want)) (span_of (snd want))), r', c'.
  split; [split; reflexivity|]. split; [reflexivity|]. split; [reflexivity|]. split; [exact K1|].
  destruct K2 as [K2|(k' & p' & L & Hp' & Hv)]; [discriminate|].
  exists k', p'. split; [lia|]. auto.
Qed.
Theorem C31_first_at_origin : forall rows cols want spans, (0 < rows)%nat -> (0 < cols)%nat ->
  exists q, nth_error (cells_of rows cols (want :: spans)) 0 = Some q /\ rc_row q = 0%nat /\ rc_col q = 0%nat.
Proof.
  intros rows cols [rs cs] spans Hr Hc. unfold cells_of. cbn [grid_cells].
  unfold place_fuel. cbn [place_child]. rewrite scan_here by (simpl; auto).
  assert (K : forall rs cs, (rs <= rows)%nat -> (cs <= cols)%nat -> can_fit (occ_new rows cols) 0 0 rs cs = true).
  { intros a b Ha Hb. unfold can_fit. simpl. destruct (Nat.ltb_spec rows a); [lia|]. destruct (Nat.ltb_spec cols b); [lia|]. simpl.
    apply forallb_forall. intros x _. apply forallb_forall. intros y _. reflexivity. }
  rewrite K; [|simpl; lia|simpl; lia].
  destruct (advance _ 0 0) as [r' c']. eexists. split; [reflexivity|]. split; reflexivity.
Qed.

(** Children without spans fill the grid in reading order ... *)
Theorem C31_single_cells : forall rows cols spans, (0 < rows)%nat -> (0 < cols)%nat ->
  Forall (fun s => fst s <= 1 /\ snd s <= 1)%nat spans ->
  cells_of rows cols spans
  = map (fun i => Rect (i / cols) (i mod cols) 1 1) (seq 0 (Nat.min (length spans) (rows * cols))).
Proof.
  intros rows cols spans Hr Hc Hs.
  pose proof (unit_cells spans (occ_new rows cols) 0) as U. simpl in U.
  rewrite Nat.div_0_l, Nat.mod_0_l, Nat.sub_0_r in U by lia. 
  assert (F : filled (occ_new rows cols) 0) by (intros r c _ _; reflexivity).
  assert (P : (0 < rows * cols)%nat) by (apply Nat.mul_pos_pos; auto).
  apply U; auto; lia.
Qed.

(** ... and with an automatic number of rows every one of them is placed. *)
Theorem C31_auto_rows_place_all : forall cols spans, (0 < cols)%nat ->
  Forall (fun s => fst s <= 1 /\ snd s <= 1)%nat spans ->
  length (cells_of (row_count None cols (length spans)) cols spans) = length spans.
Proof.
  intros cols spans Hc Hs. destruct spans as [|s spans]; [reflexivity|]. set (l := s :: spans) in *.
  pose proof (auto_rows_enough cols (length l) Hc) as E.
  assert (0 < row_count None cols (length l))%nat.
  { destruct (row_count None cols (length l)) eqn:ER; [|lia]. simpl in E. lia. }
  rewrite C31_single_cells by auto. rewrite map_length, seq_length. lia.
Qed.

(** Spans are not counted when the rows are: a spanning child can push another
    one out of the grid, and it disappears. *)
Theorem C31_dropped_refuted : exists cols spans,
  (0 < cols)%nat /\ (length (cells_of (row_count None cols (length spans)) cols spans) < length spans)%nat.
Proof. exists 2%nat, [(1, 2); (1, 2)]%nat. vm_compute. split; repeat constructor. Qed.

(** The bound on the search loop is never reached. *)
Theorem C31_search_terminates : forall o row col rs cs fuel,
  (col <= o_cols o)%nat -> (place_fuel o <= fuel)%nat ->
  place_child fuel o row col rs cs = place_child (place_fuel o) o row col rs cs.
Proof. intros. apply place_child_fuel; auto. unfold place_fuel. lia. Qed.

Example C31_nonvacuous :
  cells_of 3 3 [(2, 2); (1, 1); (1, 2); (1, 1); (1, 1)]%nat
  = [Rect 0 0 2 2; Rect 0 2 1 1; Rect 1 2 1 1; Rect 2 0 1 1; Rect 2 1 1 1].
Proof. reflexivity. Qed.

(** Children never overlap on the screen either, unless a fixed or automatic
    height makes one taller than its row. *)
Theorem C31_regions_apart : forall g children available i j p p',
  0 <= gutter_h g available -> 0 <= gutter_v g available ->
  Forall nonneg_child children -> Forall fits_row children ->
  let ps := grid_arrange g children available in
  (i < j)%nat -> nth_error ps i = Some p -> nth_error ps j = Some p' ->
  apart (pl_region p) (pl_region p').
Proof. intros. eapply grid_children_apart; eauto. Qed.

Definition grid2 : gstyle := GStyle (Some 2%nat) None [] [] (cells 1) (cells 1) false false None.
Definition span2 (s : lstyle) : lstyle :=
  LStyle (l_width s) (l_height s) (l_min_width s) (l_max_width s) (l_min_height s) (l_max_height s)
    (l_mt s) (l_mr s) (l_mb s) (l_ml s) (l_pt s) (l_pr s) (l_pb s) (l_pl s)
    (l_bt s) (l_br s) (l_bb s) (l_bl s) (l_content_box s) (l_dock s) (l_absolute s) (l_layer s)
    (l_offset_x s) (l_offset_y s) 2 (l_row_span s).
Definition gkids : list child :=
  [mk 0 (span2 base_style); mk 1 base_style; mk 2 (with_margin 1 1 1 1 base_style)].
Example C31_regions_nonvacuous :
  Forall nonneg_child gkids /\ Forall fits_row gkids /\
  map pl_region (grid_arrange grid2 gkids (Region 0 0 21 11)) =
    [Region 0 0 21 5; Region 0 6 10 5; Region 12 7 8 3].
Proof.
  split; [repeat constructor; simpl; try lra; try lia|]. split; [repeat constructor|]. vm_compute. reflexivity.
Qed.
Theorem C31_tall_child_refuted : exists g children available p p' x y,
  Forall nonneg_child children /\ grid_arrange g children available = [p; p'] /\
  point_in (pl_region p) x y /\ point_in (pl_region p') x y.
Proof.
  exists (GStyle (Some 1%nat) None [] [] (cells 0) (cells 0) false false None),
    [mk 0 (with_height (cells 8) base_style); mk 1 base_style], (Region 0 0 20 10).
  do 2 eexists. exists 0, 6. split; [repeat constructor; simpl; try lra; try lia|].
  split; [vm_compute; reflexivity|]. vm_compute. repeat split; intro; discriminate.
Qed.

(** ** C32: tracks *)

(** Tracks follow each other: each starts where the previous one ends, plus the
    gutter.  This holds for both ways of computing sizes. *)
Theorem C32_tracks_consecutive : forall specs count available gutter content i t,
  length content = count ->
  let ts := resolve_tracks_with_content specs count available gutter content in
  length ts = count /\
  (nth_error ts 0 = Some t -> t_offset t = 0) /\
  (nth_error ts i = Some t -> 1 <= t_size t) /\
  (forall t', nth_error ts i = Some t -> nth_error ts (S i) = Some t' -> t_offset t' = t_offset t + t_size t + gutter).
Proof.
  intros specs count available gutter content i t Hl ts.
  destruct (with_content_tracks specs count available gutter content Hl) as (sizes & E & L & P).
  unfold ts. rewrite E. split; [rewrite tracks_from_length; auto|]. split; [|split].
  - intros H. destruct sizes; [discriminate|]. simpl in H. injection H as <-. reflexivity.
  - intros H. destruct (nth_error sizes i) as [z|] eqn:Ez.
    + rewrite (tracks_from_nth _ 0 gutter _ _ Ez) in H. injection H as <-. simpl.
      rewrite Forall_forall in P. apply P. eapply nth_error_In; eauto.
    + apply nth_error_None in Ez. rewrite (proj2 (nth_error_None _ _)) in H; [discriminate|rewrite tracks_from_length; auto].
  - intros t' H H'.
    destruct (nth_error_ex _ sizes (S i)) as [z' Hz'].
    { rewrite <- (tracks_from_length sizes 0 gutter). apply nth_error_Some. congruence. }
    destruct (nth_error_ex _ sizes i) as [z Hz].
    { apply Nat.lt_trans with (S i); [lia|]. apply nth_error_Some. congruence. }
    rewrite (tracks_from_nth _ 0 gutter _ _ Hz) in H. rewrite (tracks_from_nth _ 0 gutter _ _ Hz') in H'.
    injection H as <-. injection H' as <-. simpl.
    replace (S i) with (i + 1)%nat by lia. rewrite start_extent. unfold extent_of.
    assert (X : firstn 1 (skipn i sizes) = [z]).
    { clear - Hz. revert i Hz. induction sizes; intros [|i] Hz; simpl in *; try discriminate; [injection Hz as ->; auto|auto]. }
    rewrite X. simpl. lia.
Qed.

(** A child's region starts at its first track and is as long as its tracks and
    the gutters between them, in both directions. *)
Theorem C32_child_region : forall q cols rows a gh gv,
  in_grid (length rows) (length cols) q ->
  child_region q (tracks_from 0 gh cols) (tracks_from 0 gv rows) a gh gv
  = Region (rg_x a + start_of cols gh (rc_col q)) (rg_y a + start_of rows gv (rc_row q))
           (extent_of cols gh (rc_col q) (rc_cs q)) (extent_of rows gv (rc_row q) (rc_rs q)).
Proof.
  intros q cols rows a gh gv (A & B & C & D). unfold child_region.
  rewrite !track_start_eq by lia. rewrite !track_span_eq by lia. reflexivity.
Qed.

(** Columns that must have a width: as many as fit, at least one. *)
Theorem C31_min_column_width : forall w css available, 0 < w -> 0 < available ->
  let n := Z.of_nat (column_count (Some w) css available) in
  1 <= n /\ (w <= available -> n * w <= available) /\ available < (n + 1) * w.
Proof.
  intros w css available Hw Ha. unfold column_count. destruct (Z.ltb_spec 0 w); [|lia]. destruct (Z.ltb_spec 0 available); [|lia]. cbn [andb]. cbv zeta.
  rewrite Z.quot_div_nonneg by lia. assert (0 <= available / w) by (apply Z.div_pos; lia). pose proof (Z.mul_div_le available w Hw) as L. pose proof (Z.mul_succ_div_gt available w Hw) as G.
  rewrite Z2Nat.id by lia. split; [lia|]. split.
  - intros L'. assert (1 <= available / w) by (apply Z.div_le_lower_bound; lia). rewrite Z.max_l by lia. lia.
  - destruct (Z.le_gt_cases (available / w) 1); [rewrite Z.max_r by lia; nia|rewrite Z.max_l by lia; nia].
Qed.
Theorem C31_column_count : forall css available, column_count None (Some css) available = css /\ column_count None None available = 1%nat.
Proof. split; reflexivity. Qed.
Example C31_min_column_width_nonvacuous : column_count (Some 20) None 70 = 3%nat.
Proof. reflexivity. Qed.

Lemma fr_tracks_fill : forall specs count available gutter,
  (0 < count)%nat ->
  let room := available - (Z.of_nat count - 1) * gutter in
  let ts := track_specs specs count in
  let fr_total := qsum (map (fun s => if is_fr s then s_value s else 0%Q) ts) in
  let left_over := room - zsum (map (fun s => if is_fr s then 0 else resolve_scalar s room) ts) in
  0 <= room -> (0 < fr_total)%Q ->
  (forall s, In s ts -> is_fr s = true -> thousandths (s_value s) /\ (fr_total <= inject_Z left_over * s_value s)%Q) ->
  (forall s, In s ts -> is_fr s = false -> is_auto s = false /\ 1 <= resolve_scalar s room) ->
  let sizes := distribute_space specs count available gutter in
  zsum sizes + (Z.of_nat count - 1) * gutter = available /\
  forall i s z, nth_error ts i = Some s -> nth_error sizes i = Some z ->
    if is_fr s then
      let share := (inject_Z left_over * s_value s / fr_total)%Q in (inject_Z z - 1 < share < inject_Z z + 1)%Q
    else z = resolve_scalar s room.
Proof.
  intros specs count available gutter Hn room ts fr_total left_over Hroom Htot Hfr Hfix sizes.
  assert (EG : gutters count gutter = (Z.of_nat count - 1) * gutter) by (unfold gutters; f_equal; lia).
  assert (EA : available - gutters count gutter = room) by (rewrite EG; reflexivity).
  assert (EF : map (fixed_size room) ts = map (fun s => if is_fr s then 0 else resolve_scalar s room) ts).
  { apply map_ext_in. intros s Hs. unfold fixed_size. destruct (is_fr s) eqn:E; [reflexivity|].
    destruct (Hfix s Hs E) as [-> _]. reflexivity. }
  assert (H1 : Forall (fun s => is_fr s = true -> thousandths (s_value s)) ts).
  { apply Forall_forall. intros s Hs E. apply (Hfr s Hs E). }
  assert (H2 : Forall (fun s => is_fr s = false -> is_auto s = false /\ 1 <= resolve_scalar s (available - gutters count gutter)) ts).
  { apply Forall_forall. intros s Hs E. rewrite EA. apply (Hfix s Hs E). }
  assert (EL : available - gutters count gutter - zsum (map (fixed_size (available - gutters count gutter)) ts) = left_over).
  { rewrite EA, EF. reflexivity. }
  assert (H3 : Forall (fun s => is_fr s = true ->
     (tot ts <= inject_Z (available - gutters count gutter - zsum (map (fixed_size (available - gutters count gutter)) ts)) * s_value s)%Q) ts).
  { apply Forall_forall. intros s Hs E. rewrite EL. apply (Hfr s Hs E). }
  assert (H0 : 0 <= available - gutters count gutter) by lia.
  unfold sizes. rewrite (distribute_fr specs count available gutter Hn H0 H1 H2 Htot H3). split.
  - rewrite (raw_sum specs count available gutter Hn H1 Htot). fold (gutters count gutter). rewrite EG. lia.
  - intros i s z Hs Hz. 
    pose proof (raw_each specs count available gutter H1 H2 Htot i s z Hs Hz) as R.
    fold ts in R. rewrite EL in R. rewrite EA in R. change (tot ts) with fr_total in R.
    destruct (is_fr s); auto.
Qed.


Lemma nth_cycled : forall (A : Type) (l : list A) n i, l <> [] -> (i < n * length l)%nat -> nth_error (concat (repeat l n)) i = nth_error l (i mod length l).
Proof.
  intros A l n. induction n as [|n IH]; intros i Hl Hi; [lia|]. assert (0 < length l)%nat by (destruct l; [contradiction|simpl; lia]). cbn [repeat concat]. destruct (Nat.ltb_spec i (length l)) as [L|L].
  - rewrite nth_error_app1 by lia. rewrite Nat.mod_small by lia. reflexivity.
  - rewrite nth_error_app2 by lia. rewrite IH by (auto; lia). f_equal. replace i with ((i - length l) + 1 * length l)%nat at 2 by lia. rewrite Nat.mod_add by lia. reflexivity.
Qed.
Lemma nth_error_ext : forall (A : Type) (a b : list A), (forall i, nth_error a i = nth_error b i) -> a = b.
Proof.
  intros A. induction a as [|x a IH]; intros [|y b] H; auto; try (specialize (H 0%nat); discriminate). f_equal; [specialize (H 0%nat); injection H; auto|apply IH; intros i; exact (H (S i))].
Qed.
Lemma nth_error_firstn : forall (A : Type) n (l : list A) i, nth_error (firstn n l) i = if (i <? n)%nat then nth_error l i else None.
Proof.
  intros A n. induction n as [|n IH]; intros l i; [destruct i; reflexivity|]. destruct l as [|x l]; [destruct (i <? S n)%nat, i; reflexivity|]. destruct i as [|i]; [reflexivity|]. cbn [firstn nth_error]. rewrite IH. reflexivity.
Qed.
Lemma track_specs_cycled : forall specs n, track_specs specs n = cycled specs n.
Proof.
  intros specs n. apply nth_error_ext. intros i. unfold track_specs, cycled. rewrite nth_error_firstn.
  destruct (Nat.ltb_spec i n) as [L|L].
  - rewrite (map_nth_error _ i (seq 0 n) (d := i)); [|rewrite (nth_error_nth' (seq 0 n) 0%nat) by (rewrite seq_length; lia); rewrite seq_nth by lia; reflexivity].
    destruct specs as [|d specs].
    + rewrite nth_cycled by (simpl; try discriminate; lia). cbn [length]. rewrite Nat.mod_1_r. reflexivity.
    + rewrite nth_cycled; [|discriminate|cbn [length]; nia]. symmetry. apply nth_error_nth'. apply Nat.mod_upper_bound. discriminate.
  - apply nth_error_None. rewrite map_length, seq_length. lia.
Qed.
Lemma trunc_floor : forall q, (0 <= q)%Q -> trunc q = Qfloor q.
Proof. intros [n d] H. unfold trunc, Qle in *. cbn in *. rewrite Z.quot_div_nonneg; lia. Qed.
Lemma resolve_fixed : forall s room, fr_track s = false -> auto_track s = false -> (0 <= s_value s)%Q -> 0 <= room -> resolve_scalar s room = fixed_cells s room.
Proof.
  intros [v u] room F A V R. cbn in V. unfold resolve_scalar, fixed_cells, fr_track, auto_track in *. cbn [s_unit s_value] in *. rewrite Zle_Qle in R. change (inject_Z 0) with 0%Q in R.
  destruct u; try discriminate; try (apply trunc_floor; exact V). unfold pct. rewrite trunc_floor.
  - apply Qfloor_comp. field.
  - apply Qmult_le_0_compat; [|exact R]. apply Qle_shift_div_l; [reflexivity|]. lra.
Qed.

(** fr tracks (with fixed ones among them): if every share is at least one cell,
    the tracks and gutters fill the space exactly, fixed tracks have their size,
    and each fr track is less than one cell away from its exact share. *)
Theorem C32_fr_tracks_fill : forall specs count available gutter,
  (0 < count)%nat ->
  let room := available - (Z.of_nat count - 1) * gutter in
  let ts := cycled specs count in
  let fr_total := qsum (map (fun s => if fr_track s then s_value s else 0%Q) ts) in
  let left_over := room - zsum (map (fun s => if fr_track s then 0 else fixed_cells s room) ts) in
  0 <= room -> (0 < fr_total)%Q ->
  (forall s, In s ts -> fr_track s = true -> thousandths (s_value s) /\ (fr_total <= inject_Z left_over * s_value s)%Q) ->
  (forall s, In s ts -> fr_track s = false -> auto_track s = false /\ (0 <= s_value s)%Q /\ 1 <= fixed_cells s room) ->
  let sizes := distribute_space specs count available gutter in
  zsum sizes + (Z.of_nat count - 1) * gutter = available /\
  forall i s z, nth_error ts i = Some s -> nth_error sizes i = Some z ->
    if fr_track s then
      let share := (inject_Z left_over * s_value s / fr_total)%Q in (inject_Z z - 1 < share < inject_Z z + 1)%Q
    else z = fixed_cells s room.
Proof.
  intros specs count available gutter Hn room ts fr_total left_over Hroom Htot Hfr Hfix.
  assert (E : forall s, In s ts -> (if fr_track s then 0 else resolve_scalar s room) = (if fr_track s then 0 else fixed_cells s room)).
  { intros s I. destruct (fr_track s) eqn:F; [reflexivity|]. destruct (Hfix s I F) as (A & V & _). apply resolve_fixed; auto. }
  pose proof (map_ext_in _ _ _ E) as EM.
  pose proof (fr_tracks_fill specs count available gutter Hn) as T. rewrite (track_specs_cycled specs count) in T. cbv zeta in T. fold room in T. fold ts in T.
  change is_fr with fr_track in T. change is_auto with auto_track in T. rewrite EM in T. fold fr_total in T. fold left_over in T.
  destruct (T Hroom Htot Hfr) as [T1 T2].
  { intros s I F. destruct (Hfix s I F) as (A & V & L). split; [exact A|]. rewrite resolve_fixed; auto. }
  split; [exact T1|]. intros i s z Hs Hz. specialize (T2 i s z Hs Hz). specialize (E s (nth_error_In _ _ Hs)). destruct (fr_track s); [exact T2|]. congruence.
Qed.

(** In particular columns without any sizes share the width equally. *)
Theorem C32_default_tracks : forall count available gutter,
  (0 < count)%nat -> let room := available - (Z.of_nat count - 1) * gutter in
  Z.of_nat count <= room ->
  let sizes := distribute_space [] count available gutter in
  zsum sizes + (Z.of_nat count - 1) * gutter = available /\
  forall a b, In a sizes -> In b sizes -> -1 <= a - b <= 1.
Proof.
  intros count available gutter Hn room Hroom sizes.
  assert (Hts : forall s, In s (track_specs [] count) -> s = Scalar 1 Fraction_).
  { intros s Hs. unfold track_specs in Hs. apply in_map_iff in Hs. destruct Hs as (i & <- & _). reflexivity. }
  assert (Hmap : forall (A : Type) (f : scalar -> A), map f (track_specs [] count) = repeat (f (Scalar 1 Fraction_)) count).
  { intros A f. rewrite (map_ext_in _ (fun _ => f (Scalar 1 Fraction_))).
    - pose proof (track_specs_length [] count) as L. rewrite <- L at 2. clear. induction (track_specs [] count); simpl; f_equal; auto.
    - intros s Hs. rewrite (Hts s Hs). reflexivity. }
  assert (Ht : (qsum (map (fun s => if is_fr s then s_value s else 0%Q) (track_specs [] count)) == inject_Z (Z.of_nat count))%Q).
  { rewrite Hmap. cbn [is_fr s_unit s_value]. clear. induction count as [|n IH]; [reflexivity|].
    rewrite Nat2Z.inj_succ. unfold Z.succ. rewrite inject_Z_plus. cbn [repeat qsum]. rewrite IH. change (inject_Z 1) with 1%Q. ring. }
  assert (Hz : zsum (map (fun s => if is_fr s then 0 else resolve_scalar s room) (track_specs [] count)) = 0).
  { rewrite Hmap. cbn. clear. induction count; simpl; auto. }
  assert (Hpos : (0 < inject_Z (Z.of_nat count))%Q) by (rewrite <- (Zlt_Qlt 0); lia).
  destruct (fr_tracks_fill [] count available gutter Hn) as [A B]; fold room.
  - lia.
  - rewrite Ht. auto.
  - intros s Hs _. rewrite (Hts s Hs). split; [exists 1000; reflexivity|]. cbn [s_value]. rewrite Hz, Ht.
    rewrite Z.sub_0_r. rewrite Zle_Qle in Hroom. lra.
  - intros s Hs E. rewrite (Hts s Hs) in E. discriminate.
  - split; [exact A|]. fold room in B. 
    assert (Each : forall z, In z sizes -> (inject_Z z - 1 < inject_Z room / inject_Z (Z.of_nat count) < inject_Z z + 1)%Q).
    { intros z Hin. apply In_nth_error in Hin. destruct Hin as [i Hi].
      destruct (nth_error_ex _ (track_specs [] count) i) as [s Hs].
      { rewrite track_specs_length, <- (distribute_length [] count available gutter). apply nth_error_Some. unfold sizes in Hi. congruence. }
      specialize (B i s z Hs Hi). rewrite (Hts s (nth_error_In _ _ Hs)) in B. cbn [is_fr s_unit s_value] in B. cbv zeta in B.
      rewrite Hz, Z.sub_0_r in B. rewrite Ht in B. destruct B as [B1 B2].
      assert (X : (inject_Z room * 1 / inject_Z (Z.of_nat count) == inject_Z room / inject_Z (Z.of_nat count))%Q) by (field; lra).
      lra. }
    intros a b Ha Hb. destruct (Each a Ha) as [a1 a2]. destruct (Each b Hb) as [b1 b2].
    assert (L1 : (inject_Z (a - b) < inject_Z 2)%Q) by (unfold Z.sub; rewrite inject_Z_plus, inject_Z_opp; change (inject_Z 2) with 2%Q; lra).
    assert (L2 : (inject_Z (-2) < inject_Z (a - b))%Q) by (unfold Z.sub; rewrite inject_Z_plus, inject_Z_opp; change (inject_Z (-2)) with (-2)%Q; lra).
    rewrite <- Zlt_Qlt in L1, L2. lia.
Qed.

Example C32_nonvacuous :
  distribute_space [Scalar 2 Fraction_; Scalar 5 Cells; Scalar (3 # 2) Fraction_] 4 40 1 = [11; 5; 9; 12].
Proof. reflexivity. Qed.

(** Sizes below one cell are raised to one, so tracks overflow a small
    container; and an auto track next to fr tracks gets one cell only. *)
Theorem C32_small_container_refuted : exists count available,
  available < zsum (distribute_space [] count available 0).
Proof. exists 5%nat, 3. reflexivity. Qed.
Theorem C32_auto_beside_fr_refuted : exists available,
  distribute_space [Scalar 1 Auto; Scalar 1 Fraction_] 2 available 0 = [1; available] /\ 50 <= available.
Proof. exists 50. split; [reflexivity|lia]. Qed.

(** ** C60: keylines show the cells the children are in *)
Theorem C60_assignments_agree : forall rows cols spans,
  exists rest, compute_cell_assignments spans rows cols = cells_of rows cols spans ++ rest /\
    Forall (fun q => forall r c, ~ covers q r c) rest.
Proof.
  intros rows cols spans. destruct (assign_grid spans (occ_new rows cols) 0 0) as (rest & A & B); [simpl; lia|].
  exists rest. split; [exact A|]. eapply Forall_impl; [|exact B]. intros q -> r c [H _]. simpl in H. lia.
Qed.

Lemma owner_acc : forall l acc r c,
  fold_left (fun acc (p : child * rect) => let '(ch, q) := p in
      if in_rect (rc_row q) (rc_col q) (rc_rs q) (rc_cs q) r c then Some (ch_index ch) else acc) l acc = acc \/
  exists ch q, In (ch, q) l /\ covers q r c /\
  fold_left (fun acc (p : child * rect) => let '(ch, q) := p in
      if in_rect (rc_row q) (rc_col q) (rc_rs q) (rc_cs q) r c then Some (ch_index ch) else acc) l acc = Some (ch_index ch).
Proof.
  induction l as [|[ch q] l IH]; intros acc r c; simpl; [left; auto|].
  destruct (in_rect _ _ _ _ r c) eqn:E.
  - right. destruct (IH (Some (ch_index ch)) r c) as [H|(ch' & q' & H1 & H2 & H3)].
    + exists ch, q. split; [auto|]. split; [apply in_rect_iff; auto|exact H].
    + exists ch', q'. auto.
  - destruct (IH acc r c) as [H|(ch' & q' & H1 & H2 & H3)]; [left; auto|right; exists ch', q'; auto].
Qed.

Lemma owner_in : forall l acc r c ch q, In (ch, q) l -> covers q r c ->
  exists i, fold_left (fun acc (p : child * rect) => let '(ch, q) := p in
      if in_rect (rc_row q) (rc_col q) (rc_rs q) (rc_cs q) r c then Some (ch_index ch) else acc) l acc = Some i.
Proof.
  induction l as [|[ch0 q0] l IH]; intros acc r c ch q Hin Hcov; [contradiction|]. simpl.
  destruct Hin as [E|Hin]; [|eapply IH; eauto]. injection E as -> ->.
  apply in_rect_iff in Hcov. rewrite Hcov.
  destruct (owner_acc l (Some (ch_index ch)) r c) as [H|(ch' & q' & _ & _ & H)]; eauto.
Qed.

(** The keyline occupancy of cell (r, c) is exactly the child placed there. *)
Theorem C60_owner : forall children rows cols r c i,
  cell_owner children (compute_cell_assignments (spans_of children) rows cols) r c = Some i <->
  exists k ch q, nth_error children k = Some ch /\ nth_error (cells_of rows cols (spans_of children)) k = Some q /\
    covers q r c /\ ch_index ch = i.
Proof.
  intros children rows cols r c i.
  destruct (C60_assignments_agree rows cols (spans_of children)) as (rest & E & Hrest). rewrite E.
  assert (Sound : forall ch q, In (ch, q) (combine children (cells_of rows cols (spans_of children) ++ rest)) -> covers q r c ->
    exists k, nth_error children k = Some ch /\ nth_error (cells_of rows cols (spans_of children)) k = Some q).
  { intros ch q Hin Hcov. apply In_nth_error in Hin. destruct Hin as [k Hk]. apply nth_combine in Hk. destruct Hk as [K1 K2].
    exists k. split; auto. destruct (le_lt_dec (length (cells_of rows cols (spans_of children))) k) as [L|L].
    - rewrite nth_error_app2 in K2 by auto. exfalso. rewrite Forall_forall in Hrest.
      apply (Hrest q (nth_error_In _ _ K2) r c Hcov).
    - rewrite nth_error_app1 in K2 by auto. auto. }
  unfold cell_owner. split.
  - intros H. destruct (owner_acc (combine children (cells_of rows cols (spans_of children) ++ rest)) None r c) as [K|(ch & q & K1 & K2 & K3)].
    + rewrite K in H. discriminate.
    + rewrite K3 in H. injection H as <-. destruct (Sound ch q K1 K2) as [k [A B]]. exists k, ch, q. auto.
  - intros (k & ch & q & Hch & Hq & Hcov & <-).
    assert (Hin : In (ch, q) (combine children (cells_of rows cols (spans_of children) ++ rest))).
    { assert (Hq' : nth_error (cells_of rows cols (spans_of children) ++ rest) k = Some q).
      { rewrite nth_error_app1; auto. apply nth_error_Some. congruence. }
      clear - Hch Hq'. revert k Hch Hq'. generalize (cells_of rows cols (spans_of children) ++ rest).
      induction children as [|x l IH]; intros [|y m] [|k] A B; simpl in *; try discriminate.
      - injection A as ->. injection B as ->. auto.
      - right. eapply IH; eauto. }
    destruct (owner_in _ None r c ch q Hin Hcov) as [i Hi].
    destruct (owner_acc (combine children (cells_of rows cols (spans_of children) ++ rest)) None r c) as [K|(ch' & q' & K1 & K2 & K3)].
    + rewrite K in Hi. discriminate.
    + rewrite K3. destruct (Sound ch' q' K1 K2) as [k' [A B]].
      destruct (lt_eq_lt_dec k k') as [[L|L]|L].
      * exfalso. destruct (C31_cells_disjoint_ordered _ _ _ _ _ _ _ L Hq B) as [D _]. apply (D r c); auto.
      * subst k'. congruence.
      * exfalso. destruct (C31_cells_disjoint_ordered _ _ _ _ _ _ _ L B Hq) as [D _]. apply (D r c); auto.
Qed.

(** Keyline positions: the start of every track, then the end of the last one. *)
Theorem C60_positions : forall specs count available gutter, (0 < count)%nat ->
  let sizes := distribute_space specs count available gutter in
  let ps := track_positions (resolve_tracks specs count available gutter) available in
  length ps = S count /\
  (forall i, (i < count)%nat -> nth_error ps i = Some (start_of sizes gutter i)) /\
  (forall e, nth_error ps count = Some e ->
     e = Z.min (start_of sizes gutter (count - 1) + extent_of sizes gutter (count - 1) 1) (available - 1)).
Proof.
  intros specs count available gutter Hn sizes ps.
  assert (L : length (resolve_tracks specs count available gutter) = count)
    by (unfold resolve_tracks; rewrite tracks_from_length; apply distribute_length).
  assert (HL : exists t r, rev (resolve_tracks specs count available gutter) = t :: r).
  { destruct (rev (resolve_tracks specs count available gutter)) as [|t r] eqn:E; [|eauto].
    assert (X : length (rev (resolve_tracks specs count available gutter)) = count) by (rewrite rev_length; auto).
    rewrite E in X. simpl in X. lia. }
  destruct HL as (t & r & HR). unfold ps, track_positions. rewrite HR.
  assert (Ht : nth_error (resolve_tracks specs count available gutter) (count - 1) = Some t).
  { rewrite <- (rev_involutive (resolve_tracks specs count available gutter)), HR. simpl.
    assert (Lr : length r = (count - 1)%nat).
    { rewrite <- L, <- (rev_length (resolve_tracks specs count available gutter)), HR. simpl. lia. }
    rewrite nth_error_app2 by (rewrite rev_length; lia). rewrite rev_length, Lr, Nat.sub_diag. reflexivity. }
  split; [|split].
  - rewrite app_length, map_length, L. simpl. lia.
  - intros i Hi. rewrite nth_error_app1 by (rewrite map_length; lia).
    destruct (nth_error_ex _ sizes i) as [z Hz]; [unfold sizes; rewrite distribute_length; auto|].
    unfold resolve_tracks. fold sizes. rewrite nth_error_map, (tracks_from_nth _ 0 gutter _ _ Hz). simpl. f_equal. 
  - intros e He. rewrite nth_error_app2 in He by (rewrite map_length; lia).
    rewrite map_length, L, Nat.sub_diag in He. simpl in He. injection He as <-.
    destruct (nth_error_ex _ sizes (count - 1)) as [z Hz]; [unfold sizes; rewrite distribute_length; lia|].
    unfold resolve_tracks in Ht. fold sizes in Ht. rewrite (tracks_from_nth _ 0 gutter _ _ Hz) in Ht. injection Ht as <-. simpl.
    assert (X : firstn 1 (skipn (count - 1) sizes) = [z]).
    { clear - Hz. revert Hz. generalize (count - 1)%nat. induction sizes; intros [|i] Hz; simpl in *; try discriminate; [injection Hz as ->; auto|auto]. }
    unfold extent_of. rewrite X. cbn [zsum]. 
    destruct (Z.leb_spec available (Z.min (start_of sizes gutter (count - 1) + z) available)); lia.
Qed.

Print Assumptions C31_cells_in_grid.
Print Assumptions C31_cells_disjoint_ordered.
Print Assumptions C31_first_fit.
Print Assumptions C31_first_at_origin.
Print Assumptions C31_single_cells.
Print Assumptions C31_auto_rows_place_all.
Print Assumptions C31_dropped_refuted.
Print Assumptions C31_search_terminates.
Print Assumptions C31_regions_apart.
Print Assumptions C31_tall_child_refuted.
Print Assumptions C32_tracks_consecutive.
Print Assumptions C32_child_region.
Print Assumptions C32_fr_tracks_fill.
Print Assumptions C31_min_column_width.
Print Assumptions C31_column_count.
Print Assumptions C32_default_tracks.
Print Assumptions C32_small_container_refuted.
Print Assumptions C32_auto_beside_fr_refuted.
Print Assumptions C60_assignments_agree.
Print Assumptions C60_owner.
Print Assumptions C60_positions.
