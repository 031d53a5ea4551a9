(** Docks (C33), layers (C34), alignment (C35), offsets and absolute children
    (C61), completeness of an arrangement (C62). *)
From Coq Require Import ZArith QArith Qround List Bool Arith Lia Lqa Permutation.
From Verif Require Import Text_Model Canvas_Model Layout_Model Layout_Spec Layout_Proofs Column_Proofs Layout_Props
  Grid_Model Grid_Spec Arrange_Model Arrange_Spec Arrange_Proofs Layers_Proofs.
Import ListNotations.
Open Scope Z_scope.
Local Arguments Z.add : simpl never.
Local Arguments Z.sub : simpl never.
Local Arguments Z.mul : simpl never.
Local Arguments Z.max : simpl never.
Local Arguments Z.of_nat : simpl never.

(** Sample styles *)
Definition restyle (s : lstyle) (d : option dock_edge) (abs : bool) (layer : option text) (ox oy : option scalar) : lstyle :=
  LStyle (l_width s) (l_height s) (l_min_width s) (l_max_width s) (l_min_height s) (l_max_height s)
    (l_mt s) (l_mr s) (l_mb s) (l_ml s) (l_pt s) (l_pr s) (l_pb s) (l_pl s)
    (l_bt s) (l_br s) (l_bb s) (l_bl s) (l_content_box s) d abs layer ox oy (l_col_span s) (l_row_span s).
Definition sized (i : nat) (s : lstyle) (w h : Z) : child := Child i s w h (fun _ => h).
Definition docked_at (i : nat) (d : dock_edge) (w h : Z) : child := sized i (restyle base_style (Some d) false None None None) w h.
Definition plain_box (i : nat) (w h : Z) : child :=
  sized i (with_width (cells (inject_Z w)) (with_height (cells (inject_Z h)) base_style)) w h.
Definition layered (i : nat) (n : text) : child := sized i (restyle base_style None false (Some n) None None) 5 5.
Definition pcol (h : align_h) (v : align_v) (layers : option (list text)) : pstyle :=
  PStyle LVertical (GStyle None None [] [] (cells 0) (cells 0) false false None) h v layers.

(** ** C33 Docks *)

(** A docked child lies along its edge, over the whole length of the edge, as
    deep as it asks for. *)
Theorem C33_dock_at_edge : forall s cs a v c d, own_indices cs -> In c cs -> dock_of c = Some d -> unmoved c ->
  exists p, In p (arrange_children s cs a v) /\ pl_index p = ch_index c /\ along_edge d a (depth c) p.
Proof.
  intros s cs a v c d N Hc Hd Hu. exists (Placement (ch_index c) (dock_region d c a)). split; [|split; auto].
  - rewrite arrange_eq. apply in_or_app. left. apply in_map_iff. exists (Placement (ch_index c) (dock_region d c a)). split.
    + eapply offset_unmoved; eauto.
    + apply dock_in; auto.
  - unfold depth. rewrite Hd. destruct d; unfold along_edge, p_left, p_right, p_top, p_bottom, p_width, p_height, dock_region;
    cbn [pl_region rg_x rg_y rg_w rg_h]; repeat split; lia.
Qed.

(** The other children are arranged exactly as if they were alone in a container
    of what the docks leave. *)
Theorem C33_rest_arranged_inside : forall s cs a v, own_indices cs ->
  of_children (undocked cs) (arrange_children s cs a v) = arrange_children s (undocked cs) (inner a cs) v.
Proof. intros. apply undocked_alone; auto. Qed.

(** What the docks leave has no point in common with any of them. *)
Theorem C33_docks_clear : forall cs a c d p, In c cs -> dock_of c = Some d -> along_edge d a (depth c) p ->
  apart (inner a cs) (pl_region p).
Proof.
  intros cs a c d p Hc Hd Hp x y [[Hx Hy] [Hx' Hy']]. pose proof (reach_max d cs c Hc Hd) as R.
  unfold inner in Hx, Hy. cbn [rg_x rg_y rg_w rg_h] in Hx, Hy.
  pose proof (reach_nonneg DockTop cs). pose proof (reach_nonneg DockBottom cs).
  pose proof (reach_nonneg DockLeft cs). pose proof (reach_nonneg DockRight cs).
  destruct d; unfold along_edge, p_left, p_right, p_top, p_bottom, p_width, p_height in Hp; lia.
Qed.

(** It stays inside the container, and is a proper rectangle when the docks fit. *)
Theorem C33_inner_inside : forall cs a x y, point_in (inner a cs) x y -> point_in a x y.
Proof.
  intros cs a x y [Hx Hy]. unfold inner in Hx, Hy. cbn [rg_x rg_y rg_w rg_h] in Hx, Hy.
  pose proof (reach_nonneg DockTop cs). pose proof (reach_nonneg DockBottom cs).
  pose proof (reach_nonneg DockLeft cs). pose proof (reach_nonneg DockRight cs). unfold point_in. lia.
Qed.
Theorem C33_inner_nonneg : forall cs a,
  reach DockLeft cs + reach DockRight cs <= rg_w a -> reach DockTop cs + reach DockBottom cs <= rg_h a -> nonneg_region (inner a cs).
Proof. intros cs a H1 H2. unfold nonneg_region, inner. cbn [rg_w rg_h]. lia. Qed.

(** Docks that do not fit leave a negative width, and the other children get it. *)
Theorem C33_too_big_refuted : exists s cs a v p, own_indices cs /\ Forall nonneg_child cs /\ nonneg_region a /\
  In p (arrange_children s cs a v) /\ p_width p < 0.
Proof.
  exists (PStyle LHorizontal (GStyle None None [] [] (cells 0) (cells 0) false false None) ALeft ATop None),
    [docked_at 0 DockLeft 8 1; docked_at 1 DockRight 8 1; mk 2 (with_width (percent 100) base_style)],
    (Region 0 0 10 5), (Viewport 10 5). eexists.
  split; [repeat constructor; simpl; intuition discriminate|].
  split; [repeat constructor; simpl; try lra; try lia|]. split; [split; simpl; lia|].
  split; [right; right; left; vm_compute; reflexivity|]. vm_compute. reflexivity.
Qed.
(** Two docks on one edge cover each other; so do docks that meet in a corner. *)
Theorem C33_docks_overlap_refuted : exists s cs a v p q x y, own_indices cs /\
  arrange_children s cs a v = [p; q] /\ point_in (pl_region p) x y /\ point_in (pl_region q) x y.
Proof.
  exists (pcol ALeft ATop None), [docked_at 0 DockTop 5 3; docked_at 1 DockTop 5 2], (Region 0 0 10 5), (Viewport 10 5).
  do 2 eexists. exists 0, 0. split; [repeat constructor; simpl; intuition discriminate|].
  split; [vm_compute; reflexivity|]. vm_compute. repeat split; try discriminate; reflexivity.
Qed.

Definition docked_screen : list child :=
  [docked_at 0 DockTop 80 3; mk 1 base_style; docked_at 2 DockBottom 80 1; docked_at 3 DockLeft 20 9; docked_at 4 DockTop 80 2].
Example C33_nonvacuous :
  own_indices docked_screen /\
  map (fun p => (pl_index p, pl_region p)) (arrange_children (pcol ALeft ATop None) docked_screen (Region 0 0 80 24) (Viewport 80 24)) =
  [(0%nat, Region 0 0 80 3); (2%nat, Region 0 23 80 1); (3%nat, Region 0 0 20 24); (4%nat, Region 0 0 80 2); (1%nat, Region 20 3 60 1)]
  /\ inner (Region 0 0 80 24) docked_screen = Region 20 3 60 20.
Proof.
  split; [repeat constructor; simpl; intuition discriminate|]. split; vm_compute; reflexivity.
Qed.

(** ** C34 Layers *)

(** Every child is placed exactly once, whatever order the hash map yields. *)
Theorem C34_each_child_once : forall keys s cs a v,
  enumerates keys cs -> NoDup (order_of s) -> ps_layout s <> LGrid ->
  Permutation (map pl_index (arrange_layers keys s cs a v)) (map ch_index cs).
Proof. intros. apply layers_perm; auto. Qed.

(** Later placements are painted over earlier ones: a child is never placed
    before a child of a lower layer; layers that are not declared are lowest. *)
Theorem C34_layer_order : forall keys s cs a v i j p q c d,
  own_indices cs -> enumerates keys cs -> NoDup (order_of s) ->
  nth_error (arrange_layers keys s cs a v) i = Some p -> nth_error (arrange_layers keys s cs a v) j = Some q ->
  In c cs -> In d cs -> ch_index c = pl_index p -> ch_index d = pl_index q ->
  (layer_rank (order_of s) (layer_name c) < layer_rank (order_of s) (layer_name d))%nat -> (i < j)%nat.
Proof.
  intros keys s cs a v i j p q c d O K N Hp Hq Hc Hd Ec Ed L.
  destruct (Nat.lt_ge_cases i j) as [|G]; auto. exfalso.
  destruct (Nat.eq_dec i j) as [->|NE].
  - rewrite Hp in Hq. apply some_eq in Hq. subst q. assert (c = d) by (eapply in_map_inj; eauto; congruence). subst. lia.
  - pose proof (sorted_nth _ _ _ j i q p (layers_sorted keys s cs a v O K N) ltac:(lia) Hq Hp d c Hd Hc Ed Ec) as H. cbv beta in H. lia.
Qed.

(** A layer is arranged in the whole container as if its children were alone. *)
Theorem C34_layers_independent : forall keys s cs a v n, own_indices cs -> enumerates keys cs -> NoDup (order_of s) ->
  let on_n := filter (fun c => text_eqb (layer_name c) n) cs in
  of_children on_n (arrange_layers keys s cs a v) = arrange_children s on_n a v.
Proof. intros. subst on_n. apply layer_alone; auto. Qed.

(** A layer declared twice is placed twice. *)
Theorem C34_duplicate_layer_refuted : exists keys s cs a v,
  enumerates keys cs /\ own_indices cs /\ ps_layout s <> LGrid /\
  map pl_index (arrange_layers keys s cs a v) = [0%nat; 0%nat] /\ length cs = 1%nat.
Proof.
  exists [[65]], (pcol ALeft ATop (Some [[65]; [65]])), [layered 0 [65]], (Region 0 0 10 10), (Viewport 10 10).
  split; [split; [repeat constructor; easy|]|].
  - intros n. simpl. split.
    + intros [<-|[]]. eexists; split; [left; reflexivity|reflexivity].
    + intros (c & [<-|[]] & <-). left; reflexivity.
  - split; [repeat constructor; easy|]. split; [discriminate|]. split; vm_compute; reflexivity.
Qed.

Definition layer_kids : list child := [layered 0 [66]; mk 1 base_style; layered 2 [65]; layered 3 [67]; layered 4 [66]].
Definition layer_keys : list text := [[67]; [65]; [100; 101; 102; 97; 117; 108; 116]; [66]].
Example C34_nonvacuous :
  let s := pcol ALeft ATop (Some [[65]; [66]]) in
  own_indices layer_kids /\ enumerates layer_keys layer_kids /\ NoDup (order_of s) /\
  map pl_index (arrange_layers layer_keys s layer_kids (Region 0 0 9 9) (Viewport 9 9)) = [3; 1; 2; 0; 4]%nat.
Proof.
  split; [repeat constructor; simpl; intuition discriminate|]. split; [split; [repeat constructor; simpl; intuition discriminate|]|].
  - intros n. split.
    + simpl. intros [<-|[<-|[<-|[<-|[]]]]].
      * exists (layered 3 [67]). split; [simpl; auto|reflexivity].
      * exists (layered 2 [65]). split; [simpl; auto|reflexivity].
      * exists (mk 1 base_style). split; [simpl; auto|reflexivity].
      * exists (layered 0 [66]). split; [simpl; auto|reflexivity].
    + intros (c & Hc & <-). simpl in Hc. repeat (destruct Hc as [<-|Hc]; [vm_compute; auto|]). easy.
  - split; [repeat constructor; simpl; intuition discriminate|]. vm_compute. reflexivity.
Qed.

(** ** C35 Alignment *)

(** All children move together, by the share of the free space that the
    alignment asks for; when the content is larger than the container nothing
    moves. [hull]: bounds of the margin boxes before alignment. *)
Theorem C35_common_shift : forall s cs a v x0 x1 y0 y1, own_indices cs -> Forall plain cs ->
  let before := arrange_children (top_left s) cs a v in
  is_hull (map box_x (combine cs before)) x0 x1 -> is_hull (map box_y (combine cs before)) y0 y1 ->
  exists dx dy, Forall2 (moved dx dy) before (arrange_children s cs a v) /\
    (let room := Z.max (rg_w a - (x1 - x0)) 0 in
     match ps_align_h s with ALeft => dx = 0 | ACenter => 2 * dx <= room <= 2 * dx + 1 | ARight => dx = room end) /\
    (let room := Z.max (rg_h a - (y1 - y0)) 0 in
     match ps_align_v s with ATop => dy = 0 | AMiddle => 2 * dy <= room <= 2 * dy + 1 | ABottom => dy = room end).
Proof.
  intros s cs a v x0 x1 y0 y1 N P before Hx Hy. subst before. rewrite plain_top_left in * by auto.
  rewrite plain_arrange by auto. destruct (layout_placed' s cs a v N) as [E Pl]. set (l := combine cs (run_layout s cs a v)) in *.
  assert (NE : l <> []). { intros K. rewrite K in Hx. destruct Hx as ((z & [] & _) & _). }
  pose proof (alignment_spec cs l s a x0 x1 y0 y1 NE Pl Hx Hy) as AS. rewrite E in AS. rewrite AS.
  eexists; eexists; split; [|split].
  - induction (run_layout s cs a v) as [|p ps IH] in |- *; constructor.
    + unfold moved, shift, p_left, p_top, p_width, p_height. simpl. repeat split; reflexivity.
    + exact IH.
  - unfold offset_h. destruct (ps_align_h s); auto. rewrite Z.quot_div_nonneg by lia.
    pose proof (Z.div_mod (Z.max (rg_w a - (x1 - x0)) 0) 2 ltac:(lia)). pose proof (Z.mod_pos_bound (Z.max (rg_w a - (x1 - x0)) 0) 2 ltac:(lia)). lia.
  - unfold offset_v. destruct (ps_align_v s); auto. rewrite Z.quot_div_nonneg by lia.
    pose proof (Z.div_mod (Z.max (rg_h a - (y1 - y0)) 0) 2 ltac:(lia)). pose proof (Z.mod_pos_bound (Z.max (rg_h a - (y1 - y0)) 0) 2 ltac:(lia)). lia.
Qed.

(** In a row or column the content ends up where the alignment says: at the
    edge, or with margins that differ by at most one cell.  Content that is too
    large starts at the left or top edge. *)
Theorem C35_aligned : forall s cs a v x0 x1 y0 y1, own_indices cs -> Forall plain cs ->
  ps_layout s <> LGrid -> Forall nonneg_child cs -> nonneg_region a -> nonneg_viewport v ->
  let after := arrange_children s cs a v in
  is_hull (map box_x (combine cs after)) x0 x1 -> is_hull (map box_y (combine cs after)) y0 y1 ->
  (if x1 - x0 <=? rg_w a then
     match ps_align_h s with
     | ALeft => x0 = rg_x a
     | ACenter => 0 <= (rg_x a + rg_w a - x1) - (x0 - rg_x a) <= 1
     | ARight => x1 = rg_x a + rg_w a end
   else x0 = rg_x a) /\
  (if y1 - y0 <=? rg_h a then
     match ps_align_v s with
     | ATop => y0 = rg_y a
     | AMiddle => 0 <= (rg_y a + rg_h a - y1) - (y0 - rg_y a) <= 1
     | ABottom => y1 = rg_y a + rg_h a end
   else y0 = rg_y a).
Proof.
  intros s cs a v x0 x1 y0 y1 N P G Hn Ha Hv after Hx Hy. subst after.
  destruct (combine cs (run_layout s cs a v)) as [|e0 l0] eqn:EL.
  { exfalso. rewrite plain_arrange in Hx by auto. destruct Hx as ((z & Hz & _) & _).
    destruct cs as [|c cs]; [easy|]. destruct (run_layout s (c :: cs) a v); [easy|discriminate]. }
  assert (NE : combine cs (run_layout s cs a v) <> []) by (rewrite EL; discriminate). clear EL e0 l0.
  destruct (hull_exists (map box_x (combine cs (run_layout s cs a v)))) as (u0 & u1 & HU). { intros K; apply map_eq_nil in K; auto. }
  destruct (hull_exists (map box_y (combine cs (run_layout s cs a v)))) as (w0 & w1 & HW). { intros K; apply map_eq_nil in K; auto. }
  destruct (layout_placed' s cs a v N) as [E Pl].
  pose proof (alignment_spec cs _ s a u0 u1 w0 w1 NE Pl HU HW) as AS. rewrite E in AS.
  rewrite plain_arrange in Hx, Hy by auto. rewrite AS, combine_map_right, map_map in Hx, Hy.
  destruct (row_col_hull s cs a v u0 u1 G Hn Ha Hv) as [RX _]. pose proof (RX HU) as ->.
  destruct (row_col_hull s cs a v w0 w1 G Hn Ha Hv) as [_ RY]. pose proof (RY HW) as ->.
  set (dx := offset_h _ _) in *. set (dy := offset_v _ _) in *.
  assert (EX : map (fun x => box_x (fst x, shift dx dy (snd x))) (combine cs (run_layout s cs a v))
     = map (fun x => (fst x + dx, snd x + dx)) (map box_x (combine cs (run_layout s cs a v)))).
  { rewrite map_map. apply map_ext. intros [c p]. unfold box_x, p_left, p_right, shift. simpl. f_equal; lia. }
  assert (EY : map (fun x => box_y (fst x, shift dx dy (snd x))) (combine cs (run_layout s cs a v))
     = map (fun x => (fst x + dy, snd x + dy)) (map box_y (combine cs (run_layout s cs a v)))).
  { rewrite map_map. apply map_ext. intros [c p]. unfold box_y, p_top, p_bottom, shift. simpl. f_equal; lia. }
  rewrite EX in Hx. rewrite EY in Hy. apply hull_unshift in Hx. apply hull_unshift in Hy.
  destruct (hull_unique _ _ _ _ _ HU Hx) as [X0 X1]. destruct (hull_unique _ _ _ _ _ HW Hy) as [Y0 Y1].
  split.
  - unfold dx, offset_h in *. clear Hx Hy EX EY. set (m := rg_w a - (u1 - rg_x a)) in *.
    destruct (Z.leb_spec (x1 - x0) (rg_w a)); destruct (ps_align_h s); rewrite ?Z.quot_div_nonneg in * by lia;
    pose proof (Z.div_mod (Z.max m 0) 2 ltac:(lia)); pose proof (Z.mod_pos_bound (Z.max m 0) 2 ltac:(lia)); lia.
  - unfold dy, offset_v in *. clear Hx Hy EX EY. set (m := rg_h a - (w1 - rg_y a)) in *.
    destruct (Z.leb_spec (y1 - y0) (rg_h a)); destruct (ps_align_v s); rewrite ?Z.quot_div_nonneg in * by lia;
    pose proof (Z.div_mod (Z.max m 0) 2 ltac:(lia)); pose proof (Z.mod_pos_bound (Z.max m 0) 2 ltac:(lia)); lia.
Qed.

Definition boxes : list child := [plain_box 0 6 2; plain_box 1 3 3].
Example C35_nonvacuous :
  own_indices boxes /\ Forall plain boxes /\ Forall nonneg_child boxes /\
  map pl_region (arrange_children (pcol ACenter ABottom None) boxes (Region 10 10 21 12) (Viewport 80 24))
  = [Region 17 17 6 2; Region 17 19 3 3] /\
  let after := arrange_children (pcol ACenter ABottom None) boxes (Region 10 10 21 12) (Viewport 80 24) in
  is_hull (map box_x (combine boxes after)) 17 23 /\ is_hull (map box_y (combine boxes after)) 17 22.
Proof.
  split; [repeat constructor; simpl; intuition discriminate|]. split; [repeat constructor|].
  split; [repeat constructor; simpl; try (vm_compute; discriminate); try lra; try lia|]. split; [vm_compute; reflexivity|].
  intros after. replace (combine boxes after) with [(plain_box 0 6 2, Placement 0 (Region 17 17 6 2)); (plain_box 1 3 3, Placement 1 (Region 17 19 3 3))] by (vm_compute; reflexivity).
  clear after. split; (split; [|split]); try (intros x Hx; vm_compute in Hx; destruct Hx as [<-|[<-|[]]]; simpl; lia).
  - exists (17, 23). split; [vm_compute; auto|reflexivity].
  - exists (17, 23). split; [vm_compute; auto|reflexivity].
  - exists (17, 19). split; [vm_compute; auto|reflexivity].
  - exists (19, 22). split; [vm_compute; auto|reflexivity].
Qed.

(** ** C61 Offsets and absolute children *)

(** An offset moves its own child by the stated amount and nothing else. *)
Theorem C61_offset_moves_only_itself : forall s cs a v, own_indices cs ->
  Forall2 (fun p p' => forall c, In c cs -> ch_index c = pl_index p ->
      moved (offset_amount (l_offset_x (ch_style c)) (p_width p) p v) (offset_amount (l_offset_y (ch_style c)) (p_height p) p v) p p')
    (arrange_children s (map without_offset cs) a v) (arrange_children s cs a v).
Proof.
  intros s cs a v N. rewrite (offsets_last s cs a v). unfold apply_offset. induction (arrange_children s (map without_offset cs) a v) as [|p ps IH]; constructor; auto.
  intros c Hc E. unfold offset_one. rewrite <- E. rewrite find_own by auto.
  unfold moved, shift, p_left, p_top, p_width, p_height. cbn [pl_index pl_region rg_x rg_y rg_w rg_h].
  assert (G : forall o b, offset_value o b (pl_region p) v = offset_amount o b p v).
  { intros [[q []]|] b; reflexivity. }
  rewrite !G. repeat split; reflexivity.
Qed.

(** An absolute child does not disturb the others. *)
Theorem C61_absolute_leaves_siblings : forall s cs a v, own_indices cs ->
  of_children (sitting cs) (arrange_children s cs a v) = arrange_children s (sitting cs) a v.
Proof. intros. apply sitting_alone; auto. Qed.

(** It is put at the top left corner of what the docks leave, with a
    non-negative size. *)
Theorem C61_absolute_at_corner : forall s cs a v c, own_indices cs -> In c cs -> floating c = true -> unmoved c ->
  exists p, In p (arrange_children s cs a v) /\ pl_index p = ch_index c /\
    p_left p = rg_x (inner a cs) /\ p_top p = rg_y (inner a cs) /\ 0 <= p_width p /\ 0 <= p_height p.
Proof.
  intros s cs a v c N Hc Hf Hu. exists (absolute_placement (inner a cs) v c). split.
  - rewrite arrange_eq. apply in_or_app. right. apply in_or_app. right. apply in_map_iff. exists (absolute_placement (inner a cs) v c). split.
    + eapply offset_unmoved; eauto.
    + apply in_map. apply filter_In. split; auto. rewrite <- floating_eq. auto.
  - unfold p_left, p_top, p_width, p_height, absolute_placement. cbn [pl_index pl_region rg_x rg_y rg_w rg_h]. repeat split; lia.
Qed.

Definition moving_kids : list child :=
  [plain_box 0 6 2; sized 1 (restyle (with_width (cells 4) (with_height (cells 2) base_style)) None true None (Some (cells 3)) None) 4 2;
   sized 2 (restyle (with_width (cells 5) (with_height (cells 2) base_style)) None false None (Some (percent 100)) (Some (cells (-1)))) 4 2].
Example C61_nonvacuous : own_indices moving_kids /\
  map (fun p => (pl_index p, pl_region p)) (arrange_children (pcol ALeft ATop None) moving_kids (Region 0 0 20 10) (Viewport 20 10))
  = [(0%nat, Region 0 0 6 2); (2%nat, Region 5 1 5 2); (1%nat, Region 3 0 4 2)].
Proof. split; [repeat constructor; simpl; intuition discriminate|]. vm_compute. reflexivity. Qed.

(** ** C62 Every child has a place *)

Theorem C62_each_child_once : forall s cs a v, ps_layout s <> LGrid ->
  Permutation (map pl_index (arrange_children s cs a v)) (map ch_index cs).
Proof. intros. apply arrange_perm; auto. Qed.
(** In a grid children can be missing ([C31_dropped_refuted]), but none is placed twice. *)
Theorem C62_never_twice : forall s cs a v, own_indices cs ->
  NoDup (map pl_index (arrange_children s cs a v)) /\ incl (map pl_index (arrange_children s cs a v)) (map ch_index cs).
Proof. intros. apply arrange_at_most_once; auto. Qed.
Example C62_nonvacuous :
  map pl_index (arrange_children (pcol ARight AMiddle None) (docked_screen ++ [plain_box 7 6 2]) (Region 0 0 80 24) (Viewport 80 24))
  = [0; 2; 3; 4; 1; 7]%nat.
Proof. vm_compute. reflexivity. Qed.

Print Assumptions C33_dock_at_edge.
Print Assumptions C33_rest_arranged_inside.
Print Assumptions C33_docks_clear.
Print Assumptions C33_inner_inside.
Print Assumptions C33_inner_nonneg.
Print Assumptions C33_too_big_refuted.
Print Assumptions C33_docks_overlap_refuted.
Print Assumptions C34_each_child_once.
Print Assumptions C34_layer_order.
Print Assumptions C34_layers_independent.
Print Assumptions C34_duplicate_layer_refuted.
Print Assumptions C35_common_shift.
Print Assumptions C35_aligned.
Print Assumptions C61_offset_moves_only_itself.
Print Assumptions C61_absolute_leaves_siblings.
Print Assumptions C61_absolute_at_corner.
Print Assumptions C62_each_child_once.
Print Assumptions C62_never_twice.
