(** More lemmas: where aligned boxes start, docked and undocked children apart,
    offsets and layers. *)
From Coq Require Import ZArith QArith Qround Qminmax List Bool Arith Lia Lqa Permutation Sorted.
From Verif Require Import Text_Model Fraction_Model Canvas_Model Layout_Model Layout_Spec Layout_Proofs Column_Proofs
  Css_Proofs Grid_Model Grid_Spec Arrange_Model Arrange_Spec Arrange_Proofs.
Import ListNotations.
Open Scope Z_scope.
Local Arguments Z.add : simpl never.
Local Arguments Z.sub : simpl never.
Local Arguments Z.mul : simpl never.
Local Arguments Z.max : simpl never.
Local Arguments Z.min : simpl never.
Local Arguments Z.of_nat : simpl never.

(** ** A row or column starts at the corner of its region *)
Lemma row_place_boxes : forall (l : list (child * Z)) (first : bool) prev x a v, nonneg_region a -> nonneg_viewport v ->
  Forall (fun e : child * Z => nonneg_child (fst e) /\ 0 <= snd e) l -> 0 <= prev ->
  Forall (fun e : child * placement => x - (if first then 0 else prev) <= fst (box_x e) /\ fst (box_y e) = rg_y a)
    (combine (map fst l) (row_place first prev x a v l)).
Proof.
  induction l as [|[c w] l IH]; intros first prev x a v Ha Hv H Hp; [constructor|].
  inversion H as [|? ? [Hc Hw] H']; subst. cbn [fst snd] in *.
  cbn [row_place map fst combine]. set (ml := trunc (l_ml (ch_style c))). set (mr := trunc (l_mr (ch_style c))).
  assert (Hml : 0 <= ml) by (apply trunc_nonneg; unfold nonneg_child in Hc; tauto).
  assert (Hmr : 0 <= mr) by (apply trunc_nonneg; unfold nonneg_child in Hc; tauto).
  pose proof (clamp_width_nonneg c a v w Hc Ha Hv Hw) as HW.
  constructor.
  - unfold box_x, box_y, p_left, p_top. cbn [fst snd pl_region rg_x rg_y]. fold ml. destruct first; lia.
  - specialize (IH false mr (x + (if first then ml else Z.max (ml - prev) 0) + clamp_width (ch_style c) a v w + mr) a v Ha Hv H' Hmr).
    eapply Forall_impl; [|exact IH]. intros e [E1 E2]. split; auto. cbv iota in E1. destruct first; lia.
Qed.
Lemma combine_mapfst : forall (A B : Type) (l : list A) (m : list B), length m = length l -> map fst (combine l m) = l.
Proof. intros. apply combine_fst. auto. Qed.
Lemma Forall_combine : forall (A B : Type) (P : A -> Prop) (R : B -> Prop) (l : list A) (m : list B),
  Forall P l -> Forall R m -> Forall (fun e => P (fst e) /\ R (snd e)) (combine l m).
Proof. induction l; intros [|b m] H1 H2; simpl; constructor; inversion H1; inversion H2; subst; auto. Qed.

Lemma trunc_floor : forall q, (0 <= q)%Q -> trunc q = Qfloor q.
Proof.
  intros [n d] H. unfold trunc. unfold Qle in H. simpl in H. unfold Qfloor. cbn [Qnum Qden].
  apply Z.quot_div_nonneg; lia.
Qed.
Lemma floor_shift : forall z q, Qfloor (inject_Z z + q) = z + Qfloor q.
Proof.
  intros. destruct q as [n d]. unfold Qfloor, inject_Z, Qplus. cbn [Qnum Qden].
  rewrite Z.mul_1_r. replace (z * Z.pos d + n) with (n + z * Z.pos d) by lia. rewrite Pos.mul_1_l. rewrite Z.div_add by lia. lia.
Qed.
Lemma col_place_boxes : forall l u (first : bool) prev y a v, nonneg_region a -> nonneg_viewport v -> (0 <= u)%Q ->
  Forall nonneg_child l ->
  (if first then y == inject_Z (rg_y a) else inject_Z (rg_y a) <= y - prev /\ 0 <= prev)%Q ->
  Forall (fun e : child * placement => rg_y a <= fst (box_y e) /\ fst (box_x e) = rg_x a) (combine l (col_place u first prev y a v l)).
Proof.
  induction l as [|c l IH]; intros u first prev y a v Ha Hv Hu H Hy; [constructor|].
  inversion H as [|? ? Hc H']; subst. cbn [col_place combine].
  set (mt := l_mt (ch_style c)). set (mb := l_mb (ch_style c)).
  assert (Hmt : (0 <= mt)%Q) by (unfold nonneg_child in Hc; tauto).
  assert (Hmb : (0 <= mb)%Q) by (unfold nonneg_child in Hc; tauto).
  pose proof (box_height_nonneg u c a v Hc Ha Hv Hu) as HB.
  set (y1 := (y + (if first then mt else Qmax (mt - prev) 0))%Q).
  assert (Y1 : (inject_Z (rg_y a) + mt <= y1)%Q).
  { unfold y1. destruct first. lra. destruct Hy. destruct (Qmax_case' (mt - prev) 0) as [[E ?]|[E ?]]; rewrite E; lra. }
  constructor.
  - unfold box_x, box_y, p_left, p_top. cbn [fst snd pl_region rg_x rg_y]. fold mt. fold y1. split; [|lia].
    rewrite trunc_floor by auto. apply floor_le in Y1. rewrite floor_shift in Y1. lia.
  - eapply Forall_impl; [|apply IH; auto]. intros e He; exact He. cbv iota. fold mb. split; auto. lra.
Qed.

Lemma row_col_boxes : forall s cs a v e, ps_layout s <> LGrid -> Forall nonneg_child cs -> nonneg_region a -> nonneg_viewport v ->
  In e (combine cs (run_layout s cs a v)) -> rg_x a <= fst (box_x e) /\ rg_y a <= fst (box_y e).
Proof.
  intros s cs a v e HG Hc Ha Hv He. unfold run_layout in He. destruct (ps_layout s); [congruence| |].
  - unfold vertical_arrange in He.
    pose proof (col_place_boxes cs (fraction_unit cs a v) true 0 (qz (rg_y a)) a v Ha Hv (fraction_unit_nonneg _ _ _) Hc) as F.
    rewrite Forall_forall in F. destruct (F ltac:(unfold qz; apply Qeq_refl) _ He). lia.
  - unfold horizontal_arrange in He. set (l := combine cs (row_widths cs a v)) in *.
    assert (E : map fst l = cs) by (apply combine_fst; apply row_widths_length). 
    pose proof (row_place_boxes l true 0 (rg_x a) a v Ha Hv) as F. rewrite E in F.
    destruct (proj1 (Forall_forall _ _) (F (Forall_combine _ _ _ _ _ _ Hc (row_widths_nonneg cs a v Hc Ha Hv)) (Z.le_refl 0)) _ He). lia.
Qed.
Lemma row_col_first : forall s c cs a v p r, ps_layout s <> LGrid -> Forall nonneg_child (c :: cs) ->
  run_layout s (c :: cs) a v = p :: r -> fst (box_x (c, p)) = rg_x a /\ fst (box_y (c, p)) = rg_y a.
Proof.
  intros s c cs a v p r HG Hc E. unfold run_layout in E. inversion Hc as [|? ? H1 _]; subst. destruct (ps_layout s); [congruence| |].
  - unfold vertical_arrange in E. cbn [col_place] in E.
    apply (f_equal (@hd_error placement)) in E. cbn [hd_error] in E. apply some_eq in E. subst p.
    unfold box_x, box_y, p_left, p_top. cbn [fst snd pl_region rg_x rg_y]. split; [lia|]. unfold qz. rewrite floor_shift.
    rewrite trunc_floor. lia. unfold nonneg_child in H1; tauto.
  - unfold horizontal_arrange in E. pose proof (row_widths_length (c :: cs) a v) as L.
    destruct (row_widths (c :: cs) a v) as [|w ws]; [discriminate|]. cbn [combine row_place] in E. injection E as <- <-.
    unfold box_x, box_y, p_left, p_top. cbn [fst snd pl_region rg_x rg_y]. lia.
Qed.
Lemma row_col_hull : forall s cs a v lo hi, ps_layout s <> LGrid -> Forall nonneg_child cs -> nonneg_region a -> nonneg_viewport v ->
  (is_hull (map box_x (combine cs (run_layout s cs a v))) lo hi -> lo = rg_x a) /\
  (is_hull (map box_y (combine cs (run_layout s cs a v))) lo hi -> lo = rg_y a).
Proof.
  intros s cs a v lo hi HG Hc Ha Hv.
  assert (B : forall e, In e (combine cs (run_layout s cs a v)) -> rg_x a <= fst (box_x e) /\ rg_y a <= fst (box_y e))
    by (intros; eapply row_col_boxes; eauto).
  assert (F : combine cs (run_layout s cs a v) <> [] -> exists e, In e (combine cs (run_layout s cs a v)) /\
     fst (box_x e) = rg_x a /\ fst (box_y e) = rg_y a).
  { destruct cs as [|c cs]; [intros K; now contradiction K|]. destruct (run_layout s (c :: cs) a v) as [|p r] eqn:E; [intros K; now contradiction K|].
    intros _. exists (c, p). split; [left; auto|]. eapply row_col_first; eauto. }
  split; intros ((x & Hx & Ex) & _ & Hall).
  - apply in_map_iff in Hx. destruct Hx as (e & <- & He). destruct F as (e' & He' & E1 & _). { intros K; rewrite K in He; easy. }
    pose proof (Hall _ (in_map box_x _ _ He')). pose proof (B _ He). lia.
  - apply in_map_iff in Hx. destruct Hx as (e & <- & He). destruct F as (e' & He' & _ & E1). { intros K; rewrite K in He; easy. }
    pose proof (Hall _ (in_map box_y _ _ He')). pose proof (B _ He). lia.
Qed.

(** ** Docked and other children do not mix *)
Lemma of_children_all : forall l ps, (forall p, In p ps -> In (pl_index p) (map ch_index l)) -> of_children l ps = ps.
Proof.
  intros l ps. unfold of_children. induction ps as [|p ps IH]; intros H; simpl; auto.
  replace (existsb (fun c => (ch_index c =? pl_index p)%nat) l) with true.
  - f_equal. apply IH. intros q Hq. apply H. right; auto.
  - symmetry. apply existsb_exists. specialize (H p (or_introl eq_refl)). apply in_map_iff in H. destruct H as (c & E & Hc).
    exists c. split; auto. apply Nat.eqb_eq. auto.
Qed.
Lemma of_children_none : forall l ps, (forall p, In p ps -> ~ In (pl_index p) (map ch_index l)) -> of_children l ps = [].
Proof.
  intros l ps. unfold of_children. induction ps as [|p ps IH]; intros H; simpl; auto.
  destruct (existsb (fun c => (ch_index c =? pl_index p)%nat) l) eqn:E.
  - exfalso. apply existsb_exists in E. destruct E as (c & Hc & E). apply Nat.eqb_eq in E.
    apply (H p (or_introl eq_refl)). rewrite <- E. apply in_map. auto.
  - apply IH. intros q Hq. apply H. right; auto.
Qed.
Lemma of_children_app : forall l ps qs, of_children l (ps ++ qs) = of_children l ps ++ of_children l qs.
Proof. intros. apply filter_app. Qed.

Lemma offset_sub : forall f cs v ps, own_indices cs -> (forall p, In p ps -> In (pl_index p) (map ch_index (filter f cs))) ->
  apply_offset ps (filter f cs) v = apply_offset ps cs v.
Proof.
  intros f cs v ps N H. unfold apply_offset. apply map_ext_in. intros p Hp. apply H in Hp. apply in_map_iff in Hp.
  destruct Hp as (c & E & Hc). unfold offset_one. rewrite <- E. rewrite !find_own; auto. apply filter_In in Hc; apply Hc. apply own_filter; auto.
Qed.

Lemma filter_filter : forall (A : Type) (f g : A -> bool) l, filter f (filter g l) = filter (fun x => g x && f x) l.
Proof. induction l as [|x l IH]; simpl; auto. destruct (g x); simpl; [|exact IH]. destruct (f x); simpl; rewrite IH; auto. Qed.
Lemma filter_ext' : forall (A : Type) (f g : A -> bool) l, (forall x, f x = g x) -> filter f l = filter g l.
Proof. intros. apply filter_ext. auto. Qed.
Lemma filter_false : forall (A : Type) (f : A -> bool) l, (forall x, f x = false) -> filter f l = [].
Proof. induction l; simpl; auto. intros H. rewrite H. auto. Qed.

Lemma undocked_eq : forall c, match dock_of c with None => true | Some _ => false end = negb (is_docked c).
Proof. intros. unfold dock_of, is_docked. destruct (l_dock (ch_style c)); auto. Qed.
Lemma docked_undocked : forall cs, docked_of (undocked cs) = [].
Proof.
  intros. unfold docked_of, undocked. rewrite filter_filter. apply filter_false. intros c. rewrite undocked_eq. destruct (is_docked c); auto.
Qed.
Lemma flow_undocked : forall cs, flow_of (undocked cs) = flow_of cs.
Proof.
  intros. unfold flow_of, undocked. rewrite filter_filter. apply filter_ext'. intros c. rewrite undocked_eq. destruct (is_docked c); auto.
Qed.
Lemma absolute_undocked : forall cs, absolute_of (undocked cs) = absolute_of cs.
Proof.
  intros. unfold absolute_of, undocked. rewrite filter_filter. apply filter_ext'. intros c. rewrite undocked_eq. destruct (is_docked c); auto.
Qed.
Lemma reach_undocked : forall d cs, reach d (undocked cs) = 0.
Proof.
  intros. unfold undocked. induction cs as [|c cs IH]; simpl; auto. destruct (dock_of c) eqn:E; auto. simpl. rewrite E. exact IH.
Qed.
Lemma inner_undocked : forall a cs, inner a (undocked cs) = a.
Proof. intros [x y w h] cs. unfold inner. rewrite !reach_undocked. simpl. f_equal; lia. Qed.

Lemma in_sub_index : forall f g cs i, (forall c, f c = true -> g c = true) -> In i (map ch_index (filter f cs)) -> In i (map ch_index (filter g cs)).
Proof.
  intros f g cs i H Hi. apply in_map_iff in Hi. destruct Hi as (c & E & Hc). apply filter_In in Hc. destruct Hc as [H1 H2].
  rewrite <- E. apply in_map. apply filter_In. split; auto.
Qed.
Lemma flow_indices : forall s cs a v p, In p (apply_alignment (run_layout s (flow_of cs) a v) (flow_of cs) s a) ->
  In (pl_index p) (map ch_index (flow_of cs)).
Proof.
  intros s cs a v p H. apply (in_map pl_index) in H. rewrite alignment_index in H.
  destruct (run_layout_index s (flow_of cs) a v) as (k & E). rewrite E in H. eapply firstn_incl; eauto.
Qed.
Lemma absolute_indices : forall cs a v p, In p (map (absolute_placement a v) (absolute_of cs)) ->
  In (pl_index p) (map ch_index (absolute_of cs)).
Proof. intros cs a v p H. apply in_map_iff in H. destruct H as (c & <- & H). simpl. apply in_map; auto. Qed.
Lemma offset_in_index : forall ps cs v p, In p (apply_offset ps cs v) -> In (pl_index p) (map pl_index ps).
Proof. intros ps cs v p H. rewrite <- (apply_offset_index ps cs v). apply in_map; auto. Qed.
Lemma dock_indices : forall cs a p, In p (dock_ps cs a) -> In (pl_index p) (map ch_index (docked_of cs)).
Proof. intros cs a p H. apply (in_map pl_index) in H. unfold dock_ps in H. rewrite docked_of_index in H. exact H. Qed.

Lemma sep_index : forall f g cs i, own_indices cs -> (forall c, f c = true -> g c = true -> False) ->
  In i (map ch_index (filter f cs)) -> ~ In i (map ch_index (filter g cs)).
Proof.
  intros f g cs i N H Hi Hj. apply in_map_iff in Hi. destruct Hi as (c & E & Hc). apply in_map_iff in Hj. destruct Hj as (d & E' & Hd).
  apply filter_In in Hc. apply filter_In in Hd. destruct Hc, Hd. assert (c = d) by (eapply in_map_inj; eauto; congruence). subst. eauto.
Qed.

Lemma undocked_alone : forall s cs a v, own_indices cs ->
  of_children (undocked cs) (arrange_children s cs a v) = arrange_children s (undocked cs) (inner a cs) v.
Proof.
  intros s cs a v N. rewrite !arrange_eq. rewrite !of_children_app. unfold dock_ps at 2. rewrite docked_undocked. cbn [arrange_docked fst apply_offset map app].
  rewrite inner_undocked, flow_undocked, absolute_undocked.
  assert (SF : forall i, In i (map ch_index (flow_of cs)) -> In i (map ch_index (undocked cs))).
  { intros i. apply in_sub_index. intros c H. rewrite undocked_eq. apply andb_true_iff in H. apply H. }
  assert (SA : forall i, In i (map ch_index (absolute_of cs)) -> In i (map ch_index (undocked cs))).
  { intros i. apply in_sub_index. intros c H. rewrite undocked_eq. apply andb_true_iff in H. apply H. }
  rewrite of_children_none.
  2:{ intros p H. apply offset_in_index in H. apply in_map_iff in H. destruct H as (q & E & H). apply dock_indices in H. rewrite <- E.
      eapply sep_index; [exact N| |exact H]. intros c. cbv beta. rewrite undocked_eq. destruct (is_docked c); auto; discriminate. }
  cbn [app].
  unfold undocked at 3 4. rewrite offset_sub; auto. 2:{ intros p H. apply SF. eapply flow_indices; eauto. }
  rewrite offset_sub; auto. 2:{ intros p H. apply SA. eapply absolute_indices; eauto. }
  f_equal; apply of_children_all; intros p H; apply offset_in_index in H; apply in_map_iff in H; destruct H as (q & E & H); rewrite <- E.
  - apply SF. eapply flow_indices; eauto.
  - apply SA. eapply absolute_indices; eauto.
Qed.

(** ** A docked child *)
Lemma dock_in : forall cs a c d, In c cs -> dock_of c = Some d -> In (Placement (ch_index c) (dock_region d c a)) (dock_ps cs a).
Proof.
  intros cs a c d Hc Hd. unfold dock_ps. rewrite docked_fst. apply in_flat_map. exists c. split.
  - apply filter_In. split; auto. unfold is_docked. unfold dock_of in Hd. rewrite Hd. reflexivity.
  - unfold dock_of in Hd. rewrite Hd. left; reflexivity.
Qed.
Lemma offset_unmoved : forall cs v c p, own_indices cs -> In c cs -> ch_index c = pl_index p -> unmoved c -> offset_one cs v p = p.
Proof.
  intros cs v c p N H E [U1 U2]. unfold offset_one. rewrite <- E. rewrite find_own by auto. rewrite U1, U2. unfold offset_value, shift.
  destruct p as [i [x y w h]]. simpl. do 2 f_equal; lia.
Qed.
Lemma reach_max : forall d cs c, In c cs -> dock_of c = Some d -> depth c <= reach d cs.
Proof.
  induction cs as [|b cs IH]; intros c H E; [easy|]. simpl. destruct H as [->|H].
  - rewrite E. destruct d; simpl; lia.
  - specialize (IH c H E). destruct (dock_of b) as [e|]; auto. destruct (edge_eqb d e); lia.
Qed.

(** ** Absolute children *)
Definition in_flow (cs : list child) : list child := filter (fun c => negb (negb (is_docked c) && l_absolute (ch_style c))) cs.

(** ** Offsets *)
Lemma wo_find : forall i l, find (fun c => (ch_index c =? i)%nat) (map without_offset l)
  = option_map without_offset (find (fun c => (ch_index c =? i)%nat) l).
Proof. induction l as [|c l IH]; simpl; auto. destruct (ch_index c =? i)%nat; auto. Qed.
Lemma wo_filter : forall f l, (forall c, f (without_offset c) = f c) -> filter f (map without_offset l) = map without_offset (filter f l).
Proof. induction l as [|c l IH]; intros H; simpl; auto. rewrite H, IH by auto. destruct (f c); auto. Qed.
Lemma wo_map : forall (B : Type) (f : child -> B) l, (forall c, f (without_offset c) = f c) -> map f (map without_offset l) = map f l.
Proof. intros. rewrite map_map. apply map_ext. auto. Qed.
Lemma combine_map_left : forall (A B C : Type) (f : A -> C) (l : list A) (m : list B),
  combine (map f l) m = map (fun e => (f (fst e), snd e)) (combine l m).
Proof. induction l; intros [|b m]; simpl; auto. f_equal. auto. Qed.
Lemma wo_margins : forall l f prev, margin_pass f prev (map without_offset l) = margin_pass f prev l.
Proof. induction l as [|c l IH]; intros; cbn [map margin_pass]; auto. rewrite IH. reflexivity. Qed.
Lemma wo_row_place : forall l f prev x a v, row_place f prev x a v (map (fun e => (without_offset (fst e), snd e)) l) = row_place f prev x a v l.
Proof. induction l as [|[c w] l IH]; intros; cbn [map row_place fst snd]; auto. rewrite IH. reflexivity. Qed.
Lemma wo_horizontal : forall l a v, horizontal_arrange (map without_offset l) a v = horizontal_arrange l a v.
Proof.
  intros. unfold horizontal_arrange. rewrite combine_map_left, wo_row_place. do 2 f_equal.
  unfold row_widths. rewrite wo_margins. rewrite wo_map by reflexivity. reflexivity.
Qed.
Lemma wo_vmargins : forall l f prev, v_margins f prev (map without_offset l) = v_margins f prev l.
Proof. induction l as [|c l IH]; intros; cbn [map v_margins]; auto. rewrite IH. reflexivity. Qed.
Lemma wo_col_place : forall l u f prev y a v, col_place u f prev y a v (map without_offset l) = col_place u f prev y a v l.
Proof. induction l as [|c l IH]; intros; cbn [map col_place]; auto. rewrite IH. reflexivity. Qed.
Lemma wo_vertical : forall l a v, vertical_arrange (map without_offset l) a v = vertical_arrange l a v.
Proof.
  intros. unfold vertical_arrange. rewrite wo_col_place. f_equal. unfold fraction_unit.
  rewrite wo_vmargins. rewrite !wo_map by reflexivity. reflexivity.
Qed.
Lemma wo_spans : forall l, spans_of (map without_offset l) = spans_of l.
Proof. intros. apply wo_map. reflexivity. Qed.
Lemma wo_content : forall tr sp des n l cells, (forall c, des (without_offset c) = des c) ->
  content_sizes tr sp des n (map without_offset l) cells = content_sizes tr sp des n l cells.
Proof.
  intros. unfold content_sizes. apply map_ext. intros k. rewrite combine_map_left. generalize 0. generalize (combine l cells).
  induction l0 as [|[c q] m IH]; intros z; cbn [map fold_left fst snd]; auto. rewrite H. apply IH.
Qed.
Lemma wo_grid : forall g l a, grid_arrange g (map without_offset l) a = grid_arrange g l a.
Proof.
  intros. unfold grid_arrange. rewrite map_length. destruct (grid_dims g (length l) a) as [rows cols] eqn:E.
  rewrite combine_map_left, map_map, wo_spans.
  assert (C : grid_columns g (map without_offset l) a = grid_columns g l a).
  { unfold grid_columns. rewrite map_length, E, wo_spans, wo_content by reflexivity. reflexivity. }
  assert (R : grid_rows g (map without_offset l) a = grid_rows g l a).
  { unfold grid_rows. rewrite map_length, E, wo_spans, wo_content by reflexivity. reflexivity. }
  rewrite C, R. apply map_ext. intros [c q]. reflexivity.
Qed.
Lemma wo_layout : forall s l a v, run_layout s (map without_offset l) a v = run_layout s l a v.
Proof. intros. unfold run_layout. destruct (ps_layout s). apply wo_grid. apply wo_vertical. apply wo_horizontal. Qed.
Lemma wo_box : forall l p, margin_box (map without_offset l) p = margin_box l p.
Proof. intros. unfold margin_box, margins_of. rewrite wo_find. destruct (find _ l); reflexivity. Qed.
Lemma wo_alignment : forall ps l s a, apply_alignment ps (map without_offset l) s a = apply_alignment ps l s a.
Proof.
  intros. unfold apply_alignment. destruct ps as [|p r]; auto. unfold placement_bounds. rewrite wo_box.
  rewrite (fold_map _ _ _ join_box (margin_box (map without_offset l))), (fold_map _ _ _ join_box (margin_box l)). erewrite (map_ext (margin_box (map without_offset l))); [reflexivity|]. intros; apply wo_box.
Qed.
Lemma wo_docked : forall l a s, arrange_docked (map without_offset l) a s = arrange_docked l a s.
Proof.
  induction l as [|c l IH]; intros; auto. cbn [map arrange_docked]. cbn [without_offset ch_style l_dock ch_index].
  destruct (l_dock (ch_style c)) as [d|]; [|apply IH]. rewrite IH. reflexivity.
Qed.
Lemma wo_reach : forall d l, reach d (map without_offset l) = reach d l.
Proof.
  intros d l. induction l as [|c l IH]; auto. cbn [map reach]. change (dock_of (without_offset c)) with (dock_of c).
  change (depth (without_offset c)) with (depth c). rewrite IH. reflexivity.
Qed.
Lemma wo_inner : forall a l, inner a (map without_offset l) = inner a l.
Proof. intros. unfold inner. rewrite !wo_reach. reflexivity. Qed.
Lemma wo_offset_id : forall l v ps, apply_offset ps (map without_offset l) v = ps.
Proof.
  intros. unfold apply_offset. rewrite <- (map_id ps) at 2. apply map_ext. intros [i [x y w h]]. unfold offset_one. rewrite wo_find.
  destruct (find _ l); auto. cbn. unfold shift. simpl. do 2 f_equal; lia.
Qed.
Lemma offsets_last : forall s cs a v, arrange_children s cs a v = apply_offset (arrange_children s (map without_offset cs) a v) cs v.
Proof.
  intros. rewrite !arrange_eq. rewrite !wo_offset_id. unfold apply_offset. rewrite !map_app.
  unfold dock_ps, docked_of, flow_of, absolute_of. rewrite !wo_filter by reflexivity.
  rewrite wo_docked, wo_inner, wo_layout, wo_alignment. rewrite (wo_map _ (absolute_placement (inner a cs) v)) by reflexivity. reflexivity.
Qed.

(** ** Layers *)
Definition layer_names (keys order : list text) : list text :=
  filter (fun n => negb (named n order)) keys ++ filter (fun n => named n keys) order.

Lemma named_in : forall n l, named n l = true <-> In n l.
Proof.
  intros. unfold named. rewrite existsb_exists. split.
  - intros (m & H & E). apply text_eqb_eq in E. subst; auto.
  - intros H. exists n. split; auto. apply text_eqb_eq; auto.
Qed.
Lemma layer_of_name : forall c, layer_of c = layer_name c. Proof. reflexivity. Qed.
Lemma on_layer_in : forall n cs c, In c (on_layer n cs) <-> In c cs /\ layer_name c = n.
Proof. intros. unfold on_layer. rewrite filter_In. rewrite text_eqb_eq. reflexivity. Qed.

Lemma arrange_nil : forall s a v, arrange_children s [] a v = [].
Proof.
  intros. unfold arrange_children. cbn. unfold run_layout. destruct (ps_layout s); reflexivity.
Qed.
Lemma flat_map_map : forall (A B C : Type) (f : A -> B) (g : B -> list C) l, flat_map g (map f l) = flat_map (fun x => g (f x)) l.
Proof. induction l; simpl; auto. rewrite IHl; auto. Qed.
Lemma flat_map_ext' : forall (A B : Type) (f g : A -> list B) l, (forall x, In x l -> f x = g x) -> flat_map f l = flat_map g l.
Proof. induction l; simpl; intros; auto. rewrite H by auto. f_equal. auto. Qed.

Lemma layers_eq : forall keys s cs a v, enumerates keys cs -> arrange_layers keys s cs a v
  = flat_map (fun n => arrange_children s (on_layer n cs) a v) (layer_names keys (order_of s)).
Proof.
  intros keys s cs a v [N K]. unfold arrange_layers.
  destruct ((match ps_layers s with Some _ => true | None => false end) || existsb _ cs) eqn:E; cbn [negb].
  - fold (order_of s). unfold build_layers. rewrite <- map_app, flat_map_map. apply flat_map_ext'. intros n _. cbn [snd].
    destruct (on_layer n cs) eqn:F; auto. rewrite arrange_nil; auto.
  - apply orb_false_iff in E. destruct E as [E1 E2]. unfold order_of. destruct (ps_layers s); [discriminate|]. change ([[100; 101; 102; 97; 117; 108; 116]]) with [default_layer].
    assert (D : forall c, In c cs -> layer_name c = default_layer).
    { intros c Hc. unfold layer_name. destruct (l_layer (ch_style c)) eqn:F; auto. exfalso.
      assert (existsb (fun c => match l_layer (ch_style c) with Some _ => true | None => false end) cs = true).
      { apply existsb_exists. exists c. rewrite F. auto. } congruence. }
    unfold layer_names.
    replace (filter (fun n => negb (named n [default_layer])) keys) with (@nil text).
    + simpl. destruct (named default_layer keys) eqn:F.
      * simpl. rewrite app_nil_r. f_equal. unfold on_layer. clear - D. induction cs as [|c cs IH]; auto. simpl.
        rewrite (proj2 (text_eqb_eq (layer_of c) default_layer)). 2:{ apply D. left; auto. } f_equal. apply IH. intros; apply D; right; auto.
      * simpl. destruct cs as [|c cs]; [apply arrange_nil|]. exfalso.
        assert (In default_layer keys). { apply K. exists c. split. left; auto. apply D. left; auto. }
        apply named_in in H. congruence.
    + symmetry. clear N. assert (H : forall n, In n keys -> n = default_layer). { intros n Hn. apply K in Hn. destruct Hn as (c & Hc & <-). apply D; auto. }
      clear K. induction keys as [|k keys IH]; auto. simpl. rewrite (H k) by (left; auto).
      replace (text_eqb default_layer default_layer) with true by reflexivity. simpl. apply IH. intros; apply H; right; auto.
Qed.

Lemma NoDup_filter' : forall (A : Type) (f : A -> bool) l, NoDup l -> NoDup (filter f l).
Proof. intros. apply NoDup_filter; auto. Qed.
Lemma NoDup_app' : forall (A : Type) (l m : list A), NoDup l -> NoDup m -> (forall x, In x l -> ~ In x m) -> NoDup (l ++ m).
Proof.
  induction l; simpl; intros m Hl Hm H; auto. inversion Hl; subst. constructor; auto.
  - intros K. apply in_app_or in K. destruct K; auto. eapply H; eauto.
Qed.
Lemma names_NoDup : forall keys order, NoDup keys -> NoDup order -> NoDup (layer_names keys order).
Proof.
  intros. unfold layer_names. apply NoDup_app'; try apply NoDup_filter'; auto.
  intros x Hx Hy. apply filter_In in Hx. apply filter_In in Hy. destruct Hx as [_ Hx], Hy as [Hy _]. apply named_in in Hy. rewrite Hy in Hx. discriminate.
Qed.
Lemma names_in : forall keys order n, In n (layer_names keys order) <-> In n keys.
Proof.
  intros. unfold layer_names. rewrite in_app_iff, !filter_In. rewrite named_in. destruct (named n order) eqn:E; simpl.
  - apply named_in in E. tauto.
  - split; [|tauto]. intros [H|[_ H]]; tauto.
Qed.

Lemma flat_map_insert : forall (B : Type) (m : text) (c : B) (f : text -> list B) names, NoDup names -> In m names ->
  Permutation (flat_map (fun n => if text_eqb m n then c :: f n else f n) names) (c :: flat_map f names).
Proof.
  induction names as [|n names IH]; intros N H; [easy|]. inversion N; subst. cbn [flat_map].
  destruct (text_eqb m n) eqn:E.
  - apply text_eqb_eq in E. subst. cbn [app]. constructor. apply Permutation_app_head.
    erewrite flat_map_ext'. reflexivity. intros x Hx. cbv beta. destruct (text_eqb n x) eqn:F; auto. apply text_eqb_eq in F. subst. contradiction.
  - destruct H as [->|H]. { rewrite (proj2 (text_eqb_eq m m)) in E; congruence. }
    eapply Permutation_trans. apply Permutation_app_head. apply IH; auto. symmetry. apply Permutation_middle.
Qed.
Lemma layers_partition : forall names cs, NoDup names -> (forall c, In c cs -> In (layer_name c) names) ->
  Permutation (flat_map (fun n => on_layer n cs) names) cs.
Proof.
  induction cs as [|c cs IH]; intros N H.
  - unfold on_layer. simpl. induction names; simpl; auto. apply IHnames. inversion N; auto. intros; easy.
  - eapply Permutation_trans; [apply (flat_map_insert _ (layer_name c) c (fun n => on_layer n cs)); auto|].
    + apply H. left; auto.
    + constructor. apply IH; auto. intros d Hd. apply H. right; auto.
Qed.
Lemma map_flat_map : forall (A B C : Type) (f : B -> C) (g : A -> list B) l, map f (flat_map g l) = flat_map (fun x => map f (g x)) l.
Proof. induction l; simpl; auto. rewrite map_app, IHl. auto. Qed.
Lemma flat_map_perm : forall (A B : Type) (f g : A -> list B) l, (forall x, In x l -> Permutation (f x) (g x)) ->
  Permutation (flat_map f l) (flat_map g l).
Proof. induction l; simpl; intros; auto. apply Permutation_app; auto. Qed.

Lemma layers_perm : forall keys s cs a v, enumerates keys cs -> NoDup (order_of s) -> ps_layout s <> LGrid ->
  Permutation (map pl_index (arrange_layers keys s cs a v)) (map ch_index cs).
Proof.
  intros keys s cs a v K N G. rewrite layers_eq by auto. rewrite map_flat_map.
  eapply Permutation_trans. apply flat_map_perm. intros n _. apply arrange_perm. exact G.
  rewrite <- map_flat_map. apply Permutation_map. destruct K as [NK K]. apply layers_partition. apply names_NoDup; auto.
  intros c Hc. apply names_in. apply K. exists c; auto.
Qed.

Lemma arrange_sub_index : forall s cs a v p, In p (arrange_children s cs a v) -> In (pl_index p) (map ch_index cs).
Proof.
  intros s cs a v p H. destruct (arrange_index s cs a v) as (k & E). apply (in_map pl_index) in H. rewrite E in H.
  assert (In (pl_index p) (map ch_index (docked_of cs) ++ map ch_index (flow_of cs) ++ map ch_index (absolute_of cs))).
  { apply in_app_or in H. apply in_or_app. destruct H as [H|H]; auto. right. apply in_app_or in H. apply in_or_app. destruct H as [H|H]; auto.
    left. eapply firstn_incl; eauto. }
  rewrite <- !map_app in H0. eapply Permutation_in; [|exact H0]. apply Permutation_map. apply three_ways.
Qed.

Lemma layer_alone : forall keys s cs a v n, own_indices cs -> enumerates keys cs -> NoDup (order_of s) ->
  of_children (on_layer n cs) (arrange_layers keys s cs a v) = arrange_children s (on_layer n cs) a v.
Proof.
  intros keys s cs a v n O K N. rewrite layers_eq by auto. destruct K as [NK K].
  pose proof (names_NoDup keys (order_of s) NK N) as ND.
  assert (Sep : forall m, m <> n -> of_children (on_layer n cs) (arrange_children s (on_layer m cs) a v) = []).
  { intros m Hm. apply of_children_none. intros p Hp. apply arrange_sub_index in Hp. eapply sep_index; [exact O| |exact Hp].
    intros c. rewrite !text_eqb_eq. congruence. }
  assert (Here : of_children (on_layer n cs) (arrange_children s (on_layer n cs) a v) = arrange_children s (on_layer n cs) a v).
  { apply of_children_all. intros p Hp. eapply arrange_sub_index; eauto. }
  assert (Out : ~ In n (layer_names keys (order_of s)) -> arrange_children s (on_layer n cs) a v = []).
  { intros H. destruct (on_layer n cs) as [|c l] eqn:E; [apply arrange_nil|]. exfalso. apply H. apply names_in. apply K. exists c.
    apply on_layer_in. rewrite E. left; auto. }
  revert Out ND. generalize (layer_names keys (order_of s)). induction l as [|m l IH]; intros Out ND; cbn [flat_map].
  - symmetry. apply Out. easy.
  - rewrite of_children_app. inversion ND; subst. destruct (text_eqb m n) eqn:E.
    + apply text_eqb_eq in E. subst. rewrite Here. rewrite <- app_nil_r. f_equal.
      assert (Z0 : forall x, In x l -> x <> n) by (intros x Hx ->; contradiction). clear - Sep Z0. induction l as [|x l IH]; auto.
      cbn [flat_map]. rewrite of_children_app, Sep by (apply Z0; left; auto). apply IH. intros; apply Z0; right; auto.
    + assert (m <> n) by (intros ->; rewrite (proj2 (text_eqb_eq n n)) in E; congruence). rewrite Sep by auto. apply IH; auto.
      intros H'. apply Out. intros [?|?]; auto.
Qed.

(** *** The order of layers *)
Lemma rank_in : forall order n, In n order -> exists k, layer_rank order n = S k.
Proof.
  induction order as [|m r IH]; intros n H; [easy|]. simpl. destruct (text_eqb n m) eqn:E; eauto.
  destruct H as [->|H]. { rewrite (proj2 (text_eqb_eq n n)) in E; congruence. } destruct (IH n H) as (k & ->). eauto.
Qed.
Lemma rank_out : forall order n, ~ In n order -> layer_rank order n = 0%nat.
Proof.
  induction order as [|m r IH]; intros n H; auto. simpl. destruct (text_eqb n m) eqn:E. { apply text_eqb_eq in E. subst. exfalso. apply H. left; auto. }
  rewrite IH; auto. intros K; apply H; right; auto.
Qed.
Lemma sorted_weaken : forall (A : Type) (R S : A -> A -> Prop) l, (forall x y, In x l -> In y l -> R x y -> S x y) -> StronglySorted R l -> StronglySorted S l.
Proof.
  induction l as [|x l IH]; intros H HS; constructor; inversion HS; subst.
  - apply IH; auto. intros; apply H; auto; right; auto.
  - rewrite Forall_forall in *. intros y Hy. apply H; auto. left; auto. right; auto.
Qed.
Lemma order_sorted : forall order, NoDup order -> StronglySorted (fun m n => layer_rank order m <= layer_rank order n)%nat order.
Proof.
  induction order as [|m r IH]; intros N; constructor; inversion N; subst.
  - eapply sorted_weaken; [|apply IH; auto]. intros x y Hx Hy. cbv beta. simpl.
    assert (x <> m) by (intros ->; contradiction). assert (y <> m) by (intros ->; contradiction).
    destruct (text_eqb x m) eqn:E1; [apply text_eqb_eq in E1; contradiction|].
    destruct (text_eqb y m) eqn:E2; [apply text_eqb_eq in E2; contradiction|].
    destruct (layer_rank r x), (layer_rank r y); lia.
  - rewrite Forall_forall. intros n Hn. simpl. rewrite (proj2 (text_eqb_eq m m)) by auto.
    destruct (text_eqb n m); [lia|]. destruct (rank_in r n Hn) as (k & ->). lia.
Qed.
Lemma sorted_filter : forall (A : Type) (R : A -> A -> Prop) f l, StronglySorted R l -> StronglySorted R (filter f l).
Proof.
  induction l as [|x l IH]; intros H; simpl; auto. inversion H; subst. destruct (f x); auto. constructor; auto.
  rewrite Forall_forall in *. intros y Hy. apply filter_In in Hy. apply H3, Hy.
Qed.
Lemma sorted_app : forall (A : Type) (R : A -> A -> Prop) l m, StronglySorted R l -> StronglySorted R m ->
  (forall x y, In x l -> In y m -> R x y) -> StronglySorted R (l ++ m).
Proof.
  induction l as [|x l IH]; intros m Hl Hm H; simpl; auto. inversion Hl; subst. constructor.
  - apply IH; auto. intros; apply H; auto. right; auto.
  - rewrite Forall_forall in *. intros y Hy. apply in_app_or in Hy. destruct Hy; auto. apply H; auto. left; auto.
Qed.
Lemma sorted_all : forall (A : Type) (R : A -> A -> Prop) l, (forall x y, In x l -> In y l -> R x y) -> StronglySorted R l.
Proof.
  induction l as [|x l IH]; intros H; constructor.
  - apply IH. intros; apply H; right; auto.
  - rewrite Forall_forall. intros; apply H. left; auto. right; auto.
Qed.
Lemma names_sorted : forall keys order, NoDup order ->
  StronglySorted (fun m n => layer_rank order m <= layer_rank order n)%nat (layer_names keys order).
Proof.
  intros keys order N.
  assert (Z0 : forall x, In x (filter (fun n => negb (named n order)) keys) -> layer_rank order x = 0%nat).
  { intros x Hx. apply filter_In in Hx. apply rank_out. intros K. apply named_in in K. rewrite K in Hx. destruct Hx; discriminate. }
  unfold layer_names. apply sorted_app.
  - apply sorted_all. intros x y Hx Hy. rewrite (Z0 x), (Z0 y) by auto. lia.
  - apply sorted_filter. apply order_sorted; auto.
  - intros x y Hx _. rewrite (Z0 x) by auto. lia.
Qed.
Lemma sorted_flat_map : forall (A B : Type) (R : A -> A -> Prop) (S : B -> B -> Prop) (g : A -> list B) l,
  (forall x, In x l -> R x x) ->
  StronglySorted R l -> (forall x y p q, In x l -> In y l -> R x y -> In p (g x) -> In q (g y) -> S p q) ->
  StronglySorted S (flat_map g l).
Proof.
  induction l as [|x l IH]; intros HR HS H; simpl; [constructor|]. inversion HS; subst. apply sorted_app.
  - apply sorted_all. intros p q Hp Hq. eapply (H x x); eauto; try (left; reflexivity). apply HR. left; auto.
  - apply IH; auto. { intros; apply HR; right; auto. } intros a b p q Ha Hb Hab. apply (H a b p q); auto; right; auto.
  - intros p q Hp Hq. apply in_flat_map in Hq. destruct Hq as (y & Hy & Hq). rewrite Forall_forall in H3. apply (H x y p q); auto; simpl; auto.
Qed.
Lemma sorted_nth : forall (A : Type) (R : A -> A -> Prop) l i j x y, StronglySorted R l -> (i < j)%nat ->
  nth_error l i = Some x -> nth_error l j = Some y -> R x y.
Proof.
  induction l as [|z l IH]; intros [|i] [|j] x y HS L Hx Hy; simpl in *; try lia; try discriminate; inversion HS; subst.
  - apply some_eq in Hx. subst. rewrite Forall_forall in H2. apply H2. eapply nth_error_In; eauto.
  - apply (IH i j x y); auto; lia.
Qed.
Lemma layers_sorted : forall keys s cs a v, own_indices cs -> enumerates keys cs -> NoDup (order_of s) ->
  StronglySorted (fun p q => forall c d, In c cs -> In d cs -> ch_index c = pl_index p -> ch_index d = pl_index q ->
    (layer_rank (order_of s) (layer_name c) <= layer_rank (order_of s) (layer_name d))%nat) (arrange_layers keys s cs a v).
Proof.
  intros keys s cs a v O K N. rewrite layers_eq by auto. eapply sorted_flat_map with (R := fun m n => (layer_rank (order_of s) m <= layer_rank (order_of s) n)%nat).
  - intros; lia.
  - apply names_sorted; auto.
  - intros m n p q _ _ R Hp Hq c d Hc Hd Ec Ed.
    assert (L : forall m p c, In p (arrange_children s (on_layer m cs) a v) -> In c cs -> ch_index c = pl_index p -> layer_name c = m).
    { clear - O. intros m p c Hp Hc E. apply arrange_sub_index in Hp. apply in_map_iff in Hp. destruct Hp as (d & E' & Hd).
      apply on_layer_in in Hd. destruct Hd as [Hd <-]. f_equal. eapply in_map_inj; eauto. congruence. }
    rewrite (L m p c), (L n q d); auto.
Qed.

(** ** Absolute children and their siblings *)
Lemma floating_eq : forall c, floating c = negb (is_docked c) && l_absolute (ch_style c).
Proof. intros. unfold floating, is_docked, dock_of. destruct (l_dock (ch_style c)); auto. Qed.
Lemma docked_sitting : forall cs, docked_of (sitting cs) = docked_of cs.
Proof. intros. unfold docked_of, sitting. rewrite filter_filter. apply filter_ext'. intros c. rewrite floating_eq. destruct (is_docked c); auto. simpl. apply andb_false_r. Qed.
Lemma flow_sitting : forall cs, flow_of (sitting cs) = flow_of cs.
Proof. intros. unfold flow_of, sitting. rewrite filter_filter. apply filter_ext'. intros c. rewrite floating_eq. destruct (is_docked c), (l_absolute (ch_style c)); auto. Qed.
Lemma absolute_sitting : forall cs, absolute_of (sitting cs) = [].
Proof. intros. unfold absolute_of, sitting. rewrite filter_filter. apply filter_false. intros c. rewrite floating_eq. destruct (is_docked c), (l_absolute (ch_style c)); auto. Qed.
Lemma reach_sitting : forall d cs, reach d (sitting cs) = reach d cs.
Proof. intros. rewrite <- (reach_docked d (sitting cs)), docked_sitting. apply reach_docked. Qed.
Lemma inner_sitting : forall a cs, inner a (sitting cs) = inner a cs.
Proof. intros. unfold inner. rewrite !reach_sitting. reflexivity. Qed.

Lemma sitting_alone : forall s cs a v, own_indices cs ->
  of_children (sitting cs) (arrange_children s cs a v) = arrange_children s (sitting cs) a v.
Proof.
  intros s cs a v N. rewrite !arrange_eq. rewrite !of_children_app.
  unfold dock_ps. rewrite inner_sitting, flow_sitting, absolute_sitting, docked_sitting. cbn [map apply_offset].
  fold (dock_ps cs a).
  assert (SF : forall i, In i (map ch_index (flow_of cs)) -> In i (map ch_index (sitting cs))).
  { intros i. apply in_sub_index. intros c H. rewrite floating_eq. destruct (is_docked c), (l_absolute (ch_style c)); auto. }
  assert (SA : forall i, In i (map ch_index (docked_of cs)) -> In i (map ch_index (sitting cs))).
  { intros i. apply in_sub_index. intros c H. rewrite floating_eq. rewrite H. reflexivity. }
  rewrite (of_children_none _ (apply_offset (map _ _) cs v)).
  2:{ intros p H. apply offset_in_index in H. apply in_map_iff in H. destruct H as (q & E & H). apply absolute_indices in H. rewrite <- E.
      eapply sep_index; [exact N| |exact H]. intros c. cbv beta. rewrite floating_eq. intros -> ; discriminate. }
  unfold sitting at 3 4. rewrite offset_sub; auto. 2:{ intros p H. apply SA. eapply dock_indices; eauto. }
  rewrite offset_sub; auto. 2:{ intros p H. apply SF. eapply flow_indices; eauto. }
  f_equal; [|f_equal]; apply of_children_all; intros p H; apply offset_in_index in H; apply in_map_iff in H; destruct H as (q & E & H); rewrite <- E.
  - apply SA. eapply dock_indices; eauto.
  - apply SF. eapply flow_indices; eauto.
Qed.

(** ** Only plain children *)
Lemma filter_true : forall (A : Type) (f : A -> bool) l, (forall x, In x l -> f x = true) -> filter f l = l.
Proof. induction l; simpl; auto. intros H. rewrite H by auto. f_equal. auto. Qed.
Lemma filter_none : forall (A : Type) (f : A -> bool) l, (forall x, In x l -> f x = false) -> filter f l = [].
Proof. induction l; simpl; auto. intros H. rewrite H by auto. auto. Qed.
Lemma reach_none : forall d l, (forall c, In c l -> dock_of c = None) -> reach d l = 0.
Proof. induction l as [|c l IH]; simpl; auto. intros H. rewrite H by auto. auto. Qed.
Lemma plain_arrange : forall s cs a v, own_indices cs -> Forall plain cs ->
  arrange_children s cs a v = apply_alignment (run_layout s cs a v) cs s a.
Proof.
  intros s cs a v N P. rewrite Forall_forall in P. rewrite arrange_eq.
  assert (D : forall c, In c cs -> is_docked c = false).
  { intros c Hc. destruct (P c Hc) as [H _]. unfold is_docked. unfold dock_of in H. rewrite H. auto. }
  assert (F : flow_of cs = cs). { unfold flow_of. apply filter_true. intros c Hc. rewrite D by auto. destruct (P c Hc) as (_ & -> & _). auto. }
  assert (A : absolute_of cs = []). { unfold absolute_of. apply filter_none. intros c Hc. rewrite D by auto. destruct (P c Hc) as (_ & -> & _). auto. }
  assert (K : docked_of cs = []). { unfold docked_of. apply filter_none. auto. }
  assert (I : inner a cs = a). { unfold inner. rewrite !reach_none by (intros; apply P; auto). destruct a; simpl; f_equal; lia. }
  unfold dock_ps. rewrite F, A, K, I. cbn [arrange_docked fst apply_offset map app]. rewrite app_nil_r.
  rewrite <- (map_id (apply_alignment _ _ _ _)) at 2. apply map_ext_in. intros p Hp.
  rewrite <- F in Hp at 1 2. apply flow_indices in Hp. rewrite F in Hp. apply in_map_iff in Hp. destruct Hp as (c & E & Hc).
  eapply offset_unmoved; eauto. apply P; auto.
Qed.

Lemma shift_zero : forall p, shift 0 0 p = p.
Proof. intros [i [x y w h]]. unfold shift. simpl. do 2 f_equal; lia. Qed.
Lemma top_left_id : forall ps cs s a, apply_alignment ps cs (top_left s) a = ps.
Proof.
  intros. unfold apply_alignment. destruct ps as [|p r]; auto. cbn [top_left ps_align_h ps_align_v offset_h offset_v].
  rewrite <- (map_id (p :: r)) at 2. apply map_ext. intros; apply shift_zero.
Qed.
Lemma plain_top_left : forall s cs a v, own_indices cs -> Forall plain cs -> arrange_children (top_left s) cs a v = run_layout s cs a v.
Proof. intros. rewrite plain_arrange by auto. rewrite top_left_id. reflexivity. Qed.
Lemma combine_firstn' : forall (A B : Type) k (l : list A) (m : list B), length m = length (firstn k l) -> combine l m = combine (firstn k l) m.
Proof.
  induction k; intros [|x l] [|y m] H; simpl in *; try discriminate; auto. f_equal. apply IHk. lia.
Qed.
Lemma layout_placed' : forall s cs a v, own_indices cs ->
  map snd (combine cs (run_layout s cs a v)) = run_layout s cs a v /\ placed_in cs (combine cs (run_layout s cs a v)).
Proof.
  intros s cs a v N. destruct (layout_placed s cs a v N) as (k & H1 & H2 & _). cbv zeta in *.
  assert (L : (length (run_layout s cs a v) <= length (firstn k cs))%nat).
  { rewrite <- H1, map_length, combine_length. lia. }
  assert (E : combine cs (run_layout s cs a v) = combine (firstn k cs) (run_layout s cs a v)).
  { clear - L. revert L. generalize (run_layout s cs a v). intros ps. revert ps k. induction cs as [|c cs IH]; intros [|p ps] [|k] L; simpl in *; auto; try lia.
    f_equal. apply IH. lia. }
  rewrite E. auto.
Qed.
Lemma combine_map_right : forall (A B C : Type) (f : B -> C) (l : list A) (m : list B),
  combine l (map f m) = map (fun e => (fst e, f (snd e))) (combine l m).
Proof. induction l; intros [|b m]; simpl; auto. f_equal. auto. Qed.
Lemma hull_shift : forall l lo hi d, is_hull l lo hi -> is_hull (map (fun x => (fst x + d, snd x + d)) l) (lo + d) (hi + d).
Proof.
  intros l lo hi d ((x & Hx & Ex) & (y & Hy & Ey) & H). split; [|split].
  - exists (fst x + d, snd x + d). split. apply (in_map (fun x => (fst x + d, snd x + d))); auto. simpl; lia.
  - exists (fst y + d, snd y + d). split. apply (in_map (fun x => (fst x + d, snd x + d))); auto. simpl; lia.
  - intros z Hz. apply in_map_iff in Hz. destruct Hz as (w & <- & Hw). apply H in Hw. simpl. lia.
Qed.
Lemma hull_unshift : forall l lo hi d, is_hull (map (fun x => (fst x + d, snd x + d)) l) lo hi -> is_hull l (lo - d) (hi - d).
Proof.
  intros l lo hi d H. apply (hull_shift _ _ _ (- d)) in H. rewrite map_map in H. erewrite map_ext in H. rewrite map_id in H.
  replace (lo - d) with (lo + - d) by lia. replace (hi - d) with (hi + - d) by lia. exact H. intros [x y]; simpl; f_equal; lia.
Qed.
