(** C48: keylines. *)
From Coq Require Import Bool List Arith ZArith QArith Lia Permutation.
From Verif Require Import Fraction_Spec Canvas_Model Layout_Model Layout_Props Grid_Model Grid_Spec Grid_Proofs Grid_Props.
From Verif Require Import Keyline_Model Keyline_Spec Keyline_Proofs Keyline_Proofs2.
Import ListNotations.
Open Scope bool_scope.
Open Scope nat_scope.

(** Boxes may be added in any order. *)
Theorem C48_order : forall w h lt bs bs', Permutation bs bs' ->
  add_boxes (new w h lt) bs = add_boxes (new w h lt) bs'.
Proof.
  intros w h lt bs bs' P. rewrite !add_boxes_run. apply run_perm; [apply new_well|].
  unfold boxes_calls. induction P; cbn [flat_map].
  - constructor.
  - apply Permutation_app_head. exact IHP.
  - rewrite !app_assoc. apply Permutation_app_tail, Permutation_app_comm.
  - eapply perm_trans; eauto.
Qed.
Print Assumptions C48_order.

(** The outlines of boxes: only their cells are drawn on, each such cell gets the
    character that shows exactly the strokes of the outlines through it, and
    nothing is drawn outside the window. *)
Theorem C48_boxes : forall bs lt rx ry w h, Forall proper bs -> 1 <= lt <= 3 ->
  depicts (outlines bs) lt rx ry w h (render (add_boxes (new w h lt) bs) rx ry).
Proof.
  intros bs lt rx ry w h F L. rewrite add_boxes_run. apply depicts_calls; auto.
  - apply uniform_flat. intros [[[a b] c] d]. apply box_uniform.
  - now apply boxes_closed.
  - intros x y s X Y. apply boxes_lit; auto. cbn. lia.
Qed.
Print Assumptions C48_boxes.

(** Two boxes side by side that share an edge: ┌─┬┐ over └─┴┘. *)
Example C48_boxes_case :
  Forall proper [(0, 0, 3, 2); (2, 0, 2, 2)]
  /\ render (add_boxes (new 4 2 1) [(0, 0, 3, 2); (2, 0, 2, 2)]) 5 7
     = [(5, 7, 9484); (6, 7, 9472); (7, 7, 9516); (8, 7, 9488);
        (5, 8, 9492); (6, 8, 9472); (7, 8, 9524); (8, 8, 9496)]%Z.
Proof. split; [repeat constructor; lia|vm_compute; reflexivity]. Qed.

(** A full grid of lines at increasing positions. *)
Theorem C48_grid : forall cols rows lt rx ry w h, increasing cols -> increasing rows ->
  2 <= length cols -> 2 <= length rows -> 1 <= lt <= 3 ->
  depicts (full_lattice cols rows) lt rx ry w h (render (add_grid (new w h lt) cols rows) rx ry).
Proof.
  intros cols rows lt rx ry w h IC IR LC LR L. unfold add_grid. apply depicts_calls; auto.
  - apply grid_uniform.
  - now apply full_closed.
  - intros x y s X Y. cbn [k_width k_height k_line new]. apply lit_grid; auto; lia.
Qed.
Print Assumptions C48_grid.

(** Lines around a table and between the cells that different widgets have. *)
Theorem C48_partition : forall cols rows occ lt rx ry w h, increasing cols -> increasing rows ->
  2 <= length cols -> 2 <= length rows -> 1 <= lt <= 3 ->
  depicts (partition_lines cols rows occ) lt rx ry w h
    (render (add_grid_with_occupancy (new w h lt) cols rows occ) rx ry).
Proof.
  intros cols rows occ lt rx ry w h IC IR LC LR L. unfold add_grid_with_occupancy.
  apply depicts_calls; auto.
  - apply occ_uniform.
  - now apply partition_closed.
  - intros x y s X Y. cbn [k_width k_height k_line new]. apply lit_occ; auto; lia.
Qed.
Print Assumptions C48_partition.

(** A widget over the two upper cells: no line between them. *)
Example C48_partition_case :
  increasing [0; 2; 4] /\ increasing [0; 1; 2]
  /\ render (add_grid_with_occupancy (new 5 3 3) [0; 2; 4] [0; 1; 2]
               [[Some 0; Some 0]; [Some 1; Some 2]]) 0 0
     = [(0, 0, 9556); (1, 0, 9552); (2, 0, 9552); (3, 0, 9552); (4, 0, 9559);
        (0, 1, 9568); (1, 1, 9552); (2, 1, 9574); (3, 1, 9552); (4, 1, 9571);
        (0, 2, 9562); (1, 2, 9552); (2, 2, 9577); (3, 2, 9552); (4, 2, 9565)]%Z.
Proof.
  split; [|split].
  - intros [|[|i]] B; cbn in *; lia.
  - intros [|[|i]] B; cbn in *; lia.
  - vm_compute. reflexivity.
Qed.

(** Too few positions draw nothing. *)
Theorem C48_too_few : forall cols rows occ lt rx ry w h,
  length cols < 2 \/ length rows < 2 ->
  render (add_grid (new w h lt) cols rows) rx ry = []
  /\ render (add_grid_with_occupancy (new w h lt) cols rows occ) rx ry = [].
Proof.
  intros cols rows occ lt rx ry w h H.
  assert (E : (length cols <? 2) || (length rows <? 2) = true).
  { apply orb_true_iff. destruct H as [H | H]; [left | right]; now apply Nat.ltb_lt. }
  unfold add_grid, add_grid_with_occupancy, grid_calls, occ_calls. rewrite E. cbn [run fold_left].
  assert (N : render (new w h lt) rx ry = []).
  { destruct (render (new w h lt) rx ry) as [|[[X Y] ch] l] eqn:R; [reflexivity|].
    assert (I : In (X, Y, ch) (render (new w h lt) rx ry)) by (rewrite R; now left).
    apply in_render in I as (x & y & _ & _ & _ & _ & C & _). rewrite cell_new in C. contradiction. }
  auto.
Qed.
Print Assumptions C48_too_few.

(** In a drawn picture, characters of neighbouring cells of the window agree on
    the line over their common edge. *)
Definition towards (s : side) (X Y : Z) : Z * Z :=
  match s with
  | Above => (X, Y - 1) | Rightwards => (X + 1, Y) | Below => (X, Y + 1) | Leftwards => (X - 1, Y)
  end%Z.
Definition opposite (s : side) : side :=
  match s with
  | Above => Below | Rightwards => Leftwards | Below => Above | Leftwards => Rightwards
  end.

Lemma looks_unique ch n n' s : looks ch n -> looks ch n' -> n s = n' s.
Proof.
  intros (q & I & A) (q' & I' & A').
  assert (U : forallb (fun a => forallb (fun b =>
      negb (fst a =? fst b)%Z || quad_eqb (snd a) (snd b)) unicode_box_drawings)
      unicode_box_drawings = true) by (vm_compute; reflexivity).
  rewrite forallb_forall in U. specialize (U _ I). rewrite forallb_forall in U.
  specialize (U _ I'). cbn in U. rewrite Z.eqb_refl in U. cbn in U.
  apply quad_eqb_eq in U. subst q'. now rewrite <- A, <- A'.
Qed.

Theorem C48_neighbours : forall p lt rx ry w h out, 1 <= lt -> depicts p lt rx ry w h out ->
  forall X Y ch n s, In (X, Y, ch) out -> looks ch n -> n s <> 0 ->
  (rx <= fst (towards s X Y) < rx + Z.of_nat w)%Z ->
  (ry <= snd (towards s X Y) < ry + Z.of_nat h)%Z ->
  exists ch' n', In (towards s X Y, ch') out /\ looks ch' n' /\ n' (opposite s) = n s.
Proof.
  intros p lt rx ry w h out L (D1 & D2) X Y ch n s I K N BX BY.
  destruct (D1 X Y ch I) as (x & y & s0 & Hx & Hy & -> & -> & Lv).
  destruct (D2 x y s0 Hx Hy Lv) as (ch1 & n1 & I1 & U1 & K1 & A1).
  assert (ch = ch1) by (apply U1; exact I). subst ch1.
  rewrite (looks_unique ch n n1 s K K1) in *.
  destruct (A1 s) as [(Ls & E) | (_ & E)]; [|contradiction].
  assert (G : exists x' y', x' < w /\ y' < h
     /\ towards s (rx + Z.of_nat x) (ry + Z.of_nat y) = (rx + Z.of_nat x', ry + Z.of_nat y')%Z
     /\ leaves p x' y' (opposite s)).
  { destruct s; cbn [towards fst snd opposite] in *.
    - destruct Ls as (y' & -> & Ls). exists x, y'. repeat split; auto; [lia|f_equal; lia].
    - exists (S x), y. repeat split; auto; [lia|f_equal; lia|]. cbn. eauto.
    - exists x, (S y). repeat split; auto; [lia|f_equal; lia|]. cbn. eauto.
    - destruct Ls as (x' & -> & Ls). exists x', y. repeat split; auto; [lia|f_equal; lia]. }
  destruct G as (x' & y' & Hx' & Hy' & T & Lo).
  destruct (D2 x' y' _ Hx' Hy' Lo) as (ch2 & n2 & I2 & _ & K2 & A2).
  exists ch2, n2. rewrite T. split; [exact I2|]. split; [exact K2|].
  destruct (A2 (opposite s)) as [(_ & E2) | (C & _)]; [lia|contradiction].
Qed.
Print Assumptions C48_neighbours.

(** ---- Widgets ---- *)

(** A container that lays its children out in a row: a frame around it and a
    line in the column right after each child that is within the container. *)
Theorem C48_container_row : forall lt rx ry w h children, 1 <= lt <= 3 -> 2 <= w -> 2 <= h ->
  children <> [] ->
  depicts (framed_row w h (map (fun c => match c with (x, _, cw, _) => x + cw - rx end)%Z children))
    lt rx ry w h (container_keylines true lt rx ry w h children).
Proof.
  intros lt rx ry w h children L W H N.
  unfold container_keylines. destruct children as [|c cs]; [contradiction|].
  cbv zeta. eapply depicts_same; [now apply framed_row_same|].
  apply C48_grid; auto.
  - apply dividers_increasing.
  - apply pair_increasing. lia.
  - now apply dividers_length.
Qed.
Print Assumptions C48_container_row.

Theorem C48_container_column : forall lt rx ry w h children, 1 <= lt <= 3 -> 2 <= w -> 2 <= h ->
  children <> [] ->
  depicts (framed_column w h (map (fun c => match c with (_, y, _, ch) => y + ch - ry end)%Z children))
    lt rx ry w h (container_keylines false lt rx ry w h children).
Proof.
  intros lt rx ry w h children L W H N.
  unfold container_keylines. destruct children as [|c cs]; [contradiction|].
  cbv zeta. eapply depicts_same; [now apply framed_column_same|].
  apply C48_grid; auto.
  - apply pair_increasing. lia.
  - apply dividers_increasing.
  - now apply dividers_length.
Qed.
Print Assumptions C48_container_column.

Example C48_container_case :
  container_keylines true 2 0 0 5 2 [(0, 0, 2, 2); (2, 0, 3, 2)]%Z
  = [(0, 0, 9487); (1, 0, 9473); (2, 0, 9523); (3, 0, 9473); (4, 0, 9491);
     (0, 1, 9495); (1, 1, 9473); (2, 1, 9531); (3, 1, 9473); (4, 1, 9499)]%Z.
Proof. vm_compute. reflexivity. Qed.

(** A Grid whose tracks leave room for the frame draws the frame and, where a
    track starts, the lines between cells that different children have. *)
Theorem C48_grid_widget : forall g children lt rx ry w h nr nc, 1 <= lt <= 3 -> children <> [] ->
  let a := reduced rx ry w h in
  grid_dims g (length children) a = (nr, nc) ->
  (0 <= gutter_h g a)%Z -> (0 <= gutter_v g a)%Z -> 1 <= nr -> 1 <= nc ->
  fits (grid_columns g children a) w -> fits (grid_rows g children a) h ->
  depicts (partition_lines (track_lines (grid_columns g children a) w)
                           (track_lines (grid_rows g children a) h)
                           (occupancy_table children nr nc))
    lt rx ry w h (grid_widget_keylines g children lt rx ry w h).
Proof.
  intros g children lt rx ry w h nr nc L N a D GH GV NR NC FC FR.
  unfold grid_widget_keylines. fold a. rewrite D.
  destruct children as [|c0 cs0] eqn:EC; [contradiction|]. rewrite <- EC in *. clear EC c0 cs0.
  destruct (columns_sizes g children a) as (sc & PC & EC).
  destruct (rows_sizes g children a) as (sr & PR & ER).
  pose proof (columns_length g children a nr nc D) as LC.
  pose proof (rows_length g children a nr nc D) as LR.
  rewrite EC in *. rewrite ER in *. rewrite tracks_from_length in LC, LR.
  unfold grid_keylines.
  assert (NC' : sc <> []) by (destruct sc; cbn in *; [lia|discriminate]).
  assert (NR' : sr <> []) by (destruct sr; cbn in *; [lia|discriminate]).
  rewrite !track_positions_length.
  2: { destruct sr; [contradiction|discriminate]. }
  2: { destruct sc; [contradiction|discriminate]. }
  rewrite !tracks_from_length.
  replace (S (length sc) <? 2) with false by (symmetry; apply Nat.ltb_ge; lia).
  replace (S (length sr) <? 2) with false by (symmetry; apply Nat.ltb_ge; lia).
  cbn [orb]. rewrite !lines_are by assumption.
  apply C48_partition; auto.
  - now apply lines_increasing.
  - now apply lines_increasing.
  - rewrite lines_length. lia.
  - rewrite lines_length. lia.
Qed.
Print Assumptions C48_grid_widget.

(** With a gutter between the tracks, no keyline is drawn over the cells of any
    child (the children are drawn one cell right and down). *)
Theorem C48_gutter : forall g children lt rx ry w h nr nc k q, 1 <= lt <= 3 ->
  let a := reduced rx ry w h in
  grid_dims g (length children) a = (nr, nc) ->
  (1 <= gutter_h g a)%Z -> (1 <= gutter_v g a)%Z ->
  fits (grid_columns g children a) w -> fits (grid_rows g children a) h ->
  nth_error (cells_of nr nc (spans_of children)) k = Some q -> k < length children ->
  forall X Y ch, In (X, Y, ch) (grid_widget_keylines g children lt rx ry w h) ->
  ~ point_in (child_region q (grid_columns g children a) (grid_rows g children a)
                (Region (rx + 1) (ry + 1) (rg_w a) (rg_h a)) (gutter_h g a) (gutter_v g a)) X Y.
Proof.
  intros g children lt rx ry w h nr nc k q L a D GH GV FC FR Q K X Y ch I P.
  destruct (C31_cells_in_grid _ _ _ _ _ Q) as ((S1 & S2 & S3 & S4) & _).
  assert (N : children <> []) by (destruct children; cbn in *; [lia|discriminate]).
  assert (GH0 : (0 <= gutter_h g a)%Z) by lia. assert (GV0 : (0 <= gutter_v g a)%Z) by lia.
  pose proof (C48_grid_widget g children lt rx ry w h nr nc L N D GH0 GV0
                ltac:(lia) ltac:(lia) FC FR) as (D1 & _).
  destruct (D1 X Y ch I) as (x & y & s & Hx & Hy & -> & -> & Lv). clear D1.
  fold a in Lv.
  destruct (columns_sizes g children a) as (sc & PC & EC).
  destruct (rows_sizes g children a) as (sr & PR & ER).
  pose proof (columns_length g children a nr nc D) as LC.
  pose proof (rows_length g children a nr nc D) as LR.
  rewrite EC in *. rewrite ER in *. rewrite tracks_from_length in LC, LR.
  unfold point_in, child_region in P. cbn [rg_x rg_y rg_w rg_h] in P.
  rewrite !track_start_eq, !track_span_eq in P by lia.
  set (gh := gutter_h g a) in *. set (gv := gutter_v g a) in *.
  destruct P as (PX & PY).
  assert (X0 : (start_of sc gh (rc_col q) + 1 <= Z.of_nat x
                < start_of sc gh (rc_col q) + 1 + extent_of sc gh (rc_col q) (rc_cs q))%Z) by lia.
  assert (Y0 : (start_of sr gv (rc_row q) + 1 <= Z.of_nat y
                < start_of sr gv (rc_row q) + 1 + extent_of sr gv (rc_row q) (rc_rs q))%Z) by lia.
  clear PX PY.
  destruct (nth_error children k) as [cld|] eqn:Ek; [|apply nth_error_None in Ek; lia].
  assert (OW : forall r c, rc_row q <= r < rc_row q + rc_rs q -> rc_col q <= c < rc_col q + rc_cs q ->
            holder (occupancy_table children nr nc) r c = Some (ch_index cld)).
  { intros r c R C. rewrite table_holder.
    replace (r <? nr) with true by (symmetry; apply Nat.ltb_lt; lia).
    replace (c <? nc) with true by (symmetry; apply Nat.ltb_lt; lia). cbn [andb].
    apply C60_owner. exists k, cld, q. repeat split; auto; lia. }
  assert (HA : forall i j, i < length (track_lines (tracks_from 0 gv sr) h) ->
     S j < length (track_lines (tracks_from 0 gh sc) w) ->
     y = nth i (track_lines (tracks_from 0 gv sr) h) 0 ->
     nth j (track_lines (tracks_from 0 gh sc) w) 0 <= x ->
     x <= nth (S j) (track_lines (tracks_from 0 gh sc) w) 0 ->
     i = 0 \/ S i = length (track_lines (tracks_from 0 gv sr) h)
       \/ holder (occupancy_table children nr nc) (i - 1) j
          <> holder (occupancy_table children nr nc) i j -> False).
  { intros i j Hi Hj E J1 J2 W. rewrite lines_length in *.
    destruct (inside_line gv sr h (rc_row q) (rc_rs q) GV PR FR S1 ltac:(lia) y Y0 i ltac:(lia) E)
      as (I1 & I2).
    pose proof (inside_gap gh sc w (rc_col q) (rc_cs q) GH PC FC S2 ltac:(lia) x X0 j ltac:(lia) J1 J2).
    destruct W as [W | [W | W]]; [lia | lia|]. apply W. rewrite !OW by lia. reflexivity. }
  assert (VA : forall i j, S i < length (track_lines (tracks_from 0 gv sr) h) ->
     j < length (track_lines (tracks_from 0 gh sc) w) ->
     x = nth j (track_lines (tracks_from 0 gh sc) w) 0 ->
     nth i (track_lines (tracks_from 0 gv sr) h) 0 <= y ->
     y <= nth (S i) (track_lines (tracks_from 0 gv sr) h) 0 ->
     j = 0 \/ S j = length (track_lines (tracks_from 0 gh sc) w)
       \/ holder (occupancy_table children nr nc) i (j - 1)
          <> holder (occupancy_table children nr nc) i j -> False).
  { intros i j Hi Hj E J1 J2 W. rewrite lines_length in *.
    destruct (inside_line gh sc w (rc_col q) (rc_cs q) GH PC FC S2 ltac:(lia) x X0 j ltac:(lia) E)
      as (I1 & I2).
    pose proof (inside_gap gv sr h (rc_row q) (rc_rs q) GV PR FR S1 ltac:(lia) y Y0 i ltac:(lia) J1 J2).
    destruct W as [W | [W | W]]; [lia | lia|]. apply W. rewrite !OW by lia. reflexivity. }
  destruct s; cbn [leaves partition_lines lattice across downwards] in Lv.
  - destruct Lv as (y' & Ey & i & j & Hi & Hj & E & R & T). eapply VA; eauto; lia.
  - destruct Lv as (i & j & Hi & Hj & E & R & T). eapply HA; eauto; lia.
  - destruct Lv as (i & j & Hi & Hj & E & R & T). eapply VA; eauto; lia.
  - destruct Lv as (x' & Ex & i & j & Hi & Hj & E & R & T). eapply HA; eauto; lia.
Qed.
Print Assumptions C48_gutter.

Definition kl_grid (gutter : Q) : gstyle :=
  GStyle (Some 2) None [] [] (cells gutter) (cells gutter) false false None.

(** Three children in two columns, the first over both. *)
Example C48_gutter_case :
  let children := [mk 0 (span2 base_style); mk 1 base_style; mk 2 base_style] in
  let a := reduced 0 0 9 7 in
  grid_dims (kl_grid 1) 3 a = (2, 2)
  /\ (gutter_h (kl_grid 1) a = 1)%Z /\ (gutter_v (kl_grid 1) a = 1)%Z
  /\ fits (grid_columns (kl_grid 1) children a) 9 /\ fits (grid_rows (kl_grid 1) children a) 7
  /\ track_lines (grid_columns (kl_grid 1) children a) 9 = [0; 4; 8]
  /\ track_lines (grid_rows (kl_grid 1) children a) 7 = [0; 3; 6]
  /\ length (grid_widget_keylines (kl_grid 1) children 1 0 0 9 7) = 37.
Proof.
  cbv zeta. repeat split; try (vm_compute; reflexivity);
  (vm_compute; repeat (apply Forall_cons; [discriminate|]); apply Forall_nil).
Qed.

(** Without a gutter the lines are drawn over the last column and row of the
    children. *)
Theorem C48_no_gutter_refuted : exists g children w h q X Y ch,
  let a := reduced 0 0 w h in
  grid_dims g (length children) a = (2, 2) /\ gutter_h g a = 0%Z /\ gutter_v g a = 0%Z
  /\ fits (grid_columns g children a) w /\ fits (grid_rows g children a) h
  /\ nth_error (cells_of 2 2 (spans_of children)) 0 = Some q
  /\ In (X, Y, ch) (grid_widget_keylines g children 1 0 0 w h)
  /\ point_in (child_region q (grid_columns g children a) (grid_rows g children a)
                (Region 1 1 (rg_w a) (rg_h a)) 0 0) X Y.
Proof.
  exists (kl_grid 0), [mk 0 base_style; mk 1 base_style; mk 2 base_style], 8, 6,
    (Rect 0 0 1 1), 3%Z, 1%Z, 9474%Z.
  cbv zeta.
  split; [vm_compute; reflexivity|]. split; [vm_compute; reflexivity|].
  split; [vm_compute; reflexivity|].
  split; [vm_compute; repeat (apply Forall_cons; [discriminate|]); apply Forall_nil|].
  split; [vm_compute; repeat (apply Forall_cons; [discriminate|]); apply Forall_nil|].
  split; [vm_compute; reflexivity|].
  split.
  - vm_compute. repeat (first [left; reflexivity | right]).
  - vm_compute. repeat split; discriminate.
Qed.
Print Assumptions C48_no_gutter_refuted.

(** ---- Limits ---- *)

Ltac char_shows I := vm_compute in I; repeat (destruct I as [I | I]; [try discriminate|]); try contradiction.

(** A box one cell wide or high leaves loose ends: what is drawn is no picture
    of lines at all, as its corner points to a cell that has no line. *)
Theorem C48_thin_box_refuted : exists bs,
  forall p, ~ depicts p 1 0 0 3 3 (render (add_boxes (new 3 3 1) bs) 0 0).
Proof.
  exists [(0, 0, 1, 1)]. intros p D.
  destruct (C48_neighbours p 1 0 0 3 3 _ ltac:(lia) D 0%Z 0%Z 9484%Z
              (fun s => match s with Rightwards | Below => 1 | _ => 0 end) Rightwards)
    as (ch & n & I & _).
  - vm_compute. auto.
  - exists (Quad 0 1 1 0). split; [vm_compute; tauto|intros []; reflexivity].
  - discriminate.
  - cbn. lia.
  - cbn. lia.
  - vm_compute in I. destruct I as [I | []]. discriminate.
Qed.
Print Assumptions C48_thin_box_refuted.

(** A container one row high draws lines that leave the row upwards. *)
Theorem C48_flat_refuted : exists lt w children,
  In (0, 0, 9500)%Z (container_keylines true lt 0 0 w 1 children)
  /\ looks 9500 (fun s => match s with Leftwards => 0 | _ => lt end)
  /\ forall p, ~ depicts p lt 0 0 w 1 (container_keylines true lt 0 0 w 1 children).
Proof.
  exists 1, 4, [(0, 0, 2, 1)]%Z.
  assert (I : In (0, 0, 9500)%Z (container_keylines true 1 0 0 4 1 [(0, 0, 2, 1)]%Z))
    by (vm_compute; auto).
  assert (K : looks 9500 (fun s => match s with Leftwards => 0 | _ => 1 end)).
  { exists (Quad 1 1 1 0). split; [vm_compute; tauto|intros []; reflexivity]. }
  split; [exact I|]. split; [exact K|].
  intros p (D1 & D2). destruct (D1 _ _ _ I) as (x & y & s & Hx & Hy & EX & EY & Lv).
  assert (x = 0) by lia. assert (y = 0) by lia. subst x y.
  destruct (D2 0 0 s Hx Hy Lv) as (ch & n & I' & U & K' & A).
  assert (9500%Z = ch) by (apply U; exact I). subst ch.
  pose proof (looks_unique _ _ _ Above K K') as E. cbn in E.
  destruct (A Above) as [((y' & Z0 & _) & _) | (_ & E')]; [discriminate|lia].
Qed.
Print Assumptions C48_flat_refuted.

(** The character table: each entry shows its quad, but for six entries: the
    horizontal half lines point the wrong way and two mixed crosses are
    swapped. *)
Theorem C48_characters : forall q ch, get_box_char q = Some ch ->
  looks ch (fun s => arm s q)
  \/ In q [Quad 2 2 1 2; Quad 1 2 2 2; Quad 0 1 0 0; Quad 0 0 0 1; Quad 0 2 0 0; Quad 0 0 0 2].
Proof.
  intros q ch E.
  assert (L : forall t, lookup t q = Some ch -> In (q, ch) t).
  { induction t as [|[k c] t IH]; cbn; [discriminate|].
    destruct (quad_eqb k q) eqn:Q.
    - apply quad_eqb_eq in Q. intros H. injection H as ->. left. now subst.
    - auto. }
  apply L in E. clear L.
  assert (T : forallb (fun e =>
     existsb (fun u => (fst u =? snd e)%Z && quad_eqb (snd u) (fst e)) unicode_box_drawings
     || existsb (quad_eqb (fst e))
        [Quad 2 2 1 2; Quad 1 2 2 2; Quad 0 1 0 0; Quad 0 0 0 1; Quad 0 2 0 0; Quad 0 0 0 2])
     box_characters = true) by (vm_compute; reflexivity).
  rewrite forallb_forall in T. specialize (T _ E). cbn [fst snd] in T.
  apply orb_true_iff in T as [T | T].
  - left. apply existsb_exists in T as ([c q'] & I & T). cbn [fst snd] in T.
    apply andb_true_iff in T as [T1 T2]. apply Z.eqb_eq in T1. apply quad_eqb_eq in T2. subst c q'.
    exists q. split; [exact I|reflexivity].
  - right. apply existsb_exists in T as (q' & I & T). apply quad_eqb_eq in T. now subst.
Qed.
Print Assumptions C48_characters.

Theorem C48_half_line_refuted : exists q ch n, get_box_char q = Some ch /\ looks ch n
  /\ q_right q = 1 /\ n Rightwards = 0 /\ n Leftwards = 1.
Proof.
  exists (Quad 0 1 0 0), 9588%Z, (fun s => match s with Leftwards => 1 | _ => 0 end).
  split; [vm_compute; reflexivity|]. split; [|auto].
  exists (Quad 0 0 0 1). split; [vm_compute; tauto|intros []; reflexivity].
Qed.
Print Assumptions C48_half_line_refuted.
