(** C97, C98: where tooltips are drawn and whose they are; which actions are handed
    to the application. *)
From Coq Require Import String ZArith QArith List Bool Arith Lia.
From Verif Require Sizes_Proofs.
From Verif Require Import Text_Model Loop_Model Strip_Model Row_Model Bars_Model Bars_Spec Static_Model Static_Spec Static_Props
  Canvas_Model Canvas_Spec Canvas_Proofs Layout_Model Tooltip_Model Tooltip_Spec Tooltip_Proofs.
Import ListNotations.
Open Scope Z_scope.

(** C97: whatever its style and position, a tooltip is drawn inside the screen. *)
Theorem C97_on_screen : forall visible s offset desired height_for cols rows r, is_u16 cols -> is_u16 rows ->
  tip_region visible s offset desired height_for (screen_of cols rows) = Some r ->
  0 <= rg_x r /\ 0 <= rg_y r /\ 0 < rg_w r /\ 0 < rg_h r /\ rg_x r + rg_w r <= Z.of_nat cols /\ rg_y r + rg_h r <= Z.of_nat rows.
Proof.
  intros visible s offset desired hf cols rows r Uc Ur. unfold tip_region. destruct (negb visible || t_hidden s); [discriminate|]. cbn zeta.
  destruct (region_is_empty _) eqn:E; [discriminate|]. intros H. injection H as <-. apply cut_inside; assumption.
Qed.
Print Assumptions C97_on_screen.

(** What is drawn, with the library's rules, for the tooltip of a text whose desired
    width is [d], when the pointer rests at ([mx], [my]). *)
Section Rules.
Variables (s : tipstyle) (d mx my : Z) (height_for : nat -> nat) (cols rows : nat).
Hypothesis rules : own_rules s.
Hypotheses (Uc : is_u16 cols) (Ur : is_u16 rows) (Hd : 0 <= d < 65535) (Hx : 0 <= mx < Z.of_nat cols) (Hy : 0 <= my < Z.of_nat rows).
Let w := Z.min d 40.
Let h := Z.of_nat (height_for (Z.to_nat w)).
Hypothesis Hh : h <= 65535.
Let x := fst (place Z (fun d => d) (mx, my) d).
Let y := snd (place Z (fun d => d) (mx, my) d).
Let drawn := tip_region true s (x, y) d height_for (screen_of cols rows).

Lemma x_is : x = Z.max 0 (mx - d / 2).
Proof. unfold x, place. cbn [fst snd]. rewrite Z.quot_div_nonneg by lia. reflexivity. Qed.
Lemma y_is : y = my + 1.
Proof. unfold y, place. cbn [fst snd]. lia. Qed.
Lemma drawn_is : drawn = let r := intersection (region_new x y w h) (screen_of cols rows) in if region_is_empty r then None else Some r.
Proof.
  destruct rules as (H1 & H2 & H3 & H4 & H5 & H6). unfold drawn, tip_region. rewrite H1. cbn [negb orb]. cbn zeta.
  assert (W : tip_width s d (screen_of cols rows) = w).
  { unfold tip_width. rewrite H3, H4. unfold at_least, at_most, u16_max. destruct (Z.eqb_spec d 65535) as [?|_]; [lia|]. reflexivity. }
  assert (T : tip_height s height_for w (screen_of cols rows) = h).
  { unfold tip_height. rewrite H5, H6. unfold at_least, at_most. destruct H2 as [-> |[v ->]]; reflexivity. }
  rewrite W, T. reflexivity.
Qed.

(** C97: it covers the part on the screen of a rectangle as wide as the text wants,
    at most 40, and as high as the text needs at that width.  The rectangle begins
    in the row below the pointer. *)
Theorem C97_rectangle :
  (forall r, drawn = Some r -> forall X Y, in_region r X Y <-> on_screen cols rows X Y /\ x <= X < x + w /\ my < Y <= my + h) /\
  (drawn = None <-> forall X Y, on_screen cols rows X Y -> ~ (x <= X < x + w /\ my < Y <= my + h)).
Proof.
  rewrite drawn_is. cbn zeta. pose proof x_is as Ex. pose proof y_is as Ey.
  assert (D : 0 <= d / 2) by (apply Z.div_pos; lia). unfold is_u16 in *.
  assert (C : forall X Y, in_region (intersection (region_new x y w h) (screen_of cols rows)) X Y <-> on_screen cols rows X Y /\ x <= X < x + w /\ my < Y <= my + h).
  { intros X Y. rewrite cut_spec; [|exact Uc|exact Ur|unfold is_i32, w; lia|unfold is_i32; lia]. rewrite Ey. intuition lia. }
  destruct (region_is_empty _) eqn:E.
  - split; [discriminate|]. split; [|reflexivity]. intros _ X Y On R. rewrite empty_no_cells in E. apply (E X Y), C. tauto.
  - split; [intros r H; injection H as <-; exact C|]. split; [discriminate|]. intros H. exfalso.
    apply not_true_iff_false in E. apply E. rewrite empty_no_cells. intros X Y I. apply C in I. apply (H X Y); tauto.
Qed.

(** C97: if the rectangle is on the screen, all of it is drawn. *)
Theorem C97_whole : 0 < w -> 0 < h -> x + w <= Z.of_nat cols -> my + 1 + h <= Z.of_nat rows -> drawn = Some (Region x (my + 1) w h).
Proof.
  intros W0 H0 Fx Fy. rewrite drawn_is. cbn zeta. pose proof x_is as Ex. pose proof y_is as Ey. unfold is_u16 in *.
  assert (D : 0 <= d / 2) by (apply Z.div_pos; lia).
  unfold intersection, region_new, screen_of. cbn [rg_x rg_y rg_w rg_h].
  rewrite !sat_add_id by (unfold is_i32, w; lia).
  destruct (Z.ltb_spec (Z.max x 0) (Z.min (x + Z.max w 0) (0 + Z.of_nat cols))); [|lia].
  destruct (Z.ltb_spec (Z.max y 0) (Z.min (y + Z.max h 0) (0 + Z.of_nat rows))); [|lia]. cbn [andb].
  unfold region_is_empty. cbn [rg_w rg_h].
  destruct (Z.leb_spec (Z.min (x + Z.max w 0) (0 + Z.of_nat cols) - Z.max x 0) 0); [lia|].
  destruct (Z.leb_spec (Z.min (y + Z.max h 0) (0 + Z.of_nat rows) - Z.max y 0) 0); [lia|]. cbn [orb].
  f_equal. f_equal; lia.
Qed.

(** C97: if the text wants no more than 40 columns, the rectangle is under the
    pointer, and centred there unless the left edge is in the way. *)
Theorem C97_under_pointer : 0 < d <= 40 -> x <= mx < x + w /\ (d / 2 <= mx -> mx - x = d / 2) /\ (mx < d / 2 -> x = 0).
Proof.
  intros D. pose proof x_is as Ex. pose proof (Z.div_pos d 2). pose proof (Z.div_mod d 2). pose proof (Z.mod_pos_bound d 2). unfold w. lia.
Qed.

(** Not so if it wants more: from 80 columns on, the rectangle ends before the
    pointer. *)
Theorem C97_beside_pointer_refuted : 80 <= d -> d / 2 <= mx -> x + w <= mx.
Proof.
  intros D M. pose proof x_is as Ex. assert (40 <= d / 2) by (apply Z.div_le_lower_bound; lia). unfold w. lia.
Qed.

(** What does not fit to the right of the column where it begins, or below the
    pointer, is cut off, even if there is room elsewhere.  In particular nothing is
    shown while the pointer is in the last row. *)
Theorem C97_cut_at_the_right_refuted : 0 < w -> 0 < h -> my + 1 + h <= Z.of_nat rows -> x < Z.of_nat cols ->
  Z.of_nat cols < x + w -> exists r, drawn = Some r /\ rg_w r < w.
Proof.
  intros W0 H0 Fy Fx Cut. destruct C97_rectangle as [A B]. destruct drawn as [r|].
  - exists r. split; [reflexivity|]. destruct (Z.lt_ge_cases (rg_w r) w); [assumption|exfalso].
    pose proof x_is as Ex. unfold is_u16 in *.
    assert (I : in_region r x (my + 1)) by (apply (A r eq_refl); unfold on_screen; lia).
    assert (J : ~ in_region r (x + w - 1) (my + 1)) by (rewrite (A r eq_refl); unfold on_screen; lia).
    assert (K : in_region r (rg_x r + rg_w r - 1) (my + 1)) by (unfold in_region in *; lia).
    assert (L : in_region r (rg_x r) (my + 1)) by (unfold in_region in *; lia).
    apply (A r eq_refl) in L. unfold in_region in *. lia.
  - exfalso. destruct B as [B _]. apply (B eq_refl x (my + 1)); [unfold on_screen; pose proof x_is; unfold is_u16 in *; lia|lia].
Qed.
Theorem C97_last_row_refuted : my = Z.of_nat rows - 1 -> drawn = None.
Proof. intros E. apply C97_rectangle. unfold on_screen. intros X Y. lia. Qed.
End Rules.
Print Assumptions C97_rectangle.
Print Assumptions C97_whole.
Print Assumptions C97_under_pointer.
Print Assumptions C97_beside_pointer_refuted.
Print Assumptions C97_cut_at_the_right_refuted.
Print Assumptions C97_last_row_refuted.

(** C97: the height is that of C93, so that every line of the text has a row in the
    rectangle. *)
Theorem C97_all_lines : forall {G St Mt : Type} (k : @look G St Mt) (wrap : nat -> list (@wline G St Mt)) (d : Z), sides_drawn k ->
  let w := Z.to_nat (Z.min d 40) in
  (length (wrap (Nat.max (room_w k w - k_line_pad k * 2) 1)) <= room_h k (Static_Model.intrinsic_height k wrap w))%nat.
Proof.
  intros G St Mt k wrap d S w.
  assert (V : forall x, x <> KHkey -> Row_Model.shown x = shown_v x) by (intros []; intros; try reflexivity; congruence).
  destruct S as [Sl Sr]. assert (E : chrome_width k = (b2n (shown_v (e_left (k_border k))) + b2n (shown_v (e_right (k_border k))) + (e_left (k_padding k) + e_right (k_padding k)))%nat) by (unfold chrome_width; rewrite !V by assumption; reflexivity).
  assert (Q : forall x, (b2n (shown_h x) <= b2n (Row_Model.shown x))%nat) by (intros []; cbn; lia).
  unfold Static_Model.intrinsic_height, room_h, chrome_height, room_w. rewrite E.
  pose proof (Q (e_top (k_border k))). pose proof (Q (e_bottom (k_border k))). lia.
Qed.
Print Assumptions C97_all_lines.

Definition sheet_rules := Tipstyle false (Some (Scalar 1 Auto)) (Some (Scalar (40 # 1) Cells)) None None None.
Example C97_example : own_rules sheet_rules /\
  tip_region true sheet_rules (place Z (fun d => d) (30, 5) 28) 28 (fun _ => 3%nat) (screen_of 80 24) = Some (Region 16 6 28 3) /\
  tip_region true sheet_rules (place Z (fun d => d) (75, 5) 30) 30 (fun _ => 3%nat) (screen_of 80 24) = Some (Region 60 6 20 3) /\
  tip_region true sheet_rules (place Z (fun d => d) (60, 5) 100) 100 (fun _ => 5%nat) (screen_of 80 24) = Some (Region 10 6 40 5) /\
  tip_region true sheet_rules (place Z (fun d => d) (30, 23) 28) 28 (fun _ => 3%nat) (screen_of 80 24) = None.
Proof. split; [unfold own_rules; cbn; repeat split; right; eauto|]. repeat split. Qed.

(** ** Whose tooltip *)

(** C97: with other rules, what is drawn is the part on the screen of a rectangle.  Its
    width is the one the text wants (all columns if it has no bound) and its height
    the given one, or the one the text needs at that width, both within the limits of
    the style; parts of the screen are parts of its columns or rows. *)
Lemma cells_stands : forall v cols rows (is_height : bool), (0 <= s_value v)%Q ->
  cells_of v (screen_of cols rows) is_height = stands_for cols rows (if is_height then rows else cols) v.
Proof.
  intros v cols rows is_height H.
  assert (P : forall n, round (pct (s_value v) (Z.of_nat n)) = nearest (s_value v * inject_Z (Z.of_nat n) / 100)).
  { intros n. assert (N : (0 <= inject_Z (Z.of_nat n))%Q) by (change 0%Q with (inject_Z 0); rewrite <- Zle_Qle; lia).
    assert (B : (0 <= pct (s_value v) (Z.of_nat n))%Q).
    { unfold pct. apply Qmult_le_0_compat; [|exact N]. apply Qle_shift_div_l; [reflexivity|]. rewrite Qmult_0_l. exact H. }
    unfold round, nearest. apply Qle_bool_iff in B. rewrite B. apply Qround.Qfloor_comp. apply Qplus_comp; [|reflexivity]. unfold pct. field. }
  unfold cells_of, stands_for, screen_of. cbn [rg_w rg_h]. destruct (s_unit v), is_height; cbn iota; rewrite ?P; try reflexivity; apply Sizes_Proofs.trunc_floor, H.
Qed.
Lemma clamp_within : forall cols rows lo hi (is_height : bool) n,
  (forall v, In (Some v) [lo; hi] -> (0 <= s_value v)%Q) ->
  let cells := stands_for cols rows (if is_height then rows else cols) in
  within (option_map cells lo) (option_map cells hi) n (at_least lo (screen_of cols rows) is_height (at_most hi (screen_of cols rows) is_height n)).
Proof.
  intros cols rows lo hi b n P cells. unfold within, at_least, at_most.
  destruct lo as [l|], hi as [h|]; cbn [option_map];
    repeat match goal with |- context[cells_of ?v _ b] => rewrite (cells_stands v cols rows b) by (apply P; cbn; auto); fold cells end;
    try (generalize (cells l); intro lv); try (generalize (cells h); intro hv).
  - repeat split.
    + intros x [= <-]. lia.
    + intros x [= <-]. destruct (Z.max_spec (Z.min n hv) lv) as [[? ->]|[? ->]]; [now right|left; lia].
    + intros D. destruct (Z.max_spec (Z.min n hv) lv) as [[A E0]|[A E0]]; rewrite E0 in *.
      * destruct (Z.lt_trichotomy lv n) as [?|[?|?]]; [left; auto|congruence|right; auto].
      * left. destruct (Z.min_spec n hv) as [[? E]|[? E]]; rewrite E in *; [congruence|]. split; [lia|now left].
  - repeat split; try discriminate.
    + intros x [= <-]. lia.
    + intros D. right. destruct (Z.max_spec n lv) as [[? E]|[? E]]; rewrite E in *; [auto|congruence].
  - repeat split; try discriminate.
    + intros x [= <-]. left. lia.
    + intros D. left. destruct (Z.min_spec n hv) as [[? E]|[? E]]; rewrite E in *; [congruence|]. split; [lia|now left].
  - repeat split; try discriminate. congruence.
Qed.
Theorem C97_other_rules : forall s x y desired height_for cols rows, no_negative s -> t_hidden s = false ->
  is_u16 cols -> is_u16 rows -> is_i32 x -> is_i32 y ->
  let want := if desired =? 65535 then Z.of_nat cols else desired in
  exists w h,
    within (option_map (stands_for cols rows cols) (t_min_w s)) (option_map (stands_for cols rows cols) (t_max_w s)) want w /\
    (let need := match t_height s with
                 | Some v => match s_unit v with Auto => Z.of_nat (height_for (Z.to_nat w)) | _ => stands_for cols rows rows v end
                 | None => Z.of_nat (height_for (Z.to_nat w))
                 end in
     within (option_map (stands_for cols rows rows) (t_min_h s)) (option_map (stands_for cols rows rows) (t_max_h s)) need h) /\
    (0 <= x + Z.max w 0 <= 2147483647 -> 0 <= y + Z.max h 0 <= 2147483647 ->
     let drawn := tip_region true s (x, y) desired height_for (screen_of cols rows) in
     (forall r, drawn = Some r -> forall X Y, in_region r X Y <-> on_screen cols rows X Y /\ x <= X < x + w /\ y <= Y < y + h) /\
     (drawn = None <-> forall X Y, on_screen cols rows X Y -> ~ (x <= X < x + w /\ y <= Y < y + h))).
Proof.
  intros s x y desired hf cols rows P Hid Uc Ur Ix Iy want.
  exists (tip_width s desired (screen_of cols rows)), (tip_height s hf (tip_width s desired (screen_of cols rows)) (screen_of cols rows)).
  set (w := tip_width s desired (screen_of cols rows)). set (h := tip_height s hf w (screen_of cols rows)). split; [|split].
  - unfold w, tip_width. replace (if desired =? u16_max then Z.max (rg_w (screen_of cols rows)) 0 else desired) with want.
    + apply (clamp_within cols rows (t_min_w s) (t_max_w s) false). intros v I. apply P. cbn in I |- *. intuition.
    + unfold want, screen_of. cbn [rg_w]. change u16_max with 65535. destruct (desired =? 65535); [lia|reflexivity].
  - cbn zeta. unfold h, tip_height. cbn zeta.
    match goal with |- within _ _ ?a (at_least _ _ _ (at_most _ _ _ ?b)) => replace b with a end.
    + apply (clamp_within cols rows (t_min_h s) (t_max_h s) true). intros v I. apply P. cbn in I |- *. intuition.
    + destruct (t_height s) as [v|] eqn:E; [|reflexivity].
      rewrite (cells_stands v cols rows true) by (apply P; rewrite E; cbn; auto). reflexivity.
  - intros Fx Fy drawn.
    assert (C : forall X Y, in_region (intersection (region_new x y w h) (screen_of cols rows)) X Y <-> on_screen cols rows X Y /\ x <= X < x + w /\ y <= Y < y + h).
    { intros X Y. apply cut_spec; try assumption; unfold is_i32 in *; lia. }
    unfold drawn, tip_region. rewrite Hid. cbn [negb orb fst snd]. cbn zeta. fold w. fold h.
    destruct (region_is_empty _) eqn:E.
    + split; [discriminate|]. split; [|reflexivity]. intros _ X Y On R. rewrite empty_no_cells in E. apply (E X Y), C. tauto.
    + split; [intros r [= <-]; exact C|]. split; [discriminate|]. intros N. exfalso.
      assert (region_is_empty (intersection (region_new x y w h) (screen_of cols rows)) = true) by (apply empty_no_cells; intros X Y I; apply C in I as [On I]; exact (N X Y On I)). congruence.
Qed.
Print Assumptions C97_other_rules.
Example C97_other_rules_example :
  let s := Tipstyle false (Some (Scalar (50 # 1) Percent)) (Some (Scalar (25 # 1) ViewWidth)) (Some (Scalar (3 # 1) Cells)) None (Some (Scalar (2 # 1) Cells)) in
  no_negative s /\ tip_region true s (70, 5) 65535 (fun _ => 1%nat) (screen_of 80 24) = Some (Region 70 5 10 12).
Proof.
  split; [|vm_compute; reflexivity]. intros v I. cbn in I.
  repeat (destruct I as [I|I]; [try discriminate; injection I as <-; discriminate|]). destruct I.
Qed.

(** C97: the tooltip is that of the first widget of the tree, outer widgets before
    inner ones, that is pointed at and has one. *)
Theorem C97_whose : forall tr t, find_tooltip tr = Some t <->
  exists pre n post, widgets tr = pre ++ n :: post /\ pointed_tip n t /\ Forall (fun m => forall u, ~ pointed_tip m u) pre.
Proof. intros tr t. rewrite find_tooltip_first. apply first_tip_some. Qed.
Print Assumptions C97_whose.

(** Of the widgets of the library only the icon of the header can have one:
    tooltips set on others are never shown. *)
Theorem C97_set_tooltip_refuted : forall tr, Forall (fun n => n_kind n <> HeaderIcon /\ n_kind n <> Custom) (widgets tr) -> find_tooltip tr = None.
Proof.
  intros tr F. destruct (find_tooltip tr) as [t|] eqn:E; [|reflexivity]. exfalso. apply C97_whose in E.
  destruct E as (pre & n & post & E & [R T] & _). rewrite Forall_forall in F. destruct (F n) as [A B].
  { rewrite E. apply in_app_iff. right. now left. }
  unfold reports_hover, tooltip in *. destruct (n_kind n); congruence.
Qed.
Print Assumptions C97_set_tooltip_refuted.
Example C97_whose_example :
  let tip := Some (str "Open the command palette") in
  let icon := Tree (Node_ HeaderIcon true tip None) [] in
  let label := Tree (set_tooltip (Node_ Static true None None) (Some (str "Hello"))) [] in
  find_tooltip (Tree (Node_ Other false None None) [label; icon]) = tip /\ find_tooltip (Tree (Node_ Other false None None) [label]) = None.
Proof. split; reflexivity. Qed.

(** After the pointer is said to have left, no tooltip is found. *)
Theorem C97_cleared : forall tr, find_tooltip (clear_all tr) = None /\
  map (fun n => (n_kind n, n_tip n, n_pending n)) (widgets (clear_all tr)) = map (fun n => (n_kind n, n_tip n, n_pending n)) (widgets tr).
Proof.
  intros tr. split.
  - destruct (find_tooltip (clear_all tr)) as [t|] eqn:E; [|reflexivity]. exfalso. apply C97_whose in E.
    destruct E as (pre & n & post & E & [R _] & _). rewrite clear_widgets in E.
    assert (I : In n (map (fun n => Node_ (n_kind n) false (n_tip n) (n_pending n)) (widgets tr))) by (rewrite E; apply in_app_iff; right; now left).
    apply in_map_iff in I as (m & <- & _). unfold reports_hover in R. cbn in R. destruct (n_kind m); discriminate.
  - rewrite clear_widgets, map_map. reflexivity.
Qed.
Print Assumptions C97_cleared.

(** ** C98: pending actions *)

(** Every action that waits in some widget is handed out, in the order of the
    widgets in the tree, and exactly once: afterwards none waits, and nothing else
    about the widgets has changed. *)
Theorem C98_collected_once : forall tr, let '(after, actions) := collect tr in
  actions = waiting tr /\ waiting after = [] /\ snd (collect after) = [] /\
  map (fun n => (n_kind n, n_hover n, n_tip n)) (widgets after) = map (fun n => (n_kind n, n_hover n, n_tip n)) (widgets tr).
Proof.
  intros tr. destruct (collect_spec tr) as [A B]. destruct (collect tr) as [after actions]. cbn [fst snd] in *.
  assert (W : waiting after = []).
  { unfold waiting. rewrite B. clear. induction (widgets tr) as [|n l IH]; [reflexivity|]. exact IH. }
  split; [exact A|]. split; [exact W|]. split; [rewrite (proj1 (collect_spec after)); exact W|]. rewrite B, map_map. reflexivity.
Qed.
Print Assumptions C98_collected_once.
Theorem C98_each_widget : forall tr n a, In n (widgets tr) -> n_pending n = Some a -> In a (snd (collect tr)).
Proof.
  intros tr n a I P. rewrite (proj1 (collect_spec tr)). apply in_flat_map. exists n. rewrite P. split; [exact I|now left].
Qed.
Print Assumptions C98_each_widget.
Example C98_example :
  let b a := Tree (Node_ Button false None (Some (str a))) [] in
  snd (collect (Tree (Node_ Other false None None) [b "save"%string; Tree (Node_ Static false None None) []; Tree (Node_ Other false None None) [b "quit"%string]])) = [str "save"; str "quit"].
Proof. reflexivity. Qed.
