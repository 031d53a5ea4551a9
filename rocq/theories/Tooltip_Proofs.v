(** Lemmas on tooltips. *)
From Coq Require Import ZArith QArith List Bool Arith Lia.
From Verif Require Import Text_Model Canvas_Model Canvas_Spec Canvas_Proofs Layout_Model Tooltip_Model Tooltip_Spec.
Import ListNotations.
Open Scope Z_scope.

Lemma tree_ind' : forall P : tree -> Prop, (forall n kids, Forall P kids -> P (Tree n kids)) -> forall t, P t.
Proof.
  intros P H. fix F 1. intros [n kids]. apply H. induction kids as [|k kids IH]; constructor; [apply F|exact IH].
Qed.

(** the first of a list *)
Definition first_tip (l : list node) : option text :=
  fold_right (fun n r => match own_tooltip n with Some x => Some x | None => r end) None l.
Lemma first_tip_app : forall a b, first_tip (a ++ b) = match first_tip a with Some x => Some x | None => first_tip b end.
Proof. induction a as [|n a IH]; intros b; [reflexivity|]. cbn. destruct (own_tooltip n); [reflexivity|apply IH]. Qed.
Lemma find_tooltip_first : forall t, find_tooltip t = first_tip (widgets t).
Proof.
  induction t as [n kids IH] using tree_ind'. cbn [find_tooltip widgets first_tip fold_right]. fold (first_tip (flat_map widgets kids)).
  destruct (own_tooltip n); [reflexivity|].
  assert (K : forall f, fold_left (fun found k => match found with None => find_tooltip k | _ => found end) kids f =
    match f with Some x => Some x | None => first_tip (flat_map widgets kids) end).
  { induction IH as [|k kids Hk _ IHk]; intros f; cbn [fold_left flat_map]; [destruct f; reflexivity|].
    rewrite IHk, first_tip_app, Hk. destruct f; reflexivity. }
  rewrite K. reflexivity.
Qed.
Lemma first_tip_some : forall l t, first_tip l = Some t <->
  exists pre n post, l = pre ++ n :: post /\ pointed_tip n t /\ Forall (fun m => forall u, ~ pointed_tip m u) pre.
Proof.
  assert (O : forall n t, own_tooltip n = Some t <-> pointed_tip n t).
  { intros n t. unfold own_tooltip, pointed_tip. destruct (reports_hover n); intuition discriminate. }
  induction l as [|n l IH]; intros t.
  - split; [discriminate|]. intros (pre & n & post & E & _). destruct pre; discriminate.
  - cbn. fold (first_tip l). destruct (own_tooltip n) as [x|] eqn:E.
    + split.
      * intros H. injection H as ->. exists [], n, l. split; [reflexivity|]. split; [apply O, E|constructor].
      * intros (pre & m & post & L & P & F). destruct pre as [|p pre].
        -- injection L as -> ->. apply O in P. congruence.
        -- injection L as -> ->. inversion F as [|? ? H _]; subst. exfalso. apply (H x), O, E.
    + rewrite IH. split.
      * intros (pre & m & post & L & P & F). exists (n :: pre), m, post. split; [cbn; congruence|]. split; [exact P|].
        constructor; [|exact F]. intros u Hu. apply O in Hu. congruence.
      * intros (pre & m & post & L & P & F). destruct pre as [|p pre].
        -- injection L as -> ->. apply O in P. congruence.
        -- injection L as -> ->. inversion F; subst. exists pre, m, post. auto.
Qed.

Lemma collect_spec : forall t,
  snd (collect t) = waiting t /\
  widgets (fst (collect t)) = map (fun n => Node_ (n_kind n) (n_hover n) (n_tip n) None) (widgets t).
Proof.
  induction t as [n kids IH] using tree_ind'. cbn [collect fst snd]. unfold waiting in *. cbn [widgets flat_map map].
  assert (A : concat (map snd (map collect kids)) = flat_map (fun n => match n_pending n with Some a => [a] | None => [] end) (flat_map widgets kids)).
  { induction IH as [|k kids [Hk _] _ IHk]; [reflexivity|]. cbn [map concat flat_map]. rewrite IHk, Hk, flat_map_app. reflexivity. }
  assert (B : flat_map widgets (map fst (map collect kids)) = map (fun n => Node_ (n_kind n) (n_hover n) (n_tip n) None) (flat_map widgets kids)).
  { clear A. induction IH as [|k kids [_ Hk] _ IHk]; [reflexivity|]. cbn [map flat_map]. rewrite map_app, Hk, IHk. reflexivity. }
  rewrite A, B. split; reflexivity.
Qed.

Lemma clear_widgets : forall t, widgets (clear_all t) = map (fun n => Node_ (n_kind n) false (n_tip n) (n_pending n)) (widgets t).
Proof.
  induction t as [n kids IH] using tree_ind'. cbn [clear_all widgets map]. f_equal.
  induction IH as [|k kids Hk _ IHk]; [reflexivity|]. cbn [map flat_map]. rewrite map_app, Hk, IHk. reflexivity.
Qed.

(** *** the region *)
Lemma cut_spec : forall cols rows x y w h, is_u16 cols -> is_u16 rows -> is_i32 (x + Z.max w 0) -> is_i32 (y + Z.max h 0) -> forall X Y,
  in_region (intersection (region_new x y w h) (screen_of cols rows)) X Y <-> on_screen cols rows X Y /\ x <= X < x + w /\ y <= Y < y + h.
Proof.
  intros cols rows x y w h Uc Ur Hx Hy X Y. unfold is_u16 in *. unfold intersection, region_new, screen_of. cbn [rg_x rg_y rg_w rg_h].
  rewrite !sat_add_id by (unfold is_i32 in *; lia). unfold in_region, on_screen.
  destruct ((Z.max x 0 <? Z.min (x + Z.max w 0) (0 + Z.of_nat cols)) && (Z.max y 0 <? Z.min (y + Z.max h 0) (0 + Z.of_nat rows))) eqn:E; cbn [rg_x rg_y rg_w rg_h].
  - lia.
  - apply andb_false_iff in E. rewrite !Z.ltb_ge in E. lia.
Qed.
Lemma cut_inside : forall cols rows a, is_u16 cols -> is_u16 rows ->
  let r := intersection a (screen_of cols rows) in region_is_empty r = false ->
  0 <= rg_x r /\ 0 <= rg_y r /\ 0 < rg_w r /\ 0 < rg_h r /\ rg_x r + rg_w r <= Z.of_nat cols /\ rg_y r + rg_h r <= Z.of_nat rows.
Proof.
  intros cols rows [x y w h] Uc Ur r E. unfold is_u16 in *. subst r. revert E. unfold intersection, screen_of, region_is_empty. cbn [rg_x rg_y rg_w rg_h].
  rewrite !(sat_add_id 0) by (unfold is_i32; lia).
  set (s1 := sat_add x w). set (s2 := sat_add y h). clearbody s1 s2.
  destruct ((Z.max x 0 <? Z.min s1 (0 + Z.of_nat cols)) && (Z.max y 0 <? Z.min s2 (0 + Z.of_nat rows))) eqn:C; cbn [rg_x rg_y rg_w rg_h]; intros E.
  - apply andb_true_iff in C. rewrite !Z.ltb_lt in C. lia.
  - discriminate.
Qed.
Lemma empty_no_cells : forall r, region_is_empty r = true <-> forall X Y, ~ in_region r X Y.
Proof.
  intros r. unfold region_is_empty, in_region. rewrite orb_true_iff, !Z.leb_le. split; [intros; lia|].
  intros H. destruct (Z.le_gt_cases (rg_w r) 0); [now left|]. destruct (Z.le_gt_cases (rg_h r) 0); [now right|].
  exfalso. apply (H (rg_x r) (rg_y r)). lia.
Qed.
