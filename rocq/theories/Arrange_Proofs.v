(** Lemmas about docks, layers, alignment and offsets. *)
From Coq Require Import ZArith QArith Qround Qminmax List Bool Arith Lia Lqa Permutation.
From Verif Require Import Text_Model Fraction_Model Canvas_Model Layout_Model Layout_Spec Layout_Proofs Column_Proofs
  Grid_Model Grid_Spec Arrange_Model Arrange_Spec.
Import ListNotations.
Open Scope Z_scope.
Local Arguments Z.add : simpl never.
Local Arguments Z.sub : simpl never.
Local Arguments Z.mul : simpl never.
Local Arguments Z.max : simpl never.
Local Arguments Z.min : simpl never.
Local Arguments Z.of_nat : simpl never.

(** ** Indices *)
Lemma find_own : forall l c, own_indices l -> In c l -> find (fun d => (ch_index d =? ch_index c)%nat) l = Some c.
Proof.
  induction l as [|d l IH]; intros c N H; [easy|]. inversion N; subst. simpl.
  destruct (Nat.eqb_spec (ch_index d) (ch_index c)) as [E|E].
  - destruct H as [->|H]; auto. exfalso. apply H2. rewrite E. apply in_map. exact H.
  - destruct H as [->|H]; [congruence|]. apply IH; auto.
Qed.
Lemma in_map_inj : forall (A B : Type) (f : A -> B) l x y, NoDup (map f l) -> In x l -> In y l -> f x = f y -> x = y.
Proof.
  induction l as [|a l IH]; intros x y N Hx Hy E; [easy|]. inversion N; subst.
  destruct Hx as [->|Hx]; destruct Hy as [->|Hy]; auto.
  - exfalso. apply H1. rewrite E. apply in_map; auto.
  - exfalso. apply H1. rewrite <- E. apply in_map; auto.
Qed.
Lemma own_filter : forall f l, own_indices l -> own_indices (filter f l).
Proof.
  unfold own_indices. induction l as [|c l IH]; simpl; auto. intros N. inversion N; subst. destruct (f c); auto.
  simpl. constructor; auto. intros H. apply H1. apply in_map_iff in H. destruct H as (d & E & H). apply filter_In in H.
  rewrite <- E. apply in_map. apply H.
Qed.

Lemma shift_index : forall dx dy p, pl_index (shift dx dy p) = pl_index p. Proof. reflexivity. Qed.
Lemma offset_index : forall cs v p, pl_index (offset_one cs v p) = pl_index p.
Proof. intros. unfold offset_one. destruct (find _ _); reflexivity. Qed.
Lemma apply_offset_index : forall ps cs v, map pl_index (apply_offset ps cs v) = map pl_index ps.
Proof. intros. unfold apply_offset. rewrite map_map. apply map_ext. intros. apply offset_index. Qed.
Lemma alignment_index : forall ps cs s a, map pl_index (apply_alignment ps cs s a) = map pl_index ps.
Proof. intros. unfold apply_alignment. destruct ps; auto. rewrite map_map. apply map_ext. intros. apply shift_index. Qed.

Lemma vertical_index : forall cs a v, map pl_index (vertical_arrange cs a v) = map ch_index cs.
Proof. intros. apply col_place_index. Qed.

Lemma map_combine_fst : forall (A B C : Type) (f : A -> C) (l : list A) (m : list B),
  map (fun p => f (fst p)) (combine l m) = firstn (length m) (map f l).
Proof.
  induction l as [|x l IH]; intros [|y m]; simpl; auto. f_equal. apply IH.
Qed.
Lemma grid_index : forall g cs a, exists k, map pl_index (grid_arrange g cs a) = firstn k (map ch_index cs).
Proof.
  intros. unfold grid_arrange. destruct (grid_dims g (length cs) a) as [rows cols]. rewrite map_map.
  eexists. rewrite <- map_combine_fst with (m := grid_cells (occ_new rows cols) 0 0 (spans_of cs)). apply map_ext. intros [c q]. reflexivity.
Qed.
Lemma run_layout_index : forall s cs a v, exists k, map pl_index (run_layout s cs a v) = firstn k (map ch_index cs).
Proof.
  intros. unfold run_layout. destruct (ps_layout s). apply grid_index.
  - exists (length cs). rewrite vertical_index. symmetry. apply firstn_all2. rewrite map_length. lia.
  - exists (length cs). rewrite horizontal_index. symmetry. apply firstn_all2. rewrite map_length. lia.
Qed.
Lemma run_layout_index_all : forall s cs a v, ps_layout s <> LGrid -> map pl_index (run_layout s cs a v) = map ch_index cs.
Proof.
  intros s cs a v H. unfold run_layout. destruct (ps_layout s). congruence. apply vertical_index. apply horizontal_index.
Qed.

(** ** Docks *)
Lemma docked_fst : forall l a s, fst (arrange_docked l a s)
  = flat_map (fun c => match l_dock (ch_style c) with Some d => [Placement (ch_index c) (dock_region d c a)] | None => [] end) l.
Proof.
  induction l as [|c l IH]; intros a s; simpl; auto. destruct (l_dock (ch_style c)) as [d|]; [|apply IH].
  specialize (IH a (dock_space d c s)). destruct (arrange_docked l a (dock_space d c s)). simpl in *. rewrite IH. reflexivity.
Qed.
Lemma docked_of_index : forall l a s, map pl_index (fst (arrange_docked (docked_of l) a s)) = map ch_index (docked_of l).
Proof.
  intros. rewrite docked_fst. unfold docked_of. induction l as [|c l IH]; [reflexivity|]. cbn [filter].
  assert (D : is_docked c = match l_dock (ch_style c) with Some _ => true | None => false end) by reflexivity. rewrite D.
  destruct (l_dock (ch_style c)) eqn:E; auto. simpl. rewrite E. simpl. f_equal. exact IH.
Qed.

Definition add_sp (s : spacing) (l : list child) : spacing :=
  Spacing (Z.max (sp_top s) (reach DockTop l)) (Z.max (sp_right s) (reach DockRight l))
          (Z.max (sp_bottom s) (reach DockBottom l)) (Z.max (sp_left s) (reach DockLeft l)).
Lemma docked_snd : forall l a s, 0 <= sp_top s -> 0 <= sp_right s -> 0 <= sp_bottom s -> 0 <= sp_left s ->
  snd (arrange_docked l a s) = add_sp s l.
Proof.
  induction l as [|c l IH]; intros a s H1 H2 H3 H4; simpl.
  - destruct s; simpl in *. unfold add_sp. simpl. rewrite !Z.max_l by lia. reflexivity.
  - destruct (l_dock (ch_style c)) as [d|] eqn:E.
    + specialize (IH a (dock_space d c s)). destruct (arrange_docked l a (dock_space d c s)) as [ps s'] eqn:F. simpl in *.
      rewrite IH by (destruct d; simpl; lia). unfold add_sp. simpl. unfold depth, dock_of. rewrite E.
      destruct d; simpl; f_equal; lia.
    + rewrite IH by auto. unfold add_sp. simpl. unfold dock_of. rewrite E. reflexivity.
Qed.
Lemma reach_nonneg : forall d l, 0 <= reach d l.
Proof.
  induction l as [|c l IH]; simpl. lia. destruct (dock_of c) as [e|]; [|exact IH]. destruct (edge_eqb d e); lia.
Qed.
Lemma reach_docked : forall d l, reach d (docked_of l) = reach d l.
Proof.
  unfold docked_of. induction l as [|c l IH]; simpl; auto. unfold is_docked at 1.
  change (l_dock (ch_style c)) with (dock_of c). destruct (dock_of c) as [e|] eqn:E; auto.
  simpl. rewrite E. rewrite IH. reflexivity.
Qed.
Lemma content_inner : forall cs a, content_region a (snd (arrange_docked (docked_of cs) a (Spacing 0 0 0 0))) = inner a cs.
Proof.
  intros. rewrite docked_snd by (simpl; lia). unfold content_region, add_sp, inner. simpl. rewrite !reach_docked.
  pose proof (reach_nonneg DockTop cs). pose proof (reach_nonneg DockRight cs).
  pose proof (reach_nonneg DockBottom cs). pose proof (reach_nonneg DockLeft cs).
  rewrite !Z.max_r by lia. f_equal; lia.
Qed.

(** The three groups of placements. *)
Definition dock_ps (cs : list child) (a : region) : list placement := fst (arrange_docked (docked_of cs) a (Spacing 0 0 0 0)).
Lemma arrange_eq : forall s cs a v, arrange_children s cs a v =
  apply_offset (dock_ps cs a) cs v
  ++ apply_offset (apply_alignment (run_layout s (flow_of cs) (inner a cs) v) (flow_of cs) s (inner a cs)) cs v
  ++ apply_offset (map (absolute_placement (inner a cs) v) (absolute_of cs)) cs v.
Proof.
  intros. unfold arrange_children, dock_ps. rewrite <- content_inner.
  destruct (arrange_docked (docked_of cs) a (Spacing 0 0 0 0)) as [d sp]. reflexivity.
Qed.
Lemma arrange_index : forall s cs a v, exists k, map pl_index (arrange_children s cs a v) =
  map ch_index (docked_of cs) ++ firstn k (map ch_index (flow_of cs)) ++ map ch_index (absolute_of cs).
Proof.
  intros. rewrite arrange_eq, !map_app, !apply_offset_index, alignment_index.
  destruct (run_layout_index s (flow_of cs) (inner a cs) v) as (k & E). exists k. rewrite E. f_equal.
  - apply docked_of_index.
  - f_equal. rewrite map_map. reflexivity.
Qed.
Lemma arrange_index_all : forall s cs a v, ps_layout s <> LGrid -> map pl_index (arrange_children s cs a v) =
  map ch_index (docked_of cs) ++ map ch_index (flow_of cs) ++ map ch_index (absolute_of cs).
Proof.
  intros. rewrite arrange_eq, !map_app, !apply_offset_index, alignment_index, run_layout_index_all by auto. f_equal.
  - apply docked_of_index.
  - f_equal. rewrite map_map. reflexivity.
Qed.
Lemma three_ways : forall cs, Permutation (docked_of cs ++ flow_of cs ++ absolute_of cs) cs.
Proof.
  unfold docked_of, flow_of, absolute_of. induction cs as [|c cs IH]; simpl; auto.
  destruct (is_docked c); simpl.
  - constructor. exact IH.
  - destruct (l_absolute (ch_style c)); simpl.
    + rewrite app_assoc. eapply Permutation_trans. symmetry. apply Permutation_middle. constructor. rewrite <- app_assoc. exact IH.
    + eapply Permutation_trans. symmetry. apply Permutation_middle. constructor. exact IH.
Qed.
Lemma arrange_perm : forall s cs a v, ps_layout s <> LGrid ->
  Permutation (map pl_index (arrange_children s cs a v)) (map ch_index cs).
Proof.
  intros. rewrite arrange_index_all by auto. rewrite <- !map_app. apply Permutation_map. apply three_ways.
Qed.
Lemma firstn_incl : forall (A : Type) k (l : list A) x, In x (firstn k l) -> In x l.
Proof. induction k; intros [|y l] x; simpl; auto. easy. intros [H|H]; auto. Qed.
Lemma NoDup_firstn : forall (A : Type) k (l : list A), NoDup l -> NoDup (firstn k l).
Proof. induction k; intros [|y l] N; simpl; try constructor; inversion N; subst; auto. intros H. apply firstn_incl in H. contradiction. Qed.
Lemma arrange_at_most_once : forall s cs a v, own_indices cs ->
  NoDup (map pl_index (arrange_children s cs a v)) /\ incl (map pl_index (arrange_children s cs a v)) (map ch_index cs).
Proof.
  intros s cs a v N. destruct (arrange_index s cs a v) as (k & E). rewrite E.
  assert (P : NoDup (map ch_index (docked_of cs) ++ map ch_index (flow_of cs) ++ map ch_index (absolute_of cs))).
  { rewrite <- !map_app. eapply Permutation_NoDup; [|exact N]. apply Permutation_map. symmetry. apply three_ways. }
  assert (I : incl (map ch_index (docked_of cs) ++ map ch_index (flow_of cs) ++ map ch_index (absolute_of cs)) (map ch_index cs)).
  { rewrite <- !map_app. intros x H. eapply Permutation_in; [|exact H]. apply Permutation_map. apply three_ways. }
  split.
  - clear E I. revert P. generalize (map ch_index (docked_of cs)) (map ch_index (flow_of cs)) (map ch_index (absolute_of cs)).
    intros A B C. induction A as [|x A IH]; simpl; intros P.
    + revert k. induction B as [|y B IH]; intros k; simpl in *.
      * destruct k; exact P.
      * inversion P; subst. destruct k; simpl. { clear - H2. induction B; simpl in *; auto. inversion H2; subst. auto. }
        constructor; auto. intros H. apply H1. apply in_app_or in H. apply in_or_app. destruct H; auto. left. eapply firstn_incl; eauto.
    + inversion P; subst. constructor; auto. intros H. apply H1. apply in_app_or in H. apply in_or_app. destruct H as [H|H]; auto.
      right. apply in_app_or in H. apply in_or_app. destruct H as [H|H]; auto. left. eapply firstn_incl; eauto.
  - intros x H. apply I. apply in_app_or in H. apply in_or_app. destruct H as [H|H]; auto.
    right. apply in_app_or in H. apply in_or_app. destruct H as [H|H]; auto. left. eapply firstn_incl; eauto.
Qed.

(** ** Alignment *)
Definition box4 (b : Z * Z * Z * Z) : (Z * Z) * (Z * Z) := let '(x0, y0, x1, y1) := b in ((x0, x1), (y0, y1)).
Lemma fold_hull : forall l b,
  let r := fold_left join_box l b in
  is_hull (map (fun b => fst (box4 b)) (b :: l)) (fst (fst (box4 r))) (snd (fst (box4 r))) /\
  is_hull (map (fun b => snd (box4 b)) (b :: l)) (fst (snd (box4 r))) (snd (snd (box4 r))).
Proof.
  induction l as [|c l IH]; intros b.
  - simpl. destruct b as [[[x0 y0] x1] y1]. simpl. split; (split; [|split]); try (eexists; split; [left; reflexivity|reflexivity]);
    intros x [<-|[]]; simpl; lia.
  - cbn [fold_left]. specialize (IH (join_box b c)). destruct b as [[[x0 y0] x1] y1]. destruct c as [[[u0 v0] u1] v1].
    cbn [join_box] in *. set (r := fold_left join_box l _) in *. cbv zeta in IH |- *. destruct r as [[[p0 q0] p1] q1].
    cbn [box4 fst snd map] in IH |- *.
    destruct IH as [(A1 & A2 & A3) (B1 & B2 & B3)]. cbn [fst snd] in *.
    assert (G : forall (m : list (Z * Z)) a b c d lo hi,
      (exists x, In x ((Z.min a c, Z.max b d) :: m) /\ fst x = lo) ->
      (exists x, In x ((Z.min a c, Z.max b d) :: m) /\ snd x = hi) ->
      (forall x, In x ((Z.min a c, Z.max b d) :: m) -> lo <= fst x /\ snd x <= hi) ->
      is_hull ((a, b) :: (c, d) :: m) lo hi).
    { clear. intros m a b c d lo hi (x & Hx & Ex) (y & Hy & Ey) H. pose proof (H _ (or_introl eq_refl)) as H0. cbn [fst snd] in H0.
      split; [|split].
      - destruct Hx as [<-|Hx]. + cbn [fst] in Ex. destruct (Z.le_gt_cases a c).
          * exists (a, b). split; [left; auto|]. simpl. lia.
          * exists (c, d). split; [right; left; auto|]. simpl. lia.
        + exists x. split; auto. right; right; auto.
      - destruct Hy as [<-|Hy]. + cbn [snd] in Ey. destruct (Z.le_gt_cases d b).
          * exists (a, b). split; [left; auto|]. simpl. lia.
          * exists (c, d). split; [right; left; auto|]. simpl. lia.
        + exists y. split; auto. right; right; auto.
      - intros z [<-|[<-|Hz]]; cbn [fst snd]; try lia. apply H. right. exact Hz. }
    split; apply G; auto.
Qed.

Lemma hull_unique : forall l lo hi lo' hi', is_hull l lo hi -> is_hull l lo' hi' -> lo = lo' /\ hi = hi'.
Proof.
  intros l lo hi lo' hi' ((x & Hx & Ex) & (y & Hy & Ey) & H) ((x' & Hx' & Ex') & (y' & Hy' & Ey') & H').
  pose proof (H _ Hx'). pose proof (H' _ Hx). pose proof (H _ Hy'). pose proof (H' _ Hy). lia.
Qed.

Lemma fold_map : forall (A B C : Type) (f : A -> B -> A) (g : C -> B) l a,
  fold_left (fun a c => f a (g c)) l a = fold_left f (map g l) a.
Proof. induction l; intros; simpl; auto. Qed.

(** A list of placements whose children are the given ones, one by one. *)
Definition placed_in (cs : list child) (l : list (child * placement)) : Prop :=
  Forall (fun x => find (fun c => (ch_index c =? pl_index (snd x))%nat) cs = Some (fst x)) l.

Lemma margin_box_eq : forall cs c p, find (fun c => (ch_index c =? pl_index p)%nat) cs = Some c ->
  box4 (margin_box cs p) = (box_x (c, p), box_y (c, p)).
Proof. intros cs c p H. unfold margin_box, margins_of. rewrite H. reflexivity. Qed.

Lemma alignment_spec : forall cs l s a x0 x1 y0 y1, l <> [] -> placed_in cs l ->
  is_hull (map box_x l) x0 x1 -> is_hull (map box_y l) y0 y1 ->
  apply_alignment (map snd l) cs s a
  = map (shift (offset_h (ps_align_h s) (rg_w a - (x1 - x0))) (offset_v (ps_align_v s) (rg_h a - (y1 - y0)))) (map snd l).
Proof.
  intros cs l s a x0 x1 y0 y1 Hne Hp Hx Hy. destruct l as [|[c p] l]; [congruence|]. clear Hne. cbn [map snd]. unfold apply_alignment.
  unfold placement_bounds. rewrite (fold_map _ _ _ join_box (margin_box cs)).
  pose proof (fold_hull (map (margin_box cs) (map snd l)) (margin_box cs p)) as F. cbv zeta in F.
  change (margin_box cs p :: map (margin_box cs) (map snd l)) with (map (margin_box cs) (map snd ((c, p) :: l))) in F.
  destruct (fold_left join_box _ _) as [[[u0 v0] u1] v1]. cbn [box4 fst snd] in F. cbn [rg_w rg_h].
  rewrite !map_map in F.
  assert (EX : map (fun x => fst (box4 (margin_box cs (snd x)))) ((c, p) :: l) = map box_x ((c, p) :: l)).
  { apply map_ext_in. intros [d q] Hin. rewrite (margin_box_eq _ d). reflexivity. red in Hp. rewrite Forall_forall in Hp. apply (Hp _ Hin). }
  assert (EY : map (fun x => snd (box4 (margin_box cs (snd x)))) ((c, p) :: l) = map box_y ((c, p) :: l)).
  { apply map_ext_in. intros [d q] Hin. rewrite (margin_box_eq _ d). reflexivity. red in Hp. rewrite Forall_forall in Hp. apply (Hp _ Hin). }
  rewrite EX, EY in F. destruct F as [F1 F2].
  destruct (hull_unique _ _ _ _ _ Hx F1) as [-> ->]. destruct (hull_unique _ _ _ _ _ Hy F2) as [-> ->]. reflexivity.
Qed.

Lemma hull_exists : forall l : list (Z * Z), l <> [] -> exists lo hi, is_hull l lo hi.
Proof.
  intros [|[a b] l] H; [congruence|].
  pose proof (fold_hull (map (fun x : Z * Z => (fst x, fst x, snd x, snd x)) l) (a, a, b, b)) as (F & _).
  simpl in F. rewrite map_map in F. eexists; eexists. erewrite map_ext in F. rewrite map_id in F. exact F. intros [x y]; reflexivity.
Qed.

Lemma layout_placed : forall s cs a v, own_indices cs -> exists k,
  let l := combine (firstn k cs) (run_layout s cs a v) in
  map snd l = run_layout s cs a v /\ placed_in cs l /\ (ps_layout s <> LGrid -> firstn k cs = cs).
Proof.
  intros s cs a v N.
  assert (E0 : exists k, map pl_index (run_layout s cs a v) = firstn k (map ch_index cs) /\ (ps_layout s <> LGrid -> k = length cs)).
  { destruct (ps_layout s) eqn:E. { destruct (run_layout_index s cs a v) as (k & H). exists k. split; auto. congruence. }
    - exists (length cs). split; auto. rewrite run_layout_index_all by congruence. rewrite firstn_all2; auto. rewrite map_length; lia.
    - exists (length cs). split; auto. rewrite run_layout_index_all by congruence. rewrite firstn_all2; auto. rewrite map_length; lia. }
  destruct E0 as (k & E & HG). exists k. cbv zeta. rewrite firstn_map in E.
  assert (L : length (run_layout s cs a v) = length (firstn k cs)) by (rewrite <- (map_length pl_index), E, map_length; reflexivity).
  split; [|split].
  - apply combine_snd. exact L.
  - unfold placed_in. rewrite Forall_forall. intros [c p] Hin. simpl.
    assert (EE : ch_index c = pl_index p).
    { revert E Hin. generalize (firstn k cs) (run_layout s cs a v). induction l as [|d l IH]; intros [|q m] E Hin; simpl in *; try easy.
      inversion E; subst. destruct Hin as [H|H]. inversion H; subst; auto. eapply IH; eauto. }
    rewrite <- EE. apply find_own; auto. apply in_combine_l in Hin. eapply firstn_incl; eauto.
  - intros H. rewrite HG by auto. apply firstn_all.
Qed.
