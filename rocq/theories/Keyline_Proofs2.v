(** Proofs about the keylines of containers and grids. *)
From Coq Require Import Bool List Arith ZArith Lia Sorted.
From Verif Require Import Fraction_Spec Canvas_Model Layout_Model Grid_Model Grid_Spec Grid_Proofs Grid_Props.
From Verif Require Import Keyline_Model Keyline_Spec Keyline_Proofs.
Import ListNotations.
Open Scope bool_scope.
Open Scope nat_scope.

(** ---- Sorting ---- *)

Lemma insert_in n l x : In x (insert n l) <-> x = n \/ In x l.
Proof.
  induction l as [|m l IH]; cbn; [intuition|].
  destruct (n <=? m); cbn; rewrite ?IH; intuition.
Qed.

Lemma sort_in l x : In x (sort l) <-> In x l.
Proof. induction l as [|n l IH]; cbn; [tauto|]. rewrite insert_in, IH. intuition. Qed.

Lemma insert_sorted n l : StronglySorted le l -> StronglySorted le (insert n l).
Proof.
  induction l as [|m l IH]; intros H; cbn.
  - constructor; constructor.
  - inversion H as [|? ? S F]; subst. destruct (n <=? m) eqn:E.
    + apply Nat.leb_le in E. constructor; [exact H|]. constructor; [exact E|].
      eapply Forall_impl; [|exact F]. cbn. lia.
    + apply Nat.leb_gt in E. constructor; [auto|].
      apply Forall_forall. intros x I. apply insert_in in I as [-> | I]; [lia|].
      rewrite Forall_forall in F. auto.
Qed.

Lemma sort_sorted l : StronglySorted le (sort l).
Proof. induction l; cbn; [constructor|now apply insert_sorted]. Qed.

Lemma dedup_in l x : In x (dedup l) <-> In x l.
Proof.
  induction l as [|n l IH]; [tauto|].
  destruct l as [|m l]; [cbn; tauto|].
  change (dedup (n :: m :: l)) with (if n =? m then dedup (m :: l) else n :: dedup (m :: l)).
  destruct (n =? m) eqn:E.
  - apply Nat.eqb_eq in E. subst. rewrite IH. cbn. intuition.
  - cbn [In]. cbn [In] in IH. rewrite IH. tauto.
Qed.

Lemma dedup_sorted l : StronglySorted le l -> StronglySorted lt (dedup l).
Proof.
  induction l as [|n l IH]; intros H; [constructor|].
  destruct l as [|m l]; [cbn; constructor; constructor|].
  change (dedup (n :: m :: l)) with (if n =? m then dedup (m :: l) else n :: dedup (m :: l)).
  inversion H as [|? ? S F]; subst.
  destruct (n =? m) eqn:E; [auto|]. apply Nat.eqb_neq in E.
  constructor; [auto|]. apply Forall_forall. intros x I. rewrite dedup_in in I.
  rewrite Forall_forall in F. pose proof (F m (or_introl eq_refl)).
  inversion S as [|? ? S' F']; subst. rewrite Forall_forall in F'.
  destruct I as [<- | I]; [lia|]. specialize (F' x I). lia.
Qed.

Lemma sorted_increasing l : StronglySorted lt l -> increasing l.
Proof.
  induction l as [|n l IH]; intros H i B; [cbn in B; lia|].
  inversion H as [|? ? St F]; subst.
  destruct i as [|i].
  - cbn in B. cbn [nth]. rewrite Forall_forall in F. apply F. apply nth_In. lia.
  - cbn in B. change (nth i l 0 < nth (S i) l 0). apply IH; [exact St|lia].
Qed.

Lemma contains_in l n : contains l n = true <-> In n l.
Proof.
  unfold contains. rewrite existsb_exists. split.
  - intros (x & I & E). apply Nat.eqb_eq in E. now subst.
  - intros I. exists n. split; [exact I|apply Nat.eqb_refl].
Qed.

Lemma gather_in size ends : forall ps x,
  In x (fold_left (fun ps e =>
    if (0 <=? e)%Z && (e <? Z.of_nat size)%Z && negb (contains ps (Z.to_nat e))
    then ps ++ [Z.to_nat e] else ps) ends ps)
  <-> In x ps \/ (x < size /\ In (Z.of_nat x) ends).
Proof.
  induction ends as [|e ends IH]; intros ps x; cbn [fold_left].
  - cbn. tauto.
  - rewrite IH. cbn [In].
    destruct (0 <=? e)%Z eqn:E1; cbn [andb].
    + apply Z.leb_le in E1. destruct (e <? Z.of_nat size)%Z eqn:E2; cbn [andb].
      * apply Z.ltb_lt in E2. destruct (contains ps (Z.to_nat e)) eqn:E3; cbn [negb].
        -- apply contains_in in E3. split; [intuition|].
           intros [I | (B & [-> | I])]; auto.
           left. now rewrite Nat2Z.id in E3.
        -- rewrite in_app_iff. cbn [In]. split.
           ++ intros [[I | [<- | []]] | (B & I)]; auto.
              right. split; [lia|]. left. lia.
           ++ intros [I | (B & [-> | I])]; auto.
              left. right. left. apply Nat2Z.id.
      * apply Z.ltb_ge in E2. split; [intuition|].
        intros [I | (B & [-> | I])]; auto. lia.
    + apply Z.leb_gt in E1. split; [intuition|].
      intros [I | (B & [-> | I])]; auto. lia.
Qed.

Lemma dividers_in size ends x : In x (divider_positions size ends) <->
  x = 0 \/ x = size - 1 \/ (x < size /\ In (Z.of_nat x) ends).
Proof.
  unfold divider_positions. rewrite dedup_in, sort_in.
  match goal with |- context [contains ?l _] => set (ps := l) end.
  assert (P : forall x, In x ps <-> x = 0 \/ (x < size /\ In (Z.of_nat x) ends)).
  { intros n. unfold ps. rewrite gather_in. cbn. intuition. }
  destruct (contains ps (size - 1)) eqn:E.
  - apply contains_in in E. rewrite P. split; [intuition|].
    intros [-> | [-> | Q]]; auto. now apply P.
  - rewrite in_app_iff, P. cbn. intuition.
Qed.

Lemma dividers_increasing size ends : increasing (divider_positions size ends).
Proof. apply sorted_increasing, dedup_sorted, sort_sorted. Qed.

Lemma dividers_length size ends : 2 <= size -> 2 <= length (divider_positions size ends).
Proof.
  intros H.
  assert (A : In 0 (divider_positions size ends)) by (apply dividers_in; auto).
  assert (B : In (size - 1) (divider_positions size ends)) by (apply dividers_in; auto).
  destruct (divider_positions size ends) as [|a [|b l]]; cbn in *; try contradiction; try lia.
Qed.

(** ---- Pictures ---- *)

Definition same_picture (p q : picture) : Prop :=
  (forall x y, across p x y <-> across q x y) /\ (forall x y, downwards p x y <-> downwards q x y).

Lemma same_leaves p q x y s : same_picture p q -> leaves p x y s <-> leaves q x y s.
Proof.
  intros (A & D). destruct s; cbn.
  - split; intros (y' & E & H); exists y'; (split; [exact E|]); now apply D.
  - apply A.
  - apply D.
  - split; intros (x' & E & H); exists x'; (split; [exact E|]); now apply A.
Qed.

Lemma depicts_same p q lt rx ry w h out : same_picture p q ->
  depicts p lt rx ry w h out -> depicts q lt rx ry w h out.
Proof.
  intros S (D1 & D2). split.
  - intros X Y ch I. destruct (D1 X Y ch I) as (x & y & s & A & B & C & D & E).
    exists x, y, s. repeat split; auto. now apply (same_leaves p q).
  - intros x y s Hx Hy Q.
    destruct (D2 x y s Hx Hy ltac:(now apply (same_leaves p q))) as (ch & n & A & B & C & D).
    exists ch, n. split; [exact A|]. split; [exact B|]. split; [exact C|].
    intros s'. rewrite <- (same_leaves p q x y s' S). apply D.
Qed.

(** A full lattice, by positions instead of indices. *)
Lemma full_by_position cols rows : increasing cols -> increasing rows ->
  2 <= length cols -> 2 <= length rows ->
  same_picture (full_lattice cols rows)
    (Picture (fun x y => nth 0 cols 0 <= x < nth (length cols - 1) cols 0 /\ In y rows)
             (fun x y => nth 0 rows 0 <= y < nth (length rows - 1) rows 0 /\ In x cols)).
Proof.
  intros IC IR LC LR. split; intros x y; cbn; split.
  - intros (i & j & I & J & -> & R & _).
    pose proof (first_le cols j IC ltac:(lia)). pose proof (last_ge cols (S j) IC ltac:(lia)).
    split; [lia|]. now apply nth_In.
  - intros (R & I). apply (In_nth _ _ 0) in I as (i & I & <-).
    destruct (locate cols x (proj1 R) (length cols - 1) ltac:(lia) (proj2 R)) as (j & J & R').
    exists i, j. repeat split; auto; lia.
  - intros (i & j & I & J & -> & R & _).
    pose proof (first_le rows i IR ltac:(lia)). pose proof (last_ge rows (S i) IR ltac:(lia)).
    split; [lia|]. now apply nth_In.
  - intros (R & J). apply (In_nth _ _ 0) in J as (j & J & <-).
    destruct (locate rows y (proj1 R) (length rows - 1) ltac:(lia) (proj2 R)) as (i & I & R').
    exists i, j. repeat split; auto; lia.
Qed.

Lemma increasing_ends l a b : increasing l -> In a l -> In b l -> (forall x, In x l -> a <= x <= b) ->
  nth 0 l 0 = a /\ nth (length l - 1) l 0 = b.
Proof.
  intros H A B R.
  assert (L : 0 < length l) by (destruct l; cbn in *; [contradiction|lia]).
  apply (In_nth _ _ 0) in A as (i & I & Ei). apply (In_nth _ _ 0) in B as (j & J & Ej).
  pose proof (first_le l i H I). pose proof (last_ge l j H J).
  pose proof (R (nth 0 l 0) ltac:(apply nth_In; lia)).
  pose proof (R (nth (length l - 1) l 0) ltac:(apply nth_In; lia)). lia.
Qed.

Lemma dividers_ends size ends : 2 <= size ->
  nth 0 (divider_positions size ends) 0 = 0
  /\ nth (length (divider_positions size ends) - 1) (divider_positions size ends) 0 = size - 1.
Proof.
  intros S. apply increasing_ends.
  - apply dividers_increasing.
  - apply dividers_in; auto.
  - apply dividers_in; auto.
  - intros x I. apply dividers_in in I. lia.
Qed.

Lemma pair_increasing a b : a < b -> increasing [a; b].
Proof. intros H [|i] B; cbn in *; [exact H|lia]. Qed.

Lemma framed_row_same w h ends : 2 <= w -> 2 <= h ->
  same_picture (full_lattice (divider_positions w ends) [0; h - 1]) (framed_row w h ends).
Proof.
  intros W H.
  pose proof (full_by_position (divider_positions w ends) [0; h - 1] (dividers_increasing w ends)
    (pair_increasing 0 (h - 1) ltac:(lia)) (dividers_length w ends W) ltac:(cbn; lia)) as (A & D).
  destruct (dividers_ends w ends W) as (E1 & E2).
  split; intros x y.
  - rewrite A. cbn [across framed_row]. rewrite E1, E2. cbn [In]. lia.
  - rewrite D. cbn [downwards framed_row]. rewrite dividers_in. cbn [nth length Nat.sub].
    split.
    + intros (R & [Q | [Q | (Q1 & Q2)]]); (split; [lia|]); (split; [lia|]); auto.
      right. left. lia.
    + intros (R & B & [Q | [Q | Q]]); (split; [lia|]); auto.
      right. left. lia.
Qed.

Lemma framed_column_same w h ends : 2 <= w -> 2 <= h ->
  same_picture (full_lattice [0; w - 1] (divider_positions h ends)) (framed_column w h ends).
Proof.
  intros W H.
  pose proof (full_by_position [0; w - 1] (divider_positions h ends)
    (pair_increasing 0 (w - 1) ltac:(lia)) (dividers_increasing h ends)
    ltac:(cbn; lia) (dividers_length h ends H)) as (A & D).
  destruct (dividers_ends h ends H) as (E1 & E2).
  split; intros x y.
  - rewrite A. cbn [across framed_column]. rewrite dividers_in. cbn [nth length Nat.sub].
    split.
    + intros (R & [Q | [Q | (Q1 & Q2)]]); (split; [lia|]); (split; [lia|]); auto.
      right. left. lia.
    + intros (R & B & [Q | [Q | Q]]); (split; [lia|]); auto.
      right. left. lia.
  - rewrite D. cbn [downwards framed_column]. rewrite E1, E2. cbn [In]. lia.
Qed.

(** ---- Tracks of a Grid ---- *)

Lemma columns_sizes g children a : exists sizes, Forall (fun z => (1 <= z)%Z) sizes
  /\ grid_columns g children a = tracks_from 0 (gutter_h g a) sizes.
Proof.
  unfold grid_columns. destruct (grid_dims g (length children) a) as [rows cols].
  assert (R : forall specs n av gut, exists sizes, Forall (fun z => (1 <= z)%Z) sizes
     /\ resolve_tracks specs n av gut = tracks_from 0 gut sizes).
  { intros. eexists. split; [apply distribute_pos|reflexivity]. }
  destruct (nil_b (g_col_specs g) && g_auto_w g); [|apply R].
  unfold resolve_tracks_with_content.
  destruct (g_col_specs g); [|apply R].
  destruct (content_sizes _ _ _ _ _ _); [apply R|].
  eexists. split; [|reflexivity]. apply Forall_forall. intros v I.
  apply in_map_iff in I as (u & <- & _). lia.
Qed.

Lemma rows_sizes g children a : exists sizes, Forall (fun z => (1 <= z)%Z) sizes
  /\ grid_rows g children a = tracks_from 0 (gutter_v g a) sizes.
Proof.
  unfold grid_rows. destruct (grid_dims g (length children) a) as [rows cols].
  assert (R : forall specs n av gut, exists sizes, Forall (fun z => (1 <= z)%Z) sizes
     /\ resolve_tracks specs n av gut = tracks_from 0 gut sizes).
  { intros. eexists. split; [apply distribute_pos|reflexivity]. }
  destruct (nil_b (g_row_specs g) && g_auto_h g); [|apply R].
  unfold resolve_tracks_with_content.
  destruct (g_row_specs g); [|apply R].
  destruct (content_sizes _ _ _ _ _ _); [apply R|].
  eexists. split; [|reflexivity]. apply Forall_forall. intros v I.
  apply in_map_iff in I as (u & <- & _). lia.
Qed.

Lemma track_positions_length ts size : ts <> [] -> length (track_positions ts size) = S (length ts).
Proof.
  intros N. unfold track_positions. rewrite app_length, map_length.
  destruct (rev ts) as [|t r] eqn:E.
  - exfalso. apply N. rewrite <- (rev_involutive ts), E. reflexivity.
  - cbn. lia.
Qed.

Lemma nth_map_seq (f : nat -> nat) m n : n < m -> nth n (map f (seq 0 m)) 0 = f n.
Proof.
  intros B. rewrite (nth_indep _ 0 (f 0)) by (rewrite map_length, seq_length; lia).
  rewrite (map_nth f), seq_nth by lia. reflexivity.
Qed.

Lemma lines_are gut sizes w p : sizes <> [] ->
  grid_line_positions w (track_positions (tracks_from 0 gut sizes) p)
  = track_lines (tracks_from 0 gut sizes) w.
Proof.
  intros N. set (ts := tracks_from 0 gut sizes).
  assert (NT : ts <> []) by (unfold ts; destruct sizes; [contradiction|discriminate]).
  pose proof (track_positions_length ts p NT) as L.
  unfold grid_line_positions, track_lines. rewrite L.
  apply nth_ext with (d := 0) (d' := 0).
  { rewrite map_length, seq_length, app_length, map_length. cbn. lia. }
  rewrite map_length, seq_length. intros n B.
  rewrite nth_map_seq by lia.
  cbv beta. replace (S (length ts) - 1) with (length ts) by lia.
  destruct (n =? 0) eqn:E0.
  - apply Nat.eqb_eq in E0. subst n. unfold ts. destruct sizes; [contradiction|]. reflexivity.
  - destruct (n =? length ts) eqn:E1.
    + apply Nat.eqb_eq in E1. subst n. rewrite app_nth2; rewrite map_length; [|lia].
      now rewrite Nat.sub_diag.
    + apply Nat.eqb_neq in E0, E1. rewrite app_nth1 by (rewrite map_length; lia).
      unfold track_positions. rewrite app_nth1 by (rewrite map_length; lia).
      rewrite (nth_indep _ 0%Z (t_offset (Track 0 0))) by (rewrite map_length; lia).
      rewrite (nth_indep (map (fun t => Z.to_nat (t_offset t)) ts) 0
                 (Z.to_nat (t_offset (Track 0 0)))) by (rewrite map_length; lia).
      rewrite !map_nth. rewrite (map_nth (fun t => Z.to_nat (t_offset t))). reflexivity.
Qed.

Lemma track_at gut sizes i : i < length sizes ->
  exists z, nth_error sizes i = Some z
    /\ nth_error (tracks_from 0 gut sizes) i = Some (Track (start_of sizes gut i) z).
Proof.
  intros B. destruct (nth_error sizes i) as [z|] eqn:E.
  - exists z. split; [reflexivity|]. rewrite (tracks_from_nth _ 0 gut _ _ E). reflexivity.
  - apply nth_error_None in E. lia.
Qed.

Lemma lines_nth gut sizes w i : i < length sizes ->
  nth i (track_lines (tracks_from 0 gut sizes) w) 0 = Z.to_nat (start_of sizes gut i).
Proof.
  intros B. unfold track_lines. rewrite app_nth1 by (rewrite map_length, tracks_from_length; lia).
  destruct (track_at gut sizes i B) as (z & _ & E).
  rewrite (nth_indep _ 0 (Z.to_nat (t_offset (Track 0 0))))
    by (rewrite map_length, tracks_from_length; lia).
  rewrite (map_nth (fun t => Z.to_nat (t_offset t))).
  now rewrite (nth_error_nth _ _ _ E).
Qed.

Lemma lines_last gut sizes w :
  nth (length sizes) (track_lines (tracks_from 0 gut sizes) w) 0 = w - 1.
Proof.
  unfold track_lines. rewrite app_nth2; rewrite map_length, tracks_from_length; [|lia].
  now rewrite Nat.sub_diag.
Qed.

Lemma lines_length gut sizes w : length (track_lines (tracks_from 0 gut sizes) w) = S (length sizes).
Proof. unfold track_lines. rewrite app_length, map_length, tracks_from_length. cbn. lia. Qed.

Lemma start_step gut sizes i z : nth_error sizes i = Some z ->
  start_of sizes gut (S i) = (start_of sizes gut i + z + gut)%Z.
Proof.
  intros E. replace (S i) with (i + 1) by lia. rewrite start_extent. unfold extent_of.
  assert (G : zsum (firstn 1 (skipn i sizes)) = z).
  { clear gut. revert i E. induction sizes as [|a l IH]; intros [|i] E; try discriminate.
    - cbn in *. injection E as ->. lia.
    - cbn in E. cbn [skipn]. apply IH. exact E. }
  rewrite G. lia.
Qed.

Lemma starts_nonneg gut sizes i : (0 <= gut)%Z -> Forall (fun z => (1 <= z)%Z) sizes ->
  (0 <= start_of sizes gut i)%Z.
Proof.
  intros G F. pose proof (start_mono sizes gut 0 i G) as M.
  change (start_of sizes gut 0) with 0%Z in M. apply M; [|lia].
  eapply Forall_impl; [|exact F]. cbn. lia.
Qed.

Lemma fits_at gut sizes w i z : fits (tracks_from 0 gut sizes) w -> nth_error sizes i = Some z ->
  (start_of sizes gut i + z <= Z.of_nat w - 2)%Z.
Proof.
  intros F E. unfold fits in F. rewrite Forall_forall in F.
  specialize (F (Track (start_of sizes gut i) z)). cbn in F. apply F.
  apply (nth_error_In _ i). rewrite (tracks_from_nth _ 0 gut _ _ E). reflexivity.
Qed.

Lemma lines_increasing gut sizes w : (0 <= gut)%Z -> Forall (fun z => (1 <= z)%Z) sizes ->
  fits (tracks_from 0 gut sizes) w -> increasing (track_lines (tracks_from 0 gut sizes) w).
Proof.
  intros G F T i B. rewrite lines_length in B.
  destruct (track_at gut sizes i ltac:(lia)) as (z & E & _).
  pose proof (starts_nonneg gut sizes i G F) as N.
  pose proof (start_step gut sizes i z E) as St.
  assert (1 <= z)%Z by (rewrite Forall_forall in F; apply F; now apply nth_error_In in E).
  rewrite lines_nth by lia.
  destruct (Nat.eq_dec (S i) (length sizes)) as [Q | Q].
  - rewrite Q, lines_last. pose proof (fits_at gut sizes w i z T E). lia.
  - rewrite lines_nth by lia. rewrite St. lia.
Qed.

Lemma table_holder children rows cols r c :
  holder (occupancy_table children rows cols) r c
  = if (r <? rows) && (c <? cols)
    then cell_owner children (compute_cell_assignments (spans_of children) rows cols) r c else None.
Proof.
  unfold holder, occupancy_table.
  destruct (r <? rows) eqn:E; cbn [andb].
  - apply Nat.ltb_lt in E.
    set (f := fun r => map (fun c => cell_owner children
       (compute_cell_assignments (spans_of children) rows cols) r c) (seq 0 cols)).
    rewrite (nth_indep _ [] (f 0)) by (rewrite map_length, seq_length; lia).
    rewrite map_nth, seq_nth by lia. cbn [Nat.add]. unfold f.
    destruct (c <? cols) eqn:E'.
    + apply Nat.ltb_lt in E'.
      set (h := fun c => cell_owner children
       (compute_cell_assignments (spans_of children) rows cols) r c).
      rewrite (nth_indep _ None (h 0)) by (rewrite map_length, seq_length; lia).
      rewrite map_nth, seq_nth by lia. reflexivity.
    + apply Nat.ltb_ge in E'. apply nth_overflow. rewrite map_length, seq_length. lia.
  - apply Nat.ltb_ge in E. rewrite (nth_overflow (map _ _)).
    + destruct c; reflexivity.
    + rewrite map_length, seq_length. lia.
Qed.

Lemma columns_length g children a nr nc : grid_dims g (length children) a = (nr, nc) ->
  length (grid_columns g children a) = nc.
Proof.
  intros E. unfold grid_columns. rewrite E.
  assert (R : forall specs n av gut, length (resolve_tracks specs n av gut) = n).
  { intros. unfold resolve_tracks. rewrite tracks_from_length. apply distribute_length. }
  destruct (_ && _); [|apply R].
  unfold resolve_tracks_with_content.
  destruct (g_col_specs g); [|apply R].
  match goal with |- context [match ?c with [] => _ | _ :: _ => _ end] => set (cs := c) end.
  assert (L : length cs = nc) by (unfold cs, content_sizes; now rewrite map_length, seq_length).
  destruct cs as [|z cs']; [apply R|].
  rewrite tracks_from_length, map_length. destruct (_ <=? _)%Z; [|rewrite map_length]; exact L.
Qed.

Lemma rows_length g children a nr nc : grid_dims g (length children) a = (nr, nc) ->
  length (grid_rows g children a) = nr.
Proof.
  intros E. unfold grid_rows. rewrite E.
  assert (R : forall specs n av gut, length (resolve_tracks specs n av gut) = n).
  { intros. unfold resolve_tracks. rewrite tracks_from_length. apply distribute_length. }
  destruct (_ && _); [|apply R].
  unfold resolve_tracks_with_content.
  destruct (g_row_specs g); [|apply R].
  match goal with |- context [match ?c with [] => _ | _ :: _ => _ end] => set (cs := c) end.
  assert (L : length cs = nr) by (unfold cs, content_sizes; now rewrite map_length, seq_length).
  destruct cs as [|z cs']; [apply R|].
  rewrite tracks_from_length, map_length. destruct (_ <=? _)%Z; [|rewrite map_length]; exact L.
Qed.

Section Inside.
Context (gut : Z) (sizes : list Z) (w c0 n : nat).
Context (G : (1 <= gut)%Z) (F : Forall (fun z => (1 <= z)%Z) sizes)
        (T : fits (tracks_from 0 gut sizes) w) (N : 1 <= n) (B : c0 + n <= length sizes).

Lemma mono_start i j : i <= j -> (start_of sizes gut i <= start_of sizes gut j)%Z.
Proof.
  intros H. apply start_mono; [lia| |exact H]. eapply Forall_impl; [|exact F]. cbn. lia.
Qed.

Context (x : nat)
  (X : (start_of sizes gut c0 + 1 <= Z.of_nat x < start_of sizes gut c0 + 1 + extent_of sizes gut c0 n)%Z).

Lemma inside_end : (Z.of_nat x + gut <= start_of sizes gut (c0 + n))%Z
  /\ (Z.of_nat x <= Z.of_nat w - 2)%Z.
Proof.
  pose proof (start_extent sizes gut c0 n) as E.
  destruct (track_at gut sizes (c0 + n - 1) ltac:(lia)) as (z & Ez & _).
  pose proof (start_step gut sizes (c0 + n - 1) z Ez) as St.
  replace (S (c0 + n - 1)) with (c0 + n) in St by lia.
  pose proof (fits_at gut sizes w (c0 + n - 1) z T Ez). lia.
Qed.

Lemma inside_line i : i <= length sizes -> x = nth i (track_lines (tracks_from 0 gut sizes) w) 0 ->
  0 < i < length sizes /\ c0 < i < c0 + n.
Proof.
  intros I E. destruct inside_end as (E1 & E2).
  pose proof (starts_nonneg gut sizes c0 ltac:(lia) F).
  destruct (Nat.eq_dec i (length sizes)) as [-> | Ni].
  - rewrite lines_last in E. lia.
  - rewrite lines_nth in E by lia.
    pose proof (starts_nonneg gut sizes i ltac:(lia) F).
    assert (c0 < i).
    { destruct (le_lt_dec i c0) as [L | L]; [|exact L]. pose proof (mono_start i c0 L). lia. }
    assert (i < c0 + n).
    { destruct (le_lt_dec (c0 + n) i) as [L | L]; [|exact L]. pose proof (mono_start (c0 + n) i L). lia. }
    lia.
Qed.

Lemma inside_gap j : S j <= length sizes ->
  nth j (track_lines (tracks_from 0 gut sizes) w) 0 <= x ->
  x <= nth (S j) (track_lines (tracks_from 0 gut sizes) w) 0 -> c0 <= j < c0 + n.
Proof.
  intros J L1 L2. destruct inside_end as (E1 & E2).
  rewrite lines_nth in L1 by lia.
  pose proof (starts_nonneg gut sizes j ltac:(lia) F).
  split.
  - destruct (le_lt_dec c0 j) as [L | L]; [exact L|].
    rewrite lines_nth in L2 by lia.
    pose proof (mono_start (S j) c0 L). pose proof (starts_nonneg gut sizes (S j) ltac:(lia) F). lia.
  - destruct (le_lt_dec (c0 + n) j) as [L | L]; [|exact L].
    pose proof (mono_start (c0 + n) j L). lia.
Qed.
End Inside.
