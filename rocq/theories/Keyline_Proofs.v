(** Proofs about keylines. *)
From Coq Require Import Bool List Arith ZArith Lia Permutation.
From Verif Require Import Keyline_Model Keyline_Spec.
Import ListNotations.
Open Scope bool_scope.
Open Scope nat_scope.

(** ---- One cell of the canvas ---- *)

Definition cell (k : keylines) (x y : nat) : quad := nth (y * k_width k + x) (k_quads k) no_lines.

Definition well (k : keylines) : Prop := length (k_quads k) = k_width k * k_height k.

Lemma quad_eq a b : (forall s, arm s a = arm s b) -> a = b.
Proof.
  destruct a, b. intros H.
  pose proof (H Above). pose proof (H Rightwards). pose proof (H Below). pose proof (H Leftwards).
  cbn in *. congruence.
Qed.

Lemma quad_eqb_eq a b : quad_eqb a b = true <-> a = b.
Proof.
  destruct a, b. unfold quad_eqb. cbn.
  rewrite !andb_true_iff, !Nat.eqb_eq. split.
  - intros [[[-> ->] ->] ->]. reflexivity.
  - intros H. injection H. auto.
Qed.

Lemma arm_combine s a b : arm s (combine_quads a b) = Nat.max (arm s a) (arm s b).
Proof. destruct s; reflexivity. Qed.

Lemma update_length l i f : length (update l i f) = length l.
Proof. revert i. induction l as [|q l IH]; intros [|i]; cbn; auto. Qed.

Lemma nth_update l i f j : i < length l ->
  nth j (update l i f) no_lines = if i =? j then f (nth j l no_lines) else nth j l no_lines.
Proof.
  revert i j. induction l as [|q l IH]; intros i j H; cbn in H; [lia|].
  destruct i as [|i], j as [|j]; cbn; try reflexivity.
  apply IH. lia.
Qed.

Lemma set_shape k x y q : k_width (set k x y q) = k_width k /\ k_height (set k x y q) = k_height k
  /\ k_line (set k x y q) = k_line k.
Proof. unfold set. destruct (_ && _); auto. Qed.

Lemma set_well k x y q : well k -> well (set k x y q).
Proof.
  unfold set, well. destruct (_ && _); cbn; auto. now rewrite update_length.
Qed.

Lemma cell_set k a b q x y : well k -> x < k_width k -> y < k_height k ->
  cell (set k a b q) x y
  = if (a =? x) && (b =? y) then combine_quads (cell k x y) q else cell k x y.
Proof.
  intros Wk Hx Hy. unfold cell, set.
  destruct (a <? k_width k) eqn:Ea; cbn [andb].
  2: { apply Nat.ltb_ge in Ea. replace (a =? x) with false; [reflexivity|].
       symmetry. apply Nat.eqb_neq. lia. }
  destruct (b <? k_height k) eqn:Eb; cbn [k_width k_quads].
  2: { apply Nat.ltb_ge in Eb. replace (b =? y) with false; [now rewrite andb_false_r|].
       symmetry. apply Nat.eqb_neq. lia. }
  apply Nat.ltb_lt in Ea, Eb.
  rewrite nth_update.
  2: { rewrite Wk. nia. }
  destruct (a =? x) eqn:E1; cbn [andb].
  - apply Nat.eqb_eq in E1. subst a.
    destruct (b =? y) eqn:E2.
    + apply Nat.eqb_eq in E2. subst b. now rewrite Nat.eqb_refl.
    + apply Nat.eqb_neq in E2. replace (_ =? _) with false; [reflexivity|].
      symmetry. apply Nat.eqb_neq. nia.
  - apply Nat.eqb_neq in E1. replace (_ =? _) with false; [reflexivity|].
    symmetry. apply Nat.eqb_neq. intros E.
    assert (b = y) by (apply (f_equal (fun n => n / k_width k)) in E;
      rewrite !Nat.div_add_l in E by lia; rewrite !Nat.div_small in E by lia; lia).
    subst b. lia.
Qed.

Lemma run_shape cs : forall k, k_width (run k cs) = k_width k /\ k_height (run k cs) = k_height k
  /\ k_line (run k cs) = k_line k.
Proof.
  induction cs as [|c cs IH]; intros k; [auto|].
  change (run k (c :: cs)) with (run (set k (fst (fst c)) (snd (fst c)) (snd c)) cs).
  destruct (IH (set k (fst (fst c)) (snd (fst c)) (snd c))) as (A & B & C).
  rewrite A, B, C. apply set_shape.
Qed.

Lemma run_well cs : forall k, well k -> well (run k cs).
Proof.
  induction cs as [|c cs IH]; intros k H; [auto|].
  apply (IH (set k (fst (fst c)) (snd (fst c)) (snd c))). now apply set_well.
Qed.

Lemma run_app k a b : run k (a ++ b) = run (run k a) b.
Proof. unfold run. now rewrite fold_left_app. Qed.

Lemma new_well w h lt : well (new w h lt).
Proof. unfold well, new. cbn. apply repeat_length. Qed.

Lemma cell_new w h lt x y : cell (new w h lt) x y = no_lines.
Proof. unfold cell, new. cbn. apply nth_repeat. Qed.

(** The calls about a cell. *)
Definition lit (cs : list call) (x y : nat) (s : side) : Prop :=
  exists q, In (x, y, q) cs /\ arm s q <> 0.

(** All calls use one thickness. *)
Definition uniform (lt : nat) (cs : list call) : Prop :=
  forall x y q s, In (x, y, q) cs -> arm s q = 0 \/ arm s q = lt.

Lemma cell_run_le cs : forall k x y q s, well k -> x < k_width k -> y < k_height k ->
  In (x, y, q) cs -> arm s q <= arm s (cell (run k cs) x y).
Proof.
  enough (G : forall cs k x y s, well k -> x < k_width k -> y < k_height k ->
            arm s (cell k x y) <= arm s (cell (run k cs) x y)
            /\ forall q, In (x, y, q) cs -> arm s q <= arm s (cell (run k cs) x y)).
  { intros k x y q s W X Y. exact (proj2 (G cs k x y s W X Y) q). }
  clear cs. induction cs as [|[[a b] q0] cs IH]; intros k x y s W X Y.
  - split; [cbn; lia|intros q []].
  - change (run k ((a, b, q0) :: cs)) with (run (set k a b q0) cs).
    destruct (set_shape k a b q0) as (SX & SY & _).
    assert (W' : well (set k a b q0)) by now apply set_well.
    destruct (IH (set k a b q0) x y s W' ltac:(rewrite SX; exact X) ltac:(rewrite SY; exact Y))
      as (L1 & L2).
    pose proof (cell_set k a b q0 x y W X Y) as C.
    split.
    + rewrite C in L1. destruct (_ && _); [rewrite arm_combine in L1|]; lia.
    + intros q [E | I]; [|auto]. injection E as -> -> ->.
      rewrite C, !Nat.eqb_refl in L1. cbn [andb] in L1. rewrite arm_combine in L1. lia.
Qed.

Lemma cell_run_ge cs : forall k x y s, well k -> x < k_width k -> y < k_height k ->
  arm s (cell (run k cs) x y) = arm s (cell k x y)
  \/ exists q, In (x, y, q) cs /\ arm s (cell (run k cs) x y) = arm s q.
Proof.
  induction cs as [|[[a b] q0] cs IH]; intros k x y s W X Y.
  - now left.
  - change (run k ((a, b, q0) :: cs)) with (run (set k a b q0) cs).
    destruct (set_shape k a b q0) as (SX & SY & _).
    assert (W' : well (set k a b q0)) by now apply set_well.
    destruct (IH (set k a b q0) x y s W' ltac:(rewrite SX; exact X) ltac:(rewrite SY; exact Y))
      as [E | (q & I & E)].
    + rewrite E, (cell_set k a b q0 x y W X Y).
      destruct ((a =? x) && (b =? y)) eqn:B; [|now left].
      apply andb_true_iff in B as [B1 B2]. apply Nat.eqb_eq in B1, B2. subst a b.
      rewrite arm_combine.
      destruct (Nat.max_spec (arm s (cell k x y)) (arm s q0)) as [[_ ->] | [_ ->]].
      * right. exists q0. split; [now left|reflexivity].
      * now left.
    + right. exists q. split; [now right|exact E].
Qed.

(** On a fresh canvas and with one thickness, a side shows a line exactly when
    some call put one there. *)
Lemma cell_lit w h lt cs x y s : uniform lt cs -> x < w -> y < h ->
  (lit cs x y s -> arm s (cell (run (new w h lt) cs) x y) = lt)
  /\ (~ lit cs x y s -> arm s (cell (run (new w h lt) cs) x y) = 0).
Proof.
  intros U X Y.
  pose proof (cell_run_ge cs (new w h lt) x y s (new_well w h lt) X Y) as G.
  rewrite cell_new in G.
  assert (Z0 : arm s no_lines = 0) by now destruct s.
  rewrite Z0 in G. split.
  - intros (q & I & N).
    pose proof (cell_run_le cs (new w h lt) x y q s (new_well w h lt) X Y I) as L.
    destruct (U _ _ _ s I) as [E | E]; [contradiction|].
    destruct G as [G | (q' & I' & G)].
    + lia.
    + destruct (U _ _ _ s I') as [E' | E']; lia.
  - intros N. destruct G as [G | (q' & I' & G)]; [exact G|].
    rewrite G. destruct (Nat.eq_dec (arm s q') 0) as [E | E]; [exact E|].
    exfalso. apply N. now exists q'.
Qed.

(** ---- Order ---- *)

Lemma canvas_ext k1 k2 : well k1 -> well k2 -> k_width k1 = k_width k2 ->
  k_height k1 = k_height k2 -> k_line k1 = k_line k2 ->
  (forall x y, x < k_width k1 -> y < k_height k1 -> cell k1 x y = cell k2 x y) -> k1 = k2.
Proof.
  destruct k1 as [w1 h1 q1 l1], k2 as [w2 h2 q2 l2]. unfold well, cell. cbn.
  intros L1 L2 <- <- <- H. f_equal.
  apply nth_ext with (d := no_lines) (d' := no_lines); [congruence|].
  intros n Hn. rewrite L1 in Hn.
  assert (w1 <> 0) by nia.
  specialize (H (n mod w1) (n / w1)).
  rewrite (Nat.div_mod n w1) at 1 2 by assumption.
  rewrite (Nat.mul_comm w1).
  apply H.
  - now apply Nat.mod_upper_bound.
  - apply Nat.div_lt_upper_bound; lia.
Qed.

Lemma run_perm k a b : well k -> Permutation a b -> run k a = run k b.
Proof.
  intros W P. apply canvas_ext.
  - now apply run_well.
  - now apply run_well.
  - now rewrite (proj1 (run_shape a k)), (proj1 (run_shape b k)).
  - now rewrite (proj1 (proj2 (run_shape a k))), (proj1 (proj2 (run_shape b k))).
  - now rewrite (proj2 (proj2 (run_shape a k))), (proj2 (proj2 (run_shape b k))).
  - intros x y X Y.
    rewrite (proj1 (run_shape a k)) in X. rewrite (proj1 (proj2 (run_shape a k))) in Y.
    apply quad_eq. intros s.
    enough (G : forall a b, (forall q, In (x, y, q) a -> In (x, y, q) b) ->
              arm s (cell (run k a) x y) <= arm s (cell (run k b) x y)).
    { apply Nat.le_antisymm; apply G; intros q.
      - now apply Permutation_in.
      - apply Permutation_in. now apply Permutation_sym. }
    clear a b P. intros a b I.
    destruct (cell_run_ge a k x y s W X Y) as [E | (q & Iq & E)]; rewrite E.
    + destruct (cell_run_ge b k x y s W X Y) as [E' | (q' & Iq' & E')].
      * lia.
      * pose proof (cell_run_le b k x y q' s W X Y Iq') as L.
        clear E E'. revert W X Y. clear. revert k.
        induction b as [|[[c d] q0] b IH]; intros k W X Y; [cbn; lia|].
        change (run k ((c, d, q0) :: b)) with (run (set k c d q0) b).
        destruct (set_shape k c d q0) as (SX & SY & _).
        etransitivity; [|apply IH; [now apply set_well|now rewrite SX|now rewrite SY]].
        rewrite (cell_set k c d q0 x y W X Y). destruct (_ && _); [rewrite arm_combine|]; lia.
    + apply cell_run_le; auto.
Qed.

Lemma cell_outside cs k x y : well k -> x < k_width k -> y < k_height k ->
  (forall q, ~ In (x, y, q) cs) -> cell (run k cs) x y = cell k x y.
Proof.
  intros W X Y N. apply quad_eq. intros s.
  destruct (cell_run_ge cs k x y s W X Y) as [E | (q & I & _)]; [exact E|].
  exfalso. exact (N q I).
Qed.

(** ---- From calls to characters ---- *)

Definition any_side (f : side -> bool) : bool := f Above || f Rightwards || f Below || f Leftwards.

(** Every quad of one thickness with at least two lines has its character. *)
Lemma glyph_ok lt q s1 s2 : 1 <= lt <= 3 ->
  (forall s, arm s q = 0 \/ arm s q = lt) -> s1 <> s2 -> arm s1 q <> 0 -> arm s2 q <> 0 ->
  exists ch, get_box_char q = Some ch /\ In (ch, q) unicode_box_drawings.
Proof.
  intros L U D A1 A2.
  destruct q as [t r b l].
  pose proof (U Above) as Ut. pose proof (U Rightwards) as Ur.
  pose proof (U Below) as Ub. pose proof (U Leftwards) as Ul. cbn in Ut, Ur, Ub, Ul.
  assert (H : lt = 1 \/ lt = 2 \/ lt = 3) by lia.
  destruct H as [-> | [-> | ->]];
  destruct Ut as [-> | ->], Ur as [-> | ->], Ub as [-> | ->], Ul as [-> | ->];
  try (exfalso; destruct s1, s2; cbn in A1, A2; first [contradiction D; reflexivity | lia]);
  (eexists; split; [vm_compute; reflexivity|]);
  unfold unicode_box_drawings; cbn [In];
  repeat (first [left; reflexivity | right]).
Qed.

Lemma in_render k rx ry X Y ch : In (X, Y, ch) (render k rx ry) <->
  exists x y, x < k_width k /\ y < k_height k
    /\ X = (rx + Z.of_nat x)%Z /\ Y = (ry + Z.of_nat y)%Z
    /\ cell k x y <> no_lines /\ get_box_char (cell k x y) = Some ch.
Proof.
  unfold render. rewrite in_flat_map. split.
  - intros (y & Iy & H). apply in_flat_map in H as (x & Ix & H).
    apply in_seq in Iy, Ix. unfold get in H.
    replace (x <? k_width k) with true in H by (symmetry; apply Nat.ltb_lt; lia).
    replace (y <? k_height k) with true in H by (symmetry; apply Nat.ltb_lt; lia).
    cbn [andb] in H. fold (cell k x y) in H.
    destruct (quad_eqb (cell k x y) no_lines) eqn:E; [destruct H|].
    destruct (get_box_char (cell k x y)) as [c|] eqn:G; [|destruct H].
    destruct H as [H | []]. injection H as <- <- <-.
    exists x, y. repeat split; try lia; auto.
    intros C. apply quad_eqb_eq in C. congruence.
  - intros (x & y & Hx & Hy & -> & -> & N & G).
    exists y. split; [apply in_seq; lia|].
    apply in_flat_map. exists x. split; [apply in_seq; lia|].
    unfold get.
    replace (x <? k_width k) with true by (symmetry; apply Nat.ltb_lt; lia).
    replace (y <? k_height k) with true by (symmetry; apply Nat.ltb_lt; lia).
    cbn [andb]. fold (cell k x y).
    destruct (quad_eqb (cell k x y) no_lines) eqn:E.
    + apply quad_eqb_eq in E. contradiction.
    + rewrite G. now left.
Qed.

(** A picture in which no line ends in the middle of nowhere. *)
Definition no_loose_ends (p : picture) : Prop :=
  forall x y s, leaves p x y s -> exists s', s' <> s /\ leaves p x y s'.

Lemma depicts_calls p lt rx ry w h cs : 1 <= lt <= 3 -> uniform lt cs -> no_loose_ends p ->
  (forall x y s, x < w -> y < h -> (lit cs x y s <-> leaves p x y s)) ->
  depicts p lt rx ry w h (render (run (new w h lt) cs) rx ry).
Proof.
  intros L U NE H.
  set (k := run (new w h lt) cs).
  assert (KW : k_width k = w) by (unfold k; now rewrite (proj1 (run_shape cs _))).
  assert (KH : k_height k = h) by (unfold k; now rewrite (proj1 (proj2 (run_shape cs _)))).
  assert (A : forall x y s, x < w -> y < h -> arm s (cell k x y) = 0 \/ arm s (cell k x y) = lt).
  { intros x y s X Y.
    destruct (cell_run_ge cs (new w h lt) x y s (new_well w h lt) X Y) as [E | (q & I & E)];
      fold k in E; rewrite E.
    - rewrite cell_new. left. now destruct s.
    - exact (U _ _ _ s I). }
  assert (B : forall x y s, x < w -> y < h -> arm s (cell k x y) <> 0 -> leaves p x y s).
  { intros x y s X Y N. apply H; auto.
    destruct (cell_run_ge cs (new w h lt) x y s (new_well w h lt) X Y) as [E | (q & I & E)];
      fold k in E.
    - rewrite cell_new in E. destruct s; cbn in E; contradiction.
    - exists q. split; [exact I|congruence]. }
  assert (C : forall x y s, x < w -> y < h -> leaves p x y s -> arm s (cell k x y) = lt).
  { intros x y s X Y E. apply (cell_lit w h lt cs x y s U X Y). now apply H. }
  split.
  - intros X Y ch I. apply in_render in I as (x & y & Hx & Hy & -> & -> & N & G).
    rewrite KW in Hx. rewrite KH in Hy.
    exists x, y.
    assert (E : exists s, arm s (cell k x y) <> 0).
    { destruct (Nat.eq_dec (q_top (cell k x y)) 0) as [E1|E1]; [|now exists Above].
      destruct (Nat.eq_dec (q_right (cell k x y)) 0) as [E2|E2]; [|now exists Rightwards].
      destruct (Nat.eq_dec (q_bottom (cell k x y)) 0) as [E3|E3]; [|now exists Below].
      destruct (Nat.eq_dec (q_left (cell k x y)) 0) as [E4|E4]; [|now exists Leftwards].
      exfalso. apply N. apply quad_eq. intros s. destruct s; assumption. }
    destruct E as [s E]. exists s. repeat split; auto.
  - intros x y s X Y E.
    destruct (NE x y s E) as (s' & D & E').
    pose proof (C x y s X Y E) as C1. pose proof (C x y s' X Y E') as C2.
    destruct (glyph_ok lt (cell k x y) s s') as (ch & G & I); try lia.
    { intros s0. now apply A. }
    { congruence. }
    exists ch, (fun s0 => arm s0 (cell k x y)).
    assert (NN : cell k x y <> no_lines).
    { intros Z0. rewrite Z0 in C1. destruct s; cbn in C1; lia. }
    split; [|split; [|split]].
    + apply in_render. exists x, y. repeat split; auto; congruence.
    + intros ch' I'. apply in_render in I' as (x' & y' & _ & _ & EX & EY & _ & G').
      assert (x' = x) by lia. assert (y' = y) by lia. subst x' y'. congruence.
    + exists (cell k x y). split; [exact I|reflexivity].
    + intros s0. destruct (A x y s0 X Y) as [Z0 | Z0].
      * right. split; [|exact Z0]. intros L0. rewrite (C x y s0 X Y L0) in Z0. lia.
      * left. split; [|exact Z0]. apply B; auto. lia.
Qed.

(** ---- Boxes ---- *)

Lemma in_range n a b : In n (range a b) <-> a <= n < b.
Proof. unfold range. rewrite in_seq. lia. Qed.

Definition boxes_calls (lt : nat) (bs : list box) : list call :=
  flat_map (fun b => match b with (x, y, w, h) => box_calls lt x y w h end) bs.

Ltac arms U := intros s; destruct s; cbn; auto.

Lemma uniform_app lt a b : uniform lt a -> uniform lt b -> uniform lt (a ++ b).
Proof. intros A B x y q s I. apply in_app_iff in I as [I | I]; eauto. Qed.

Lemma uniform_map lt {A} (f : A -> call) l :
  (forall a s, arm s (snd (f a)) = 0 \/ arm s (snd (f a)) = lt) -> uniform lt (map f l).
Proof.
  intros H x y q s I. apply in_map_iff in I as (a & E & _). specialize (H a s). now rewrite E in H.
Qed.

Lemma uniform_flat lt {A} (f : A -> list call) l :
  (forall a, uniform lt (f a)) -> uniform lt (flat_map f l).
Proof. intros H x y q s I. apply in_flat_map in I as (a & _ & I). eapply H; eauto. Qed.

Lemma uniform_nil lt : uniform lt [].
Proof. intros x y q s []. Qed.

Lemma uniform_cons lt c cs : (forall s, arm s (snd c) = 0 \/ arm s (snd c) = lt) ->
  uniform lt cs -> uniform lt (c :: cs).
Proof. intros A B x y q s [-> | I]; [apply A|eauto]. Qed.

Ltac uni := repeat first
  [ apply uniform_nil
  | apply uniform_app
  | apply uniform_cons
  | apply uniform_map
  | apply uniform_flat; intros ?
  | match goal with |- uniform _ (if ?b then _ else _) => destruct b end ];
  try (intros; match goal with s : side |- _ => destruct s end; cbn;
       repeat match goal with |- context [if ?b then _ else _] => destruct b end; auto).

Lemma box_uniform lt x y w h : uniform lt (box_calls lt x y w h).
Proof. unfold box_calls. uni. Qed.

Lemma lit_app a b x y s : lit (a ++ b) x y s <-> lit a x y s \/ lit b x y s.
Proof.
  unfold lit. split.
  - intros (q & I & N). apply in_app_iff in I as [I | I]; [left | right]; exists q; auto.
  - intros [(q & I & N) | (q & I & N)]; exists q; split; auto; apply in_app_iff; auto.
Qed.

Lemma lit_map {A} (f : A -> call) l x y s :
  lit (map f l) x y s <-> exists a, In a l /\ fst (fst (f a)) = x /\ snd (fst (f a)) = y
                                    /\ arm s (snd (f a)) <> 0.
Proof.
  unfold lit. split.
  - intros (q & I & N). apply in_map_iff in I as (a & E & I). exists a.
    rewrite E. cbn. auto.
  - intros (a & I & <- & <- & N). exists (snd (f a)). split; [|exact N].
    apply in_map_iff. exists a. split; [|exact I]. destruct (f a) as [[? ?] ?]. reflexivity.
Qed.

Lemma lit_flat {A} (f : A -> list call) l x y s :
  lit (flat_map f l) x y s <-> exists a, In a l /\ lit (f a) x y s.
Proof.
  unfold lit. split.
  - intros (q & I & N). apply in_flat_map in I as (a & Ia & I). exists a. eauto.
  - intros (a & Ia & q & I & N). exists q. split; [|exact N]. apply in_flat_map. eauto.
Qed.

Lemma lit_cons c cs x y s : lit (c :: cs) x y s
  <-> (fst (fst c) = x /\ snd (fst c) = y /\ arm s (snd c) <> 0) \/ lit cs x y s.
Proof.
  unfold lit. split.
  - intros (q & [-> | I] & N); cbn; [auto|]. right. eauto.
  - intros [(<- & <- & N) | (q & I & N)].
    + exists (snd c). split; [left; now destruct c as [[? ?] ?]|exact N].
    + exists q. split; [now right|exact N].
Qed.

Lemma lit_nil x y s : lit [] x y s <-> False.
Proof. unfold lit. split; [intros (q & [] & _)|intros []]. Qed.

Lemma lit_box lt bx by' w h x y s : 0 < lt -> 2 <= w -> 2 <= h ->
  lit (box_calls lt bx by' w h) x y s <-> leaves (outlines [(bx, by', w, h)]) x y s.
Proof.
  intros L W H. unfold box_calls.
  replace (w =? 0) with false by (symmetry; apply Nat.eqb_neq; lia).
  replace (h =? 0) with false by (symmetry; apply Nat.eqb_neq; lia).
  replace (1 <? w) with true by (symmetry; apply Nat.ltb_lt; lia).
  replace (1 <? h) with true by (symmetry; apply Nat.ltb_lt; lia).
  cbn [orb andb].
  rewrite !lit_app, !lit_cons, !lit_nil, !lit_map. cbn [fst snd].
  assert (O1 : forall x y, across (outlines [(bx, by', w, h)]) x y
     <-> bx <= x /\ x + 1 < bx + w /\ (y = by' \/ y + 1 = by' + h)).
  { intros x' y'. cbn. split.
    - intros (a & b & c & d & [E | []] & R). injection E as <- <- <- <-. exact R.
    - intros R. exists bx, by', w, h. auto. }
  assert (O2 : forall x y, downwards (outlines [(bx, by', w, h)]) x y
     <-> by' <= y /\ y + 1 < by' + h /\ (x = bx \/ x + 1 = bx + w)).
  { intros x' y'. cbn. split.
    - intros (a & b & c & d & [E | []] & R). injection E as <- <- <- <-. exact R.
    - intros R. exists bx, by', w, h. auto. }
  assert (EX : forall P : nat -> Prop, forall a b, (exists i, In i (range a b) /\ P i) <-> (exists i, a <= i < b /\ P i)).
  { intros P a b. split; intros (i & I & Q); exists i; split; auto; now apply in_range. }
  rewrite !EX.
  destruct s; cbn [arm q_top q_right q_bottom q_left leaves];
    [ setoid_rewrite O2 | rewrite O1 | rewrite O2 | setoid_rewrite O1 ].
  - split.
    + intros D. repeat (destruct D as [D | D]; [|]);
        repeat match goal with H : _ /\ _ |- _ => destruct H | H : exists _, _ |- _ => destruct H end;
        try lia; try contradiction; (exists (y - 1); lia).
    + intros (y' & -> & R1 & R2 & R3).
      destruct (Nat.eq_dec (S y') (by' + h - 1)) as [E | E].
      * destruct R3 as [R3 | R3].
        -- right; right; right; right; right; left. lia.
        -- right; right; right; right; right; right; right. left. lia.
      * destruct R3 as [R3 | R3].
        -- right; right; right; left. exists (S y' - by'). lia.
        -- right; right; right; right; left. exists (S y' - by'). lia.
  - split.
    + intros D. repeat (destruct D as [D | D]; [|]);
        repeat match goal with H : _ /\ _ |- _ => destruct H | H : exists _, _ |- _ => destruct H end;
        try lia; try contradiction.
    + intros (R1 & R2 & R3).
      destruct (Nat.eq_dec x bx) as [E | E].
      * destruct R3 as [R3 | R3].
        -- left. lia.
        -- right; right; right; right; right; left. lia.
      * destruct R3 as [R3 | R3].
        -- right; left. exists (x - bx). lia.
        -- right; right; right; right; right; right; left. exists (x - bx). lia.
  - split.
    + intros D. repeat (destruct D as [D | D]; [|]);
        repeat match goal with H : _ /\ _ |- _ => destruct H | H : exists _, _ |- _ => destruct H end;
        try lia; try contradiction.
    + intros (R1 & R2 & R3).
      destruct (Nat.eq_dec y by') as [E | E].
      * destruct R3 as [R3 | R3].
        -- left. lia.
        -- right; right; left. lia.
      * destruct R3 as [R3 | R3].
        -- right; right; right; left. exists (y - by'). lia.
        -- right; right; right; right; left. exists (y - by'). lia.
  - split.
    + intros D. repeat (destruct D as [D | D]; [|]);
        repeat match goal with H : _ /\ _ |- _ => destruct H | H : exists _, _ |- _ => destruct H end;
        try lia; try contradiction; (exists (x - 1); lia).
    + intros (x' & -> & R1 & R2 & R3).
      destruct (Nat.eq_dec (S x') (bx + w - 1)) as [E | E].
      * destruct R3 as [R3 | R3].
        -- right; right; left. lia.
        -- right; right; right; right; right; right; right. left. lia.
      * destruct R3 as [R3 | R3].
        -- right; left. exists (S x' - bx). lia.
        -- right; right; right; right; right; right; left. exists (S x' - bx). lia.
Qed.

Lemma outlines_leaves bs x y s :
  leaves (outlines bs) x y s <-> exists b, In b bs /\ leaves (outlines [b]) x y s.
Proof.
  destruct s; cbn; split.
  - intros (y' & E & a & b & c & d & I & R). exists (a, b, c, d). split; [exact I|].
    exists y'. split; [exact E|]. exists a, b, c, d. auto.
  - intros (b0 & I & y' & E & a & b & c & d & [-> | []] & R). exists y'. split; [exact E|].
    exists a, b, c, d. auto.
  - intros (a & b & c & d & I & R). exists (a, b, c, d). split; [exact I|]. exists a, b, c, d. auto.
  - intros (b0 & I & a & b & c & d & [-> | []] & R). exists a, b, c, d. auto.
  - intros (a & b & c & d & I & R). exists (a, b, c, d). split; [exact I|]. exists a, b, c, d. auto.
  - intros (b0 & I & a & b & c & d & [-> | []] & R). exists a, b, c, d. auto.
  - intros (y' & E & a & b & c & d & I & R). exists (a, b, c, d). split; [exact I|].
    exists y'. split; [exact E|]. exists a, b, c, d. auto.
  - intros (b0 & I & y' & E & a & b & c & d & [-> | []] & R). exists y'. split; [exact E|].
    exists a, b, c, d. auto.
Qed.

Lemma boxes_lit lt bs x y s : 0 < lt -> Forall proper bs ->
  lit (boxes_calls lt bs) x y s <-> leaves (outlines bs) x y s.
Proof.
  intros L F. unfold boxes_calls. rewrite lit_flat, outlines_leaves.
  rewrite Forall_forall in F. split.
  - intros ([[[a b] c] d] & I & Q). exists (a, b, c, d). split; [exact I|].
    destruct (F _ I). now apply lit_box in Q.
  - intros ([[[a b] c] d] & I & Q). exists (a, b, c, d). split; [exact I|].
    destruct (F _ I). now apply lit_box.
Qed.

Lemma boxes_closed bs : Forall proper bs -> no_loose_ends (outlines bs).
Proof.
  intros F x y s Q. rewrite Forall_forall in F.
  apply outlines_leaves in Q as (b0 & I & Q).
  enough (G : exists s', s' <> s /\ leaves (outlines [b0]) x y s').
  { destruct G as (s' & D & G). exists s'. split; [exact D|]. apply outlines_leaves. eauto. }
  specialize (F _ I). clear I. destruct b0 as [[[bx by'] w] h]. destruct F as [W H].
  assert (O1 : forall x y, bx <= x -> x + 1 < bx + w -> (y = by' \/ y + 1 = by' + h) ->
               across (outlines [(bx, by', w, h)]) x y).
  { intros. cbn. exists bx, by', w, h. auto. }
  assert (O2 : forall x y, by' <= y -> y + 1 < by' + h -> (x = bx \/ x + 1 = bx + w) ->
               downwards (outlines [(bx, by', w, h)]) x y).
  { intros. cbn. exists bx, by', w, h. auto. }
  destruct s; cbn in Q.
  - destruct Q as (y' & -> & a & b & c & d & [E | []] & R1 & R2 & R3).
    injection E as <- <- <- <-.
    destruct (Nat.eq_dec (y' + 2) (by' + h)) as [E | E].
    + destruct R3 as [-> | R3].
      * exists Rightwards. split; [discriminate|]. apply O1; lia.
      * exists Leftwards. split; [discriminate|]. exists (x - 1). split; [lia|]. apply O1; lia.
    + exists Below. split; [discriminate|]. apply O2; lia.
  - destruct Q as (a & b & c & d & [E | []] & R1 & R2 & R3). injection E as <- <- <- <-.
    destruct (Nat.eq_dec x bx) as [-> | E].
    + destruct R3 as [-> | R3].
      * exists Below. split; [discriminate|]. apply O2; lia.
      * exists Above. split; [discriminate|]. exists (y - 1). split; [lia|]. apply O2; lia.
    + exists Leftwards. split; [discriminate|]. exists (x - 1). split; [lia|]. apply O1; lia.
  - destruct Q as (a & b & c & d & [E | []] & R1 & R2 & R3). injection E as <- <- <- <-.
    destruct (Nat.eq_dec y by') as [-> | E].
    + destruct R3 as [-> | R3].
      * exists Rightwards. split; [discriminate|]. apply O1; lia.
      * exists Leftwards. split; [discriminate|]. exists (x - 1). split; [lia|]. apply O1; lia.
    + exists Above. split; [discriminate|]. exists (y - 1). split; [lia|]. apply O2; lia.
  - destruct Q as (x' & -> & a & b & c & d & [E | []] & R1 & R2 & R3).
    injection E as <- <- <- <-.
    destruct (Nat.eq_dec (x' + 2) (bx + w)) as [E | E].
    + destruct R3 as [-> | R3].
      * exists Below. split; [discriminate|]. apply O2; lia.
      * exists Above. split; [discriminate|]. exists (y - 1). split; [lia|]. apply O2; lia.
    + exists Rightwards. split; [discriminate|]. apply O1; lia.
Qed.

Lemma add_boxes_run bs : forall k, add_boxes k bs = run k (boxes_calls (k_line k) bs).
Proof.
  induction bs as [|[[[x y] w] h] bs IH]; intros k; [reflexivity|].
  change (add_boxes k ((x, y, w, h) :: bs)) with (add_boxes (add_widget_box k x y w h) bs).
  rewrite IH. unfold add_widget_box at 2. rewrite (proj2 (proj2 (run_shape _ k))).
  unfold add_widget_box. rewrite <- run_app. reflexivity.
Qed.

(** ---- Lattices ---- *)

Lemma increasing_lt l : increasing l -> forall i j, i < j -> j < length l -> nth i l 0 < nth j l 0.
Proof.
  intros H i j L. revert L. induction j as [|j IH]; intros L B; [lia|].
  pose proof (H j B). destruct (Nat.eq_dec i j) as [-> | N]; [lia|].
  specialize (IH ltac:(lia) ltac:(lia)). lia.
Qed.

Lemma increasing_inj l : increasing l -> forall i j, i < length l -> j < length l ->
  nth i l 0 = nth j l 0 -> i = j.
Proof.
  intros H i j I J E. destruct (lt_eq_lt_dec i j) as [[L | L] | L]; auto.
  - pose proof (increasing_lt l H i j L J). lia.
  - pose proof (increasing_lt l H j i L I). lia.
Qed.

Lemma locate l x : nth 0 l 0 <= x -> forall n, n < length l -> x < nth n l 0 ->
  exists j, S j <= n /\ nth j l 0 <= x < nth (S j) l 0.
Proof.
  intros L. induction n as [|n IH]; intros B X; [lia|].
  destruct (le_lt_dec (nth n l 0) x) as [E | E].
  - exists n. lia.
  - destruct (IH ltac:(lia) E) as (j & J & R). exists j. lia.
Qed.

Section Lattice.
Context (cols rows : list nat) (wide tall : nat -> nat -> Prop).
Context (IC : increasing cols) (IR : increasing rows).

Definition varm (i j : nat) (s : side) : Prop :=
  match s with
  | Rightwards => S j < length cols /\ wide i j
  | Leftwards => exists j', j = S j' /\ wide i j'
  | Below => S i < length rows /\ tall i j
  | Above => exists i', i = S i' /\ tall i' j
  end.

Lemma varm_leaves i j s : i < length rows -> j < length cols -> varm i j s ->
  leaves (lattice cols rows wide tall) (nth j cols 0) (nth i rows 0) s.
Proof.
  intros I J V. destruct s; cbn [varm leaves lattice across downwards] in *.
  - destruct V as (i' & -> & V). pose proof (IR i' I).
    exists (nth (S i') rows 0 - 1). split; [lia|].
    exists i', j. repeat split; auto; lia.
  - destruct V as (V1 & V2). pose proof (IC j V1).
    exists i, j. repeat split; auto; lia.
  - destruct V as (V1 & V2). pose proof (IR i V1).
    exists i, j. repeat split; auto; lia.
  - destruct V as (j' & -> & V). pose proof (IC j' J).
    exists (nth (S j') cols 0 - 1). split; [lia|].
    exists i, j'. repeat split; auto; lia.
Qed.

Lemma lattice_closed :
  (forall i j s, i < length rows -> j < length cols -> varm i j s ->
     exists s', s' <> s /\ varm i j s') ->
  no_loose_ends (lattice cols rows wide tall).
Proof.
  intros V x y s Q.
  assert (VV : forall i j s, i < length rows -> j < length cols -> varm i j s ->
    exists s', s' <> s /\ leaves (lattice cols rows wide tall) (nth j cols 0) (nth i rows 0) s').
  { intros i j s0 I J A. destruct (V i j s0 I J A) as (s' & D & A'). exists s'.
    split; [exact D|]. now apply varm_leaves. }
  destruct s; cbn [leaves lattice across downwards] in Q.
  - destruct Q as (y' & -> & i & j & I & J & -> & R & T).
    destruct (Nat.eq_dec (S y') (nth (S i) rows 0)) as [E | E].
    + rewrite E. apply VV; auto. cbn. eauto.
    + exists Below. split; [discriminate|]. cbn. exists i, j. repeat split; auto; lia.
  - destruct Q as (i & j & I & J & -> & R & T).
    destruct (Nat.eq_dec x (nth j cols 0)) as [-> | E].
    + apply VV; auto; [lia|]. cbn. auto.
    + exists Leftwards. split; [discriminate|]. cbn. exists (x - 1). split; [lia|].
      exists i, j. repeat split; auto; lia.
  - destruct Q as (i & j & I & J & -> & R & T).
    destruct (Nat.eq_dec y (nth i rows 0)) as [-> | E].
    + apply VV; auto; [lia|]. cbn. auto.
    + exists Above. split; [discriminate|]. cbn. exists (y - 1). split; [lia|].
      exists i, j. repeat split; auto; lia.
  - destruct Q as (x' & -> & i & j & I & J & -> & R & T).
    destruct (Nat.eq_dec (S x') (nth (S j) cols 0)) as [E | E].
    + rewrite E. apply VV; auto. cbn. eauto.
    + exists Rightwards. split; [discriminate|]. cbn. exists i, j. repeat split; auto; lia.
Qed.
End Lattice.

Lemma full_closed cols rows : increasing cols -> increasing rows ->
  2 <= length cols -> 2 <= length rows -> no_loose_ends (full_lattice cols rows).
Proof.
  intros IC IR LC LR. apply lattice_closed; auto.
  intros i j s I J V. destruct s.
  - destruct (le_lt_dec (length cols) (S j)).
    + exists Leftwards. split; [discriminate|]. exists (j - 1). split; [lia|exact Logic.I].
    + exists Rightwards. split; [discriminate|]. cbn; auto.
  - destruct (le_lt_dec (length rows) (S i)).
    + exists Above. split; [discriminate|]. exists (i - 1). split; [lia|exact Logic.I].
    + exists Below. split; [discriminate|]. cbn; auto.
  - destruct (le_lt_dec (length cols) (S j)).
    + exists Leftwards. split; [discriminate|]. exists (j - 1). split; [lia|exact Logic.I].
    + exists Rightwards. split; [discriminate|]. cbn; auto.
  - destruct (le_lt_dec (length rows) (S i)).
    + exists Above. split; [discriminate|]. exists (i - 1). split; [lia|exact Logic.I].
    + exists Below. split; [discriminate|]. cbn; auto.
Qed.

Lemma holder_dec (a b : option nat) : {a = b} + {a <> b}.
Proof. repeat decide equality. Qed.

Lemma partition_closed cols rows occ : increasing cols -> increasing rows ->
  2 <= length cols -> 2 <= length rows -> no_loose_ends (partition_lines cols rows occ).
Proof.
  intros IC IR LC LR. apply lattice_closed; auto.
  intros i j s I J V.
  set (wide := fun i j => i = 0 \/ S i = length rows \/ holder occ (i - 1) j <> holder occ i j) in *.
  set (tall := fun i j => j = 0 \/ S j = length cols \/ holder occ i (j - 1) <> holder occ i j) in *.
  assert (LF : forall j', j = S j' -> wide i j' -> varm cols rows wide tall i j Leftwards)
    by (intros j' E W; exists j'; auto).
  assert (AB : forall i', i = S i' -> tall i' j -> varm cols rows wide tall i j Above)
    by (intros i' E W; exists i'; auto).
  assert (RI : S j < length cols -> wide i j -> varm cols rows wide tall i j Rightwards)
    by (intros; split; auto).
  assert (BE : S i < length rows -> tall i j -> varm cols rows wide tall i j Below)
    by (intros; split; auto).
  assert (HZ : (i = 0 \/ S i = length rows) -> forall j, wide i j)
    by (intros H j'; unfold wide; tauto).
  assert (VT : (j = 0 \/ S j = length cols) -> forall i, tall i j)
    by (intros H i'; unfold tall; tauto).
  assert (DI : (i = 0 \/ S i = length rows) \/ (0 < i /\ S i < length rows)) by lia.
  assert (DJ : (j = 0 \/ S j = length cols) \/ (0 < j /\ S j < length cols)) by lia.
  assert (P : forall s1 s2, s1 <> s2 -> varm cols rows wide tall i j s1 ->
            varm cols rows wide tall i j s2 ->
            exists s', s' <> s /\ varm cols rows wide tall i j s').
  { intros s1 s2 D V1 V2.
    assert (G : s1 <> s \/ s1 = s) by (destruct s1, s; ((right; reflexivity) || (left; discriminate))).
    destruct G as [G | <-]; [exists s1; auto|]. exists s2. split; [congruence|exact V2]. }
  destruct DI as [DI | [I1 I2]].
  - destruct DJ as [DJ | [J1 J2]].
    + (* corner *)
      assert (exists sh, (sh = Leftwards \/ sh = Rightwards) /\ varm cols rows wide tall i j sh)
        as (sh & Esh & Vsh).
      { destruct DJ as [DJ | DJ].
        - exists Rightwards. split; [auto|]. apply RI; [lia|]. now apply HZ.
        - exists Leftwards. split; [auto|]. apply (LF (j - 1)); [lia|]. now apply HZ. }
      assert (exists sv, (sv = Above \/ sv = Below) /\ varm cols rows wide tall i j sv)
        as (sv & Esv & Vsv).
      { destruct DI as [DI | DI].
        - exists Below. split; [auto|]. apply BE; [lia|]. now apply VT.
        - exists Above. split; [auto|]. apply (AB (i - 1)); [lia|]. now apply VT. }
      apply (P sh sv); auto. destruct Esh, Esv; subst; discriminate.
    + apply (P Leftwards Rightwards); [discriminate| |].
      * apply (LF (j - 1)); [lia|]. now apply HZ.
      * apply RI; [lia|]. now apply HZ.
  - destruct DJ as [DJ | [J1 J2]].
    + apply (P Above Below); [discriminate| |].
      * apply (AB (i - 1)); [lia|]. now apply VT.
      * apply BE; [lia|]. now apply VT.
    + (* inside *)
      assert (TU : holder occ (i - 1) (j - 1) <> holder occ (i - 1) j ->
                   varm cols rows wide tall i j Above).
      { intros N. apply (AB (i - 1)); [lia|]. unfold tall. auto. }
      assert (TD : holder occ i (j - 1) <> holder occ i j -> varm cols rows wide tall i j Below).
      { intros N. apply BE; [lia|]. unfold tall. auto. }
      assert (TL : holder occ (i - 1) (j - 1) <> holder occ i (j - 1) ->
                   varm cols rows wide tall i j Leftwards).
      { intros N. apply (LF (j - 1)); [lia|]. unfold wide. auto. }
      assert (TR : holder occ (i - 1) j <> holder occ i j -> varm cols rows wide tall i j Rightwards).
      { intros N. apply RI; [lia|]. unfold wide. auto. }
      destruct (holder_dec (holder occ (i - 1) (j - 1)) (holder occ (i - 1) j)) as [Eu | Nu];
      destruct (holder_dec (holder occ i (j - 1)) (holder occ i j)) as [Ed | Nd];
      destruct (holder_dec (holder occ (i - 1) (j - 1)) (holder occ i (j - 1))) as [El | Nl];
      destruct (holder_dec (holder occ (i - 1) j) (holder occ i j)) as [Er | Nr];
      try congruence;
      first
        [ apply (P Above Below); [discriminate | now apply TU | now apply TD]
        | apply (P Above Leftwards); [discriminate | now apply TU | now apply TL]
        | apply (P Above Rightwards); [discriminate | now apply TU | now apply TR]
        | apply (P Below Leftwards); [discriminate | now apply TD | now apply TL]
        | apply (P Below Rightwards); [discriminate | now apply TD | now apply TR]
        | apply (P Leftwards Rightwards); [discriminate | now apply TL | now apply TR]
        | idtac ].
      (* no line at all *)
      exfalso. destruct s; cbn in V.
      * destruct V as (i' & E & V). assert (E' : i' = i - 1) by lia. subst i'.
        unfold tall in V. destruct V as [V | [V | V]]; [lia | lia | contradiction].
      * destruct V as (_ & V). unfold wide in V. destruct V as [V | [V | V]]; [lia | lia | contradiction].
      * destruct V as (_ & V). unfold tall in V. destruct V as [V | [V | V]]; [lia | lia | contradiction].
      * destruct V as (j' & E & V). assert (E' : j' = j - 1) by lia. subst j'.
        unfold wide in V. destruct V as [V | [V | V]]; [lia | lia | contradiction].
Qed.

(** ---- The calls of the two grid functions ---- *)

Lemma lit_if (b : bool) cs x y s : lit (if b then [] else cs) x y s <-> b = false /\ lit cs x y s.
Proof. destruct b; rewrite ?lit_nil; intuition discriminate. Qed.

Lemma lit_if' (b : bool) cs x y s : lit (if b then cs else []) x y s <-> b = true /\ lit cs x y s.
Proof. destruct b; rewrite ?lit_nil; intuition discriminate. Qed.

Lemma grid_uniform w h lt cols rows : uniform lt (grid_calls w h lt cols rows).
Proof. unfold grid_calls, grid_row_calls, grid_col_calls. cbv zeta. uni. Qed.

Lemma occ_uniform w h lt cols rows occ : uniform lt (occ_calls w h lt cols rows occ).
Proof.
  unfold occ_calls, occ_border_calls, occ_col_calls, occ_row_calls, occ_junction_calls,
    occ_junction, stroke_across, stroke_down. cbv zeta. uni.
Qed.

Lemma lit_grid w h lt cols rows x y s : 0 < lt -> increasing cols -> increasing rows ->
  2 <= length cols -> 2 <= length rows -> x < w -> y < h ->
  lit (grid_calls w h lt cols rows) x y s <-> leaves (full_lattice cols rows) x y s.
Proof.
  intros L IC IR LC LR X Y. unfold grid_calls.
  replace (length cols <? 2) with false by (symmetry; apply Nat.ltb_ge; lia).
  replace (length rows <? 2) with false by (symmetry; apply Nat.ltb_ge; lia).
  cbn [orb]. rewrite lit_app, !lit_flat.
  assert (ROW : forall i, lit (grid_row_calls w h lt cols rows i) x y s <->
    y = nth i rows 0 /\ exists j, j < length cols /\
      ((x = nth j cols 0 /\ match s with
                            | Above => i <> 0 | Below => i <> length rows - 1
                            | Leftwards => j <> 0 | Rightwards => j <> length cols - 1 end)
       \/ (S j < length cols /\ nth j cols 0 < x < nth (S j) cols 0
           /\ (s = Leftwards \/ s = Rightwards)))).
  { intros i. unfold grid_row_calls. cbv zeta. rewrite lit_if, Nat.leb_gt, lit_flat.
    split.
    - intros (Y0 & j & J & Q). apply in_seq in J.
      rewrite lit_if, Nat.leb_gt, lit_cons, lit_if', lit_map in Q. cbn [fst snd] in Q.
      destruct Q as (X0 & [(E1 & E2 & A) | (B & f & F & E1 & E2 & A)]).
      + split; [auto|]. exists j. split; [lia|]. left. split; [auto|].
        destruct s; cbn in A.
        * destruct (i =? 0) eqn:E; [contradiction|now apply Nat.eqb_neq].
        * destruct (j =? length cols - 1) eqn:E; [contradiction|now apply Nat.eqb_neq].
        * destruct (i =? length rows - 1) eqn:E; [contradiction|now apply Nat.eqb_neq].
        * destruct (j =? 0) eqn:E; [contradiction|now apply Nat.eqb_neq].
      + split; [auto|]. exists j. split; [lia|]. right.
        apply Nat.ltb_lt in B. apply in_range in F. subst f.
        replace (j + 1) with (S j) in F by lia.
        split; [lia|]. split; [lia|]. destruct s; cbn in A; auto; contradiction.
    - intros (-> & j & J & Q). split; [exact Y|]. exists j. split; [apply in_seq; lia|].
      rewrite lit_if, Nat.leb_gt, lit_cons, lit_if', lit_map. cbn [fst snd].
      destruct Q as [(-> & Q) | (J' & R & Q)].
      + split; [exact X|]. left. split; [auto|]. split; [auto|].
        destruct s; cbn; apply Nat.eqb_neq in Q; rewrite Q; lia.
      + split; [lia|]. right. split; [apply Nat.ltb_lt; lia|].
        exists x. split; [apply in_range; replace (j + 1) with (S j) by lia; lia|].
        split; [auto|]. split; [auto|]. destruct Q as [-> | ->]; cbn; lia. }
  assert (COL : forall j, lit (grid_col_calls w h lt cols rows j) x y s <->
    x = nth j cols 0 /\ exists i, S i < length rows /\ nth i rows 0 < y < nth (S i) rows 0
      /\ (s = Above \/ s = Below)).
  { intros j. unfold grid_col_calls. cbv zeta. rewrite lit_if, Nat.leb_gt, lit_flat.
    split.
    - intros (X0 & i & I & Q). apply in_seq in I.
      rewrite lit_if, Nat.leb_gt, lit_if', lit_map in Q. cbn [fst snd] in Q.
      destruct Q as (Y0 & B & f & F & E1 & E2 & A).
      apply Nat.ltb_lt in B. apply in_range in F. subst f.
      replace (i + 1) with (S i) in F by lia.
      split; [auto|]. exists i. split; [lia|]. split; [lia|].
      destruct s; cbn in A; auto; contradiction.
    - intros (-> & i & I & R & Q). split; [exact X|]. exists i. split; [apply in_seq; lia|].
      rewrite lit_if, Nat.leb_gt, lit_if', lit_map. cbn [fst snd].
      split; [lia|]. split; [apply Nat.ltb_lt; lia|].
      exists y. split; [apply in_range; replace (i + 1) with (S i) by lia; lia|].
      split; [auto|]. split; [auto|]. destruct Q as [-> | ->]; cbn; lia. }
  unfold full_lattice.
  split.
  - intros [(i & I & Q) | (j & J & Q)].
    + apply in_seq in I. apply ROW in Q as (-> & j & J & [(-> & Q) | (J' & R & Q)]).
      * apply varm_leaves; auto; [lia|]. destruct s; cbn.
        -- exists (i - 1). split; [lia|auto].
        -- split; [lia|auto].
        -- split; [lia|auto].
        -- exists (j - 1). split; [lia|auto].
      * destruct Q as [-> | ->]; cbn.
        -- exists (x - 1). split; [lia|]. exists i, j. repeat split; auto; lia.
        -- exists i, j. repeat split; auto; lia.
    + apply in_seq in J. apply COL in Q as (-> & i & I & R & Q).
      destruct Q as [-> | ->]; cbn.
      * exists (y - 1). split; [lia|]. exists i, j. repeat split; auto; lia.
      * exists i, j. repeat split; auto; lia.
  - intros Q. destruct s; cbn in Q.
    + destruct Q as (y' & -> & i & j & I & J & -> & R & _).
      destruct (Nat.eq_dec (S y') (nth (S i) rows 0)) as [E | E].
      * left. exists (S i). split; [apply in_seq; lia|]. apply ROW. split; [exact E|].
        exists j. split; [exact J|]. left. split; auto.
      * right. exists j. split; [apply in_seq; lia|]. apply COL. split; [auto|].
        exists i. split; [lia|]. split; [lia|auto].
    + destruct Q as (i & j & I & J & -> & R & _).
      left. exists i. split; [apply in_seq; lia|]. apply ROW. split; [reflexivity|].
      exists j. split; [lia|].
      destruct (Nat.eq_dec x (nth j cols 0)) as [E | E].
      * left. split; [exact E|lia].
      * right. split; [lia|]. split; [lia|auto].
    + destruct Q as (i & j & I & J & -> & R & _).
      destruct (Nat.eq_dec y (nth i rows 0)) as [E | E].
      * left. exists i. split; [apply in_seq; lia|]. apply ROW. split; [exact E|].
        exists j. split; [exact J|]. left. split; [auto|lia].
      * right. exists j. split; [apply in_seq; lia|]. apply COL. split; [auto|].
        exists i. split; [lia|]. split; [lia|auto].
    + destruct Q as (x' & -> & i & j & I & J & -> & R & _).
      left. exists i. split; [apply in_seq; lia|]. apply ROW. split; [reflexivity|].
      destruct (Nat.eq_dec (S x') (nth (S j) cols 0)) as [E | E].
      * exists (S j). split; [exact J|]. left. split; [exact E|lia].
      * exists j. split; [lia|]. right. split; [lia|]. split; [lia|auto].
Qed.

Lemma occupant_holder occ r c : occupant occ r c = holder occ r c.
Proof.
  unfold occupant, holder.
  destruct (nth_error occ r) as [row|] eqn:E.
  - rewrite (nth_error_nth _ _ _ E).
    destruct (nth_error row c) as [o|] eqn:F.
    + now rewrite (nth_error_nth _ _ _ F).
    + apply nth_error_None in F. now rewrite nth_overflow.
  - apply nth_error_None in E. rewrite (nth_overflow occ) by exact E.
    destruct c; reflexivity.
Qed.

Lemma different_iff occ a b c d :
  different_occupant occ a b c d = true <-> holder occ a b <> holder occ c d.
Proof.
  unfold different_occupant. rewrite !occupant_holder.
  destruct (holder occ a b) as [p|], (holder occ c d) as [q|]; try (split; congruence).
  rewrite negb_true_iff, Nat.eqb_neq. split; congruence.
Qed.

Lemma lit_across w lt a b y0 x y s : 0 < lt -> x < w ->
  lit (stroke_across w lt a b y0) x y s <->
  y = y0 /\ ((s = Rightwards /\ a <= x < b) \/ (s = Leftwards /\ a < x <= b)).
Proof.
  intros L X. unfold stroke_across. rewrite lit_map. cbn [fst snd]. split.
  - intros (f & F & <- & <- & A). apply in_range in F. split; [reflexivity|].
    destruct s; cbn [arm q_top q_right q_bottom q_left] in A; try contradiction.
    + destruct (f <? b) eqn:E; [|contradiction]. apply Nat.ltb_lt in E. left. split; [auto|lia].
    + destruct (a <? f) eqn:E; [|contradiction]. apply Nat.ltb_lt in E. right. split; [auto|lia].
  - intros (-> & [(-> & R) | (-> & R)]); exists x; (split; [apply in_range; lia|]); cbn [arm q_top q_right q_bottom q_left].
    + replace (x <? b) with true by (symmetry; apply Nat.ltb_lt; lia). repeat split; auto; lia.
    + replace (a <? x) with true by (symmetry; apply Nat.ltb_lt; lia). repeat split; auto; lia.
Qed.

Lemma lit_down h lt x0 a b x y s : 0 < lt -> y < h ->
  lit (stroke_down h lt x0 a b) x y s <->
  x = x0 /\ ((s = Below /\ a <= y < b) \/ (s = Above /\ a < y <= b)).
Proof.
  intros L X. unfold stroke_down. rewrite lit_map. cbn [fst snd]. split.
  - intros (f & F & <- & <- & A). apply in_range in F. split; [reflexivity|].
    destruct s; cbn [arm q_top q_right q_bottom q_left] in A; try contradiction.
    + destruct (a <? f) eqn:E; [|contradiction]. apply Nat.ltb_lt in E. right. split; [auto|lia].
    + destruct (f <? b) eqn:E; [|contradiction]. apply Nat.ltb_lt in E. left. split; [auto|lia].
  - intros (-> & [(-> & R) | (-> & R)]); exists y; (split; [apply in_range; lia|]); cbn [arm q_top q_right q_bottom q_left].
    + replace (y <? b) with true by (symmetry; apply Nat.ltb_lt; lia). repeat split; auto; lia.
    + replace (a <? y) with true by (symmetry; apply Nat.ltb_lt; lia). repeat split; auto; lia.
Qed.

Lemma first_le l n : increasing l -> n < length l -> nth 0 l 0 <= nth n l 0.
Proof.
  intros H B. destruct n as [|n]; [lia|]. pose proof (increasing_lt l H 0 (S n)). lia.
Qed.

Lemma last_ge l n : increasing l -> n < length l -> nth n l 0 <= nth (length l - 1) l 0.
Proof.
  intros H B. destruct (Nat.eq_dec n (length l - 1)) as [-> | N]; [lia|].
  pose proof (increasing_lt l H n (length l - 1)). lia.
Qed.

Lemma lit_occ w h lt cols rows occ x y s : 0 < lt -> increasing cols -> increasing rows ->
  2 <= length cols -> 2 <= length rows -> x < w -> y < h ->
  lit (occ_calls w h lt cols rows occ) x y s <-> leaves (partition_lines cols rows occ) x y s.
Proof.
  intros L IC IR LC LR X Y. unfold occ_calls.
  replace (length cols <? 2) with false by (symmetry; apply Nat.ltb_ge; lia).
  replace (length rows <? 2) with false by (symmetry; apply Nat.ltb_ge; lia).
  cbn [orb]. unfold occ_border_calls.
  rewrite !lit_app, !lit_flat, !lit_if', !Nat.ltb_lt, !lit_across, !lit_down by assumption.
  set (wide := fun i j => i = 0 \/ S i = length rows \/ holder occ (i - 1) j <> holder occ i j).
  set (tall := fun i j => j = 0 \/ S j = length cols \/ holder occ i (j - 1) <> holder occ i j).
  change (partition_lines cols rows occ) with (lattice cols rows wide tall).
  (* strokes give arms *)
  assert (AX : forall i a b, i < length rows -> y = nth i rows 0 ->
     (forall x', a <= x' < b -> exists j, S j < length cols /\ nth j cols 0 <= x' < nth (S j) cols 0
                                  /\ wide i j) ->
     (s = Rightwards /\ a <= x < b) \/ (s = Leftwards /\ a < x <= b) ->
     leaves (lattice cols rows wide tall) x y s).
  { intros i a b I -> C [(-> & R) | (-> & R)].
    - destruct (C x R) as (j & J & R' & W). cbn. exists i, j. auto.
    - destruct (C (x - 1) ltac:(lia)) as (j & J & R' & W). cbn. exists (x - 1). split; [lia|].
      exists i, j. auto. }
  assert (DX : forall j a b, j < length cols -> x = nth j cols 0 ->
     (forall y', a <= y' < b -> exists i, S i < length rows /\ nth i rows 0 <= y' < nth (S i) rows 0
                                  /\ tall i j) ->
     (s = Below /\ a <= y < b) \/ (s = Above /\ a < y <= b) ->
     leaves (lattice cols rows wide tall) x y s).
  { intros j a b J -> C [(-> & R) | (-> & R)].
    - destruct (C y R) as (i & I & R' & W). cbn. exists i, j. auto.
    - destruct (C (y - 1) ltac:(lia)) as (i & I & R' & W). cbn. exists (y - 1). split; [lia|].
      exists i, j. auto. }
  split.
  - intros [[(_ & E & Q) | [(_ & E & Q) | [(_ & E & Q) | (_ & E & Q)]]] |
            [(j & J & Q) | [(i & I & Q) | (i & I & Q)]]].
    + refine (AX 0 _ _ _ E _ Q); [lia|]. intros x' R.
      destruct (locate cols x' (proj1 R) (length cols - 1) ltac:(lia) (proj2 R)) as (j & J & R').
      exists j. repeat split; try lia. left. reflexivity.
    + refine (AX (length rows - 1) _ _ _ E _ Q); [lia|]. intros x' R.
      destruct (locate cols x' (proj1 R) (length cols - 1) ltac:(lia) (proj2 R)) as (j & J & R').
      exists j. repeat split; try lia. right. left. lia.
    + refine (DX 0 _ _ _ E _ Q); [lia|]. intros y' R.
      destruct (locate rows y' (proj1 R) (length rows - 1) ltac:(lia) (proj2 R)) as (i & I & R').
      exists i. repeat split; try lia. left. reflexivity.
    + refine (DX (length cols - 1) _ _ _ E _ Q); [lia|]. intros y' R.
      destruct (locate rows y' (proj1 R) (length rows - 1) ltac:(lia) (proj2 R)) as (i & I & R').
      exists i. repeat split; try lia. right. left. lia.
    + apply in_range in J. unfold occ_col_calls in Q. cbv zeta in Q.
      rewrite lit_if, Nat.leb_gt, lit_flat in Q. destruct Q as (X0 & i & I & Q).
      apply in_seq in I. rewrite lit_if, negb_false_iff, different_iff, lit_down in Q by assumption.
      destruct Q as (N & E & Q). replace (i + 1) with (S i) in Q by lia.
      refine (DX j _ _ _ E _ Q); [lia|]. intros y' R. exists i. repeat split; try lia.
      right. right. exact N.
    + apply in_range in I. unfold occ_row_calls in Q. cbv zeta in Q.
      rewrite lit_if, Nat.leb_gt, lit_flat in Q. destruct Q as (Y0 & j & J & Q).
      apply in_seq in J. rewrite lit_if, negb_false_iff, different_iff, lit_across in Q by assumption.
      destruct Q as (N & E & Q). replace (j + 1) with (S j) in Q by lia.
      refine (AX i _ _ _ E _ Q); [lia|]. intros x' R. exists j. repeat split; try lia.
      right. right. exact N.
    + apply in_seq in I. unfold occ_junction_calls in Q.
      rewrite lit_if, Nat.leb_gt, lit_flat in Q. destruct Q as (Y0 & j & J & Q).
      apply in_seq in J. unfold occ_junction in Q. cbv zeta in Q.
      rewrite lit_if, Nat.leb_gt, lit_cons, lit_nil in Q. cbn [fst snd] in Q.
      destruct Q as (X0 & [(<- & <- & A) | []]).
      apply varm_leaves; auto; try lia.
      destruct s; cbn in A; cbn.
      * destruct (i =? 0) eqn:Ei; [contradiction|]. apply Nat.eqb_neq in Ei.
        exists (i - 1). split; [lia|]. unfold tall.
        destruct (j =? 0) eqn:Ej; cbn in A; [apply Nat.eqb_eq in Ej; auto|].
        destruct (j =? length cols - 1) eqn:Ej'; [apply Nat.eqb_eq in Ej'; right; left; lia|].
        destruct (different_occupant _ _ _ _ _) eqn:D; [|contradiction].
        apply different_iff in D. auto.
      * destruct (j =? length cols - 1) eqn:Ei; [contradiction|]. apply Nat.eqb_neq in Ei.
        split; [lia|]. unfold wide.
        destruct (i =? 0) eqn:Ej; cbn in A; [apply Nat.eqb_eq in Ej; auto|].
        destruct (i =? length rows - 1) eqn:Ej'; [apply Nat.eqb_eq in Ej'; right; left; lia|].
        destruct (different_occupant _ _ _ _ _) eqn:D; [|contradiction].
        apply different_iff in D. auto.
      * destruct (i =? length rows - 1) eqn:Ei; [contradiction|]. apply Nat.eqb_neq in Ei.
        split; [lia|]. unfold tall.
        destruct (j =? 0) eqn:Ej; cbn in A; [apply Nat.eqb_eq in Ej; auto|].
        destruct (j =? length cols - 1) eqn:Ej'; [apply Nat.eqb_eq in Ej'; right; left; lia|].
        destruct (different_occupant _ _ _ _ _) eqn:D; [|contradiction].
        apply different_iff in D. auto.
      * destruct (j =? 0) eqn:Ei; [contradiction|]. apply Nat.eqb_neq in Ei.
        exists (j - 1). split; [lia|]. unfold wide.
        destruct (i =? 0) eqn:Ej; cbn in A; [apply Nat.eqb_eq in Ej; auto|].
        destruct (i =? length rows - 1) eqn:Ej'; [apply Nat.eqb_eq in Ej'; right; left; lia|].
        destruct (different_occupant _ _ _ _ _) eqn:D; [|contradiction].
        apply different_iff in D. auto.
  - (* every wanted stroke is drawn *)
    assert (HX : forall i j, i < length rows -> S j < length cols -> y = nth i rows 0 -> wide i j ->
      (s = Rightwards /\ nth j cols 0 <= x < nth (S j) cols 0)
      \/ (s = Leftwards /\ nth j cols 0 < x <= nth (S j) cols 0) ->
      (y = nth 0 rows 0 /\ ((s = Rightwards /\ nth 0 cols 0 <= x < nth (length cols - 1) cols 0)
                       \/ (s = Leftwards /\ nth 0 cols 0 < x <= nth (length cols - 1) cols 0)))
      \/ (y = nth (length rows - 1) rows 0 /\ ((s = Rightwards /\ nth 0 cols 0 <= x < nth (length cols - 1) cols 0)
                       \/ (s = Leftwards /\ nth 0 cols 0 < x <= nth (length cols - 1) cols 0)))
      \/ exists i, In i (range 1 (length rows - 1)) /\ lit (occ_row_calls h w lt cols rows occ i) x y s).
    { intros i j I J E W Q.
      pose proof (first_le cols j IC ltac:(lia)). pose proof (last_ge cols (S j) IC ltac:(lia)).
      destruct (Nat.eq_dec i 0) as [-> | N0].
      { left. split; [exact E|]. destruct Q as [(-> & Q) | (-> & Q)]; [left | right]; (split; [auto|lia]). }
      destruct (Nat.eq_dec (S i) (length rows)) as [E1 | N1].
      { right. left. split; [rewrite <- E1; replace (S i - 1) with i by lia; exact E|].
        destruct Q as [(-> & Q) | (-> & Q)]; [left | right]; (split; [auto|lia]). }
      right. right. exists i. split; [apply in_range; lia|].
      unfold occ_row_calls. cbv zeta. rewrite lit_if, Nat.leb_gt, lit_flat.
      split; [lia|]. exists j. split; [apply in_seq; lia|].
      rewrite lit_if, negb_false_iff, different_iff, lit_across by assumption.
      replace (j + 1) with (S j) by lia.
      split; [|auto]. destruct W as [W | [W | W]]; [lia | lia | exact W]. }
    assert (VX : forall i j, S i < length rows -> j < length cols -> x = nth j cols 0 -> tall i j ->
      (s = Below /\ nth i rows 0 <= y < nth (S i) rows 0)
      \/ (s = Above /\ nth i rows 0 < y <= nth (S i) rows 0) ->
      (x = nth 0 cols 0 /\ ((s = Below /\ nth 0 rows 0 <= y < nth (length rows - 1) rows 0)
                       \/ (s = Above /\ nth 0 rows 0 < y <= nth (length rows - 1) rows 0)))
      \/ (x = nth (length cols - 1) cols 0 /\ ((s = Below /\ nth 0 rows 0 <= y < nth (length rows - 1) rows 0)
                       \/ (s = Above /\ nth 0 rows 0 < y <= nth (length rows - 1) rows 0)))
      \/ exists j, In j (range 1 (length cols - 1)) /\ lit (occ_col_calls h w lt cols rows occ j) x y s).
    { intros i j I J E W Q.
      pose proof (first_le rows i IR ltac:(lia)). pose proof (last_ge rows (S i) IR ltac:(lia)).
      destruct (Nat.eq_dec j 0) as [-> | N0].
      { left. split; [exact E|]. destruct Q as [(-> & Q) | (-> & Q)]; [left | right]; (split; [auto|lia]). }
      destruct (Nat.eq_dec (S j) (length cols)) as [E1 | N1].
      { right. left. split; [rewrite <- E1; replace (S j - 1) with j by lia; exact E|].
        destruct Q as [(-> & Q) | (-> & Q)]; [left | right]; (split; [auto|lia]). }
      right. right. exists j. split; [apply in_range; lia|].
      unfold occ_col_calls. cbv zeta. rewrite lit_if, Nat.leb_gt, lit_flat.
      split; [lia|]. exists i. split; [apply in_seq; lia|].
      rewrite lit_if, negb_false_iff, different_iff, lit_down by assumption.
      replace (i + 1) with (S i) by lia.
      split; [|auto]. destruct W as [W | [W | W]]; [lia | lia | exact W]. }
    intros Q. destruct s; cbn in Q.
    + destruct Q as (y' & Ey & i & j & I & J & E & R & T).
      destruct (VX i j I J E T ltac:(right; split; [auto|lia])) as [Q | [Q | Q]].
      * left. right. right. left. split; [|exact Q]. now rewrite <- (proj1 Q).
      * left. right. right. right. split; [|exact Q]. now rewrite <- (proj1 Q).
      * right. left. exact Q.
    + destruct Q as (i & j & I & J & E & R & T).
      destruct (HX i j I J E T ltac:(left; split; [auto|lia])) as [Q | [Q | Q]].
      * left. left. split; [|exact Q]. now rewrite <- (proj1 Q).
      * left. right. left. split; [|exact Q]. now rewrite <- (proj1 Q).
      * right. right. left. exact Q.
    + destruct Q as (i & j & I & J & E & R & T).
      destruct (VX i j I J E T ltac:(left; split; [auto|lia])) as [Q | [Q | Q]].
      * left. right. right. left. split; [|exact Q]. now rewrite <- (proj1 Q).
      * left. right. right. right. split; [|exact Q]. now rewrite <- (proj1 Q).
      * right. left. exact Q.
    + destruct Q as (x' & Ex & i & j & I & J & E & R & T).
      destruct (HX i j I J E T ltac:(right; split; [auto|lia])) as [Q | [Q | Q]].
      * left. left. split; [|exact Q]. now rewrite <- (proj1 Q).
      * left. right. left. split; [|exact Q]. now rewrite <- (proj1 Q).
      * right. right. left. exact Q.
Qed.
