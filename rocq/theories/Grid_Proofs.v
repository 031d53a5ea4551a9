From Coq Require Import ZArith QArith Qround List Bool Arith Lia Lqa.
From Verif Require Import Fraction_Model Fraction_Spec Fraction_Proofs Canvas_Model Layout_Model Layout_Spec Layout_Proofs Grid_Model Grid_Spec.
Import ListNotations.
Open Scope nat_scope.

Lemma in_rect_iff : forall row col rs cs r c,
  in_rect row col rs cs r c = true <-> row <= r < row + rs /\ col <= c < col + cs.
Proof.
  intros. unfold in_rect. rewrite !andb_true_iff, !Nat.leb_le, !Nat.ltb_lt. lia.
Qed.

(** ** Finding a free cell *)
Lemma scan_row_some : forall n o row col c, scan_row n o row col = Some c ->
  col <= c < col + n /\ o_cells o row c = false /\ forall c', col <= c' < c -> o_cells o row c' = true.
Proof.
  induction n as [|n IH]; intros o row col c H; simpl in H; [discriminate|].
  destruct (o_cells o row col) eqn:E.
  - destruct (IH _ _ _ _ H) as (A & B & C). split; [lia|]. split; auto.
    intros c' Hc. destruct (Nat.eq_dec c' col); [subst; auto|]. apply C; lia.
  - injection H as <-. split; [lia|]. split; auto. intros; lia.
Qed.
Lemma scan_row_none : forall n o row col, scan_row n o row col = None ->
  forall c', col <= c' < col + n -> o_cells o row c' = true.
Proof.
  induction n as [|n IH]; intros o row col H c' Hc; simpl in H; [lia|].
  destruct (o_cells o row col) eqn:E; [|discriminate].
  destruct (Nat.eq_dec c' col); [subst; auto|]. apply (IH o row (S col)); auto; lia.
Qed.

Definition at_or_after (r c r' c' : nat) : Prop := r < r' \/ (r = r' /\ c <= c').

Lemma scan_rows_some : forall n o row col r c, scan_rows n o row col = Some (r, c) ->
  row <= r < row + n /\ c < o_cols o /\ o_cells o r c = false /\ at_or_after row col r c /\
  forall r' c', at_or_after row col r' c' -> earlier r' c' r c -> c' < o_cols o -> o_cells o r' c' = true.
Proof.
  induction n as [|n IH]; intros o row col r c H; simpl in H; [discriminate|].
  destruct (scan_row (o_cols o - col) o row col) as [c0|] eqn:E.
  - injection H as <- <-. apply scan_row_some in E. destruct E as (A & B & C).
    split; [lia|]. split; [lia|]. split; auto. split; [right; lia|].
    intros r' c' [G|[G1 G2]] [K|[K1 K2]] Hc'; try lia. subst. apply C. lia.
  - apply IH in H. destruct H as (A & B & C & D & F). split; [lia|]. split; auto. split; auto.
    split; [left; lia|].
    intros r' c' [G|[G1 G2]] K Hc'.
    + apply F; auto. destruct (Nat.eq_dec r' (S row)); [right; lia|left; lia].
    + subst r'. eapply scan_row_none; eauto. lia.
Qed.
Lemma scan_rows_none : forall n o row col, scan_rows n o row col = None ->
  forall r' c', row <= r' < row + n -> at_or_after row col r' c' -> c' < o_cols o -> o_cells o r' c' = true.
Proof.
  induction n as [|n IH]; intros o row col H r' c' Hr Ha Hc; simpl in H; [lia|].
  destruct (scan_row (o_cols o - col) o row col) as [c0|] eqn:E; [discriminate|].
  destruct (Nat.eq_dec r' row) as [->|Hne].
  - destruct Ha as [Ha|[_ Ha]]; [lia|]. eapply scan_row_none; eauto. lia.
  - apply (IH o (S row) 0 H r' c'); auto; [lia|]. destruct (Nat.eq_dec r' (S row)); [right; lia|left; lia].
Qed.

Lemma scan_rows_none_conv : forall n o row col,
  (forall r' c', row <= r' < row + n -> at_or_after row col r' c' -> c' < o_cols o -> o_cells o r' c' = true) ->
  scan_rows n o row col = None.
Proof.
  intros n o row col H. destruct (scan_rows n o row col) as [[r c]|] eqn:E; auto.
  apply scan_rows_some in E. destruct E as (A & B & C & D & _). rewrite H in C; auto. discriminate.
Qed.

Definition free (o : occupancy) (q : rect) : Prop := forall r c, covers q r c -> o_cells o r c = false.

Lemma can_fit_true : forall o row col rs cs, can_fit o row col rs cs = true ->
  row + rs <= o_rows o /\ col + cs <= o_cols o /\ free o (Rect row col rs cs).
Proof.
  intros o row col rs cs H. unfold can_fit in H.
  destruct (Nat.ltb_spec (o_rows o) (row + rs)); [discriminate|].
  destruct (Nat.ltb_spec (o_cols o) (col + cs)); [discriminate|]. simpl in H.
  split; [lia|]. split; [lia|]. intros r c [A B]. simpl in A, B.
  rewrite forallb_forall in H. specialize (H r). rewrite in_seq in H. specialize (H A).
  rewrite forallb_forall in H. specialize (H c). rewrite in_seq in H. specialize (H B).
  apply negb_true_iff in H. auto.
Qed.

Lemma advance_after : forall cols r c r' c', advance cols r c = (r', c') -> earlier r c r' c'.
Proof.
  intros cols r c r' c' H. unfold advance in H. destruct (cols <=? S c); injection H as <- <-.
  - left; lia.
  - right; lia.
Qed.

Lemma place_child_some : forall f o row col rs cs q cur o',
  1 <= rs -> 1 <= cs ->
  place_child f o row col rs cs = (Some q, cur, o') ->
  in_grid (o_rows o) (o_cols o) q /\ free o q /\ at_or_after row col (rc_row q) (rc_col q) /\
  rc_rs q = Nat.min rs (o_rows o - rc_row q) /\ rc_cs q = Nat.min cs (o_cols o - rc_col q) /\
  cur = advance (o_cols o) (rc_row q) (rc_col q) /\
  o' = occupy o (rc_row q) (rc_col q) (rc_rs q) (rc_cs q).
Proof.
  induction f as [|f IH]; intros o row col rs cs q cur o' Hrs Hcs H; simpl in H; [discriminate|].
  destruct (find_next_free o row col) as [[r c]|] eqn:E; [|discriminate].
  unfold find_next_free in E. apply scan_rows_some in E. destruct E as (A & B & C & D & F).
  destruct (can_fit o r c _ _) eqn:K.
  - injection H as <- <- <-. apply can_fit_true in K. destruct K as (K1 & K2 & K3). simpl.
    split. { unfold in_grid; simpl. repeat split; lia. }
    split; [exact K3|]. split; [exact D|]. repeat split; auto.
  - destruct (advance (o_cols o) r c) as [r' c'] eqn:EA.
    pose proof (advance_after _ _ _ _ _ EA) as G.
    destruct (IH _ _ _ _ _ _ _ _ Hrs Hcs H) as (P1 & P2 & P3 & P4).
    split; auto. split; auto. split; auto.
    destruct D as [D|[D1 D2]]; destruct G as [G|[G1 G2]]; destruct P3 as [P3|[P3 P3']]; unfold at_or_after; lia.
Qed.

Lemma occupy_covers : forall o q r c, in_grid (o_rows o) (o_cols o) q -> covers q r c ->
  o_cells (occupy o (rc_row q) (rc_col q) (rc_rs q) (rc_cs q)) r c = true.
Proof.
  intros o q r c (A & B & C & D) [E F]. unfold occupy; simpl.
  assert (in_rect (rc_row q) (rc_col q) (rc_rs q) (rc_cs q) r c = true) as -> by (apply in_rect_iff; lia).
  destruct (Nat.ltb_spec r (o_rows o)); [|lia]. destruct (Nat.ltb_spec c (o_cols o)); [|lia]. reflexivity.
Qed.
Lemma occupy_keeps : forall o row col rs cs r c, o_cells o r c = true -> o_cells (occupy o row col rs cs) r c = true.
Proof. intros. unfold occupy; simpl. destruct (_ && _); auto. Qed.
Lemma occupy_free : forall o row col rs cs r c, o_cells (occupy o row col rs cs) r c = false -> o_cells o r c = false.
Proof. intros o row col rs cs r c H. unfold occupy in H; simpl in H. destruct (_ && _); [discriminate|auto]. Qed.

Lemma span_of_pos : forall n, 1 <= span_of n.
Proof. intros; unfold span_of; lia. Qed.

Lemma grid_cells_spec : forall spans o row col q i, nth_error (grid_cells o row col spans) i = Some q ->
  in_grid (o_rows o) (o_cols o) q /\ free o q /\ at_or_after row col (rc_row q) (rc_col q) /\
  exists want, nth_error spans i = Some want /\ spans_cut (o_rows o) (o_cols o) want q.
Proof.
  induction spans as [|[rs cs] spans IH]; intros o row col q i H; [destruct i; discriminate|].
  cbn [grid_cells] in H.
  destruct (place_child (place_fuel o) o row col (span_of rs) (span_of cs)) as [[p [row' col']] o'] eqn:E.
  destruct p as [q0|]; [|destruct i; discriminate].
  pose proof (place_child_some _ _ _ _ _ _ _ _ _ (span_of_pos rs) (span_of_pos cs) E) as (A & B & C & D1 & D2 & F & G).
  destruct i as [|i]; cbn [nth_error] in H |- *.
  - injection H as <-. split; auto. split; auto. split; auto.
    exists (rs, cs). split; auto. split; auto.
  - destruct (o_rows o <=? row'); [destruct i; discriminate|].
    assert (Er : o_rows o' = o_rows o) by (subst o'; reflexivity).
    assert (Ec : o_cols o' = o_cols o) by (subst o'; reflexivity).
    destruct (IH o' row' col' q i H) as (P1 & P2 & P3 & P4). rewrite Er, Ec in *.
    split; auto. split; [|split; auto].
    + intros r c Hc. specialize (P2 r c Hc). subst o'. eapply occupy_free; eauto.
    + pose proof (advance_after _ _ _ _ _ (eq_sym F)) as K.
      destruct C as [C|[C1 C2]]; destruct K as [K|[K1 K2]]; destruct P3 as [P3|[P3 P3']]; unfold at_or_after; lia.
Qed.

Lemma grid_cells_pairs : forall spans o row col i j q q', i < j ->
  nth_error (grid_cells o row col spans) i = Some q -> nth_error (grid_cells o row col spans) j = Some q' ->
  (forall r c, ~ (covers q r c /\ covers q' r c)) /\ earlier (rc_row q) (rc_col q) (rc_row q') (rc_col q').
Proof.
  induction spans as [|[rs cs] spans IH]; intros o row col i j q q' Hij Hi Hj; [destruct i; discriminate|].
  cbn [grid_cells] in Hi, Hj.
  destruct (place_child (place_fuel o) o row col (span_of rs) (span_of cs)) as [[p [row' col']] o'] eqn:E.
  destruct p as [q0|]; [|destruct i; discriminate].
  pose proof (place_child_some _ _ _ _ _ _ _ _ _ (span_of_pos rs) (span_of_pos cs) E) as (A & B & C & D1 & D2 & F & G).
  destruct j as [|j]; [lia|]. cbn [nth_error] in Hj.
  destruct (o_rows o <=? row'); [destruct j; discriminate|].
  destruct i as [|i]; cbn [nth_error] in Hi.
  - injection Hi as <-. destruct (grid_cells_spec _ _ _ _ _ _ Hj) as (P1 & P2 & P3 & P4). split.
    + intros r c [K1 K2]. specialize (P2 r c K2). subst o'. rewrite occupy_covers in P2; auto. discriminate.
    + pose proof (advance_after _ _ _ _ _ (eq_sym F)) as K.
      destruct K as [K|[K1 K2]]; destruct P3 as [P3|[P3 P3']]; unfold earlier; lia.
  - eapply IH; [|exact Hi|exact Hj]. lia.
Qed.

(** ** The search never runs out of fuel *)
Definition idx (cols row col : nat) : nat := row * cols + col.

Lemma advance_idx : forall cols r c, c < cols ->
  let p := advance cols r c in idx cols (fst p) (snd p) = S (idx cols r c) /\ (snd p < cols).
Proof.
  intros cols r c H. unfold advance, idx. destruct (Nat.leb_spec cols (S c)); simpl; [|lia].
  assert (cols = S c) by lia. subst. lia.
Qed.

Lemma at_or_after_idx : forall cols r c r' c', c <= cols -> at_or_after r c r' c' -> idx cols r c <= idx cols r' c'.
Proof.
  intros cols r c r' c' Hc [H|[H1 H2]]; unfold idx; [|subst; lia].
  assert (S r * cols <= r' * cols) by (apply Nat.mul_le_mono_r; lia). simpl in H0. lia.
Qed.

Lemma place_child_fuel : forall f f' o row col rs cs, col <= o_cols o ->
  o_rows o * o_cols o < f + idx (o_cols o) row col -> f <= f' ->
  place_child f' o row col rs cs = place_child f o row col rs cs.
Proof.
  induction f as [|f IH]; intros f' o row col rs cs Hcol Hf Hle.
  - destruct f' as [|f']; [reflexivity|]. simpl.
    destruct (find_next_free o row col) as [[r c]|] eqn:E; [|reflexivity]. exfalso.
    unfold find_next_free in E. apply scan_rows_some in E. destruct E as (A & B & C & D & F).
    apply (at_or_after_idx (o_cols o)) in D; [|lia]. unfold idx in *.
    assert (S r * o_cols o <= o_rows o * o_cols o) by (apply Nat.mul_le_mono_r; lia). simpl in H. lia.
  - destruct f' as [|f']; [lia|]. cbn [place_child].
    destruct (find_next_free o row col) as [[r c]|] eqn:E; [|reflexivity].
    destruct (can_fit o r c _ _) eqn:K; [reflexivity|].
    unfold find_next_free in E. apply scan_rows_some in E. destruct E as (A & B & C & D & F).
    pose proof (advance_idx (o_cols o) r c B) as G. destruct (advance (o_cols o) r c) as [r' c'] eqn:EA. simpl in G.
    apply (at_or_after_idx (o_cols o)) in D; [|lia].
    apply IH; try lia.
Qed.

Lemma place_child_none : forall f o row col rs cs cur o', col <= o_cols o ->
  o_rows o * o_cols o < f + idx (o_cols o) row col ->
  place_child f o row col rs cs = (None, cur, o') ->
  o' = o /\ snd cur <= o_cols o /\ find_next_free o (fst cur) (snd cur) = None.
Proof.
  induction f as [|f IH]; intros o row col rs cs cur o' Hcol Hf H.
  - simpl in H. injection H as <- <-. split; auto. split; auto. simpl.
    destruct (find_next_free o row col) as [[r c]|] eqn:E; [|reflexivity]. exfalso.
    unfold find_next_free in E. apply scan_rows_some in E. destruct E as (A & B & C & D & F).
    apply (at_or_after_idx (o_cols o)) in D; [|lia]. unfold idx in *.
    assert (S r * o_cols o <= o_rows o * o_cols o) by (apply Nat.mul_le_mono_r; lia). simpl in H. lia.
  - cbn [place_child] in H. destruct (find_next_free o row col) as [[r c]|] eqn:E.
    + destruct (can_fit o r c _ _) eqn:K; [discriminate|].
      unfold find_next_free in E. apply scan_rows_some in E. destruct E as (A & B & C & D & F).
      pose proof (advance_idx (o_cols o) r c B) as G. destruct (advance (o_cols o) r c) as [r' c'] eqn:EA. simpl in G.
      apply (at_or_after_idx (o_cols o)) in D; [|lia].
      eapply IH; [| |exact H]; lia.
    + injection H as <- <-. auto.
Qed.

Lemma place_child_full : forall f o row col rs cs, find_next_free o row col = None ->
  place_child f o row col rs cs = (None, (row, col), o).
Proof. intros [|f] o row col rs cs H; simpl; auto. rewrite H. reflexivity. Qed.

Lemma assign_cells_full : forall spans o row col, find_next_free o row col = None ->
  Forall (fun q => q = Rect 0 0 0 0) (assign_cells o row col spans).
Proof.
  induction spans as [|[rs cs] spans IH]; intros o row col H; cbn [assign_cells]; [constructor|].
  rewrite place_child_full by auto. constructor; auto. destruct (_ <=? _); auto.
Qed.

(** The keyline assignments are the placements followed by empty rectangles *)
Lemma assign_grid : forall spans o row col, col <= o_cols o ->
  exists rest, assign_cells o row col spans = grid_cells o row col spans ++ rest /\
    Forall (fun q => q = Rect 0 0 0 0) rest.
Proof.
  induction spans as [|[rs cs] spans IH]; intros o row col Hcol; cbn [assign_cells grid_cells].
  - exists []. split; auto.
  - destruct (place_child (place_fuel o) o row col (span_of rs) (span_of cs)) as [[p [row' col']] o'] eqn:E.
    destruct p as [q0|].
    + pose proof (place_child_some _ _ _ _ _ _ _ _ _ (span_of_pos rs) (span_of_pos cs) E) as (A & B & C & D1 & D2 & F & G).
      destruct (o_rows o <=? row').
      * exists []. split; auto.
      * destruct (IH o' row' col') as (rest & R1 & R2).
        { subst o'. simpl. destruct A as (A1 & A2 & A3 & A4).
          pose proof (advance_idx (o_cols o) (rc_row q0) (rc_col q0) ltac:(lia)) as [_ K]. rewrite <- F in K. simpl in K. lia. }
        exists rest. rewrite R1. split; auto.
    + assert (HF : o_rows o * o_cols o < place_fuel o + idx (o_cols o) row col) by (unfold place_fuel; lia).
      destruct (place_child_none _ _ _ _ _ _ _ _ Hcol HF E) as (K1 & K2 & K3). subst o'. simpl in K3.
      eexists. split; [simpl; reflexivity|]. constructor; auto.
      destruct (o_rows o <=? row'); auto. apply assign_cells_full; auto.
Qed.

(** ** Unit spans fill the grid in row-major order *)
Definition filled (o : occupancy) (k : nat) : Prop :=
  forall r c, r < o_rows o -> c < o_cols o -> o_cells o r c = (idx (o_cols o) r c <? k).

Lemma idx_div : forall cols k, cols <> 0 -> idx cols (k / cols) (k mod cols) = k.
Proof. intros. unfold idx. rewrite Nat.mul_comm. symmetry. apply Nat.div_mod. auto. Qed.

Lemma idx_inj : forall cols r c r' c', c < cols -> c' < cols -> idx cols r c = idx cols r' c' -> r = r' /\ c = c'.
Proof.
  intros cols r c r' c' H H' E. unfold idx in E.
  assert (r = r').
  { destruct (lt_eq_lt_dec r r') as [[L|L]|L]; auto; exfalso.
    - assert (S r * cols <= r' * cols) by (apply Nat.mul_le_mono_r; lia). simpl in H0. lia.
    - assert (S r' * cols <= r * cols) by (apply Nat.mul_le_mono_r; lia). simpl in H0. lia. }
  subst. lia.
Qed.

Lemma scan_here : forall o r c, r < o_rows o -> c < o_cols o -> o_cells o r c = false -> find_next_free o r c = Some (r, c).
Proof.
  intros o r c Hr Hc H. unfold find_next_free.
  destruct (o_rows o - r) as [|n] eqn:E; [lia|]. cbn [scan_rows].
  destruct (o_cols o - c) as [|m] eqn:E2; [lia|]. cbn [scan_row]. rewrite H. reflexivity.
Qed.

Lemma unit_place : forall o k, filled o k -> k < o_rows o * o_cols o ->
  let r := k / o_cols o in let c := k mod o_cols o in
  place_child (place_fuel o) o r c 1 1 = (Some (Rect r c 1 1), advance (o_cols o) r c, occupy o r c 1 1).
Proof.
  intros o k Hf Hk r c. assert (Hc0 : o_cols o <> 0) by (intro E; rewrite E in Hk; lia).
  assert (Hc : c < o_cols o) by (apply Nat.mod_upper_bound; auto).
  assert (Hr : r < o_rows o) by (apply Nat.div_lt_upper_bound; [auto|lia]).
  assert (Hfree : o_cells o r c = false).
  { rewrite Hf by auto. unfold r, c. rewrite idx_div by auto. apply Nat.ltb_irrefl. }
  unfold place_fuel. cbn [place_child]. rewrite scan_here by auto.
  replace (Nat.min 1 (o_cols o - c)) with 1 by lia. replace (Nat.min 1 (o_rows o - r)) with 1 by lia.
  assert (K : can_fit o r c 1 1 = true).
  { unfold can_fit. destruct (Nat.ltb_spec (o_rows o) (r + 1)); [lia|]. destruct (Nat.ltb_spec (o_cols o) (c + 1)); [lia|].
    simpl. rewrite Hfree. reflexivity. }
  rewrite K. reflexivity.
Qed.

Lemma filled_step : forall o k, filled o k -> k < o_rows o * o_cols o ->
  filled (occupy o (k / o_cols o) (k mod o_cols o) 1 1) (S k).
Proof.
  intros o k Hf Hk r c Hr Hc. simpl in Hr, Hc. assert (Hc0 : o_cols o <> 0) by lia.
  cbn [occupy o_cells o_cols].
  destruct (Nat.ltb_spec r (o_rows o)); [|lia]. destruct (Nat.ltb_spec c (o_cols o)); [|lia].
  rewrite !andb_true_r.
  destruct (in_rect (k / o_cols o) (k mod o_cols o) 1 1 r c) eqn:E.
  - apply in_rect_iff in E. assert (r = k / o_cols o) by lia. assert (c = k mod o_cols o) by lia.
    subst r c. rewrite idx_div by auto. symmetry. apply Nat.ltb_lt. lia.
  - rewrite Hf by auto. apply eq_true_iff_eq. rewrite !Nat.ltb_lt.
    split; [lia|]. intros L. assert (idx (o_cols o) r c <> k); [|lia].
    intro EI. rewrite <- (idx_div (o_cols o) k) in EI by auto.
    apply idx_inj in EI; [|auto|apply Nat.mod_upper_bound; auto]. destruct EI as [-> ->].
    rewrite (proj2 (in_rect_iff _ _ _ _ _ _)) in E; [discriminate|lia].
Qed.

Lemma advance_div : forall cols k, cols <> 0 -> advance cols (k / cols) (k mod cols) = (S k / cols, S k mod cols).
Proof.
  intros cols k Hc. pose proof (Nat.mod_upper_bound k cols Hc) as Hm.
  pose proof (advance_idx cols (k / cols) (k mod cols) Hm) as [A B].
  rewrite idx_div in A by auto. destruct (advance cols (k / cols) (k mod cols)) as [r c]. simpl in A, B.
  rewrite <- A. unfold idx. rewrite (Nat.add_comm (r * cols)), Nat.div_add, Nat.mod_add, Nat.div_small, Nat.mod_small; auto.
Qed.

Lemma unit_cells : forall spans o k, filled o k -> k <= o_rows o * o_cols o -> 0 < o_rows o -> 0 < o_cols o ->
  k < o_rows o * o_cols o \/ spans = [] ->
  Forall (fun s => fst s <= 1 /\ snd s <= 1) spans ->
  grid_cells o (k / o_cols o) (k mod o_cols o) spans
  = map (fun i => Rect (i / o_cols o) (i mod o_cols o) 1 1) (seq k (Nat.min (length spans) (o_rows o * o_cols o - k))).
Proof.
  induction spans as [|[rs cs] spans IH]; intros o k Hf Hk Hr Hc Hlt Hs; [reflexivity|].
  destruct Hlt as [Hlt|]; [|discriminate].
  pose proof (Forall_inv Hs) as [S1 S2]. simpl in S1, S2. pose proof (Forall_inv_tail Hs) as HT.
  cbn [grid_cells]. replace (span_of rs) with 1 by (unfold span_of; lia). replace (span_of cs) with 1 by (unfold span_of; lia).
  rewrite unit_place by auto. rewrite advance_div by lia.
  cbn [length]. replace (Nat.min (S (length spans)) (o_rows o * o_cols o - k))
    with (S (Nat.min (length spans) (o_rows o * o_cols o - S k))) by lia.
  cbn [seq map]. f_equal.
  set (o' := occupy o (k / o_cols o) (k mod o_cols o) 1 1).
  assert (Hf' : filled o' (S k)) by (apply filled_step; auto).
  destruct (Nat.leb_spec (o_rows o) (S k / o_cols o)) as [L|L].
  - assert (o_rows o * o_cols o <= S k).
    { assert (o_cols o * o_rows o <= o_cols o * (S k / o_cols o)) by (apply Nat.mul_le_mono_l; auto).
      pose proof (Nat.mul_div_le (S k) (o_cols o) ltac:(lia)). lia. }
    replace (Nat.min (length spans) (o_rows o * o_cols o - S k)) with 0 by lia. reflexivity.
  - assert (S k < o_rows o * o_cols o).
    { pose proof (Nat.mul_succ_div_gt (S k) (o_cols o) ltac:(lia)).
      assert (o_cols o * S (S k / o_cols o) <= o_cols o * o_rows o) by (apply Nat.mul_le_mono_l; lia). lia. }
    change (o_cols o) with (o_cols o'). change (o_rows o) with (o_rows o').
    apply IH; auto; simpl; try lia.
Qed.

(** Enough rows for everything when the row count is automatic *)
Lemma auto_rows_enough : forall cols n, 0 < cols -> n <= row_count None cols n * cols.
Proof.
  intros cols n H. unfold row_count. destruct (Nat.eqb_spec cols 0); [lia|].
  pose proof (Nat.mul_succ_div_gt (n + cols - 1) cols ltac:(lia)). 
  rewrite Nat.mul_succ_r in H0. rewrite (Nat.mul_comm _ cols). lia.
Qed.

(** ** Tracks *)
Open Scope Z_scope.
Local Arguments Z.add : simpl never.
Local Arguments Z.sub : simpl never.
Local Arguments Z.mul : simpl never.
Local Arguments Z.max : simpl never.
Local Arguments Z.of_nat : simpl never.

Lemma tracks_from_length : forall sizes off g, length (tracks_from off g sizes) = length sizes.
Proof. induction sizes; intros; simpl; auto. Qed.

Lemma tracks_from_sizes : forall sizes off g, map t_size (tracks_from off g sizes) = sizes.
Proof. induction sizes; intros; simpl; f_equal; auto. Qed.

Lemma tracks_from_nth : forall sizes off g i z, nth_error sizes i = Some z ->
  nth_error (tracks_from off g sizes) i = Some (Track (off + start_of sizes g i) z).
Proof.
  induction sizes as [|x sizes IH]; intros off g [|i] z H; simpl in *; try discriminate.
  - injection H as ->. unfold start_of. simpl. f_equal. f_equal. lia.
  - rewrite (IH _ _ _ _ H). unfold start_of. cbn [firstn zsum]. f_equal. f_equal. lia.
Qed.

Lemma zsum_firstn_skipn : forall l n, zsum (firstn n l) + zsum (skipn n l) = zsum l.
Proof. intros. rewrite <- zsum_app, firstn_skipn. auto. Qed.
Lemma firstn_add : forall (A : Type) (l : list A) i n, firstn (i + n) l = firstn i l ++ firstn n (skipn i l).
Proof. induction l; intros [|i] n; simpl; auto; [rewrite !firstn_nil; auto|]. f_equal. auto. Qed.

Lemma start_extent : forall sizes g i n, start_of sizes g (i + n) = start_of sizes g i + extent_of sizes g i n + g.
Proof.
  intros. unfold start_of, extent_of. rewrite firstn_add, zsum_app. lia.
Qed.

Lemma skipn_map : forall (A B : Type) (f : A -> B) n l, skipn n (map f l) = map f (skipn n l).
Proof. induction n; intros [|x l]; simpl; auto. Qed.

Lemma track_start_eq : forall sizes g i, (i < length sizes)%nat -> track_start (tracks_from 0 g sizes) i = start_of sizes g i.
Proof.
  intros sizes g i H. destruct (nth_error_ex _ sizes i H) as [z Hz].
  unfold track_start. rewrite (tracks_from_nth _ 0 g _ _ Hz). simpl. lia.
Qed.

Lemma track_span_eq : forall sizes g i n, (1 <= n)%nat -> (i + n <= length sizes)%nat ->
  track_span (tracks_from 0 g sizes) i n g = extent_of sizes g i n.
Proof.
  intros sizes g i n Hn H. destruct (nth_error_ex _ sizes i ltac:(lia)) as [z Hz].
  unfold track_span. rewrite (tracks_from_nth _ 0 g _ _ Hz). rewrite tracks_from_length.
  rewrite Nat.min_l by lia.
  destruct (Nat.eq_dec (i + n) (length sizes)) as [E|NE].
  - assert (X : nth_error (tracks_from 0 g sizes) (i + n) = None)
      by (apply nth_error_None; rewrite tracks_from_length; lia).
    rewrite X. rewrite <- skipn_map, tracks_from_sizes, sumz_zsum.
    unfold extent_of. rewrite (firstn_all2 (n := n)) by (rewrite skipn_length; lia).
    replace (Z.of_nat (i + n - i - 1)) with (Z.of_nat n - 1) by lia. reflexivity.
  - destruct (nth_error_ex _ sizes (i + n) ltac:(lia)) as [z' Hz'].
    rewrite (tracks_from_nth _ 0 g _ _ Hz'). simpl. rewrite start_extent. lia.
Qed.

Lemma start_mono : forall sizes g i j, 0 <= g -> Forall (fun z => 0 <= z) sizes -> (i <= j)%nat ->
  start_of sizes g i <= start_of sizes g j.
Proof.
  intros sizes g i j Hg Hs Hij. unfold start_of.
  replace j with (i + (j - i))%nat by lia. rewrite firstn_add, zsum_app.
  assert (0 <= zsum (firstn (j - i) (skipn i sizes))).
  { generalize (j - i)%nat. intros n. clear - Hs.
    assert (H : Forall (fun z => 0 <= z) (skipn i sizes)).
    { revert i. induction Hs; intros [|i]; simpl; auto. }
    clear Hs. revert n. induction H; intros [|n]; simpl; try lia. specialize (IHForall n). lia. }
  nia.
Qed.

Lemma span_before : forall sizes g i n j, 0 <= g -> Forall (fun z => 0 <= z) sizes -> (i + n <= j)%nat ->
  start_of sizes g i + extent_of sizes g i n <= start_of sizes g j.
Proof.
  intros sizes g i n j Hg Hs H. pose proof (start_extent sizes g i n). pose proof (start_mono sizes g (i + n) j Hg Hs H). lia.
Qed.

Lemma cells_apart : forall cols rows a gh gv q q',
  0 <= gh -> 0 <= gv -> Forall (fun z => 0 <= z) cols -> Forall (fun z => 0 <= z) rows ->
  in_grid (length rows) (length cols) q -> in_grid (length rows) (length cols) q' ->
  (forall r c, ~ (covers q r c /\ covers q' r c)) ->
  apart (child_region q (tracks_from 0 gh cols) (tracks_from 0 gv rows) a gh gv)
        (child_region q' (tracks_from 0 gh cols) (tracks_from 0 gv rows) a gh gv).
Proof.
  intros cols rows a gh gv q q' Hgh Hgv Hc Hr (A1 & A2 & A3 & A4) (B1 & B2 & B3 & B4) Hd x y [[P1 P2] [P3 P4]].
  unfold child_region in *. simpl in *.
  rewrite !track_start_eq in * by lia. rewrite !track_span_eq in * by lia.
  (* some side is separated *)
  destruct (le_lt_dec (rc_col q + rc_cs q) (rc_col q')) as [L|L].
  { pose proof (span_before cols gh _ _ _ Hgh Hc L). lia. }
  destruct (le_lt_dec (rc_col q' + rc_cs q') (rc_col q)) as [L1|L1].
  { pose proof (span_before cols gh _ _ _ Hgh Hc L1). lia. }
  destruct (le_lt_dec (rc_row q + rc_rs q) (rc_row q')) as [L2|L2].
  { pose proof (span_before rows gv _ _ _ Hgv Hr L2). lia. }
  destruct (le_lt_dec (rc_row q' + rc_rs q') (rc_row q)) as [L3|L3].
  { pose proof (span_before rows gv _ _ _ Hgv Hr L3). lia. }
  apply (Hd (Nat.max (rc_row q) (rc_row q')) (Nat.max (rc_col q) (rc_col q'))).
  unfold covers. lia.
Qed.

(** ** Distribution of space *)
Lemma share_pass_length : forall fl sh l rem sizes, length sizes = length l -> length (share_pass fl sh rem l sizes) = length l.
Proof.
  induction l as [|s l IH]; intros rem [|z sizes] H; simpl in *; try discriminate; auto.
  destruct (fl s); simpl; f_equal; apply IH; lia.
Qed.
Lemma track_specs_length : forall specs n, length (track_specs specs n) = n.
Proof. intros. unfold track_specs. rewrite map_length, seq_length. auto. Qed.

Lemma distribute_length : forall specs n a g, length (distribute_space specs n a g) = n.
Proof.
  intros. unfold distribute_space. destruct (Nat.eqb_spec n 0); [subst; auto|].
  rewrite map_length.
  destruct (negb _); [apply eq_trans with (length (track_specs specs n)); [apply share_pass_length; rewrite map_length; auto|apply track_specs_length]|].
  destruct (0 <? _); [apply eq_trans with (length (track_specs specs n)); [apply share_pass_length; rewrite map_length; auto|apply track_specs_length]|].
  rewrite map_length. apply track_specs_length.
Qed.

Lemma distribute_pos : forall specs n a g, Forall (fun z => 1 <= z) (distribute_space specs n a g).
Proof.
  intros. unfold distribute_space. destruct (n =? 0)%nat; [constructor|].
  apply Forall_map. apply Forall_forall. intros z _. destruct (Z.ltb_spec z 1); lia.
Qed.

Definition flex_shares (fl : scalar -> bool) (sh : scalar -> fraction) (l : list scalar) : Q :=
  qsum (map (fun s => if fl s then value (sh s) else 0%Q) l).

Lemma share_pass_sum : forall fl sh l rem sizes,
  (forall s, fl s = true -> canonical (sh s)) -> canonical rem -> (0 <= value rem)%Q -> (value rem < 1)%Q ->
  length sizes = length l ->
  (forall i s, nth_error l i = Some s -> fl s = true -> nth_error sizes i = Some 0) ->
  zsum (share_pass fl sh rem l sizes) = zsum sizes + Qfloor (flex_shares fl sh l + value rem).
Proof.
  induction l as [|s l IH]; intros rem [|z sizes] Hsh Hc H0 H1 Hl Hz; try discriminate.
  - cbn [share_pass zsum flex_shares map qsum]. unfold flex_shares. cbn [map qsum].
    assert (E : Qfloor (0 + value rem) = Qfloor (value rem + 0)) by (apply Qfloor_proper; ring).
    rewrite E, floor_unit_0; auto.
  - injection Hl as Hl.
    assert (Hz' : forall i t, nth_error l i = Some t -> fl t = true -> nth_error sizes i = Some 0)
      by (intros i t Hi; apply (Hz (S i) t Hi)).
    cbn [share_pass]. unfold flex_shares. cbn [map qsum]. fold (flex_shares fl sh l). destruct (fl s) eqn:E.
    + assert (C : canonical (frac_add (sh s) rem)) by apply frac_new_canonical.
      destruct (frac_fract_range _ C) as [F0 F1]. cbn [zsum].
      rewrite IH; auto; [|apply frac_new_canonical].
      specialize (Hz 0%nat s eq_refl E). simpl in Hz. injection Hz as ->.
      rewrite frac_floor_value by auto.
      pose proof (frac_fract_value _ C) as E1. pose proof (frac_add_value _ _ (Hsh s E) Hc) as E2.
      set (F := Qfloor (value (frac_add (sh s) rem))) in *.
      assert (EF : Qfloor (value (sh s) + flex_shares fl sh l + value rem)
        = Qfloor (flex_shares fl sh l + value (frac_fract (frac_add (sh s) rem))) + F).
      { rewrite <- Qfloor_plus_int. apply Qfloor_proper. lra. }
      rewrite EF. lia.
    + cbn [zsum]. rewrite IH; auto.
      assert (EF : Qfloor (0 + flex_shares fl sh l + value rem) = Qfloor (flex_shares fl sh l + value rem))
        by (apply Qfloor_proper; ring). rewrite EF. lia.
Qed.

Lemma share_pass_each : forall fl sh l rem sizes i s z,
  (forall s, fl s = true -> canonical (sh s)) -> canonical rem -> (0 <= value rem)%Q -> (value rem < 1)%Q ->
  nth_error l i = Some s -> nth_error (share_pass fl sh rem l sizes) i = Some z ->
  if fl s then (inject_Z z - 1 < value (sh s))%Q /\ (value (sh s) < inject_Z z + 1)%Q
  else nth_error sizes i = Some z.
Proof.
  induction l as [|t l IH]; intros rem [|z0 sizes] i s z Hsh Hc H0 H1 Hi Hz; try (destruct i; discriminate).
  cbn [share_pass] in Hz. destruct i as [|i].
  - simpl in Hi. injection Hi as ->. destruct (fl s) eqn:E; simpl in Hz; injection Hz as <-; [|reflexivity].
    rewrite frac_floor_value by apply frac_new_canonical.
    pose proof (Qfloor_bounds (value (frac_add (sh s) rem))) as [A B].
    pose proof (frac_add_value _ _ (Hsh s E) Hc) as E2. lra.
  - simpl in Hi. destruct (fl t) eqn:E; simpl in Hz.
    + destruct (frac_fract_range (frac_add (sh t) rem)) as [F0 F1]; [apply frac_new_canonical|].
      eapply (IH _ sizes); [| | | |exact Hi|exact Hz]; auto. apply frac_new_canonical.
    + eapply (IH _ sizes); [| | | |exact Hi|exact Hz]; auto.
Qed.

(** ** First fit *)
Open Scope nat_scope.

Lemma can_fit_false : forall o row col rs cs, can_fit o row col rs cs = false ->
  row + rs <= o_rows o -> col + cs <= o_cols o ->
  exists r c, covers (Rect row col rs cs) r c /\ o_cells o r c = true.
Proof.
  intros o row col rs cs H H1 H2. unfold can_fit in H.
  destruct (Nat.ltb_spec (o_rows o) (row + rs)); [lia|]. destruct (Nat.ltb_spec (o_cols o) (col + cs)); [lia|].
  simpl in H.
  assert (G : forall l (f : nat -> bool), forallb f l = false -> exists x, In x l /\ f x = false).
  { induction l as [|x l IH]; intros f Hf; simpl in Hf; [discriminate|].
    destruct (f x) eqn:E; [|exists x; simpl; auto]. simpl in Hf. destruct (IH f Hf) as (y & Hy & Hy'). exists y. simpl; auto. }
  destruct (G _ _ H) as (r & Hr & Hr'). destruct (G _ _ Hr') as (c & Hc & Hc').
  rewrite in_seq in Hr, Hc. apply negb_false_iff in Hc'.
  exists r, c. split; [unfold covers; simpl; lia|auto].
Qed.

Definition cut_rect (o : occupancy) (r c rs cs : nat) : rect :=
  Rect r c (Nat.min rs (o_rows o - r)) (Nat.min cs (o_cols o - c)).

Lemma advance_next : forall cols r c r' c' r1 c1, advance cols r c = (r1, c1) -> earlier r c r' c' -> c' < cols ->
  at_or_after r1 c1 r' c'.
Proof.
  intros cols r c r' c' r1 c1 H E Hc. unfold advance in H. destruct (Nat.leb_spec cols (S c)); injection H as <- <-;
  destruct E as [E|[E1 E2]]; unfold at_or_after; lia.
Qed.

Lemma place_child_first : forall f o row col rs cs q cur o', 1 <= rs -> 1 <= cs ->
  place_child f o row col rs cs = (Some q, cur, o') ->
  forall r c, at_or_after row col r c -> earlier r c (rc_row q) (rc_col q) -> c < o_cols o ->
  exists r' c', covers (cut_rect o r c rs cs) r' c' /\ o_cells o r' c' = true.
Proof.
  induction f as [|f IH]; intros o row col rs cs q cur o' Hrs Hcs H r c Ha He Hc; simpl in H; [discriminate|].
  destruct (find_next_free o row col) as [[r0 c0]|] eqn:E; [|discriminate].
  unfold find_next_free in E. apply scan_rows_some in E. destruct E as (A & B & C & D & F).
  assert (Before : r < o_rows o -> earlier r c r0 c0 -> exists r' c', covers (cut_rect o r c rs cs) r' c' /\ o_cells o r' c' = true).
  { intros Hr Hb. exists r, c. split; [unfold covers, cut_rect; simpl; lia|]. apply F; auto. }
  destruct (can_fit o r0 c0 _ _) eqn:K.
  - injection H as <- <- <-. simpl in He. apply Before; auto. destruct He as [He|[He _]]; lia.
  - destruct (advance (o_cols o) r0 c0) as [r1 c1] eqn:EA.
    assert (Hq : rc_row q < o_rows o).
    { destruct (place_child_some _ _ _ _ _ _ _ _ _ Hrs Hcs H) as ((I1 & I2 & I3 & I4) & _). lia. }
    assert (Hr : r < o_rows o) by (destruct He as [He|[He _]]; lia).
    destruct (lt_eq_lt_dec r r0) as [[L|L]|L].
    + apply Before; auto. left; auto.
    + subst r0. destruct (lt_eq_lt_dec c c0) as [[L|L]|L].
      * apply Before; auto. right; auto.
      * subst c0. apply can_fit_false in K; [|lia|lia]. exact K.
      * eapply IH; eauto. eapply advance_next; [exact EA| |auto]. right; auto.
    + eapply IH; eauto. eapply advance_next; [exact EA| |auto]. left; auto.
Qed.

Lemma occupy_inv : forall o q r c, o_cells (occupy o (rc_row q) (rc_col q) (rc_rs q) (rc_cs q)) r c = true ->
  o_cells o r c = true \/ covers q r c.
Proof.
  intros o q r c H. unfold occupy in H; simpl in H.
  destruct (in_rect _ _ _ _ r c) eqn:E; [right; apply in_rect_iff in E; exact E|]. simpl in H. auto.
Qed.

Lemma grid_first_fit : forall spans o row col i q want,
  nth_error (grid_cells o row col spans) i = Some q -> nth_error spans i = Some want ->
  forall r c, c < o_cols o -> earlier r c (rc_row q) (rc_col q) ->
  match i with
  | 0 => at_or_after row col r c
  | S k => exists p, nth_error (grid_cells o row col spans) k = Some p /\ earlier (rc_row p) (rc_col p) r c
  end ->
  exists r' c', covers (cut_rect o r c (span_of (fst want)) (span_of (snd want))) r' c' /\
    (o_cells o r' c' = true \/ exists k p, k < i /\ nth_error (grid_cells o row col spans) k = Some p /\ covers p r' c').
Proof.
  induction spans as [|[rs cs] spans IH]; intros o row col i q want Hq Hw r c Hc He Hs; [destruct i; discriminate|].
  cbn [grid_cells] in Hq, Hs |- *.
  destruct (place_child (place_fuel o) o row col (span_of rs) (span_of cs)) as [[p [row' col']] o'] eqn:E.
  destruct p as [q0|]; [|destruct i; discriminate].
  pose proof (place_child_some _ _ _ _ _ _ _ _ _ (span_of_pos rs) (span_of_pos cs) E) as (A & B & C & D1 & D2 & F & G).
  destruct i as [|i].
  - cbn [nth_error] in Hq, Hw. injection Hq as <-. injection Hw as <-. simpl.
    destruct (place_child_first _ _ _ _ _ _ _ _ _ (span_of_pos rs) (span_of_pos cs) E r c Hs He Hc) as (r' & c' & K1 & K2).
    exists r', c'. auto.
  - cbn [nth_error] in Hq, Hw. destruct (o_rows o <=? row'); [destruct i; discriminate|].
    assert (Er : o_rows o' = o_rows o) by (subst o'; reflexivity).
    assert (Ec : o_cols o' = o_cols o) by (subst o'; reflexivity).
    destruct (IH o' row' col' i q want Hq Hw r c) as (r' & c' & K1 & K2); auto.
    { rewrite Ec; auto. }
    { destruct i as [|i].
      - destruct Hs as (p & Hp & Hb). simpl in Hp. injection Hp as <-.
        eapply advance_next; [symmetry; exact F|exact Hb|auto].
      - destruct Hs as (p & Hp & Hb). exists p. split; [exact Hp|exact Hb]. }
    exists r', c'. split; [unfold cut_rect in *; rewrite <- Er, <- Ec; exact K1|].
    destruct K2 as [K2|(k & p & Hk & Hp & Hv)].
    + subst o'. apply occupy_inv in K2. destruct K2 as [K2|K2]; [left; auto|].
      right. exists 0, q0. split; [lia|]. split; [reflexivity|auto].
    + right. exists (S k), p. split; [lia|]. split; [exact Hp|auto].
Qed.
