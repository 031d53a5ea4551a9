(** C90: a placeholder shows its label, size or text, whole and in the middle. *)
From Coq Require Import String ZArith List Bool Arith Lia.
From Verif Require Import Text_Model Strip_Model Wrap_Model Canvas_Model Canvas_Spec Holder_Model.
From Verif Require Words_Spec.
From Verif Require Import Wrap_Spec Wrap_Proofs Wrap2_Proofs Holder_Spec Holder_Proofs.
From Verif Require Import Canvas_Model.
Import ListNotations.
Open Scope nat_scope.
Notation length := List.length.
Open Scope list_scope.

Section Holder.
Variable gr : text -> list text.
Variable gw : text -> nat.
Variable show : Z -> text.
Hypothesis Hgr : forall t, concat (gr t) = t.
Hypothesis Hne : forall t g, In g (gr t) -> g <> [].
Notation dw := (dw gr gw).
Notation word_wrap := (word_wrap gr gw).
Notation render := (render gr gw show).
Notation within := (within gr gw).

(** ** Wrapping *)

(** The lines of a text are the lines of its paragraphs, one after the other; in
    each the words stand one space apart, a line takes as many as fit, and only a
    word wider than the line is cut, between its clusters. *)
Theorem C90_wrap : forall t width, 0 < width -> spaces_add gr gw width t ->
  exists ps lss, paragraphs t ps /\ word_wrap t width = concat lss /\ Forall2 (paragraph gr gw width) ps lss.
Proof. exact (word_wrap_spec gr gw Hgr Hne). Qed.

(** No character but white space is lost, added or moved, whatever the widths. *)
Theorem C90_kept : forall t width, ink (concat (word_wrap t width)) = ink t.
Proof. exact (word_wrap_ink gr gw Hgr Hne). Qed.

(** No line is wider than asked. *)
Theorem C90_fits : forall t width, 0 < width -> spaces_add gr gw width t -> clusters_ok gr gw width t -> dw [] = 0 ->
  Forall (fun l => dw l <= width) (word_wrap t width).
Proof. exact (word_wrap_width gr gw Hgr Hne). Qed.

(** Between paragraphs an empty line stays a line; one of blanks disappears. *)
Theorem C90_blank_line_refuted : forall a b n width, ~ In 10%Z a -> ~ In 10%Z b ->
  word_wrap (a ++ [10%Z] ++ [10%Z] ++ b) width = word_wrap a width ++ [[]] ++ word_wrap b width /\
  word_wrap (a ++ [10%Z] ++ repeat 32%Z (S n) ++ [10%Z] ++ b) width = word_wrap a width ++ word_wrap b width.
Proof.
  intros a b n width A B.
  assert (One : forall p, ~ In 10%Z p -> split_char 10%Z p = [p]).
  { induction p as [|c p IH]; intros N; [reflexivity|]. cbn [split_char]. destruct (Z.eqb_spec c 10) as [->|_]; [exfalso; apply N; now left|].
    rewrite IH; [reflexivity|]. intros I. apply N. now right. }
  assert (Snoc : forall p r, ~ In 10%Z p -> split_char 10%Z (p ++ [10%Z] ++ r) = p :: split_char 10%Z r).
  { induction p as [|c p IH]; intros r N; [reflexivity|]. cbn [app split_char]. destruct (Z.eqb_spec c 10) as [->|_]; [exfalso; apply N; now left|].
    change (p ++ 10%Z :: r) with (p ++ [10%Z] ++ r). rewrite IH; [reflexivity|]. intros I. apply N. now right. }
  unfold Holder_Model.word_wrap. rewrite !Snoc by exact A. rewrite (One a A), (One b B). cbn [flat_map]. rewrite !app_nil_r. split.
  - change ([10%Z] ++ b) with ([] ++ [10%Z] ++ b). rewrite Snoc by (intros []). rewrite (One b B). cbn [flat_map]. rewrite app_nil_r. reflexivity.
  - rewrite Snoc by (intros I; apply repeat_spec in I; discriminate). rewrite (One b B). cbn [flat_map]. rewrite app_nil_r. f_equal.
    replace (wrap_paragraph gr gw (Nat.max width 1) (repeat 32%Z (S n))) with (@nil text); [reflexivity|].
    unfold wrap_paragraph. cbn [repeat is_nil].
    assert (E : split_ws (32%Z :: repeat 32%Z n) = []).
    { apply Words_Proofs.spaced_split. apply Words_Spec.spaced_nil. change (32%Z :: repeat 32%Z n) with (repeat 32%Z (S n)).
      apply Forall_forall. intros c I. apply repeat_spec in I. subst c. reflexivity. }
    rewrite E. reflexivity.
Qed.

(** ** Drawing *)

Lemma inner_quot : forall h r, (0 < rg_w (inner h r))%Z -> (0 < rg_h (inner h r))%Z ->
  ((rg_w r <=? 0) || (rg_h r <=? 0))%Z = false /\
  Z.max (rg_w r - Z.of_nat (h_pl h) - Z.of_nat (h_pr h)) 0 = rg_w (inner h r) /\
  Z.max (rg_h r - Z.of_nat (h_pt h) - Z.of_nat (h_pb h)) 0 = rg_h (inner h r) /\
  ((rg_w (inner h r) <=? 0) || (rg_h (inner h r) <=? 0))%Z = false.
Proof.
  intros h r W H. unfold inner in *. cbn [rg_w rg_h] in *.
  repeat split; try lia; apply orb_false_iff; split; apply Z.leb_gt; lia.
Qed.

(** The label: what was given, else the id after a "#", else "Placeholder". *)
Definition label_of (h : holder) : text :=
  match h_label h with Some l => l | None => match h_id h with Some i => str "#" ++ i | None => str "Placeholder" end end.

(** The lines of the label are put below each other, the block in the middle of
    the region inside the padding as far as it fits. *)
Theorem C90_label : forall h r, h_variant h = VDefault -> (0 < rg_w (inner h r))%Z -> (0 < rg_h (inner h r))%Z ->
  exists x y n, let ls := word_wrap (label_of h) (Z.to_nat (rg_w (inner h r))) in
  fst (render h r) = true /\
  stacked x y ls (snd (render h r)) /\ block_width gr gw ls n /\
  ((Z.of_nat n <= rg_w (inner h r))%Z -> centred (x - rg_x (inner h r)) (Z.of_nat n) (rg_w (inner h r))) /\
  ((Z.of_nat (length ls) <= rg_h (inner h r))%Z -> centred (y - rg_y (inner h r)) (Z.of_nat (length ls)) (rg_h (inner h r))) /\
  ((rg_h (inner h r) < Z.of_nat (length ls))%Z -> y = rg_y (inner h r)).
Proof.
  intros h r V W H. destruct (inner_quot h r W H) as (E0 & E1 & E2 & E3). unfold Holder_Model.render. rewrite E0. cbn zeta. rewrite E1, E2, E3, V.
  replace (display_content show h (rg_w r) (rg_h r)) with (label_of h) by (unfold display_content, label_of; rewrite V; destruct (h_label h), (h_id h); reflexivity).
  rewrite (Z.max_l (rg_w (inner h r)) 1) by lia. set (ls := word_wrap (label_of h) (Z.to_nat (rg_w (inner h r)))).
  eexists _, _, (widest gr gw ls). cbn zeta. split; [reflexivity|]. split; [apply put_lines_stacked|]. split; [apply widest_block|].
  cbn [inner rg_x rg_y] in *. split; [|split]; intros L.
  - match goal with |- centred (?a + ?b - ?a) _ _ => replace (a + b - a)%Z with b by lia end. now apply centre_quot.
  - match goal with |- centred (?a + ?b - ?a) _ _ => replace (a + b - a)%Z with b by lia end. now apply centre_quot.
  - rewrite Z.max_r; [lia|]. apply Z.quot_le_upper_bound; lia.
Qed.

Lemma stacked_within : forall ls x y ps r n, stacked x y ls ps -> block_width gr gw ls n ->
  (Z.of_nat n <= rg_w r)%Z -> (Z.of_nat (length ls) <= rg_h r)%Z ->
  centred (x - rg_x r) (Z.of_nat n) (rg_w r) -> centred (y - rg_y r) (Z.of_nat (length ls)) (rg_h r) -> Forall (within r) ps.
Proof.
  intros ls x y ps r n S [B _] N L Cx Cy. apply Forall_forall. intros p I. destruct (stacked_in _ _ _ _ _ S I) as (i & l & E & ->).
  assert (Li : i < length ls) by (apply nth_error_Some; congruence). assert (Lw : dw l <= n) by (apply B; eapply nth_error_In; eauto).
  unfold centred in *. unfold Holder_Spec.within. cbn [p_x p_y p_text]. lia.
Qed.

Lemma block_width_le : forall ls n m, block_width gr gw ls n -> Forall (fun l => dw l <= m) ls -> n <= m.
Proof. intros ls n m [_ [[-> _]|(l & I & <-)]] F; [lia|]. rewrite Forall_forall in F. now apply F. Qed.

Lemma lines_ext : forall a b : list text, (forall i, nth_error a i = nth_error b i) -> a = b.
Proof.
  induction a as [|x a IH]; intros [|y b] H; [reflexivity|specialize (H 0); discriminate|specialize (H 0); discriminate|].
  f_equal; [specialize (H 0); cbn in H; congruence|]. apply IH. intros i. exact (H (S i)).
Qed.

(** A region with the height the placeholder asks for at its width shows the whole
    label inside the padding. *)
Theorem C90_height : forall h r, h_variant h = VDefault -> (0 < rg_w (inner h r))%Z ->
  rg_h r = Z.of_nat (intrinsic_height gr gw show h (Z.to_nat (rg_w r))) ->
  let w := Z.to_nat (rg_w (inner h r)) in
  spaces_add gr gw w (label_of h) -> clusters_ok gr gw w (label_of h) -> dw [] = 0 ->
  Forall (within (inner h r)) (snd (render h r)) /\
  ink (concat (map p_text (snd (render h r)))) = ink (label_of h).
Proof.
  intros h r V W H w A C Z.
  assert (Ew : Nat.max (Z.to_nat (rg_w r) - (h_pl h + h_pr h)) 1 = w).
  { unfold w, inner in *. cbn [rg_w] in *. lia. }
  assert (Eh : rg_h (inner h r) = Z.of_nat (Nat.max (length (word_wrap (label_of h) w)) 1)).
  { unfold inner. cbn [rg_h]. rewrite H. unfold intrinsic_height. rewrite Ew.
    replace (display_content show h 0%Z 0%Z) with (label_of h) by (unfold display_content, label_of; rewrite V; destruct (h_label h), (h_id h); reflexivity). lia. }
  assert (Hp : (0 < rg_h (inner h r))%Z) by lia.
  destruct (C90_label h r V W Hp) as (x & y & n & _ & S & B & Cx & Cy & _). fold w in S, B, Cx, Cy.
  assert (F : Forall (fun l => dw l <= w) (word_wrap (label_of h) w)) by (apply C90_fits; auto; unfold w; lia).
  assert (N : (Z.of_nat n <= rg_w (inner h r))%Z) by (pose proof (block_width_le _ _ _ B F); unfold w in *; lia).
  split; [eapply stacked_within; eauto; try (apply Cy); lia|].
  replace (map p_text (snd (render h r))) with (word_wrap (label_of h) w); [apply C90_kept|].
  clear - S. apply lines_ext. intros i. rewrite nth_error_map, (S i). now destruct (nth_error _ i).
Qed.

(** In a lower region the lines below are not cut off: they are put outside it. *)
Theorem C90_low_region_refuted : forall h r, h_variant h = VDefault -> (0 < rg_w (inner h r))%Z -> (0 < rg_h (inner h r))%Z ->
  (rg_h r - Z.of_nat (h_pt h) < Z.of_nat (length (word_wrap (label_of h) (Z.to_nat (rg_w (inner h r))))))%Z ->
  exists p, In p (snd (render h r)) /\ (rg_y r + rg_h r <= p_y p)%Z.
Proof.
  intros h r V W H L. destruct (C90_label h r V W H) as (x & y & n & _ & S & _ & _ & _ & Y).
  set (ls := word_wrap _ _) in *. clearbody ls.
  rewrite Y in S by (unfold inner; cbn [rg_h]; lia).
  destruct (nth_error ls (Nat.pred (length ls))) as [l|] eqn:E.
  - eexists. split; [eapply nth_error_In; rewrite (S (Nat.pred (length ls))), E; reflexivity|]. cbn [p_y inner rg_y]. lia.
  - apply nth_error_None in E. unfold inner in H. cbn [rg_h] in H. lia.
Qed.

(** The size variant: width and height of the region, in bold on one line, in the
    middle. *)
Theorem C90_size : forall h r, h_variant h = VSize -> (0 < rg_w (inner h r))%Z -> (0 < rg_h (inner h r))%Z ->
  exists x y, let t := show (rg_w r) ++ str " x " ++ show (rg_h r) in
  render h r = (true, [Put x y t true]) /\
  centred (y - rg_y (inner h r)) 1 (rg_h (inner h r)) /\
  ((Z.of_nat (dw t) <= rg_w (inner h r))%Z -> centred (x - rg_x (inner h r)) (Z.of_nat (dw t)) (rg_w (inner h r)) /\ within (inner h r) (Put x y t true)) /\
  ((rg_w (inner h r) < Z.of_nat (dw t))%Z -> x = rg_x (inner h r)).
Proof.
  intros h r V W H. destruct (inner_quot h r W H) as (E0 & E1 & E2 & E3). unfold Holder_Model.render. rewrite E0. cbn zeta. rewrite E1, E2, E3, V.
  replace (display_content show h (rg_w r) (rg_h r)) with (show (rg_w r) ++ str " x " ++ show (rg_h r)) by (unfold display_content; rewrite V; reflexivity).
  set (t := show _ ++ _). clearbody t. eexists _, _. split; [reflexivity|]. cbn [inner rg_x rg_y] in *.
  pose proof (centre_quot 1 (rg_h (inner h r)) ltac:(lia)) as Cy. rewrite Z.max_l in Cy by (apply Z.quot_pos; lia).
  split; [match goal with |- centred (?a + ?b - ?a) _ _ => replace (a + b - a)%Z with b by lia end; exact Cy|]. split; intros L.
  - pose proof (centre_quot _ _ L) as Cx. rewrite Z.max_l in Cx by (apply Z.quot_pos; lia). rewrite Z.max_l by lia.
    match goal with |- centred (?a + ?b - ?a) _ _ /\ _ => replace (a + b - a)%Z with b by lia end. split; [exact Cx|].
    unfold centred in Cx, Cy. unfold Holder_Spec.within. cbn [p_x p_y p_text inner rg_x rg_y]. fold (inner h r). lia.
  - rewrite Z.max_r by lia. cbn. lia.
Qed.

Definition lorem_text : text := join [10%Z; 10%Z] (repeat lorem 5).
(** The text variant: as many lines of the text, wrapped at two cells less than
    the width, as there is room for at two rows less than the height. *)
Theorem C90_text : forall h r, h_variant h = VText -> (2 <= rg_w (inner h r))%Z -> (2 <= rg_h (inner h r))%Z ->
  let w := Z.max (rg_w (inner h r) - 2) 1 in
  let k := Z.max (rg_h (inner h r) - 2) 1 in
  Forall (fun l => dw l <= Z.to_nat w) (word_wrap lorem_text (Z.to_nat w)) ->
  exists x y, fst (render h r) = true /\
  stacked x y (firstn (Z.to_nat k) (word_wrap lorem_text (Z.to_nat w))) (snd (render h r)) /\
  Forall (fun p => within (inner h r) p /\ (rg_x (inner h r) < p_x p)%Z /\ (rg_y (inner h r) < p_y p)%Z) (snd (render h r)).
Proof.
  intros h r V W H w k F. destruct (inner_quot h r ltac:(lia) ltac:(lia)) as (E0 & E1 & E2 & E3). unfold Holder_Model.render. rewrite E0. cbn zeta. rewrite E1, E2, E3, V.
  replace (display_content show h (rg_w r) (rg_h r)) with lorem_text by (unfold display_content; rewrite V; reflexivity).
  fold w k. set (ls := firstn (Z.to_nat k) (word_wrap lorem_text (Z.to_nat w))).
  eexists _, _. split; [reflexivity|]. split; [apply put_lines_stacked|].
  assert (F' : Forall (fun l => dw l <= Z.to_nat w) ls).
  { apply Forall_forall. intros l I. rewrite Forall_forall in F. apply F. unfold ls in I. rewrite <- (firstn_skipn (Z.to_nat k) (word_wrap lorem_text (Z.to_nat w))). apply in_or_app. now left. }
  assert (Ll : (Z.of_nat (length ls) <= k)%Z) by (unfold ls; rewrite firstn_length; lia).
  pose proof (widest_block gr gw ls) as B. pose proof (block_width_le _ _ _ B F') as N.
  pose proof (centre_quot (Z.of_nat (widest gr gw ls)) w ltac:(lia)) as Cx. pose proof (centre_quot (Z.of_nat (length ls)) k Ll) as Cy.
  apply Forall_forall. intros p I. destruct (stacked_in _ _ _ _ _ (put_lines_stacked _ _ _) I) as (i & l & E & ->).
  assert (Li : i < length ls) by (apply nth_error_Some; congruence). assert (Lw : dw l <= widest gr gw ls) by (apply (proj1 B); eapply nth_error_In; eauto).
  set (a := Z.max (Z.quot (w - Z.of_nat (widest gr gw ls)) 2) 0) in *. set (b := Z.max (Z.quot (k - Z.of_nat (length ls)) 2) 0) in *.
  assert (0 <= a)%Z by (unfold a; apply Z.le_max_r). assert (0 <= b)%Z by (unfold b; apply Z.le_max_r).
  clearbody a b. unfold centred in *. unfold Holder_Spec.within. cbn [p_x p_y p_text]. unfold inner in *. cbn [rg_x rg_y rg_w rg_h] in *. lia.
Qed.

Lemma wrap_ne : forall t w, ink t <> [] -> word_wrap t w <> [].
Proof. intros t w N E. apply N. rewrite <- (C90_kept t w), E. reflexivity. Qed.

(** Where there is only one row or column, it is put beside it. *)
Theorem C90_text_small_refuted : forall h r, h_variant h = VText -> (0 < rg_w (inner h r))%Z -> (0 < rg_h (inner h r))%Z ->
  (rg_w (inner h r) = 1 \/ rg_h (inner h r) = 1)%Z ->
  snd (render h r) <> [] /\
  Forall (fun p => (rg_x (inner h r) + rg_w (inner h r) <= p_x p)%Z \/ (rg_y (inner h r) + rg_h (inner h r) <= p_y p)%Z) (snd (render h r)).
Proof.
  intros h r V W H O. destruct (inner_quot h r W H) as (E0 & E1 & E2 & E3). unfold Holder_Model.render. rewrite E0. cbn zeta. rewrite E1, E2, E3, V.
  replace (display_content show h (rg_w r) (rg_h r)) with lorem_text by (unfold display_content; rewrite V; reflexivity).
  cbn [snd]. set (k := Z.max (rg_h (inner h r) - 2) 1). set (w := Z.max (rg_w (inner h r) - 2) 1).
  assert (N : word_wrap lorem_text (Z.to_nat w) <> []) by (apply wrap_ne; vm_compute; discriminate).
  destruct (word_wrap lorem_text (Z.to_nat w)) as [|l0 ls0]; [congruence|].
  assert (Kp : exists k', Z.to_nat k = S k') by (exists (Nat.pred (Z.to_nat k)); unfold k; lia). destruct Kp as (k' & ->).
  cbn [firstn]. set (ls := l0 :: firstn k' ls0). split; [discriminate|].
  set (a := Z.max (Z.quot (w - Z.of_nat (widest gr gw ls)) 2) 0). set (b := Z.max (Z.quot (k - Z.of_nat (length ls)) 2) 0).
  assert (0 <= a)%Z by (unfold a; apply Z.le_max_r). assert (0 <= b)%Z by (unfold b; apply Z.le_max_r). clearbody a b.
  apply Forall_forall. intros p I. destruct (stacked_in _ _ _ _ _ (put_lines_stacked _ _ _) I) as (i & l & E & ->).
  cbn [p_x p_y]. unfold inner in *. cbn [rg_x rg_y rg_w rg_h] in *. lia.
Qed.

(** Nothing is drawn without a region, and only the background if the padding
    leaves no room. *)
Theorem C90_no_room : forall h r,
  (fst (render h r) = true <-> 0 < rg_w r /\ 0 < rg_h r)%Z /\
  ((rg_w (inner h r) <= 0 \/ rg_h (inner h r) <= 0)%Z -> snd (render h r) = []).
Proof.
  intros h r. unfold Holder_Model.render, inner. cbn [rg_w rg_h]. destruct ((rg_w r <=? 0) || (rg_h r <=? 0))%Z eqn:E; cbn [fst snd].
  - apply orb_true_iff in E. rewrite !Z.leb_le in E. split; [|reflexivity]. split; [discriminate|lia].
  - apply orb_false_iff in E. rewrite !Z.leb_gt in E. split; [tauto|]. intros O. cbn zeta.
    match goal with |- (if ?c then _ else _) = _ => replace c with true; [reflexivity|] end.
    symmetry. apply orb_true_iff. rewrite !Z.leb_le. lia.
Qed.

(** ** Clicks *)

(** A press inside the region goes on to the next of the three variants (three of
    them come back to the first), one outside does nothing; nothing else ever
    changes. *)
Theorem C90_click : forall h x y r,
  (in_region r x y -> h_variant (press h x y r) = next (h_variant h) /\ press (press (press h x y r) x y r) x y r = h) /\
  (~ in_region r x y -> press h x y r = h) /\
  label_of (press h x y r) = label_of h /\ inner (press h x y r) = inner h.
Proof.
  intros h x y r. unfold press.
  assert (D : ((rg_x r <=? x) && (x <? rg_x r + rg_w r) && (rg_y r <=? y) && (y <? rg_y r + rg_h r))%Z = true <-> in_region r x y).
  { unfold in_region. rewrite !andb_true_iff, !Z.leb_le, !Z.ltb_lt. tauto. }
  destruct (_ && _ && _ && _)%Z.
  - assert (in_region r x y) by (now apply D). split; [|split; [tauto|split; reflexivity]].
    intros _. split; [reflexivity|]. cbn. destruct h as [a b v c d e f]. destruct v; reflexivity.
  - split; [intros I; apply D in I; discriminate|]. auto.
Qed.

End Holder.
Print Assumptions C90_wrap.
Print Assumptions C90_kept.
Print Assumptions C90_fits.
Print Assumptions C90_blank_line_refuted.
Print Assumptions C90_label.
Print Assumptions C90_height.
Print Assumptions C90_low_region_refuted.
Print Assumptions C90_size.
Print Assumptions C90_text.
Print Assumptions C90_text_small_refuted.
Print Assumptions C90_no_room.
Print Assumptions C90_click.

(** The three variants are all there is. *)
Theorem C90_cycle : forall v w, exists n, n < 3 /\ Nat.iter n next v = w.
Proof. intros v w. destruct v, w; (exists 0; split; [lia|reflexivity]) || (exists 1; split; [lia|reflexivity]) || (exists 2; split; [lia|reflexivity]). Qed.
Print Assumptions C90_cycle.

(** Twelve placeholders made one after the other all have different colours, the
    next twelve the same ones again. *)
Theorem C90_colours : forall n m,
  nth_error palette (palette_index n) <> None /\
  (nth_error palette (palette_index n) = nth_error palette (palette_index m) <-> exists k, (Z.of_nat n - Z.of_nat m = 12 * k)%Z).
Proof.
  intros n m. unfold palette_index. assert (B : forall n, n mod 12 < 12) by (intros k; apply Nat.mod_upper_bound; lia).
  split; [apply nth_error_Some; apply B|].
  assert (Q : nth_error palette (n mod 12) = nth_error palette (m mod 12) <-> n mod 12 = m mod 12).
  { split; [|congruence]. apply NoDup_nth_error; [|apply B]. repeat constructor; cbn; intuition discriminate. }
  rewrite Q. split.
  - intros E. exists (Z.of_nat (n / 12) - Z.of_nat (m / 12))%Z. pose proof (Nat.div_mod_eq n 12). pose proof (Nat.div_mod_eq m 12). lia.
  - intros (k & E). apply Nat2Z.inj. rewrite !Nat2Z.inj_mod. replace (Z.of_nat n) with (Z.of_nat m + k * 12)%Z by lia. apply Z_mod_plus_full.
Qed.
Print Assumptions C90_colours.

(** ** One-cell characters *)
Definition hgr (t : text) : list text := map (fun c => [c]) t.
Definition hgw (_ : text) : nat := 1.
Lemma hgr_ok : (forall t, concat (hgr t) = t) /\ (forall t g, In g (hgr t) -> g <> []).
Proof.
  split.
  - induction t as [|c t IH]; [reflexivity|]. cbn [hgr map concat app]. f_equal. exact IH.
  - intros t g H. apply in_map_iff in H. destruct H as (c & <- & _). discriminate.
Qed.
Lemma hdw_app : forall a b, dw hgr hgw (a ++ b) = dw hgr hgw a + dw hgr hgw b.
Proof. intros a b. unfold dw, hgr, text_width. induction a as [|c a IH]; auto. cbn [app map fold_right]. rewrite IH. lia. Qed.
Lemma h_spaces : forall w t, spaces_add hgr hgw w t.
Proof.
  intros w t ps p ws items _ _ _ _ pre l x post _ NE. rewrite spaced_snoc by auto. change (32%Z :: x) with ([32%Z] ++ x). rewrite !hdw_app. cbn. lia.
Qed.
Lemma h_clusters : forall w t, 0 < w -> clusters_ok hgr hgw w t.
Proof.
  intros w0 t P ps p ws _ _ _. split.
  - intros w a b c _ E. assert (forall g, In g b -> exists x, g = [x]).
    { intros g H. assert (In g (hgr w)) by (rewrite E; apply in_or_app; right; apply in_or_app; auto). apply in_map_iff in H0. destruct H0 as (x & <- & _). eauto. }
    clear E. unfold dw, total. f_equal. unfold hgr. induction b as [|g b IH]; auto. destruct (H g (or_introl eq_refl)) as [x ->]. cbn [concat app map]. f_equal.
    apply IH. intros. apply H. right; auto.
  - apply Forall_forall. intros w _. apply Forall_forall. intros g _. unfold hgw. lia.
Qed.

(** For one-cell characters the conditions on widths hold for every text: no line
    is too long, and the region asked for shows the whole label. *)
Theorem C90_plain : forall show h r, h_variant h = VDefault -> (0 < rg_w (inner h r))%Z ->
  rg_h r = Z.of_nat (intrinsic_height hgr hgw show h (Z.to_nat (rg_w r))) ->
  Forall (within hgr hgw (inner h r)) (snd (render hgr hgw show h r)) /\
  ink (concat (map p_text (snd (render hgr hgw show h r)))) = ink (label_of h).
Proof.
  intros show h r V W H. destruct hgr_ok as [A B]. apply C90_height; auto; [apply h_spaces|apply h_clusters; lia].
Qed.
Print Assumptions C90_plain.

(** The text variant asks for the height at the full width, then wraps at two
    cells less and leaves out two rows: at its own height it is cut. *)
Definition tholder := Holder None None VText 0 0 0 0.
Theorem C90_text_height_refuted : forall show, exists r,
  rg_w r = 80%Z /\ rg_h r = Z.of_nat (intrinsic_height hgr hgw show tholder 80) /\
  length (snd (render hgr hgw show tholder r)) < length (word_wrap hgr hgw lorem_text 78) /\
  ink (concat (map p_text (snd (render hgr hgw show tholder r)))) <> ink lorem_text.
Proof.
  intros show. exists (Region 0 0 80 (Z.of_nat (intrinsic_height hgr hgw show tholder 80))). split; [reflexivity|]. split; [reflexivity|].
  assert (E : intrinsic_height hgr hgw show tholder 80 = 34) by (vm_compute; reflexivity). rewrite E.
  split; [apply Nat.ltb_lt; vm_compute; reflexivity|]. intros K. apply (f_equal (@length _)) in K. revert K. vm_compute. discriminate.
Qed.
Print Assumptions C90_text_height_refuted.

Definition sholder v := Holder (Some (str "alpha beta gammadelta")) None v 1 1 0 1.
Example C90_sample :
  word_wrap hgr hgw (str "alpha beta gammadelta") 7 = [str "alpha"; str "beta"; str "gammade"; str "lta"] /\
  intrinsic_height hgr hgw (fun _ => str "5") (sholder VDefault) 14 = 3 /\
  (0 < rg_w (inner (sholder VDefault) (Region 2 3 14 3)))%Z /\
  render hgr hgw (fun _ => str "5") (sholder VDefault) (Region 2 3 14 3) = (true, [Put 4 4 (str "alpha beta") false; Put 4 5 (str "gammadelta") false]) /\
  render hgr hgw (fun _ => str "5") (sholder VSize) (Region 2 3 14 3) = (true, [Put 6 4 (str "5 x 5") true]) /\
  snd (render hgr hgw (fun _ => str "5") (sholder VText) (Region 2 3 14 5)) = [Put 6 5 (str "Lorem") false; Put 6 6 (str "ipsum") false].
Proof. vm_compute. repeat split; reflexivity. Qed.
(** a region too low for the label *)
Example C90_low : render hgr hgw (fun _ => str "5") (sholder VDefault) (Region 2 3 14 2) = (true, [Put 4 4 (str "alpha beta") false; Put 4 5 (str "gammadelta") false]).
Proof. vm_compute. reflexivity. Qed.
