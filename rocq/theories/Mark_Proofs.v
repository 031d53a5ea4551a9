(** Proofs about drawings made of single marks. *)
From Coq Require Import ZArith List Bool Arith Lia.
From Verif Require Import Canvas_Model Canvas_Spec Canvas_Proofs Mark_Model Mark_Spec.
Import ListNotations.
Open Scope Z_scope.

Lemma char_major {Sym : Type} (bullet dot : Sym) i : char_at bullet dot i = if major (Z.of_nat i) then bullet else dot.
Proof.
  unfold char_at, major. replace (Z.of_nat i + 1) with (Z.of_nat (i + 1)) by lia. change 5 with (Z.of_nat 5). rewrite <- Nat2Z.inj_mod.
  destruct (Nat.eqb_spec ((i + 1) mod 5) 0) as [E|E]; [rewrite E; reflexivity|]. destruct (Z.eqb_spec (Z.of_nat ((i + 1) mod 5)) 0) as [E'|E']; [exfalso; apply E; apply Nat2Z.inj; exact E'|reflexivity].
Qed.
Lemma count_major n : length (filter (fun k => major (Z.of_nat k)) (seq 0 n)) = (n / 5)%nat.
Proof.
  assert (M : forall k, major (Z.of_nat k) = ((k + 1) mod 5 =? 0)%nat).
  { intros k. unfold major. replace (Z.of_nat k + 1) with (Z.of_nat (k + 1)) by lia. change 5 with (Z.of_nat 5) at 1. rewrite <- Nat2Z.inj_mod.
    destruct (Nat.eqb_spec ((k + 1) mod 5) 0) as [E|E]; [rewrite E; reflexivity|]. apply Z.eqb_neq. lia. }
  induction n as [|n IH]; [reflexivity|]. rewrite seq_S, filter_app, app_length, IH. cbn [filter plus]. rewrite M.
  pose proof (Nat.div_mod (n + 1) 5 ltac:(lia)) as D1. pose proof (Nat.div_mod n 5 ltac:(lia)) as D2. pose proof (Nat.mod_upper_bound (n + 1) 5 ltac:(lia)). pose proof (Nat.mod_upper_bound n 5 ltac:(lia)).
  replace (S n) with (n + 1)%nat by lia. destruct (Nat.eqb_spec ((n + 1) mod 5) 0) as [E|E]; cbn [length]; lia.
Qed.

Section Proofs.
Context {Sym Color Bg : Type}.
Variable gw : Sym -> nat.
Variable space : Sym.
Variable sym_eqb : Sym -> Sym -> bool.
Variable translucent : option Bg -> bool.
Variable resolve_bg : option Bg -> option Color -> option Color.
Notation cell := (@cell Sym Color).
Notation canvas := (@canvas Sym Color).
Notation put_char := (@put_char Sym Color Bg gw space sym_eqb translucent resolve_bg).
Notation put_grapheme := (@put_grapheme Sym Color Bg space sym_eqb translucent resolve_bg).
Notation put_str_loop := (@put_str_loop Sym Color Bg gw space sym_eqb translucent resolve_bg).
Notation render_strip := (@render_strip Sym Color Bg gw space sym_eqb translucent resolve_bg).

Definition keeps (g : Sym) (fg : option Color) (bg : option Bg) (a : attrs) : bool :=
  translucent bg && sym_eqb g space && (match fg with None => true | Some _ => false end) && attrs_eqb a attrs_default.
Definition stamp (g : Sym) fg bg a (old : cell) : cell :=
  if keeps g fg bg a then with_bg old (resolve_bg bg (c_bg old)) else Cell g 1 false fg (resolve_bg bg (c_bg old)) a.

Lemma drawn_none (c : canvas) new : sound c -> drawn c c (fun _ _ => false) new.
Proof. intros S. repeat split; auto. discriminate. Qed.
Lemma drawn_same (c c' : canvas) P Q new new' : drawn c c' P new ->
  (forall x y, shown_at c x y -> P x y = Q x y) -> (forall x y old, P x y = true -> new x y old = new' x y old) -> drawn c c' Q new'.
Proof.
  intros (W & H & C & Pr & F & S & D) E N. repeat (split; [assumption|]). intros x y O. destruct (D x y O) as [D1 D2]. split.
  - intros Q1 I. assert (P1 : P x y = true) by (rewrite (E x y (conj O I)); exact Q1). rewrite (D1 P1 I). destruct (at_xy c x y); cbn; [rewrite N; auto|reflexivity].
  - intros [Q1|I]; [|apply D2; right; exact I]. destruct (P x y) eqn:P1; [|apply D2; auto].
    apply D2. right. intros I. rewrite (E x y (conj O I)) in P1. congruence.
Qed.
Lemma drawn_nothing (c : canvas) P n : sound c -> (forall x y, shown_at c x y -> false = P x y) -> drawn c c P n.
Proof. intros S E. apply (drawn_same c c (fun _ _ => false) P n n); [apply drawn_none; exact S|exact E|discriminate]. Qed.
Lemma drawn_then (c c1 c2 : canvas) P Q new : drawn c c1 P new -> drawn c1 c2 Q new -> (forall x y, P x y = true -> Q x y = true -> False) ->
  drawn c c2 (fun x y => P x y || Q x y) new.
Proof.
  intros (W & H & C & Pr & F & S & D) (W' & H' & C' & Pr' & F' & S' & D') N. do 5 (split; [congruence|]). split; [exact S'|]. intros x y O.
  assert (K : current_clip c1 = current_clip c) by (unfold current_clip; rewrite C, W, H; reflexivity). setoid_rewrite K in D'. rewrite W, H in D'.
  destruct (D x y O) as [D1 D2]. destruct (D' x y O) as [D1' D2']. split.
  - intros PQ I. destruct (P x y) eqn:P1.
    + rewrite D2'; [exact (D1 eq_refl I)|]. left. destruct (Q x y) eqn:Q1; [elim (N x y P1 Q1)|reflexivity].
    + rewrite (D1' PQ I), D2; auto.
  - intros [PQ|I]; [apply orb_false_iff in PQ; destruct PQ; rewrite D2', D2; auto|rewrite D2', D2; auto].
Qed.

Lemma drawn_seq (c c1 c2 : canvas) P1 n1 P2 n2 P n : drawn c c1 P1 n1 -> drawn c1 c2 P2 n2 -> (forall x y, P1 x y = true -> P2 x y = true -> False) ->
  (forall x y, shown_at c x y -> P1 x y || P2 x y = P x y) -> (forall x y old, P1 x y = true -> n1 x y old = n x y old) -> (forall x y old, P2 x y = true -> n2 x y old = n x y old) ->
  drawn c c2 P n.
Proof.
  intros D1 D2 N E N1 N2. apply (drawn_same c c2 (fun x y => P1 x y || P2 x y) P n n); [|exact E|reflexivity].
  apply (drawn_then c c1 c2 P1 P2 n); [apply (drawn_same c c1 P1 P1 n1 n)|apply (drawn_same c1 c2 P2 P2 n2 n)|]; auto.
Qed.
Lemma place_inj w x y x' y' : 0 <= x < Z.of_nat w -> 0 <= x' < Z.of_nat w -> 0 <= y -> 0 <= y' ->
  Z.to_nat (y * Z.of_nat w + x) = Z.to_nat (y' * Z.of_nat w + x') -> x = x' /\ y = y'.
Proof. intros Hx Hx' Hy Hy' E. assert (y * Z.of_nat w + x = y' * Z.of_nat w + x') by nia. assert (y = y') by nia. subst. split; [lia|reflexivity]. Qed.
Lemma write_one w h (l : list cell) x y pr bg mk : length l = (w * h)%nat -> on_screen w h x y ->
  exists l' old, write_cell resolve_bg l (y * Z.of_nat w + x) pr bg mk = Some l' /\ cell_xy w l x y = Some old /\ length l' = length l /\ cell_xy w l' x y = Some (if pr then with_bg old (resolve_bg bg (c_bg old)) else mk (resolve_bg bg (c_bg old))) /\ forall x' y', on_screen w h x' y' -> (x', y') <> (x, y) -> cell_xy w l' x' y' = cell_xy w l x' y'.
Proof.
  intros Hl Hs. unfold write_cell, cell_xy. assert (Hi : (Z.to_nat (y * Z.of_nat w + x) < w * h)%nat) by (unfold on_screen in Hs; nia).
  destruct (nth_error l (Z.to_nat (y * Z.of_nat w + x))) as [old|] eqn:E; [|apply nth_error_None in E; lia].
  set (v := if pr then _ else _). destruct (set_nth_some cell (Z.to_nat (y * Z.of_nat w + x)) v l) as [l' E']; [lia|].
  destruct (set_nth_spec _ _ _ _ _ E') as [HL HN]. exists l', old. split; [exact E'|]. split; [reflexivity|]. split; [exact HL|]. split.
  - rewrite HN, Nat.eqb_refl. reflexivity.
  - intros x' y' Hs' Hne. rewrite HN. destruct (Nat.eqb_spec (Z.to_nat (y' * Z.of_nat w + x')) (Z.to_nat (y * Z.of_nat w + x))) as [Ei|]; [|reflexivity].
    apply place_inj in Ei; unfold on_screen in *; try lia. exfalso. apply Hne. f_equal; tauto.
Qed.
Lemma put_one (c : canvas) x y g fg bg a : gw g = 1%nat -> sound c ->
  exists c', put_char c x y g fg bg a = Some c' /\ drawn c c' (fun x' y' => (x' =? x) && (y' =? y)) (fun _ _ => stamp g fg bg a).
Proof.
  intros G S. unfold Canvas_Model.put_char, Canvas_Model.put_grapheme. rewrite G. set (clip := current_clip c).
  assert (T : ~ shown_at c x y -> drawn c c (fun x' y' => (x' =? x) && (y' =? y)) (fun _ _ => stamp g fg bg a)).
  { intros N. apply drawn_same with (P := fun _ _ => false) (new := fun _ _ => stamp g fg bg a); [apply drawn_none; exact S| |discriminate].
    intros x' y' V. destruct (Z.eqb_spec x' x) as [->|]; [|reflexivity]. destruct (Z.eqb_spec y' y) as [->|]; [|reflexivity]. elim (N V). }
  unfold shown_at, on_screen, in_region in T. fold clip in T.
  repeat match goal with |- context [if ?b then Some c else _] => destruct b eqn:?; [exists c; split; [reflexivity|apply T; lia]|] end. clear T.
  assert (O : on_screen (cv_w c) (cv_h c) x y) by (unfold on_screen; lia).
  assert (I : in_region clip x y) by (unfold in_region; lia).
  replace (translucent bg && sym_eqb g space && (1 =? 1)%nat && match fg with None => true | Some _ => false end && attrs_eqb a attrs_default) with (keeps g fg bg a) by (unfold keeps; cbn; rewrite andb_true_r; reflexivity).
  destruct (write_one (cv_w c) (cv_h c) (cv_cells c) x y (keeps g fg bg a) bg (fun b => Cell g 1 false fg b a) S O) as (l1 & old & E1 & Eo & HL1 & HC1 & HO1).
  rewrite E1. cbn. exists (set_cells c l1). split; [reflexivity|]. repeat (split; [reflexivity|]). split; [unfold sound; cbn; rewrite HL1; exact S|].
  intros x' y' O'. unfold at_xy. cbn [set_cells cv_cells cv_w]. split.
  - intros E _. assert (x' = x /\ y' = y) as [-> ->] by lia. rewrite HC1, Eo. reflexivity.
  - intros H. apply HO1; [exact O'|]. intros E. injection E as -> ->. destruct H as [H|H]; [lia|auto].
Qed.

Lemma put_row (fg : option Color) (bg : option Bg) a y : forall s (c : canvas) x d, Forall (fun g => gw g = 1%nat) s -> sound c ->
  exists c', put_str_loop c x y s fg bg a (current_clip c) = Some c' /\
    drawn c c' (fun x' y' => (y' =? y) && (x <=? x') && (x' <? x + Z.of_nat (length s))) (fun x' _ => stamp (nth (Z.to_nat (x' - x)) s d) fg bg a).
Proof.
  induction s as [|g s IH]; intros c x d F S.
  - exists c. split; [reflexivity|]. apply drawn_nothing; [exact S|]. intros x' y' _. cbn. lia.
  - cbn [Canvas_Model.put_str_loop]. destruct (rg_x (current_clip c) + rg_w (current_clip c) <=? x) eqn:R.
    + exists c. split; [reflexivity|]. apply drawn_nothing; [exact S|]. intros x' y' [_ I]. unfold in_region in I. lia.
    + inversion F as [|? ? G F']; subst. destruct (put_one c x y g fg bg a G S) as (c1 & E1 & D1). unfold Canvas_Model.put_char in E1. rewrite E1.
      assert (K : current_clip c1 = current_clip c) by (destruct D1 as (W & H & C & _); unfold current_clip; rewrite C, W, H; reflexivity).
      assert (S1 : sound c1) by apply D1. destruct (IH c1 (x + Z.of_nat (gw g)) d F' S1) as (c2 & E2 & D2). rewrite K in E2. exists c2. split; [exact E2|]. rewrite G in D2.
      refine (drawn_seq _ _ _ _ _ _ _ _ _ D1 D2 _ _ _ _); cbn beta; intros x' y'.
      * lia.
      * intros _. cbn [length]. lia.
      * intros old H. replace (x' - x) with 0 by lia. reflexivity.
      * intros old H. replace (Z.to_nat (x' - x)) with (Datatypes.S (Z.to_nat (x' - (x + Z.of_nat 1)))) by lia. reflexivity.
Qed.
Lemma render_one_segment (l : look) (c : canvas) s x y d : Forall (fun g => gw g = 1%nat) s -> sound c ->
  exists c', render_strip c (one_segment gw l s) x y = Some c' /\
    drawn c c' (fun x' y' => (y' =? y) && (x <=? x') && (x' <? x + Z.of_nat (length s))) (fun x' _ => stamp (nth (Z.to_nat (x' - x)) s d) (l_fg l) (l_bg l) (l_attrs l)).
Proof.
  intros F S. cbn. unfold put_str.
  assert (T : ~ (rg_y (current_clip c) <= y < rg_y (current_clip c) + rg_h (current_clip c) /\ 0 <= y < Z.of_nat (cv_h c)) ->
    drawn c c (fun x' y' => (y' =? y) && (x <=? x') && (x' <? x + Z.of_nat (length s))) (fun x' _ => stamp (nth (Z.to_nat (x' - x)) s d) (l_fg l) (l_bg l) (l_attrs l))).
  { intros N. apply drawn_nothing; [exact S|]. intros x' y' [O I]. unfold on_screen, in_region in *. lia. }
  do 2 (match goal with |- context [if ?b then Some c else _] => destruct b eqn:?; [exists c; split; [reflexivity|apply T; lia]|] end).
  destruct (put_row (l_fg l) (l_bg l) (l_attrs l) y s c x d F S) as (c' & E & D). exists c'. rewrite E. split; [reflexivity|exact D].
Qed.

Section Ruler.
Variables (bullet dot : Sym).
Hypothesis bullet_narrow : gw bullet = 1%nat.
Hypothesis dot_narrow : gw dot = 1%nat.
Lemma char_narrow i : gw (char_at bullet dot i) = 1%nat.
Proof. unfold char_at. destruct (_ =? _)%nat; assumption. Qed.
Lemma rows_drawn (l : look) x y : forall n i (c : canvas), sound c ->
  exists c', ruler_rows gw space sym_eqb translucent resolve_bg bullet dot l c x y i n = Some c' /\
    drawn c c' (fun x' y' => (x' =? x) && (y + Z.of_nat i <=? y') && (y' <? y + Z.of_nat (i + n)))
      (fun _ y' => stamp (if major (y' - y) then bullet else dot) (l_fg l) (l_bg l) (l_attrs l)).
Proof.
  induction n as [|n IH]; intros i c S.
  - exists c. split; [reflexivity|]. apply drawn_nothing; [exact S|]. intros x' y' _. cbn beta. lia.
  - cbn [ruler_rows]. destruct (render_one_segment l c [char_at bullet dot i] x (y + Z.of_nat i) dot) as (c1 & E1 & D1); [constructor; [apply char_narrow|constructor]|exact S|].
    rewrite E1. destruct (IH (Datatypes.S i) c1 ltac:(apply D1)) as (c2 & E2 & D2). exists c2. split; [exact E2|].
    refine (drawn_seq _ _ _ _ _ _ _ _ _ D1 D2 _ _ _ _); cbn beta; cbn [length]; intros x' y'.
    + lia.
    + intros _. lia.
    + intros old H. replace (Z.to_nat (x' - x)) with 0%nat by lia. cbn [nth]. rewrite char_major. replace (y' - y) with (Z.of_nat i) by lia. reflexivity.
    + reflexivity.
Qed.
End Ruler.

Section Corner.
Hypothesis space_narrow : gw space = 1%nat.
Lemma corner_row_drawn b x y : forall n i (c : canvas), sound c ->
  exists c', corner_row gw space sym_eqb translucent resolve_bg b c x y i n = Some c' /\
    drawn c c' (fun x' y' => (y' =? y) && (x + Z.of_nat i <=? x') && (x' <? x + Z.of_nat (i + n))) (fun _ _ => stamp space None (Some b) attrs_default).
Proof.
  induction n as [|n IH]; intros i c S.
  - exists c. split; [reflexivity|]. apply drawn_nothing; [exact S|]. intros x' y' _. cbn beta. lia.
  - cbn [corner_row]. destruct (put_one c (x + Z.of_nat i) y space None (Some b) attrs_default space_narrow S) as (c1 & E1 & D1).
    rewrite E1. destruct (IH (Datatypes.S i) c1 ltac:(apply D1)) as (c2 & E2 & D2). exists c2. split; [exact E2|].
    refine (drawn_seq _ _ _ _ _ _ _ _ _ D1 D2 _ _ _ _); cbn beta; intros x' y'; [lia|lia|reflexivity|reflexivity].
Qed.
Lemma corner_rows_drawn b x y w : forall n i (c : canvas), sound c ->
  exists c', corner_rows gw space sym_eqb translucent resolve_bg b c x y w i n = Some c' /\
    drawn c c' (fun x' y' => (x <=? x') && (x' <? x + Z.of_nat w) && (y + Z.of_nat i <=? y') && (y' <? y + Z.of_nat (i + n))) (fun _ _ => stamp space None (Some b) attrs_default).
Proof.
  induction n as [|n IH]; intros i c S.
  - exists c. split; [reflexivity|]. apply drawn_nothing; [exact S|]. intros x' y' _. cbn beta. lia.
  - cbn [corner_rows]. destruct (corner_row_drawn b x (y + Z.of_nat i) w 0 c S) as (c1 & E1 & D1).
    rewrite E1. destruct (IH (Datatypes.S i) c1 ltac:(apply D1)) as (c2 & E2 & D2). exists c2. split; [exact E2|].
    refine (drawn_seq _ _ _ _ _ _ _ _ _ D1 D2 _ _ _ _); cbn beta; intros x' y'; [lia|lia|reflexivity|reflexivity].
Qed.
End Corner.
End Proofs.
