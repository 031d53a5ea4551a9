From Coq Require Import ZArith List Bool Arith Lia ZifyBool ZifyNat.
From Verif Require Import Canvas_Model Canvas_Spec.
Import ListNotations.
Open Scope Z_scope.

(** *** Regions *)

Lemma sat_add_id : forall a b, is_i32 (a + b) -> sat_add a b = a + b.
Proof. unfold is_i32, sat_add, i32_min, i32_max. intros. lia. Qed.

Lemma sat_add_range : forall a b, is_i32 (sat_add a b).
Proof. unfold is_i32, sat_add, i32_min, i32_max. intros. lia. Qed.

Lemma sat_add_le : forall a b, is_i32 a -> 0 <= b -> a <= sat_add a b <= a + b.
Proof. unfold is_i32, sat_add, i32_min, i32_max. intros. lia. Qed.

Lemma sat_add_neg : forall a b, is_i32 a -> b <= 0 -> a + b <= sat_add a b <= a.
Proof. unfold is_i32, sat_add, i32_min, i32_max. intros. lia. Qed.

Lemma intersection_contains : forall a b x y, region_i32 a -> region_i32 b ->
  is_i32 x -> is_i32 y ->
  contains_point (intersection a b) x y = contains_point a x y && contains_point b x y.
Proof.
  intros [ax ay aw ah] [bx by_ bw bh] x y Ha Hb Hx Hy.
  unfold region_i32, contains_point, intersection in *. cbn [rg_x rg_y rg_w rg_h] in *.
  pose proof (sat_add_range ax aw) as R1. pose proof (sat_add_range bx bw) as R2.
  pose proof (sat_add_range ay ah) as R3. pose proof (sat_add_range by_ bh) as R4.
  set (s1 := sat_add ax aw) in *. set (s2 := sat_add bx bw) in *.
  set (s3 := sat_add ay ah) in *. set (s4 := sat_add by_ bh) in *. clearbody s1 s2 s3 s4.
  destruct ((Z.max ax bx <? Z.min s1 s2) && (Z.max ay by_ <? Z.min s3 s4)) eqn:E; cbn [rg_x rg_y rg_w rg_h].
  - rewrite !sat_add_id by (unfold is_i32 in *; lia).
    apply eq_true_iff_eq. rewrite !andb_true_iff, !Z.leb_le, !Z.ltb_lt. lia.
  - change (sat_add 0 0) with 0. apply eq_true_iff_eq. rewrite !andb_true_iff, !Z.leb_le, !Z.ltb_lt.
    apply andb_false_iff in E. rewrite !Z.ltb_ge in E. lia.
Qed.

Lemma intersection_i32 : forall a b, region_i32 a -> region_i32 b -> region_i32 (intersection a b).
Proof.
  intros [ax ay aw ah] [bx by_ bw bh] Ha Hb.
  unfold region_i32, intersection in *. cbn [rg_x rg_y rg_w rg_h] in *.
  destruct Ha as (Ha1 & Ha2 & Ha3 & Ha4).
  assert (R1 : sat_add ax aw <= Z.max ax (ax + aw))
    by (destruct (Z.le_ge_cases 0 aw); [pose proof (sat_add_le ax aw)|pose proof (sat_add_neg ax aw)]; lia).
  assert (R2 : sat_add ay ah <= Z.max ay (ay + ah))
    by (destruct (Z.le_ge_cases 0 ah); [pose proof (sat_add_le ay ah)|pose proof (sat_add_neg ay ah)]; lia).
  set (s1 := sat_add ax aw) in *. set (s2 := sat_add bx bw) in *.
  set (s3 := sat_add ay ah) in *. set (s4 := sat_add by_ bh) in *. clearbody s1 s2 s3 s4.
  destruct ((Z.max ax bx <? Z.min s1 s2) && (Z.max ay by_ <? Z.min s3 s4)) eqn:E; cbn [rg_x rg_y rg_w rg_h].
  - apply andb_true_iff in E. rewrite !Z.ltb_lt in E. unfold is_i32 in *. lia.
  - unfold is_i32. lia.
Qed.

(** a region inside the screen *)
Definition clip_in (w h : nat) (r : region) : Prop :=
  0 <= rg_x r /\ 0 <= rg_y r /\ 0 <= rg_w r /\ 0 <= rg_h r /\
  rg_x r + rg_w r <= Z.of_nat w /\ rg_y r + rg_h r <= Z.of_nat h.

Lemma clip_in_i32 : forall w h r, is_u16 w -> is_u16 h -> clip_in w h r -> region_i32 r.
Proof. unfold is_u16, clip_in, region_i32, is_i32. intros. lia. Qed.

Lemma clip_in_contains : forall w h r x y, is_u16 w -> is_u16 h -> clip_in w h r ->
  contains_point r x y = true <-> in_region r x y.
Proof.
  unfold is_u16, clip_in, contains_point, in_region. intros w h r x y Hw Hh Hc.
  rewrite !sat_add_id by (unfold is_i32; lia). rewrite !andb_true_iff, !Z.leb_le, !Z.ltb_lt. lia.
Qed.

Lemma intersection_clip_in : forall w h a b, is_u16 w -> is_u16 h -> region_i32 a -> clip_in w h b ->
  clip_in w h (intersection a b).
Proof.
  intros w h [ax ay aw ah] [bx by_ bw bh] Hw Hh Ha Hb. unfold clip_in, is_u16, intersection in *.
  cbn [rg_x rg_y rg_w rg_h] in *.
  rewrite (sat_add_id bx bw), (sat_add_id by_ bh) by (unfold is_i32; lia).
  set (s1 := sat_add ax aw) in *. set (s3 := sat_add ay ah) in *. clearbody s1 s3.
  destruct ((Z.max ax bx <? Z.min s1 _) && (Z.max ay by_ <? Z.min s3 _)) eqn:E; cbn [rg_x rg_y rg_w rg_h].
  - apply andb_true_iff in E. rewrite !Z.ltb_lt in E. lia.
  - lia.
Qed.

(** *** Lists *)

Lemma set_nth_spec : forall A i (x : A) l l', set_nth i x l = Some l' ->
  length l' = length l /\ forall j, nth_error l' j = if (j =? i)%nat then Some x else nth_error l j.
Proof.
  intros A i x l. revert i. induction l as [|y l IH]; intros i l' H; [destruct i; discriminate|].
  destruct i as [|i]; cbn in H.
  - injection H as <-. split; [reflexivity|]. intros [|j]; reflexivity.
  - destruct (set_nth i x l) as [l1|] eqn:E; [|discriminate]. injection H as <-.
    destruct (IH i l1 E) as [Hl Hn]. split; [cbn; congruence|]. intros [|j]; [reflexivity|]. cbn. apply Hn.
Qed.

Lemma set_nth_some : forall A i (x : A) l, (i < length l)%nat -> exists l', set_nth i x l = Some l'.
Proof.
  intros A i x l. revert i. induction l as [|y l IH]; intros i H; cbn in H; [lia|].
  destruct i as [|i]; [eexists; reflexivity|]. destruct (IH i) as [l' E]; [lia|].
  exists (y :: l'). cbn. now rewrite E.
Qed.

Section Proofs.
Context {Sym Color Bg : Type}.
Variable gw : Sym -> nat.
Variable space : Sym.
Variable sym_eqb : Sym -> Sym -> bool.
Variable color_eqb : Color -> Color -> bool.
Variable reset : Color.
Variable translucent : option Bg -> bool.
Variable resolve_bg : option Bg -> option Color -> option Color.

Notation cell := (@cell Sym Color).
Notation canvas := (@canvas Sym Color).
Notation put_grapheme := (@put_grapheme Sym Color Bg space sym_eqb translucent resolve_bg).
Notation write_cell := (@write_cell Sym Color Bg resolve_bg).
Notation put_conts := (@put_conts Sym Color Bg space resolve_bg).
Notation put_str_loop := (@put_str_loop Sym Color Bg gw space sym_eqb translucent resolve_bg).
Notation put_str := (@put_str Sym Color Bg gw space sym_eqb translucent resolve_bg).
Notation render_strip := (@render_strip Sym Color Bg gw space sym_eqb translucent resolve_bg).
Notation render_strips := (@render_strips Sym Color Bg gw space sym_eqb translucent resolve_bg).
Notation do_draw := (@do_draw Sym Color Bg gw space sym_eqb translucent resolve_bg).
Notation run := (@run Sym Color Bg gw space sym_eqb color_eqb reset translucent resolve_bg).
Notation do_op := (@do_op Sym Color Bg gw space sym_eqb color_eqb reset translucent resolve_bg).

(** cells of [l'] differ from [l] only at points of the screen inside [r] *)
Definition only_in (w h : nat) (r : region) (l l' : list cell) : Prop :=
  length l' = length l /\
  forall x y, on_screen w h x y -> ~ in_region r x y -> cell_xy w l' x y = cell_xy w l x y.

Lemma only_in_refl : forall w h r l, only_in w h r l l.
Proof. intros. split; auto. Qed.

Lemma only_in_trans : forall w h r a b c, only_in w h r a b -> only_in w h r b c -> only_in w h r a c.
Proof. intros w h r a b c [H1 H2] [H3 H4]. split; [congruence|]. intros. rewrite H4, H2; auto. Qed.

Lemma idx_inj : forall w x y x' y', 0 <= x < Z.of_nat w -> 0 <= x' < Z.of_nat w -> 0 <= y -> 0 <= y' ->
  Z.to_nat (y * Z.of_nat w + x) = Z.to_nat (y' * Z.of_nat w + x') -> x = x' /\ y = y'.
Proof.
  intros w x y x' y' Hx Hx' Hy Hy' E.
  assert (y * Z.of_nat w + x = y' * Z.of_nat w + x') by nia.
  assert (y = y') by nia. subst. split; [lia|reflexivity].
Qed.

Lemma idx_lt : forall w h x y, on_screen w h x y -> (Z.to_nat (y * Z.of_nat w + x) < w * h)%nat.
Proof. unfold on_screen. intros w h x y [Hx Hy]. nia. Qed.

Lemma write_cell_spec : forall w h (l : list cell) x y pr bg mk, length l = (w * h)%nat ->
  on_screen w h x y ->
  exists l' old, write_cell l (y * Z.of_nat w + x) pr bg mk = Some l' /\
   cell_xy w l x y = Some old /\
   length l' = length l /\
   cell_xy w l' x y = Some (if pr then with_bg old (resolve_bg bg (c_bg old)) else mk (resolve_bg bg (c_bg old))) /\
   forall x' y', on_screen w h x' y' -> (x', y') <> (x, y) -> cell_xy w l' x' y' = cell_xy w l x' y'.
Proof.
  intros w h l x y pr bg mk Hl Hs. unfold Canvas_Model.write_cell, cell_xy.
  pose proof (idx_lt w h x y Hs) as Hi.
  destruct (nth_error l (Z.to_nat (y * Z.of_nat w + x))) as [old|] eqn:E.
  2: { apply nth_error_None in E. lia. }
  set (v := if pr then _ else _).
  destruct (set_nth_some cell (Z.to_nat (y * Z.of_nat w + x)) v l) as [l' E']; [lia|].
  destruct (set_nth_spec _ _ _ _ _ E') as [HL HN].
  exists l', old. split; [exact E'|]. split; [reflexivity|]. split; [exact HL|]. split.
  - rewrite HN, Nat.eqb_refl. reflexivity.
  - intros x' y' Hs' Hne. rewrite HN.
    destruct (Nat.eqb_spec (Z.to_nat (y' * Z.of_nat w + x')) (Z.to_nat (y * Z.of_nat w + x))) as [Ei|]; [|reflexivity].
    apply idx_inj in Ei; unfold on_screen in *; try lia. exfalso. apply Hne. f_equal; tauto.
Qed.

(** continuation cells: each column in [cx, cx+n) that passes the tests is
    overwritten, nothing else *)
Lemma put_conts_spec : forall w h y fg bg at_ pr clip n cx (l : list cell),
  length l = (w * h)%nat -> 0 <= y < Z.of_nat h ->
  exists l', put_conts n w cx y fg bg at_ pr clip l = Some l' /\ length l' = length l /\
  (forall x' y', on_screen w h x' y' ->
     ~ (y' = y /\ cx <= x' < cx + Z.of_nat n /\ rg_x clip <= x' < rg_x clip + rg_w clip) ->
     cell_xy w l' x' y' = cell_xy w l x' y') /\
  (pr = false -> forall x', 0 <= x' < Z.of_nat w -> cx <= x' < cx + Z.of_nat n ->
     rg_x clip <= x' < rg_x clip + rg_w clip ->
     exists b, cell_xy w l' x' y = Some (Cell space 0 true fg b at_)).
Proof.
  intros w h y fg bg at_ pr clip. induction n as [|n IH]; intros cx l Hl Hy; cbn [Canvas_Model.put_conts].
  - exists l. repeat split; auto. intros; lia.
  - match goal with |- context [if ?c then _ else _] => destruct c eqn:E end.
    + destruct (IH (cx + 1) l Hl Hy) as (l' & E1 & HL & HO & HP). exists l'. split; [exact E1|]. split; [exact HL|]. split.
      * intros x' y' Hs Hn. apply HO; auto. intros (A & B & C). apply Hn. lia.
      * intros Hp x' Hx Hc Hcl. apply HP; auto; lia.
    + assert (Hs : on_screen w h cx y) by (unfold on_screen; lia).
      destruct (write_cell_spec w h l cx y pr bg (fun b => Cell space 0 true fg b at_) Hl Hs)
        as (l1 & old & E1 & Eo & HL1 & HC1 & HO1).
      rewrite E1. destruct (IH (cx + 1) l1) as (l' & E2 & HL & HO & HP); [congruence|exact Hy|].
      exists l'. split; [exact E2|]. split; [congruence|]. split.
      * intros x' y' Hs' Hn. rewrite HO; auto; [|intros (A & B & C); apply Hn; lia].
        apply HO1; auto. intros Heq. injection Heq as -> ->. apply Hn. lia.
      * intros Hp x' Hx Hc Hcl. destruct (Z.eq_dec x' cx) as [->|Hne].
        -- rewrite HO; [|exact Hs|lia]. rewrite HC1, Hp. eexists; reflexivity.
        -- apply HP; auto; lia.
Qed.

(** *** put_grapheme *)

Lemma put_grapheme_spec : forall (c : canvas) x y g wd fg bg at_ clip,
  length (cv_cells c) = (cv_w c * cv_h c)%nat ->
  exists l', put_grapheme c x y g wd fg bg at_ clip = Some (set_cells c l') /\
    length l' = length (cv_cells c) /\
    (forall x' y', on_screen (cv_w c) (cv_h c) x' y' ->
       ~ (in_region clip x' y' /\ y' = y /\ x <= x' < x + Z.max 1 (Z.of_nat wd)) ->
       cell_xy (cv_w c) l' x' y' = cell_xy (cv_w c) (cv_cells c) x' y') /\
    (translucent bg = false -> in_region clip x y -> on_screen (cv_w c) (cv_h c) x y ->
     x + Z.of_nat wd <= rg_x clip + rg_w clip -> x + Z.of_nat wd <= Z.of_nat (cv_w c) ->
     (exists b, cell_xy (cv_w c) l' x y = Some (Cell g wd false fg b at_)) /\
     forall k, 1 <= k < Z.of_nat wd ->
       exists b, cell_xy (cv_w c) l' (x + k) y = Some (Cell space 0 true fg b at_)).
Proof.
  intros c x y g wd fg bg at_ clip Hl. unfold Canvas_Model.put_grapheme.
  assert (Hc : set_cells c (cv_cells c) = c) by (destruct c; reflexivity).
  assert (TRIV : forall P : list cell -> Prop, (translucent bg = false -> in_region clip x y -> on_screen (cv_w c) (cv_h c) x y ->
     x + Z.of_nat wd <= rg_x clip + rg_w clip -> x + Z.of_nat wd <= Z.of_nat (cv_w c) -> False) ->
     exists l', Some c = Some (set_cells c l') /\ length l' = length (cv_cells c) /\
      (forall x' y', on_screen (cv_w c) (cv_h c) x' y' ->
       ~ (in_region clip x' y' /\ y' = y /\ x <= x' < x + Z.max 1 (Z.of_nat wd)) ->
       cell_xy (cv_w c) l' x' y' = cell_xy (cv_w c) (cv_cells c) x' y') /\
    (translucent bg = false -> in_region clip x y -> on_screen (cv_w c) (cv_h c) x y ->
     x + Z.of_nat wd <= rg_x clip + rg_w clip -> x + Z.of_nat wd <= Z.of_nat (cv_w c) -> P l')).
  { intros P HF. exists (cv_cells c). rewrite Hc. repeat split; auto. intros. exfalso. auto. }
  unfold in_region, on_screen in *.
  repeat match goal with |- context [if ?b then Some c else _] =>
    destruct b eqn:?; [refine (TRIV (fun l' => _ /\ _) _); intros; lia|] end. clear TRIV.
  set (pr := translucent bg && _ && _ && _ && _).
  assert (Hs : on_screen (cv_w c) (cv_h c) x y) by (unfold on_screen; lia).
  destruct (write_cell_spec (cv_w c) (cv_h c) (cv_cells c) x y pr bg (fun b => Cell g wd false fg b at_) Hl Hs)
    as (l1 & old & E1 & Eo & HL1 & HC1 & HO1).
  rewrite E1.
  destruct (put_conts_spec (cv_w c) (cv_h c) y fg bg at_ pr clip (wd - 1) (x + 1) l1) as (l2 & E2 & HL2 & HO2 & HP2);
    [congruence|lia|].
  rewrite E2. cbn [option_map]. exists l2. split; [reflexivity|]. split; [congruence|]. split.
  - intros x' y' Hs' Hn. rewrite HO2; auto; [|lia].
    apply HO1; auto. intros E. injection E as -> ->. apply Hn. lia.
  - intros Ht Hr _ Hw1 Hw2. assert (pr = false) by (unfold pr; rewrite Ht; reflexivity).
    rewrite H in *. split.
    + rewrite HO2; [|exact Hs|lia]. rewrite HC1. eexists; reflexivity.
    + intros k Hk. apply HP2; auto; lia.
Qed.

Lemma put_grapheme_only_in : forall (c : canvas) x y g wd fg bg at_ clip,
  length (cv_cells c) = (cv_w c * cv_h c)%nat ->
  exists l', put_grapheme c x y g wd fg bg at_ clip = Some (set_cells c l') /\
    only_in (cv_w c) (cv_h c) clip (cv_cells c) l'.
Proof.
  intros c x y g wd fg bg at_ clip Hl.
  destruct (put_grapheme_spec c x y g wd fg bg at_ clip Hl) as (l' & E & HL & HO & _).
  exists l'. split; [exact E|]. split; [exact HL|]. intros x' y' Hs Hn. apply HO; auto. tauto.
Qed.

Lemma put_str_loop_only_in : forall y fg bg at_ clip s (c : canvas) cx,
  length (cv_cells c) = (cv_w c * cv_h c)%nat ->
  exists l', put_str_loop c cx y s fg bg at_ clip = Some (set_cells c l') /\
    only_in (cv_w c) (cv_h c) clip (cv_cells c) l'.
Proof.
  intros y fg bg at_ clip. induction s as [|g s IH]; intros c cx Hl; cbn [Canvas_Model.put_str_loop].
  - exists (cv_cells c). destruct c. split; [reflexivity|apply only_in_refl].
  - destruct (rg_x clip + rg_w clip <=? cx).
    + exists (cv_cells c). destruct c. split; [reflexivity|apply only_in_refl].
    + destruct (put_grapheme_only_in c cx y g (gw g) fg bg at_ clip Hl) as (l1 & E1 & HO1). rewrite E1.
      destruct (IH (set_cells c l1) (cx + Z.of_nat (gw g))) as (l2 & E2 & HO2).
      { cbn. destruct HO1 as [-> _]. exact Hl. }
      exists l2. split; [exact E2|]. eapply only_in_trans; [exact HO1|exact HO2].
Qed.

Lemma put_str_only_in : forall (c : canvas) x y s fg bg at_,
  length (cv_cells c) = (cv_w c * cv_h c)%nat ->
  exists l', put_str c x y s fg bg at_ = Some (set_cells c l') /\
    only_in (cv_w c) (cv_h c) (current_clip c) (cv_cells c) l'.
Proof.
  intros c x y s fg bg at_ Hl. unfold Canvas_Model.put_str.
  assert (T : exists l', Some c = Some (set_cells c l') /\
    only_in (cv_w c) (cv_h c) (current_clip c) (cv_cells c) l').
  { exists (cv_cells c). destruct c. split; [reflexivity|apply only_in_refl]. }
  match goal with |- context [if ?b then _ else _] => destruct b; [exact T|] end.
  match goal with |- context [if ?b then _ else _] => destruct b; [exact T|] end.
  now apply put_str_loop_only_in.
Qed.

Lemma current_clip_set_cells : forall (c : canvas) l, current_clip (set_cells c l) = current_clip c.
Proof. intros [] l. reflexivity. Qed.

Lemma set_cells_id : forall c : canvas, set_cells c (cv_cells c) = c.
Proof. intros []. reflexivity. Qed.

Lemma render_strip_only_in : forall y segs (c : canvas) x,
  length (cv_cells c) = (cv_w c * cv_h c)%nat ->
  exists l', render_strip c segs x y = Some (set_cells c l') /\
    only_in (cv_w c) (cv_h c) (current_clip c) (cv_cells c) l'.
Proof.
  intros y. induction segs as [|s r IH]; intros c x Hl; cbn [Canvas_Model.render_strip].
  - exists (cv_cells c). rewrite set_cells_id. split; [reflexivity|apply only_in_refl].
  - destruct (put_str_only_in c x y (s_text s) (s_fg s) (s_bg s) (s_attrs s) Hl) as (l1 & E1 & HO1). rewrite E1.
    destruct (IH (set_cells c l1) (x + Z.of_nat (s_len s))) as (l2 & E2 & HO2).
    { cbn. destruct HO1 as [-> _]. exact Hl. }
    exists l2. split; [exact E2|]. rewrite current_clip_set_cells in HO2.
    eapply only_in_trans; [exact HO1|exact HO2].
Qed.

Lemma render_strips_only_in : forall strips (c : canvas) x y,
  length (cv_cells c) = (cv_w c * cv_h c)%nat ->
  exists l', render_strips c strips x y = Some (set_cells c l') /\
    only_in (cv_w c) (cv_h c) (current_clip c) (cv_cells c) l'.
Proof.
  induction strips as [|s r IH]; intros c x y Hl; cbn [Canvas_Model.render_strips].
  - exists (cv_cells c). rewrite set_cells_id. split; [reflexivity|apply only_in_refl].
  - destruct (render_strip_only_in y s c x Hl) as (l1 & E1 & HO1). rewrite E1.
    destruct (IH (set_cells c l1) x (y + 1)) as (l2 & E2 & HO2).
    { cbn. destruct HO1 as [-> _]. exact Hl. }
    exists l2. split; [exact E2|]. rewrite current_clip_set_cells in HO2.
    eapply only_in_trans; [exact HO1|exact HO2].
Qed.

Lemma do_draw_only_in : forall d (c : canvas), length (cv_cells c) = (cv_w c * cv_h c)%nat ->
  exists l', do_draw c d = Some (set_cells c l') /\
    only_in (cv_w c) (cv_h c) (current_clip c) (cv_cells c) l'.
Proof.
  intros [x y g fg bg a|x y s fg bg a|segs x y|strips x y] c Hl; cbn [Canvas_Spec.do_draw].
  - unfold put_char. now apply put_grapheme_only_in.
  - now apply put_str_only_in.
  - now apply render_strip_only_in.
  - now apply render_strips_only_in.
Qed.

(** *** Histories *)

(** the stored clip stack is the running intersection of the open clips *)
Fixpoint clips_of (w h : nat) (l : list region) : list region :=
  match l with
  | [] => []
  | r :: rest =>
      intersection r (match clips_of w h rest with
                      | c :: _ => c
                      | [] => Region 0 0 (Z.of_nat w) (Z.of_nat h) end) :: clips_of w h rest
  end.

Definition good (w h : nat) (open : list region) (c : canvas) : Prop :=
  cv_w c = w /\ cv_h c = h /\ length (cv_cells c) = (w * h)%nat /\ length (cv_prev c) = (w * h)%nat /\
  cv_clips c = clips_of w h open /\ Forall region_i32 open.

Lemma step_good : forall w h open o (c : canvas), good w h open c -> op_i32 o ->
  exists c', do_op c o = Some c' /\ good w h (open_step open o) c'.
Proof.
  intros w h open o c (Hw & Hh & Hl & Hp & Hcl & HF) Ho.
  destruct o as [d|r| | | |]; cbn [Canvas_Spec.do_op open_step].
  - destruct (do_draw_only_in d c) as (l' & E & HO); [congruence|]. exists (set_cells c l').
    split; [exact E|]. destruct HO as [HL _]. repeat split; cbn; congruence || auto.
  - eexists. split; [reflexivity|]. repeat split; cbn; auto. unfold current_clip.
    rewrite Hcl, Hw, Hh. destruct (clips_of w h open); reflexivity.
  - eexists. split; [reflexivity|]. repeat split; cbn; auto.
    + rewrite Hcl. destruct open; reflexivity.
    + destruct HF; cbn; auto.
  - eexists. split; [reflexivity|]. repeat split; cbn; auto. rewrite repeat_length. exact Hl.
  - eexists. split; [reflexivity|]. repeat split; cbn; auto.
  - eexists. split; [reflexivity|]. repeat split; cbn; auto.
Qed.

Lemma run_good : forall w h ops open (c : canvas), good w h open c -> Forall op_i32 ops ->
  exists c', run c ops = Some c' /\ good w h (fold_left open_step ops open) c'.
Proof.
  intros w h. induction ops as [|o r IH]; intros open c Hg HF; cbn [Canvas_Spec.run fold_left].
  - exists c. auto.
  - inversion HF; subst. destruct (step_good w h open o c Hg) as (c1 & E & Hg1); [assumption|].
    rewrite E. apply IH; assumption.
Qed.

Lemma new_good : forall w h c, canvas_new space w h = Some c -> good w h [] c.
Proof.
  intros w h c H. unfold canvas_new in H. destruct (_ <=? _); [|discriminate]. injection H as <-.
  repeat split; cbn; auto using repeat_length.
Qed.

Definition clip_of (w h : nat) (l : list region) : region :=
  match clips_of w h l with c :: _ => c | [] => Region 0 0 (Z.of_nat w) (Z.of_nat h) end.

Lemma clip_of_spec : forall w h l, is_u16 w -> is_u16 h -> Forall region_i32 l ->
  clip_in w h (clip_of w h l) /\
  forall x y, is_i32 x -> is_i32 y ->
   (contains_point (clip_of w h l) x y = true <-> on_screen w h x y /\ Forall (fun r => contains_point r x y = true) l).
Proof.
  intros w h l Hw Hh HF. induction HF as [|r l Hr HF IH].
  - unfold clip_of; cbn [clips_of]. split.
    + unfold clip_in; cbn. lia.
    + intros x y Hx Hy. rewrite (clip_in_contains w h); [|assumption|assumption|unfold clip_in; cbn; lia].
      unfold on_screen, in_region; cbn. split; [intros; split; [lia|constructor]|lia].
  - destruct IH as [IHc IH].
    assert (E : clip_of w h (r :: l) = intersection r (clip_of w h l)) by reflexivity. rewrite E. split.
    + apply intersection_clip_in; auto.
    + intros x y Hx Hy. rewrite intersection_contains; auto; [|now apply (clip_in_i32 w h)].
      rewrite andb_true_iff, IH by assumption. split.
      * intros (A & B & C). auto.
      * intros (A & B). inversion B; subst. auto.
Qed.

Lemma good_clip : forall w h open c, good w h open c -> current_clip c = clip_of w h open.
Proof.
  intros w h open c (Hw & Hh & _ & _ & Hcl & _). unfold current_clip, clip_of. rewrite Hcl, Hw, Hh. reflexivity.
Qed.

(** C05 *)
Lemma draw_safe : forall w h c0 ops c d,
  is_u16 w -> is_u16 h -> canvas_new space w h = Some c0 -> Forall op_i32 ops ->
  run c0 ops = Some c ->
  exists c', do_draw c d = Some c' /\
    length (cv_cells c') = (w * h)%nat /\
    cv_clips c' = cv_clips c /\ cv_prev c' = cv_prev c /\
    forall x y, on_screen w h x y ->
      (exists r, In r (open_clips ops) /\ contains_point r x y = false) ->
      cell_xy w (cv_cells c') x y = cell_xy w (cv_cells c) x y.
Proof.
  intros w h c0 ops c d Hw Hh H0 HF HR.
  destruct (run_good w h ops [] c0 (new_good w h c0 H0) HF) as (c1 & E1 & Hg).
  rewrite HR in E1. injection E1 as <-. fold (open_clips ops) in Hg.
  pose proof (good_clip _ _ _ _ Hg) as Hclip.
  pose proof Hg as (Hw' & Hh' & Hl & Hp & Hcl & HFi).
  destruct (do_draw_only_in d c) as (l' & E & HL & HO); [congruence|].
  exists (set_cells c l'). split; [exact E|]. split; [cbn; congruence|]. split; [reflexivity|]. split; [reflexivity|].
  intros x y Hs (r & Hin & Hr). rewrite Hw', Hh' in HO. apply HO; [exact Hs|].
  rewrite Hclip. destruct (clip_of_spec w h (open_clips ops) Hw Hh HFi) as [Hci Hsp].
  rewrite <- (clip_in_contains w h) by assumption. intros Hc.
  apply Hsp in Hc; [|unfold on_screen, is_u16, is_i32 in *; lia..].
  destruct Hc as [_ Hc]. rewrite Forall_forall in Hc. rewrite (Hc r Hin) in Hr. discriminate.
Qed.

Lemma run_app : forall a b c, run c (a ++ b) = match run c a with None => None | Some c' => run c' b end.
Proof.
  induction a as [|o a IH]; intros b c; cbn [app Canvas_Spec.run]; [reflexivity|].
  destruct (do_op c o); [apply IH|reflexivity].
Qed.

(** C06 *)
Lemma clip_exact : forall w h c0 ops c x y,
  is_u16 w -> is_u16 h -> canvas_new space w h = Some c0 -> Forall op_i32 ops ->
  run c0 ops = Some c -> is_i32 x -> is_i32 y ->
  (contains_point (current_clip c) x y = true <->
   on_screen w h x y /\ Forall (fun r => contains_point r x y = true) (open_clips ops)).
Proof.
  intros w h c0 ops c x y Hw Hh H0 HF HR Hx Hy.
  destruct (run_good w h ops [] c0 (new_good w h c0 H0) HF) as (c1 & E1 & Hg).
  rewrite HR in E1. injection E1 as <-. fold (open_clips ops) in Hg.
  rewrite (good_clip _ _ _ _ Hg). apply clip_of_spec; auto. apply Hg.
Qed.

Lemma pop_push : forall (c : canvas) r, pop_clip (push_clip c r) = c.
Proof. intros [] r. reflexivity. Qed.

(** C05, positive: text is drawn where asked *)
Lemma put_str_loop_draws : forall y fg bg at_ clip g s2 s1 (c : canvas) cx,
  length (cv_cells c) = (cv_w c * cv_h c)%nat -> translucent bg = false ->
  let px := cx + Z.of_nat (fold_right (fun s n => (gw s + n)%nat) 0%nat s1) in
  (1 <= gw g)%nat ->
  in_region clip px y -> on_screen (cv_w c) (cv_h c) px y ->
  px + Z.of_nat (gw g) <= rg_x clip + rg_w clip -> px + Z.of_nat (gw g) <= Z.of_nat (cv_w c) ->
  exists l', put_str_loop c cx y (s1 ++ g :: s2) fg bg at_ clip = Some (set_cells c l') /\
    (exists b, cell_xy (cv_w c) l' px y = Some (Cell g (gw g) false fg b at_)) /\
    forall k, 1 <= k < Z.of_nat (gw g) ->
      exists b, cell_xy (cv_w c) l' (px + k) y = Some (Cell space 0 true fg b at_).
Proof.
  intros y fg bg at_ clip g s2.
  (* later graphemes do not touch columns before cx *)
  assert (LATER : forall s (c : canvas) cx, length (cv_cells c) = (cv_w c * cv_h c)%nat ->
    exists l', put_str_loop c cx y s fg bg at_ clip = Some (set_cells c l') /\
      forall x', on_screen (cv_w c) (cv_h c) x' y -> x' < cx ->
        cell_xy (cv_w c) l' x' y = cell_xy (cv_w c) (cv_cells c) x' y).
  { induction s as [|g0 s IH]; intros c cx Hl; cbn [Canvas_Model.put_str_loop].
    - exists (cv_cells c). rewrite set_cells_id. auto.
    - destruct (rg_x clip + rg_w clip <=? cx).
      + exists (cv_cells c). rewrite set_cells_id. auto.
      + destruct (put_grapheme_spec c cx y g0 (gw g0) fg bg at_ clip Hl) as (l1 & E1 & HL1 & HO1 & _).
        rewrite E1. destruct (IH (set_cells c l1) (cx + Z.of_nat (gw g0))) as (l2 & E2 & HO2).
        { cbn. rewrite HL1. exact Hl. }
        exists l2. split; [exact E2|]. intros x' Hs Hlt. cbn in HO2. rewrite HO2; auto; [|lia].
        apply HO1; auto. lia. }
  induction s1 as [|g0 s1 IH]; intros c cx Hl Ht px Hg Hr Hs Hw1 Hw2; cbn [app Canvas_Model.put_str_loop].
  - cbn [fold_right] in px. unfold in_region in Hr.
    destruct (Z.leb_spec (rg_x clip + rg_w clip) cx); [lia|].
    destruct (put_grapheme_spec c cx y g (gw g) fg bg at_ clip Hl) as (l1 & E1 & HL1 & _ & HD).
    replace px with cx in * by (unfold px; lia).
    destruct HD as [[b Hb] HK]; auto. rewrite E1.
    destruct (LATER s2 (set_cells c l1) (cx + Z.of_nat (gw g))) as (l2 & E2 & HO2).
    { cbn. rewrite HL1. exact Hl. }
    exists l2. split; [exact E2|]. cbn in HO2. split.
    + exists b. rewrite HO2; auto. lia.
    + intros k Hk. destruct (HK k Hk) as [b' Hb']. exists b'. rewrite HO2; auto; [|lia].
      unfold on_screen in *. lia.
  - cbn [fold_right] in px. unfold in_region in Hr.
    destruct (Z.leb_spec (rg_x clip + rg_w clip) cx); [lia|].
    destruct (put_grapheme_spec c cx y g0 (gw g0) fg bg at_ clip Hl) as (l1 & E1 & HL1 & _ & _).
    rewrite E1.
    destruct (IH (set_cells c l1) (cx + Z.of_nat (gw g0))) as (l2 & E2 & HD); auto.
    + cbn. rewrite HL1. exact Hl.
    + unfold in_region. lia.
    + cbn. unfold on_screen in *. lia.
    + lia.
    + cbn. lia.
    + exists l2. split; [exact E2|]. cbn in HD.
      replace px with (cx + Z.of_nat (gw g0) + Z.of_nat (fold_right (fun s n => (gw s + n)%nat) 0%nat s1)) by lia.
      exact HD.
Qed.

Lemma put_str_draws : forall w h c0 ops c x y s1 g s2 fg bg at_,
  is_u16 w -> is_u16 h -> canvas_new space w h = Some c0 -> Forall op_i32 ops ->
  run c0 ops = Some c -> translucent bg = false -> (1 <= gw g)%nat ->
  let px := x + Z.of_nat (fold_right (fun s n => (gw s + n)%nat) 0%nat s1) in
  (forall k, 0 <= k < Z.of_nat (gw g) -> on_screen w h (px + k) y /\
     Forall (fun r => contains_point r (px + k) y = true) (open_clips ops)) ->
  exists c', put_str c x y (s1 ++ g :: s2) fg bg at_ = Some c' /\
    (exists b, cell_xy w (cv_cells c') px y = Some (Cell g (gw g) false fg b at_)) /\
    forall k, 1 <= k < Z.of_nat (gw g) ->
      exists b, cell_xy w (cv_cells c') (px + k) y = Some (Cell space 0 true fg b at_).
Proof.
  intros w h c0 ops c x y s1 g s2 fg bg at_ Hw Hh H0 HF HR Ht Hg px Hall.
  destruct (run_good w h ops [] c0 (new_good w h c0 H0) HF) as (c1 & E1 & Hgd).
  rewrite HR in E1. injection E1 as <-. fold (open_clips ops) in Hgd.
  pose proof (good_clip _ _ _ _ Hgd) as Hclip.
  pose proof Hgd as (Hw' & Hh' & Hl & Hp & Hcl & HFi).
  destruct (clip_of_spec w h (open_clips ops) Hw Hh HFi) as [Hci Hsp].
  assert (HR2 : forall k, 0 <= k < Z.of_nat (gw g) -> in_region (current_clip c) (px + k) y).
  { intros k Hk. destruct (Hall k Hk) as [A B]. rewrite Hclip. apply (clip_in_contains w h); auto.
    apply Hsp; [unfold on_screen, is_u16, is_i32 in *; lia..|]. auto. }
  assert (R0 := HR2 0 ltac:(lia)). assert (R1 := HR2 (Z.of_nat (gw g) - 1) ltac:(lia)).
  destruct (Hall 0 ltac:(lia)) as [S0 _]. destruct (Hall (Z.of_nat (gw g) - 1) ltac:(lia)) as [S1 _].
  unfold in_region, on_screen in *. unfold Canvas_Model.put_str.
  rewrite Hh'.
  replace ((y <? rg_y (current_clip c)) || (rg_y (current_clip c) + rg_h (current_clip c) <=? y)) with false by lia.
  replace ((y <? 0) || (Z.of_nat h <=? y)) with false by lia.
  destruct (put_str_loop_draws y fg bg at_ (current_clip c) g s2 s1 c x) as (l' & E & HD);
    try (unfold in_region, on_screen; rewrite ?Hw', ?Hh'; fold px; lia); auto; try congruence.
  exists (set_cells c l'). split; [exact E|]. rewrite Hw' in HD. fold px in HD. exact HD.
Qed.

End Proofs.
