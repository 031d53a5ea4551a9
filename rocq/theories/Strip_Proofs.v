From Coq Require Import List Arith Bool Lia ZifyBool ZifyNat.
From Verif Require Import Strip_Model Strip_Spec.
Import ListNotations.

Lemma incr_nth_length : forall i l, length (incr_nth i l) = length l.
Proof. intros i l. revert i. induction l as [|x l IH]; intros [|i]; cbn; auto. Qed.

Lemma incr_nth_nth : forall l i j, i < length l ->
  nth j (incr_nth i l) 0 = nth j l 0 + (if i =? j then 1 else 0).
Proof.
  induction l as [|x l IH]; intros i j H; cbn [length] in H; [lia|].
  destruct i as [|i], j as [|j]; cbn [incr_nth nth Nat.eqb]; try lia.
  apply IH. lia.
Qed.

Fixpoint sum (l : list nat) : nat := match l with [] => 0 | x :: r => x + sum r end.

Lemma incr_nth_sum : forall l i, i < length l -> sum (incr_nth i l) = S (sum l).
Proof.
  induction l as [|x l IH]; intros i H; cbn [length] in H; [lia|].
  destruct i as [|i]; cbn; [reflexivity|]. rewrite IH by lia. lia.
Qed.

Lemma spread_loop_spec : forall gaps, 0 < gaps -> forall n i v, length v = gaps ->
  (forall j, j < gaps -> nth j v 0 = even_share gaps i j) -> sum v = i ->
  length (spread_loop gaps i n v) = gaps /\ sum (spread_loop gaps i n v) = i + n /\
  forall j, j < gaps -> nth j (spread_loop gaps i n v) 0 = even_share gaps (i + n) j.
Proof.
  intros gaps Hg. induction n as [|n IH]; intros i v Hl Hv Hs; cbn [spread_loop].
  - rewrite Nat.add_0_r. auto.
  - pose proof (Nat.mod_upper_bound i gaps ltac:(lia)) as Hm.
    replace (i + S n) with (S i + n) by lia. apply IH.
    + rewrite incr_nth_length. exact Hl.
    + intros j Hj. rewrite incr_nth_nth by lia. rewrite Hv by assumption. unfold even_share.
      pose proof (Nat.div_mod i gaps ltac:(lia)) as E.
      destruct (Nat.eq_dec (i mod gaps) (gaps - 1)) as [Em|Em].
      * assert (D : S i / gaps = S (i / gaps)) by (symmetry; apply Nat.div_unique with (r := 0); lia).
        assert (M : S i mod gaps = 0) by (symmetry; apply Nat.mod_unique with (q := S (i / gaps)); lia).
        rewrite D, M, Em.
        destruct (Nat.leb_spec (gaps - (gaps - 1)) j), (Nat.leb_spec (gaps - 0) j), (Nat.eqb_spec (gaps - 1 - (gaps - 1)) j); lia.
      * assert (D : S i / gaps = i / gaps) by (symmetry; apply Nat.div_unique with (r := S (i mod gaps)); lia).
        assert (M : S i mod gaps = S (i mod gaps)) by (symmetry; apply Nat.mod_unique with (q := i / gaps); lia).
        rewrite D, M.
        destruct (Nat.leb_spec (gaps - i mod gaps) j), (Nat.leb_spec (gaps - S (i mod gaps)) j), (Nat.eqb_spec (gaps - 1 - i mod gaps) j); lia.
    + rewrite incr_nth_sum by lia. lia.
Qed.

Lemma nth_repeat0 : forall n j, nth j (repeat 0 n) 0 = 0.
Proof. induction n; intros [|j]; cbn; auto. Qed.

Lemma sum_repeat0 : forall n, sum (repeat 0 n) = 0.
Proof. induction n; cbn; auto. Qed.

Lemma spread_spec : forall gaps extra, 0 < gaps ->
  length (spread gaps extra) = gaps /\ sum (spread gaps extra) = extra /\
  forall j, j < gaps -> nth j (spread gaps extra) 0 = even_share gaps extra j.
Proof.
  intros gaps extra Hg. unfold spread.
  apply (spread_loop_spec gaps Hg extra 0 (repeat 0 gaps)).
  - apply repeat_length.
  - intros j Hj. rewrite nth_repeat0. unfold even_share.
    rewrite Nat.div_0_l, Nat.mod_0_l by lia. destruct (Nat.leb_spec (gaps - 0) j); lia.
  - apply sum_repeat0.
Qed.

Fixpoint sumf (f : nat -> nat) (i n : nat) : nat :=
  match n with O => 0 | S k => f i + sumf f (S i) k end.

Lemma sumf_nth : forall l i d, sumf (fun j => nth (j - d) l 0) (d + i) (length l - i) = sum (skipn i l).
Proof.
  intros l i d. remember (length l - i) as n eqn:En. revert i En.
  induction n as [|n IH]; intros i En.
  - rewrite skipn_all2 by lia. reflexivity.
  - cbn [sumf]. replace (S (d + i)) with (d + S i) by lia. rewrite IH by lia.
    replace (d + i - d) with i by lia.
    assert (Hi : i < length l) by lia. clear -Hi. revert i Hi.
    induction l as [|x l IHl]; intros i Hi; cbn [length] in Hi; [lia|].
    destruct i as [|i]; [reflexivity|]. cbn [nth skipn]. rewrite IHl by lia. reflexivity.
Qed.

Lemma sumf_ext : forall f g n i, (forall j, i <= j < i + n -> f j = g j) -> sumf f i n = sumf g i n.
Proof.
  intros f g. induction n as [|n IH]; intros i H; [reflexivity|]. cbn. rewrite H by lia.
  f_equal. apply IH. intros j Hj. apply H. lia.
Qed.

Lemma sumf_list : forall l, sumf (fun j => nth j l 0) 0 (length l) = sum l.
Proof.
  intros l. pose proof (sumf_nth l 0 0) as H. rewrite Nat.sub_0_r in H. cbn [Nat.add skipn] in H.
  rewrite <- H. apply sumf_ext. intros j _. now rewrite Nat.sub_0_r.
Qed.

Lemma last_nonempty : forall (r : list nat) x c d, List.last (x :: r) c = List.last (x :: r) d.
Proof.
  induction r as [|y r IH]; intros x c d; [reflexivity|].
  change (List.last (y :: r) c = List.last (y :: r) d). apply IH.
Qed.

Lemma last_default : forall (r : list nat) c d, List.last r c = List.last (c :: r) d.
Proof.
  intros [|x r] c d; [reflexivity|].
  change (List.last (x :: r) c = List.last (x :: r) d). apply last_nonempty.
Qed.

Lemma last_lt : forall cuts d b, d < b -> (forall c, In c cuts -> c < b) -> List.last cuts d < b.
Proof.
  induction cuts as [|c r IH]; intros d b Hd H; [exact Hd|].
  destruct r as [|c' r']; [apply H; left; reflexivity|].
  change (List.last (c :: c' :: r') d) with (List.last (c' :: r') d).
  apply IH; [exact Hd|]. intros x Hx. apply H. right; exact Hx.
Qed.

Lemma diffs_snoc : forall cuts last b, diffs last (cuts ++ [b]) = diffs last cuts ++ [b - List.last cuts last].
Proof.
  induction cuts as [|c r IH]; intros last b; [reflexivity|].
  cbn [app diffs]. rewrite IH. rewrite <- last_default. reflexivity.
Qed.

Lemma map_repeat_ : forall (A B : Type) (f : A -> B) x n, map f (repeat x n) = repeat (f x) n.
Proof. induction n; cbn; congruence. Qed.

Section Proofs.
Context {G St Mt : Type}.
Variable gw : G -> nat.

Notation segment := (@segment G St Mt).
Notation strip := (@strip G St Mt).
Notation W := (text_width gw).
Notation CW := (@cells_width G St Mt gw).
Notation split_at := (@split_at G St Mt gw).
Notation crop := (@crop G St Mt gw).
Notation crop_loop := (@crop_loop G St Mt gw).

Arguments text_width : simpl never.
Arguments cells_width : simpl never.

Lemma W_app : forall a b, W (a ++ b) = W a + W b.
Proof. induction a as [|x a IH]; intros b; [reflexivity|]. cbn [app]. unfold text_width in *. cbn [fold_right]. rewrite IH. lia. Qed.

Lemma W_cons : forall x a, W (x :: a) = gw x + W a.
Proof. reflexivity. Qed.
Lemma W_nil : W [] = 0.
Proof. reflexivity. Qed.
Lemma CW_cons : forall (x : @cell G St Mt) a, CW (x :: a) = gw (fst (fst x)) + CW a.
Proof. reflexivity. Qed.
Lemma CW_nil : CW (@nil (@cell G St Mt)) = 0.
Proof. reflexivity. Qed.

Lemma CW_app : forall (a b : list (@cell G St Mt)), CW (a ++ b) = CW a + CW b.
Proof. induction a as [|x a IH]; intros b; [reflexivity|]. cbn [app]. rewrite !CW_cons, IH. lia. Qed.

Lemma CW_seg : forall x : segment, CW (seg_cells x) = W (sg_text x).
Proof.
  intros [t n s m]. unfold seg_cells; cbn. induction t as [|g t IH]; [reflexivity|].
  cbn [map]. rewrite CW_cons, W_cons, IH. reflexivity.
Qed.

Lemma seg_cells_app : forall a b n s m n1 n2,
  seg_cells (Segment (a ++ b) n s m : segment)
  = seg_cells (Segment a n1 s m) ++ seg_cells (Segment b n2 s m).
Proof. intros. unfold seg_cells; cbn. apply map_app. Qed.

(** *** split_at *)

Lemma split_loop_spec : forall cut t pos l r p,
  split_loop gw cut pos t = (l, r, p) ->
  t = l ++ r /\ p = pos + W l /\ (r = [] \/ cut <= p) /\
  (forall l1 g l2, l = l1 ++ g :: l2 -> pos + W l1 < cut).
Proof.
  intros cut. induction t as [|g t IH]; intros pos l r p E; cbn in E.
  - injection E as <- <- <-. cbn. rewrite W_nil. repeat split; auto; try lia.
    intros l1 g l2 H. destruct l1; discriminate.
  - destruct (Nat.leb_spec cut pos) as [H|H].
    + injection E as <- <- <-. cbn. rewrite W_nil. repeat split; auto; try lia.
      intros l1 g0 l2 E. destruct l1; discriminate.
    + destruct (split_loop gw cut (pos + gw g) t) as [[l0 r0] p0] eqn:E0.
      injection E as <- <- <-. destruct (IH _ _ _ _ E0) as (-> & -> & Hr & Hm).
      repeat split; auto.
      * rewrite W_cons. lia.
      * intros l1 g1 l2 EQ. destruct l1 as [|x l1]; cbn in EQ; injection EQ as -> EQ.
        -- rewrite W_nil; lia.
        -- specialize (Hm _ _ _ EQ). rewrite W_cons. lia.
Qed.

(** Lossless: texts concatenate, style and meta are kept. *)
Lemma split_lossless : forall (s : segment) cut,
  let '(l, r) := split_at s cut in
  sg_text l ++ sg_text r = sg_text s /\
  sg_style l = sg_style s /\ sg_style r = sg_style s /\
  sg_meta l = sg_meta s /\ sg_meta r = sg_meta s.
Proof.
  intros s cut. unfold Strip_Model.split_at.
  destruct (cut =? 0); [cbn; auto|].
  destruct (sg_len s <=? cut); [cbn; rewrite app_nil_r; auto|].
  destruct (split_loop gw cut 0 (sg_text s)) as [[l r] p] eqn:E.
  apply split_loop_spec in E. destruct E as (-> & _). cbn; auto.
Qed.

Lemma split_ok : forall (s : segment) cut, seg_ok gw s ->
  seg_ok gw (fst (split_at s cut)) /\ seg_ok gw (snd (split_at s cut)).
Proof.
  intros s cut H. unfold Strip_Model.split_at.
  destruct (cut =? 0); [cbn; split; [reflexivity|exact H]|].
  destruct (sg_len s <=? cut); [cbn; split; [exact H|reflexivity]|].
  destruct (split_loop gw cut 0 (sg_text s)) as [[l r] p] eqn:E.
  apply split_loop_spec in E. destruct E as (E & Ep & _). unfold seg_ok in *. cbn.
  rewrite H, E, W_app. lia.
Qed.

(** The left part is the shortest prefix of clusters covering [cut] columns. *)
Lemma split_minimal : forall (s : segment) cut, seg_ok gw s ->
  0 < cut < sg_len s ->
  let l := sg_text (fst (split_at s cut)) in
  cut <= W l /\ (forall l1 g l2, l = l1 ++ g :: l2 -> W l1 < cut).
Proof.
  intros s cut H [H0 H1]. unfold Strip_Model.split_at.
  destruct (Nat.eqb_spec cut 0); [lia|].
  destruct (Nat.leb_spec (sg_len s) cut); [lia|].
  destruct (split_loop gw cut 0 (sg_text s)) as [[l r] p] eqn:E. cbn.
  apply split_loop_spec in E. destruct E as (E & Ep & Hr & Hm). split.
  - destruct Hr as [-> | Hr]; [|lia]. rewrite app_nil_r in E. subst l.
    unfold seg_ok in H. lia.
  - exact Hm.
Qed.

Lemma split_trivial_zero : forall (s : segment),
  sg_text (fst (split_at s 0)) = [] /\ snd (split_at s 0) = s.
Proof. intros s. split; reflexivity. Qed.

Lemma split_trivial_all : forall (s : segment) cut, 0 < cut -> sg_len s <= cut ->
  fst (split_at s cut) = s /\ sg_text (snd (split_at s cut)) = [].
Proof.
  intros s cut H0 H. unfold Strip_Model.split_at.
  destruct (Nat.eqb_spec cut 0); [lia|]. destruct (Nat.leb_spec (sg_len s) cut); [|lia].
  split; reflexivity.
Qed.

(** *** straddling *)

Fixpoint nostr (c pos : nat) (l : list (@cell G St Mt)) : Prop :=
  match l with
  | [] => True
  | x :: r => ~ (pos < c < pos + gw (fst (fst x))) /\ nostr c (pos + gw (fst (fst x))) r
  end.

Lemma nostr_app : forall c a b pos,
  nostr c pos (a ++ b) <-> nostr c pos a /\ nostr c (pos + CW a) b.
Proof.
  intros c. induction a as [|x a IH]; intros b pos; cbn.
  - rewrite CW_nil, Nat.add_0_r. tauto.
  - rewrite CW_cons, IH. rewrite Nat.add_assoc. tauto.
Qed.

Lemma nostr_far_left : forall c l pos, c <= pos -> nostr c pos l.
Proof.
  intros c. induction l as [|x l IH]; intros pos H; cbn; [auto|].
  split; [lia|]. apply IH. lia.
Qed.

Lemma nostr_far_right : forall c l pos, pos + CW l <= c -> nostr c pos l.
Proof.
  intros c. induction l as [|x l IH]; intros pos H; cbn; [auto|].
  rewrite CW_cons in H. split; [lia|]. apply IH. lia.
Qed.

Lemma nostr_shift : forall d c l pos, nostr (d + c) (d + pos) l <-> nostr c pos l.
Proof.
  intros d c. induction l as [|x l IH]; intros pos; cbn; [tauto|].
  rewrite <- Nat.add_assoc. rewrite IH. split; intros [A B]; (split; [lia|exact B]).
Qed.

Lemma boundary_nostr : forall l c, boundary gw l c -> nostr c 0 l.
Proof.
  intros l c [k Hk]. rewrite <- (firstn_skipn k l). apply nostr_app. split.
  - apply nostr_far_right. lia.
  - apply nostr_far_left. lia.
Qed.

Lemma nostr_boundary : forall c l pos, nostr c pos l -> pos <= c <= pos + CW l ->
  exists k, pos + CW (firstn k l) = c.
Proof.
  intros c. induction l as [|x l IH]; intros pos H Hc.
  - exists 0. cbn [firstn] in *. rewrite CW_nil in *. lia.
  - cbn in H. rewrite CW_cons in Hc. destruct H as [H1 H2].
    destruct (Nat.eq_dec c pos) as [->|Hn]; [exists 0; cbn [firstn]; rewrite CW_nil; lia|].
    destruct (IH (pos + gw (fst (fst x))) H2) as [k Hk]; [lia|].
    exists (S k). cbn [firstn]. rewrite CW_cons. lia.
Qed.

Lemma split_exact : forall (s : segment) cut, seg_ok gw s ->
  all_visible gw (seg_cells s) -> nostr cut 0 (seg_cells s) -> cut <= sg_len s ->
  W (sg_text (fst (split_at s cut))) = cut.
Proof.
  intros s cut Hok Hv Hn Hle.
  destruct (Nat.eq_dec cut 0) as [->|H0]; [reflexivity|].
  destruct (Nat.eq_dec cut (sg_len s)) as [->|H1].
  - destruct (split_trivial_all s (sg_len s)) as [-> _]; [lia|lia|]. symmetry. exact Hok.
  - destruct (split_minimal s cut Hok) as [A B]; [lia|].
    pose proof (split_lossless s cut) as L. destruct (split_at s cut) as [l r] eqn:E.
    destruct L as (L & _). cbn in A, B. cbn.
    destruct (Nat.eq_dec (W (sg_text l)) cut) as [|Hne]; [assumption|exfalso].
    destruct (exists_last (l := sg_text l)) as [l1 [g Hl]].
    { intros Hnil. rewrite Hnil in A. rewrite W_nil in A. lia. }
    specialize (B l1 g [] Hl).
    (* the last cluster straddles *)
    assert (Hg : gw g >= 0) by lia.
    destruct s as [t n st m]; cbn in *.
    unfold seg_cells in Hn; cbn in Hn. rewrite <- L, Hl, <- app_assoc, map_app in Hn.
    apply nostr_app in Hn. destruct Hn as [_ Hn]. cbn in Hn. destruct Hn as [Hn _].
    apply Hn. clear Hn.
    replace (CW (map (fun g0 : G => (g0, st, m)) l1)) with (W l1).
    2:{ pose proof (CW_seg (Segment l1 0 st m)) as Q. unfold seg_cells in Q; cbn in Q. symmetry. exact Q. }
    rewrite Hl, W_app in A, Hne. rewrite W_cons, W_nil in A, Hne. cbn [fst]. lia.
Qed.

(** *** column slices *)

Fixpoint colslice (a b pos : nat) (l : list (@cell G St Mt)) : list cell :=
  match l with
  | [] => []
  | x :: r => (if (a <=? pos) && (pos <? b) then [x] else [])
              ++ colslice a b (pos + gw (fst (fst x))) r
  end.

Lemma colslice_app : forall a b l1 l2 pos,
  colslice a b pos (l1 ++ l2) = colslice a b pos l1 ++ colslice a b (pos + CW l1) l2.
Proof.
  intros a b. induction l1 as [|x l1 IH]; intros l2 pos; cbn.
  - now rewrite CW_nil, Nat.add_0_r.
  - rewrite CW_cons, IH, Nat.add_assoc. now rewrite app_assoc.
Qed.

Lemma colslice_before : forall a b l pos, all_visible gw l -> pos + CW l <= a ->
  colslice a b pos l = [].
Proof.
  intros a b. induction l as [|x l IH]; intros pos Hv H; cbn; [reflexivity|].
  inversion Hv; subst. rewrite CW_cons in H.
  destruct (Nat.leb_spec a pos); [lia|]. cbn. apply IH; [assumption|lia].
Qed.

Lemma colslice_after : forall a b l pos, b <= pos -> colslice a b pos l = [].
Proof.
  intros a b. induction l as [|x l IH]; intros pos H; cbn [colslice]; [reflexivity|].
  replace ((a <=? pos) && (pos <? b)) with false by lia. cbn [app]. apply IH. lia.
Qed.

Lemma colslice_inside : forall a b l pos, all_visible gw l -> a <= pos -> pos + CW l <= b ->
  colslice a b pos l = l.
Proof.
  intros a b. induction l as [|x l IH]; intros pos Hv Ha Hb; cbn [colslice]; [reflexivity|].
  inversion Hv; subst. rewrite CW_cons in Hb.
  replace ((a <=? pos) && (pos <? b)) with true by lia. cbn [app].
  f_equal. apply IH; [assumption|lia|lia].
Qed.

Lemma push_cells : forall (x : segment) l,
  flat_map seg_cells (push_nonempty x l) = seg_cells x ++ flat_map seg_cells l.
Proof.
  intros [t n s m] l. unfold push_nonempty, seg_is_empty; cbn. destruct t; reflexivity.
Qed.

Lemma push_ok : forall (x : segment) l, seg_ok gw x -> Forall (seg_ok gw) l ->
  Forall (seg_ok gw) (push_nonempty x l).
Proof. intros x l H1 H2. unfold push_nonempty. destruct (seg_is_empty x); [assumption|constructor; assumption]. Qed.

Lemma all_visible_app : forall a b : list (@cell G St Mt),
  all_visible gw (a ++ b) <-> all_visible gw a /\ all_visible gw b.
Proof. intros. apply Forall_app. Qed.

Lemma split_cells : forall (s : segment) cut,
  seg_cells s = seg_cells (fst (split_at s cut)) ++ seg_cells (snd (split_at s cut)).
Proof.
  intros s cut. pose proof (split_lossless s cut) as H. destruct (split_at s cut) as [l r].
  destruct H as (A & B & C & D & E). unfold seg_cells; cbn.
  rewrite <- A, map_app, B, C, D, E. reflexivity.
Qed.

Lemma crop_loop_ok : forall start end_ segs cur, Forall (seg_ok gw) segs ->
  Forall (seg_ok gw) (crop_loop start end_ cur segs).
Proof.
  intros start end_. induction segs as [|x r IH]; intros cur H; cbn; [constructor|].
  inversion H as [|? ? Hx Hr]; subst.
  destruct (cur + sg_len x <=? start); [auto|].
  destruct (end_ <=? cur); [constructor|].
  destruct ((start - cur =? 0) && (Nat.min (end_ - cur) (sg_len x) =? sg_len x)); [constructor; auto|].
  destruct (start - cur =? 0); [apply push_ok; [apply split_ok; assumption|auto]|].
  destruct (Nat.min (end_ - cur) (sg_len x) =? sg_len x);
    (apply push_ok; [|auto]).
  - apply split_ok; assumption.
  - apply split_ok. apply split_ok; assumption.
Qed.

Lemma crop_loop_cells : forall start end_ segs cur,
  start < end_ ->
  Forall (seg_ok gw) segs ->
  all_visible gw (flat_map seg_cells segs) ->
  nostr start cur (flat_map seg_cells segs) ->
  nostr end_ cur (flat_map seg_cells segs) ->
  flat_map seg_cells (crop_loop start end_ cur segs)
  = colslice start end_ cur (flat_map seg_cells segs).
Proof.
  intros start end_ segs. induction segs as [|x r IH]; intros cur Hse Hok Hv Hs He; [reflexivity|].
  cbn [flat_map] in *. inversion Hok as [|? ? Hx Hr]; subst.
  apply all_visible_app in Hv. destruct Hv as [Vx Vr].
  apply nostr_app in Hs. destruct Hs as [Sx Sr].
  apply nostr_app in He. destruct He as [Ex Er].
  rewrite CW_seg in Sr, Er.
  assert (Lx : sg_len x = W (sg_text x)) by exact Hx.
  rewrite colslice_app, CW_seg, <- Lx. rewrite <- Lx in Sr, Er.
  specialize (IH (cur + sg_len x) Hse Hr Vr Sr Er).
  cbn [Strip_Model.crop_loop].
  destruct (Nat.leb_spec (cur + sg_len x) start) as [H1|H1].
  { rewrite IH. rewrite (colslice_before start end_ (seg_cells x)); [reflexivity|assumption|].
    rewrite CW_seg. lia. }
  destruct (Nat.leb_spec end_ cur) as [H2|H2].
  { cbn. rewrite !colslice_after by lia. reflexivity. }
  destruct (Nat.eqb_spec (start - cur) 0) as [H3|H3].
  - destruct (Nat.eqb_spec (Nat.min (end_ - cur) (sg_len x)) (sg_len x)) as [H4|H4]; cbn [andb].
    + cbn [flat_map]. rewrite IH. rewrite (colslice_inside start end_ (seg_cells x)); [reflexivity|assumption|lia|].
      rewrite CW_seg. lia.
    + rewrite push_cells, IH.
      replace (Nat.min (end_ - cur) (sg_len x)) with (end_ - cur) by lia.
      f_equal. rewrite (split_cells x (end_ - cur)).
      assert (HW : W (sg_text (fst (split_at x (end_ - cur)))) = end_ - cur).
      { apply split_exact; try assumption; [|lia].
        apply (nostr_shift cur). rewrite Nat.add_0_r.
        replace (cur + (end_ - cur)) with end_ by lia. exact Ex. }
      rewrite (split_cells x (end_ - cur)) in Vx. apply all_visible_app in Vx. destruct Vx as [V1 V2].
      rewrite colslice_app, CW_seg, HW.
      rewrite colslice_inside; [|assumption|lia|rewrite CW_seg, HW; lia].
      rewrite colslice_after by lia. now rewrite app_nil_r.
  - cbn [andb].
    assert (HW : W (sg_text (fst (split_at x (start - cur)))) = start - cur).
    { apply split_exact; try assumption; [|lia].
      apply (nostr_shift cur). rewrite Nat.add_0_r.
      replace (cur + (start - cur)) with start by lia. exact Sx. }
    assert (Ok2 := proj2 (split_ok x (start - cur) Hx)).
    assert (L2 : W (sg_text (snd (split_at x (start - cur)))) = sg_len x - (start - cur)).
    { pose proof (split_cells x (start - cur)) as Q.
      apply (f_equal CW) in Q. rewrite CW_app, !CW_seg in Q. lia. }
    pose proof Vx as Vx0. rewrite (split_cells x (start - cur)) in Vx0.
    apply all_visible_app in Vx0. destruct Vx0 as [V1 V2].
    destruct (Nat.eqb_spec (Nat.min (end_ - cur) (sg_len x)) (sg_len x)) as [H4|H4].
    + rewrite push_cells, IH. f_equal. rewrite (split_cells x (start - cur)).
      rewrite colslice_app, CW_seg, HW.
      rewrite colslice_before; [|assumption|rewrite CW_seg, HW; lia].
      rewrite colslice_inside; [reflexivity|assumption|lia|].
      rewrite CW_seg. lia.
    + rewrite push_cells, IH. f_equal.
      replace (Nat.min (end_ - cur) (sg_len x)) with (end_ - cur) by lia.
      set (y := snd (split_at x (start - cur))) in *.
      replace (end_ - cur - (start - cur)) with (end_ - start) by lia.
      assert (Ey : nostr end_ start (seg_cells y)).
      { pose proof Ex as Ex0. rewrite (split_cells x (start - cur)) in Ex0.
        apply nostr_app in Ex0. destruct Ex0 as [_ Ex0]. rewrite CW_seg, HW in Ex0.
        replace (cur + (start - cur)) with start in Ex0 by lia. exact Ex0. }
      assert (HY : W (sg_text (fst (split_at y (end_ - start)))) = end_ - start).
      { apply split_exact; try assumption.
        - apply (nostr_shift start). rewrite Nat.add_0_r.
          replace (start + (end_ - start)) with end_ by lia. exact Ey.
        - unfold seg_ok in Ok2. rewrite Ok2, L2. lia. }
      rewrite (split_cells x (start - cur)).
      rewrite colslice_app, CW_seg, HW.
      rewrite colslice_before; [|assumption|rewrite CW_seg, HW; lia].
      fold y. cbn [app]. rewrite (split_cells y (end_ - start)).
      rewrite (split_cells y (end_ - start)) in V2. apply all_visible_app in V2. destruct V2 as [V3 V4].
      rewrite colslice_app, CW_seg, HY.
      rewrite colslice_inside; [|assumption|lia|rewrite CW_seg, HY; lia].
      rewrite colslice_after by lia. now rewrite app_nil_r.
Qed.

Lemma from_segments_cells : forall l : list segment, cells (from_segments l) = flat_map seg_cells l.
Proof. reflexivity. Qed.

Lemma from_segments_ok : forall l : list segment, Forall (seg_ok gw) l -> strip_ok gw (from_segments l).
Proof.
  intros l H. split; [exact H|]. cbn. unfold cells; cbn. induction H as [|x r Hx Hr IH]; [reflexivity|].
  cbn [fold_right flat_map]. rewrite CW_app, CW_seg, IH. unfold seg_ok in Hx. lia.
Qed.

Lemma strip_new_ok : strip_ok gw (@strip_new G St Mt).
Proof. split; [constructor|reflexivity]. Qed.

Lemma crop_strip_ok : forall (s : strip) a b, strip_ok gw s -> strip_ok gw (crop s a b).
Proof.
  intros s a b [H _]. unfold Strip_Model.crop.
  destruct ((b <=? a) || (st_len s <=? a)); [apply strip_new_ok|].
  apply from_segments_ok. now apply crop_loop_ok.
Qed.

Lemma CW_nonneg_firstn : forall k (l : list (@cell G St Mt)), CW (firstn k l) <= CW l.
Proof.
  intros k l. rewrite <- (firstn_skipn k l) at 2. rewrite CW_app. lia.
Qed.

Lemma nostr_clamp : forall l c, boundary gw l c -> nostr (Nat.min c (CW l)) 0 l.
Proof.
  intros l c H. pose proof H as [k Hk].
  rewrite Nat.min_l by (rewrite <- Hk; apply CW_nonneg_firstn). now apply boundary_nostr.
Qed.

Lemma firstn_determined : forall l k k', all_visible gw l ->
  CW (firstn k l) = CW (firstn k' l) -> firstn k l = firstn k' l.
Proof.
  induction l as [|x l IH]; intros k k' Hv E; [now rewrite !firstn_nil|].
  inversion Hv; subst. destruct k as [|k], k' as [|k']; cbn [firstn] in *; rewrite ?CW_cons, ?CW_nil in E; try reflexivity; try lia.
  f_equal. apply IH; [assumption|]. lia.
Qed.

(** Main crop lemma: the columns between two boundaries. *)
Lemma crop_exact : forall (s : strip) A B C, strip_ok gw s -> all_visible gw (cells s) ->
  cells s = A ++ B ++ C -> cells (crop s (CW A) (CW (A ++ B))) = B.
Proof.
  intros s A B C [Hok Hlen] Hv Hc. unfold Strip_Model.crop.
  pose proof Hv as HvD. rewrite Hc in HvD. apply all_visible_app in HvD. destruct HvD as [VA HvD].
  apply all_visible_app in HvD. destruct HvD as [VB VC].
  assert (Hlen' : st_len s = CW A + CW B + CW C) by (rewrite Hlen, Hc, !CW_app; lia).
  rewrite CW_app.
  destruct (Nat.leb_spec (CW A + CW B) (CW A)) as [H|H].
  - cbn. destruct B as [|b B]; [reflexivity|]. inversion VB; subst. rewrite CW_cons in H. lia.
  - destruct (Nat.leb_spec (st_len s) (CW A)); [lia|]. cbn [orb].
    rewrite from_segments_cells, Nat.min_l by lia.
    rewrite crop_loop_cells; try assumption.
    + change (flat_map seg_cells (st_segs s)) with (cells s). rewrite Hc.
      rewrite !colslice_app.
      rewrite colslice_before; [|assumption|lia].
      rewrite colslice_inside; [|assumption|lia|lia].
      rewrite colslice_after by lia. cbn. now rewrite app_nil_r.
    + change (flat_map seg_cells (st_segs s)) with (cells s). rewrite Hc.
      apply nostr_app. split; [apply nostr_far_right; lia|apply nostr_far_left; lia].
    + change (flat_map seg_cells (st_segs s)) with (cells s). rewrite Hc, app_assoc.
      apply nostr_app. rewrite CW_app. split; [apply nostr_far_right; rewrite CW_app; lia|apply nostr_far_left; lia].
Qed.

Lemma crop_beyond : forall (s : strip) a b, strip_ok gw s ->
  crop s a b = crop s a (Nat.min b (st_len s)).
Proof.
  intros s a b _. unfold Strip_Model.crop.
  destruct (Nat.leb_spec (st_len s) a).
  - now rewrite !orb_true_r.
  - rewrite !orb_false_r.
    destruct (Nat.leb_spec b a).
    + destruct (Nat.leb_spec (Nat.min b (st_len s)) a); [reflexivity|lia].
    + destruct (Nat.leb_spec (Nat.min b (st_len s)) a); [lia|].
      f_equal. rewrite Nat.min_l with (n := Nat.min b (st_len s)) by lia. reflexivity.
Qed.

Lemma crop_empty : forall (s : strip) a b, b <= a \/ st_len s <= a -> cells (crop s a b) = [].
Proof.
  intros s a b H. unfold Strip_Model.crop.
  destruct (Nat.leb_spec b a); [reflexivity|]. destruct (Nat.leb_spec (st_len s) a); [reflexivity|lia].
Qed.

Lemma narrow_width : forall l : list (@cell G St Mt), all_narrow gw l -> CW l = length l.
Proof.
  induction l as [|x l IH]; intros H; [reflexivity|]. inversion H; subst. rewrite CW_cons. cbn [length]. rewrite IH by assumption. lia.
Qed.

Lemma narrow_visible : forall l : list (@cell G St Mt), all_narrow gw l -> all_visible gw l.
Proof. intros l H. eapply Forall_impl; [|exact H]. cbn. lia. Qed.

Lemma narrow_firstn : forall k (l : list (@cell G St Mt)), all_narrow gw l -> all_narrow gw (firstn k l).
Proof. intros k l H. unfold all_narrow in *. rewrite <- (firstn_skipn k l) in H. apply Forall_app in H. tauto. Qed.
Lemma narrow_skipn : forall k (l : list (@cell G St Mt)), all_narrow gw l -> all_narrow gw (skipn k l).
Proof. intros k l H. unfold all_narrow in *. rewrite <- (firstn_skipn k l) in H. apply Forall_app in H. tauto. Qed.

Lemma crop_narrow : forall (s : strip) a b, strip_ok gw s -> all_narrow gw (cells s) ->
  cells (crop s a b) = firstn (b - a) (skipn a (cells s)).
Proof.
  intros s a b Hok Hn.
  assert (Hlen : st_len s = length (cells s)) by (destruct Hok as [_ ->]; now apply narrow_width).
  destruct (le_lt_dec b a) as [H|H].
  { rewrite crop_empty by lia. replace (b - a) with 0 by lia. reflexivity. }
  destruct (le_lt_dec (st_len s) a) as [H1|H1].
  { rewrite crop_empty by lia. rewrite skipn_all2 by lia. now rewrite firstn_nil. }
  rewrite crop_beyond by assumption.
  set (A := firstn a (cells s)). set (B := firstn (b - a) (skipn a (cells s))).
  set (C := skipn (b - a) (skipn a (cells s))).
  assert (Hd : cells s = A ++ B ++ C) by (unfold A, B, C; now rewrite !firstn_skipn).
  assert (HA : CW A = a).
  { unfold A. rewrite narrow_width by now apply narrow_firstn. rewrite firstn_length. lia. }
  assert (HB : CW (A ++ B) = Nat.min b (st_len s)).
  { rewrite CW_app, HA. unfold B. rewrite narrow_width by now apply narrow_firstn, narrow_skipn.
    rewrite firstn_length, skipn_length. lia. }
  rewrite <- HB, <- HA at 1. rewrite HA. rewrite <- HA at 1.
  apply crop_exact with (C := C); [assumption|now apply narrow_visible|exact Hd].
Qed.


(** *** divide *)

Lemma prefix_by_width : forall l A R k, all_visible gw l -> l = A ++ R ->
  CW A <= CW (firstn k l) -> exists B, firstn k l = A ++ B /\ R = B ++ skipn k l.
Proof.
  intros l A. revert l. induction A as [|x A IH]; intros l R k Hv E Hle.
  - exists (firstn k l). split; [reflexivity|]. cbn in E. subst R. symmetry. apply firstn_skipn.
  - subst l. cbn [app] in *. inversion Hv; subst. destruct k as [|k].
    + cbn [firstn] in Hle. rewrite CW_cons, CW_nil in Hle. lia.
    + cbn [firstn skipn] in *. rewrite !CW_cons in Hle.
      destruct (IH (A ++ R) R k) as [B [E1 E2]]; [assumption|reflexivity|lia|].
      exists B. split; [rewrite E1; reflexivity|exact E2].
Qed.

Lemma divide_loop_cells : forall (s : strip) cuts last A R ps l,
  strip_ok gw s -> all_visible gw (cells s) ->
  (forall c, In c cuts -> c <= st_len s -> boundary gw (cells s) c) ->
  cells s = A ++ R -> CW A = last ->
  divide_loop gw s last cuts = (ps, l) ->
  exists B C, R = B ++ C /\ flat_map cells ps = B /\ CW (A ++ B) = l.
Proof.
  intros s. induction cuts as [|cut r IH]; intros last A R ps l Hok Hv Hb Hc Hw E; cbn [divide_loop] in E.
  - injection E as <- <-. exists [], R. rewrite app_nil_r. auto.
  - destruct ((last <? cut) && (cut <=? st_len s)) eqn:Ec.
    + destruct (divide_loop gw s cut r) as [ps0 l0] eqn:E0. injection E as <- <-.
      apply andb_true_iff in Ec. destruct Ec as [E1 E2].
      apply Nat.ltb_lt in E1. apply Nat.leb_le in E2.
      destruct (Hb cut (or_introl eq_refl) E2) as [k Hk].
      destruct (prefix_by_width (cells s) A R k Hv Hc) as [B1 [HB1 HR]]; [lia|].
      assert (Hc' : cells s = (A ++ B1) ++ skipn k (cells s)) by (rewrite <- HB1; symmetry; apply firstn_skipn).
      destruct (IH cut (A ++ B1) (skipn k (cells s)) ps0 l0) as (B & C & HC & HB & HL);
        [assumption|assumption|intros c Hin; apply Hb; right; exact Hin|exact Hc'|rewrite <- HB1; exact Hk|exact E0|].
      exists (B1 ++ B), C. split; [rewrite HR, HC at 1; now rewrite app_assoc|]. split.
      * cbn [flat_map]. rewrite HB. f_equal.
        rewrite <- Hw, <- Hk, HB1. apply crop_exact with (C := skipn k (cells s)); auto.
        rewrite Hc' at 1. now rewrite app_assoc.
      * rewrite app_assoc. exact HL.
    + apply (IH last A R ps l); auto. intros c Hin. apply Hb. right; exact Hin.
Qed.

Lemma divide_lossless : forall (s : strip) cuts,
  strip_ok gw s -> all_visible gw (cells s) ->
  (forall c, In c cuts -> c <= st_len s -> boundary gw (cells s) c) ->
  flat_map cells (divide gw s cuts) = cells s.
Proof.
  intros s cuts Hok Hv Hb. unfold divide. destruct cuts as [|c0 r]; [cbn; apply app_nil_r|].
  destruct (divide_loop gw s 0 (c0 :: r)) as [ps l] eqn:E.
  destruct (divide_loop_cells s (c0 :: r) 0 [] (cells s) ps l Hok Hv Hb eq_refl eq_refl E)
    as (B & C & HR & HB & HL). cbn [app] in HL.
  destruct (Nat.ltb_spec l (st_len s)) as [H|H].
  - rewrite flat_map_app, HB. cbn. rewrite app_nil_r, <- HL.
    assert (Hl : st_len s = CW (B ++ C)) by (rewrite <- HR; apply Hok).
    rewrite Hl. rewrite (crop_exact s B C []); [symmetry; exact HR|assumption|assumption|].
    now rewrite app_nil_r.
  - rewrite HB, HR. destruct C as [|c C]; [now rewrite app_nil_r|exfalso].
    rewrite HR in Hv. apply all_visible_app in Hv. destruct Hv as [_ Hv]. inversion Hv; subst.
    destruct Hok as [_ Hl]. rewrite HR, CW_app, CW_cons in Hl. lia.
Qed.

Lemma crop_len : forall (s : strip) a b, strip_ok gw s -> all_visible gw (cells s) ->
  boundary gw (cells s) a -> boundary gw (cells s) b -> a <= b ->
  st_len (crop s a b) = b - a.
Proof.
  intros s a b Hok Hv [ka Ha] [kb Hb] Hle.
  pose proof (crop_strip_ok s a b Hok) as [_ ->].
  destruct (prefix_by_width (cells s) (firstn ka (cells s)) (skipn ka (cells s)) kb) as [B [E1 E2]];
    [assumption|symmetry; apply firstn_skipn|lia|].
  rewrite <- Ha, <- Hb, E1 at 1.
  rewrite (crop_exact s _ B (skipn kb (cells s))); [|assumption|assumption|].
  - rewrite E1, CW_app in Hb. lia.
  - rewrite app_assoc, <- E1. symmetry. apply firstn_skipn.
Qed.

Lemma divide_loop_lens : forall (s : strip) cuts last,
  strip_ok gw s -> all_visible gw (cells s) ->
  (forall c, In c cuts -> c < st_len s /\ boundary gw (cells s) c) ->
  boundary gw (cells s) last -> increasing last cuts ->
  exists ps, divide_loop gw s last cuts = (ps, List.last cuts last) /\
  map (fun p => st_len p) ps = diffs last cuts.
Proof.
  intros s. induction cuts as [|cut r IH]; intros last Hok Hv Hb Hl Hi.
  - exists []. split; reflexivity.
  - cbn [increasing] in Hi. destruct Hi as [H1 H2].
    destruct (Hb cut (or_introl eq_refl)) as [H3 H4].
    destruct (IH cut Hok Hv) as (ps & E & Hm); auto.
    { intros c Hin. apply Hb. right; exact Hin. }
    cbn [divide_loop]. replace ((last <? cut) && (cut <=? st_len s)) with true by lia.
    rewrite E. exists (crop s last cut :: ps). split.
    + f_equal. apply last_default.
    + cbn [map diffs]. rewrite Hm. f_equal. apply crop_len; auto. lia.
Qed.

Lemma boundary_last : forall (s : strip), strip_ok gw s -> boundary gw (cells s) (st_len s).
Proof. intros s [_ H]. exists (length (cells s)). now rewrite firstn_all. Qed.

Lemma divide_lengths : forall (s : strip) cuts,
  strip_ok gw s -> all_visible gw (cells s) -> cuts <> [] ->
  (forall c, In c cuts -> c < st_len s /\ boundary gw (cells s) c) ->
  increasing 0 cuts ->
  map (fun p => st_len p) (divide gw s cuts) = diffs 0 (cuts ++ [st_len s]).
Proof.
  intros s cuts Hok Hv Hne Hb Hi.
  destruct (divide_loop_lens s cuts 0 Hok Hv Hb) as (ps & E & Hm); [exists 0; reflexivity|assumption|].
  unfold divide. destruct cuts as [|c0 r]; [congruence|]. rewrite E.
  assert (Hlt : List.last (c0 :: r) 0 < st_len s).
  { apply last_lt; [|intros c Hin; apply Hb; exact Hin].
    cbn [increasing] in Hi. specialize (Hb c0 (or_introl eq_refl)). lia. }
  destruct (Nat.ltb_spec (List.last (c0 :: r) 0) (st_len s)); [|lia].
  rewrite map_app, Hm, diffs_snoc. f_equal. cbn [map]. f_equal.
  apply crop_len; auto; [|now apply boundary_last|lia].
  destruct (exists_last (l := c0 :: r)) as [l' [x Hx]]; [discriminate|].
  rewrite Hx, last_last. apply Hb. rewrite Hx. apply in_or_app. right; left; reflexivity.
Qed.

(** *** simplify, join *)

Section Simplify.
Variable style_eqb : option St -> option St -> bool.
Variable meta_empty : Mt.

Definition style_sound := forall a b, style_eqb a b = true -> a = b.

Lemma visible_app : forall a b : list (@cell G St Mt), visible (a ++ b) = visible a ++ visible b.
Proof. intros. apply map_app. Qed.

Lemma visible_seg : forall (x : segment), visible (seg_cells x) = map (fun g => (g, sg_style x)) (sg_text x).
Proof. intros x. unfold visible, seg_cells. rewrite map_map. reflexivity. Qed.

Lemma visible_emit : forall t (s : option St),
  visible (flat_map seg_cells (emit_run gw meta_empty t s)) = map (fun g => (g, s)) t.
Proof.
  intros t s. destruct t as [|g t]; [reflexivity|]. cbn [emit_run flat_map].
  rewrite app_nil_r, visible_seg. reflexivity.
Qed.

Lemma simplify_loop_visible : style_sound -> forall (segs : list segment) t (s : option St),
  visible (flat_map seg_cells (simplify_loop gw style_eqb meta_empty t s segs))
  = map (fun g => (g, s)) t ++ visible (flat_map seg_cells segs).
Proof.
  intros HS. induction segs as [|x r IH]; intros t s; cbn [simplify_loop flat_map].
  - rewrite visible_emit. cbn. now rewrite app_nil_r.
  - destruct (style_eqb (sg_style x) s) eqn:E.
    + apply HS in E. rewrite IH, map_app, visible_app, visible_seg, E. now rewrite app_assoc.
    + rewrite flat_map_app, visible_app, visible_emit, IH, visible_app, visible_seg. reflexivity.
Qed.

Lemma simplify_visible : style_sound -> forall s : strip,
  visible (cells (simplify gw style_eqb meta_empty s)) = visible (cells s).
Proof.
  intros HS s. unfold simplify, cells. destruct (st_segs s) as [|x [|y r]] eqn:E; rewrite ?E; try reflexivity.
  change (st_segs (from_segments ?l)) with l. rewrite simplify_loop_visible by assumption.
  cbn [flat_map]. rewrite !visible_app, !visible_seg. reflexivity.
Qed.

Lemma emit_ok : forall t s, Forall (seg_ok gw) (emit_run (St:=St) gw meta_empty t s).
Proof. intros t s. destruct t; repeat constructor. Qed.

Lemma simplify_loop_ok : forall (segs : list segment) t (s : option St),
  Forall (seg_ok gw) (simplify_loop gw style_eqb meta_empty t s segs).
Proof.
  induction segs as [|x r IH]; intros t s; cbn [simplify_loop]; [apply emit_ok|].
  destruct (style_eqb (sg_style x) s); [apply IH|]. apply Forall_app. split; [apply emit_ok|apply IH].
Qed.

Lemma simplify_ok : forall s : strip, strip_ok gw s -> strip_ok gw (simplify gw style_eqb meta_empty s).
Proof.
  intros s H. unfold simplify. destruct (st_segs s) as [|x [|y r]]; try exact H.
  apply from_segments_ok, simplify_loop_ok.
Qed.

Lemma CW_visible : forall a b : list (@cell G St Mt), visible a = visible b -> CW a = CW b.
Proof.
  induction a as [|x a IH]; intros [|y b] E; try discriminate; [reflexivity|].
  unfold visible in E. cbn [map] in E. injection E as E1 E2. rewrite !CW_cons, E1. f_equal. now apply IH.
Qed.

Lemma simplify_len : style_sound -> forall s : strip, strip_ok gw s ->
  st_len (simplify gw style_eqb meta_empty s) = st_len s.
Proof.
  intros HS s H. pose proof (simplify_ok s H) as [_ E1]. destruct H as [_ E2].
  rewrite E1, E2. apply CW_visible. now apply simplify_visible.
Qed.

Lemma simplify_loop_alternate : forall (segs : list segment) t (s : option St), t <> [] ->
  Forall (fun x => sg_text x <> []) segs ->
  styles_alternate style_eqb (simplify_loop gw style_eqb meta_empty t s segs) /\
  (exists t' r, t' <> [] /\ simplify_loop gw style_eqb meta_empty t s segs = segment_new gw meta_empty t' s :: r).
Proof.
  induction segs as [|x r IH]; intros t s Ht HF; cbn [simplify_loop].
  - destruct t as [|g t]; [congruence|]. cbn. split; [exact I|]. exists (g :: t), []. split; [discriminate|reflexivity].
  - inversion HF as [|? ? Hx HF']; subst. destruct (style_eqb (sg_style x) s) eqn:E.
    + apply IH; [|assumption]. intros H. apply app_eq_nil in H. tauto.
    + destruct (IH (sg_text x) (sg_style x) Hx HF') as [A (t' & r' & Ht' & Er)].
      destruct t as [|g t]; [congruence|]. cbn [emit_run app]. rewrite Er in *.
      split; [|exists (g :: t); eexists; split; [discriminate|reflexivity]].
      cbn [styles_alternate]. split; [exact E|exact A].
Qed.

Lemma simplify_alternates : forall s : strip,
  Forall (fun x => sg_text x <> []) (st_segs s) ->
  styles_alternate style_eqb (st_segs (simplify gw style_eqb meta_empty s)).
Proof.
  intros s H. unfold simplify. destruct (st_segs s) as [|x [|y r]] eqn:E; rewrite ?E; cbn [styles_alternate]; auto.
  inversion H; subst. change (st_segs (from_segments ?l)) with l.
  apply simplify_loop_alternate; assumption.
Qed.

End Simplify.

Lemma join_cells : forall l : list strip, cells (join l) = flat_map cells l.
Proof.
  intros l. unfold join, cells; cbn. induction l as [|s l IH]; [reflexivity|].
  cbn. rewrite flat_map_app, IH. reflexivity.
Qed.

Lemma join_ok : forall l : list strip, Forall (strip_ok gw) l -> strip_ok gw (join l).
Proof.
  intros l H. apply from_segments_ok. induction H as [|s l [Hs _] Hl IH]; [constructor|].
  cbn. apply Forall_app. auto.
Qed.

(** *** padding *)

Variable meta_empty : Mt.
Variable space : G.
Hypothesis space_one : gw space = 1.

Lemma W_repeat : forall n, W (repeat space n) = n.
Proof. induction n as [|n IH]; [reflexivity|]. cbn [repeat]. rewrite W_cons, IH, space_one. reflexivity. Qed.

Lemma blank_ok : forall n s, seg_ok gw (segment_blank (St:=St) meta_empty space n s).
Proof. intros n s. unfold seg_ok; cbn. symmetry. apply W_repeat. Qed.

Lemma blank_cells : forall n (s : option St), seg_cells (segment_blank meta_empty space n s) = repeat (space, s, meta_empty) n.
Proof. intros n s. unfold seg_cells; cbn. induction n; cbn; congruence. Qed.

Lemma firstn_boundary : forall (s : strip) n, boundary gw (cells s) n -> strip_ok gw s ->
  all_visible gw (cells s) ->
  exists k, cells (crop s 0 n) = firstn k (cells s) /\ CW (firstn k (cells s)) = n.
Proof.
  intros s n [k Hk] Hok Hv. exists k. split; [|exact Hk].
  rewrite <- Hk. change 0 with (CW []). change (firstn k (cells s)) with ([] ++ firstn k (cells s)) at 1.
  apply crop_exact with (C := skipn k (cells s)); auto. cbn. symmetry. apply firstn_skipn.
Qed.

Lemma adjust_short : forall (s : strip) n pad, strip_ok gw s -> st_len s <= n ->
  cells (adjust_cell_length gw meta_empty space s n pad)
    = cells s ++ repeat (space, pad, meta_empty) (n - st_len s).
Proof.
  intros s n pad Hok H. unfold adjust_cell_length.
  destruct (Nat.eqb_spec (st_len s) n) as [->|Hn].
  - rewrite Nat.sub_diag. cbn. now rewrite app_nil_r.
  - destruct (Nat.ltb_spec n (st_len s)); [lia|].
    rewrite from_segments_cells, flat_map_app. cbn [flat_map]. rewrite blank_cells, app_nil_r. reflexivity.
Qed.

Lemma adjust_ok : forall (s : strip) n pad, strip_ok gw s ->
  strip_ok gw (adjust_cell_length gw meta_empty space s n pad).
Proof.
  intros s n pad Hok. unfold adjust_cell_length.
  destruct (st_len s =? n); [exact Hok|]. destruct (n <? st_len s); [now apply crop_strip_ok|].
  apply from_segments_ok, Forall_app. split; [apply Hok|]. constructor; [apply blank_ok|constructor].
Qed.

Lemma CW_repeat : forall n (s : option St) (m : Mt), CW (repeat (space, s, m) n) = n.
Proof. intros n s m. induction n as [|n IH]; [reflexivity|]. cbn [repeat]. rewrite CW_cons, IH. cbn [fst]. lia. Qed.

Lemma adjust_len : forall (s : strip) n pad, strip_ok gw s ->
  all_visible gw (cells s) -> (n < st_len s -> boundary gw (cells s) n) ->
  st_len (adjust_cell_length gw meta_empty space s n pad) = n.
Proof.
  intros s n pad Hok Hv Hb.
  destruct (adjust_ok s n pad Hok) as [_ ->].
  destruct (le_lt_dec (st_len s) n) as [H|H].
  - rewrite adjust_short by assumption. rewrite CW_app, CW_repeat. destruct Hok as [_ Hl]. lia.
  - unfold adjust_cell_length. destruct (Nat.eqb_spec (st_len s) n); [lia|].
    destruct (Nat.ltb_spec n (st_len s)); [|lia].
    destruct (firstn_boundary s n (Hb H) Hok Hv) as (k & -> & ?). assumption.
Qed.

Lemma adjust_long : forall (s : strip) n pad, strip_ok gw s ->
  all_visible gw (cells s) -> n < st_len s -> boundary gw (cells s) n ->
  exists k, cells (adjust_cell_length gw meta_empty space s n pad) = firstn k (cells s)
            /\ CW (firstn k (cells s)) = n.
Proof.
  intros s n pad Hok Hv H Hb. unfold adjust_cell_length. destruct (Nat.eqb_spec (st_len s) n); [lia|].
  destruct (Nat.ltb_spec n (st_len s)); [|lia]. apply firstn_boundary; assumption.
Qed.

Lemma text_align_ok : forall (s : strip) a n pad, strip_ok gw s ->
  strip_ok gw (text_align gw meta_empty space s a n pad).
Proof.
  intros s a n pad Hok. unfold text_align. destruct (n <=? st_len s); [now apply crop_strip_ok|].
  destruct a; apply from_segments_ok; repeat (apply Forall_app; split); try apply Hok;
    repeat constructor; try apply blank_ok; try apply Hok.
  - destruct (0 <? (n - st_len s) / 2); repeat constructor; apply blank_ok.
  - destruct (0 <? n - st_len s - (n - st_len s) / 2); repeat constructor; apply blank_ok.
Qed.

Lemma text_align_cells : forall (s : strip) a n pad, strip_ok gw s -> st_len s < n ->
  let gap := n - st_len s in
  cells (text_align gw meta_empty space s a n pad)
  = repeat (space, pad, meta_empty) (left_pad a gap) ++ cells s
    ++ repeat (space, pad, meta_empty) (gap - left_pad a gap).
Proof.
  intros s a n pad Hok H gap. unfold text_align. destruct (Nat.leb_spec n (st_len s)); [lia|]. fold gap.
  destruct a; cbn [left_pad]; rewrite from_segments_cells.
  - rewrite flat_map_app. cbn [flat_map repeat app]. rewrite blank_cells, app_nil_r, Nat.sub_0_r. reflexivity.
  - rewrite !flat_map_app. unfold cells. f_equal; [|f_equal].
    + destruct (Nat.ltb_spec 0 (gap / 2)); cbn [flat_map].
      * now rewrite blank_cells, app_nil_r.
      * replace (gap / 2) with 0 by lia. reflexivity.
    + destruct (Nat.ltb_spec 0 (gap - gap / 2)); cbn [flat_map].
      * now rewrite blank_cells, app_nil_r.
      * replace (gap - gap / 2) with 0 by lia. reflexivity.
  - cbn [flat_map]. rewrite blank_cells, Nat.sub_diag. cbn [repeat]. now rewrite app_nil_r.
Qed.

Lemma text_align_len : forall (s : strip) a n pad, strip_ok gw s ->
  all_visible gw (cells s) -> (n < st_len s -> boundary gw (cells s) n) ->
  st_len (text_align gw meta_empty space s a n pad) = n.
Proof.
  intros s a n pad Hok Hv Hb. destruct (text_align_ok s a n pad Hok) as [_ ->].
  destruct (le_lt_dec n (st_len s)) as [H|H].
  - unfold text_align. destruct (Nat.leb_spec n (st_len s)); [|lia].
    assert (Hbn : boundary gw (cells s) n).
    { destruct (Nat.eq_dec n (st_len s)) as [->|]; [now apply boundary_last|apply Hb; lia]. }
    destruct (firstn_boundary s n Hbn Hok Hv) as (k & -> & ?). assumption.
  - rewrite text_align_cells by assumption. rewrite !CW_app, !CW_repeat.
    destruct Hok as [_ Hl]. assert (left_pad a (n - st_len s) <= n - st_len s).
    { destruct a; cbn [left_pad]; lia. }
    lia.
Qed.

(** *** justify *)

Variable is_space : G -> bool.
Hypothesis is_space_spec : forall g, is_space g = true <-> g = space.

Notation stretchl e := (stretch is_space (fun i => nth i e 0)).

Lemma stretch_app : forall (f : nat -> nat) (a b : list (@cell G St Mt)) i,
  stretch is_space f i (a ++ b) = stretch is_space f i a ++ stretch is_space f (i + spaces is_space a) b.
Proof.
  intros f. induction a as [|c a IH]; intros b i; cbn [app stretch].
  - unfold spaces; cbn. now rewrite Nat.add_0_r.
  - unfold spaces; cbn [filter]. fold (spaces is_space a).
    destruct (is_space (fst (fst c))).
    + rewrite IH. cbn [length]. unfold spaces. rewrite Nat.add_succ_r. cbn [Nat.add]. now rewrite app_assoc.
    + rewrite IH. reflexivity.
Qed.

Lemma word_cells : forall t n (s : option St) (m : Mt),
  flat_map seg_cells (match t with [] => [] | _ => [Segment t n s m : segment] end)
  = map (fun g => (g, s, m)) t.
Proof. intros t n s m. destruct t; [reflexivity|]. cbn. now rewrite app_nil_r. Qed.

Lemma justify_chars_cells : forall extras t gi buf (s : option St) (m : Mt) out gi',
  Forall (fun g => is_space g = false) buf ->
  justify_chars gw space is_space extras gi buf s m t = (out, gi') ->
  flat_map seg_cells out
   = map (fun g => (g, s, m)) buf ++ stretchl extras gi (map (fun g => (g, s, m)) t)
  /\ gi' = gi + length (filter is_space t)
  /\ Forall (seg_ok gw) out.
Proof.
  intros extras. induction t as [|ch t IH]; intros gi buf s m out gi' HB E; cbn [justify_chars] in E.
  - injection E as <- <-. cbn [map stretch filter length]. rewrite app_nil_r, Nat.add_0_r.
    split; [apply word_cells|]. split; [reflexivity|]. destruct buf; repeat constructor.
  - cbn [map stretch filter]. cbn [fst]. destruct (is_space ch) eqn:Es.
    + destruct (justify_chars gw space is_space extras (S gi) [] s m t) as [o g1] eqn:E1.
      injection E as <- <-. destruct (IH (S gi) [] s m o g1 ltac:(constructor) E1) as (A & B & C).
      apply is_space_spec in Es. subst ch. split; [|split].
      * rewrite flat_map_app. cbn [flat_map]. unfold build_segment at 1.
        rewrite word_cells. f_equal. rewrite A. cbn [map app]. f_equal.
        unfold seg_cells, build_segment; cbn [sg_text sg_style sg_meta].
        exact (map_repeat_ _ _ (fun g => (g, s, m)) space (S (nth gi extras 0))).
      * cbn [length]. lia.
      * apply Forall_app. split; [destruct buf; repeat constructor|]. constructor; [reflexivity|exact C].
    + destruct (IH gi (buf ++ [ch]) s m out gi' ltac:(apply Forall_app; split; [exact HB|repeat constructor; exact Es]) E) as (A & B & C).
      split; [|split]; auto. rewrite A, map_app, <- app_assoc. reflexivity.
Qed.

Lemma spaces_seg : forall x : segment, spaces is_space (seg_cells x) = length (filter is_space (sg_text x)).
Proof.
  intros [t n s m]. unfold spaces, seg_cells; cbn. induction t as [|g t IH]; [reflexivity|].
  cbn. destruct (is_space g); cbn; now rewrite IH.
Qed.

Lemma justify_segs_cells : forall extras (segs : list segment) gi,
  flat_map seg_cells (justify_segs gw space is_space extras gi segs)
  = stretchl extras gi (flat_map seg_cells segs)
  /\ Forall (seg_ok gw) (justify_segs gw space is_space extras gi segs).
Proof.
  intros extras. induction segs as [|x r IH]; intros gi; cbn [justify_segs flat_map].
  - split; [reflexivity|constructor].
  - destruct (justify_chars gw space is_space extras gi [] (sg_style x) (sg_meta x) (sg_text x)) as [o g1] eqn:E.
    destruct (justify_chars_cells extras (sg_text x) gi [] (sg_style x) (sg_meta x) o g1 ltac:(constructor) E) as (A & B & C).
    destruct (IH g1) as [IHc IHo]. split.
    + rewrite flat_map_app, A, IHc, stretch_app, spaces_seg, B. reflexivity.
    + apply Forall_app. auto.
Qed.

Lemma spaces_app : forall a b : list (@cell G St Mt), spaces is_space (a ++ b) = spaces is_space a + spaces is_space b.
Proof. intros a b. unfold spaces. rewrite filter_app, app_length. reflexivity. Qed.

Lemma gap_count_spaces : forall s : strip, gap_count is_space (st_segs s) = spaces is_space (cells s).
Proof.
  intros s. unfold gap_count, cells. induction (st_segs s) as [|x r IH]; [reflexivity|].
  cbn [fold_right flat_map]. rewrite IH, spaces_app, spaces_seg. reflexivity.
Qed.

Lemma stretch_ext : forall f g (l : list (@cell G St Mt)) i,
  (forall j, i <= j < i + spaces is_space l -> f j = g j) ->
  stretch is_space f i l = stretch is_space g i l.
Proof.
  intros f g. induction l as [|c l IH]; intros i H; [reflexivity|]. cbn [stretch].
  unfold spaces in H; cbn [filter] in H. destruct (is_space (fst (fst c))) eqn:E; cbn [length] in H.
  - rewrite H by lia. f_equal. apply IH. intros j Hj. apply H. unfold spaces in Hj. lia.
  - f_equal. apply IH. intros j Hj. apply H. unfold spaces in Hj. lia.
Qed.

Lemma CW_repeat_cell : forall n (c : @cell G St Mt), CW (repeat c n) = n * gw (fst (fst c)).
Proof. induction n as [|n IH]; intros c; [reflexivity|]. cbn [repeat]. rewrite CW_cons, IH. lia. Qed.

Lemma stretch_width : forall f (l : list (@cell G St Mt)) i,
  CW (stretch is_space f i l) = CW l + sumf f i (spaces is_space l).
Proof.
  intros f. induction l as [|c l IH]; intros i; [reflexivity|]. cbn [stretch].
  unfold spaces; cbn [filter]. destruct (is_space (fst (fst c))) eqn:E.
  - cbn [length sumf]. fold (spaces is_space l). rewrite CW_app, CW_repeat_cell, IH, CW_cons.
    apply is_space_spec in E. rewrite E, space_one. lia.
  - fold (spaces is_space l). rewrite !CW_cons, IH. lia.
Qed.

Lemma justify_cells : forall (s : strip) w pad, strip_ok gw s -> st_len s < w ->
  let gaps := spaces is_space (cells s) in 0 < gaps ->
  cells (justify gw meta_empty space is_space s w pad)
    = stretch is_space (even_share gaps (w - st_len s)) 0 (cells s) /\
  strip_ok gw (justify gw meta_empty space is_space s w pad) /\
  st_len (justify gw meta_empty space is_space s w pad) = w.
Proof.
  intros s w pad Hok Hw gaps Hg. unfold justify.
  destruct (Nat.leb_spec w (st_len s)); [lia|].
  rewrite gap_count_spaces. fold gaps. destruct (Nat.eqb_spec gaps 0); [lia|].
  destruct (spread_spec gaps (w - st_len s) Hg) as (HL & HSum & Hn).
  destruct (justify_segs_cells (spread gaps (w - st_len s)) (st_segs s) 0) as [HC HO].
  set (res := justify_segs gw space is_space (spread gaps (w - st_len s)) 0 (st_segs s)) in *.
  assert (Hcells : cells (from_segments res) = stretch is_space (even_share gaps (w - st_len s)) 0 (cells s)).
  { rewrite from_segments_cells, HC. apply stretch_ext. intros j Hj. apply Hn. exact (proj2 Hj). }
  split; [exact Hcells|]. split; [now apply from_segments_ok|].
  destruct (from_segments_ok res HO) as [_ ->]. rewrite from_segments_cells, HC, stretch_width.
  change (flat_map seg_cells (st_segs s)) with (cells s). fold gaps. rewrite <- HL at 1.
  rewrite sumf_list, HSum. destruct Hok as [_ Hl]. lia.
Qed.

Lemma justify_no_gap : forall (s : strip) w pad, st_len s < w -> spaces is_space (cells s) = 0 ->
  justify gw meta_empty space is_space s w pad = text_align gw meta_empty space s HLeft w pad.
Proof.
  intros s w pad Hw Hg. unfold justify. destruct (Nat.leb_spec w (st_len s)); [lia|].
  rewrite gap_count_spaces, Hg. reflexivity.
Qed.

Lemma justify_long : forall (s : strip) w pad, w <= st_len s ->
  justify gw meta_empty space is_space s w pad = crop s 0 w.
Proof. intros s w pad H. unfold justify. destruct (Nat.leb_spec w (st_len s)); [reflexivity|lia]. Qed.

End Proofs.

Lemma split_loop_narrow : forall (G : Type) (gw : G -> nat) cut t pos l r p,
  Forall (fun g => gw g = 1) t -> split_loop gw cut pos t = (l, r, p) ->
  l = firstn (cut - pos) t /\ r = skipn (cut - pos) t.
Proof.
  intros G gw cut. induction t as [|g t IH]; intros pos l r p HF E; cbn [split_loop] in E.
  - injection E as <- <- <-. now rewrite firstn_nil, skipn_nil.
  - inversion HF as [|? ? Hg HF']; subst. destruct (Nat.leb_spec cut pos).
    + injection E as <- <- <-. replace (cut - pos) with 0 by lia. split; reflexivity.
    + destruct (split_loop gw cut (pos + gw g) t) as [[l0 r0] p0] eqn:E0.
      injection E as <- <- <-. destruct (IH _ _ _ _ HF' E0) as [-> ->].
      rewrite Hg. replace (cut - pos) with (S (cut - (pos + 1))) by lia. split; reflexivity.
Qed.

Lemma split_narrow : forall (G St Mt : Type) (gw : G -> nat) (s : @segment G St Mt) cut,
  seg_ok gw s -> Forall (fun g => gw g = 1) (sg_text s) ->
  sg_text (fst (split_at gw s cut)) = firstn cut (sg_text s) /\
  sg_text (snd (split_at gw s cut)) = skipn cut (sg_text s).
Proof.
  intros G St Mt gw s cut Hok HF. unfold split_at.
  destruct (Nat.eqb_spec cut 0) as [->|]; [split; reflexivity|].
  destruct (Nat.leb_spec (sg_len s) cut) as [H|H].
  - cbn [fst snd sg_text]. assert (length (sg_text s) = sg_len s).
    { unfold seg_ok in Hok. rewrite Hok. clear -HF. unfold text_width.
      induction HF as [|g t Hg HF IH]; [reflexivity|]. cbn. now rewrite IH, Hg. }
    rewrite firstn_all2, skipn_all2 by lia. split; reflexivity.
  - destruct (split_loop gw cut 0 (sg_text s)) as [[l r] p] eqn:E.
    apply split_loop_narrow in E; [|exact HF]. rewrite Nat.sub_0_r in E. exact E.
Qed.

Lemma adjust_pads :
  forall (G St Mt : Type) (gw : G -> nat) (me : Mt) (space : G) (s : @strip G St Mt) n pad,
  gw space = 1 -> strip_ok gw s -> st_len s <= n ->
  cells (adjust_cell_length gw me space s n pad)
    = cells s ++ repeat (space, pad, me) (n - st_len s) /\
  st_len (adjust_cell_length gw me space s n pad) = n.
Proof.
  intros G St Mt gw me space s n pad H1 Hok H.
  pose proof (adjust_short gw me space H1 s n pad Hok H) as E. split; [exact E|].
  destruct (adjust_ok gw me space H1 s n pad Hok) as [_ ->].
  rewrite E, CW_app, CW_repeat by assumption. destruct Hok as [_ Hl]. lia.
Qed.

Lemma adjust_cuts :
  forall (G St Mt : Type) (gw : G -> nat) (me : Mt) (space : G) (s : @strip G St Mt) n pad,
  gw space = 1 -> strip_ok gw s -> all_visible gw (cells s) ->
  n < st_len s -> boundary gw (cells s) n ->
  (exists rest, cells s = cells (adjust_cell_length gw me space s n pad) ++ rest) /\
  st_len (adjust_cell_length gw me space s n pad) = n.
Proof.
  intros G St Mt gw me space s n pad H1 Hok Hv Hn Hb. split.
  - destruct (adjust_long gw me space H1 s n pad Hok Hv Hn Hb) as (k & -> & _).
    exists (skipn k (cells s)). symmetry. apply firstn_skipn.
  - apply adjust_len; auto.
Qed.

Lemma text_align_width :
  forall (G St Mt : Type) (gw : G -> nat) (me : Mt) (space : G) (s : @strip G St Mt) a n pad,
  gw space = 1 -> strip_ok gw s -> all_visible gw (cells s) ->
  (n < st_len s -> boundary gw (cells s) n) ->
  st_len (text_align gw me space s a n pad) = n /\
  strip_ok gw (text_align gw me space s a n pad).
Proof. intros. split; [apply text_align_len|apply text_align_ok]; assumption. Qed.

Lemma stretch_words : forall (G St Mt : Type) (is_space : G -> bool) f (l : list (@cell G St Mt)) i,
  filter (fun c => negb (is_space (fst (fst c)))) (stretch is_space f i l)
  = filter (fun c => negb (is_space (fst (fst c)))) l.
Proof.
  intros G St Mt isp f. induction l as [|c l IH]; intros i; [reflexivity|].
  cbn [stretch filter]. destruct (isp (fst (fst c))) eqn:E; cbn [negb].
  - rewrite filter_app, IH. replace (filter _ (repeat c (1 + f i))) with (@nil (@cell G St Mt)); [reflexivity|].
    generalize (1 + f i). induction n as [|n IHn]; [reflexivity|]. cbn. rewrite E. exact IHn.
  - cbn [filter]. rewrite E. cbn [negb]. now rewrite IH.
Qed.

Lemma justify_words : forall (G St Mt : Type) (gw : G -> nat) (me : Mt) (space : G) is_space
    (s : @strip G St Mt) w pad,
  gw space = 1 -> (forall g, is_space g = true <-> g = space) ->
  strip_ok gw s -> st_len s < w -> 0 < spaces is_space (cells s) ->
  (forall gaps extra i j, even_share gaps extra i <= even_share gaps extra j + 1) /\
  filter (fun c => negb (is_space (fst (fst c)))) (cells (justify gw me space is_space s w pad))
  = filter (fun c => negb (is_space (fst (fst c)))) (cells s).
Proof.
  intros G St Mt gw me space isp s w pad H1 H2 Hok Hw Hg. split.
  - intros gaps extra i j. unfold even_share.
    destruct (gaps - extra mod gaps <=? i), (gaps - extra mod gaps <=? j); lia.
  - destruct (justify_cells gw me space H1 isp H2 s w pad Hok Hw Hg) as (-> & _). apply stretch_words.
Qed.
